(** Model of class MeshFactory (src/mesh/mesh_factory/MeshFactory.hh:110-445, MeshFactory.cc:70-591) and of the requested-entity
    closure in the constructor of class Mesh (src/mesh/Mesh.hh:142-193).
    Coordinates are exact reals (the code uses double).  Framework constructors are oracles that either succeed or throw,
    except that Mesh_simple's 2D constructor always throws (Mesh_simple.cc:104-121). *)
From Coq Require Import Reals.
From Verif Require Import Base Defs IndexPartition.
Set Implicit Arguments.

(** ** Mesh constructor, Mesh.hh:153-193 *)
Record flags := Flags { fl_faces : bool; fl_edges : bool; fl_sides : bool; fl_wedges : bool; fl_corners : bool }.
(** body of the constructor, Mesh.hh:182-192 *)
Definition close_flags (f : flags) : flags :=
  let f := if fl_corners f then Flags (fl_faces f) (fl_edges f) (fl_sides f) true (fl_corners f) else f in
  let f := if fl_wedges f then Flags (fl_faces f) (fl_edges f) true (fl_wedges f) (fl_corners f) else f in
  if fl_sides f then Flags true true (fl_sides f) (fl_wedges f) (fl_corners f) else f.

(** ** Factory options *)
(** MeshFramework_t, MeshFactory.hh / MeshDefs *)
Inductive framework := Simple | MSTK | MOAB | STKMESH.
(** JaliGeometry::Geom_type *)
Inductive geom_type := CARTESIAN | CYLINDRICAL | SPHERICAL.
(** data members, MeshFactory.hh:394-444; geometric_model_ is a pointer (None = nullptr) to a model of the given dimension *)
Record factory := Factory {
  fa_framework : framework;
  fa_edges : bool; fa_faces : bool; fa_cells : bool; fa_sides : bool; fa_wedges : bool; fa_corners : bool;
  fa_boundary_ghosts : bool; fa_num_tiles : Z; fa_ghosts_tile : Z; fa_ghosts_dist : Z;
  fa_partitioner : partitioner; fa_geom : geom_type; fa_gm : option nat; fa_contig : bool }.

(** defaults, MeshFactory.hh:394-444 *)
Definition new_factory : factory :=
  Factory MSTK false true true false false false false 0 0 1 PINDEX CARTESIAN None false.

(** MeshFactory::reset_options, MeshFactory.cc:145-180 *)
Definition reset_options (f : factory) : factory :=
  Factory MSTK false true true (fa_sides f) false false false 0 0 1 PINDEX CARTESIAN None false.

(** included_entities(kind), MeshFactory.hh:247-270 *)
Definition include1 (f : factory) (k : entity_kind) : factory :=
  let mk e fc c s w co := Factory (fa_framework f) e fc c s w co (fa_boundary_ghosts f) (fa_num_tiles f) (fa_ghosts_tile f)
     (fa_ghosts_dist f) (fa_partitioner f) (fa_geom f) (fa_gm f) (fa_contig f) in
  let e := fa_edges f in let fc := fa_faces f in let c := fa_cells f in let s := fa_sides f in let w := fa_wedges f in
  let co := fa_corners f in
  match k with
  | ALL_KIND => mk true true true true true true
  | EDGE => mk true fc c s w co
  | FACE => mk e true c s w co
  | SIDE => mk e fc c true w co
  | WEDGE => mk e fc c s true co
  | CORNER => mk e fc c s w true
  | CELL => mk e fc true s w co
  | _ => f
  end.
(** excluded_entities(list), one element, MeshFactory.hh:274-297 *)
Definition exclude1 (f : factory) (k : entity_kind) : factory :=
  let mk e s w co := Factory (fa_framework f) e (fa_faces f) (fa_cells f) s w co (fa_boundary_ghosts f) (fa_num_tiles f) (fa_ghosts_tile f)
     (fa_ghosts_dist f) (fa_partitioner f) (fa_geom f) (fa_gm f) (fa_contig f) in
  let e := fa_edges f in let s := fa_sides f in let w := fa_wedges f in let co := fa_corners f in
  match k with
  | EDGE => mk false s w co
  | SIDE => mk e false w co
  | WEDGE => mk e s false co
  | CORNER => mk e s w false
  | _ => f
  end.
(** included_entities() getter, MeshFactory.hh:227-237 *)
Definition included (f : factory) : list entity_kind :=
  [NODE] ++ (if fa_edges f then [EDGE] else []) ++ (if fa_faces f then [FACE] else []) ++ (if fa_sides f then [SIDE] else [])
  ++ (if fa_wedges f then [WEDGE] else []) ++ (if fa_corners f then [CORNER] else []) ++ (if fa_cells f then [CELL] else []).

(** the public operations that change options, MeshFactory.hh:126-309 *)
Inductive fop :=
| OpReset | OpFramework (fr : framework) | OpPartitioner (p : partitioner) | OpGeom (g : geom_type) | OpGhostsDist (n : Z)
| OpBoundaryGhosts (b : bool) | OpTiles (n : Z) | OpGhostsTile (n : Z) | OpContig (b : bool)
| OpInclude (l : list entity_kind) | OpExclude (l : list entity_kind) | OpModel (gm : option nat).

Definition upd (f : factory) fr bg nt gt gd pa ge gm co : factory :=
  Factory fr (fa_edges f) (fa_faces f) (fa_cells f) (fa_sides f) (fa_wedges f) (fa_corners f) bg nt gt gd pa ge gm co.
Definition apply_op (f : factory) (o : fop) : outcome factory :=
  let fr := fa_framework f in let bg := fa_boundary_ghosts f in let nt := fa_num_tiles f in let gt := fa_ghosts_tile f in
  let gd := fa_ghosts_dist f in let pa := fa_partitioner f in let ge := fa_geom f in let gm := fa_gm f in let co := fa_contig f in
  match o with
  | OpReset => Ok (reset_options f)
  | OpFramework Simple => Ok (upd f Simple bg nt gt gd pa ge gm co)       (* MeshFactory.hh:133-142 *)
  | OpFramework MSTK => Ok (upd f MSTK bg nt gt gd pa ge gm co)
  | OpFramework _ => Thrown
  | OpPartitioner p => Ok (upd f fr bg nt gt gd p ge gm co)
  | OpGeom g => Ok (upd f fr bg nt gt gd pa g gm co)
  | OpGhostsDist n => Ok (upd f fr bg nt gt n pa ge gm co)
  | OpBoundaryGhosts b => Ok (upd f fr b nt gt gd pa ge gm co)
  | OpTiles n => Ok (upd f fr bg n gt gd pa ge gm co)
  | OpGhostsTile n => Ok (upd f fr bg nt n gd pa ge gm co)
  | OpContig b => Ok (upd f fr bg nt gt gd pa ge gm b)
  | OpInclude l => Ok (fold_left include1 l f)
  | OpExclude l => Ok (fold_left exclude1 l f)
  | OpModel g => Ok (upd f fr bg nt gt gd pa ge g co)
  end.
(** a history; a throwing operation leaves the factory as it was and the history goes on *)
Definition step (f : factory) (o : fop) : factory := match apply_op f o with Ok f' => f' | _ => f end.
Definition run_ops (f : factory) (l : list fop) : factory := fold_left step l f.

(** ** Mesh creation *)
(** how the framework's constructor behaves on this rank *)
Inductive ctor_behaviour := CtorOk | CtorThrows.
(** what create returns: a null pointer or a mesh *)
Inductive mesh_ptr := NullPtr | MeshPtr (dim : nat) (f : flags) (nodes1d : list R) (ncells : list Z).

Definition mesh_flags (f : factory) : flags :=
  close_flags (Flags (fa_faces f) (fa_edges f) (fa_sides f) (fa_wedges f) (fa_corners f)).

(** one rank's view of create: number of MPI_Allreduce calls it takes part in, and how it ends *)
Inductive rank_end := Returns (m : mesh_ptr) | Throws.
Record rank_run := Run { reduces : nat; ends : rank_end }.

Local Open Scope R_scope.
Definition nonpos (x : R) : bool := if Rle_dec x 0 then true else false.
Definition gm_mismatch (f : factory) (d : nat) : bool := match fa_gm f with Some g => negb (g =? d)%nat | None => false end.

(** the "try { switch (framework_) } catch ... Allreduce" tail; [others] = some other rank reports an error in this reduction.
    A constructor that succeeds returns at once, before the reduction. *)
Definition finish (k : nat) (local_err : bool) (others : bool) : rank_run :=
  Run (S k) (if local_err || others then Throws else Returns NullPtr).

(** create(x0,y0,z0,x1,y1,z1,nx,ny,nz), MeshFactory.cc:252-340.  [errs k] = another rank contributes an error to the
    k-th reduction; [mstk] = HAVE_MSTK_MESH *)
Definition create3 (mstk : bool) (numprocs : nat) (ctor : ctor_behaviour) (errs : nat -> bool) (f : factory)
    (x0 y0 z0 x1 y1 z1 : R) (nx ny nz : Z) : rank_run :=
  if gm_mismatch f 3 then Run 0 Throws else
  let e1 := (nx <=? 0)%Z || (ny <=? 0)%Z || (nz <=? 0)%Z in
  if e1 || errs 0%nat then Run 1 Throws else
  let e2 := nonpos (x1 - x0) || nonpos (y1 - y0) || nonpos (z1 - z0) in
  if e2 || errs 1%nat then Run 2 Throws else
  match fa_framework f with
  | Simple => if (numprocs =? 1)%nat then
                match ctor with CtorOk => Run 2 (Returns (MeshPtr 3 (mesh_flags f) [] [nx; ny; nz]))
                | CtorThrows => finish 2 true (errs 2%nat) end
              else finish 2 true (errs 2%nat)
  | MSTK => if mstk then
              match ctor with CtorOk => Run 2 (Returns (MeshPtr 3 (mesh_flags f) [] [nx; ny; nz]))
              | CtorThrows => finish 2 true (errs 2%nat) end
            else finish 2 true (errs 2%nat)
  | _ => finish 2 true (errs 2%nat)
  end.

(** create(x0,y0,x1,y1,nx,ny), MeshFactory.cc:357-445: the default branch does not set ierr *)
Definition create2 (mstk : bool) (numprocs : nat) (ctor : ctor_behaviour) (errs : nat -> bool) (f : factory)
    (x0 y0 x1 y1 : R) (nx ny : Z) : rank_run :=
  if gm_mismatch f 2 then Run 0 Throws else
  let e1 := (nx <=? 0)%Z || (ny <=? 0)%Z in
  if e1 || errs 0%nat then Run 1 Throws else
  let e2 := nonpos (x1 - x0) || nonpos (y1 - y0) in
  if e2 || errs 1%nat then Run 2 Throws else
  match fa_framework f with
  | Simple => finish 2 true (errs 2%nat)             (* Mesh_simple's 2D constructor throws; or not serial *)
  | MSTK => if mstk then
              match ctor with CtorOk => Run 2 (Returns (MeshPtr 2 (mesh_flags f) [] [nx; ny]))
              | CtorThrows => finish 2 true (errs 2%nat) end
            else finish 2 false (errs 2%nat)
  | _ => finish 2 false (errs 2%nat)
  end.

(** create(vector x), MeshFactory.cc:456-526 *)
Definition create1 (numprocs : nat) (ctor : ctor_behaviour) (errs : nat -> bool) (f : factory) (xs : list R) : rank_run :=
  if gm_mismatch f 1 || errs 0%nat then Run 1 Throws else
  if (length xs <? 2)%nat || errs 1%nat then Run 2 Throws else
  if nonpos (last xs 0 - hd 0 xs) || errs 2%nat then Run 3 Throws else
  match fa_framework f with
  | Simple => if (numprocs =? 1)%nat then
                match ctor with CtorOk => Run 3 (Returns (MeshPtr 1 (mesh_flags f) xs [Z.of_nat (length xs) - 1]%Z))
                | CtorThrows => finish 3 true (errs 3%nat) end
              else finish 3 true (errs 3%nat)
  | _ => finish 3 true (errs 3%nat)
  end.

(** operator()(x0,x1,nx), MeshFactory.hh:336-348: vector<double> x(nx) (a negative nx is a length error: throws);
    nx = 0 divides by zero in floating point, which is harmless since no value is used *)
Fixpoint uniform_nodes (n : nat) (myX dX : R) : list R :=
  match n with O => [] | S k => myX :: uniform_nodes k (myX + dX) dX end.
Definition create1_uniform (numprocs : nat) (ctor : ctor_behaviour) (errs : nat -> bool) (f : factory) (x0 x1 : R) (nx : Z) : rank_run :=
  if (nx <? 0)%Z then Run 0 Throws else
  create1 numprocs ctor errs f (uniform_nodes (Z.to_nat nx) x0 ((x1 - x0) / IZR nx)).

(** create(filename) and create(inmesh, ...) (extraction), MeshFactory.cc:190-238 and 544-591 *)
Definition create_file (mstk : bool) (ctor : ctor_behaviour) (errs : nat -> bool) (f : factory) (mesh_dim : nat) : rank_run :=
  match fa_framework f with
  | MSTK => if mstk then
      match ctor with
      | CtorOk => if gm_mismatch f mesh_dim then finish 0 true (errs 0%nat) else Run 0 (Returns (MeshPtr mesh_dim (mesh_flags f) [] []))
      | CtorThrows => finish 0 true (errs 0%nat) end
      else finish 0 true (errs 0%nat)
  | _ => finish 0 true (errs 0%nat)
  end.
Definition create_extract (mstk : bool) (ctor : ctor_behaviour) (errs : nat -> bool) (f : factory) (mesh_dim : nat) : rank_run :=
  match fa_framework f with
  | MSTK => if mstk then
      match ctor with CtorOk => Run 0 (Returns (MeshPtr mesh_dim (mesh_flags f) [] []))
      | CtorThrows => finish 0 true (errs 0%nat) end
      else finish 0 true (errs 0%nat)
  | _ => finish 0 true (errs 0%nat)
  end.

(** framework_available, framework_generates, framework_reads, framework_extracts: MeshFactory.cc:92-136 *)
Definition framework_available (f : framework) : bool := match f with Simple | MSTK => true | _ => false end.
Definition framework_generates (f : framework) (parallel : bool) (dim : nat) : bool :=
  match f with
  | Simple => negb parallel && ((dim =? 1)%nat || (dim =? 3)%nat)
  | MSTK => (dim =? 2)%nat || (dim =? 3)%nat
  | STKMESH => (dim =? 3)%nat && negb parallel
  | MOAB => false
  end.
