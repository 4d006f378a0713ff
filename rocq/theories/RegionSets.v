(** Model of the sets a mesh builds from the regions of its geometric model: src/mesh/Mesh.cc:2355-2454
    (init_sets_from_geometric_model), 2507-2592 (valid_region_name, find_meshset_from_region), 2650-3023 (build_set_from_region),
    3026-3075 (point_in_cell).  Jali_throw is modelled by its default behaviour, throwing. *)
From Coq Require Import Reals String.
From Verif Require Import Base Loop Defs Factory MeshSet Cache Point Geometry Regions MeshGeom.
Set Implicit Arguments.
Local Open Scope R_scope.

(** ** Region objects, Region.hh:69-180 *)
(** Region.hh:81 *)
Inductive lifecycle := PERMANENT | TEMPORARY.
(** the types of Region.hh:69-79.  No class of the library has the types COLORFUNCTION, LAYER or SURFACE: only a class of the user
    could, so its inside() is any function. *)
Inductive rshape :=
| SBox (r : box) | SPlane (r : plane) | SPoint (q : point) | SPolygon (r : polyreg)
| SColor (f : point -> outcome bool) | SOther (f : point -> outcome bool)
| SLogical (r : logical) | SLabeled (r : labeled).
(** Region.hh:100-180: name(), dimension(), lifecycle() and the data of the derived class *)
Record rgn := Rgn { rn_name : string; rn_dim : nat; rn_life : lifecycle; rn_shape : rshape }.
(** region->inside(p) *)
Definition inside (r : rgn) (p : point) : outcome bool :=
  match rn_shape r with
  | SBox b => box_inside b p | SPlane b => plane_inside b p | SPoint q => point_inside q p | SPolygon b => polygon_inside b p
  | SColor f => f p | SOther f => f p | SLogical b => logical_inside b p | SLabeled b => labeled_inside b p
  end.
(** the geometric model: its dimension and its regions in order *)
Record gmodel := GModel { gd_dim : nat; gd_regions : list rgn }.
(** GeometricModel::FindRegion(name), GeometricModel.cc:265-283 *)
Fixpoint find_rgn (l : list rgn) (n : string) : option rgn :=
  match l with [] => None | r :: t => if String.eqb (rn_name r) n then Some r else find_rgn t n end.

(** ** The mesh as these functions see it *)
Record mview := MView {
  v_celldim : nat;                                   (* manifold_dimension() *)
  v_faces : bool;                                    (* faces_requested *)
  v_types : entity_kind -> list entity_type;         (* entity_get_type(kind, 0), ..., entity_get_type(kind, n-1) *)
  v_cell_centroid : nat -> outcome point;
  v_face_centroid : nat -> outcome point;
  v_node : nat -> outcome point;                     (* node_get_coordinates *)
  v_face : nat -> outcome (list point);              (* face_get_coordinates *)
  v_cell : nat -> outcome (list point);              (* cell_get_coordinates *)
  v_node_cells : nat -> outcome (list nat);          (* node_get_cells(., ALL, .) *)
  v_in_cell : point -> nat -> outcome bool;          (* point_in_cell *)
  v_labeled : labeled -> entity_kind -> outcome (list nat * list nat) (* get_labeled_set_entities (virtual) *) }.

(** point_in_cell, Mesh.cc:3026-3075.  [true] in 1D: both differences are not negative *)
Definition point_in_cell (M : gmesh) (X : coordinates) (p : point) (c : nat) : outcome bool :=
  match mdim M with
  | 3%nat =>
      cf <- cell_get_faces_and_dirs (gm M) c ;;
      fcs <- mapM (cell_face_coordinates M X) cf ;;
      cc <- cell_get_coordinates M X c ;;
      point_in_polyhed p cc (length cf) (map (@length _) fcs) (concat fcs)
  | 2%nat => cc <- cell_get_coordinates M X c ;; point_in_polygon p cc
  | 1%nat => cc <- cell_get_coordinates M X c ;; a <- rd cc 0 ;; b <- rd cc 1 ;; Ok (geb (px p - px a) 0 && geb (px b - px p) 0)
  | _ => Ok false
  end.
(** the types entity_get_type reports, Mesh.cc:2308-2352 (a kind that is not requested has no entities) *)
Definition types_of (m : cmesh) (k : entity_kind) : list entity_type :=
  match k with
  | CELL => cm_ctype m
  | NODE => cm_ntype m
  | FACE => match cm_ftype m with Some v => v | None => [] end
  | EDGE => match cm_etype m with Some v => v | None => [] end
  | _ => []
  end.
(** the mesh M with node coordinates X and stored geometric quantities g; node_get_cells and get_labeled_set_entities are virtual and
    given.  face_centroid asserts that the quantities were computed; cell_centroid too. *)
Definition view (M : gmesh) (X : coordinates) (g : geo) (nc : nat -> outcome (list nat))
    (lab : labeled -> entity_kind -> outcome (list nat * list nat)) : mview :=
  MView (mdim M) (fl_faces (cm_flags (gm M))) (types_of (gm M)) (fun c => cell_centroid M X g c false) (fun f => face_centroid M X g f false)
    (node_get_coordinates X) (face_get_coordinates M X) (cell_get_coordinates M X) nc (point_in_cell M X) lab.
(** Mesh_simple::get_labeled_set_entities, Mesh_simple.cc:933-944: no labeled sets *)
Definition simple_labeled (r : labeled) (k : entity_kind) : outcome (list nat * list nat) := Ok ([], []).

Section View.
Context (V : mview).

(** num_entities(kind, OWNED or GHOST): number of entities of that type; num_entities(kind, ALL): all of them *)
Definition n_type (k : entity_kind) (t : entity_type) : nat := count_type (v_types V k) t.
Definition n_all (k : entity_kind) : nat := length (v_types V k).

(** "for e: if (test(e)) list.push_back(e)" *)
Fixpoint keep (test : nat -> outcome bool) (l : list nat) : outcome (list nat) :=
  match l with [] => Ok [] | e :: r => b <- test e ;; x <- keep test r ;; Ok (if b then e :: x else x) end.
(** "type = entity_get_type(kind, e); if OWNED push to one list, else if GHOST push to the other", Mesh.cc:2729-2733 and often *)
Fixpoint by_type (types : list entity_type) (l : list nat) : outcome (list nat * list nat) :=
  match l with
  | [] => Ok ([], [])
  | e :: r => t <- rd types e ;; x <- by_type types r ;;
      Ok (match t with PARALLEL_OWNED => (e :: fst x, snd x) | PARALLEL_GHOST => (fst x, e :: snd x) | _ => x end)
  end.
(** "on_plane": all points inside, stops at the first that is not, Mesh.cc:2750-2756, 2843-2849 *)
Fixpoint all_inside (r : rgn) (l : list point) : outcome bool :=
  match l with [] => Ok true | p :: t => b <- inside r p ;; if b then all_inside r t else Ok false end.

(** cells whose centroid is inside: owned cells 0..nowned-1, ghosts nowned..nowned+nghost-1, Mesh.cc:2679-2695 *)
Definition cells_by_centroid (r : rgn) : outcome (list nat * list nat) :=
  let test c := p <- v_cell_centroid V c ;; inside r p in
  o <- keep test (seq 0 (n_type CELL PARALLEL_OWNED)) ;;
  g <- keep test (seq (n_type CELL PARALLEL_OWNED) (n_type CELL PARALLEL_GHOST)) ;;
  Ok (o, g).
(** the node nearest to the point, Mesh.cc:2704-2717: at most 1e16 away (squared), stops when 1e-32 or less; None = -1 *)
Definition nearest_step (q : point) (n : nat) (s : R * option nat * bool) : outcome (R * option nat * bool) :=
  let '(mind, minn, stop) := s in
  if stop then Ok s else
  p <- v_node V n ;;
  let d := dot (psub p q) (psub p q) in
  Ok (if ltb d mind then (d, Some n, leb d (1 / 10 ^ 32)) else s).
Definition nearest_node (q : point) : outcome (option nat) :=
  s <- for_lt (n_all NODE) (nearest_step q) (10 ^ 16, None, false) ;; Ok (snd (fst s)).
(** the cells at that node that contain the point, Mesh.cc:2697-2738; node_get_cells(-1) reads out of range *)
Definition cells_at_point (q : point) : outcome (list nat * list nat) :=
  mn <- nearest_node q ;;
  match mn with
  | None => UB
  | Some n => cs <- v_node_cells V n ;; l <- keep (v_in_cell V q) cs ;; by_type (v_types V CELL) l
  end.
(** cells whose vertices all lie on the plane, only in a mesh of polygons, Mesh.cc:2740-2772 *)
Definition cells_on_plane (r : rgn) : outcome (list nat * list nat) :=
  if (v_celldim V =? 2)%nat then
    l <- keep (fun c => cc <- v_cell V c ;; all_inside r cc) (seq 0 (n_all CELL)) ;; by_type (v_types V CELL) l
  else Ok ([], []).
(** Mesh.cc:2822-2839 *)
Definition faces_by_centroid (r : rgn) : outcome (list nat * list nat) :=
  l <- keep (fun f => p <- v_face_centroid V f ;; inside r p) (seq 0 (n_all FACE)) ;; by_type (v_types V FACE) l.
(** Mesh.cc:2841-2872 *)
Definition faces_on_plane (r : rgn) : outcome (list nat * list nat) :=
  l <- keep (fun f => fc <- v_face V f ;; all_inside r fc) (seq 0 (n_all FACE)) ;; by_type (v_types V FACE) l.
(** Mesh.cc:2904-2934 *)
Definition nodes_inside (r : rgn) : outcome (list nat * list nat) :=
  l <- keep (fun n => p <- v_node V n ;; inside r p) (seq 0 (n_all NODE)) ;; by_type (v_types V NODE) l.
(** the same for a point region: stops at the first node inside, Mesh.cc:2926-2928 *)
Fixpoint first_inside (r : rgn) (l : list nat) : outcome (list nat) :=
  match l with [] => Ok [] | n :: t => p <- v_node V n ;; b <- inside r p ;; if b then Ok [n] else first_inside r t end.
Definition node_at_point (r : rgn) : outcome (list nat * list nat) :=
  l <- first_inside r (seq 0 (n_all NODE)) ;; by_type (v_types V NODE) l.
(** a labeled set, Mesh.cc:2776-2793, 2866-2884, 2928-2946; [n1], [n2]: the accepted entity strings *)
Definition labeled_lists (r : labeled) (k : entity_kind) (n1 n2 : string) : outcome (list nat * list nat) :=
  if negb (String.eqb (ls_entity r) n1) && negb (String.eqb (ls_entity r) n2) then Thrown else v_labeled V r k.

(** The switch of Mesh.cc:2673-2953.  None: the set is not made here (logical region, or a kind without a case: null pointer) *)
Definition leaf_lists (r : rgn) (k : entity_kind) : outcome (option (list nat * list nat)) :=
  let some (x : outcome (list nat * list nat)) := y <- x ;; Ok (Some y) in
  match k with
  | CELL => match rn_shape r with
      | SBox _ | SColor _ => some (cells_by_centroid r)
      | SPoint q => some (cells_at_point q)
      | SPlane _ => some (cells_on_plane r)
      | SLogical _ => Ok None
      | SLabeled l => some (labeled_lists l CELL "CELL" "Entity_kind::CELL")
      | _ => Thrown
      end
  | FACE => match rn_shape r with
      | SBox _ => some (faces_by_centroid r)
      | SPlane _ | SPolygon _ => some (faces_on_plane r)
      | SLabeled l => some (labeled_lists l FACE "FACE" "Entity_kind::FACE")
      | SLogical _ => Ok None
      | _ => Thrown
      end
  | NODE => match rn_shape r with
      | SBox _ | SPlane _ | SPolygon _ => some (nodes_inside r)
      | SPoint _ => some (node_at_point r)
      | SLabeled l => some (labeled_lists l NODE "NODE" "Entity_kind::NODE")
      | SLogical _ => Ok None
      | _ => Thrown
      end
  | _ => Ok None
  end.

(** ** Logical regions *)
(** a new set object; registered unless temporary (MeshSet.cc:357-368 and the like) *)
Definition place (R : registry) (temporary : bool) (r : set_result) : registry * nat :=
  match r with
  | Existing p => (R, p)
  | Fresh s => (Reg (fun q => if (q =? next R)%nat then s else heap R q) (S (next R)) (if temporary then regs R else regs R ++ [next R]), next R)
  end.
(** set_name, MeshSet.hh:159-161 *)
Definition rename (R : registry) (p : nat) (n : string) : registry :=
  let s := heap R p in
  Reg (fun q => if (q =? p)%nat then MSet n (ms_kind s) (ms_owned s) (ms_ghost s) (ms_all s) (ms_have_rev s) (ms_rev s) else heap R q) (next R) (regs R).
(** the operation on the sets of the components, Mesh.cc:3001-3013.  An operation that is none of the four (NOBOOLEAN, or not
    initialised: None) leaves mset null, and mset->set_name dereferences it. *)
Definition operate (types : list entity_type) (h : nat -> mset) (op : option bool_type) (ps : list nat) : outcome set_result :=
  match op with
  | Some COMPLEMENT => s <- complement types h ps ;; Ok (Fresh s)
  | Some UNION => merge types h ps
  | Some INTERSECT => s <- intersect types h ps ;; Ok (Fresh s)
  | Some SUBTRACT => match ps with
      | [] => UB
      | p0 :: _ => s <- subtract types h p0 (filter (fun p => negb (p =? p0)%nat) ps) ;; Ok (Fresh s)
      end
  | _ => UB
  end.
Definition is_temporary (r : rgn) : bool := match rn_life r with TEMPORARY => true | PERMANENT => false end.

(** ** The geometric model *)
Context (G : gmodel).

(** the loop over the component regions, Mesh.cc:2967-2986 *)
Fixpoint components (rec : registry -> string -> outcome (registry * option nat)) (kind : entity_kind) (R : registry) (names : list string)
    : outcome (registry * list nat) :=
  match names with
  | [] => Ok (R, [])
  | n :: t =>
    match find_rgn (gd_regions G) n with
    | None => Thrown
    | Some _ =>
      x <- match find_set (heap R) (regs R) n kind with Some p => Ok (R, Some p) | None => rec R n end ;;
      match snd x with
      | None => AssertFail
      | Some p => y <- components rec kind (fst x) t ;; Ok (fst y, p :: snd y)
      end
    end
  end.
(** build_set_from_region, Mesh.cc:2650-3023; result: the mesh's sets afterwards and the pointer returned (None = null).
    The recursion over component regions need not end: [fuel] counts its depth. *)
Fixpoint build_set_from_region (fuel : nat) (R : registry) (setname : string) (kind : entity_kind) (wrev : bool) : outcome (registry * option nat) :=
  match fuel with O => OutOfFuel | S fuel =>
    match find_rgn (gd_regions G) setname with
    | None => Thrown
    | Some r =>
      ll <- leaf_lists r kind ;;
      match ll with
      | Some (o, g) => x <- make_meshset (v_types V kind) R setname kind o g wrev ;; Ok (fst x, Some (snd x))
      | None =>
        match rn_shape r with
        | SLogical l =>
          y <- components (fun R n => build_set_from_region fuel R n kind wrev) kind R (lr_names l) ;;
          let '(R1, ps) := y in
          if negb (forallb (fun p => kind_eqb (ms_kind (heap R1 p)) kind) ps) then Thrown else
          res <- operate (v_types V kind) (heap R1) (lr_op l) ps ;;
          let '(R2, p) := place R1 (is_temporary r) res in
          Ok (rename R2 p setname, Some p)
        | _ => Ok (R, None)
        end
      end
    end
  end.

(** ** init_sets_from_geometric_model *)
(** entity_type.substr(pos after the last "::") *)
Fixpoint after_colons (s : string) (best : string) : string :=
  match s with
  | EmptyString => best
  | String a t => after_colons t (if String.prefix "::" s then match t with String _ u => u | EmptyString => EmptyString end else best)
  end.
(** str_to_kind.at, Mesh.cc:2375-2379 *)
Definition str_to_kind (s : string) : outcome entity_kind :=
  let s := after_colons s s in
  if String.eqb s "CELL" then Ok CELL else if String.eqb s "FACE" then Ok FACE
  else if String.eqb s "EDGE" then Ok EDGE else if String.eqb s "NODE" then Ok NODE else Thrown.
(** the kinds made for a region that is not a labeled set, Mesh.cc:2408-2422.  [req]: the user's map.  The dimensions are unsigned: gdim-1 of
    0 is the largest number. *)
Definition default_kinds (r : rgn) : list entity_kind :=
  (if (rn_dim r =? gd_dim G)%nat then [CELL] else []) ++
  (if v_faces V && negb (gd_dim G =? 0)%nat && (gd_dim G - 1 <=? rn_dim r)%nat then [FACE] else []) ++ [NODE].
Definition requested_kinds (req : string -> option (list entity_kind)) (r : rgn) : list entity_kind :=
  match req (rn_name r) with Some l => l | None => default_kinds r end.
(** the first labeled set among the components decides, Mesh.cc:2424-2450; assert(rgn1) *)
Fixpoint labeled_kinds (names : list string) (ks : list entity_kind) : outcome (list entity_kind) :=
  match names with
  | [] => Ok ks
  | n :: t => match find_rgn (gd_regions G) n with
      | None => AssertFail
      | Some r => match rn_shape r with SLabeled l => k <- str_to_kind (ls_entity l) ;; Ok [k] | _ => labeled_kinds t ks end
      end
  end.
Fixpoint build_kinds (fuel : nat) (n : string) (ks : list entity_kind) (R : registry) : outcome registry :=
  match ks with [] => Ok R | k :: t => x <- build_set_from_region fuel R n k false ;; build_kinds fuel n t (fst x) end.
(** one region, Mesh.cc:2385-2452 *)
Definition init_region (fuel : nat) (req : string -> option (list entity_kind)) (r : rgn) (R : registry) : outcome registry :=
  match rn_shape r with
  | SLabeled l => k <- str_to_kind (ls_entity l) ;;
      match find_set (heap R) (regs R) (rn_name r) k with
      | Some _ => Ok R
      | None => x <- build_set_from_region fuel R (rn_name r) k false ;; Ok (fst x)
      end
  | s => match find_set (heap R) (regs R) (rn_name r) CELL with
      | Some _ => Ok R
      | None =>
        let ks := requested_kinds req r in
        ks <- match s with SLogical l => labeled_kinds (lr_names l) ks | _ => Ok ks end ;;
        build_kinds fuel (rn_name r) ks R
      end
  end.
(** init_sets_from_geometric_model(map), Mesh.cc:2370-2454; without a map (2356-2359): [req] is empty *)
Definition init_sets (fuel : nat) (req : string -> option (list entity_kind)) (R : registry) : outcome registry :=
  foldM (gd_regions G) (init_region fuel req) R.

(** ** valid_region_name, Mesh.cc:2507-2554.  rdim and manifold_dim_-1 are unsigned;
    manifold_dim_ is 1, 2 or 3. *)
Definition valid_kind (r : rgn) (kind : entity_kind) : bool :=
  match kind with
  | CELL => (v_celldim V <=? rn_dim r)%nat || (rn_dim r =? 0)%nat
  | FACE => (v_celldim V - 1 <=? rn_dim r)%nat
  | NODE => true
  | _ => false
  end.
Definition kind_string (k : entity_kind) : string :=
  match k with CELL => "CELL" | FACE => "FACE" | EDGE => "EDGE" | NODE => "NODE" | _ => "" end.
Definition has_string (k : entity_kind) : bool := match k with CELL | FACE | EDGE | NODE => true | _ => false end.
Fixpoint valid_in (l : list rgn) (name : string) (kind : entity_kind) : bool :=
  match l with
  | [] => false
  | r :: t =>
    if String.eqb (rn_name r) name then
      match rn_shape r with
      | SColor _ => true
      | SLabeled s => has_string kind && String.eqb (ls_entity s) (kind_string kind)
      | _ => if valid_kind r kind then true else valid_in t name kind
      end
    else valid_in t name kind
  end.
Definition valid_region_name (name : string) (kind : entity_kind) : bool := valid_in (gd_regions G) name kind.
(** find_meshset_from_region, const, Mesh.cc:2578-2590, and with create_if_missing, 2560-2576 (the default of with_reverse_map is the
    parameter [wrev]) *)
Definition find_meshset_from_region (R : registry) (name : string) (kind : entity_kind) : option nat :=
  if valid_region_name name kind then find_set (heap R) (regs R) name kind else None.
Definition find_or_build (fuel : nat) (R : registry) (name : string) (kind : entity_kind) (create wrev : bool) : outcome (registry * option nat) :=
  if valid_region_name name kind then
    match find_set (heap R) (regs R) name kind with
    | Some p => Ok (R, Some p)
    | None => if create then build_set_from_region fuel R name kind wrev else Ok (R, None)
    end
  else Ok (R, None).
End View.
