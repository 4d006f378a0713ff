(** Specification vocabulary for the mesh caches: what a mesh connectivity is, in terms of plain functions. *)
From Coq Require Import Permutation.
From Verif Require Import Base Defs Factory Cache.
Set Implicit Arguments.

(** A connectivity: faces (with directions) of a cell, edges (with directions) of a face, end points of an edge, nodes of a
    cell. *)
Record shape := Shape {
  cfaces : nat -> list (nat * Z); fedges : nat -> list (nat * Z); enodes : nat -> nat * nat;
  cnodes : nat -> list nat }.

(** the framework's functions answer according to the connectivity, for every valid id *)
Record provides (t : topo) (sh : shape) : Prop := {
  pv_cf : forall c, c < ncells t -> fw_cell_faces t c = Ok (cfaces sh c);
  pv_fc : forall f, f < nfaces t -> exists l, fw_face_cells t f = Ok l /\ length l <= 2;
  pv_fe : forall f, f < nfaces t -> fw_face_edges t f = Ok (fedges sh f);
  pv_en : forall e, e < nedges t -> tp_mdim t <> 1 -> fw_edge_nodes t e = Ok (enodes sh e);
  pv_cn : forall c, c < ncells t -> fw_cell_nodes t c = Ok (cnodes sh c) }.

(** the id lists hold every id below the count once *)
Record numbered (t : topo) : Prop := {
  nb_cells : Permutation (cells_all t) (seq 0 (ncells t));
  nb_nodes : Permutation (nodes_all t) (seq 0 (nnodes t));
  nb_faces : Permutation (faces_all t) (seq 0 (nfaces t));
  nb_edges : Permutation (edges_all t) (seq 0 (nedges t)) }.

Definition is_dir (d : Z) : Prop := (d = 1 \/ d = -1)%Z.
Definition face_of (sh : shape) (c f : nat) : Prop := In f (map fst (cfaces sh c)).
Definition edge_of (sh : shape) (f e : nat) : Prop := In e (map fst (fedges sh f)).
(** [tri c f e]: f is a face of cell c and e an edge of f *)
Definition tri (t : topo) (sh : shape) (c f e : nat) : Prop := c < ncells t /\ face_of sh c f /\ edge_of sh f e.

(** a mesh connectivity: ids in range, no repeats, a face has at most two cells *)
Record connectivity (t : topo) (sh : shape) : Prop := {
  cn_face : forall c f d, c < ncells t -> In (f, d) (cfaces sh c) -> f < nfaces t /\ is_dir d;
  cn_face_nodup : forall c, c < ncells t -> NoDup (map fst (cfaces sh c));
  cn_edge : forall f e d, f < nfaces t -> In (e, d) (fedges sh f) -> e < nedges t /\ is_dir d;
  cn_edge_nodup : forall f, f < nfaces t -> NoDup (map fst (fedges sh f));
  cn_two : forall c1 c2 c3 f, c1 < ncells t -> c2 < ncells t -> c3 < ncells t ->
     face_of sh c1 f -> face_of sh c2 f -> face_of sh c3 f -> c1 = c2 \/ c1 = c3 \/ c2 = c3 }.

(** the two cells of a face use it in opposite directions *)
Definition opposite_dirs (t : topo) (sh : shape) : Prop := forall c1 c2 f d1 d2, c1 < ncells t -> c2 < ncells t -> c1 <> c2 ->
  In (f, d1) (cfaces sh c1) -> In (f, d2) (cfaces sh c2) -> (d1 = - d2)%Z.

(** nodes: no repeats; the end points of a cell's edges are exactly the cell's nodes *)
Record node_consistent (t : topo) (sh : shape) : Prop := {
  nc_nodup : forall c, c < ncells t -> NoDup (cnodes sh c);
  nc_range : forall c n, c < ncells t -> In n (cnodes sh c) -> n < nnodes t;
  nc_edge : forall c f e, tri t sh c f e -> In (fst (enodes sh e)) (cnodes sh c) /\ In (snd (enodes sh e)) (cnodes sh c);
  nc_node : forall c n, c < ncells t -> In n (cnodes sh c) ->
     exists f e, tri t sh c f e /\ (n = fst (enodes sh e) \/ n = snd (enodes sh e)) }.

(** the type a cell's id list gives it *)
Definition cell_has_type (t : topo) (c : nat) (ty : entity_type) : Prop :=
  (ty = PARALLEL_OWNED /\ In c (cells_owned t)) \/ (ty = PARALLEL_GHOST /\ In c (cells_ghost t)) \/
  (ty = BOUNDARY_GHOST /\ In c (cells_bghost t)).

(** the 1D connectivity: cell [c] has nodes (= faces = edges) [c] and [c+1].  (The directions are chosen so that a side uses its
    degenerate edge positively, as the 1D code does.) *)
Definition line_shape : shape :=
  Shape (fun c => [(c, 1%Z); (c + 1, 1%Z)]) (fun f => [(f, (-1)%Z)]) (fun e => (e, e)) (fun c => [c; c + 1]).
(** a 1D mesh: cells numbered from the left *)
Record line_mesh (t : topo) : Prop := {
  ln_dim : tp_mdim t = 1;
  ln_cells : cells_all t = seq 0 (ncells t);
  ln_numbered : numbered t;
  ln_nodes : nnodes t = ncells t + 1;
  ln_faces : nfaces t = ncells t + 1;
  ln_edges : nedges t = ncells t + 1;
  ln_cn : forall c, c < ncells t -> fw_cell_nodes t c = Ok [c; c + 1];
  ln_cf : forall c, c < ncells t -> exists l, fw_cell_faces t c = Ok l;       (* answers not used by the side code *)
  ln_fe : forall f, f < nfaces t -> exists l, fw_face_edges t f = Ok l;
  ln_fc : forall f, f < nfaces t -> exists l, fw_face_cells t f = Ok l /\ length l <= 2 }.

(** a mesh the frameworks can deliver: a 2D or 3D connectivity, or a 1D line *)
Inductive framework_mesh (t : topo) (sh : shape) : Prop :=
| fm_nd : tp_mdim t = 2 \/ tp_mdim t = 3 -> numbered t -> connectivity t sh -> provides t sh -> framework_mesh t sh
| fm_1d : line_mesh t -> sh = line_shape -> framework_mesh t sh.

(** a mesh object constructed (with at least sides requested) over the connectivity [sh] *)
Record built (t : topo) (sh : shape) (fl : flags) (m : cmesh) : Prop := {
  bl_mesh : framework_mesh t sh;
  bl_sides : fl_sides (close_flags fl) = true;
  bl_nodes : fl_corners (close_flags fl) = true -> node_consistent t sh;
  bl_ok : cache_extra_variables t (close_flags fl) = Ok m }.

Definition n_sides (m : cmesh) : nat := num_entities m SIDE TYPE_ALL.
Definition n_wedges (m : cmesh) : nat := num_entities m WEDGE TYPE_ALL.
Definition n_corners (m : cmesh) : nat := num_entities m CORNER TYPE_ALL.
(** the queries say that side [s] belongs to cell [c], face [f], edge [e] *)
Definition is_side (m : cmesh) (s c f e : nat) : Prop :=
  s < n_sides m /\ side_get_cell m s = Ok c /\ side_get_face m s = Ok f /\ side_get_edge m s = Ok e.
(** the queries say that wedge [w] belongs to cell [c] and node [n] *)
Definition is_wedge (m : cmesh) (w c n : nat) : Prop :=
  w < n_wedges m /\ wedge_get_cell m w = Ok c /\ wedge_get_node m w = Ok n.
Definition is_corner (m : cmesh) (k c n : nat) : Prop :=
  k < n_corners m /\ corner_get_cell m k = Ok c /\ corner_get_node m k = Ok n.
