(** Specification vocabulary for the topology layer of the MSTK framework: what an MSTK mesh is, and the API of class Mesh in terms of
    entity kinds. *)
From Coq Require Import Permutation.
From Verif Require Import Base Defs Geometry_spec MstkMesh.
Set Implicit Arguments.

(** the same cycle, started elsewhere *)
Definition same_cycle {A} (l l' : list A) : Prop := exists a b, l = a ++ b /\ l' = b ++ a.
(** an edge in the direction in which a face uses it *)
Definition used (m : mstk) (ed : nat * bool) : nat * nat := if snd ed then k_ev m (fst ed) else swap (k_ev m (fst ed)).
Definition v_of_e (m : mstk) (v e : nat) : Prop := v = fst (k_ev m e) \/ v = snd (k_ev m e).
Definition e_of_f (m : mstk) (e f : nat) : Prop := In e (map fst (k_fe m f)).
Definition f_of_r (m : mstk) (f r : nat) : Prop := In f (map fst (k_rf m r)).

(** A mesh as MSTK delivers it (without boundary ghosts): entities listed once; a face is a closed chain of edges that meets no edge and no
    vertex twice, and the calls with the opposite direction give the reversed chain; a region has a face at most once; the upward
    adjacency calls give exactly the entities that use the entity; at most one region on either side of a face, and in a 2D mesh at most
    one face along an edge in either direction. *)
Record mstk_mesh (m : mstk) : Prop := {
  mk_dim : k_dim m = 2 \/ k_dim m = 3;
  mk_nodup : forall k, NoDup (k_all m k);
  mk_ev : forall e, In e (k_all m MEDGE) -> In (fst (k_ev m e)) (k_all m MVERTEX) /\ In (snd (k_ev m e)) (k_all m MVERTEX) /\ fst (k_ev m e) <> snd (k_ev m e);
  mk_fe : forall f e, In f (k_all m MFACE) -> e_of_f m e f -> In e (k_all m MEDGE);
  mk_fe_nodup : forall f, In f (k_all m MFACE) -> NoDup (map fst (k_fe m f)) /\ 3 <= length (k_fe m f);
  mk_fv : forall f, In f (k_all m MFACE) -> edges (k_fv m f) = map (used m) (k_fe m f) /\ NoDup (k_fv m f);
  mk_fe_rev : forall f, In f (k_all m MFACE) -> same_cycle (rev (map fst (k_fe m f))) (k_fe_rev m f);
  mk_fv_rev : forall f, In f (k_all m MFACE) -> same_cycle (rev (k_fv m f)) (k_fv_rev m f);
  mk_rf : forall r f, In r (k_all m MREGION) -> f_of_r m f r -> In f (k_all m MFACE);
  mk_rf_nodup : forall r, In r (k_all m MREGION) -> NoDup (map fst (k_rf m r));
  mk_re : forall r, In r (k_all m MREGION) -> NoDup (k_re m r) /\ forall e, In e (k_re m r) <-> exists f, f_of_r m f r /\ e_of_f m e f;
  mk_rv : forall r, In r (k_all m MREGION) -> NoDup (k_rv m r) /\ forall v, In v (k_rv m r) <-> exists f, f_of_r m f r /\ In v (k_fv m f);
  mk_ve : forall v, In v (k_all m MVERTEX) -> NoDup (k_ve m v) /\ forall e, In e (k_ve m v) <-> In e (k_all m MEDGE) /\ v_of_e m v e;
  mk_vf : forall v, In v (k_all m MVERTEX) -> NoDup (k_vf m v) /\ forall f, In f (k_vf m v) <-> In f (k_all m MFACE) /\ In v (k_fv m f);
  mk_vr : forall v, In v (k_all m MVERTEX) -> NoDup (k_vr m v) /\ forall r, In r (k_vr m v) <-> In r (k_all m MREGION) /\ In v (k_rv m r);
  mk_ef : forall e, In e (k_all m MEDGE) -> NoDup (k_ef m e) /\ forall f, In f (k_ef m e) <-> In f (k_all m MFACE) /\ e_of_f m e f;
  mk_fr : forall f, In f (k_all m MFACE) -> NoDup (k_fr m f) /\ forall r, In r (k_fr m f) <-> In r (k_all m MREGION) /\ f_of_r m f r;
  mk_side : forall f r d, In f (k_all m MFACE) -> k_side m f (if d : bool then 0 else 1) = Some r <-> In r (k_all m MREGION) /\ In (f, d) (k_rf m r);
  mk_2d : k_dim m = 2 -> forall e f1 f2 d, In f1 (k_all m MFACE) -> In f2 (k_all m MFACE) -> In (e, d) (k_fe m f1) -> In (e, d) (k_fe m f2) -> f1 = f2 }.

(** ** the API by kind of entity *)
Definition base_kind (K : entity_kind) : Prop := K = NODE \/ K = EDGE \/ K = FACE \/ K = CELL.
(** nodes and cells are always there, edges and faces if requested *)
Definition has_kind (j : jmesh) (K : entity_kind) : Prop :=
  match K with NODE | CELL => True | EDGE => j_edges j = true | FACE => j_faces j = true | _ => False end.
Definition mkind_of (m : mstk) (K : entity_kind) : mkind :=
  match K with NODE => MVERTEX | EDGE => MEDGE | FACE => face_kind m | _ => cell_kind m end.
(** nodes<type>(), edges<type>(), faces<type>(), cells<type>() *)
Definition list_of (j : jmesh) (K : entity_kind) : id_lists :=
  match K with NODE => node_ids j | EDGE => edge_ids j | FACE => face_ids j | _ => cell_ids j end.
Definition entities (j : jmesh) (K : entity_kind) (ty : entity_type) : list nat :=
  match ty with
  | PARALLEL_OWNED => il_owned (list_of j K) | PARALLEL_GHOST => il_ghost (list_of j K) | BOUNDARY_GHOST => il_bghost (list_of j K)
  | TYPE_ALL => il_all (list_of j K) | _ => []
  end.
(** the MSTK entity behind an id *)
Definition table (j : jmesh) (K : entity_kind) : list nat :=
  match K with NODE => vtx_h j | EDGE => edge_h j | FACE => face_h j | _ => cell_h j end.
Definition behind (j : jmesh) (K : entity_kind) (i h : nat) : Prop := nth_error (table j K) i = Some h.
(** the type the entity has in the mesh: ghost of another rank; boundary ghost (a cell with the attribute, not a ghost); owned *)
Definition mstk_type (m : mstk) (bg : bool) (K : entity_kind) (h : nat) (ty : entity_type) : Prop :=
  match ty with
  | PARALLEL_GHOST => k_ptype m (mkind_of m K) h = PGHOST
  | BOUNDARY_GHOST => k_ptype m (mkind_of m K) h <> PGHOST /\ K = CELL /\ bg = true /\ k_bghost m h = true
  | PARALLEL_OWNED => k_ptype m (mkind_of m K) h <> PGHOST /\ ~ (K = CELL /\ bg = true /\ k_bghost m h = true)
  | TYPE_ALL => True
  | _ => False
  end.

(** ** adjacency, as the downward queries tell it *)
Definition valid (j : jmesh) (K : entity_kind) (i : nat) : Prop := In i (entities j K TYPE_ALL).
Definition node_of_cell (j : jmesh) (n c : nat) : Prop := exists ns, cell_nodes j c = Ok ns /\ In n ns.
Definition node_of_face (j : jmesh) (n f : nat) : Prop := exists ns, face_nodes j f = Ok ns /\ In n ns.
Definition face_of_cell (j : jmesh) (f c : nat) : Prop := exists fs, cell_faces j false c = Ok fs /\ In f (map fst fs).

(** ** polyhedra *)
(** each edge of the region belongs to exactly two of its faces *)
Definition closed_cell (m : mstk) (r : nat) : Prop :=
  forall f e, f_of_r m f r -> e_of_f m e f ->
    exists f', f' <> f /\ f_of_r m f' r /\ e_of_f m e f' /\ forall g, f_of_r m g r -> e_of_f m e g -> g = f \/ g = f'.
(** two faces of the region meet along at most one edge *)
Definition plain_cell (m : mstk) (r : nat) : Prop :=
  forall f f' e e', f_of_r m f r -> f_of_r m f' r -> f <> f' -> e_of_f m e f -> e_of_f m e f' -> e_of_f m e' f -> e_of_f m e' f' -> e = e'.
(** the nodes of a face of a cell, given with its direction (1: the face points out of the cell), in the order seen from inside the cell *)
Definition from_inside (dir : Z) (ns : list nat) : list nat := if (dir =? 1)%Z then rev ns else ns.
