(** Specification vocabulary for the extraction of a mesh from another (C92, C93): the new mesh is a copy of a part of the source mesh. *)
From Coq Require Import Reals.
From Verif Require Import Base Defs MstkMesh MstkMesh_spec MstkExtract.
Set Implicit Arguments. Unset Strict Implicit.

(** the entities of the source mesh that the vertices, edges, faces, regions of the new mesh are copies of, in the order of the new mesh *)
Definition pv (x : xmesh) : list nat := map fst (x_verts x).
Definition pe (x : xmesh) : list nat := map fst (x_edges x).
Definition pvf (x : xmesh) : list nat := map fst (x_vfaces x).
(** a copy used in a direction, and what it is a copy of *)
Definition copy_dir (ps : list nat) (d' d : nat * bool) : Prop := nth_error ps (fst d') = Some (fst d) /\ snd d' = snd d.

(** A surface: one new face per source face, in order; its edges are the copies of the edges of the source face, in order and with the same directions; an edge joins the
    copies of the vertices; an edge or vertex is copied once however many faces share it, and only if a source face has it; vertices keep their coordinates (up to [co]). *)
Record copied_surface (m : mstk) (X : nat -> xyz) (co : xyz -> xyz) (src : list nat) (x : xmesh) : Prop := {
  cs_faces : map fst (x_sfaces x) = src;
  cs_fe : forall f es, In (f, es) (x_sfaces x) -> Forall2 (copy_dir (pe x)) es (k_fe m f);
  cs_ev : forall e a b, In (e, (a, b)) (x_edges x) -> nth_error (pv x) a = Some (fst (k_ev m e)) /\ nth_error (pv x) b = Some (snd (k_ev m e));
  cs_e_once : NoDup (pe x);
  cs_v_once : NoDup (pv x);
  cs_e : forall e, In e (pe x) <-> exists f, In f src /\ e_of_f m e f;
  cs_v : forall v, In v (pv x) <-> exists e, In e (pe x) /\ v_of_e m v e;
  cs_xyz : forall v p, In (v, p) (x_verts x) -> p = co (X v);
  cs_rest : x_vfaces x = [] /\ x_regs x = [] }.
(** A volume: one new region per source region, with the copies of its faces, in order and with the same directions; a face has the copies of the vertices in order. *)
Record copied_volume (m : mstk) (X : nat -> xyz) (src : list nat) (x : xmesh) : Prop := {
  cv_regs : map fst (x_regs x) = src;
  cv_rf : forall r fs, In (r, fs) (x_regs x) -> Forall2 (copy_dir (pvf x)) fs (k_rf m r);
  cv_fv : forall f vs, In (f, vs) (x_vfaces x) -> Forall2 (fun v' v => nth_error (pv x) v' = Some v) vs (k_fv m f);
  cv_f_once : NoDup (pvf x);
  cv_v_once : NoDup (pv x);
  cv_f : forall f, In f (pvf x) <-> exists r, In r src /\ f_of_r m f r;
  cv_v : forall v, In v (pv x) <-> exists f, In f (pvf x) /\ In v (k_fv m f);
  cv_xyz : forall v p, In (v, p) (x_verts x) -> p = X v;
  cv_rest : x_edges x = [] /\ x_sfaces x = [] }.

(** ** Through the API of class Mesh *)
(** the kind of entity a surface is extracted from: cells of a 2D mesh, faces of a 3D mesh *)
Definition surface_kind (m : mstk) (K : entity_kind) : Prop := K = CELL /\ k_dim m = 2 \/ K = FACE /\ k_dim m = 3.
(** the nodes of such an entity, the entities that bound it with their directions, and the nodes of one of those *)
Definition snodes (j : jmesh) (K : entity_kind) (p : nat) : outcome (list nat) := match K with CELL => cell_nodes j p | _ => face_nodes j p end.
Definition sfaces (j : jmesh) (K : entity_kind) (p : nat) : outcome (list (nat * Z)) := match K with CELL => cell_faces j false p | _ => face_edges j p end.
Definition sface_nodes (j : jmesh) (K : entity_kind) (f : nat) : outcome (list nat) :=
  match K with CELL => face_nodes j f | _ => r <- edge_nodes j f ;; Ok [fst r; snd r] end.
(** what MSTK answers on the new mesh: it is well formed, has the entities that were made and no others, none of them a ghost, and they are built as they were made *)
Record realises_surface (x : xmesh) (m' : mstk) : Prop := {
  rs_mesh : mstk_mesh m'; rs_dim : k_dim m' = 2;
  rs_own : forall k h, k_ptype m' k h <> PGHOST;
  rs_v : k_all m' MVERTEX = seq 0 (length (x_verts x));
  rs_e : k_all m' MEDGE = seq 0 (length (x_edges x));
  rs_f : k_all m' MFACE = seq 0 (length (x_sfaces x));
  rs_ev : forall n e ab, nth_error (x_edges x) n = Some (e, ab) -> k_ev m' n = ab;
  rs_fe : forall n f es, nth_error (x_sfaces x) n = Some (f, es) -> k_fe m' n = es }.
Record realises_volume (x : xmesh) (m' : mstk) : Prop := {
  rv_mesh : mstk_mesh m'; rv_dim : k_dim m' = 3;
  rv_own : forall k h, k_ptype m' k h <> PGHOST;
  rv_v : k_all m' MVERTEX = seq 0 (length (x_verts x));
  rv_f : k_all m' MFACE = seq 0 (length (x_vfaces x));
  rv_r : k_all m' MREGION = seq 0 (length (x_regs x));
  rv_fv : forall n f vs, nth_error (x_vfaces x) n = Some (f, vs) -> k_fv m' n = vs;
  rv_rf : forall n r fs, nth_error (x_regs x) n = Some (r, fs) -> k_rf m' n = fs }.
