(** Specification vocabulary for a distributed MSTK mesh: the meshes of all ranks, and what it means that they are parts of one mesh. *)
From Verif Require Import Base Loop Defs Geometry_spec MstkMesh MstkMesh_spec.
Set Implicit Arguments. Unset Strict Implicit.

(** the MSTK mesh of every rank, and what the ghosts of every rank receive from their owners (MESH_UpdateAttributes) *)
Record world := World { w_mesh : nat -> mstk; w_rcv : nat -> received }.
(** entity [h1] of rank [r1] and [h2] of rank [r2] are copies of the same entity of the global mesh *)
Definition copies (w : world) (k : mkind) (r1 h1 r2 h2 : nat) : Prop :=
  In h1 (k_all (w_mesh w r1) k) /\ In h2 (k_all (w_mesh w r2) k) /\ k_gid (w_mesh w r1) k h1 = k_gid (w_mesh w r2) k h2.
(** end points of an edge, vertices of a face, as global ids *)
Definition gev (m : mstk) (e : nat) : nat * nat := (k_gid m MVERTEX (fst (k_ev m e)), k_gid m MVERTEX (snd (k_ev m e))).
Definition gfv (m : mstk) (f : nat) : list nat := map (k_gid m MVERTEX) (k_fv m f).
(** two copies of a face are stored with the same orientation *)
Definition same_way (w : world) (r1 f1 r2 f2 : nat) : Prop := same_cycle (gfv (w_mesh w r1) f1) (gfv (w_mesh w r2) f2).
Definition opposite_way (w : world) (r1 f1 r2 f2 : nat) : Prop := same_cycle (rev (gfv (w_mesh w r1) f1)) (gfv (w_mesh w r2) f2).

(** The ranks hold parts of one mesh: global ids tell entities apart; every ghost has an owner somewhere, which sends it its data, and no
    entity has two owners; copies of an edge join the same vertices, copies of a face have the same vertices in the same or in the opposite
    order (2D cells: the same); two regions that use copies of a face are copies of each other exactly if they use it from the same side; a
    face of a 3D mesh belongs to some region on each rank that has it. *)
Record distributed (w : world) : Prop := {
  d_mesh : forall r, mstk_mesh (w_mesh w r);
  d_dim : forall r r', k_dim (w_mesh w r) = k_dim (w_mesh w r');
  d_gid : forall r k h h', In h (k_all (w_mesh w r) k) -> In h' (k_all (w_mesh w r) k) -> k_gid (w_mesh w r) k h = k_gid (w_mesh w r) k h' -> h = h';
  d_gid0 : forall r k h, In h (k_all (w_mesh w r) k) -> k_gid (w_mesh w r) k h <> 0;
  d_owner : forall r k h, In h (k_all (w_mesh w r) k) -> k_ptype (w_mesh w r) k h = PGHOST ->
    exists ro ho, copies w k ro ho r h /\ k_ptype (w_mesh w ro) k ho = POVERLAP /\ w_rcv w r k h = sent (w_mesh w ro) k ho;
  d_one_owner : forall k r1 h1 r2 h2, copies w k r1 h1 r2 h2 -> k_ptype (w_mesh w r1) k h1 <> PGHOST -> k_ptype (w_mesh w r2) k h2 <> PGHOST -> r1 = r2;
  d_edge : forall r1 e1 r2 e2, copies w MEDGE r1 e1 r2 e2 -> gev (w_mesh w r1) e1 = gev (w_mesh w r2) e2 \/ gev (w_mesh w r1) e1 = swap (gev (w_mesh w r2) e2);
  d_face : forall r1 f1 r2 f2, copies w MFACE r1 f1 r2 f2 -> same_way w r1 f1 r2 f2 \/ k_dim (w_mesh w r1) = 3 /\ opposite_way w r1 f1 r2 f2;
  d_region : forall r1 f1 r2 f2 c1 c2 d1 d2, copies w MFACE r1 f1 r2 f2 -> In c1 (k_all (w_mesh w r1) MREGION) -> In c2 (k_all (w_mesh w r2) MREGION) ->
    In (f1, d1) (k_rf (w_mesh w r1) c1) -> In (f2, d2) (k_rf (w_mesh w r2) c2) ->
    (k_gid (w_mesh w r1) MREGION c1 = k_gid (w_mesh w r2) MREGION c2 <-> (d1 = d2 <-> same_way w r1 f1 r2 f2));
  d_used : forall r f, k_dim (w_mesh w r) = 3 -> In f (k_all (w_mesh w r) MFACE) -> exists c, In c (k_all (w_mesh w r) MREGION) /\ f_of_r (w_mesh w r) f c }.

(** the owner's copy of a face sees a region that this copy sees too *)
Definition common_cell (w : world) (ro fo r f : nat) : Prop :=
  exists co c, copies w MREGION ro co r c /\ f_of_r (w_mesh w ro) fo co /\ f_of_r (w_mesh w r) f c.
(** there is at least one layer of ghost cells: whatever cell uses a face on some rank, the owner of the face has it *)
Definition ghost_layer (w : world) : Prop :=
  forall ro fo r f c, copies w MFACE ro fo r f -> k_ptype (w_mesh w ro) MFACE fo <> PGHOST -> In c (k_all (w_mesh w r) MREGION) -> f_of_r (w_mesh w r) f c ->
    exists co, copies w MREGION ro co r c /\ f_of_r (w_mesh w ro) fo co.

(** ** the API in global ids *)
Definition node_gids (j : jmesh) (ns : list nat) : outcome (list Z) := mapM (fun n => GID j n NODE) ns.
(** edge_get_nodes, face_get_nodes, cell_get_faces_and_dirs, with GIDs in place of ids *)
Definition edge_gids (j : jmesh) (e : nat) : outcome (list Z) := p <- edge_nodes j e ;; node_gids j [fst p; snd p].
Definition face_gids (j : jmesh) (f : nat) : outcome (list Z) := ns <- face_nodes j f ;; node_gids j ns.
Definition cell_face_gids (j : jmesh) (c : nat) : outcome (list (Z * Z)) :=
  fs <- cell_faces j false c ;; mapM (fun f => g <- GID j (fst f) FACE ;; Ok (g, snd f)) fs.
