(** The caches of a box mesh and what the geometry functions read from them. *)
From Coq Require Import Reals Lra Permutation.
From Verif Require Import Base Loop Defs Factory SimpleMesh SimpleMesh_spec SimpleMesh_proofs SimpleMesh_proofs2 SimpleMesh_proofs3 SimpleMesh_proofs4
  SimpleTopo SimpleGeom Props_SimpleMesh Cache Cache_spec Cache_proofs Cache_proofs5 Point Geometry Geometry_spec MeshGeom BoxGeom BoxGeom_spec
  MeshGeom_spec MeshGeom_proofs MeshGeom_proofs2 Props_Cache.
Set Implicit Arguments.
Local Open Scope R_scope.

Local Notation ncells := SimpleMesh_proofs2.ncells.
Local Notation nfaces := SimpleMesh_proofs2.nfaces.
Local Notation nnodes := SimpleMesh_proofs2.nnodes.
(** what is needed of the mesh object *)
Record box_caches (d : dims) (M : gmesh) : Prop := {
  bc_flag : fl_faces (cm_flags (gm M)) = true;
  bc_edges : fl_edges (cm_flags (gm M)) = false;
  bc_sides : fl_sides (cm_flags (gm M)) = false;
  bc_wedges : fl_wedges (cm_flags (gm M)) = false;
  bc_corners : fl_corners (cm_flags (gm M)) = false;
  bc_mdim : mdim M = 3%nat;
  bc_sdim : sdim M = 3%nat;
  bc_ncells : Cache.ncells (cm_topo (gm M)) = ncells d;
  bc_nfaces : Cache.nfaces (cm_topo (gm M)) = nfaces d;
  bc_types : forall c, (c < ncells d)%nat -> rd (cm_ctype (gm M)) c = Ok PARALLEL_OWNED;
  bc_cf : forall c, (c < ncells d)%nat -> Cache.cell_get_faces_and_dirs (gm M) c = Ok (combine (cf3 d c) dirs6);
  bc_fc : forall f, (f < nfaces d)%nat -> exists z0 z1, Cache.face_get_cells (gm M) f TYPE_ALL = Ok (cellz z0 ++ cellz z1) /\
    (forall c, (c < ncells d)%nat -> z0 = Z.of_nat c <-> In (f, (-1)%Z) (combine (cf3 d c) dirs6)) /\
    (forall c, (c < ncells d)%nat -> z1 = Z.of_nat c <-> In (f, 1%Z) (combine (cf3 d c) dirs6)) /\
    (z0 = (-1)%Z \/ exists c, (c < ncells d)%nat /\ z0 = Z.of_nat c) /\
    (z1 = (-1)%Z \/ exists c, (c < ncells d)%nat /\ z1 = Z.of_nat c);
  bc_fn : forall f, (f < nfaces d)%nat -> fnodes M f = Ok (fn3 d f);
  bc_cn : forall c, (c < ncells d)%nat -> cverts M c = Ok (cn3 d c) }.

Lemma no_edges_no_sides fl : fl_edges (close_flags fl) = false ->
  fl_sides (close_flags fl) = false /\ fl_wedges (close_flags fl) = false /\ fl_corners (close_flags fl) = false.
Proof. destruct fl as [[] [] [] [] []]; simpl; intuition discriminate. Qed.
Lemma cellz_map z0 z1 n : (z0 = (-1)%Z \/ exists c, (c < n)%nat /\ z0 = Z.of_nat c) -> (z1 = (-1)%Z \/ exists c, (c < n)%nat /\ z1 = Z.of_nat c) ->
  map Z.of_nat (map Z.to_nat (cellz z0 ++ cellz z1)) = cellz z0 ++ cellz z1 /\ (forall z, In z (cellz z0 ++ cellz z1) -> (0 <= z)%Z).
Proof.
  intros H0 H1. assert (P : forall z, In z (cellz z0 ++ cellz z1) -> (0 <= z)%Z).
  { intros z I. apply in_app_iff in I. unfold cellz in I. destruct H0 as [->|(c & _ & ->)], H1 as [->|(c' & _ & ->)]; simpl in I; repeat (destruct (Z.eqb _ _); simpl in I); lia. }
  split; auto. rewrite map_map. rewrite <- (map_id (cellz z0 ++ cellz z1)) at 2. apply map_ext_in. intros z I. apply P in I. lia.
Qed.

Section Construct.
Variables (d : dims) (v0 : R) (gx gy gz : nat -> R) (fl : flags) (m : smesh R).
Hypothesis Hd : positive d.
Hypothesis Hm : make_simple_3d v0 d gx gy gz (fl_faces (close_flags fl)) false = Ok m.

Lemma box_types : exists ct ft et nt, cache_cell_type (simple_topo m) = Ok ct /\ cache_face_type (simple_topo m) = Ok ft /\
  cache_edge_type (simple_topo m) = Ok et /\ cache_node_type (simple_topo m) = Ok nt /\ forall c, (c < ncells d)%nat -> rd ct c = Ok PARALLEL_OWNED.
Proof.
  destruct (make_simple_3d_conn d v0 gx gy gz (fl_faces (close_flags fl))) as (m0 & E & K & H1 & H2 & H3 & H4 & _ & _ & _ & _ & _ & _ & _ & _ & Hn & Hc & Hf & He).
  rewrite Hm in E. injection E as <-.
  destruct (@cache_types_spec (Cache.ncells (simple_topo m)) (cells_owned (simple_topo m)) [] []) as (ct & Ect & _ & Ht & _).
  { unfold Cache.ncells. simpl. rewrite !app_nil_r, Hc, seq_length, !Nat.add_0_r. apply Permutation_refl. }
  destruct (@two_types (Cache.nfaces (simple_topo m)) (faces_owned (simple_topo m)) []) as [ft Eft].
  { unfold Cache.nfaces. simpl. rewrite !app_nil_r, Hf. destruct (fl_faces _); [rewrite seq_length, !Nat.add_0_r|]; apply Permutation_refl. }
  destruct (@two_types (Cache.nedges (simple_topo m)) (edges_owned (simple_topo m)) []) as [et Eet].
  { unfold Cache.nedges. simpl. rewrite !app_nil_r, He. apply Permutation_refl. }
  destruct (@two_types (Cache.nnodes (simple_topo m)) (nodes_owned (simple_topo m)) []) as [nt Ent].
  { unfold Cache.nnodes. simpl. rewrite !app_nil_r, Hn, seq_length, !Nat.add_0_r. apply Permutation_refl. }
  exists ct, ft, et, nt. do 4 (split; [assumption|]).
  intros c Lc. apply rd_Ok. apply Ht. left. split; auto. cbn [cells_owned simple_topo]. rewrite Hc. apply in_seq. lia.
Qed.

Lemma box_caches_ok : fl_faces (close_flags fl) = true -> fl_edges (close_flags fl) = false ->
  exists cm, cache_extra_variables (simple_topo m) (close_flags fl) = Ok cm /\ box_caches d (box_g m cm).
Proof.
  intros F1 F2. destruct (no_edges_no_sides fl F2) as (F3 & F4 & F5).
  destruct box_types as (ct & ft & et & nt & Ect & Eft & _ & Ent & Ht).
  destruct (make_simple_3d_conn d v0 gx gy gz (fl_faces (close_flags fl))) as (m0 & E & K & H1 & H2 & H3 & H4 & _ & _ & _ & _ & _ & _ & _ & _ & Hn & Hc & Hf & He).
  rewrite Hm in E. injection E as <-. rewrite F1 in Hf. cbn iota in Hf.
  assert (NC : Cache.ncells (simple_topo m) = ncells d) by (unfold Cache.ncells; simpl; rewrite Hc, seq_length; lia).
  assert (NF : Cache.nfaces (simple_topo m) = nfaces d) by (unfold Cache.nfaces; simpl; rewrite Hf, seq_length; lia).
  assert (Ecf : cache_cell2face_info (simple_topo m) = Ok (map (fun c => combine (cf3 d c) dirs6) (seq 0 (ncells d)))).
  { unfold cache_cell2face_info. rewrite NC. apply mapM_fun. intros c Ic. apply in_seq in Ic. cbn [fw_cell_faces simple_topo]. rewrite (q_cell_faces K) by lia. reflexivity. }
  assert (FC : forall f, (f < nfaces d)%nat -> exists z0 z1, fw_face_cells (simple_topo m) f = Ok (map Z.to_nat (cellz z0 ++ cellz z1)) /\
     (length (map Z.to_nat (cellz z0 ++ cellz z1)) <= 2)%nat /\
    (forall c, (c < ncells d)%nat -> z0 = Z.of_nat c <-> In (f, (-1)%Z) (combine (cf3 d c) dirs6)) /\
    (forall c, (c < ncells d)%nat -> z1 = Z.of_nat c <-> In (f, 1%Z) (combine (cf3 d c) dirs6)) /\
    (z0 = (-1)%Z \/ exists c, (c < ncells d)%nat /\ z0 = Z.of_nat c) /\
    (z1 = (-1)%Z \/ exists c, (c < ncells d)%nat /\ z1 = Z.of_nat c)).
  { intros f Lf. rewrite <- H3 in Lf. destruct (q_face_cells K Lf) as (z0 & z1 & _ & _ & E' & P0 & P1 & R0 & R1). exists z0, z1. cbn [fw_face_cells simple_topo]. rewrite E'. cbn [bind].
    split; auto. split; [rewrite map_length; apply (face_cells_range K Lf E')|]. rewrite <- H1. auto. }
  destruct (@face2cell_ok (simple_topo m)) as [fc Efc].
  { intros f Lf. rewrite NF in Lf. destruct (FC f Lf) as (z0 & z1 & E1 & E2 & _). eauto. }
  eexists. split.
  - unfold cache_extra_variables. rewrite F1, F2, F3, F4, F5. cbn [orb when]. rewrite Ect, Eft, Ent, Ecf, Efc. cbn [bind]. reflexivity.
  - constructor; cbn [box_g gm cm_flags cm_topo sdim fnodes cverts cm_ctype]; auto.
    + intros c Lc. unfold Cache.cell_get_faces_and_dirs. cbn [cm_cf need bind]. rewrite rd_map with (h := fun c => combine (cf3 d c) dirs6) (y := c); auto. apply seq_at. auto.
    + intros f Lf. destruct (FC f Lf) as (z0 & z1 & E1 & E2 & P0 & P1 & R0 & R1). exists z0, z1. split; [|auto].
      unfold cache_face2cell_info in Efc. rewrite NF in Efc. destruct (mapM_seq _ _ Efc) as [_ Q]. destruct (Q f Lf) as (row & Er & Nr). rewrite E1 in Er. cbn [bind] in Er.
      rewrite face2cell_row_ok in Er by auto. apply Ok_inj in Er. subst row. destruct (cellz_map R0 R1) as [EZ PZ].
      unfold Cache.face_get_cells. cbn [cm_fc need bind]. rewrite EZ, map_length in Nr. unfold for_lt. cbn [seq foldM]. rewrite (proj2 (rd_Ok _ _ _) Nr). cbn [bind].
      clear - PZ Lf E2. rewrite map_length in E2. destruct (cellz z0 ++ cellz z1) as [|x [|y [|w l]]]; cbn [length] in *; try lia; cbn [app repeat Nat.sub rd nth_error bind fc_test]; unfold fc_test; simpl; auto.
      * assert (0 <= x)%Z by (apply PZ; left; auto). destruct (Z.eqb_spec x (-1)); [lia|]. simpl. auto.
      * assert (0 <= x)%Z by (apply PZ; left; auto). assert (0 <= y)%Z by (apply PZ; right; left; auto). destruct (Z.eqb_spec x (-1)); [lia|]. simpl. destruct (Z.eqb_spec y (-1)); [lia|]. simpl. auto.
    + intros f Lf. apply (q_face_nodes K). lia.
    + intros c Lc. apply (q_cell_nodes K). lia.
Qed.
(** with edges requested: the framework has none *)
Lemma box_edges_throw : fl_faces (close_flags fl) = true -> fl_edges (close_flags fl) = true -> cache_extra_variables (simple_topo m) (close_flags fl) = Thrown.
Proof.
  intros F1 F2. destruct box_types as (ct & ft & et & nt & Ect & Eft & Eet & Ent & _).
  destruct (make_simple_3d_conn d v0 gx gy gz (fl_faces (close_flags fl))) as (m0 & E & K & H1 & H2 & H3 & H4 & _ & _ & _ & _ & _ & _ & _ & _ & Hn & Hc & Hf & He).
  rewrite Hm in E. injection E as <-. rewrite F1 in Hf. cbn iota in Hf. destruct Hd as (Q1 & Q2 & Q3).
  assert (NC : Cache.ncells (simple_topo m) = ncells d) by (unfold Cache.ncells; simpl; rewrite Hc, seq_length; lia).
  assert (NF : Cache.nfaces (simple_topo m) = nfaces d) by (unfold Cache.nfaces; simpl; rewrite Hf, seq_length; lia).
  assert (NP : (0 < nfaces d)%nat) by (unfold SimpleMesh_proofs2.nfaces; nia).
  unfold cache_extra_variables. rewrite F1, F2, Ect, Eft, Eet, Ent. cbn [bind when].
  destruct (@mapM_exists _ _ (fw_cell_faces (simple_topo m)) (seq 0 (Cache.ncells (simple_topo m)))) as [cf Ecf].
  { intros c Ic. apply in_seq in Ic. rewrite NC in Ic. cbn [fw_cell_faces simple_topo]. rewrite (q_cell_faces K) by lia. cbn [bind]. eauto. }
  unfold cache_cell2face_info. rewrite Ecf. cbn [bind when].
  destruct (@face2cell_ok (simple_topo m)) as [fc Efc].
  { intros f Lf. rewrite NF in Lf. rewrite <- H3 in Lf. cbn [fw_face_cells simple_topo]. destruct (q_face_cells K Lf) as (z0 & z1 & _ & _ & E' & _).
    rewrite E'. cbn [bind]. eexists. split; [reflexivity|]. rewrite map_length. apply (face_cells_range K Lf E'). }
  rewrite Efc. cbn [bind when]. unfold cache_face2edge_info. rewrite NF. destruct (nfaces d) as [|k]; [lia|]. simpl. rewrite H4. reflexivity.
Qed.
(** without faces: the cells cannot be computed *)
Lemma box_no_faces X g : fl_faces (close_flags fl) = false ->
  exists cm, cache_extra_variables (simple_topo m) (close_flags fl) = Ok cm /\ update_geometric_quantities (box_g m cm) X g = AssertFail.
Proof.
  intros F1. destruct box_types as (ct & ft & et & nt & Ect & Eft & Eet & Ent & Ht).
  destruct (make_simple_3d_conn d v0 gx gy gz (fl_faces (close_flags fl))) as (m0 & E & K & H1 & H2 & H3 & H4 & _ & _ & _ & _ & _ & _ & _ & _ & Hn & Hc & Hf & He).
  rewrite Hm in E. injection E as <-. rewrite F1 in Hf. cbn iota in Hf. destruct Hd as (Q1 & Q2 & Q3).
  assert (NC : Cache.ncells (simple_topo m) = ncells d) by (unfold Cache.ncells; simpl; rewrite Hc, seq_length; lia).
  assert (NF : Cache.nfaces (simple_topo m) = 0%nat) by (unfold Cache.nfaces; simpl; rewrite Hf; auto).
  assert (NE : Cache.nedges (simple_topo m) = 0%nat) by (unfold Cache.nedges; simpl; rewrite He; auto).
  assert (NP : (0 < ncells d)%nat) by (unfold SimpleMesh_proofs2.ncells; nia).
  assert (NS : fl_sides (close_flags fl) = false /\ fl_wedges (close_flags fl) = false /\ fl_corners (close_flags fl) = false).
  { clear - F1. destruct fl as [[] [] [] [] []]; simpl in *; intuition discriminate. } destruct NS as (F3 & F4 & F5).
  eexists. split.
  - unfold cache_extra_variables. rewrite F1, F3, F4, F5, Ect, Ent. cbn [orb when bind].
    instantiate (1 := CMesh (simple_topo m) (close_flags fl) ct nt None (if fl_edges (close_flags fl) then Some et else None) None None (if fl_edges (close_flags fl) then Some [] else None) (if fl_edges (close_flags fl) then Some [] else None) None None None).
    destruct (fl_edges (close_flags fl)); cbn [when bind]; auto. rewrite Eet. cbn [bind]. unfold cache_face2edge_info, cache_edge2node_info, edges_all. rewrite NF, NE. cbn [seq mapM bind edges_owned edges_ghost simple_topo]. rewrite He. reflexivity.
  - unfold update_geometric_quantities. cbn [box_g gm cm_flags]. rewrite F1, F3, F4, F5. cbn [bind orb].
    assert (EE : exists g', (if fl_edges (close_flags fl) then compute_edges (box_g m (CMesh (simple_topo m) (close_flags fl) ct nt None (if fl_edges (close_flags fl) then Some et else None) None None (if fl_edges (close_flags fl) then Some [] else None) (if fl_edges (close_flags fl) then Some [] else None) None None None)) X g else Ok g) = Ok g').
    { destruct (fl_edges (close_flags fl)); eauto. unfold compute_edges. cbn [box_g gm cm_topo]. rewrite NE. cbn [seq mapM bind]. eauto. }
    destruct EE as [g' EE]. unfold box_g in EE |- *. rewrite EE. cbn [bind]. unfold compute_cells. cbn [box_g gm cm_topo]. rewrite NC. destruct (ncells d) as [|k] eqn:EN; [lia|]. cbn [seq mapM].
    unfold cell_entry. cbn [gm cm_ctype]. rewrite Ht by lia. cbn [bind]. unfold compute_cell_geometry, mdim. cbn [gm cm_topo simple_topo tp_mdim]. rewrite H4. reflexivity.
Qed.
End Construct.
