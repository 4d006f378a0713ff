(** 1D meshes of Mesh_simple with sides, wedges and corners (C30), and the box mesh of Mesh_simple with them (C30). *)
From Coq Require Import Permutation.
From Verif Require Import Base Loop Defs Factory SimpleMesh SimpleMesh_spec SimpleMesh_proofs SimpleMesh_proofs2 SimpleMesh_proofs3 SimpleMesh_proofs4.
From Verif Require Import Cache Cache_spec Cache_proofs Cache_proofs2 Cache_proofs3 Cache_proofs4 Cache_proofs5 Cache_proofs6 SimpleTopo.
From Verif Require Props_Cache.
Set Implicit Arguments.

(** ** the line mesh is a framework mesh *)
Lemma line_node_consistent t : line_mesh t -> node_consistent t line_shape.
Proof.
  intros L. constructor; simpl.
  - intros c _. constructor; [|constructor; [simpl; tauto|constructor]]. intros [H|[]]; lia.
  - intros c n Hc [<-|[<-|[]]]; rewrite (ln_nodes L); lia.
  - intros c f e [Hc [Hf He]]. unfold face_of, edge_of in *. simpl in *. intuition.
  - intros c n Hc [<-|[<-|[]]].
    + exists c, c. split; [|auto]. split; auto. unfold face_of, edge_of. simpl. auto.
    + exists (c + 1), (c + 1). split; [|auto]. split; auto. unfold face_of, edge_of. simpl. auto.
Qed.
Lemma simple_line V (x : list V) fl m : fl_sides (close_flags fl) = true ->
  make_simple_1d x (fl_edges (close_flags fl)) (fl_faces (close_flags fl)) false = Ok m ->
  line_mesh (simple_topo m) /\ ncells (simple_topo m) = length x - 1.
Proof.
  intros S E. destruct (close_closed fl) as [_ [_ C]]. destruct (C S) as [F1 F2]. rewrite F1, F2 in E. clear C F1 F2.
  assert (Hx : x <> []) by (intros ->; discriminate).
  assert (L1 : length x - 1 + 1 = length x) by (destruct x; simpl; [congruence|lia]).
  destruct (make_simple_1d_conn true true Hx) as (m0 & E0 & K & H1 & H2 & H3 & H4 & _ & _ & _ & _ & _ & _ & _ & Hn & Hc & Hf & He).
  rewrite E in E0. injection E0 as <-.
  assert (NC : ncells (simple_topo m) = length x - 1) by (unfold ncells; simpl; rewrite Hc, seq_length; lia).
  assert (NF : nfaces (simple_topo m) = length x) by (unfold nfaces; simpl; rewrite Hf, seq_length; lia).
  assert (NE : nedges (simple_topo m) = length x) by (unfold nedges; simpl; rewrite He, seq_length; lia).
  assert (NN : nnodes (simple_topo m) = length x) by (unfold nnodes; simpl; rewrite Hn, seq_length; lia).
  split; auto. constructor; rewrite ?NC, ?NF, ?NE, ?NN; auto.
  - unfold cells_all. simpl. rewrite Hc, ?app_nil_r. reflexivity.
  - constructor; rewrite ?NC, ?NF, ?NE, ?NN; unfold cells_all, nodes_all, faces_all, edges_all; simpl; rewrite ?app_nil_r.
    + rewrite Hc. apply Permutation_refl.
    + rewrite Hn. apply Permutation_refl.
    + rewrite Hf. apply Permutation_refl.
    + rewrite He. apply Permutation_refl.
  - intros c Hc'. rewrite <- H1 in Hc'. cbn [fw_cell_nodes simple_topo]. rewrite (q_cell_nodes K Hc'). reflexivity.
  - intros c Hc'. rewrite <- H1 in Hc'. cbn [fw_cell_faces simple_topo]. rewrite (q_cell_faces K Hc'). cbn [bind]. eauto.
  - intros f Hf'. cbn [fw_face_edges simple_topo]. rewrite H4. exists []. reflexivity.
  - intros f Hf'. rewrite <- H3 in Hf'. cbn [fw_face_cells simple_topo]. destruct (q_face_cells K Hf') as (z0 & z1 & _ & _ & E' & _).
    rewrite E'. cbn [bind]. eexists. split; [reflexivity|]. rewrite map_length. apply (face_cells_range K Hf' E').
Qed.
Lemma construct_1d_built V (x : list V) fl m : fl_sides (close_flags fl) = true -> construct_1d x fl = Ok m ->
  exists t, built t line_shape fl m /\ line_mesh t /\ ncells t = length x - 1.
Proof.
  intros S E. unfold construct_1d in E. destruct (make_simple_1d x _ _ false) as [sm| | | |] eqn:Em; try discriminate. cbn [bind] in E.
  destruct (@simple_line _ x fl sm S Em) as [L N]. exists (simple_topo sm). split; [|auto].
  constructor; auto; [apply fm_1d; auto|]. intros _. apply line_node_consistent; auto.
Qed.

(** ** C30 *)
(** the constructor succeeds for every non-empty list of node coordinates *)
Theorem c30_line_construction_succeeds : forall V (x : list V) fl, x <> [] -> fl_sides (close_flags fl) = true ->
  exists m, construct_1d x fl = Ok m.
Proof.
  intros V x fl Hx S. unfold construct_1d.
  destruct (make_simple_1d_conn (fl_edges (close_flags fl)) (fl_faces (close_flags fl)) Hx) as (sm & E & _). rewrite E. cbn [bind].
  destruct (@simple_line _ x fl sm S E) as [L _].
  destruct (@build_spec (simple_topo sm) line_shape fl (fm_1d L eq_refl) S (fun _ => line_node_consistent L)) as [m [Em _]]. eauto.
Qed.
(** cell [c] (between nodes [c] and [c+1]) has exactly two sides, one at each node; the side's face and edge are that node *)
Theorem c30_two_sides_per_cell : forall V (x : list V) fl m c, fl_sides (close_flags fl) = true -> construct_1d x fl = Ok m ->
  c < length x - 1 ->
  exists s0 s1, cell_get_sides m c = Ok [s0; s1] /\ s0 <> s1 /\
    is_side m s0 c c c /\ is_side m s1 c (c + 1) (c + 1) /\
    (forall i, i < 2 -> side_get_node m s0 i = Ok c /\ side_get_node m s1 i = Ok (c + 1)).
Proof.
  intros V x fl m c S E Hc. destruct (@construct_1d_built V x fl m S E) as [t [B [L N]]]. rewrite <- N in Hc.
  assert (ET : trips t line_shape = flat_map lt2 (seq 0 (ncells t))) by (rewrite trips_line, (ln_cells L); auto).
  assert (N0 : nth_error (trips t line_shape) (2 * c) = Some (c, (c, 1%Z), (c, (-1)%Z))).
  { rewrite ET, nth_lt2 by lia. replace (2 * c / 2) with c by lia. replace ((2 * c) mod 2) with 0 by lia. rewrite Nat.add_0_r. auto. }
  assert (N1 : nth_error (trips t line_shape) (2 * c + 1) = Some (c, (c + 1, 1%Z), (c + 1, (-1)%Z))).
  { rewrite ET, nth_lt2 by lia. replace ((2 * c + 1) / 2) with c by lia. replace ((2 * c + 1) mod 2) with 1 by lia. auto. }
  exists (2 * c), (2 * c + 1). split; [|split; [lia|]].
  - rewrite (cell_sides B Hc), ET. rewrite (@idxs_lt2 _ (fun c' => c' =? c)) by (intros c' y [<-|[<-|[]]]; reflexivity).
    assert (F : filter (fun c' => c' =? c) (seq 0 (ncells t)) = [c]); [|rewrite F; reflexivity].
    clear - Hc. induction (ncells t) as [|n IH]; [lia|]. rewrite seq_S, filter_app. simpl. destruct (Nat.eqb_spec n c) as [->|Nm].
    + rewrite filter_false; auto. intros y Hy. apply in_seq in Hy. apply Nat.eqb_neq. lia.
    + rewrite IH by lia. auto.
  - split; [apply (is_side_iff B); eexists; split; [exact N0|auto]|]. split; [apply (is_side_iff B); eexists; split; [exact N1|auto]|].
    intros i Hi. destruct (side_at B _ N0) as [_ [_ [_ G0]]]. destruct (side_at B _ N1) as [_ [_ [_ G1]]]. rewrite G0, G1 by auto.
    unfold snode, orient, enodes', side_orient, tedge, tfdir, tedir. rewrite (ln_dim L). cbn. destruct (i =? 0); auto.
Qed.
(** the opposite of the side of cell [c] at node [n] is the side at [n] of the other cell at [n], and -1 if there is none *)
Theorem c30_opposite_side : forall V (x : list V) fl m c n s, fl_sides (close_flags fl) = true -> construct_1d x fl = Ok m ->
  is_side m s c n n ->
  (n = 0 \/ n = length x - 1 -> side_get_opposite_side m s = Ok (-1)%Z) /\
  (0 < n < length x - 1 -> exists s' c', side_get_opposite_side m s = Ok (Z.of_nat s') /\ is_side m s' c' n n /\ c' <> c /\
      (n = c -> c' + 1 = c) /\ (n = c + 1 -> c' = c + 1)).
Proof.
  intros V x fl m c n s S E H. destruct (@construct_1d_built V x fl m S E) as [t [B [L N]]].
  assert (TR : forall c' f e, tri t line_shape c' f e <-> c' < ncells t /\ (f = c' \/ f = c' + 1) /\ e = f).
  { intros c' f e. unfold tri, face_of, edge_of. simpl. intuition. }
  destruct (Props_Cache.c24_every_side_is_a_triple B (proj1 H)) as [c0 [f0 [e0 [H0 T0]]]].
  assert (c0 = c /\ f0 = n /\ e0 = n) as [-> [-> ->]].
  { destruct H as [_ [A1 [A2 A3]]], H0 as [_ [A4 [A5 A6]]]. split; [congruence|split; congruence]. }
  apply TR in T0 as [Tc [Tn _]].
  assert (O := Props_Cache.c25_no_opposite_iff_no_other_cell B H). split.
  - intros Hn. apply O. intros c' T'. apply TR in T' as [T1 [T2 _]]. lia.
  - intros Hn. destruct (opp_at B (proj1 H)) as [[j [Ej M]]|[Ej _]].
    + assert (NZ : Z.of_nat j <> (-1)%Z) by lia.
      destruct (@Props_Cache.c25_opposite_is_a_partial_involution t line_shape fl m s _ B (proj1 H) Ej NZ) as (s' & c1 & c' & f & e & Es & _ & S1 & S2 & NC).
      assert (c1 = c /\ f = n /\ e = n) as [-> [-> ->]].
      { destruct H as [_ [A1 [A2 A3]]], S1 as [_ [A4 [A5 A6]]]. split; [congruence|split; congruence]. }
      exists s', c'. rewrite Ej, Es. split; auto. split; auto. split; [auto|].
      destruct (Props_Cache.c24_every_side_is_a_triple B (proj1 S2)) as [c2 [f2 [e2 [H2 T2]]]].
      assert (c2 = c' /\ f2 = n) as [-> ->]. { destruct S2 as [_ [A1 [A2 A3]]], H2 as [_ [A4 [A5 A6]]]. split; congruence. }
      apply TR in T2 as [T3 [T4 _]]. lia.
    + exfalso. assert (G := proj1 O Ej). rewrite <- N in Hn. destruct Tn as [->| ->].
      * assert (c - 1 = c); [apply G, TR|]; lia.
      * assert (c + 1 = c); [apply G, TR|]; lia.
Qed.
(** the wedges and corners of the line: two wedges per side at the side's node, one corner per cell and node holding both *)
Theorem c30_corners_of_the_line : forall V (x : list V) fl m c n, fl_corners (close_flags fl) = true -> construct_1d x fl = Ok m ->
  c < length x - 1 -> n = c \/ n = c + 1 ->
  exists k s, cell_get_corner_at_node m c n = Ok (Z.of_nat k) /\ is_side m s c n n /\
    (forall w, (exists ws, corner_get_wedges m k = Ok ws /\ In w ws) <-> w < n_wedges m /\ wedge_get_side w = s).
Proof.
  intros V x fl m c n C E Hc Hn. assert (W := proj1 (close_closed fl) C). assert (S := proj1 (proj2 (close_closed fl)) W).
  destruct (@construct_1d_built V x fl m S E) as [t [B [L N]]].
  destruct (@c30_two_sides_per_cell V x fl m c S E Hc) as (s0 & s1 & _ & Nd & H0 & H1 & Hnode).
  rewrite <- N in Hc.
  destruct (@Props_Cache.c28_corner_at_node t line_shape fl m c n B C Hc) as [[k [Ek Hk]]|[_ Bad]]; [|exfalso; apply Bad; simpl; lia].
  destruct (@Props_Cache.c28_corner_wedges t line_shape fl m k c n B C Hk) as [ws [Ew [_ [_ Hw]]]].
  assert (TR : forall c' f e, tri t line_shape c' f e <-> c' < ncells t /\ (f = c' \/ f = c' + 1) /\ e = f).
  { intros c' f e. unfold tri, face_of, edge_of. simpl. intuition. }
  assert (NS : forall w, w < n_wedges m -> wedge_get_cell m w = Ok c ->
     is_side m (wedge_get_side w) c c c \/ is_side m (wedge_get_side w) c (c + 1) (c + 1)).
  { intros w Lw Hcw. destruct (@Props_Cache.c26_wedge_inherits_from_side t line_shape fl m w B W Lw) as [_ [_ [_ [c0 [f0 [e0 [Hs [G1 _]]]]]]]].
    assert (c0 = c) as -> by congruence. destruct (Props_Cache.c24_every_side_is_a_triple B (proj1 Hs)) as [c2 [f2 [e2 [H2 T2]]]].
    assert (c2 = c /\ f2 = f0 /\ e2 = e0) as [-> [-> ->]]. { destruct Hs as [_ [A1 [A2 A3]]], H2 as [_ [A4 [A5 A6]]]. split; [congruence|split; congruence]. }
    apply TR in T2 as [_ [[->| ->] ->]]; auto. }
  assert (WN : forall w (i : nat), wedge_get_node m w = side_get_node m (w / 2) (w mod 2)).
  { intros w _. unfold wedge_get_node. destruct (swT B W) as [-> _]. auto. }
  assert (U : forall s s' f, is_side m s c f f -> is_side m s' c f f -> s = s').
  { intros s s' f Hs Hs'. destruct (Props_Cache.c24_every_side_is_a_triple B (proj1 Hs)) as [c2 [f2 [e2 [H2 T2]]]].
    assert (c2 = c /\ f2 = f /\ e2 = f) as [-> [-> ->]]. { destruct Hs as [_ [A1 [A2 A3]]], H2 as [_ [A4 [A5 A6]]]. split; [congruence|split; congruence]. }
    destruct (Props_Cache.c24_every_triple_has_one_side B T2) as [s2 [_ Q]]. rewrite (Q s), (Q s'); auto. }
  assert (M2 : forall w, w mod 2 < 2) by (intros; lia).
  assert (G : forall s, is_side m s c n n -> (forall i, i < 2 -> side_get_node m s i = Ok n) ->
     forall w, is_wedge m w c n <-> w < n_wedges m /\ wedge_get_side w = s).
  { intros s Hs Hsn w. split.
    - intros [Lw [Cw Nw]]. split; auto. destruct (NS w Lw Cw) as [Q|Q].
      + assert (wedge_get_side w = s0) as Q' by (apply (U _ _ c); auto). rewrite WN in Nw by exact 0. unfold wedge_get_side in *.
        rewrite Q' in Nw. destruct (Hnode (w mod 2) (M2 w)) as [A _]. rewrite A in Nw. injection Nw as <-. apply (U _ _ c); auto.
      + assert (wedge_get_side w = s1) as Q' by (apply (U _ _ (c + 1)); auto). rewrite WN in Nw by exact 0. unfold wedge_get_side in *.
        rewrite Q' in Nw. destruct (Hnode (w mod 2) (M2 w)) as [_ A]. rewrite A in Nw. injection Nw as <-. apply (U _ _ (c + 1)); auto.
    - intros [Lw Q]. split; auto. destruct (@Props_Cache.c26_wedge_inherits_from_side t line_shape fl m w B W Lw) as [-> _].
      rewrite Q. split; [apply Hs|]. rewrite WN by exact 0. unfold wedge_get_side in Q. rewrite Q. apply Hsn; auto. }
  assert (P : forall s, is_side m s c n n -> (forall i, i < 2 -> side_get_node m s i = Ok n) ->
     forall w, (exists ws0, corner_get_wedges m k = Ok ws0 /\ In w ws0) <-> w < n_wedges m /\ wedge_get_side w = s).
  { intros s Hs Hsn w. rewrite <- (G s Hs Hsn w), <- Hw. split; [intros [ws0 [E0 I0]]; congruence|eauto]. }
  destruct Hn as [->| ->].
  - exists k, s0. split; auto. split; auto. apply P; auto. intros i Hi. apply (Hnode i Hi).
  - exists k, s1. split; auto. split; auto. apply P; auto. intros i Hi. apply (Hnode i Hi).
Qed.
Example c30_witness : fl_sides (close_flags Props_Cache.all_on) = true /\ exists m, construct_1d [10; 20; 30; 40] Props_Cache.all_on = Ok m /\
  cell_get_sides m 1 = Ok [2; 3] /\ is_side m 2 1 1 1 /\ side_get_opposite_side m 2 = Ok 1%Z /\ side_get_opposite_side m 5 = Ok (-1)%Z /\ n_corners m = 6.
Proof.
  split; [reflexivity|]. destruct (construct_1d [10; 20; 30; 40] Props_Cache.all_on) as [m| | | |] eqn:E; try (vm_compute in E; discriminate).
  exists m. split; auto. vm_compute in E. injection E as <-. vm_compute. auto 12.
Qed.

(** the box mesh of Mesh_simple has no edges: asking for sides, wedges or corners always throws *)
Theorem c30_box_mesh_with_sides_throws : forall V (v0 : V) d gx gy gz fl, 0 < nx d -> 0 < ny d -> 0 < nz d ->
  fl_sides (close_flags fl) = true -> construct_3d v0 d gx gy gz fl = Thrown.
Proof.
  intros V v0 d gx gy gz fl P1 P2 P3 S. unfold construct_3d. destruct (close_closed fl) as [_ [_ C]]. destruct (C S) as [F1 F2].
  destruct (make_simple_3d_conn d v0 gx gy gz (fl_faces (close_flags fl))) as (m & E & K & H1 & H2 & H3 & H4 & _ & _ & _ & _ & _ & _ & _ & _ & Hn & Hc & Hf & He).
  rewrite F1 in E, Hf |- *. cbn iota in Hf.
  assert (NF : 0 < SimpleMesh_proofs2.nfaces d) by (unfold SimpleMesh_proofs2.nfaces; nia).
  assert (NC : ncells (simple_topo m) = num_cells m) by (unfold ncells; simpl; rewrite Hc, seq_length, H1; lia).
  assert (N2 : nfaces (simple_topo m) = num_faces m) by (unfold nfaces; simpl; rewrite Hf, seq_length, H3; lia).
  assert (N3 : nnodes (simple_topo m) = length (nodeids_owned m)) by (unfold nnodes; simpl; lia).
  rewrite E. cbn [bind]. unfold cache_extra_variables. rewrite F1, F2, S.
  destruct (@cache_types_spec (ncells (simple_topo m)) (cells_owned (simple_topo m)) (cells_ghost (simple_topo m)) (cells_bghost (simple_topo m)))
    as [ct [Ect _]]; [simpl; rewrite app_nil_r, Hc, NC, H1; apply Permutation_refl|].
  unfold cache_cell_type. rewrite Ect. cbn [bind when].
  destruct (@two_types (nfaces (simple_topo m)) (faces_owned (simple_topo m)) (faces_ghost (simple_topo m)))
    as [ft Eft]; [simpl; rewrite app_nil_r, Hf, N2, H3; apply Permutation_refl|].
  unfold cache_face_type. rewrite Eft. cbn [bind when].
  destruct (@two_types (nedges (simple_topo m)) (edges_owned (simple_topo m)) (edges_ghost (simple_topo m)))
    as [et Eet]; [unfold nedges; simpl; rewrite app_nil_r, He; apply Permutation_refl|].
  unfold cache_edge_type. rewrite Eet. cbn [bind when].
  destruct (@two_types (nnodes (simple_topo m)) (nodes_owned (simple_topo m)) (nodes_ghost (simple_topo m)))
    as [nt Ent]; [simpl; rewrite app_nil_r, N3, Hn, seq_length; apply Permutation_refl|].
  unfold cache_node_type. rewrite Ent. cbn [bind when].
  destruct (@mapM_exists _ _ (fw_cell_faces (simple_topo m)) (seq 0 (ncells (simple_topo m)))) as [cf Ecf].
  { intros c Hc'. apply in_seq in Hc'. rewrite NC in Hc'. cbn [fw_cell_faces simple_topo].
    rewrite (@q_cell_faces _ _ _ _ _ _ K c) by lia. cbn [bind]. eauto. }
  unfold cache_cell2face_info. rewrite Ecf. cbn [bind when].
  destruct (@face2cell_ok (simple_topo m)) as [fc Efc].
  { intros f Hf'. rewrite N2 in Hf'. cbn [fw_face_cells simple_topo]. destruct (q_face_cells K Hf') as (z0 & z1 & _ & _ & E' & _).
    rewrite E'. cbn [bind]. eexists. split; [reflexivity|]. rewrite map_length. apply (face_cells_range K Hf' E'). }
  rewrite Efc. cbn [bind when]. unfold cache_face2edge_info. rewrite N2, H3.
  destruct (SimpleMesh_proofs2.nfaces d) as [|k]; [lia|]. simpl. rewrite H4. reflexivity.
Qed.
Example c30_box_witness : construct_3d 0 (mkDims 2 1 1) (fun i => i) (fun i => i) (fun i => i) Props_Cache.all_on = Thrown.
Proof. apply c30_box_mesh_with_sides_throws; simpl; auto. Qed.
