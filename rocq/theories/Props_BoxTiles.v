(** Property C103: the tiles of a structured box mesh, end to end: which cells and nodes each tile owns and sees as ghosts. *)
From Coq Require Import Reals Lra.
From Verif Require Import Base Loop Defs Factory SimpleMesh SimpleMesh_spec SimpleMesh_proofs SimpleMesh_proofs2 SimpleMesh_proofs3 SimpleMesh_proofs4
  SimpleTopo SimpleGeom Props_SimpleMesh Props_SimpleGeom Cache Props_Cache Point Geometry MeshGeom BoxGeom BoxGeom_spec MeshGeom_spec BoxGeom_proofs Props_BoxGeom
  Partition_spec IndexPartition Props_IndexPartition BlockDiscover Props_Blocks Tiles Tiles_spec Tiles_proofs Props_Tiles BoxTiles.
Set Implicit Arguments.
Local Notation ncells := SimpleMesh_proofs2.ncells.
Local Notation nfaces := SimpleMesh_proofs2.nfaces.
Local Notation nnodes := SimpleMesh_proofs2.nnodes.

(** ** Specification vocabulary *)
(** positions at most [k] steps apart in each of the three directions *)
Definition near (k : nat) (p q : pos3) : Prop :=
  let '(a, b, c) := p in let '(a', b', c') := q in
  (a <= a' + k /\ a' <= a + k) /\ (b <= b' + k /\ b' <= b + k) /\ (c <= c' + k /\ c' <= c + k).
(** [q] lies in the brick from [lo] to [hi] (upper bounds excluded) widened by [k] on every side; in the closed one, bounds included *)
Definition widened (k : nat) (lo hi : pos3) (q : pos3) : Prop :=
  let '(a, b, c) := lo in let '(a', b', c') := hi in let '(i, j, l) := q in
  (a <= i + k /\ i < a' + k) /\ (b <= j + k /\ j < b' + k) /\ (c <= l + k /\ l < c' + k).
Definition widened_closed (k : nat) (lo hi : pos3) (q : pos3) : Prop :=
  let '(a, b, c) := lo in let '(a', b', c') := hi in let '(i, j, l) := q in
  (a <= i + k /\ i <= a' + k) /\ (b <= j + k /\ j <= b' + k) /\ (c <= l + k /\ l <= c' + k).
(** a history of tile requests on a box: cells of the box, kinds of entity the mesh has *)
Definition ok_req (d : dims) (r : treq) : Prop :=
  (forall c, In c (tr_cells r) -> c < nx d * ny d * nz d) /\ fl_edges (tr_flags r) = false /\ fl_wedges (tr_flags r) = false /\ fl_corners (tr_flags r) = false.
(** a 3D mesh with faces requested, after any number of node moves, and the caches it was constructed with *)
Inductive moved (V : Type) (m : smesh V) : smesh V -> Prop :=
| not_moved : moved m m
| moved_one m1 m2 n p : moved m m1 -> SimpleMesh.node_set_coordinates m1 n p = Ok m2 -> moved m m2.
Definition box_of (V : Type) (d : dims) (m : smesh V) (cm : cmesh) : Prop := exists v0 gx gy gz fl m0,
  make_simple_3d v0 d gx gy gz true false = Ok m0 /\ fl_faces (close_flags fl) = true /\ cache_extra_variables (simple_topo m0) (close_flags fl) = Ok cm /\ moved m0 m.

(** ** Node neighbours *)
Lemma common_corner (p q : pos3) : (exists v, corner_of_cell v p /\ corner_of_cell v q) <-> near 1 p q.
Proof.
  destruct p as [[a b] c], q as [[a' b'] c']. split.
  - intros [[[i j] k] [H H']]. unfold corner_of_cell, near in *. lia.
  - intros H. exists (Nat.max a a', Nat.max b b', Nat.max c c'). unfold corner_of_cell, near in *. lia.
Qed.
Lemma corner_at d v p : cell_at d p -> corner_of_cell v p -> node_at d v.
Proof. destruct v as [[i j] k], p as [[a b] c]. unfold cell_at, corner_of_cell, node_at. lia. Qed.

Lemma within_mono adj s k c : within adj s k c -> within adj s (S k) c.
Proof. induction 1; [constructor; auto|]. eapply w_step; eauto. Qed.

Section W.
Variables (d : dims) (adj : nat -> list nat).
Hypothesis A : forall p q, cell_at d p -> cell_at d q -> (In (cid d q) (adj (cid d p)) <-> p <> q /\ near 1 p q).
Hypothesis AR : forall c c', c < ncells d -> In c' (adj c) -> c' < ncells d.
Lemma within_near s k c : (forall x, In x s -> x < ncells d) -> (within adj s k c <-> c < ncells d /\ exists p, cell_at d p /\ In (cid d p) s /\ near k p (cpos d c)).
Proof.
  intros HS. split.
  - induction 1 as [k c I|k c c' W [Lc (p & Hp & Ip & N)] I].
    + split; auto. destruct (cpos_ok d (HS c I)) as [H1 H2]. exists (cpos d c). split; auto. rewrite H2. split; auto. destruct (cpos d c) as [[? ?] ?]. unfold near. lia.
    + assert (Lc' := @AR c c' Lc I). split; auto. exists p. split; auto. split; auto.
      destruct (cpos_ok d Lc) as [H1 H2], (cpos_ok d Lc') as [H1' H2']. rewrite <- H2, <- H2' in I. apply A in I; auto. destruct I as [_ N'].
      destruct p as [[? ?] ?], (cpos d c) as [[? ?] ?], (cpos d c') as [[? ?] ?]. unfold near in *. lia.
  - intros [Lc (p & Hp & Ip & N)]. destruct (cpos_ok d Lc) as [H1 H2]. rewrite <- H2. clear H2. remember (cpos d c) as q eqn:Eq. clear Eq Lc c. revert q H1 N.
    induction k as [|k IH]; intros q H1 N.
    + assert (p = q) as -> by (destruct p as [[? ?] ?], q as [[? ?] ?]; unfold near in N; repeat f_equal; lia). constructor. auto.
    + destruct p as [[a b] c0], q as [[i j] l].
      pose (step := fun x y : nat => if x <? y then y - 1 else if y <? x then y + 1 else y).
      set (r := (step a i, step b j, step c0 l)).
      assert (SP : forall x y, (x < y /\ step x y = y - 1) \/ (y < x /\ step x y = y + 1) \/ (x = y /\ step x y = y)).
      { intros x y. unfold step. destruct (Nat.ltb_spec x y); [auto|]. destruct (Nat.ltb_spec y x); [auto|]. right. right. split; [lia|auto]. }
      assert (Q1 := SP a i). assert (Q2 := SP b j). assert (Q3 := SP c0 l).
      assert (Hr : cell_at d r). { unfold r, cell_at in *. lia. }
      assert (W : within adj s k (cid d r)) by (apply IH; auto; unfold r, near in *; lia).
      assert (E : r = (i, j, l) \/ r <> (i, j, l)).
      { destruct (Nat.eq_dec (step a i) i), (Nat.eq_dec (step b j) j), (Nat.eq_dec (step c0 l) l); [left; unfold r; congruence|right..]; unfold r; congruence. }
      destruct E as [E|E]; [rewrite <- E; apply within_mono; auto|]. eapply w_step; [exact W|]. apply A; auto. split; auto. unfold r, near. lia.
Qed.
End W.

Section B.
Variables (V : Type) (d : dims) (m : smesh V) (cm : cmesh).
Hypothesis HB : box_of d m cm.
Hypothesis HP : positive d.
Definition adj_of (c : nat) : list nat := match SimpleMesh.cell_get_node_adj_cells m c with Ok l => l | _ => [] end.
Definition box_map : cellmap := CellMap adj_of (cn3 d) (cf3 d) (fun _ => []) (fun _ => []) (fun _ => []) (fun _ => []).
Lemma box_conn : conn m (cn3 d) (cf3 d) (fn3 d) dirs6 /\ num_cells m = ncells d /\ num_nodes m = nnodes d /\ num_faces m = nfaces d.
Proof. destruct HB as (v0 & gx & gy & gz & fl & m0 & E & _ & _ & MV). assert (BM : box_mesh d m) by (clear - E MV; induction MV; [eapply BM_new; exact E|eapply BM_move; eauto]). destruct (box_mesh_facts BM) as (K & E1 & E2 & E3 & _). auto. Qed.
Lemma adj_spec p q : cell_at d p -> cell_at d q -> (In (cid d q) (adj_of (cid d p)) <-> p <> q /\ near 1 p q).
Proof.
  intros Hp Hq. destruct box_conn as (K & NC & NN & _). assert (Lp := cid_lt d p Hp). assert (Lq := cid_lt d q Hq).
  destruct (@node_adj_ok _ _ _ _ _ _ K (cid d p)) as (l & El & _ & S); [lia|]. unfold adj_of. rewrite El, S. split.
  - intros (_ & N & n & I1 & I2). split; [congruence|]. apply common_corner. assert (Ln := cn3_lt Lp I1).
    apply cn3_corner in I1; auto. apply cn3_corner in I2; auto. rewrite cpos_cid in * by auto. eauto.
  - intros [N H]. split; [lia|]. split; [intros E; apply N; symmetry; eapply cid_inj; eauto|]. apply common_corner in H as (v & H1 & H2).
    exists (nid d v). split; apply cn3_in; auto; exists v; rewrite cpos_cid; auto.
Qed.
Lemma adj_range c c' : c < ncells d -> In c' (adj_of c) -> c' < ncells d.
Proof. intros Lc I. destruct box_conn as (K & NC & _). destruct (@node_adj_ok _ _ _ _ _ _ K c) as (l & El & _ & S); [lia|]. unfold adj_of in I. rewrite El in I. apply S in I. lia. Qed.

Lemma seq_at0 n i : i < n -> nth_error (seq 0 n) i = Some i.
Proof. intros H. rewrite (nth_error_nth' _ 0) by (rewrite seq_length; auto). rewrite seq_nth by auto. reflexivity. Qed.
Lemma map_fst_combine A B (l : list A) (r : list B) : length l = length r -> map fst (combine l r) = l.
Proof. revert r. induction l as [|a l IH]; intros [|b r] H; try discriminate; cbn; f_equal; auto. Qed.
Notation tm := (simple_tmesh m cm).
Lemma box_counts : tm_ncells tm = ncells d /\ tm_nnodes tm = nnodes d /\ tm_nfaces tm = nfaces d.
Proof.
  destruct HB as (v0 & gx & gy & gz & fl & m0 & E & F & C & _). apply made_of in C. destruct (@c15_box_construction_succeeds V v0 d gx gy gz true) as (m' & E' & N1 & N2 & N3 & I1 & I2 & I3).
  rewrite E in E'. apply Ok_inj in E'. subst m'. destruct (make_simple_3d_conn d v0 gx gy gz true) as (m0' & E' & K & NC & NN & NF & _). rewrite E in E'. apply Ok_inj in E'. subst m0'. cbn [tm_ncells tm_nnodes tm_nfaces simple_tmesh num_entities ids]. rewrite (md_topo C).
  cbn [simple_topo cells_owned cells_ghost cells_bghost nodes_owned nodes_ghost faces_owned faces_ghost]. rewrite I1, I2, I3, !seq_length. simpl length. lia.
Qed.
Lemma box_flags : fl_faces (cm_flags cm) = true /\ fl_edges (cm_flags cm) = false /\ fl_sides (cm_flags cm) = false /\ fl_wedges (cm_flags cm) = false /\ fl_corners (cm_flags cm) = false.
Proof.
  destruct HB as (v0 & gx & gy & gz & fl & m0 & E & F & C & _). pose proof C as MD. apply made_of in MD. rewrite (md_flags MD). split; auto.
  assert (F2 : fl_edges (close_flags fl) = false).
  { destruct (fl_edges (close_flags fl)) eqn:F2; auto. exfalso. destruct (make_simple_3d_conn d v0 gx gy gz true) as (m0' & E' & K & H1 & H2 & H3 & H4 & _ & _ & _ & _ & _ & _ & _ & _ & Hn & Hc & Hf & He).
    rewrite E in E'. apply Ok_inj in E'. subst m0'. assert (Q := md_fe MD). rewrite F2 in Q. cbn [when] in Q. unfold cache_face2edge_info in Q. unfold Cache.nfaces in Q. cbn [simple_topo faces_owned faces_ghost fw_face_edges] in Q.
    rewrite Hf, H4 in Q. destruct HP as (P1 & P2 & P3). destruct (nfaces d) as [|n] eqn:EN; [unfold SimpleMesh_proofs2.nfaces in EN; nia|]. cbn [seq length app Nat.add mapM Nat.eqb bind] in Q. discriminate. }
  destruct (no_edges_no_sides fl F2) as (? & ? & ?). auto.
Qed.
Lemma box_tile_mesh : tile_mesh tm box_map.
Proof.
  destruct box_conn as (K & NC & NN & NF), box_counts as (C1 & C2 & C3), box_flags as (F1 & F2 & F3 & F4 & F5). constructor; rewrite ?C1, ?C2, ?C3.
  - intros c Lc. cbn [tm_adj simple_tmesh m_adj box_map]. split; [|intros e I; eapply adj_range; eauto].
    destruct (@node_adj_ok _ _ _ _ _ _ K c) as (l & El & _); [lia|]. unfold adj_of. rewrite El. auto.
  - intros c Lc. split; [apply (q_cell_nodes K); lia|]. intros e I. eapply cn3_lt; eauto.
  - intros _ c Lc. split; [|intros e I; eapply cf3_lt; eauto]. cbn [tm_faces simple_tmesh m_faces box_map].
    destruct HB as (v0 & gx & gy & gz & fl & m0 & E & F & C & _). apply made_of in C. assert (Q := md_cf C). rewrite F in Q. apply when_true in Q as [cf [Q1 Q2]].
    unfold Cache.cell_get_faces_and_dirs. rewrite Q2. cbn [need bind]. unfold cache_cell2face_info in Q1.
    assert (Cl : Cache.ncells (simple_topo m0) = ncells d). { unfold Cache.ncells. destruct (@c15_box_construction_succeeds V v0 d gx gy gz true) as (m' & E' & N1 & N2 & N3 & I1 & _). rewrite E in E'. apply Ok_inj in E'. subst m'. simpl. rewrite I1, seq_length. simpl. destruct (make_simple_3d_conn d v0 gx gy gz true) as (m0' & E' & _ & N0 & _). rewrite E in E'. apply Ok_inj in E'. subst m0'. lia. }
    rewrite Cl in Q1. apply (mapM_at _ _) with (i := c) (x := c) in Q1; [|apply seq_at0; auto]. destruct Q1 as (b & Hb & Nb).
    assert (K0 : conn m0 (cn3 d) (cf3 d) (fn3 d) dirs6 /\ num_cells m0 = ncells d) by (destruct (make_simple_3d_conn d v0 gx gy gz true) as (m0' & E' & K0 & N0 & _); rewrite E in E'; apply Ok_inj in E'; subst m0'; auto). destruct K0 as [K0 N0].
    cbn [fw_cell_faces simple_topo] in Hb. rewrite (q_cell_faces K0) in Hb by lia. cbn [bind fst snd] in Hb. apply Ok_inj in Hb. subst b. rewrite (proj2 (rd_Ok _ _ _) Nb). cbn [bind]. f_equal.
  - cbn [tm_flags simple_tmesh]. rewrite F2. discriminate.
  - cbn [tm_flags simple_tmesh]. rewrite F3. discriminate.
  - cbn [tm_flags simple_tmesh]. rewrite F4. discriminate.
  - cbn [tm_flags simple_tmesh]. rewrite F5. discriminate.
  - cbn [tm_flags simple_tmesh]. rewrite F4. discriminate.
Qed.
End B.

Lemma ok_valid V d (m : smesh V) cm r : box_of d m cm -> positive d -> ok_req d r -> valid_req (simple_tmesh m cm) r.
Proof.
  intros HB HP (H1 & H2 & H3 & H4). destruct (box_counts HB) as (C1 & _). destruct (box_flags HB HP) as (F1 & F2 & F3 & F4 & F5). split.
  - intros c I. rewrite C1. unfold SimpleMesh_proofs2.ncells. specialize (H1 c I). nia.
  - cbn [tm_flags simple_tmesh]. rewrite H2, H3, H4, F1. repeat split; auto; discriminate.
Qed.
Lemma touch_nodes d cells v : (forall c, In c cells -> c < ncells d) -> node_at d v ->
  (touches (cn3 d) cells (nid d v) <-> exists p, cell_at d p /\ In (cid d p) cells /\ corner_of_cell v p).
Proof.
  intros HC Hv. assert (Lv := nid_lt d _ Hv). split.
  - intros (c & I & J). assert (Lc := HC c I). destruct (cpos_ok d Lc) as [H1 H2]. exists (cpos d c). rewrite H2. apply cn3_corner in J; auto. rewrite npos_nid in J by auto. auto.
  - intros (p & Hp & I & J). assert (Lp := cid_lt d _ Hp). exists (cid d p). split; auto. apply cn3_corner; auto. rewrite npos_nid, cpos_cid by auto. auto.
Qed.
Lemma touch_faces d cells s : (forall c, In c cells -> c < ncells d) -> face_at d s ->
  (touches (cf3 d) cells (fid d s) <-> exists p, cell_at d p /\ In (cid d p) cells /\ side_of_cell s p).
Proof.
  intros HC Hv. assert (Lv := fid_lt d _ Hv). split.
  - intros (c & I & J). assert (Lc := HC c I). destruct (cpos_ok d Lc) as [H1 H2]. exists (cpos d c). rewrite H2. apply cf3_side in J; auto. rewrite fpos_fid in J by auto. auto.
  - intros (p & Hp & I & J). assert (Lp := cid_lt d _ Hp). exists (cid d p). split; auto. apply cf3_side; auto. rewrite fpos_fid, cpos_cid by auto. auto.
Qed.

(** ** Any history of tile requests *)
Section H.
Variables (V : Type) (d : dims) (m : smesh V) (cm : cmesh) (hist : list treq) (t : tdata).
Hypothesis HP : positive d.
Hypothesis HB : box_of d m cm.
Hypothesis HO : forall r, In r hist -> ok_req d r.
Hypothesis HT : tiles_of (simple_tmesh m cm) hist = Ok t.
Let TM := box_tile_mesh HB HP.
Lemma VR r : In r hist -> valid_req (simple_tmesh m cm) r.
Proof. intros I. apply (ok_valid HB HP). auto. Qed.
Lemma cells_lt r c : In r hist -> In c (tr_cells r) -> c < ncells d.
Proof. intros I J. destruct (@HO r I) as [H _]. specialize (H _ J). unfold SimpleMesh_proofs2.ncells. nia. Qed.
Section I.
Variables (i : nat) (tl : tile) (r : treq).
Hypothesis Ht : nth_error (td_tiles t) i = Some tl.
Hypothesis Hr : nth_error hist i = Some r.
Lemma owned_cells : tile_entities tl CELL PARALLEL_OWNED = tr_cells r.
Proof. destruct (@c31_tile_owns_its_cells _ _ _ _ _ _ TM VR HT Ht) as (r' & Hr' & _ & E). congruence. Qed.
Lemma ghost_cells q : cell_at d q -> (In (cid d q) (tile_entities tl CELL PARALLEL_GHOST) <->
  (exists p, cell_at d p /\ In (cid d p) (tr_cells r) /\ near (Z.to_nat (tr_layers r)) p q) /\ ~ In (cid d q) (tr_cells r)).
Proof.
  intros Hq. destruct (@c33_halo_is_the_neighbourhood _ _ _ _ _ _ _ TM VR HT Ht Hr) as [_ S]. rewrite S. cbn [m_adj box_map].
  rewrite (@within_near d (adj_of m)).
  - rewrite cpos_cid by auto. assert (Lq := cid_lt d _ Hq). tauto.
  - apply (adj_spec HB).
  - apply (adj_range HB).
  - intros x I. apply (@cells_lt r); auto. eapply nth_error_In; eauto.
Qed.
Lemma all_lt c : In c (tile_entities tl CELL TYPE_ALL) -> c < ncells d.
Proof.
  intros I. rewrite (@c33_all_is_owned_then_ghost _ _ _ _ _ _ TM VR HT Ht) in I. apply in_app_iff in I as [I|I].
  - rewrite owned_cells in I. apply (@cells_lt r); auto. eapply nth_error_In; eauto.
  - destruct (@c33_halo_is_the_neighbourhood _ _ _ _ _ _ _ TM VR HT Ht Hr) as [_ S]. apply S in I as [I _]. cbn [m_adj box_map] in I.
    rewrite (@within_near d (adj_of m) (adj_spec HB) (adj_range HB)) in I; [tauto|]. intros x J. apply (@cells_lt r); auto. eapply nth_error_In; eauto.
Qed.
End I.
End H.
(** node [v] (square [s]) lies on one of the cells [cells] of the box *)
Definition node_on (d : dims) (cells : list nat) (v : pos3) : Prop := exists p, cell_at d p /\ In (cid d p) cells /\ corner_of_cell v p.
Definition face_on (d : dims) (cells : list nat) (s : sface) : Prop := exists p, cell_at d p /\ In (cid d p) cells /\ side_of_cell s p.

(** A tile owns the cells it was given; its ghost cells are the other cells at most [layers] steps away from them, in all 26 directions. *)
Theorem c103_cells : forall V d (m : smesh V) cm hist t i tl r, positive d -> box_of d m cm -> (forall r, In r hist -> ok_req d r) ->
  tiles_of (simple_tmesh m cm) hist = Ok t -> nth_error (td_tiles t) i = Some tl -> nth_error hist i = Some r ->
  tile_entities tl CELL PARALLEL_OWNED = tr_cells r /\ NoDup (tile_entities tl CELL PARALLEL_GHOST) /\
  (forall c, In c (tile_entities tl CELL PARALLEL_GHOST) -> c < nx d * ny d * nz d) /\
  forall q, cell_at d q -> (In (cid d q) (tile_entities tl CELL PARALLEL_GHOST) <->
    (exists p, cell_at d p /\ In (cid d p) (tr_cells r) /\ near (Z.to_nat (tr_layers r)) p q) /\ ~ In (cid d q) (tr_cells r)).
Proof.
  intros V d m cm hist t i tl r HP HB HO HT Ht Hr. split; [apply (@owned_cells _ _ _ _ _ _ HP HB HO HT _ _ _ Ht Hr)|].
  split; [apply (@c33_halo_is_the_neighbourhood _ _ _ _ _ _ _ (box_tile_mesh HB HP) (@VR _ _ _ _ _ HP HB HO) HT Ht Hr)|]. split.
  - intros c I. assert (L : c < ncells d); [|unfold SimpleMesh_proofs2.ncells in L; nia]. apply (@all_lt _ _ _ _ _ _ HP HB HO HT _ _ _ Ht Hr).
    rewrite (@c33_all_is_owned_then_ghost _ _ _ _ _ _ (box_tile_mesh HB HP) (@VR _ _ _ _ _ HP HB HO) HT Ht). apply in_app_iff. auto.
  - apply (@ghost_cells _ _ _ _ _ _ HP HB HO HT _ _ _ Ht Hr).
Qed.
(** A tile owns the nodes of its own cells that no earlier tile owns; its ghost nodes are the other nodes of its own and its ghost cells. *)
Theorem c103_nodes : forall V d (m : smesh V) cm hist t i tl r v, positive d -> box_of d m cm -> (forall r, In r hist -> ok_req d r) ->
  tiles_of (simple_tmesh m cm) hist = Ok t -> nth_error (td_tiles t) i = Some tl -> nth_error hist i = Some r -> node_at d v ->
  (In (nid d v) (tile_entities tl NODE PARALLEL_OWNED) <-> node_on d (tr_cells r) v /\ forall j r', j < i -> nth_error hist j = Some r' -> ~ node_on d (tr_cells r') v) /\
  (In (nid d v) (tile_entities tl NODE PARALLEL_GHOST) <-> node_on d (tile_entities tl CELL TYPE_ALL) v /\ ~ In (nid d v) (tile_entities tl NODE PARALLEL_OWNED)).
Proof.
  intros V d m cm hist t i tl r v HP HB HO HT Ht Hr Hv. assert (TM := box_tile_mesh HB HP). assert (VV := @VR _ _ _ _ _ HP HB HO). assert (Sk : shared_kind NODE) by (left; auto).
  assert (W : forall r', In r' hist -> (wants (box_map d m) NODE r' (nid d v) <-> node_on d (tr_cells r') v)).
  { intros r' I. unfold wants. cbn [asks ent_of m_nodes box_map]. unfold node_on. rewrite <- touch_nodes; auto; [tauto|]. intros c J. apply (@cells_lt _ _ HO _ _ I J). }
  split.
  - rewrite (owned_iff TM VV HT NODE (nid d v) Ht Hr Sk), W by (eapply nth_error_In; eauto). split; intros [H1 H2]; (split; [exact H1|]).
    + intros j r' Lj Hj N. apply (H2 r'); [apply In_firstn_nth; eauto|]. apply W; auto. eapply nth_error_In; eauto.
    + intros r' I. apply In_firstn_nth in I as (j & Lj & Hj). rewrite W by (eapply nth_error_In; eauto). eauto.
  - rewrite (@c32_other_users_list_it_as_ghost _ _ _ _ _ (nid d v) _ _ _ TM VV HT Sk Ht Hr eq_refl). cbn [ent_of m_nodes box_map]. unfold node_on. rewrite touch_nodes; auto; [tauto|].
    intros c J. apply (@all_lt _ _ _ _ _ _ HP HB HO HT _ _ _ Ht Hr _ J).
Qed.
(** The same of faces, for the tiles that asked for faces. *)
Theorem c103_faces : forall V d (m : smesh V) cm hist t i tl r s, positive d -> box_of d m cm -> (forall r, In r hist -> ok_req d r) ->
  tiles_of (simple_tmesh m cm) hist = Ok t -> nth_error (td_tiles t) i = Some tl -> nth_error hist i = Some r -> face_at d s -> fl_faces (tr_flags r) = true ->
  (In (fid d s) (tile_entities tl FACE PARALLEL_OWNED) <-> face_on d (tr_cells r) s /\
     forall j r', j < i -> nth_error hist j = Some r' -> fl_faces (tr_flags r') = true -> ~ face_on d (tr_cells r') s) /\
  (In (fid d s) (tile_entities tl FACE PARALLEL_GHOST) <-> face_on d (tile_entities tl CELL TYPE_ALL) s /\ ~ In (fid d s) (tile_entities tl FACE PARALLEL_OWNED)).
Proof.
  intros V d m cm hist t i tl r s HP HB HO HT Ht Hr Hv Fr. assert (TM := box_tile_mesh HB HP). assert (VV := @VR _ _ _ _ _ HP HB HO). assert (Sk : shared_kind FACE) by (right; left; auto).
  assert (W : forall r', In r' hist -> (wants (box_map d m) FACE r' (fid d s) <-> fl_faces (tr_flags r') = true /\ face_on d (tr_cells r') s)).
  { intros r' I. unfold wants. cbn [asks ent_of m_faces box_map]. unfold face_on. rewrite <- touch_faces; auto; [tauto|]. intros c J. apply (@cells_lt _ _ HO _ _ I J). }
  split.
  - rewrite (owned_iff TM VV HT FACE (fid d s) Ht Hr Sk), W by (eapply nth_error_In; eauto). split; intros [H1 H2]; (split; [tauto|]).
    + intros j r' Lj Hj Fj N. apply (H2 r'); [apply In_firstn_nth; eauto|]. apply W; auto. eapply nth_error_In; eauto.
    + intros r' I. apply In_firstn_nth in I as (j & Lj & Hj). rewrite W by (eapply nth_error_In; eauto). intros [A B]. eapply H2; eauto.
  - rewrite (@c32_other_users_list_it_as_ghost _ _ _ _ _ (fid d s) _ _ _ TM VV HT Sk Ht Hr Fr). cbn [ent_of m_faces box_map]. unfold face_on. rewrite touch_faces; auto; [tauto|].
    intros c J. apply (@all_lt _ _ _ _ _ _ HP HB HO HT _ _ _ Ht Hr _ J).
Qed.

(** ** Bricks *)
Lemma brick_near d lo hi k p0 q : cell_at d p0 -> brick lo hi p0 -> cell_at d q ->
  ((exists p, cell_at d p /\ brick lo hi p /\ near k p q) <-> widened k lo hi q).
Proof.
  destruct lo as [[a b] c], hi as [[a' b'] c'], p0 as [[u v] w], q as [[i j] l]. intros H0 B0 Hq. split.
  - intros ([[x y] z] & Hp & B & N). unfold brick, near, widened in *. lia.
  - intros W. pose (cl := fun lo hi x : nat => if x <? lo then lo else if hi <=? x then hi - 1 else x).
    assert (SP : forall lo hi x, (x < lo /\ cl lo hi x = lo) \/ (hi <= x /\ lo <= x /\ cl lo hi x = hi - 1) \/ (lo <= x < hi /\ cl lo hi x = x)).
    { intros lo hi x. unfold cl. destruct (Nat.ltb_spec x lo); [auto|]. destruct (Nat.leb_spec hi x); [auto|]. right. right. auto. }
    exists (cl a a' i, cl b b' j, cl c c' l). assert (Q1 := SP a a' i). assert (Q2 := SP b b' j). assert (Q3 := SP c c' l). clear SP.
    unfold brick, near, widened, cell_at in *. lia.
Qed.
Lemma brick_corner d lo hi k p0 v : cell_at d p0 -> brick lo hi p0 -> node_at d v ->
  ((exists p, cell_at d p /\ widened k lo hi p /\ corner_of_cell v p) <-> widened_closed k lo hi v).
Proof.
  destruct lo as [[a b] c], hi as [[a' b'] c'], p0 as [[u w] z], v as [[i j] l]. intros H0 B0 Hv. split.
  - intros ([[x y] t] & Hp & B & N). unfold corner_of_cell, widened_closed, widened in *. lia.
  - intros W. pose (cl := fun n hi x : nat => if x <? n then if x <? hi + k then x else x - 1 else x - 1).
    assert (SP : forall n hi x, (x < n /\ x < hi + k /\ cl n hi x = x) \/ ((n <= x \/ hi + k <= x) /\ cl n hi x = x - 1)).
    { intros n hi x. unfold cl. destruct (Nat.ltb_spec x n); [|auto]. destruct (Nat.ltb_spec x (hi + k)); auto. }
    exists (cl (nx d) a' i, cl (ny d) b' j, cl (nz d) c' l). assert (Q1 := SP (nx d) a' i). assert (Q2 := SP (ny d) b' j). assert (Q3 := SP (nz d) c' l). clear SP.
    unfold brick, widened, widened_closed, cell_at, node_at, corner_of_cell in *. lia.
Qed.
Lemma choose_list A B (P : A -> B -> Prop) (l : list A) : (forall a, In a l -> exists b, P a b) -> exists bs, Forall2 P l bs.
Proof.
  induction l as [|a l IH]; intros H; [exists []; constructor|]. destruct (H a (or_introl eq_refl)) as [b Hb]. destruct IH as [bs Hbs]; [intros; apply H; right; auto|].
  exists (b :: bs). constructor; auto.
Qed.
Lemma F2_length A B (P : A -> B -> Prop) l r : Forall2 P l r -> length l = length r.
Proof. induction 1; cbn; auto. Qed.
Lemma Forall2_at A B (P : A -> B -> Prop) l r i a b : Forall2 P l r -> nth_error l i = Some a -> nth_error r i = Some b -> P a b.
Proof. intros H. revert i. induction H; intros [|i] Ha Hb; try discriminate; cbn in *; [congruence|eauto]. Qed.
Lemma build_at m parts layers i r : nth_error (build_hist m parts layers) i = Some r -> exists p, nth_error parts i = Some p /\ r = TReq p layers (tm_flags m).
Proof. unfold build_hist. rewrite nth_error_map. destruct (nth_error parts i); [|discriminate]. cbn. intros E. injection E as <-. eauto. Qed.
Lemma build_ok V d (m : smesh V) cm parts layers k : positive d -> box_of d m cm -> partitions_cells (nx d * ny d * nz d) k parts ->
  forall r, In r (build_hist (simple_tmesh m cm) parts layers) -> ok_req d r.
Proof.
  intros HP HB (_ & _ & P3 & _) r I. destruct (box_flags HB HP) as (F1 & F2 & F3 & F4 & F5). unfold build_hist in I. apply in_map_iff in I as [p [<- Ip]].
  split; [intros c Ic; apply (P3 p c); auto|]. cbn. auto.
Qed.

(** ** The constructor *)
Definition faces_only : flags := Flags true false false false false.
Lemma constructed_tiled x0 y0 z0 x1 y1 z1 d : positive d -> (x0 < x1)%R -> (y0 < y1)%R -> (z0 < z1)%R -> exists M X g m cm,
  construct_box x0 y0 z0 x1 y1 z1 d faces_only = Ok (M, X, g) /\ M = box_g m cm /\ box_of d m cm /\ box_object d M /\ history M [X] g /\
  rectilinear d (division x0 x1 (nx d)) (division y0 y1 (ny d)) (division z0 z1 (nz d)) X /\
  forall hm idx p n layers fuel, n <> 0 -> construct_tiled_box x0 y0 z0 x1 y1 z1 d faces_only hm idx p n layers fuel =
    (parts <- get_partitioning hm idx fuel M X g n p ;; t <- build_tiles (simple_tmesh m cm) parts layers ;; Ok (M, X, g, t)).
Proof.
  intros Hd Lx Ly Lz. destruct (@c81_construction x0 y0 z0 x1 y1 z1 d Hd Lx Ly Lz) as (M & X & g & E & BO & HI & RX & _). fold faces_only in E.
  pose proof E as E'. unfold construct_box in E'. apply bind_inv in E' as [m [Em E']]. apply bind_inv in E' as [cm [Ec E']]. apply bind_inv in E' as [X' [EX E']]. apply bind_inv in E' as [g' [Eg E']].
  apply Ok_inj in E'. injection E' as <- <- <-. exists (box_g m cm), X', g', m, cm. split; [exact E|]. split; [reflexivity|].
  split; [do 6 eexists; split; [exact Em|split; [|split; [exact Ec|constructor]]]; reflexivity|]. split; [exact BO|]. split; [exact HI|]. split; [exact RX|].
  intros hm idx p n layers fuel Hn. unfold construct_tiled_box. rewrite Em. cbn [bind]. rewrite Ec. cbn [bind]. rewrite EX. cbn [bind]. rewrite Eg. cbn [bind]. cbv zeta.
  destruct (Nat.eqb_spec n 0); [contradiction|]. reflexivity.
Qed.
(** Partitioned in blocks, a constructed box gets one tile per block: tile [i] owns the cells of a non-empty brick, has as ghosts the other
    cells of that brick widened by the number of layers (as far as the box goes), owns the nodes in and on the brick that are not in or on
    an earlier one, and has as ghosts the other nodes in and on the widened brick. *)
Theorem c103_block_tiles : forall x0 y0 z0 x1 y1 z1 d hm idx n layers fuel, positive d -> (x0 < x1)%R -> (y0 < y1)%R -> (z0 < z1)%R ->
  (- 10 ^ 20 < x0 /\ x1 < 10 ^ 20)%R -> (- 10 ^ 20 < y0 /\ y1 < 10 ^ 20)%R -> (- 10 ^ 20 < z0 /\ z1 < 10 ^ 20)%R ->
  1 <= n <= nx d * ny d * nz d -> n < fuel -> nx d <= fuel -> ny d <= fuel -> nz d <= fuel ->
  exists M X g t bricks, construct_tiled_box x0 y0 z0 x1 y1 z1 d faces_only hm idx PBLOCK n layers fuel = Ok (M, X, g, t) /\
    construct_box x0 y0 z0 x1 y1 z1 d faces_only = Ok (M, X, g) /\ length (td_tiles t) = n /\ length bricks = n /\
    (forall q, cell_at d q -> exists i lo hi, nth_error bricks i = Some (lo, hi) /\ brick lo hi q /\ master_tile_ID t CELL (cid d q) = Ok (Z.of_nat i) /\
       forall j lo' hi', nth_error bricks j = Some (lo', hi') -> brick lo' hi' q -> j = i) /\
    forall i tl lo hi, nth_error (td_tiles t) i = Some tl -> nth_error bricks i = Some (lo, hi) -> let k := Z.to_nat layers in
      (exists q, cell_at d q /\ brick lo hi q) /\
      (forall q, cell_at d q -> (In (cid d q) (tile_entities tl CELL PARALLEL_OWNED) <-> brick lo hi q) /\
         (In (cid d q) (tile_entities tl CELL PARALLEL_GHOST) <-> widened k lo hi q /\ ~ brick lo hi q)) /\
      (forall v, node_at d v ->
         (In (nid d v) (tile_entities tl NODE PARALLEL_OWNED) <-> widened_closed 0 lo hi v /\
            forall j lo' hi', j < i -> nth_error bricks j = Some (lo', hi') -> ~ widened_closed 0 lo' hi' v) /\
         (In (nid d v) (tile_entities tl NODE PARALLEL_GHOST) <-> widened_closed k lo hi v /\ ~ In (nid d v) (tile_entities tl NODE PARALLEL_OWNED))).
Proof.
  intros x0 y0 z0 x1 y1 z1 d hm idx n layers fuel HP Lx Ly Lz Bx By Bz Hn Hf F1 F2 F3.
  destruct (@constructed_tiled x0 y0 z0 x1 y1 z1 d HP Lx Ly Lz) as (M & X & g & m & cm & EC & EM & HB & BO & HI & RX & ET).
  destruct (@c03_blocks_of_a_box x0 y0 z0 x1 y1 z1 d M X [] g n fuel HP BO HI RX Lx Ly Lz Bx By Bz Hn Hf F1 F2 F3) as (parts & EP & PC & BR).
  assert (TM := box_tile_mesh HB HP). destruct (box_counts HB) as (C1 & C2 & C3).
  assert (NC : nx d * ny d * nz d = ncells d) by (unfold SimpleMesh_proofs2.ncells; lia).
  destruct (@c31_initial_tiles _ _ _ layers _ _ TM PC) as (t & EB & LT & MT); [lia|].
  assert (HO := @build_ok _ _ _ _ parts layers _ HP HB PC).
  rewrite build_is_run in EB. pose proof PC as (P1 & P2 & P3 & P4).
  assert (CH : forall p, In p parts -> exists b : pos3 * pos3, p <> [] /\ forall q, cell_at d q -> (In (cid d q) p <-> brick (fst b) (snd b) q)).
  { intros p I. destruct (BR p I) as [NE (lo & hi & Q)]. exists (lo, hi). auto. }
  apply choose_list in CH as [bricks FB].
  assert (LB : length bricks = n) by (assert (L := F2_length FB); congruence).
  exists M, X, g, t, bricks. split.
  { rewrite ET by lia. unfold get_partitioning. cbn [choose]. rewrite EP. cbn [bind]. rewrite build_is_run, EB. reflexivity. }
  split; [exact EC|]. split; [exact LT|]. split; [exact LB|].
  assert (AT : forall j lo hi, nth_error bricks j = Some (lo, hi) -> exists p, nth_error parts j = Some p /\ p <> [] /\ forall q, cell_at d q -> (In (cid d q) p <-> brick lo hi q)).
  { intros j lo hi Hj. destruct (nth_error parts j) as [p|] eqn:Hp; [|apply nth_error_None in Hp; assert (L := nth_error_lt _ _ Hj); lia].
    exists p. split; auto. apply (Forall2_at j FB Hp Hj). }
  split.
  { intros q Hq. assert (Lq := cid_lt d q Hq). destruct (MT (cid d q)) as (i & tl & Ht & Iq & Mq & U); [lia|].
    destruct (@c31_tile_owns_its_cells _ _ _ _ _ _ TM (@VR _ _ _ _ _ HP HB HO) EB Ht) as (r & Hr & _ & Er). destruct (build_at _ _ _ _ Hr) as (p & Hp & ->). cbn [tr_cells] in Er. rewrite Er in Iq.
    destruct (nth_error bricks i) as [[lo hi]|] eqn:Hb; [|apply nth_error_None in Hb; assert (L := nth_error_lt _ _ Hp); lia].
    destruct (AT _ _ _ Hb) as (p' & Hp' & _ & Q). assert (p' = p) as -> by congruence. exists i, lo, hi. split; auto. split; [apply Q; auto|]. split; auto.
    intros j lo' hi' Hj B. destruct (AT _ _ _ Hj) as (p' & Hpj & _ & Q'). apply Q' in B; auto.
    destruct (P4 (cid d q)) as (x & _ & U'); [lia|]. transitivity x; [symmetry|]; apply U'; eauto. }
  intros i tl lo hi Ht Hb k. destruct (AT _ _ _ Hb) as (p & Hp & NE & Q).
  assert (Hr : nth_error (build_hist (simple_tmesh m cm) parts layers) i = Some (TReq p layers (cm_flags cm))) by (unfold build_hist; rewrite nth_error_map, Hp; reflexivity).
  assert (IP := nth_error_In _ _ Hp). assert (PL : forall c, In c p -> c < ncells d) by (intros c I; specialize (P3 p c IP I); lia).
  assert (E0 : exists q, cell_at d q /\ brick lo hi q).
  { destruct p as [|c p]; [contradiction|]. destruct (cpos_ok d (PL c (or_introl eq_refl))) as [H1 H2]. exists (cpos d c). split; auto. apply Q; auto. rewrite H2. left; auto. }
  split; [exact E0|]. destruct E0 as (p0 & C0 & B0).
  destruct (@c103_cells _ _ _ _ _ _ _ _ _ HP HB HO EB Ht Hr) as (EO & _ & _ & GH). cbn [tr_cells tr_layers] in EO, GH. fold k in GH.
  assert (CL : forall q, cell_at d q -> (In (cid d q) (tile_entities tl CELL PARALLEL_OWNED) <-> brick lo hi q) /\
         (In (cid d q) (tile_entities tl CELL PARALLEL_GHOST) <-> widened k lo hi q /\ ~ brick lo hi q)).
  { intros q Hq. split; [rewrite EO; auto|]. rewrite (GH q Hq), (Q q Hq). rewrite <- (@brick_near d lo hi k p0 q C0 B0 Hq). split; intros [(x & Hx & Ix & Nx) N]; (split; [exists x|exact N]); (split; [exact Hx|]); (split; [|exact Nx]); apply Q; auto. }
  split; [exact CL|]. intros v Hv. destruct (@c103_nodes _ _ _ _ _ _ _ _ _ v HP HB HO EB Ht Hr Hv) as [N1 N2]. cbn [tr_cells] in N1.
  assert (NO : forall j lo' hi' p', nth_error bricks j = Some (lo', hi') -> nth_error parts j = Some p' -> (node_on d p' v <-> widened_closed 0 lo' hi' v)).
  { intros j lo' hi' p' Hbj Hpj. destruct (AT _ _ _ Hbj) as (p'' & Hp'' & NE' & Q'). assert (p'' = p') as -> by congruence.
    assert (E0' : exists q, cell_at d q /\ brick lo' hi' q).
    { destruct p' as [|c p']; [contradiction|]. assert (Lc : c < ncells d) by (rewrite <- NC; apply (P3 (c :: p')); [eapply nth_error_In; eauto|left; auto]).
      destruct (cpos_ok d Lc) as [H1 H2]. exists (cpos d c). split; auto. apply Q'; auto. rewrite H2. left; auto. }
    destruct E0' as (q0 & D0 & D1). rewrite <- (@brick_corner d lo' hi' 0 q0 v D0 D1 Hv). unfold node_on.
    assert (W0 : forall x, widened 0 lo' hi' x <-> brick lo' hi' x) by (intros [[? ?] ?]; destruct lo' as [[? ?] ?], hi' as [[? ?] ?]; unfold widened, brick; lia).
    split; intros (x & Hx & Ix & Cx); exists x; (split; [exact Hx|]); (split; [|exact Cx]); [apply W0|apply W0 in Ix]; apply Q'; auto. }
  split.
  - rewrite N1, (NO i lo hi p) by auto. split; intros [H1 H2]; (split; [exact H1|]).
    + intros j lo' hi' Lj Hj W. destruct (AT _ _ _ Hj) as (p' & Hp' & _ & _). apply (H2 j (TReq p' layers (cm_flags cm))); auto; [unfold build_hist; rewrite nth_error_map, Hp'; reflexivity|].
      cbn [tr_cells]. eapply NO; eauto.
    + intros j r' Lj Hj W. destruct (build_at _ _ _ _ Hj) as (p' & Hp' & ->). cbn [tr_cells] in W.
      destruct (nth_error bricks j) as [[lo' hi']|] eqn:Hbj; [|apply nth_error_None in Hbj; assert (L := nth_error_lt _ _ Hp'); lia]. apply (H2 j lo' hi' Lj Hbj). eapply NO; eauto.
  - rewrite N2. rewrite <- (@brick_corner d lo hi k p0 v C0 B0 Hv). unfold node_on.
    assert (AL : forall x, cell_at d x -> (In (cid d x) (tile_entities tl CELL TYPE_ALL) <-> widened k lo hi x)).
    { intros x Hx. rewrite (@c33_all_is_owned_then_ghost _ _ _ _ _ _ TM (@VR _ _ _ _ _ HP HB HO) EB Ht), in_app_iff. destruct (CL x Hx) as [-> ->].
      assert (WB : brick lo hi x -> widened k lo hi x) by (destruct lo as [[? ?] ?], hi as [[? ?] ?], x as [[? ?] ?]; unfold widened, brick; lia).
      assert (DB : brick lo hi x \/ ~ brick lo hi x) by (destruct lo as [[? ?] ?], hi as [[? ?] ?], x as [[? ?] ?]; unfold brick; lia). tauto. }
    split; intros [(x & Hx & Ix & Cx) N]; (split; [exists x|exact N]); (split; [exact Hx|]); (split; [|exact Cx]); apply AL; auto.
Qed.
(** Under any other choice of partitioner: the tiles own consecutive ranges of cell ids in order or, where METIS is available and asked for,
    tile [j] owns the cells METIS puts in part [j].  In both cases every cell has exactly one owner, and the ghosts are as in c103_cells. *)
Lemma parts_tiles x0 y0 z0 x1 y1 z1 d hm idx p n layers fuel parts : positive d -> (x0 < x1)%R -> (y0 < y1)%R -> (z0 < z1)%R -> n <> 0 ->
  partitions_cells (nx d * ny d * nz d) n parts ->
  (forall m cm X g, box_of d m cm -> get_partitioning hm idx fuel (box_g m cm) X g n p = Ok parts) ->
  exists M X g t, construct_tiled_box x0 y0 z0 x1 y1 z1 d faces_only hm idx p n layers fuel = Ok (M, X, g, t) /\
    construct_box x0 y0 z0 x1 y1 z1 d faces_only = Ok (M, X, g) /\ length (td_tiles t) = n /\
    map (fun tl => tile_entities tl CELL PARALLEL_OWNED) (td_tiles t) = parts /\
    (forall i p c, nth_error parts i = Some p -> In c p -> master_tile_ID t CELL c = Ok (Z.of_nat i)) /\
    forall i tl p, nth_error (td_tiles t) i = Some tl -> nth_error parts i = Some p -> forall q, cell_at d q ->
      (In (cid d q) (tile_entities tl CELL PARALLEL_GHOST) <-> (exists q', cell_at d q' /\ In (cid d q') p /\ near (Z.to_nat layers) q' q) /\ ~ In (cid d q) p).
Proof.
  intros HP Lx Ly Lz Hn PC GP. destruct (@constructed_tiled x0 y0 z0 x1 y1 z1 d HP Lx Ly Lz) as (M & X & g & m & cm & EC & -> & HB & BO & HI & RX & ET).
  assert (TM := box_tile_mesh HB HP). destruct (box_counts HB) as (C1 & C2 & C3).
  assert (NC : nx d * ny d * nz d = ncells d) by (unfold SimpleMesh_proofs2.ncells; lia).
  destruct (@c31_initial_tiles _ _ _ layers _ _ TM PC) as (t & EB & LT & MT); [lia|].
  assert (HO := @build_ok _ _ _ _ parts layers _ HP HB PC). rewrite build_is_run in EB. pose proof PC as (P1 & P2 & P3 & P4).
  exists (box_g m cm), X, g, t. split; [rewrite ET, GP by auto; cbn [bind]; rewrite build_is_run, EB; reflexivity|]. split; [exact EC|]. split; [exact LT|].
  assert (OW : forall i tl p0, nth_error (td_tiles t) i = Some tl -> nth_error parts i = Some p0 -> tile_entities tl CELL PARALLEL_OWNED = p0).
  { intros i tl p0 Ht Hp. assert (Hr : nth_error (build_hist (simple_tmesh m cm) parts layers) i = Some (TReq p0 layers (cm_flags cm))) by (unfold build_hist; rewrite nth_error_map, Hp; reflexivity).
    apply (@c103_cells _ _ _ _ _ _ _ _ _ HP HB HO EB Ht Hr). }
  split.
  { assert (LL : length (td_tiles t) = length parts) by congruence. clear - OW LL. revert OW LL. generalize (td_tiles t) parts. induction l as [|tl l IH]; intros [|p0 ps] OW LL; try discriminate; [reflexivity|].
    cbn. f_equal; [apply (OW 0 tl p0); auto|]. apply IH; auto. intros i tl' p' H1 H2. apply (OW (S i) tl' p'); auto. }
  split.
  { intros i p0 c Hp Ic. assert (Lc : c < nx d * ny d * nz d) by (apply (P3 p0); auto; eapply nth_error_In; eauto). destruct (MT c Lc) as (j & tl & Ht & Io & Mj & U).
    destruct (nth_error (td_tiles t) i) as [tl'|] eqn:Ht'; [|apply nth_error_None in Ht'; assert (L := nth_error_lt _ _ Hp); lia].
    assert (i = j) as -> by (apply (U i tl'); auto; rewrite (OW _ _ _ Ht' Hp); auto). exact Mj. }
  intros i tl p0 Ht Hp. assert (Hr : nth_error (build_hist (simple_tmesh m cm) parts layers) i = Some (TReq p0 layers (cm_flags cm))) by (unfold build_hist; rewrite nth_error_map, Hp; reflexivity).
  apply (@c103_cells _ _ _ _ _ _ _ _ _ HP HB HO EB Ht Hr).
Qed.
Theorem c103_index_tiles : forall x0 y0 z0 x1 y1 z1 d hm idx p n layers fuel, positive d -> (x0 < x1)%R -> (y0 < y1)%R -> (z0 < z1)%R -> 1 <= n ->
  p <> PBLOCK -> (p = PMETIS -> hm = false) ->
  exists M X g t, construct_tiled_box x0 y0 z0 x1 y1 z1 d faces_only hm idx p n layers fuel = Ok (M, X, g, t) /\
    construct_box x0 y0 z0 x1 y1 z1 d faces_only = Ok (M, X, g) /\ length (td_tiles t) = n /\
    concat (map (fun tl => tile_entities tl CELL PARALLEL_OWNED) (td_tiles t)) = seq 0 (nx d * ny d * nz d) /\
    (forall i tl c, nth_error (td_tiles t) i = Some tl -> In c (tile_entities tl CELL PARALLEL_OWNED) -> master_tile_ID t CELL c = Ok (Z.of_nat i)) /\
    forall i tl, nth_error (td_tiles t) i = Some tl -> forall q, cell_at d q -> (In (cid d q) (tile_entities tl CELL PARALLEL_GHOST) <->
      (exists q', cell_at d q' /\ In (cid d q') (tile_entities tl CELL PARALLEL_OWNED) /\ near (Z.to_nat layers) q' q) /\ ~ In (cid d q) (tile_entities tl CELL PARALLEL_OWNED)).
Proof.
  intros x0 y0 z0 x1 y1 z1 d hm idx p n layers fuel HP Lx Ly Lz Hn N1 N2. destruct (@c03_index_partitions (nx d * ny d * nz d) n Hn) as (parts & EP & PC & CT).
  destruct (@parts_tiles x0 y0 z0 x1 y1 z1 d hm idx p n layers fuel parts HP Lx Ly Lz) as (M & X & g & t & E1 & E2 & L & MP & MS & GH); auto; [lia| |].
  { intros m cm X g HB. unfold get_partitioning. assert (choose hm p (sdim (box_g m cm)) = AlgIndex) as -> by (destruct p; cbn; auto; [rewrite N2; auto|contradiction]).
    destruct (box_counts HB) as (C1 & _). cbn [tm_ncells simple_tmesh num_entities ids] in C1. destruct HB as (v0 & gx & gy & gz & fl & m0 & E & F & C & _). apply made_of in C.
    cbn [box_g gm num_entities ids]. rewrite (md_topo C) in *. cbn [simple_topo cells_owned cells_ghost cells_bghost length] in *.
    replace (length (cellids_owned m0)) with (nx d * ny d * nz d) by (unfold SimpleMesh_proofs2.ncells in C1; lia). exact EP. }
  exists M, X, g, t. split; [exact E1|]. split; [exact E2|]. split; [exact L|]. split; [rewrite MP; exact CT|].
  assert (AT : forall i tl, nth_error (td_tiles t) i = Some tl -> nth_error parts i = Some (tile_entities tl CELL PARALLEL_OWNED)) by (intros i tl H; rewrite <- MP, nth_error_map, H; reflexivity).
  split; [intros i tl c Ht Ic; eapply MS; eauto|]. intros i tl Ht. apply (GH i tl); auto.
Qed.
Theorem c103_metis_tiles : forall x0 y0 z0 x1 y1 z1 d idx n layers fuel, positive d -> (x0 < x1)%R -> (y0 < y1)%R -> (z0 < z1)%R -> 1 <= n ->
  length idx = nx d * ny d * nz d -> (forall j, In j idx -> j < n) ->
  exists M X g t, construct_tiled_box x0 y0 z0 x1 y1 z1 d faces_only true idx PMETIS n layers fuel = Ok (M, X, g, t) /\
    length (td_tiles t) = n /\ forall i tl, nth_error (td_tiles t) i = Some tl ->
    (forall c, In c (tile_entities tl CELL PARALLEL_OWNED) <-> nth_error idx c = Some i) /\
    forall q, cell_at d q -> (In (cid d q) (tile_entities tl CELL PARALLEL_GHOST) <->
      (exists q', cell_at d q' /\ nth_error idx (cid d q') = Some i /\ near (Z.to_nat layers) q' q) /\ nth_error idx (cid d q) <> Some i).
Proof.
  intros x0 y0 z0 x1 y1 z1 d idx n layers fuel HP Lx Ly Lz Hn LI RI. destruct (@c03_metis_partitions idx n RI) as (parts & EP & PC & CT). rewrite LI in PC.
  destruct (@parts_tiles x0 y0 z0 x1 y1 z1 d true idx PMETIS n layers fuel parts HP Lx Ly Lz) as (M & X & g & t & E1 & E2 & L & MP & MS & GH); auto; [lia|].
  exists M, X, g, t. split; [exact E1|]. split; [exact L|]. intros i tl Ht.
  assert (AT : nth_error parts i = Some (tile_entities tl CELL PARALLEL_OWNED)) by (rewrite <- MP, nth_error_map, Ht; reflexivity).
  assert (OI : forall c, In c (tile_entities tl CELL PARALLEL_OWNED) <-> nth_error idx c = Some i).
  { intros c. destruct PC as (P1 & P2 & P3 & P4). split.
    - intros I. assert (Lc : c < nx d * ny d * nz d) by (apply (P3 (tile_entities tl CELL PARALLEL_OWNED)); auto; eapply nth_error_In; eauto).
      destruct (nth_error idx c) as [j|] eqn:Ej; [|apply nth_error_None in Ej; lia]. destruct (CT c j Ej) as (p & Hp & Ip). f_equal.
      destruct (P4 c Lc) as (x & _ & U). transitivity x; [symmetry|]; apply U; eauto.
    - intros Ej. destruct (CT c i Ej) as (p & Hp & Ip). congruence. }
  split; [exact OI|]. intros q Hq. rewrite (GH i tl _ Ht AT q Hq), OI. split; intros [(x & Hx & Ix & Nx) N]; (split; [exists x|exact N]); (split; [exact Hx|]); (split; [|exact Nx]); apply OI; auto.
Qed.
(** With no tiles asked for there are none, and no entity has a master tile. *)
Theorem c103_no_tiles : forall x0 y0 z0 x1 y1 z1 d hm idx p layers fuel M X g, construct_box x0 y0 z0 x1 y1 z1 d faces_only = Ok (M, X, g) ->
  exists t, construct_tiled_box x0 y0 z0 x1 y1 z1 d faces_only hm idx p 0 layers fuel = Ok (M, X, g, t) /\ td_tiles t = [] /\
    forall k e, In k [NODE; EDGE; FACE; CELL] -> master_tile_ID t k e = Ok (-1)%Z.
Proof.
  intros x0 y0 z0 x1 y1 z1 d hm idx p layers fuel M X g E. unfold construct_box in E. apply bind_inv in E as [m [Em E]]. apply bind_inv in E as [cm [Ec E]]. apply bind_inv in E as [X' [EX E]]. apply bind_inv in E as [g' [Eg E]].
  apply Ok_inj in E. injection E as <- <- <-. exists no_tiles. unfold construct_tiled_box. rewrite Em. cbn [bind]. rewrite Ec. cbn [bind]. rewrite EX. cbn [bind]. rewrite Eg. cbn [bind]. split; [reflexivity|]. split; [reflexivity|].
  intros k e [<-|[<-|[<-|[<-|[]]]]]; reflexivity.
Qed.
(** A row of four cells in three tiles, with faces and one layer of ghosts. *)
Definition w_d : dims := mkDims 4 1 1.
Definition w_hist : list treq := [TReq [0] 1 faces_only; TReq [1; 2] 1 faces_only; TReq [3] 2 faces_only].
Example c103_witness : exists (m : smesh R) cm t tl, positive w_d /\ box_of w_d m cm /\ (forall r, In r w_hist -> ok_req w_d r) /\ tiles_of (simple_tmesh m cm) w_hist = Ok t /\
  nth_error (td_tiles t) 1 = Some tl /\ tile_entities tl CELL PARALLEL_OWNED = [1; 2] /\ In (cid w_d (3, 0, 0)) (tile_entities tl CELL PARALLEL_GHOST) /\
  In (nid w_d (3, 1, 1)) (tile_entities tl NODE PARALLEL_OWNED).
Proof.
  assert (HP : positive w_d) by (unfold positive; cbn [w_d nx ny nz]; lia).
  destruct (@constructed_tiled 0%R 0%R 0%R 1%R 1%R 1%R w_d HP) as (M & X & g & m & cm & _ & _ & HB & _); try lra.
  assert (HO : forall r, In r w_hist -> ok_req w_d r).
  { intros r I. cbn [In w_hist] in I. destruct I as [<-|[<-|[<-|[]]]]; (split; [cbn [tr_cells In w_d nx ny nz]; intros c H; intuition lia|cbn; auto]). }
  destruct (@c31_construction_succeeds _ _ w_hist (box_tile_mesh HB HP) (@VR _ _ _ _ _ HP HB HO)) as (t & ET & LT).
  destruct (nth_error (td_tiles t) 1) as [tl|] eqn:Ht; [|apply nth_error_None in Ht; rewrite LT in Ht; cbn in Ht; lia].
  destruct (@c103_cells _ _ _ _ _ _ 1 tl _ HP HB HO ET Ht eq_refl) as (O & _ & _ & G). cbn [tr_cells tr_layers] in O, G.
  exists m, cm, t, tl. split; [exact HP|]. split; [exact HB|]. split; [exact HO|]. split; [exact ET|]. split; [exact Ht|]. split; [exact O|]. split.
  - apply G; [cbn; lia|]. split; [|cbn; intuition lia]. exists (2, 0, 0). split; [cbn; lia|]. split; [cbn; tauto|]. change (Z.to_nat 1) with 1. unfold near. lia.
  - assert (NA : node_at w_d (3, 1, 1)) by (cbn; lia). destruct (@c103_nodes _ _ _ _ _ _ 1 tl _ (3, 1, 1) HP HB HO ET Ht eq_refl NA) as [N _]. apply N. cbn [tr_cells]. split.
    + exists (2, 0, 0). split; [cbn; lia|]. split; [cbn; tauto|cbn; lia].
    + intros j r' Lj Hj. assert (j = 0) as -> by lia. cbn [nth_error w_hist] in Hj. injection Hj as <-. cbn [tr_cells]. intros ([[x y] z] & Hx & I & C).
      destruct I as [I|[]]. assert (P0 : cell_at w_d (0, 0, 0)) by (cbn; lia). change 0 with (cid w_d (0, 0, 0)) in I at 1. apply cid_inj in I; auto. injection I as <- <- <-. cbn in C. lia.
Qed.
Print Assumptions c103_cells.
Print Assumptions c103_nodes.
Print Assumptions c103_faces.
Print Assumptions c103_block_tiles.
Print Assumptions c103_index_tiles.
Print Assumptions c103_metis_tiles.
Print Assumptions c103_no_tiles.
