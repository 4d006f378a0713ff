(** What cache_extra_variables leaves in the mesh, for every connectivity. *)
From Coq Require Import Permutation.
From Verif Require Import Base Loop Defs Factory Cache Cache_spec Cache_proofs Cache_proofs2 Cache_proofs3 Cache_proofs4.
Set Implicit Arguments.

Lemma fm_numbered t sh : framework_mesh t sh -> numbered t.
Proof. intros [? ? ? ?|H ->]; auto. apply (ln_numbered H). Qed.
Lemma fm_connectivity t sh : framework_mesh t sh -> connectivity t sh.
Proof. intros [? ? ? ?|H ->]; auto. apply line_connectivity; auto. Qed.
Lemma fm_cn t sh c : framework_mesh t sh -> c < ncells t -> fw_cell_nodes t c = Ok (cnodes sh c).
Proof. intros [? ? ? H|H ->] Hc; [apply (pv_cn H); auto|apply (ln_cn H); auto]. Qed.
Lemma enodes'_eq t sh e : framework_mesh t sh -> enodes' t sh e = enodes sh e.
Proof.
  intros [D _ _ _|H ->]; unfold enodes'.
  - destruct (Nat.eqb_spec (tp_mdim t) 1); auto. lia.
  - simpl. destruct (tp_mdim t =? 1); auto.
Qed.
Lemma fm_types t sh : framework_mesh t sh -> exists v, cache_cell_type t = Ok v /\ typed t v /\
  (forall c ty, cell_has_type t c ty -> nth_error v c = Some ty).
Proof. intros H. apply cell_type_cached. eapply fm_numbered; eauto. Qed.
Lemma two_types n o g : Permutation (o ++ g) (seq 0 n) -> exists v, cache_types n o g [] = Ok v.
Proof.
  intros H. destruct (@cache_types_spec n o g []) as [v [E _]]; [rewrite app_nil_r; auto|eauto].
Qed.

Lemma face2cell_row_ok l : length l <= 2 -> face2cell_row l = Ok (map Z.of_nat l ++ repeat (-1)%Z (2 - length l)).
Proof.
  destruct l as [|a [|b [|c l]]]; simpl; intros H; [reflexivity..|lia].
Qed.
Lemma face2cell_ok t : (forall f, f < nfaces t -> exists l, fw_face_cells t f = Ok l /\ length l <= 2) ->
  exists r, cache_face2cell_info t = Ok r.
Proof.
  intros H. unfold cache_face2cell_info.
  assert (G : forall l, (forall f, In f l -> f < nfaces t) -> exists r, mapM (fun f => fc <- fw_face_cells t f ;; face2cell_row fc) l = Ok r).
  { induction l as [|f l IH]; intros Hl; [eexists; reflexivity|]. simpl.
    destruct (H f) as [x [E L]]; [apply Hl; simpl; auto|]. rewrite E. cbn [bind]. rewrite face2cell_row_ok by auto. cbn [bind].
    destruct IH as [r ->]; [intros; apply Hl; simpl; auto|]. eexists; reflexivity. }
  apply G. intros f Hf. apply in_seq in Hf. lia.
Qed.
Lemma mapM_exists A B (f : A -> outcome B) l : (forall x, In x l -> exists y, f x = Ok y) -> exists r, mapM f l = Ok r.
Proof.
  induction l as [|x l IH]; intros H; [eexists; reflexivity|]. simpl. destruct (H x) as [y ->]; [simpl; auto|]. cbn [bind].
  destruct IH as [r ->]; [intros; apply H; simpl; auto|]. eexists; reflexivity.
Qed.

Lemma side_info_ok t sh v cf fe : framework_mesh t sh -> typed t v ->
  (tp_mdim t <> 1 -> cf = tab (ncells t) (cfaces sh) /\ fe = tab (nfaces t) (fedges sh)) ->
  exists opp, cache_side_info t v (Some cf) (Some fe) (Some (tab (nedges t) (enodes' t sh)))
    = Ok (final_info t v (enodes' t sh) (trips t sh) opp) /\ opp_ok (trips t sh) opp.
Proof.
  intros [D N C P|H ->] HT F; unfold cache_side_info.
  - destruct (Nat.eqb_spec (tp_mdim t) 1) as [E|E]; [lia|]. destruct (F E) as [-> ->]. cbn [need bind]. apply cache_side_info_nd_spec; auto.
  - rewrite (ln_dim H). cbn [Nat.eqb]. apply cache_side_info_1d_spec; auto.
Qed.

(** what the theorems use *)
Section Facts.
Variables (t : topo) (sh : shape).
Hypothesis FM : framework_mesh t sh.
Let T := trips t sh.
Let Nb := fm_numbered FM.
Let Cn := fm_connectivity FM.

Lemma T_range x : In x T -> tcell x < ncells t /\ tface x < nfaces t /\ tedge x < nedges t /\ is_dir (tfdir x) /\ is_dir (tedir x).
Proof. apply trips_range; auto. Qed.

Lemma wedges_of_cell v opp c : c < ncells t ->
  cell_wedges (final_info t v (enodes' t sh) T opp) c = Ok (flat_map w2 (idxs (fun x => tcell x =? c) T)).
Proof. intros Hc. unfold cell_wedges, final_info. cbn [cell_side_ids]. rewrite rd_tab by auto. reflexivity. Qed.

Definition wtrip (w : nat) : trip := nth (w / 2) T (0, (0, 0%Z), (0, 0%Z)).
Definition wcell_of (w : nat) : nat := tcell (wtrip w).
Definition snode (x : trip) (i : nat) : nat :=
  let o := fst (orient t (enodes' t sh) x) in if i =? 0 then fst o else snd o.
Definition wnode_of (w : nat) : nat := snode (wtrip w) (w mod 2).

Lemma orient_use x i : is_dir (tfdir x) -> is_dir (tedir x) ->
  (if snd (orient t (enodes' t sh) x) then (if i =? 0 then fst (enodes' t sh (tedge x)) else snd (enodes' t sh (tedge x)))
   else (if i =? 0 then snd (enodes' t sh (tedge x)) else fst (enodes' t sh (tedge x)))) = snode x i.
Proof.
  intros D1 D2. unfold snode, orient, side_orient. destruct (tp_mdim t =? 2).
  - destruct (tfdir x =? 1)%Z; cbn [fst snd]; destruct (i =? 0); auto.
  - destruct (negb _); cbn [fst snd]; destruct (i =? 0); auto.
Qed.
Lemma side_node_at v opp s x i : nth_error T s = Some x ->
  side_node (final_info t v (enodes' t sh) T opp) (tab (nedges t) (enodes' t sh)) s i = Ok (snode x i).
Proof.
  intros H. assert (R := T_range x (nth_error_In _ _ H)). unfold side_node, final_info. cbn [side_edge_id side_edge_use].
  unfold rd at 1. rewrite (map_nth_error tedge _ _ H). cbn [bind]. rewrite rd_tab by tauto. cbn [bind].
  unfold rd. rewrite (map_nth_error _ _ _ H). cbn [bind]. rewrite orient_use by tauto. auto.
Qed.
Lemma wtrip_nth w : w < 2 * length T -> nth_error T (w / 2) = Some (wtrip w).
Proof. intros H. unfold wtrip. apply nth_error_nth'. lia. Qed.
Lemma nsides_T v opp : typed t v -> nsides (final_info t v (enodes' t sh) T opp) = length T.
Proof.
  intros HT. unfold nsides, final_info. cbn [sideids_owned sideids_ghost sideids_bghost]. rewrite !idxs_length.
  assert (H : forall x, In x T -> In (ctype_of v (tcell x)) [PARALLEL_OWNED; PARALLEL_GHOST; BOUNDARY_GHOST]).
  { intros x Hx. eapply typed_in; eauto. apply T_range; auto. }
  clear -H. induction T as [|x l IH]; auto. cbn [filter].
  assert (Hx := H x (or_introl eq_refl)). specialize (IH (fun y Hy => H y (or_intror Hy))).
  assert (F : forall ty, of_type v ty x = type_eqb (ctype_of v (tcell x)) ty) by reflexivity. rewrite !F.
  cbn [In] in Hx. destruct Hx as [E|[E|[E|[]]]]; rewrite <- E;
    repeat match goal with |- context [type_eqb ?a ?b] =>
      first [change (type_eqb a b) with true | change (type_eqb a b) with false] end; cbn [length]; lia.
Qed.

Lemma corners_ok v opp : typed t v -> node_consistent t sh ->
  exists wc, cache_corner_info t v (final_info t v (enodes' t sh) T opp) (tab (nedges t) (enodes' t sh)) =
    Ok (CornerInfo (idxs (p_type v PARALLEL_OWNED) (pairs t sh) ++ idxs (p_type v PARALLEL_GHOST) (pairs t sh) ++ idxs (p_type v BOUNDARY_GHOST) (pairs t sh))
          (idxs (p_type v PARALLEL_OWNED) (pairs t sh)) (idxs (p_type v PARALLEL_GHOST) (pairs t sh)) (idxs (p_type v BOUNDARY_GHOST) (pairs t sh))
          (tab (ncells t) (fun c => idxs (fun p => fst p =? c) (pairs t sh))) (tab (nnodes t) (fun n => idxs (fun p => snd p =? n) (pairs t sh)))
          (map (cwed wnode_of (fun c => flat_map w2 (idxs (fun x => tcell x =? c) T))) (pairs t sh)) wc)
   /\ length wc = 2 * length T /\
      forall w k, w < 2 * length T -> nth_error (pairs t sh) k = Some (wcell_of w, wnode_of w) -> nth_error wc w = Some k.
Proof.
  intros HT NC.
  destruct (@cache_corner_info_spec t sh v (final_info t v (enodes' t sh) T opp) (tab (nedges t) (enodes' t sh))
     wcell_of wnode_of (fun c => flat_map w2 (idxs (fun x => tcell x =? c) T)) (2 * length T)) as [wc [E W]]; auto.
  - intros c Hc. apply fm_cn; auto.
  - apply (nc_range NC).
  - apply (nc_nodup NC).
  - intros c Hc. apply wedges_of_cell; auto.
  - intros c w Hc. rewrite in_flat_w2, in_idxs. split.
    + intros [x [Hx E]]. apply Nat.eqb_eq in E. assert (L := nth_error_lt _ _ Hx). split; [lia|].
      unfold wcell_of, wtrip. rewrite (nth_error_nth _ _ _ Hx). auto.
    + intros [L E]. exists (wtrip w). split; [apply wtrip_nth; auto|]. apply Nat.eqb_eq. auto.
  - intros w Hw. unfold wedge_node. rewrite (side_node_at _ _ _ _ (wtrip_nth Hw)). auto.
  - rewrite nsides_T by auto. auto.
  - exists wc. split; [exact E|]. exact W.
Qed.
End Facts.

(** everything in the mesh after construction with sides requested *)
Record facts (t : topo) (sh : shape) (fl : flags) (m : cmesh) : Prop := {
  fa_topo : cm_topo m = t;
  fa_flags : cm_flags m = fl;
  fa_typed : typed t (cm_ctype m);
  fa_type : forall c ty, cell_has_type t c ty -> nth_error (cm_ctype m) c = Some ty;
  fa_en : cm_en m = Some (tab (nedges t) (enodes' t sh));
  fa_sides : exists opp, cm_sides m = Some (final_info t (cm_ctype m) (enodes' t sh) (trips t sh) opp) /\ opp_ok (trips t sh) opp;
  fa_wedges : fl_wedges fl = true ->
    let o := flat_map w2 (idxs (of_type (cm_ctype m) PARALLEL_OWNED) (trips t sh)) in
    let g := flat_map w2 (idxs (of_type (cm_ctype m) PARALLEL_GHOST) (trips t sh)) in
    let b := flat_map w2 (idxs (of_type (cm_ctype m) BOUNDARY_GHOST) (trips t sh)) in
    cm_wedges m = Some (WedgeInfo (o ++ g ++ b) o g b);
  fa_corners : fl_corners fl = true ->
    let K := pairs t sh in let v := cm_ctype m in
    exists wc, cm_corners m = Some (CornerInfo
          (idxs (p_type v PARALLEL_OWNED) K ++ idxs (p_type v PARALLEL_GHOST) K ++ idxs (p_type v BOUNDARY_GHOST) K)
          (idxs (p_type v PARALLEL_OWNED) K) (idxs (p_type v PARALLEL_GHOST) K) (idxs (p_type v BOUNDARY_GHOST) K)
          (tab (ncells t) (fun c => idxs (fun p => fst p =? c) K)) (tab (nnodes t) (fun n => idxs (fun p => snd p =? n) K))
          (map (cwed (wnode_of t sh) (fun c => flat_map w2 (idxs (fun x => tcell x =? c) (trips t sh)))) K) wc)
     /\ length wc = 2 * length (trips t sh)
     /\ forall w k, w < 2 * length (trips t sh) -> nth_error K k = Some (wcell_of t sh w, wnode_of t sh w) -> nth_error wc w = Some k }.

Lemma close_closed fl : let f := close_flags fl in
  (fl_corners f = true -> fl_wedges f = true) /\ (fl_wedges f = true -> fl_sides f = true) /\
  (fl_sides f = true -> fl_faces f = true /\ fl_edges f = true).
Proof. destruct fl as [[] [] [] [] []]; simpl; intuition discriminate. Qed.

Lemma build_spec t sh fl : framework_mesh t sh ->
  let cf := close_flags fl in
  fl_sides cf = true -> (fl_corners cf = true -> node_consistent t sh) ->
  exists m, cache_extra_variables t cf = Ok m /\ facts t sh cf m.
Proof.
  intros FM cf0 S NC. destruct (close_closed fl) as [C1 [C2 C3]]. fold cf0 in C1, C2, C3.
  destruct (C3 S) as [F E]. clear C3. clearbody cf0.
  assert (Nb := fm_numbered FM). assert (Cn := fm_connectivity FM).
  destruct (fm_types FM) as [v [Ev [HT Hv]]].
  destruct (@two_types _ _ _ (nb_faces Nb)) as [vf Ef]. destruct (@two_types _ _ _ (nb_edges Nb)) as [ve Ee]. destruct (@two_types _ _ _ (nb_nodes Nb)) as [vn En].
  assert (X : exists fc, cache_face2cell_info t = Ok fc).
  { apply face2cell_ok. destruct FM as [_ _ _ P|L _]; [apply (pv_fc P)|apply (ln_fc L)]. }
  destruct X as [fc Efc].
  assert (X : exists cf fe, cache_cell2face_info t = Ok cf /\ cache_face2edge_info t = Ok fe /\
     (tp_mdim t <> 1 -> cf = tab (ncells t) (cfaces sh) /\ fe = tab (nfaces t) (fedges sh))).
  { destruct FM as [_ _ _ P|L _].
    - rewrite (cell2face_tab P), (face2edge_tab P). eauto 10.
    - destruct (@mapM_exists _ _ (fw_cell_faces t) (seq 0 (ncells t))) as [a Ea].
      { intros c Hc. apply in_seq in Hc. apply (ln_cf L). lia. }
      destruct (@mapM_exists _ _ (fw_face_edges t) (seq 0 (nfaces t))) as [b Eb].
      { intros c Hc. apply in_seq in Hc. apply (ln_fe L). lia. }
      exists a, b. split; auto. split; auto. intros D. destruct D. apply (ln_dim L). }
  destruct X as [tcf [tfe [Ecf [Efe Eq]]]].
  assert (Een : cache_edge2node_info t = Ok (tab (nedges t) (enodes' t sh))).
  { apply edge2node_tab; auto. destruct FM as [_ _ _ P|L _]; [apply (pv_en P)|]. intros e _ D. destruct D. apply (ln_dim L). }
  destruct (side_info_ok FM HT Eq) as [opp [Esi HO]].
  assert (Ew : fl_wedges cf0 || fl_corners cf0 = fl_wedges cf0).
  { destruct (fl_corners cf0) eqn:Q; [rewrite C1 by auto; auto|apply orb_false_r]. }
  assert (Wi := @cache_wedge_info_spec t v (enodes' t sh) (trips t sh) opp (proj1 HT)
     (fun x Hx => proj1 (T_range FM x Hx)) (fun x Hx => typed_in HT (proj1 (T_range FM x Hx)))). cbn zeta in Wi.
  set (si := final_info t v (enodes' t sh) (trips t sh) opp) in *.
  unfold cache_extra_variables. rewrite Ev. cbn [bind]. rewrite F, E, S. cbn [orb when bind].
  unfold cache_face_type, cache_edge_type, cache_node_type. rewrite Ef, Ee, En. cbn [bind].
  rewrite Ecf, Efc, Efe, Een. cbn [bind]. rewrite Esi. cbn [bind need]. rewrite Ew.
  unfold when. destruct (fl_wedges cf0) eqn:W.
  - rewrite Wi. cbn [bind]. destruct (fl_corners cf0) eqn:Q.
    + destruct (corners_ok FM opp HT (NC eq_refl)) as [wc [Ec [L H]]]. fold si in Ec. rewrite Ec. cbn [bind].
      eexists. split; [reflexivity|]. constructor; cbn [cm_topo cm_flags cm_ctype cm_en cm_sides cm_wedges cm_corners]; auto.
      * exists opp; auto.
      * intros _. cbn zeta. exists wc. auto.
    + cbn [bind]. eexists. split; [reflexivity|]. constructor; cbn [cm_topo cm_flags cm_ctype cm_en cm_sides cm_wedges cm_corners]; auto.
      * exists opp; auto.
      * congruence.
  - destruct (fl_corners cf0) eqn:Q; [discriminate (C1 eq_refl)|]. cbn [bind].
    eexists. split; [reflexivity|]. constructor; cbn [cm_topo cm_flags cm_ctype cm_en cm_sides cm_wedges cm_corners]; auto.
    + exists opp; auto.
    + congruence.
    + congruence.
Qed.
