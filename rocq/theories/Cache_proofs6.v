(** The queries on a constructed mesh. *)
From Coq Require Import Permutation.
From Verif Require Import Base Loop Defs Factory Cache Cache_spec Cache_proofs Cache_proofs2 Cache_proofs3 Cache_proofs4 Cache_proofs5.
Set Implicit Arguments.

Lemma built_facts t sh fl m : built t sh fl m -> facts t sh (close_flags fl) m.
Proof.
  intros [FM S NC E]. destruct (@build_spec t sh fl FM S NC) as [m' [E' F]]. congruence.
Qed.

Section Q.
Variables (t : topo) (sh : shape) (fl : flags) (m : cmesh).
Hypothesis B : built t sh fl m.
Let F := built_facts B.
Let T := trips t sh.
Let FM := bl_mesh B.

Lemma flS : fl_sides (cm_flags m) = true.
Proof. rewrite (fa_flags F). apply (bl_sides B). Qed.
Lemma n_sides_eq : n_sides m = length T.
Proof.
  destruct (fa_sides F) as [opp [E _]].
  assert (H := nsides_T FM opp (fa_typed F)). unfold nsides in H.
  unfold n_sides, num_entities, ids, opt_list. rewrite E. exact H.
Qed.
Lemma side_ids : ids m SIDE TYPE_ALL = seq 0 (length T).
Proof. destruct (fa_sides F) as [opp [E _]]. unfold ids, opt_list. rewrite E. reflexivity. Qed.

Lemma side_at s x : nth_error T s = Some x ->
  side_get_cell m s = Ok (tcell x) /\ side_get_face m s = Ok (tface x) /\ side_get_edge m s = Ok (tedge x) /\
  (forall i, i < 2 -> side_get_node m s i = Ok (snode t sh x i)).
Proof.
  intros H. destruct (fa_sides F) as [opp [E _]].
  unfold side_get_cell, side_get_face, side_get_edge, side_get_node. rewrite flS, E. cbn [asserting need bind].
  split; [unfold rd; cbn; rewrite (map_nth_error _ _ _ H); auto|].
  split; [unfold rd; cbn; rewrite (map_nth_error _ _ _ H); auto|].
  split; [unfold rd; cbn; rewrite (map_nth_error _ _ _ H); auto|].
  intros i Hi. rewrite (fa_en F). cbn [need bind].
  assert (G : (i =? 0) || (i =? 1) = true) by (destruct i as [|[|i]]; auto; lia). rewrite G. cbn [asserting].
  apply side_node_at; auto.
Qed.
Lemma side_exists s : s < n_sides m -> exists x, nth_error T s = Some x.
Proof. rewrite n_sides_eq. intros H. destruct (nth_error T s) eqn:E; eauto. apply nth_error_None in E. lia. Qed.
Lemma is_side_iff s c f e : is_side m s c f e <-> exists x, nth_error T s = Some x /\ tcell x = c /\ tface x = f /\ tedge x = e.
Proof.
  split.
  - intros [L [H1 [H2 H3]]]. destruct (side_exists L) as [x Hx]. exists x. split; auto.
    destruct (side_at s Hx) as [G1 [G2 [G3 _]]]. split; [congruence|]. split; congruence.
  - intros [x [Hx [<- [<- <-]]]]. destruct (side_at s Hx) as [G1 [G2 [G3 _]]]. split; auto.
    rewrite n_sides_eq. apply nth_error_lt in Hx; auto.
Qed.
Lemma T_tri x : In x T -> tri t sh (tcell x) (tface x) (tedge x).
Proof.
  intros H. apply in_trips in H as [H1 [H2 H3]]; [|eapply fm_numbered; eauto|eapply fm_connectivity; eauto].
  split; auto. split; [apply (in_map fst _ _ H2)|apply (in_map fst _ _ H3)].
Qed.
Lemma tri_T c f e : tri t sh c f e -> exists x, In x T /\ tcell x = c /\ tface x = f /\ tedge x = e.
Proof.
  intros [Hc [Hf He]]. apply in_map_iff in Hf as [[f' fd] [E1 Hf]], He as [[e' ed] [E2 He]]. simpl in *. subst.
  exists (c, (f, fd), (e, ed)). split; auto. apply in_trips; [eapply fm_numbered; eauto|eapply fm_connectivity; eauto|].
  unfold tcell, tface; simpl. auto.
Qed.
Lemma T_good : good T.
Proof. apply trips_good; [eapply fm_numbered; eauto|eapply fm_connectivity; eauto]. Qed.

Lemma cell_sides c : c < ncells t -> cell_get_sides m c = Ok (idxs (fun x => tcell x =? c) T).
Proof.
  intros H. destruct (fa_sides F) as [opp [E _]]. unfold cell_get_sides. rewrite flS, E. cbn [asserting need bind final_info cell_side_ids].
  apply rd_tab; auto.
Qed.

Lemma opp_at s : s < n_sides m ->
  (exists j, side_get_opposite_side m s = Ok (Z.of_nat j) /\ mates T s j) \/
  (side_get_opposite_side m s = Ok (-1)%Z /\ forall j, ~ mates T s j).
Proof.
  intros H. destruct (fa_sides F) as [opp [E [L O]]]. unfold side_get_opposite_side. rewrite flS, E. cbn [asserting need bind final_info side_opp_side_id].
  rewrite n_sides_eq in H. destruct (O s H) as [[j [E1 M]]|[E1 M]]; [left; exists j|right]; split; auto; apply rd_Ok; auto.
Qed.
Lemma mates_iff i j : mates T i j <-> exists c c' f e, is_side m i c f e /\ is_side m j c' f e /\ c <> c'.
Proof.
  split.
  - intros [x [y [Hx [Hy [[E1 E2] N]]]]]. exists (tcell x), (tcell y), (tface x), (tedge x).
    split; [apply is_side_iff; exists x; auto|]. split; auto. apply is_side_iff. exists y. auto.
  - intros [c [c' [f [e [H1 [H2 N]]]]]]. apply is_side_iff in H1 as [x [Hx [E1 [E2 E3]]]], H2 as [y [Hy [E4 [E5 E6]]]].
    exists x, y. unfold same_fe. split; auto. split; auto. split; [split|]; congruence.
Qed.
End Q.

Section W.
Variables (t : topo) (sh : shape) (fl : flags) (m : cmesh).
Hypothesis B : built t sh fl m.
Hypothesis HW : fl_wedges (close_flags fl) = true.
Let F := built_facts B.
Let T := trips t sh.
Let FM := bl_mesh B.

Lemma swT : sw m = true /\ fl_wedges (cm_flags m) = true.
Proof. unfold sw. rewrite (flS B), (fa_flags F), HW. auto. Qed.
Lemma n_wedges_eq : n_wedges m = 2 * length T.
Proof.
  assert (W := fa_wedges F HW). cbn zeta in W. unfold n_wedges, num_entities, ids, opt_list. rewrite W.
  cbn [wedgeids_owned wedgeids_ghost wedgeids_bghost]. rewrite !flat_w2_length.
  assert (H := nsides_T FM [] (fa_typed F)). unfold nsides, final_info in H. cbn [sideids_owned sideids_ghost sideids_bghost] in H.
  fold T in H. fold T. lia.
Qed.
Lemma wedge_at w : w < n_wedges m ->
  nth_error T (w / 2) = Some (wtrip t sh w) /\
  wedge_get_cell m w = Ok (wcell_of t sh w) /\ wedge_get_face m w = Ok (tface (wtrip t sh w)) /\
  wedge_get_edge m w = Ok (tedge (wtrip t sh w)) /\ wedge_get_node m w = Ok (wnode_of t sh w).
Proof.
  rewrite n_wedges_eq. intros H. assert (E := wtrip_nth t sh H). fold T in E. split; auto.
  destruct (side_at B _ E) as [H1 [H2 [H3 H4]]]. destruct swT as [S _].
  unfold wedge_get_cell, wedge_get_face, wedge_get_edge, wedge_get_node. rewrite S. cbn [asserting].
  rewrite H1, H2, H3, H4 by lia. auto.
Qed.
Lemma is_wedge_iff w c n : is_wedge m w c n <-> w < n_wedges m /\ wcell_of t sh w = c /\ wnode_of t sh w = n.
Proof.
  unfold is_wedge. split; intros [H H1]; split; auto; destruct (wedge_at H) as [_ [E1 [_ [_ E2]]]].
  - split; destruct H1; congruence.
  - destruct H1; split; congruence.
Qed.
Lemma wcell_lt w : w < n_wedges m -> wcell_of t sh w < ncells t.
Proof. intros H. destruct (wedge_at H) as [E _]. apply nth_error_In in E. apply (T_range FM _ E). Qed.
End W.

Section K.
Variables (t : topo) (sh : shape) (fl : flags) (m : cmesh).
Hypothesis B : built t sh fl m.
Hypothesis HC : fl_corners (close_flags fl) = true.
Let F := built_facts B.
Let T := trips t sh.
Let FM := bl_mesh B.
Let K := pairs t sh.
Let HW : fl_wedges (close_flags fl) = true := proj1 (close_closed fl) HC.
Let NC := bl_nodes B HC.
Let Nb := fm_numbered FM.

Lemma flC : fl_corners (cm_flags m) = true.
Proof. rewrite (fa_flags F). auto. Qed.
Lemma K_in c n : In (c, n) K <-> c < ncells t /\ In n (cnodes sh c).
Proof. apply in_pairs; auto. Qed.
Lemma K_NoDup : NoDup K.
Proof. apply pairs_NoDup; auto. apply (nc_nodup NC). Qed.
Lemma types_sum A (g : A -> nat) (l : list A) : (forall x, In x l -> g x < ncells t) ->
  length (idxs (fun x => type_eqb (ctype_of (cm_ctype m) (g x)) PARALLEL_OWNED) l) +
  length (idxs (fun x => type_eqb (ctype_of (cm_ctype m) (g x)) PARALLEL_GHOST) l) +
  length (idxs (fun x => type_eqb (ctype_of (cm_ctype m) (g x)) BOUNDARY_GHOST) l) = length l.
Proof.
  intros H. rewrite !idxs_length. induction l as [|x l IH]; auto. cbn [filter].
  assert (Hx := typed_in (fa_typed F) (H x (or_introl eq_refl))). specialize (IH (fun y Hy => H y (or_intror Hy))).
  cbn [In] in Hx. destruct Hx as [E|[E|[E|[]]]]; rewrite <- E;
    repeat match goal with |- context [type_eqb ?a ?b] =>
      first [change (type_eqb a b) with true | change (type_eqb a b) with false] end; cbn [length]; lia.
Qed.
Lemma n_corners_eq : n_corners m = length K.
Proof.
  destruct (fa_corners F HC) as [wc [E _]]. unfold n_corners, num_entities, ids, opt_list. rewrite E.
  cbn [cornerids_owned cornerids_ghost cornerids_bghost]. apply (@types_sum _ fst). intros [c n] H. apply K_in in H. tauto.
Qed.

Definition cwl (p : nat * nat) : list nat := cwed (wnode_of t sh) (fun c => flat_map w2 (idxs (fun x => tcell x =? c) T)) p.
Lemma in_cwl c n w : In w (cwl (c, n)) <-> w < n_wedges m /\ wcell_of t sh w = c /\ wnode_of t sh w = n.
Proof.
  unfold cwl, cwed. rewrite filter_In, in_flat_w2, in_idxs, Nat.eqb_eq. cbn [fst snd]. rewrite (n_wedges_eq B HW). fold T.
  split.
  - intros [[x [Hx E]] E2]. apply Nat.eqb_eq in E. assert (L := nth_error_lt _ _ Hx). split; [lia|]. split; auto.
    unfold wcell_of, wtrip. fold T. rewrite (nth_error_nth _ _ _ Hx). auto.
  - intros [L [E1 E2]]. split; auto. exists (wtrip t sh w). split; [apply wtrip_nth; auto|]. apply Nat.eqb_eq. auto.
Qed.
Lemma NoDup_cwl p : NoDup (cwl p).
Proof. unfold cwl, cwed. apply NoDup_filter, flat_w2_NoDup, idxs_NoDup. Qed.
Lemma snode_end x : In x T -> snode t sh x 0 = fst (enodes sh (tedge x)) /\ snode t sh x 1 = snd (enodes sh (tedge x)) \/
  snode t sh x 0 = snd (enodes sh (tedge x)) /\ snode t sh x 1 = fst (enodes sh (tedge x)).
Proof.
  intros Hx. unfold snode, orient. rewrite (enodes'_eq _ FM). unfold side_orient.
  destruct (tp_mdim t =? 2); [destruct (tfdir x =? 1)%Z|destruct (negb _)]; cbn [fst snd Nat.eqb]; auto.
Qed.
Lemma cwl_nonempty c n : In (c, n) K -> cwl (c, n) <> [].
Proof.
  intros H E. apply K_in in H as [Hc Hn]. destruct (@nc_node _ _ NC _ _ Hc Hn) as [f [e [Ht Hen]]].
  destruct (tri_T B Ht) as [x [Hx [E1 [E2 E3]]]]. apply In_nth_error in Hx as [s Hs]. fold T in Hs.
  assert (L := nth_error_lt _ _ Hs).
  assert (X : exists i, i < 2 /\ snode t sh x i = n).
  { destruct (snode_end x (nth_error_In _ _ Hs)) as [[S0 S1]|[S0 S1]]; rewrite E3 in *; destruct Hen as [Q|Q];
      first [exists 0; split; [lia|congruence] | exists 1; split; [lia|congruence]]. }
  destruct X as [i [Hi Si]].
  assert (D : (2 * s + i) / 2 = s) by lia. assert (Mo : (2 * s + i) mod 2 = i) by lia.
  assert (G : In (2 * s + i) (cwl (c, n))).
  { apply in_cwl. rewrite (n_wedges_eq B HW). fold T. split; [lia|].
    unfold wcell_of, wnode_of, wtrip. fold T. rewrite D, Mo, (nth_error_nth _ _ _ Hs). auto. }
  rewrite E in G. destruct G.
Qed.
Lemma corner_wedges_at k p : nth_error K k = Some p -> corner_get_wedges m k = Ok (cwl p).
Proof.
  intros H. destruct (fa_corners F HC) as [wc [E _]]. unfold corner_get_wedges. rewrite flC, E. cbn [asserting need bind corner_wedge_ids].
  apply rd_Ok. fold T. fold K. change (fun p => cwl p) with cwl. apply (map_nth_error _ _ _ H).
Qed.
Lemma corner_at k c n : nth_error K k = Some (c, n) -> corner_get_cell m k = Ok c /\ corner_get_node m k = Ok n.
Proof.
  intros H. unfold corner_get_cell, corner_get_node, corner_first_wedge. rewrite (corner_wedges_at _ H). cbn [bind].
  assert (NE := cwl_nonempty _ _ (nth_error_In _ _ H)). destruct (cwl (c, n)) as [|w l] eqn:E; [congruence|]. cbn [bind].
  assert (I : In w (cwl (c, n))) by (rewrite E; simpl; auto). apply in_cwl in I as [L [E1 E2]].
  destruct (wedge_at B HW L) as [_ [G1 [_ [_ G2]]]]. rewrite G1, G2, E1, E2. auto.
Qed.
Lemma is_corner_iff k c n : is_corner m k c n <-> nth_error K k = Some (c, n).
Proof.
  unfold is_corner. rewrite n_corners_eq. split.
  - intros [L [H1 H2]]. destruct (nth_error K k) as [[c' n']|] eqn:E; [|apply nth_error_None in E; lia].
    destruct (corner_at _ E) as [G1 G2]. congruence.
  - intros H. split; [apply nth_error_lt in H; auto|apply corner_at; auto].
Qed.
Lemma K_inj k k' p : nth_error K k = Some p -> nth_error K k' = Some p -> k = k'.
Proof. intros H1 H2. assert (N := K_NoDup). rewrite NoDup_nth_error in N. apply N; [apply nth_error_lt in H1; auto|congruence]. Qed.
Lemma wedge_pair w : w < n_wedges m -> In (wcell_of t sh w, wnode_of t sh w) K.
Proof.
  intros H. destruct (wedge_at B HW H) as [E _]. assert (I := nth_error_In _ _ E).
  assert (Ht := T_tri B _ I). apply K_in. split; [apply (wcell_lt B HW H)|].
  destruct (nc_edge NC Ht) as [E1 E2]. unfold wcell_of, wnode_of.
  destruct (snode_end _ I) as [[S0 S1]|[S0 S1]]; destruct (w mod 2) as [|r] eqn:Er; [rewrite S0; auto| |rewrite S0; auto|];
    (assert (r = 0) as -> by lia); rewrite S1; auto.
Qed.
Lemma wedge_corner w : w < n_wedges m -> exists k, wedge_get_corner m w = Ok k /\ nth_error K k = Some (wcell_of t sh w, wnode_of t sh w).
Proof.
  intros H. destruct (In_nth_error _ _ (wedge_pair H)) as [k Hk]. exists k. split; auto.
  unfold wedge_get_corner. destruct (swT B HW) as [-> _]. cbn [asserting].
  destruct (fa_corners F HC) as [wc [E [L G]]]. rewrite E. cbn [wedge_corner_id]. apply rd_Ok. apply G; auto.
  rewrite (n_wedges_eq B HW) in H. auto.
Qed.
Lemma cell_corners c : c < ncells t -> cell_get_corners m c = Ok (idxs (fun p => fst p =? c) K).
Proof.
  intros H. destruct (fa_corners F HC) as [wc [E _]]. unfold cell_get_corners. rewrite flC, E. cbn [asserting need bind cell_corner_ids].
  apply rd_tab; auto.
Qed.
End K.
