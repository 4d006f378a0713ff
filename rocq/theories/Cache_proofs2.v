(** The side loop in 2D/3D. *)
From Coq Require Import Permutation.
From Verif Require Import Base Loop Defs Factory Cache Cache_spec Cache_proofs.
Set Implicit Arguments.

Definition same_fe (x y : trip) : Prop := tface x = tface y /\ tedge x = tedge y.
(** positions [i], [j] hold sides with the same face and edge in different cells *)
Definition mates (P : list trip) (i j : nat) : Prop :=
  exists x y, nth_error P i = Some x /\ nth_error P j = Some y /\ same_fe x y /\ tcell x <> tcell y.
Lemma mates_sym P i j : mates P i j -> mates P j i.
Proof. intros [x [y [H1 [H2 [[H3 H4] H5]]]]]. exists y, x. unfold same_fe. auto 10. Qed.
Lemma mates_app P R i j : mates P i j -> mates (P ++ R) i j.
Proof.
  intros [x [y [H1 [H2 H3]]]]. exists x, y. split; [|split; auto].
  - rewrite nth_error_app1; auto. apply nth_error_lt in H1; auto.
  - rewrite nth_error_app1; auto. apply nth_error_lt in H2; auto.
Qed.

Definition good (T : list trip) : Prop :=
  NoDup (map key T) /\
  forall x y z, In x T -> In y T -> In z T -> tface x = tface y -> tface x = tface z ->
    tcell x = tcell y \/ tcell x = tcell z \/ tcell y = tcell z.
Lemma good_prefix T P R : good T -> T = P ++ R -> good P.
Proof.
  intros [H1 H2] ->. split.
  - rewrite map_app in H1. eapply NoDup_app_l; eauto.
  - intros x y z Hx Hy Hz. apply H2; apply in_app_iff; auto.
Qed.
Lemma good_key T i j x y : good T -> nth_error T i = Some x -> nth_error T j = Some y -> key x = key y -> i = j.
Proof.
  intros [H _] Hi Hj E. rewrite NoDup_nth_error in H. apply H.
  - rewrite map_length. apply nth_error_lt in Hi; auto.
  - rewrite (map_nth_error _ _ _ Hi), (map_nth_error _ _ _ Hj), E. auto.
Qed.
(** at most one mate *)
Lemma good_mate_unique T i j k : good T -> mates T i j -> mates T i k -> j = k.
Proof.
  intros G [x [y [Hi [Hj [[F1 E1] N1]]]]] [x' [z [Hi' [Hk [[F2 E2] N2]]]]].
  rewrite Hi in Hi'. injection Hi' as <-.
  apply (good_key j k (x := y) (y := z) G); auto.
  destruct G as [_ G]. assert (Ix := nth_error_In _ _ Hi). assert (Iy := nth_error_In _ _ Hj). assert (Iz := nth_error_In _ _ Hk).
  destruct (G x y z Ix Iy Iz F1 F2) as [D|[D|D]]; [contradiction|contradiction|]. unfold key. congruence.
Qed.

Section Loop.
Variables (t : topo) (v : list entity_type) (enf : nat -> nat * nat) (T : list trip).
Hypothesis Lv : length v = ncells t.
Hypothesis Tr : forall x, In x T -> tcell x < ncells t /\ tedge x < nedges t.
Hypothesis Tt : forall x, In x T -> In (ctype_of v (tcell x)) [PARALLEL_OWNED; PARALLEL_GHOST; BOUNDARY_GHOST].
Hypothesis Tg : good T.

Let N := length T.
Let NO := length (filter (of_type v PARALLEL_OWNED) T).
Let NG := length (filter (of_type v PARALLEL_GHOST) T).
Let NB := length (filter (of_type v BOUNDARY_GHOST) T).
Definition orient (x : trip) := side_orient (tp_mdim t) (tfdir x) (tedir x) (enf (tedge x)).

Definition info_of (P : list trip) (opp : list Z) : side_info :=
  SideInfo (fill N 0 (seq 0 (length P)))
    (fill NO 0 (idxs (of_type v PARALLEL_OWNED) P)) (fill NG 0 (idxs (of_type v PARALLEL_GHOST) P)) (fill NB 0 (idxs (of_type v BOUNDARY_GHOST) P))
    (fill N 0 (map tedge P)) (fill N true (map (fun x => snd (orient x)) P)) (fill N 0 (map tface P)) (fill N 0 (map tcell P))
    opp (fill N (0, 0) (map (fun x => fst (orient x)) P))
    (tab (ncells t) (fun c => idxs (fun x => tcell x =? c) P)).
Definition loop_of (P : list trip) (opp : list Z) : side_loop :=
  SideLoop (info_of P opp) (tab (nedges t) (fun e => idxs (fun x => tedge x =? e) P))
    (length P) (length P) (length (idxs (of_type v PARALLEL_OWNED) P)) (length (idxs (of_type v PARALLEL_GHOST) P))
    (length (idxs (of_type v BOUNDARY_GHOST) P)).
Definition opp_inv (P : list trip) (opp : list Z) : Prop :=
  length opp = N /\ forall i, i < N ->
    (exists j, nth_error opp i = Some (Z.of_nat j) /\ mates P i j) \/ (nth_error opp i = Some (-1)%Z /\ forall j, ~ mates P i j).

Lemma find_opp_spec P x l :
  (forall j, In j l -> j < length P) ->
  exists r, find_opp (fill N 0 (map tedge (P ++ [x]))) (fill N 0 (map tface (P ++ [x]))) (fill N 0 (map tcell (P ++ [x]))) l (tedge x) (tface x) (tcell x) = Ok r /\
   match r with
   | Some j => In j l /\ mates (P ++ [x]) (length P) j
   | None => forall j, In j l -> ~ mates (P ++ [x]) (length P) j
   end.
Proof.
  assert (Hx : nth_error (P ++ [x]) (length P) = Some x) by (apply nth_error_mid; auto).
  induction l as [|s2 l IH]; intros Hl; simpl.
  { exists None. auto. }
  assert (Hs : s2 < length P) by (apply Hl; left; auto).
  destruct (IH (fun j H => Hl j (or_intror H))) as [r [Er Hr]].
  destruct (nth_error P s2) as [y|] eqn:Ey; [|apply nth_error_None in Ey; lia].
  assert (Ey' : nth_error (P ++ [x]) s2 = Some y) by (rewrite nth_error_app1; auto).
  assert (RR : forall (g : trip -> nat), rd (fill N 0 (map g (P ++ [x]))) s2 = Ok (g y)).
  { intros g. rewrite rd_fill by (rewrite map_length, app_length; lia). apply rd_Ok. apply map_nth_error; auto. }
  rewrite !RR. simpl.
  assert (Keep : ~ mates (P ++ [x]) (length P) s2 -> exists r0, Ok r = Ok r0 /\
     match r0 with Some j => (s2 = j \/ In j l) /\ mates (P ++ [x]) (length P) j
     | None => forall j, s2 = j \/ In j l -> ~ mates (P ++ [x]) (length P) j end).
  { intros NM. exists r. split; auto. destruct r as [j|]; [tauto|]. intros j [<-|Hj]; auto. }
  assert (MM : mates (P ++ [x]) (length P) s2 <-> (tface y = tface x /\ tedge y = tedge x /\ tcell y <> tcell x)).
  { split.
    - intros [x' [y' [H1 [H2 [[H3 H4] H5]]]]]. rewrite Hx in H1. rewrite Ey' in H2. injection H1 as <-. injection H2 as <-. auto 10.
    - intros [H1 [H2 H3]]. exists x, y. unfold same_fe. auto 10. }
  destruct (Nat.eqb_spec (tedge y) (tedge x)) as [E1|E1]; simpl; [|rewrite Er; apply Keep; rewrite MM; tauto].
  destruct (Nat.eqb_spec (tface y) (tface x)) as [E2|E2]; simpl; [|rewrite Er; apply Keep; rewrite MM; tauto].
  destruct (Nat.eqb_spec (tcell y) (tcell x)) as [E3|E3]; simpl; [rewrite Er; apply Keep; rewrite MM; tauto|].
  exists (Some s2). split; auto. split; [auto|]. apply MM; auto.
Qed.

Lemma mates_lt P i j : mates P i j -> i < length P /\ j < length P.
Proof. intros [x [y [H1 [H2 _]]]]. apply nth_error_lt in H1, H2. auto. Qed.
Lemma mates_snoc P x i j : mates (P ++ [x]) i j -> i < length P -> j < length P -> mates P i j.
Proof.
  intros [a [b [H1 [H2 H3]]]] Hi Hj. rewrite nth_error_app1 in H1, H2 by auto. exists a, b; auto.
Qed.
Lemma mates_irrefl P i : ~ mates P i i.
Proof. intros [a [b [H1 [H2 [_ H3]]]]]. congruence. Qed.

Lemma opp_step P x R opp r :
  T = P ++ x :: R -> opp_inv P opp ->
  match r with
  | Some j => j < length P /\ mates (P ++ [x]) (length P) j
  | None => forall j, j < length P -> ~ mates (P ++ [x]) (length P) j
  end ->
  exists opp', match r with
         | Some s2 => o1 <- wr opp (length P) (Z.of_nat s2) ;; wr o1 s2 (Z.of_nat (length P))
         | None => Ok opp
         end = Ok opp' /\ opp_inv (P ++ [x]) opp'.
Proof.
  intros ET [OL OI] Hr.
  assert (LN : length P < N). { unfold N. rewrite ET, app_length. simpl. lia. }
  assert (GP : good (P ++ [x])). { apply (good_prefix (T := T) (P ++ [x]) R); auto. rewrite <- app_assoc. auto. }
  destruct r as [j|].
  - destruct Hr as [Hj HM]. rewrite wr_ok by lia. simpl. rewrite wr_ok by (rewrite set_nth_length; lia).
    eexists. split; [reflexivity|]. split; [rewrite !set_nth_length; auto|].
    intros i Hi. destruct (Nat.eq_dec i j) as [->|Nj].
    { left. exists (length P). split; [|apply mates_sym; auto]. apply nth_error_set_nth_eq. rewrite set_nth_length. lia. }
    rewrite nth_error_set_nth_ne by auto. destruct (Nat.eq_dec i (length P)) as [->|Nk].
    { left. exists j. split; auto. apply nth_error_set_nth_eq. lia. }
    rewrite nth_error_set_nth_ne by auto.
    destruct (OI i Hi) as [[j' [E M]]|[E M]].
    + left. exists j'. split; auto. apply mates_app; auto.
    + right. split; auto. intros j' M'. destruct (mates_lt M') as [L1 L2]. rewrite app_length in L1, L2. simpl in L1, L2.
      destruct (Nat.eq_dec j' (length P)) as [->|N2].
      * apply mates_sym in M'. apply Nj. symmetry. eapply good_mate_unique; eauto.
      * apply (M j'). apply (@mates_snoc P x); auto; lia.
  - eexists. split; [reflexivity|]. split; auto. intros i Hi.
    destruct (OI i Hi) as [[j' [E M]]|[E M]].
    + left. exists j'. split; auto. apply mates_app; auto.
    + right. split; auto. intros j' M'. destruct (mates_lt M') as [L1 L2]. rewrite app_length in L1, L2. simpl in L1, L2.
      destruct (Nat.eq_dec i (length P)) as [->|N1].
      * destruct (Nat.eq_dec j' (length P)) as [->|N2]; [eapply mates_irrefl; eauto|]. apply (Hr j'); auto; lia.
      * destruct (Nat.eq_dec j' (length P)) as [->|N2].
        -- apply (Hr i); [lia|]. apply mates_sym; auto.
        -- apply (M j'). apply (@mates_snoc P x); auto; lia.
Qed.

Lemma side_body_step P x R opp :
  T = P ++ x :: R -> opp_inv P opp ->
  exists opp', side_body (tp_mdim t) v (tab (nedges t) enf) (tcell x) (tface x) (tfdir x) (snd x) (loop_of P opp)
    = Ok (loop_of (P ++ [x]) opp') /\ opp_inv (P ++ [x]) opp'.
Proof.
  intros ET HI.
  assert (LN : length P < N). { unfold N. rewrite ET, app_length. simpl. lia. }
  assert (Hin : In x T) by (rewrite ET; apply in_app_iff; right; left; auto).
  destruct (Tr x Hin) as [Hc He].
  assert (HW : forall A (d : A) (g : trip -> A) y, y = g x -> wr (fill N d (map g P)) (length P) y = Ok (fill N d (map g (P ++ [x])))).
  { intros A d g y ->. rewrite wr_fill by (rewrite ?map_length; auto). rewrite map_app. auto. }
  destruct (find_opp_spec P x (idxs (fun y => tedge y =? tedge x) P)) as [r [Er Hr]].
  { intros j Hj. eapply idxs_lt; eauto. }
  destruct (@opp_step P x R opp r ET HI) as [opp' [Eo Io]].
  { destruct r as [j|].
    - destruct Hr as [H1 H2]. split; auto. eapply idxs_lt; eauto.
    - intros j Hj M. apply (Hr j); auto. apply in_idxs. destruct M as [a [b [H1 [H2 [[H3 H4] H5]]]]].
      rewrite nth_error_mid in H1 by auto. injection H1 as <-.
      exists b. rewrite nth_error_app1 in H2 by auto. split; auto. apply Nat.eqb_eq; auto. }
  exists opp'. split; [|exact Io].
  unfold loop_of at 1, info_of at 1. unfold side_body. cbn [sl_info sl_sideid sl_iall sl_iown sl_ighost sl_ibndry sl_soe
     side_node_ids side_edge_use side_edge_id side_face_id side_cell_id cell_side_ids sideids_all sideids_owned sideids_ghost sideids_bghost side_opp_side_id].
  fold (tedge x). fold (tedir x).
  rewrite rd_tab by auto. cbn [bind].
  rewrite (HW _ (0,0) (fun x => fst (orient x))) by auto. cbn [bind].
  rewrite (HW _ true (fun x => snd (orient x))) by auto. cbn [bind].
  rewrite (HW _ 0 tedge) by auto. cbn [bind].
  rewrite (HW _ 0 tface) by auto. cbn [bind].
  rewrite (HW _ 0 tcell) by auto. cbn [bind].
  rewrite push_at_tab by auto. cbn [bind].
  rewrite wr_fill by (rewrite seq_length; auto). cbn [bind].
  rewrite ctype_of_rd by lia. cbn [bind].
  rewrite rd_tab by auto.
  rewrite push_at_tab by auto.
  assert (EOW : forall ty, type_eqb (ctype_of v (tcell x)) ty = true -> length (idxs (of_type v ty) P) < length (filter (of_type v ty) T)).
  { intros ty Ht. rewrite idxs_length. eapply filter_snoc_len; eauto. }
  assert (HS : seq 0 (length P) ++ [length P] = seq 0 (length (P ++ [x]))).
  { rewrite app_length. simpl. rewrite Nat.add_1_r, seq_S. auto. }
  assert (HL : length (P ++ [x]) = S (length P)) by (rewrite app_length; simpl; lia).
  assert (HC : tab (ncells t) (fun j => idxs (fun x0 => tcell x0 =? j) P ++ (if j =? tcell x then [length P] else []))
     = tab (ncells t) (fun c => idxs (fun x0 => tcell x0 =? c) (P ++ [x]))).
  { apply tab_ext. intros i _. rewrite idxs_snoc, (Nat.eqb_sym (tcell x)). auto. }
  assert (HE : tab (nedges t) (fun j => idxs (fun x0 => tedge x0 =? j) P ++ (if j =? tedge x then [length P] else []))
     = tab (nedges t) (fun c => idxs (fun x0 => tedge x0 =? c) (P ++ [x]))).
  { apply tab_ext. intros i _. rewrite idxs_snoc, (Nat.eqb_sym (tedge x)). auto. }
  unfold loop_of, info_of. rewrite HC, HE, HS, HL.
  assert (Tx := Tt x Hin).
  assert (IS : forall ty, idxs (of_type v ty) (P ++ [x]) = idxs (of_type v ty) P ++ if type_eqb (ctype_of v (tcell x)) ty then [length P] else []).
  { intros ty. apply idxs_snoc. }
  rewrite !IS.
  destruct (ctype_of v (tcell x)) eqn:Ety; simpl in Tx; try (exfalso; intuition discriminate);
    (rewrite wr_fill by (auto; apply EOW; auto); cbn [bind]; rewrite Er; cbn [bind]; rewrite Eo; cbn [bind fst snd];
     change (type_eqb PARALLEL_OWNED PARALLEL_OWNED) with true; change (type_eqb PARALLEL_OWNED PARALLEL_GHOST) with false;
     change (type_eqb PARALLEL_OWNED BOUNDARY_GHOST) with false; change (type_eqb PARALLEL_GHOST PARALLEL_OWNED) with false;
     change (type_eqb PARALLEL_GHOST PARALLEL_GHOST) with true; change (type_eqb PARALLEL_GHOST BOUNDARY_GHOST) with false;
     change (type_eqb BOUNDARY_GHOST PARALLEL_OWNED) with false; change (type_eqb BOUNDARY_GHOST PARALLEL_GHOST) with false;
     change (type_eqb BOUNDARY_GHOST BOUNDARY_GHOST) with true; cbn [orb];
     rewrite ?app_nil_r, ?app_length; cbn [length]; rewrite ?Nat.add_1_r; reflexivity).
Qed.

Lemma side_loop_spec :
  exists opp, foldM T (fun x s => side_body (tp_mdim t) v (tab (nedges t) enf) (tcell x) (tface x) (tfdir x) (snd x) s)
     (SideLoop (side_init t (N, NO, NG, NB)) (repeat [] (nedges t)) 0 0 0 0 0) = Ok (loop_of T opp) /\ opp_inv T opp.
Proof.
  destruct (@foldM_inv _ _ (fun x s => side_body (tp_mdim t) v (tab (nedges t) enf) (tcell x) (tface x) (tfdir x) (snd x) s)
     (fun P s => exists opp, s = loop_of P opp /\ opp_inv P opp) T
     (SideLoop (side_init t (N, NO, NG, NB)) (repeat [] (nedges t)) 0 0 0 0 0)) as [s' [E [opp [-> H]]]]; [| |eauto].
  - exists (repeat (-1)%Z N). split.
    + unfold loop_of, info_of, side_init. cbn -[fill tab repeat]. rewrite !fill_nil. rewrite !repeat_tab. reflexivity.
    + split; [apply repeat_length|]. intros i Hi. right. split; [apply nth_error_repeat_Some; auto|].
      intros j [a [b [H _]]]. destruct i; discriminate.
  - intros P x R s ET [opp [-> HI]]. destruct (@side_body_step P x R opp ET HI) as [opp' [E I]].
    exists (loop_of (P ++ [x]) opp'). eauto.
Qed.
End Loop.

(** the arrays at the end *)
Definition final_info (t : topo) (v : list entity_type) (enf : nat -> nat * nat) (T : list trip) (opp : list Z) : side_info :=
  SideInfo (seq 0 (length T)) (idxs (of_type v PARALLEL_OWNED) T) (idxs (of_type v PARALLEL_GHOST) T) (idxs (of_type v BOUNDARY_GHOST) T)
    (map tedge T) (map (fun x => snd (orient t enf x)) T) (map tface T) (map tcell T) opp
    (map (fun x => fst (orient t enf x)) T) (tab (ncells t) (fun c => idxs (fun x => tcell x =? c) T)).
Definition opp_ok (T : list trip) (opp : list Z) : Prop :=
  length opp = length T /\ forall i, i < length T ->
    (exists j, nth_error opp i = Some (Z.of_nat j) /\ mates T i j) \/ (nth_error opp i = Some (-1)%Z /\ forall j, ~ mates T i j).

Lemma trips_good t sh : numbered t -> connectivity t sh -> good (trips t sh).
Proof.
  intros N C. split; [apply trips_key_NoDup; auto|].
  intros x y z Hx Hy Hz E1 E2. apply in_trips in Hx, Hy, Hz; auto.
  destruct Hx as [X1 [X2 _]], Hy as [Y1 [Y2 _]], Hz as [Z1 [Z2 _]].
  apply (@cn_two t sh C (tcell x) (tcell y) (tcell z) (tface x)); auto; unfold face_of.
  - apply (in_map fst _ _ X2).
  - rewrite E1. apply (in_map fst _ _ Y2).
  - rewrite E2. apply (in_map fst _ _ Z2).
Qed.

Definition typed (t : topo) (v : list entity_type) : Prop :=
  length v = ncells t /\ forall c, c < ncells t -> cell_has_type t c (ctype_of v c).
Lemma cell_type_cached t : numbered t -> exists v, cache_cell_type t = Ok v /\ typed t v /\
  (forall c ty, cell_has_type t c ty -> nth_error v c = Some ty).
Proof.
  intros N. destruct (@cache_types_spec (ncells t) (cells_owned t) (cells_ghost t) (cells_bghost t)) as [v [E [L [H1 H2]]]].
  { apply (nb_cells N). }
  exists v. split; [exact E|]. split; [split; [exact L|]|exact H1].
  intros c Hc. destruct (H2 c Hc) as [ty Ht]. unfold ctype_of. rewrite (nth_error_nth _ _ _ (H1 _ _ Ht)). exact Ht.
Qed.
Lemma typed_in t v c : typed t v -> c < ncells t -> In (ctype_of v c) [PARALLEL_OWNED; PARALLEL_GHOST; BOUNDARY_GHOST].
Proof. intros [_ H] Hc. destruct (H c Hc) as [[-> _]|[[-> _]|[-> _]]]; simpl; auto. Qed.

Theorem cache_side_info_nd_spec t sh v :
  numbered t -> connectivity t sh -> typed t v -> tp_mdim t <> 1 ->
  exists opp, cache_side_info_nd t v (tab (ncells t) (cfaces sh)) (tab (nfaces t) (fedges sh)) (tab (nedges t) (enodes' t sh))
    = Ok (final_info t v (enodes' t sh) (trips t sh) opp) /\ opp_ok (trips t sh) opp.
Proof.
  intros N C [L HT] D. unfold cache_side_info_nd. rewrite (@count_sides_spec t sh v) by auto. cbn [bind].
  rewrite (@foldM_trips _ t sh (fun c fd ed s => side_body (tp_mdim t) v (tab (nedges t) (enodes' t sh)) c (fst fd) (snd fd) ed s)) by auto.
  destruct (@side_loop_spec t v (enodes' t sh) (trips t sh)) as [opp [E I]]; auto.
  - intros x Hx. apply trips_range in Hx; auto. tauto.
  - intros x Hx. apply trips_range in Hx; auto. eapply typed_in; [split; eauto|tauto].
  - apply trips_good; auto.
  - exists opp. fold (tface). change (foldM (trips t sh)
      (fun (x : trip) s => side_body (tp_mdim t) v (tab (nedges t) (enodes' t sh)) (tcell x) (fst (snd (fst x))) (snd (snd (fst x))) (snd x) s))
      with (foldM (trips t sh)
      (fun (x : trip) s => side_body (tp_mdim t) v (tab (nedges t) (enodes' t sh)) (tcell x) (tface x) (tfdir x) (snd x) s)).
    rewrite E. cbn [bind]. split; [|exact I]. f_equal. unfold loop_of, info_of, final_info. cbn [sl_info].
    rewrite !fill_full by (rewrite ?map_length, ?seq_length, ?idxs_length; auto). reflexivity.
Qed.
