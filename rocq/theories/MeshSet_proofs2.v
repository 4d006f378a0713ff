From Coq Require Import String Permutation.
From Verif Require Import Base Defs MeshSet MeshSet_spec MeshSet_proofs.
Set Implicit Arguments.

(** ** std::find *)
Lemma find_pos_None l e : find_pos l e = None <-> ~ In e l.
Proof.
  induction l as [|x l IH]; simpl; [tauto|]. destruct (Nat.eqb_spec x e) as [->|Hne].
  - split; [discriminate|tauto].
  - destruct (find_pos l e); simpl; split; try discriminate; intuition congruence.
Qed.
Lemma find_pos_Some l e i : find_pos l e = Some i -> exists l1 l2, l = l1 ++ e :: l2 /\ i = length l1 /\ ~ In e l1.
Proof.
  revert i; induction l as [|x l IH]; simpl; intros i H; [discriminate|]. destruct (Nat.eqb_spec x e) as [->|Hne].
  - inversion H; subst. exists [], l. auto.
  - destruct (find_pos l e) as [j|] eqn:E; [|discriminate]. inversion H; subst.
    destruct (IH j eq_refl) as (l1 & l2 & -> & -> & Hn). exists (x :: l1), l2. split; auto. split; auto. intros [|]; auto.
Qed.

Lemma rdz_Ok A (l : list A) (i : nat) a : nth_error l i = Some a -> rdz l (Z.of_nat i) = Ok a.
Proof. intros H. unfold rdz. destruct (Z.ltb_spec (Z.of_nat i) 0); [lia|]. rewrite Nat2Z.id. apply rd_Ok; auto. Qed.

(** ** C07: rem_entity *)
Lemma swap_last_remove_ok l e : In e l ->
  exists l', swap_last_remove l e = Ok l' /\ Permutation l (e :: l').
Proof.
  intros Hin. unfold swap_last_remove. destruct (find_pos l e) as [i|] eqn:E; [|apply find_pos_None in E; tauto].
  apply find_pos_Some in E as (l1 & l2 & -> & -> & Hn).
  destruct l2 as [|y l2'] using rev_ind.
  - replace (Z.of_nat (length (l1 ++ [e])) - 1)%Z with (Z.of_nat (length l1)) by (rewrite app_length; simpl; lia).
    rewrite (@rdz_Ok _ _ _ e) by (apply nth_error_mid; auto). cbn [bind].
    rewrite wr_ok by (rewrite app_length; simpl; lia). cbn [bind]. rewrite set_nth_mid by auto.
    exists l1. split.
    + f_equal. rewrite app_length. simpl. rewrite Nat.add_sub. rewrite firstn_app, Nat.sub_diag, firstn_all. simpl. apply app_nil_r.
    + apply Permutation_sym, Permutation_cons_append.
  - clear IHl2'.
    assert (HL : length (l1 ++ e :: l2' ++ [y]) - 1 = length (l1 ++ e :: l2')) by (rewrite !app_length; simpl; rewrite app_length; simpl; lia).
    replace (Z.of_nat (length (l1 ++ e :: l2' ++ [y])) - 1)%Z with (Z.of_nat (length (l1 ++ e :: l2'))) by (rewrite <- HL; rewrite !app_length; simpl; lia).
    rewrite (@rdz_Ok _ _ _ y). 2:{ replace (l1 ++ e :: l2' ++ [y]) with ((l1 ++ e :: l2') ++ [y]) by (rewrite <- app_assoc; reflexivity). apply nth_error_mid; auto. }
    cbn [bind]. rewrite wr_ok by (rewrite app_length; simpl; lia). cbn [bind]. rewrite set_nth_mid by auto.
    exists (l1 ++ y :: l2'). split.
    + f_equal. rewrite HL. replace (l1 ++ y :: l2' ++ [y]) with ((l1 ++ y :: l2') ++ [y]) by (rewrite <- app_assoc; reflexivity).
      replace (length (l1 ++ e :: l2')) with (length (l1 ++ y :: l2')) by (rewrite !app_length; reflexivity).
      rewrite firstn_app, Nat.sub_diag, firstn_all. simpl. apply app_nil_r.
    + rewrite <- Permutation_middle. constructor. apply Permutation_app_head. apply Permutation_sym, Permutation_cons_append.
Qed.
Lemma swap_last_remove_notin l e : ~ In e l -> swap_last_remove l e = Ok l.
Proof. intros H. unfold swap_last_remove. apply find_pos_None in H. rewrite H. reflexivity. Qed.

Lemma swap_last_remove_spec l e : NoDup l -> exists l', swap_last_remove l e = Ok l' /\ NoDup l' /\
  (forall x, In x l' <-> In x l /\ x <> e).
Proof.
  intros HN. destruct (in_dec Nat.eq_dec e l) as [Hin|Hin].
  - destruct (swap_last_remove_ok _ _ Hin) as (l' & E & HP). exists l'. split; auto.
    assert (HN' : NoDup (e :: l')) by (eapply Permutation_NoDup; eauto). inversion HN' as [|? ? He Hl]; subst.
    split; auto. intros x. split.
    + intros Hx. split; [eapply Permutation_in; [apply Permutation_sym; eauto|right; auto]|congruence].
    + intros [Hx Hne]. apply (Permutation_in x HP) in Hx as [|]; congruence || auto.
  - exists l. split; [apply swap_last_remove_notin; auto|]. split; auto. intros x. split; [intros Hx; split; auto; congruence|tauto].
Qed.

Lemma rem_entity_ok types s e : wf_set types s ->
  (nth_error types e = Some PARALLEL_OWNED \/ nth_error types e = Some PARALLEL_GHOST) ->
  exists s', rem_entity types s e = Ok s' /\ wf_set types s' /\
    (forall x, In x (ms_owned s') <-> In x (ms_owned s) /\ x <> e) /\
    (forall x, In x (ms_ghost s') <-> In x (ms_ghost s) /\ x <> e) /\
    (forall x, In x (ms_all s') <-> In x (ms_all s) /\ x <> e) /\
    ms_have_rev s' = ms_have_rev s /\ ms_name s' = ms_name s /\ ms_kind s' = ms_kind s /\
    (ms_have_rev s = true -> index_in_set s' e = Ok (-1)%Z).
Proof.
  intros Hw Ht.
  assert (He : e < length types) by (destruct Ht as [Ht|Ht]; eapply nth_error_lt; eauto).
  destruct (rev_write_ok (-1)%Z Hw He) as (rev' & ER & HL & HR).
  assert (HI : ms_have_rev s = true -> forall n k o g a, index_in_set (MSet n k o g a (ms_have_rev s) rev') e = Ok (-1)%Z).
  { intros Hr n k o g a. unfold index_in_set. cbn. pose proof (wf_rev_len Hw) as HLr. rewrite Hr in HLr.
    destruct rev' as [|z r] eqn:Er; [auto|]. rewrite <- Er. rewrite <- Er in HR. rewrite (HR Hr). apply rd_Ok.
    apply nth_error_set_nth_eq. lia. }
  destruct (swap_last_remove_spec e (wf_all_nodup Hw)) as (a & EA & NA & IA).
  unfold rem_entity. destruct Ht as [Ht|Ht]; unfold rd; rewrite Ht; cbn [bind].
  - destruct (swap_last_remove_spec e (wf_owned_nodup Hw)) as (o & EO & NO & IO).
    rewrite EO; cbn [bind]. rewrite EA; cbn [bind]. rewrite ER; cbn [bind]. eexists; split; [reflexivity|].
    assert (IG : forall x, In x (ms_ghost s) <-> In x (ms_ghost s) /\ x <> e).
    { intros x. split; [|tauto]. intros Hx. split; auto. intros ->. apply (wf_ghost_type Hw) in Hx. congruence. }
    split.
    { constructor; cbn; [|apply (wf_ghost_type Hw)|auto|apply (wf_ghost_nodup Hw)| |].
      - intros x Hx. apply IO in Hx. apply (wf_owned_type Hw); tauto.
      - apply NoDup_Permutation; auto.
        + apply NoDup_app_iff. split; auto. split; [apply Hw|]. intros x Hx. apply IO in Hx. apply (wf_disjoint Hw); tauto.
        + intros x. rewrite in_app_iff, IA, IO, IG, (wf_in_all x Hw). tauto.
      - rewrite HL; apply Hw. }
    cbn. repeat (split; [solve [auto]|]). intros Hr; exact (HI Hr _ _ _ _ _).
  - destruct (swap_last_remove_spec e (wf_ghost_nodup Hw)) as (g & EG & NG & IG).
    rewrite EG; cbn [bind]. rewrite EA; cbn [bind]. rewrite ER; cbn [bind]. eexists; split; [reflexivity|].
    assert (IO : forall x, In x (ms_owned s) <-> In x (ms_owned s) /\ x <> e).
    { intros x. split; [|tauto]. intros Hx. split; auto. intros ->. apply (wf_owned_type Hw) in Hx. congruence. }
    split.
    { constructor; cbn; [apply (wf_owned_type Hw)| |apply (wf_owned_nodup Hw)|auto| |].
      - intros x Hx. apply IG in Hx. apply (wf_ghost_type Hw); tauto.
      - apply NoDup_Permutation; auto.
        + apply NoDup_app_iff. split; [apply Hw|]. split; auto. intros x Hx Hx2. apply IG in Hx2. eapply (wf_disjoint Hw); eauto; tauto.
        + intros x. rewrite in_app_iff, IA, IO, IG, (wf_in_all x Hw). tauto.
      - rewrite HL; apply Hw. }
    cbn. repeat (split; [solve [auto]|]). intros Hr; exact (HI Hr _ _ _ _ _).
Qed.

(** ** C09: rem_entities *)
Definition relevant (types : list entity_type) (only_owned : bool) (e : nat) : Prop :=
  only_owned = false \/ nth_error types e = Some PARALLEL_OWNED.

Lemma rem_loop_spec types oo : forall ins live stale ndel size,
  size = length live + ndel -> length stale = ndel -> NoDup live -> NoDup ins ->
  (forall x, In x stale -> In x live \/ ~ In x ins) ->
  (oo = true -> forall e, In e ins -> e < length types) ->
  exists live' stale' ndel', rem_loop types oo ins (live ++ stale) size ndel = Ok (live' ++ stale', ndel') /\
    size = length live' + ndel' /\ length stale' = ndel' /\ NoDup live' /\
    (forall x, In x live' <-> In x live /\ ~ (In x ins /\ relevant types oo x)).
Proof.
  induction ins as [|e ins IH]; intros live stale ndel size Hs Hst HN HNi Hstale Hlt.
  - exists live, stale, ndel. split; [reflexivity|]. repeat (split; [solve [auto]|]). intros x. simpl. tauto.
  - apply NoDup_cons_iff in HNi as [He HNi'].
    cbn [rem_loop].
    assert (Hskip : forall rl, (~ In e live \/ ~ relevant types oo e) ->
       rl = rem_loop types oo ins (live ++ stale) size ndel ->
       exists live' stale' ndel', rl = Ok (live' ++ stale', ndel') /\
        size = length live' + ndel' /\ length stale' = ndel' /\ NoDup live' /\
        (forall x, In x live' <-> In x live /\ ~ (In x (e :: ins) /\ relevant types oo x))).
    { intros rl Hcase ->. destruct (IH live stale ndel size) as (lv & st & nd & E & A & B & C & D); auto.
      - intros x Hx. destruct (Hstale x Hx) as [|Hn]; auto. right. intros Hin; apply Hn; right; auto.
      - intros Ho x Hx. apply Hlt; auto. right; auto.
      - exists lv, st, nd. repeat (split; [solve [auto]|]). intros x. rewrite D. simpl. split.
        + intros [H1 H2]. split; auto. intros [[->|H3] H4]; [destruct Hcase; tauto|tauto].
        + intros [H1 H2]. split; auto. tauto. }
    assert (Hrel : exists b, (if oo then t <- rd types e ;; Ok (type_eqb t PARALLEL_OWNED) else Ok true) = Ok b /\ (b = true <-> relevant types oo e)).
    { unfold relevant. destruct oo.
      - assert (e < length types) as Hl by (apply Hlt; auto; left; auto).
        destruct (nth_error types e) as [t|] eqn:Et; [|apply nth_error_None in Et; lia].
        unfold rd; rewrite Et; cbn [bind]. eexists; split; [reflexivity|]. rewrite type_eqb_spec. split; [intros ->; auto|intros [|]; congruence].
      - eexists; split; [reflexivity|]. tauto. }
    destruct Hrel as (b & Eb & Hb). rewrite Eb; cbn [bind]. destruct b.
    + destruct (in_dec Nat.eq_dec e live) as [Hin|Hnin].
      * destruct (find_pos (live ++ stale) e) as [i|] eqn:Ef; [|apply find_pos_None in Ef; exfalso; apply Ef, in_or_app; auto].
        apply find_pos_Some in Ef as (l1 & l2 & El & -> & Hn1).
        (* split of live *)
        assert (exists l2a, live = l1 ++ e :: l2a /\ l2 = l2a ++ stale) as (l2a & -> & ->).
        { apply in_split in Hin as (m1 & m2 & ->). rewrite <- app_assoc in El. simpl in El.
          assert (m1 = l1).
          { assert (Hm1 : ~ In e m1) by (apply NoDup_remove_2 in HN; intros Hx; apply HN, in_or_app; auto).
            clear -El Hm1 Hn1. revert l1 El Hn1. induction m1 as [|y m1 IHm]; intros [|z l1] El Hn1; simpl in *; auto.
            - inversion El; subst. exfalso; auto.
            - inversion El; subst. exfalso; auto.
            - inversion El; subst. f_equal. apply IHm; auto. }
          subst. apply app_inv_head in El. inversion El. exists m2; auto. }
        rewrite <- app_assoc. cbn [app].
        assert (HNe : ~ In e (l1 ++ l2a)) by (apply NoDup_remove_2 in HN; auto).
        assert (HN1 : NoDup (l1 ++ l2a)) by (apply NoDup_remove_1 in HN; auto).
        destruct l2a as [|y l2b] using rev_ind.
        -- (* e is the last live entry *)
          replace (Z.of_nat size - Z.of_nat ndel - 1)%Z with (Z.of_nat (length l1)) by (rewrite app_length in Hs; simpl in Hs; lia).
          rewrite (@rdz_Ok _ _ _ e) by (apply nth_error_mid; auto). cbn [bind].
          rewrite wr_ok by (rewrite app_length; simpl; lia). cbn [bind]. rewrite set_nth_mid by auto. cbn [app].
          destruct (IH l1 (e :: stale) (S ndel) size) as (lv & st & nd & E & A & B & C & D); auto.
          ++ rewrite app_length in Hs; simpl in Hs; lia.
          ++ simpl; lia.
          ++ rewrite app_nil_r in HN1; auto.
          ++ intros x [<-|Hx]; auto. destruct (Hstale x Hx) as [Hx1|Hx1].
             ** apply in_app_or in Hx1 as [Hx1|[<-|[]]]; auto.
             ** right; intros Hx2; apply Hx1; right; auto.
          ++ intros Ho x Hx; apply Hlt; auto; right; auto.
          ++ exists lv, st, nd. repeat (split; [solve [auto]|]). intros x. rewrite D, in_app_iff. simpl. split.
             ** intros [H1 H2]. split; auto. intros [[->|H3] H4]; [apply Hn1; auto|tauto].
             ** intros [[H1|[<-|[]]] H2]; [split; auto; tauto|]. exfalso. apply H2. split; auto. apply Hb; auto.
        -- clear IHl2b.
          assert (Hsz : (Z.of_nat size - Z.of_nat ndel - 1)%Z = Z.of_nat (length (l1 ++ e :: l2b))).
          { rewrite !app_length in *; simpl in *. rewrite app_length in Hs; simpl in Hs. lia. }
          rewrite Hsz.
          rewrite (@rdz_Ok _ _ _ y).
          2:{ replace (l1 ++ e :: (l2b ++ [y]) ++ stale) with ((l1 ++ e :: l2b) ++ y :: stale) by (rewrite <- !app_assoc; reflexivity). apply nth_error_mid; auto. }
          cbn [bind]. rewrite wr_ok by (rewrite app_length; simpl; lia). cbn [bind]. rewrite set_nth_mid by auto.
          replace (l1 ++ y :: (l2b ++ [y]) ++ stale) with ((l1 ++ y :: l2b) ++ y :: stale) by (rewrite <- !app_assoc; reflexivity).
          assert (HNy : NoDup (l1 ++ y :: l2b)).
          { eapply Permutation_NoDup; [|exact HN1]. apply Permutation_app_head. apply Permutation_sym, Permutation_cons_append. }
          assert (Hiny : forall x, In x (l1 ++ y :: l2b) <-> In x (l1 ++ l2b ++ [y])).
          { intros x. rewrite !in_app_iff. simpl. tauto. }
          destruct (IH (l1 ++ y :: l2b) (y :: stale) (S ndel) size) as (lv & st & nd & E & A & B & C & D); auto.
          ++ rewrite !app_length in *; simpl in *; rewrite ?app_length in *; simpl in *; lia.
          ++ simpl; lia.
          ++ intros x [<-|Hx]; [left; apply in_or_app; right; left; auto|]. destruct (Hstale x Hx) as [Hx1|Hx1].
             ** apply in_app_or in Hx1 as [Hx1|[<-|Hx1]]; auto; left; apply Hiny, in_or_app; auto.
             ** right; intros Hx2; apply Hx1; right; auto.
          ++ intros Ho x Hx; apply Hlt; auto; right; auto.
          ++ exists lv, st, nd. repeat (split; [solve [auto]|]). intros x. rewrite D, Hiny. rewrite in_app_iff. rewrite (in_app_iff l1 (e :: l2b ++ [y])). simpl. split.
             ** intros [H1 H2]. split; [tauto|]. intros [[->|H3] H4]; [|tauto]. apply HNe. apply in_or_app; tauto.
             ** intros [H1 H2]. destruct H1 as [H1|[<-|H1]]; [split; [tauto|tauto]| |split; [tauto|tauto]].
                exfalso. apply H2. split; auto. apply Hb; auto.
      * assert (Hnl : find_pos (live ++ stale) e = None).
        { apply find_pos_None. intros Hx. apply in_app_or in Hx as [Hx|Hx]; auto. destruct (Hstale e Hx) as [|Hc]; auto. apply Hc; left; auto. }
        rewrite Hnl. apply Hskip; auto.
    + apply Hskip; auto. right. intros Hr. apply Hb in Hr. discriminate.
Qed.

Lemma rem_from_spec types oo ins l : NoDup l -> NoDup ins -> (oo = true -> forall e, In e ins -> e < length types) ->
  exists l', rem_from types oo ins l = Ok l' /\ NoDup l' /\ (forall x, In x l' <-> In x l /\ ~ (In x ins /\ relevant types oo x)).
Proof.
  intros HN HNi Hlt. unfold rem_from.
  destruct (@rem_loop_spec types oo ins l [] 0 (length l)) as (lv & st & nd & E & A & B & C & D); auto.
  rewrite app_nil_r in E. rewrite E; cbn [bind]. exists lv. split; auto. f_equal.
  replace (length l - nd) with (length lv) by lia. rewrite firstn_app, Nat.sub_diag, firstn_all. simpl. apply app_nil_r.
Qed.

Lemma rem_entities_ok types s ins : wf_set types s -> NoDup ins -> (forall e, In e ins -> e < length types) ->
  exists s', rem_entities types s ins = Ok s' /\ wf_set types s' /\
    (forall x, In x (ms_owned s') <-> In x (ms_owned s) /\ ~ In x ins) /\
    (forall x, In x (ms_ghost s') <-> In x (ms_ghost s) /\ ~ In x ins) /\
    (forall x, In x (ms_all s') <-> In x (ms_all s) /\ ~ In x ins) /\
    ms_have_rev s' = ms_have_rev s /\ ms_name s' = ms_name s /\ ms_kind s' = ms_kind s /\
    (ms_have_rev s = true -> forall k x, nth_error (ms_all s') k = Some x -> index_in_set s' x = Ok (Z.of_nat k)).
Proof.
  intros Hw HN Hlt. unfold rem_entities.
  destruct (@rem_from_spec types true ins (ms_owned s)) as (o & EO & NO & IO'); auto. { apply Hw. }
  destruct (@rem_from_spec types false ins (ms_ghost s)) as (g & EG & NG & IG'); auto. { apply Hw. }
  destruct (@rem_from_spec types false ins (ms_all s)) as (a & EA & NA & IA'); auto. { apply (wf_all_nodup Hw). }
  assert (IO : forall x, In x o <-> In x (ms_owned s) /\ ~ In x ins).
  { intros x. rewrite IO'. split; intros [H1 H2]; split; auto; intros H3; apply H2; [split; auto; right; apply (wf_owned_type Hw); auto|tauto]. }
  assert (IG : forall x, In x g <-> In x (ms_ghost s) /\ ~ In x ins).
  { intros x. rewrite IG'. unfold relevant. tauto. }
  assert (IA : forall x, In x a <-> In x (ms_all s) /\ ~ In x ins).
  { intros x. rewrite IA'. unfold relevant. tauto. }
  rewrite EO; cbn [bind]. rewrite EG; cbn [bind]. rewrite EA; cbn [bind].
  pose proof (wf_rev_len Hw) as HLr.
  assert (HR : exists rev', (if ms_have_rev s then index_entries a 0 (ms_rev s) else Ok (ms_rev s)) = Ok rev' /\
     length rev' = length (ms_rev s) /\ (ms_have_rev s = true -> forall k x, nth_error a k = Some x -> nth_error rev' x = Some (Z.of_nat k))).
  { destruct (ms_have_rev s).
    - destruct (@index_entries_spec a 0 (ms_rev s)) as (rev' & E & HL & H1 & _); auto.
      + intros e He. apply IA in He. rewrite HLr. apply (wf_lt e Hw); tauto.
      + exists rev'. split; auto.
    - eexists; split; [reflexivity|]. split; auto. discriminate. }
  destruct HR as (rev' & ER & HL & HI). rewrite ER; cbn [bind]. eexists; split; [reflexivity|].
  split.
  { constructor; cbn; auto.
    - intros x Hx. apply IO in Hx. apply (wf_owned_type Hw); tauto.
    - intros x Hx. apply IG in Hx. apply (wf_ghost_type Hw); tauto.
    - apply NoDup_Permutation; auto.
      + apply NoDup_app_iff. split; auto. split; auto. intros x Hx Hx2. apply IO in Hx. apply IG in Hx2. apply (wf_disjoint Hw x); tauto.
      + intros x. rewrite in_app_iff, IA, IO, IG, (wf_in_all x Hw). tauto.
    - congruence. }
  cbn. repeat (split; [solve [auto]|]).
  intros Hr k x Hk. specialize (HI Hr k x Hk). unfold index_in_set; cbn. destruct rev' as [|z r] eqn:E; [destruct x; discriminate|].
  rewrite <- E in *. apply rd_Ok; auto.
Qed.
