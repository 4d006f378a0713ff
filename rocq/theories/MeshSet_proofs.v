From Coq Require Import String Permutation.
From Verif Require Import Base Defs MeshSet MeshSet_spec.
Set Implicit Arguments.

Lemma type_eqb_spec a b : type_eqb a b = true <-> a = b.
Proof. unfold type_eqb. destruct (type_eq_dec a b); split; congruence. Qed.
Lemma kind_eqb_spec a b : kind_eqb a b = true <-> a = b.
Proof. unfold kind_eqb. destruct (kind_eq_dec a b); split; congruence. Qed.
Lemma memb_spec e l : memb e l = true <-> In e l.
Proof.
  unfold memb. rewrite existsb_exists. split.
  - intros (x & Hx & E). apply Nat.eqb_eq in E. subst; auto.
  - intros H. exists e. split; auto. apply Nat.eqb_refl.
Qed.
Lemma memb_false e l : memb e l = false <-> ~ In e l.
Proof. rewrite <- memb_spec. destruct (memb e l); split; congruence. Qed.

Lemma NoDup_app_iff A (l1 l2 : list A) : NoDup (l1 ++ l2) <-> NoDup l1 /\ NoDup l2 /\ forall x, In x l1 -> ~ In x l2.
Proof.
  induction l1 as [|a l1 IH]; simpl.
  - split; [intros H; repeat split; auto; constructor|tauto].
  - split.
    + intros H. inversion H as [|? ? Ha Hn]; subst. apply IH in Hn as (H1 & H2 & H3). split; [|split; auto].
      * constructor; auto. intros Hin; apply Ha, in_or_app; auto.
      * intros x [<-|Hx]; auto. intros Hin; apply Ha, in_or_app; auto.
    + intros (H1 & H2 & H3). inversion H1; subst. constructor.
      * intros Hin. apply in_app_or in Hin as [Hin|Hin]; [auto|eapply H3; eauto; left; auto].
      * apply IH. repeat split; auto; intros x Hx; apply H3; right; auto.
Qed.

Lemma wf_disjoint types s : wf_set types s -> forall x, In x (ms_owned s) -> ~ In x (ms_ghost s).
Proof. intros H x H1 H2. apply (wf_owned_type H) in H1. apply (wf_ghost_type H) in H2. congruence. Qed.

Lemma wf_all_nodup types s : wf_set types s -> NoDup (ms_all s).
Proof.
  intros H. eapply Permutation_NoDup; [apply Permutation_sym, (wf_all H)|].
  apply NoDup_app_iff. split; [apply H|]. split; [apply H|]. apply (wf_disjoint H).
Qed.
Lemma wf_in_all types s x : wf_set types s -> (In x (ms_all s) <-> In x (ms_owned s) \/ In x (ms_ghost s)).
Proof.
  intros H. rewrite <- in_app_iff. split; apply Permutation_in; [|apply Permutation_sym]; apply (wf_all H).
Qed.
Lemma wf_lt types s x : wf_set types s -> In x (ms_all s) -> x < length types.
Proof.
  intros H Hx. apply (wf_in_all x H) in Hx as [Hx|Hx].
  - apply (wf_owned_type H) in Hx. eapply nth_error_lt; eauto.
  - apply (wf_ghost_type H) in Hx. eapply nth_error_lt; eauto.
Qed.

(** index_entries writes position i+k for the k-th element *)
Lemma index_entries_spec : forall l i rev,
  NoDup l -> (forall e, In e l -> e < length rev) ->
  exists rev', index_entries l i rev = Ok rev' /\ length rev' = length rev /\
   (forall k e, nth_error l k = Some e -> nth_error rev' e = Some (Z.of_nat (i + k))) /\
   (forall e, ~ In e l -> nth_error rev' e = nth_error rev e).
Proof.
  induction l as [|x l IH]; intros i rev HN Hb.
  - exists rev. split; [reflexivity|]. split; auto. split; auto. intros [|k] e; discriminate.
  - inversion HN as [|? ? Hx HN']; subst. cbn [index_entries].
    rewrite wr_ok by (apply Hb; left; auto). cbn [bind].
    destruct (IH (S i) (set_nth rev x (Z.of_nat i))) as (rev' & E & HL & H1 & H2); auto.
    { intros e He. rewrite set_nth_length. apply Hb; right; auto. }
    exists rev'. rewrite set_nth_length in HL. split; auto. split; auto. split.
    + intros [|k] e Hk; simpl in Hk.
      * inversion Hk; subst. rewrite H2 by auto. rewrite nth_error_set_nth_eq by (apply Hb; left; auto). f_equal. f_equal. lia.
      * rewrite (H1 k e Hk). f_equal. f_equal. lia.
    + intros e He. rewrite H2 by (intros Hin; apply He; right; auto). apply nth_error_set_nth_ne. intros ->; apply He; left; auto.
Qed.

Lemma nth_error_NoDup_In A (l : list A) e : In e l -> exists k, nth_error l k = Some e.
Proof. apply In_nth_error. Qed.

(** if rev lists positions of all elements of [all] and -1 elsewhere, index_agrees *)
Lemma rev_index_agrees types s :
  length (ms_rev s) = length types ->
  (forall k e, nth_error (ms_all s) k = Some e -> nth_error (ms_rev s) e = Some (Z.of_nat k)) ->
  (forall e, e < length types -> ~ In e (ms_all s) -> nth_error (ms_rev s) e = Some (-1)%Z) ->
  index_agrees types s.
Proof.
  intros HL H1 H2 e He. unfold index_in_set.
  destruct (ms_rev s) as [|z r] eqn:E; [simpl in HL; lia|]. rewrite <- E in *.
  destruct (in_dec Nat.eq_dec e (ms_all s)) as [Hin|Hin].
  - apply In_nth_error in Hin as [k Hk]. exists (Z.of_nat k). split; [apply rd_Ok; auto|]. left; eauto.
  - exists (-1)%Z. split; [apply rd_Ok; auto|]. right; auto.
Qed.

Lemma index_agrees_rev types s : wf_set types s -> ms_have_rev s = true -> index_agrees types s ->
  (forall k e, nth_error (ms_all s) k = Some e -> nth_error (ms_rev s) e = Some (Z.of_nat k)) /\
  (forall e, e < length types -> ~ In e (ms_all s) -> nth_error (ms_rev s) e = Some (-1)%Z).
Proof.
  intros Hw Hr HA. pose proof (wf_rev_len Hw) as HL. rewrite Hr in HL.
  assert (HA' : forall e, e < length types -> exists i, nth_error (ms_rev s) e = Some i /\
    ((exists k, i = Z.of_nat k /\ nth_error (ms_all s) k = Some e) \/ (i = (-1)%Z /\ ~ In e (ms_all s)))).
  { intros e He. destruct (HA e He) as (i & Hi & HD). exists i. split; auto. unfold index_in_set in Hi.
    destruct (ms_rev s) as [|z r] eqn:E; [simpl in HL; lia|]. apply rd_Ok in Hi. auto. }
  split.
  - intros k e Hk. assert (Hin : In e (ms_all s)) by (eapply nth_error_In; eauto).
    destruct (HA' e (wf_lt _ Hw Hin)) as (i & Hi & [(k' & -> & Hk')|[_ Hn]]); [|tauto].
    rewrite Hi. f_equal. f_equal. pose proof (wf_all_nodup Hw) as HN. rewrite NoDup_nth_error in HN.
    apply HN; [eapply nth_error_lt; eauto|congruence].
  - intros e He Hn. destruct (HA' e He) as (i & Hi & [(k' & -> & Hk')|[-> _]]); auto.
    exfalso. apply Hn. eapply nth_error_In; eauto.
Qed.

(** ** C05 *)
Lemma make_set_ok types name kind owned ghost b :
  NoDup owned -> NoDup ghost ->
  (forall e, In e owned -> nth_error types e = Some PARALLEL_OWNED) ->
  (forall e, In e ghost -> nth_error types e = Some PARALLEL_GHOST) ->
  exists s, make_set types name kind owned ghost b = Ok s /\ consistent types s /\
    ms_name s = name /\ ms_kind s = kind /\ ms_owned s = owned /\ ms_ghost s = ghost /\ ms_have_rev s = b.
Proof.
  intros H1 H2 H3 H4. unfold make_set.
  assert (HN : NoDup (owned ++ ghost)).
  { apply NoDup_app_iff. split; auto. split; auto. intros x Hx Hy. apply H3 in Hx. apply H4 in Hy. congruence. }
  destruct b.
  - destruct (@index_entries_spec (owned ++ ghost) 0 (repeat (-1)%Z (length types))) as (rev & E & HL & HI & HO); auto.
    { intros e He. rewrite repeat_length. apply in_app_or in He as [He|He]; [apply H3 in He|apply H4 in He]; eapply nth_error_lt; eauto. }
    rewrite E. cbn [bind]. eexists; split; [reflexivity|].
    rewrite repeat_length in HL.
    split; [|cbn; auto]. split; [|split].
    + constructor; cbn; auto.
    + reflexivity.
    + intros _. apply rev_index_agrees; cbn; auto.
      intros e He Hn. rewrite HO by auto. apply nth_error_repeat; auto.
  - eexists; split; [reflexivity|]. split; [|cbn; auto]. split; [|split].
    + constructor; cbn; auto.
    + reflexivity.
    + cbn; discriminate.
Qed.

Lemma make_set_out_of_range types name kind owned ghost e : In e (owned ++ ghost) -> length types <= e ->
  make_set types name kind owned ghost true = UB.
Proof.
  intros Hin He. unfold make_set. 
  assert (H : forall l i rev, In e l -> length rev <= e -> index_entries l i rev = UB).
  { induction l as [|x l IH]; intros i rev Hl Hr; [destruct Hl|]. cbn [index_entries]. unfold wr.
    destruct (Nat.ltb_spec x (length rev)); cbn [bind]; auto. apply IH; [|rewrite set_nth_length; auto].
    destruct Hl as [->|]; auto; lia. }
  rewrite H; auto. rewrite repeat_length; auto.
Qed.

(** ** C06: add_entity *)
Lemma rev_write_ok types s e i : wf_set types s -> e < length types ->
  exists rev', rev_write s e i = Ok rev' /\ length rev' = length (ms_rev s) /\
    (ms_have_rev s = true -> rev' = set_nth (ms_rev s) e i) .
Proof.
  intros Hw He. unfold rev_write. pose proof (wf_rev_len Hw) as HL. destruct (ms_have_rev s).
  - rewrite wr_ok by lia. eexists; split; [reflexivity|]. split; auto. apply set_nth_length.
  - eexists; split; [reflexivity|]. split; auto. discriminate.
Qed.

Lemma insert_at_ok l1 l2 e : insert_at (l1 ++ l2) (length l1) e = Ok (l1 ++ e :: l2).
Proof.
  unfold insert_at. rewrite app_length. destruct (Nat.leb_spec (length l1) (length l1 + length l2)); [|lia].
  rewrite firstn_app, Nat.sub_diag, firstn_all, skipn_app, Nat.sub_diag, skipn_all. simpl. rewrite app_nil_r. reflexivity.
Qed.

Lemma add_entity_owned types s e : wf_set types s -> ordered s -> ~ In e (ms_all s) ->
  nth_error types e = Some PARALLEL_OWNED ->
  exists s', add_entity types s e = Ok s' /\ wf_set types s' /\ ordered s' /\
    ms_owned s' = ms_owned s ++ [e] /\ ms_ghost s' = ms_ghost s /\ ms_have_rev s' = ms_have_rev s /\
    ms_name s' = ms_name s /\ ms_kind s' = ms_kind s /\
    (ms_ghost s = [] -> consistent types s -> consistent types s').
Proof.
  intros Hw Ho Hn Ht. unfold add_entity. unfold rd; rewrite Ht; cbn [bind].
  pose proof (nth_error_lt _ _ Ht) as He. pose proof Ho as Ho'. unfold ordered in Ho'. rewrite Ho', insert_at_ok. cbn [bind].
  destruct (rev_write_ok (Z.of_nat (length (ms_owned s))) Hw He) as (rev' & E & HL & HR). rewrite E; cbn [bind].
  eexists; split; [reflexivity|].
  assert (Hw' : wf_set types (MSet (ms_name s) (ms_kind s) (ms_owned s ++ [e]) (ms_ghost s) (ms_owned s ++ e :: ms_ghost s) (ms_have_rev s) rev')).
  { constructor; cbn.
    - intros x Hx. apply in_app_or in Hx as [Hx|[<-|[]]]; auto. apply (wf_owned_type Hw); auto.
    - apply Hw.
    - apply NoDup_app_iff. split; [apply Hw|]. split; [repeat constructor; auto|]. intros x Hx [<-|[]]. apply Hn. rewrite Ho'. apply in_or_app; auto.
    - apply Hw.
    - rewrite <- app_assoc. reflexivity.
    - rewrite HL. apply Hw. }
  assert (Ho2 : ordered (MSet (ms_name s) (ms_kind s) (ms_owned s ++ [e]) (ms_ghost s) (ms_owned s ++ e :: ms_ghost s) (ms_have_rev s) rev'))
    by (unfold ordered; cbn; rewrite <- app_assoc; reflexivity).
  split; auto. split; auto. cbn. repeat (split; [reflexivity|]).
  intros Hg (_ & _ & HA). split; auto. split; auto. cbn. intros Hr. specialize (HA Hr).
  destruct (index_agrees_rev Hw Hr HA) as [I1 I2]. rewrite (HR Hr) in *.
  pose proof (wf_rev_len Hw) as HLr. rewrite Hr in HLr.
  apply rev_index_agrees; cbn; rewrite Hg in *.
  - rewrite set_nth_length; auto.
  - intros k x Hk. rewrite app_nil_r in Ho'. 
    destruct (Nat.lt_ge_cases k (length (ms_owned s))) as [Hlt|Hge].
    + rewrite nth_error_app1 in Hk by auto. rewrite nth_error_set_nth_ne; [apply I1; rewrite Ho'; auto|].
      intros ->. apply Hn. rewrite Ho'. eapply nth_error_In; eauto.
    + rewrite nth_error_app2 in Hk by auto. destruct (k - length (ms_owned s)) as [|j] eqn:Ek; simpl in Hk; [|destruct j; discriminate].
      inversion Hk; subst. rewrite nth_error_set_nth_eq by lia. f_equal. f_equal. lia.
  - intros x Hx Hnx. rewrite nth_error_set_nth_ne.
    + apply I2; auto. rewrite Ho', app_nil_r. intros Hin; apply Hnx; apply in_or_app; auto.
    + intros ->. apply Hnx. apply in_or_app; right; left; auto.
Qed.

Lemma add_entity_ghost types s e : wf_set types s -> ordered s -> ~ In e (ms_all s) ->
  nth_error types e = Some PARALLEL_GHOST ->
  exists s', add_entity types s e = Ok s' /\ wf_set types s' /\ ordered s' /\
    ms_owned s' = ms_owned s /\ ms_ghost s' = ms_ghost s ++ [e] /\ ms_have_rev s' = ms_have_rev s /\
    ms_name s' = ms_name s /\ ms_kind s' = ms_kind s /\
    (consistent types s -> consistent types s').
Proof.
  intros Hw Ho Hn Ht. unfold add_entity. unfold rd; rewrite Ht; cbn [bind].
  pose proof (nth_error_lt _ _ Ht) as He. pose proof Ho as Ho'. unfold ordered in Ho'.
  destruct (rev_write_ok (Z.of_nat (length (ms_all s ++ [e])) - 1) Hw He) as (rev' & E & HL & HR). rewrite E; cbn [bind].
  eexists; split; [reflexivity|].
  assert (Hw' : wf_set types (MSet (ms_name s) (ms_kind s) (ms_owned s) (ms_ghost s ++ [e]) (ms_all s ++ [e]) (ms_have_rev s) rev')).
  { constructor; cbn.
    - apply Hw.
    - intros x Hx. apply in_app_or in Hx as [Hx|[<-|[]]]; auto. apply (wf_ghost_type Hw); auto.
    - apply Hw.
    - apply NoDup_app_iff. split; [apply Hw|]. split; [repeat constructor; auto|]. intros x Hx [<-|[]]. apply Hn. rewrite Ho'. apply in_or_app; auto.
    - rewrite Ho', <- app_assoc. reflexivity.
    - rewrite HL. apply Hw. }
  assert (Ho2 : ordered (MSet (ms_name s) (ms_kind s) (ms_owned s) (ms_ghost s ++ [e]) (ms_all s ++ [e]) (ms_have_rev s) rev'))
    by (unfold ordered; cbn; rewrite Ho', <- app_assoc; reflexivity).
  split; auto. split; auto. cbn. repeat (split; [reflexivity|]).
  intros (_ & _ & HA). split; auto. split; auto. cbn. intros Hr. specialize (HA Hr).
  destruct (index_agrees_rev Hw Hr HA) as [I1 I2]. rewrite (HR Hr) in *.
  pose proof (wf_rev_len Hw) as HLr. rewrite Hr in HLr.
  apply rev_index_agrees; cbn.
  - rewrite set_nth_length; auto.
  - intros k x Hk.
    destruct (Nat.lt_ge_cases k (length (ms_all s))) as [Hlt|Hge].
    + rewrite nth_error_app1 in Hk by auto. rewrite nth_error_set_nth_ne; [apply I1; auto|].
      intros ->. apply Hn. eapply nth_error_In; eauto.
    + rewrite nth_error_app2 in Hk by auto. destruct (k - length (ms_all s)) as [|j] eqn:Ek; simpl in Hk; [|destruct j; discriminate].
      inversion Hk; subst. rewrite nth_error_set_nth_eq by lia. f_equal. rewrite app_length; simpl. lia.
  - intros x Hx Hnx. rewrite nth_error_set_nth_ne.
    + apply I2; auto. intros Hin; apply Hnx; apply in_or_app; auto.
    + intros ->. apply Hnx. apply in_or_app; right; left; auto.
Qed.

Definition is_type (types : list entity_type) (t : entity_type) (e : nat) : bool :=
  match nth_error types e with Some t' => type_eqb t' t | None => false end.

(** a whole history of add_entity calls *)
Lemma add_each_ok types : forall l s, wf_set types s -> ordered s -> NoDup l -> (forall e, In e l -> ~ In e (ms_all s)) ->
  (forall e, In e l -> nth_error types e = Some PARALLEL_OWNED \/ nth_error types e = Some PARALLEL_GHOST) ->
  exists s', add_each types l s = Ok s' /\ wf_set types s' /\ ordered s' /\
    ms_owned s' = ms_owned s ++ filter (is_type types PARALLEL_OWNED) l /\
    ms_ghost s' = ms_ghost s ++ filter (is_type types PARALLEL_GHOST) l /\ ms_have_rev s' = ms_have_rev s /\
    ms_name s' = ms_name s /\ ms_kind s' = ms_kind s.
Proof.
  induction l as [|e l IH]; intros s Hw Ho HN Hd Ht.
  - exists s. split; [reflexivity|]. rewrite !app_nil_r. auto 10.
  - inversion HN as [|? ? He HN']; subst. cbn [add_each].
    assert (Hnin : ~ In e (ms_all s)) by (apply Hd; left; auto).
    destruct (Ht e (or_introl eq_refl)) as [Hte|Hte].
    + destruct (add_entity_owned e Hw Ho Hnin Hte) as (s1 & E & W1 & O1 & A1 & A2 & A3 & A4 & A5 & _).
      rewrite E; cbn [bind]. destruct (IH s1) as (s2 & E2 & W2 & O2 & B1 & B2 & B3 & B4 & B5); auto.
      { intros x Hx. rewrite (wf_in_all x W1), A1, A2. intros [Hin|Hin].
        - apply in_app_or in Hin as [Hin|[<-|[]]]; auto. apply (Hd x (or_intror Hx)). apply (wf_in_all x Hw); auto.
        - apply (Hd x (or_intror Hx)). apply (wf_in_all x Hw); auto. }
      { intros x Hx; apply Ht; right; auto. }
      exists s2. split; auto. split; auto. split; auto.
      assert (T1 : is_type types PARALLEL_OWNED e = true) by (unfold is_type; rewrite Hte; reflexivity).
      assert (T2 : is_type types PARALLEL_GHOST e = false) by (unfold is_type; rewrite Hte; reflexivity).
      cbn [filter]. rewrite T1, T2. rewrite B1, B2, A1, A2, <- app_assoc.
      split; [reflexivity|]. split; [reflexivity|]. split; [congruence|]. split; congruence.
    + destruct (add_entity_ghost e Hw Ho Hnin Hte) as (s1 & E & W1 & O1 & A1 & A2 & A3 & A4 & A5 & _).
      rewrite E; cbn [bind]. destruct (IH s1) as (s2 & E2 & W2 & O2 & B1 & B2 & B3 & B4 & B5); auto.
      { intros x Hx. rewrite (wf_in_all x W1), A1, A2. intros [Hin|Hin].
        - apply (Hd x (or_intror Hx)). apply (wf_in_all x Hw); auto.
        - apply in_app_or in Hin as [Hin|[<-|[]]]; auto. apply (Hd x (or_intror Hx)). apply (wf_in_all x Hw); auto. }
      { intros x Hx; apply Ht; right; auto. }
      exists s2. split; auto. split; auto. split; auto.
      assert (T1 : is_type types PARALLEL_OWNED e = false) by (unfold is_type; rewrite Hte; reflexivity).
      assert (T2 : is_type types PARALLEL_GHOST e = true) by (unfold is_type; rewrite Hte; reflexivity).
      cbn [filter]. rewrite T1, T2. rewrite B1, B2, A1, A2, <- app_assoc.
      split; [reflexivity|]. split; [reflexivity|]. split; [congruence|]. split; congruence.
Qed.

(** owned entities first, then ghosts: the index map stays right *)
Lemma add_each_consistent types : forall lo lg s, consistent types s -> NoDup (lo ++ lg) ->
  (forall e, In e (lo ++ lg) -> ~ In e (ms_all s)) ->
  (forall e, In e lo -> nth_error types e = Some PARALLEL_OWNED) ->
  (forall e, In e lg -> nth_error types e = Some PARALLEL_GHOST) ->
  (ms_ghost s = [] \/ lo = []) ->
  exists s', add_each types (lo ++ lg) s = Ok s' /\ consistent types s' /\
    ms_owned s' = ms_owned s ++ lo /\ ms_ghost s' = ms_ghost s ++ lg.
Proof.
  induction lo as [|e lo IH].
  - cbn [app]. induction lg as [|e lg IHg]; intros s Hc HN Hd _ Hg _.
    + exists s. rewrite !app_nil_r. auto.
    + inversion HN; subst. cbn [add_each]. destruct Hc as (Hw & Ho & HI).
      destruct (add_entity_ghost e Hw Ho (Hd e (or_introl eq_refl)) (Hg e (or_introl eq_refl))) as (s1 & E & W1 & O1 & A1 & A2 & A3 & _ & _ & C1).
      rewrite E; cbn [bind]. destruct (IHg s1) as (s2 & E2 & C2 & B1 & B2); auto.
      { apply C1. split; auto. }
      { intros x Hx. rewrite (wf_in_all x W1), A1, A2. intros [Hin|Hin].
        - apply (Hd x (or_intror Hx)). apply (wf_in_all x Hw); auto.
        - apply in_app_or in Hin as [Hin|[<-|[]]]; auto. apply (Hd x (or_intror Hx)). apply (wf_in_all x Hw); auto. }
      { intros x []. }
      { intros x Hx; apply Hg; right; auto. }
      exists s2. split; auto. split; auto. rewrite B1, B2, A1, A2, <- app_assoc. auto.
  - intros lg s Hc HN Hd Hlo Hlg HG. destruct HG as [HG|HG]; [|discriminate].
    cbn [app] in *. inversion HN; subst. cbn [add_each]. destruct Hc as (Hw & Ho & HI).
    destruct (add_entity_owned e Hw Ho (Hd e (or_introl eq_refl)) (Hlo e (or_introl eq_refl))) as (s1 & E & W1 & O1 & A1 & A2 & A3 & _ & _ & C1).
    rewrite E; cbn [bind]. destruct (IH lg s1) as (s2 & E2 & C2 & B1 & B2); auto.
    { apply C1; auto. split; auto. }
    { intros x Hx. rewrite (wf_in_all x W1), A1, A2. intros [Hin|Hin].
      - apply in_app_or in Hin as [Hin|[<-|[]]]; auto. apply (Hd x (or_intror Hx)). apply (wf_in_all x Hw); auto.
      - apply (Hd x (or_intror Hx)). apply (wf_in_all x Hw); auto. }
    { intros x Hx; apply Hlo; right; auto. }
    { left. congruence. }
    exists s2. split; auto. split; auto. rewrite B1, B2, A1, A2, <- app_assoc. auto.
Qed.
