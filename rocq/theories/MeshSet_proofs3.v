From Coq Require Import String Permutation.
From Verif Require Import Base Defs MeshSet MeshSet_spec MeshSet_proofs.
Set Implicit Arguments.

(** ** C08: add_entities *)
Definition typed (types : list entity_type) (l : list nat) : Prop :=
  forall e, In e l -> nth_error types e = Some PARALLEL_OWNED \/ nth_error types e = Some PARALLEL_GHOST.

Lemma count_in_spec types : forall l, (forall e, In e l -> e < length types) ->
  count_in types l = Ok (length (filter (is_type types PARALLEL_OWNED) l), length (filter (is_type types PARALLEL_GHOST) l)).
Proof.
  induction l as [|e l IH]; intros H; [reflexivity|]. cbn [count_in filter].
  assert (He : e < length types) by (apply H; left; auto).
  unfold rd at 1. destruct (nth_error types e) as [t|] eqn:Et; [|apply nth_error_None in Et; lia].
  cbn [bind]. rewrite IH by (intros x Hx; apply H; right; auto). cbn [bind fst snd].
  assert (T : forall t', is_type types t' e = type_eqb t t') by (intros t'; unfold is_type; rewrite Et; reflexivity).
  rewrite !T. destruct t; reflexivity.
Qed.

Lemma typed_lt types l e : typed types l -> In e l -> e < length types.
Proof. intros H He. destruct (H e He) as [E|E]; eapply nth_error_lt; eauto. Qed.

Lemma typed_split types l : typed types l ->
  length l = length (filter (is_type types PARALLEL_OWNED) l) + length (filter (is_type types PARALLEL_GHOST) l).
Proof.
  induction l as [|e l IH]; intros H; auto. cbn [filter length].
  assert (Hl : typed types l) by (intros x Hx; apply H; right; auto). specialize (IH Hl).
  assert (T : forall t t', nth_error types e = Some t -> is_type types t' e = type_eqb t t') by (intros t t' Et; unfold is_type; rewrite Et; reflexivity).
  destruct (H e (or_introl eq_refl)) as [E|E]; rewrite !(T _ _ E); cbn; lia.
Qed.

Lemma filter_all A (f : A -> bool) l : (forall x, In x l -> f x = true) -> filter f l = l.
Proof. induction l as [|x l IH]; simpl; intros H; auto. rewrite H by auto. f_equal; auto. Qed.
Lemma filter_len_all A (f : A -> bool) l : length (filter f l) = length l -> forall x, In x l -> f x = true.
Proof.
  induction l as [|a l IH]; simpl; intros H x; [tauto|]. pose proof (filter_length_le f l) as HL.
  destruct (f a) eqn:Ea; simpl in H; [|lia]. intros [<-|Hx]; auto.
Qed.
Lemma filter_len_none A (f : A -> bool) l : length (filter f l) = 0 -> filter f l = [].
Proof. destruct (filter f l); simpl; auto; lia. Qed.

Lemma is_type_true types t e : is_type types t e = true <-> nth_error types e = Some t.
Proof.
  unfold is_type. destruct (nth_error types e) as [t'|]; [|split; discriminate].
  rewrite type_eqb_spec. split; congruence.
Qed.

Lemma reindex_range_spec all : NoDup all -> forall cnt start rev,
  start + cnt <= length all -> (forall e, In e all -> e < length rev) ->
  exists rev', reindex_range all start cnt rev = Ok rev' /\ length rev' = length rev /\
   (forall k e, start <= k < start + cnt -> nth_error all k = Some e -> nth_error rev' e = Some (Z.of_nat k)) /\
   (forall e, (forall k, start <= k < start + cnt -> nth_error all k <> Some e) -> nth_error rev' e = nth_error rev e).
Proof.
  intros HN. induction cnt as [|cnt IH]; intros start rev Hs Hb.
  - exists rev. split; [reflexivity|]. split; auto. split; auto. intros k e Hk; lia.
  - cbn [reindex_range]. destruct (nth_error all start) as [x|] eqn:Ex; [|apply nth_error_None in Ex; lia].
    unfold rd; rewrite Ex; cbn [bind]. assert (Hx : x < length rev) by (apply Hb; eapply nth_error_In; eauto).
    rewrite wr_ok by auto. cbn [bind].
    destruct (IH (S start) (set_nth rev x (Z.of_nat start))) as (rev' & E & HL & H1 & H2); [lia| |].
    { intros e He. rewrite set_nth_length; auto. }
    exists rev'. rewrite set_nth_length in HL. split; auto. split; auto. split.
    + intros k e Hk Ek. destruct (Nat.eq_dec k start) as [->|Hne]; [|apply H1; auto; lia].
      rewrite Ex in Ek. injection Ek as <-. rewrite H2; [apply nth_error_set_nth_eq; auto|].
      intros k Hk2 Ek2. rewrite NoDup_nth_error in HN. assert (start = k); [|lia]. apply HN; [lia|congruence].
    + intros e He. rewrite H2.
      * apply nth_error_set_nth_ne. intros ->. apply (He start); auto; lia.
      * intros k Hk. apply He; lia.
Qed.

Lemma add_entity_frame types s e s' x : add_entity types s e = Ok s' -> x <> e ->
  nth_error (ms_rev s') x = nth_error (ms_rev s) x.
Proof.
  unfold add_entity. destruct (rd types e) as [t| | | |]; cbn [bind]; try discriminate.
  assert (HR : forall i r, rev_write s e i = Ok r -> x <> e -> nth_error r x = nth_error (ms_rev s) x).
  { intros i r. unfold rev_write. destruct (ms_have_rev s); intros E Hx; [apply wr_Ok in E as [_ ->]; apply nth_error_set_nth_ne; auto|congruence]. }
  destruct t; intros E Hx; try (injection E as <-; reflexivity).
  - apply bind_Ok in E as (a & _ & E). apply bind_Ok in E as (r & Er & E). injection E as <-. cbn. eauto.
  - apply bind_Ok in E as (r & Er & E). injection E as <-. cbn. eauto.
Qed.
Lemma add_each_frame types : forall l s s' x, add_each types l s = Ok s' -> ~ In x l ->
  nth_error (ms_rev s') x = nth_error (ms_rev s) x.
Proof.
  induction l as [|e l IH]; intros s s' x E Hx; cbn [add_each] in E; [congruence|].
  apply bind_Ok in E as (s1 & E1 & E2). rewrite (IH _ _ x E2) by (intros H; apply Hx; right; auto).
  eapply add_entity_frame; eauto. intros ->; apply Hx; left; auto.
Qed.

Lemma nodup_filter_disjoint types l s : wf_set types s -> NoDup l -> (forall e, In e l -> ~ In e (ms_all s)) ->
  NoDup (ms_owned s ++ filter (is_type types PARALLEL_OWNED) l) /\ NoDup (ms_ghost s ++ filter (is_type types PARALLEL_GHOST) l).
Proof.
  intros Hw HN Hd. split; apply NoDup_app_iff; (split; [apply Hw|split; [apply NoDup_filter; auto|]]);
    intros x Hx Hf; apply filter_In in Hf as [Hf _]; apply (Hd x Hf); apply (wf_in_all x Hw); auto.
Qed.

(** all-owned or mixed arguments: the members are right; layout and index map right in the stated cases *)
Lemma add_entities_ok types s l : wf_set types s -> ordered s -> NoDup l -> (forall e, In e l -> ~ In e (ms_all s)) ->
  typed types l -> (l = [] \/ exists e, In e l /\ nth_error types e = Some PARALLEL_OWNED) ->
  exists s', add_entities types s l = Ok s' /\ wf_set types s' /\
    ms_owned s' = ms_owned s ++ filter (is_type types PARALLEL_OWNED) l /\
    ms_ghost s' = ms_ghost s ++ filter (is_type types PARALLEL_GHOST) l /\
    (forall x, In x (ms_all s') <-> In x (ms_all s) \/ In x l) /\
    ms_have_rev s' = ms_have_rev s /\ ms_name s' = ms_name s /\ ms_kind s' = ms_kind s /\
    (ms_ghost s' <> [] \/ ms_owned s = [] \/ l = [] -> ordered s') /\
    (consistent types s -> ms_ghost s = [] -> ms_ghost s' <> [] \/ ms_owned s = [] -> consistent types s').
Proof.
  intros Hw Ho HN Hd Ht Hne. unfold add_entities.
  rewrite count_in_spec by (intros e He; eapply typed_lt; eauto). cbn [bind].
  set (lo := filter (is_type types PARALLEL_OWNED) l). set (lg := filter (is_type types PARALLEL_GHOST) l).
  pose proof (typed_split Ht) as Hlen. fold lo lg in Hlen.
  destruct (nodup_filter_disjoint Hw HN Hd) as [HNo HNg]. fold lo in HNo. fold lg in HNg.
  assert (Hmem : forall x, In x l <-> In x lo \/ In x lg).
  { intros x. unfold lo, lg. rewrite !filter_In, !is_type_true. split; [intros Hx; destruct (Ht x Hx); auto|tauto]. }
  (* the state after the list update *)
  set (s1o := if length l =? length lo then _ else _).
  assert (H1 : exists s1, s1o = Ok s1 /\ ms_owned s1 = ms_owned s ++ lo /\ ms_ghost s1 = ms_ghost s ++ lg /\
     ms_have_rev s1 = ms_have_rev s /\ ms_name s1 = ms_name s /\ ms_kind s1 = ms_kind s /\ length (ms_rev s1) = length (ms_rev s) /\
     (lg = [] -> lo = l /\ ms_all s1 = ms_all s) /\
     (forall x, ~ In x l -> nth_error (ms_rev s1) x = nth_error (ms_rev s) x)).
  { unfold s1o. destruct (Nat.eqb_spec (length l) (length lo)) as [E|E].
    - assert (Elo : lo = l) by (apply filter_all, filter_len_all; auto).
      assert (Elg : lg = []) by (destruct lg; auto; simpl in Hlen; lia).
      eexists; split; [reflexivity|]. cbn. rewrite Elo, Elg, app_nil_r. repeat (split; [solve [auto]|]). auto.
    - destruct (Nat.eqb_spec (length l) (length lg)) as [E2|E2].
      { exfalso. destruct Hne as [->|(e & He & Hte)]; [apply E; reflexivity|].
        assert (length lo = 0) by lia. assert (In e lo) by (apply filter_In; split; auto; apply is_type_true; auto).
        destruct lo; simpl in *; [tauto|lia]. }
      destruct (add_each_ok (types:=types) (l:=l) (s:=s)) as (s1 & E1 & W1 & O1 & A1 & A2 & A3 & A4 & A5); auto.
      exists s1. repeat (split; [solve [auto]|]). split; [|split].
      + rewrite (wf_rev_len W1), (wf_rev_len Hw), A3. reflexivity.
      + intros Elg. rewrite Elg in Hlen. simpl in Hlen. lia.
      + intros x Hx. eapply add_each_frame; eauto. }
  destruct H1 as (s1 & -> & A1 & A2 & A3 & A4 & A5 & A6 & A7 & A8). cbn [bind].
  set (all' := match ms_ghost s1 with [] => l ++ ms_all s1 | _ => ms_owned s1 ++ ms_ghost s1 end).
  assert (HP : Permutation all' ((ms_owned s ++ lo) ++ (ms_ghost s ++ lg))).
  { unfold all'. destruct (ms_ghost s1) as [|g0 gr] eqn:Eg.
    - symmetry in A2. apply app_eq_nil in A2 as [Eg0 Elg]. destruct (A7 Elg) as [-> ->]. rewrite Eg0, Elg. cbn. rewrite app_nil_r.
      unfold ordered in Ho. rewrite Ho, Eg0, app_nil_r. apply Permutation_app_comm.
    - rewrite <- Eg in *. rewrite A1, <- A2. rewrite Eg. reflexivity. }
  assert (HNa : NoDup all').
  { eapply Permutation_NoDup; [apply Permutation_sym, HP|]. apply NoDup_app_iff. split; auto. split; auto.
    assert (HO : forall x, In x (ms_owned s ++ lo) -> nth_error types x = Some PARALLEL_OWNED).
    { intros x Hx. apply in_app_or in Hx as [Hx|Hx]; [apply (wf_owned_type Hw); auto|apply filter_In in Hx as [_ Hx]; apply is_type_true in Hx; auto]. }
    assert (HG : forall x, In x (ms_ghost s ++ lg) -> nth_error types x = Some PARALLEL_GHOST).
    { intros x Hx. apply in_app_or in Hx as [Hx|Hx]; [apply (wf_ghost_type Hw); auto|apply filter_In in Hx as [_ Hx]; apply is_type_true in Hx; auto]. }
    intros x Hx Hy. apply HO in Hx. apply HG in Hy. congruence. }
  assert (Hin' : forall x, In x all' <-> In x (ms_all s) \/ In x l).
  { intros x. rewrite (wf_in_all x Hw), Hmem. split.
    - intros Hx. apply (Permutation_in x HP) in Hx. rewrite !in_app_iff in Hx. tauto.
    - intros Hx. apply (Permutation_in x (Permutation_sym HP)). rewrite !in_app_iff. tauto. }
  assert (Hlt : forall e, In e all' -> e < length types).
  { intros e He. apply Hin' in He as [He|He]; [eapply wf_lt; eauto|eapply typed_lt; eauto]. }
  assert (Hla : length all' = length (ms_owned s) + length lo + length (ms_ghost s) + length lg).
  { rewrite (Permutation_length HP), !app_length. lia. }
  rewrite A3. pose proof (wf_rev_len Hw) as HLr.
  set (ro := if ms_have_rev s then _ else _).
  assert (HR : exists rev', ro = Ok rev' /\ length rev' = length (ms_rev s) /\
     (ms_have_rev s = true -> ms_ghost s = [] -> all' = ms_owned s ++ lo ++ lg ->
       (forall k e, length (ms_owned s) <= k -> nth_error all' k = Some e -> nth_error rev' e = Some (Z.of_nat k)) /\
       (forall e, ~ In e l -> nth_error rev' e = nth_error (ms_rev s) e))).
  { unfold ro. destruct (ms_have_rev s); [|eexists; split; [reflexivity|]; split; auto; discriminate].
    destruct (@reindex_range_spec all' HNa (length lo) (length (ms_owned s)) (ms_rev s1)) as (r1 & E1 & L1 & P1 & Q1); [lia| |].
    { intros e He. rewrite A6, HLr. auto. }
    rewrite E1; cbn [bind].
    destruct (@reindex_range_spec all' HNa (length lg) (length (ms_owned s) + length lo + length (ms_ghost s)) r1) as (r2 & E2 & L2 & P2 & Q2); [lia| |].
    { intros e He. rewrite L1, A6, HLr. auto. }
    exists r2. split; auto. split; [lia|]. intros _ Hg Hall. rewrite Hg in *. simpl in *. split.
    - intros k e Hk Ek. destruct (Nat.lt_ge_cases k (length (ms_owned s) + length lo)) as [Hlt2|Hge].
      + rewrite Q2; [apply P1; auto; lia|]. intros k' Hk' Ek'. rewrite NoDup_nth_error in HNa.
        assert (k = k'); [|lia]. apply HNa; [eapply nth_error_lt; eauto|congruence].
      + apply P2; auto. pose proof (nth_error_lt _ _ Ek). lia.
    - intros e He. 
      assert (Hout : forall k, length (ms_owned s) <= k -> nth_error all' k <> Some e).
      { intros k Hk Ek. rewrite Hall in Ek. rewrite nth_error_app2 in Ek by auto. apply nth_error_In in Ek.
        apply He, Hmem. apply in_app_or in Ek. tauto. }
      rewrite Q2, Q1; [apply A8; auto|intros k Hk; apply Hout; lia|intros k Hk; apply Hout; lia]. }
  destruct HR as (rev' & -> & HL' & HRI). cbn [bind]. eexists; split; [reflexivity|]. cbn [ms_owned ms_ghost ms_all ms_name ms_kind ms_have_rev].
  rewrite A1, A2. 
  assert (Hw' : wf_set types (MSet (ms_name s1) (ms_kind s1) (ms_owned s ++ lo) (ms_ghost s ++ lg) all' (ms_have_rev s) rev')).
  { constructor; cbn; auto.
    - intros x Hx. apply in_app_or in Hx as [Hx|Hx]; [apply (wf_owned_type Hw); auto|apply filter_In in Hx as [_ Hx]; apply is_type_true in Hx; auto].
    - intros x Hx. apply in_app_or in Hx as [Hx|Hx]; [apply (wf_ghost_type Hw); auto|apply filter_In in Hx as [_ Hx]; apply is_type_true in Hx; auto].
    - congruence. }
  assert (Hord : ms_ghost s ++ lg <> [] \/ ms_owned s = [] \/ l = [] -> all' = (ms_owned s ++ lo) ++ ms_ghost s ++ lg).
  { intros HC. unfold all'. destruct (ms_ghost s1) as [|g0 gr] eqn:Eg.
    - symmetry in A2. destruct HC as [HC|HC]; [congruence|]. apply app_eq_nil in A2 as [Eg0 Elg]. destruct (A7 Elg) as [El ->].
      unfold ordered in Ho. rewrite Ho, Eg0, Elg, El. cbn. rewrite !app_nil_r. destruct HC as [HC|HC]; rewrite HC; cbn; rewrite ?app_nil_r; reflexivity.
    - rewrite <- A1, <- A2. reflexivity. }
  split; [exact Hw'|]. split; [reflexivity|]. split; [reflexivity|]. split; [exact Hin'|]. split; [auto|]. split; [auto|]. split; [auto|].
  split; [exact Hord|].
  intros (_ & _ & HI) Hg HC. split; [exact Hw'|]. split; [apply Hord; tauto|]. cbn. intros Hr. specialize (HI Hr).
  assert (Hall : all' = ms_owned s ++ lo ++ lg) by (rewrite Hord by tauto; rewrite Hg, <- app_assoc; reflexivity).
  destruct (HRI Hr Hg Hall) as [R1 R2]. destruct (index_agrees_rev Hw Hr HI) as [I1 I2]. rewrite Hr in HLr.
  assert (Hos : ms_all s = ms_owned s) by (unfold ordered in Ho; rewrite Ho, Hg, app_nil_r; reflexivity).
  apply rev_index_agrees; cbn.
  - congruence.
  - intros k e Ek. destruct (Nat.lt_ge_cases k (length (ms_owned s))) as [Hlt2|Hge]; [|apply R1; auto].
    rewrite Hall, nth_error_app1 in Ek by auto. rewrite <- Hos in Ek. rewrite R2; [apply I1; auto|].
    intros Hin. apply (Hd e Hin). eapply nth_error_In; eauto.
  - intros e He Hn. rewrite R2; [apply I2; auto|]; intros Hx; apply Hn, Hin'; auto.
Qed.

(** all-ghost arguments: undefined behaviour, always *)
Lemma add_entities_all_ghost types s l : l <> [] -> (forall e, In e l -> nth_error types e = Some PARALLEL_GHOST) ->
  add_entities types s l = UB.
Proof.
  intros Hl Hg. unfold add_entities. rewrite count_in_spec by (intros e He; eapply nth_error_lt; eauto). cbn [bind].
  rewrite (filter_all (is_type types PARALLEL_GHOST)) by (intros e He; apply is_type_true; auto).
  assert (E : filter (is_type types PARALLEL_OWNED) l = []).
  { apply filter_len_none. assert (forall m, incl m l -> length (filter (is_type types PARALLEL_OWNED) m) = 0) as H; [|apply H, incl_refl].
    induction m as [|x m IH]; intros Hi; auto. cbn [filter]. unfold is_type at 1. rewrite (Hg x) by (apply Hi; left; auto).
    cbn. apply IH. intros y Hy; apply Hi; right; auto. }
  rewrite E. destruct l as [|x l]; [congruence|]. cbn [length]. rewrite Nat.eqb_refl. reflexivity.
Qed.

(** ** C10-C13: the free functions *)
Lemma push_missing_spec : forall l acc, NoDup acc -> NoDup (push_missing l acc) /\
  (forall x, In x (push_missing l acc) <-> In x acc \/ In x l) /\ exists m, push_missing l acc = acc ++ m.
Proof.
  induction l as [|e l IH]; intros acc HN; cbn [push_missing].
  - split; auto. split; [simpl; tauto|exists []; rewrite app_nil_r; auto].
  - destruct (memb e acc) eqn:Em.
    + destruct (IH acc HN) as (A & B & C). split; auto. split; auto. intros x. rewrite B. apply memb_spec in Em. simpl.
      split; [tauto|]. intros [|[<-|]]; auto.
    + apply memb_false in Em. destruct (IH (acc ++ [e])) as (A & B & (m & C)).
      { apply NoDup_app_iff. split; auto. split; [repeat constructor; auto|]. intros x Hx [<-|[]]; auto. }
      split; auto. split; [intros x; rewrite B, in_app_iff; simpl; tauto|]. exists (e :: m). rewrite C, <- app_assoc. reflexivity.
Qed.

Lemma push_sets_spec h sel p0 : forall ps acc, NoDup acc -> NoDup (push_sets h sel p0 ps acc) /\
  (forall x, In x (push_sets h sel p0 ps acc) <-> In x acc \/ exists p, In p ps /\ p <> p0 /\ In x (sel (h p))).
Proof.
  induction ps as [|p ps IH]; intros acc HN; cbn [push_sets].
  - split; auto. intros x. split; auto. intros [|(p & [] & _)]; auto.
  - destruct (Nat.eqb_spec p p0) as [->|Hp].
    + destruct (IH acc HN) as (A & B). split; auto. intros x. rewrite B. split; intros [|(q & Hq & Hq2 & Hq3)]; auto; right.
      * exists q; simpl; auto.
      * destruct Hq as [<-|Hq]; [tauto|]. exists q; auto.
    + destruct (push_missing_spec (sel (h p)) HN) as (A1 & B1 & _). destruct (IH _ A1) as (A & B). split; auto.
      intros x. rewrite B, B1. split.
      * intros [[|]|(q & Hq & Hq2 & Hq3)]; auto; right; [exists p; simpl; auto|exists q; simpl; auto].
      * intros [|(q & [<-|Hq] & Hq2 & Hq3)]; auto. right. exists q; auto.
Qed.

Definition members (s : mset) : nat -> Prop := fun e => In e (ms_all s).

Lemma same_kind_true h p0 ps : same_kind h p0 ps = true <-> forall p, In p ps -> ms_kind (h p) = ms_kind (h p0).
Proof.
  unfold same_kind. rewrite forallb_forall. split; intros H p Hp; specialize (H p Hp).
  - apply orb_true_iff in H as [H|H]; [apply Nat.eqb_eq in H; subst; auto|apply kind_eqb_spec in H; auto].
  - apply orb_true_iff. right. apply kind_eqb_spec; auto.
Qed.

Lemma has_rev_index types s s0 : consistent types s -> wf_set types s0 -> ms_have_rev s = has_rev s0 -> ms_have_rev s0 = true ->
  index_agrees types s.
Proof.
  intros (W & O & I) W0 E E0. destruct types as [|t ts]; [intros e He; simpl in He; lia|]. apply I. rewrite E. unfold has_rev.
  pose proof (wf_rev_len W0) as HL. rewrite E0 in HL. destruct (ms_rev s0); [discriminate|reflexivity].
Qed.

Lemma merge_ok types h ps : ps <> [] -> (forall p, In p ps -> consistent types (h p)) ->
  (forall p q, In p ps -> In q ps -> ms_kind (h p) = ms_kind (h q)) ->
  exists r, merge types h ps = Ok r /\ consistent types (deref h r) /\
    (forall p, In p ps -> ms_kind (deref h r) = ms_kind (h p)) /\
    (forall x, In x (ms_owned (deref h r)) <-> exists p, In p ps /\ In x (ms_owned (h p))) /\
    (forall x, In x (ms_ghost (deref h r)) <-> exists p, In p ps /\ In x (ms_ghost (h p))) /\
    ((forall p, In p ps -> ms_have_rev (h p) = true) -> index_agrees types (deref h r)).
Proof.
  intros Hne Hc Hk. destruct ps as [|p0 [|p1 ps]]; [tauto| |].
  - exists (Existing p0). split; [reflexivity|]. cbn [deref]. split; [apply Hc; left; auto|].
    split; [intros p [<-|[]]; auto|]. rewrite <- and_assoc. split; [|intros HR; apply (Hc p0); [left; auto|apply HR; left; auto]].
    split; intros x; (split; [exists p0; simpl; auto|intros (p & [<-|[]] & Hx); auto]).
  - unfold merge. remember (p0 :: p1 :: ps) as P eqn:EP.
    assert (Hp0 : In p0 P) by (subst; left; auto).
    replace (same_kind h p0 P) with true by (symmetry; apply same_kind_true; intros; apply Hk; auto). cbn [negb].
    destruct (Hc p0 Hp0) as (W0 & _ & _).
    destruct (push_sets_spec h ms_owned p0 P (wf_owned_nodup W0)) as [NO IO].
    destruct (push_sets_spec h ms_ghost p0 P (wf_ghost_nodup W0)) as [NG IG].
    assert (IO' : forall x, In x (push_sets h ms_owned p0 P (ms_owned (h p0))) <-> exists p, In p P /\ In x (ms_owned (h p))).
    { intros x. rewrite IO. split; [intros [|(p & H1 & _ & H2)]; eauto|]. intros (p & H1 & H2). destruct (Nat.eq_dec p p0) as [->|]; auto. right; exists p; auto. }
    assert (IG' : forall x, In x (push_sets h ms_ghost p0 P (ms_ghost (h p0))) <-> exists p, In p P /\ In x (ms_ghost (h p))).
    { intros x. rewrite IG. split; [intros [|(p & H1 & _ & H2)]; eauto|]. intros (p & H1 & H2). destruct (Nat.eq_dec p p0) as [->|]; auto. right; exists p; auto. }
    destruct (@make_set_ok types (names_cat h "_PLUS_"%string p0 P ("(" ++ ms_name (h p0) ++ ")")%string) (ms_kind (h p0))
       _ _ (has_rev (h p0)) NO NG) as (s & E & C & _ & K & O & G & RV).
    { intros e He. apply IO' in He as (p & Hp & He). apply (wf_owned_type (proj1 (Hc p Hp))); auto. }
    { intros e He. apply IG' in He as (p & Hp & He). apply (wf_ghost_type (proj1 (Hc p Hp))); auto. }
    rewrite E; cbn [bind]. exists (Fresh s). split; auto. cbn [deref]. split; auto.
    split; [intros p Hp; rewrite K; apply Hk; auto|].
    split; [intros x; rewrite O; auto|]. split; [intros x; rewrite G; auto|].
    intros HR. eapply has_rev_index; eauto.
Qed.

Lemma not_in_spec l u x : In x (not_in l u) <-> In x l /\ ~ In x u.
Proof. unfold not_in. rewrite filter_In. rewrite negb_true_iff, memb_false. tauto. Qed.
Lemma not_in_nodup l u : NoDup l -> NoDup (not_in l u).
Proof. apply NoDup_filter. Qed.

Lemma subtract_ok types h p0 ps : ps <> [] -> (forall p, In p (p0 :: ps) -> consistent types (h p)) ->
  (forall p, In p ps -> ms_kind (h p) = ms_kind (h p0)) ->
  exists s, subtract types h p0 ps = Ok s /\ consistent types s /\ ms_kind s = ms_kind (h p0) /\
    (forall x, In x (ms_owned s) <-> In x (ms_owned (h p0)) /\ forall p, In p ps -> ~ In x (ms_owned (h p))) /\
    (forall x, In x (ms_ghost s) <-> In x (ms_ghost (h p0)) /\ forall p, In p ps -> ~ In x (ms_ghost (h p))) /\
    (ms_have_rev (h p0) = true -> index_agrees types s).
Proof.
  intros Hne Hc Hk. unfold subtract.
  replace (forallb _ ps) with true.
  2:{ symmetry. apply forallb_forall. intros p Hp. apply kind_eqb_spec. symmetry; auto. }
  cbn [negb]. destruct (@merge_ok types h ps) as (r & E & C & K & O & G & _); auto.
  { intros p Hp; apply Hc; right; auto. }
  { intros p q Hp Hq. rewrite (Hk p), (Hk q); auto. }
  rewrite E; cbn [bind]. destruct (Hc p0 (or_introl eq_refl)) as (W0 & _ & _).
  destruct (@make_set_ok types ("(" ++ ms_name (h p0) ++ ")_MINUS_(" ++ ms_name (deref h r) ++ ")")%string (ms_kind (h p0))
     (not_in (ms_owned (h p0)) (ms_owned (deref h r))) (not_in (ms_ghost (h p0)) (ms_ghost (deref h r))) (has_rev (h p0))) as (s & E2 & C2 & _ & K2 & O2 & G2 & RV).
  { apply not_in_nodup, W0. } { apply not_in_nodup, W0. }
  { intros e He. apply not_in_spec in He as [He _]. apply (wf_owned_type W0); auto. }
  { intros e He. apply not_in_spec in He as [He _]. apply (wf_ghost_type W0); auto. }
  exists s. split; auto. split; auto. split; auto. rewrite <- and_assoc. split; [|intros HR; eapply has_rev_index; eauto].
  split; intros x.
  - rewrite O2, not_in_spec, O. split; intros [A B]; split; auto; [intros p Hp Hx; apply B; eauto|intros (p & Hp & Hx); eapply B; eauto].
  - rewrite G2, not_in_spec, G. split; intros [A B]; split; auto; [intros p Hp Hx; apply B; eauto|intros (p & Hp & Hx); eapply B; eauto].
Qed.

Lemma in_all_spec h sel p0 ps e : In e (sel (h p0)) -> (in_all h sel p0 ps e = true <-> forall p, In p ps -> In e (sel (h p))).
Proof.
  intros H0. unfold in_all. rewrite forallb_forall. split; intros H p Hp; specialize (H p Hp).
  - apply orb_true_iff in H as [H|H]; [apply Nat.eqb_eq in H; subst; auto|apply memb_spec in H; auto].
  - apply orb_true_iff. right. apply memb_spec; auto.
Qed.

Lemma intersect_ok types h ps : ps <> [] -> (forall p, In p ps -> consistent types (h p)) ->
  (forall p q, In p ps -> In q ps -> ms_kind (h p) = ms_kind (h q)) ->
  exists s, intersect types h ps = Ok s /\ consistent types s /\
    (forall p, In p ps -> ms_kind s = ms_kind (h p)) /\
    (forall x, In x (ms_owned s) <-> forall p, In p ps -> In x (ms_owned (h p))) /\
    (forall x, In x (ms_ghost s) <-> forall p, In p ps -> In x (ms_ghost (h p))) /\
    ((forall p, In p ps -> ms_have_rev (h p) = true) -> index_agrees types s).
Proof.
  intros Hne Hc Hk. destruct ps as [|p0 ps']; [tauto|]. unfold intersect. remember (p0 :: ps') as P eqn:EP.
  assert (Hp0 : In p0 P) by (subst; left; auto).
  replace (same_kind h p0 P) with true by (symmetry; apply same_kind_true; intros; apply Hk; auto). cbn [negb].
  destruct (Hc p0 Hp0) as (W0 & _ & _).
  destruct (@make_set_ok types (names_cat h "_INTERSECT_"%string p0 P ("(" ++ ms_name (h p0) ++ ")")%string) (ms_kind (h p0))
     (filter (in_all h ms_owned p0 P) (ms_owned (h p0))) (filter (in_all h ms_ghost p0 P) (ms_ghost (h p0))) (has_rev (h p0))) as (s & E2 & C2 & _ & K2 & O2 & G2 & RV).
  { apply NoDup_filter, W0. } { apply NoDup_filter, W0. }
  { intros e He. apply filter_In in He as [He _]. apply (wf_owned_type W0); auto. }
  { intros e He. apply filter_In in He as [He _]. apply (wf_ghost_type W0); auto. }
  exists s. split; auto. split; auto. split; [intros p Hp; rewrite K2; apply Hk; auto|].
  rewrite <- and_assoc. split; [|intros HR; eapply has_rev_index; eauto]. split; intros x.
  - rewrite O2, filter_In. split; [intros [A B]; rewrite in_all_spec in B; auto|]. intros H. assert (H0 := H p0 Hp0). rewrite in_all_spec; auto.
  - rewrite G2, filter_In. split; [intros [A B]; rewrite in_all_spec in B; auto|]. intros H. assert (H0 := H p0 Hp0). rewrite in_all_spec; auto.
Qed.

Lemma count_owned_first t no ng : count_type (owned_first no ng) t =
  match t with PARALLEL_OWNED => no | PARALLEL_GHOST => ng | _ => 0 end.
Proof.
  unfold count_type, owned_first. rewrite filter_app, app_length.
  assert (H1 : forall u n, length (filter (type_eqb t) (repeat u n)) = if type_eqb t u then n else 0).
  { intros u n. induction n as [|n IH]; cbn [repeat filter]; [destruct (type_eqb _ _); auto|].
    destruct (type_eqb t u); cbn [length]; auto. }
  rewrite !H1. destruct t; cbn; lia.
Qed.
Lemma owned_first_nth no ng e t : nth_error (owned_first no ng) e = Some t <->
  (e < no /\ t = PARALLEL_OWNED) \/ (no <= e < no + ng /\ t = PARALLEL_GHOST).
Proof.
  unfold owned_first. destruct (Nat.lt_ge_cases e no) as [H|H].
  - rewrite nth_error_app1 by (rewrite repeat_length; auto). rewrite nth_error_repeat by auto. split; [intros E; injection E; auto|].
    intros [[_ ->]|[? _]]; auto; lia.
  - rewrite nth_error_app2 by (rewrite repeat_length; auto). rewrite repeat_length.
    destruct (Nat.lt_ge_cases e (no + ng)) as [H2|H2].
    + rewrite nth_error_repeat by lia. split; [intros E; injection E; auto|]. intros [[? _]|[_ ->]]; auto; lia.
    + split; [|lia]. intros E. apply nth_error_lt in E. rewrite repeat_length in E. lia.
Qed.

(** complement is right for the owned entities when the mesh has no ghosts *)
Lemma complement_ok no h ps : ps <> [] -> (forall p, In p ps -> consistent (owned_first no 0) (h p)) ->
  (forall p q, In p ps -> In q ps -> ms_kind (h p) = ms_kind (h q)) ->
  exists s, complement (owned_first no 0) h ps = Ok s /\ consistent (owned_first no 0) s /\
    (forall p, In p ps -> ms_kind s = ms_kind (h p)) /\
    (forall x, In x (ms_owned s) <-> x < no /\ forall p, In p ps -> ~ In x (ms_owned (h p))) /\ ms_ghost s = [] /\
    ((forall p, In p ps -> ms_have_rev (h p) = true) -> index_agrees (owned_first no 0) s).
Proof.
  intros Hne Hc Hk. destruct ps as [|p0 ps']; [tauto|]. unfold complement. remember (p0 :: ps') as P eqn:EP.
  assert (Hp0 : In p0 P) by (subst; left; auto).
  destruct (@merge_ok (owned_first no 0) h P) as (r & E & C & K & O & G & _); auto.
  rewrite E; cbn [bind]. rewrite !count_owned_first.
  destruct C as (WC & _ & _).
  assert (Hlen : length (ms_owned (deref h r)) <= no).
  { rewrite <- (seq_length no 0). apply NoDup_incl_length; [apply WC|]. intros x Hx. apply (wf_owned_type WC) in Hx.
    apply owned_first_nth in Hx. apply in_seq. lia. }
  assert (Hgh : ms_ghost (deref h r) = []).
  { destruct (ms_ghost (deref h r)) as [|g gs] eqn:Eg; auto. assert (Hx : In g (ms_ghost (deref h r))) by (rewrite Eg; left; auto).
    apply (wf_ghost_type WC) in Hx. apply owned_first_nth in Hx. destruct Hx as [[_ ?]|[? _]]; [discriminate|lia]. }
  rewrite Hgh. cbn [length]. destruct (Nat.ltb_spec no (length (ms_owned (deref h r)))); [lia|]. cbn [orb Nat.ltb Nat.leb seq].
  replace (0 <? 0) with false by reflexivity. 
  destruct (@make_set_ok (owned_first no 0) ("NOT_(" ++ ms_name (deref h r) ++ ")")%string (ms_kind (h p0))
     (not_in (seq 0 no) (ms_owned (deref h r))) [] (has_rev (h p0))) as (s & E2 & C2 & _ & K2 & O2 & G2 & RV).
  { apply not_in_nodup, seq_NoDup. } { constructor. }
  { intros e He. apply not_in_spec in He as [He _]. apply in_seq in He. apply owned_first_nth. left; split; [lia|auto]. }
  { intros e []. }
  exists s. split; [exact E2|]. split; auto. split; [intros p Hp; rewrite K2; apply Hk; auto|].
  split; [|split; [auto|intros HR; apply (has_rev_index C2 (proj1 (Hc p0 Hp0)) RV); auto]]. intros x.
  rewrite O2, not_in_spec, O, in_seq. split; intros [A B]; split; [lia| |lia|]; [intros p Hp Hx; apply B; eauto|intros (p & Hp & Hx); eapply B; eauto].
Qed.

(** ** C14: the registry *)
Lemma find_set_first h reg name kind p : find_set h reg name kind = Some p <->
  exists r1 r2, reg = r1 ++ p :: r2 /\ ms_name (h p) = name /\ ms_kind (h p) = kind /\
    forall q, In q r1 -> ~ (ms_name (h q) = name /\ ms_kind (h q) = kind).
Proof.
  induction reg as [|q reg IH]; cbn [find_set].
  - split; [discriminate|]. intros ([|? ?] & r2 & E & _); discriminate.
  - destruct (String.eqb (ms_name (h q)) name && kind_eqb (ms_kind (h q)) kind)%bool eqn:Eb.
    + apply andb_true_iff in Eb as [E1 E2]. apply String.eqb_eq in E1. apply kind_eqb_spec in E2. split.
      * intros E; injection E as <-. exists [], reg. repeat (split; [solve [auto]|]). intros q0 [].
      * intros ([|a r1] & r2 & E & A & B & C); injection E as -> ->; auto. exfalso. apply (C a); [left; auto|auto].
    + apply andb_false_iff in Eb.
      assert (Hq : ~ (ms_name (h q) = name /\ ms_kind (h q) = kind)).
      { intros [A B]. destruct Eb as [Eb|Eb]; [apply String.eqb_neq in Eb; auto|]. apply kind_eqb_spec in B. congruence. }
      rewrite IH. split.
      * intros (r1 & r2 & -> & A & B & C). exists (q :: r1), r2. split; auto. split; auto. split; auto. intros x [<-|Hx]; auto.
      * intros ([|a r1] & r2 & E & A & B & C); injection E as -> ->.
        -- tauto.
        -- exists r1, r2. split; auto. split; auto. split; auto. intros x Hx; apply C; right; auto.
Qed.
Lemma find_set_none h reg name kind : find_set h reg name kind = None <->
  forall q, In q reg -> ~ (ms_name (h q) = name /\ ms_kind (h q) = kind).
Proof.
  destruct (find_set h reg name kind) as [p|] eqn:E.
  - split; [discriminate|]. intros H. apply find_set_first in E as (r1 & r2 & -> & A & B & _).
    exfalso. apply (H p); auto. apply in_or_app; right; left; auto.
  - split; auto. intros _ q Hq [A B]. revert E Hq A B. induction reg as [|a reg IH]; cbn [find_set]; intros E; [intros []|].
    destruct (String.eqb (ms_name (h a)) name && kind_eqb (ms_kind (h a)) kind)%bool eqn:Eb; [discriminate|].
    intros [->|Hq] A B; [|apply IH; auto]. subst. rewrite String.eqb_refl in Eb. cbn in Eb.
    assert (kind_eqb (ms_kind (h q)) (ms_kind (h q)) = true) by (apply kind_eqb_spec; auto). congruence.
Qed.
Lemma find_set_ext h h' reg name kind : (forall p, In p reg -> h p = h' p) -> find_set h reg name kind = find_set h' reg name kind.
Proof.
  induction reg as [|p reg IH]; cbn [find_set]; intros H; auto. rewrite (H p) by (left; auto).
  rewrite IH by (intros q Hq; apply H; right; auto). reflexivity.
Qed.
Lemma find_set_app h r1 r2 name kind : find_set h (r1 ++ r2) name kind =
  match find_set h r1 name kind with Some p => Some p | None => find_set h r2 name kind end.
Proof. induction r1 as [|p r1 IH]; cbn [find_set app]; auto. destruct (_ && _)%bool; auto. Qed.

(** pointers in use are below the fresh pointer *)
Definition reg_ok (R : registry) : Prop := forall p, In p (regs R) -> p < next R.

Lemma make_meshset_ok types R name kind owned ghost b R' p : reg_ok R ->
  make_meshset types R name kind owned ghost b = Ok (R', p) ->
  reg_ok R' /\ regs R' = regs R ++ [p] /\ ~ In p (regs R) /\
  ms_name (heap R' p) = name /\ ms_kind (heap R' p) = kind /\ ms_owned (heap R' p) = owned /\ ms_ghost (heap R' p) = ghost /\
  (forall q, In q (regs R) -> heap R' q = heap R q).
Proof.
  intros HR. unfold make_meshset. intros E. apply bind_Ok in E as (s & Es & E). injection E as <- <-. cbn [heap regs next].
  assert (Hs : ms_name s = name /\ ms_kind s = kind /\ ms_owned s = owned /\ ms_ghost s = ghost).
  { unfold make_set in Es. destruct b; [apply bind_Ok in Es as (rv & _ & Es)|]; injection Es as <-; cbn; auto. }
  destruct Hs as (A & B & C & D). rewrite Nat.eqb_refl.
  split; [|split; auto; split; [intros Hin; apply HR in Hin; lia|]].
  - intros q Hq. cbn [regs next] in *. apply in_app_or in Hq as [Hq|[<-|[]]]; [apply HR in Hq|]; lia.
  - repeat (split; [solve [auto]|]). intros q Hq. apply HR in Hq. destruct (Nat.eqb_spec q (next R)); auto; lia.
Qed.
