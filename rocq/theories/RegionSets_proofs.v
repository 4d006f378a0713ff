From Coq Require Import Reals String Sorted.
From Verif Require Import Base Loop Defs MeshSet MeshSet_spec MeshSet_proofs MeshSet_proofs3 Point Regions RegionSets RegionSets_spec.
Set Implicit Arguments.

Definition yes (o : outcome bool) : bool := match o with Ok b => b | _ => false end.
Lemma keep_ok test l : (forall e, In e l -> exists b, test e = Ok b) -> keep test l = Ok (filter (fun e => yes (test e)) l).
Proof.
  induction l as [|e l IH]; intros H; cbn [keep filter]; auto. destruct (H e (or_introl eq_refl)) as [b E]. rewrite E. cbn [bind yes].
  rewrite IH by (intros; apply H; right; auto). cbn [bind]. auto.
Qed.
Lemma keep_inv test l x : keep test l = Ok x -> x = filter (fun e => yes (test e)) l /\ forall e, In e l -> exists b, test e = Ok b.
Proof.
  revert x; induction l as [|e l IH]; intros x E; cbn [keep filter] in *; [injection E as <-; split; auto; intros ? []|].
  apply bind_Ok in E as (b & E1 & E). apply bind_Ok in E as (y & E2 & E). injection E as <-. destruct (IH _ E2) as [-> H].
  rewrite E1. cbn [yes]. split; [destruct b; auto|]. intros e' [<-|I]; eauto.
Qed.
Definition is_type (types : list entity_type) (t : entity_type) (e : nat) : bool :=
  match nth_error types e with Some t' => type_eqb t' t | None => false end.
Lemma is_type_spec types t e : is_type types t e = true <-> nth_error types e = Some t.
Proof.
  unfold is_type. destruct (nth_error types e) as [t'|]; [|split; discriminate]. rewrite type_eqb_spec. split; congruence.
Qed.
Lemma by_type_ok types l : (forall e, In e l -> e < length types) ->
  by_type types l = Ok (filter (is_type types PARALLEL_OWNED) l, filter (is_type types PARALLEL_GHOST) l).
Proof.
  induction l as [|e l IH]; intros H; cbn [by_type filter]; auto. unfold rd.
  assert (A : forall t, is_type types t e = match nth_error types e with Some t' => type_eqb t' t | None => false end) by reflexivity. rewrite !A. clear A.
  destruct (nth_error types e) as [t|] eqn:E; [|apply nth_error_None in E; specialize (H e (or_introl eq_refl)); lia].
  cbn [bind]. rewrite IH by (intros; apply H; right; auto). cbn [bind fst snd]. destruct t; reflexivity.
Qed.
Lemma sorted_filter (f : nat -> bool) l : StronglySorted lt l -> StronglySorted lt (filter f l).
Proof.
  induction 1 as [|a l Hs IH Hf]; cbn [filter]; [constructor|]. destruct (f a); auto. constructor; auto.
  apply Forall_forall. intros x I. apply filter_In in I as [I _]. rewrite Forall_forall in Hf. auto.
Qed.
Lemma sorted_seq n : forall s, StronglySorted lt (seq s n).
Proof.
  induction n as [|n IH]; intros s; cbn [seq]; constructor; auto. apply Forall_forall. intros x I. apply in_seq in I. lia.
Qed.
Lemma sorted_NoDup l : StronglySorted lt l -> NoDup l.
Proof.
  induction 1 as [|a l Hs IH Hf]; constructor; auto. intros I. rewrite Forall_forall in Hf. apply Hf in I. lia.
Qed.

(** the numbering *)
Lemma nth_repeat_some A (x : A) n i : nth_error (repeat x n) i = if (i <? n)%nat then Some x else None.
Proof.
  revert i; induction n as [|n IH]; intros [|i]; cbn [repeat nth_error]; auto. rewrite IH. cbn. auto.
Qed.
Lemma numbered_nth no ng nb e : nth_error (owned_first no ng ++ repeat BOUNDARY_GHOST nb) e =
  if (e <? no)%nat then Some PARALLEL_OWNED else if (e <? no + ng)%nat then Some PARALLEL_GHOST
  else if (e <? no + ng + nb)%nat then Some BOUNDARY_GHOST else None.
Proof.
  unfold owned_first. rewrite <- app_assoc.
  destruct (Nat.ltb_spec e no).
  - rewrite nth_error_app1 by (rewrite repeat_length; auto). rewrite nth_repeat_some.
    destruct (Nat.ltb_spec e no); auto; lia.
  - rewrite nth_error_app2 by (rewrite repeat_length; auto). rewrite repeat_length. destruct (Nat.ltb_spec e (no + ng)).
    + rewrite nth_error_app1 by (rewrite repeat_length; lia). rewrite nth_repeat_some. destruct (Nat.ltb_spec (e - no) ng); auto; lia.
    + rewrite nth_error_app2 by (rewrite repeat_length; lia). rewrite repeat_length, nth_repeat_some.
      destruct (Nat.ltb_spec (e - no - ng) nb), (Nat.ltb_spec e (no + ng + nb)); auto; lia.
Qed.
Lemma count_repeat t t' n : count_type (repeat t' n) t = if type_eqb t t' then n else 0.
Proof. unfold count_type. induction n as [|n IH]; cbn [repeat filter]; [destruct (type_eqb t t'); auto|]. destruct (type_eqb t t'); cbn [length]; auto. Qed.
Lemma count_app l1 l2 t : count_type (l1 ++ l2) t = count_type l1 t + count_type l2 t.
Proof. unfold count_type. rewrite filter_app, app_length. auto. Qed.
Lemma numbered_counts no ng nb : let types := owned_first no ng ++ repeat BOUNDARY_GHOST nb in
  count_type types PARALLEL_OWNED = no /\ count_type types PARALLEL_GHOST = ng.
Proof. cbn zeta. unfold owned_first. rewrite !count_app, !count_repeat. cbn. lia. Qed.

Definition leaf_ok (types : list entity_type) (D : nat -> Prop) (o g : list nat) : Prop :=
  typed types o g /\
  (forall e, In e o <-> nth_error types e = Some PARALLEL_OWNED /\ D e) /\ (forall e, In e g <-> nth_error types e = Some PARALLEL_GHOST /\ D e).

Lemma by_type_leaf types test (D : nat -> Prop) : (forall e, e < length types -> exists b, test e = Ok b) ->
  (forall e, e < length types -> (test e = Ok true <-> D e)) ->
  exists o g, (l <- keep test (seq 0 (length types)) ;; by_type types l) = Ok (o, g) /\ leaf_ok types D o g /\ StronglySorted lt o /\ StronglySorted lt g.
Proof.
  intros HT HD. rewrite keep_ok by (intros e I; apply in_seq in I; apply HT; lia). cbn [bind]. rewrite by_type_ok.
  2: { intros e I. apply filter_In in I as [I _]. apply in_seq in I. lia. }
  eexists _, _. split; [reflexivity|].
  assert (S : forall f g, StronglySorted lt (filter f (filter g (seq 0 (length types))))) by (intros; do 2 apply sorted_filter; apply sorted_seq).
  assert (HI : forall t e, In e (filter (is_type types t) (filter (fun e => yes (test e)) (seq 0 (length types)))) <-> nth_error types e = Some t /\ D e).
  { intros t e. rewrite !filter_In, is_type_spec, in_seq. split.
    - intros (((_ & H1) & H2) & H3). split; auto. apply HD; [lia|]. unfold yes in H2. destruct (HT e H1) as [b E]. rewrite E in *. congruence.
    - intros (H1 & H2). assert (L : e < length types) by (apply nth_error_Some; congruence). repeat split; auto; [lia|].
      apply HD in H2; auto. rewrite H2. auto. }
  split; [|split; auto]. split; [split; [apply sorted_NoDup; auto|split; [apply sorted_NoDup; auto|split; intros e I; apply HI in I; tauto]]|].
  split; intros e; apply HI.
Qed.
Lemma point_test (ans : nat -> outcome point) r n : point_answers n ans r -> forall e, e < n ->
  (exists b, (p <- ans e ;; inside r p) = Ok b) /\ ((p <- ans e ;; inside r p) = Ok true <-> at_point ans r e).
Proof.
  intros H e L. destruct (H e L) as (p & b & E1 & E2). unfold at_point. rewrite E1. cbn [bind]. split; [eauto|]. split.
  - intros E. exists p. auto.
  - intros (p' & E & E'). congruence.
Qed.
Lemma all_inside_ok r l : (forall p, In p l -> exists b, inside r p = Ok b) ->
  exists b, all_inside r l = Ok b /\ (b = true <-> forall p, In p l -> inside r p = Ok true).
Proof.
  induction l as [|p l IH]; intros H; cbn [all_inside].
  - exists true. split; auto. split; auto. intros _ p [].
  - destruct (H p (or_introl eq_refl)) as [b E]. rewrite E. cbn [bind]. destruct b.
    + destruct IH as (b & E' & Hb); [intros; apply H; right; auto|]. exists b. split; auto. rewrite Hb. split.
      * intros Hl q [<-|I]; auto.
      * intros Hl q I. apply Hl. right; auto.
    + exists false. split; auto. split; [discriminate|]. intros Hl. specialize (Hl p (or_introl eq_refl)). congruence.
Qed.
Lemma points_test (ans : nat -> outcome (list point)) r n : points_answer n ans r -> forall e, e < n ->
  (exists b, (ps <- ans e ;; all_inside r ps) = Ok b) /\ ((ps <- ans e ;; all_inside r ps) = Ok true <-> at_points ans r e).
Proof.
  intros H e L. destruct (H e L) as (ps & E1 & E2). unfold at_points. rewrite E1. cbn [bind].
  destruct (@all_inside_ok r ps E2) as (b & Eb & Hb). rewrite Eb. split; [eauto|]. split.
  - intros [= ->]. exists ps. split; auto. apply Hb; auto.
  - intros (ps' & E & E'). injection E as <-. f_equal. apply Hb; auto.
Qed.
(** the first node inside *)
Lemma first_inside_ok V r : forall n s, (forall e, s <= e < s + n -> exists p b, v_node V e = Ok p /\ inside r p = Ok b) ->
  (exists e, s <= e < s + n /\ at_point (v_node V) r e /\ (forall e', s <= e' < e -> ~ at_point (v_node V) r e') /\
     first_inside V r (seq s n) = Ok [e]) \/
  ((forall e, s <= e < s + n -> ~ at_point (v_node V) r e) /\ first_inside V r (seq s n) = Ok []).
Proof.
  induction n as [|n IH]; intros s H; cbn [seq first_inside].
  - right. split; auto. intros; lia.
  - destruct (H s ltac:(lia)) as (p & b & E1 & E2). rewrite E1. cbn [bind]. rewrite E2. cbn [bind]. destruct b.
    + left. exists s. split; [lia|]. split; [exists p; auto|]. split; [intros; lia|auto].
    + assert (N : ~ at_point (v_node V) r s) by (intros (p' & A & B); congruence).
      destruct (IH (S s)) as [(e & L & A & B & C)|(A & B)]; [intros; apply H; lia| |].
      * left. exists e. split; [lia|]. split; auto. split; auto. intros e' L'. destruct (Nat.eq_dec e' s) as [->|]; auto. apply B; lia.
      * right. split; auto. intros e L. destruct (Nat.eq_dec e s) as [->|]; auto. apply A; lia.
Qed.

Lemma leaf_lists_ok V r k : numbered (v_types V CELL) -> is_logical r = false -> supported r k -> answered V r k ->
  exists o g, leaf_lists V r k = Ok (Some (o, g)) /\ leaf_ok (v_types V k) (belongs V r k) o g /\
    (match rn_shape r with SLabeled _ => True | _ => StronglySorted lt o /\ StronglySorted lt g end).
Proof.
  intros NU NL SU AN. unfold is_logical in NL.
  assert (CB : (match rn_shape r with SBox _ | SColor _ => True | _ => False end) -> point_answers (length (v_types V CELL)) (v_cell_centroid V) r ->
     exists o g, cells_by_centroid V r = Ok (o, g) /\ leaf_ok (v_types V CELL) (at_point (v_cell_centroid V) r) o g /\ StronglySorted lt o /\ StronglySorted lt g).
  { intros _ PA. destruct NU as (no & ng & nb & NU). unfold cells_by_centroid, n_type. rewrite NU in *.
    destruct (numbered_counts no ng nb) as [C1 C2]. rewrite C1, C2.
    assert (LE : length (owned_first no ng ++ repeat BOUNDARY_GHOST nb) = no + ng + nb) by (unfold owned_first; rewrite !app_length, !repeat_length; auto).
    rewrite LE in PA.
    assert (Tot : forall e, e < no + ng + nb -> exists b, (p <- v_cell_centroid V e ;; inside r p) = Ok b) by (intros e L; apply (point_test PA L)).
    rewrite !keep_ok by (intros e I; apply in_seq in I; apply Tot; lia). cbn [bind].
    eexists _, _. split; [reflexivity|]. 
    assert (S : forall f s n, StronglySorted lt (filter f (seq s n))) by (intros; apply sorted_filter, sorted_seq).
    assert (HI : forall s n e, s + n <= no + ng + nb ->
       (In e (filter (fun e => yes (p <- v_cell_centroid V e ;; inside r p)) (seq s n)) <-> s <= e < s + n /\ at_point (v_cell_centroid V) r e)).
    { intros s n e L. rewrite filter_In, in_seq. split; intros [H1 H2]; split; auto.
      - apply (point_test PA (e := e)); [lia|]. destruct (Tot e) as [b E]; [lia|]. rewrite E in *. cbn in H2. congruence.
      - apply (point_test PA (e := e)) in H2; [|lia]. rewrite H2. auto. }
    assert (H1 : forall e, In e (filter (fun e => yes (p <- v_cell_centroid V e ;; inside r p)) (seq 0 no)) <->
        nth_error (owned_first no ng ++ repeat BOUNDARY_GHOST nb) e = Some PARALLEL_OWNED /\ at_point (v_cell_centroid V) r e).
    { intros e. rewrite HI, numbered_nth by lia.
      destruct (Nat.ltb_spec e no), (Nat.ltb_spec e (no + ng)), (Nat.ltb_spec e (no + ng + nb)); intuition (try discriminate; try lia). }
    assert (H2 : forall e, In e (filter (fun e => yes (p <- v_cell_centroid V e ;; inside r p)) (seq no ng)) <->
        nth_error (owned_first no ng ++ repeat BOUNDARY_GHOST nb) e = Some PARALLEL_GHOST /\ at_point (v_cell_centroid V) r e).
    { intros e. rewrite HI, numbered_nth by lia.
      destruct (Nat.ltb_spec e no), (Nat.ltb_spec e (no + ng)), (Nat.ltb_spec e (no + ng + nb)); intuition (try discriminate; try lia). }
    split; [|split; auto]. split; [|split; auto]. split; [apply sorted_NoDup; auto|]. split; [apply sorted_NoDup; auto|].
    split; intros e I; [apply H1 in I|apply H2 in I]; tauto. }
  assert (BT : forall k test (D : nat -> Prop), (forall e, e < length (v_types V k) -> (exists b, test e = Ok b) /\ (test e = Ok true <-> D e)) ->
     exists o g, (l <- keep test (seq 0 (length (v_types V k))) ;; by_type (v_types V k) l) = Ok (o, g) /\ leaf_ok (v_types V k) D o g /\
       StronglySorted lt o /\ StronglySorted lt g).
  { intros k' test D H. apply by_type_leaf; intros e L; apply H; auto. }
  assert (LB : forall l n1 n2, (ls_entity l = n1 \/ ls_entity l = n2) -> labeled_lists V l k n1 n2 = v_labeled V l k).
  { intros l n1 n2 H. unfold labeled_lists. destruct H as [->| ->]; rewrite String.eqb_refl; cbn; auto. rewrite andb_false_r. auto. }
  assert (LT : forall l o g, v_labeled V l k = Ok (o, g) -> typed (v_types V k) o g ->
     leaf_ok (v_types V k) (fun e => exists o g, v_labeled V l k = Ok (o, g) /\ In e (o ++ g)) o g).
  { intros l o g E T. split; auto. destruct T as (_ & _ & T1 & T2). split; intros e; split.
    - intros I. split; auto. exists o, g. split; auto. apply in_or_app; auto.
    - intros (A & o' & g' & E' & I). rewrite E in E'. injection E' as <- <-. apply in_app_or in I as [I|I]; auto. apply T2 in I. congruence.
    - intros I. split; auto. exists o, g. split; auto. apply in_or_app; auto.
    - intros (A & o' & g' & E' & I). rewrite E in E'. injection E' as <- <-. apply in_app_or in I as [I|I]; auto. apply T1 in I. congruence. }
  destruct k; try (destruct SU; fail); unfold supported, answered, belongs, leaf_lists in *; destruct (rn_shape r) eqn:ES; try (destruct SU; fail); try discriminate.
  - (* node, box *) destruct (BT NODE _ _ (point_test AN)) as (o & g & E & H). unfold nodes_inside, n_all. rewrite E. cbn [bind]. eauto.
  - destruct (BT NODE _ _ (point_test AN)) as (o & g & E & H). unfold nodes_inside, n_all. rewrite E. cbn [bind]. eauto.
  - (* node, point *) unfold node_at_point, n_all.
    destruct (@first_inside_ok V r (length (v_types V NODE)) 0) as [(e & L & A & B & E)|(A & E)]; [intros e L; apply AN; lia| |]; rewrite E; cbn [bind].
    + rewrite by_type_ok by (intros e' [<-|[]]; lia). cbn [bind]. eexists _, _. split; [reflexivity|].
      assert (HI : forall t e', In e' (filter (is_type (v_types V NODE) t) [e]) <-> nth_error (v_types V NODE) e' = Some t /\
                at_point (v_node V) r e' /\ forall e'', e'' < e' -> ~ at_point (v_node V) r e'').
      { intros t e'. rewrite filter_In, is_type_spec. split.
        - intros [[<-|[]] H]. repeat split; auto. intros e'' L'. apply B. lia.
        - intros (H1 & H2 & H3). split; auto. left. destruct (lt_eq_lt_dec e e') as [[L'| ->]|L']; auto.
          + exfalso. apply (H3 e); auto.
          + exfalso. apply (B e'); [lia|auto]. }
      assert (S : forall t, StronglySorted lt (filter (is_type (v_types V NODE) t) [e])) by (intros; apply sorted_filter; repeat constructor).
      split; [|split; auto]. split; [split; [apply sorted_NoDup; auto|split; [apply sorted_NoDup; auto|split; intros e' I; apply HI in I; tauto]]|].
      split; intros e'; apply HI.
    + cbn [by_type bind]. eexists _, _. split; [reflexivity|]. split; [|split; constructor].
      split; [repeat split; try constructor; intros e []|]. split; intros e; cbn; (split; [intros []|]); intros (H1 & H2 & _);
        apply (A e); auto; split; try lia; apply nth_error_Some; congruence.
  - destruct (BT NODE _ _ (point_test AN)) as (o & g & E & H). unfold nodes_inside, n_all. rewrite E. cbn [bind]. eauto.
  - destruct AN as (o & g & E & T). rewrite LB by auto. exists o, g. split; [rewrite E; reflexivity|]. split; auto.
  - destruct (BT FACE _ _ (point_test AN)) as (o & g & E & H). unfold faces_by_centroid, n_all. rewrite E. cbn [bind]. eauto.
  - destruct (BT FACE _ _ (points_test AN)) as (o & g & E & H). unfold faces_on_plane, n_all. rewrite E. cbn [bind]. eauto.
  - destruct (BT FACE _ _ (points_test AN)) as (o & g & E & H). unfold faces_on_plane, n_all. rewrite E. cbn [bind]. eauto.
  - destruct AN as (o & g & E & T). rewrite LB by auto. exists o, g. split; [rewrite E; reflexivity|]. split; auto.
  - destruct CB as (o & g & E & H); auto. rewrite E. cbn [bind]. eauto.
  - (* cell, plane *) unfold cells_on_plane, n_all. destruct (Nat.eqb_spec (v_celldim V) 2) as [D|D].
    + destruct (BT CELL _ _ (points_test AN)) as (o & g & E & H1 & H2). rewrite E. cbn [bind]. exists o, g. split; auto. split; auto.
      destruct H1 as (T & A & B). split; auto. split; intros e; rewrite ?A, ?B; tauto.
    + cbn [bind]. eexists _, _. split; [reflexivity|]. split; [|split; constructor].
      split; [repeat split; try constructor; intros e []|]. split; intros e; cbn; tauto.
  - destruct CB as (o & g & E & H); auto. rewrite E. cbn [bind]. eauto.
  - destruct AN as (o & g & E & T). rewrite LB by auto. exists o, g. split; [rewrite E; reflexivity|]. split; auto.
Qed.
