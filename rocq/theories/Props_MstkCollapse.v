(** C98: collapsing degenerate edges. *)
From Coq Require Import QArith.
From Verif Require Import Base Loop MstkCollapse MeshSet_proofs Props_Cache.
Set Implicit Arguments. Unset Strict Implicit.
Open Scope nat_scope.

(** * Small specification *)
Definition rename (del keep v : nat) : nat := if v =? del then keep else v.
Definition other_end (m : pmesh) (e v : nat) : nat := if v =? fst (p_ends m e) then snd (p_ends m e) else fst (p_ends m e).
(** What is assumed about ME_Collapse, when it is asked to collapse an edge onto one of its vertices and does so: the edge is gone, nothing else appears,
    ids, coordinates and sets are as before, the remaining edges have the kept vertex in place of the other one, and the two lists report truthfully. *)
Record collapse_ok (coll : pmesh -> nat -> nat -> option (pmesh * list ent * list (ent * ent))) (m : pmesh) (e keep : nat)
  (m' : pmesh) (dels : list ent) (mrg : list (ent * ent)) : Prop := Collapse_ok {
  co_gone : ~ In e (p_all m' MEDGE);
  co_less : forall t, incl (p_all m' t) (p_all m t);
  co_xyz : p_xyz m' = p_xyz m;
  co_gid : p_gid m' = p_gid m;
  co_ghost : p_ghost m' = p_ghost m;
  co_sets : p_sets m' = p_sets m;
  co_ends : forall e', In e' (p_all m' MEDGE) -> p_ends m' e' =
    (rename (other_end m e keep) keep (fst (p_ends m e')), rename (other_end m e keep) keep (snd (p_ends m e')));
  co_dels : forall x, In x dels <-> alive m x = true /\ alive m' x = false;
  co_merged : forall x y, In (x, y) mrg -> fst x = fst y /\ alive m x = true /\ alive m' x = false /\ alive m' y = true;
  co_once : NoDup (map fst mrg)
}.
Definition good_collapse (coll : pmesh -> nat -> nat -> option (pmesh * list ent * list (ent * ent))) : Prop :=
  forall m e keep m' dels mrg, In e (p_all m MEDGE) -> keep = fst (p_ends m e) \/ keep = snd (p_ends m e) ->
    coll m e keep = Some (m', dels, mrg) -> collapse_ok coll m e keep m' dels mrg.
Definition same_point (a b : Q * Q * Q) : Prop := (fst (fst a) == fst (fst b) /\ snd (fst a) == snd (fst b) /\ snd a == snd b)%Q.
(** an edge too short for MSTK has its two vertices at exactly the same place *)
Definition exactly_degenerate (m : pmesh) : Prop :=
  forall e, In e (p_all m MEDGE) -> degenerate m e = true -> same_point (p_xyz m (fst (p_ends m e))) (p_xyz m (snd (p_ends m e))).
Definition ends_xyz (m : pmesh) (e : nat) : Q * Q * Q * (Q * Q * Q) := (p_xyz m (fst (p_ends m e)), p_xyz m (snd (p_ends m e))).
Definition same_ends (a b : Q * Q * Q * (Q * Q * Q)) : Prop := same_point (fst a) (fst b) /\ same_point (snd a) (snd b).

(** * Proofs *)
Lemma mtype_eqb_spec a b : mtype_eqb a b = true <-> a = b.
Proof. destruct a, b; simpl; split; congruence. Qed.
Lemma ent_eqb_spec a b : ent_eqb a b = true <-> a = b.
Proof. unfold ent_eqb. rewrite andb_true_iff, mtype_eqb_spec, Nat.eqb_eq. destruct a, b; simpl. split; [intros [-> ->]; auto|intros E; injection E; auto]. Qed.
Lemma ent_eqb_refl a : ent_eqb a a = true.
Proof. apply ent_eqb_spec. auto. Qed.
Definition ent_dec (a b : ent) : {a = b} + {a <> b}.
Proof. decide equality; [apply Nat.eq_dec|decide equality]. Defined.
Lemma alive_In m x : alive m x = true <-> In (snd x) (p_all m (fst x)).
Proof.
  unfold alive. rewrite existsb_exists. split.
  - intros (y & H & E). apply Nat.eqb_eq in E. subst. auto.
  - intros H. exists (snd x). split; auto. apply Nat.eqb_refl.
Qed.
Lemma same_refl a : same_point a a.
Proof. repeat split; reflexivity. Qed.
Lemma same_sym a b : same_point a b -> same_point b a.
Proof. intros (A & B & C). repeat split; symmetry; auto. Qed.
Lemma same_trans a b c : same_point a b -> same_point b c -> same_point a c.
Proof. intros (A & B & C) (D & E & F). repeat split; etransitivity; eauto. Qed.
Lemma len_sq_same a b c d : same_point a c -> same_point b d -> (len_sq a b == len_sq c d)%Q.
Proof.
  destruct a as [[? ?] ?], b as [[? ?] ?], c as [[? ?] ?], d as [[? ?] ?]. intros (A & B & C) (D & E & F). simpl in *.
  rewrite A, B, C, D, E, F. reflexivity.
Qed.
Lemma degenerate_same m m' e : same_ends (ends_xyz m e) (ends_xyz m' e) -> degenerate m e = degenerate m' e.
Proof.
  intros [A B]. unfold degenerate. apply eq_true_iff_eq. rewrite !Qle_bool_iff. simpl in *. rewrite (len_sq_same A B). reflexivity.
Qed.

Section Good.
Variable coll : pmesh -> nat -> nat -> option (pmesh * list ent * list (ent * ent)).
Hypothesis G : good_collapse coll.
Lemma collapse_edge_inv m e m' d g k : In e (p_all m MEDGE) -> collapse_edge coll m e = Ok (m', d, g, k) ->
  (k = fst (p_ends m e) \/ k = snd (p_ends m e)) /\ collapse_ok coll m e k m' d g.
Proof.
  intros He. unfold collapse_edge. pose proof (G (m := m) (e := e)) as G'. destruct (p_ends m e) as [v0 v1]. simpl in G'. simpl.
  destruct (p_gid m (MVERTEX, v0) <? p_gid m (MVERTEX, v1)).
  - destruct (coll m e v0) as [[[a b] c]|] eqn:C. { intros E. injection E as <- <- <- <-. split; auto. }
    destruct (coll m e v1) as [[[a b] c]|] eqn:C'; [|discriminate]. intros E. injection E as <- <- <- <-. split; auto.
  - destruct (coll m e v1) as [[[a b] c]|] eqn:C. { intros E. injection E as <- <- <- <-. split; auto. }
    destruct (coll m e v0) as [[[a b] c]|] eqn:C'; [|discriminate]. intros E. injection E as <- <- <- <-. split; auto.
Qed.
(** what the loop keeps true: [m0] is the mesh at the start *)
Record linv (m0 m : pmesh) (dels : list ent) (mrg : list (ent * ent)) : Prop := Linv {
  li_less : forall t, incl (p_all m t) (p_all m0 t);
  li_xyz : p_xyz m = p_xyz m0; li_gid : p_gid m = p_gid m0; li_ghost : p_ghost m = p_ghost m0; li_sets : p_sets m = p_sets m0;
  li_dels : forall x, In x dels <-> alive m0 x = true /\ alive m x = false;
  li_merged : forall x y, In (x, y) mrg -> fst x = fst y /\ In x dels;
  li_once : NoDup (map fst mrg)
}.
Lemma alive_less m m0 x : (forall t, incl (p_all m t) (p_all m0 t)) -> alive m x = true -> alive m0 x = true.
Proof. rewrite !alive_In. intros L H. apply (L (fst x)). auto. Qed.
Lemma linv_start m : linv m m [] [].
Proof. constructor; auto. - intros t. apply incl_refl. - intros x. simpl. split; [tauto|intros []; congruence]. - simpl. tauto. - constructor. Qed.
Lemma linv_step m0 m dels mrg e k m' d g : linv m0 m dels mrg -> collapse_ok coll m e k m' d g -> linv m0 m' (dels ++ d) (mrg ++ g).
Proof.
  intros [L1 L2 L3 L4 L5 L6 L7 L8] [C0 C1 C2 C3 C4 C5 C6 C7 C8 C9]. constructor; try congruence.
  - intros t. eapply incl_tran; eauto.
  - intros x. rewrite in_app_iff, L6, C7. destruct (alive m x) eqn:Ax.
    + pose proof (alive_less L1 Ax). intuition congruence.
    + assert (Q : alive m' x = false). { destruct (alive m' x) eqn:A'; auto. pose proof (alive_less C1 A'). congruence. }
      rewrite Q. intuition congruence.
  - intros x y H. apply in_app_iff in H as [H|H]. { destruct (L7 x y H). split; auto. apply in_app_iff. auto. }
    destruct (C8 x y H) as (A & B & C & D). split; auto. apply in_app_iff. right. apply C7. auto.
  - rewrite map_app. apply NoDup_app_iff. split; auto. split; auto. intros x H1 H2.
    apply in_map_iff in H1 as ([x1 y1] & E1 & H1). apply in_map_iff in H2 as ([x2 y2] & E2 & H2). simpl in *. subst x1 x2.
    destruct (L7 _ _ H1) as [_ D]. apply L6 in D. destruct (C8 _ _ H2) as (_ & A & _). destruct D. congruence.
Qed.
Lemma step_inv e m dels mrg m' dels' mrg' : collapse_step coll e (m, dels, mrg) = Ok (m', dels', mrg') ->
  (m' = m /\ dels' = dels /\ mrg' = mrg /\ (alive m (MEDGE, e) = true -> degenerate m e = false)) \/
  (exists k d g, alive m (MEDGE, e) = true /\ degenerate m e = true /\ (k = fst (p_ends m e) \/ k = snd (p_ends m e)) /\
     collapse_ok coll m e k m' d g /\ dels' = dels ++ d /\ mrg' = mrg ++ g).
Proof.
  unfold collapse_step. destruct (alive m (MEDGE, e)) eqn:A; simpl.
  2:{ intros E. injection E as <- <- <-. left. repeat split; congruence. }
  destruct (degenerate m e) eqn:D; simpl.
  2:{ intros E. injection E as <- <- <-. left. repeat split; congruence. }
  intros E. apply bind_inv in E as ([[[m1 d] g] k] & E1 & E2). injection E2 as <- <- <-.
  assert (He : In e (p_all m MEDGE)) by (apply alive_In in A; auto).
  destruct (collapse_edge_inv He E1) as [K C]. right. exists k, d, g. auto 10.
Qed.
Lemma loop_linv m m' dels mrg : collapse_loop coll m = Ok (m', dels, mrg) -> linv m m' dels mrg.
Proof.
  unfold collapse_loop.
  assert (Z : forall l a da ga, linv m a da ga -> forall r, foldM l (collapse_step coll) (a, da, ga) = Ok r -> linv m (fst (fst r)) (snd (fst r)) (snd r)).
  { induction l as [|e l IH]; intros a da ga I r E; simpl in E. { injection E as <-. auto. }
    apply bind_inv in E as ([[a' d'] g'] & E1 & E2). destruct (step_inv E1) as [(-> & -> & -> & _)|(k & d & g & _ & _ & _ & C & -> & ->)].
    - eapply IH; eauto.
    - eapply IH; [|eauto]. eapply linv_step; eauto. }
  intros E. apply (Z _ _ _ _ (linv_start m) _ E).
Qed.
(** geometry *)
Lemma rename_same m0 m e k e' m' d g : p_xyz m = p_xyz m0 -> collapse_ok coll m e k m' d g -> k = fst (p_ends m e) \/ k = snd (p_ends m e) ->
  same_point (p_xyz m (fst (p_ends m e))) (p_xyz m (snd (p_ends m e))) -> In e' (p_all m' MEDGE) ->
  same_ends (ends_xyz m' e') (ends_xyz m e').
Proof.
  intros X C K S H. unfold ends_xyz. rewrite (co_ends C H), (co_xyz C). simpl.
  assert (R : forall v, same_point (p_xyz m (rename (other_end m e k) k v)) (p_xyz m v)).
  { intros v. unfold rename. destruct (Nat.eqb_spec v (other_end m e k)) as [E|]; [|apply same_refl]. rewrite E. unfold other_end.
    destruct K as [-> | ->]. { rewrite Nat.eqb_refl. auto. }
    destruct (Nat.eqb_spec (snd (p_ends m e)) (fst (p_ends m e))); [apply same_refl|]. apply same_sym. auto. }
  split; apply R.
Qed.
Lemma loop_edges m m' dels mrg : exactly_degenerate m -> collapse_loop coll m = Ok (m', dels, mrg) ->
  forall e, In e (p_all m' MEDGE) -> degenerate m' e = false /\ same_ends (ends_xyz m' e) (ends_xyz m e).
Proof.
  intros X0. unfold collapse_loop.
  set (P := fun a : pmesh => p_xyz a = p_xyz m /\ incl (p_all a MEDGE) (p_all m MEDGE) /\ forall e, In e (p_all a MEDGE) -> same_ends (ends_xyz a e) (ends_xyz m e)).
  assert (Z : forall l a da ga, P a -> forall r, foldM l (collapse_step coll) (a, da, ga) = Ok r ->
     P (fst (fst r)) /\ incl (p_all (fst (fst r)) MEDGE) (p_all a MEDGE) /\ forall e, In e l -> In e (p_all (fst (fst r)) MEDGE) -> degenerate (fst (fst r)) e = false).
  { induction l as [|e l IH]; intros a da ga Pa r E; simpl in E. { injection E as <-. simpl. split; auto. split; [apply incl_refl|tauto]. }
    apply bind_inv in E as ([[a' d'] g'] & E1 & E2). assert (Sx : forall a b, P a -> P b -> forall e, In e (p_all a MEDGE) -> In e (p_all b MEDGE) -> degenerate a e = degenerate b e).
    { intros b c (_ & _ & B) (_ & _ & C) x Hb Hc. rewrite (degenerate_same (B x Hb)), (degenerate_same (C x Hc)). auto. }
    destruct (step_inv E1) as [(-> & -> & -> & ND)|(k & d & g & A & D & K & C & -> & ->)].
    - destruct (IH _ _ _ Pa r E2) as (P1 & I1 & D1). split; auto. split; auto. intros x [->|Hx] Hr; auto.
      rewrite (Sx _ a P1 Pa x Hr (I1 x Hr)). apply ND. apply alive_In. simpl. auto.
    - assert (He : In e (p_all a MEDGE)) by (apply alive_In in A; auto).
      assert (S : same_point (p_xyz a (fst (p_ends a e))) (p_xyz a (snd (p_ends a e)))).
      { destruct Pa as (P1 & P2 & P3). destruct (P3 e He) as [S1 S2]. simpl in S1, S2.
        assert (D' : degenerate m e = true) by (rewrite <- (degenerate_same (P3 e He)); auto).
        eapply same_trans; [exact S1|]. eapply same_trans; [apply (X0 e (P2 e He) D')|]. apply same_sym. auto. }
      assert (Pa' : P a').
      { destruct Pa as (P1 & P2 & P3). split; [|split].
        - rewrite (co_xyz C). auto.
        - eapply incl_tran; [apply (co_less C)|auto].
        - intros x Hx. destruct (rename_same P1 C K S Hx) as [Q1 Q2]. destruct (P3 x (co_less C Hx)) as [Q3 Q4]. split; eapply same_trans; eauto. }
      destruct (IH _ _ _ Pa' r E2) as (P1 & I1 & D1). split; auto. split; [eapply incl_tran; [exact I1|apply (co_less C)]|].
      intros x [<-|Hx] Hr; auto. exfalso. apply (co_gone C). auto. }
  intros E e He. assert (P0 : P m). { split; auto. split; [apply incl_refl|]. intros x _. split; apply same_refl. }
  destruct (Z _ _ _ _ P0 _ E) as (P1 & I1 & D1). simpl in *. split; [apply D1; auto|]. apply P1. auto.
Qed.
End Good.

(** * Sets *)
Lemma odim_alive m x d : odim_eqb (ment_dim m x) d = true <-> alive m x = true /\ fst x = d.
Proof. unfold ment_dim. destruct (alive m x); simpl; rewrite ?mtype_eqb_spec; intuition congruence. Qed.
Lemma replace_count x y z l : z <> y -> count_occ ent_dec (replace_first x y l) z <= count_occ ent_dec l z.
Proof.
  intros N. induction l as [|a l IH]; cbn [replace_first count_occ]; auto. destruct (ent_eqb a x) eqn:E; cbn [count_occ].
  - destruct (ent_dec y z); [congruence|]. destruct (ent_dec a z); lia.
  - destruct (ent_dec a z); lia.
Qed.
Lemma replace_In x y z l : x <> y -> count_occ ent_dec l x <= 1 ->
  (In z (replace_first x y l) <-> (In z l /\ z <> x) \/ (z = y /\ In x l)).
Proof.
  intros N. induction l as [|a l IH]; intros C; cbn [replace_first]; [simpl; tauto|]. cbn [count_occ] in C. destruct (ent_eqb a x) eqn:E.
  - apply ent_eqb_spec in E. subst a. destruct (ent_dec x x); [|congruence]. assert (Nx : ~ In x l) by (rewrite (count_occ_not_In ent_dec); lia).
    simpl. split.
    + intros [<-|H]; [right; auto|]. left. split; auto. intros ->. auto.
    + intros [[[<-|H] D]|[-> _]]; auto. congruence.
  - assert (D : a <> x) by (intros ->; rewrite ent_eqb_refl in E; discriminate). destruct (ent_dec a x); [congruence|].
    simpl. rewrite IH by lia. split; [intros [<-|[[? ?]|[? ?]]]; tauto|intros [[[->|H] ?]|[? [?|?]]]; tauto].
Qed.
Lemma remove_count x z l : count_occ ent_dec (remove_first x l) z <= count_occ ent_dec l z.
Proof. induction l as [|a l IH]; cbn [remove_first count_occ]; auto. destruct (ent_eqb a x); cbn [count_occ]; destruct (ent_dec a z); lia. Qed.
Lemma remove_In x z l : count_occ ent_dec l x <= 1 -> (In z (remove_first x l) <-> In z l /\ z <> x).
Proof.
  induction l as [|a l IH]; intros C; cbn [remove_first]; [simpl; tauto|]. cbn [count_occ] in C. destruct (ent_eqb a x) eqn:E.
  - apply ent_eqb_spec in E. subst a. destruct (ent_dec x x); [|congruence]. assert (Nx : ~ In x l) by (rewrite (count_occ_not_In ent_dec); lia).
    simpl. split; [intros H; split; auto; intros ->; auto|intros [[<-|H] D]; auto; congruence].
  - assert (D : a <> x) by (intros ->; rewrite ent_eqb_refl in E; discriminate). destruct (ent_dec a x); [congruence|].
    simpl. rewrite IH by lia. split; [intros [<-|[? ?]]; tauto|intros [[->|H] ?]; tauto].
Qed.
Lemma fold_merge m d g : (forall x y, In (x, y) g -> fst x = fst y /\ alive m y = true /\ alive m x = false) -> NoDup (map fst g) ->
  forall l, (forall z, In z l -> fst z = d) -> (forall z, alive m z = false -> count_occ ent_dec l z <= 1) ->
  exists l', fold_left (set_merge m) g (d, l) = (d, l') /\ (forall z, In z l' -> fst z = d) /\ (forall z, alive m z = false -> count_occ ent_dec l' z <= 1) /\
    forall z, In z l' <-> (In z l /\ ~ In z (map fst g)) \/ (exists x, In (x, z) g /\ In x l).
Proof.
  induction g as [|[x y] g IH]; intros H N l T C. { exists l. simpl. split; auto. split; auto. split; auto. intros z. split; [tauto|]. intros [[? _]|(x & [] & _)]. auto. }
  destruct (H x y (or_introl eq_refl)) as (Fxy & Ay & Ax). inversion N as [|? ? Nx N']; subst. simpl in Nx.
  assert (Dxy : x <> y) by congruence.
  set (l1 := if mtype_eqb (fst x) d then replace_first x y l else l).
  assert (E1 : set_merge m (d, l) (x, y) = (d, l1)).
  { unfold set_merge, l1. simpl. unfold ment_dim. rewrite Ay, Fxy. simpl. destruct (mtype_eqb (fst y) d); auto. }
  assert (I1 : forall z, In z l1 <-> (In z l /\ z <> x) \/ (z = y /\ In x l)).
  { intros z. unfold l1. destruct (mtype_eqb (fst x) d) eqn:D; [apply replace_In; auto|].
    assert (~ In x l). { intros Q. apply T in Q. apply mtype_eqb_spec in Q. congruence. } split; [intros Q; left; split; auto; intros ->; auto|tauto]. }
  destruct (IH (fun a b Q => H a b (or_intror Q)) N' l1) as (l' & E' & T' & C' & I').
  { intros z Hz. apply I1 in Hz as [[Hz _]|[-> Hz]]; auto. rewrite <- Fxy. auto. }
  { intros z Hz. unfold l1. destruct (mtype_eqb (fst x) d); [|auto]. etransitivity; [apply replace_count; congruence|auto]. }
  exists l'. cbn [fold_left]. rewrite E1. split; auto. split; auto. split; auto.
  intros z. rewrite I', I1. simpl. split.
  - intros [[[[Q1 Q2]|[-> Q1]] Q3]|(a & Q1 & Q2)].
    + left. split; auto. intros [?|?]; [congruence|tauto].
    + right. exists x. auto.
    + apply I1 in Q2 as [[Q2 Q3]|[-> Q2]]; [right; exists a; auto|]. destruct (H _ _ (or_intror Q1)) as (_ & _ & B). congruence.
  - intros [[Q1 Q2]|(a & [Q1|Q1] & Q2)].
    + left. split; [left; split; auto; congruence|tauto].
    + injection Q1 as <- <-. left. split; auto. intros Q. apply in_map_iff in Q as ([a' b'] & Qe & Q). simpl in Qe.
      destruct (H _ _ (or_intror Q)) as (_ & _ & B). congruence.
    + right. exists a. split; auto. apply I1. left. split; auto. intros ->. apply Nx. exact (in_map fst _ _ Q1).
Qed.
Lemma fold_delete d dels : forall l, (forall z, In z l -> fst z = d) -> (forall z, In z dels -> count_occ ent_dec l z <= 1) ->
  exists l', fold_left set_delete dels (d, l) = (d, l') /\ forall z, In z l' <-> In z l /\ ~ In z dels.
Proof.
  induction dels as [|x dels IH]; intros l T C. { exists l. simpl. split; auto. tauto. }
  set (l1 := if mtype_eqb (fst x) d then remove_first x l else l).
  assert (I1 : forall z, In z l1 <-> In z l /\ z <> x).
  { intros z. unfold l1. destruct (mtype_eqb (fst x) d) eqn:D; [apply remove_In; apply C; simpl; auto|].
    assert (~ In x l). { intros Q. apply T in Q. apply mtype_eqb_spec in Q. congruence. } split; [intros Q; split; auto; intros ->; auto|tauto]. }
  destruct (IH l1) as (l' & E & I').
  { intros z Hz. apply I1 in Hz. apply T. tauto. }
  { intros z Hz. unfold l1. destruct (mtype_eqb (fst x) d); [|apply C; simpl; auto]. etransitivity; [apply remove_count|apply C; simpl; auto]. }
  exists l'. cbn [fold_left]. assert (E1 : set_delete (d, l) x = (d, l1)) by (unfold set_delete, l1; simpl; destruct (mtype_eqb (fst x) d); auto).
  rewrite E1. split; auto. intros z. rewrite I', I1. simpl. split; [intros [[? ?] ?]; split; auto; intros [?|?]; [congruence|tauto]|intros [? ?]; repeat split; auto; intros ->; tauto].
Qed.
(** * Ghosts *)
Lemma new_gid_none info d g : (forall t, In t info -> fst (fst t) = Some d -> snd (fst t) <> g) -> new_gid info d g = g.
Proof.
  intros H. unfold new_gid. destruct (find _ info) as [t|] eqn:F; auto. apply find_some in F as [Ft E]. apply andb_true_iff in E as [E1 E2].
  apply Nat.eqb_eq in E2. exfalso. apply (H t Ft); auto. destruct (fst (fst t)); simpl in E1; [|discriminate]. apply mtype_eqb_spec in E1. congruence.
Qed.
Lemma new_gid_some info d g g' : (exists t, In t info /\ fst (fst t) = Some d /\ snd (fst t) = g) ->
  (forall t, In t info -> fst (fst t) = Some d -> snd (fst t) = g -> snd t = g') -> new_gid info d g = g'.
Proof.
  intros (t & H1 & H2 & H3) U. unfold new_gid. destruct (find _ info) as [t'|] eqn:F.
  - apply find_some in F as [Ft E]. apply andb_true_iff in E as [E1 E2]. apply Nat.eqb_eq in E2. apply U; auto.
    destruct (fst (fst t')); simpl in E1; [|discriminate]. apply mtype_eqb_spec in E1. congruence.
  - exfalso. eapply find_none in F; [|exact H1]. rewrite H2, H3, Nat.eqb_refl, andb_true_r in F. destruct d; discriminate.
Qed.

(** * A concrete collapse, for the examples: edges that become parallel are merged, the first one stays *)
Definition same_unordered (a b : nat * nat) : bool := ((fst a =? fst b) && (snd a =? snd b)) || ((fst a =? snd b) && (snd a =? fst b)).
Definition simple_ends (m : pmesh) (e keep : nat) (x : nat) : nat * nat :=
  (rename (other_end m e keep) keep (fst (p_ends m x)), rename (other_end m e keep) keep (snd (p_ends m x))).
Definition simple_merge (f : nat -> nat * nat) (a : list nat * list (nat * nat)) (x : nat) : list nat * list (nat * nat) :=
  match find (fun y => same_unordered (f y) (f x)) (fst a) with Some y => (fst a, snd a ++ [(x, y)]) | None => (fst a ++ [x], snd a) end.
Definition simple_collapse (m : pmesh) (e keep : nat) : option (pmesh * list ent * list (ent * ent)) :=
  let d := other_end m e keep in
  if (d =? keep) || negb (alive m (MVERTEX, d)) || negb (alive m (MVERTEX, keep)) then None else
  let f := simple_ends m e keep in
  let '(es, g) := fold_left (simple_merge f) (filter (fun x => negb (x =? e)) (nodup Nat.eq_dec (p_all m MEDGE))) ([], []) in
  Some (Pmesh (fun t => match t with MVERTEX => filter (fun v => negb (v =? d)) (p_all m MVERTEX) | MEDGE => es | _ => p_all m t end)
          f (p_xyz m) (p_gid m) (p_ghost m) (p_sets m),
        (MVERTEX, d) :: (MEDGE, e) :: map (fun xy => (MEDGE, fst xy)) g,
        ((MVERTEX, d), (MVERTEX, keep)) :: map (fun xy => ((MEDGE, fst xy), (MEDGE, snd xy))) g).
Lemma simple_merge_spec f l : NoDup l -> forall es g, (forall x, In x l -> ~ In x es /\ ~ In x (map fst g)) -> NoDup (map fst g) ->
  (forall x, In x (map fst g) -> ~ In x es) -> (forall x y, In (x, y) g -> In y es) ->
  let r := fold_left (simple_merge f) l (es, g) in
  (forall x, In x (fst r) \/ In x (map fst (snd r)) <-> In x es \/ In x (map fst g) \/ In x l) /\ NoDup (map fst (snd r)) /\
  (forall x, In x (map fst (snd r)) -> ~ In x (fst r)) /\ (forall x y, In (x, y) (snd r) -> In y (fst r)).
Proof.
  induction 1 as [|x l Nx Nl IH]; intros es g A B C D; cbn [fold_left]. { simpl. split; [intros; tauto|auto]. }
  destruct (A x (or_introl eq_refl)) as [A1 A2]. destruct (find (fun y => same_unordered (f y) (f x)) es) as [y|] eqn:F.
  - assert (E : simple_merge f (es, g) x = (es, g ++ [(x, y)])) by (unfold simple_merge; cbn [fst snd]; rewrite F; auto). cbv zeta. rewrite E. clear E.
    apply find_some in F as [F _]. destruct (IH es (g ++ [(x, y)])) as (R1 & R2 & R3 & R4).
    + intros z Hz. destruct (A z (or_intror Hz)). split; auto. rewrite map_app, in_app_iff. simpl. intros [?|[->|[]]]; auto.
    + rewrite map_app. apply NoDup_app_iff. split; auto. split; [repeat constructor; auto|]. intros z H1 [<-|[]]. auto.
    + intros z. rewrite map_app, in_app_iff. simpl. intros [?|[<-|[]]]; auto.
    + intros a b Hb. apply in_app_iff in Hb as [Hb|[Hb|[]]]; [eauto|]. injection Hb as <- <-. auto.
    + split; [|auto]. intros z. rewrite R1, map_app, in_app_iff. simpl. tauto.
  - assert (E : simple_merge f (es, g) x = (es ++ [x], g)) by (unfold simple_merge; cbn [fst snd]; rewrite F; auto). cbv zeta. rewrite E. clear E.
    destruct (IH (es ++ [x]) g) as (R1 & R2 & R3 & R4); auto.
    + intros z Hz. destruct (A z (or_intror Hz)). split; auto. rewrite in_app_iff. simpl. intros [?|[->|[]]]; auto.
    + intros z Hz. rewrite in_app_iff. simpl. intros [?|[->|[]]]; auto. apply (C z); auto.
    + intros a b Hb. apply in_app_iff. left. eauto.
    + split; [|auto]. intros z. rewrite R1, in_app_iff. simpl. tauto.
Qed.
Lemma simple_good : good_collapse simple_collapse.
Proof.
  intros m e keep m' dels mrg He K. unfold simple_collapse. set (d := other_end m e keep).
  destruct ((d =? keep) || negb (alive m (MVERTEX, d)) || negb (alive m (MVERTEX, keep))) eqn:B; [discriminate|].
  apply orb_false_iff in B as [B Bk]. apply orb_false_iff in B as [B Bd]. apply Nat.eqb_neq in B. apply negb_false_iff in Bk, Bd.
  set (f := simple_ends m e keep). set (l := filter (fun x => negb (x =? e)) (nodup Nat.eq_dec (p_all m MEDGE))).
  assert (Nl : NoDup l) by (apply NoDup_filter, NoDup_nodup).
  assert (Il : forall x, In x l <-> In x (p_all m MEDGE) /\ x <> e).
  { intros x. unfold l. rewrite filter_In, nodup_In, negb_true_iff, Nat.eqb_neq. tauto. }
  destruct (@simple_merge_spec f l Nl [] []) as (R1 & R2 & R3 & R4); [simpl; auto|constructor|simpl; auto|simpl; tauto|].
  destruct (fold_left (simple_merge f) l ([], [])) as [es g]. cbn [fst snd] in *. intros E. injection E as <- <- <-.
  assert (Ie : forall x, In x es -> In x (p_all m MEDGE) /\ x <> e). { intros x Hx. apply Il. destruct (proj1 (R1 x) (or_introl Hx)) as [[]|[[]|]]; auto. }
  assert (Ig : forall x, In x (map fst g) -> In x (p_all m MEDGE) /\ x <> e). { intros x Hx. apply Il. destruct (proj1 (R1 x) (or_intror Hx)) as [[]|[[]|]]; auto. }
  assert (Ce : forall x, In x (p_all m MEDGE) -> x = e \/ In x es \/ In x (map fst g)).
  { intros x Hx. destruct (Nat.eq_dec x e); auto. right. apply R1. right. right. apply Il. auto. }
  constructor; simpl; auto.
  - intros H. apply Ie in H. tauto.
  - intros [] x; simpl; try tauto. { intros H. apply filter_In in H. tauto. } { intros H. apply Ie in H. tauto. }
  - intros [t x]. rewrite alive_In in *. simpl. split.
    + intros [H|[H|H]].
      * injection H as <- <-. split; auto. destruct (alive (Pmesh _ _ _ _ _ _) (MVERTEX, d)) eqn:A; auto. apply alive_In in A. simpl in A. apply filter_In in A as [_ A].
        rewrite Nat.eqb_refl in A. discriminate.
      * injection H as <- <-. split; auto. destruct (alive (Pmesh _ _ _ _ _ _) (MEDGE, e)) eqn:A; auto. apply alive_In in A. simpl in A. apply Ie in A. tauto.
      * apply in_map_iff in H as ([a b] & H & Hg). simpl in H. injection H as <- <-. pose proof (in_map fst _ _ Hg) as Q. simpl in Q.
        split; [apply (Ig a Q)|]. destruct (alive (Pmesh _ _ _ _ _ _) (MEDGE, a)) eqn:A; auto. apply alive_In in A. simpl in A. destruct (R3 a Q A).
    + intros [H A]. assert (A' : ~ In x (match t with MVERTEX => filter (fun v => negb (v =? d)) (p_all m MVERTEX) | MEDGE => es | _ => p_all m t end)).
      { intros Q. match type of A with alive ?mm ?y = _ => assert (alive mm y = true) by (apply alive_In; simpl; destruct t; auto) end. congruence. }
      destruct t; simpl in *; try tauto.
      * left. f_equal. destruct (Nat.eq_dec d x); auto. destruct A'. apply filter_In. split; auto. apply negb_true_iff, Nat.eqb_neq. auto.
      * destruct (Ce x H) as [->|[Q|Q]]; auto; [tauto|]. right. right. apply in_map_iff in Q as ([a b] & <- & Q). apply in_map_iff. exists (a, b). auto.
  - intros x y [H|H].
    + injection H as <- <-. simpl. rewrite Bd. repeat split; auto.
      * destruct (alive (Pmesh _ _ _ _ _ _) (MVERTEX, d)) eqn:A; auto. apply alive_In in A. simpl in A. apply filter_In in A as [_ A]. rewrite Nat.eqb_refl in A. discriminate.
      * apply alive_In. simpl. apply filter_In. split; [apply alive_In in Bk; auto|]. apply negb_true_iff, Nat.eqb_neq. auto.
    + apply in_map_iff in H as ([a b] & H & Hg). simpl in H. injection H as <- <-. pose proof (in_map fst _ _ Hg) as Q. simpl in Q. simpl.
      repeat split; auto.
      * apply alive_In. simpl. apply (Ig a Q).
      * destruct (alive (Pmesh _ _ _ _ _ _) (MEDGE, a)) eqn:A; auto. apply alive_In in A. simpl in A. destruct (R3 a Q A).
      * apply alive_In. simpl. apply (R4 a b Hg).
  - constructor.
    + rewrite map_map. simpl. intros H. apply in_map_iff in H as (? & H & _). discriminate.
    + rewrite map_map. simpl. match goal with |- NoDup ?l => assert (Q : l = map (pair MEDGE) (map fst g)) by (rewrite map_map; auto) end.
      rewrite Q. apply (@FinFun.Injective_map_NoDup _ _ (pair MEDGE) (map fst g)); auto. intros a b E. injection E. auto.
Qed.

(** * C98 *)
Lemma mapM_inv_nth A B (f : A -> outcome B) l : forall r i x, mapM f l = Ok r -> nth_error l i = Some x -> exists y, f x = Ok y /\ nth_error r i = Some y.
Proof.
  induction l as [|a l IH]; intros r i x E H; [destruct i; discriminate|]. simpl in E. apply bind_inv in E as (b & Eb & E). apply bind_inv in E as (r' & Er & E). injection E as <-.
  destruct i as [|i]; simpl in *; [injection H as <-; eauto|]. eauto.
Qed.
Lemma mapM_inv_nth' A B (f : A -> outcome B) l : forall r i y, mapM f l = Ok r -> nth_error r i = Some y -> exists x, f x = Ok y /\ nth_error l i = Some x.
Proof.
  induction l as [|a l IH]; intros r i x E H. { injection E as <-. destruct i; discriminate. }
  simpl in E. apply bind_inv in E as (b & Eb & E). apply bind_inv in E as (r' & Er & E). injection E as <-.
  destruct i as [|i]; simpl in *; [injection H as <-; eauto|]. eauto.
Qed.
(** what a processor has after the loop over its edges: the mesh, the deleted entities, the merged pairs *)
Definition loop_results (coll : pmesh -> nat -> nat -> option (pmesh * list ent * list (ent * ent))) (W : list pmesh) (p : nat) (m1 : pmesh)
  (dels : list ent) (mrg : list (ent * ent)) : Prop := exists m, nth_error W p = Some m /\ collapse_loop coll m = Ok (m1, dels, mrg).
(** no entity into which another one was merged was later collapsed itself *)
Definition unchained (m1 : pmesh) (mrg : list (ent * ent)) : Prop := forall x y, In (x, y) mrg -> alive m1 y = true.
Lemma world_inv coll W W' p m : collapse_degen_edges coll W = Ok W' -> nth_error W p = Some m ->
  exists m1 dels mrg info, collapse_loop coll m = Ok (m1, dels, mrg) /\ nth_error W' p = Some (update_sets (renumber_ghosts m1 info) dels mrg) /\
    forall t, In t info <-> exists q mq dq gq x y, loop_results coll W q mq dq gq /\ In (x, y) gq /\ t = (ment_dim mq y, p_gid mq x, p_gid mq y).
Proof.
  unfold collapse_degen_edges. intros E H. apply bind_inv in E as (R & ER & E). injection E as <-.
  destruct (mapM_inv_nth ER H) as ([[m1 dels] mrg] & El & Hr). exists m1, dels, mrg. eexists. split; auto. split; [rewrite nth_error_map, Hr; reflexivity|].
  intros t. rewrite in_flat_map. split.
  - intros ([[mq dq] gq] & HR & Ht). apply In_nth_error in HR as [q HR]. destruct (mapM_inv_nth' ER HR) as (m0 & E0 & H0). simpl in Ht.
    apply in_map_iff in Ht as ([x y] & <- & Hxy). exists q, mq, dq, gq, x, y. split; auto. exists m0. auto.
  - intros (q & mq & dq & gq & x & y & (m0 & H0 & E0) & Hxy & ->). destruct (mapM_inv_nth ER H0) as (r & E1 & Hq). assert (r = (mq, dq, gq)) as -> by congruence.
    exists (mq, dq, gq). split; [eapply nth_error_In; eauto|]. simpl. apply in_map_iff. exists (x, y). auto.
Qed.
Theorem c98_no_degenerate_edge_partial : forall coll W W' p m, good_collapse coll -> collapse_degen_edges coll W = Ok W' -> nth_error W p = Some m ->
  exactly_degenerate m -> exists m', nth_error W' p = Some m' /\
    forall e, In e (p_all m' MEDGE) -> degenerate m' e = false /\ In e (p_all m MEDGE) /\ same_ends (ends_xyz m' e) (ends_xyz m e).
Proof.
  intros coll W W' p m G E H X. destruct (world_inv E H) as (m1 & dels & mrg & info & El & H' & _). eexists. split; [exact H'|].
  intros e He. simpl in He. destruct (loop_edges G X El He) as [A B]. split; [exact A|]. split; [|exact B].
  apply (li_less (loop_linv G El) He).
Qed.
Definition same_mesh (m m' : pmesh) : Prop := p_all m' = p_all m /\ p_ends m' = p_ends m /\ p_xyz m' = p_xyz m /\ (forall x, p_gid m' x = p_gid m x) /\
  p_ghost m' = p_ghost m /\ p_sets m' = p_sets m.
Theorem c98_nothing_to_collapse : forall coll W, (forall m e, In m W -> In e (p_all m MEDGE) -> degenerate m e = false) ->
  exists W', collapse_degen_edges coll W = Ok W' /\ Forall2 same_mesh W W'.
Proof.
  intros coll W H. assert (L : forall m, In m W -> collapse_loop coll m = Ok (m, [], [])).
  { intros m Hm. unfold collapse_loop. assert (Z : forall l, incl l (p_all m MEDGE) -> foldM l (collapse_step coll) (m, [], []) = Ok (m, [], [])).
    { induction l as [|e l IH]; intros I; simpl; auto. rewrite (H m e Hm (I e (or_introl eq_refl))). simpl.
      destruct (negb (alive m (MEDGE, e))); simpl; apply IH; intros x Hx; apply I; simpl; auto. }
    apply Z, incl_refl. }
  unfold collapse_degen_edges. rewrite (@mapM_Ok _ _ (collapse_loop coll) W (map (fun m => (m, [], [])) W)).
  2:{ clear H. induction W as [|m W IH]; simpl; constructor; [apply L; simpl; auto|]. apply IH. intros. apply L. simpl. auto. }
  cbn [bind]. eexists. split; [reflexivity|]. rewrite map_map.
  assert (I : flat_map (fun r : pmesh * list ent * list (ent * ent) => merged_info (fst (fst r)) (snd r)) (map (fun m => (m, [], [])) W) = []).
  { clear. induction W; simpl; auto. }
  rewrite I. clear. induction W as [|m W IH]; simpl; constructor; auto. repeat split; auto; simpl.
  - intros [[] i]; simpl; auto; destruct (alive m _ && p_ghost m _); auto.
  - clear. induction (p_sets m) as [|s l IH]; simpl; auto. rewrite IH. auto.
Qed.
Theorem c98_same_choice : forall coll mp ep mq eq rp kp,
  let ids m e := (p_gid m (MVERTEX, fst (p_ends m e)), p_gid m (MVERTEX, snd (p_ends m e))) in
  (ids mq eq = ids mp ep \/ ids mq eq = (snd (ids mp ep), fst (ids mp ep))) -> fst (ids mp ep) <> snd (ids mp ep) ->
  (forall v w, (v = fst (p_ends mp ep) \/ v = snd (p_ends mp ep)) -> (w = fst (p_ends mq eq) \/ w = snd (p_ends mq eq)) ->
     p_gid mp (MVERTEX, v) = p_gid mq (MVERTEX, w) -> (coll mp ep v = None <-> coll mq eq w = None)) ->
  collapse_edge coll mp ep = Ok (rp, kp) ->
  (exists rq kq, collapse_edge coll mq eq = Ok (rq, kq) /\ p_gid mq (MVERTEX, kq) = p_gid mp (MVERTEX, kp)) /\
  (kp = fst (p_ends mp ep) \/ kp = snd (p_ends mp ep)) /\ coll mp ep kp = Some rp /\
  forall v, (v = fst (p_ends mp ep) \/ v = snd (p_ends mp ep)) -> coll mp ep v <> None -> p_gid mp (MVERTEX, kp) <= p_gid mp (MVERTEX, v).
Proof.
  intros coll mp ep mq eq rp kp ids. unfold ids, collapse_edge. destruct (p_ends mp ep) as [a b], (p_ends mq eq) as [c d]. cbn [fst snd].
  intros I N S. cbn [fst snd] in I.
  destruct I as [I|I]; injection I as I1 I2; rewrite I1, I2;
  [pose proof (S a c (or_introl eq_refl) (or_introl eq_refl) (eq_sym I1)) as S1; pose proof (S b d (or_intror eq_refl) (or_intror eq_refl) (eq_sym I2)) as S2
  |pose proof (S a d (or_introl eq_refl) (or_intror eq_refl) (eq_sym I2)) as S1; pose proof (S b c (or_intror eq_refl) (or_introl eq_refl) (eq_sym I1)) as S2];
  destruct (Nat.ltb_spec (p_gid mp (MVERTEX, a)) (p_gid mp (MVERTEX, b))) as [L|L];
  try (destruct (Nat.ltb_spec (p_gid mp (MVERTEX, b)) (p_gid mp (MVERTEX, a))) as [L'|L']; try lia);
  destruct (coll mp ep a) eqn:Ca; destruct (coll mp ep b) eqn:Cb; intros E; try discriminate; injection E as <- <-;
  (destruct (coll mq eq c) eqn:Cc; destruct (coll mq eq d) eqn:Cd; try (exfalso; intuition congruence));
  (split; [eauto|]; split; [auto|]; split; [auto|]; intros v [-> | ->]; rewrite ?Ca, ?Cb; try congruence; lia).
Qed.
Theorem c98_ghost_ids_partial : forall coll W W' p m, good_collapse coll -> collapse_degen_edges coll W = Ok W' -> nth_error W p = Some m ->
  exists m', nth_error W' p = Some m' /\ (forall x, alive m' x = true -> alive m x = true) /\
    (forall x, p_ghost m x = false -> p_gid m' x = p_gid m x) /\
    (forall x, (forall q mq dq gq a b, loop_results coll W q mq dq gq -> In (a, b) gq -> fst a = fst x -> p_gid mq a <> p_gid m x) -> p_gid m' x = p_gid m x) /\
    (forall x q mq dq gq a b, alive m' x = true -> p_ghost m x = true -> fst x <> MREGION ->
       (forall q mq dq gq, loop_results coll W q mq dq gq -> unchained mq gq) ->
       loop_results coll W q mq dq gq -> In (a, b) gq -> fst a = fst x -> p_gid mq a = p_gid m x ->
       (forall q' mq' dq' gq' a' b', loop_results coll W q' mq' dq' gq' -> In (a', b') gq' -> fst a' = fst x -> p_gid mq' a' = p_gid m x -> p_gid mq' b' = p_gid mq b) ->
       p_gid m' x = p_gid mq b).
Proof.
  intros coll W W' p m G E H. destruct (world_inv E H) as (m1 & dels & mrg & info & El & H' & Info). pose proof (loop_linv G El) as L.
  eexists. split; [exact H'|]. split; [intros x; apply (alive_less (li_less L))|]. cbn [update_sets renumber_ghosts p_gid].
  rewrite (li_gid L), (li_ghost L).
  split; [|split].
  - intros [[] i] Hg; simpl; rewrite ?Hg, ?andb_false_r; auto.
  - intros x U. assert (Q : new_gid info (fst x) (p_gid m x) = p_gid m x).
    { apply new_gid_none. intros t Ht Ed. apply Info in Ht as (q & mq & dq & gq & a & b & Hq & Hab & ->). simpl in *.
      destruct Hq as (m0 & Hm0 & E0). destruct (li_merged (loop_linv G E0) Hab) as [F _]. eapply U; [exists m0; eauto|eauto|].
      unfold ment_dim in Ed. destruct (alive mq b); congruence. }
    destruct x as [[] i]; simpl in *; auto; destruct (alive m1 _ && p_ghost m _); auto.
  - intros x q mq dq gq a b Ax Hg R Un Hq Hab F Gx Ag.
    assert (Q : new_gid info (fst x) (p_gid m x) = p_gid mq b).
    { apply new_gid_some.
      - exists (ment_dim mq b, p_gid mq a, p_gid mq b). split; [apply Info; exists q, mq, dq, gq, a, b; auto|]. simpl. split; auto.
        unfold ment_dim. rewrite (Un _ _ _ _ Hq _ _ Hab). destruct Hq as (m0 & Hm0 & E0). destruct (li_merged (loop_linv G E0) Hab). congruence.
      - intros t Ht Ed Eg. apply Info in Ht as (q' & mq' & dq' & gq' & a' & b' & Hq' & Hab' & ->). simpl in *.
        eapply Ag; eauto. destruct Hq' as (m0 & Hm0 & E0). destruct (li_merged (loop_linv G E0) Hab') as [F' _]. unfold ment_dim in Ed. destruct (alive mq' b'); congruence. }
    assert (Ax1 : alive m1 x = true) by exact Ax.
    destruct x as [[] i]; simpl in *; try congruence; rewrite Ax1, Hg; simpl; auto.
Qed.
(** a mesh set that names entities of its own type that are in the mesh, each once *)
Definition sound_set (m : pmesh) (s : mtype * list ent) : Prop := NoDup (snd s) /\ forall x, In x (snd s) -> fst x = fst s /\ alive m x = true.
Theorem c98_sets_partial : forall coll W W' p m m1 dels mrg, good_collapse coll -> collapse_degen_edges coll W = Ok W' -> nth_error W p = Some m ->
  collapse_loop coll m = Ok (m1, dels, mrg) -> unchained m1 mrg -> (forall s, In s (p_sets m) -> sound_set m s) ->
  exists m', nth_error W' p = Some m' /\
    Forall2 (fun s s' => fst s' = fst s /\ (forall y, In y (snd s') -> alive m' y = true) /\
      forall y, In y (snd s') <-> (In y (snd s) /\ alive m' y = true) \/ exists x, In (x, y) mrg /\ In x (snd s)) (p_sets m) (p_sets m').
Proof.
  intros coll W W' p m m1 dels mrg G E H El Un S. destruct (world_inv E H) as (m2 & dels2 & mrg2 & info & El2 & H' & _).
  assert (Q : (m2, dels2, mrg2) = (m1, dels, mrg)) by congruence. injection Q as -> -> ->. clear El2. pose proof (loop_linv G El) as L.
  eexists. split; [exact H'|]. cbn [update_sets renumber_ghosts p_sets]. rewrite (li_sets L).
  assert (Am : forall x, alive (update_sets (renumber_ghosts m1 info) dels mrg) x = alive m1 x) by reflexivity.
  set (m' := update_sets (renumber_ghosts m1 info) dels mrg) in *. clearbody m'. change (set_merge (renumber_ghosts m1 info)) with (set_merge m1).
  revert S. generalize (p_sets m). induction l as [|[d l] ls IH]; intros S; cbn [map]; constructor.
  - destruct (S (d, l) (or_introl eq_refl)) as [N T]. simpl in N, T.
    assert (Mg : forall x y, In (x, y) mrg -> fst x = fst y /\ alive m1 y = true /\ alive m1 x = false).
    { intros x y Hxy. destruct (li_merged L Hxy) as [F D]. apply (li_dels L) in D. split; auto. split; [eapply Un; eauto|tauto]. }
    destruct (@fold_merge m1 d mrg Mg (li_once L) l) as (l1 & E1 & T1 & C1 & I1).
    { intros z Hz. apply T. auto. }
    { intros z _. apply NoDup_count_occ. auto. }
    destruct (@fold_delete d dels l1 T1) as (l2 & E2 & I2). { intros z Hz. apply C1. apply (li_dels L). auto. }
    match goal with |- fst ?y = _ /\ _ => assert (EE : y = (d, l2)) by (etransitivity; [apply (f_equal (fun s => fold_left set_delete dels s) E1)|exact E2]) end.
    match type of EE with ?y = _ => set (s' := y) in * end. rewrite EE. simpl. split; auto.
    assert (Dl : forall z, In z l -> (~ In z dels <-> alive m1 z = true)).
    { intros z Hz. rewrite (li_dels L). destruct (T z Hz) as [_ Az]. destruct (alive m1 z); intuition congruence. }
    assert (Z : forall y, In y l2 <-> (In y l /\ alive m1 y = true) \/ exists x, In (x, y) mrg /\ In x l).
    { intros y. rewrite I2, I1. split.
      - intros [[[A B]|(x & A & B)] D]; [left; split; auto; apply Dl; auto|right; eauto].
      - intros [[A B]|(x & A & B)].
        + split; [left; split; auto|apply Dl; auto]. intros F. apply in_map_iff in F as ([u w] & Fu & F). simpl in Fu. subst u. apply Mg in F. intuition congruence.
        + split; [right; eauto|]. intros D. apply (li_dels L) in D. apply Mg in A. intuition congruence. }
    split.
    + intros y Hy. rewrite Am. apply Z in Hy as [[_ Hy]|(x & Hx & _)]; auto. eapply Un; eauto.
    + intros y. rewrite Am. auto.
  - apply IH. intros s Hs. apply S. simpl. auto.
Qed.

(** * Examples and refutations *)
Definition pt (x : Q) : Q * Q * Q := (x, 0%Q, 0%Q).
(** a line of vertices with the given places and ids, and edges; [gh]: every vertex is a ghost *)
Definition line_mesh (xs : list Q) (gids : list nat) (edges : list (nat * nat)) (gh : bool) (sets : list (mtype * list ent)) : pmesh :=
  Pmesh (fun t => match t with MVERTEX => seq 0 (length xs) | MEDGE => seq 0 (length edges) | _ => [] end) (fun e => nth e edges (0, 0))
    (fun v => pt (nth v xs 0%Q)) (fun x => match fst x with MVERTEX => nth (snd x) gids 0 | _ => 100 + snd x end) (fun _ => gh) sets.
(** the triangle 0-1-2 whose vertices 0 and 1 coincide, next to vertex 3; processor 1 has a ghost copy of vertex 1 *)
Definition ex_tri : pmesh := line_mesh [0; 0; 1; 2]%Q [4; 7; 9; 2] [(0, 1); (1, 2); (2, 0); (3, 1)] false [(MVERTEX, [(MVERTEX, 1); (MVERTEX, 3)]); (MEDGE, [(MEDGE, 0); (MEDGE, 2)])].
Definition ex_other : pmesh := line_mesh [0; 2]%Q [7; 2] [(0, 1)] true [].
Example c98_witness : exactly_degenerate ex_tri /\ exactly_degenerate ex_other /\ (forall s, In s (p_sets ex_tri) -> sound_set ex_tri s) /\
  (exists m1, collapse_loop simple_collapse ex_tri = Ok (m1, [(MVERTEX, 1); (MEDGE, 0); (MEDGE, 2)], [((MVERTEX, 1), (MVERTEX, 0)); ((MEDGE, 2), (MEDGE, 1))]) /\
    unchained m1 [((MVERTEX, 1), (MVERTEX, 0)); ((MEDGE, 2), (MEDGE, 1))]) /\
  exists m' o', collapse_degen_edges simple_collapse [ex_tri; ex_other] = Ok [m'; o'] /\ p_all m' MVERTEX = [0; 2; 3] /\ p_all m' MEDGE = [1; 3] /\
    map (p_ends m') [1; 3] = [(0, 2); (3, 0)] /\ p_sets m' = [(MVERTEX, [(MVERTEX, 0); (MVERTEX, 3)]); (MEDGE, [(MEDGE, 1)])] /\
    p_gid o' (MVERTEX, 0) = 4 /\ p_gid o' (MVERTEX, 1) = 2.
Proof.
  split; [|split; [|split; [|split]]].
  - intros e He. simpl in He. destruct He as [<-|[<-|[<-|[<-|[]]]]]; vm_compute; intros E; try discriminate. repeat split; reflexivity.
  - intros e He. simpl in He. destruct He as [<-|[]]; vm_compute; intros E; discriminate.
  - intros s [<-|[<-|[]]]; (split; [simpl; repeat constructor; simpl; intuition congruence|]); simpl; intuition (subst; reflexivity).
  - eexists. split; [vm_compute; reflexivity|]. intros x y [E|[E|[]]]; injection E as <- <-; reflexivity.
  - do 2 eexists. split; [vm_compute; reflexivity|]. vm_compute. repeat split; reflexivity.
Qed.
(** an edge that was long enough when the loop came by, and is not any more in the end *)
Theorem c98_no_degenerate_edge_refuted : exists m m', good_collapse simple_collapse /\ collapse_degen_edges simple_collapse [m] = Ok [m'] /\
  In 0 (p_all m' MEDGE) /\ degenerate m 0 = false /\ degenerate m' 0 = true.
Proof.
  exists (line_mesh [0; 8 # 10000000000000000; 16 # 10000000000000000]%Q [3; 1; 2] [(0, 2); (0, 1)] false []). eexists. split; [apply simple_good|].
  split; [vm_compute; reflexivity|]. vm_compute. auto.
Qed.
(** three coinciding vertices, collapsed one into the other: a ghost copy of the first keeps an id nobody has any more, and a set that named the
    first vertex is empty instead of naming the one that is left *)
Theorem c98_chain_refuted : exists m o m' o', good_collapse simple_collapse /\ exactly_degenerate m /\ (forall s, In s (p_sets m) -> sound_set m s) /\
  collapse_degen_edges simple_collapse [m; o] = Ok [m'; o'] /\
  p_ghost o (MVERTEX, 0) = true /\ p_gid o (MVERTEX, 0) = 3 /\ p_gid o' (MVERTEX, 0) = 3 /\
  p_all m' MVERTEX = [2] /\ p_gid m' (MVERTEX, 2) = 1 /\ p_sets m = [(MVERTEX, [(MVERTEX, 0)])] /\ p_sets m' = [(MVERTEX, [])].
Proof.
  exists (line_mesh [0; 0; 0]%Q [3; 2; 1] [(0, 1); (1, 2)] false [(MVERTEX, [(MVERTEX, 0)])]), (line_mesh [0; 2]%Q [3; 5] [(0, 1)] true []).
  do 2 eexists. split; [apply simple_good|]. split; [|split].
  - intros e He. simpl in He. destruct He as [<-|[<-|[]]]; vm_compute; intros _; repeat split; reflexivity.
  - intros s [<-|[]]; (split; [simpl; repeat constructor; simpl; intuition congruence|]); simpl; intuition (subst; reflexivity).
  - split; [vm_compute; reflexivity|]. vm_compute. repeat split; reflexivity.
Qed.
(** a set that names both vertices of a collapsed edge names the remaining one twice *)
Theorem c98_set_duplicates_refuted : exists m m', good_collapse simple_collapse /\ exactly_degenerate m /\ (forall s, In s (p_sets m) -> sound_set m s) /\
  collapse_degen_edges simple_collapse [m] = Ok [m'] /\
  p_sets m = [(MVERTEX, [(MVERTEX, 0); (MVERTEX, 1)])] /\ p_sets m' = [(MVERTEX, [(MVERTEX, 0); (MVERTEX, 0)])].
Proof.
  exists (line_mesh [0; 0; 1]%Q [1; 2; 3] [(0, 1); (1, 2)] false [(MVERTEX, [(MVERTEX, 0); (MVERTEX, 1)])]). eexists.
  split; [apply simple_good|]. split; [|split].
  - intros e He. simpl in He. destruct He as [<-|[<-|[]]]; vm_compute; intros E; try discriminate. repeat split; reflexivity.
  - intros s [<-|[]]; (split; [simpl; repeat constructor; simpl; intuition congruence|]); simpl; intuition (subst; reflexivity).
  - split; [vm_compute; reflexivity|]. vm_compute. repeat split; reflexivity.
Qed.
(** a degenerate edge MSTK will not collapse either way ends the run with an error *)
Theorem c98_refused_is_an_error : forall coll W m e, In m W -> In e (p_all m MEDGE) -> degenerate m e = true -> (forall a x k, coll a x k = None) ->
  collapse_degen_edges coll W = Thrown.
Proof.
  intros coll W m e Hm He D N. assert (T : forall a x, collapse_edge coll a x = Thrown).
  { intros a x. unfold collapse_edge. destruct (p_ends a x). destruct (_ <? _); rewrite !N; auto. }
  assert (L : forall a, collapse_loop coll a = Ok (a, [], []) \/ collapse_loop coll a = Thrown).
  { intros a. unfold collapse_loop. induction (p_all a MEDGE) as [|x l IH]; simpl; auto. destruct (negb (alive a (MEDGE, x))); simpl; auto.
    destruct (negb (degenerate a x)); simpl; auto. rewrite T. simpl. auto. }
  assert (Lm : collapse_loop coll m = Thrown).
  { unfold collapse_loop. assert (A : alive m (MEDGE, e) = true) by (apply alive_In; auto). clear L. induction (p_all m MEDGE) as [|x l IH]; [destruct He|].
    simpl. destruct He as [->|He].
    - rewrite A, D. simpl. rewrite T. auto.
    - destruct (negb (alive m (MEDGE, x))); simpl; [apply IH; auto|]. destruct (negb (degenerate m x)); simpl; [apply IH; auto|]. rewrite T. auto. }
  unfold collapse_degen_edges. assert (Z : mapM (collapse_loop coll) W = Thrown).
  { induction W as [|a W IH]; [destruct Hm|]. simpl. destruct (L a) as [La|La]; rewrite La; simpl; auto. destruct Hm as [->|Hm]; [congruence|]. rewrite IH; auto. }
  rewrite Z. auto.
Qed.
