(** Proofs about tiles. *)
From Verif Require Import Base Loop Defs Factory Tiles Tiles_spec Cache_proofs MeshSet MeshSet_proofs.
Set Implicit Arguments.

(** ** halos *)
Lemma push_nbrs all : forall nbrs next, NoDup next -> (forall c, In c next -> ~ In c all) ->
  let r := fold_left (push_nbr all) nbrs next in
  NoDup r /\ (forall c, In c r -> ~ In c all) /\ (forall c, In c r <-> In c next \/ (In c nbrs /\ ~ In c all)).
Proof.
  induction nbrs as [|x nbrs IH]; intros next N D; simpl.
  - split; auto. split; auto. intros c. tauto.
  - assert (G : NoDup (push_nbr all next x) /\ (forall c, In c (push_nbr all next x) -> ~ In c all) /\
       (forall c, In c (push_nbr all next x) <-> In c next \/ (c = x /\ ~ In c all))).
    { unfold push_nbr. destruct (memb x next) eqn:E1; [|destruct (memb x all) eqn:E2].
      - apply memb_spec in E1. split; auto. split; auto. intros c. split; [tauto|]. intros [H|[-> H]]; auto.
      - apply memb_spec in E2. split; auto. split; auto. intros c. split; [tauto|]. intros [H|[-> H]]; tauto.
      - apply memb_false in E1, E2. split; [apply NoDup_snoc; auto|]. split.
        + intros c H. apply in_app_iff in H as [H|[<-|[]]]; auto.
        + intros c. rewrite in_app_iff. simpl. split; [intros [H|[<-|[]]]; auto|intros [H|[-> H]]; auto]. }
    destruct G as [G1 [G2 G3]]. destruct (IH _ G1 G2) as [I1 [I2 I3]]. split; auto. split; auto.
    intros c. rewrite I3, G3. split; [intros [[H|[-> H]]|[H1 H2]]; auto|intros [H|[[->|H1] H2]]; auto].
Qed.

Section M.
Variables (m : tmesh) (g : cellmap).
Hypothesis K : tile_mesh m g.

Lemma halo_layer_ok all : (forall c, In c all -> c < tm_ncells m) ->
  exists next, halo_layer m all = Ok next /\ NoDup next /\ (forall c, In c next -> c < tm_ncells m) /\
    (forall c, In c next <-> ~ In c all /\ exists c', In c' all /\ In c (m_adj g c')).
Proof.
  intros H. unfold halo_layer.
  assert (G : forall l next, (forall c, In c l -> c < tm_ncells m) -> NoDup next -> (forall c, In c next -> ~ In c all /\ c < tm_ncells m) ->
    exists r, foldM l (fun c next => nbrs <- tm_adj m c ;; Ok (fold_left (push_nbr all) nbrs next)) next = Ok r /\ NoDup r /\
      (forall c, In c r -> c < tm_ncells m) /\
      (forall c, In c r <-> In c next \/ (~ In c all /\ exists c', In c' l /\ In c (m_adj g c')))).
  { induction l as [|x l IH]; intros next Hl N D; simpl.
    - exists next. split; auto. split; auto. split; [apply D|]. intros c. split; auto. intros [|[_ [c' [[] _]]]]; auto.
    - destruct (tk_adj K (c := x)) as [E B]; [apply Hl; simpl; auto|]. rewrite E. cbn [bind].
      destruct (push_nbrs all (m_adj g x) N (fun c Hc => proj1 (D c Hc))) as [P1 [P2 P3]].
      destruct (IH (fold_left (push_nbr all) (m_adj g x) next)) as [r [E' [R1 [R2 R3]]]]; auto.
      + intros c Hc. apply Hl; simpl; auto.
      + intros c Hc. split; auto. apply P3 in Hc as [Hc|[Hc _]]; auto. apply D; auto.
      + exists r. split; auto. split; auto. split; auto. intros c. rewrite R3, P3. split.
        * intros [[Hc|[Hc1 Hc2]]|[Hc [c' [H1 H2]]]]; auto; right; split; auto; [exists x; simpl; auto|exists c'; simpl; auto].
        * intros [Hc|[Hc [c' [[<-|H1] H2]]]]; auto. right. eauto. }
  destruct (G all [] H (NoDup_nil _)) as [r [E [R1 [R2 R3]]]]; [intros c []|]. exists r. split; auto. split; auto. split; auto.
  intros c. rewrite R3. simpl. tauto.
Qed.
Lemma within_all adj s k c : (forall c', In c' s -> c' < tm_ncells m) -> (forall a, a < tm_ncells m -> forall b, In b (adj a) -> b < tm_ncells m) ->
  within adj s k c -> c < tm_ncells m.
Proof. intros Hs Ha. induction 1; eauto. Qed.
Lemma within_0 adj s c : within adj s 0 c <-> In c s.
Proof. split; [inversion 1; auto|apply w_here]. Qed.
Lemma within_S adj s k c : within adj s (S k) c <-> within adj s k c \/ exists c', within adj s k c' /\ In c (adj c').
Proof.
  split.
  - inversion 1; subst; [left; apply w_here; auto|right; eauto].
  - intros [H|[c' [H1 H2]]]; [|eapply w_step; eauto]. clear K. induction H; [apply w_here; auto|eapply w_step; eauto].
Qed.
Lemma halos_ok owned : (forall c, In c owned -> c < tm_ncells m) -> forall k j all ghost,
  all = owned ++ ghost -> NoDup ghost -> (forall c, In c ghost -> ~ In c owned /\ c < tm_ncells m) ->
  (forall c, In c all <-> within (m_adj g) owned j c) ->
  exists gh, halos m k all ghost = Ok (owned ++ gh, gh) /\ NoDup gh /\ (forall c, In c gh -> c < tm_ncells m) /\
    (forall c, In c gh <-> within (m_adj g) owned (j + k) c /\ ~ In c owned).
Proof.
  intros Ho. induction k as [|k IH]; intros j all ghost Ea N D W; simpl.
  - exists ghost. rewrite Ea. split; auto. split; auto. split; [apply D|]. intros c. rewrite Nat.add_0_r, <- W, Ea, in_app_iff.
    split; [intros H; split; auto; apply D; auto|tauto].
  - destruct (halo_layer_ok all) as [next [E [N1 [N2 N3]]]].
    { intros c. rewrite Ea, in_app_iff. intros [H|H]; auto. apply D; auto. }
    rewrite E. cbn [bind]. destruct (IH (S j) (all ++ next) (ghost ++ next)) as [gh [E' [G1 [G2 G3]]]].
    + rewrite Ea, app_assoc. auto.
    + apply NoDup_app_iff. split; auto. split; auto. intros x H1 H2. apply N3 in H2 as [H2 _]. apply H2. rewrite Ea, in_app_iff. auto.
    + intros c Hc. apply in_app_iff in Hc as [Hc|Hc]; auto. split; auto. apply N3 in Hc as [Hc _]. intros H. apply Hc. rewrite Ea, in_app_iff. auto.
    + intros c. rewrite within_S, in_app_iff, N3, <- W. split.
      * intros [H|[H [c' [H1 H2]]]]; auto. right. exists c'. rewrite <- W. auto.
      * intros [H|[c' [H1 H2]]]; auto. rewrite <- W in H1. destruct (in_dec Nat.eq_dec c all); auto. right. eauto.
    + exists gh. rewrite E'. replace (j + S k) with (S j + k) by lia. auto.
Qed.
(** the halo of a request *)
Definition layers (z : Z) : nat := Z.to_nat z.
Lemma halo_ok cells z : (forall c, In c cells -> c < tm_ncells m) ->
  exists gh, (if (0 <? z)%Z then halos m (Z.to_nat z) cells [] else Ok (cells, [])) = Ok (cells ++ gh, gh) /\ NoDup gh /\
    (forall c, In c gh -> c < tm_ncells m) /\ (forall c, In c gh <-> within (m_adj g) cells (layers z) c /\ ~ In c cells).
Proof.
  intros H. destruct (Z.ltb_spec 0 z).
  - destruct (@halos_ok cells H (Z.to_nat z) 0 cells []) as [gh G]; auto.
    + rewrite app_nil_r; auto.
    + constructor.
    + intros c [].
    + intros c. symmetry. apply within_0.
    + exists gh. apply G.
  - exists []. rewrite app_nil_r. split; auto. split; [constructor|]. split; [intros c []|].
    intros c. unfold layers. replace (Z.to_nat z) with 0 by lia. rewrite within_0. simpl. tauto.
Qed.
End M.

(** ** claiming shared entities *)
(** master array after the requests [P] (lists of cells): the first request that touches the entity *)
Definition arr_ok (ent : nat -> list nat) (n : nat) (P : list (list nat)) (arr : list Z) : Prop :=
  length arr = n /\ forall e, e < n -> exists t, nth_error arr e = Some t /\
    ((t = (-1)%Z /\ forall p, In p P -> ~ touches ent p e) \/
     (exists i p, t = Z.of_nat i /\ nth_error P i = Some p /\ touches ent p e /\ forall p', In p' (firstn i P) -> ~ touches ent p' e)).
(** the tile's lists *)
Record el_ok (ent : nat -> list nat) (P : list (list nat)) (cells ghost : list nat) (l : elist) : Prop := {
  eo_nd : NoDup (el_owned l);
  eg_nd : NoDup (el_ghost l);
  ea_eq : el_all l = el_owned l ++ el_ghost l;
  eo_in : forall e, In e (el_owned l) <-> touches ent cells e /\ forall p, In p P -> ~ touches ent p e;
  eg_in : forall e, In e (el_ghost l) <-> (touches ent cells e \/ touches ent ghost e) /\ ~ In e (el_owned l) }.

Lemma touches_flat ent cells e : touches ent cells e <-> In e (flat_map ent cells).
Proof. unfold touches. rewrite in_flat_map. tauto. Qed.
Lemma foldM_ent A S (q : nat -> outcome (list A)) (r : nat -> list A) (f : A -> S -> outcome S) cells s :
  (forall c, In c cells -> q c = Ok (r c)) ->
  foldM cells (fun c s => es <- q c ;; foldM es f s) s = foldM (flat_map r cells) f s.
Proof.
  intros H. rewrite <- foldM_flat_map. apply foldM_ext. intros c s' Hc. rewrite H by auto. auto.
Qed.

Lemma claim_ok q ent n nc P arr cells ghost : answers q nc ent n -> (forall c, In c cells -> c < nc) -> (forall c, In c ghost -> c < nc) ->
  arr_ok ent n P arr ->
  exists l arr', claim q true (length P) cells ghost arr = Ok (l, arr') /\ arr_ok ent n (P ++ [cells]) arr' /\ el_ok ent P cells ghost l.
Proof.
  intros Q Hc Hg [LA A]. unfold claim.
  assert (Qc : forall c, In c cells -> q c = Ok (ent c)) by (intros c H; apply Q; auto).
  assert (Qg : forall c, In c ghost -> q c = Ok (ent c)) by (intros c H; apply Q; auto).
  rewrite (@foldM_ent _ _ q ent) by auto.
  set (orig e := nth e arr (-1)%Z).
  assert (OR : forall e, e < n -> nth_error arr e = Some (orig e)).
  { intros e He. apply nth_error_nth'. lia. }
  assert (ON : forall e, e < n -> (orig e = (-1)%Z <-> forall p, In p P -> ~ touches ent p e)).
  { intros e He. destruct (A e He) as [t [E B]]. rewrite OR in E by auto. injection E as E. rewrite E. destruct B as [[-> B]|[i [p [-> [B1 [B2 _]]]]]].
    - tauto.
    - split; [lia|]. intros H. exfalso. apply (H p); auto. eapply nth_error_In; eauto. }
  assert (OL : forall e, e < n -> orig e <> Z.of_nat (length P)).
  { intros e He. destruct (A e He) as [t [E B]]. rewrite OR in E by auto. injection E as E. rewrite E. destruct B as [[-> B]|[i [p [-> [B1 _]]]]]; [lia|].
    apply nth_error_lt in B1. lia. }
  assert (TL : forall e, touches ent cells e -> e < n). { intros e [c [H1 H2]]. apply (Q c); auto. }
  assert (TG : forall e, touches ent ghost e -> e < n). { intros e [c [H1 H2]]. apply (Q c); auto. }
  (* first loop *)
  destruct (@foldM_inv _ _ (claim1 true (length P))
     (fun L (s : elist * list Z) => NoDup (el_owned (fst s)) /\ NoDup (el_ghost (fst s)) /\ length (snd s) = n /\
        (forall e, In e (el_owned (fst s)) <-> In e L /\ orig e = (-1)%Z) /\
        (forall e, In e (el_ghost (fst s)) <-> In e L /\ orig e <> (-1)%Z) /\
        (forall e, e < n -> nth_error (snd s) e = Some (if memb e (el_owned (fst s)) then Z.of_nat (length P) else orig e)))
     (flat_map ent cells) (el_empty, arr)) as [[l a] [E1 (I1 & I2 & I3 & I4 & I5 & I6)]].
  { cbn [fst snd el_empty el_owned el_ghost]. split; [constructor|]. split; [constructor|]. split; auto.
    split; [intros e; simpl; tauto|]. split; [intros e; simpl; tauto|]. intros e He. cbn. auto. }
  { intros L e R [l a] ET (I1 & I2 & I3 & I4 & I5 & I6). cbn [fst snd] in *.
    assert (He : e < n). { apply TL. apply touches_flat. rewrite ET. apply in_app_iff. simpl. auto. }
    unfold claim1, master. assert (R1 := I6 e He). apply rd_Ok in R1. rewrite R1. cbn [bind].
    destruct (memb e (el_owned l)) eqn:M.
    - apply memb_spec in M. destruct (Z.eqb_spec (Z.of_nat (length P)) (-1)); [lia|]. rewrite Z.eqb_refl. cbn [negb andb].
      eexists. split; [reflexivity|]. cbn [fst snd]. split; auto. split; auto. split; auto. apply I4 in M.
      split; [|split]; auto; intros x; rewrite in_app_iff; [rewrite I4|rewrite I5]; split; try tauto; intros [[H|[<-|[]]] H']; tauto.
    - apply memb_false in M. destruct (Z.eqb_spec (orig e) (-1)) as [O|O].
      + rewrite wr_ok by lia. cbn [bind]. eexists. split; [reflexivity|]. cbn [fst snd el_owned el_ghost].
        split; [apply NoDup_snoc; auto|]. split; auto. split; [rewrite set_nth_length; auto|].
        split; [|split].
        * intros x. rewrite !in_app_iff, I4. simpl. split; [intros [[H H']|[<-|[]]]; auto|intros [[H|[<-|[]]] H']; auto].
        * intros x. rewrite in_app_iff, I5. simpl. split; [tauto|]. intros [[H|[<-|[]]] H']; tauto.
        * intros x Hx. destruct (Nat.eq_dec x e) as [->|Nx].
          -- rewrite nth_error_set_nth_eq by lia. replace (memb e (el_owned l ++ [e])) with true; auto. symmetry. apply memb_spec, in_app_iff. simpl. auto.
          -- rewrite nth_error_set_nth_ne by auto. rewrite I6 by auto. f_equal.
             assert (EM : memb x (el_owned l ++ [e]) = memb x (el_owned l)); [|rewrite EM; auto].
             apply eq_true_iff_eq. rewrite !memb_spec, in_app_iff. simpl. intuition congruence.
      + destruct (Z.eqb_spec (orig e) (Z.of_nat (length P))) as [Bad|_]; [exfalso; apply (OL e He); auto|]. cbn [negb andb].
        destruct (memb e (el_ghost l)) eqn:MG; cbn [negb].
        * apply memb_spec in MG. eexists. split; [reflexivity|]. cbn [fst snd]. split; auto. split; auto. split; auto. apply I5 in MG.
          split; [|split]; auto; intros x; rewrite in_app_iff; [rewrite I4|rewrite I5]; split; try tauto; intros [[H|[<-|[]]] H']; tauto.
        * apply memb_false in MG. eexists. split; [reflexivity|]. cbn [fst snd el_owned el_ghost]. split; auto.
          split; [apply NoDup_snoc; auto|]. split; auto. split; [|split]; auto.
          -- intros x. rewrite in_app_iff, I4. simpl. split; [tauto|]. intros [[H|[<-|[]]] H']; tauto.
          -- intros x. rewrite !in_app_iff, I5. simpl. split; [intros [[H H']|[<-|[]]]; auto|intros [[H|[<-|[]]] H']; auto]. }
  rewrite E1. cbn [bind fst snd] in *. rewrite (@foldM_ent _ _ q ent) by auto.
  (* second loop *)
  destruct (@foldM_inv _ _ (ghost1 true (length P) a)
     (fun L (l' : elist) => el_owned l' = el_owned l /\ NoDup (el_ghost l') /\
        (forall e, In e (el_ghost l') <-> In e (el_ghost l) \/ (In e L /\ ~ In e (el_owned l))))
     (flat_map ent ghost) l) as [l' [E2 (J1 & J2 & J3)]].
  { split; auto. split; auto. intros e. simpl. tauto. }
  { intros L e R l' ET (J1 & J2 & J3).
    assert (He : e < n). { apply TG. apply touches_flat. rewrite ET. apply in_app_iff. simpl. auto. }
    unfold ghost1, master. assert (R1 := I6 e He). apply rd_Ok in R1. rewrite R1. cbn [bind].
    destruct (memb e (el_owned l)) eqn:M.
    - apply memb_spec in M. rewrite Z.eqb_refl. cbn [negb andb]. eexists. split; [reflexivity|]. split; auto. split; auto.
      intros x. rewrite J3, in_app_iff. simpl. split; [tauto|]. intros [H|[[H|[<-|[]]] H']]; tauto.
    - apply memb_false in M. destruct (Z.eqb_spec (orig e) (Z.of_nat (length P))) as [Bad|_]; [exfalso; apply (OL e He); auto|]. cbn [negb andb].
      destruct (memb e (el_ghost l')) eqn:MG; cbn [negb].
      + apply memb_spec in MG. eexists. split; [reflexivity|]. split; auto. split; auto.
        intros x. rewrite J3, in_app_iff. simpl. split; [tauto|]. intros [H|[[H|[<-|[]]] H']]; try tauto. apply J3 in MG. tauto.
      + apply memb_false in MG. eexists. split; [reflexivity|]. cbn [el_owned el_ghost]. split; auto. split; [apply NoDup_snoc; auto|].
        intros x. rewrite !in_app_iff, J3. simpl. split; [intros [[H|H]|[<-|[]]]; tauto|intros [H|[[H|[<-|[]]] H']]; tauto]. }
  rewrite E2. cbn [bind]. eexists _, a. split; [reflexivity|]. split.
  - split; auto. intros e He. rewrite I6 by auto. eexists. split; [reflexivity|].
    destruct (memb e (el_owned l)) eqn:M.
    + apply memb_spec, I4 in M as [M1 M2]. right. exists (length P), cells. split; auto.
      split; [rewrite nth_error_app2, Nat.sub_diag by lia; auto|]. split; [apply touches_flat; auto|].
      rewrite firstn_app, Nat.sub_diag, firstn_all. simpl. rewrite app_nil_r. apply ON; auto.
    + apply memb_false in M. destruct (A e He) as [t [E B]]. rewrite OR in E by auto. injection E as E. destruct B as [[B1 B2]|[i [p [B1 [B2 [B3 B4]]]]]].
      * left. split; [congruence|]. intros p Hp. apply in_app_iff in Hp as [Hp|[<-|[]]]; auto. rewrite touches_flat. intros H. apply M, I4. split; [auto|congruence].
      * right. exists i, p. split; [congruence|]. assert (Li := nth_error_lt _ _ B2). split; [rewrite nth_error_app1; auto|]. split; auto.
        rewrite firstn_app. replace (i - length P) with 0 by lia. simpl. rewrite app_nil_r. auto.
  - constructor; cbn [el_owned el_ghost el_all]; auto; rewrite J1; auto.
    + intros e. rewrite I4, <- touches_flat. split; intros [H1 H2]; split; auto; apply ON; auto.
    + intros e. rewrite J3, I5, I4, <- !touches_flat. destruct (Z.eq_dec (orig e) (-1)); tauto.
Qed.

Lemma gather_ok q (r : nat -> list nat) owned ghost : (forall c, In c owned -> q c = Ok (r c)) -> (forall c, In c ghost -> q c = Ok (r c)) ->
  gather q owned ghost = Ok (EList (flat_map r owned) (flat_map r ghost) (flat_map r owned ++ flat_map r ghost)).
Proof.
  assert (C : forall cells, (forall c, In c cells -> q c = Ok (r c)) -> collect q cells = Ok (flat_map r cells)).
  { intros cells H. unfold collect. change (flat_map r cells) with ([] ++ flat_map r cells). generalize (@nil nat).
    induction cells as [|c cells IH]; intros acc; simpl; [rewrite app_nil_r; auto|].
    rewrite H by (simpl; auto). cbn [bind]. rewrite IH by (intros; apply H; simpl; auto). rewrite app_assoc. auto. }
  intros H1 H2. unfold gather. rewrite (C owned), (C ghost) by auto. auto.
Qed.
