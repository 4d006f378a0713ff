From Coq Require Import Reals String Sorted.
From Verif Require Import Base Loop Defs MeshSet MeshSet_spec MeshSet_proofs MeshSet_proofs3 Point Regions RegionSets RegionSets_spec RegionSets_proofs.
Set Implicit Arguments.

Lemma op_means_ext op n (D D' : string -> nat -> Prop) names e : (forall m, In m names -> (D m e <-> D' m e)) -> op_means op n D names e <-> op_means op n D' names e.
Proof.
  intros H. destruct op; cbn; try tauto.
  - split; intros [L A]; split; auto; intros m I B; apply (A m I); apply H; auto.
  - split; intros (m & I & A); exists m; split; auto; apply H; auto.
  - split; intros A m I; apply H; auto.
  - destruct names as [|m0 t]; [tauto|]. rewrite (H m0) by (left; auto). split; intros [A B]; split; auto; intros m I; specialize (B m I);
      specialize (H m (or_intror I)); tauto.
Qed.
Lemma denotes_unique V G k n D1 : denotes V G k n D1 -> forall D2, denotes V G k n D2 -> forall e, D1 e <-> D2 e.
Proof.
  induction 1 as [n r F NL S A|n r l op D F SH OP NB NE HD IH]; intros D2 H2 e.
  - inversion H2 as [n' r' F' NL' S' A'|n' r' l' op' D' F' SH' OP' NB' NE' HD']; subst.
    + rewrite F in F'. injection F' as <-. tauto.
    + rewrite F in F'. injection F' as <-. unfold is_logical in NL. rewrite SH' in NL. discriminate.
  - inversion H2 as [n' r' F' NL' S' A'|n' r' l' op' D' F' SH' OP' NB' NE' HD']; subst.
    + rewrite F in F'. injection F' as <-. unfold is_logical in NL'. rewrite SH in NL'. discriminate.
    + rewrite F in F'. injection F' as <-. rewrite SH in SH'. injection SH' as <-. rewrite OP in OP'. injection OP' as <-.
      apply op_means_ext. intros m I. apply IH; auto.
Qed.
Lemma same_refl s : same_entities s s. Proof. unfold same_entities. auto 10. Qed.
Lemma same_trans a b c : same_entities a b -> same_entities b c -> same_entities a c.
Proof. unfold same_entities. intuition congruence. Qed.
Lemma consistent_same types s s' : same_entities s s' -> consistent types s -> consistent types s'.
Proof.
  intros (K & O & G & A & H & R) (W & OR & IX). split; [|split].
  - destruct W. constructor; rewrite ?O, ?G, ?A, ?R, ?H; auto.
  - unfold ordered in *. rewrite A, O, G. auto.
  - intros E. rewrite H in E. specialize (IX E). unfold index_agrees, index_in_set in *. rewrite R, A. auto.
Qed.
Lemma holds_same types D s s' : same_entities s s' -> holds types D s -> holds types D s'.
Proof. intros (K & O & G & _) H e. rewrite O, G. apply H. Qed.
Lemma holds_ext types (D D' : nat -> Prop) s : (forall e, D e <-> D' e) -> holds types D s -> holds types D' s.
Proof. intros E H e. specialize (H e). rewrite <- (E e). auto. Qed.

Section Build.
Context (V : mview) (G : gmodel) (k : entity_kind) (wrev : bool).
Context (NU : numbered (v_types V CELL)).
Context (SUB : (plain_unions G /\ plain_subtracts G) \/
               (forall n r l, find_rgn (gd_regions G) n = Some r -> rn_shape r = SLogical l -> lr_op l <> Some SUBTRACT)).
Context (COM : no_complement G \/ all_owned V k).

(** a set of region names closed under components *)
Definition closed (S : string -> Prop) : Prop :=
  forall n r l m, S n -> find_rgn (gd_regions G) n = Some r -> rn_shape r = SLogical l -> In m (lr_names l) -> S m.
(** from R to R' nothing is lost; the new sets are for the names in S *)
Record grows (R R' : registry) (S : string -> Prop) : Prop := {
  gr_next : next R <= next R';
  gr_regs : exists ps, regs R' = regs R ++ ps;
  gr_same : forall q, q < next R -> same_entities (heap R q) (heap R' q);
  gr_strict : plain_unions G -> forall q, q < next R -> heap R' q = heap R q;
  gr_order : in_order V R -> in_order V R';
  gr_faith : forall k', faithful V G k' R -> faithful V G k' R';
  gr_new : plain_unions G -> forall q, In q (regs R') -> In q (regs R) \/ (next R <= q /\ S (ms_name (heap R' q)) /\ ms_kind (heap R' q) = k) }.
Lemma grows_refl R S : grows R R S.
Proof.
  constructor; auto; try (exists []; apply eq_sym, app_nil_r). intros; apply same_refl.
Qed.
Lemma grows_trans R1 R2 R3 S : in_order V R2 -> grows R1 R2 S -> grows R2 R3 S -> grows R1 R3 S.
Proof.
  intros [B2 O2] A B. destruct (gr_regs A) as [p1 E1], (gr_regs B) as [p2 E2]. pose proof (gr_next A) as L1. pose proof (gr_next B) as L2. constructor.
  - lia.
  - exists (p1 ++ p2). rewrite E2, E1, app_assoc. auto.
  - intros q L. eapply same_trans; [apply (gr_same A); auto|apply (gr_same B); lia].
  - intros P q L. rewrite (gr_strict B) by (auto; lia). apply (gr_strict A); auto.
  - intros O. apply (gr_order B), (gr_order A); auto.
  - intros k' F. apply (gr_faith B), (gr_faith A); auto.
  - intros P q I. destruct (gr_new B P _ I) as [I'|(L & X & Y)]; [|right; split; [lia|auto]].
    destruct (gr_new A P _ I') as [I''|(L & X & Y)]; auto. right. split; auto.
    rewrite (gr_strict B); auto.
Qed.

Record made (R R' : registry) (n : string) (D : nat -> Prop) (p : nat) : Prop := {
  md_grows : forall S, closed S -> S n -> grows R R' S;
  md_lt : p < next R';
  md_name : ms_name (heap R' p) = n;
  md_kind : ms_kind (heap R' p) = k;
  md_holds : holds (v_types V k) D (heap R' p);
  md_reg : forall r, plain_unions G -> find_rgn (gd_regions G) n = Some r -> rn_life r = PERMANENT -> In p (regs R') }.

(** a fresh set *)
Lemma fresh_made R n D s (reg : bool) (r : rgn) (S : string -> Prop) : in_order V R ->
  denotes V G k n D -> S n -> consistent (v_types V k) s -> ms_kind s = k -> ms_name s = n -> holds (v_types V k) D s ->
  grows R (Reg (fun q => if (q =? next R)%nat then s else heap R q) (Datatypes.S (next R)) (if reg then regs R ++ [next R] else regs R)) S.
Proof.
  intros [B O] DN Sn CS KS NS HS.
  assert (X : forall q, q < next R -> (if (q =? next R)%nat then s else heap R q) = heap R q) by (intros q L; destruct (Nat.eqb_spec q (next R)); auto; lia).
  assert (IR : forall q, In q (if reg then regs R ++ [next R] else regs R) -> In q (regs R) \/ q = next R).
  { intros q I. destruct reg; auto. apply in_app_or in I as [I|[<-|[]]]; auto. }
  constructor; cbn [heap next regs].
  - lia.
  - destruct reg; [exists [next R]|exists []; rewrite app_nil_r]; auto.
  - intros q L. rewrite X by auto. apply same_refl.
  - intros _ q L. auto.
  - intros _. split; cbn [heap next regs].
    + intros q I. apply IR in I as [I| ->]; [apply B in I|]; lia.
    + intros q L. destruct (Nat.eqb_spec q (next R)) as [->|NE]; [rewrite KS; auto|]. apply O. lia.
  - intros k' F q m D' I KQ NQ DD. cbn [heap regs] in *. apply IR in I as [I| ->].
    + pose proof (B _ I) as L. rewrite X in * by auto. apply (F q m); auto.
    + rewrite Nat.eqb_refl in *. rewrite KS in KQ. subst k'. rewrite NS in NQ. subst m. eapply holds_ext; [apply (denotes_unique DN DD)|auto].
  - intros _ q I. apply IR in I as [I| ->]; auto. right. rewrite Nat.eqb_refl, NS. auto.
Qed.

Definition buildable (F : nat) (n : string) (D : nat -> Prop) : Prop :=
  forall F', F <= F' -> forall R, in_order V R -> faithful V G k R ->
    exists R' p, build_set_from_region V G F' R n k wrev = Ok (R', Some p) /\ made R R' n D p.

Lemma leaf_buildable n r : find_rgn (gd_regions G) n = Some r -> is_logical r = false -> supported r k -> answered V r k ->
  buildable 1 n (belongs V r k).
Proof.
  intros FR NL SU AN [|F] LF R OR FA; [lia|]. cbn [build_set_from_region]. rewrite FR.
  destruct (@leaf_lists_ok V r k NU NL SU AN) as (o & g & E & ((N1 & N2 & T1 & T2) & HO & HG) & _). rewrite E. cbn [bind].
  destruct (@make_set_ok (v_types V k) n k o g wrev N1 N2 T1 T2) as (s & ES & CS & NS & KS & OS & GS & _).
  unfold make_meshset. rewrite ES. cbn [bind fst snd]. eexists _, _. split; [reflexivity|].
  assert (DN : denotes V G k n (belongs V r k)) by (eapply den_leaf; eauto).
  assert (HS : holds (v_types V k) (belongs V r k) s) by (intros e; rewrite OS, GS; auto).
  constructor; cbn [heap next regs]; rewrite ?Nat.eqb_refl; auto.
  - intros S C Sn. exact (@fresh_made R n _ s true r S OR DN Sn CS KS NS HS).
  - intros r' P FR' PE. apply in_or_app. right; left; auto.
Qed.

(** the loop over the components *)
Lemma components_made F (D : string -> nat -> Prop) : forall names,
  (forall m, In m names -> denotes V G k m (D m) /\ buildable F m (D m)) -> forall R, in_order V R -> faithful V G k R ->
  exists R' ps, components G (fun R n => build_set_from_region V G F R n k wrev) k R names = Ok (R', ps) /\
    (forall S, closed S -> (forall m, In m names -> S m) -> grows R R' S) /\
    Forall2 (fun m p => p < next R' /\ ms_kind (heap R' p) = k /\ holds (v_types V k) (D m) (heap R' p) /\ (plain_unions G -> ms_name (heap R' p) = m)) names ps.
Proof.
  induction names as [|n t IH]; intros HB R OR FA; cbn [components].
  - exists R, []. split; auto. split; [intros; apply grows_refl|constructor].
  - destruct (HB n (or_introl eq_refl)) as [DN BN].
    assert (FR : exists r, find_rgn (gd_regions G) n = Some r) by (inversion DN; eauto). destruct FR as [r FR]. rewrite FR.
    assert (X : exists R1 p, match find_set (heap R) (regs R) n k with Some p => Ok (R, Some p) | None => build_set_from_region V G F R n k wrev end = Ok (R1, Some p) /\
              (forall S, closed S -> S n -> grows R R1 S) /\ p < next R1 /\ ms_kind (heap R1 p) = k /\ holds (v_types V k) (D n) (heap R1 p) /\ ms_name (heap R1 p) = n).
    { destruct (find_set (heap R) (regs R) n k) as [p|] eqn:EF.
      - apply find_set_first in EF as (r1 & r2 & ER & A & B & _). exists R, p. split; auto. split; [intros; apply grows_refl|].
        assert (I : In p (regs R)) by (rewrite ER; apply in_or_app; right; left; auto). split; [apply OR; auto|]. split; auto. split; auto.
        apply (FA p n); auto.
      - destruct (BN F (le_n F) R OR FA) as (R1 & p & E & M). exists R1, p. split; auto. destruct M. auto 10. }
    destruct X as (R1 & p & E & GR1 & L1 & K1 & H1 & N1). rewrite E. cbn [bind fst snd].
    pose (S1 := fun _ : string => True). assert (C1 : closed S1) by (intros a b c d _ _ _ _; exact I).
    pose proof (GR1 S1 C1 I) as GA.
    assert (OR1 : in_order V R1) by (apply (gr_order GA); auto).
    assert (FA1 : faithful V G k R1) by (apply (gr_faith GA); auto).
    destruct (IH (fun m I => HB m (or_intror I)) R1 OR1 FA1) as (R' & ps & E' & GR2 & FP). rewrite E'. cbn [bind fst snd].
    exists R', (p :: ps). split; auto. pose proof (GR2 S1 C1 (fun _ _ => I)) as GB. split.
    + intros S C HS. eapply grows_trans; eauto; [apply GR1; auto; apply HS; left; auto|apply GR2; auto; intros; apply HS; right; auto].
    + constructor; auto. pose proof (gr_same GB L1) as SA. pose proof (gr_next GB). split; [lia|]. split; [destruct SA as [-> _]; auto|].
      split; [eapply holds_same; eauto|]. intros P. rewrite (gr_strict GB); auto.
Qed.

Lemma Forall2_len A B (P : A -> B -> Prop) l l' : Forall2 P l l' -> length l = length l'.
Proof. induction 1; cbn; auto. Qed.
Lemma Forall2_in_l A B (P : A -> B -> Prop) l l' : Forall2 P l l' -> forall x, In x l -> exists y, In y l' /\ P x y.
Proof. induction 1 as [|x y l l' HP F IH]; intros z I; [destruct I|]. destruct I as [<-|I]; [eexists; split; [left; eauto|eauto]|]. destruct (IH _ I) as (y' & A1 & A2). exists y'. split; [right|]; auto. Qed.
Lemma Forall2_in_r A B (P : A -> B -> Prop) l l' : Forall2 P l l' -> forall y, In y l' -> exists x, In x l /\ P x y.
Proof. induction 1 as [|x y l l' HP F IH]; intros z I; [destruct I|]. destruct I as [<-|I]; [eexists; split; [left; eauto|eauto]|]. destruct (IH _ I) as (y' & A1 & A2). exists y'. split; [right|]; auto. Qed.

Lemma operate_ok n r l op D R ps : find_rgn (gd_regions G) n = Some r -> rn_shape r = SLogical l -> lr_op l = Some op -> op <> NOBOOLEAN -> lr_names l <> [] ->
  in_order V R ->
  Forall2 (fun m p => p < next R /\ ms_kind (heap R p) = k /\ holds (v_types V k) (D m) (heap R p) /\ (plain_unions G -> ms_name (heap R p) = m)) (lr_names l) ps ->
  exists res, operate (v_types V k) (heap R) (lr_op l) ps = Ok res /\ consistent (v_types V k) (deref (heap R) res) /\ ms_kind (deref (heap R) res) = k /\
    holds (v_types V k) (op_means op (length (v_types V k)) D (lr_names l)) (deref (heap R) res) /\
    (forall p, res = Existing p -> op = UNION /\ length (lr_names l) = 1 /\ p < next R).
Proof.
  intros FR SH OP NB NE [B O] FP.
  assert (HC : forall p, In p ps -> consistent (v_types V k) (heap R p) /\ ms_kind (heap R p) = k /\ p < next R).
  { intros p I. destruct (Forall2_in_r FP _ I) as (m & _ & L & K & _). rewrite <- K at 1. auto. }
  assert (PN : ps <> []) by (intros ->; inversion FP; congruence).
  assert (C : forall p, In p ps -> consistent (v_types V k) (heap R p)) by (intros; apply HC; auto).
  assert (KK : forall p q, In p ps -> In q ps -> ms_kind (heap R p) = ms_kind (heap R q)) by (intros p q I J; apply HC in I; apply HC in J; destruct I as (_ & -> & _), J as (_ & -> & _); auto).
  assert (P0 : exists p0, In p0 ps) by (destruct ps as [|p0 ps']; [congruence|exists p0; left; auto]). destruct P0 as [p0 I0].
  (* membership in a component's set *)
  assert (HM : forall m, In m (lr_names l) -> exists p, In p ps /\ holds (v_types V k) (D m) (heap R p)).
  { intros m I. destruct (Forall2_in_l FP _ I) as (p & J & _ & _ & H & _). eauto. }
  assert (HP : forall p, In p ps -> exists m, In m (lr_names l) /\ holds (v_types V k) (D m) (heap R p)).
  { intros p I. destruct (Forall2_in_r FP _ I) as (m & J & _ & _ & H & _). eauto. }
  rewrite OP. destruct op; [congruence| | | |]; cbn [operate op_means].
  - (* complement *) destruct COM as [NC|(m & AO)]; [exfalso; eapply NC; eauto|].
    rewrite AO in *. replace (repeat PARALLEL_OWNED m) with (owned_first m 0) in * by (unfold owned_first; cbn; rewrite app_nil_r; auto).
    destruct (@complement_ok m (heap R) ps PN C KK) as (s & E & CS & K & HO & HG & _). rewrite E. cbn [bind]. exists (Fresh s). split; auto. split; auto.
    split; [cbn [deref]; rewrite (K p0 I0); apply HC; auto|]. split; [|intros p [=]].
    intros e. cbn [deref]. rewrite HO, HG. assert (N : nth_error (owned_first m 0) e = if (e <? m)%nat then Some PARALLEL_OWNED else None).
    { unfold owned_first. cbn [repeat]. rewrite app_nil_r. apply nth_repeat_some. }
    assert (LE : length (owned_first m 0) = m) by (unfold owned_first; rewrite app_length, !repeat_length; lia). rewrite LE.
    rewrite N. destruct (Nat.ltb_spec e m) as [L|L]; [|split; split; try (intros []; lia); try (intros [? ?]; discriminate); intros []].
    split.
    + split.
      * intros [_ H]. split; auto. split; auto. intros q I D1. destruct (HM q I) as (p & J & HH). apply (H p J). apply HH. rewrite N.
        destruct (Nat.ltb_spec e m); auto; lia.
      * intros (_ & _ & H). split; auto. intros p Ip J. destruct (HP p Ip) as (q & Iq & HH). destruct (proj1 (proj1 (HH e)) J) as [_ J2]. apply (H q Iq J2).
    + split; [intros []|intros [? ?]; discriminate].
  - (* union *) destruct (@merge_ok (v_types V k) (heap R) ps PN C KK) as (res & E & CS & K & HO & HG & _). exists res. split; auto. split; auto.
    split; [rewrite (K p0 I0); apply HC; auto|]. cbn [ms_entities] in *. split.
    + intros e. rewrite HO, HG. split; split.
      * intros (p & I & J). destruct (HP p I) as (m & Im & HH). apply (proj1 (HH e)) in J. destruct J as [T J]. split; auto. exists m. auto.
      * intros (T & m & Im & J). destruct (HM m Im) as (p & I & HH). exists p. split; auto. apply (proj1 (HH e)); auto.
      * intros (p & I & J). destruct (HP p I) as (m & Im & HH). apply (proj2 (HH e)) in J. destruct J as [T J]. split; auto. exists m. auto.
      * intros (T & m & Im & J). destruct (HM m Im) as (p & I & HH). exists p. split; auto. apply (proj2 (HH e)); auto.
    + intros p ->. split; auto. pose proof (Forall2_len FP) as LL. destruct ps as [|a [|b ps']]; [congruence| |].
      * cbn [merge] in E. injection E as ->. split; auto. apply (HC p). left; auto.
      * cbn [merge] in E. destruct (negb _); [discriminate|]. apply bind_Ok in E as (? & _ & E). discriminate.
  - (* intersect *) destruct (@intersect_ok (v_types V k) (heap R) ps PN C KK) as (s & E & CS & K & HO & HG & _). rewrite E. cbn [bind]. exists (Fresh s). split; auto. split; auto.
    split; [cbn [deref]; rewrite (K p0 I0); apply HC; auto|]. split; [|intros p [=]].
    intros e. cbn [deref]. rewrite HO, HG. split; split.
    + intros H. split; [destruct (HP p0 I0) as (m & _ & HH); apply (proj1 (HH e)); auto|]. intros m Im. destruct (HM m Im) as (p & I & HH). apply (proj1 (HH e)); auto.
    + intros (T & H) p I. destruct (HP p I) as (m & Im & HH). apply (proj1 (HH e)); auto.
    + intros H. split; [destruct (HP p0 I0) as (m & _ & HH); apply (proj2 (HH e)); auto|]. intros m Im. destruct (HM m Im) as (p & I & HH). apply (proj2 (HH e)); auto.
    + intros (T & H) p I. destruct (HP p I) as (m & Im & HH). apply (proj2 (HH e)); auto.
  - (* subtract *) destruct SUB as [[PU PS]|NS]; [|exfalso; eapply NS; eauto].
    destruct (lr_names l) as [|m0 t] eqn:EN; [congruence|]. destruct (PS _ _ _ m0 t FR SH OP EN) as [TN MI].
    destruct ps as [|q0 qs]; [congruence|]. assert (X := FP). inversion_clear X as [|? ? ? ? (L0 & K0 & H0 & N0) FQ].
    assert (FI : filter (fun p => negb (p =? q0)%nat) (q0 :: qs) = qs).
    { cbn [filter]. rewrite Nat.eqb_refl. cbn [negb]. assert (X : forall q, In q qs -> negb (q =? q0)%nat = true).
      { intros q I. destruct (Nat.eqb_spec q q0) as [->|]; auto. exfalso. destruct (Forall2_in_r FQ _ I) as (m & J & _ & _ & _ & N). apply MI.
        rewrite <- (N0 PU), (N PU). auto. }
      clear - X. induction qs as [|q qs IH]; cbn [filter]; auto. rewrite X by (left; auto). f_equal. apply IH. intros; apply X; right; auto. }
    rewrite FI. assert (QN : qs <> []) by (intros ->; inversion FQ; congruence).
    destruct (@subtract_ok (v_types V k) (heap R) q0 qs QN C) as (s & E & CS & K & HO & HG & _); [intros p I; apply KK; [right|left]; auto|].
    rewrite E. cbn [bind]. exists (Fresh s). split; auto. split; auto. split; [cbn [deref]; congruence|]. split; [|intros p [=]].
    intros e. cbn [deref]. rewrite HO, HG. split; split.
    + intros [J H]. apply (proj1 (H0 e)) in J as [T J]. split; auto. split; auto. intros m I D1. destruct (Forall2_in_l FQ _ I) as (p & Ip & _ & _ & HH & _). apply (H p Ip). apply (proj1 (HH e)); auto.
    + intros (T & J & H). split; [apply (proj1 (H0 e)); auto|]. intros p I D1. destruct (Forall2_in_r FQ _ I) as (m & Im & _ & _ & HH & _). destruct (proj1 (proj1 (HH e)) D1) as [_ D2]. apply (H m Im D2).
    + intros [J H]. apply (proj2 (H0 e)) in J as [T J]. split; auto. split; auto. intros m I D1. destruct (Forall2_in_l FQ _ I) as (p & Ip & _ & _ & HH & _). apply (H p Ip). apply (proj2 (HH e)); auto.
    + intros (T & J & H). split; [apply (proj2 (H0 e)); auto|]. intros p I D1. destruct (Forall2_in_r FQ _ I) as (m & Im & _ & _ & HH & _). destruct (proj1 (proj2 (HH e)) D1) as [_ D2]. apply (H m Im D2).
Qed.

Lemma logical_buildable n r l op D F : find_rgn (gd_regions G) n = Some r -> rn_shape r = SLogical l -> lr_op l = Some op -> op <> NOBOOLEAN ->
  lr_names l <> [] -> (k = CELL \/ k = FACE \/ k = NODE) -> (forall m, In m (lr_names l) -> denotes V G k m (D m) /\ buildable F m (D m)) ->
  buildable (Datatypes.S F) n (op_means op (length (v_types V k)) D (lr_names l)).
Proof.
  intros FR SH OP NB NE KK HB [|F'] LF R OR FA; [lia|]. cbn [build_set_from_region]. rewrite FR.
  assert (EL : leaf_lists V r k = Ok None) by (destruct KK as [->|[->| ->]]; cbn [leaf_lists]; rewrite SH; auto).
  rewrite EL. cbn [bind]. rewrite SH.
  assert (DN : denotes V G k n (op_means op (length (v_types V k)) D (lr_names l))) by (eapply den_logical; eauto; intros; apply HB; auto).
  assert (HB' : forall m, In m (lr_names l) -> denotes V G k m (D m) /\ buildable F' m (D m)).
  { intros m I. destruct (HB m I) as [A B]. split; auto. intros F2 L2. apply B. lia. }
  destruct (@components_made F' D (lr_names l) HB' R OR FA) as (R1 & ps & EC & GR & FP). rewrite EC. cbn [bind].
  assert (FK : forallb (fun p => kind_eqb (ms_kind (heap R1 p)) k) ps = true).
  { apply forallb_forall. intros p I. apply kind_eqb_spec. destruct (Forall2_in_r FP _ I) as (m & _ & _ & K & _). auto. }
  rewrite FK. cbn [negb].
  pose (S1 := fun _ : string => True). assert (C1 : closed S1) by (intros a b c d _ _ _ _; exact I).
  pose proof (GR S1 C1 (fun _ _ => I)) as GA.
  assert (OR1 : in_order V R1) by (apply (gr_order GA); auto).
  assert (FA1 : faithful V G k R1) by (apply (gr_faith GA); auto).
  destruct (@operate_ok n r l op D R1 ps FR SH OP NB NE OR1 FP) as (res & ER & CS & KS & HS & EX). rewrite ER. cbn [bind].
  assert (GC : forall S, closed S -> S n -> grows R R1 S).
  { intros S C Sn. apply GR; auto. intros m I. eapply C; eauto. }
  destruct res as [p|s]; cbn [place deref] in *.
  - (* the very set of the only component *)
    destruct (EX p eq_refl) as (-> & LN & LP).
    assert (NP : ~ plain_unions G) by (intros P; eapply P; eauto).
    eexists _, _. split; [reflexivity|].
    set (s' := MSet n (ms_kind (heap R1 p)) (ms_owned (heap R1 p)) (ms_ghost (heap R1 p)) (ms_all (heap R1 p)) (ms_have_rev (heap R1 p)) (ms_rev (heap R1 p))).
    assert (SS : same_entities (heap R1 p) s') by (unfold same_entities, s'; cbn; auto 10).
    unfold rename. fold s'. constructor; cbn [heap next regs]; rewrite ?Nat.eqb_refl; auto; try contradiction.
    + intros S C Sn. eapply grows_trans; [exact OR1|apply GC; auto|]. constructor; cbn [heap next regs]; auto; try (intros; contradiction).
      * exists []. rewrite app_nil_r. auto.
      * intros q L. destruct (Nat.eqb_spec q p) as [->|]; auto. apply same_refl.
      * intros [B O]. split; cbn [heap next regs]; auto. intros q L. destruct (Nat.eqb_spec q p) as [->|]; auto.
        eapply consistent_same; eauto. apply O; auto.
      * intros k' FK' q m D' I' KQ NQ DD. cbn [heap regs] in *. destruct (Nat.eqb_spec q p) as [->|NEQ]; [|apply (FK' q m); auto].
        cbn [ms_kind ms_name s'] in KQ, NQ. subst m. rewrite KS in KQ. rewrite <- KQ in *.
        eapply holds_ext; [apply (denotes_unique DN DD)|]. eapply holds_same; eauto.
  - eexists _, _. split; [reflexivity|].
    set (s' := MSet n (ms_kind s) (ms_owned s) (ms_ghost s) (ms_all s) (ms_have_rev s) (ms_rev s)).
    assert (SS : same_entities s s') by (unfold same_entities, s'; cbn; auto 10).
    unfold rename. cbn [heap next regs]. rewrite Nat.eqb_refl. fold s'.
    assert (GF : forall S : string -> Prop, S n -> grows R1 (Reg (fun q => if (q =? next R1)%nat then s' else heap R1 q) (Datatypes.S (next R1)) (if negb (is_temporary r) then regs R1 ++ [next R1] else regs R1)) S).
    { intros S Sn. apply (@fresh_made R1 n _ s' (negb (is_temporary r)) r S OR1 DN Sn); auto; try (eapply consistent_same; eauto; fail); try (eapply holds_same; eauto; fail). }
    assert (HX : forall S : string -> Prop, S n -> grows R1 (Reg (fun q => if (q =? next R1)%nat then s' else if (q =? next R1)%nat then s else heap R1 q) (Datatypes.S (next R1)) (if is_temporary r then regs R1 else regs R1 ++ [next R1])) S).
    { intros S Sn. specialize (GF S Sn). destruct (is_temporary r); cbn [negb] in GF; destruct GF as [G1 G2 G3 G4 G5 G6 G7]; constructor; cbn [heap next regs] in *; auto.
      all: try (intros q L; specialize (G3 q L); destruct (q =? next R1)%nat; auto; fail).
      all: try (intros P q L; specialize (G4 P q L); destruct (q =? next R1)%nat; auto; fail).
      all: try (intros O; specialize (G5 O); destruct G5 as [G8 G9]; cbn [heap next regs] in *; split; cbn [heap next regs]; auto; intros q L; specialize (G9 q L); destruct (q =? next R1)%nat; auto; fail).
      all: try (intros k' FK'; specialize (G6 k' FK'); intros q m D' I'; specialize (G6 q m D' I'); cbn [heap] in *; destruct (q =? next R1)%nat; auto; fail).
      all: try (intros P q I'; specialize (G7 P q I'); destruct (q =? next R1)%nat; auto; fail). }
    constructor; cbn [heap next regs]; rewrite ?Nat.eqb_refl; auto.
    + intros S C Sn. eapply grows_trans; [exact OR1|apply GC; auto|apply HX; auto].
    + intros r' P FR' PE. assert (r' = r) by congruence. subst r'. unfold is_temporary. rewrite PE. apply in_or_app. right; left; auto.
Qed.

Lemma denotes_kind n D : denotes V G k n D -> k = CELL \/ k = FACE \/ k = NODE.
Proof.
  induction 1 as [n r F NL S A|n r l op D F SH OP NB NE HD IH].
  - destruct k; cbn in S; auto; destruct S.
  - destruct (lr_names l) as [|m t]; [congruence|]. apply (IH m). left; auto.
Qed.
Theorem denotes_buildable n D : denotes V G k n D -> exists F, buildable F n D.
Proof.
  intros H. pose proof (denotes_kind H) as KK. induction H as [n r F NL S A|n r l op D F SH OP NB NE HD IH].
  - exists 1. apply leaf_buildable; auto.
  - assert (X : exists F0, forall m, In m (lr_names l) -> buildable F0 m (D m)).
    { clear - IH KK. revert IH. generalize (lr_names l). intros t. induction t as [|m t IHt]; intros IH; [exists 0; intros ? []|].
      destruct IHt as [F1 H1]; [intros a Ia; apply IH; right; auto|]. destruct (IH m (or_introl eq_refl)) as [F2 H2].
      exists (Nat.max F1 F2). intros a [<-|I] F' L; [apply H2|apply (H1 a I)]; lia. }
    destruct X as [F0 H0]. exists (Datatypes.S F0). eapply logical_buildable; eauto.
Qed.
End Build.
