(** C78: init_sets_from_geometric_model makes the wanted sets of all regions. *)
From Coq Require Import Reals String Sorted Lra.
From Verif Require Import Base Loop Defs MeshSet MeshSet_spec MeshSet_proofs MeshSet_proofs3 Point Geometry Regions RegionSets RegionSets_spec
  RegionSets_proofs RegionSets_proofs2 RegionSets_examples Props_RegionSets Props_LogicalSets.
Set Implicit Arguments.

(** *** Lemmas *)
Lemma label_kind s k : label_means s k -> str_to_kind s = Ok k.
Proof. destruct k; cbn [label_means]; try (intros []; fail); intros [->| ->]; reflexivity. Qed.
Lemma default_kinds_ok V G r k : In k (default_kinds V G r) <-> (k = CELL /\ rn_dim r = gd_dim G) \/ (k = FACE /\ v_faces V = true /\ 0 < gd_dim G <= rn_dim r + 1) \/ k = NODE.
Proof.
  unfold default_kinds. rewrite !in_app_iff. cbn [In].
  assert (A : In k (if rn_dim r =? gd_dim G then [CELL] else []) <-> k = CELL /\ rn_dim r = gd_dim G).
  { destruct (Nat.eqb_spec (rn_dim r) (gd_dim G)); cbn; intuition congruence. }
  assert (B : In k (if v_faces V && negb (gd_dim G =? 0) && (gd_dim G - 1 <=? rn_dim r) then [FACE] else []) <->
              k = FACE /\ v_faces V = true /\ 0 < gd_dim G <= rn_dim r + 1).
  { destruct (v_faces V); cbn [andb]; [|split; [intros []|intros (_ & X & _); discriminate]].
    destruct (Nat.eqb_spec (gd_dim G) 0); cbn [negb andb]; [cbn; intuition lia|].
    destruct (Nat.leb_spec (gd_dim G - 1) (rn_dim r)); cbn; intuition (try lia; try congruence). }
  rewrite A, B. intuition congruence.
Qed.
Lemma asked_ok V G req r ks : asked V G req r ks -> forall k, In k (requested_kinds V G req r) <-> In k ks.
Proof.
  unfold asked, requested_kinds. destruct (req (rn_name r)); [intros ->; tauto|]. intros H k. rewrite (H k). apply default_kinds_ok.
Qed.
Lemma labeled_kinds_pre G ks rest : forall pre, (forall m, In m pre -> exists r', find_rgn (gd_regions G) m = Some r' /\ ~ is_labeled r') ->
  labeled_kinds G (pre ++ rest) ks = labeled_kinds G rest ks.
Proof.
  induction pre as [|m pre IH]; intros H; cbn [app labeled_kinds]; auto. destruct (H m (or_introl eq_refl)) as (r' & E & N). rewrite E.
  assert (X : labeled_kinds G (pre ++ rest) ks = labeled_kinds G rest ks) by (apply IH; intros; apply H; right; auto).
  destruct (rn_shape r') as [| | | | | | |l] eqn:S; auto. exfalso. apply N. exists l; auto.
Qed.
(** the kinds the code builds for a region no set is named after *)
Lemma init_region_kinds V G F req r ks R : wants V G req r ks -> (forall k, find_set (heap R) (regs R) (rn_name r) k = None) ->
  (forall l m, rn_shape r = SLogical l -> In m (lr_names l) -> find_rgn (gd_regions G) m <> None) ->
  exists ks', (forall k, In k ks' <-> In k ks) /\ init_region V G F req r R = build_kinds V G F (rn_name r) ks' R.
Proof.
  intros W NF CF. unfold init_region. destruct W as [l k S L|ks NL NB A|l ks S NB A|l pre m post r' l' k S E NB FM S' L].
  - exists [k]. split; [tauto|]. rewrite S, (@label_kind _ _ L). cbn [bind]. rewrite NF. reflexivity.
  - exists (requested_kinds V G req r). split; [apply asked_ok; auto|]. unfold is_logical in NL.
    destruct (rn_shape r) eqn:S; try discriminate; try (rewrite NF; reflexivity). exfalso. apply NB. eexists; eauto.
  - exists (requested_kinds V G req r). split; [apply asked_ok; auto|]. rewrite S, NF. cbn zeta.
    assert (X : labeled_kinds G (lr_names l) (requested_kinds V G req r) = Ok (requested_kinds V G req r)).
    { rewrite <- (app_nil_r (lr_names l)), labeled_kinds_pre; auto. intros m I. destruct (find_rgn (gd_regions G) m) as [r'|] eqn:E; [|destruct (CF l m S I E)].
      exists r'. split; auto. eapply NB; eauto. }
    rewrite X. reflexivity.
  - exists [k]. split; [tauto|]. rewrite S, NF. cbn zeta.
    assert (X : labeled_kinds G (lr_names l) (requested_kinds V G req r) = Ok [k]).
    { rewrite E, labeled_kinds_pre; [cbn [labeled_kinds]; rewrite FM, S', (@label_kind _ _ L); reflexivity|].
      intros m0 I. destruct (find_rgn (gd_regions G) m0) as [r0|] eqn:E0.
      - exists r0. split; auto. eapply NB; eauto.
      - destruct (CF l m0 S); auto. rewrite E. apply in_or_app; auto. }
    rewrite X. reflexivity.
Qed.

(** from R to R' sets are only added, named and of kinds as [N] says *)
Record stage (V : mview) (G : gmodel) (R R' : registry) (N : string -> entity_kind -> Prop) : Prop := {
  st_next : next R <= next R';
  st_regs : exists ps, regs R' = regs R ++ ps;
  st_strict : forall q, q < next R -> heap R' q = heap R q;
  st_order : in_order V R';
  st_faith : forall k, faithful V G k R';
  st_new : forall q, In q (regs R') -> In q (regs R) \/ (next R <= q /\ N (ms_name (heap R' q)) (ms_kind (heap R' q))) }.
Lemma stage_refl V G R N : in_order V R -> (forall k, faithful V G k R) -> stage V G R R N.
Proof. intros O F. constructor; auto. exists []. rewrite app_nil_r; auto. Qed.
Lemma stage_trans V G R1 R2 R3 N : stage V G R1 R2 N -> stage V G R2 R3 N -> stage V G R1 R3 N.
Proof.
  intros A B. destruct (st_regs A) as [p1 E1], (st_regs B) as [p2 E2]. pose proof (st_next A). pose proof (st_next B).
  constructor; try apply B.
  - lia.
  - exists (p1 ++ p2). rewrite E2, E1, app_assoc. auto.
  - intros q L. rewrite (st_strict B) by lia. apply (st_strict A); auto.
  - intros q I. destruct (st_new B _ I) as [I'|[L X]]; [|right; split; [lia|auto]]. destruct (st_new A _ I') as [I''|[L X]]; auto.
    right. split; auto. rewrite (st_strict B); auto. apply (proj1 (st_order A)); auto.
Qed.
Lemma stage_weaken V G R R' (N N' : string -> entity_kind -> Prop) : (forall n k, N n k -> N' n k) -> stage V G R R' N -> stage V G R R' N'.
Proof.
  intros H A. constructor; try apply A. intros q I. destruct (st_new A _ I) as [I'|[L X]]; auto.
Qed.
Lemma kept_named V G R R' N n k : stage V G R R' N -> in_order V R -> (exists p, In p (regs R) /\ ms_name (heap R p) = n /\ ms_kind (heap R p) = k) ->
  exists p, In p (regs R') /\ ms_name (heap R' p) = n /\ ms_kind (heap R' p) = k.
Proof.
  intros A [B _] (p & I & E & K). exists p. destruct (st_regs A) as [ps E']. split; [rewrite E'; apply in_or_app; auto|].
  rewrite (st_strict A) by auto. auto.
Qed.
Lemma made_of_trans G a b c : made_of G a b -> made_of G b c -> made_of G a c.
Proof. intros H1 H2. induction H2; auto. eapply mo_part; eauto. Qed.

Section Init.
Context (V : mview) (G : gmodel) (req : string -> option (list entity_kind)).
Context (NU : numbered (v_types V CELL)) (PU : plain_unions G) (PS : plain_subtracts G).
Context (COM : no_complement G \/ forall k, all_owned V k).

Context (ND : NoDup (map rn_name (gd_regions G))).
Context (LIVE : forall r, In r (gd_regions G) -> rn_life r = PERMANENT).
Context (ORD : forall pre r post l m, gd_regions G = pre ++ r :: post -> rn_shape r = SLogical l -> In m (lr_names l) -> In m (map rn_name pre)).
Context (D : string -> entity_kind -> nat -> Prop).
Context (DEN : forall r, In r (gd_regions G) -> exists ks, wants V G req r ks /\ forall k, In k ks -> denotes V G k (rn_name r) (D (rn_name r) k)).

Lemma find_nodup l n r : NoDup (map rn_name l) -> In r l -> rn_name r = n -> find_rgn l n = Some r.
Proof.
  induction l as [|a l IH]; intros N I E; [destruct I|]. cbn [map] in N. inversion_clear N as [|? ? N1 N2]. cbn [find_rgn].
  destruct I as [->|I]; [rewrite E, String.eqb_refl; auto|]. destruct (String.eqb_spec (rn_name a) n) as [X|X]; auto.
  exfalso. apply N1. rewrite X, <- E. apply in_map; auto.
Qed.
Lemma find_self r : In r (gd_regions G) -> find_rgn (gd_regions G) (rn_name r) = Some r.
Proof. intros I. apply find_nodup; auto. Qed.
(** what a region is made of was defined before it *)
Lemma parts_before pre r post n : gd_regions G = pre ++ r :: post -> made_of G (rn_name r) n -> n = rn_name r \/ In n (map rn_name pre).
Proof.
  intros E H. induction H as [|b rb l m H IH FB SB I]; auto. right. destruct IH as [->|IH].
  - rewrite find_self in FB by (rewrite E; apply in_or_app; right; left; auto). injection FB as <-. eapply ORD; eauto.
  - apply in_map_iff in IH as (r0 & <- & I0). rewrite find_self in FB by (rewrite E; apply in_or_app; auto). injection FB as <-.
    apply in_split in I0 as (p1 & p2 & ->). rewrite map_app. apply in_or_app. left. eapply (ORD p1 r0 (p2 ++ r :: post)); eauto. rewrite E, <- app_assoc. auto.
Qed.

Definition asked_for (n : string) (k : entity_kind) : Prop :=
  exists r ks, In r (gd_regions G) /\ wants V G req r ks /\ In k ks /\ made_of G (rn_name r) n.
Lemma wants_same r ks ks' k : wants V G req r ks -> wants V G req r ks' -> In k ks -> In k ks'.
Proof.
  assert (AS : forall ks ks', asked V G req r ks -> asked V G req r ks' -> In k ks -> In k ks').
  { intros l1 l2 A B I. apply (proj1 (@asked_ok _ _ _ _ _ B k)). apply (proj2 (@asked_ok _ _ _ _ _ A k)). auto. }
  intros A B I. destruct A as [l k1 S1 L1|l1 NL1 NB1 A1|l l1 S1 NB1 A1|l pre m post r' l' k1 S1 E1 NB1 F1 S1' L1];
  destruct B as [lb k2 S2 L2|l2 NL2 NB2 A2|lb l2 S2 NB2 A2|lb preb mb postb r'b l'b k2 S2 E2 NB2 F2 S2' L2];
    unfold is_logical in *; try (rewrite S1 in *); try (rewrite S2 in *); try discriminate; try solve [eapply AS; eauto];
    try solve [exfalso; match goal with H : ~ is_labeled r |- _ => apply H; eexists; eauto end].
  - injection S2 as <-. apply label_kind in L1. apply label_kind in L2. assert (k1 = k2) by congruence. subst. auto.
  - injection S2 as <-. exfalso. eapply NB1; [|exact F2|eexists; eauto]. rewrite E2. apply in_or_app; right; left; auto.
  - injection S2 as <-. exfalso. eapply NB2; [|exact F1|eexists; eauto]. rewrite E1. apply in_or_app; right; left; auto.
  - injection S2 as <-. rewrite E1 in E2. assert (X : m = mb).
    { clear - E2 NB1 NB2 F1 F2 S1' S2'. revert preb E2 NB2. induction pre as [|a pre IH]; intros [|b preb] E2 NB2; cbn in E2; injection E2 as X Y; subst; auto.
      - exfalso. eapply NB2; [left; auto|exact F1|eexists; eauto].
      - exfalso. eapply NB1; [left; auto|exact F2|eexists; eauto].
      - eapply IH; eauto; intros; [eapply NB1|eapply NB2]; eauto; right; auto. }
    subst mb. rewrite F1 in F2. injection F2 as <-. rewrite S1' in S2'. injection S2' as <-. apply label_kind in L1. apply label_kind in L2.
    assert (k1 = k2) by congruence. subst. auto.
Qed.

Lemma init_loop R0 : in_order V R0 -> (forall k, faithful V G k R0) ->
  (forall p r, In p (regs R0) -> In r (gd_regions G) -> ms_name (heap R0 p) <> rn_name r) ->
  forall rest pre, gd_regions G = pre ++ rest ->
  exists F0, forall F, F0 <= F -> forall R, stage V G R0 R (fun n k => In n (map rn_name pre) /\ asked_for n k) ->
    exists R', foldM rest (init_region V G F req) R = Ok R' /\
      stage V G R0 R' (fun n k => In n (map rn_name (gd_regions G)) /\ asked_for n k) /\
      stage V G R R' asked_for /\
      forall r ks k, In r rest -> wants V G req r ks -> In k ks ->
        exists p, In p (regs R') /\ ms_name (heap R' p) = rn_name r /\ ms_kind (heap R' p) = k.
Proof.
  intros O0 FA0 FREE rest. induction rest as [|r rest IH]; intros pre E.
  - exists 0. intros F _ R S. exists R. split; auto. rewrite app_nil_r in E. rewrite E. split; auto.
    split; [apply stage_refl; apply S|]. intros r ks k [].
  - assert (IR : In r (gd_regions G)) by (rewrite E; apply in_or_app; right; left; auto).
    destruct (DEN r IR) as (ks & W & DK).
    assert (BK : exists F1, forall F, F1 <= F -> forall ks', (forall k, In k ks' <-> In k ks) -> forall R, in_order V R -> (forall k, faithful V G k R) ->
      exists R', build_kinds V G F (rn_name r) ks' R = Ok R' /\ stage V G R R' (fun n k => made_of G (rn_name r) n /\ In k ks) /\
        forall k, In k ks -> exists p, In p (regs R') /\ ms_name (heap R' p) = rn_name r /\ ms_kind (heap R' p) = k).
    { assert (X : exists F1, forall k, In k ks -> forall F, F1 <= F -> forall R, in_order V R -> faithful V G k R ->
         exists R' p, build_set_from_region V G F R (rn_name r) k false = Ok (R', Some p) /\ made V G k R R' (rn_name r) (D (rn_name r) k) p).
      { clear - DK NU PU PS COM. induction ks as [|k ks IH]; [exists 0; intros ? []|].
        destruct IH as [F1 H1]; [intros; apply DK; right; auto|].
        assert (CO : no_complement G \/ all_owned V k) by (destruct COM; auto).
        destruct (@denotes_buildable V G k false NU (or_introl (conj PU PS)) CO _ _ (DK k (or_introl eq_refl))) as [F2 H2].
        exists (Nat.max F1 F2). intros k' [<-|I] F L R O FA; [apply H2|eapply H1]; eauto; lia. }
      destruct X as [F1 H1]. exists F1. intros F L ks' HK. 
      assert (G1 : forall ks', (forall k, In k ks' -> In k ks) -> forall R, in_order V R -> (forall k, faithful V G k R) ->
        exists R', build_kinds V G F (rn_name r) ks' R = Ok R' /\ stage V G R R' (fun n k => made_of G (rn_name r) n /\ In k ks) /\
        forall k, In k ks' -> exists p, In p (regs R') /\ ms_name (heap R' p) = rn_name r /\ ms_kind (heap R' p) = k).
      { clear ks' HK. induction ks' as [|k ks' IHk]; intros HK R O FA.
        - exists R. split; auto. split; [apply stage_refl; auto|intros k []].
        - destruct (H1 k (HK k (or_introl eq_refl)) F L R O (FA k)) as (R1 & p & E1 & [GR LT NM KD HO RG]).
          pose proof (GR (made_of G (rn_name r)) (fun a b c d x y z w => @mo_part G (rn_name r) a b c d x y z w) (@mo_self G _)) as GA.
          assert (S1 : stage V G R R1 (fun n k' => made_of G (rn_name r) n /\ In k' ks)).
          { constructor; try apply GA; auto.
            - intros k'. apply (gr_faith GA); auto.
            - intros q I. destruct (gr_new GA PU _ I) as [I'|(A & B & C)]; auto. right. split; auto. split; auto. rewrite C. apply HK. left; auto. }
          destruct (IHk (fun k' I => HK k' (or_intror I)) R1 (st_order S1) (st_faith S1)) as (R' & E' & S2 & HK').
          exists R'. split; [cbn [build_kinds]; rewrite E1; cbn [bind fst]; auto|]. split; [eapply stage_trans; eauto|].
          intros k' [<-|I]; auto. eapply kept_named; [exact S2|apply (st_order S1)|]. exists p. split; auto. eapply RG; eauto. apply find_self; auto. }
      intros R O FA. destruct (G1 ks' (fun k I => proj1 (HK k) I) R O FA) as (R' & A & B & C). exists R'. split; auto. split; auto.
      intros k I. apply C. apply HK; auto. }
    destruct BK as [F1 H1]. destruct (IH (pre ++ [r])) as [F2 H2]; [rewrite <- app_assoc; auto|].
    exists (Nat.max F1 F2). intros F L R S.
    assert (NF : forall k, find_set (heap R) (regs R) (rn_name r) k = None).
    { intros k. apply find_set_none. intros q I [N _]. destruct (@st_new _ _ _ _ _ S _ I) as [I'|(_ & X & _)].
      - apply (FREE q r I' IR). rewrite <- N. rewrite (st_strict S); auto. apply (proj1 O0); auto.
      - rewrite N in X. rewrite E, map_app in ND. apply NoDup_remove_2 in ND. apply ND. apply in_or_app. auto. }
    assert (CF : forall l m, rn_shape r = SLogical l -> In m (lr_names l) -> find_rgn (gd_regions G) m <> None).
    { intros l m SH I. pose proof (@ORD _ _ _ _ _ E SH I) as X. apply in_map_iff in X as (r0 & <- & I0). rewrite find_self; [discriminate|rewrite E; apply in_or_app; auto]. }
    destruct (@init_region_kinds V G F req r ks R W NF CF) as (ks' & HK & EI).
    destruct (H1 F ltac:(lia) ks' HK R (st_order S) (st_faith S)) as (R1 & E1 & S1 & P1).
    assert (S1a : stage V G R R1 asked_for).
    { eapply stage_weaken; [|exact S1]. cbn. intros n k [A B]. exists r, ks. auto. }
    assert (S1b : stage V G R0 R1 (fun n k => In n (map rn_name (pre ++ [r])) /\ asked_for n k)).
    { eapply stage_trans; [eapply stage_weaken; [|exact S]|eapply stage_weaken; [|exact S1]].
      - cbn. intros n k [A B]. split; auto. rewrite map_app. apply in_or_app; auto.
      - cbn. intros n k [A B]. split; [|exists r, ks; auto]. rewrite map_app. apply in_or_app. destruct (@parts_before _ _ _ _ E A) as [->|]; auto. right. left; auto. }
    destruct (H2 F ltac:(lia) R1 S1b) as (R' & E' & S2 & S3 & P2).
    exists R'. split; [cbn [foldM]; rewrite EI, E1; cbn [bind]; auto|]. split; auto. split; [eapply stage_trans; eauto|].
    intros r' ks0 k [<-|I] W' IK; [|eapply P2; eauto].
    eapply kept_named; [exact S3|apply (st_order S1)|]. apply P1. eapply wants_same; [exact W'|exact W|exact IK].
Qed.
End Init.

(** The geometric model: names differ, regions are permanent, a logical region comes after the regions it combines, and every region stands for some
    entities of each kind wanted on it.  No set of the mesh is named after a region yet.  Then init_sets_from_geometric_model succeeds, keeps the sets
    there were, every wanted set is found by name and kind and holds exactly the entities the region stands for, and each new set is for a region and
    kind that was wanted, or for a part of such a region.
    Partial: unions, differences and complements as in C62. *)
Theorem c78_all_regions_partial : forall V G req D R, numbered (v_types V CELL) -> plain_unions G -> plain_subtracts G ->
  (no_complement G \/ forall k, all_owned V k) -> NoDup (map rn_name (gd_regions G)) ->
  (forall r, In r (gd_regions G) -> rn_life r = PERMANENT) ->
  (forall pre r post l m, gd_regions G = pre ++ r :: post -> rn_shape r = SLogical l -> In m (lr_names l) -> In m (map rn_name pre)) ->
  (forall r, In r (gd_regions G) -> exists ks, wants V G req r ks /\ forall k, In k ks -> denotes V G k (rn_name r) (D (rn_name r) k)) ->
  in_order V R -> (forall p r, In p (regs R) -> In r (gd_regions G) -> ms_name (heap R p) <> rn_name r) ->
  exists F0, forall F, F0 <= F -> exists R', init_sets V G F req R = Ok R' /\ sets_kept R R' /\ in_order V R' /\
    (forall r ks k, In r (gd_regions G) -> wants V G req r ks -> In k ks ->
       exists q, find_set (heap R') (regs R') (rn_name r) k = Some q /\ holds (v_types V k) (D (rn_name r) k) (heap R' q)) /\
    (forall p, In p (regs R') -> In p (regs R) \/
       exists r ks, In r (gd_regions G) /\ wants V G req r ks /\ In (ms_kind (heap R' p)) ks /\ made_of G (rn_name r) (ms_name (heap R' p))).
Proof.
  intros V G req D R NU PU PS CO ND LI ORD DEN O FREE.
  assert (FIN : forall n r, find_rgn (gd_regions G) n = Some r -> In r (gd_regions G) /\ rn_name r = n).
  { intros n r. clear. induction (gd_regions G) as [|a l IH]; cbn [find_rgn]; [discriminate|]. destruct (String.eqb_spec (rn_name a) n).
    - intros [= <-]. split; auto. left; auto.
    - intros H. apply IH in H as [A B]. split; auto. right; auto. }
  assert (FA : forall k, faithful V G k R).
  { intros k p n E I K N DN. exfalso. assert (X : exists r, find_rgn (gd_regions G) n = Some r) by (destruct DN; eauto).
    destruct X as [r X]. apply FIN in X as [A B]. apply (FREE p r I A). congruence. }
  destruct (@init_loop V G req NU PU PS CO ND LI ORD D DEN R O FA FREE (gd_regions G) [] eq_refl) as [F0 H].
  exists F0. intros F L. destruct (H F L R (stage_refl _ O FA)) as (R' & E & S & _ & P). exists R'. split; auto.
  split; [split; [apply (st_regs S)|apply (st_strict S)]|]. split; [apply (st_order S)|]. split.
  - intros r ks k I W K. destruct (P r ks k I W K) as (p & IP & N & KD).
    destruct (find_set (heap R') (regs R') (rn_name r) k) as [q|] eqn:EF.
    + exists q. split; auto. apply find_set_first in EF as (l1 & l2 & ER & A & B & _).
      assert (Iq : In q (regs R')) by (rewrite ER; apply in_or_app; right; left; auto).
      destruct (DEN r I) as (ks0 & W0 & DK). eapply (st_faith S); eauto. apply DK. eapply wants_same; [exact W|exact W0|exact K].
    + exfalso. apply (proj1 (find_set_none _ _ _ _) EF p IP). auto.
  - intros p I. destruct (st_new S _ I) as [I'|(_ & _ & X)]; auto.
Qed.
Print Assumptions c78_all_regions_partial.

(** The default kinds *)
Theorem c78_default_kinds : forall V G r ks, wants V G (fun _ => None) r ks -> ~ is_labeled r -> is_logical r = false ->
  forall k, In k ks <-> (k = CELL /\ rn_dim r = gd_dim G) \/ (k = FACE /\ v_faces V = true /\ 0 < gd_dim G <= rn_dim r + 1) \/ k = NODE.
Proof.
  intros V G r ks W NL NB. destruct W as [l k S L|ks NL' NB' A|l ks S NB' A|l pre m post r' l' k S E NB' FM S' L]; try exact A;
    unfold is_logical in NB; rewrite S in NB; try discriminate. exfalso. apply NL. eexists; eauto.
Qed.

(** Finding: a region whose set of cells is there already - made by hand or as a part of a logical region defined before - gets none of its other sets *)
Theorem c78_existing_cells_refuted : forall V G F req pre r post R R1 p, gd_regions G = pre ++ r :: post -> ~ is_labeled r ->
  foldM pre (init_region V G F req) R = Ok R1 -> find_set (heap R1) (regs R1) (rn_name r) CELL = Some p ->
  init_sets V G F req R = foldM post (init_region V G F req) R1.
Proof.
  intros V G F req pre r post R R1 p E NL EP EF. unfold init_sets. rewrite E, foldM_app, EP. cbn [bind foldM].
  assert (X : init_region V G F req r R1 = Ok R1).
  { unfold init_region. destruct (rn_shape r) eqn:S; rewrite ?EF; auto. exfalso. apply NL. eexists; eauto. }
  rewrite X. reflexivity.
Qed.
Print Assumptions c78_existing_cells_refuted.
(** ... concretely: I = A and B is defined first, for cells; then the nodes of A, wanted by default, are never made *)
Definition late_model : gmodel := GModel 2 [row_I; row_A; row_B].
Definition late_req (n : string) : option (list entity_kind) := if String.eqb n "I" then Some [CELL] else None.
Theorem c78_component_first_refuted : exists F R', init_sets row_view late_model F late_req empty_reg = Ok R' /\
  (forall ks, wants row_view late_model late_req row_A ks -> In NODE ks) /\
  find_set (heap R') (regs R') "A" CELL <> None /\ find_set (heap R') (regs R') "A" NODE = None.
Proof.
  assert (PU : plain_unions late_model).
  { intros n r l F S O. apply find_some_in in F. destruct F as [<-|[<-|[<-|[]]]]; try discriminate S; injection S as <-; discriminate O. }
  assert (PS : plain_subtracts late_model).
  { intros n r l m t F S O. apply find_some_in in F. destruct F as [<-|[<-|[<-|[]]]]; try discriminate S; injection S as <-; discriminate O. }
  assert (NC : no_complement late_model).
  { intros n r l F S. apply find_some_in in F. destruct F as [<-|[<-|[<-|[]]]]; try discriminate S; injection S as <-; discriminate. }
  assert (DN : denotes row_view late_model CELL "I" (op_means INTERSECT 4 row_AB ["A"; "B"]%string)).
  { apply (@den_logical row_view late_model CELL "I" row_I (Logical "I" 3 (Some INTERSECT) ["A"; "B"]%string) INTERSECT row_AB); auto; try discriminate.
    intros m [<-|[<-|[]]]; [apply (@den_leaf row_view late_model CELL "A" row_A)|apply (@den_leaf row_view late_model CELL "B" row_B)]; auto; try exact I; apply row_answers_cell. }
  destruct (@denotes_buildable row_view late_model CELL false row_numbered (or_introl (conj PU PS)) (or_introl NC) _ _ DN) as [F0 HB].
  destruct (HB (S (S F0)) ltac:(lia) empty_reg (empty_in_order _) (@empty_faithful _ _ _)) as (R' & p & E & [GR _ _ _ _ _]).
  pose proof (GR (fun _ => True) (fun a b c d _ _ _ _ => Logic.I) Logic.I) as GA.
  assert (KC : forall q, In q (regs R') -> ms_kind (heap R' q) = CELL).
  { intros q IQ. destruct (gr_new GA PU _ IQ) as [[]|(_ & _ & K)]; auto. }
  pose proof E as E'.
  destruct (@c77_simple_region row_view late_model CELL false "A" row_A F0 empty_reg row_numbered eq_refl eq_refl Logic.I (@row_answers_cell _ _ _) (empty_in_order _))
    as (R1 & p1 & E1 & N1 & K1 & _ & _ & _ & _ & _ & O1 & G1 & F1).
  destruct (@c77_simple_region row_view late_model CELL false "B" row_B F0 R1 row_numbered eq_refl eq_refl Logic.I (@row_answers_cell _ _ _) O1)
    as (R2 & p2 & E2 & N2 & K2 & _ & _ & _ & _ & T2 & O2 & G2 & F2).
  cbn [regs empty_reg app] in G1.
  assert (NB : find_set (heap R1) (regs R1) "B" CELL = None).
  { apply find_set_none. rewrite G1. intros q [<-|[]] [X _]. congruence. }
  set (f := S F0) in *. cbn [build_set_from_region] in E. change (find_rgn (gd_regions late_model) "I") with (Some row_I) in E.
  cbn [leaf_lists rn_shape row_I bind] in E. cbn [lr_names components] in E.
  change (find_rgn (gd_regions late_model) "A") with (Some row_A) in E. change (find_rgn (gd_regions late_model) "B") with (Some row_B) in E.
  change (find_set (heap empty_reg) (regs empty_reg) "A" CELL) with (@None nat) in E. cbn iota in E. rewrite E1 in E. cbn [bind fst snd] in E.
  rewrite NB in E. rewrite E2 in E. cbn [bind fst snd] in E. destruct (negb _); [discriminate|]. cbn [lr_op operate] in E.
  apply bind_Ok in E as (res & ER & E). apply bind_Ok in ER as (s & _ & ER). injection ER as <-. cbn [place is_temporary rn_life row_I] in E. injection E as ER EP.
  assert (L1 : p1 < next R1) by (apply O1; rewrite G1; left; auto).
  assert (L2 : p1 < next R2) by (apply O2; rewrite G2, G1; left; auto).
  assert (FA : find_set (heap R') (regs R') "A" CELL <> None).
  { intros X. apply (proj1 (find_set_none _ _ _ _) X p1).
    - rewrite <- ER. unfold rename. cbn [regs]. rewrite G2, G1. left; auto.
    - rewrite <- ER. unfold rename. cbn [heap]. destruct (Nat.eqb_spec p1 (next R2)); [lia|]. cbn [heap]. destruct (Nat.eqb_spec p1 (next R2)); [lia|].
      destruct T2 as [_ T2]. rewrite T2 by auto. auto. }
  assert (FB : find_set (heap R') (regs R') "B" CELL <> None).
  { assert (L3 : p2 < next R2) by (apply O2; rewrite G2; apply in_or_app; right; left; auto).
    intros X. apply (proj1 (find_set_none _ _ _ _) X p2).
    - rewrite <- ER. unfold rename. cbn [regs]. rewrite G2, G1. right; left; auto.
    - rewrite <- ER. unfold rename. cbn [heap]. destruct (Nat.eqb_spec p2 (next R2)); [lia|]. cbn [heap]. destruct (Nat.eqb_spec p2 (next R2)); [lia|]. auto. }
  exists (S f), R'. split; [|split; [|split]]; auto.
  - unfold init_sets. cbn [late_model gd_regions foldM].
    assert (X : init_region row_view late_model (S f) late_req row_I empty_reg = Ok R').
    { unfold init_region. cbn [row_I rn_shape rn_name lr_names]. change (find_set (heap empty_reg) (regs empty_reg) "I" CELL) with (@None nat). cbn iota zeta.
      change (labeled_kinds late_model ["A"; "B"]%string (requested_kinds row_view late_model late_req row_I)) with (Ok [CELL]).
      cbn [bind build_kinds]. rewrite E'. reflexivity. }
    rewrite X. cbn [bind]. unfold init_region at 1. cbn [row_A rn_shape rn_name]. destruct (find_set (heap R') (regs R') "A" CELL) as [q|]; [|congruence]. cbn [bind].
    unfold init_region at 1. cbn [row_B rn_shape rn_name]. destruct (find_set (heap R') (regs R') "B" CELL) as [q'|]; [|congruence]. reflexivity.
  - intros ks W. inversion W as [l k S L|ks' NL NB' A|l ks' S NB' A|l pre m post r' l' k S]; subst; try discriminate. apply A. auto.
  - apply find_set_none. intros q I [_ K]. rewrite (KC q I) in K. discriminate.
Qed.
Print Assumptions c78_component_first_refuted.

(** *** The row of cells with its five regions, default kinds: a concrete case of c78_all_regions_partial *)
Definition row_ab (k : entity_kind) (m : string) : nat -> Prop := belongs row_view (if String.eqb m "A" then row_A else row_B) k.
Definition row_di (k : entity_kind) (m : string) : nat -> Prop :=
  op_means (if String.eqb m "D" then SUBTRACT else INTERSECT) (length (v_types row_view k)) (row_ab k) ["A"; "B"]%string.
Definition row_means (n : string) (k : entity_kind) : nat -> Prop :=
  if String.eqb n "N" then op_means UNION (length (v_types row_view k)) (row_di k) ["D"; "I"]%string
  else if String.eqb n "A" || String.eqb n "B" then row_ab k n else row_di k n.
Lemma row_default n r (F : find_rgn (gd_regions row_model) n = Some r) ks : wants row_view row_model (fun _ => None) r ks -> forall k, In k ks ->
  (k = CELL /\ (r = row_A \/ r = row_B)) \/ k = NODE.
Proof.
  intros W k I. assert (A : asked row_view row_model (fun _ => None) r ks).
  { apply find_some_in in F. destruct W as [l k' S L|ks NL NB A|l ks S NB A|l pre m post r' l' k' S E NB FM S' L]; auto;
    exfalso; destruct F as [<-|[<-|[<-|[<-|[<-|[]]]]]]; try discriminate S;
    apply find_some_in in FM; destruct FM as [<-|[<-|[<-|[<-|[<-|[]]]]]]; discriminate S'. }
  apply A in I as [[-> X]|[(-> & X & _)| ->]]; auto; [|discriminate X]. left. split; auto.
  apply find_some_in in F. destruct F as [<-|[<-|[<-|[<-|[<-|[]]]]]]; auto; discriminate X.
Qed.
Lemma row_wants r : In r (gd_regions row_model) -> wants row_view row_model (fun _ => None) r (if (rn_dim r =? 2)%nat then [CELL; NODE] else [NODE]).
Proof.
  assert (LG : forall n dim p l, (forall m, In m (lr_names l) -> In m ["A"; "B"; "D"; "I"]%string) -> dim = 3 ->
     wants row_view row_model (fun _ => None) (Rgn n dim p (SLogical l)) [NODE]).
  { intros n dim p l H ->. eapply wants_logical; [reflexivity| |].
    - intros m r' I F [lb S]. apply find_some_in in F. destruct F as [<-|[<-|[<-|[<-|[<-|[]]]]]]; discriminate S.
    - intros k. cbn. intuition (try lia; try congruence; auto). }
  assert (SM : forall r0, r0 = row_A \/ r0 = row_B -> wants row_view row_model (fun _ => None) r0 [CELL; NODE]).
  { intros r0 H. apply wants_simple.
    - destruct H as [->| ->]; auto.
    - intros [l S]. destruct H as [->| ->]; discriminate.
    - assert (X : rn_dim r0 = 2) by (destruct H as [->| ->]; auto). cbn [asked]. intros k. rewrite X. cbn. intuition (try lia; try congruence; auto). }
  intros [<-|[<-|[<-|[<-|[<-|[]]]]]]; cbn [rn_dim row_A row_B row_D row_I row_N Nat.eqb]; try (apply SM; auto; fail); apply LG; auto;
    cbn [lr_names]; intros m [<-|[<-|[]]]; cbn; auto.
Qed.
Lemma row_ab_denotes k m : k = CELL \/ k = NODE -> In m ["A"; "B"]%string -> denotes row_view row_model k m (row_ab k m).
Proof.
  intros K [<-|[<-|[]]]; [apply (@den_leaf row_view row_model k "A" row_A)|apply (@den_leaf row_view row_model k "B" row_B)]; auto;
    destruct K as [->| ->]; try exact I; try apply row_answers_cell; apply row_answers_node.
Qed.
Lemma row_di_denotes k m : k = CELL \/ k = NODE -> In m ["D"; "I"]%string -> denotes row_view row_model k m (row_di k m).
Proof.
  intros K [<-|[<-|[]]].
  - apply (@den_logical row_view row_model k "D" row_D (Logical "D" 2 (Some SUBTRACT) ["A"; "B"]%string) SUBTRACT (row_ab k)); auto; try discriminate.
    intros; apply row_ab_denotes; auto.
  - apply (@den_logical row_view row_model k "I" row_I (Logical "I" 3 (Some INTERSECT) ["A"; "B"]%string) INTERSECT (row_ab k)); auto; try discriminate.
    intros; apply row_ab_denotes; auto.
Qed.
Lemma row_means_denotes k n : k = CELL \/ k = NODE -> In n ["A"; "B"; "D"; "I"; "N"]%string -> denotes row_view row_model k n (row_means n k).
Proof.
  intros K [<-|[<-|[<-|[<-|[<-|[]]]]]].
  - apply row_ab_denotes; cbn; auto.
  - apply row_ab_denotes; cbn; auto.
  - apply row_di_denotes; cbn; auto.
  - apply row_di_denotes; cbn; auto.
  - apply (@den_logical row_view row_model k "N" row_N (Logical "N" 4 (Some UNION) ["D"; "I"]%string) UNION (row_di k)); auto; try discriminate.
    intros; apply row_di_denotes; auto.
Qed.
Lemma row_order pre r post l m : gd_regions row_model = pre ++ r :: post -> rn_shape r = SLogical l -> In m (lr_names l) -> In m (map rn_name pre).
Proof.
  cbn [gd_regions row_model]. intros E S I.
  do 5 (destruct pre as [|? pre]; cbn in E; [injection E; intros; subst; try discriminate S; injection S as <-; cbn in I; cbn; tauto|injection E as X E; subst]).
  destruct pre; discriminate.
Qed.
Lemma row_init : exists F0, forall F, F0 <= F -> exists R', init_sets row_view row_model F (fun _ => None) empty_reg = Ok R' /\
    (forall n k, In n ["A"; "B"; "D"; "I"; "N"]%string -> k = NODE \/ (k = CELL /\ In n ["A"; "B"]%string) ->
       exists q, find_set (heap R') (regs R') n k = Some q /\ holds (v_types row_view k) (row_means n k) (heap R' q)) /\
    (forall n, In n ["D"; "I"; "N"]%string -> find_set (heap R') (regs R') n CELL = None).
Proof.
  destruct (@c78_all_regions_partial row_view row_model (fun _ => None) row_means empty_reg row_numbered row_plain_unions row_plain_subtracts
    (or_introl row_no_complement)) as [F0 H].
  - cbn. repeat constructor; cbn; intuition discriminate.
  - intros r [<-|[<-|[<-|[<-|[<-|[]]]]]]; auto.
  - apply row_order.
  - intros r I. exists (if (rn_dim r =? 2)%nat then [CELL; NODE] else [NODE]). split; [apply row_wants; auto|].
    intros k K. apply row_means_denotes; [destruct (rn_dim r =? 2)%nat; cbn in K; intuition auto|].
    destruct I as [<-|[<-|[<-|[<-|[<-|[]]]]]]; cbn; auto 10.
  - apply empty_in_order.
  - intros p r [].
  - exists F0. intros F L. destruct (H F L) as (R' & E & _ & _ & FD & NW). exists R'. split; auto. split.
    + intros n k I K. assert (X : exists r, In r (gd_regions row_model) /\ rn_name r = n /\ (In n ["A"; "B"]%string -> rn_dim r = 2)).
      { destruct I as [<-|[<-|[<-|[<-|[<-|[]]]]]];
        [exists row_A|exists row_B|exists row_D|exists row_I|exists row_N]; (split; [cbn; auto 10|split; [reflexivity|]]); auto; intros [X|[X|[]]]; discriminate X. }
      destruct X as (r & Ir & <- & Dm). eapply FD; [exact Ir|apply row_wants; auto|].
      destruct K as [->|[-> K]]; [destruct (rn_dim r =? 2)%nat; cbn; auto|]. rewrite (Dm K). left; auto.
    + intros n I. apply find_set_none. intros p IP [N K]. destruct (NW p IP) as [[]|(r & ks & Ir & W & IK & MO)].
      assert (FR : find_rgn (gd_regions row_model) (rn_name r) = Some r) by (destruct Ir as [<-|[<-|[<-|[<-|[<-|[]]]]]]; reflexivity).
      rewrite K in IK. destruct (@row_default _ _ FR ks W CELL IK) as [[_ X]|X]; [|discriminate].
      rewrite N in MO. assert (Y : n = rn_name r).
      { clear - MO X. induction MO as [|b rb l m MO IH FB SB IM]; auto. rewrite IH in FB. destruct X as [->| ->]; injection FB as <-; discriminate SB. }
      rewrite Y in I. destruct X as [->| ->]; cbn in I; intuition discriminate.
Qed.
(** Finding: a logical region always reports dimension 3, so in a model of dimension 2 its set of cells is not among the default kinds: after
    init_sets_from_geometric_model() the cells of A and B can be looked up, those of D, I and N - well defined - cannot. *)
Theorem c78_logical_2d_refuted : exists F R', init_sets row_view row_model F (fun _ => None) empty_reg = Ok R' /\
  (forall n, In n ["A"; "B"]%string -> find_set (heap R') (regs R') n CELL <> None) /\
  (forall n, In n ["D"; "I"; "N"]%string -> denotes row_view row_model CELL n (row_means n CELL) /\ find_set (heap R') (regs R') n CELL = None).
Proof.
  destruct row_init as [F0 H]. destruct (H F0 (le_n _)) as (R' & E & A & B). exists F0, R'. split; auto. split.
  - intros n I. destruct (A n CELL) as (q & X & _); [destruct I as [<-|[<-|[]]]; cbn; auto|auto|congruence].
  - intros n I. split; auto. apply row_means_denotes; auto. destruct I as [<-|[<-|[<-|[]]]]; cbn; auto 10.
Qed.
