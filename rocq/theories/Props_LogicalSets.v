(** C62: the set of a logical region. *)
From Coq Require Import Reals String Sorted Lra.
From Verif Require Import Base Loop Defs MeshSet MeshSet_spec MeshSet_proofs MeshSet_proofs3 Point Geometry Regions RegionSets RegionSets_spec
  RegionSets_proofs RegionSets_proofs2 RegionSets_examples Props_RegionSets.
Set Implicit Arguments.

(** If region [n] - simple or logical, with logical regions nested to any depth - stands for the entities [D] (denotes, in RegionSets_spec), then
    build_set_from_region makes a set of that name and kind that holds exactly [D], keeps all sets there were, and a permanent region is then found
    by name and kind with exactly the entities [D].
    Partial: logical regions must not be a union of one region, a difference must have something to subtract and must not subtract its first region
    from itself, and complements need a mesh without ghosts of the kind; see the refuted theorems. *)
Theorem c62_logical_region_partial : forall V G k wrev n D, numbered (v_types V CELL) -> plain_unions G -> plain_subtracts G ->
  no_complement G \/ all_owned V k -> denotes V G k n D ->
  exists F0, forall F, F0 <= F -> forall R, in_order V R -> faithful V G k R ->
    exists R' p, build_set_from_region V G F R n k wrev = Ok (R', Some p) /\ ms_name (heap R' p) = n /\ ms_kind (heap R' p) = k /\
      holds (v_types V k) D (heap R' p) /\ sets_kept R R' /\ in_order V R' /\ (forall k', faithful V G k' R -> faithful V G k' R') /\
      (forall r, find_rgn (gd_regions G) n = Some r -> rn_life r = PERMANENT ->
         exists q, find_set (heap R') (regs R') n k = Some q /\ holds (v_types V k) D (heap R' q)).
Proof.
  intros V G k wrev n D NU PU PS CO DN. destruct (@denotes_buildable V G k wrev NU (or_introl (conj PU PS)) CO n D DN) as [F0 HB].
  exists F0. intros F LF R OR FA. destruct (HB F LF R OR FA) as (R' & p & E & [GR LT NM KD HD RG]). exists R', p.
  pose proof (GR (fun _ => True) (fun a b c d _ _ _ _ => I) I) as GA.
  split; auto. split; auto. split; auto. split; auto. split; [split; [apply (gr_regs GA)|apply (gr_strict GA); auto]|].
  split; [apply (gr_order GA); auto|]. split; [apply (gr_faith GA)|].
  intros r FR PE. specialize (RG r PU FR PE).
  destruct (find_set (heap R') (regs R') n k) as [q|] eqn:EF.
  - exists q. split; auto. apply find_set_first in EF as (r1 & r2 & ER & A & B & _).
    apply (gr_faith GA FA) with (n := n); auto. rewrite ER. apply in_or_app; right; left; auto.
  - exfalso. rewrite find_set_none in EF. apply (EF p RG). auto.
Qed.
Print Assumptions c62_logical_region_partial.

(** Unions of one region are allowed if no region is a difference: the entities are still right and no set loses or gains entities - but the
    sets of the components may change their names. *)
Theorem c62_logical_entities_partial : forall V G k wrev n D, numbered (v_types V CELL) ->
  (forall n r l, find_rgn (gd_regions G) n = Some r -> rn_shape r = SLogical l -> lr_op l <> Some SUBTRACT) ->
  no_complement G \/ all_owned V k -> denotes V G k n D ->
  exists F0, forall F, F0 <= F -> forall R, in_order V R -> faithful V G k R ->
    exists R' p, build_set_from_region V G F R n k wrev = Ok (R', Some p) /\ ms_name (heap R' p) = n /\ ms_kind (heap R' p) = k /\
      holds (v_types V k) D (heap R' p) /\ entities_kept R R' /\ in_order V R' /\ (forall k', faithful V G k' R -> faithful V G k' R').
Proof.
  intros V G k wrev n D NU NS CO DN. destruct (@denotes_buildable V G k wrev NU (or_intror NS) CO n D DN) as [F0 HB].
  exists F0. intros F LF R OR FA. destruct (HB F LF R OR FA) as (R' & p & E & [GR LT NM KD HD RG]). exists R', p.
  pose proof (GR (fun _ => True) (fun a b c d _ _ _ _ => I) I) as GA.
  split; auto. split; auto. split; auto. split; auto. split; [split; [apply (gr_regs GA)|apply (gr_same GA); auto]|].
  split; [apply (gr_order GA); auto|apply (gr_faith GA)].
Qed.
Print Assumptions c62_logical_entities_partial.

(** Whatever the regions are: if build_set_from_region returns, no set that was there has lost or gained entities *)
Lemma components_kept (rec : registry -> string -> outcome (registry * option nat)) G kind :
  (forall R n R' x, rec R n = Ok (R', x) -> next R <= next R' /\ entities_kept R R') ->
  forall names R R' ps, components G rec kind R names = Ok (R', ps) -> next R <= next R' /\ entities_kept R R'.
Proof.
  intros HR. assert (RF : forall R, next R <= next R /\ entities_kept R R).
  { intros R. split; auto. split; [exists []; rewrite app_nil_r; auto|intros; apply same_refl]. }
  induction names as [|n t IH]; intros R R' ps E; cbn [components] in E; [injection E as <- <-; apply RF|].
  destruct (find_rgn (gd_regions G) n); [|discriminate]. apply bind_Ok in E as ([R1 x] & E1 & E). cbn [fst snd] in E.
  destruct x as [p|]; [|discriminate]. apply bind_Ok in E as ([R2 qs] & E2 & E). cbn [fst snd] in E. injection E as <- <-.
  assert (A : next R <= next R1 /\ entities_kept R R1) by (destruct (find_set (heap R) (regs R) n kind); [injection E1 as <- <-; apply RF|eauto]).
  destruct (IH _ _ _ E2) as [B1 [[p2 B2] B3]]. destruct A as [A1 [[p1 A2] A3]]. split; [lia|]. split.
  - exists (p1 ++ p2). rewrite B2, A2, app_assoc. auto.
  - intros q L. eapply same_trans; [apply A3; auto|apply B3; lia].
Qed.
Theorem c62_entities_kept : forall V G F R n k wrev R' x, build_set_from_region V G F R n k wrev = Ok (R', x) -> entities_kept R R'.
Proof.
  intros V G F R n k wrev R' x E. enough (X : next R <= next R' /\ entities_kept R R') by tauto. revert R n R' x E.
  induction F as [|F IH]; intros R n R' x E; cbn [build_set_from_region] in E; [discriminate|].
  destruct (find_rgn (gd_regions G) n) as [r|]; [|discriminate]. apply bind_Ok in E as (ll & E1 & E).
  destruct ll as [[o g]|].
  - apply bind_Ok in E as ([R1 p] & E2 & E). cbn [fst snd] in E. injection E as <- <-. unfold make_meshset in E2. apply bind_Ok in E2 as (s & Es & E2).
    injection E2 as <- <-. cbn [next regs heap]. split; [lia|]. split; cbn [regs heap]; [exists [next R]; auto|].
    intros q L. destruct (Nat.eqb_spec q (next R)); [lia|apply same_refl].
  - assert (RF : next R <= next R /\ entities_kept R R) by (split; auto; split; [exists []; rewrite app_nil_r; auto|intros; apply same_refl]).
    destruct (rn_shape r) as [| | | | | |l|]; try (injection E as <- <-; exact RF).
    apply bind_Ok in E as ([R1 ps] & E2 & E).
    pose proof (@components_kept _ G k (fun R n R' x => IH R n R' x) _ _ _ _ E2) as [A1 [[p1 A2] A3]].
    destruct (negb _); [discriminate|]. apply bind_Ok in E as (res & E3 & E).
    destruct res as [p|s]; cbn [place] in E; injection E as <- <-; cbn [next]; unfold rename; cbn [heap next regs].
    + split; auto. split; cbn [regs heap]; [eauto|]. intros q L. specialize (A3 q L). destruct (Nat.eqb_spec q p) as [->|]; auto.
    + split; [lia|]. split; cbn [regs heap].
      * destruct (is_temporary r); [eauto|]. exists (p1 ++ [next R1]). rewrite A2, app_assoc. auto.
      * intros q L. destruct (Nat.eqb_spec q (next R1)); [lia|]. apply A3; auto.
Qed.
Print Assumptions c62_entities_kept.

(** ** Findings *)
(** The set of a union of one region is the very set object of that region, which is renamed: a set of the region existed, and afterwards it is
    gone - looked up by name it is not found and its size is 0. *)
Theorem c62_single_union_refuted : forall V G k wrev n r l m F R p, find_rgn (gd_regions G) n = Some r -> rn_shape r = SLogical l ->
  lr_op l = Some UNION -> lr_names l = [m] -> find_rgn (gd_regions G) m <> None -> m <> n -> k = CELL \/ k = FACE \/ k = NODE ->
  find_set (heap R) (regs R) m k = Some p -> (forall q, In q (regs R) -> ms_name (heap R q) = m -> ms_kind (heap R q) = k -> q = p) ->
  exists R', build_set_from_region V G (S F) R n k wrev = Ok (R', Some p) /\
    find_set (heap R') (regs R') m k = None /\ forall t, get_set_size (heap R') (regs R') m k t = 0.
Proof.
  intros V G k wrev n r l m F R p FR SH OP NM FM NE KK EF UN. cbn [build_set_from_region]. rewrite FR.
  assert (EL : leaf_lists V r k = Ok None) by (destruct KK as [->|[->| ->]]; cbn [leaf_lists]; rewrite SH; auto).
  rewrite EL. cbn [bind]. rewrite SH, NM. cbn [components]. destruct (find_rgn (gd_regions G) m) as [rm|]; [|congruence]. rewrite EF. cbn [bind fst snd].
  apply find_set_first in EF as (r1 & r2 & ER & A & B & _).
  cbn [forallb]. rewrite B. assert (KE : kind_eqb k k = true) by (apply kind_eqb_spec; auto). rewrite KE. cbn [andb negb].
  rewrite OP. cbn [operate merge bind place]. eexists. split; [reflexivity|].
  assert (X : find_set (heap (rename R p n)) (regs (rename R p n)) m k = None).
  { apply find_set_none. unfold rename. cbn [heap regs]. intros q I [N K]. destruct (Nat.eqb_spec q p) as [->|NQ]; [cbn in N; congruence|].
    apply NQ. apply UN; auto. }
  split; [exact X|]. intros t. unfold get_set_size. rewrite X. auto.
Qed.
Print Assumptions c62_single_union_refuted.

(** A difference that has nothing to subtract, or subtracts only its first region, is not the set (or the empty set): an assertion fails. *)
Theorem c62_subtract_from_itself_refuted : forall V G k wrev n r l m t F R p, find_rgn (gd_regions G) n = Some r -> rn_shape r = SLogical l ->
  lr_op l = Some SUBTRACT -> lr_names l = m :: t -> (forall m', In m' t -> m' = m) -> find_rgn (gd_regions G) m <> None -> k = CELL \/ k = FACE \/ k = NODE ->
  find_set (heap R) (regs R) m k = Some p ->
  build_set_from_region V G (S F) R n k wrev = AssertFail.
Proof.
  intros V G k wrev n r l m t F R p FR SH OP NM HT FM KK EF. cbn [build_set_from_region]. rewrite FR.
  assert (EL : leaf_lists V r k = Ok None) by (destruct KK as [->|[->| ->]]; cbn [leaf_lists]; rewrite SH; auto).
  rewrite EL. cbn [bind]. rewrite SH, NM.
  assert (X : forall names, (forall m', In m' names -> m' = m) ->
     components G (fun R n => build_set_from_region V G F R n k wrev) k R names = Ok (R, repeat p (length names))).
  { induction names as [|a names IH]; intros H; cbn [components length repeat]; auto. rewrite (H a (or_introl eq_refl)).
    destruct (find_rgn (gd_regions G) m); [|congruence]. rewrite EF. cbn [bind fst snd]. rewrite IH by (intros; apply H; right; auto). auto. }
  rewrite X by (intros m' [<-|I]; auto). cbn [bind]. apply find_set_first in EF as (r1 & r2 & ER & A & B & _).
  assert (FK : forallb (fun p => kind_eqb (ms_kind (heap R p)) k) (repeat p (length (m :: t))) = true).
  { apply forallb_forall. intros q I. apply repeat_spec in I. subst q. rewrite B. apply kind_eqb_spec; auto. }
  rewrite FK. cbn [negb]. rewrite OP. cbn [operate length repeat].
  assert (FI : forall j, filter (fun q => negb (q =? p)) (repeat p j) = []).
  { induction j as [|j IH]; cbn [repeat filter]; auto. rewrite Nat.eqb_refl. auto. }
  change (p :: repeat p (length t)) with (repeat p (S (length t))). rewrite FI. reflexivity.
Qed.
Print Assumptions c62_subtract_from_itself_refuted.

(** A difference that subtracts its first region and another one: A - A - B gives A - B instead of nothing. *)
Theorem c62_subtract_repeated_refuted : forall V G k wrev n r l a b F R pa pb, find_rgn (gd_regions G) n = Some r -> rn_shape r = SLogical l ->
  lr_op l = Some SUBTRACT -> lr_names l = [a; a; b] -> find_rgn (gd_regions G) a <> None -> find_rgn (gd_regions G) b <> None -> k = CELL \/ k = FACE \/ k = NODE ->
  in_order V R -> find_set (heap R) (regs R) a k = Some pa -> find_set (heap R) (regs R) b k = Some pb -> pa <> pb ->
  exists R' p, build_set_from_region V G (S F) R n k wrev = Ok (R', Some p) /\
    forall e, In e (ms_owned (heap R' p)) <-> In e (ms_owned (heap R pa)) /\ ~ In e (ms_owned (heap R pb)).
Proof.
  intros V G k wrev n r l a b F R pa pb FR SH OP NM FA FB KK OR EA EB NE. cbn [build_set_from_region]. rewrite FR.
  assert (EL : leaf_lists V r k = Ok None) by (destruct KK as [->|[->| ->]]; cbn [leaf_lists]; rewrite SH; auto).
  rewrite EL. cbn [bind]. rewrite SH, NM. cbn [components]. destruct (find_rgn (gd_regions G) a); [|congruence]. destruct (find_rgn (gd_regions G) b); [|congruence].
  rewrite EA. cbn [bind fst snd]. rewrite EA. cbn [bind fst snd]. rewrite EB. cbn [bind fst snd].
  apply find_set_first in EA as (l1 & l2 & ER & A & B & _). apply find_set_first in EB as (l3 & l4 & ER' & A' & B' & _).
  cbn [forallb]. rewrite B, B'. assert (KE : kind_eqb k k = true) by (apply kind_eqb_spec; auto). rewrite KE. cbn [andb negb].
  rewrite OP. cbn [operate filter]. rewrite Nat.eqb_refl. cbn [negb]. destruct (Nat.eqb_spec pb pa); [congruence|]. cbn [negb].
  destruct OR as [OB OC]. assert (I1 : In pa (regs R)) by (rewrite ER; apply in_or_app; right; left; auto).
  assert (I2 : In pb (regs R)) by (rewrite ER'; apply in_or_app; right; left; auto).
  destruct (@subtract_ok (v_types V k) (heap R) pa [pb]) as (s & E & CS & K & HO & HG & _).
  { discriminate. }
  { intros q [<-|[<-|[]]]; [rewrite <- B|rewrite <- B']; apply OC, OB; auto. }
  { intros q [<-|[]]. congruence. }
  rewrite E. cbn [bind place]. eexists _, _. split; [reflexivity|]. unfold rename. cbn [heap]. rewrite !Nat.eqb_refl. cbn [ms_owned].
  intros e. rewrite HO. split; intros [H1 H2]; split; auto; [apply H2; left; auto|intros q [<-|[]]; auto].
Qed.
Print Assumptions c62_subtract_repeated_refuted.

(** A region that contains itself: the call never returns (however deep the recursion, it goes on) *)
Theorem c62_cycle_refuted : forall V G k wrev n r l t F R, find_rgn (gd_regions G) n = Some r -> rn_shape r = SLogical l -> lr_names l = n :: t ->
  k = CELL \/ k = FACE \/ k = NODE -> find_set (heap R) (regs R) n k = None ->
  build_set_from_region V G F R n k wrev = OutOfFuel.
Proof.
  intros V G k wrev n r l t F R FR SH NM KK EF. induction F as [|F IH]; cbn [build_set_from_region]; auto. rewrite FR.
  assert (EL : leaf_lists V r k = Ok None) by (destruct KK as [->|[->| ->]]; cbn [leaf_lists]; rewrite SH; auto).
  rewrite EL. cbn [bind]. rewrite SH, NM. cbn [components]. rewrite FR, EF, IH. reflexivity.
Qed.
(** and the depth of the recursion is all the fuel limits: with more of it the answer is the same *)
Lemma components_mono G k names : forall (rec rec' : registry -> string -> outcome (registry * option nat)) R,
  (forall R n, rec R n <> OutOfFuel -> rec' R n = rec R n) -> components G rec k R names <> OutOfFuel ->
  components G rec' k R names = components G rec k R names.
Proof.
  induction names as [|n t IH]; intros rec rec' R H NO; cbn [components] in *; auto. destruct (find_rgn (gd_regions G) n); auto.
  destruct (find_set (heap R) (regs R) n k) as [p|]; cbn [bind fst snd] in *.
  - rewrite (IH rec rec'); auto. intros C. rewrite C in NO. apply NO. reflexivity.
  - rewrite H by (intros C; rewrite C in NO; apply NO; reflexivity). destruct (rec R n) as [[R1 x]| | | |]; auto. cbn [bind fst snd] in *.
    destruct x as [p|]; auto. rewrite (IH rec rec'); auto. intros C. rewrite C in NO. apply NO. reflexivity.
Qed.
Theorem c62_depth_only : forall V G k wrev F F' n R, F <= F' -> build_set_from_region V G F R n k wrev <> OutOfFuel ->
  build_set_from_region V G F' R n k wrev = build_set_from_region V G F R n k wrev.
Proof.
  intros V G k wrev F. induction F as [|F IH]; intros F' n R L NO; cbn [build_set_from_region] in *; [congruence|].
  destruct F' as [|F']; [lia|]. cbn [build_set_from_region]. destruct (find_rgn (gd_regions G) n) as [r|]; auto.
  destruct (leaf_lists V r k) as [[[o g]|]| | | |]; auto. cbn [bind] in *. destruct (rn_shape r) as [| | | | | |l|]; auto.
  rewrite (@components_mono G k (lr_names l) (fun R n => build_set_from_region V G F R n k wrev)); auto.
  - intros R0 n0 H. apply IH; auto. lia.
  - intros C. rewrite C in NO. apply NO. reflexivity.
Qed.
Print Assumptions c62_depth_only.

(** A logical region without an operation (constructed with NOBOOLEAN, or copied: the copy constructor forgets operation and components): undefined
    behaviour, once the components are built. *)
Theorem c62_no_operation_refuted : forall V G k wrev n r l F R, find_rgn (gd_regions G) n = Some r -> rn_shape r = SLogical l ->
  (lr_op l = None \/ lr_op l = Some NOBOOLEAN) -> lr_names l = [] -> k = CELL \/ k = FACE \/ k = NODE ->
  build_set_from_region V G (S F) R n k wrev = UB.
Proof.
  intros V G k wrev n r l F R FR SH OP NM KK. cbn [build_set_from_region]. rewrite FR.
  assert (EL : leaf_lists V r k = Ok None) by (destruct KK as [->|[->| ->]]; cbn [leaf_lists]; rewrite SH; auto).
  rewrite EL. cbn [bind]. rewrite SH, NM. cbn [components bind forallb negb]. destruct OP as [->| ->]; reflexivity.
Qed.
Theorem c62_copied_region_refuted : forall V G k wrev n r l F R, find_rgn (gd_regions G) n = Some r -> rn_shape r = SLogical (copy_logical l) ->
  k = CELL \/ k = FACE \/ k = NODE -> build_set_from_region V G (S F) R n k wrev = UB.
Proof. intros. eapply c62_no_operation_refuted; eauto. Qed.
(** A logical region of edges (or sides, wedges, corners): an assertion fails unless a set of that name and kind was made by hand *)
Theorem c62_edge_sets_refuted : forall V G k wrev n r l m t rm F R, find_rgn (gd_regions G) n = Some r -> rn_shape r = SLogical l -> lr_names l = m :: t ->
  find_rgn (gd_regions G) m = Some rm -> is_logical rm = false -> k <> CELL -> k <> FACE -> k <> NODE -> find_set (heap R) (regs R) m k = None ->
  build_set_from_region V G (S (S F)) R n k wrev = AssertFail.
Proof.
  intros V G k wrev n r l m t rm F R FR SH NM FM NL K1 K2 K3 EF.
  pose proof (@c77_other_kinds_null V G k wrev m rm F R FM NL K1 K2 K3) as E. set (f := S F) in *. cbn [build_set_from_region].
  rewrite FR. assert (EL : leaf_lists V r k = Ok None) by (destruct k; try congruence; reflexivity).
  rewrite EL. cbn [bind]. rewrite SH, NM. cbn [components]. rewrite FM, EF, E. reflexivity.
Qed.
(** The set of a TEMPORARY logical region is handed out but not kept: afterwards it is not found by name *)
Theorem c62_temporary_not_found : forall V G k wrev n r l F R, find_rgn (gd_regions G) n = Some r -> rn_shape r = SLogical l -> rn_life r = TEMPORARY ->
  in_order V R -> lr_op l <> Some UNION -> k = CELL \/ k = FACE \/ k = NODE -> (forall m, In m (lr_names l) -> find_set (heap R) (regs R) m k <> None) ->
  find_set (heap R) (regs R) n k = None ->
  forall R' p, build_set_from_region V G (S F) R n k wrev = Ok (R', Some p) -> ms_name (heap R' p) = n /\ find_set (heap R') (regs R') n k = None.
Proof.
  intros V G k wrev n r l F R FR SH LI [OB _] OP KK HM EN R' p E. cbn [build_set_from_region] in E. rewrite FR in E.
  assert (EL : leaf_lists V r k = Ok None) by (destruct KK as [->|[->| ->]]; cbn [leaf_lists]; rewrite SH; auto).
  rewrite EL in E. cbn [bind] in E. rewrite SH in E. apply bind_Ok in E as ([R1 ps] & E1 & E).
  assert (R1 = R).
  { clear - E1 HM. revert ps E1. induction (lr_names l) as [|m t IH]; intros ps E1; cbn [components] in E1; [congruence|].
    destruct (find_rgn (gd_regions G) m); [|discriminate]. specialize (HM m (or_introl eq_refl)) as X. destruct (find_set (heap R) (regs R) m k) as [q|]; [|congruence].
    cbn [bind fst snd] in E1. apply bind_Ok in E1 as ([R2 qs] & E2 & E1). cbn [fst snd] in E1. injection E1 as <- <-.
    eapply IH; eauto. intros; apply HM; right; auto. }
  subst R1. destruct (negb _); [discriminate|]. apply bind_Ok in E as (res & E2 & E).
  assert (FS : exists s, res = Fresh s).
  { destruct (lr_op l) as [[]|]; cbn [operate] in E2; try discriminate; try congruence.
    - apply bind_Ok in E2 as (s & _ & E2). injection E2 as <-. eauto.
    - apply bind_Ok in E2 as (s & _ & E2). injection E2 as <-. eauto.
    - destruct ps; [discriminate|]. apply bind_Ok in E2 as (s & _ & E2). injection E2 as <-. eauto. }
  destruct FS as [s ->]. cbn [place] in E. injection E as <- <-. unfold rename, is_temporary. rewrite LI. cbn [heap regs]. rewrite Nat.eqb_refl.
  split; auto. rewrite <- EN. apply find_set_ext. intros q I. apply OB in I. destruct (Nat.eqb_spec q (next R)); auto; lia.
Qed.
Print Assumptions c62_temporary_not_found.

(** *** A concrete case (RegionSets_examples): four cells in a row, the last one a ghost; N = (A - B) or (A and B), where A covers the cells 0, 1 and B
    the cells 1, 2.  From a mesh without sets, the set of N is made, with the cells 0 and 1; it is found by name. *)
Lemma empty_in_order V : in_order V empty_reg.
Proof. split; cbn; intros p H; [destruct H|lia]. Qed.
Lemma empty_faithful V G k : faithful V G k empty_reg.
Proof. intros p n D []. Qed.
Example c62_row : exists (F : nat) (R' : registry) (p : nat), build_set_from_region row_view row_model F empty_reg "N" CELL false = Ok (R', Some p) /\
  (forall e, In e (ms_owned (heap R' p)) <-> e < 2) /\ (forall e, ~ In e (ms_ghost (heap R' p))) /\ find_set (heap R') (regs R') "N" CELL <> None.
Proof.
  destruct (@c62_logical_region_partial row_view row_model CELL false _ _ row_numbered row_plain_unions row_plain_subtracts (or_introl row_no_complement)
    row_N_denotes) as [F0 H].
  destruct (H F0 (le_n _) empty_reg (empty_in_order _) (@empty_faithful _ _ _)) as (R' & p & E & _ & _ & HO & _ & _ & _ & FI).
  exists F0, R', p. split; auto.
  assert (T : forall e t, nth_error (v_types row_view CELL) e = Some t -> e < 4 /\ (t = PARALLEL_OWNED <-> e < 3) /\ (t = PARALLEL_GHOST -> e = 3)).
  { intros e t. cbn. do 4 (destruct e as [|e]; [cbn; intros [= <-]; repeat split; try lia; try discriminate; auto|]). destruct e; discriminate. }
  split; [|split].
  - intros e. rewrite (proj1 (HO e)). split.
    + intros [A B]. apply T in A as (A & _). apply (row_N_cells A); auto.
    + intros L. split; [do 2 (destruct e as [|e]; [reflexivity|]); lia|]. apply row_N_cells; lia.
  - intros e I. apply (proj2 (HO e)) in I as [A B]. apply T in A as (A & _ & C). specialize (C eq_refl). apply row_N_cells in B; lia.
  - destruct (FI row_N eq_refl eq_refl) as (q & X & _). congruence.
Qed.
(** C77 on the same mesh: region A *)
Example c77_row : exists R' p, build_set_from_region row_view row_model 1 empty_reg "A" CELL true = Ok (R', Some p) /\
  (forall e, In e (ms_owned (heap R' p)) <-> e < 2) /\ find_set (heap R') (regs R') "A" CELL = Some p /\ find_set (heap R') (regs R') "A" NODE = None.
Proof.
  destruct (@c77_simple_region row_view row_model CELL true "A" row_A 0 empty_reg row_numbered eq_refl eq_refl I (@row_answers_cell _ _ _) (empty_in_order _))
    as (R' & p & E & NM & KD & HO & _ & _ & _ & _ & _ & RG & FI).
  exists R', p. split; auto. split.
  - intros e. rewrite (proj1 (HO e)). split.
    + intros [A B]. assert (e < 4) by (apply nth_error_lt in A; cbn in A; lia). apply row_A_cells; auto.
    + intros L. split; [do 2 (destruct e as [|e]; [reflexivity|]); lia|]. apply row_A_cells; lia.
  - split; auto. apply find_set_none. rewrite RG. cbn. intros q [<-|[]]. intros [_ K]. congruence.
Qed.
