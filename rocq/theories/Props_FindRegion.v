(** C80: valid_region_name and find_meshset_from_region. *)
From Coq Require Import Reals String Sorted Lra.
From Verif Require Import Base Loop Defs MeshSet MeshSet_spec MeshSet_proofs MeshSet_proofs3 Point Geometry Regions RegionSets RegionSets_spec
  RegionSets_proofs RegionSets_proofs2 RegionSets_examples Props_RegionSets Props_LogicalSets Props_InitSets.
Set Implicit Arguments.

(** a region is of the right kind to ask for entities of kind [k] on it *)
Definition right_kind (V : mview) (r : rgn) (k : entity_kind) : Prop :=
  match rn_shape r with
  | SColor _ => True
  | SLabeled l => (k = CELL /\ ls_entity l = "CELL" \/ k = FACE /\ ls_entity l = "FACE" \/ k = EDGE /\ ls_entity l = "EDGE" \/ k = NODE /\ ls_entity l = "NODE")%string
  | _ => (k = CELL /\ (v_celldim V <= rn_dim r \/ rn_dim r = 0)) \/ (k = FACE /\ v_celldim V <= rn_dim r + 1) \/ k = NODE
  end.
Lemma valid_kind_ok V r k : valid_kind V r k = true <-> (k = CELL /\ (v_celldim V <= rn_dim r \/ rn_dim r = 0)) \/ (k = FACE /\ v_celldim V <= rn_dim r + 1) \/ k = NODE.
Proof.
  destruct k; cbn [valid_kind]; try (split; [discriminate|intuition discriminate]); try (split; auto; fail).
  - rewrite Nat.leb_le. intuition (try discriminate; try lia; auto 10).
  - rewrite orb_true_iff, Nat.leb_le, Nat.eqb_eq. intuition (try discriminate; auto).
Qed.
Lemma labeled_kind_ok s k : has_string k && String.eqb s (kind_string k) = true <->
  (k = CELL /\ s = "CELL" \/ k = FACE /\ s = "FACE" \/ k = EDGE /\ s = "EDGE" \/ k = NODE /\ s = "NODE")%string.
Proof.
  rewrite andb_true_iff, String.eqb_eq. destruct k; cbn [has_string kind_string]; intuition (try discriminate; auto 10).
Qed.
(** Region names being distinct: a name is valid for a kind iff it names a region that is right for the kind *)
Theorem c80_valid_names : forall V G n k, NoDup (map rn_name (gd_regions G)) ->
  valid_region_name V G n k = true <-> exists r, find_rgn (gd_regions G) n = Some r /\ right_kind V r k.
Proof.
  intros V G n k. unfold valid_region_name. induction (gd_regions G) as [|a l IH]; intros ND; cbn [valid_in find_rgn].
  - split; [discriminate|intros (r & E & _); discriminate].
  - cbn [map] in ND. inversion_clear ND as [|? ? N1 N2]. destruct (String.eqb_spec (rn_name a) n) as [E|E]; [|apply IH; auto].
    assert (NV : valid_in V l n k = false).
    { rewrite <- E. clear - N1. induction l as [|b l IH]; auto. cbn [valid_in]. destruct (String.eqb_spec (rn_name b) (rn_name a)) as [X|X].
      - exfalso. apply N1. left; auto.
      - apply IH. intros I. apply N1. right; auto. }
    transitivity (right_kind V a k); [|split; [eauto|intros (r & [= <-] & H); auto]]. unfold right_kind.
    destruct (rn_shape a); try apply labeled_kind_ok; try (split; auto; fail); rewrite NV, <- valid_kind_ok; destruct (valid_kind V a k); intuition congruence.
Qed.
(** the set is found iff the name is valid for the kind and find_meshset finds one; nothing is made without create_if_missing *)
Theorem c80_lookup : forall V G F R n k wrev p,
  (find_meshset_from_region V G R n k = Some p <-> valid_region_name V G n k = true /\ find_set (heap R) (regs R) n k = Some p) /\
  find_or_build V G F R n k false wrev = Ok (R, find_meshset_from_region V G R n k) /\
  (valid_region_name V G n k = false -> find_or_build V G F R n k true wrev = Ok (R, None)) /\
  (find_meshset_from_region V G R n k = Some p -> find_or_build V G F R n k true wrev = Ok (R, Some p)).
Proof.
  intros V G F R n k wrev p. unfold find_meshset_from_region, find_or_build. destruct (valid_region_name V G n k).
  - destruct (find_set (heap R) (regs R) n k) as [q|]; repeat split; try congruence; try tauto; intuition congruence.
  - repeat split; try congruence; try tauto; intuition congruence.
Qed.
(** with create_if_missing a missing set is made, as C62 says, and found from then on *)
Theorem c80_create_partial : forall V G k wrev n D r, numbered (v_types V CELL) -> plain_unions G -> plain_subtracts G ->
  no_complement G \/ all_owned V k -> denotes V G k n D -> NoDup (map rn_name (gd_regions G)) ->
  find_rgn (gd_regions G) n = Some r -> rn_life r = PERMANENT -> right_kind V r k ->
  exists F0, forall F, F0 <= F -> forall R, in_order V R -> faithful V G k R ->
    exists R' p q, find_or_build V G F R n k true wrev = Ok (R', Some p) /\ holds (v_types V k) D (heap R' p) /\ sets_kept R R' /\
      find_meshset_from_region V G R' n k = Some q /\ holds (v_types V k) D (heap R' q).
Proof.
  intros V G k wrev n D r NU PU PS CO DN ND FR LI RK.
  assert (VA : valid_region_name V G n k = true) by (apply c80_valid_names; auto; exists r; auto).
  destruct (@c62_logical_region_partial V G k wrev n D NU PU PS CO DN) as [F0 H]. exists F0. intros F L R O FA.
  unfold find_or_build, find_meshset_from_region. rewrite VA. destruct (find_set (heap R) (regs R) n k) as [q|] eqn:EF.
  - exists R, q, q. assert (HD : holds (v_types V k) D (heap R q)).
    { apply find_set_first in EF as (l1 & l2 & ER & A & B & _). eapply FA; eauto. rewrite ER. apply in_or_app; right; left; auto. }
    split; auto. split; auto. split; [split; auto; exists []; rewrite app_nil_r; auto|]. auto.
  - destruct (H F L R O FA) as (R' & p & E & NM & KD & HD & SK & _ & _ & FI). destruct (FI r FR LI) as (q & EQ & HQ).
    exists R', p, q. auto 10.
Qed.
Print Assumptions c80_create_partial.

(** Finding: a labeled set whose entity string is "Entity_kind::CELL" is built - the string is accepted there - but its name is never valid, so
    find_meshset_from_region does not find the set *)
Theorem c80_prefixed_label_refuted : forall V G n r l F R o g, NoDup (map rn_name (gd_regions G)) -> find_rgn (gd_regions G) n = Some r -> rn_shape r = SLabeled l ->
  ls_entity l = "Entity_kind::CELL"%string -> numbered (v_types V CELL) -> in_order V R -> v_labeled V l CELL = Ok (o, g) -> typed (v_types V CELL) o g ->
  find_set (heap R) (regs R) n CELL = None ->
  exists R' p, build_set_from_region V G (S F) R n CELL false = Ok (R', Some p) /\ find_set (heap R') (regs R') n CELL = Some p /\
    find_meshset_from_region V G R' n CELL = None.
Proof.
  intros V G n r l F R o g ND FR SH EN NU O EL TY EF.
  destruct (@c77_simple_region V G CELL false n r F R NU FR) as (R' & p & E & _ & _ & _ & _ & _ & _ & _ & _ & _ & FI); auto.
  - unfold is_logical. rewrite SH. auto.
  - cbn [supported]. rewrite SH. auto.
  - unfold answered. rewrite SH. exists o, g. auto.
  - exists R', p. split; auto. rewrite EF in FI. split; auto. unfold find_meshset_from_region.
    destruct (valid_region_name V G n CELL) eqn:V0; auto. apply c80_valid_names in V0 as (r' & E' & H); auto. rewrite FR in E'. injection E' as <-.
    unfold right_kind in H. rewrite SH, EN in H. intuition discriminate.
Qed.
Print Assumptions c80_prefixed_label_refuted.
(** Finding: names that are valid for a kind although no set can be made: cells of a polygon (dimension >= that of the mesh) or faces and nodes of a color
    function - create_if_missing throws *)
Theorem c80_valid_but_throws_refuted : forall V G n k r F R wrev, NoDup (map rn_name (gd_regions G)) -> find_rgn (gd_regions G) n = Some r ->
  match rn_shape r with
  | SPolygon _ => k = CELL /\ v_celldim V <= rn_dim r
  | SColor _ => k = FACE \/ k = NODE
  | SPoint _ => k = FACE /\ v_celldim V = 1
  | _ => False end -> find_set (heap R) (regs R) n k = None ->
  valid_region_name V G n k = true /\ find_or_build V G (S F) R n k true wrev = Thrown.
Proof.
  intros V G n k r F R wrev ND FR H EF. assert (VA : valid_region_name V G n k = true).
  { apply c80_valid_names; auto. exists r. split; auto. unfold right_kind. destruct (rn_shape r); auto; try (destruct H; fail).
    - right; left. intuition lia.
    - left. intuition lia. }
  split; auto. unfold find_or_build. rewrite VA, EF. apply (@c77_unsupported V G k wrev n r F R FR).
  - unfold is_logical. destruct (rn_shape r); auto; destruct H.
  - destruct (rn_shape r); try (destruct H; fail).
    + destruct H as [-> _]; exact I.
    + destruct H as [-> _]; exact I.
    + destruct H as [->| ->]; exact I.
Qed.
(** Concrete: on the row of cells, with the regions A, B, D, I, N, the cells of N are made on demand *)
Example c80_row : exists F R' p q, find_or_build row_view row_model F empty_reg "N" CELL true false = Ok (R', Some p) /\
  find_meshset_from_region row_view row_model R' "N" CELL = Some q /\ (forall e, In e (ms_owned (heap R' q)) <-> e < 2).
Proof.
  destruct (@c80_create_partial row_view row_model CELL false "N" _ row_N row_numbered row_plain_unions row_plain_subtracts (or_introl row_no_complement) row_N_denotes) as [F0 H]; auto.
  - cbn. repeat constructor; cbn; intuition discriminate.
  - left. cbn. split; [auto|left; lia].
  - destruct (H F0 (le_n _) empty_reg (empty_in_order _) (@empty_faithful _ _ _)) as (R' & p & q & E & _ & _ & E' & HQ).
    exists F0, R', p, q. split; auto. split; auto. intros e. rewrite (proj1 (HQ e)). split.
    + intros [A B]. apply row_N_cells; auto. apply nth_error_lt in A. cbn in A. lia.
    + intros L. split; [do 2 (destruct e as [|e]; [reflexivity|]); lia|]. apply row_N_cells; lia.
Qed.
