(** C77: the set of a simple region.  C62: the set of a logical region. *)
From Coq Require Import Reals String Sorted Lra.
From Verif Require Import Base Loop Defs MeshSet MeshSet_spec MeshSet_proofs MeshSet_proofs3 Point Geometry Regions RegionSets RegionSets_spec RegionSets_proofs RegionSets_proofs2.
Set Implicit Arguments.

(** ** C77 *)
(** build_set_from_region for a region that is not logical: the new set is named after the region, holds exactly the entities that belong to the
    region - owned and ghost apart, without repeats, in ascending order - is found by name and kind (unless there was such a set already) and the
    other sets stay as they were. *)
Theorem c77_simple_region : forall V G k wrev n r F R, numbered (v_types V CELL) -> find_rgn (gd_regions G) n = Some r -> is_logical r = false ->
  supported r k -> answered V r k -> in_order V R ->
  exists R' p, build_set_from_region V G (S F) R n k wrev = Ok (R', Some p) /\
    ms_name (heap R' p) = n /\ ms_kind (heap R' p) = k /\ holds (v_types V k) (belongs V r k) (heap R' p) /\
    consistent (v_types V k) (heap R' p) /\ ms_have_rev (heap R' p) = wrev /\
    (match rn_shape r with SLabeled _ => True | _ => StronglySorted lt (ms_owned (heap R' p)) /\ StronglySorted lt (ms_ghost (heap R' p)) end) /\
    sets_kept R R' /\ in_order V R' /\ regs R' = regs R ++ [p] /\
    find_set (heap R') (regs R') n k = match find_set (heap R) (regs R) n k with Some q => Some q | None => Some p end.
Proof.
  intros V G k wrev n r F R NU FR NL SU AN [B O]. cbn [build_set_from_region]. rewrite FR.
  destruct (@leaf_lists_ok V r k NU NL SU AN) as (o & g & E & ((N1 & N2 & T1 & T2) & HO & HG) & SO). rewrite E. cbn [bind].
  destruct (@make_set_ok (v_types V k) n k o g wrev N1 N2 T1 T2) as (s & ES & CS & NS & KS & OS & GS & HR).
  unfold make_meshset. rewrite ES. cbn [bind fst snd]. eexists _, _. split; [reflexivity|]. cbn [heap next regs]. rewrite Nat.eqb_refl.
  split; auto. split; auto. split; [intros e; rewrite OS, GS; auto|]. split; auto. split; auto. split; [rewrite OS, GS; auto|].
  split; [|split; [|split; auto]].
  - split; cbn [regs]; [exists [next R]; auto|]. cbn [heap]. intros q L. destruct (Nat.eqb_spec q (next R)); auto; lia.
  - split; cbn [regs heap next].
    + intros q I. apply in_app_or in I as [I|[<-|[]]]; [apply B in I|]; lia.
    + intros q L. destruct (Nat.eqb_spec q (next R)) as [->|N]; [rewrite KS; auto|]. apply O. lia.
  - rewrite find_set_app, (@find_set_ext _ (heap R) (regs R)).
    + destruct (find_set (heap R) (regs R) n k); auto. cbn [find_set]. rewrite Nat.eqb_refl, NS, KS, String.eqb_refl.
      assert (X : kind_eqb k k = true) by (apply kind_eqb_spec; auto). rewrite X. auto.
    + intros q I. apply B in I. destruct (Nat.eqb_spec q (next R)); auto; lia.
Qed.
Print Assumptions c77_simple_region.

(** the combinations that are not supported throw; a kind without sets of its own (edges, sides, ...) gives a null pointer *)
Theorem c77_unsupported : forall V G k wrev n r F R, find_rgn (gd_regions G) n = Some r -> is_logical r = false ->
  match k, rn_shape r with
  | CELL, (SPolygon _ | SOther _) | FACE, (SPoint _ | SColor _ | SOther _) | NODE, (SColor _ | SOther _) => True
  | CELL, SLabeled l => ls_entity l <> "CELL"%string /\ ls_entity l <> "Entity_kind::CELL"%string
  | FACE, SLabeled l => ls_entity l <> "FACE"%string /\ ls_entity l <> "Entity_kind::FACE"%string
  | NODE, SLabeled l => ls_entity l <> "NODE"%string /\ ls_entity l <> "Entity_kind::NODE"%string
  | _, _ => False end ->
  build_set_from_region V G (S F) R n k wrev = Thrown.
Proof.
  intros V G k wrev n r F R FR NL H. cbn [build_set_from_region]. rewrite FR.
  assert (X : leaf_lists V r k = Thrown); [|rewrite X; auto].
  assert (LL : forall l n1 n2, ls_entity l <> n1 /\ ls_entity l <> n2 -> labeled_lists V l k n1 n2 = Thrown).
  { intros l n1 n2 [A B]. unfold labeled_lists. apply String.eqb_neq in A. apply String.eqb_neq in B. rewrite A, B. auto. }
  unfold leaf_lists. destruct k; try (destruct H; fail); destruct (rn_shape r); try (destruct H; fail); auto; rewrite LL; auto.
Qed.
Theorem c77_other_kinds_null : forall V G k wrev n r F R, find_rgn (gd_regions G) n = Some r -> is_logical r = false -> k <> CELL -> k <> FACE -> k <> NODE ->
  build_set_from_region V G (S F) R n k wrev = Ok (R, None).
Proof.
  intros V G k wrev n r F R FR NL K1 K2 K3. cbn [build_set_from_region]. rewrite FR. unfold is_logical in NL.
  destruct k; try congruence; cbn [leaf_lists bind]; destruct (rn_shape r); auto; discriminate.
Qed.
Theorem c77_no_region : forall V G k wrev n F R, find_rgn (gd_regions G) n = None -> build_set_from_region V G (S F) R n k wrev = Thrown.
Proof. intros V G k wrev n F R FR. cbn [build_set_from_region]. rewrite FR. auto. Qed.

(** *** The cell at a point *)
Local Open Scope R_scope.
Definition d2 (V : mview) (q : point) (n : nat) (d : R) : Prop := exists p, v_node V n = Ok p /\ d = dot (psub p q) (psub p q).
Lemma nearest_inv V q : forall l mind minn stop mind' minn' stop', foldM l (nearest_step V q) (mind, minn, stop) = Ok (mind', minn', stop') ->
  (stop = true -> mind <= 1 / 10 ^ 32) -> (forall n, minn = Some n -> d2 V q n mind) ->
  (forall n, minn' = Some n -> d2 V q n mind') /\ (stop' = true -> mind' <= 1 / 10 ^ 32) /\ mind' <= mind /\ (minn <> None -> minn' <> None) /\
  (minn' = None -> mind' = mind) /\
  (forall n d, In n l -> d2 V q n d -> mind' <= d \/ mind' <= 1 / 10 ^ 32).
Proof.
  induction l as [|n l IH]; intros mind minn stop mind' minn' stop' E HS HM; cbn [foldM] in E.
  - injection E as <- <- <-. split; [auto|]. split; [auto|]. split; [lra|]. split; [auto|]. split; [auto|]. intros n d I; destruct I.
  - apply bind_Ok in E as ([[m1 n1] s1] & E1 & E). unfold nearest_step in E1. destruct stop.
    + injection E1 as <- <- <-. destruct (IH _ _ _ _ _ _ E HS HM) as (A & B & C & D & X & Y). split; [auto|]; split; [auto|]; split; [auto|]; split; [auto|]; split; [auto|].
      intros n' d [<-|I] H; eauto. right. specialize (HS eq_refl). lra.
    + apply bind_Ok in E1 as (p & Ep & E1). unfold ltb, leb in E1.
      destruct (Rlt_dec (dot (psub p q) (psub p q)) mind) as [L|L]; injection E1 as <- <- <-.
      * destruct (IH _ _ _ _ _ _ E) as (A & B & C & D & X & Y).
        { destruct (Rle_dec _ _); [auto|discriminate]. }
        { intros n' [= <-]. exists p. auto. }
        split; [auto|]; split; [auto|]; split; [lra|]; split; [|split].
        -- intros _. apply D. discriminate.
        -- intros Z. exfalso. apply D; auto. discriminate.
        -- intros n' d [<-|I] H; eauto. left. destruct H as (p' & E' & ->). assert (p' = p) by congruence. subst p'. lra.
      * destruct (IH _ _ _ _ _ _ E HS HM) as (A & B & C & D & X & Y). split; [auto|]; split; [auto|]; split; [auto|]; split; [auto|]; split; [auto|].
        intros n' d [<-|I] H; eauto. left. destruct H as (p' & E' & ->). assert (p' = p) by congruence. subst p'. lra.
Qed.
Lemma nearest_total V q : forall l s, (forall n, In n l -> exists p, v_node V n = Ok p) -> exists s', foldM l (nearest_step V q) s = Ok s'.
Proof.
  induction l as [|n l IH]; intros s H; cbn [foldM]; [eauto|]. destruct s as [[m o] st]. unfold nearest_step at 1. destruct st; cbn [bind].
  - apply IH. intros; apply H; right; auto.
  - destruct (H n (or_introl eq_refl)) as [p E]. rewrite E. cbn [bind]. apply IH. intros; apply H; right; auto.
Qed.
(** What build_set_from_region gives for the cells of a point region: the cells around one node - a nearest one, or one closer than 1e-16 - that
    contain the point.  Only if no cell elsewhere contains the point is this the set of the cells that contain it. *)
Theorem c77_point_cells_partial : forall V G wrev n r q F R, find_rgn (gd_regions G) n = Some r -> rn_shape r = SPoint q -> in_order V R ->
  (forall e, (e < length (v_types V NODE))%nat -> exists p, v_node V e = Ok p) ->
  (exists e d, (e < length (v_types V NODE))%nat /\ d2 V q e d /\ d < 10 ^ 16) ->
  (forall e cs, v_node_cells V e = Ok cs -> NoDup cs /\ forall c, In c cs -> (c < length (v_types V CELL))%nat) ->
  (forall e, (e < length (v_types V NODE))%nat -> exists cs, v_node_cells V e = Ok cs /\ forall c, In c cs -> exists b, v_in_cell V q c = Ok b) ->
  exists e d cs R' p, (e < length (v_types V NODE))%nat /\ d2 V q e d /\
    (forall e' d', (e' < length (v_types V NODE))%nat -> d2 V q e' d' -> d <= d' \/ d <= 1 / 10 ^ 32) /\ v_node_cells V e = Ok cs /\
    build_set_from_region V G (S F) R n CELL wrev = Ok (R', Some p) /\ ms_name (heap R' p) = n /\ ms_kind (heap R' p) = CELL /\
    holds (v_types V CELL) (fun c => In c cs /\ v_in_cell V q c = Ok true) (heap R' p) /\ sets_kept R R' /\
    ((forall c, v_in_cell V q c = Ok true -> In c cs) -> holds (v_types V CELL) (fun c => v_in_cell V q c = Ok true) (heap R' p)).
Proof.
  intros V G wrev n r q F R FR SH OR HN (e0 & d0 & L0 & D0 & Ld) HC HI.
  destruct (@nearest_total V q (seq 0 (length (v_types V NODE))) (10 ^ 16, None, false)) as [[[md mn] st] E].
  { intros e I. apply in_seq in I. apply HN. lia. }
  destruct (@nearest_inv V q _ _ _ _ _ _ _ E) as (A & B & C & D & X & Y); [discriminate|discriminate|].
  assert (T32 : 1 / 10 ^ 32 < 10 ^ 16).
  { assert (P : 0 < 10 ^ 32) by (apply pow_lt; lra). apply Rmult_lt_reg_r with (10 ^ 32); auto. unfold Rdiv. rewrite Rmult_assoc, Rinv_l by lra.
    assert (1 < 10 ^ 16) by (apply Rlt_pow_R1; [lra|lia]). assert (1 < 10 ^ 32) by (apply Rlt_pow_R1; [lra|lia]). nra. }
  destruct mn as [e|].
  2: { exfalso. specialize (X eq_refl). subst md. destruct (Y e0 d0) as [Z|Z]; auto; try lra. apply in_seq. lia. }
  specialize (A e eq_refl). assert (Le : (e < length (v_types V NODE))%nat).
  { clear - E. assert (Q : forall l s s', foldM l (nearest_step V q) s = Ok s' -> (forall x, snd (fst s) = Some x -> (x < length (v_types V NODE))%nat) ->
      (forall x, In x l -> (x < length (v_types V NODE))%nat) -> forall x, snd (fst s') = Some x -> (x < length (v_types V NODE))%nat).
    { induction l as [|a l IH]; intros s s' E1 H1 H2 x Ex; cbn [foldM] in E1; [injection E1 as <-; auto|]. apply bind_Ok in E1 as (s1 & E2 & E1).
      eapply IH; eauto; [|intros; apply H2; right; auto]. intros y Ey. destruct s as [[m o] st0]. unfold nearest_step in E2.
      destruct st0; [injection E2 as <-; apply H1; auto|]. apply bind_Ok in E2 as (p & Ep & E2). injection E2 as <-.
      destruct (ltb _ _); cbn [fst snd] in Ey; [injection Ey as <-; apply H2; left; auto|apply H1; auto]. }
    eapply (Q _ _ _ E); cbn [fst snd]; try discriminate; auto. intros x I. apply in_seq in I. lia. }
  destruct (HI e Le) as (cs & EC & IC). destruct (HC e cs EC) as [ND LC].
  exists e, md, cs.
  cbn [build_set_from_region]. rewrite FR. cbn [leaf_lists]. rewrite SH. unfold cells_at_point, nearest_node, for_lt, n_all.
  rewrite E. cbn [bind snd fst]. rewrite EC. cbn [bind]. rewrite keep_ok by auto. cbn [bind].
  rewrite by_type_ok by (intros c I; apply filter_In in I; apply LC; tauto). cbn [bind].
  assert (HH : forall t c, In c (filter (is_type (v_types V CELL) t) (filter (fun e => yes (v_in_cell V q e)) cs)) <-> nth_error (v_types V CELL) c = Some t /\ In c cs /\ v_in_cell V q c = Ok true).
  { intros t c. rewrite !filter_In, is_type_spec. split.
    - intros ((I & Yc) & T). repeat split; auto. destruct (IC c I) as [b Eb]. rewrite Eb in *. cbn in Yc. congruence.
    - intros (T & I & Ec). rewrite Ec. auto. }
  destruct (@make_set_ok (v_types V CELL) n CELL (filter (is_type (v_types V CELL) PARALLEL_OWNED) (filter (fun e => yes (v_in_cell V q e)) cs))
    (filter (is_type (v_types V CELL) PARALLEL_GHOST) (filter (fun e => yes (v_in_cell V q e)) cs)) wrev) as (s & ES & CS & NS & KS & OS & GS & _).
  { do 2 apply NoDup_filter. auto. } { do 2 apply NoDup_filter. auto. }
  { intros c I. apply HH in I. tauto. } { intros c I. apply HH in I. tauto. }
  unfold make_meshset. rewrite ES. cbn [bind fst snd]. eexists _, _. split; auto. split; auto. split.
  { intros e' d' L' D'. apply (Y e' d'); auto. apply in_seq. lia. }
  split; auto. split; [reflexivity|]. cbn [heap next regs]. rewrite Nat.eqb_refl. split; auto. split; auto.
  split; [intros c; rewrite OS, GS; split; apply HH|]. split.
  - split; cbn [regs]; [exists [next R]; auto|]. cbn [heap]. intros q' L. destruct (Nat.eqb_spec q' (next R)); auto; lia.
  - intros Hc c. rewrite OS, GS, !HH. specialize (Hc c). tauto.
Qed.
Print Assumptions c77_point_cells_partial.

(** Finding: a cell that contains the point but has no corner at the nearest node is missed.  A flat rectangle [0,10]x[0,1] (cell 0) under a flat
    triangle with apex (5, 6/5) (cell 1); the point (5, 9/10) lies in the rectangle, the nearest node is the apex. *)
Definition flat_nodes : list point := [Pt 2 0 0 0; Pt 2 10 0 0; Pt 2 10 1 0; Pt 2 0 1 0; Pt 2 5 (6/5) 0].
Definition flat_cells : list (list nat) := [[0;1;2;3]; [3;2;4]]%nat.
Definition flat_node_cells : list (list nat) := [[0]; [0]; [0;1]; [0;1]; [1]]%nat.
Definition flat_cell (c : nat) : outcome (list point) := ns <- rd flat_cells c ;; mapM (rd flat_nodes) ns.
Definition flat_view : mview :=
  MView 2 false (fun k => match k with CELL => [PARALLEL_OWNED; PARALLEL_OWNED] | NODE => repeat PARALLEL_OWNED 5 | _ => [] end)
    (fun _ => UB) (fun _ => UB) (rd flat_nodes) (fun _ => UB) flat_cell (rd flat_node_cells)
    (fun q c => cc <- flat_cell c ;; point_in_polygon q cc) simple_labeled.
Definition flat_q : point := Pt 2 5 (9/10) 0.
Definition flat_model : gmodel := GModel 2 [Rgn "P" 0 PERMANENT (SPoint flat_q)].
Definition empty_reg : registry := Reg (fun _ => MSet ""%string NODE [] [] [] false []) 0 [].
Lemma cross_none x y a b : (y < py a /\ y < py b) \/ (py a <= y /\ py b <= y) -> crosses x y a b = false.
Proof.
  intros H. unfold crosses, gtb, leb. destruct (Rlt_dec y (py a)), (Rlt_dec y (py b)), (Rle_dec (py a) y), (Rle_dec (py b) y); cbn [andb orb]; auto; exfalso; lra.
Qed.
Lemma cross_up x y a b : py a <= y < py b -> crosses x y a b = leb x (px a + (y - py a) * (px b - px a) / (py b - py a)).
Proof.
  intros H. unfold crosses. assert (A : gtb (py b) y = true) by (unfold gtb; destruct (Rlt_dec y (py b)); auto; lra).
  assert (B : leb (py a) y = true) by (unfold leb; destruct (Rle_dec (py a) y); auto; lra). rewrite A, B, orb_true_r. auto.
Qed.
Lemma cross_down x y a b : py b <= y < py a -> crosses x y a b = leb x (px a + (y - py a) * (px b - px a) / (py b - py a)).
Proof.
  intros H. unfold crosses. assert (A : gtb (py a) y = true) by (unfold gtb; destruct (Rlt_dec y (py a)); auto; lra).
  assert (B : leb (py b) y = true) by (unfold leb; destruct (Rle_dec (py b) y); auto; lra). rewrite A, B. auto.
Qed.
Lemma flat_in_0 : v_in_cell flat_view flat_q 0 = Ok true.
Proof.
  cbn [v_in_cell flat_view flat_cell rd nth_error flat_cells bind mapM flat_nodes]. unfold point_in_polygon, for_lt. cbn [length seq foldM].
  cbn [rd nth_error Nat.modulo Nat.add Nat.divmod fst snd Nat.sub bind].
  rewrite (@cross_none (px flat_q) (py flat_q) (Pt 2 0 0 0) (Pt 2 10 0 0)) by (cbn; lra).
  rewrite (@cross_up (px flat_q) (py flat_q) (Pt 2 10 0 0) (Pt 2 10 1 0)) by (cbn; lra).
  rewrite (@cross_none (px flat_q) (py flat_q) (Pt 2 10 1 0) (Pt 2 0 1 0)) by (cbn; lra).
  rewrite (@cross_down (px flat_q) (py flat_q) (Pt 2 0 1 0) (Pt 2 0 0 0)) by (cbn; lra).
  unfold px, py, flat_q. cbn [pd Nat.ltb Nat.leb Point.p0 Point.p1].
  assert (A : leb 5 (10 + (9/10 - 0) * (10 - 10) / (1 - 0)) = true) by (unfold leb; destruct (Rle_dec _ _); auto; lra).
  assert (B : leb 5 (0 + (9/10 - 1) * (0 - 0) / (0 - 1)) = false) by (unfold leb; destruct (Rle_dec _ _); auto; lra).
  rewrite A, B. reflexivity.
Qed.
Lemma flat_in_1 : v_in_cell flat_view flat_q 1 = Ok false.
Proof.
  cbn [v_in_cell flat_view flat_cell rd nth_error flat_cells bind mapM flat_nodes]. unfold point_in_polygon, for_lt. cbn [length seq foldM].
  cbn [rd nth_error Nat.modulo Nat.add Nat.divmod fst snd Nat.sub bind].
  rewrite (@cross_none (px flat_q) (py flat_q) (Pt 2 0 1 0) (Pt 2 10 1 0)) by (cbn; lra).
  rewrite (@cross_none (px flat_q) (py flat_q) (Pt 2 10 1 0) (Pt 2 5 (6/5) 0)) by (cbn; lra).
  rewrite (@cross_none (px flat_q) (py flat_q) (Pt 2 5 (6/5) 0) (Pt 2 0 1 0)) by (cbn; lra).
  reflexivity.
Qed.
Theorem c77_point_cell_missed_refuted : exists R' p,
  build_set_from_region flat_view flat_model 1 empty_reg "P" CELL false = Ok (R', Some p) /\
  find_set (heap R') (regs R') "P" CELL = Some p /\ ms_owned (heap R' p) = [] /\ ms_ghost (heap R' p) = [] /\
  v_in_cell flat_view flat_q 0 = Ok true /\ nth_error (v_types flat_view CELL) 0 = Some PARALLEL_OWNED.
Proof.
  assert (DD : forall x y, dot (psub (Pt 2 x y 0) flat_q) (psub (Pt 2 x y 0) flat_q) = (x - 5) * (x - 5) + (y - 9/10) * (y - 9/10)).
  { intros x y. unfold dot, psub, flat_q. cbn [pd Point.p0 Point.p1]. lra. }
  assert (LT : forall a b, a < b -> ltb a b = true) by (intros a b L; unfold ltb; destruct (Rlt_dec a b); auto; lra).
  assert (NL : forall a b, b <= a -> ltb a b = false) by (intros a b L; unfold ltb; destruct (Rlt_dec a b); auto; lra).
  assert (P32 : 1 / 10 ^ 32 < 9 / 100).
  { assert (P : 100 < 10 ^ 32) by (replace (10 ^ 32) with (100 * 10 ^ 30) by (cbn; ring); assert (1 < 10 ^ 30) by (apply Rlt_pow_R1; [lra|lia]); lra).
    apply Rmult_lt_reg_r with (10 ^ 32); [lra|]. unfold Rdiv at 1. rewrite Rmult_assoc, Rinv_l by lra. lra. }
  assert (P16 : 26 < 10 ^ 16) by (replace (10 ^ 16) with (100 * 10 ^ 14) by (cbn; ring); assert (1 < 10 ^ 14) by (apply Rlt_pow_R1; [lra|lia]); lra).
  assert (NE : forall a, 9 / 100 <= a -> leb a (1 / 10 ^ 32) = false) by (intros a L; unfold leb; destruct (Rle_dec a (1 / 10 ^ 32)); auto; lra).
  assert (NN : nearest_node flat_view flat_q = Ok (Some 4%nat)).
  { unfold nearest_node, for_lt. cbn [n_all flat_view v_types repeat length seq foldM]. unfold nearest_step.
    cbn [flat_view v_node rd nth_error flat_nodes bind]. cbv zeta. rewrite !DD.
    rewrite (LT ((0 - 5) * (0 - 5) + (0 - 9/10) * (0 - 9/10)) (10 ^ 16)) by lra. rewrite NE by lra. cbn [bind]. rewrite NL by lra. cbn [bind].
    rewrite (LT ((10 - 5) * (10 - 5) + (1 - 9/10) * (1 - 9/10))) by lra. rewrite NE by lra. cbn [bind]. rewrite NL by lra. cbn [bind].
    rewrite LT by lra. cbn [bind snd fst]. auto. }
  cbn [build_set_from_region find_rgn gd_regions flat_model rn_name String.eqb Ascii.eqb Bool.eqb leaf_lists rn_shape].
  unfold cells_at_point. rewrite NN. cbn [bind]. cbn [v_node_cells flat_view rd nth_error flat_node_cells bind keep].
  change (v_in_cell flat_view flat_q 1) with (v_in_cell flat_view flat_q 1). fold flat_view. rewrite flat_in_1. cbn [bind by_type].
  eexists _, _. split; [reflexivity|]. cbn [heap regs]. split; [reflexivity|]. split; [reflexivity|]. split; [reflexivity|]. split; [apply flat_in_0|reflexivity].
Qed.
Print Assumptions c77_point_cell_missed_refuted.
(** the hypotheses of c77_point_cells_partial are met here *)
Example c77_flat : exists R' p, build_set_from_region flat_view flat_model 1 empty_reg "P" CELL false = Ok (R', Some p) /\ sets_kept empty_reg R' /\
  (forall c, In c (ms_owned (heap R' p)) -> v_in_cell flat_view flat_q c = Ok true).
Proof.
  assert (IN : forall c, (c < 2)%nat -> exists b, v_in_cell flat_view flat_q c = Ok b).
  { intros c L. destruct c as [|[|c]]; [eexists; apply flat_in_0|eexists; apply flat_in_1|lia]. }
  assert (NC : forall e cs, v_node_cells flat_view e = Ok cs -> NoDup cs /\ forall c, In c cs -> (c < 2)%nat).
  { intros e cs H. cbn in H. do 5 (destruct e as [|e]; [cbn in H; injection H as <-; split; [repeat constructor; cbn; intuition lia|cbn; intuition lia]|]). destruct e; discriminate. }
  destruct (@c77_point_cells_partial flat_view flat_model false "P" (Rgn "P" 0 PERMANENT (SPoint flat_q)) flat_q 0 empty_reg) as (e & d & cs & R' & p & _ & _ & _ & _ & E & _ & _ & H & K & _);
    try reflexivity; auto.
  - split; cbn; intros p H; [destruct H|lia].
  - intros e L. cbn in L. do 5 (destruct e as [|e]; [eexists; reflexivity|]). lia.
  - exists 4%nat, (9/100). split; [cbn; lia|]. split; [eexists; split; [reflexivity|]; unfold dot, psub, flat_q; cbn [pd Point.p0 Point.p1]; lra|].
    apply Rlt_trans with 1; [lra|]. apply Rlt_pow_R1; [lra|lia].
  - intros e L. cbn in L. assert (X : exists cs, v_node_cells flat_view e = Ok cs) by (do 5 (destruct e as [|e]; [eexists; reflexivity|]); lia).
    destruct X as [cs X]. exists cs. split; auto. intros c I. apply IN. apply (NC _ _ X); auto.
  - exists R', p. split; auto. split; auto. intros c I. apply (proj1 (H c)) in I as [_ [_ I]]. auto.
Qed.
