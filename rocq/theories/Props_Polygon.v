(** C48 in the plane: area, centroid and normal of a polygon. *)
From Coq Require Import Reals Lra Psatz.
From Verif Require Import Base Loop Point Geometry Geometry_spec Geometry_proofs.
Set Implicit Arguments.
Local Open Scope R_scope.

Lemma sum_abs_pos A (f : A -> R) l : (forall x, In x l -> 0 <= f x) -> sum_of (fun x => Rabs (f x)) l = sum_of f l.
Proof. intros H. apply sum_ext. intros x Hx. apply Rabs_pos_eq. auto. Qed.
Lemma sum_affine_mean (c : list point) (k k0 k1 : R) : (0 < length c)%nat ->
  sum_of (fun p => k + k0 * p0 p + k1 * p1 p) c = INR (length c) * (k + k0 * p0 (mean c) + k1 * p1 (mean c)).
Proof.
  intros L. rewrite (sum_plus (fun p => k + k0 * p0 p) (fun p => k1 * p1 p)), (sum_plus (fun _ => k) (fun p => k0 * p0 p)), sum_const, !sum_scale. unfold mean. cbn [p0 p1].
  assert (INR (length c) <> 0) by (apply not_0_INR; lia). field. auto.
Qed.
Lemma tri_area_mean a b l : (0 < length l)%nat -> INR (length l) * tri_area (mean2 l) a b = sum_of (fun c => tri_area a b c) l.
Proof.
  intros L. rewrite (@sum_ext _ _ (fun p => (p1 a * p0 b - p0 a * p1 b) / -2 + (p1 a - p1 b) / 2 * p0 p + (p0 b - p0 a) / 2 * p1 p)).
  - rewrite sum_affine_mean by auto. unfold tri_area, mean2, P2. cbn [p0 p1]. f_equal. field.
  - intros p _. unfold tri_area. field.
Qed.
Lemma point_dec (p q : point) : {p = q} + {p <> q}.
Proof. decide equality; try apply Req_EM_T. apply Nat.eq_dec. Qed.
Lemma third (l : list point) a b : (3 <= length l)%nat -> NoDup l -> exists c, In c l /\ c <> a /\ c <> b.
Proof.
  intros L D. destruct l as [|x [|y [|z l]]]; simpl in L; try lia. inversion D as [|? ? N1 D1]; subst. inversion D1 as [|? ? N2 D2]; subst. simpl in N1, N2.
  destruct (point_dec x a) as [Ea|Na]; [destruct (point_dec y b) as [Eb|Nb]|destruct (point_dec x b) as [Eb|Nb]].
  - exists z. simpl. subst. intuition.
  - destruct (point_dec y a); [subst; tauto|]. exists y. simpl. auto.
  - destruct (point_dec y a) as [E|N]; [exists z; simpl; subst; intuition|]. exists y. simpl. subst. intuition.
  - exists x. simpl. auto.
Qed.
Lemma sum_some_pos A (f : A -> R) l x : (forall y, In y l -> 0 <= f y) -> In x l -> 0 < f x -> 0 < sum_of f l.
Proof.
  intros H Hx P. apply in_split in Hx as (l1 & l2 & ->). unfold sum_of. rewrite map_app, rsum_app. simpl.
  assert (0 <= sum_of f l1) by (apply sum_nonneg; intros; apply H; apply in_or_app; auto).
  assert (0 <= sum_of f l2) by (apply sum_nonneg; intros; apply H; apply in_or_app; right; right; auto). unfold sum_of in *. lra.
Qed.
Lemma tri_degenerate a b : tri_area a b a = 0 /\ tri_area a b b = 0. Proof. unfold tri_area. split; lra. Qed.
Lemma convex_star l : (3 <= length l)%nat -> convex_ccw l -> star_ccw (mean2 l) l.
Proof.
  intros L [D H] [a b] He. cbn [fst snd]. assert (P : 0 < INR (length l)) by (apply lt_0_INR; lia).
  assert (E := @tri_area_mean a b l ltac:(lia)). assert (S0 : 0 < sum_of (fun c => tri_area a b c) l).
  { destruct (@third l a b L D) as (c & Hc & Na & Nb). apply sum_some_pos with c; auto. intros y Hy.
    destruct (point_dec y a) as [->|]; [rewrite (proj1 (tri_degenerate a b)); lra|]. destruct (point_dec y b) as [->|]; [rewrite (proj2 (tri_degenerate a b)); lra|].
    left. apply H; auto. }
  rewrite <- E in S0. nra.
Qed.
Lemma convex_cw_star l : (3 <= length l)%nat -> convex_cw l -> forall e, In e (edges l) -> tri_area (mean2 l) (fst e) (snd e) < 0.
Proof.
  intros L [D H] [a b] He. cbn [fst snd]. assert (P : 0 < INR (length l)) by (apply lt_0_INR; lia).
  assert (E := @tri_area_mean a b l ltac:(lia)). assert (S0 : 0 < sum_of (fun c => (-1) * tri_area a b c) l).
  { destruct (@third l a b L D) as (c & Hc & Na & Nb). apply sum_some_pos with c; auto; [|specialize (H a b c He Hc Na Nb); lra]. intros y Hy.
    destruct (point_dec y a) as [->|]; [rewrite (proj1 (tri_degenerate a b)); lra|]. destruct (point_dec y b) as [->|]; [rewrite (proj2 (tri_degenerate a b)); lra|].
    assert (H1 := H a b y He Hy n n0). lra. }
  assert (E2 : sum_of (fun c => (-1) * tri_area a b c) l = (-1) * (INR (length l) * tri_area (mean2 l) a b)) by (rewrite E; apply sum_scale). rewrite E2 in S0. nra.
Qed.
Lemma star_mean l : star_ccw (mean2 l) l <-> star_ccw (mean l) l. Proof. unfold star_ccw, tri_area, mean2, P2. cbn [p0 p1]. tauto. Qed.
Lemma tri_list (l : list point) : length l = 3%nat -> exists a b c, l = [a; b; c].
Proof. destruct l as [|a [|b [|c [|]]]]; simpl; intros; try lia. eauto. Qed.

(** ** the normal: its first number is the signed area; the second and third are 0 *)
Theorem c48_plane_normal_is_signed_area l : (3 <= length l)%nat -> all_dim 2 l -> exists A C, polygon 2 2 l = Ok (A, C, Pt 2 (shoelace l) 0 0).
Proof.
  intros L D. destruct (Nat.eq_dec (length l) 3) as [E|E].
  - destruct (tri_list _ E) as (a & b & c & ->). rewrite polygon2_tri by (apply D; simpl; auto). unfold P2. eauto.
  - rewrite polygon2 by (auto; lia). unfold P2. eauto.
Qed.
(** ** the reported area is positive exactly when every triangle (mean of the vertices, edge) is counter-clockwise *)
Lemma flag_pos neg v : 0 <= v -> (0 < flag neg v <-> neg = false /\ 0 < v).
Proof.
  intros H. unfold flag. destruct neg; simpl.
  - unfold gtb. destruct (Rlt_dec 0 v); split; intros; try lra; intuition discriminate.
  - tauto.
Qed.
Theorem c48_plane_area_positive_iff l A C N : (4 <= length l)%nat -> all_dim 2 l -> polygon 2 2 l = Ok (A, C, N) -> (0 < A <-> star_ccw (mean l) l).
Proof.
  intros L D H. rewrite polygon2 in H by (auto; lia). injection H as <- <- <-.
  rewrite flag_pos by (apply sum_nonneg; intros; apply Rabs_pos). rewrite <- star_mean, <- no_neg_star. split; [tauto|]. intros S0. split; auto.
  apply sum_pos; [intros E; apply (f_equal (@length _)) in E; rewrite edges_length in E; simpl in E; lia|].
  intros e He. apply no_neg_star in S0. apply Rabs_pos_lt. specialize (S0 e He). lra.
Qed.
(** ** then area and centroid are those of the polygon *)
Theorem c48_plane_exact l : (3 <= length l)%nat -> all_dim 2 l -> star_ccw (mean l) l ->
  0 < shoelace l /\ polygon 2 2 l = Ok (shoelace l, Pt 2 (centroid_x l) (centroid_y l) 0, Pt 2 (shoelace l) 0 0).
Proof.
  intros L D S0. apply star_mean in S0. assert (P : 0 < shoelace l).
  { rewrite <- (sum_tri_shoelace (mean2 l)). apply sum_pos; [intros E; apply (f_equal (@length _)) in E; rewrite edges_length in E; simpl in E; lia|]. auto. }
  split; auto. destruct (Nat.eq_dec (length l) 3) as [E|E].
  - destruct (tri_list _ E) as (a & b & c & ->). rewrite polygon2_tri by (apply D; simpl; auto). rewrite Rabs_pos_eq by lra. do 3 f_equal.
    unfold mean2, P2. unfold centroid_x, centroid_y. revert P. unfold mean, shoelace, wedge2, sum_of. cbn [edges steps map rsum fst snd length INR p0 p1]. intros P. f_equal; field; lra.
  - rewrite polygon2 by (auto; lia). assert (NS := S0). apply no_neg_star in NS. rewrite NS. unfold flag. cbn [andb].
    assert (EA : sum_of (fun e => Rabs (tri_area (mean2 l) (fst e) (snd e))) (edges l) = shoelace l).
    { rewrite sum_abs_pos by (intros; left; apply S0; auto). apply sum_tri_shoelace. }
    assert (EX : sum_of (tri_moment_x (mean2 l)) (edges l) = shoelace l * centroid_x l).
    { unfold centroid_x. replace (shoelace l * (_ / (6 * shoelace l))) with (sum_of (fun e => (p0 (fst e) + p0 (snd e)) * wedge2 (fst e) (snd e)) (edges l) / 6) by (field; lra).
      rewrite <- (sum_moment_x (mean2 l)). apply sum_ext. intros e He. unfold tri_moment_x. rewrite Rabs_pos_eq by (left; apply S0; auto). auto. }
    assert (EY : sum_of (tri_moment_y (mean2 l)) (edges l) = shoelace l * centroid_y l).
    { unfold centroid_y. replace (shoelace l * (_ / (6 * shoelace l))) with (sum_of (fun e => (p1 (fst e) + p1 (snd e)) * wedge2 (fst e) (snd e)) (edges l) / 6) by (field; lra).
      rewrite <- (sum_moment_y (mean2 l)). apply sum_ext. intros e He. unfold tri_moment_y. rewrite Rabs_pos_eq by (left; apply S0; auto). auto. }
    rewrite EA, EX, EY. unfold diveq, P2. cbn [pd pmap p0 p1 p2]. do 3 f_equal. f_equal; field; lra.
Qed.
(** ** in particular for every strictly convex counter-clockwise polygon *)
Theorem c48_plane_convex l : (3 <= length l)%nat -> all_dim 2 l -> convex_ccw l ->
  0 < shoelace l /\ polygon 2 2 l = Ok (shoelace l, Pt 2 (centroid_x l) (centroid_y l) 0, Pt 2 (shoelace l) 0 0).
Proof. intros L D H. apply c48_plane_exact; auto. apply star_mean. apply convex_star; auto. Qed.
(** ** an inverted polygon of four or more vertices is not reported with a positive area *)
Theorem c48_plane_inverted l A C N : (4 <= length l)%nat -> all_dim 2 l -> polygon 2 2 l = Ok (A, C, N) -> shoelace l <= 0 -> A <= 0.
Proof.
  intros L D H S0. destruct (Rle_dec A 0); auto. exfalso. assert (P : 0 < A) by lra. rewrite c48_plane_area_positive_iff in P; eauto.
  apply c48_plane_exact in P; try lia; auto. lra.
Qed.
Theorem c48_plane_inverted_part l A C N a b : (4 <= length l)%nat -> all_dim 2 l -> polygon 2 2 l = Ok (A, C, N) ->
  In (a, b) (edges l) -> tri_area (mean l) a b <= 0 -> A <= 0.
Proof.
  intros L D H E T. destruct (Rle_dec A 0); auto. exfalso. assert (P : 0 < A) by lra. rewrite c48_plane_area_positive_iff in P; eauto.
  specialize (P _ E). cbn [fst snd] in P. lra.
Qed.
Theorem c48_plane_clockwise l : (4 <= length l)%nat -> all_dim 2 l -> convex_cw l -> shoelace l < 0 /\ exists C N, polygon 2 2 l = Ok (shoelace l, C, N).
Proof.
  intros L D H. assert (T := @convex_cw_star l ltac:(lia) H). rewrite polygon2 by (auto; lia).
  assert (EA : sum_of (fun e => Rabs (tri_area (mean2 l) (fst e) (snd e))) (edges l) = - shoelace l).
  { rewrite <- (sum_tri_shoelace (mean2 l)). rewrite (@sum_ext _ _ (fun e => (-1) * tri_area (mean2 l) (fst e) (snd e))); [rewrite sum_scale; lra|].
    intros e He. rewrite Rabs_left by auto. lra. }
  assert (NE : edges l <> []) by (intros E; apply (f_equal (@length _)) in E; rewrite edges_length in E; simpl in E; lia).
  assert (P : 0 < - shoelace l). { rewrite <- EA. apply sum_pos; auto. intros e He. apply Rabs_pos_lt. specialize (T e He). lra. }
  split; [lra|]. rewrite EA. destruct (existsb (neg2 (mean2 l)) (edges l)) eqn:E.
  - unfold flag. cbn [andb]. unfold gtb. destruct (Rlt_dec 0 (- shoelace l)); [|lra]. rewrite Ropp_involutive. eauto.
  - exfalso. destruct (edges l) as [|e r] eqn:Er; [congruence|]. cbn [existsb] in E. apply orb_false_iff in E as [E _]. unfold neg2 in E. apply leb_false in E. specialize (T e (or_introl eq_refl)). lra.
Qed.
(** ** but every clockwise triangle is: the three-vertex case has no check, so the claim fails there *)
Theorem c48_clockwise_triangle_refuted l : length l = 3%nat -> all_dim 2 l -> shoelace l < 0 -> exists A C N, polygon 2 2 l = Ok (A, C, N) /\ 0 < A /\ A = - shoelace l.
Proof.
  intros E D H. destruct (tri_list _ E) as (a & b & c & ->). rewrite polygon2_tri by (apply D; simpl; auto). do 3 eexists. split; [reflexivity|].
  rewrite Rabs_left by auto. lra.
Qed.
Example clockwise_triangle_ex : shoelace [Pt 2 0 0 0; Pt 2 0 1 0; Pt 2 1 0 0] < 0 /\ convex_cw [Pt 2 0 0 0; Pt 2 0 1 0; Pt 2 1 0 0].
Proof.
  split; [unfold shoelace, sum_of, wedge2; simpl; lra|]. split.
  - repeat constructor; simpl; intuition; match goal with H : _ = _ |- _ => injection H; lra end.
  - intros a b c He Hc Na Nb. simpl in *. unfold tri_area. intuition; subst;
    repeat match goal with H : (_, _) = (_, _) |- _ => injection H as <- <- end; simpl; try lra; congruence.
Qed.
(** ** fewer than three vertices *)
Theorem c48_plane_degenerate l : (length l < 3)%nat -> polygon 2 2 l = Ok (0, Pt 2 0 0 0, Pt 2 0 0 0).
Proof. intros L. unfold polygon. cbn [pset pzero pd bind]. destruct (Nat.ltb_spec (length l) 3); [auto|lia]. Qed.
(** ** moving the polygon moves the centroid and changes neither area nor normal *)
Lemma tri_area_shift v c a b : tri_area (shift v c) (shift v a) (shift v b) = tri_area c a b. Proof. unfold tri_area, shift. simpl. field. Qed.
Lemma sum_shift0 v l : sum_of p0 (map (shift v) l) = sum_of p0 l + INR (length l) * p0 v.
Proof. rewrite sum_map. unfold shift. simpl. rewrite (sum_plus p0 (fun _ => p0 v)), sum_const. auto. Qed.
Lemma sum_shift1 v l : sum_of p1 (map (shift v) l) = sum_of p1 l + INR (length l) * p1 v.
Proof. rewrite sum_map. unfold shift. simpl. rewrite (sum_plus p1 (fun _ => p1 v)), sum_const. auto. Qed.
Lemma mean2_shift v l : (0 < length l)%nat -> mean2 (map (shift v) l) = shift v (mean2 l).
Proof.
  intros L. unfold mean2, shift, P2, mean. cbn [p0 p1 p2 pd Nat.eqb]. rewrite map_length. assert (INR (length l) <> 0) by (apply not_0_INR; lia).
  fold (shift v). rewrite sum_shift0, sum_shift1. f_equal; field; auto.
Qed.
Lemma shoelace_shift v l : shoelace (map (shift v) l) = shoelace l.
Proof.
  destruct l as [|a l]; [reflexivity|]. rewrite <- (sum_tri_shoelace (shift v a)), <- (sum_tri_shoelace a). rewrite edges_map, sum_map. apply sum_ext. intros e _. apply tri_area_shift.
Qed.
Theorem c48_plane_translation v l A C N : pd v = 2%nat -> (3 <= length l)%nat -> all_dim 2 l -> polygon 2 2 l = Ok (A, C, N) ->
  exists C', polygon 2 2 (map (shift v) l) = Ok (A, C', N) /\ (A <> 0 -> C' = shift v C).
Proof.
  intros Hv L D H. assert (D' : all_dim 2 (map (shift v) l)) by (intros p Hp; apply in_map_iff in Hp as (q & <- & Hq); simpl; auto).
  destruct (Nat.eq_dec (length l) 3) as [E|E].
  - destruct (tri_list _ E) as (a & b & c & El). subst l. rewrite polygon2_tri in H by (apply D; simpl; auto). injection H as <- <- <-.
    cbn [map]. rewrite polygon2_tri by (simpl; apply D; simpl; auto). change [shift v a; shift v b; shift v c] with (map (shift v) [a; b; c]).
    rewrite shoelace_shift, mean2_shift by lia. eexists. split; [reflexivity|auto].
  - rewrite polygon2 in H by (auto; lia). rewrite polygon2 by (rewrite ?map_length; auto; lia). rewrite mean2_shift, shoelace_shift by lia.
    set (c := mean2 l) in *.
    assert (EA : sum_of (fun e => Rabs (tri_area (shift v c) (fst e) (snd e))) (edges (map (shift v) l)) = sum_of (fun e => Rabs (tri_area c (fst e) (snd e))) (edges l)).
    { rewrite edges_map, sum_map. apply sum_ext. intros e _. cbn [fst snd]. rewrite tri_area_shift. auto. }
    assert (EN : existsb (neg2 (shift v c)) (edges (map (shift v) l)) = existsb (neg2 c) (edges l)).
    { rewrite edges_map. generalize (edges l). induction l0 as [|e r IH]; simpl; auto. rewrite IH. f_equal. unfold neg2. cbn [fst snd]. rewrite tri_area_shift. auto. }
    assert (EX : sum_of (tri_moment_x (shift v c)) (edges (map (shift v) l)) = sum_of (tri_moment_x c) (edges l) + p0 v * sum_of (fun e => Rabs (tri_area c (fst e) (snd e))) (edges l)).
    { rewrite edges_map, sum_map. rewrite (@sum_ext _ _ (fun e => tri_moment_x c e + p0 v * Rabs (tri_area c (fst e) (snd e)))).
      - rewrite (sum_plus (tri_moment_x c) (fun e => p0 v * Rabs (tri_area c (fst e) (snd e)))). rewrite sum_scale. auto.
      - intros e _. unfold tri_moment_x. cbn [fst snd]. rewrite tri_area_shift. clearbody c. simpl. field. }
    assert (EY : sum_of (tri_moment_y (shift v c)) (edges (map (shift v) l)) = sum_of (tri_moment_y c) (edges l) + p1 v * sum_of (fun e => Rabs (tri_area c (fst e) (snd e))) (edges l)).
    { rewrite edges_map, sum_map. rewrite (@sum_ext _ _ (fun e => tri_moment_y c e + p1 v * Rabs (tri_area c (fst e) (snd e)))).
      - rewrite (sum_plus (tri_moment_y c) (fun e => p1 v * Rabs (tri_area c (fst e) (snd e)))). rewrite sum_scale. auto.
      - intros e _. unfold tri_moment_y. cbn [fst snd]. rewrite tri_area_shift. clearbody c. simpl. field. }
    rewrite EA, EN, EX, EY. clear EA EN EX EY. set (M := sum_of (fun e => Rabs (tri_area c (fst e) (snd e))) (edges l)) in *. injection H as <- <- <-.
    eexists. split; [reflexivity|]. intros HA. assert (M <> 0). { intros E0. apply HA. unfold flag. rewrite E0. unfold gtb. destruct (Rlt_dec 0 0); [lra|]. rewrite andb_false_r. auto. }
    unfold diveq, shift, P2. cbn [pd pmap p0 p1 p2 Nat.eqb]. f_equal; field; auto.
Qed.

(** ** example: a counter-clockwise unit square, and the same square clockwise *)
Example square_ex : convex_ccw [Pt 2 0 0 0; Pt 2 1 0 0; Pt 2 1 1 0; Pt 2 0 1 0] /\ shoelace [Pt 2 0 0 0; Pt 2 1 0 0; Pt 2 1 1 0; Pt 2 0 1 0] = 1.
Proof.
  split; [|unfold shoelace, sum_of, wedge2; simpl; lra]. split.
  - repeat constructor; simpl; intuition; match goal with H : _ = _ |- _ => injection H; lra end.
  - intros a b c He Hc Na Nb. simpl in *. unfold tri_area. intuition; subst;
    repeat match goal with H : (_, _) = (_, _) |- _ => injection H as <- <- end; simpl; try lra; congruence.
Qed.
Example square_cw_ex : convex_cw [Pt 2 0 0 0; Pt 2 0 1 0; Pt 2 1 1 0; Pt 2 1 0 0].
Proof.
  split.
  - repeat constructor; simpl; intuition; match goal with H : _ = _ |- _ => injection H; lra end.
  - intros a b c He Hc Na Nb. simpl in *. unfold tri_area. intuition; subst;
    repeat match goal with H : (_, _) = (_, _) |- _ => injection H as <- <- end; simpl; try lra; congruence.
Qed.
