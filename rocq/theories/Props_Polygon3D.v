(** C48 in space: area, centroid and normal of a polygon. *)
From Coq Require Import Reals Lra Psatz.
From Verif Require Import Base Loop Point Geometry Geometry_spec Geometry_proofs Props_Polygon.
Set Implicit Arguments.
Local Open Scope R_scope.

Definition P3 x y z := Pt 3 x y z.
Lemma fold_addeq3 l : forall c, pd c = 3%nat -> fold_left addeq l c = P3 (p0 c + sum_of p0 l) (p1 c + sum_of p1 l) (p2 c + sum_of p2 l).
Proof.
  unfold sum_of. induction l as [|a l IH]; intros c Hc; cbn [fold_left map rsum].
  - destruct c as [d x y z]; simpl in *; subst. unfold P3. f_equal; lra.
  - rewrite IH by (unfold addeq; rewrite Hc; auto). unfold addeq. rewrite Hc. simpl. unfold P3. f_equal; lra.
Qed.
Lemma center3 l : center_of (pzero 3) l (length l) = mean l.
Proof. unfold center_of. rewrite fold_addeq3 by reflexivity. unfold diveq, P3, mean. cbn [pzero pd p0 p1 p2 pmap]. rewrite !Rplus_0_l. auto. Qed.
(** half of (a-c) x (b-c) *)
Definition vtri0 c (e : point * point) := ((p1 (fst e) - p1 c) * (p2 (snd e) - p2 c) - (p2 (fst e) - p2 c) * (p1 (snd e) - p1 c)) / 2.
Definition vtri1 c (e : point * point) := ((p2 (fst e) - p2 c) * (p0 (snd e) - p0 c) - (p0 (fst e) - p0 c) * (p2 (snd e) - p2 c)) / 2.
Definition vtri2 c (e : point * point) := ((p0 (fst e) - p0 c) * (p1 (snd e) - p1 c) - (p1 (fst e) - p1 c) * (p0 (snd e) - p0 c)) / 2.
Definition vtri c e := P3 (vtri0 c e) (vtri1 c e) (vtri2 c e).
Definition alen c e := length3 (vtri c e).
Definition mom3 (f : point -> R) c e := alen c e * (f (fst e) + f (snd e) + f c) / 3.
Lemma tri_step3 c a b A C N neg : pd a = 3%nat -> pd b = 3%nat -> pd C = 3%nat -> pd N = 3%nat ->
  tri_step 3 c a b (A, C, N, neg) =
  (A + alen c (a, b), P3 (p0 C + mom3 p0 c (a, b)) (p1 C + mom3 p1 c (a, b)) (p2 C + mom3 p2 c (a, b)),
   P3 (p0 N + vtri0 c (a, b)) (p1 N + vtri1 c (a, b)) (p2 N + vtri2 c (a, b)), neg || false).
Proof.
  intros Ha Hb HC HN. unfold tri_step.
  assert (V : cross (smul (/ 2) (psub a c)) (psub b c) = vtri c (a, b)).
  { unfold cross, smul, psub. rewrite Ha, Hb. cbn [pd p0 p1 p2]. unfold vtri, vtri0, vtri1, vtri2, P3. cbn [fst snd]. f_equal; field. }
  rewrite V. assert (Nm : norm (vtri c (a, b)) = alen c (a, b)) by (unfold norm, dot, alen, length3, vtri, P3; cbn [pd p0 p1 p2]; rewrite Rplus_0_l; auto). rewrite Nm.
  unfold addeq. rewrite HC, HN. unfold pdiv, smul, padd. rewrite Ha. cbn [pd pmap p0 p1 p2 vtri P3]. change ((3 =? 2)%nat && leb (vtri0 c (a, b)) 0) with false.
  unfold P3, mom3. cbn [fst snd].
  match goal with |- (_, Pt _ ?x ?y ?z, _, _) = (_, Pt _ ?x' ?y' ?z', _, _) => replace x with x' by field; replace y with y' by field; replace z with z' by field end. reflexivity.
Qed.
Lemma tri_fold3 c L : (forall e, In e L -> pd (fst e) = 3%nat /\ pd (snd e) = 3%nat) -> forall A C N neg, pd C = 3%nat -> pd N = 3%nat ->
  fold_left (fun s e => tri_step 3 c (fst e) (snd e) s) L (A, C, N, neg) =
  (A + sum_of (alen c) L, P3 (p0 C + sum_of (mom3 p0 c) L) (p1 C + sum_of (mom3 p1 c) L) (p2 C + sum_of (mom3 p2 c) L),
   P3 (p0 N + sum_of (vtri0 c) L) (p1 N + sum_of (vtri1 c) L) (p2 N + sum_of (vtri2 c) L), neg).
Proof.
  unfold sum_of. induction L as [|[a b] L IH]; intros D A C N neg HC HN; cbn [fold_left map rsum fst snd].
  - destruct C, N; simpl in *; subst. unfold P3. rewrite !Rplus_0_r. auto.
  - destruct (D (a, b) (or_introl eq_refl)) as [Ha Hb]. rewrite tri_step3 by auto. rewrite IH; try reflexivity; [|intros e He; apply D; right; auto].
    rewrite orb_false_r. unfold P3. cbn [p0 p1 p2 pd]. rewrite <- !Rplus_assoc. reflexivity.
Qed.
Lemma sum_vtri c l : P3 (sum_of (vtri0 c) (edges l)) (sum_of (vtri1 c) (edges l)) (sum_of (vtri2 c) (edges l)) = varea l.
Proof.
  unfold varea, P3. f_equal.
  - apply sum_cycle_split with (g := fun v => (p1 v * - p2 c + p2 v * p1 c) / -2). intros e _. unfold vtri0. field.
  - apply sum_cycle_split with (g := fun v => (p2 v * - p0 c + p0 v * p2 c) / -2). intros e _. unfold vtri1. field.
  - apply sum_cycle_split with (g := fun v => (p0 v * - p1 c + p1 v * p0 c) / -2). intros e _. unfold vtri2. field.
Qed.
Lemma polygon3 l : (3 < length l)%nat -> all_dim 3 l ->
  polygon 3 3 l = Ok (sum_of (alen (mean l)) (edges l),
    diveq (P3 (sum_of (mom3 p0 (mean l)) (edges l)) (sum_of (mom3 p1 (mean l)) (edges l)) (sum_of (mom3 p2 (mean l)) (edges l))) (sum_of (alen (mean l)) (edges l)), varea l).
Proof.
  intros L D. unfold polygon. cbn [pset pzero pd bind]. destruct (Nat.ltb_spec (length l) 3); [lia|].
  destruct l as [|q0 r] eqn:El; [simpl in L; lia|]. rewrite <- El in *. assert (E0 : rd l 0 = Ok q0) by (rewrite El; auto). rewrite E0. cbn [bind].
  assert (D0 : pd q0 = 3%nat) by (apply D; rewrite El; left; auto). rewrite D0. destruct (Nat.eqb_spec (length l) 3); [lia|].
  rewrite center3.
  rewrite (@edge_loop _ _ l l 0 (fun a b s => tri_step 3 (mean l) a b s) _ (@sub_self _ l)). cbn [bind].
  rewrite tri_fold3; try reflexivity; [|intros e He; apply edges_In in He as [H1 H2]; split; apply D; auto].
  cbn [p0 p1 p2 orb]. rewrite !Rplus_0_l. rewrite sum_vtri. auto.
Qed.
Lemma polygon3_tri a b c : pd a = 3%nat -> pd b = 3%nat -> pd c = 3%nat ->
  polygon 3 3 [a; b; c] = Ok (length3 (varea [a; b; c]), mean [a; b; c], varea [a; b; c]).
Proof.
  intros Ha Hb Hc. unfold polygon. cbn [pset pzero pd bind length Nat.ltb Nat.leb rd nth_error Nat.eqb]. rewrite Ha.
  assert (N : cross (smul (/ 2) (psub c b)) (psub a b) = varea [a; b; c]).
  { unfold cross, smul, psub. rewrite Hc, Ha. cbn [pd p0 p1 p2]. unfold varea, sum_of. cbn [edges steps map rsum fst snd]. f_equal; field. }
  rewrite N. replace (norm (varea [a; b; c])) with (length3 (varea [a; b; c])) by (unfold norm, dot, length3; cbn [pd varea]; rewrite Rplus_0_l; auto).
  assert (E : center_of (pzero 3) [a; b; c] 3 = mean [a; b; c]); [|rewrite E; reflexivity]. apply (@center3 [a; b; c]).
Qed.

(** ** length in space *)
Lemma length3_nonneg p : 0 <= length3 p. Proof. apply sqrt_pos. Qed.
Lemma length3_sq p : length3 p * length3 p = dot3 p p.
Proof. unfold length3, dot3. apply sqrt_sqrt. nra. Qed.
Lemma dot3_le p q : dot3 p q <= length3 p * length3 q.
Proof.
  destruct (Rle_dec (dot3 p q) 0) as [H|H]; [assert (A := length3_nonneg p); assert (B := length3_nonneg q); nra|].
  apply Rsqr_incr_0; [|lra|apply Rmult_le_pos; apply length3_nonneg].
  unfold Rsqr. replace (length3 p * length3 q * (length3 p * length3 q)) with ((length3 p * length3 p) * (length3 q * length3 q)) by lra. rewrite !length3_sq.
  assert (A := Rle_0_sqr (p0 p * p1 q - p1 p * p0 q)). assert (B := Rle_0_sqr (p0 p * p2 q - p2 p * p0 q)). assert (C := Rle_0_sqr (p1 p * p2 q - p2 p * p1 q)).
  unfold Rsqr, dot3 in *. lra.
Qed.
(** a vector sum is no longer than the sum of the lengths *)
Lemma length3_sum A (f g h : A -> R) L : length3 (P3 (sum_of f L) (sum_of g L) (sum_of h L)) <= sum_of (fun x => length3 (P3 (f x) (g x) (h x))) L.
Proof.
  set (s := P3 (sum_of f L) (sum_of g L) (sum_of h L)).
  assert (E : length3 s * length3 s = sum_of (fun x => dot3 s (P3 (f x) (g x) (h x))) L).
  { rewrite length3_sq. unfold dot3, P3. cbn [p0 p1 p2]. 
    rewrite (sum_plus (fun x => p0 s * f x + p1 s * g x) (fun x => p2 s * h x)), (sum_plus (fun x => p0 s * f x) (fun x => p1 s * g x)), !sum_scale. reflexivity. }
  assert (Le : sum_of (fun x => dot3 s (P3 (f x) (g x) (h x))) L <= length3 s * sum_of (fun x => length3 (P3 (f x) (g x) (h x))) L).
  { rewrite <- sum_scale. clear E. clearbody s. unfold sum_of. induction L as [|x L IH]; cbn [map rsum]; [lra|]. assert (H := dot3_le s (P3 (f x) (g x) (h x))). lra. }
  rewrite <- E in Le. assert (H := length3_nonneg s). destruct H as [H|H]; [nra|]. rewrite <- H. apply sum_nonneg. intros. apply length3_nonneg.
Qed.

(** ** the normal is the vector area, whatever the shape *)
Theorem c48_space_normal_is_vector_area l : (3 <= length l)%nat -> all_dim 3 l -> exists A C, polygon 3 3 l = Ok (A, C, varea l) /\ length3 (varea l) <= A.
Proof.
  intros L D. destruct (Nat.eq_dec (length l) 3) as [E|E].
  - destruct (tri_list _ E) as (a & b & c & ->). rewrite polygon3_tri by (apply D; simpl; auto). do 2 eexists. split; [reflexivity|lra].
  - rewrite polygon3 by (auto; lia). do 2 eexists. split; [reflexivity|]. rewrite <- (sum_vtri (mean l)). apply length3_sum.
Qed.
(** ** a planar polygon whose triangles about the mean are all seen the same way round: the area is the length of the normal, and the
       normal points along n *)
Lemma dot3_mean n l k : (0 < length l)%nat -> (forall a, In a l -> dot3 n a = k) -> dot3 n (mean l) = k.
Proof.
  intros L H. assert (NZ : INR (length l) <> 0) by (apply not_0_INR; lia).
  assert (E : sum_of (fun a => dot3 n a) l = INR (length l) * k) by (rewrite <- (sum_const k l); apply sum_ext; auto).
  unfold dot3 in E. rewrite (sum_plus (fun a => p0 n * p0 a + p1 n * p1 a) (fun a => p2 n * p2 a)), (sum_plus (fun a => p0 n * p0 a) (fun a => p1 n * p1 a)), !sum_scale in E.
  unfold dot3, mean. cbn [p0 p1 p2]. apply Rmult_eq_reg_l with (INR (length l)); auto. rewrite <- E. field. auto.
Qed.
(** two vectors in the plane of normal n: their cross product is along n *)
Lemma cross_along n c a b : dot3 n a = dot3 n c -> dot3 n b = dot3 n c ->
  dot3 n n * vtri0 c (a, b) = seen n c a b / 2 * p0 n /\ dot3 n n * vtri1 c (a, b) = seen n c a b / 2 * p1 n /\ dot3 n n * vtri2 c (a, b) = seen n c a b / 2 * p2 n.
Proof.
  unfold dot3, vtri0, vtri1, vtri2, seen. cbn [fst snd]. intros Ha Hb.
  assert (A : p0 n * (p0 a - p0 c) + p1 n * (p1 a - p1 c) + p2 n * (p2 a - p2 c) = 0) by lra.
  assert (B : p0 n * (p0 b - p0 c) + p1 n * (p1 b - p1 c) + p2 n * (p2 b - p2 c) = 0) by lra.
  set (u0 := p0 a - p0 c) in *. set (u1 := p1 a - p1 c) in *. set (u2 := p2 a - p2 c) in *.
  set (w0 := p0 b - p0 c) in *. set (w1 := p1 b - p1 c) in *. set (w2 := p2 b - p2 c) in *. set (n0 := p0 n) in *. set (n1 := p1 n) in *. set (n2 := p2 n) in *.
  clearbody u0 u1 u2 w0 w1 w2 n0 n1 n2. clear Ha Hb. 
  repeat split.
  - assert (T : (n0 * u0 + n1 * u1 + n2 * u2) * (n1 * w2 - n2 * w1) - (n0 * w0 + n1 * w1 + n2 * w2) * (n1 * u2 - n2 * u1) = 0) by (rewrite A, B; ring). 
    lra.
  - assert (T : (n0 * u0 + n1 * u1 + n2 * u2) * (n2 * w0 - n0 * w2) - (n0 * w0 + n1 * w1 + n2 * w2) * (n2 * u0 - n0 * u2) = 0) by (rewrite A, B; ring). lra.
  - assert (T : (n0 * u0 + n1 * u1 + n2 * u2) * (n0 * w1 - n1 * w0) - (n0 * w0 + n1 * w1 + n2 * w2) * (n0 * u1 - n1 * u0) = 0) by (rewrite A, B; ring). lra.
Qed.
Lemma length3_scale k p : 0 <= k -> length3 (P3 (k * p0 p) (k * p1 p) (k * p2 p)) = k * length3 p.
Proof.
  intros H. unfold length3, P3. cbn [p0 p1 p2].
  replace (k * p0 p * (k * p0 p) + k * p1 p * (k * p1 p) + k * p2 p * (k * p2 p)) with ((k * k) * (p0 p * p0 p + p1 p * p1 p + p2 p * p2 p)) by ring.
  rewrite sqrt_mult_alt by nra. rewrite sqrt_square by auto. auto.
Qed.
Lemma length3_pos n : dot3 n n <> 0 -> 0 < length3 n.
Proof. intros H. unfold length3. apply sqrt_lt_R0. unfold dot3 in H. assert (A := Rle_0_sqr (p0 n)). assert (B := Rle_0_sqr (p1 n)). assert (C := Rle_0_sqr (p2 n)). unfold Rsqr in *. lra. Qed.
Lemma dot3_pos n : dot3 n n <> 0 -> 0 < dot3 n n.
Proof. unfold dot3. assert (A := Rle_0_sqr (p0 n)). assert (B := Rle_0_sqr (p1 n)). assert (C := Rle_0_sqr (p2 n)). unfold Rsqr in *. lra. Qed.
(** the triangle's contribution *)
Lemma vtri_k n c a b : dot3 n n <> 0 -> dot3 n a = dot3 n c -> dot3 n b = dot3 n c -> let k := seen n c a b / 2 / dot3 n n in
  vtri c (a, b) = P3 (k * p0 n) (k * p1 n) (k * p2 n).
Proof.
  intros H Ha Hb k. destruct (@cross_along n c a b Ha Hb) as (E0 & E1 & E2). unfold vtri. unfold k.
  f_equal; apply Rmult_eq_reg_l with (dot3 n n); auto; rewrite ?E0, ?E1, ?E2; field; auto.
Qed.
Definition kk n c (e : point * point) := seen n c (fst e) (snd e) / 2 / dot3 n n.
Section Planar.
  Variables (n : point) (l : list point).
  Hypothesis Hn : dot3 n n <> 0.
  Hypothesis HL : (3 <= length l)%nat.
  Hypothesis HP : planar n l.
  Lemma dmean a : In a l -> dot3 n a = dot3 n (mean l).
  Proof. intros Ha. symmetry. apply dot3_mean; [lia|]. intros b Hb. apply HP; auto. Qed.
  Lemma vtri_edge e : In e (edges l) -> vtri (mean l) e = P3 (kk n (mean l) e * p0 n) (kk n (mean l) e * p1 n) (kk n (mean l) e * p2 n).
  Proof. destruct e as [a b]. intros He. apply edges_In in He as [H1 H2]. apply vtri_k; auto; apply dmean; auto. Qed.
  Lemma varea_k : varea l = P3 (sum_of (kk n (mean l)) (edges l) * p0 n) (sum_of (kk n (mean l)) (edges l) * p1 n) (sum_of (kk n (mean l)) (edges l) * p2 n).
  Proof.
    rewrite <- (sum_vtri (mean l)). f_equal; rewrite (Rmult_comm (sum_of _ _)), <- sum_scale; apply sum_ext; intros e He; assert (E := @vtri_edge e He); unfold vtri, P3 in E;
      injection E as E0 E1 E2; rewrite ?E0, ?E1, ?E2; ring.
  Qed.
  Hypothesis HS : forall a b, In (a, b) (edges l) -> 0 <= seen n (mean l) a b.
  Lemma kk_nonneg e : In e (edges l) -> 0 <= kk n (mean l) e.
  Proof.
    destruct e as [a b]. intros He. apply HS in He. unfold kk. cbn [fst snd]. assert (D := @dot3_pos n Hn).
    apply Rmult_le_pos; [lra|]. left. apply Rinv_0_lt_compat. auto.
  Qed.
  Lemma alen_k e : In e (edges l) -> alen (mean l) e = kk n (mean l) e * length3 n.
  Proof. intros He. unfold alen. rewrite vtri_edge by auto. apply length3_scale. apply kk_nonneg. auto. Qed.
  Lemma varea_len : length3 (varea l) = sum_of (alen (mean l)) (edges l).
  Proof.
    rewrite varea_k, length3_scale by (apply sum_nonneg; apply kk_nonneg). rewrite Rmult_comm, <- sum_scale. apply sum_ext. intros e He. rewrite alen_k by auto. ring.
  Qed.
End Planar.
Lemma sum_kk n c l : dot3 n n <> 0 -> sum_of (kk n c) (edges l) = area_about n c l / dot3 n n.
Proof. intros H. replace (area_about n c l / dot3 n n) with (/ dot3 n n * area_about n c l) by (field; auto). unfold area_about. rewrite <- sum_scale. apply sum_ext. intros e _. unfold kk. field. auto. Qed.
(** independence of the reference point *)
Lemma seen_split n o c a b : seen n c a b = seen n o a b + (seen n o b c - seen n o a c).
Proof. unfold seen. ring. Qed.
Theorem area_about_any n o c l : area_about n c l = area_about n o l.
Proof.
  unfold area_about. apply sum_cycle_split with (g := fun v => seen n o v c / 2). intros [a b] _. cbn [fst snd]. rewrite (seen_split n o c a b). lra.
Qed.
Lemma det_zero n o a b c : dot3 n n <> 0 -> dot3 n a = dot3 n o -> dot3 n b = dot3 n o -> dot3 n c = dot3 n o -> det3 o a b c = 0.
Proof.
  intros Hn Ha Hb Hc. destruct (@cross_along n o a b Ha Hb) as (E0 & E1 & E2). apply Rmult_eq_reg_l with (dot3 n n); auto. rewrite Rmult_0_r.
  transitivity (2 * ((dot3 n n * vtri0 o (a, b)) * (p0 c - p0 o) + (dot3 n n * vtri1 o (a, b)) * (p1 c - p1 o) + (dot3 n n * vtri2 o (a, b)) * (p2 c - p2 o))).
  - unfold det3, vtri0, vtri1, vtri2. cbn [fst snd]. field.
  - rewrite E0, E1, E2. transitivity (seen n o a b * (dot3 n c - dot3 n o)); [unfold dot3; field|]. rewrite Hc. ring.
Qed.
Definition coord (f : point -> R) := f = p0 \/ f = p1 \/ f = p2.
Lemma moment_split3 f n o c a b : coord f -> det3 o a b c = 0 ->
  seen n c a b * (f c + f a + f b) = seen n o a b * (f o + f a + f b) + (seen n o b c * (f o + f b + f c) - seen n o a c * (f o + f a + f c)).
Proof.
  intros Hf E. assert (I : seen n c a b * (f c + f a + f b) - (seen n o a b * (f o + f a + f b) + (seen n o b c * (f o + f b + f c) - seen n o a c * (f o + f a + f c))) = det3 o a b c * f n).
  { destruct Hf as [->|[->| ->]]; unfold seen, det3; ring. }
  rewrite E in I. lra.
Qed.
Theorem moment_about_any f n o c l : coord f -> dot3 n n <> 0 -> (forall a, In a l -> dot3 n a = dot3 n o) -> dot3 n c = dot3 n o -> moment_about f n c l = moment_about f n o l.
Proof.
  intros Hf Hn Hl Hc. unfold moment_about. apply sum_cycle_split with (g := fun v => seen n o v c / 2 * ((f o + f v + f c) / 3)). intros [a b] He. cbn [fst snd].
  apply edges_In in He as [Ha Hb]. cbn [fst snd] in *. assert (E := @moment_split3 f n o c a b Hf (@det_zero n o a b c Hn (Hl a Ha) (Hl b Hb) Hc)). lra.
Qed.

Theorem c48_space_planar n l : (3 <= length l)%nat -> all_dim 3 l -> dot3 n n <> 0 -> planar n l ->
  (forall a b, In (a, b) (edges l) -> 0 <= seen n (mean l) a b) ->
  exists A C, polygon 3 3 l = Ok (A, C, varea l) /\
    A = length3 (varea l) /\                                   (* the area is the length of the normal *)
    A * length3 n = dot3 n (varea l) /\                        (* the normal points along n *)
    (A <> 0 -> forall o, (forall a, In a l -> dot3 n a = dot3 n o) ->
       A * length3 n = area_about n o l /\                     (* area and centroid, from any point o of the plane *)
       area_about n o l * p0 C = moment_about p0 n o l /\ area_about n o l * p1 C = moment_about p1 n o l /\ area_about n o l * p2 C = moment_about p2 n o l).
Proof.
  intros L D Hn HP HS. assert (EL := @varea_len n l Hn L HP HS). assert (EV := @varea_k n l Hn L HP).
  assert (ED : length3 (varea l) * length3 n = dot3 n (varea l)).
  { rewrite EL. rewrite (@sum_ext _ _ (fun e => length3 n * kk n (mean l) e)) by (intros e He; rewrite (@alen_k n l Hn L HP HS e He); ring).
    rewrite sum_scale. replace (length3 n * sum_of (kk n (mean l)) (edges l) * length3 n) with ((length3 n * length3 n) * sum_of (kk n (mean l)) (edges l)) by ring.
    rewrite length3_sq, EV. unfold dot3, P3. cbn [p0 p1 p2]. ring. }
  assert (EA : forall o, length3 (varea l) * length3 n = area_about n o l).
  { intros o. rewrite ED. rewrite EV. rewrite (@sum_kk n _ l Hn), (area_about_any n o). transitivity (area_about n o l / dot3 n n * dot3 n n); [unfold dot3, P3; cbn [p0 p1 p2]; ring|field; auto]. }
  destruct (Nat.eq_dec (length l) 3) as [E|E].
  - destruct (tri_list _ E) as (a & b & c & El). subst l. rewrite polygon3_tri by (apply D; simpl; auto). do 2 eexists. split; [reflexivity|]. split; auto. split; auto.
    intros NZ o Ho. split; auto.
    assert (G : forall f, coord f -> area_about n o [a; b; c] * f (mean [a; b; c]) = moment_about f n o [a; b; c]).
    { intros f Hf. rewrite <- (@moment_about_any f n o a [a; b; c]) by (auto; apply Ho; simpl; auto). rewrite <- (@area_about_any n o a [a; b; c]).
      unfold area_about, moment_about, sum_of. cbn [edges steps map rsum fst snd].
      replace (f (mean [a; b; c])) with ((f a + f b + f c) / 3) by (destruct Hf as [->|[->| ->]]; unfold mean, sum_of; cbn [map rsum length INR p0 p1 p2]; field).
      assert (Z1 : seen n a a b = 0) by (unfold seen; ring). assert (Z2 : seen n a c a = 0) by (unfold seen; ring). rewrite Z1, Z2. field. }
    repeat split; apply G; unfold coord; auto.
  - rewrite polygon3 by (auto; lia). do 2 eexists. split; [reflexivity|]. rewrite <- EL. split; auto. split; auto. intros NZ o Ho. split; auto.
    assert (G : forall f, coord f -> area_about n o l * (sum_of (mom3 f (mean l)) (edges l) / length3 (varea l)) = moment_about f n o l).
    { intros f Hf. assert (LN := @length3_pos n Hn).
      rewrite <- (@moment_about_any f n o (mean l) l Hf Hn Ho).
      - rewrite <- EA. unfold moment_about. replace (length3 (varea l) * length3 n * (sum_of (mom3 f (mean l)) (edges l) / length3 (varea l))) with (length3 n * sum_of (mom3 f (mean l)) (edges l)) by (field; auto).
        rewrite <- sum_scale. apply sum_ext. intros e He. unfold mom3. rewrite (@alen_k n l Hn L HP HS e He).
        replace (length3 n * (kk n (mean l) e * length3 n * (f (fst e) + f (snd e) + f (mean l)) / 3)) with ((length3 n * length3 n) * kk n (mean l) e * (f (fst e) + f (snd e) + f (mean l)) / 3) by field.
        rewrite length3_sq. unfold kk. field. auto.
      - apply dot3_mean; [lia|]. intros a Ha. auto. }
    unfold diveq, P3. cbn [pd pmap p0 p1 p2]. repeat split; apply G; unfold coord; auto.
Qed.

(** ** every strictly convex planar polygon *)
Lemma seen_mean n a b l : (0 < length l)%nat -> INR (length l) * seen n (mean l) a b = sum_of (fun c => seen n a b c) l.
Proof.
  intros L. assert (NZ : INR (length l) <> 0) by (apply not_0_INR; lia).
  set (k0 := - (p1 n * (p2 b - p2 a)) + p2 n * (p1 b - p1 a)). set (k1 := p0 n * (p2 b - p2 a) - p2 n * (p0 b - p0 a)). set (k2 := - (p0 n * (p1 b - p1 a)) + p1 n * (p0 b - p0 a)).
  assert (F : forall c, seen n a b c = - 1 * (k0 * p0 c + k1 * p1 c + k2 * p2 c) + (k0 * p0 a + k1 * p1 a + k2 * p2 a)) by (intros c; unfold seen, k0, k1, k2; ring).
  assert (F2 : forall c, seen n c a b = seen n a b c) by (intros c; unfold seen; ring). rewrite F2. rewrite F. etransitivity; [|symmetry; apply sum_ext; intros c _; apply F].
  rewrite (sum_plus (fun c => - 1 * (k0 * p0 c + k1 * p1 c + k2 * p2 c)) (fun _ => k0 * p0 a + k1 * p1 a + k2 * p2 a)), sum_const, sum_scale.
  rewrite (sum_plus (fun c => k0 * p0 c + k1 * p1 c) (fun c => k2 * p2 c)), (sum_plus (fun c => k0 * p0 c) (fun c => k1 * p1 c)), !sum_scale.
  unfold mean. cbn [p0 p1 p2]. field. auto.
Qed.
Lemma convex_about_star n l : (3 <= length l)%nat -> convex_about n l -> forall a b, In (a, b) (edges l) -> 0 < seen n (mean l) a b.
Proof.
  intros L [D H] a b He. assert (P : 0 < INR (length l)) by (apply lt_0_INR; lia). assert (E := @seen_mean n a b l ltac:(lia)).
  assert (S0 : 0 < sum_of (fun c => seen n a b c) l).
  { destruct (@third l a b L D) as (c & Hc & Na & Nb). apply sum_some_pos with c; auto. intros y Hy.
    destruct (point_dec y a) as [->|]; [unfold seen; lra|]. destruct (point_dec y b) as [->|]; [unfold seen; lra|]. left. apply H; auto. }
  rewrite <- E in S0. nra.
Qed.
Theorem c48_space_convex n l : (3 <= length l)%nat -> all_dim 3 l -> planar n l -> convex_about n l ->
  exists A C, polygon 3 3 l = Ok (A, C, varea l) /\ 0 < A /\ A = length3 (varea l) /\ A * length3 n = dot3 n (varea l) /\
    (forall o, (forall a, In a l -> dot3 n a = dot3 n o) -> A * length3 n = area_about n o l /\
       area_about n o l * p0 C = moment_about p0 n o l /\ area_about n o l * p1 C = moment_about p1 n o l /\ area_about n o l * p2 C = moment_about p2 n o l).
Proof.
  intros L D HP HC. assert (S0 := @convex_about_star n l L HC).
  assert (Hn : dot3 n n <> 0).
  { intros Z0. assert (p0 n = 0 /\ p1 n = 0 /\ p2 n = 0) as (N0 & N1 & N2).
    { unfold dot3 in Z0. assert (A := Rle_0_sqr (p0 n)). assert (B := Rle_0_sqr (p1 n)). assert (C := Rle_0_sqr (p2 n)). unfold Rsqr in *. repeat split; nra. }
    destruct (edges l) as [|[a b] r] eqn:E; [apply (f_equal (@length _)) in E; rewrite edges_length in E; simpl in E; lia|].
    specialize (S0 a b (or_introl eq_refl)). unfold seen in S0. rewrite N0, N1, N2 in S0. lra. }
  destruct (@c48_space_planar n l L D Hn HP) as (A & C & E & EL & ED & G); [intros; left; auto|].
  assert (PA : 0 < A).
  { assert (PN : 0 < A * length3 n).
    { assert (LN := @length3_pos n Hn). rewrite ED. rewrite EL in *. rewrite <- ED.
      assert (E1 := @varea_len n l Hn L HP (fun a b H => Rlt_le _ _ (S0 a b H))). rewrite E1. apply Rmult_lt_0_compat; auto. apply sum_pos.
      - intros E0; apply (f_equal (@length _)) in E0; rewrite edges_length in E0; simpl in E0; lia.
      - intros e He. rewrite (@alen_k n l Hn L HP (fun a b H => Rlt_le _ _ (S0 a b H)) e He). apply Rmult_lt_0_compat; auto.
        destruct e as [a b]. unfold kk. cbn [fst snd]. specialize (S0 a b He). assert (D0 := @dot3_pos n Hn). apply Rmult_lt_0_compat; [lra|]. apply Rinv_0_lt_compat. auto. }
    assert (LN := @length3_pos n Hn). nra. }
  exists A, C. repeat split; auto; apply G; auto; lra.
Qed.
Example space_square_ex : let l := [Pt 3 0 0 1; Pt 3 0 2 1; Pt 3 0 2 3; Pt 3 0 0 3] in planar (Pt 3 1 0 0) l /\ convex_about (Pt 3 1 0 0) l /\ varea l = Pt 3 4 0 0.
Proof.
  intros l. split; [intros a b Ha Hb; simpl in *; intuition; subst; unfold dot3; simpl; lra|]. split; [split|].
  - repeat constructor; simpl; intuition; match goal with H : _ = _ |- _ => injection H; lra end.
  - intros a b c He Hc Na Nb. simpl in *. unfold seen. intuition; subst;
    repeat match goal with H : (_, _) = (_, _) |- _ => injection H as <- <- end; simpl; try lra; congruence.
  - unfold varea, sum_of, l. simpl. f_equal; lra.
Qed.
(** ** moving the polygon *)
Theorem c48_space_translation v l A C N : pd v = 3%nat -> (3 <= length l)%nat -> all_dim 3 l -> polygon 3 3 l = Ok (A, C, N) ->
  exists C', polygon 3 3 (map (shift v) l) = Ok (A, C', N) /\ (A <> 0 -> C' = shift v C).
Proof.
  intros Hv L D H. assert (D' : all_dim 3 (map (shift v) l)) by (intros p Hp; apply in_map_iff in Hp as (q & <- & Hq); simpl; auto).
  assert (Sh : forall p, In p l -> shift v p = P3 (p0 p + p0 v) (p1 p + p1 v) (p2 p + p2 v)) by (intros p Hp; unfold shift; rewrite (D p Hp); reflexivity).
  assert (S2 : sum_of p2 (map (shift v) l) = sum_of p2 l + INR (length l) * p2 v).
  { rewrite sum_map. rewrite (@sum_ext _ _ (fun p => p2 p + p2 v)) by (intros p Hp; rewrite Sh by auto; auto). rewrite (sum_plus p2 (fun _ => p2 v)), sum_const. auto. }
  assert (NZ : INR (length l) <> 0) by (apply not_0_INR; lia).
  assert (EM : mean (map (shift v) l) = shift v (mean l)).
  { unfold mean. rewrite map_length, sum_shift0, sum_shift1, S2. unfold shift. cbn [pd p0 p1 p2 Nat.eqb]. f_equal; field; auto. }
  assert (EV : forall e, In e (edges l) -> vtri (shift v (mean l)) (shift v (fst e), shift v (snd e)) = vtri (mean l) e).
  { intros e He. apply edges_In in He as [H1 H2]. rewrite (Sh (fst e)), (Sh (snd e)) by auto. replace (shift v (mean l)) with (P3 (p0 (mean l) + p0 v) (p1 (mean l) + p1 v) (p2 (mean l) + p2 v)) by reflexivity.
    unfold vtri, vtri0, vtri1, vtri2, P3. cbn [p0 p1 p2 fst snd]. f_equal; field; auto. }
  assert (EVA : varea (map (shift v) l) = varea l).
  { rewrite <- (sum_vtri (shift v (mean l))), <- (sum_vtri (mean l)). rewrite edges_map, !sum_map. f_equal; apply sum_ext; intros e He; specialize (EV e He); unfold vtri, P3 in EV; injection EV; auto. }
  destruct (Nat.eq_dec (length l) 3) as [E|E].
  - destruct (tri_list _ E) as (a & b & c & El). subst l. rewrite polygon3_tri in H by (apply D; simpl; auto). injection H as <- <- <-.
    cbn [map]. rewrite polygon3_tri by (simpl; apply D; simpl; auto). change [shift v a; shift v b; shift v c] with (map (shift v) [a; b; c]). rewrite EVA, EM. eauto.
  - rewrite polygon3 in H by (auto; lia). rewrite polygon3 by (rewrite ?map_length; auto; lia). rewrite EVA, EM.
    assert (EA : sum_of (alen (shift v (mean l))) (edges (map (shift v) l)) = sum_of (alen (mean l)) (edges l)).
    { rewrite edges_map, sum_map. apply sum_ext. intros e He. unfold alen. rewrite EV by auto. auto. }
    assert (EC : forall (f : point -> R) t, (forall p, In p l \/ p = mean l -> f (shift v p) = f p + t) -> sum_of (mom3 f (shift v (mean l))) (edges (map (shift v) l)) = sum_of (mom3 f (mean l)) (edges l) + t * sum_of (alen (mean l)) (edges l)).
    { intros f t Hf. rewrite edges_map, sum_map. rewrite (@sum_ext _ _ (fun e => mom3 f (mean l) e + t * alen (mean l) e)).
      - rewrite (sum_plus (mom3 f (mean l)) (fun e => t * alen (mean l) e)). rewrite (sum_scale (alen (mean l))). auto.
      - intros e He. unfold mom3, alen. rewrite EV by auto. apply edges_In in He as [H1 H2]. cbn [fst snd]. rewrite !Hf by auto. field. }
    rewrite EA. rewrite (EC p0 (p0 v)) by (intros; reflexivity). rewrite (EC p1 (p1 v)) by (intros; reflexivity).
    rewrite (EC p2 (p2 v)) by (intros p [Hp| ->]; [rewrite Sh by auto|]; reflexivity).
    set (M := sum_of (alen (mean l)) (edges l)) in *. injection H as <- <- <-. eexists. split; [reflexivity|]. intros HA.
    unfold diveq, shift, P3. cbn [pd pmap p0 p1 p2 Nat.eqb]. f_equal; field; auto.
Qed.
