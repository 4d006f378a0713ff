From Coq Require Import Reals Lra Psatz.
From Verif Require Import Base Loop Point Geometry Geometry_spec.
Set Implicit Arguments.
Local Open Scope R_scope.

(** ** sums *)
Lemma rsum_app l1 l2 : rsum (l1 ++ l2) = rsum l1 + rsum l2.
Proof. induction l1 as [|x l IH]; simpl; [lra|rewrite IH; lra]. Qed.
Lemma sum_ext A (f g : A -> R) l : (forall x, In x l -> f x = g x) -> sum_of f l = sum_of g l.
Proof.
  unfold sum_of. induction l as [|x l IH]; simpl; intros H; auto. rewrite (H x) by auto. rewrite IH; auto.
Qed.
Lemma sum_plus A (f g : A -> R) l : sum_of (fun x => f x + g x) l = sum_of f l + sum_of g l.
Proof. unfold sum_of. induction l as [|x l IH]; simpl; [lra|rewrite IH; lra]. Qed.
Lemma sum_scale A (f : A -> R) k l : sum_of (fun x => k * f x) l = k * sum_of f l.
Proof. unfold sum_of. induction l as [|x l IH]; simpl; [lra|rewrite IH; lra]. Qed.
Lemma sum_const A (c : R) (l : list A) : sum_of (fun _ => c) l = INR (length l) * c.
Proof.
  unfold sum_of. induction l as [|x l IH]; [simpl; lra|]. cbn [map rsum length]. rewrite IH, S_INR. lra.
Qed.
Lemma sum_nonneg A (f : A -> R) l : (forall x, In x l -> 0 <= f x) -> 0 <= sum_of f l.
Proof.
  unfold sum_of. induction l as [|x l IH]; simpl; intros H; [lra|]. assert (0 <= f x) by auto. assert (0 <= rsum (map f l)) by auto. lra.
Qed.
Lemma sum_pos A (f : A -> R) l : l <> [] -> (forall x, In x l -> 0 < f x) -> 0 < sum_of f l.
Proof.
  intros N H. destruct l as [|x l]; [congruence|]. unfold sum_of. simpl. assert (0 < f x) by (apply H; left; auto).
  assert (0 <= sum_of f l) by (apply sum_nonneg; intros; left; apply H; right; auto). unfold sum_of in *. lra.
Qed.
Lemma sum_telescope A (g : A -> R) l a z : sum_of (fun e => g (snd e) - g (fst e)) (steps a l z) = g z - g a.
Proof.
  revert a. induction l as [|b l IH]; intros a; unfold sum_of in *; simpl; [lra|]. rewrite IH. lra.
Qed.
Lemma sum_cycle A (g : A -> R) l : sum_of (fun e => g (snd e) - g (fst e)) (edges l) = 0.
Proof. destruct l as [|a l]; unfold edges; [reflexivity|]. rewrite sum_telescope. lra. Qed.

Lemma sum_cycle_split A (f h : A * A -> R) (g : A -> R) l : (forall e, In e (edges l) -> f e = h e + (g (snd e) - g (fst e))) -> sum_of f (edges l) = sum_of h (edges l).
Proof. intros H. rewrite (sum_ext _ _ _ H). rewrite sum_plus, sum_cycle. lra. Qed.

(** ** edges *)
Lemma steps_length A (l : list A) : forall a z, length (steps a l z) = S (length l).
Proof. induction l as [|b l IH]; intros; simpl; auto. Qed.
Lemma edges_length A (l : list A) : length (edges l) = length l.
Proof. destruct l; simpl; auto. apply steps_length. Qed.
Lemma steps_nth A (l : list A) : forall a z i u v, nth_error (steps a l z) i = Some (u, v) ->
  nth_error (a :: l) i = Some u /\ (S i < S (length l) -> nth_error (a :: l) (S i) = Some v)%nat /\ (S i = S (length l) -> v = z)%nat.
Proof.
  induction l as [|b l IH]; intros a z i u v H; simpl in H.
  - destruct i as [|i]; [|destruct i; discriminate]. injection H as <- <-. simpl. repeat split; auto; lia.
  - destruct i as [|i].
    + injection H as <- <-. simpl. repeat split; auto; lia.
    + apply IH in H as (H1 & H2 & H3). cbn [nth_error length] in *. split; auto. split; intros; [apply H2|apply H3]; lia.
Qed.
Lemma edges_nth A (l : list A) i u v : nth_error (edges l) i = Some (u, v) ->
  nth_error l i = Some u /\ nth_error l ((i + 1) mod length l) = Some v.
Proof.
  destruct l as [|a l]; [destruct i; discriminate|]. unfold edges. intros H. assert (L := nth_error_lt _ _ H). rewrite steps_length in L.
  apply steps_nth in H as (H1 & H2 & H3). split; auto. destruct (Nat.eq_dec (S i) (S (length l))) as [E|E].
  - replace ((i + 1) mod length (a :: l)) with 0%nat; [simpl; rewrite H3 by auto; auto|]. symmetry. replace (i + 1)%nat with (length (a :: l)) by (simpl; lia).
    apply Nat.mod_same. simpl. lia.
  - rewrite Nat.mod_small by (simpl; lia). rewrite Nat.add_1_r. apply H2. lia.
Qed.
Lemma steps_In A (l : list A) : forall a z e, In e (steps a l z) -> In (fst e) (a :: l) /\ (In (snd e) l \/ snd e = z).
Proof.
  induction l as [|b l IH]; intros a z e H; simpl in H.
  - destruct H as [<-|[]]. simpl. auto.
  - destruct H as [<-|H]; [simpl; auto|]. apply IH in H as [H1 H2]. simpl in *. tauto.
Qed.
Lemma edges_In A (l : list A) e : In e (edges l) -> In (fst e) l /\ In (snd e) l.
Proof. destruct l as [|a l]; simpl; [tauto|]. intros H. apply steps_In in H as [H1 [H2|H2]]; simpl in *; intuition. Qed.
Lemma steps_map A B (f : A -> B) l : forall a z, steps (f a) (map f l) (f z) = map (fun e => (f (fst e), f (snd e))) (steps a l z).
Proof. induction l as [|b l IH]; intros; simpl; auto. rewrite IH. auto. Qed.
Lemma edges_map A B (f : A -> B) l : edges (map f l) = map (fun e => (f (fst e), f (snd e))) (edges l).
Proof. destruct l; simpl; auto. apply steps_map. Qed.
Lemma sum_map A B (g : A -> B) (f : B -> R) l : sum_of f (map g l) = sum_of (fun x => f (g x)) l.
Proof. unfold sum_of. rewrite map_map. auto. Qed.
Lemma sum_fst (f : point -> R) l : sum_of (fun e => f (fst e)) (edges l) = sum_of f l.
Proof.
  destruct l as [|a l]; [reflexivity|]. unfold edges. generalize a at 2. intros z. revert a. induction l as [|b l IH]; intros a; unfold sum_of in *; simpl; auto. rewrite IH. auto.
Qed.

(** a loop over positions as a loop over a list *)
Lemma foldM_list A S (L : list A) (f : nat -> S -> outcome S) (g : A -> S -> S) : forall k s,
  (forall i x s, nth_error L i = Some x -> f (k + i)%nat s = Ok (g x s)) -> foldM (seq k (length L)) f s = Ok (fold_left (fun s x => g x s) L s).
Proof.
  induction L as [|x L IH]; intros k s H; simpl; auto. assert (E := H 0%nat x s eq_refl). rewrite Nat.add_0_r in E. rewrite E. simpl.
  apply IH. intros i y s' Hy. rewrite <- (H (Datatypes.S i) y s' Hy). f_equal. lia.
Qed.
Lemma foldM_listM A S (L : list A) (f : nat -> S -> outcome S) (g : A -> S -> outcome S) : forall k s,
  (forall i x s, nth_error L i = Some x -> f (k + i)%nat s = g x s) -> foldM (seq k (length L)) f s = foldM L g s.
Proof.
  induction L as [|x L IH]; intros k s H; simpl; auto. assert (E := H 0%nat x s eq_refl). rewrite Nat.add_0_r in E. rewrite E. destruct (g x s); simpl; auto.
  apply IH. intros i y s' Hy. rewrite <- (H (Datatypes.S i) y s' Hy). f_equal. lia.
Qed.
(** a sub-array *)
Definition sub_at {A} (l face : list A) (off : nat) : Prop := forall i, (i < length face)%nat -> nth_error l (off + i) = nth_error face i.
Lemma sub_self A (l : list A) : sub_at l l 0. Proof. intros i _. auto. Qed.
Lemma edge_loop A S (l face : list A) off (h : A -> A -> S -> S) s : sub_at l face off -> 
  for_lt (length face) (fun j s => a <- rd l (off + j) ;; b <- rd l (off + (j + 1) mod length face) ;; Ok (h a b s)) s =
  Ok (fold_left (fun s e => h (fst e) (snd e) s) (edges face) s).
Proof.
  intros H. unfold for_lt. rewrite <- (edges_length face) at 1. apply foldM_list with (g := fun e => h (fst e) (snd e)). intros i [a b] s' E. simpl.
  assert (L := nth_error_lt _ _ E). rewrite edges_length in L. apply edges_nth in E as [E1 E2].
  rewrite <- (H i) in E1 by auto. rewrite <- (H ((i + 1) mod length face)) in E2 by (apply Nat.mod_upper_bound; lia).
  rewrite (proj2 (rd_Ok _ _ _) E1). simpl. rewrite (proj2 (rd_Ok _ _ _) E2). auto.
Qed.

(** ** plane *)
Definition P2 x y := Pt 2 x y 0.
Lemma fold_addeq2 l : all_dim 2 l -> forall c, pd c = 2%nat -> p2 c = 0 -> fold_left addeq l c = P2 (p0 c + sum_of p0 l) (p1 c + sum_of p1 l).
Proof.
  unfold sum_of. induction l as [|a l IH]; intros D c Hc Hz; simpl.
  - destruct c as [d x y z]; simpl in *; subst. unfold P2. f_equal; lra.
  - rewrite IH; [|intros p Hp; apply D; right; auto|unfold addeq; rewrite Hc; auto|unfold addeq; rewrite Hc; auto].
    unfold addeq. rewrite Hc. simpl. unfold P2. f_equal; lra.
Qed.
Lemma center2 l : all_dim 2 l -> center_of (pzero 2) l (length l) = P2 (p0 (mean l)) (p1 (mean l)).
Proof.
  intros D. unfold center_of. rewrite fold_addeq2 by (auto; reflexivity). unfold diveq, P2, mean. simpl. f_equal; f_equal; lra.
Qed.
Lemma sqrt_sq_abs t : sqrt (0 + t * t + 0 * 0) = Rabs t.
Proof. replace (0 + t * t + 0 * 0) with (Rsqr t) by (unfold Rsqr; lra). apply sqrt_Rsqr_abs. Qed.
Definition tri_moment_x (c : point) (e : point * point) := Rabs (tri_area c (fst e) (snd e)) * (p0 (fst e) + p0 (snd e) + p0 c) / 3.
Definition tri_moment_y (c : point) (e : point * point) := Rabs (tri_area c (fst e) (snd e)) * (p1 (fst e) + p1 (snd e) + p1 c) / 3.
Lemma tri_step2 c a b A C N neg : pd a = 2%nat -> pd b = 2%nat -> pd c = 2%nat -> pd C = 2%nat -> pd N = 2%nat ->
  tri_step 2 c a b (A, C, N, neg) =
  (A + Rabs (tri_area c a b), P2 (p0 C + tri_moment_x c (a, b)) (p1 C + tri_moment_y c (a, b)), P2 (p0 N + tri_area c a b) (p1 N + 0), neg || leb (tri_area c a b) 0).
Proof.
  intros Ha Hb Hc HC HN. unfold tri_step.
  assert (V : cross (smul (/ 2) (psub a c)) (psub b c) = P2 (tri_area c a b) 0).
  { unfold cross, smul, psub. rewrite Ha, Hb. simpl. unfold P2, tri_area. f_equal. lra. }
  rewrite V. assert (Nm : norm (P2 (tri_area c a b) 0) = Rabs (tri_area c a b)) by (unfold norm, dot; simpl; apply sqrt_sq_abs). rewrite Nm.
  unfold addeq. rewrite HC, HN. unfold pdiv, smul, padd. rewrite Ha. simpl. unfold P2, tri_moment_x, tri_moment_y. simpl.
  match goal with |- (_, Pt _ ?x ?y _, _, _) = (_, Pt _ ?x' ?y' _, _, _) => replace x with x' by lra; replace y with y' by lra end. reflexivity.
Qed.
Definition neg2 c (e : point * point) := leb (tri_area c (fst e) (snd e)) 0.
Lemma tri_fold2 c L : pd c = 2%nat -> (forall e, In e L -> pd (fst e) = 2%nat /\ pd (snd e) = 2%nat) -> forall A C N neg, pd C = 2%nat -> p2 C = 0 -> pd N = 2%nat -> p2 N = 0 ->
  fold_left (fun s e => tri_step 2 c (fst e) (snd e) s) L (A, C, N, neg) =
  (A + sum_of (fun e => Rabs (tri_area c (fst e) (snd e))) L, P2 (p0 C + sum_of (tri_moment_x c) L) (p1 C + sum_of (tri_moment_y c) L),
   P2 (p0 N + sum_of (fun e => tri_area c (fst e) (snd e)) L) (p1 N), neg || existsb (neg2 c) L).
Proof.
  intros Hc. unfold sum_of. induction L as [|[a b] L IH]; intros D A C N neg HC HC2 HN HN2; cbn [fold_left map rsum existsb fst snd].
  - destruct C, N; simpl in *; subst. unfold P2. rewrite orb_false_r. repeat f_equal; lra.
  - destruct (D (a, b) (or_introl eq_refl)) as [Ha Hb]. rewrite tri_step2 by auto. rewrite IH; try reflexivity; [|intros e He; apply D; right; auto].
    unfold neg2 at 2. cbn [fst snd]. rewrite orb_assoc. unfold P2. cbn [p0 p1 p2 pd]. rewrite <- !Rplus_assoc, Rplus_0_r. reflexivity.
Qed.

(** splitting a triangle at the origin *)
Lemma tri_split c a b : tri_area c a b = wedge2 a b / 2 + (wedge2 b c / 2 - wedge2 a c / 2).
Proof. unfold tri_area, wedge2. lra. Qed.
Lemma sum_tri_shoelace c l : sum_of (fun e => tri_area c (fst e) (snd e)) (edges l) = shoelace l.
Proof.
  unfold shoelace. apply sum_cycle_split with (g := fun v => wedge2 v c / 2). intros [a b] _. apply tri_split.
Qed.
Lemma moment_split_x c a b : tri_area c a b * (p0 a + p0 b + p0 c) / 3 =
  (p0 a + p0 b) * wedge2 a b / 6 + ((p0 b + p0 c) * wedge2 b c / 6 - (p0 a + p0 c) * wedge2 a c / 6).
Proof. unfold tri_area, wedge2. field. Qed.
Lemma moment_split_y c a b : tri_area c a b * (p1 a + p1 b + p1 c) / 3 =
  (p1 a + p1 b) * wedge2 a b / 6 + ((p1 b + p1 c) * wedge2 b c / 6 - (p1 a + p1 c) * wedge2 a c / 6).
Proof. unfold tri_area, wedge2. field. Qed.
Lemma sum_moment_x c l : sum_of (fun e => tri_area c (fst e) (snd e) * (p0 (fst e) + p0 (snd e) + p0 c) / 3) (edges l) =
  sum_of (fun e => (p0 (fst e) + p0 (snd e)) * wedge2 (fst e) (snd e)) (edges l) / 6.
Proof.
  transitivity (sum_of (fun e => / 6 * ((p0 (fst e) + p0 (snd e)) * wedge2 (fst e) (snd e))) (edges l)); [|rewrite sum_scale; lra].
  apply sum_cycle_split with (g := fun v => (p0 v + p0 c) * wedge2 v c / 6). intros [a b] _. cbn [fst snd]. rewrite moment_split_x. lra.
Qed.
Lemma sum_moment_y c l : sum_of (fun e => tri_area c (fst e) (snd e) * (p1 (fst e) + p1 (snd e) + p1 c) / 3) (edges l) =
  sum_of (fun e => (p1 (fst e) + p1 (snd e)) * wedge2 (fst e) (snd e)) (edges l) / 6.
Proof.
  transitivity (sum_of (fun e => / 6 * ((p1 (fst e) + p1 (snd e)) * wedge2 (fst e) (snd e))) (edges l)); [|rewrite sum_scale; lra].
  apply sum_cycle_split with (g := fun v => (p1 v + p1 c) * wedge2 v c / 6). intros [a b] _. cbn [fst snd]. rewrite moment_split_y. lra.
Qed.
Lemma leb_iff a b : leb a b = true <-> a <= b.
Proof. unfold leb. destruct (Rle_dec a b); split; intros; try discriminate; auto; tauto. Qed.
Lemma leb_false a b : leb a b = false <-> b < a.
Proof. unfold leb. destruct (Rle_dec a b); split; intros; try discriminate; auto; lra. Qed.
Lemma ltb_iff a b : ltb a b = true <-> a < b.
Proof. unfold ltb. destruct (Rlt_dec a b); split; intros; try discriminate; auto; tauto. Qed.
Lemma gtb_iff a b : gtb a b = true <-> b < a.
Proof. unfold gtb. destruct (Rlt_dec b a); split; intros; try discriminate; auto; tauto. Qed.
Lemma no_neg_star c l : existsb (neg2 c) (edges l) = false <-> star_ccw c l.
Proof.
  unfold star_ccw. split.
  - intros H e He. destruct (Rlt_dec 0 (tri_area c (fst e) (snd e))) as [|N]; auto. exfalso.
    assert (T : existsb (neg2 c) (edges l) = true) by (apply existsb_exists; exists e; split; auto; apply leb_iff; lra). congruence.
  - intros H. destruct (existsb (neg2 c) (edges l)) eqn:E; auto. apply existsb_exists in E as [e [He N]]. unfold neg2 in N. apply leb_iff in N. specialize (H e He). lra.
Qed.
Definition mean2 l := P2 (p0 (mean l)) (p1 (mean l)).
(** the function in the plane, for more than three vertices *)
Lemma polygon2 l : (3 < length l)%nat -> all_dim 2 l ->
  polygon 2 2 l = Ok (flag (existsb (neg2 (mean2 l)) (edges l)) (sum_of (fun e => Rabs (tri_area (mean2 l) (fst e) (snd e))) (edges l)),
    diveq (P2 (sum_of (tri_moment_x (mean2 l)) (edges l)) (sum_of (tri_moment_y (mean2 l)) (edges l))) (sum_of (fun e => Rabs (tri_area (mean2 l) (fst e) (snd e))) (edges l)),
    P2 (shoelace l) 0).
Proof.
  intros L D. unfold polygon. cbn [pset pzero pd bind]. destruct (Nat.ltb_spec (length l) 3); [lia|].
  destruct l as [|q0 r] eqn:El; [simpl in L; lia|]. rewrite <- El in *. assert (E0 : rd l 0 = Ok q0) by (rewrite El; auto). rewrite E0. cbn [bind].
  assert (D0 : pd q0 = 2%nat) by (apply D; rewrite El; left; auto). rewrite D0. destruct (Nat.eqb_spec (length l) 3); [lia|].
  rewrite center2 by auto. fold (mean2 l).
  rewrite (@edge_loop _ _ l l 0 (fun a b s => tri_step 2 (mean2 l) a b s) _ (@sub_self _ l)). cbn [bind].
  rewrite tri_fold2; try reflexivity; [|intros e He; apply edges_In in He as [H1 H2]; split; apply D; auto].
  rewrite sum_tri_shoelace. cbn [p0 p1 orb]. rewrite !Rplus_0_l. auto.
Qed.
Lemma polygon2_tri a b c : pd a = 2%nat -> pd b = 2%nat -> pd c = 2%nat ->
  polygon 2 2 [a; b; c] = Ok (Rabs (shoelace [a; b; c]), mean2 [a; b; c], P2 (shoelace [a; b; c]) 0).
Proof.
  intros Ha Hb Hc. unfold polygon. cbn [pset pzero pd bind length Nat.ltb Nat.leb rd nth_error Nat.eqb]. rewrite Ha.
  assert (N : cross (smul (/ 2) (psub c b)) (psub a b) = P2 (shoelace [a; b; c]) 0).
  { unfold cross, smul, psub. rewrite Hc, Ha. simpl. unfold P2, shoelace, sum_of, wedge2. simpl. f_equal. lra. }
  rewrite N. replace (norm (P2 (shoelace [a; b; c]) 0)) with (Rabs (shoelace [a; b; c])) by (unfold norm, dot; simpl; symmetry; apply sqrt_sq_abs).
  assert (E : center_of (pzero 2) [a; b; c] 3 = mean2 [a; b; c]); [|rewrite E; reflexivity]. apply (@center2 [a; b; c]). intros p [<-|[<-|[<-|[]]]]; auto.
Qed.
