(** C65: vector identities of class Point. *)
From Coq Require Import Reals Lra Psatz.
From Verif Require Import Base Point.
Set Implicit Arguments.
Local Open Scope R_scope.

(** the dimensions in use *)
Definition dim_ok (d : nat) : Prop := d = 1%nat \/ d = 2%nat \/ d = 3%nat.
(** the coordinates outside the dimension are 0 (the convention of the model, Point.v) *)
Definition wf (p : point) : Prop := dim_ok (pd p) /\ ((pd p < 2)%nat -> p1 p = 0) /\ ((pd p < 3)%nat -> p2 p = 0).

Ltac dims := repeat match goal with
  | p : point |- _ => destruct p as [?d ?x ?y ?z]; cbn [pd p0 p1 p2] in *
  | H : dim_ok _ |- _ => destruct H as [H|[H|H]]
  end; subst; try discriminate.
(** ** in space the cross product is orthogonal to its arguments *)
Theorem c65_cross_orthogonal p q : pd p = 3%nat -> pd q = 3%nat -> dot (cross p q) p = 0 /\ dot (cross p q) q = 0.
Proof. intros. dims. unfold dot, cross. cbn [pd p0 p1 p2]. split; ring. Qed.
(** in two dimensions the product is not a vector of the plane: its single component is stored as the first coordinate *)
Theorem c65_cross_plane p q : pd p = 2%nat -> pd q = 2%nat -> cross p q = Pt 2 (p0 p * p1 q - p0 q * p1 p) 0 0 /\ p0 (cross p q) * p0 (cross p q) + dot p q * dot p q = L22 p * L22 q.
Proof. intros. dims. unfold L22, dot, cross. cbn [pd p0 p1 p2]. split; auto. ring. Qed.
Theorem c65_cross_antisymmetric p q : dim_ok (pd p) -> pd q = pd p -> cross p q = popp (cross q p).
Proof. intros. dims; unfold cross, popp; cbn [pd p0 p1 p2]; f_equal; ring. Qed.
Theorem c65_lagrange p q : dim_ok (pd p) -> pd q = pd p -> L22 (cross p q) + dot p q * dot p q = L22 p * L22 q.
Proof. intros. dims; unfold L22, dot, cross; cbn [pd p0 p1 p2]; ring. Qed.
Theorem c65_dot_symmetric p q : pd p = pd q -> dot p q = dot q p.
Proof. intros. dims. unfold dot. cbn [pd p0 p1 p2]. match goal with |- context [match ?k with _ => _ end] => destruct k as [|[|[|]]]; ring end. Qed.
Theorem c65_dot_bilinear r p q s : dim_ok (pd p) -> pd q = pd p -> pd s = pd p -> dot (padd p q) s = dot p s + dot q s /\ dot (smul r p) s = r * dot p s.
Proof. intros. dims; unfold dot, padd, smul; cbn [pd p0 p1 p2]; split; ring. Qed.
Theorem c65_cross_bilinear r p q s : dim_ok (pd p) -> pd q = pd p -> pd s = pd p -> cross (padd p q) s = padd (cross p s) (cross q s) /\ cross (smul r p) s = smul r (cross p s).
Proof. intros. dims; unfold cross, padd, smul; cbn [pd p0 p1 p2]; split; f_equal; ring. Qed.
Theorem c65_triple_cyclic p q s : pd p = 3%nat -> pd q = 3%nat -> pd s = 3%nat -> dot (cross p q) s = dot (cross q s) p.
Proof. intros. dims. unfold dot, cross. cbn [pd p0 p1 p2]. ring. Qed.
Theorem c65_double_cross p q s : pd p = 3%nat -> pd q = 3%nat -> pd s = 3%nat -> cross p (cross q s) = psub (smul (dot p s) q) (smul (dot p q) s).
Proof. intros. dims. unfold dot, cross, psub, smul. cbn [pd p0 p1 p2]. f_equal; ring. Qed.
(** ** the module operations: p + q - q, scalar division, compound assignment *)
Theorem c65_add_sub p q : wf p -> pd q = pd p -> psub (padd p q) q = p /\ padd p (popp q) = psub p q.
Proof.
  intros (D & W1 & W2) Hq. destruct p as [d x y z], q as [d' x' y' z']. cbn [pd p0 p1 p2] in *. subst d'.
  destruct D as [->|[->| ->]]; unfold psub, padd, popp; cbn [pd p0 p1 p2]; rewrite ?W1, ?W2 by lia; split; f_equal; ring.
Qed.
Theorem c65_div p r : wf p -> r <> 0 -> pdiv (smul r p) r = p.
Proof.
  intros (D & W1 & W2) Hr. destruct p as [d x y z]. cbn [pd p0 p1 p2] in *.
  destruct D as [->|[->| ->]]; unfold pdiv, smul; cbn [pd p0 p1 p2]; rewrite ?W1, ?W2 by lia; f_equal; field; auto.
Qed.
Theorem c65_compound p q c : dim_ok (pd p) -> pd q = pd p -> addeq p q = padd p q /\ subeq p q = psub p q /\ muleq p c = smul c p /\ (c <> 0 -> diveq p c = pdiv p c).
Proof.
  intros. dims; unfold addeq, padd, subeq, psub, muleq, smul, diveq, pdiv, smul; cbn [pd p0 p1 p2 pmap]; repeat split; try (f_equal; ring); intros; f_equal; field; auto.
Qed.
(** ** the norm *)
Lemma dot_nonneg p : 0 <= dot p p.
Proof. unfold dot. assert (A := Rle_0_sqr (p0 p)). assert (B := Rle_0_sqr (p1 p)). assert (C := Rle_0_sqr (p2 p)). unfold Rsqr in *. destruct (pd p) as [|[|[|]]]; lra. Qed.
Theorem c65_norm_positive p : wf p -> 0 <= norm p /\ (norm p = 0 <-> p = pzero (pd p)).
Proof.
  intros (D & W1 & W2). split; [apply sqrt_pos|]. split.
  - intros H. apply sqrt_eq_0 in H; [|apply dot_nonneg]. destruct p as [d x y z]. cbn [pd p0 p1 p2] in *. unfold dot in H. cbn [pd p0 p1 p2] in H. unfold pzero.
    destruct D as [->|[->| ->]]; rewrite ?W1, ?W2 in * by lia; f_equal; nra.
  - intros ->. unfold norm, dot. cbn [pzero pd p0 p1 p2]. replace (match pd p with 0%nat => 0 | 1%nat => 0 + 0 * 0 | 2%nat => 0 + 0 * 0 + 0 * 0 | _ => 0 + 0 * 0 + 0 * 0 + 0 * 0 end) with 0 by (destruct (pd p) as [|[|[|]]]; lra). apply sqrt_0.
Qed.
Theorem c65_norm_scale r p : dim_ok (pd p) -> norm (smul r p) = Rabs r * norm p.
Proof.
  intros D. unfold norm. replace (dot (smul r p) (smul r p)) with (Rsqr r * dot p p) by (unfold Rsqr; dims; unfold dot, smul; cbn [pd p0 p1 p2]; ring).
  rewrite sqrt_mult_alt by apply Rle_0_sqr. rewrite sqrt_Rsqr_abs. auto.
Qed.
(** Cauchy-Schwarz and the triangle inequality *)
Theorem c65_cauchy_schwarz p q : dim_ok (pd p) -> pd q = pd p -> Rabs (dot p q) <= norm p * norm q.
Proof.
  intros D E. assert (L := c65_lagrange p q D E). assert (N := dot_nonneg (cross p q)). unfold L22 in L.
  rewrite <- sqrt_Rsqr_abs. unfold norm. rewrite <- sqrt_mult_alt by apply dot_nonneg. apply sqrt_le_1_alt. unfold Rsqr. lra.
Qed.
Theorem c65_triangle p q : dim_ok (pd p) -> pd q = pd p -> norm (padd p q) <= norm p + norm q.
Proof.
  intros D E. assert (CS := c65_cauchy_schwarz p q D E). assert (A := sqrt_pos (dot p p)). assert (B := sqrt_pos (dot q q)). fold (norm p) in A. fold (norm q) in B.
  apply Rsqr_incr_0; [|apply sqrt_pos|lra]. unfold Rsqr.
  assert (Sq : forall x, norm x * norm x = dot x x) by (intros x; apply sqrt_sqrt; apply dot_nonneg).
  rewrite Sq. replace (dot (padd p q) (padd p q)) with (dot p p + 2 * dot p q + dot q q) by (dims; unfold dot, padd; cbn [pd p0 p1 p2]; ring).
  assert (AB := Rle_abs (dot p q)). assert (Sp := Sq p). assert (Sq2 := Sq q). lra.
Qed.
Example point_ex : wf (Pt 3 1 2 3) /\ wf (Pt 2 1 2 0) /\ dot (Pt 3 1 2 3) (Pt 3 4 5 6) = 32 /\ cross (Pt 3 1 0 0) (Pt 3 0 1 0) = Pt 3 0 0 1.
Proof.
  split; [|split; [|split]].
  - split; [unfold dim_ok; simpl; auto|]. simpl. split; intros; lia.
  - split; [unfold dim_ok; simpl; auto|]. simpl. split; intros; [lia|auto].
  - unfold dot. simpl. lra.
  - unfold cross. simpl. f_equal; lra.
Qed.
