(** C47 (boxes), C66 (planes, points), C70 (copies of regions). *)
From Coq Require Import Reals Lra Psatz String.
From Verif Require Import Base Loop Point Geometry Geometry_spec Geometry_proofs Props_Point Regions.
Set Implicit Arguments.
Local Open Scope R_scope.

Lemma geb_iff a b : geb a b = true <-> b <= a. Proof. apply leb_iff. Qed.
Lemma eqb_R_iff a b : eqb_R a b = true <-> a = b. Proof. unfold eqb_R. destruct (Req_EM_T a b); split; intros; try discriminate; auto; congruence. Qed.
Lemma fold_and A (f : A -> bool) l : forall b, fold_left (fun res i => res && f i) l b = b && forallb f l.
Proof. induction l as [|x l IH]; intros b; simpl; [rewrite andb_true_r; auto|]. rewrite IH. rewrite andb_assoc. auto. Qed.
Lemma forallb_seq (f : nat -> bool) n : forallb f (seq 0 n) = true <-> forall i, (i < n)%nat -> f i = true.
Proof. rewrite forallb_forall. split; intros H i Hi; apply H; [apply in_seq; lia|apply in_seq in Hi; lia]. Qed.

(** ** boxes *)
(** each coordinate lies between those of the corners, up to 1e-8 *)
Definition in_box (a b p : point) : Prop := forall i, (i < pd p)%nat -> Rmin (pc a i) (pc b i) - 1 / 10 ^ 8 <= pc p i <= Rmax (pc a i) (pc b i) + 1 / 10 ^ 8.
Lemma between_iff x x0 x1 : between_ x x0 x1 = true <-> Rmin x0 x1 - 1 / 10 ^ 8 <= x <= Rmax x0 x1 + 1 / 10 ^ 8.
Proof.
  unfold between_, tol_box. rewrite orb_true_iff, !andb_true_iff, !geb_iff. generalize (1 / 10 ^ 8). intros t. unfold Rmin, Rmax. destruct (Rle_dec x0 x1); split; intros; lra.
Qed.
Theorem c47_inside a b r p : new_box a b = Ok r -> pd p = pd a -> exists v, box_inside r p = Ok v /\ (v = true <-> in_box a b p).
Proof.
  unfold new_box. destruct (Nat.eqb_spec (pd a) (pd b)); [|discriminate]. cbn [negb]. intros H Hp. injection H as <-. unfold box_inside. cbn [bx_p0 bx_p1]. rewrite Hp, Nat.eqb_refl. cbn [negb].
  eexists. split; [reflexivity|]. rewrite fold_and. cbn [andb]. rewrite forallb_seq. unfold in_box. rewrite Hp. split; intros G i Hi; apply between_iff; auto.
Qed.
(** the order of the corners does not matter *)
Theorem c47_corner_order a b r r' p : new_box a b = Ok r -> new_box b a = Ok r' -> box_inside r p = box_inside r' p.
Proof.
  intros H H'. assert (E : pd a = pd b) by (unfold new_box in H; destruct (Nat.eqb_spec (pd a) (pd b)); [auto|discriminate]).
  destruct (Nat.eq_dec (pd p) (pd a)) as [Ep|Np].
  - destruct (@c47_inside a b r p H Ep) as (v & E1 & H1). destruct (@c47_inside b a r' p H' (eq_trans Ep E)) as (v' & E2 & H2). rewrite E1, E2. f_equal.
    assert (S0 : in_box a b p <-> in_box b a p) by (unfold in_box; split; intros G i Hi; specialize (G i Hi); rewrite Rmin_comm, Rmax_comm; auto).
    destruct v, v'; auto; [symmetry|]; [apply H2, S0, H1|apply H1, S0, H2]; auto.
  - unfold new_box in H, H'. rewrite E in *. rewrite Nat.eqb_refl in *. cbn [negb] in *. injection H as <-. injection H' as <-. unfold box_inside. cbn [bx_p0].
    rewrite E. destruct (Nat.eqb_spec (pd p) (pd b)); [congruence|auto].
Qed.
Theorem c47_dimension_mismatch a b r p : (pd a <> pd b -> new_box a b = Thrown) /\ (new_box a b = Ok r -> pd p <> pd a -> box_inside r p = Thrown).
Proof.
  unfold new_box. split.
  - intros N. destruct (Nat.eqb_spec (pd a) (pd b)); [congruence|auto].
  - destruct (Nat.eqb_spec (pd a) (pd b)); [|discriminate]. cbn [negb]. intros H N. injection H as <-. unfold box_inside. cbn [bx_p0]. destruct (Nat.eqb_spec (pd p) (pd a)); [congruence|auto].
Qed.
(** the dimension of the region is the number of directions in which the box has an extent; is_degenerate counts the others *)
Definition extents (a b : point) : list nat := filter (fun i => negb (eqb_R (pc a i) (pc b i))) (seq 0 (pd a)).
Definition flats (a b : point) : list nat := filter (fun i => eqb_R (pc a i) (pc b i)) (seq 0 (pd a)).
Lemma filter_split A (f : A -> bool) l : (length (filter f l) + length (filter (fun x => negb (f x)) l) = length l)%nat.
Proof. induction l as [|x l IH]; simpl; auto. destruct (f x); simpl; lia. Qed.
Theorem c47_dimension a b r : new_box a b = Ok r -> bx_dim r = length (extents a b) /\ is_degenerate r = (negb (length (flats a b) =? 0)%nat, length (flats a b)).
Proof.
  unfold new_box. destruct (Nat.eqb_spec (pd a) (pd b)); [|discriminate]. cbn [negb]. intros H. injection H as <-. cbn [bx_dim]. unfold is_degenerate. cbn [bx_p0 bx_p1].
  assert (F1 : forall l d, fold_left (fun dim i => if eqb_R (pc a i) (pc b i) then (dim - 1)%nat else dim) l d = (d - length (filter (fun i => eqb_R (pc a i) (pc b i)) l))%nat).
  { induction l as [|i l IH]; intros d; cbn [fold_left filter]; [simpl; lia|]. rewrite IH. destruct (eqb_R (pc a i) (pc b i)); cbn [length]; lia. }
  assert (F2 : forall l k, fold_left (fun k i => if eqb_R (pc a i) (pc b i) then S k else k) l k = (k + length (filter (fun i => eqb_R (pc a i) (pc b i)) l))%nat).
  { induction l as [|i l IH]; intros k; cbn [fold_left filter]; [simpl; lia|]. rewrite IH. destruct (eqb_R (pc a i) (pc b i)); cbn [length]; lia. }
  rewrite F1, F2. cbn [Nat.add]. fold (flats a b). split; auto. assert (SP := filter_split (fun i => eqb_R (pc a i) (pc b i)) (seq 0 (pd a))). rewrite seq_length in SP. fold (flats a b) in SP. fold (extents a b) in SP.
  destruct (Nat.ltb_spec (pd a - length (flats a b)) (pd a)); lia.
Qed.
Example box_ex : exists r, new_box (Pt 3 1 0 2) (Pt 3 0 1 2) = Ok r /\ in_box (Pt 3 1 0 2) (Pt 3 0 1 2) (Pt 3 (/ 2) (/ 2) 2).
Proof.
  eexists. split; [reflexivity|]. intros i Hi. simpl in Hi. unfold Rmin, Rmax. assert (0 < 1 / 10 ^ 8) by lra. destruct i as [|[|[|]]]; cbn [pc p0 p1 p2]; try lia; destruct (Rle_dec _ _); lra.
Qed.

(** ** planes *)
(** p is within distance t of the plane through q with normal n: some point of the plane is that close *)
Definition near_plane (q n p : point) (t : R) : Prop := exists f, pd f = pd p /\ dot n (psub f q) = 0 /\ norm (psub p f) <= t.
Lemma plane_sum d n p q : dim_ok d -> pd n = d -> pd p = d -> pd q = d ->
  fold_left (fun s i => (fst s + pc n i * pc p i, snd s + pc n i * pc q i)) (seq 0 (pd p)) (0, 0) = (dot n p, dot n q).
Proof. intros D Hn Hp Hq. unfold dot. rewrite Hn, Hp. destruct D as [->|[->| ->]]; reflexivity. Qed.
Lemma dot_sub n p q : dim_ok (pd n) -> pd p = pd n -> pd q = pd n -> dot n (psub p q) = dot n p - dot n q.
Proof. intros D Hp Hq. unfold dot, psub. rewrite Hp. destruct D as [H|[H|H]]; rewrite H; cbn [pd p0 p1 p2]; ring. Qed.
Theorem c66_plane q n r p : dim_ok (pd q) -> new_plane q n = Ok r -> pd p = pd q -> norm n <> 0 ->
  exists v, plane_inside r p = Ok v /\ (v = true <-> near_plane q n p (1 / 10 ^ 12 / norm n)).
Proof.
  intros D H Hp Hn. unfold new_plane in H. destruct (Nat.eqb_spec (pd q) (pd n)) as [E|]; [|discriminate]. cbn [negb] in H. injection H as <-. unfold plane_inside. cbn [pl_p pl_n].
  destruct (Nat.eqb_spec (pd p) (pd q)); [|congruence]. cbn [negb]. rewrite (@plane_sum (pd q) n p q) by auto. eexists. split; [reflexivity|].
  assert (PN : 0 < norm n) by (assert (0 <= norm n) by apply sqrt_pos; lra). assert (Dn : dim_ok (pd n)) by (rewrite <- E; auto).
  assert (Sq : norm n * norm n = dot n n) by (apply sqrt_sqrt; apply dot_nonneg).
  rewrite leb_iff. change tol_plane with (1 / 10 ^ 12). set (t := 1 / 10 ^ 12). rewrite <- dot_sub by (auto; congruence). set (s := dot n (psub p q)). split.
  - intros H. set (k := s / dot n n). assert (NZ : dot n n <> 0) by (rewrite <- Sq; nra).
    exists (psub p (smul k n)). assert (Dp : pd (psub p (smul k n)) = pd p) by (unfold psub; rewrite Hp; destruct D as [G|[G|G]]; rewrite G; auto).
    assert (Ds : pd (smul k n) = pd n) by (unfold smul; destruct Dn as [G|[G|G]]; rewrite G; auto). split; auto. split.
    + rewrite dot_sub; [|auto|congruence|congruence]. rewrite dot_sub; [|auto|congruence|congruence].
      assert (E1 : dot n (smul k n) = k * dot n n) by (rewrite c65_dot_symmetric by congruence; apply c65_dot_bilinear with (q := n); auto). rewrite E1.
      assert (E2 : s = dot n p - dot n q) by (unfold s; apply dot_sub; auto; congruence). unfold k. rewrite E2. field. auto.
    + replace (psub p (psub p (smul k n))) with (smul k n).
      * rewrite c65_norm_scale by auto. apply Rmult_le_reg_r with (norm n); auto. replace (t / norm n * norm n) with t by (field; auto). rewrite Rmult_assoc, Sq.
        unfold k, Rdiv. rewrite Rabs_mult. assert (P0 : 0 < dot n n) by (rewrite <- Sq; nra). rewrite (Rabs_pos_eq (/ dot n n)) by (left; apply Rinv_0_lt_compat; auto). rewrite Rmult_assoc, Rinv_l by auto. lra.
      * clear - Hp E Dn. unfold psub, smul. rewrite Hp, E. destruct Dn as [G|[G|G]]; rewrite G; cbn [pd p0 p1 p2]; f_equal; ring.
  - intros (f & Hf & Z0 & Le). assert (Es : s = dot n (psub p f)).
    { unfold s. rewrite dot_sub in Z0 by (auto; congruence). rewrite !dot_sub by (auto; congruence). lra. }
    assert (CS := @c65_cauchy_schwarz n (psub p f) Dn). rewrite <- Es in CS. assert (Dpf : pd (psub p f) = pd n) by (unfold psub; rewrite Hp, E; destruct Dn as [G|[G|G]]; rewrite G; auto). specialize (CS Dpf).
    assert (norm n * norm (psub p f) <= norm n * (t / norm n)) by (apply Rmult_le_compat_l; lra). replace (norm n * (t / norm n)) with t in * by (field; auto). lra.
Qed.
(** for a unit normal: within 1e-12 of the plane *)
Theorem c66_plane_unit q n r p : dim_ok (pd q) -> new_plane q n = Ok r -> pd p = pd q -> norm n = 1 ->
  exists v, plane_inside r p = Ok v /\ (v = true <-> near_plane q n p (1 / 10 ^ 12)).
Proof.
  intros D H Hp Hn. destruct (@c66_plane q n r p D H Hp ltac:(rewrite Hn; lra)) as (v & E & G). exists v. split; auto. rewrite Hn in G. replace (1 / 10 ^ 12 / 1) with (1 / 10 ^ 12) in G by lra. auto.
Qed.
(** the normal is not normalised: a short normal widens the tolerance, so the same plane can give different answers *)
Theorem c66_plane_scaled_refuted : exists q n k p r r', norm n = 1 /\ 0 < k /\ new_plane q n = Ok r /\ new_plane q (smul k n) = Ok r' /\
  plane_inside r p = Ok false /\ plane_inside r' p = Ok true /\ ~ near_plane q n p (1 / 10).
Proof.
  exists (Pt 3 0 0 0), (Pt 3 0 0 1), (1 / 10 ^ 12), (Pt 3 0 0 1), (Plane (Pt 3 0 0 0) (Pt 3 0 0 1) 2), (Plane (Pt 3 0 0 0) (smul (1 / 10 ^ 12) (Pt 3 0 0 1)) 2).
  split; [unfold norm, dot; simpl; replace (0 + 0 * 0 + 0 * 0 + 1 * 1) with 1 by lra; apply sqrt_1|]. split; [lra|]. split; [reflexivity|]. split; [reflexivity|]. split; [|split].
  - unfold plane_inside. cbn [pl_p pl_n pd Nat.eqb negb seq fold_left fst snd pc p0 p1 p2]. f_equal. apply leb_false. unfold tol_plane. rewrite Rabs_pos_eq; lra.
  - unfold plane_inside. cbn [pl_p pl_n pd Nat.eqb negb seq fold_left fst snd pc p0 p1 p2 smul]. f_equal. apply leb_iff. unfold tol_plane. rewrite Rabs_pos_eq; lra.
  - intros (f & Hf & Z0 & Le). destruct f as [d x y z]. cbn [pd] in Hf. subst d. unfold dot, psub in Z0. cbn [pd p0 p1 p2] in Z0.
    assert (N : 1 <= norm (psub (Pt 3 0 0 1) (Pt 3 x y z))); [|lra]. unfold norm, psub, dot. cbn [pd p0 p1 p2]. rewrite <- sqrt_1 at 1. apply sqrt_le_1_alt. nra.
Qed.
Theorem c66_plane_mismatch q n r p : (pd q <> pd n -> new_plane q n = Thrown) /\ (new_plane q n = Ok r -> pd p <> pd q -> plane_inside r p = Thrown).
Proof.
  unfold new_plane. split.
  - intros N. destruct (Nat.eqb_spec (pd q) (pd n)); [congruence|auto].
  - destruct (Nat.eqb_spec (pd q) (pd n)); [|discriminate]. cbn [negb]. intros H N. injection H as <-. unfold plane_inside. cbn [pl_p]. destruct (Nat.eqb_spec (pd p) (pd q)); [congruence|auto].
Qed.
(** ** points *)
Theorem c66_point q p : (pd p <> pd q -> point_inside q p = Thrown) /\
  (pd p = pd q -> exists v, point_inside q p = Ok v /\ (v = true <-> forall i, (i < pd q)%nat -> Rabs (pc p i - pc q i) < 1 / 10 ^ 12)).
Proof.
  unfold point_inside. split; intros H.
  - destruct (Nat.eqb_spec (pd p) (pd q)); [congruence|auto].
  - rewrite H, Nat.eqb_refl. cbn [negb]. eexists. split; [reflexivity|]. rewrite fold_and. cbn [andb]. rewrite forallb_seq. split; intros G i Hi; apply ltb_iff; auto.
Qed.
(** the point itself is always in its region *)
Theorem c66_point_itself q : point_inside q q = Ok true.
Proof.
  destruct (proj2 (c66_point q q) eq_refl) as (v & E & H). rewrite E. f_equal. apply H. intros i _. rewrite Rminus_eq_0, Rabs_R0. lra.
Qed.
Example plane_ex : exists r, new_plane (Pt 3 0 0 1) (Pt 3 0 0 2) = Ok r /\ norm (Pt 3 0 0 2) <> 0.
Proof. eexists. split; [reflexivity|]. unfold norm, dot. cbn [pd p0 p1 p2]. intros H. apply sqrt_eq_0 in H; lra. Qed.

(** ** copies (C70) *)
Theorem c70_copies_partial : (forall r, copy_box r = r) /\ (forall r, copy_plane r = r) /\ (forall r, copy_polygon r = r) /\
  (forall r p, box_inside (copy_box r) p = box_inside r p) /\ (forall r p, plane_inside (copy_plane r) p = plane_inside r p) /\ (forall r p, polygon_inside (copy_polygon r) p = polygon_inside r p).
Proof.
  assert (A : forall r, copy_box r = r) by (intros []; auto). assert (B : forall r, copy_plane r = r) by (intros []; auto). assert (C : forall r, copy_polygon r = r) by (intros []; auto).
  repeat split; auto; intros; rewrite ?A, ?B, ?C; auto.
Qed.
(** the copy of a logical region has lost its operation and its components, whatever they were *)
Theorem c70_logical_copy_refuted name id op names r : new_logical name id op names = Ok r -> lr_op r <> None /\ lr_op (copy_logical r) = None /\ lr_names (copy_logical r) = [] /\ lr_names r = names.
Proof.
  unfold new_logical. intros H. repeat match type of H with context [if ?b then _ else _] => destruct b end; try discriminate; injection H as <-; cbn; repeat split; congruence.
Qed.
(** so does the copy of a labeled set: whatever it was made of, a copy equals the original only if all of that was empty *)
Theorem c70_labeled_copy_refuted name id entity file format label : copy_labeled (Labeled name id entity file format label) = Labeled name id entity file format label ->
  entity = EmptyString /\ file = EmptyString /\ format = EmptyString /\ label = EmptyString.
Proof. unfold copy_labeled. cbn. intros H. injection H; intros; subst; auto. Qed.
Theorem c70_operation_names name id names op : new_logical name id op names = Thrown <-> ~ In op ["Complement"; "Union"; "Intersect"; "Subtract"]%string.
Proof.
  unfold new_logical. split.
  - intros H I. simpl in I. destruct I as [<-|[<-|[<-|[<-|[]]]]]; discriminate.
  - intros N. destruct (String.eqb_spec op "Complement"); [subst; exfalso; apply N; simpl; auto|]. destruct (String.eqb_spec op "Union"); [subst; exfalso; apply N; simpl; auto|].
    destruct (String.eqb_spec op "Intersect"); [subst; exfalso; apply N; simpl; auto|]. destruct (String.eqb_spec op "Subtract"); [subst; exfalso; apply N; simpl; auto 6|]. auto.
Qed.
(** and each name stands for its own operation, with the component names kept in order *)
Theorem c70_operations name id names op r : new_logical name id op names = Ok r ->
  lr_name r = name /\ lr_id r = id /\ lr_names r = names /\
  ((op = "Complement" /\ lr_op r = Some COMPLEMENT) \/ (op = "Union" /\ lr_op r = Some UNION) \/
   (op = "Intersect" /\ lr_op r = Some INTERSECT) \/ (op = "Subtract" /\ lr_op r = Some SUBTRACT))%string.
Proof.
  unfold new_logical. intros H.
  repeat match type of H with context [String.eqb op ?s] => destruct (String.eqb_spec op s) end; try discriminate; injection H as <-; cbn; tauto.
Qed.
Example logical_copy_ex : exists r, new_logical "u" 7 "Union" ["a"; "b"]%string = Ok r /\ lr_op r = Some UNION. Proof. eexists. split; reflexivity. Qed.
