(** C51: polygon regions. *)
From Coq Require Import Reals Lra Psatz.
From Verif Require Import Base Loop Point Geometry Geometry_spec Geometry_proofs Props_Point Props_Polygon Props_Polygon3D Props_InPolygon Regions Props_Regions.
Set Implicit Arguments.
Local Open Scope R_scope.

(** the point a + t (b - a) *)
Definition along (a b : point) (t : R) : point := Pt (pd a) (p0 a + t * (p0 b - p0 a)) (p1 a + t * (p1 b - p1 a)) (if (pd a =? 3)%nat then p2 a + t * (p2 b - p2 a) else 0).

(** ** the distance test *)
Lemma near_segment_iff q a b : pd q = 2%nat -> pd a = 2%nat -> pd b = 2%nat -> ~ (p0 a = p0 b /\ p1 a = p1 b) ->
  (near_segment q a b = true <-> exists t, 0 <= t <= 1 /\ dot (psub q (along a b t)) (psub b a) = 0 /\ L22 (psub q (along a b t)) < 1 / 10 ^ 16).
Proof.
  destruct q as [dq x y z], a as [da ax ay az], b as [db bx by_ bz]. cbn [pd p0 p1]. intros -> -> -> N. unfold near_segment, along. cbn [pd p0 p1 p2 psub Nat.eqb]. set (u := bx - ax) in *. set (w := by_ - ay) in *.
  assert (P : 0 < u * u + w * w). { assert (u <> 0 \/ w <> 0) by (destruct (Req_dec u 0); [right; intros ?; apply N; unfold u, w in *; lra|auto]). nra. }
  set (L := norm (Pt 2 u w 0)). assert (HL : L * L = u * u + w * w) by (unfold L, norm, dot; cbn [pd p0 p1 p2]; rewrite sqrt_sqrt by nra; ring).
  assert (PL : 0 < L). { assert (0 <= L) by (apply sqrt_pos). destruct (Req_dec L 0) as [Z0|]; [rewrite Z0 in HL; lra|lra]. }
  destruct (eqb_R L 0) eqn:EL; [apply eqb_R_iff in EL; lra|]. unfold diveq, L22, smul, padd, dot, tol_seg. cbn [pd p0 p1 p2 pmap psub]. clearbody L.
  set (dp := 0 + (x - ax) * (u / L) + (y - ay) * (w / L)). assert (Edp : dp * L = (x - ax) * u + (y - ay) * w) by (unfold dp; field; lra). clearbody dp. split.
  - destruct (geb dp 0 && leb dp L) eqn:G; [|discriminate]. apply andb_true_iff in G as [G1 G2]. apply geb_iff in G1. apply leb_iff in G2. rewrite ltb_iff. intros H. exists (dp / L).
    assert (T1 : 0 <= dp / L) by (apply Rmult_le_reg_r with L; auto; unfold Rdiv; rewrite Rmult_assoc, Rinv_l; lra). assert (T2 : dp / L <= 1) by (apply Rmult_le_reg_r with L; auto; unfold Rdiv; rewrite Rmult_assoc, Rinv_l; lra).
    split; [lra|]. split.
    + assert (E2 : dp / L * (u * u + w * w) = dp * L) by (rewrite <- HL; field; lra). lra.
    + replace (dp / L * u) with (dp * (u / L)) by (field; lra). replace (dp / L * w) with (dp * (w / L)) by (field; lra). auto.
  - intros (t & [T1 T2] & O & D). assert (Et : dp = t * L). { apply Rmult_eq_reg_r with L; [|lra]. rewrite Edp. replace (t * L * L) with (t * (u * u + w * w)) by (rewrite <- HL; ring). lra. }
    assert (G1 : geb dp 0 = true) by (apply geb_iff; rewrite Et; nra). assert (G2 : leb dp L = true) by (apply leb_iff; rewrite Et; nra). rewrite G1, G2. cbn [andb]. apply ltb_iff. rewrite Et.
    replace (t * L * (u / L)) with (t * u) by (field; lra). replace (t * L * (w / L)) with (t * w) by (field; lra). auto.
Qed.
Lemma near_segment_on q a b t : pd q = 2%nat -> pd a = 2%nat -> pd b = 2%nat -> ~ (p0 a = p0 b /\ p1 a = p1 b) -> 0 <= t <= 1 ->
  p0 q = p0 a + t * (p0 b - p0 a) -> p1 q = p1 a + t * (p1 b - p1 a) -> near_segment q a b = true.
Proof.
  intros Hq Ha Hb N T E0 E1. apply near_segment_iff; auto. exists t. split; auto. unfold L22, psub, along. rewrite Hq, Hb. unfold dot. cbn [pd p0 p1 p2]. rewrite E0, E1. split; [ring|].
  replace (0 + _ + _) with 0 by ring. lra.
Qed.

(** ** a polygon region in 2D is the segment between its first two points *)
Theorem c51_segment n a b l r p : pd a = 2%nat -> pd b = 2%nat -> ~ (p0 a = p0 b /\ p1 a = p1 b) -> new_polygon n (a :: b :: l) = Ok r -> pd p = 2%nat ->
  exists v, polygon_inside r p = Ok v /\
   (v = true <-> exists t, 0 <= t <= 1 /\ dot (psub p (along a b t)) (psub b a) = 0 /\ norm (psub p (along a b t)) <= 1 / 10 ^ 12).
Proof.
  intros Ha Hb N H Hp. unfold new_polygon in H. cbn [rd nth_error bind] in H. rewrite Ha in H. destruct (n <? 2)%nat; [discriminate|]. cbn [Nat.eqb] in H. injection H as <-.
  unfold polygon_inside. cbn [pg_points pg_normal pg_dim rd nth_error bind]. rewrite Hp. cbn [Nat.eqb seq fold_left fst snd pc p0 p1].
  assert (NS := @near_segment_iff p a b Hp Ha Hb N). destruct p as [dp_ x y z], a as [da ax ay az], b as [db bx by_ bz]. cbn [pd p0 p1] in *. subst.
  unfold psub, diveq, along, pmap in *. cbn [pd p0 p1 p2 Nat.eqb] in *. set (u := bx - ax) in *. set (w := by_ - ay) in *.
  assert (P : 0 < u * u + w * w). { assert (u <> 0 \/ w <> 0) by (destruct (Req_dec u 0); [right; intros ?; apply N; unfold u, w in *; lra|auto]). nra. }
  set (L := norm (Pt 2 u w 0)). assert (HL : L * L = u * u + w * w) by (unfold L, norm, dot; cbn [pd p0 p1 p2]; rewrite sqrt_sqrt by nra; ring).
  assert (PL : 0 < L). { assert (0 <= L) by (apply sqrt_pos). destruct (Req_dec L 0) as [Z0|]; [rewrite Z0 in HL; lra|lra]. } clearbody L.
  set (s := 0 + w / L * x + - (u / L) * y - (0 + w / L * ax + - (u / L) * ay)). assert (Es : s * L = w * (x - ax) - u * (y - ay)) by (unfold s; field; lra). clearbody s.
  assert (K : forall t, dot (Pt 2 (x - (ax + t * u)) (y - (ay + t * w)) 0) (Pt 2 u w 0) = 0 -> norm (Pt 2 (x - (ax + t * u)) (y - (ay + t * w)) 0) = Rabs s).
  { intros t O. unfold dot in O. cbn [pd p0 p1] in O. unfold norm, dot. cbn [pd p0 p1]. rewrite <- (sqrt_Rsqr_abs s). f_equal. unfold Rsqr. set (X := x - (ax + t * u)) in *. set (Y := y - (ay + t * w)) in *.
    assert (Es' : s * L = w * X - u * Y) by (rewrite Es; unfold X, Y; ring). apply Rmult_eq_reg_r with (L * L); [|nra]. replace (s * s * (L * L)) with ((s * L) * (s * L)) by ring. rewrite Es', HL.
    replace ((w * X - u * Y) * (w * X - u * Y)) with ((X * X + Y * Y) * (u * u + w * w) - (X * u + Y * w) * (X * u + Y * w)) by ring. replace (X * u + Y * w) with 0 by lra. ring. }
  assert (K2 : forall p, norm p <= 1 / 10 ^ 12 -> L22 p < 1 / 10 ^ 16). { intros p0 H0. unfold L22. assert (S0 : norm p0 * norm p0 = dot p0 p0) by (apply sqrt_sqrt; apply dot_nonneg). rewrite <- S0. assert (0 <= norm p0) by apply sqrt_pos. assert (norm p0 * norm p0 <= (1 / 10 ^ 12) * (1 / 10 ^ 12)) by (apply Rmult_le_compat; auto). lra. }
  destruct (gtb (Rabs s) tol_plane) eqn:G.
  - exists false. split; auto. split; [discriminate|]. intros (t & T & O & D). rewrite K in D by auto. apply gtb_iff in G. unfold tol_plane in G. lra.
  - eexists. split; [reflexivity|]. rewrite NS. assert (G' : Rabs s <= 1 / 10 ^ 12). { destruct (Rle_dec (Rabs s) (1 / 10 ^ 12)); auto. exfalso. assert (X : gtb (Rabs s) tol_plane = true) by (apply gtb_iff; unfold tol_plane; lra). congruence. }
    split; intros (t & T & O & D); exists t; (split; [auto|]); (split; [auto|]); [rewrite K; auto|apply K2; auto].
Qed.

(** ** polygons in space *)
(** the projection onto the coordinate plane across direction e *)
Definition proj (e : nat) (q : point) : point := Pt 2 (pc q ((e + 1) mod 3)) (pc q ((e + 2) mod 3)) 0.
Lemma proj_area e n a b c : (e < 3)%nat -> dot3 n b = dot3 n a -> dot3 n c = dot3 n a -> dot3 n n * tri_area (proj e a) (proj e b) (proj e c) = seen n a b c / 2 * pc n e.
Proof.
  intros He Hb Hc. destruct (@cross_along n a b c Hb Hc) as (E0 & E1 & E2). unfold vtri0, vtri1, vtri2 in *. cbn [fst snd] in *. unfold tri_area, proj.
  destruct e as [|[|[|]]]; [| | |lia]; repeat match goal with |- context [(?a mod 3)%nat] => let v := eval vm_compute in (a mod 3)%nat in change (a mod 3)%nat with v end; cbn [pc p0 p1]; [rewrite <- E0|rewrite <- E1|rewrite <- E2]; field.
Qed.
Lemma edges_map A B (f : A -> B) l : edges (map f l) = map (fun e => (f (fst e), f (snd e))) (edges l).
Proof.
  destruct l as [|a l]; auto. cbn [map edges]. generalize a at 2 4. intros z. revert a. induction l as [|b l IH]; intros a; simpl; auto. rewrite IH. auto.
Qed.
Lemma inside_loop (f : point -> point -> bool -> bool) (g : point -> point) l : forall c,
  for_lt (length l) (fun i c => a <- rd l i ;; b <- rd l ((i + 1) mod length l) ;; Ok (f (g a) (g b) c)) c = Ok (fold_left (fun c e => f (g (fst e)) (g (snd e)) c) (edges l) c).
Proof. intros c. exact (@edge_loop _ _ l l 0 (fun a b c => f (g a) (g b) c) c (@sub_self _ l)). Qed.
Lemma fold_any A (f : A -> bool) l : forall b, fold_left (fun (found : bool) e => if found then true else f e) l b = b || existsb f l.
Proof. induction l as [|x l IH]; intros b; simpl; [rewrite orb_false_r; auto|]. rewrite IH. destruct b; auto. Qed.
(** the two loops *)
Definition proj_inside (e : nat) (l : list point) (q : point) : bool :=
  Nat.odd (cnt (fun ed => crosses (p0 q) (p1 q) (fst ed) (snd ed)) (edges (map (proj e) l))) || existsb (fun ed => near_segment q (fst ed) (snd ed)) (edges (map (proj e) l)).
Lemma any_loop (f : point -> point -> bool) l : forall c,
  for_lt (length l) (fun i (found : bool) => if found then Ok true else a <- rd l i ;; b <- rd l ((i + 1) mod length l) ;; Ok (f a b)) c = Ok (c || existsb (fun e => f (fst e) (snd e)) (edges l)).
Proof.
  intros c. rewrite <- fold_any. rewrite <- (@edge_loop _ _ l l 0 (fun a b (found : bool) => if found then true else f a b) c (@sub_self _ l)). unfold for_lt. apply foldM_ext.
  intros i s Hi. apply in_seq in Hi. destruct s; auto. assert (R0 : forall j, (j < length l)%nat -> exists x, rd l j = Ok x) by (intros j Hj; destruct (nth_error l j) eqn:E; [exists p; apply rd_Ok; auto|apply nth_error_None in E; lia]).
  destruct (R0 i) as [x Ex]; [lia|]. destruct (R0 ((i + 1) mod length l)%nat) as [y Ey]; [apply Nat.mod_upper_bound; lia|]. cbn [Nat.add]. rewrite Ex. cbn [bind]. rewrite Ey. auto.
Qed.
Lemma inside3 a l n nrm e p : pd p = 3%nat -> n = length (a :: l) ->
  polygon_inside (Poly n (a :: l) nrm e 3) p = Ok (negb (gtb (Rabs (dot3 nrm p - dot3 nrm a)) tol_plane) && proj_inside e (a :: l) (proj e p)).
Proof.
  intros Hp Hn. unfold polygon_inside. cbn [pg_points pg_normal pg_dim pg_elim pg_n rd nth_error bind Nat.eqb]. rewrite Hp. cbn [seq fold_left fst snd pc].
  replace (0 + p0 nrm * p0 p + p1 nrm * p1 p + p2 nrm * p2 p) with (dot3 nrm p) by (unfold dot3; ring). replace (0 + p0 nrm * p0 a + p1 nrm * p1 a + p2 nrm * p2 a) with (dot3 nrm a) by (unfold dot3; ring).
  destruct (gtb _ _); cbn [negb andb]; auto. rewrite Hn. set (L := a :: l).
  rewrite (inside_loop (fun x y c => if crosses (pc p ((e + 1) mod 3)) (pc p ((e + 2) mod 3)) x y then negb c else c) (proj e) L). cbn [bind].
  rewrite (any_loop (fun x y => near_segment (proj e p) (proj e x) (proj e y)) L). unfold proj_inside. rewrite edges_map. cbn [proj p0 p1 orb].
  set (u := pc p ((e + 1) mod 3)). set (v := pc p ((e + 2) mod 3)).
  assert (G : forall E c, fold_left (fun c ed => if crosses u v (proj e (fst ed)) (proj e (snd ed)) then negb c else c) E c = xorb c (Nat.odd (cnt (fun ed => crosses u v (fst ed) (snd ed)) (map (fun ed => (proj e (fst ed), proj e (snd ed))) E)))).
  { induction E as [|x E IH]; intros c; cbn [fold_left map]; [rewrite xorb_false_r; auto|]. rewrite IH. unfold cnt. cbn [filter fst snd]. destruct (crosses u v (proj e (fst x)) (proj e (snd x))); cbn [length]; auto. rewrite Nat.odd_succ, <- Nat.negb_odd. destruct c, (Nat.odd _); auto. }
  rewrite G. cbn [xorb]. destruct (Nat.odd _); cbn [orb]; auto. f_equal. induction (edges L) as [|x E IH]; cbn [map existsb]; auto. rewrite IH. auto.
Qed.
(** ** the plane and the direction that is eliminated *)
Definition scale3 (k : R) (m : point) : point := Pt 3 (k * p0 m) (k * p1 m) (k * p2 m).
Definition largest (m : point) (e : nat) : Prop := (e < 3)%nat /\ forall i, (i < 3)%nat -> pc m i <= pc m e.
Lemma max_comp n : - 1 < p0 n \/ - 1 < p1 n \/ -1 < p2 n ->
  largest n (snd (fold_left (fun s i => if gtb (pc n i) (fst s) then (pc n i, i) else s) (seq 0 3) (-1, 0%nat))).
Proof.
  intros H. cbn [seq fold_left fst snd pc]. unfold largest.
  assert (C : forall i, (i < 3)%nat -> i = 0%nat \/ i = 1%nat \/ i = 2%nat) by lia.
  unfold gtb, ltb. repeat (destruct (Rlt_dec _ _); cbn [fst snd] in * ); (split; [lia|]); intros i Hi; destruct (C i Hi) as [->|[->| ->]]; cbn [pc]; lra.
Qed.
Lemma new_polygon3 l m r : all_dim 3 l -> planar m l -> convex_about m l -> new_polygon (length l) l = Ok r ->
  (3 <= length l)%nat /\ exists k e, 0 < k /\ k * length3 m = 1 /\ largest m e /\ r = Poly (length l) l (scale3 k m) e 3.
Proof.
  intros D HP HC H. unfold new_polygon in H. destruct l as [|a l]; [discriminate|]. cbn [rd nth_error bind] in H. rewrite (D a (or_introl eq_refl)) in H.
  destruct (Nat.ltb_spec (length (a :: l)) 3) as [|L]; [discriminate|]. split; auto. cbn [Nat.eqb] in H. destruct l as [|b l]; [simpl in L; lia|]. destruct l as [|c l]; [simpl in L; lia|].
  cbn [rd nth_error bind] in H. assert (Da := D a (or_introl eq_refl)). assert (Db := D b (or_intror (or_introl eq_refl))). assert (Dc := D c (or_intror (or_intror (or_introl eq_refl)))).
  assert (ND := proj1 HC). assert (Nca : c <> a) by (intros ->; inversion ND as [|? ? X _]; apply X; simpl; auto). assert (Ncb : c <> b) by (intros ->; inversion ND as [|? ? _ X]; inversion X as [|? ? Y _]; apply Y; simpl; auto).
  assert (S0 : 0 < seen m a b c) by (apply (proj2 HC); simpl; auto). assert (Hb : dot3 m b = dot3 m a) by (apply HP; simpl; auto). assert (Hc : dot3 m c = dot3 m a) by (apply HP; simpl; auto).
  assert (Nm : dot3 m m <> 0). { intros Z0. assert (p0 m = 0 /\ p1 m = 0 /\ p2 m = 0) as (Z1 & Z2 & Z3) by (unfold dot3 in Z0; repeat split; nra). unfold seen in S0. rewrite Z1, Z2, Z3 in S0. lra. }
  assert (Pm := @dot3_pos m Nm). assert (PL := @length3_pos m Nm). set (k0 := seen m a b c / dot3 m m). assert (Pk0 : 0 < k0) by (apply Rdiv_lt_0_compat; auto).
  assert (EC : cross (psub c b) (psub a b) = scale3 k0 m).
  { destruct (@cross_along m a b c Hb Hc) as (E0 & E1 & E2). unfold vtri0, vtri1, vtri2 in E0, E1, E2. cbn [fst snd] in *. unfold cross, psub, scale3. rewrite Da, Dc. cbn [pd p0 p1 p2].
    f_equal; apply Rmult_eq_reg_l with (dot3 m m); auto; unfold k0; [transitivity (2 * (seen m a b c / 2 * p0 m)); [rewrite <- E0|]|transitivity (2 * (seen m a b c / 2 * p1 m)); [rewrite <- E1|]|transitivity (2 * (seen m a b c / 2 * p2 m)); [rewrite <- E2|]]; field; auto. }
  rewrite EC in H. assert (EN : norm (scale3 k0 m) = k0 * length3 m). { rewrite <- length3_scale by lra. unfold norm, dot, scale3, length3, P3. cbn [pd p0 p1 p2]. f_equal. ring. }
  rewrite EN in H. assert (EQ : diveq (scale3 k0 m) (k0 * length3 m) = scale3 (/ length3 m) m).
  { unfold diveq, scale3. cbn [pd p0 p1 p2 pmap]. f_equal; field; lra. }
  rewrite EQ in H. set (k := / length3 m) in *. assert (Pk : 0 < k) by (apply Rinv_0_lt_compat; auto). assert (K1 : k * length3 m = 1) by (unfold k; field; lra).
  assert (MX : - 1 < p0 (scale3 k m) \/ - 1 < p1 (scale3 k m) \/ -1 < p2 (scale3 k m)).
  { cbn [scale3 p0 p1 p2]. destruct (Rlt_dec (-1) (k * p0 m)); auto. destruct (Rlt_dec (-1) (k * p1 m)); auto. exfalso. assert (SQ := length3_sq m). assert ((k * p0 m) * (k * p0 m) + (k * p1 m) * (k * p1 m) + (k * p2 m) * (k * p2 m) = 1); [|nra].
    transitivity (k * k * dot3 m m); [unfold dot3; ring|]. rewrite <- SQ. replace (k * k * (length3 m * length3 m)) with ((k * length3 m) * (k * length3 m)) by ring. rewrite K1. ring. }
  assert (M := @max_comp (scale3 k m) MX). destruct (fold_left _ (seq 0 3) (-1, 0%nat)) as [v e] eqn:EF. injection H as <-. exists k, e. split; auto. split; auto. split; [|auto].
  cbn [snd] in M. destruct M as [M1 M2]. split; auto. intros i Hi. specialize (M2 i Hi). assert (PCk : forall j, (j < 3)%nat -> pc (scale3 k m) j = k * pc m j) by (intros [|[|[|]]] ?; auto; lia). rewrite !PCk in M2 by auto. nra.
Qed.
(** some component of the normal is positive, or all are negative *)
Definition good_normal (m : point) : Prop := (exists i, (i < 3)%nat /\ 0 < pc m i) \/ (forall i, (i < 3)%nat -> pc m i < 0).
Lemma good_nonzero m e : good_normal m -> largest m e -> pc m e <> 0.
Proof. intros [[i [Hi P]]|P] [He M]; [specialize (M i Hi)|specialize (P e He)]; lra. Qed.
Lemma NoDup_map_on A B (f : A -> B) l : (forall x y, In x l -> In y l -> f x = f y -> x = y) -> NoDup l -> NoDup (map f l).
Proof.
  intros H D. induction D as [|x l N D IH]; simpl; constructor.
  - intros I0. apply in_map_iff in I0 as (y & E & Hy). apply N. rewrite <- (H y x); simpl; auto.
  - apply IH. intros; apply H; simpl; auto.
Qed.
Lemma edge_to A (l : list A) b : In b l -> exists a, In (a, b) (edges l).
Proof.
  intros H. assert (H' : In b (rev l)) by (apply in_rev in H; auto). destruct (edge_from (rev l) b H') as [a Ha]. exists a. apply (Permutation.Permutation_in _ (edges_rev l)) in Ha. apply in_map_iff in Ha as ([x y] & E & I0). unfold swap in E. simpl in E. injection E as -> ->. auto.
Qed.
Lemma edge_neq A (l : list A) a b : NoDup l -> (2 <= length l)%nat -> In (a, b) (edges l) -> a <> b.
Proof.
  intros D L H E. subst b. apply In_nth_error in H as [i Hi]. assert (Li := nth_error_lt _ _ Hi). rewrite edges_length in Li. apply edges_nth in Hi as [H1 H2].
  assert (E : i = ((i + 1) mod length l)%nat). { rewrite NoDup_nth_error in D. apply D; auto. congruence. }
  destruct (Nat.eq_dec (i + 1) (length l)) as [E'|N']; [rewrite E', Nat.mod_same in E by lia; lia|rewrite Nat.mod_small in E by lia; lia].
Qed.
Lemma all_pos_or_zero A (f : A -> R) l : (forall x, In x l -> 0 <= f x) -> (forall x, In x l -> 0 < f x) \/ exists x, In x l /\ f x = 0.
Proof.
  induction l as [|x l IH]; intros H; [left; simpl; tauto|]. assert (Hx := H x (or_introl eq_refl)). destruct (Req_dec (f x) 0) as [E|N]; [right; exists x; simpl; auto|].
  destruct IH as [A0|(y & Hy & E)]; [intros; apply H; simpl; auto| |right; exists y; simpl; auto]. left. intros y [<-|Hy]; auto. lra.
Qed.
Section Space.
  Variables (l : list point) (m : point) (e : nat).
  Hypothesis HD : all_dim 3 l.
  Hypothesis HP : planar m l.
  Hypothesis HC : convex_about m l.
  Hypothesis HL : (3 <= length l)%nat.
  Hypothesis He : (e < 3)%nat.
  Hypothesis Hne : pc m e <> 0.
  Variable a0 : point.
  Hypothesis Ha0 : In a0 l.
  Lemma m_nonzero : 0 < dot3 m m.
  Proof. apply dot3_pos. intros Z0. assert (p0 m = 0 /\ p1 m = 0 /\ p2 m = 0) as (Z1 & Z2 & Z3) by (unfold dot3 in Z0; repeat split; nra). apply Hne. destruct e as [|[|]]; auto. Qed.
  Lemma proj_inj x y : pd x = 3%nat -> pd y = 3%nat -> dot3 m x = dot3 m y -> proj e x = proj e y -> x = y.
  Proof.
    intros Dx Dy E P. assert (P0 : pc x ((e + 1) mod 3) = pc y ((e + 1) mod 3)) by (change (p0 (proj e x) = p0 (proj e y)); congruence). assert (P1 : pc x ((e + 2) mod 3) = pc y ((e + 2) mod 3)) by (change (p1 (proj e x) = p1 (proj e y)); congruence). clear P.
    unfold dot3 in E. destruct x as [dx x0 x1 x2], y as [dy y0 y1 y2]. cbn [pd] in *. subst.
    destruct e as [|[|[|]]]; [| | |lia]; repeat match type of P0 with context [(?a mod 3)%nat] => let v := eval vm_compute in (a mod 3)%nat in change (a mod 3)%nat with v in P0 end;
      repeat match type of P1 with context [(?a mod 3)%nat] => let v := eval vm_compute in (a mod 3)%nat in change (a mod 3)%nat with v in P1 end; cbn [pc p0 p1 p2] in *; subst; f_equal.
    - apply Rmult_eq_reg_l with (p0 m); auto. lra.
    - apply Rmult_eq_reg_l with (p1 m); auto. lra.
    - apply Rmult_eq_reg_l with (p2 m); auto. lra.
  Qed.
  Let L := map (proj e) l.
  Lemma L_edge a b : In (a, b) (edges L) -> exists x y, In (x, y) (edges l) /\ a = proj e x /\ b = proj e y.
  Proof. unfold L. rewrite edges_map. intros H. apply in_map_iff in H as ([x y] & E & H). simpl in E. injection E as <- <-. eauto. Qed.
  Lemma edge_L x y : In (x, y) (edges l) -> In (proj e x, proj e y) (edges L).
  Proof. intros H. unfold L. rewrite edges_map. apply in_map_iff. exists (x, y). auto. Qed.
  Lemma L_dim : all_dim 2 L. Proof. intros q H. apply in_map_iff in H as (x & <- & _). auto. Qed.
  Lemma L_len : length L = length l. Proof. apply map_length. Qed.
  Lemma L_nodup : NoDup L.
  Proof. apply NoDup_map_on; [|apply HC]. intros x y Hx Hy. apply proj_inj; auto. Qed.
  Lemma L_area a b c : In (a, b) (edges l) -> dot3 m c = dot3 m a0 -> dot3 m m * tri_area (proj e a) (proj e b) (proj e c) = seen m a b c / 2 * pc m e.
  Proof. intros Hab Hc. apply edges_In in Hab as [H1 H2]. apply proj_area; auto. rewrite Hc. auto. Qed.
  Lemma L_convex : 0 < pc m e -> convex_ccw L.
  Proof.
    intros P. split; [apply L_nodup|]. intros a b c H Hc Na Nb. apply L_edge in H as (x & y & H & -> & ->). apply in_map_iff in Hc as (z & <- & Hz).
    assert (A := @L_area x y z H (HP z a0 Hz Ha0)). assert (S0 : 0 < seen m x y z) by (apply (proj2 HC); auto; intros ->; auto). assert (M := m_nonzero). nra.
  Qed.
  Lemma L_convex_rev : pc m e < 0 -> convex_ccw (rev L).
  Proof.
    intros P. split; [apply NoDup_rev; apply L_nodup|]. intros a b c H Hc Na Nb. apply in_rev in Hc. apply (Permutation.Permutation_in _ (edges_rev L)) in H. apply in_map_iff in H as ([b' a'] & E & H). unfold swap in E. cbn [fst snd] in E. injection E as -> ->.
    apply L_edge in H as (x & y & H & -> & ->). apply in_map_iff in Hc as (z & <- & Hz).
    assert (A := @L_area x y z H (HP z a0 Hz Ha0)). assert (S0 : 0 < seen m x y z) by (apply (proj2 HC); auto; intros ->; auto). assert (M := m_nonzero).
    assert (T : tri_area (proj e y) (proj e x) (proj e z) = - tri_area (proj e x) (proj e y) (proj e z)) by (unfold tri_area; field). nra.
  Qed.
  Variable p : point.
  Hypothesis Dp : pd p = 3%nat.
  Hypothesis Pp : dot3 m p = dot3 m a0.
  Let cr := Nat.odd (cnt (fun ed => crosses (p0 (proj e p)) (p1 (proj e p)) (fst ed) (snd ed)) (edges L)).
  Lemma cr_eq : point_in_polygon (proj e p) L = Ok cr. Proof. rewrite in_polygon_eq. reflexivity. Qed.
  Lemma cr_sound : cr = true -> forall a b, In (a, b) (edges l) -> 0 <= seen m a b p.
  Proof.
    intros C a b H. assert (E := cr_eq). rewrite C in E. assert (A := @L_area a b p H Pp). assert (M := m_nonzero). assert (L3 : (3 <= length L)%nat) by (rewrite L_len; auto).
    destruct (Rlt_dec 0 (pc m e)) as [P|P].
    - assert (T := @c69_convex_sound L (proj e p) L_dim (L_convex P) eq_refl E _ _ (@edge_L a b H)). nra.
    - assert (P' : pc m e < 0) by lra. assert (T := proj1 (@c69_convex_clockwise L (proj e p) L3 L_dim (L_convex_rev P') eq_refl) E _ _ (@edge_L a b H)). nra.
  Qed.
  Lemma cr_complete : (forall a b, In (a, b) (edges l) -> 0 < seen m a b p) -> cr = true.
  Proof.
    intros H. assert (E := cr_eq). assert (M := m_nonzero). assert (L3 : (3 <= length L)%nat) by (rewrite L_len; auto). destruct (Rlt_dec 0 (pc m e)) as [P|P].
    - rewrite (@c69_convex_complete L (proj e p) L3 L_dim (L_convex P) eq_refl) in E; [congruence|]. intros a b Hab. apply L_edge in Hab as (x & y & Hab & -> & ->). assert (A := @L_area x y p Hab Pp). specialize (H x y Hab). nra.
    - assert (P' : pc m e < 0) by lra. rewrite (proj2 (@c69_convex_clockwise L (proj e p) L3 L_dim (L_convex_rev P') eq_refl)) in E; [congruence|]. intros a b Hab. apply L_edge in Hab as (x & y & Hab & -> & ->). assert (A := @L_area x y p Hab Pp). specialize (H x y Hab). nra.
  Qed.
  Lemma proj_neq a b : In (a, b) (edges l) -> ~ (p0 (proj e a) = p0 (proj e b) /\ p1 (proj e a) = p1 (proj e b)).
  Proof.
    intros H [E0 E1]. assert (N := edge_neq (proj1 HC) ltac:(lia) H). apply edges_In in H as [H1 H2]. apply N. apply proj_inj; auto. unfold proj in *. cbn [p0 p1] in *. congruence.
  Qed.
  Lemma proj_along a b t i : (i < 2)%nat -> pd a = 3%nat -> pc (proj e (along a b t)) i = pc (proj e a) i + t * (pc (proj e b) i - pc (proj e a) i).
  Proof.
    intros Hi Da. unfold proj, along. rewrite Da. cbn [Nat.eqb]. destruct i as [|[|]]; [| |lia]; cbn [pc p0 p1]; [generalize ((e + 1) mod 3)%nat|generalize ((e + 2) mod 3)%nat]; intros [|[|]]; reflexivity.
  Qed.
  (** p on an edge *)
  Lemma on_edge a b t : In (a, b) (edges l) -> 0 <= t <= 1 -> p = along a b t -> existsb (fun ed => near_segment (proj e p) (fst ed) (snd ed)) (edges L) = true.
  Proof.
    intros H T E. apply existsb_exists. exists (proj e a, proj e b). split; [apply edge_L; auto|]. cbn [fst snd]. assert (N := proj_neq _ _ H). apply edges_In in H as [H1 H2].
    apply near_segment_on with t; auto; rewrite E; [apply (@proj_along a b t 0)|apply (@proj_along a b t 1)]; auto.
  Qed.
  Lemma seen_along n x y a b t : pd a = 3%nat -> seen n x y (along a b t) = (1 - t) * seen n x y a + t * seen n x y b.
  Proof. intros Da. unfold seen, along. rewrite Da. cbn [Nat.eqb p0 p1 p2]. ring. Qed.
  (** a point of the closed polygon that is not strictly inside lies on an edge *)
  Lemma boundary a b : (forall a b, In (a, b) (edges l) -> 0 <= seen m a b p) -> In (a, b) (edges l) -> seen m a b p = 0 -> exists t, 0 <= t <= 1 /\ p = along a b t.
  Proof.
    intros H Hab Z0. assert (N := edge_neq (proj1 HC) ltac:(lia) Hab). assert (Hab' := Hab). apply edges_In in Hab' as [H1 H2]. cbn [fst snd] in H1, H2. assert (M := m_nonzero).
    assert (Ba : dot3 m b = dot3 m a) by auto. assert (Pa : dot3 m p = dot3 m a) by (rewrite Pp; auto).
    destruct (@cross_along m a b p Ba Pa) as (E0 & E1 & E2). unfold vtri0, vtri1, vtri2 in E0, E1, E2. cbn [fst snd] in *. rewrite Z0 in E0, E1, E2.
    assert (Da := HD _ H1). assert (Db := HD _ H2).
    set (u0 := p0 b - p0 a) in *. set (u1 := p1 b - p1 a) in *. set (u2 := p2 b - p2 a) in *. set (v0 := p0 p - p0 a) in *. set (v1 := p1 p - p1 a) in *. set (v2 := p2 p - p2 a) in *.
    assert (C0 : u1 * v2 - u2 * v1 = 0) by (apply Rmult_eq_reg_l with (dot3 m m); [|lra]; lra). assert (C1 : u2 * v0 - u0 * v2 = 0) by (apply Rmult_eq_reg_l with (dot3 m m); [|lra]; lra). assert (C2 : u0 * v1 - u1 * v0 = 0) by (apply Rmult_eq_reg_l with (dot3 m m); [|lra]; lra).
    assert (HUU : u0 * u0 + u1 * u1 + u2 * u2 <> 0).
    { intros X. apply N. assert (u0 = 0 /\ u1 = 0 /\ u2 = 0) as (X0 & X1 & X2) by (repeat split; nra). clear - Da Db X0 X1 X2. destruct a as [da ax ay az], b as [db bx by_ bz]. cbn [pd p0 p1 p2] in *. unfold u0, u1, u2 in *. f_equal; [congruence|lra..]. }
    set (UU := u0 * u0 + u1 * u1 + u2 * u2) in *. set (t := (v0 * u0 + v1 * u1 + v2 * u2) / UU). assert (Et : t * UU = v0 * u0 + v1 * u1 + v2 * u2) by (unfold t; field; auto).
    assert (T0 : v0 = t * u0). { apply Rmult_eq_reg_r with UU; auto. replace (t * u0 * UU) with (u0 * (t * UU)) by ring. rewrite Et. assert (X : v0 * UU - u0 * (v0 * u0 + v1 * u1 + v2 * u2) = - u1 * (u0 * v1 - u1 * v0) + u2 * (u2 * v0 - u0 * v2)) by (unfold UU; ring). rewrite ?C0, ?C1, ?C2 in X. lra. }
    assert (T1 : v1 = t * u1). { apply Rmult_eq_reg_r with UU; auto. replace (t * u1 * UU) with (u1 * (t * UU)) by ring. rewrite Et. assert (X : v1 * UU - u1 * (v0 * u0 + v1 * u1 + v2 * u2) = u0 * (u0 * v1 - u1 * v0) - u2 * (u1 * v2 - u2 * v1)) by (unfold UU; ring). rewrite ?C0, ?C1, ?C2 in X. lra. }
    assert (T2 : v2 = t * u2). { apply Rmult_eq_reg_r with UU; auto. replace (t * u2 * UU) with (u2 * (t * UU)) by ring. rewrite Et. assert (X : v2 * UU - u2 * (v0 * u0 + v1 * u1 + v2 * u2) = u1 * (u1 * v2 - u2 * v1) - u0 * (u2 * v0 - u0 * v2)) by (unfold UU; ring). rewrite ?C0, ?C1, ?C2 in X. lra. }
    assert (EP : p = along a b t). { unfold along. rewrite Da. cbn [Nat.eqb]. fold u0 u1 u2. rewrite <- T0, <- T1, <- T2. unfold v0, v1, v2. clear - Dp. destruct p as [dp x y z]. cbn [pd p0 p1 p2] in *. f_equal; [auto|lra..]. }
    exists t. split; auto. clearbody t. split.
    - destruct (edge_to l a H1) as [z Hz]. assert (Hz' := Hz). apply edges_In in Hz' as [Iz _]. cbn [fst] in Iz. assert (Nza := edge_neq (proj1 HC) ltac:(lia) Hz).
      assert (Nzb : b <> z). { intros <-. assert (F : forall c, In c l -> c = a \/ c = b). { intros c Hc. destruct (point_dec c a); auto. destruct (point_dec c b); auto. exfalso. assert (X1 := proj2 HC a b c Hab Hc n n0). assert (X2 := proj2 HC b a c Hz Hc n0 n). assert (seen m b a c = - seen m a b c) by (unfold seen; ring). lra. }
        assert (ND := proj1 HC). clear - F ND HL. destruct l as [|x [|y [|z r]]]; simpl in HL; try lia. assert (Fx := F x (or_introl eq_refl)). assert (Fy := F y (or_intror (or_introl eq_refl))). assert (Fz := F z (or_intror (or_intror (or_introl eq_refl)))).
        inversion ND as [|? ? N1 ND1]; inversion ND1 as [|? ? N2 ND2]; subst. simpl in N1, N2. destruct Fx, Fy, Fz; subst; tauto. }
      assert (X : 0 < seen m z a b) by (apply (proj2 HC); auto). assert (Y := H z a Hz). rewrite EP, seen_along in Y by auto. assert (seen m z a a = 0) by (unfold seen; ring). nra.
    - destruct (edge_from l b H2) as [z Hz]. assert (Hz' := Hz). apply edges_In in Hz' as [_ Iz]. cbn [snd] in Iz. assert (Nbz := edge_neq (proj1 HC) ltac:(lia) Hz).
      assert (Nza : a <> z). { intros <-. assert (F : forall c, In c l -> c = a \/ c = b). { intros c Hc. destruct (point_dec c a); auto. destruct (point_dec c b); auto. exfalso. assert (X1 := proj2 HC a b c Hab Hc n n0). assert (X2 := proj2 HC b a c Hz Hc n0 n). assert (seen m b a c = - seen m a b c) by (unfold seen; ring). lra. }
        assert (ND := proj1 HC). clear - F ND HL. destruct l as [|x [|y [|z r]]]; simpl in HL; try lia. assert (Fx := F x (or_introl eq_refl)). assert (Fy := F y (or_intror (or_introl eq_refl))). assert (Fz := F z (or_intror (or_intror (or_introl eq_refl)))).
        inversion ND as [|? ? N1 ND1]; inversion ND1 as [|? ? N2 ND2]; subst. simpl in N1, N2. destruct Fx, Fy, Fz; subst; tauto. }
      assert (X : 0 < seen m b z a) by (apply (proj2 HC); auto). assert (Y := H b z Hz). rewrite EP, seen_along in Y by auto. assert (seen m b z b = 0) by (unfold seen; ring). nra.
  Qed.
  Lemma inside_complete : (forall a b, In (a, b) (edges l) -> 0 <= seen m a b p) -> proj_inside e l (proj e p) = true.
  Proof.
    intros H. unfold proj_inside. fold L. fold cr. apply orb_true_iff.
    destruct (@all_pos_or_zero _ (fun ed => seen m (fst ed) (snd ed) p) (edges l)) as [A|([a b] & I0 & Z0)]; [intros [a b] I0; apply H; auto| |].
    - left. apply cr_complete. intros a b Hab. apply (A (a, b) Hab).
    - right. cbn [fst snd] in Z0. destruct (@boundary a b H I0 Z0) as (t & T & E). apply (@on_edge a b t I0 T E).
  Qed.
  Lemma inside_sound : proj_inside e l (proj e p) = true -> (forall a b, In (a, b) (edges l) -> 0 <= seen m a b p) \/
    exists a b t, In (a, b) (edges l) /\ 0 <= t <= 1 /\ L22 (psub p (along a b t)) * (pc m e * pc m e) < 1 / 10 ^ 16 * dot3 m m.
  Proof.
    intros H. unfold proj_inside in H. fold L in H. fold cr in H. apply orb_true_iff in H as [H|H]; [left; apply cr_sound; auto|right].
    apply existsb_exists in H as ([x y] & I0 & H). cbn [fst snd] in H. apply L_edge in I0 as (a & b & I0 & -> & ->). exists a, b. assert (N := proj_neq _ _ I0).
    apply near_segment_iff in H; auto. destruct H as (t & T & O & D). exists t. split; auto. split; auto.
    assert (I1 := I0). apply edges_In in I1 as [Ia Ib]. cbn [fst snd] in Ia, Ib. assert (Da := HD a Ia).
    assert (PF : dot3 m (along a b t) = dot3 m p). { assert (Eb : dot3 m b = dot3 m a) by auto. assert (Ea : dot3 m a = dot3 m p) by (rewrite Pp; auto). unfold dot3, along in *. rewrite Da. cbn [Nat.eqb p0 p1 p2]. rewrite <- Ea.
      transitivity ((1 - t) * (p0 m * p0 a + p1 m * p1 a + p2 m * p2 a) + t * (p0 m * p0 b + p1 m * p1 b + p2 m * p2 b)); [ring|]. rewrite Eb. ring. }
    set (f := along a b t) in *. assert (Q0 := @proj_along a b t 0 ltac:(lia) Da). assert (Q1 := @proj_along a b t 1 ltac:(lia) Da). fold f in Q0, Q1.
    assert (D' : L22 (psub (proj e p) (proj e f)) < 1 / 10 ^ 16). { assert (EA : along (proj e a) (proj e b) t = Pt 2 (pc (proj e f) 0) (pc (proj e f) 1) 0) by (rewrite Q0, Q1; reflexivity). rewrite EA in D. exact D. }
    clear D O Q0 Q1. assert (M := m_nonzero). assert (Df : pd f = 3%nat) by auto. clearbody f.
    assert (K : L22 (psub p f) * (pc m e * pc m e) <= L22 (psub (proj e p) (proj e f)) * dot3 m m); [|nra].
    unfold L22, psub, dot. rewrite Dp. cbn [pd proj p0 p1 p2]. unfold dot3 in *. set (z0 := p0 p - p0 f). set (z1 := p1 p - p1 f). set (z2 := p2 p - p2 f).
    assert (Z0 : p0 m * z0 + p1 m * z1 + p2 m * z2 = 0) by (unfold z0, z1, z2; lra).
    assert (CS : forall u v x y : R, (u * x + v * y) * (u * x + v * y) <= (u * u + v * v) * (x * x + y * y)) by (intros u v x y; assert (Q := Rle_0_sqr (u * y - v * x)); unfold Rsqr in Q; lra).
    destruct e as [|[|[|]]]; [| | |lia]; repeat match goal with |- context [(?a mod 3)%nat] => let v := eval vm_compute in (a mod 3)%nat in change (a mod 3)%nat with v end; cbn [pc]; fold z0 z1 z2.
    - assert (C := CS (p1 m) (p2 m) z1 z2). replace (p1 m * z1 + p2 m * z2) with (- (p0 m * z0)) in C by lra. lra.
    - assert (C := CS (p2 m) (p0 m) z2 z0). replace (p2 m * z2 + p0 m * z0) with (- (p1 m * z1)) in C by lra. lra.
    - assert (C := CS (p0 m) (p1 m) z0 z1). replace (p0 m * z0 + p1 m * z1) with (- (p2 m * z2)) in C by lra. lra.
  Qed.
End Space.
Lemma dot3_scale k m p : dot3 (scale3 k m) p = k * dot3 m p. Proof. unfold dot3, scale3. cbn [p0 p1 p2]. ring. Qed.
(** three or more points in space make a region *)
Theorem c51_made l : (3 <= length l)%nat -> all_dim 3 l -> exists r, new_polygon (length l) l = Ok r.
Proof.
  intros L D. unfold new_polygon. destruct l as [|a [|b [|c l]]]; try (simpl in L; lia). cbn [rd nth_error bind]. rewrite (D a (or_introl eq_refl)).
  destruct (Nat.ltb_spec (length (a :: b :: c :: l)) 3); [lia|]. cbn [Nat.eqb]. destruct (fold_left _ _ _). eauto.
Qed.
(** farther than 1e-12 from the plane: not inside *)
Theorem c51_off_plane l m r a p : all_dim 3 l -> planar m l -> convex_about m l -> new_polygon (length l) l = Ok r -> In a l -> pd p = 3%nat ->
  Rabs (dot3 m p - dot3 m a) > 1 / 10 ^ 12 * length3 m -> polygon_inside r p = Ok false.
Proof.
  intros D HP HC H Ha Hp Far. destruct (@new_polygon3 l m r D HP HC H) as (L & k & e & Pk & K1 & M & ->). destruct l as [|q l]; [contradiction|]. rewrite inside3 by auto. rewrite !dot3_scale.
  replace (k * dot3 m p - k * dot3 m q) with (k * (dot3 m p - dot3 m a)) by (rewrite (HP a q) by (simpl; auto); ring). rewrite Rabs_mult, (Rabs_pos_eq k) by lra.
  assert (G : gtb (k * Rabs (dot3 m p - dot3 m a)) tol_plane = true); [|rewrite G; auto]. apply gtb_iff. unfold tol_plane. assert (k * Rabs (dot3 m p - dot3 m a) > k * (1 / 10 ^ 12 * length3 m)) by (apply Rmult_gt_compat_l; auto).
  replace (k * (1 / 10 ^ 12 * length3 m)) with (1 / 10 ^ 12 * (k * length3 m)) in * by ring. rewrite K1 in *. lra.
Qed.
(** on the plane: everything in the closed polygon is inside, and what is inside is in the closed polygon or within 1e-8 |m| / |m_e| of an edge,
    where m_e is the largest component of m; provided that it is not 0 *)
Theorem c51_space_partial l m r a p : all_dim 3 l -> planar m l -> convex_about m l -> good_normal m -> new_polygon (length l) l = Ok r -> In a l -> pd p = 3%nat ->
  dot3 m p = dot3 m a ->
  exists v e, polygon_inside r p = Ok v /\ largest m e /\ pc m e <> 0 /\
    ((forall a b, In (a, b) (edges l) -> 0 <= seen m a b p) -> v = true) /\
    (v = true -> (forall a b, In (a, b) (edges l) -> 0 <= seen m a b p) \/
       exists a b t, In (a, b) (edges l) /\ 0 <= t <= 1 /\ L22 (psub p (along a b t)) * (pc m e * pc m e) < 1 / 10 ^ 16 * dot3 m m).
Proof.
  intros D HP HC G H Ha Hp On. destruct (@new_polygon3 l m r D HP HC H) as (L & k & e & Pk & K1 & M & ->). assert (Ne := good_nonzero G M). destruct M as [He M].
  exists (proj_inside e l (proj e p)), e. split; [|split; [split; auto|]].
  - destruct l as [|q l]; [contradiction|]. rewrite inside3 by auto. rewrite !dot3_scale. assert (E : dot3 m p = dot3 m q) by (rewrite On; apply HP; simpl; auto). rewrite E, Rminus_eq_0, Rabs_R0.
    assert (F : gtb 0 tol_plane = false); [|rewrite F; auto]. destruct (gtb 0 tol_plane) eqn:F; auto. apply gtb_iff in F. unfold tol_plane in F. lra.
  - split; auto. split.
    + apply (@inside_complete l m e D HP HC L He Ne a Ha p Hp On).
    + apply (@inside_sound l m e D HP HC L He Ne a Ha p Hp On).
Qed.
(** near the plane the answer is that of the point of the plane with the same projection *)
Definition move (e : nat) (s : R) (p : point) : point := match e with O => Pt 3 (p0 p + s) (p1 p) (p2 p) | 1%nat => Pt 3 (p0 p) (p1 p + s) (p2 p) | _ => Pt 3 (p0 p) (p1 p) (p2 p + s) end.
Lemma proj_move e s p : (e < 3)%nat -> proj e (move e s p) = proj e p.
Proof. destruct e as [|[|[|]]]; intros H; [reflexivity..|lia]. Qed.
Theorem c51_near_plane l m r a p : all_dim 3 l -> planar m l -> convex_about m l -> good_normal m -> new_polygon (length l) l = Ok r -> In a l -> pd p = 3%nat ->
  Rabs (dot3 m p - dot3 m a) <= 1 / 10 ^ 12 * length3 m -> exists e s, largest m e /\ dot3 m (move e s p) = dot3 m a /\ polygon_inside r p = polygon_inside r (move e s p).
Proof.
  intros D HP HC G H Ha Hp Near. destruct (@new_polygon3 l m r D HP HC H) as (L & k & e & Pk & K1 & M & ->). assert (Ne := good_nonzero G M). assert (He := proj1 M).
  exists e, ((dot3 m a - dot3 m p) / pc m e). split; auto.
  assert (On : dot3 m (move e ((dot3 m a - dot3 m p) / pc m e) p) = dot3 m a).
  { set (s := (dot3 m a - dot3 m p) / pc m e). transitivity (dot3 m p + pc m e * s); [|unfold s; field; auto]. destruct e as [|[|[|]]]; [| | |lia]; unfold dot3, move; cbn [p0 p1 p2 pc]; ring. }
  split; auto. destruct l as [|q l]; [contradiction|]. rewrite !inside3 by (auto; destruct e as [|[|[|]]]; auto; lia). rewrite !dot3_scale, On, proj_move by auto. f_equal. f_equal. f_equal.
  assert (E : dot3 m a = dot3 m q) by (apply HP; simpl; auto). rewrite <- E. rewrite Rminus_eq_0, Rabs_R0. replace (k * dot3 m p - k * dot3 m a) with (k * (dot3 m p - dot3 m a)) by ring. rewrite Rabs_mult, (Rabs_pos_eq k) by lra.
  assert (N1 : forall x y, x <= y -> gtb x y = false) by (intros x y Hxy; destruct (gtb x y) eqn:F; auto; apply gtb_iff in F; lra). rewrite !N1; auto; unfold tol_plane; [lra|].
  assert (k * Rabs (dot3 m p - dot3 m a) <= k * (1 / 10 ^ 12 * length3 m)) by (apply Rmult_le_compat_l; lra). replace (k * (1 / 10 ^ 12 * length3 m)) with (1 / 10 ^ 12 * (k * length3 m)) in * by ring. rewrite K1 in *. lra.
Qed.
(** if the largest component of the normal is 0 -- a polygon in a coordinate plane, or in one containing a coordinate axis, listed in the wrong
    sense -- the region contains points arbitrarily far from the polygon *)
Theorem c51_wrong_way_refuted l m r far : all_dim 3 l -> planar m l -> convex_about m l -> (forall i, (i < 3)%nat -> pc m i <= 0) -> (exists i, (i < 3)%nat /\ pc m i = 0) ->
  new_polygon (length l) l = Ok r ->
  exists e p, (e < 3)%nat /\ pd p = 3%nat /\ (forall a, In a l -> dot3 m p = dot3 m a) /\ (forall a, In a l -> pc a e + far < pc p e) /\ polygon_inside r p = Ok true.
Proof.
  intros D HP HC Neg [i0 [Hi0 Z0]] H. destruct (@new_polygon3 l m r D HP HC H) as (L & k & e & Pk & K1 & M & ->). destruct M as [He M]. exists e.
  assert (Ze : pc m e = 0) by (assert (X := M i0 Hi0); assert (Y := Neg e He); lra).
  assert (ND := proj1 HC). assert (ED : exists a b, In (a, b) (edges l) /\ proj e a <> proj e b).
  { destruct (Forall_dec (fun ed : point * point => proj e (fst ed) = proj e (snd ed)) (fun ed => point_dec _ _) (edges l)) as [A|A].
    - exfalso. rewrite Forall_forall in A. destruct l as [|a [|b [|c l']]]; try (simpl in L; lia). assert (A1 := A (a, b) ltac:(simpl; auto)). assert (A2 := A (b, c) ltac:(destruct l'; simpl; auto)). cbn [fst snd] in A1, A2.
      assert (S0 : 0 < seen m a b c). { apply (proj2 HC); [simpl; auto|simpl; auto| |]; intros ->; inversion ND as [|? ? X ND']; [apply X; simpl; auto|inversion ND' as [|? ? Y ?]; apply Y; simpl; auto]. }
      assert (P1 : forall x y, proj e x = proj e y -> pc x ((e + 1) mod 3) = pc y ((e + 1) mod 3)) by (intros x y E; change (p0 (proj e x) = p0 (proj e y)); congruence). assert (P2 : forall x y, proj e x = proj e y -> pc x ((e + 2) mod 3) = pc y ((e + 2) mod 3)) by (intros x y E; change (p1 (proj e x) = p1 (proj e y)); congruence).
      assert (X1 := P1 _ _ A1). assert (X2 := P2 _ _ A1). assert (X3 := P1 _ _ A2). assert (X4 := P2 _ _ A2). clear - X1 X2 X3 X4 S0 He.
      unfold seen in S0. destruct e as [|[|[|]]]; [| | |lia];
        repeat match goal with H : context [(?a mod 3)%nat] |- _ => let v := eval vm_compute in (a mod 3)%nat in change (a mod 3)%nat with v in H end; cbn [pc] in *; rewrite X1, X2, X3, X4 in S0; lra.
    - apply neg_Forall_Exists_neg in A; [|intros ed; apply point_dec]. apply Exists_exists in A as ([a b] & I0 & N). cbn [fst snd] in N. eauto. }
  destruct ED as (a & b & Hab & Nab). assert (Hab' := Hab). apply edges_In in Hab' as [Ia Ib]. cbn [fst snd] in Ia, Ib.
  assert (BD : forall L0 : list point, exists B, forall v, In v L0 -> pc v e <= B). { induction L0 as [|v L0 [B IH]]; [exists 0; simpl; tauto|]. exists (Rmax B (pc v e)). intros w [<-|Hw]; [apply Rmax_r|]. apply Rle_trans with B; auto. apply Rmax_l. }
  destruct (BD l) as [B HB]. set (s := B + Rabs far + 1 - pc a e). exists (move e s a).
  assert (PM : pc (move e s a) e = pc a e + s) by (destruct e as [|[|[|]]]; auto; lia). assert (On : dot3 m (move e s a) = dot3 m a) by (transitivity (dot3 m a + pc m e * s); [destruct e as [|[|[|]]]; [| | |lia]; unfold dot3, move; cbn [p0 p1 p2 pc]; ring|rewrite Ze; ring]).
  split; auto. split; [destruct e as [|[|[|]]]; auto|]. split; [|split].
  - intros v Hv. rewrite On. auto.
  - intros v Hv. rewrite PM. specialize (HB v Hv). unfold s. assert (A := Rle_abs far). lra.
  - destruct l as [|q l]; [contradiction|]. rewrite inside3 by (auto; destruct e as [|[|[|]]]; auto). rewrite !dot3_scale, On, proj_move by auto. rewrite (HP a q) by (simpl; auto). rewrite Rminus_eq_0, Rabs_R0.
    assert (F : gtb 0 tol_plane = false); [destruct (gtb 0 tol_plane) eqn:F; auto; apply gtb_iff in F; unfold tol_plane in F; lra|]. rewrite F. cbn [negb andb]. f_equal. unfold proj_inside. apply orb_true_iff. right. apply existsb_exists.
    exists (proj e a, proj e b). split; [rewrite edges_map; apply in_map_iff; exists (a, b); auto|]. cbn [fst snd]. apply near_segment_on with 0; auto; try lra.
    intros [E0 E1]. apply Nab. unfold proj in *. cbn [p0 p1] in *. congruence.
Qed.
(** witnesses: the unit square of the plane z = 0, in both senses *)
Definition sq : list point := [Pt 3 0 0 0; Pt 3 1 0 0; Pt 3 1 1 0; Pt 3 0 1 0].
Lemma sq_nodup : NoDup sq. Proof. repeat constructor; simpl; intros X; repeat destruct X as [X|X]; try contradiction; injection X; intros; lra. Qed.
Example square_ex : all_dim 3 sq /\ planar (Pt 3 0 0 1) sq /\ convex_about (Pt 3 0 0 1) sq /\ good_normal (Pt 3 0 0 1).
Proof.
  split; [|split; [|split]].
  - intros q H. repeat destruct H as [<-|H]; auto. contradiction.
  - intros a b Ha Hb. simpl in Ha, Hb. repeat destruct Ha as [<-|Ha]; try contradiction; repeat destruct Hb as [<-|Hb]; try contradiction; unfold dot3; cbn [p0 p1 p2]; ring.
  - split; [apply sq_nodup|]. intros a b c Hab Hc N1 N2. simpl in Hab, Hc. repeat destruct Hab as [Hab|Hab]; try contradiction; injection Hab as <- <-; repeat destruct Hc as [<-|Hc]; try contradiction; try congruence; unfold seen; cbn [p0 p1 p2]; lra.
  - left. exists 2%nat. split; [lia|]. cbn [pc p2]. lra.
Qed.
Example square_reversed_ex : all_dim 3 (rev sq) /\ planar (Pt 3 0 0 (-1)) (rev sq) /\ convex_about (Pt 3 0 0 (-1)) (rev sq) /\
  (forall i, (i < 3)%nat -> pc (Pt 3 0 0 (-1)) i <= 0) /\ (exists i, (i < 3)%nat /\ pc (Pt 3 0 0 (-1)) i = 0) /\ exists r, new_polygon (length (rev sq)) (rev sq) = Ok r.
Proof.
  split; [|split; [|split; [|split; [|split]]]].
  - intros q H. repeat destruct H as [<-|H]; auto. contradiction.
  - intros a b Ha Hb. simpl in Ha, Hb. repeat destruct Ha as [<-|Ha]; try contradiction; repeat destruct Hb as [<-|Hb]; try contradiction; unfold dot3; cbn [p0 p1 p2]; ring.
  - split; [apply NoDup_rev, sq_nodup|]. intros a b c Hab Hc N1 N2. simpl in Hab, Hc. repeat destruct Hab as [Hab|Hab]; try contradiction; injection Hab as <- <-; repeat destruct Hc as [<-|Hc]; try contradiction; try congruence; unfold seen; cbn [p0 p1 p2]; lra.
  - intros [|[|]] _; cbn [pc p0 p1 p2]; lra.
  - exists 0%nat. split; [lia|reflexivity].
  - apply (@c51_made (rev sq)); [simpl; lia|]. intros q H. repeat destruct H as [<-|H]; auto. contradiction.
Qed.
Example segment_ex : exists r, new_polygon 2 [Pt 2 0 0 0; Pt 2 1 1 0] = Ok r. Proof. eexists. reflexivity. Qed.
