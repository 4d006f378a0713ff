(** C69: point_in_polygon. *)
From Coq Require Import Reals Lra Psatz Permutation.
From Verif Require Import Base Loop Point Geometry Geometry_spec Geometry_proofs Props_Polygon.
Set Implicit Arguments.
Local Open Scope R_scope.

(** ** the result is the parity of the number of edges crossed by the ray to the right *)
Definition cnt {A} (f : A -> bool) (l : list A) : nat := length (filter f l).
Lemma in_polygon_eq p l : point_in_polygon p l = Ok (Nat.odd (cnt (fun e => crosses (px p) (py p) (fst e) (snd e)) (edges l))).
Proof.
  unfold point_in_polygon. etransitivity; [apply (@edge_loop _ _ l l 0 (fun a b c => if crosses (px p) (py p) a b then negb c else c) false (@sub_self _ l))|]. f_equal.
  assert (G : forall L c, fold_left (fun c e => if crosses (px p) (py p) (fst e) (snd e) then negb c else c) L c = xorb c (Nat.odd (cnt (fun e => crosses (px p) (py p) (fst e) (snd e)) L))).
  { unfold cnt. induction L as [|e L IH]; intros c; cbn [fold_left filter].
    - simpl. rewrite xorb_false_r. auto.
    - rewrite IH. destruct (crosses (px p) (py p) (fst e) (snd e)); auto. cbn [length]. rewrite Nat.odd_succ, <- Nat.negb_odd. destruct c, (Nat.odd _); auto. }
  rewrite G. destruct (Nat.odd _); auto.
Qed.
(** ** neither starting vertex nor orientation matters *)
Lemma crosses_swap x y a b : crosses x y b a = crosses x y a b.
Proof.
  unfold crosses. destruct (gtb (py a) y && leb (py b) y || gtb (py b) y && leb (py a) y) eqn:E.
  - rewrite orb_comm in E. rewrite E. cbn [andb]. f_equal.
    assert (N : py a <> py b). { apply orb_true_iff in E as [E|E]; apply andb_true_iff in E as [E1 E2]; apply gtb_iff in E1; apply leb_iff in E2; lra. }
    field. lra.
  - rewrite orb_comm in E. rewrite E. auto.
Qed.
Lemma cnt_perm A (f : A -> bool) l1 l2 : Permutation l1 l2 -> cnt f l1 = cnt f l2.
Proof. unfold cnt. induction 1; simpl; auto; try congruence. - destruct (f x); simpl; auto. - destruct (f x), (f y); auto. Qed.
Lemma steps_app A (l : list A) : forall a m r z, steps a (l ++ m :: r) z = steps a l m ++ steps m r z.
Proof. induction l as [|b l IH]; intros; simpl; auto. rewrite IH. auto. Qed.
Lemma edges_rotate A (a : A) l : Permutation (edges (l ++ [a])) (edges (a :: l)).
Proof.
  destruct l as [|b l]; simpl; auto. rewrite steps_app. simpl. apply Permutation_sym, Permutation_cons_append.
Qed.
Lemma steps_rev A (l : list A) : forall a z, Permutation (steps a (rev l) z) (map swap (steps z l a)).
Proof.
  induction l as [|b l IH]; intros a z; simpl; auto. rewrite steps_app. simpl. rewrite <- Permutation_cons_append. apply perm_skip. apply IH.
Qed.
Lemma edges_rev A (l : list A) : Permutation (edges (rev l)) (map swap (edges l)).
Proof.
  destruct l as [|a l]; simpl; auto. rewrite edges_rotate. simpl. apply steps_rev.
Qed.
Theorem c69_rotation p a l : point_in_polygon p (l ++ [a]) = point_in_polygon p (a :: l).
Proof. rewrite !in_polygon_eq. do 2 f_equal. apply cnt_perm. apply edges_rotate. Qed.
Theorem c69_reversal p l : point_in_polygon p (rev l) = point_in_polygon p l.
Proof.
  rewrite !in_polygon_eq. do 2 f_equal. rewrite (cnt_perm _ (edges_rev l)). unfold cnt. induction (edges l) as [|[a b] L IH]; cbn [map filter]; auto.
  change (swap (a, b)) with (b, a). cbn [fst snd]. rewrite crosses_swap. destruct (crosses (px p) (py p) a b); cbn [length]; auto.
Qed.

(** ** strictly convex polygons *)
Lemma map_fst_edges A (l : list A) : map fst (edges l) = l.
Proof.
  destruct l as [|a l]; auto. unfold edges. generalize a at 2. intros z. revert a. induction l as [|b l IH]; intros a; simpl; auto. rewrite IH. auto.
Qed.
Lemma edges_NoDup A (l : list A) : NoDup l -> NoDup (edges l).
Proof. intros H. apply (NoDup_map_inv fst). rewrite map_fst_edges. auto. Qed.
Lemma edges_fun A (l : list A) a b b' : NoDup l -> In (a, b) (edges l) -> In (a, b') (edges l) -> b = b'.
Proof.
  intros H H1 H2. assert (D := edges_NoDup H). apply In_nth_error in H1 as [i Hi]. apply In_nth_error in H2 as [j Hj].
  assert (Ei : nth_error (map fst (edges l)) i = Some a) by (rewrite nth_error_map, Hi; auto). assert (Ej : nth_error (map fst (edges l)) j = Some a) by (rewrite nth_error_map, Hj; auto).
  rewrite map_fst_edges in *. assert (i = j). { apply (proj1 (NoDup_nth_error l) H); [eapply nth_error_lt; eauto|congruence]. } subst. congruence.
Qed.
Lemma cnt_le1 A (f : A -> bool) l : NoDup l -> (forall x y, In x l -> In y l -> f x = true -> f y = true -> x = y) -> (cnt f l <= 1)%nat.
Proof.
  intros D H. unfold cnt. assert (N := NoDup_filter f D). assert (G : forall x, In x (filter f l) -> In x l /\ f x = true) by (intros; apply filter_In; auto).
  destruct (filter f l) as [|x [|y r]]; simpl; try lia. exfalso. inversion N as [|? ? N1 _]; subst. apply N1. left. destruct (G x (or_introl eq_refl)), (G y (or_intror (or_introl eq_refl))). apply H; auto.
Qed.
Lemma cnt_0 A (f : A -> bool) l : cnt f l = 0%nat <-> forall x, In x l -> f x = false.
Proof.
  unfold cnt. split.
  - intros H x Hx. destruct (f x) eqn:E; auto. assert (I : In x (filter f l)) by (apply filter_In; auto). destruct (filter f l); [contradiction|discriminate].
  - intros H. assert (E : filter f l = []); [|rewrite E; auto]. destruct (filter f l) as [|x r] eqn:E; auto. assert (I : In x (filter f l)) by (rewrite E; left; auto). apply filter_In in I as [I T]. rewrite H in T by auto. discriminate.
Qed.
Lemma cnt_split A (f g : A -> bool) l : (forall x, In x l -> f x && g x = false) -> cnt (fun x => f x || g x) l = (cnt f l + cnt g l)%nat.
Proof.
  unfold cnt. induction l as [|x l IH]; intros H; simpl; auto. assert (Hx := H x (or_introl eq_refl)). assert (IH' := IH (fun y Hy => H y (or_intror Hy))).
  destruct (f x), (g x); simpl in *; try discriminate; rewrite IH'; lia.
Qed.
Lemma cnt_ext A (f g : A -> bool) l : (forall x, In x l -> f x = g x) -> cnt f l = cnt g l.
Proof. intros H. unfold cnt. f_equal. apply filter_ext_in. auto. Qed.
Lemma cnt_one A (f : A -> bool) l : cnt f l = 1%nat -> exists x, In x l /\ f x = true.
Proof.
  unfold cnt. intros H. destruct (filter f l) as [|x r] eqn:E; [discriminate|]. exists x. apply filter_In. rewrite E. left. auto.
Qed.
Section Ray.
  Variables (x y : R).
  Definition up (e : point * point) := gtb (p1 (snd e)) y && leb (p1 (fst e)) y.
  Definition down (e : point * point) := gtb (p1 (fst e)) y && leb (p1 (snd e)) y.
  (** where the edge meets the height y *)
  Definition xc (e : point * point) := p0 (fst e) + (y - p1 (fst e)) * (p0 (snd e) - p0 (fst e)) / (p1 (snd e) - p1 (fst e)).
  Lemma up_spec e : up e = true <-> p1 (fst e) <= y < p1 (snd e).
  Proof. unfold up. rewrite andb_true_iff, gtb_iff, leb_iff. tauto. Qed.
  Lemma down_spec e : down e = true <-> p1 (snd e) <= y < p1 (fst e).
  Proof. unfold down. rewrite andb_true_iff, gtb_iff, leb_iff. tauto. Qed.
  (** as many edges up as down *)
  Lemma up_down (l : list point) : cnt up (edges l) = cnt down (edges l).
  Proof.
    assert (E := sum_cycle (fun v => if gtb (p1 v) y then 1 else 0) l).
    assert (G : forall L, sum_of (fun e : point * point => (if gtb (p1 (snd e)) y then 1 else 0) - (if gtb (p1 (fst e)) y then 1 else 0)) L = INR (cnt up L) - INR (cnt down L)).
    { unfold sum_of, cnt. induction L as [|e L IH]; cbn [map rsum filter]; [simpl; lra|]. rewrite IH. unfold up at 2, down at 2.
      unfold gtb, leb. destruct (Rlt_dec y (p1 (snd e))), (Rlt_dec y (p1 (fst e))), (Rle_dec (p1 (fst e)) y), (Rle_dec (p1 (snd e)) y); cbn [andb length]; rewrite ?S_INR; lra. }
    rewrite G in E. apply INR_eq. lra.
  Qed.
  (** the position of the crossing point with respect to a line through a, b *)
  Lemma xc_area a b e : p1 (fst e) <> p1 (snd e) -> (p1 (snd e) - p1 (fst e)) * tri_area a b (Pt 2 (xc e) y 0) =
    (p1 (snd e) - y) * tri_area a b (fst e) + (y - p1 (fst e)) * tri_area a b (snd e).
  Proof. intros N. unfold tri_area, xc. cbn [p0 p1]. field. lra. Qed.
  Lemma xc_side e z : p1 (fst e) <> p1 (snd e) -> tri_area (fst e) (snd e) (Pt 2 z y 0) * 2 = (xc e - z) * (p1 (snd e) - p1 (fst e)).
  Proof. intros N. unfold tri_area, xc. cbn [p0 p1]. field. lra. Qed.
End Ray.
Lemma crosses_eq x y e : pd (fst e) = 2%nat -> pd (snd e) = 2%nat -> crosses x y (fst e) (snd e) = (down y e && leb x (xc y e)) || (up y e && leb x (xc y e)).
Proof. intros Ha Hb. unfold crosses, down, up, xc, px, py. rewrite Ha, Hb. cbn [Nat.ltb Nat.leb]. apply andb_orb_distrib_l. Qed.
Section Convex.
  Variable l : list point.
  Hypothesis HD : all_dim 2 l.
  Hypothesis HC : convex_ccw l.
  Variable y : R.
  Lemma area_ge a b c : In (a, b) (edges l) -> In c l -> 0 <= tri_area a b c.
  Proof.
    intros He Hc. destruct (point_dec c a) as [->|Na]; [unfold tri_area; lra|]. destruct (point_dec c b) as [->|Nb]; [unfold tri_area; lra|]. left. apply HC; auto.
  Qed.
  (** all crossing points are on the left of every edge *)
  Lemma xc_in a b e : In (a, b) (edges l) -> In e (edges l) -> up y e = true \/ down y e = true -> 0 <= tri_area a b (Pt 2 (xc y e) y 0).
  Proof.
    intros He Hx U. apply edges_In in Hx as [H1 H2]. assert (A1 := area_ge _ _ _ He H1). assert (A2 := area_ge _ _ _ He H2).
    assert (N : p1 (fst e) <> p1 (snd e)) by (destruct U as [U|U]; [apply up_spec in U|apply down_spec in U]; lra). assert (E := @xc_area y a b e N).
    destruct U as [U|U]; [apply up_spec in U|apply down_spec in U]; nra.
  Qed.
  Lemma up_unique e e' : In e (edges l) -> In e' (edges l) -> up y e = true -> up y e' = true -> e = e'.
  Proof.
    intros He He' U U'. destruct e as [a b], e' as [a' b']. assert (X := @xc_in a b (a', b') He He' (or_introl U')). assert (X' := @xc_in a' b' (a, b) He' He (or_introl U)).
    apply up_spec in U. apply up_spec in U'. cbn [fst snd] in *.
    assert (S1 := @xc_side y (a, b) (xc y (a', b')) ltac:(cbn [fst snd]; lra)). assert (S2 := @xc_side y (a', b') (xc y (a, b)) ltac:(cbn [fst snd]; lra)). cbn [fst snd] in S1, S2.
    assert (EQ : xc y (a, b) = xc y (a', b')) by nra.
    assert (A := @xc_area y a b (a', b') ltac:(cbn [fst snd]; lra)). cbn [fst snd] in A. assert (Z0 : tri_area a b (Pt 2 (xc y (a', b')) y 0) = 0) by (rewrite EQ in S1; lra). rewrite Z0 in A.
    assert (Ia := edges_In _ _ He'). cbn [fst snd] in Ia. assert (A1 := area_ge _ _ _ He (proj1 Ia)). assert (A2 := area_ge _ _ _ He (proj2 Ia)).
    assert (T : tri_area a b a' = 0) by nra. destruct (point_dec a' a) as [->|Na].
    - f_equal. apply (@edges_fun _ l a b b'); auto. apply HC.
    - destruct (point_dec a' b) as [->|Nb]; [lra|]. assert (P := proj2 HC a b a' He (proj1 Ia) Na Nb). lra.
  Qed.
  Lemma up_le1 : (cnt (up y) (edges l) <= 1)%nat.
  Proof. apply cnt_le1; [apply edges_NoDup; apply HC|]. intros; apply up_unique; auto. Qed.
  Lemma down_unique e e' : In e (edges l) -> In e' (edges l) -> down y e = true -> down y e' = true -> e = e'.
  Proof.
    intros He He' D D'. assert (U := up_le1). rewrite up_down in U. unfold cnt in U.
    assert (I : In e (filter (down y) (edges l))) by (apply filter_In; auto). assert (I' : In e' (filter (down y) (edges l))) by (apply filter_In; auto).
    destruct (filter (down y) (edges l)) as [|z [|? ?]]; simpl in U; try lia; [destruct I|]. destruct I as [<-|[]], I' as [<-|[]]. auto.
  Qed.
End Convex.
(** the count of the crossed edges *)
Lemma cnt_crosses l x y : all_dim 2 l -> cnt (fun e => crosses x y (fst e) (snd e)) (edges l) =
  (cnt (fun e => down y e && leb x (xc y e)) (edges l) + cnt (fun e => up y e && leb x (xc y e)) (edges l))%nat.
Proof.
  intros D. rewrite <- cnt_split.
  - apply cnt_ext. intros e He. apply edges_In in He as [H1 H2]. apply crosses_eq; apply D; auto.
  - intros e _. destruct (down y e) eqn:Ed, (up y e) eqn:Eu; auto; [|apply andb_false_r]. apply down_spec in Ed. apply up_spec in Eu. lra.
Qed.
Lemma cnt_and_unique A (f g : A -> bool) l e : NoDup l -> In e l -> f e = true -> (forall e', In e' l -> f e' = true -> e' = e) -> cnt (fun x => f x && g x) l = if g e then 1%nat else 0%nat.
Proof.
  intros D He F U. destruct (g e) eqn:G.
  - assert (Le : (cnt (fun x => f x && g x) l <= 1)%nat) by (apply cnt_le1; auto; intros a b Ha Hb Fa Fb; apply andb_true_iff in Fa as [Fa _]; apply andb_true_iff in Fb as [Fb _]; rewrite (U a), (U b); auto).
    destruct (Nat.eq_dec (cnt (fun x => f x && g x) l) 0) as [Z0|]; [|lia]. apply cnt_0 with (x := e) in Z0; auto. rewrite F, G in Z0. discriminate.
  - apply cnt_0. intros x Hx. destruct (f x) eqn:Fx; auto. rewrite (U x) by auto. auto.
Qed.
(** ** the point is reported inside exactly when it lies between the two crossings of its height *)
Lemma convex_inside l p : all_dim 2 l -> convex_ccw l -> pd p = 2%nat -> exists r, point_in_polygon p l = Ok r /\
  (r = true <-> exists e e', In e (edges l) /\ up (p1 p) e = true /\ In e' (edges l) /\ down (p1 p) e' = true /\ xc (p1 p) e' < p0 p <= xc (p1 p) e).
Proof.
  intros D C Hp. rewrite in_polygon_eq. unfold px, py. rewrite Hp. cbn [Nat.ltb Nat.leb]. set (x := p0 p). set (y := p1 p). rewrite cnt_crosses by auto. eexists. split; [reflexivity|].
  assert (ND : NoDup (edges l)) by (apply edges_NoDup; apply C).
  assert (U := @up_le1 l C y). assert (UD := up_down y l). destruct (Nat.eq_dec (cnt (up y) (edges l)) 0) as [Z0|NZ].
  - assert (Zd : cnt (down y) (edges l) = 0%nat) by lia. rewrite (proj2 (cnt_0 (fun e => down y e && leb x (xc y e)) _)), (proj2 (cnt_0 (fun e => up y e && leb x (xc y e)) _)).
    + split; [discriminate|]. intros (e & e' & He & Ue & _). rewrite (proj1 (cnt_0 _ _) Z0 e He) in Ue. discriminate.
    + intros e He. rewrite (proj1 (cnt_0 _ _) Z0 e He). auto.
    + intros e He. rewrite (proj1 (cnt_0 _ _) Zd e He). auto.
  - assert (U1 : cnt (up y) (edges l) = 1%nat) by lia. assert (D1 : cnt (down y) (edges l) = 1%nat) by lia. destruct (cnt_one _ _ U1) as (e & He & Ue). destruct (cnt_one _ _ D1) as (e' & He' & De').
    rewrite (@cnt_and_unique _ (down y) (fun e => leb x (xc y e)) (edges l) e' ND He' De') by (intros; eapply down_unique; eauto).
    rewrite (@cnt_and_unique _ (up y) (fun e => leb x (xc y e)) (edges l) e ND He Ue) by (intros; eapply up_unique; eauto).
    (* the crossing going down is on the left of the one going up *)
    assert (Le : xc y e' <= xc y e).
    { destruct e as [a b]. assert (X := @xc_in l C y a b e' He He' (or_intror De')). apply up_spec in Ue. cbn [fst snd] in Ue. assert (S1 := @xc_side y (a, b) (xc y e') ltac:(cbn [fst snd]; lra)). cbn [fst snd] in S1. nra. }
    split.
    + intros T. exists e, e'. repeat split; auto.
      * destruct (leb x (xc y e')) eqn:L1; [|apply leb_false in L1; auto]. apply leb_iff in L1. assert (L2 : leb x (xc y e) = true) by (apply leb_iff; lra). rewrite L2 in T. discriminate.
      * destruct (leb x (xc y e)) eqn:L2; [apply leb_iff in L2; auto|]. apply leb_false in L2. assert (L1 : leb x (xc y e') = false) by (apply leb_false; lra). rewrite L1 in T. discriminate.
    + intros (e1 & e1' & H1 & U1' & H1' & D1' & L1 & L2). assert (E1 : e1 = e) by (eapply up_unique; eauto). assert (E2 : e1' = e') by (eapply down_unique; eauto). subst.
      apply leb_false in L1. apply leb_iff in L2. rewrite L1, L2. reflexivity.
Qed.
(** a point reported inside a strictly convex polygon is inside or on its boundary *)
Theorem c69_convex_sound l p : all_dim 2 l -> convex_ccw l -> pd p = 2%nat -> point_in_polygon p l = Ok true ->
  forall a b, In (a, b) (edges l) -> 0 <= tri_area a b p.
Proof.
  intros D C Hp H a b He. destruct (@convex_inside l p D C Hp) as (r & E & Hr). rewrite H in E. injection E as <-. destruct (proj1 Hr eq_refl) as (e & e' & Ie & Ue & Ie' & De' & L1 & L2).
  assert (X1 := @xc_in l C (p1 p) a b e He Ie (or_introl Ue)). assert (X2 := @xc_in l C (p1 p) a b e' He Ie' (or_intror De')).
  unfold tri_area in *. cbn [p0 p1] in *. nra.
Qed.
(** a point strictly inside is reported inside *)
Lemma cycle_strict A (g : A -> R) l : l <> [] -> ~ (forall e, In e (edges l) -> g (snd e) < g (fst e)).
Proof.
  intros N H. assert (E := sum_cycle g l). assert (P : 0 < sum_of (fun e => - 1 * (g (snd e) - g (fst e))) (edges l)).
  { apply sum_pos; [intros Z0; apply (f_equal (@length _)) in Z0; rewrite edges_length in Z0; destruct l; simpl in *; congruence|]. intros e He. specialize (H e He). lra. }
  rewrite sum_scale in P. lra.
Qed.
Lemma edge_from A (l : list A) a : In a l -> exists b, In (a, b) (edges l).
Proof.
  intros H. rewrite <- (map_fst_edges l) in H. apply in_map_iff in H as ([a' b] & <- & He). simpl. eauto.
Qed.
Lemma wedge_ratio a b p : p1 a <> p1 p -> p1 b <> p1 p -> 0 < (p1 a - p1 p) * (p1 b - p1 p) -> 0 < tri_area a b p ->
  (p0 b - p0 p) / (p1 b - p1 p) < (p0 a - p0 p) / (p1 a - p1 p).
Proof.
  intros Na Nb P T. assert (E : (p0 a - p0 p) / (p1 a - p1 p) - (p0 b - p0 p) / (p1 b - p1 p) = 2 * tri_area a b p / ((p1 a - p1 p) * (p1 b - p1 p))) by (unfold tri_area; field; lra).
  assert (0 < 2 * tri_area a b p / ((p1 a - p1 p) * (p1 b - p1 p))) by (apply Rdiv_lt_0_compat; lra). lra.
Qed.
Lemma no_up_same l y : cnt (up y) (edges l) = 0%nat -> (forall v, In v l -> y < p1 v) \/ (forall v, In v l -> p1 v <= y).
Proof.
  intros U. assert (Dn : cnt (down y) (edges l) = 0%nat) by (rewrite <- up_down; auto).
  destruct l as [|a l]; [left; simpl; tauto|].
  assert (K : forall e, In e (edges (a :: l)) -> (y < p1 (fst e) <-> y < p1 (snd e))).
  { intros e He. assert (U1 := proj1 (cnt_0 _ _) U e He). assert (D1 := proj1 (cnt_0 _ _) Dn e He). split; intros H.
    - destruct (Rlt_dec y (p1 (snd e))); auto. assert (down y e = true) by (apply down_spec; lra). congruence.
    - destruct (Rlt_dec y (p1 (fst e))); auto. assert (up y e = true) by (apply up_spec; lra). congruence. }
  assert (G : forall v, In v (a :: l) -> (y < p1 v <-> y < p1 a)).
  { clear U Dn. unfold edges in K. revert K. generalize a at 2. intros z K. cut (forall v, In v (a :: l) -> (y < p1 v <-> y < p1 a)); [auto|]. revert a K. induction l as [|b l IH]; intros a K v Hv.
    - destruct Hv as [<-|[]]. tauto.
    - cbn [steps] in K. destruct Hv as [<-|Hv]; [tauto|]. assert (Kab := K (a, b) (or_introl eq_refl)). cbn [fst snd] in Kab. rewrite (IH b (fun e He => K e (or_intror He)) v Hv). tauto. }
  destruct (Rlt_dec y (p1 a)); [left|right]; intros v Hv; [apply G; auto|]. destruct (Rle_dec (p1 v) y); auto. exfalso. assert (y < p1 v) by lra. rewrite G in H by auto. lra.
Qed.
Theorem c69_convex_complete l p : (3 <= length l)%nat -> all_dim 2 l -> convex_ccw l -> pd p = 2%nat -> (forall a b, In (a, b) (edges l) -> 0 < tri_area a b p) ->
  point_in_polygon p l = Ok true.
Proof.
  intros L D C Hp H. destruct (@convex_inside l p D C Hp) as (r & E & Hr). rewrite E. f_equal. apply Hr. set (y := p1 p).
  assert (NE : l <> []) by (intros ->; simpl in L; lia).
  assert (U := @up_le1 l C y). assert (UD := up_down y l). destruct (Nat.eq_dec (cnt (up y) (edges l)) 0) as [Z0|NZ].
  - exfalso. destruct (@no_up_same l y Z0) as [A|A].
    + apply (@cycle_strict _ (fun v => (p0 v - p0 p) / (p1 v - y)) l NE). intros [a b] He. cbn [fst snd]. assert (I := edges_In _ _ He). cbn [fst snd] in I. assert (A1 := A a (proj1 I)). assert (A2 := A b (proj2 I)).
      apply wedge_ratio; auto; unfold y in *; try lra. nra.
    + assert (NZ : forall v, In v l -> p1 v <> y).
      { intros v Hv Ev. destruct (edge_from l v Hv) as [w Hw]. assert (Iw := edges_In _ _ Hw). cbn [fst snd] in Iw. assert (T := H v w Hw).
        assert (Hv' : In v (rev l)) by (apply in_rev in Hv; auto). destruct (edge_from (rev l) v Hv') as [u Hu]. apply (Permutation_in _ (edges_rev l)) in Hu. apply in_map_iff in Hu as ([u' v'] & Eu & Hu).
        unfold swap in Eu. cbn [fst snd] in Eu. injection Eu as -> ->. assert (T2 := H u v Hu). assert (Iu := edges_In _ _ Hu). cbn [fst snd] in Iu. assert (A1 := A u (proj1 Iu)). assert (A2 := A w (proj2 Iw)).
        unfold tri_area, y in *. rewrite Ev in *. assert (K1 : 0 < (p0 v - p0 p) * (p1 w - p1 p)) by lra. assert (K2 : 0 < (p0 v - p0 p) * (p1 p - p1 u)) by lra.
        destruct (Rle_dec (p0 v - p0 p) 0); nra. }
      apply (@cycle_strict _ (fun v => (p0 v - p0 p) / (p1 v - y)) l NE). intros [a b] He. cbn [fst snd]. assert (I := edges_In _ _ He). cbn [fst snd] in I.
      assert (A1 := A a (proj1 I)). assert (A2 := A b (proj2 I)). assert (N1 := NZ a (proj1 I)). assert (N2 := NZ b (proj2 I)). apply wedge_ratio; auto; unfold y in *. nra.
  - assert (U1 : cnt (up y) (edges l) = 1%nat) by lia. assert (D1 : cnt (down y) (edges l) = 1%nat) by lia. destruct (cnt_one _ _ U1) as (e & He & Ue). destruct (cnt_one _ _ D1) as (e' & He' & De').
    exists e, e'. repeat split; auto.
    + destruct e' as [a b]. assert (T := H a b He'). apply down_spec in De'. cbn [fst snd] in De'. assert (S1 := @xc_side y (a, b) (p0 p) ltac:(cbn [fst snd]; lra)). cbn [fst snd] in S1.
      replace (tri_area a b (Pt 2 (p0 p) y 0)) with (tri_area a b p) in S1 by reflexivity. nra.
    + destruct e as [a b]. assert (T := H a b He). apply up_spec in Ue. cbn [fst snd] in Ue. assert (S1 := @xc_side y (a, b) (p0 p) ltac:(cbn [fst snd]; lra)). cbn [fst snd] in S1.
      replace (tri_area a b (Pt 2 (p0 p) y 0)) with (tri_area a b p) in S1 by reflexivity. nra.
Qed.
(** ... and both for a clockwise listing *)
Theorem c69_convex_clockwise l p : (3 <= length l)%nat -> all_dim 2 l -> convex_ccw (rev l) -> pd p = 2%nat ->
  (point_in_polygon p l = Ok true -> forall a b, In (a, b) (edges l) -> tri_area a b p <= 0) /\
  ((forall a b, In (a, b) (edges l) -> tri_area a b p < 0) -> point_in_polygon p l = Ok true).
Proof.
  intros L D C Hp. assert (D' : all_dim 2 (rev l)) by (intros q Hq; apply D; apply in_rev; auto). rewrite <- c69_reversal.
  assert (T : forall a b, tri_area b a p = - tri_area a b p) by (intros; unfold tri_area; lra). split.
  - intros H a b He. assert (I : In (b, a) (edges (rev l))). { apply (Permutation_in _ (Permutation_sym (edges_rev l))). apply in_map_iff. exists (a, b). auto. }
    assert (G := @c69_convex_sound (rev l) p D' C Hp H b a I). rewrite T in G. lra.
  - intros H. apply c69_convex_complete; auto; [rewrite rev_length; auto|]. intros a b He. apply (Permutation_in _ (edges_rev l)) in He. apply in_map_iff in He as ([u v] & E & He). unfold swap in E. cbn [fst snd] in E. injection E as <- <-.
    rewrite T. specialize (H u v He). lra.
Qed.
Example in_square_ex : (forall a b, In (a, b) (edges [Pt 2 0 0 0; Pt 2 1 0 0; Pt 2 1 1 0; Pt 2 0 1 0]) -> 0 < tri_area a b (Pt 2 (/ 2) (/ 3) 0)) /\
  point_in_polygon (Pt 2 (/ 2) (/ 3) 0) [Pt 2 0 0 0; Pt 2 1 0 0; Pt 2 1 1 0; Pt 2 0 1 0] = Ok true.
Proof.
  assert (A : forall a b, In (a, b) (edges [Pt 2 0 0 0; Pt 2 1 0 0; Pt 2 1 1 0; Pt 2 0 1 0]) -> 0 < tri_area a b (Pt 2 (/ 2) (/ 3) 0)).
  { intros a b He. simpl in He. unfold tri_area. intuition; repeat match goal with H : (_, _) = (_, _) |- _ => injection H as <- <- end; simpl; lra. }
  split; auto. apply c69_convex_complete; auto; [simpl; lia| |apply square_ex]. intros q Hq. simpl in Hq. intuition; subst; auto.
Qed.
