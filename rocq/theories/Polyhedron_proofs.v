From Coq Require Import Reals Lra Psatz Permutation.
From Verif Require Import Base Loop Point Geometry Geometry_spec Geometry_proofs Props_Polygon Props_Polygon3D.
Set Implicit Arguments.
Local Open Scope R_scope.

Definition all3 (faces : list (list point)) : Prop := forall f, In f faces -> all_dim 3 f.
(** ** one tetrahedron *)
Definition tmom (f : point -> R) o (t : tet) := tdet o t * (let '(a, b, c) := t in (f o + f a + f b + f c) / 4).
Definition tstate := (R * point * bool)%type.
Definition sum_tets o (L : list tet) (s : tstate) : tstate :=
  let '(v, C, neg) := s in
  (v + sum_of (tdet o) L, P3 (p0 C + sum_of (tmom p0 o) L) (p1 C + sum_of (tmom p1 o) L) (p2 C + sum_of (tmom p2 o) L), neg || existsb (fun t => leb (tdet o t) 0) L).
Lemma tet_det o a b c : pd o = 3%nat -> pd a = 3%nat -> pd b = 3%nat -> pd c = 3%nat -> dot (cross (psub a o) (psub b o)) (psub c o) = det3 o a b c.
Proof. intros Ho Ha Hb Hc. unfold dot, cross, psub. rewrite Ha, Hb, Hc. cbn [pd p0 p1 p2]. unfold det3. ring. Qed.
Lemma tet_step_eq o a b c s : pd o = 3%nat -> pd a = 3%nat -> pd b = 3%nat -> pd c = 3%nat -> pd (snd (fst s)) = 3%nat ->
  tet_step o a b c s = sum_tets o [(a, b, c)] s.
Proof.
  destruct s as [[v C] neg]. intros Ho Ha Hb Hc HC. unfold tet_step. rewrite tet_det by auto. unfold sum_tets, sum_of. cbn [map rsum existsb fst snd] in *. unfold tmom, tdet.
  unfold addeq. rewrite HC. unfold smul, pdiv, padd, P3, smul. rewrite Ho. cbn [pd p0 p1 p2 pmap]. rewrite orb_false_r.
  match goal with |- (?v1, Pt _ ?x ?y ?z, _) = (?v', Pt _ ?x' ?y' ?z', _) => replace x with x' by field; replace y with y' by field; replace z with z' by field; replace v1 with v' by lra end. reflexivity.
Qed.
Lemma tet_step_f_eq o fc a b s : pd o = 3%nat -> pd a = 3%nat -> pd b = 3%nat -> pd fc = 3%nat -> pd (snd (fst s)) = 3%nat ->
  tet_step_f o fc a b s = sum_tets o [(a, b, fc)] s.
Proof.
  destruct s as [[v C] neg]. intros Ho Ha Hb Hc HC. unfold tet_step_f. rewrite tet_det by auto. unfold sum_tets, sum_of. cbn [map rsum existsb fst snd] in *. unfold tmom, tdet.
  unfold addeq. rewrite HC. unfold smul, pdiv, padd, P3, smul. rewrite Ho. cbn [pd p0 p1 p2 pmap]. rewrite orb_false_r.
  match goal with |- (?v1, Pt _ ?x ?y ?z, _) = (?v', Pt _ ?x' ?y' ?z', _) => replace x with x' by field; replace y with y' by field; replace z with z' by field; replace v1 with v' by lra end. reflexivity.
Qed.
Lemma sum_tets_app o L1 L2 s : sum_tets o (L1 ++ L2) s = sum_tets o L2 (sum_tets o L1 s).
Proof.
  destruct s as [[v C] neg]. unfold sum_tets, sum_of, P3. cbn [p0 p1 p2]. rewrite !map_app, !rsum_app, existsb_app, orb_assoc, <- !Rplus_assoc. auto.
Qed.
Lemma sum_tets_pd o L s : pd (snd (fst (sum_tets o L s))) = 3%nat. Proof. destruct s as [[v C] neg]. reflexivity. Qed.
Lemma sum_tets_nil o s : pd (snd (fst s)) = 3%nat -> sum_tets o [] s = s.
Proof. destruct s as [[v [d x y z]] neg]. unfold sum_tets, sum_of, P3. cbn. intros ->. rewrite !Rplus_0_r, orb_false_r. auto. Qed.
Lemma mean_pd l : pd (mean l) = 3%nat. Proof. reflexivity. Qed.
Lemma fan_fold o fc L : pd o = 3%nat -> pd fc = 3%nat -> (forall e, In e L -> pd (fst e) = 3%nat /\ pd (snd e) = 3%nat) -> forall s, pd (snd (fst s)) = 3%nat ->
  fold_left (fun s e => tet_step_f o fc (fst e) (snd e) s) L s = sum_tets o (map (fun e => (fst e, snd e, fc)) L) s.
Proof.
  intros Ho Hf. induction L as [|e L IH]; intros D s Hs; cbn [fold_left map].
  - symmetry. apply sum_tets_nil. auto.
  - destruct (D e (or_introl eq_refl)) as [Ha Hb]. rewrite tet_step_f_eq by auto. rewrite IH; [|intros; apply D; right; auto|apply sum_tets_pd].
    change ((fst e, snd e, fc) :: map (fun e => (fst e, snd e, fc)) L) with ([(fst e, snd e, fc)] ++ map (fun e => (fst e, snd e, fc)) L). rewrite sum_tets_app. auto.
Qed.
Lemma read_loop A S (l face : list A) off (h : A -> S -> S) s : sub_at l face off ->
  for_lt (length face) (fun j s => p <- rd l (off + j) ;; Ok (h p s)) s = Ok (fold_left (fun s p => h p s) face s).
Proof.
  intros H. unfold for_lt. apply foldM_list with (g := h). intros i x s' E. assert (L := nth_error_lt _ _ E). rewrite <- (H i L) in E. cbn [Nat.add]. rewrite (proj2 (rd_Ok _ _ _) E). auto.
Qed.
Lemma tris_fan f : length f <> 3%nat -> tris f = map (fun e => (fst e, snd e, mean f)) (edges f).
Proof. destruct f as [|a [|b [|c [|d f]]]]; simpl; auto. lia. Qed.
Lemma face_center l face off : sub_at l face off ->
  for_lt (length face) (fun j fc => p <- rd l (off + j) ;; Ok (addeq fc p)) (pzero 3) = Ok (P3 (0 + sum_of p0 face) (0 + sum_of p1 face) (0 + sum_of p2 face)).
Proof. intros H. rewrite (@read_loop _ _ l face off (fun p fc => addeq fc p) _ H). f_equal. apply (@fold_addeq3 face (pzero 3)). reflexivity. Qed.
Lemma fc_mean face : diveq (P3 (0 + sum_of p0 face) (0 + sum_of p1 face) (0 + sum_of p2 face)) (INR (length face)) = mean face.
Proof. unfold diveq, P3, mean. cbn [pd pmap p0 p1 p2]. rewrite !Rplus_0_l. auto. Qed.
(** ** one face *)
Lemma face_step_eq o l face off s : pd o = 3%nat -> all_dim 3 face -> sub_at l face off -> pd (snd (fst s)) = 3%nat ->
  face_step o l (length face) off s = Ok (sum_tets o (tris face) s).
Proof.
  intros Ho D H Hs. unfold face_step. destruct (Nat.eqb_spec (length face) 3) as [E|E].
  - destruct (tri_list _ E) as (a & b & c & ->). assert (H0 := H 0%nat ltac:(simpl; lia)). assert (H1 := H 1%nat ltac:(simpl; lia)). assert (H2 := H 2%nat ltac:(simpl; lia)).
    rewrite Nat.add_0_r in H0. cbn [nth_error] in *. rewrite (proj2 (rd_Ok _ _ _) H0). cbn [bind]. rewrite (proj2 (rd_Ok _ _ _) H1). cbn [bind]. rewrite (proj2 (rd_Ok _ _ _) H2). cbn [bind].
    rewrite tet_step_eq by (auto; apply D; simpl; auto). reflexivity.
  - rewrite (face_center H). cbn [bind]. rewrite fc_mean.
    rewrite (@edge_loop _ _ l face off (fun a b s => tet_step_f o (mean face) a b s) s H). f_equal. rewrite tris_fan by auto. apply fan_fold; auto.
    intros e He. apply edges_In in He as [H1 H2]. split; apply D; auto.
Qed.
Lemma sub_concat A (pre : list A) f rest : sub_at (pre ++ f ++ rest) f (length pre).
Proof. intros i Hi. rewrite nth_error_app2 by lia. replace (length pre + i - length pre)%nat with i by lia. apply nth_error_app1. auto. Qed.
(** ** all faces *)
Lemma faces_loop o faces : pd o = 3%nat -> all3 faces -> forall pre s, pd (snd (fst s)) = 3%nat ->
  foldM (map (@length _) faces) (fun n os => s <- face_step o (pre ++ concat faces) n (fst os) (snd os) ;; Ok ((fst os + n)%nat, s)) (length pre, s) =
  Ok ((length pre + length (concat faces))%nat, sum_tets o (all_tris faces) s).
Proof.
  intros Ho. induction faces as [|f r IH]; intros D pre s Hs; cbn [map foldM concat].
  - simpl. rewrite Nat.add_0_r. rewrite sum_tets_nil by auto. auto.
  - cbn [fst snd]. rewrite face_step_eq; [|auto|apply D; left; auto|apply sub_concat|auto]. cbn [bind].
    rewrite app_assoc. replace (length pre + length f)%nat with (length (pre ++ f)) by apply app_length.
    rewrite IH; [|intros g Hg; apply D; right; auto|apply sum_tets_pd]. rewrite !app_length. unfold all_tris. cbn [flat_map]. rewrite sum_tets_app. do 2 f_equal. lia.
Qed.
Lemma polyhed_eq ccoords faces : (4 < length ccoords)%nat -> all3 faces ->
  polyhed 3 ccoords (length faces) (map (@length _) faces) (concat faces) =
  let o := mean ccoords in let L := all_tris faces in let V := sum_of (tdet o) L in
  Ok (flag (existsb (fun t => leb (tdet o t) 0) L) (V / 6), diveq (P3 (sum_of (tmom p0 o) L) (sum_of (tmom p1 o) L) (sum_of (tmom p2 o) L)) V).
Proof.
  intros L D. unfold polyhed. cbn [pset pzero pd bind]. destruct (Nat.ltb_spec (length ccoords) 4); [lia|]. destruct (Nat.eqb_spec (length ccoords) 4); [lia|].
  rewrite center3. unfold for_lt. rewrite <- (map_length (@length point) faces) at 1.
  rewrite (@foldM_listM _ _ (map (@length _) faces) _ (fun n os => s <- face_step (mean ccoords) (concat faces) n (fst os) (snd os) ;; Ok ((fst os + n)%nat, s)) 0%nat).
  - assert (E := @faces_loop (mean ccoords) faces eq_refl D [] (0, Pt 3 0 0 0, false) eq_refl). cbn [length app] in E. rewrite E. cbn [bind]. unfold sum_tets. cbn [p0 p1 p2 orb].
    rewrite !Rplus_0_l. reflexivity.
  - intros i k s E. cbn [Nat.add]. rewrite (proj2 (rd_Ok _ _ _) E). reflexivity.
Qed.
(** ** the reference point does not matter for a closed surface *)
Lemma sum_perm A (f : A -> R) l1 l2 : Permutation l1 l2 -> sum_of f l1 = sum_of f l2.
Proof. unfold sum_of. induction 1; simpl; lra. Qed.
Lemma sum_flat A B (g : A -> list B) (f : B -> R) l : sum_of f (flat_map g l) = sum_of (fun x => sum_of f (g x)) l.
Proof. unfold sum_of. induction l as [|x l IH]; simpl; auto. rewrite map_app, rsum_app, IH. auto. Qed.
Lemma closed_sum (g : point * point -> R) faces : (forall a b, g (b, a) = - g (a, b)) -> closed faces -> sum_of g (flat_map edges faces) = 0.
Proof.
  intros Hg C. assert (E := sum_perm g C). rewrite sum_map in E. rewrite (@sum_ext _ (fun x => g (swap x)) (fun x => (-1) * g x)) in E by (intros [a b] _; unfold swap; simpl; rewrite Hg; lra).
  rewrite sum_scale in E. lra.
Qed.
(** a quantity of triangles that changes, from o to o', by a sum over the three edges *)
Lemma reference_change (F F' : tet -> R) (g : point * point -> R) faces : (forall a b, g (b, a) = - g (a, b)) ->
  (forall a b c, F (a, b, c) = F' (a, b, c) + (g (a, b) + g (b, c) + g (c, a))) -> closed faces ->
  sum_of F (all_tris faces) = sum_of F' (all_tris faces).
Proof.
  intros Hg HF C. unfold all_tris. rewrite !sum_flat.
  assert (E : forall f, sum_of F (tris f) = sum_of F' (tris f) + sum_of g (edges f)).
  { intros f. destruct (Nat.eq_dec (length f) 3) as [E|E].
    - destruct (tri_list _ E) as (a & b & c & ->). unfold sum_of. simpl. rewrite HF. lra.
    - rewrite tris_fan by auto. rewrite !sum_map. 
      rewrite (@sum_ext _ _ (fun e => (F' (fst e, snd e, mean f) + g e) + (g (snd e, mean f) - g (fst e, mean f)))).
      + rewrite (sum_plus (fun e => F' (fst e, snd e, mean f) + g e) (fun e => g (snd e, mean f) - g (fst e, mean f))).
        rewrite (sum_plus (fun e => F' (fst e, snd e, mean f)) g). rewrite (sum_cycle (fun v => g (v, mean f))). lra.
      + intros [a b] _. cbn [fst snd]. rewrite HF. rewrite (Hg a (mean f)). lra. }
  rewrite (@sum_ext _ _ _ faces (fun f _ => E f)). rewrite (sum_plus (fun f => sum_of F' (tris f)) (fun f => sum_of g (edges f))).
  rewrite <- (sum_flat edges g), closed_sum by auto. lra.
Qed.
Lemma det_change o o' a b c : det3 o a b c = det3 o' a b c + (det3 o o' a b + det3 o o' b c + det3 o o' c a).
Proof. unfold det3. ring. Qed.
Lemma mom_change f o o' a b c : coord f ->
  det3 o a b c * (f o + f a + f b + f c) = det3 o' a b c * (f o' + f a + f b + f c) +
   (det3 o o' a b * (f o + f o' + f a + f b) + det3 o o' b c * (f o + f o' + f b + f c) + det3 o o' c a * (f o + f o' + f c + f a)).
Proof. intros [->|[->| ->]]; unfold det3; ring. Qed.
