(** C49: volume and centroid of polyhedra. *)
From Coq Require Import Reals Lra Psatz Permutation.
From Verif Require Import Base Loop Point Geometry Geometry_spec Geometry_proofs Props_Polygon Props_Polygon3D Polyhedron_proofs.
Set Implicit Arguments.
Local Open Scope R_scope.

(** ** a closed surface encloses the same volume, with the same moments, from every point *)
Theorem volume_from_any o o' faces : closed faces -> volume_from o faces = volume_from o' faces.
Proof.
  intros C. unfold volume_from. f_equal. apply reference_change with (g := fun e => det3 o o' (fst e) (snd e)); auto; cbn [fst snd].
  - intros a b. unfold det3. ring.
  - intros a b c. unfold tdet. apply det_change.
Qed.
Theorem moment_from_any f o o' faces : coord f -> closed faces -> moment_from f o faces = moment_from f o' faces.
Proof.
  intros Hf C. unfold moment_from. apply reference_change with (g := fun e => det3 o o' (fst e) (snd e) * (f o + f o' + f (fst e) + f (snd e)) / 24); auto; cbn [fst snd].
  - intros a b. destruct Hf as [->|[->| ->]]; unfold det3; field.
  - intros a b c. unfold tdet. assert (E := @mom_change f o o' a b c Hf). lra.
Qed.
Lemma moment_tmom f o faces : moment_from f o faces = sum_of (tmom f o) (all_tris faces) / 6.
Proof.
  replace (sum_of (tmom f o) (all_tris faces) / 6) with (/ 6 * sum_of (tmom f o) (all_tris faces)) by field. unfold moment_from. rewrite <- sum_scale. apply sum_ext. intros [[a b] c] _. unfold tmom, tdet. field. Qed.

(** ** the function on a closed surface: up to the sign that marks an inverted element, the volume is the enclosed volume; the centroid
       is the exact centroid *)
Theorem c49_closed_surface ccoords faces : (4 < length ccoords)%nat -> all3 faces -> closed faces ->
  exists V C, polyhed 3 ccoords (length faces) (map (@length _) faces) (concat faces) = Ok (V, C) /\ forall o,
    ((forall t, In t (all_tris faces) -> 0 < tdet (mean ccoords) t) -> V = volume_from o faces) /\
    ((exists t, In t (all_tris faces) /\ tdet (mean ccoords) t <= 0) -> V = - Rabs (volume_from o faces)) /\
    (volume_from o faces <> 0 -> volume_from o faces * p0 C = moment_from p0 o faces /\ volume_from o faces * p1 C = moment_from p1 o faces /\
       volume_from o faces * p2 C = moment_from p2 o faces).
Proof.
  intros L D Cl. rewrite polyhed_eq by auto. cbv zeta. do 2 eexists. split; [reflexivity|]. intros o.
  rewrite <- (volume_from_any (mean ccoords) o Cl). rewrite <- !(fun f Hf => @moment_from_any f (mean ccoords) o faces Hf Cl) by (unfold coord; auto).
  fold (volume_from (mean ccoords) faces). split; [|split].
  - intros H. destruct (existsb _ _) eqn:E; [|reflexivity]. apply existsb_exists in E as (t & Ht & T). apply leb_iff in T. specialize (H t Ht). lra.
  - intros (t & Ht & T). assert (E : existsb (fun t => leb (tdet (mean ccoords) t) 0) (all_tris faces) = true) by (apply existsb_exists; exists t; split; auto; apply leb_iff; auto).
    rewrite E. unfold flag. cbn [andb]. unfold gtb. destruct (Rlt_dec 0 (volume_from (mean ccoords) faces)); [rewrite Rabs_pos_eq by lra; auto|rewrite Rabs_left1 by lra; lra].
  - intros NZ. rewrite !moment_tmom. assert (NZ' : sum_of (tdet (mean ccoords)) (all_tris faces) <> 0) by (intros E; apply NZ; unfold volume_from; rewrite E; lra).
    unfold volume_from, diveq, P3. cbn [pd pmap p0 p1 p2]. repeat split; field; auto.
Qed.
(** ** the volume is positive exactly when no tetrahedron about the mean of the nodes is inverted or flat *)
Theorem c49_positive_iff ccoords faces V C : (4 < length ccoords)%nat -> all3 faces -> all_tris faces <> [] ->
  polyhed 3 ccoords (length faces) (map (@length _) faces) (concat faces) = Ok (V, C) ->
  (0 < V <-> forall t, In t (all_tris faces) -> 0 < tdet (mean ccoords) t).
Proof.
  intros L D NE H. rewrite polyhed_eq in H by auto. cbv zeta in H. injection H as <- <-. unfold flag. split.
  - intros P t Ht. destruct (existsb (fun t => leb (tdet (mean ccoords) t) 0) (all_tris faces)) eqn:E; cbn [andb] in P.
    + unfold gtb in P. destruct (Rlt_dec 0 _); lra.
    + destruct (Rlt_dec 0 (tdet (mean ccoords) t)) as [|N]; auto. assert (T : existsb (fun t => leb (tdet (mean ccoords) t) 0) (all_tris faces) = true); [|congruence].
      apply existsb_exists. exists t. split; auto. apply leb_iff. lra.
  - intros P. destruct (existsb (fun t => leb (tdet (mean ccoords) t) 0) (all_tris faces)) eqn:E.
    + apply existsb_exists in E as (t & Ht & T). apply leb_iff in T. specialize (P t Ht). lra.
    + cbn [andb]. assert (0 < sum_of (tdet (mean ccoords)) (all_tris faces)) by (apply sum_pos; auto). lra.
Qed.
(** ** convex polyhedra with outward faces: positive, exact volume, exact centroid *)
Lemma tdet_mean t l : (0 < length l)%nat -> INR (length l) * tdet (mean l) t = sum_of (fun v => tdet v t) l.
Proof.
  destruct t as [[a b] c]. intros L. assert (NZ : INR (length l) <> 0) by (apply not_0_INR; lia). unfold tdet.
  set (k0 := (p1 a * p2 b - p2 a * p1 b) + (p1 b * p2 c - p2 b * p1 c) + (p1 c * p2 a - p2 c * p1 a)).
  set (k1 := (p2 a * p0 b - p0 a * p2 b) + (p2 b * p0 c - p0 b * p2 c) + (p2 c * p0 a - p0 c * p2 a)).
  set (k2 := (p0 a * p1 b - p1 a * p0 b) + (p0 b * p1 c - p1 b * p0 c) + (p0 c * p1 a - p1 c * p0 a)).
  set (d := det3 (Pt 3 0 0 0) a b c).
  assert (F : forall v, det3 v a b c = d + -1 * (k0 * p0 v + k1 * p1 v + k2 * p2 v)) by (intros v; unfold det3, d, k0, k1, k2, det3; cbn [p0 p1 p2]; ring).
  rewrite F. etransitivity; [|symmetry; apply sum_ext; intros v _; apply F].
  rewrite (sum_plus (fun _ => d) (fun v => -1 * (k0 * p0 v + k1 * p1 v + k2 * p2 v))), sum_const, sum_scale.
  rewrite (sum_plus (fun c => k0 * p0 c + k1 * p1 c) (fun c => k2 * p2 c)), (sum_plus (fun c => k0 * p0 c) (fun c => k1 * p1 c)), !sum_scale.
  unfold mean. cbn [p0 p1 p2]. field. auto.
Qed.
Lemma convex_tdet ccoords faces : (0 < length ccoords)%nat -> convex_outward ccoords faces -> forall t, In t (all_tris faces) -> 0 < tdet (mean ccoords) t.
Proof.
  intros L H t Ht. destruct (H t Ht) as [H0 (v & Hv & P)]. assert (E := @tdet_mean t ccoords L). assert (PL : 0 < INR (length ccoords)) by (apply lt_0_INR; lia).
  assert (0 < sum_of (fun v => tdet v t) ccoords) by (apply sum_some_pos with v; auto). nra.
Qed.
Theorem c49_convex ccoords faces : (4 < length ccoords)%nat -> all3 faces -> closed faces -> all_tris faces <> [] -> convex_outward ccoords faces ->
  exists V C, polyhed 3 ccoords (length faces) (map (@length _) faces) (concat faces) = Ok (V, C) /\ 0 < V /\ forall o, V = volume_from o faces /\
    V * p0 C = moment_from p0 o faces /\ V * p1 C = moment_from p1 o faces /\ V * p2 C = moment_from p2 o faces.
Proof.
  intros L D Cl NE H. assert (T := @convex_tdet ccoords faces ltac:(lia) H). destruct (@c49_closed_surface ccoords faces L D Cl) as (V & C & E & G).
  assert (P : 0 < V) by (apply (@c49_positive_iff ccoords faces V C L D NE E); auto). exists V, C. split; auto. split; auto. intros o. destruct (G o) as (G1 & _ & G3). specialize (G1 T).
  rewrite <- G1 in G3. split; auto. apply G3. lra.
Qed.
(** ** neither node listing order nor the listing order of the faces matters (more than four nodes) *)
Theorem c49_node_order ccoords ccoords' faces : Permutation ccoords ccoords' -> (4 < length ccoords)%nat -> all3 faces ->
  polyhed 3 ccoords' (length faces) (map (@length _) faces) (concat faces) = polyhed 3 ccoords (length faces) (map (@length _) faces) (concat faces).
Proof.
  intros P L D. assert (EL := Permutation_length P). rewrite !polyhed_eq by (auto; lia).
  assert (E : mean ccoords' = mean ccoords) by (unfold mean; rewrite EL, !(fun f => sum_perm f P); auto). rewrite E. auto.
Qed.
Lemma existsb_perm A (f : A -> bool) l1 l2 : Permutation l1 l2 -> existsb f l1 = existsb f l2.
Proof. induction 1; simpl; auto; try congruence. destruct (f x), (f y); auto. Qed.
Theorem c49_face_order ccoords faces faces' : Permutation faces faces' -> (4 < length ccoords)%nat -> all3 faces ->
  polyhed 3 ccoords (length faces') (map (@length _) faces') (concat faces') = polyhed 3 ccoords (length faces) (map (@length _) faces) (concat faces).
Proof.
  intros P L D. assert (D' : all3 faces') by (intros f Hf; apply D; apply (Permutation_in _ (Permutation_sym P)); auto). rewrite !polyhed_eq by auto.
  assert (T : Permutation (all_tris faces') (all_tris faces)) by (unfold all_tris; apply Permutation_flat_map; apply Permutation_sym; auto). cbv zeta. rewrite !(fun f => sum_perm f T), (existsb_perm _ T). auto.
Qed.
(** ** tetrahedra *)
Lemma polyhed_tet a b c d nf nfn fc : pd a = 3%nat -> pd b = 3%nat -> pd c = 3%nat -> pd d = 3%nat ->
  polyhed 3 [a; b; c; d] nf nfn fc = Ok (det3 a b c d / 6, mean [a; b; c; d]).
Proof.
  intros Ha Hb Hc Hd. unfold polyhed. cbn [pset pzero pd bind length Nat.ltb Nat.leb Nat.eqb rd nth_error]. rewrite tet_det by auto. do 2 f_equal.
  unfold pdiv, smul, padd. rewrite Ha. unfold mean, sum_of. cbn [pd p0 p1 p2 map rsum length INR]. f_equal; field.
Qed.
(** the volume is exact up to its sign, and the centroid exact *)
Theorem c49_tetrahedron a b c d nf nfn fc : pd a = 3%nat -> pd b = 3%nat -> pd c = 3%nat -> pd d = 3%nat ->
  exists V C, polyhed 3 [a; b; c; d] nf nfn fc = Ok (V, C) /\ forall o, V = volume_from o (tet_faces a b c d) /\
    V * p0 C = moment_from p0 o (tet_faces a b c d) /\ V * p1 C = moment_from p1 o (tet_faces a b c d) /\ V * p2 C = moment_from p2 o (tet_faces a b c d).
Proof.
  intros Ha Hb Hc Hd. rewrite polyhed_tet by auto. do 2 eexists. split; [reflexivity|]. intros o.
  unfold volume_from, moment_from, all_tris, tet_faces, sum_of, mean, sum_of. cbn [flat_map tris app map rsum length INR p0 p1 p2]. unfold tdet, det3. repeat split; field.
Qed.
(** but the sign follows the order in which the nodes are listed, not the faces: swapping two nodes of the list negates the volume *)
Theorem c49_tetrahedron_sign_refuted a b c d nf nfn fc : pd a = 3%nat -> pd b = 3%nat -> pd c = 3%nat -> pd d = 3%nat -> forall V C,
  polyhed 3 [a; b; c; d] nf nfn fc = Ok (V, C) -> exists C', polyhed 3 [a; b; d; c] nf nfn fc = Ok (- V, C').
Proof.
  intros Ha Hb Hc Hd V C H. rewrite polyhed_tet in H by auto. injection H as <- <-. rewrite polyhed_tet by auto. eexists. do 2 f_equal. unfold det3. field.
Qed.
Example tet_sign_ex : let a := Pt 3 0 0 0 in let b := Pt 3 1 0 0 in let c := Pt 3 0 1 0 in let d := Pt 3 0 0 1 in
  closed (tet_faces a b c d) /\ (exists C, polyhed 3 [a; b; c; d] 4 [3; 3; 3; 3]%nat (concat (tet_faces a b c d)) = Ok (1 / 6, C)) /\
  (exists C, polyhed 3 [a; b; d; c] 4 [3; 3; 3; 3]%nat (concat (tet_faces a b c d)) = Ok (- (1 / 6), C)).
Proof.
  cbv zeta. split; [|split].
  - unfold closed, swap. cbn [tet_faces flat_map edges steps app map fst snd].
    set (a := Pt 3 0 0 0). set (b := Pt 3 1 0 0). set (c := Pt 3 0 1 0). set (d := Pt 3 0 0 1). clearbody a b c d.
    repeat (match goal with |- Permutation (?x :: ?l) ?r => 
      let rec go pre r := match r with x :: ?t => transitivity (x :: (pre ++ t)); [apply perm_skip; cbn [app]|exact (Permutation_middle pre t x)] | ?y :: ?t => go (pre ++ [y]) t end in go (@nil (point * point)) r end); try constructor.
  - rewrite polyhed_tet by auto. eexists. do 2 f_equal. unfold det3. simpl. field.
  - rewrite polyhed_tet by auto. eexists. do 2 f_equal. unfold det3. simpl. field.
Qed.
(** ** parallelepipeds *)
Theorem c49_parallelepiped o u v w : 0 < det_uvw u v w ->
  polyhed 3 (box_corners o u v w) 6 [4; 4; 4; 4; 4; 4]%nat (concat (box_faces o u v w)) = Ok (det_uvw u v w, corner o u v w (/ 2) (/ 2) (/ 2)).
Proof.
  intros P. change 6%nat with (length (box_faces o u v w)). change [4; 4; 4; 4; 4; 4]%nat with (map (@length _) (box_faces o u v w)).
  rewrite polyhed_eq; [|simpl; lia|].
  - cbv zeta. set (m := corner o u v w (/ 2) (/ 2) (/ 2)). assert (EM : mean (box_corners o u v w) = m).
    { unfold mean, m, box_corners, corner, sum_of. cbn [map rsum length INR p0 p1 p2]. f_equal; field. }
    rewrite EM. assert (ET : forall t, In t (all_tris (box_faces o u v w)) -> tdet m t = det_uvw u v w / 4).
    { intros t Ht. unfold all_tris, box_faces in Ht. cbn [flat_map tris edges steps app map fst snd In] in Ht.
      repeat (destruct Ht as [<-|Ht]; [unfold tdet, det3, m, mean, corner, sum_of, det_uvw, det3; cbn [map rsum length INR p0 p1 p2]; field|]). contradiction. }
    assert (EN : existsb (fun t => leb (tdet m t) 0) (all_tris (box_faces o u v w)) = false).
    { destruct (existsb _ _) eqn:E; auto. apply existsb_exists in E as (t & Ht & T). apply leb_iff in T. rewrite ET in T by auto. lra. }
    assert (EV : sum_of (tdet m) (all_tris (box_faces o u v w)) = 6 * det_uvw u v w).
    { rewrite (@sum_ext _ _ (fun _ => det_uvw u v w / 4)) by auto. rewrite sum_const. cbn [all_tris box_faces flat_map tris edges steps app map length INR]. field. }
    assert (EC : forall f, coord f -> sum_of (tmom f m) (all_tris (box_faces o u v w)) = 6 * det_uvw u v w * f m).
    { intros f Hf. unfold tmom. rewrite (@sum_ext _ _ (fun t => det_uvw u v w / 4 * (let '(a, b, c) := t in (f m + f a + f b + f c) / 4))) by (intros [[a b] c] Ht; rewrite ET by auto; auto).
      rewrite sum_scale. replace (sum_of _ _) with (24 * f m); [field|].
      unfold sum_of, all_tris, box_faces. cbn [flat_map tris edges steps app map rsum fst snd]. destruct Hf as [->|[->| ->]]; unfold m, mean, corner, sum_of; cbn [map rsum length INR p0 p1 p2]; field. }
    rewrite EN, EV, !EC by (unfold coord; auto). unfold flag. cbn [andb]. do 2 f_equal; [field|]. unfold diveq, P3. cbn [pd pmap p0 p1 p2]. unfold m at 4, corner. f_equal; unfold m, corner; cbn [p0 p1 p2]; field; lra.
  - intros f Hf p Hp. unfold box_faces in Hf. cbn [In] in Hf. repeat (destruct Hf as [<-|Hf]; [cbn [In] in Hp; repeat (destruct Hp as [<-|Hp]; [reflexivity|]); contradiction|]). contradiction.
Qed.
Example box_ex : det_uvw (Pt 3 2 0 0) (Pt 3 1 3 0) (Pt 3 0 0 5) = 30. Proof. unfold det_uvw, det3. simpl. lra. Qed.
(** fewer than four nodes *)
Theorem c49_degenerate ccoords nf nfn fc : (length ccoords < 4)%nat -> polyhed 3 ccoords nf nfn fc = Ok (0, Pt 3 0 0 0).
Proof. intros L. unfold polyhed. cbn [pset pzero pd bind]. destruct (Nat.ltb_spec (length ccoords) 4); [auto|lia]. Qed.
(** the hypotheses of the theorems above are met by the unit cube *)
Lemma box_closed o u v w : closed (box_faces o u v w).
Proof.
  unfold closed, swap, box_faces. cbv zeta. cbn [flat_map edges steps app map fst snd].
  repeat (match goal with |- Permutation (?x :: ?l) ?r =>
      let rec go pre r := match r with x :: ?t => transitivity (x :: (pre ++ t)); [apply perm_skip; cbn [app]|exact (Permutation_middle pre t x)] | ?y :: ?t => go (pre ++ [y]) t end in go (@nil (point * point)) r end); try constructor.
Qed.
Example cube_ex : let o := Pt 3 0 0 0 in let u := Pt 3 1 0 0 in let v := Pt 3 0 1 0 in let w := Pt 3 0 0 1 in
  (4 < length (box_corners o u v w))%nat /\ all3 (box_faces o u v w) /\ closed (box_faces o u v w) /\ all_tris (box_faces o u v w) <> [] /\
  convex_outward (box_corners o u v w) (box_faces o u v w).
Proof.
  cbv zeta. split; [simpl; lia|]. split; [|split; [apply box_closed|split; [discriminate|]]].
  - intros f Hf p Hp. unfold box_faces in Hf. cbn [In] in Hf. repeat (destruct Hf as [<-|Hf]; [cbn [In] in Hp; repeat (destruct Hp as [<-|Hp]; [reflexivity|]); contradiction|]). contradiction.
  - intros t Ht. unfold all_tris, box_faces in Ht. cbn [flat_map tris edges steps app map fst snd In] in Ht.
    assert (B : forall P : point -> Prop, (forall x y z, (x = 0 \/ x = 1) -> (y = 0 \/ y = 1) -> (z = 0 \/ z = 1) -> P (Pt 3 x y z)) -> forall p, In p (box_corners (Pt 3 0 0 0) (Pt 3 1 0 0) (Pt 3 0 1 0) (Pt 3 0 0 1)) -> P p).
    { intros P H p Hp. unfold box_corners, corner in Hp. cbn [In p0 p1 p2] in Hp. repeat (destruct Hp as [<-|Hp]; [apply H; lra|]). contradiction. }
    assert (E : forall x y z, (x = 0 \/ x = 1) -> (y = 0 \/ y = 1) -> (z = 0 \/ z = 1) -> In (Pt 3 x y z) (box_corners (Pt 3 0 0 0) (Pt 3 1 0 0) (Pt 3 0 1 0) (Pt 3 0 0 1))).
    { intros x y z Hx Hy Hz. unfold box_corners, corner. cbn [In p0 p1 p2]. destruct Hx as [->| ->], Hy as [->| ->], Hz as [->| ->];
      repeat (try (left; f_equal; lra); right). }
    repeat (destruct Ht as [<-|Ht];
      [split; [apply B; intros x y z Hx Hy Hz; unfold tdet, det3, mean, corner, sum_of; cbn [map rsum length INR p0 p1 p2]; destruct Hx as [->| ->], Hy as [->| ->], Hz as [->| ->]; lra
              |first [exists (Pt 3 0 0 0); split; [apply E; auto|unfold tdet, det3, mean, corner, sum_of; cbn [map rsum length INR p0 p1 p2]; lra]
                     |exists (Pt 3 1 1 1); split; [apply E; auto|unfold tdet, det3, mean, corner, sum_of; cbn [map rsum length INR p0 p1 p2]; lra]]]|]). contradiction.
Qed.
