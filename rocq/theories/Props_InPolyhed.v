(** C50: point_in_polyhed. *)
From Coq Require Import Reals Lra Psatz Permutation.
From Verif Require Import Base Loop Point Geometry Geometry_spec Geometry_proofs Props_Polygon Props_Polygon3D Polyhedron_proofs.
Set Implicit Arguments.
Local Open Scope R_scope.

Lemma tet_vol_det p a b c : pd p = 3%nat -> pd a = 3%nat -> pd b = 3%nat -> pd c = 3%nat -> tet_vol p a b c = tdet p (a, b, c).
Proof. intros. unfold tet_vol. rewrite tet_det by auto. auto. Qed.
(** one face that is not a triangle *)
Definition bad p (t : tet) := ltb (tdet p t) 0.
Lemma in_face_fan p l face off : pd p = 3%nat -> all_dim 3 face -> sub_at l face off -> length face <> 3%nat ->
  in_face p l (length face) off = Ok (if existsb (bad p) (tris face) then None else Some (off + length face)%nat).
Proof.
  intros Hp D H N. unfold in_face. destruct (Nat.eqb_spec (length face) 3); [congruence|]. rewrite (face_center H). cbn [bind]. rewrite fc_mean.
  unfold for_lt. rewrite <- (edges_length face) at 1.
  rewrite (@foldM_list _ _ (edges face) _ (fun e s => match s with None => None | Some o => if bad p (fst e, snd e, mean face) then None else Some o end)).
  - f_equal. rewrite tris_fan by auto. generalize (off + length face)%nat. generalize (edges face). intros L.
    assert (G : forall L, fold_left (fun s e => match s with None => None | Some o => if bad p (fst e, snd e, mean face) then None else Some o end) L (@None nat) = None) by (induction L0; simpl; auto).
    induction L as [|e L IH]; intros k; cbn [fold_left map existsb]; auto. destruct (bad p (fst e, snd e, mean face)); cbn [orb]; auto.
  - intros i [a b] s E. destruct s as [o|]; auto. cbn [fst snd]. assert (Li := nth_error_lt _ _ E). rewrite edges_length in Li.
    assert (HI := nth_error_In _ _ E). apply edges_In in HI as [Ia Ib]. apply edges_nth in E as [E1 E2].
    rewrite <- (H i) in E1 by auto. rewrite <- (H ((i + 1) mod length face)) in E2 by (apply Nat.mod_upper_bound; lia).
    cbn [Nat.add]. rewrite (proj2 (rd_Ok _ _ _) E1). cbn [bind]. rewrite (proj2 (rd_Ok _ _ _) E2). cbn [bind]. rewrite tet_vol_det by (auto; apply D; auto). auto.
Qed.
(** ** polyhedra without triangular faces *)
Lemma no_tri_loop p faces : pd p = 3%nat -> all3 faces -> (forall f, In f faces -> length f <> 3%nat) -> forall pre,
  foldM (map (@length _) faces) (fun n s => match s with None => Ok None | Some off => in_face p (pre ++ concat faces) n off end) (Some (length pre)) =
  Ok (if existsb (bad p) (all_tris faces) then None else Some (length pre + length (concat faces))%nat).
Proof.
  intros Hp. induction faces as [|f r IH]; intros D N pre; cbn [map foldM concat].
  - simpl. rewrite Nat.add_0_r. auto.
  - rewrite in_face_fan; [|auto|apply D; left; auto|apply sub_concat|apply N; left; auto]. cbn [bind]. unfold all_tris. cbn [flat_map]. rewrite existsb_app.
    destruct (existsb (bad p) (tris f)) eqn:E; cbn [orb].
    + generalize (pre ++ f ++ concat r). generalize (map (@length point) r). clear. intros L0 l. induction L0 as [|g r IH]; cbn [foldM bind]; auto.
    + rewrite app_assoc. replace (length pre + length f)%nat with (length (pre ++ f)) by apply app_length.
      rewrite IH; [|intros g Hg; apply D; right; auto|intros g Hg; apply N; right; auto]. fold (all_tris r). rewrite !app_length. destruct (existsb (bad p) (all_tris r)); auto. do 2 f_equal. lia.
Qed.
Lemma in_polyhed_no_tri p ccoords faces : pd p = 3%nat -> (4 <= length ccoords)%nat -> all3 faces -> (forall f, In f faces -> length f <> 3%nat) ->
  point_in_polyhed p ccoords (length faces) (map (@length _) faces) (concat faces) = Ok (negb (existsb (bad p) (all_tris faces))).
Proof.
  intros Hp L D N. unfold point_in_polyhed. destruct (Nat.ltb_spec (length ccoords) 4); [lia|]. unfold for_lt. rewrite <- (map_length (@length point) faces) at 1.
  rewrite (@foldM_listM _ _ (map (@length _) faces) _ (fun n s => match s with None => Ok None | Some off => in_face p (concat faces) n off end) 0%nat).
  - assert (E := @no_tri_loop p faces Hp D N []). cbn [length app] in E. rewrite E. cbn [bind]. destruct (existsb (bad p) (all_tris faces)); auto.
  - intros i k s E. cbn [Nat.add]. destruct s; auto. rewrite (proj2 (rd_Ok _ _ _) E). reflexivity.
Qed.
Theorem c50_no_triangles_partial p ccoords faces : pd p = 3%nat -> (4 <= length ccoords)%nat -> all3 faces -> (forall f, In f faces -> length f <> 3%nat) ->
  exists r, point_in_polyhed p ccoords (length faces) (map (@length _) faces) (concat faces) = Ok r /\
    (r = true <-> forall t, In t (all_tris faces) -> 0 <= tdet p t).
Proof.
  intros Hp L D N. rewrite in_polyhed_no_tri by auto. eexists. split; [reflexivity|]. rewrite negb_true_iff. split.
  - intros E t Ht. destruct (Rle_dec 0 (tdet p t)) as [|B]; auto. assert (T : existsb (bad p) (all_tris faces) = true); [|congruence].
    apply existsb_exists. exists t. split; auto. apply ltb_iff. lra.
  - intros H. destruct (existsb (bad p) (all_tris faces)) eqn:E; auto. apply existsb_exists in E as (t & Ht & B). apply ltb_iff in B. specialize (H t Ht). lra.
Qed.
(** with planar convex faces, counter-clockwise seen from outside (normal n f): exactly the points on the inner side of every face plane *)
Lemma tdet_side n p a b c : dot3 n n <> 0 -> dot3 n a = dot3 n c -> dot3 n b = dot3 n c ->
  dot3 n n * tdet p (a, b, c) = seen n c a b * (dot3 n c - dot3 n p).
Proof.
  intros Hn Ha Hb. destruct (@cross_along n c a b Ha Hb) as (E0 & E1 & E2).
  transitivity (2 * ((dot3 n n * vtri0 c (a, b)) * (p0 c - p0 p) + (dot3 n n * vtri1 c (a, b)) * (p1 c - p1 p) + (dot3 n n * vtri2 c (a, b)) * (p2 c - p2 p))).
  - unfold tdet, det3, vtri0, vtri1, vtri2. cbn [fst snd]. field.
  - rewrite E0, E1, E2. unfold dot3. field.
Qed.
Theorem c50_convex_faces_partial p ccoords faces (n : list point -> point) : pd p = 3%nat -> (4 <= length ccoords)%nat -> all3 faces ->
  (forall f, In f faces -> (4 <= length f)%nat /\ planar (n f) f /\ convex_about (n f) f) ->
  exists r, point_in_polyhed p ccoords (length faces) (map (@length _) faces) (concat faces) = Ok r /\
    (r = true <-> forall f a, In f faces -> In a f -> dot3 (n f) p <= dot3 (n f) a).
Proof.
  intros Hp L D H. destruct (@c50_no_triangles_partial p ccoords faces Hp L D) as (r & E & Hr); [intros f Hf; apply H in Hf; lia|]. exists r. split; auto. rewrite Hr. clear E Hr r.
  assert (Key : forall f a b, In f faces -> In (a, b) (edges f) -> let m := mean f in
     (0 <= tdet p (a, b, m) <-> dot3 (n f) p <= dot3 (n f) m) /\ forall q, In q f -> dot3 (n f) q = dot3 (n f) m).
  { intros f a b Hf He m. destruct (H f Hf) as (Lf & HP & HC). assert (S0 := @convex_about_star (n f) f ltac:(lia) HC a b He). fold m in S0.
    assert (Hn : dot3 (n f) (n f) <> 0). { intros Z0. assert (p0 (n f) = 0 /\ p1 (n f) = 0 /\ p2 (n f) = 0) as (N0 & N1 & N2).
      { unfold dot3 in Z0. assert (A := Rle_0_sqr (p0 (n f))). assert (B := Rle_0_sqr (p1 (n f))). assert (C := Rle_0_sqr (p2 (n f))). unfold Rsqr in *. repeat split; nra. }
      unfold seen in S0. rewrite N0, N1, N2 in S0. lra. }
    assert (DM : forall q, In q f -> dot3 (n f) q = dot3 (n f) m) by (intros q Hq; apply (@dmean (n f) f); auto; lia).
    apply edges_In in He as [Ia Ib]. cbn [fst snd] in *. assert (E := @tdet_side (n f) p a b m Hn (DM a Ia) (DM b Ib)). assert (DP := @dot3_pos (n f) Hn). split; auto.
    split; intros G; nra. }
  split.
  - intros G f a Hf Ha. destruct (H f Hf) as (Lf & _). destruct (edges f) as [|[x y] r] eqn:Ee; [apply (f_equal (@length _)) in Ee; rewrite edges_length in Ee; simpl in Ee; lia|].
    assert (Ix : In (x, y) (edges f)) by (rewrite Ee; left; auto). destruct (Key f x y Hf Ix) as [K1 K2]. rewrite (K2 a Ha). apply K1. apply G. unfold all_tris. apply in_flat_map. exists f. split; auto.
    rewrite tris_fan by lia. apply in_map_iff. exists (x, y). auto.
  - intros G t Ht. unfold all_tris in Ht. apply in_flat_map in Ht as (f & Hf & Ht). destruct (H f Hf) as (Lf & _). rewrite tris_fan in Ht by lia. apply in_map_iff in Ht as ((x & y) & <- & He). cbn [fst snd].
    destruct (Key f x y Hf He) as [K1 K2]. apply K1. apply edges_In in He as [Ix _]. cbn [fst] in Ix. rewrite <- (K2 x Ix). apply G; auto.
Qed.
(** ** polyhedra with triangular faces: the offset stays, so the first face is tested again and again *)
Theorem c50_triangles_refuted p ccoords faces a b c : pd p = 3%nat -> (4 <= length ccoords)%nat -> all3 ([a; b; c] :: faces) -> (forall f, In f faces -> length f = 3%nat) ->
  exists r, point_in_polyhed p ccoords (S (length faces)) (map (@length _) ([a; b; c] :: faces)) (concat ([a; b; c] :: faces)) = Ok r /\
    (r = true <-> 0 <= tdet p (a, b, c)).
Proof.
  intros Hp L D N. unfold point_in_polyhed. destruct (Nat.ltb_spec (length ccoords) 4); [lia|]. unfold for_lt.
  replace (S (length faces)) with (length (map (@length point) ([a; b; c] :: faces))) by (cbn [map length]; rewrite map_length; auto).
  set (fc := concat ([a; b; c] :: faces)).
  assert (T : forall k, k = 3%nat -> in_face p fc k 0 = Ok (if bad p (a, b, c) then None else Some 0%nat)).
  { intros k ->. unfold in_face. cbn [Nat.eqb]. unfold fc. cbn [concat app rd nth_error bind Nat.add]. rewrite tet_vol_det by (auto; apply (D [a; b; c]); simpl; auto). auto. }
  rewrite (@foldM_listM _ _ (map (@length _) ([a; b; c] :: faces)) _ (fun n s => match s with None => Ok None | Some off => in_face p fc n off end) 0%nat).
  - assert (E : forall L0, (forall k, In k L0 -> k = 3%nat) -> foldM L0 (fun n s => match s with None => Ok None | Some off => in_face p fc n off end) (Some 0%nat) =
        Ok (if (0 <? length L0)%nat && bad p (a, b, c) then None else Some 0%nat)).
    { induction L0 as [|k L0 IH]; intros HK; cbn [foldM]; auto. rewrite T by (apply HK; left; auto). cbn [bind]. cbn [length Nat.ltb Nat.leb andb]. destruct (bad p (a, b, c)) eqn:B.
      - clear. induction L0 as [|k L0 IH]; cbn [foldM bind]; auto.
      - rewrite IH by (intros; apply HK; right; auto). rewrite andb_false_r. auto. }
    rewrite E; [|intros k Hk; cbn [map] in Hk; destruct Hk as [<-|Hk]; auto; apply in_map_iff in Hk as (f & <- & Hf); auto].
    cbn [bind map length Nat.ltb Nat.leb andb]. eexists. split; [reflexivity|]. unfold bad. unfold ltb. destruct (Rlt_dec (tdet p (a, b, c)) 0); split; intros; try discriminate; auto; lra.
  - intros i k s E. cbn [Nat.add]. destruct s; auto. rewrite (proj2 (rd_Ok _ _ _) E). reflexivity.
Qed.
(** so a point far outside a tetrahedron is reported as inside *)
Example tet_outside_ex : let a := Pt 3 0 0 0 in let b := Pt 3 1 0 0 in let c := Pt 3 0 1 0 in let d := Pt 3 0 0 1 in let p := Pt 3 100 100 100 in
  point_in_polyhed p [a; b; c; d] 4 [3; 3; 3; 3]%nat (concat (tet_faces a b c d)) = Ok true /\ tdet p (b, c, d) < 0.
Proof.
  cbv zeta. split.
  - destruct (@c50_triangles_refuted (Pt 3 100 100 100) [Pt 3 0 0 0; Pt 3 1 0 0; Pt 3 0 1 0; Pt 3 0 0 1] (tl (tet_faces (Pt 3 0 0 0) (Pt 3 1 0 0) (Pt 3 0 1 0) (Pt 3 0 0 1)))
      (Pt 3 0 0 0) (Pt 3 0 1 0) (Pt 3 1 0 0) eq_refl ltac:(simpl; lia)) as (r & E & Hr).
    + intros f Hf q Hq. simpl in Hf. intuition; subst; simpl in Hq; intuition; subst; auto.
    + intros f Hf. simpl in Hf. intuition; subst; auto.
    + unfold tet_faces in *. cbn [tl length map] in E. rewrite E. f_equal. apply Hr. unfold tdet, det3. simpl. lra.
  - unfold tdet, det3. simpl. lra.
Qed.
