(** Property C81: the geometry of generated box meshes is exact. *)
From Coq Require Import Reals Lra Permutation.
From Verif Require Import Base Loop Defs Factory SimpleMesh SimpleMesh_spec SimpleMesh_proofs SimpleMesh_proofs2 SimpleMesh_proofs3 SimpleMesh_proofs4
  SimpleTopo SimpleGeom Props_SimpleMesh Props_SimpleGeom Cache Cache_spec Cache_proofs Cache_proofs5 Point Geometry Geometry_spec Geometry_proofs Polyhedron_proofs Props_Polygon3D Props_Polyhedron Props_InPolyhed
  MeshGeom BoxGeom BoxGeom_spec MeshGeom_spec MeshGeom_proofs MeshGeom_proofs2 Props_Cache Props_MeshUpdate RegionSets BoxGeom_proofs BoxGeom_proofs2 BoxGeom_proofs3.
Set Implicit Arguments.
Local Open Scope R_scope.
Local Notation ncells := SimpleMesh_proofs2.ncells.
Local Notation nfaces := SimpleMesh_proofs2.nfaces.

Lemma box_object_caches d M : positive d -> box_object d M -> box_caches d M.
Proof.
  intros Hd (v0 & gx & gy & gz & fl & m & cm & Em & F1 & Ec & ->).
  destruct (fl_edges (close_flags fl)) eqn:F2; [rewrite (@box_edges_throw d v0 gx gy gz fl m Hd Em F1 F2) in Ec; discriminate|].
  destruct (@box_caches_ok d v0 gx gy gz fl m Em F1 F2) as (cm' & Ec' & B). rewrite Ec in Ec'. injection Ec' as <-. auto.
Qed.
Lemma inc_width n g i : increasing n g -> (i < n)%nat -> 0 < width g i.
Proof. intros H L. apply H in L. unfold width. lra. Qed.

Section S.
Variables (d : dims) (M : gmesh) (gx gy gz : nat -> R) (X : coordinates) (xs : list coordinates) (g : geo).
Hypothesis Hd : positive d.
Hypothesis HM : box_object d M.
Hypothesis HX : rectilinear d gx gy gz X.
Hypothesis IX : increasing (nx d) gx.
Hypothesis IY : increasing (ny d) gy.
Hypothesis IZ : increasing (nz d) gz.
Let BC := box_object_caches Hd HM.
Lemma cell_pos i j k : cell_at d (i, j, k) -> 0 < width gx i /\ 0 < width gy j /\ 0 < width gz k.
Proof. intros (A & B & C). split; [apply (inc_width IX A)|split; [apply (inc_width IY B)|apply (inc_width IZ C)]]. Qed.
Lemma face_pos s : face_at d s -> 0 < square_area gx gy gz s.
Proof.
  destruct s as [i j k|i j k|i j k]; intros (A & B & C); cbn [square_area]; apply Rmult_lt_0_compat;
    first [apply (inc_width IX A)|apply (inc_width IY B)|apply (inc_width IZ C)].
Qed.
Lemma cell_nz i j k : cell_at d (i, j, k) -> width gx i * width gy j * width gz k <> 0.
Proof. intros H. destruct (cell_pos H) as (A & B & C). assert (0 < width gx i * width gy j * width gz k) by (repeat apply Rmult_lt_0_compat; auto). lra. Qed.
Lemma face_nz s : face_at d s -> square_area gx gy gz s <> 0.
Proof. intros H. apply face_pos in H. lra. Qed.
Lemma total g0 : exists g', update_geometric_quantities M X g0 = Ok g'.
Proof. apply (grid_total BC HX g0); [apply cell_nz|apply face_nz]. Qed.

Hypothesis HG : history M (X :: xs) g.
Lemma upd : exists g0, update_geometric_quantities M X g0 = Ok g. Proof. apply (history_update HG). Qed.

Lemma cells_exact i j k re : cell_at d (i, j, k) ->
  cell_volume M X g (cid d (i, j, k)) re = Ok (width gx i * width gy j * width gz k) /\
  cell_centroid M X g (cid d (i, j, k)) re = Ok (Pt 3 (middle gx i) (middle gy j) (middle gz k)).
Proof.
  intros H. destruct upd as [g0 U]. destruct (grid_updated X BC g0 U) as (C1 & _ & QC & _). destruct (QC _ (cid_lt d _ H)) as (r & Er & E1 & E2).
  rewrite (grid_cell_geom BC HX H (cell_nz H)) in Er. apply Ok_inj in Er. subst r. cbn [fst snd] in E1, E2.
  unfold cell_volume, cell_centroid, asserting. rewrite C1, (grid_cell_geom BC HX H (cell_nz H)), E1, E2. destruct re; auto.
Qed.
Lemma faces_exact s re : face_at d s ->
  face_area M X g (fid d s) re = Ok (square_area gx gy gz s) /\ face_centroid M X g (fid d s) re = Ok (square_centre gx gy gz s).
Proof.
  intros H. destruct upd as [g0 U]. destruct (grid_updated X BC g0 U) as (_ & C1 & _ & QF). destruct (QF _ (fid_lt d _ H)) as (r & Er & E1 & E2 & _).
  destruct (grid_face_geom BC HX _ H (face_nz _ H)) as (z0 & z1 & E & _). rewrite E in Er. apply Ok_inj in Er. subst r. cbn [fst snd] in E1, E2.
  rewrite Rabs_right in E, E1 by (apply Rle_ge, Rlt_le, face_pos; auto).
  unfold face_area, face_centroid, asserting. rewrite C1, (bc_flag BC), E, E1, E2. cbn [andb]. destruct re; auto.
Qed.
Lemma normals_at s re : face_at d s -> exists z0 z1,
  (forall oc, face_normal M X g (fid d s) re oc =
     let ns := (if (z1 =? -1)%Z then Pt 3 0 0 0 else own_normal gx gy gz s, if (z0 =? -1)%Z then Pt 3 0 0 0 else popp (own_normal gx gy gz s)) in
     match oc with
     | None => if Req_EM_T (L22 (fst ns)) 0 then if Req_EM_T (L22 (snd ns)) 0 then AssertFail else Ok (popp (snd ns), 1%Z) else Ok (fst ns, 1%Z)
     | Some c => v <- cell_face_dir M c (fid d s) ;; Ok (if (v =? 1)%Z then (fst ns, v) else (snd ns, v))
     end) /\
  (forall c, (c < ncells d)%nat -> z0 = Z.of_nat c <-> In (fid d s, (-1)%Z) (combine (cf3 d c) dirs6)) /\
  (forall c, (c < ncells d)%nat -> z1 = Z.of_nat c <-> In (fid d s, 1%Z) (combine (cf3 d c) dirs6)).
Proof.
  intros H. destruct upd as [g0 U]. destruct (grid_updated X BC g0 U) as (_ & C1 & _ & QF). destruct (QF _ (fid_lt d _ H)) as (r & Er & _ & _ & E1 & E2).
  destruct (grid_face_geom BC HX _ H (face_nz _ H)) as (z0 & z1 & E & P0 & P1 & _). rewrite E in Er. apply Ok_inj in Er. subst r. cbn [fst snd] in E1, E2.
  exists z0, z1. split; auto. intros oc. unfold face_normal, asserting. rewrite (bc_flag BC), C1. cbn [andb]. rewrite E, E1, E2. destruct re; reflexivity.
Qed.
Lemma side_dir s p : cell_at d p -> side_of_cell s p -> In (fid d s, (if upper_side s p then 1 else -1) * (match s with FXZ _ _ _ => -1 | _ => 1 end))%Z (combine (cf3 d (cid d p)) dirs6).
Proof.
  intros H Hs. unfold cf3. rewrite cpos_cid by auto. destruct p as [[i j] k]. unfold dirs6. cbn [sides6 map combine In].
  destruct s as [a b c|a b c|a b c]; cbn [side_of_cell upper_side] in *.
  - destruct Hs as (-> & -> & [->| ->]); rewrite ?Nat.eqb_refl, ?(proj2 (Nat.eqb_neq k (k + 1))) by lia; cbn; tauto.
  - destruct Hs as (-> & [->| ->] & ->); rewrite ?Nat.eqb_refl, ?(proj2 (Nat.eqb_neq j (j + 1))) by lia; cbn; tauto.
  - destruct Hs as ([->| ->] & -> & ->); rewrite ?Nat.eqb_refl, ?(proj2 (Nat.eqb_neq i (i + 1))) by lia; cbn; tauto.
Qed.
Lemma side_face_at s p : cell_at d p -> side_of_cell s p -> face_at d s.
Proof. intros H Hs. apply (sides6_at d p H). apply sides6_spec. auto. Qed.
Lemma normals_exact s p re : cell_at d p -> side_of_cell s p ->
  exists fds dir, Cache.cell_get_faces_and_dirs (gm M) (cid d p) = Ok fds /\ In (fid d s, dir) fds /\
  face_normal M X g (fid d s) re (Some (cid d p)) = Ok (along_axis s (if upper_side s p then square_area gx gy gz s else - square_area gx gy gz s), dir).
Proof.
  intros H Hs. assert (Hf := side_face_at _ _ H Hs). destruct (normals_at _ re Hf) as (z0 & z1 & EN & P0 & P1).
  assert (I := side_dir _ _ H Hs). assert (L := cid_lt d p H).
  exists (combine (cf3 d (cid d p)) dirs6), ((if upper_side s p then 1 else -1) * (match s with FXZ _ _ _ => -1 | _ => 1 end))%Z. split; [apply (bc_cf BC); auto|]. split; auto.
  rewrite EN. cbv zeta. rewrite (grid_dir BC L I). cbn [bind fst snd].
  assert (ZN : Z.of_nat (cid d p) <> (-1)%Z) by lia.
  destruct s as [a b c|a b c|a b c]; destruct (upper_side _ p) eqn:Eu; cbn [Z.mul Pos.mul Z.eqb Pos.eqb Z.opp] in *;
    first [rewrite (proj2 (P1 _ L) I)|rewrite (proj2 (P0 _ L) I)]; destruct (Z.eqb_spec (Z.of_nat (cid d p)) (-1)) as [Q|_]; try contradiction;
    unfold own_normal, popp, along_axis; cbn [pd p0 p1 p2]; rewrite ?Ropp_0, ?Ropp_involutive; reflexivity.
Qed.
End S.

(** ** Construction *)
Lemma box_points x0 y0 z0 x1 y1 z1 d fr m : positive d -> make_box x0 y0 z0 x1 y1 z1 d fr = Ok m -> exists X, node_points m = Ok X /\
  rectilinear d (division x0 x1 (nx d)) (division y0 y1 (ny d)) (division z0 z1 (nz d)) X.
Proof.
  intros Hd Em. assert (BM : box_mesh d m) by (eapply BM_new; exact Em). destruct (box_mesh_facts BM) as (_ & _ & En & _).
  assert (P : forall q, node_at d q -> (l <- SimpleMesh.node_get_coordinates m (nid d q) ;; point_of l) =
     Ok (let '(i, j, k) := q in Pt 3 (division x0 x1 (nx d) i) (division y0 y1 (ny d) j) (division z0 z1 (nz d) k))).
  { intros [[i j] k] Hq. rewrite (@c21_node_coordinates x0 y0 z0 x1 y1 z1 d fr m i j k Hd Em Hq). reflexivity. }
  destruct (@mapM_exists _ _ (fun n => l <- SimpleMesh.node_get_coordinates m n ;; point_of l) (seq 0 (num_nodes m))) as [X EX].
  { intros n I. apply in_seq in I. rewrite En in I. destruct (@npos_ok d n) as [Na Ni]; [lia|]. rewrite <- Ni, P by auto. eauto. }
  exists X. split; [exact EX|]. rewrite En in EX. destruct (mapM_seq _ _ EX) as [L Q]. split; [exact L|]. intros i j k H. destruct (Q _ (nid_lt d _ H)) as (p & Ep & Np).
  rewrite P in Ep by auto. apply Ok_inj in Ep. subst p. exact Np.
Qed.
Lemma division_increasing lo hi n : (1 <= n)%nat -> lo < hi -> increasing n (division lo hi n).
Proof.
  intros Hn H i Hi. assert (S := @division_step lo hi n i Hn). assert (0 < (hi - lo) / INR n). { apply Rmult_lt_0_compat; [lra|]. apply Rinv_0_lt_compat. apply lt_0_INR. lia. } lra.
Qed.
(** Asked for faces and nothing finer, the constructor delivers the box mesh with its geometry computed. *)
Theorem c81_construction : forall x0 y0 z0 x1 y1 z1 d, positive d -> x0 < x1 -> y0 < y1 -> z0 < z1 ->
  exists M X g, construct_box x0 y0 z0 x1 y1 z1 d (Flags true false false false false) = Ok (M, X, g) /\ box_object d M /\ history M [X] g /\
    rectilinear d (division x0 x1 (nx d)) (division y0 y1 (ny d)) (division z0 z1 (nz d)) X /\
    increasing (nx d) (division x0 x1 (nx d)) /\ increasing (ny d) (division y0 y1 (ny d)) /\ increasing (nz d) (division z0 z1 (nz d)).
Proof.
  intros x0 y0 z0 x1 y1 z1 d Hd HX HY HZ. pose proof Hd as (P1 & P2 & P3). set (fl := Flags true false false false false).
  destruct (make_simple_3d_conn d 0 (grid_coord x0 x1 (nx d)) (grid_coord y0 y1 (ny d)) (grid_coord z0 z1 (nz d)) (fl_faces (close_flags fl))) as (m & Em & _).
  destruct (@box_caches_ok d 0 _ _ _ fl m Em eq_refl eq_refl) as (cm & Ec & _). destruct (@box_points x0 y0 z0 x1 y1 z1 d _ m Hd Em) as (X & EX & RX).
  assert (BO : box_object d (box_g m cm)) by (exists 0, (grid_coord x0 x1 (nx d)), (grid_coord y0 y1 (ny d)), (grid_coord z0 z1 (nz d)), fl, m, cm; auto).
  assert (I1 := @division_increasing x0 x1 (nx d) P1 HX). assert (I2 := @division_increasing y0 y1 (ny d) P2 HY). assert (I3 := @division_increasing z0 z1 (nz d) P3 HZ).
  destruct (total Hd BO RX I1 I2 I3 geo0) as [g Eg].
  exists (box_g m cm), X, g. unfold construct_box, make_box. rewrite Em. cbn [bind]. rewrite Ec. cbn [bind]. rewrite EX. cbn [bind]. rewrite Eg. cbn [bind].
  split; [reflexivity|]. split; [exact BO|]. split; [constructor; exact Eg|]. auto.
Qed.
(** Finding: asked for edges, sides, wedges or corners as well, the constructor throws; not asked for faces, it fails an assertion. *)
Theorem c81_other_requests_refuted : forall x0 y0 z0 x1 y1 z1 d fl, positive d ->
  (fl_faces (close_flags fl) = true -> fl_edges (close_flags fl) = true -> construct_box x0 y0 z0 x1 y1 z1 d fl = Thrown) /\
  (fl_sides fl = true \/ fl_wedges fl = true \/ fl_corners fl = true -> construct_box x0 y0 z0 x1 y1 z1 d fl = Thrown) /\
  (fl_faces (close_flags fl) = false -> construct_box x0 y0 z0 x1 y1 z1 d fl = AssertFail).
Proof.
  intros x0 y0 z0 x1 y1 z1 d fl Hd.
  destruct (make_simple_3d_conn d 0 (grid_coord x0 x1 (nx d)) (grid_coord y0 y1 (ny d)) (grid_coord z0 z1 (nz d)) (fl_faces (close_flags fl))) as (m & Em & _).
  assert (T : fl_faces (close_flags fl) = true -> fl_edges (close_flags fl) = true -> construct_box x0 y0 z0 x1 y1 z1 d fl = Thrown).
  { intros F1 F2. unfold construct_box, make_box. rewrite Em. cbn [bind]. rewrite (@box_edges_throw d 0 _ _ _ fl m Hd Em F1 F2). reflexivity. }
  split; [exact T|]. split.
  - intros H. apply T; destruct fl as [[] [] [] [] []]; cbn in *; auto; intuition discriminate.
  - intros F1. destruct (@box_points x0 y0 z0 x1 y1 z1 d _ m Hd Em) as (X & EX & _). destruct (@box_no_faces d 0 _ _ _ fl m Hd Em X geo0 F1) as (cm & Ec & Eu).
    unfold construct_box, make_box. rewrite Em. cbn [bind]. rewrite Ec. cbn [bind]. rewrite EX. cbn [bind]. rewrite Eu. reflexivity.
Qed.
(** Moving the nodes to any other rectilinear grid, the update succeeds. *)
Theorem c81_update_succeeds : forall d M gx gy gz X g, positive d -> box_object d M -> rectilinear d gx gy gz X ->
  increasing (nx d) gx -> increasing (ny d) gy -> increasing (nz d) gz -> exists g', update_geometric_quantities M X g = Ok g'.
Proof. intros. eapply total; eauto. Qed.

(** ** The values *)
Theorem c81_cells : forall d M gx gy gz X xs g i j k re, positive d -> box_object d M -> history M (X :: xs) g -> rectilinear d gx gy gz X ->
  increasing (nx d) gx -> increasing (ny d) gy -> increasing (nz d) gz -> cell_at d (i, j, k) ->
  cell_volume M X g (cid d (i, j, k)) re = Ok (width gx i * width gy j * width gz k) /\
  cell_centroid M X g (cid d (i, j, k)) re = Ok (Pt 3 (middle gx i) (middle gy j) (middle gz k)).
Proof. intros. eapply cells_exact; eauto. Qed.
Theorem c81_faces : forall d M gx gy gz X xs g s re, positive d -> box_object d M -> history M (X :: xs) g -> rectilinear d gx gy gz X ->
  increasing (nx d) gx -> increasing (ny d) gy -> increasing (nz d) gz -> face_at d s ->
  face_area M X g (fid d s) re = Ok (square_area gx gy gz s) /\ face_centroid M X g (fid d s) re = Ok (square_centre gx gy gz s).
Proof. intros. eapply faces_exact; eauto. Qed.
(** The normal of a face with respect to a cell points out of the cell along the axis, with the area of the face as its length; the orientation
    reported with it is the direction cell_get_faces_and_dirs gives for the face *)
Theorem c81_outward_normals : forall d M gx gy gz X xs g s p re, positive d -> box_object d M -> history M (X :: xs) g -> rectilinear d gx gy gz X ->
  increasing (nx d) gx -> increasing (ny d) gy -> increasing (nz d) gz -> cell_at d p -> side_of_cell s p ->
  exists fds dir, Cache.cell_get_faces_and_dirs (gm M) (cid d p) = Ok fds /\ In (fid d s, dir) fds /\
    face_normal M X g (fid d s) re (Some (cid d p)) = Ok (along_axis s (if upper_side s p then square_area gx gy gz s else - square_area gx gy gz s), dir).
Proof. intros. eapply normals_exact; eauto. Qed.

(** Without a cell: towards +z for squares normal to z, towards +x for squares normal to x, but towards -y for squares normal to y *)
Lemma own_len gx gy gz s : L22 (own_normal gx gy gz s) = square_area gx gy gz s * square_area gx gy gz s.
Proof. destruct s; unfold L22, dot, own_normal; cbn [pd p0 p1 p2 square_area]; ring. Qed.
Lemma opp_len p : pd p = 3%nat -> L22 (popp p) = L22 p.
Proof. destruct p as [n a b c]; cbn [pd]; intros ->; unfold L22, dot, popp; cbn [pd p0 p1 p2]; ring. Qed.
Lemma a_cell d s : positive d -> face_at d s -> exists p, cell_at d p /\ side_of_cell s p.
Proof.
  intros (P1 & P2 & P3) H. destruct s as [i j k|i j k|i j k]; destruct H as (A & B & C).
  - destruct k as [|k]; [exists (i, j, 0%nat)|exists (i, j, k)]; cbn; lia.
  - destruct j as [|j]; [exists (i, 0%nat, k)|exists (i, j, k)]; cbn; lia.
  - destruct i as [|i]; [exists (0%nat, j, k)|exists (i, j, k)]; cbn; lia.
Qed.
Theorem c81_natural_normal : forall d M gx gy gz X xs g s re, positive d -> box_object d M -> history M (X :: xs) g -> rectilinear d gx gy gz X ->
  increasing (nx d) gx -> increasing (ny d) gy -> increasing (nz d) gz -> face_at d s ->
  face_normal M X g (fid d s) re None = Ok (along_axis s (match s with FXZ _ _ _ => - square_area gx gy gz s | _ => square_area gx gy gz s end), 1%Z).
Proof.
  intros d M gx gy gz X xs g s re Hd HM HG HX IX IY IZ H. destruct (normals_at Hd HM HX IX IY IZ HG s re H) as (z0 & z1 & EN & P0 & P1).
  assert (Z : z0 <> (-1)%Z \/ z1 <> (-1)%Z).
  { destruct (a_cell s Hd H) as (p & Hp & Hs). assert (I := @side_dir d s p Hp Hs). assert (L := cid_lt d p Hp).
    destruct s, (upper_side _ p); cbn [Z.mul Pos.mul Z.opp] in I; first [right; rewrite (proj2 (P1 _ L) I); lia|left; rewrite (proj2 (P0 _ L) I); lia]. }
  assert (A := @face_pos d gx gy gz IX IY IZ s H). assert (LO := own_len gx gy gz s). assert (NZ : square_area gx gy gz s * square_area gx gy gz s <> 0) by nra.
  assert (L0 : L22 (Pt 3 0 0 0) = 0) by (unfold L22, dot; cbn [pd p0 p1 p2]; ring).
  rewrite EN. cbv zeta. cbn [fst snd].
  replace (along_axis s _) with (own_normal gx gy gz s) by (destruct s; unfold own_normal, along_axis; reflexivity).
  destruct (Z.eqb_spec z1 (-1)) as [E1|N1]; cbn [fst snd].
  - destruct (Z.eqb_spec z0 (-1)) as [E0|N0]; [tauto|]. rewrite L0. destruct (Req_EM_T 0 0) as [_|]; [|congruence]. rewrite opp_len, LO by (destruct s; reflexivity).
    destruct (Req_EM_T _ 0); [contradiction|]. do 2 f_equal. destruct s; unfold own_normal, popp; cbn [pd p0 p1 p2]; rewrite ?Ropp_0, ?Ropp_involutive; reflexivity.
  - rewrite LO. destruct (Req_EM_T _ 0); [contradiction|]. reflexivity.
Qed.

(** The volumes add up to the volume of the box. *)
Theorem c81_total_volume : forall d M gx gy gz X xs g re, positive d -> box_object d M -> history M (X :: xs) g -> rectilinear d gx gy gz X ->
  increasing (nx d) gx -> increasing (ny d) gy -> increasing (nz d) gz ->
  exists vs, mapM (fun c => cell_volume M X g c re) (seq 0 (nx d * ny d * nz d)) = Ok vs /\
    Rsum vs = (gx (nx d) - gx 0%nat) * (gy (ny d) - gy 0%nat) * (gz (nz d) - gz 0%nat).
Proof.
  intros d M gx gy gz X xs g re Hd HM HG HX IX IY IZ.
  set (V := fun c => let '(i, j, k) := cpos d c in width gx i * width gy j * width gz k). exists (map V (seq 0 (nx d * ny d * nz d))). split.
  - apply mapM_Ok. assert (L : forall c, In c (seq 0 (nx d * ny d * nz d)) -> (c < ncells d)%nat) by (intros c I; apply in_seq in I; unfold ncells; lia).
    induction (seq _ _) as [|c l IH]; cbn [map]; constructor; [|apply IH; intros; apply L; right; auto].
    destruct (cpos_ok d (L c (or_introl eq_refl))) as [Ca Ci]. unfold V. rewrite <- Ci at 1. destruct (cpos d c) as [[i j] k]. apply (@c81_cells d M gx gy gz X xs g i j k re); auto.
  - change (Rsum (map V (seq 0 (nx d * ny d * nz d)))) with (RS V (ncells d)). rewrite (@RS_cells d (width gx) (width gy) (width gz) V); [rewrite !RS_width; auto|].
    intros i j k H. unfold V. rewrite cpos_cid by auto. reflexivity.
Qed.

(** ** Which cell a point is in *)
Theorem c81_point_in_cell : forall d M gx gy gz X p i j k, positive d -> box_object d M -> rectilinear d gx gy gz X ->
  increasing (nx d) gx -> increasing (ny d) gy -> increasing (nz d) gz -> cell_at d (i, j, k) -> pd p = 3%nat ->
  exists b, point_in_cell M X p (cid d (i, j, k)) = Ok b /\
    (b = true <-> gx i <= p0 p <= gx (i + 1)%nat /\ gy j <= p1 p <= gy (j + 1)%nat /\ gz k <= p2 p <= gz (k + 1)%nat).
Proof.
  intros d M gx gy gz X p i j k Hd HM HX IX IY IZ H Hp. destruct (cell_pos IX IY IZ H) as (A & B & C). apply (box_inside (box_object_caches Hd HM) HX); auto.
Qed.
(** every point of the box is in some cell *)
Theorem c81_some_cell : forall d M gx gy gz X p, positive d -> box_object d M -> rectilinear d gx gy gz X ->
  increasing (nx d) gx -> increasing (ny d) gy -> increasing (nz d) gz -> pd p = 3%nat ->
  ((exists c, (c < nx d * ny d * nz d)%nat /\ point_in_cell M X p c = Ok true) <->
   gx 0%nat <= p0 p <= gx (nx d) /\ gy 0%nat <= p1 p <= gy (ny d) /\ gz 0%nat <= p2 p <= gz (nz d)).
Proof.
  intros d M gx gy gz X p Hd HM HX IX IY IZ Hp. pose proof Hd as (P1 & P2 & P3). split.
  - intros (c & Lc & E). destruct (@cpos_ok d c Lc) as [Ca Ci]. rewrite <- Ci in E. destruct (cpos d c) as [[i j] k]. pose proof Ca as (Q1 & Q2 & Q3).
    destruct (@c81_point_in_cell d M gx gy gz X p i j k Hd HM HX IX IY IZ Ca Hp) as (b & Eb & Hb). rewrite E in Eb. apply Ok_inj in Eb. apply eq_sym in Eb. apply Hb in Eb.
    assert (A1 := @increasing_le _ gx 0 i IX ltac:(lia) ltac:(lia)). assert (A2 := @increasing_le _ gx (i + 1) (nx d) IX ltac:(lia) ltac:(lia)).
    assert (B1 := @increasing_le _ gy 0 j IY ltac:(lia) ltac:(lia)). assert (B2 := @increasing_le _ gy (j + 1) (ny d) IY ltac:(lia) ltac:(lia)).
    assert (C1 := @increasing_le _ gz 0 k IZ ltac:(lia) ltac:(lia)). assert (C2 := @increasing_le _ gz (k + 1) (nz d) IZ ltac:(lia) ltac:(lia)). lra.
  - intros (A & B & C). destruct (@in_interval gx (nx d) (p0 p) P1 A) as (i & Li & Bi). destruct (@in_interval gy (ny d) (p1 p) P2 B) as (j & Lj & Bj). destruct (@in_interval gz (nz d) (p2 p) P3 C) as (k & Lk & Bk).
    assert (Ca : cell_at d (i, j, k)) by (split; auto). exists (cid d (i, j, k)). split; [apply (cid_lt d _ Ca)|].
    destruct (@c81_point_in_cell d M gx gy gz X p i j k Hd HM HX IX IY IZ Ca Hp) as (b & Eb & Hb). rewrite Eb. f_equal. apply Hb. auto.
Qed.
(** a point in two cells lies on an inner grid plane *)
Theorem c81_one_cell : forall d M gx gy gz X p c c', positive d -> box_object d M -> rectilinear d gx gy gz X ->
  increasing (nx d) gx -> increasing (ny d) gy -> increasing (nz d) gz -> pd p = 3%nat ->
  (c < nx d * ny d * nz d)%nat -> (c' < nx d * ny d * nz d)%nat -> c <> c' -> point_in_cell M X p c = Ok true -> point_in_cell M X p c' = Ok true ->
  (exists a, (0 < a < nx d)%nat /\ p0 p = gx a) \/ (exists a, (0 < a < ny d)%nat /\ p1 p = gy a) \/ (exists a, (0 < a < nz d)%nat /\ p2 p = gz a).
Proof.
  intros d M gx gy gz X p c c' Hd HM HX IX IY IZ Hp Lc Lc' N E E'.
  assert (Q : forall c, (c < nx d * ny d * nz d)%nat -> point_in_cell M X p c = Ok true -> exists i j k, cid d (i, j, k) = c /\ cell_at d (i, j, k) /\
    gx i <= p0 p <= gx (i + 1)%nat /\ gy j <= p1 p <= gy (j + 1)%nat /\ gz k <= p2 p <= gz (k + 1)%nat).
  { clear - Hd HM HX IX IY IZ Hp. intros c Lc E. destruct (@cpos_ok d c Lc) as [Ca Ci]. rewrite <- Ci in E. destruct (cpos d c) as [[i j] k]. exists i, j, k. split; auto. split; auto.
    destruct (@c81_point_in_cell d M gx gy gz X p i j k Hd HM HX IX IY IZ Ca Hp) as (b & Eb & Hb). rewrite E in Eb. apply Ok_inj in Eb. apply Hb. auto. }
  apply (Q c Lc) in E as (i & j & k & Ei & (I1 & I2 & I3) & A1 & A2 & A3). apply (Q c' Lc') in E' as (i' & j' & k' & Ei' & (J1 & J2 & J3) & B1 & B2 & B3).
  destruct (Nat.eq_dec i i') as [<-|N1]; [|left; apply (@two_intervals (nx d) gx i i' (p0 p)); auto].
  destruct (Nat.eq_dec j j') as [<-|N2]; [|right; left; apply (@two_intervals (ny d) gy j j' (p1 p)); auto].
  destruct (Nat.eq_dec k k') as [<-|N3]; [|right; right; apply (@two_intervals (nz d) gz k k' (p2 p)); auto]. congruence.
Qed.

(** ** A concrete mesh: 2 x 1 x 1 cells on [0,2] x [0,1] x [0,3] *)
Example c81_witness : exists M X g, construct_box 0 0 0 2 1 3 (mkDims 2 1 1) (Flags true false false false false) = Ok (M, X, g) /\
  cell_volume M X g 1 false = Ok 3 /\ cell_centroid M X g 1 false = Ok (Pt 3 (3 / 2) (/ 2) (3 / 2)) /\
  face_area M X g (fid (mkDims 2 1 1) (FYZ 1 0 0)) false = Ok 3 /\
  (exists o, face_normal M X g (fid (mkDims 2 1 1) (FYZ 1 0 0)) false (Some 1%nat) = Ok (Pt 3 (-3) 0 0, o)) /\
  point_in_cell M X (Pt 3 1 (/ 2) 2) 0 = Ok true /\ point_in_cell M X (Pt 3 1 (/ 2) 2) 1 = Ok true /\ point_in_cell M X (Pt 3 (/ 2) (/ 2) 2) 1 = Ok false.
Proof.
  assert (Hd : positive (mkDims 2 1 1)) by (unfold positive; cbn; lia).
  destruct (@c81_construction 0 0 0 2 1 3 (mkDims 2 1 1) Hd ltac:(lra) ltac:(lra) ltac:(lra)) as (M & X & g & E & BO & HG & RX & IX & IY & IZ). exists M, X, g. split; [exact E|].
  assert (Dx : forall i, division 0 2 2 i = INR i) by (intros i; unfold division; simpl (INR 2); field).
  assert (Dy : forall i, division 0 1 1 i = INR i) by (intros i; unfold division; simpl (INR 1); field).
  assert (Dz : forall i, division 0 3 1 i = 3 * INR i) by (intros i; unfold division; simpl (INR 1); field).
  cbn [nx ny nz] in RX, IX, IY, IZ.
  destruct (@c81_cells _ M _ _ _ X [] g 1 0 0 false Hd BO HG RX IX IY IZ ltac:(cbn; lia)) as [E1 E2].
  destruct (@c81_faces _ M _ _ _ X [] g (FYZ 1 0 0) false Hd BO HG RX IX IY IZ ltac:(cbn; lia)) as [E3 _].
  destruct (@c81_outward_normals _ M _ _ _ X [] g (FYZ 1 0 0) (1, 0, 0)%nat false Hd BO HG RX IX IY IZ ltac:(cbn; lia) ltac:(cbn; lia)) as (fds & o & _ & _ & E4).
  unfold along_axis, square_area, width, middle in *. cbn [upper_side Nat.eqb Nat.add] in *. rewrite !Dx, !Dy, !Dz in *. cbn [INR] in *.
  change (cid (mkDims 2 1 1) (1, 0, 0)%nat) with 1%nat in *.
  split; [rewrite E1; f_equal; lra|]. split; [rewrite E2; do 2 f_equal; field|]. split; [rewrite E3; f_equal; lra|].
  split; [exists o; rewrite E4; do 3 f_equal; lra|].
  assert (PC : forall p i, pd p = 3%nat -> (i < 2)%nat -> exists b, point_in_cell M X p i = Ok b /\ (b = true <-> INR i <= p0 p <= INR i + 1 /\ 0 <= p1 p <= 1 /\ 0 <= p2 p <= 3)).
  { intros p i Hp Hi. destruct (@c81_point_in_cell _ M _ _ _ X p i 0 0 Hd BO RX IX IY IZ ltac:(cbn; lia) Hp) as (b & Eb & Hb).
    rewrite !Dx, !Dy, !Dz, plus_INR in Hb. cbn [INR Nat.add] in Hb. exists b. split; [|rewrite Hb; split; intros; lra].
    rewrite <- Eb. f_equal. cbn [cid]. unfold cell_index. cbn [nx ny]. lia. }
  split; [|split].
  - destruct (PC (Pt 3 1 (/ 2) 2) 0%nat eq_refl ltac:(lia)) as (b & -> & Hb). f_equal. apply Hb. cbn [INR p0 p1 p2]. lra.
  - destruct (PC (Pt 3 1 (/ 2) 2) 1%nat eq_refl ltac:(lia)) as (b & -> & Hb). f_equal. apply Hb. cbn [INR p0 p1 p2]. lra.
  - destruct (PC (Pt 3 (/ 2) (/ 2) 2) 1%nat eq_refl ltac:(lia)) as (b & -> & Hb). f_equal. destruct b; auto. assert (A := proj1 Hb eq_refl). cbn [INR p0 p1 p2] in A. lra.
Qed.
(** C48 for a parallelogram in space with corners o, o+u, o+u+v, o+v: area |u x v|, centroid o + u/2 + v/2, normal u x v *)
Theorem c48_parallelogram : forall o u v, length3 (vprod u v) <> 0 ->
  polygon 3 3 [corner o u v (Pt 3 0 0 0) 0 0 0; corner o u v (Pt 3 0 0 0) 1 0 0; corner o u v (Pt 3 0 0 0) 1 1 0; corner o u v (Pt 3 0 0 0) 0 1 0] =
    Ok (length3 (vprod u v), corner o u v (Pt 3 0 0 0) (/ 2) (/ 2) 0, vprod u v).
Proof. intros o u v H. apply parallelogram; auto. Qed.
