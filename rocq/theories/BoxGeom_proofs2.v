(** The values of the geometry functions on a rectilinear box mesh. *)
From Coq Require Import Reals Lra Permutation.
From Verif Require Import Base Loop Defs Factory SimpleMesh SimpleMesh_spec SimpleMesh_proofs SimpleMesh_proofs2 SimpleMesh_proofs3 SimpleMesh_proofs4
  SimpleTopo SimpleGeom Props_SimpleMesh Cache Cache_spec Cache_proofs Cache_proofs5 Point Geometry Geometry_spec Geometry_proofs Polyhedron_proofs Props_Polygon3D Props_Polyhedron
  MeshGeom BoxGeom BoxGeom_spec MeshGeom_spec MeshGeom_proofs MeshGeom_proofs2 Props_Cache BoxGeom_proofs.
Set Implicit Arguments.
Local Open Scope R_scope.
Local Notation ncells := SimpleMesh_proofs2.ncells.
Local Notation nfaces := SimpleMesh_proofs2.nfaces.
Local Notation nnodes := SimpleMesh_proofs2.nnodes.

(** the vector product *)
Definition vprod (u v : point) : point := Pt 3 (p1 u * p2 v - p2 u * p1 v) (p2 u * p0 v - p0 u * p2 v) (p0 u * p1 v - p1 u * p0 v).
(** a parallelogram: exact area, centre and normal *)
Lemma parallelogram o u v l : length3 (vprod u v) <> 0 -> l = [corner o u v (Pt 3 0 0 0) 0 0 0; corner o u v (Pt 3 0 0 0) 1 0 0; corner o u v (Pt 3 0 0 0) 1 1 0; corner o u v (Pt 3 0 0 0) 0 1 0] ->
  polygon 3 3 l = Ok (length3 (vprod u v), corner o u v (Pt 3 0 0 0) (/ 2) (/ 2) 0, vprod u v).
Proof.
  intros NZ ->. set (l := [_; _; _; _]).
  assert (D : all_dim 3 l) by (intros p I; unfold l in I; cbn [In] in I; repeat (destruct I as [<-|I]; [reflexivity|]); destruct I).
  rewrite polygon3 by (auto; cbn; lia). set (m := corner o u v (Pt 3 0 0 0) (/ 2) (/ 2) 0).
  assert (EM : mean l = m). { unfold mean, m, l, corner, sum_of. cbn [map rsum length INR p0 p1 p2]. f_equal; field. } rewrite EM.
  assert (EA : forall e, In e (edges l) -> alen m e = length3 (vprod u v) / 4).
  { intros e I. assert (EV : vtri m e = Pt 3 (p0 (vprod u v) / 4) (p1 (vprod u v) / 4) (p2 (vprod u v) / 4)).
    { unfold l in I. cbn [edges steps In] in I. unfold vtri, vtri0, vtri1, vtri2, P3, vprod, m. repeat (destruct I as [<-|I]; [unfold corner; cbn [fst snd p0 p1 p2]; f_equal; field|]). destruct I. }
    unfold alen. rewrite EV. unfold length3. cbn [p0 p1 p2]. generalize (p0 (vprod u v)) (p1 (vprod u v)) (p2 (vprod u v)). intros a b c.
    replace (a / 4 * (a / 4) + b / 4 * (b / 4) + c / 4 * (c / 4)) with ((a * a + b * b + c * c) * (/ 4 * / 4)) by field. rewrite sqrt_mult_alt by nra. rewrite sqrt_square by lra. field. }
  assert (ES : sum_of (alen m) (edges l) = length3 (vprod u v)).
  { rewrite (@sum_ext _ _ (fun _ => length3 (vprod u v) / 4)) by auto. rewrite sum_const. unfold l. cbn [edges steps length INR]. field. }
  assert (EC : forall f, coord f -> sum_of (mom3 f m) (edges l) = length3 (vprod u v) * f m).
  { intros f Hf. unfold mom3. rewrite (@sum_ext _ _ (fun e => length3 (vprod u v) / 12 * (f (fst e) + f (snd e) + f m))) by (intros e I; rewrite EA by auto; field).
    rewrite sum_scale. replace (sum_of _ _) with (12 * f m); [field|]. unfold sum_of, l. cbn [edges steps map rsum fst snd]. destruct Hf as [->|[->| ->]]; unfold m, corner; cbn [p0 p1 p2]; field. }
  rewrite ES, !EC by (unfold coord; auto). do 2 f_equal; [f_equal|].
  - unfold diveq, P3. cbn [pd pmap p0 p1 p2]. unfold m at 4, corner. f_equal; unfold m, corner; cbn [p0 p1 p2]; field; auto.
  - unfold varea, vprod, l, sum_of. cbn [edges steps map rsum fst snd]. unfold corner. cbn [p0 p1 p2]. f_equal; field.
Qed.

Lemma flag_sign b v : (b = true -> v <= 0) -> flag b v = v.
Proof. intros H. unfold flag. destruct b; cbn [andb]; auto. unfold gtb. specialize (H eq_refl). destruct (Rlt_dec 0 v); auto. lra. Qed.

Section Grid.
Variables (d : dims) (M : gmesh) (gx gy gz : nat -> R) (X : coordinates).
Hypothesis BC : box_caches d M.
Hypothesis RX : rectilinear d gx gy gz X.
Definition gp (q : pos3) : point := let '(i, j, k) := q in Pt 3 (gx i) (gy j) (gz k).

Lemma grid_nodes qs : (forall q, In q qs -> node_at d q) -> mapM (rd X) (map (nid d) qs) = Ok (map gp qs).
Proof.
  intros H. induction qs as [|q qs IH]; cbn [map mapM]; auto. rewrite IH by (intros; apply H; right; auto).
  assert (Hq := H q (or_introl eq_refl)). destruct q as [[i j] k]. rewrite (proj2 (rd_Ok _ _ _) (proj2 RX i j k Hq)). reflexivity.
Qed.
Lemma grid_face s : face_at d s -> face_get_coordinates M X (fid d s) = Ok (map gp (corners4 s)).
Proof.
  intros H. unfold face_get_coordinates. rewrite (bc_fn BC) by (apply fid_lt; auto). cbn [bind]. unfold fn3. rewrite fpos_fid by auto. apply grid_nodes. apply corners4_at; auto.
Qed.
Lemma grid_cell p : cell_at d p -> cell_get_coordinates M X (cid d p) = Ok (map gp (corners8 p)).
Proof.
  intros H. unfold cell_get_coordinates. rewrite (bc_cn BC) by (apply cid_lt; auto). cbn [bind]. unfold cn3. rewrite cpos_cid by auto. apply grid_nodes. apply corners8_at; auto.
Qed.
Lemma grid_cf p : cell_at d p -> Cache.cell_get_faces_and_dirs (gm M) (cid d p) = Ok (combine (map (fid d) (sides6 p)) dirs6).
Proof. intros H. rewrite (bc_cf BC) by (apply cid_lt; auto). unfold cf3. rewrite cpos_cid by auto. reflexivity. Qed.
(** the faces of a cell seen from outside *)
Definition outside6 (p : pos3) : list (list pos3) :=
  let '(i, j, k) := p in
  [corners4 (FXZ i j k); corners4 (FYZ (i + 1) j k); rev (corners4 (FXZ i (j + 1) k)); rev (corners4 (FYZ i j k)); rev (corners4 (FXY i j k)); corners4 (FXY i j (k + 1))].
Lemma grid_faces p : cell_at d p -> mapM (cell_face_coordinates M X) (combine (map (fid d) (sides6 p)) dirs6) = Ok (map (map gp) (outside6 p)).
Proof.
  intros H. assert (A := sides6_at d p H). destruct p as [[i j] k]. unfold dirs6. cbn [sides6 map combine mapM outside6] in *.
  unfold cell_face_coordinates. cbn [fst snd]. rewrite !grid_face by (apply A; cbn; tauto). cbn [bind Z.eqb Pos.eqb map rev app corners4]. reflexivity.
Qed.

Lemma grid_cell_geom i j k : cell_at d (i, j, k) -> width gx i * width gy j * width gz k <> 0 ->
  compute_cell_geometry M X (cid d (i, j, k)) = Ok (width gx i * width gy j * width gz k, Pt 3 (middle gx i) (middle gy j) (middle gz k)).
Proof.
  intros H NZ. unfold compute_cell_geometry. rewrite (bc_mdim BC), (bc_sdim BC), grid_cf by auto. cbn [bind]. rewrite grid_faces by auto. cbn [bind]. rewrite grid_cell by auto. cbn [bind].
  set (F := map (map gp) (outside6 (i, j, k))). change (length (combine (map (fid d) (sides6 (i, j, k))) dirs6)) with (length F).
  assert (D : all3 F). { intros f Hf p Hp. unfold F, outside6 in Hf. cbn [map corners4 rev app In] in Hf. repeat (destruct Hf as [<-|Hf]; [cbn [In] in Hp; repeat (destruct Hp as [<-|Hp]; [reflexivity|]); contradiction|]). contradiction. }
  rewrite polyhed_eq by (auto; cbn; lia). cbv zeta. set (m := Pt 3 (middle gx i) (middle gy j) (middle gz k)). set (V := width gx i * width gy j * width gz k) in *.
  assert (EM : mean (map gp (corners8 (i, j, k))) = m). { unfold mean, m, sum_of, middle. cbn [corners8 map rsum length INR gp p0 p1 p2]. f_equal; field. } rewrite EM.
  assert (ET : forall t, In t (all_tris F) -> tdet m t = V / 4).
  { intros t Ht. unfold F, outside6, all_tris in Ht. cbn [map corners4 rev app flat_map tris edges steps fst snd In gp] in Ht.
    repeat (destruct Ht as [<-|Ht]; [unfold tdet, det3, m, mean, sum_of, V, width, middle; cbn [map rsum length INR p0 p1 p2]; field|]). contradiction. }
  assert (EV : sum_of (tdet m) (all_tris F) = 6 * V). { rewrite (@sum_ext _ _ (fun _ => V / 4)) by auto. rewrite sum_const. cbn [F map outside6 corners4 rev all_tris flat_map tris edges steps app length INR]. field. }
  assert (EC : forall f, coord f -> sum_of (tmom f m) (all_tris F) = 6 * V * f m).
  { intros f Hf. unfold tmom. rewrite (@sum_ext _ _ (fun t => V / 4 * (let '(a, b, c) := t in (f m + f a + f b + f c) / 4))) by (intros [[a b] c] Ht; rewrite ET by auto; auto).
    rewrite sum_scale. replace (sum_of _ _) with (24 * f m); [field|].
    unfold sum_of, all_tris, F. cbn [outside6 corners4 rev flat_map tris edges steps app map rsum fst snd gp]. destruct Hf as [->|[->| ->]]; unfold m, mean, sum_of, middle; cbn [map rsum length INR p0 p1 p2]; field. }
  rewrite EV, !EC by (unfold coord; auto). rewrite flag_sign.
  - do 2 f_equal; [field|]. unfold diveq, Props_Polygon3D.P3. cbn [pd pmap p0 p1 p2]. unfold m. cbn [p0 p1 p2]. f_equal; field; auto.
  - intros E. apply existsb_exists in E as (t & Ht & T). apply leb_iff in T. rewrite ET in T by auto. lra.
Qed.

(** the normal of a face in its own direction *)
Definition own_normal (s : sface) : point :=
  let A := square_area gx gy gz s in match s with FXY _ _ _ => Pt 3 0 0 A | FXZ _ _ _ => Pt 3 0 (- A) 0 | FYZ _ _ _ => Pt 3 A 0 0 end.
Lemma grid_polygon s : square_area gx gy gz s <> 0 ->
  polygon 3 3 (map gp (corners4 s)) = Ok (Rabs (square_area gx gy gz s), square_centre gx gy gz s, own_normal s).
Proof.
  intros NZ.
  assert (L : forall x y z, x * y = 0 -> y * z = 0 -> x * z = 0 -> length3 (Pt 3 x y z) = Rabs (x + y + z)).
  { intros x y z E1 E2 E3. unfold length3. cbn [p0 p1 p2]. replace (x * x + y * y + z * z) with ((x + y + z) * (x + y + z)) by nra. apply sqrt_Rsqr_abs. }
  assert (G : forall o u v, length3 (vprod u v) = Rabs (square_area gx gy gz s) ->
     map gp (corners4 s) = [corner o u v (Pt 3 0 0 0) 0 0 0; corner o u v (Pt 3 0 0 0) 1 0 0; corner o u v (Pt 3 0 0 0) 1 1 0; corner o u v (Pt 3 0 0 0) 0 1 0] ->
     polygon 3 3 (map gp (corners4 s)) = Ok (Rabs (square_area gx gy gz s), corner o u v (Pt 3 0 0 0) (/ 2) (/ 2) 0, vprod u v)).
  { intros o u v EL E. rewrite (@parallelogram o u v _) by (auto; rewrite EL; apply Rabs_no_R0; auto). rewrite EL. auto. }
  destruct s as [i j k|i j k|i j k].
  - rewrite (G (Pt 3 (gx i) (gy j) (gz k)) (Pt 3 (width gx i) 0 0) (Pt 3 0 (width gy j) 0)).
    + unfold corner, vprod, own_normal, square_centre, square_area, middle, width. cbn [p0 p1 p2]. do 2 f_equal; [f_equal|]; f_equal; field.
    + unfold vprod. cbn [p0 p1 p2]. rewrite L by ring. f_equal. unfold square_area. ring.
    + cbn [corners4 map gp]. unfold corner, width. cbn [p0 p1 p2]. repeat f_equal; ring.
  - rewrite (G (Pt 3 (gx i) (gy j) (gz k)) (Pt 3 (width gx i) 0 0) (Pt 3 0 0 (width gz k))).
    + unfold corner, vprod, own_normal, square_centre, square_area, middle, width. cbn [p0 p1 p2]. do 2 f_equal; [f_equal|]; f_equal; field.
    + unfold vprod. cbn [p0 p1 p2]. rewrite L by ring. rewrite <- Rabs_Ropp. f_equal. unfold square_area. ring.
    + cbn [corners4 map gp]. unfold corner, width. cbn [p0 p1 p2]. repeat f_equal; ring.
  - rewrite (G (Pt 3 (gx i) (gy j) (gz k)) (Pt 3 0 (width gy j) 0) (Pt 3 0 0 (width gz k))).
    + unfold corner, vprod, own_normal, square_centre, square_area, middle, width. cbn [p0 p1 p2]. do 2 f_equal; [f_equal|]; f_equal; field.
    + unfold vprod. cbn [p0 p1 p2]. rewrite L by ring. f_equal. unfold square_area. ring.
    + cbn [corners4 map gp]. unfold corner, width. cbn [p0 p1 p2]. repeat f_equal; ring.
Qed.

Lemma cf3_dirs_nodup c : (c < ncells d)%nat -> NoDup (map fst (combine (cf3 d c) dirs6)).
Proof.
  intros H. replace (map fst (combine (cf3 d c) dirs6)) with (cf3 d c); [apply cf3_nd; auto|]. unfold cf3, dirs6. destruct (cpos d c) as [[i j] k]. reflexivity.
Qed.
Lemma grid_dir c f v : (c < ncells d)%nat -> In (f, v) (combine (cf3 d c) dirs6) -> cell_face_dir M c f = Ok v.
Proof. intros H I. unfold cell_face_dir. rewrite (bc_cf BC) by auto. cbn [bind]. apply find_dir_in; auto. apply cf3_dirs_nodup; auto. Qed.
Lemma grid_set_normals f n n0 n1 : (f < nfaces d)%nat -> exists z0 z1,
  set_normals M f n n0 n1 = Ok (if (z1 =? -1)%Z then n0 else n, if (z0 =? -1)%Z then n1 else popp n) /\
  (forall c, (c < ncells d)%nat -> z0 = Z.of_nat c <-> In (f, (-1)%Z) (combine (cf3 d c) dirs6)) /\
  (forall c, (c < ncells d)%nat -> z1 = Z.of_nat c <-> In (f, 1%Z) (combine (cf3 d c) dirs6)) /\
  (z0 = (-1)%Z \/ exists c, (c < ncells d)%nat /\ z0 = Z.of_nat c) /\ (z1 = (-1)%Z \/ exists c, (c < ncells d)%nat /\ z1 = Z.of_nat c).
Proof.
  intros H. destruct (bc_fc BC H) as (z0 & z1 & E & P0 & P1 & R0 & R1). exists z0, z1. split; [|auto]. unfold set_normals. rewrite E. cbn [bind].
  assert (D0 : z0 <> (-1)%Z -> cell_face_dir M (Z.to_nat z0) f = Ok (-1)%Z).
  { intros N. destruct R0 as [->|(c & Lc & Ec)]; [congruence|]. rewrite Ec, Nat2Z.id. apply grid_dir; auto. apply P0; auto. }
  assert (D1 : z1 <> (-1)%Z -> cell_face_dir M (Z.to_nat z1) f = Ok 1%Z).
  { intros N. destruct R1 as [->|(c & Lc & Ec)]; [congruence|]. rewrite Ec, Nat2Z.id. apply grid_dir; auto. apply P1; auto. }
  unfold cellz. destruct (Z.eqb_spec z0 (-1)) as [E0|N0], (Z.eqb_spec z1 (-1)) as [E1|N1]; cbn [app foldM bind fst snd]; auto.
  - rewrite D1 by auto. reflexivity.
  - rewrite D0 by auto. reflexivity.
  - rewrite D0, D1 by auto. reflexivity.
Qed.
Lemma grid_face_geom s : face_at d s -> square_area gx gy gz s <> 0 -> exists z0 z1,
  compute_face_geometry M X (fid d s) = Ok (Rabs (square_area gx gy gz s), square_centre gx gy gz s,
     (if (z1 =? -1)%Z then Pt 3 0 0 0 else own_normal s, if (z0 =? -1)%Z then Pt 3 0 0 0 else popp (own_normal s))) /\
  (forall c, (c < ncells d)%nat -> z0 = Z.of_nat c <-> In (fid d s, (-1)%Z) (combine (cf3 d c) dirs6)) /\
  (forall c, (c < ncells d)%nat -> z1 = Z.of_nat c <-> In (fid d s, 1%Z) (combine (cf3 d c) dirs6)) /\
  (z0 = (-1)%Z \/ exists c, (c < ncells d)%nat /\ z0 = Z.of_nat c) /\ (z1 = (-1)%Z \/ exists c, (c < ncells d)%nat /\ z1 = Z.of_nat c).
Proof.
  intros H NZ. destruct (@grid_set_normals (fid d s) (own_normal s) (Pt 3 0 0 0) (Pt 3 0 0 0) (fid_lt d s H)) as (z0 & z1 & E & R). exists z0, z1. split; auto.
  unfold compute_face_geometry. rewrite (bc_mdim BC), (bc_sdim BC). cbn [pset pzero pd bind]. rewrite grid_face by auto. cbn [bind]. rewrite grid_polygon by auto. cbn [bind snd fst]. rewrite E. reflexivity.
Qed.
Lemma grid_total g : (forall i j k, cell_at d (i, j, k) -> width gx i * width gy j * width gz k <> 0) -> (forall s, face_at d s -> square_area gx gy gz s <> 0) ->
  exists g', update_geometric_quantities M X g = Ok g'.
Proof.
  intros HC HF. unfold update_geometric_quantities. rewrite (bc_flag BC), (bc_edges BC), (bc_sides BC), (bc_wedges BC), (bc_corners BC). cbn [orb].
  unfold compute_faces. rewrite (bc_nfaces BC). destruct (@mapM_exists _ _ (compute_face_geometry M X) (seq 0 (nfaces d))) as [lf Elf].
  { intros f I. apply in_seq in I. destruct (@fpos_ok d f) as [Fa Fi]; [lia|]. rewrite <- Fi. destruct (grid_face_geom _ Fa (HF _ Fa)) as (z0 & z1 & E & _). eauto. }
  rewrite Elf. cbn [bind]. unfold compute_cells. rewrite (bc_ncells BC). destruct (@mapM_exists _ _ (cell_entry M X) (seq 0 (ncells d))) as [lc Elc].
  { intros c I. apply in_seq in I. destruct (@cpos_ok d c) as [Ca Ci]; [lia|]. unfold cell_entry. rewrite (bc_types BC) by lia. cbn [bind]. rewrite <- Ci.
    destruct (cpos d c) as [[i j] k]. rewrite grid_cell_geom by auto. eauto. }
  rewrite Elc. cbn [bind]. eauto.
Qed.
(** what an update leaves *)
Lemma grid_updated g g' : update_geometric_quantities M X g = Ok g' -> g_cok g' = true /\ g_fok g' = true /\
  (forall c, (c < ncells d)%nat -> exists r, compute_cell_geometry M X c = Ok r /\ rd (g_cvol g') c = Ok (fst r) /\ rd (g_ccen g') c = Ok (snd r)) /\
  (forall f, (f < nfaces d)%nat -> exists r, compute_face_geometry M X f = Ok r /\ rd (g_farea g') f = Ok (fst (fst r)) /\ rd (g_fcen g') f = Ok (snd (fst r)) /\
      rd (g_n0 g') f = Ok (fst (snd r)) /\ rd (g_n1 g') f = Ok (snd (snd r))).
Proof.
  unfold update_geometric_quantities. rewrite (bc_flag BC), (bc_edges BC), (bc_sides BC), (bc_wedges BC), (bc_corners BC). cbn [orb]. intros E.
  apply bind_inv in E as [g1 [E1 E]]. unfold compute_faces in E1. apply bind_inv in E1 as [lf [Elf E1]]. apply Ok_inj in E1. subst g1. cbn [bind] in E.
  apply bind_inv in E as [g2 [E2 E]]. unfold compute_cells in E2. apply bind_inv in E2 as [lc [Elc E2]]. apply Ok_inj in E2. cbn [bind] in E. apply Ok_inj in E. subst g2 g'.
  cbn [g_cok g_fok g_cvol g_ccen g_farea g_fcen g_n0 g_n1]. do 2 (split; [reflexivity|]). rewrite (bc_nfaces BC) in Elf. rewrite (bc_ncells BC) in Elc.
  destruct (mapM_seq _ _ Elf) as [_ QF]. destruct (mapM_seq _ _ Elc) as [_ QC]. split.
  - intros c Lc. destruct (QC c Lc) as (r & Er & Nr). unfold cell_entry in Er. rewrite (bc_types BC) in Er by auto. cbn [bind] in Er. exists r. split; auto. split; apply rd_map; auto.
  - intros f Lf. destruct (QF f Lf) as (r & Er & Nr). exists r. split; auto.
    split; [apply (@rd_map _ _ (fun r : R * point * (point * point) => fst (fst r))); auto|]. split; [apply (@rd_map _ _ (fun r : R * point * (point * point) => snd (fst r))); auto|].
    split; [apply (@rd_map _ _ (fun r : R * point * (point * point) => fst (snd r))); auto|apply (@rd_map _ _ (fun r : R * point * (point * point) => snd (snd r))); auto].
Qed.
End Grid.
