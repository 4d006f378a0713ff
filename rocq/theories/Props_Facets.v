(** C61: face normals point out of convex cells; C72: the facet normals of a face's sides add up to the face normal; C73: the face normals of a
    cell add up to zero, and the divergence theorem. *)
From Coq Require Import Reals Permutation Lra.
From Verif Require Import Base Loop Defs Factory Cache Cache_spec Cache_proofs Cache_proofs2 Cache_proofs4 Cache_proofs5 Cache_proofs6 Props_Cache Point Geometry Geometry_spec Geometry_proofs
  Props_Polygon Props_Polygon3D Polyhedron_proofs Props_Polyhedron Props_InPolygon MeshGeom MeshGeom_spec MeshGeom_proofs MeshGeom_proofs2 MeshGeom_proofs3 MeshGeom_examples Props_MeshUpdate Props_FaceNormal
  Props_SideVolume Props_SideVolume2D.
Set Implicit Arguments.
Local Open Scope R_scope.

Section S.
Variables (t : topo) (sh : shape) (fl : flags) (M : gmesh) (fn cv : nat -> list nat) (X : coordinates) (xs : list coordinates) (g : geo).
Hypothesis G : geom_mesh t sh fl M fn cv.
Hypothesis O : oriented t sh fn cv.
Hypothesis HX : coords_ok t X.
Hypothesis H : history M (X :: xs) g.
(** the outward normal of a face of a cell *)
Definition onormal (fd : nat * Z) : point := turned (snd fd) (natural t fn X (fst fd)).
Lemma face_normal_at c fd re : (c < ncells t)%nat -> In fd (cfaces sh c) -> face_normal M X g (fst fd) re (Some c) = Ok (onormal fd, snd fd).
Proof.
  intros Hc I. destruct fd as [f d]. destruct (cn_face (gm_conn G) _ _ Hc I) as [Hf _]. apply (@c61_normal_of_a_cell t sh fl M fn cv X xs g c f d re G HX H Hc I). intros D. apply (or_face3 O D Hf).
Qed.
Lemma onormal3 fd : tp_mdim t = 3%nat -> onormal fd = varea (out_face fn X fd).
Proof. intros D. rewrite out_varea. unfold onormal, natural. rewrite D. auto. Qed.
Lemma onormal2 fd : tp_mdim t = 2%nat -> (fst fd < nfaces t)%nat -> onormal fd = right_normal (nth (nth 0 (node_face fn fd) 0%nat) X (Pt 0 0 0 0)) (nth (nth 1 (node_face fn fd) 0%nat) X (Pt 0 0 0 0)).
Proof.
  intros D Hf. unfold onormal, natural. rewrite D. cbn [Nat.eqb]. assert (L := gq_two G D Hf). destruct (two_list _ L) as (a & b & E). unfold node_face. rewrite E. cbn [at_nodes map nth].
  unfold turned. destruct (snd fd =? 1)%Z; [reflexivity|]. cbn [rev app nth]. unfold popp, right_normal. cbn [pd p0 p1 p2]. f_equal; ring.
Qed.
Lemma onormals2 (q : point -> R) c : tp_mdim t = 2%nat -> (c < ncells t)%nat ->
  sum_of (fun fd => q (onormal fd)) (cfaces sh c) = sum_of (fun e => q (right_normal (fst e) (snd e))) (edges (at_nodes X (cv c))).
Proof.
  intros D Hc. destruct (or_cell2 O D Hc) as [_ P]. unfold at_nodes. rewrite edges_map, sum_map, <- (sum_perm _ P), sum_map. apply sum_ext. intros [f d] I. cbn [fst snd].
  destruct (cn_face (gm_conn G) _ _ Hc I) as [Hf _]. rewrite onormal2; auto.
Qed.
Lemma pd2_zero fd : tp_mdim t = 2%nat -> p2 (onormal fd) = 0.
Proof. intros D. unfold onormal, natural, turned, popp, right_normal. rewrite D. cbn [Nat.eqb]. destruct (snd fd =? 1)%Z; reflexivity. Qed.
(** sums of the outward normals *)
Lemma normals_close c : (c < ncells t)%nat -> vsum (Pt (tp_mdim t) 0 0 0) (map onormal (cfaces sh c)).
Proof.
  intros Hc. unfold vsum. cbn [p0 p1 p2]. rewrite !sum_map. destruct (gq_dim G) as [D|D].
  - rewrite !onormals2 by auto. unfold right_normal. cbn [p0 p1 p2]. split; [|split].
    + symmetry. apply (sum_cycle p1).
    + rewrite (@sum_ext _ _ (fun e => (-1) * (p0 (snd e) - p0 (fst e)))) by (intros; ring). rewrite sum_scale, (sum_cycle p0). ring.
    + rewrite sum_const. ring.
  - assert (C := @out_closed t sh fn cv X O c D Hc).
    assert (K : forall q : point * point -> R, (forall a b, q (b, a) = - q (a, b)) -> sum_of (fun fd => sum_of q (edges (out_face fn X fd))) (cfaces sh c) = 0).
    { intros q Hq. rewrite <- (closed_sum q Hq C). unfold out_faces. rewrite sum_flat, sum_map. auto. }
    rewrite !(fun (q : point -> R) => @sum_ext _ (fun fd => q (onormal fd)) (fun fd => q (varea (out_face fn X fd))) (cfaces sh c) (fun fd _ => f_equal q (onormal3 fd D))).
    unfold varea. cbn [p0 p1 p2]. repeat split; symmetry; apply K; intros a b; cbn [fst snd]; field.
Qed.
Lemma divergence3 c o : tp_mdim t = 3%nat -> (c < ncells t)%nat -> (forall f, face_of sh c f -> flat (at_nodes X (fn f))) ->
  sum_of (fun fd => dot3 (onormal fd) (nth (fst fd) (g_fcen g) (Pt 0 0 0 0)) - dot3 (onormal fd) o) (cfaces sh c) = 3 * volume_from o (out_faces sh fn X c).
Proof.
  intros D Hc F. rewrite volume_sum. unfold out_faces. rewrite sum_map. match goal with |- _ = 3 * (?a / 6) => replace (3 * (a / 6)) with (/ 2 * a) by field end. rewrite <- sum_scale. apply sum_ext.
  intros fd I. destruct fd as [f d]. destruct (cn_face (gm_conn G) _ _ Hc I) as [Hf _].
  rewrite (tris_sum o (out_face fn X (f, d))) by (assert (K := @out_face_length t sh fn cv X O (f, d) D Hf); lia). rewrite onormal3 by auto. cbn [fst].
  destruct (face_centre G H Hf) as (A & C & nn & Ef & Nf). rewrite (nth_error_nth _ _ _ Nf). assert (Q := @flat_face t sh fl M fn cv X G O HX f A C nn Hf D (F f (in_map fst _ _ I)) Ef).
  assert (Q' : dot3 (varea (out_face fn X (f, d))) C = dot3 (varea (out_face fn X (f, d))) (mean (out_face fn X (f, d)))).
  { rewrite out_varea, out_mean. cbn [fst snd]. unfold turned. destruct (d =? 1)%Z; auto. unfold popp, dot3 in *. cbn [pd varea p0 p1 p2] in *. lra. }
  rewrite Q'. field.
Qed.
Lemma face_centre2 f C : tp_mdim t = 2%nat -> (f < nfaces t)%nat -> nth_error (g_fcen g) f = Some C ->
  exists a b, fn f = [a; b] /\ p0 C = (p0 (node X a) + p0 (node X b)) / 2 /\ p1 C = (p1 (node X a) + p1 (node X b)) / 2.
Proof.
  intros D Hf N. destruct (face_centre G H Hf) as (A & C' & nn & Ef & Nf). rewrite N in Nf. injection Nf as <-.
  unfold compute_face_geometry in Ef. rewrite (zeros G) in Ef. cbn [bind] in Ef. rewrite (gm_mdim G), D in Ef. rewrite (@face_coords t sh fl M fn cv X G HX f Hf) in Ef. cbn [bind] in Ef.
  assert (L := gq_two G D Hf). destruct (two_list _ L) as (a & b & E). exists a, b. split; auto. rewrite E in Ef. cbn [at_nodes map rd nth_error bind] in Ef.
  rewrite (gq_sdim G), D in Ef. cbn [Nat.eqb] in Ef. apply bind_inv in Ef as (r & _ & Ef). injection Ef as _ <- _.
  assert (Dm := @face_dim t sh fl M fn cv X G HX f Hf). rewrite E, D in Dm. cbn [at_nodes map] in Dm. assert (Da : pd (node X a) = 2%nat) by (apply Dm; simpl; auto).
  unfold node in *. unfold smul, padd. rewrite Da. cbn [p0 p1 pd]. split; field.
Qed.
Lemma divergence2 c o : tp_mdim t = 2%nat -> (c < ncells t)%nat ->
  sum_of (fun fd => let n := onormal fd in let m := nth (fst fd) (g_fcen g) (Pt 0 0 0 0) in p0 n * (p0 m - p0 o) + p1 n * (p1 m - p1 o)) (cfaces sh c) = 2 * shoelace (at_nodes X (cv c)).
Proof.
  intros D Hc. cbv zeta. rewrite <- (sum_tri_shoelace o), <- sum_scale. destruct (or_cell2 O D Hc) as [_ P]. unfold at_nodes. rewrite edges_map, sum_map, <- (sum_perm _ P), sum_map. apply sum_ext. intros [f d] I. cbn [fst snd].
  destruct (cn_face (gm_conn G) _ _ Hc I) as [Hf _]. rewrite onormal2; auto. destruct (face_centre G H Hf) as (A & C & nn & _ & Nf). rewrite (nth_error_nth _ _ _ Nf).
  destruct (face_centre2 D Hf Nf) as (a & b & E & -> & ->). unfold node_face. cbn [fst snd]. rewrite E. unfold right_normal, tri_area, node. destruct (d =? 1)%Z; cbn [rev app nth p0 p1]; field.
Qed.
Lemma mapM_normals c re : (c < ncells t)%nat -> cell_get_faces_and_dirs (gm M) c = Ok (cfaces sh c) /\
  mapM (fun fd => r <- face_normal M X g (fst fd) re (Some c) ;; Ok (fst r)) (cfaces sh c) = Ok (map onormal (cfaces sh c)).
Proof.
  intros Hc. split; [apply (cell_faces G Hc)|]. assert (K : forall fd, In fd (cfaces sh c) -> face_normal M X g (fst fd) re (Some c) = Ok (onormal fd, snd fd)) by (intros; apply face_normal_at; auto).
  induction (cfaces sh c) as [|fd l IH]; auto. cbn [mapM map]. rewrite K by (simpl; auto). cbn [bind fst]. rewrite IH by (intros; apply K; simpl; auto). auto.
Qed.
(** the sides of a cell on one of its faces *)
Lemma sides_at c fd : (c < ncells t)%nat -> In fd (cfaces sh c) -> exists ss, NoDup ss /\ (forall s, In s ss <-> (s < n_sides (gm M))%nat /\ side_get_cell (gm M) s = Ok c /\ side_get_face (gm M) s = Ok (fst fd)) /\
  Forall2 (fun s x => nth_error (trips t sh) s = Some x) ss (trips_at sh c fd).
Proof.
  intros Hc I. exists (idxs (fun x => (tcell x =? c) && (tface x =? fst fd))%nat (trips t sh)). split; [apply idxs_NoDup|]. split.
  - intros s. rewrite in_idxs, (n_sides_eq (gq_built G)). split.
    + intros (x & Nx & E). apply andb_true_iff in E as [E1 E2]. apply Nat.eqb_eq in E1, E2. destruct (side_at (gq_built G) _ Nx) as (S1 & S2 & _). rewrite S1, S2, E1, E2. split; auto. apply nth_error_lt in Nx. auto.
    + intros (L & S1 & S2). destruct (nth_error (trips t sh) s) as [x|] eqn:Nx; [|apply nth_error_None in Nx; lia]. exists x. split; auto. destruct (side_at (gq_built G) _ Nx) as (S1' & S2' & _). 
      apply andb_true_iff. split; apply Nat.eqb_eq; congruence.
  - assert (E : filter (fun x => (tcell x =? c) && (tface x =? fst fd))%nat (trips t sh) = trips_at sh c fd); [|rewrite <- E; apply idxs_filter].
    assert (Ef : forall l, filter (fun x : trip => (tcell x =? c) && (tface x =? fst fd))%nat l = filter (fun x => tface x =? fst fd)%nat (filter (fun x => tcell x =? c)%nat l)).
    { induction l as [|x l IH]; auto. cbn [filter]. destruct (tcell x =? c)%nat; cbn [andb filter]; rewrite IH; auto. }
    rewrite Ef, cell_trips by (auto; apply (fm_numbered (gm_fm G))). unfold trips_of. rewrite filter_flat. assert (ND := cn_face_nodup (gm_conn G) Hc).
    rewrite <- (@flat_single _ _ (trips_at sh c) (fun fd' => fst fd' =? fst fd)%nat (cfaces sh c) fd).
    + apply flat_map_ext. intros fd'. destruct (Nat.eqb_spec (fst fd') (fst fd)) as [Eq|N].
      * apply filter_true. intros x Hx. apply in_map_iff in Hx as (ed & <- & _). apply Nat.eqb_eq. auto.
      * apply filter_false. intros x Hx. apply in_map_iff in Hx as (ed & <- & _). apply Nat.eqb_neq. auto.
    + apply (NoDup_map_inv fst). auto.
    + auto.
    + intros b Hb. rewrite Nat.eqb_eq. split; [|intros ->; auto]. intros Eq. revert ND I Hb Eq. clear. induction (cfaces sh c) as [|y l IH]; intros ND I Hb Eq; [destruct I|]. cbn [map] in ND. apply NoDup_cons_iff in ND as [N1 N2].
      destruct I as [->|I], Hb as [->|Hb]; auto; [destruct N1; rewrite <- Eq; apply in_map; auto|destruct N1; rewrite Eq; apply in_map; auto].
Qed.
Lemma side_out2 s x : tp_mdim t = 2%nat -> nth_error (trips t sh) s = Some x -> side_facet_normal M X g s true = Ok (onormal (snd (fst x))).
Proof.
  intros D Hx. destruct (fresh_side_geom G H s (pzero (sdim M)) HX Hx) as (fc & cc & Nf & Nc & E').
  unfold side_facet_normal. destruct (gm_flags G) as (_ & _ & F). rewrite F, (fresh_s G H). cbn [andb asserting]. cbv zeta in E'. rewrite E', D. cbn [Nat.eqb bind fst snd].
  assert (I := nth_error_In _ _ Hx). destruct (T_range (gm_fm G) _ I) as (Lc & Lf & _ & D1 & D2). apply in_trips in I as (_ & _ & Ie); [|apply (fm_numbered (gm_fm G))|apply (gm_conn G)].
  assert (Dn : forall i, pd (node X (snode t sh x i)) = 2%nat) by (intros i; rewrite <- D; apply (node_dim HX); apply (snode_lt G); apply (nth_error_In _ _ Hx)).
  rewrite onormal2 by auto. assert (Q := @snode2 t sh fl M fn cv G O D x Lf Ie). unfold sedge in Q. injection Q as Q1 Q2. rewrite <- Q1, <- Q2. unfold psub. rewrite Dn. cbn [p0 p1]. reflexivity.
Qed.
Lemma facets_sum c fd : (c < ncells t)%nat -> In fd (cfaces sh c) -> exists ss ns, NoDup ss /\
  (forall s, In s ss <-> (s < n_sides (gm M))%nat /\ side_get_cell (gm M) s = Ok c /\ side_get_face (gm M) s = Ok (fst fd)) /\
  mapM (fun s => side_facet_normal M X g s true) ss = Ok ns /\ vsum (onormal fd) ns.
Proof.
  intros Hc I. destruct (sides_at fd Hc I) as (ss & ND & Is & F2). exists ss. destruct fd as [f d]. destruct (cn_face (gm_conn G) _ _ Hc I) as [Hf _]. destruct (gq_dim G) as [D|D].
  - exists (map (fun x => onormal (snd (fst x))) (trips_at sh c (f, d))). split; auto. split; auto. split; [apply (mapM_Forall2 _ (fun x : trip => onormal (snd (fst x))) F2); intros s x _ Nx; apply side_out2; auto|].
    destruct (or_face2 O D Hf) as (e & d' & E & _). unfold trips_at. cbn [fst]. rewrite E. cbn [map fst snd]. unfold vsum, sum_of. cbn [map rsum]. repeat split; ring.
  - destruct (face_centre G H Hf) as (A & fc & nn & _ & Nf). exists (map (fun x => vtri fc (pt2 X (oedge sh x))) (trips_at sh c (f, d))). split; auto. split; auto. split.
    + apply (mapM_Forall2 _ (fun x : trip => vtri fc (pt2 X (oedge sh x))) F2). intros s x Ix Nx. destruct (@side_out3 t sh fl M fn cv X xs g G O HX H s x D Nx) as (fc' & Nf' & ->).
      apply in_map_iff in Ix as (ed & <- & _). cbn [tface fst snd] in *. congruence.
    + rewrite onormal3 by auto. assert (V := sum_vtri fc (out_face fn X (f, d))). rewrite <- V. assert (P := @out_edges t sh fn cv X O c (f, d) D Hf).
      unfold vsum. rewrite !sum_map. unfold vtri, P3. cbn [p0 p1 p2]. rewrite <- !(sum_perm _ P), !sum_map. auto.
Qed.
End S.

(** ** C72 *)
Theorem c72_facets_sum_to_the_face : forall t sh fl M fn cv X xs g c f re, geom_mesh t sh fl M fn cv -> oriented t sh fn cv -> coords_ok t X -> history M (X :: xs) g ->
  (c < ncells t)%nat -> face_of sh c f -> exists ss ns n d, NoDup ss /\
    (forall s, In s ss <-> (s < n_sides (gm M))%nat /\ side_get_cell (gm M) s = Ok c /\ side_get_face (gm M) s = Ok f) /\
    mapM (fun s => side_facet_normal M X g s true) ss = Ok ns /\ face_normal M X g f re (Some c) = Ok (n, d) /\ vsum n ns.
Proof.
  intros t sh fl M fn cv X xs g c f re G O HX H Hc If. destruct (dir_ex _ _ _ If) as [d I]. destruct (@facets_sum t sh fl M fn cv X xs g G O HX H c (f, d) Hc I) as (ss & ns & A1 & A2 & A3 & A4).
  exists ss, ns, (onormal t fn X (f, d)), d. split; auto. split; auto. split; auto. split; auto. apply (@face_normal_at t sh fl M fn cv X xs g G O HX H c (f, d) re Hc I).
Qed.
(** ** C73 *)
Theorem c73_face_normals_sum_to_zero : forall t sh fl M fn cv X xs g c re, geom_mesh t sh fl M fn cv -> oriented t sh fn cv -> coords_ok t X -> history M (X :: xs) g -> (c < ncells t)%nat ->
  exists fds ns, cell_get_faces_and_dirs (gm M) c = Ok fds /\ mapM (fun fd => r <- face_normal M X g (fst fd) re (Some c) ;; Ok (fst r)) fds = Ok ns /\ vsum (Pt (tp_mdim t) 0 0 0) ns.
Proof.
  intros t sh fl M fn cv X xs g c re G O HX H Hc. destruct (@mapM_normals t sh fl M fn cv X xs g G O HX H c re Hc) as [E1 E2]. do 2 eexists. split; [exact E1|]. split; [exact E2|]. apply (@normals_close t sh fl M fn cv X G O c Hc).
Qed.
(** the divergence theorem: n . (m - o) summed over the faces (normal n, centroid m) is three times the volume (in the plane: twice the signed area) *)
Theorem c73_divergence_space : forall t sh fl M fn cv X xs g c re o, geom_mesh t sh fl M fn cv -> oriented t sh fn cv -> coords_ok t X -> history M (X :: xs) g -> (c < ncells t)%nat ->
  tp_mdim t = 3%nat -> (forall f, face_of sh c f -> flat (at_nodes X (fn f))) ->
  exists fds vs, cell_get_faces_and_dirs (gm M) c = Ok fds /\
    mapM (fun fd => r <- face_normal M X g (fst fd) re (Some c) ;; m <- face_centroid M X g (fst fd) false ;; Ok (dot3 (fst r) m - dot3 (fst r) o)) fds = Ok vs /\
    rsum vs = 3 * volume_from o (out_faces sh fn X c).
Proof.
  intros t sh fl M fn cv X xs g c re o G O HX H Hc D F. exists (cfaces sh c), (map (fun fd => dot3 (onormal t fn X fd) (nth (fst fd) (g_fcen g) (Pt 0 0 0 0)) - dot3 (onormal t fn X fd) o) (cfaces sh c)).
  split; [apply (cell_faces G Hc)|]. split; [|apply (@divergence3 t sh fl M fn cv X xs g G O HX H c o D Hc F)].
  assert (K : forall fd, In fd (cfaces sh c) -> face_normal M X g (fst fd) re (Some c) = Ok (onormal t fn X fd, snd fd) /\ face_centroid M X g (fst fd) false = Ok (nth (fst fd) (g_fcen g) (Pt 0 0 0 0))).
  { intros [f d] I. destruct (cn_face (gm_conn G) _ _ Hc I) as [Hf _]. split; [apply (@face_normal_at t sh fl M fn cv X xs g G O HX H c (f, d) re Hc I)|].
    cbn [fst]. destruct (@centroid_face t sh fl M fn cv X G g (fresh_f G H) (fresh_c G H) f Hf) as (p & -> & N). rewrite (nth_error_nth _ _ _ N). auto. }
  induction (cfaces sh c) as [|fd l IH]; auto. cbn [mapM map]. destruct (K fd) as [-> ->]; [simpl; auto|]. cbn [bind fst]. rewrite IH by (intros; apply K; simpl; auto). auto.
Qed.
Theorem c73_divergence_plane : forall t sh fl M fn cv X xs g c re o, geom_mesh t sh fl M fn cv -> oriented t sh fn cv -> coords_ok t X -> history M (X :: xs) g -> (c < ncells t)%nat ->
  tp_mdim t = 2%nat -> exists fds vs, cell_get_faces_and_dirs (gm M) c = Ok fds /\
    mapM (fun fd => r <- face_normal M X g (fst fd) re (Some c) ;; m <- face_centroid M X g (fst fd) false ;; Ok (p0 (fst r) * (p0 m - p0 o) + p1 (fst r) * (p1 m - p1 o))) fds = Ok vs /\
    rsum vs = 2 * shoelace (at_nodes X (cv c)).
Proof.
  intros t sh fl M fn cv X xs g c re o G O HX H Hc D. exists (cfaces sh c). eexists. split; [apply (cell_faces G Hc)|]. split; [|apply (@divergence2 t sh fl M fn cv X xs g G O HX H c o D Hc)].
  assert (K : forall fd, In fd (cfaces sh c) -> face_normal M X g (fst fd) re (Some c) = Ok (onormal t fn X fd, snd fd) /\ face_centroid M X g (fst fd) false = Ok (nth (fst fd) (g_fcen g) (Pt 0 0 0 0))).
  { intros [f d] I. destruct (cn_face (gm_conn G) _ _ Hc I) as [Hf _]. split; [apply (@face_normal_at t sh fl M fn cv X xs g G O HX H c (f, d) re Hc I)|].
    cbn [fst]. destruct (@centroid_face t sh fl M fn cv X G g (fresh_f G H) (fresh_c G H) f Hf) as (p & -> & N). rewrite (nth_error_nth _ _ _ N). auto. }
  induction (cfaces sh c) as [|fd l IH]; auto. cbn [mapM map]. destruct (K fd) as [-> ->]; [simpl; auto|]. cbn [bind fst]. rewrite IH by (intros; apply K; simpl; auto). auto.
Qed.
(** ** C61: outward *)
(** in the plane: every vertex of a convex cell that is not on the face is strictly behind it *)
Theorem c61_outward_plane : forall t sh fl M fn cv X xs g c f re v, geom_mesh t sh fl M fn cv -> oriented t sh fn cv -> coords_ok t X -> history M (X :: xs) g -> (c < ncells t)%nat ->
  tp_mdim t = 2%nat -> convex_ccw (at_nodes X (cv c)) -> face_of sh c f -> In v (at_nodes X (cv c)) -> ~ In v (at_nodes X (fn f)) ->
  exists n d, face_normal M X g f re (Some c) = Ok (n, d) /\ forall a, In a (at_nodes X (fn f)) -> p0 n * (p0 v - p0 a) + p1 n * (p1 v - p1 a) < 0.
Proof.
  intros t sh fl M fn cv X xs g c f re v G O HX H Hc D [ND C] If Iv Nv. destruct (dir_ex _ _ _ If) as [d I]. destruct (cn_face (gm_conn G) _ _ Hc I) as [Hf _].
  exists (onormal t fn X (f, d)), d. split; [apply (@face_normal_at t sh fl M fn cv X xs g G O HX H c (f, d) re Hc I)|]. rewrite (@onormal2 t sh fl M fn cv X G (f, d) D Hf).
  destruct (or_cell2 O D Hc) as [_ P]. assert (Ie : In (nth 0 (node_face fn (f, d)) 0%nat, nth 1 (node_face fn (f, d)) 0%nat) (edges (cv c))).
  { apply (Permutation_in _ P). apply in_map_iff. exists (f, d). auto. }
  set (na := nth 0 (node_face fn (f, d)) 0%nat) in *. set (nb := nth 1 (node_face fn (f, d)) 0%nat) in *. set (a := nth na X (Pt 0 0 0 0)). set (b := nth nb X (Pt 0 0 0 0)).
  assert (Ie' : In (a, b) (edges (at_nodes X (cv c)))) by (unfold at_nodes; rewrite edges_map; apply in_map_iff; exists (na, nb); auto).
  assert (Fa : forall w, In w (at_nodes X (fn f)) <-> w = a \/ w = b).
  { intros w. assert (L := gq_two G D Hf). destruct (two_list _ L) as (x & y & E). unfold a, b, na, nb, node_face. cbn [fst snd]. rewrite E. cbn [at_nodes map In]. destruct (d =? 1)%Z; cbn [rev app nth]; intuition. }
  assert (T : 0 < tri_area a b v) by (apply C; auto; intros ->; apply Nv; apply Fa; auto).
  intros w Hw. apply Fa in Hw. unfold right_normal. cbn [p0 p1]. unfold tri_area in T. destruct Hw as [->| ->]; lra.
Qed.
(** in space: no vertex of a convex cell is in front of the face's centroid, and some vertex is strictly behind it *)
Theorem c61_outward_space : forall t sh fl M fn cv X xs g c f re m, geom_mesh t sh fl M fn cv -> oriented t sh fn cv -> coords_ok t X -> history M (X :: xs) g -> (c < ncells t)%nat ->
  tp_mdim t = 3%nat -> convex_outward (at_nodes X (cv c)) (out_faces sh fn X c) -> face_of sh c f -> flat (at_nodes X (fn f)) -> face_centroid M X g f false = Ok m ->
  exists n d, face_normal M X g f re (Some c) = Ok (n, d) /\ (forall v, In v (at_nodes X (cv c)) -> dot3 n v <= dot3 n m) /\ exists v, In v (at_nodes X (cv c)) /\ dot3 n v < dot3 n m.
Proof.
  intros t sh fl M fn cv X xs g c f re m G O HX H Hc D C If F Em. destruct (dir_ex _ _ _ If) as [d I]. destruct (cn_face (gm_conn G) _ _ Hc I) as [Hf _].
  exists (onormal t fn X (f, d)), d. split; [apply (@face_normal_at t sh fl M fn cv X xs g G O HX H c (f, d) re Hc I)|]. rewrite (@onormal3 t fn X (f, d) D).
  destruct (@centroid_face t sh fl M fn cv X G g (fresh_f G H) (fresh_c G H) f Hf) as (p & Ep & N). rewrite Em in Ep. injection Ep as <-.
  destruct (face_centre G H Hf) as (A & C0 & nn & Ef & Nf). rewrite N in Nf. injection Nf as <-. assert (Q := @flat_face t sh fl M fn cv X G O HX f A m nn Hf D F Ef).
  assert (Q' : dot3 (varea (out_face fn X (f, d))) m = dot3 (varea (out_face fn X (f, d))) (mean (out_face fn X (f, d)))).
  { rewrite out_varea, out_mean. cbn [fst snd]. unfold turned. destruct (d =? 1)%Z; auto. unfold popp, dot3 in *. cbn [pd varea p0 p1 p2] in *. lra. }
  rewrite Q'. assert (L := @out_face_length t sh fn cv X O (f, d) D Hf). set (l := out_face fn X (f, d)) in *.
  assert (Tr : forall t0, In t0 (tris l) -> In t0 (all_tris (out_faces sh fn X c))).
  { intros t0 Ht. unfold all_tris. apply in_flat_map. exists l. split; auto. unfold out_faces. apply in_map_iff. exists (f, d). auto. }
  assert (S : forall v, dot3 (varea l) (mean l) - dot3 (varea l) v = / 2 * sum_of (tdet v) (tris l)) by (intros v; rewrite tris_sum by lia; field).
  assert (NE : exists t0, In t0 (tris l)). { clear -L. destruct l as [|a [|b [|c [|e l]]]]; simpl in L; try lia; eexists; simpl; left; reflexivity. }
  split.
  - intros v Iv. assert (0 <= sum_of (tdet v) (tris l)) by (apply sum_nonneg; intros t0 Ht; apply (C t0); auto). assert (K := S v). lra.
  - destruct NE as [t0 Ht]. destruct (C t0 (Tr _ Ht)) as [_ (v & Iv & P)]. exists v. split; auto. assert (K := S v).
    assert (0 < sum_of (tdet v) (tris l)) by (apply (@sum_some_pos _ _ _ t0); auto; intros y Hy; apply (C y); auto). lra.
Qed.
