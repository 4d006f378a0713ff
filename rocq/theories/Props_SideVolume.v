(** C71: the sides (wedges, corners) of a cell fill it; C72: the facet normals of a face's sides add up to the face normal. *)
From Coq Require Import Reals Permutation Lra.
From Verif Require Import Base Loop Defs Factory Cache Cache_spec Cache_proofs Cache_proofs2 Cache_proofs4 Cache_proofs5 Cache_proofs6 Props_Cache Point Geometry Geometry_spec Geometry_proofs
  Props_Polygon Props_Polygon3D Polyhedron_proofs Props_Polyhedron Props_InPolygon MeshGeom MeshGeom_spec MeshGeom_proofs MeshGeom_proofs2 MeshGeom_proofs3 MeshGeom_examples Props_MeshUpdate.
Set Implicit Arguments.
Local Open Scope R_scope.

(** the edge of a side's face at the side, in the direction seen from outside the cell *)
Definition oedge (sh : shape) (x : trip) : nat * nat := if (tfdir x =? 1)%Z then along sh (snd x) else swap (along sh (snd x)).
Definition pt2 (X : coordinates) (e : nat * nat) : point * point := (nth (fst e) X (Pt 0 0 0 0), nth (snd e) X (Pt 0 0 0 0)).
Definition trips_at (sh : shape) (c : nat) (fd : nat * Z) : list trip := map (fun ed => (c, fd, ed)) (fedges sh (fst fd)).

Section S.
Variables (t : topo) (sh : shape) (fl : flags) (M : gmesh) (fn cv : nat -> list nat) (X : coordinates) (xs : list coordinates) (g : geo).
Hypothesis G : geom_mesh t sh fl M fn cv.
Hypothesis O : oriented t sh fn cv.
Hypothesis HX : coords_ok t X.
Hypothesis H : history M (X :: xs) g.
Lemma B : built t sh fl (gm M). Proof. exact (gq_built G). Qed.

Lemma oedges_face c fd : tp_mdim t = 3%nat -> (fst fd < nfaces t)%nat -> Permutation (map (oedge sh) (trips_at sh c fd)) (edges (node_face fn fd)).
Proof.
  intros D Hf. destruct (or_face3 O D Hf) as [_ P]. unfold trips_at, node_face. rewrite map_map. unfold oedge, tfdir. cbn [fst snd].
  destruct (snd fd =? 1)%Z; [exact P|]. etransitivity; [|apply Permutation_sym, edges_rev]. rewrite <- (map_map (along sh) swap). apply Permutation_map. auto.
Qed.
Lemma out_edges c fd : tp_mdim t = 3%nat -> (fst fd < nfaces t)%nat -> Permutation (map (fun x => pt2 X (oedge sh x)) (trips_at sh c fd)) (edges (out_face fn X fd)).
Proof.
  intros D Hf. unfold out_face, at_nodes. rewrite edges_map. rewrite <- (map_map (oedge sh) (pt2 X)). apply Permutation_map. apply oedges_face; auto.
Qed.
Lemma snode3 x : tp_mdim t = 3%nat -> is_dir (tfdir x) -> is_dir (tedir x) -> snode t sh x 0 = snd (oedge sh x) /\ snode t sh x 1 = fst (oedge sh x).
Proof.
  intros D Df De. unfold snode, orient, side_orient, oedge, along, swap. rewrite (enodes'_eq (tedge x) (gm_fm G)), D. cbn [Nat.eqb]. unfold tedge. unfold tedir in *.
  destruct Df as [-> | ->], De as [-> | ->]; cbn; auto.
Qed.
Lemma side_vol s x : nth_error (trips t sh) s = Some x -> ~ cell_has_type t (tcell x) BOUNDARY_GHOST -> exists r, compute_side_geometry M X g s (pzero (sdim M)) = Ok r /\
  side_volume M X g s false = Ok (fst (fst r)).
Proof.
  intros Hx NB. assert (L : (s < n_sides (gm M))%nat) by (rewrite (n_sides_eq B); apply nth_error_lt in Hx; auto).
  destruct (fresh_side B H L) as (ty & r & Et & Ev & Ok1 & C1 & _). destruct (side_type G s Hx) as (ty' & Et' & T'). rewrite Et in Et'. injection Et' as <-.
  exists r. split; [apply C1; intros ->; auto|]. unfold side_volume. destruct (gm_flags G) as (_ & _ & F). rewrite F, Ok1. cbn [andb asserting]. auto.
Qed.
Lemma face_centre f : (f < nfaces t)%nat -> exists A C nn, compute_face_geometry M X f = Ok (A, C, nn) /\ nth_error (g_fcen g) f = Some C.
Proof.
  intros Hf. destruct (fresh_face B H Hf) as ([[A C] nn] & E & _ & V & _). exists A, C, nn. split; auto. apply rd_Ok. auto.
Qed.
Lemma cell_centre c : (c < ncells t)%nat -> ~ cell_has_type t c BOUNDARY_GHOST -> exists V C, compute_cell_geometry M X c = Ok (V, C) /\ nth_error (g_ccen g) c = Some C /\
  cell_volume M X g c false = Ok V /\ pd C = tp_mdim t.
Proof.
  intros Hc NB. destruct (fresh_cell B H Hc) as (ty & [V C] & Et & T & E & V1 & V2 & _). exists V, C. unfold cell_entry in E. rewrite Et in E. cbn [bind] in E.
  assert (E' : compute_cell_geometry M X c = Ok (V, C)) by (destruct ty; auto; exfalso; auto). split; auto. split; [apply rd_Ok; auto|]. split; [exact V1|].
  clear E V1 V2. destruct (gq_dim G) as [D|D]; rewrite D.
  - rewrite (@cell_geom2 t sh fl M fn cv X G HX c Hc D) in E'. assert (Dm := @cell_dim t sh fl M fn cv X G HX c Hc). rewrite D in Dm. destruct (lt_dec (length (at_nodes X (cv c))) 3) as [L|L].
    + rewrite c48_plane_degenerate in E' by auto. injection E' as _ <-. auto.
    + destruct (Nat.eq_dec (length (at_nodes X (cv c))) 3) as [E3|E3].
      * destruct (tri_list _ E3) as (x & y & z & Eq). rewrite Eq in *. rewrite polygon2_tri in E' by (apply Dm; simpl; auto). injection E' as _ <-. reflexivity.
      * rewrite polygon2 in E' by (auto; lia). injection E' as _ <-. reflexivity.
  - rewrite (@cell_geom3 t sh fl M fn cv X G HX c Hc D) in E'. assert (Dm := @cell_dim t sh fl M fn cv X G HX c Hc). rewrite D in Dm. assert (A3 := @out_faces_dim t sh fl M fn cv X G HX c Hc D).
    set (l := at_nodes X (cv c)) in *. destruct (lt_dec (length l) 4) as [L|L]; [rewrite c49_degenerate in E' by auto; injection E' as _ <-; auto|].
    destruct (Nat.eq_dec (length l) 4) as [E4|E4].
    + clearbody l. destruct l as [|x [|y [|z [|w [|u l]]]]]; try discriminate. rewrite polyhed_tet in E' by (apply Dm; simpl; auto 6). injection E' as _ <-. auto.
    + rewrite polyhed_eq in E' by (auto; lia). injection E' as _ <-. auto.
Qed.
(** the stored volume of a side: the tetrahedron of the cell's centre, the face's edge seen from outside and the face's centre *)
Lemma side_vol3 s x : tp_mdim t = 3%nat -> nth_error (trips t sh) s = Some x -> ~ cell_has_type t (tcell x) BOUNDARY_GHOST -> exists fc cc,
  nth_error (g_fcen g) (tface x) = Some fc /\ nth_error (g_ccen g) (tcell x) = Some cc /\
  side_volume M X g s false = Ok (det3 cc (fst (pt2 X (oedge sh x))) (snd (pt2 X (oedge sh x))) fc / 6).
Proof.
  intros D Hx NB. destruct (side_vol s Hx NB) as (r & E & V). destruct (fresh_side_geom G H s (pzero (sdim M)) HX Hx) as (fc & cc & Nf & Nc & E').
  exists fc, cc. split; auto. split; auto. rewrite V. cbv zeta in E'. rewrite E', D in E. cbn [Nat.eqb] in E. injection E as <-. cbn [fst].
  assert (I := nth_error_In _ _ Hx). destruct (T_range (gm_fm G) _ I) as (Lc & Lf & _ & D1 & D2).
  assert (Dn : forall i, pd (node X (snode t sh x i)) = 3%nat) by (intros i; rewrite <- D; apply (node_dim HX); apply (snode_lt G); auto).
  assert (pd fc = 3%nat) by (destruct (face_geom3 G O HX Lf D) as (A & C & nn & _ & Ef & PC); destruct (face_centre Lf) as (A' & C' & nn' & Ef' & Nf'); congruence).
  assert (pd cc = 3%nat) by (destruct (cell_centre Lc NB) as (V' & C' & _ & Nc' & _ & PC); congruence).
  rewrite tet_det by auto. destruct (snode3 x D D1 D2) as [-> ->]. f_equal. unfold node, pt2. cbn [fst snd]. unfold det3. field.
Qed.
Lemma side_out3 s x : tp_mdim t = 3%nat -> nth_error (trips t sh) s = Some x -> exists fc,
  nth_error (g_fcen g) (tface x) = Some fc /\ side_facet_normal M X g s true = Ok (vtri fc (pt2 X (oedge sh x))).
Proof.
  intros D Hx. destruct (fresh_side_geom G H s (pzero (sdim M)) HX Hx) as (fc & cc & Nf & Nc & E').
  exists fc. split; auto. unfold side_facet_normal. destruct (gm_flags G) as (_ & _ & F). rewrite F, (fresh_s G H). cbn [andb asserting]. cbv zeta in E'. rewrite E', D. cbn [Nat.eqb bind fst snd].
  assert (I := nth_error_In _ _ Hx). destruct (T_range (gm_fm G) _ I) as (Lc & Lf & _ & D1 & D2).
  assert (Dn : forall i, pd (node X (snode t sh x i)) = 3%nat) by (intros i; rewrite <- D; apply (node_dim HX); apply (snode_lt G); auto).
  assert (pd fc = 3%nat) by (destruct (face_geom3 G O HX Lf D) as (A & C & nn & _ & Ef & PC); destruct (face_centre Lf) as (A' & C' & nn' & Ef' & Nf'); congruence).
  f_equal. unfold cross, psub, smul. rewrite !Dn, H0. cbn [pd p0 p1 p2]. destruct (snode3 x D D1 D2) as [-> ->]. unfold vtri, vtri0, vtri1, vtri2, pt2, node, P3. cbn [fst snd]. f_equal; field.
Qed.
Lemma sides_of_cell c : (c < ncells t)%nat -> exists ss, cell_get_sides (gm M) c = Ok ss /\ Forall2 (fun s x => nth_error (trips t sh) s = Some x) ss (trips_of sh c).
Proof.
  intros Hc. eexists. split; [apply (cell_sides B Hc)|]. rewrite <- (@cell_trips t sh c (fm_numbered (gm_fm G)) Hc). apply idxs_filter.
Qed.
Lemma trips_of_in c x : (c < ncells t)%nat -> In x (trips_of sh c) -> tcell x = c /\ In (snd (fst x)) (cfaces sh c) /\ In (snd x) (fedges sh (tface x)) /\ (tface x < nfaces t)%nat.
Proof.
  intros Hc Hx. unfold trips_of in Hx. apply in_flat_map in Hx as ([f d] & Hf & Hx). apply in_map_iff in Hx as (ed & <- & He). cbn [tcell tface fst snd]. split; auto. split; auto. split; auto.
  apply (cn_face (gm_conn G) _ _ Hc Hf).
Qed.
Lemma out_closed c : tp_mdim t = 3%nat -> (c < ncells t)%nat -> closed (out_faces sh fn X c).
Proof.
  intros D Hc. assert (P := or_cell3 O D Hc). cbv zeta in P. unfold closed, out_faces.
  assert (E : forall l, flat_map edges (map (out_face fn X) l) = map (pt2 X) (flat_map (fun fd => edges (node_face fn fd)) l)).
  { induction l as [|fd l IH]; auto. cbn [map flat_map]. rewrite IH, map_app. f_equal. unfold out_face, at_nodes. rewrite edges_map. auto. }
  rewrite E. rewrite map_map. rewrite (map_ext (fun e => swap (pt2 X e)) (fun e => pt2 X (swap e))) by (intros [a b]; auto). rewrite <- (map_map swap (pt2 X)). apply Permutation_map. auto.
Qed.
Lemma out_face_length fd : tp_mdim t = 3%nat -> (fst fd < nfaces t)%nat -> (3 <= length (out_face fn X fd))%nat.
Proof. intros D Hf. destruct (or_face3 O D Hf) as [L _]. unfold out_face, at_nodes, node_face. rewrite map_length. destruct (snd fd =? 1)%Z; rewrite ?rev_length; auto. Qed.
Lemma out_varea fd : varea (out_face fn X fd) = turned (snd fd) (varea (at_nodes X (fn (fst fd)))).
Proof. rewrite out_face_eq. unfold turned. destruct (snd fd =? 1)%Z; auto. apply varea_rev. Qed.
Lemma out_mean fd : mean (out_face fn X fd) = mean (at_nodes X (fn (fst fd))).
Proof. rewrite out_face_eq. destruct (snd fd =? 1)%Z; auto. apply mean_perm. apply Permutation_sym, Permutation_rev. Qed.
Lemma flat_face f A C nn : (f < nfaces t)%nat -> tp_mdim t = 3%nat -> flat (at_nodes X (fn f)) -> compute_face_geometry M X f = Ok (A, C, nn) ->
  dot3 (varea (at_nodes X (fn f))) C = dot3 (varea (at_nodes X (fn f))) (mean (at_nodes X (fn f))).
Proof.
  intros Hf D F E. destruct (face_geom3 G O HX Hf D) as (A' & C' & nn' & P & E' & _). rewrite E in E'. injection E' as <- <- _.
  assert (Dm := @face_dim t sh fl M fn cv X G HX f Hf). rewrite D in Dm. destruct F as [E3|(n & Hn & HP)].
  - destruct (tri_list _ E3) as (a & b & c & Eq). rewrite Eq in *. rewrite polygon3_tri in P by (apply Dm; simpl; auto). injection P as _ <-. auto.
  - apply (@flat_centroid n _ A C (varea (at_nodes X (fn f)))); auto. destruct (or_face3 O D Hf) as [L _]. unfold at_nodes. rewrite map_length. auto.
Qed.
Lemma sides_sum c : tp_mdim t = 3%nat -> (c < ncells t)%nat -> ~ cell_has_type t c BOUNDARY_GHOST -> (forall f, face_of sh c f -> flat (at_nodes X (fn f))) ->
  exists ss vs, cell_get_sides (gm M) c = Ok ss /\ mapM (fun s => side_volume M X g s false) ss = Ok vs /\ forall o, rsum vs = volume_from o (out_faces sh fn X c).
Proof.
  intros D Hc NB F. destruct (sides_of_cell Hc) as (ss & E & F2). destruct (cell_centre Hc NB) as (V & cc & _ & Ncc & _).
  set (fc := fun f => nth f (g_fcen g) (Pt 0 0 0 0)). set (h := fun x : trip => det3 cc (fst (pt2 X (oedge sh x))) (snd (pt2 X (oedge sh x))) (fc (tface x)) / 6).
  exists ss, (map h (trips_of sh c)). split; auto. split.
  - apply (mapM_Forall2 _ h F2). intros s x Hx Ns. destruct (trips_of_in x Hc Hx) as (Tc & _ & _ & _). destruct (side_vol3 s D Ns) as (fc' & cc' & Nf & Nc & ->); [rewrite Tc; auto|].
    rewrite Tc in Nc. unfold h, fc. rewrite (nth_error_nth _ _ _ Nf). congruence.
  - intros o. rewrite (volume_from_any o cc (out_closed D Hc)), volume_sum. fold (sum_of h (trips_of sh c)). unfold trips_of. rewrite sum_flat. unfold out_faces. rewrite sum_map.
    match goal with |- _ = ?a / 6 => replace (a / 6) with (/ 6 * a) by field end. rewrite <- sum_scale. apply sum_ext. intros fd Hfd. destruct fd as [f d]. destruct (cn_face (gm_conn G) _ _ Hc Hfd) as [Hf _].
    rewrite (tris_sum cc (out_face fn X (f, d))) by (assert (K := out_face_length (f, d) D Hf); lia).
    transitivity (/ 6 * sum_of (fun e => det3 cc (fst e) (snd e) (fc f)) (map (fun x => pt2 X (oedge sh x)) (trips_at sh c (f, d)))).
    + unfold trips_at. rewrite !sum_map, <- sum_scale. apply sum_ext. intros ed _. unfold h. cbn [tface fst snd]. field.
    + rewrite (sum_perm _ (out_edges c (f, d) D Hf)), det_sum. do 3 f_equal. rewrite out_varea, out_mean. cbn [fst snd].
      destruct (face_centre Hf) as (A & C & nn & Ef & Nf). unfold fc. rewrite (nth_error_nth _ _ _ Nf).
      assert (Q := @flat_face f A C nn Hf D (F f (in_map fst _ _ Hfd)) Ef). unfold turned. destruct (d =? 1)%Z; auto. unfold popp, dot3 in *. cbn [pd varea p0 p1 p2] in *. lra.
Qed.
End S.

(** ** C71: the volumes of the sides of a cell add up to the volume its faces enclose *)
Theorem c71_sides_fill_the_surface : forall t sh fl M fn cv X xs g c, geom_mesh t sh fl M fn cv -> oriented t sh fn cv -> coords_ok t X -> history M (X :: xs) g ->
  tp_mdim t = 3%nat -> (c < ncells t)%nat -> ~ cell_has_type t c BOUNDARY_GHOST -> (forall f, face_of sh c f -> flat (at_nodes X (fn f))) ->
  exists ss vs, cell_get_sides (gm M) c = Ok ss /\ mapM (fun s => side_volume M X g s false) ss = Ok vs /\ forall o, rsum vs = volume_from o (out_faces sh fn X c).
Proof. intros t sh fl M fn cv X xs g c G O HX H. apply (sides_sum G O HX H). Qed.
(** ... and, for a cell that is not inverted, to the volume of the cell *)
Theorem c71_sides_sum_to_the_cell : forall t sh fl M fn cv X xs g c V, geom_mesh t sh fl M fn cv -> oriented t sh fn cv -> coords_ok t X -> history M (X :: xs) g ->
  tp_mdim t = 3%nat -> (c < ncells t)%nat -> ~ cell_has_type t c BOUNDARY_GHOST -> (forall f, face_of sh c f -> flat (at_nodes X (fn f))) ->
  cell_volume M X g c false = Ok V -> (4 < length (cv c))%nat /\ 0 < V \/ tet_cell sh fn (cv c) c ->
  exists ss vs, cell_get_sides (gm M) c = Ok ss /\ mapM (fun s => side_volume M X g s false) ss = Ok vs /\ rsum vs = V.
Proof.
  intros t sh fl M fn cv X xs g c V G O HX H D Hc NB F EV K. destruct (@c71_sides_fill_the_surface t sh fl M fn cv X xs g c G O HX H D Hc NB F) as (ss & vs & E1 & E2 & E3). exists ss, vs. split; auto. split; auto.
  rewrite (E3 (Pt 3 0 0 0)). destruct (cell_centre G HX H Hc NB) as (V' & C & EC & _ & EV' & _). rewrite EV in EV'. injection EV' as <-. rewrite (@cell_geom3 t sh fl M fn cv X G HX c Hc D) in EC.
  assert (A3 := @out_faces_dim t sh fl M fn cv X G HX c Hc D). assert (Cl := @out_closed t sh fn cv X O c D Hc). destruct K as [[L P]|K].
  - destruct (@c49_closed_surface (at_nodes X (cv c)) (out_faces sh fn X c)) as (V' & C' & E' & Q); auto; [unfold at_nodes; rewrite map_length; auto|]. rewrite EC in E'. injection E' as <- <-.
    destruct (Q (Pt 3 0 0 0)) as (Q1 & Q2 & _). symmetry. apply Q1. intros t0 Ht. destruct (Rlt_dec 0 (tdet (mean (at_nodes X (cv c))) t0)) as [|N]; auto. exfalso.
    rewrite Q2 in P by (exists t0; split; auto; lra). assert (R := Rabs_pos (volume_from (Pt 3 0 0 0) (out_faces sh fn X c))). lra.
  - destruct K as (a & b & c' & d & fs & En & Pf & F2). assert (Dm := @cell_dim t sh fl M fn cv X G HX c Hc). rewrite D, En in *. cbn [at_nodes map] in EC, Dm.
    set (pa := nth a X _) in *. set (pb := nth b X _) in *. set (pc := nth c' X _) in *. set (pd0 := nth d X _) in *.
    destruct (@c49_tetrahedron pa pb pc pd0 (length (out_faces sh fn X c)) (map (@length _) (out_faces sh fn X c)) (concat (out_faces sh fn X c))) as (V' & C' & E' & Q); try (apply Dm; simpl; auto 6).
    rewrite EC in E'. injection E' as <- <-. destruct (Q (Pt 3 0 0 0)) as [-> _]. rewrite !volume_sum. f_equal.
    transitivity (sum_of (fun f => sum_of (tdet (Pt 3 0 0 0)) (tris f)) (map (at_nodes X) fs)).
    + unfold out_faces. rewrite !sum_map. assert (Fi : forall fd, In fd (cfaces sh c) -> (fst fd < nfaces t)%nat) by (intros [f d'] I; apply (cn_face (gm_conn G) _ _ Hc I)).
      clear -F2 Fi O D. induction F2 as [|fd l r rs P F2 IH]; auto. match goal with |- sum_of ?a (?x :: ?l1) = sum_of ?b (?y :: ?l2) => change (a x + sum_of a l1 = b y + sum_of b l2) end. f_equal; [|apply IH; intros; apply Fi; simpl; auto].
      apply tris_perm; [assert (K := @out_face_length t sh fn cv X O fd D (Fi fd (or_introl eq_refl))); lia|]. unfold out_face, at_nodes. rewrite !edges_map. apply Permutation_map. auto.
    + rewrite (sum_perm _ (Permutation_map (at_nodes X) Pf)). reflexivity.
Qed.
