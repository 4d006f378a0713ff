(** C61, C71, C72, C73: the hypotheses are met by the prism with a tetrahedron on top (3D) and by the two quads (2D), and what the theorems then say. *)
From Coq Require Import Reals Permutation Lra.
From Verif Require Import Base Loop Defs Factory Cache Cache_spec Props_Cache Point Geometry Geometry_spec Geometry_proofs Polyhedron_proofs Props_Polygon Props_Polyhedron MeshGeom MeshGeom_spec MeshGeom_proofs MeshGeom_proofs2
  MeshGeom_proofs3 MeshGeom_examples MeshGeom_tower Props_MeshUpdate Props_FaceNormal Props_SideVolume Props_SideVolume2D Props_CornerVolume Props_Facets.
Set Implicit Arguments.
Local Open Scope R_scope.

(** ** space: convex cells with flat faces *)
Theorem c71_space_convex : forall t sh fl M fn cv X xs g c, geom_mesh t sh fl M fn cv -> oriented t sh fn cv -> coords_ok t X -> history M (X :: xs) g ->
  tp_mdim t = 3%nat -> (c < ncells t)%nat -> ~ cell_has_type t c BOUNDARY_GHOST -> (forall f, face_of sh c f -> flat (at_nodes X (fn f))) ->
  (4 < length (cv c))%nat -> cfaces sh c <> [] -> convex_outward (at_nodes X (cv c)) (out_faces sh fn X c) ->
  exists ss vs, cell_get_sides (gm M) c = Ok ss /\ mapM (fun s => side_volume M X g s false) ss = Ok vs /\ cell_volume M X g c false = Ok (rsum vs) /\
    0 < rsum vs /\ forall o, rsum vs = volume_from o (out_faces sh fn X c).
Proof.
  intros t sh fl M fn cv X xs g c G O HX H D Hc NB F L NF Cv.
  destruct (@cell_centre t sh fl M fn cv X xs g G HX H c Hc NB) as (V & C & E & _ & EV & _).
  rewrite (@cell_geom3 t sh fl M fn cv X G HX c Hc D) in E.
  assert (NE : all_tris (out_faces sh fn X c) <> []).
  { destruct (cfaces sh c) as [|fd l] eqn:Ec; [congruence|]. unfold out_faces. rewrite Ec. cbn [map all_tris flat_map].
    assert (Lf := @out_face_length t sh fn cv X O fd D). destruct (cn_face (gm_conn G) (fst fd) (snd fd) Hc) as [Hf _]; [rewrite Ec; destruct fd; simpl; auto|]. specialize (Lf Hf).
    destruct (out_face fn X fd) as [|a [|b [|d [|e r]]]]; simpl in Lf; try lia; discriminate. }
  destruct (@c49_convex (at_nodes X (cv c)) (out_faces sh fn X c)) as (V' & C' & E' & P & Q); auto.
  - unfold at_nodes. rewrite map_length. auto.
  - apply (@out_faces_dim t sh fl M fn cv X G HX c Hc D).
  - apply (@out_closed t sh fn cv X O c D Hc).
  - assert (V = V') by congruence. subst V'. destruct (@c71_sides_sum_to_the_cell t sh fl M fn cv X xs g c V G O HX H D Hc NB F EV (or_introl (conj L P))) as (ss & vs & A1 & A2 & A3).
    exists ss, vs. rewrite A3. split; auto. split; auto. split; auto. split; auto. intros o. apply (Q o).
Qed.
(** ** the witnesses *)
Lemma tower_history : exists g, history tower_g [tower_X] g.
Proof. destruct (@update_total _ _ _ _ _ _ tower_X geo0 tower_geom tower_coords) as [g E]. exists g. constructor. auto. Qed.
Lemma quads_history h : exists g, history quads_g [quads_X h] g.
Proof. destruct (@update_total _ _ _ _ _ _ (quads_X h) geo0 quads_geom (quads_coords h)) as [g E]. exists g. constructor. auto. Qed.
Lemma tower_nobg c : ~ cell_has_type tower c BOUNDARY_GHOST.
Proof. unfold cell_has_type. cbn. intuition discriminate. Qed.
(** the prism: its sides add up to its volume 1/2 *)
Example c71_prism_witness : exists g ss vs, history tower_g [tower_X] g /\ cell_get_sides (gm tower_g) 0 = Ok ss /\ mapM (fun s => side_volume tower_g tower_X g s false) ss = Ok vs /\
  cell_volume tower_g tower_X g 0 false = Ok (1 / 2) /\ rsum vs = 1 / 2.
Proof.
  destruct tower_history as [g H]. destruct (@c71_space_convex tower tower_shape all_on tower_g tower_fn (cnodes tower_shape) tower_X [] g 0%nat tower_geom tower_oriented tower_coords H eq_refl) as (ss & vs & A1 & A2 & A3 & _ & A4).
  - cbv; lia.
  - apply tower_nobg.
  - intros f Hf. apply tower_flat. change (nfaces tower) with 8%nat. unfold face_of in Hf. cbn in Hf. lia.
  - cbn; lia.
  - discriminate.
  - exact tower_convex0.
  - assert (E : rsum vs = 1 / 2).
    { rewrite (A4 (Pt 3 0 0 0)). unfold volume_from, all_tris, out_faces, out_face, sum_of, tdet, det3, mean, sum_of. cbn. field. }
    exists g, ss, vs. rewrite E in A3. auto.
Qed.
(** the tetrahedron on top: a tet_cell, volume 1/6 *)
Example c71_tetrahedron_witness : exists g ss vs, history tower_g [tower_X] g /\ cell_get_sides (gm tower_g) 1 = Ok ss /\ mapM (fun s => side_volume tower_g tower_X g s false) ss = Ok vs /\
  cell_volume tower_g tower_X g 1 false = Ok (1 / 6) /\ rsum vs = 1 / 6.
Proof.
  destruct tower_history as [g H]. assert (Hc : (1 < ncells tower)%nat) by (cbv; lia).
  assert (F : forall f, face_of tower_shape 1 f -> flat (at_nodes tower_X (tower_fn f))) by (intros f Hf; apply tower_flat; change (nfaces tower) with 8%nat; unfold face_of in Hf; cbn in Hf; lia).
  destruct (@cell_centre tower tower_shape all_on tower_g tower_fn (cnodes tower_shape) tower_X [] g tower_geom tower_coords H 1%nat Hc (@tower_nobg 1%nat)) as (V & C & _ & _ & EV & _).
  destruct (@c71_sides_fill_the_surface tower tower_shape all_on tower_g tower_fn (cnodes tower_shape) tower_X [] g 1%nat tower_geom tower_oriented tower_coords H eq_refl Hc (@tower_nobg 1%nat) F) as (ss & vs & A1 & A2 & A4).
  destruct (@c71_sides_sum_to_the_cell tower tower_shape all_on tower_g tower_fn (cnodes tower_shape) tower_X [] g 1%nat V tower_geom tower_oriented tower_coords H eq_refl Hc (@tower_nobg 1%nat) F EV (or_intror tower_tet)) as (ss' & vs' & B1 & B2 & B3).
  assert (ss' = ss) by congruence. subst ss'. assert (vs' = vs) by congruence. subst vs'.
  assert (E : rsum vs = 1 / 6).
  { rewrite (A4 (Pt 3 0 0 0)). unfold volume_from, all_tris, out_faces, out_face, sum_of, tdet, det3, mean, sum_of. cbn. field. }
  exists g, ss, vs. assert (EV6 : V = 1 / 6) by congruence. rewrite EV6 in EV. auto.
Qed.
(** the plane: the first quad is strictly convex, its sides add up to h * h *)
Lemma quads_convex h : 0 < h -> convex_ccw (at_nodes (quads_X h) (cnodes quads_shape 0)).
Proof.
  intros P. split.
  - cbn. repeat constructor; cbn; intuition; match goal with E : Pt _ _ _ _ = Pt _ _ _ _ |- _ => injection E; lra end.
  - intros a b c Hab Hc N1 N2. cbn in Hab, Hc. repeat (destruct Hab as [Hab|Hab]; [injection Hab as <- <-|]); [..|destruct Hab]; (repeat (destruct Hc as [<-|Hc]; [|]); [..|destruct Hc]); try congruence; unfold tri_area; cbn; nra.
Qed.
Example c71_plane_witness : exists g ss vs, history quads_g [quads_X 2] g /\ cell_get_sides (gm quads_g) 0 = Ok ss /\ mapM (fun s => side_volume quads_g (quads_X 2) g s false) ss = Ok vs /\
  cell_volume quads_g (quads_X 2) g 0 false = Ok 4 /\ rsum vs = 4.
Proof.
  destruct (quads_history 2) as [g H]. destruct (@c71_plane_convex quads quads_shape all_on quads_g quads_fn (cnodes quads_shape) (quads_X 2) [] g 0%nat quads_geom quads_oriented (quads_coords 2) H eq_refl) as (ss & vs & A1 & A2 & A3 & A4).
  - cbv; lia.
  - unfold cell_has_type. cbn. intuition discriminate.
  - apply quads_convex. lra.
  - assert (E : rsum vs = 4) by (rewrite A4; unfold shoelace, sum_of, wedge2; cbn; field). exists g, ss, vs. rewrite E in A3. auto.
Qed.
(** its corners (and wedges) as well *)
Example c71_corner_witness : exists g ws ks us vs, history tower_g [tower_X] g /\ cell_get_wedges (gm tower_g) 0 = Ok ws /\ cell_get_corners (gm tower_g) 0 = Ok ks /\
  mapM (fun w => wedge_volume tower_g tower_X g w false) ws = Ok us /\ mapM (fun k => corner_volume tower_g tower_X g k false) ks = Ok vs /\ rsum us = 1 / 2 /\ rsum vs = 1 / 2.
Proof.
  destruct c71_prism_witness as (g & ss & vs & H & A1 & A2 & _ & A3). assert (Hc : (0 < ncells tower)%nat) by (cbv; lia).
  destruct (@c71_wedges_sum_to_the_sides tower tower_shape all_on tower_g tower_X [] g 0%nat tower_built H eq_refl Hc) as (ss1 & ws & vs1 & us & B1 & B2 & B3 & B4 & B5).
  destruct (@c71_corners_sum_to_the_sides tower tower_shape all_on tower_g tower_X [] g 0%nat tower_built H eq_refl Hc (@tower_nobg 0%nat)) as (ss2 & ks & vs2 & ws2 & C1 & C2 & C3 & C4 & C5).
  assert (ss1 = ss) by congruence. assert (ss2 = ss) by congruence. subst ss1 ss2. assert (vs1 = vs) by congruence. assert (vs2 = vs) by congruence. subst vs1 vs2.
  exists g, ws, ks, us, ws2. rewrite B5, C5. auto 10.
Qed.
(** the face shared by the prism and the tetrahedron: from the prism its normal is (0, 0, 1/2) and the other five vertices are not in front of it *)
Example c61_outward_witness : exists g m n d, history tower_g [tower_X] g /\ face_centroid tower_g tower_X g 1 false = Ok m /\ face_normal tower_g tower_X g 1 false (Some 0%nat) = Ok (n, d) /\
  n = Pt 3 0 0 (1 / 2) /\ (exists v, In v (at_nodes tower_X (cnodes tower_shape 0)) /\ dot3 n v < dot3 n m) /\
  (exists d', face_normal tower_g tower_X g 1 false (Some 1%nat) = Ok (Pt 3 0 0 (- (1 / 2)), d')).
Proof.
  destruct tower_history as [g H]. assert (Hc : (0 < ncells tower)%nat) by (cbv; lia). assert (Hf : (1 < nfaces tower)%nat) by (cbv; lia).
  destruct (@centroid_face tower tower_shape all_on tower_g tower_fn (cnodes tower_shape) tower_X tower_geom g (fresh_f tower_geom H) (fresh_c tower_geom H) 1%nat Hf) as (m & Em & _).
  assert (If : face_of tower_shape 0 1) by (unfold face_of; cbn; auto).
  destruct (@c61_outward_space tower tower_shape all_on tower_g tower_fn (cnodes tower_shape) tower_X [] g 0%nat 1%nat false m tower_geom tower_oriented tower_coords H Hc eq_refl tower_convex0 If (@tower_flat 1%nat Hf) Em) as (n & d & En & _ & Q).
  assert (E0 := @c61_normal_of_a_cell tower tower_shape all_on tower_g tower_fn (cnodes tower_shape) tower_X [] g 0%nat 1%nat 1%Z false tower_geom tower_coords H Hc).
  assert (E1 := @c61_normal_of_a_cell tower tower_shape all_on tower_g tower_fn (cnodes tower_shape) tower_X [] g 1%nat 1%nat (-1)%Z false tower_geom tower_coords H).
  exists g, m, n, d. split; auto. split; auto. split; auto. split; [|split; auto].
  - rewrite E0 in En by (cbn; auto). injection En as <- _. unfold turned, natural, varea, sum_of. cbn. f_equal; field.
  - exists (-1)%Z. rewrite E1 by (try (cbv; lia); cbn; auto). do 2 f_equal. unfold turned, natural, varea, sum_of, popp. cbn. f_equal; field.
Qed.
(** the right face of the first quad has two vertices strictly behind it *)
Example c61_plane_witness : exists g n d, history quads_g [quads_X 1] g /\ face_normal quads_g (quads_X 1) g (fst (nth 1 (cfaces quads_shape 0) (0%nat, 0%Z))) true (Some 0%nat) = Ok (n, d) /\
  exists v a, In v (at_nodes (quads_X 1) (cnodes quads_shape 0)) /\ p0 n * (p0 v - p0 a) + p1 n * (p1 v - p1 a) < 0.
Proof.
  destruct (quads_history 1) as [g H]. set (f := fst (nth 1 (cfaces quads_shape 0) (0%nat, 0%Z))).
  destruct (@c61_outward_plane quads quads_shape all_on quads_g quads_fn (cnodes quads_shape) (quads_X 1) [] g 0%nat f true (Pt 2 0 0 0) quads_geom quads_oriented (quads_coords 1) H) as (n & d & E & Q); auto.
  - cbv; lia.
  - apply quads_convex; lra.
  - unfold face_of. cbn. auto.
  - cbn. auto.
  - cbn. intuition; match goal with E : Pt _ _ _ _ = Pt _ _ _ _ |- _ => injection E; lra end.
  - exists g, n, d. split; auto. split; auto. exists (Pt 2 0 0 0). destruct (at_nodes (quads_X 1) (quads_fn f)) as [|a l] eqn:El; [discriminate|]. exists a. split; [cbn; auto|apply Q; simpl; auto].
Qed.
(** the facet normals of the sides of the prism's four-edge face 2 add up to (0, -1, 0); the normals of the prism's faces add up to 0, and the divergence theorem gives 3/2 *)
Example c72_witness : exists g ss ns, history tower_g [tower_X] g /\ (forall s, In s ss <-> (s < n_sides (gm tower_g))%nat /\ side_get_cell (gm tower_g) s = Ok 0%nat /\ side_get_face (gm tower_g) s = Ok 2%nat) /\
  mapM (fun s => side_facet_normal tower_g tower_X g s true) ss = Ok ns /\ vsum (Pt 3 0 (-1) 0) ns.
Proof.
  destruct tower_history as [g H]. assert (Hc : (0 < ncells tower)%nat) by (cbv; lia). assert (If : face_of tower_shape 0 2) by (unfold face_of; cbn; auto).
  destruct (@c72_facets_sum_to_the_face tower tower_shape all_on tower_g tower_fn (cnodes tower_shape) tower_X [] g 0%nat 2%nat false tower_geom tower_oriented tower_coords H Hc If) as (ss & ns & n & d & _ & A2 & A3 & A4 & A5).
  assert (E0 := @c61_normal_of_a_cell tower tower_shape all_on tower_g tower_fn (cnodes tower_shape) tower_X [] g 0%nat 2%nat 1%Z false tower_geom tower_coords H Hc). rewrite E0 in A4 by (cbn; auto). injection A4 as <- _.
  exists g, ss, ns. split; auto. split; auto. split; auto. replace (Pt 3 0 (-1) 0) with (turned 1 (natural tower tower_fn tower_X 2)); auto.
  unfold turned, natural, varea, sum_of. cbn. f_equal; field.
Qed.
Example c73_witness : exists g fds ns vs, history tower_g [tower_X] g /\ cell_get_faces_and_dirs (gm tower_g) 0 = Ok fds /\ length fds = 5%nat /\
  mapM (fun fd => r <- face_normal tower_g tower_X g (fst fd) false (Some 0%nat) ;; Ok (fst r)) fds = Ok ns /\ vsum (Pt 3 0 0 0) ns /\
  mapM (fun fd => r <- face_normal tower_g tower_X g (fst fd) false (Some 0%nat) ;; m <- face_centroid tower_g tower_X g (fst fd) false ;; Ok (dot3 (fst r) m - dot3 (fst r) (Pt 3 7 7 7))) fds = Ok vs /\ rsum vs = 3 / 2.
Proof.
  destruct tower_history as [g H]. assert (Hc : (0 < ncells tower)%nat) by (cbv; lia).
  destruct (@c73_face_normals_sum_to_zero tower tower_shape all_on tower_g tower_fn (cnodes tower_shape) tower_X [] g 0%nat false tower_geom tower_oriented tower_coords H Hc) as (fds & ns & A1 & A2 & A3).
  destruct (@c73_divergence_space tower tower_shape all_on tower_g tower_fn (cnodes tower_shape) tower_X [] g 0%nat false (Pt 3 7 7 7) tower_geom tower_oriented tower_coords H Hc eq_refl) as (fds' & vs & B1 & B2 & B3).
  { intros f Hf. apply tower_flat. change (nfaces tower) with 8%nat. unfold face_of in Hf. cbn in Hf. lia. }
  assert (fds' = fds) by congruence. subst fds'. assert (E := cell_faces tower_geom Hc). rewrite A1 in E. injection E as ->.
  eexists g, _, ns, vs. split; auto. split; [exact A1|]. split; [reflexivity|]. split; auto. split; auto. split; auto.
  rewrite B3. unfold volume_from, all_tris, out_faces, out_face, sum_of, tdet, det3, mean, sum_of. cbn. field.
Qed.
