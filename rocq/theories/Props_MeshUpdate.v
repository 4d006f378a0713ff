(** C60: what update_geometric_quantities refreshes. *)
From Coq Require Import Reals Permutation Lra.
From Verif Require Import Base Loop Defs Factory Cache Cache_spec Cache_proofs Cache_proofs2 Cache_proofs5 Cache_proofs6 Props_Cache Point Geometry Geometry_spec Geometry_proofs
  Props_Polygon Props_Polygon3D Polyhedron_proofs Props_Polyhedron MeshGeom MeshGeom_spec MeshGeom_proofs MeshGeom_proofs2 MeshGeom_examples.
Set Implicit Arguments.
Local Open Scope R_scope.

(** ** the state after an update does not depend on the state before, except for the facet normals *)
Record same_values (M : gmesh) (g h : geo) : Prop := {
  sv_cvol : g_cvol g = g_cvol h; sv_centres : same_centres g h; sv_farea : g_farea g = g_farea h; sv_n0 : g_n0 g = g_n0 h; sv_n1 : g_n1 g = g_n1 h;
  sv_elen : g_elen g = g_elen h; sv_evec : g_evec g = g_evec h; sv_svol : g_svol g = g_svol h; sv_sok : g_sok g = g_sok h;
  sv_k : fl_corners (cm_flags (gm M)) = true -> g_kvol g = g_kvol h /\ g_kok g = g_kok h }.
Lemma built_flags t sh fl m : built t sh fl m -> fl_faces (cm_flags m) = true /\ fl_edges (cm_flags m) = true /\ fl_sides (cm_flags m) = true.
Proof. intros B. rewrite (fa_flags (built_facts B)). assert (S := bl_sides B). destruct (close_closed fl) as (_ & _ & H). destruct (H S). auto. Qed.
Lemma update_same t sh fl M X g g' r r' : built t sh fl (gm M) -> update_geometric_quantities M X g = Ok r -> update_geometric_quantities M X g' = Ok r' -> same_values M r r'.
Proof.
  intros B U U'. apply update_updated in U. apply update_updated in U'. destruct (built_flags B) as (F1 & F2 & F3).
  destruct (up_faces U F1) as (fo & lf & Ef & f1 & f2 & f3 & f4). destruct (up_faces U' F1) as (fo' & lf' & Ef' & f1' & f2' & f3' & f4'). rewrite Ef in Ef'. injection Ef' as <-.
  destruct (up_edges U F2) as (eo & le & Ee & e1 & e2). destruct (up_edges U' F2) as (eo' & le' & Ee' & e1' & e2'). rewrite Ee in Ee'. injection Ee' as <-.
  destruct (up_cells U) as (co & lc & Ec & c1 & c2). destruct (up_cells U') as (co' & lc' & Ec' & c1' & c2'). rewrite Ec in Ec'. injection Ec' as <-.
  assert (SC : same_centres r r') by (constructor; congruence).
  assert (FS : fl_sides (cm_flags (gm M)) || fl_wedges (cm_flags (gm M)) = true) by (rewrite F3; auto).
  destruct (up_sides U FS) as (so & rs & Es & s1 & _). destruct (up_sides U' FS) as (so' & rs' & Es' & s1' & _). rewrite (side_trace_ext _ _ _ SC), Es' in Es. injection Es as ->.
  assert (V : g_svol r = g_svol r').
  { destruct (@wr_all_cover R (ids (gm M) SIDE TYPE_ALL) (map (fun r => fst (fst r)) rs) (num_entities (gm M) SIDE TYPE_ALL) (resize (num_entities (gm M) SIDE TYPE_ALL) 0 (g_svol g))) as (v & E1 & _ & E2).
    - rewrite (side_ids B). rewrite <- (n_sides_eq B). apply Permutation_refl.
    - rewrite map_length. apply (side_trace_length _ _ _ _ _ _ Es').
    - apply resize_length.
    - rewrite E1 in s1. rewrite E2 in s1' by apply resize_length. congruence. }
  constructor; try congruence; auto. intros FC.
  destruct (up_corners U FC) as (ko & ks & Ek & k1). destruct (up_corners U' FC) as (ko' & ks' & Ek' & k1'). split; [|congruence].
  assert (Es2 : mapM (corner_value M X r) (ids (gm M) CORNER TYPE_ALL) = mapM (corner_value M X r') (ids (gm M) CORNER TYPE_ALL)).
  { apply mapM_ext. intros k _. unfold corner_value. destruct (entity_get_type (gm M) CORNER k) as [ty| | | |]; cbn [bind]; auto. destruct ty; auto; apply corner_geom_ext; congruence. }
  rewrite Es2, Ek' in Ek. injection Ek as ->.
  assert (C : fl_corners (close_flags fl) = true) by (rewrite <- (fa_flags (built_facts B)); auto).
  destruct (@c29_lists_partition t sh fl (gm M) CORNER B C) as [_ PC]. cbv zeta in PC.
  destruct (@wr_all_cover R (ids (gm M) CORNER TYPE_ALL) ks _ (resize (num_entities (gm M) CORNER TYPE_ALL) 0 (g_kvol g)) PC) as (v & E1 & _ & E2).
  - apply (mapM_length _ _ Ek').
  - apply resize_length.
  - rewrite E1 in k1. rewrite E2 in k1' by apply resize_length. congruence.
Qed.
Lemma history_update M X xs g : history M (X :: xs) g -> exists g0, update_geometric_quantities M X g0 = Ok g.
Proof. intros H. inversion H; subst; eauto. Qed.

(** after a motion and an update, every query but the facet normals answers as on a mesh newly constructed at these coordinates *)
Theorem c60_update_forgets_the_past : forall t sh fl M X xs g h, built t sh fl (gm M) -> history M (X :: xs) g -> history M [X] h ->
  forall Y i re,
  cell_volume M Y g i re = cell_volume M Y h i re /\ cell_centroid M Y g i re = cell_centroid M Y h i re /\
  face_area M Y g i re = face_area M Y h i re /\ face_centroid M Y g i re = face_centroid M Y h i re /\ (forall c, face_normal M Y g i re c = face_normal M Y h i re c) /\
  edge_length M Y g i re = edge_length M Y h i re /\ (forall n, edge_vector M Y g i re n = edge_vector M Y h i re n) /\ edge_centroid M Y g i = edge_centroid M Y h i /\
  side_volume M Y g i re = side_volume M Y h i re /\ wedge_volume M Y g i re = wedge_volume M Y h i re /\ corner_volume M Y g i re = corner_volume M Y h i re /\
  side_get_coordinates M Y g i re = side_get_coordinates M Y h i re /\ wedge_get_coordinates M Y g i re = wedge_get_coordinates M Y h i re.
Proof.
  intros t sh fl M X xs g h B H1 H2. apply history_update in H1 as [a U1]. apply history_update in H2 as [b U2]. destruct (@update_same t sh fl M X a b g h B U1 U2) as [E1 SC E3 E4 E5 E6 E7 E8 E9 E10].
  assert (SC' := SC). destruct SC' as [S1 S2 S3 S4 S5]. intros Y i re.
  unfold cell_volume, cell_centroid, face_area, face_centroid, face_normal, edge_length, edge_vector, edge_centroid, side_volume, wedge_volume.
  rewrite (side_coords_ext M Y i re SC), !(side_geom_ext M Y i (pzero 0) SC), !(side_geom_ext M Y (i / 2) (pzero 0) SC), E1, S1, S2, E3, S3, S4, E4, E5, E6, E7, S5, E8, E9.
  repeat (split; [reflexivity|]). split.
  - unfold corner_volume. destruct (fl_corners (cm_flags (gm M))) eqn:FC; [|reflexivity]. destruct (E10 eq_refl) as [-> ->]. rewrite (corner_geom_ext M Y Y g h i) by auto. auto.
  - split; [reflexivity|]. unfold wedge_get_coordinates, edge_centroid, face_centroid, cell_centroid. rewrite S1, S2, S3, S4, S5. auto.
Qed.

(** ** cached answers are the recomputed ones *)
Section Fresh.
Variables (t : topo) (sh : shape) (fl : flags) (M : gmesh) (X : coordinates) (xs : list coordinates) (g : geo).
Hypothesis B : built t sh fl (gm M).
Hypothesis H : history M (X :: xs) g.
Lemma fresh_updated : exists g0, updated M X g0 g.
Proof. destruct (history_update H) as [g0 U]. exists g0. apply update_updated. auto. Qed.
Lemma fresh_topo : cm_topo (gm M) = t.
Proof. apply (fa_topo (built_facts B)). Qed.
Lemma fresh_cell c : (c < ncells t)%nat -> exists ty r, rd (cm_ctype (gm M)) c = Ok ty /\ cell_has_type t c ty /\ cell_entry M X c = Ok r /\
  rd (g_cvol g) c = Ok (fst r) /\ rd (g_ccen g) c = Ok (snd r) /\ g_cok g = true.
Proof.
  intros Hc. destruct fresh_updated as [g0 U]. destruct (up_cells U) as (co & l & E & E1 & E2). rewrite fresh_topo in E.
  destruct (mapM_seq _ _ E) as [_ Q]. destruct (Q c Hc) as (r & Er & Nr). destruct (fa_typed (built_facts B)) as [L T].
  exists (ctype_of (cm_ctype (gm M)) c), r. split; [apply ctype_of_rd; lia|]. split; auto. split; auto. rewrite E1, E2. split; [apply (rd_map _ _ _ Nr)|]. split; auto. apply (rd_map _ _ _ Nr).
Qed.
Lemma fresh_face f : (f < nfaces t)%nat -> exists r, compute_face_geometry M X f = Ok r /\ rd (g_farea g) f = Ok (fst (fst r)) /\ rd (g_fcen g) f = Ok (snd (fst r)) /\
  rd (g_n0 g) f = Ok (fst (snd r)) /\ rd (g_n1 g) f = Ok (snd (snd r)) /\ g_fok g = true.
Proof.
  intros Hf. destruct fresh_updated as [g0 U]. destruct (built_flags B) as (F & _). destruct (up_faces U F) as (co & l & E & E1 & E2 & E3 & E4). rewrite fresh_topo in E.
  destruct (mapM_seq _ _ E) as [_ Q]. destruct (Q f Hf) as (r & Er & Nr). exists r. rewrite E1, E2, E3, E4.
  split; auto. repeat split; auto; exact (rd_map _ _ _ Nr).
Qed.
Lemma fresh_edge e : (e < nedges t)%nat -> exists r, compute_edge_geometry M X e = Ok r /\ rd (g_elen g) e = Ok (fst (fst r)) /\ rd (g_evec g) e = Ok (snd (fst r)) /\ g_eok g = true.
Proof.
  intros Hf. destruct fresh_updated as [g0 U]. destruct (built_flags B) as (_ & F & _). destruct (up_edges U F) as (co & l & E & E1 & E2). rewrite fresh_topo in E.
  destruct (mapM_seq _ _ E) as [_ Q]. destruct (Q e Hf) as (r & Er & Nr). exists r. rewrite E1, E2.
  split; auto. repeat split; auto; exact (rd_map _ _ _ Nr).
Qed.
Lemma wr_all_read A (l : list nat) (vs : list A) n a r i : l = seq 0 n -> length vs = n -> length a = n -> wr_all (combine l vs) a = Ok r -> r = vs /\ nth_error r i = nth_error vs i.
Proof.
  intros -> L La E. rewrite <- L in E at 1. assert (Q := @wr_all_seq A vs [] a ltac:(lia)). cbn [length app] in Q. rewrite Q in E. injection E as <-. auto.
Qed.
Lemma fresh_side s : (s < n_sides (gm M))%nat -> exists ty r, entity_get_type (gm M) SIDE s = Ok ty /\ rd (g_svol g) s = Ok (fst (fst r)) /\ g_sok g = true /\
  (ty <> BOUNDARY_GHOST -> compute_side_geometry M X g s (pzero (sdim M)) = Ok r) /\ (ty = BOUNDARY_GHOST -> fst (fst r) = 0).
Proof.
  intros Hs. destruct fresh_updated as [g0 U]. destruct (built_flags B) as (_ & _ & F). destruct (@up_sides _ _ _ _ U) as (so & rs & Es & s1 & _); [rewrite F; auto|].
  assert (Ls := side_trace_length _ _ _ _ _ _ Es). assert (Ei : ids (gm M) SIDE TYPE_ALL = seq 0 (n_sides (gm M))) by (apply (c24_side_ids_are_consecutive B)).
  rewrite Ei, seq_length in Ls. destruct (nth_error rs s) as [r|] eqn:Nr; [|apply nth_error_None in Nr; lia].
  destruct (@side_trace_at M X g _ (pzero (sdim M)) (pzero (sdim M)) rs s s r (fun _ => eq_refl) Es) as (ty & Et & T1 & T2); [rewrite Ei; apply seq_at; auto|auto|].
  exists ty, r. split; auto. split; [|auto].
  assert (N : nth_error (g_svol g) s = nth_error (map (fun r : res => fst (fst r)) rs) s).
  { eapply wr_all_read; [exact Ei| |apply resize_length|exact s1]. rewrite map_length. auto. }
  apply rd_Ok. rewrite N, nth_error_map, Nr. auto.
Qed.
Lemma fresh_corner k : fl_corners (close_flags fl) = true -> (k < n_corners (gm M))%nat -> exists v, corner_value M X g k = Ok v /\ rd (g_kvol g) k = Ok v /\ g_kok g = true.
Proof.
  intros C Hk. destruct fresh_updated as [g0 U]. destruct (@up_corners _ _ _ _ U) as (ko & ks & Ek & k1); [rewrite (fa_flags (built_facts B)); auto|].
  destruct (@c29_lists_partition t sh fl (gm M) CORNER B C) as [_ PC]. cbv zeta in PC.
  assert (I : In k (ids (gm M) CORNER TYPE_ALL)) by (apply (Permutation_in _ (Permutation_sym PC)); apply in_seq; unfold n_corners in Hk; lia).
  destruct (In_nth_error _ _ I) as [i Ni]. destruct (mapM_at _ _ _ Ek Ni) as (v & Ev & Nv). exists v. split; auto. split; auto.
  assert (ND : NoDup (ids (gm M) CORNER TYPE_ALL)) by (apply (Permutation_NoDup (Permutation_sym PC)); apply seq_NoDup).
  destruct (@wr_all_spec R (combine (ids (gm M) CORNER TYPE_ALL) ks) (resize (num_entities (gm M) CORNER TYPE_ALL) 0 (g_kvol g0))) as (r & E & _ & Q & _).
  - intros j w J. apply in_combine_l in J. apply (Permutation_in _ PC) in J. apply in_seq in J. rewrite resize_length. lia.
  - intros j w w' J J'. eapply combine_fun; eauto.
  - rewrite E in k1. injection k1 as <-. apply rd_Ok. apply Q. clear -Ni Nv. revert ks i Ni Nv. generalize (ids (gm M) CORNER TYPE_ALL) as l.
    induction l as [|x l IH]; intros ks i Ni Nv; [destruct i; discriminate|]. destruct ks as [|y ks]; [destruct i; discriminate|]. destruct i as [|i]; cbn [nth_error combine] in *; [left; congruence|right; eauto].
Qed.
End Fresh.

(** on a mesh whose last motion was followed by an update, the stored value is what recomputing gives *)
Theorem c60_cached_equals_recomputed : forall t sh fl M X xs g, built t sh fl (gm M) -> history M (X :: xs) g ->
  (forall c, (c < ncells t)%nat -> ~ In c (cells_bghost t) ->
     cell_volume M X g c false = cell_volume M X g c true /\ cell_centroid M X g c false = cell_centroid M X g c true) /\
  (forall f, (f < nfaces t)%nat -> face_area M X g f false = face_area M X g f true /\ face_centroid M X g f false = face_centroid M X g f true /\
     forall c, face_normal M X g f false c = face_normal M X g f true c) /\
  (forall e, (e < nedges t)%nat -> edge_length M X g e false = edge_length M X g e true /\ forall n, edge_vector M X g e false n = edge_vector M X g e true n) /\
  (forall s c, (s < n_sides (gm M))%nat -> side_get_cell (gm M) s = Ok c -> ~ In c (cells_bghost t) -> tp_mdim t <> 1%nat -> side_volume M X g s false = side_volume M X g s true) /\
  (forall w c, (w < n_wedges (gm M))%nat -> fl_wedges (close_flags fl) = true -> wedge_get_cell (gm M) w = Ok c -> ~ In c (cells_bghost t) -> tp_mdim t <> 1%nat ->
     wedge_volume M X g w false = wedge_volume M X g w true) /\
  (forall k c, (k < n_corners (gm M))%nat -> fl_corners (close_flags fl) = true -> corner_get_cell (gm M) k = Ok c -> ~ In c (cells_bghost t) ->
     corner_volume M X g k false = corner_volume M X g k true).
Proof.
  intros t sh fl M X xs g B H. destruct (built_flags B) as (F1 & F2 & F3).
  assert (NB : forall c ty, cell_has_type t c ty -> ~ In c (cells_bghost t) -> ty <> BOUNDARY_GHOST).
  { intros c ty T N ->. destruct T as [[? _]|[[? _]|[_ T]]]; try discriminate. auto. }
  assert (QS : forall s c, (s < n_sides (gm M))%nat -> side_get_cell (gm M) s = Ok c -> ~ In c (cells_bghost t) -> exists r, rd (g_svol g) s = Ok (fst (fst r)) /\ g_sok g = true /\ compute_side_geometry M X g s (pzero (sdim M)) = Ok r).
  { intros s c Hs Ec N. destruct (fresh_side B H Hs) as (ty & r & Et & V & K & T & _). exists r. split; auto. split; auto. apply T.
    destruct (@c29_reported_type_is_the_cells_type t sh fl (gm M) SIDE s B (bl_sides B) Hs) as (c' & ct & O & T' & E').
    unfold cell_of in O. rewrite Ec in O. injection O as <-. rewrite Et in E'. injection E' as <-. apply (NB _ _ T' N). }
  split; [|split; [|split; [|split; [|split]]]].
  - intros c Hc N. destruct (fresh_cell B H Hc) as (ty & r & Et & T & E & V & C & K). assert (Q : compute_cell_geometry M X c = Ok r).
    { unfold cell_entry in E. rewrite Et in E. cbn [bind] in E. specialize (NB _ _ T N). destruct ty; auto. congruence. }
    unfold cell_volume, cell_centroid. rewrite Q, K. cbn [bind asserting]. auto.
  - intros f Hf. destruct (fresh_face B H Hf) as (r & E & V1 & V2 & V3 & V4 & K). unfold face_area, face_centroid, face_normal. rewrite F1, E, V1, V2, V3, V4, K. cbn [bind asserting andb].
    split; [reflexivity|]. split; [reflexivity|]. intros c. destruct (snd r); auto.
  - intros e He. destruct (fresh_edge B H He) as (r & E & V1 & V2 & K). unfold edge_length, edge_vector. rewrite F2, E, V1, V2, K. cbn [bind asserting andb]. auto.
  - intros s c Hs Ec N D. destruct (QS s c Hs Ec N) as (r & V & K & E). unfold side_volume. rewrite F3, K, V. cbn [asserting andb].
    rewrite side_geom_mid by (unfold mdim; rewrite (fresh_topo M B); intros; congruence). rewrite E. auto.
  - intros w c Hw W Ec N D. unfold wedge_get_cell in Ec. destruct (swT B W) as [Esw EW]. rewrite Esw in Ec. cbn [asserting] in Ec.
    assert (Hs : (w / 2 < n_sides (gm M))%nat) by (rewrite (n_wedges_eq B W) in Hw; rewrite (n_sides_eq B); apply Nat.div_lt_upper_bound; lia).
    destruct (QS _ c Hs Ec N) as (r & V & K & E). unfold wedge_volume. rewrite EW, K, V. cbn [asserting andb bind].
    rewrite side_geom_mid by (unfold mdim; rewrite (fresh_topo M B); intros; congruence). rewrite E. auto.
  - intros k c Hk C Ec N. destruct (fresh_corner B H C Hk) as (v & E & V & K). unfold corner_volume. rewrite K, V. rewrite (fa_flags (built_facts B)), C. cbn [asserting andb].
    destruct (@c29_reported_type_is_the_cells_type t sh fl (gm M) CORNER k B C Hk) as (c' & ct & O & T' & E'). unfold cell_of in O. rewrite Ec in O. injection O as <-.
    unfold corner_value in E. rewrite E' in E. cbn [bind] in E. specialize (NB _ _ T' N). destruct ct; auto. congruence.
Qed.

Example c60_witness : exists g0 g, geom_mesh quads quads_shape all_on quads_g quads_fn (cnodes quads_shape) /\ history quads_g [quads_X 1] g0 /\ history quads_g [quads_X 2; quads_X 1] g.
Proof.
  destruct (@update_total _ _ _ _ _ _ (quads_X 1) geo0 quads_geom (quads_coords 1)) as [g0 E0]. destruct (@update_total _ _ _ _ _ _ (quads_X 2) g0 quads_geom (quads_coords 2)) as [g E].
  exists g0, g. split; [exact quads_geom|]. split; [constructor; auto|]. econstructor; [|exact E]. constructor. auto.
Qed.
(** the update succeeds at every motion of a 2D or 3D mesh *)
Theorem c60_update_succeeds : forall t sh fl M fn cv X g, geom_mesh t sh fl M fn cv -> coords_ok t X -> exists g', update_geometric_quantities M X g = Ok g'.
Proof. exact update_total. Qed.

(** ** the exception: the facet normals of sides and wedges stay those of the construction *)
Lemma facets_at t sh fl M X xs g0 g i : built t sh fl (gm M) -> history M (xs ++ [X]) g -> history M [X] g0 -> (i < n_sides (gm M))%nat ->
  nth_error (g_sout g) i = nth_error (g_sout g0) i /\ nth_error (g_smid g) i = nth_error (g_smid g0) i.
Proof.
  intros B H H0 Hi. destruct (built_flags B) as (_ & _ & F3). assert (FS : fl_sides (cm_flags (gm M)) || fl_wedges (cm_flags (gm M)) = true) by (rewrite F3; auto).
  inversion H0 as [X0 q U|? ? ? ? HN]; subst; [|inversion HN]. 
  assert (L0 : (i < length (g_sout g0))%nat /\ (i < length (g_smid g0))%nat).
  { destruct (up_sides (update_updated _ _ _ U) FS) as (_ & rs & T & _ & E1 & E2). rewrite E1, E2, !app_length, !map_length. apply side_trace_length in T. rewrite (c24_side_ids_are_consecutive B), seq_length in T. unfold res in *. lia. }
  revert g H. induction xs as [|Y xs IH]; intros g H; cbn [app] in H.
  - inversion H as [X1 q1 U1|? ? ? ? HN]; subst; [|inversion HN]. assert (g = g0) by congruence. subst. auto.
  - inversion H as [X1 q1 U1|X1 xs1 g1 g2 H1 U1]; subst.
    + destruct xs; discriminate.
    + destruct (IH g1 H1) as [I1 I2]. destruct (up_sides (update_updated _ _ _ U1) FS) as (_ & rs & _ & _ & E1 & E2). rewrite E1, E2.
      assert (N1 : (i < length (g_sout g1))%nat) by (apply nth_error_Some; rewrite I1; apply nth_error_Some; tauto).
      assert (N2 : (i < length (g_smid g1))%nat) by (apply nth_error_Some; rewrite I2; apply nth_error_Some; tauto).
      rewrite !nth_error_app1 by auto. auto.
Qed.
Theorem c60_stored_facet_normals_never_change : forall t sh fl M X xs g0 g, built t sh fl (gm M) -> history M (xs ++ [X]) g -> history M [X] g0 ->
  (forall s Y, (s < n_sides (gm M))%nat -> side_facet_normal M Y g s false = side_facet_normal M Y g0 s false) /\
  (forall w i Y, (w < n_wedges (gm M))%nat -> fl_wedges (close_flags fl) = true -> wedge_facet_normal M Y g w i false = wedge_facet_normal M Y g0 w i false).
Proof.
  intros t sh fl M X xs g0 g B H H0. destruct (built_flags B) as (_ & _ & F3). assert (FS : fl_sides (cm_flags (gm M)) || fl_wedges (cm_flags (gm M)) = true) by (rewrite F3; auto).
  assert (K : g_sok g = true /\ g_sok g0 = true).
  { split; [|inversion H0 as [? ? U|? ? ? ? HN]; subst; [|inversion HN]; apply (up_sides (update_updated _ _ _ U) FS)].
    destruct xs as [|Y xs]; cbn [app] in H; apply history_update in H as [q U]; apply (up_sides (update_updated _ _ _ U) FS). }
  destruct K as [K K0]. split.
  - intros s Y Hs. unfold side_facet_normal, rd. rewrite K, K0. destruct (@facets_at t sh fl M X xs g0 g s B H H0 Hs) as [-> _]. auto.
  - intros w i Y Hw W. assert (Hs : (w / 2 < n_sides (gm M))%nat) by (rewrite (n_wedges_eq B W) in Hw; rewrite (n_sides_eq B); apply Nat.div_lt_upper_bound; lia).
    unfold wedge_facet_normal, rd. rewrite K, K0. destruct (@facets_at t sh fl M X xs g0 g _ B H H0 Hs) as [-> ->]. auto.
Qed.
(** at construction they are the recomputed ones *)
Theorem c60_facet_normals_at_construction : forall t sh fl M X g, built t sh fl (gm M) -> history M [X] g ->
  (forall s c, (s < n_sides (gm M))%nat -> side_get_cell (gm M) s = Ok c -> ~ In c (cells_bghost t) -> side_facet_normal M X g s false = side_facet_normal M X g s true) /\
  (forall w c i, (w < n_wedges (gm M))%nat -> fl_wedges (close_flags fl) = true -> wedge_get_cell (gm M) w = Ok c -> ~ In c (cells_bghost t) ->
     wedge_facet_normal M X g w i false = wedge_facet_normal M X g w i true).
Proof.
  intros t sh fl M X g B H. destruct (built_flags B) as (_ & _ & F3). assert (FS : fl_sides (cm_flags (gm M)) || fl_wedges (cm_flags (gm M)) = true) by (rewrite F3; auto).
  inversion H as [X0 q U|? ? ? ? HN]; subst; [|inversion HN]. destruct (up_sides (update_updated _ _ _ U) FS) as (K & rs & T & _ & E1 & E2). cbn [geo0 g_sout g_smid app] in E1, E2.
  assert (Ls := side_trace_length _ _ _ _ _ _ T). assert (Ei : ids (gm M) SIDE TYPE_ALL = seq 0 (n_sides (gm M))) by (apply (c24_side_ids_are_consecutive B)). rewrite Ei, seq_length in Ls.
  assert (Q : forall s c, (s < n_sides (gm M))%nat -> side_get_cell (gm M) s = Ok c -> ~ In c (cells_bghost t) -> exists r, compute_side_geometry M X g s (pzero (sdim M)) = Ok r /\
    rd (g_sout g) s = Ok (snd (fst r)) /\ rd (g_smid g) s = Ok (snd r)).
  { intros s c Hs Ec N. destruct (nth_error rs s) as [r|] eqn:Nr; [|apply nth_error_None in Nr; lia].
    destruct (@side_trace_at M X g _ (pzero (sdim M)) (pzero (sdim M)) rs s s r (fun _ => eq_refl) T) as (ty & Et & T1 & _); [rewrite Ei; apply seq_at; auto|auto|].
    exists r. rewrite E1, E2. split; [|split; exact (rd_map _ _ _ Nr)]. apply T1. intros ->.
    destruct (@c29_reported_type_is_the_cells_type t sh fl (gm M) SIDE s B (bl_sides B) Hs) as (c' & ct & O & T' & E'). unfold cell_of in O. rewrite Ec in O. injection O as <-. rewrite Et in E'. injection E' as <-.
    destruct T' as [[? _]|[[? _]|[_ T']]]; try discriminate. auto. }
  split.
  - intros s c Hs Ec N. destruct (Q s c Hs Ec N) as (r & E & V & _). unfold side_facet_normal. rewrite E, V. auto.
  - intros w c i Hw W Ec N. unfold wedge_get_cell in Ec. destruct (swT B W) as [Esw EW]. rewrite Esw in Ec. cbn [asserting] in Ec.
    assert (Hs : (w / 2 < n_sides (gm M))%nat) by (rewrite (n_wedges_eq B W) in Hw; rewrite (n_sides_eq B); apply Nat.div_lt_upper_bound; lia).
    destruct (Q _ c Hs Ec N) as (r & E & V & V'). unfold wedge_facet_normal. rewrite E, V, V', K, EW. cbn [bind andb asserting]. destruct i as [|[|i]]; auto.
Qed.
(** so after a motion and an update the stored facet normals can be wrong (here: half as long as they should be) *)
Lemma quads_trip0 : nth_error (trips quads quads_shape) 0 = Some (0%nat, (0%nat, 1%Z), (0%nat, 1%Z)).
Proof. reflexivity. Qed.
Lemma quads_gbuilt : built quads quads_shape all_on (gm quads_g).
Proof. exact quads_built. Qed.
Lemma quads_ns : (0 < n_sides (gm quads_g))%nat.
Proof. change (n_sides (gm quads_g)) with (n_sides quads_mesh). rewrite (proj1 quads_counts). lia. Qed.
Lemma quads_fs : fl_sides (cm_flags (gm quads_g)) = true.
Proof. apply (built_flags quads_gbuilt). Qed.
Lemma quads_sc0 : side_get_cell (gm quads_g) 0 = Ok 0%nat.
Proof. vm_compute. reflexivity. Qed.
Lemma quads_nb : ~ In 0%nat (cells_bghost quads).
Proof. simpl. tauto. Qed.
Section Fresh2.
Variables (t : topo) (sh : shape) (fl : flags) (M : gmesh) (fn cv : nat -> list nat) (X : coordinates) (xs : list coordinates) (g : geo).
Hypothesis G : geom_mesh t sh fl M fn cv.
Hypothesis H : history M (X :: xs) g.
Lemma fresh_f : g_fok g = true /\ length (g_fcen g) = nfaces t.
Proof.
  destruct (@fresh_updated M X xs g H) as [g0 U]. destruct (built_flags (gq_built G)) as (F & _). destruct (up_faces U F) as (co & l & E & _ & E2 & _). split; auto.
  rewrite E2, map_length, (mapM_length _ _ E), seq_length, (fresh_topo M (gq_built G)). auto.
Qed.
Lemma fresh_c : g_cok g = true /\ length (g_ccen g) = ncells t.
Proof.
  destruct (@fresh_updated M X xs g H) as [g0 U]. destruct (up_cells U) as (co & l & E & _ & E2). split; auto.
  rewrite E2, map_length, (mapM_length _ _ E), seq_length, (fresh_topo M (gq_built G)). auto.
Qed.
Lemma fresh_e : g_eok g = true.
Proof. destruct (@fresh_updated M X xs g H) as [g0 U]. destruct (built_flags (gq_built G)) as (_ & F & _). apply (up_edges U F). Qed.
Lemma fresh_s : g_sok g = true.
Proof. destruct (@fresh_updated M X xs g H) as [g0 U]. destruct (built_flags (gq_built G)) as (_ & _ & F). apply (up_sides U). rewrite F. auto. Qed.
(** the geometry of a side with the nodes at [Y] and the centres stored in g *)
Lemma fresh_side_geom Y s x mid : coords_ok t Y -> nth_error (trips t sh) s = Some x -> exists fc cc, nth_error (g_fcen g) (tface x) = Some fc /\ nth_error (g_ccen g) (tcell x) = Some cc /\
  let a := node Y (snode t sh x 0) in let b := node Y (snode t sh x 1) in let ec := pdiv (padd (node Y (fst (enodes sh (tedge x)))) (node Y (snd (enodes sh (tedge x))))) 2 in
  compute_side_geometry M Y g s mid =
  if (tp_mdim t =? 3)%nat then
    Ok (dot (cross (psub b a) (psub fc a)) (psub cc a) / 6, smul (- / 2) (cross (psub b a) (psub fc a)), smul (/ 2) (cross (psub fc ec) (psub cc ec)))
  else Ok (norm (cross (psub b a) (psub cc a)) / 2, Pt 2 (p1 (psub b a)) (- p0 (psub b a)) 0, Pt 2 (p1 (psub cc a)) (- p0 (psub cc a)) 0).
Proof. intros HY Hx. apply (@side_geom t sh fl M fn cv Y G HY g fresh_f fresh_c fresh_e s x Hx mid). Qed.
End Fresh2.
Lemma quads_ccen h xs g : 0 < h -> history quads_g (quads_X h :: xs) g -> nth_error (g_ccen g) 0 = Some (Pt 2 (h / 2) (h / 2) 0).
Proof.
  intros P H. destruct (@fresh_cell quads quads_shape all_on quads_g (quads_X h) xs g quads_gbuilt H 0%nat) as (ty & r & Et & _ & E & _ & V & _); [cbv; lia|]. apply rd_Ok in V. rewrite V.
  unfold cell_entry in E. rewrite Et in E. cbn [bind] in E. assert (ty = PARALLEL_OWNED) as -> by (vm_compute in Et; congruence).
  rewrite (cell_geom2 quads_geom (quads_coords h)) in E by (try reflexivity; cbv; lia). rewrite quads_cell0 in E by auto. cbn [bind fst] in E. injection E as <-. auto.
Qed.
Lemma quads_side0 Y h xs g mid : 0 < h -> history quads_g (quads_X h :: xs) g -> coords_ok quads Y -> exists m,
  compute_side_geometry quads_g Y g 0 mid =
   Ok (norm (cross (psub (node Y 1) (node Y 0)) (psub (Pt 2 (h / 2) (h / 2) 0) (node Y 0))) / 2, Pt 2 (p1 (psub (node Y 1) (node Y 0))) (- p0 (psub (node Y 1) (node Y 0))) 0, m).
Proof.
  intros P H HY. destruct (@fresh_side_geom _ _ _ _ _ _ _ _ _ quads_geom H Y 0 _ mid HY quads_trip0) as (fc & cc & _ & Ec & E). cbn [tcell fst] in Ec. rewrite (quads_ccen P H) in Ec. injection Ec as <-.
  cbv zeta in E. eexists. rewrite E. reflexivity.
Qed.
Theorem c60_facet_normal_after_motion_refuted : exists t sh fl M fn cv X0 X1 g s n n', geom_mesh t sh fl M fn cv /\ coords_ok t X0 /\ coords_ok t X1 /\ history M [X1; X0] g /\
  (s < n_sides (gm M))%nat /\ side_facet_normal M X1 g s false = Ok n /\ side_facet_normal M X1 g s true = Ok n' /\ n <> n'.
Proof.
  destruct c60_witness as (g0 & g & _ & H0 & H). exists quads, quads_shape, all_on, quads_g, quads_fn, (cnodes quads_shape), (quads_X 1), (quads_X 2), g, 0%nat, (Pt 2 0 (-1) 0), (Pt 2 0 (-2) 0).
  split; [exact quads_geom|]. split; [apply quads_coords|]. split; [apply quads_coords|]. split; auto. split; [exact quads_ns|].
  destruct (@c60_stored_facet_normals_never_change quads quads_shape all_on quads_g (quads_X 1) [quads_X 2] g0 g quads_gbuilt H H0) as [Q _]. rewrite Q by exact quads_ns.
  destruct (@c60_facet_normals_at_construction quads quads_shape all_on quads_g (quads_X 1) g0 quads_gbuilt H0) as [Q0 _].
  assert (E0 : side_facet_normal quads_g (quads_X 2) g0 0 false = side_facet_normal quads_g (quads_X 1) g0 0 false) by (unfold side_facet_normal; reflexivity). rewrite E0.
  rewrite (Q0 0%nat 0%nat) by (first [exact quads_ns|exact quads_sc0|exact quads_nb|discriminate]).
  destruct (@quads_side0 (quads_X 1) 1 [] g0 (pzero 2) ltac:(lra) H0 (quads_coords 1)) as (m & E1). destruct (@quads_side0 (quads_X 2) 2 [quads_X 1] g (pzero 2) ltac:(lra) H (quads_coords 2)) as (m' & E2).
  assert (S0 := fresh_s quads_geom H0). assert (S1 := fresh_s quads_geom H). unfold side_facet_normal. rewrite S0, S1, quads_fs. change (sdim quads_g) with 2%nat. rewrite E1, E2. cbn [andb asserting bind fst snd]. unfold psub. cbn [node quads_X nth pd p0 p1 p2]. split; [f_equal; f_equal; lra|]. split; [f_equal; f_equal; lra|].
  intros Q1. injection Q1. lra.
Qed.

(** ** coordinates changed, no update yet: asking cells, faces and edges to recompute gives the values of a new mesh *)
Theorem c60_recompute_uses_current_coordinates : forall t sh fl M X X0 xs g h, built t sh fl (gm M) -> history M (X0 :: xs) g -> history M [X] h ->
  (forall c, (c < ncells t)%nat -> ~ In c (cells_bghost t) -> cell_volume M X g c true = cell_volume M X h c false /\ cell_centroid M X g c true = cell_centroid M X h c false) /\
  (forall f, (f < nfaces t)%nat -> face_area M X g f true = face_area M X h f false /\ face_centroid M X g f true = face_centroid M X h f false /\
     forall c, face_normal M X g f true c = face_normal M X h f false c) /\
  (forall e, (e < nedges t)%nat -> edge_length M X g e true = edge_length M X h e false /\ forall n, edge_vector M X g e true n = edge_vector M X h e false n).
Proof.
  intros t sh fl M X X0 xs g h B H H0. destruct (@c60_cached_equals_recomputed t sh fl M X [] h B H0) as (Q1 & Q2 & Q3 & _). destruct (@fresh_updated M X0 xs g H) as [g0 U]. destruct (@fresh_updated M X [] h H0) as [g1 U1].
  destruct (built_flags B) as (F1 & F2 & F3). destruct (up_faces U F1) as [K1 _]. destruct (up_faces U1 F1) as [K1' _]. destruct (up_edges U F2) as [K2 _]. destruct (up_edges U1 F2) as [K2' _].
  destruct (up_cells U) as [K3 _]. destruct (up_cells U1) as [K3' _]. split; [|split].
  - intros c Hc N. destruct (Q1 c Hc N) as [-> ->]. unfold cell_volume, cell_centroid. rewrite K3, K3'. auto.
  - intros f Hf. destruct (Q2 f Hf) as (-> & -> & Q). split; [unfold face_area; rewrite K1, K1'; auto|]. split; [unfold face_centroid; rewrite K1, K1'; auto|]. intros c. rewrite Q. unfold face_normal. rewrite K1, K1'. auto.
  - intros e He. destruct (Q3 e He) as (-> & Q). split; [unfold edge_length; rewrite K2, K2'; auto|]. intros n. rewrite Q. unfold edge_vector. rewrite K2, K2'. auto.
Qed.
(** the same for sides is false: the recomputation uses the stored cell centre *)
Theorem c60_recomputed_side_volume_refuted : exists t sh fl M fn cv X0 X g h s v v', geom_mesh t sh fl M fn cv /\ coords_ok t X0 /\ coords_ok t X /\ history M [X0] g /\ history M [X] h /\
  (s < n_sides (gm M))%nat /\ side_volume M X g s true = Ok v /\ side_volume M X h s false = Ok v' /\ v <> v'.
Proof.
  destruct c60_witness as (g0 & _ & _ & H0 & _). destruct (@update_total _ _ _ _ _ _ (quads_X 2) geo0 quads_geom (quads_coords 2)) as [h E]. assert (H : history quads_g [quads_X 2] h) by (constructor; auto).
  exists quads, quads_shape, all_on, quads_g, quads_fn, (cnodes quads_shape), (quads_X 1), (quads_X 2), g0, h, 0%nat, (1 / 2), 1.
  split; [exact quads_geom|]. split; [apply quads_coords|]. split; [apply quads_coords|]. split; auto. split; auto. split; [exact quads_ns|].
  destruct (@c60_cached_equals_recomputed _ _ _ quads_g _ _ _ quads_gbuilt H) as (_ & _ & _ & Q & _). rewrite (Q 0%nat 0%nat) by (first [exact quads_ns|exact quads_sc0|exact quads_nb|discriminate]).
  destruct (@quads_side0 (quads_X 2) 1 [] g0 (pzero 0) ltac:(lra) H0 (quads_coords 2)) as (m & E1). destruct (@quads_side0 (quads_X 2) 2 [] h (pzero 0) ltac:(lra) H (quads_coords 2)) as (m' & E2).
  unfold side_volume. rewrite (fresh_s quads_geom H0), (fresh_s quads_geom H), quads_fs, E1, E2. cbn [andb asserting bind fst snd]. unfold norm, dot, cross, psub. cbn [node quads_X nth pd p0 p1 p2].
  split; [f_equal; match goal with |- sqrt ?u / 2 = _ => replace u with (1 * 1) by field end; rewrite sqrt_square by lra; field|].
  split; [f_equal; match goal with |- sqrt ?u / 2 = _ => replace u with (2 * 2) by field end; rewrite sqrt_square by lra; field|]. lra.
Qed.
(** and for corners: the recomputation never looks at the coordinates *)
Theorem c60_corner_volume_ignores_coordinates_refuted : forall M X Y g k, corner_volume M X g k true = corner_volume M Y g k true.
Proof. intros. unfold corner_volume. rewrite (corner_geom_ext M X Y g g k) by auto. auto. Qed.
(** in 1D the recomputing queries never return a volume (the assertion in Point::set fails) *)
Theorem c60_recompute_1d_refuted : forall M X g i v, mdim M = 1%nat -> side_volume M X g i true <> Ok v /\ wedge_volume M X g i true <> Ok v.
Proof.
  intros M X g i v D. assert (K : forall s r, compute_side_geometry M X g s (pzero 0) <> Ok r).
  { intros s r E. unfold compute_side_geometry in E. rewrite D in E. repeat (apply bind_inv in E; destruct E as [? [? E]]). discriminate. }
  split; intros E; [unfold side_volume in E|unfold wedge_volume in E]; apply asserting_Ok in E as [_ E]; apply bind_inv in E as [r [E _]]; apply (K _ _ E).
Qed.
(** boundary-ghost cells: stored volume 0 *)
Theorem c60_boundary_ghost : forall t sh fl M X xs g c, built t sh fl (gm M) -> history M (X :: xs) g -> (c < ncells t)%nat -> In c (cells_bghost t) -> cell_volume M X g c false = Ok 0.
Proof.
  intros t sh fl M X xs g c B H Hc I. destruct (fresh_cell B H Hc) as (ty & r & Et & T & E & V & _). unfold cell_volume. rewrite V. unfold cell_entry in E. rewrite Et in E. cbn [bind] in E.
  assert (ty = BOUNDARY_GHOST) as ->.
  { assert (Q : cell_has_type t c BOUNDARY_GHOST) by (right; right; auto). apply (fa_type (built_facts B)) in Q. apply rd_Ok in Et. congruence. }
  injection E as <-. auto.
Qed.
