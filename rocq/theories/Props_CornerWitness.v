(** C71/C82 for tetrahedra, and cases that meet the hypotheses of the theorems on the shape of corners. *)
From Coq Require Import Reals Permutation Lra.
From Verif Require Import Base Loop Defs Factory Cache Cache_spec Cache_proofs Cache_proofs2 Cache_proofs3 Cache_proofs4 Cache_proofs5 Cache_proofs6 Props_Cache Point Geometry Geometry_spec Geometry_proofs
  Polyhedron_proofs Props_Polyhedron Props_Polygon Props_Polygon3D Props_InPolygon MeshGeom MeshGeom_spec MeshGeom_proofs MeshGeom_proofs2 MeshGeom_proofs3 MeshGeom_examples MeshGeom_tower Props_MeshUpdate Props_SideVolume Props_CornerVolume
  Props_SideVolume2D Props_Facets Props_GeomWitness Props_Wedges Props_Segment Props_Line CornerShape CornerShape_proofs Props_CornerShape.
Set Implicit Arguments.
Local Open Scope R_scope.

Lemma F2_in (A B : Type) (R : A -> B -> Prop) l l' x : Forall2 R l l' -> In x l -> exists y, In y l' /\ R x y.
Proof. induction 1 as [|a b l l' H F IH]; cbn; [tauto|]. intros [<-|I]; [eauto|]. destruct (IH I) as (y & Iy & Hy). eauto. Qed.
(** the sides of a tetrahedron all have a twelfth of its volume *)
Theorem c71_tetrahedron_sides : forall t sh fl M fn cv X xs g c V, geom_mesh t sh fl M fn cv -> oriented t sh fn cv -> coords_ok t X -> history M (X :: xs) g ->
  tp_mdim t = 3%nat -> (c < ncells t)%nat -> ~ cell_has_type t c BOUNDARY_GHOST -> tet_cell sh fn (cv c) c -> cell_volume M X g c false = Ok V ->
  forall s, (s < n_sides (gm M))%nat -> side_get_cell (gm M) s = Ok c -> side_volume M X g s false = Ok (V / 12).
Proof.
  intros t sh fl M fn cv X xs g c V G O HX H D Hc NB (a & b & c' & d & fs & Ecv & Pf & F2) EV s Ls Es. assert (B := gq_built G).
  destruct (nth_error (trips t sh) s) as [x|] eqn:Hx; [|apply nth_error_None in Hx; rewrite (n_sides_eq B) in Ls; lia].
  destruct (side_at B _ Hx) as (Sc & _). rewrite Es in Sc. injection Sc as Sc.
  assert (I := nth_error_In _ _ Hx). unfold trips in I. apply in_flat_map in I as (c0 & _ & Ix). assert (c0 = c) by (unfold trips_of in Ix; apply in_flat_map in Ix as (fd & _ & Ix); apply in_map_iff in Ix as (ed & <- & _); auto). subst c0.
  destruct (@trips_of_in t sh fl M fn cv G c x Hc Ix) as (_ & If & Ie & Lf).
  destruct (@side_vol3 t sh fl M fn cv X xs g G O HX H s x D Hx) as (fc & cc & Nf & Nc & ->); [congruence|]. rewrite <- Sc in Nc.
  destruct (cell_centre G HX H Hc NB) as (V' & cc' & EG & Nc' & EV' & _). rewrite Nc in Nc'. injection Nc' as <-. rewrite EV in EV'. injection EV' as <-.
  assert (Dm := @cell_dim t sh fl M fn cv X G HX c Hc). rewrite (@cell_geom3 t sh fl M fn cv X G HX c Hc D), Ecv in EG. rewrite Ecv, D in Dm. cbn [at_nodes map] in EG, Dm.
  rewrite polyhed_tet in EG by (apply Dm; cbn; auto 6). injection EG as <- <-.
  destruct (@F2_in _ _ _ _ _ _ F2 If) as (l & Il & Pl). rewrite (Permutation_in' eq_refl Pf) in Il.
  assert (L3 : length (fn (tface x)) = 3%nat).
  { assert (Q := Permutation_length Pl). rewrite !edges_length in Q. unfold node_face in Q. replace (length (fn (tface x))) with (length l); [destruct Il as [<-|[<-|[<-|[<-|[]]]]]; auto|].
    rewrite <- Q. destruct x as [[cx [f z]] ed]. cbn [fst snd tface] in *. destruct (z =? 1)%Z; rewrite ?rev_length; auto. }
  assert (Efc : fc = mean (at_nodes X l)).
  { destruct (face_centre G H Lf) as (A & C & nn & Ef & N). rewrite N in Nf. injection Nf as ->. destruct (face_geom3 G O HX Lf D) as (A' & C' & nn' & P & E' & _). rewrite Ef in E'. injection E' as <- <- _.
    assert (Df := @face_dim t sh fl M fn cv X G HX _ Lf). rewrite D in Df. destruct (tri_list (at_nodes X (fn (tface x)))) as (u & v & w & Eq); [unfold at_nodes; rewrite map_length; auto|].
    assert (Q := out_mean fn X (snd (fst x))). change (fst (snd (fst x))) with (tface x) in Q. rewrite Eq in *. rewrite polygon3_tri in P by (apply Df; cbn; auto). injection P as _ <-. rewrite <- Q. apply mean_perm. unfold out_face, at_nodes. apply Permutation_map. apply edges_perm_list. auto. }
  assert (Io : In (oedge sh x) (edges l)).
  { apply (Permutation_in _ Pl). apply (Permutation_in _ (@oedges_face t sh fn cv O c (snd (fst x)) D Lf)). apply in_map_iff. exists x. split; auto. unfold trips_at. apply in_map_iff. exists (snd x). split; auto.
    destruct x as [[cx fd] ed]. cbn [fst snd tcell] in *. subst cx. auto. }
  clear - Efc Io Il. f_equal. subst fc. destruct Il as [<-|[<-|[<-|[<-|[]]]]]; cbn in Io; destruct Io as [<-|[<-|[<-|[]]]]; cbn [fst snd pt2];
    unfold det3, mean, sum_of; cbn [at_nodes map rsum length INR p0 p1 p2]; field.
Qed.
(** ... and its wedges a twenty-fourth, so the facets of its corners bound them *)
Theorem c82_tetrahedron : forall t sh fl M fn cv X xs g k c n V, geom_mesh t sh fl M fn cv -> oriented t sh fn cv -> coords_ok t X -> history M (X :: xs) g ->
  fl_corners (close_flags fl) = true -> tp_mdim t = 3%nat -> is_corner (gm M) k c n -> ~ cell_has_type t c BOUNDARY_GHOST -> tet_cell sh fn (cv c) c -> cell_volume M X g c false = Ok V -> 0 < V ->
  exists pts tris faces W, corner_facetization3 M X g k = Ok (pts, tris) /\ Forall2 (fun i l => tri_at pts i = map Some l) tris faces /\ closed faces /\
    corner_volume M X g k false = Ok W /\ 0 < W /\ forall o, volume_from o faces = W.
Proof.
  intros t sh fl M fn cv X xs g k c n V G O HX H C D IC NB T EV PV. assert (B := gq_built G). assert (W := proj1 (close_closed fl) C).
  destruct (@corner_data t sh fl M fn cv G C k c n IC) as (Hc & Ew & _).
  destruct (@c82_facets_space t sh fl M fn cv X xs g k c n G O HX H C D IC NB) as (ws & p & cc & pts & tris & faces & A1 & A2 & A3 & A4 & A5 & _ & _ & A6).
  assert (PW : forall w, In w ws -> exists v, wedge_volume M X g w false = Ok v /\ 0 < v).
  { intros w Iw. rewrite Ew in A1. injection A1 as <-. rewrite (in_cwl B C) in Iw. destruct Iw as (Lw & Ec & _). destruct (@wedge_at t sh fl (gm M) B W w Lw) as (_ & E1 & _). rewrite Ec in E1. clear Ec. rename E1 into Ec.
    destruct (@wedge3 t sh fl M fn cv X xs g G O HX H w c D W Lw Ec NB) as (e & f & n' & a & b & ec & fc & cc' & V' & _ & _ & _ & _ & _ & _ & _ & _ & _ & _ & _ & _ & _ & _ & ES & _ & EW & _).
    assert (Es : side_get_cell (gm M) (w / 2) = Ok c) by (unfold wedge_get_cell in Ec; apply asserting_Ok in Ec as [_ Ec]; auto).
    assert (Ls : (w / 2 < n_sides (gm M))%nat) by (rewrite (n_wedges_eq B W) in Lw; rewrite (n_sides_eq B); apply Nat.div_lt_upper_bound; lia).
    rewrite (@c71_tetrahedron_sides t sh fl M fn cv X xs g c V G O HX H D Hc NB T EV _ Ls Es) in ES. injection ES as <-. exists (V / 12 / 2). split; auto. lra. }
  destruct (A6 PW) as (A7 & (Vk & A8 & A9 & A10) & _). exists pts, tris, faces, Vk. auto 10.
Qed.
(** ** cases *)
(** a tetrahedron: the corner at the top of the tower *)
Example c82_space_witness : exists g k pts tris faces W, history tower_g [tower_X] g /\ is_corner (gm tower_g) k 1 6 /\ corner_facetization3 tower_g tower_X g k = Ok (pts, tris) /\
  Forall2 (fun i l => tri_at pts i = map Some l) tris faces /\ closed faces /\ corner_volume tower_g tower_X g k false = Ok W /\ 0 < W /\ forall o, volume_from o faces = W.
Proof.
  destruct tower_history as [g H]. assert (Hc : (1 < ncells tower)%nat) by (cbv; lia). assert (C : fl_corners (close_flags all_on) = true) by reflexivity.
  destruct (@Props_Cache.c28_corner_at_node tower tower_shape all_on (gm tower_g) 1%nat 6%nat tower_built C Hc) as [[k [Ek Hk]]|[_ Bad]]; [|exfalso; apply Bad; cbn; auto].
  destruct c71_tetrahedron_witness as (g' & _ & _ & H' & _ & _ & EV & _). clear H. exists g', k.
  destruct (@c82_tetrahedron tower tower_shape all_on tower_g tower_fn (cnodes tower_shape) tower_X [] g' k 1%nat 6%nat (1 / 6) tower_geom tower_oriented tower_coords H' C eq_refl Hk (@tower_nobg 1%nat) tower_tet EV ltac:(lra))
    as (pts & tris & faces & W & A). exists pts, tris, faces, W. split; auto.
Qed.
Lemma quads_nbg : ~ cell_has_type quads 0 BOUNDARY_GHOST.
Proof. unfold cell_has_type. cbn. intuition discriminate. Qed.
(** a square *)
Example c82_plane_witness : exists g k p me cc mo V, history quads_g [quads_X 1] g /\ is_corner (gm quads_g) k 0 4 /\ corner_get_coordinates quads_g (quads_X 1) g k = Ok [p; me; cc; mo] /\
  corner_volume quads_g (quads_X 1) g k false = Ok V /\ 0 < V /\ shoelace [p; me; cc; mo] = V.
Proof.
  destruct (quads_history 1) as [g H]. assert (Hc : (0 < ncells quads)%nat) by (cbv; lia). assert (C : fl_corners (close_flags all_on) = true) by reflexivity.
  destruct (@Props_Cache.c28_corner_at_node quads quads_shape all_on (gm quads_g) 0%nat 4%nat quads_built C Hc) as [[k [Ek Hk]]|[_ Bad]]; [|exfalso; apply Bad; cbn; auto]. exists g, k.
  destruct (@c82_coordinates_plane quads quads_shape all_on quads_g quads_fn (cnodes quads_shape) (quads_X 1) [] g k 0%nat 4%nat quads_geom quads_oriented (quads_coords 1) H C eq_refl Hk quads_nbg (@quads_convex 1 ltac:(lra)))
    as (p & me & cc & mo & V & _ & A1 & _ & A2 & A3 & A4). exists p, me, cc, mo, V. repeat (split; auto).
Qed.
(** a dart, reflex at node 4 *)
Definition dart_X : coordinates := [Pt 2 0 0 0; Pt 2 4 0 0; Pt 2 5 0 0; Pt 2 0 4 0; Pt 2 (3 / 2) (3 / 2) 0; Pt 2 5 5 0].
Lemma dart_coords : coords_ok quads dart_X.
Proof. split; [reflexivity|]. intros p H. simpl in H. intuition; subst; reflexivity. Qed.
Lemma dart_cell : polygon 2 2 (at_nodes dart_X (cnodes quads_shape 0)) = Ok (6, Pt 2 (7 / 6) (7 / 6) 0, Pt 2 6 0 0).
Proof.
  destruct (@c48_plane_exact (at_nodes dart_X (cnodes quads_shape 0))) as [A E].
  - simpl. lia.
  - intros p H. simpl in H. intuition; subst; reflexivity.
  - intros e H. unfold mean, tri_area. cbn in H. intuition; subst; cbn; lra.
  - rewrite E. assert (S1 : shoelace (at_nodes dart_X (cnodes quads_shape 0)) = 6) by (unfold shoelace, sum_of, Geometry_spec.wedge2; cbn; field).
    unfold centroid_x, centroid_y. rewrite S1. unfold sum_of, Geometry_spec.wedge2. cbn. do 3 f_equal. f_equal; field; lra.
Qed.
Example c82_reflex_witness : exists g k l V, history quads_g [dart_X] g /\ is_corner (gm quads_g) k 0 4 /\ corner_get_coordinates quads_g dart_X g k = Ok l /\ corner_volume quads_g dart_X g k false = Ok V /\ 0 < V /\ shoelace l = - V.
Proof.
  destruct (@update_total _ _ _ _ _ _ dart_X geo0 quads_geom dart_coords) as [g E]. assert (H : history quads_g [dart_X] g) by (constructor; auto). clear E.
  assert (Hc : (0 < ncells quads)%nat) by (cbv; lia). assert (C : fl_corners (close_flags all_on) = true) by reflexivity.
  destruct (@Props_Cache.c28_corner_at_node quads quads_shape all_on (gm quads_g) 0%nat 4%nat quads_built C Hc) as [[k [Ek Hk]]|[_ Bad]]; [|exfalso; apply Bad; cbn; auto]. exists g, k.
  assert (Ecc : cell_centroid quads_g dart_X g 0 false = Ok (Pt 2 (7 / 6) (7 / 6) 0)).
  { destruct (@centroid_cell quads quads_g dart_X g (fresh_f quads_geom H) (fresh_c quads_geom H) 0%nat Hc) as (cc & Ecc & Ncc). rewrite Ecc. f_equal.
    destruct (cell_centre quads_geom dart_coords H Hc quads_nbg) as (V & C' & EG & N & _). rewrite Ncc in N. injection N as <-. rewrite (cell_geom2 quads_geom dart_coords) in EG by (auto; reflexivity). rewrite dart_cell in EG. cbn [bind fst] in EG. injection EG as _ <-. auto. }
  destruct (@c82_coordinates_reflex_refuted quads quads_shape all_on quads_g quads_fn (cnodes quads_shape) dart_X [] g k 0%nat 4%nat (Pt 2 (7 / 6) (7 / 6) 0) quads_geom quads_oriented dart_coords H C eq_refl Hk quads_nbg) as (l & V & A); auto.
  - cbn. repeat constructor; cbn; intros I; repeat (destruct I as [I|I]; [injection I; intros; lra|]); auto.
  - intros e I. unfold tri_area. cbn in I. repeat (destruct I as [<-|I]; [cbn; lra|]). destruct I.
  - intros p a b Ep I1 I2. cbn in Ep. injection Ep as <-. cbn in I1, I2.
    assert (Ea : a = Pt 2 4 0 0) by (destruct I1 as [Q|[Q|[Q|[Q|[]]]]]; injection Q; intros; try (exfalso; lra); auto).
    assert (Eb : b = Pt 2 0 4 0) by (destruct I2 as [Q|[Q|[Q|[Q|[]]]]]; injection Q; intros; try (exfalso; lra); auto). subst. unfold tri_area. cbn. lra.
  - exists l, V. auto.
Qed.
(** a segment of a spherical line mesh after a motion *)
Example c82_line_witness : exists m g k0 k1, moved_line [0; 1; 3] (Flags true true true true true) m SPHERICAL [1; 2; 5] [on_line [0; 1; 3]] g /\
  is_corner m k0 1 1 /\ is_corner m k1 1 2 /\ corner_get_coordinates (line_g m SPHERICAL) (on_line [1; 2; 5]) g k0 = Ok [P1 2; P1 ((2 + 5) / 2)] /\ corner_get_coordinates (line_g m SPHERICAL) (on_line [1; 2; 5]) g k1 = Ok [P1 5; P1 ((2 + 5) / 2)].
Proof.
  destruct c71_line_witness as (m & g & MV & SO). destruct (@c82_line_order_refuted _ _ _ _ _ _ _ MV 1%nat 2 5 SO eq_refl) as (k0 & k1 & A1 & A2 & A3 & A4 & _). exists m, g, k0, k1. auto.
Qed.
