(** update_geometric_quantities succeeds on every 2D and 3D mesh. *)
From Coq Require Import Reals Permutation Lra.
From Verif Require Import Base Loop Defs Factory Cache Cache_spec Cache_proofs Cache_proofs2 Cache_proofs5 Cache_proofs6 Props_Cache Point Geometry Geometry_spec Geometry_proofs
  Props_Polygon Props_Polygon3D Polyhedron_proofs Props_Polyhedron MeshGeom MeshGeom_spec MeshGeom_proofs.
Set Implicit Arguments.
Local Open Scope R_scope.

Lemma smul_pos r p : (0 < pd (smul r p))%nat.
Proof. unfold smul. destruct (pd p) as [|[|[|n]]]; cbn [pd]; lia. Qed.

Section G.
Variables (t : topo) (sh : shape) (fl : flags) (M : gmesh) (fn cv : nat -> list nat) (X : coordinates).
Hypothesis G : geom_mesh t sh fl M fn cv.
Hypothesis HX : coords_ok t X.
Let B := gq_built G.

Lemma gm_topo : cm_topo (gm M) = t.
Proof. apply (fa_topo (built_facts B)). Qed.
Lemma gm_mdim : mdim M = tp_mdim t.
Proof. unfold mdim. rewrite gm_topo. auto. Qed.
Lemma gm_dim_pos : (0 < sdim M)%nat.
Proof. rewrite (gq_sdim G). destruct (gq_dim G); lia. Qed.
Lemma gm_flags : fl_faces (cm_flags (gm M)) = true /\ fl_edges (cm_flags (gm M)) = true /\ fl_sides (cm_flags (gm M)) = true.
Proof. rewrite (fa_flags (built_facts B)). assert (S := bl_sides B). destruct (close_closed fl) as (_ & _ & H). destruct (H S). auto. Qed.
Lemma gm_fm : framework_mesh t sh.
Proof. apply (bl_mesh B). Qed.
Lemma gm_provides : provides t sh.
Proof. destruct gm_fm as [_ _ _ P|L _]; auto. assert (D := ln_dim L). destruct (gq_dim G); lia. Qed.
Lemma gm_conn : connectivity t sh.
Proof. apply (fm_connectivity gm_fm). Qed.
Lemma cell_faces c : (c < ncells t)%nat -> cell_get_faces_and_dirs (gm M) c = Ok (cfaces sh c).
Proof.
  intros Hc. assert (Md := made_of _ _ (bl_ok B)). assert (E := md_cf Md). destruct gm_flags as (Ff & _). rewrite (md_flags Md) in Ff. rewrite Ff in E.
  apply when_true in E as [cf [Ec Em]]. unfold cache_cell2face_info in Ec. unfold cell_get_faces_and_dirs. rewrite Em. cbn [need bind].
  destruct (mapM_seq _ _ Ec) as [_ H]. destruct (H c Hc) as (y & Ey & Ny). rewrite (pv_cf gm_provides Hc) in Ey. injection Ey as <-. apply rd_Ok. auto.
Qed.
Lemma face_cells f : (f < nfaces t)%nat -> exists l, fw_face_cells t f = Ok l /\ face_get_cells (gm M) f TYPE_ALL = Ok (map Z.of_nat l) /\
  forall c, In c l <-> (c < ncells t)%nat /\ face_of sh c f.
Proof.
  intros Hf. destruct (gq_fc G Hf) as (l & El & H). exists l. split; auto. split; auto. apply (@c63_all_cells_of_the_face t (close_flags fl)); auto.
  - apply (bl_ok B).
  - destruct gm_flags as (F & _). rewrite (fa_flags (built_facts B)) in F. auto.
Qed.
(** the direction in which a cell uses a face *)
Lemma find_dir_in l f d : NoDup (map fst l) -> In (f, d) l -> find_dir l f = Ok d.
Proof.
  induction l as [|[f' d'] l IH]; intros ND I; [destruct I|]. cbn [find_dir]. apply NoDup_cons_iff in ND as [N ND]. destruct I as [E|I].
  - injection E as -> ->. rewrite Nat.eqb_refl. auto.
  - destruct (Nat.eqb_spec f' f) as [->|Ne]; auto. exfalso. apply N. apply (in_map fst _ _ I).
Qed.
Lemma find_dir_none l f : ~ In f (map fst l) -> find_dir l f = AssertFail.
Proof.
  induction l as [|[f' d'] l IH]; intros N; cbn [find_dir]; auto. simpl in N. destruct (Nat.eqb_spec f' f); [tauto|]. apply IH. tauto.
Qed.
Lemma dir_at c f d : (c < ncells t)%nat -> In (f, d) (cfaces sh c) -> cell_face_dir M c f = Ok d.
Proof. intros Hc I. unfold cell_face_dir. rewrite cell_faces by auto. cbn [bind]. apply find_dir_in; auto. apply (cn_face_nodup gm_conn Hc). Qed.
Lemma dir_ex c f : face_of sh c f -> exists d, In (f, d) (cfaces sh c).
Proof. intros I. apply in_map_iff in I as [[f' d] [E I]]. simpl in E. subst. eauto. Qed.
Lemma dir_none c f : (c < ncells t)%nat -> ~ face_of sh c f -> cell_face_dir M c f = AssertFail.
Proof. intros Hc N. unfold cell_face_dir. rewrite cell_faces by auto. cbn [bind]. apply find_dir_none. auto. Qed.
(** coordinates *)
Lemma rd_node n : (n < nnodes t)%nat -> rd X n = Ok (nth n X (Pt 0 0 0 0)).
Proof. intros H. apply rd_Ok. apply nth_error_nth'. rewrite (proj1 HX). auto. Qed.
Lemma node_dim n : (n < nnodes t)%nat -> pd (nth n X (Pt 0 0 0 0)) = tp_mdim t.
Proof. intros H. apply (proj2 HX). apply nth_In. rewrite (proj1 HX). auto. Qed.
Lemma mapM_nodes l : (forall n, In n l -> (n < nnodes t)%nat) -> mapM (rd X) l = Ok (at_nodes X l).
Proof. intros H. apply mapM_fun. intros n Hn. apply rd_node. auto. Qed.
Lemma at_nodes_dim l : (forall n, In n l -> (n < nnodes t)%nat) -> all_dim (tp_mdim t) (at_nodes X l).
Proof. intros H p Hp. unfold at_nodes in Hp. apply in_map_iff in Hp as [n [<- Hn]]. apply node_dim. auto. Qed.
Lemma face_coords f : (f < nfaces t)%nat -> face_get_coordinates M X f = Ok (at_nodes X (fn f)).
Proof. intros H. destruct (gq_fn G H) as [E R]. unfold face_get_coordinates. rewrite E. cbn [bind]. apply mapM_nodes; auto. Qed.
Lemma cell_coords c : (c < ncells t)%nat -> cell_get_coordinates M X c = Ok (at_nodes X (cv c)).
Proof. intros H. destruct (gq_cv G H) as [E R]. unfold cell_get_coordinates. rewrite E. cbn [bind]. apply mapM_nodes; auto. Qed.
Lemma face_dim f : (f < nfaces t)%nat -> all_dim (tp_mdim t) (at_nodes X (fn f)).
Proof. intros H. apply at_nodes_dim. apply (gq_fn G H). Qed.
Lemma cell_dim c : (c < ncells t)%nat -> all_dim (tp_mdim t) (at_nodes X (cv c)).
Proof. intros H. apply at_nodes_dim. apply (gq_cv G H). Qed.
(** the face of a cell, counter-clockwise seen from outside *)
Lemma out_face_eq fd : (out_face fn X) fd = if (snd fd =? 1)%Z then at_nodes X (fn (fst fd)) else rev (at_nodes X (fn (fst fd))).
Proof. unfold out_face, node_face. destruct (snd fd =? 1)%Z; auto. unfold at_nodes. apply map_rev. Qed.
Lemma cell_face_coords fd : (fst fd < nfaces t)%nat -> cell_face_coordinates M X fd = Ok ((out_face fn X) fd).
Proof. intros H. unfold cell_face_coordinates. rewrite face_coords by auto. rewrite out_face_eq. reflexivity. Qed.
Lemma out_faces_dim c : (c < ncells t)%nat -> tp_mdim t = 3%nat -> all3 ((out_faces sh fn X) c).
Proof.
  intros Hc D l Hl p Hp. unfold out_faces in Hl. apply in_map_iff in Hl as [[f d] [<- I]]. destruct (cn_face gm_conn _ _ Hc I) as [Hf _].
  rewrite out_face_eq in Hp. cbn [fst snd] in Hp. rewrite <- D. apply (face_dim Hf). destruct (d =? 1)%Z; auto. apply in_rev. auto.
Qed.
Lemma polygon_total d l : (d = 2 \/ d = 3)%nat -> all_dim d l -> exists r, polygon d d l = Ok r.
Proof.
  intros Hd D. destruct (lt_dec (length l) 3) as [L|L].
  { unfold polygon. destruct Hd as [->| ->]; cbn [pset pzero pd bind]; destruct (Nat.ltb_spec (length l) 3); try lia; eauto. }
  destruct Hd as [->| ->].
  - destruct (@c48_plane_normal_is_signed_area l) as (A & C & E); auto; try lia. eauto.
  - destruct (@c48_space_normal_is_vector_area l) as (A & C & E & _); auto; try lia. eauto.
Qed.
Lemma polyhed_total cc faces : all_dim 3 cc -> all3 faces -> exists r, polyhed 3 cc (length faces) (map (@length _) faces) (concat faces) = Ok r.
Proof.
  intros Dc D. destruct (lt_dec (length cc) 4) as [L|L]; [rewrite c49_degenerate by auto; eauto|].
  destruct (Nat.eq_dec (length cc) 4) as [E|E].
  - destruct cc as [|a [|b [|c [|d [|e cc]]]]]; try discriminate. rewrite polyhed_tet by (apply Dc; simpl; auto 6). eauto.
  - rewrite polyhed_eq by (auto; lia). cbv zeta. eauto.
Qed.
Lemma cell_geom3 c : (c < ncells t)%nat -> tp_mdim t = 3%nat ->
  compute_cell_geometry M X c = polyhed 3 (at_nodes X (cv c)) (length ((out_faces sh fn X) c)) (map (@length _) ((out_faces sh fn X) c)) (concat ((out_faces sh fn X) c)).
Proof.
  intros Hc D. unfold compute_cell_geometry. rewrite gm_mdim, D, cell_faces by auto. cbn [bind].
  rewrite (mapM_fun _ (out_face fn X)) by (intros [f d] I; apply cell_face_coords; apply (cn_face gm_conn _ _ Hc I)). cbn [bind]. rewrite cell_coords by auto. cbn [bind].
  rewrite (gq_sdim G), D. unfold out_faces. rewrite map_length. reflexivity.
Qed.
Lemma cell_geom2 c : (c < ncells t)%nat -> tp_mdim t = 2%nat ->
  compute_cell_geometry M X c = (r <- polygon 2 2 (at_nodes X (cv c)) ;; Ok (fst r)).
Proof. intros Hc D. unfold compute_cell_geometry. rewrite gm_mdim, D, cell_coords by auto. cbn [bind]. rewrite (gq_sdim G), D. reflexivity. Qed.
Lemma cell_geom_total c : (c < ncells t)%nat -> exists r, compute_cell_geometry M X c = Ok r.
Proof.
  intros Hc. destruct (gq_dim G) as [D|D].
  - rewrite cell_geom2 by auto. destruct (@polygon_total 2 (at_nodes X (cv c)) (or_introl eq_refl)) as (r & ->); [rewrite <- D; apply cell_dim; auto|]. cbn [bind]. eauto.
  - rewrite cell_geom3 by auto. apply polyhed_total; [rewrite <- D; apply cell_dim; auto|apply out_faces_dim; auto].
Qed.
(** faces *)
Lemma zeros : pset (pzero (sdim M)) 0 = Ok (Pt (sdim M) 0 0 0).
Proof. rewrite (gq_sdim G). destruct (gq_dim G) as [-> | ->]; reflexivity. Qed.
Lemma set_normals_ok f normal n0 n1 : (f < nfaces t)%nat -> exists r, set_normals M f normal n0 n1 = Ok r /\
  (forall c d, (c < ncells t)%nat -> In (f, d) (cfaces sh c) -> if (d =? 1)%Z then fst r = normal else snd r = popp normal) /\
  (fst r = normal \/ fst r = n0 /\ forall c, (c < ncells t)%nat -> ~ In (f, 1%Z) (cfaces sh c)) /\
  (snd r = popp normal \/ snd r = n1 /\ forall c, (c < ncells t)%nat -> ~ In (f, (-1)%Z) (cfaces sh c)).
Proof.
  intros Hf. destruct (face_cells Hf) as (l & _ & Eg & Hl). unfold set_normals. rewrite Eg. cbn [bind]. clear Eg.
  assert (K : forall l n0 n1, (forall c, In c l -> (c < ncells t)%nat /\ face_of sh c f) -> exists r,
    foldM (map Z.of_nat l) (fun c ns => d <- cell_face_dir M (Z.to_nat c) f ;; Ok (if (d =? 1)%Z then (normal, snd ns) else (fst ns, popp normal))) (n0, n1) = Ok r /\
    (forall c d, In c l -> In (f, d) (cfaces sh c) -> if (d =? 1)%Z then fst r = normal else snd r = popp normal) /\
    (fst r = normal \/ fst r = n0 /\ forall c, In c l -> ~ In (f, 1%Z) (cfaces sh c)) /\ (snd r = popp normal \/ snd r = n1 /\ forall c, In c l -> ~ In (f, (-1)%Z) (cfaces sh c))).
  { clear l Hl n0 n1. induction l as [|c l IH]; intros n0 n1 H.
    - exists (n0, n1). split; auto. split; [intros c d []|]. split; right; auto.
    - destruct (H c (or_introl eq_refl)) as [Hc Fc]. destruct (dir_ex _ _ Fc) as [d Id]. cbn [map foldM]. rewrite Nat2Z.id, (dir_at _ _ Hc Id). cbn [bind].
      assert (Ud : forall d', In (f, d') (cfaces sh c) -> d' = d) by (intros d' I'; assert (E1 := dir_at _ _ Hc Id); assert (E2 := dir_at _ _ Hc I'); congruence).
      destruct (cn_face gm_conn _ _ Hc Id) as [_ Dd].
      destruct (Z.eqb_spec d 1) as [->|N].
      + destruct (IH normal n1) as (r & Er & H1 & H2 & H3); [intros; apply H; right; auto|]. cbn [fst snd]. exists r. split; auto.
        assert (F : fst r = normal) by (destruct H2 as [|[]]; auto). split; [|split; auto].
        * intros c' d' [->|I] I'; [rewrite (Ud _ I'); auto|apply (H1 c' d' I I')].
        * destruct H3 as [|[H3 H4]]; auto. right. split; auto. intros c' [->|I] I'; [apply Ud in I'; discriminate|eapply H4; eauto].
      + assert (d = -1)%Z as -> by (destruct Dd; congruence).
        destruct (IH n0 (popp normal)) as (r & Er & H1 & H2 & H3); [intros; apply H; right; auto|]. cbn [fst snd]. exists r. split; auto.
        assert (F : snd r = popp normal) by (destruct H3 as [|[]]; auto). split; [|split; auto].
        * intros c' d' [->|I] I'; [rewrite (Ud _ I'); auto|apply (H1 c' d' I I')].
        * destruct H2 as [|[H2 H4]]; auto. right. split; auto. intros c' [->|I] I'; [apply Ud in I'; discriminate|eapply H4; eauto]. }
  destruct (K l n0 n1) as (r & Er & H1 & H2 & H3); [intros c I; apply Hl; auto|]. exists r. split; auto. split.
  - intros c d Hc I. apply (H1 c d); auto. apply Hl. split; auto. apply (in_map fst _ _ I).
  - split; [destruct H2 as [|[? H2]]; auto|destruct H3 as [|[? H3]]; auto]; right; split; auto; intros c Hc I.
    + apply (H2 c); auto. apply Hl. split; auto. apply (in_map fst _ _ I).
    + apply (H3 c); auto. apply Hl. split; auto. apply (in_map fst _ _ I).
Qed.
(** the natural normal of a face *)
Lemma two_list A (l : list A) : length l = 2%nat -> exists a b, l = [a; b].
Proof. destruct l as [|a [|b [|c l]]]; try discriminate. eauto. Qed.
Lemma face_geom_ok f : (f < nfaces t)%nat -> (tp_mdim t = 3%nat -> (3 <= length (fn f))%nat) -> exists A C n0 n1,
  compute_face_geometry M X f = Ok (A, C, (n0, n1)) /\ pd C = tp_mdim t /\
  (forall c d, (c < ncells t)%nat -> In (f, d) (cfaces sh c) -> if (d =? 1)%Z then n0 = natural t fn X f else n1 = popp (natural t fn X f)) /\
  (n0 = natural t fn X f \/ n0 = Pt (sdim M) 0 0 0 /\ forall c, (c < ncells t)%nat -> ~ In (f, 1%Z) (cfaces sh c)) /\
  (n1 = popp (natural t fn X f) \/ n1 = Pt (sdim M) 0 0 0 /\ forall c, (c < ncells t)%nat -> ~ In (f, (-1)%Z) (cfaces sh c)).
Proof.
  intros Hf H3. unfold compute_face_geometry. rewrite zeros. cbn [bind]. rewrite gm_mdim. unfold natural, right_normal. destruct (gq_dim G) as [D|D]; rewrite D; cbn [Nat.eqb].
  - rewrite face_coords by auto. cbn [bind]. assert (L := gq_two G D Hf). assert (Dm := face_dim Hf). rewrite D in Dm.
    destruct (two_list _ L) as (a & b & E). rewrite E in *. cbn [at_nodes map] in *. set (A := nth a X _) in *. set (C := nth b X _) in *. cbn [rd nth_error bind nth].
    rewrite (gq_sdim G), D. cbn [Nat.eqb]. assert (Da : pd A = 2%nat) by (apply Dm; simpl; auto).
    assert (Dc : pd C = 2%nat) by (apply Dm; simpl; auto).
    assert (Es : Pt 2 (p1 (psub C A)) (- p0 (psub C A)) 0 = Pt 2 (p1 C - p1 A) (- (p0 C - p0 A)) 0) by (unfold psub; rewrite Dc; auto). rewrite Es.
    destruct (@set_normals_ok f (Pt 2 (p1 C - p1 A) (- (p0 C - p0 A)) 0) (Pt 2 0 0 0) (Pt 2 0 0 0) Hf) as ([n0 n1] & -> & H1 & H2 & H4). cbn [bind]. do 4 eexists. split; [reflexivity|].
    split; [unfold smul, padd; rewrite Da; reflexivity|]. split; [exact H1|]. split; [exact H2|exact H4].
  - rewrite face_coords by auto. cbn [bind]. assert (Dm := face_dim Hf). rewrite D in Dm. rewrite (gq_sdim G), D.
    destruct (@c48_space_normal_is_vector_area (at_nodes X (fn f))) as (A & C & E & _); [unfold at_nodes; rewrite map_length; auto|auto|]. rewrite E. cbn [bind fst snd].
    destruct (@set_normals_ok f (varea (at_nodes X (fn f))) (Pt 3 0 0 0) (Pt 3 0 0 0) Hf) as ([n0 n1] & -> & H1 & H2 & H4). cbn [bind]. do 4 eexists. split; [reflexivity|].
    split; [|split; [exact H1|split; [exact H2|exact H4]]].
    destruct (Nat.eq_dec (length (at_nodes X (fn f))) 3) as [E3|E3].
    + destruct (tri_list _ E3) as (x & y & z & Eq). rewrite Eq in *. rewrite polygon3_tri in E by (apply Dm; simpl; auto). injection E as <- <-. reflexivity.
    + assert (3 < length (at_nodes X (fn f)))%nat by (unfold at_nodes in *; rewrite map_length in *; specialize (H3 D); lia). rewrite polygon3 in E by auto. injection E as <- <-. reflexivity.
Qed.
Lemma face_geom_total f : (f < nfaces t)%nat -> exists r, compute_face_geometry M X f = Ok r.
Proof.
  intros Hf. destruct (gq_dim G) as [D|D].
  - destruct (@face_geom_ok f Hf) as (A & C & n0 & n1 & E & _); [intros; congruence|eauto].
  - unfold compute_face_geometry. rewrite zeros. cbn [bind]. rewrite gm_mdim, D, face_coords by auto. cbn [bind]. rewrite (gq_sdim G), D.
    destruct (@polygon_total 3 (at_nodes X (fn f)) (or_intror eq_refl)) as (r & ->); [rewrite <- D; apply face_dim; auto|]. cbn [bind].
    destruct (@set_normals_ok f (snd r) (Pt 3 0 0 0) (Pt 3 0 0 0) Hf) as (r' & -> & _). cbn [bind]. eauto.
Qed.
(** edges *)
Lemma edge_nodes_ok e : (e < nedges t)%nat -> edge_get_nodes M e = Ok (enodes sh e).
Proof.
  intros He. unfold edge_get_nodes. rewrite (fa_en (built_facts B)). rewrite rd_tab by auto. rewrite (enodes'_eq e gm_fm). auto.
Qed.
Definition node (n : nat) : point := nth n X (Pt 0 0 0 0).
Lemma edge_geom e : (e < nedges t)%nat -> let a := node (fst (enodes sh e)) in let b := node (snd (enodes sh e)) in
  compute_edge_geometry M X e = Ok (norm (psub b a), psub b a, smul (/ 2) (padd a b)).
Proof.
  intros He a b. destruct (gq_en G He) as [H1 H2]. unfold compute_edge_geometry. rewrite zeros. cbn [bind]. rewrite edge_nodes_ok by auto. cbn [bind].
  unfold node_get_coordinates. rewrite !rd_node by auto. reflexivity.
Qed.
Lemma cell_type_at c : (c < ncells t)%nat -> exists ty, rd (cm_ctype (gm M)) c = Ok ty /\ cell_has_type t c ty.
Proof.
  intros Hc. destruct (fa_typed (built_facts B)) as [L H]. exists (ctype_of (cm_ctype (gm M)) c). split; auto. apply ctype_of_rd. lia.
Qed.
(** sides *)
Variable g : geo.
Hypothesis Hf : g_fok g = true /\ length (g_fcen g) = nfaces t.
Hypothesis Hc : g_cok g = true /\ length (g_ccen g) = ncells t.
Hypothesis He : g_eok g = true.
Lemma snode_lt x i : In x (trips t sh) -> (snode t sh x i < nnodes t)%nat.
Proof.
  intros I. destruct (T_range gm_fm _ I) as (_ & _ & L & _). destruct (gq_en G L) as [H1 H2]. unfold snode, orient, side_orient. rewrite (enodes'_eq (tedge x) gm_fm).
  destruct (tp_mdim t =? 2)%nat; destruct (i =? 0)%nat; cbn [fst snd]; repeat match goal with |- context [if ?b then _ else _] => destruct b end; auto.
Qed.
Lemma centroid_cell c : (c < ncells t)%nat -> exists p, cell_centroid M X g c false = Ok p /\ nth_error (g_ccen g) c = Some p.
Proof.
  intros L. unfold cell_centroid. rewrite (proj1 Hc). cbn [asserting]. destruct (nth_error (g_ccen g) c) as [p|] eqn:E; [|apply nth_error_None in E; rewrite (proj2 Hc) in E; lia].
  exists p. split; auto. apply rd_Ok. auto.
Qed.
Lemma centroid_face f : (f < nfaces t)%nat -> exists p, face_centroid M X g f false = Ok p /\ nth_error (g_fcen g) f = Some p.
Proof.
  intros L. unfold face_centroid. destruct gm_flags as (F & _). rewrite F, (proj1 Hf). cbn [asserting andb]. destruct (nth_error (g_fcen g) f) as [p|] eqn:E; [|apply nth_error_None in E; rewrite (proj2 Hf) in E; lia].
  exists p. split; auto. apply rd_Ok. auto.
Qed.
Lemma centroid_edge e : (e < nedges t)%nat -> edge_centroid M X g e = Ok (pdiv (padd (node (fst (enodes sh e))) (node (snd (enodes sh e)))) 2).
Proof.
  intros L. unfold edge_centroid. destruct gm_flags as (_ & F & _). rewrite F, He. cbn [asserting andb]. rewrite edge_nodes_ok by auto. cbn [bind].
  destruct (gq_en G L) as [H1 H2]. unfold node_get_coordinates. rewrite !rd_node by auto. reflexivity.
Qed.
Lemma side_edge_at s x : nth_error (trips t sh) s = Some x -> exists si, cm_sides (gm M) = Some si /\ rd (side_edge_id si) s = Ok (tedge x).
Proof.
  intros Hx. destruct (fa_sides (built_facts B)) as [opp [E _]]. eexists. split; [exact E|]. cbn [final_info side_edge_id]. apply (rd_map _ _ _ Hx).
Qed.
(** the side's geometry, from its two nodes, the face's and the cell's stored centres *)
Lemma side_geom s x : nth_error (trips t sh) s = Some x -> forall mid, exists fc cc, nth_error (g_fcen g) (tface x) = Some fc /\ nth_error (g_ccen g) (tcell x) = Some cc /\
  let a := node (snode t sh x 0) in let b := node (snode t sh x 1) in let ec := pdiv (padd (node (fst (enodes sh (tedge x)))) (node (snd (enodes sh (tedge x))))) 2 in
  compute_side_geometry M X g s mid =
  if (tp_mdim t =? 3)%nat then
    Ok (dot (cross (psub b a) (psub fc a)) (psub cc a) / 6, smul (- / 2) (cross (psub b a) (psub fc a)), smul (/ 2) (cross (psub fc ec) (psub cc ec)))
  else Ok (norm (cross (psub b a) (psub cc a)) / 2, Pt 2 (p1 (psub b a)) (- p0 (psub b a)) 0, Pt 2 (p1 (psub cc a)) (- p0 (psub cc a)) 0).
Proof.
  intros Hx mid. assert (I := nth_error_In _ _ Hx). destruct (T_range gm_fm _ I) as (Lc & Lf & Le & _).
  destruct (centroid_cell Lc) as (cc & Ecc & Ncc). destruct (centroid_face Lf) as (fc & Efc & Nfc). exists fc, cc. split; auto. split; auto. cbv zeta.
  destruct (side_at B _ Hx) as (Sc & Sf & Se & Sn). destruct (side_edge_at _ Hx) as (si & Esi & Rs). destruct gm_flags as (_ & _ & FS).
  unfold compute_side_geometry, side_get_coordinates. rewrite gm_mdim, FS, Sc, Sf, !Sn by lia. cbn [asserting].
  destruct (gq_dim G) as [D|D]; rewrite D; cbn [Nat.eqb bind]; unfold node_get_coordinates; rewrite !rd_node by (apply snode_lt; auto); cbn [bind].
  - rewrite Ecc. cbn [bind rd nth_error]. rewrite Esi. cbn [need bind]. rewrite Rs. cbn [bind]. rewrite centroid_edge by auto. reflexivity.
  - rewrite Efc. cbn [bind]. rewrite Ecc. cbn [bind rd nth_error]. rewrite Esi. cbn [need bind]. rewrite Rs. cbn [bind]. rewrite centroid_edge by auto. reflexivity.
Qed.
Lemma side_type s x : nth_error (trips t sh) s = Some x -> exists ty, entity_get_type (gm M) SIDE s = Ok ty /\ cell_has_type t (tcell x) ty.
Proof.
  intros Hx. destruct (T_range gm_fm _ (nth_error_In _ _ Hx)) as (Lc & _). destruct (cell_type_at Lc) as (ty & E & H). exists ty. split; auto.
  unfold entity_get_type. destruct gm_flags as (_ & _ & ->). destruct (fa_sides (built_facts B)) as [opp [Es _]]. rewrite Es. cbn [final_info side_cell_id].
  rewrite (rd_map _ _ _ Hx). cbn [bind]. auto.
Qed.
Lemma side_trace_total : forall l o mi, (forall s, In s l -> (s < length (trips t sh))%nat) -> (0 < pd o)%nat -> (0 < pd mi)%nat -> exists rs, side_trace M X g l o mi = Ok rs.
Proof.
  induction l as [|s l IH]; intros o mi Hl Ho Hm; cbn [side_trace]; [eauto|].
  destruct (nth_error (trips t sh) s) as [x|] eqn:Hx; [|apply nth_error_None in Hx; specialize (Hl s (or_introl eq_refl)); lia].
  destruct (side_type _ Hx) as (ty & Et & Hty). destruct (side_geom _ Hx mi) as (fc & cc & _ & _ & Eg).
  assert (Q : exists r, side_entry M X g s o mi = Ok r /\ (0 < pd (snd (fst r)))%nat /\ (0 < pd (snd r))%nat).
  { unfold side_entry. rewrite Et. cbn [bind].
    assert (K : exists r, compute_side_geometry M X g s mi = Ok r /\ (0 < pd (snd (fst r)))%nat /\ (0 < pd (snd r))%nat).
    { cbv zeta in Eg. destruct (tp_mdim t =? 3)%nat; rewrite Eg; eexists; (split; [reflexivity|]); cbn [fst snd pd]; [|lia].
      split; apply smul_pos. }
    destruct ty; auto. unfold pset. destruct (pd o) as [|[|[|]]]; [lia|..]; (destruct (pd mi) as [|[|[|]]]; [lia|..]); cbn [bind]; eexists; (split; [reflexivity|]); cbn [fst snd pd]; lia. }
  destruct Q as (r & -> & Q1 & Q2). cbn [bind]. destruct (IH (snd (fst r)) (snd r)) as (rs & ->); auto. { intros; apply Hl; right; auto. } cbn [bind]. eauto.
Qed.
(** corners *)
Hypothesis Hs : g_sok g = true /\ length (g_svol g) = length (trips t sh).
Lemma corner_value_total k : fl_corners (close_flags fl) = true -> (k < n_corners (gm M))%nat -> exists v, corner_value M X g k = Ok v.
Proof.
  intros C Hk. assert (W := proj1 (close_closed fl) C). destruct (@c29_reported_type_is_the_cells_type t sh fl (gm M) CORNER k B C Hk) as (c & ct & _ & _ & Et).
  unfold corner_value. rewrite Et. cbn [bind]. destruct (c28_one_corner_per_cell_and_node B C) as [K _]. destruct (K k Hk) as (c0 & n0 & IC & _).
  destruct (c28_corner_wedges B C IC) as (ws & Ew & _ & _ & Hw).
  assert (V : exists v, compute_corner_geometry M X g k = Ok v).
  { unfold compute_corner_geometry. rewrite Ew. cbn [bind]. assert (Hl : forall w, In w ws -> (w / 2 < length (g_svol g))%nat).
    { intros w I. apply Hw in I as [L _]. rewrite (n_wedges_eq B W) in L. rewrite (proj2 Hs). apply Nat.div_lt_upper_bound; lia. }
    clear Ew Hw. generalize 0 as acc. induction ws as [|w ws IH]; intros acc; cbn [foldM]; [eauto|]. unfold wedge_volume at 1. destruct (swT B W) as [_ ->]. rewrite (proj1 Hs). cbn [asserting andb].
    destruct (nth_error (g_svol g) (w / 2)) as [v|] eqn:E; [|apply nth_error_None in E; specialize (Hl w (or_introl eq_refl)); lia].
    apply rd_Ok in E. rewrite E. cbn [bind]. apply IH. intros; apply Hl; right; auto. }
  destruct ct; eauto.
Qed.
End G.

(** writing every entry *)
Lemma combine_In A B (l : list A) (r : list B) a : length l = length r -> In a l -> exists b, In (a, b) (combine l r).
Proof.
  revert r. induction l as [|x l IH]; intros [|y r] L I; simpl in *; try discriminate; [tauto|]. destruct I as [->|I]; [eauto|]. destruct (IH r ltac:(lia) I) as [b Hb]. eauto.
Qed.
Lemma combine_fun A B (l : list A) (r : list B) a b b' : NoDup l -> In (a, b) (combine l r) -> In (a, b') (combine l r) -> b = b'.
Proof.
  revert r. induction l as [|x l IH]; intros [|y r] ND I I'; simpl in *; try tauto. apply NoDup_cons_iff in ND as [N ND].
  destruct I as [E|I], I' as [E'|I']; try congruence; [| |eauto].
  - injection E as -> ->. apply in_combine_l in I'. tauto.
  - injection E' as -> ->. apply in_combine_l in I. tauto.
Qed.
Lemma wr_all_cover A (l : list nat) (vs : list A) n a : Permutation l (seq 0 n) -> length vs = length l -> length a = n ->
  exists r, wr_all (combine l vs) a = Ok r /\ length r = n /\ forall b, length b = n -> wr_all (combine l vs) b = Ok r.
Proof.
  intros P L La. assert (ND : NoDup l) by (apply (Permutation_NoDup (Permutation_sym P)); apply seq_NoDup).
  assert (In1 : forall i, In i l <-> (i < n)%nat) by (intros i; split; intros I; [apply (Permutation_in _ P) in I; apply in_seq in I; lia|apply (Permutation_in _ (Permutation_sym P)); apply in_seq; lia]).
  assert (Q : forall b, length b = n -> exists r, wr_all (combine l vs) b = Ok r /\ length r = n /\ forall i v, In (i, v) (combine l vs) -> nth_error r i = Some v).
  { intros b Lb. destruct (@wr_all_spec A (combine l vs) b) as (r & E & Lr & H1 & _).
    - intros i v I. apply in_combine_l in I. apply In1 in I. lia.
    - intros i v v' I I'. eapply combine_fun; eauto.
    - exists r. split; auto. split; [lia|auto]. }
  destruct (Q a La) as (r & E & Lr & H). exists r. split; auto. split; auto. intros b Lb. destruct (Q b Lb) as (r' & E' & Lr' & H'). rewrite E'. f_equal.
  apply nth_error_ext. intros i. destruct (le_lt_dec n i) as [Hi|Hi]; [rewrite !(proj2 (nth_error_None _ _)) by lia; auto|].
  destruct (@combine_In _ _ l vs i) as [v Hv]; [auto|apply In1; auto|]. rewrite (H _ _ Hv), (H' _ _ Hv). auto.
Qed.

Lemma update_total t sh fl M fn cv X g : geom_mesh t sh fl M fn cv -> coords_ok t X -> exists g', update_geometric_quantities M X g = Ok g'.
Proof.
  intros G HX. assert (B := gq_built G). destruct (gm_flags G) as (F1 & F2 & F3). unfold update_geometric_quantities. rewrite F1, F2, F3. cbn [orb].
  destruct (@mapM_exists _ _ (compute_face_geometry M X) (seq 0 (nfaces t))) as [lf Elf]; [intros f I; apply in_seq in I; apply (face_geom_total G HX); lia|].
  destruct (@mapM_exists _ _ (compute_edge_geometry M X) (seq 0 (nedges t))) as [le Ele]; [intros e I; apply in_seq in I; rewrite (edge_geom G HX) by lia; eauto|].
  destruct (@mapM_exists _ _ (cell_entry M X) (seq 0 (ncells t))) as [lc Elc].
  { intros c I. apply in_seq in I. unfold cell_entry. destruct (@cell_type_at _ _ _ _ _ _ G c) as (ty & -> & _); [lia|]. cbn [bind]. destruct ty; try (apply (cell_geom_total G HX); lia). eauto. }
  unfold compute_faces. rewrite (gm_topo G), Elf. cbn [bind]. unfold compute_edges. rewrite (gm_topo G), Ele. cbn [bind]. unfold compute_cells. rewrite (gm_topo G), Elc. cbn [bind]. cbn.
  unfold compute_sides at 1. cbn.
  match goal with |- context [foldM _ (side_step M X ?h) _] => set (g3 := h) end.
  assert (Hf : g_fok g3 = true /\ length (g_fcen g3) = nfaces t) by (cbn; rewrite map_length, (mapM_length _ _ Elf), seq_length; auto).
  assert (Hc : g_cok g3 = true /\ length (g_ccen g3) = ncells t) by (cbn; rewrite map_length, (mapM_length _ _ Elc), seq_length; auto).
  assert (P0 := gm_dim_pos G).
  change (opt_list (cm_sides (gm M)) sideids_all) with (ids (gm M) SIDE TYPE_ALL).
  destruct (@side_trace_total t sh fl M fn cv X G HX g3 Hf Hc eq_refl (ids (gm M) SIDE TYPE_ALL) (pzero (sdim M)) (pzero (sdim M))) as (rs & Ers); auto.
  { rewrite (side_ids B). intros s I. apply in_seq in I. lia. }
  assert (Ns : num_entities (gm M) SIDE TYPE_ALL = length (trips t sh)) by (apply (n_sides_eq B)).
  assert (Lr := side_trace_length _ _ _ _ _ _ Ers).
  destruct (@wr_all_cover R (ids (gm M) SIDE TYPE_ALL) (map (fun r => fst (fst r)) rs) (length (trips t sh)) (resize (num_entities (gm M) SIDE TYPE_ALL) 0 (g_svol g))) as (sv & Esv & Lsv & _).
  { rewrite (side_ids B). auto. } { rewrite map_length. auto. } { rewrite resize_length. auto. }
  destruct (@side_fold_ok M X g3 _ rs (resize (num_entities (gm M) SIDE TYPE_ALL) 0 (g_svol g)) (g_sout g) (g_smid g) _ _ sv Ers Esv) as (po & pm & Ef).
  cbn in Ef. cbn. rewrite Ef. cbn [bind].
  destruct (fl_corners (cm_flags (gm M))) eqn:FC; [|eauto].
  assert (C : fl_corners (close_flags fl) = true) by (rewrite <- (fa_flags (built_facts B)); auto).
  unfold compute_corners. match goal with |- context [foldM _ (corner_step M X ?h) _] => set (g4 := h) end.
  destruct (@c29_lists_partition t sh fl (gm M) CORNER B C) as [_ PC]. cbv zeta in PC.
  destruct (@mapM_exists _ _ (corner_value M X g4) (ids (gm M) CORNER TYPE_ALL)) as [ks Eks].
  { intros k I. apply (Permutation_in _ PC) in I. apply in_seq in I. change (num_entities (gm M) CORNER TYPE_ALL) with (n_corners (gm M)) in I. eapply corner_value_total; eauto; try lia. }
  destruct (@wr_all_cover R (ids (gm M) CORNER TYPE_ALL) ks _ (resize (num_entities (gm M) CORNER TYPE_ALL) 0 (g_kvol g4)) PC) as (kv & Ekv & _).
  { apply (mapM_length _ _ Eks). } { rewrite resize_length. auto. }
  assert (EF := corner_fold_ok M X g4 _ _ Eks Ekv). rewrite EF. cbn [bind]. eauto.
Qed.
