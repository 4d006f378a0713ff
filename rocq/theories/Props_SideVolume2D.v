(** C71 in the plane: the sides of a convex cell fill it. *)
From Coq Require Import Reals Permutation Lra.
From Verif Require Import Base Loop Defs Factory Cache Cache_spec Cache_proofs Cache_proofs2 Cache_proofs4 Cache_proofs5 Cache_proofs6 Props_Cache Point Geometry Geometry_spec Geometry_proofs
  Props_Polygon Props_Polygon3D Polyhedron_proofs Props_Polyhedron Props_InPolygon MeshGeom MeshGeom_spec MeshGeom_proofs MeshGeom_proofs2 MeshGeom_proofs3 MeshGeom_examples Props_MeshUpdate Props_SideVolume.
Set Implicit Arguments.
Local Open Scope R_scope.

(** the centroid of a convex polygon sees its edges counter-clockwise *)
Lemma tri_area_affine a b x y : exists k k0 k1, forall p, p0 p = x -> p1 p = y -> tri_area a b p = k + k0 * x + k1 * y.
Proof. exists ((p0 a * p1 b - p0 b * p1 a) / 2), (- (p1 b - p1 a) / 2), ((p0 b - p0 a) / 2). intros p <- <-. unfold tri_area. field. Qed.
Lemma convex_centroid l : (3 <= length l)%nat -> convex_ccw l -> star_ccw (Pt 2 (centroid_x l) (centroid_y l) 0) l.
Proof.
  intros L [ND HC]. assert (S0 := convex_star L (conj ND HC)). assert (P : 0 < shoelace l).
  { rewrite <- (sum_tri_shoelace (mean2 l)). apply sum_pos; [intros E; apply (f_equal (@length _)) in E; rewrite edges_length in E; simpl in E; lia|]. auto. }
  assert (EX : shoelace l * centroid_x l = sum_of (fun e => tri_area (mean2 l) (fst e) (snd e) * (p0 (fst e) + p0 (snd e) + p0 (mean2 l)) / 3) (edges l)).
  { rewrite sum_moment_x. unfold centroid_x. field. lra. }
  assert (EY : shoelace l * centroid_y l = sum_of (fun e => tri_area (mean2 l) (fst e) (snd e) * (p1 (fst e) + p1 (snd e) + p1 (mean2 l)) / 3) (edges l)).
  { rewrite sum_moment_y. unfold centroid_y. field. lra. }
  intros [a b] He. cbn [fst snd]. set (C := Pt 2 (centroid_x l) (centroid_y l) 0).
  assert (K : shoelace l * tri_area C a b = sum_of (fun e => tri_area (mean2 l) (fst e) (snd e) * ((tri_area a b (fst e) + tri_area a b (snd e) + tri_area a b (mean2 l)) / 3)) (edges l)).
  { set (k := (p0 a * p1 b - p0 b * p1 a) / 2). set (k0 := - (p1 b - p1 a) / 2). set (k1 := (p0 b - p0 a) / 2).
    transitivity (k * shoelace l + (k0 * (shoelace l * centroid_x l) + k1 * (shoelace l * centroid_y l))).
    - unfold C, tri_area, k, k0, k1. cbn [p0 p1]. field.
    - rewrite EX, EY. rewrite <- (sum_tri_shoelace (mean2 l)) at 1. rewrite <- !sum_scale, <- !sum_plus. apply sum_ext. intros [p q] _. cbn [fst snd]. unfold k, k0, k1.
      generalize (tri_area (mean2 l) p q). intros w. unfold tri_area. field. }
  assert (Q : forall v, In v l -> 0 <= tri_area a b v).
  { intros v Hv. destruct (point_dec v a) as [->|N1]; [rewrite (proj1 (tri_degenerate a b)); lra|]. destruct (point_dec v b) as [->|N2]; [rewrite (proj2 (tri_degenerate a b)); lra|]. left. apply HC; auto. }
  assert (Pm : 0 < tri_area a b (mean2 l)). { assert (S1 := S0 _ He). cbn [fst snd] in S1. revert S1. unfold tri_area. intros; lra. }
  assert (0 < shoelace l * tri_area C a b).
  { rewrite K. apply sum_pos; [intros E; rewrite E in He; destruct He|]. intros [p q] Hpq. assert (S1 := S0 _ Hpq). apply edges_In in Hpq as [H1 H2]. cbn [fst snd] in *.
    apply Rmult_lt_0_compat; auto. assert (A := Q _ H1). assert (A' := Q _ H2). lra. }
  destruct (Rlt_dec 0 (tri_area C a b)) as [|N]; auto. exfalso. assert (shoelace l * tri_area C a b <= 0); [|lra]. replace 0 with (shoelace l * 0) by ring. apply Rmult_le_compat_l; lra.
Qed.

Section S.
Variables (t : topo) (sh : shape) (fl : flags) (M : gmesh) (fn cv : nat -> list nat) (X : coordinates) (xs : list coordinates) (g : geo).
Hypothesis G : geom_mesh t sh fl M fn cv.
Hypothesis O : oriented t sh fn cv.
Hypothesis HX : coords_ok t X.
Hypothesis H : history M (X :: xs) g.
Hypothesis D : tp_mdim t = 2%nat.
Definition sedge (x : trip) : nat * nat := (snode t sh x 0, snode t sh x 1).
Lemma snode2 x : (tface x < nfaces t)%nat -> In (snd x) (fedges sh (tface x)) -> sedge x = (nth 0 (node_face fn (snd (fst x))) 0%nat, nth 1 (node_face fn (snd (fst x))) 0%nat).
Proof.
  intros Hf I. destruct (or_face2 O D Hf) as (e & d & E & Ef). rewrite E in I. destruct I as [Ix|[]]. destruct x as [[c [f df]] [e' d']]. cbn [snd fst tface] in *. injection Ix as <- <-.
  unfold sedge, snode, orient, side_orient, node_face. rewrite (enodes'_eq _ (gm_fm G)), D. cbn [Nat.eqb tedge tfdir fst snd]. rewrite Ef. destruct (df =? 1)%Z; reflexivity.
Qed.
Lemma edges2 c : (c < ncells t)%nat -> Permutation (map sedge (trips_of sh c)) (edges (cv c)).
Proof.
  intros Hc. destruct (or_cell2 O D Hc) as [_ P]. etransitivity; [|exact P]. assert (Fi : forall fd, In fd (cfaces sh c) -> (fst fd < nfaces t)%nat) by (intros [f d'] I; apply (cn_face (gm_conn G) _ _ Hc I)).
  unfold trips_of. clear P. assert (E : forall l, (forall fd, In fd l -> (fst fd < nfaces t)%nat) -> map sedge (flat_map (fun fd => map (fun ed => (c, fd, ed)) (fedges sh (fst fd))) l) =
    map (fun fd => (nth 0 (node_face fn fd) 0%nat, nth 1 (node_face fn fd) 0%nat)) l).
  { induction l as [|fd l IH]; intros Hl; auto. assert (Hf := Hl fd (or_introl eq_refl)). destruct (or_face2 O D Hf) as (e & d & Ee & _).
    cbn [flat_map map]. rewrite Ee. cbn [map app]. f_equal; [|apply IH; intros; apply Hl; simpl; auto]. apply (@snode2 (c, fd, (e, d))); [exact Hf|]. unfold tface. cbn [fst snd]. rewrite Ee. simpl. auto. }
  rewrite E; auto.
Qed.
Lemma out_edges2 c : (c < ncells t)%nat -> Permutation (map (fun x => pt2 X (sedge x)) (trips_of sh c)) (edges (at_nodes X (cv c))).
Proof. intros Hc. unfold at_nodes. rewrite edges_map. rewrite <- (map_map sedge (pt2 X)). apply Permutation_map. apply edges2; auto. Qed.
Lemma side_vol2 s x : nth_error (trips t sh) s = Some x -> ~ cell_has_type t (tcell x) BOUNDARY_GHOST -> exists cc, nth_error (g_ccen g) (tcell x) = Some cc /\
  side_volume M X g s false = Ok (Rabs (tri_area cc (fst (pt2 X (sedge x))) (snd (pt2 X (sedge x))))).
Proof.
  intros Hx NB. destruct (side_vol G H s Hx NB) as (r & E & V). destruct (fresh_side_geom G H s (pzero (sdim M)) HX Hx) as (fc & cc & Nf & Nc & E').
  exists cc. split; auto. rewrite V. cbv zeta in E'. rewrite E', D in E. cbn [Nat.eqb] in E. injection E as <-. cbn [fst].
  assert (I := nth_error_In _ _ Hx). destruct (T_range (gm_fm G) _ I) as (Lc & Lf & _ & D1 & D2).
  assert (Dn : forall i, pd (node X (snode t sh x i)) = 2%nat) by (intros i; rewrite <- D; apply (node_dim HX); apply (snode_lt G); auto).
  assert (pd cc = 2%nat) by (destruct (cell_centre G HX H Lc NB) as (V' & C' & _ & Nc' & _ & PC); congruence).
  f_equal. unfold cross, psub. rewrite !Dn, H0. cbn [pd p0 p1 p2]. unfold norm, dot. cbn [pd p0 p1 p2]. unfold pt2, sedge, node. cbn [fst snd].
  set (a := nth (snode t sh x 0) X _). set (b := nth (snode t sh x 1) X _). rewrite ?sqrt_sq_abs.
  match goal with |- Rabs ?u / 2 = Rabs ?v => assert (EE : u = 2 * v) by (unfold tri_area; field); rewrite EE, Rabs_mult, (Rabs_pos_eq 2) by lra end. field.
Qed.
Lemma sides_sum2 c : (c < ncells t)%nat -> ~ cell_has_type t c BOUNDARY_GHOST -> exists ss vs cc, cell_get_sides (gm M) c = Ok ss /\
  mapM (fun s => side_volume M X g s false) ss = Ok vs /\ nth_error (g_ccen g) c = Some cc /\ rsum vs = sum_of (fun e => Rabs (tri_area cc (fst e) (snd e))) (edges (at_nodes X (cv c))).
Proof.
  intros Hc NB. destruct (sides_of_cell G Hc) as (ss & E & F2). destruct (cell_centre G HX H Hc NB) as (V & cc & _ & Ncc & _).
  set (h := fun x : trip => Rabs (tri_area cc (fst (pt2 X (sedge x))) (snd (pt2 X (sedge x))))).
  exists ss, (map h (trips_of sh c)), cc. split; auto. split; [|split; auto].
  - apply (mapM_Forall2 _ h F2). intros s x Hx Ns. destruct (trips_of_in G x Hc Hx) as (Tc & _ & _ & _). destruct (side_vol2 s Ns) as (cc' & Nc & ->); [rewrite Tc; auto|].
    rewrite Tc in Nc. unfold h. congruence.
  - rewrite <- (sum_perm _ (out_edges2 Hc)), sum_map. reflexivity.
Qed.
End S.

(** a cell that its own centroid and the mean of its nodes see counter-clockwise *)
Theorem c71_plane_star : forall t sh fl M fn cv X xs g c, geom_mesh t sh fl M fn cv -> oriented t sh fn cv -> coords_ok t X -> history M (X :: xs) g ->
  tp_mdim t = 2%nat -> (c < ncells t)%nat -> ~ cell_has_type t c BOUNDARY_GHOST ->
  let l := at_nodes X (cv c) in star_ccw (mean l) l -> star_ccw (Pt 2 (centroid_x l) (centroid_y l) 0) l ->
  exists ss vs, cell_get_sides (gm M) c = Ok ss /\ mapM (fun s => side_volume M X g s false) ss = Ok vs /\ cell_volume M X g c false = Ok (rsum vs) /\ rsum vs = shoelace l.
Proof.
  intros t sh fl M fn cv X xs g c G O HX H D Hc NB l S1 S2. destruct (@sides_sum2 t sh fl M fn cv X xs g G O HX H D c Hc NB) as (ss & vs & cc & E1 & E2 & Nc & E3). exists ss, vs. split; auto. split; auto.
  destruct (cell_centre G HX H Hc NB) as (V & C & EC & NC & EV & _). rewrite Nc in NC. injection NC as <-. rewrite (@cell_geom2 t sh fl M fn cv X G HX c Hc D) in EC. fold l in EC, E3.
  assert (Dm := @cell_dim t sh fl M fn cv X G HX c Hc). rewrite D in Dm. fold l in Dm. destruct (or_cell2 O D Hc) as [L _].
  destruct (@c48_plane_exact l) as [P EP]; auto; [unfold l, at_nodes; rewrite map_length; auto|]. rewrite EP in EC. cbn [bind fst] in EC. injection EC as <- <-.
  assert (R1 : rsum vs = shoelace l) by (rewrite E3, sum_abs_pos by (intros; left; apply S2; auto); apply sum_tri_shoelace). rewrite R1. auto.
Qed.
Theorem c71_plane_convex : forall t sh fl M fn cv X xs g c, geom_mesh t sh fl M fn cv -> oriented t sh fn cv -> coords_ok t X -> history M (X :: xs) g ->
  tp_mdim t = 2%nat -> (c < ncells t)%nat -> ~ cell_has_type t c BOUNDARY_GHOST -> convex_ccw (at_nodes X (cv c)) ->
  exists ss vs, cell_get_sides (gm M) c = Ok ss /\ mapM (fun s => side_volume M X g s false) ss = Ok vs /\ cell_volume M X g c false = Ok (rsum vs) /\ rsum vs = shoelace (at_nodes X (cv c)).
Proof.
  intros t sh fl M fn cv X xs g c G O HX H D Hc NB C. destruct (or_cell2 O D Hc) as [L _]. assert (L' : (3 <= length (at_nodes X (cv c)))%nat) by (unfold at_nodes; rewrite map_length; auto).
  apply (@c71_plane_star t sh fl M fn cv X xs g c); auto; [apply star_mean; apply convex_star; auto|apply convex_centroid; auto].
Qed.
(** in the plane the sum never falls short of the signed area, and exceeds it as soon as the centroid sees an edge the wrong way round *)
Theorem c71_plane_overshoot : forall t sh fl M fn cv X xs g c cc, geom_mesh t sh fl M fn cv -> oriented t sh fn cv -> coords_ok t X -> history M (X :: xs) g ->
  tp_mdim t = 2%nat -> (c < ncells t)%nat -> ~ cell_has_type t c BOUNDARY_GHOST -> cell_centroid M X g c false = Ok cc ->
  exists ss vs, cell_get_sides (gm M) c = Ok ss /\ mapM (fun s => side_volume M X g s false) ss = Ok vs /\ shoelace (at_nodes X (cv c)) <= rsum vs /\
    ((exists a b, In (a, b) (edges (at_nodes X (cv c))) /\ tri_area cc a b < 0) -> shoelace (at_nodes X (cv c)) < rsum vs).
Proof.
  intros t sh fl M fn cv X xs g c cc G O HX H D Hc NB Ec. destruct (@sides_sum2 t sh fl M fn cv X xs g G O HX H D c Hc NB) as (ss & vs & cc' & E1 & E2 & Nc & E3). exists ss, vs. split; auto. split; auto.
  unfold cell_centroid in Ec. destruct (g_cok g); [|discriminate]. cbn [asserting] in Ec. apply rd_Ok in Ec. rewrite Ec in Nc. injection Nc as <-. rewrite E3, <- (sum_tri_shoelace cc).
  set (L := edges _). assert (N : forall e, In e L -> 0 <= Rabs (tri_area cc (fst e) (snd e)) - tri_area cc (fst e) (snd e)) by (intros e _; assert (Q := Rle_abs (tri_area cc (fst e) (snd e))); lra).
  assert (S : sum_of (fun e => Rabs (tri_area cc (fst e) (snd e)) - tri_area cc (fst e) (snd e)) L = sum_of (fun e => Rabs (tri_area cc (fst e) (snd e))) L - sum_of (fun e => tri_area cc (fst e) (snd e)) L).
  { rewrite (@sum_ext _ (fun e => Rabs (tri_area cc (fst e) (snd e)) - tri_area cc (fst e) (snd e)) (fun e => Rabs (tri_area cc (fst e) (snd e)) + (-1) * tri_area cc (fst e) (snd e))) by (intros; ring).
    rewrite sum_plus, sum_scale. ring. }
  split; [assert (Q := sum_nonneg _ _ N); lra|]. intros (a & b & I & Neg). assert (Q := @sum_some_pos _ _ L (a, b) N I). cbn [fst snd] in Q. rewrite Rabs_left in Q by auto. lra.
Qed.
