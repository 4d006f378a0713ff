(** C74: facet normals of wedges; C75: coordinates of wedges and sides. *)
From Coq Require Import Reals Permutation Lra.
From Verif Require Import Base Loop Defs Factory Cache Cache_spec Cache_proofs Cache_proofs2 Cache_proofs4 Cache_proofs5 Cache_proofs6 Props_Cache Point Geometry Geometry_spec Geometry_proofs
  Props_Polygon Props_Polygon3D Polyhedron_proofs Props_Polyhedron Props_InPolygon MeshGeom MeshGeom_spec MeshGeom_proofs MeshGeom_proofs2 MeshGeom_proofs3 MeshGeom_examples MeshGeom_tower Props_MeshUpdate
  Props_SideVolume Props_CornerVolume Props_SideVolume2D Props_Facets Props_GeomWitness.
Set Implicit Arguments.
Local Open Scope R_scope.

(** m is the midpoint of a and b *)
Definition midpoint (a b m : point) : Prop := p0 m = (p0 a + p0 b) / 2 /\ p1 m = (p1 a + p1 b) / 2 /\ p2 m = (p2 a + p2 b) / 2.
Section S.
Variables (t : topo) (sh : shape) (fl : flags) (M : gmesh) (fn cv : nat -> list nat) (X : coordinates) (xs : list coordinates) (g : geo).
Hypothesis G : geom_mesh t sh fl M fn cv.
Hypothesis O : oriented t sh fn cv.
Hypothesis HX : coords_ok t X.
Hypothesis H : history M (X :: xs) g.
Notation nd n := (nth n X (Pt 0 0 0 0)).
Lemma edge_mid3 x : tp_mdim t = 3%nat -> In x (trips t sh) -> exists ec, edge_centroid M X g (tedge x) = Ok ec /\ pd ec = 3%nat /\ midpoint (nd (snode t sh x 0)) (nd (snode t sh x 1)) ec.
Proof.
  intros D I. destruct (T_range (gm_fm G) _ I) as (_ & _ & Le & D1 & D2). destruct (gq_en G Le) as [L1 L2].
  exists (pdiv (padd (nd (fst (enodes sh (tedge x)))) (nd (snd (enodes sh (tedge x))))) 2).
  split; [apply (@centroid_edge t sh fl M fn cv X G HX g (fresh_e G H) (tedge x) Le)|].
  assert (P1 := @node_dim t X HX _ L1). assert (P2 := @node_dim t X HX _ L2). rewrite D in P1, P2.
  unfold midpoint, padd, pdiv, smul. rewrite P1. cbn [pd]. split; [reflexivity|].
  destruct (@snode3 t sh fl M fn cv G x D D1 D2) as [-> ->]. unfold oedge, along. unfold tedge. destruct (tfdir x =? 1)%Z, (snd (snd x) =? 1)%Z; unfold swap; cbn [fst snd pd p0 p1 p2]; repeat split; field.
Qed.
(** ** 3D: everything about the wedge in terms of its side's two nodes and three centres *)
Lemma wedge3 w c : tp_mdim t = 3%nat -> fl_wedges (close_flags fl) = true -> (w < n_wedges (gm M))%nat -> wedge_get_cell (gm M) w = Ok c -> ~ cell_has_type t c BOUNDARY_GHOST ->
  exists e f n a b ec fc cc V, wedge_get_node (gm M) w = Ok n /\ wedge_get_edge (gm M) w = Ok e /\ wedge_get_face (gm M) w = Ok f /\
    edge_centroid M X g e = Ok ec /\ face_centroid M X g f false = Ok fc /\ cell_centroid M X g c false = Ok cc /\
    nth_error X n = Some (if (w mod 2 =? 0)%nat then a else b) /\
    pd a = 3%nat /\ pd b = 3%nat /\ pd ec = 3%nat /\ pd fc = 3%nat /\ pd cc = 3%nat /\ midpoint a b ec /\
    side_get_coordinates M X g (w / 2) false = Ok [a; b; fc; cc] /\
    side_volume M X g (w / 2) false = Ok V /\ V = det3 a b fc cc / 6 /\ wedge_volume M X g w false = Ok (V / 2) /\
    compute_side_geometry M X g (w / 2) (pzero (sdim M)) = Ok (V, smul (- / 2) (cross (psub b a) (psub fc a)), smul (/ 2) (cross (psub fc ec) (psub cc ec))).
Proof.
  intros D W Hw Ec NB. assert (B := gq_built G). destruct (@wedge_at t sh fl (gm M) B W w Hw) as (Hx & E1 & E2 & E3 & E4). rewrite Ec in E1. injection E1 as ->.
  set (x := wtrip t sh w) in *. unfold wcell_of in *. fold x in Ec, NB. unfold wnode_of in E4. fold x in E4.
  assert (I := nth_error_In _ _ Hx). destruct (T_range (gm_fm G) _ I) as (Lc & Lf & Le & D1 & D2).
  destruct (@edge_mid3 x D I) as (ec & Eec & Pec & Mec).
  destruct (@centroid_face t sh fl M fn cv X G g (fresh_f G H) (fresh_c G H) (tface x) Lf) as (fc & Efc & Nfc).
  destruct (@centroid_cell t M X g (fresh_f G H) (fresh_c G H) (tcell x) Lc) as (cc & Ecc & Ncc).
  destruct (@side_vol t sh fl M fn cv X xs g G H (w / 2) x Hx NB) as ([[V o] mi] & E & EV). cbn [fst] in EV.
  destruct (fresh_side_geom G H (w / 2) (pzero (sdim M)) HX Hx) as (fc' & cc' & Nf & Nc & E'). rewrite Nfc in Nf. rewrite Ncc in Nc. injection Nf as <-. injection Nc as <-.
  assert (Dn : forall i, pd (nd (snode t sh x i)) = 3%nat) by (intros i; rewrite <- D; apply (node_dim HX); apply (snode_lt G); auto).
  assert (Pf : pd fc = 3%nat) by (destruct (face_geom3 G O HX Lf D) as (A & C & nn & _ & Ef & PC); destruct (face_centre G H Lf) as (A' & C' & nn' & Ef' & Nf'); congruence).
  assert (Pc : pd cc = 3%nat) by (destruct (cell_centre G HX H Lc NB) as (V' & C' & _ & Nc' & _ & PC); congruence).
  cbv zeta in E'. rewrite D in E'. cbn [Nat.eqb] in E'. assert (Eec' := @centroid_edge t sh fl M fn cv X G HX g (fresh_e G H) (tedge x) Le). rewrite Eec in Eec'.
  unfold node in E', Eec'. injection Eec' as Eec'. rewrite <- Eec' in E'. rewrite E' in E. assert (E0 := E). injection E0 as <- <- <-.
  exists (tedge x), (tface x), (snode t sh x (w mod 2)), (nd (snode t sh x 0)), (nd (snode t sh x 1)), ec, fc, cc. eexists.
  do 6 (split; [first [exact E4|exact E3|exact E2|exact Eec|exact Efc|exact Ecc]|]).
  split. { assert (Ls : (snode t sh x (w mod 2) < nnodes t)%nat) by (apply (snode_lt G); auto). assert (Q := @rd_node t X HX _ Ls). apply rd_Ok in Q. rewrite Q.
    assert (R : (w mod 2 = 0 \/ w mod 2 = 1)%nat) by (assert (w mod 2 < 2)%nat by (apply Nat.mod_upper_bound; lia); lia). destruct R as [->| ->]; reflexivity. }
  do 5 (split; [first [apply Dn|auto]|]). split; [exact Mec|]. split.
  { destruct (side_at B _ Hx) as (Sc & Sf & Se & Sn). unfold side_get_coordinates. destruct (gm_flags G) as (_ & _ & FS). rewrite FS, (gm_mdim G), D. cbn [asserting]. rewrite !Sn by lia. cbn [bind].
    unfold node_get_coordinates. rewrite !(@rd_node t X HX) by (apply (snode_lt G); auto). cbn [bind]. rewrite Sf, Sc. cbn [bind]. rewrite Efc, Ecc. reflexivity. }
  split; [exact EV|]. split; [apply f_equal2; [apply tet_det; auto|auto]|]. split; [|exact E'].
  destruct (swT B W) as [_ EW]. unfold wedge_volume. rewrite EW. unfold side_volume in EV. apply asserting_Ok in EV as [K EV]. apply Bool.andb_true_iff in K as [_ K]. rewrite K, EV. reflexivity.
Qed.
End S.
(** ** C75 in space *)
(** the natural order: node, edge centre, face centre, cell centre; the other order exchanges the second and third for odd wedges only *)
Theorem c75_wedge_coordinates_space : forall t sh fl M fn cv X xs g w c, geom_mesh t sh fl M fn cv -> oriented t sh fn cv -> coords_ok t X -> history M (X :: xs) g ->
  tp_mdim t = 3%nat -> fl_wedges (close_flags fl) = true -> (w < n_wedges (gm M))%nat -> wedge_get_cell (gm M) w = Ok c -> ~ cell_has_type t c BOUNDARY_GHOST ->
  exists n e f p ec fc cc, wedge_get_node (gm M) w = Ok n /\ wedge_get_edge (gm M) w = Ok e /\ wedge_get_face (gm M) w = Ok f /\
    node_get_coordinates X n = Ok p /\ edge_centroid M X g e = Ok ec /\ face_centroid M X g f false = Ok fc /\ cell_centroid M X g c false = Ok cc /\
    wedge_get_coordinates M X g w false = Ok [p; ec; fc; cc].
Proof.
  intros t sh fl M fn cv X xs g w c G O HX H D W Hw Ec NB.
  destruct (@wedge3 t sh fl M fn cv X xs g G O HX H w c D W Hw Ec NB) as (e & f & n & a & b & ec & fc & cc & V & E1 & E2 & E3 & E4 & E5 & E6 & E7 & _).
  exists n, e, f. eexists. exists ec, fc, cc. apply rd_Ok in E7. unfold node_get_coordinates. do 7 (split; [eassumption|]). unfold wedge_get_coordinates. destruct (swT (gq_built G) W) as [_ EW]. rewrite EW. cbn [asserting].
  rewrite E1. cbn [bind]. unfold node_get_coordinates. rewrite E7. cbn [bind]. rewrite (gm_mdim G), D, E2. cbn [bind]. rewrite E4. cbn [bind]. rewrite E3. cbn [bind]. rewrite E5. cbn [bind]. rewrite Ec. cbn [bind]. rewrite E6. reflexivity.
Qed.
(** with posvol_order the documented formula (V01 x V02) . V03 / 6 gives the volume of the wedge *)
Theorem c75_wedge_positive_order_space : forall t sh fl M fn cv X xs g w c, geom_mesh t sh fl M fn cv -> oriented t sh fn cv -> coords_ok t X -> history M (X :: xs) g ->
  tp_mdim t = 3%nat -> fl_wedges (close_flags fl) = true -> (w < n_wedges (gm M))%nat -> wedge_get_cell (gm M) w = Ok c -> ~ cell_has_type t c BOUNDARY_GHOST ->
  exists q0 q1 q2 q3 v, wedge_get_coordinates M X g w true = Ok [q0; q1; q2; q3] /\ wedge_volume M X g w false = Ok v /\ v = dot (cross (psub q1 q0) (psub q2 q0)) (psub q3 q0) / 6.
Proof.
  intros t sh fl M fn cv X xs g w c G O HX H D W Hw Ec NB.
  destruct (@wedge3 t sh fl M fn cv X xs g G O HX H w c D W Hw Ec NB) as (e & f & n & a & b & ec & fc & cc & V & E1 & E2 & E3 & E4 & E5 & E6 & E7 & Pa & Pb & Pe & Pf & Pc & (M0 & M1 & M2) & _ & _ & EV & EW & _).
  apply rd_Ok in E7. set (p := if (w mod 2 =? 0)%nat then a else b) in *. assert (Pp : pd p = 3%nat) by (unfold p; destruct (w mod 2 =? 0)%nat; auto).
  exists p, (if (w mod 2 =? 0)%nat then ec else fc), (if (w mod 2 =? 0)%nat then fc else ec), cc, (V / 2). split; [|split; [exact EW|]].
  - unfold wedge_get_coordinates. destruct (swT (gq_built G) W) as [_ EW']. rewrite EW'. cbn [asserting].
    rewrite E1. cbn [bind]. unfold node_get_coordinates. rewrite E7. cbn [bind]. rewrite (gm_mdim G), D, E2. cbn [bind]. rewrite E4. cbn [bind]. rewrite E3. cbn [bind]. rewrite E5. cbn [bind]. rewrite Ec. cbn [bind]. rewrite E6. cbn [bind].
    destruct (w mod 2 =? 0)%nat; reflexivity.
  - rewrite tet_det by (auto; destruct (w mod 2 =? 0)%nat; auto). rewrite EV. unfold p, det3. destruct (w mod 2 =? 0)%nat; rewrite M0, M1, M2; field.
Qed.
(** a side's coordinates give its volume in the same way, in either order *)
Theorem c75_side_coordinates_space : forall t sh fl M fn cv X xs g s c pv, geom_mesh t sh fl M fn cv -> oriented t sh fn cv -> coords_ok t X -> history M (X :: xs) g ->
  tp_mdim t = 3%nat -> (s < n_sides (gm M))%nat -> side_get_cell (gm M) s = Ok c -> ~ cell_has_type t c BOUNDARY_GHOST ->
  exists n0 n1 f q0 q1 fc cc v, side_get_node (gm M) s 0 = Ok n0 /\ side_get_node (gm M) s 1 = Ok n1 /\ side_get_face (gm M) s = Ok f /\
    node_get_coordinates X n0 = Ok q0 /\ node_get_coordinates X n1 = Ok q1 /\ face_centroid M X g f false = Ok fc /\ cell_centroid M X g c false = Ok cc /\
    side_get_coordinates M X g s pv = Ok [q0; q1; fc; cc] /\ side_volume M X g s false = Ok v /\ v = dot (cross (psub q1 q0) (psub fc q0)) (psub cc q0) / 6.
Proof.
  intros t sh fl M fn cv X xs g s c pv G O HX H D Hs Ec NB. assert (B := gq_built G). rewrite (n_sides_eq B) in Hs. unfold res in *.
  destruct (nth_error (trips t sh) s) as [x|] eqn:Hx; [|apply nth_error_None in Hx; lia].
  destruct (side_at B _ Hx) as (Sc & Sf & Se & Sn). rewrite Ec in Sc. injection Sc as ->.
  assert (I := nth_error_In _ _ Hx). destruct (T_range (gm_fm G) _ I) as (Lc & Lf & Le & D1 & D2).
  destruct (@centroid_face t sh fl M fn cv X G g (fresh_f G H) (fresh_c G H) (tface x) Lf) as (fc & Efc & Nfc).
  destruct (@centroid_cell t M X g (fresh_f G H) (fresh_c G H) (tcell x) Lc) as (cc & Ecc & Ncc).
  destruct (@side_vol t sh fl M fn cv X xs g G H s x Hx NB) as ([[V o] mi] & E & EV). cbn [fst] in EV.
  destruct (fresh_side_geom G H s (pzero (sdim M)) HX Hx) as (fc' & cc' & Nf & Nc & E'). rewrite Nfc in Nf. rewrite Ncc in Nc. injection Nf as <-. injection Nc as <-.
  cbv zeta in E'. rewrite D in E'. cbn [Nat.eqb] in E'. rewrite E' in E. injection E as <- _ _.
  do 8 eexists. split; [apply Sn; lia|]. split; [apply Sn; lia|]. split; [exact Sf|]. unfold node_get_coordinates.
  split; [apply (@rd_node t X HX); apply (snode_lt G); auto|]. split; [apply (@rd_node t X HX); apply (snode_lt G); auto|]. split; [exact Efc|]. split; [exact Ecc|].
  split; [|split; [exact EV|reflexivity]].
  unfold side_get_coordinates. destruct (gm_flags G) as (_ & _ & FS). rewrite FS, (gm_mdim G), D. cbn [asserting]. rewrite !Sn by lia. cbn [bind].
  unfold node_get_coordinates. rewrite !(@rd_node t X HX) by (apply (snode_lt G); auto). cbn [bind]. rewrite Sf, Ec. cbn [bind]. rewrite Efc, Ecc. reflexivity.
Qed.
(** ** C74 in space: facet 0 is the triangle (node, edge centre, face centre), facet 1 the triangle (edge centre, face centre, cell centre);
    each normal is the vector area of its triangle, and its height above it is positive exactly if the wedge's volume is *)
Theorem c74_facets_space : forall t sh fl M fn cv X xs g w c re, geom_mesh t sh fl M fn cv -> oriented t sh fn cv -> coords_ok t X -> history M (X :: xs) g ->
  tp_mdim t = 3%nat -> fl_wedges (close_flags fl) = true -> (w < n_wedges (gm M))%nat -> wedge_get_cell (gm M) w = Ok c -> ~ cell_has_type t c BOUNDARY_GHOST -> re = true \/ xs = [] ->
  exists p ec fc cc v n0 n1, wedge_get_coordinates M X g w false = Ok [p; ec; fc; cc] /\ wedge_volume M X g w false = Ok v /\
    wedge_facet_normal M X g w 0 re = Ok n0 /\ wedge_facet_normal M X g w 1 re = Ok n1 /\
    (n0 = varea [p; ec; fc] \/ n0 = varea [p; fc; ec]) /\ dot3 n0 p - dot3 n0 cc = 3 * v /\
    (n1 = varea [ec; fc; cc] \/ n1 = varea [ec; cc; fc]) /\ dot3 n1 ec - dot3 n1 p = 3 * v.
Proof.
  intros t sh fl M fn cv X xs g w c re G O HX H D W Hw Ec NB Re.
  assert (ER : forall i, wedge_facet_normal M X g w i re = wedge_facet_normal M X g w i true).
  { intros i. destruct Re as [->| ->]; auto. destruct re; auto. destruct (@c60_facet_normals_at_construction t sh fl M X g (gq_built G) H) as [_ Q]. apply (Q w c i Hw W Ec). intros K. apply NB. right. right. auto. }
  rewrite !ER. clear ER.
  destruct (@wedge3 t sh fl M fn cv X xs g G O HX H w c D W Hw Ec NB) as (e & f & n & a & b & ec & fc & cc & V & E1 & E2 & E3 & E4 & E5 & E6 & E7 & Pa & Pb & Pe & Pf & Pc & (M0 & M1 & M2) & _ & _ & EV & EW & EG).
  apply rd_Ok in E7. set (p := if (w mod 2 =? 0)%nat then a else b) in *. assert (Pp : pd p = 3%nat) by (unfold p; destruct (w mod 2 =? 0)%nat; auto).
  destruct (swT (gq_built G) W) as [_ EW'].
  exists p, ec, fc, cc, (V / 2). do 2 eexists. split; [|split; [exact EW|split; [|split]]].
  - unfold wedge_get_coordinates. rewrite EW'. cbn [asserting].
    rewrite E1. cbn [bind]. unfold node_get_coordinates. rewrite E7. cbn [bind]. rewrite (gm_mdim G), D, E2. cbn [bind]. rewrite E4. cbn [bind]. rewrite E3. cbn [bind]. rewrite E5. cbn [bind]. rewrite Ec. cbn [bind]. rewrite E6. reflexivity.
  - unfold wedge_facet_normal. rewrite EW', (fresh_s G H), EG. cbn [andb orb Nat.eqb asserting bind fst snd]. reflexivity.
  - unfold wedge_facet_normal. rewrite EW', (fresh_s G H), EG. cbn [andb orb Nat.eqb asserting bind fst snd]. reflexivity.
  - rewrite EV. clear -Pa Pb Pe Pf Pc M0 M1 M2. destruct ec as [k1 e0 e1 e2], a as [k2 a0 a1 a2], b as [k3 b0 b1 b2], fc as [k4 f0 f1 f2], cc as [k5 c0 c1 c2]. cbn [pd p0 p1 p2] in *. subst.
    unfold p, pdiv, popp, varea, sum_of, edges, smul, cross, psub, dot3, det3. cbn [pd p0 p1 p2]. destruct (w mod 2 =? 0)%nat; cbn [pd p0 p1 p2 steps map rsum fst snd]. cbn [pd p0 p1 p2].
    + split; [right; f_equal; field|]. split; [field|]. split; [left; f_equal; field|field].
    + split; [left; f_equal; field|]. split; [field|]. split; [right; f_equal; field|field].
Qed.
(** ** the plane *)
Section P.
Variables (t : topo) (sh : shape) (fl : flags) (M : gmesh) (fn cv : nat -> list nat) (X : coordinates) (xs : list coordinates) (g : geo).
Hypothesis G : geom_mesh t sh fl M fn cv.
Hypothesis O : oriented t sh fn cv.
Hypothesis HX : coords_ok t X.
Hypothesis H : history M (X :: xs) g.
Hypothesis D : tp_mdim t = 2%nat.
Notation nd n := (nth n X (Pt 0 0 0 0)).
Lemma star_centre c cc : (c < ncells t)%nat -> ~ cell_has_type t c BOUNDARY_GHOST -> convex_ccw (at_nodes X (cv c)) -> nth_error (g_ccen g) c = Some cc -> star_ccw cc (at_nodes X (cv c)).
Proof.
  intros Hc NB C Nc. destruct (or_cell2 O D Hc) as [L _]. assert (L' : (3 <= length (at_nodes X (cv c)))%nat) by (unfold at_nodes; rewrite map_length; auto).
  destruct (cell_centre G HX H Hc NB) as (V & C0 & EC & NC & EV & _). rewrite Nc in NC. injection NC as <-. rewrite (@cell_geom2 t sh fl M fn cv X G HX c Hc D) in EC.
  assert (Dm := @cell_dim t sh fl M fn cv X G HX c Hc). rewrite D in Dm.
  destruct (@c48_plane_exact (at_nodes X (cv c)) L' Dm) as [P EP]; [apply star_mean; apply convex_star; auto|]. rewrite EP in EC. cbn [bind fst] in EC. injection EC as <- <-. apply convex_centroid; auto.
Qed.
Lemma wedge2 w c : fl_wedges (close_flags fl) = true -> (w < n_wedges (gm M))%nat -> wedge_get_cell (gm M) w = Ok c -> ~ cell_has_type t c BOUNDARY_GHOST ->
  exists f n a b fc cc V, (c < ncells t)%nat /\ wedge_get_node (gm M) w = Ok n /\ wedge_get_face (gm M) w = Ok f /\
    face_centroid M X g f false = Ok fc /\ cell_centroid M X g c false = Ok cc /\ nth_error (g_ccen g) c = Some cc /\
    nth_error X n = Some (if (w mod 2 =? 0)%nat then a else b) /\ In (a, b) (edges (at_nodes X (cv c))) /\
    pd a = 2%nat /\ pd b = 2%nat /\ pd cc = 2%nat /\ p0 fc = (p0 a + p0 b) / 2 /\ p1 fc = (p1 a + p1 b) / 2 /\
    side_get_coordinates M X g (w / 2) false = Ok [a; b; cc] /\
    side_volume M X g (w / 2) false = Ok V /\ V = Rabs (tri_area cc a b) /\ wedge_volume M X g w false = Ok (V / 2) /\
    compute_side_geometry M X g (w / 2) (pzero (sdim M)) = Ok (V, Pt 2 (p1 b - p1 a) (- (p0 b - p0 a)) 0, Pt 2 (p1 cc - p1 a) (- (p0 cc - p0 a)) 0).
Proof.
  intros W Hw Ec NB. assert (B := gq_built G). destruct (@wedge_at t sh fl (gm M) B W w Hw) as (Hx & E1 & E2 & E3 & E4). rewrite Ec in E1. injection E1 as ->.
  set (x := wtrip t sh w) in *. unfold wcell_of in *. fold x in Ec, NB. unfold wnode_of in E4. fold x in E4.
  assert (I := nth_error_In _ _ Hx). destruct (T_range (gm_fm G) _ I) as (Lc & Lf & Le & D1 & D2).
  destruct (@centroid_face t sh fl M fn cv X G g (fresh_f G H) (fresh_c G H) (tface x) Lf) as (fc & Efc & Nfc).
  destruct (@centroid_cell t M X g (fresh_f G H) (fresh_c G H) (tcell x) Lc) as (cc & Ecc & Ncc).
  destruct (@side_vol t sh fl M fn cv X xs g G H (w / 2) x Hx NB) as ([[V o] mi] & E & EV). cbn [fst] in EV.
  destruct (@side_vol2 t sh fl M fn cv X xs g G HX H D (w / 2) x Hx NB) as (cc2 & Nc2 & EV2). rewrite Ncc in Nc2. injection Nc2 as <-. rewrite EV in EV2. injection EV2 as EV2.
  destruct (fresh_side_geom G H (w / 2) (pzero (sdim M)) HX Hx) as (fc' & cc' & Nf & Nc & E'). rewrite Nfc in Nf. rewrite Ncc in Nc. injection Nf as <-. injection Nc as <-.
  assert (Dn : forall i, pd (nd (snode t sh x i)) = 2%nat) by (intros i; rewrite <- D; apply (node_dim HX); apply (snode_lt G); auto).
  assert (Pc : pd cc = 2%nat) by (destruct (cell_centre G HX H Lc NB) as (V' & C' & _ & Nc' & _ & PC); congruence).
  cbv zeta in E'. rewrite D in E'. cbn [Nat.eqb] in E'. unfold node in E'. rewrite E' in E. injection E as EV0 <- <-. rewrite EV0 in E'.
  destruct (face_centre2 G HX H D Lf Nfc) as (u & v & Fn & F0 & F1).
  assert (Ie : In (snd x) (fedges sh (tface x))) by (apply in_trips in I as (_ & _ & Ie); [auto|apply (fm_numbered (gm_fm G))|apply (gm_conn G)]).
  assert (It : In x (trips_of sh (tcell x))).
  { apply in_trips in I as (_ & I1 & I2); [|apply (fm_numbered (gm_fm G))|apply (gm_conn G)]. unfold trips_of. apply in_flat_map. exists (snd (fst x)). split; auto. apply in_map_iff. exists (snd x). split; auto. destruct x as [[? ?] ?]; auto. }
  assert (Se := @snode2 t sh fl M fn cv G O D x Lf Ie).
  exists (tface x), (snode t sh x (w mod 2)), (nd (snode t sh x 0)), (nd (snode t sh x 1)), fc, cc, V.
  do 6 (split; [first [exact Lc|exact E4|exact E2|exact Efc|exact Ecc|exact Ncc]|]).
  split. { assert (Ls : (snode t sh x (w mod 2) < nnodes t)%nat) by (apply (snode_lt G); auto). assert (Q := @rd_node t X HX _ Ls). apply rd_Ok in Q. rewrite Q.
    assert (R : (w mod 2 = 0 \/ w mod 2 = 1)%nat) by (assert (w mod 2 < 2)%nat by (apply Nat.mod_upper_bound; lia); lia). destruct R as [->| ->]; reflexivity. }
  split. { apply (Permutation_in _ (@out_edges2 t sh fl M fn cv X G O D (tcell x) Lc)). apply in_map_iff. exists x. split; auto. }
  do 3 (split; [first [apply Dn|auto]|]).
  assert (Q : p0 fc = (p0 (nd (snode t sh x 0)) + p0 (nd (snode t sh x 1))) / 2 /\ p1 fc = (p1 (nd (snode t sh x 0)) + p1 (nd (snode t sh x 1))) / 2).
  { unfold sedge in Se. injection Se as S0 S1. unfold node_face in S0, S1. change (fst (snd (fst x))) with (tface x) in S0, S1. unfold node in F0, F1. rewrite S0, S1, Fn, F0, F1.
    destruct (snd (snd (fst x)) =? 1)%Z; cbn [rev app nth]; split; field. }
  destruct Q as [Q0 Q1]. split; [exact Q0|]. split; [exact Q1|]. split.
  { destruct (side_at B _ Hx) as (Sc & Sf & Sed & Sn). unfold side_get_coordinates. destruct (gm_flags G) as (_ & _ & FS). rewrite FS, (gm_mdim G), D. cbn [asserting]. rewrite !Sn by lia. cbn [bind].
    unfold node_get_coordinates. rewrite !(@rd_node t X HX) by (apply (snode_lt G); auto). cbn [bind]. rewrite Sc. cbn [bind]. rewrite Ecc. reflexivity. }
  split; [exact EV|]. split; [exact EV2|]. split.
  { destruct (swT B W) as [_ EW]. unfold wedge_volume. rewrite EW. unfold side_volume in EV. apply asserting_Ok in EV as [K EV]. apply Bool.andb_true_iff in K as [_ K]. rewrite K, EV. reflexivity. }
  rewrite E'. unfold psub. rewrite Dn, Pc. cbn [p0 p1]. reflexivity.
Qed.
End P.
(** C75 in the plane: node, face centre, cell centre; |signed area| = wedge volume; for a strictly convex cell the positive order gives the volume itself *)
Theorem c75_wedge_coordinates_plane : forall t sh fl M fn cv X xs g w c, geom_mesh t sh fl M fn cv -> oriented t sh fn cv -> coords_ok t X -> history M (X :: xs) g ->
  tp_mdim t = 2%nat -> fl_wedges (close_flags fl) = true -> (w < n_wedges (gm M))%nat -> wedge_get_cell (gm M) w = Ok c -> ~ cell_has_type t c BOUNDARY_GHOST ->
  exists n f p fc cc v q0 q1 q2, wedge_get_node (gm M) w = Ok n /\ wedge_get_face (gm M) w = Ok f /\
    node_get_coordinates X n = Ok p /\ face_centroid M X g f false = Ok fc /\ cell_centroid M X g c false = Ok cc /\
    wedge_get_coordinates M X g w false = Ok [p; fc; cc] /\ wedge_get_coordinates M X g w true = Ok [q0; q1; q2] /\
    wedge_volume M X g w false = Ok v /\ v = Rabs (tri_area p fc cc) /\ v = Rabs (tri_area q0 q1 q2) /\
    (convex_ccw (at_nodes X (cv c)) -> v = tri_area q0 q1 q2 /\ 0 < v).
Proof.
  intros t sh fl M fn cv X xs g w c G O HX H D W Hw Ec NB.
  destruct (@wedge2 t sh fl M fn cv X xs g G O HX H D w c W Hw Ec NB) as (f & n & a & b & fc & cc & V & Lc & E1 & E2 & E3 & E4 & E5 & E6 & Ie & Pa & Pb & Pc & F0 & F1 & _ & _ & EV & EW & EG).
  apply rd_Ok in E6. set (p := if (w mod 2 =? 0)%nat then a else b) in *. destruct (swT (gq_built G) W) as [_ EW'].
  assert (K : forall pv, wedge_get_coordinates M X g w pv = Ok (if pv && negb (w mod 2 =? 0)%nat then [p; cc; fc] else [p; fc; cc])).
  { intros pv. unfold wedge_get_coordinates. rewrite EW'. cbn [asserting]. rewrite E1. cbn [bind]. unfold node_get_coordinates. rewrite E6. cbn [bind]. rewrite (gm_mdim G), D, E2. cbn [bind]. rewrite E3. cbn [bind].
    rewrite Ec. cbn [bind]. rewrite E4. cbn [bind]. destruct pv, (w mod 2 =? 0)%nat; reflexivity. }
  assert (R : forall q q1 q2, 2 * tri_area q q1 q2 = tri_area cc a b \/ 2 * tri_area q q1 q2 = - tri_area cc a b -> V / 2 = Rabs (tri_area q q1 q2)).
  { intros q q1 q2 E. rewrite EV. assert (Z0 : Rabs (tri_area cc a b) = 2 * Rabs (tri_area q q1 q2)); [|lra].
    destruct E as [E|E]; [rewrite <- E|replace (tri_area cc a b) with (- (2 * tri_area q q1 q2)) by lra; rewrite Rabs_Ropp]; rewrite Rabs_mult, (Rabs_pos_eq 2); lra. }
  exists n, f, p, fc, cc, (V / 2), p, (if (w mod 2 =? 0)%nat then fc else cc), (if (w mod 2 =? 0)%nat then cc else fc).
  do 3 (split; [assumption|]). split; [assumption|]. split; [assumption|]. split; [apply K|]. split; [rewrite K; destruct (w mod 2 =? 0)%nat; reflexivity|]. split; [exact EW|].
  assert (T : 2 * tri_area p (if (w mod 2 =? 0)%nat then fc else cc) (if (w mod 2 =? 0)%nat then cc else fc) = tri_area cc a b) by (unfold p, tri_area; destruct (w mod 2 =? 0)%nat; rewrite F0, F1; field).
  split; [apply R; unfold p, tri_area; destruct (w mod 2 =? 0)%nat; rewrite F0, F1; [left|right]; field|]. split; [apply R; auto|].
  intros C. assert (S := @star_centre t sh fl M fn cv X xs g G O HX H D c cc Lc NB C E5). specialize (S _ Ie). cbn [fst snd] in S. rewrite Rabs_pos_eq in EV by lra. lra.
Qed.
(** C74 in the plane, facet 0: the edge half (node, face centre) turned outwards *)
Theorem c74_facet0_plane : forall t sh fl M fn cv X xs g w c re, geom_mesh t sh fl M fn cv -> oriented t sh fn cv -> coords_ok t X -> history M (X :: xs) g ->
  tp_mdim t = 2%nat -> fl_wedges (close_flags fl) = true -> (w < n_wedges (gm M))%nat -> wedge_get_cell (gm M) w = Ok c -> ~ cell_has_type t c BOUNDARY_GHOST -> re = true \/ xs = [] ->
  exists p fc cc v n0, wedge_get_coordinates M X g w false = Ok [p; fc; cc] /\ wedge_volume M X g w false = Ok v /\ wedge_facet_normal M X g w 0 re = Ok n0 /\
    (n0 = right_normal p fc \/ n0 = right_normal fc p) /\
    (convex_ccw (at_nodes X (cv c)) -> p0 n0 * (p0 p - p0 cc) + p1 n0 * (p1 p - p1 cc) = 2 * v /\ 0 < v).
Proof.
  intros t sh fl M fn cv X xs g w c re G O HX H D W Hw Ec NB Re.
  assert (ER : forall i, wedge_facet_normal M X g w i re = wedge_facet_normal M X g w i true).
  { intros i. destruct Re as [->| ->]; auto. destruct re; auto. destruct (@c60_facet_normals_at_construction t sh fl M X g (gq_built G) H) as [_ Q]. apply (Q w c i Hw W Ec). intros K. apply NB. right. right. auto. }
  rewrite !ER. clear ER.
  destruct (@wedge2 t sh fl M fn cv X xs g G O HX H D w c W Hw Ec NB) as (f & n & a & b & fc & cc & V & Lc & E1 & E2 & E3 & E4 & E5 & E6 & Ie & Pa & Pb & Pc & F0 & F1 & _ & _ & EV & EW & EG).
  apply rd_Ok in E6. set (p := if (w mod 2 =? 0)%nat then a else b) in *. destruct (swT (gq_built G) W) as [_ EW'].
  assert (K : forall pv, wedge_get_coordinates M X g w pv = Ok (if pv && negb (w mod 2 =? 0)%nat then [p; cc; fc] else [p; fc; cc])).
  { intros pv. unfold wedge_get_coordinates. rewrite EW'. cbn [asserting]. rewrite E1. cbn [bind]. unfold node_get_coordinates. rewrite E6. cbn [bind]. rewrite (gm_mdim G), D, E2. cbn [bind]. rewrite E3. cbn [bind].
    rewrite Ec. cbn [bind]. rewrite E4. cbn [bind]. destruct pv, (w mod 2 =? 0)%nat; reflexivity. }
  exists p, fc, cc, (V / 2). eexists. split; [apply K|]. split; [exact EW|].
  split; [unfold wedge_facet_normal; rewrite EW', (fresh_s G H), EG; cbn [andb orb Nat.eqb asserting bind fst snd]; reflexivity|].
  unfold right_normal, pdiv, smul. cbn [pd p0 p1 p2]. split.
  - unfold p. destruct (w mod 2 =? 0)%nat; rewrite F0, F1; [left|right]; f_equal; field.
  - intros C. assert (S := @star_centre t sh fl M fn cv X xs g G O HX H D c cc Lc NB C E5). specialize (S _ Ie). cbn [fst snd] in S. rewrite EV, Rabs_pos_eq by lra. split; [|lra].
    unfold p, tri_area. destruct (w mod 2 =? 0)%nat; field.
Qed.
(** the two wedges of a side have opposite normals on the facet they share *)
Theorem c74_shared_facet : forall M X g s re n, wedge_facet_normal M X g (2 * s) 1 re = Ok n -> wedge_facet_normal M X g (2 * s + 1) 1 re = Ok (popp n).
Proof.
  intros M X g s re n E. unfold wedge_facet_normal in *. apply asserting_Ok in E as [-> E]. cbn [asserting].
  replace ((2 * s + 1) / 2)%nat with s by (rewrite Nat.mul_comm, Nat.div_add_l by lia; cbn; lia). replace (2 * s / 2)%nat with s in E by (rewrite Nat.mul_comm, Nat.div_mul; lia).
  replace ((2 * s + 1) mod 2)%nat with 1%nat by (rewrite Nat.add_comm, Nat.mul_comm, Nat.mod_add by lia; reflexivity). replace ((2 * s) mod 2)%nat with 0%nat in E by (rewrite Nat.mul_comm, Nat.mod_mul; lia).
  apply bind_inv in E as (om & -> & E). cbn [bind Nat.eqb] in *. injection E as <-. reflexivity.
Qed.
(** in the plane the normal of facet 1 is in general not perpendicular to the facet (edge centre, cell centre): the two quads *)
Theorem c74_facet1_plane_refuted : exists t sh fl M fn cv X g w p ec cc n1, geom_mesh t sh fl M fn cv /\ oriented t sh fn cv /\ coords_ok t X /\ history M [X] g /\ tp_mdim t = 2%nat /\ (w < n_wedges (gm M))%nat /\
  wedge_get_coordinates M X g w false = Ok [p; ec; cc] /\ wedge_facet_normal M X g w 1 true = Ok n1 /\ wedge_facet_normal M X g w 1 false = Ok n1 /\
  p0 n1 * (p0 cc - p0 ec) + p1 n1 * (p1 cc - p1 ec) <> 0 /\ L22 n1 <> L22 (psub cc ec).
Proof.
  destruct (quads_history 1) as [g H]. assert (Hw : (0 < n_wedges (gm quads_g))%nat) by (vm_compute; lia).
  assert (Ec : wedge_get_cell (gm quads_g) 0 = Ok 0%nat) by (vm_compute; reflexivity).
  assert (NB : ~ cell_has_type quads 0 BOUNDARY_GHOST) by (unfold cell_has_type; cbn; intuition discriminate).
  destruct (@c75_wedge_coordinates_plane quads quads_shape all_on quads_g quads_fn (cnodes quads_shape) (quads_X 1) [] g 0%nat 0%nat quads_geom quads_oriented (quads_coords 1) H eq_refl eq_refl Hw Ec NB)
    as (n & f & p & fc & cc & v & q0 & q1 & q2 & A1 & A2 & A3 & A4 & A5 & A6 & _).
  destruct (@wedge2 quads quads_shape all_on quads_g quads_fn (cnodes quads_shape) (quads_X 1) [] g quads_geom quads_oriented (quads_coords 1) H eq_refl 0%nat 0%nat eq_refl Hw Ec NB)
    as (f' & n' & a & b & fc' & cc' & V & Lc & E1 & E2 & E3 & E4 & E5 & E6 & Ie & Pa & Pb & Pc & F0 & F1 & ES & _ & EV & EW & EG).
  rewrite A1 in E1. injection E1 as <-. rewrite A2 in E2. injection E2 as <-. rewrite A4 in E3. injection E3 as <-. rewrite A5 in E4. injection E4 as <-.
  assert (En : wedge_get_node (gm quads_g) 0 = Ok 0%nat) by (vm_compute; reflexivity). rewrite En in A1. injection A1 as <-.
  cbn [Nat.modulo Nat.eqb] in E6. change (0 mod 2)%nat with 0%nat in E6. cbn [Nat.eqb] in E6. cbn [quads_X nth_error] in E6. injection E6 as <-.
  assert (Eb : b = Pt 2 1 0 0). { assert (S1 : side_get_node (gm quads_g) 0 1 = Ok 1%nat) by (vm_compute; reflexivity). unfold side_get_coordinates in ES. apply asserting_Ok in ES as [_ ES]. change (0 / 2)%nat with 0%nat in ES.
    change (mdim quads_g) with 2%nat in ES. cbv beta iota in ES. apply bind_inv in ES as (k0 & K0 & ES). apply bind_inv in ES as (k1 & K1 & ES). rewrite S1 in ES. cbn [bind] in ES. unfold node_get_coordinates in ES. cbn [quads_X rd nth_error bind] in ES.
    apply bind_inv in ES as (k2 & K2 & ES). apply bind_inv in ES as (k3 & K3 & ES). injection ES as _ <- _. f_equal; lra. }
  rewrite (@quads_ccen 1 [] g ltac:(lra) H) in E5. injection E5 as <-. subst b. cbn [p0 p1] in F0, F1.
  exists quads, quads_shape, all_on, quads_g, quads_fn, (cnodes quads_shape), (quads_X 1), g, 0%nat, p, fc, (Pt 2 (1 / 2) (1 / 2) 0). eexists.
  split; [exact quads_geom|]. split; [exact quads_oriented|]. split; [apply quads_coords|]. split; auto. split; [reflexivity|]. split; [exact Hw|]. split; [exact A6|].
  assert (EN : wedge_facet_normal quads_g (quads_X 1) g 0 1 true = Ok (Pt 2 (1 / 2) (- (1 / 2)) 0)).
  { unfold wedge_facet_normal. rewrite EG. rewrite (fresh_s quads_geom H). destruct (swT quads_gbuilt eq_refl) as [_ ->]. cbn [andb orb Nat.eqb asserting bind fst snd]. change (0 mod 2 =? 0)%nat with true. cbv beta iota. do 2 f_equal; cbn [p0 p1]; lra. }
  split; [exact EN|]. split.
  { destruct (@c60_facet_normals_at_construction quads quads_shape all_on quads_g (quads_X 1) g quads_gbuilt H) as [_ Q]. rewrite (Q 0%nat 0%nat 1%nat Hw eq_refl Ec quads_nb). exact EN. }
  unfold L22, dot, psub. cbn [pd p0 p1 p2]. rewrite F0, F1. split; nra.
Qed.
(** ** witnesses: wedge 1 of the prism *)
Example c74_c75_witness : exists g c q0 q1 q2 q3 v n0 n1, history tower_g [tower_X] g /\ fl_wedges (close_flags all_on) = true /\ (1 < n_wedges (gm tower_g))%nat /\ wedge_get_cell (gm tower_g) 1 = Ok c /\
  wedge_get_coordinates tower_g tower_X g 1 true = Ok [q0; q1; q2; q3] /\ wedge_volume tower_g tower_X g 1 false = Ok v /\ v = dot (cross (psub q1 q0) (psub q2 q0)) (psub q3 q0) / 6 /\
  wedge_facet_normal tower_g tower_X g 1 0 false = Ok n0 /\ wedge_facet_normal tower_g tower_X g 1 1 false = Ok n1.
Proof.
  destruct tower_history as [g H]. assert (Hw : (1 < n_wedges (gm tower_g))%nat) by (vm_compute; lia). assert (Ec : wedge_get_cell (gm tower_g) 1 = Ok 0%nat) by (vm_compute; reflexivity).
  destruct (@c75_wedge_positive_order_space tower tower_shape all_on tower_g tower_fn (cnodes tower_shape) tower_X [] g 1%nat 0%nat tower_geom tower_oriented tower_coords H eq_refl eq_refl Hw Ec (@tower_nobg 0%nat)) as (q0 & q1 & q2 & q3 & v & A1 & A2 & A3).
  destruct (@c74_facets_space tower tower_shape all_on tower_g tower_fn (cnodes tower_shape) tower_X [] g 1%nat 0%nat false tower_geom tower_oriented tower_coords H eq_refl eq_refl Hw Ec (@tower_nobg 0%nat) (or_intror eq_refl)) as (p & ec & fc & cc & v' & n0 & n1 & B1 & B2 & B3 & B4 & _).
  exists g, 0%nat, q0, q1, q2, q3, v, n0, n1. do 4 (split; [auto|]). auto.
Qed.
(** wedge 3 of the first quad *)
Example c75_plane_witness : exists g c q0 q1 q2 v, history quads_g [quads_X 1] g /\ (3 < n_wedges (gm quads_g))%nat /\ wedge_get_cell (gm quads_g) 3 = Ok c /\
  wedge_get_coordinates quads_g (quads_X 1) g 3 true = Ok [q0; q1; q2] /\ wedge_volume quads_g (quads_X 1) g 3 false = Ok v /\ v = tri_area q0 q1 q2 /\ 0 < v.
Proof.
  destruct (quads_history 1) as [g H]. assert (Hw : (3 < n_wedges (gm quads_g))%nat) by (vm_compute; lia). assert (Ec : wedge_get_cell (gm quads_g) 3 = Ok 0%nat) by (vm_compute; reflexivity).
  assert (NB : ~ cell_has_type quads 0 BOUNDARY_GHOST) by (unfold cell_has_type; cbn; intuition discriminate).
  destruct (@c75_wedge_coordinates_plane quads quads_shape all_on quads_g quads_fn (cnodes quads_shape) (quads_X 1) [] g 3%nat 0%nat quads_geom quads_oriented (quads_coords 1) H eq_refl eq_refl Hw Ec NB)
    as (n & f & p & fc & cc & v & q0 & q1 & q2 & _ & _ & _ & _ & _ & _ & A7 & A8 & _ & _ & A9).
  destruct (A9 (@quads_convex 1 ltac:(lra))) as [B1 B2]. exists g, 0%nat, q0, q1, q2, v. auto 10.
Qed.
