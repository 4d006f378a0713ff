(** C82: the shape of a corner - corner_get_facetization and corner_get_coordinates. *)
From Coq Require Import Reals Permutation Lra.
From Verif Require Import Base Loop Defs Factory Cache Cache_spec Cache_proofs Cache_proofs2 Cache_proofs3 Cache_proofs4 Cache_proofs5 Cache_proofs6 Props_Cache Point Geometry Geometry_spec Geometry_proofs
  Polyhedron_proofs Props_Polyhedron Props_Polygon Props_InPolygon MeshGeom MeshGeom_spec MeshGeom_proofs MeshGeom_proofs2 MeshGeom_proofs3 MeshGeom_examples MeshGeom_tower Props_MeshUpdate Props_SideVolume Props_CornerVolume
  Props_SideVolume2D Props_Facets Props_GeomWitness Props_Wedges Props_Segment Props_Line CornerShape CornerShape_proofs.
Set Implicit Arguments.
Local Open Scope R_scope.

(** the centres of a wedge's edge and face *)
Definition wedge_centres (M : gmesh) (X : coordinates) (g : geo) (w : nat) (ec fc : point) : Prop := exists e f, wedge_get_edge (gm M) w = Ok e /\ wedge_get_face (gm M) w = Ok f /\
  edge_centroid M X g e = Ok ec /\ face_centroid M X g f false = Ok fc.
(** the entities that make up a corner in space: its node, the cell, and the faces and edges of its wedges; and their positions *)
Definition corner_key (m : cmesh) (ws : list nat) (n c : nat) (cell : bool) (x : key) : Prop := x = (n, NODE) \/ cell = true /\ x = (c, CELL) \/
  exists w i, In w ws /\ (wedge_get_face m w = Ok i /\ x = (i, FACE) \/ wedge_get_edge m w = Ok i /\ x = (i, EDGE)).
Definition position (M : gmesh) (X : coordinates) (g : geo) (x : key) (q : point) : Prop :=
  match snd x with NODE => node_get_coordinates X (fst x) = Ok q | EDGE => edge_centroid M X g (fst x) = Ok q | FACE => face_centroid M X g (fst x) false = Ok q | _ => cell_centroid M X g (fst x) false = Ok q end.

Section S.
Variables (t : topo) (sh : shape) (fl : flags) (M : gmesh) (fn cv : nat -> list nat) (X : coordinates) (xs : list coordinates) (g : geo).
Hypothesis G : geom_mesh t sh fl M fn cv.
Hypothesis O : oriented t sh fn cv.
Hypothesis HX : coords_ok t X.
Hypothesis H : history M (X :: xs) g.
Hypothesis C : fl_corners (close_flags fl) = true.
Hypothesis D : tp_mdim t = 3%nat.
Variables (k c n : nat).
Hypothesis NB : ~ cell_has_type t c BOUNDARY_GHOST.
Hypothesis IC : is_corner (gm M) k c n.
Let W : fl_wedges (close_flags fl) = true := proj1 (close_closed fl) C.
Definition wF (w : nat) : nat := tface (wtrip t sh w).
Definition wE (w : nat) : nat := tedge (wtrip t sh w).
Definition wfc (w : nat) : point := nth (wF w) (g_fcen g) (Pt 0 0 0 0).
Definition wec (w : nat) : point := mid X (enodes sh (wE w)).
Lemma corner_data : (c < ncells t)%nat /\ corner_get_wedges (gm M) k = Ok (cwl t sh (c, n)) /\ corner_get_cell (gm M) k = Ok c /\ corner_get_node (gm M) k = Ok n.
Proof.
  assert (B := gq_built G). assert (Q := proj1 (@is_corner_iff t sh fl (gm M) B C k c n) IC). split; [|split; [apply (corner_wedges_at B C _ Q)|destruct IC as (_ & A1 & A2); auto]].
  apply nth_error_In in Q. apply (@K_in t sh fl (gm M) B) in Q. tauto.
Qed.
Lemma wedge_data : exists p cc, node_get_coordinates X n = Ok p /\ cell_centroid M X g c false = Ok cc /\ pd p = 3%nat /\ pd cc = 3%nat /\
  forall w, In w (cwl t sh (c, n)) -> wedge_get_face (gm M) w = Ok (wF w) /\ wedge_get_edge (gm M) w = Ok (wE w) /\ edge_centroid M X g (wE w) = Ok (wec w) /\ face_centroid M X g (wF w) false = Ok (wfc w) /\
    pd (wec w) = 3%nat /\ pd (wfc w) = 3%nat /\ exists v, wedge_volume M X g w false = Ok v /\ det3 p (wec w) (wfc w) cc = (if (w mod 2 =? 0)%nat then 6 * v else - (6 * v)).
Proof.
  assert (B := gq_built G). destruct corner_data as (Hc & Ew & Ec & En).
  assert (Q : forall w, In w (cwl t sh (c, n)) -> exists p cc, node_get_coordinates X n = Ok p /\ cell_centroid M X g c false = Ok cc /\ pd p = 3%nat /\ pd cc = 3%nat /\
    wedge_get_face (gm M) w = Ok (wF w) /\ wedge_get_edge (gm M) w = Ok (wE w) /\ edge_centroid M X g (wE w) = Ok (wec w) /\ face_centroid M X g (wF w) false = Ok (wfc w) /\
    pd (wec w) = 3%nat /\ pd (wfc w) = 3%nat /\ exists v, wedge_volume M X g w false = Ok v /\ det3 p (wec w) (wfc w) cc = (if (w mod 2 =? 0)%nat then 6 * v else - (6 * v))).
  { intros w I. apply (in_cwl B C) in I as (Lw & Wc & Wn). destruct (wedge_at B W Lw) as (Hx & E1 & E2 & E3 & E4). rewrite Wc in E1. rewrite Wn in E4.
    destruct (@wedge3 t sh fl M fn cv X xs g G O HX H w c D W Lw E1 NB) as (e & f & n' & a & b & ec & fc & cc & V & F1 & F2 & F3 & F4 & F5 & F6 & F7 & Pa & Pb & Pe & Pf & Pc & (M0 & M1 & M2) & _ & _ & EV & EW & _).
    rewrite E4 in F1. injection F1 as <-. rewrite E3 in F2. injection F2 as <-. rewrite E2 in F3. injection F3 as <-.
    assert (I := nth_error_In _ _ Hx). destruct (T_range (gm_fm G) _ I) as (_ & Lf & Le & _).
    assert (Ee := @centroid_edge t sh fl M fn cv X G HX g (fresh_e G H) _ Le). change (edge_centroid M X g (wE w) = Ok (wec w)) in Ee.
    destruct (@centroid_face t sh fl M fn cv X G g (fresh_f G H) (fresh_c G H) _ Lf) as (fc' & Ef & Nf). assert (fc' = wfc w) as -> by (symmetry; apply nth_error_nth; exact Nf).
    fold (wE w) in F4. fold (wF w) in F5, Ef. rewrite Ee in F4. injection F4 as F4. rewrite Ef in F5. injection F5 as F5. subst ec fc.
    exists (if (w mod 2 =? 0)%nat then a else b), cc. apply rd_Ok in F7. do 4 (split; [first [exact F7|exact F6|destruct (w mod 2 =? 0)%nat; assumption|exact Pc]|]).
    do 6 (split; [assumption|]). exists (V / 2). split; auto. rewrite EV. unfold det3. destruct (w mod 2 =? 0)%nat; rewrite M0, M1, M2; field. }
  assert (NE := @cwl_nonempty t sh fl (gm M) B C c n). destruct (cwl t sh (c, n)) as [|w0 ws] eqn:El.
  { exfalso. apply NE; auto. apply (is_corner_iff B C) in IC. eapply nth_error_In; eauto. }
  destruct (Q w0 (or_introl eq_refl)) as (p & cc & A1 & A2 & A3 & A4 & _). exists p, cc. do 4 (split; [assumption|]). intros w I. destruct (Q w I) as (p' & cc' & A1' & A2' & _ & _ & R).
  rewrite A1 in A1'. injection A1' as <-. rewrite A2 in A2'. injection A2' as <-. exact R.
Qed.
Lemma kinds_position ks ps : Forall2 (fun x q => centre_of M X g x = Ok q) ks ps -> (forall x, In x ks -> snd x = NODE \/ snd x = CELL \/ snd x = FACE \/ snd x = EDGE) -> Forall2 (position M X g) ks ps.
Proof.
  induction 1 as [|x q ks ps E F IH]; intros K; constructor; [|apply IH; intros; apply K; right; auto]. unfold position, centre_of in *. destruct (K x (or_introl eq_refl)) as [Q|[Q|[Q|Q]]]; rewrite Q in *; auto.
Qed.
Lemma facets3 : exists ws p cc pts tris faces, corner_get_wedges (gm M) k = Ok ws /\ node_get_coordinates X n = Ok p /\ cell_centroid M X g c false = Ok cc /\
  corner_facetization3 M X g k = Ok (pts, tris) /\ Forall2 (fun i l => tri_at pts i = map Some l) tris faces /\
  (exists per, faces = concat per /\ Forall2 (fun w l => exists ec fc, wedge_centres M X g w ec fc /\ (l = [[p; ec; fc]; [cc; fc; ec]] \/ l = [[p; fc; ec]; [cc; ec; fc]])) ws per) /\
  (exists keys, NoDup keys /\ (forall x, In x keys <-> corner_key (gm M) ws n c true x) /\ Forall2 (position M X g) keys pts) /\
  ((forall w, In w ws -> exists v, wedge_volume M X g w false = Ok v /\ 0 < v) ->
     closed faces /\ (exists V, corner_volume M X g k false = Ok V /\ 0 < V /\ forall o, volume_from o faces = V) /\
     forall l, In l faces -> exists a b d, l = [a; b; d] /\ (a = p /\ 0 < det3 cc a b d \/ a = cc /\ 0 < det3 p a b d)).
Proof.
  assert (B := gq_built G). destruct corner_data as (Hc & Ew & Ec & En). destruct wedge_data as (p & cc & Ep & Ecc & Pp & Pc & Hw). set (ws := cwl t sh (c, n)) in *.
  assert (Kok : g_kok g = true) by (destruct IC as (Lk & _); destruct (@fresh_corner t sh fl M X xs g B H k C Lk) as (v & _ & _ & Kk); auto).
  assert (FC : fl_corners (cm_flags (gm M)) = true) by (rewrite (fa_flags (built_facts B)); auto).
  assert (I0 : inv (centre_of M X g) ([(n, NODE); (c, CELL)], [p; cc])).
  { split; cbn [fst snd]; [constructor; [intros [E|[]]; discriminate|constructor; [auto|constructor]]|]. apply Forall2_cons; [exact Ep|]. apply Forall2_cons; [exact Ecc|]. constructor. }
  destruct (@facet_loop fl M X g wF wE wec wfc p cc Pp Pc ws) with (s := ([(n, NODE); (c, CELL)], [p; cc])) (tr := @nil (nat * nat * nat)) (l0 := @nil (list point)) as (ks & ps & tr & E & I & T & J); auto.
  { intros w Iw. destruct (Hw w Iw) as (A1 & A2 & A3 & A4 & A5 & A6 & _). auto 8. }
  cbn [fst snd] in *. rewrite app_nil_l in T. set (tt := fun w => two_tris (gtb (det3 p (wec w) (wfc w) cc) 0) p (wec w) (wfc w) cc) in *.
  exists ws, p, cc, ([p; cc] ++ ps), tr, (flat_map tt ws). split; [exact Ew|]. split; [exact Ep|]. split; [exact Ecc|]. split.
  { unfold corner_facetization3. rewrite FC, Kok. cbn [andb asserting]. rewrite Ew. cbn [bind]. rewrite (gm_mdim G), D. cbn [Nat.eqb asserting]. rewrite En. cbn [bind]. rewrite Ep. cbn [bind]. rewrite Ec. cbn [bind]. rewrite Ecc. cbn [bind].
    unfold key in *. rewrite E. reflexivity. }
  split; [exact T|]. split.
  { exists (map tt ws). split; [apply flat_map_concat_map|]. assert (Hw' : forall w, In w ws -> wedge_centres M X g w (wec w) (wfc w)) by (intros w Iw; destruct (Hw w Iw) as (A1 & A2 & A3 & A4 & _); exists (wE w), (wF w); auto).
    clear -Hw'. induction ws as [|w l IH]; constructor; [|apply IH; intros; apply Hw'; right; auto]. exists (wec w), (wfc w). split; [apply Hw'; left; auto|]. unfold tt, two_tris. destruct (gtb _ 0); auto. }
  split.
  { destruct I as [ND F2]. cbn [fst snd] in *. exists ([(n, NODE); (c, CELL)] ++ ks). split; [exact ND|]. split.
    - intros x. cbn [app]. rewrite J. unfold corner_key. cbn [In]. split.
      + intros [[<-|[<-|[]]]|(w & Iw & [K|K])]; auto; right; right; exists w; [exists (wF w)|exists (wE w)]; split; auto; destruct (Hw w Iw) as (A1 & A2 & _); auto.
      + intros [K|[[_ K]|(w & i & Iw & K)]]; auto. right. exists w. split; auto. destruct (Hw w Iw) as (A1 & A2 & _). destruct K as [[K ->]|[K ->]]; [left|right]; congruence.
    - apply kinds_position; auto. intros x Ix. cbn [app] in Ix. apply J in Ix. cbn [In] in Ix. destruct Ix as [[<-|[<-|[]]]|(w & Iw & [K|K])]; subst; auto. }
  intros Pos.
  assert (Hs : forall w, In w ws -> gtb (det3 p (wec w) (wfc w) cc) 0 = (w mod 2 =? 0)%nat /\ exists v, wedge_volume M X g w false = Ok v /\ 0 < v /\ det3 p (wec w) (wfc w) cc = (if (w mod 2 =? 0)%nat then 6 * v else - (6 * v))).
  { intros w Iw. destruct (Pos w Iw) as (v & Ev & Pv). destruct (Hw w Iw) as (_ & _ & _ & _ & _ & _ & v' & Ev' & Dv). rewrite Ev in Ev'. injection Ev' as <-. split; [|eauto]. rewrite Dv. unfold gtb.
    destruct (w mod 2 =? 0)%nat; destruct (Rlt_dec 0 _); auto; lra. }
  assert (ET : flat_map tt ws = flat_map (fun w => two_tris (w mod 2 =? 0)%nat p (wec w) (wfc w) cc) ws) by (apply flat_map_eq; intros w Iw; unfold tt; rewrite (proj1 (Hs w Iw)); auto).
  assert (Cl : closed (flat_map tt ws)).
  { rewrite ET. assert (Eo : filter (fun w => negb (w mod 2 =? 0)%nat) ws = filter (fun w => w mod 2 =? 1)%nat ws) by (apply filter_ext; intros w; assert (w mod 2 < 2)%nat by (apply Nat.mod_upper_bound; lia); destruct (Nat.eqb_spec (w mod 2) 0), (Nat.eqb_spec (w mod 2) 1); auto; lia).
    apply (corner_closed p cc wfc wec (fun w => w mod 2 =? 0)%nat ws); rewrite Eo.
    - unfold wfc, wF. rewrite !(@cwl_sides t sh fl M fn cv G c n Hc _ (fun x => nth (tface x) (g_fcen g) (Pt 0 0 0 0))) by lia.
      rewrite <- !(map_map tface (fun f => nth f (g_fcen g) (Pt 0 0 0 0))). rewrite (@face_balance t sh fl M fn cv G O c n D Hc). apply Permutation_refl.
    - unfold wec, wE. rewrite !(@cwl_sides t sh fl M fn cv G c n Hc _ (fun x => mid X (enodes sh (tedge x)))) by lia. apply (@edge_balance t sh fl M fn cv X G O HX c n D Hc). }
  split; [exact Cl|]. split.
  { destruct (corner_sum B H C IC NB) as (ws' & Ew' & EV). rewrite Ew in Ew'. injection Ew' as <-. eexists. split; [exact EV|].
    assert (Hv : forall w, In w ws -> 0 < nth (w / 2) (g_svol g) 0 / 2 /\ (sum_of (tdet p) (flat_map tris (tt w)) = 6 * (nth (w / 2) (g_svol g) 0 / 2))).
    { intros w Iw. assert (Iw' := Iw). apply (in_cwl B C) in Iw' as (Lw & _). assert (Sv := @sv_wedge t sh fl M X xs g B H w W Lw). destruct (Hs w Iw) as (Hb & v & Ev & Pv & Dv). rewrite Sv in Ev. apply Ok_inj in Ev. rewrite Ev. split; auto.
      unfold tt. rewrite Hb. unfold two_tris, sum_of. destruct (w mod 2 =? 0)%nat; cbn [flat_map tris app map rsum tdet]; unfold det3 in *; lra. }
    split.
    - assert (NE : ws <> []) by (apply (@cwl_nonempty t sh fl (gm M) B C c n); apply (is_corner_iff B C) in IC; eapply nth_error_In; eauto).
      clear -Hv NE. unfold sum_of. destruct ws as [|w0 l]; [congruence|]. cbn [map rsum]. assert (0 < nth (w0 / 2) (g_svol g) 0 / 2) by (apply Hv; left; auto).
      assert (0 <= rsum (map (fun w => nth (w / 2) (g_svol g) 0 / 2) l)); [|lra]. assert (Hl : forall w, In w l -> 0 < nth (w / 2) (g_svol g) 0 / 2) by (intros w Iw; apply Hv; right; auto). clear -Hl.
      induction l as [|w l IH]; cbn [map rsum]; [lra|]. assert (0 < nth (w / 2) (g_svol g) 0 / 2) by (apply Hl; left; auto). assert (0 <= rsum (map (fun w => nth (w / 2) (g_svol g) 0 / 2) l)) by (apply IH; intros; apply Hl; right; auto). lra.
    - intros o. rewrite (volume_from_any o p Cl). unfold volume_from, all_tris. rewrite sum_flat.
      assert (Z : sum_of (fun f => sum_of (tdet p) (tris f)) (flat_map tt ws) = sum_of (fun w => 6 * (nth (w / 2) (g_svol g) 0 / 2)) ws); [|].
      { rewrite sum_flat. apply sum_ext. intros w Iw. rewrite <- sum_flat. apply Hv; auto. }
      rewrite Z. rewrite sum_scale. lra. }
  intros l Il. apply in_flat_map in Il as (w & Iw & Il). destruct (Hs w Iw) as (Hb & v & Ev & Pv & Dv). unfold tt in Il. rewrite Hb in Il. unfold two_tris in Il.
  destruct (w mod 2 =? 0)%nat; destruct Il as [<-|[<-|[]]]; do 3 eexists; (split; [reflexivity|]); [left|right|left|right]; (split; [reflexivity|]); unfold det3 in *; lra.
Qed.
Lemma coords3 : exists ws p cc pts keys, corner_get_wedges (gm M) k = Ok ws /\ node_get_coordinates X n = Ok p /\ cell_centroid M X g c false = Ok cc /\
  corner_get_coordinates M X g k = Ok (p :: pts ++ [cc]) /\
  NoDup ((n, NODE) :: keys) /\ (forall x, In x ((n, NODE) :: keys) <-> corner_key (gm M) ws n c false x) /\ Forall2 (position M X g) keys pts.
Proof.
  assert (B := gq_built G). destruct corner_data as (Hc & Ew & Ec & En). destruct wedge_data as (p & cc & Ep & Ecc & Pp & Pc & Hw). set (ws := cwl t sh (c, n)) in *.
  assert (FC : fl_corners (cm_flags (gm M)) = true) by (rewrite (fa_flags (built_facts B)); auto).
  assert (I0 : inv (centre_of M X g) ([(n, NODE)], [p])).
  { split; cbn [fst snd]; [constructor; [auto|constructor]|]. apply Forall2_cons; [exact Ep|]. constructor. }
  destruct (@coord_loop M X g wF wE wec wfc ws) with (s := ([(n, NODE)], [p])) as (ks & ps & E & I & J); auto.
  { intros w Iw. destruct (Hw w Iw) as (A1 & A2 & A3 & A4 & _). auto 8. }
  cbn [fst snd] in *. exists ws, p, cc, ps, ks. do 3 (split; [assumption|]). split.
  { unfold corner_get_coordinates. rewrite FC. cbn [andb asserting]. rewrite Ew. cbn [bind]. rewrite (gm_mdim G), D. cbn [Nat.eqb asserting]. rewrite En. cbn [bind]. rewrite Ep. cbn [bind]. rewrite Ec. cbn [bind]. rewrite Ecc. cbn [bind].
    unfold key in *. rewrite E. reflexivity. }
  destruct I as [ND F2]. cbn [fst snd app] in *. split; [exact ND|]. split.
  - intros x. rewrite J. unfold corner_key. cbn [In]. split.
    + intros [[<-|[]]|(w & Iw & [K|K])]; auto; right; right; exists w; [exists (wF w)|exists (wE w)]; split; auto; destruct (Hw w Iw) as (A1 & A2 & _); auto.
    + intros [K|[[K _]|(w & i & Iw & K)]]; [auto|discriminate|]. right. exists w. split; auto. destruct (Hw w Iw) as (A1 & A2 & _). destruct K as [[K ->]|[K ->]]; [left|right]; congruence.
  - inversion F2; subst. apply kinds_position; auto. intros x Ix. assert (Ix' : In x ((n, NODE) :: ks)) by (right; auto). apply J in Ix'. cbn [In] in Ix'. destruct Ix' as [[<-|[]]|(w & Iw & [K|K])]; subst; auto.
Qed.
End S.
(** ** C82 in space *)
(** The facets are two triangles per wedge: (node, edge centre, face centre) and (cell centre, edge centre, face centre), indexing into a list that holds every point once.
    If the wedges of the corner have positive volume, the facets form a closed surface, oriented outwards, that encloses the volume of the corner. *)
Theorem c82_facets_space : forall t sh fl M fn cv X xs g k c n, geom_mesh t sh fl M fn cv -> oriented t sh fn cv -> coords_ok t X -> history M (X :: xs) g ->
  fl_corners (close_flags fl) = true -> tp_mdim t = 3%nat -> is_corner (gm M) k c n -> ~ cell_has_type t c BOUNDARY_GHOST ->
  exists ws p cc pts tris faces, corner_get_wedges (gm M) k = Ok ws /\ node_get_coordinates X n = Ok p /\ cell_centroid M X g c false = Ok cc /\
  corner_facetization3 M X g k = Ok (pts, tris) /\ Forall2 (fun i l => tri_at pts i = map Some l) tris faces /\
  (exists per, faces = concat per /\ Forall2 (fun w l => exists ec fc, wedge_centres M X g w ec fc /\ (l = [[p; ec; fc]; [cc; fc; ec]] \/ l = [[p; fc; ec]; [cc; ec; fc]])) ws per) /\
  (exists keys, NoDup keys /\ (forall x, In x keys <-> corner_key (gm M) ws n c true x) /\ Forall2 (position M X g) keys pts) /\
  ((forall w, In w ws -> exists v, wedge_volume M X g w false = Ok v /\ 0 < v) ->
     closed faces /\ (exists V, corner_volume M X g k false = Ok V /\ 0 < V /\ forall o, volume_from o faces = V) /\
     forall l, In l faces -> exists a b d, l = [a; b; d] /\ (a = p /\ 0 < det3 cc a b d \/ a = cc /\ 0 < det3 p a b d)).
Proof. intros t sh fl M fn cv X xs g k c n G O HX H C D IC NB. apply (@facets3 t sh fl M fn cv X xs g G O HX H C D k c n NB IC). Qed.
(** The coordinates are the node, the centres of the faces and edges of the corner, each once, and the cell centre. *)
Theorem c82_coordinates_space : forall t sh fl M fn cv X xs g k c n, geom_mesh t sh fl M fn cv -> oriented t sh fn cv -> coords_ok t X -> history M (X :: xs) g ->
  fl_corners (close_flags fl) = true -> tp_mdim t = 3%nat -> is_corner (gm M) k c n -> ~ cell_has_type t c BOUNDARY_GHOST ->
  exists ws p cc pts keys, corner_get_wedges (gm M) k = Ok ws /\ node_get_coordinates X n = Ok p /\ cell_centroid M X g c false = Ok cc /\
  corner_get_coordinates M X g k = Ok (p :: pts ++ [cc]) /\
  NoDup ((n, NODE) :: keys) /\ (forall x, In x ((n, NODE) :: keys) <-> corner_key (gm M) ws n c false x) /\ Forall2 (position M X g) keys pts.
Proof. intros t sh fl M fn cv X xs g k c n G O HX H C D IC NB. apply (@coords3 t sh fl M fn cv X xs g G O HX H C D k c n NB IC). Qed.
(** ** the plane *)
Lemma cnt_le1 (l : list nat) n : NoDup l -> (length (filter (fun x => x =? n)%nat l) <= 1)%nat.
Proof.
  induction 1 as [|a l NI ND IH]; cbn; [lia|]. destruct (Nat.eqb_spec a n) as [->|E]; cbn; auto. assert (Z : filter (fun x => x =? n)%nat l = []); [|rewrite Z; cbn; lia].
  clear -NI. induction l as [|b l IH]; auto. cbn. destruct (Nat.eqb_spec b n) as [->|E]; [exfalso; apply NI; left; auto|]. apply IH. intros I. apply NI. right. auto.
Qed.
Lemma two_of (A : Type) (q : A -> bool) l a b : filter q l = [a] -> filter (fun x => negb (q x)) l = [b] -> l = [a; b] \/ l = [b; a].
Proof.
  intros H1 H2. destruct l as [|x [|y [|z l]]]; cbn in *.
  - discriminate.
  - destruct (q x); cbn in *; discriminate.
  - destruct (q x), (q y); cbn in *; try discriminate; injection H1 as ->; injection H2 as ->; auto.
  - exfalso. assert (L : (length (filter q l) + length (filter (fun x => negb (q x)) l) = length l)%nat) by (clear; induction l as [|u l IH]; cbn; auto; destruct (q u); cbn; lia).
    apply (f_equal (@length A)) in H1. apply (f_equal (@length A)) in H2. destruct (q x), (q y), (q z); cbn in *; lia.
Qed.
Section P.
Variables (t : topo) (sh : shape) (fl : flags) (M : gmesh) (fn cv : nat -> list nat) (X : coordinates) (xs : list coordinates) (g : geo).
Hypothesis G : geom_mesh t sh fl M fn cv.
Hypothesis O : oriented t sh fn cv.
Hypothesis HX : coords_ok t X.
Hypothesis H : history M (X :: xs) g.
Hypothesis C : fl_corners (close_flags fl) = true.
Hypothesis D : tp_mdim t = 2%nat.
Variables (k c n : nat).
Hypothesis NB : ~ cell_has_type t c BOUNDARY_GHOST.
Hypothesis IC : is_corner (gm M) k c n.
Hypothesis ND : NoDup (cv c).
Let W : fl_wedges (close_flags fl) = true := proj1 (close_closed fl) C.
Lemma corner_wedges2 : (c < ncells t)%nat /\ corner_get_cell (gm M) k = Ok c /\ corner_get_node (gm M) k = Ok n /\
  exists w0 w1, corner_get_wedges (gm M) k = Ok [w0; w1] /\ ((w0 mod 2 = 0 /\ w1 mod 2 = 1) \/ (w0 mod 2 = 1 /\ w1 mod 2 = 0))%nat.
Proof.
  assert (B := gq_built G). destruct (@corner_data t sh fl M fn cv G C k c n IC) as (Hc & Ew & Ec & En). do 3 (split; [assumption|]).
  assert (NE : cwl t sh (c, n) <> []) by (apply (@cwl_nonempty t sh fl (gm M) B C c n); apply (is_corner_iff B C) in IC; eapply nth_error_In; eauto).
  assert (P := @edges2 t sh fl M fn cv G O D c Hc). set (ws := cwl t sh (c, n)) in *.
  assert (L0 : length (filter (fun w => w mod 2 =? 0)%nat ws) = length (filter (fun x => x =? n)%nat (cv c))).
  { rewrite <- (map_length (fun w => sedge t sh (wtrip t sh w))). unfold ws. rewrite (@cwl_sides t sh fl M fn cv G c n Hc) by lia. rewrite map_length.
    rewrite <- (map_length (sedge t sh)). change (fun x => snode t sh x 0 =? n)%nat with (fun x => fst (sedge t sh x) =? n)%nat. rewrite <- (filter_map (sedge t sh) (fun e => fst e =? n)%nat).
    rewrite (Permutation_length (perm_filter _ P)). rewrite <- (map_length fst). rewrite <- (filter_map fst (fun x => x =? n)%nat). rewrite map_fst_edges. auto. }
  assert (L1 : length (filter (fun w => w mod 2 =? 1)%nat ws) = length (filter (fun x => x =? n)%nat (cv c))).
  { rewrite <- (map_length (fun w => sedge t sh (wtrip t sh w))). unfold ws. rewrite (@cwl_sides t sh fl M fn cv G c n Hc) by lia. rewrite map_length.
    rewrite <- (map_length (sedge t sh)). change (fun x => snode t sh x 1 =? n)%nat with (fun x => snd (sedge t sh x) =? n)%nat. rewrite <- (filter_map (sedge t sh) (fun e => snd e =? n)%nat).
    rewrite (Permutation_length (perm_filter _ P)). rewrite <- (map_length snd). rewrite <- (filter_map snd (fun x => x =? n)%nat). apply Permutation_length, perm_filter, map_snd_edges. }
  assert (Q := @cnt_le1 (cv c) n ND).
  assert (Eo : filter (fun w => negb (w mod 2 =? 0)%nat) ws = filter (fun w => w mod 2 =? 1)%nat ws) by (apply filter_ext; intros w; assert (w mod 2 < 2)%nat by (apply Nat.mod_upper_bound; lia); destruct (Nat.eqb_spec (w mod 2) 0), (Nat.eqb_spec (w mod 2) 1); auto; lia).
  assert (Z : length (filter (fun x => x =? n)%nat (cv c)) <> 0%nat).
  { intros Z. rewrite Z in L0, L1. destruct ws as [|w l]; [congruence|]. cbn [filter] in L0, L1. assert (w mod 2 < 2)%nat by (apply Nat.mod_upper_bound; lia).
    destruct (Nat.eqb_spec (w mod 2) 0) as [e0|e0]; [cbn in L0; lia|]. destruct (Nat.eqb_spec (w mod 2) 1) as [e1|e1]; [cbn in L1; lia|]. lia. }
  destruct (filter (fun w => w mod 2 =? 0)%nat ws) as [|a [|? ?]] eqn:Ea; cbn [length] in L0; try lia. destruct (filter (fun w => w mod 2 =? 1)%nat ws) as [|b [|? ?]] eqn:Eb; cbn [length] in L1; try lia.
  assert (Ha : (a mod 2 = 0)%nat) by (assert (Ia : In a (filter (fun w => w mod 2 =? 0)%nat ws)) by (rewrite Ea; left; auto); apply filter_In in Ia as [_ Ia]; apply Nat.eqb_eq; auto).
  assert (Hb : (b mod 2 = 1)%nat) by (assert (Ib : In b (filter (fun w => w mod 2 =? 1)%nat ws)) by (rewrite Eb; left; auto); apply filter_In in Ib as [_ Ib]; apply Nat.eqb_eq; auto).
  destruct (two_of _ ws Ea Eo) as [E|E]; rewrite E in Ew; [exists a, b|exists b, a]; auto.
Qed.
Lemma face_pd2 f C0 : (f < nfaces t)%nat -> face_centroid M X g f false = Ok C0 -> pd C0 = 2%nat.
Proof.
  intros Hf E0. destruct (@centroid_face t sh fl M fn cv X G g (fresh_f G H) (fresh_c G H) f Hf) as (C1 & E1 & N). rewrite E0 in E1. injection E1 as <-.
  destruct (face_centre G H Hf) as (A & C' & nn & Ef & Nf). rewrite N in Nf. injection Nf as <-.
  unfold compute_face_geometry in Ef. rewrite (zeros G) in Ef. cbn [bind] in Ef. rewrite (gm_mdim G), D in Ef. rewrite (@face_coords t sh fl M fn cv X G HX f Hf) in Ef. cbn [bind] in Ef.
  assert (L := gq_two G D Hf). destruct (two_list _ L) as (a & b & E). rewrite E in Ef. cbn [at_nodes map rd nth_error bind] in Ef.
  rewrite (gq_sdim G), D in Ef. cbn [Nat.eqb] in Ef. apply bind_inv in Ef as (r & _ & Ef). injection Ef as _ <- _.
  assert (Dm := @face_dim t sh fl M fn cv X G HX f Hf). rewrite E, D in Dm. cbn [at_nodes map] in Dm. assert (Da : pd (node X a) = 2%nat) by (apply Dm; simpl; auto).
  unfold node in *. unfold smul, padd. rewrite Da. reflexivity.
Qed.
(** one wedge of the corner: p is the node; the edge of the cell's polygon runs from p to q for an even wedge and from q to p for an odd one; m is its middle *)
Lemma one_wedge w : (w < n_wedges (gm M))%nat -> wedge_get_cell (gm M) w = Ok c -> wedge_get_node (gm M) w = Ok n ->
  exists f p q m cc, wedge_get_face (gm M) w = Ok f /\ face_centroid M X g f false = Ok m /\ cell_centroid M X g c false = Ok cc /\ nth_error (g_ccen g) c = Some cc /\ node_get_coordinates X n = Ok p /\
    In (if (w mod 2 =? 0)%nat then (p, q) else (q, p)) (edges (at_nodes X (cv c))) /\ pd p = 2%nat /\ pd m = 2%nat /\ pd cc = 2%nat /\ p0 m = (p0 p + p0 q) / 2 /\ p1 m = (p1 p + p1 q) / 2 /\
    wedge_volume M X g w false = Ok (Rabs (tri_area p m cc)).
Proof.
  intros Lw Wc Wn. destruct (@Props_Wedges.wedge2 t sh fl M fn cv X xs g G O HX H D w c W Lw Wc NB) as (f & n' & a & b & fc & cc & V & Lc & E1 & E2 & E3 & E4 & E5 & E6 & Ie & Pa & Pb & Pc & F0 & F1 & _ & _ & EV & EW & _).
  rewrite Wn in E1. injection E1 as <-. apply rd_Ok in E6.
  exists f, (if (w mod 2 =? 0)%nat then a else b), (if (w mod 2 =? 0)%nat then b else a), fc, cc. do 5 (split; [assumption|]). split; [destruct (w mod 2 =? 0)%nat; auto|]. split; [destruct (w mod 2 =? 0)%nat; auto|].
  split. { destruct (wedge_at (gq_built G) W Lw) as (Hx & _ & E2' & _). rewrite E2 in E2'. injection E2' as ->. apply face_pd2 with (f := tface (wtrip t sh w)); auto. apply nth_error_In in Hx. apply (T_range (gm_fm G) _ Hx). }
  split; auto. split; [rewrite F0; destruct (w mod 2 =? 0)%nat; field|]. split; [rewrite F1; destruct (w mod 2 =? 0)%nat; field|]. rewrite EW, EV. f_equal.
  assert (Q : tri_area cc a b = (if (w mod 2 =? 0)%nat then 2 * tri_area (if (w mod 2 =? 0)%nat then a else b) fc cc else - (2 * tri_area (if (w mod 2 =? 0)%nat then a else b) fc cc))).
  { unfold tri_area. destruct (w mod 2 =? 0)%nat; rewrite F0, F1; field. }
  rewrite Q. set (r := tri_area _ fc cc). destruct (w mod 2 =? 0)%nat; [|rewrite Rabs_Ropp]; rewrite Rabs_mult, (Rabs_pos_eq 2); lra.
Qed.
(** the corner: its two wedges, with the even one's data first *)
Lemma corner2 : exists we wo fe fo p a b me mo cc, (corner_get_wedges (gm M) k = Ok [we; wo] \/ corner_get_wedges (gm M) k = Ok [wo; we]) /\
  wedge_get_face (gm M) we = Ok fe /\ wedge_get_face (gm M) wo = Ok fo /\ face_centroid M X g fe false = Ok me /\ face_centroid M X g fo false = Ok mo /\
  wedge_get_node (gm M) we = Ok n /\ wedge_get_node (gm M) wo = Ok n /\ wedge_get_cell (gm M) we = Ok c /\ wedge_get_cell (gm M) wo = Ok c /\
  cell_centroid M X g c false = Ok cc /\ nth_error (g_ccen g) c = Some cc /\ node_get_coordinates X n = Ok p /\ In (a, p) (edges (at_nodes X (cv c))) /\ In (p, b) (edges (at_nodes X (cv c))) /\
  pd p = 2%nat /\ pd me = 2%nat /\ pd mo = 2%nat /\ pd cc = 2%nat /\ p0 me = (p0 p + p0 b) / 2 /\ p1 me = (p1 p + p1 b) / 2 /\ p0 mo = (p0 p + p0 a) / 2 /\ p1 mo = (p1 p + p1 a) / 2 /\
  wedge_volume M X g we false = Ok (Rabs (tri_area p me cc)) /\ wedge_volume M X g wo false = Ok (Rabs (tri_area p mo cc)) /\
  corner_volume M X g k false = Ok (Rabs (tri_area p me cc) + Rabs (tri_area p mo cc)) /\ corner_get_cell (gm M) k = Ok c /\ corner_get_node (gm M) k = Ok n.
Proof.
  assert (B := gq_built G). destruct corner_wedges2 as (Hc & Ec & En & w0 & w1 & Ew & Par).
  assert (Q : exists we wo, (we mod 2 = 0)%nat /\ (wo mod 2 = 1)%nat /\ (corner_get_wedges (gm M) k = Ok [we; wo] \/ corner_get_wedges (gm M) k = Ok [wo; we])) by (destruct Par as [[A1 A2]|[A1 A2]]; [exists w0, w1|exists w1, w0]; auto).
  clear Par Ew w0 w1. destruct Q as (we & wo & Me & Mo & Ew). destruct (c28_corner_wedges B C IC) as (ws & Ew' & _ & _ & Hw).
  destruct (proj1 (Hw we)) as (Le & Ce & Ne); [destruct Ew as [E|E]; rewrite E in Ew'; injection Ew' as <-; cbn; auto|]. destruct (proj1 (Hw wo)) as (Lo & Co & No); [destruct Ew as [E|E]; rewrite E in Ew'; injection Ew' as <-; cbn; auto|].
  destruct (one_wedge Le Ce Ne) as (fe & p & b & me & cc & A1 & A2 & A3 & A4 & A5 & A6 & A7 & A8 & A9 & A10 & A11 & A12).
  destruct (one_wedge Lo Co No) as (fo & p' & a & mo & cc' & B1 & B2 & B3 & B4 & B5 & B6 & B7 & B8 & B9 & B10 & B11 & B12).
  rewrite A5 in B5. injection B5 as <-. rewrite A3 in B3. injection B3 as <-. rewrite Me in A6. rewrite Mo in B6. cbn [Nat.eqb] in A6, B6.
  exists we, wo, fe, fo, p, a, b, me, mo, cc. split; [exact Ew|]. do 23 (split; [assumption|]). split; [|auto].
  destruct (corner_sum B H C IC NB) as (ws' & E' & EV). rewrite EV. f_equal. assert (V0 := @sv_wedge t sh fl M X xs g B H we W Le). assert (V1 := @sv_wedge t sh fl M X xs g B H wo W Lo). rewrite A12 in V0. rewrite B12 in V1. apply Ok_inj in V0. apply Ok_inj in V1.
  destruct Ew as [E|E]; rewrite E in E'; apply Ok_inj in E'; subst ws'; unfold sum_of; cbn [map rsum]; rewrite V0, V1; ring.
Qed.
End P.
(** the corner in a star-shaped cell: the quadrilateral node, middle of the edge that leaves it, cell centre, middle of the edge that arrives *)
Definition corner_quad (M : gmesh) (X : coordinates) (g : geo) (k : nat) (cell : list point) (p me cc mo : point) : Prop :=
  exists n c a b ws fe fo, corner_get_node (gm M) k = Ok n /\ corner_get_cell (gm M) k = Ok c /\ node_get_coordinates X n = Ok p /\ cell_centroid M X g c false = Ok cc /\
    In (a, p) (edges cell) /\ In (p, b) (edges cell) /\ corner_get_wedges (gm M) k = Ok ws /\ (exists we wo, Permutation ws [we; wo] /\ wedge_get_face (gm M) we = Ok fe /\ wedge_get_face (gm M) wo = Ok fo) /\
    face_centroid M X g fe false = Ok me /\ face_centroid M X g fo false = Ok mo /\ p0 me = (p0 p + p0 b) / 2 /\ p1 me = (p1 p + p1 b) / 2 /\ p0 mo = (p0 a + p0 p) / 2 /\ p1 mo = (p1 a + p1 p) / 2.
Theorem c82_facets_plane : forall t sh fl M fn cv X xs g k c n cc, geom_mesh t sh fl M fn cv -> oriented t sh fn cv -> coords_ok t X -> history M (X :: xs) g ->
  fl_corners (close_flags fl) = true -> tp_mdim t = 2%nat -> is_corner (gm M) k c n -> ~ cell_has_type t c BOUNDARY_GHOST -> NoDup (cv c) ->
  cell_centroid M X g c false = Ok cc -> star_ccw cc (at_nodes X (cv c)) ->
  exists p me mo V, corner_quad M X g k (at_nodes X (cv c)) p me cc mo /\ corner_facetization2 M X g k = Ok ([p; me; cc; mo], [(0, 1); (1, 2); (2, 3); (3, 0)]%nat) /\
    corner_volume M X g k false = Ok V /\ shoelace [p; me; cc; mo] = V /\ 0 < tri_area p me cc /\ 0 < tri_area p cc mo.
Proof.
  intros t sh fl M fn cv X xs g k c n cc G O HX H C D IC NB ND Ecc S. assert (B := gq_built G). assert (FC : fl_corners (cm_flags (gm M)) = true) by (rewrite (fa_flags (built_facts B)); auto).
  destruct (@corner2 t sh fl M fn cv X xs g G O HX H C D k c n NB IC ND) as (we & wo & fe & fo & p & a & b & me & mo & cc' & Ew & A1 & A2 & A3 & A4 & A5 & A6 & A7 & A8 & A9 & A10 & A11 & A12 & A13 & P1 & P2 & P3 & P4 & X1 & X2 & X3 & X4 & V1 & V2 & V3 & Kc & Kn).
  rewrite Ecc in A9. injection A9 as <-. assert (T1 := S _ A12). assert (T2 := S _ A13). cbn [fst snd] in T1, T2.
  assert (S1 : 0 < tri_area p me cc) by (unfold tri_area in *; rewrite X1, X2; lra). assert (S2 : tri_area p mo cc < 0) by (unfold tri_area in *; rewrite X3, X4; lra).
  exists p, me, mo. eexists. split.
  { destruct Ew as [E|E]; exists n, c, a, b; [exists [we; wo]|exists [wo; we]]; exists fe, fo; do 7 (split; [assumption|]); (split; [exists we, wo; split; [first [apply Permutation_refl|apply perm_swap]|auto]|]); repeat (split; [first [assumption|lra]|]); lra. }
  split. { unfold corner_facetization2. rewrite FC. cbn [asserting]. destruct Ew as [E|E]; rewrite E; cbn [bind]; rewrite (gm_mdim G), D; cbn [Nat.eqb asserting]; rewrite Kn; cbn [bind]; rewrite A11; cbn [bind]; rewrite Kc; cbn [bind]; rewrite Ecc;
      cbn [bind rd nth_error]; rewrite ?A1, ?A2; cbn [bind]; rewrite ?A3, ?A4; cbn [bind]; rewrite ?A1, ?A2; cbn [bind]; rewrite ?A3, ?A4; cbn [bind];
      unfold cross, psub; rewrite P2 || rewrite P3; rewrite P4; cbn [pd p0 p1 p2]; unfold gtb; destruct (Rlt_dec 0 _) as [K|K]; auto; exfalso; unfold tri_area in *; lra. }
  split; [exact V3|]. split; [|split; [exact S1|unfold tri_area in *; lra]].
  rewrite (Rabs_pos_eq (tri_area p me cc)) by lra. rewrite (Rabs_left (tri_area p mo cc)) by lra. unfold shoelace, sum_of, Geometry_spec.wedge2, tri_area. cbn [edges steps map rsum fst snd]. field.
Qed.
Lemma coords2 t sh fl M fn cv X xs g k c n cc : geom_mesh t sh fl M fn cv -> oriented t sh fn cv -> coords_ok t X -> history M (X :: xs) g ->
  fl_corners (close_flags fl) = true -> tp_mdim t = 2%nat -> is_corner (gm M) k c n -> ~ cell_has_type t c BOUNDARY_GHOST -> NoDup (cv c) ->
  cell_centroid M X g c false = Ok cc -> star_ccw cc (at_nodes X (cv c)) ->
  exists p me mo V a b, corner_quad M X g k (at_nodes X (cv c)) p me cc mo /\ In (a, p) (edges (at_nodes X (cv c))) /\ In (p, b) (edges (at_nodes X (cv c))) /\ node_get_coordinates X n = Ok p /\
    corner_volume M X g k false = Ok V /\ 0 < V /\ shoelace [p; me; cc; mo] = V /\ shoelace [p; mo; cc; me] = - V /\
    (0 < tri_area a p b -> corner_get_coordinates M X g k = Ok [p; me; cc; mo]) /\ (tri_area a p b < 0 -> corner_get_coordinates M X g k = Ok [p; mo; cc; me]).
Proof.
  intros G O HX H C D IC NB ND Ecc S. assert (B := gq_built G). assert (FC : fl_corners (cm_flags (gm M)) = true) by (rewrite (fa_flags (built_facts B)); auto).
  destruct (@c82_facets_plane t sh fl M fn cv X xs g k c n cc G O HX H C D IC NB ND Ecc S) as (p' & me' & mo' & V & Q & _ & EV & SH & T1' & T2').
  destruct (@corner2 t sh fl M fn cv X xs g G O HX H C D k c n NB IC ND) as (we & wo & fe & fo & p & a & b & me & mo & cc' & Ew & A1 & A2 & A3 & A4 & A5 & A6 & A7 & A8 & A9 & A10 & A11 & A12 & A13 & P1 & P2 & P3 & P4 & X1 & X2 & X3 & X4 & V1 & V2 & V3 & Kc & Kn).
  rewrite Ecc in A9. injection A9 as <-. assert (T1 := S _ A12). assert (T2 := S _ A13). cbn [fst snd] in T1, T2.
  assert (S1 : 0 < tri_area p me cc) by (unfold tri_area in *; rewrite X1, X2; lra). assert (S2 : tri_area p mo cc < 0) by (unfold tri_area in *; rewrite X3, X4; lra).
  rewrite V3 in EV. injection EV as EV. rewrite (Rabs_pos_eq (tri_area p me cc)) in * by lra. rewrite (Rabs_left (tri_area p mo cc)) in * by lra.
  destruct (swT B (proj1 (close_closed fl) C)) as [_ FW].
  assert (G0 : wedge_get_coordinates M X g we false = Ok [p; me; cc]).
  { unfold wedge_get_coordinates. rewrite FW. cbn [asserting]. rewrite A5. cbn [bind]. rewrite A11. cbn [bind]. rewrite (gm_mdim G), D, A1. cbn [bind]. rewrite A3. cbn [bind]. rewrite A7. cbn [bind]. rewrite Ecc. reflexivity. }
  assert (G1 : wedge_get_coordinates M X g wo false = Ok [p; mo; cc]).
  { unfold wedge_get_coordinates. rewrite FW. cbn [asserting]. rewrite A6. cbn [bind]. rewrite A11. cbn [bind]. rewrite (gm_mdim G), D, A2. cbn [bind]. rewrite A4. cbn [bind]. rewrite A8. cbn [bind]. rewrite Ecc. reflexivity. }
  exists p, me, mo. eexists. exists a, b. split.
  { destruct Ew as [E|E]; exists n, c, a, b; [exists [we; wo]|exists [wo; we]]; exists fe, fo; do 7 (split; [assumption|]); (split; [exists we, wo; split; [first [apply Permutation_refl|apply perm_swap]|auto]|]); repeat (split; [first [assumption|lra]|]); lra. }
  do 3 (split; [assumption|]). split; [exact V3|]. split; [lra|]. split; [unfold shoelace, sum_of, Geometry_spec.wedge2, tri_area; cbn [edges steps map rsum fst snd]; field|]. split; [unfold shoelace, sum_of, Geometry_spec.wedge2, tri_area; cbn [edges steps map rsum fst snd]; field|].
  assert (CR : p0 (cross (psub me p) (psub mo p)) = tri_area a p b / 2 /\ p0 (cross (psub mo p) (psub me p)) = - (tri_area a p b / 2)).
  { unfold cross, psub. rewrite P2, P3. cbn [pd p0 p1 p2]. unfold tri_area. rewrite X1, X2, X3, X4. split; field. }
  destruct CR as [CR1 CR2].
  split; intros K; unfold corner_get_coordinates; rewrite FC; cbn [asserting]; destruct Ew as [E|E]; rewrite E; cbn [bind]; rewrite (gm_mdim G), D; cbv beta iota; cbn [rd nth_error bind]; rewrite ?G0, ?G1; cbn [bind];
    rewrite ?G0, ?G1; cbn [bind rd nth_error app]; rewrite ?V1, ?V2; cbn [bind]; rewrite ?CR1, ?CR2; rewrite ?(Rabs_pos_eq (tri_area p me cc)), ?(Rabs_left (tri_area p mo cc)) by lra; unfold ltb; destruct (Rlt_dec _ 0) as [L|L]; cbn; auto; exfalso; nra.
Qed.
(** the polygon of a strictly convex cell turns left at every node *)
Lemma convex_turn l a p b : (3 <= length l)%nat -> convex_ccw l -> In (a, p) (edges l) -> In (p, b) (edges l) -> 0 < tri_area a p b.
Proof.
  intros L [ND Cv] I1 I2. destruct (edges_In _ _ I1) as [Ia Ip]. destruct (edges_In _ _ I2) as [_ Ib]. cbn [fst snd] in *. apply Cv; auto.
  - intros ->. destruct (third a p L ND) as (w & Iw & N1 & N2). assert (Q1 := Cv _ _ _ I1 Iw N1 N2). assert (Q2 := Cv _ _ _ I2 Iw N2 N1). unfold tri_area in *. lra.
  - intros ->. destruct (third a p L ND) as (w & Iw & N1 & N2). assert (Q2 := Cv _ _ _ I2 Iw N2 N2). unfold tri_area in *. lra.
Qed.
Theorem c82_coordinates_plane : forall t sh fl M fn cv X xs g k c n, geom_mesh t sh fl M fn cv -> oriented t sh fn cv -> coords_ok t X -> history M (X :: xs) g ->
  fl_corners (close_flags fl) = true -> tp_mdim t = 2%nat -> is_corner (gm M) k c n -> ~ cell_has_type t c BOUNDARY_GHOST -> convex_ccw (at_nodes X (cv c)) ->
  exists p me cc mo V, corner_quad M X g k (at_nodes X (cv c)) p me cc mo /\ corner_get_coordinates M X g k = Ok [p; me; cc; mo] /\
    corner_facetization2 M X g k = Ok ([p; me; cc; mo], [(0, 1); (1, 2); (2, 3); (3, 0)]%nat) /\ corner_volume M X g k false = Ok V /\ 0 < V /\ shoelace [p; me; cc; mo] = V.
Proof.
  intros t sh fl M fn cv X xs g k c n G O HX H C D IC NB Cv. destruct (@corner_data t sh fl M fn cv G C k c n IC) as (Hc & _).
  destruct (@centroid_cell t M X g (fresh_f G H) (fresh_c G H) c Hc) as (cc & Ecc & Ncc). assert (S := @star_centre t sh fl M fn cv X xs g G O HX H D c cc Hc NB Cv Ncc).
  assert (ND : NoDup (cv c)) by (apply (NoDup_map_inv (fun n => nth n X (Pt 0 0 0 0))); apply (proj1 Cv)).
  destruct (or_cell2 O D Hc) as [L _].
  destruct (@coords2 t sh fl M fn cv X xs g k c n cc G O HX H C D IC NB ND Ecc S) as (p & me & mo & V & a & b & Q & I1 & I2 & Ep & EV & PV & SH & _ & R & _).
  destruct (@c82_facets_plane t sh fl M fn cv X xs g k c n cc G O HX H C D IC NB ND Ecc S) as (p' & me' & mo' & V' & Q' & EF & EV' & _).
  assert (T : 0 < tri_area a p b) by (apply convex_turn with (l := at_nodes X (cv c)); auto; unfold at_nodes; rewrite map_length; auto).
  exists p, me, cc, mo, V. split; auto. split; [apply R; auto|]. split; [|auto].
  rewrite EF. destruct Q as (n1 & c1 & a1 & b1 & ws1 & fe1 & fo1 & K1 & _ & K3 & _ & Ka & Kb & Kw & (we & wo & Pw & Kfe & Kfo) & Kme & Kmo & M1 & M2 & M3 & M4).
  destruct Q' as (n2 & c2 & a2 & b2 & ws2 & fe2 & fo2 & J1 & _ & J3 & _ & Ja & Jb & Jw & (we' & wo' & Pw' & Jfe & Jfo) & Jme & Jmo & N1 & N2 & N3 & N4).
  rewrite K1 in J1. injection J1 as <-. rewrite K3 in J3. injection J3 as <-. assert (b2 = b1) as -> by (eapply edges_fun; eauto; apply Cv).
  rewrite Kw in Jw. injection Jw as <-. assert (PP : Permutation [we; wo] [we'; wo']) by (etransitivity; [apply Permutation_sym; exact Pw|exact Pw']). apply Permutation_length_2 in PP as [[<- <-]|[<- <-]].
  - rewrite Kfe in Jfe. injection Jfe as <-. rewrite Kfo in Jfo. injection Jfo as <-. rewrite Kme in Jme. injection Jme as <-. rewrite Kmo in Jmo. injection Jmo as <-. auto.
  - rewrite Kfe in Jfo. injection Jfo as <-. rewrite Kfo in Jfe. injection Jfe as <-. rewrite Kme in Jmo. injection Jmo as <-. rewrite Kmo in Jme. injection Jme as <-.
    exfalso. assert (T' : 0 < tri_area a1 p b1) by (apply convex_turn with (l := at_nodes X (cv c)); auto; unfold at_nodes; rewrite map_length; auto). unfold tri_area in T'. nra.
Qed.
(** at a reflex corner - the cell's polygon turns right there - the points come in clockwise order, in every star-shaped cell *)
Theorem c82_coordinates_reflex_refuted : forall t sh fl M fn cv X xs g k c n cc, geom_mesh t sh fl M fn cv -> oriented t sh fn cv -> coords_ok t X -> history M (X :: xs) g ->
  fl_corners (close_flags fl) = true -> tp_mdim t = 2%nat -> is_corner (gm M) k c n -> ~ cell_has_type t c BOUNDARY_GHOST -> NoDup (at_nodes X (cv c)) ->
  cell_centroid M X g c false = Ok cc -> star_ccw cc (at_nodes X (cv c)) ->
  (forall p a b, node_get_coordinates X n = Ok p -> In (a, p) (edges (at_nodes X (cv c))) -> In (p, b) (edges (at_nodes X (cv c))) -> tri_area a p b < 0) ->
  exists l V, corner_get_coordinates M X g k = Ok l /\ corner_volume M X g k false = Ok V /\ 0 < V /\ shoelace l = - V.
Proof.
  intros t sh fl M fn cv X xs g k c n cc G O HX H C D IC NB NDp Ecc S R.
  assert (ND : NoDup (cv c)) by (apply (NoDup_map_inv (fun n => nth n X (Pt 0 0 0 0))); auto).
  destruct (@coords2 t sh fl M fn cv X xs g k c n cc G O HX H C D IC NB ND Ecc S) as (p & me & mo & V & a & b & Q & I1 & I2 & Ep & EV & PV & _ & SH & _ & K).
  exists [p; mo; cc; me], V. split; [apply K; eapply R; eauto|]. auto.
Qed.
(** ** on the line *)
Section L.
Variables (x0 : list R) (fl : flags) (m : cmesh) (gt : geom_type) (x : list R) (xs : list coordinates) (g : geo).
Hypothesis MV : moved_line x0 fl m gt x xs g.
Variables (c : nat) (a b : R).
Hypothesis SO : segment_of gt x c a b.
Hypothesis K : fl_corners (close_flags fl) = true.
Lemma line_corner r : (r < 2)%nat -> exists k s, is_corner m k c (c + r) /\ corner_get_wedges m k = Ok [2 * s; 2 * s + 1]%nat /\
  forall pv, wedge_get_coordinates (line_g m gt) (on_line x) g (2 * s) pv = Ok [P1 (if (r =? 0)%nat then a else b); P1 ((a + b) / 2)].
Proof.
  intros Lr. assert (W := proj1 (close_closed fl) K). destruct (sl MV SO) as (s0 & s1 & E & L0 & L1 & _).
  destruct MV as [S C L N H], SO as [Ha Hb AB A0]. destruct (@line_topo x0 fl m S C) as (t & B & LM & NC & BG & NN & CF & FC). destruct (swT B W) as [SW FW].
  assert (Lc : (c + 1 < length x)%nat) by (apply nth_error_Some; congruence). assert (Cc : (c < length x0 - 1)%nat) by lia.
  destruct (@Props_Cache1D.c30_two_sides_per_cell R x0 fl m c S C Cc) as (s0' & s1' & Es & Nd & I0 & I1 & Sn). rewrite E in Es. injection Es as <- <-.
  destruct I0 as (_ & C0 & _). destruct I1 as (_ & C1 & _). destruct (@centre_line x0 fl m gt x xs g S C L N H c a b Ha Hb AB A0) as [_ Ecc].
  destruct (@rd_a x c a b Ha Hb) as [Ra Rb]. destruct (Sn 0%nat ltac:(lia)) as [N00 N10]. destruct (Sn 1%nat ltac:(lia)) as [N01 N11]. assert (MD := @line_mdim x0 fl m gt S C).
  rewrite <- NC in Cc. destruct (@Props_Cache.c28_corner_at_node t line_shape fl m c (c + r) B K Cc) as [[k [Ek Hk]]|[_ Bad]]; [|exfalso; apply Bad; simpl; lia].
  exists k, (if (r =? 0)%nat then s0 else s1). split; auto.
  assert (D0 : forall s, (2 * s / 2 = s)%nat) by (intros; lia). assert (D1 : forall s, ((2 * s + 1) / 2 = s)%nat) by (intros; lia).
  assert (M0 : forall s, (2 * s mod 2 = 0)%nat) by (intros; lia). assert (M1 : forall s, ((2 * s + 1) mod 2 = 1)%nat) by (intros; lia).
  assert (Wn : forall s i q, (s < n_sides m)%nat -> (i < 2)%nat -> side_get_node m s i = Ok q -> wnode_of t line_shape (2 * s + i) = q).
  { intros s i q Ls Li Eq. assert (Lw : (2 * s + i < n_wedges m)%nat) by (rewrite (n_wedges_eq B W); rewrite (n_sides_eq B) in Ls; lia). destruct (wedge_at B W Lw) as (_ & _ & _ & _ & Q).
    unfold wedge_get_node in Q. rewrite SW in Q. cbn [asserting] in Q. assert (i = 0 \/ i = 1)%nat as [->| ->] by lia; rewrite ?Nat.add_0_r in *; rewrite ?D0, ?D1, ?M0, ?M1 in Q; congruence. }
  split.
  - rewrite (is_corner_iff B K) in Hk. rewrite (corner_wedges_at B K _ Hk). f_equal. unfold cwl, cwed. cbn [fst snd]. rewrite (@cell_sides t line_shape fl m B c Cc) in E. injection E as ->. cbn [flat_map w2 app filter].
    assert (Q0 := Wn s0 0%nat _ L0 ltac:(lia) N00). assert (Q1 := Wn s1 0%nat _ L1 ltac:(lia) N10). rewrite Nat.add_0_r in Q0, Q1. rewrite Q0, Q1, (Wn s0 1%nat _ L0 ltac:(lia) N01), (Wn s1 1%nat _ L1 ltac:(lia) N11).
    assert (r = 0 \/ r = 1)%nat as [->| ->] by lia; cbn [Nat.eqb]; [replace (c =? c + 0)%nat with true by (symmetry; apply Nat.eqb_eq; lia); replace (c + 1 =? c + 0)%nat with false by (symmetry; apply Nat.eqb_neq; lia)
      |replace (c =? c + 1)%nat with false by (symmetry; apply Nat.eqb_neq; lia); rewrite Nat.eqb_refl]; reflexivity.
  - intros pv. unfold wedge_get_coordinates. rewrite MD. cbn [line_g gm]. rewrite FW. cbn [asserting]. unfold wedge_get_node, wedge_get_cell. rewrite SW, D0, M0. cbn [asserting].
    assert (r = 0 \/ r = 1)%nat as [->| ->] by lia; cbn [Nat.eqb]; rewrite ?N00, ?N10; cbn [bind]; unfold node_get_coordinates, on_line in *; rewrite ?Ra, ?Rb; cbn [bind]; rewrite ?C0, ?C1; cbn [bind]; fold (line_g m gt); rewrite Ecc; cbn [bind app andb negb]; rewrite ?andb_false_r; reflexivity.
Qed.
(** the corner at the left node is the segment from the node to the cell centre; the one at the right node comes in decreasing order *)
Theorem c82_line_order_refuted : exists k0 k1, is_corner m k0 c c /\ is_corner m k1 c (c + 1) /\
  corner_get_coordinates (line_g m gt) (on_line x) g k0 = Ok [P1 a; P1 ((a + b) / 2)] /\ corner_get_coordinates (line_g m gt) (on_line x) g k1 = Ok [P1 b; P1 ((a + b) / 2)] /\ a < (a + b) / 2 /\ (a + b) / 2 < b.
Proof.
  destruct (@line_corner 0 ltac:(lia)) as (k0 & s0 & I0 & E0 & C0). destruct (@line_corner 1 ltac:(lia)) as (k1 & s1 & I1 & E1 & C1). rewrite Nat.add_0_r in I0.
  destruct MV as [S C L N H]. assert (MD := @line_mdim x0 fl m gt S C). destruct (@line_topo x0 fl m S C) as (t & B & _). assert (FC : fl_corners (cm_flags m) = true) by (rewrite (fa_flags (built_facts B)); auto).
  exists k0, k1. split; auto. split; auto. destruct SO as [_ _ AB _].
  split; [|split; [|lra]]; unfold corner_get_coordinates; rewrite MD; cbn [line_g gm]; rewrite FC; cbn [asserting]; rewrite ?E0, ?E1; cbn [bind rd nth_error]; fold (line_g m gt); [apply C0|apply C1].
Qed.
(** corner_get_facetization in 1D leaves what the caller's facet list held before and appends to it *)
Theorem c82_line_facets_refuted : forall facets r, (r < 2)%nat -> exists k, is_corner m k c (c + r) /\
  corner_facetization1 (line_g m gt) (on_line x) g k facets = Ok ([P1 (if (r =? 0)%nat then a else b); P1 ((a + b) / 2)], facets ++ [0; 1]%nat).
Proof.
  intros facets r Lr. destruct (@line_corner r Lr) as (k & s & I & E & C0). exists k. split; auto.
  destruct MV as [S C L N H]. destruct (@line_topo x0 fl m S C) as (t & B & _). assert (FC : fl_corners (cm_flags m) = true) by (rewrite (fa_flags (built_facts B)); auto).
  unfold corner_facetization1. cbn [line_g gm]. rewrite FC. cbn [asserting]. rewrite E. cbn [bind rd nth_error]. fold (line_g m gt). rewrite C0. reflexivity.
Qed.
End L.
