(** C76: lengths, vectors and centres of edges and faces. *)
From Coq Require Import Reals Permutation Lra.
From Verif Require Import Base Loop Defs Factory Cache Cache_spec Cache_proofs Cache_proofs2 Cache_proofs4 Cache_proofs5 Cache_proofs6 Props_Cache Point Geometry Geometry_spec Geometry_proofs
  Props_Polygon3D MeshGeom MeshGeom_spec MeshGeom_proofs MeshGeom_proofs2 MeshGeom_examples MeshGeom_tower Props_MeshUpdate Props_GeomWitness.
Set Implicit Arguments.
Local Open Scope R_scope.

(** p is half way between a and b *)
Definition halfway (p a b : point) : Prop := 2 * p0 p = p0 a + p0 b /\ 2 * p1 p = p1 a + p1 b /\ 2 * p2 p = p2 a + p2 b.
(** v leads from a to b *)
Definition leads (v a b : point) : Prop := p0 a + p0 v = p0 b /\ p1 a + p1 v = p1 b /\ p2 a + p2 v = p2 b.
(** square of the distance *)
Definition dist2 (a b : point) : R := (p0 b - p0 a) ^ 2 + (p1 b - p1 a) ^ 2 + (p2 b - p2 a) ^ 2.
(** the coordinates beyond the dimension of a point are 0 *)
Definition clean (p : point) : Prop := (pd p = 2%nat -> p2 p = 0) /\ (pd p = 1%nat -> p1 p = 0 /\ p2 p = 0).
Definition clean_coords (X : coordinates) : Prop := forall p, In p X -> clean p.

Lemma dim23 (d : nat) : (d = 2 \/ d = 3)%nat -> forall p q, pd p = d -> pd q = d -> clean p -> clean q ->
  leads (psub q p) p q /\ leads (popp (psub q p)) q p /\ halfway (smul (/ 2) (padd p q)) p q /\ halfway (pdiv (padd p q) 2) p q /\ dist2 p q = norm (psub q p) ^ 2 /\ 0 <= norm (psub q p).
Proof.
  intros D [kp a0 a1 a2] [kq b0 b1 b2] Hp Hq [Cp _] [Cq _]. cbn [pd p2] in *. subst kp kq.
  assert (Q : 0 <= norm (psub {| pd := d; p0 := b0; p1 := b1; p2 := b2 |} {| pd := d; p0 := a0; p1 := a1; p2 := a2 |})) by (unfold norm; apply sqrt_pos).
  set (u := psub _ _) in *. assert (E : norm u ^ 2 = dot u u) by (unfold norm; apply pow2_sqrt; unfold u; unfold dot; repeat (destruct D as [-> | ->] || cbn); repeat (apply Rplus_le_le_0_compat); try apply Rle_0_sqr; lra). rewrite E. clear E. revert Q. subst u.
  unfold leads, halfway, dist2. destruct D as [-> | ->]; intros Q.
  - specialize (Cp eq_refl). specialize (Cq eq_refl). subst a2 b2. repeat split; try exact Q; cbn; try lra; try ring; field.
  - repeat split; try exact Q; cbn; try lra; try ring; field.
Qed.

Section E.
Variables (t : topo) (sh : shape) (fl : flags) (M : gmesh) (fn cv : nat -> list nat) (X : coordinates) (xs : list coordinates) (g : geo).
Hypothesis G : geom_mesh t sh fl M fn cv.
Hypothesis HX : coords_ok t X.
Hypothesis CX : clean_coords X.
Hypothesis H : history M (X :: xs) g.
Lemma node_ok n : (n < nnodes t)%nat -> let p := nth n X (Pt 0 0 0 0) in pd p = tp_mdim t /\ clean p /\ rd X n = Ok p.
Proof.
  intros L p. split; [apply (node_dim HX); auto|]. split; [apply CX; apply nth_In; rewrite (proj1 HX); auto|apply (rd_node HX); auto].
Qed.
Variables (e n n' : nat) (p q : point).
Hypothesis He : (e < nedges t)%nat.
Hypothesis En : enodes sh e = (n, n').
Hypothesis Np : nth_error X n = Some p.
Hypothesis Nq : nth_error X n' = Some q.
Lemma ends : nth n X (Pt 0 0 0 0) = p /\ nth n' X (Pt 0 0 0 0) = q /\ pd p = tp_mdim t /\ pd q = tp_mdim t /\ clean p /\ clean q.
Proof.
  destruct (gq_en G He) as [L1 L2]. rewrite En in *. cbn [fst snd] in *. destruct (node_ok L1) as (A & B & _). destruct (node_ok L2) as (A' & B' & _).
  assert (E1 : nth n X (Pt 0 0 0 0) = p) by (apply nth_error_nth; auto). assert (E2 : nth n' X (Pt 0 0 0 0) = q) by (apply nth_error_nth; auto). rewrite E1, E2 in *. tauto.
Qed.
Lemma edge_ans re pt : (edge_length M X g e re = Ok (norm (psub q p))) /\ edge_centroid M X g e = Ok (pdiv (padd p q) 2) /\
  edge_vector M X g e re pt = Ok (match pt with None => (psub q p, 1%Z) | Some k => if (k =? n)%nat then (psub q p, 1%Z) else (popp (psub q p), (-1)%Z) end).
Proof.
  assert (B := gq_built G). destruct (built_flags B) as (_ & FE & _). destruct (@fresh_edge t sh fl M X xs g B H e He) as (r & Er & A1 & A2 & K).
  assert (Er' := edge_geom G HX He). cbv zeta in Er'. unfold node in Er'. rewrite En in Er'. cbn [fst snd] in Er'. destruct ends as (E1 & E2 & _). rewrite E1, E2 in Er'. rewrite Er' in Er. injection Er as <-. cbn [fst snd] in *.
  unfold edge_length, edge_vector, edge_centroid. rewrite FE, K. cbn [andb asserting]. rewrite Er'. cbn [bind fst snd]. rewrite (edge_nodes_ok G He), En. cbn [bind fst snd].
  split; [destruct re; auto|]. split.
  - destruct (gq_en G He) as [L1 L2]. rewrite En in *. cbn [fst snd] in *. unfold node_get_coordinates. rewrite !(rd_node HX) by auto. cbn [bind]. destruct ends as (-> & -> & _). auto.
  - assert (Z : (if re then Ok (psub q p) else rd (g_evec g) e) = Ok (psub q p)) by (destruct re; auto). rewrite Z. cbn [bind]. destruct pt; auto. 
Qed.
(** edge_length is the distance of the end points, edge_centroid the point half way; edge_vector leads from the first end point to the
    second, or from the end point that is passed to the other one *)
Theorem c76_edges : forall re,
  (exists l, edge_length M X g e re = Ok l /\ 0 <= l /\ l ^ 2 = dist2 p q) /\
  (exists c, edge_centroid M X g e = Ok c /\ halfway c p q) /\
  (exists v, edge_vector M X g e re None = Ok (v, 1%Z) /\ leads v p q) /\
  (exists v, edge_vector M X g e re (Some n) = Ok (v, 1%Z) /\ leads v p q) /\
  (n' <> n -> exists v, edge_vector M X g e re (Some n') = Ok (v, (-1)%Z) /\ leads v q p).
Proof.
  intros re. destruct ends as (_ & _ & D1 & D2 & C1 & C2). destruct (dim23 (gq_dim G) D1 D2 C1 C2) as (L1 & L2 & _ & Hf & Di & Ps).
  destruct (edge_ans re None) as (E1 & E2 & E3). destruct (edge_ans re (Some n)) as (_ & _ & E4). destruct (edge_ans re (Some n')) as (_ & _ & E5).
  split; [eexists; split; [exact E1|]; split; auto|]. split; [eexists; split; [exact E2|auto]|]. split; [eexists; split; [exact E3|auto]|].
  split; [rewrite Nat.eqb_refl in E4; eexists; split; [exact E4|auto]|]. intros Ne. apply Nat.eqb_neq in Ne. rewrite Ne in E5. eexists. split; [exact E5|auto].
Qed.
(** "pointid has to be a point of the edge": any other node is taken for the second end point, without an error *)
Theorem c76_edge_vector_of_another_node_refuted : forall re k, k <> n -> k <> n' -> exists v, edge_vector M X g e re (Some k) = Ok (v, (-1)%Z) /\ leads v q p.
Proof.
  intros re k N1 _. destruct ends as (_ & _ & D1 & D2 & C1 & C2). destruct (dim23 (gq_dim G) D1 D2 C1 C2) as (_ & L2 & _).
  destruct (edge_ans re (Some k)) as (_ & _ & E5). apply Nat.eqb_neq in N1. rewrite N1 in E5. eexists. split; [exact E5|auto].
Qed.
End E.

Section F.
Variables (t : topo) (sh : shape) (fl : flags) (M : gmesh) (fn cv : nat -> list nat) (X : coordinates) (xs : list coordinates) (g : geo).
Hypothesis G : geom_mesh t sh fl M fn cv.
Hypothesis HX : coords_ok t X.
Hypothesis H : history M (X :: xs) g.
Variable f : nat.
Hypothesis Hf : (f < nfaces t)%nat.
Lemma face_ans re : exists r, compute_face_geometry M X f = Ok r /\ face_area M X g f re = Ok (fst (fst r)) /\ face_centroid M X g f re = Ok (snd (fst r)).
Proof.
  assert (B := gq_built G). destruct (built_flags B) as (FF & _). destruct (@fresh_face t sh fl M X xs g B H f Hf) as (r & Er & A & K & _ & _ & Ok').
  exists r. split; auto. unfold face_area, face_centroid. rewrite FF, Ok'. cbn [andb asserting]. rewrite Er. cbn [bind]. destruct re; auto.
Qed.
(** in the plane: face_area is the distance of the two nodes of the face, face_centroid the point half way between them *)
Theorem c76_face_plane : forall re n n' p q, tp_mdim t = 2%nat -> clean_coords X -> fn f = [n; n'] -> nth_error X n = Some p -> nth_error X n' = Some q ->
  (exists a, face_area M X g f re = Ok a /\ 0 <= a /\ a ^ 2 = dist2 p q) /\ (exists c, face_centroid M X g f re = Ok c /\ halfway c p q).
Proof.
  intros re n n' p q D CX F Np Nq. destruct (face_ans re) as (r & Er & -> & ->).
  assert (P : forall k u, nth_error X k = Some u -> nth k X (Pt 0 0 0 0) = u /\ pd u = 2%nat /\ clean u).
  { intros k u E. split; [apply nth_error_nth; auto|]. assert (I := nth_error_In _ _ E). split; [rewrite <- D; apply (proj2 HX); auto|apply CX; auto]. }
  destruct (P _ _ Np) as (Ep & Dp & Cp). destruct (P _ _ Nq) as (Eq & Dq & Cq).
  destruct (@dim23 2 (or_introl eq_refl) p q Dp Dq Cp Cq) as (_ & _ & Hh & _ & Di & Ps).
  unfold compute_face_geometry in Er. rewrite (zeros G) in Er. cbn [bind] in Er. rewrite (gm_mdim G), D, (face_coords G HX Hf), F in Er. cbn [at_nodes map bind] in Er. rewrite Ep, Eq in Er. cbn [rd nth_error bind] in Er.
  match type of Er with bind ?o _ = _ => destruct o as [ns| | | |]; try discriminate end. cbn [bind] in Er. injection Er as <-. cbn [fst snd].
  split; eexists; (split; [reflexivity|]); auto.
Qed.
(** in space: the area of a convex planar face is the length of its normal, the centroid is its centre of gravity *)
Theorem c76_face_space : forall re u, tp_mdim t = 3%nat -> (3 <= length (fn f))%nat -> let l := at_nodes X (fn f) in planar u l -> convex_about u l ->
  exists A C, face_area M X g f re = Ok A /\ face_centroid M X g f re = Ok C /\ 0 < A /\ A = length3 (natural t fn X f) /\
    (forall o, (forall a, In a l -> dot3 u a = dot3 u o) -> A * length3 u = area_about u o l /\
       area_about u o l * p0 C = moment_about p0 u o l /\ area_about u o l * p1 C = moment_about p1 u o l /\ area_about u o l * p2 C = moment_about p2 u o l).
Proof.
  intros re u D L3 l Pl Cv. destruct (face_ans re) as (r & Er & -> & ->). assert (Dm := face_dim G HX Hf). rewrite D in Dm.
  destruct (@c48_space_convex u l) as (A & C & E & P0 & PA & _ & Q); auto; [unfold l, at_nodes; rewrite map_length; auto|].
  unfold compute_face_geometry in Er. rewrite (zeros G) in Er. cbn [bind] in Er. rewrite (gm_mdim G), D, (face_coords G HX Hf) in Er. cbn [bind] in Er. rewrite (gq_sdim G), D in Er. fold l in Er. rewrite E in Er. cbn [bind] in Er.
  match type of Er with bind ?o _ = _ => destruct o as [ns| | | |]; try discriminate end. cbn [bind] in Er. injection Er as <-. cbn [fst snd].
  exists A, C. split; auto. split; auto. split; auto. split; auto. unfold natural. rewrite D. auto.
Qed.
End F.

(** cases that meet the hypotheses *)
Lemma tower_clean : clean_coords tower_X.
Proof. intros p I. unfold tower_X in I. cbn in I. repeat destruct I as [<-|I]; try (split; discriminate). destruct I. Qed.
Lemma quads_clean h : clean_coords (quads_X h).
Proof. intros p I. unfold quads_X in I. cbn in I. repeat destruct I as [<-|I]; try (split; [reflexivity|discriminate]). destruct I. Qed.
(** edge 7 of the tower leads from node 1 at (1,0,0) to node 4 at (1,0,1) *)
Example c76_edges_witness : exists g, history tower_g [tower_X] g /\ edge_vector tower_g tower_X g 7 false (Some 4%nat) = Ok (Pt 3 0 0 (-1), (-1)%Z) /\ edge_length tower_g tower_X g 7 true = Ok 1.
Proof.
  destruct tower_history as [g H]. exists g. split; auto.
  assert (L7 : (7 < nedges tower)%nat) by (change (nedges tower) with 12%nat; lia).
  destruct (@c76_edges _ _ _ _ _ _ tower_X [] g tower_geom tower_coords tower_clean H 7 1 4 (Pt 3 1 0 0) (Pt 3 1 0 1) L7 eq_refl eq_refl eq_refl true) as ((l & El & P & S) & _).
  destruct (@c76_edges _ _ _ _ _ _ tower_X [] g tower_geom tower_coords tower_clean H 7 1 4 (Pt 3 1 0 0) (Pt 3 1 0 1) L7 eq_refl eq_refl eq_refl false) as (_ & _ & _ & _ & V). destruct V as (v & Ev & _); [discriminate|].
  split.
  - destruct (@edge_ans _ _ _ _ _ _ tower_X [] g tower_geom tower_coords tower_clean H 7 1 4 (Pt 3 1 0 0) (Pt 3 1 0 1) L7 eq_refl eq_refl eq_refl false (Some 4%nat)) as (_ & _ & E). rewrite E. cbn [Nat.eqb]. unfold psub, popp. cbn [pd p0 p1 p2]. do 3 f_equal; lra.
  - rewrite El. f_equal. unfold dist2 in S. cbn [p0 p1 p2] in S. assert (Q : (l - 1) * (l + 1) = 0) by (replace ((l - 1) * (l + 1)) with (l ^ 2 - 1) by ring; rewrite S; ring). apply Rmult_integral in Q. lra.
Qed.
(** face 2 of the tower is the square (0,0,0) (1,0,0) (1,0,1) (0,0,1), seen from -y *)
Example c76_face_space_witness : exists g A C, history tower_g [tower_X] g /\ face_area tower_g tower_X g 2 false = Ok A /\ face_centroid tower_g tower_X g 2 false = Ok C /\ A = 1 /\ p0 C = / 2 /\ p2 C = / 2.
Proof.
  destruct tower_history as [g H]. exists g. assert (L2 : (2 < nfaces tower)%nat) by (change (nfaces tower) with 8%nat; lia).
  set (l := [Pt 3 0 0 0; Pt 3 1 0 0; Pt 3 1 0 1; Pt 3 0 0 1]).
  destruct (@c76_face_space _ _ _ _ _ _ tower_X [] g tower_geom tower_coords H 2 L2 false (Pt 3 0 (-1) 0)) as (A & C & E1 & E2 & P & EA & Q); [reflexivity|cbn; lia|..].
  - change (at_nodes tower_X (tower_fn 2)) with l. intros a b Ia Ib. cbn in Ia, Ib. repeat destruct Ia as [<-|Ia]; try destruct Ia; repeat destruct Ib as [<-|Ib]; try destruct Ib; unfold dot3; cbn; lra.
  - change (at_nodes tower_X (tower_fn 2)) with l. split.
    + unfold l. repeat (apply NoDup_cons; [intros I; cbn in I; repeat (destruct I as [I|I]; [injection I; intros; lra|]); destruct I|]). apply NoDup_nil.
    + intros a b c Ie Ic. unfold l, edges in Ie. cbn in Ie, Ic. repeat (destruct Ie as [Ie|Ie]; [injection Ie as <- <-; repeat (destruct Ic as [<-|Ic]; [intros N1 N2; try congruence; unfold seen, dot3; cbn; lra|]); destruct Ic|]); destruct Ie.
  - change (at_nodes tower_X (tower_fn 2)) with l in Q. destruct (Q (Pt 3 0 0 0)) as (Q1 & Q2 & _ & Q3).
    { intros a I. cbn in I. repeat destruct I as [<-|I]; try destruct I; unfold dot3; cbn; lra. }
    assert (LL : length3 (Pt 3 0 (-1) 0) = 1) by (unfold length3; cbn; replace (0 * 0 + -1 * -1 + 0 * 0) with 1 by ring; apply sqrt_1).
    unfold area_about, moment_about, l, edges, seen, dot3 in Q1, Q2, Q3. cbn in Q1, Q2, Q3. rewrite LL in Q1. exists A, C. split; auto. split; auto. split; auto. lra.
Qed.
Example c76_face_plane_witness : exists g a c, history quads_g [quads_X 2] g /\ face_area quads_g (quads_X 2) g 0 false = Ok a /\ face_centroid quads_g (quads_X 2) g 0 true = Ok c /\ a = 2 /\ p0 c = 1.
Proof.
  destruct (quads_history 2) as [g H]. exists g. assert (L0 : (0 < nfaces quads)%nat) by (vm_compute; lia).
  destruct (@c76_face_plane _ _ _ _ _ _ (quads_X 2) [] g quads_geom (quads_coords 2) H 0 L0 false 0 1 (Pt 2 0 0 0) (Pt 2 2 0 0) eq_refl (@quads_clean 2) eq_refl eq_refl eq_refl) as ((a & Ea & Pa & Sa) & _).
  destruct (@c76_face_plane _ _ _ _ _ _ (quads_X 2) [] g quads_geom (quads_coords 2) H 0 L0 true 0 1 (Pt 2 0 0 0) (Pt 2 2 0 0) eq_refl (@quads_clean 2) eq_refl eq_refl eq_refl) as (_ & (c & Ec & Hc & _)).
  exists a, c. split; auto. split; auto. split; auto. unfold dist2 in Sa. cbn in Sa, Hc. split; [|lra]. assert (Q : (a - 2) * (a + 2) = 0) by (ring_simplify; ring_simplify in Sa; lra). apply Rmult_integral in Q. lra.
Qed.
