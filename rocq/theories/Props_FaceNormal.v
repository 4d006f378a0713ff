(** C61: face_normal and its orientation; C73: the face normals of a cell sum to zero. *)
From Coq Require Import Reals Permutation Lra.
From Verif Require Import Base Loop Defs Factory Cache Cache_spec Cache_proofs Cache_proofs2 Cache_proofs5 Cache_proofs6 Props_Cache Point Geometry Geometry_spec Geometry_proofs
  Props_Polygon Props_Polygon3D Polyhedron_proofs Props_Polyhedron Props_InPolygon MeshGeom MeshGeom_spec MeshGeom_proofs MeshGeom_proofs2 MeshGeom_examples Props_MeshUpdate.
Set Implicit Arguments.
Local Open Scope R_scope.

Section N.
Variables (t : topo) (sh : shape) (fl : flags) (M : gmesh) (fn cv : nat -> list nat) (X : coordinates) (xs : list coordinates) (g : geo).
Hypothesis G : geom_mesh t sh fl M fn cv.
Hypothesis HX : coords_ok t X.
Hypothesis H : history M (X :: xs) g.
Lemma face_normals f : (f < nfaces t)%nat -> (tp_mdim t = 3%nat -> (3 <= length (fn f))%nat) -> exists n0 n1,
  (forall re c, face_normal M X g f re c = match c with
     | None => if Req_EM_T (L22 n0) 0 then if Req_EM_T (L22 n1) 0 then AssertFail else Ok (popp n1, 1%Z) else Ok (n0, 1%Z)
     | Some c => d <- cell_face_dir M c f ;; Ok (if (d =? 1)%Z then (n0, d) else (n1, d)) end) /\
  (forall c d, (c < ncells t)%nat -> In (f, d) (cfaces sh c) -> if (d =? 1)%Z then n0 = natural t fn X f else n1 = popp (natural t fn X f)) /\
  (n0 = natural t fn X f \/ n0 = Pt (sdim M) 0 0 0 /\ forall c, (c < ncells t)%nat -> ~ In (f, 1%Z) (cfaces sh c)) /\
  (n1 = popp (natural t fn X f) \/ n1 = Pt (sdim M) 0 0 0 /\ forall c, (c < ncells t)%nat -> ~ In (f, (-1)%Z) (cfaces sh c)).
Proof.
  intros Hf L. destruct (@face_geom_ok t sh fl M fn cv X G HX f Hf L) as (A & C & n0 & n1 & E & _ & Q). exists n0, n1. split; [|exact Q].
  destruct (fresh_face (gq_built G) H Hf) as (r & E' & _ & _ & V0 & V1 & K). rewrite E in E'. injection E' as <-. cbn [fst snd] in V0, V1.
  destruct (gm_flags G) as (F & _). intros re c. unfold face_normal. rewrite F, K. cbn [andb asserting]. destruct re; [rewrite E|rewrite V0, V1]; cbn [bind fst snd]; auto.
Qed.
End N.
(** the normal handed to a cell is the face's natural normal, turned around if the cell uses the face in direction -1, and that direction is returned *)
Theorem c61_normal_of_a_cell : forall t sh fl M fn cv X xs g c f d re, geom_mesh t sh fl M fn cv -> coords_ok t X -> history M (X :: xs) g ->
  (c < ncells t)%nat -> In (f, d) (cfaces sh c) -> (tp_mdim t = 3%nat -> (3 <= length (fn f))%nat) ->
  face_normal M X g f re (Some c) = Ok (turned d (natural t fn X f), d).
Proof.
  intros t sh fl M fn cv X xs g c f d re G HX H Hc I L. destruct (cn_face (gm_conn G) _ _ Hc I) as [Hf _].
  destruct (face_normals G HX H Hf L) as (n0 & n1 & E & Q & _). rewrite E. rewrite (@dir_at _ _ _ _ _ _ G c f d Hc I). cbn [bind]. specialize (Q c d Hc I). unfold turned. destruct (d =? 1)%Z; rewrite Q; auto.
Qed.
(** a cell that does not have the face: the assertion fails *)
Theorem c61_not_a_face : forall t sh fl M fn cv X xs g c f re, geom_mesh t sh fl M fn cv -> coords_ok t X -> history M (X :: xs) g ->
  (f < nfaces t)%nat -> (tp_mdim t = 3%nat -> (3 <= length (fn f))%nat) -> (c < ncells t)%nat -> ~ face_of sh c f -> face_normal M X g f re (Some c) = AssertFail.
Proof.
  intros t sh fl M fn cv X xs g c f re G HX H Hf L Hc N. destruct (face_normals G HX H Hf L) as (n0 & n1 & E & _). rewrite E. rewrite (@dir_none _ _ _ _ _ _ G c f Hc N). auto.
Qed.
Lemma popp_popp2 p : (pd p = 2)%nat -> p2 p = 0 -> popp (popp p) = p.
Proof. destruct p as [d x y z]. cbn. intros -> ->. unfold popp. cbn. rewrite !Ropp_involutive. auto. Qed.
Lemma popp_popp3 p : (pd p = 3)%nat -> popp (popp p) = p.
Proof. destruct p as [d x y z]. cbn. intros ->. unfold popp. cbn. rewrite !Ropp_involutive. auto. Qed.
Lemma natural_opp t fn X f : (tp_mdim t = 2 \/ tp_mdim t = 3)%nat -> popp (popp (natural t fn X f)) = natural t fn X f /\ L22 (popp (natural t fn X f)) = L22 (natural t fn X f).
Proof.
  intros D. unfold natural. destruct D as [-> | ->]; cbn [Nat.eqb]; (split; [first [apply popp_popp2; reflexivity|apply popp_popp3; reflexivity]|]);
  unfold L22, dot, popp, right_normal, varea; cbn [pd p0 p1 p2]; ring.
Qed.
(** without a cell: the natural normal, unless it is zero, which is an error *)
Theorem c61_natural_normal : forall t sh fl M fn cv X xs g c f re, geom_mesh t sh fl M fn cv -> coords_ok t X -> history M (X :: xs) g ->
  (c < ncells t)%nat -> face_of sh c f -> (tp_mdim t = 3%nat -> (3 <= length (fn f))%nat) ->
  (L22 (natural t fn X f) <> 0 -> face_normal M X g f re None = Ok (natural t fn X f, 1%Z)) /\ (L22 (natural t fn X f) = 0 -> face_normal M X g f re None = AssertFail).
Proof.
  intros t sh fl M fn cv X xs g c f re G HX H Hc If L. destruct (dir_ex _ _ _ If) as [d I]. destruct (cn_face (gm_conn G) _ _ Hc I) as [Hf Dd].
  destruct (face_normals G HX H Hf L) as (n0 & n1 & E & Q & Q0 & Q1). rewrite E. clear E. destruct (@natural_opp t fn X f (gq_dim G)) as [O1 O2].
  assert (Z0 : L22 (Pt (sdim M) 0 0 0) = 0). { unfold L22, dot. cbn [pd p0 p1 p2]. destruct (sdim M) as [|[|[|]]]; ring. }
  specialize (Q c d Hc I). split; intros Z.
  - destruct Q0 as [->|[-> N0]].
    + destruct (Req_EM_T _ 0); [tauto|reflexivity].
    + rewrite Z0. destruct (Req_EM_T 0 0); [|tauto]. destruct Dd as [->| ->]; [exfalso; apply (N0 c Hc I)|]. cbn in Q. rewrite Q, O2. destruct (Req_EM_T _ 0); [tauto|]. rewrite O1. auto.
  - assert (L22 n0 = 0) by (destruct Q0 as [->|[-> _]]; auto). assert (L22 n1 = 0) by (destruct Q1 as [->|[-> _]]; [rewrite O2|]; auto).
    destruct (Req_EM_T _ 0); [|tauto]. destruct (Req_EM_T _ 0); [reflexivity|tauto].
Qed.
(** the two cells of a face get opposite normals *)
Theorem c61_two_cells : forall t sh fl M fn cv X xs g c c' f re, geom_mesh t sh fl M fn cv -> coords_ok t X -> history M (X :: xs) g -> opposite_dirs t sh ->
  (c < ncells t)%nat -> (c' < ncells t)%nat -> c <> c' -> face_of sh c f -> face_of sh c' f -> (tp_mdim t = 3%nat -> (3 <= length (fn f))%nat) ->
  exists n d, face_normal M X g f re (Some c) = Ok (n, d) /\ face_normal M X g f re (Some c') = Ok (popp n, (- d)%Z).
Proof.
  intros t sh fl M fn cv X xs g c c' f re G HX H OD Hc Hc' N If If' L. destruct (dir_ex _ _ _ If) as [d I]. destruct (dir_ex _ _ _ If') as [d' I'].
  destruct (cn_face (gm_conn G) _ _ Hc I) as [Hf Dd]. assert (E := OD _ _ _ _ _ Hc Hc' N I I'). assert (d' = - d)%Z as -> by lia.
  exists (turned d (natural t fn X f)), d. split; [exact (@c61_normal_of_a_cell t sh fl M fn cv X xs g c f d re G HX H Hc I L)|]. rewrite (@c61_normal_of_a_cell t sh fl M fn cv X xs g c' f (-d)%Z re G HX H Hc' I' L). destruct (@natural_opp t fn X f (gq_dim G)) as [O1 _].
  unfold turned. destruct Dd as [->| ->]; cbn; rewrite ?O1; auto.
Qed.
