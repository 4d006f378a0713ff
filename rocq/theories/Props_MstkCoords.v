(** C102: the coordinates of nodes, cells and faces in the MSTK framework, through any history of changes. *)
From Coq Require Import Permutation.
From Verif Require Import Base Loop Defs Factory Cache MeshSet_proofs MstkMesh MstkMesh_spec MstkMesh_proofs MstkMesh_proofs2 MstkMesh_examples MstkMesh_build Props_MstkIds MstkCoords Props_Cache Props_MstkExtract.
Set Implicit Arguments. Unset Strict Implicit.

(** * Small specification *)
(** the point a node was last moved to, in a list of changes *)
Definition last_move V (ws : list (nat * list V)) (n : nat) : option (list V) := option_map snd (find (fun w => fst w =? n) (rev ws)).

(** * Proofs *)
Section Coords.
Variables (V : Type) (zero : V) (serial faces edges : bool) (m : mstk) (rcv : received) (j : jmesh) (sd : nat).
Hypothesis W : mstk_mesh m.
Hypothesis C : constructed serial false faces edges m rcv j.
Hypothesis SD : sd = 2 \/ sd = 3.
Lemma node_rd n : valid j NODE n -> exists h, rd (vtx_h j) n = Ok h /\ behind j NODE n h.
Proof. intros H. apply (valid_behind C n bk_node I) in H as [h B]. exists h. split; auto. apply rd_Ok. exact B. Qed.
Lemma rd_behind n h : rd (vtx_h j) n = Ok h -> behind j NODE n h.
Proof. intros E. apply rd_Ok in E. exact E. Qed.
Lemma other_vertex n n' h h' : rd (vtx_h j) n = Ok h -> rd (vtx_h j) n' = Ok h' -> n <> n' -> h <> h'.
Proof.
  intros E E' N ->. apply N. apply rd_behind in E, E'. destruct (c85_one_entity_per_id C bk_node I) as (_ & _ & _ & U). apply (U _ _ _ E E').
Qed.
Lemma set_point_eq (X : vcoords V) n h p : rd (vtx_h j) n = Ok h -> length p = sd ->
  exists c, set_by_point zero j sd X n p = Ok (move X h c) /\ firstn sd (three c) = p /\ (sd = 2 -> snd c = zero).
Proof.
  intros E L. unfold set_by_point. rewrite E. cbn [bind]. destruct SD as [-> | ->].
  - destruct p as [|a [|b [|]]]; try discriminate. exists (a, b, zero). cbn. auto.
  - destruct p as [|a [|b [|c [|]]]]; try discriminate. exists (a, b, c). cbn. split; auto. split; auto. discriminate.
Qed.
Lemma move_same (X : vcoords V) h c : move X h c h = c. Proof. unfold move. rewrite Nat.eqb_refl. auto. Qed.
Lemma move_other (X : vcoords V) h c h' : h' <> h -> move X h c h' = X h'. Proof. intros N. unfold move. apply Nat.eqb_neq in N. rewrite N. auto. Qed.
(** the points at a list of vertices are those of the nodes *)
Lemma points_of_nodes (X : vcoords V) hs : (forall h, In h hs -> In h (k_all m MVERTEX)) -> mapM (node_point j sd X) (map (id_of j MVERTEX) hs) = Ok (map (point_at sd X) hs).
Proof.
  induction hs as [|h hs IH]; intros H; auto. cbn [map mapM]. pose proof (behind_of C bk_node I (H h (or_introl eq_refl))) as B. unfold behind in B. cbn [table mkind_of] in B.
  unfold node_point at 1. apply rd_Ok in B. rewrite B. cbn [bind]. rewrite IH; [auto|]. intros; apply H; right; auto.
Qed.

(** * C102 *)
(** A change by a point is a point update: the node is there, every other node is where it was. *)
Theorem c102_set_and_get : forall (X : vcoords V) n p, valid j NODE n -> length p = sd ->
  exists X', set_by_point zero j sd X n p = Ok X' /\ node_point j sd X' n = Ok p /\ (forall n', n' <> n -> node_point j sd X' n' = node_point j sd X n').
Proof.
  intros X n p H L. destruct (node_rd H) as (h & E & B). destruct (set_point_eq X E L) as (c & Es & Ec & _). eexists. split; [exact Es|]. split.
  - unfold node_point. rewrite E. cbn [bind]. unfold point_at. rewrite move_same, Ec. auto.
  - intros n' N. unfold node_point. destruct (rd (vtx_h j) n') as [h'| | | |] eqn:E'; auto. cbn [bind]. unfold point_at. rewrite move_other; auto.
    apply (other_vertex E' E N).
Qed.
(** Any history of changes: every node is where the last change put it, or where it was. *)
Theorem c102_history : forall (X : vcoords V) ws, (forall w, In w ws -> valid j NODE (fst w) /\ length (snd w) = sd) ->
  exists X', foldM ws (fun w X => set_by_point zero j sd X (fst w) (snd w)) X = Ok X' /\
    forall n, node_point j sd X' n = match last_move ws n with Some p => Ok p | None => node_point j sd X n end.
Proof.
  intros X ws. induction ws as [|w ws IH] using rev_ind; intros H; [exists X; auto|]. destruct IH as (X1 & E1 & G1); [intros; apply H, in_app_iff; auto|].
  destruct (H w) as [Vw Lw]; [apply in_app_iff; right; left; auto|]. destruct (c102_set_and_get X1 Vw Lw) as (X2 & E2 & G2 & O2). exists X2. split.
  - rewrite foldM_app, E1. cbn [bind foldM]. rewrite E2. auto.
  - intros n. unfold last_move. rewrite rev_app_distr. cbn [rev app find]. destruct (Nat.eqb_spec (fst w) n) as [<-|N]; [exact G2|]. rewrite O2 by auto. apply G1.
Qed.
(** The versions for arrays give the same numbers, in the space dimension they are for; the version for one number never works. *)
Theorem c102_versions_agree : forall (X : vcoords V) n, valid j NODE n ->
  (sd = 3 -> exists a b c, node_array3 j sd X n = Ok (a, b, c) /\ node_point j sd X n = Ok [a; b; c]) /\
  (sd = 2 -> exists a b, node_array2 j sd X n = Ok (a, b) /\ node_point j sd X n = Ok [a; b]) /\
  (sd <> 3 -> node_array3 j sd X n = AssertFail) /\ (sd <> 2 -> node_array2 j sd X n = AssertFail) /\ node_double j sd X n = AssertFail.
Proof.
  intros X n H. destruct (node_rd H) as (h & E & _). unfold node_array3, node_array2, node_double, node_point, point_at, asserting. rewrite E.
  destruct SD as [-> | ->]; cbn [Nat.eqb bind]; destruct (X h) as [[a b] c] eqn:Ex; cbn; repeat split; intros; try discriminate; try congruence; eauto 6.
Qed.
(** The coordinates of a cell and of a face are those of its nodes, in the order of cell_get_nodes and face_get_nodes. *)
Theorem c102_cells : forall (X : vcoords V) c, valid j CELL c -> exists ns, cell_nodes j c = Ok ns /\ cell_points j sd X c = mapM (node_point j sd X) ns.
Proof.
  intros X c H. apply (valid_behind C c bk_cell I) in H as [h B]. destruct (behind_in C bk_cell I B) as [Ih _]. unfold behind in B. cbn [table] in B. apply rd_Ok in B.
  unfold cell_nodes, cell_points. rewrite B. cbn [bind]. rewrite (mj_mesh (constructed_made C)). eexists. split; [reflexivity|]. rewrite points_of_nodes; auto.
  destruct (cverts_ok W Ih) as [Iv _]. exact Iv.
Qed.
Theorem c102_faces : forall (X : vcoords V) f, faces = true -> valid j FACE f -> exists ns, face_nodes j f = Ok ns /\ face_points j sd X f = mapM (node_point j sd X) ns.
Proof.
  intros X f Fa H. pose proof (proj2 (faces_kind C) Fa) as Hk. apply (valid_behind C f bk_face Hk) in H as [h B]. destruct (behind_in C bk_face Hk B) as [Ih _].
  destruct (fverts_ok W Ih) as [Iv _]. pose proof (rd_flip C Fa B) as Ef. set (fl := flip j f) in *. unfold behind in B. cbn [table] in B. apply rd_Ok in B.
  unfold face_nodes, face_points. rewrite (mj_faces (constructed_made C)), Fa, B. cbn [asserting bind]. rewrite Ef. cbn [bind]. rewrite (mj_mesh (constructed_made C)) in *.
  unfold fverts in Iv. cbn [mkind_of] in Ih. unfold face_kind in Ih. destruct (k_dim m =? 3) eqn:D3.
  - apply Nat.eqb_eq in D3. rewrite D3 in Ih. cbn [Nat.eqb] in Ih. eexists. split; [reflexivity|]. rewrite points_of_nodes; auto. intros v Hv. destruct fl; auto.
    pose proof (same_cycle_perm (mk_fv_rev W h Ih)) as P. apply Permutation_sym in P. apply (Permutation_in _ P) in Hv. apply in_rev in Hv. auto.
  - set (a := fst (k_ev m h)) in *. set (b := snd (k_ev m h)) in *. eexists. split; [reflexivity|].
    assert (Q := @points_of_nodes X (if fl then [b; a] else [a; b])). destruct fl; cbn [map fst snd] in *; rewrite Q; auto; intros v Hv; apply Iv; cbn in *; tauto.
Qed.
(** The version that takes an array reads three numbers whatever the space dimension is: the same as the version for points in space; in a mesh in the plane an array of two
    numbers - all that Mesh_simple would read - is overrun, in every mesh and for every node. *)
Theorem c102_array_partial : forall (X : vcoords V) n a b c, sd = 3 -> set_by_array j X n [a; b; c] = set_by_point zero j sd X n [a; b; c].
Proof. intros X n a b c ->. unfold set_by_array, set_by_point. destruct (rd (vtx_h j) n); auto. Qed.
Theorem c102_array_in_the_plane_refuted : forall (X : vcoords V) n a b, set_by_array j X n [a; b] = UB.
Proof.
  intros X n a b. unfold set_by_array. unfold rd at 1. destruct (nth_error (vtx_h j) n); auto.
Qed.
End Coords.

(** the two hexahedra in space and the triangles and quadrilateral in the plane, with natural numbers for the coordinates *)
Example c102_witness : let X : vcoords nat := fun h => (h, 10 + h, 20 + h) in let ws := [(3, [7; 8; 9]); (0, [1; 2; 3]); (3, [4; 5; 6])] in
  mstk_mesh hp_mesh /\ constructed true false true true hp_mesh hp_rcv hps_j /\ (forall w, In w ws -> valid hps_j NODE (fst w) /\ length (snd w) = 3) /\
  last_move ws 3 = Some [4; 5; 6] /\ last_move ws 1 = None /\
  (exists X', foldM ws (fun w X => set_by_point 0 hps_j 3 X (fst w) (snd w)) X = Ok X' /\ node_point hps_j 3 X' 3 = Ok [4; 5; 6] /\ node_point hps_j 3 X' 1 = Ok [2; 12; 22] /\
     face_points hps_j 3 X' 0 = Ok [[1; 2; 3]; [4; 5; 6]; [3; 13; 23]; [2; 12; 22]]).
Proof.
  intros X ws. split; [exact hp_is_mesh|]. split; [exact hps_constructed|]. assert (H : forall w, In w ws -> valid hps_j NODE (fst w) /\ length (snd w) = 3).
  { intros w I. unfold ws in I. repeat (destruct I as [<-|I]; [split; [vm_compute; tauto|reflexivity]|]). destruct I. }
  split; [exact H|]. split; [reflexivity|]. split; [reflexivity|].
  destruct (@c102_history nat 0 true true true hp_mesh hp_rcv hps_j 3 hps_constructed (or_intror eq_refl) X ws H) as (X' & E & G). exists X'. split; [exact E|].
  split; [rewrite G; reflexivity|]. split; [rewrite G; vm_compute; reflexivity|].
  destruct (@c102_faces nat true true true hp_mesh hp_rcv hps_j 3 hp_is_mesh hps_constructed (or_intror eq_refl) X' 0 eq_refl) as (ns & E1 & E2); [vm_compute; tauto|]. rewrite E2.
  assert (En : face_nodes hps_j 0 = Ok [0; 3; 2; 1]) by (vm_compute; reflexivity). assert (ns = [0; 3; 2; 1]) by congruence. subst ns. cbn [mapM]. rewrite !G. vm_compute. reflexivity.
Qed.
Example c102_witness_2d : let X : vcoords nat := fun h => (h, 10 + h, 20 + h) in constructed true false true false ex_mesh ex_rcv exs_j /\ valid exs_j NODE 1 /\
  (exists X', set_by_point 0 exs_j 2 X 1 [7; 8] = Ok X' /\ node_point exs_j 2 X' 1 = Ok [7; 8] /\ node_array3 exs_j 2 X' 1 = AssertFail) /\ set_by_array exs_j X 1 [7; 8] = UB.
Proof.
  intros X. destruct c92_witness_2d as [(_ & C & _) _]. split; [exact C|]. split; [vm_compute; tauto|]. split; [eexists; split; [vm_compute; reflexivity|]; vm_compute; auto|vm_compute; reflexivity].
Qed.
