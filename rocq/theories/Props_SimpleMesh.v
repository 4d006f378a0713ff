(** Properties C15-C20, C22, C23: connectivity of the simple (structured) mesh. *)
From Verif Require Import Base Loop SimpleMesh SimpleMesh_spec SimpleMesh_proofs SimpleMesh_proofs2
  SimpleMesh_proofs3 SimpleMesh_proofs4.
Set Implicit Arguments.

(** Every mesh object a user can hold: built by a constructor, then any number of
    node_set_coordinates calls. *)
Inductive simple_mesh (V : Type) : smesh V -> Prop :=
| SM_3d v0 d gx gy gz fr m : make_simple_3d v0 d gx gy gz fr false = Ok m -> simple_mesh m
| SM_1d x er fr m : make_simple_1d x er fr false = Ok m -> simple_mesh m
| SM_move m n p m' : simple_mesh m -> node_set_coordinates m n p = Ok m' -> simple_mesh m'.

(** 3D meshes of a given size (again after any number of node moves). *)
Inductive box_mesh (V : Type) (d : dims) : smesh V -> Prop :=
| BM_new v0 gx gy gz fr m : make_simple_3d v0 d gx gy gz fr false = Ok m -> box_mesh d m
| BM_move m n p m' : box_mesh d m -> node_set_coordinates m n p = Ok m' -> box_mesh d m'.

Definition positive (d : dims) : Prop := 1 <= nx d /\ 1 <= ny d /\ 1 <= nz d.

(** ---- plumbing (not properties) ---- *)
Lemma set_coords_conn V (m m' : smesh V) n p cn cf fn cd :
  node_set_coordinates m n p = Ok m' -> conn m cn cf fn cd -> conn m' cn cf fn cd.
Proof.
  unfold node_set_coordinates. intros E K. apply bind_Ok in E as [crd [_ E]]. injection E as <-.
  destruct K. constructor; cbn; auto.
Qed.

Lemma simple_mesh_conn V (m : smesh V) : simple_mesh m -> exists cn cf fn cd, conn m cn cf fn cd.
Proof.
  induction 1 as [v0 d gx gy gz fr m E|x er fr m E|m n p m' H IH E].
  - destruct (make_simple_3d_conn d v0 gx gy gz fr) as (m0 & E0 & K & _). rewrite E in E0. injection E0 as <-. eauto 6.
  - destruct x as [|x0 xs]; [discriminate|].
    destruct (@make_simple_1d_conn V (x0 :: xs) er fr) as (m0 & E0 & K & _); [discriminate|].
    rewrite E in E0. injection E0 as <-. eauto 6.
  - destruct IH as (cn & cf & fn & cd & K). exists cn, cf, fn, cd. eapply set_coords_conn; eauto.
Qed.

Lemma box_mesh_facts V d (m : smesh V) : box_mesh d m ->
  conn m (cn3 d) (cf3 d) (fn3 d) dirs6 /\
  num_cells m = ncells d /\ num_nodes m = nnodes d /\ num_faces m = nfaces d /\ spdim m = 3 /\
  nodes_per_face m = 4 /\ faces_per_cell m = 6 /\ nodes_per_cell m = 8 /\
  buckets 13 (nnodes d) (node_to_face m) (fun n => map (nf_val d) (filter (fun f => inb n (fn3 d f)) (seq 0 (nfaces d)))) /\
  faces_per_node_aug m = 13.
Proof.
  induction 1 as [v0 gx gy gz fr m E|m n p m' H IH E].
  - destruct (make_simple_3d_conn d v0 gx gy gz fr) as (m0 & E0 & K & H1 & H2 & H3 & H4 & H5 & H6 & H7 & H8 & H9 & _).
    rewrite E in E0. injection E0 as <-. auto 12.
  - destruct IH as (K & R). split; [eapply set_coords_conn; eauto|].
    unfold node_set_coordinates in E. apply bind_Ok in E as [crd [_ E]]. injection E as <-. cbn. exact R.
Qed.

(** ---- C15 ---- *)
(** Constructing a mesh never fails, whatever the size, and the ids are 0..num-1. *)
Theorem c15_box_construction_succeeds : forall V (v0 : V) d gx gy gz fr,
  exists m, make_simple_3d v0 d gx gy gz fr false = Ok m /\
    num_cells m = nx d * ny d * nz d /\
    num_nodes m = (nx d + 1) * (ny d + 1) * (nz d + 1) /\
    num_faces m = nx d * ny d * (nz d + 1) + nx d * (ny d + 1) * nz d + (nx d + 1) * ny d * nz d /\
    cellids_owned m = seq 0 (num_cells m) /\ nodeids_owned m = seq 0 (num_nodes m) /\
    faceids_owned m = (if fr then seq 0 (num_faces m) else []).
Proof.
  intros V v0 d gx gy gz fr.
  destruct (make_simple_3d_conn d v0 gx gy gz fr)
    as (m & E & K & H1 & H2 & H3 & H4 & H5 & H6 & H7 & H8 & H9 & H10 & H11 & H12 & H13 & H14 & H15 & H16).
  exists m. split; [auto|]. split; [auto|]. split; [auto|]. split.
  - rewrite H3. unfold nfaces. lia.
  - rewrite H1, H2, H3. auto.
Qed.

(** The structured positions of cells, nodes and faces are numbered bijectively; the three face
    families never collide. *)
Theorem c15_structured_numbering_is_bijective : forall V d (m : smesh V), box_mesh d m ->
  numbers (cell_at d) (cid d) (num_cells m) /\
  numbers (node_at d) (nid d) (num_nodes m) /\
  numbers (face_at d) (fid d) (num_faces m).
Proof.
  intros V d m H. destruct (box_mesh_facts H) as (_ & -> & -> & -> & _).
  split; [apply cell_numbers|]. split; [apply node_numbers|apply face_numbers].
Qed.

(** The numbering means what it says: the queries on id [cid p] return the corners / sides of the
    cell at position [p], and on id [fid s] the corners of the square [s]. *)
Theorem c15_ids_denote_positions : forall V d (m : smesh V) p, box_mesh d m -> cell_at d p ->
  exists ns fs ds, cell_get_nodes m (cid d p) = Ok ns /\ cell_get_faces_and_dirs m (cid d p) = Ok (fs, ds) /\
    NoDup ns /\ NoDup fs /\ length ns = 8 /\ length fs = 6 /\ length ds = 6 /\
    (forall q, node_at d q -> In (nid d q) ns <-> corner_of_cell q p) /\
    (forall s, face_at d s -> In (fid d s) fs <-> side_of_cell s p).
Proof.
  intros V d m p H Hp. destruct (box_mesh_facts H) as (K & Ec & En & Ef & _ & _ & Efc & Enc & _).
  assert (Lc := cid_lt d p Hp). rewrite <- Ec in Lc.
  exists (cn3 d (cid d p)), (cf3 d (cid d p)), dirs6.
  split; [apply (q_cell_nodes K Lc)|]. split; [apply (q_cell_faces K Lc)|].
  split; [apply (k_cn_nd K Lc)|]. split; [apply (k_cf_nd K Lc)|].
  split; [rewrite (k_cn_len K Lc); auto|]. split; [rewrite (k_cf_len K Lc); auto|]. split; [reflexivity|].
  rewrite Ec in Lc. split.
  - intros q Hq. rewrite cn3_corner by (auto using nid_lt). rewrite npos_nid, cpos_cid by auto. tauto.
  - intros s Hs. rewrite cf3_side by (auto using fid_lt). rewrite fpos_fid, cpos_cid by auto. tauto.
Qed.

Theorem c15_face_ids_denote_squares : forall V d (m : smesh V) s, box_mesh d m -> face_at d s ->
  exists ns, face_get_nodes m (fid d s) = Ok ns /\ NoDup ns /\ length ns = 4 /\
    (forall q, node_at d q -> In (nid d q) ns <-> corner_of_face q s).
Proof.
  intros V d m s H Hs. destruct (box_mesh_facts H) as (K & Ec & En & Ef & _ & Enf & _).
  assert (Lf := fid_lt d s Hs). rewrite <- Ef in Lf.
  exists (fn3 d (fid d s)). split; [apply (q_face_nodes K Lf)|]. split; [apply (k_fn_nd K Lf)|].
  split; [rewrite (k_fn_len K Lf); auto|]. rewrite Ef in Lf.
  intros q Hq. rewrite fn3_corner by (auto using nid_lt). rewrite npos_nid, fpos_fid by auto. tauto.
Qed.

(** 1D: construction succeeds on every non-empty coordinate list. *)
Theorem c15_line_construction_succeeds : forall V (x : list V) er fr, x <> [] ->
  exists m, make_simple_1d x er fr false = Ok m /\
    num_cells m = length x - 1 /\ num_nodes m = length x /\ num_faces m = length x /\
    cellids_owned m = seq 0 (length x - 1) /\ nodeids_owned m = seq 0 (length x) /\
    (forall c, c < num_cells m -> cell_get_nodes m c = Ok [c; c + 1] /\
        cell_get_faces_and_dirs m c = Ok ([c; c + 1], [-1; 1]%Z)) /\
    (forall f, f < num_faces m -> face_get_nodes m f = Ok [f]).
Proof.
  intros V x er fr Hx. destruct (make_simple_1d_conn er fr Hx) as (m & E & K & H1 & H2 & H3 & _ & _ & _ & _ & _ & _ & _ & _ & Hn & Hc & _).
  exists m. do 6 (split; [solve [auto]|]). split.
  - intros c Lc. split; [apply (q_cell_nodes K Lc)|apply (q_cell_faces K Lc)].
  - intros f Lf. apply (q_face_nodes K Lf).
Qed.

(** a 2x1x1 mesh used as the witness below; coordinates are the lattice indices *)
Definition wit : outcome (smesh nat) := make_simple_3d 0 (mkDims 2 1 1) (fun i => i) (fun i => i) (fun i => i) true false.
Definition wit_m : smesh nat := match wit with Ok m => m | _ => mkMesh 0 0 0 0 0 0 0 0 0 [] [] [] [] [] [] [] [] [] [] [] [] end.
Lemma wit_ok : wit = Ok wit_m. Proof. vm_compute. reflexivity. Qed.
Lemma wit_box : box_mesh (mkDims 2 1 1) wit_m.
Proof. exact (@BM_new nat (mkDims 2 1 1) 0 (fun i => i) (fun i => i) (fun i => i) true _ wit_ok). Qed.
Lemma wit_simple : simple_mesh wit_m.
Proof. exact (@SM_3d nat 0 (mkDims 2 1 1) (fun i => i) (fun i => i) (fun i => i) true _ wit_ok). Qed.

Example c15_witness : cell_at (mkDims 2 1 1) (1, 0, 0) /\ box_mesh (mkDims 2 1 1) wit_m /\
  cell_get_nodes wit_m 1 = Ok [1; 2; 5; 4; 7; 8; 11; 10] /\
  cell_get_faces_and_dirs wit_m 1 = Ok ([5; 10; 7; 9; 1; 3], [1; 1; -1; -1; -1; 1]%Z).
Proof. split; [simpl; lia|]. split; [apply wit_box|]. split; reflexivity. Qed.

(** ---- C16 ---- *)
Theorem c16_cell_face_queries_are_dual : forall V (m : smesh V) f c, simple_mesh m ->
  f < num_faces m -> c < num_cells m ->
  exists fs ds l, cell_get_faces_and_dirs m c = Ok (fs, ds) /\ face_get_cells m f = Ok l /\
    (In (Z.of_nat c) l <-> In f fs).
Proof.
  intros V m f c H Hf Hc. destruct (simple_mesh_conn H) as (cn & cf & fn & cd & K).
  destruct (q_face_cells K Hf) as (z0 & z1 & _ & _ & E & _).
  exists (cf c), cd, (cellz z0 ++ cellz z1). split; [apply (q_cell_faces K Hc)|]. split; [auto|].
  apply (face_cells_dual K Hf Hc E).
Qed.

(** ... and face_get_cells returns nothing but distinct cells of the mesh, at most two. *)
Theorem c16_face_cells_are_cells : forall V (m : smesh V) f, simple_mesh m -> f < num_faces m ->
  exists l, face_get_cells m f = Ok l /\ NoDup l /\ length l <= 2 /\
    forall z, In z l -> exists c, c < num_cells m /\ z = Z.of_nat c.
Proof.
  intros V m f H Hf. destruct (simple_mesh_conn H) as (cn & cf & fn & cd & K).
  destruct (q_face_cells K Hf) as (z0 & z1 & _ & _ & E & _).
  exists (cellz z0 ++ cellz z1). split; [auto|]. apply (face_cells_range K Hf E).
Qed.

(** Every face of a box mesh with at least one cell has one or two cells; two exactly when the face
    is not in the surface of the box. *)
Theorem c16_two_cells_iff_interior : forall V d (m : smesh V) s, box_mesh d m -> positive d -> face_at d s ->
  exists l, face_get_cells m (fid d s) = Ok l /\ 1 <= length l <= 2 /\
    (length l = 2 <-> ~ on_boundary d s).
Proof.
  intros V d m s H (P1 & P2 & P3) Hs. destruct (box_mesh_facts H) as (K & Ec & En & Ef & _).
  assert (Lf := fid_lt d s Hs). rewrite <- Ef in Lf.
  destruct (q_face_cells K Lf) as (z0 & z1 & _ & _ & E & Q0 & Q1 & R0 & R1).
  exists (cellz z0 ++ cellz z1). split; [auto|].
  rewrite Ec in Q0, Q1, R0, R1.
  (* slot 0 used iff the cell seeing the face with direction -1 exists *)
  assert (S0 : forall p, cell_at d p -> In (fid d s, (-1)%Z) (combine (cf3 d (cid d p)) dirs6) -> z0 <> (-1)%Z).
  { intros p Hp I. apply (Q0 (cid d p)) in I; [lia|apply cid_lt; auto]. }
  assert (S1 : forall p, cell_at d p -> In (fid d s, 1%Z) (combine (cf3 d (cid d p)) dirs6) -> z1 <> (-1)%Z).
  { intros p Hp I. apply (Q1 (cid d p)) in I; [lia|apply cid_lt; auto]. }
  assert (N0 : z0 <> (-1)%Z -> exists c, c < ncells d /\ In (fid d s, (-1)%Z) (combine (cf3 d c) dirs6)).
  { destruct R0 as [?|[c [Hc Ez]]]; [tauto|]. intros _. exists c. split; auto. apply Q0; auto. }
  assert (N1 : z1 <> (-1)%Z -> exists c, c < ncells d /\ In (fid d s, 1%Z) (combine (cf3 d c) dirs6)).
  { destruct R1 as [?|[c [Hc Ez]]]; [tauto|]. intros _. exists c. split; auto. apply Q1; auto. }
  assert (LL : length (cellz z0 ++ cellz z1) = (if (z0 =? -1)%Z then 0 else 1) + (if (z1 =? -1)%Z then 0 else 1)).
  { rewrite app_length. unfold cellz. destruct (z0 =? -1)%Z, (z1 =? -1)%Z; auto. }
  rewrite LL.
  assert (X : (z0 <> (-1)%Z <-> match s with FXY _ _ k => k < nz d | FXZ _ j _ => 0 < j | FYZ i _ _ => i < nx d end)
           /\ (z1 <> (-1)%Z <-> match s with FXY _ _ k => 0 < k | FXZ _ j _ => j < ny d | FYZ i _ _ => 0 < i end)).
  { assert (AT : forall c, c < ncells d -> cell_at d (cpos d c)) by (intros c Hc; apply (cpos_ok d Hc)).
    assert (D : forall c dv, c < ncells d -> In (fid d s, dv) (combine (cf3 d c) dirs6) ->
       match cpos d c with (i, j, k) => i < nx d /\ j < ny d /\ k < nz d /\
       match s with
       | FXY a b z => z = k /\ dv = (-1)%Z \/ z = k + 1 /\ dv = 1%Z
       | FXZ a y b => y = j /\ dv = 1%Z \/ y = j + 1 /\ dv = (-1)%Z
       | FYZ x a b => x = i /\ dv = (-1)%Z \/ x = i + 1 /\ dv = 1%Z end end).
    { intros c dv Hc I. assert (A := AT c Hc). apply cf3_dir in I as (s' & Hs' & E' & Dv).
      assert (As' := sides6_at d _ A s' Hs'). apply fid_inj in E'; auto. subst s'.
      apply sides6_spec in Hs'. destruct (cpos d c) as [[i j] k]. simpl in A, Hs'.
      do 3 (split; [lia|]).
      destruct s as [a b z|a b z|a b z]; simpl in Hs'.
      - destruct (Nat.eqb_spec z k); [left|right]; split; auto; lia.
      - destruct (Nat.eqb_spec b j); [left|right]; split; auto; lia.
      - destruct (Nat.eqb_spec a i); [left|right]; split; auto; lia. }
    assert (MEM : forall p dv, cell_at d p -> In (fid d s, dv) (combine (map (fid d) (sides6 p)) dirs6) ->
                   In (fid d s, dv) (combine (cf3 d (cid d p)) dirs6)).
    { intros p dv Hp I. unfold cf3. rewrite cpos_cid by auto. exact I. }
    split; split; intros Hz.
    - destruct (N0 Hz) as (c & Hc & I). assert (G := D c _ Hc I). destruct (cpos d c) as [[i j] k].
      destruct s; lia.
    - destruct s as [i j k|i j k|i j k]; simpl in Hs.
      + apply (S0 (i, j, k)); [simpl; lia|]. apply MEM; [simpl; lia|]. simpl. tauto.
      + apply (S0 (i, j - 1, k)); [simpl; lia|]. apply MEM; [simpl; lia|].
        cbn [sides6 map combine dirs6 In]. replace (j - 1 + 1) with j by lia. tauto.
      + apply (S0 (i, j, k)); [simpl; lia|]. apply MEM; [simpl; lia|]. simpl. tauto.
    - destruct (N1 Hz) as (c & Hc & I). assert (G := D c _ Hc I). destruct (cpos d c) as [[i j] k].
      destruct s; lia.
    - destruct s as [i j k|i j k|i j k]; simpl in Hs.
      + apply (S1 (i, j, k - 1)); [simpl; lia|]. apply MEM; [simpl; lia|].
        cbn [sides6 map combine dirs6 In]. replace (k - 1 + 1) with k by lia. tauto.
      + apply (S1 (i, j, k)); [simpl; lia|]. apply MEM; [simpl; lia|]. simpl. tauto.
      + apply (S1 (i - 1, j, k)); [simpl; lia|]. apply MEM; [simpl; lia|].
        cbn [sides6 map combine dirs6 In]. replace (i - 1 + 1) with i by lia. tauto. }
  destruct X as [X0 X1].
  destruct (Z.eqb_spec z0 (-1)) as [E0|E0], (Z.eqb_spec z1 (-1)) as [E1|E1];
    destruct s as [i j k|i j k|i j k]; simpl in *; lia.
Qed.

(** 1D: the two end faces have one cell, every other face two. *)
Theorem c16_two_cells_iff_interior_1d : forall V (x : list V) er fr m f, 2 <= length x ->
  make_simple_1d x er fr false = Ok m -> f < num_faces m ->
  exists l, face_get_cells m f = Ok l /\ 1 <= length l <= 2 /\ (length l = 2 <-> 0 < f < length x - 1).
Proof.
  intros V x er fr m f Hx E Hf. assert (Hx' : x <> []) by (destruct x; simpl in *; [lia|discriminate]).
  destruct (make_simple_1d_conn er fr Hx') as (m0 & E0 & K & H1 & H2 & H3 & _). rewrite E in E0. injection E0 as <-.
  destruct (q_face_cells K Hf) as (z0 & z1 & _ & _ & E' & Q0 & Q1 & R0 & R1).
  exists (cellz z0 ++ cellz z1). split; [auto|].
  rewrite H3 in Hf. rewrite H1 in *.
  assert (A0 : z0 <> (-1)%Z <-> f < length x - 1).
  { split.
    - intros N. destruct R0 as [?|[c [Hc Ez]]]; [tauto|]. apply Q0 in Ez; auto. simpl in Ez.
      destruct Ez as [Ez|[Ez|[]]]; injection Ez; intros; try discriminate; lia.
    - intros L. assert (z0 = Z.of_nat f) by (apply Q0; auto; simpl; auto). lia. }
  assert (A1 : z1 <> (-1)%Z <-> 0 < f).
  { split.
    - intros N. destruct R1 as [?|[c [Hc Ez]]]; [tauto|]. apply Q1 in Ez; auto. simpl in Ez.
      destruct Ez as [Ez|[Ez|[]]]; injection Ez; intros; try discriminate; lia.
    - intros L. assert (z1 = Z.of_nat (f - 1)); [|lia]. apply Q1; [lia|]. simpl. right; left. f_equal; lia. }
  rewrite app_length. unfold cellz. destruct (Z.eqb_spec z0 (-1)), (Z.eqb_spec z1 (-1)); simpl; lia.
Qed.

Example c16_witness : positive (mkDims 2 1 1) /\ face_at (mkDims 2 1 1) (FYZ 1 0 0) /\
  ~ on_boundary (mkDims 2 1 1) (FYZ 1 0 0) /\ face_get_cells wit_m (fid (mkDims 2 1 1) (FYZ 1 0 0)) = Ok [1; 0]%Z.
Proof. split; [cbv; lia|]. split; [simpl; lia|]. split; [simpl; lia|reflexivity]. Qed.

(** ---- C17 ---- *)
Theorem c17_opposite_directions : forall V (m : smesh V) f c1 c2 fs1 ds1 fs2 ds2 d1 d2, simple_mesh m ->
  c1 < num_cells m -> c2 < num_cells m -> c1 <> c2 ->
  cell_get_faces_and_dirs m c1 = Ok (fs1, ds1) -> cell_get_faces_and_dirs m c2 = Ok (fs2, ds2) ->
  In (f, d1) (combine fs1 ds1) -> In (f, d2) (combine fs2 ds2) ->
  d1 = (- d2)%Z /\ (d1 = 1%Z \/ d1 = (-1)%Z).
Proof.
  intros V m f c1 c2 fs1 ds1 fs2 ds2 d1 d2 H H1 H2 N E1 E2 I1 I2.
  destruct (simple_mesh_conn H) as (cn & cf & fn & cd & K).
  rewrite (q_cell_faces K H1) in E1. injection E1 as <- <-.
  rewrite (q_cell_faces K H2) in E2. injection E2 as <- <-.
  assert (P1 := k_cd_pm K d1 (in_combine_r _ _ _ _ I1)).
  assert (P2 := k_cd_pm K d2 (in_combine_r _ _ _ _ I2)).
  assert (d1 <> d2). { intros <-. apply N. exact (@k_uniq _ _ _ _ _ _ K f d1 c1 c2 H1 H2 I1 I2). }
  lia.
Qed.

(** The order in which face_get_cells lists the two cells: the cell the normal leads into (direction
    -1 from that cell's point of view) first, the cell it leads out of (+1) second. *)
Theorem c17_face_cells_order : forall V (m : smesh V) f c1 c2 fs1 ds1 fs2 ds2, simple_mesh m ->
  f < num_faces m -> c1 < num_cells m -> c2 < num_cells m ->
  face_get_cells m f = Ok [Z.of_nat c1; Z.of_nat c2] ->
  cell_get_faces_and_dirs m c1 = Ok (fs1, ds1) -> cell_get_faces_and_dirs m c2 = Ok (fs2, ds2) ->
  In (f, (-1)%Z) (combine fs1 ds1) /\ In (f, 1%Z) (combine fs2 ds2).
Proof.
  intros V m f c1 c2 fs1 ds1 fs2 ds2 H Hf H1 H2 E E1 E2.
  destruct (simple_mesh_conn H) as (cn & cf & fn & cd & K).
  rewrite (q_cell_faces K H1) in E1. injection E1 as <- <-.
  rewrite (q_cell_faces K H2) in E2. injection E2 as <- <-.
  destruct (q_face_cells K Hf) as (z0 & z1 & _ & _ & E' & Q0 & Q1 & _).
  rewrite E' in E. injection E as E. unfold cellz in E.
  destruct (Z.eqb_spec z0 (-1)), (Z.eqb_spec z1 (-1)); simpl in E; try discriminate.
  injection E as Ea Eb. split; [apply Q0; auto|apply Q1; auto].
Qed.

Example c17_witness : simple_mesh wit_m /\ In (9, 1%Z) (combine [4; 9; 6; 8; 0; 2] [1; 1; -1; -1; -1; 1]%Z)
  /\ cell_get_faces_and_dirs wit_m 0 = Ok ([4; 9; 6; 8; 0; 2], [1; 1; -1; -1; -1; 1]%Z)
  /\ cell_get_faces_and_dirs wit_m 1 = Ok ([5; 10; 7; 9; 1; 3], [1; 1; -1; -1; -1; 1]%Z)
  /\ In (9, (-1)%Z) (combine [5; 10; 7; 9; 1; 3] [1; 1; -1; -1; -1; 1]%Z)
  /\ face_get_cells wit_m 9 = Ok [1; 0]%Z.
Proof. split; [apply wit_simple|]. split; [simpl; auto 8|]. do 2 (split; [reflexivity|]). split; [simpl; auto 8|reflexivity]. Qed.

(** ---- C18 ---- *)
Theorem c18_node_cell_queries_are_dual : forall V (m : smesh V) n, simple_mesh m -> n < num_nodes m ->
  exists l, node_get_cells m n = Ok l /\ NoDup l /\
    forall c, In c l <-> c < num_cells m /\ exists ns, cell_get_nodes m c = Ok ns /\ In n ns.
Proof.
  intros V m n H Hn. destruct (simple_mesh_conn H) as (cn & cf & fn & cd & K).
  exists (filter (fun c => inb n (cn c)) (seq 0 (num_cells m))). split; [apply (q_node_cells K Hn)|].
  split; [apply NoDup_filter, seq_NoDup|].
  intros c. rewrite filter_In, in_seq, inb_true. split.
  - intros [[_ Hc] I]. split; [lia|]. exists (cn c). split; [apply (q_cell_nodes K); lia|auto].
  - intros [Hc [ns [E I]]]. rewrite (q_cell_nodes K Hc) in E. injection E as <-. split; [lia|auto].
Qed.

(** 3D: between one and eight cells at every node (so no bucket of node_to_cell_ overflows). *)
Theorem c18_one_to_eight_cells : forall V d (m : smesh V) n, box_mesh d m -> positive d -> n < num_nodes m ->
  exists l, node_get_cells m n = Ok l /\ 1 <= length l <= 8.
Proof.
  intros V d m n H (P1 & P2 & P3) Hn. destruct (box_mesh_facts H) as (K & Ec & En & Ef & _).
  exists (filter (fun c => inb n (cn3 d c)) (seq 0 (num_cells m))). split; [apply (q_node_cells K Hn)|].
  rewrite Ec. rewrite En in Hn. split; [|apply cells_at_node; auto].
  destruct (npos_ok d Hn) as [Na Ni]. destruct (npos d n) as [[a b] c] eqn:En3. simpl in Na.
  set (p := (Nat.min a (nx d - 1), Nat.min b (ny d - 1), Nat.min c (nz d - 1))).
  assert (Hp : cell_at d p) by (unfold p; simpl; lia).
  assert (I : In (cid d p) (filter (fun c => inb n (cn3 d c)) (seq 0 (ncells d)))).
  { assert (L := cid_lt d p Hp). apply filter_In. split; [apply in_seq; lia|]. apply inb_true.
    apply cn3_corner; auto. rewrite cpos_cid by auto. rewrite En3. unfold p; simpl. lia. }
  destruct (filter _ _); [destruct I|simpl; lia].
Qed.

Theorem c18_one_or_two_cells_1d : forall V (x : list V) er fr m n, 2 <= length x ->
  make_simple_1d x er fr false = Ok m -> n < num_nodes m ->
  exists l, node_get_cells m n = Ok l /\ 1 <= length l <= 2.
Proof.
  intros V x er fr m n Hx E Hn. assert (Hx' : x <> []) by (destruct x; simpl in *; [lia|discriminate]).
  destruct (make_simple_1d_conn er fr Hx') as (m0 & E0 & K & H1 & H2 & H3 & _). rewrite E in E0. injection E0 as <-.
  eexists. split; [apply (q_node_cells K Hn)|]. rewrite H1. rewrite H2 in Hn. split.
  - assert (I : In (Nat.min n (length x - 2)) (filter (fun c => inb n (cn1 c)) (seq 0 (length x - 1)))).
    { apply filter_In. split; [apply in_seq; lia|]. apply inb_true. simpl. lia. }
    destruct (filter _ _); [destruct I|simpl; lia].
  - apply filter_seq_bound with (l := [n; n - 1]); [simpl; lia|].
    intros c Hc I. apply inb_true in I. simpl in *. lia.
Qed.

Example c18_witness : node_get_cells wit_m 1 = Ok [0; 1] /\ num_nodes wit_m = 12.
Proof. split; reflexivity. Qed.

(** ---- C19 ---- *)
Theorem c19_face_adjacent_cells : forall V (m : smesh V) c, simple_mesh m -> c < num_cells m ->
  exists l, cell_get_face_adj_cells m c = Ok l /\ NoDup l /\ ~ In (Z.of_nat c) l /\
    (forall z, In z l -> exists c', c' < num_cells m /\ z = Z.of_nat c') /\
    (forall c', c' < num_cells m -> In (Z.of_nat c') l <->
       c' <> c /\ exists f fs ds fs' ds', cell_get_faces_and_dirs m c = Ok (fs, ds) /\
         cell_get_faces_and_dirs m c' = Ok (fs', ds') /\ In f fs /\ In f fs').
Proof.
  intros V m c H Hc. destruct (simple_mesh_conn H) as (cn & cf & fn & cd & K).
  destruct (face_adj_ok K Hc) as (l & E & ND & S). exists l. split; [auto|]. split; [auto|]. split; [|split].
  - intros I. apply S in I as (c' & _ & Ez & N & _). lia.
  - intros z I. apply S in I as (c' & Hc' & Ez & _). eauto.
  - intros c' Hc'. rewrite S. split.
    + intros (c2 & Hc2 & Ez & N & f & I1 & I2). assert (c2 = c') by lia. subst c2. split; auto.
      exists f, (cf c), cd, (cf c'), cd. split; [apply (q_cell_faces K Hc)|]. split; [apply (q_cell_faces K Hc')|]. auto.
    + intros (N & f & fs & ds & fs' & ds' & E1 & E2 & I1 & I2).
      rewrite (q_cell_faces K Hc) in E1. injection E1 as <- <-.
      rewrite (q_cell_faces K Hc') in E2. injection E2 as <- <-. exists c'. split; auto. split; auto. split; auto. exists f; auto.
Qed.

Theorem c19_node_adjacent_cells : forall V (m : smesh V) c, simple_mesh m -> c < num_cells m ->
  exists l, cell_get_node_adj_cells m c = Ok l /\ NoDup l /\ ~ In c l /\
    (forall c', In c' l <-> c' < num_cells m /\ c' <> c /\
       exists n ns ns', cell_get_nodes m c = Ok ns /\ cell_get_nodes m c' = Ok ns' /\ In n ns /\ In n ns').
Proof.
  intros V m c H Hc. destruct (simple_mesh_conn H) as (cn & cf & fn & cd & K).
  destruct (node_adj_ok K Hc) as (l & E & ND & S). exists l. split; [auto|]. split; [auto|]. split.
  - intros I. apply S in I as (_ & N & _). tauto.
  - intros c'. rewrite S. split.
    + intros (Hc' & N & n & I1 & I2). split; auto. split; auto.
      exists n, (cn c), (cn c'). split; [apply (q_cell_nodes K Hc)|]. split; [apply (q_cell_nodes K Hc')|]. auto.
    + intros (Hc' & N & n & ns & ns' & E1 & E2 & I1 & I2). split; auto. split; auto.
      rewrite (q_cell_nodes K Hc) in E1. injection E1 as <-.
      rewrite (q_cell_nodes K Hc') in E2. injection E2 as <-. exists n; auto.
Qed.

(** Both adjacency relations are symmetric. *)
Theorem c19_adjacency_symmetric : forall V (m : smesh V) c d lc ld, simple_mesh m ->
  c < num_cells m -> d < num_cells m ->
  cell_get_face_adj_cells m c = Ok lc -> cell_get_face_adj_cells m d = Ok ld ->
  (In (Z.of_nat d) lc <-> In (Z.of_nat c) ld).
Proof.
  intros V m c d lc ld H Hc Hd Ec Ed.
  destruct (c19_face_adjacent_cells H Hc) as (l1 & E1 & _ & _ & _ & S1). rewrite Ec in E1. injection E1 as <-.
  destruct (c19_face_adjacent_cells H Hd) as (l2 & E2 & _ & _ & _ & S2). rewrite Ed in E2. injection E2 as <-.
  rewrite S1, S2 by auto. split; intros (N & f & a & b & a' & b' & X1 & X2 & I1 & I2); (split; [auto|]);
    exists f, a', b', a, b; auto.
Qed.

Theorem c19_node_adjacency_symmetric : forall V (m : smesh V) c d lc ld, simple_mesh m ->
  c < num_cells m -> d < num_cells m ->
  cell_get_node_adj_cells m c = Ok lc -> cell_get_node_adj_cells m d = Ok ld ->
  (In d lc <-> In c ld).
Proof.
  intros V m c d lc ld H Hc Hd Ec Ed.
  destruct (c19_node_adjacent_cells H Hc) as (l1 & E1 & _ & _ & S1). rewrite Ec in E1. injection E1 as <-.
  destruct (c19_node_adjacent_cells H Hd) as (l2 & E2 & _ & _ & S2). rewrite Ed in E2. injection E2 as <-.
  rewrite S1, S2. split; intros (_ & N & n & a & a' & X1 & X2 & I1 & I2); (split; [auto|]); (split; [auto|]);
    exists n, a', a; auto.
Qed.

Example c19_witness : cell_get_face_adj_cells wit_m 0 = Ok [1%Z] /\ cell_get_node_adj_cells wit_m 1 = Ok [0].
Proof. split; reflexivity. Qed.

(** ---- C20 ---- *)
(** Full statement: node_get_faces(n) lists exactly the faces whose face_get_nodes contains n.
    True in 1D; false in 3D (the source stores xyface_index_ for the xz and yz faces). *)
Definition node_faces_correct V (m : smesh V) (n : nat) : Prop :=
  exists l, node_get_faces m n = Ok l /\
    forall f, In f l <-> f < num_faces m /\ exists ns, face_get_nodes m f = Ok ns /\ In n ns.

Theorem c20_node_faces_1d_partial : forall V (x : list V) er fr m n,
  make_simple_1d x er fr false = Ok m -> n < num_nodes m -> node_faces_correct m n.
Proof.
  intros V x er fr m n E Hn. assert (Hx' : x <> []) by (destruct x; [discriminate|discriminate]).
  destruct (make_simple_1d_conn er fr Hx') as (m0 & E0 & K & H1 & H2 & H3 & _ & _ & _ & _ & B & A & _).
  rewrite E in E0. injection E0 as <-. exists [n]. split.
  - unfold node_get_faces. rewrite A. rewrite H2 in Hn. apply (read_bucket_ok B Hn).
  - intros f. split.
    + intros [<-|[]]. split; [lia|]. exists [n]. split; [apply (q_face_nodes K); lia|left; auto].
    + intros (Hf & ns & E1 & I). rewrite (q_face_nodes K Hf) in E1. injection E1 as <-. destruct I as [<-|[]]. left; auto.
Qed.

(** What does hold in 3D: the answer never reads out of range and has the right length. *)
Theorem c20_node_faces_count_partial : forall V d (m : smesh V) n, box_mesh d m -> n < num_nodes m ->
  exists l fs, node_get_faces m n = Ok l /\ length l = length fs /\ length fs <= 12 /\ NoDup fs /\
    (forall f, In f fs <-> f < num_faces m /\ exists ns, face_get_nodes m f = Ok ns /\ In n ns).
Proof.
  intros V d m n H Hn. destruct (box_mesh_facts H) as (K & Ec & En & Ef & _ & _ & _ & _ & B & A).
  exists (map (nf_val d) (filter (fun f => inb n (fn3 d f)) (seq 0 (nfaces d)))),
         (filter (fun f => inb n (fn3 d f)) (seq 0 (nfaces d))).
  rewrite En in Hn. split; [unfold node_get_faces; rewrite A; apply (read_bucket_ok B Hn)|].
  split; [apply map_length|]. split; [apply faces_at_node; auto|]. split; [apply NoDup_filter, seq_NoDup|].
  intros f. rewrite filter_In, in_seq, inb_true. rewrite <- Ef. split.
  - intros [[_ Hf] I]. split; [lia|]. exists (fn3 d f). split; [apply (q_face_nodes K); lia|auto].
  - intros [Hf [ns [E1 I]]]. rewrite (q_face_nodes K Hf) in E1. injection E1 as <-. split; [lia|auto].
Qed.

(** Refutation, and not just at a corner case: in EVERY 3D mesh with at least one cell, at EVERY node
    the answer misses at least one face of the node. *)
Theorem c20_node_faces_refuted : forall V d (m : smesh V) n, box_mesh d m -> positive d -> n < num_nodes m ->
  ~ node_faces_correct m n.
Proof.
  intros V d m n H (P1 & P2 & P3) Hn (l & El & S).
  destruct (box_mesh_facts H) as (K & Ec & En & Ef & _ & _ & _ & _ & B & A).
  rewrite En in Hn.
  assert (E : node_get_faces m n = Ok (map (nf_val d) (filter (fun f => inb n (fn3 d f)) (seq 0 (nfaces d))))).
  { unfold node_get_faces. rewrite A. apply (read_bucket_ok B Hn). }
  rewrite El in E. injection E as ->.
  destruct (npos_ok d Hn) as [Na Ni]. destruct (npos d n) as [[a b] c] eqn:En3. simpl in Na.
  (* a yz face at the node *)
  set (s := FYZ a (Nat.min b (ny d - 1)) (Nat.min c (nz d - 1))).
  assert (Hs : face_at d s) by (unfold s; simpl; lia).
  assert (Rs := fid_range d s Hs). simpl in Rs.
  assert (Lf := fid_lt d s Hs).
  assert (I : In (fid d s) (map (nf_val d) (filter (fun f => inb n (fn3 d f)) (seq 0 (nfaces d))))).
  { apply S. rewrite Ef. split; [auto|]. exists (fn3 d (fid d s)). split; [apply (q_face_nodes K); lia|].
    apply fn3_corner; auto. rewrite fpos_fid by auto. rewrite En3. unfold s; simpl. lia. }
  apply in_map_iff in I as (f & Ev & If). apply filter_In in If as [If _]. apply in_seq in If.
  assert (U : nf_val d f < nxy d).
  { destruct (@fpos_ok d f) as [Fa Fi]; [lia|]. unfold nf_val. unfold nxy.
    destruct (fpos d f) as [i j k|i j k|i j k]; simpl in Fa; unfold xyface_index.
    - apply lin_lt; lia.
    - replace (i + j * nx d + k * nx d * ny d) with (i + nx d * (j + ny d * k)) by ring.
      assert (j + ny d * k <= ny d * nz d) by nia.
      replace (nx d * ny d * (nz d + 1)) with (nx d * (ny d * nz d) + nx d * ny d) by ring. nia.
    - replace (i + j * nx d + k * nx d * ny d) with (i + nx d * (j + ny d * k)) by ring.
      assert (j + ny d * k + 1 <= ny d * nz d) by nia.
      replace (nx d * ny d * (nz d + 1)) with (nx d * (ny d * nz d) + nx d * ny d) by ring.
      assert (nx d * (j + ny d * k + 1) <= nx d * (ny d * nz d)) by (apply Nat.mul_le_mono_l; auto). nia. }
  unfold s in Ev. simpl in Ev. lia.
Qed.

Example c20_witness : box_mesh (mkDims 2 1 1) wit_m /\
  node_get_faces wit_m 0 = Ok [0; 0; 0] /\ face_get_nodes wit_m 4 = Ok [0; 1; 7; 6].
Proof. split; [apply wit_box|]. split; reflexivity. Qed.

(** ---- C22 ---- *)
Definition coords_sized V (m : smesh V) : Prop := length (coordinates m) = spdim m * num_nodes m.

Lemma set_loop V (p : list V) off k : forall crd, k <= length p -> off + k <= length crd ->
  exists crd', for_lt k (fun i crd => v <- rd p i ;; wr crd (off + i) v) crd = Ok crd' /\
    length crd' = length crd /\
    (forall i v, i < k -> nth_error p i = Some v -> nth_error crd' (off + i) = Some v) /\
    (forall j, j < off \/ off + k <= j -> nth_error crd' j = nth_error crd j).
Proof.
  induction k as [|k IH]; intros crd Hp Hc; unfold for_lt.
  - exists crd. simpl. split; [auto|]. split; [auto|]. split; [lia|auto].
  - rewrite seq_S, foldM_app. destruct (IH crd) as (crd1 & E1 & L1 & A1 & B1); [lia|lia|].
    unfold for_lt in E1. rewrite E1. cbn [bind foldM]. simpl plus.
    destruct (nth_error p k) as [v|] eqn:Ev; [|apply nth_error_None in Ev; lia].
    unfold rd. rewrite Ev. cbn [bind]. rewrite wr_ok by lia. cbn [bind].
    eexists. split; [reflexivity|]. rewrite set_nth_length. split; [auto|]. split.
    + intros i w Hi Ew. destruct (Nat.eq_dec i k) as [->|N].
      * rewrite nth_error_set_nth_eq by lia. congruence.
      * rewrite nth_error_set_nth_ne by lia. apply A1; auto; lia.
    + intros j Hj. rewrite nth_error_set_nth_ne by lia. apply B1. lia.
Qed.

Lemma simple_mesh_sized V (m : smesh V) : simple_mesh m -> coords_sized m.
Proof.
  induction 1 as [v0 d gx gy gz fr m E|x er fr m E|m n p m' H IH E].
  - destruct (make_simple_3d_conn d v0 gx gy gz fr) as (m0 & E0 & K & H1 & H2 & H3 & H4 & H5 & H6 & H7 & H8 & H9 & H10 & H11 & _).
    rewrite E in E0. injection E0 as <-. unfold coords_sized. rewrite H11, H4, H2. auto.
  - destruct x as [|x0 xs]; [discriminate|].
    destruct (@make_simple_1d_conn V (x0 :: xs) er fr) as (m0 & E0 & K & H1 & H2 & H3 & H4 & H5 & H6 & H7 & H8 & H9 & H10 & H11 & _); [discriminate|].
    rewrite E in E0. injection E0 as <-. unfold coords_sized. rewrite H11, H4, H2. lia.
  - unfold node_set_coordinates in E. apply bind_Ok in E as (crd & Ec & E). injection E as <-.
    unfold coords_sized in *. cbn. rewrite <- IH. clear IH H.
    assert (G : forall l crd crd', foldM l (fun i crd => v <- rd p i ;; wr crd (spdim m * n + i) v) crd = Ok crd' -> length crd' = length crd).
    { induction l as [|a l IHl]; intros c c' Ef; simpl in Ef; [congruence|].
      apply bind_Ok in Ef as (c1 & E1 & Ef). apply bind_Ok in E1 as (v & _ & E1). apply wr_Ok in E1 as [_ ->].
      apply IHl in Ef. rewrite Ef. apply set_nth_length. }
    eapply G; exact Ec.
Qed.

(** Setting a node's coordinates succeeds and is a point update: that node reads back exactly what was
    written, every other node is unchanged, and no connectivity answer changes. *)
Theorem c22_set_coordinates_is_point_update : forall V (m : smesh V) n p, simple_mesh m ->
  n < num_nodes m -> length p = spdim m ->
  exists m', node_set_coordinates m n p = Ok m' /\
    node_get_coordinates m' n = Ok p /\
    (forall n', n' < num_nodes m -> n' <> n -> node_get_coordinates m' n' = node_get_coordinates m n') /\
    (forall c, cell_get_nodes m' c = cell_get_nodes m c /\
               cell_get_faces_and_dirs m' c = cell_get_faces_and_dirs m c /\
               cell_get_face_adj_cells m' c = cell_get_face_adj_cells m c /\
               cell_get_node_adj_cells m' c = cell_get_node_adj_cells m c) /\
    (forall f, face_get_nodes m' f = face_get_nodes m f /\ face_get_cells m' f = face_get_cells m f) /\
    (forall k, node_get_cells m' k = node_get_cells m k /\ node_get_faces m' k = node_get_faces m k).
Proof.
  intros V m n p H Hn Hp. assert (SZ := simple_mesh_sized H). unfold coords_sized in SZ.
  destruct (@set_loop V p (spdim m * n) (spdim m) (coordinates m)) as (crd & E & L & A & B); [lia|nia|].
  unfold node_set_coordinates. rewrite E. cbn [bind]. eexists. split; [reflexivity|].
  split; [|split].
  - unfold node_get_coordinates. cbn [spdim coordinates]. replace (seq 0 (spdim m)) with (seq 0 (length p)) by (rewrite Hp; auto). apply mapM_rd_block.
    intros i v Ev. apply A; auto. rewrite <- Hp. eapply nth_error_lt; eauto.
  - intros n' Hn' N. unfold node_get_coordinates. cbn [spdim coordinates].
    assert (Q : forall l, (forall i, In i l -> i < spdim m) ->
       mapM (fun i => rd crd (spdim m * n' + i)) l = mapM (fun i => rd (coordinates m) (spdim m * n' + i)) l).
    { induction l as [|i l IH]; intros Hl; simpl; auto.
      assert (Hi : i < spdim m) by (apply Hl; left; auto).
      unfold rd at 1 3. rewrite B by (assert (n' < n \/ n < n') as [?|?] by lia; [left|right]; nia).
      destruct (nth_error (coordinates m) (spdim m * n' + i)); simpl; auto.
      rewrite IH by (intros j Hj; apply Hl; right; auto). auto. }
    apply Q. intros i Hi. apply in_seq in Hi. lia.
  - split; [intros c|split; [intros f|intros k]]; repeat split; reflexivity.
Qed.

(** Any history of node moves: each node holds the last point written to it. *)
Theorem c22_last_write_wins : forall V (ws : list (nat * list V)) (m : smesh V), simple_mesh m ->
  (forall n p, In (n, p) ws -> n < num_nodes m /\ length p = spdim m) ->
  exists m', foldM ws (fun w m => node_set_coordinates m (fst w) (snd w)) m = Ok m' /\ simple_mesh m' /\
    forall n, n < num_nodes m ->
      node_get_coordinates m' n =
        match find (fun w => fst w =? n) (rev ws) with
        | Some w => Ok (snd w)
        | None => node_get_coordinates m n
        end.
Proof.
  intros V ws. induction ws as [|[n p] ws IH] using rev_ind; intros m H HW.
  - exists m. simpl. auto.
  - destruct (IH m H) as (m1 & E1 & S1 & G1).
    { intros n0 p0 I. apply HW. apply in_or_app; auto. }
    assert (X : num_nodes m1 = num_nodes m /\ spdim m1 = spdim m).
    { clear - E1. revert m E1. induction ws as [|[a b] ws IH]; intros m E1; simpl in E1; [injection E1 as <-; auto|].
      apply bind_Ok in E1 as (m2 & E2 & E1). apply IH in E1 as [-> ->].
      unfold node_set_coordinates in E2. apply bind_Ok in E2 as (c & _ & E2). injection E2 as <-. auto. }
    destruct X as [X1 X2].
    destruct (HW n p) as [Hn Hp]; [apply in_or_app; right; left; auto|].
    destruct (@c22_set_coordinates_is_point_update V m1 n p S1) as (m2 & E2 & R & O & _); [lia|congruence|].
    exists m2. rewrite foldM_app, E1. cbn [bind foldM fst snd]. rewrite E2. cbn [bind].
    split; [auto|]. split; [eapply SM_move; eauto|].
    intros k Hk. rewrite rev_app_distr. simpl. destruct (Nat.eqb_spec n k) as [->|N]; simpl; auto.
    rewrite O by lia. apply G1; auto.
Qed.

Example c22_witness : exists m', node_set_coordinates wit_m 4 [7; 8; 9] = Ok m' /\
  node_get_coordinates m' 4 = Ok [7; 8; 9] /\ node_get_coordinates m' 5 = Ok [2; 1; 0].
Proof.
  exists (match node_set_coordinates wit_m 4 [7; 8; 9] with Ok m => m | _ => wit_m end).
  split; [vm_compute; reflexivity|]. split; vm_compute; reflexivity.
Qed.

(** ---- C23 ---- *)
(** Faces of a cell are built from the cell's nodes. *)
Theorem c23_faces_use_cell_nodes : forall V d (m : smesh V) c f fs ds, box_mesh d m ->
  c < num_cells m -> cell_get_faces_and_dirs m c = Ok (fs, ds) -> In f fs ->
  exists fns cns, face_get_nodes m f = Ok fns /\ cell_get_nodes m c = Ok cns /\
    NoDup fns /\ length fns = 4 /\ forall n, In n fns -> In n cns.
Proof.
  intros V d m c f fs ds H Hc E I. destruct (box_mesh_facts H) as (K & Ec & En & Ef & _ & Enf & _).
  rewrite (q_cell_faces K Hc) in E. injection E as <- <-.
  assert (Hf := @k_cf_lt _ _ _ _ _ _ K c f Hc I).
  exists (fn3 d f), (cn3 d c). split; [apply (q_face_nodes K Hf)|]. split; [apply (q_cell_nodes K Hc)|].
  split; [apply (k_fn_nd K Hf)|]. split; [rewrite (k_fn_len K Hf); auto|].
  intros n In0. assert (Hn := @k_fn_lt _ _ _ _ _ _ K f n Hf In0).
  rewrite Ec in Hc. rewrite Ef in Hf. rewrite En in Hn.
  apply cn3_corner; auto. apply fn3_corner in In0; auto. apply cf3_side in I; auto.
  destruct (npos d n) as [[a b] g], (cpos d c) as [[i j] k], (fpos d f) as [x y z|x y z|x y z]; simpl in *; lia.
Qed.

(** node_get_cell_faces(n,c) lists, once each, exactly the faces of c that contain n ... *)
Theorem c23_node_cell_faces : forall V (m : smesh V) c n, simple_mesh m -> c < num_cells m ->
  exists l fs ds, node_get_cell_faces m n c = Ok l /\ cell_get_faces_and_dirs m c = Ok (fs, ds) /\ NoDup l /\
    forall f, In f l <-> In f fs /\ exists ns, face_get_nodes m f = Ok ns /\ In n ns.
Proof.
  intros V m c n H Hc. destruct (simple_mesh_conn H) as (cn & cf & fn & cd & K).
  exists (filter (fun f => inb n (fn f)) (cf c)), (cf c), cd.
  split; [apply (q_node_cell_faces K n Hc)|]. split; [apply (q_cell_faces K Hc)|].
  split; [apply NoDup_filter, (k_cf_nd K Hc)|].
  intros f. rewrite filter_In, inb_true. split.
  - intros [I J]. split; auto. exists (fn f). split; [|auto]. apply (q_face_nodes K).
    apply (@k_cf_lt _ _ _ _ _ _ K c f Hc I).
  - intros [I [ns [E J]]]. rewrite (q_face_nodes K) in E by (apply (@k_cf_lt _ _ _ _ _ _ K c f Hc I)).
    injection E as <-. auto.
Qed.

(** boolean version of [corner_of_face] *)
Definition cofb (q : pos3) (s : sface) : bool :=
  let '(a, b, c) := q in
  match s with
  | FXY i j k => ((a =? i) || (a =? i + 1)) && ((b =? j) || (b =? j + 1)) && (c =? k)
  | FXZ i j k => ((a =? i) || (a =? i + 1)) && (b =? j) && ((c =? k) || (c =? k + 1))
  | FYZ i j k => (a =? i) && ((b =? j) || (b =? j + 1)) && ((c =? k) || (c =? k + 1))
  end.
Lemma cofb_spec q s : cofb q s = true <-> corner_of_face q s.
Proof. destruct q as [[a b] c], s as [i j k|i j k|i j k]; simpl; lia. Qed.

(** ... three of them when n is a node of c in 3D. *)
Theorem c23_three_faces_at_a_corner : forall V d (m : smesh V) c n cns, box_mesh d m -> c < num_cells m ->
  cell_get_nodes m c = Ok cns -> In n cns ->
  exists l, node_get_cell_faces m n c = Ok l /\ length l = 3.
Proof.
  intros V d m c n cns H Hc E I. destruct (box_mesh_facts H) as (K & Ec & En & Ef & _).
  rewrite (q_cell_nodes K Hc) in E. injection E as <-.
  assert (Hn := @k_cn_lt _ _ _ _ _ _ K c n Hc I). rewrite En in Hn.
  eexists. split; [apply (q_node_cell_faces K n Hc)|].
  rewrite Ec in Hc. apply cn3_corner in I; auto.
  destruct (cpos_ok d Hc) as [Ca Ci].
  assert (B : forall s, In s (sides6 (cpos d c)) -> inb n (fn3 d (fid d s)) = cofb (npos d n) s).
  { intros s Hs. assert (As := sides6_at d _ Ca s Hs).
    apply eq_true_iff_eq. rewrite inb_true, cofb_spec, fn3_corner, fpos_fid by (auto using fid_lt). tauto. }
  unfold cf3. destruct (cpos d c) as [[i j] k]. destruct (npos d n) as [[a b] g].
  cbn [sides6 map In] in *.
  cbn [filter].
  rewrite !B by tauto.
  clear - I. simpl in I.
  assert (E1 : forall x, (x =? x + 1) = false) by (intros; apply Nat.eqb_neq; lia).
  assert (E2 : forall x, (x + 1 =? x) = false) by (intros; apply Nat.eqb_neq; lia).
  destruct I as ([->| ->] & [->| ->] & [->| ->]); cbn [cofb];
    rewrite ?Nat.eqb_refl, ?E1, ?E2; reflexivity.
Qed.

Theorem c23_one_face_at_an_end_1d : forall V (x : list V) er fr m c n cns,
  make_simple_1d x er fr false = Ok m -> c < num_cells m -> cell_get_nodes m c = Ok cns -> In n cns ->
  node_get_cell_faces m n c = Ok [n].
Proof.
  intros V x er fr m c n cns E Hc E1 I. assert (Hx' : x <> []) by (destruct x; [discriminate|discriminate]).
  destruct (make_simple_1d_conn er fr Hx') as (m0 & E0 & K & H1 & H2 & H3 & _). rewrite E in E0. injection E0 as <-.
  rewrite (q_cell_nodes K Hc) in E1. injection E1 as <-.
  rewrite (q_node_cell_faces K n Hc). f_equal. simpl.
  destruct I as [<-|[<-|[]]]; unfold inb, fn1;
    repeat match goal with |- context [in_dec ?D ?a ?l] => let h := fresh in (destruct (in_dec D a l) as [h|h]; simpl in h) end;
    try reflexivity; exfalso; lia.
Qed.

Example c23_witness : node_get_cell_faces wit_m 1 0 = Ok [4; 9; 0] /\ cell_get_nodes wit_m 0 = Ok [0; 1; 4; 3; 6; 7; 10; 9].
Proof. split; reflexivity. Qed.
