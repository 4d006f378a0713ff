(** C84: regular meshes generated for the MSTK framework. *)
From Coq Require Import Reals ZArith Permutation Lra.
From Verif Require Import Base Loop BlockPartition BlockPartition_spec Props_BlockPartition RegularMesh RegularMesh_spec RegularMesh_proofs RegularMesh_proofs2 RegularMesh_proofs3 RegularMesh_proofs4 RegularMesh_proofs6 RegularMeshPar.
Set Implicit Arguments.

(** C84 in 3D: there is one numbering of the nodes, edges, squares and cubes of the whole grid, from 1 without gaps, such that
    for every block of cells of the grid the generator succeeds and makes exactly the entities of the block, each once: nodes at their grid
    points, edges, faces and cells with the corners they should have, each with its number in the whole grid and the part of the brick's
    boundary (vertex, edge, face, interior) it lies on.  A block size of 0 stands for all the cells. *)
Theorem c84_regular_mesh_3d : forall NX NY NZ, 0 < NX -> 0 < NY -> 0 < NZ ->
  let O := (0, 0, 0) in let N := (NX, NY, NZ) in
  exists gv ge gf gr,
    numbers (is_node O N) gv ((NX + 1) * (NY + 1) * (NZ + 1)) /\
    numbers (is_edge O N) ge (NX * (NY + 1) * (NZ + 1) + (NX + 1) * NY * (NZ + 1) + (NX + 1) * (NY + 1) * NZ) /\
    numbers (is_square O N) gf ((NX + 1) * NY * NZ + NX * (NY + 1) * NZ + NX * NY * (NZ + 1)) /\
    numbers (is_cube O N) gr (NX * NY * NZ) /\
    forall X0 Y0 Z0 X1 Y1 Z1 i0 j0 k0 nx ny nz wx wy wz,
      nx = wx \/ nx = 0 /\ wx = NX -> ny = wy \/ ny = 0 /\ wy = NY -> nz = wz \/ nz = 0 /\ wz = NZ -> 0 < wx -> 0 < wy -> 0 < wz ->
      i0 + wx <= NX -> j0 + wy <= NY -> k0 + wz <= NZ ->
      exists m pos, generate3 X0 Y0 Z0 X1 Y1 Z1 NX NY NZ i0 j0 k0 nx ny nz = Ok m /\
        regular_block N (i0, j0, k0) (i0 + wx, j0 + wy, k0 + wz)
          (fun '(x, y, z) => (grid_point X0 X1 NX x, grid_point Y0 Y1 NY y, grid_point Z0 Z1 NZ z)) gv ge gf gr m pos.
Proof.
  intros NX NY NZ PX PY PZ O N. exists (num_vert NY NZ), (num_edge NY NZ), (num_face NY NZ), (num_reg NY NZ).
  split; [now apply numbers_vert|]. split; [|split; [|split; [now apply numbers_reg|]]].
  - replace (NX * (NY + 1) * (NZ + 1) + (NX + 1) * NY * (NZ + 1) + (NX + 1) * (NY + 1) * NZ) with (NX * edge_slab NY NZ + ((NY + 1) * NZ + NY * (NZ + 1))) by (unfold edge_slab; nia). now apply numbers_edge.
  - replace ((NX + 1) * NY * NZ + NX * (NY + 1) * NZ + NX * NY * (NZ + 1)) with (NX * face_slab NY NZ + NY * NZ) by (unfold face_slab; nia). now apply numbers_face.
  - intros X0 Y0 Z0 X1 Y1 Z1 i0 j0 k0 nx ny nz wx wy wz DX DY DZ Wx Wy Wz Bx By Bz.
    destruct (@gen3_ok X0 Y0 Z0 X1 Y1 Z1 NX NY NZ i0 j0 k0 wx wy wz PX PY PZ Bx By Bz Wx Wy Wz) as (m & pos & E & R). exists m, pos. split; auto.
    rewrite <- E. unfold generate3. replace (defaulted nx NX) with (defaulted wx NX). replace (defaulted ny NY) with (defaulted wy NY). replace (defaulted nz NZ) with (defaulted wz NZ). reflexivity.
    + destruct DZ as [<- |(-> & ->)]; unfold defaulted; cbn; destruct (NZ =? 0); auto; destruct nz; auto.
    + destruct DY as [<- |(-> & ->)]; unfold defaulted; cbn; destruct (NY =? 0); auto; destruct ny; auto.
    + destruct DX as [<- |(-> & ->)]; unfold defaulted; cbn; destruct (NX =? 0); auto; destruct nx; auto.
Qed.
Print Assumptions c84_regular_mesh_3d.

(** ** distributed *)
(** the points of an entity's vertices, in order *)
Definition points (vs : list mvert) (hs : list nat) : list (option (R * R * R)) := map (fun h => option_map mv_xyz (nth_error vs h)) hs.

Lemma grid_point_inj a b n g g' : (a < b)%R -> 0 < n -> grid_point a b n g = grid_point a b n g' -> g = g'.
Proof.
  intros L P E. unfold grid_point in E. apply INR_eq. assert (INR n <> 0)%R by (apply not_0_INR; lia). apply Rmult_eq_reg_r with (/ INR n)%R; [|now apply Rinv_neq_0_compat].
  unfold Rdiv in E. apply Rmult_eq_reg_r with (b - a)%R; lra.
Qed.
Lemma box_incl (lo hi O N p : gpos) : (forall d, d < 3 -> at_axis O d <= at_axis lo d /\ at_axis hi d <= at_axis N d) -> in_box lo hi p -> in_box O N p.
Proof. intros H B d L. specialize (H d L). specialize (B d L). lia. Qed.
Lemma edge_incl (lo hi O N : gpos) l : (forall d, d < 3 -> at_axis O d <= at_axis lo d /\ at_axis hi d <= at_axis N d) -> is_edge lo hi l -> is_edge O N l.
Proof. intros H (d & p & L & B & B' & E). exists d, p. repeat (split; [eauto using box_incl|]). auto. Qed.
Lemma square_incl (lo hi O N : gpos) l : (forall d, d < 3 -> at_axis O d <= at_axis lo d /\ at_axis hi d <= at_axis N d) -> is_square lo hi l -> is_square O N l.
Proof. intros H (d & e & p & L & L' & B & B' & E). exists d, e, p. repeat (split; [eauto using box_incl|]). auto. Qed.
Lemma cube_incl (lo hi O N : gpos) l : (forall d, d < 3 -> at_axis O d <= at_axis lo d /\ at_axis hi d <= at_axis N d) -> is_cube lo hi l -> is_cube O N l.
Proof. intros H (p & B & B' & E). exists p. repeat (split; [eauto using box_incl|]). auto. Qed.
Lemma node_incl (lo hi O N : gpos) l : (forall d, d < 3 -> at_axis O d <= at_axis lo d /\ at_axis hi d <= at_axis N d) -> is_node lo hi l -> is_node O N l.
Proof. intros H (p & B & E). exists p. eauto using box_incl. Qed.

(** what every rank has: a block of the grid *)
Lemma mstk3_blocks fuel NX NY NZ np : 0 < NX -> 0 < NY -> 0 < NZ -> 1 <= np <= NX * NY * NZ -> np < fuel ->
  exists lo hi : nat -> gpos,
    (forall r, r < np -> forall d, d < 3 -> at_axis (hi r) d <= at_axis (NX, NY, NZ) d) /\
    (forall p, in_box (0, 0, 0) (NX, NY, NZ) p -> in_box (0, 0, 0) (NX, NY, NZ) (next 2 (next 1 (next 0 p))) ->
       exists! r, r < np /\ in_box (lo r) (hi r) p /\ in_box (lo r) (hi r) (next 2 (next 1 (next 0 p)))) /\
    forall X0 Y0 Z0 X1 Y1 Z1 r, r < np -> exists m pos, mstk_regular3 fuel X0 Y0 Z0 X1 Y1 Z1 NX NY NZ np r = Ok m /\
      regular_block (NX, NY, NZ) (lo r) (hi r) (gpoint X0 Y0 Z0 X1 Y1 Z1 NX NY NZ) (num_vert NY NZ) (num_edge NY NZ) (num_face NY NZ) (num_reg NY NZ) m pos.
Proof.
  intros PX PY PZ NP FU. destruct (Nat.eq_dec np 1) as [->|NE].
  - exists (fun _ => (0, 0, 0)), (fun _ => (NX, NY, NZ)). split; [intros; lia|]. split.
    + intros p B B'. exists 0. split; [split; auto|]. intros r (L & _). lia.
    + intros X0 Y0 Z0 X1 Y1 Z1 r L. unfold mstk_regular3. cbn [Nat.eqb].
      destruct (@gen3_ok X0 Y0 Z0 X1 Y1 Z1 NX NY NZ 0 0 0 NX NY NZ PX PY PZ ltac:(lia) ltac:(lia) ltac:(lia) PX PY PZ) as (m & pos & E & R). exists m, pos. split; auto.
      rewrite <- E. unfold generate3, defaulted. cbn. destruct (NX =? 0), (NY =? 0), (NZ =? 0); auto.
  - pose (cells := V3 (Z.of_nat NX) (Z.of_nat NY) (Z.of_nat NZ)).
    assert (valid_grid 3 cells) as V. { split; [lia|]. intros d L. le2 d; cbn; lia. }
    assert (1 <= Z.of_nat np <= grid_cells 3 cells)%Z as RQ. { unfold grid_cells. cbn [seq map fold_right get cells v0 v1 v2]. nia. }
    destruct (@c01_block_count 3 cells (Z.of_nat np) fuel V RQ ltac:(lia)) as (blocks & EB & LB). pose proof (@c02_blocks_tile 3 cells (Z.of_nat np) fuel blocks V RQ ltac:(lia) EB) as T.
    assert (length blocks = np) as LN by lia. clear LB.
    pose (bk := fun r => nth r blocks blank_block).
    assert (forall r, r < np -> nth_error blocks r = Some (bk r)) as NB. { intros r L. apply nth_error_nth'. lia. }
    assert (forall r, r < np -> In (bk r) blocks) as IB. { intros r L. eapply nth_error_In, NB, L. }
    assert (forall r, r < np -> forall d, d < 3 -> (0 <= get d (start (bk r)) /\ 1 <= get d (num (bk r)) /\ get d (start (bk r)) + get d (num (bk r)) <= get d cells)%Z) as BD.
    { intros r L d Ld. pose proof (tl_nonempty _ _ _ T (bk r) (IB r L)) as NEr.
      pose proof (tl_inside _ _ _ T (bk r) (fun d => get d (start (bk r))) (IB r L)) as I1. pose proof (tl_inside _ _ _ T (bk r) (fun d => get d (start (bk r)) + get d (num (bk r)) - 1)%Z (IB r L)) as I2.
      assert (in_block 3 (bk r) (fun d => get d (start (bk r)))) as B1. { intros e Le. specialize (NEr e Le). cbn beta. lia. }
      assert (in_block 3 (bk r) (fun d => get d (start (bk r)) + get d (num (bk r)) - 1)%Z) as B2. { intros e Le. specialize (NEr e Le). cbn beta. lia. }
      specialize (I1 B1 d Ld). specialize (I2 B2 d Ld). specialize (NEr d Ld). cbn beta in *. lia. }
    pose (z := fun d v => Z.to_nat (get d v)).
    exists (fun r => (z 0 (start (bk r)), z 1 (start (bk r)), z 2 (start (bk r)))), (fun r => (z 0 (start (bk r)) + z 0 (num (bk r)), z 1 (start (bk r)) + z 1 (num (bk r)), z 2 (start (bk r)) + z 2 (num (bk r)))).
    split; [|split].
    + intros r L d Ld. pose proof (BD r L d Ld) as H. le2 d; cbn [at_axis fst snd get cells v0 v1 v2] in *; unfold z; cbn [get] in *; lia.
    + intros ((x, y), w) B B'. cbn [next] in *. apply in_box3 in B, B'. pose (p := fun d => Z.of_nat (at_axis (x, y, w) d)).
      assert (forall r, r < np -> (in_block 3 (bk r) p <-> in_box (z 0 (start (bk r)), z 1 (start (bk r)), z 2 (start (bk r))) (z 0 (start (bk r)) + z 0 (num (bk r)), z 1 (start (bk r)) + z 1 (num (bk r)), z 2 (start (bk r)) + z 2 (num (bk r))) (x, y, w) /\
         in_box (z 0 (start (bk r)), z 1 (start (bk r)), z 2 (start (bk r))) (z 0 (start (bk r)) + z 0 (num (bk r)), z 1 (start (bk r)) + z 1 (num (bk r)), z 2 (start (bk r)) + z 2 (num (bk r))) (x + 1, y + 1, w + 1))) as IBX.
      { intros r L. rewrite !in_box3. pose proof (BD r L 0 ltac:(lia)) as H0. pose proof (BD r L 1 ltac:(lia)) as H1. pose proof (BD r L 2 ltac:(lia)) as H2. unfold z. split.
        - intros H. pose proof (H 0 ltac:(lia)) as G0. pose proof (H 1 ltac:(lia)) as G1. pose proof (H 2 ltac:(lia)) as G2. unfold p in *. cbn [at_axis fst snd] in *. lia.
        - intros H d Ld. unfold p. le2 d; cbn [at_axis fst snd]; lia. }
      destruct (tl_cover _ _ _ T p) as (r & (b & Nb & Hb) & U). { intros d Ld. unfold p. le2 d; cbn; lia. }
      assert (r < np) as L by (rewrite <- LN; apply nth_error_Some; congruence). pose proof (NB r L) as NB'. rewrite Nb in NB'. injection NB' as ->. exists r. split; [split; auto; now apply IBX|].
      intros r' (L' & H'). apply U. exists (bk r'). split; [now apply NB|]. now apply IBX.
    + intros X0 Y0 Z0 X1 Y1 Z1 r L. unfold mstk_regular3. replace (np =? 1) with false by (symmetry; now apply Nat.eqb_neq). fold cells. rewrite EB. cbn [bind].
      assert (rd blocks r = Ok (bk r)) as -> by (now apply rd_Ok, NB). cbn [bind].
      pose proof (BD r L 0 ltac:(lia)) as H0. pose proof (BD r L 1 ltac:(lia)) as H1. pose proof (BD r L 2 ltac:(lia)) as H2. unfold z. cbn [get cells v0 v1 v2] in *. unfold cells in H0, H1, H2. cbn [v0 v1 v2] in *.
      apply gen3_ok; auto; lia.
Qed.

(** C84: over all processors the cells are numbered 1, 2, ... without repetition, for every number of processors up to the number of cells. *)
Theorem c84_cells_once_3d : forall fuel X0 Y0 Z0 X1 Y1 Z1 NX NY NZ np,
  0 < NX -> 0 < NY -> 0 < NZ -> 1 <= np <= NX * NY * NZ -> np < fuel ->
  exists mesh : nat -> mmesh3, (forall r, r < np -> mstk_regular3 fuel X0 Y0 Z0 X1 Y1 Z1 NX NY NZ np r = Ok (mesh r)) /\
    Permutation (flat_map (fun r => map mr_glob (m_regs (mesh r))) (seq 0 np)) (seq 1 (NX * NY * NZ)).
Proof.
  intros fuel X0 Y0 Z0 X1 Y1 Z1 NX NY NZ np PX PY PZ NP FU. destruct (@mstk3_blocks fuel NX NY NZ np PX PY PZ NP FU) as (lo & hi & IN & U & H).
  pose (mesh := fun r => match mstk_regular3 fuel X0 Y0 Z0 X1 Y1 Z1 NX NY NZ np r with Ok m => m | _ => MMesh3 [] [] [] [] end).
  assert (forall r, r < np -> mstk_regular3 fuel X0 Y0 Z0 X1 Y1 Z1 NX NY NZ np r = Ok (mesh r)) as OK. { intros r L. unfold mesh. destruct (H X0 Y0 Z0 X1 Y1 Z1 r L) as (m & pos & -> & _). reflexivity. }
  exists mesh. split; auto. destruct (numbers_reg PX PY PZ) as (NB & NI & NS).
  assert (forall r, r < np -> exists gs, map mr_glob (m_regs (mesh r)) = map (num_reg NY NZ) gs /\ exactly gs (is_cube (lo r) (hi r))) as GS.
  { intros r L. destruct (H X0 Y0 Z0 X1 Y1 Z1 r L) as (m & pos & E & R). rewrite OK in E by auto. injection E as <-. eexists. split; [|apply (rb_regs R)]. rewrite map_map. apply map_ext_in. intros g I. apply (rb_reg R); auto. }
  assert (forall r, r < np -> forall d, d < 3 -> at_axis (0, 0, 0) d <= at_axis (lo r) d /\ at_axis (hi r) d <= at_axis (NX, NY, NZ) d) as INC. { intros r L d Ld. split; [destruct d as [|[|d]]; cbn; lia|]. now apply IN. }
  apply NoDup_Permutation; [|apply seq_NoDup|].
  - apply NoDup_flat; [apply seq_NoDup| |].
    + intros r I. apply in_seq in I. destruct (GS r ltac:(lia)) as (gs & -> & (ND & X)). assert (forall x, In x gs -> is_cube (0, 0, 0) (NX, NY, NZ) x) as Y. { intros x Ix. apply cube_incl with (lo r) (hi r); [apply INC; lia|now apply X]. }
      clear - ND NI Y. induction gs as [|g gs IH]; cbn; [constructor|]. inversion ND as [|? ? Na Nl]; subst. constructor.
      * intros J. apply in_map_iff in J as (g' & E & J). apply Na. rewrite <- (NI g' g); auto. apply Y; now right. apply Y; now left.
      * apply IH; auto. intros; apply Y; now right.
    + intros r r' g I I' J J'. apply in_seq in I, I'. destruct (GS r ltac:(lia)) as (gs & E & (_ & X)). destruct (GS r' ltac:(lia)) as (gs' & E' & (_ & X')). rewrite E in J. rewrite E' in J'.
      apply in_map_iff in J as (c & <- & J). apply in_map_iff in J' as (c' & EE & J'). apply X in J. apply X' in J'.
      assert (c' = c) as ->. { apply NI; auto. - eapply cube_incl; [|exact J']. apply INC; lia. - eapply cube_incl; [|exact J]. apply INC; lia. }
      destruct J as (p & B & B' & ->). destruct J' as (q & C & C' & EQ). assert (q = p) as -> by (injection EQ; auto).
      destruct (U p) as (r0 & _ & UU). { eapply box_incl; [|exact B]. apply INC; lia. } { eapply box_incl; [|exact B']. apply INC; lia. }
      transitivity r0; [symmetry|]; apply UU; (split; [lia|split; auto]).
  - intros g. rewrite in_flat_map, in_seq. split.
    + intros (r & I & J). apply in_seq in I. destruct (GS r ltac:(lia)) as (gs & E & (_ & X)). rewrite E in J. apply in_map_iff in J as (c & <- & J). apply X in J. assert (is_cube (0, 0, 0) (NX, NY, NZ) c) as Y by (eapply cube_incl; [|exact J]; apply INC; lia). apply NB in Y. lia.
    + intros L. destruct (NS g) as (c & C & <-); [lia|]. destruct C as (p & B & B' & EC). destruct (U p B B') as (r & (Lr & C1 & C2) & _). exists r. split; [apply in_seq; lia|]. destruct (GS r Lr) as (gs & -> & (_ & X)). apply in_map. apply X. exists p. auto.
Qed.
Print Assumptions c84_cells_once_3d.

Lemma points_pos (N lo hi : gpos) P gv ge gf gr m pos hs : regular_block N lo hi P gv ge gf gr m pos -> (forall h, In h hs -> h < length (m_verts m)) ->
  points (m_verts m) hs = map (fun p => Some (P p)) (map pos hs).
Proof.
  intros R L. unfold points. rewrite map_map. apply map_ext_in. intros h I. destruct (nth_error (m_verts m) h) as [v|] eqn:E.
  - cbn. f_equal. apply (rb_node R _ E). - exfalso. apply nth_error_None in E. specialize (L h I). lia.
Qed.
Lemma map_inj_on A B (f : A -> B) (P : A -> Prop) : (forall x y, P x -> P y -> f x = f y -> x = y) -> forall l l', (forall x, In x l -> P x) -> (forall x, In x l' -> P x) -> map f l = map f l' -> l = l'.
Proof.
  intros H. induction l as [|a l IH]; intros [|b l'] Q Q' E; try discriminate; auto. cbn in E. injection E as E1 E2. f_equal; [apply H; auto; [apply Q|apply Q']; now left|]. apply IH; auto; intros; [apply Q|apply Q']; now right.
Qed.

(** C84: two processors agree on which entities they share: faces (edges, cells) of any two processors have the same global id exactly
    when they join the same points, in the same order; likewise nodes. *)
Theorem c84_shared_entities_3d : forall fuel X0 Y0 Z0 X1 Y1 Z1 NX NY NZ np r r' m m',
  (X0 < X1)%R -> (Y0 < Y1)%R -> (Z0 < Z1)%R ->
  0 < NX -> 0 < NY -> 0 < NZ -> 1 <= np <= NX * NY * NZ -> np < fuel -> r < np -> r' < np ->
  mstk_regular3 fuel X0 Y0 Z0 X1 Y1 Z1 NX NY NZ np r = Ok m -> mstk_regular3 fuel X0 Y0 Z0 X1 Y1 Z1 NX NY NZ np r' = Ok m' ->
  (forall v v', In v (m_verts m) -> In v' (m_verts m') -> (mv_glob v = mv_glob v' <-> mv_xyz v = mv_xyz v')) /\
  (forall e e', In e (m_edges m) -> In e' (m_edges m') -> (me_glob e = me_glob e' <-> points (m_verts m) (me_verts e) = points (m_verts m') (me_verts e'))) /\
  (forall f f', In f (m_faces m) -> In f' (m_faces m') -> (me_glob f = me_glob f' <-> points (m_verts m) (me_verts f) = points (m_verts m') (me_verts f'))) /\
  (forall c c', In c (m_regs m) -> In c' (m_regs m') -> (mr_glob c = mr_glob c' <-> points (m_verts m) (mr_verts c) = points (m_verts m') (mr_verts c'))).
Proof.
  intros fuel X0 Y0 Z0 X1 Y1 Z1 NX NY NZ np r r' m m' LX LY LZ PX PY PZ NP FU Lr Lr' E E'.
  destruct (@mstk3_blocks fuel NX NY NZ np PX PY PZ NP FU) as (lo & hi & IN & _ & H).
  destruct (H X0 Y0 Z0 X1 Y1 Z1 r Lr) as (m0 & pos & E0 & R). rewrite E in E0. injection E0 as <-. destruct (H X0 Y0 Z0 X1 Y1 Z1 r' Lr') as (m0 & pos' & E0 & R'). rewrite E' in E0. injection E0 as <-.
  assert (forall r, r < np -> forall d, d < 3 -> at_axis (0, 0, 0) d <= at_axis (lo r) d /\ at_axis (hi r) d <= at_axis (NX, NY, NZ) d) as INC. { intros q L d Ld. split; [destruct d as [|[|d]]; cbn; lia|]. now apply IN. }
  pose (P := gpoint X0 Y0 Z0 X1 Y1 Z1 NX NY NZ).
  assert (forall p q, P p = P q -> p = q) as PI. { intros ((x, y), z) ((x', y'), z') Q. unfold P, gpoint in Q. injection Q as Q1 Q2 Q3. apply grid_point_inj in Q1, Q2, Q3; auto. congruence. }
  assert (forall g (Sh : gpos -> gpos -> list gpos -> Prop) n hs hs' k k', numbers (Sh (0, 0, 0) (NX, NY, NZ)) g n ->
    (forall h, In h hs -> h < length (m_verts m)) -> (forall h, In h hs' -> h < length (m_verts m')) -> Sh (0, 0, 0) (NX, NY, NZ) (map pos hs) -> Sh (0, 0, 0) (NX, NY, NZ) (map pos' hs') ->
    k = g (map pos hs) -> k' = g (map pos' hs') -> (k = k' <-> points (m_verts m) hs = points (m_verts m') hs')) as K.
  { intros g Sh n hs hs' k k' (_ & I & _) B B' S1 S2 -> ->. rewrite (@points_pos _ _ _ _ _ _ _ _ _ _ hs R B), (@points_pos _ _ _ _ _ _ _ _ _ _ hs' R' B'). split.
    - intros G. f_equal. auto.
    - intros Q. f_equal. apply (@map_inj_on _ _ (fun p => Some (gpoint X0 Y0 Z0 X1 Y1 Z1 NX NY NZ p)) (fun _ => True)) in Q; auto. intros x y _ _ F. injection F as F. now apply PI. }
  pose proof (rb_handles R) as HH. pose proof (rb_handles R') as HH'.
  split; [|split; [|split]].
  - intros v v' I I'. apply In_nth_error in I as (h & I). apply In_nth_error in I' as (h' & I'). destruct (rb_node R _ I) as (-> & -> & _). destruct (rb_node R' _ I') as (-> & -> & _).
    destruct (numbers_vert PX PY PZ) as (_ & NI & _). assert (h < length (m_verts m)) by (apply nth_error_Some; congruence). assert (h' < length (m_verts m')) by (apply nth_error_Some; congruence). split; intros Q.
    + assert ([pos h] = [pos' h']) as QQ. { apply NI; auto; eapply node_incl; [apply (INC r Lr)| |apply (INC r' Lr')|]; [apply (rb_nodes R)|apply (rb_nodes R')]; apply in_map_iff; [exists h|exists h']; split; auto; apply in_seq; lia. }
      injection QQ as ->. reflexivity.
    + apply PI in Q. now rewrite Q.
  - intros e e' I I'. eapply (K (num_edge NY NZ) is_edge); [now apply numbers_edge| | | | |now apply (rb_edge R)|now apply (rb_edge R')].
    + intros h J. apply HH. apply in_app_iff. left. apply in_flat_map. eauto. + intros h J. apply HH'. apply in_app_iff. left. apply in_flat_map. eauto.
    + eapply edge_incl; [apply (INC r Lr)|]. apply (rb_edges R). now apply (in_map (fun e => map pos (me_verts e))).
    + eapply edge_incl; [apply (INC r' Lr')|]. apply (rb_edges R'). now apply (in_map (fun e => map pos' (me_verts e))).
  - intros e e' I I'. eapply (K (num_face NY NZ) is_square); [now apply numbers_face| | | | |now apply (rb_face R)|now apply (rb_face R')].
    + intros h J. apply HH. rewrite !in_app_iff. right. left. apply in_flat_map. eauto. + intros h J. apply HH'. rewrite !in_app_iff. right. left. apply in_flat_map. eauto.
    + eapply square_incl; [apply (INC r Lr)|]. apply (rb_faces R). now apply (in_map (fun e => map pos (me_verts e))).
    + eapply square_incl; [apply (INC r' Lr')|]. apply (rb_faces R'). now apply (in_map (fun e => map pos' (me_verts e))).
  - intros e e' I I'. eapply (K (num_reg NY NZ) is_cube); [now apply numbers_reg| | | | |now apply (rb_reg R)|now apply (rb_reg R')].
    + intros h J. apply HH. rewrite !in_app_iff. right. right. apply in_flat_map. eauto. + intros h J. apply HH'. rewrite !in_app_iff. right. right. apply in_flat_map. eauto.
    + eapply cube_incl; [apply (INC r Lr)|]. apply (rb_regs R). now apply (in_map (fun e => map pos (mr_verts e))).
    + eapply cube_incl; [apply (INC r' Lr')|]. apply (rb_regs R'). now apply (in_map (fun e => map pos' (mr_verts e))).
Qed.
Print Assumptions c84_shared_entities_3d.
