(** C84 in 2D, and witnesses. *)
From Coq Require Import Reals ZArith Permutation Lra.
From Verif Require Import Base Loop BlockPartition BlockPartition_spec Props_BlockPartition RegularMesh RegularMesh_spec RegularMesh_proofs RegularMesh_proofs2 RegularMesh_proofs3 RegularMesh_proofs4 RegularMesh_proofs5 RegularMesh_proofs6 RegularMeshPar Props_RegularMesh.
Set Implicit Arguments.

(** C84 in 2D: one numbering of the nodes, edges and squares of the whole grid, and every block of the grid is made of exactly its nodes,
    edges (each once, in one of its two directions) and squares; going round a face along its edges in the directions the face uses them
    gives the four sides of its square anticlockwise; every entity has its number and the part of the rectangle's boundary it lies on. *)
Theorem c84_regular_mesh_2d : forall NX NY, 0 < NX -> 0 < NY ->
  let O := (0, 0, 0) in let N := (NX, NY, 0) in
  exists gv ge gf,
    numbers (is_node O N) gv ((NX + 1) * (NY + 1)) /\ numbers (is_edge O N) ge (NX * (NY + 1) + (NX + 1) * NY) /\ numbers (is_square O N) gf (NX * NY) /\
    forall X0 Y0 X1 Y1 i0 j0 nx ny wx wy,
      nx = wx \/ nx = 0 /\ wx = NX -> ny = wy \/ ny = 0 /\ wy = NY -> 0 < wx -> 0 < wy -> i0 + wx <= NX -> j0 + wy <= NY ->
      exists m pos, generate2 X0 Y0 X1 Y1 NX NY i0 j0 nx ny = Ok m /\
        regular_block2 (NX, NY, 1) (i0, j0, 0) (i0 + wx, j0 + wy, 0) (fun '(x, y, _) => (grid_point X0 X1 NX x, grid_point Y0 Y1 NY y, 0%R)) gv ge gf m pos.
Proof.
  intros NX NY PX PY O N. exists (num_vert2 NY), (num_edge2 NY), (num_face2 NY).
  split; [now apply numbers_vert2|]. split; [|split; [now apply numbers_face2|]].
  - replace (NX * (NY + 1) + (NX + 1) * NY) with (NX * (NY + (NY + 1)) + NY) by nia. now apply numbers_edge2.
  - intros X0 Y0 X1 Y1 i0 j0 nx ny wx wy DX DY Wx Wy Bx By.
    destruct (@gen2_ok X0 Y0 X1 Y1 NX NY i0 j0 wx wy PX PY Bx By Wx Wy) as (m & pos & E & R). exists m, pos. split; auto.
    rewrite <- E. unfold generate2. replace (defaulted nx NX) with (defaulted wx NX). replace (defaulted ny NY) with (defaulted wy NY). reflexivity.
    + destruct DY as [<- |(-> & ->)]; unfold defaulted; cbn; destruct (NY =? 0); auto; destruct ny; auto.
    + destruct DX as [<- |(-> & ->)]; unfold defaulted; cbn; destruct (NX =? 0); auto; destruct nx; auto.
Qed.
Print Assumptions c84_regular_mesh_2d.

(** what every rank has *)
Lemma mstk2_blocks fuel NX NY np : 0 < NX -> 0 < NY -> 1 <= np <= NX * NY -> np < fuel ->
  exists lo hi : nat -> gpos,
    (forall r, r < np -> forall d, d < 3 -> at_axis (hi r) d <= at_axis (NX, NY, 0) d) /\
    (forall p, in_box (0, 0, 0) (NX, NY, 0) p -> in_box (0, 0, 0) (NX, NY, 0) (next 1 (next 0 p)) ->
       exists! r, r < np /\ in_box (lo r) (hi r) p /\ in_box (lo r) (hi r) (next 1 (next 0 p))) /\
    forall X0 Y0 X1 Y1 r, r < np -> exists m pos, mstk_regular2 fuel X0 Y0 X1 Y1 NX NY np r = Ok m /\
      regular_block2 (NX, NY, 1) (lo r) (hi r) (gpoint2 X0 Y0 X1 Y1 NX NY) (num_vert2 NY) (num_edge2 NY) (num_face2 NY) m pos.
Proof.
  intros PX PY NP FU. destruct (Nat.eq_dec np 1) as [->|NE].
  - exists (fun _ => (0, 0, 0)), (fun _ => (NX, NY, 0)). split; [intros; lia|]. split.
    + intros p B B'. exists 0. split; [split; auto|]. intros r (L & _). lia.
    + intros X0 Y0 X1 Y1 r L. unfold mstk_regular2. cbn [Nat.eqb].
      destruct (@gen2_ok X0 Y0 X1 Y1 NX NY 0 0 NX NY PX PY ltac:(lia) ltac:(lia) PX PY) as (m & pos & E & R). exists m, pos. split; auto.
      rewrite <- E. unfold generate2, defaulted. cbn. destruct (NX =? 0), (NY =? 0); auto.
  - pose (cells := V3 (Z.of_nat NX) (Z.of_nat NY) 0).
    assert (valid_grid 2 cells) as V. { split; [lia|]. intros d L. destruct d as [|[|d]]; [| |lia]; cbn; lia. }
    assert (1 <= Z.of_nat np <= grid_cells 2 cells)%Z as RQ. { unfold grid_cells. cbn [seq map fold_right get cells v0 v1 v2]. nia. }
    destruct (@c01_block_count 2 cells (Z.of_nat np) fuel V RQ ltac:(lia)) as (blocks & EB & LB). pose proof (@c02_blocks_tile 2 cells (Z.of_nat np) fuel blocks V RQ ltac:(lia) EB) as T.
    assert (length blocks = np) as LN by lia. clear LB.
    pose (bk := fun r => nth r blocks blank_block).
    assert (forall r, r < np -> nth_error blocks r = Some (bk r)) as NB. { intros r L. apply nth_error_nth'. lia. }
    assert (forall r, r < np -> In (bk r) blocks) as IB. { intros r L. eapply nth_error_In, NB, L. }
    assert (forall r, r < np -> forall d, d < 2 -> (0 <= get d (start (bk r)) /\ 1 <= get d (num (bk r)) /\ get d (start (bk r)) + get d (num (bk r)) <= get d cells)%Z) as BD.
    { intros r L d Ld. pose proof (tl_nonempty _ _ _ T (bk r) (IB r L)) as NEr.
      pose proof (tl_inside _ _ _ T (bk r) (fun d => get d (start (bk r))) (IB r L)) as I1. pose proof (tl_inside _ _ _ T (bk r) (fun d => get d (start (bk r)) + get d (num (bk r)) - 1)%Z (IB r L)) as I2.
      assert (in_block 2 (bk r) (fun d => get d (start (bk r)))) as B1. { intros e Le. specialize (NEr e Le). cbn beta. lia. }
      assert (in_block 2 (bk r) (fun d => get d (start (bk r)) + get d (num (bk r)) - 1)%Z) as B2. { intros e Le. specialize (NEr e Le). cbn beta. lia. }
      specialize (I1 B1 d Ld). specialize (I2 B2 d Ld). specialize (NEr d Ld). cbn beta in *. lia. }
    pose (z := fun d v => Z.to_nat (get d v)).
    exists (fun r => (z 0 (start (bk r)), z 1 (start (bk r)), 0)), (fun r => (z 0 (start (bk r)) + z 0 (num (bk r)), z 1 (start (bk r)) + z 1 (num (bk r)), 0)).
    split; [|split].
    + intros r L d Ld. le2 d; [pose proof (BD r L 0 ltac:(lia)) as H|pose proof (BD r L 1 ltac:(lia)) as H|auto]; cbn [at_axis fst snd get cells v0 v1 v2] in *; unfold z; cbn [get] in *; lia.
    + intros ((x, y), w) B B'. cbn [next] in *. apply in_box3 in B, B'. assert (w = 0) as -> by lia. pose (p := fun d => Z.of_nat (at_axis (x, y, 0) d)).
      assert (forall r, r < np -> (in_block 2 (bk r) p <-> in_box (z 0 (start (bk r)), z 1 (start (bk r)), 0) (z 0 (start (bk r)) + z 0 (num (bk r)), z 1 (start (bk r)) + z 1 (num (bk r)), 0) (x, y, 0) /\
         in_box (z 0 (start (bk r)), z 1 (start (bk r)), 0) (z 0 (start (bk r)) + z 0 (num (bk r)), z 1 (start (bk r)) + z 1 (num (bk r)), 0) (x + 1, y + 1, 0))) as IBX.
      { intros r L. rewrite !in_box3. pose proof (BD r L 0 ltac:(lia)) as H0. pose proof (BD r L 1 ltac:(lia)) as H1. unfold z. split.
        - intros H. pose proof (H 0 ltac:(lia)) as G0. pose proof (H 1 ltac:(lia)) as G1. unfold p in *. cbn [at_axis fst snd] in *. lia.
        - intros H d Ld. unfold p. destruct d as [|[|d]]; [| |lia]; cbn [at_axis fst snd]; lia. }
      destruct (tl_cover _ _ _ T p) as (r & (b & Nb & Hb) & U). { intros d Ld. unfold p. destruct d as [|[|d]]; [| |lia]; cbn; lia. }
      assert (r < np) as L by (rewrite <- LN; apply nth_error_Some; congruence). pose proof (NB r L) as NB'. rewrite Nb in NB'. injection NB' as ->. exists r. split; [split; auto; now apply IBX|].
      intros r' (L' & H'). apply U. exists (bk r'). split; [now apply NB|]. now apply IBX.
    + intros X0 Y0 X1 Y1 r L. unfold mstk_regular2. replace (np =? 1) with false by (symmetry; now apply Nat.eqb_neq). fold cells. rewrite EB. cbn [bind].
      assert (rd blocks r = Ok (bk r)) as -> by (now apply rd_Ok, NB). cbn [bind].
      pose proof (BD r L 0 ltac:(lia)) as H0. pose proof (BD r L 1 ltac:(lia)) as H1. unfold z. cbn [get cells v0 v1 v2] in *. unfold cells in H0, H1. cbn [v0 v1 v2] in *.
      apply gen2_ok; auto; lia.
Qed.
(** C84: over all processors the cells are numbered 1, 2, ... without repetition. *)
Theorem c84_cells_once_2d : forall fuel X0 Y0 X1 Y1 NX NY np, 0 < NX -> 0 < NY -> 1 <= np <= NX * NY -> np < fuel ->
  exists mesh : nat -> mmesh2, (forall r, r < np -> mstk_regular2 fuel X0 Y0 X1 Y1 NX NY np r = Ok (mesh r)) /\
    Permutation (flat_map (fun r => map mf_glob (m2_faces (mesh r))) (seq 0 np)) (seq 1 (NX * NY)).
Proof.
  intros fuel X0 Y0 X1 Y1 NX NY np PX PY NP FU. destruct (@mstk2_blocks fuel NX NY np PX PY NP FU) as (lo & hi & IN & U & H).
  pose (mesh := fun r => match mstk_regular2 fuel X0 Y0 X1 Y1 NX NY np r with Ok m => m | _ => MMesh2 [] [] [] end).
  assert (forall r, r < np -> mstk_regular2 fuel X0 Y0 X1 Y1 NX NY np r = Ok (mesh r)) as OK. { intros r L. unfold mesh. destruct (H X0 Y0 X1 Y1 r L) as (m & pos & -> & _). reflexivity. }
  exists mesh. split; auto. destruct (numbers_face2 PX PY) as (NB & NI & NS).
  assert (forall r, r < np -> exists gs, map mf_glob (m2_faces (mesh r)) = map (num_face2 NY) gs /\ exactly gs (is_square (lo r) (hi r))) as GS.
  { intros r L. destruct (H X0 Y0 X1 Y1 r L) as (m & pos & E & R). rewrite OK in E by auto. injection E as <-.
    pose (unring := fun l : list (list gpos) => map (fun s => hd (0, 0, 0) s) l).
    assert (forall s, is_square (lo r) (hi r) s -> unring (ring s) = s) as UR. { intros s (d & e & p & _ & _ & _ & _ & ->). reflexivity. }
    pose (sd := fun f => map (side_of (m2_edges (mesh r)) pos) (mf_edges f)).
    exists (map (fun f => unring (sd f)) (m2_faces (mesh r))). pose proof (r2_faces R) as (ND & X). fold sd in ND, X. split.
    - rewrite map_map. apply map_ext_in. intros f I. destruct (proj1 (X (sd f))) as (s & IS & ES). { apply in_map_iff. exists f. auto. } rewrite ES, UR by auto. apply (r2_face R f s I ES).
    - split.
      + rewrite <- (map_map sd unring). assert (forall l, In l (map sd (m2_faces (mesh r))) -> exists s, is_square (lo r) (hi r) s /\ l = ring s) as Y by (intros l I; now apply X). revert ND Y. generalize (map sd (m2_faces (mesh r))). clear - UR.
        induction l as [|g gs IH]; intros ND Y; cbn [map]; [constructor|]. inversion ND as [|? ? Na Nl]; subst. constructor.
        * intros J. apply in_map_iff in J as (g' & E & J). destruct (Y g) as (s & I1 & ->); [now left|]. destruct (Y g') as (s' & I2 & ->); [now right|]. rewrite !UR in E by auto. subst. auto.
        * apply IH; auto. intros; apply Y; now right.
      + intros s. rewrite <- (map_map sd unring), in_map_iff. split.
        * intros (l & <- & I). apply X in I as (s & I & ->). now rewrite UR.
        * intros I. exists (ring s). split; auto. apply X. eauto. }
  assert (forall r, r < np -> forall d, d < 3 -> at_axis (0, 0, 0) d <= at_axis (lo r) d /\ at_axis (hi r) d <= at_axis (NX, NY, 0) d) as INC. { intros r L d Ld. split; [destruct d as [|[|d]]; cbn; lia|]. now apply IN. }
  assert (forall s, in_box (0, 0, 0) (NX, NY, 0) (nth 2 s (0, 0, 0)) -> forall d e p, d < e -> e < 3 -> s = [p; next d p; next e (next d p); next e p] -> d = 0 /\ e = 1) as FLAT.
  { intros s B d e ((x, y), w) Lde Le ->. cbn [nth] in B. assert (d = 1 /\ e = 2 \/ d = 0 /\ e = 2 \/ d = 0 /\ e = 1) as [(-> & ->)|[(-> & ->)|(-> & ->)]] by lia; auto; cbn [next] in B; apply in_box3 in B; lia. }
  apply NoDup_Permutation; [|apply seq_NoDup|].
  - apply NoDup_flat; [apply seq_NoDup| |].
    + intros r I. apply in_seq in I. destruct (GS r ltac:(lia)) as (gs & -> & (ND & X)). assert (forall x, In x gs -> is_square (0, 0, 0) (NX, NY, 0) x) as Y. { intros x Ix. apply square_incl with (lo r) (hi r); [apply INC; lia|now apply X]. }
      clear - ND NI Y. induction gs as [|g gs IH]; cbn [map]; [constructor|]. inversion ND as [|? ? Na Nl]; subst. constructor.
      * intros J. apply in_map_iff in J as (g' & E & J). apply Na. rewrite <- (NI g' g); auto. apply Y; now right. apply Y; now left.
      * apply IH; auto. intros; apply Y; now right.
    + intros r r' g I I' J J'. apply in_seq in I, I'. destruct (GS r ltac:(lia)) as (gs & E & (_ & X)). destruct (GS r' ltac:(lia)) as (gs' & E' & (_ & X')). rewrite E in J. rewrite E' in J'.
      apply in_map_iff in J as (c & <- & J). apply in_map_iff in J' as (c' & EE & J'). apply X in J. apply X' in J'.
      assert (c' = c) as ->. { apply NI; auto. - eapply square_incl; [|exact J']. apply INC; lia. - eapply square_incl; [|exact J]. apply INC; lia. }
      destruct J as (d & e & p & L1 & L2 & B & B' & EC). destruct J' as (d' & e' & q & L1' & L2' & C & C' & EC'). rewrite EC in EC'. injection EC' as <- _ Q _. rewrite <- Q in C'.
      assert (in_box (0, 0, 0) (NX, NY, 0) (next e (next d p))) as BB by (eapply box_incl; [|exact B']; apply INC; lia).
      assert (d = 0 /\ e = 1) as (-> & ->). { apply (FLAT c) with p; auto. rewrite EC. auto. }
      destruct (U p) as (r0 & _ & UU); auto. { eapply box_incl; [|exact B]. apply INC; lia. }
      transitivity r0; [symmetry|]; apply UU; (split; [lia|split; auto]).
  - intros g. rewrite in_flat_map, in_seq. split.
    + intros (r & I & J). apply in_seq in I. destruct (GS r ltac:(lia)) as (gs & E & (_ & X)). rewrite E in J. apply in_map_iff in J as (c & <- & J). apply X in J. assert (is_square (0, 0, 0) (NX, NY, 0) c) as Y by (eapply square_incl; [|exact J]; apply INC; lia). apply NB in Y. lia.
    + intros L. destruct (NS g) as (c & C & <-); [lia|]. assert (is_square (0, 0, 0) (NX, NY, 0) c) as C0 by exact C. destruct C as (d & e & p & L1 & L2 & B & B' & EC).
      assert (d = 0 /\ e = 1) as (-> & ->) by (apply (FLAT c) with p; auto; rewrite EC; auto).
      destruct (U p B B') as (r & (Lr & C1 & C2) & _). exists r. split; [apply in_seq; lia|]. destruct (GS r Lr) as (gs & -> & (_ & X)). apply in_map. apply X. exists 0, 1, p. auto 8.
Qed.
Print Assumptions c84_cells_once_2d.

(** C84: two processors have the same global id for nodes exactly when they are at the same point, and for edges exactly when they join
    the same two points (in some order) *)
Theorem c84_shared_entities_2d : forall fuel X0 Y0 X1 Y1 NX NY np r r' m m',
  (X0 < X1)%R -> (Y0 < Y1)%R -> 0 < NX -> 0 < NY -> 1 <= np <= NX * NY -> np < fuel -> r < np -> r' < np ->
  mstk_regular2 fuel X0 Y0 X1 Y1 NX NY np r = Ok m -> mstk_regular2 fuel X0 Y0 X1 Y1 NX NY np r' = Ok m' ->
  (forall v v', In v (m2_verts m) -> In v' (m2_verts m') -> (mv_glob v = mv_glob v' <-> mv_xyz v = mv_xyz v')) /\
  (forall e e', In e (m2_edges m) -> In e' (m2_edges m') -> let l := points (m2_verts m) (me_verts e) in let l' := points (m2_verts m') (me_verts e') in
     (me_glob e = me_glob e' <-> l = l' \/ l = rev l')).
Proof.
  intros fuel X0 Y0 X1 Y1 NX NY np r r' m m' LX LY PX PY NP FU Lr Lr' E E'.
  destruct (@mstk2_blocks fuel NX NY np PX PY NP FU) as (lo & hi & IN & _ & H).
  destruct (H X0 Y0 X1 Y1 r Lr) as (m0 & pos & E0 & R). rewrite E in E0. injection E0 as <-. destruct (H X0 Y0 X1 Y1 r' Lr') as (m0 & pos' & E0 & R'). rewrite E' in E0. injection E0 as <-.
  assert (forall r, r < np -> forall d, d < 3 -> at_axis (0, 0, 0) d <= at_axis (lo r) d /\ at_axis (hi r) d <= at_axis (NX, NY, 0) d) as INC. { intros q L d Ld. split; [destruct d as [|[|d]]; cbn; lia|]. now apply IN. }
  assert (forall p q, at_axis p 2 = at_axis q 2 -> gpoint2 X0 Y0 X1 Y1 NX NY p = gpoint2 X0 Y0 X1 Y1 NX NY q -> p = q) as PI.
  { intros ((x, y), z) ((x', y'), z') Z Q. unfold gpoint2 in Q. injection Q as Q1 Q2. apply grid_point_inj in Q1, Q2; auto. cbn in Z. congruence. }
  assert (forall p, in_box (0, 0, 0) (NX, NY, 0) p -> at_axis p 2 = 0) as Z2. { intros p B. specialize (B 2 ltac:(lia)). cbn [at_axis snd] in *. lia. }
  assert (forall h, h < length (m2_verts m) -> is_node (0, 0, 0) (NX, NY, 0) [pos h]) as ND. { intros h L. eapply node_incl; [apply (INC r Lr)|]. apply (r2_nodes R). apply in_map_iff. exists h. split; auto. apply in_seq. lia. }
  assert (forall h, h < length (m2_verts m') -> is_node (0, 0, 0) (NX, NY, 0) [pos' h]) as ND'. { intros h L. eapply node_incl; [apply (INC r' Lr')|]. apply (r2_nodes R'). apply in_map_iff. exists h. split; auto. apply in_seq. lia. }
  assert (forall p, is_node (0, 0, 0) (NX, NY, 0) [p] -> at_axis p 2 = 0) as Z2'. { intros p (q & B & Q). injection Q as ->. auto. }
  assert (forall h, h < length (m2_verts m) -> option_map mv_xyz (nth_error (m2_verts m) h) = Some (gpoint2 X0 Y0 X1 Y1 NX NY (pos h))) as PT.
  { intros h L. destruct (nth_error (m2_verts m) h) as [v|] eqn:G; [cbn; f_equal; apply (r2_node R _ G)|]. apply nth_error_None in G. lia. }
  assert (forall h, h < length (m2_verts m') -> option_map mv_xyz (nth_error (m2_verts m') h) = Some (gpoint2 X0 Y0 X1 Y1 NX NY (pos' h))) as PT'.
  { intros h L. destruct (nth_error (m2_verts m') h) as [v|] eqn:G; [cbn; f_equal; apply (r2_node R' _ G)|]. apply nth_error_None in G. lia. }
  split.
  - intros v v' I I'. apply In_nth_error in I as (h & I). apply In_nth_error in I' as (h' & I'). destruct (r2_node R _ I) as (-> & -> & _). destruct (r2_node R' _ I') as (-> & -> & _).
    destruct (numbers_vert2 PX PY) as (_ & NI & _). assert (h < length (m2_verts m)) by (apply nth_error_Some; congruence). assert (h' < length (m2_verts m')) by (apply nth_error_Some; congruence). split; intros Q.
    + assert ([pos h] = [pos' h']) as QQ by (apply NI; auto). injection QQ as ->. reflexivity.
    + apply PI in Q; [now rewrite Q|]. rewrite !Z2'; auto.
  - intros e e' I I' l l'. destruct (numbers_edge2 PX PY) as (_ & NI & _).
    assert (is_edge (lo r) (hi r) (undirected (map pos (me_verts e)))) as IE. { apply (r2_edges R). now apply (in_map (fun e => undirected (map pos (me_verts e)))). }
    assert (is_edge (lo r') (hi r') (undirected (map pos' (me_verts e')))) as IE'. { apply (r2_edges R'). now apply (in_map (fun e => undirected (map pos' (me_verts e)))). }
    destruct (r2_edge R e I) as (G & _). destruct (r2_edge R' e' I') as (G' & _). cbv zeta in G, G'.
    assert (exists a b, me_verts e = [a; b]) as (a & b & V). { destruct IE as (d & p & _ & _ & _ & Q). destruct (me_verts e) as [|a [|b [|c t]]]; cbn in Q; try discriminate; eauto; exfalso; [destruct (pos a) as ((?, ?), ?)|destruct (pos a) as ((?, ?), ?), (pos b) as ((?, ?), ?)]; cbn in Q; discriminate. }
    assert (exists a b, me_verts e' = [a; b]) as (a' & b' & V'). { destruct IE' as (d & p & _ & _ & _ & Q). destruct (me_verts e') as [|a' [|b' [|c t]]]; cbn in Q; try discriminate; eauto; exfalso; [destruct (pos' a') as ((?, ?), ?)|destruct (pos' a') as ((?, ?), ?), (pos' b') as ((?, ?), ?)]; cbn in Q; discriminate. }
    assert (a < length (m2_verts m)) as La by (apply (r2_handles R); apply in_flat_map; exists e; rewrite V; cbn; auto). assert (b < length (m2_verts m)) as Lb by (apply (r2_handles R); apply in_flat_map; exists e; rewrite V; cbn; auto).
    assert (a' < length (m2_verts m')) as La' by (apply (r2_handles R'); apply in_flat_map; exists e'; rewrite V'; cbn; auto). assert (b' < length (m2_verts m')) as Lb' by (apply (r2_handles R'); apply in_flat_map; exists e'; rewrite V'; cbn; auto).
    unfold l, l', points. rewrite V, V' in *. cbn [map rev app] in *. rewrite !PT, !PT' by auto. rewrite G, G'. split.
    + intros Q. apply NI in Q; [|eapply edge_incl; [|exact IE]; now apply INC|eapply edge_incl; [|exact IE']; now apply INC]. apply und_inj in Q as [(-> & ->)|(-> & ->)]; auto.
    + assert (forall p q, In p [pos a; pos b] -> In q [pos' a'; pos' b'] -> gpoint2 X0 Y0 X1 Y1 NX NY p = gpoint2 X0 Y0 X1 Y1 NX NY q -> p = q) as K.
      { intros p q J J'. apply PI. destruct J as [<-|[<-|[]]], J' as [<-|[<-|[]]]; rewrite !Z2'; auto. }
      intros [Q|Q]; injection Q as Q1 Q2; apply K in Q1, Q2; cbn [In]; auto; rewrite Q1, Q2; auto.
      f_equal. destruct IE' as (d & p & Ld & _ & _ & Q). destruct (und_cases (pos' a') (pos' b')) as [W|W]; rewrite W in Q; injection Q as -> ->; rewrite ?und_next, ?und_prev; auto.
Qed.
Print Assumptions c84_shared_entities_2d.

(** Non-vacuity: the second of two processors on a 2x1x1 grid, and of two on a 2x1 grid *)
Example c84_example_3d : forall X0 Y0 Z0 X1 Y1 Z1, exists m, mstk_regular3 20 X0 Y0 Z0 X1 Y1 Z1 2 1 1 2 1 = Ok m /\
  map mr_glob (m_regs m) = [2] /\ map me_glob (m_faces m) = [6; 11; 7; 8; 9; 10] /\ map me_glob (m_edges m) = [9; 10; 17; 18; 11; 12; 19; 20; 13; 15; 14; 16] /\
  map (fun f => (me_gdim f, me_gid f)) (m_faces m) = [(3, 1); (2, 5); (2, 1); (2, 2); (2, 3); (2, 4)] /\ map mv_glob (m_verts m) = [5; 6; 7; 8; 9; 10; 11; 12].
Proof. intros. eexists. split; [vm_compute; reflexivity|]. cbn. repeat split. Qed.
Example c84_example_2d : forall X0 Y0 X1 Y1, exists m, mstk_regular2 20 X0 Y0 X1 Y1 2 1 2 1 = Ok m /\
  map mf_glob (m2_faces m) = [2] /\ map mf_edges (m2_faces m) = [[(0, true); (1, true); (2, true); (3, true)]] /\ map me_glob (m2_edges m) = [5; 7; 6; 4] /\
  map (fun e => (me_gdim e, me_gid e)) (m2_edges m) = [(1, 1); (1, 2); (1, 3); (2, 1)].
Proof. intros. eexists. split; [vm_compute; reflexivity|]. cbn. repeat split. Qed.
Example c84_hypotheses_met : 0 < 2 /\ 0 < 1 /\ 1 <= 2 <= 2 * 1 * 1 /\ 2 < 20 /\ (0 < 1)%R.
Proof. repeat split; try lia. lra. Qed.
