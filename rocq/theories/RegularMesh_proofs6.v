(** The 2D generator makes the block of the grid it is asked for: the whole. *)
From Coq Require Import Reals Permutation Lra.
From Verif Require Import Base Loop MeshSet_proofs Cache_proofs RegularMesh RegularMesh_spec RegularMesh_proofs RegularMesh_proofs2 RegularMesh_proofs3 RegularMesh_proofs4 RegularMesh_proofs5.
Set Implicit Arguments.

Ltac spl := repeat match goal with |- _ /\ _ => split end; try reflexivity; solve [apply in_box3; lia|lia].
(** ** numbers of the entities of the whole grid *)
Section Numbers2.
Variables NX NY : nat.
Hypotheses (PX : 0 < NX) (PY : 0 < NY).
Definition num_vert2 (l : list gpos) : nat := match l with (x, y, _) :: _ => x * (NY + 1) + y + 1 | [] => 0 end.
Definition num_edge2 (l : list gpos) : nat :=
  match l with (x, y, _) :: (x', y', _) :: _ => if x <? x' then x * (NY + (NY + 1)) + NY + y + 1 else x * (NY + (NY + 1)) + y + 1 | _ => 0 end.
Definition num_face2 (l : list gpos) : nat := match l with (x, y, _) :: _ => x * NY + y + 1 | [] => 0 end.
Let O : gpos := (0, 0, 0).
Let N : gpos := (NX, NY, 0).
Lemma numbers_vert2 : numbers (is_node O N) num_vert2 ((NX + 1) * (NY + 1)).
Proof.
  split; [|split].
  - intros l (((x, y), z) & B & ->). apply in_box3 in B. cbn [num_vert2]. pose proof (@radix2_lt (NY + 1) (NX + 1) x y ltac:(lia) ltac:(lia)). lia.
  - intros l l' (((x, y), z) & B & ->) (((x', y'), z') & B' & ->) E. apply in_box3 in B, B'. cbn [num_vert2] in E. destruct (@radix_inj (NY + 1) x y x' y') as (-> & ->); [lia|lia|lia|]. repeat f_equal. lia.
  - intros i Hi. destruct (@radix2_ex (NY + 1) (NX + 1) (i - 1)) as (x & y & E & Lx & Ly); [lia|]. exists [(x, y, 0)]. split; [exists (x, y, 0); split; auto; apply in_box3; lia|]. cbn [num_vert2]. lia.
Qed.
Lemma square2_cases l : is_square O N l -> exists x y, l = [(x, y, 0); (x + 1, y, 0); (x + 1, y + 1, 0); (x, y + 1, 0)] /\ x < NX /\ y < NY.
Proof.
  intros (d & e & ((x, y), z) & L & L' & B & B' & ->). exists x, y. assert (d = 1 /\ e = 2 \/ d = 0 /\ e = 2 \/ d = 0 /\ e = 1) as [(-> & ->)|[(-> & ->)|(-> & ->)]] by lia;
  cbn [next] in *; apply in_box3 in B, B'; try lia. assert (z = 0) as -> by lia. repeat split; lia.
Qed.
Lemma numbers_face2 : numbers (is_square O N) num_face2 (NX * NY).
Proof.
  split; [|split].
  - intros l I. destruct (square2_cases I) as (x & y & -> & Lx & Ly). cbn [num_face2]. pose proof (radix2_lt Lx Ly). lia.
  - intros l l' I I' E. destruct (square2_cases I) as (x & y & -> & Lx & Ly). destruct (square2_cases I') as (x' & y' & -> & Lx' & Ly'). cbn [num_face2] in E. destruct (@radix_inj NY x y x' y') as (-> & ->); auto. lia.
  - intros i Hi. destruct (@radix2_ex NY NX (i - 1)) as (x & y & E & Lx & Ly); [lia|]. exists [(x, y, 0); next 0 (x, y, 0); next 1 (next 0 (x, y, 0)); next 1 (x, y, 0)]. split.
    + exists 0, 1, (x, y, 0). cbn [next]. spl. + cbn [num_face2 next]. lia.
Qed.
Lemma edge2_cases l : is_edge O N l -> exists x y,
  (l = [(x, y, 0); (x, y + 1, 0)] /\ x <= NX /\ y < NY /\ num_edge2 l = x * (NY + (NY + 1)) + y + 1) \/
  (l = [(x, y, 0); (x + 1, y, 0)] /\ x < NX /\ y < NY + 1 /\ num_edge2 l = x * (NY + (NY + 1)) + (NY + y) + 1).
Proof.
  intros (d & ((x, y), z) & L & B & B' & ->). exists x, y. le2 d; cbn [next] in *; apply in_box3 in B, B'; cbn [num_edge2]; try lia.
  - right. replace (x <? x + 1) with true by (symmetry; apply Nat.ltb_lt; lia). assert (z = 0) as -> by lia. repeat split; lia.
  - left. rewrite Nat.ltb_irrefl. assert (z = 0) as -> by lia. repeat split; lia.
Qed.
Lemma numbers_edge2 : numbers (is_edge O N) num_edge2 (NX * (NY + (NY + 1)) + NY).
Proof.
  split; [|split].
  - intros l I. destruct (edge2_cases I) as (x & y & [(_ & Lx & Ly & ->)|(_ & Lx & Ly & ->)]).
    + assert (x * (NY + (NY + 1)) <= NX * (NY + (NY + 1))) by (apply Nat.mul_le_mono_r; lia). lia.
    + assert ((x + 1) * (NY + (NY + 1)) <= NX * (NY + (NY + 1))) by (apply Nat.mul_le_mono_r; lia). lia.
  - intros l l' I I' E. destruct (edge2_cases I) as (x & y & [(-> & Lx & Ly & W)|(-> & Lx & Ly & W)]); destruct (edge2_cases I') as (x' & y' & [(-> & Lx' & Ly' & W')|(-> & Lx' & Ly' & W')]);
    rewrite W, W' in E; clear W W'; apply Nat.add_cancel_r in E; (apply radix_inj in E as (-> & E'); [|lia|lia]); try (exfalso; lia).
    + now subst. + assert (y = y') as -> by lia. auto.
  - intros i Hi. destruct (@radix_ex (NY + (NY + 1)) NX NY (i - 1)) as (x & r & E & Lr & C); [lia|lia|lia|]. destruct (Nat.lt_ge_cases r NY) as [H|H].
    + exists [(x, r, 0); next 1 (x, r, 0)]. split; [exists 1, (x, r, 0); cbn [next]; spl|]. cbn [next num_edge2]. rewrite Nat.ltb_irrefl. lia.
    + exists [(x, r - NY, 0); next 0 (x, r - NY, 0)]. split; [exists 0, (x, r - NY, 0); cbn [next]; spl|]. cbn [next num_edge2]. replace (x <? x + 1) with true by (symmetry; apply Nat.ltb_lt; lia). lia.
Qed.
End Numbers2.

Section Whole2.
Variables (X0 Y0 X1 Y1 : R) (NX NY i0 j0 nx ny : nat).
Hypotheses (PX : 0 < NX) (PY : 0 < NY) (BX : i0 + nx <= NX) (BY : j0 + ny <= NY).
Let N : gpos := (NX, NY, 1).
Let lo : gpos := (i0, j0, 0).
Let hi : gpos := (i0 + nx, j0 + ny, 0).
Let sh := shift i0 j0 0.
Let keys := grid3 (nx + 1) (ny + 1) 1.
Let pos := node_of i0 j0 0 keys.
Let nv := length keys.
Definition gpoint2 (p : gpos) : R * R * R := let '(x, y, _) := p in (grid_point X0 X1 NX x, grid_point Y0 Y1 NY y, 0%R).

Lemma pos_inj a b : a < nv -> b < nv -> pos a = pos b -> a = b.
Proof.
  intros La Lb E. apply shift_inj in E. eapply NoDup_nth; [apply (NoDup_grid3 (nx + 1) (ny + 1) 1)|exact La|exact Lb|exact E].
Qed.
Lemma vh2 i j : i < nx + 1 -> j < ny + 1 -> exists h, vert_handle keys i j 0 = Ok h /\ pos h = (i0 + i, j0 + j, 0) /\ h < nv.
Proof.
  intros Li Lj. destruct (@vert_handle_ok keys i j 0) as (h & E & Nh). { apply in_grid3. lia. }
  exists h. split; auto. unfold pos, node_of. rewrite (nth_error_nth _ _ _ Nh). split; [reflexivity|]. unfold nv. apply nth_error_Some. intros X. pose proof (eq_trans (eq_sym Nh) X). discriminate.
Qed.
Definition axis2 (g n : nat) : nat := if g =? 0 then 0 else if g =? n then 2 else 1.
Lemma axis2_ok g n : 0 < n -> g <= n -> axis2 g n <= 2 /\ (g = 0 <-> axis2 g n = 0) /\ (g = n <-> axis2 g n = 2).
Proof. intros P L. unfold axis2. destruct (Nat.eqb_spec g 0), (Nat.eqb_spec g n); lia. Qed.
Ltac fixed g := apply ax_const with g; auto; [discriminate| |]; [intros p I; repeat (destruct I as [<-|I]; [reflexivity|]); destruct I|].
Lemma gen_vert2_ok i j : i < nx + 1 -> j < ny + 1 -> exists v, gen_vert2 X0 Y0 X1 Y1 NX NY i0 j0 i j = Ok ((i, j, 0), v) /\
  mv_xyz v = gpoint2 (sh (i, j, 0)) /\ mv_glob v = num_vert2 NY [sh (i, j, 0)] /\ classified_in model2 N (mv_gdim v) (mv_gid v) [sh (i, j, 0)].
Proof.
  intros Li Lj. unfold gen_vert2. destruct (@axis2_ok (i0 + i) NX) as (LA & A0 & A2); [lia|lia|]. destruct (@axis2_ok (j0 + j) NY) as (LB & B0 & B2); [lia|lia|].
  assert (exists gdim gid, (if i0 + i =? 0 then if j0 + j =? 0 then (0, 1) else if j0 + j =? NY then (0, 4) else (1, 4)
    else if i0 + i =? NX then if j0 + j =? 0 then (0, 2) else if j0 + j =? NY then (0, 3) else (1, 2)
    else if j0 + j =? 0 then (1, 1) else if j0 + j =? NY then (1, 3) else (2, 1)) = (gdim, gid) /\ check_in model2 (st3 (axis2 (i0 + i) NX) (axis2 (j0 + j) NY) 0) gdim gid = true) as (gdim & gid & -> & C).
  { unfold axis2. destruct (i0 + i =? 0), (i0 + i =? NX), (j0 + j =? 0), (j0 + j =? NY); do 2 eexists; (split; [reflexivity|vm_compute; reflexivity]). }
  eexists. split; [reflexivity|]. cbn [mv_xyz mv_glob mv_gdim mv_gid sh shift gpoint2 num_vert2 Nat.add]. rewrite !coord_grid by lia. split; auto. split; auto.
  eapply check_in_ok; [|exact C]. intros d Ld. le2 d; cbn [st3].
  - apply ax_const with (i0 + i); auto; [discriminate|]. intros p [<-|[]]. reflexivity.
  - apply ax_const with (j0 + j); auto; [discriminate|]. intros p [<-|[]]. reflexivity.
  - apply ax_const with 0; auto; [discriminate| |lia|cbn; lia]. intros p [<-|[]]. reflexivity.
Qed.

(** ** the cells *)
Definition square (p : gpos) : list gpos := [p; next 0 p; next 1 (next 0 p); next 1 p].
Let und (e : ment) := undirected (map pos (me_verts e)).
Let Good := edges_good N lo hi (num_edge2 NY) pos nv.
Definition cells_inv (cells : list triple) (st : list ment * list mface2) : Prop :=
  Good (fst st) /\ (forall x, In x (map und (fst st)) <-> exists c, In c cells /\ In x (map undirected (ring (square (sh c))))) /\
  Forall2 (fun c f => map (side_of (fst st) pos) (mf_edges f) = ring (square (sh c)) /\ mf_glob f = num_face2 NY (square (sh c)) /\ mf_gdim f = 2 /\ mf_gid f = 1) cells (snd st).
Ltac hor x y := apply check_in_ok with (s := st3 1 (axis2 y NY) 0).
Lemma class_h x y : x < NX -> y <= NY -> forall gdim gid, (gdim, gid) = (if y =? 0 then (1, 1) else if y =? NY then (1, 3) else (2, 1)) -> classified_in model2 N gdim gid [(x, y, 0); (x + 1, y, 0)].
Proof.
  intros Lx Ly gdim gid E. destruct (@axis2_ok y NY) as (LB & B0 & B2); [lia|lia|]. apply check_in_ok with (s := st3 1 (axis2 y NY) 0).
  - intros d Ld. le2 d; cbn [st3].
    + apply (@ax_mixed _ _ _ (x, y, 0) (x + 1, y, 0)); cbn [In at_axis fst snd]; auto. lia.
    + apply ax_const with y; auto; [discriminate|]. intros p [<-|[<-|[]]]; reflexivity.
    + apply ax_const with 0; auto; [discriminate| |lia|cbn; lia]. intros p [<-|[<-|[]]]; reflexivity.
  - unfold axis2. destruct (y =? 0), (y =? NY); injection E as -> ->; vm_compute; reflexivity.
Qed.
Lemma class_v x y : x <= NX -> y < NY -> forall gdim gid, (gdim, gid) = (if x =? 0 then (1, 4) else if x =? NX then (1, 2) else (2, 1)) -> classified_in model2 N gdim gid [(x, y, 0); (x, y + 1, 0)].
Proof.
  intros Lx Ly gdim gid E. destruct (@axis2_ok x NX) as (LB & B0 & B2); [lia|lia|]. apply check_in_ok with (s := st3 (axis2 x NX) 1 0).
  - intros d Ld. le2 d; cbn [st3].
    + apply ax_const with x; auto; [discriminate|]. intros p [<-|[<-|[]]]; reflexivity.
    + apply (@ax_mixed _ _ _ (x, y, 0) (x, y + 1, 0)); cbn [In at_axis fst snd]; auto. lia.
    + apply ax_const with 0; auto; [discriminate| |lia|cbn; lia]. intros p [<-|[<-|[]]]; reflexivity.
  - unfold axis2. destruct (x =? 0), (x =? NX); injection E as -> ->; vm_compute; reflexivity.
Qed.
Lemma class_rev M N' gdim gid (p q : gpos) : classified_in M N' gdim gid [p; q] -> classified_in M N' gdim gid [q; p].
Proof.
  assert (forall (P : gpos -> Prop) a b, (forall z, In z [a; b] -> P z) -> forall z, In z [b; a] -> P z) as K by (intros P a b H z [<-|[<-|[]]]; apply H; cbn; auto).
  intros ((vs & I & H) & F). split; [exists vs; split; [auto|exact (K _ p q H)]|]. intros d i ws J H'. apply (F d i ws J). exact (K _ q p H').
Qed.
Lemma gen_cell2_ok cells i j st : i < nx -> j < ny -> cells_inv cells st -> exists st', gen_cell2 NX NY i0 j0 keys i j st = Ok st' /\ cells_inv (cells ++ [(i, j, 0)]) st'.
Proof.
  intros Li Lj. destruct st as (es, fs). intros (G & U & F). cbn [fst snd] in *. unfold gen_cell2.
  destruct (@vh2 i j) as (a & -> & Pa & La); [lia|lia|]. destruct (@vh2 (i + 1) j) as (b & -> & Pb & Lb); [lia|lia|]. destruct (@vh2 (i + 1) (j + 1)) as (c & -> & Pc & Lc); [lia|lia|]. destruct (@vh2 i (j + 1)) as (d & -> & Pd & Ld); [lia|lia|].
  rewrite Nat.add_assoc in Pb, Pd. rewrite !Nat.add_assoc in Pc. cbn [bind].
  set (x := i0 + i) in *. set (y := j0 + j) in *. assert (x < NX) as Lx by (unfold x; lia). assert (y < NY) as Ly by (unfold y; lia).
  assert (forall dd p, dd < 2 -> p = (x, y, 0) \/ p = (x + 1, y, 0) /\ dd = 1 \/ p = (x, y + 1, 0) /\ dd = 0 -> is_edge lo hi [p; next dd p]) as IE.
  { intros dd p L H. exists dd, p. split; [lia|]. split; [|split; [|reflexivity]]; destruct H as [-> |[(-> & ->)|(-> & ->)]]; try (destruct dd as [|[|dd]]; [| |lia]); unfold lo, hi, x, y; cbn [next]; apply in_box3; lia. }
  assert (forall p, p <> next 0 p /\ p <> next 1 p) as NE. { intros ((p1, p2), p3). cbn. split; intros K; injection K; lia. }
  pose (g0 := if y =? 0 then (1, 1) else (2, 1)). pose (g1 := if x =? NX - 1 then (1, 2) else (2, 1)). pose (g2 := if y =? NY - 1 then (1, 3) else (2, 1)). pose (g3 := if x =? 0 then (1, 4) else (2, 1)).
  fold g0 g1 g2 g3.
  assert (classified_in model2 N (fst g0) (snd g0) [(x, y, 0); next 0 (x, y, 0)]) as C0.
  { apply class_h; [lia|lia|]. unfold g0. destruct (Nat.eqb_spec y 0), (Nat.eqb_spec y NY); auto; lia. }
  assert (classified_in model2 N (fst g1) (snd g1) [(x + 1, y, 0); next 1 (x + 1, y, 0)]) as C1.
  { apply class_v; [lia|lia|]. unfold g1. destruct (Nat.eqb_spec x (NX - 1)), (Nat.eqb_spec (x + 1) 0), (Nat.eqb_spec (x + 1) NX); auto; lia. }
  assert (classified_in model2 N (fst g2) (snd g2) [next 0 (x, y + 1, 0); (x, y + 1, 0)]) as C2.
  { apply class_rev. apply class_h; [lia|lia|]. unfold g2. destruct (Nat.eqb_spec y (NY - 1)), (Nat.eqb_spec (y + 1) 0), (Nat.eqb_spec (y + 1) NY); auto; lia. }
  assert (classified_in model2 N (fst g3) (snd g3) [next 1 (x, y, 0); (x, y, 0)]) as C3.
  { apply class_rev. apply class_v; [lia|lia|]. unfold g3. destruct (Nat.eqb_spec x 0), (Nat.eqb_spec x NX); auto; lia. }
  destruct (@cell_edge_ok N lo hi (num_edge2 NY) pos nv pos_inj es a b (x, y, 0) (next 0 (x, y, 0)) (fst g0) (snd g0) (x * NY + x * (NY + 1) + NY + y + 1)) as (t0 & s0 & -> & G0 & S0 & U0); auto.
  { apply NE. } { rewrite und_next by lia. apply IE; auto. } { rewrite und_next by lia. cbn [num_edge2 next]. replace (x <? x + 1) with true by (symmetry; apply Nat.ltb_lt; lia). lia. }
  cbn [bind fst snd].
  destruct (@cell_edge_ok N lo hi (num_edge2 NY) pos nv pos_inj (es ++ t0) b c (x + 1, y, 0) (next 1 (x + 1, y, 0)) (fst g1) (snd g1) (x * NY + x * (NY + 1) + NY + (NY + 1) + y + 1)) as (t1 & s1 & -> & G1 & S1 & U1); auto.
  { apply NE. } { rewrite und_next by lia. apply IE; auto. } { rewrite und_next by lia. cbn [num_edge2 next]. rewrite Nat.ltb_irrefl. lia. }
  cbn [bind fst snd].
  destruct (@cell_edge_ok N lo hi (num_edge2 NY) pos nv pos_inj ((es ++ t0) ++ t1) c d (next 0 (x, y + 1, 0)) (x, y + 1, 0) (fst g2) (snd g2) (x * NY + x * (NY + 1) + NY + y + 1 + 1)) as (t2 & s2 & -> & G2 & S2 & U2); auto.
  { intros K. symmetry in K. revert K. apply NE. } { rewrite und_prev by lia. apply IE; auto. } { rewrite und_prev by lia. cbn [num_edge2 next]. replace (x <? x + 1) with true by (symmetry; apply Nat.ltb_lt; lia). lia. }
  cbn [bind fst snd].
  destruct (@cell_edge_ok N lo hi (num_edge2 NY) pos nv pos_inj (((es ++ t0) ++ t1) ++ t2) d a (next 1 (x, y, 0)) (x, y, 0) (fst g3) (snd g3) (x * NY + x * (NY + 1) + y + 1)) as (t3 & s3 & -> & G3 & S3 & U3); auto.
  { intros K. symmetry in K. revert K. apply NE. } { rewrite und_prev by lia. apply IE; auto. } { rewrite und_prev by lia. cbn [num_edge2 next]. rewrite Nat.ltb_irrefl. lia. }
  cbn [bind fst snd]. eexists. split; [reflexivity|]. split; [exact G3|]. cbn [fst snd].
  assert (sh (i, j, 0) = (x, y, 0)) as SH by reflexivity. split.
  - intros z. unfold und in U |- *. rewrite U3, U2, U1, U0, U. split.
    + intros [[[[(c' & Ic & Iz)|E]|E]|E]|E]; [exists c'; split; auto; apply in_app_iff; auto| | | |]; (exists (i, j, 0); split; [apply in_app_iff; right; now left|]); rewrite SH, E; cbn; auto 6.
    + intros (c' & Ic & Iz). apply in_app_iff in Ic as [Ic|[<-|[]]]; [do 4 left; eauto|]. rewrite SH in Iz. destruct Iz as [<-|[<-|[<-|[<-|[]]]]]; auto.
  - apply Forall2_app.
    + clear - F. induction F as [|c f cs gs (H & H') F IH]; constructor; auto. split; auto. rewrite <- H. apply map_ext_in. intros s I.
      rewrite <- !app_assoc. apply side_of_mono; auto. intros K. assert (In [] (ring (square (sh c)))) as J. { rewrite <- H. apply in_map_iff. exists s. auto. }
      cbn in J. intuition discriminate.
    + constructor; [|constructor]. cbn [mf_edges mf_glob mf_gdim mf_gid]. split; [|rewrite SH; auto]. cbn [map]. rewrite S3, SH. cbn [square ring].
      repeat f_equal.
      * rewrite <- !app_assoc. rewrite app_assoc. apply side_of_mono; auto. discriminate.
      * rewrite <- (app_assoc _ t2 t3). apply side_of_mono; auto. discriminate.
      * apply side_of_mono; auto. discriminate.
Qed.
Lemma bind_ret A (x : outcome A) : (r <- x ;; Ok r) = x.
Proof. now destruct x. Qed.
Lemma edge_of_cell l : nx > 0 -> ny > 0 -> is_edge lo hi l <-> exists c, In c (grid3 nx ny 1) /\ In l (map undirected (ring (square (sh c)))).
Proof.
  intros Gx Gy. split.
  - intros (d & ((x, y), z) & L & B & B' & ->). unfold lo, hi in B, B'. le2 d; cbn [next] in *; apply in_box3 in B, B'; try lia; assert (z = 0) as -> by lia.
    + assert (y = j0 + ny \/ y < j0 + ny) as [E|E] by lia.
      * exists (x - i0, y - 1 - j0, 0). split; [apply in_grid3; lia|]. cbn [square ring sh shift next map]. right. right. left.
        change (i0 + (x - i0) + 1, j0 + (y - 1 - j0) + 1, 0 + 0) with (next 0 (i0 + (x - i0), j0 + (y - 1 - j0) + 1, 0 + 0)). rewrite und_prev by lia. cbn. repeat f_equal; lia.
      * exists (x - i0, y - j0, 0). split; [apply in_grid3; lia|]. cbn [square ring sh shift next map]. left.
        change (i0 + (x - i0) + 1, j0 + (y - j0), 0 + 0) with (next 0 (i0 + (x - i0), j0 + (y - j0), 0 + 0)). rewrite und_next by lia. cbn. repeat f_equal; lia.
    + assert (x = i0 + nx \/ x < i0 + nx) as [E|E] by lia.
      * exists (x - 1 - i0, y - j0, 0). split; [apply in_grid3; lia|]. cbn [square ring sh shift next map]. right. left.
        change (i0 + (x - 1 - i0) + 1, j0 + (y - j0) + 1, 0 + 0) with (next 1 (i0 + (x - 1 - i0) + 1, j0 + (y - j0), 0 + 0)). rewrite und_next by lia. cbn. repeat f_equal; lia.
      * exists (x - i0, y - j0, 0). split; [apply in_grid3; lia|]. cbn [square ring sh shift next map]. do 3 right. left.
        change (i0 + (x - i0), j0 + (y - j0) + 1, 0 + 0) with (next 1 (i0 + (x - i0), j0 + (y - j0), 0 + 0)). rewrite und_prev by lia. cbn. repeat f_equal; lia.
  - intros (((i, j), k) & I & J). apply in_grid3 in I. assert (k = 0) as -> by lia. cbn [sh shift square ring map] in J. rewrite Nat.add_0_l in J. set (x := i0 + i) in *. set (y := j0 + j) in *.
    destruct J as [<-|[<-|[<-|[<-|[]]]]].
    + rewrite und_next by lia. exists 0, (x, y, 0). unfold lo, hi, x, y. cbn [next]. spl.
    + change (next 1 (next 0 (x, y, 0))) with (next 1 (x + 1, y, 0)). change (next 0 (x, y, 0)) with (x + 1, y, 0). rewrite und_next by lia. exists 1, (x + 1, y, 0). unfold lo, hi, x, y. cbn [next]. spl.
    + change (next 1 (next 0 (x, y, 0))) with (next 0 (x, y + 1, 0)). change (next 1 (x, y, 0)) with (x, y + 1, 0). rewrite und_prev by lia. exists 0, (x, y + 1, 0). unfold lo, hi, x, y. cbn [next]. spl.
    + rewrite und_prev by lia. exists 1, (x, y, 0). unfold lo, hi, x, y. cbn [next]. spl.
Qed.
Lemma square_of_cell l : is_square lo hi l <-> exists i j k, i < nx /\ j < ny /\ k < 1 /\ l = square (sh (i, j, k)).
Proof.
  split.
  - intros (d & e & ((x, y), z) & L & L' & B & B' & ->). unfold lo, hi in B, B'. assert (d = 1 /\ e = 2 \/ d = 0 /\ e = 2 \/ d = 0 /\ e = 1) as [(-> & ->)|[(-> & ->)|(-> & ->)]] by lia;
    cbn [next] in *; apply in_box3 in B, B'; try lia. exists (x - i0), (y - j0), 0. assert (z = 0) as -> by lia. repeat split; try lia. cbn [square sh shift next]. rewrite !(Nat.add_comm i0), !(Nat.add_comm j0), !Nat.sub_add by lia. reflexivity.
  - intros (i & j & k & Li & Lj & Lk & ->). assert (k = 0) as -> by lia. exists 0, 1, (sh (i, j, 0)). unfold lo, hi. cbn [sh shift next]. spl.
Qed.
Lemma ring_inj s p : ring s = ring (square p) -> s = square p.
Proof. destruct s as [|a [|b [|c [|d [|e s]]]]]; cbn -[next]; intros E; try discriminate. injection E as -> -> H1 H2 H3 H4 _ _. now rewrite H2, H4. Qed.
Lemma gen2_ok : nx > 0 -> ny > 0 -> exists m pos, generate2 X0 Y0 X1 Y1 NX NY i0 j0 nx ny = Ok m /\ regular_block2 N lo hi gpoint2 (num_vert2 NY) (num_edge2 NY) (num_face2 NY) m pos.
Proof.
  intros Gx Gy. unfold generate2. assert (forall n M, n > 0 -> defaulted n M = n) as D by (intros n M G; unfold defaulted; destruct n; [lia|auto]). rewrite !D by auto. clear D.
  destruct (@loop3_ok _ (nx + 1) (ny + 1) 1 (fun i j _ => gen_vert2 X0 Y0 X1 Y1 NX NY i0 j0 i j)
    (fun t v => fst v = t /\ mv_xyz (snd v) = gpoint2 (sh t) /\ mv_glob (snd v) = num_vert2 NY [sh t] /\ classified_in model2 N (mv_gdim (snd v)) (mv_gid (snd v)) [sh t])) as (vs & EV & FV).
  { intros i j k Li Lj Lk. assert (k = 0) as -> by lia. destruct (@gen_vert2_ok i j Li Lj) as (v & E & H). exists ((i, j, 0), v). cbn [fst snd]. auto. }
  rewrite EV. cbn [bind]. assert (map fst vs = keys) as KE. { symmetry. rewrite <- (map_id keys). apply Forall2_map with (1 := FV). intros x y (<- & _). reflexivity. }
  rewrite KE.
  assert (for_lt nx (fun i st => for_lt ny (fun j st => gen_cell2 NX NY i0 j0 keys i j st) st) ([], []) = foldM (grid3 nx ny 1) (fun t st => gen_cell2 NX NY i0 j0 keys (fst (fst t)) (snd (fst t)) st) ([], [])) as ->.
  { unfold for_lt, grid3. rewrite <- foldM_flat_map. apply foldM_ext. intros i s _. rewrite <- foldM_flat_map. apply foldM_ext. intros j s' _. cbn. now rewrite bind_ret. }
  destruct (@foldM_inv _ _ (fun (t : triple) st => gen_cell2 NX NY i0 j0 keys (fst (fst t)) (snd (fst t)) st) cells_inv (grid3 nx ny 1) ([], [])) as ((es & fs) & -> & (G & U & F)).
  - split; [split; [easy|constructor]|]. split; [|constructor]. intros x. split; [easy|]. intros (c & [] & _).
  - intros P ((i, j), k) R s E I. assert (In (i, j, k) (grid3 nx ny 1)) as J by (rewrite E; apply in_app_iff; right; now left). apply in_grid3 in J. assert (k = 0) as -> by lia. cbn [fst snd]. apply gen_cell2_ok; auto; lia.
  - cbn [bind fst snd] in *. eexists. exists pos. split; [reflexivity|]. assert (length vs = length keys) as LV by (rewrite <- KE, map_length; auto). destruct G as (G & ND).
    split; cbn [m2_verts m2_edges m2_faces].
    + rewrite map_length, LV. replace (map (fun h => [pos h]) (seq 0 (length keys))) with (map (fun t => [sh t]) keys) by (apply (map_by_index (fun t => [sh t]) keys (0, 0, 0))).
      apply (@exactly_corners i0 j0 0 (nx + 1) (ny + 1) 1 (fun p => [p])); auto. intros x. split.
      * intros (p & B & ->). replace 0 with (0 + 0) in B at 2 by auto. change hi with (i0 + nx, j0 + ny, 0 + 0) in B. apply box_shift in B as (i & j & k & Li & Lj & Lk & ->). exists i, j, k. repeat split; lia.
      * intros (i & j & k & Li & Lj & Lk & ->). exists (sh (i, j, k)). split; auto. change hi with (i0 + nx, j0 + ny, 0 + 0). apply box_shift. exists i, j, k. repeat split; lia.
    + intros h v E. rewrite nth_error_map in E. destruct (nth_error vs h) as [tv|] eqn:EH; [|discriminate]. cbn in E. injection E as <-.
      assert (nth_error keys h = Some (fst tv)) as EK by (rewrite <- KE, nth_error_map, EH; auto).
      assert (In tv vs) as I by (eapply nth_error_In; eauto). destruct (@Forall2_In_r _ _ _ _ _ _ FV I) as (t & _ & (<- & H)). unfold pos, node_of. rewrite (nth_error_nth _ _ _ EK). exact H.
    + rewrite map_length, LV. intros h I. apply in_flat_map in I as (e & Ie & Ih). destruct (G e Ie) as (a & b & V & La & Lb & _). rewrite V in Ih. destruct Ih as [<-|[<-|[]]]; auto.
    + split; [exact ND|]. intros x. rewrite (edge_of_cell x Gx Gy). apply U.
    + intros e I. destruct (G e I) as (a & b & _ & _ & _ & _ & H). exact H.
    + replace (map (fun f => map (side_of es pos) (mf_edges f)) fs) with (map (fun c => ring (square (sh c))) (grid3 nx ny 1)).
      * eapply exactly_iff; [apply exactly_map_grid with (f := fun c => ring (square (sh c)))|].
        -- intros t u _ _ E. apply (@shift_inj i0 j0 0). cbn in E. injection E; auto.
        -- intros x. split. ++ intros (i & j & k & Li & Lj & Lk & ->). exists (square (sh (i, j, k))). split; auto. apply square_of_cell. exists i, j, k. auto.
           ++ intros (s & I & ->). apply square_of_cell in I as (i & j & k & Li & Lj & Lk & ->). exists i, j, k. auto.
      * apply Forall2_map with (1 := F). intros c f (H & _). exact (eq_sym H).
    + intros f s I E. destruct (@Forall2_In_r _ _ _ _ _ _ F I) as (c & Ic & (H & H2 & H3 & H4)). rewrite H in E. symmetry in E. apply ring_inj in E as ->. split; auto. rewrite H3, H4.
      apply check_in_ok with (s := st3 1 1 0); [|vm_compute; reflexivity]. destruct c as ((i, j), k). apply in_grid3 in Ic. assert (k = 0) as -> by lia. unfold sh, square. cbn [shift next]. rewrite Nat.add_0_l. intros d Ld. le2 d; cbn [st3].
      * apply (@ax_mixed _ _ _ (i0 + i, j0 + j, 0) (i0 + i + 1, j0 + j, 0)); cbn [In at_axis fst snd]; auto. lia.
      * apply (@ax_mixed _ _ _ (i0 + i, j0 + j, 0) (i0 + i, j0 + j + 1, 0)); cbn [In at_axis fst snd]; auto. lia.
      * apply ax_const with 0; auto; [discriminate| |lia|cbn; lia]. intros p [<-|[<-|[<-|[<-|[]]]]]; reflexivity.
Qed.
End Whole2.
