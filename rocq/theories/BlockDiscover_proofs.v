From Coq Require Import Reals Lra Permutation.
From Verif Require Import Base Loop Defs Factory SimpleMesh SimpleMesh_spec SimpleMesh_proofs SimpleMesh_proofs2 SimpleMesh_proofs3 SimpleMesh_proofs4
  SimpleTopo SimpleGeom Props_SimpleMesh Props_SimpleGeom Cache Cache_spec Cache_proofs Cache_proofs5
  BlockPartition BlockPartition_spec BlockPartition_proofs2 BlockAssign BlockAssign_proofs Partition_spec
  Point Geometry Geometry_spec Geometry_proofs Polyhedron_proofs
  MeshGeom BoxGeom BoxGeom_spec MeshGeom_spec MeshGeom_proofs MeshGeom_proofs2 BoxGeom_proofs BoxGeom_proofs2 BoxGeom_proofs3 Props_BoxGeom BlockDiscover.
Set Implicit Arguments.
Local Open Scope R_scope.
Local Notation ncells := SimpleMesh_proofs2.ncells.
Local Notation nfaces := SimpleMesh_proofs2.nfaces.

Lemma Rltb_false a b : b <= a -> Rltb a b = false.
Proof. intros H. unfold Rltb. destruct (Rlt_dec a b); auto. lra. Qed.
Lemma Rltb_true a b : a < b -> Rltb a b = true.
Proof. apply Rltb_spec. Qed.
Lemma tiny n : 0 < / 10 ^ n.
Proof. apply Rinv_0_lt_compat, pow_lt. lra. Qed.
Lemma tiny_small : / 10 ^ 12 < 1.
Proof. rewrite <- Rinv_1. apply Rinv_lt_contravar; [rewrite Rmult_1_l; apply pow_lt; lra|]. apply (Rlt_le_trans _ (10 ^ 1)); [lra|]. apply Rle_pow; [lra|lia]. Qed.

(** ** the limits *)
Lemma widen_lo ps : forall l d, fst (fold_left widen ps l) d <= fst l d /\ (forall p, In p ps -> fst (fold_left widen ps l) d <= coord p d) /\
  (fst (fold_left widen ps l) d = fst l d \/ exists p, In p ps /\ fst (fold_left widen ps l) d = coord p d).
Proof.
  induction ps as [|p ps IH]; intros l d; cbn [fold_left]; [split; [lra|split; [intros ? []|auto]]|].
  destruct (IH (widen l p) d) as (A & B & C).
  assert (W : fst (widen l p) d <= fst l d /\ fst (widen l p) d <= coord p d /\ (fst (widen l p) d = fst l d \/ fst (widen l p) d = coord p d)).
  { unfold widen. cbn [fst]. unfold Rltb. destruct (Rlt_dec (coord p d) (fst l d)); lra. }
  destruct W as (W1 & W2 & W3). split; [lra|]. split.
  - intros q [<-|I]; [lra|auto].
  - destruct C as [C|(q & Iq & C)]; [|right; exists q; split; [right|]; auto]. destruct W3 as [W3|W3]; [left; lra|]. right. exists p. split; [left; auto|lra].
Qed.
Lemma widen_hi ps : forall l d, snd l d <= snd (fold_left widen ps l) d /\ (forall p, In p ps -> coord p d <= snd (fold_left widen ps l) d) /\
  (snd (fold_left widen ps l) d = snd l d \/ exists p, In p ps /\ snd (fold_left widen ps l) d = coord p d).
Proof.
  induction ps as [|p ps IH]; intros l d; cbn [fold_left]; [split; [lra|split; [intros ? []|auto]]|].
  destruct (IH (widen l p) d) as (A & B & C).
  assert (W : snd l d <= snd (widen l p) d /\ coord p d <= snd (widen l p) d /\ (snd (widen l p) d = snd l d \/ snd (widen l p) d = coord p d)).
  { unfold widen. cbn [snd]. unfold Rltb. destruct (Rlt_dec (snd l d) (coord p d)); lra. }
  destruct W as (W1 & W2 & W3). split; [lra|]. split.
  - intros q [<-|I]; [lra|auto].
  - destruct C as [C|(q & Iq & C)]; [|right; exists q; split; [right|]; auto]. destruct W3 as [W3|W3]; [left; lra|]. right. exists p. split; [left; auto|lra].
Qed.
Lemma limits_fold M X cs (h : nat -> list point) : (forall c, In c cs -> cell_get_coordinates M X c = Ok (h c)) -> forall l,
  foldM cs (fun c l => ps <- cell_get_coordinates M X c ;; Ok (fold_left widen ps l)) l = Ok (fold_left widen (flat_map h cs) l).
Proof.
  induction cs as [|c cs IH]; intros H l; cbn [foldM flat_map]; auto. rewrite H by (left; auto). cbn [bind]. rewrite IH by (intros; apply H; right; auto). rewrite fold_left_app. auto.
Qed.

Lemma cellz_in z z0 : In z (cellz z0) -> z = z0 /\ z0 <> (-1)%Z.
Proof. unfold cellz. destruct (Z.eqb_spec z0 (-1)); cbn; [tauto|]. intros [<-|[]]; auto. Qed.

Lemma cellz_nat n : cellz (Z.of_nat n) = [Z.of_nat n].
Proof. unfold cellz. destruct (Z.eqb_spec (Z.of_nat n) (-1)); [lia|auto]. Qed.

Section S.
Variables (d : dims) (M : gmesh) (gx gy gz : nat -> R) (X : coordinates) (xs : list coordinates) (g : geo).
Hypothesis Hd : positive d.
Hypothesis HM : box_object d M.
Hypothesis HX : rectilinear d gx gy gz X.
Hypothesis IX : increasing (nx d) gx.
Hypothesis IY : increasing (ny d) gy.
Hypothesis IZ : increasing (nz d) gz.
Hypothesis HG : history M (X :: xs) g.
Let BC := box_object_caches Hd HM.

Definition line (a : nat) : nat -> R := match a with O => gx | 1%nat => gy | _ => gz end.
Definition count (a : nat) : nat := match a with O => nx d | 1%nat => ny d | _ => nz d end.
Definition at_axis (a : nat) (p : pos3) : nat := let '(i, j, k) := p in match a with O => i | 1%nat => j | _ => k end.
Hypothesis bounded : forall a, - 10 ^ 20 < line a 0 /\ line a (count a) < 10 ^ 20.

Lemma owned_ids : ids (gm M) CELL PARALLEL_OWNED = seq 0 (ncells d).
Proof.
  clear BC. destruct HM as (v0' & hx & hy & hz & fl & m & cm & Em & F1 & Ec & ->). cbn [box_g gm]. unfold ids.
  destruct (make_simple_3d_conn d v0' hx hy hz (fl_faces (close_flags fl))) as (m0 & E & K & H1 & H2 & H3 & H4 & _ & _ & _ & _ & _ & _ & _ & _ & Hn & Hc & Hf & He).
  rewrite Em in E. injection E as <-.
  assert (T : cm_topo cm = simple_topo m).
  { revert Ec. unfold cache_extra_variables. intros Ec. repeat (apply bind_Ok in Ec as (? & _ & Ec)). injection Ec as <-. reflexivity. }
  rewrite T. cbn [simple_topo cells_owned]. auto.
Qed.
Lemma count_pos a : (1 <= count a)%nat.
Proof. destruct Hd as (A & B & C). destruct a as [|[|a]]; cbn; lia. Qed.
Lemma line_inc a : increasing (count a) (line a).
Proof. destruct a as [|[|a]]; cbn; auto. Qed.
Lemma coord_gp a p : (a < 3)%nat -> coord (gp gx gy gz p) a = line a (at_axis a p).
Proof. destruct p as [[i j] k]. destruct a as [|[|[|a]]]; intros H; cbn; auto; lia. Qed.
Lemma corner_range c p a : (c < ncells d)%nat -> In p (map (gp gx gy gz) (corners8 (cpos d c))) -> (a < 3)%nat -> line a 0 <= coord p a <= line a (count a).
Proof.
  intros Hc I Ha. apply in_map_iff in I as (q & <- & Iq). destruct (cpos_ok d Hc) as [Ca _]. assert (N := corners8_at d _ Ca _ Iq). rewrite coord_gp by auto.
  assert (L : (at_axis a q <= count a)%nat). { destruct q as [[i j] k]. destruct N as (N1 & N2 & N3). destruct a as [|[|a]]; cbn; lia. }
  split; apply (increasing_le (line_inc a)); lia.
Qed.
Lemma zero_cell : cell_at d (0, 0, 0)%nat. Proof. destruct Hd as (A & B & C). repeat split; lia. Qed.
Lemma last_cell : cell_at d (nx d - 1, ny d - 1, nz d - 1)%nat. Proof. destruct Hd as (A & B & C). repeat split; lia. Qed.
Lemma cell_points c : (c < ncells d)%nat -> cell_get_coordinates M X c = Ok (map (gp gx gy gz) (corners8 (cpos d c))).
Proof. intros H. destruct (cpos_ok d H) as [Ca Ci]. rewrite <- Ci at 1. apply (grid_cell BC HX). auto. Qed.
Lemma limits_ok : exists l, domain_limits M X = Ok l /\ forall a, (a < 3)%nat -> fst l a = line a 0 /\ snd l a = line a (count a).
Proof.
  unfold domain_limits. rewrite owned_ids. rewrite limits_fold with (h := fun c => map (gp gx gy gz) (corners8 (cpos d c))) by (intros c I; apply in_seq in I; apply cell_points; lia).
  eexists. split; [reflexivity|]. intros a Ha. set (ps := flat_map _ _).
  assert (R : forall p, In p ps -> line a 0 <= coord p a <= line a (count a)).
  { intros p I. apply in_flat_map in I as (c & Ic & I). apply in_seq in Ic. apply (@corner_range c p a); auto. lia. }
  assert (I0 : In (gp gx gy gz (0, 0, 0)%nat) ps).
  { apply in_flat_map. exists (cid d (0, 0, 0)%nat). split; [apply in_seq; assert (L := cid_lt d _ zero_cell); lia|]. rewrite cpos_cid by apply zero_cell. cbn. auto. }
  assert (I1 : In (gp gx gy gz (nx d, ny d, nz d)) ps).
  { apply in_flat_map. exists (cid d (nx d - 1, ny d - 1, nz d - 1)%nat). split; [apply in_seq; assert (L := cid_lt d _ last_cell); lia|]. rewrite cpos_cid by apply last_cell.
    apply in_map. destruct Hd as (A & B & C). cbn [corners8 In]. do 6 right. left. f_equal; [f_equal|]; lia. }
  destruct (bounded a) as [B0 B1].
  assert (LE := increasing_le (line_inc a) (Nat.le_0_l (count a)) (Nat.le_refl _)).
  split.
  - destruct (@widen_lo ps (fun _ => 10 ^ 20, fun _ => - 10 ^ 20) a) as (A & B & C). specialize (B _ I0). rewrite coord_gp in B by auto.
    replace (at_axis a (0, 0, 0)%nat) with 0%nat in B by (destruct a as [|[|a]]; auto). cbn [fst] in A, C. destruct C as [C|(p & Ip & C)]; [lra|]. apply R in Ip. lra.
  - destruct (@widen_hi ps (fun _ => 10 ^ 20, fun _ => - 10 ^ 20) a) as (A & B & C). specialize (B _ I1). rewrite coord_gp in B by auto.
    replace (at_axis a (nx d, ny d, nz d)) with (count a) in B by (destruct a as [|[|a]]; auto). cbn [snd] in A, C. destruct C as [C|(p & Ip & C)]; [lra|]. apply R in Ip. lra.
Qed.

(** ** the corner *)
Lemma corner_ok lo : (forall a, (a < 3)%nat -> lo a = line a 0) -> corner_cell M X lo (seq 0 (ncells d)) = Ok (Some (cid d (0, 0, 0)%nat)).
Proof.
  intros H. assert (Z : cid d (0, 0, 0)%nat = 0%nat) by (cbn; unfold cell_index; lia).
  assert (P := cid_lt d _ zero_cell). rewrite Z in *. destruct (ncells d) as [|n] eqn:En; [lia|]. cbn [seq corner_cell].
  rewrite cell_points by lia. cbn [bind]. replace (cpos d 0) with (0, 0, 0)%nat by (rewrite <- Z; symmetry; apply cpos_cid, zero_cell).
  cbn [corners8 map existsb]. rewrite Rltb_true; auto. unfold dist2. rewrite (bc_sdim BC). cbn [seq fold_left coord gp p0 p1 p2].
  rewrite (H 0%nat), (H 1%nat), (H 2%nat) by lia. cbn [line]. match goal with |- ?x < _ => replace x with 0 by ring end. apply tiny.
Qed.

(** ** one step of the walk *)
Definition axis (s : sface) : nat := match s with FYZ _ _ _ => 0%nat | FXZ _ _ _ => 1%nat | FXY _ _ _ => 2%nat end.
Lemma unit_dot s p a : cell_at d p -> side_of_cell s p -> (a < 3)%nat ->
  exists n, face_normal M X g (fid d s) false (Some (cid d p)) = Ok n /\
    dot (diveq (fst n) (norm (fst n))) (refdir 3 a) = if (axis s =? a)%nat then (if upper_side s p then 1 else -1) else 0.
Proof.
  intros Hp Hs Ha. destruct (normals_exact Hd HM HX IX IY IZ HG s p false Hp Hs) as (fds & dir & _ & _ & E). eexists. split; [exact E|]. cbn [fst].
  assert (P := @face_pos d gx gy gz IX IY IZ s (@side_face_at d s p Hp Hs)). set (A := square_area gx gy gz s) in *.
  assert (N : forall v, v * v = A * A -> sqrt (v * v) = A) by (intros v Ev; rewrite Ev; apply sqrt_square; lra).
  set (v := if upper_side s p then A else - A). assert (V : v * v = A * A) by (unfold v; destruct (upper_side s p); ring).
  assert (Q : v / A = if upper_side s p then 1 else -1) by (unfold v; destruct (upper_side s p); field; lra).
  assert (NA : norm (along_axis s v) = A).
  { destruct s; unfold along_axis, norm, L22, dot; cbn [pd p0 p1 p2]; rewrite <- (N v V); f_equal; ring. }
  rewrite NA. destruct s, a as [|[|[|a]]]; try lia; unfold along_axis, diveq, dot, refdir, axis; cbn [pmap pd p0 p1 p2 Nat.eqb]; rewrite ?Q; unfold Rdiv; ring.
Qed.
Lemma chosen s p a : cell_at d p -> side_of_cell s p -> (a < 3)%nat ->
  exists n, face_normal M X g (fid d s) false (Some (cid d p)) = Ok n /\
    Rltb (Rabs (dot (diveq (fst n) (norm (fst n))) (refdir (sdim M) a) - 1)) (/ 10 ^ 12) = (axis s =? a)%nat && upper_side s p.
Proof.
  intros Hp Hs Ha. destruct (unit_dot s p Hp Hs Ha) as (n & E & D). exists n. split; auto. rewrite (bc_sdim BC), D. assert (T := tiny 12). assert (T' := tiny_small).
  destruct (axis s =? a)%nat; [destruct (upper_side s p)|]; cbn [andb].
  - apply Rltb_true. replace (1 - 1) with 0 by ring. rewrite Rabs_R0. auto.
  - apply Rltb_false. replace (-1 - 1) with (-(2)) by ring. rewrite Rabs_Ropp, Rabs_right by lra. lra.
  - apply Rltb_false. replace (0 - 1) with (-(1)) by ring. rewrite Rabs_Ropp, Rabs_right by lra. lra.
Qed.
(** all cells are owned *)
Lemma owned_cells f : (f < nfaces d)%nat -> Cache.face_get_cells (gm M) f PARALLEL_OWNED = Cache.face_get_cells (gm M) f TYPE_ALL.
Proof.
  intros Hf. destruct (bc_fc BC Hf) as (z0 & z1 & E & _ & _ & R0 & R1). revert E. unfold Cache.face_get_cells. destruct (need (cm_fc (gm M))) as [fc| | | |]; cbn [bind]; auto.
  unfold for_lt. cbn [seq foldM]. destruct (rd fc f) as [row| | | |]; cbn [bind]; auto. destruct (rd row 0) as [a| | | |]; cbn [bind]; auto. destruct (rd row 1) as [b| | | |]; cbn [bind].
  2-5: destruct (fc_test (gm M) TYPE_ALL a); cbn [bind]; discriminate.
  assert (T : forall z, In z (cellz z0 ++ cellz z1) -> fc_test (gm M) PARALLEL_OWNED z = fc_test (gm M) TYPE_ALL z).
  { intros z I. assert (exists c, (c < ncells d)%nat /\ z = Z.of_nat c) as (c & Lc & ->).
    { apply in_app_iff in I. destruct I as [I|I]; apply cellz_in in I as [-> N]; [destruct R0 as [R0|R0]|destruct R1 as [R1|R1]]; auto; contradiction. }
    unfold fc_test. destruct (Z.eqb_spec (Z.of_nat c) (-1)); [lia|]. unfold rdz. destruct (Z.ltb_spec (Z.of_nat c) 0); [lia|]. rewrite Nat2Z.id, (bc_types BC Lc). reflexivity. }
  unfold fc_test at 1 2. intros E.
  assert (G : forall z, z = (-1)%Z \/ In z (cellz z0 ++ cellz z1) -> fc_test (gm M) PARALLEL_OWNED z = fc_test (gm M) TYPE_ALL z) by (intros z [->|I]; [reflexivity|auto]).
  assert (Ga : a = (-1)%Z \/ In a (cellz z0 ++ cellz z1)).
  { destruct (Z.eqb_spec a (-1)); auto. right. revert E. cbn [bind]. unfold fc_test. destruct (Z.eqb_spec b (-1)); cbn [bind app]; intros [= <-]; cbn; auto. }
  assert (Gb : b = (-1)%Z \/ In b (cellz z0 ++ cellz z1)).
  { destruct (Z.eqb_spec b (-1)); auto. right. revert E. cbn [bind]. unfold fc_test. destruct (Z.eqb_spec b (-1)); [contradiction|]. cbn [bind]. destruct (a =? -1)%Z; cbn [bind app]; destruct (Z.eqb_spec b (-1)); try contradiction; intros [= <-]; cbn; auto. }
  rewrite (G _ Ga), (G _ Gb). reflexivity.
Qed.

Definition up (a : nat) (p : pos3) : sface := let '(i, j, k) := p in match a with O => FYZ (i + 1) j k | 1%nat => FXZ i (j + 1) k | _ => FXY i j (k + 1) end.
Definition next (a : nat) (p : pos3) : pos3 := let '(i, j, k) := p in match a with O => (i + 1, j, k)%nat | 1%nat => (i, j + 1, k)%nat | _ => (i, j, k + 1)%nat end.
Lemma dir_of s v c : In (fid d s, v) (combine (cf3 d c) dirs6) -> (c < ncells d)%nat -> face_at d s -> side_of_cell s (cpos d c).
Proof.
  intros I Hc Hs. rewrite <- (fpos_fid d s Hs). apply (cf3_side d); auto; [apply fid_lt; auto|]. apply in_combine_l in I. auto.
Qed.
Lemma up_cells a p : cell_at d p -> (a < 3)%nat -> face_at d (up a p) /\ side_of_cell (up a p) p /\
  (forall q, cell_at d q -> side_of_cell (up a p) q -> q = p \/ q = next a p) /\ side_of_cell (up a p) (next a p).
Proof.
  intros Hp Ha. assert (S : side_of_cell (up a p) p) by (destruct p as [[i j] k]; destruct a as [|[|a]]; cbn; auto).
  split; [apply (side_face_at d _ p); auto|]. split; auto. destruct p as [[i j] k]. split.
  - intros [[i' j'] k'] _. destruct a as [|[|a]]; cbn; intros (A & B & C); [destruct A|destruct B|destruct C];
    first [left; repeat f_equal; lia|right; repeat f_equal; lia].
  - destruct a as [|[|a]]; cbn; auto.
Qed.
Lemma opposite a p : (a < 3)%nat -> upper_side (up a p) p = true /\ upper_side (up a p) (next a p) = false.
Proof.
  destruct p as [[i j] k]. destruct a as [|[|a]]; intros H; cbn; rewrite Nat.eqb_refl; split; auto; apply Nat.eqb_neq; lia.
Qed.
Lemma face_cells_up a p : cell_at d p -> (a < 3)%nat ->
  (cell_at d (next a p) -> Cache.face_get_cells (gm M) (fid d (up a p)) PARALLEL_OWNED = Ok [Z.of_nat (cid d p); Z.of_nat (cid d (next a p))] \/
                          Cache.face_get_cells (gm M) (fid d (up a p)) PARALLEL_OWNED = Ok [Z.of_nat (cid d (next a p)); Z.of_nat (cid d p)]) /\
  (~ cell_at d (next a p) -> Cache.face_get_cells (gm M) (fid d (up a p)) PARALLEL_OWNED = Ok [Z.of_nat (cid d p)]).
Proof.
  intros Hp Ha. destruct (up_cells p Hp Ha) as (Hf & S1 & U & S2). assert (Lf := fid_lt d _ Hf). rewrite owned_cells by auto.
  destruct (bc_fc BC Lf) as (z0 & z1 & E & P0 & P1 & R0 & R1). rewrite E.
  assert (I := side_dir d _ p Hp S1). assert (L := cid_lt d p Hp). destruct (opposite p Ha) as [O1 O2]. rewrite O1 in I.
  split.
  - intros Hn. assert (I' := side_dir d _ _ Hn S2). rewrite O2 in I'. assert (L' := cid_lt d _ Hn).
    assert (Q : (z0 = Z.of_nat (cid d p) /\ z1 = Z.of_nat (cid d (next a p))) \/ (z1 = Z.of_nat (cid d p) /\ z0 = Z.of_nat (cid d (next a p)))).
    { destruct (up a p); cbn [Z.mul Z.opp Pos.mul] in I, I'; first [left; split; [apply P0|apply P1]; assumption|right; split; [apply P1|apply P0]; assumption]. }
    destruct Q as [[-> ->]|[-> ->]]; rewrite ?cellz_nat; cbn [app]; auto.
  - intros Hn.
    assert (O : forall z v, (forall c, (c < ncells d)%nat -> z = Z.of_nat c <-> In (fid d (up a p), v) (combine (cf3 d c) dirs6)) -> (z = (-1)%Z \/ exists c, (c < ncells d)%nat /\ z = Z.of_nat c) ->
       z = (-1)%Z \/ z = Z.of_nat (cid d p)).
    { intros z v P [->|(c & Lc & ->)]; auto. right. f_equal. destruct (cpos_ok d Lc) as [Ca Ci]. assert (J := proj1 (P c Lc) eq_refl). apply dir_of in J; auto.
      destruct (U _ Ca J) as [J'|J']; [rewrite <- Ci; f_equal; auto|]. rewrite J' in Ca. contradiction. }
    assert (Q : (z0 = Z.of_nat (cid d p) /\ z1 = (-1)%Z) \/ (z1 = Z.of_nat (cid d p) /\ z0 = (-1)%Z)).
    { assert (D : forall v w, In (fid d (up a p), v) (combine (cf3 d (cid d p)) dirs6) -> In (fid d (up a p), w) (combine (cf3 d (cid d p)) dirs6) -> v = w).
      { intros v w A B. assert (N := cf3_dirs_nodup d L). apply (grid_dir BC L) in A. apply (grid_dir BC L) in B. congruence. }
      destruct (O z0 (-1)%Z P0 R0) as [Z0|Z0], (O z1 1%Z P1 R1) as [Z1|Z1]; auto.
      - exfalso. assert (V : exists v, In (fid d (up a p), v) (combine (cf3 d (cid d p)) dirs6) /\ (v = 1 \/ v = -1)%Z) by (eexists; split; [exact I|destruct (up a p); cbn; auto]).
        destruct V as (v & V & [->| ->]); [apply P1 in V|apply P0 in V]; auto; lia.
      - exfalso. assert (A := proj1 (P0 _ L) Z0). assert (B := proj1 (P1 _ L) Z1). assert (W := D _ _ A B). lia. }
    destruct Q as [[-> ->]|[-> ->]]; rewrite ?cellz_nat; cbn [app]; auto.
Qed.
Lemma look_skip hi a p s r : cell_at d p -> side_of_cell s p -> (a < 3)%nat -> (axis s =? a)%nat && upper_side s p = false ->
  look M X g hi a (cid d p) (fid d s :: r) = look M X g hi a (cid d p) r.
Proof. intros Hp Hs Ha F. cbn [look]. destruct (chosen s p Hp Hs Ha) as (n & E & D). rewrite E. cbn [bind]. rewrite D, F. reflexivity. Qed.
Lemma axis_up a p : (a < 3)%nat -> axis (up a p) = a.
Proof. destruct p as [[i j] k]. destruct a as [|[|[|a]]]; intros H; auto; lia. Qed.
Lemma centre_up a p : (a < 3)%nat -> coord (square_centre gx gy gz (up a p)) a = line a (at_axis a p + 1)%nat.
Proof. destruct p as [[i j] k]. destruct a as [|[|[|a]]]; intros H; auto; lia. Qed.
Lemma next_at a p : cell_at d p -> (a < 3)%nat -> cell_at d (next a p) <-> (at_axis a p + 1 < count a)%nat.
Proof. destruct p as [[i j] k]. intros (A & B & C). destruct a as [|[|[|a]]]; intros H; cbn; unfold cell_at; try lia; intuition. Qed.
Lemma look_take hi a p r : cell_at d p -> (a < 3)%nat -> hi a = line a (count a) ->
  look M X g hi a (cid d p) (fid d (up a p) :: r) = Ok (if (at_axis a p + 1 <? count a)%nat then Next (cid d (next a p)) else Stop).
Proof.
  intros Hp Ha Hh. destruct (up_cells p Hp Ha) as (Hf & S1 & U & S2). cbn [look]. destruct (chosen _ p Hp S1 Ha) as (n & E & D). rewrite E. cbn [bind].
  destruct (opposite p Ha) as [O1 _]. rewrite D, (axis_up p Ha), Nat.eqb_refl, O1. cbn [andb]. destruct (face_cells_up p Hp Ha) as [F1 F2].
  destruct (Nat.ltb_spec (at_axis a p + 1) (count a)) as [L|L].
  - assert (Hn := proj2 (next_at p Hp Ha) L). assert (NE : cid d p <> cid d (next a p)).
    { intros Q. apply (f_equal (cpos d)) in Q. rewrite !cpos_cid in Q by auto. destruct p as [[i j] k]; destruct a as [|[|a]]; injection Q; lia. }
    destruct (F1 Hn) as [-> | ->]; cbn [bind]; [rewrite Z.eqb_refl|destruct (Z.eqb_spec (Z.of_nat (cid d (next a p))) (Z.of_nat (cid d p))); [lia|]]; rewrite Nat2Z.id; reflexivity.
  - assert (Hn : ~ cell_at d (next a p)) by (rewrite next_at by auto; lia). rewrite (F2 Hn). cbn [bind].
    destruct (faces_exact Hd HM HX IX IY IZ HG _ false Hf) as [_ ->]. cbn [bind]. rewrite centre_up, Hh by auto.
    assert (LE : (at_axis a p + 1 <= count a)%nat) by (destruct p as [[i j] k]; destruct Hp as (A & B & C); destruct a as [|[|a]]; cbn; lia).
    replace (at_axis a p + 1)%nat with (count a) by lia. rewrite Rltb_true; auto. rewrite Rminus_eq_0, Rabs_R0. apply tiny.
Qed.
Ltac skip := rewrite look_skip; [|assumption|match goal with A : forall s, In s _ -> side_of_cell s _ |- _ => apply A; cbn; tauto end|assumption|
  cbn; first [reflexivity|apply Nat.eqb_neq; lia]].
Lemma look_ok hi a p : cell_at d p -> (a < 3)%nat -> hi a = line a (count a) ->
  look M X g hi a (cid d p) (map (fid d) (sides6 p)) = Ok (if (at_axis a p + 1 <? count a)%nat then Next (cid d (next a p)) else Stop).
Proof.
  intros Hp Ha Hh. assert (A := fun s => proj1 (sides6_spec s p)). destruct p as [[i j] k]. cbn [sides6 map].
  assert (K := fun h b r => @look_take h b (i, j, k) r). destruct a as [|[|[|a]]]; try lia; cbn [up] in K.
  - skip. apply (K hi 0%nat); auto.
  - do 2 skip. apply (K hi 1%nat); auto.
  - do 5 skip. apply (K hi 2%nat); auto.
Qed.
Lemma walk_ok hi a : (a < 3)%nat -> hi a = line a (count a) -> forall r p fuel n, cell_at d p -> count a = (at_axis a p + 1 + r)%nat -> (r < fuel)%nat ->
  walk fuel M X g hi a (cid d p) n = Ok (Some (n + Z.of_nat r))%Z.
Proof.
  intros Ha Hh. induction r as [|r IH]; intros p [|fuel] n Hp Hc Hf; try lia; cbn [walk]; rewrite (grid_cf BC) by auto; cbn [bind];
    (replace (map fst (combine (map (fid d) (sides6 p)) dirs6)) with (map (fid d) (sides6 p)) by (destruct p as [[i j] k]; reflexivity)); rewrite look_ok by auto; cbn [bind].
  - destruct (Nat.ltb_spec (at_axis a p + 1) (count a)); [lia|]. do 2 f_equal. lia.
  - destruct (Nat.ltb_spec (at_axis a p + 1) (count a)); [|lia]. rewrite IH; [do 2 f_equal; lia|apply next_at; auto|destruct p as [[i j] k]; destruct a as [|[|a]]; cbn in *; lia|lia].
Qed.
Lemma discover_ok fuel : (forall a, (a < 3)%nat -> (count a <= fuel)%nat) ->
  exists l, discover fuel M X g = Ok (Some (l, V3 (Z.of_nat (nx d)) (Z.of_nat (ny d)) (Z.of_nat (nz d)))) /\
    forall a, (a < 3)%nat -> fst l a = line a 0 /\ snd l a = line a (count a).
Proof.
  intros Hf. destruct limits_ok as (l & El & Pl). exists l. split; auto. unfold discover. rewrite El. cbn [bind]. rewrite owned_ids.
  rewrite corner_ok by (intros a Ha; apply Pl; auto). cbn [bind]. rewrite (bc_sdim BC). cbn [seq walks].
  assert (W : forall a, (a < 3)%nat -> walk fuel M X g (snd l) a (cid d (0, 0, 0)%nat) 1 = Ok (Some (Z.of_nat (count a)))).
  { intros a Ha. assert (P := count_pos a). specialize (Hf a Ha). rewrite (@walk_ok (snd l) a Ha (proj2 (Pl a Ha)) (count a - 1)%nat); [do 2 f_equal; lia|apply zero_cell| |lia].
    destruct a as [|[|a]]; cbn [at_axis]; lia. }
  rewrite !W by lia. reflexivity.
Qed.
End S.
