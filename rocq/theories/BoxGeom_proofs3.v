(** Sums over the cells of a box, the grid interval holding a number, and the inside of a box cell. *)
From Coq Require Import Reals Lra Permutation.
From Verif Require Import Base Loop Defs Factory SimpleMesh SimpleMesh_spec SimpleMesh_proofs SimpleMesh_proofs2 SimpleMesh_proofs3 SimpleMesh_proofs4
  SimpleTopo SimpleGeom Props_SimpleMesh Props_SimpleGeom Cache Cache_spec Cache_proofs Cache_proofs5 Point Geometry Geometry_spec Geometry_proofs Polyhedron_proofs Props_Polygon3D Props_Polyhedron Props_InPolyhed
  MeshGeom BoxGeom BoxGeom_spec MeshGeom_spec MeshGeom_proofs MeshGeom_proofs2 Props_Cache Props_MeshUpdate RegionSets BoxGeom_proofs BoxGeom_proofs2.
Set Implicit Arguments.
Local Open Scope R_scope.
Local Notation ncells := SimpleMesh_proofs2.ncells.

Definition RS (f : nat -> R) (n : nat) : R := Rsum (map f (seq 0 n)).
Lemma Rsum_app l l' : Rsum (l ++ l') = Rsum l + Rsum l'.
Proof. induction l as [|a l IH]; cbn [app Rsum]; [lra|]. rewrite IH. lra. Qed.
Lemma RS_S f n : RS f (S n) = RS f n + f n.
Proof. unfold RS. rewrite seq_S, map_app, Rsum_app. cbn [map Rsum Nat.add]. lra. Qed.
Lemma RS_ext f h n : (forall i, (i < n)%nat -> f i = h i) -> RS f n = RS h n.
Proof. induction n as [|n IH]; intros H; [reflexivity|]. rewrite !RS_S. rewrite IH by (intros; apply H; lia). rewrite H by lia. auto. Qed.
Lemma RS_scale a f n : RS (fun i => a * f i) n = a * RS f n.
Proof. induction n as [|n IH]; [unfold RS; cbn; lra|]. rewrite !RS_S, IH. lra. Qed.
Lemma RS_add f n m : RS f (n + m) = RS f n + RS (fun i => f (n + i)%nat) m.
Proof. induction m as [|m IH]; [rewrite Nat.add_0_r; unfold RS at 3; cbn; lra|]. rewrite Nat.add_succ_r, !RS_S, IH. lra. Qed.
Lemma RS_mul f n m : RS f (n * m) = RS (fun q => RS (fun r => f (r + q * n)%nat) n) m.
Proof.
  induction m as [|m IH]; [rewrite Nat.mul_0_r; reflexivity|]. rewrite RS_S, Nat.mul_succ_r, RS_add, IH. f_equal. apply RS_ext. intros i _. f_equal. lia.
Qed.
Lemma RS_width g n : RS (width g) n = g n - g 0%nat.
Proof. induction n as [|n IH]; [unfold RS; cbn; lra|]. rewrite RS_S, IH. unfold width. rewrite Nat.add_1_r. lra. Qed.
(** a sum of products over the cells of a box *)
Lemma RS_cells d a b c V : (forall i j k, cell_at d (i, j, k) -> V (cid d (i, j, k)) = a i * b j * c k) ->
  RS V (ncells d) = RS a (nx d) * RS b (ny d) * RS c (nz d).
Proof.
  intros H. unfold ncells. rewrite RS_mul.
  rewrite (@RS_ext _ (fun q => RS a (nx d) * RS b (ny d) * c q)); [rewrite RS_scale; auto|].
  intros k Hk. rewrite RS_mul. rewrite (@RS_ext _ (fun q => RS a (nx d) * c k * b q)); [rewrite RS_scale; lra|].
  intros j Hj. rewrite (@RS_ext _ (fun q => b j * c k * a q)); [rewrite RS_scale; lra|].
  intros i Hi. replace (i + j * nx d + k * (nx d * ny d))%nat with (cid d (i, j, k)) by (cbn [cid]; unfold cell_index; lia).
  rewrite H by (split; auto). lra.
Qed.
(** a number between the first and the last grid line lies in one of the intervals *)
Lemma in_interval g n x : (1 <= n)%nat -> g 0%nat <= x <= g n -> exists i, (i < n)%nat /\ g i <= x <= g (i + 1)%nat.
Proof.
  intros Hn. induction n as [|n IH]; intros H; [lia|]. destruct (Rle_dec (g n) x).
  - exists n. split; [lia|]. rewrite Nat.add_1_r. lra.
  - destruct n as [|n]; [lra|]. destruct IH as (i & Hi & B); [lia|lra|]. exists i. split; [lia|auto].
Qed.
Lemma increasing_le n g i j : increasing n g -> (i <= j)%nat -> (j <= n)%nat -> g i <= g j.
Proof.
  intros H L. induction L as [|j L IH]; intros B; [lra|]. assert (Q : g j < g (j + 1)%nat) by (apply H; lia). rewrite Nat.add_1_r in Q. specialize (IH ltac:(lia)). lra.
Qed.
(** intervals of different numbers meet in a grid line only *)
Lemma two_intervals n g i j x : increasing n g -> (i < n)%nat -> (j < n)%nat -> i <> j -> g i <= x <= g (i + 1)%nat -> g j <= x <= g (j + 1)%nat ->
  exists a, (0 < a < n)%nat /\ x = g a.
Proof.
  intros H Li Lj N A B. destruct (Nat.lt_total i j) as [L|[E|L]]; [|congruence|].
  - exists j. assert (g (i + 1)%nat <= g j) by (apply (increasing_le H); lia). split; [lia|lra].
  - exists i. assert (g (j + 1)%nat <= g i) by (apply (increasing_le H); lia). split; [lia|lra].
Qed.

Section Inside.
Variables (d : dims) (M : gmesh) (gx gy gz : nat -> R) (X : coordinates).
Hypothesis BC : box_caches d M.
Hypothesis RX : rectilinear d gx gy gz X.
Lemma box_inside i j k p : cell_at d (i, j, k) -> pd p = 3%nat -> 0 < width gx i -> 0 < width gy j -> 0 < width gz k ->
  exists b, point_in_cell M X p (cid d (i, j, k)) = Ok b /\
    (b = true <-> gx i <= p0 p <= gx (i + 1)%nat /\ gy j <= p1 p <= gy (j + 1)%nat /\ gz k <= p2 p <= gz (k + 1)%nat).
Proof.
  intros H Hp WX WY WZ. unfold point_in_cell. rewrite (bc_mdim BC), (grid_cf BC) by auto. cbn [bind]. rewrite (grid_faces BC RX) by auto. cbn [bind]. rewrite (grid_cell BC RX) by auto. cbn [bind].
  set (F := map (map (gp gx gy gz)) (outside6 (i, j, k))). change (length (combine (map (fid d) (sides6 (i, j, k))) dirs6)) with (length F).
  assert (D : all3 F). { intros f Hf q Hq. unfold F, outside6 in Hf. cbn [map corners4 rev app In] in Hf. repeat (destruct Hf as [<-|Hf]; [cbn [In] in Hq; repeat (destruct Hq as [<-|Hq]; [reflexivity|]); contradiction|]). contradiction. }
  destruct (@c50_no_triangles_partial p (map (gp gx gy gz) (corners8 (i, j, k))) F Hp) as (r & Er & Hr); [cbn; lia|exact D| |].
  { intros f Hf. unfold F, outside6 in Hf. cbn [map corners4 rev app In] in Hf. repeat (destruct Hf as [<-|Hf]; [cbn; lia|]). contradiction. }
  exists r. split; [exact Er|]. rewrite Hr. clear Hr Er r.
  set (L := [width gx i * width gz k * (p1 p - gy j); width gy j * width gz k * (gx (i + 1)%nat - p0 p); width gx i * width gz k * (gy (j + 1)%nat - p1 p);
             width gy j * width gz k * (p0 p - gx i); width gx i * width gy j * (p2 p - gz k); width gx i * width gy j * (gz (k + 1)%nat - p2 p)]).
  assert (EL : map (fun t => 2 * tdet p t) (all_tris F) = flat_map (fun q => [q; q; q; q]) L).
  { unfold F, L, outside6, all_tris. cbn [map corners4 rev app flat_map tris edges steps fst snd gp]. unfold tdet, det3, width.
    repeat (apply (f_equal2 (@cons R)); [unfold mean, sum_of; cbn [map rsum length INR p0 p1 p2]; field|]). reflexivity. }
  assert (EQ : (forall t, In t (all_tris F) -> 0 <= tdet p t) <-> forall q, In q L -> 0 <= q).
  { split.
    - intros A q I. assert (J : In q (flat_map (fun q => [q; q; q; q]) L)) by (apply in_flat_map; exists q; split; auto; left; auto).
      rewrite <- EL in J. apply in_map_iff in J as (t & <- & J). apply A in J. lra.
    - intros A t I. assert (J : In (2 * tdet p t) (map (fun t => 2 * tdet p t) (all_tris F))) by (apply in_map_iff; eauto).
      rewrite EL in J. apply in_flat_map in J as (q & Iq & J). apply A in Iq. cbn [In] in J. assert (E : q = 2 * tdet p t) by (repeat (destruct J as [J|J]; auto); contradiction). lra. }
  rewrite EQ. clear EQ EL. assert (PM : forall a b c, 0 < a -> 0 < b -> (0 <= a * b * c <-> 0 <= c)).
  { intros a b c Ha Hb. assert (0 < a * b) by (apply Rmult_lt_0_compat; auto). split; intros Q; [|apply Rmult_le_pos; lra].
    destruct (Rle_dec 0 c) as [|N]; auto. exfalso. assert (a * b * - c > 0) by (apply Rmult_lt_0_compat; lra). lra. }
  split.
  - intros A. assert (Q : Forall (fun q => 0 <= q) L) by (apply Forall_forall; auto). unfold L in Q. repeat (apply Forall_cons_iff in Q as [? Q]). rewrite !PM in * by auto. lra.
  - intros A q I. unfold L in I. cbn [In] in I. repeat (destruct I as [<-|I]; [apply PM; auto; lra|]). contradiction.
Qed.
End Inside.
