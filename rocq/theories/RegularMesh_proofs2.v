(** The 3D generator makes the block of the grid it is asked for. *)
From Coq Require Import Reals Permutation Lra.
From Verif Require Import Base Loop MeshSet_proofs RegularMesh RegularMesh_spec RegularMesh_proofs.
Set Implicit Arguments.

(** ** the numbers of the entities in the whole grid *)
Section Numbers.
Variables NX NY NZ : nat.
Definition num_vert (l : list gpos) : nat := match l with (x, y, z) :: _ => x * (NY + 1) * (NZ + 1) + y * (NZ + 1) + z + 1 | [] => 0 end.
Definition edge_slab : nat := (NY + 1) * NZ + NY * (NZ + 1) + (NY + 1) * (NZ + 1).
Definition num_edge (l : list gpos) : nat :=
  match l with
  | (x, y, z) :: (x', y', z') :: _ =>
    if z <? z' then x * edge_slab + y * NZ + z + 1
    else if y <? y' then x * edge_slab + (NY + 1) * NZ + y * (NZ + 1) + z + 1
    else x * edge_slab + (NY + 1) * NZ + NY * (NZ + 1) + y * (NZ + 1) + z + 1
  | _ => 0 end.
Definition face_slab : nat := NY * NZ + NY * (NZ + 1) + NZ * (NY + 1).
Definition num_face (l : list gpos) : nat :=
  match l with
  | (x, y, z) :: _ :: (x', y', z') :: _ =>
    if x =? x' then x * face_slab + y * NZ + z + 1
    else if y =? y' then x * face_slab + NY * NZ + y * NZ + z + 1
    else x * face_slab + NY * NZ + (NY + 1) * NZ + y * (NZ + 1) + z + 1
  | _ => 0 end.
Definition num_reg (l : list gpos) : nat := match l with (x, y, z) :: _ => x * NY * NZ + y * NZ + z + 1 | [] => 0 end.

Lemma radix_inj w a r a' r' : r < w -> r' < w -> a * w + r = a' * w + r' -> a = a' /\ r = r'.
Proof.
  intros L L' E. assert (a = a') as -> by (destruct (Nat.lt_trichotomy a a') as [H|[H|H]]; [exfalso; nia|auto|exfalso; nia]). split; lia.
Qed.
Lemma radix_ex w n m x : 0 < w -> x < n * w + m -> m <= w -> exists a r, x = a * w + r /\ r < w /\ (a < n \/ a = n /\ r < m).
Proof.
  intros P L M. exists (x / w), (x mod w). pose proof (Nat.div_mod x w ltac:(lia)) as E. pose proof (Nat.mod_upper_bound x w ltac:(lia)) as U.
  split; [lia|]. split; auto. destruct (Nat.lt_trichotomy (x / w) n) as [H|[H|H]]; auto. - right. split; auto. nia. - exfalso. nia.
Qed.
(** two digits: y*w + z with z < w *)
Lemma radix2_lt w n y z : y < n -> z < w -> y * w + z < n * w.
Proof. intros. nia. Qed.
Lemma radix2_ex w n r : r < n * w -> exists y z, r = y * w + z /\ y < n /\ z < w.
Proof.
  intros L. assert (0 < w) as P by (destruct w; lia). destruct (@radix_ex w n 0 r) as (a & b & E & B & [A|(_ & C)]); try lia. exists a, b. auto.
Qed.
End Numbers.

Lemma in_box3 lx ly lz hx hy hz x y z : in_box (lx, ly, lz) (hx, hy, hz) (x, y, z) <-> (lx <= x <= hx) /\ (ly <= y <= hy) /\ (lz <= z <= hz).
Proof.
  unfold in_box. split. - intros H. pose proof (H 0 ltac:(lia)). pose proof (H 1 ltac:(lia)). pose proof (H 2 ltac:(lia)). cbn in *. lia.
  - intros (A & B & C) d L. le2 d; cbn; auto.
Qed.

Section NumbersOk.
Variables NX NY NZ : nat.
Hypotheses (PX : 0 < NX) (PY : 0 < NY) (PZ : 0 < NZ).
Let O : gpos := (0, 0, 0).
Let N : gpos := (NX, NY, NZ).
Lemma numbers_vert : numbers (is_node O N) (num_vert NY NZ) ((NX + 1) * (NY + 1) * (NZ + 1)).
Proof.
  split; [|split].
  - intros l (((x, y), z) & B & ->). apply in_box3 in B. cbn.
    assert (y * (NZ + 1) + z < (NY + 1) * (NZ + 1)) as L by (apply radix2_lt; lia). pose proof (@radix2_lt _ (NX + 1) x _ ltac:(lia) L). nia.
  - intros l l' (((x, y), z) & B & ->) (((x', y'), z') & B' & ->) E. apply in_box3 in B, B'. cbn in E.
    assert (y * (NZ + 1) + z < (NY + 1) * (NZ + 1)) as L by (apply radix2_lt; lia). assert (y' * (NZ + 1) + z' < (NY + 1) * (NZ + 1)) as L' by (apply radix2_lt; lia).
    destruct (@radix_inj _ x _ x' _ L L') as (-> & E'); [nia|]. destruct (@radix_inj (NZ + 1) y z y' z') as (-> & ->); lia || auto.
  - intros i Hi. destruct (@radix2_ex ((NY + 1) * (NZ + 1)) (NX + 1) (i - 1)) as (x & r & E & Lx & Lr); [nia|].
    destruct (@radix2_ex (NZ + 1) (NY + 1) r Lr) as (y & z & -> & Ly & Lz).
    exists [(x, y, z)]. split; [exists (x, y, z); split; auto; apply in_box3; lia|]. cbn. nia.
Qed.
Lemma numbers_reg : numbers (is_cube O N) (num_reg NY NZ) (NX * NY * NZ).
Proof.
  split; [|split].
  - intros l (((x, y), z) & B & B' & ->). cbn [next] in B'. apply in_box3 in B, B'. cbn -[Nat.mul Nat.add].
    assert (y * NZ + z < NY * NZ) as L by (apply radix2_lt; lia). pose proof (@radix2_lt _ NX x _ ltac:(lia) L). nia.
  - intros l l' (((x, y), z) & B1 & B2 & ->) (((x', y'), z') & B1' & B2' & ->) E. cbn [next] in B2, B2'. apply in_box3 in B1, B2, B1', B2'. cbn [num_reg] in E.
    assert (y * NZ + z < NY * NZ) as L by (apply radix2_lt; lia). assert (y' * NZ + z' < NY * NZ) as L' by (apply radix2_lt; lia).
    destruct (@radix_inj _ x _ x' _ L L') as (-> & E'); [nia|]. destruct (@radix_inj NZ y z y' z') as (-> & ->); lia || auto.
  - intros i Hi. destruct (@radix2_ex (NY * NZ) NX (i - 1)) as (x & r & E & Lx & Lr); [nia|].
    destruct (@radix2_ex NZ NY r Lr) as (y & z & -> & Ly & Lz).
    eexists. split; [exists (x, y, z); split; [apply in_box3; lia|split; [cbn [next]; apply in_box3; lia|reflexivity]]|]. cbn [num_reg]. nia.
Qed.
(** an edge by direction *)
Lemma edge_cases l : is_edge O N l -> exists x y z,
  (l = [(x, y, z); (x, y, z + 1)] /\ x <= NX /\ y < NY + 1 /\ z < NZ /\ num_edge NY NZ l = x * edge_slab NY NZ + (y * NZ + z) + 1) \/
  (l = [(x, y, z); (x, y + 1, z)] /\ x <= NX /\ y < NY /\ z < NZ + 1 /\ num_edge NY NZ l = x * edge_slab NY NZ + ((NY + 1) * NZ + (y * (NZ + 1) + z)) + 1) \/
  (l = [(x, y, z); (x + 1, y, z)] /\ x < NX /\ y < NY + 1 /\ z < NZ + 1 /\ num_edge NY NZ l = x * edge_slab NY NZ + ((NY + 1) * NZ + NY * (NZ + 1) + (y * (NZ + 1) + z)) + 1).
Proof.
  intros (d & ((x, y), z) & L & B & B' & ->). exists x, y, z. le2 d; cbn [next] in *; apply in_box3 in B, B'; cbn [num_edge].
  - right. right. rewrite !Nat.ltb_irrefl. repeat split; lia.
  - right. left. rewrite Nat.ltb_irrefl. replace (y <? y + 1) with true by (symmetry; apply Nat.ltb_lt; lia). repeat split; lia.
  - left. replace (z <? z + 1) with true by (symmetry; apply Nat.ltb_lt; lia). repeat split; lia.
Qed.
Ltac spl := repeat match goal with |- _ /\ _ => split end; try reflexivity; solve [apply in_box3; lia|lia].
Ltac slab := unfold edge_slab, face_slab.
Lemma numbers_edge : numbers (is_edge O N) (num_edge NY NZ) (NX * edge_slab NY NZ + ((NY + 1) * NZ + NY * (NZ + 1))).
Proof.
  split; [|split].
  - intros l I. destruct (edge_cases I) as (x & y & z & [(_ & Lx & Ly & Lz & ->)|[(_ & Lx & Ly & Lz & ->)|(_ & Lx & Ly & Lz & ->)]]).
    + pose proof (radix2_lt Ly Lz). assert (x * edge_slab NY NZ <= NX * edge_slab NY NZ) by (apply Nat.mul_le_mono_r; lia). lia.
    + pose proof (radix2_lt Ly Lz). assert (x * edge_slab NY NZ <= NX * edge_slab NY NZ) by (apply Nat.mul_le_mono_r; lia). lia.
    + pose proof (radix2_lt Ly Lz). assert ((x + 1) * edge_slab NY NZ <= NX * edge_slab NY NZ) as H1 by (apply Nat.mul_le_mono_r; lia). rewrite Nat.mul_add_distr_r in H1. unfold edge_slab in H1 at 2. lia.
  - intros l l' I I' E. destruct (edge_cases I) as (x & y & z & C). destruct (edge_cases I') as (x' & y' & z' & C').
    destruct C as [(-> & Lx & Ly & Lz & W)|[(-> & Lx & Ly & Lz & W)|(-> & Lx & Ly & Lz & W)]];
    destruct C' as [(-> & Lx' & Ly' & Lz' & W')|[(-> & Lx' & Ly' & Lz' & W')|(-> & Lx' & Ly' & Lz' & W')]];
    rewrite W, W' in E; clear W W'; pose proof (radix2_lt Ly Lz); pose proof (radix2_lt Ly' Lz'); apply Nat.add_cancel_r in E;
    (apply radix_inj in E as (-> & E'); [|slab; lia|slab; lia]); try (exfalso; lia).
    all: try (apply Nat.add_cancel_l in E'). all: apply radix_inj in E' as (-> & ->); auto.
  - intros i Hi. destruct (@radix_ex (edge_slab NY NZ) NX ((NY + 1) * NZ + NY * (NZ + 1)) (i - 1)) as (x & r & E & Lr & C); [slab; nia|lia|slab; lia|].
    destruct (Nat.lt_ge_cases r ((NY + 1) * NZ)) as [H|H]; [|destruct (Nat.lt_ge_cases r ((NY + 1) * NZ + NY * (NZ + 1))) as [H'|H']].
    + destruct (@radix2_ex NZ (NY + 1) r H) as (y & z & -> & Ly & Lz). exists [(x, y, z); next 2 (x, y, z)]. split.
      * exists 2, (x, y, z). cbn [next]. spl.
      * cbn [next num_edge]. replace (z <? z + 1) with true by (symmetry; apply Nat.ltb_lt; lia). lia.
    + destruct (@radix2_ex (NZ + 1) NY (r - (NY + 1) * NZ)) as (y & z & E2 & Ly & Lz); [lia|]. exists [(x, y, z); next 1 (x, y, z)]. split.
      * exists 1, (x, y, z). cbn [next]. spl.
      * cbn [next num_edge]. rewrite Nat.ltb_irrefl. replace (y <? y + 1) with true by (symmetry; apply Nat.ltb_lt; lia). lia.
    + destruct (@radix2_ex (NZ + 1) (NY + 1) (r - ((NY + 1) * NZ + NY * (NZ + 1)))) as (y & z & E2 & Ly & Lz); [unfold edge_slab in Lr; lia|]. exists [(x, y, z); next 0 (x, y, z)]. split.
      * exists 0, (x, y, z). cbn [next]. spl.
      * cbn [next num_edge]. rewrite !Nat.ltb_irrefl. lia.
Qed.
Lemma face_cases l : is_square O N l -> exists x y z,
  (l = [(x, y, z); (x, y + 1, z); (x, y + 1, z + 1); (x, y, z + 1)] /\ x <= NX /\ y < NY /\ z < NZ /\ num_face NY NZ l = x * face_slab NY NZ + (y * NZ + z) + 1) \/
  (l = [(x, y, z); (x + 1, y, z); (x + 1, y, z + 1); (x, y, z + 1)] /\ x < NX /\ y < NY + 1 /\ z < NZ /\ num_face NY NZ l = x * face_slab NY NZ + (NY * NZ + (y * NZ + z)) + 1) \/
  (l = [(x, y, z); (x + 1, y, z); (x + 1, y + 1, z); (x, y + 1, z)] /\ x < NX /\ y < NY /\ z < NZ + 1 /\ num_face NY NZ l = x * face_slab NY NZ + (NY * NZ + (NY + 1) * NZ + (y * (NZ + 1) + z)) + 1).
Proof.
  intros (d & e & ((x, y), z) & L & L' & B & B' & ->). exists x, y, z. assert (d = 1 /\ e = 2 \/ d = 0 /\ e = 2 \/ d = 0 /\ e = 1) as [(-> & ->)|[(-> & ->)|(-> & ->)]] by lia;
  cbn [next] in *; apply in_box3 in B, B'; cbn [num_face].
  - left. rewrite Nat.eqb_refl. repeat split; lia.
  - right. left. replace (x =? x + 1) with false by (symmetry; apply Nat.eqb_neq; lia). rewrite Nat.eqb_refl. repeat split; lia.
  - right. right. replace (x =? x + 1) with false by (symmetry; apply Nat.eqb_neq; lia). replace (y =? y + 1) with false by (symmetry; apply Nat.eqb_neq; lia). repeat split; lia.
Qed.
Lemma numbers_face : numbers (is_square O N) (num_face NY NZ) (NX * face_slab NY NZ + NY * NZ).
Proof.
  split; [|split].
  - intros l I. destruct (face_cases I) as (x & y & z & [(_ & Lx & Ly & Lz & ->)|[(_ & Lx & Ly & Lz & ->)|(_ & Lx & Ly & Lz & ->)]]).
    + pose proof (radix2_lt Ly Lz). assert (x * face_slab NY NZ <= NX * face_slab NY NZ) by (apply Nat.mul_le_mono_r; lia). lia.
    + pose proof (radix2_lt Ly Lz). assert ((x + 1) * face_slab NY NZ <= NX * face_slab NY NZ) as H1 by (apply Nat.mul_le_mono_r; lia). rewrite Nat.mul_add_distr_r in H1. unfold face_slab in H1 at 2. lia.
    + pose proof (radix2_lt Ly Lz). assert ((x + 1) * face_slab NY NZ <= NX * face_slab NY NZ) as H1 by (apply Nat.mul_le_mono_r; lia). rewrite Nat.mul_add_distr_r in H1. unfold face_slab in H1 at 2. lia.
  - intros l l' I I' E. destruct (face_cases I) as (x & y & z & C). destruct (face_cases I') as (x' & y' & z' & C').
    destruct C as [(-> & Lx & Ly & Lz & W)|[(-> & Lx & Ly & Lz & W)|(-> & Lx & Ly & Lz & W)]];
    destruct C' as [(-> & Lx' & Ly' & Lz' & W')|[(-> & Lx' & Ly' & Lz' & W')|(-> & Lx' & Ly' & Lz' & W')]];
    rewrite W, W' in E; clear W W'; pose proof (radix2_lt Ly Lz); pose proof (radix2_lt Ly' Lz'); apply Nat.add_cancel_r in E;
    (apply radix_inj in E as (-> & E'); [|slab; lia|slab; lia]); try (exfalso; lia).
    all: try (apply Nat.add_cancel_l in E'). all: apply radix_inj in E' as (-> & ->); auto.
  - intros i Hi. assert (0 < face_slab NY NZ) by (slab; nia). destruct (@radix_ex (face_slab NY NZ) NX (NY * NZ) (i - 1)) as (x & r & E & Lr & C); [auto|lia|slab; lia|].
    destruct (Nat.lt_ge_cases r (NY * NZ)) as [H'|H']; [|destruct (Nat.lt_ge_cases r (NY * NZ + (NY + 1) * NZ)) as [H2|H2]].
    + destruct (@radix2_ex NZ NY r H') as (y & z & -> & Ly & Lz). exists [(x, y, z); next 1 (x, y, z); next 2 (next 1 (x, y, z)); next 2 (x, y, z)]. split.
      * exists 1, 2, (x, y, z). cbn [next]. spl.
      * cbn [next num_face]. rewrite Nat.eqb_refl. lia.
    + destruct (@radix2_ex NZ (NY + 1) (r - NY * NZ)) as (y & z & E2 & Ly & Lz); [lia|]. exists [(x, y, z); next 0 (x, y, z); next 2 (next 0 (x, y, z)); next 2 (x, y, z)]. split.
      * exists 0, 2, (x, y, z). cbn [next]. spl.
      * cbn [next num_face]. replace (x =? x + 1) with false by (symmetry; apply Nat.eqb_neq; lia). rewrite Nat.eqb_refl. lia.
    + destruct (@radix2_ex (NZ + 1) NY (r - (NY * NZ + (NY + 1) * NZ))) as (y & z & E2 & Ly & Lz); [unfold face_slab in Lr; lia|]. exists [(x, y, z); next 0 (x, y, z); next 1 (next 0 (x, y, z)); next 1 (x, y, z)]. split.
      * exists 0, 1, (x, y, z). cbn [next]. spl.
      * cbn [next num_face]. replace (x =? x + 1) with false by (symmetry; apply Nat.eqb_neq; lia). replace (y =? y + 1) with false by (symmetry; apply Nat.eqb_neq; lia). lia.
Qed.
End NumbersOk.
