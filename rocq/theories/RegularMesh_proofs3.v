(** The 3D generator makes the block of the grid it is asked for: the entities. *)
From Coq Require Import Reals Permutation Lra.
From Verif Require Import Base Loop MeshSet_proofs RegularMesh RegularMesh_spec RegularMesh_proofs RegularMesh_proofs2.
Set Implicit Arguments.

Lemma ax_const N ps d g s : ps <> [] -> (forall p, In p ps -> at_axis p d = g) -> s <= 2 -> (g = 0 <-> s = 0) -> (g = at_axis N d <-> s = 2) -> axis_state N ps d s.
Proof.
  intros P H L Z T. split; auto. destruct ps as [|p ps]; [congruence|]. split; [rewrite <- Z|rewrite <- T]; split.
  - intros A. rewrite <- (H p), <- (A p); auto; now left.
  - intros -> q I. auto.
  - intros A. rewrite <- (H p), <- (A p); auto; now left.
  - intros -> q I. auto.
Qed.
Lemma ax_mixed N ps d p q : In p ps -> In q ps -> at_axis p d <> at_axis q d -> axis_state N ps d 1.
Proof.
  intros Ip Iq D. split; [lia|]. split; (split; [|discriminate]); intros A; exfalso; apply D; rewrite (A p Ip), (A q Iq); auto.
Qed.
Lemma coord_grid a b n g : 0 < n -> g <= n -> coord a b n g = grid_point a b n g.
Proof.
  intros P L. unfold coord, grid_point. assert (INR n <> 0%R) by (apply not_0_INR; lia). destruct (Nat.eqb_spec g n) as [->|D]; field; auto.
Qed.
Lemma Forall2_map A B C (Q : A -> B -> Prop) (f : A -> C) (g : B -> C) l l' : Forall2 Q l l' -> (forall x y, Q x y -> f x = g y) -> map f l = map g l'.
Proof. intros F H. induction F; cbn; auto. f_equal; auto. Qed.
Lemma Forall2_In_r A B (Q : A -> B -> Prop) l l' y : Forall2 Q l l' -> In y l' -> exists x, In x l /\ Q x y.
Proof. intros F. induction F; intros I; [easy|]. destruct I as [<-|I]; [exists x; split; auto; now left|]. destruct (IHF I) as (z & I' & q). exists z. split; auto. now right. Qed.
Lemma exactly_app A (l1 l2 : list A) P Q : exactly l1 P -> exactly l2 Q -> (forall x, P x -> Q x -> False) -> exactly (l1 ++ l2) (fun x => P x \/ Q x).
Proof.
  intros (N1 & H1) (N2 & H2) D. split. - apply NoDup_app_iff. split; auto. split; auto. intros x I J. apply H1 in I. apply H2 in J. eauto.
  - intros x. rewrite in_app_iff, H1, H2. tauto.
Qed.
Lemma exactly_iff A (l : list A) P Q : exactly l P -> (forall x, P x <-> Q x) -> exactly l Q.
Proof. intros (N1 & H1) E. split; auto. intros x. now rewrite H1. Qed.
Lemma exactly_map_grid B a b c (f : triple -> B) : (forall t u, In t (grid3 a b c) -> In u (grid3 a b c) -> f t = f u -> t = u) ->
  exactly (map f (grid3 a b c)) (fun x => exists i j k, i < a /\ j < b /\ k < c /\ x = f (i, j, k)).
Proof.
  intros H. split.
  - pose proof (NoDup_grid3 a b c) as ND. revert H ND. generalize (grid3 a b c). induction l as [|t l IH]; intros H ND; cbn; [constructor|]. inversion ND as [|? ? Na Nl]; subst. constructor.
    + intros I. apply in_map_iff in I as (u & E & Iu). apply Na. rewrite (H t u); auto. now left. now right.
    + apply IH; auto. intros; apply H; auto; now right.
  - intros x. rewrite in_map_iff. split.
    + intros (((i, j), k) & <- & I). apply in_grid3 in I as (Li & Lj & Lk). exists i, j, k. auto.
    + intros (i & j & k & Li & Lj & Lk & ->). exists (i, j, k). split; auto. apply in_grid3. auto.
Qed.

Section Block.
Variables (X0 Y0 Z0 X1 Y1 Z1 : R) (NX NY NZ i0 j0 k0 nx ny nz : nat).
Hypotheses (PX : 0 < NX) (PY : 0 < NY) (PZ : 0 < NZ) (BX : i0 + nx <= NX) (BY : j0 + ny <= NY) (BZ : k0 + nz <= NZ).
Let N : gpos := (NX, NY, NZ).
Let lo : gpos := (i0, j0, k0).
Let hi : gpos := (i0 + nx, j0 + ny, k0 + nz).
Definition shift (t : triple) : gpos := let '(i, j, k) := t in (i0 + i, j0 + j, k0 + k).
Definition gpoint (p : gpos) : R * R * R := let '(x, y, z) := p in (grid_point X0 X1 NX x, grid_point Y0 Y1 NY y, grid_point Z0 Z1 NZ z).

Lemma gen_vert_run i j k : i < nx + 1 -> j < ny + 1 -> k < nz + 1 -> exists a b c gdim gid, (a <= 2 /\ (i0 + i = 0 <-> a = 0) /\ (i0 + i = NX <-> a = 2)) /\ (b <= 2 /\ (j0 + j = 0 <-> b = 0) /\ (j0 + j = NY <-> b = 2)) /\ (c <= 2 /\ (k0 + k = 0 <-> c = 0) /\ (k0 + k = NZ <-> c = 2)) /\
  check (st3 a b c) gdim gid = true /\
  gen_vert X0 Y0 Z0 X1 Y1 Z1 NX NY NZ i0 j0 k0 i j k = Ok ((i, j, k), MVert (coord X0 X1 NX (i0 + i), coord Y0 Y1 NY (j0 + j), coord Z0 Z1 NZ (k0 + k)) gdim gid ((i0 + i) * (NY + 1) * (NZ + 1) + (j0 + j) * (NZ + 1) + (k0 + k) + 1)).
Proof.
  intros Li Lj Lk. unfold gen_vert.
  destruct (@side_ix_ok (i0 + i) NX) as (a & -> & La & A0 & A2); [lia|lia|]. destruct (@side_ix_ok (j0 + j) NY) as (b & -> & Lb & B0 & B2); [lia|lia|]. destruct (@side_ix_ok (k0 + k) NZ) as (c & -> & Lc & C0 & C2); [lia|lia|].
  cbn [bind]. destruct (vert_tmpl La Lb Lc) as (gdim & gid & -> & -> & C). cbn [bind]. exists a, b, c, gdim, gid. split; [auto|]. split; [auto|]. split; [auto|]. split; [exact C|]. reflexivity.
Qed.
Lemma vert_classified (x y z a b c gdim gid : nat) : (a <= 2 /\ (x = 0 <-> a = 0) /\ (x = NX <-> a = 2)) -> (b <= 2 /\ (y = 0 <-> b = 0) /\ (y = NY <-> b = 2)) -> (c <= 2 /\ (z = 0 <-> c = 0) /\ (z = NZ <-> c = 2)) ->
  check (st3 a b c) gdim gid = true -> classified N gdim gid [(x, y, z)].
Proof.
  intros (La & A0 & A2) (Lb & B0 & B2) (Lc & C0 & C2) C. apply (@check_ok N [(x, y, z)] (st3 a b c) gdim gid); [|exact C].
  intros d Ld. destruct d as [|[|d]]; unfold st3.
  - apply (@ax_const N [(x, y, z)] 0 x a); [discriminate| |exact La|exact A0|exact A2]. intros p [<-|[]]. reflexivity.
  - apply (@ax_const N [(x, y, z)] 1 y b); [discriminate| |exact Lb|exact B0|exact B2]. intros p [<-|[]]. reflexivity.
  - apply (@ax_const N [(x, y, z)] (S (S d)) z c); [discriminate| |exact Lc|exact C0|exact C2]. intros p [<-|[]]. reflexivity.
Qed.
Lemma num_vert_at (x y z : nat) : num_vert NY NZ [(x, y, z)] = x * (NY + 1) * (NZ + 1) + y * (NZ + 1) + z + 1.
Proof. reflexivity. Qed.
Lemma shift_at i j k : shift (i, j, k) = (i0 + i, j0 + j, k0 + k).
Proof. reflexivity. Qed.
Lemma gen_vert_ok i j k : i < nx + 1 -> j < ny + 1 -> k < nz + 1 -> exists v, gen_vert X0 Y0 Z0 X1 Y1 Z1 NX NY NZ i0 j0 k0 i j k = Ok ((i, j, k), v) /\
  mv_xyz v = gpoint (shift (i, j, k)) /\ mv_glob v = num_vert NY NZ [shift (i, j, k)] /\ classified N (mv_gdim v) (mv_gid v) [shift (i, j, k)].
Proof.
  intros Li Lj Lk. destruct (gen_vert_run Li Lj Lk) as (a & b & c & gdim & gid & A & B & C & K & ->). eexists. split; [reflexivity|]. rewrite shift_at, num_vert_at.
  split; [|split; [|eapply vert_classified; eauto]].
  - clear K A B C. cbn [mv_xyz]. rewrite !coord_grid by lia. reflexivity.
  - reflexivity.
Qed.
Variable keys : list triple.
Hypothesis KEYS : keys = grid3 (nx + 1) (ny + 1) (nz + 1).
Definition node_of (h : nat) : gpos := shift (nth h keys (0, 0, 0)).
Let nv := length keys.
Lemma vh_ok i j k : i < nx + 1 -> j < ny + 1 -> k < nz + 1 -> exists h, vert_handle keys i j k = Ok h /\ node_of h = (i0 + i, j0 + j, k0 + k) /\ h < nv.
Proof.
  intros. destruct (@vert_handle_ok keys i j k) as (h & E & Nh). { rewrite KEYS. now apply in_grid3. }
  exists h. split; auto. unfold node_of. rewrite (nth_error_nth _ _ _ Nh). split; [reflexivity|]. unfold nv. apply nth_error_Some. intros X. pose proof (eq_trans (eq_sym Nh) X). discriminate.
Qed.
Definition ent_ok (num : list gpos -> nat) (corners : gpos -> list gpos) (t : triple) (e : ment) : Prop :=
  map node_of (me_verts e) = corners (shift t) /\ (forall h, In h (me_verts e) -> h < nv) /\ me_glob e = num (corners (shift t)) /\ classified N (me_gdim e) (me_gid e) (corners (shift t)).
Ltac use_vh i j k := let h := fresh "h" in let E := fresh "E" in let P := fresh "P" in let L := fresh "L" in destruct (@vh_ok i j k) as (h & E & P & L); [lia|lia|lia|]; rewrite E; cbn [bind].
Ltac use_side g n s L A B := destruct (@side_ix_ok g n) as (s & -> & L & A & B); [lia|lia|]; cbn [bind].
Ltac fin_verts := split; [cbn [me_verts map mr_verts]; repeat match goal with H : node_of ?h = _ |- _ => rewrite H; clear H end; cbn [shift next]; rewrite <- ?Nat.add_assoc; reflexivity|
  split; [cbn [me_verts mr_verts]; let z := fresh "z" in intros z I; repeat (destruct I as [<-|I]; auto); destruct I|]].
Ltac fixed g := apply ax_const with g; auto; [discriminate|]; cbn [shift next]; intros p I; repeat (destruct I as [<-|I]; [reflexivity|]); destruct I.
Ltac mixed p q := apply (@ax_mixed _ _ _ p q); cbn [shift next In at_axis fst snd]; [auto|auto|clear; lia].

Lemma gen_edge_z_ok i j k : i < nx + 1 -> j < ny + 1 -> k < nz -> exists e, gen_edge_z NX NY NZ i0 j0 k0 keys i j k = Ok e /\ ent_ok (num_edge NY NZ) (fun p => [p; next 2 p]) (i, j, k) e.
Proof.
  intros Li Lj Lk. unfold gen_edge_z. use_vh i j k. use_vh i j (k + 1). use_side (i0 + i) NX a La A0 A2. use_side (j0 + j) NY b Lb B0 B2.
  destruct (edge_tmpl2 La Lb) as (gdim & gid & -> & -> & C). cbn [bind]. eexists. split; [reflexivity|]. fin_verts. cbn [me_glob me_gdim me_gid]. split.
  - cbn [shift next num_edge]. replace (k0 + k <? k0 + k + 1) with true by (clear; symmetry; apply Nat.ltb_lt; lia). clear C. unfold edge_slab. lia.
  - eapply check_ok; [|exact C]. intros d Ld. le2 d; cbn [st3]. + fixed (i0 + i). + fixed (j0 + j). + mixed (i0 + i, j0 + j, k0 + k) (i0 + i, j0 + j, k0 + k + 1).
Qed.
Lemma gen_edge_y_ok i j k : i < nx + 1 -> j < ny -> k < nz + 1 -> exists e, gen_edge_y NX NY NZ i0 j0 k0 keys i j k = Ok e /\ ent_ok (num_edge NY NZ) (fun p => [p; next 1 p]) (i, j, k) e.
Proof.
  intros Li Lj Lk. unfold gen_edge_y. use_vh i j k. use_vh i (j + 1) k. use_side (i0 + i) NX a La A0 A2. use_side (k0 + k) NZ b Lb B0 B2.
  destruct (edge_tmpl1 La Lb) as (gdim & gid & -> & -> & C). cbn [bind]. eexists. split; [reflexivity|]. fin_verts. cbn [me_glob me_gdim me_gid]. split.
  - cbn [shift next num_edge]. rewrite Nat.ltb_irrefl. replace (j0 + j <? j0 + j + 1) with true by (clear; symmetry; apply Nat.ltb_lt; lia). clear C. unfold edge_slab. lia.
  - eapply check_ok; [|exact C]. intros d Ld. le2 d; cbn [st3]. + fixed (i0 + i). + mixed (i0 + i, j0 + j, k0 + k) (i0 + i, j0 + j + 1, k0 + k). + fixed (k0 + k).
Qed.
Lemma gen_edge_x_ok i k j : i < nx -> k < nz + 1 -> j < ny + 1 -> exists e, gen_edge_x NY NZ i0 j0 k0 keys i k j = Ok e /\ ent_ok (num_edge NY NZ) (fun p => [p; next 0 p]) (i, j, k) e.
Proof.
  intros Li Lk Lj. unfold gen_edge_x. use_vh i j k. use_vh (i + 1) j k. use_side (j0 + j) NY a La A0 A2. use_side (k0 + k) NZ b Lb B0 B2.
  destruct (edge_tmpl0 La Lb) as (gdim & gid & -> & -> & C). cbn [bind]. eexists. split; [reflexivity|]. fin_verts. cbn [me_glob me_gdim me_gid]. split.
  - cbn [shift next num_edge]. rewrite !Nat.ltb_irrefl. clear C. unfold edge_slab. lia.
  - eapply check_ok; [|exact C]. intros d Ld. le2 d; cbn [st3]. + mixed (i0 + i, j0 + j, k0 + k) (i0 + i + 1, j0 + j, k0 + k). + fixed (j0 + j). + fixed (k0 + k).
Qed.
Lemma gen_face_x_ok i j k : i < nx + 1 -> j < ny -> k < nz -> exists e, gen_face_x NX NY NZ i0 j0 k0 keys i j k = Ok e /\ ent_ok (num_face NY NZ) (fun p => [p; next 1 p; next 2 (next 1 p); next 2 p]) (i, j, k) e.
Proof.
  intros Li Lj Lk. unfold gen_face_x. use_vh i j k. use_vh i (j + 1) k. use_vh i (j + 1) (k + 1). use_vh i j (k + 1). use_side (i0 + i) NX a La A0 A2.
  destruct (face_tmpl0 La) as (gdim & gid & -> & -> & C). cbn [bind]. eexists. split; [reflexivity|]. fin_verts. cbn [me_glob me_gdim me_gid]. split.
  - cbn [shift next num_face]. rewrite Nat.eqb_refl. clear C. unfold face_slab. lia.
  - eapply check_ok; [|exact C]. intros d Ld. le2 d; cbn [st3]. + fixed (i0 + i). + mixed (i0 + i, j0 + j, k0 + k) (i0 + i, j0 + j + 1, k0 + k). + mixed (i0 + i, j0 + j, k0 + k) (i0 + i, j0 + j, k0 + k + 1).
Qed.
Lemma gen_face_y_ok i j k : i < nx -> j < ny + 1 -> k < nz -> exists e, gen_face_y NY NZ i0 j0 k0 keys i j k = Ok e /\ ent_ok (num_face NY NZ) (fun p => [p; next 0 p; next 2 (next 0 p); next 2 p]) (i, j, k) e.
Proof.
  intros Li Lj Lk. unfold gen_face_y. use_vh i j k. use_vh (i + 1) j k. use_vh (i + 1) j (k + 1). use_vh i j (k + 1). use_side (j0 + j) NY a La A0 A2.
  destruct (face_tmpl1 La) as (gdim & gid & -> & -> & C). cbn [bind]. eexists. split; [reflexivity|]. fin_verts. cbn [me_glob me_gdim me_gid]. split.
  - cbn [shift next num_face]. replace (i0 + i =? i0 + i + 1) with false by (clear; symmetry; apply Nat.eqb_neq; lia). rewrite Nat.eqb_refl. clear C. unfold face_slab. lia.
  - eapply check_ok; [|exact C]. intros d Ld. le2 d; cbn [st3]. + mixed (i0 + i, j0 + j, k0 + k) (i0 + i + 1, j0 + j, k0 + k). + fixed (j0 + j). + mixed (i0 + i, j0 + j, k0 + k) (i0 + i, j0 + j, k0 + k + 1).
Qed.
Lemma gen_face_z_ok i j k : i < nx -> j < ny -> k < nz + 1 -> exists e, gen_face_z NY NZ i0 j0 k0 keys i j k = Ok e /\ ent_ok (num_face NY NZ) (fun p => [p; next 0 p; next 1 (next 0 p); next 1 p]) (i, j, k) e.
Proof.
  intros Li Lj Lk. unfold gen_face_z. use_vh i j k. use_vh (i + 1) j k. use_vh (i + 1) (j + 1) k. use_vh i (j + 1) k. use_side (k0 + k) NZ a La A0 A2.
  destruct (face_tmpl2 La) as (gdim & gid & -> & -> & C). cbn [bind]. eexists. split; [reflexivity|]. fin_verts. cbn [me_glob me_gdim me_gid]. split.
  - cbn [shift next num_face]. replace (i0 + i =? i0 + i + 1) with false by (clear; symmetry; apply Nat.eqb_neq; lia). replace (j0 + j =? j0 + j + 1) with false by (clear; symmetry; apply Nat.eqb_neq; lia). clear C. unfold face_slab. lia.
  - eapply check_ok; [|exact C]. intros d Ld. le2 d; cbn [st3]. + mixed (i0 + i, j0 + j, k0 + k) (i0 + i + 1, j0 + j, k0 + k). + mixed (i0 + i, j0 + j, k0 + k) (i0 + i, j0 + j + 1, k0 + k). + fixed (k0 + k).
Qed.
Definition cube (p : gpos) : list gpos := [p; next 0 p; next 1 (next 0 p); next 1 p; next 2 p; next 2 (next 0 p); next 2 (next 1 (next 0 p)); next 2 (next 1 p)].
Definition reg_ok (t : triple) (r : mreg) : Prop :=
  map node_of (mr_verts r) = cube (shift t) /\ (forall h, In h (mr_verts r) -> h < nv) /\ mr_glob r = num_reg NY NZ (cube (shift t)) /\ mr_gid r = 1.
Lemma gen_reg_ok i j k : i < nx -> j < ny -> k < nz -> exists r, gen_reg NY NZ i0 j0 k0 keys i j k = Ok r /\ reg_ok (i, j, k) r.
Proof.
  intros Li Lj Lk. unfold gen_reg. use_vh i j k. use_vh (i + 1) j k. use_vh (i + 1) (j + 1) k. use_vh i (j + 1) k. use_vh i j (k + 1). use_vh (i + 1) j (k + 1). use_vh (i + 1) (j + 1) (k + 1). use_vh i (j + 1) (k + 1).
  eexists. split; [reflexivity|]. unfold reg_ok, cube. fin_verts. cbn [mr_glob mr_gid cube shift num_reg]. auto.
Qed.
End Block.
