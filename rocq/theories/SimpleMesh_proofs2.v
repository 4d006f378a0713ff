(** Structured positions: numbering facts used by the 3D connectivity proof. *)
From Verif Require Import Base Loop SimpleMesh SimpleMesh_spec SimpleMesh_proofs.
Set Implicit Arguments.

Definition ncells (d : dims) := nx d * ny d * nz d.
Definition nnodes (d : dims) := (nx d + 1) * (ny d + 1) * (nz d + 1).
Definition nxy (d : dims) := nx d * ny d * (nz d + 1).
Definition nxz (d : dims) := nx d * (ny d + 1) * nz d.
Definition nyz (d : dims) := (nx d + 1) * ny d * nz d.
Definition nfaces (d : dims) :=
  (nx d + 1) * ny d * nz d + nx d * (ny d + 1) * nz d + nx d * ny d * (nz d + 1).

Lemma nfaces_eq d : nfaces d = nxy d + nxz d + nyz d.
Proof. unfold nfaces, nxy, nxz, nyz. lia. Qed.

Lemma cell_numbers d : numbers (cell_at d) (cid d) (ncells d).
Proof.
  unfold numbers, ncells; split; [|split].
  - intros [[i j] k] (H1 & H2 & H3). apply lin_lt; auto.
  - intros [[i j] k] [[i' j'] k'] (H1 & H2 & H3) (H4 & H5 & H6) E.
    apply lin_inj in E; auto. destruct E as (-> & -> & ->); auto.
  - intros c Hc. destruct (dec_bounds _ _ _ Hc) as (B1 & B2 & B3 & E).
    exists (dec_i (nx d) c, dec_j (nx d) (ny d) c, dec_k (nx d) (ny d) c); simpl; auto.
Qed.

Lemma node_numbers d : numbers (node_at d) (nid d) (nnodes d).
Proof.
  unfold numbers, nnodes; split; [|split].
  - intros [[i j] k] (H1 & H2 & H3). apply lin_lt; lia.
  - intros [[i j] k] [[i' j'] k'] (H1 & H2 & H3) (H4 & H5 & H6) E.
    apply lin_inj in E; try lia. destruct E as (-> & -> & ->); auto.
  - intros c Hc. destruct (dec_bounds _ _ _ Hc) as (B1 & B2 & B3 & E).
    exists (dec_i (nx d + 1) c, dec_j (nx d + 1) (ny d + 1) c, dec_k (nx d + 1) (ny d + 1) c); simpl.
    split; [lia|]. auto.
Qed.

Lemma xz_base d i j k : xzface_index d i j k = i + j * nx d + k * nx d * (ny d + 1) + nxy d.
Proof. unfold xzface_index, xyface_index, nxy. ring. Qed.
Lemma yz_base d i j k : yzface_index d i j k = i + j * (nx d + 1) + k * (nx d + 1) * ny d + (nxy d + nxz d).
Proof. unfold yzface_index. rewrite xz_base. unfold nxz. ring. Qed.

Lemma fid_range d f : face_at d f ->
  match f with
  | FXY _ _ _ => fid d f < nxy d
  | FXZ _ _ _ => nxy d <= fid d f < nxy d + nxz d
  | FYZ _ _ _ => nxy d + nxz d <= fid d f < nxy d + nxz d + nyz d
  end.
Proof.
  destruct f as [i j k|i j k|i j k]; simpl; intros (H1 & H2 & H3); rewrite ?xz_base, ?yz_base.
  - apply lin_lt; lia.
  - assert (L := @lin_lt (nx d) (ny d + 1) (nz d) i j k). unfold nxz. lia.
  - assert (L := @lin_lt (nx d + 1) (ny d) (nz d) i j k). unfold nyz. lia.
Qed.

Lemma fid_inj d f g : face_at d f -> face_at d g -> fid d f = fid d g -> f = g.
Proof.
  intros Hf Hg E. assert (Rf := fid_range d f Hf). assert (Rg := fid_range d g Hg).
  destruct f as [i j k|i j k|i j k], g as [i' j' k'|i' j' k'|i' j' k'];
    try (simpl in *; lia);
    simpl in Hf, Hg, E; rewrite ?xz_base, ?yz_base in E.
  - apply lin_inj in E; try lia. destruct E as (-> & -> & ->); auto.
  - assert (E' : i + j * nx d + k * nx d * (ny d + 1) = i' + j' * nx d + k' * nx d * (ny d + 1)) by lia.
    apply lin_inj in E'; try lia. destruct E' as (-> & -> & ->); auto.
  - assert (E' : i + j * (nx d + 1) + k * (nx d + 1) * ny d = i' + j' * (nx d + 1) + k' * (nx d + 1) * ny d) by lia.
    apply lin_inj in E'; try lia. destruct E' as (-> & -> & ->); auto.
Qed.

(** decoding an id back to the position *)
Definition cpos (d : dims) (c : nat) : pos3 := (dec_i (nx d) c, dec_j (nx d) (ny d) c, dec_k (nx d) (ny d) c).
Definition npos (d : dims) (n : nat) : pos3 :=
  (dec_i (nx d + 1) n, dec_j (nx d + 1) (ny d + 1) n, dec_k (nx d + 1) (ny d + 1) n).
Definition fpos (d : dims) (f : nat) : sface :=
  if f <? nxy d then FXY (dec_i (nx d) f) (dec_j (nx d) (ny d) f) (dec_k (nx d) (ny d) f)
  else if f <? nxy d + nxz d then
    let g := f - nxy d in FXZ (dec_i (nx d) g) (dec_j (nx d) (ny d + 1) g) (dec_k (nx d) (ny d + 1) g)
  else let g := f - (nxy d + nxz d) in
    FYZ (dec_i (nx d + 1) g) (dec_j (nx d + 1) (ny d) g) (dec_k (nx d + 1) (ny d) g).

Lemma cpos_ok d c : c < ncells d -> cell_at d (cpos d c) /\ cid d (cpos d c) = c.
Proof. intros H. destruct (dec_bounds _ _ _ H) as (B1 & B2 & B3 & E). simpl; auto. Qed.
Lemma npos_ok d n : n < nnodes d -> node_at d (npos d n) /\ nid d (npos d n) = n.
Proof. intros H. destruct (dec_bounds _ _ _ H) as (B1 & B2 & B3 & E). simpl. split; [lia|auto]. Qed.
Lemma fpos_ok d f : f < nfaces d -> face_at d (fpos d f) /\ fid d (fpos d f) = f.
Proof.
  rewrite nfaces_eq. intros H. unfold fpos.
  destruct (Nat.ltb_spec f (nxy d)) as [L|L].
  - unfold nxy in L. destruct (dec_bounds _ _ _ L) as (B1 & B2 & B3 & E). simpl.
    split; [lia|]. exact E.
  - destruct (Nat.ltb_spec f (nxy d + nxz d)) as [L2|L2].
    + assert (L3 : f - nxy d < nx d * (ny d + 1) * nz d) by (unfold nxz in L2; lia).
      destruct (dec_bounds _ _ _ L3) as (B1 & B2 & B3 & E). cbn [face_at fid].
      split; [lia|]. rewrite xz_base. lia.
    + assert (L3 : f - (nxy d + nxz d) < (nx d + 1) * ny d * nz d) by (unfold nyz in H; lia).
      destruct (dec_bounds _ _ _ L3) as (B1 & B2 & B3 & E). cbn [face_at fid].
      split; [lia|]. rewrite yz_base. lia.
Qed.

Lemma face_numbers d : numbers (face_at d) (fid d) (nfaces d).
Proof.
  split; [|split].
  - intros f Hf. apply fid_range in Hf. rewrite nfaces_eq. destruct f; lia.
  - intros f g; apply fid_inj.
  - intros i Hi. exists (fpos d i). apply fpos_ok; auto.
Qed.

Lemma cid_inj d p q : cell_at d p -> cell_at d q -> cid d p = cid d q -> p = q.
Proof. apply (cell_numbers d). Qed.
Lemma nid_inj d p q : node_at d p -> node_at d q -> nid d p = nid d q -> p = q.
Proof. apply (node_numbers d). Qed.
Lemma cid_lt d p : cell_at d p -> cid d p < ncells d.
Proof. apply (cell_numbers d). Qed.
Lemma nid_lt d p : node_at d p -> nid d p < nnodes d.
Proof. apply (node_numbers d). Qed.
Lemma fid_lt d p : face_at d p -> fid d p < nfaces d.
Proof. apply (face_numbers d). Qed.
Lemma cpos_cid d p : cell_at d p -> cpos d (cid d p) = p.
Proof.
  intros H. apply (@cid_inj d); auto; apply cpos_ok; apply cid_lt; auto.
Qed.
Lemma npos_nid d p : node_at d p -> npos d (nid d p) = p.
Proof. intros H. apply (@nid_inj d); auto; apply npos_ok; apply nid_lt; auto. Qed.
Lemma fpos_fid d p : face_at d p -> fpos d (fid d p) = p.
Proof. intros H. apply (@fid_inj d); auto; apply fpos_ok; apply fid_lt; auto. Qed.

(** the corner and side lists, in the order of the source *)
Definition corners8 (p : pos3) : list pos3 :=
  let '(i, j, k) := p in
  [(i, j, k); (i + 1, j, k); (i + 1, j + 1, k); (i, j + 1, k);
   (i, j, k + 1); (i + 1, j, k + 1); (i + 1, j + 1, k + 1); (i, j + 1, k + 1)].
Definition sides6 (p : pos3) : list sface :=
  let '(i, j, k) := p in
  [FXZ i j k; FYZ (i + 1) j k; FXZ i (j + 1) k; FYZ i j k; FXY i j k; FXY i j (k + 1)].
Definition dirs6 : list Z := [1; 1; -1; -1; -1; 1]%Z.
Definition corners4 (f : sface) : list pos3 :=
  match f with
  | FXY i j k => [(i, j, k); (i + 1, j, k); (i + 1, j + 1, k); (i, j + 1, k)]
  | FXZ i j k => [(i, j, k); (i + 1, j, k); (i + 1, j, k + 1); (i, j, k + 1)]
  | FYZ i j k => [(i, j, k); (i, j + 1, k); (i, j + 1, k + 1); (i, j, k + 1)]
  end.

Lemma corners8_spec q p : In q (corners8 p) <-> corner_of_cell q p.
Proof.
  destruct q as [[a b] c], p as [[i j] k]; simpl. split.
  - intros H; repeat destruct H as [H|H]; try (injection H as <- <- <-; lia); tauto.
  - intros ([->| ->] & [->| ->] & [->| ->]); tauto.
Qed.
Lemma corners4_spec q f : In q (corners4 f) <-> corner_of_face q f.
Proof.
  destruct q as [[a b] c], f as [i j k|i j k|i j k]; simpl; (split;
    [intros H; repeat destruct H as [H|H]; try (injection H as <- <- <-; lia); tauto|]).
  - intros ([->| ->] & [->| ->] & ->); tauto.
  - intros ([->| ->] & -> & [->| ->]); tauto.
  - intros (-> & [->| ->] & [->| ->]); tauto.
Qed.
Lemma sides6_spec f p : In f (sides6 p) <-> side_of_cell f p.
Proof.
  destruct p as [[i j] k], f as [a b c|a b c|a b c]; simpl; (split;
    [intros H; repeat destruct H as [H|H]; try discriminate; try (injection H as <- <- <-; lia); tauto|]).
  - intros (-> & -> & [->| ->]); tauto.
  - intros (-> & [->| ->] & ->); tauto.
  - intros ([->| ->] & -> & ->); tauto.
Qed.

Lemma corners8_at d p : cell_at d p -> forall q, In q (corners8 p) -> node_at d q.
Proof. intros H q Hq. apply corners8_spec in Hq. destruct p as [[i j] k], q as [[a b] c]; simpl in *. lia. Qed.
Lemma corners4_at d f : face_at d f -> forall q, In q (corners4 f) -> node_at d q.
Proof.
  intros H q Hq. apply corners4_spec in Hq.
  destruct q as [[a b] c], f as [i j k|i j k|i j k]; simpl in *; lia.
Qed.
Lemma sides6_at d p : cell_at d p -> forall f, In f (sides6 p) -> face_at d f.
Proof.
  intros H f Hf. apply sides6_spec in Hf.
  destruct p as [[a b] c], f as [i j k|i j k|i j k]; simpl in *; lia.
Qed.

Ltac nodup_lists :=
  repeat match goal with
  | |- NoDup [] => constructor
  | |- NoDup (_ :: _) => constructor; [simpl; intros HH; repeat destruct HH as [HH|HH]; try discriminate HH; try (injection HH; lia); tauto|]
  end.

Lemma corners8_NoDup p : NoDup (corners8 p).
Proof. destruct p as [[i j] k]; simpl. nodup_lists. Qed.
Lemma corners4_NoDup f : NoDup (corners4 f).
Proof. destruct f as [i j k|i j k|i j k]; simpl; nodup_lists. Qed.
Lemma sides6_NoDup p : NoDup (sides6 p).
Proof. destruct p as [[i j] k]; simpl. nodup_lists. Qed.

Lemma NoDup_map_in A B (f : A -> B) l :
  (forall x y, In x l -> In y l -> f x = f y -> x = y) -> NoDup l -> NoDup (map f l).
Proof.
  induction l as [|a l IH]; intros HI ND; simpl; [constructor|].
  apply NoDup_cons_iff in ND as [Na ND]. constructor.
  - intros Hin. apply in_map_iff in Hin as [y [Ey Hy]].
    apply Na. rewrite (HI a y); auto; [left; auto|right; auto].
  - apply IH; auto. intros x y Hx Hy; apply HI; right; auto.
Qed.
