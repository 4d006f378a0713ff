(** Property C21: geometry of the box mesh, over the reals. *)
From Coq Require Import Reals Lra.
From Verif Require Import Base Loop SimpleMesh SimpleMesh_spec SimpleMesh_proofs SimpleMesh_proofs2
  SimpleMesh_proofs3 SimpleMesh_proofs4 SimpleGeom Props_SimpleMesh.
Set Implicit Arguments.
Local Open Scope R_scope.

(** Specification vocabulary. *)
(** the i-th of n equal divisions of [lo,hi], as a fraction of the extent *)
Definition division (lo hi : R) (n i : nat) : R := ((INR n - INR i) * lo + INR i * hi) / INR n.
(** the volume of the axis-aligned box spanned by two opposite corners *)
Definition span_volume (p q : list R) : R :=
  match p, q with
  | [a; b; c], [a'; b'; c'] => (a' - a) * (b' - b) * (c' - c)
  | _, _ => 0
  end.
Fixpoint Rsum (l : list R) : R := match l with [] => 0 | x :: t => x + Rsum t end.

Lemma grid_division lo hi n i : (1 <= n)%nat -> grid_coord lo hi n i = division lo hi n i.
Proof. intros H. apply le_INR in H. simpl in H. unfold grid_coord, division. field. lra. Qed.

Section Box.
Variables (x0 y0 z0 x1 y1 z1 : R) (d : dims) (fr : bool) (m : smesh R).
Hypothesis Hd : positive d.
Hypothesis Hm : make_box x0 y0 z0 x1 y1 z1 d fr = Ok m.

Let X := division x0 x1 (nx d).
Let Y := division y0 y1 (ny d).
Let Z := division z0 z1 (nz d).

Lemma box_nodes q : node_at d q ->
  node_get_coordinates m (nid d q) = Ok (let '(i, j, k) := q in [X i; Y j; Z k]).
Proof.
  intros Hq. destruct Hd as (P1 & P2 & P3).
  destruct (make_simple_3d_conn d 0 (grid_coord x0 x1 (nx d)) (grid_coord y0 y1 (ny d)) (grid_coord z0 z1 (nz d)) fr)
    as (m0 & E0 & K & H1 & H2 & H3 & H4 & H5 & H6 & H7 & H8 & H9 & H10 & H11 & H12 & _).
  unfold make_box in Hm. rewrite Hm in E0. injection E0 as <-.
  specialize (H12 (nid d q) (nid_lt d q Hq)). rewrite npos_nid in H12 by auto.
  destruct q as [[i j] k]. unfold node_get_coordinates. rewrite H4.
  change 3%nat with (length [X i; Y j; Z k]). rewrite mapM_rd_block with (r := [X i; Y j; Z k]); auto.
  intros n v E. apply H12. unfold X, Y, Z in E. rewrite <- !grid_division in E by auto. exact E.
Qed.

Lemma box_cell p : cell_at d p ->
  cell_get_coordinates m (cid d p) = Ok (map (fun q : pos3 => let '(i, j, k) := q in [X i; Y j; Z k]) (corners8 p)).
Proof.
  intros Hp. assert (BM : box_mesh d m) by (eapply BM_new; exact Hm).
  destruct (box_mesh_facts BM) as (K & Ec & En & Ef & _).
  assert (L := cid_lt d p Hp). unfold cell_get_coordinates.
  rewrite (q_cell_nodes K) by lia. cbn [bind]. unfold cn3. rewrite cpos_cid by auto.
  assert (A := corners8_at d p Hp). clear L. induction (corners8 p) as [|q l IH]; cbn [map mapM]; auto.
  rewrite box_nodes by (apply A; left; auto). cbn [bind].
  rewrite IH by (intros; apply A; right; auto). auto.
Qed.

Lemma box_face s : face_at d s ->
  face_get_coordinates m (fid d s) = Ok (map (fun q : pos3 => let '(i, j, k) := q in [X i; Y j; Z k]) (corners4 s)).
Proof.
  intros Hs. assert (BM : box_mesh d m) by (eapply BM_new; exact Hm).
  destruct (box_mesh_facts BM) as (K & Ec & En & Ef & _).
  assert (L := fid_lt d s Hs). unfold face_get_coordinates.
  rewrite (q_face_nodes K) by lia. cbn [bind]. unfold fn3. rewrite fpos_fid by auto.
  assert (A := corners4_at d s Hs). clear L. induction (corners4 s) as [|q l IH]; cbn [map mapM]; auto.
  rewrite box_nodes by (apply A; left; auto). cbn [bind].
  rewrite IH by (intros; apply A; right; auto). auto.
Qed.
End Box.

Theorem c21_node_coordinates : forall x0 y0 z0 x1 y1 z1 d fr m i j k, positive d ->
  make_box x0 y0 z0 x1 y1 z1 d fr = Ok m -> node_at d (i, j, k) ->
  node_get_coordinates m (nid d (i, j, k)) =
    Ok [division x0 x1 (nx d) i; division y0 y1 (ny d) j; division z0 z1 (nz d) k].
Proof. intros. erewrite box_nodes; eauto. Qed.

(** The extreme nodes are the corners of the box, so the mesh fills it exactly. *)
Theorem c21_box_is_filled : forall x0 y0 z0 x1 y1 z1 d fr m, positive d ->
  make_box x0 y0 z0 x1 y1 z1 d fr = Ok m ->
  node_get_coordinates m (nid d (0, 0, 0)%nat) = Ok [x0; y0; z0] /\
  node_get_coordinates m (nid d (nx d, ny d, nz d)) = Ok [x1; y1; z1].
Proof.
  intros x0 y0 z0 x1 y1 z1 d fr m Hd Hm. pose proof Hd as (P1 & P2 & P3).
  assert (N : forall n, (1 <= n)%nat -> INR n <> 0) by (intros n Hn; apply le_INR in Hn; simpl in Hn; lra).
  split; erewrite c21_node_coordinates; eauto; try (simpl; lia);
    unfold division; simpl INR; repeat f_equal; field; auto.
Qed.

(** A cell's coordinates are the eight corners of its sub-box, in the standard hexahedron order. *)
Theorem c21_cell_is_sub_box : forall x0 y0 z0 x1 y1 z1 d fr m i j k, positive d ->
  make_box x0 y0 z0 x1 y1 z1 d fr = Ok m -> cell_at d (i, j, k) ->
  let X := division x0 x1 (nx d) in let Y := division y0 y1 (ny d) in let Z := division z0 z1 (nz d) in
  cell_get_coordinates m (cid d (i, j, k)) =
    Ok [[X i; Y j; Z k]; [X (i + 1)%nat; Y j; Z k]; [X (i + 1)%nat; Y (j + 1)%nat; Z k]; [X i; Y (j + 1)%nat; Z k];
        [X i; Y j; Z (k + 1)%nat]; [X (i + 1)%nat; Y j; Z (k + 1)%nat];
        [X (i + 1)%nat; Y (j + 1)%nat; Z (k + 1)%nat]; [X i; Y (j + 1)%nat; Z (k + 1)%nat]].
Proof. intros. erewrite box_cell; eauto. reflexivity. Qed.

Lemma division_step lo hi n i : (1 <= n)%nat -> division lo hi n (i + 1) - division lo hi n i = (hi - lo) / INR n.
Proof.
  intros H. apply le_INR in H. simpl in H. unfold division. rewrite plus_INR. simpl. field. lra.
Qed.

(** The sub-box of every cell has the same volume, and the volumes sum to the volume of the box:
    no part of the box is missing or counted twice. *)
Theorem c21_volumes_sum_to_box : forall x0 y0 z0 x1 y1 z1 d fr m, positive d ->
  make_box x0 y0 z0 x1 y1 z1 d fr = Ok m ->
  exists cc, mapM (cell_get_coordinates m) (seq 0 (num_cells m)) = Ok cc /\
    (forall pts, In pts cc -> span_volume (nth 0 pts []) (nth 6 pts []) =
        (x1 - x0) * (y1 - y0) * (z1 - z0) / INR (num_cells m)) /\
    Rsum (map (fun pts => span_volume (nth 0 pts []) (nth 6 pts [])) cc) = (x1 - x0) * (y1 - y0) * (z1 - z0).
Proof.
  intros x0 y0 z0 x1 y1 z1 d fr m Hd Hm. pose proof Hd as (P1 & P2 & P3).
  assert (BM : box_mesh d m) by (eapply BM_new; exact Hm).
  destruct (box_mesh_facts BM) as (K & Ec & En & Ef & _).
  set (X := division x0 x1 (nx d)). set (Y := division y0 y1 (ny d)). set (Z := division z0 z1 (nz d)).
  set (g := fun c => map (fun q : pos3 => let '(i, j, k) := q in [X i; Y j; Z k]) (corners8 (cpos d c))).
  exists (map g (seq 0 (num_cells m))).
  assert (NZ : INR (nx d) <> 0 /\ INR (ny d) <> 0 /\ INR (nz d) <> 0).
  { apply le_INR in P1, P2, P3. simpl in *. lra. }
  destruct NZ as (N1 & N2 & N3).
  assert (VOL : forall pts, In pts (map g (seq 0 (num_cells m))) -> span_volume (nth 0 pts []) (nth 6 pts []) =
        (x1 - x0) * (y1 - y0) * (z1 - z0) / INR (num_cells m)).
  { intros pts Hin. apply in_map_iff in Hin as (c & <- & Hc). unfold g.
    destruct (cpos d c) as [[i j] k]. simpl nth. unfold span_volume.
    unfold X, Y, Z. rewrite !division_step by auto.
    rewrite Ec. unfold ncells. rewrite !mult_INR. field. auto. }
  split; [|split; [exact VOL|]].
  - apply mapM_Ok. assert (L : forall c, In c (seq 0 (num_cells m)) -> (c < ncells d)%nat).
    { intros c Hc. apply in_seq in Hc. lia. }
    induction (seq 0 (num_cells m)) as [|c l IH]; cbn [map]; constructor.
    + destruct (cpos_ok d (L c (or_introl eq_refl))) as [Ca Ci]. unfold g. rewrite <- Ci at 1.
      eapply box_cell; eauto.
    + apply IH; [intros pts Hin; apply VOL; right; auto|intros; apply L; right; auto].
  - assert (S : forall l v, (forall pts, In pts l -> span_volume (nth 0 pts []) (nth 6 pts []) = v) ->
       Rsum (map (fun pts => span_volume (nth 0 pts []) (nth 6 pts [])) l) = INR (length l) * v).
    { induction l as [|a l IH]; intros v Hv; cbn [map Rsum]; [simpl; lra|].
      rewrite (Hv a) by (left; auto). rewrite (IH v) by (intros; apply Hv; right; auto).
      cbn [length]. rewrite S_INR. lra. }
    rewrite (S _ _ VOL). rewrite map_length, seq_length. field.
    rewrite Ec. unfold ncells. rewrite !mult_INR. intros E.
    apply Rmult_integral in E as [E|E]; [apply Rmult_integral in E as [E|E]|]; auto.
Qed.

(** The direction flag has its documented geometric meaning: +1 iff the right-hand normal of the face
    (first x last edge of face_get_coordinates) points out of the cell. *)
Definition rh_normal (f : list (list R)) : list R :=
  match f with
  | [[ax; ay; az]; [bx; by_; bz]; _; [cx; cy; cz]] =>
      let u := bx - ax in let v := by_ - ay in let w := bz - az in
      let u' := cx - ax in let v' := cy - ay in let w' := cz - az in
      [v * w' - w * v'; w * u' - u * w'; u * v' - v * u']
  | _ => []
  end.
Definition dot (p q : list R) : R := match p, q with [a; b; c], [a'; b'; c'] => a * a' + b * b' + c * c' | _, _ => 0 end.
Definition vsub (p q : list R) : list R := match p, q with [a; b; c], [a'; b'; c'] => [a - a'; b - b'; c - c'] | _, _ => [] end.
(** centre of a cell = midpoint of opposite corners 0 and 6; of a face = midpoint of corners 0 and 2 *)
Definition mid (p q : list R) : list R := match p, q with [a; b; c], [a'; b'; c'] => [(a + a') / 2; (b + b') / 2; (c + c') / 2] | _, _ => [] end.

Theorem c21_direction_is_outward : forall x0 y0 z0 x1 y1 z1 d fr m c f dv fs ds, positive d ->
  x0 < x1 -> y0 < y1 -> z0 < z1 ->
  make_box x0 y0 z0 x1 y1 z1 d fr = Ok m -> (c < num_cells m)%nat ->
  cell_get_faces_and_dirs m c = Ok (fs, ds) -> In (f, dv) (combine fs ds) ->
  exists fpts cpts, face_get_coordinates m f = Ok fpts /\ cell_get_coordinates m c = Ok cpts /\
    0 < IZR dv * dot (rh_normal fpts) (vsub (mid (nth 0 fpts []) (nth 2 fpts [])) (mid (nth 0 cpts []) (nth 6 cpts []))).
Proof.
  intros x0 y0 z0 x1 y1 z1 d fr m c f dv fs ds Hd Lx Ly Lz Hm Hc E I. pose proof Hd as (P1 & P2 & P3).
  assert (BM : box_mesh d m) by (eapply BM_new; exact Hm).
  destruct (box_mesh_facts BM) as (K & Ec & En & Ef & _).
  rewrite (q_cell_faces K Hc) in E. injection E as <- <-. rewrite Ec in Hc.
  destruct (cpos_ok d Hc) as [Ca Ci].
  apply cf3_dir in I as (s & Hs & -> & Dv). assert (As := sides6_at d _ Ca s Hs).
  eexists; eexists. split; [eapply box_face; eauto|]. split; [rewrite <- Ci at 1; eapply box_cell; eauto|].
  set (X := division x0 x1 (nx d)). set (Y := division y0 y1 (ny d)). set (Z := division z0 z1 (nz d)).
  assert (SX : forall i, X (i + 1)%nat - X i = (x1 - x0) / INR (nx d)) by (intros; apply division_step; auto).
  assert (SY : forall i, Y (i + 1)%nat - Y i = (y1 - y0) / INR (ny d)) by (intros; apply division_step; auto).
  assert (SZ : forall i, Z (i + 1)%nat - Z i = (z1 - z0) / INR (nz d)) by (intros; apply division_step; auto).
  assert (QX : 0 < (x1 - x0) / INR (nx d)) by (apply le_INR in P1; simpl in P1; apply Rdiv_lt_0_compat; lra).
  assert (QY : 0 < (y1 - y0) / INR (ny d)) by (apply le_INR in P2; simpl in P2; apply Rdiv_lt_0_compat; lra).
  assert (QZ : 0 < (z1 - z0) / INR (nz d)) by (apply le_INR in P3; simpl in P3; apply Rdiv_lt_0_compat; lra).
  set (hx := (x1 - x0) / INR (nx d)) in *. set (hy := (y1 - y0) / INR (ny d)) in *. set (hz := (z1 - z0) / INR (nz d)) in *.
  assert (EX : forall i, X (i + 1)%nat = X i + hx) by (intros i; specialize (SX i); lra).
  assert (EY : forall i, Y (i + 1)%nat = Y i + hy) by (intros i; specialize (SY i); lra).
  assert (EZ : forall i, Z (i + 1)%nat = Z i + hz) by (intros i; specialize (SZ i); lra).
  clearbody X Y Z hx hy hz. clear SX SY SZ Hd P1 P2 P3 Hm K Hc.
  destruct (cpos d c) as [[i j] k]. apply sides6_spec in Hs.
  assert (V : 0 < hx * hy * hz) by (apply Rmult_lt_0_compat; [apply Rmult_lt_0_compat|]; auto).
  destruct s as [a b z|a b z|a b z]; simpl in Hs; destruct Hs as (H1 & H2 & H3).
  - subst a b. destruct (Nat.eqb_spec z k) as [->|N].
    + subst dv. simpl. rewrite EX, EY, EZ. nra.
    + assert (z = (k + 1)%nat) by lia. subst z dv. simpl. rewrite !EX, !EY, !EZ. nra.
  - subst a z. destruct (Nat.eqb_spec b j) as [->|N].
    + subst dv. simpl. rewrite EX, EY, EZ. nra.
    + assert (b = (j + 1)%nat) by lia. subst b dv. simpl. rewrite !EX, !EY, !EZ. nra.
  - subst b z. destruct (Nat.eqb_spec a i) as [->|N].
    + subst dv. simpl. rewrite EX, EY, EZ. nra.
    + assert (a = (i + 1)%nat) by lia. subst a dv. simpl. rewrite !EX, !EY, !EZ. nra.
Qed.

Example c21_witness : exists m, make_box 0 0 0 2 1 1 (mkDims 2 1 1) true = Ok m /\ positive (mkDims 2 1 1) /\
  cell_at (mkDims 2 1 1) (1, 0, 0)%nat /\ num_cells m = 2%nat.
Proof.
  destruct (make_simple_3d_conn (mkDims 2 1 1) 0 (grid_coord 0 2 2) (grid_coord 0 1 1) (grid_coord 0 1 1) true) as (m & E & _ & N & _).
  exists m. split; [exact E|]. split; [cbv; lia|]. split; [simpl; lia|]. exact N.
Qed.
