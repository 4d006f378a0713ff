From Coq Require Import Reals Lra.
From Verif Require Import Base BlockPartition BlockPartition_spec BlockPartition_proofs2 BlockAssign Partition_spec.
Set Implicit Arguments.
Local Open Scope R_scope.

Lemma Rltb_spec a b : Rltb a b = true <-> a < b.
Proof. unfold Rltb; destruct (Rlt_dec a b); split; auto; discriminate. Qed.

(** A half-integer position lies strictly between two integer grid lines iff the integer is in the range. *)
Lemma half_between (h lo0 : R) (s n p : Z) : 0 < h ->
  (lo0 + IZR s * h < lo0 + (IZR p + / 2) * h < lo0 + IZR s * h + IZR n * h) <-> (s <= p < s + n)%Z.
Proof.
  intros Hh. split.
  - intros [H1 H2]. assert (H1' : IZR s < IZR p + / 2) by (apply Rmult_lt_reg_r with h; lra).
    assert (H2' : IZR p + / 2 < IZR s + IZR n) by (apply Rmult_lt_reg_r with h; lra).
    split.
    + assert (IZR s < IZR (p + 1)) by (rewrite plus_IZR; lra). apply lt_IZR in H. lia.
    + assert (IZR p < IZR (s + n)) by (rewrite plus_IZR; lra). apply lt_IZR in H. lia.
  - intros [H1 H2]. apply IZR_le in H1. assert (p + 1 <= s + n)%Z as H3 by lia. apply IZR_le in H3.
    rewrite !plus_IZR in H3.
    assert (IZR s * h <= IZR p * h) by (apply Rmult_le_compat_r; lra).
    assert ((IZR p + 1) * h <= (IZR s + IZR n) * h) by (apply Rmult_le_compat_r; lra).
    lra.
Qed.

Section Assign.
Context (dim : nat) (lo hi : nat -> R) (cells : vec3).
Context (Hv : valid_grid dim cells) (Hlh : forall d, (d < dim)%nat -> lo d < hi d).

Definition centre (p : nat -> Z) (d : nat) : R := lo d + (IZR (p d) + / 2) * szdelta lo hi cells d.

Lemma sz_pos d : (d < dim)%nat -> 0 < szdelta lo hi cells d.
Proof.
  intros Hd. unfold szdelta. destruct Hv as [_ Hc]. specialize (Hc d Hd). specialize (Hlh Hd).
  apply Rdiv_lt_0_compat; [lra|]. apply (IZR_lt 0). lia.
Qed.

Lemma inside_block_spec b p ccen : (forall d, (d < dim)%nat -> ccen d = centre p d) ->
  (inside_block dim lo hi cells b ccen = true <-> in_block dim b p).
Proof.
  intros Hc. unfold inside_block, in_block. rewrite forallb_forall. split; intros H d Hd.
  - specialize (H d). rewrite in_seq in H. specialize (H ltac:(lia)). apply andb_prop in H as [H1 H2].
    apply Rltb_spec in H1, H2. rewrite (Hc d Hd) in *. unfold limit_hi, limit_lo, centre in *.
    apply (proj1 (half_between (lo d) (get d (start b)) (get d (num b)) (p d) (sz_pos Hd))). split; auto.
  - apply in_seq in Hd. assert (Hd' : (d < dim)%nat) by lia. specialize (H d Hd').
    apply (proj2 (half_between (lo d) (get d (start b)) (get d (num b)) (p d) (sz_pos Hd'))) in H.
    rewrite (Hc d Hd'). unfold limit_hi, limit_lo, centre. apply andb_true_intro. split; apply Rltb_spec; tauto.
Qed.

Lemma find_block_spec p ccen : (forall d, (d < dim)%nat -> ccen d = centre p d) -> forall blocks i0 i,
  nth_error blocks i <> None ->
  (exists b, nth_error blocks i = Some b /\ in_block dim b p) ->
  (forall j, (exists b, nth_error blocks j = Some b /\ in_block dim b p) -> j = i) ->
  find_block dim lo hi cells blocks i0 ccen = Some (i0 + i)%nat.
Proof.
  intros Hc. induction blocks as [|b r IH]; intros i0 i Hn He HU; [destruct He as (b & E & _); destruct i; discriminate|].
  cbn [find_block]. destruct (inside_block dim lo hi cells b ccen) eqn:E.
  - apply (@inside_block_spec b p ccen Hc) in E.
    assert (0 = i)%nat by (apply HU; exists b; auto). subst. f_equal; lia.
  - destruct i as [|i].
    + exfalso. destruct He as (b' & E' & Hin). simpl in E'. inversion E'; subst. apply (@inside_block_spec b' p ccen Hc) in Hin. congruence.
    + rewrite IH with (i := i); [f_equal; lia| | |].
      * simpl in Hn. auto.
      * simpl in He. auto.
      * intros j Hj. assert (S j = S i) by (apply HU; exact Hj). lia.
Qed.

Lemma assign_cells_spec blocks ccen (tgt : nat -> nat) : forall cs parts,
  (forall c, In c cs -> find_block dim lo hi cells blocks 0 (ccen c) = Some (tgt c)) ->
  (forall c, In c cs -> (tgt c < length parts)%nat) ->
  exists parts', assign_cells dim lo hi cells blocks cs ccen parts = Ok parts' /\ length parts' = length parts /\
    forall j old, nth_error parts j = Some old -> nth_error parts' j = Some (old ++ filter (fun c => Nat.eqb (tgt c) j) cs).
Proof. clear Hlh Hv.
  induction cs as [|c r IH]; intros parts HF HT.
  - exists parts. split; [reflexivity|]. split; auto. intros j old Hj. simpl. rewrite app_nil_r; auto.
  - cbn [assign_cells]. rewrite (HF c (or_introl eq_refl)).
    pose proof (HT c (or_introl eq_refl)) as Hc.
    destruct (nth_error parts (tgt c)) as [old|] eqn:E; [|apply nth_error_None in E; lia].
    unfold rd; rewrite E; cbn [bind]. rewrite wr_ok by auto. cbn [bind].
    destruct (IH (set_nth parts (tgt c) (old ++ [c]))) as (parts' & E' & HL & HN).
    + intros x Hx; apply HF; right; auto.
    + intros x Hx. rewrite set_nth_length. apply HT; right; auto.
    + exists parts'. rewrite set_nth_length in HL. split; auto. split; auto. intros j o Hj. cbn [filter].
      destruct (Nat.eqb_spec (tgt c) j) as [<-|Hne].
      * rewrite (HN _ (old ++ [c])) by (apply nth_error_set_nth_eq; auto).
        assert (o = old) by congruence. subst. rewrite <- app_assoc. reflexivity.
      * apply HN. rewrite nth_error_set_nth_ne; auto.
Qed.
End Assign.

Lemma choose_index (P : nat -> nat -> Prop) n : (forall c, (c < n)%nat -> exists i, P c i) ->
  exists f, forall c, (c < n)%nat -> P c (f c).
Proof.
  induction n as [|n IH]; intros H.
  - exists (fun _ => 0%nat). intros; lia.
  - destruct IH as [f Hf]; [intros; apply H; lia|]. destruct (H n ltac:(lia)) as [i Hi].
    exists (fun c => if Nat.eqb c n then i else f c). intros c Hc.
    destruct (Nat.eqb_spec c n) as [->|]; auto. apply Hf; lia.
Qed.

Lemma partition_by_blocks_ok dim lo hi cells (k n fuel : nat) (pos : nat -> nat -> Z) ccen :
  valid_grid dim cells -> (forall d, (d < dim)%nat -> lo d < hi d) ->
  (1 <= Z.of_nat k <= grid_cells dim cells)%Z -> (k < fuel)%nat ->
  (forall c, (c < n)%nat -> in_grid dim cells (pos c)) ->
  (forall c d, (c < n)%nat -> (d < dim)%nat ->
     ccen c d = lo d + (IZR (pos c d) + / 2) * ((hi d - lo d) / IZR (get d cells))) ->
  exists parts, partition_by_blocks fuel dim lo hi cells k n ccen = Ok parts /\ partitions_cells n k parts.
Proof.
  intros Hv Hlh Hk Hf Hp Hc.
  destruct (@block_partition_count dim cells (Z.of_nat k) fuel) as (blocks & EB & HL); auto; try lia.
  assert (HT : tiling dim cells blocks) by (apply (@block_partition_tiling dim cells (Z.of_nat k) fuel blocks Hv Hk); [rewrite Nat2Z.id; exact Hf|exact EB]).
  unfold partition_by_blocks. rewrite EB; cbn [bind].
  destruct (@choose_index (fun c i => (i < k)%nat /\ find_block dim lo hi cells blocks 0 (ccen c) = Some i) n) as [tgt Htgt].
  { intros c Hcn. destruct (tl_cover _ _ _ HT _ (Hp c Hcn)) as (i & (b & Eb & Hin) & HU).
    exists i. pose proof (nth_error_lt _ _ Eb). split; [lia|].
    rewrite (@find_block_spec dim lo hi cells Hv Hlh (pos c)) with (i := i); auto.
    - intros d Hd. unfold centre, szdelta. auto.
    - congruence.
    - exists b; auto.
    - intros j Hj. symmetry. apply HU. exact Hj. }
  destruct (@assign_cells_spec dim lo hi cells blocks ccen tgt (seq 0 n) (repeat [] k)) as (parts & E & HLp & HN).
  { intros c Hin. apply in_seq in Hin. apply Htgt; lia. }
  { intros c Hin. apply in_seq in Hin. rewrite repeat_length. apply Htgt; lia. }
  rewrite repeat_length in HLp. exists parts. split; auto.
  assert (HN' : forall j, (j < k)%nat -> nth_error parts j = Some (filter (fun c => Nat.eqb (tgt c) j) (seq 0 n))).
  { intros j Hj. rewrite (HN j []); [reflexivity|]. apply nth_error_repeat; auto. }
  assert (HN2 : forall p, In p parts -> exists j, (j < k)%nat /\ p = filter (fun c => Nat.eqb (tgt c) j) (seq 0 n)).
  { intros p Hpp. apply In_nth_error in Hpp as [j Hj]. pose proof (nth_error_lt _ _ Hj). exists j. split; [lia|].
    rewrite HN' in Hj by lia. congruence. }
  split; auto. split; [|split].
  - intros p Hpp. destruct (HN2 p Hpp) as (j & _ & ->). apply NoDup_filter, seq_NoDup.
  - intros p c Hpp Hcp. destruct (HN2 p Hpp) as (j & _ & ->). apply filter_In in Hcp as [Hcp _]. apply in_seq in Hcp. lia.
  - intros c Hcn. destruct (Htgt c Hcn) as [Hlt _]. exists (tgt c). split.
    + eexists; split; [apply HN'; auto|]. apply filter_In. split; [apply in_seq; lia|apply Nat.eqb_refl].
    + intros j (p & Hj & Hin). pose proof (nth_error_lt _ _ Hj). rewrite HN' in Hj by lia. inversion Hj; subst p.
      apply filter_In in Hin as [_ Hin]. apply Nat.eqb_eq in Hin. auto.
Qed.
