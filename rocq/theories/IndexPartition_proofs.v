From Verif Require Import Base IndexPartition Partition_spec.
Set Implicit Arguments.

Lemma take_cells_seq : forall room left index, take_cells room left index = seq index (Nat.min room left).
Proof. induction room as [|r IH]; intros [|l] index; simpl; auto. rewrite IH; reflexivity. Qed.

Lemma index_parts_concat maxc n : forall parts index, index <= n ->
  n - index <= parts * maxc -> concat (index_parts parts maxc n index) = seq index (n - index).
Proof.
  induction parts as [|p IH]; intros index Hi Hle.
  - simpl in *. replace (n - index) with 0 by lia. reflexivity.
  - cbn [index_parts concat]. rewrite take_cells_seq, seq_length.
    set (m := Nat.min maxc (n - index)). rewrite IH; try lia.
    rewrite <- seq_app. f_equal. lia.
Qed.

Lemma index_parts_length maxc n : forall parts index, length (index_parts parts maxc n index) = parts.
Proof. induction parts; intros; simpl; auto. Qed.

Lemma index_parts_nth maxc n : forall parts index i, i < parts -> index <= n ->
  nth_error (index_parts parts maxc n index) i
  = Some (seq (Nat.min (index + i * maxc) n) (Nat.min (index + (i + 1) * maxc) n - Nat.min (index + i * maxc) n)).
Proof.
  induction parts as [|p IH]; intros index i Hi Hin; [lia|].
  cbn [index_parts]. rewrite take_cells_seq, seq_length. destruct i as [|i].
  - simpl. f_equal. f_equal; lia.
  - cbn [nth_error]. rewrite IH by lia. f_equal.
    assert (E1 : Nat.min (index + Nat.min maxc (n - index) + i * maxc) n = Nat.min (index + S i * maxc) n) by nia.
    assert (E2 : Nat.min (index + Nat.min maxc (n - index) + (i + 1) * maxc) n = Nat.min (index + (S i + 1) * maxc) n) by nia.
    rewrite E1, E2. reflexivity.
Qed.

Lemma max_cells_enough n k : 1 <= k -> n <= k * Z.to_nat (max_cells_per_tile (Z.of_nat n) (Z.of_nat k)).
Proof. intros Hk. unfold max_cells_per_tile. nia. Qed.

(** closed form of the tile size: ceil(n/k + 1/2) *)
Lemma max_cells_bounds n k : 1 <= k ->
  let m := Z.to_nat (max_cells_per_tile (Z.of_nat n) (Z.of_nat k)) in
  2 * n + k <= 2 * k * m < 2 * n + 3 * k.
Proof. intros Hk m. unfold m, max_cells_per_tile. nia. Qed.

Lemma partition_by_index_eq n k parts : partition_by_index n k = Ok parts -> 1 <= k /\
  parts = index_parts k (Z.to_nat (max_cells_per_tile (Z.of_nat n) (Z.of_nat k))) n 0.
Proof. unfold partition_by_index. destruct k; [discriminate|]. split; [lia|congruence]. Qed.

Lemma partition_by_index_contiguous n k parts : partition_by_index n k = Ok parts -> contiguous n parts.
Proof.
  intros E. apply partition_by_index_eq in E as [Hk ->]. unfold contiguous.
  rewrite index_parts_concat; try lia.
  - f_equal; lia.
  - rewrite Nat.sub_0_r. apply max_cells_enough. lia.
Qed.

Lemma concat_unique : forall (parts : list (list nat)), NoDup (concat parts) ->
  forall c, In c (concat parts) -> exists! i : nat, exists p, nth_error parts i = Some p /\ In c p.
Proof.
  induction parts as [|p ps IH]; simpl; intros HN c Hc; [tauto|].
  assert (HN2 : NoDup (concat ps) /\ forall x, In x p -> ~ In x (concat ps)).
  { clear IH Hc c. induction p as [|x p IHp]; simpl in *; [split; auto|].
    inversion HN as [|? ? Hx HN']; subst. destruct (IHp HN') as [A B]. split; auto.
    intros y [<-|Hy]; auto. intros Hin. apply Hx. apply in_or_app; auto. }
  destruct HN2 as [HNps Hdis]. apply in_app_or in Hc. destruct Hc as [Hc|Hc].
  - exists 0. split; [exists p; auto|]. intros [|i] (p' & Hn & Hin); auto. exfalso.
    simpl in Hn. apply nth_error_In in Hn. apply (Hdis c Hc). apply in_concat; eauto.
  - destruct (IH HNps c Hc) as (i & (p' & Hn & Hin) & U). exists (S i). split; [exists p'; auto|].
    intros [|j] (q & Hq & Hcq); [simpl in Hq; inversion Hq; subst; exfalso; eapply Hdis; eauto|].
    f_equal. apply U. exists q; auto.
Qed.

Lemma NoDup_concat_part (parts : list (list nat)) p : NoDup (concat parts) -> In p parts -> NoDup p.
Proof.
  induction parts as [|q ps IH]; simpl; intros HN [].
  - subst. clear IH. induction p as [|x p IHp]; [constructor|]. simpl in HN. inversion HN; subst. constructor; auto.
    intros Hin; apply H1, in_or_app; auto.
  - apply IH; auto. clear -HN. induction q as [|x q IHq]; simpl in *; auto. inversion HN; auto.
Qed.

Lemma partition_by_index_partitions n k parts : partition_by_index n k = Ok parts -> partitions_cells n k parts.
Proof.
  intros E. pose proof (partition_by_index_contiguous _ _ E) as HC. unfold contiguous in HC.
  assert (HN : NoDup (concat parts)) by (rewrite HC; apply seq_NoDup).
  apply partition_by_index_eq in E as [Hk ->].
  split; [apply index_parts_length|]. split; [intros p Hp; eapply NoDup_concat_part; eauto|].
  split.
  - intros p c Hp Hc. assert (Hin : In c (concat (index_parts k (Z.to_nat (max_cells_per_tile (Z.of_nat n) (Z.of_nat k))) n 0)))
      by (apply in_concat; eauto). rewrite HC in Hin. apply in_seq in Hin. lia.
  - intros c Hc. apply concat_unique; auto. rewrite HC. apply in_seq. lia.
Qed.

Lemma partition_by_index_total n k : 1 <= k -> exists parts, partition_by_index n k = Ok parts.
Proof. destruct k; [lia|]. eexists; reflexivity. Qed.

(** exact size of every part *)
Lemma partition_by_index_sizes n k parts i : partition_by_index n k = Ok parts -> i < k ->
  let m := Z.to_nat (max_cells_per_tile (Z.of_nat n) (Z.of_nat k)) in
  nth_error parts i = Some (seq (Nat.min (i * m) n) (Nat.min ((i + 1) * m) n - Nat.min (i * m) n)).
Proof.
  intros E Hi. apply partition_by_index_eq in E as [Hk ->]. cbv zeta.
  rewrite index_parts_nth by lia. reflexivity.
Qed.

(** no empty part iff the first k-1 full parts do not exhaust the cells *)
Lemma partition_by_index_nonempty_iff n k parts : partition_by_index n k = Ok parts ->
  ((forall p, In p parts -> p <> []) <-> (k - 1) * Z.to_nat (max_cells_per_tile (Z.of_nat n) (Z.of_nat k)) < n).
Proof.
  intros E. assert (Hk : 1 <= k) by (unfold partition_by_index in E; destruct k; [discriminate|lia]).
  pose proof (proj1 (partition_by_index_partitions _ _ E)) as HL.
  assert (HS := fun i => @partition_by_index_sizes n k parts i E).
  set (m := Z.to_nat (max_cells_per_tile (Z.of_nat n) (Z.of_nat k))) in *. cbv zeta in HS.
  assert (Hm : 1 <= m). { pose proof (@max_cells_bounds n k Hk) as HB. cbv zeta in HB. fold m in HB. nia. }
  split.
  - intros H. specialize (HS (k - 1) ltac:(lia)). specialize (H _ (nth_error_In _ _ HS)).
    destruct (Nat.ltb_spec ((k - 1) * m) n) as [Hlt|Hge]; auto. exfalso. apply H.
    replace (Nat.min ((k - 1 + 1) * m) n - Nat.min ((k - 1) * m) n) with 0 by nia. reflexivity.
  - intros H p Hp. apply In_nth_error in Hp as [i Hi]. pose proof (nth_error_lt _ _ Hi) as Hlt. rewrite HL in Hlt.
    rewrite (HS i Hlt) in Hi. inversion Hi as [Hp']. intros Hnil.
    assert (Hz : Nat.min ((i + 1) * m) n - Nat.min (i * m) n = 0).
    { apply f_equal with (f := @length nat) in Hnil. rewrite seq_length in Hnil. exact Hnil. }
    assert (i * m <= (k - 1) * m) by (apply Nat.mul_le_mono_r; lia). nia.
Qed.

(** ** METIS post-processing *)
Lemma push_parts_spec : forall idxpart i parts,
  (forall ip, In ip idxpart -> ip < length parts) ->
  exists parts', push_parts idxpart i parts = Ok parts' /\ length parts' = length parts /\
    forall j old, nth_error parts j = Some old ->
      nth_error parts' j = Some (old ++ map fst (filter (fun x => snd x =? j) (combine (seq i (length idxpart)) idxpart))).
Proof.
  induction idxpart as [|ip r IH]; intros i parts Hb.
  - exists parts. split; [reflexivity|]. split; auto. intros j old Hj. simpl. rewrite app_nil_r. auto.
  - cbn [push_parts]. specialize (Hb ip (or_introl eq_refl)) as Hip.
    destruct (nth_error parts ip) as [old|] eqn:E; [|apply nth_error_None in E; lia].
    unfold rd; rewrite E; cbn [bind]. rewrite wr_ok by auto. cbn [bind].
    destruct (IH (S i) (set_nth parts ip (old ++ [i]))) as (parts' & E' & HL & HN).
    { intros x Hx. rewrite set_nth_length. apply Hb; right; auto. }
    exists parts'. split; auto. rewrite set_nth_length in HL. split; auto.
    intros j o Hj. cbn [length seq combine filter snd].
    destruct (Nat.eqb_spec ip j) as [->|Hne].
    + rewrite (HN j (old ++ [i])) by (apply nth_error_set_nth_eq; auto).
      assert (o = old) by congruence. subst. cbn [map fst]. rewrite <- app_assoc. reflexivity.
    + apply HN. rewrite nth_error_set_nth_ne; auto.
Qed.

Lemma combine_seq_In : forall (l : list nat) i c v, In (c, v) (combine (seq i (length l)) l) <-> i <= c /\ nth_error l (c - i) = Some v.
Proof.
  induction l as [|x l IH]; intros i c v; simpl.
  - split; [tauto|]. intros [_ H]. destruct (c - i); discriminate.
  - rewrite IH. split.
    + intros [E|[H1 H2]].
      * inversion E; subst. split; auto. rewrite Nat.sub_diag. reflexivity.
      * split; [lia|]. replace (c - i) with (S (c - S i)) by lia. exact H2.
    + intros [H1 H2]. destruct (Nat.eq_dec i c) as [->|Hne].
      * left. rewrite Nat.sub_diag in H2. simpl in H2. congruence.
      * right. split; [lia|]. replace (c - i) with (S (c - S i)) in H2 by lia. exact H2.
Qed.

Lemma filter_combine_NoDup (l : list nat) j : forall i, NoDup (map fst (filter (fun x : nat * nat => snd x =? j) (combine (seq i (length l)) l))).
Proof.
  induction l as [|x l IH]; intros i; simpl; [constructor|].
  destruct (x =? j); simpl; auto. constructor; auto.
  intros Hin. apply in_map_iff in Hin as ((c, v) & E & Hin). apply filter_In in Hin as [Hin _].
  apply combine_seq_In in Hin. simpl in E. lia.
Qed.

Lemma metis_partitions idxpart k : (forall ip, In ip idxpart -> ip < k) ->
  exists parts, partition_with_metis idxpart k = Ok parts /\ partitions_cells (length idxpart) k parts /\
  (forall c j, nth_error idxpart c = Some j -> exists p, nth_error parts j = Some p /\ In c p).
Proof.
  intros Hb. unfold partition_with_metis.
  destruct (@push_parts_spec idxpart 0 (repeat [] k)) as (parts & E & HL & HN).
  { intros ip Hip. rewrite repeat_length. auto. }
  rewrite repeat_length in HL.
  set (P := fun j => map fst (filter (fun x : nat * nat => snd x =? j) (combine (seq 0 (length idxpart)) idxpart))).
  assert (HN' : forall j, j < k -> nth_error parts j = Some (P j)).
  { intros j Hj. rewrite (HN j []); [reflexivity|]. apply nth_error_repeat; auto. }
  assert (HP : forall j c, In c (P j) <-> nth_error idxpart c = Some j).
  { intros j c. unfold P. rewrite in_map_iff. split.
    - intros ((c', v) & Ec & Hin). apply filter_In in Hin as [Hin Hv]. simpl in *. subst c'.
      apply combine_seq_In in Hin. destruct Hin as [_ Hin]. rewrite Nat.sub_0_r in Hin. apply Nat.eqb_eq in Hv. congruence.
    - intros Hn. exists (c, j). split; auto. apply filter_In. split; [|simpl; apply Nat.eqb_refl].
      apply combine_seq_In. rewrite Nat.sub_0_r. split; [lia|auto]. }
  exists parts. split; auto. split.
  - split; auto. split.
    + intros p Hp. apply In_nth_error in Hp as [j Hj]. pose proof (nth_error_lt _ _ Hj). rewrite HN' in Hj by lia. inversion Hj. apply filter_combine_NoDup.
    + split.
      * intros p c Hp Hc. apply In_nth_error in Hp as [j Hj]. pose proof (nth_error_lt _ _ Hj). rewrite HN' in Hj by lia.
        inversion Hj; subst p. apply HP in Hc. apply nth_error_lt in Hc. auto.
      * intros c Hc. destruct (nth_error idxpart c) as [j|] eqn:Ej; [|apply nth_error_None in Ej; lia].
        assert (j < k) by (apply Hb; eapply nth_error_In; eauto).
        exists j. split; [exists (P j); split; auto; apply HP; auto|].
        intros j' (p & Hp & Hin). pose proof (nth_error_lt _ _ Hp). rewrite HN' in Hp by lia. inversion Hp; subst p. apply HP in Hin. congruence.
  - intros c j Hc. assert (j < k) by (apply Hb; eapply nth_error_In; eauto). exists (P j). split; auto. apply HP; auto.
Qed.

Lemma index_partitions : forall ncells num_parts, 1 <= num_parts ->
  exists parts, partition_by_index ncells num_parts = Ok parts
    /\ partitions_cells ncells num_parts parts /\ contiguous ncells parts.
Proof.
  intros n k Hk. destruct (partition_by_index_total n Hk) as [parts E]. exists parts. split; auto.
  split; [apply partition_by_index_partitions|eapply partition_by_index_contiguous]; eauto.
Qed.
Lemma empty_part : exists ncells num_parts parts,
  1 <= num_parts <= ncells /\ partition_by_index ncells num_parts = Ok parts /\ In [] parts.
Proof. exists 4, 4, [[0;1];[2;3];[];[]]. split; [lia|]. split; [vm_compute; reflexivity|simpl; auto]. Qed.
Lemma nonempty_iff : forall ncells num_parts parts,
  partition_by_index ncells num_parts = Ok parts ->
  exists m, 2 * ncells + num_parts <= 2 * num_parts * m < 2 * ncells + 3 * num_parts /\
  (forall p, In p parts -> length p <= m) /\
  ((forall p, In p parts -> p <> []) <-> (num_parts - 1) * m < ncells).
Proof.
  intros n k parts E. exists (Z.to_nat (max_cells_per_tile (Z.of_nat n) (Z.of_nat k))).
  assert (Hk : 1 <= k) by (unfold partition_by_index in E; destruct k; [discriminate|lia]).
  split; [apply max_cells_bounds; auto|]. split; [|apply partition_by_index_nonempty_iff; auto].
  intros p Hp. apply In_nth_error in Hp as [i Hi]. pose proof (nth_error_lt _ _ Hi) as Hlt.
  rewrite (proj1 (partition_by_index_partitions _ _ E)) in Hlt.
  rewrite (@partition_by_index_sizes n k parts i E Hlt) in Hi. inversion Hi. rewrite seq_length. nia.
Qed.
