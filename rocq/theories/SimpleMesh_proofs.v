(** Loop flattening and index arithmetic for the structured mesh. *)
From Verif Require Import Base Loop SimpleMesh.
Set Implicit Arguments.

(** position of the id-th iteration of a triple loop with inner bounds a (ix) and b (iy) *)
Definition dec_i (a : nat) (id : nat) : nat := id mod a.
Definition dec_j (a b : nat) (id : nat) : nat := (id / a) mod b.
Definition dec_k (a b : nat) (id : nat) : nat := id / a / b.

Lemma lin_factor i j k a b : i + j * a + k * a * b = i + a * (j + b * k).
Proof. ring. Qed.

Lemma dec_lin a b i j k : i < a -> j < b ->
  dec_i a (i + j * a + k * a * b) = i /\ dec_j a b (i + j * a + k * a * b) = j
  /\ dec_k a b (i + j * a + k * a * b) = k.
Proof.
  intros Hi Hj. rewrite lin_factor. unfold dec_i, dec_j, dec_k.
  assert (D : (i + a * (j + b * k)) / a = j + b * k).
  { symmetry. apply (Nat.div_unique _ a (j + b * k) i); lia. }
  rewrite D. split; [|split].
  - symmetry. apply (Nat.mod_unique _ a (j + b * k) i); lia.
  - symmetry. apply (Nat.mod_unique _ b k j); lia.
  - symmetry. apply (Nat.div_unique _ b k j); lia.
Qed.

Lemma lin_inj a b i j k i' j' k' : i < a -> j < b -> i' < a -> j' < b ->
  i + j * a + k * a * b = i' + j' * a + k' * a * b -> i = i' /\ j = j' /\ k = k'.
Proof.
  intros H1 H2 H3 H4 E. destruct (@dec_lin a b i j k H1 H2) as [E1 [E2 E3]].
  destruct (@dec_lin a b i' j' k' H3 H4) as [F1 [F2 F3]]. rewrite E in *. lia.
Qed.

Lemma lin_lt a b c i j k : i < a -> j < b -> k < c -> i + j * a + k * a * b < a * b * c.
Proof.
  intros. rewrite lin_factor.
  assert (j + b * k < b * c) by nia. replace (a * b * c) with (a * (b * c)) by ring. nia.
Qed.

Lemma dec_bounds a b c id : id < a * b * c ->
  dec_i a id < a /\ dec_j a b id < b /\ dec_k a b id < c
  /\ dec_i a id + dec_j a b id * a + dec_k a b id * a * b = id.
Proof.
  intros H. assert (a <> 0 /\ b <> 0) as [Ha Hb].
  { split; intros ->; rewrite ?Nat.mul_0_r, ?Nat.mul_0_l in H; lia. }
  unfold dec_i, dec_j, dec_k.
  split; [apply Nat.mod_upper_bound; auto|]. split; [apply Nat.mod_upper_bound; auto|].
  split.
  - apply Nat.div_lt_upper_bound; auto. apply Nat.div_lt_upper_bound; auto.
    replace (a * (b * c)) with (a * b * c) by ring; auto.
  - rewrite lin_factor.
    assert (E1 := Nat.div_mod id a Ha). assert (E2 := Nat.div_mod (id / a) b Hb). nia.
Qed.

(** seq splitting *)
Lemma foldM_seq_block S n a (F : nat -> S -> outcome S) s :
  foldM (seq 0 n) (fun j s => foldM (seq 0 a) (fun i s => F (i + j * a) s) s) s
  = foldM (seq 0 (a * n)) F s.
Proof.
  revert s; induction n as [|n IH]; intros s.
  - rewrite Nat.mul_0_r; auto.
  - rewrite seq_S, foldM_app, IH. replace (a * Datatypes.S n) with (a * n + a) by lia.
    rewrite seq_app, foldM_app. destruct (foldM (seq 0 (a * n)) F s); simpl; auto.
    assert (Q : foldM (seq 0 a) (fun i s => F (i + n * a) s) a0 = foldM (seq (a * n) a) F a0).
    { rewrite (foldM_map (fun i => i + n * a) F). f_equal.
      assert (E : forall m st sh, map (fun i => i + sh) (seq st m) = seq (st + sh) m).
      { clear. intros m; induction m as [|m IHm]; intros st sh; simpl; auto. f_equal. rewrite IHm; auto. }
      rewrite E. f_equal. lia. }
    rewrite Q. destruct (foldM (seq (a * n) a) F a0); auto.
Qed.

(** A triple loop is a single loop over the linear index. *)
Lemma for3_flat S n1 n2 n3 (body : nat -> nat -> nat -> S -> outcome S) s :
  for3 n1 n2 n3 body s
  = for_lt (n1 * n2 * n3) (fun id => body (dec_i n1 id) (dec_j n1 n2 id) (dec_k n1 n2 id)) s.
Proof.
  unfold for3, for_lt.
  set (F := fun id => body (dec_i n1 id) (dec_j n1 n2 id) (dec_k n1 n2 id)).
  rewrite <- (foldM_seq_block n3 (n1 * n2) F).
  apply foldM_ext. intros k s1 Hk. apply in_seq in Hk.
  rewrite <- (foldM_seq_block n2 n1 (fun x => F (x + k * (n1 * n2)))).
  apply foldM_ext. intros j s2 Hj. apply in_seq in Hj.
  apply foldM_ext. intros i s3 Hi. apply in_seq in Hi.
  unfold F. replace (i + j * n1 + k * (n1 * n2)) with (i + j * n1 + k * n1 * n2) by ring.
  destruct (@dec_lin n1 n2 i j k) as [-> [-> ->]]; auto; lia.
Qed.

Lemma for_lt_ext S n (f g : nat -> S -> outcome S) s :
  (forall i s, i < n -> f i s = g i s) -> for_lt n f s = for_lt n g s.
Proof. intros H. apply foldM_ext. intros i s' Hi. apply in_seq in Hi. apply H; lia. Qed.

(** ---- block tables ---- *)
(** [for (c = lo; c < lo+n; ++c) { a[S*c+0] = row(c)[0]; a[S*c+1] = ... }] *)
Lemma block_table_Ok A (S : nat) (row : nat -> list A) lo n (a : list A) :
  (forall c, lo <= c < lo + n -> length (row c) = S) -> S * (lo + n) <= length a ->
  exists a', foldM (seq lo n) (fun c => wr_all (block (S * c) (row c))) a = Ok a' /\ length a' = length a /\
    (forall c i v, lo <= c < lo + n -> nth_error (row c) i = Some v -> nth_error a' (S * c + i) = Some v) /\
    (forall x, x < S * lo \/ S * (lo + n) <= x -> nth_error a' x = nth_error a x).
Proof.
  intros HL HA.
  assert (E : foldM (seq lo n) (fun c => wr_all (block (S * c) (row c))) a
              = wr_all (flat_map (fun c => block (S * c) (row c)) (seq lo n)) a).
  { unfold wr_all. apply foldM_flat_map. }
  rewrite E.
  assert (HI : forall i v, In (i, v) (flat_map (fun c => block (S * c) (row c)) (seq lo n)) ->
     exists c, lo <= c < lo + n /\ S * c <= i < S * c + S /\ nth_error (row c) (i - S * c) = Some v).
  { intros i v Hi. apply in_flat_map in Hi as [c [Hc Hi]]. apply in_seq in Hc.
    apply in_block in Hi as [B Ev]. rewrite HL in B by lia. exists c; auto. }
  destruct (@wr_all_spec A (flat_map (fun c => block (S * c) (row c)) (seq lo n)) a) as [a' [E1 [L1 [P1 P2]]]].
  - intros i v Hi. apply HI in Hi as [c [Hc [B _]]]. nia.
  - intros i v v' Hv Hv'. apply HI in Hv as [c [Hc [B Ev]]]. apply HI in Hv' as [c' [Hc' [B' Ev']]].
    assert (c = c') by nia. subst c'. congruence.
  - exists a'. split; [auto|]. split; [auto|]. split.
    + intros c i v Hc Hv. apply P1. apply in_flat_map. exists c. split; [apply in_seq; lia|].
      apply in_block. assert (L := nth_error_lt _ _ Hv). rewrite HL in * by lia.
      split; [lia|]. replace (S * c + i - S * c) with i by lia. auto.
    + intros x Hx. apply P2. intros v Hv. apply HI in Hv as [c [Hc [B _]]]. nia.
Qed.

Lemma mapM_rd_block A (a : list A) off (r : list A) :
  (forall i v, nth_error r i = Some v -> nth_error a (off + i) = Some v) ->
  mapM (fun i => rd a (off + i)) (seq 0 (length r)) = Ok r.
Proof.
  intros H. apply mapM_nth; [apply seq_length|].
  intros i x y Ex Ey. apply nth_error_seq_Some in Ex as [-> _]. apply rd_Ok. simpl. auto.
Qed.
