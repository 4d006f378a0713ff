(** Phase 1, population of the block table, and the final theorem for block partitioning. *)
From Verif Require Import Base BlockPartition BlockPartition_spec BlockPartition_proofs.
Set Implicit Arguments.
Local Open Scope Z_scope.

Definition isum (f : nat -> Z) (N : nat) : Z := fold_right (fun i a => f i + a) 0 (seq 0 N).

Lemma isum_S f N : isum f (S N) = isum f N + f N.
Proof.
  unfold isum. rewrite seq_S, fold_right_app. simpl.
  assert (forall l a, fold_right (fun i b => f i + b) a l = fold_right (fun i b => f i + b) 0 l + a) as H.
  { induction l as [|x l IH]; intros a; simpl; [lia|]. rewrite IH. lia. }
  rewrite H. lia.
Qed.
Lemma isum_ext f g N : (forall i, f i = g i) -> isum f N = isum g N.
Proof. intros H. induction N; [reflexivity|]. rewrite !isum_S. rewrite H. lia. Qed.
Lemma isum_scal f c N : isum (fun i => c * f i) N = c * isum f N.
Proof. induction N; [unfold isum; simpl; lia|]. rewrite !isum_S. lia. Qed.
Lemma isum_const c N : isum (fun _ => c) N = c * Z.of_nat N.
Proof. induction N; [unfold isum; simpl; lia|]. rewrite !isum_S. lia. Qed.

Lemma sumw_flat_map w (f : nat -> list block) l :
  sumw w (flat_map f l) = fold_right (fun i a => sumw w (f i) + a) 0 l.
Proof. induction l; simpl; auto. rewrite sumw_app. lia. Qed.
Lemma sumw_map w (f : nat -> block) l : sumw w (map f l) = fold_right (fun i a => w (f i) + a) 0 l.
Proof. induction l; simpl; auto. lia. Qed.

Lemma sumw_grid dim s w : sumw w (grid_blocks dim s) =
  isum (fun i => isum (fun j => isum (fun k => w (grid_block dim (nbc s) i j k)) (Z.to_nat (v2 (nbd s))))
      (Z.to_nat (v1 (nbd s)))) (Z.to_nat (v0 (nbd s))).
Proof.
  unfold grid_blocks. rewrite sumw_flat_map. apply isum_ext. intros i.
  rewrite sumw_flat_map. apply isum_ext. intros j. rewrite sumw_map. reflexivity.
Qed.

Definition ind (b : bool) : Z := if b then 1 else 0.

(** exactly one of the N consecutive intervals of length n contains x *)
Lemma isum_interval n x N : 1 <= n ->
  isum (fun i => ind ((Z.of_nat i * n <=? x) && (x <? Z.of_nat i * n + n))) N
  = ind ((0 <=? x) && (x <? Z.of_nat N * n)).
Proof.
  intros Hn. induction N as [|N IH].
  - unfold isum; simpl. destruct (Z.leb_spec 0 x), (Z.ltb_spec x 0); simpl; auto; lia.
  - rewrite isum_S, IH. unfold ind. replace (Z.of_nat (S N) * n) with (Z.of_nat N * n + n) by lia.
    assert (0 <= Z.of_nat N * n) by nia.
    destruct (Z.leb_spec 0 x), (Z.ltb_spec x (Z.of_nat N * n)), (Z.leb_spec (Z.of_nat N * n) x),
      (Z.ltb_spec x (Z.of_nat N * n + n)); simpl; auto; lia.
Qed.

Section Dim.
Context (dim : nat) (Hdim : (1 <= dim <= 3)%nat).

(** boolean containment *)
Definition inb (p : nat -> Z) (b : block) : bool :=
  forallb (fun d => (get d (start b) <=? p d) && (p d <? get d (start b) + get d (num b))) (seq 0 dim).
Lemma inb_spec p b : inb p b = true <-> in_block dim b p.
Proof.
  unfold inb, in_block. rewrite forallb_forall. split; intros H d Hd.
  - specialize (H d). rewrite in_seq in H. specialize (H ltac:(lia)). lia.
  - apply in_seq in Hd. specialize (H d ltac:(lia)). lia.
Qed.

Definition wp p b := ind (inb p b).

Lemma inb_form p b : inb p b =
  (((get 0 (start b) <=? p 0%nat) && (p 0%nat <? get 0 (start b) + get 0 (num b))) &&
  ((negb (1 <? dim)%nat || ((get 1 (start b) <=? p 1%nat) && (p 1%nat <? get 1 (start b) + get 1 (num b)))) &&
  (negb (2 <? dim)%nat || ((get 2 (start b) <=? p 2%nat) && (p 2%nat <? get 2 (start b) + get 2 (num b))))))%bool.
Proof.
  unfold inb. destruct dim as [|[|[|[|n]]]]; try lia; cbn [seq forallb Nat.ltb Nat.leb negb orb]; rewrite ?andb_true_r; reflexivity.
Qed.

Lemma wp_additive p : additive dim (wp p).
Proof.
  intros b d Hb Hd H2. unfold wp.
  assert (Hq : 1 <= get d (num b) ÷ 2 /\ get d (num b) ÷ 2 < get d (num b)) by lia.
  revert Hq. generalize (get d (num b) ÷ 2) as q. intros q Hq.
  assert (Hh : exists q', get d (num b) ÷ 2 = q') by eauto. clear Hh.
  rewrite !inb_form. unfold half1, half2; cbn [start num].
  assert (Hq2 : 1 <= get d (num b) ÷ 2 /\ get d (num b) ÷ 2 < get d (num b)) by lia. clear q Hq.
  revert Hq2. generalize (get d (num b) ÷ 2). intros q Hq.
  destruct d as [|[|[|d]]]; try lia; cbn [get set v0 v1 v2] in *.
  all: destruct (1 <? dim)%nat eqn:E1, (2 <? dim)%nat eqn:E2; try (exfalso; lia); cbn [negb orb]; unfold ind; rewrite ?andb_true_r.
  all: repeat match goal with |- context [if ?x then _ else _] => destruct x eqn:? end; try reflexivity; exfalso; lia.
Qed.

(** ** Phase 1 *)
Record p1ok (cells : vec3) (req : Z) (s : p1) : Prop := {
  p1_nb : nb s = v0 (nbd s) * v1 (nbd s) * v2 (nbd s);
  p1_pos : 1 <= v0 (nbd s) /\ 1 <= v1 (nbd s) /\ 1 <= v2 (nbd s);
  p1_req : nb s <= req;
  p1_cells : forall d, (d < dim)%nat -> get d (nbd s) * get d (nbc s) = get d cells;
  p1_unused : forall d, (dim <= d < 3)%nat -> get d (nbd s) = 1
}.

Lemma p1_init_ok cells req : 1 <= req -> p1ok cells req (p1_init dim cells).
Proof.
  intros Hr. unfold p1_init. constructor; cbn [nb nbd nbc v0 v1 v2]; try lia.
  - intros d Hd. destruct d as [|[|[|d]]]; try lia; cbn [get v0 v1 v2].
    + destruct (Nat.ltb_spec 0 dim); lia.
    + destruct (Nat.ltb_spec 1 dim); lia.
    + destruct (Nat.ltb_spec 2 dim); lia.
  - intros d Hd. destruct d as [|[|[|d]]]; try lia; reflexivity.
Qed.

Lemma bisect_ok cells req d s : (d <= 2)%nat -> p1ok cells req s -> p1ok cells req (fst (bisect dim d req s))
  /\ nb s <= nb (fst (bisect dim d req s))
  /\ (snd (bisect dim d req s) = true -> nb s < nb (fst (bisect dim d req s))).
Proof.
  intros Hd [H1 H2 H3 H4 H5]. unfold bisect.
  destruct (_ && _ && _)%bool eqn:E; cbn [fst snd]; [|split; [constructor; auto|split; [lia|discriminate]]].
  apply andb_prop in E as [E E3]. apply andb_prop in E as [E1 E2].
  assert (Hdd : (d < dim)%nat) by lia.
  assert (nb s >= 1) by nia.
  split; [|cbn [nb]; split; [lia|lia]].
  constructor; cbn [nb nbd nbc].
  - rewrite H1. destruct d as [|[|[|d]]]; try lia; simpl; ring.
  - destruct d as [|[|[|d]]]; try lia; simpl; lia.
  - lia.
  - intros e He. destruct (Nat.eq_dec d e) as [->|Hn].
    + rewrite !get_set_eq. rewrite <- (H4 e He).
      assert (get e (nbc s) = 2 * (get e (nbc s) ÷ 2)) by lia.
      set (q := get e (nbc s) ÷ 2) in *. rewrite H0. ring.
    + rewrite !get_set_ne by lia. auto.
  - intros e He. rewrite get_set_ne by lia. auto.
Qed.

Lemma p1_pass_ok cells req s : p1ok cells req s -> p1ok cells req (fst (p1_pass dim req s)) /\
  (snd (p1_pass dim req s) = false -> nb s < nb (fst (p1_pass dim req s))).
Proof.
  intros H. unfold p1_pass.
  destruct (@bisect_ok cells req 0 s ltac:(lia) H) as (K1 & L1 & M1). destruct (bisect dim 0 req s) as [s1 b1]. cbn [fst snd] in *.
  destruct (b1 && _)%bool; cbn [fst snd]; [split; [auto|discriminate]|].
  destruct (@bisect_ok cells req 1 s1 ltac:(lia) K1) as (K2 & L2 & M2). destruct (bisect dim 1 req s1) as [s2 b2]. cbn [fst snd] in *.
  destruct (b2 && _)%bool; cbn [fst snd]; [split; [auto|discriminate]|].
  destruct (@bisect_ok cells req 2 s2 ltac:(lia) K2) as (K3 & L3 & M3). destruct (bisect dim 2 req s2) as [s3 b3]. cbn [fst snd] in *.
  destruct (b3 && _)%bool; cbn [fst snd]; [split; [auto|discriminate]|].
  split; auto. destruct b1, b2, b3; simpl; intros; try discriminate; intuition lia.
Qed.

Lemma p1_loop_ok cells req : forall fuel s, p1ok cells req s -> (Z.to_nat (req - nb s) < fuel)%nat ->
  exists s', p1_loop fuel dim req s = Ok s' /\ p1ok cells req s'.
Proof.
  induction fuel as [|fuel IH]; intros s H Hf; [lia|]. cbn [p1_loop].
  destruct (p1_pass_ok H) as [K1 K2]. destruct (p1_pass dim req s) as [s' done]. cbn [fst snd] in *.
  destruct done; [eauto|]. apply IH; auto. destruct H, K1. specialize (K2 eq_refl). lia.
Qed.

Lemma phase1_ok cells req fuel : 1 <= req -> (Z.to_nat req < fuel)%nat ->
  exists s, phase1 fuel dim cells req = Ok s /\ p1ok cells req s.
Proof.
  intros Hr Hf. unfold phase1. destruct (1 <? req).
  - apply p1_loop_ok; [apply p1_init_ok; auto|]. simpl. lia.
  - eexists; split; [reflexivity|]. apply p1_init_ok; auto.
Qed.

(** ** Population *)
Lemma fill_spec l : forall A T, (length l <= length T)%nat ->
  fill l (length A) (A ++ T) = Ok (A ++ l ++ skipn (length l) T).
Proof.
  induction l as [|b l IH]; intros A T H; [reflexivity|].
  destruct T as [|t T]; simpl in H; [lia|]. cbn [fill].
  rewrite wr_ok by (rewrite app_length; simpl; lia). cbn [bind]. rewrite set_nth_mid by reflexivity.
  replace (A ++ b :: T) with ((A ++ [b]) ++ T) by (rewrite <- app_assoc; reflexivity).
  replace (S (length A)) with (length (A ++ [b])) by (rewrite app_length; simpl; lia).
  rewrite IH by lia. rewrite <- app_assoc. reflexivity.
Qed.

Lemma length_sumw (l : list block) : Z.of_nat (length l) = sumw (fun _ => 1) l.
Proof. induction l as [|b l IH]; [reflexivity|]. cbn [length sumw fold_right]. fold (sumw (fun _ => 1) l). rewrite <- IH. lia. Qed.

Lemma grid_length s cells req : p1ok cells req s -> Z.of_nat (length (grid_blocks dim s)) = nb s.
Proof.
  intros [H1 H2 _ _ _]. rewrite length_sumw, sumw_grid, H1.
  rewrite (@isum_ext _ (fun _ => v1 (nbd s) * v2 (nbd s))).
  - rewrite isum_const. lia.
  - intros i. rewrite (@isum_ext _ (fun _ => v2 (nbd s))); [rewrite isum_const; lia|].
    intros j. rewrite isum_const. lia.
Qed.

Lemma populate_ok s cells req : p1ok cells req s ->
  exists T, populate dim s = Ok (grid_blocks dim s ++ T) /\ Forall (jz dim) T /\ (1 <= length T)%nat.
Proof.
  intros H. unfold populate.
  pose proof (grid_length H) as HL. destruct H as [H1 H2 _ _ _].
  set (N := Z.to_nat (8 * v0 (nbd s) * v1 (nbd s) * v2 (nbd s))).
  assert (HN : Z.of_nat N = 8 * nb s) by (unfold N; rewrite Z2Nat.id by (repeat apply Z.mul_nonneg_nonneg; lia); rewrite H1; ring).
  assert (1 <= nb s) by nia.
  pose proof (@fill_spec (grid_blocks dim s) [] (repeat blank_block N)) as HF.
  cbn [length app] in HF. rewrite HF by (rewrite repeat_length; lia).
  eexists; split; [reflexivity|]. split.
  - apply Forall_forall. intros x Hx.
    assert (In x (repeat blank_block N)).
    { rewrite <- (firstn_skipn (length (grid_blocks dim s)) (repeat blank_block N)). apply in_or_app; auto. }
    apply repeat_spec in H0. subst. apply jz_blank_block.
  - rewrite skipn_length, repeat_length. lia.
Qed.

Lemma grid_wf s cells req : p1ok cells req s -> (forall d, (d < dim)%nat -> 1 <= get d cells) ->
  Forall (wf dim) (grid_blocks dim s).
Proof.
  intros [H1 H2 H3 H4 H5] Hc. apply Forall_forall. intros b Hb.
  unfold grid_blocks in Hb. apply in_flat_map in Hb as (i & _ & Hb). apply in_flat_map in Hb as (j & _ & Hb).
  apply in_map_iff in Hb as (k & <- & _).
  assert (Hn : forall d, (d < dim)%nat -> 1 <= get d (nbc s)).
  { intros d Hd. specialize (Hc d Hd). rewrite <- (H4 d Hd) in Hc.
    assert (1 <= get d (nbd s)) by (destruct d as [|[|[|d]]]; simpl; lia). nia. }
  split.
  - intros d Hd. destruct d as [|[|[|d]]]; try lia; unfold grid_block; simpl;
      repeat match goal with |- context [if ?x then _ else _] => destruct x eqn:? end; split; auto; exfalso; lia.
  - intros d Hd. specialize (Hn d Hd). destruct d as [|[|[|d]]]; try lia; unfold grid_block; simpl in *;
      repeat match goal with |- context [if ?x then _ else _] => destruct x eqn:? end; auto; exfalso; lia.
Qed.

Lemma grid_vol s cells req : p1ok cells req s -> sumw (vol dim) (grid_blocks dim s) = ncells_total dim cells.
Proof.
  intros [H1 H2 H3 H4 H5]. rewrite sumw_grid.
  set (V := (if (0 <? dim)%nat then v0 (nbc s) else 1) * (if (1 <? dim)%nat then v1 (nbc s) else 1) * (if (2 <? dim)%nat then v2 (nbc s) else 1)).
  rewrite (@isum_ext _ (fun _ => V * v2 (nbd s) * v1 (nbd s))).
  - rewrite isum_const. unfold V, ncells_total.
    pose proof (H4 0%nat) as C0. pose proof (H4 1%nat) as C1. pose proof (H4 2%nat) as C2.
    pose proof (H5 1%nat) as U1. pose proof (H5 2%nat) as U2. simpl in *.
    rewrite Z2Nat.id by lia.
    destruct (0 <? dim)%nat eqn:E0; [|exfalso; lia].
    destruct (1 <? dim)%nat eqn:E1, (2 <? dim)%nat eqn:E2; try (exfalso; lia).
    + rewrite <- C0, <- C1, <- C2 by lia. ring.
    + rewrite <- C0, <- C1, U2 by lia. ring.
    + rewrite <- C0, U1, U2 by lia. ring.
  - intros i. rewrite (@isum_ext _ (fun _ => V * v2 (nbd s))); [rewrite isum_const; lia|].
    intros j. rewrite (@isum_ext _ (fun _ => V)); [rewrite isum_const; lia|].
    intros k. unfold vol, grid_block, V; cbn [num get v0 v1 v2].
    destruct (0 <? dim)%nat eqn:E0, (1 <? dim)%nat eqn:E1, (2 <? dim)%nat eqn:E2; try (exfalso; lia); reflexivity.
Qed.

Definition gridb (cells : vec3) (p : nat -> Z) : bool :=
  forallb (fun d => (0 <=? p d) && (p d <? get d cells)) (seq 0 dim).
Lemma gridb_spec cells p : gridb cells p = true <-> in_grid dim cells p.
Proof.
  unfold gridb, in_grid. rewrite forallb_forall. split; intros H d Hd.
  - specialize (H d). rewrite in_seq in H. specialize (H ltac:(lia)). lia.
  - apply in_seq in Hd. specialize (H d ltac:(lia)). lia.
Qed.
Lemma gridb_form cells p : gridb cells p =
  (((0 <=? p 0%nat) && (p 0%nat <? get 0 cells)) &&
  ((negb (1 <? dim)%nat || ((0 <=? p 1%nat) && (p 1%nat <? get 1 cells))) &&
  (negb (2 <? dim)%nat || ((0 <=? p 2%nat) && (p 2%nat <? get 2 cells)))))%bool.
Proof.
  unfold gridb. destruct dim as [|[|[|[|n]]]]; try lia; cbn [seq forallb Nat.ltb Nat.leb negb orb]; rewrite ?andb_true_r; reflexivity.
Qed.

Lemma ind_and a b : ind (a && b) = ind a * ind b.
Proof. destruct a, b; reflexivity. Qed.

Lemma grid_count s cells req p : p1ok cells req s -> (forall d, (d < dim)%nat -> 1 <= get d cells) ->
  sumw (wp p) (grid_blocks dim s) = ind (gridb cells p).
Proof.
  intros [H1 H2 H3 H4 H5] Hc.
  assert (Hn : forall d, (d < dim)%nat -> 1 <= get d (nbc s)).
  { intros d Hd. specialize (Hc d Hd). rewrite <- (H4 d Hd) in Hc.
    assert (1 <= get d (nbd s)) by (destruct d as [|[|[|d]]]; simpl; lia). nia. }
  rewrite sumw_grid, gridb_form, !ind_and.
  set (F := fun (d : nat) (i : nat) => ind (negb (d <? dim)%nat || ((Z.of_nat i * get d (nbc s) <=? p d) && (p d <? Z.of_nat i * get d (nbc s) + get d (nbc s))))).
  assert (HF : forall d, (d < 3)%nat -> isum (F d) (Z.to_nat (get d (nbd s))) = ind (negb (d <? dim)%nat || ((0 <=? p d) && (p d <? get d cells)))).
  { intros d Hd. unfold F. destruct (Nat.ltb_spec d dim) as [Hlt|Hge]; cbn [negb orb].
    - rewrite isum_interval by auto. rewrite Z2Nat.id by (destruct d as [|[|[|d]]]; simpl; lia). rewrite (H4 d Hlt). reflexivity.
    - rewrite isum_const. rewrite (H5 d) by lia. reflexivity. }
  rewrite (@isum_ext _ (fun i => (isum (F 1%nat) (Z.to_nat (v1 (nbd s))) * isum (F 2%nat) (Z.to_nat (v2 (nbd s)))) * F 0%nat i)).
  - rewrite isum_scal. pose proof (HF 0%nat ltac:(lia)) as K0. pose proof (HF 1%nat ltac:(lia)) as K1. pose proof (HF 2%nat ltac:(lia)) as K2.
    simpl get in K0 at 1. simpl get in K1 at 1. simpl get in K2 at 1. rewrite K0, K1, K2.
    destruct (Nat.ltb_spec 0 dim); [|lia]. cbn [negb orb]. rewrite ind_and. ring.
  - intros i. rewrite (@isum_ext _ (fun j => (isum (F 2%nat) (Z.to_nat (v2 (nbd s))) * F 0%nat i) * F 1%nat j)).
    { rewrite isum_scal. ring. }
    intros j. rewrite (@isum_ext _ (fun k => (F 0%nat i * F 1%nat j) * F 2%nat k)).
    { rewrite isum_scal. ring. }
    intros k. unfold wp. rewrite inb_form, !ind_and. unfold F, grid_block; cbn [start num get v0 v1 v2].
    rewrite <- ind_and.
    destruct (0 <? dim)%nat eqn:E0, (1 <? dim)%nat eqn:E1, (2 <? dim)%nat eqn:E2; try (exfalso; lia); cbn [negb orb andb]; ring.
Qed.

(** ** From counts to the tiling specification *)
Lemma count_zero p l : sumw (wp p) l = 0 -> forall b, In b l -> inb p b = false.
Proof.
  assert (Hnn : forall l, 0 <= sumw (wp p) l).
  { intros l0; induction l0 as [|a l0 IH]; simpl; [lia|]. unfold wp, ind in *. destruct (inb p a); lia. }
  induction l as [|a l IH]; simpl; intros H b Hb; [tauto|]. pose proof (Hnn l). unfold wp at 1, ind in H.
  destruct (inb p a) eqn:E; [lia|]. destruct Hb as [<-|Hb]; auto.
Qed.

Lemma count_one p l : sumw (wp p) l = 1 -> exists! i : nat, exists b, nth_error l i = Some b /\ in_block dim b p.
Proof.
  induction l as [|a l IH]; simpl; intros H; [lia|].
  unfold wp at 1, ind in H. destruct (inb p a) eqn:E.
  - exists 0%nat. split; [exists a; split; auto; apply inb_spec; auto|].
    intros [|i] (b & Hn & Hin); auto. exfalso. simpl in Hn. apply nth_error_In in Hn.
    assert (sumw (wp p) l = 0) as H0 by (unfold wp in *; lia). pose proof (count_zero p l H0 b Hn) as X. apply inb_spec in Hin. congruence.
  - destruct IH as (i & (b & Hn & Hin) & U); [unfold wp in *; lia|].
    exists (S i). split; [exists b; auto|]. intros [|i'] (b' & Hn' & Hin').
    + simpl in Hn'. inversion Hn'; subst. apply inb_spec in Hin'. congruence.
    + f_equal. apply U. exists b'; auto.
Qed.

Lemma counts_tiling cells L : Forall (wf dim) L -> (forall p, sumw (wp p) L = ind (gridb cells p)) -> tiling dim cells L.
Proof.
  intros HW HC. rewrite Forall_forall in HW. constructor.
  - intros b Hb d Hd. apply HW; auto.
  - intros b p Hb Hin. apply gridb_spec. destruct (gridb cells p) eqn:E; auto. exfalso.
    specialize (HC p). rewrite E in HC. simpl in HC. apply inb_spec in Hin. rewrite (count_zero p L HC b Hb) in Hin. discriminate.
  - intros p Hg. apply count_one. rewrite HC. apply gridb_spec in Hg. rewrite Hg. reflexivity.
  - intros b Hb. apply HW; auto.
Qed.

Lemma block_partition_ok cells req fuel :
  (forall d, (d < dim)%nat -> 1 <= get d cells) -> 1 <= req <= ncells_total dim cells -> (Z.to_nat req < fuel)%nat ->
  exists L, block_partition fuel dim cells req = Ok L /\ Z.of_nat (length L) = req /\ tiling dim cells L.
Proof.
  intros Hc Hr Hf. unfold block_partition.
  destruct (Z.leb_spec req (ncells_total dim cells)); [|lia]. cbn [negb].
  destruct (@phase1_ok cells req fuel) as (s & Es & Hs); try lia. rewrite Es; cbn [bind].
  destruct (populate_ok Hs) as (T & EP & HT & HT1). rewrite EP; cbn [bind].
  pose proof (grid_length Hs) as HL. pose proof (grid_wf Hs Hc) as HW. pose proof (grid_vol Hs) as HV.
  assert (Hfin : forall arr L, inv dim arr (Z.to_nat req) L -> same_weight dim (grid_blocks dim s) L ->
     exists L0, Ok (firstn (Z.to_nat req) arr ++ repeat blank_block (Z.to_nat req - length arr)) = Ok L0 /\
       Z.of_nat (length L0) = req /\ tiling dim cells L0).
  { intros arr L (T' & -> & HLL & HWL & _) SW. exists L. split; [|split; [lia|]].
    - f_equal. rewrite <- HLL, firstn_app, Nat.sub_diag, firstn_all, app_length. simpl.
      replace (length L - (length L + length T'))%nat with 0%nat by lia. rewrite !app_nil_r. reflexivity.
    - apply counts_tiling; auto. intros p. rewrite (SW _ (wp_additive p)). apply (grid_count p Hs Hc). }
  assert (Hinv : inv dim (grid_blocks dim s ++ T) (Z.to_nat (nb s)) (grid_blocks dim s)).
  { destruct Hs. exists T. split; auto. split; [lia|]. split; auto. split; auto. rewrite app_length. lia. }
  destruct (Z.eqb_spec (nb s) req) as [E|NE]; cbn [bind].
  - rewrite E in *. apply Hfin with (L := grid_blocks dim s); auto. intros w _; reflexivity.
  - assert (nb s < req) by (destruct Hs; lia). assert (1 <= nb s) by (destruct Hs; nia).
    destruct (@p2_loop_spec dim Hdim req _ (proj2 Hr) fuel _ _ _ Hinv HV) as (arr & L & E2 & I2 & SW); try lia.
    rewrite E2; cbn [bind]. apply Hfin with (L := L); auto.
Qed.

Lemma ncells_grid_cells cells : ncells_total dim cells = grid_cells dim cells.
Proof.
  unfold ncells_total, grid_cells. destruct dim as [|[|[|[|n]]]]; try lia; cbn [seq map fold_right Nat.ltb Nat.leb get]; ring.
Qed.
End Dim.

Lemma block_partition_count : forall dim cells req fuel,
  valid_grid dim cells -> 1 <= req <= grid_cells dim cells -> (Z.to_nat req < fuel)%nat ->
  exists blocks, block_partition fuel dim cells req = Ok blocks /\ Z.of_nat (length blocks) = req.
Proof.
  intros dim cells req fuel [Hd Hc] Hr Hf.
  destruct (@block_partition_ok dim Hd cells req fuel) as (L & E & HL & _); auto.
  - rewrite ncells_grid_cells; auto.
  - eauto.
Qed.
Lemma block_partition_tiling : forall dim cells req fuel blocks,
  valid_grid dim cells -> 1 <= req <= grid_cells dim cells -> (Z.to_nat req < fuel)%nat ->
  block_partition fuel dim cells req = Ok blocks -> tiling dim cells blocks.
Proof.
  intros dim cells req fuel blocks [Hd Hc] Hr Hf E0.
  destruct (@block_partition_ok dim Hd cells req fuel) as (L & E & HL & HT); auto.
  - rewrite ncells_grid_cells; auto.
  - congruence.
Qed.
Lemma block_partition_too_many : forall dim cells req fuel,
  valid_grid dim cells -> grid_cells dim cells < req -> block_partition fuel dim cells req = AssertFail.
Proof.
  intros dim cells req fuel [Hd Hc] Hr. unfold block_partition. rewrite ncells_grid_cells by auto.
  destruct (Z.leb_spec req (grid_cells dim cells)); [lia|reflexivity].
Qed.
Lemma block_partition_nonpositive :
  (exists blocks, block_partition 10 2 (V3 5 7 0) 0 = Ok blocks /\ length blocks = 2%nat) /\
  (forall fuel, block_partition fuel 1 (V3 1 0 0) 0 = OutOfFuel).
Proof.
  split; [eexists; split; vm_compute; reflexivity|].
  intros fuel. unfold block_partition, phase1.
  change (negb (0 <=? ncells_total 1 (V3 1 0 0))) with false. cbv iota.
  change (1 <? 0) with false. cbv iota. cbn [bind].
  set (arr := B zero3 (V3 1 0 0) :: repeat blank_block 7).
  change (populate 1 (p1_init 1 (V3 1 0 0))) with (Ok arr). cbn [bind].
  change (nb (p1_init 1 (V3 1 0 0)) =? 0) with false. cbv iota.
  change (Z.to_nat (nb (p1_init 1 (V3 1 0 0)))) with 1%nat.
  assert (H : p2_loop fuel 1 0 arr 1 = OutOfFuel); [|rewrite H; reflexivity].
  induction fuel as [|fuel IH]; [reflexivity|].
  cbn [p2_loop]. change (dir_loop (seq 0 1) 1 0 arr 1) with (Ok (arr, 1%nat, false)). cbn [bind]. exact IH.
Qed.
