(** 1D connectivity, and the queries in terms of the connectivity record. *)
From Verif Require Import Base Loop SimpleMesh SimpleMesh_spec SimpleMesh_proofs SimpleMesh_proofs2 SimpleMesh_proofs3.
Set Implicit Arguments.

Definition cn1 (c : nat) : list nat := [c; c + 1].
Definition cf1 (c : nat) : list nat := [c; c + 1].
Definition fn1 (f : nat) : list nat := [f].
Definition dirs2 : list Z := [-1; 1]%Z.

Lemma foldM_triple A S T U (f : A -> S -> outcome S) (g : A -> T -> outcome T) (h : A -> U -> outcome U) l s t u s' t' u' :
  foldM l f s = Ok s' -> foldM l g t = Ok t' -> foldM l h u = Ok u' ->
  foldM l (fun x st => a <- f x (fst st) ;; b <- g x (fst (snd st)) ;; c <- h x (snd (snd st)) ;; Ok (a, (b, c))) (s, (t, u))
  = Ok (s', (t', u')).
Proof.
  revert s t u; induction l as [|x l IH]; intros s t u E1 E2 E3; simpl in *.
  - congruence.
  - apply bind_Ok in E1 as [a [Ea E1]]. apply bind_Ok in E2 as [b [Eb E2]]. apply bind_Ok in E3 as [c [Ec E3]].
    rewrite Ea; simpl. rewrite Eb; simpl. rewrite Ec; simpl. auto.
Qed.

Lemma make_simple_1d_conn V (x : list V) er fr : x <> [] ->
  exists m, make_simple_1d x er fr false = Ok m /\
    conn m cn1 cf1 fn1 dirs2 /\
    num_cells m = length x - 1 /\ num_nodes m = length x /\ num_faces m = length x /\
    spdim m = 1 /\ nodes_per_face m = 1 /\ faces_per_cell m = 2 /\ nodes_per_cell m = 2 /\
    buckets 2 (length x) (node_to_face m) (fun n => [n]) /\
    faces_per_node_aug m = 2 /\ cells_per_node_aug m = 3 /\ coordinates m = x /\
    nodeids_owned m = seq 0 (length x) /\ cellids_owned m = seq 0 (length x - 1) /\
    faceids_owned m = (if fr then seq 0 (length x) else []) /\
    edgeids_owned m = (if er then seq 0 (length x) else []).
Proof.
  intros Hx. unfold make_simple_1d. destruct x as [|x0 xs]; [tauto|].
  remember (x0 :: xs) as x eqn:Ex.
  assert (EL : length x - 1 + 1 = length x) by (subst x; simpl; lia).
  set (n := length x - 1) in *. unfold update_internals_1d, for_lt. rewrite EL.
  assert (UQ : forall f dv c c', c < n -> c' < n -> In (f, dv) (combine (cf1 c) dirs2) ->
                In (f, dv) (combine (cf1 c') dirs2) -> c = c').
  { simpl. intros f dv c c' _ _ [E|[E|[]]] [F|[F|[]]]; injection E as <- <-; injection F; intros; try discriminate; lia. }
  (* cells *)
  destruct (@block_table_Ok nat 2 cn1 0 n (repeat 0 (2 * n))) as (c2n & E1 & _ & P1 & _);
    [auto|rewrite repeat_length; lia|].
  destruct (@incidence_table n (length x) 3 cn1 (fun c => c)) as (n2c & E2 & P2).
  { lia. } { simpl. intros c b Hc [<-|[<-|[]]]; lia. }
  { intros c _. unfold cn1. constructor; [simpl; lia|]. constructor; [simpl; tauto|constructor]. }
  { intros b Hb. apply Nat.lt_succ_r, filter_seq_bound with (l := [b; b - 1]); [simpl; lia|].
    intros c Hc H. apply inb_true in H. simpl in *. lia. }
  destruct (@block_table_Ok nat 2 cf1 0 n (repeat 0 (2 * n))) as (c2f & E3 & _ & P3 & _);
    [auto|rewrite repeat_length; lia|].
  destruct (@block_table_Ok Z 2 (fun _ => dirs2) 0 n (repeat 0%Z (2 * n))) as (c2fd & E4 & _ & P4 & _);
    [auto|rewrite repeat_length; lia|].
  destruct (@f2c_table n (length x) cf1 dirs2) as (f2c & E5 & P5).
  { simpl. intros z [<-|[<-|[]]]; auto. }
  { simpl. intros c f Hc [<-|[<-|[]]]; lia. }
  { exact UQ. }
  destruct (@block_table_Ok nat 1 fn1 0 (length x) (repeat 0 (1 * length x))) as (f2n & E6 & _ & P6 & _);
    [auto|rewrite repeat_length; lia|].
  destruct (@incidence_table (length x) (length x) 2 fn1 (fun f => f)) as (n2f & E7 & P7).
  { lia. } { simpl. intros c b Hc [<-|[]]; lia. }
  { intros c _. constructor; [simpl; tauto|constructor]. }
  { intros b Hb. apply Nat.lt_succ_r, filter_seq_bound with (l := [b]); [simpl; lia|].
    intros c Hc H. apply inb_true in H. simpl in *. lia. }
  (* bodies *)
  rewrite (@foldM_ext nat _ _ (fun ix st => a <- wr_all (block (2 * ix) (cn1 ix)) (fst st) ;;
             b <- push_all 3 (map (fun m => (m, ix)) (cn1 ix)) (snd st) ;; Ok (a, b))).
  2:{ intros ix s _. unfold block, cell_index1, node_index1; cbn [length cn1 seq combine map].
      replace (2 * ix + 1) with (S (2 * ix)) by lia. reflexivity. }
  rewrite (@foldM_pair _ _ _ _ _ _ _ _ _ _ E1 E2). cbn [bind].
  (* face_to_cell: the source writes slot ix+1 first *)
  assert (Q5 : forall s, foldM (seq 0 n) (fun ix => wr_all [(2 * yzface_index1 (ix + 1) + 1, Z.of_nat (cell_index1 ix));
                       (2 * yzface_index1 ix, Z.of_nat (cell_index1 ix))]) s
      = foldM (seq 0 n) (fun c => wr_all (map (fun fd => (slot (fst fd) (snd fd), Z.of_nat c)) (combine (cf1 c) dirs2))) s).
  { intros s. apply foldM_ext. intros ix a _. unfold cell_index1, yzface_index1, slot; cbn [cf1 dirs2 combine map fst snd].
    change (-1 =? 1)%Z with false; change (1 =? 1)%Z with true; cbn [wr_all foldM fst snd].
    unfold wr. rewrite !set_nth_length || idtac.
    destruct (Nat.ltb_spec (2 * (ix + 1) + 1) (length a)), (Nat.ltb_spec (2 * ix) (length a)); try lia;
      unfold bind; rewrite ?set_nth_length;
      repeat match goal with |- context [?u <? ?v] => destruct (Nat.ltb_spec u v); try lia end; auto.
    f_equal.
    (* the two writes commute *)
    assert (C : forall (l : list Z) i j u v, i <> j -> set_nth (set_nth l i u) j v = set_nth (set_nth l j v) i u).
    { clear. induction l as [|h t IH]; intros [|i] [|j] u v N; simpl; auto; try lia. f_equal; apply IH; lia. }
    apply C; lia. }
  rewrite (@foldM_ext nat _ _ (fun ix st => a <- wr_all (block (2 * ix) (cf1 ix)) (fst st) ;;
             b <- wr_all (block (2 * ix) dirs2) (fst (snd st)) ;;
             c <- wr_all [(2 * yzface_index1 (ix + 1) + 1, Z.of_nat (cell_index1 ix));
                       (2 * yzface_index1 ix, Z.of_nat (cell_index1 ix))] (snd (snd st)) ;; Ok (a, (b, c)))).
  2:{ intros ix s _. unfold block, cell_index1, yzface_index1; cbn [length cf1 dirs2 seq combine map].
      replace (2 * ix + 1) with (S (2 * ix)) by lia. reflexivity. }
  rewrite <- Q5 in E5.
  rewrite (@foldM_triple _ _ _ _ _ _ _ _ _ _ _ _ _ _ E3 E4 E5). cbn [bind].
  rewrite (@foldM_ext nat _ _ (fun ix st => a <- wr_all (block (1 * ix) (fn1 ix)) (fst st) ;;
             b <- push_all 2 (map (fun m => (m, ix)) (fn1 ix)) (snd st) ;; Ok (a, b))).
  2:{ intros ix s _. reflexivity. }
  rewrite (@foldM_pair _ _ _ _ _ _ _ _ _ _ E6 E7). cbn [bind].
  eexists; split; [reflexivity|]. split.
  - constructor; cbn [num_cells num_nodes num_faces nodes_per_cell nodes_per_face faces_per_cell
       cells_per_node_aug cell_to_node cell_to_face cell_to_face_dirs node_to_cell face_to_cell face_to_node fst snd].
    + intros c Hc i v. apply P1. lia.
    + auto.
    + intros c _. unfold cn1. constructor; [simpl; lia|]. constructor; [simpl; tauto|constructor].
    + simpl. intros c m Hc [<-|[<-|[]]]; lia.
    + intros c Hc i v. apply P3. lia.
    + intros c Hc i v. apply (P4 c). lia.
    + auto.
    + auto.
    + simpl. intros z [<-|[<-|[]]]; auto.
    + intros c _. unfold cf1. constructor; [simpl; lia|]. constructor; [simpl; tauto|constructor].
    + simpl. intros c m Hc [<-|[<-|[]]]; lia.
    + destruct P2 as [h1 h2 h3 h4].
      constructor; auto; intros; try rewrite <- (map_id (filter _ _)) in *; auto.
    + exact P5.
    + exact UQ.
    + simpl. intros c c' f f' Hc Hc' N H1 H2 H3 H4. lia.
    + intros f Hf i v. apply P6. lia.
    + auto.
    + intros c _. constructor; [simpl; tauto|constructor].
    + simpl. intros f m Hf [<-|[]]. auto.
  - cbn. do 7 (split; [reflexivity|]). split.
    { destruct P7 as [h1 h2 h3 h4].
      assert (Q : forall b, b < length x -> map (fun f : nat => f) (filter (fun x => inb b (fn1 x)) (seq 0 (length x))) = [b]).
      { intros b Hb. rewrite map_id.
        assert (G : forall m s, filter (fun x => inb b (fn1 x)) (seq s m) = if (s <=? b) && (b <? s + m) then [b] else []).
        { induction m as [|m IH]; intros s; simpl.
          - destruct (Nat.leb_spec s b), (Nat.ltb_spec b (s + 0)); simpl; auto; lia.
          - rewrite IH. unfold inb at 1. destruct (in_dec Nat.eq_dec b (fn1 s)) as [i|i]; simpl in i.
            + destruct (Nat.leb_spec (S s) b), (Nat.ltb_spec b (S s + m)), (Nat.leb_spec s b), (Nat.ltb_spec b (s + S m)); simpl; auto; try lia; f_equal; lia.
            + destruct (Nat.leb_spec (S s) b), (Nat.ltb_spec b (S s + m)), (Nat.leb_spec s b), (Nat.ltb_spec b (s + S m)); simpl; auto; try lia. }
        rewrite G. destruct (Nat.leb_spec 0 b), (Nat.ltb_spec b (0 + length x)); simpl; auto; lia. }
      constructor; auto; intros; try (rewrite <- Q in * by auto); auto. }
    do 3 (split; [reflexivity|]). do 3 (split; [reflexivity|]). reflexivity.
Qed.

(** ---- queries ---- *)
Section Q.
Variables (V : Type) (m : smesh V) (cn cf fn : nat -> list nat) (cd : list Z).
Hypothesis K : conn m cn cf fn cd.

Lemma q_cell_nodes c : c < num_cells m -> cell_get_nodes m c = Ok (cn c).
Proof.
  intros Hc. unfold cell_get_nodes. replace (seq 0 (nodes_per_cell m)) with (seq 0 (length (cn c))) by (rewrite (k_cn_len K Hc); auto).
  apply mapM_rd_block. apply (k_cn K Hc).
Qed.

Lemma q_cell_faces c : c < num_cells m -> cell_get_faces_and_dirs m c = Ok (cf c, cd).
Proof.
  intros Hc. unfold cell_get_faces_and_dirs.
  replace (mapM (fun i => rd (cell_to_face m) (faces_per_cell m * c + i)) (seq 0 (faces_per_cell m)))
    with (mapM (fun i => rd (cell_to_face m) (faces_per_cell m * c + i)) (seq 0 (length (cf c))))
    by (rewrite (k_cf_len K Hc); auto).
  rewrite (@mapM_rd_block _ _ _ (cf c)) by apply (k_cf K Hc). cbn [bind].
  replace (seq 0 (faces_per_cell m)) with (seq 0 (length cd)) by (rewrite (k_cd_len K); auto).
  rewrite (@mapM_rd_block _ _ _ cd) by apply (k_cd K Hc). reflexivity.
Qed.

Lemma q_face_nodes f : f < num_faces m -> face_get_nodes m f = Ok (fn f).
Proof.
  intros Hf. unfold face_get_nodes. replace (seq 0 (nodes_per_face m)) with (seq 0 (length (fn f))) by (rewrite (k_fn_len K Hf); auto).
  apply mapM_rd_block. apply (k_fn K Hf).
Qed.

Lemma q_node_cells n : n < num_nodes m ->
  node_get_cells m n = Ok (filter (fun c => inb n (cn c)) (seq 0 (num_cells m))).
Proof. intros Hn. unfold node_get_cells. apply (read_bucket_ok (k_n2c K) Hn). Qed.

(** the (at most two) cells of a face: slot 0 = direction -1, slot 1 = direction +1 *)
Definition cellz (z : Z) : list Z := if (z =? -1)%Z then [] else [z].

Lemma q_face_cells f : f < num_faces m ->
  exists z0 z1, nth_error (face_to_cell m) (2 * f) = Some z0 /\ nth_error (face_to_cell m) (2 * f + 1) = Some z1 /\
    face_get_cells m f = Ok (cellz z0 ++ cellz z1) /\
    (forall c, c < num_cells m -> z0 = Z.of_nat c <-> In (f, (-1)%Z) (combine (cf c) cd)) /\
    (forall c, c < num_cells m -> z1 = Z.of_nat c <-> In (f, 1%Z) (combine (cf c) cd)) /\
    (z0 = (-1)%Z \/ exists c, c < num_cells m /\ z0 = Z.of_nat c) /\
    (z1 = (-1)%Z \/ exists c, c < num_cells m /\ z1 = Z.of_nat c).
Proof.
  intros Hf.
  assert (G : forall dv, dv = 1%Z \/ dv = (-1)%Z -> exists z, nth_error (face_to_cell m) (slot f dv) = Some z /\
     (forall c, c < num_cells m -> z = Z.of_nat c <-> In (f, dv) (combine (cf c) cd)) /\
     (z = (-1)%Z \/ exists c, c < num_cells m /\ z = Z.of_nat c)).
  { intros dv Hdv. destruct (k_f2c K Hf Hdv) as [[E N]|[c [Hc [E I]]]].
    - exists (-1)%Z. split; auto. split; auto. intros c Hc. split; [lia|]. intros I; destruct (N c Hc I).
    - exists (Z.of_nat c). split; auto. split; [|right; exists c; auto]. intros c' Hc'. split.
      + intros Ez. assert (c = c') by lia. subst; auto.
      + intros I'. rewrite (@k_uniq _ _ _ _ _ _ K f dv c c' Hc Hc' I I'). auto. }
  destruct (G (-1)%Z) as (z0 & E0 & P0 & R0); auto. destruct (G 1%Z) as (z1 & E1 & P1 & R1); auto.
  unfold slot in E0, E1. simpl Z.eqb in E0, E1. cbv iota in E0, E1.
  exists z0, z1. split; [auto|]. split; [auto|]. split; [|auto].
  unfold face_get_cells. assert (R : rd (face_to_cell m) (2 * f) = Ok z0) by (apply rd_Ok; auto).
  rewrite R; cbn [bind].
  assert (R' : rd (face_to_cell m) (2 * f + 1) = Ok z1) by (apply rd_Ok; auto).
  rewrite R'; cbn [bind]. reflexivity.
Qed.

Lemma in_cf_dir c f : c < num_cells m -> In f (cf c) <->
  In (f, (-1)%Z) (combine (cf c) cd) \/ In (f, 1%Z) (combine (cf c) cd).
Proof.
  intros Hc. split.
  - intros H. apply In_nth_error in H as [i Hi]. assert (L := nth_error_lt _ _ Hi).
    rewrite (k_cf_len K Hc), <- (k_cd_len K) in L.
    destruct (nth_error cd i) as [dv|] eqn:Ed; [|apply nth_error_None in Ed; lia].
    assert (I : In (f, dv) (combine (cf c) cd)).
    { clear - Hi Ed. revert i cd Hi Ed. induction (cf c) as [|a l IH]; intros [|i] [|z cd'] Hi Ed; simpl in *; try discriminate.
      - injection Hi as <-; injection Ed as <-; auto.
      - right; eapply IH; eauto. }
    destruct (k_cd_pm K dv) as [->| ->]; auto. eapply nth_error_In; eauto.
  - intros [H|H]; eapply in_combine_l; eauto.
Qed.

(** within one cell a face has one direction *)
Lemma dir_unique c f d1 d2 : c < num_cells m ->
  In (f, d1) (combine (cf c) cd) -> In (f, d2) (combine (cf c) cd) -> d1 = d2.
Proof.
  intros Hc. assert (ND := k_cf_nd K Hc). revert ND. generalize (cf c) cd. clear.
  induction l as [|a l IH]; intros [|z cd'] ND H1 H2; simpl in *; try tauto.
  apply NoDup_cons_iff in ND as [Na ND].
  destruct H1 as [H1|H1], H2 as [H2|H2].
  - congruence.
  - injection H1 as -> ->. apply in_combine_l in H2. tauto.
  - injection H2 as -> ->. apply in_combine_l in H1. tauto.
  - eapply IH; eauto.
Qed.

Lemma face_cells_dual f c l : f < num_faces m -> c < num_cells m -> face_get_cells m f = Ok l ->
  In (Z.of_nat c) l <-> In f (cf c).
Proof.
  intros Hf Hc E. destruct (q_face_cells Hf) as (z0 & z1 & _ & _ & E' & P0 & P1 & R0 & R1).
  rewrite E' in E. injection E as <-. rewrite in_cf_dir by auto. rewrite <- P0, <- P1 by auto.
  rewrite in_app_iff. unfold cellz.
  destruct (Z.eqb_spec z0 (-1)), (Z.eqb_spec z1 (-1)); simpl; lia.
Qed.

Lemma face_cells_range f l : f < num_faces m -> face_get_cells m f = Ok l ->
  NoDup l /\ length l <= 2 /\ forall z, In z l -> exists c, c < num_cells m /\ z = Z.of_nat c.
Proof.
  intros Hf E. destruct (q_face_cells Hf) as (z0 & z1 & _ & _ & E' & P0 & P1 & R0 & R1).
  rewrite E' in E. injection E as <-.
  assert (D : z0 = z1 -> z0 = (-1)%Z).
  { intros <-. destruct R0 as [R0|[c [Hc Ez]]]; auto. exfalso.
    assert (A := proj1 (P0 c Hc) Ez). assert (B := proj1 (P1 c Hc) Ez).
    assert (X := @dir_unique c f (-1)%Z 1%Z Hc A B). discriminate. }
  unfold cellz. destruct (Z.eqb_spec z0 (-1)), (Z.eqb_spec z1 (-1)); simpl.
  - split; [constructor|]. split; [lia|]. tauto.
  - split; [constructor; [simpl; tauto|constructor]|]. split; [lia|]. intros z [<-|[]]. destruct R1; [tauto|auto].
  - split; [constructor; [simpl; tauto|constructor]|]. split; [lia|]. intros z [<-|[]]. destruct R0; [tauto|auto].
  - split; [constructor; [simpl; intros [->|[]]; auto|constructor; [simpl; tauto|constructor]]|].
    split; [lia|]. intros z [<-|[<-|[]]]; [destruct R0|destruct R1]; tauto.
Qed.

(** ---- face-adjacent cells ---- *)
Definition adj_step (c : nat) (f : nat) : list Z :=
  match nth_error (face_to_cell m) (2 * f), nth_error (face_to_cell m) (2 * f + 1) with
  | Some a0, Some a1 =>
    if negb (a0 =? -1)%Z && negb (a0 =? Z.of_nat c)%Z then [a0]
    else if negb (a1 =? -1)%Z && negb (a1 =? Z.of_nat c)%Z then [a1] else []
  | _, _ => []
  end.

Lemma foldM_collect A B (l : list A) (f : A -> outcome (list B)) (g : A -> list B) acc :
  (forall x, In x l -> f x = Ok (g x)) ->
  foldM l (fun x out => y <- f x ;; Ok (out ++ y)) acc = Ok (acc ++ flat_map g l).
Proof.
  revert acc; induction l as [|x l IH]; intros acc H; simpl.
  - rewrite app_nil_r; auto.
  - rewrite H by (left; auto). simpl. rewrite IH by (intros y Hy; apply H; right; auto).
    rewrite app_assoc; auto.
Qed.

Lemma flat_map_nth A B (g : A -> list B) (l : list A) (h : nat -> list B) :
  (forall i x, nth_error l i = Some x -> h i = g x) -> flat_map h (seq 0 (length l)) = flat_map g l.
Proof.
  assert (G : forall l s, (forall i x, nth_error l i = Some x -> h (s + i) = g x) ->
     flat_map h (seq s (length l)) = flat_map g l).
  { clear. induction l as [|a l IH]; intros s H; simpl; auto. f_equal.
    - specialize (H 0 a eq_refl). rewrite Nat.add_0_r in H; auto.
    - apply IH. intros i x Hx. specialize (H (S i) x Hx). rewrite <- H. f_equal; lia. }
  intros H. apply G. auto.
Qed.

Lemma q_face_adj c : c < num_cells m ->
  cell_get_face_adj_cells m c = Ok (flat_map (adj_step c) (cf c)).
Proof.
  intros Hc. unfold cell_get_face_adj_cells, for_lt.
  set (h := fun i => match nth_error (cell_to_face m) (faces_per_cell m * c + i) with Some f => adj_step c f | None => [] end).
  assert (Ex : forall i, i < faces_per_cell m -> exists f, nth_error (cf c) i = Some f).
  { intros i Hi. destruct (nth_error (cf c) i) eqn:E; eauto.
    apply nth_error_None in E. rewrite (k_cf_len K Hc) in E. lia. }
  rewrite (@foldM_ext nat _ _ (fun i out => y <- Ok (h i) ;; Ok (out ++ y))).
  - rewrite (@foldM_collect _ _ _ (fun i => Ok (h i)) h) by auto. simpl. f_equal.
    rewrite <- (k_cf_len K Hc). apply flat_map_nth. intros i f Hf.
    unfold h. rewrite (k_cf K Hc _ Hf). auto.
  - intros i out Hi. apply in_seq in Hi. destruct (Ex i) as [f Ef]; [lia|].
    assert (E := k_cf K Hc _ Ef). unfold h. rewrite E. unfold rd at 1. rewrite E. cbn [bind].
    assert (Hf : f < num_faces m) by (apply (@k_cf_lt _ _ _ _ _ _ K c f Hc); eapply nth_error_In; eauto).
    destruct (q_face_cells Hf) as (z0 & z1 & E0 & E1 & _).
    unfold adj_step. unfold rd. rewrite E0, E1. cbn [bind].
    destruct (negb (z0 =? -1)%Z && negb (z0 =? Z.of_nat c)%Z); auto.
    destruct (negb (z1 =? -1)%Z && negb (z1 =? Z.of_nat c)%Z); auto.
    rewrite app_nil_r; auto.
Qed.

Lemma adj_step_spec c f z : c < num_cells m -> In f (cf c) ->
  In z (adj_step c f) <-> exists c', c' < num_cells m /\ z = Z.of_nat c' /\ c' <> c /\ In f (cf c').
Proof.
  intros Hc Hfc. assert (Hf := @k_cf_lt _ _ _ _ _ _ K c f Hc Hfc).
  destruct (q_face_cells Hf) as (z0 & z1 & E0 & E1 & _ & P0 & P1 & R0 & R1).
  unfold adj_step. rewrite E0, E1.
  assert (F : forall c', c' < num_cells m -> In f (cf c') <-> z0 = Z.of_nat c' \/ z1 = Z.of_nat c').
  { intros c' Hc'. rewrite in_cf_dir by auto. rewrite P0, P1 by auto. tauto. }
  assert (Fc := proj1 (F c Hc) Hfc).
  assert (D : z0 = z1 -> z0 = (-1)%Z).
  { intros <-. destruct R0 as [R0|[c1 [Hc1 Ez]]]; auto. exfalso.
    assert (A := proj1 (P0 c1 Hc1) Ez). assert (B := proj1 (P1 c1 Hc1) Ez).
    assert (X := @dir_unique c1 f (-1)%Z 1%Z Hc1 A B). discriminate. }
  split.
  - intros H. destruct R0 as [R0|[c0 [Hc0 R0]]], R1 as [R1|[c1 [Hc1 R1]]]; subst z0 z1;
    repeat match type of H with context [(?a =? ?b)%Z] => destruct (Z.eqb_spec a b); simpl in H; try lia end;
    simpl in H; destruct H as [<-|[]]; try lia.
    all: try (exists c1; rewrite F by auto; repeat split; auto; lia);
         try (exists c0; rewrite F by auto; repeat split; auto; lia).
  - intros (c' & Hc' & -> & N & I). apply F in I; auto.
    repeat match goal with |- context [(?a =? ?b)%Z] => destruct (Z.eqb_spec a b); simpl end; lia.
Qed.

Lemma adj_step_short c f : length (adj_step c f) <= 1.
Proof.
  unfold adj_step. destruct (nth_error _ _); simpl; [|lia]. destruct (nth_error _ _); simpl; [|lia].
  destruct (_ && _); simpl; [lia|]. destruct (_ && _); simpl; lia.
Qed.

Lemma NoDup_flat_map_short A B (g : A -> list B) (l : list A) :
  NoDup l -> (forall x, In x l -> length (g x) <= 1) ->
  (forall x y b, In x l -> In y l -> In b (g x) -> In b (g y) -> x = y) -> NoDup (flat_map g l).
Proof.
  induction l as [|a l IH]; intros ND HL HD; simpl; [constructor|].
  apply NoDup_cons_iff in ND as [Na ND].
  assert (IH' : NoDup (flat_map g l)).
  { apply IH; auto; intros; [apply HL; right; auto|eapply HD; eauto; right; auto]. }
  assert (La := HL a (or_introl eq_refl)).
  destruct (g a) as [|b [|b' r]] eqn:Eg; simpl in *; try lia; auto.
  constructor; auto. intros Hin. apply in_flat_map in Hin as [y [Hy Hb]].
  apply Na. rewrite (HD a y b); auto. rewrite Eg; left; auto.
Qed.

Lemma face_adj_ok c : c < num_cells m -> exists l,
  cell_get_face_adj_cells m c = Ok l /\ NoDup l /\
  (forall z, In z l <-> exists c', c' < num_cells m /\ z = Z.of_nat c' /\ c' <> c /\ exists f, In f (cf c) /\ In f (cf c')).
Proof.
  intros Hc. exists (flat_map (adj_step c) (cf c)). split; [apply q_face_adj; auto|]. split.
  - apply NoDup_flat_map_short.
    + apply (k_cf_nd K Hc).
    + intros; apply adj_step_short.
    + intros f g z Hf Hg H1 H2. apply adj_step_spec in H1 as (c1 & Hc1 & -> & N1 & I1); auto.
      apply adj_step_spec in H2 as (c2 & Hc2 & E & N2 & I2); auto. assert (c1 = c2) by lia. subst c2.
      eapply (@k_share _ _ _ _ _ _ K c c1); eauto.
  - intros z. rewrite in_flat_map. split.
    + intros [f [Hf Hz]]. apply adj_step_spec in Hz as (c' & Hc' & -> & N & I); auto.
      exists c'. repeat split; auto. exists f; auto.
    + intros (c' & Hc' & -> & N & f & Hf & Hf'). exists f. split; auto. apply adj_step_spec; auto. exists c'; auto.
Qed.

(** ---- node-adjacent cells ---- *)
Definition nadj_push (c nc : nat) (out : list nat) : list nat :=
  if nc =? c then out else if existsb (fun x => x =? nc) out then out else out ++ [nc].

Lemma nadj_inner c n out : n < num_nodes m ->
  (let offset2 := cells_per_node_aug m * n in
   ncell <- rd (node_to_cell m) offset2 ;;
   for_lt ncell (fun j out =>
      nc <- rd (node_to_cell m) (offset2 + j + 1) ;;
      if nc =? c then Ok out
      else if existsb (fun x => x =? nc) out then Ok out else Ok (out ++ [nc])) out)
  = Ok (fold_left (fun o nc => nadj_push c nc o) (filter (fun c => inb n (cn c)) (seq 0 (num_cells m))) out).
Proof.
  intros Hn. set (L := filter (fun c => inb n (cn c)) (seq 0 (num_cells m))).
  destruct (k_n2c K) as [_ _ HC HV]. cbv zeta.
  assert (R : rd (node_to_cell m) (cells_per_node_aug m * n) = Ok (length L)) by (apply rd_Ok; apply HC; auto).
  rewrite R. cbn [bind]. unfold for_lt.
  assert (HL : forall i v, nth_error L i = Some v ->
     rd (node_to_cell m) (cells_per_node_aug m * n + i + 1) = Ok v).
  { intros i v E. apply rd_Ok. rewrite <- (HV n i v Hn E). f_equal; lia. }
  clear R HC HV. revert HL. generalize (cells_per_node_aug m * n). intros off HL.
  assert (G : forall l s out, (forall i v, nth_error l i = Some v -> rd (node_to_cell m) (off + (s + i) + 1) = Ok v) ->
    foldM (seq s (length l)) (fun j out => nc <- rd (node_to_cell m) (off + j + 1) ;;
      if nc =? c then Ok out
      else if existsb (fun x => x =? nc) out then Ok out else Ok (out ++ [nc])) out
    = Ok (fold_left (fun o nc => nadj_push c nc o) l out)).
  { clear. induction l as [|a l IH]; intros s out H; simpl; auto.
    assert (Ea := H 0 a eq_refl). rewrite Nat.add_0_r in Ea. rewrite Ea; cbn [bind].
    assert (Q : (if a =? c then Ok out else if existsb (fun x => x =? a) out then Ok out else Ok (out ++ [a]))
                = Ok (nadj_push c a out)).
    { unfold nadj_push. destruct (a =? c); auto. destruct (existsb _ out); auto. }
    rewrite Q; cbn [bind]. apply IH. intros i v E. rewrite <- (H (S i) v E). f_equal. lia. }
  apply G. intros i v E. simpl. auto.
Qed.

Lemma nadj_push_spec c nc out : NoDup out -> ~ In c out ->
  NoDup (nadj_push c nc out) /\ ~ In c (nadj_push c nc out) /\
  (forall x, In x (nadj_push c nc out) <-> In x out \/ (x = nc /\ x <> c)).
Proof.
  intros ND NI. unfold nadj_push. destruct (Nat.eqb_spec nc c) as [->|N].
  - split; [auto|]. split; [auto|]. intros x; split; [tauto|]. intros [?|[-> ?]]; tauto.
  - destruct (existsb (fun x => x =? nc) out) eqn:E.
    + apply existsb_exists in E as [y [Hy Ey]]. apply Nat.eqb_eq in Ey. subst y.
      split; [auto|]. split; [auto|]. intros x; split; [tauto|]. intros [?|[-> ?]]; auto.
    + assert (Nin : ~ In nc out).
      { intros Hin. assert (existsb (fun x => x =? nc) out = true); [|congruence].
        apply existsb_exists. exists nc. rewrite Nat.eqb_refl; auto. }
      split.
      * apply NoDup_Add with (a := nc) (l := out); [|auto].
        rewrite <- (app_nil_r out) at 1. apply Add_app.
      * split.
        -- rewrite in_app_iff; simpl. intros [?|[->|[]]]; tauto.
        -- intros x. rewrite in_app_iff; simpl. split; [intros [?|[<-|[]]]; auto|intros [?|[-> ?]]; auto].
Qed.

Lemma nadj_fold_spec c l out : NoDup out -> ~ In c out ->
  let r := fold_left (fun o nc => nadj_push c nc o) l out in
  NoDup r /\ ~ In c r /\ (forall x, In x r <-> In x out \/ (In x l /\ x <> c)).
Proof.
  revert out; induction l as [|a l IH]; intros out ND NI; simpl.
  - split; [auto|]. split; [auto|]. intros x; tauto.
  - destruct (@nadj_push_spec c a out ND NI) as (N1 & N2 & N3).
    destruct (IH (nadj_push c a out) N1 N2) as (H1 & H2 & H3).
    split; [exact H1|]. split; [exact H2|]. intros x. rewrite H3, N3.
    split.
    + intros [[?|[-> ?]]|[? ?]]; auto.
    + intros [?|[[->|?] ?]]; auto.
Qed.

Lemma node_adj_ok c : c < num_cells m -> exists l,
  cell_get_node_adj_cells m c = Ok l /\ NoDup l /\
  (forall x, In x l <-> x < num_cells m /\ x <> c /\ exists n, In n (cn c) /\ In n (cn x)).
Proof.
  intros Hc. unfold cell_get_node_adj_cells, for_lt.
  assert (G : forall l s out, (forall i n, nth_error l i = Some n ->
         nth_error (cell_to_node m) (nodes_per_cell m * c + (s + i)) = Some n) ->
     (forall n, In n l -> n < num_nodes m) ->
     foldM (seq s (length l)) (fun i out =>
      n <- rd (cell_to_node m) (nodes_per_cell m * c + i) ;;
      let offset2 := cells_per_node_aug m * n in
      ncell <- rd (node_to_cell m) offset2 ;;
      for_lt ncell (fun j out =>
        nc <- rd (node_to_cell m) (offset2 + j + 1) ;;
        if nc =? c then Ok out
        else if existsb (fun x => x =? nc) out then Ok out else Ok (out ++ [nc])) out) out
     = Ok (fold_left (fun o nc => nadj_push c nc o)
             (flat_map (fun n => filter (fun c => inb n (cn c)) (seq 0 (num_cells m))) l) out)).
  { induction l as [|a l IH]; intros s out H HN; [reflexivity|].
    cbn [length seq foldM flat_map].
    assert (Ea := H 0 a eq_refl). rewrite Nat.add_0_r in Ea. unfold rd at 1. rewrite Ea. cbn [bind].
    rewrite nadj_inner by (apply HN; left; auto). cbn [bind].
    rewrite fold_left_app. apply IH.
    - intros i n E. rewrite <- (H (S i) n E). f_equal; lia.
    - intros n Hin; apply HN; right; auto. }
  replace (seq 0 (nodes_per_cell m)) with (seq 0 (length (cn c))) by (rewrite (k_cn_len K Hc); auto).
  rewrite G.
  - eexists; split; [reflexivity|].
    destruct (@nadj_fold_spec c (flat_map (fun n => filter (fun c => inb n (cn c)) (seq 0 (num_cells m))) (cn c)) [])
      as (H1 & H2 & H3); [constructor|simpl; tauto|].
    split; [exact H1|]. intros x. rewrite H3. simpl. rewrite in_flat_map. split.
    + intros [[]|[[n [Hn Hx]] N]]. apply filter_In in Hx as [Hx Hi]. apply in_seq in Hx. apply inb_true in Hi.
      split; [lia|]. split; auto. exists n; auto.
    + intros (Hx & N & n & Hn & Hnx). right. split; auto. exists n. split; auto.
      apply filter_In. split; [apply in_seq; lia|apply inb_true; auto].
  - apply (k_cn K Hc).
  - intros n; apply (k_cn_lt K); auto.
Qed.

(** ---- node_get_cell_faces ---- *)
Lemma q_face_has_node f n : f < num_faces m -> face_has_node m f n = Ok (inb n (fn f)).
Proof.
  intros Hf. unfold face_has_node, for_lt.
  assert (G : forall l s b, (forall i v, nth_error l i = Some v -> nth_error (face_to_node m) (nodes_per_face m * f + (s + i)) = Some v) ->
     foldM (seq s (length l)) (fun j (found : bool) =>
       if found then Ok true
       else v <- rd (face_to_node m) (nodes_per_face m * f + j) ;; Ok (v =? n)) b = Ok (b || inb n l)).
  { induction l as [|a l IH]; intros s b H.
    - simpl. rewrite orb_false_r; auto.
    - cbn [length seq foldM].
      assert (Ea := H 0 a eq_refl). rewrite Nat.add_0_r in Ea.
      assert (Q : inb n (a :: l) = (a =? n) || inb n l).
      { unfold inb. destruct (in_dec Nat.eq_dec n (a :: l)) as [i|i], (in_dec Nat.eq_dec n l) as [j|j];
          destruct (Nat.eqb_spec a n); simpl in *; auto; tauto. }
      destruct b; cbn [bind].
      + rewrite IH. { auto. } intros i v E. rewrite <- (H (S i) v E). f_equal; lia.
      + unfold rd at 1. rewrite Ea; cbn [bind]. rewrite IH. { simpl. rewrite Q; auto. }
        intros i v E. rewrite <- (H (S i) v E). f_equal; lia. }
  replace (seq 0 (nodes_per_face m)) with (seq 0 (length (fn f))) by (rewrite (k_fn_len K Hf); auto). rewrite G; auto. apply (k_fn K Hf).
Qed.

Lemma q_node_cell_faces n c : c < num_cells m ->
  node_get_cell_faces m n c = Ok (filter (fun f => inb n (fn f)) (cf c)).
Proof.
  intros Hc. unfold node_get_cell_faces, for_lt.
  set (h := fun i => match nth_error (cell_to_face m) (faces_per_cell m * c + i) with
                     | Some f => if inb n (fn f) then [f] else [] | None => [] end).
  assert (Ex : forall i, i < faces_per_cell m -> exists f, nth_error (cf c) i = Some f).
  { intros i Hi. destruct (nth_error (cf c) i) eqn:E; eauto.
    apply nth_error_None in E. rewrite (k_cf_len K Hc) in E. lia. }
  rewrite (@foldM_ext nat _ _ (fun i out => y <- Ok (h i) ;; Ok (out ++ y))).
  - rewrite (@foldM_collect _ _ _ (fun i => Ok (h i)) h) by auto. simpl. f_equal.
    rewrite <- (k_cf_len K Hc).
    rewrite (@flat_map_nth _ _ (fun f => if inb n (fn f) then [f] else []) (cf c)).
    + generalize (cf c). intros l0. induction l0 as [|f l IH]; simpl; [reflexivity|].
      rewrite IH. destruct (inb n (fn f)); reflexivity.
    + intros i f Hf. unfold h. rewrite (k_cf K Hc _ Hf). auto.
  - intros i out Hi. apply in_seq in Hi. destruct (Ex i) as [f Ef]; [lia|].
    assert (E := k_cf K Hc _ Ef). unfold h. rewrite E. unfold rd at 1. rewrite E. cbn [bind].
    assert (Hf : f < num_faces m) by (apply (@k_cf_lt _ _ _ _ _ _ K c f Hc); eapply nth_error_In; eauto).
    rewrite q_face_nodes by auto. cbn [bind]. rewrite q_face_has_node by auto. cbn [bind].
    destruct (inb n (fn f)); auto. rewrite app_nil_r; auto.
Qed.
End Q.
