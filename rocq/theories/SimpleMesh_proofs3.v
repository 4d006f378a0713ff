(** What the constructors leave in the tables. *)
From Verif Require Import Base Loop SimpleMesh SimpleMesh_spec SimpleMesh_proofs SimpleMesh_proofs2.
Set Implicit Arguments.

Definition inb (n : nat) (l : list nat) : bool := if in_dec Nat.eq_dec n l then true else false.
Lemma inb_true n l : inb n l = true <-> In n l.
Proof. unfold inb; destruct (in_dec Nat.eq_dec n l); split; auto; discriminate. Qed.

(** slot of face_to_cell_ written for a direction *)
Definition slot (f : nat) (dv : Z) : nat := if (dv =? 1)%Z then 2 * f + 1 else 2 * f.

(** Connectivity content of a mesh: [cn c] nodes of a cell, [cf c] its faces with directions [cd],
    [fn f] nodes of a face. *)
Record conn V (m : smesh V) (cn cf fn : nat -> list nat) (cd : list Z) : Prop := {
  k_cn : forall c, c < num_cells m -> forall i n, nth_error (cn c) i = Some n ->
         nth_error (cell_to_node m) (nodes_per_cell m * c + i) = Some n;
  k_cn_len : forall c, c < num_cells m -> length (cn c) = nodes_per_cell m;
  k_cn_nd : forall c, c < num_cells m -> NoDup (cn c);
  k_cn_lt : forall c n, c < num_cells m -> In n (cn c) -> n < num_nodes m;
  k_cf : forall c, c < num_cells m -> forall i n, nth_error (cf c) i = Some n ->
         nth_error (cell_to_face m) (faces_per_cell m * c + i) = Some n;
  k_cd : forall c, c < num_cells m -> forall i n, nth_error cd i = Some n ->
         nth_error (cell_to_face_dirs m) (faces_per_cell m * c + i) = Some n;
  k_cf_len : forall c, c < num_cells m -> length (cf c) = faces_per_cell m;
  k_cd_len : length cd = faces_per_cell m;
  k_cd_pm : forall x, In x cd -> x = 1%Z \/ x = (-1)%Z;
  k_cf_nd : forall c, c < num_cells m -> NoDup (cf c);
  k_cf_lt : forall c f, c < num_cells m -> In f (cf c) -> f < num_faces m;
  k_n2c : buckets (cells_per_node_aug m) (num_nodes m) (node_to_cell m)
            (fun n => filter (fun c => inb n (cn c)) (seq 0 (num_cells m)));
  k_f2c : forall f dv, f < num_faces m -> dv = 1%Z \/ dv = (-1)%Z ->
          (nth_error (face_to_cell m) (slot f dv) = Some (-1)%Z
             /\ forall c, c < num_cells m -> ~ In (f, dv) (combine (cf c) cd))
          \/ (exists c, c < num_cells m /\ nth_error (face_to_cell m) (slot f dv) = Some (Z.of_nat c)
             /\ In (f, dv) (combine (cf c) cd));
  k_uniq : forall f dv c c', c < num_cells m -> c' < num_cells m ->
           In (f, dv) (combine (cf c) cd) -> In (f, dv) (combine (cf c') cd) -> c = c';
  k_share : forall c c' f f', c < num_cells m -> c' < num_cells m -> c <> c' ->
            In f (cf c) -> In f (cf c') -> In f' (cf c) -> In f' (cf c') -> f = f';
  k_fn : forall f, f < num_faces m -> forall i n, nth_error (fn f) i = Some n ->
         nth_error (face_to_node m) (nodes_per_face m * f + i) = Some n;
  k_fn_len : forall f, f < num_faces m -> length (fn f) = nodes_per_face m;
  k_fn_nd : forall f, f < num_faces m -> NoDup (fn f);
  k_fn_lt : forall f n, f < num_faces m -> In n (fn f) -> n < num_nodes m
}.

(** General: the face_to_cell_ table *)
Lemma f2c_table (N F : nat) (cf : nat -> list nat) (cd : list Z) :
  (forall x, In x cd -> x = 1%Z \/ x = (-1)%Z) ->
  (forall c f, c < N -> In f (cf c) -> f < F) ->
  (forall f dv c c', c < N -> c' < N -> In (f, dv) (combine (cf c) cd) -> In (f, dv) (combine (cf c') cd) -> c = c') ->
  exists t, foldM (seq 0 N) (fun c => wr_all (map (fun fd => (slot (fst fd) (snd fd), Z.of_nat c)) (combine (cf c) cd)))
              (repeat (-1)%Z (2 * F)) = Ok t /\
    forall f dv, f < F -> dv = 1%Z \/ dv = (-1)%Z ->
          (nth_error t (slot f dv) = Some (-1)%Z
             /\ forall c, c < N -> ~ In (f, dv) (combine (cf c) cd))
          \/ (exists c, c < N /\ nth_error t (slot f dv) = Some (Z.of_nat c)
             /\ In (f, dv) (combine (cf c) cd)).
Proof.
  intros PM LT UQ.
  set (W := flat_map (fun c => map (fun fd => (slot (fst fd) (snd fd), Z.of_nat c)) (combine (cf c) cd)) (seq 0 N)).
  assert (E : forall a, foldM (seq 0 N) (fun c => wr_all (map (fun fd => (slot (fst fd) (snd fd), Z.of_nat c)) (combine (cf c) cd))) a
              = wr_all W a).
  { intros a. unfold wr_all, W. apply foldM_flat_map. }
  assert (HI : forall i v, In (i, v) W -> exists c f dv, c < N /\ v = Z.of_nat c /\ i = slot f dv
                 /\ In (f, dv) (combine (cf c) cd)).
  { intros i v Hi. apply in_flat_map in Hi as [c [Hc Hi]]. apply in_seq in Hc.
    apply in_map_iff in Hi as [[f dv] [Ei Hin]]; simpl in Ei. injection Ei as <- <-.
    exists c, f, dv. repeat split; auto; lia. }
  assert (SI : forall f dv g dw, In dv cd \/ dv = 1%Z \/ dv = (-1)%Z -> In dw cd \/ dw = 1%Z \/ dw = (-1)%Z ->
                 slot f dv = slot g dw -> f = g /\ dv = dw).
  { intros f dv g dw Hv Hw Es. assert (dv = 1%Z \/ dv = (-1)%Z) by (destruct Hv; auto).
    assert (dw = 1%Z \/ dw = (-1)%Z) by (destruct Hw; auto).
    unfold slot in Es. destruct (Z.eqb_spec dv 1), (Z.eqb_spec dw 1); lia. }
  rewrite E.
  destruct (@wr_all_spec Z W (repeat (-1)%Z (2 * F))) as [t [Et [Lt [P1 P2]]]].
  - intros i v Hi. apply HI in Hi as (c & f & dv & Hc & _ & -> & Hin).
    assert (f < F) by (apply (LT c); auto; eapply in_combine_l; eauto).
    rewrite repeat_length. unfold slot. destruct (dv =? 1)%Z; lia.
  - intros i v v' Hv Hv'. apply HI in Hv as (c & f & dv & Hc & -> & -> & Hin).
    apply HI in Hv' as (c' & f' & dv' & Hc' & -> & Es & Hin').
    apply SI in Es as [<- <-]; try (left; eapply in_combine_r; eauto; fail).
    f_equal. eapply UQ; eauto.
  - exists t. split; [auto|]. intros f dv Hf Hdv.
    assert (D : forall l : list nat, (exists c, In c l /\ In (f, dv) (combine (cf c) cd)) \/
                 (forall c, In c l -> ~ In (f, dv) (combine (cf c) cd))).
    { induction l as [|a l [[c [H1 H2]]|IHl]].
      - right; simpl; tauto.
      - left; exists c; simpl; auto.
      - destruct (in_dec (fun x y : nat * Z => ltac:(decide equality; [apply Z.eq_dec|apply Nat.eq_dec])) (f, dv) (combine (cf a) cd)) as [i|i].
        + left; exists a; simpl; auto.
        + right; intros c [<-|Hc]; auto. }
    destruct (D (seq 0 N)) as [[c [Hc Hin]]|Hno].
    + apply in_seq in Hc. right. exists c. split; [lia|]. split; [|auto].
      apply P1. apply in_flat_map. exists c. split; [apply in_seq; lia|].
      apply in_map_iff. exists (f, dv); auto.
    + left. split.
      * rewrite P2.
        -- apply nth_error_repeat_Some. unfold slot. destruct (dv =? 1)%Z; lia.
        -- intros v Hv. apply HI in Hv as (c & g & dw & Hc & -> & Es & Hin).
           apply SI in Es as [<- <-]; [|auto|left; eapply in_combine_r; eauto].
           apply (Hno c); auto. apply in_seq; lia.
      * intros c Hc. apply Hno. apply in_seq; lia.
Qed.

(** General: an inverse-incidence bucket table filled by one pass over 0..N-1. *)
Lemma incidence_table (N B stride : nat) (bs : nat -> list nat) (v : nat -> nat) :
  0 < stride ->
  (forall x b, x < N -> In b (bs x) -> b < B) ->
  (forall x, x < N -> NoDup (bs x)) ->
  (forall b, b < B -> length (filter (fun x => inb b (bs x)) (seq 0 N)) < stride) ->
  exists t, foldM (seq 0 N) (fun x => push_all stride (map (fun m => (m, v x)) (bs x))) (repeat 0 (stride * B)) = Ok t /\
    buckets stride B t (fun b => map v (filter (fun x => inb b (bs x)) (seq 0 N))).
Proof.
  intros HS LT ND BD.
  assert (E : forall a, foldM (seq 0 N) (fun x => push_all stride (map (fun m => (m, v x)) (bs x))) a
       = push_all stride (flat_map (fun x => map (fun m => (m, v x)) (bs x)) (seq 0 N)) a).
  { intros a. unfold push_all. apply foldM_flat_map. }
  rewrite E.
  assert (Q : forall b, bucket_of b (flat_map (fun x => map (fun m => (m, v x)) (bs x)) (seq 0 N))
                = map v (filter (fun x => inb b (bs x)) (seq 0 N))).
  { intros b. apply bucket_of_flat. intros x Hx. apply in_seq in Hx. apply ND; lia. }
  destruct (@push_all_buckets stride B _ _ (flat_map (fun x => map (fun m => (m, v x)) (bs x)) (seq 0 N))
              (buckets_init B HS)) as [t [Et Bt]].
  - intros b w Hin. apply in_flat_map in Hin as [x [Hx Hin]]. apply in_seq in Hx.
    apply in_map_iff in Hin as [m [Em Hm]]. injection Em as <- <-. apply (LT x); auto; lia.
  - intros b Hb. simpl. rewrite Q, map_length. auto.
  - exists t. split; auto. destruct Bt as [h1 h2 h3 h4].
    constructor; auto; intros; simpl in *; rewrite <- Q in *; auto.
Qed.

Lemma filter_seq_bound (N k : nat) (P : nat -> bool) (l : list nat) :
  length l <= k -> (forall x, x < N -> P x = true -> In x l) -> length (filter P (seq 0 N)) <= k.
Proof.
  intros Hl H. etransitivity; [|exact Hl]. apply NoDup_incl_length.
  - apply NoDup_filter, seq_NoDup.
  - intros x Hx. apply filter_In in Hx as [H1 H2]. apply in_seq in H1. apply H; auto; lia.
Qed.

(** ---- 3D ---- *)
Section D3.
Variable d : dims.

Definition cn3 (c : nat) : list nat := map (nid d) (corners8 (cpos d c)).
Definition cf3 (c : nat) : list nat := map (fid d) (sides6 (cpos d c)).
Definition fn3 (f : nat) : list nat := map (nid d) (corners4 (fpos d f)).
(** the value node_to_face_ receives for face [f] *)
Definition nf_val (f : nat) : nat :=
  match fpos d f with FXY i j k | FXZ i j k | FYZ i j k => xyface_index d i j k end.

Lemma cn3_in c n : c < ncells d -> In n (cn3 c) <-> exists q, n = nid d q /\ corner_of_cell q (cpos d c).
Proof.
  intros Hc. unfold cn3. rewrite in_map_iff. split.
  - intros [q [E H]]. exists q. rewrite <- corners8_spec. auto.
  - intros [q [E H]]. exists q. rewrite corners8_spec. auto.
Qed.

Lemma cn3_lt c n : c < ncells d -> In n (cn3 c) -> n < nnodes d.
Proof.
  intros Hc H. unfold cn3 in H. apply in_map_iff in H as [q [<- Hq]].
  apply nid_lt. eapply corners8_at; eauto. apply cpos_ok; auto.
Qed.
Lemma cf3_lt c f : c < ncells d -> In f (cf3 c) -> f < nfaces d.
Proof.
  intros Hc H. unfold cf3 in H. apply in_map_iff in H as [q [<- Hq]].
  apply fid_lt. eapply sides6_at; eauto. apply cpos_ok; auto.
Qed.
Lemma fn3_lt f n : f < nfaces d -> In n (fn3 f) -> n < nnodes d.
Proof.
  intros Hc H. unfold fn3 in H. apply in_map_iff in H as [q [<- Hq]].
  apply nid_lt. eapply corners4_at; eauto. apply fpos_ok; auto.
Qed.
Lemma cn3_nd c : c < ncells d -> NoDup (cn3 c).
Proof.
  intros Hc. apply NoDup_map_in; [|apply corners8_NoDup].
  intros x y Hx Hy. apply nid_inj; eapply corners8_at; eauto; apply cpos_ok; auto.
Qed.
Lemma cf3_nd c : c < ncells d -> NoDup (cf3 c).
Proof.
  intros Hc. apply NoDup_map_in; [|apply sides6_NoDup].
  intros x y Hx Hy. apply fid_inj; eapply sides6_at; eauto; apply cpos_ok; auto.
Qed.
Lemma fn3_nd c : c < nfaces d -> NoDup (fn3 c).
Proof.
  intros Hc. apply NoDup_map_in; [|apply corners4_NoDup].
  intros x y Hx Hy. apply nid_inj; eapply corners4_at; eauto; apply fpos_ok; auto.
Qed.

(** a node is in a cell's list iff its position is a corner *)
Lemma cn3_corner c n : c < ncells d -> n < nnodes d ->
  In n (cn3 c) <-> corner_of_cell (npos d n) (cpos d c).
Proof.
  intros Hc Hn. rewrite cn3_in by auto. destruct (npos_ok d Hn) as [Na Ni]. destruct (cpos_ok d Hc) as [Ca Ci].
  split.
  - intros [q [-> Hq]]. rewrite npos_nid; auto. eapply corners8_at; eauto. apply corners8_spec; auto.
  - intros H. exists (npos d n). auto.
Qed.
Lemma cf3_side c f : c < ncells d -> f < nfaces d ->
  In f (cf3 c) <-> side_of_cell (fpos d f) (cpos d c).
Proof.
  intros Hc Hf. destruct (fpos_ok d Hf) as [Fa Fi]. destruct (cpos_ok d Hc) as [Ca Ci].
  unfold cf3. rewrite in_map_iff. split.
  - intros [s [<- Hs]]. rewrite fpos_fid; [apply sides6_spec; auto|]. eapply sides6_at; eauto.
  - intros H. exists (fpos d f). rewrite sides6_spec. auto.
Qed.
Lemma fn3_corner f n : f < nfaces d -> n < nnodes d ->
  In n (fn3 f) <-> corner_of_face (npos d n) (fpos d f).
Proof.
  intros Hf Hn. destruct (fpos_ok d Hf) as [Fa Fi]. destruct (npos_ok d Hn) as [Na Ni].
  unfold fn3. rewrite in_map_iff. split.
  - intros [q [<- Hq]]. rewrite npos_nid; [apply corners4_spec; auto|]. eapply corners4_at; eauto.
  - intros H. exists (npos d n). rewrite corners4_spec. auto.
Qed.

(** at most 8 cells and 12 faces meet at a node *)
Lemma cells_at_node n : n < nnodes d ->
  length (filter (fun c => inb n (cn3 c)) (seq 0 (ncells d))) <= 8.
Proof.
  intros Hn. destruct (npos d n) as [[a b] g] eqn:En.
  apply filter_seq_bound with (l := map (cid d)
    [(a, b, g); (a - 1, b, g); (a, b - 1, g); (a - 1, b - 1, g);
     (a, b, g - 1); (a - 1, b, g - 1); (a, b - 1, g - 1); (a - 1, b - 1, g - 1)]); [simpl; lia|].
  intros c Hc H. apply inb_true in H. apply cn3_corner in H; auto. rewrite En in H.
  destruct (cpos_ok d Hc) as [Ca Ci]. rewrite <- Ci. apply in_map.
  destruct (cpos d c) as [[i j] k]. simpl in H.
  assert (Ei : i = a \/ i = a - 1) by lia. assert (Ej : j = b \/ j = b - 1) by lia.
  assert (Ek : k = g \/ k = g - 1) by lia. simpl.
  destruct Ei as [->| ->], Ej as [->| ->], Ek as [->| ->]; tauto.
Qed.

Lemma faces_at_node n : n < nnodes d ->
  length (filter (fun f => inb n (fn3 f)) (seq 0 (nfaces d))) <= 12.
Proof.
  intros Hn. destruct (npos d n) as [[a b] g] eqn:En.
  apply filter_seq_bound with (l := map (fid d)
    [FXY a b g; FXY (a - 1) b g; FXY a (b - 1) g; FXY (a - 1) (b - 1) g;
     FXZ a b g; FXZ (a - 1) b g; FXZ a b (g - 1); FXZ (a - 1) b (g - 1);
     FYZ a b g; FYZ a (b - 1) g; FYZ a b (g - 1); FYZ a (b - 1) (g - 1)]); [simpl; lia|].
  intros f Hf H. apply inb_true in H. apply fn3_corner in H; auto. rewrite En in H.
  destruct (fpos_ok d Hf) as [Fa Fi]. rewrite <- Fi. apply in_map.
  destruct (fpos d f) as [i j k|i j k|i j k]; simpl in H.
  - assert (Ei : i = a \/ i = a - 1) by lia. assert (Ej : j = b \/ j = b - 1) by lia.
    assert (Ek : k = g) by lia. simpl. destruct Ei as [->| ->], Ej as [->| ->]; subst k; tauto.
  - assert (Ei : i = a \/ i = a - 1) by lia. assert (Ej : j = b) by lia.
    assert (Ek : k = g \/ k = g - 1) by lia. simpl. destruct Ei as [->| ->], Ek as [->| ->]; subst j; tauto.
  - assert (Ei : i = a) by lia. assert (Ej : j = b \/ j = b - 1) by lia.
    assert (Ek : k = g \/ k = g - 1) by lia. simpl. destruct Ej as [->| ->], Ek as [->| ->]; subst i; tauto.
Qed.

(** which side of which cell a (face, direction) pair is *)
Lemma cf3_dir c f dv : In (f, dv) (combine (cf3 c) dirs6) ->
  exists s, In s (sides6 (cpos d c)) /\ f = fid d s /\
    match cpos d c with (i, j, k) =>
      match s with
      | FXY a b z => dv = if z =? k then (-1)%Z else 1%Z
      | FXZ a y b => dv = if y =? j then 1%Z else (-1)%Z
      | FYZ x a b => dv = if x =? i then (-1)%Z else 1%Z
      end
    end.
Proof.
  unfold cf3, dirs6. destruct (cpos d c) as [[i j] k]; cbn [sides6 map combine In]. intros H.
  repeat destruct H as [H|H]; try tauto; apply pair_equal_spec in H as [<- <-]; eexists; (split; [|split; [reflexivity|]]);
    try tauto; simpl;
    match goal with |- context [?x =? ?y] => destruct (Nat.eqb_spec x y); auto; lia end.
Qed.

Lemma uniq3 f dv c c' : c < ncells d -> c' < ncells d ->
  In (f, dv) (combine (cf3 c) dirs6) -> In (f, dv) (combine (cf3 c') dirs6) -> c = c'.
Proof.
  intros Hc Hc' H H'. apply cf3_dir in H as (s & Hs & -> & D). apply cf3_dir in H' as (s' & Hs' & E & D').
  destruct (cpos_ok d Hc) as [Ca Ci]. destruct (cpos_ok d Hc') as [Ca' Ci'].
  assert (As := sides6_at d _ Ca s Hs). assert (As' := sides6_at d _ Ca' s' Hs').
  apply fid_inj in E; [|exact As|exact As']. subst s'.
  rewrite <- Ci, <- Ci'. f_equal. apply sides6_spec in Hs, Hs'.
  destruct (cpos d c) as [[i j] k], (cpos d c') as [[i' j'] k'].
  destruct s as [a b z|a b z|a b z]; simpl in *; rewrite D in D'; clear D.
  - destruct (Nat.eqb_spec z k), (Nat.eqb_spec z k'); try discriminate; f_equal; try f_equal; lia.
  - destruct (Nat.eqb_spec b j), (Nat.eqb_spec b j'); try discriminate; f_equal; try f_equal; lia.
  - destruct (Nat.eqb_spec a i), (Nat.eqb_spec a i'); try discriminate; f_equal; try f_equal; lia.
Qed.

Lemma share3 c c' f f' : c < ncells d -> c' < ncells d -> c <> c' ->
  In f (cf3 c) -> In f (cf3 c') -> In f' (cf3 c) -> In f' (cf3 c') -> f = f'.
Proof.
  intros Hc Hc' N H1 H2 H3 H4.
  assert (Lf := cf3_lt Hc H1). assert (Lf' := cf3_lt Hc H3).
  apply cf3_side in H1, H2, H3, H4; auto.
  destruct (cpos_ok d Hc) as [Ca Ci]. destruct (cpos_ok d Hc') as [Ca' Ci'].
  destruct (fpos_ok d Lf) as [Fa Fi]. destruct (fpos_ok d Lf') as [Fa' Fi'].
  assert (P : cpos d c <> cpos d c') by congruence.
  rewrite <- Fi, <- Fi'. f_equal.
  destruct (cpos d c) as [[i j] k], (cpos d c') as [[i' j'] k'].
  assert (P' : ~ (i = i' /\ j = j' /\ k = k')) by (intros (-> & -> & ->); tauto).
  destruct (fpos d f), (fpos d f'); simpl in H1, H2, H3, H4; try (f_equal; lia); exfalso; lia.
Qed.

Variable V : Type.

Lemma two_split S T n1 n2 n3 (f : nat -> nat -> nat -> S -> outcome S) (g : nat -> nat -> nat -> T -> outcome T) s t s' t' :
  for3 n1 n2 n3 f s = Ok s' -> for3 n1 n2 n3 g t = Ok t' ->
  for3 n1 n2 n3 (two f g) (s, t) = Ok (s', t').
Proof.
  rewrite !for3_flat. unfold for_lt. intros E1 E2. unfold two. exact (@foldM_pair _ _ _ _ _ _ _ _ _ _ E1 E2).
Qed.

Ltac blk := unfold block; simpl; repeat (f_equal; try lia).

Lemma c2n_Ok : exists t, for3 (nx d) (ny d) (nz d) (c2n_body d) (repeat 0 (8 * ncells d)) = Ok t /\
  forall c, c < ncells d -> forall i n, nth_error (cn3 c) i = Some n -> nth_error t (8 * c + i) = Some n.
Proof.
  rewrite for3_flat. fold (ncells d).
  rewrite for_lt_ext with (g := fun c => wr_all (block (8 * c) (cn3 c))).
  - destruct (@block_table_Ok nat 8 cn3 0 (ncells d) (repeat 0 (8 * ncells d))) as (t & E & _ & P & _).
    + intros c _. unfold cn3. destruct (cpos d c) as [[i j] k]; auto.
    + rewrite repeat_length; lia.
    + exists t. split; [exact E|]. intros c Hc i n. apply P. lia.
  - intros c s Hc. destruct (cpos_ok d Hc) as [_ Ci]. unfold cpos, cid in Ci.
    unfold c2n_body. rewrite Ci. unfold cn3, cpos. f_equal. simpl corners8. cbn [map nid].
    generalize (8 * c). intros z. blk.
Qed.

Lemma n2c_Ok : exists t, for3 (nx d) (ny d) (nz d) (n2c_body d) (repeat 0 (9 * nnodes d)) = Ok t /\
  buckets 9 (nnodes d) t (fun n => filter (fun c => inb n (cn3 c)) (seq 0 (ncells d))).
Proof.
  rewrite for3_flat. fold (ncells d).
  rewrite for_lt_ext with (g := fun c => push_all 9 (map (fun m => (m, c)) (cn3 c))).
  - destruct (@incidence_table (ncells d) (nnodes d) 9 cn3 (fun c => c)) as [t [E B]].
    + lia.
    + intros c b; apply cn3_lt.
    + apply cn3_nd.
    + intros b Hb. assert (L := cells_at_node Hb). lia.
    + exists t. split; [exact E|]. destruct B as [h1 h2 h3 h4].
      constructor; auto; intros; try rewrite <- (map_id (filter _ _)) in *; auto.
  - intros c s Hc. destruct (cpos_ok d Hc) as [_ Ci]. unfold cpos, cid in Ci.
    unfold n2c_body. rewrite Ci. reflexivity.
Qed.

Lemma c2f_Ok : exists t, for3 (nx d) (ny d) (nz d) (c2f_body d) (repeat 0 (6 * ncells d)) = Ok t /\
  forall c, c < ncells d -> forall i n, nth_error (cf3 c) i = Some n -> nth_error t (6 * c + i) = Some n.
Proof.
  rewrite for3_flat. fold (ncells d).
  rewrite for_lt_ext with (g := fun c => wr_all (block (6 * c) (cf3 c))).
  - destruct (@block_table_Ok nat 6 cf3 0 (ncells d) (repeat 0 (6 * ncells d))) as (t & E & _ & P & _).
    + intros c _. unfold cf3. destruct (cpos d c) as [[i j] k]; auto.
    + rewrite repeat_length; lia.
    + exists t. split; [exact E|]. intros c Hc i n. apply P. lia.
  - intros c s Hc. destruct (cpos_ok d Hc) as [_ Ci]. unfold cpos, cid in Ci.
    unfold c2f_body. rewrite Ci. unfold cf3, cpos. f_equal. simpl sides6. cbn [map fid].
    generalize (6 * c). intros z. blk.
Qed.

Lemma c2fd_Ok : exists t, for3 (nx d) (ny d) (nz d) (c2fd_body d) (repeat 0%Z (6 * ncells d)) = Ok t /\
  forall c, c < ncells d -> forall i n, nth_error dirs6 i = Some n -> nth_error t (6 * c + i) = Some n.
Proof.
  rewrite for3_flat. fold (ncells d).
  rewrite for_lt_ext with (g := fun c => wr_all (block (6 * c) dirs6)).
  - destruct (@block_table_Ok Z 6 (fun _ => dirs6) 0 (ncells d) (repeat 0%Z (6 * ncells d))) as (t & E & _ & P & _).
    + intros c _. auto.
    + rewrite repeat_length; lia.
    + exists t. split; [exact E|]. intros c Hc i n. apply (P c). lia.
  - intros c s Hc. destruct (cpos_ok d Hc) as [_ Ci]. unfold cpos, cid in Ci.
    unfold c2fd_body. rewrite Ci. f_equal. unfold dirs6.
    generalize (6 * c). intros z. blk.
Qed.

Lemma f2c_Ok : exists t, for3 (nx d) (ny d) (nz d) (f2c_body d) (repeat (-1)%Z (2 * nfaces d)) = Ok t /\
  forall f dv, f < nfaces d -> dv = 1%Z \/ dv = (-1)%Z ->
          (nth_error t (slot f dv) = Some (-1)%Z
             /\ forall c, c < ncells d -> ~ In (f, dv) (combine (cf3 c) dirs6))
          \/ (exists c, c < ncells d /\ nth_error t (slot f dv) = Some (Z.of_nat c)
             /\ In (f, dv) (combine (cf3 c) dirs6)).
Proof.
  rewrite for3_flat. fold (ncells d).
  rewrite for_lt_ext with (g := fun c => wr_all (map (fun fd => (slot (fst fd) (snd fd), Z.of_nat c)) (combine (cf3 c) dirs6))).
  - apply f2c_table.
    + simpl. intros x H; repeat destruct H as [<-|H]; auto; tauto.
    + intros c f; apply cf3_lt.
    + apply uniq3.
  - intros c s Hc. destruct (cpos_ok d Hc) as [_ Ci]. unfold cpos, cid in Ci.
    unfold f2c_body. rewrite Ci. reflexivity.
Qed.

(** the three face loops together form one pass over all face ids *)
Lemma faces_pass S (body1 body2 body3 : nat -> nat -> nat -> S -> outcome S) (F : nat -> S -> outcome S) s :
  (forall i j k, face_at d (FXY i j k) -> forall s, body1 i j k s = F (fid d (FXY i j k)) s) ->
  (forall i j k, face_at d (FXZ i j k) -> forall s, body2 i j k s = F (fid d (FXZ i j k)) s) ->
  (forall i j k, face_at d (FYZ i j k) -> forall s, body3 i j k s = F (fid d (FYZ i j k)) s) ->
  (s1 <- for3 (nx d) (ny d) (nz d + 1) body1 s ;;
   s2 <- for3 (nx d) (ny d + 1) (nz d) body2 s1 ;;
   for3 (nx d + 1) (ny d) (nz d) body3 s2) = foldM (seq 0 (nfaces d)) F s.
Proof.
  intros H1 H2 H3. rewrite nfaces_eq, seq_app, seq_app, !foldM_app.
  assert (SH : forall n sh (G : nat -> S -> outcome S) s, foldM (seq sh n) G s = foldM (seq 0 n) (fun i => G (sh + i)) s).
  { intros n sh G s0. rewrite (foldM_map (Nat.add sh) G). f_equal. clear.
    assert (E : forall m st sh, map (Nat.add sh) (seq st m) = seq (sh + st) m).
    { intros m; induction m as [|m IH]; intros; simpl; auto. f_equal. rewrite IH. f_equal; lia. }
    rewrite E. f_equal; lia. }
  assert (A1 : forall s, for3 (nx d) (ny d) (nz d + 1) body1 s = foldM (seq 0 (nxy d)) F s).
  { intros s0. rewrite for3_flat. fold (nxy d). apply foldM_ext. intros x s' Hx. apply in_seq in Hx.
    unfold nxy in Hx. destruct Hx as [_ Hx]; simpl in Hx. destruct (dec_bounds _ _ _ Hx) as (B1 & B2 & B3 & E).
    rewrite H1 by (simpl; lia). f_equal. simpl. exact E. }
  assert (A2 : forall s, for3 (nx d) (ny d + 1) (nz d) body2 s = foldM (seq (0 + nxy d) (nxz d)) F s).
  { intros s0. rewrite for3_flat, SH. fold (nxz d). apply foldM_ext. intros x s' Hx. apply in_seq in Hx.
    unfold nxz in Hx. destruct Hx as [_ Hx]; simpl in Hx. destruct (dec_bounds _ _ _ Hx) as (B1 & B2 & B3 & E).
    rewrite H2 by (simpl; lia). f_equal. cbn [fid]. rewrite xz_base, E. lia. }
  assert (A3 : forall s, for3 (nx d + 1) (ny d) (nz d) body3 s = foldM (seq (0 + (nxy d + nxz d)) (nyz d)) F s).
  { intros s0. rewrite for3_flat, SH. fold (nyz d). apply foldM_ext. intros x s' Hx. apply in_seq in Hx.
    unfold nyz in Hx. destruct Hx as [_ Hx]; simpl in Hx. destruct (dec_bounds _ _ _ Hx) as (B1 & B2 & B3 & E).
    rewrite H3 by (simpl; lia). f_equal. cbn [fid]. rewrite yz_base, E. lia. }
  rewrite A1. destruct (foldM (seq 0 (nxy d)) F s) as [s1| | | |]; simpl; auto.
  rewrite A2. simpl. destruct (foldM (seq (nxy d) (nxz d)) F s1) as [s2| | | |]; simpl; auto.
Qed.

Lemma f2n_Ok : exists t, (s1 <- for3 (nx d) (ny d) (nz d + 1) (f2n_xy d) (repeat 0 (4 * nfaces d)) ;;
   s2 <- for3 (nx d) (ny d + 1) (nz d) (f2n_xz d) s1 ;;
   for3 (nx d + 1) (ny d) (nz d) (f2n_yz d) s2) = Ok t /\
  forall c, c < nfaces d -> forall i n, nth_error (fn3 c) i = Some n -> nth_error t (4 * c + i) = Some n.
Proof.
  rewrite (faces_pass (f2n_xy d) (f2n_xz d) (f2n_yz d) (fun c => wr_all (block (4 * c) (fn3 c)))).
  - destruct (@block_table_Ok nat 4 fn3 0 (nfaces d) (repeat 0 (4 * nfaces d))) as (t & E & _ & P & _).
    + intros c _. unfold fn3. destruct (fpos d c); auto.
    + rewrite repeat_length; lia.
    + exists t. split; [exact E|]. intros c Hc i n. apply P. lia.
  - intros i j k H s. unfold fn3. rewrite fpos_fid by auto. unfold f2n_xy. f_equal. cbn [fid].
    generalize (4 * xyface_index d i j k). intros z. blk.
  - intros i j k H s. unfold fn3. rewrite fpos_fid by auto. unfold f2n_xz. f_equal. cbn [fid].
    generalize (4 * xzface_index d i j k). intros z. blk.
  - intros i j k H s. unfold fn3. rewrite fpos_fid by auto. unfold f2n_yz. f_equal. cbn [fid].
    generalize (4 * yzface_index d i j k). intros z. blk.
Qed.

Lemma n2f_Ok : exists t, (s1 <- for3 (nx d) (ny d) (nz d + 1) (n2f_xy d) (repeat 0 (13 * nnodes d)) ;;
   s2 <- for3 (nx d) (ny d + 1) (nz d) (n2f_xz d) s1 ;;
   for3 (nx d + 1) (ny d) (nz d) (n2f_yz d) s2) = Ok t /\
  buckets 13 (nnodes d) t (fun n => map nf_val (filter (fun f => inb n (fn3 f)) (seq 0 (nfaces d)))).
Proof.
  rewrite (faces_pass (n2f_xy d) (n2f_xz d) (n2f_yz d) (fun f => push_all 13 (map (fun m => (m, nf_val f)) (fn3 f)))).
  - apply incidence_table.
    + lia.
    + intros c b; apply fn3_lt.
    + apply fn3_nd.
    + intros b Hb. assert (L := faces_at_node Hb). lia.
  - intros i j k H s. unfold fn3, nf_val. rewrite fpos_fid by auto. reflexivity.
  - intros i j k H s. unfold fn3, nf_val. rewrite fpos_fid by auto. reflexivity.
  - intros i j k H s. unfold fn3, nf_val. rewrite fpos_fid by auto. reflexivity.
Qed.

Lemma coord_Ok (v0 : V) gx gy gz :
  exists t, for3 (nx d + 1) (ny d + 1) (nz d + 1) (coord_body d gx gy gz) (repeat v0 (3 * nnodes d)) = Ok t /\
  length t = 3 * nnodes d /\
  forall n, n < nnodes d -> forall i v,
    nth_error (let '(a, b, c) := npos d n in [gx a; gy b; gz c]) i = Some v -> nth_error t (3 * n + i) = Some v.
Proof.
  rewrite for3_flat. fold (nnodes d).
  rewrite for_lt_ext with (g := fun n => wr_all (block (3 * n) (let '(a, b, c) := npos d n in [gx a; gy b; gz c]))).
  - destruct (@block_table_Ok V 3 (fun n => let '(a, b, c) := npos d n in [gx a; gy b; gz c]) 0 (nnodes d)
        (repeat v0 (3 * nnodes d))) as (t & E & L & P & _).
    + intros c _. destruct (npos d c) as [[a b] e]; auto.
    + rewrite repeat_length; lia.
    + exists t. split; [exact E|]. rewrite repeat_length in L. split; [auto|]. intros c Hc i n. apply (P c). lia.
  - intros c s Hc. destruct (npos_ok d Hc) as [_ Ci]. unfold npos, nid in Ci.
    unfold coord_body. rewrite Ci. unfold npos. f_equal.
    generalize (3 * c). intros z. blk.
Qed.

Lemma make_simple_3d_conn (v0 : V) gx gy gz fr :
  exists m, make_simple_3d v0 d gx gy gz fr false = Ok m /\
    conn m cn3 cf3 fn3 dirs6 /\
    num_cells m = ncells d /\ num_nodes m = nnodes d /\ num_faces m = nfaces d /\
    spdim m = 3 /\ nodes_per_face m = 4 /\ faces_per_cell m = 6 /\ nodes_per_cell m = 8 /\
    buckets 13 (nnodes d) (node_to_face m)
       (fun n => map nf_val (filter (fun f => inb n (fn3 f)) (seq 0 (nfaces d)))) /\
    faces_per_node_aug m = 13 /\ cells_per_node_aug m = 9 /\
    length (coordinates m) = 3 * nnodes d /\
    (forall n, n < nnodes d -> forall i v,
      nth_error (let '(a, b, c) := npos d n in [gx a; gy b; gz c]) i = Some v ->
      nth_error (coordinates m) (3 * n + i) = Some v) /\
    nodeids_owned m = seq 0 (nnodes d) /\ cellids_owned m = seq 0 (ncells d) /\
    faceids_owned m = (if fr then seq 0 (nfaces d) else []) /\ edgeids_owned m = [].
Proof.
  destruct (coord_Ok v0 gx gy gz) as (crd & Ecrd & Lcrd & Pcrd).
  destruct c2n_Ok as (c2n & Ec2n & Pc2n). destruct n2c_Ok as (n2c & En2c & Pn2c).
  destruct c2f_Ok as (c2f & Ec2f & Pc2f). destruct c2fd_Ok as (c2fd & Ec2fd & Pc2fd).
  destruct f2c_Ok as (f2c & Ef2c & Pf2c).
  destruct f2n_Ok as (f2n & Ef2n & Pf2n). destruct n2f_Ok as (n2f & En2f & Pn2f).
  apply bind_Ok in Ef2n as (a1 & Ea1 & Ef2n). apply bind_Ok in Ef2n as (a2 & Ea2 & Ea3).
  apply bind_Ok in En2f as (b1 & Eb1 & En2f). apply bind_Ok in En2f as (b2 & Eb2 & Eb3).
  unfold make_simple_3d, update_internals_3d.
  fold (ncells d) (nnodes d). fold (nfaces d).
  rewrite Ecrd; cbn [bind].
  rewrite (@two_split _ _ _ _ _ _ _ _ _ _ _ Ec2n En2c); cbn [bind].
  rewrite (@two_split _ _ _ _ _ _ _ _ _ _ _ Ec2f
             (@two_split _ _ _ _ _ _ _ _ _ _ _ Ec2fd Ef2c)); cbn [bind].
  rewrite (@two_split _ _ _ _ _ _ _ _ _ _ _ Ea1 Eb1); cbn [bind].
  rewrite (@two_split _ _ _ _ _ _ _ _ _ _ _ Ea2 Eb2); cbn [bind].
  rewrite (@two_split _ _ _ _ _ _ _ _ _ _ _ Ea3 Eb3); cbn [bind].
  eexists; split; [reflexivity|]. split.
  - constructor; cbn [num_cells num_nodes num_faces nodes_per_cell nodes_per_face faces_per_cell
       cells_per_node_aug cell_to_node cell_to_face cell_to_face_dirs node_to_cell face_to_cell face_to_node fst snd].
    + exact Pc2n.
    + intros c _. unfold cn3. destruct (cpos d c) as [[i j] k]; auto.
    + apply cn3_nd.
    + apply cn3_lt.
    + exact Pc2f.
    + exact Pc2fd.
    + intros c _. unfold cf3. destruct (cpos d c) as [[i j] k]; auto.
    + reflexivity.
    + simpl. intros x H; repeat destruct H as [<-|H]; auto; tauto.
    + apply cf3_nd.
    + apply cf3_lt.
    + exact Pn2c.
    + exact Pf2c.
    + apply uniq3.
    + apply share3.
    + exact Pf2n.
    + intros c _. unfold fn3. destruct (fpos d c); auto.
    + apply fn3_nd.
    + apply fn3_lt.
  - cbn. do 7 (split; [reflexivity|]). split; [exact Pn2f|]. split; [reflexivity|]. split; [reflexivity|].
    split; [exact Lcrd|]. split; [exact Pcrd|]. auto.
Qed.
End D3.
