(** C96: which entity a value of a stored field belongs to. *)
From Coq Require Import ZArith Permutation.
From Verif Require Import Base Loop Defs Cache MeshSet_proofs MstkMesh MstkMesh_spec MstkMesh_proofs MstkMesh_proofs2 MstkMesh_examples MstkMesh_build Props_MstkIds Props_MstkOrder MstkExtract_api Props_MstkExtract MstkField.
Set Implicit Arguments. Unset Strict Implicit.

(** ** Specification *)
(** [data] stored under the kind [K] of mesh [j] gave the entity with id [i] the value [v] *)
Definition value_of (j : jmesh) (K : entity_kind) (a : attrib) (i : nat) (v : Z) : Prop := exists h, behind j K i h /\ a h = v.
(** every entity has the value at its id *)
Definition values_by_id (j : jmesh) (K : entity_kind) (data : list Z) (a : attrib) : Prop := forall i, valid j K i -> exists v, nth_error data i = Some v /\ value_of j K a i v.

Lemma store_spec m k data a0 : NoDup (k_all m k) -> length (k_all m k) <= length data -> exists a, store_values m k data a0 = Ok a /\
  (forall i h, nth_error (k_all m k) i = Some h -> nth_error data i = Some (a h)) /\ forall h, ~ In h (k_all m k) -> a h = a0 h.
Proof.
  intros N L. unfold store_values. set (l := k_all m k) in *. set (body := fun (i : nat) (a : attrib) => _).
  assert (H : forall n, n <= length l -> exists a, foldM (seq 0 n) body a0 = Ok a /\ (forall i h, i < n -> nth_error l i = Some h -> nth_error data i = Some (a h)) /\ forall h, ~ In h l -> a h = a0 h).
  { induction n as [|n IH]; intros Ln; [exists a0; split; [reflexivity|split; [intros; lia|auto]]|]. destruct IH as (a & E & P & Q); [lia|]. rewrite seq_S, foldM_app, E. cbn [bind foldM plus].
    destruct (nth_error l n) as [h|] eqn:Eh; [|apply nth_error_None in Eh; lia]. destruct (nth_error data n) as [v|] eqn:Ev; [|apply nth_error_None in Ev; lia].
    exists (set_val a h v). unfold body at 1. rewrite (proj2 (rd_Ok _ _ _) Eh). cbn [bind]. rewrite (proj2 (rd_Ok _ _ _) Ev). cbn [bind]. split; [reflexivity|]. unfold set_val. split.
    - intros i h' Li Ei. destruct (Nat.eqb_spec h' h) as [-> | D].
      + assert (i = n) by (apply (proj1 (NoDup_nth_error l) N); [apply (lt_of_nth Ei)|congruence]). subst i. exact Ev.
      + apply P; auto. destruct (Nat.eq_dec i n) as [-> | D']; [congruence|lia].
    - intros h' I. destruct (Nat.eqb_spec h' h) as [-> | D]; auto. exfalso. apply I. eapply nth_error_In; eauto. }
  destruct (H (length l) (le_n _)) as (a & E & P & Q). exists a. split; auto. split; auto. intros i h Ei. apply P; auto. apply (lt_of_nth Ei).
Qed.
Lemma get_spec m k a buf : length (k_all m k) <= length buf -> get_values m k a buf = Ok (map a (k_all m k) ++ skipn (length (k_all m k)) buf).
Proof.
  intros L. unfold get_values. set (l := k_all m k) in *. set (body := fun (i : nat) (d : list Z) => _).
  assert (H : forall n, n <= length l -> foldM (seq 0 n) body buf = Ok (map a (firstn n l) ++ skipn n buf)).
  { induction n as [|n IH]; intros Ln; [reflexivity|]. rewrite seq_S, foldM_app, IH by lia. cbn [bind foldM plus]. destruct (nth_error l n) as [h|] eqn:Eh; [|apply nth_error_None in Eh; lia].
    unfold body. rewrite (proj2 (rd_Ok _ _ _) Eh). cbn [bind]. destruct (skipn n buf) as [|b r] eqn:Es; [exfalso; assert (Z : length (skipn n buf) = 0) by (rewrite Es; auto); rewrite skipn_length in Z; lia|].
    assert (Ln' : length (map a (firstn n l)) = n) by (rewrite map_length, firstn_length; lia). rewrite <- Ln' at 2. rewrite wr_app_mid. cbn [bind].
    assert (F : firstn (S n) l = firstn n l ++ [h]). { clear - Eh. revert n Eh. induction l as [|x l IH]; intros [|n] E; cbn in *; try discriminate; [injection E as ->; auto|]. f_equal. apply IH; auto. }
    assert (K' : skipn (S n) buf = r). { clear - Es. revert n Es. induction buf as [|x l IH]; intros [|n] E; try discriminate E; [cbn in E |- *; congruence|]. cbn in E. change (skipn (S n) l = r). apply IH; auto. }
    rewrite F, K', map_app, <- app_assoc. reflexivity. }
  rewrite H, firstn_all by auto. reflexivity.
Qed.
Lemma map_firstn_eq m k data (a : attrib) : (forall i h, nth_error (k_all m k) i = Some h -> nth_error data i = Some (a h)) -> map a (k_all m k) = firstn (length (k_all m k)) data.
Proof.
  generalize (k_all m k). intros l. revert data. induction l as [|h l IH]; intros data H; [reflexivity|]. destruct data as [|v data]; [specialize (H 0 h eq_refl); discriminate|]. cbn [map length firstn]. f_equal.
  - specialize (H 0 h eq_refl). cbn in H. congruence.
  - apply IH. intros i h' E. apply (H (S i) h' E).
Qed.

(** C96.  What store_field wrote, get_field reads, in the same places of the array; the rest of the caller's array is not touched. *)
Theorem c96_round_trip : forall m K data a0 buf, mstk_mesh m -> length (k_all m (mkind_of m K)) <= length data -> length (k_all m (mkind_of m K)) <= length buf ->
  exists a, store_values m (mkind_of m K) data a0 = Ok a /\ get_values m (mkind_of m K) a buf = Ok (firstn (length (k_all m (mkind_of m K))) data ++ skipn (length (k_all m (mkind_of m K))) buf).
Proof.
  intros m K data a0 buf W L1 L2. destruct (store_spec a0 (mk_nodup W (mkind_of m K)) L1) as (a & E & P & _). exists a. split; auto. rewrite (get_spec a L2), (map_firstn_eq P). reflexivity.
Qed.
(** ids and MSTK's order *)
Definition ids_in_order (j : jmesh) (K : entity_kind) (m : mstk) : Prop := forall i h, behind j K i h <-> nth_error (k_all m (mkind_of m K)) i = Some h.
Lemma nth_ext_all A (l l' : list A) : (forall i, nth_error l i = nth_error l' i) -> l = l'.
Proof.
  revert l'. induction l as [|x l IH]; intros [|y l'] H; auto; try (specialize (H 0); discriminate). pose proof (H 0) as H0. cbn in H0. injection H0 as ->. f_equal. apply IH. intros i. apply (H (S i)).
Qed.
Lemma in_order_table j K m : ids_in_order j K m <-> table j K = k_all m (mkind_of m K).
Proof.
  unfold ids_in_order, behind. split; [|intros ->; tauto]. intros H. apply nth_ext_all. intros i. destruct (nth_error (table j K) i) as [h|] eqn:E1; [symmetry; apply H; auto|].
  destruct (nth_error (k_all m (mkind_of m K)) i) as [h|] eqn:E2; auto. apply H in E2. congruence.
Qed.
(** C96.  The value with index i of the array belongs to the entity with id i - for every array - exactly if the ids of the kind are in the order of MSTK's list. *)
Theorem c96_by_id_iff : forall serial bg faces edges m rcv j K, mstk_mesh m -> constructed serial bg faces edges m rcv j -> base_kind K -> has_kind j K ->
  ((forall data a0, length data = length (k_all m (mkind_of m K)) -> exists a, store_values m (mkind_of m K) data a0 = Ok a /\ values_by_id j K data a) <-> ids_in_order j K m).
Proof.
  intros serial bg faces edges m rcv j K W C B Hk. pose proof (mk_nodup W (mkind_of m K)) as N. destruct (c85_one_entity_per_id C B Hk) as (Hv & Ha & Hid & Hu). split.
  - intros H. set (n := length (k_all m (mkind_of m K))) in *. destruct (H (map Z.of_nat (seq 0 n)) (fun _ => 0%Z)) as (a & E & V); [rewrite map_length, seq_length; auto|].
    destruct (@store_spec m (mkind_of m K) (map Z.of_nat (seq 0 n)) (fun _ => 0%Z) N) as (a' & E' & P & _); [rewrite map_length, seq_length; auto|]. assert (a' = a) by congruence. subst a'.
    assert (Q : forall i v, nth_error (map Z.of_nat (seq 0 n)) i = Some v -> v = Z.of_nat i). { intros i v X. rewrite nth_error_map in X. destruct (nth_error (seq 0 n) i) as [x|] eqn:Y; [|discriminate]. apply seq_inv in Y as [-> _]. cbn in X. congruence. }
    assert (F : forall i h, behind j K i h -> nth_error (k_all m (mkind_of m K)) i = Some h).
    { intros i h Bh. destruct (V i) as (v & Ev & h' & Bh' & Eh). { apply Hv. eauto. } pose proof (behind_fun Bh Bh'). subst h'. destruct (Hid _ _ Bh) as [Ih _]. apply In_nth_error in Ih as [p Ep]. pose proof (Q _ _ Ev) as Q1. pose proof (Q _ _ (P _ _ Ep)) as Q2.
      assert (i = p) by lia. congruence. }
    intros i h. split; auto. intros Ei. destruct (Ha h) as [i' Bi]; [eapply nth_error_In; eauto|]. pose proof (F _ _ Bi) as Ei'. assert (i = i') by (apply (proj1 (NoDup_nth_error _) N); [apply (lt_of_nth Ei)|congruence]). subst; auto.
  - intros O data a0 L. destruct (@store_spec m (mkind_of m K) data a0 N) as (a & E & P & _); [lia|]. exists a. split; auto. intros i Vi. apply Hv in Vi as [h Bh]. exists (a h). split; [apply P, O; auto|exists h; auto].
Qed.
Lemma filter_sorted (p : nat -> bool) l : (forall i1 i2 h1 h2, i1 < i2 -> nth_error l i1 = Some h1 -> nth_error l i2 = Some h2 -> p h2 = true -> p h1 = true) -> filter p l ++ filter (fun h => negb (p h)) l = l.
Proof.
  induction l as [|h l IH]; intros H; auto. cbn [filter]. assert (IH' : filter p l ++ filter (fun h => negb (p h)) l = l). { apply IH. intros i1 i2 h1 h2 L E1 E2. apply (H (S i1) (S i2) h1 h2); auto. lia. }
  destruct (p h) eqn:E; cbn [negb]; [cbn; f_equal; auto|]. assert (Z : forall x, In x l -> p x = false). { intros x I. apply In_nth_error in I as [i Ei]. destruct (p x) eqn:Ex; auto. pose proof (H 0 (S i) h x ltac:(lia) eq_refl Ei Ex). congruence. }
  assert (E1 : filter p l = []). { clear - Z. induction l as [|x l IH]; auto. cbn [filter]. rewrite (Z x) by (left; auto). apply IH. intros; apply Z; right; auto. }
  rewrite E1 in IH' |- *. cbn [app] in *. rewrite IH'. auto.
Qed.
(** C96.  So it does on a mesh without boundary ghosts in whose lists no owned entity comes after a ghost, in particular on a mesh without ghosts ... *)
Theorem c96_by_id_ghosts_last : forall serial faces edges m rcv j K data a0, mstk_mesh m -> constructed serial false faces edges m rcv j -> base_kind K -> has_kind j K ->
  (forall i1 i2 h1 h2, i1 < i2 -> nth_error (k_all m (mkind_of m K)) i1 = Some h1 -> nth_error (k_all m (mkind_of m K)) i2 = Some h2 -> k_ptype m (mkind_of m K) h1 = PGHOST -> k_ptype m (mkind_of m K) h2 = PGHOST) ->
  length data = length (k_all m (mkind_of m K)) -> exists a, store_values m (mkind_of m K) data a0 = Ok a /\ values_by_id j K data a.
Proof.
  intros serial faces edges m rcv j K data a0 W C B Hk S L. apply (proj2 (c96_by_id_iff W C B Hk)); auto. apply in_order_table. pose proof (constructed_made C) as M. destruct (mj_kind M B Hk) as [_ T _]. rewrite T, (mj_mesh M), (mj_bg M).
  set (p := fun h => negb (is_pghost (k_ptype m (mkind_of m K) h))).
  transitivity (filter p (k_all m (mkind_of m K)) ++ filter (fun h => negb (p h)) (k_all m (mkind_of m K))).
  - assert (G : ghost_list m (mkind_of m K) = filter (fun h => negb (p h)) (k_all m (mkind_of m K))). { unfold ghost_list. apply filter_ext. intros h. unfold p. rewrite Bool.negb_involutive. auto. }
    rewrite <- G. destruct B as [-> |[-> |[-> | ->]]]; cbn [groups]; unfold all_of; cbn [fst snd]; rewrite ?app_nil_r; auto. cbn [mkind_of]. f_equal. unfold owned_cells. apply filter_ext. intros h. unfold p, is_bghost. cbn. rewrite ?Bool.andb_true_r. auto.
  - apply filter_sorted. unfold p. intros i1 i2 h1 h2 Li E1 E2 P. destruct (k_ptype m (mkind_of m K) h1) eqn:X; auto. rewrite (S i1 i2 h1 h2 Li E1 E2 X) in P. discriminate.
Qed.
Corollary c96_by_id_no_ghosts : forall serial faces edges m rcv j K data a0, mstk_mesh m -> constructed serial false faces edges m rcv j -> base_kind K -> has_kind j K ->
  (forall h, In h (k_all m (mkind_of m K)) -> k_ptype m (mkind_of m K) h <> PGHOST) -> length data = length (k_all m (mkind_of m K)) ->
  exists a, store_values m (mkind_of m K) data a0 = Ok a /\ values_by_id j K data a.
Proof. intros serial faces edges m rcv j K data a0 W C B Hk O L. apply (c96_by_id_ghosts_last a0 W C B Hk); auto. intros i1 i2 h1 h2 _ E1 _ X. exfalso. apply (O h1); auto. eapply nth_error_In; eauto. Qed.
(** Finding: on a rank whose list has a ghost before an owned entity the values go to other entities: of the array indexed by node id, owned node 2 gets the value with index 3 *)
Theorem c96_parallel_refuted : exists a, constructed false false true true ex_mesh ex_rcv ex_j /\ store_values ex_mesh MVERTEX [100; 101; 102; 103; 104]%Z (fun _ => 0%Z) = Ok a /\
  In 2 (entities ex_j NODE PARALLEL_OWNED) /\ value_of ex_j NODE a 2 103%Z /\ ~ value_of ex_j NODE a 2 102%Z.
Proof.
  eexists. split; [exact ex_constructed|]. split; [vm_compute; reflexivity|]. split; [vm_compute; tauto|]. split.
  - exists 13. split; vm_compute; reflexivity.
  - intros (h & B & E). vm_compute in B. injection B as <-. vm_compute in E. discriminate.
Qed.
(** ** Witness: a rank with its ghosts last *)
Example c96_witness : (forall i1 i2 h1 h2, i1 < i2 -> nth_error (k_all hp_mesh MREGION) i1 = Some h1 -> nth_error (k_all hp_mesh MREGION) i2 = Some h2 -> k_ptype hp_mesh MREGION h1 = PGHOST -> k_ptype hp_mesh MREGION h2 = PGHOST) /\
  k_all hp_mesh MREGION = [1; 2] /\ k_ptype hp_mesh MREGION 2 = PGHOST /\
  exists a, store_values hp_mesh MREGION [7; 8]%Z (fun _ => 0%Z) = Ok a /\ value_of hps_j CELL a 1 8%Z /\ get_values hp_mesh MREGION a [0; 0; 5]%Z = Ok [7; 8; 5]%Z.
Proof.
  split; [|split; [reflexivity|split; [vm_compute; reflexivity|]]].
  - intros i1 i2 h1 h2 L E1 E2 P. change (k_all hp_mesh MREGION) with [1; 2] in E1, E2. destruct i1 as [|[|i1]]; cbn in E1; [|destruct i2 as [|[|i2]]; [lia|lia|destruct i2; discriminate E2]|destruct i1; discriminate E1].
    injection E1 as <-. vm_compute in P. discriminate.
  - eexists. split; [vm_compute; reflexivity|]. split; [exists 2; split; vm_compute; reflexivity|vm_compute; reflexivity].
Qed.
Print Assumptions c96_round_trip.
Print Assumptions c96_by_id_iff.
Print Assumptions c96_by_id_ghosts_last.
Print Assumptions c96_by_id_no_ghosts.
Print Assumptions c96_parallel_refuted.
