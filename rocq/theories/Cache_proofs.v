(** Helper lemmas and the side caches (2D/3D). *)
From Coq Require Import Permutation.
From Verif Require Import Base Loop Defs Factory Cache Cache_spec.
Set Implicit Arguments.

(** ** generic *)
Lemma foldM_inv A S (f : A -> S -> outcome S) (Inv : list A -> S -> Prop) l s :
  Inv [] s ->
  (forall P x R s, l = P ++ x :: R -> Inv P s -> exists s', f x s = Ok s' /\ Inv (P ++ [x]) s') ->
  exists s', foldM l f s = Ok s' /\ Inv l s'.
Proof.
  intros H0 Hs.
  assert (G : forall R P s, l = P ++ R -> Inv P s -> exists s', foldM R f s = Ok s' /\ Inv l s').
  { induction R as [|x R IH]; intros P s1 E HI.
    - exists s1. rewrite app_nil_r in E. subst P. auto.
    - destruct (Hs P x R s1 E HI) as [s2 [E2 I2]]. simpl. rewrite E2. simpl.
      apply (IH (P ++ [x])); auto. rewrite <- app_assoc. auto. }
  apply (G l []); auto.
Qed.

Lemma mapM_fun A B (f : A -> outcome B) g l : (forall x, In x l -> f x = Ok (g x)) -> mapM f l = Ok (map g l).
Proof.
  induction l as [|x l IH]; intros H; simpl; auto.
  rewrite H by (left; auto). simpl. rewrite IH by (intros; apply H; right; auto). auto.
Qed.

Definition tab {A} (n : nat) (g : nat -> A) : list A := map g (seq 0 n).
Lemma tab_length A n (g : nat -> A) : length (tab n g) = n.
Proof. unfold tab. rewrite map_length, seq_length. auto. Qed.
Lemma tab_nth A n (g : nat -> A) i : i < n -> nth_error (tab n g) i = Some (g i).
Proof.
  intros H. unfold tab. rewrite nth_error_map.
  assert (E : nth_error (seq 0 n) i = Some i).
  { rewrite (nth_error_nth' _ 0) by (rewrite seq_length; auto). rewrite seq_nth by auto. auto. }
  rewrite E. auto.
Qed.
Lemma tab_nth_none A n (g : nat -> A) i : n <= i -> nth_error (tab n g) i = None.
Proof. intros H. apply nth_error_None. rewrite tab_length. auto. Qed.
Lemma rd_tab A n (g : nat -> A) i : i < n -> rd (tab n g) i = Ok (g i).
Proof. intros H. unfold rd. rewrite tab_nth; auto. Qed.
Lemma nth_error_ext A (l l' : list A) : (forall i, nth_error l i = nth_error l' i) -> l = l'.
Proof.
  revert l'; induction l as [|x l IH]; intros [|y l'] H; auto.
  - specialize (H 0); discriminate.
  - specialize (H 0); discriminate.
  - f_equal; [specialize (H 0); simpl in H; congruence|]. apply IH. intros i. apply (H (S i)).
Qed.
Lemma tab_ext A n (g h : nat -> A) : (forall i, i < n -> g i = h i) -> tab n g = tab n h.
Proof. intros H. apply map_ext_in. intros i Hi. apply H. apply in_seq in Hi. lia. Qed.
Lemma tab_set A n (g : nat -> A) i x : i < n -> set_nth (tab n g) i x = tab n (fun j => if j =? i then x else g j).
Proof.
  intros H. apply nth_error_ext. intros j. destruct (le_lt_dec n j) as [L|L].
  - rewrite tab_nth_none by auto. apply nth_error_None. rewrite set_nth_length, tab_length. auto.
  - rewrite (@tab_nth _ n _ j) by auto. destruct (Nat.eqb_spec j i) as [->|N].
    + apply nth_error_set_nth_eq. rewrite tab_length; auto.
    + rewrite nth_error_set_nth_ne by auto. apply tab_nth; auto.
Qed.
Lemma wr_tab A n (g : nat -> A) i x : i < n -> wr (tab n g) i x = Ok (tab n (fun j => if j =? i then x else g j)).
Proof. intros H. rewrite wr_ok by (rewrite tab_length; auto). rewrite tab_set; auto. Qed.
Lemma push_at_tab A n (g : nat -> list A) i x : i < n ->
  push_at (tab n g) i x = Ok (tab n (fun j => g j ++ if j =? i then [x] else [])).
Proof.
  intros H. unfold push_at. rewrite rd_tab by auto. simpl. rewrite wr_tab by auto.
  f_equal. apply tab_ext. intros j _. destruct (Nat.eqb_spec j i) as [->|N]; auto. rewrite app_nil_r; auto.
Qed.
Lemma repeat_tab A n (x : A) : repeat x n = tab n (fun _ => x).
Proof.
  apply nth_error_ext. intros i. destruct (le_lt_dec n i) as [L|L].
  - rewrite tab_nth_none by auto. apply nth_error_None. rewrite repeat_length; auto.
  - rewrite tab_nth by auto. apply nth_error_repeat_Some; auto.
Qed.

(** an array of [n] slots filled from the left *)
Definition fill {A} (n : nat) (d : A) (l : list A) : list A := l ++ repeat d (n - length l).
Lemma fill_nil A n (d : A) : fill n d [] = repeat d n.
Proof. unfold fill. simpl. rewrite Nat.sub_0_r. auto. Qed.
Lemma fill_full A n (d : A) l : length l = n -> fill n d l = l.
Proof. intros <-. unfold fill. rewrite Nat.sub_diag. simpl. apply app_nil_r. Qed.
Lemma fill_length A n (d : A) l : length l <= n -> length (fill n d l) = n.
Proof. intros H. unfold fill. rewrite app_length, repeat_length. lia. Qed.
Lemma wr_fill A n (d : A) l i x : i = length l -> length l < n -> wr (fill n d l) i x = Ok (fill n d (l ++ [x])).
Proof.
  intros -> H. rewrite wr_ok by (rewrite fill_length; lia). f_equal. unfold fill.
  replace (n - length l) with (S (n - length (l ++ [x]))) by (rewrite app_length; simpl; lia).
  simpl. rewrite set_nth_mid by auto. rewrite <- app_assoc. auto.
Qed.
Lemma rd_fill A n (d : A) l i : i < length l -> rd (fill n d l) i = rd l i.
Proof. intros H. unfold rd, fill. rewrite nth_error_app1; auto. Qed.

(** positions of the elements of [P] that satisfy [p] *)
Definition idxs {A} (p : A -> bool) (P : list A) : list nat :=
  map fst (filter (fun ix => p (snd ix)) (combine (seq 0 (length P)) P)).
Lemma combine_app A B (l1 l2 : list A) (r1 r2 : list B) :
  length l1 = length r1 -> combine (l1 ++ l2) (r1 ++ r2) = combine l1 r1 ++ combine l2 r2.
Proof. revert r1; induction l1 as [|x l1 IH]; intros [|y r1] L; simpl in *; try discriminate; auto. rewrite IH by lia. auto. Qed.
Lemma idxs_snoc A (p : A -> bool) P x : idxs p (P ++ [x]) = idxs p P ++ if p x then [length P] else [].
Proof.
  unfold idxs. rewrite app_length. simpl. rewrite Nat.add_1_r, seq_S. simpl.
  rewrite combine_app by apply seq_length. rewrite filter_app, map_app. simpl. destruct (p x); auto.
Qed.
Lemma in_idxs A (p : A -> bool) P i : In i (idxs p P) <-> exists x, nth_error P i = Some x /\ p x = true.
Proof.
  induction P as [|x P IH] using rev_ind.
  - simpl. split; [tauto|]. intros [x [E _]]. destruct i; discriminate.
  - rewrite idxs_snoc, in_app_iff, IH. split.
    + intros [[y [E Hy]]|H].
      * exists y. split; auto. rewrite nth_error_app1; auto. apply nth_error_lt in E; auto.
      * destruct (p x) eqn:Ex; simpl in H; [|tauto]. destruct H as [<-|[]]. exists x. split; auto.
        apply nth_error_mid; auto.
    + intros [y [E Hy]]. destruct (le_lt_dec (length P) i) as [L|L].
      * right. rewrite nth_error_app2 in E by auto.
        destruct (i - length P) eqn:D; simpl in E; [|destruct n; discriminate]. injection E as ->.
        rewrite Hy. left. lia.
      * left. exists y. rewrite nth_error_app1 in E by auto. auto.
Qed.
Lemma idxs_length A (p : A -> bool) P : length (idxs p P) = length (filter p P).
Proof.
  induction P as [|x P IH] using rev_ind; [reflexivity|].
  rewrite idxs_snoc, filter_app, !app_length, IH. simpl. destruct (p x); auto.
Qed.
Lemma idxs_lt A (p : A -> bool) P i : In i (idxs p P) -> i < length P.
Proof. intros H. apply in_idxs in H as [x [E _]]. apply nth_error_lt in E; auto. Qed.
Lemma NoDup_snoc A (l : list A) x : NoDup l -> ~ In x l -> NoDup (l ++ [x]).
Proof.
  intros H1 H2. apply (Permutation_NoDup (l := x :: l)); [|constructor; auto].
  apply Permutation_cons_append.
Qed.
Lemma idxs_NoDup A (p : A -> bool) P : NoDup (idxs p P).
Proof.
  induction P as [|x P IH] using rev_ind; [constructor|].
  rewrite idxs_snoc. destruct (p x); [|rewrite app_nil_r; auto].
  apply NoDup_snoc; auto. intros H. apply idxs_lt in H. lia.
Qed.
Lemma idxs_all A (P : list A) : idxs (fun _ => true) P = seq 0 (length P).
Proof.
  induction P as [|x P IH] using rev_ind; auto. rewrite idxs_snoc, IH, app_length. simpl.
  rewrite Nat.add_1_r, seq_S. auto.
Qed.
Lemma idxs_ext A (p q : A -> bool) P : (forall x, In x P -> p x = q x) -> idxs p P = idxs q P.
Proof.
  induction P as [|x P IH] using rev_ind; intros H; auto. rewrite !idxs_snoc, IH.
  - rewrite (H x); auto. apply in_app_iff; right; left; auto.
  - intros y Hy. apply H. apply in_app_iff; auto.
Qed.

Lemma filter_snoc_len A (p : A -> bool) P x R T : T = P ++ x :: R -> p x = true -> length (filter p P) < length (filter p T).
Proof. intros -> H. rewrite filter_app. simpl. rewrite H, app_length. simpl. lia. Qed.

(** ** types *)
Lemma cells_all_lt t c : numbered t -> (In c (cells_all t) <-> c < ncells t).
Proof.
  intros N. split; intros H.
  - apply (Permutation_in _ (nb_cells N)) in H. apply in_seq in H. lia.
  - apply (Permutation_in _ (Permutation_sym (nb_cells N))). apply in_seq. lia.
Qed.
Lemma edges_all_lt t c : numbered t -> (In c (edges_all t) <-> c < nedges t).
Proof.
  intros N. split; intros H.
  - apply (Permutation_in _ (nb_edges N)) in H. apply in_seq in H. lia.
  - apply (Permutation_in _ (Permutation_sym (nb_edges N))). apply in_seq. lia.
Qed.
Lemma cells_all_NoDup t : numbered t -> NoDup (cells_all t).
Proof. intros N. apply (Permutation_NoDup (Permutation_sym (nb_cells N))). apply seq_NoDup. Qed.

Lemma cache_types_wr n o g b :
  cache_types n o g b = wr_all (map (fun x => (x, PARALLEL_OWNED)) o ++ map (fun x => (x, PARALLEL_GHOST)) g ++
                                map (fun x => (x, BOUNDARY_GHOST)) b) (repeat DELETED n).
Proof.
  unfold cache_types, set_types, wr_all.
  rewrite foldM_app, <- foldM_map. simpl. destruct (foldM o _ _); simpl; auto.
  rewrite foldM_app, <- foldM_map. simpl. destruct (foldM g _ _); simpl; auto.
  rewrite <- foldM_map. simpl. auto.
Qed.
Lemma NoDup_app_disj A (l1 l2 : list A) x : NoDup (l1 ++ l2) -> In x l1 -> In x l2 -> False.
Proof.
  induction l1 as [|y l1 IH]; simpl; [tauto|]. intros H [E|Hx] H2.
  - subst. apply NoDup_cons_iff in H as [H _]. apply H, in_app_iff; auto.
  - apply NoDup_cons_iff in H as [_ H]. eauto.
Qed.
Lemma NoDup_app_r A (l1 l2 : list A) : NoDup (l1 ++ l2) -> NoDup l2.
Proof. induction l1; simpl; auto. intros H. apply NoDup_cons_iff in H as [_ H]; auto. Qed.
Lemma NoDup_app_l A (l1 l2 : list A) : NoDup (l1 ++ l2) -> NoDup l1.
Proof.
  induction l1; simpl; [constructor|]. intros H. apply NoDup_cons_iff in H as [H1 H2]. constructor; auto.
  intros H; apply H1, in_app_iff; auto.
Qed.

Definition has_type3 (o g b : list nat) (x : nat) (ty : entity_type) : Prop :=
  (ty = PARALLEL_OWNED /\ In x o) \/ (ty = PARALLEL_GHOST /\ In x g) \/ (ty = BOUNDARY_GHOST /\ In x b).
Lemma cache_types_spec n o g b :
  Permutation (o ++ g ++ b) (seq 0 n) ->
  exists v, cache_types n o g b = Ok v /\ length v = n /\
    (forall x ty, has_type3 o g b x ty -> nth_error v x = Some ty) /\
    (forall x, x < n -> exists ty, has_type3 o g b x ty).
Proof.
  intros HP. rewrite cache_types_wr.
  assert (ND : NoDup (o ++ g ++ b)).
  { apply (Permutation_NoDup (Permutation_sym HP)). apply seq_NoDup. }
  assert (HL : forall x, In x (o ++ g ++ b) -> x < n).
  { intros x Hx. apply (Permutation_in _ HP) in Hx. apply in_seq in Hx. lia. }
  assert (HC : forall i v, In (i, v) (map (fun x => (x, PARALLEL_OWNED)) o ++ map (fun x => (x, PARALLEL_GHOST)) g ++
                                map (fun x => (x, BOUNDARY_GHOST)) b) <-> has_type3 o g b i v).
  { intros i v. unfold has_type3. rewrite !in_app_iff, !in_map_iff. split.
    - intros [[x [E H]]|[[x [E H]]|[x [E H]]]]; injection E as <- <-; auto.
    - intros [[-> H]|[[-> H]|[-> H]]]; [left|right; left|right; right]; exists i; auto. }
  assert (HU : forall i v v', has_type3 o g b i v -> has_type3 o g b i v' -> v = v').
  { assert (D1 := fun x => @NoDup_app_disj _ o (g ++ b) x ND).
    assert (D2 := fun x => @NoDup_app_disj _ g b x (NoDup_app_r _ _ ND)).
    intros i v v' [[-> H]|[[-> H]|[-> H]]] [[-> H']|[[-> H']|[-> H']]]; auto; exfalso;
      try (apply (D2 i); assumption);
      try (apply (D1 i); [assumption|apply in_app_iff; auto]). }
  destruct (wr_all_spec (map (fun x => (x, PARALLEL_OWNED)) o ++ map (fun x => (x, PARALLEL_GHOST)) g ++
                                map (fun x => (x, BOUNDARY_GHOST)) b) (repeat DELETED n)) as [v [E [L [H1 _]]]].
  - intros i v Hi. apply HC in Hi. rewrite repeat_length. apply HL. rewrite !in_app_iff.
    destruct Hi as [[_ H]|[[_ H]|[_ H]]]; auto.
  - intros i v v' Hv Hv'. apply HC in Hv, Hv'. eapply HU; eauto.
  - exists v. rewrite repeat_length in L. split; [exact E|]. split; [exact L|]. split.
    + intros x ty Hx. apply H1, HC, Hx.
    + intros x Hx. assert (Hin : In x (o ++ g ++ b)).
      { apply (Permutation_in _ (Permutation_sym HP)), in_seq. lia. }
      rewrite !in_app_iff in Hin. unfold has_type3. destruct Hin as [H|[H|H]]; eauto 10.
Qed.

(** ** tables *)
Lemma rd_map_seq A n (g : nat -> A) i : i < n -> rd (map g (seq 0 n)) i = Ok (g i).
Proof. apply rd_tab. Qed.
Lemma cell2face_tab t sh : provides t sh -> cache_cell2face_info t = Ok (tab (ncells t) (cfaces sh)).
Proof. intros H. apply mapM_fun. intros c Hc. apply in_seq in Hc. apply (pv_cf H). lia. Qed.
Lemma face2edge_tab t sh : provides t sh -> cache_face2edge_info t = Ok (tab (nfaces t) (fedges sh)).
Proof. intros H. apply mapM_fun. intros c Hc. apply in_seq in Hc. apply (pv_fe H). lia. Qed.
(** end points: in 1D an edge is a node *)
Definition enodes' (t : topo) (sh : shape) (e : nat) : nat * nat := if tp_mdim t =? 1 then (e, e) else enodes sh e.
Lemma edge2node_tab t sh : (forall e, e < nedges t -> tp_mdim t <> 1 -> fw_edge_nodes t e = Ok (enodes sh e)) -> numbered t ->
  cache_edge2node_info t = Ok (tab (nedges t) (enodes' t sh)).
Proof.
  intros H N. unfold cache_edge2node_info.
  rewrite foldM_ext with (g := fun e tb => wr tb e (enodes' t sh e)).
  2:{ intros e s He. apply edges_all_lt in He; auto. unfold enodes'. destruct (Nat.eqb_spec (tp_mdim t) 1) as [E|E]; simpl; auto.
      rewrite H by auto. auto. }
  rewrite (@foldM_map _ _ _ (fun e => (e, enodes' t sh e)) (fun w a => wr a (fst w) (snd w))).
  fold (wr_all (map (fun e => (e, enodes' t sh e)) (edges_all t)) (repeat (0,0) (nedges t))).
  destruct (wr_all_spec (map (fun e => (e, enodes' t sh e)) (edges_all t)) (repeat (0,0) (nedges t))) as [v [E [L [H1 H2]]]].
  - intros i w Hi. apply in_map_iff in Hi as [e [Ee He]]. injection Ee as <- <-. apply edges_all_lt in He; auto.
    rewrite repeat_length; auto.
  - intros i w w' Hw Hw'. apply in_map_iff in Hw as [e [Ee _]], Hw' as [e' [Ee' _]]. congruence.
  - rewrite E. f_equal. rewrite repeat_length in L. apply nth_error_ext. intros i.
    destruct (le_lt_dec (nedges t) i) as [Hi|Hi].
    + rewrite tab_nth_none by auto. apply nth_error_None. lia.
    + rewrite tab_nth by auto. apply H1. apply in_map_iff. exists i. split; auto. apply edges_all_lt; auto.
Qed.

(** ** sides in 2D/3D *)
(** (cell, (face, dir), (edge, dir)) *)
Definition trip : Type := nat * (nat * Z) * (nat * Z).
Definition tcell (x : trip) := fst (fst x).
Definition tface (x : trip) := fst (snd (fst x)).
Definition tfdir (x : trip) := snd (snd (fst x)).
Definition tedge (x : trip) := fst (snd x).
Definition tedir (x : trip) := snd (snd x).
Definition trips_of (sh : shape) (c : nat) : list trip :=
  flat_map (fun fd => map (fun ed => (c, fd, ed)) (fedges sh (fst fd))) (cfaces sh c).
Definition trips (t : topo) (sh : shape) : list trip := flat_map (trips_of sh) (cells_all t).

Lemma foldM_trips S t sh (g : nat -> nat * Z -> nat * Z -> S -> outcome S) s :
  numbered t -> connectivity t sh ->
  foldM (cells_all t) (fun c s =>
         cfs <- rd (tab (ncells t) (cfaces sh)) c ;;
         foldM cfs (fun fd s => fes <- rd (tab (nfaces t) (fedges sh)) (fst fd) ;; foldM fes (fun ed s => g c fd ed s) s) s) s
  = foldM (trips t sh) (fun x s => g (tcell x) (snd (fst x)) (snd x) s) s.
Proof.
  intros N C. unfold trips. rewrite <- foldM_flat_map. apply foldM_ext. intros c s1 Hc.
  apply cells_all_lt in Hc; auto. rewrite rd_tab by auto. simpl.
  unfold trips_of. rewrite <- foldM_flat_map. apply foldM_ext. intros fd s2 Hfd.
  destruct fd as [f d]. destruct (cn_face C _ _ Hc Hfd) as [Hf _]. rewrite rd_tab by auto. simpl.
  rewrite <- foldM_map. reflexivity.
Qed.

Lemma in_trips t sh x : numbered t -> connectivity t sh ->
  In x (trips t sh) <-> tcell x < ncells t /\ In (snd (fst x)) (cfaces sh (tcell x)) /\ In (snd x) (fedges sh (tface x)).
Proof.
  intros N C. unfold trips, trips_of. rewrite in_flat_map. destruct x as [[c [f fd]] [e ed]].
  unfold tcell, tface; simpl. split.
  - intros [c' [Hc H]]. apply cells_all_lt in Hc; auto. apply in_flat_map in H as [[f' fd'] [Hf H]].
    apply in_map_iff in H as [[e' ed'] [E He]]. simpl in *. injection E as -> -> -> -> ->. auto.
  - intros [Hc [Hf He]]. exists c. split; [apply cells_all_lt; auto|]. apply in_flat_map. exists (f, fd). split; auto.
    apply in_map_iff. exists (e, ed). auto.
Qed.
Lemma trips_range t sh x : numbered t -> connectivity t sh -> In x (trips t sh) ->
  tcell x < ncells t /\ tface x < nfaces t /\ tedge x < nedges t /\ is_dir (tfdir x) /\ is_dir (tedir x).
Proof.
  intros N C H. apply in_trips in H as [Hc [Hf He]]; auto.
  destruct x as [[c [f fd]] [e ed]]. unfold tcell, tface, tedge, tfdir, tedir in *; simpl in *.
  destruct (cn_face C _ _ Hc Hf) as [Hf' D1]. destruct (cn_edge C _ _ Hf' He) as [He' D2]. auto.
Qed.

Definition key (x : trip) : nat * nat * nat := (tcell x, tface x, tedge x).
Lemma NoDup_flat_map_key A B K (g : A -> list B) (kf : B -> K) l :
  NoDup l -> (forall a, In a l -> NoDup (map kf (g a))) ->
  (forall a a' b b', In a l -> In a' l -> In b (g a) -> In b' (g a') -> kf b = kf b' -> a = a') ->
  NoDup (map kf (flat_map g l)).
Proof.
  induction l as [|a l IH]; intros N1 N2 N3; simpl; [constructor|].
  rewrite map_app. apply NoDup_cons_iff in N1 as [Na N1].
  assert (IHl : NoDup (map kf (flat_map g l))).
  { apply IH; auto. intros; apply N2; right; auto. intros x x' b b' Hx Hx'. apply N3; right; auto. }
  assert (Hd : forall k, In k (map kf (g a)) -> In k (map kf (flat_map g l)) -> False).
  { intros k H1 H2. apply in_map_iff in H1 as [b [Eb Hb]], H2 as [b' [Eb' Hb']].
    apply in_flat_map in Hb' as [a' [Ha' Hb']]. assert (a = a').
    { apply (N3 a a' b b'); auto; try (left; auto; fail); try (right; auto). congruence. }
    subst; auto. }
  assert (Hg := N2 a (or_introl eq_refl)).
  induction (map kf (g a)) as [|k ks IHk]; simpl; auto.
  apply NoDup_cons_iff in Hg as [G1 G2]. constructor.
  - rewrite in_app_iff. intros [H|H]; [auto|]. apply (Hd k); simpl; auto.
  - apply IHk; auto. intros k' H1 H2. apply (Hd k'); simpl; auto.
Qed.
Lemma trips_key_NoDup t sh : numbered t -> connectivity t sh -> NoDup (map key (trips t sh)).
Proof.
  intros N C. apply NoDup_flat_map_key.
  - apply cells_all_NoDup; auto.
  - intros c Hc. apply cells_all_lt in Hc; auto. apply NoDup_flat_map_key.
    + apply (NoDup_map_inv fst). apply (cn_face_nodup C); auto.
    + intros [f d] Hf. rewrite map_map. destruct (cn_face C _ _ Hc Hf) as [Hf' _].
      assert (NE := cn_edge_nodup C Hf'). simpl.
      replace (map (fun x => key (c, (f, d), x)) (fedges sh f)) with (map (fun e => (c, f, e)) (map fst (fedges sh f)))
        by (rewrite map_map; auto).
      apply FinFun.Injective_map_NoDup; auto. intros a b E. congruence.
    + intros [f d] [f' d'] b b' Hf Hf' Hb Hb' E. apply in_map_iff in Hb as [ed [<- _]], Hb' as [ed' [<- _]].
      unfold key, tcell, tface, tedge in E; simpl in E. injection E as E1 E2. subst f'. f_equal.
      assert (ND := cn_face_nodup C Hc).
      assert (G : forall l : list (nat * Z), NoDup (map fst l) -> In (f, d) l -> In (f, d') l -> d = d').
      { induction l as [|[a z] l IH]; simpl; [tauto|]. intros Hn. apply NoDup_cons_iff in Hn as [Hn1 Hn2].
        intros [A1|A1] [A2|A2]; auto.
        - congruence.
        - exfalso. apply Hn1. injection A1 as -> ->. apply in_map_iff. exists (f, d'); auto.
        - exfalso. apply Hn1. injection A2 as -> ->. apply in_map_iff. exists (f, d); auto. }
      eapply G; eauto.
  - intros c c' b b' _ _ Hb Hb' E. unfold trips_of in Hb, Hb'.
    apply in_flat_map in Hb as [fd [_ Hb]], Hb' as [fd' [_ Hb']].
    apply in_map_iff in Hb as [ed [<- _]], Hb' as [ed' [<- _]].
    unfold key, tcell in E; simpl in E. congruence.
Qed.

(** counts *)
Definition ctype_of (v : list entity_type) (c : nat) : entity_type := nth c v TYPE_UNKNOWN.
Lemma ctype_of_rd v c : c < length v -> rd v c = Ok (ctype_of v c).
Proof. intros H. unfold rd, ctype_of. rewrite (nth_error_nth' _ TYPE_UNKNOWN) by auto. auto. Qed.
Definition of_type (v : list entity_type) (ty : entity_type) (x : trip) : bool := type_eqb (ctype_of v (tcell x)) ty.

Lemma add_sides_fold T v :
  foldM T (fun x k => ty <- rd v (tcell x) ;; Ok (add_sides ty 1 k)) (0,0,0,0)
  = Ok (length T, length (filter (of_type v PARALLEL_OWNED) T), length (filter (of_type v PARALLEL_GHOST) T),
        length (filter (of_type v BOUNDARY_GHOST) T)) \/ exists x, In x T /\ length v <= tcell x.
Proof.
  destruct (Forall_Exists_dec (fun x : trip => tcell x < length v) (fun x => lt_dec _ _) T) as [HF|HE].
  - left. rewrite Forall_forall in HF.
    destruct (@foldM_inv _ _ (fun x k => ty <- rd v (tcell x) ;; Ok (add_sides ty 1 k))
       (fun P k => k = (length P, length (filter (of_type v PARALLEL_OWNED) P), length (filter (of_type v PARALLEL_GHOST) P),
        length (filter (of_type v BOUNDARY_GHOST) P))) T (0,0,0,0)) as [s' [E ->]]; auto.
    intros P x R s E ->. rewrite ctype_of_rd by (apply HF; rewrite E; apply in_app_iff; right; left; auto). simpl.
    eexists. split; [reflexivity|]. rewrite !filter_app, !app_length. simpl. unfold of_type.
    destruct (ctype_of v (tcell x)); simpl; rewrite ?Nat.add_0_r; reflexivity.
  - right. apply Exists_exists in HE as [x [H1 H2]]. exists x. split; auto. lia.
Qed.

Lemma count_sides_spec t sh v : numbered t -> connectivity t sh -> length v = ncells t ->
  count_sides t v (tab (ncells t) (cfaces sh)) (tab (nfaces t) (fedges sh))
  = Ok (length (trips t sh), length (filter (of_type v PARALLEL_OWNED) (trips t sh)),
        length (filter (of_type v PARALLEL_GHOST) (trips t sh)), length (filter (of_type v BOUNDARY_GHOST) (trips t sh))).
Proof.
  intros N C L.
  assert (E : count_sides t v (tab (ncells t) (cfaces sh)) (tab (nfaces t) (fedges sh)) =
              foldM (trips t sh) (fun x k => ty <- rd v (tcell x) ;; Ok (add_sides ty 1 k)) (0,0,0,0)).
  { rewrite <- (@foldM_trips _ t sh (fun c fd ed k => ty <- rd v c ;; Ok (add_sides ty 1 k))) by auto.
    unfold count_sides. apply foldM_ext. intros c k Hc. apply cells_all_lt in Hc; auto.
    rewrite rd_tab by auto. simpl. apply foldM_ext. intros [f d] k' Hf.
    destruct (cn_face C _ _ Hc Hf) as [Hf' _]. simpl. rewrite rd_tab by auto. simpl.
    rewrite ctype_of_rd by lia. simpl.
    generalize (fedges sh f) as l. intros l.
    assert (G : forall l k', foldM l (fun (_ : nat * Z) k => Ok (add_sides (ctype_of v c) 1 k)) k' = Ok (add_sides (ctype_of v c) (length l) k')).
    { clear. induction l as [|x l IH]; intros [[[a o] g] b]; simpl.
      - unfold add_sides. destruct (ctype_of v c); rewrite ?Nat.add_0_r; reflexivity.
      - rewrite IH. f_equal. unfold add_sides. destruct (ctype_of v c); rewrite <- ?Nat.add_assoc; reflexivity. }
    rewrite G. reflexivity. }
  rewrite E. destruct (add_sides_fold (trips t sh) v) as [H|[x [Hx Hl]]]; auto.
  apply trips_range in Hx; auto. lia.
Qed.
