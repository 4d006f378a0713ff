(** 1D sides, wedges and corners. *)
From Coq Require Import Permutation.
From Verif Require Import Base Loop Defs Factory Cache Cache_spec Cache_proofs Cache_proofs2.
Set Implicit Arguments.

(** ** wedges *)
Definition w2 (s : nat) : list nat := [2 * s; 2 * s + 1].
Lemma flat_w2_length l : length (flat_map w2 l) = 2 * length l.
Proof. induction l as [|x l IH]; simpl; auto. rewrite IH. lia. Qed.
Lemma in_flat_w2 w l : In w (flat_map w2 l) <-> In (w / 2) l.
Proof.
  rewrite in_flat_map. unfold w2. split.
  - intros [s [Hs [<-|[<-|[]]]]].
    + replace (2 * s / 2) with s by lia. auto.
    + replace ((2 * s + 1) / 2) with s by lia. auto.
  - intros H. exists (w / 2). split; auto. cbn [In]. lia.
Qed.
Lemma flat_w2_NoDup l : NoDup l -> NoDup (flat_map w2 l).
Proof.
  induction l as [|x l IH]; intros H; simpl; [constructor|]. apply NoDup_cons_iff in H as [H1 H2].
  assert (G : forall w, w / 2 = x -> ~ In w (flat_map w2 l)).
  { intros w E. rewrite in_flat_w2, E. auto. }
  constructor; [|constructor; auto].
  - intros [H|H]; [lia|]. apply (G (x + (x + 0))); auto. lia.
  - apply G. lia.
Qed.

Lemma idxs_filter A (p : A -> bool) T :
  idxs p T = filter (fun i => match nth_error T i with Some x => p x | None => false end) (seq 0 (length T)).
Proof.
  induction T as [|x T IH] using rev_ind; auto. rewrite idxs_snoc, app_length. simpl. rewrite Nat.add_1_r, seq_S, filter_app. simpl.
  rewrite (nth_error_mid T [] x) by auto. rewrite IH. f_equal.
  apply filter_ext_in. intros i Hi. apply in_seq in Hi. rewrite nth_error_app1 by lia. auto.
Qed.

Lemma wr_fill2 n l i x y : i = length l -> S (length l) < n ->
  wr_all [(i, x); (S i, y)] (fill n 0 l) = Ok (fill n 0 (l ++ [x; y])).
Proof.
  intros -> H. unfold wr_all. cbn [foldM fst snd]. rewrite wr_fill by (auto; lia). cbn [bind].
  rewrite wr_fill by (rewrite app_length; simpl; lia). cbn [bind]. rewrite <- app_assoc. auto.
Qed.

Definition side_ty (v : list entity_type) (T : list trip) (ty : entity_type) (s : nat) : bool :=
  match nth_error T s with Some x => of_type v ty x | None => false end.

Lemma cache_wedge_info_spec t v enf T opp :
  length v = ncells t -> (forall x, In x T -> tcell x < ncells t) ->
  (forall x, In x T -> In (ctype_of v (tcell x)) [PARALLEL_OWNED; PARALLEL_GHOST; BOUNDARY_GHOST]) ->
  let si := final_info t v enf T opp in
  let o := flat_map w2 (sideids_owned si) in let g := flat_map w2 (sideids_ghost si) in let b := flat_map w2 (sideids_bghost si) in
  cache_wedge_info v si = Ok (WedgeInfo (o ++ g ++ b) o g b).
Proof.
  intros L HT HY. cbn zeta. unfold cache_wedge_info, final_info. cbn [sideids_all sideids_owned sideids_ghost sideids_bghost side_cell_id].
  rewrite !idxs_filter. fold (side_ty v T PARALLEL_OWNED) (side_ty v T PARALLEL_GHOST) (side_ty v T BOUNDARY_GHOST).
  set (S0 := seq 0 (length T)).
  set (st := fun P => WedgeLoop (fill (2 * length (filter (side_ty v T PARALLEL_OWNED) S0)) 0 (flat_map w2 (filter (side_ty v T PARALLEL_OWNED) P)))
     (fill (2 * length (filter (side_ty v T PARALLEL_GHOST) S0)) 0 (flat_map w2 (filter (side_ty v T PARALLEL_GHOST) P)))
     (fill (2 * length (filter (side_ty v T BOUNDARY_GHOST) S0)) 0 (flat_map w2 (filter (side_ty v T BOUNDARY_GHOST) P)))
     (length (flat_map w2 (filter (side_ty v T PARALLEL_OWNED) P))) (length (flat_map w2 (filter (side_ty v T PARALLEL_GHOST) P)))
     (length (flat_map w2 (filter (side_ty v T BOUNDARY_GHOST) P)))).
  destruct (@foldM_inv _ _ (wedge_body v (map tcell T)) (fun P s => s = st P) S0
     (WedgeLoop (repeat 0 (2 * length (filter (side_ty v T PARALLEL_OWNED) S0))) (repeat 0 (2 * length (filter (side_ty v T PARALLEL_GHOST) S0)))
        (repeat 0 (2 * length (filter (side_ty v T BOUNDARY_GHOST) S0))) 0 0 0)) as [s' [E ->]].
  - unfold st. cbn -[fill repeat]. rewrite !fill_nil. reflexivity.
  - intros P s R w ES ->. eexists. split; [|reflexivity].
    assert (Hs : s < length T). { assert (I : In s S0) by (rewrite ES; apply in_app_iff; right; left; auto). apply in_seq in I. lia. }
    destruct (nth_error T s) as [x|] eqn:Ex; [|apply nth_error_None in Ex; lia].
    assert (Ix := nth_error_In _ _ Ex).
    unfold st at 1. unfold wedge_body. cbn [wl_own wl_ghost wl_b wl_iown wl_ighost wl_ib].
    assert (Erd : rd (map tcell T) s = Ok (tcell x)) by (apply rd_Ok, map_nth_error; auto). rewrite Erd. cbn [bind].
    rewrite ctype_of_rd by (rewrite L; auto). cbn [bind].
    assert (IS : forall ty, side_ty v T ty s = type_eqb (ctype_of v (tcell x)) ty).
    { intros ty. unfold side_ty. rewrite Ex. auto. }
    assert (HY' := HY x Ix).
    assert (LL : forall ty, type_eqb (ctype_of v (tcell x)) ty = true ->
       S (length (flat_map w2 (filter (side_ty v T ty) P))) < 2 * length (filter (side_ty v T ty) S0)).
    { intros ty Ht. rewrite flat_w2_length. assert (H := @filter_snoc_len _ (side_ty v T ty) P s R S0 ES). rewrite IS in H. specialize (H Ht). lia. }
    unfold st. rewrite !filter_app. cbn [filter]. rewrite !IS.
    destruct (ctype_of v (tcell x)) eqn:Ety; simpl in HY'; try (exfalso; intuition discriminate);
      (rewrite wr_fill2 by (auto; apply LL; auto); cbn [bind];
       change (type_eqb PARALLEL_OWNED PARALLEL_OWNED) with true; change (type_eqb PARALLEL_OWNED PARALLEL_GHOST) with false;
       change (type_eqb PARALLEL_OWNED BOUNDARY_GHOST) with false; change (type_eqb PARALLEL_GHOST PARALLEL_OWNED) with false;
       change (type_eqb PARALLEL_GHOST PARALLEL_GHOST) with true; change (type_eqb PARALLEL_GHOST BOUNDARY_GHOST) with false;
       change (type_eqb BOUNDARY_GHOST PARALLEL_OWNED) with false; change (type_eqb BOUNDARY_GHOST PARALLEL_GHOST) with false;
       change (type_eqb BOUNDARY_GHOST BOUNDARY_GHOST) with true; cbn [orb];
       rewrite ?app_nil_r, ?flat_map_app, ?app_length; reflexivity).
  - rewrite E. cbn [bind]. unfold st. cbn [wl_own wl_ghost wl_b].
    rewrite !fill_full by apply flat_w2_length. reflexivity.
Qed.

(** ** corners *)
Definition pairs (t : topo) (sh : shape) : list (nat * nat) := flat_map (fun c => map (pair c) (cnodes sh c)) (cells_all t).
Definition p_type (v : list entity_type) (ty : entity_type) (p : nat * nat) : bool := type_eqb (ctype_of v (fst p)) ty.

Section Corners.
Variables (t : topo) (sh : shape) (v : list entity_type) (si : side_info) (en : list (nat * nat)).
Variables (wcell wnode : nat -> nat) (cw : nat -> list nat) (NW : nat).
Hypothesis Nb : numbered t.
Hypothesis Lv : typed t v.
Hypothesis Pcn : forall c, c < ncells t -> fw_cell_nodes t c = Ok (cnodes sh c).
Hypothesis Hcn : forall c n, c < ncells t -> In n (cnodes sh c) -> n < nnodes t.
Hypothesis Hnd : forall c, c < ncells t -> NoDup (cnodes sh c).
Hypothesis Hcw : forall c, c < ncells t -> cell_wedges si c = Ok (cw c).
Hypothesis Hcw_in : forall c w, c < ncells t -> (In w (cw c) <-> w < NW /\ wcell w = c).
Hypothesis Hwn : forall w, w < NW -> wedge_node si en w = Ok (wnode w).
Hypothesis Hns : 2 * nsides si = NW.

Let K := pairs t sh.
Let NC := length K.
Let NO := length (filter (p_type v PARALLEL_OWNED) K).
Let NG := length (filter (p_type v PARALLEL_GHOST) K).
Let NB := length (filter (p_type v BOUNDARY_GHOST) K).

Lemma in_pairs c n : In (c, n) K <-> c < ncells t /\ In n (cnodes sh c).
Proof.
  unfold K, pairs. rewrite in_flat_map. split.
  - intros [c' [Hc H]]. apply in_map_iff in H as [n' [E H]]. injection E as <- <-. apply cells_all_lt in Hc; auto.
  - intros [Hc H]. exists c. split; [apply cells_all_lt; auto|]. apply in_map_iff; eauto.
Qed.
Lemma pairs_NoDup : NoDup K.
Proof.
  unfold K, pairs. rewrite <- (map_id (flat_map _ _)). apply NoDup_flat_map_key.
  - apply cells_all_NoDup; auto.
  - intros c Hc. apply cells_all_lt in Hc; auto. rewrite map_id. apply FinFun.Injective_map_NoDup; auto.
    intros a b E. congruence.
  - intros a a' b b' _ _ Hb Hb' E. subst b'. apply in_map_iff in Hb as [n [<- _]], Hb' as [n' [E _]]. congruence.
Qed.

Lemma count_corners_spec : count_corners t v = Ok (NC, NO, NG, NB).
Proof.
  assert (E : count_corners t v = foldM K (fun p k => Ok (add_sides (ctype_of v (fst p)) 1 k)) (0,0,0,0)).
  { unfold count_corners, K, pairs. rewrite <- foldM_flat_map. apply foldM_ext. intros c k Hc. apply cells_all_lt in Hc; auto.
    rewrite Pcn by auto. cbn [bind]. rewrite ctype_of_rd by (destruct Lv; lia). cbn [bind].
    rewrite <- (@foldM_map _ _ _ (pair c) (fun p k => Ok (add_sides (ctype_of v (fst p)) 1 k))). cbn [fst].
    generalize (cnodes sh c) k. clear. induction l as [|x l IH]; intros [[[a o] g] b]; simpl.
    - unfold add_sides. destruct (ctype_of v c); rewrite ?Nat.add_0_r; reflexivity.
    - rewrite <- IH. f_equal. unfold add_sides. destruct (ctype_of v c); rewrite <- ?Nat.add_assoc; reflexivity. }
  rewrite E.
  destruct (@foldM_inv _ _ (fun p k => Ok (add_sides (ctype_of v (fst p)) 1 k))
     (fun P k => k = (length P, length (filter (p_type v PARALLEL_OWNED) P), length (filter (p_type v PARALLEL_GHOST) P),
        length (filter (p_type v BOUNDARY_GHOST) P))) K (0,0,0,0)) as [s' [E1 ->]]; auto.
  intros P x R s _ ->. eexists. split; [reflexivity|]. rewrite !filter_app, !app_length. cbn [filter length]. unfold p_type.
  destruct (ctype_of v (fst x)); simpl; rewrite ?Nat.add_0_r; reflexivity.
Qed.

Lemma corner_wedges_fold n k l A acc B wc :
  (forall w, In w l -> w < NW) -> length wc = NW -> k = length A ->
  exists wc', foldM l (corner_wedge_body si en n k) (A ++ acc :: B, wc)
     = Ok (A ++ (acc ++ filter (fun w => wnode w =? n) l) :: B, wc') /\ length wc' = NW /\
    forall w, (In w l /\ wnode w = n -> nth_error wc' w = Some k) /\ (~ (In w l /\ wnode w = n) -> nth_error wc' w = nth_error wc w).
Proof.
  intros Hl Lw ->. revert acc wc Lw. induction l as [|w l IH]; intros acc wc Lw; simpl.
  - exists wc. rewrite app_nil_r. split; [auto|]. split; [auto|]. intros w. split; [tauto|auto].
  - unfold corner_wedge_body at 1. rewrite Hwn by (apply Hl; left; auto). cbn [bind].
    rewrite (Nat.eqb_sym n). destruct (Nat.eqb_spec (wnode w) n) as [En|En].
    + cbn [fst snd]. unfold push_at. unfold rd at 1. rewrite nth_error_mid by auto. cbn [bind].
      rewrite (@wr_ok _ (A ++ acc :: B)) by (rewrite app_length; simpl; lia). rewrite set_nth_mid by auto. cbn [bind].
      rewrite wr_ok by (rewrite Lw; apply Hl; left; auto). cbn [bind].
      destruct (IH (fun w H => Hl w (or_intror H)) (acc ++ [w]) (set_nth wc w (length A))) as [wc' [E [L H]]].
      { rewrite set_nth_length; auto. }
      exists wc'. rewrite E. split; [rewrite <- app_assoc; auto|]. split; auto.
      intros w'. destruct (H w') as [H1 H2]. split.
      * intros [[<-|Hin] E']; [|auto]. destruct (in_dec Nat.eq_dec w l) as [I|I]; [auto|].
        rewrite H2 by tauto. apply nth_error_set_nth_eq. rewrite Lw. apply Hl; left; auto.
      * intros NI. rewrite H2 by tauto. apply nth_error_set_nth_ne. intros <-. apply NI; auto.
    + cbn [bind]. destruct (IH (fun w H => Hl w (or_intror H)) acc wc Lw) as [wc' [E [L H]]].
      exists wc'. split; auto. split; auto. intros w'. destruct (H w') as [H1 H2]. split.
      * intros [[<-|Hin] E']; [contradiction|auto].
      * intros NI. apply H2. tauto.
Qed.

Definition cwed (p : nat * nat) : list nat := filter (fun w => wnode w =? snd p) (cw (fst p)).
Definition corner_st (P : list (nat * nat)) (wc : list nat) : corner_loop :=
  CornerLoop (fill NO 0 (idxs (p_type v PARALLEL_OWNED) P)) (fill NG 0 (idxs (p_type v PARALLEL_GHOST) P)) (fill NB 0 (idxs (p_type v BOUNDARY_GHOST) P))
    (tab (ncells t) (fun c => idxs (fun p => fst p =? c) P)) (tab (nnodes t) (fun n => idxs (fun p => snd p =? n) P))
    (fill NC [] (map cwed P)) wc (length P)
    (length (idxs (p_type v PARALLEL_OWNED) P)) (length (idxs (p_type v PARALLEL_GHOST) P)) (length (idxs (p_type v BOUNDARY_GHOST) P)).
Definition wc_ok (P : list (nat * nat)) (wc : list nat) : Prop :=
  length wc = NW /\ forall w k, w < NW -> nth_error P k = Some (wcell w, wnode w) -> nth_error wc w = Some k.

Lemma corner_body_step P c n R wc : K = P ++ (c, n) :: R -> wc_ok P wc ->
  exists wc', corner_body v si en (cw c) c n (corner_st P wc) = Ok (corner_st (P ++ [(c, n)]) wc') /\ wc_ok (P ++ [(c, n)]) wc'.
Proof.
  intros EK [W1 W2].
  assert (Hin : In (c, n) K) by (rewrite EK; apply in_app_iff; right; left; auto).
  apply in_pairs in Hin as [Hc Hn]. assert (Hn' := @Hcn _ _ Hc Hn).
  assert (LN : length P < NC). { unfold NC. rewrite EK, app_length. simpl. lia. }
  destruct (@corner_wedges_fold n (length P) (cw c) (map cwed P) [] (repeat [] (NC - S (length P))) wc) as [wc' [E [L H]]]; auto.
  { intros w Hw. apply Hcw_in in Hw; tauto. }
  { rewrite map_length; auto. }
  exists wc'. split.
  - unfold corner_st at 1. unfold corner_body. cbn [cl_own cl_ghost cl_b cl_cell cl_node cl_cw cl_wc cl_id cl_iown cl_ighost cl_ib].
    rewrite push_at_tab by auto. cbn [bind]. rewrite push_at_tab by auto. cbn [bind].
    rewrite ctype_of_rd by (destruct Lv; lia). cbn [bind].
    assert (EF : fill NC [] (map cwed P) = map cwed P ++ [] :: repeat [] (NC - S (length P))).
    { unfold fill. rewrite map_length. replace (NC - length P) with (S (NC - S (length P))) by lia. auto. }
    rewrite EF, E. 
    assert (EF' : map cwed P ++ ([] ++ filter (fun w => wnode w =? n) (cw c)) :: repeat [] (NC - S (length P)) = fill NC [] (map cwed (P ++ [(c, n)]))).
    { unfold fill. rewrite map_length, app_length, map_app. cbn [length]. rewrite <- app_assoc. rewrite Nat.add_1_r. auto. }
    rewrite EF'.
    assert (EOW : forall ty, type_eqb (ctype_of v c) ty = true -> length (idxs (p_type v ty) P) < length (filter (p_type v ty) K)).
    { intros ty Ht. rewrite idxs_length. eapply filter_snoc_len; eauto. }
    assert (IS : forall ty, idxs (p_type v ty) (P ++ [(c, n)]) = idxs (p_type v ty) P ++ if type_eqb (ctype_of v c) ty then [length P] else []).
    { intros ty. apply idxs_snoc. }
    assert (HL : length (P ++ [(c, n)]) = S (length P)) by (rewrite app_length; simpl; lia).
    assert (HC : tab (ncells t) (fun j => idxs (fun p => fst p =? j) P ++ (if j =? c then [length P] else []))
       = tab (ncells t) (fun j => idxs (fun p => fst p =? j) (P ++ [(c, n)]))).
    { apply tab_ext. intros i _. rewrite idxs_snoc. cbn [fst]. rewrite (Nat.eqb_sym c). auto. }
    assert (HN : tab (nnodes t) (fun j => idxs (fun p => snd p =? j) P ++ (if j =? n then [length P] else []))
       = tab (nnodes t) (fun j => idxs (fun p => snd p =? j) (P ++ [(c, n)]))).
    { apply tab_ext. intros i _. rewrite idxs_snoc. cbn [snd]. rewrite (Nat.eqb_sym n). auto. }
    unfold corner_st. rewrite HC, HN, HL, !IS.
    assert (Ty := typed_in Lv Hc).
    destruct (ctype_of v c) eqn:Ety; simpl in Ty; try (exfalso; intuition discriminate);
      (rewrite wr_fill by (auto; apply EOW; auto); cbn [bind fst snd];
       change (type_eqb PARALLEL_OWNED PARALLEL_OWNED) with true; change (type_eqb PARALLEL_OWNED PARALLEL_GHOST) with false;
       change (type_eqb PARALLEL_OWNED BOUNDARY_GHOST) with false; change (type_eqb PARALLEL_GHOST PARALLEL_OWNED) with false;
       change (type_eqb PARALLEL_GHOST PARALLEL_GHOST) with true; change (type_eqb PARALLEL_GHOST BOUNDARY_GHOST) with false;
       change (type_eqb BOUNDARY_GHOST PARALLEL_OWNED) with false; change (type_eqb BOUNDARY_GHOST PARALLEL_GHOST) with false;
       change (type_eqb BOUNDARY_GHOST BOUNDARY_GHOST) with true; cbn [orb];
       rewrite ?app_nil_r, ?app_length; cbn [length]; rewrite ?Nat.add_1_r; reflexivity).
  - split; auto. intros w k Hw Hk. destruct (H w) as [H1 H2].
    assert (KN := pairs_NoDup). rewrite EK in KN.
    destruct (le_lt_dec (length P) k) as [Lk|Lk].
    + rewrite nth_error_app2 in Hk by auto. destruct (k - length P) as [|q] eqn:D; [|destruct q; discriminate].
      cbn in Hk. injection Hk as E1 E2. replace k with (length P) by lia. apply H1. split; auto. apply Hcw_in; auto.
    + rewrite nth_error_app1 in Hk by auto. rewrite H2; [apply W2; auto|].
      intros [I1 I2]. apply Hcw_in in I1 as [_ I1]; auto.
      apply (@NoDup_app_disj _ P ((c, n) :: R) (c, n) KN); [|left; auto].
      apply nth_error_In in Hk. congruence.
Qed.

Lemma cache_corner_info_spec :
  exists wc, cache_corner_info t v si en =
    Ok (CornerInfo (idxs (p_type v PARALLEL_OWNED) K ++ idxs (p_type v PARALLEL_GHOST) K ++ idxs (p_type v BOUNDARY_GHOST) K)
          (idxs (p_type v PARALLEL_OWNED) K) (idxs (p_type v PARALLEL_GHOST) K) (idxs (p_type v BOUNDARY_GHOST) K)
          (tab (ncells t) (fun c => idxs (fun p => fst p =? c) K)) (tab (nnodes t) (fun n => idxs (fun p => snd p =? n) K))
          (map cwed K) wc) /\ wc_ok K wc.
Proof.
  unfold cache_corner_info. rewrite count_corners_spec. cbn [bind].
  assert (E : forall s, foldM (cells_all t) (fun c s => cns <- fw_cell_nodes t c ;; cws <- cell_wedges si c ;; foldM cns (corner_body v si en cws c) s) s
     = foldM K (fun p s => corner_body v si en (cw (fst p)) (fst p) (snd p) s) s).
  { intros s. unfold K, pairs. rewrite <- foldM_flat_map. apply foldM_ext. intros c s1 Hc. apply cells_all_lt in Hc; auto.
    rewrite Pcn by auto. cbn [bind]. rewrite Hcw by auto. cbn [bind].
    rewrite <- (@foldM_map _ _ _ (pair c) (fun p s => corner_body v si en (cw (fst p)) (fst p) (snd p) s)). reflexivity. }
  rewrite E, Hns.
  destruct (@foldM_inv _ _ (fun p s => corner_body v si en (cw (fst p)) (fst p) (snd p) s)
     (fun P s => exists wc, s = corner_st P wc /\ wc_ok P wc) K
     (CornerLoop (repeat 0 NO) (repeat 0 NG) (repeat 0 NB) (repeat [] (ncells t)) (repeat [] (nnodes t)) (repeat [] NC) (repeat 0 NW) 0 0 0 0))
     as [s' [E1 [wc [-> W]]]].
  - exists (repeat 0 NW). split.
    + unfold corner_st. cbn -[fill tab repeat]. rewrite !fill_nil, !(repeat_tab _ []). reflexivity.
    + split; [apply repeat_length|]. intros w k _ Hk. destruct k; discriminate.
  - intros P [c n] R s EK [wc [-> W]]. destruct (@corner_body_step P c n R wc EK W) as [wc' [E1 W1]].
    exists (corner_st (P ++ [(c, n)]) wc'). eauto.
  - exists wc. rewrite E1. cbn [bind]. split; [|exact W]. unfold corner_st. cbn [cl_own cl_ghost cl_b cl_cell cl_node cl_cw cl_wc].
    rewrite !fill_full by (rewrite ?map_length, ?idxs_length; auto). reflexivity.
Qed.
End Corners.
