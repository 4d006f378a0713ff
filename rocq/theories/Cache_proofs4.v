(** Sides in 1D. *)
From Coq Require Import Permutation.
From Verif Require Import Base Loop Defs Factory Cache Cache_spec Cache_proofs Cache_proofs2 Cache_proofs3.
Set Implicit Arguments.

Definition cty (v : list entity_type) (ty : entity_type) (c : nat) : bool := type_eqb (ctype_of v c) ty.
Lemma type_eqb_true a b : type_eqb a b = true <-> a = b.
Proof. unfold type_eqb. destruct (type_eq_dec a b); split; congruence. Qed.

Lemma filter_true A (p : A -> bool) l : (forall x, In x l -> p x = true) -> filter p l = l.
Proof. induction l as [|x l IH]; simpl; intros H; auto. rewrite H by auto. f_equal; auto. Qed.
Lemma filter_false A (p : A -> bool) l : (forall x, In x l -> p x = false) -> filter p l = [].
Proof. induction l as [|x l IH]; simpl; intros H; auto. rewrite H by auto. auto. Qed.

Lemma typed_lists t v : numbered t -> typed t v ->
  filter (cty v PARALLEL_OWNED) (cells_all t) = cells_owned t /\
  filter (cty v PARALLEL_GHOST) (cells_all t) = cells_ghost t /\
  filter (cty v BOUNDARY_GHOST) (cells_all t) = cells_bghost t.
Proof.
  intros N [L H].
  assert (ND := cells_all_NoDup N).
  assert (D1 := fun x => @NoDup_app_disj _ _ _ x ND).
  assert (D2 := fun x => @NoDup_app_disj _ _ _ x (NoDup_app_r _ _ ND)).
  assert (HC : forall c ty, In c (cells_all t) -> cell_has_type t c ty -> ctype_of v c = ty).
  { intros c ty Hc Ht. apply cells_all_lt in Hc; auto. specialize (H c Hc).
    destruct H as [[-> H]|[[-> H]|[-> H]]], Ht as [[-> H']|[[-> H']|[-> H']]]; auto; exfalso;
      first [apply (D2 c); assumption | apply (D1 c); [assumption | apply in_app_iff; auto]]. }
  assert (T : forall c ty ty', In c (cells_all t) -> cell_has_type t c ty -> cty v ty' c = type_eqb ty ty').
  { intros c ty ty' Hc Ht. unfold cty. rewrite (HC _ _ Hc Ht). auto. }
  assert (IO : forall c, In c (cells_owned t) -> In c (cells_all t)) by (intros; apply in_app_iff; auto).
  assert (IG : forall c, In c (cells_ghost t) -> In c (cells_all t)) by (intros; apply in_app_iff; right; apply in_app_iff; auto).
  assert (IB : forall c, In c (cells_bghost t) -> In c (cells_all t)) by (intros; apply in_app_iff; right; apply in_app_iff; auto).
  assert (HO : forall c, In c (cells_owned t) -> cell_has_type t c PARALLEL_OWNED) by (unfold cell_has_type; auto).
  assert (HG : forall c, In c (cells_ghost t) -> cell_has_type t c PARALLEL_GHOST) by (unfold cell_has_type; auto).
  assert (HB : forall c, In c (cells_bghost t) -> cell_has_type t c BOUNDARY_GHOST) by (unfold cell_has_type; auto 6).
  unfold cells_all. rewrite !filter_app.
  split; [|split].
  - rewrite (filter_true _ (cells_owned t)), (filter_false _ (cells_ghost t)), (filter_false _ (cells_bghost t)), app_nil_r; auto;
      intros c Hc; erewrite T by eauto; reflexivity.
  - rewrite (filter_false _ (cells_owned t)), (filter_true _ (cells_ghost t)), (filter_false _ (cells_bghost t)), app_nil_r; auto;
      intros c Hc; erewrite T by eauto; reflexivity.
  - rewrite (filter_false _ (cells_owned t)), (filter_false _ (cells_ghost t)), (filter_true _ (cells_bghost t)); auto;
      intros c Hc; erewrite T by eauto; reflexivity.
Qed.

Lemma wr_fill2' A n (d : A) l i x y : i = length l -> S (length l) < n ->
  wr_all [(i, x); (i + 1, y)] (fill n d l) = Ok (fill n d (l ++ [x; y])).
Proof.
  intros -> H. unfold wr_all. cbn [foldM fst snd]. rewrite wr_fill by (auto; lia). cbn [bind].
  rewrite wr_fill by (rewrite app_length; simpl; lia). cbn [bind]. rewrite <- app_assoc. auto.
Qed.
Lemma wr_wr_fill n l i x y : i = length l -> S (length l) < n ->
  (a <- wr (fill n 0 l) i x ;; wr a (S i) y) = Ok (fill n 0 (l ++ [x; y])).
Proof.
  intros -> H. rewrite wr_fill by (auto; lia). cbn [bind].
  rewrite wr_fill by (rewrite app_length; simpl; lia). rewrite <- app_assoc. auto.
Qed.

Lemma seq_prefix n P x R : seq 0 n = P ++ x :: R -> P = seq 0 (length P) /\ x = length P /\ length P < n.
Proof.
  intros E. assert (L : length P < n). { rewrite <- (seq_length n 0), E, app_length. simpl. lia. }
  assert (Hx : x = length P).
  { assert (H : nth_error (seq 0 n) (length P) = Some x) by (rewrite E; apply nth_error_mid; auto).
    apply nth_error_seq_Some in H. lia. }
  split; [|auto]. apply nth_error_ext. intros i. destruct (le_lt_dec (length P) i) as [Hi|Hi].
  - rewrite (proj2 (nth_error_None _ _)) by auto. symmetry. apply nth_error_None. rewrite seq_length. auto.
  - assert (H : nth_error (seq 0 n) i = nth_error P i) by (rewrite E; apply nth_error_app1; auto).
    rewrite <- H. fold (tab n (fun x => x)).
    assert (G : forall m, i < m -> nth_error (seq 0 m) i = Some i).
    { intros m Hm. rewrite (nth_error_nth' _ 0) by (rewrite seq_length; auto). rewrite seq_nth; auto. }
    rewrite !G; auto. lia.
Qed.

Definition lt2 (c : nat) : list trip := [(c, (c, 1%Z), (c, (-1)%Z)); (c, (c + 1, 1%Z), (c + 1, (-1)%Z))].
Lemma trips_line t : trips t line_shape = flat_map lt2 (cells_all t).
Proof. reflexivity. Qed.
Lemma length_lt2 l : length (flat_map lt2 l) = 2 * length l.
Proof. induction l as [|x l IH]; simpl; auto. rewrite IH. lia. Qed.
Lemma nth_lt2 n i : i < 2 * n -> nth_error (flat_map lt2 (seq 0 n)) i =
  Some (i / 2, (i / 2 + i mod 2, 1%Z), (i / 2 + i mod 2, (-1)%Z)).
Proof.
  induction n as [|n IH]; intros H; [lia|]. rewrite seq_S, flat_map_app. simpl (flat_map lt2 [0 + n]).
  destruct (le_lt_dec (2 * n) i) as [L|L].
  - rewrite nth_error_app2 by (rewrite length_lt2, seq_length; auto). rewrite length_lt2, seq_length.
    assert (E : i = 2 * n \/ i = 2 * n + 1) by lia. destruct E as [->| ->].
    + rewrite Nat.sub_diag. replace (2 * n / 2) with n by lia. replace ((2 * n) mod 2) with 0 by lia. rewrite Nat.add_0_r. reflexivity.
    + replace (2 * n + 1 - 2 * n) with 1 by lia. replace ((2 * n + 1) / 2) with n by lia. replace ((2 * n + 1) mod 2) with 1 by lia. reflexivity.
  - rewrite nth_error_app1 by (rewrite length_lt2, seq_length; auto). apply IH. auto.
Qed.
Lemma seq_w2 n : flat_map w2 (seq 0 n) = seq 0 (2 * n).
Proof.
  induction n as [|n IH]; auto. rewrite seq_S, flat_map_app, IH. replace (2 * S n) with (S (S (2 * n))) by lia.
  rewrite !seq_S, <- app_assoc. unfold w2. simpl. replace (n + (n + 0) + 1) with (S (n + (n + 0))) by lia. reflexivity.
Qed.
Lemma idxs_lt2 (p : trip -> bool) (q : nat -> bool) n :
  (forall c x, In x (lt2 c) -> p x = q c) -> idxs p (flat_map lt2 (seq 0 n)) = flat_map w2 (filter q (seq 0 n)).
Proof.
  intros H. induction n as [|n IH]; auto. rewrite seq_S, flat_map_app, filter_app, flat_map_app, <- IH.
  change (flat_map lt2 [0 + n]) with ([(n, (n, 1%Z), (n, (-1)%Z))] ++ [(n, (n + 1, 1%Z), (n + 1, (-1)%Z))]).
  rewrite app_assoc, !idxs_snoc, app_length, length_lt2, seq_length. cbn [length filter].
  rewrite (H n (n, (n, 1%Z), (n, (-1)%Z))) by (left; auto). rewrite (H n (n, (n + 1, 1%Z), (n + 1, (-1)%Z))) by (right; left; auto).
  change (0 + n) with n. destruct (q n); simpl; rewrite <- app_assoc; auto. 
Qed.

Definition opp1 (N c : nat) : list Z :=
  [if 2 * c =? 0 then (-1)%Z else (Z.of_nat (2 * c) - 1)%Z;
   if (Z.of_nat (2 * c + 1) =? Z.of_nat N - 1)%Z then (-1)%Z else (Z.of_nat (2 * c) + 2)%Z].
Lemma length_opp1 N l : length (flat_map (opp1 N) l) = 2 * length l.
Proof. induction l as [|x l IH]; simpl; auto. rewrite IH. lia. Qed.
Lemma nth_opp1 N n i : i < 2 * n -> nth_error (flat_map (opp1 N) (seq 0 n)) i =
  Some (if i mod 2 =? 0 then if i =? 0 then (-1)%Z else (Z.of_nat i - 1)%Z
        else if (Z.of_nat i =? Z.of_nat N - 1)%Z then (-1)%Z else (Z.of_nat i + 1)%Z).
Proof.
  induction n as [|n IH]; intros H; [lia|]. rewrite seq_S, flat_map_app. cbn [flat_map]. rewrite app_nil_r. change (0 + n) with n.
  destruct (le_lt_dec (2 * n) i) as [L|L].
  - rewrite nth_error_app2 by (rewrite length_opp1, seq_length; auto). rewrite length_opp1, seq_length.
    assert (E : i = 2 * n \/ i = 2 * n + 1) by lia. destruct E as [->| ->].
    + rewrite Nat.sub_diag. replace ((2 * n) mod 2) with 0 by lia. reflexivity.
    + replace (2 * n + 1 - 2 * n) with 1 by lia. replace ((2 * n + 1) mod 2) with 1 by lia. unfold opp1. cbn [nth_error].
      change (1 =? 0) with false. cbn iota. destruct (Z.eqb_spec (Z.of_nat (2 * n + 1)) (Z.of_nat N - 1)); [auto|]. f_equal. lia.
  - rewrite nth_error_app1 by (rewrite length_opp1, seq_length; auto). apply IH. auto.
Qed.

Lemma mates_line n i j : mates (flat_map lt2 (seq 0 n)) i j <->
  (i < 2 * n /\ j < 2 * n /\ (i mod 2 = 0 /\ S j = i \/ j mod 2 = 0 /\ S i = j)).
Proof.
  unfold mates, same_fe. split.
  - intros [x [y [Hi [Hj [[F E] C]]]]]. assert (Li := nth_error_lt _ _ Hi). assert (Lj := nth_error_lt _ _ Hj).
    rewrite length_lt2, seq_length in Li, Lj. rewrite nth_lt2 in Hi, Hj by auto.
    assert (Fx : tface x = i / 2 + i mod 2 /\ tcell x = i / 2) by (apply (f_equal (fun o => match o with Some a => a | None => x end)) in Hi; rewrite <- Hi; split; reflexivity).
    assert (Fy : tface y = j / 2 + j mod 2 /\ tcell y = j / 2) by (apply (f_equal (fun o => match o with Some a => a | None => y end)) in Hj; rewrite <- Hj; split; reflexivity).
    clear Hi Hj E. lia.
  - intros [Li [Lj H]]. eexists _, _. rewrite !nth_lt2 by auto. split; [reflexivity|]. split; [reflexivity|].
    unfold tface, tcell, tedge. cbn [fst snd]. lia.
Qed.

Lemma opp1_ok n : opp_ok (flat_map lt2 (seq 0 n)) (flat_map (opp1 (2 * n)) (seq 0 n)).
Proof.
  split; [rewrite length_opp1, length_lt2; auto|]. intros i Hi. rewrite length_lt2, seq_length in Hi.
  rewrite nth_opp1 by auto.
  destruct (Nat.eqb_spec (i mod 2) 0) as [E|E].
  - destruct (Nat.eqb_spec i 0) as [->|N0].
    + right. split; auto. intros j M. apply mates_line in M. lia.
    + left. exists (i - 1). split; [f_equal; lia|]. apply mates_line. lia.
  - destruct (Z.eqb_spec (Z.of_nat i) (Z.of_nat (2 * n) - 1)) as [E2|N2].
    + right. split; auto. intros j M. apply mates_line in M. lia.
    + left. exists (i + 1). split; [f_equal; lia|]. apply mates_line. lia.
Qed.

Theorem cache_side_info_1d_spec t v : line_mesh t -> typed t v ->
  exists opp, cache_side_info_1d t v = Ok (final_info t v (enodes' t line_shape) (trips t line_shape) opp) /\ opp_ok (trips t line_shape) opp.
Proof.
  intros LM HT. set (n := ncells t). exists (flat_map (opp1 (2 * n)) (seq 0 n)).
  rewrite trips_line, (ln_cells LM). fold n. split; [|apply opp1_ok].
  assert (Lv : length v = n) by (destruct HT; auto).
  destruct (typed_lists (ln_numbered LM) HT) as [TO [TG TB]]. rewrite (ln_cells LM) in TO, TG, TB. fold n in TO, TG, TB.
  unfold cache_side_info_1d. fold n. rewrite (ln_cells LM). fold n.
  set (NO := 2 * length (cells_owned t)). set (NG := 2 * length (cells_ghost t)). set (NB := 2 * length (cells_bghost t)).
  set (g1 := fun c : nat => [(c, c); (c + 1, c + 1)]).
  set (f1 := fun c : nat => [c; c + 1]).
  set (h1 := fun c : nat => [c; c]).
  set (st := fun P => SideLoop (SideInfo (fill (2 * n) 0 (flat_map w2 P)) (fill NO 0 (flat_map w2 (filter (cty v PARALLEL_OWNED) P)))
     (fill NG 0 (flat_map w2 (filter (cty v PARALLEL_GHOST) P))) (fill NB 0 (flat_map w2 (filter (cty v BOUNDARY_GHOST) P)))
     (fill (2 * n) 0 (flat_map f1 P)) (repeat true (2 * n)) (fill (2 * n) 0 (flat_map f1 P)) (fill (2 * n) 0 (flat_map h1 P))
     (fill (2 * n) (-1)%Z (flat_map (opp1 (2 * n)) P)) (fill (2 * n) (0,0) (flat_map g1 P))
     (tab n (fun c => if c <? length P then w2 c else []))) [] 0 (length (flat_map w2 P))
     (length (flat_map w2 (filter (cty v PARALLEL_OWNED) P))) (length (flat_map w2 (filter (cty v PARALLEL_GHOST) P)))
     (length (flat_map w2 (filter (cty v BOUNDARY_GHOST) P)))).
  assert (L2 : forall A (g : nat -> list A) l, (forall c, length (g c) = 2) -> length (flat_map g l) = 2 * length l).
  { intros A g l Hg. induction l as [|x l IH]; simpl; auto. rewrite app_length, Hg, IH. lia. }
  destruct (@foldM_inv _ _ (side_body_1d t v (2 * n)) (fun P s => s = st P) (seq 0 n)
     (SideLoop (side_init t (2 * n, NO, NG, NB)) [] 0 0 0 0 0)) as [s' [E ->]].
  - unfold st, side_init. cbn -[fill repeat tab]. rewrite !fill_nil. fold n. rewrite (repeat_tab n []). do 2 f_equal.
  - intros P c R s ES ->. eexists. split; [|reflexivity].
    destruct (@seq_prefix n P c R ES) as [EP [EC LC]]. subst c. set (c := length P) in *.
    unfold st at 1. unfold side_body_1d. cbn [sl_info sl_sideid sl_iall sl_iown sl_ighost sl_ibndry sl_soe
     side_node_ids side_edge_use side_edge_id side_face_id side_cell_id cell_side_ids sideids_all sideids_owned sideids_ghost sideids_bghost side_opp_side_id].
    rewrite (ln_cn LM) by auto. cbn [bind].
    rewrite push_at_tab by auto. cbn [bind]. rewrite push_at_tab by auto. cbn [bind].
    assert (LW : length (flat_map w2 P) = 2 * c) by apply flat_w2_length.
    rewrite wr_fill by (auto; lia). cbn [bind].
    rewrite wr_fill by (rewrite ?app_length, ?LW; simpl; lia). cbn [bind].
    rewrite ctype_of_rd by (unfold c; lia). cbn [bind].
    change (rd [c; c + 1] 0) with (Ok c). change (rd [c; c + 1] 1) with (Ok (c + 1)). cbn [bind].
    rewrite (@wr_fill2' _ (2 * n) (0,0)) by (rewrite L2 by reflexivity; unfold c in *; lia).
    rewrite (@wr_fill2' _ (2 * n) 0 (flat_map f1 P)) by (rewrite L2 by reflexivity; unfold c in *; lia).
    rewrite (@wr_fill2' _ (2 * n) 0 (flat_map h1 P)) by (rewrite L2 by reflexivity; unfold c in *; lia).
    rewrite (@wr_fill2' _ (2 * n) (-1)%Z) by (rewrite L2 by reflexivity; unfold c in *; lia).
    assert (IS : forall ty, cty v ty c = type_eqb (ctype_of v c) ty) by reflexivity.
    assert (Ty := typed_in HT LC).
    assert (LL : forall ty, type_eqb (ctype_of v c) ty = true ->
       S (length (flat_map w2 (filter (cty v ty) P))) < 2 * length (filter (cty v ty) (seq 0 n))).
    { intros ty Ht. rewrite flat_w2_length. assert (H := @filter_snoc_len _ (cty v ty) P c R (seq 0 n) ES). rewrite IS in H. specialize (H Ht). lia. }
    assert (ETab : tab n (fun j => ((if j <? c then w2 j else []) ++ (if j =? c then [2 * c] else [])) ++ (if j =? c then [2 * c + 1] else []))
       = tab n (fun j => if j <? length (P ++ [c]) then w2 j else [])).
    { apply tab_ext. intros j Hj. rewrite app_length. cbn [length]. fold c.
      destruct (Nat.ltb_spec j c), (Nat.eqb_spec j c) as [Ej|Ej], (Nat.ltb_spec j (c + 1)); try lia; try rewrite Ej; rewrite ?app_nil_r; auto. }
    fold c. rewrite ETab. unfold st. rewrite !flat_map_app, !filter_app. cbn [filter]. rewrite !IS. rewrite !flat_map_app.
    destruct (ctype_of v c) eqn:Ety; simpl in Ty; try (exfalso; intuition discriminate).
    + assert (L := LL PARALLEL_OWNED eq_refl). rewrite TO in L. fold NO in L.
      rewrite wr_fill by (auto; lia). cbn [bind]. rewrite wr_fill by (rewrite ?app_length; simpl; lia). cbn [bind fst snd].
      rewrite <- !app_assoc. cbn -[fill tab repeat Nat.mul opp1 w2]. rewrite !app_nil_r, ?app_length. reflexivity.
    + assert (L := LL PARALLEL_GHOST eq_refl). rewrite TG in L. fold NG in L.
      rewrite wr_fill by (auto; lia). cbn [bind]. rewrite wr_fill by (rewrite ?app_length; simpl; lia). cbn [bind fst snd].
      rewrite <- !app_assoc. cbn -[fill tab repeat Nat.mul opp1 w2]. rewrite !app_nil_r, ?app_length. reflexivity.
    + assert (L := LL BOUNDARY_GHOST eq_refl). rewrite TB in L. fold NB in L.
      rewrite wr_fill by (auto; lia). cbn [bind]. rewrite wr_fill by (rewrite ?app_length; simpl; lia). cbn [bind fst snd].
      rewrite <- !app_assoc. cbn -[fill tab repeat Nat.mul opp1 w2]. rewrite !app_nil_r, ?app_length. reflexivity.
  - rewrite E. cbn [bind]. unfold st. cbn [sl_info]. unfold final_info. f_equal.
    rewrite TO, TG, TB.
    rewrite !fill_full by (first [rewrite flat_w2_length | rewrite L2 by reflexivity]; rewrite ?seq_length; reflexivity).
    rewrite length_lt2, seq_length, seq_w2.
    assert (MP : forall A (g : trip -> A) (h : nat -> list A), (forall c, map g (lt2 c) = h c) -> map g (flat_map lt2 (seq 0 n)) = flat_map h (seq 0 n)).
    { intros A g h Hg. clear - Hg. induction (seq 0 n) as [|x l IH]; [reflexivity|]. cbn [flat_map]. rewrite map_app, IH, Hg. reflexivity. }
    assert (OR : forall c x, In x (lt2 c) -> orient t (enodes' t line_shape) x = ((tedge x, tedge x), true)).
    { intros c x Hx. unfold orient, enodes'. rewrite (ln_dim LM). cbn. destruct Hx as [<-|[<-|[]]]; reflexivity. }
    f_equal.
    + rewrite (@idxs_lt2 _ (cty v PARALLEL_OWNED)); [congruence|]. intros c x [<-|[<-|[]]]; reflexivity.
    + rewrite (@idxs_lt2 _ (cty v PARALLEL_GHOST)); [congruence|]. intros c x [<-|[<-|[]]]; reflexivity.
    + rewrite (@idxs_lt2 _ (cty v BOUNDARY_GHOST)); [congruence|]. intros c x [<-|[<-|[]]]; reflexivity.
    + symmetry. apply MP. reflexivity.
    + transitivity (flat_map (fun _ : nat => [true; true]) (seq 0 n)).
      * clear. induction n as [|m IH]; auto. rewrite seq_S, flat_map_app, <- IH. replace (2 * S m) with (2 * m + 2) by lia.
        rewrite repeat_app. reflexivity.
      * symmetry. apply MP. intros c. cbn [map lt2]. rewrite !(OR c) by (simpl; auto). reflexivity.
    + symmetry. apply MP. reflexivity.
    + symmetry. apply MP. reflexivity.
    + symmetry. apply MP. intros c. cbn [map lt2]. rewrite !(OR c) by (simpl; auto). reflexivity.
    + apply tab_ext. intros c Hc. fold n in Hc. destruct (Nat.ltb_spec c n) as [_|]; [|lia].
      rewrite (@idxs_lt2 _ (fun c' => c' =? c)) by (intros c' x [<-|[<-|[]]]; reflexivity).
      assert (F : filter (fun c' => c' =? c) (seq 0 n) = [c]).
      { clear - Hc. clearbody n. induction n as [|m IH]; [lia|]. rewrite seq_S, filter_app. simpl.
        destruct (Nat.eqb_spec m c) as [->|Nm].
        - rewrite filter_false; auto. intros x Hx. apply in_seq in Hx. apply Nat.eqb_neq. lia.
        - rewrite IH by lia. auto. }
      rewrite F. reflexivity.
Qed.

Lemma line_connectivity t : line_mesh t -> connectivity t line_shape.
Proof.
  intros LM. constructor; simpl.
  - intros c f d Hc [E|[E|[]]]; injection E as <- <-; (split; [rewrite (ln_faces LM); lia|left; auto]).
  - intros c _. constructor; [|constructor; [simpl; tauto|constructor]]. intros [H|[]]; lia.
  - intros f e d Hf [E|[]]. injection E as <- <-. rewrite (ln_faces LM) in Hf. rewrite (ln_edges LM). split; [auto|right; auto].
  - intros f _. constructor; [simpl; tauto|constructor].
  - intros c1 c2 c3 f _ _ _. unfold face_of. simpl. lia.
Qed.
