(** C52, C53 *)
From Coq Require Import String.
From Verif Require Import Base GeoModel.
Set Implicit Arguments.

(** ** C53: after ANY history of Add_Region calls on a new model, the lookups return the first accepted region with that
    name (id), and null if there is none; accepted = dimension not above the model's *)
Definition accepted (dim : nat) (r : region) : bool := rg_dim r <=? dim.

Lemma add_all_regions : forall l g, gm_dim (add_all g l) = gm_dim g /\ gm_regions (add_all g l) = gm_regions g ++ filter (accepted (gm_dim g)) l.
Proof.
  induction l as [|r l IH]; intros g; [cbn; rewrite app_nil_r; auto|].
  unfold add_all. cbn [fold_left filter]. fold (add_all (add_step g r) l). destruct (IH (add_step g r)) as [A B].
  unfold add_step, Add_Region in *. unfold accepted at 1.
  destruct (Nat.ltb_spec (gm_dim g) (rg_dim r)) as [H|H]; cbn [gm_dim gm_regions] in *; rewrite A, B.
  - split; auto. destruct (Nat.leb_spec (rg_dim r) (gm_dim g)); [lia|reflexivity].
  - split; auto. destruct (Nat.leb_spec (rg_dim r) (gm_dim g)); [|lia]. rewrite <- app_assoc. reflexivity.
Qed.
Lemma find_name_find l n : find_name l n = find (fun r => String.eqb (rg_name r) n) l.
Proof. induction l as [|r l IH]; cbn; auto. destruct (String.eqb (rg_name r) n); auto. Qed.
Lemma find_id_find l n : find_id l n = find (fun r => rg_id r =? n) l.
Proof. induction l as [|r l IH]; cbn; auto. destruct (rg_id r =? n); auto. Qed.
Lemma find_filter A (p q : A -> bool) l : find p (filter q l) = find (fun x => q x && p x) l.
Proof. induction l as [|x l IH]; cbn; auto. destruct (q x); cbn; [destruct (p x); auto|auto]. Qed.

Theorem c53_lookup_after_history : forall dim g l, new_model dim = Ok g ->
  (forall n, FindRegion_name (add_all g l) n = find (fun r => accepted dim r && String.eqb (rg_name r) n) l) /\
  (forall i, FindRegion_id (add_all g l) i = find (fun r => accepted dim r && (rg_id r =? i)) l) /\
  gm_regions (add_all g l) = filter (accepted dim) l.
Proof.
  intros dim g l E. unfold new_model in E. destruct (negb (dim =? 2) && negb (dim =? 3)); [discriminate|]. injection E as <-.
  destruct (add_all_regions l (GM dim [])) as [A B]. cbn in A, B.
  split; [|split; auto]; intros x.
  - unfold FindRegion_name. rewrite B, find_name_find, find_filter. reflexivity.
  - unfold FindRegion_id. rewrite B, find_id_find, find_filter. reflexivity.
Qed.
Print Assumptions c53_lookup_after_history.

(** in particular a newly added region with fresh name and id is found by both *)
Theorem c53_new_region_found : forall g r, rg_dim r <= gm_dim g -> FindRegion_name g (rg_name r) = None -> FindRegion_id g (rg_id r) = None ->
  exists g', Add_Region g r = Ok g' /\ FindRegion_name g' (rg_name r) = Some r /\ FindRegion_id g' (rg_id r) = Some r /\
    (forall n x, FindRegion_name g n = Some x -> FindRegion_name g' n = Some x) /\
    (forall i x, FindRegion_id g i = Some x -> FindRegion_id g' i = Some x).
Proof.
  intros g r H H1 H2. unfold Add_Region. destruct (Nat.ltb_spec (gm_dim g) (rg_dim r)); [lia|].
  eexists. split; [reflexivity|]. unfold FindRegion_name, FindRegion_id in *. cbn [gm_regions].
  assert (N : forall l n, find_name (l ++ [r]) n = match find_name l n with Some x => Some x | None => if String.eqb (rg_name r) n then Some r else None end).
  { induction l as [|x l IH]; intros n; cbn; auto. destruct (String.eqb (rg_name x) n); auto. }
  assert (I : forall l n, find_id (l ++ [r]) n = match find_id l n with Some x => Some x | None => if rg_id r =? n then Some r else None end).
  { induction l as [|x l IH]; intros n; cbn; auto. destruct (rg_id x =? n); auto. }
  split; [rewrite N, H1, String.eqb_refl; auto|]. split; [rewrite I, H2, Nat.eqb_refl; auto|].
  split; intros n x Hx; [rewrite N, Hx|rewrite I, Hx]; auto.
Qed.
Print Assumptions c53_new_region_found.

(** Finding: a two-dimensional model rejects every logical and labeled-set region (their dimension is fixed at 3) *)
Theorem c53_2d_logical_refuted : forall g n id, new_model 2 = Ok g ->
  Add_Region g (logical_region n id) = Thrown /\ Add_Region g (labeled_region n id) = Thrown.
Proof. intros g n id E. injection E as <-. split; reflexivity. Qed.
Print Assumptions c53_2d_logical_refuted.

Example c53_example : exists g, new_model 3 = Ok g /\
  FindRegion_name (add_all g [Region "a" 1 3 RBox; Region "b" 2 4 RBox; Region "a" 3 2 RPlane; logical_region "l" 7]) "a" = Some (Region "a" 1 3 RBox) /\
  FindRegion_id (add_all g [Region "a" 1 3 RBox; Region "b" 2 4 RBox; Region "a" 3 2 RPlane; logical_region "l" 7]) 2 = None.
Proof. eexists. repeat (split; [reflexivity|]). reflexivity. Qed.

(** ** C52 *)
(** the list constructor: what a user expects *)
Theorem c52_list_constructor_refuted : forall dim ms rs, new_domain_list dim ms rs = Thrown.
Proof.
  intros dim ms rs. unfold new_domain_list. destruct (Nat.eqb_spec dim 2) as [->|]; [reflexivity|].
  destruct (Nat.eqb_spec dim 3); reflexivity.
Qed.
Print Assumptions c52_list_constructor_refuted.

(** the same domain can be built step by step: for dimension 2 or 3, matching models and regions of at most that dimension *)
Fixpoint add_models (d : domain) (ms : list geo_model) : outcome domain :=
  match ms with [] => Ok d | g :: r => d' <- Add_Geometric_Model d g ;; add_models d' r end.
Fixpoint add_regions (d : domain) (rs : list region) : outcome domain :=
  match rs with [] => Ok d | g :: r => d' <- Add_Free_Region d g ;; add_regions d' r end.
Theorem c52_incremental_partial : forall dim ms rs, dim = 2 \/ dim = 3 ->
  (forall g, In g ms -> gm_dim g = dim) -> (forall r, In r rs -> rg_dim r <= dim) ->
  (d <- new_domain dim ;; d <- add_models d ms ;; add_regions d rs) = Ok (Dom dim ms rs).
Proof.
  intros dim ms rs Hd Hm Hr.
  assert (E : new_domain dim = Ok (Dom dim [] [])) by (destruct Hd as [->| ->]; reflexivity). rewrite E; cbn [bind].
  assert (M : forall ms acc fr, (forall g, In g ms -> gm_dim g = dim) -> add_models (Dom dim acc fr) ms = Ok (Dom dim (acc ++ ms) fr)).
  { induction ms0 as [|g ms0 IH]; intros acc fr H; cbn [add_models]; [rewrite app_nil_r; auto|].
    unfold Add_Geometric_Model; cbn [dom_dim dom_models dom_free]. rewrite (H g) by (left; auto). rewrite Nat.eqb_refl. cbn [negb bind].
    rewrite IH by (intros; apply H; right; auto). rewrite <- app_assoc. reflexivity. }
  assert (F : forall rs ms acc, (forall r, In r rs -> rg_dim r <= dim) -> add_regions (Dom dim ms acc) rs = Ok (Dom dim ms (acc ++ rs))).
  { induction rs0 as [|r rs0 IH]; intros m acc H; cbn [add_regions]; [rewrite app_nil_r; auto|].
    unfold Add_Free_Region; cbn [dom_dim dom_models dom_free]. pose proof (H r (or_introl eq_refl)).
    destruct (Nat.ltb_spec dim (rg_dim r)); [lia|]. cbn [bind].
    rewrite IH by (intros; apply H; right; auto). rewrite <- app_assoc. reflexivity. }
  rewrite M by auto. cbn [bind]. rewrite F by auto. reflexivity.
Qed.
Print Assumptions c52_incremental_partial.

(** other dimensions and mismatched parts are rejected *)
Theorem c52_rejects : (forall dim, dim <> 2 -> dim <> 3 -> new_domain dim = Thrown) /\
  (forall d g, gm_dim g <> dom_dim d -> Add_Geometric_Model d g = Thrown) /\
  (forall d r, dom_dim d < rg_dim r -> Add_Free_Region d r = Thrown).
Proof.
  split; [|split].
  - intros dim H2 H3. unfold new_domain. destruct (Nat.ltb_spec dim 2); [reflexivity|]. destruct (Nat.ltb_spec 3 dim); [reflexivity|lia].
  - intros d g H. unfold Add_Geometric_Model. destruct (Nat.eqb_spec (dom_dim d) (gm_dim g)); [congruence|reflexivity].
  - intros d r H. unfold Add_Free_Region. destruct (Nat.ltb_spec (dom_dim d) (rg_dim r)); [reflexivity|lia].
Qed.
Print Assumptions c52_rejects.

(** the copy constructor copies everything *)
Theorem c52_copy : forall d, copy_domain d = Ok d.
Proof.
  intros [dim ms rs]. unfold copy_domain. cbn [dom_models dom_free dom_dim].
  assert (H : forall A (l : list A) n i acc, n = length l - i -> i <= length l -> acc = firstn i l ->
     copy_list (fun j => rd l j) n i acc = Ok l).
  { intros A l. induction n as [|n IH]; intros i acc Hn Hi ->; cbn [copy_list].
    - replace i with (length l) by lia. rewrite firstn_all. reflexivity.
    - destruct (nth_error l i) as [x|] eqn:E; [|apply nth_error_None in E; lia].
      unfold rd. rewrite E. cbn [bind]. apply IH; [lia|lia|].
      clear -E. revert i E. induction l as [|y l IHl]; intros [|i] E; cbn in *; try discriminate; [injection E as ->; auto|]. f_equal; auto. }
  unfold Geometric_Model_i, Free_Region_i; cbn [dom_models dom_free]. rewrite H by (cbn; auto; lia). cbn [bind]. rewrite H by (cbn; auto; lia). reflexivity.
Qed.
Print Assumptions c52_copy.

Example c52_example : exists g, new_model 3 = Ok g /\ (d <- new_domain 3 ;; d <- add_models d [g] ;; add_regions d [Region "a" 1 3 RBox]) = Ok (Dom 3 [g] [Region "a" 1 3 RBox]).
Proof. eexists. split; reflexivity. Qed.
