From Coq Require Import String Permutation.
From Verif Require Import Base Loop Defs MeshSet MeshSet_spec MeshSet_proofs State State_spec.
Set Implicit Arguments.

(** ** Booleans *)
Lemma kind_eqb_iff a b : kind_eqb a b = true <-> a = b.
Proof. unfold kind_eqb. destruct (kind_eq_dec a b); intuition congruence. Qed.
Lemma type_eqb_iff a b : type_eqb a b = true <-> a = b.
Proof. unfold type_eqb. destruct (type_eq_dec a b); intuition congruence. Qed.
Lemma vtype_eqb_iff a b : vtype_eqb a b = true <-> a = b.
Proof. destruct a, b; simpl; intuition congruence. Qed.
Lemma dtype_eqb_iff a b : dtype_eqb a b = true <-> a = b.
Proof. destruct a, b; simpl; try (intuition congruence). rewrite Nat.eqb_eq. intuition congruence. Qed.
Lemma dom_eqb_iff a b : dom_eqb a b = true <-> a = b.
Proof. destruct a, b; simpl; try (intuition congruence); rewrite Nat.eqb_eq; intuition congruence. Qed.
Lemma meta_match_iff name kind ty v : meta_match name kind ty v = true <-> described name kind ty v.
Proof.
  unfold meta_match, described. rewrite !andb_true_iff, !orb_true_iff, !kind_eqb_iff, !type_eqb_iff, String.eqb_eq. tauto.
Qed.
Lemma matches_iff k v : matches k v = true <-> answers k v.
Proof. unfold matches, answers. rewrite !andb_true_iff, meta_match_iff, vtype_eqb_iff, dtype_eqb_iff, dom_eqb_iff. tauto. Qed.

(** ** find_first *)
Lemma find_first_Some p l i : find_first p l = Some i <-> first_at (fun v => p v = true) l i.
Proof.
  revert i. induction l as [|a l IH]; intros i; simpl.
  - split; [discriminate|]. intros [[v [H _]] _]. destruct i; discriminate.
  - destruct (p a) eqn:E.
    + split.
      * intros H. injection H as <-. split; [exists a; auto|]. intros j v Hj. lia.
      * intros [_ H]. destruct i; auto. exfalso. apply (H 0 a); auto. lia.
    + split.
      * destruct (find_first p l) as [j|] eqn:F; [|discriminate]. intros H. injection H as <-.
        destruct (proj1 (IH j) eq_refl) as [[v [H1 H2]] H3]. split; [exists v; auto|]. intros [|k] w Hk Hw; simpl in Hw; [congruence|]. apply (H3 k w); auto. lia.
      * intros [[v [H1 H2]] H3]. destruct i as [|i]; simpl in H1; [congruence|].
        assert (F : find_first p l = Some i). { apply IH. split; [exists v; auto|]. intros j w Hj Hw. apply (H3 (S j) w); auto. lia. }
        rewrite F. auto.
Qed.
Lemma find_first_None p l : find_first p l = None <-> forall v, In v l -> p v = false.
Proof.
  induction l as [|a l IH]; simpl; [intuition|]. destruct (p a) eqn:E.
  - split; [discriminate|]. intros H. specialize (H a (or_introl eq_refl)). congruence.
  - destruct (find_first p l); split; try discriminate.
    + intros H. exfalso. assert (Q : Some n = None) by (apply IH; auto). discriminate.
    + intros _ v [<-|Hv]; auto. apply IH; auto.
    + intros _. reflexivity.
Qed.
Lemma find_first_app p l1 l2 : find_first p (l1 ++ l2) =
  match find_first p l1 with Some i => Some i | None => option_map (Nat.add (length l1)) (find_first p l2) end.
Proof.
  induction l1 as [|a l1 IH]; simpl; [destruct (find_first p l2); auto|]. destruct (p a); auto. rewrite IH.
  destruct (find_first p l1); auto. destruct (find_first p l2); auto.
Qed.
Lemma first_at_ext A (P Q : A -> Prop) l i : (forall v, P v <-> Q v) -> first_at P l i <-> first_at Q l i.
Proof. intros H. unfold first_at. split; intros [[v [H1 H2]] H3]; (split; [exists v; split; auto; apply H; auto|intros j w Hj Hw Hn; apply (H3 j w Hj Hw), H; auto]). Qed.
Lemma find_t_Some st k i : find_t st k = Some i <-> first_at (answers k) (st_vecs st) i.
Proof. unfold find_t. rewrite find_first_Some. apply first_at_ext. intros. apply matches_iff. Qed.
Lemma find_t_None st k : find_t st k = None <-> forall v, In v (st_vecs st) -> ~ answers k v.
Proof.
  unfold find_t. rewrite find_first_None. split; intros H v Hv.
  - intros A. apply matches_iff in A. specialize (H v Hv). congruence.
  - specialize (H v Hv). rewrite <- matches_iff in H. destruct (matches k v); congruence.
Qed.

(** ** store and add *)
Definition new_vec (k : key) (p : nat) : svec := SVec (k_name k) (k_dom k) (k_kind k) (k_type k) (k_vt k) (k_dt k) p.
Lemma vkey_new k p : vkey (new_vec k p) = k. Proof. destruct k; reflexivity. Qed.
Lemma answers_self k p : answers k (new_vec k p).
Proof. repeat split; auto. Qed.
(** what every successful add that stores a new vector does *)
Record stored (e : env) (st st' : state) (r : request) (pl : payload) : Prop := {
  sd_vecs : st_vecs st' = st_vecs st ++ [new_vec (stored_key e r) (match pl with PUni _ => length (st_uni st) | PMulti _ => length (st_multi st) end)];
  sd_names : st_names st' = st_names st ++ [k_name (stored_key e r)];
  sd_idx : push_index (st_idx st) (k_kind (stored_key e r)) (if match r with RVal _ _ | RCopy _ => false | _ => true end
             then Z.of_nat (length (st_vecs st)) - 1 else Z.of_nat (length (st_vecs st)))%Z = Ok (st_idx st');
  sd_mats : st_mats st' = st_mats st; sd_cm : st_cellmats st' = st_cellmats st; sd_sets : st_sets st' = st_sets st;
  sd_uni : st_uni st' = match pl with PUni l => st_uni st ++ [l] | _ => st_uni st end;
  sd_multi : st_multi st' = match pl with PMulti l => st_multi st ++ [l] | _ => st_multi st end;
  sd_pl : match k_vt (stored_key e r) with UNIVAL => exists l, pl = PUni l | MULTIVAL => exists l, pl = PMulti l end }.
(** the contents given to a new vector *)
Definition content (e : env) (st : state) (r : request) : outcome payload :=
  match r with
  | RNone k => Ok (match k_vt k with UNIVAL => PUni (repeat 0%Z (size_of e k)) | MULTIVAL => PMulti (multi_alloc st) end)
  | RPtr k d => l <- uni_data (size_of e k) d ;; Ok (PUni l)
  | RArr k lay d => rows <- match d with None => Ok (multi_alloc st) | Some d => multi_data st lay d end ;; Ok (PMulti rows)
  | RVal k x => Ok (match k_vt k with UNIVAL => PUni (repeat x (size_of e k)) | MULTIVAL => PMulti (multi_val st x) end)
  | RCopy v => src <- rd (st_uni st) (sv_data v) ;;
      match sv_dom v with
      | OnMesh m => if m =? e_mesh e then Ok (PUni src)
                    else l <- uni_data (size_of e (stored_key e r)) (Some src) ;; Ok (PUni l)
      | _ => UB end
  end.
Lemma store_spec e st r early pl st' i k : k = stored_key e r ->
  early = (match r with RVal _ _ | RCopy _ => false | _ => true end) ->
  match k_vt k with UNIVAL => exists l, pl = PUni l | MULTIVAL => exists l, pl = PMulti l end ->
  store st k early pl = Ok (st', i) -> stored e st st' r pl /\ i = length (st_vecs st).
Proof.
  intros -> -> HP E. unfold store in E. apply bind_Ok in E as [idx [E1 E2]]. injection E2 as <- <-. split; auto.
  constructor; cbn [st_vecs st_names st_idx st_mats st_cellmats st_sets st_uni st_multi]; auto.
Qed.
Lemma add_cases e st r st' i : compiles r -> add e st r = Ok (st', i) ->
  (find_t st (key_of r) = Some i /\ st' = st) \/
  (find_t st (key_of r) = None /\ i = length (st_vecs st) /\ exists pl, content e st r = Ok pl /\ stored e st st' r pl).
Proof.
  intros C E. unfold add in E. destruct (find_t st (key_of r)) as [j|] eqn:F; [left; injection E as <- <-; auto|right]. split; auto.
  destruct r as [k|k d|k lay d|k x|v]; cbn [key_of stored_key content] in *.
  - destruct (k_vt k) eqn:V; apply (@store_spec e st (RNone k)) in E as [S ->]; auto; try (cbn; rewrite V; eauto).
    + split; auto. exists (PUni (repeat 0%Z (size_of e k))). auto.
    + split; auto. exists (PMulti (multi_alloc st)). auto.
  - simpl in C. apply bind_Ok in E as [l [E1 E2]]. apply (@store_spec e st (RPtr k d)) in E2 as [S ->]; auto; [|cbn; rewrite C; eauto].
    split; auto. rewrite E1. exists (PUni l). auto.
  - simpl in C. apply bind_Ok in E as [l [E1 E2]]. apply (@store_spec e st (RArr k lay d)) in E2 as [S ->]; auto; [|cbn; rewrite C; eauto].
    split; auto. rewrite E1. exists (PMulti l). auto.
  - destruct (k_vt k) eqn:V; apply (@store_spec e st (RVal k x)) in E as [S ->]; auto; try (cbn; rewrite V; eauto).
    + split; auto. exists (PUni (repeat x (size_of e k))). auto.
    + split; auto. exists (PMulti (multi_val st x)). auto.
  - destruct C as [C [m D]]. rewrite C, D in *. apply bind_Ok in E as [src [E1 E2]]. rewrite E1. cbn [bind].
    destruct (Nat.eqb_spec m (e_mesh e)) as [->|N].
    + apply (@store_spec e st (RCopy v)) in E2 as [S ->]; auto; [|cbn; unfold vkey; rewrite D; reflexivity|cbn; rewrite C; eauto].
      split; auto. exists (PUni src). auto.
    + apply bind_Ok in E2 as [l [E2 E3]]. apply (@store_spec e st (RCopy v)) in E3 as [S ->]; auto; [|cbn; rewrite C; reflexivity|cbn; eauto].
      split; auto. cbn [stored_key] in *. rewrite E2. exists (PUni l). auto.
Qed.
Lemma stored_new e st st' r pl : stored e st st' r pl -> nth_error (st_vecs st') (length (st_vecs st)) =
  Some (new_vec (stored_key e r) (match pl with PUni _ => length (st_uni st) | PMulti _ => length (st_multi st) end)).
Proof. intros S. rewrite (sd_vecs S). apply nth_error_mid. auto. Qed.
Lemma own_stored_key e r : own_mesh e r -> stored_key e r = key_of r.
Proof. destruct r; auto. simpl. unfold vkey. intros ->. auto. Qed.

(** ** Operations other than add leave the stored vectors in place *)
Record frame (st st' : state) : Prop := {
  fr_vecs : st_vecs st' = st_vecs st; fr_idx : st_idx st' = st_idx st; fr_names : st_names st' = st_names st;
  fr_uni : length (st_uni st) <= length (st_uni st'); fr_multi : length (st_multi st') = length (st_multi st) }.
Lemma foldM_len A B (f : A -> list B -> outcome (list B)) l s s' : (forall a x y, f a x = Ok y -> length y = length x) ->
  foldM l f s = Ok s' -> length s' = length s.
Proof.
  intros H. revert s. induction l as [|a l IH]; simpl; intros s E; [congruence|]. apply bind_Ok in E as [x [E1 E2]].
  rewrite (IH _ E2). eapply H; eauto.
Qed.
Lemma wr_len A (l l' : list A) i x : wr l i x = Ok l' -> length l' = length l.
Proof. intros E. apply wr_Ok in E as [_ ->]. apply set_nth_length. Qed.
Lemma for_multi_len st f tile mb mb' : (forall x y, tile x = Ok y -> length y = length x) -> for_multi st f tile mb = Ok mb' -> length mb' = length mb.
Proof.
  intros H. unfold for_multi. apply foldM_len. intros v x y E. destruct (sv_vt v); [congruence|]. destruct (sv_dom v); [|eauto].
  apply bind_Ok in E as [rows [E1 E]]. apply bind_Ok in E as [rows' [E2 E]]. eapply wr_len; eauto.
Qed.
Lemma step_frame e st o st' : (forall r, o <> OAdd r) -> step e st o = Ok st' -> frame st st'.
Proof.
  intros NA E. destruct o as [r|l|v i x|v i j lay x|name cells|m|m cells]; simpl in E.
  - exfalso. eapply NA; eauto.
  - injection E as <-. constructor; auto. simpl. rewrite app_length. lia.
  - unfold uni_write in E. apply bind_Ok in E as [b [E1 E]]. apply bind_Ok in E as [b' [E2 E]]. apply bind_Ok in E as [u [E3 E]].
    injection E as <-. constructor; auto. simpl. rewrite (wr_len _ _ _ E3). auto.
  - unfold multi_write in E. destruct (_ <? _); [|discriminate]. apply bind_Ok in E as [p [E1 E]]. apply bind_Ok in E as [cl [E2 E]].
    destruct (cl =? -1)%Z; [discriminate|]. apply bind_Ok in E as [rows [E3 E]]. apply bind_Ok in E as [row [E4 E]].
    apply bind_Ok in E as [row' [E5 E]]. apply bind_Ok in E as [rows' [E6 E]]. apply bind_Ok in E as [u [E7 E]].
    injection E as <-. constructor; auto. simpl. apply (wr_len _ _ _ E7).
  - unfold add_material in E. destruct (existsb _ _); [injection E as <-; constructor; auto|].
    apply bind_Ok in E as [[R p] [E1 E]]. apply bind_Ok in E as [s [E2 E]]. apply bind_Ok in E as [cm [E3 E]]. apply bind_Ok in E as [mb [E4 E]].
    injection E as <-. constructor; auto. simpl. eapply for_multi_len; [|eauto]. congruence.
  - unfold rem_material in E. destruct (nth_error _ _); [|injection E as <-; constructor; auto].
    apply bind_Ok in E as [cm [E1 E]]. apply bind_Ok in E as [mats [E2 E]]. apply bind_Ok in E as [mb [E3 E]].
    injection E as <-. constructor; auto. simpl. eapply for_multi_len; [|eauto]. congruence.
  - unfold add_cells_to_material in E. destruct (nth_error _ _); [|discriminate].
    apply bind_Ok in E as [s [E1 E]]. apply bind_Ok in E as [cm [E2 E]]. apply bind_Ok in E as [mb [E3 E]].
    injection E as <-. constructor; auto. simpl. eapply for_multi_len; [|eauto]. discriminate.
Qed.
Lemma op_is_add o : (exists r, o = OAdd r) \/ forall r, o <> OAdd r.
Proof. destruct o; [left; eauto|right|right|right|right|right|right]; congruence. Qed.

(** ** Reachable states satisfy the invariant *)
Lemma create_inv R : vec_inv (create R).
Proof. constructor; simpl; auto; try tauto. intros [|i]; discriminate. Qed.
Lemma rdz_wrz_len A (l l' : list A) z x : wrz l z x = Ok l' -> length l' = length l.
Proof. unfold wrz. destruct (z <? 0)%Z; [discriminate|]. apply wr_len. Qed.
Lemma push_index_len idx k z idx' : push_index idx k z = Ok idx' -> length idx' = length idx.
Proof. unfold push_index. intros E. apply bind_Ok in E as [l [_ E]]. eapply rdz_wrz_len; eauto. Qed.
Lemma stored_inv e st st' r pl : vec_inv st -> stored e st st' r pl -> vec_inv st'.
Proof.
  intros I S. constructor.
  - rewrite (push_index_len _ _ _ (sd_idx S)). apply (vi_idx I).
  - rewrite (sd_names S), (sd_vecs S), map_app, (vi_names I). auto.
  - intros v Hv Hu. rewrite (sd_vecs S) in Hv. apply in_app_iff in Hv as [Hv|[<-|[]]].
    + pose proof (vi_uni I v Hv Hu). rewrite (sd_uni S). destruct pl; auto. rewrite app_length. lia.
    + simpl in *. assert (P := sd_pl S). rewrite Hu in P. destruct P as [l ->]. rewrite (sd_uni S), app_length. simpl. lia.
  - intros v Hv Hu. rewrite (sd_vecs S) in Hv. apply in_app_iff in Hv as [Hv|[<-|[]]].
    + pose proof (vi_multi I v Hv Hu). rewrite (sd_multi S). destruct pl; auto. rewrite app_length. lia.
    + simpl in *. assert (P := sd_pl S). rewrite Hu in P. destruct P as [l ->]. rewrite (sd_multi S), app_length. simpl. lia.
  - assert (NEW : forall i v, nth_error (st_vecs st) i = Some v -> sv_vt v = k_vt (stored_key e r) ->
        sv_data v <> match pl with PUni _ => length (st_uni st) | PMulti _ => length (st_multi st) end).
    { intros i v Hv Ht. apply nth_error_In in Hv. assert (P := sd_pl S). destruct (k_vt (stored_key e r)); destruct P as [l ->].
      - pose proof (vi_uni I v Hv Ht). lia.
      - pose proof (vi_multi I v Hv Ht). lia. }
    rewrite (sd_vecs S). intros i j v w Hi Hj Ht Hd.
    assert (Li := nth_error_lt _ _ Hi). assert (Lj := nth_error_lt _ _ Hj). rewrite app_length in Li, Lj. simpl in Li, Lj.
    destruct (Nat.lt_ge_cases i (length (st_vecs st))) as [A|A], (Nat.lt_ge_cases j (length (st_vecs st))) as [B|B].
    + rewrite nth_error_app1 in Hi, Hj by auto. eapply (vi_sep I); eauto.
    + rewrite nth_error_app1 in Hi by auto. assert (j = length (st_vecs st)) as -> by lia. rewrite nth_error_mid in Hj by auto. injection Hj as <-.
      exfalso. simpl in *. eapply NEW; eauto.
    + rewrite nth_error_app1 in Hj by auto. assert (i = length (st_vecs st)) as -> by lia. rewrite nth_error_mid in Hi by auto. injection Hi as <-.
      exfalso. simpl in *. eapply NEW; eauto.
    + lia.
Qed.
Lemma frame_inv st st' : vec_inv st -> frame st st' -> vec_inv st'.
Proof.
  intros I F. destruct F as [F1 F2 F3 F4 F5]. constructor; rewrite ?F1, ?F2, ?F3.
  - apply (vi_idx I).
  - apply (vi_names I).
  - intros v Hv Ht. pose proof (vi_uni I v Hv Ht). lia.
  - intros v Hv Ht. rewrite F5. apply (vi_multi I v Hv Ht).
  - apply (vi_sep I).
Qed.
Lemma adds_cons o ops : adds (o :: ops) = (match o with OAdd r => [r] | _ => [] end) ++ adds ops.
Proof. reflexivity. Qed.
Lemma step_inv e st o st' : (forall r, o = OAdd r -> compiles r) -> vec_inv st -> step e st o = Ok st' -> vec_inv st'.
Proof.
  intros C I E. destruct (op_is_add o) as [[r ->]|N].
  - simpl in E. apply bind_Ok in E as [[s i] [E1 E]]. injection E as <-.
    destruct (@add_cases e st r s i (C r eq_refl) E1) as [[_ ->]|[_ [_ [pl [_ S]]]]]; auto. eapply stored_inv; eauto.
  - eapply frame_inv; eauto. eapply step_frame; eauto.
Qed.
(** induction over histories *)
Lemma run_ind e (P : state -> Prop) ops st0 st : (forall r, In r (adds ops) -> compiles r) -> P st0 -> vec_inv st0 ->
  (forall st o st', vec_inv st -> In o ops -> (forall r, o = OAdd r -> compiles r /\ In r (adds ops)) -> P st -> step e st o = Ok st' -> P st') ->
  run e st0 ops = Ok st -> P st /\ vec_inv st.
Proof.
  intros C P0 I0 H. revert st0 P0 I0. induction ops as [|o ops IH]; unfold run; simpl; intros st0 P0 I0 E; [injection E as <-; auto|].
  apply bind_Ok in E as [s [E1 E2]]. rewrite adds_cons in *.
  assert (Co : forall r, o = OAdd r -> compiles r /\ In r (adds (o :: ops))).
  { intros r ->. rewrite adds_cons. simpl. split; auto. apply C. simpl. auto. }
  apply IH with (st0 := s); auto.
  - intros r Hr. apply C. apply in_app_iff. auto.
  - intros s1 o1 s2 I1 Ho Hr. apply H; auto; [simpl; auto|]. intros r Er. destruct (Hr r Er). rewrite in_app_iff. auto.
  - eapply H; eauto. simpl. auto.
  - eapply step_inv; eauto. intros r Er. apply (Co r Er).
Qed.
Lemma run_inv e ops R st : all_compile ops -> run e (create R) ops = Ok st -> vec_inv st.
Proof. intros C E. eapply (@run_ind e (fun _ => True) ops (create R)); eauto. apply create_inv. Qed.

(** ** stored vectors persist *)
Lemma step_grows e st o st' : (forall r, o = OAdd r -> compiles r) -> step e st o = Ok st' -> exists more, st_vecs st' = st_vecs st ++ more.
Proof.
  intros C E. destruct (op_is_add o) as [[r ->]|N].
  - simpl in E. apply bind_Ok in E as [[s i] [E1 E]]. injection E as <-.
    destruct (@add_cases e st r s i (C r eq_refl) E1) as [[_ ->]|[_ [_ [pl [_ S]]]]]; [exists []; rewrite app_nil_r; auto|].
    rewrite (sd_vecs S). eauto.
  - rewrite (fr_vecs (@step_frame e st o st' N E)). exists []. rewrite app_nil_r. auto.
Qed.
Lemma run_grows e ops st st' : (forall r, In r (adds ops) -> compiles r) -> run e st ops = Ok st' -> exists more, st_vecs st' = st_vecs st ++ more.
Proof.
  revert st. induction ops as [|o ops IH]; intros st C E; unfold run in E; simpl in E; [injection E as <-; exists []; rewrite app_nil_r; auto|].
  apply bind_Ok in E as [s [E1 E2]]. rewrite adds_cons in C.
  destruct (@step_grows e st o s) as [m1 H1]; auto. { intros r ->. apply C. simpl. auto. }
  destruct (IH s) as [m2 H2]; auto. { intros r Hr. apply C, in_app_iff. auto. }
  exists (m1 ++ m2). rewrite H2, H1, app_assoc. auto.
Qed.
Lemma find_grows st st' k more i : st_vecs st' = st_vecs st ++ more -> find_t st k = Some i -> find_t st' k = Some i.
Proof. unfold find_t. intros -> E. rewrite find_first_app, E. auto. Qed.
