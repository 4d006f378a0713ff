From Coq Require Import String.
From Verif Require Import Base Loop Defs MeshSet MeshSet_spec MeshSet_proofs State State_spec State_proofs Fields Fields_spec.
Set Implicit Arguments.

Lemma mtype_dim mi k d : 1 <= mi_md mi <= 3 -> mtype mi k = Ok d <-> kind_dim (mi_md mi) k = Some d.
Proof.
  intros H. unfold mtype. destruct (mi_md mi) as [|[|[|[|?]]]]; try lia; destruct k; cbn; split; intros E; try discriminate; try congruence;
    injection E as <-; reflexivity.
Qed.
Lemma mtype_bad mi k : 1 <= mi_md mi <= 3 -> kind_dim (mi_md mi) k = None -> mtype mi k = UB.
Proof. intros H. unfold mtype. destruct (mi_md mi) as [|[|[|[|?]]]]; try lia; destruct k; simpl kind_dim; intros E; try discriminate; reflexivity. Qed.

Lemma rd_prefix A (l : list A) n : n <= length l -> mapM (rd l) (seq 0 n) = Ok (firstn n l).
Proof.
  intros H. apply mapM_nth.
  - rewrite seq_length, firstn_length. lia.
  - intros i x y Hx Hy. apply nth_error_seq_Some in Hx as [-> L]. apply rd_Ok. simpl.
    rewrite <- Hy. clear Hy y. revert i n H L. induction l as [|a l IH]; intros i n H L; simpl in *.
    + lia.
    + destruct n; [lia|]. destruct i; simpl; auto. apply IH; lia.
Qed.
Lemma rd_all A (l : list A) n : n = length l -> mapM (rd l) (seq 0 n) = Ok l.
Proof. intros ->. rewrite rd_prefix by auto. rewrite firstn_all. auto. Qed.
Lemma rd_short A (l : list A) n : length l < n -> mapM (rd l) (seq 0 n) = UB.
Proof.
  intros H. assert (G : forall m s, s <= length l -> length l < s + m -> mapM (rd l) (seq s m) = UB).
  { induction m as [|m IH]; intros s Hs Hm; simpl; [lia|]. destruct (Nat.eq_dec s (length l)) as [->|].
    - unfold rd. rewrite (proj2 (nth_error_None l (length l))) by auto. auto.
    - destruct (nth_error l s) eqn:E; [|apply nth_error_None in E; lia].
      unfold rd at 1. rewrite E. simpl. rewrite IH by lia. auto. }
  apply G; lia.
Qed.

Lemma ncomps_exportable v : exportable v <-> sv_vt v = UNIVAL /\ exists nc, ncomps (sv_dt v) = Some nc.
Proof.
  unfold exportable. split; intros [H1 H2]; split; auto.
  - simpl in H2. destruct H2 as [<-|[<-|[<-|[<-|[<-|[]]]]]]; simpl; eauto.
  - destruct H2 as [nc E]. destruct (sv_dt v); simpl in *; auto 7; discriminate.
Qed.
Lemma exportable_dec v : exportable v \/ ~ exportable v.
Proof.
  rewrite ncomps_exportable. destruct (sv_vt v); [|right; intros [H _]; discriminate].
  destruct (ncomps (sv_dt v)) as [nc|]; [left; eauto|right; intros [_ [? H]]; discriminate].
Qed.
Lemma export_other mi st v fs : ~ exportable v -> export_vec mi st v fs = Ok fs.
Proof.
  intros H. unfold export_vec. destruct (sv_vt v) eqn:E; auto. destruct (ncomps (sv_dt v)) eqn:E2; auto.
  exfalso. apply H. apply ncomps_exportable. eauto.
Qed.

(** *** by_name *)
Lemma by_name_app fs gs n : by_name (fs ++ gs) n = match by_name fs n with Some f => Some f | None => by_name gs n end.
Proof. unfold by_name. induction fs as [|f fs IH]; simpl; auto. destruct (String.eqb (f_name f) n); auto. Qed.
Lemma by_name_None fs n : by_name fs n = None <-> ~ In n (map f_name fs).
Proof.
  unfold by_name. induction fs as [|f fs IH]; simpl; [tauto|]. destruct (String.eqb_spec (f_name f) n); split; intros H; try discriminate; try tauto.
Qed.
Lemma by_name_Some fs n f : by_name fs n = Some f -> In f fs /\ f_name f = n.
Proof. intros H. apply find_some in H as [H1 H2]. apply String.eqb_eq in H2. auto. Qed.
Lemma by_name_In fs f : NoDup (map f_name fs) -> In f fs -> by_name fs (f_name f) = Some f.
Proof.
  induction fs as [|g fs IH]; simpl; intros N Hf; [tauto|]. inversion N as [|? ? N1 N2]; subst. unfold by_name. simpl.
  destruct Hf as [->|Hf]; [rewrite String.eqb_refl; auto|]. destruct (String.eqb_spec (f_name g) (f_name f)) as [E|E].
  - exfalso. apply N1. rewrite E. apply in_map. auto.
  - apply IH; auto.
Qed.
Lemma set_first_names fs n v : map f_name (set_first fs n v) = map f_name fs.
Proof. induction fs as [|f fs IH]; simpl; auto. destruct (String.eqb (f_name f) n); simpl; congruence. Qed.
Lemma set_first_other fs n v m : m <> n -> by_name (set_first fs n v) m = by_name fs m.
Proof.
  intros H. unfold by_name. induction fs as [|f fs IH]; simpl; auto. destruct (String.eqb_spec (f_name f) n) as [E|E]; simpl.
  - destruct (String.eqb_spec (f_name f) m); auto. congruence.
  - destruct (String.eqb (f_name f) m); auto.
Qed.
Lemma set_first_same fs n v f : by_name fs n = Some f -> by_name (set_first fs n v) n = Some (Field (f_name f) (f_dim f) (f_att f) (f_ncomp f) v).
Proof.
  unfold by_name. induction fs as [|g fs IH]; simpl; [discriminate|]. destruct (String.eqb_spec (f_name g) n) as [E|E]; simpl.
  - intros H. injection H as <-. rewrite (proj2 (String.eqb_eq _ _) E). auto.
  - intros H. destruct (String.eqb_spec (f_name g) n); [congruence|auto].
Qed.
Lemma set_first_In fs n v f : by_name fs n <> None -> In f fs -> f_name f <> n -> In f (set_first fs n v).
Proof.
  intros _. induction fs as [|g fs IH]; simpl; auto. intros [->|H] D.
  - destruct (String.eqb_spec (f_name f) n); [tauto|left; auto].
  - destruct (String.eqb (f_name g) n); right; auto.
Qed.

(** *** one vector exported *)
Inductive stored_as (mi : mesh_info) (v : svec) (d : nat) (data : list Z) (fs fs' : list field) : Prop :=
| sa_new nc : by_name fs (sv_name v) = None -> ncomps (sv_dt v) = Some nc ->
    fs' = fs ++ [Field (sv_name v) d (new_att mi (sv_dt v)) nc (firstn (mi_num mi d) data)] -> stored_as mi v d data fs fs'
| sa_upd f : by_name fs (sv_name v) = Some f -> d = f_dim f -> store_type_ok (sv_dt v) f = true ->
    fs' = set_first fs (sv_name v) (firstn (mi_num mi d) data) -> stored_as mi v d data fs fs'
| sa_no f : by_name fs (sv_name v) = Some f -> (d <> f_dim f \/ store_type_ok (sv_dt v) f = false) -> fs' = fs -> stored_as mi v d data fs fs'.
Lemma export_covers mi st v fs d data : 1 <= mi_md mi <= 3 -> exportable v -> covers mi st v d data ->
  exists fs', export_vec mi st v fs = Ok fs' /\ stored_as mi v d data fs fs'.
Proof.
  intros M X [[m Dm] Dk Dd Dl]. apply ncomps_exportable in X as [X [nc N]]. apply (mtype_dim _ _ _ M) in Dk.
  unfold export_vec. rewrite X, N, Dm. unfold uni_values in Dd. apply rd_Ok in Dd. rewrite Dd. simpl. unfold store_field. rewrite Dk. simpl.
  destruct (by_name fs (sv_name v)) as [f|] eqn:B.
  - destruct (Nat.eqb_spec d (f_dim f)) as [E|E]; simpl; [|eexists; split; [reflexivity|]; eapply sa_no; eauto].
    destruct (store_type_ok (sv_dt v) f) eqn:S; simpl; [|eexists; split; [reflexivity|]; eapply sa_no; eauto].
    rewrite rd_prefix by auto. simpl. eexists; split; [reflexivity|]. eapply sa_upd; eauto.
  - rewrite rd_prefix by auto. simpl. eexists; split; [reflexivity|]. eapply sa_new; eauto.
Qed.
Lemma export_vec_other_name mi st v fs fs' n : export_vec mi st v fs = Ok fs' -> (exportable v -> sv_name v <> n) -> by_name fs' n = by_name fs n.
Proof.
  intros E D. destruct (exportable_dec v) as [X|X]; [|rewrite export_other in E by auto; congruence]. specialize (D X).
  unfold export_vec in E. destruct (sv_vt v); [|congruence]. destruct (ncomps (sv_dt v)); [|congruence].
  destruct (sv_dom v); [|discriminate]. apply bind_Ok in E as [data [_ E]]. apply bind_Ok in E as [r [Er E]]. injection E as <-.
  unfold store_field in Er. apply bind_Ok in Er as [t [_ Er]]. destruct (by_name fs (sv_name v)) as [f|] eqn:B.
  - destruct (negb (t =? f_dim f)); [injection Er as <-; auto|]. destruct (negb (store_type_ok _ _)); [injection Er as <-; auto|].
    apply bind_Ok in Er as [vals [_ Er]]. injection Er as <-. apply set_first_other. auto.
  - apply bind_Ok in Er as [vals [_ Er]]. injection Er as <-. rewrite by_name_app. destruct (by_name fs n); auto.
    unfold by_name. simpl. destruct (String.eqb_spec (sv_name v) n); congruence.
Qed.
Lemma export_vec_kept mi st v fs fs' f : export_vec mi st v fs = Ok fs' -> In f fs -> (exportable v -> sv_name v <> f_name f) -> In f fs'.
Proof.
  intros E Hf D. destruct (exportable_dec v) as [X|X]; [|rewrite export_other in E by auto; congruence]. specialize (D X).
  unfold export_vec in E. destruct (sv_vt v); [|congruence]. destruct (ncomps (sv_dt v)); [|congruence].
  destruct (sv_dom v); [|discriminate]. apply bind_Ok in E as [data [_ E]]. apply bind_Ok in E as [r [Er E]]. injection E as <-.
  unfold store_field in Er. apply bind_Ok in Er as [t [_ Er]]. destruct (by_name fs (sv_name v)) as [g|] eqn:B.
  - destruct (negb (t =? f_dim g)); [injection Er as <-; auto|]. destruct (negb (store_type_ok _ _)); [injection Er as <-; auto|].
    apply bind_Ok in Er as [vals [_ Er]]. injection Er as <-. apply set_first_In; auto. congruence.
  - apply bind_Ok in Er as [vals [_ Er]]. injection Er as <-. apply in_app_iff; auto.
Qed.
Lemma export_vec_names mi st v fs fs' : export_vec mi st v fs = Ok fs' ->
  map f_name fs' = map f_name fs \/ (exportable v /\ ~ In (sv_name v) (map f_name fs) /\ map f_name fs' = map f_name fs ++ [sv_name v]).
Proof.
  intros E. destruct (exportable_dec v) as [X|X]; [|rewrite export_other in E by auto; injection E as <-; auto].
  unfold export_vec in E. destruct (sv_vt v); [|injection E as <-; auto]. destruct (ncomps (sv_dt v)); [|injection E as <-; auto].
  destruct (sv_dom v); [|discriminate]. apply bind_Ok in E as [data [_ E]]. apply bind_Ok in E as [r [Er E]]. injection E as <-.
  unfold store_field in Er. apply bind_Ok in Er as [t [_ Er]]. destruct (by_name fs (sv_name v)) as [g|] eqn:B.
  - destruct (negb (t =? f_dim g)); [injection Er as <-; auto|]. destruct (negb (store_type_ok _ _)); [injection Er as <-; auto|].
    apply bind_Ok in Er as [vals [_ Er]]. injection Er as <-. rewrite set_first_names. auto.
  - apply bind_Ok in Er as [vals [_ Er]]. injection Er as <-. right. split; auto. apply by_name_None in B. rewrite map_app. auto.
Qed.
Lemma export_vec_outcome mi st v fs : 1 <= mi_md mi <= 3 -> (exists fs', export_vec mi st v fs = Ok fs') \/ export_vec mi st v fs = UB.
Proof.
  intros M. unfold export_vec. destruct (sv_vt v); eauto. destruct (ncomps (sv_dt v)) as [nc|]; eauto. destruct (sv_dom v); auto.
  assert (R : (exists data, rd (st_uni st) (sv_data v) = Ok data) \/ rd (st_uni st) (sv_data v) = UB) by (unfold rd; destruct (nth_error _ _); eauto).
  destruct R as [[data R]|R]; rewrite R; simpl; auto. unfold store_field.
  destruct (kind_dim (mi_md mi) (sv_kind v)) as [d|] eqn:K; [|rewrite mtype_bad; auto].
  apply (mtype_dim _ _ _ M) in K. rewrite K. simpl. destruct (by_name fs (sv_name v)) as [f|].
  - destruct (negb (d =? f_dim f)); simpl; try solve [left; eexists; reflexivity | right; reflexivity]. destruct (negb (store_type_ok _ _)); simpl; try solve [left; eexists; reflexivity | right; reflexivity].
    destruct (Nat.lt_ge_cases (length data) (mi_num mi d)); [rewrite rd_short by auto|rewrite rd_prefix by auto]; simpl; try solve [left; eexists; reflexivity | right; reflexivity].
  - destruct (Nat.lt_ge_cases (length data) (mi_num mi d)); [rewrite rd_short by auto|rewrite rd_prefix by auto]; simpl; try solve [left; eexists; reflexivity | right; reflexivity].
Qed.

(** *** a list of vectors exported *)
Definition export_vecs mi st vs fs := foldM vs (export_vec mi st) fs.
Lemma export_vecs_other_name mi st vs : forall fs fs' n, export_vecs mi st vs fs = Ok fs' ->
  (forall v, In v vs -> exportable v -> sv_name v <> n) -> by_name fs' n = by_name fs n.
Proof.
  unfold export_vecs. induction vs as [|v vs IH]; simpl; intros fs fs' n E D; [congruence|]. apply bind_Ok in E as [f1 [E1 E]].
  rewrite (IH f1 fs' n E) by auto. eapply export_vec_other_name; eauto.
Qed.
Lemma export_vecs_kept mi st vs : forall fs fs' f, export_vecs mi st vs fs = Ok fs' -> In f fs ->
  (forall v, In v vs -> exportable v -> sv_name v <> f_name f) -> In f fs'.
Proof.
  unfold export_vecs. induction vs as [|v vs IH]; simpl; intros fs fs' f E Hf D; [congruence|]. apply bind_Ok in E as [f1 [E1 E]].
  eapply IH; eauto. eapply export_vec_kept; eauto.
Qed.
Lemma export_vecs_names mi st vs : forall fs fs', NoDup (map f_name fs) -> export_vecs mi st vs fs = Ok fs' ->
  NoDup (map f_name fs') /\ exists more, map f_name fs' = map f_name fs ++ more /\ forall n, In n more -> exists v, In v vs /\ exportable v /\ sv_name v = n.
Proof.
  unfold export_vecs. induction vs as [|v vs IH]; simpl; intros fs fs' N E.
  - injection E as <-. split; auto. exists []. rewrite app_nil_r. split; auto. intros n [].
  - apply bind_Ok in E as [f1 [E1 E]]. destruct (@export_vec_names mi st v fs f1 E1) as [H|[X [Y H]]].
    + rewrite <- H in N. destruct (IH f1 fs' N E) as [N' [more [H1 H2]]]. split; auto. exists more. rewrite H1, H. split; auto.
      intros n Hn. destruct (H2 n Hn) as [w [Hw Q]]. eauto.
    + assert (N1 : NoDup (map f_name f1)). { rewrite H. apply NoDup_app_iff. split; auto. split; [repeat constructor; auto|]. simpl. intros x Hx [<-|[]]. auto. }
      destruct (IH f1 fs' N1 E) as [N' [more [H1 H2]]]. split; auto. exists (sv_name v :: more). rewrite H1, H, <- app_assoc. split; auto.
      intros n [<-|Hn]; [eauto|]. destruct (H2 n Hn) as [w [Hw Q]]. eauto.
Qed.
Lemma export_vecs_ok mi st vs : 1 <= mi_md mi <= 3 -> (forall v, In v vs -> exportable v -> exists d data, covers mi st v d data) ->
  forall fs, exists fs', export_vecs mi st vs fs = Ok fs'.
Proof.
  intros M. unfold export_vecs. induction vs as [|v vs IH]; simpl; intros H fs; [eauto|].
  destruct (exportable_dec v) as [X|X].
  - destruct (H v (or_introl eq_refl) X) as [d [data C]]. destruct (@export_covers mi st v fs d data M X C) as [f1 [E1 _]]. rewrite E1. simpl. auto.
  - rewrite export_other by auto. simpl. auto.
Qed.
Lemma export_vecs_UB mi st vs v : 1 <= mi_md mi <= 3 -> In v vs -> (forall fs, export_vec mi st v fs = UB) -> forall fs, export_vecs mi st vs fs = UB.
Proof.
  intros M. unfold export_vecs. induction vs as [|w vs IH]; simpl; intros Hv H fs; [tauto|]. destruct Hv as [->|Hv]; [rewrite H; auto|].
  destruct (@export_vec_outcome mi st w fs M) as [[f1 ->]| ->]; simpl; auto.
Qed.

(** *** import *)
Lemma read_type_elem mi a : read_type mi a = elem_type (mi_sd mi) a.
Proof. unfold read_type, elem_type. destruct a; auto; destruct (mi_sd mi) as [|[|[|[|?]]]]; auto. Qed.
Lemma info_spec mi fs k d : mtype mi k = Ok d -> get_field_info mi fs k = Ok (map (fun f => (f_name f, f_att f)) (filter (fun f => d =? f_dim f) fs)).
Proof.
  intros E. unfold get_field_info.
  assert (G : forall l fs, foldM fs (fun f l => t <- mtype mi k ;; Ok (if t =? f_dim f then l ++ [(f_name f, f_att f)] else l)) l =
     Ok (l ++ map (fun f => (f_name f, f_att f)) (filter (fun f => d =? f_dim f) fs))).
  { intros l fs0. revert l. induction fs0 as [|f fs0 IH]; intros l; [simpl; rewrite app_nil_r; auto|]. cbn [foldM filter]. rewrite E at 1. cbn [bind]. destruct (d =? f_dim f); rewrite IH; simpl; [rewrite <- app_assoc|]; auto. }
  apply (G []).
Qed.
Lemma get_good mi fs f k d dt : NoDup (map f_name fs) -> In f fs -> good_field mi f -> mtype mi k = Ok d -> d = f_dim f ->
  elem_type (mi_sd mi) (f_att f) = Some dt -> get_field mi fs (f_name f) k dt = Ok (Some (f_vals f)).
Proof.
  intros N Hf [L C] E -> T. unfold get_field. rewrite by_name_In by auto. rewrite E. simpl. rewrite Nat.eqb_refl. simpl.
  assert (G : get_type_ok dt f = true).
  { rewrite T in C. unfold get_type_ok, elem_type in *. destruct (f_att f); try congruence; try (injection T as <-; reflexivity);
      destruct (mi_sd mi) as [|[|[|[|?]]]]; try discriminate; injection T as <-; simpl in C; rewrite C; reflexivity. }
  rewrite G. simpl. rewrite rd_all by auto. auto.
Qed.
Definition add_kv (e : env) (kv : key * list Z) (st : state) : outcome state := x <- add e st (RPtr (fst kv) (Some (snd kv))) ;; Ok (fst x).
Lemma foldM_flat A B S (g : A -> list B) (h : A -> S -> outcome S) (f : B -> S -> outcome S) l s :
  (forall a s, In a l -> h a s = foldM (g a) f s) -> foldM l h s = foldM (flat_map g l) f s.
Proof. intros H. rewrite <- foldM_flat_map. apply foldM_ext. auto. Qed.
Lemma foldM_ret A S (l : list A) (f : A -> S -> outcome S) s : (forall x, f x s = Ok s) -> foldM l f s = Ok s.
Proof. intros H. induction l as [|x l IH]; simpl; auto. rewrite H. auto. Qed.
Lemma init_is_adds e mi fs st : 1 <= mi_md mi <= 3 -> sizes_agree e mi -> NoDup (map f_name fs) -> (forall f, In f fs -> good_field mi f) ->
  init_from_mesh e mi fs st = foldM (to_import e mi fs) (add_kv e) st.
Proof.
  intros M Z N W. unfold init_from_mesh, to_import. apply foldM_flat. intros k s Hk.
  destruct (kind_dim (mi_md mi) k) as [d|] eqn:K; [|simpl in Hk; destruct Hk as [<-|[<-|[<-|[]]]]; discriminate].
  assert (K' := K). apply (mtype_dim _ _ _ M) in K'. rewrite (@info_spec mi fs k d K'). simpl.
  rewrite <- foldM_map. 
  assert (G : forall l s, (forall f, In f l -> In f fs) -> foldM (filter (fun f => d =? f_dim f) l) (fun a s0 => import_field e mi fs k (f_name a, f_att a) s0) s =
    foldM (flat_map (fun f => match elem_type (mi_sd mi) (f_att f) with
       | Some dt => if d =? f_dim f then [(Key UNIVAL dt (f_name f) (OnMesh (e_mesh e)) k TYPE_ALL, f_vals f)] else [] | None => [] end) l) (add_kv e) s).
  { induction l as [|f l IH]; intros s0 Hl; cbn [filter flat_map]; auto. rewrite foldM_app.
    assert (Hf : In f fs) by (apply Hl; left; auto). assert (Hl' : forall g, In g l -> In g fs) by (intros; apply Hl; right; auto).
    destruct (Nat.eqb_spec d (f_dim f)) as [Ed|Ed].
    - cbn [foldM]. unfold import_field at 1. cbn [fst snd]. rewrite read_type_elem. destruct (elem_type (mi_sd mi) (f_att f)) as [dt|] eqn:T.
      + rewrite (@get_good mi fs f k d dt) by auto. cbn [bind]. assert (L : size_of e (field_key e (f_name f) dt k) = mi_num mi d) by (apply Z; auto).
        rewrite L, Ed, <- (gf_len (W f Hf)), Nat.leb_refl. cbn [foldM]. unfold add_kv at 1. cbn [fst snd]. unfold field_key.
        destruct (add e s0 _) as [x| | | |]; cbn [bind]; auto. rewrite <- Ed. auto.
      + simpl. auto.
    - destruct (elem_type (mi_sd mi) (f_att f)); simpl; auto. }
  rewrite G by auto. auto.
Qed.

Lemma add_ptr_ok e st k vals : vec_inv st -> (0 <= kind_value (k_kind k) < 9)%Z -> k_vt k = UNIVAL -> find_t st k = None -> size_of e k = length vals ->
  exists st', add e st (RPtr k (Some vals)) = Ok (st', length (st_vecs st)) /\ st_vecs st' = st_vecs st ++ [new_vec k (length (st_uni st))] /\
    st_uni st' = st_uni st ++ [vals] /\ st_multi st' = st_multi st /\ st_mats st' = st_mats st /\ st_cellmats st' = st_cellmats st /\ st_sets st' = st_sets st /\ vec_inv st'.
Proof.
  intros V K U F Sz.
  assert (P : exists idx, push_index (st_idx st) (k_kind k) (Z.of_nat (length (st_vecs st)) - 1) = Ok idx).
  { unfold push_index, rdz, wrz. assert (L := vi_idx V). destruct (Z.ltb_spec (kind_value (k_kind k)) 0); [lia|].
    unfold rd. destruct (nth_error (st_idx st) (Z.to_nat (kind_value (k_kind k)))) eqn:E; [|apply nth_error_None in E; lia]. simpl.
    rewrite wr_ok by lia. eauto. }
  destruct P as [idx P].
  assert (A : add e st (RPtr k (Some vals)) = Ok (State (st_vecs st ++ [new_vec k (length (st_uni st))]) idx (st_names st ++ [k_name k]) (st_mats st) (st_cellmats st)
        (st_uni st ++ [vals]) (st_multi st) (st_sets st), length (st_vecs st))).
  { unfold add. simpl key_of. rewrite F. rewrite Sz. cbn [uni_data]. rewrite Nat.leb_refl, firstn_all. cbn [bind]. unfold store. rewrite P. reflexivity. }
  eexists. split; [exact A|]. repeat (split; [reflexivity|]).
  apply (@step_inv e st (OAdd (RPtr k (Some vals)))); auto.
  - intros r E. injection E as <-. exact U.
  - cbn [step]. rewrite A. reflexivity.
Qed.

Definition unanswered (st : state) (kv : key * list Z) : bool := match find_t st (fst kv) with None => true | Some _ => false end.
Lemma adds_spec e l : NoDup (map fst l) ->
  (forall kv, In kv l -> k_vt (fst kv) = UNIVAL /\ k_type (fst kv) = TYPE_ALL /\ (0 <= kind_value (k_kind (fst kv)) < 9)%Z /\ size_of e (fst kv) = length (snd kv)) ->
  forall st, vec_inv st -> exists st' new, foldM l (add_kv e) st = Ok st' /\ st_vecs st' = st_vecs st ++ new /\
   (exists u, st_uni st' = st_uni st ++ u) /\ st_multi st' = st_multi st /\ st_mats st' = st_mats st /\ st_cellmats st' = st_cellmats st /\ st_sets st' = st_sets st /\ vec_inv st' /\
   map (fun v => (vkey v, uni_values st' v)) new = map (fun kv => (fst kv, Some (snd kv))) (filter (unanswered st) l).
Proof.
  induction l as [|kv l IH]; intros N H st V; simpl.
  - exists st, []. rewrite app_nil_r. repeat (split; auto). exists []. rewrite app_nil_r. auto.
  - inversion N as [|? ? N1 N2]; subst. destruct (H kv (or_introl eq_refl)) as (Hv & Ht & Hk & Hs). unfold add_kv at 1. unfold unanswered at 1.
    destruct (find_t st (fst kv)) as [i|] eqn:F.
    + unfold add. simpl key_of. rewrite F. cbn [bind fst]. apply IH; auto; intros; apply H; right; auto.
    + destruct (@add_ptr_ok e st (fst kv) (snd kv) V Hk Hv F Hs) as (s1 & A & B1 & B2 & B3 & B4 & B5 & B6 & V1). rewrite A. cbn [bind].
      destruct (IH N2 (fun x Hx => H x (or_intror Hx)) s1 V1) as (st' & new & E & C1 & [u C2] & C3 & C4 & C5 & C6 & V' & C7).
      exists st', (new_vec (fst kv) (length (st_uni st)) :: new). split; [exact E|]. rewrite C1, B1, <- app_assoc. split; auto.
      split; [exists (snd kv :: u); rewrite C2, B2, <- app_assoc; auto|]. split; [congruence|]. split; [congruence|]. split; [congruence|]. split; [congruence|]. split; auto.
      simpl. rewrite vkey_new. f_equal.
      * f_equal. unfold uni_values. cbn [new_vec sv_data]. rewrite C2, B2, <- app_assoc. apply nth_error_mid. auto.
      * rewrite C7. f_equal. apply filter_ext_in. intros kv' Hin. unfold unanswered, find_t. rewrite B1, find_first_app.
        destruct (find_first (matches (fst kv')) (st_vecs st)); auto. simpl.
        destruct (matches (fst kv') (new_vec (fst kv) (length (st_uni st)))) eqn:Mt; auto. exfalso.
        apply matches_iff in Mt. destruct Mt as (Q1 & Q2 & Q3 & Q4 & Q5 & _). simpl in *.
        destruct (H kv' (or_intror Hin)) as (Hv' & Ht' & Hk' & _).
        apply N1. replace (fst kv) with (fst kv'); [apply in_map; auto|]. destruct (fst kv) as [a1 a2 a3 a4 a5 a6], (fst kv') as [b1 b2 b3 b4 b5 b6]. simpl in *.
        destruct Q5 as [->|Q5]; [simpl in Hk'; lia|]. congruence.
Qed.

Lemma to_import_In e mi fs kv : In kv (to_import e mi fs) <-> exists k f dt, In k [NODE; FACE; CELL] /\ In f fs /\ kind_dim (mi_md mi) k = Some (f_dim f) /\
  elem_type (mi_sd mi) (f_att f) = Some dt /\ kv = (Key UNIVAL dt (f_name f) (OnMesh (e_mesh e)) k TYPE_ALL, f_vals f).
Proof.
  unfold to_import. rewrite in_flat_map. split.
  - intros [k [Hk H]]. apply in_flat_map in H as [f [Hf H]]. destruct (kind_dim _ k) as [d|] eqn:K; [|destruct H].
    destruct (elem_type _ _) as [dt|] eqn:T; [|destruct H]. destruct (Nat.eqb_spec d (f_dim f)) as [->|]; [|destruct H]. destruct H as [<-|[]].
    exists k, f, dt. auto.
  - intros (k & f & dt & Hk & Hf & K & T & ->). exists k. split; auto. apply in_flat_map. exists f. split; auto. rewrite K, T, Nat.eqb_refl. left. auto.
Qed.
Lemma NoDup_flat_map A B C (g : A -> list B) (p : B -> C) (q : C -> A -> Prop) l : NoDup l ->
  (forall a b, In b (g a) -> q (p b) a) -> (forall c a a', q c a -> q c a' -> In a l -> In a' l -> a = a') -> (forall a, In a l -> NoDup (map p (g a))) -> NoDup (map p (flat_map g l)).
Proof.
  intros N Q D. induction l as [|a l IH]; simpl; intros H; [constructor|]. inversion N as [|? ? N1 N2]; subst. rewrite map_app. apply NoDup_app_iff.
  split; [auto|]. split; [apply IH; auto|].
  - intros c x y Hx Hy Lx Ly. apply (D c x y); auto; right; auto.
  - intros c Hc Hc'. apply in_map_iff in Hc as [b [<- Hb]]. apply in_map_iff in Hc' as [b' [E Hb']]. apply in_flat_map in Hb' as [a' [Ha' Hb']].
    apply N1. replace a with a'; auto. apply (D (p b)); [rewrite <- E| | |]; auto. right; auto. left; auto.
Qed.
Lemma to_import_NoDup e mi fs : NoDup (map f_name fs) -> NoDup (map fst (to_import e mi fs)).
Proof.
  intros N. unfold to_import. apply NoDup_flat_map with (q := fun k a => k_kind k = a).
  - repeat constructor; simpl; intuition discriminate.
  - intros k b Hb. apply in_flat_map in Hb as [f [_ Hb]]. destruct (kind_dim _ k) as [d|]; [|destruct Hb]. destruct (elem_type _ _); [|destruct Hb].
    destruct (d =? f_dim f); [|destruct Hb]; destruct Hb as [<-|[]]; auto.
  - intros; congruence.
  - intros k Hk. apply NoDup_flat_map with (q := fun ky f => k_name ky = f_name f).
    + eapply NoDup_map_inv; eauto.
    + intros f b Hb. destruct (kind_dim _ k) as [d|]; [|destruct Hb]. destruct (elem_type _ _); [|destruct Hb]. destruct (d =? f_dim f); [|destruct Hb]; destruct Hb as [<-|[]]; auto.
    + intros c f f' H1 H2 Hf Hf'. assert (E : f_name f = f_name f') by congruence. assert (G1 := by_name_In fs f N Hf). assert (G2 := by_name_In fs f' N Hf'). congruence.
    + intros f Hf. destruct (kind_dim _ k) as [d|]; [|constructor]. destruct (elem_type _ _); [|constructor]. destruct (d =? f_dim f); simpl; repeat constructor; auto.
Qed.
Lemma init_spec e mi fs st : 1 <= mi_md mi <= 3 -> sizes_agree e mi -> NoDup (map f_name fs) -> (forall f, In f fs -> good_field mi f) -> vec_inv st ->
  exists st' new, init_from_mesh e mi fs st = Ok st' /\ st_vecs st' = st_vecs st ++ new /\
   (exists u, st_uni st' = st_uni st ++ u) /\ st_multi st' = st_multi st /\ st_mats st' = st_mats st /\ st_cellmats st' = st_cellmats st /\ st_sets st' = st_sets st /\ vec_inv st' /\
   map (fun v => (vkey v, uni_values st' v)) new = map (fun kv => (fst kv, Some (snd kv))) (filter (unanswered st) (to_import e mi fs)).
Proof.
  intros M Z N W V. rewrite init_is_adds by auto. apply adds_spec; auto.
  - apply to_import_NoDup; auto.
  - intros kv Hkv. apply to_import_In in Hkv as (k & f & dt & Hk & Hf & K & T & ->). cbn [fst snd]. split; [auto|]. split; auto. split.
    + simpl in Hk. destruct Hk as [<-|[<-|[<-|[]]]]; simpl; lia.
    + rewrite (gf_len (W f Hf)). apply Z; auto.
Qed.
