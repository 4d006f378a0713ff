(** Exchange of fields with the mesh: C45, C46. *)
From Coq Require Import String Permutation.
From Verif Require Import Base Loop Defs MeshSet MeshSet_spec MeshSet_proofs State State_spec State_proofs Fields Fields_spec Fields_proofs Props_State.
Set Implicit Arguments.
Local Open Scope string_scope.
Local Open Scope list_scope.

(** Witness: the mesh of ex_env as a 2D mesh of one quadrilateral strip: 4 nodes, 4 faces (none known to ex_env), 3 cells *)
Definition ex_env2 : env :=
  Env 0 (fun d k t => match k, t with CELL, PARALLEL_OWNED => 2 | CELL, TYPE_ALL => 3 | NODE, TYPE_ALL => 4 | FACE, TYPE_ALL => 6 | _, _ => 0 end)
    [PARALLEL_OWNED; PARALLEL_OWNED; PARALLEL_GHOST].
Definition ex_mi : mesh_info := MInfo 2 2 (fun d => match d with 0 => 4 | 1 => 6 | 2 => 3 | _ => 0 end).
Definition ex_fs : list field :=
  [Field "id" 2 A_INT 1 [10; 11; 12]%Z; Field "temp" 0 A_DOUBLE 1 [1; 2; 3; 4]%Z; Field "flux" 1 A_VECTOR 2 [5; 5; 5; 6; 6; 6]%Z;
   Field "stress" 2 A_TENSOR 3 [7; 8; 9]%Z].
Definition ex_vecs : list op :=
  [OAdd (RVal (ckey "density") 7%Z); OAdd (RPtr (nkey "temp") (Some [4; 3; 2; 1]%Z));
   OAdd (RVal (Key UNIVAL DT_arr2 "flux" (OnMesh 0) FACE TYPE_ALL) 8%Z); OAdd (RVal (Key UNIVAL (DT_other 0) "x" (OnTile 3) CELL TYPE_ALL) 1%Z)].
Definition ex_st2 : state := st_of (run ex_env2 (create ex_reg) ex_vecs).

(** ** C45 *)
(** when every exportable vector is on the mesh, on nodes, edges, faces or cells, and has a value for each of the mesh's entities
    of that dimension, the export goes through *)
Theorem c45_export_completes_partial : forall mi st fs, 1 <= mi_md mi <= 3 ->
  (forall v, In v (st_vecs st) -> exportable v -> exists d data, covers mi st v d data) ->
  exists fs', export_to_mesh mi st fs = Ok fs'.
Proof. intros mi st fs M H. apply export_vecs_ok; auto. Qed.
(** an exported vector whose name the mesh does not have becomes a field with its name, dimension, type and values *)
Theorem c45_new_field_partial : forall mi st fs fs' v d data, 1 <= mi_md mi <= 3 -> export_to_mesh mi st fs = Ok fs' ->
  In v (st_vecs st) -> exportable v -> covers mi st v d data -> ~ In (sv_name v) (map f_name fs) ->
  (forall w, In w (st_vecs st) -> exportable w -> sv_name w = sv_name v -> w = v) -> NoDup (st_vecs st) ->
  exists f, In f fs' /\ by_name fs' (sv_name v) = Some f /\ f_name f = sv_name v /\ f_dim f = d /\ f_vals f = firstn (mi_num mi d) data /\
    field_type (mi_sd mi) (sv_dt v) (f_att f) (f_ncomp f).
Proof.
  intros mi st fs fs' v d data M E Hv X C B U N. apply in_split in Hv as [l1 [l2 Hl]].
  unfold export_to_mesh in E. rewrite Hl, foldM_app in E. apply bind_Ok in E as [f1 [E1 E]]. cbn [foldM] in E. apply bind_Ok in E as [f2 [E2 E]].
  rewrite Hl in N. apply NoDup_remove in N as [_ N].
  assert (B1 : by_name f1 (sv_name v) = None).
  { rewrite (@export_vecs_other_name mi st l1 fs f1 (sv_name v) E1).
    - apply by_name_None; auto.
    - intros w Hw Xw Ew. apply N. assert (w = v) as <- by (apply U; auto; rewrite Hl; apply in_app_iff; auto). apply in_app_iff. auto. }
  destruct (@export_covers mi st v f1 d data M X C) as [f2' [E2' S]]. rewrite E2 in E2'. injection E2' as <-.
  destruct S as [nc _ Nc ->|f B' _ _ _|f B' _ _]; [|congruence|congruence].
  assert (G : by_name fs' (sv_name v) = Some (Field (sv_name v) d (new_att mi (sv_dt v)) nc (firstn (mi_num mi d) data))).
  { rewrite (@export_vecs_other_name mi st l2 _ fs' (sv_name v) E).
    - rewrite by_name_app, B1. unfold by_name. simpl. rewrite String.eqb_refl. auto.
    - intros w Hw Xw Ew. apply N. assert (w = v) as <- by (apply U; auto; rewrite Hl; apply in_app_iff; simpl; auto). apply in_app_iff. auto. }
  eexists. split; [apply by_name_Some in G as [G _]; exact G|]. split; [exact G|]. simpl. repeat (split; auto).
  destruct (sv_dt v); simpl in *; auto; try discriminate; injection Nc as <-; auto.
Qed.
(** an integer or real field of that name and dimension gets the new values *)
Theorem c45_existing_field : forall mi st fs fs' v d data f, 1 <= mi_md mi <= 3 -> export_to_mesh mi st fs = Ok fs' ->
  In v (st_vecs st) -> exportable v -> covers mi st v d data -> by_name fs (sv_name v) = Some f -> f_dim f = d ->
  (sv_dt v = DT_int /\ f_att f = A_INT \/ sv_dt v = DT_double /\ f_att f = A_DOUBLE) ->
  (forall w, In w (st_vecs st) -> exportable w -> sv_name w = sv_name v -> w = v) -> NoDup (st_vecs st) ->
  by_name fs' (sv_name v) = Some (Field (sv_name v) d (f_att f) (f_ncomp f) (firstn (mi_num mi d) data)).
Proof.
  intros mi st fs fs' v d data f M E Hv X C B Ed Ty U N. apply in_split in Hv as [l1 [l2 Hl]].
  unfold export_to_mesh in E. rewrite Hl, foldM_app in E. apply bind_Ok in E as [f1 [E1 E]]. cbn [foldM] in E. apply bind_Ok in E as [f2 [E2 E]].
  rewrite Hl in N. apply NoDup_remove in N as [_ N].
  assert (B1 : by_name f1 (sv_name v) = Some f).
  { rewrite (@export_vecs_other_name mi st l1 fs f1 (sv_name v) E1); auto.
    intros w Hw Xw Ew. apply N. assert (w = v) as <- by (apply U; auto; rewrite Hl; apply in_app_iff; auto). apply in_app_iff. auto. }
  destruct (@export_covers mi st v f1 d data M X C) as [f2' [E2' S]]. rewrite E2 in E2'. injection E2' as <-.
  assert (T : store_type_ok (sv_dt v) f = true) by (unfold store_type_ok; destruct Ty as [[-> ->]|[-> ->]]; auto).
  rewrite (@export_vecs_other_name mi st l2 _ fs' (sv_name v) E).
  - destruct S as [nc B' _ _|g B' _ _ ->|g B' Q _]; [congruence| |].
    + rewrite (set_first_same _ _ _ B1). apply by_name_Some in B1 as [_ B1]. rewrite B1, Ed. auto.
    + assert (g = f) as -> by congruence. destruct Q; congruence.
  - intros w Hw Xw Ew. apply N. assert (w = v) as <- by (apply U; auto; rewrite Hl; apply in_app_iff; simpl; auto). apply in_app_iff. auto.
Qed.
(** no other field is touched; none is lost, and new ones have the names of exported vectors *)
Theorem c45_other_fields : forall mi st fs fs', export_to_mesh mi st fs = Ok fs' ->
  (forall f, In f fs -> (forall v, In v (st_vecs st) -> exportable v -> sv_name v <> f_name f) -> In f fs') /\
  (NoDup (map f_name fs) -> NoDup (map f_name fs') /\ exists more, map f_name fs' = map f_name fs ++ more /\
     forall n, In n more -> exists v, In v (st_vecs st) /\ exportable v /\ sv_name v = n).
Proof.
  intros mi st fs fs' E. split.
  - intros f Hf D. eapply export_vecs_kept; eauto.
  - intros N. eapply export_vecs_names; eauto.
Qed.
Example c45_witness : exists fs', export_to_mesh ex_mi ex_st2 ex_fs = Ok fs' /\ NoDup (st_vecs ex_st2) /\
  (forall v, In v (st_vecs ex_st2) -> exportable v -> exists d data, covers ex_mi ex_st2 v d data) /\
  by_name fs' "density" = Some (Field "density" 2 A_DOUBLE 1 [7; 7; 7]%Z) /\ by_name fs' "temp" = Some (Field "temp" 0 A_DOUBLE 1 [4; 3; 2; 1]%Z) /\
  by_name fs' "id" = by_name ex_fs "id".
Proof.
  set (s := ex_st2). assert (E : st_vecs s = [SVec "density" (OnMesh 0) CELL TYPE_ALL UNIVAL DT_double 0; SVec "temp" (OnMesh 0) NODE TYPE_ALL UNIVAL DT_double 1;
    SVec "flux" (OnMesh 0) FACE TYPE_ALL UNIVAL DT_arr2 2; SVec "x" (OnTile 3) CELL TYPE_ALL UNIVAL (DT_other 0) 3]) by reflexivity.
  eexists. split; [vm_compute; reflexivity|]. rewrite E. split; [|split; [|repeat split; reflexivity]].
  - repeat constructor; simpl; intuition discriminate.
  - intros v [<-|[<-|[<-|[<-|[]]]]] X.
    + exists 2, [7; 7; 7]%Z. split; [eexists; reflexivity| | |]; try reflexivity; simpl; lia.
    + exists 0, [4; 3; 2; 1]%Z. split; [eexists; reflexivity| | |]; try reflexivity; simpl; lia.
    + exists 1, [8; 8; 8; 8; 8; 8]%Z. split; [eexists; reflexivity| | |]; try reflexivity; simpl; lia.
    + destruct X as [_ X]. simpl in X. intuition discriminate.
Qed.
(** Finding: with an exportable vector on a tile, the export always dereferences a null pointer *)
Theorem c45_tile_vector_refuted : forall mi st fs v t, 1 <= mi_md mi <= 3 -> In v (st_vecs st) -> exportable v -> sv_dom v = OnTile t ->
  export_to_mesh mi st fs = UB.
Proof.
  intros mi st fs v t M Hv X D. apply (@export_vecs_UB mi st (st_vecs st) v M Hv). intros fs0. apply ncomps_exportable in X as [X [nc Nc]].
  unfold export_vec. rewrite X, Nc, D. auto.
Qed.
(** Finding: so does one on sides, wedges, corners or any kind but nodes, edges, faces and cells (out of bounds of a table) *)
Theorem c45_other_kind_refuted : forall mi st fs v, 1 <= mi_md mi <= 3 -> In v (st_vecs st) -> exportable v -> ~ In (sv_kind v) [NODE; EDGE; FACE; CELL] ->
  export_to_mesh mi st fs = UB.
Proof.
  intros mi st fs v M Hv X D. apply (@export_vecs_UB mi st (st_vecs st) v M Hv). intros fs0. apply ncomps_exportable in X as [X [nc Nc]].
  unfold export_vec. rewrite X, Nc. destruct (sv_dom v); auto. unfold store_field, rd. destruct (nth_error (st_uni st) (sv_data v)); auto. cbn [bind].
  rewrite mtype_bad; auto. destruct (sv_kind v); simpl in *; auto; exfalso; apply D; auto.
Qed.
(** Finding: a vector with fewer values than the mesh has entities (e.g. on owned cells only) is read out of bounds, when its name is new *)
Theorem c45_short_vector_refuted : forall mi st v d data l1 l2, 1 <= mi_md mi <= 3 -> st_vecs st = v :: l1 ++ l2 -> exportable v ->
  kind_dim (mi_md mi) (sv_kind v) = Some d -> uni_values st v = Some data -> length data < mi_num mi d -> export_to_mesh mi st [] = UB.
Proof.
  intros mi st v d data l1 l2 M Hv X K D L. unfold export_to_mesh. rewrite Hv. cbn [foldM]. apply ncomps_exportable in X as [X [nc Nc]].
  unfold export_vec. rewrite X, Nc. destruct (sv_dom v); auto. apply rd_Ok in D. rewrite D. cbn [bind]. unfold store_field. apply (mtype_dim _ _ _ M) in K. rewrite K.
  cbn [bind by_name find]. rewrite rd_short by auto. auto.
Qed.
(** Finding: a vector or tensor field that the mesh has is never updated, so a second export of such a vector is lost *)
Theorem c45_array_field_refuted : forall mi st fs fs' f n, export_to_mesh mi st fs = Ok fs' -> by_name fs n = Some f -> (f_att f = A_VECTOR \/ f_att f = A_TENSOR) ->
  by_name fs' n = Some f.
Proof.
  intros mi st fs fs' f n. unfold export_to_mesh. revert fs. induction (st_vecs st) as [|v vs IH]; cbn [foldM]; intros fs E B T; [congruence|].
  apply bind_Ok in E as [f1 [E1 E]]. apply (IH f1); auto. destruct (String.eqb_spec (sv_name v) n) as [<-|D].
  - assert (H : f1 = fs); [|congruence]. unfold export_vec in E1. destruct (sv_vt v); [|congruence]. destruct (ncomps (sv_dt v)); [|congruence].
    destruct (sv_dom v); [|discriminate]. apply bind_Ok in E1 as [data [_ E1]]. apply bind_Ok in E1 as [r [Er E1]]. injection E1 as <-.
    unfold store_field in Er. apply bind_Ok in Er as [t [_ Er]]. rewrite B in Er. destruct (negb (t =? f_dim f)%nat); [injection Er as <-; auto|].
    assert (Q : store_type_ok (sv_dt v) f = false) by (unfold store_type_ok; destruct T as [-> | ->]; destruct (sv_dt v); auto).
    rewrite Q in Er. injection Er as <-. auto.
  - rewrite (@export_vec_other_name mi st v fs f1 n E1); auto.
Qed.
Example c45_refuted_witness :
  let k t := Key UNIVAL DT_double "a" t CELL TYPE_ALL in
  (exists v, In v (st_vecs (st_of (run ex_env2 (create ex_reg) [OAdd (RVal (k (OnTile 0)) 1%Z)]))) /\ exportable v /\ sv_dom v = OnTile 0) /\
  (exists v, In v (st_vecs (st_of (run ex_env2 (create ex_reg) [OAdd (RVal (Key UNIVAL DT_double "a" (OnMesh 0) CORNER TYPE_ALL) 1%Z)]))) /\ exportable v /\ sv_kind v = CORNER) /\
  export_to_mesh ex_mi (st_of (run ex_env2 (create ex_reg) [OAdd (RVal (Key UNIVAL DT_double "a" (OnMesh 0) CELL PARALLEL_OWNED) 1%Z)])) [] = UB /\
  exists fs1 fs2, let st b := st_of (run ex_env2 (create ex_reg) [OAdd (RVal (Key UNIVAL DT_arr2 "u" (OnMesh 0) CELL TYPE_ALL) b)]) in
    export_to_mesh ex_mi (st 1%Z) [] = Ok fs1 /\ export_to_mesh ex_mi (st 2%Z) fs1 = Ok fs2 /\ by_name fs2 "u" = Some (Field "u" 2 A_VECTOR 2 [1; 1; 1]%Z).
Proof.
  split; [|split; [|split; [reflexivity|]]].
  - eexists. split; [left; reflexivity|]. split; [|reflexivity]. split; [reflexivity|]. simpl. auto.
  - eexists. split; [left; reflexivity|]. split; [|reflexivity]. split; [reflexivity|]. simpl. auto.
  - eexists _, _. split; [vm_compute; reflexivity|]. split; vm_compute; reflexivity.
Qed.

(** ** C46 *)
(** the vectors added are, in order of kind, those for the fields of a supported type, except where a vector answers that key
    already; they have the fields' values.  Whatever was there is untouched. *)
Theorem c46_import_partial : forall e mi fs st, 1 <= mi_md mi <= 3 -> sizes_agree e mi -> NoDup (map f_name fs) ->
  (forall f, In f fs -> good_field mi f) -> vec_inv st ->
  exists st' new, init_from_mesh e mi fs st = Ok st' /\ st_vecs st' = st_vecs st ++ new /\
    map (fun v => (vkey v, uni_values st' v)) new =
    map (fun kv => (fst kv, Some (snd kv))) (filter (fun kv => match find_t st (fst kv) with None => true | Some _ => false end) (to_import e mi fs)) /\
    (forall v, In v (st_vecs st) -> (sv_vt v = UNIVAL -> uni_values st' v = uni_values st v) /\ multi_values st' v = multi_values st v) /\
    st_mats st' = st_mats st /\ st_cellmats st' = st_cellmats st /\ st_sets st' = st_sets st.
Proof.
  intros e mi fs st M Z N W V. destruct (@init_spec e mi fs st M Z N W V) as (st' & new & E & C1 & [u C2] & C3 & C4 & C5 & C6 & _ & C7).
  exists st', new. split; auto. split; auto. split; [exact C7|]. split; [|auto]. intros v Hv. split; [|unfold multi_values; congruence].
  intros U. unfold uni_values. rewrite C2. apply nth_error_app1. apply (vi_uni V); auto.
Qed.
(** so in a fresh state every field of a supported type on nodes, faces and cells is found with its values, on all entities *)
Theorem c46_field_found : forall e mi fs R f k dt, 1 <= mi_md mi <= 3 -> sizes_agree e mi -> NoDup (map f_name fs) ->
  (forall f, In f fs -> good_field mi f) -> In f fs -> In k [NODE; FACE; CELL] -> kind_dim (mi_md mi) k = Some (f_dim f) -> elem_type (mi_sd mi) (f_att f) = Some dt ->
  exists st' v, init_from_mesh e mi fs (create R) = Ok st' /\ get st' (Key UNIVAL dt (f_name f) (OnMesh (e_mesh e)) k TYPE_ALL) = Some v /\
    vkey v = Key UNIVAL dt (f_name f) (OnMesh (e_mesh e)) k TYPE_ALL /\ uni_values st' v = Some (f_vals f).
Proof.
  intros e mi fs R f k dt M Z N W Hf Hk K T. destruct (@init_spec e mi fs (create R) M Z N W (create_inv R)) as (st' & new & E & C1 & _ & _ & _ & _ & _ & _ & C7).
  set (ky := Key UNIVAL dt (f_name f) (OnMesh (e_mesh e)) k TYPE_ALL).
  assert (F : filter (unanswered (create R)) (to_import e mi fs) = to_import e mi fs) by (generalize (to_import e mi fs); intros l; induction l as [|a l IHl]; [reflexivity|]; cbn [filter]; rewrite IHl; reflexivity). rewrite F in C7. clear F.
  assert (Hi : In (ky, f_vals f) (to_import e mi fs)) by (apply to_import_In; exists k, f, dt; auto).
  assert (Ex : exists v, In v new /\ vkey v = ky /\ uni_values st' v = Some (f_vals f)).
  { assert (Q : In (ky, Some (f_vals f)) (map (fun v => (vkey v, uni_values st' v)) new)) by (rewrite C7; apply in_map_iff; exists (ky, f_vals f); auto).
    apply in_map_iff in Q as [v [Q Hv]]. exists v. split; auto. split; congruence. }
  destruct Ex as [v [Hv [Kv Vv]]]. exists st', v. split; auto. split; [|auto]. simpl in C1.
  assert (Aw : answers ky v) by (rewrite <- Kv; repeat split; auto).
  unfold get. destruct (find_t st' ky) as [i|] eqn:Fi; [|exfalso; apply (proj1 (find_t_None st' ky) Fi v); [rewrite C1; auto|auto]].
  apply find_t_Some in Fi as [[w [Hw Aw']] _]. rewrite Hw. f_equal.
  (* keys are distinct *)
  assert (Kw : vkey w = ky).
  { assert (Hw' : In w new) by (rewrite <- C1; eapply nth_error_In; eauto).
    assert (Q : In (vkey w, uni_values st' w) (map (fun v => (vkey v, uni_values st' v)) new)) by (apply in_map_iff; eauto).
    rewrite C7 in Q. apply in_map_iff in Q as [kv [Q Hkv]]. apply to_import_In in Hkv as (k' & f' & dt' & _ & _ & _ & _ & ->). injection Q as Q _ _.
    destruct Aw' as (A1 & A2 & A3 & A4 & A5 & A6). subst ky. unfold vkey in *. simpl in *. destruct w as [w1 w2 w3 w4 w5 w6 w7]. simpl in *.
    destruct A5 as [A5|A5]; [subst k; simpl in Hk; intuition discriminate|]. congruence. }
  assert (Nk : NoDup (map vkey new)).
  { assert (Q := to_import_NoDup e mi fs N). assert (P : map fst (map (fun v => (vkey v, uni_values st' v)) new) = map fst (map (fun kv : key * list BinNums.Z => (fst kv, Some (snd kv))) (to_import e mi fs))) by (f_equal; auto).
    rewrite !map_map in P. simpl in P. change (NoDup (map (fun x => fst x) (to_import e mi fs))) in Q. rewrite <- P in Q. exact Q. }
  assert (Hw' : In w new) by (rewrite <- C1; eapply nth_error_In; eauto).
  apply In_nth_error in Hw' as [a Ha]. apply In_nth_error in Hv as [b Hb].
  assert (a = b). { apply (proj1 (NoDup_nth_error (map vkey new)) Nk); [rewrite map_length; eapply nth_error_lt; eauto|]. rewrite (map_nth_error vkey _ _ Ha), (map_nth_error vkey _ _ Hb). congruence. }
  subst b. congruence.
Qed.
(** values exported from one state are the values imported into another *)
Theorem c46_round_trip : forall e mi st R v data, 1 <= mi_md mi <= 3 -> sizes_agree e mi ->
  (* every exportable vector can be represented: on nodes, faces or cells of this mesh, all of them, arrays of the mesh's dimension *)
  (forall w, In w (st_vecs st) -> exportable w -> exists d dw, covers mi st w d dw /\ length dw = mi_num mi d /\
     (forall a nc, field_type (mi_sd mi) (sv_dt w) a nc -> elem_type (mi_sd mi) a = Some (sv_dt w))) ->
  (forall i j x y, nth_error (st_vecs st) i = Some x -> nth_error (st_vecs st) j = Some y -> exportable x -> exportable y -> sv_name x = sv_name y -> i = j) ->
  NoDup (st_vecs st) -> In v (st_vecs st) -> exportable v -> In (sv_kind v) [NODE; FACE; CELL] -> sv_dom v = OnMesh (e_mesh e) -> sv_etype v = TYPE_ALL -> uni_values st v = Some data ->
  exists fs st' v', export_to_mesh mi st [] = Ok fs /\ init_from_mesh e mi fs (create R) = Ok st' /\
    get st' (vkey v) = Some v' /\ vkey v' = vkey v /\ uni_values st' v' = Some data.
Proof.
  intros e mi st R v data M Z H D N Hv X Kd Dm Ty Dt.
  destruct (@c45_export_completes_partial mi st [] M) as [fs E]; [intros w Hw Xw; destruct (H w Hw Xw) as (d & dw & C & _); eauto|].
  assert (U : forall x, In x (st_vecs st) -> exportable x -> forall w, In w (st_vecs st) -> exportable w -> sv_name w = sv_name x -> w = x).
  { intros x Hx Xx w Hw Xw Nw. apply In_nth_error in Hx as [i Hi]. apply In_nth_error in Hw as [j Hj]. assert (i = j) by (apply (D i j x w); auto). subst. congruence. }
  assert (F : forall w, In w (st_vecs st) -> exportable w -> exists f d dw, covers mi st w d dw /\ by_name fs (sv_name w) = Some f /\ f_dim f = d /\ f_vals f = dw /\
     length dw = mi_num mi d /\ field_type (mi_sd mi) (sv_dt w) (f_att f) (f_ncomp f) /\ elem_type (mi_sd mi) (f_att f) = Some (sv_dt w)).
  { intros w Hw Xw. destruct (H w Hw Xw) as (d & dw & C & L & T).
    destruct (@c45_new_field_partial mi st [] fs w d dw M E Hw Xw C (fun x => x)) as (f & _ & B & _ & Fd & Fv & Ft); [intros; apply (U w); auto|auto|].
    exists f, d, dw. rewrite <- L, firstn_all in Fv. repeat (split; auto). eauto. }
  destruct (@c45_other_fields mi st [] fs E) as [_ Q]. destruct (Q (NoDup_nil _)) as [Nf [more [Nm Hm]]]. simpl in Nm. clear Q.
  assert (Back : forall f, In f fs -> exists w, In w (st_vecs st) /\ exportable w /\ by_name fs (sv_name w) = Some f).
  { intros f Hf. destruct (Hm (f_name f)) as (w & Hw & Xw & Nw); [rewrite <- Nm; apply in_map; auto|]. exists w. split; auto. split; auto. rewrite Nw. apply by_name_In; auto. }
  assert (W : forall f, In f fs -> good_field mi f).
  { intros f Hf. destruct (Back f Hf) as (w & Hw & Xw & Bw). destruct (F w Hw Xw) as (f' & d & dw & C & B & Fd & Fv & L & Ft & El). assert (f' = f) as -> by congruence.
    split; [congruence|]. rewrite El. destruct (f_att f) eqn:Ea; auto; unfold elem_type in El; destruct (mi_sd mi) as [|[|[|[|?]]]]; try discriminate;
      injection El as El; rewrite <- El in *; simpl in Ft; intuition. }
  destruct (F v Hv X) as (f & d & dw & C & B & Fd & Fv & L & _ & El).
  assert (dw = data) as -> by (generalize (cv_data C); congruence).
  destruct (@by_name_Some fs _ f B) as [Hf Nf'].
  destruct (@c46_field_found e mi fs R f (sv_kind v) (sv_dt v) M Z Nf W Hf Kd) as (st' & v' & E' & G & K' & V'); auto.
  { rewrite Fd. apply (cv_dim C). }
  exists fs, st', v'. assert (Kv : Key UNIVAL (sv_dt v) (f_name f) (OnMesh (e_mesh e)) (sv_kind v) TYPE_ALL = vkey v).
  { unfold vkey. destruct X as [-> _]. congruence. }
  rewrite <- Kv. split; auto. split; auto. split; auto. split; auto. congruence.
Qed.
Example c46_witness : sizes_agree ex_env2 ex_mi /\ NoDup (map f_name ex_fs) /\ (forall f, In f ex_fs -> good_field ex_mi f) /\
  exists st', init_from_mesh ex_env2 ex_mi ex_fs (create ex_reg) = Ok st' /\ map sv_name (st_vecs st') = ["temp"; "flux"; "id"; "stress"] /\
    st_uni st' = [[1; 2; 3; 4]; [5; 5; 5; 6; 6; 6]; [10; 11; 12]; [7; 8; 9]]%Z.
Proof.
  split; [|split; [|split]].
  - intros k d [<-|[<-|[<-|[]]]] H; injection H as <-; reflexivity.
  - repeat constructor; simpl; intuition discriminate.
  - intros f [<-|[<-|[<-|[<-|[]]]]]; split; simpl; auto.
  - exists (st_of (init_from_mesh ex_env2 ex_mi ex_fs (create ex_reg))). repeat split; vm_compute; reflexivity.
Qed.
(** the hypotheses of the round trip are met by the first three vectors of the example (the fourth is not exportable) *)
Example c46_round_trip_witness : (forall w, In w (st_vecs ex_st2) -> exportable w -> exists d dw, covers ex_mi ex_st2 w d dw /\ length dw = mi_num ex_mi d /\
     (forall a nc, field_type (mi_sd ex_mi) (sv_dt w) a nc -> elem_type (mi_sd ex_mi) a = Some (sv_dt w))).
Proof.
  set (s := ex_st2). assert (E : st_vecs s = [SVec "density" (OnMesh 0) CELL TYPE_ALL UNIVAL DT_double 0; SVec "temp" (OnMesh 0) NODE TYPE_ALL UNIVAL DT_double 1;
    SVec "flux" (OnMesh 0) FACE TYPE_ALL UNIVAL DT_arr2 2; SVec "x" (OnTile 3) CELL TYPE_ALL UNIVAL (DT_other 0) 3]) by reflexivity. rewrite E.
  intros v [<-|[<-|[<-|[<-|[]]]]] X.
  - exists 2, [7; 7; 7]%Z. split; [split; [eexists; reflexivity| | |]; try reflexivity; simpl; lia|]. split; [reflexivity|]. simpl. intros a nc ->. reflexivity.
  - exists 0, [4; 3; 2; 1]%Z. split; [split; [eexists; reflexivity| | |]; try reflexivity; simpl; lia|]. split; [reflexivity|]. simpl. intros a nc ->. reflexivity.
  - exists 1, [8; 8; 8; 8; 8; 8]%Z. split; [split; [eexists; reflexivity| | |]; try reflexivity; simpl; lia|]. split; [reflexivity|]. simpl. intros a nc [-> _]. reflexivity.
  - destruct X as [_ X]. simpl in X. intuition discriminate.
Qed.
(** Finding: an array of 2 in a 3D mesh is exported as a VECTOR of 2 components, which init_from_mesh takes for 3: get_field refuses,
    the result is ignored, and indeterminate values are copied *)
Theorem c46_wrong_components_refuted : exists e mi st fs, sizes_agree e mi /\ mi_md mi = 3 /\ mi_sd mi = 3 /\
  run e (create ex_reg) [OAdd (RVal (Key UNIVAL DT_arr2 "u" (OnMesh 0) CELL TYPE_ALL) 1%Z)] = Ok st /\
  export_to_mesh mi st [] = Ok fs /\ init_from_mesh e mi fs (create ex_reg) = UB.
Proof.
  exists (Env 0 (fun d k t => match k with CELL => 2 | NODE => 12 | FACE => 11 | _ => 0 end) [PARALLEL_OWNED; PARALLEL_OWNED]),
    (MInfo 3 3 (fun d => match d with 0 => 12 | 1 => 20 | 2 => 11 | _ => 2 end)).
  eexists _, _. split; [intros k d [<-|[<-|[<-|[]]]] H; injection H as <-; reflexivity|]. repeat (split; [vm_compute; reflexivity|]). vm_compute. reflexivity.
Qed.
(** Finding: in a 1D mesh the entities of nodes and faces are the same, so a field on nodes is imported a second time, on faces *)
Theorem c46_1d_twice_refuted : exists e mi st, sizes_agree e mi /\ mi_md mi = 1 /\
  init_from_mesh e mi [Field "t" 0 A_DOUBLE 1 [1; 2]%Z] (create ex_reg) = Ok st /\ map (fun v => (sv_name v, sv_kind v)) (st_vecs st) = [("t", NODE); ("t", FACE)].
Proof.
  exists (Env 0 (fun d k t => match k with CELL => 1 | NODE => 2 | FACE => 2 | _ => 0 end) [PARALLEL_OWNED]), (MInfo 1 1 (fun d => match d with 0 => 2 | _ => 1 end)).
  eexists. split; [intros k d [<-|[<-|[<-|[]]]] H; injection H as <-; reflexivity|]. repeat (split; [vm_compute; reflexivity|]). vm_compute. reflexivity.
Qed.
(** Finding: an existing vector on owned cells only keeps a field of that name from being imported *)
Theorem c46_owned_blocks_refuted : exists st, let st0 := st_of (run ex_env2 (create ex_reg) [OAdd (RVal (Key UNIVAL DT_int "id" (OnMesh 0) CELL PARALLEL_OWNED) 0%Z)]) in
  init_from_mesh ex_env2 ex_mi ex_fs st0 = Ok st /\ map sv_name (st_vecs st) = ["id"; "temp"; "flux"; "stress"] /\
  exists v, get st (Key UNIVAL DT_int "id" (OnMesh 0) CELL TYPE_ALL) = Some v /\ uni_values st v = Some [0; 0]%Z.
Proof.
  exists (st_of (init_from_mesh ex_env2 ex_mi ex_fs (st_of (run ex_env2 (create ex_reg) [OAdd (RVal (Key UNIVAL DT_int "id" (OnMesh 0) CELL PARALLEL_OWNED) 0%Z)])))).
  split; [vm_compute; reflexivity|]. split; [vm_compute; reflexivity|]. eexists. split; vm_compute; reflexivity.
Qed.
