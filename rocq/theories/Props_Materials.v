(** Materials in the state manager: C42-C44. *)
From Coq Require Import String Permutation.
From Verif Require Import Base Loop Defs MeshSet MeshSet_spec MeshSet_proofs MeshSet_proofs2 MeshSet_proofs3 Cache_proofs State State_spec State_proofs State_proofs2 Props_MeshSet Props_State.
Set Implicit Arguments.
Local Open Scope string_scope.
Local Open Scope list_scope.

(** ** the invariant along histories *)
Lemma mem_names name (ms : list (string * list nat)) : existsb (String.eqb name) (map fst ms) = true <-> In name (map fst ms).
Proof. rewrite existsb_exists. split; [intros [y [H Q]]; apply String.eqb_eq in Q; subst; auto|intros H; exists name; rewrite String.eqb_refl; auto]. Qed.
Lemma dup_material e used st ms name cells : minv e used st ms -> In name (map fst ms) -> add_material e st name cells = Ok st.
Proof.
  intros M H. unfold add_material. assert (X : existsb (fun p => String.eqb name (ms_name (mat_set st p))) (st_mats st) = true).
  { apply existsb_exists. apply in_map_iff in H as [x [<- Hx]]. apply In_nth_error in Hx as [j Hj]. destruct (proj2 (Forall2_nth j (mi_mats M)) x Hj) as [p [Hp G]].
    exists p. split; [eapply nth_error_In; eauto|]. rewrite (gs_name G). apply String.eqb_refl. }
  rewrite X. auto.
Qed.
Lemma firstn_last A (l : list A) m : length l = S m -> exists x, l = firstn m l ++ [x].
Proof.
  intros L. destruct (@exists_last _ l) as [l' [x ->]]; [intros ->; discriminate|]. exists x. rewrite app_length in L. simpl in L.
  rewrite firstn_app. replace (m - length l') with 0 by lia. rewrite firstn_all2 by lia. simpl. rewrite app_nil_r. auto.
Qed.
Lemma mat_ok_split e post pre : forall used st ms, (forall r, In r (adds pre) -> compiles r) -> vec_inv st -> minv e used st ms -> mat_ok e used ms (pre ++ post) ->
  forall st', run e st pre = Ok st' -> exists used', minv e used' st' (mats_of ms pre) /\ vec_inv st' /\ mat_ok e used' (mats_of ms pre) post.
Proof.
  induction pre as [|o pre IH]; intros used s ms C I M K s' E; [injection E as <-; exists used; auto|].
  unfold run in E; simpl in E; apply bind_Ok in E as [s1 [E1 E2]]. rewrite adds_cons in C.
  assert (Co : forall r, o = OAdd r -> compiles r) by (intros r ->; apply C; simpl; auto).
  assert (Cr : forall r, In r (adds pre) -> compiles r) by (intros r Hr; apply C, in_app_iff; auto).
  assert (I1 := @step_inv e _ _ _ Co I E1).
  destruct o as [r|l|v i x|v i j lay x|nm cs|m|m cs]; cbn [mats_of mat_ok app] in *;
    try (apply (IH used s1 ms); auto; exact (@minv_other e used _ _ _ ms Co I M Logic.I E1)).
  + destruct K as [[Hd K]|(Hd & Hu & V & K)].
    * rewrite (proj2 (mem_names nm ms) Hd) in *. simpl in E1. rewrite (@dup_material _ _ _ _ _ cs M Hd) in E1. injection E1 as <-. apply (IH used s ms); auto.
    * assert (X : existsb (String.eqb nm) (map fst ms) = false). { destruct (existsb _ _) eqn:X; auto. apply mem_names in X. tauto. }
      rewrite X in *. apply (IH (nm :: used) s1 (ms ++ [(nm, cs)])); auto.
      destruct (@add_material_ok e used s ms nm cs) as [s2 (E3 & M2 & _)]; auto; [|simpl in E1; congruence]. intros x Hx Q. apply Hd. rewrite <- Q. apply in_map. auto.
  + simpl in E1. destruct K as [L K]. destruct (Nat.le_gt_cases (length ms) m) as [Q|Q].
    * assert (Ls := Forall2_len (mi_mats M)). rewrite rem_none_ok in E1 by lia. injection E1 as <-.
      rewrite firstn_all2 in * by lia. rewrite skipn_all2 in * by lia. rewrite app_nil_r in *. apply (IH used s ms); auto.
    * destruct (firstn_last ms (m := m)) as [x Hx]; [lia|]. assert (Lf : length (firstn m ms) = m) by (rewrite firstn_length; lia).
      rewrite Hx in M. destruct (@rem_last_ok _ _ _ _ _ I M) as (s2 & E3 & M2 & _). rewrite Lf in E3. assert (s2 = s1) as -> by congruence.
      rewrite skipn_all2 in * by lia. rewrite app_nil_r in *. apply (IH used s1 (firstn m ms)); auto.
  + tauto.
Qed.
Lemma mat_ok_minv e ops used st ms : (forall r, In r (adds ops) -> compiles r) -> vec_inv st -> minv e used st ms -> mat_ok e used ms ops ->
  forall st', run e st ops = Ok st' -> exists used', minv e used' st' (mats_of ms ops).
Proof.
  intros C I M K st' E. destruct (@mat_ok_split e [] ops used st ms C I M) with (st' := st') as (u & M' & _); auto; [rewrite app_nil_r; auto|eauto].
Qed.
Lemma create_minv e R : reg_ok R -> minv e (set_names R) (create R) [].
Proof.
  intros H. apply minv_create; auto. intros p Hp K. unfold set_names. apply in_map_iff. exists p. split; auto. apply filter_In. split; auto. apply kind_eqb_iff; auto.
Qed.

(** ** Witness: the mesh of Props_State (3 cells, the last a ghost) *)
Definition mkey (n : string) := Key MULTIVAL DT_double n (OnMesh 0) CELL TYPE_ALL.
Definition ex_mops : list op :=
  [OAddMat "steel" [0; 2]; OAdd (RVal (mkey "rho") 5%Z); OAddMat "air" [1; 0]; OAddMat "steel" [1]; OAddMat "gone" [2; 0]; ORemMat 2].
Definition ex_mstate : state := st_of (run ex_env (create ex_reg) ex_mops).
Lemma ex_mrun : run ex_env (create ex_reg) ex_mops = Ok ex_mstate. Proof. vm_compute. reflexivity. Qed.
Lemma ex_mok : mat_ok ex_env (set_names ex_reg) [] ex_mops.
Proof.
  assert (V : forall cells, NoDup cells -> (forall c, In c cells -> c < 3) -> In 0 cells -> valid_cells ex_env cells).
  { intros cells N L H. split; auto. split; [|right; exists 0; auto]. intros c Hc. specialize (L c Hc). destruct c as [|[|[|]]]; simpl; auto; lia. }
  cbn [mat_ok ex_mops]. right. split; [simpl; tauto|]. split; [simpl; tauto|]. split; [apply V; [repeat constructor; simpl; intuition lia|simpl; intuition lia|simpl; auto]|].
  right. split; [simpl; intuition discriminate|]. split; [simpl; intuition discriminate|]. split; [apply V; [repeat constructor; simpl; intuition lia|simpl; intuition lia|simpl; auto]|].
  left. split; [simpl; auto|].
  right. split; [simpl; intuition discriminate|]. split; [simpl; intuition discriminate|]. split; [apply V; [repeat constructor; simpl; intuition lia|simpl; intuition lia|simpl; auto]|].
  split; [simpl; lia|]. exact I.
Qed.
Lemma ex_mcompile : all_compile ex_mops.
Proof. intros r [<-|[]]. exact I. Qed.

(** ** C42 *)
(** in every history that gives new names and valid cells (and removes at most the last material, C43), the tables say what was given:
    see [mat_tables] and [mats_of] *)
Theorem c42_tables_partial : forall e R ops st, all_compile ops -> reg_ok R -> mat_ok e (set_names R) [] ops ->
  run e (create R) ops = Ok st -> mat_tables e st (mats_of [] ops).
Proof.
  intros e R ops st C HR K E. destruct (@mat_ok_minv e ops (set_names R) (create R) [] C (create_inv R) (create_minv e HR) K st E) as [u M].
  eapply minv_tables; eauto.
Qed.
(** adding a material so succeeds, and the new material's cells are the given ones, owned ones first *)
Theorem c42_add_material_partial : forall e R ops st name cells, all_compile ops -> reg_ok R -> mat_ok e (set_names R) [] (ops ++ [OAddMat name cells]) ->
  run e (create R) ops = Ok st -> ~ In name (map fst (mats_of [] ops)) ->
  exists st', add_material e st name cells = Ok st' /\ mat_tables e st' (mats_of [] ops ++ [(name, cells)]).
Proof.
  intros e R ops st name cells C HR K E Hn.
  destruct (@mat_ok_split e [OAddMat name cells] ops _ _ _ C (create_inv R) (create_minv e HR) K st E) as (used & M & I & K').
  simpl in K'. destruct K' as [[Hd _]|(Hd & Hu & V & _)]; [tauto|].
  destruct (@add_material_ok e used st (mats_of [] ops) name cells) as [s2 (E3 & M2 & _)]; auto.
  { intros x Hx Q. apply Hd. rewrite <- Q. apply in_map. auto. }
  exists s2. split; auto. eapply minv_tables; eauto.
Qed.
(** adding a present material again changes nothing *)
Theorem c42_duplicate_name : forall e st ms name cells, mat_tables e st ms -> In name (map fst ms) -> add_material e st name cells = Ok st.
Proof.
  intros e st ms name cells T H. apply in_map_iff in H as [x [<- Hx]]. apply In_nth_error in Hx as [m Hm]. destruct (mt_name T m Hm) as [Hn _].
  unfold material_name in Hn. unfold add_material.
  assert (X : existsb (fun p => String.eqb (fst x) (ms_name (mat_set st p))) (st_mats st) = true).
  { destruct (nth_error (st_mats st) m) as [p|] eqn:Hp.
    - apply existsb_exists. exists p. split; [eapply nth_error_In; eauto|]. rewrite Hn. apply String.eqb_refl.
    - exfalso. apply nth_error_None in Hp. apply nth_error_lt in Hm. assert (L := mt_count T). unfold num_materials in L. lia. }
  rewrite X. auto.
Qed.
Example c42_witness : mat_ok ex_env (set_names ex_reg) [] ex_mops /\ mats_of [] ex_mops = [("steel", [0; 2]); ("air", [1; 0])] /\
  cell_materials ex_mstate 0 = Ok [0; 1] /\ cell_materials ex_mstate 1 = Ok [1] /\ material_cells ex_mstate 1 = [1; 0] /\
  cell_index_in_material ex_mstate 0 1 = Ok 1%Z /\ cell_index_in_material ex_mstate 2 1 = Ok (-1)%Z /\ reg_ok ex_reg.
Proof. split; [exact ex_mok|]. repeat (split; [reflexivity|]). intros p []. Qed.
(** Finding: cells that are all ghosts are undefined behaviour *)
Theorem c42_ghosts_only_refuted : forall e st name cells, cells <> [] -> (forall c, In c cells -> nth_error (e_types e) c = Some PARALLEL_GHOST) ->
  (forall p, In p (st_mats st) -> ms_name (mat_set st p) <> name) -> add_material e st name cells = UB.
Proof.
  intros e st name cells N G D. unfold add_material.
  assert (X : existsb (fun p => String.eqb name (ms_name (mat_set st p))) (st_mats st) = false).
  { destruct (existsb _ _) eqn:Q; auto. apply existsb_exists in Q as [p [Hp Q]]. apply String.eqb_eq in Q. exfalso. apply (D p); auto. }
  rewrite X. destruct (find_set _ _ _ _) as [p|]; cbn [bind].
  - rewrite c08_ghosts_only_refuted; auto.
  - unfold make_meshset, make_set. cbn [app index_entries bind]. rewrite c08_ghosts_only_refuted; auto.
Qed.
(** Finding: a cell set of that name that is already on the mesh is used, with the cells it has; its old cells do not list the material,
    and the vectors get values for the new cells only *)
Theorem c42_existing_set_refuted : exists R p, make_meshset (e_types ex_env) ex_reg "steel" CELL [0] [] true = Ok (R, p) /\ reg_ok R /\
  exists st, run ex_env (create R) [OAdd (RVal (mkey "rho") 5%Z); OAddMat "steel" [1]] = Ok st /\
  material_cells st 0 = [1; 0] /\ cell_materials st 0 = Ok [] /\ exists v, get st (mkey "rho") = Some v /\ multi_values st v = Some [[0%Z]].
Proof.
  eexists _, _. split; [reflexivity|]. split; [intros p [<-|[]]; simpl; lia|]. match goal with |- exists st, run ?e ?s ?o = _ /\ _ => exists (st_of (run e s o)) end.
  repeat (split; [vm_compute; reflexivity|]). exists (SVec "rho" (OnMesh 0) CELL TYPE_ALL MULTIVAL DT_double 0). split; vm_compute; reflexivity.
Qed.
(** Finding: a multi-material vector on a tile does not get values for a new material *)
Theorem c42_tile_vector_refuted : let k := Key MULTIVAL DT_double "rho" (OnTile 0) CELL TYPE_ALL in
  exists st v, run ex_env (create ex_reg) [OAdd (RVal k 5%Z); OAddMat "steel" [0; 1]] = Ok st /\ get st k = Some v /\ multi_values st v = Some [] /\
  num_materials st = 1 /\ multi_read st v 0 1 MATERIAL_CENTRIC = UB.
Proof.
  intros k. exists (st_of (run ex_env (create ex_reg) [OAdd (RVal k 5%Z); OAddMat "steel" [0; 1]])), (SVec "rho" (OnTile 0) CELL TYPE_ALL MULTIVAL DT_double 0).
  repeat (split; [vm_compute; reflexivity|]). vm_compute. reflexivity.
Qed.
(** Finding: add_cells_to_material: the new cells get no index, and old cells' values move to other cells *)
Theorem c42_add_cells_refuted : exists st v st' w, run ex_env (create ex_reg) [OAddMat "steel" [0]; OAdd (RVal (mkey "rho") 5%Z)] = Ok st /\
  get st (mkey "rho") = Some v /\ multi_write st v 0 0 MATERIAL_CENTRIC 7%Z = Ok st' /\
  add_cells_to_material ex_env st' 0 [1] = Ok w /\ material_cells w 0 = [1; 0] /\ cell_materials w 1 = Ok [0] /\
  cell_index_in_material w 1 0 = Ok (-1)%Z /\ multi_write w v 0 1 MATERIAL_CENTRIC 8%Z = Thrown /\ multi_values w v = Some [[7; 0]%Z].
Proof.
  set (st := st_of (run ex_env (create ex_reg) [OAddMat "steel" [0]; OAdd (RVal (mkey "rho") 5%Z)])).
  set (v := SVec "rho" (OnMesh 0) CELL TYPE_ALL MULTIVAL DT_double 0).
  set (st' := st_of (multi_write st v 0 0 MATERIAL_CENTRIC 7%Z)).
  exists st, v, st', (st_of (add_cells_to_material ex_env st' 0 [1])).
  repeat (split; [vm_compute; reflexivity|]). vm_compute. reflexivity.
Qed.
(** Finding: with a multi-material vector on a tile it is a null dereference *)
Theorem c42_add_cells_tile_refuted : let k := Key MULTIVAL DT_double "rho" (OnTile 0) CELL TYPE_ALL in
  exists st, run ex_env (create ex_reg) [OAddMat "steel" [0]; OAdd (RVal k 5%Z)] = Ok st /\ add_cells_to_material ex_env st 0 [1] = UB.
Proof.
  intros k. exists (st_of (run ex_env (create ex_reg) [OAddMat "steel" [0]; OAdd (RVal k 5%Z)])). split; vm_compute; reflexivity.
Qed.

(** ** C43 *)
(** removing the last material leaves the tables of the history without it *)
Theorem c43_remove_last_partial : forall e R ops st ms x, all_compile ops -> reg_ok R -> mat_ok e (set_names R) [] ops ->
  run e (create R) ops = Ok st -> mats_of [] ops = ms ++ [x] ->
  exists st', rem_material st (length ms) = Ok st' /\ mat_tables e st' ms /\ forall c, c < length (e_types e) -> exists l, cell_materials st' c = Ok l /\ ~ In (length ms) l.
Proof.
  intros e R ops st ms x C HR K E Q. destruct (@mat_ok_minv e ops (set_names R) (create R) [] C (create_inv R) (create_minv e HR) K st E) as [u M].
  rewrite Q in M. destruct (@rem_last_ok _ _ _ _ _ (@run_inv e _ _ _ C E) M) as (st' & E' & M' & _). exists st'. split; auto. assert (T := minv_tables M'). split; auto.
  intros c Hc. eexists. split; [apply (mt_cell_materials T); auto|]. intros H. apply filter_In in H as [H _]. apply in_seq in H. lia.
Qed.
Lemma erase_loop_outcome m cnt : forall i l, (exists l', erase_loop m i cnt l = Ok l') \/ erase_loop m i cnt l = UB.
Proof.
  induction cnt as [|cnt IH]; intros i l; [left; exists l; auto|]. simpl. destruct (rd l i) as [x| | | |] eqn:R; unfold rd in R; destruct (nth_error l i); try discriminate; simpl; auto.
  destruct (Nat.eqb m x); [|apply IH]. unfold erase_at. destruct (i <? length l)%nat; simpl; auto.
Qed.
Lemma erase_cells_outcome m cells : forall cm, (exists cm', foldM cells (erase_mat m) cm = Ok cm') \/ foldM cells (erase_mat m) cm = UB.
Proof.
  induction cells as [|c cells IH]; intros cm; [left; exists cm; auto|]. simpl.
  assert (S : (exists cm', erase_mat m c cm = Ok cm') \/ erase_mat m c cm = UB).
  { unfold erase_mat, rd. destruct (nth_error cm c); simpl; auto. destruct (erase_loop_outcome m (length l) 0 l) as [[l' El]|El]; rewrite El; simpl; auto.
    unfold wr. destruct (c <? length cm)%nat; eauto. }
  destruct S as [[cm' El]|El]; rewrite El; simpl; auto.
Qed.
Lemma erase_cells_UB m cells c l1 b l2 : NoDup cells -> In c cells -> ~ In m l1 -> ~ In m (b :: l2) ->
  forall cm, nth_error cm c = Some (l1 ++ m :: b :: l2) -> foldM cells (erase_mat m) cm = UB.
Proof.
  intros N Hc N1 N2. induction cells as [|a cells IH]; [destruct Hc|]. intros cm H. inversion N as [|? ? Na N']; subst. simpl.
  destruct (Nat.eq_dec a c) as [->|Ne].
  - unfold erase_mat at 1. rewrite (proj2 (rd_Ok _ _ _) H). cbn [bind]. rewrite erase_loop_mid by auto. auto.
  - destruct Hc as [Hc|Hc]; [congruence|]. destruct (erase_mat m a cm) as [cm'| | | |] eqn:Q; simpl; auto.
    + apply IH; auto. unfold erase_mat in Q. apply bind_Ok in Q as [l [_ Q]]. apply bind_Ok in Q as [l' [_ Q]]. apply wr_Ok in Q as [_ ->]. rewrite nth_error_set_nth_ne; auto.
    + destruct (erase_cells_outcome m [a] cm) as [[x X]|X]; simpl in X; rewrite Q in X; simpl in X; discriminate.
    + destruct (erase_cells_outcome m [a] cm) as [[x X]|X]; simpl in X; rewrite Q in X; simpl in X; discriminate.
    + destruct (erase_cells_outcome m [a] cm) as [[x X]|X]; simpl in X; rewrite Q in X; simpl in X; discriminate.
Qed.
(** Finding: removing a material one of whose cells has a later material too is undefined behaviour, in every state with sound tables:
    the loop over a cell's materials goes on to the old number of materials *)
Theorem c43_shared_cell_refuted : forall e st ms m m' x y c, mat_tables e st ms -> nth_error ms m = Some x -> nth_error ms m' = Some y -> m < m' ->
  NoDup (snd x) -> In c (snd x) -> In c (snd y) -> c < length (e_types e) -> rem_material st m = UB.
Proof.
  intros e st ms m m' x y c T Hx Hy L N Cx Cy Lc. unfold rem_material. assert (Lm := mt_count T). unfold num_materials in Lm.
  assert (B := nth_error_lt _ _ Hx). assert (B' := nth_error_lt _ _ Hy).
  destruct (nth_error (st_mats st) m) as [p|] eqn:Hp; [|apply nth_error_None in Hp; lia].
  assert (P := mt_cells T m Hx). unfold material_cells in P. rewrite Hp in P.
  assert (SQ : seq 0 (length ms) = seq 0 m ++ m :: seq (S m) (length ms - S m)).
  { replace (length ms) with (m + S (length ms - S m)) at 1 by lia. rewrite seq_app. simpl. auto. }
  assert (F := mt_cell_materials T Lc). rewrite SQ, filter_app in F. cbn [filter] in F.
  assert (Hm : has_cell ms c m = true) by (unfold has_cell; rewrite Hx; apply memb_spec; auto). rewrite Hm in F.
  assert (Hm' : In m' (filter (has_cell ms c) (seq (S m) (length ms - S m)))).
  { apply filter_In. split; [apply in_seq; lia|]. unfold has_cell. rewrite Hy. apply memb_spec; auto. }
  assert (Nm : ~ In m (filter (has_cell ms c) (seq (S m) (length ms - S m)))) by (intros Q; apply filter_In in Q as [Q _]; apply in_seq in Q; lia).
  assert (Nl : ~ In m (filter (has_cell ms c) (seq 0 m))) by (intros Q; apply filter_In in Q as [Q _]; apply in_seq in Q; lia).
  destruct (filter (has_cell ms c) (seq (S m) (length ms - S m))) as [|b l2] eqn:Fl; [destruct Hm'|].
  unfold cell_materials in F. destruct (st_mats st) as [|q mats] eqn:Em; [destruct m; discriminate|]. apply rd_Ok in F.
  change (foldM (ms_all (mat_set st p)) _ (st_cellmats st)) with (foldM (ms_all (mat_set st p)) (erase_mat m) (st_cellmats st)).
  rewrite (@erase_cells_UB m (ms_all (mat_set st p)) c (filter (has_cell ms c) (seq 0 m)) b l2); auto.
  - apply (Permutation_NoDup (Permutation_sym P)). auto.
  - eapply Permutation_in; [apply Permutation_sym; eauto|auto].
Qed.
(** Finding: when the cells are disjoint the later materials are renumbered, but not in the cells' lists *)
Theorem c43_renumbering_refuted : exists st st', run ex_env (create ex_reg) [OAddMat "steel" [0]; OAddMat "air" [1]] = Ok st /\
  rem_material st 0 = Ok st' /\ num_materials st' = 1 /\ material_name st' 0 = "air" /\ material_cells st' 0 = [1] /\ cell_materials st' 1 = Ok [1] /\ material_name st' 1 = "UNDEFINED_MATERIAL".
Proof.
  set (st := st_of (run ex_env (create ex_reg) [OAddMat "steel" [0]; OAddMat "air" [1]])).
  exists st, (st_of (rem_material st 0)). repeat (split; [vm_compute; reflexivity|]). vm_compute. reflexivity.
Qed.
(** Finding: the mesh set keeps its cells, so a removed material that is added again has its cells twice *)
Theorem c43_readding_refuted : exists st, run ex_env (create ex_reg) [OAddMat "steel" [0]; ORemMat 0; OAddMat "steel" [0]] = Ok st /\
  material_cells st 0 = [0; 0] /\ num_material_cells st 0 = 2.
Proof.
  exists (st_of (run ex_env (create ex_reg) [OAddMat "steel" [0]; ORemMat 0; OAddMat "steel" [0]])).
  repeat (split; [vm_compute; reflexivity|]). vm_compute. reflexivity.
Qed.
Example c43_witness : mats_of [] ex_mops = [("steel", [0; 2])] ++ [("air", [1; 0])] /\ rem_material ex_mstate 0 = UB /\
  exists st', rem_material ex_mstate 1 = Ok st' /\ cell_materials st' 0 = Ok [0] /\ cell_materials st' 1 = Ok [].
Proof.
  split; [reflexivity|]. split; [vm_compute; reflexivity|]. exists (st_of (rem_material ex_mstate 1)).
  repeat (split; [vm_compute; reflexivity|]). vm_compute. reflexivity.
Qed.

(** ** C44 *)
(** the two layouts name the same element *)
Theorem c44_layouts_agree : forall st v m c x,
  multi_read st v c m CELL_CENTRIC = multi_read st v m c MATERIAL_CENTRIC /\ multi_write st v c m CELL_CENTRIC x = multi_write st v m c MATERIAL_CENTRIC x.
Proof. intros. split; reflexivity. Qed.
(** positions of cells *)
Lemma table_index e st ms m x c : mat_tables e st ms -> nth_error ms m = Some x -> c < length (e_types e) ->
  exists p, nth_error (st_mats st) m = Some p /\ (m <? length (st_mats st))%nat = true /\
    ((In c (snd x) /\ exists k, index_in_set (mat_set st p) c = Ok (Z.of_nat k) /\ k < length (snd x) /\ nth_error (ms_all (mat_set st p)) k = Some c) \/
     (~ In c (snd x) /\ index_in_set (mat_set st p) c = Ok (-1)%Z)).
Proof.
  intros T Hx Hc. assert (B := nth_error_lt _ _ Hx). assert (L := mt_count T). unfold num_materials in L.
  destruct (nth_error (st_mats st) m) as [p|] eqn:Hp; [|apply nth_error_None in Hp; lia]. exists p. split; auto.
  split; [apply Nat.ltb_lt; lia|]. destruct (mt_index T m Hx Hc) as [z [Ez H]]. unfold cell_index_in_material, material_cells in *. rewrite Hp in *.
  assert (P := mt_cells T m Hx). unfold material_cells in P. rewrite Hp in P.
  destruct H as [[k [-> Hk]]|[-> Hn]]; [left|right; auto]. split; [eapply Permutation_in; [exact P|eapply nth_error_In; eauto]|].
  exists k. split; auto. split; auto. rewrite <- (Permutation_length P). eapply nth_error_lt; eauto.
Qed.
Lemma read_at e st ms v m x c k p rows row : mat_tables e st ms -> nth_error ms m = Some x -> nth_error (st_mats st) m = Some p ->
  index_in_set (mat_set st p) c = Ok (Z.of_nat k) -> multi_values st v = Some rows -> nth_error rows m = Some row -> k < length row ->
  multi_read st v m c MATERIAL_CENTRIC = rd row k.
Proof.
  intros T Hx Hp Ix Hr Hw Hk. unfold multi_read. cbn [mat_arg cell_arg]. assert (B : (m <? length (st_mats st))%nat = true) by (apply Nat.ltb_lt; eapply nth_error_lt; eauto).
  rewrite B, (proj2 (rd_Ok _ _ _) Hp). cbn [bind]. rewrite Ix. cbn [bind]. destruct (Z.eqb_spec (Z.of_nat k) (-1)); [lia|].
  unfold multi_values in Hr. rewrite (proj2 (rd_Ok _ _ _) Hr). cbn [bind]. rewrite (proj2 (rd_Ok _ _ _) Hw). cbn [bind].
  unfold rdz. destruct (Z.ltb_spec (Z.of_nat k) 0); [lia|]. rewrite Nat2Z.id. auto.
Qed.
Lemma row_of e st ms v d m x rows : mat_tables e st ms -> In v (st_vecs st) -> sv_vt v = MULTIVAL -> sv_dom v = OnMesh d -> nth_error ms m = Some x ->
  multi_values st v = Some rows -> exists row, nth_error rows m = Some row /\ length row = length (snd x).
Proof.
  intros T Hv Vv Dv Hx Hr. destruct (mt_vectors T v Hv Vv Dv) as [r [H1 H2]]. assert (r = rows) as -> by congruence.
  assert (Q : nth_error (map (@length Z) rows) m = Some (length (snd x))) by (rewrite H2, nth_error_map, Hx; auto).
  rewrite nth_error_map in Q. destruct (nth_error rows m) as [row|]; [|discriminate]. injection Q as Q. eauto.
Qed.
(** reading: an element of a material and one of its cells has a value; other cells read as 0; there is no other material *)
Theorem c44_read : forall e st ms v d m c, mat_tables e st ms -> In v (st_vecs st) -> sv_vt v = MULTIVAL -> sv_dom v = OnMesh d -> c < length (e_types e) ->
  match nth_error ms m with
  | None => multi_read st v m c MATERIAL_CENTRIC = AssertFail
  | Some x => (In c (snd x) -> exists a, multi_read st v m c MATERIAL_CENTRIC = Ok a) /\ (~ In c (snd x) -> multi_read st v m c MATERIAL_CENTRIC = Ok 0%Z)
  end.
Proof.
  intros e st ms v d m c T Hv Vv Dv Hc. destruct (nth_error ms m) as [x|] eqn:Hx.
  - destruct (@table_index _ _ _ m _ _ T Hx Hc) as (p & Hp & B & [[Hi (k & Ix & Lk & _)]|[Hi Ix]]); split; intros Q; try tauto.
    + destruct (mt_vectors T v Hv Vv Dv) as [rows [Hr _]]. destruct (@row_of e st ms v d m x rows T Hv Vv Dv Hx Hr) as [row [Hw Lw]].
      rewrite (@read_at e st ms v m x c k p rows row) by (auto; lia). destruct (nth_error row k) as [a|] eqn:Ha; [exists a; apply rd_Ok; auto|apply nth_error_None in Ha; lia].
    + unfold multi_read. cbn [mat_arg cell_arg]. rewrite B, (proj2 (rd_Ok _ _ _) Hp). cbn [bind]. rewrite Ix. auto.
  - unfold multi_read. cbn [mat_arg cell_arg]. apply nth_error_None in Hx. assert (L := mt_count T). unfold num_materials in L.
    destruct (Nat.ltb_spec m (length (st_mats st))); [lia|auto].
Qed.
(** writing: the element then has the value; all other elements of this vector, and other vectors, are unchanged; writing to a cell
    without the material throws *)
Theorem c44_write : forall e st ms v d m c x a, mat_tables e st ms -> In v (st_vecs st) -> sv_vt v = MULTIVAL -> sv_dom v = OnMesh d ->
  c < length (e_types e) -> nth_error ms m = Some x ->
  (In c (snd x) -> exists st', multi_write st v m c MATERIAL_CENTRIC a = Ok st' /\ mat_tables e st' ms /\
     multi_read st' v m c MATERIAL_CENTRIC = Ok a /\
     (forall m' c', (m', c') <> (m, c) -> c' < length (e_types e) -> multi_read st' v m' c' MATERIAL_CENTRIC = multi_read st v m' c' MATERIAL_CENTRIC) /\
     (forall w, sv_data w <> sv_data v -> multi_values st' w = multi_values st w) /\ (forall w, uni_values st' w = uni_values st w)) /\
  (~ In c (snd x) -> multi_write st v m c MATERIAL_CENTRIC a = Thrown).
Proof.
  intros e st ms v d m c x a T Hv Vv Dv Hc Hx.
  destruct (@table_index _ _ _ m _ _ T Hx Hc) as (p & Hp & B & [[Hi (k & Ix & Lk & Hk)]|[Hi Ix]]); split; intros Q; try tauto.
  - destruct (mt_vectors T v Hv Vv Dv) as [rows [Hr Hrows]]. destruct (@row_of e st ms v d m x rows T Hv Vv Dv Hx Hr) as [row [Hw Lw]].
    assert (Lr := nth_error_lt _ _ Hr). assert (Lm := nth_error_lt _ _ Hw).
    set (st' := set_multi st (set_nth (st_multi st) (sv_data v) (set_nth rows m (set_nth row k a)))).
    assert (E : multi_write st v m c MATERIAL_CENTRIC a = Ok st').
    { unfold multi_write. cbn [mat_arg cell_arg]. rewrite B, (proj2 (rd_Ok _ _ _) Hp). cbn [bind]. rewrite Ix. cbn [bind]. destruct (Z.eqb_spec (Z.of_nat k) (-1)); [lia|].
      unfold multi_values in Hr. rewrite (proj2 (rd_Ok _ _ _) Hr). cbn [bind]. rewrite (proj2 (rd_Ok _ _ _) Hw). cbn [bind].
      unfold wrz. destruct (Z.ltb_spec (Z.of_nat k) 0); [lia|]. rewrite Nat2Z.id. rewrite wr_ok by lia. cbn [bind]. rewrite wr_ok by auto. cbn [bind]. rewrite wr_ok by auto. reflexivity. }
    exists st'. split; auto.
    assert (Hr' : multi_values st' v = Some (set_nth rows m (set_nth row k a))) by (unfold multi_values; simpl; apply nth_error_set_nth_eq; auto).
    assert (T' : mat_tables e st' ms).
    { destruct T as [T1 T2 T3 T4 T5 T6]. constructor; auto. intros w k' Hw' Vw' Dw'. destruct (T6 w k' Hw' Vw' Dw') as [r [R1 R2]].
      destruct (Nat.eq_dec (sv_data v) (sv_data w)) as [D|D].
      - exists (set_nth rows m (set_nth row k a)). split; [unfold multi_values in *; rewrite <- D; auto|].
        assert (r = rows) as -> by (unfold multi_values in *; rewrite D in *; congruence).
        rewrite map_set_nth, set_nth_length, <- R2. apply set_nth_same. rewrite nth_error_map, Hw. auto.
      - exists r. split; auto. unfold multi_values in *. simpl. rewrite nth_error_set_nth_ne by auto. auto. }
    split; auto. split.
    { rewrite (@read_at e st' ms v m x c k p _ (set_nth row k a) T' Hx Hp Ix Hr'); [|apply nth_error_set_nth_eq; auto|rewrite set_nth_length; lia].
      apply rd_Ok. apply nth_error_set_nth_eq. lia. }
    split; [|split].
    + intros m' c' Nm Hc'. destruct (nth_error ms m') as [x'|] eqn:Hx'.
      * destruct (@table_index _ _ _ _ _ _ T Hx' Hc') as (p' & Hp' & B' & [[Hi' (k' & Ix' & Lk' & Hk')]|[Hi' Ix']]).
        -- destruct (@row_of e st ms v d m' x' rows T Hv Vv Dv Hx' Hr) as [row' [Hw' Lw']].
           rewrite (@read_at e st ms v m' x' c' k' p' rows row') by (auto; lia).
           destruct (Nat.eq_dec m m') as [<-|Dm].
           ++ assert (p' = p) as -> by congruence. assert (row' = row) as -> by congruence. assert (Dk : k <> k') by (intros <-; apply Nm; f_equal; congruence).
              rewrite (@read_at e st' ms v m x' c' k' p _ (set_nth row k a) T' Hx' Hp Ix' Hr'); [|apply nth_error_set_nth_eq; auto|rewrite set_nth_length; lia].
              unfold rd. rewrite nth_error_set_nth_ne by auto. auto.
           ++ rewrite (@read_at e st' ms v m' x' c' k' p' _ row' T' Hx' Hp' Ix' Hr'); [auto|rewrite nth_error_set_nth_ne; auto|lia].
        -- unfold multi_read. cbn [mat_arg cell_arg]. change (st_mats st') with (st_mats st). rewrite B', (proj2 (rd_Ok _ _ _) Hp'). cbn [bind].
           change (mat_set st' p') with (mat_set st p'). rewrite Ix'. auto.
      * unfold multi_read. cbn [mat_arg cell_arg]. change (st_mats st') with (st_mats st). apply nth_error_None in Hx'. assert (L := mt_count T). unfold num_materials in L.
        destruct (Nat.ltb_spec m' (length (st_mats st))); [lia|auto].
    + intros w Dw. unfold multi_values. simpl. apply nth_error_set_nth_ne. auto.
    + intros w. reflexivity.
  - unfold multi_write. cbn [mat_arg cell_arg]. rewrite B, (proj2 (rd_Ok _ _ _) Hp). cbn [bind]. rewrite Ix. auto.
Qed.

(** a new material's elements are 0, the elements of the old ones keep their values *)
Lemma read_after_material e used st ms name cells st' v d m c x : vec_inv st -> minv e used st ms -> ~ In name used -> valid_cells e cells ->
  ~ In name (map fst ms) -> add_material e st name cells = Ok st' -> In v (st_vecs st) -> sv_vt v = MULTIVAL -> sv_dom v = OnMesh d ->
  nth_error ms m = Some x -> multi_read st' v m c MATERIAL_CENTRIC = multi_read st v m c MATERIAL_CENTRIC.
Proof.
  intros I M Hu V Hd E Hv Vv Dv Hx.
  destruct (@add_material_ok e used st ms name cells) as (s2 & E3 & M2 & [p Hp] & Hq & Hr); auto.
  { intros y Hy Q. apply Hd. rewrite <- Q. apply in_map. auto. }
  assert (s2 = st') as -> by congruence.
  destruct (proj2 (Forall2_nth m (mi_mats M)) x Hx) as [q [Hqm _]]. assert (Lq := nth_error_lt _ _ Hqm).
  unfold multi_read. cbn [mat_arg cell_arg]. rewrite Hp, app_length. simpl length.
  destruct (Nat.ltb_spec m (length (st_mats st))); [|lia]. destruct (Nat.ltb_spec m (length (st_mats st) + 1)); [|lia].
  assert (Hqm' : nth_error (st_mats st ++ [p]) m = Some q) by (rewrite nth_error_app1; auto).
  rewrite (proj2 (rd_Ok _ _ _) Hqm), (proj2 (rd_Ok _ _ _) Hqm'). cbn [bind]. rewrite Hq by (eapply nth_error_In; eauto).
  destruct (index_in_set (mat_set st q) c) as [z| | | |]; cbn [bind]; auto. destruct (z =? -1)%Z; auto.
  destruct (mi_vec M v Hv Vv Dv) as [rows [R1 R2]]. assert (R3 : nth_error (st_multi st') (sv_data v) = Some (rows ++ [repeat 0%Z (length cells)])).
  { apply Hr; auto. apply is_mm_iff. eauto. }
  rewrite (proj2 (rd_Ok _ _ _) R1), (proj2 (rd_Ok _ _ _) R3). cbn [bind]. unfold rd. rewrite nth_error_app1; auto.
  rewrite <- (map_length (@length Z)), R2. unfold row_sizes. rewrite map_length. eapply nth_error_lt; eauto.
Qed.
Theorem c44_new_material_is_zero_partial : forall e R ops st name cells st' v d c, all_compile ops -> reg_ok R -> mat_ok e (set_names R) [] (ops ++ [OAddMat name cells]) ->
  run e (create R) ops = Ok st -> ~ In name (map fst (mats_of [] ops)) -> add_material e st name cells = Ok st' ->
  In v (st_vecs st) -> sv_vt v = MULTIVAL -> sv_dom v = OnMesh d -> In c cells ->
  multi_read st' v (length (mats_of [] ops)) c MATERIAL_CENTRIC = Ok 0%Z.
Proof.
  intros e R ops st name cells st' v d c C HR K E Hn EA Hv Vv Dv Hc.
  destruct (@mat_ok_split e [OAddMat name cells] ops _ _ _ C (create_inv R) (create_minv e HR) K st E) as (used & M & I & K').
  simpl in K'. destruct K' as [[Hd _]|(Hd & Hu & V & _)]; [tauto|].
  destruct (@add_material_ok e used st (mats_of [] ops) name cells) as (s2 & E3 & M2 & [p Hp] & Hq & Hr); auto.
  { intros y Hy Q. apply Hn. rewrite <- Q. apply in_map. auto. }
  assert (s2 = st') as -> by congruence. destruct (mi_vec M v Hv Vv Dv) as [rows [R1 R2]].
  assert (R3 := Hr v rows Hv (proj2 (is_mm_iff v) (conj Vv (ex_intro _ d Dv))) R1).
  assert (T := minv_tables M2). set (ms := mats_of [] ops) in *.
  assert (Hx : nth_error (ms ++ [(name, cells)]) (length ms) = Some (name, cells)) by (apply nth_error_mid; auto).
  assert (Lc : c < length (e_types e)) by (apply (mi_valid M2 (name, cells) c); [apply in_app_iff; simpl; auto|auto]).
  destruct (@table_index _ _ _ _ _ _ T Hx Lc) as (q & Hqm & B & [[Hi (k & Ix & Lk & Hk)]|[Hi _]]); [|simpl in Hi; tauto]. simpl in Lk.
  rewrite (@read_at e st' _ v _ _ c k q _ (repeat 0%Z (length cells)) T Hx Hqm Ix R3).
  - apply rd_Ok. apply nth_error_repeat_Some. auto.
  - apply nth_error_mid. rewrite <- (map_length (@length Z)), R2. unfold row_sizes. rewrite map_length. auto.
  - rewrite repeat_length. auto.
Qed.
Lemma multi_write_data st v w m c a lay : sv_data w = sv_data v -> multi_write st w m c lay a = multi_write st v m c lay a.
Proof. intros D. unfold multi_write. rewrite D. auto. Qed.
Lemma multi_read_values st st' v m c : st_mats st' = st_mats st -> st_sets st' = st_sets st -> multi_values st' v = multi_values st v ->
  multi_read st' v m c MATERIAL_CENTRIC = multi_read st v m c MATERIAL_CENTRIC.
Proof. intros A B D. unfold multi_read, multi_values, mat_set, rd in *. rewrite A, B, D. auto. Qed.
(** removing the last material leaves the values of the others *)
Lemma read_after_removal e used st ms x st' v d m c y : vec_inv st -> minv e used st (ms ++ [x]) -> rem_material st (length ms) = Ok st' ->
  In v (st_vecs st) -> sv_vt v = MULTIVAL -> sv_dom v = OnMesh d -> nth_error ms m = Some y ->
  multi_read st' v m c MATERIAL_CENTRIC = multi_read st v m c MATERIAL_CENTRIC.
Proof.
  intros I M E Hv Vv Dv Hy. destruct (@rem_last_ok e used st ms x I M) as (s2 & E2 & M2 & [p Hp] & Hs & Hr). assert (s2 = st') as -> by congruence.
  destruct (proj2 (Forall2_nth m (mi_mats M2)) y Hy) as [q [Hq _]]. assert (Lq := nth_error_lt _ _ Hq).
  unfold multi_read. cbn [mat_arg cell_arg]. unfold mat_set. rewrite Hp, app_length, Hs. simpl length.
  destruct (Nat.ltb_spec m (length (st_mats st'))); [|lia]. destruct (Nat.ltb_spec m (length (st_mats st') + 1)); [|lia].
  assert (Hq' : nth_error (st_mats st' ++ [p]) m = Some q) by (rewrite nth_error_app1; auto).
  rewrite (proj2 (rd_Ok _ _ _) Hq), (proj2 (rd_Ok _ _ _) Hq'). cbn [bind].
  destruct (index_in_set _ c) as [z| | | |]; cbn [bind]; auto. destruct (z =? -1)%Z; auto.
  destruct (mi_vec M v Hv Vv Dv) as [rows [R1 R2]]. destruct (Hr v d rows Hv Vv Dv R1) as (r & w & -> & R3).
  rewrite (proj2 (rd_Ok _ _ _) R1), (proj2 (rd_Ok _ _ _) R3). cbn [bind]. unfold rd. rewrite nth_error_app1; auto.
  unfold row_sizes in R2. rewrite !map_app in R2. simpl in R2. apply app_inj_tail in R2 as [R2 _]. rewrite <- (map_length (@length Z)), R2, map_length. eapply nth_error_lt; eauto.
Qed.
(** what is read is what was last written, over histories of any length that add vectors and materials, write, and remove materials, not this one *)
Theorem c44_reads_last_written_partial : forall e R pre ops st st' v d m c x a, all_compile pre -> all_compile ops -> reg_ok R ->
  mat_ok e (set_names R) [] (pre ++ ops) -> ~ In (ORemMat m) ops ->
  run e (create R) pre = Ok st -> run e st ops = Ok st' -> In v (st_vecs st) -> sv_vt v = MULTIVAL -> sv_dom v = OnMesh d ->
  nth_error (mats_of [] pre) m = Some x -> In c (snd x) -> multi_read st v m c MATERIAL_CENTRIC = Ok a ->
  multi_read st' v m c MATERIAL_CENTRIC = Ok (last_written v m c ops a).
Proof.
  intros e R pre ops st st' v d m c x a Cp Co HR K NR Ep Eo Hv Vv Dv Hx Hc Ra.
  destruct (@mat_ok_split e ops pre _ _ _ Cp (create_inv R) (create_minv e HR) K st Ep) as (used & M & I & K'). clear K Ep Cp HR.
  revert Hx K' M. generalize (mats_of [] pre). clear pre R. intros ms Hx K M. unfold all_compile in Co.
  revert st used ms a Hv Hx K M I Ra Eo. induction ops as [|o ops IH]; intros st used ms a Hv Hx K M I Ra Eo; [injection Eo as <-; exact Ra|].
  unfold run in Eo; simpl in Eo; apply bind_Ok in Eo as [s1 [E1 E2]]. rewrite adds_cons in Co.
  assert (Cx : forall r, o = OAdd r -> compiles r) by (intros r ->; apply Co; simpl; auto).
  assert (Cr : forall r, In r (adds ops) -> compiles r) by (intros r Hr; apply Co, in_app_iff; auto).
  assert (I1 := @step_inv e _ _ _ Cx I E1).
  assert (NR' : ~ In (ORemMat m) ops) by (intros Hk; apply NR; simpl; auto).
  assert (Hv1 : In v (st_vecs s1)). { destruct (@step_grows e st o s1 Cx E1) as [more ->]. apply in_app_iff. auto. }
  assert (ONE : forall used1 ms1, nth_error ms1 m = Some x -> mat_ok e used1 ms1 ops -> minv e used1 s1 ms1 ->
     multi_read s1 v m c MATERIAL_CENTRIC = Ok (last_written v m c [o] a) -> multi_read st' v m c MATERIAL_CENTRIC = Ok (last_written v m c (o :: ops) a)).
  { intros used1 ms1 Hx1 K1 M1 R1. apply (IH Cr NR' s1 used1 ms1 (last_written v m c [o] a)); auto. }
  assert (Lv : sv_data v < length (st_multi st)) by (apply (vi_multi I); auto).
  destruct o as [r|l|u i y|u i j lay y|nm cs|k|k cs]; cbn [mat_ok] in K.
  - apply (ONE used ms); auto; [exact (@minv_other e used _ _ _ ms Cx I M Logic.I E1)|]. cbn [last_written fold_left]. rewrite <- Ra. simpl in E1.
    apply bind_Ok in E1 as [[s2 n] [E1 Q]]. injection Q as <-. destruct (@add_cases e st r s2 n (Cx r eq_refl) E1) as [[_ ->]|[_ [_ [pl [_ S]]]]]; auto. cbn [fst].
    apply multi_read_values; [apply (sd_mats S)|apply (sd_sets S)|]. unfold multi_values. rewrite (sd_multi S). destruct pl; auto. rewrite nth_error_app1; auto.
  - apply (ONE used ms); auto; [exact (@minv_other e used _ _ _ ms Cx I M Logic.I E1)|]. cbn [last_written fold_left]. rewrite <- Ra. simpl in E1. injection E1 as <-. reflexivity.
  - apply (ONE used ms); auto; [exact (@minv_other e used _ _ _ ms Cx I M Logic.I E1)|]. cbn [last_written fold_left]. rewrite <- Ra. simpl in E1.
    apply uni_write_spec in E1 as (b & b' & _ & _ & -> & _). reflexivity.
  - apply (ONE used ms); auto; [exact (@minv_other e used _ _ _ ms Cx I M Logic.I E1)|]. cbn [last_written fold_left]. simpl in E1.
    assert (EM : multi_write st u (mat_arg lay i j) (cell_arg lay i j) MATERIAL_CENTRIC y = Ok s1) by (destruct lay; exact E1).
    clear E1. set (m' := mat_arg lay i j) in *. set (c' := cell_arg lay i j) in *. clearbody m' c'. assert (T := minv_tables M).
    assert (Lc : c < length (e_types e)) by (apply (mi_valid M x c); auto; eapply nth_error_In; eauto).
    destruct (Nat.eqb_spec (sv_data u) (sv_data v)) as [D|D]; cbn [andb].
    + rewrite (@multi_write_data st v u m' c' y MATERIAL_CENTRIC D) in EM.
      assert (X' : exists x', nth_error ms m' = Some x').
      { unfold multi_write in EM. cbn [mat_arg cell_arg] in EM. destruct (Nat.ltb_spec m' (length (st_mats st))) as [L|L]; [|discriminate].
        rewrite (Forall2_len (mi_mats M)) in L. destruct (nth_error ms m') as [x'|] eqn:Q; [eauto|apply nth_error_None in Q; lia]. }
      destruct X' as [x' Hx'].
      assert (Lc' : c' < length (e_types e)).
      { unfold multi_write in EM. cbn [mat_arg cell_arg] in EM. destruct (m' <? length (st_mats st))%nat; [|discriminate]. apply bind_Ok in EM as [p [Hp EM]]. apply rd_Ok in Hp.
        destruct (proj1 (Forall2_nth m' (mi_mats M)) p Hp) as [x2 [_ G]]. destruct (gs_cons G) as (W & _ & _). assert (Lr := wf_rev_len W). rewrite (gs_rev G) in Lr.
        apply bind_Ok in EM as [z [Hz EM]]. unfold index_in_set in Hz. destruct (ms_rev (mat_set st p)) as [|a0 rv] eqn:Rv; [injection Hz as <-; discriminate|].
        apply rd_Ok in Hz. rewrite <- Lr. eapply nth_error_lt; eauto. }
      destruct (@c44_write e st ms v d m' c' x' y T Hv Vv Dv Lc' Hx') as [W1 W2].
      destruct (in_dec Nat.eq_dec c' (snd x')) as [Hi|Hi]; [|rewrite (W2 Hi) in EM; discriminate].
      destruct (W1 Hi) as (s2 & E3 & _ & Rd & Fr & _). assert (s2 = s1) as -> by congruence.
      destruct (Nat.eqb_spec m' m) as [->|Dm]; cbn [andb].
      * destruct (Nat.eqb_spec c' c) as [->|Dc]; [exact Rd|]. rewrite Fr; auto. congruence.
      * rewrite Fr; auto. congruence.
    + rewrite <- Ra. unfold multi_write in EM. cbn [mat_arg cell_arg] in EM. destruct (_ <? _)%nat; [|discriminate]. apply bind_Ok in EM as [q [_ EM]]. apply bind_Ok in EM as [cl [_ EM]].
      destruct (cl =? -1)%Z; [discriminate|]. apply bind_Ok in EM as [rows [_ EM]]. apply bind_Ok in EM as [row [_ EM]].
      apply bind_Ok in EM as [row' [_ EM]]. apply bind_Ok in EM as [rows' [_ EM]]. apply bind_Ok in EM as [w [E7 EM]]. injection EM as <-. apply wr_Ok in E7 as [_ ->].
      apply multi_read_values; auto. unfold multi_values. simpl. apply nth_error_set_nth_ne. auto.
  - simpl in E1. destruct K as [[Hd K]|(Hd & Hu & V & K)].
    + rewrite (@dup_material _ _ _ _ _ cs M Hd) in E1. injection E1 as <-. apply (ONE used ms); auto.
    + destruct (@add_material_ok e used st ms nm cs) as [s2 (E3 & M2 & _)]; auto. { intros z Hz Q. apply Hd. rewrite <- Q. apply in_map. auto. }
      assert (s2 = s1) as -> by congruence. apply (ONE (nm :: used) (ms ++ [(nm, cs)])); auto.
      * rewrite nth_error_app1; auto. eapply nth_error_lt; eauto.
      * cbn [last_written fold_left]. rewrite <- Ra. eapply read_after_material; eauto.
  - cbn [mat_ok] in K. destruct K as [Lk K]. simpl in E1. assert (Dk : k <> m) by (intros ->; apply NR; simpl; auto). assert (Lx := nth_error_lt _ _ Hx).
    destruct (Nat.le_gt_cases (length ms) k) as [Q|Q].
    + assert (Ls := Forall2_len (mi_mats M)). rewrite rem_none_ok in E1 by lia. injection E1 as <-. rewrite firstn_all2 in K by lia. apply (ONE used ms); auto.
    + destruct (firstn_last ms (m := k)) as [y Hy]; [lia|]. assert (Lf : length (firstn k ms) = k) by (rewrite firstn_length; lia).
      assert (Hx2 : nth_error (firstn k ms) m = Some x) by (rewrite Hy, nth_error_app1 in Hx by lia; exact Hx).
      assert (M0 := M). rewrite Hy in M0. destruct (@rem_last_ok _ _ _ _ _ I M0) as (s2 & E3 & M2 & _). rewrite Lf in E3. assert (s2 = s1) as -> by congruence.
      apply (ONE used (firstn k ms)); auto. cbn [last_written fold_left]. rewrite <- Ra. eapply read_after_removal; eauto. rewrite Lf. exact E3.
  - tauto.
Qed.
Definition ex_v : svec := SVec "rho" (OnMesh 0) CELL TYPE_ALL MULTIVAL DT_double 0.
Definition ex_writes : list op := [OMWrite ex_v 1 1 CELL_CENTRIC 8%Z; OMWrite ex_v 1 0 MATERIAL_CENTRIC 9%Z; OMWrite ex_v 0 0 CELL_CENTRIC 4%Z].
Example c44_witness : get ex_mstate (mkey "rho") = Some ex_v /\
  multi_read ex_mstate ex_v 0 2 MATERIAL_CENTRIC = Ok 5%Z /\ multi_read ex_mstate ex_v 1 0 MATERIAL_CENTRIC = Ok 0%Z /\
  multi_read ex_mstate ex_v 1 2 MATERIAL_CENTRIC = Ok 0%Z /\ multi_write ex_mstate ex_v 2 1 CELL_CENTRIC 1%Z = Thrown /\ multi_read ex_mstate ex_v 2 0 MATERIAL_CENTRIC = AssertFail /\
  (exists st', run ex_env ex_mstate ex_writes = Ok st' /\ multi_values st' ex_v = Some [[4; 5]; [8; 9]]%Z) /\
  last_written ex_v 1 0 ex_writes 0%Z = 9%Z /\ last_written ex_v 0 0 ex_writes 5%Z = 4%Z /\ last_written ex_v 0 2 ex_writes 5%Z = 5%Z.
Proof. repeat (split; [vm_compute; reflexivity|]). split; [exists (st_of (run ex_env ex_mstate ex_writes)); split; vm_compute; reflexivity|]. repeat split; reflexivity. Qed.
Lemma mapM_nth_inv A B (f : A -> outcome B) l : forall r i x, mapM f l = Ok r -> nth_error l i = Some x -> exists y, f x = Ok y /\ nth_error r i = Some y.
Proof.
  induction l as [|a l IH]; intros r i x E H; [destruct i; discriminate|]. simpl in E. apply bind_Ok in E as [b [Eb E]]. apply bind_Ok in E as [r' [Er E]]. injection E as <-.
  destruct i as [|i]; simpl in *; [injection H as <-; eauto|]. eauto.
Qed.
Lemma nth_error_repeat' A (a : A) n i : i < n -> nth_error (repeat a n) i = Some a.
Proof. revert i. induction n as [|n IH]; intros i H; [lia|]. destruct i; simpl; auto. apply IH. lia. Qed.
(** what a new multi-material vector holds for a material and one of its cells: nothing given, 0; a value, that value; a 2D array,
    the entry of the cell and the material in the layout it is said to have *)
Theorem c44_new_vector : forall e st ms r st' n w m x c, mat_tables e st ms -> compiles r -> add e st r = Ok (st', n) -> find_t st (key_of r) = None ->
  k_vt (key_of r) = MULTIVAL -> nth_error (st_vecs st') n = Some w -> nth_error ms m = Some x -> In c (snd x) -> c < length (e_types e) ->
  match r with
  | RNone _ | RArr _ _ None => multi_read st' w m c MATERIAL_CENTRIC = Ok 0%Z
  | RVal _ a => multi_read st' w m c MATERIAL_CENTRIC = Ok a
  | RArr _ CELL_CENTRIC (Some d) => exists row a, nth_error d c = Some row /\ nth_error row m = Some a /\ multi_read st' w m c MATERIAL_CENTRIC = Ok a
  | RArr _ MATERIAL_CENTRIC (Some d) => exists row a, nth_error d m = Some row /\ nth_error row c = Some a /\ multi_read st' w m c MATERIAL_CENTRIC = Ok a
  | _ => False
  end.
Proof.
  intros e st ms r st' n w m x c T C E F V Hw Hx Hc Lc.
  destruct (@add_cases e st r st' n C E) as [[F' _]|[_ [-> [pl [Ct S]]]]]; [congruence|]. rewrite (stored_new S) in Hw. injection Hw as <-.
  destruct (@table_index _ _ _ m _ _ T Hx Lc) as (p & Hp & B & [[_ (k & Ix & Lk & Hk)]|[Hn _]]); [|tauto].
  assert (G : forall rows row, pl = PMulti rows -> nth_error rows m = Some row ->
     multi_read st' (new_vec (stored_key e r) (match pl with PUni _ => length (st_uni st) | PMulti _ => length (st_multi st) end)) m c MATERIAL_CENTRIC = rd row k).
  { intros rows row -> Hrow. unfold multi_read. cbn [mat_arg cell_arg]. rewrite (sd_mats S), B, (proj2 (rd_Ok _ _ _) Hp). cbn [bind]. unfold mat_set in *. rewrite (sd_sets S), Ix. cbn [bind].
    destruct (Z.eqb_spec (Z.of_nat k) (-1)); [lia|]. rewrite (sd_multi S). cbn [new_vec sv_data].
    assert (Q : rd (st_multi st ++ [rows]) (length (st_multi st)) = Ok rows) by (apply rd_Ok, nth_error_mid; auto). rewrite Q. cbn [bind].
    rewrite (proj2 (rd_Ok _ _ _) Hrow). cbn [bind]. unfold rdz. destruct (Z.ltb_spec (Z.of_nat k) 0); [lia|]. rewrite Nat2Z.id. auto. }
  assert (Lk' := nth_error_lt _ _ Hk).
  assert (Cst : forall a, pl = PMulti (multi_val st a) -> multi_read st' (new_vec (stored_key e r) (match pl with PUni _ => length (st_uni st) | PMulti _ => length (st_multi st) end)) m c MATERIAL_CENTRIC = Ok a).
  { intros a Q. rewrite (G _ (repeat a (length (ms_all (mat_set st p)))) Q); [apply rd_Ok, nth_error_repeat'; auto|]. unfold multi_val. rewrite nth_error_map, Hp. auto. }
  assert (Al : multi_alloc st = multi_val st 0%Z) by reflexivity.
  assert (Cb : nth_error (combine (seq 0 (length (st_mats st))) (st_mats st)) m = Some (m, p)).
  { assert (J : forall (l : list nat) s i q, nth_error l i = Some q -> nth_error (combine (seq s (length l)) l) i = Some (s + i, q)).
    { induction l as [|b l IH]; intros s [|i] q H; simpl in *; try discriminate; [injection H as <-; rewrite Nat.add_0_r; auto|]. rewrite (IH (Datatypes.S s) i q H). f_equal. f_equal. lia. }
    apply (J (st_mats st) 0 m p Hp). }
  destruct r as [ky|ky d|ky lay d|ky a|v]; cbn [content key_of] in *.
  - rewrite V in Ct. injection Ct as <-. apply Cst. auto.
  - simpl in C. congruence.
  - apply bind_Ok in Ct as [rows [Hr Ct]]. injection Ct as <-. destruct d as [d|]; [|injection Hr as <-; destruct lay; apply Cst; auto].
    destruct (@mapM_nth_inv _ _ _ _ _ _ _ Hr Cb) as [row [Erow Hrow]]. destruct (@mapM_nth_inv _ _ _ _ _ _ _ Erow Hk) as [a [Ea Ha]].
    destruct lay; apply bind_Ok in Ea as [dr [E1 E2]]; apply rd_Ok in E1, E2; exists dr, a; split; auto; split; auto; rewrite (G rows row eq_refl Hrow); apply rd_Ok; auto.
  - rewrite V in Ct. injection Ct as <-. apply Cst. auto.
  - destruct C as [C _]. cbn [vkey k_vt] in V. congruence.
Qed.
Example c44_new_vector_witness : exists st w, let k := Key MULTIVAL DT_double "t" (OnMesh 0) CELL TYPE_ALL in
  run ex_env (create ex_reg) [OAddMat "steel" [0; 1]; OAddMat "air" [1]] = Ok st /\
  add ex_env st (RArr k CELL_CENTRIC (Some [[1; 2]; [3; 4]; [5; 6]]%Z)) = Ok (w, 0) /\ find_t st k = None /\
  exists v, nth_error (st_vecs w) 0 = Some v /\ multi_read w v 0 1 MATERIAL_CENTRIC = Ok 3%Z /\ multi_read w v 1 1 MATERIAL_CENTRIC = Ok 4%Z.
Proof.
  set (st := st_of (run ex_env (create ex_reg) [OAddMat "steel" [0; 1]; OAddMat "air" [1]])).
  set (k := Key MULTIVAL DT_double "t" (OnMesh 0) CELL TYPE_ALL).
  exists st, (st_of (x <- add ex_env st (RArr k CELL_CENTRIC (Some [[1; 2]; [3; 4]; [5; 6]]%Z)) ;; Ok (fst x))).
  split; [vm_compute; reflexivity|]. split; [vm_compute; reflexivity|]. split; [vm_compute; reflexivity|].
  exists (SVec "t" (OnMesh 0) CELL TYPE_ALL MULTIVAL DT_double 0). repeat split; vm_compute; reflexivity.
Qed.
