From Coq Require Import String Permutation.
From Verif Require Import Base Loop Defs MeshSet MeshSet_spec MeshSet_proofs MeshSet_proofs2 MeshSet_proofs3 Cache_proofs State State_spec State_proofs.
Set Implicit Arguments.

(** ** Invariant behind [mat_tables]; [used]: the names ever used for cell sets *)
Definition table (ms : list (string * list nat)) (c : nat) : list nat := filter (has_cell ms c) (seq 0 (length ms)).
Definition full_cm (e : env) (st : state) : list (list nat) :=
  match st_cellmats st with [] => repeat [] (length (e_types e)) | cm => cm end.
Record good_set (types : list entity_type) (s : mset) (x : string * list nat) : Prop := {
  gs_name : ms_name s = fst x; gs_kind : ms_kind s = CELL; gs_cons : consistent types s; gs_rev : ms_have_rev s = true;
  gs_all : Permutation (ms_all s) (snd x) }.
Definition row_sizes (ms : list (string * list nat)) : list nat := map (fun x => length (snd x)) ms.
Record minv (e : env) (used : list string) (st : state) (ms : list (string * list nat)) : Prop := {
  mi_mats : Forall2 (fun p x => good_set (e_types e) (mat_set st p) x) (st_mats st) ms;
  mi_ptr : NoDup (st_mats st);
  mi_reg : reg_ok (st_sets st);
  mi_in : forall p, In p (st_mats st) -> In p (regs (st_sets st));
  mi_used : forall p, In p (regs (st_sets st)) -> ms_kind (heap (st_sets st) p) = CELL -> In (ms_name (heap (st_sets st) p)) used;
  mi_names : NoDup (map fst ms);
  mi_len : length (full_cm e st) = length (e_types e);
  mi_cm : forall c, c < length (e_types e) -> nth_error (full_cm e st) c = Some (table ms c);
  mi_cm2 : ms <> [] -> length (st_cellmats st) = length (e_types e);
  mi_vec : forall v k, In v (st_vecs st) -> sv_vt v = MULTIVAL -> sv_dom v = OnMesh k ->
    exists rows, nth_error (st_multi st) (sv_data v) = Some rows /\ map (@length Z) rows = row_sizes ms;
  mi_valid : forall x c, In x ms -> In c (snd x) -> c < length (e_types e);
  mi_nodup : forall x, In x ms -> NoDup (snd x) }.

Lemma Forall2_nth A B (P : A -> B -> Prop) l1 l2 i : Forall2 P l1 l2 ->
  (forall a, nth_error l1 i = Some a -> exists b, nth_error l2 i = Some b /\ P a b) /\
  (forall b, nth_error l2 i = Some b -> exists a, nth_error l1 i = Some a /\ P a b).
Proof.
  intros H. revert i. induction H as [|a b l1 l2 Hab H IH]; intros [|i]; simpl; split; intros y E; try discriminate.
  - injection E as <-. eauto.
  - injection E as <-. eauto.
  - apply IH; auto.
  - apply IH; auto.
Qed.
Lemma Forall2_len A B (P : A -> B -> Prop) l1 l2 : Forall2 P l1 l2 -> length l1 = length l2.
Proof. induction 1; simpl; auto. Qed.

Lemma Forall2_impl_in A B (P Q : A -> B -> Prop) l1 l2 : (forall a b, In a l1 -> In b l2 -> P a b -> Q a b) -> Forall2 P l1 l2 -> Forall2 Q l1 l2.
Proof. intros H F. induction F; constructor; [apply H; simpl; auto|]. apply IHF. intros; apply H; simpl; auto. Qed.

(** names *)
Lemma index_by_name_Some h mats name m p : nth_error mats m = Some p -> ms_name (h p) = name ->
  (forall j q, j < m -> nth_error mats j = Some q -> ms_name (h q) <> name) -> index_by_name h mats name = Some m.
Proof.
  revert m. induction mats as [|a mats IH]; intros [|m] Hp Hn Hd; simpl in *; try discriminate.
  - injection Hp as ->. subst name. rewrite String.eqb_refl. auto.
  - destruct (String.eqb_spec name (ms_name (h a))) as [Q|Q]; [exfalso; apply (Hd 0 a); auto; lia|].
    rewrite (IH m); auto. intros j q Hj Hq. apply (Hd (S j) q); auto. lia.
Qed.
Lemma NoDup_nth_inj A (l : list A) i j x : NoDup l -> nth_error l i = Some x -> nth_error l j = Some x -> i = j.
Proof. intros N Hi Hj. apply (proj1 (NoDup_nth_error l) N); [eapply nth_error_lt; eauto|congruence]. Qed.

(** the tables follow from the invariant *)
Lemma minv_tables e used st ms : minv e used st ms -> mat_tables e st ms.
Proof.
  intros M.
  assert (S : forall m x, nth_error ms m = Some x -> exists p, nth_error (st_mats st) m = Some p /\ good_set (e_types e) (mat_set st p) x).
  { intros m x Hx. destruct (Forall2_nth m (mi_mats M)) as [_ H]. apply H. auto. }
  constructor.
  - apply (Forall2_len (mi_mats M)).
  - intros m x Hx. destruct (S m x Hx) as [p [Hp G]]. unfold material_name, material_index_by_name. rewrite Hp. split; [apply (gs_name G)|].
    apply index_by_name_Some with (p := p); auto; [apply (gs_name G)|]. intros j q Hj Hq E.
    destruct (proj1 (Forall2_nth j (mi_mats M)) q Hq) as [y [Hy G']].
    assert (j = m); [|lia]. apply (@NoDup_nth_inj _ (map fst ms) j m (fst x) (mi_names M)).
    + rewrite nth_error_map, Hy. simpl. f_equal. rewrite <- (gs_name G'). exact E.
    + rewrite nth_error_map, Hx. auto.
  - intros m x Hx. destruct (S m x Hx) as [p [Hp G]]. unfold material_cells. rewrite Hp. apply (gs_all G).
  - intros c Hc. unfold cell_materials. destruct (st_mats st) as [|p l] eqn:Em.
    + assert (L := Forall2_len (mi_mats M)). rewrite Em in L. destruct ms; [reflexivity|discriminate].
    + assert (L := Forall2_len (mi_mats M)). rewrite Em in L. assert (N : ms <> []) by (intros ->; discriminate).
      apply rd_Ok. change (filter (has_cell ms c) (seq 0 (length ms))) with (table ms c). rewrite <- (mi_cm M Hc). unfold full_cm. assert (L2 := mi_cm2 M N). destruct (st_cellmats st); auto. simpl in L2. lia.
  - intros m x c Hx Hc. destruct (S m x Hx) as [p [Hp G]]. unfold cell_index_in_material, material_cells. rewrite Hp.
    destruct (gs_cons G) as (_ & _ & I). destruct (I (gs_rev G) c Hc) as [z [Ez [H|[H1 H2]]]]; exists z; split; auto. right. split; auto.
    intros Hn. apply H2. eapply Permutation_in; [apply Permutation_sym, (gs_all G)|auto].
  - intros v k Hv Vt D. apply (mi_vec M v Hv Vt D).
Qed.

(** ** the initial state *)
Lemma minv_create e R used : reg_ok R -> (forall p, In p (regs R) -> ms_kind (heap R p) = CELL -> In (ms_name (heap R p)) used) ->
  minv e used (create R) [].
Proof.
  intros HR HU. constructor; auto; try (simpl; tauto).
  - constructor.
  - constructor.
  - constructor.
  - simpl. apply repeat_length.
  - intros c Hc. simpl. unfold table. simpl. apply nth_error_repeat_Some; auto.
Qed.

(** ** push_mat *)
Lemma push_mat_ok m cells : NoDup cells -> forall cm, (forall c, In c cells -> c < length cm) -> exists cm', push_mat m cells cm = Ok cm' /\
  length cm' = length cm /\ forall c l, nth_error cm c = Some l -> nth_error cm' c = Some (if memb c cells then l ++ [m] else l).
Proof.
  intros N. induction cells as [|a cells IH]; intros cm H.
  - exists cm. repeat split; auto.
  - inversion N as [|? ? Na N']; subst. assert (La : a < length cm) by (apply H; simpl; auto).
    destruct (nth_error cm a) as [la|] eqn:Ea; [|apply nth_error_None in Ea; lia].
    unfold push_mat. simpl. assert (Q : rd cm a = Ok la) by (apply rd_Ok; auto). rewrite Q. cbn [bind]. rewrite wr_ok by auto. cbn [bind].
    destruct (IH N' (set_nth cm a (la ++ [m]))) as (cm' & E & L & G); [intros c Hc; rewrite set_nth_length; apply H; simpl; auto|].
    exists cm'. split; auto. rewrite L, set_nth_length. split; auto. intros c l Hl.
    destruct (Nat.eq_dec a c) as [->|Ne].
    + assert (l = la) as -> by congruence. rewrite (G c (la ++ [m])) by (apply nth_error_set_nth_eq; auto).
      assert (Mc : memb c cells = false) by (apply memb_false; auto). rewrite Mc. unfold memb. simpl. rewrite Nat.eqb_refl. auto.
    + rewrite (G c l) by (rewrite nth_error_set_nth_ne; auto). unfold memb. simpl. destruct (Nat.eqb_spec c a); [congruence|]. auto.
Qed.
Lemma table_snoc ms x c : table (ms ++ [x]) c = if memb c (snd x) then table ms c ++ [length ms] else table ms c.
Proof.
  unfold table. rewrite app_length, Nat.add_1_r, seq_S, filter_app. simpl.
  assert (A : filter (has_cell (ms ++ [x]) c) (seq 0 (length ms)) = filter (has_cell ms c) (seq 0 (length ms))).
  { apply filter_ext_in. intros m Hm. apply in_seq in Hm. unfold has_cell. rewrite nth_error_app1 by lia. auto. }
  rewrite A. unfold has_cell at 2. rewrite nth_error_mid by auto. destruct (memb c (snd x)); auto. rewrite app_nil_r. auto.
Qed.
(** ** for_multi *)
Definition is_mm (v : svec) : bool := match sv_vt v, sv_dom v with MULTIVAL, OnMesh _ => true | _, _ => false end.
Definition mm_body (f : list (list Z) -> outcome (list (list Z))) (v : svec) (mb : list (list (list Z))) : outcome (list (list (list Z))) :=
  match sv_vt v with
  | UNIVAL => Ok mb
  | MULTIVAL => match sv_dom v with
                | OnMesh _ => rows <- rd mb (sv_data v) ;; rows' <- f rows ;; wr mb (sv_data v) rows'
                | OnTile _ => Ok mb
                end
  end.
Lemma mm_spec f vs : NoDup (map sv_data (filter is_mm vs)) -> forall mb,
  (forall v, In v vs -> is_mm v = true -> exists rows rows', nth_error mb (sv_data v) = Some rows /\ f rows = Ok rows') ->
  exists mb', foldM vs (mm_body f) mb = Ok mb' /\ length mb' = length mb /\
    (forall v, In v vs -> is_mm v = true -> exists rows rows', nth_error mb (sv_data v) = Some rows /\ f rows = Ok rows' /\ nth_error mb' (sv_data v) = Some rows') /\
    (forall p, ~ In p (map sv_data (filter is_mm vs)) -> nth_error mb' p = nth_error mb p).
Proof.
  induction vs as [|v vs IH]; intros N mb H.
  - exists mb. repeat split; auto. simpl. tauto.
  - simpl in N. simpl foldM. destruct (is_mm v) eqn:Ev.
    + assert (B : mm_body f v mb = (rows <- rd mb (sv_data v) ;; rows' <- f rows ;; wr mb (sv_data v) rows')).
      { unfold is_mm, mm_body in *. destruct (sv_vt v); [discriminate|]. destruct (sv_dom v); [auto|discriminate]. }
      rewrite B. destruct (H v (or_introl eq_refl) Ev) as (rows & rows' & Hr & Hf). assert (Q := proj2 (rd_Ok _ _ _) Hr). rewrite Q. cbn [bind]. rewrite Hf. cbn [bind].
      assert (L := nth_error_lt _ _ Hr). rewrite wr_ok by auto. cbn [bind]. simpl in N. inversion N as [|? ? Nv N']; subst.
      destruct (IH N' (set_nth mb (sv_data v) rows')) as (mb' & E & Ln & G1 & G2).
      { intros w Hw Ew. assert (D : sv_data v <> sv_data w). { intros D. apply Nv. rewrite D. apply in_map. apply filter_In. auto. }
        rewrite nth_error_set_nth_ne by auto. apply H; simpl; auto. }
      exists mb'. split; auto. rewrite Ln, set_nth_length. split; auto. split.
      * intros w [<-|Hw] Ew.
        -- exists rows, rows'. repeat split; auto. rewrite (G2 _ Nv). apply nth_error_set_nth_eq; auto.
        -- assert (D : sv_data v <> sv_data w). { intros D. apply Nv. rewrite D. apply in_map. apply filter_In. auto. }
           destruct (G1 w Hw Ew) as (r & r' & A1 & A2 & A3). rewrite nth_error_set_nth_ne in A1 by auto. eauto.
      * intros p Hp. simpl in Hp. rewrite Ev in Hp. simpl in Hp. rewrite G2 by tauto. apply nth_error_set_nth_ne. tauto.
    + assert (B : mm_body f v mb = Ok mb). { unfold is_mm, mm_body in *. destruct (sv_vt v); auto. destruct (sv_dom v); [discriminate|auto]. }
      rewrite B. cbn [bind]. destruct (IH N mb) as (mb' & E & Ln & G1 & G2); [intros; apply H; simpl; auto|].
      exists mb'. split; auto. split; auto. split.
      * intros w [<-|Hw] Ew; [congruence|auto].
      * intros p Hp. simpl in Hp. rewrite Ev in Hp. auto.
Qed.
Lemma is_mm_iff v : is_mm v = true <-> sv_vt v = MULTIVAL /\ exists k, sv_dom v = OnMesh k.
Proof. unfold is_mm. destruct (sv_vt v), (sv_dom v); split; try discriminate; try (intros [? [? ?]]; discriminate); eauto. Qed.
Lemma sep_NoDup l : (forall i j v w, nth_error l i = Some v -> nth_error l j = Some w -> sv_vt v = sv_vt w -> sv_data v = sv_data w -> i = j) ->
  NoDup (map sv_data (filter is_mm l)).
Proof.
  induction l as [|v l IH]; intros H; [constructor|]. simpl.
  assert (IH' : NoDup (map sv_data (filter is_mm l))). { apply IH. intros i j a b Ha Hb V D. assert (S i = S j) by (apply (H (S i) (S j) a b); auto). lia. }
  destruct (is_mm v) eqn:E; auto. simpl. constructor; auto. intros Hin. apply in_map_iff in Hin as [w [D Hw]]. apply filter_In in Hw as [Hw Ew].
  apply In_nth_error in Hw as [j Hj]. apply is_mm_iff in E as [E _]. apply is_mm_iff in Ew as [Ew _].
  assert (0 = S j); [apply (H 0 (S j) v w); simpl; auto; congruence|lia].
Qed.

(** ** add_material *)
Lemma find_set_None h reg name kind : (forall p, In p reg -> ms_kind (h p) = kind -> ms_name (h p) <> name) -> find_set h reg name kind = None.
Proof.
  induction reg as [|p reg IH]; simpl; intros H; auto.
  destruct (String.eqb_spec (ms_name (h p)) name) as [Q|Q]; simpl; [|apply IH; auto].
  destruct (kind_eqb (ms_kind (h p)) kind) eqn:K; [|apply IH; auto]. apply kind_eqb_iff in K. exfalso. apply (H p); auto.
Qed.
Lemma typed_permutation types l : typed types l -> Permutation (filter (is_type types PARALLEL_OWNED) l ++ filter (is_type types PARALLEL_GHOST) l) l.
Proof.
  induction l as [|a l IH]; intros H; [constructor|]. assert (IH' : Permutation (filter (is_type types PARALLEL_OWNED) l ++ filter (is_type types PARALLEL_GHOST) l) l).
  { apply IH. intros x Hx. apply H. simpl. auto. }
  assert (Q : is_type types PARALLEL_OWNED a = true /\ is_type types PARALLEL_GHOST a = false \/ is_type types PARALLEL_OWNED a = false /\ is_type types PARALLEL_GHOST a = true).
  { unfold is_type. destruct (H a (or_introl eq_refl)) as [-> | ->]; auto. }
  simpl. destruct Q as [[-> ->]|[-> ->]]; [simpl; constructor; auto|].
  apply Permutation_sym, Permutation_cons_app, Permutation_sym. auto.
Qed.
Lemma empty_consistent types name : consistent types (MSet name CELL [] [] [] true (repeat (-1)%Z (length types))).
Proof.
  split; [|split].
  - constructor; simpl; try tauto; try constructor. apply repeat_length.
  - reflexivity.
  - intros _ c Hc. exists (-1)%Z. split; [|right; simpl; auto]. unfold index_in_set. cbn [ms_rev].
    destruct (length types) as [|n] eqn:L; [lia|]. cbn [repeat]. apply rd_Ok. change ((-1)%Z :: repeat (-1)%Z n) with (repeat (-1)%Z (S n)). apply nth_error_repeat_Some. auto.
Qed.
Lemma add_material_ok e used st ms name cells : vec_inv st -> minv e used st ms -> ~ In name used -> valid_cells e cells ->
  (forall x, In x ms -> fst x <> name) ->
  exists st', add_material e st name cells = Ok st' /\ minv e (name :: used) st' (ms ++ [(name, cells)]) /\
    (exists p, st_mats st' = st_mats st ++ [p]) /\ (forall q, In q (st_mats st) -> mat_set st' q = mat_set st q) /\
    (forall v rows, In v (st_vecs st) -> is_mm v = true -> nth_error (st_multi st) (sv_data v) = Some rows ->
       nth_error (st_multi st') (sv_data v) = Some (rows ++ [repeat 0%Z (length cells)])).
Proof.
  intros I M Hn (N & T & Ne) Hd. unfold add_material.
  assert (X : existsb (fun p => String.eqb name (ms_name (mat_set st p))) (st_mats st) = false).
  { destruct (existsb _ _) eqn:Q; auto. apply existsb_exists in Q as [p [Hp Q]]. apply String.eqb_eq in Q. apply In_nth_error in Hp as [j Hj].
    destruct (proj1 (Forall2_nth j (mi_mats M)) p Hj) as [x [Hx G]]. exfalso. apply (Hd x); [eapply nth_error_In; eauto|]. rewrite <- (gs_name G). auto. }
  rewrite X. rewrite find_set_None by (intros p Hp K Q; apply Hn; rewrite <- Q; apply (mi_used M); auto).
  unfold make_meshset, make_set. cbn [app index_entries bind]. set (p := next (st_sets st)). set (s0 := MSet name CELL [] [] [] true (repeat (-1)%Z (length (e_types e)))).
  cbn [heap]. rewrite Nat.eqb_refl.
  assert (C0 : consistent (e_types e) s0) by apply empty_consistent.
  destruct (@add_entities_ok (e_types e) s0 cells (proj1 C0) (proj1 (proj2 C0)) N) as (s & Es & W & Ho & Hg & Hm & Hr & Hnm & Hk & _ & Hc); auto.
  rewrite Es. cbn [bind]. cbn [ms_owned ms_ghost ms_all s0 app] in Ho, Hg, Hm.
  assert (Cs : consistent (e_types e) s) by (apply Hc; auto).
  assert (Ps : Permutation (ms_all s) cells). { destruct Cs as (_ & Os & _). rewrite Os, Ho, Hg. apply typed_permutation. auto. }
  assert (Lt : forall c, In c cells -> c < length (e_types e)). { intros c Hcc. destruct (T c Hcc) as [Q|Q]; eapply nth_error_lt; eauto. }
  fold (full_cm e st). destruct (@push_mat_ok (length (st_mats st ++ [p]) - 1) cells N (full_cm e st)) as (cm & Ec & Lc & Gc).
  { intros c Hcc. rewrite (mi_len M). auto. }
  rewrite Ec. cbn [bind]. change (for_multi st ?f (fun mb => Ok mb) ?mb) with (foldM (st_vecs st) (mm_body f) mb).
  destruct (@mm_spec (fun rows => Ok (rows ++ [repeat 0%Z (length cells)])) (st_vecs st)) with (mb := st_multi st) as (mb & Eb & Lb & Gb & _).
  { apply sep_NoDup. apply (vi_sep I). }
  { intros v Hv Ev. apply is_mm_iff in Ev as [Vv [k Dv]]. destruct (mi_vec M v Hv Vv Dv) as [rows [Hr1 _]]. eauto. }
  rewrite Eb. cbn [bind]. eexists. split; [reflexivity|].
  assert (Fp : ~ In p (regs (st_sets st))) by (intros Q; apply (mi_reg M) in Q; unfold p in Q; lia).
  assert (Lm := Forall2_len (mi_mats M)).
  assert (HH : forall q, heap (set_heap (Reg (fun q0 => if q0 =? p then s0 else heap (st_sets st) q0) (S p) (regs (st_sets st) ++ [p])) p s) q = if q =? p then s else heap (st_sets st) q).
  { intros q. cbn. destruct (q =? p); auto. }
  split; [|split; [exists p; reflexivity|split]].
  2: { intros q Hq. unfold mat_set. cbn [st_sets set_mats]. rewrite HH. destruct (Nat.eqb_spec q p) as [Q|]; auto. exfalso. apply Fp, (mi_in M). rewrite <- Q. auto. }
  2: { intros v rows Hv Ev Hr1. destruct (Gb v Hv Ev) as (r1 & r2 & A1 & A2 & A3). injection A2 as <-. cbn [st_multi set_mats]. congruence. }
  constructor; unfold mat_set; cbn [st_mats st_sets set_mats st_cellmats st_vecs st_multi regs next set_heap].
  - apply Forall2_app.
    + eapply Forall2_impl_in; [|apply (mi_mats M)]. intros q x Hq Hx G. rewrite HH. destruct (Nat.eqb_spec q p) as [Q|]; auto. exfalso. apply Fp, (mi_in M). rewrite <- Q. auto.
    + constructor; [|constructor]. rewrite HH, Nat.eqb_refl. constructor; auto.
  - apply NoDup_snoc; [apply (mi_ptr M)|]. intros Q. apply Fp, (mi_in M). auto.
  - intros q Hq. cbn [regs next set_heap] in *. apply in_app_iff in Hq as [Hq|[Hq|[]]]; [apply (mi_reg M) in Hq; fold p in Hq|]; lia.
  - intros q Hq. apply in_app_iff in Hq. apply in_app_iff. destruct Hq as [Hq|Hq]; auto. left. apply (mi_in M). auto.
  - intros q Hq. rewrite HH. apply in_app_iff in Hq. destruct (Nat.eqb_spec q p) as [Q|Nq]; [rewrite Hnm; simpl; auto|].
    intros K. destruct Hq as [Hq|[Hq|[]]]; [|congruence]. simpl. right. apply (mi_used M); auto.
  - rewrite map_app. simpl. apply NoDup_snoc; [apply (mi_names M)|]. intros Q. apply in_map_iff in Q as [x [Q Hx]]. apply (Hd x); auto.
  - unfold full_cm. cbn [st_cellmats set_mats]. destruct cm; [apply repeat_length|]. rewrite Lc. apply (mi_len M).
  - intros c Hcc. match goal with |- nth_error ?x c = _ => assert (L1 : x = cm) end.
    { unfold full_cm. cbn [st_cellmats set_mats]. rewrite (mi_len M) in Lc. destruct cm; auto. simpl in Lc. lia. }
    rewrite L1. rewrite (Gc c (table ms c)) by (apply (mi_cm M); auto). f_equal. rewrite table_snoc. cbn [snd].
    rewrite app_length, Lm. simpl. replace (length ms + 1 - 1) with (length ms) by lia. auto.
  - intros _. rewrite Lc. apply (mi_len M).
  - intros v k Hv Vv Dv. destruct (Gb v Hv) as (rows & rows' & A1 & A2 & A3). { apply is_mm_iff. eauto. }
    injection A2 as <-. destruct (mi_vec M v Hv Vv Dv) as [r [B1 B2]]. assert (r = rows) as -> by congruence.
    exists (rows ++ [repeat 0%Z (length cells)]). split; auto. unfold row_sizes in *. rewrite !map_app, B2. simpl. rewrite repeat_length. auto.
  - intros x c Hx Hcc. apply in_app_iff in Hx as [Hx|[<-|[]]]; [apply (mi_valid M x c); auto|apply Lt; auto].
  - intros x Hx. apply in_app_iff in Hx as [Hx|[<-|[]]]; [apply (mi_nodup M); auto|auto].
Qed.

(** ** operations that do not touch the materials *)
Lemma mapM_len A B (f : A -> outcome B) l l' : mapM f l = Ok l' -> length l' = length l.
Proof.
  revert l'. induction l as [|a l IH]; simpl; intros l' E; [injection E as <-; auto|].
  apply bind_Ok in E as [b [_ E]]. apply bind_Ok in E as [r [E1 E]]. injection E as <-. simpl. rewrite (IH _ E1). auto.
Qed.
Lemma sets_sizes e used st ms : minv e used st ms -> map (fun p => length (ms_all (mat_set st p))) (st_mats st) = row_sizes ms.
Proof.
  intros M. unfold row_sizes. assert (F := mi_mats M). clear M. revert F. generalize (st_mats st). intros mats F. induction F as [|p x l1 l2 G F IH]; simpl; auto.
  rewrite IH. rewrite (Permutation_length (gs_all G)). auto.
Qed.
Lemma alloc_sizes e used st ms x : minv e used st ms -> map (@length Z) (multi_val st x) = row_sizes ms /\ map (@length Z) (multi_alloc st) = row_sizes ms.
Proof.
  intros M. rewrite <- (sets_sizes M). unfold multi_val, multi_alloc. rewrite !map_map. split; apply map_ext; intros; apply repeat_length.
Qed.
Lemma mapM_lens A (f : A -> outcome (list Z)) (g : A -> nat) l rows : (forall a r, f a = Ok r -> length r = g a) -> mapM f l = Ok rows -> map (@length Z) rows = map g l.
Proof.
  intros H. revert rows. induction l as [|a l IH]; simpl; intros rows E; [injection E as <-; auto|].
  apply bind_Ok in E as [b [E1 E]]. apply bind_Ok in E as [r [E2 E]]. injection E as <-. simpl. rewrite (H _ _ E1), (IH _ E2). auto.
Qed.
Lemma map_combine_snd (f : nat -> nat) l n : map (fun mp => f (snd mp)) (combine (seq n (length l)) l) = map f l.
Proof. revert n. induction l as [|a l IH]; intros n; simpl; auto. rewrite IH. auto. Qed.
Lemma data_sizes e used st ms lay d rows : minv e used st ms -> multi_data st lay d = Ok rows -> map (@length Z) rows = row_sizes ms.
Proof.
  intros M E. rewrite <- (sets_sizes M). unfold multi_data in E.
  apply mapM_lens with (g := fun mp => length (ms_all (mat_set st (snd mp)))) in E.
  - rewrite E. apply (map_combine_snd (fun p => length (ms_all (mat_set st p)))).
  - intros [m p] r Er. apply mapM_len in Er. auto.
Qed.
Lemma minv_same e used st st' ms : minv e used st ms -> st_mats st' = st_mats st -> st_cellmats st' = st_cellmats st -> st_sets st' = st_sets st ->
  (forall v k, In v (st_vecs st') -> sv_vt v = MULTIVAL -> sv_dom v = OnMesh k ->
    exists rows, nth_error (st_multi st') (sv_data v) = Some rows /\ map (@length Z) rows = row_sizes ms) -> minv e used st' ms.
Proof.
  intros M E1 E2 E3 H. destruct M. constructor; unfold full_cm, mat_set in *; rewrite ?E1, ?E2, ?E3; auto.
Qed.
Lemma map_set_nth A B (f : A -> B) l i x : map f (set_nth l i x) = set_nth (map f l) i (f x).
Proof. revert i. induction l as [|a l IH]; intros [|i]; simpl; auto. rewrite IH. auto. Qed.
Lemma set_nth_same A (l : list A) i x : nth_error l i = Some x -> set_nth l i x = l.
Proof. revert i. induction l as [|a l IH]; intros [|i] H; simpl in *; try discriminate; [congruence|]. rewrite IH; auto. Qed.
Lemma minv_other e used st o st' ms : (forall r, o = OAdd r -> compiles r) -> vec_inv st -> minv e used st ms ->
  match o with OAddMat _ _ | ORemMat _ | OAddCells _ _ => False | _ => True end -> step e st o = Ok st' -> minv e used st' ms.
Proof.
  intros C I M H E. destruct o as [r|l|v i x|v i j lay x|name cells|m|m cells]; try tauto; simpl in E.
  - apply bind_Ok in E as [[s i] [E1 E]]. injection E as <-.
    destruct (@add_cases e st r s i (C r eq_refl) E1) as [[_ ->]|[_ [_ [pl [Ct S]]]]]; auto. cbn [fst].
    apply minv_same with (st := st); auto; try (apply S).
    intros v k Hv Vv Dv. rewrite (sd_multi S). rewrite (sd_vecs S) in Hv. apply in_app_iff in Hv as [Hv|[<-|[]]].
    + destruct (mi_vec M v Hv Vv Dv) as [rows [A B]]. exists rows. split; auto. destruct pl; auto. rewrite nth_error_app1; auto. eapply nth_error_lt; eauto.
    + cbn [sv_vt sv_data new_vec] in *. assert (P := sd_pl S). rewrite Vv in P. destruct P as [rows ->]. exists rows. rewrite nth_error_mid by auto. split; auto.
      destruct r as [q|q d|q lay d|q x|u]; cbn [content] in Ct.
      * destruct (k_vt q); [discriminate|]. injection Ct as <-. apply (alloc_sizes 0%Z M).
      * apply bind_Ok in Ct as [l [_ Ct]]. discriminate.
      * apply bind_Ok in Ct as [l [El Ct]]. injection Ct as ->. destruct d; [eapply data_sizes; eauto|]. injection El as <-. apply (alloc_sizes 0%Z M).
      * destruct (k_vt q); [discriminate|]. injection Ct as <-. apply (alloc_sizes x M).
      * apply bind_Ok in Ct as [l [_ Ct]]. destruct (sv_dom u) as [m|]; [|discriminate]. destruct (m =? e_mesh e); [discriminate|].
        apply bind_Ok in Ct as [l2 [_ Ct]]. discriminate.
  - injection E as <-. apply minv_same with (st := st); auto. apply (mi_vec M).
  - unfold uni_write in E. apply bind_Ok in E as [b [E1 E]]. apply bind_Ok in E as [b' [E2 E]]. apply bind_Ok in E as [u [E3 E]].
    injection E as <-. apply minv_same with (st := st); auto. apply (mi_vec M).
  - unfold multi_write in E. destruct (_ <? _); [|discriminate]. apply bind_Ok in E as [q [E1 E]]. apply bind_Ok in E as [cl [E2 E]].
    destruct (cl =? -1)%Z; [discriminate|]. apply bind_Ok in E as [rows [E3 E]]. apply bind_Ok in E as [row [E4 E]].
    apply bind_Ok in E as [row' [E5 E]]. apply bind_Ok in E as [rows' [E6 E]]. apply bind_Ok in E as [u [E7 E]]. injection E as <-.
    apply minv_same with (st := st); auto. cbn [st_vecs st_multi set_multi]. intros w k Hw Vw Dw. destruct (mi_vec M w Hw Vw Dw) as [r [A B]].
    apply rd_Ok in E3, E4. apply wr_Ok in E6 as [L6 ->], E7 as [L7 ->]. unfold wrz in E5. destruct (cl <? 0)%Z; [discriminate|]. apply wr_Ok in E5 as [L5 ->].
    destruct (Nat.eq_dec (sv_data v) (sv_data w)) as [D|D].
    + rewrite D in *. rewrite nth_error_set_nth_eq by auto. eexists. split; [reflexivity|]. rewrite map_set_nth, set_nth_length, <- B. assert (r = rows) as -> by congruence.
      apply set_nth_same. rewrite nth_error_map, E4. auto.
    + rewrite nth_error_set_nth_ne by auto. eauto.
Qed.

(** ** rem_material *)
Lemma erase_at_mid A (a : A) l1 l2 i : i = length l1 -> erase_at (l1 ++ a :: l2) i = Ok (l1 ++ l2).
Proof.
  intros ->. unfold erase_at. destruct (Nat.ltb_spec (length l1) (length (l1 ++ a :: l2))) as [L|L]; [|rewrite app_length in L; simpl in L; lia]. f_equal.
  rewrite firstn_app, skipn_app, Nat.sub_diag, firstn_all, skipn_all2 by lia. replace (S (length l1) - length l1) with 1 by lia. simpl. rewrite app_nil_r. auto.
Qed.
Lemma erase_loop_S m i cnt l : erase_loop m i (S cnt) l = (x <- rd l i ;; l' <- (if m =? x then erase_at l i else Ok l) ;; erase_loop m (S i) cnt l').
Proof. reflexivity. Qed.
Lemma erase_loop_scan m pre l i cnt : length pre = i -> ~ In m l -> erase_loop m i (length l + cnt) (pre ++ l ++ [m]) = erase_loop m (i + length l) cnt (pre ++ l ++ [m]).
Proof.
  revert pre i. induction l as [|a l IH]; intros pre i L N; simpl; [rewrite Nat.add_0_r; auto|].
  assert (Q : rd (pre ++ a :: l ++ [m]) i = Ok a) by (apply rd_Ok, nth_error_mid; auto). rewrite Q. cbn [bind].
  destruct (Nat.eqb_spec m a) as [->|Na]; [exfalso; apply N; simpl; auto|]. cbn [bind].
  replace (pre ++ a :: l ++ [m]) with ((pre ++ [a]) ++ l ++ [m]) by (rewrite <- app_assoc; auto).
  rewrite IH; [f_equal; lia|rewrite app_length; simpl; lia|intros Q'; apply N; simpl; auto].
Qed.
Lemma erase_loop_last m l : ~ In m l -> erase_loop m 0 (length (l ++ [m])) (l ++ [m]) = Ok l.
Proof.
  intros N. rewrite app_length. simpl. assert (E := erase_loop_scan m [] l 1 eq_refl N). simpl in E. rewrite E. clear E.
  assert (Q : rd (l ++ [m]) (length l) = Ok m) by (apply rd_Ok, nth_error_mid; auto). rewrite Q. cbn [bind]. rewrite Nat.eqb_refl.
  rewrite erase_at_mid by auto. cbn [bind]. rewrite app_nil_r. auto.
Qed.
(** the material is not last in the list of a cell: reading beyond the end *)
Lemma erase_loop_none m pre l i : length pre = i -> ~ In m l -> erase_loop m i (length l + 1) (pre ++ l) = UB.
Proof.
  revert pre i. induction l as [|a l IH]; intros pre i L N; simpl.
  - rewrite app_nil_r. assert (Q : rd pre i = UB). { unfold rd. assert (X : nth_error pre i = None) by (apply nth_error_None; lia). rewrite X. auto. } rewrite Q. auto.
  - assert (Q : rd (pre ++ a :: l) i = Ok a) by (apply rd_Ok, nth_error_mid; auto). rewrite Q. cbn [bind].
    destruct (Nat.eqb_spec m a) as [->|Na]; [exfalso; apply N; simpl; auto|]. cbn [bind].
    replace (pre ++ a :: l) with ((pre ++ [a]) ++ l) by (rewrite <- app_assoc; auto). apply IH; [rewrite app_length; simpl; lia|intros Q'; apply N; simpl; auto].
Qed.
Lemma erase_loop_mid m l1 b l2 : ~ In m l1 -> ~ In m (b :: l2) -> erase_loop m 0 (length (l1 ++ m :: b :: l2)) (l1 ++ m :: b :: l2) = UB.
Proof.
  intros N1 N2. rewrite app_length.
  assert (SC : forall l pre rest i cnt, length pre = i -> ~ In m l -> erase_loop m i (length l + cnt) (pre ++ l ++ rest) = erase_loop m (i + length l) cnt (pre ++ l ++ rest)).
  { induction l as [|a l IH]; intros pre rest i cnt L N; simpl; [rewrite Nat.add_0_r; auto|].
    assert (Q : rd (pre ++ a :: l ++ rest) i = Ok a) by (apply rd_Ok, nth_error_mid; auto). rewrite Q. cbn [bind].
    destruct (Nat.eqb_spec m a) as [->|Na]; [exfalso; apply N; simpl; auto|]. cbn [bind].
    replace (pre ++ a :: l ++ rest) with ((pre ++ [a]) ++ l ++ rest) by (rewrite <- app_assoc; auto).
    rewrite IH; [f_equal; lia|rewrite app_length; simpl; lia|intros Q'; apply N; simpl; auto]. }
  assert (E := SC l1 [] (m :: b :: l2) 0 (length (m :: b :: l2)) eq_refl N1). simpl app in E. rewrite E. clear E. cbn [length]. rewrite erase_loop_S, Nat.add_0_l.
  assert (Q : rd (l1 ++ m :: b :: l2) (length l1) = Ok m) by (apply rd_Ok, nth_error_mid; auto). rewrite Q. cbn [bind]. rewrite Nat.eqb_refl.
  rewrite erase_at_mid by auto. cbn [bind].
  replace (l1 ++ b :: l2) with ((l1 ++ [b]) ++ l2) by (rewrite <- app_assoc; auto). replace (S (length l2)) with (length l2 + 1) by lia.
  apply erase_loop_none; [rewrite app_length; simpl; lia|simpl in N2; tauto].
Qed.
Definition erase_mat (m : nat) (c : nat) (cm : list (list nat)) : outcome (list (list nat)) :=
  l <- rd cm c ;; l' <- erase_loop m 0 (length l) l ;; wr cm c l'.
Lemma erase_cells_ok m cells : NoDup cells -> forall cm, (forall c, In c cells -> exists l, nth_error cm c = Some (l ++ [m]) /\ ~ In m l) ->
  exists cm', foldM cells (erase_mat m) cm = Ok cm' /\ length cm' = length cm /\
    (forall c l, In c cells -> nth_error cm c = Some (l ++ [m]) -> nth_error cm' c = Some l) /\
    (forall c, ~ In c cells -> nth_error cm' c = nth_error cm c).
Proof.
  intros N. induction cells as [|a cells IH]; intros cm H.
  - exists cm. repeat split; auto. simpl. tauto.
  - inversion N as [|? ? Na N']; subst. destruct (H a (or_introl eq_refl)) as [la [Ha Nm]]. assert (La := nth_error_lt _ _ Ha).
    simpl. unfold erase_mat at 1. assert (Q := proj2 (rd_Ok _ _ _) Ha). rewrite Q. cbn [bind]. rewrite erase_loop_last by auto. cbn [bind]. rewrite wr_ok by auto. cbn [bind].
    destruct (IH N' (set_nth cm a la)) as (cm' & E & L & G1 & G2).
    { intros c Hc. rewrite nth_error_set_nth_ne by (intros ->; auto). apply H. simpl. auto. }
    exists cm'. split; auto. rewrite L, set_nth_length. split; auto. split.
    + intros c l [<-|Hc] Hl.
      * rewrite G2 by auto. rewrite nth_error_set_nth_eq by auto. rewrite Ha in Hl. injection Hl as Hl. apply app_inj_tail in Hl as [-> _]. auto.
      * apply G1; auto. rewrite nth_error_set_nth_ne by (intros ->; auto). auto.
    + intros c Hc. simpl in Hc. rewrite G2 by tauto. apply nth_error_set_nth_ne. tauto.
Qed.
Lemma rem_last_ok e used st ms x : vec_inv st -> minv e used st (ms ++ [x]) ->
  exists st', rem_material st (length ms) = Ok st' /\ minv e used st' ms /\
    (exists p, st_mats st = st_mats st' ++ [p]) /\ st_sets st' = st_sets st /\
    (forall v k rows, In v (st_vecs st) -> sv_vt v = MULTIVAL -> sv_dom v = OnMesh k -> nth_error (st_multi st) (sv_data v) = Some rows ->
       exists r y, rows = r ++ [y] /\ nth_error (st_multi st') (sv_data v) = Some r).
Proof.
  intros I M. assert (Lm := Forall2_len (mi_mats M)). rewrite app_length in Lm. simpl in Lm.
  assert (F := mi_mats M). apply Forall2_app_inv_r in F as (mats & lp & F1 & F2 & Em). inversion F2 as [|p ? lq ? G F3]; subst. inversion F3; subst. clear F2 F3.
  assert (Ln : length mats = length ms) by (rewrite Em, app_length in Lm; simpl in Lm; lia).
  unfold rem_material. rewrite Em, nth_error_mid by auto.
  change (foldM (ms_all (mat_set st p)) _ (st_cellmats st)) with (foldM (ms_all (mat_set st p)) (erase_mat (length ms)) (st_cellmats st)).
  assert (N0 : NoDup (ms_all (mat_set st p))).
  { apply (Permutation_NoDup (Permutation_sym (gs_all G))). apply (mi_nodup M). apply in_app_iff. simpl. auto. }
  assert (Lc : length (st_cellmats st) = length (e_types e)). { apply (mi_cm2 M). destruct ms; discriminate. }
  assert (Fc : forall c, c < length (e_types e) -> nth_error (st_cellmats st) c = Some (table (ms ++ [x]) c)).
  { intros c Hc. rewrite <- (mi_cm M Hc). unfold full_cm. destruct (st_cellmats st); auto. simpl in Lc. lia. }
  assert (Cx : forall c, In c (ms_all (mat_set st p)) <-> In c (snd x)).
  { intros c. split; apply Permutation_in; [|apply Permutation_sym]; apply (gs_all G). }
  assert (Tn : forall c, ~ In (length ms) (table ms c)). { intros c Q. unfold table in Q. apply filter_In in Q as [Q _]. apply in_seq in Q. lia. }
  destruct (@erase_cells_ok (length ms) (ms_all (mat_set st p)) N0 (st_cellmats st)) as (cm & Ec & Lcm & G1 & G2).
  { intros c Hc. exists (table ms c). split; auto. apply Cx in Hc. rewrite Fc by (apply (mi_valid M x c); auto; apply in_app_iff; simpl; auto).
    rewrite table_snoc. assert (Q : memb c (snd x) = true) by (apply memb_spec; auto). rewrite Q. auto. }
  rewrite Ec. cbn [bind]. rewrite erase_at_mid by auto. cbn [bind]. rewrite app_nil_r.
  change (for_multi st ?f (fun mb => Ok mb) ?mb) with (foldM (st_vecs st) (mm_body f) mb).
  destruct (@mm_spec (fun rows => erase_at rows (length ms)) (st_vecs st)) with (mb := st_multi st) as (mb & Eb & Lb & Gb & _).
  { apply sep_NoDup. apply (vi_sep I). }
  { intros v Hv Ev. apply is_mm_iff in Ev as [Vv [k Dv]]. destruct (mi_vec M v Hv Vv Dv) as [rows [Hr1 Hr2]].
    exists rows. unfold erase_at. assert (length rows = length ms + 1). { rewrite <- (map_length (@length Z) rows), Hr2. unfold row_sizes. rewrite map_length, app_length. auto. }
    destruct (Nat.ltb_spec (length ms) (length rows)); [eauto|lia]. }
  rewrite Eb. cbn [bind]. eexists. split; [reflexivity|].
  assert (Fm : forall c, c < length (e_types e) -> nth_error cm c = Some (table ms c)).
  { intros c Hc. destruct (in_dec Nat.eq_dec c (snd x)) as [Q|Q].
    - apply G1; [apply Cx; auto|]. rewrite Fc by auto. rewrite table_snoc. assert (Q' : memb c (snd x) = true) by (apply memb_spec; auto). rewrite Q'. auto.
    - rewrite G2 by (rewrite Cx; auto). rewrite Fc by auto. rewrite table_snoc. assert (Q' : memb c (snd x) = false) by (apply memb_false; auto). rewrite Q'. auto. }
  assert (Rw : forall v k rows, In v (st_vecs st) -> sv_vt v = MULTIVAL -> sv_dom v = OnMesh k -> nth_error (st_multi st) (sv_data v) = Some rows ->
     exists r y, rows = r ++ [y] /\ nth_error mb (sv_data v) = Some r).
  { intros v k rs Hv Vv Dv Rs. destruct (Gb v Hv) as (rows & rows' & A1 & A2 & A3). { apply is_mm_iff. eauto. }
    destruct (mi_vec M v Hv Vv Dv) as [r [B1 B2]]. assert (r = rows) as -> by congruence. assert (rs = rows) as -> by congruence.
    unfold row_sizes in B2. rewrite map_app in B2. simpl in B2. apply map_eq_app in B2 as (r1 & r2 & -> & B3 & B4).
    destruct r2 as [|y [|]]; try discriminate. assert (Q : length r1 = length ms) by (rewrite <- (map_length (@length Z)), B3, map_length; auto).
    rewrite erase_at_mid in A2 by auto. injection A2 as <-. rewrite app_nil_r in A3. exists r1, y. auto. }
  split; [|split; [exists p; cbn [st_mats set_mats]; first [exact Em | reflexivity]|split; [reflexivity|exact Rw]]].
  constructor; unfold mat_set; cbn [st_mats st_sets set_mats st_cellmats st_vecs st_multi].
  - exact F1.
  - assert (P := mi_ptr M). rewrite Em in P. apply NoDup_app_iff in P. tauto.
  - apply (mi_reg M).
  - intros q Hq. apply (mi_in M). rewrite Em. apply in_app_iff. auto.
  - apply (mi_used M).
  - assert (P := mi_names M). rewrite map_app in P. apply NoDup_app_iff in P. tauto.
  - unfold full_cm. cbn [st_cellmats set_mats]. destruct cm; [apply repeat_length|]. rewrite Lcm. auto.
  - intros c Hc. match goal with |- nth_error ?y c = _ => assert (L1 : y = cm) end.
    { unfold full_cm. cbn [st_cellmats set_mats]. destruct cm; auto. simpl in Lcm. lia. }
    rewrite L1. auto.
  - intros _. lia.
  - intros v k Hv Vv Dv. destruct (Gb v Hv) as (rows & rows' & A1 & A2 & A3). { apply is_mm_iff. eauto. }
    destruct (mi_vec M v Hv Vv Dv) as [r [B1 B2]]. assert (r = rows) as -> by congruence. exists rows'. split; auto.
    unfold row_sizes in B2. rewrite map_app in B2. simpl in B2. apply map_eq_app in B2 as (r1 & r2 & -> & B3 & B4).
    destruct r2 as [|y [|]]; try discriminate. assert (Q : length r1 = length ms) by (rewrite <- (map_length (@length Z)), B3, map_length; auto).
    rewrite erase_at_mid in A2 by auto. injection A2 as <-. rewrite app_nil_r. auto.
  - intros y c Hy. apply (mi_valid M). apply in_app_iff. auto.
  - intros y Hy. apply (mi_nodup M). apply in_app_iff. auto.
Qed.
Lemma rem_none_ok st m : length (st_mats st) <= m -> rem_material st m = Ok st.
Proof. intros H. unfold rem_material. assert (X : nth_error (st_mats st) m = None) by (apply nth_error_None; auto). rewrite X. auto. Qed.
