(** The state manager: C37-C41. *)
From Coq Require Import String Permutation.
From Verif Require Import Base Loop Defs MeshSet MeshSet_spec MeshSet_proofs State State_spec State_proofs.
Set Implicit Arguments.
Local Open Scope string_scope.
Local Open Scope list_scope.

(** ** Witness: a mesh (number 0) with 3 cells, 2 of them owned, and 4 nodes *)
Definition ex_env : env :=
  Env 0 (fun d k t => match k, t with CELL, PARALLEL_OWNED => 2 | CELL, PARALLEL_GHOST => 1 | CELL, TYPE_ALL => 3 | NODE, TYPE_ALL => 4 | _, _ => 0 end)
    [PARALLEL_OWNED; PARALLEL_OWNED; PARALLEL_GHOST].
Definition ex_none : mset := MSet "" UNKNOWN_KIND [] [] [] false [].
Definition ex_reg : registry := Reg (fun _ => ex_none) 0 [].
Definition ckey (n : string) := Key UNIVAL DT_double n (OnMesh 0) CELL TYPE_ALL.
Definition nkey (n : string) := Key UNIVAL DT_double n (OnMesh 0) NODE TYPE_ALL.
Definition st_of (o : outcome state) : state := match o with Ok s => s | _ => create ex_reg end.
Definition ex_ops : list op :=
  [OAdd (RVal (ckey "density") 7%Z); OAdd (RVal (nkey "velocity") 1%Z); OAdd (RVal (nkey "density") 2%Z)].
Definition ex_state : state := st_of (run ex_env (create ex_reg) ex_ops).
Lemma ex_run : run ex_env (create ex_reg) ex_ops = Ok ex_state. Proof. reflexivity. Qed.

(** ** C37 *)
(** the vector an add returns is the one find returns under the same key afterwards *)
Theorem c37_added_is_found : forall e st r st' i, compiles r -> own_mesh e r -> add e st r = Ok (st', i) ->
  find_t st' (key_of r) = Some i /\ exists v, get st' (key_of r) = Some v /\ answers (key_of r) v.
Proof.
  intros e st r st' i C O E.
  assert (F : find_t st' (key_of r) = Some i).
  { destruct (@add_cases e st r st' i C E) as [[F ->]|[F [-> [pl [_ S]]]]]; auto.
    unfold find_t in *. rewrite (sd_vecs S), find_first_app, F. simpl.
    assert (M : matches (key_of r) (new_vec (stored_key e r) (match pl with PUni _ => length (st_uni st) | PMulti _ => length (st_multi st) end)) = true).
    { apply matches_iff. rewrite own_stored_key by auto. apply answers_self. }
    rewrite M. simpl. f_equal. lia. }
  split; auto. unfold get. rewrite F. apply find_t_Some in F as [[v [Hv Av]] _]. eauto.
Qed.
(** a vector object of another mesh is stored under this mesh, and found there if nothing was there before *)
Theorem c37_added_from_other_mesh : forall e st v st' i, compiles (RCopy v) -> add e st (RCopy v) = Ok (st', i) -> find_t st (vkey v) = None ->
  find_t st (stored_key e (RCopy v)) = None -> find_t st' (stored_key e (RCopy v)) = Some i.
Proof.
  intros e st v st' i C E F F'. destruct (@add_cases e st (RCopy v) st' i C E) as [[G _]|[_ [-> [pl [_ S]]]]]; [simpl in G; congruence|].
  unfold find_t in *. rewrite (sd_vecs S), find_first_app, F'. simpl.
  set (k := stored_key e (RCopy v)). match goal with |- context [matches ?a ?b] => assert (M : matches a b = true) by (apply matches_iff; apply (answers_self k)) end.
  simpl in M. rewrite M. simpl. f_equal. lia.
Qed.
(** a new vector has exactly the key it was added with, and goes after the existing ones *)
Theorem c37_new_vector : forall e st r st' i, compiles r -> own_mesh e r -> add e st r = Ok (st', i) -> find_t st (key_of r) = None ->
  i = length (st_vecs st) /\ exists v, st_vecs st' = st_vecs st ++ [v] /\ vkey v = key_of r.
Proof.
  intros e st r st' i C O E F. destruct (@add_cases e st r st' i C E) as [[F' _]|[_ [-> [pl [_ S]]]]]; [congruence|].
  split; auto. eexists. split; [apply (sd_vecs S)|]. rewrite vkey_new. apply own_stored_key; auto.
Qed.
(** whatever happens afterwards *)
Theorem c37_still_found : forall e st ops st' k i v, (forall r, In r (adds ops) -> compiles r) -> run e st ops = Ok st' ->
  find_t st k = Some i -> nth_error (st_vecs st) i = Some v -> find_t st' k = Some i /\ nth_error (st_vecs st') i = Some v.
Proof.
  intros e st ops st' k i v C E F Hv. destruct (@run_grows e ops st st' C E) as [more H]. split.
  - eapply find_grows; eauto.
  - rewrite H, nth_error_app1; auto. eapply nth_error_lt; eauto.
Qed.
(** find of a key that no add call of the history asked for fails *)
Theorem c37_never_added : forall e R ops st k, all_compile ops -> run e (create R) ops = Ok st ->
  (forall r p, In r (adds ops) -> ~ answers k (new_vec (stored_key e r) p)) -> find_t st k = None.
Proof.
  intros e R ops st k C E H.
  assert (G : (forall v, In v (st_vecs st) -> exists r p, In r (adds ops) /\ v = new_vec (stored_key e r) p) /\ vec_inv st).
  { eapply (@run_ind e (fun s => forall v, In v (st_vecs s) -> exists r p, In r (adds ops) /\ v = new_vec (stored_key e r) p) ops); eauto.
    - simpl. tauto.
    - apply create_inv.
    - intros s o s' I _ Co IH Es v Hv. destruct (op_is_add o) as [[r ->]|N].
      + simpl in Es. apply bind_Ok in Es as [[s1 i] [E1 Es]]. injection Es as <-. destruct (Co r eq_refl) as [Cr Ir].
        destruct (@add_cases e s r s1 i Cr E1) as [[_ ->]|[_ [_ [pl [_ S]]]]]; auto. simpl in Hv.
        rewrite (sd_vecs S) in Hv. apply in_app_iff in Hv as [Hv|[<-|[]]]; auto. eauto.
      + apply IH. rewrite <- (fr_vecs (@step_frame e s o s' N Es)). auto. }
  apply find_t_None. intros v Hv A. destruct (proj1 G v Hv) as [r [p [Hr ->]]]. apply (H r p); auto.
Qed.
(** all the find functions return the first stored vector with the characteristics asked for *)
Theorem c37_find_variants : forall st name dom vt dt kind ty i,
  (find_any st name kind ty = Some i <-> first_at (described name kind ty) (st_vecs st) i) /\
  (find_dom st name dom kind ty = Some i <-> first_at (fun v => described name kind ty v /\ sv_dom v = dom) (st_vecs st) i) /\
  (find_dom_vt st vt name dom kind ty = Some i <-> first_at (fun v => described name kind ty v /\ sv_vt v = vt /\ sv_dom v = dom) (st_vecs st) i) /\
  (find_t st (Key vt dt name dom kind ty) = Some i <->
   first_at (fun v => sv_vt v = vt /\ sv_dt v = dt /\ sv_dom v = dom /\ described name kind ty v) (st_vecs st) i).
Proof.
  intros. split; [|split; [|split]].
  - unfold find_any. rewrite find_first_Some. apply first_at_ext. intros v. apply meta_match_iff.
  - unfold find_dom. rewrite find_first_Some. apply first_at_ext. intros v. rewrite andb_true_iff, meta_match_iff, dom_eqb_iff. tauto.
  - unfold find_dom_vt. rewrite find_first_Some. apply first_at_ext. intros v. rewrite !andb_true_iff, meta_match_iff, vtype_eqb_iff, dom_eqb_iff. tauto.
  - rewrite find_t_Some. reflexivity.
Qed.
Example c37_witness : find_t ex_state (nkey "density") = Some 2 /\ find_t ex_state (ckey "density") = Some 0 /\ find_t ex_state (ckey "velocity") = None /\
  (forall r p, In r (adds ex_ops) -> ~ answers (ckey "velocity") (new_vec (stored_key ex_env r) p)) /\ all_compile ex_ops.
Proof.
  repeat (split; [reflexivity|]). split.
  - intros r p [<-|[<-|[<-|[]]]] A; destruct A as (_ & _ & _ & N & [K|K] & _); discriminate.
  - intros r [<-|[<-|[<-|[]]]]; exact I.
Qed.

(** ** C38 *)
Theorem c38_duplicate_add_changes_nothing : forall e st r i, find_t st (key_of r) = Some i ->
  add e st r = Ok (st, i) /\ exists v, nth_error (st_vecs st) i = Some v /\ answers (key_of r) v.
Proof. intros e st r i F. split; [unfold add; rewrite F; auto|]. apply find_t_Some in F as [[v H] _]. eauto. Qed.
(** so adding twice, even with other data and by another overload, is adding once *)
Theorem c38_add_twice : forall e st r r' st' i, compiles r -> own_mesh e r -> key_of r' = key_of r -> add e st r = Ok (st', i) -> add e st' r' = Ok (st', i).
Proof.
  intros e st r r' st' i C O K E. destruct (@c37_added_is_found e st r st' i C O E) as [F _]. rewrite <- K in F.
  apply (@c38_duplicate_add_changes_nothing e st' r' i F).
Qed.
(** no two vectors of a state have the same key *)
Theorem c38_keys_are_unique : forall e R ops st i j v w, all_compile ops -> (forall r, In r (adds ops) -> own_mesh e r) ->
  run e (create R) ops = Ok st -> nth_error (st_vecs st) i = Some v -> nth_error (st_vecs st) j = Some w -> vkey v = vkey w -> i = j.
Proof.
  intros e R ops st i j v w C O E.
  assert (G : (forall i j v w, nth_error (st_vecs st) i = Some v -> nth_error (st_vecs st) j = Some w -> vkey v = vkey w -> i = j) /\ vec_inv st).
  { eapply (@run_ind e (fun s => forall i j v w, nth_error (st_vecs s) i = Some v -> nth_error (st_vecs s) j = Some w -> vkey v = vkey w -> i = j) ops); eauto.
    - intros [|?]; discriminate.
    - apply create_inv.
    - clear i j v w. intros s o s' I _ Co IH Es. destruct (op_is_add o) as [[r ->]|N]; [|rewrite (fr_vecs (@step_frame e s o s' N Es)); auto].
      simpl in Es. apply bind_Ok in Es as [[s1 n] [E1 Es]]. injection Es as <-. destruct (Co r eq_refl) as [Cr Ir].
      destruct (@add_cases e s r s1 n Cr E1) as [[_ ->]|[F [_ [pl [_ S]]]]]; auto. simpl. rewrite (sd_vecs S).
      rewrite own_stored_key by auto. set (nv := new_vec _ _). assert (NK : vkey nv = key_of r) by apply vkey_new.
      assert (D : forall k x, nth_error (st_vecs s) k = Some x -> vkey x <> key_of r).
      { intros k x Hx K. apply (proj1 (find_t_None s (key_of r)) F x); [eapply nth_error_In; eauto|]. rewrite <- K. repeat split; auto. }
      intros i j v w Hi Hj K. assert (Li := nth_error_lt _ _ Hi). assert (Lj := nth_error_lt _ _ Hj). rewrite app_length in Li, Lj. simpl in Li, Lj.
      destruct (Nat.lt_ge_cases i (length (st_vecs s))) as [A|A], (Nat.lt_ge_cases j (length (st_vecs s))) as [B|B].
      + rewrite nth_error_app1 in Hi, Hj by auto. eauto.
      + rewrite nth_error_app1 in Hi by auto. assert (j = length (st_vecs s)) as -> by lia. rewrite nth_error_mid in Hj by auto. injection Hj as <-.
        exfalso. apply (D _ _ Hi). congruence.
      + rewrite nth_error_app1 in Hj by auto. assert (i = length (st_vecs s)) as -> by lia. rewrite nth_error_mid in Hi by auto. injection Hi as <-.
        exfalso. apply (D _ _ Hj). congruence.
      + lia. }
  apply (proj1 G).
Qed.
(** Finding: add of a vector of another mesh looks for the vector under the other mesh but stores it under this one, so every
    repetition stores a further copy, which find does not return *)
Theorem c38_foreign_copy_refuted : exists v st1 st2, sv_dom v = OnMesh 1 /\
  let st0 := fst (uni_new (create ex_reg) [5; 6; 8]%Z) in
  add ex_env st0 (RCopy v) = Ok (st1, 0) /\ add ex_env st1 (RCopy v) = Ok (st2, 1) /\ map vkey (st_vecs st2) = [ckey "a"; ckey "a"] /\
  find_t st2 (vkey v) = None /\ find_t st2 (ckey "a") = Some 0.
Proof. exists (SVec "a" (OnMesh 1) CELL TYPE_ALL UNIVAL DT_double 0). eexists _, _. repeat split; reflexivity. Qed.
(** Finding: a vector on owned cells counts as a duplicate for a request on ALL cells, which then gets the shorter vector *)
Theorem c38_type_all_refuted : exists k st1, k_type k = PARALLEL_OWNED /\
  add ex_env (create ex_reg) (RVal k 1%Z) = Ok (st1, 0) /\ add ex_env st1 (RVal (ckey "a") 2%Z) = Ok (st1, 0) /\
  k_type (ckey "a") = TYPE_ALL /\ e_size ex_env (OnMesh 0) CELL TYPE_ALL = 3 /\
  exists v, get st1 (ckey "a") = Some v /\ sv_etype v = PARALLEL_OWNED /\ uni_values st1 v = Some [1; 1]%Z.
Proof. exists (Key UNIVAL DT_double "a" (OnMesh 0) CELL PARALLEL_OWNED). eexists. repeat (split; [reflexivity|]). eexists. repeat split; reflexivity. Qed.
Example c38_witness : add ex_env ex_state (RPtr (nkey "velocity") None) = Ok (ex_state, 1).
Proof. reflexivity. Qed.

(** ** C39 *)
Definition on_kind (kind : entity_kind) (v : svec) : bool := kind_eqb (sv_kind v) kind.
Lemma push_index_at idx k z idx' : length idx = 9 -> push_index idx k z = Ok idx' -> (0 <= kind_value k)%Z /\
  forall k', (0 <= kind_value k')%Z -> nth_error idx' (Z.to_nat (kind_value k')) =
    if kind_eqb k k' then option_map (fun l => (l ++ [z])%list) (nth_error idx (Z.to_nat (kind_value k'))) else nth_error idx (Z.to_nat (kind_value k')).
Proof.
  intros L E. unfold push_index, rdz, wrz in E. destruct (Z.ltb_spec (kind_value k) 0); [discriminate|]. split; auto.
  apply bind_Ok in E as [l [E1 E2]]. apply rd_Ok in E1. apply wr_Ok in E2 as [E2 ->]. intros k' Hk'.
  destruct (kind_eqb k k') eqn:Q.
  - apply kind_eqb_iff in Q as <-. rewrite E1. simpl. apply nth_error_set_nth_eq; auto.
  - apply nth_error_set_nth_ne. intros Hc. assert (kind_value k = kind_value k') by lia.
    assert (k = k') by (destruct k, k'; simpl in *; try lia; auto). apply kind_eqb_iff in H1. congruence.
Qed.
(** the invariant: the index list of a kind lists the positions of the vectors on it *)
Fixpoint positions (f : svec -> bool) (i : nat) (l : list svec) : list Z :=
  match l with [] => [] | v :: r => if f v then Z.of_nat i :: positions f (S i) r else positions f (S i) r end.
Lemma positions_app f i l1 l2 : positions f i (l1 ++ l2) = (positions f i l1 ++ positions f (i + length l1) l2)%list.
Proof.
  revert i. induction l1 as [|a l1 IH]; intros i; simpl; [rewrite Nat.add_0_r; auto|]. rewrite IH. replace (S i + length l1) with (i + S (length l1)) by lia.
  destruct (f a); auto.
Qed.
Lemma mapM_positions A (g : list A) (h : svec -> A) f l pre pre' : map h pre' = pre -> g = (pre ++ map h l)%list ->
  mapM (fun z => rdz g z) (positions f (length pre) l) = Ok (map h (filter f l)).
Proof.
  revert pre pre'. induction l as [|v l IH]; intros pre pre' Hp Hg; auto.
  assert (R : mapM (fun z => rdz g z) (positions f (length (pre ++ [h v])) l) = Ok (map h (filter f l))).
  { apply (IH (pre ++ [h v])%list (pre' ++ [v])%list); [rewrite map_app, Hp; auto|]. rewrite Hg, <- app_assoc. auto. }
  rewrite app_length in R. simpl length in R. replace (length pre + 1) with (S (length pre)) in R by lia.
  cbn [positions filter]. destruct (f v); auto. cbn [mapM]. rewrite R.
  assert (Q : rdz g (Z.of_nat (length pre)) = Ok (h v)).
  { unfold rdz. destruct (Z.ltb_spec (Z.of_nat (length pre)) 0); [lia|]. rewrite Nat2Z.id. apply rd_Ok. rewrite Hg. simpl. apply nth_error_mid. auto. }
  rewrite Q. reflexivity.
Qed.
(** if all vectors were added by value or by copying a vector, iteration over a kind visits the vectors (names) on it in order *)
Theorem c39_iteration_partial : forall e R ops st kind, all_compile ops -> (forall r, In r (adds ops) -> late r) ->
  run e (create R) ops = Ok st -> (0 <= kind_value kind)%Z ->
  entity_range st kind = Ok (filter (on_kind kind) (st_vecs st)) /\
  names_range st kind = Ok (map sv_name (filter (on_kind kind) (st_vecs st))).
Proof.
  intros e R ops st kind C L E HK.
  assert (G : (forall k, (0 <= kind_value k)%Z -> nth_error (st_idx st) (Z.to_nat (kind_value k)) = Some (positions (on_kind k) 0 (st_vecs st))) /\ vec_inv st).
  { eapply (@run_ind e (fun s => forall k, (0 <= kind_value k)%Z -> nth_error (st_idx s) (Z.to_nat (kind_value k)) = Some (positions (on_kind k) 0 (st_vecs s))) ops); eauto.
    - intros k Hk. apply nth_error_repeat_Some. destruct k; simpl in *; lia.
    - apply create_inv.
    - intros s o s' I _ Co IH Es. destruct (op_is_add o) as [[r ->]|N];
        [|rewrite (fr_vecs (@step_frame e s o s' N Es)), (fr_idx (@step_frame e s o s' N Es)); auto].
      simpl in Es. apply bind_Ok in Es as [[s1 n] [E1 Es]]. injection Es as <-. destruct (Co r eq_refl) as [Cr Ir].
      destruct (@add_cases e s r s1 n Cr E1) as [[_ ->]|[F [_ [pl [_ S]]]]]; auto. cbn [fst].
      assert (X := sd_idx S). assert (Y : match r with RVal _ _ | RCopy _ => false | _ => true end = false) by (specialize (L r Ir); destruct r; simpl in L; tauto).
      rewrite Y in X. destruct (push_index_at _ _ _ (vi_idx I) X) as [_ H]. intros k Hk. rewrite (H k Hk), (IH k Hk), (sd_vecs S), positions_app.
      cbn [positions Nat.add]. match goal with |- context [if on_kind k (new_vec ?a ?b) then _ else _] => change (on_kind k (new_vec a b)) with (kind_eqb (k_kind a) k) end.
      destruct (kind_eqb (k_kind (stored_key e r)) k); simpl; rewrite ?app_nil_r; auto. }
  destruct G as [G I]. unfold entity_range, names_range, rdz at 1 3. destruct (Z.ltb_spec (kind_value kind) 0); [lia|].
  unfold rd. rewrite (G kind HK). cbn [bind]. split.
  - rewrite <- (map_id (filter _ _)). apply (@mapM_positions svec (st_vecs st) (fun v => v) (on_kind kind) (st_vecs st) [] []); auto. simpl. rewrite map_id. auto.
  - apply (@mapM_positions string (st_names st) sv_name (on_kind kind) (st_vecs st) [] []); auto. apply (vi_names I).
Qed.
(** Finding: the overloads without data, with a pointer and with a 2D array record the position before storing the vector, i.e. one
    too low: on an empty state the first element of the range does not exist (index -1) *)
Theorem c39_first_vector_refuted : forall e R r st' i, compiles r -> ~ late r -> add e (create R) r = Ok (st', i) ->
  entity_range st' (k_kind (key_of r)) = UB /\ names_range st' (k_kind (key_of r)) = UB.
Proof.
  intros e R r st' i C L E. destruct (@add_cases e _ r st' i C E) as [[F _]|[_ [_ [pl [_ S]]]]]; [discriminate|].
  assert (X := sd_idx S). assert (Y : match r with RVal _ _ | RCopy _ => false | _ => true end = true) by (destruct r; simpl in *; tauto).
  assert (K : stored_key e r = key_of r) by (destruct r; simpl in *; tauto). rewrite Y, K in X.
  destruct (push_index_at _ _ _ (vi_idx (create_inv R)) X) as [HK H]. specialize (H _ HK).
  assert (Q : kind_eqb (k_kind (key_of r)) (k_kind (key_of r)) = true) by (apply kind_eqb_iff; auto). rewrite Q in H.
  cbn [create st_idx] in H. rewrite nth_error_repeat_Some in H by (destruct (k_kind (key_of r)); simpl in *; lia). cbn in H.
  unfold entity_range, names_range, rdz at 1 3. destruct (Z.ltb_spec (kind_value (k_kind (key_of r))) 0); [lia|]. unfold rd. rewrite H. auto.
Qed.
(** Finding: later vectors added so make the range end with the vector stored before, on whatever kind that is *)
Theorem c39_later_vector_refuted : exists st, run ex_env (create ex_reg) [OAdd (RVal (nkey "a") 1%Z); OAdd (RPtr (ckey "b") (Some [1; 2; 3]%Z))] = Ok st /\
  names_range st CELL = Ok ["a"] /\ map sv_name (filter (on_kind CELL) (st_vecs st)) = ["b"].
Proof. eexists. split; [reflexivity|]. split; reflexivity. Qed.
Example c39_witness : (forall r, In r (adds ex_ops) -> late r) /\ names_range ex_state NODE = Ok ["velocity"; "density"] /\
  exists st, add ex_env (create ex_reg) (RPtr (ckey "b") (Some [1; 2; 3]%Z)) = Ok (st, 0).
Proof. split; [intros r [<-|[<-|[<-|[]]]]; exact I|]. split; [reflexivity|]. eexists. reflexivity. Qed.

(** ** C40 *)
Lemma uni_write_spec st v i x st' : uni_write st v i x = Ok st' -> exists b b', uni_values st v = Some b /\ wrz b i x = Ok b' /\
  st' = set_uni st (set_nth (st_uni st) (sv_data v) b') /\ sv_data v < length (st_uni st).
Proof.
  intros E. unfold uni_write in E. apply bind_Ok in E as [b [E1 E]]. apply bind_Ok in E as [b' [E2 E]]. apply bind_Ok in E as [u [E3 E]].
  apply rd_Ok in E1. apply wr_Ok in E3 as [L ->]. injection E as <-. exists b, b'. repeat split; auto.
Qed.
Lemma uni_values_write st v i x st' w : uni_write st v i x = Ok st' -> sv_data w <> sv_data v -> uni_values st' w = uni_values st w.
Proof. intros E N. apply uni_write_spec in E as (b & b' & _ & _ & -> & _). unfold uni_values. simpl. apply nth_error_set_nth_ne. auto. Qed.
Lemma uni_values_write_same st v i x st' w : uni_write st v i x = Ok st' -> sv_data w = sv_data v ->
  exists b b', uni_values st w = Some b /\ wrz b i x = Ok b' /\ uni_values st' w = Some b'.
Proof.
  intros E N. apply uni_write_spec in E as (b & b' & H & W & -> & L). exists b, b'. unfold uni_values in *. rewrite N. simpl. split; auto.
  split; auto. apply nth_error_set_nth_eq; auto.
Qed.
Lemma wrz_spec (b : list Z) i x b' : wrz b i x = Ok b' -> (0 <= i < Z.of_nat (length b))%Z /\ b' = set_nth b (Z.to_nat i) x.
Proof. unfold wrz. destruct (Z.ltb_spec i 0); [discriminate|]. intros E. apply wr_Ok in E as [L ->]. split; auto. lia. Qed.
(** what one operation can do to a data buffer: only writing through a vector with that buffer changes it *)
Lemma step_uni_buffer e st o st' p b : (forall r, o = OAdd r -> compiles r) -> step e st o = Ok st' -> nth_error (st_uni st) p = Some b ->
  nth_error (st_uni st') p = Some b \/ exists v i x b', o = OWrite v i x /\ sv_data v = p /\ wrz b i x = Ok b' /\ nth_error (st_uni st') p = Some b'.
Proof.
  intros C E H. assert (L := nth_error_lt _ _ H). destruct o as [r|l|v i x|v i j lay x|name cells|m|m cells]; simpl in E.
  - apply bind_Ok in E as [[s i] [E1 E]]. injection E as <-. left.
    destruct (@add_cases e st r s i (C r eq_refl) E1) as [[_ ->]|[_ [_ [pl [_ S]]]]]; auto. simpl. rewrite (sd_uni S). destruct pl; auto.
    rewrite nth_error_app1; auto.
  - injection E as <-. left. simpl. rewrite nth_error_app1; auto.
  - destruct (Nat.eq_dec (sv_data v) p) as [D|D].
    + right. destruct (@uni_values_write_same st v i x st' v E eq_refl) as (b0 & b' & H1 & H2 & H3). unfold uni_values in *. rewrite D in *.
      assert (b0 = b) as -> by congruence. eauto 8.
    + left. apply uni_write_spec in E as (b0 & b' & _ & _ & -> & _). simpl. rewrite nth_error_set_nth_ne; auto.
  - left. unfold multi_write in E. destruct (_ <? _)%nat; [|discriminate]. apply bind_Ok in E as [q [E1 E]]. apply bind_Ok in E as [cl [E2 E]].
    destruct (cl =? -1)%Z; [discriminate|]. apply bind_Ok in E as [rows [E3 E]]. apply bind_Ok in E as [row [E4 E]].
    apply bind_Ok in E as [row' [E5 E]]. apply bind_Ok in E as [rows' [E6 E]]. apply bind_Ok in E as [u [E7 E]]. injection E as <-. auto.
  - left. unfold add_material in E. destruct (existsb _ _); [injection E as <-; auto|].
    apply bind_Ok in E as [[R q] [E1 E]]. apply bind_Ok in E as [s [E2 E]]. apply bind_Ok in E as [cm [E3 E]]. apply bind_Ok in E as [mb [E4 E]].
    injection E as <-. auto.
  - left. unfold rem_material in E. destruct (nth_error _ _); [|injection E as <-; auto].
    apply bind_Ok in E as [cm [E1 E]]. apply bind_Ok in E as [mats [E2 E]]. apply bind_Ok in E as [mb [E3 E]]. injection E as <-. auto.
  - left. unfold add_cells_to_material in E. destruct (nth_error _ _); [|discriminate].
    apply bind_Ok in E as [s [E1 E]]. apply bind_Ok in E as [cm [E2 E]]. apply bind_Ok in E as [mb [E3 E]]. injection E as <-. auto.
Qed.
Lemma run_uni_buffer e ops st st' p b : (forall r, In r (adds ops) -> compiles r) -> run e st ops = Ok st' ->
  (forall v i x, In (OWrite v i x) ops -> sv_data v <> p) -> nth_error (st_uni st) p = Some b -> nth_error (st_uni st') p = Some b.
Proof.
  revert st. induction ops as [|o ops IH]; intros st C E W H; unfold run in E; simpl in E; [injection E as <-; auto|].
  apply bind_Ok in E as [s [E1 E2]]. rewrite adds_cons in C. apply (IH s); auto.
  - intros r Hr. apply C, in_app_iff. auto.
  - intros v i x Hv. apply (W v i x). simpl. auto.
  - assert (Co : forall r, o = OAdd r -> compiles r) by (intros r ->; apply C; simpl; auto).
    destruct (@step_uni_buffer e st o s p b Co E1 H) as [G|(v & i & x & b' & -> & D & _)]; auto.
    exfalso. apply (W v i x); simpl; auto.
Qed.

(** a vector obtained by get is, whatever happens later, one with the stored vector: whatever is read through it is what is read
    through the stored vector, for values of every kind *)
Theorem c40_get_stays_the_stored_vector : forall e st ops st' k v, (forall r, In r (adds ops) -> compiles r) -> run e st ops = Ok st' ->
  get st k = Some v -> exists i w, find_t st' k = Some i /\ nth_error (st_vecs st') i = Some w /\ get st' k = Some w /\
    (forall j, uni_read st' w j = uni_read st' v j) /\ (forall a c lay, multi_read st' w a c lay = multi_read st' v a c lay).
Proof.
  intros e st ops st' k v C E G. unfold get in G. destruct (find_t st k) as [i|] eqn:F; [|discriminate].
  destruct (@c37_still_found e st ops st' k i v C E F G) as [F' V']. exists i, v. unfold get. rewrite F'. auto.
Qed.
(** a write through it changes that one value of the stored vector and nothing of any other stored vector *)
Theorem c40_write_through_get : forall e R ops st k v i x st', all_compile ops -> run e (create R) ops = Ok st ->
  get st k = Some v -> k_vt k = UNIVAL -> uni_write st v i x = Ok st' ->
  exists n w, find_t st' k = Some n /\ nth_error (st_vecs st') n = Some w /\
    uni_read st' w i = Ok x /\ (forall j, j <> i -> uni_read st' w j = uni_read st w j) /\
    forall m u, m <> n -> nth_error (st_vecs st') m = Some u ->
      (sv_vt u = UNIVAL -> uni_values st' u = uni_values st u) /\ (sv_vt u = MULTIVAL -> multi_values st' u = multi_values st u).
Proof.
  intros e R ops st k v i x st' C E G V W. assert (I := @run_inv e ops R st C E). unfold get in G. destruct (find_t st k) as [n|] eqn:F; [|discriminate].
  assert (U := proj1 (find_t_Some st k n) F). destruct U as [[v' [Hv' A]] _]. assert (v' = v) as -> by congruence.
  destruct (@uni_values_write_same st v i x st' v W eq_refl) as (b & b' & H1 & H2 & H3).
  destruct (wrz_spec _ _ _ H2) as [B ->].
  assert (S : st_vecs st' = st_vecs st /\ st_multi st' = st_multi st). { destruct (uni_write_spec _ _ _ _ W) as (? & ? & _ & _ & -> & _). auto. }
  destruct S as [S S'].
  exists n, v. split; [unfold find_t; rewrite S; auto|]. split; [rewrite S; auto|]. unfold uni_values in *. unfold uni_read, rd at 1. rewrite H3. cbn [bind].
  split; [unfold rdz; destruct (Z.ltb_spec i 0); [lia|]; apply rd_Ok; apply nth_error_set_nth_eq; lia|]. split.
  - intros j Hj. unfold rd at 1 2. rewrite H1, H3. cbn [bind]. unfold rdz. destruct (Z.ltb_spec j 0); auto. unfold rd. rewrite nth_error_set_nth_ne; auto. lia.
  - intros m u Nm Hu. rewrite S in Hu. split; intros Vu.
    + apply (@uni_values_write st v i x st' u W). intros D. apply Nm. eapply (vi_sep I m n); eauto. destruct A as [A _]. congruence.
    + unfold multi_values. rewrite S'. auto.
Qed.
(** the vector that add makes from a vector object (on this mesh) has its values; writes through the one leave the other alone *)
Theorem c40_add_copies : forall e st v st' n, compiles (RCopy v) -> own_mesh e (RCopy v) -> find_t st (vkey v) = None ->
  add e st (RCopy v) = Ok (st', n) -> exists w, nth_error (st_vecs st') n = Some w /\ vkey w = vkey v /\
    uni_values st' w = uni_values st v /\ uni_values st' v = uni_values st v /\
    forall ops st'', (forall r, In r (adds ops) -> compiles r) -> run e st' ops = Ok st'' ->
      ((forall u i x, In (OWrite u i x) ops -> u = v) -> uni_values st'' w = uni_values st' w) /\
      ((forall u i x, In (OWrite u i x) ops -> u = w) -> uni_values st'' v = uni_values st' v).
Proof.
  intros e st v st' n C O F E. destruct (@add_cases e st (RCopy v) st' n C E) as [[F' _]|[_ [-> [pl [Ct S]]]]]; [simpl in F'; congruence|].
  destruct C as [Cv _]. simpl in O. cbn [content] in Ct. rewrite O, Nat.eqb_refl in Ct. apply bind_Ok in Ct as [src [Hs Ct]].
  injection Ct as <-. apply rd_Ok in Hs. assert (Ls := nth_error_lt _ _ Hs).
  eexists. split; [apply (stored_new S)|]. split; [rewrite vkey_new; apply (own_stored_key e (RCopy v)); auto|].
  assert (W : nth_error (st_uni st') (length (st_uni st)) = Some src) by (rewrite (sd_uni S); apply nth_error_mid; auto).
  assert (V : nth_error (st_uni st') (sv_data v) = Some src) by (rewrite (sd_uni S), nth_error_app1; auto).
  unfold uni_values. cbn [sv_data new_vec]. rewrite W, V, Hs. split; [auto|]. split; [auto|]. intros ops s2 Cc Er; split; intros H.
  - eapply (run_uni_buffer e ops st'); eauto. intros u i x Hu. rewrite (H u i x Hu). lia.
  - eapply (run_uni_buffer e ops st'); eauto. intros u i x Hu. rewrite (H u i x Hu). simpl. lia.
Qed.
(** the same for a vector object copied from a vector object *)
Theorem c40_copies_are_deep : forall e st v st' w, uni_copy st v = Ok (st', w) ->
  vkey w = vkey v /\ uni_values st' w = uni_values st v /\ uni_values st' v = uni_values st v /\
  forall ops st'', (forall r, In r (adds ops) -> compiles r) -> run e st' ops = Ok st'' ->
    ((forall u i x, In (OWrite u i x) ops -> u = v) -> uni_values st'' w = uni_values st' w) /\
    ((forall u i x, In (OWrite u i x) ops -> u = w) -> uni_values st'' v = uni_values st' v).
Proof.
  intros e st v st' w E. unfold uni_copy in E. apply bind_Ok in E as [b [Hb E]]. injection E as <- <-. apply rd_Ok in Hb. assert (Lb := nth_error_lt _ _ Hb).
  assert (W : nth_error (st_uni st ++ [b]) (length (st_uni st)) = Some b) by (apply nth_error_mid; auto).
  assert (V : nth_error (st_uni st ++ [b]) (sv_data v) = Some b) by (rewrite nth_error_app1; auto).
  unfold uni_values. cbn [sv_data set_uni st_uni]. rewrite W, V, Hb. split; [auto|]. split; [auto|]. split; [auto|]. intros ops s2 Cc Er; split; intros H'.
  - eapply run_uni_buffer; eauto. intros u i x Hu. rewrite (H' u i x Hu). lia.
  - eapply run_uni_buffer; eauto. intros u i x Hu. rewrite (H' u i x Hu). simpl. lia.
Qed.
Example c40_witness : exists v st1 w st2 st3 n, get ex_state (ckey "density") = Some v /\ uni_write ex_state v 1 9%Z = Ok st1 /\ uni_values st1 v = Some [7; 9; 7]%Z /\
  let u := SVec "new" (OnMesh 0) CELL TYPE_ALL UNIVAL DT_double (sv_data v) in find_t st1 (vkey u) = None /\
  add ex_env st1 (RCopy u) = Ok (st2, n) /\ nth_error (st_vecs st2) n = Some w /\ uni_write st2 u 0 4%Z = Ok st3 /\
  uni_values st3 w = Some [7; 9; 7]%Z /\ uni_values st3 v = Some [4; 9; 7]%Z.
Proof. do 6 eexists. repeat (split; [reflexivity|]). reflexivity. Qed.

(** ** C41 *)
(** the number of values of a new vector is the number of entities of its kind and type on its domain; the values are those given *)
Theorem c41_new_vector : forall e st r st' n w, compiles r -> add e st r = Ok (st', n) -> find_t st (key_of r) = None ->
  k_vt (key_of r) = UNIVAL -> nth_error (st_vecs st') n = Some w ->
  exists l, uni_values st' w = Some l /\
    match r with
    | RNone k | RPtr k None => l = repeat 0%Z (e_size e (k_dom k) (k_kind k) (k_type k))
    | RPtr k (Some d) => length l = e_size e (k_dom k) (k_kind k) (k_type k) /\ forall i, i < length l -> nth_error l i = nth_error d i
    | RVal k x => l = repeat x (e_size e (k_dom k) (k_kind k) (k_type k))
    | RCopy v => exists s, uni_values st v = Some s /\
        (sv_dom v = OnMesh (e_mesh e) -> l = s) /\
        (sv_dom v <> OnMesh (e_mesh e) -> length l = e_size e (OnMesh (e_mesh e)) (sv_kind v) (sv_etype v) /\ forall i, i < length l -> nth_error l i = nth_error s i)
    | RArr _ _ _ => False
    end.
Proof.
  intros e st r st' n w C E F V Hw. destruct (@add_cases e st r st' n C E) as [[F' _]|[_ [-> [pl [Ct S]]]]]; [congruence|].
  rewrite (stored_new S) in Hw. injection Hw as <-.
  assert (D : forall num d l, uni_data num (Some d) = Ok l -> length l = num /\ forall i, i < length l -> nth_error l i = nth_error d i).
  { intros num d l Hl. unfold uni_data in Hl. destruct (Nat.leb_spec num (length d)) as [Q|]; [|discriminate]. injection Hl as <-. rewrite firstn_length, Nat.min_l by auto.
    split; auto. intros i Hi. rewrite <- (firstn_skipn num d) at 2. rewrite nth_error_app1; auto. rewrite firstn_length. lia. }
  assert (G : forall l, pl = PUni l -> uni_values st' (new_vec (stored_key e r) (match pl with PUni _ => length (st_uni st) | PMulti _ => length (st_multi st) end)) = Some l).
  { intros l ->. unfold uni_values. rewrite (sd_uni S). apply nth_error_mid. auto. }
  destruct r as [k|k d|k lay d|k x|v]; cbn [content key_of] in *.
  - rewrite V in Ct. injection Ct as <-. eexists. split; [apply G; reflexivity|]. auto.
  - apply bind_Ok in Ct as [l [Hl Ct]]. injection Ct as <-. exists l. split; [apply G; auto|]. destruct d as [d|]; [apply D; auto|]. injection Hl as <-. auto.
  - simpl in C. congruence.
  - rewrite V in Ct. injection Ct as <-. eexists. split; [apply G; reflexivity|]. auto.
  - destruct C as [_ [m Dm]]. apply bind_Ok in Ct as [s [Hs Ct]]. apply rd_Ok in Hs. rewrite Dm in *. destruct (Nat.eqb_spec m (e_mesh e)) as [->|Nm].
    + injection Ct as <-. exists s. split; [apply G; auto|]. exists s. repeat split; auto; congruence.
    + apply bind_Ok in Ct as [l [Hl Ct]]. injection Ct as <-. exists l. split; [apply G; auto|]. exists s. split; auto. split; [congruence|]. intros _. apply D in Hl. auto.
Qed.
(** a data pointer to too few values is undefined behaviour *)
Theorem c41_short_array : forall e st k d, find_t st k = None -> length d < e_size e (k_dom k) (k_kind k) (k_type k) -> add e st (RPtr k (Some d)) = UB.
Proof. intros e st k d F L. unfold add. cbn [key_of]. rewrite F. unfold uni_data, size_of. destruct (Nat.leb_spec (e_size e (k_dom k) (k_kind k) (k_type k)) (length d)); [lia|auto]. Qed.
Lemma run_app e st ops1 ops2 : run e st (ops1 ++ ops2) = (s <- run e st ops1 ;; run e s ops2).
Proof. revert st. induction ops1 as [|o ops1 IH]; intros st; [reflexivity|]. unfold run in *. simpl. destruct (step e st o); simpl; auto. Qed.
(** in every history, if vectors of this mesh that are copied into the state have the size of their domain, all stored vectors do *)
Theorem c41_sizes : forall e R ops st w, all_compile ops ->
  (forall pre v post s, ops = pre ++ OAdd (RCopy v) :: post -> sv_dom v = OnMesh (e_mesh e) -> run e (create R) pre = Ok s ->
     exists l, uni_values s v = Some l /\ length l = e_size e (sv_dom v) (sv_kind v) (sv_etype v)) ->
  run e (create R) ops = Ok st -> In w (st_vecs st) -> sv_vt w = UNIVAL ->
  exists l, uni_values st w = Some l /\ length l = e_size e (sv_dom w) (sv_kind w) (sv_etype w).
Proof.
  intros e R ops. induction ops as [|o ops IH] using rev_ind; intros st w C K E Hw Vw.
  - injection E as <-. destruct Hw.
  - rewrite run_app in E. apply bind_Ok in E as [s [E1 E2]]. unfold run in E2. simpl in E2. apply bind_Ok in E2 as [s2 [E2 X]]. injection X as ->.
    assert (A : adds (ops ++ [o]) = adds ops ++ adds [o]) by (unfold adds; apply flat_map_app).
    assert (C1 : all_compile ops) by (intros r Hr; apply C; rewrite A; apply in_app_iff; auto).
    assert (C2 : forall r, o = OAdd r -> compiles r) by (intros r ->; apply C; rewrite A; apply in_app_iff; right; simpl; auto).
    assert (IH' : forall w, In w (st_vecs s) -> sv_vt w = UNIVAL -> exists l, uni_values s w = Some l /\ length l = e_size e (sv_dom w) (sv_kind w) (sv_etype w)).
    { intros u Hu Vu. apply (IH s u); auto. intros pre v post s' Q D Es'. apply (K pre v (post ++ [o]) s'); auto. rewrite Q, <- app_assoc. auto. }
    assert (OLD : forall w, In w (st_vecs s) -> sv_vt w = UNIVAL -> exists l, uni_values st w = Some l /\ length l = e_size e (sv_dom w) (sv_kind w) (sv_etype w)).
    { intros u Hu Vu. destruct (IH' u Hu Vu) as [l [Hl Ll]]. destruct (@step_uni_buffer e s o st _ l C2 E2 Hl) as [G|(v & i & x & b' & _ & _ & Wb & G)]; [eauto|].
      exists b'. split; auto. destruct (wrz_spec _ _ _ Wb) as [_ ->]. rewrite set_nth_length. auto. }
    destruct (op_is_add o) as [[r ->]|N].
    + cbn [step] in E2. apply bind_Ok in E2 as [[s1 n] [E2 X]]. injection X as ->.
      destruct (@add_cases e s r st n (C2 r eq_refl) E2) as [[_ ->]|[F [-> [pl [_ S]]]]]; auto.
      assert (Hw' := Hw). rewrite (sd_vecs S) in Hw'. apply in_app_iff in Hw' as [Hw'|[Q|[]]]; auto.
      assert (Kv : k_vt (key_of r) = UNIVAL). { rewrite <- Q in Vw. destruct r; simpl in Vw; auto. }
      assert (Hn := stored_new S). rewrite Q in Hn.
      destruct (@c41_new_vector e s r st _ w (C2 r eq_refl) E2 F Kv Hn) as [l [Hl M]]. exists l. split; auto. rewrite <- Q. cbn [sv_dom sv_kind sv_etype new_vec].
      destruct r as [k|k d|k lay d|k x|v]; cbn [stored_key key_of k_dom k_kind k_type] in *.
      * rewrite M. apply repeat_length.
      * destruct d; [tauto|]. rewrite M. apply repeat_length.
      * tauto.
      * rewrite M. apply repeat_length.
      * destruct M as [sl [Hs [M1 M2]]]. destruct (C2 _ eq_refl) as [_ [m Dm]]. destruct (Nat.eq_dec m (e_mesh e)) as [->|Nm].
        -- destruct (K ops v [] s eq_refl Dm E1) as [l' [Hl' Ll']]. rewrite <- Dm. rewrite M1 by auto. congruence.
        -- apply M2. congruence.
    + rewrite (fr_vecs (@step_frame e s o st N E2)) in Hw. auto.
Qed.
(** element access: within the size, a write changes that element only; outside it is undefined behaviour *)
Theorem c41_element_write : forall st v l i x, uni_values st v = Some l ->
  (((0 <= i < Z.of_nat (length l))%Z /\ exists st' l', uni_write st v i x = Ok st' /\ uni_values st' v = Some l' /\ length l' = length l /\
      uni_read st' v i = Ok x /\ forall j, j <> i -> uni_read st' v j = uni_read st v j) \/
   (~ (0 <= i < Z.of_nat (length l))%Z /\ uni_write st v i x = UB /\ uni_read st v i = UB)).
Proof.
  intros st v l i x H. assert (L := nth_error_lt _ _ H). unfold uni_values in *. assert (Q := proj2 (rd_Ok _ _ _) H).
  unfold uni_write, uni_read. rewrite Q. cbn [bind].
  destruct (Z.ltb_spec i 0) as [A|A]; [right; unfold wrz, rdz; destruct (Z.ltb_spec i 0); [|lia]; split; [lia|]; auto|].
  assert (Wz : wrz l i x = wr l (Z.to_nat i) x) by (unfold wrz; destruct (Z.ltb_spec i 0); [lia|auto]).
  assert (Rz : forall l : list Z, rdz l i = rd l (Z.to_nat i)) by (intros l0; unfold rdz; destruct (Z.ltb_spec i 0); [lia|auto]). rewrite Wz, Rz.
  destruct (Nat.lt_ge_cases (Z.to_nat i) (length l)) as [B|B].
  - left. split; [lia|]. rewrite wr_ok by auto. cbn [bind]. rewrite wr_ok by auto. cbn [bind]. eexists _, _. split; [reflexivity|]. cbn [st_uni set_uni].
    rewrite nth_error_set_nth_eq by auto. split; [reflexivity|]. split; [apply set_nth_length|].
    assert (Q2 : rd (set_nth (st_uni st) (sv_data v) (set_nth l (Z.to_nat i) x)) (sv_data v) = Ok (set_nth l (Z.to_nat i) x)) by (apply rd_Ok, nth_error_set_nth_eq; auto).
    rewrite Q2. cbn [bind]. split.
    + rewrite Rz. apply rd_Ok. apply nth_error_set_nth_eq. auto.
    + intros j Hj. unfold rdz. destruct (Z.ltb_spec j 0); auto. unfold rd. rewrite nth_error_set_nth_ne; auto. lia.
  - right. split; [lia|]. assert (N : nth_error l (Z.to_nat i) = None) by (apply nth_error_None; auto).
    unfold wr, rd. destruct (Nat.ltb_spec (Z.to_nat i) (length l)); [lia|]. rewrite N. auto.
Qed.
Example c41_witness : (exists v, get ex_state (nkey "velocity") = Some v /\ uni_values ex_state v = Some [1; 1; 1; 1]%Z /\ uni_write ex_state v 4 0%Z = UB) /\
  add ex_env ex_state (RPtr (ckey "b") (Some [1; 2]%Z)) = UB.
Proof. split; [eexists; repeat split; reflexivity|reflexivity]. Qed.
