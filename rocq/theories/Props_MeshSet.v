(** C05-C14: mesh sets.  Vocabulary in MeshSet_spec; the model in MeshSet.
    [types] is the list of parallel types of the mesh entities of the set's kind (its length = number of entities). *)
From Coq Require Import String Permutation.
From Verif Require Import Base Defs MeshSet MeshSet_spec MeshSet_proofs MeshSet_proofs2 MeshSet_proofs3.
Set Implicit Arguments.

(** a small mesh used by the examples: entities 0..3 owned, 4 and 5 ghost *)
Definition ex_types := owned_first 4 2.
Definition set_of (o : outcome mset) : mset := match o with Ok s => s | _ => MSet "bad"%string NODE [] [] [] false [] end.
Definition ex_set := set_of (make_set ex_types "s" CELL [2;0] [5] true).
Definition ex_owned_set := set_of (make_set ex_types "o" CELL [2;0] [] true).

(** ** C05 *)
Theorem c05_new_set : forall types name kind owned ghost build_rev,
  NoDup owned -> NoDup ghost ->
  (forall e, In e owned -> nth_error types e = Some PARALLEL_OWNED) ->
  (forall e, In e ghost -> nth_error types e = Some PARALLEL_GHOST) ->
  exists s, make_set types name kind owned ghost build_rev = Ok s /\
    ms_entities s PARALLEL_OWNED = owned /\ ms_entities s PARALLEL_GHOST = ghost /\ ms_entities s TYPE_ALL = owned ++ ghost /\
    ms_num s PARALLEL_OWNED = length owned /\ ms_num s PARALLEL_GHOST = length ghost /\ ms_num s TYPE_ALL = length owned + length ghost /\
    ms_name s = name /\ ms_kind s = kind /\
    (build_rev = true -> index_agrees types s) /\
    (build_rev = false -> forall e, index_in_set s e = Ok (-1)%Z).
Proof.
  intros types name kind owned ghost b H1 H2 H3 H4.
  destruct (@make_set_ok types name kind owned ghost b H1 H2 H3 H4) as (s & E & (W & O & I) & A1 & A2 & A3 & A4 & A5).
  exists s. split; auto. unfold ordered in O. cbn. rewrite O, A3, A4, app_length. repeat (split; [solve [auto]|]). split.
  - intros Hb. apply I. congruence.
  - intros Hb e. unfold index_in_set. pose proof (wf_rev_len W) as HL. rewrite A5, Hb in HL. destruct (ms_rev s); simpl in HL; auto; lia.
Qed.
Print Assumptions c05_new_set.

(** entity ids beyond the mesh write outside the reverse map *)
Theorem c05_out_of_range_refuted : forall types name kind owned ghost e,
  In e (owned ++ ghost) -> length types <= e -> make_set types name kind owned ghost true = UB.
Proof. intros; eapply make_set_out_of_range; eauto. Qed.
Print Assumptions c05_out_of_range_refuted.

Example c05_example : ms_all ex_set = [2;0;5] /\ consistent ex_types ex_set.
Proof.
  split; [reflexivity|]. destruct (@make_set_ok ex_types "s" CELL [2;0] [5] true) as (s & E & C & _).
  - repeat constructor; simpl; intuition discriminate.
  - repeat constructor; simpl; intuition discriminate.
  - intros e [<-|[<-|[]]]; reflexivity.
  - intros e [<-|[]]; reflexivity.
  - unfold ex_set. rewrite E. exact C.
Qed.
Example c05_example_owned : ms_all ex_owned_set = [2;0] /\ consistent ex_types ex_owned_set.
Proof.
  split; [reflexivity|]. destruct (@make_set_ok ex_types "o" CELL [2;0] [] true) as (s & E & C & _).
  - repeat constructor; simpl; intuition discriminate.
  - constructor.
  - intros e [<-|[<-|[]]]; reflexivity.
  - intros e [].
  - unfold ex_owned_set. rewrite E. exact C.
Qed.

(** ** C06 *)
(** members, layout and duplicate-freedom for one call; the index map when the new entity goes last *)
Theorem c06_add_entity_partial : forall types s e, consistent types s -> ~ In e (ms_all s) ->
  nth_error types e = Some PARALLEL_OWNED \/ nth_error types e = Some PARALLEL_GHOST ->
  exists s', add_entity types s e = Ok s' /\ wf_set types s' /\ ordered s' /\
    (forall x, In x (ms_all s') <-> In x (ms_all s) \/ x = e) /\
    (ms_ghost s = [] \/ nth_error types e = Some PARALLEL_GHOST -> consistent types s').
Proof.
  intros types s e (W & O & I) Hn [Ht|Ht].
  - destruct (add_entity_owned e W O Hn Ht) as (s' & E & W' & O' & A & B & _ & _ & _ & C). exists s'.
    repeat (split; [solve [auto]|]). split.
    + intros x. rewrite (wf_in_all x W'), (wf_in_all x W), A, B, in_app_iff. simpl. intuition (subst; auto).
    + intros [Hg|Hg]; [apply C; auto; split; auto|congruence].
  - destruct (add_entity_ghost e W O Hn Ht) as (s' & E & W' & O' & A & B & _ & _ & _ & C). exists s'.
    repeat (split; [solve [auto]|]). split.
    + intros x. rewrite (wf_in_all x W'), (wf_in_all x W), A, B, in_app_iff. simpl. intuition (subst; auto).
    + intros _. apply C. split; auto.
Qed.
Print Assumptions c06_add_entity_partial.

(** a whole history of add_entity calls: exact owned and ghost lists, whatever the interleaving *)
Theorem c06_add_history : forall types l s, wf_set types s -> ordered s -> NoDup l -> (forall e, In e l -> ~ In e (ms_all s)) ->
  typed types l ->
  exists s', add_each types l s = Ok s' /\ wf_set types s' /\
    ms_entities s' PARALLEL_OWNED = ms_entities s PARALLEL_OWNED ++ filter (is_type types PARALLEL_OWNED) l /\
    ms_entities s' PARALLEL_GHOST = ms_entities s PARALLEL_GHOST ++ filter (is_type types PARALLEL_GHOST) l /\
    ms_entities s' TYPE_ALL = ms_entities s' PARALLEL_OWNED ++ ms_entities s' PARALLEL_GHOST.
Proof.
  intros types l s W O N D T. destruct (add_each_ok W O N D T) as (s' & E & W' & O' & A & B & _). exists s'. auto.
Qed.
Print Assumptions c06_add_history.

(** ... and the index map stays right if all owned entities are added before the first ghost *)
Theorem c06_add_history_index_partial : forall types lo lg s, consistent types s -> NoDup (lo ++ lg) ->
  (forall e, In e (lo ++ lg) -> ~ In e (ms_all s)) ->
  (forall e, In e lo -> nth_error types e = Some PARALLEL_OWNED) ->
  (forall e, In e lg -> nth_error types e = Some PARALLEL_GHOST) -> (ms_ghost s = [] \/ lo = []) ->
  exists s', add_each types (lo ++ lg) s = Ok s' /\ consistent types s' /\
    ms_owned s' = ms_owned s ++ lo /\ ms_ghost s' = ms_ghost s ++ lg.
Proof. apply add_each_consistent. Qed.
Print Assumptions c06_add_history_index_partial.

(** Finding: an owned entity added to a set with ghosts shifts the ghosts in entities<ALL>, but their index is not updated *)
Theorem c06_index_refuted : consistent ex_types ex_set /\
  exists s', add_entity ex_types ex_set 1 = Ok s' /\ ms_all s' = [2;0;1;5] /\ index_in_set s' 5 = Ok 2%Z /\ ~ index_agrees ex_types s'.
Proof.
  split; [apply c05_example|]. eexists. split; [reflexivity|]. split; [reflexivity|]. split; [reflexivity|].
  intros H. destruct (H 5) as (i & E & [(k & -> & Hk)|[_ Hn]]); [cbn; lia| |].
  - cbn in E. injection E as E. assert (k = 2) by lia. subst. discriminate.
  - apply Hn. simpl. tauto.
Qed.
Print Assumptions c06_index_refuted.

(** Finding: adding a member again duplicates it *)
Theorem c06_duplicate_refuted : exists s', add_entity ex_types ex_set 0 = Ok s' /\ ms_owned s' = [2;0;0] /\ ~ NoDup (ms_owned s').
Proof. eexists. split; [reflexivity|]. split; [reflexivity|]. intros H. cbn in H. inversion H as [|? ? _ H2]; subst. inversion H2 as [|? ? H3 _]; subst. apply H3; left; auto. Qed.
Print Assumptions c06_duplicate_refuted.

Example c06_example : exists s', add_each ex_types [4;1] ex_owned_set = Ok s' /\ ms_all s' = [2;0;1;4].
Proof. eexists. split; reflexivity. Qed.

(** ** C07 *)
Theorem c07_rem_entity_partial : forall types s e, wf_set types s ->
  nth_error types e = Some PARALLEL_OWNED \/ nth_error types e = Some PARALLEL_GHOST ->
  exists s', rem_entity types s e = Ok s' /\ wf_set types s' /\
    (forall x, In x (ms_owned s') <-> In x (ms_owned s) /\ x <> e) /\
    (forall x, In x (ms_ghost s') <-> In x (ms_ghost s) /\ x <> e) /\
    (forall x, In x (ms_all s') <-> In x (ms_all s) /\ x <> e) /\
    (ms_have_rev s = true -> index_in_set s' e = Ok (-1)%Z).
Proof.
  intros types s e W T. destruct (rem_entity_ok _ W T) as (s' & E & W' & A & B & C & _ & _ & _ & D). exists s'. auto 10.
Qed.
Print Assumptions c07_rem_entity_partial.

(** Finding: the entity moved into the freed place keeps its old index, which is now out of range of entities<ALL>;
    with ghosts present a ghost ends up before an owned entity *)
Theorem c07_index_refuted : consistent ex_types ex_set /\
  exists s', rem_entity ex_types ex_set 2 = Ok s' /\ ms_all s' = [5;0] /\ ms_owned s' = [0] /\ ms_ghost s' = [5] /\
    ~ ordered s' /\ index_in_set s' 5 = Ok 2%Z /\ ~ index_agrees ex_types s'.
Proof.
  split; [apply c05_example|]. eexists. split; [reflexivity|]. split; [reflexivity|]. split; [reflexivity|]. split; [reflexivity|].
  split; [unfold ordered; discriminate|]. split; [reflexivity|].
  intros H. destruct (H 5) as (i & E & [(k & -> & Hk)|[_ Hn]]); [cbn; lia| |].
  - cbn in E. injection E as E. assert (k = 2) by lia. subst. discriminate.
  - apply Hn. simpl. tauto.
Qed.
Print Assumptions c07_index_refuted.

(** ** C08 *)
(** at least one owned entity among the arguments (or no arguments): members right, no duplicates;
    the layout and the index map are right in the stated cases *)
Theorem c08_add_entities_partial : forall types s l, consistent types s -> NoDup l -> (forall e, In e l -> ~ In e (ms_all s)) ->
  typed types l -> (l = [] \/ exists e, In e l /\ nth_error types e = Some PARALLEL_OWNED) ->
  exists s', add_entities types s l = Ok s' /\ wf_set types s' /\
    ms_owned s' = ms_owned s ++ filter (is_type types PARALLEL_OWNED) l /\
    ms_ghost s' = ms_ghost s ++ filter (is_type types PARALLEL_GHOST) l /\
    (forall x, In x (ms_all s') <-> In x (ms_all s) \/ In x l) /\
    (ms_ghost s' <> [] \/ ms_owned s = [] \/ l = [] -> ordered s') /\
    (ms_ghost s = [] -> ms_ghost s' <> [] \/ ms_owned s = [] -> consistent types s').
Proof.
  intros types s l (W & O & I) N D T H.
  destruct (add_entities_ok W O N D T H) as (s' & E & W' & A & B & C & _ & _ & _ & F & G). exists s'.
  do 6 (split; [solve [auto]|]). intros G1 G2. apply G; auto. split; auto.
Qed.
Print Assumptions c08_add_entities_partial.

(** Finding: a non-empty list of ghosts only is always undefined behaviour (iterator of the wrong vector) *)
Theorem c08_ghosts_only_refuted : forall types s l, l <> [] -> (forall e, In e l -> nth_error types e = Some PARALLEL_GHOST) ->
  add_entities types s l = UB.
Proof. apply add_entities_all_ghost. Qed.
Print Assumptions c08_ghosts_only_refuted.

(** Finding: adding owned entities to a set without ghosts puts them in FRONT in entities<ALL> but at the end in
    entities<OWNED>, and the index map is wrong for old and new members *)
Theorem c08_layout_refuted : consistent ex_types ex_owned_set /\
  exists s', add_entities ex_types ex_owned_set [1] = Ok s' /\ ms_owned s' = [2;0;1] /\ ms_all s' = [1;2;0] /\ ~ ordered s' /\
    index_in_set s' 1 = Ok (-1)%Z /\ ~ index_agrees ex_types s'.
Proof.
  split; [apply c05_example_owned|]. eexists. split; [reflexivity|]. split; [reflexivity|]. split; [reflexivity|].
  split; [unfold ordered; discriminate|]. split; [reflexivity|].
  intros H. destruct (H 1) as (i & E & [(k & -> & Hk)|[_ Hn]]); [cbn; lia| |].
  - cbn in E. injection E as E. lia.
  - apply Hn. simpl. tauto.
Qed.
Print Assumptions c08_layout_refuted.

(** Finding: with ghosts present the old ghosts' indices go stale *)
Theorem c08_ghost_index_refuted : consistent ex_types ex_set /\
  exists s', add_entities ex_types ex_set [1] = Ok s' /\ ms_all s' = [2;0;1;5] /\ index_in_set s' 5 = Ok 2%Z.
Proof. split; [apply c05_example|]. eexists. repeat (split; [reflexivity|]). reflexivity. Qed.
Print Assumptions c08_ghost_index_refuted.

(** Finding: an entity that is neither OWNED nor GHOST: with no ghosts in the set and in the list, the mixed branch adds the
    owned arguments to entities<ALL>, and then the whole argument list is inserted once more *)
Theorem c08_boundary_ghost_refuted : exists s', add_entities [PARALLEL_OWNED; BOUNDARY_GHOST] (set_of (make_set [PARALLEL_OWNED; BOUNDARY_GHOST] "b" CELL [] [] false)) [0;1] = Ok s' /\
  ms_owned s' = [0] /\ ms_all s' = [0;1;0].
Proof. eexists. repeat (split; [reflexivity|]). reflexivity. Qed.
Print Assumptions c08_boundary_ghost_refuted.

Example c08_example : exists s', add_entities ex_types ex_owned_set [4;1;3] = Ok s' /\ ms_all s' = [2;0;1;3;4] /\ index_in_set s' 4 = Ok 4%Z.
Proof. eexists. repeat (split; [reflexivity|]). reflexivity. Qed.

(** ** C09 *)
Theorem c09_rem_entities_partial : forall types s l, wf_set types s -> NoDup l -> (forall e, In e l -> e < length types) ->
  exists s', rem_entities types s l = Ok s' /\ wf_set types s' /\
    (forall x, In x (ms_owned s') <-> In x (ms_owned s) /\ ~ In x l) /\
    (forall x, In x (ms_ghost s') <-> In x (ms_ghost s) /\ ~ In x l) /\
    (forall x, In x (ms_all s') <-> In x (ms_all s) /\ ~ In x l) /\
    (ms_have_rev s = true -> forall k x, nth_error (ms_all s') k = Some x -> index_in_set s' x = Ok (Z.of_nat k)).
Proof.
  intros types s l W N H. destruct (rem_entities_ok W N H) as (s' & E & W' & A & B & C & _ & _ & _ & D). exists s'. auto 10.
Qed.
Print Assumptions c09_rem_entities_partial.

(** Finding: a repeated argument deletes another member, or reads outside the list *)
Theorem c09_repeated_argument_refuted :
  (exists s', rem_entities (owned_first 4 0) (set_of (make_set (owned_first 4 0) "r" CELL [1;2;3] [] false)) [3;3] = Ok s' /\ ms_owned s' = [1]) /\
  rem_entities (owned_first 4 0) (set_of (make_set (owned_first 4 0) "r" CELL [1] [] false)) [1;1] = UB.
Proof. split; [eexists; split; reflexivity|reflexivity]. Qed.
Print Assumptions c09_repeated_argument_refuted.

(** Finding: removed entities keep their old index *)
Theorem c09_removed_index_refuted : consistent ex_types ex_owned_set /\
  exists s', rem_entities ex_types ex_owned_set [0] = Ok s' /\ ms_all s' = [2] /\ index_in_set s' 0 = Ok 1%Z.
Proof. split; [apply c05_example_owned|]. eexists. repeat (split; [reflexivity|]). reflexivity. Qed.
Print Assumptions c09_removed_index_refuted.

(** ** C10-C13.  [h] maps set handles to sets. *)
Theorem c10_merge : forall types h ps, ps <> [] -> (forall p, In p ps -> consistent types (h p)) ->
  (forall p q, In p ps -> In q ps -> ms_kind (h p) = ms_kind (h q)) ->
  exists r, merge types h ps = Ok r /\ consistent types (deref h r) /\
    (forall p, In p ps -> ms_kind (deref h r) = ms_kind (h p)) /\
    (forall x, In x (ms_entities (deref h r) PARALLEL_OWNED) <-> exists p, In p ps /\ In x (ms_entities (h p) PARALLEL_OWNED)) /\
    (forall x, In x (ms_entities (deref h r) PARALLEL_GHOST) <-> exists p, In p ps /\ In x (ms_entities (h p) PARALLEL_GHOST)) /\
    ((forall p, In p ps -> ms_have_rev (h p) = true) -> index_agrees types (deref h r)).
Proof. apply merge_ok. Qed.
Print Assumptions c10_merge.

(** argument order and repetition do not matter *)
Theorem c10_merge_order : forall types h ps ps', ps <> [] -> (forall p, In p ps <-> In p ps') ->
  (forall p, In p ps -> consistent types (h p)) -> (forall p q, In p ps -> In q ps -> ms_kind (h p) = ms_kind (h q)) ->
  exists r r', merge types h ps = Ok r /\ merge types h ps' = Ok r' /\
    Permutation (ms_owned (deref h r)) (ms_owned (deref h r')) /\ Permutation (ms_ghost (deref h r)) (ms_ghost (deref h r')).
Proof.
  intros types h ps ps' Hne Hp Hc Hk.
  destruct (@merge_ok types h ps) as (r & E & C & _ & O & G & _); auto.
  destruct (@merge_ok types h ps') as (r' & E' & C' & _ & O' & G' & _).
  { intros ->. destruct ps as [|p ps]; auto. apply (Hp p); left; auto. }
  { intros p H; apply Hc, Hp; auto. }
  { intros p q H1 H2; apply Hk; apply Hp; auto. }
  exists r, r'. split; auto. split; auto. split; apply NoDup_Permutation.
  - apply C. - apply C'. 
  - intros x. rewrite O, O'. split; intros (p & H1 & H2); exists p; split; auto; apply Hp; auto.
  - apply C. - apply C'.
  - intros x. rewrite G, G'. split; intros (p & H1 & H2); exists p; split; auto; apply Hp; auto.
Qed.
Print Assumptions c10_merge_order.

(** a merge of one set is that very object, not a copy *)
Theorem c10_merge_single_is_alias : forall types h p, merge types h [p] = Ok (Existing p).
Proof. reflexivity. Qed.
Print Assumptions c10_merge_single_is_alias.

Theorem c11_subtract : forall types h p0 ps, ps <> [] -> (forall p, In p (p0 :: ps) -> consistent types (h p)) ->
  (forall p, In p ps -> ms_kind (h p) = ms_kind (h p0)) ->
  exists s, subtract types h p0 ps = Ok s /\ consistent types s /\ ms_kind s = ms_kind (h p0) /\
    (forall x, In x (ms_owned s) <-> In x (ms_owned (h p0)) /\ forall p, In p ps -> ~ In x (ms_owned (h p))) /\
    (forall x, In x (ms_ghost s) <-> In x (ms_ghost (h p0)) /\ forall p, In p ps -> ~ In x (ms_ghost (h p))) /\
    (ms_have_rev (h p0) = true -> index_agrees types s).
Proof. apply subtract_ok. Qed.
Print Assumptions c11_subtract.

Theorem c12_intersect : forall types h ps, ps <> [] -> (forall p, In p ps -> consistent types (h p)) ->
  (forall p q, In p ps -> In q ps -> ms_kind (h p) = ms_kind (h q)) ->
  exists s, intersect types h ps = Ok s /\ consistent types s /\
    (forall p, In p ps -> ms_kind s = ms_kind (h p)) /\
    (forall x, In x (ms_owned s) <-> forall p, In p ps -> In x (ms_owned (h p))) /\
    (forall x, In x (ms_ghost s) <-> forall p, In p ps -> In x (ms_ghost (h p))) /\
    ((forall p, In p ps -> ms_have_rev (h p) = true) -> index_agrees types s).
Proof. apply intersect_ok. Qed.
Print Assumptions c12_intersect.

(** the mesh has [no] owned entities of the kind and no ghosts *)
Theorem c13_complement_partial : forall no h ps, ps <> [] -> (forall p, In p ps -> consistent (owned_first no 0) (h p)) ->
  (forall p q, In p ps -> In q ps -> ms_kind (h p) = ms_kind (h q)) ->
  exists s, complement (owned_first no 0) h ps = Ok s /\ consistent (owned_first no 0) s /\
    (forall p, In p ps -> ms_kind s = ms_kind (h p)) /\
    (forall x, In x (ms_owned s) <-> x < no /\ forall p, In p ps -> ~ In x (ms_owned (h p))) /\ ms_ghost s = [] /\
    ((forall p, In p ps -> ms_have_rev (h p) = true) -> index_agrees (owned_first no 0) s).
Proof. apply complement_ok. Qed.
Print Assumptions c13_complement_partial.

(** Finding: with ghosts, the loop over ghost entities runs over 0..num_ghost-1 instead of the ghost ids, so owned
    entities are reported as ghosts and the ghosts themselves are missing *)
Theorem c13_ghost_refuted :
  exists s, complement (owned_first 4 2) (fun _ => ex_owned_set) [0] = Ok s /\ consistent ex_types ex_owned_set /\
    ms_owned s = [1;3] /\ ms_ghost s = [0;1] /\
    ~ In 4 (ms_ghost s) /\ nth_error (owned_first 4 2) 4 = Some PARALLEL_GHOST /\ ~ In 4 (ms_ghost ex_owned_set).
Proof.
  eexists. split; [reflexivity|]. split; [apply c05_example_owned|]. repeat (split; [reflexivity|]).
  split; [cbn; intuition discriminate|]. split; [reflexivity|]. intros [].
Qed.
Print Assumptions c13_ghost_refuted.

Definition ex_heap (p : nat) : mset :=
  match p with 0 => ex_set | 1 => ex_owned_set | _ => set_of (make_set ex_types "t" CELL [1;2] [5;4] true) end.
Example c10_example : exists r, merge ex_types ex_heap [1;2] = Ok r /\ ms_all (deref ex_heap r) = [2;0;1;5;4].
Proof. eexists. split; reflexivity. Qed.
Example c11_example : exists s, subtract ex_types ex_heap 0 [2] = Ok s /\ ms_all s = [0].
Proof. eexists. split; reflexivity. Qed.
Example c12_example : exists s, intersect ex_types ex_heap [0;2] = Ok s /\ ms_all s = [2;5].
Proof. eexists. split; reflexivity. Qed.
Example c13_example : exists s, complement (owned_first 4 0) (fun _ => set_of (make_set (owned_first 4 0) "t" CELL [1;2] [] true)) [0;1] = Ok s /\ ms_all s = [0;3].
Proof. eexists. split; reflexivity. Qed.

(** ** C14 *)
(** a request to register a set, and the effect of a history of such requests on an initially empty registry *)
Record set_req := Req { rq_name : string; rq_kind : entity_kind; rq_owned : list nat; rq_ghost : list nat; rq_rev : bool }.
Fixpoint register_all (types : entity_kind -> list entity_type) (l : list set_req) (R : registry) : outcome registry :=
  match l with
  | [] => Ok R
  | q :: r => x <- make_meshset (types (rq_kind q)) R (rq_name q) (rq_kind q) (rq_owned q) (rq_ghost q) (rq_rev q) ;;
              register_all types r (fst x)
  end.
Definition empty_registry : registry := Reg (fun _ => MSet ""%string NODE [] [] [] false []) 0 [].

Lemma register_all_ok types : forall l R R', reg_ok R -> register_all types l R = Ok R' ->
  reg_ok R' /\ exists ps, regs R' = regs R ++ ps /\ (forall q, In q (regs R) -> heap R' q = heap R q) /\
    Forall2 (fun p q => ms_name (heap R' p) = rq_name q /\ ms_kind (heap R' p) = rq_kind q /\
                        ms_owned (heap R' p) = rq_owned q /\ ms_ghost (heap R' p) = rq_ghost q) ps l.
Proof.
  induction l as [|q l IH]; intros R R' HR E; cbn [register_all] in E.
  - injection E as <-. split; auto. exists []. rewrite app_nil_r. split; auto.
  - apply bind_Ok in E as ([R1 p] & E1 & E2). cbn [fst] in E2.
    destruct (make_meshset_ok _ _ _ _ _ _ HR E1) as (HR1 & A & B & C1 & C2 & C3 & C4 & D).
    destruct (IH _ _ HR1 E2) as (HR' & ps & P & Q & F). split; auto.
    exists (p :: ps). rewrite P, A, <- app_assoc. split; auto. split.
    + intros x Hx. rewrite Q; [apply D; auto|]. rewrite A; apply in_or_app; auto.
    + constructor; auto. rewrite Q by (rewrite A; apply in_or_app; right; left; auto). auto.
Qed.

(** After any history of registrations, looking up (name, kind) yields the set created by the FIRST request with that name
    and kind, with exactly the entities given then; and null if there was no such request. *)
Theorem c14_lookup_after_history : forall types l R, register_all types l empty_registry = Ok R ->
  forall name kind,
  match find (fun q => String.eqb (rq_name q) name && kind_eqb (rq_kind q) kind)%bool l with
  | Some q => exists p, find_set (heap R) (regs R) name kind = Some p /\ ms_name (heap R p) = name /\ ms_kind (heap R p) = kind /\
                ms_owned (heap R p) = rq_owned q /\ ms_ghost (heap R p) = rq_ghost q
  | None => find_set (heap R) (regs R) name kind = None
  end.
Proof.
  intros types l R E name kind. apply register_all_ok in E; [|intros p []].
  destruct E as (_ & ps & P & _ & F). cbn in P. rewrite P. clear P.
  induction F as [|p q ps l (A & B & C & D) F IH]; cbn [find find_set]; auto.
  rewrite A, B. destruct (String.eqb (rq_name q) name && kind_eqb (rq_kind q) kind)%bool eqn:Eb; [|exact IH].
  apply andb_true_iff in Eb as [E1 E2]. apply String.eqb_eq in E1. apply kind_eqb_spec in E2.
  exists p. repeat split; congruence.
Qed.
Print Assumptions c14_lookup_after_history.

(** one registration: a new name is found; every earlier answer is unchanged *)
Theorem c14_register_one : forall types R name kind owned ghost b R' p, reg_ok R ->
  make_meshset types R name kind owned ghost b = Ok (R', p) ->
  (find_set (heap R) (regs R) name kind = None -> find_set (heap R') (regs R') name kind = Some p /\
     ms_owned (heap R' p) = owned /\ ms_ghost (heap R' p) = ghost) /\
  (forall n k q, find_set (heap R) (regs R) n k = Some q -> find_set (heap R') (regs R') n k = Some q /\ heap R' q = heap R q) /\
  (forall n k, (n, k) <> (name, kind) -> find_set (heap R') (regs R') n k = find_set (heap R) (regs R) n k).
Proof.
  intros types R name kind owned ghost b R' p HR E.
  destruct (make_meshset_ok _ _ _ _ _ _ HR E) as (HR' & A & B & C1 & C2 & C3 & C4 & D).
  assert (HX : forall n k, find_set (heap R') (regs R') n k = match find_set (heap R) (regs R) n k with Some q => Some q | None => find_set (heap R') [p] n k end).
  { intros n k. rewrite A, find_set_app. rewrite (@find_set_ext (heap R') (heap R) (regs R)); auto. }
  split; [|split].
  - intros Hn. rewrite HX, Hn. cbn [find_set]. rewrite C1, C2, String.eqb_refl.
    assert (K : kind_eqb kind kind = true) by (apply kind_eqb_spec; auto). rewrite K. auto.
  - intros n k q Hq. rewrite HX, Hq. split; auto. apply D. apply find_set_first in Hq as (r1 & r2 & -> & _). apply in_or_app; right; left; auto.
  - intros n k Hnk. rewrite HX. destruct (find_set (heap R) (regs R) n k); auto. cbn [find_set]. rewrite C1, C2.
    destruct (String.eqb name n && kind_eqb kind k)%bool eqn:Eb; auto. apply andb_true_iff in Eb as [E1 E2].
    apply String.eqb_eq in E1. apply kind_eqb_spec in E2. congruence.
Qed.
Print Assumptions c14_register_one.

Example c14_example : exists R, register_all (fun _ => ex_types)
   [Req "a" CELL [0] [] true; Req "b" CELL [1] [4] false; Req "a" CELL [2] [] true; Req "a" NODE [3] [] true] empty_registry = Ok R /\
   find_set (heap R) (regs R) "a" CELL = Some 0 /\ find_set (heap R) (regs R) "a" NODE = Some 3 /\ find_set (heap R) (regs R) "c" CELL = None.
Proof. eexists. repeat (split; [reflexivity|]). reflexivity. Qed.
