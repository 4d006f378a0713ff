(** C91: labeled sets of a mesh file, in the MSTK framework. *)
From Coq Require Import String Permutation.
From Verif Require Import Base Loop Defs Factory Cache Cache_spec Cache_proofs Cache_proofs5 Cache_proofs6 MeshSet MeshSet_spec Point Regions MeshGeom MeshGeom_spec RegionSets RegionSets_spec RegionSets_proofs
  MstkMesh MstkMesh_spec MstkMesh_proofs MstkMesh_proofs2 MstkMesh_examples MstkSets MstkGeom MstkFramework_spec MstkFramework_proofs Props_MstkIds Props_MstkOrder Props_MstkFramework Props_Cache Props_RegionSets Props_FindRegion.
Set Implicit Arguments. Unset Strict Implicit.
Local Open Scope string_scope.

(** the sets of a mesh file: one name each, entities listed once, all of them entities of the mesh *)
Definition file_sets (m : mstk) (sets : list fset) : Prop :=
  NoDup (map fs_name sets) /\ forall s, In s sets -> NoDup (fs_ents s) /\ forall h, In h (fs_ents s) -> In h (k_all m (fs_dim s)).
(** what a label refers to: an element block or an element set (cells), a side set (faces), a node set (nodes) *)
Definition names_set (l : labeled) (K : entity_kind) (n : string) : Prop :=
  match K with
  | CELL => n = "matset_" ++ ls_label l \/ n = "elemset_" ++ ls_label l
  | FACE => n = "sideset_" ++ ls_label l
  | NODE => n = "nodeset_" ++ ls_label l
  | _ => False
  end.
Definition the_set (sets : list fset) (l : labeled) (K : entity_kind) (s : fset) : Prop :=
  In s sets /\ names_set l K (fs_name s) /\ forall s', In s' sets -> names_set l K (fs_name s') -> s' = s.
Definition settable (K : entity_kind) : Prop := K = CELL \/ K = FACE \/ K = NODE.
Lemma settable_base K : settable K -> base_kind K.
Proof. unfold base_kind. intros [->|[->| ->]]; auto. Qed.

Lemma set_by_name_some sets n s : set_by_name sets n = Some s -> In s sets /\ fs_name s = n.
Proof. intros E. apply find_some in E as [I E]. apply String.eqb_eq in E. auto. Qed.
Lemma set_by_name_in sets s : NoDup (map fs_name sets) -> In s sets -> set_by_name sets (fs_name s) = Some s.
Proof.
  induction sets as [|a r IH]; intros N I; [destruct I|]. cbn [map] in N. inversion_clear N as [|? ? N1 N2]. unfold set_by_name. cbn [find].
  destruct (String.eqb_spec (fs_name a) (fs_name s)) as [E|E].
  - destruct I as [->|I]; auto. exfalso. apply N1. rewrite E. apply in_map; auto.
  - destruct I as [->|I]; [congruence|]. apply IH; auto.
Qed.
Lemma set_by_name_none sets n : (forall s, In s sets -> fs_name s <> n) -> set_by_name sets n = None.
Proof. intros H. destruct (set_by_name sets n) as [s|] eqn:E; auto. apply set_by_name_some in E as [I E]. exfalso. apply (H s I E). Qed.
Lemma names_differ a : "matset_" ++ a <> "elemset_" ++ a. Proof. discriminate. Qed.
Lemma label_ok l K : settable K -> label_means (ls_entity l) K -> forall j sets, get_labeled_set_entities j sets l K =
  match K with
  | CELL => match set_by_name sets ("matset_" ++ ls_label l), set_by_name sets ("elemset_" ++ ls_label l) with
            | Some _, Some _ => Thrown | Some s, None => Ok (split_set j s) | None, s => Ok (split_opt j s) end
  | FACE => Ok (split_opt j (set_by_name sets ("sideset_" ++ ls_label l)))
  | _ => Ok (split_opt j (set_by_name sets ("nodeset_" ++ ls_label l)))
  end.
Proof. intros [->|[->| ->]] [E|E] j sets; cbn [get_labeled_set_entities]; unfold is_label; rewrite E; reflexivity. Qed.
Lemma the_set_answer sets l K s j m : file_sets m sets -> settable K -> label_means (ls_entity l) K -> the_set sets l K s ->
  get_labeled_set_entities j sets l K = Ok (split_set j s).
Proof.
  intros [N _] S L (I & Nm & U). rewrite (label_ok S L). destruct S as [->|[->| ->]]; cbn [names_set] in *.
  - destruct Nm as [E|E].
    + rewrite <- E, (set_by_name_in N I). rewrite set_by_name_none; auto. intros s' I' E'. assert (s' = s) by (apply U; auto). subst s'. rewrite E in E'. discriminate.
    + rewrite <- E, (set_by_name_in N I). rewrite set_by_name_none; auto. intros s' I' E'. assert (s' = s) by (apply U; auto). subst s'. rewrite E in E'. discriminate.
  - rewrite <- Nm, (set_by_name_in N I). auto.
  - rewrite <- Nm, (set_by_name_in N I). auto.
Qed.
Lemma nodup_map_in A B (f : A -> B) l : NoDup l -> (forall a b, In a l -> In b l -> f a = f b -> a = b) -> NoDup (map f l).
Proof.
  induction 1 as [|a l N H IH]; intros I; cbn [map]; constructor.
  - rewrite in_map_iff. intros (b & E & Ib). apply N. rewrite <- (I b a); simpl; auto.
  - apply IH. intros; apply I; simpl; auto.
Qed.
Lemma gbehind_in serial bg faces edges m rcv j K i h : constructed serial bg faces edges m rcv j -> base_kind K -> has_kind j K -> behind j K i h -> In h (k_all m (mkind_of m K)) /\ id_of j (mkind_of m K) h = i.
Proof. intros C B Hk E. destruct (c85_one_entity_per_id C B Hk) as (_ & _ & Hid & _). auto. Qed.
Lemma gbehind_of serial bg faces edges m rcv j K h : constructed serial bg faces edges m rcv j -> base_kind K -> has_kind j K -> In h (k_all m (mkind_of m K)) -> behind j K (id_of j (mkind_of m K) h) h.
Proof. intros C B Hk I. destruct (c85_one_entity_per_id C B Hk) as (_ & Ha & Hid & _). destruct (Ha _ I) as [i E]. destruct (Hid _ _ E) as [_ ->]. auto. Qed.
Lemma nodup_ids serial bg faces edges m rcv j K hs : constructed serial bg faces edges m rcv j -> base_kind K -> has_kind j K -> NoDup hs -> (forall h, In h hs -> In h (k_all m (mkind_of m K))) ->
  NoDup (map (id_of j (mkind_of m K)) hs).
Proof.
  intros C B Hk N I. apply nodup_map_in; auto. intros a b Ia Ib E. pose proof (gbehind_of C B Hk (I _ Ia)) as A1. pose proof (gbehind_of C B Hk (I _ Ib)) as A2. rewrite E in A1. apply (behind_fun A1 A2).
Qed.

(** C91.  The entities of a labeled set: exactly those of the set of the file that the label names, by their ids, owned and ghost entities apart,
    each once. *)
Theorem c91_labeled_set : forall serial bg faces edges m rcv j sets l K s, constructed serial bg faces edges m rcv j -> file_sets m sets -> settable K -> has_kind j K ->
  label_means (ls_entity l) K -> the_set sets l K s -> fs_dim s = mkind_of m K -> (bg = true -> K = CELL -> forall h, In h (fs_ents s) -> k_bghost m h = false) ->
  exists o g, get_labeled_set_entities j sets l K = Ok (o, g) /\ NoDup o /\ NoDup g /\
    (forall i, In i o <-> In i (entities j K PARALLEL_OWNED) /\ exists h, behind j K i h /\ In h (fs_ents s)) /\
    (forall i, In i g <-> In i (entities j K PARALLEL_GHOST) /\ exists h, behind j K i h /\ In h (fs_ents s)).
Proof.
  intros serial bg faces edges m rcv j sets l K s C F S Hk L T Dm Nb. pose proof (settable_base S) as B. pose proof (constructed_made C) as M. rewrite (the_set_answer j F S L T). unfold split_set.
  rewrite (mj_mesh M), Dm. destruct F as [_ F]. destruct T as (I & _ & _). destruct (F _ I) as [Ns Is]. rewrite Dm in Is. eexists _, _. split; [reflexivity|].
  assert (X : forall p, NoDup (map (id_of j (mkind_of m K)) (filter p (fs_ents s)))).
  { intros p. apply (nodup_ids C B Hk). apply NoDup_filter; auto. intros h Ih. apply filter_In in Ih. apply Is; tauto. }
  split; [apply X|]. split; [apply X|].
  assert (T : forall h ty, In h (fs_ents s) -> In ty [PARALLEL_OWNED; PARALLEL_GHOST; BOUNDARY_GHOST; TYPE_ALL] -> In (id_of j (mkind_of m K) h) (entities j K ty) <-> mstk_type m bg K h ty).
  { intros h ty Ih It. apply (c85_lists_hold_the_type C B Hk (gbehind_of C B Hk (Is _ Ih)) It). }
  split; intros i; rewrite in_map_iff; split.
  - intros (h & <- & Ih). apply filter_In in Ih as [Ih Pt]. split; [|exists h; split; auto; apply (gbehind_of C B Hk (Is _ Ih))]. apply T; simpl; auto. apply Bool.negb_true_iff in Pt.
    split; [destruct (k_ptype m (mkind_of m K) h); discriminate|]. intros (E1 & E2 & E3). rewrite (Nb E2 E1 _ Ih) in E3. discriminate.
  - intros (Io & h & Eh & Ih). exists h. destruct (gbehind_in C B Hk Eh) as [_ <-]. split; auto. apply filter_In. split; auto. apply T in Io; simpl; auto. destruct Io as [Pt _].
    destruct (k_ptype m (mkind_of m K) h); auto; congruence.
  - intros (h & <- & Ih). apply filter_In in Ih as [Ih Pt]. split; [|exists h; split; auto; apply (gbehind_of C B Hk (Is _ Ih))]. apply T; simpl; auto.
    destruct (k_ptype m (mkind_of m K) h); auto; discriminate.
  - intros (Io & h & Eh & Ih). exists h. destruct (gbehind_in C B Hk Eh) as [_ <-]. split; auto. apply filter_In. split; auto. apply T in Io; simpl; auto. cbn [mstk_type] in Io. rewrite Io. auto.
Qed.
(** C91.  A label the file does not have gives an empty set; a label of both an element block and an element set is refused, and so is a kind that is not the
    region's. *)
Theorem c91_other_labels : forall j sets l K, settable K ->
  (~ label_means (ls_entity l) K -> get_labeled_set_entities j sets l K = Thrown) /\
  (label_means (ls_entity l) K -> (forall s, In s sets -> ~ names_set l K (fs_name s)) -> get_labeled_set_entities j sets l K = Ok ([], [])) /\
  (label_means (ls_entity l) K -> forall s1 s2, NoDup (map fs_name sets) -> In s1 sets -> In s2 sets -> fs_name s1 = "matset_" ++ ls_label l -> fs_name s2 = "elemset_" ++ ls_label l ->
     K = CELL -> get_labeled_set_entities j sets l K = Thrown).
Proof.
  intros j sets l K S. split; [|split].
  - intros N. assert (X : forall n1 n2, ~ (ls_entity l = n1 \/ ls_entity l = n2) -> is_label l n1 n2 = false).
    { intros n1 n2 Q. unfold is_label. destruct (String.eqb_spec (ls_entity l) n1); [tauto|]. destruct (String.eqb_spec (ls_entity l) n2); [tauto|]. auto. }
    destruct S as [->|[->| ->]]; cbn [label_means] in N; cbn [get_labeled_set_entities]; rewrite (X _ _ N); reflexivity.
  - intros L N. rewrite (label_ok S L). destruct S as [->|[->| ->]]; cbn [names_set] in N; rewrite ?set_by_name_none; auto; intros s I E; apply (N s I); auto.
  - intros L s1 s2 N I1 I2 E1 E2 ->. rewrite (label_ok S L). rewrite <- E1, <- E2, (set_by_name_in N I1), (set_by_name_in N I2). auto.
Qed.

(** ** Through the mesh's set functions *)
(** the types the mesh's functions see are those of the id lists *)
Definition types_agree (j : jmesh) (V : mview) (K : entity_kind) : Prop :=
  forall i ty, ty = PARALLEL_OWNED \/ ty = PARALLEL_GHOST -> nth_error (v_types V K) i = Some ty <-> In i (entities j K ty).
(** of the cells of a mesh whose caches have been made this is known *)
Lemma types_agree_cells serial bg faces edges m rcv j fl Mc gt X g nc lab : constructed serial bg faces edges m rcv j -> built (topo_of j) (api_shape j) fl Mc ->
  types_agree j (view (mstk_gmesh j Mc gt) X g nc lab) CELL /\ RegionSets_spec.numbered (v_types (view (mstk_gmesh j Mc gt) X g nc lab) CELL).
Proof.
  intros C B. cbn [view v_types types_of mstk_gmesh gm]. destruct (fa_typed (built_facts B)) as [L H]. pose proof (fa_type (built_facts B)) as Q.
  destruct (c85_ids_by_type C bk_cell I) as (no & ng & nb & E1 & E2 & E3 & _ & _). unfold entities, list_of in E1, E2, E3. split.
  - intros i ty Ty. change (v_types (view (mstk_gmesh j Mc gt) X g nc lab) CELL) with (cm_ctype Mc). split.
    + intros E. assert (Li : i < ncells (topo_of j)) by (rewrite <- L; apply nth_error_Some; congruence). specialize (H i Li). unfold ctype_of in H. rewrite (nth_error_nth _ _ _ E) in H.
      unfold cell_has_type, topo_of in H. cbn [cells_owned cells_ghost cells_bghost] in H. unfold entities, list_of. destruct Ty as [-> | ->]; destruct H as [[X1 X2]|[[X1 X2]|[X1 X2]]]; try discriminate; auto.
    + intros Ii. apply Q. unfold cell_has_type, topo_of. cbn [cells_owned cells_ghost cells_bghost]. destruct Ty as [-> | ->]; unfold entities, list_of in Ii; auto.
  - exists no, ng, nb. assert (Ln : length (cm_ctype Mc) = no + ng + nb).
    { rewrite L. unfold ncells, topo_of. cbn [cells_owned cells_ghost cells_bghost]. rewrite E1, E2, E3, !seq_length. lia. }
    apply nth_ext with (d := TYPE_ALL) (d' := TYPE_ALL).
    { rewrite Ln, !app_length. unfold owned_first. rewrite !app_length, !repeat_length. lia. }
    intros i Li. apply nth_error_nth. rewrite Ln in Li. destruct (Nat.lt_ge_cases i no); [|destruct (Nat.lt_ge_cases i (no + ng))].
    + rewrite (Q i PARALLEL_OWNED); [|left; split; auto; cbn [topo_of cells_owned]; rewrite E1; apply in_seq; lia]. f_equal. symmetry. apply nth_error_nth.
      unfold owned_first. rewrite <- app_assoc, nth_error_app1 by (rewrite repeat_length; auto). apply nth_error_repeat; auto.
    + rewrite (Q i PARALLEL_GHOST); [|right; left; split; auto; cbn [topo_of cells_ghost]; rewrite E2; apply in_seq; lia]. f_equal. symmetry. apply nth_error_nth.
      unfold owned_first. rewrite <- app_assoc, nth_error_app2 by (rewrite repeat_length; auto). rewrite repeat_length, nth_error_app1 by (rewrite repeat_length; lia). apply nth_error_repeat; lia.
    + rewrite (Q i BOUNDARY_GHOST); [|right; right; split; auto; cbn [topo_of cells_bghost]; rewrite E3; apply in_seq; lia]. f_equal. symmetry. apply nth_error_nth.
      unfold owned_first. rewrite nth_error_app2 by (rewrite app_length, !repeat_length; lia). rewrite app_length, !repeat_length. apply nth_error_repeat; lia.
Qed.

(** C91.  The set built from the region holds exactly the entities of the file's set. *)
Theorem c91_set_from_region : forall serial bg faces edges m rcv j sets l K s V G n r F R wrev, constructed serial bg faces edges m rcv j -> file_sets m sets -> settable K -> has_kind j K ->
  label_means (ls_entity l) K -> the_set sets l K s -> fs_dim s = mkind_of m K -> (bg = true -> K = CELL -> forall h, In h (fs_ents s) -> k_bghost m h = false) ->
  v_labeled V = get_labeled_set_entities j sets -> types_agree j V K -> RegionSets_spec.numbered (v_types V CELL) -> in_order V R ->
  find_rgn (gd_regions G) n = Some r -> rn_shape r = SLabeled l ->
  exists R' p, build_set_from_region V G (S F) R n K wrev = Ok (R', Some p) /\ ms_name (heap R' p) = n /\ ms_kind (heap R' p) = K /\ sets_kept R R' /\
    forall i, (In i (ms_owned (heap R' p)) <-> In i (entities j K PARALLEL_OWNED) /\ exists h, behind j K i h /\ In h (fs_ents s)) /\
              (In i (ms_ghost (heap R' p)) <-> In i (entities j K PARALLEL_GHOST) /\ exists h, behind j K i h /\ In h (fs_ents s)).
Proof.
  intros serial bg faces edges m rcv j sets l K s V G n r F R wrev C Fs S Hk L T Dm Nb EV TA NU O FR SH.
  destruct (c91_labeled_set C Fs S Hk L T Dm Nb) as (o & g & E & No & Ng & Io & Ig).
  destruct (@c77_simple_region V G K wrev n r F R NU FR) as (R' & p & Eb & En & Ek & Hd & _ & _ & _ & Sk & _); auto.
  - unfold is_logical. rewrite SH. auto.
  - unfold supported. rewrite SH. destruct S as [->|[->| ->]]; exact L.
  - unfold answered. rewrite SH. assert (A : exists o g, v_labeled V l K = Ok (o, g) /\ RegionSets_spec.typed (v_types V K) o g).
    { exists o, g. rewrite EV. split; auto. split; [auto|]. split; [auto|]. split; intros i I; apply TA; auto; [apply Io in I|apply Ig in I]; tauto. }
    destruct S as [->|[->| ->]]; exact A.
  - exists R', p. split; auto. split; auto. split; auto. split; auto. intros i. destruct (Hd i) as [H1 H2]. rewrite H1, H2.
    assert (Bl : forall i, belongs V r K i <-> In i (o ++ g)%list).
    { intros i'. unfold belongs. rewrite SH. assert (Q : (exists o g, v_labeled V l K = Ok (o, g) /\ In i' (o ++ g)%list) <-> In i' (o ++ g)%list).
      { rewrite EV. split; [intros (o' & g' & E' & I'); congruence|intros I'; eauto]. }
      destruct S as [->|[->| ->]]; exact Q. }
    rewrite Bl, in_app_iff, (TA i PARALLEL_OWNED), (TA i PARALLEL_GHOST) by auto. rewrite Io, Ig. tauto.
Qed.
(** C91.  Asking the mesh for the set by the region's name, with the kind in its plain spelling ("CELL", "FACE", "NODE"), builds and returns that set.
    (With the spelling "Entity_kind::CELL" the lookup refuses the name: c80_prefixed_label_refuted.) *)
Theorem c91_set_by_region_name : forall serial bg faces edges m rcv j sets l K s V G n r F R wrev, constructed serial bg faces edges m rcv j -> file_sets m sets -> settable K -> has_kind j K ->
  ls_entity l = match K with CELL => "CELL" | FACE => "FACE" | _ => "NODE" end ->
  the_set sets l K s -> fs_dim s = mkind_of m K -> (bg = true -> K = CELL -> forall h, In h (fs_ents s) -> k_bghost m h = false) ->
  v_labeled V = get_labeled_set_entities j sets -> types_agree j V K -> RegionSets_spec.numbered (v_types V CELL) -> in_order V R ->
  NoDup (map rn_name (gd_regions G)) -> find_rgn (gd_regions G) n = Some r -> rn_shape r = SLabeled l -> find_set (heap R) (regs R) n K = None ->
  exists R' p, find_or_build V G (S F) R n K true wrev = Ok (R', Some p) /\ ms_name (heap R' p) = n /\ ms_kind (heap R' p) = K /\ sets_kept R R' /\
    forall i, (In i (ms_owned (heap R' p)) <-> In i (entities j K PARALLEL_OWNED) /\ exists h, behind j K i h /\ In h (fs_ents s)) /\
              (In i (ms_ghost (heap R' p)) <-> In i (entities j K PARALLEL_GHOST) /\ exists h, behind j K i h /\ In h (fs_ents s)).
Proof.
  intros serial bg faces edges m rcv j sets l K s V G n r F R wrev C Fs S Hk L T Dm Nb EV TA NU O ND FR SH NF.
  assert (Lm : label_means (ls_entity l) K) by (destruct S as [->|[->| ->]]; cbn [label_means]; auto).
  assert (VA : valid_region_name V G n K = true).
  { apply c80_valid_names; auto. exists r. split; auto. unfold right_kind. rewrite SH. destruct S as [->|[->| ->]]; auto. }
  destruct (@c91_set_from_region _ _ _ _ _ _ _ _ _ _ _ V G n r F R wrev C Fs S Hk Lm T Dm Nb EV TA NU O FR SH) as (R' & p & E & H). exists R', p. split; auto.
  unfold find_or_build. rewrite VA, NF. exact E.
Qed.
(** ** The check at construction *)
(** C91.  A mesh is accepted only if the sets that labels of the form "Entity_kind::..." refer to hold entities of the right kind - for element blocks, side sets and node
    sets. *)
Theorem c91_checked_partial : forall j sets G r l k s, init_set_info j sets G = Ok tt -> In r (gd_regions G) -> rn_shape r = SLabeled l -> settable k ->
  ls_entity l = match k with CELL => "Entity_kind::CELL" | FACE => "Entity_kind::FACE" | _ => "Entity_kind::NODE" end ->
  NoDup (map fs_name sets) -> In s sets -> fs_name s = match k with CELL => "matset_" | FACE => "sideset_" | _ => "nodeset_" end ++ ls_label l -> fs_dim s = mkind_of (j_mesh j) k.
Proof.
  intros j sets G r l k s E I SH S L N Is En. unfold init_set_info in E. assert (X : check_region j sets r = Ok tt).
  { revert E I. generalize tt at 1. induction (gd_regions G) as [|a t IH]; intros u E I; [destruct I|]. cbn [foldM] in E. destruct (check_region j sets a) as [[]| | | |] eqn:Q; try discriminate.
    cbn [bind] in E. destruct I as [->|I]; auto. apply (IH tt); auto. }
  unfold check_region in X. rewrite SH in X. assert (Y : prefixed_kind l = Some k /\ prefixed_name l = fs_name s).
  { unfold prefixed_name, prefixed_kind. rewrite L, En. destruct S as [->|[->| ->]]; auto. }
  destruct Y as [Y1 Y2]. rewrite Y1, Y2, (set_by_name_in N Is) in X. destruct (mkind_eqb (fs_dim s) (set_dim j k)) eqn:Q; [|discriminate].
  assert (Z : fs_dim s = set_dim j k) by (destruct (fs_dim s), (set_dim j k); auto; discriminate). rewrite Z. destruct S as [->|[->| ->]]; reflexivity.
Qed.
(** Finding: the plain spelling is not checked, and element sets never are: a set of nodes is handed out as a set of cells, under the ids of the nodes *)
Definition lab (entity label : string) : labeled := Labeled "L" 1 entity "mesh.exo" "exodus" label.
Definition lab_model (l : labeled) : gmodel := GModel 3 [Rgn "L" 3 PERMANENT (SLabeled l)].
Theorem c91_unchecked_refuted : forall l name, l = lab "CELL" "7" /\ name = "matset_7" \/ l = lab "Entity_kind::CELL" "7" /\ name = "elemset_7" ->
  let sets := [FSet name MVERTEX [13; 14]] in file_sets ex_mesh sets /\ init_set_info ex_j sets (lab_model l) = Ok tt /\
  get_labeled_set_entities ex_j sets l CELL = Ok ([2], [4]) /\ ~ valid ex_j CELL 2 /\ ~ valid ex_j CELL 4.
Proof.
  assert (V : entities ex_j CELL TYPE_ALL = [0; 1]) by (vm_compute; reflexivity).
  intros l name [[-> ->]|[-> ->]]; cbn zeta; (split; [split; [repeat constructor; intros []|]; intros s [<-|[]]; split; [nodup|]; intros h I; each I; vm_compute; tauto|]);
    (split; [vm_compute; reflexivity|]); (split; [vm_compute; reflexivity|]); unfold valid; rewrite V; split; intros I; repeat (destruct I as [I|I]; [discriminate I|]); destruct I.
Qed.

(** ** Witnesses *)
Definition ex_sets : list fset := [FSet "matset_7" MFACE [31; 30]; FSet "sideset_7" MEDGE [21; 24; 20]; FSet "nodeset_2" MVERTEX [14; 13; 10]; FSet "elemset_9" MFACE [31]].
Lemma ex_file_sets : file_sets ex_mesh ex_sets.
Proof.
  split.
  - apply (NoDup_map_inv (fun s : string => s)). rewrite map_id. repeat constructor; simpl; intuition discriminate.
  - intros s I. each I; (split; [nodup|]); intros h J; each J; vm_compute; tauto.
Qed.
Example c91_witness :
  the_set ex_sets (lab "CELL" "7") CELL (FSet "matset_7" MFACE [31; 30]) /\ get_labeled_set_entities ex_j ex_sets (lab "CELL" "7") CELL = Ok ([0], [1]) /\
  the_set ex_sets (lab "CELL" "9") CELL (FSet "elemset_9" MFACE [31]) /\ get_labeled_set_entities ex_j ex_sets (lab "CELL" "9") CELL = Ok ([], [1]) /\
  the_set ex_sets (lab "Entity_kind::FACE" "7") FACE (FSet "sideset_7" MEDGE [21; 24; 20]) /\ get_labeled_set_entities ex_j ex_sets (lab "Entity_kind::FACE" "7") FACE = Ok ([1; 0], [4]) /\
  the_set ex_sets (lab "NODE" "2") NODE (FSet "nodeset_2" MVERTEX [14; 13; 10]) /\ get_labeled_set_entities ex_j ex_sets (lab "NODE" "2") NODE = Ok ([2; 0], [4]) /\
  init_set_info ex_j ex_sets (lab_model (lab "Entity_kind::FACE" "7")) = Ok tt.
Proof.
  assert (T : forall l K s, In s ex_sets -> names_set l K (fs_name s) -> (forall s', In s' ex_sets -> names_set l K (fs_name s') -> s' = s) -> the_set ex_sets l K s) by (intros; split; auto).
  split; [apply T; [simpl; tauto|left; reflexivity|]; intros s' I [E|E]; each I; auto; discriminate E|]. split; [vm_compute; reflexivity|].
  split; [apply T; [simpl; tauto|right; reflexivity|]; intros s' I [E|E]; each I; auto; discriminate E|]. split; [vm_compute; reflexivity|].
  split; [apply T; [simpl; tauto|reflexivity|]; intros s' I E; each I; auto; discriminate E|]. split; [vm_compute; reflexivity|].
  split; [apply T; [simpl; tauto|reflexivity|]; intros s' I E; each I; auto; discriminate E|]. split; vm_compute; reflexivity.
Qed.
(** the view of the set functions on this mesh *)
Definition ex_view (sets : list fset) : mview :=
  MView 2 true (fun k => match k with CELL => [PARALLEL_OWNED; PARALLEL_GHOST] | _ => [] end) (fun _ => UB) (fun _ => UB) (fun _ => UB) (fun _ => UB) (fun _ => UB) (fun _ => UB) (fun _ _ => UB)
    (get_labeled_set_entities ex_j sets).
Example c91_by_name_witness : exists R' p, find_or_build (ex_view ex_sets) (lab_model (lab "CELL" "7")) 1 (Reg (fun _ => MSet "" CELL [] [] [] false []) 0 []) "L" CELL true false = Ok (R', Some p) /\
  ms_owned (heap R' p) = [0] /\ ms_ghost (heap R' p) = [1].
Proof.
  destruct (@c91_set_by_region_name _ _ _ _ _ _ _ ex_sets (lab "CELL" "7") CELL (FSet "matset_7" MFACE [31; 30]) (ex_view ex_sets) (lab_model (lab "CELL" "7")) "L"
     (Rgn "L" 3 PERMANENT (SLabeled (lab "CELL" "7"))) 0 (Reg (fun _ => MSet "" CELL [] [] [] false []) 0 []) false ex_constructed ex_file_sets) as (R' & p & E & _); try reflexivity; auto; try discriminate.
  - left; auto.
  - exact (proj1 c91_witness).
  - intros i ty [-> | ->]; cbn [ex_view v_types]; (destruct i as [|[|i]]; cbn [nth_error]; [..|destruct i; cbn [nth_error]]); vm_compute; split; intros H; try discriminate H; try tauto; intuition discriminate.
  - exists 1, 1, 0. reflexivity.
  - split; [intros p []|intros p H; inversion H].
  - repeat constructor. intros [].
  - rewrite E. eexists _, _. split; [reflexivity|]. clear - E. vm_compute in E. injection E as <- <-. split; vm_compute; reflexivity.
Qed.
Print Assumptions c91_labeled_set.
Print Assumptions c91_set_by_region_name.
Print Assumptions c91_checked_partial.
Print Assumptions c91_unchecked_refuted.
