(** C95: extraction by the names of regions. *)
From Coq Require Import String.
From Coq Require Import Reals.
From Verif Require Import Base Loop Defs Factory MeshSet MeshSet_proofs Cache Cache_proofs Point Regions RegionSets RegionSets_spec Geometry_spec MstkMesh MstkMesh_spec MstkMesh_proofs MstkMesh_proofs2 MstkMesh_examples MstkMesh_build
  Props_MstkIds Props_MstkOrder MstkSets Props_MstkSets MstkExtract MstkExtract_spec MstkExtract_proofs MstkExtract_api Props_MstkExtract Props_MstkExtractVol Props_MstkInherit.
Set Implicit Arguments. Unset Strict Implicit.
Local Open Scope string_scope.

(** name [n] is that of a labeled region whose label names the element block, side set or node set [sp] of the file *)
Record names_file_set (m : mstk) (sets : list fset) (G : gmodel) (K : entity_kind) (n : string) (l : labeled) (sp : fset) : Prop := {
  nf_region : exists r, find_rgn (gd_regions G) n = Some r /\ rn_shape r = SLabeled l;
  nf_label : label_means (ls_entity l) K; nf_set : the_set sets l K sp; nf_name : fs_name sp = file_name l K; nf_dim : fs_dim sp = mkind_of m K }.

Lemma chkn_fold l : forall acc, NoDup acc -> NoDup (fold_left chkn_add l acc) /\ forall h, In h (fold_left chkn_add l acc) <-> In h acc \/ In h l.
Proof.
  induction l as [|a l IH]; intros acc N; cbn [fold_left]; [split; auto; intros h; cbn; tauto|]. destruct (IH (chkn_add acc a) (chkn_nodup a N)) as [H1 H2]. split; auto. intros h. rewrite H2. unfold chkn_add.
  destruct (has acc a) eqn:E; [apply has_In in E; cbn; split; [tauto|intros [H|[<-|H]]; tauto]|]. rewrite in_app_iff. cbn. tauto.
Qed.
Lemma internal_file l K r : rn_shape r = SLabeled l -> settable K -> internal_name r K = file_name l K.
Proof. unfold internal_name. intros -> [->|[->| ->]]; reflexivity. Qed.
Lemma chosen_spec sets G K j m names : m = j_mesh j -> file_sets m sets -> settable K -> (forall n, In n names -> exists l sp, names_file_set m sets G K n l sp) ->
  exists src, sources_of_names j sets G K names = Ok src /\ NoDup src /\
    forall h, In h src <-> exists n l sp, In n names /\ names_file_set m sets G K n l sp /\ In h (fs_ents sp) /\ k_ptype m (mkind_of m K) h <> PGHOST.
Proof.
  intros Em FS SK. unfold sources_of_names. set (body := fun (n : string) (l : list nat) => _).
  assert (H : forall l acc, NoDup acc -> (forall n, In n l -> exists lb sp, names_file_set m sets G K n lb sp) -> exists src, foldM l body acc = Ok src /\ NoDup src /\
    forall h, In h src <-> In h acc \/ exists n lb sp, In n l /\ names_file_set m sets G K n lb sp /\ In h (fs_ents sp) /\ k_ptype m (mkind_of m K) h <> PGHOST).
  { induction l as [|n l IH]; intros acc N H; cbn [foldM]; [exists acc; split; auto; split; auto; intros h; split; auto; intros [I|(n & _ & _ & [] & _)]; auto|].
    destruct (H n (or_introl eq_refl)) as (lb & sp & Q). pose proof Q as Q0. destruct Q as [(r & Er & Sr) Lb T Nm D]. destruct T as (Is & _ & _).
    set (add := filter (fun h => negb (is_pghost (k_ptype (j_mesh j) (fs_dim sp) h))) (fs_ents sp)).
    assert (E : body n acc = Ok (fold_left chkn_add add acc)). { unfold body. rewrite Er, (internal_file Sr SK), <- Nm, (set_by_name_in (proj1 FS) Is). reflexivity. }
    destruct (@chkn_fold add acc N) as [N1 I1]. destruct (IH _ N1) as (src & Es & Ns & Hs); [intros; apply H; right; auto|]. exists src. rewrite E. cbn [bind]. split; auto. split; auto.
    assert (Ia : forall h, In h add <-> In h (fs_ents sp) /\ k_ptype m (mkind_of m K) h <> PGHOST).
    { intros h. unfold add. rewrite filter_In, <- Em, D. destruct (k_ptype m (mkind_of m K) h); cbn; intuition congruence. }
    intros h. rewrite Hs, I1, Ia. split.
    - intros [[I|I]|(n' & lb' & sp' & I & R)]; auto; right; [exists n, lb, sp; split; [left; auto|]; split; auto|exists n', lb', sp'; split; [right; auto|auto]].
    - intros [I|(n' & lb' & sp' & [<-|I] & R & I2)]; auto; [|right; exists n', lb', sp'; auto]. left; right. destruct R as [(r' & Er' & Sr') _ (_ & _ & U) Nm' _]. assert (r' = r) by congruence. subst r'. assert (lb' = lb) by congruence. subst lb'.
      assert (X : sp = sp'); [|rewrite X; exact I2]. apply U; auto. destruct Q0 as [_ _ (_ & X & _) _ _]. exact X. }
  intros Hn. destruct (H names [] (NoDup_nil _) Hn) as (src & E & N & I). exists src. split; auto. split; auto. intros h. rewrite I. cbn. tauto.
Qed.

(** C95.  Extraction by names of labeled regions is extraction by ids: of the owned entities of the sets the labels name, each once. *)
Theorem c95_by_names_is_by_ids : forall serial bg faces edges m rcv j sets G K names, constructed serial bg faces edges m rcv j -> settable K -> has_kind j K -> file_sets m sets ->
  (forall n, In n names -> exists l sp, names_file_set m sets G K n l sp) ->
  exists ids src, sources_of_names j sets G K names = Ok src /\ sources_of_ids j K ids = Ok src /\ NoDup ids /\ (forall p, In p ids -> valid j K p) /\
    forall p, In p ids <-> exists n r l po pg, In n names /\ find_rgn (gd_regions G) n = Some r /\ rn_shape r = SLabeled l /\ set_on j sets l K po pg /\ In p po.
Proof.
  intros serial bg faces edges m rcv j sets G K names C SK Hk FS Hn. pose proof (constructed_made C) as M. pose proof (settable_base SK) as B. destruct (@chosen_spec sets G K j m names (eq_sym (mj_mesh M)) FS SK Hn) as (src & E & N & Hs).
  assert (Ia : forall h, In h src -> In h (k_all m (mkind_of m K))). { intros h I. apply Hs in I as (n & l & sp & _ & [_ _ (Is & _) _ D] & I & _). rewrite <- D. apply (proj2 FS sp Is); auto. }
  assert (Bi : forall h, In h src -> behind j K (id_of j (mkind_of m K) h) h) by (intros h I; apply (gbehind_of C B Hk); auto).
  exists (map (id_of j (mkind_of m K)) src), src. split; auto. split; [|split; [|split]].
  - unfold sources_of_ids. assert (Ek : kind_to_mtype (j_mesh j) K = mkind_of m K) by (rewrite (mj_mesh M); destruct SK as [->|[->| ->]]; auto). rewrite Ek. clear - Bi C B Hk. induction src as [|h src IH]; cbn [map mapM]; auto.
    rewrite (proj2 (from_id_ok C B Hk _ h) (Bi h (or_introl eq_refl))). cbn [bind]. rewrite IH by (intros; apply Bi; right; auto). reflexivity.
  - apply (nodup_ids C B Hk N Ia).
  - intros p I. apply in_map_iff in I as (h & <- & I). destruct (c85_one_entity_per_id C B Hk) as (Hv & _). apply Hv. exists h. auto.
  - assert (An : forall n l sp, names_file_set m sets G K n l sp -> set_on j sets l K (fst (split_set j sp)) (snd (split_set j sp))).
    { intros n l sp [_ Lb T _ _]. unfold set_on. rewrite (the_set_answer _ FS SK Lb T). destruct (split_set j sp); auto. }
    assert (Io : forall n l sp h, names_file_set m sets G K n l sp -> In (id_of j (mkind_of m K) h) (fst (split_set j sp)) -> In h (k_all m (mkind_of m K)) -> In h (fs_ents sp) /\ k_ptype m (mkind_of m K) h <> PGHOST).
    { intros n l sp h [_ _ (Is & _) _ D] I Ih. cbn [split_set fst] in I. rewrite D, (mj_mesh M) in I. apply in_map_iff in I as (h' & Q & I). apply filter_In in I as [I P].
      assert (h' = h) by (apply (ids_differ C B Hk eq_refl); auto; rewrite <- D; apply (proj2 FS sp Is); auto). subst h'. split; auto. intros X. rewrite X in P. discriminate. }
    intros p. rewrite in_map_iff. split.
    + intros (h & <- & I). apply Hs in I as (n & l & sp & In' & Q & I & P). pose proof Q as [(r & Er & Sr) _ _ _ D]. exists n, r, l. eexists. eexists. split; [exact In'|]. split; [exact Er|]. split; [exact Sr|]. split; [apply (An _ _ _ Q)|].
      cbn [split_set fst]. rewrite D, (mj_mesh M). apply in_map. apply filter_In. split; auto. destruct (k_ptype m (mkind_of m K) h); auto; congruence.
    + intros (n & r & l & po & pg & In' & Er & Sr & S & I). destruct (Hn n In') as (l' & sp & Q). assert (l' = l) by (destruct (nf_region Q) as (r' & Er' & Sr'); congruence). subst l'.
      pose proof (An _ _ _ Q) as S'. unfold set_on in S, S'. rewrite S in S'. injection S' as -> ->. pose proof Q as [_ _ (Is & _) _ D]. assert (I0 := I). cbn [split_set fst] in I. rewrite D, (mj_mesh M) in I. apply in_map_iff in I as (h & <- & I).
      exists h. split; auto. apply filter_In in I as [I P]. apply Hs. exists n, l, sp. split; auto. split; auto. split; auto. intros X. rewrite X in P. discriminate.
Qed.
(** Finding: a region that is not a labeled set contributes nothing - the set its name has in the framework is not consulted, only a set of the library's mesh of that name -
    and extracting by such names makes an empty mesh without complaint *)
Theorem c95_geometric_region_refuted : forall MAXPF3 MAXPV2 m X flatten j sets G K names, settable K -> (forall n, In n names -> exists r, find_rgn (gd_regions G) n = Some r /\ (forall l, rn_shape r <> SLabeled l) /\ forall s, In s sets -> fs_name s <> rn_name r) ->
  sources_of_names j sets G K names = Ok [] /\
  (K <> NODE -> mkind_of m K = MFACE \/ mkind_of m K = MREGION /\ flatten = false -> exists s, extract_mstk_mesh MAXPF3 MAXPV2 m X flatten (kind_to_mtype m K) false [] = Ok s /\ x_mesh s = no_xmesh).
Proof.
  intros MAXPF3 MAXPV2 m X flatten j sets G K names SK H. split.
  - unfold sources_of_names. induction names as [|n names IH]; auto. cbn [foldM]. destruct (H n (or_introl eq_refl)) as (r & Er & Nl & Ns). rewrite Er.
    assert (Q : internal_name r K = rn_name r) by (unfold internal_name; destruct (rn_shape r) eqn:S; auto; exfalso; eapply Nl; eauto). rewrite Q, (set_by_name_none Ns). cbn [bind]. apply IH. intros; apply H; right; auto.
  - intros Nn D. assert (Ek : kind_to_mtype m K = mkind_of m K) by (destruct SK as [->|[->| ->]]; auto). rewrite Ek. unfold extract_mstk_mesh. destruct D as [->|[-> ->]]; [rewrite Bool.andb_false_r|]; cbn; eexists; split; reflexivity.
Qed.
(** Finding: nor does an element set, though the framework's set of that name has its entities (C91) *)
Theorem c95_element_set_refuted : forall j sets G n r l K, find_rgn (gd_regions G) n = Some r -> rn_shape r = SLabeled l -> K = CELL -> (forall s, In s sets -> fs_name s <> ("matset_" ++ ls_label l)%string) ->
  sources_of_names j sets G K [n] = Ok [].
Proof. intros j sets G n r l K E S -> H. unfold sources_of_names. cbn [foldM]. rewrite E. unfold internal_name. rewrite S. cbn [labeled_name]. rewrite (set_by_name_none H). reflexivity. Qed.
(** Finding: a name no region has is not refused: a null pointer is used *)
Theorem c95_unknown_name_refuted : forall j sets G K n names, find_rgn (gd_regions G) n = None -> sources_of_names j sets G K (n :: names) = UB.
Proof. intros j sets G K n names E. unfold sources_of_names. cbn [foldM]. rewrite E. reflexivity. Qed.

(** ** Witness: two names with a face in common; a box *)
Example c95_witness : (forall n, In n ["B"; "C"] -> exists l sp, names_file_set hp_mesh hp_sets hp_model FACE n l sp) /\ sources_of_names hps_j hp_sets hp_model FACE ["B"; "C"] = Ok [2; 4; 1] /\
  (exists l sp, names_file_set hp_mesh hp_sets hp_model CELL "P" l sp) /\ sources_of_names hps_j hp_sets hp_model CELL ["P"] = Ok [] /\ set_on hps_j hp_sets (hp_lab "CELL" "7") CELL [] [1] /\
  set_on hps_j hp_sets (hp_lab "Entity_kind::CELL" "9") CELL [0] [] /\ sources_of_names hps_j hp_sets hp_model CELL ["E"] = Ok [].
Proof.
  split; [|split; [vm_compute; reflexivity|split; [|split; [vm_compute; reflexivity|split; [vm_compute; reflexivity|split; [vm_compute; reflexivity|vm_compute; reflexivity]]]]]].
  - intros n [<-|[<-|[]]].
    + exists (hp_lab "Entity_kind::FACE" "3"), sp3. destruct hp_inherits3. constructor; auto. { eexists. split; reflexivity. } right; auto.
    + exists (hp_lab "Entity_kind::FACE" "5"), sp5. destruct hp_inherits5. constructor; auto. { eexists. split; reflexivity. } right; auto.
  - exists (hp_lab "CELL" "7"), sp7. destruct hp_inherits7. constructor; auto. { eexists. split; reflexivity. } left; auto.
Qed.
Print Assumptions c95_by_names_is_by_ids.
Print Assumptions c95_geometric_region_refuted.
Print Assumptions c95_element_set_refuted.
Print Assumptions c95_unknown_name_refuted.
