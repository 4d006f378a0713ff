(** C94: labeled sets on an extracted mesh. *)
From Coq Require Import String.
From Coq Require Import Permutation Reals.
From Verif Require Import Base Loop Defs Factory MeshSet MeshSet_proofs Cache Cache_proofs Point Regions RegionSets RegionSets_spec Geometry_spec Props_InPolygon MstkMesh MstkMesh_spec MstkMesh_proofs MstkMesh_proofs2 MstkMesh_examples MstkMesh_build
  Props_MstkIds Props_MstkOrder MstkSets Props_MstkSets MstkExtract MstkExtract_spec MstkExtract_proofs MstkExtract_api Props_MstkExtract Props_MstkExtractVol.
Set Implicit Arguments. Unset Strict Implicit.
Local Open Scope string_scope.

(** ** Specification *)
(** the spelling of the kind in the region that inherit_labeled_sets knows *)
Definition prefixed (l : labeled) (K : entity_kind) : Prop := ls_entity l = match K with CELL => "Entity_kind::CELL" | FACE => "Entity_kind::FACE" | _ => "Entity_kind::NODE" end.
(** the set of the file a label names: element block, side set, node set *)
Definition file_name (l : labeled) (K : entity_kind) : string := (match K with CELL => "matset_" | FACE => "sideset_" | _ => "nodeset_" end ++ ls_label l)%string.
Definition labeled_region (G : gmodel) (l : labeled) : Prop := exists r, In r (gd_regions G) /\ rn_shape r = SLabeled l.
(** a set of entities of kind [K] of mesh [j] that a labeled region names: [po] are its owned, [pg] its ghost ids *)
Definition set_on (j : jmesh) (sets : list fset) (l : labeled) (K : entity_kind) (po pg : list nat) : Prop := get_labeled_set_entities j sets l K = Ok (po, pg).
(** the sets of a mesh extracted from a list of ids *)
Definition inherited (MAXPF3 MAXPV2 : nat) (m : mstk) (j : jmesh) (X : nat -> xyz) (flatten : bool) (K : entity_kind) (ids : list nat) (sets : list fset) (G : gmodel) (sets' : list fset) : Prop :=
  exists src s, sources_of_ids j K ids = Ok src /\ extract_mstk_mesh MAXPF3 MAXPV2 m X flatten (kind_to_mtype m K) false src = Ok s /\
    sets' = inherit_labeled_sets m sets G (cp s) (match K with CELL => false | _ => true end) (kind_to_mtype m K) src.

(** ** Names *)
Lemma prefixed_means l K : settable K -> prefixed l K -> label_means (ls_entity l) K.
Proof. unfold prefixed. intros [->|[->| ->]] ->; cbn; auto. Qed.
Lemma prefixed_file l K : settable K -> prefixed l K -> prefixed_name l = file_name l K.
Proof. unfold prefixed, prefixed_name, prefixed_kind, file_name. intros [->|[->| ->]] ->; reflexivity. Qed.
Lemma prefixed_not_elem l a : prefixed_name l <> ("elemset_" ++ a)%string.
Proof. unfold prefixed_name, prefixed_kind. destruct (String.eqb _ _); [discriminate|]. destruct (String.eqb _ _); [discriminate|]. destruct (String.eqb _ _); discriminate. Qed.
Section Names.
Variables (m : mstk) (sets : list fset) (G : gmodel) (c : mkind -> nat -> option nat) (diff : bool) (dim : mkind) (src : list nat).
Let sets' := inherit_labeled_sets m sets G c diff dim src.
Lemma inherit_name n sp s' : inherit_set m c diff dim src n sp = Some s' -> fs_name s' = n.
Proof. unfold inherit_set. destruct (_ && _); [discriminate|]. intros E. injection E as <-. reflexivity. Qed.
Lemma inherited_in s' : In s' sets' <-> exists l sp, labeled_region G l /\ set_by_name sets (prefixed_name l) = Some sp /\ inherit_set m c diff dim src (prefixed_name l) sp = Some s'.
Proof.
  unfold sets', inherit_labeled_sets. rewrite in_flat_map. split.
  - intros (r & Ir & I). assert (H : exists l, rn_shape r = SLabeled l) by (destruct (rn_shape r); try destruct I; eauto). destruct H as [l S]. rewrite S in I. destruct (set_by_name sets (prefixed_name l)) as [sp|] eqn:E; [|destruct I].
    destruct (inherit_set m c diff dim src (prefixed_name l) sp) as [s|] eqn:Q; [|destruct I]. destruct I as [<-|[]]. exists l, sp. split; auto. exists r; auto.
  - intros (l & sp & (r & Ir & S) & E & Q). exists r. split; auto. rewrite S, E, Q. left; auto.
Qed.
Lemma inherited_by_name l sp s' : labeled_region G l -> set_by_name sets (prefixed_name l) = Some sp -> inherit_set m c diff dim src (prefixed_name l) sp = Some s' -> set_by_name sets' (prefixed_name l) = Some s'.
Proof.
  intros L E Q. assert (I : In s' sets') by (apply inherited_in; eauto). destruct (set_by_name sets' (prefixed_name l)) as [s2|] eqn:F.
  - apply set_by_name_some in F as [I2 N2]. apply inherited_in in I2 as (l2 & sp2 & _ & E2 & Q2). pose proof (inherit_name Q2) as N3. rewrite <- N3, N2 in E2, Q2. congruence.
  - exfalso. pose proof (find_none _ _ F _ I) as N. cbn beta in N. rewrite (inherit_name Q), String.eqb_refl in N. discriminate.
Qed.
Lemma inherited_none n : (forall l sp, labeled_region G l -> prefixed_name l = n -> set_by_name sets n = Some sp -> inherit_set m c diff dim src n sp = None) -> set_by_name sets' n = None.
Proof. intros H. apply set_by_name_none. intros s I E. apply inherited_in in I as (l & sp & L & E1 & Q). pose proof (inherit_name Q) as N. rewrite <- N, E in E1, Q. rewrite (H l sp L) in Q; congruence. Qed.
Lemma inherited_not_elem a : set_by_name sets' ("elemset_" ++ a) = None.
Proof. apply inherited_none. intros l sp _ E. exfalso. apply (prefixed_not_elem E). Qed.
End Names.

(** ** Copying loops *)
Lemma ex_cons A (P : A -> Prop) h l : (exists a, In a (h :: l) /\ P a) <-> P h \/ exists a, In a l /\ P a.
Proof.
  split; [intros (a & [<-|I] & H); [left; auto|right; eauto]|]. intros [H|(a & I & H)]; [exists h; split; auto; left; auto|exists a; split; auto; right; auto].
Qed.
Lemma add_copy_in c k l : forall acc n, In n (fold_left (add_copy c k) l acc) <-> In n acc \/ exists h, In h l /\ c k h = Some n.
Proof.
  induction l as [|h l IH]; intros acc n; cbn [fold_left]; [split; auto; intros [H|(h & [] & _)]; auto|]. rewrite IH, ex_cons. unfold add_copy. destruct (c k h) as [n'|] eqn:E.
  - rewrite in_app_iff. cbn [In]. assert (n' = n <-> Some n' = Some n) by (split; congruence). tauto.
  - assert (@None nat <> Some n) by discriminate. tauto.
Qed.
Lemma add_copy_nodup c k l : (forall a b n, c k a = Some n -> c k b = Some n -> a = b) -> NoDup l -> forall acc, NoDup acc -> (forall h n, In h l -> c k h = Some n -> ~ In n acc) -> NoDup (fold_left (add_copy c k) l acc).
Proof.
  intros J. induction 1 as [|h l N ND IH]; intros acc A D; cbn [fold_left]; auto. apply IH.
  - unfold add_copy. destruct (c k h) as [n|] eqn:E; auto. apply NoDup_app_iff. split; auto. split; [repeat constructor; intros []|]. intros y I1 [<-|[]]. apply (D h n); auto; left; auto.
  - intros h' n I Q. unfold add_copy. destruct (c k h) as [n'|] eqn:E; [|apply (D h'); auto; right; auto]. rewrite in_app_iff. intros [H|[<-|[]]]; [apply (D h' n); auto; right; auto|]. apply N. rewrite (J h h' n'); auto.
Qed.
Lemma has_In l h : has l h = true <-> In h l.
Proof. unfold has. rewrite existsb_exists. split; [intros (y & I & E); apply Nat.eqb_eq in E; subst; auto|intros I; exists h; split; auto; apply Nat.eqb_refl]. Qed.
Lemma add_once_in c k l : forall acc n, In n (fold_left (add_copy_once c k) l acc) <-> In n acc \/ exists h, In h l /\ c k h = Some n.
Proof.
  assert (A : forall acc n n', In n (chkn_add acc n') <-> In n acc \/ n = n').
  { intros acc n n'. unfold chkn_add. destruct (has acc n') eqn:E; [apply has_In in E; split; auto; intros [H| ->]; auto|]. rewrite in_app_iff. cbn. intuition. }
  induction l as [|h l IH]; intros acc n; cbn [fold_left]; [split; auto; intros [H|(h & [] & _)]; auto|]. rewrite IH, ex_cons. unfold add_copy_once. destruct (c k h) as [n'|] eqn:E.
  - rewrite A. assert (n = n' <-> Some n' = Some n) by (split; congruence). tauto.
  - assert (@None nat <> Some n) by discriminate. tauto.
Qed.
Lemma chkn_nodup acc n : NoDup acc -> NoDup (chkn_add acc n).
Proof.
  intros N. unfold chkn_add. destruct (has acc n) eqn:E; auto. apply NoDup_app_iff. split; auto. split; [repeat constructor; intros []|]. intros y I1 [<-|[]]. apply has_In in I1. congruence.
Qed.
Lemma add_once_nodup c k l : forall acc, NoDup acc -> NoDup (fold_left (add_copy_once c k) l acc).
Proof. induction l as [|h l IH]; intros acc N; cbn [fold_left]; auto. apply IH. unfold add_copy_once. destruct (c k h); auto. apply chkn_nodup; auto. Qed.
Lemma add_parts_in c k (parts : nat -> list nat) l : forall acc n, In n (fold_left (fun a h => fold_left (add_copy_once c k) (parts h) a) l acc) <-> In n acc \/ exists h p, In h l /\ In p (parts h) /\ c k p = Some n.
Proof.
  induction l as [|h l IH]; intros acc n; cbn [fold_left]; [split; auto; intros [H|(h & p & [] & _)]; auto|]. rewrite IH, add_once_in. split.
  - intros [[H|(p & I & Q)]|(h' & p & I & J & Q)]; auto; right; [exists h, p; cbn; auto|exists h', p; cbn; auto].
  - intros [H|(h' & p & [<-|I] & J & Q)]; auto; [left; right; eauto|right; eauto].
Qed.
Lemma add_parts_nodup c k (parts : nat -> list nat) l : forall acc, NoDup acc -> NoDup (fold_left (fun a h => fold_left (add_copy_once c k) (parts h) a) l acc).
Proof. induction l as [|h l IH]; intros acc N; cbn [fold_left]; auto. apply IH. apply add_once_nodup; auto. Qed.

(** ** A set of the new mesh, by ids *)
Lemma split_all j s p po pg : split_set j s = (po, pg) -> (In p (po ++ pg) <-> In p (map (id_of j (fs_dim s)) (fs_ents s))).
Proof.
  intros E. injection E as <- <-. rewrite in_app_iff, !in_map_iff. split.
  - intros [(h & <- & I)|(h & <- & I)]; apply filter_In in I as [I _]; eauto.
  - intros (h & <- & I). destruct (is_pghost (k_ptype (j_mesh j) (fs_dim s) h)) eqn:P; [right|left]; exists h; split; auto; apply filter_In; split; auto; rewrite P; auto.
Qed.
Lemma split_owned j s : (forall k h, k_ptype (j_mesh j) k h <> PGHOST) -> split_set j s = (map (id_of j (fs_dim s)) (fs_ents s), []).
Proof.
  intros O. unfold split_set. assert (H : forall h, is_pghost (k_ptype (j_mesh j) (fs_dim s) h) = false). { intros h. specialize (O (fs_dim s) h). destruct (k_ptype (j_mesh j) (fs_dim s) h); auto. congruence. }
  f_equal; [f_equal|]; (induction (fs_ents s) as [|h l IH]; cbn [filter]; auto; rewrite H; cbn [negb]; rewrite ?IH; auto).
Qed.
Lemma ids_differ serial bg faces edges m rcv j K k : constructed serial bg faces edges m rcv j -> base_kind K -> has_kind j K -> mkind_of m K = k -> forall a b, In a (k_all m k) -> In b (k_all m k) -> id_of j k a = id_of j k b -> a = b.
Proof. intros C B Hk <- a b Ia Ib E. pose proof (gbehind_of C B Hk Ia) as A1. pose proof (gbehind_of C B Hk Ib) as A2. rewrite E in A1. apply (behind_fun A1 A2). Qed.
(** what is known of the entities of kind [k] of the new mesh, which its API shows as kind [K] *)
Record linked (m : mstk) (j j' : jmesh) (x : xmesh) (c : mkind -> nat -> option nat) (K : entity_kind) (k : mkind) : Prop := {
  lk_par : forall i p, parent j x j' K i p <-> exists h, parent_att x k i = Some h /\ p = id_of j k h;
  lk_cp : forall h n, c k h = Some n <-> parent_att x k n = Some h;
  lk_id : forall h n, parent_att x k n = Some h -> id_of j' k n = n;
  lk_in : forall h n, parent_att x k n = Some h -> In h (k_all m k);
  lk_inj : forall a b, In a (k_all m k) -> In b (k_all m k) -> id_of j k a = id_of j k b -> a = b;
  lk_own : forall k h, k_ptype (j_mesh j') k h <> PGHOST }.
Section Core.
Variables (m : mstk) (j j' : jmesh) (x : xmesh) (c : mkind -> nat -> option nat) (K : entity_kind) (k : mkind).
Hypothesis L : linked m j j' x c K k.
Lemma ids_are l : (forall n, In n l -> exists h, c k h = Some n) -> map (id_of j' k) l = l.
Proof. intros H. apply map_id_in. intros n I. destruct (H n I) as [h E]. apply (lk_cp L) in E. apply (lk_id L E). Qed.
Lemma core_same n sp po pg : split_set j sp = (po, pg) -> fs_dim sp = k -> NoDup (fs_ents sp) -> (forall h, In h (fs_ents sp) -> In h (k_all m k)) ->
  exists o, split_set j' (FSet n k (fold_left (add_copy c k) (fs_ents sp) [])) = (o, []) /\ NoDup o /\ forall i, In i o <-> exists p, parent j x j' K i p /\ In p (po ++ pg).
Proof.
  intros S D N Al. rewrite split_owned by exact (lk_own L). cbn [fs_dim fs_ents]. set (l := fold_left _ _ _).
  assert (Hl : forall n, In n l <-> exists h, In h (fs_ents sp) /\ c k h = Some n). { intros n'. unfold l. rewrite add_copy_in. split; [intros [[]|H]; auto|auto]. }
  rewrite ids_are by (intros n' I; apply Hl in I as (h & _ & E); eauto). exists l. split; auto. split.
  - apply add_copy_nodup; auto; [|constructor]. intros a b n' A B. apply (lk_cp L) in A, B. congruence.
  - intros i. rewrite Hl. split.
    + intros (h & I & E). exists (id_of j k h). split; [apply (lk_par L); exists h; split; auto; apply (lk_cp L); auto|]. apply (split_all _ S). rewrite D. apply in_map; auto.
    + intros (p & P & I). apply (lk_par L) in P as (h & A & ->). apply (split_all _ S) in I. rewrite D in I. apply in_map_iff in I as (h' & Q & I'). exists h'. split; auto.
      assert (h' = h) by (apply (lk_inj L); auto; apply (lk_in L A)). subst h'. apply (lk_cp L); auto.
Qed.
Lemma core_parts n sp (parts : nat -> list nat) : (forall h p, In h (fs_ents sp) -> In p (parts h) -> In p (k_all m k)) ->
  exists o, split_set j' (FSet n k (fold_left (fun a h => fold_left (add_copy_once c k) (parts h) a) (fs_ents sp) [])) = (o, []) /\ NoDup o /\
    forall i, In i o <-> exists h q, parent j x j' K i q /\ In h (fs_ents sp) /\ In q (map (id_of j k) (parts h)).
Proof.
  intros Al. rewrite split_owned by exact (lk_own L). cbn [fs_dim fs_ents]. set (l := fold_left _ _ _).
  assert (Hl : forall n, In n l <-> exists h p, In h (fs_ents sp) /\ In p (parts h) /\ c k p = Some n). { intros n'. unfold l. rewrite add_parts_in. split; [intros [[]|H]; auto|auto]. }
  rewrite ids_are by (intros n' I; apply Hl in I as (h & p & _ & _ & E); eauto). exists l. split; auto. split; [apply add_parts_nodup; constructor|].
  intros i. rewrite Hl. split.
  - intros (h & p & I & J & E). exists h, (id_of j k p). split; [apply (lk_par L); exists p; split; auto; apply (lk_cp L); auto|]. split; auto. apply in_map; auto.
  - intros (h & q & P & I & J). apply (lk_par L) in P as (p & A & ->). apply in_map_iff in J as (p' & Q & J). exists h, p'. split; auto. split; auto.
    assert (p' = p) by (apply (lk_inj L); eauto; apply (lk_in L A)). subst p'. apply (lk_cp L); auto.
Qed.
End Core.

(** ** The answer of the new mesh *)
Lemma child_answer m sets G c diff dim src j' l K sp s' : settable K -> prefixed l K -> labeled_region G l -> set_by_name sets (file_name l K) = Some sp ->
  inherit_set m c diff dim src (file_name l K) sp = Some s' -> get_labeled_set_entities j' (inherit_labeled_sets m sets G c diff dim src) l K = Ok (split_set j' s').
Proof.
  intros SK P R E Q. rewrite (label_ok SK (prefixed_means SK P)). pose proof (prefixed_file SK P) as F. rewrite <- F in E, Q. pose proof (inherited_by_name R E Q) as N. rewrite F in N.
  destruct SK as [->|[->| ->]]; unfold file_name in N; rewrite N; auto. rewrite (@inherited_not_elem m sets G c diff dim src). reflexivity.
Qed.
Lemma child_no_answer m sets G c diff dim src j' l K : settable K -> label_means (ls_entity l) K ->
  (forall l' sp, labeled_region G l' -> prefixed_name l' = file_name l K -> set_by_name sets (file_name l K) = Some sp -> inherit_set m c diff dim src (file_name l K) sp = None) ->
  get_labeled_set_entities j' (inherit_labeled_sets m sets G c diff dim src) l K = Ok ([], []).
Proof.
  intros SK P H. rewrite (label_ok SK P). pose proof (@inherited_none m sets G c diff dim src (file_name l K) H) as N.
  destruct SK as [->|[->| ->]]; unfold file_name in N; rewrite N; auto. rewrite (@inherited_not_elem m sets G c diff dim src). reflexivity.
Qed.
(** the set that a label names, when it has the spelling of inherit_labeled_sets: not an element set *)
Lemma parent_answer m sets l K sp j : file_sets m sets -> settable K -> prefixed l K -> the_set sets l K sp -> fs_name sp = file_name l K ->
  get_labeled_set_entities j sets l K = Ok (split_set j sp) /\ set_by_name sets (file_name l K) = Some sp /\ NoDup (fs_ents sp) /\ forall h, In h (fs_ents sp) -> In h (k_all m (fs_dim sp)).
Proof.
  intros FS SK P T N. split; [apply (the_set_answer _ FS SK (prefixed_means SK P) T)|]. destruct FS as [ND FS], T as (I & _). split; [rewrite <- N; apply set_by_name_in; auto|]. apply FS; auto.
Qed.

(** ** The new mesh is linked to the old *)
Lemma surface_run MAXPF3 MAXPV2 edges m rcv j X flatten K ids x j' sets G sets' : source_mesh edges m rcv j K -> (forall p, In p ids -> valid j K p) ->
  (forall p fs, In p ids -> sfaces j K p = Ok fs -> length fs <= MAXPV2) -> surface_extracted MAXPF3 MAXPV2 m j X flatten K ids x j' -> NoDup ids ->
  inherited MAXPF3 MAXPV2 m j X flatten K ids sets G sets' ->
  exists src c, Forall2 (behind j K) ids src /\ sets' = inherit_labeled_sets m sets G c (match K with CELL => false | _ => true end) MFACE src /\
    linked m j j' x c NODE MVERTEX /\ linked m j j' x c FACE MEDGE /\ linked m j j' x c CELL MFACE.
Proof.
  intros S V L E ND (src1 & s1 & A1 & A2 & ->). destruct (run_inv S V L E) as (src & m' & edges' & rcv' & F & CS & RS & C'). destruct E as [(src2 & s2 & B1 & B2 & B3) _].
  destruct (@run_ok MAXPF3 MAXPV2 _ _ _ _ X flatten _ ids S V L) as (src3 & s3 & D1 & D2 & F3 & CS3). assert (src2 = src1) by congruence. assert (src3 = src1) by congruence. assert (s2 = s1) by congruence. assert (s3 = s1) by congruence.
  clear A1 B1 B2 D1 D2. subst src2 src3 s2 s3. destruct S as (W & C & SK & He). destruct (skind C SK) as (B & Bf & Em & Ef & Hk & Hf). specialize (Hf He).
  assert (Q : src1 = src). { rewrite <- (cs_faces CS), <- (cs_faces CS3). f_equal. f_equal. exact B3. } clear F3 CS3. subst src1.
  assert (Ek : kind_to_mtype m K = MFACE) by (rewrite <- Em; destruct SK as [[-> _]|[-> _]]; auto). rewrite Ek in *.
  assert (NS : NoDup src).
  { clear - F ND C B Hk. induction F as [|p f ids src H F IH]; constructor; inversion_clear ND as [|? ? N1 N2]; auto. intros I. apply N1. destruct (Forall2_in_r F I) as (p' & Ip & Bp).
    destruct (c85_one_entity_per_id C B Hk) as (_ & _ & _ & U). rewrite (U _ _ _ H Bp). auto. }
  destruct (@extract_surface MAXPF3 MAXPV2 m X flatten src) as (s & Es & _ & T1 & T2 & T3).
  { intros f If. destruct (Forall2_in_r F If) as (p & Ip & Bp). specialize (L p _ Ip (sfaces_ok W C SK He Bp)). rewrite map_length in L. auto. }
  assert (s = s1) by congruence. subst s. specialize (T3 NS). rewrite B3 in T1, T2, T3. exists src, (cp s1). split; auto. split; auto.
  assert (AF : forall h, parent_att x MFACE h = nth_error (map fst (x_sfaces x)) h).
  { intros h. unfold parent_att. rewrite (proj1 (cs_rest CS)), nth_error_map. destruct (nth_error (x_sfaces x) h); auto. destruct h; auto. }
  assert (AE : forall h, parent_att x MEDGE h = nth_error (pe x) h) by (intros h; unfold pe; rewrite nth_error_map; auto). assert (AV : forall h, parent_att x MVERTEX h = nth_error (pv x) h) by (intros h; unfold pv; rewrite nth_error_map; auto).
  pose proof (constructed_made C') as M'. assert (Own : forall k h, k_ptype (j_mesh j') k h <> PGHOST) by (rewrite (mj_mesh M'); apply (rs_own RS)).
  pose proof (all_n RS) as An. pose proof (all_f RS) as Af. pose proof (all_c RS) as Ac.
  assert (Mf : mkind_of m' FACE = MEDGE) by (unfold mkind_of, face_kind; rewrite (rs_dim RS); auto). assert (Mc : mkind_of m' CELL = MFACE) by (unfold mkind_of, cell_kind; rewrite (rs_dim RS); auto).
  split; [|split]; constructor; auto.
  - intros i p. rewrite (par_node edges j RS C'), AV. split; auto.
  - intros h n. rewrite AV. apply T1.
  - intros h n A. rewrite AV in A. apply (child_id C' bk_node Logic.I (rs_own RS) An). apply lt_of_nth in A. unfold pv in A. rewrite map_length in A. auto.
  - intros h n A. rewrite AV in A. apply (pv_in W C SK F CS). eapply nth_error_In; eauto.
  - apply (ids_differ C bk_node Logic.I eq_refl).
  - intros i p. rewrite (par_face edges j RS C'), AE. split; auto.
  - intros h n. rewrite AE. apply T2.
  - intros h n A. rewrite AE in A. rewrite <- Mf. apply (child_id C' bk_face (fk C') (rs_own RS) Af). apply lt_of_nth in A. unfold pe in A. rewrite map_length in A. auto.
  - intros h n A. rewrite AE in A. apply (pe_in W C SK F CS). eapply nth_error_In; eauto.
  - apply (ids_differ C Bf Hf Ef).
  - intros i p. rewrite (par_cell edges j CS RS C'), AF, (cs_faces CS). split; auto.
  - intros h n. rewrite AF. apply T3.
  - intros h n A. rewrite AF in A. rewrite <- Mc. apply (child_id C' bk_cell Logic.I (rs_own RS) Ac). apply lt_of_nth in A. rewrite map_length in A. auto.
  - intros h n A. rewrite AF, (cs_faces CS) in A. apply (src_in C SK F). eapply nth_error_In; eauto.
  - apply (ids_differ C B Hk Em).
Qed.
Lemma volume_run MAXPF3 MAXPV2 edges m rcv j X ids x j' sets G sets' : volume_mesh edges m rcv j -> (forall p, In p ids -> valid j CELL p /\ fits MAXPF3 MAXPV2 j p) -> volume_extracted MAXPF3 MAXPV2 m j X ids x j' ->
  NoDup ids -> inherited MAXPF3 MAXPV2 m j X false CELL ids sets G sets' ->
  exists src c, Forall2 (behind j CELL) ids src /\ sets' = inherit_labeled_sets m sets G c false MREGION src /\
    linked m j j' x c NODE MVERTEX /\ linked m j j' x c FACE MFACE /\ linked m j j' x c CELL MREGION.
Proof.
  intros S V E ND (src1 & s1 & A1 & A2 & ->). destruct (vrun_inv S V E) as (src & m' & edges' & rcv' & F & CV & RV & C'). destruct E as [(src2 & s2 & B1 & B2 & B3) _].
  destruct (@c93_extraction_succeeds MAXPF3 MAXPV2 _ _ _ _ X ids S V) as (src3 & s3 & D1 & D2 & F3 & CV3). assert (src2 = src1) by congruence. assert (src3 = src1) by congruence. assert (s2 = s1) by congruence. assert (s3 = s1) by congruence.
  clear A1 B1 B2 D1 D2. subst src2 src3 s2 s3. destruct S as (W & C & D3).
  assert (Q : src1 = src). { rewrite <- (cv_regs CV), <- (cv_regs CV3). f_equal. f_equal. exact B3. } clear F3 CV3. subst src1.
  assert (Ek : kind_to_mtype m CELL = MREGION) by (unfold kind_to_mtype, cell_kind; rewrite D3; auto). rewrite Ek in *.
  assert (NS : NoDup src).
  { clear - F ND C. induction F as [|p f ids src H F IH]; constructor; inversion_clear ND as [|? ? N1 N2]; auto. intros I. apply N1. destruct (Forall2_in_r F I) as (p' & Ip & Bp).
    destruct (c85_one_entity_per_id C bk_cell Logic.I) as (_ & _ & _ & U). rewrite (U _ _ _ H Bp). auto. }
  destruct (@extract_volume MAXPF3 MAXPV2 m X false src eq_refl) as (s & Es & _ & T1 & T2 & T3).
  { intros r Ir. destruct (Forall2_in_r F Ir) as (p & Ip & Bp). destruct (V p Ip) as [_ Fi]. destruct (Fi _ (p_faces W C D3 Bp)) as [L1 L2]. rewrite map_length in L1. split; auto. intros f If. apply in_map_iff in If as (fd & <- & If).
    assert (Q : behind j FACE (id_of j MFACE (fst fd)) (fst fd)). { apply (vid_f C D3). apply (mk_rf W r (fst fd)); [apply (vsrc_in C D3 F Ir)|apply in_map; auto]. }
    specialize (L2 (id_of j MFACE (fst fd)) (dz (snd fd)) _ (in_map (fun fd => (id_of j MFACE (fst fd), dz (snd fd))) _ _ If) (p_fnodes W C D3 Q)). rewrite map_length in L2. auto. }
  assert (s = s1) by congruence. subst s. specialize (T3 NS). rewrite B3 in T1, T2, T3. exists src, (cp s1). split; auto. split; auto.
  assert (AF : forall h, parent_att x MFACE h = nth_error (pvf x) h).
  { intros h. unfold parent_att, pvf. rewrite (proj2 (cv_rest CV)), nth_error_map. destruct h; auto. }
  assert (AR : forall h, parent_att x MREGION h = nth_error (map fst (x_regs x)) h) by (intros h; rewrite nth_error_map; auto). assert (AV : forall h, parent_att x MVERTEX h = nth_error (pv x) h) by (intros h; unfold pv; rewrite nth_error_map; auto).
  pose proof (constructed_made C') as M'. assert (Own : forall k h, k_ptype (j_mesh j') k h <> PGHOST) by (rewrite (mj_mesh M'); apply (rv_own RV)).
  pose proof (vall_n RV) as An. pose proof (vall_f RV) as Af. pose proof (vall_c RV) as Ac.
  assert (Mf : mkind_of m' FACE = MFACE) by (unfold mkind_of, face_kind; rewrite (rv_dim RV); auto). assert (Mc : mkind_of m' CELL = MREGION) by (unfold mkind_of, cell_kind; rewrite (rv_dim RV); auto).
  split; [|split]; constructor; auto.
  - intros i p. rewrite (vpar_node j D3 RV C'), AV. split; auto.
  - intros h n. rewrite AV. apply T1.
  - intros h n A. rewrite AV in A. apply (child_id C' bk_node Logic.I (rv_own RV) An). apply lt_of_nth in A. unfold pv in A. rewrite map_length in A. auto.
  - intros h n A. rewrite AV in A. apply (vpv_in W C D3 F CV). eapply nth_error_In; eauto.
  - apply (ids_differ C bk_node Logic.I eq_refl).
  - intros i p. rewrite (vpar_face j D3 CV RV C'), AF. split; auto.
  - intros h n. rewrite AF. apply T2.
  - intros h n A. rewrite AF in A. rewrite <- Mf. apply (child_id C' bk_face (fk C') (rv_own RV) Af). apply lt_of_nth in A. unfold pvf in A. rewrite map_length in A. auto.
  - intros h n A. rewrite AF in A. apply (pvf_in W C D3 F CV). eapply nth_error_In; eauto.
  - apply (ids_differ C bk_face (fk C) (vm_face D3)).
  - intros i p. rewrite (vpar_cell j D3 CV RV C'), AR, (cv_regs CV). split; auto.
  - intros h n. rewrite AR. apply T3.
  - intros h n A. rewrite AR in A. rewrite <- Mc. apply (child_id C' bk_cell Logic.I (rv_own RV) Ac). apply lt_of_nth in A. rewrite map_length in A. auto.
  - intros h n A. rewrite AR, (cv_regs CV) in A. apply (vsrc_in C D3 F). eapply nth_error_In; eauto.
  - apply (ids_differ C bk_cell Logic.I (vm_cell D3)).
Qed.

(** ** C94 *)
Lemma inherit_same m c dim src n sp : inherit_set m c false dim src n sp = Some (FSet n (fs_dim sp) (fold_left (add_copy c (fs_dim sp)) (fs_ents sp) [])).
Proof. unfold inherit_set. destruct (fs_dim sp); reflexivity. Qed.
(** a labeled region, spelled as inheritance needs it, and the block, side set or node set of the parent's file that it names *)
Record inheritable (m : mstk) (sets : list fset) (G : gmodel) (l : labeled) (K : entity_kind) (sp : fset) : Prop := {
  in_file : file_sets m sets; in_kind : settable K; in_spelling : prefixed l K; in_model : labeled_region G l;
  in_the : the_set sets l K sp; in_name : fs_name sp = file_name l K; in_dim : fs_dim sp = mkind_of m K }.
Lemma same_answer m j j' x c K k sets G dim src l sp : linked m j j' x c K k -> inheritable m sets G l K sp -> fs_dim sp = k ->
  exists po pg o, set_on j sets l K po pg /\ set_on j' (inherit_labeled_sets m sets G c false dim src) l K o [] /\ NoDup o /\ forall i, In i o <-> exists p, parent j x j' K i p /\ In p (po ++ pg).
Proof.
  intros Lk [FS SK P R T N D] Dk. destruct (parent_answer j FS SK P T N) as (A & B & ND & Al). destruct (split_set j sp) as [po pg] eqn:S. rewrite Dk in Al.
  destruct (core_same Lk (file_name l K) S Dk ND Al) as (o & Q & No & H). exists po, pg, o. split; [exact A|]. split; [|split; auto].
  unfold set_on. rewrite (@child_answer m sets G c false dim src j' l K sp _ SK P R B (inherit_same m c dim src _ sp)), Dk, Q. reflexivity.
Qed.
(** C94.  A mesh of the same dimension: the set of the new mesh holds the entities whose parents are in the parent's set, each once; none of them is a ghost. *)
Theorem c94_same_dimension : forall MAXPF3 MAXPV2 edges m rcv j X flatten ids x j' sets G sets' l K sp,
  (source_mesh edges m rcv j CELL /\ (forall p, In p ids -> valid j CELL p) /\ (forall p fs, In p ids -> sfaces j CELL p = Ok fs -> length fs <= MAXPV2) /\
     surface_extracted MAXPF3 MAXPV2 m j X flatten CELL ids x j') \/
  (volume_mesh edges m rcv j /\ (forall p, In p ids -> valid j CELL p /\ fits MAXPF3 MAXPV2 j p) /\ volume_extracted MAXPF3 MAXPV2 m j X ids x j' /\ flatten = false) ->
  NoDup ids -> inherited MAXPF3 MAXPV2 m j X flatten CELL ids sets G sets' -> inheritable m sets G l K sp ->
  exists po pg o, set_on j sets l K po pg /\ set_on j' sets' l K o [] /\ NoDup o /\ forall i, In i o <-> exists p, parent j x j' K i p /\ In p (po ++ pg).
Proof.
  intros MAXPF3 MAXPV2 edges m rcv j X flatten ids x j' sets G sets' l K sp [(S & V & L & E)|(S & V & E & ->)] ND H IN.
  - destruct (surface_run S V L E ND H) as (src & c & _ & -> & L1 & L2 & L3). pose proof (in_dim IN) as D. destruct S as (_ & _ & [[_ D2]|[Z _]] & _); [|discriminate].
    destruct (in_kind IN) as [->|[->| ->]].
    + apply (same_answer _ _ L3 IN). rewrite D. unfold mkind_of, cell_kind. rewrite D2. auto.
    + apply (same_answer _ _ L2 IN). rewrite D. unfold mkind_of, face_kind. rewrite D2. auto.
    + apply (same_answer _ _ L1 IN). auto.
  - destruct (volume_run S V E ND H) as (src & c & _ & -> & L1 & L2 & L3). pose proof (in_dim IN) as D. destruct S as (_ & _ & D3).
    destruct (in_kind IN) as [->|[->| ->]].
    + apply (same_answer _ _ L3 IN). rewrite D. apply (vm_cell D3).
    + apply (same_answer _ _ L2 IN). rewrite D. apply (vm_face D3).
    + apply (same_answer _ _ L1 IN). auto.
Qed.
Section Solid.
Variables (MAXPF3 MAXPV2 : nat) (edges : bool) (m : mstk) (rcv : received) (j : jmesh) (X : nat -> xyz) (flatten : bool) (ids : list nat) (x : xmesh) (j' : jmesh) (sets : list fset) (G : gmodel) (sets' : list fset) (l : labeled) (sp : fset).
Hypothesis (S : source_mesh edges m rcv j FACE) (V : forall p, In p ids -> valid j FACE p) (L : forall p fs, In p ids -> sfaces j FACE p = Ok fs -> length fs <= MAXPV2).
Hypothesis (E : surface_extracted MAXPF3 MAXPV2 m j X flatten FACE ids x j') (ND : NoDup ids) (H : inherited MAXPF3 MAXPV2 m j X flatten FACE ids sets G sets').
(** C94.  A surface of a solid mesh: a set of nodes is inherited in the same way ... *)
Theorem c94_surface_nodes : inheritable m sets G l NODE sp ->
  exists po pg o, set_on j sets l NODE po pg /\ set_on j' sets' l NODE o [] /\ NoDup o /\ forall i, In i o <-> exists p, parent j x j' NODE i p /\ In p (po ++ pg).
Proof.
  intros [FS SK P R T N D]. destruct (surface_run S V L E ND H) as (src & c & _ & -> & L1 & L2 & L3). cbn [mkind_of] in D. destruct (parent_answer j FS SK P T N) as (A & B & Nd & Al). destruct (split_set j sp) as [po pg] eqn:Q. rewrite D in Al.
  destruct (core_same L1 (file_name l NODE) Q D Nd Al) as (o & Qo & No & Ho). exists po, pg, o. split; [exact A|]. split; [|split; auto].
  assert (Hi : inherit_set m c true MFACE src (file_name l NODE) sp = Some (FSet (file_name l NODE) MVERTEX (fold_left (add_copy c MVERTEX) (fs_ents sp) []))) by (unfold inherit_set; rewrite D; reflexivity).
    unfold set_on. rewrite (@child_answer m sets G c true MFACE src j' l NODE sp _ SK P R B Hi), Qo; auto.
Qed.
(** ... a set of cells becomes the set of the new cells whose parents are faces of its cells ... *)
Theorem c94_surface_cells : inheritable m sets G l CELL sp ->
  exists po pg o, set_on j sets l CELL po pg /\ set_on j' sets' l CELL o [] /\ NoDup o /\
    forall i, In i o <-> exists f c fs, parent j x j' CELL i f /\ In c (po ++ pg) /\ cell_faces j false c = Ok fs /\ In f (map fst fs).
Proof.
  intros [FS SK P R T N D]. destruct (surface_run S V L E ND H) as (src & c & _ & -> & L1 & L2 & L3). destruct S as (W & C & [[Z _]|[_ D3]] & He); [discriminate|]. rewrite (vm_cell D3) in D.
  destruct (parent_answer j FS SK P T N) as (A & B & Nd & Al). destruct (split_set j sp) as [po pg] eqn:Q. rewrite D in Al.
  destruct (core_parts L3 (file_name l CELL) (sp := sp) (parts := fun h => map fst (k_rf m h))) as (o & Qo & No & Ho). { intros h p I J. apply (mk_rf W h p); auto. }
  exists po, pg, o. split; [exact A|]. split; [|split; auto].
  - assert (Hi : inherit_set m c true MFACE src (file_name l CELL) sp = Some (FSet (file_name l CELL) MFACE (fold_left (fun a h => fold_left (add_copy_once c MFACE) (map fst (k_rf m h)) a) (fs_ents sp) []))) by (unfold inherit_set; rewrite D; reflexivity).
    unfold set_on. rewrite (@child_answer m sets G c true MFACE src j' l CELL sp _ SK P R B Hi), Qo; auto.
  - assert (Bh : forall h, In h (fs_ents sp) -> behind j CELL (id_of j MREGION h) h). { intros h I. pose proof (gbehind_of C bk_cell Logic.I (h := h)) as X0. rewrite (vm_cell D3) in X0. auto. }
    intros i. rewrite Ho. split.
    + intros (h & q & Pq & I & J). exists q, (id_of j MREGION h). eexists. split; [exact Pq|]. split; [apply (split_all _ Q); rewrite D; apply in_map; auto|]. split; [apply (p_faces W C D3 (Bh h I))|].
      rewrite map_map in J |- *. exact J.
    + intros (f & cc & fs & Pf & I & Ef & J). apply (split_all _ Q) in I. rewrite D in I. apply in_map_iff in I as (h & <- & I). exists h, f. split; auto. split; auto. rewrite (p_faces W C D3 (Bh h I)) in Ef. injection Ef as <-.
      rewrite map_map in J |- *. exact J.
Qed.
(** ... a set of faces that has none of the chosen faces becomes the set of the new faces whose parents are edges of its faces, and one that has is left out. *)
Theorem c94_surface_faces : inheritable m sets G l FACE sp ->
  exists po pg, set_on j sets l FACE po pg /\
    ((forall p, In p ids -> ~ In p (po ++ pg)) -> exists o, set_on j' sets' l FACE o [] /\ NoDup o /\
       forall i, In i o <-> exists e f es, parent j x j' FACE i e /\ In f (po ++ pg) /\ face_edges j f = Ok es /\ In e (map fst es)) /\
    ((exists p, In p ids /\ In p (po ++ pg)) -> set_on j' sets' l FACE [] []).
Proof.
  intros [FS SK P R T N D]. destruct (surface_run S V L E ND H) as (src & c & F & -> & L1 & L2 & L3). destruct S as (W & C & [[Z _]|[_ D3]] & He); [discriminate|]. specialize (He eq_refl). rewrite (vm_face D3) in D.
  destruct (parent_answer j FS SK P T N) as (A & B & Nd & Al). destruct (split_set j sp) as [po pg] eqn:Q. rewrite D in Al. exists po, pg. split; [exact A|].
  assert (Bh : forall h, In h (fs_ents sp) -> behind j FACE (id_of j MFACE h) h) by (intros h I; apply (vid_f C D3); auto).
  assert (Ex : existsb (has (fs_ents sp)) src = true <-> exists p, In p ids /\ In p (po ++ pg)).
  { rewrite existsb_exists. split.
    - intros (h & I & Hh). apply has_In in Hh. destruct (Forall2_in_r F I) as (p & Ip & Bp). exists p. split; auto. apply (split_all _ Q). rewrite D. destruct (behind_in C bk_face (fk C) Bp) as [_ <-]. rewrite (vm_face D3). apply in_map; auto.
    - intros (p & Ip & I). apply (split_all _ Q) in I. rewrite D in I. apply in_map_iff in I as (h & <- & I). destruct (Forall2_in_l F Ip) as (h' & I' & Bp). exists h'. split; auto. apply has_In.
      rewrite (behind_fun Bp (Bh h I)). auto. }
  split.
  - intros No. assert (X0 : existsb (has (fs_ents sp)) src = false). { destruct (existsb _ _) eqn:X0; auto. destruct (proj1 Ex eq_refl) as (p & I1 & I2). exfalso. apply (No p I1 I2). }
    destruct (core_parts L2 (file_name l FACE) (sp := sp) (parts := fun h => map fst (k_fe m h))) as (o & Qo & Nod & Ho). { intros h p I J. apply (mk_fe W h p); auto. }
    exists o. split; [|split; auto].
    + assert (Hi : inherit_set m c true MFACE src (file_name l FACE) sp = Some (FSet (file_name l FACE) MEDGE (fold_left (fun a h => fold_left (add_copy_once c MEDGE) (map fst (k_fe m h)) a) (fs_ents sp) []))) by (unfold inherit_set; rewrite D, X0; reflexivity).
    unfold set_on. rewrite (@child_answer m sets G c true MFACE src j' l FACE sp _ SK P R B Hi), Qo; auto.
    + intros i. rewrite Ho. split.
      * intros (h & q & Pq & I & J). exists q, (id_of j MFACE h). eexists. split; [exact Pq|]. split; [apply (split_all _ Q); rewrite D; apply in_map; auto|]. split; [apply (face_edges_serial W C D3 He (Bh h I))|].
        rewrite map_map in J |- *. exact J.
      * intros (e & f & es & Pe & I & Ee & J). apply (split_all _ Q) in I. rewrite D in I. apply in_map_iff in I as (h & <- & I). exists h, e. split; auto. split; auto. rewrite (face_edges_serial W C D3 He (Bh h I)) in Ee. injection Ee as <-.
        rewrite map_map in J |- *. exact J.
  - intros X0. apply Ex in X0. apply child_no_answer; auto; [apply (prefixed_means SK P)|]. intros l' sp' _ _ B'. assert (sp' = sp) by congruence. subst sp'. unfold inherit_set. rewrite D, X0. reflexivity.
Qed.
End Solid.
(** Finding: a region that spells its kind without "Entity_kind::" - the only spelling by which the set can be looked up by the name of its region, see C80 and C91 - has no set on
    the new mesh, whatever the parent's set *)
Theorem c94_plain_spelling_refuted : forall m sets G c diff dim src j' l K, settable K -> label_means (ls_entity l) K -> (forall s, In s sets -> fs_name s <> "") ->
  (forall l', labeled_region G l' -> prefixed_kind l' = None) -> set_on j' (inherit_labeled_sets m sets G c diff dim src) l K [] [].
Proof.
  intros m sets G c diff dim src j' l K SK P Ne Pl. apply child_no_answer; auto. intros l' sp R N B. exfalso. unfold prefixed_name in N. rewrite (Pl l' R) in N. rewrite <- N in B. apply set_by_name_some in B as [I B]. apply (Ne sp I B).
Qed.
(** Finding: an element set is not inherited, whatever the spelling *)
Theorem c94_element_set_refuted : forall m sets G c diff dim src j' l sp, file_sets m sets -> label_means (ls_entity l) CELL -> the_set sets l CELL sp -> fs_name sp = ("elemset_" ++ ls_label l)%string ->
  set_on j' (inherit_labeled_sets m sets G c diff dim src) l CELL [] [].
Proof.
  intros m sets G c diff dim src j' l sp [ND _] P (I & Nm & U) N. apply child_no_answer; auto; [left; auto|]. intros l' sp' R N' B. exfalso. apply set_by_name_some in B as [I' B].
  assert (sp' = sp) by (apply U; auto; left; auto). subst sp'. rewrite N in B. discriminate.
Qed.
(** Finding: on a mesh that was not extracted every entity claims entity 0 as its parent - the answer a copy of entity 0 gives *)
Theorem c94_no_parent_refuted : forall j jp K i, base_kind K -> valid j K i -> has_kind j K -> (exists serial bg faces edges m rcv, constructed serial bg faces edges m rcv j) -> entity_get_parent j jp None K i = Ok 0.
Proof.
  intros j jp K i B V Hk (serial & bg & faces & edges & m & rcv & C). destruct (c85_one_entity_per_id C B Hk) as (Hv & _). apply Hv in V as [h Eh]. apply rd_table in Eh. destruct B as [->|[->|[->| ->]]]; cbn [entity_get_parent table] in *; rewrite ?Eh; reflexivity.
Qed.

(** ** Witness: a set of each kind on the mesh of a hexahedron and a prism *)
Definition hp_sets : list fset := [FSet "matset_7" MREGION [2]; FSet "elemset_9" MREGION [1]; FSet "sideset_3" MFACE [2; 4]; FSet "sideset_5" MFACE [9; 1]; FSet "nodeset_1" MVERTEX [10; 1; 3]].
Definition hp_lab (e n : string) : labeled := Labeled "L" 1 e "mesh.exo" "exodus" n.
Definition hp_model : gmodel := GModel 3 [Rgn "A" 3 PERMANENT (SLabeled (hp_lab "Entity_kind::CELL" "7")); Rgn "P" 3 PERMANENT (SLabeled (hp_lab "CELL" "7")); Rgn "B" 3 PERMANENT (SLabeled (hp_lab "Entity_kind::FACE" "3"));
  Rgn "C" 3 PERMANENT (SLabeled (hp_lab "Entity_kind::FACE" "5")); Rgn "D" 3 PERMANENT (SLabeled (hp_lab "Entity_kind::NODE" "1")); Rgn "E" 3 PERMANENT (SLabeled (hp_lab "Entity_kind::CELL" "9"))].
Lemma hp_file_sets : file_sets hp_mesh hp_sets.
Proof.
  split.
  - repeat (constructor; [cbn; intuition discriminate|]). constructor.
  - intros s I. each I; (split; [nodup|]); intros h J; each J; vm_compute; tauto.
Qed.
Ltac inherits rg := split; [exact hp_file_sets|unfold settable; tauto|reflexivity|exists rg; split; [cbn; tauto|reflexivity]| |reflexivity|reflexivity];
  split; [cbn; tauto|split; [cbn; tauto|]]; intros s I N; each I; cbn in N; intuition discriminate.
Definition sp7 := FSet "matset_7" MREGION [2].
Definition sp3 := FSet "sideset_3" MFACE [2; 4].
Definition sp5 := FSet "sideset_5" MFACE [9; 1].
Definition sp1 := FSet "nodeset_1" MVERTEX [10; 1; 3].
Lemma hp_inherits7 : inheritable hp_mesh hp_sets hp_model (hp_lab "Entity_kind::CELL" "7") CELL sp7.
Proof. inherits (Rgn "A" 3 PERMANENT (SLabeled (hp_lab "Entity_kind::CELL" "7"))). Qed.
Lemma hp_inherits3 : inheritable hp_mesh hp_sets hp_model (hp_lab "Entity_kind::FACE" "3") FACE sp3.
Proof. inherits (Rgn "B" 3 PERMANENT (SLabeled (hp_lab "Entity_kind::FACE" "3"))). Qed.
Lemma hp_inherits5 : inheritable hp_mesh hp_sets hp_model (hp_lab "Entity_kind::FACE" "5") FACE sp5.
Proof. inherits (Rgn "C" 3 PERMANENT (SLabeled (hp_lab "Entity_kind::FACE" "5"))). Qed.
Lemma hp_inherits1 : inheritable hp_mesh hp_sets hp_model (hp_lab "Entity_kind::NODE" "1") NODE sp1.
Proof. inherits (Rgn "D" 3 PERMANENT (SLabeled (hp_lab "Entity_kind::NODE" "1"))). Qed.
(** the sets of a surface of two faces, and of the mesh of both cells *)
Example c94_witness :
  (inherited 12 10 hp_mesh hps_j X0 true FACE [0; 2] hp_sets hp_model [FSet "matset_7" MFACE []; FSet "sideset_3" MEDGE [5; 2; 4]; FSet "nodeset_1" MVERTEX [1; 2]]) /\
  (inherited 12 10 hp_mesh hps_j X0 true FACE [3; 7] hp_sets hp_model [FSet "matset_7" MFACE [0; 1]; FSet "sideset_5" MEDGE [4; 3; 0]; FSet "nodeset_1" MVERTEX [4; 1]]) /\
  (inherited 12 10 hp_mesh hps_j X0 false CELL [1; 0] hp_sets hp_model [FSet "matset_7" MREGION [0]; FSet "sideset_3" MFACE [6; 0]; FSet "sideset_5" MFACE [1; 5]; FSet "nodeset_1" MVERTEX [5; 6; 1]]) /\
  set_on hps_j hp_sets (hp_lab "Entity_kind::CELL" "7") CELL [] [1] /\ set_on hps_j hp_sets (hp_lab "Entity_kind::CELL" "9") CELL [0] [].
Proof.
  split; [|split; [|split; [|split]]].
  - eexists _, _. split; [vm_compute; reflexivity|]. split; [vm_compute; reflexivity|]. vm_compute; reflexivity.
  - eexists _, _. split; [vm_compute; reflexivity|]. split; [vm_compute; reflexivity|]. vm_compute; reflexivity.
  - eexists _, _. split; [vm_compute; reflexivity|]. split; [vm_compute; reflexivity|]. vm_compute; reflexivity.
  - vm_compute; reflexivity.
  - vm_compute; reflexivity.
Qed.
Example c94_witness_volume : exists sets' po pg o, set_on hps_j hp_sets (hp_lab "Entity_kind::CELL" "7") CELL po pg /\ set_on hx_j sets' (hp_lab "Entity_kind::CELL" "7") CELL o [] /\
  forall i, In i o <-> exists p, parent hps_j hx hx_j CELL i p /\ In p (po ++ pg)%list.
Proof.
  destruct c93_witness as (S & V & E & _). destruct c94_witness as (_ & _ & H & _). eexists. destruct (@c94_same_dimension 12 10 true hp_mesh hp_rcv hps_j X0 false [1; 0] hx hx_j hp_sets hp_model _ _ CELL _
    (or_intror (conj S (conj V (conj E eq_refl)))) ltac:(nodup) H hp_inherits7) as (po & pg & o & A & B & _ & Q). exists po, pg, o. split; [exact A|]. split; [exact B|exact Q].
Qed.
Example c94_witness_surface : exists x j' sets' po pg o, surface_extracted 12 10 hp_mesh hps_j X0 true FACE [0; 2] x j' /\ set_on hps_j hp_sets (hp_lab "Entity_kind::FACE" "3") FACE po pg /\ set_on j' sets' (hp_lab "Entity_kind::FACE" "3") FACE o [] /\
  forall i, In i o <-> exists e f es, parent hps_j x j' FACE i e /\ In f (po ++ pg)%list /\ face_edges hps_j f = Ok es /\ In e (map fst es).
Proof.
  destruct hps_sfaces as [E0 E2]. destruct (@two_lists (sfaces hps_j FACE) E0 E2) as [L One]. destruct (c92_witness X0) as (x & j' & E & _). destruct c94_witness as (H & _).
  destruct (c94_surface_faces hps_source hps_valid L E ltac:(nodup) H hp_inherits3) as (po & pg & A & B & _). destruct B as (o & B & _ & Q).
  - intros p I J. assert (P : In p [1; 3]) by (assert (Z : (po, pg) = ([1; 3], [])) by (unfold set_on in A; vm_compute in A; congruence); injection Z as -> ->; exact J). cbn in I, P. intuition lia.
  - exists x, j'. eexists. exists po, pg, o. split; [exact E|]. split; [exact A|]. split; [exact B|exact Q].
Qed.
Print Assumptions c94_same_dimension.
Print Assumptions c94_surface_nodes.
Print Assumptions c94_surface_cells.
Print Assumptions c94_surface_faces.
Print Assumptions c94_plain_spelling_refuted.
Print Assumptions c94_element_set_refuted.
Print Assumptions c94_no_parent_refuted.
