(** The queries of the MSTK layer in terms of the MSTK entities behind the ids. *)
From Coq Require Import Permutation.
From Verif Require Import Base Loop Defs Cache Cache_proofs MstkMesh MstkMesh_spec MstkMesh_proofs Props_MstkIds.
From Verif Require Import Geometry_spec.
Set Implicit Arguments. Unset Strict Implicit.

(** downward and upward adjacencies by dimension *)
Definition cverts (m : mstk) (h : nat) : list nat := if k_dim m =? 3 then k_rv m h else k_fv m h.
Definition cfaces_of (m : mstk) (h : nat) : list (nat * bool) := if k_dim m =? 3 then k_rf m h else k_fe m h.
Definition fverts (m : mstk) (h : nat) : list nat := if k_dim m =? 3 then k_fv m h else [fst (k_ev m h); snd (k_ev m h)].
Definition vcells (m : mstk) (v : nat) : list nat := if k_dim m =? 3 then k_vr m v else k_vf m v.
Definition vfaces (m : mstk) (v : nat) : list nat := if k_dim m =? 3 then k_vf m v else k_ve m v.
Definition fcells (m : mstk) (f : nat) : list nat := if k_dim m =? 3 then k_fr m f else k_ef m f.

Lemma same_cycle_perm A (l l' : list A) : same_cycle l l' -> Permutation l l'.
Proof. intros (a & b & -> & ->). apply Permutation_app_comm. Qed.

Section Mesh.
Variables (serial faces edges : bool) (m : mstk) (rcv : received) (j : jmesh).
Hypothesis W : mstk_mesh m.
Hypothesis C : constructed serial false faces edges m rcv j.
Let M : made serial false faces edges m rcv j := constructed_made C.
Let Jm : j_mesh j = m := mj_mesh M.
Lemma dim_cases : (k_dim m =? 3) = true /\ (k_dim m =? 2) = false \/ (k_dim m =? 3) = false /\ (k_dim m =? 2) = true.
Proof. destruct (mk_dim W) as [->| ->]; auto. Qed.
Lemma faces_kind : has_kind j FACE <-> faces = true.
Proof. simpl. rewrite (mj_faces M). tauto. Qed.

Lemma behind_in K i h : base_kind K -> has_kind j K -> behind j K i h -> In h (k_all m (mkind_of m K)) /\ id_of j (mkind_of m K) h = i.
Proof. intros B Hk E. destruct (c85_one_entity_per_id C B Hk) as (_ & _ & Hid & _). auto. Qed.
Lemma behind_of K h : base_kind K -> has_kind j K -> In h (k_all m (mkind_of m K)) -> behind j K (id_of j (mkind_of m K) h) h.
Proof. intros B Hk I. destruct (c85_one_entity_per_id C B Hk) as (_ & Ha & Hid & _). destruct (Ha _ I) as [i E]. destruct (Hid _ _ E) as [_ ->]. auto. Qed.
Lemma behind_fun K i h h' : behind j K i h -> behind j K i h' -> h = h'.
Proof. unfold behind. congruence. Qed.
Lemma id_inj K h h' : base_kind K -> has_kind j K -> In h (k_all m (mkind_of m K)) -> In h' (k_all m (mkind_of m K)) -> id_of j (mkind_of m K) h = id_of j (mkind_of m K) h' -> h = h'.
Proof. intros B Hk I I' E. pose proof (behind_of B Hk I) as X. pose proof (behind_of B Hk I') as X'. rewrite E in X. eapply behind_fun; eauto. Qed.
Lemma valid_behind K i : base_kind K -> has_kind j K -> In i (entities j K TYPE_ALL) <-> exists h, behind j K i h.
Proof. intros B Hk. destruct (c85_one_entity_per_id C B Hk) as (H & _). apply H. Qed.
(** the type test of the queries is the type the id lists give *)
Lemma typed K ty i h : base_kind K -> has_kind j K -> behind j K i h -> In i (entities j K ty) <-> wanted ty (k_ptype m (mkind_of m K) h) = true.
Proof.
  intros B Hk E. pose proof (fun H => @c85_lists_hold_the_type _ _ _ _ _ _ _ _ ty _ _ C B Hk E H) as T.
  destruct ty; try (rewrite T by (simpl; tauto)); cbn [mstk_type wanted entities]; try (destruct (k_ptype m (mkind_of m K) h); simpl; split; try tauto; try congruence; intuition congruence).
Qed.
Lemma of_type_In ty K hs i : base_kind K -> has_kind j K -> incl hs (k_all m (mkind_of m K)) ->
  In i (of_type j ty (mkind_of m K) hs) <-> In i (entities j K ty) /\ exists h, behind j K i h /\ In h hs.
Proof.
  intros B Hk Hi. unfold of_type. rewrite Jm, in_map_iff. split.
  - intros (h & <- & I). apply filter_In in I as [I Wt]. pose proof (behind_of B Hk (Hi _ I)) as X. split; [apply (typed ty B Hk X); auto|]. eauto.
  - intros (T & h & X & I). exists h. destruct (behind_in B Hk X) as [_ <-]. split; auto. apply filter_In. split; auto. apply (typed ty B Hk X); auto.
Qed.
Lemma map_id_nodup K hs : base_kind K -> has_kind j K -> incl hs (k_all m (mkind_of m K)) -> NoDup hs -> NoDup (map (id_of j (mkind_of m K)) hs).
Proof.
  intros B Hk. induction hs as [|h hs IH]; intros Hi N; [apply NoDup_nil|]. apply NoDup_cons_iff in N as [H1 H2]. cbn [map]. apply NoDup_cons.
  - intros I. apply in_map_iff in I as (h' & E & I). apply H1. replace h with h'; auto. apply (@id_inj K); auto; apply Hi; [right|left]; auto.
  - apply IH; auto. intros x Ix. apply Hi. right; auto.
Qed.
Lemma of_type_nodup ty K hs : base_kind K -> has_kind j K -> incl hs (k_all m (mkind_of m K)) -> NoDup hs -> NoDup (of_type j ty (mkind_of m K) hs).
Proof.
  intros B Hk Hi N. unfold of_type. apply map_id_nodup; auto; [|apply NoDup_filter; auto]. intros x Ix. apply filter_In in Ix as [Ix _]. auto.
Qed.
Lemma map_id_In K hs i h : base_kind K -> has_kind j K -> incl hs (k_all m (mkind_of m K)) -> behind j K i h -> In i (map (id_of j (mkind_of m K)) hs) <-> In h hs.
Proof.
  intros B Hk Hi E. destruct (behind_in B Hk E) as [Ih Eq]. rewrite in_map_iff. split.
  - intros (h' & E' & I). replace h with h'; auto. apply (@id_inj K); auto. congruence.
  - intros I. exists h. auto.
Qed.

(** the adjacencies of a well-formed mesh *)
Lemma bk_node : base_kind NODE. Proof. unfold base_kind; tauto. Qed.
Lemma bk_edge : base_kind EDGE. Proof. unfold base_kind; tauto. Qed.
Lemma bk_face : base_kind FACE. Proof. unfold base_kind; tauto. Qed.
Lemma bk_cell : base_kind CELL. Proof. unfold base_kind; tauto. Qed.
Lemma fv_used f : In f (k_all m MFACE) -> forall v, In v (k_fv m f) <-> exists e, e_of_f m e f /\ v_of_e m v e.
Proof.
  intros I v. destruct (mk_fv W f I) as [E _]. split.
  - intros Iv. destruct (k_fv m f) as [|a l] eqn:El; [destruct Iv|].
    assert (X : exists b, In (v, b) (Geometry_spec.edges (a :: l))).
    { assert (G : forall (l : list nat) (a z w : nat), In w (a :: l) -> exists b, In (w, b) (steps a l z)).
      { clear. induction l as [|y l IH]; intros a z w [<-|I]; [exists z; left; auto|destruct I|exists y; left; auto|]. simpl. destruct (IH y z w I) as [b Hb]. eauto. }
      simpl. apply G. auto. }
    destruct X as [b Hb]. rewrite E in Hb. apply in_map_iff in Hb as ([e d] & Eq & Ied). exists e. split; [apply in_map_iff; exists (e, d); auto|].
    unfold used in Eq. cbn [fst snd] in Eq. unfold v_of_e. destruct d; [rewrite Eq|unfold swap in Eq; injection Eq as -> _]; auto.
  - intros (e & Ie & Hv). apply in_map_iff in Ie as ([e' d] & Eq & Ied). cbn [fst] in Eq. subst e'.
    assert (X : In (used m (e, d)) (Geometry_spec.edges (k_fv m f))) by (rewrite E; apply in_map; auto).
    assert (G : forall (l : list nat) (a z x y : nat), In (x, y) (steps a l z) -> In x (a :: l) /\ (In y l \/ y = z)).
    { clear. induction l as [|b l IH]; intros a z x y; simpl.
      - intros [Q|[]]. injection Q as <- <-. auto.
      - intros [Q|Q]; [injection Q as <- <-; auto|]. destruct (IH _ _ _ _ Q) as [A B]. simpl in A. tauto. }
    assert (G2 : In (fst (used m (e, d))) (k_fv m f) /\ In (snd (used m (e, d))) (k_fv m f)).
    { destruct (k_fv m f) as [|a l]; [destruct X|]. simpl in X. destruct (used m (e, d)) as [x y]. destruct (G _ _ _ _ _ X) as [A B]. cbn [fst snd]. split; auto. destruct B as [B| ->]; [right|left]; auto. }
    unfold used in G2. cbn [fst snd] in G2. unfold swap in G2. destruct d, Hv as [->| ->]; cbn [fst snd] in G2; tauto.
Qed.
Lemma fv_range f v : In f (k_all m MFACE) -> In v (k_fv m f) -> In v (k_all m MVERTEX).
Proof.
  intros I Iv. apply fv_used in Iv as (e & Ie & Hv); auto. destruct (mk_ev W e) as (A & B & _); [apply (mk_fe W f); auto|]. destruct Hv as [->| ->]; auto.
Qed.
Lemma cverts_ok h : In h (k_all m (cell_kind m)) -> incl (cverts m h) (k_all m MVERTEX) /\ NoDup (cverts m h).
Proof.
  unfold cell_kind, cverts. destruct dim_cases as [[-> ->]|[-> ->]]; intros I; split.
  - intros v Iv. destruct (mk_rv W h I) as [_ H]. apply H in Iv as (f & If & Iv). eapply fv_range; eauto. apply (mk_rf W h); auto.
  - apply (mk_rv W h I).
  - intros v Iv. eapply fv_range; eauto.
  - apply (mk_fv W h I).
Qed.
Lemma cfaces_ok h : In h (k_all m (cell_kind m)) -> incl (map fst (cfaces_of m h)) (k_all m (face_kind m)) /\ NoDup (map fst (cfaces_of m h)).
Proof.
  unfold cell_kind, face_kind, cfaces_of. destruct dim_cases as [[-> ->]|[-> ->]]; intros I; split.
  - intros f If. apply (mk_rf W h); auto.
  - apply (mk_rf_nodup W); auto.
  - intros e Ie. apply (mk_fe W h); auto.
  - apply (mk_fe_nodup W h I).
Qed.
Lemma fverts_ok h : In h (k_all m (face_kind m)) -> incl (fverts m h) (k_all m MVERTEX) /\ NoDup (fverts m h).
Proof.
  unfold face_kind, fverts. destruct dim_cases as [[-> ->]|[-> ->]]; intros I; split.
  - intros v Iv. eapply fv_range; eauto.
  - apply (mk_fv W h I).
  - destruct (mk_ev W h I) as (A & B & _). intros v [<-|[<-|[]]]; auto.
  - destruct (mk_ev W h I) as (A & B & D). apply NoDup_cons; [simpl; intuition congruence|apply NoDup_cons; [intros []|apply NoDup_nil]].
Qed.
Lemma vcells_ok v : In v (k_all m MVERTEX) -> NoDup (vcells m v) /\ forall h, In h (vcells m v) <-> In h (k_all m (cell_kind m)) /\ In v (cverts m h).
Proof. unfold cell_kind, vcells, cverts. destruct dim_cases as [[-> ->]|[-> ->]]; intros I; [apply (mk_vr W v I)|apply (mk_vf W v I)]. Qed.
Lemma vfaces_ok v : In v (k_all m MVERTEX) -> NoDup (vfaces m v) /\ forall h, In h (vfaces m v) <-> In h (k_all m (face_kind m)) /\ In v (fverts m h).
Proof.
  unfold face_kind, vfaces, fverts. destruct dim_cases as [[-> ->]|[-> ->]]; intros I; [apply (mk_vf W v I)|]. destruct (mk_ve W v I) as [N H]. split; auto.
  intros h. rewrite H. unfold v_of_e. simpl. intuition.
Qed.
Lemma fcells_ok f : In f (k_all m (face_kind m)) -> NoDup (fcells m f) /\ forall h, In h (fcells m f) <-> In h (k_all m (cell_kind m)) /\ In f (map fst (cfaces_of m h)).
Proof. unfold cell_kind, face_kind, fcells, cfaces_of. destruct dim_cases as [[-> ->]|[-> ->]]; intros I; [apply (mk_fr W f I)|apply (mk_ef W f I)]. Qed.

(** the queries *)
Lemma rd_table K i h : rd (table j K) i = Ok h <-> behind j K i h.
Proof. apply rd_Ok. Qed.
Lemma flip_len : faces = true -> length (faceflip j) = length (table j FACE).
Proof.
  intros Hf. destruct (mj_ff M Hf) as [_ L]. rewrite L. destruct (mj_kind M bk_face) as [_ T _]; [apply faces_kind; auto|]. rewrite T, Jm, (mj_bg M). symmetry. apply Permutation_length, (groups_perm m false bk_face).
Qed.
Definition flip (f : nat) : bool := nth f (faceflip j) false.
Lemma rd_flip f h : faces = true -> behind j FACE f h -> rd (faceflip j) f = Ok (flip f).
Proof.
  intros Hf E. apply rd_Ok. unfold flip. apply nth_error_nth'. rewrite flip_len by auto. apply nth_error_Some. unfold behind in E. congruence.
Qed.
Definition dirz (d fl : bool) : Z := if fl then (- (if d then 1 else -1))%Z else (if d then 1 else -1)%Z.
Lemma mapM_map' A B (f : A -> outcome B) (g : A -> B) l : (forall x, In x l -> f x = Ok (g x)) -> mapM f l = Ok (map g l).
Proof. induction l as [|x l IH]; intros H; simpl; auto. rewrite H by (left; auto). simpl. rewrite IH by (intros y I; apply H; right; auto). reflexivity. Qed.
Definition jface (fd : nat * bool) : nat * Z := (id_of j (face_kind m) (fst fd), dirz (snd fd) (flip (id_of j (face_kind m) (fst fd)))).
Lemma face_dir_ok fd : faces = true -> In (fst fd) (k_all m (face_kind m)) -> face_dir j (face_kind m) fd = Ok (jface fd).
Proof.
  intros Hf I. unfold face_dir. pose proof (behind_of bk_face (proj2 faces_kind Hf) I) as E. cbn [mkind_of] in E. rewrite (rd_flip Hf E). reflexivity.
Qed.
Lemma cell_faces_ok c h : faces = true -> behind j CELL c h -> cell_faces j false c = Ok (map jface (cfaces_of m h)).
Proof.
  intros Hf E. unfold cell_faces, asserting. rewrite (mj_faces M), Hf. unfold cell_faces_unordered. pose proof (proj2 (rd_table CELL c h) E) as R. cbn [table] in R. rewrite R. cbn [bind].
  destruct (behind_in bk_cell I E) as [Ih _]. cbn [mkind_of] in Ih. destruct (cfaces_ok Ih) as [Hi _]. rewrite Jm.
  unfold cfaces_of in *. replace (if k_dim m =? 3 then mapM (face_dir j MFACE) (k_rf m h) else mapM (face_dir j MEDGE) (k_fe m h)) with
     (mapM (face_dir j (face_kind m)) (if k_dim m =? 3 then k_rf m h else k_fe m h)) by (unfold face_kind; destruct dim_cases as [[-> ->]|[-> ->]]; reflexivity).
  apply mapM_map'. intros fd Ifd. apply face_dir_ok; auto. apply Hi. apply in_map. auto.
Qed.
Lemma cell_nodes_ok c h : behind j CELL c h -> cell_nodes j c = Ok (map (id_of j MVERTEX) (cverts m h)).
Proof. intros E. unfold cell_nodes. apply rd_table in E. cbn [table] in E. rewrite E. cbn [bind]. rewrite Jm. reflexivity. Qed.
Lemma face_nodes_ok f h : faces = true -> behind j FACE f h -> exists vs, face_nodes j f = Ok (map (id_of j MVERTEX) vs) /\ Permutation vs (fverts m h) /\
  (flip f = false -> vs = fverts m h) /\ (flip f = true -> same_cycle (rev (fverts m h)) vs).
Proof.
  intros Hf E. unfold face_nodes, asserting. rewrite (mj_faces M), Hf. destruct (behind_in bk_face (proj2 faces_kind Hf) E) as [Ih _]. cbn [mkind_of] in Ih. pose proof (proj2 (rd_table FACE f h) E) as R. cbn [table] in R. rewrite R. cbn [bind]. rewrite (rd_flip Hf E). cbn [bind]. rewrite Jm.
  unfold fverts. unfold face_kind in Ih. destruct dim_cases as [[D3 D2]|[D3 D2]]; rewrite ?D3, ?D2 in *.
  - destruct (flip f) eqn:F; eexists; (split; [reflexivity|]).
    + pose proof (mk_fv_rev W h Ih) as S. split; [|split; [discriminate|intros _; exact S]]. apply same_cycle_perm in S. etransitivity; [apply Permutation_sym; exact S|]. apply Permutation_sym, Permutation_rev.
    + split; [apply Permutation_refl|]. split; [auto|discriminate].
  - destruct (flip f) eqn:F.
    + exists [snd (k_ev m h); fst (k_ev m h)]. split; [reflexivity|]. split; [apply perm_swap|]. split; [discriminate|]. intros _. simpl. exists [snd (k_ev m h); fst (k_ev m h)], []. auto.
    + exists [fst (k_ev m h); snd (k_ev m h)]. split; [reflexivity|]. split; [apply Permutation_refl|]. split; [auto|discriminate].
Qed.
End Mesh.
