(** C93: a volume mesh extracted from the cells of a 3D mesh. *)
From Coq Require Import Permutation Reals.
From Verif Require Import Base Loop Defs Cache Cache_proofs Geometry_spec Props_InPolygon MstkMesh MstkMesh_spec MstkMesh_proofs MstkMesh_proofs2 MstkMesh_examples MstkMesh_build Props_MstkIds Props_MstkOrder
  MstkExtract MstkExtract_spec MstkExtract_proofs MstkExtract_api Props_MstkExtract.
Set Implicit Arguments. Unset Strict Implicit.

Section Volume.
Variables (edges edges' : bool) (m m' : mstk) (rcv rcv' : received) (j j' : jmesh) (X : nat -> xyz) (ids src : list nat) (x : xmesh).
Hypothesis (W : mstk_mesh m) (C : constructed true false true edges m rcv j) (D3 : k_dim m = 3).
Hypothesis (F : Forall2 (behind j CELL) ids src) (CV : copied_volume m X src x) (RV : realises_volume x m') (C' : constructed true false true edges' m' rcv' j').
Let M' := constructed_made C'.
Lemma vm_cell : mkind_of m CELL = MREGION. Proof. unfold mkind_of, cell_kind. rewrite D3. auto. Qed.
Lemma vm_face : mkind_of m FACE = MFACE. Proof. unfold mkind_of, face_kind. rewrite D3. auto. Qed.
Lemma vsrc_in r : In r src -> In r (k_all m MREGION).
Proof. intros I. destruct (Forall2_in_r F I) as (p & _ & Bp). destruct (behind_in C bk_cell Logic.I Bp) as [Q _]. rewrite vm_cell in Q. auto. Qed.
Lemma pvf_in f : In f (pvf x) -> In f (k_all m MFACE).
Proof. intros I. apply (cv_f CV) in I as (r & I & Ee). apply (mk_rf W r f); auto. apply vsrc_in; auto. Qed.
Lemma vpv_in v : In v (pv x) -> In v (k_all m MVERTEX).
Proof. intros I. apply (cv_v CV) in I as (f & I & Iv). apply (fv_range W (pvf_in I) Iv). Qed.
Lemma vdim' : k_dim (j_mesh j') = 3. Proof. rewrite (mj_mesh M'). apply (rv_dim RV). Qed.
Lemma vall_n : k_all m' (mkind_of m' NODE) = seq 0 (length (x_verts x)). Proof. apply (rv_v RV). Qed.
Lemma vall_f : k_all m' (mkind_of m' FACE) = seq 0 (length (x_vfaces x)). Proof. unfold mkind_of, face_kind. rewrite (rv_dim RV). apply (rv_f RV). Qed.
Lemma vall_c : k_all m' (mkind_of m' CELL) = seq 0 (length (x_regs x)). Proof. unfold mkind_of, cell_kind. rewrite (rv_dim RV). apply (rv_r RV). Qed.
Lemma vpar_node i p : parent j x j' NODE i p <-> exists v, nth_error (pv x) i = Some v /\ p = id_of j MVERTEX v.
Proof.
  unfold parent, entity_get_parent. pose proof (child_table C' bk_node I (rv_own RV) vall_n) as T. cbn [table] in T. rewrite T, rd_seq. unfold parent_att, pv. rewrite nth_error_map.
  destruct (Nat.ltb_spec i (length (x_verts x))) as [L|L]; cbn [bind].
  - destruct (nth_error (x_verts x) i) as [v|] eqn:E; [|apply nth_error_None in E; lia]. cbn [option_map]. split; [intros Q; injection Q as <-; eauto|intros (v' & Q & ->); congruence].
  - split; [discriminate|]. intros (v & Q & _). destruct (nth_error (x_verts x) i) eqn:E; [apply lt_of_nth in E; lia|discriminate].
Qed.
Lemma vpar_face i p : parent j x j' FACE i p <-> exists f, nth_error (pvf x) i = Some f /\ p = id_of j MFACE f.
Proof.
  unfold parent, entity_get_parent. pose proof (child_table C' bk_face (fk C') (rv_own RV) vall_f) as T. cbn [table] in T. rewrite T, rd_seq, vdim'. cbn [Nat.eqb]. unfold parent_att, pvf. rewrite nth_error_map. rewrite (proj2 (cv_rest CV)).
  destruct (Nat.ltb_spec i (length (x_vfaces x))) as [L|L]; cbn [bind];
    try replace (nth_error (@nil (nat * list (nat * bool))) i) with (@None (nat * list (nat * bool))) by (destruct i; auto).
  - destruct (nth_error (x_vfaces x) i) as [v|] eqn:E; [|apply nth_error_None in E; lia]. cbn [option_map]. split; [intros Q; injection Q as <-; eauto|intros (v' & Q & ->); congruence].
  - split; [discriminate|]. intros (v & Q & _). destruct (nth_error (x_vfaces x) i) eqn:E; [apply lt_of_nth in E; lia|discriminate].
Qed.
Lemma vpar_cell i p : parent j x j' CELL i p <-> exists r, nth_error src i = Some r /\ p = id_of j MREGION r.
Proof.
  unfold parent, entity_get_parent. pose proof (child_table C' bk_cell I (rv_own RV) vall_c) as T. cbn [table] in T. rewrite T, rd_seq, vdim'. cbn [Nat.eqb]. unfold parent_att. rewrite <- (cv_regs CV), nth_error_map.
  destruct (Nat.ltb_spec i (length (x_regs x))) as [L|L]; cbn [bind].
  - destruct (nth_error (x_regs x) i) as [v|] eqn:E; [|apply nth_error_None in E; lia]. cbn [option_map]. split; [intros Q; injection Q as <-; eauto|intros (v' & Q & ->); congruence].
  - split; [discriminate|]. intros (v & Q & _). destruct (nth_error (x_regs x) i) eqn:E; [apply lt_of_nth in E; lia|discriminate].
Qed.
(** the attribute of the edges is never set *)
Lemma vpar_edge i p : parent j x j' EDGE i p -> p = 0.
Proof. unfold parent, entity_get_parent. destruct (rd (edge_h j') i) as [h| | | |]; cbn [bind]; try discriminate. unfold parent_att. rewrite (proj1 (cv_rest CV)). destruct h; cbn; congruence. Qed.
Lemma vsrc_at i p : nth_error ids i = Some p ->
  exists r fs, nth_error src i = Some r /\ behind j CELL p r /\ id_of j MREGION r = p /\ nth_error (x_regs x) i = Some (r, fs) /\ Forall2 (copy_dir (pvf x)) fs (k_rf m r) /\ k_rf m' i = fs.
Proof.
  intros E. destruct (Forall2_at F E) as (r & E2 & Bf). pose proof E2 as E3. rewrite <- (cv_regs CV) in E3. apply nth_map_fst in E3 as [fs E3]. exists r, fs. split; auto. split; auto. split; [|split; auto; split].
  - destruct (behind_in C bk_cell Logic.I Bf) as [_ Q]. rewrite vm_cell in Q. auto.
  - apply (cv_rf CV). eapply nth_error_In; eauto.
  - apply (rv_rf RV E3).
Qed.
Lemma vlen_ids : length (x_regs x) = length ids.
Proof. rewrite (Forall2_len F), <- (cv_regs CV), map_length. auto. Qed.
Lemma vin_fv n f : nth_error (pvf x) n = Some f -> Forall2 (fun v' v => nth_error (pv x) v' = Some v) (k_fv m' n) (k_fv m f).
Proof. intros E. apply nth_map_fst in E as [vs E]. rewrite (rv_fv RV E). apply (cv_fv CV (nth_error_In _ _ E)). Qed.
Lemma vnodes_eq i : i < length (x_regs x) -> cell_nodes j' i = Ok (k_rv m' i) /\ NoDup (k_rv m' i) /\ (forall v', In v' (k_rv m' i) <-> exists f', f_of_r m' f' i /\ In v' (k_fv m' f')) /\ forall v', In v' (k_rv m' i) -> v' < length (x_verts x).
Proof.
  intros L. assert (Bi : behind j' CELL i i) by (apply (child_behind C' bk_cell I (rv_own RV) vall_c); auto). assert (Ii : In i (k_all m' MREGION)) by (rewrite (rv_r RV); apply in_seq; lia).
  destruct (mk_rv (rv_mesh RV) i Ii) as [N H]. assert (Lt : forall v', In v' (k_rv m' i) -> v' < length (x_verts x)).
  { intros v' Iv. apply H in Iv as (f & If & Iv). pose proof (fv_range (rv_mesh RV) (mk_rf (rv_mesh RV) i f Ii If) Iv) as Q. rewrite (rv_v RV) in Q. apply in_seq in Q. lia. }
  split; [|auto]. rewrite (cell_nodes_ok C' Bi). unfold cverts. rewrite (rv_dim RV). cbn [Nat.eqb]. f_equal. apply map_id_in. intros v Iv. apply (child_id C' bk_node I (rv_own RV) vall_n). auto.
Qed.
Lemma vfaces_eq i : i < length (x_regs x) -> cell_faces j' false i = Ok (map (fun fd => (fst fd, dz (snd fd))) (k_rf m' i)).
Proof.
  intros L. assert (Bi : behind j' CELL i i) by (apply (child_behind C' bk_cell I (rv_own RV) vall_c); auto). rewrite (cell_faces_serial (rv_mesh RV) C' Bi). unfold cfaces_of. rewrite (rv_dim RV). cbn [Nat.eqb]. f_equal.
  apply map_ext_in. intros fd Ie. f_equal. assert (Ii : In i (k_all m' MREGION)) by (rewrite (rv_r RV); apply in_seq; lia).
  pose proof (mk_rf (rv_mesh RV) i (fst fd) Ii (in_map fst _ _ Ie)) as Q. rewrite (rv_f RV) in Q. apply in_seq in Q. apply (child_id C' bk_face (fk C') (rv_own RV) vall_f). lia.
Qed.
Lemma vface_nodes_eq n : n < length (x_vfaces x) -> face_nodes j' n = Ok (k_fv m' n).
Proof.
  intros L. assert (Bi : behind j' FACE n n) by (apply (child_behind C' bk_face (fk C') (rv_own RV) vall_f); auto). rewrite (face_nodes_serial (rv_mesh RV) C' Bi). unfold fverts. rewrite (rv_dim RV). cbn [Nat.eqb]. f_equal.
  apply map_id_in. intros v Iv. assert (In_ : In n (k_all m' MFACE)) by (rewrite (rv_f RV); apply in_seq; lia). pose proof (fv_range (rv_mesh RV) In_ Iv) as Q. rewrite (rv_v RV) in Q. apply in_seq in Q.
  apply (child_id C' bk_node I (rv_own RV) vall_n); lia.
Qed.
Lemma vid_f f : In f (k_all m MFACE) -> behind j FACE (id_of j MFACE f) f.
Proof. intros I. rewrite <- vm_face in *. apply (behind_of C bk_face (fk C)); auto. Qed.
Lemma p_faces p r : behind j CELL p r -> cell_faces j false p = Ok (map (fun fd => (id_of j MFACE (fst fd), dz (snd fd))) (k_rf m r)).
Proof. intros B. rewrite (cell_faces_serial W C B). unfold cfaces_of, face_kind. rewrite D3. reflexivity. Qed.
Lemma p_nodes p r : behind j CELL p r -> cell_nodes j p = Ok (map (id_of j MVERTEX) (k_rv m r)).
Proof. intros B. rewrite (cell_nodes_ok C B). unfold cverts. rewrite D3. reflexivity. Qed.
Lemma p_fnodes f h : behind j FACE f h -> face_nodes j f = Ok (map (id_of j MVERTEX) (k_fv m h)).
Proof. intros B. rewrite (face_nodes_serial W C B). unfold fverts. rewrite D3. reflexivity. Qed.
Lemma volume_ok :
  entities j' CELL TYPE_ALL = seq 0 (length ids) /\
  (forall i p, nth_error ids i = Some p -> parent j x j' CELL i p /\
     (exists fs' fs, cell_faces j' false i = Ok fs' /\ cell_faces j false p = Ok fs /\ Forall2 (fun a b => parent j x j' FACE (fst a) (fst b) /\ snd a = snd b) fs' fs) /\
     (exists ns' ns, cell_nodes j' i = Ok ns' /\ cell_nodes j p = Ok ns /\ NoDup ns' /\ (forall n', In n' ns' -> exists n, In n ns /\ parent j x j' NODE n' n) /\ (forall n, In n ns -> exists n', In n' ns' /\ parent j x j' NODE n' n))) /\
  (forall f', valid j' FACE f' -> exists f ns' ns, parent j x j' FACE f' f /\ face_nodes j' f' = Ok ns' /\ face_nodes j f = Ok ns /\ Forall2 (parent j x j' NODE) ns' ns) /\
  (forall K' i1 i2 p, K' = NODE \/ K' = FACE -> parent j x j' K' i1 p -> parent j x j' K' i2 p -> i1 = i2) /\
  (forall n, (exists n', valid j' NODE n' /\ parent j x j' NODE n' n) <-> exists p ns, In p ids /\ cell_nodes j p = Ok ns /\ In n ns) /\
  (forall f, (exists f', valid j' FACE f' /\ parent j x j' FACE f' f) <-> exists p fs, In p ids /\ cell_faces j false p = Ok fs /\ In f (map fst fs)) /\
  (forall n' n v, parent j x j' NODE n' n -> behind j NODE n v -> nth_error (map snd (x_verts x)) n' = Some (X v)).
Proof.
  split; [|split; [|split; [|split; [|split; [|split]]]]].
  - rewrite <- vlen_ids. apply (child_all C' bk_cell I vall_c).
  - intros i p Ei. destruct (vsrc_at Ei) as (r & fs & E2 & Br & Ip & E4 & Ff & Kr). pose proof (lt_of_nth E4) as L. assert (Ir : In r (k_all m MREGION)) by (apply vsrc_in; eapply nth_error_In; eauto). split; [|split].
    + apply vpar_cell. eauto.
    + eexists _, _. split; [apply vfaces_eq; auto|]. split; [apply (p_faces Br)|]. rewrite Kr. apply Forall2_map_lr. eapply Forall2_imp; [|exact Ff]. intros a b [A1 A2]. cbn [fst snd]. split; [|congruence].
      apply vpar_face. eauto.
    + destruct (vnodes_eq L) as (En & Nd & H & _). destruct (mk_rv W r Ir) as [_ Hr]. eexists _, _. split; [exact En|]. split; [apply (p_nodes Br)|]. split; [exact Nd|]. split.
      * intros n' In'. apply H in In' as (f' & If' & Iv'). unfold f_of_r in If'. rewrite Kr in If'. apply in_map_iff in If' as (fd' & <- & If'). destruct (Forall2_in_l Ff If') as (fd & Ifd & [A1 A2]).
        destruct (Forall2_in_l (vin_fv A1) Iv') as (v & Iv & Ev). exists (id_of j MVERTEX v). split; [|apply vpar_node; eauto]. apply in_map. apply Hr. exists (fst fd). split; auto. apply in_map; auto.
      * intros n In_. apply in_map_iff in In_ as (v & <- & Iv). apply Hr in Iv as (f & If & Iv). apply in_map_iff in If as (fd & <- & If). destruct (Forall2_in_r Ff If) as (fd' & Ifd' & [A1 A2]).
        destruct (Forall2_in_r (vin_fv A1) Iv) as (v' & Iv' & Ev). exists v'. split; [|apply vpar_node; eauto]. apply H. exists (fst fd'). split; auto. unfold f_of_r. rewrite Kr. apply in_map; auto.
  - intros f' V. apply (child_valid C' bk_face (fk C') (rv_own RV) vall_f) in V. destruct (nth_error (x_vfaces x) f') as [[f vs]|] eqn:E; [|apply nth_error_None in E; lia].
    assert (If : In f (pvf x)) by (apply (in_map fst _ _ (nth_error_In _ _ E))). assert (Q : nth_error (pvf x) f' = Some f) by (apply nth_map_fst; eauto).
    exists (id_of j MFACE f). eexists _, _. split; [apply vpar_face; eauto|]. split; [apply vface_nodes_eq; auto|].
    split; [apply (p_fnodes (vid_f (pvf_in If)))|]. rewrite <- (map_id (k_fv m' f')). apply Forall2_map_lr. eapply Forall2_imp; [|exact (vin_fv Q)]. intros a b A. cbn beta in A |- *. apply vpar_node. exists b. auto.
  - intros K' i1 i2 p [-> | ->] P1 P2.
    + apply vpar_node in P1 as (v1 & E1 & ->), P2 as (v2 & E2 & Q). assert (v1 = v2). { apply (id_inj C bk_node I); auto; apply vpv_in; eapply nth_error_In; eauto. } subst v2.
      apply (proj1 (NoDup_nth_error (pv x)) (cv_v_once CV)); [eapply lt_of_nth; eauto|congruence].
    + apply vpar_face in P1 as (v1 & E1 & ->), P2 as (v2 & E2 & Q). assert (v1 = v2). { pose proof (vid_f (pvf_in (nth_error_In _ _ E1))) as B1. pose proof (vid_f (pvf_in (nth_error_In _ _ E2))) as B2. rewrite Q in B1. apply (behind_fun B1 B2). } subst v2.
      apply (proj1 (NoDup_nth_error (pvf x)) (cv_f_once CV)); [eapply lt_of_nth; eauto|congruence].
  - intros n. split.
    + intros (n' & _ & P). apply vpar_node in P as (v & E & ->). apply nth_error_In in E. apply (cv_v CV) in E as (f & If & Iv). apply (cv_f CV) in If as (r & Ir & Fr). destruct (Forall2_in_r F Ir) as (p & Ip & Br).
      exists p. eexists. split; auto. split; [apply (p_nodes Br)|]. apply in_map. apply (mk_rv W r (vsrc_in Ir)). eauto.
    + intros (p & ns & Ip & Es & In_). destruct (Forall2_in_l F Ip) as (r & Ir & Br). rewrite (p_nodes Br) in Es. injection Es as <-. apply in_map_iff in In_ as (v & <- & Iv). apply (mk_rv W r (vsrc_in Ir)) in Iv as (f & Ff & Iv).
      assert (Ipv : In v (pv x)). { apply (cv_v CV). exists f. split; auto. apply (cv_f CV). eauto. } apply In_nth_error in Ipv as [n' En]. exists n'. split; [|apply vpar_node; eauto].
      apply (child_valid C' bk_node I (rv_own RV) vall_n). apply lt_of_nth in En. unfold pv in En. rewrite map_length in En. auto.
  - intros g. split.
    + intros (n' & _ & P). apply vpar_face in P as (f & E & ->). apply nth_error_In in E. apply (cv_f CV) in E as (r & Ir & Fr). destruct (Forall2_in_r F Ir) as (p & Ip & Br).
      exists p. eexists. split; auto. split; [apply (p_faces Br)|]. rewrite map_map. cbn [fst]. apply in_map_iff in Fr as (fd & <- & Ied). apply in_map_iff. exists fd. auto.
    + intros (p & ns & Ip & Es & In_). destruct (Forall2_in_l F Ip) as (r & Ir & Br). rewrite (p_faces Br) in Es. injection Es as <-. rewrite map_map in In_. cbn [fst] in In_. apply in_map_iff in In_ as (fd & <- & Ied).
      assert (Ipf : In (fst fd) (pvf x)). { apply (cv_f CV). exists r. split; auto. apply in_map; auto. } apply In_nth_error in Ipf as [n' En]. exists n'. split; [|apply vpar_face; eauto].
      apply (child_valid C' bk_face (fk C') (rv_own RV) vall_f). apply lt_of_nth in En. unfold pvf in En. rewrite map_length in En. auto.
  - intros n' n v P Bv. apply vpar_node in P as (v' & E & ->). pose proof (behind_of C bk_node I (vpv_in (nth_error_In _ _ E))) as Bv'. cbn [mkind_of] in Bv'. pose proof (behind_fun Bv Bv'). subst v'. apply nth_map_fst in E as [p E]. rewrite nth_error_map, E. cbn. f_equal.
    apply (cv_xyz CV (nth_error_In _ _ E)).
Qed.
End Volume.

(** ** C93 *)
(** a volume extracted from the cells [ids] of the 3D mesh [j], and the mesh object made of it *)
Record volume_extracted (MAXPF3 MAXPV2 : nat) (m : mstk) (j : jmesh) (X : nat -> xyz) (ids : list nat) (x : xmesh) (j' : jmesh) : Prop := {
  ve_run : exists src s, sources_of_ids j CELL ids = Ok src /\ extract_mstk_mesh MAXPF3 MAXPV2 m X false (kind_to_mtype m CELL) false src = Ok s /\ x_mesh s = x;
  ve_new : exists m' edges rcv, realises_volume x m' /\ constructed true false true edges m' rcv j' }.
Definition volume_mesh (edges : bool) (m : mstk) (rcv : received) (j : jmesh) : Prop := mstk_mesh m /\ constructed true false true edges m rcv j /\ k_dim m = 3.
(** the cell fits MSTK's local arrays *)
Definition fits (MAXPF3 MAXPV2 : nat) (j : jmesh) (p : nat) : Prop :=
  forall fs, cell_faces j false p = Ok fs -> length fs <= MAXPF3 /\ forall f d ns, In (f, d) fs -> face_nodes j f = Ok ns -> length ns <= MAXPV2.
(** C93.  The extraction succeeds for any list of valid cell ids. *)
Theorem c93_extraction_succeeds : forall MAXPF3 MAXPV2 edges m rcv j X ids, volume_mesh edges m rcv j -> (forall p, In p ids -> valid j CELL p /\ fits MAXPF3 MAXPV2 j p) ->
  exists src s, sources_of_ids j CELL ids = Ok src /\ extract_mstk_mesh MAXPF3 MAXPV2 m X false (kind_to_mtype m CELL) false src = Ok s /\ Forall2 (behind j CELL) ids src /\ copied_volume m X src (x_mesh s).
Proof.
  intros MAXPF3 MAXPV2 edges m rcv j X ids (W & C & D3) V. destruct (sources_ok C bk_cell I (fun p I => proj1 (V p I))) as (src & E & F).
  assert (Ek : kind_to_mtype m CELL = MREGION) by (unfold kind_to_mtype, cell_kind; rewrite D3; auto).
  destruct (@extract_volume MAXPF3 MAXPV2 m X false src eq_refl) as (s & Es & CV & _).
  { intros r Ir. destruct (Forall2_in_r F Ir) as (p & Ip & Bp). destruct (V p Ip) as [_ Fi]. destruct (Fi _ (p_faces W C D3 Bp)) as [L1 L2]. rewrite map_length in L1. split; auto. intros f If. apply in_map_iff in If as (fd & <- & If).
    assert (Q : behind j FACE (id_of j MFACE (fst fd)) (fst fd)). { apply (vid_f C D3). apply (mk_rf W r (fst fd)); [apply (vsrc_in C D3 F Ir)|apply in_map; auto]. }
    specialize (L2 (id_of j MFACE (fst fd)) (dz (snd fd)) _ (in_map (fun fd => (id_of j MFACE (fst fd), dz (snd fd))) _ _ If) (p_fnodes W C D3 Q)). rewrite map_length in L2. auto. }
  exists src, s. rewrite Ek. split; [|split; [|split]]; auto. unfold sources_of_ids. rewrite (mj_mesh (constructed_made C)), Ek. rewrite (vm_cell D3) in E. auto.
Qed.
Lemma vrun_inv MAXPF3 MAXPV2 edges m rcv j X ids x j' : volume_mesh edges m rcv j -> (forall p, In p ids -> valid j CELL p /\ fits MAXPF3 MAXPV2 j p) -> volume_extracted MAXPF3 MAXPV2 m j X ids x j' ->
  exists src m' edges' rcv', Forall2 (behind j CELL) ids src /\ copied_volume m X src x /\ realises_volume x m' /\ constructed true false true edges' m' rcv' j'.
Proof.
  intros S V [(src & s & E1 & E2 & <-) (m' & edges' & rcv' & RV & C')]. destruct (@c93_extraction_succeeds MAXPF3 MAXPV2 _ _ _ _ X ids S V) as (src' & s' & E1' & E2' & F & CV).
  assert (src' = src) by congruence. subst src'. assert (s' = s) by congruence. subst s'. exists src, m', edges', rcv'. auto.
Qed.
Section Theorems.
Variables (MAXPF3 MAXPV2 : nat) (edges : bool) (m : mstk) (rcv : received) (j : jmesh) (X : nat -> xyz) (ids : list nat) (x : xmesh) (j' : jmesh).
Hypothesis (S : volume_mesh edges m rcv j) (V : forall p, In p ids -> valid j CELL p /\ fits MAXPF3 MAXPV2 j p) (E : volume_extracted MAXPF3 MAXPV2 m j X ids x j').
(** C93.  One cell per id, in the order of the list, with that id as parent; its faces are copies of the parent's, in the same order and with the same directions; its nodes
    are the copies of the parent's nodes, each once. *)
Theorem c93_cells :
  entities j' CELL TYPE_ALL = seq 0 (length ids) /\
  forall i p, nth_error ids i = Some p -> parent j x j' CELL i p /\
     (exists fs' fs, cell_faces j' false i = Ok fs' /\ cell_faces j false p = Ok fs /\ Forall2 (fun a b => parent j x j' FACE (fst a) (fst b) /\ snd a = snd b) fs' fs) /\
     (exists ns' ns, cell_nodes j' i = Ok ns' /\ cell_nodes j p = Ok ns /\ NoDup ns' /\ (forall n', In n' ns' -> exists n, In n ns /\ parent j x j' NODE n' n) /\ (forall n, In n ns -> exists n', In n' ns' /\ parent j x j' NODE n' n)).
Proof. destruct (vrun_inv S V E) as (src & m' & edges' & rcv' & F & CV & RV & C'). destruct S as (W & C & D3). destruct (volume_ok W C D3 F CV RV C') as (H1 & H2 & _). auto. Qed.
(** C93.  A face of the new mesh has copies of the nodes of its parent, in the same order. *)
Theorem c93_faces : forall f', valid j' FACE f' ->
  exists f ns' ns, parent j x j' FACE f' f /\ face_nodes j' f' = Ok ns' /\ face_nodes j f = Ok ns /\ Forall2 (parent j x j' NODE) ns' ns.
Proof. destruct (vrun_inv S V E) as (src & m' & edges' & rcv' & F & CV & RV & C'). destruct S as (W & C & D3). destruct (volume_ok W C D3 F CV RV C') as (_ & _ & H & _). auto. Qed.
(** C93.  Nothing is copied twice - faces shared by two chosen cells are shared by their copies - and exactly what the chosen cells have is copied. *)
Theorem c93_no_more_no_less :
  (forall K' i1 i2 p, K' = NODE \/ K' = FACE -> parent j x j' K' i1 p -> parent j x j' K' i2 p -> i1 = i2) /\
  (forall n, (exists n', valid j' NODE n' /\ parent j x j' NODE n' n) <-> exists p ns, In p ids /\ cell_nodes j p = Ok ns /\ In n ns) /\
  (forall f, (exists f', valid j' FACE f' /\ parent j x j' FACE f' f) <-> exists p fs, In p ids /\ cell_faces j false p = Ok fs /\ In f (map fst fs)).
Proof. destruct (vrun_inv S V E) as (src & m' & edges' & rcv' & F & CV & RV & C'). destruct S as (W & C & D3). destruct (volume_ok W C D3 F CV RV C') as (_ & _ & _ & H1 & H2 & H3 & _). auto. Qed.
(** C93.  A node of the new mesh lies where its parent lies. *)
Theorem c93_coordinates : forall n' n v, parent j x j' NODE n' n -> behind j NODE n v -> nth_error (map snd (x_verts x)) n' = Some (X v).
Proof. destruct (vrun_inv S V E) as (src & m' & edges' & rcv' & F & CV & RV & C'). destruct S as (W & C & D3). destruct (volume_ok W C D3 F CV RV C') as (_ & _ & _ & _ & _ & _ & H). auto. Qed.
(** Finding: the parent of an edge is not recorded; every edge of the new mesh claims edge 0 as its parent *)
Theorem c93_edge_parents_refuted : forall e p, parent j x j' EDGE e p -> p = 0.
Proof. destruct (vrun_inv S V E) as (src & m' & edges' & rcv' & F & CV & RV & C'). intros e p. apply (vpar_edge CV). Qed.
(** Finding: a repeated id gives the same cell twice, and the result is not a mesh *)
Theorem c93_repeated_id_refuted : (forall i p, nth_error ids i = Some p -> exists fs, cell_faces j false p = Ok fs /\ fs <> []) -> NoDup ids.
Proof.
  intros Ne. destruct (vrun_inv S V E) as (src & m' & edges' & rcv' & F & CV & RV & C'). destruct S as (W & C & D3). apply NoDup_nth_error. intros i i' Li Q. destruct (nth_error ids i) as [p|] eqn:E1; [|apply nth_error_None in E1; lia]. symmetry in Q.
  destruct (vsrc_at C D3 F CV RV E1) as (r & fs & E2 & B1 & _ & X1 & F1 & K1), (vsrc_at C D3 F CV RV Q) as (r' & fs' & E2' & B1' & _ & X1' & F1' & K1'). pose proof (behind_fun B1 B1'). subst r'.
  destruct (Ne _ _ E1) as (l0 & El & Nl). rewrite (p_faces W C D3 B1) in El. injection El as <-. destruct (k_rf m r) as [|[f d] t]; [exfalso; apply Nl; reflexivity|].
  inversion F1 as [|[a da] ? l ? [A1 A2] F1r]; subst. inversion F1' as [|[b db] ? l' ? [B2 B3] F1r']; subst. cbn [fst snd] in *. assert (a = b). { apply (proj1 (NoDup_nth_error (pvf x)) (cv_f_once CV)); [apply (lt_of_nth A1)|congruence]. } subst b.
  assert (Hi : In i (k_all m' MREGION)) by (rewrite (rv_r RV); apply in_seq; apply lt_of_nth in X1; lia). assert (Hi' : In i' (k_all m' MREGION)) by (rewrite (rv_r RV); apply in_seq; apply lt_of_nth in X1'; lia).
  assert (Ia : In a (k_all m' MFACE)). { apply (mk_rf (rv_mesh RV) i a Hi). unfold f_of_r. rewrite <- H. left; auto. }
  assert (S1 : k_side m' a (if d then 0 else 1) = Some i) by (apply (mk_side (rv_mesh RV)); auto; split; auto; rewrite <- H; left; congruence).
  assert (S2 : k_side m' a (if d then 0 else 1) = Some i') by (apply (mk_side (rv_mesh RV)); auto; split; auto; rewrite <- H0; left; congruence). congruence.
Qed.
End Theorems.

(** ** Witness: the two cells of a mesh, in the other order *)
(** the edges MSTK makes for faces given by vertices: one per pair of vertices, in the direction of the first face that needs it *)
Definition find_edge (es : list (nat * nat)) (a b : nat) : option (nat * bool) :=
  match find (fun n => let e := nth n es (0, 0) in (fst e =? a) && (snd e =? b) || (fst e =? b) && (snd e =? a)) (seq 0 (length es)) with
  | Some n => Some (n, fst (nth n es (0, 0)) =? a) | None => None end.
Definition made_edges (x : xmesh) : list (nat * nat) :=
  fold_left (fun es ab => match find_edge es (fst ab) (snd ab) with Some _ => es | None => es ++ [ab] end) (flat_map (fun f => Geometry_spec.edges (snd f)) (x_vfaces x)) [].
Definition volume_mesh_of (x : xmesh) : mstk :=
  let es := made_edges x in
  mesh_of 3 (fun k => match k with MVERTEX => seq 0 (length (x_verts x)) | MEDGE => seq 0 (length es) | MFACE => seq 0 (length (x_vfaces x)) | MREGION => seq 0 (length (x_regs x)) end)
    (fun _ _ => PINTERIOR) (fun _ h => S h) (fun n => nth n es (0, 0))
    (fun n => map (fun ab => match find_edge es (fst ab) (snd ab) with Some e => e | None => (0, true) end) (Geometry_spec.edges (snd (nth n (x_vfaces x) (0, [])))))
    (fun n => snd (nth n (x_regs x) (0, []))).
Definition X0 : nat -> xyz := fun _ => (0, 0, 0)%R.
Definition hx : xmesh := match extract_mstk_mesh 12 10 hp_mesh X0 false MREGION false [2; 1] with Ok s => x_mesh s | _ => no_xmesh end.
Lemma hx_ok : exists s, extract_mstk_mesh 12 10 hp_mesh X0 false MREGION false [2; 1] = Ok s /\ x_mesh s = hx.
Proof. unfold hx. destruct (extract_mstk_mesh 12 10 hp_mesh X0 false MREGION false [2; 1]) as [s| | | |] eqn:E; [eauto|exfalso; vm_compute in E; discriminate E..]. Qed.
Lemma hx_vfaces : exists l, x_vfaces hx = l /\ forall n f vs, nth_error l n = Some (f, vs) -> k_fv (volume_mesh_of hx) n = vs.
Proof.
  eexists. split; [vm_compute; reflexivity|]. intros n f vs E. do 10 (destruct n as [|n]; [vm_compute in E; injection E as <- <-; vm_compute; reflexivity|]). destruct n; discriminate E.
Qed.
Lemma hx_realised : realises_volume hx (volume_mesh_of hx).
Proof.
  constructor; try reflexivity.
  - apply mesh_check_ok. vm_compute. reflexivity.
  - discriminate.
  - destruct hx_vfaces as (l & -> & H). exact H.
  - intros n r fs E. transitivity (snd (nth n (x_regs hx) (0, []))); [reflexivity|]. rewrite (nth_error_nth _ _ _ E). reflexivity.
Qed.
Lemma hps_volume : volume_mesh true hp_mesh hp_rcv hps_j.
Proof. split; [exact hp_is_mesh|]. split; [exact hps_constructed|reflexivity]. Qed.
Definition fits_b (a b : nat) (j : jmesh) (p : nat) : bool :=
  match cell_faces j false p with Ok fs => (length fs <=? a) && forallb (fun fd => match face_nodes j (fst fd) with Ok ns => length ns <=? b | _ => true end) fs | _ => true end.
Lemma fits_b_ok a b j p : fits_b a b j p = true -> fits a b j p.
Proof.
  unfold fits_b, fits. intros H fs E. rewrite E in H. apply Bool.andb_true_iff in H as [H1 H2]. apply Nat.leb_le in H1. split; auto. intros f d ns I En. rewrite forallb_forall in H2. specialize (H2 _ I). cbn [fst] in H2. rewrite En in H2. apply Nat.leb_le; auto.
Qed.
Lemma hps_fits : forall p, In p [1; 0] -> valid hps_j CELL p /\ fits 12 10 hps_j p.
Proof. intros p [<- |[<- |[]]]; (split; [vm_compute; tauto|apply fits_b_ok; vm_compute; reflexivity]). Qed.
Definition hx_j : jmesh := match construct true false true true (volume_mesh_of hx) (fun _ _ => (0, 0)) with Ok j => j | _ => ex_j end.
Example c93_witness : volume_mesh true hp_mesh hp_rcv hps_j /\ (forall p, In p [1; 0] -> valid hps_j CELL p /\ fits 12 10 hps_j p) /\ volume_extracted 12 10 hp_mesh hps_j X0 [1; 0] hx hx_j /\
  parent hps_j hx hx_j CELL 0 1 /\ cell_faces hx_j false 0 = Ok [(0, (-1)%Z); (1, 1%Z); (2, 1%Z); (3, 1%Z); (4, 1%Z)] /\ parent hps_j hx hx_j FACE 1 8 /\
  valid hx_j EDGE 3 /\ parent hps_j hx hx_j EDGE 3 0.
Proof.
  split; [exact hps_volume|]. split; [exact hps_fits|]. split.
  - constructor.
    + destruct hx_ok as (s & E & Q). exists [2; 1], s. split; [vm_compute; reflexivity|]. split; auto.
    + exists (volume_mesh_of hx), true, (fun _ _ => (0, 0)). split; [exact hx_realised|]. split; [exact (mk_nodup (rv_mesh hx_realised))|]. apply is_ok_eq. vm_compute. reflexivity.
  - split; [vm_compute; reflexivity|]. split; [vm_compute; reflexivity|]. split; [vm_compute; reflexivity|]. split; [vm_compute; tauto|vm_compute; reflexivity].
Qed.
Print Assumptions c93_extraction_succeeds.
Print Assumptions c93_cells.
Print Assumptions c93_faces.
Print Assumptions c93_no_more_no_less.
Print Assumptions c93_coordinates.
Print Assumptions c93_edge_parents_refuted.
Print Assumptions c93_repeated_id_refuted.
