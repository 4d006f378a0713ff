(** The queries of a serial mesh, and of a mesh extracted from it. *)
From Coq Require Import Permutation Reals.
From Verif Require Import Base Loop Defs Cache Cache_proofs Geometry_spec Props_InPolygon MstkMesh MstkMesh_spec MstkMesh_proofs MstkMesh_proofs2 Props_MstkIds MstkExtract MstkExtract_spec MstkExtract_proofs.
Set Implicit Arguments. Unset Strict Implicit.

Definition dz (d : bool) : Z := if d then 1%Z else (-1)%Z.
Lemma seq_inv n i h : nth_error (seq 0 n) i = Some h <-> i = h /\ i < n.
Proof.
  split.
  - intros E. assert (L : i < n). { rewrite <- (seq_length n 0). apply nth_error_Some. congruence. } apply nth_error_nth with (d := 0) in E. rewrite seq_nth in E by auto. cbn in E. auto.
  - intros [<- L]. rewrite (nth_error_nth' (seq 0 n) 0) by (rewrite seq_length; auto). rewrite seq_nth; auto.
Qed.
Section Serial.
Variables (edges : bool) (m : mstk) (rcv : received) (j : jmesh).
Hypothesis W : mstk_mesh m.
Hypothesis C : constructed true false true edges m rcv j.
Let M : made true false true edges m rcv j := constructed_made C.
Lemma fk : has_kind j FACE. Proof. cbn. apply (mj_faces M). Qed.
Lemma ek : edges = true -> has_kind j EDGE. Proof. cbn. rewrite (mj_edges M). auto. Qed.
Lemma no_flip f : flip j f = false.
Proof.
  unfold flip. destruct (mj_ff M eq_refl) as [E _]. unfold init_dirs in E. injection E as <-. generalize (length (k_all m (face_kind m))). intros n. revert f. induction n; intros [|f]; auto. apply IHn.
Qed.
Lemma rd_eflip e h : edges = true -> behind j EDGE e h -> rd (edgeflip j) e = Ok false.
Proof.
  intros He E. destruct (mj_ef M He) as [Q _]. unfold init_dirs in Q. injection Q as <-. apply rd_Ok. apply nth_error_repeat.
  destruct (mj_kind M bk_edge (ek He)) as [_ T _]. unfold behind in E. rewrite T in E. rewrite (mj_mesh M), (mj_bg M) in E. pose proof (Permutation_length (groups_perm m false bk_edge)) as PL. cbn [mkind_of] in PL. rewrite <- PL. apply nth_error_Some. congruence.
Qed.
Lemma cell_faces_serial c h : behind j CELL c h -> cell_faces j false c = Ok (map (fun fd => (id_of j (face_kind m) (fst fd), dz (snd fd))) (cfaces_of m h)).
Proof. intros E. rewrite (cell_faces_ok W C eq_refl E). f_equal. apply map_ext. intros fd. unfold jface. rewrite no_flip. reflexivity. Qed.
Lemma face_nodes_serial f h : behind j FACE f h -> face_nodes j f = Ok (map (id_of j MVERTEX) (fverts m h)).
Proof. intros E. destruct (face_nodes_ok W C eq_refl E) as (vs & -> & _ & V & _). rewrite (V (no_flip f)). auto. Qed.
Lemma face_edges_serial f h : k_dim m = 3 -> edges = true -> behind j FACE f h -> face_edges j f = Ok (map (fun ed => (id_of j MEDGE (fst ed), dz (snd ed))) (k_fe m h)).
Proof.
  intros D He E. unfold face_edges, asserting. rewrite (mj_faces M), (mj_edges M), He. cbn [table] in *. pose proof (proj2 (rd_table j FACE f h) E) as R. cbn [table] in R. rewrite R. cbn [bind]. rewrite (mj_mesh M), D. cbn [Nat.eqb].
  destruct (behind_in C bk_face fk E) as [Ih _]. unfold mkind_of, face_kind in Ih. rewrite D in Ih. cbn [Nat.eqb] in Ih. apply mapM_map'. intros ed I.
  assert (Ie : In (fst ed) (k_all m MEDGE)) by (apply (mk_fe W h (fst ed) Ih); apply in_map; auto).
  pose proof (rd_eflip He (behind_of C bk_edge (ek He) Ie)) as Q. cbn [mkind_of] in Q. rewrite Q. reflexivity.
Qed.
Lemma edge_nodes_serial e h : edges = true -> behind j EDGE e h -> edge_nodes j e = Ok (id_of j MVERTEX (fst (k_ev m h)), id_of j MVERTEX (snd (k_ev m h))).
Proof.
  intros He E. unfold edge_nodes, asserting. rewrite (mj_edges M), He. pose proof (proj2 (rd_table j EDGE e h) E) as R. cbn [table] in R. rewrite R. cbn [bind]. rewrite (rd_eflip He E). cbn [bind]. rewrite (mj_mesh M). reflexivity.
Qed.
(** the entities a surface is made from *)
Definition facet (K : entity_kind) : entity_kind := match K with CELL => FACE | _ => EDGE end.
Lemma skind K : surface_kind m K -> base_kind K /\ base_kind (facet K) /\ mkind_of m K = MFACE /\ mkind_of m (facet K) = MEDGE /\ has_kind j K /\ ((K = FACE -> edges = true) -> has_kind j (facet K)).
Proof.
  intros [[-> D]|[-> D]]; unfold mkind_of, cell_kind, face_kind, facet; rewrite D; cbn [Nat.eqb].
  - split; [apply bk_cell|]. split; [apply bk_face|]. split; auto. split; auto. split; [exact I|]. intros _. exact fk.
  - split; [apply bk_face|]. split; [apply bk_edge|]. split; auto. split; auto. split; [exact fk|]. intros H. apply ek. auto.
Qed.
Lemma snodes_ok K p h : surface_kind m K -> behind j K p h -> snodes j K p = Ok (map (id_of j MVERTEX) (k_fv m h)).
Proof.
  intros [[-> D]|[-> D]] E; cbn [snodes].
  - rewrite (cell_nodes_ok C E). unfold cverts. rewrite D. reflexivity.
  - rewrite (face_nodes_serial E). unfold fverts. rewrite D. reflexivity.
Qed.
Lemma sfaces_ok K p h : surface_kind m K -> (K = FACE -> edges = true) -> behind j K p h -> sfaces j K p = Ok (map (fun ed => (id_of j MEDGE (fst ed), dz (snd ed))) (k_fe m h)).
Proof.
  intros [[-> D]|[-> D]] He E; cbn [sfaces].
  - rewrite (cell_faces_serial E). unfold cfaces_of, face_kind. rewrite D. reflexivity.
  - apply face_edges_serial; auto.
Qed.
Lemma sface_nodes_ok K f h : surface_kind m K -> (K = FACE -> edges = true) -> behind j (facet K) f h -> sface_nodes j K f = Ok [id_of j MVERTEX (fst (k_ev m h)); id_of j MVERTEX (snd (k_ev m h))].
Proof.
  intros [[-> D]|[-> D]] He E; cbn [sface_nodes facet] in *.
  - rewrite (face_nodes_serial E). unfold fverts. rewrite D. reflexivity.
  - rewrite (edge_nodes_serial (He eq_refl) E). reflexivity.
Qed.
End Serial.

(** the entity of an id, in any mesh *)
Section Ids.
Variables (serial bg faces edges : bool) (m : mstk) (rcv : received) (j : jmesh) (K : entity_kind).
Hypothesis C : constructed serial bg faces edges m rcv j.
Hypothesis (B : base_kind K) (Hk : has_kind j K).
Lemma from_id_ok i h : from_id j (mkind_of m K) i = Ok h <-> behind j K i h.
Proof.
  pose proof (constructed_made C) as M. destruct (c85_one_entity_per_id C B Hk) as (_ & Ha & Hid & _). unfold from_id. rewrite (mj_mesh M). set (k := mkind_of m K) in *.
  assert (N : forall h, In h (k_all m k) -> j_ids j k h = i + 1 <-> behind j K i h).
  { intros h' I'. destruct (Ha _ I') as [i' E']. destruct (mj_kind M B Hk) as [Nu Ta _]. rewrite (mj_mesh M), (mj_bg M) in *. fold k in Nu. unfold behind in *. rewrite Ta in *.
    pose proof (Nu _ _ E') as Q. split; intros E.
    - replace i with i' by lia. auto.
    - rewrite (Nu _ _ E). lia. }
  split.
  - destruct (find _ _) as [h'|] eqn:F; [|discriminate]. intros Q. injection Q as <-. apply find_some in F as [F1 F2]. apply N; auto. apply Nat.eqb_eq; auto.
  - intros E. destruct (Hid _ _ E) as [I _]. destruct (find (fun h0 => j_ids j k h0 =? i + 1) (k_all m k)) as [h'|] eqn:F.
    + apply find_some in F as [F1 F2]. apply Nat.eqb_eq, N in F2; auto. f_equal. apply (behind_fun F2 E).
    + exfalso. pose proof (find_none _ _ F _ I) as Q. cbn beta in Q. apply Nat.eqb_neq in Q. apply Q. apply N; auto.
Qed.
Lemma from_id_none i : ~ valid j K i -> from_id j (mkind_of m K) i = UB.
Proof.
  intros V. destruct (from_id j (mkind_of m K) i) as [h| | | |] eqn:E; auto; try (unfold from_id in E; destruct (find _ _); discriminate).
  exfalso. apply V. apply from_id_ok in E. destruct (c85_one_entity_per_id C B Hk) as (Hv & _). apply Hv. eauto.
Qed.
Lemma sources_ok ids : (forall p, In p ids -> valid j K p) -> exists src, mapM (from_id j (mkind_of m K)) ids = Ok src /\ Forall2 (behind j K) ids src.
Proof.
  induction ids as [|p ids IH]; intros V; [exists []; split; [reflexivity|constructor]|]. destruct IH as (src & E & F); [intros; apply V; right; auto|].
  destruct (c85_one_entity_per_id C B Hk) as (Hv & _). destruct (proj1 (Hv p)) as [h Eh]. { apply V. left; auto. } exists (h :: src). cbn [mapM]. rewrite (proj2 (from_id_ok p h) Eh). cbn [bind]. rewrite E. cbn [bind].
  split; auto.
Qed.
End Ids.

(** the new mesh: ids are the order of the entities *)
Section Child.
Variables (faces edges : bool) (m : mstk) (rcv : received) (j : jmesh) (K : entity_kind) (n : nat).
Hypothesis C : constructed true false faces edges m rcv j.
Hypothesis (B : base_kind K) (Hk : has_kind j K) (Own : forall k h, k_ptype m k h <> PGHOST) (All : k_all m (mkind_of m K) = seq 0 n).
Lemma child_table : table j K = seq 0 n.
Proof.
  pose proof (constructed_made C) as M. destruct (mj_kind M B Hk) as [_ T _]. rewrite T, (mj_mesh M), (mj_bg M).
  assert (G : forall k, ghost_list m k = []). { intros k. apply filter_none. intros x _. pose proof (@Own k x). destruct (k_ptype m k x); auto. congruence. }
  assert (O : forall k, owned_list m k = k_all m k). { intros k. unfold owned_list. induction (k_all m k) as [|x l IH]; auto. cbn [filter]. pose proof (@Own k x). destruct (k_ptype m k x); try congruence; cbn; rewrite IH; auto. }
  destruct B as [-> |[-> |[-> | ->]]]; cbn [groups all_of fst snd]; unfold all_of; cbn [fst snd]; rewrite ?G, ?O, !app_nil_r; auto.
  transitivity (owned_list m (cell_kind m)); [|rewrite O; auto]. unfold owned_cells, owned_list. apply filter_ext. intros h. unfold is_bghost. cbn. rewrite Bool.andb_true_r. auto.
Qed.
Lemma child_behind i h : behind j K i h <-> i = h /\ i < n.
Proof. unfold behind. rewrite child_table. apply seq_inv. Qed.
Lemma child_id i : i < n -> id_of j (mkind_of m K) i = i.
Proof. intros L. destruct (c85_one_entity_per_id C B Hk) as (_ & _ & Hid & _). apply (Hid i i). apply child_behind; auto. Qed.
Lemma child_valid i : valid j K i <-> i < n.
Proof. destruct (c85_one_entity_per_id C B Hk) as (Hv & _). unfold valid. rewrite Hv. split; [intros [h E]; apply child_behind in E; tauto|intros L; exists i; apply child_behind; auto]. Qed.
Lemma child_all : entities j K TYPE_ALL = seq 0 n.
Proof. destruct (c85_ids_by_type C B Hk) as (a & b & c & _ & _ & _ & E & L). rewrite E, L, All, seq_length. auto. Qed.
End Child.
