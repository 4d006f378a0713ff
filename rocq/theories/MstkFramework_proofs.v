(** The queries of an MSTK mesh as a connectivity. *)
From Coq Require Import Permutation.
From Verif Require Import Base Loop Defs Factory Cache Cache_proofs Cache_spec MstkMesh MstkMesh_spec MstkMesh_proofs MstkMesh_examples Props_MstkIds MstkMesh_proofs2 MstkWorld_proofs Props_MstkAdj MstkFramework_spec.
From Verif Require Import Geometry_spec.
From Verif Require Geometry_proofs Props_InPolygon.
Set Implicit Arguments. Unset Strict Implicit.

Section F.
Variables (serial : bool) (m : mstk) (rcv : received) (j : jmesh).
Hypothesis W : mstk_mesh m.
Hypothesis C : constructed serial false true true m rcv j.
Let M : made serial false true true m rcv j := constructed_made C.
Let Jm : j_mesh j = m := mj_mesh M.
Lemma hkf : has_kind j FACE. Proof. simpl. apply (mj_faces M). Qed.
Lemma hke : has_kind j EDGE. Proof. simpl. apply (mj_edges M). Qed.
Lemma hk_any K : base_kind K -> has_kind j K.
Proof. intros [->|[->|[->| ->]]]; [exact I|exact hke|exact hkf|exact I]. Qed.
(** ** ids *)
Lemma no_bghost K : base_kind K -> entities j K BOUNDARY_GHOST = [].
Proof.
  intros B. destruct (entities j K BOUNDARY_GHOST) as [|i l] eqn:E; auto. exfalso. assert (I : In i (entities j K BOUNDARY_GHOST)) by (rewrite E; left; auto).
  destruct (c85_ids_by_type C B (hk_any B)) as (no & ng & nb & E1 & E2 & E3 & E4 & E5). assert (Ia : In i (entities j K TYPE_ALL)) by (rewrite E3 in I; rewrite E4; apply in_seq in I; apply in_seq; lia).
  apply (valid_behind C i B (hk_any B)) in Ia as [h Eh]. apply (c85_lists_hold_the_type C B (hk_any B) Eh) in I; [|simpl; tauto]. simpl in I. destruct I as (_ & _ & Q & _). discriminate.
Qed.
Lemma ids_ok K : base_kind K -> exists no ng, entities j K PARALLEL_OWNED = seq 0 no /\ entities j K PARALLEL_GHOST = seq no ng /\ forall i, i < no + ng <-> exists h, behind j K i h.
Proof.
  intros B. destruct (c85_ids_by_type C B (hk_any B)) as (no & ng & nb & E1 & E2 & E3 & E4 & E5). exists no, ng. split; auto. split; auto. intros i. rewrite <- (valid_behind C i B (hk_any B)), E4, in_seq.
  rewrite (no_bghost B) in E3. destruct nb; [|discriminate]. lia.
Qed.
Local Notation t := (topo_of j).
Lemma lt_cells c : c < ncells t <-> exists h, behind j CELL c h.
Proof.
  destruct (ids_ok bk_cell) as (no & ng & E1 & E2 & E3). rewrite <- E3. pose proof (no_bghost bk_cell) as E4. unfold entities, list_of in *. unfold ncells, topo_of. cbn [cells_owned cells_ghost cells_bghost]. rewrite E1, E2, E4, !seq_length. simpl. lia.
Qed.
Lemma lt_nodes c : c < nnodes t <-> exists h, behind j NODE c h.
Proof. destruct (ids_ok bk_node) as (no & ng & E1 & E2 & E3). rewrite <- E3. unfold entities, list_of in *. unfold nnodes, topo_of. cbn [nodes_owned nodes_ghost]. rewrite E1, E2, !seq_length. lia. Qed.
Lemma lt_faces c : c < nfaces t <-> exists h, behind j FACE c h.
Proof. destruct (ids_ok bk_face) as (no & ng & E1 & E2 & E3). rewrite <- E3. unfold entities, list_of in *. unfold nfaces, topo_of. cbn [faces_owned faces_ghost]. rewrite E1, E2, !seq_length. lia. Qed.
Lemma lt_edges c : c < nedges t <-> exists h, behind j EDGE c h.
Proof. destruct (ids_ok bk_edge) as (no & ng & E1 & E2 & E3). rewrite <- E3. unfold entities, list_of in *. unfold nedges, topo_of. cbn [edges_owned edges_ghost]. rewrite E1, E2, !seq_length. lia. Qed.
Lemma numbered_ok : numbered t.
Proof.
  constructor.
  - destruct (ids_ok bk_cell) as (no & ng & E1 & E2 & _). pose proof (no_bghost bk_cell) as E3. unfold entities, list_of in *. unfold cells_all, ncells, topo_of. cbn [cells_owned cells_ghost cells_bghost]. rewrite E1, E2, E3, !seq_length. cbn [length]. rewrite app_nil_r, Nat.add_0_r, seq_app. apply Permutation_refl.
  - destruct (ids_ok bk_node) as (no & ng & E1 & E2 & _). unfold entities, list_of in *. unfold nodes_all, nnodes, topo_of. cbn [nodes_owned nodes_ghost]. rewrite E1, E2, !seq_length, seq_app. apply Permutation_refl.
  - destruct (ids_ok bk_face) as (no & ng & E1 & E2 & _). unfold entities, list_of in *. unfold faces_all, nfaces, topo_of. cbn [faces_owned faces_ghost]. rewrite E1, E2, !seq_length, seq_app. apply Permutation_refl.
  - destruct (ids_ok bk_edge) as (no & ng & E1 & E2 & _). unfold entities, list_of in *. unfold edges_all, nedges, topo_of. cbn [edges_owned edges_ghost]. rewrite E1, E2, !seq_length, seq_app. apply Permutation_refl.
Qed.
(** ** edges *)
Definition eflip (e : nat) : bool := nth e (edgeflip j) false.
Lemma rd_eflip e h : behind j EDGE e h -> rd (edgeflip j) e = Ok (eflip e).
Proof.
  intros E. apply rd_Ok. unfold eflip. apply nth_error_nth'. destruct (mj_ef M eq_refl) as [_ L]. rewrite L. destruct (mj_kind M bk_edge hke) as [_ T _]. pose proof (Permutation_length (Permutation_sym (groups_perm m false bk_edge))) as Lg. cbn [mkind_of] in Lg. rewrite Lg.
  cbn [table] in T. rewrite Jm, (mj_bg M) in T. rewrite <- T. apply nth_error_Some. unfold behind in E. cbn [table] in E. congruence.
Qed.
Definition pid (p : nat * nat) : nat * nat := (id_of j MVERTEX (fst p), id_of j MVERTEX (snd p)).
Lemma pid_swap p : pid (swap p) = swap (pid p). Proof. reflexivity. Qed.
Lemma edge_nodes_ok e h : behind j EDGE e h -> edge_nodes j e = Ok (if eflip e then swap (pid (k_ev m h)) else pid (k_ev m h)).
Proof.
  intros E. unfold edge_nodes, asserting. rewrite (mj_edges M), (rd_eflip E). apply rd_table in E. cbn [table] in E. rewrite E. cbn [bind]. rewrite Jm. destruct (eflip e); reflexivity.
Qed.
Definition jedge (ed : nat * bool) : nat * Z := (id_of j MEDGE (fst ed), dirz (snd ed) (eflip (id_of j MEDGE (fst ed)))).
Lemma face_edges_3 f h : k_dim m = 3 -> behind j FACE f h -> face_edges j f = Ok (map jedge (k_fe m h)).
Proof.
  intros D3 E. destruct (behind_in C bk_face hkf E) as [Ih _]. cbn [mkind_of] in Ih. unfold face_kind in Ih. rewrite D3 in Ih. cbn [Nat.eqb] in Ih.
  unfold face_edges, asserting. rewrite (mj_edges M), (mj_faces M). apply rd_table in E. cbn [table] in E. rewrite E. cbn [bind]. rewrite Jm, D3. cbn [Nat.eqb]. apply mapM_map'. intros ed I.
  assert (Ie : In (fst ed) (k_all m MEDGE)) by (apply (mk_fe W h); auto; apply in_map; auto). pose proof (rd_eflip (@behind_of _ _ _ _ _ _ C EDGE (fst ed) bk_edge hke Ie)) as R. cbn [mkind_of] in R. rewrite R. reflexivity.
Qed.
Lemma face_edge_2 f h : k_dim m = 2 -> behind j FACE f h <-> behind j EDGE f h.
Proof.
  intros D2. assert (Ek : mkind_of m FACE = mkind_of m EDGE) by (cbn [mkind_of]; unfold face_kind; rewrite D2; reflexivity). split; intros E.
  - destruct (behind_in C bk_face hkf E) as [Ih Ei]. rewrite Ek in *. rewrite <- Ei. apply (behind_of C bk_edge hke Ih).
  - destruct (behind_in C bk_edge hke E) as [Ih Ei]. rewrite <- Ek in *. rewrite <- Ei. apply (behind_of C bk_face hkf Ih).
Qed.
Lemma face_edges_2 f h : k_dim m = 2 -> behind j FACE f h -> face_edges j f = Ok [(f, 1%Z)].
Proof.
  intros D2 E. destruct (behind_in C bk_face hkf E) as [Ih Ei]. cbn [mkind_of] in Ei. unfold face_kind in Ei. rewrite D2 in Ei. cbn [Nat.eqb] in Ei.
  unfold face_edges, asserting. rewrite (mj_edges M), (mj_faces M). apply rd_table in E. cbn [table] in E. rewrite E. cbn [bind]. rewrite Jm, D2. cbn [Nat.eqb]. rewrite Ei. reflexivity.
Qed.
(** ** flags *)
Lemma flags_ok check k fl : init_dirs serial check m rcv (j_ids j) k = Ok fl -> (exists K, base_kind K /\ mkind_of m K = k) ->
  forall h, In h (k_all m k) -> nth (id_of j k h) fl false = negb serial && (is_pghost (k_ptype m k h) && reversed (rcv k h) (local_pair m k h)).
Proof.
  intros E (K & B & Ek) h Ih. subst k. pose proof (@hk_any K B) as Hk. assert (S : serial = true \/ serial = false) by (destruct serial; auto). destruct S as [S|S]; rewrite S in E; rewrite S; cbn [negb andb].
  - unfold init_dirs in E. injection E as <-. destruct (nth_in_or_default (id_of j (mkind_of m K) h) (repeat false (length (k_all m (mkind_of m K)))) false) as [Q|Q]; auto. apply repeat_spec in Q. auto.
  - unfold id_of. apply (flips_exact E); auto. intros a b Ia Ib Q. apply (@id_inj _ _ _ _ _ _ C K a b B Hk); auto.
Qed.
Lemma flip_ok h : In h (k_all m (face_kind m)) -> flip j (id_of j (face_kind m) h) = negb serial && (is_pghost (k_ptype m (face_kind m) h) && reversed (rcv (face_kind m) h) (local_pair m (face_kind m) h)).
Proof. intros Ih. destruct (mj_ff M eq_refl) as [E _]. apply (flags_ok E); auto. exists FACE. split; [apply bk_face|reflexivity]. Qed.
Lemma eflip_ok h : In h (k_all m MEDGE) -> eflip (id_of j MEDGE h) = negb serial && (is_pghost (k_ptype m MEDGE h) && reversed (rcv MEDGE h) (local_pair m MEDGE h)).
Proof. intros Ih. destruct (mj_ef M eq_refl) as [E _]. apply (flags_ok E); auto. exists EDGE. split; [apply bk_edge|reflexivity]. Qed.
Lemma flip_2 f h : k_dim m = 2 -> behind j FACE f h -> flip j f = eflip f.
Proof.
  intros D2 E. destruct (behind_in C bk_face hkf E) as [Ih Ei]. cbn [mkind_of] in *. pose proof (flip_ok Ih) as A. unfold face_kind in *. rewrite D2 in *. cbn [Nat.eqb] in *. rewrite Ei in A. rewrite A. pose proof (eflip_ok Ih) as B. rewrite Ei in B. auto.
Qed.
(** ** the connectivity *)
Local Notation sh := (api_shape j).
Lemma cfaces_eq c h : behind j CELL c h -> cfaces sh c = map (jface m j) (cfaces_of m h).
Proof. intros E. cbn [api_shape cfaces]. rewrite (cell_faces_ok W C eq_refl E). reflexivity. Qed.
Lemma cnodes_eq c h : behind j CELL c h -> cnodes sh c = map (id_of j MVERTEX) (cverts m h).
Proof. intros E. cbn [api_shape cnodes]. rewrite (cell_nodes_ok C E). reflexivity. Qed.
Lemma enodes_eq e h : behind j EDGE e h -> enodes sh e = if eflip e then swap (pid (k_ev m h)) else pid (k_ev m h).
Proof. intros E. cbn [api_shape enodes]. rewrite (edge_nodes_ok E). reflexivity. Qed.
Lemma fedges_eq3 f h : k_dim m = 3 -> behind j FACE f h -> fedges sh f = map jedge (k_fe m h).
Proof. intros D3 E. cbn [api_shape fedges]. rewrite (face_edges_3 D3 E). reflexivity. Qed.
Lemma fedges_eq2 f h : k_dim m = 2 -> behind j FACE f h -> fedges sh f = [(f, 1%Z)].
Proof. intros D2 E. cbn [api_shape fedges]. rewrite (face_edges_2 D2 E). reflexivity. Qed.
Lemma dirz_dir d fl : is_dir (dirz d fl). Proof. unfold is_dir, dirz. destruct d, fl; auto. Qed.
Lemma fst_jface l : map fst (map (jface m j) l) = map (id_of j (face_kind m)) (map fst l).
Proof. rewrite !map_map. reflexivity. Qed.
Lemma fst_jedge l : map fst (map jedge l) = map (id_of j MEDGE) (map fst l).
Proof. rewrite !map_map. reflexivity. Qed.
Lemma in_cface c h f d : behind j CELL c h -> In (f, d) (cfaces sh c) <-> exists g b, behind j FACE f g /\ In (g, b) (cfaces_of m h) /\ d = dirz b (flip j f).
Proof.
  intros E. rewrite (cfaces_eq E), in_map_iff. destruct (behind_in C bk_cell I E) as [Ih _]. cbn [mkind_of] in Ih. destruct (cfaces_ok W Ih) as [Hi _]. split.
  - intros ([g b] & Q & Ig). unfold jface in Q. cbn [fst snd] in Q. injection Q as Q1 Q2. exists g, b. rewrite Q1 in Q2. split; [|auto]. rewrite <- Q1. apply (@behind_of _ _ _ _ _ _ C FACE g bk_face hkf). apply Hi. exact (in_map fst _ _ Ig).
  - intros (g & b & Eg & Ig & ->). exists (g, b). split; auto. unfold jface. cbn [fst snd]. destruct (behind_in C bk_face hkf Eg) as [_ Ei]. cbn [mkind_of] in Ei. rewrite Ei. reflexivity.
Qed.
Lemma face_of_iff c h f : behind j CELL c h -> face_of sh c f <-> exists g, behind j FACE f g /\ In g (map fst (cfaces_of m h)).
Proof.
  intros E. unfold face_of. split.
  - intros If. apply in_map_iff in If as ([f' d] & Q & If). cbn [fst] in Q. subst f'. apply (in_cface _ _ E) in If as (g & b & Eg & Ig & _). exists g. split; auto. exact (in_map fst _ _ Ig).
  - intros (g & Eg & Ig). apply in_map_iff in Ig as ([g' b] & Q & Ig). cbn [fst] in Q. subst g'. apply (in_map fst _ (f, dirz b (flip j f))). apply (in_cface _ _ E). eauto.
Qed.
(** a face has one cell on either side *)
Lemma one_cell g a b d : In g (k_all m (face_kind m)) -> In a (k_all m (cell_kind m)) -> In b (k_all m (cell_kind m)) -> In (g, d) (cfaces_of m a) -> In (g, d) (cfaces_of m b) -> a = b.
Proof.
  intros Ig Ia Ib Da Db. unfold cell_kind, face_kind, cfaces_of in *. destruct (dim_cases W) as [[D3 D2]|[D3 D2]]; rewrite ?D3, ?D2 in *.
  - pose proof (proj2 (mk_side W g a d Ig) (conj Ia Da)) as X. pose proof (proj2 (mk_side W g b d Ig) (conj Ib Db)) as Y. congruence.
  - apply Nat.eqb_eq in D2. eapply (mk_2d W D2); eauto.
Qed.
Lemma opposite_ok : opposite_dirs t sh.
Proof.
  intros c1 c2 f d1 d2 L1 L2 Ne I1 I2. apply lt_cells in L1 as [h1 E1]. apply lt_cells in L2 as [h2 E2]. apply (in_cface _ _ E1) in I1 as (g1 & b1 & G1 & I1 & ->). apply (in_cface _ _ E2) in I2 as (g2 & b2 & G2 & I2 & ->).
  rewrite (behind_fun G2 G1) in I2. destruct (behind_in C bk_cell I E1) as [A1 Q1]. destruct (behind_in C bk_cell I E2) as [A2 Q2]. destruct (behind_in C bk_face hkf G1) as [Ag _]. cbn [mkind_of] in *.
  destruct (Bool.bool_dec b1 b2) as [->|Nb]; [exfalso; apply Ne; rewrite (one_cell Ag A1 A2 I1 I2) in Q1; congruence|]. unfold dirz. destruct b1, b2, (flip j f); auto; congruence.
Qed.
Lemma connectivity_ok : connectivity t sh.
Proof.
  constructor.
  - intros c f d L If. apply lt_cells in L as [h E]. apply (in_cface _ _ E) in If as (g & b & Eg & _ & ->). split; [apply lt_faces; eauto|apply dirz_dir].
  - intros c L. apply lt_cells in L as [h E]. rewrite (cfaces_eq E), fst_jface. destruct (behind_in C bk_cell I E) as [Ih _]. cbn [mkind_of] in Ih. destruct (cfaces_ok W Ih) as [Hi Nd]. apply (@map_id_nodup _ _ _ _ _ _ C FACE _ bk_face hkf Hi Nd).
  - intros f e d L Ie. apply lt_faces in L as [h E]. destruct (mk_dim W) as [D2|D3].
    + rewrite (fedges_eq2 D2 E) in Ie. destruct Ie as [Q|[]]. injection Q as <- <-. split; [|left; auto]. apply lt_edges. exists h. apply face_edge_2; auto.
    + rewrite (fedges_eq3 D3 E) in Ie. apply in_map_iff in Ie as (ed & Q & Ie). unfold jedge in Q. injection Q as <- <-. split; [|apply dirz_dir]. apply lt_edges. exists (fst ed).
      destruct (behind_in C bk_face hkf E) as [Ih _]. cbn [mkind_of] in Ih. unfold face_kind in Ih. rewrite D3 in Ih. apply (@behind_of _ _ _ _ _ _ C EDGE (fst ed) bk_edge hke). apply (mk_fe W h); auto. apply in_map; auto.
  - intros f L. apply lt_faces in L as [h E]. destruct (mk_dim W) as [D2|D3].
    + rewrite (fedges_eq2 D2 E). constructor; [intros []|constructor].
    + rewrite (fedges_eq3 D3 E), fst_jedge. destruct (behind_in C bk_face hkf E) as [Ih _]. cbn [mkind_of] in Ih. unfold face_kind in Ih. rewrite D3 in Ih. cbn [Nat.eqb] in Ih. apply (@map_id_nodup _ _ _ _ _ _ C EDGE _ bk_edge hke); [|apply (mk_fe_nodup W h Ih)].
      intros e Ie. apply (mk_fe W h); auto.
  - intros c1 c2 c3 f L1 L2 L3 F1 F2 F3. apply lt_cells in L1 as [h1 E1]. apply lt_cells in L2 as [h2 E2]. apply lt_cells in L3 as [h3 E3].
    apply (face_of_iff _ E1) in F1 as (g & Eg & F1). apply (face_of_iff _ E2) in F2 as (g2 & Eg2 & F2). apply (face_of_iff _ E3) in F3 as (g3 & Eg3 & F3). rewrite (behind_fun Eg2 Eg) in F2. rewrite (behind_fun Eg3 Eg) in F3. clear Eg2 Eg3.
    destruct (behind_in C bk_cell I E1) as [A1 Q1]. destruct (behind_in C bk_cell I E2) as [A2 Q2]. destruct (behind_in C bk_cell I E3) as [A3 Q3]. destruct (behind_in C bk_face hkf Eg) as [Ag _]. cbn [mkind_of] in *.
    apply in_map_iff in F1 as ([x1 b1] & X1 & F1). apply in_map_iff in F2 as ([x2 b2] & X2 & F2). apply in_map_iff in F3 as ([x3 b3] & X3 & F3). cbn [fst] in *. rewrite X1 in F1. rewrite X2 in F2. rewrite X3 in F3.
    destruct (Bool.bool_dec b1 b2) as [->|N1]; [left; pose proof (one_cell Ag A1 A2 F1 F2); congruence|]. destruct (Bool.bool_dec b1 b3) as [->|N2]; [right; left; pose proof (one_cell Ag A1 A3 F1 F3); congruence|].
    right; right. assert (b2 = b3) as -> by (destruct b1, b2, b3; congruence). pose proof (one_cell Ag A2 A3 F2 F3). congruence.
Qed.
Lemma provides_ok : provides t sh.
Proof.
  constructor.
  - intros c L. apply lt_cells in L as [h E]. cbn [topo_of fw_cell_faces api_shape cfaces]. rewrite (cell_faces_ok W C eq_refl E). reflexivity.
  - intros f L. apply lt_faces in L as [h E]. destruct (@c86_face_cells serial true m rcv j f TYPE_ALL W C) as (l & A & _ & B & _); [apply (valid_behind C f bk_face hkf); eauto|]. exists l. auto.
  - intros f L. apply lt_faces in L as [h E]. cbn [topo_of fw_face_edges api_shape fedges]. destruct (mk_dim W) as [D2|D3]; [rewrite (face_edges_2 D2 E)|rewrite (face_edges_3 D3 E)]; reflexivity.
  - intros e L _. apply lt_edges in L as [h E]. cbn [topo_of fw_edge_nodes api_shape enodes]. rewrite (edge_nodes_ok E). reflexivity.
  - intros c L. apply lt_cells in L as [h E]. cbn [topo_of fw_cell_nodes api_shape cnodes]. rewrite (cell_nodes_ok C E). reflexivity.
Qed.
(** ** nodes *)
Lemma edge_ends e h : behind j EDGE e h -> forall n, n = fst (enodes sh e) \/ n = snd (enodes sh e) <-> exists v, n = id_of j MVERTEX v /\ v_of_e m v h.
Proof.
  intros E n. rewrite (enodes_eq E). unfold v_of_e. destruct (eflip e); cbn [fst snd swap pid].
  - split; [intros [->| ->]; eexists; split; eauto|]. intros (v & -> & [->| ->]); auto.
  - split; [intros [->| ->]; eexists; split; eauto|]. intros (v & -> & [->| ->]); auto.
Qed.
(** edges of a cell *)
Definition e_of_c (e h : nat) : Prop := if k_dim m =? 3 then exists g, f_of_r m g h /\ e_of_f m e g else e_of_f m e h.
Lemma tri_iff c h e : behind j CELL c h -> (exists f, tri t sh c f e) <-> exists e', behind j EDGE e e' /\ e_of_c e' h.
Proof.
  intros E. destruct (behind_in C bk_cell I E) as [Ih _]. cbn [mkind_of] in Ih. destruct (cfaces_ok W Ih) as [Hi _]. unfold e_of_c, cfaces_of, face_kind, cell_kind in *. split.
  - intros (f & _ & Hf & He). apply (face_of_iff _ E) in Hf as (g & Eg & Hf). unfold edge_of, cfaces_of in *. destruct (mk_dim W) as [D2|D3].
    + rewrite (fedges_eq2 D2 Eg) in He. destruct He as [<-|[]]. rewrite D2 in *. cbn [Nat.eqb] in *. exists g. split; [apply face_edge_2; auto|exact Hf].
    + rewrite (fedges_eq3 D3 Eg), fst_jedge in He. rewrite D3 in *. cbn [Nat.eqb] in *. apply in_map_iff in He as (e' & <- & He). exists e'. split; [|exists g; split; auto]. apply (@behind_of _ _ _ _ _ _ C EDGE e' bk_edge hke). apply (mk_fe W g); auto.
  - intros (e' & Ee & H). destruct (mk_dim W) as [D2|D3].
    + rewrite D2 in *. cbn [Nat.eqb] in *. apply (face_edge_2 _ _ D2) in Ee. exists e. split; [apply lt_cells; eauto|]. split; [|unfold edge_of; rewrite (fedges_eq2 D2 Ee); left; auto]. apply (face_of_iff _ E). exists e'. split; auto. unfold cfaces_of. rewrite D2. exact H.
    + rewrite D3 in *. cbn [Nat.eqb] in *. destruct H as (g & Hg & He). assert (Ig : In g (k_all m (mkind_of m FACE))) by (cbn [mkind_of]; unfold face_kind; rewrite D3; apply Hi; exact Hg).
      pose proof (@behind_of _ _ _ _ _ _ C FACE g bk_face hkf Ig) as Eg. exists (id_of j (mkind_of m FACE) g). split; [apply lt_cells; eauto|]. split; [apply (face_of_iff _ E); exists g; split; auto; unfold cfaces_of; rewrite D3; exact Hg|].
      unfold edge_of. rewrite (fedges_eq3 D3 Eg), fst_jedge. destruct (behind_in C bk_edge hke Ee) as [_ Ei]. cbn [mkind_of] in Ei. rewrite <- Ei. apply in_map. exact He.
Qed.
Lemma cverts_iff h v : In h (k_all m (cell_kind m)) -> In v (cverts m h) <-> exists e, e_of_c e h /\ v_of_e m v e.
Proof.
  intros Ih. destruct (cfaces_ok W Ih) as [Hi _]. unfold e_of_c, cverts, cfaces_of, cell_kind, face_kind in *. destruct (dim_cases W) as [[D3 D2]|[D3 D2]]; rewrite ?D3, ?D2 in *.
  - destruct (mk_rv W h Ih) as [_ H]. rewrite H. split.
    + intros (f & Hf & Hv). apply (fv_used W) in Hv as (e & He & Hv); [|apply Hi; exact Hf]. exists e. split; eauto.
    + intros (e & (f & Hf & He) & Hv). exists f. split; auto. apply (fv_used W); [apply Hi; exact Hf|]. eauto.
  - apply (fv_used W). auto.
Qed.
Lemma nodes_ok : node_consistent t sh.
Proof.
  constructor.
  - intros c L. apply lt_cells in L as [h E]. rewrite (cnodes_eq E). destruct (behind_in C bk_cell I E) as [Ih _]. destruct (cverts_ok W Ih) as [Hi Nd]. apply (@map_id_nodup _ _ _ _ _ _ C NODE _ bk_node I Hi Nd).
  - intros c n L In0. apply lt_cells in L as [h E]. rewrite (cnodes_eq E) in In0. apply in_map_iff in In0 as (v & <- & Iv). apply lt_nodes. exists v. apply (@behind_of _ _ _ _ _ _ C NODE v bk_node I). destruct (behind_in C bk_cell I E) as [Ih _]. destruct (cverts_ok W Ih) as [Hi _]. apply Hi; auto.
  - intros c f e T. pose proof (proj1 T) as L. apply lt_cells in L as [h E]. destruct (proj1 (tri_iff e E)) as (e' & Ee & He); [eauto|]. destruct (behind_in C bk_cell I E) as [Ih _]. cbn [mkind_of] in Ih. rewrite (cnodes_eq E).
    assert (Q : forall n, n = fst (enodes sh e) \/ n = snd (enodes sh e) -> In n (map (id_of j MVERTEX) (cverts m h))).
    { intros n Hn. apply (edge_ends Ee) in Hn as (v & -> & Hv). apply in_map. apply cverts_iff; eauto. }
    split; apply Q; auto.
  - intros c n L In0. apply lt_cells in L as [h E]. rewrite (cnodes_eq E) in In0. apply in_map_iff in In0 as (v & <- & Iv). destruct (behind_in C bk_cell I E) as [Ih _]. cbn [mkind_of] in Ih. apply (cverts_iff v Ih) in Iv as (e' & He & Hv).
    assert (Ie : In e' (k_all m MEDGE)).
    { destruct (cfaces_ok W Ih) as [Hi _]. unfold e_of_c, cfaces_of, cell_kind, face_kind in *. destruct (dim_cases W) as [[D3 D2]|[D3 D2]]; rewrite ?D3, ?D2 in *; [destruct He as (g & Hg & He); apply (mk_fe W g); auto; apply Hi; exact Hg|apply Hi; exact He]. }
    pose proof (@behind_of _ _ _ _ _ _ C EDGE e' bk_edge hke Ie) as Ee. destruct (proj2 (tri_iff (id_of j (mkind_of m EDGE) e') E)) as (f & T); [exists e'; split; [exact Ee|auto]|]. exists f. eexists. split; [exact T|]. apply (edge_ends Ee). eauto.
Qed.
Lemma framework_ok : framework_mesh t sh.
Proof. apply fm_nd; [cbn [topo_of tp_mdim]; rewrite Jm; apply (mk_dim W)|apply numbered_ok|apply connectivity_ok|apply provides_ok]. Qed.
End F.
