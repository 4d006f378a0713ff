(** C89: the base class's sides, wedges, corners and geometry on meshes of the MSTK framework. *)
From Coq Require Import Permutation.
From Verif Require Import Base Loop Defs Factory Cache Cache_proofs Cache_spec MeshGeom MeshGeom_spec Props_Cache.
From Verif Require Import MstkMesh MstkMesh_spec MstkMesh_proofs MstkMesh_examples MstkMesh_build Props_MstkIds MstkMesh_proofs2 MstkWorld_spec MstkWorld_proofs Props_MstkAdj Props_MstkOrder Props_MstkDirs.
From Verif Require Import MstkFramework_spec MstkFramework_proofs MstkGeom Geometry_spec.
From Verif Require Geometry_proofs Props_InPolygon.
Set Implicit Arguments. Unset Strict Implicit.

Section O.
Variables (serial : bool) (m : mstk) (rcv : received) (j : jmesh).
Hypothesis W : mstk_mesh m.
Hypothesis C : constructed serial false true true m rcv j.
Let M : made serial false true true m rcv j := constructed_made C.
Let Jm : j_mesh j = m := mj_mesh M.
Local Notation t := (topo_of j).
Local Notation sh := (api_shape j).
Local Notation vid := (id_of j MVERTEX).
Lemma mdim_eq : tp_mdim t = k_dim m. Proof. cbn [topo_of tp_mdim]. rewrite Jm. reflexivity. Qed.
Lemma face_all f h : behind j FACE f h -> In h (k_all m (face_kind m)). Proof. intros E. apply (behind_in C bk_face (hkf C) E). Qed.
Lemma along_dirz e h d : behind j EDGE e h -> along sh (e, dirz d (eflip j e)) = pid j (used m (h, d)).
Proof.
  intros E. unfold along, used. cbn [fst snd]. rewrite (enodes_eq C E). unfold dirz. destruct d, (eflip j e); reflexivity.
Qed.
Lemma edges_along f h : k_dim m = 3 -> behind j FACE f h -> map (along sh) (fedges sh f) = edges (map vid (k_fv m h)).
Proof.
  intros D3 E. pose proof (face_all E) as Ih. unfold face_kind in Ih. rewrite D3 in Ih. cbn [Nat.eqb] in Ih. rewrite (fedges_eq3 W C D3 E), map_map, Geometry_proofs.edges_map, (proj1 (mk_fv W h Ih)), map_map. apply map_ext_in. intros [e d] Ie.
  unfold jedge. cbn [fst snd]. rewrite (@along_dirz (id_of j MEDGE e) e d); [reflexivity|]. apply (@behind_of _ _ _ _ _ _ C EDGE e bk_edge (hke C)). apply (mk_fe W h); auto. exact (in_map fst _ _ Ie).
Qed.
Lemma fnodes_eq f h : k_dim m = 3 -> behind j FACE f h -> face_nodes j f = Ok (api_face_nodes j f) /\ (flip j f = false -> api_face_nodes j f = map vid (k_fv m h)) /\
  (flip j f = true -> same_cycle (rev (map vid (k_fv m h))) (api_face_nodes j f)) /\ Permutation (api_face_nodes j f) (map vid (k_fv m h)).
Proof.
  intros D3 E. destruct (face_nodes_ok W C eq_refl E) as (vs & Q & P & A & B). unfold api_face_nodes. rewrite Q. cbn [ans]. unfold fverts in *. rewrite D3 in *. cbn [Nat.eqb] in *. split; auto. split; [intros F; rewrite (A F); auto|]. split.
  - intros F. rewrite <- map_rev. apply same_cycle_map. auto.
  - apply Permutation_map. auto.
Qed.
Lemma face_good f h : k_dim m = 3 -> behind j FACE f h -> NoDup (api_face_nodes j f) /\ 3 <= length (api_face_nodes j f).
Proof.
  intros D3 E. pose proof (face_all E) as Ih. unfold face_kind in Ih. rewrite D3 in Ih. cbn [Nat.eqb] in Ih. destruct (fnodes_eq D3 E) as (_ & _ & _ & P). destruct (mk_fv W h Ih) as [Ee Nd].
  split.
  - apply (Permutation_NoDup (Permutation_sym P)). apply (@map_id_nodup _ _ _ _ _ _ C NODE _ bk_node I); auto. intros v Iv. apply (fv_range W Ih Iv).
  - rewrite (Permutation_length P), map_length. pose proof (f_equal (@length _) Ee) as L. rewrite map_length in L. destruct (mk_fe_nodup W h Ih) as [_ L3]. assert (Q : forall l : list nat, length (edges l) = length l).
    { clear. intros [|a l]; auto. unfold edges. assert (Q : forall l (a z : nat), length (steps a l z) = S (length l)) by (clear; induction l as [|b l IH]; intros; simpl; auto). apply Q. }
    rewrite Q in L. lia.
Qed.
(** the edges of a face in their directions go round the face as its nodes do, unless the face is flipped *)
Lemma edges_round f h : k_dim m = 3 -> behind j FACE f h -> Permutation (map (along sh) (fedges sh f)) (if flip j f then map swap (edges (api_face_nodes j f)) else edges (api_face_nodes j f)).
Proof.
  intros D3 E. destruct (fnodes_eq D3 E) as (_ & A & B & _). rewrite (edges_along D3 E). destruct (flip j f).
  - pose proof (same_cycle_perm (edges_cycle (B eq_refl))) as P. apply (Permutation_map swap) in P. etransitivity; [|exact P]. rewrite (Permutation_map swap (Props_InPolygon.edges_rev (map vid (k_fv m h)))). rewrite map_map. rewrite <- map_id at 1. apply Permutation_refl'. apply map_ext. intros []. reflexivity.
  - rewrite (A eq_refl). apply Permutation_refl.
Qed.
Lemma inside_round f h d p : k_dim m = 3 -> behind j FACE f h -> is_dir d ->
  In p (edges (from_inside d (api_face_nodes j f))) <-> In (if (d =? 1)%Z then swap p else p) (if flip j f then map swap (map (along sh) (fedges sh f)) else map (along sh) (fedges sh f)).
Proof.
  intros D3 E Hd. pose proof (edges_round D3 E) as P.
  assert (SS : forall (l : list (nat * nat)), map swap (map swap l) = l) by (intros l; rewrite map_map; rewrite <- map_id; apply map_ext; intros []; reflexivity).
  assert (Q : forall x, In x (if flip j f then map swap (map (along sh) (fedges sh f)) else map (along sh) (fedges sh f)) <-> In x (edges (api_face_nodes j f))).
  { intros x. destruct (flip j f); [apply (Permutation_map swap) in P; rewrite SS in P|]; split; intros; [apply (Permutation_in _ P)|apply (Permutation_in _ (Permutation_sym P))|apply (Permutation_in _ P)|apply (Permutation_in _ (Permutation_sym P))]; auto. }
  rewrite Q. unfold from_inside. destruct (d =? 1)%Z; [|tauto].
  assert (SW : forall (l : list (nat * nat)) x, In (swap x) l <-> In x (map swap l)).
  { intros l x. rewrite in_map_iff. split; [intros I; exists (swap x); destruct x; auto|intros (y & <- & I); destruct y; auto]. }
  rewrite SW. split; intros I; [apply (Permutation_in _ (Props_InPolygon.edges_rev _))|apply (Permutation_in _ (Permutation_sym (Props_InPolygon.edges_rev _)))]; auto.
Qed.
(** the nodes of a side in space *)
Lemma side_nodes_3 fl Mc s c f e df n0 n1 h : built t sh fl Mc -> k_dim m = 3 -> is_side Mc s c f e -> behind j FACE f h -> In (f, df) (cfaces sh c) -> side_get_node Mc s 0 = Ok n0 -> side_get_node Mc s 1 = Ok n1 ->
  In (if flip j f then (n1, n0) else (n0, n1)) (edges (from_inside df (api_face_nodes j f))).
Proof.
  intros B D3 Hs E If N0 N1.
  destruct (c24_every_side_is_a_triple B (proj1 Hs)) as (c' & f' & e' & Hs' & T). assert (c' = c /\ f' = f /\ e' = e) as (-> & -> & ->) by (destruct Hs as (_ & a1 & a2 & a3), Hs' as (_ & b1 & b2 & b3); repeat split; congruence).
  destruct T as (Lc & _ & Te). apply in_map_iff in Te as ([e1 de] & Q & Ie). cbn [fst] in Q. rewrite Q in Ie. clear e1 Q.
  destruct (@c26_side_node_order _ _ _ _ _ _ _ _ _ _ _ _ B Hs If Ie N0 N1) as [_ O]. rewrite mdim_eq in O. specialize (O D3).
  pose proof (connectivity_ok W C) as Cn. destruct (cn_face Cn _ _ Lc If) as [Lf Hd]. destruct (cn_edge Cn _ _ Lf Ie) as [_ He].
  apply (inside_round _ D3 E Hd). pose proof (in_map (along sh) _ _ Ie) as Ia. unfold along in Ia. cbn [fst snd] in Ia.
  assert (SW : forall (l : list (nat * nat)) x, In x l -> In (swap x) (map swap l)) by (intros; apply in_map; auto).
  destruct (flip j f).
  - pose proof (SW _ _ Ia) as Ib. destruct (enodes sh e) as [a b]. unfold swap in *. cbn [fst snd] in *. destruct Hd as [->| ->], He as [->| ->]; cbn in *; injection O as -> ->; exact Ib.
  - destruct (enodes sh e) as [a b]. unfold swap in *. cbn [fst snd] in *. destruct Hd as [->| ->], He as [->| ->]; cbn in *; injection O as -> ->; exact Ia.
Qed.
(** ** in the plane *)
Lemma face_nodes_2 f h : k_dim m = 2 -> behind j FACE f h -> face_nodes j f = Ok [fst (enodes sh f); snd (enodes sh f)] /\ behind j EDGE f h.
Proof.
  intros D2 E. pose proof (proj1 (face_edge_2 C f h D2) E) as Ee. split; auto. rewrite (enodes_eq C Ee), <- (flip_2 C D2 E). unfold face_nodes, asserting. rewrite (mj_faces M), (rd_flip C eq_refl E). apply rd_table in E. cbn [table] in E. rewrite E. cbn [bind]. rewrite Jm, D2. cbn [Nat.eqb]. destruct (flip j f); reflexivity.
Qed.
Lemma cell_round_2 c h : k_dim m = 2 -> behind j CELL c h -> map (along sh) (cfaces sh c) = edges (api_cell_nodes j c) /\ 3 <= length (api_cell_nodes j c).
Proof.
  intros D2 E. destruct (behind_in C bk_cell I E) as [Ih _]. cbn [mkind_of] in Ih. unfold cell_kind in Ih. rewrite D2 in Ih. cbn [Nat.eqb] in Ih. destruct (mk_fv W h Ih) as [Ee Nd].
  unfold api_cell_nodes. rewrite (cell_nodes_ok C E). cbn [ans]. rewrite (cfaces_eq W C E). unfold MstkMesh_proofs2.cverts, cfaces_of. rewrite D2. cbn [Nat.eqb]. split.
  - rewrite map_map, Geometry_proofs.edges_map, Ee, map_map. apply map_ext_in. intros [e d] Ie. assert (Iel : In e (k_all m MEDGE)) by (apply (mk_fe W h); auto; exact (in_map fst _ _ Ie)). pose proof (@behind_of _ _ _ _ _ _ C EDGE e bk_edge (hke C) Iel) as Eh. cbn [mkind_of] in Eh.
    unfold jface. cbn [fst snd]. unfold face_kind. rewrite D2. cbn [Nat.eqb]. rewrite (flip_2 C D2 (proj2 (face_edge_2 C _ _ D2) Eh)). apply along_dirz. auto.
  - rewrite map_length. pose proof (f_equal (@length _) Ee) as L. rewrite map_length in L. destruct (mk_fe_nodup W h Ih) as [_ L3]. assert (Q : forall l : list nat, length (edges l) = length l).
    { clear. intros [|a l]; auto. unfold edges. assert (Q : forall l (a z : nat), length (steps a l z) = S (length l)) by (clear; induction l as [|b l IH]; intros; simpl; auto). apply Q. }
    rewrite Q in L. lia.
Qed.
Lemma pair_face f h d : k_dim m = 2 -> behind j FACE f h -> (nth 0 (node_face (api_face_nodes j) (f, d)) 0, nth 1 (node_face (api_face_nodes j) (f, d)) 0) = along sh (f, d).
Proof. intros D2 E. unfold node_face, along, api_face_nodes. cbn [fst snd]. rewrite (proj1 (face_nodes_2 D2 E)). cbn [ans]. destruct (enodes sh f) as [a b]. destruct (d =? 1)%Z; reflexivity. Qed.
(** ** closed surfaces *)
Lemma out_edges f g d : k_dim m = 3 -> behind j FACE f g ->
  Permutation (edges (node_face (api_face_nodes j) (f, dirz d (flip j f)))) (map (pid j) (if d then edges (k_fv m g) else map swap (edges (k_fv m g)))).
Proof.
  intros D3 E. destruct (fnodes_eq D3 E) as (_ & A & B & _). unfold node_face. cbn [fst snd].
  assert (SS : forall (l : list (nat * nat)), map swap (map swap l) = l) by (intros l; rewrite map_map; rewrite <- map_id; apply map_ext; intros []; reflexivity).
  assert (PS : forall (l : list (nat * nat)), map (pid j) (map swap l) = map swap (map (pid j) l)) by (intros l; rewrite !map_map; reflexivity).
  assert (PE : edges (map vid (k_fv m g)) = map (pid j) (edges (k_fv m g))) by apply Geometry_proofs.edges_map.
  destruct (flip j f).
  - specialize (B eq_refl). apply edges_cycle, same_cycle_perm, Permutation_sym in B. pose proof (Permutation_trans B (Props_InPolygon.edges_rev _)) as B'. rewrite PE in B'. destruct d; cbn.
    + etransitivity; [apply Props_InPolygon.edges_rev|]. apply (Permutation_map swap) in B'. rewrite SS in B'. exact B'.
    + rewrite PS. exact B'.
  - rewrite (A eq_refl). destruct d; cbn.
    + rewrite PE. apply Permutation_refl.
    + rewrite PS, <- PE. apply Props_InPolygon.edges_rev.
Qed.
Lemma sealed_ok c h : k_dim m = 3 -> behind j CELL c h -> sealed m h -> let E := flat_map (fun fd => edges (node_face (api_face_nodes j) fd)) (cfaces sh c) in Permutation E (map swap E).
Proof.
  intros D3 Ec S. cbn zeta. destruct (behind_in C bk_cell I Ec) as [Ih _]. cbn [mkind_of] in Ih. destruct (cfaces_ok W Ih) as [Hi _]. rewrite (cfaces_eq W C Ec). unfold cfaces_of in *. rewrite D3 in *. cbn [Nat.eqb] in *.
  assert (P : Permutation (flat_map (fun fd => edges (node_face (api_face_nodes j) fd)) (map (jface m j) (k_rf m h)))
     (map (pid j) (flat_map (fun fd : nat * bool => if snd fd then edges (k_fv m (fst fd)) else map swap (edges (k_fv m (fst fd)))) (k_rf m h)))).
  { revert Hi. generalize (k_rf m h). induction l as [|[g d] l IH]; intros Hi; [constructor|]. cbn [map flat_map]. rewrite map_app. apply Permutation_app.
    - unfold jface. cbn [fst snd]. apply (@out_edges (id_of j (face_kind m) g) g d D3). apply (@behind_of _ _ _ _ _ _ C FACE g bk_face (hkf C)). apply Hi. left; auto.
    - apply IH. intros x Ix. apply Hi. right; auto. }
  etransitivity; [exact P|]. etransitivity; [apply (Permutation_map (pid j)); exact S|].
  replace (map (pid j) (map swap (flat_map (fun fd : nat * bool => if snd fd then edges (k_fv m (fst fd)) else map swap (edges (k_fv m (fst fd)))) (k_rf m h)))) with
    (map swap (map (pid j) (flat_map (fun fd : nat * bool => if snd fd then edges (k_fv m (fst fd)) else map swap (edges (k_fv m (fst fd)))) (k_rf m h)))) by (rewrite !map_map; reflexivity).
  apply Permutation_map, Permutation_sym. exact P.
Qed.
End O.

(** C89.  The queries of an MSTK mesh make a connectivity that the caches of the base class accept: ids are consecutive, adjacency lists have no
    repeats, a face has at most two cells, which use it in opposite directions, and the nodes of a cell are the end points of its edges. *)
Theorem c89_framework_mesh : forall serial m rcv j, mstk_mesh m -> constructed serial false true true m rcv j ->
  framework_mesh (topo_of j) (api_shape j) /\ opposite_dirs (topo_of j) (api_shape j) /\ node_consistent (topo_of j) (api_shape j).
Proof. intros serial m rcv j W C. split; [apply (framework_ok W C)|]. split; [apply (opposite_ok W C)|apply (nodes_ok W C)]. Qed.
(** C89.  Hence sides, wedges and corners can be requested in any combination: C24 to C29 hold on MSTK meshes, and so do the geometry theorems'
    assumptions on the mesh object. *)
Theorem c89_sides_wedges_corners : forall serial m rcv j fl, mstk_mesh m -> constructed serial false true true m rcv j -> fl_sides (close_flags fl) = true ->
  exists Mc, built (topo_of j) (api_shape j) fl Mc /\ forall gt, geom_mesh (topo_of j) (api_shape j) fl (mstk_gmesh j Mc gt) (api_face_nodes j) (api_cell_nodes j).
Proof.
  intros serial m rcv j fl W C S. pose proof (c89_framework_mesh W C) as (Fm & _ & Nc). destruct (@c24_construction_succeeds (topo_of j) (api_shape j) fl Fm S (fun _ => Nc)) as [Mc B]. exists Mc. split; auto. intros gt.
  constructor; cbn [mstk_gmesh gm sdim fnodes MeshGeom.cverts].
  - auto.
  - rewrite (mdim_eq C). apply (mk_dim W).
  - reflexivity.
  - intros f L. apply (lt_faces C) in L as [h E]. destruct (face_nodes_ok W C eq_refl E) as (vs & Q & P & _). unfold api_face_nodes. rewrite Q. split; auto. cbn [ans]. intros n In0. apply in_map_iff in In0 as (v & <- & Iv). apply (lt_nodes C). exists v. apply (@behind_of _ _ _ _ _ _ C NODE v bk_node I).
    destruct (behind_in C bk_face (hkf C) E) as [Ih _]. cbn [mkind_of] in *. destruct (fverts_ok W Ih) as [Hi _]. apply Hi. apply (Permutation_in _ P); auto.
  - intros c L. pose proof L as L'. apply (lt_cells C) in L as [h E]. unfold api_cell_nodes. rewrite (cell_nodes_ok C E). split; auto. cbn [ans]. intros n In0. rewrite <- (cnodes_eq C E) in In0. apply (nc_range Nc _ L' In0).
  - intros e L. apply (lt_edges C) in L as [h E]. destruct (behind_in C bk_edge (hke C) E) as [Ih _]. cbn [mkind_of] in Ih. destruct (mk_ev W h Ih) as (A & D & _).
    assert (Q : forall n, n = fst (enodes (api_shape j) e) \/ n = snd (enodes (api_shape j) e) -> n < nnodes (topo_of j)).
    { intros n Hn. apply (edge_ends C E) in Hn as (v & -> & Hv). apply (lt_nodes C). exists v. apply (@behind_of _ _ _ _ _ _ C NODE v bk_node I). destruct Hv as [->| ->]; auto. }
    split; apply Q; auto.
  - intros f L. apply (lt_faces C) in L as [h E]. destruct (@c86_face_cells serial true m rcv j f TYPE_ALL W C) as (l & A & _ & _ & H); [apply (valid_behind C f bk_face (hkf C)); eauto|]. exists l. split; auto. intros c. rewrite H.
    pose proof (valid_behind C c bk_cell I) as V. split.
    + intros [Ic Fc]. apply V in Ic as [hc Ec]. split; [apply (lt_cells C); eauto|]. apply (face_of_iff W C _ Ec). exists h. split; auto. apply (foc W C eq_refl E Ec). auto.
    + intros [Lc Fc]. apply (lt_cells C) in Lc as [hc Ec]. split; [apply V; eauto|]. apply (face_of_iff W C _ Ec) in Fc as (g & Eg & Ig). rewrite (behind_fun Eg E) in Ig. apply (foc W C eq_refl E Ec). auto.
  - intros D2 f L. rewrite (mdim_eq C) in D2. apply (lt_faces C) in L as [h E]. unfold api_face_nodes. rewrite (proj1 (face_nodes_2 C D2 E)). reflexivity.
Qed.
(** C89.  In the plane all orientations agree: a face is its edge, and the faces of a cell in their directions are the edges of its polygon. *)
Theorem c89_oriented_plane : forall serial m rcv j, mstk_mesh m -> constructed serial false true true m rcv j -> k_dim m = 2 ->
  oriented (topo_of j) (api_shape j) (api_face_nodes j) (api_cell_nodes j).
Proof.
  intros serial m rcv j W C D2. constructor; rewrite (mdim_eq C); try (rewrite D2; discriminate).
  - intros _ f L. apply (lt_faces C) in L as [h E]. destruct (face_nodes_2 C D2 E) as [Q _]. exists f, 1%Z. rewrite (fedges_eq2 C D2 E). unfold api_face_nodes. rewrite Q. auto.
  - intros _ c L. apply (lt_cells C) in L as [h E]. destruct (cell_round_2 W C D2 E) as [Q L3]. split; auto. rewrite <- Q. apply Permutation_refl'. apply map_ext_in. intros [f d] If. apply (in_cface W C _ _ E) in If as (g & b & Eg & _ & _). apply (pair_face C _ D2 Eg).
Qed.
(** C89.  In space they agree if no ghost face is stored other than its owner stores it: in a serial mesh, or if all the ghost faces' regions are on
    the sides where the owner has them. *)
Theorem c89_oriented_space_partial : forall serial m rcv j, mstk_mesh m -> constructed serial false true true m rcv j -> k_dim m = 3 ->
  (forall r, In r (k_all m MREGION) -> sealed m r) ->
  serial = true \/ (forall f, In f (k_all m MFACE) -> k_ptype m MFACE f = PGHOST -> reversed (rcv MFACE f) (local_pair m MFACE f) = false) ->
  oriented (topo_of j) (api_shape j) (api_face_nodes j) (api_cell_nodes j).
Proof.
  intros serial m rcv j W C D3 S Nf. constructor; rewrite (mdim_eq C); try (rewrite D3; discriminate).
  - intros _ f L. apply (lt_faces C) in L as [h E]. split; [apply (face_good W C D3 E)|]. pose proof (edges_round W C D3 E) as P.
    assert (F : flip j f = false).
    { destruct (behind_in C bk_face (hkf C) E) as [Ih Ei]. cbn [mkind_of] in *. rewrite <- Ei, (flip_ok C Ih). unfold face_kind in *. rewrite D3 in *. cbn [Nat.eqb] in *. destruct Nf as [->|Nf]; auto. destruct (k_ptype m MFACE h) eqn:Pt; cbn [is_pghost andb]; rewrite ?Bool.andb_false_r; auto. rewrite (Nf _ Ih Pt), Bool.andb_false_r. auto. }
    rewrite F in P. exact P.
  - intros _ c L. apply (lt_cells C) in L as [h E]. apply (sealed_ok W C D3 E). apply S. destruct (behind_in C bk_cell I E) as [Ih _]. cbn [mkind_of] in Ih. unfold cell_kind in Ih. rewrite D3 in Ih. exact Ih.
Qed.
(** C89.  The nodes of a side in the plane run along the cell's polygon. *)
Theorem c89_side_nodes_plane : forall serial m rcv j fl Mc s c f e n0 n1, mstk_mesh m -> constructed serial false true true m rcv j -> k_dim m = 2 ->
  built (topo_of j) (api_shape j) fl Mc -> is_side Mc s c f e -> side_get_node Mc s 0 = Ok n0 -> side_get_node Mc s 1 = Ok n1 ->
  exists ns, cell_nodes j c = Ok ns /\ In (n0, n1) (edges ns).
Proof.
  intros serial m rcv j fl Mc s c f e n0 n1 W C D2 B Hs N0 N1.
  destruct (c24_every_side_is_a_triple B (proj1 Hs)) as (c' & f' & e' & Hs' & T). assert (c' = c /\ f' = f /\ e' = e) as (-> & -> & ->) by (destruct Hs as (_ & a1 & a2 & a3), Hs' as (_ & b1 & b2 & b3); repeat split; congruence).
  destruct T as (Lc & Tf & Te). apply in_map_iff in Te as ([e1 de] & Q & Ie). cbn [fst] in Q. rewrite Q in Ie. clear e1 Q. apply in_map_iff in Tf as ([f1 df] & Q & If). cbn [fst] in Q. rewrite Q in If. clear f1 Q.
  destruct (@c26_side_node_order _ _ _ _ _ _ _ _ _ _ _ _ B Hs If Ie N0 N1) as [O _]. rewrite (mdim_eq C) in O. specialize (O D2).
  pose proof Lc as Lc'. apply (lt_cells C) in Lc as [h E]. destruct (cell_round_2 W C D2 E) as [Q _]. exists (api_cell_nodes j c). unfold api_cell_nodes at 1. rewrite (cell_nodes_ok C E). split; [reflexivity|]. rewrite <- Q.
  pose proof (in_map (along (api_shape j)) _ _ If) as Ia. destruct (cn_face (connectivity_ok W C) _ _ Lc' If) as [Lf _]. apply (lt_faces C) in Lf as [hf Ef]. rewrite (fedges_eq2 C D2 Ef) in Ie. destruct Ie as [Ie|[]]. injection Ie as <- _. unfold along in Ia. cbn [fst snd] in Ia. rewrite O. destruct (df =? 1)%Z; exact Ia.
Qed.
(** C89.  The nodes of a side in space run round its face as seen from inside the cell, for faces owned by the rank (all faces in serial). *)
Theorem c89_side_nodes_space_partial : forall serial m rcv j fl Mc s c f e fs df n0 n1, mstk_mesh m -> constructed serial false true true m rcv j -> k_dim m = 3 ->
  built (topo_of j) (api_shape j) fl Mc -> is_side Mc s c f e -> serial = true \/ In f (entities j FACE PARALLEL_OWNED) ->
  cell_faces j false c = Ok fs -> In (f, df) fs -> side_get_node Mc s 0 = Ok n0 -> side_get_node Mc s 1 = Ok n1 ->
  exists ns, face_nodes j f = Ok ns /\ In (n0, n1) (edges (from_inside df ns)).
Proof.
  intros serial m rcv j fl Mc s c f e fs df n0 n1 W C D3 B Hs Ow Ef If N0 N1. assert (If' : In (f, df) (cfaces (api_shape j) c)) by (cbn [api_shape cfaces]; rewrite Ef; exact If).
  assert (Lc : c < ncells (topo_of j)) by (destruct (c24_every_side_is_a_triple B (proj1 Hs)) as (c' & f' & e' & Hs' & T); replace c with c' by (destruct Hs as (_ & a1 & _), Hs' as (_ & b1 & _); congruence); apply T).
  destruct (cn_face (connectivity_ok W C) _ _ Lc If') as [Lf _]. apply (lt_faces C) in Lf as [h E]. exists (api_face_nodes j f). split; [apply (fnodes_eq W C D3 E)|].
  pose proof (side_nodes_3 W C B D3 Hs E If' N0 N1) as Q.
  assert (F : flip j f = false); [|rewrite F in Q; exact Q].
  destruct (behind_in C bk_face (hkf C) E) as [Ih Ei]. rewrite <- Ei at 1. cbn [mkind_of] in *. rewrite (flip_ok C Ih). destruct Ow as [->|Ow]; auto. apply (typed C _ bk_face (hkf C) E) in Ow. cbn [mkind_of] in Ow. destruct (k_ptype m (face_kind m) h); [cbn; apply Bool.andb_false_r|cbn; apply Bool.andb_false_r|discriminate].
Qed.
(** C89 (the full claim fails for ghost faces stored other than their owner stores them): face_get_nodes and cell_get_faces_and_dirs turn such a face
    round, face_get_edges_and_dirs does not, and the nodes of its sides - also those in cells the rank owns - come in the wrong order. *)
Theorem c89_side_nodes_flipped_refuted : forall w r j fl Mc s c f e fs df n0 n1 ro fo h, distributed w -> ghost_layer w -> on_rank w r true true j -> k_dim (w_mesh w r) = 3 ->
  built (topo_of j) (api_shape j) fl Mc -> is_side Mc s c f e -> behind j FACE f h -> copies w MFACE ro fo r h -> k_ptype (w_mesh w ro) MFACE fo <> PGHOST -> ~ same_way w ro fo r h ->
  cell_faces j false c = Ok fs -> In (f, df) fs -> side_get_node Mc s 0 = Ok n0 -> side_get_node Mc s 1 = Ok n1 ->
  exists ns, face_nodes j f = Ok ns /\ In (n1, n0) (edges (from_inside df ns)) /\ ~ In (n0, n1) (edges (from_inside df ns)).
Proof.
  intros w r j fl Mc s c f e fs df n0 n1 ro fo h D G C D3 B Hs E Cp Po Ns Ef If N0 N1. pose proof (d_mesh D r) as W. assert (If' : In (f, df) (cfaces (api_shape j) c)) by (cbn [api_shape cfaces]; rewrite Ef; exact If).
  exists (api_face_nodes j f). split; [apply (fnodes_eq W C D3 E)|]. pose proof (side_nodes_3 W C B D3 Hs E If' N0 N1) as Q.
  assert (O : owner w MFACE ro fo r h) by (split; auto). assert (D30 : k_dim (w_mesh w 0) = 3) by (rewrite (d_dim D 0 r); auto).
  destruct (proj1 (face_shown D D30 O) (or_intror (common_if_layer D G D3 O))) as [_ Fl].
  assert (F : flip j f = true).
  { destruct (behind_in C bk_face (hkf C) E) as [Ih Ei]. rewrite <- Ei. cbn [mkind_of] in *. rewrite (flip_flag C eq_refl Ih). unfold face_kind in *. rewrite D3 in *. cbn [Nat.eqb] in *. destruct (flag w MFACE r h); auto. exfalso. apply Ns. apply Fl. auto. }
  rewrite F in Q. split; auto. destruct (face_good W C D3 E) as [Nd L3].
  apply no_way_back; auto; unfold from_inside; destruct (df =? 1)%Z; auto; [apply NoDup_rev; auto|rewrite rev_length; auto].
Qed.
(** C89 (the same in the plane for cell_2D_get_edges_and_dirs): the direction it gives for a ghost edge stored other than its owner stores it contradicts
    edge_get_nodes - from the nodes of the edge, the cell's polygon does not run that way. *)
Theorem c89_cell_2D_edges_partial : forall serial m rcv j c e d l, mstk_mesh m -> constructed serial false true true m rcv j -> valid j CELL c ->
  cell_2D_edges j c = Ok l -> In (e, d) l -> serial = true \/ In e (entities j EDGE PARALLEL_OWNED) ->
  exists ns p, cell_nodes j c = Ok ns /\ edge_nodes j e = Ok p /\ In (if (d =? 1)%Z then p else swap p) (edges ns).
Proof.
  intros serial m rcv j c e d l W C V El Ie Ow. apply (valid_behind C c bk_cell I) in V as [h E]. pose proof (constructed_made C) as M.
  assert (D2 : k_dim m = 2) by (unfold cell_2D_edges, asserting in El; rewrite (mj_mesh M) in El; destruct (k_dim m =? 2) eqn:Q; [apply Nat.eqb_eq; auto|discriminate]).
  destruct (behind_in C bk_cell I E) as [Ih _]. cbn [mkind_of] in Ih. unfold cell_kind in Ih. rewrite D2 in Ih. cbn [Nat.eqb] in Ih.
  unfold cell_2D_edges, asserting in El. rewrite (mj_mesh M), (mj_edges M), D2 in El. cbn [Nat.eqb] in El. pose proof (proj2 (rd_table j CELL c h) E) as R. cbn [table] in R. rewrite R in El. cbn [bind] in El. injection El as <-.
  apply in_map_iff in Ie as ([e' b] & Q & Ie). cbn [fst snd] in Q. injection Q as <- <-. assert (Iel : In e' (k_all m MEDGE)) by (apply (mk_fe W h); auto; exact (in_map fst _ _ Ie)).
  pose proof (@behind_of _ _ _ _ _ _ C EDGE e' bk_edge (hke C) Iel) as Eh. cbn [mkind_of] in Eh. do 2 eexists. split; [apply (cell_nodes_ok C E)|]. split; [apply (edge_nodes_ok C Eh)|].
  assert (F : eflip j (id_of j MEDGE e') = false).
  { rewrite (eflip_ok C Iel). destruct Ow as [->|Ow]; auto. apply (typed C _ bk_edge (hke C) Eh) in Ow. cbn [mkind_of] in Ow. destruct (k_ptype m MEDGE e'); [cbn; apply Bool.andb_false_r|cbn; apply Bool.andb_false_r|discriminate]. }
  rewrite F. unfold MstkMesh_proofs2.cverts. rewrite D2. cbn [Nat.eqb]. rewrite Geometry_proofs.edges_map, (proj1 (mk_fv W h Ih)), map_map. apply in_map_iff. exists (e', b). split; auto. unfold used. cbn [fst snd]. destruct b; reflexivity.
Qed.
Theorem c89_cell_2D_edges_refuted : forall w r j c e d l ro eo h, distributed w -> on_rank w r true true j -> valid j CELL c -> behind j EDGE e h ->
  copies w MEDGE ro eo r h -> k_ptype (w_mesh w ro) MEDGE eo <> PGHOST -> gev (w_mesh w ro) eo <> gev (w_mesh w r) h ->
  cell_2D_edges j c = Ok l -> In (e, d) l ->
  exists ns p, cell_nodes j c = Ok ns /\ edge_nodes j e = Ok p /\ In (if (d =? 1)%Z then swap p else p) (edges ns) /\ ~ In (if (d =? 1)%Z then p else swap p) (edges ns).
Proof.
  intros w r j c e d l ro eo h0 D C V Eh0 Cp Po Ng El Ie. pose proof (d_mesh D r) as W. apply (valid_behind C c bk_cell I) in V as [h E]. pose proof (constructed_made C) as M.
  assert (D2 : k_dim (w_mesh w r) = 2) by (unfold cell_2D_edges, asserting in El; rewrite (mj_mesh M) in El; destruct (k_dim (w_mesh w r) =? 2) eqn:Q; [apply Nat.eqb_eq; auto|discriminate]).
  destruct (behind_in C bk_cell I E) as [Ih _]. cbn [mkind_of] in Ih. unfold cell_kind in Ih. rewrite D2 in Ih. cbn [Nat.eqb] in Ih.
  unfold cell_2D_edges, asserting in El. rewrite (mj_mesh M), (mj_edges M), D2 in El. cbn [Nat.eqb] in El. pose proof (proj2 (rd_table j CELL c h) E) as R. cbn [table] in R. rewrite R in El. cbn [bind] in El. injection El as <-.
  apply in_map_iff in Ie as ([e' b] & Q & Ie). cbn [fst snd] in Q. injection Q as <- <-. assert (Iel : In e' (k_all (w_mesh w r) MEDGE)) by (apply (mk_fe W h); auto; exact (in_map fst _ _ Ie)).
  pose proof (@behind_of _ _ _ _ _ _ C EDGE e' bk_edge (hke C) Iel) as Eh. cbn [mkind_of] in Eh. rewrite (behind_fun Eh0 Eh) in *. do 2 eexists. split; [apply (cell_nodes_ok C E)|]. split; [apply (edge_nodes_ok C Eh)|].
  assert (F : eflip j (id_of j MEDGE e') = true).
  { rewrite (eflip_ok C Iel). cbn [negb andb]. assert (O : owner w MEDGE ro eo r e') by (split; auto). pose proof (edge_flag D O) as Q. unfold flag in Q. destruct (is_pghost _ && reversed _ _); [reflexivity|congruence]. }
  rewrite F. unfold MstkMesh_proofs2.cverts. rewrite D2. cbn [Nat.eqb].
  assert (X : In (if ((if b then 1 else -1) =? 1)%Z then swap (swap (pid j (k_ev (w_mesh w r) e'))) else swap (pid j (k_ev (w_mesh w r) e'))) (edges (map (id_of j MVERTEX) (k_fv (w_mesh w r) h)))).
  { rewrite Geometry_proofs.edges_map, (proj1 (mk_fv W h Ih)), map_map. apply in_map_iff. exists (e', b). split; auto. unfold used. cbn [fst snd]. destruct b; reflexivity. }
  split; [exact X|].
  destruct (cell_round_2 W C D2 E) as [_ L3]. unfold api_cell_nodes in L3. rewrite (cell_nodes_ok C E) in L3. cbn [ans] in L3. unfold MstkMesh_proofs2.cverts in L3. rewrite D2 in L3. cbn [Nat.eqb] in L3.
  assert (Nd : NoDup (map (id_of j MVERTEX) (k_fv (w_mesh w r) h))) by (apply (@map_id_nodup _ _ _ _ _ _ C NODE _ bk_node I); [intros v Iv; apply (fv_range W Ih Iv)|apply (mk_fv W h Ih)]).
  destruct b; cbn in X |- *; unfold swap in *; cbn [fst snd] in *; apply (no_way_back Nd L3 X).
Qed.
