(** C71, C72, C75 on a 1D mesh: what the sides and wedges of a line mesh of Mesh_simple report. *)
From Coq Require Import Reals Permutation Lra.
From Verif Require Import Base Loop Defs Factory SimpleMesh SimpleMesh_spec SimpleMesh_proofs4 Cache Cache_spec Cache_proofs Cache_proofs2 Cache_proofs4 Cache_proofs5 Cache_proofs6 SimpleTopo Props_Cache Props_Cache1D Point Geometry Geometry_spec Geometry_proofs
  Props_Segment MeshGeom MeshGeom_spec MeshGeom_proofs MeshGeom_proofs2 Props_MeshUpdate.
Set Implicit Arguments.
Local Open Scope R_scope.

(** the 1D mesh object with its geometry: face f has the coordinates of node f, cell c those of nodes c and c+1 (Mesh_simple.cc:724-763 through
    Mesh_simple.hh's 1D face and cell nodes) *)
Definition line_g (m : cmesh) (gt : geom_type) : gmesh := GMesh m 1 gt (fun f => Ok [f]) (fun c => Ok [c; (c + 1)%nat]).
(** coordinates of the nodes as points *)
Definition on_line (x : list R) : coordinates := map P1 x.

(** ** faces and cells of the line mesh *)
Section P.
Variables (x0 : list R) (fl : flags) (m : cmesh).
Hypothesis S : fl_sides (close_flags fl) = true.
Hypothesis C : construct_1d x0 fl = Ok m.
Lemma line_topo : exists t, built t line_shape fl m /\ line_mesh t /\ ncells t = (length x0 - 1)%nat /\ cells_bghost t = [] /\ nnodes t = length x0 /\
  (forall c, (c < ncells t)%nat -> cell_get_faces_and_dirs m c = Ok [(c, (-1)%Z); ((c + 1)%nat, 1%Z)]) /\
  (forall f, (f < nfaces t)%nat -> exists l, face_get_cells m f TYPE_ALL = Ok (map Z.of_nat l) /\ forall c, In c l <-> (c < ncells t /\ (f = c \/ f = c + 1))%nat).
Proof.
  assert (C' := C). unfold construct_1d in C'. destruct (make_simple_1d x0 _ _ false) as [sm| | | |] eqn:Em; try discriminate. cbn [bind] in C'.
  destruct (@simple_line _ x0 fl sm S Em) as [LM NC]. exists (simple_topo sm).
  assert (B : built (simple_topo sm) line_shape fl m) by (constructor; auto; [apply fm_1d; auto|]; intros _; apply line_node_consistent; auto).
  assert (Hx : x0 <> []) by (intros ->; discriminate).
  destruct (close_closed fl) as [_ [_ Cl]]. destruct (Cl S) as [F1 F2]. assert (Em' := Em). rewrite F1, F2 in Em'.
  destruct (make_simple_1d_conn true true Hx) as (m0 & E0 & K & H1 & H2 & H3 & H4 & _ & _ & _ & _ & _ & _ & _ & Hn & Hc & Hf & He).
  rewrite Em' in E0. injection E0 as <-.
  assert (Md := made_of _ _ (bl_ok B)).
  split; [auto|]. split; [auto|]. split; [auto|]. split; [reflexivity|]. split; [unfold nnodes; simpl; rewrite Hn, seq_length; lia|]. split.
  - intros c Lc. assert (E := md_cf Md). rewrite F1 in E. apply when_true in E as [cf [Ec Ecf]]. unfold cache_cell2face_info in Ec. unfold cell_get_faces_and_dirs. rewrite Ecf. cbn [need bind].
    destruct (mapM_seq _ _ Ec) as [_ H]. destruct (H c Lc) as (y & Ey & Ny). rewrite NC, <- H1 in Lc. cbn [fw_cell_faces simple_topo] in Ey. rewrite (q_cell_faces K Lc) in Ey. cbn in Ey. injection Ey as <-. apply rd_Ok. auto.
  - intros f Lf. assert (Lf' := Lf). rewrite (ln_faces LM), NC in Lf'. assert (Lf2 : (f < num_faces sm)%nat) by (destruct x0; simpl in *; [congruence|lia]).
    destruct (q_face_cells K Lf2) as (z0 & z1 & _ & _ & E' & _). destruct (@face_cells_range _ _ _ _ _ _ K f _ Lf2 E') as (_ & _ & Rg).
    assert (Du := fun c Hc => @face_cells_dual _ _ _ _ _ _ K f c _ Lf2 Hc E').
    exists (map Z.to_nat (cellz z0 ++ cellz z1)). split.
    + apply (@c63_all_cells_of_the_face (simple_topo sm) (close_flags fl)); auto. cbn [fw_face_cells simple_topo]. rewrite E'. reflexivity.
    + intros c. rewrite NC, <- H1. split.
      * intros I. apply in_map_iff in I as (z & Ez & I). assert (I' := I). apply Rg in I' as (c' & Lc & ->). rewrite Nat2Z.id in Ez. subst c'. split; auto. apply Du in I; auto. destruct I as [I|[I|[]]]; auto.
      * intros (Lc & Q). apply in_map_iff. exists (Z.of_nat c). split; [apply Nat2Z.id|]. apply Du; auto. unfold cf1. simpl. destruct Q; auto.
Qed.
End P.

(** ** the geometry of a line mesh can always be computed *)
Section T.
Variables (x0 : list R) (fl : flags) (m : cmesh) (gt : geom_type) (x : list R).
Hypothesis S : fl_sides (close_flags fl) = true.
Hypothesis C : construct_1d x0 fl = Ok m.
Hypothesis L : length x = length x0.
Hypothesis N : gt <> CYLINDRICAL.
Lemma rd_line i : (i < length x0)%nat -> rd (on_line x) i = Ok (P1 (nth i x 0)).
Proof. intros H. apply rd_Ok. unfold on_line. rewrite nth_error_map. rewrite (nth_error_nth' x 0) by lia. auto. Qed.
Lemma line_mdim : mdim (line_g m gt) = 1%nat.
Proof. destruct (@line_topo x0 fl m S C) as (t & B & LM & _). unfold mdim. cbn [line_g gm]. rewrite (fa_topo (built_facts B)), (ln_dim LM). auto. Qed.
Lemma area_line i : (i < length x0)%nat -> exists a, face1d_area gt [P1 (nth i x 0)] = Ok (Some a) /\ a = match gt with CARTESIAN => 1 | _ => 4 * PI * nth i x 0 ^ 2 end.
Proof. intros _. unfold face1d_area. destruct gt; [eauto| |congruence]. cbn. eauto. Qed.
Lemma set_normals_line t f n0 n1 v : built t line_shape fl m -> 
  (forall c, (c < ncells t)%nat -> cell_get_faces_and_dirs m c = Ok [(c, (-1)%Z); ((c + 1)%nat, 1%Z)]) ->
  (exists l, face_get_cells m f TYPE_ALL = Ok (map Z.of_nat l) /\ forall c, In c l <-> (c < ncells t /\ (f = c \/ f = c + 1))%nat) ->
  exists r, set_normals (line_g m gt) f v n0 n1 = Ok r /\
    ((exists c, c < ncells t /\ f = c + 1)%nat -> fst r = v) /\ ((exists c, c < ncells t /\ f = c)%nat -> snd r = popp v).
Proof.
  intros B CF (l & El & Hl). unfold set_normals. cbn [line_g gm]. rewrite El. cbn [bind]. clear El.
  assert (K : forall l' ns, (forall c, In c l' -> (c < ncells t /\ (f = c \/ f = c + 1))%nat) -> exists r,
    foldM (map Z.of_nat l') (fun c ns => d <- cell_face_dir (line_g m gt) (Z.to_nat c) f ;; Ok (if (d =? 1)%Z then (v, snd ns) else (fst ns, popp v))) ns = Ok r /\
    ((exists c, In c l' /\ f = c + 1)%nat \/ fst ns = v -> fst r = v) /\ ((exists c, In c l' /\ f = c)%nat \/ snd ns = popp v -> snd r = popp v)).
  { induction l' as [|c l' IH]; intros ns Hc; cbn [map foldM].
    - exists ns. split; auto. split; intros [(c & [] & _)|H]; auto.
    - destruct (Hc c (or_introl eq_refl)) as [Lc Q]. rewrite Nat2Z.id. unfold cell_face_dir. cbn [line_g gm]. rewrite CF by auto. cbn [bind find_dir].
      assert (D : exists d, (if (c =? f)%nat then Ok (-1)%Z else if (c + 1 =? f)%nat then Ok 1%Z else AssertFail) = Ok d /\ (d = 1%Z <-> f = c + 1)%nat /\ (d = (-1)%Z <-> f = c)).
      { destruct (Nat.eqb_spec c f) as [->|Ne]; [exists (-1)%Z; split; auto; split; split; intros; auto; try discriminate; lia|]. destruct (Nat.eqb_spec (c + 1) f); [|destruct Q; lia]. exists 1%Z. split; auto. split; split; intros; auto; try discriminate; lia. }
      destruct D as (d & -> & D1 & D2). cbn [bind]. destruct (IH (if (d =? 1)%Z then (v, snd ns) else (fst ns, popp v))) as (r & Er & R1 & R2); [intros c' I; apply Hc; right; auto|].
      exists r. split; [exact Er|]. split; intros [(c' & [<-|I] & E)|E].
      + apply R1. right. apply D1 in E. subst d. auto.
      + apply R1. left. eauto.
      + apply R1. right. destruct (d =? 1)%Z; auto.
      + apply R2. right. apply D2 in E. subst d. auto.
      + apply R2. left. eauto.
      + apply R2. right. destruct (d =? 1)%Z; auto. }
  destruct (K l (n0, n1)) as (r & Er & R1 & R2); [intros c I; apply Hl; auto|]. exists r. split; [exact Er|]. split; intros (c & Lc & E); [apply R1|apply R2]; left; exists c; split; auto; apply Hl; auto.
Qed.
(** the area, "centroid" and normals computed for face f *)
Lemma face_line t f : built t line_shape fl m -> line_mesh t -> ncells t = (length x0 - 1)%nat ->
  (forall c, (c < ncells t)%nat -> cell_get_faces_and_dirs m c = Ok [(c, (-1)%Z); ((c + 1)%nat, 1%Z)]) ->
  (forall f, (f < nfaces t)%nat -> exists l, face_get_cells m f TYPE_ALL = Ok (map Z.of_nat l) /\ forall c, In c l <-> (c < ncells t /\ (f = c \/ f = c + 1))%nat) ->
  (f < length x0)%nat -> exists r n0 n1, compute_face_geometry (line_g m gt) (on_line x) f = Ok (r, P1 0, (n0, n1)) /\
    r = match gt with CARTESIAN => 1 | _ => 4 * PI * nth f x 0 ^ 2 end /\
    ((exists c, c < ncells t /\ f = c + 1)%nat -> n0 = P1 r) /\ ((exists c, c < ncells t /\ f = c)%nat -> n1 = P1 (- r)).
Proof.
  intros B LM NC CF FC Hf. unfold compute_face_geometry. rewrite line_mdim. cbn [line_g sdim pset pzero pd bind]. unfold face_get_coordinates. cbn [line_g fnodes bind mapM]. rewrite rd_line by auto. cbn [bind gtype line_g].
  destruct (@area_line f Hf) as (a & -> & Ea). cbn [bind].
  destruct (@set_normals_line t f (Pt 1 0 0 0) (Pt 1 0 0 0) (Pt 1 a 0 0) B CF) as (r & Er & R1 & R2); [apply FC; rewrite (ln_faces LM), NC; lia|].
  rewrite Er. cbn [bind]. exists a, (fst r), (snd r). split; [destruct r; reflexivity|]. split; auto.
Qed.
Lemma side_total t g s x' mid : built t line_shape fl m -> line_mesh t -> ncells t = (length x0 - 1)%nat -> nnodes t = length x0 -> nth_error (trips t line_shape) s = Some x' ->
  g_cok g = true -> length (g_ccen g) = ncells t -> (0 < pd mid)%nat -> exists r, compute_side_geometry (line_g m gt) (on_line x) g s mid = Ok r /\ pd (snd r) = pd mid.
Proof.
  intros B LM NC NN Hx Gk Gl Pm. destruct (built_flags B) as (_ & _ & FS). destruct (side_at B _ Hx) as (Sc & Sf & Se & Sn). 
  destruct (T_range (bl_mesh B) _ (nth_error_In _ _ Hx)) as (Lc & Lf & Le & _).
  assert (Ns : (snode t line_shape x' 0 < length x0)%nat).
  { unfold snode, orient, enodes', side_orient. rewrite (ln_dim LM). cbn. rewrite (ln_edges LM), NC in Le. rewrite (ln_nodes LM), NC in NN. repeat match goal with |- context [if ?b then _ else _] => destruct b end; cbn; lia. }
  destruct (nth_error (g_ccen g) (tcell x')) as [cc|] eqn:Ecc; [|apply nth_error_None in Ecc; lia]. apply rd_Ok in Ecc.
  unfold compute_side_geometry, side_get_coordinates. rewrite line_mdim. cbn [line_g gm]. rewrite FS. cbn [asserting]. rewrite Sn, Sc by lia. cbn [bind]. unfold node_get_coordinates. rewrite rd_line by auto. cbn [bind].
  unfold cell_centroid. rewrite Gk. cbn [asserting]. rewrite Ecc. cbn [bind rd nth_error]. destruct (fa_sides (built_facts B)) as (opp & Esi & _).
  assert (E1 : exists r, side_1d (gtype (line_g m gt)) (P1 (nth (snode t line_shape x' 0) x 0)) cc = Ok r) by (unfold side_1d; cbn [line_g gtype]; destruct gt; [eauto|eauto|congruence]).
  destruct E1 as (r & E1). rewrite E1. cbn [bind]. rewrite Esi. cbn [need bind final_info side_cell_id side_node_ids].
  rewrite (@rd_map _ _ (fun x => fst (orient t (enodes' t line_shape) x)) _ _ _ Hx). cbn [bind]. rewrite (rd_map _ _ _ Hx). cbn [bind].
  assert (FN : fw_cell_nodes (cm_topo m) (tcell x') = Ok [tcell x'; (tcell x' + 1)%nat]) by (rewrite (fa_topo (built_facts B)); apply (ln_cn LM Lc)).
  rewrite FN. cbn [bind rd nth_error]. unfold pset. destruct (pd mid) as [|[|[|k]]] eqn:Em; [lia|..]; cbn [bind]; eexists; (split; [reflexivity|]); match goal with |- context [if ?b then _ else _] => destruct b end; cbn; auto; lia.
Qed.
Lemma line_update_total g : exists g', update_geometric_quantities (line_g m gt) (on_line x) g = Ok g'.
Proof.
  destruct (@line_topo x0 fl m S C) as (t & B & LM & NC & BG & NN & CF & FC). destruct (built_flags B) as (FF & FE & FS). set (M := line_g m gt). set (X := on_line x).
  assert (Lx : length x0 = nnodes t) by auto. assert (Lx2 := ln_nodes LM).
  unfold update_geometric_quantities. cbn [M line_g gm] in *. rewrite FF, FE, FS. cbn [orb].
  assert (EM : cm_topo (gm M) = t) by (apply (fa_topo (built_facts B))).
  destruct (@mapM_exists _ _ (compute_face_geometry M X) (seq 0 (nfaces t))) as [lf Elf].
  { intros f I. apply in_seq in I. rewrite (ln_faces LM) in I. destruct (@face_line t f B LM NC CF FC) as (r & n0 & n1 & E & _); [lia|eauto]. }
  destruct (@mapM_exists _ _ (compute_edge_geometry M X) (seq 0 (nedges t))) as [le Ele].
  { intros e I. apply in_seq in I. unfold compute_edge_geometry. cbn [M line_g sdim pset pzero pd bind]. unfold edge_get_nodes. cbn [M line_g gm]. rewrite (fa_en (built_facts B)).
    rewrite rd_tab by lia. unfold enodes'. rewrite (ln_dim LM). cbn [bind Nat.eqb fst snd]. unfold node_get_coordinates. rewrite (ln_edges LM) in I. unfold X. rewrite rd_line by lia. cbn [bind]. eauto. }
  destruct (@mapM_exists _ _ (cell_entry M X) (seq 0 (ncells t))) as [lc Elc].
  { intros c I. apply in_seq in I. unfold cell_entry. destruct (fa_typed (built_facts B)) as [Lt Ht]. cbn [M line_g gm]. rewrite ctype_of_rd by lia. cbn [bind].
    assert (K : exists r, compute_cell_geometry M X c = Ok r).
    { unfold compute_cell_geometry. assert (mdim M = 1%nat) as -> by (unfold mdim; rewrite EM; apply (ln_dim LM)). unfold cell_get_coordinates. cbn [M line_g cverts bind mapM]. unfold X. rewrite !rd_line by lia. cbn [bind]. rewrite segment_eq. cbn [line_g gtype M].
      destruct gt; [| |congruence]; cbn [bind]; eauto. }
    destruct (ctype_of (cm_ctype m) c); auto. eauto. }
  unfold compute_faces. rewrite EM, Elf. cbn [bind]. unfold compute_edges. rewrite EM, Ele. cbn [bind]. unfold compute_cells. rewrite EM, Elc. cbn [bind]. cbn [g_cvol g_ccen g_cok g_farea g_fcen g_n0 g_n1 g_fok g_elen g_evec g_eok g_svol g_sout g_smid g_sok g_kvol g_kok].
  unfold compute_sides at 1. cbn [g_cvol g_ccen g_cok g_farea g_fcen g_n0 g_n1 g_fok g_elen g_evec g_eok g_svol g_sout g_smid g_sok g_kvol g_kok].
  match goal with |- context [foldM _ (side_step M X ?h) _] => set (g3 := h) end.
  assert (Hc : g_cok g3 = true /\ length (g_ccen g3) = ncells t) by (cbn; rewrite map_length, (mapM_length _ _ Elc), seq_length; auto).
  assert (TT : forall l o mi, (forall s, In s l -> (s < length (trips t line_shape))%nat) -> (0 < pd o)%nat -> (0 < pd mi)%nat -> exists rs, side_trace M X g3 l o mi = Ok rs).
  { induction l as [|s l IH]; intros o mi Hl Ho Hm; cbn [side_trace]; [eauto|].
    destruct (nth_error (trips t line_shape) s) as [x'|] eqn:Hx; [|apply nth_error_None in Hx; specialize (Hl s (or_introl eq_refl)); lia].
    assert (NT : exists ty, entity_get_type m SIDE s = Ok ty /\ ty <> BOUNDARY_GHOST).
    { assert (Ls : (s < n_sides m)%nat) by (rewrite (n_sides_eq B); apply (Hl s); left; auto).
      destruct (@c29_reported_type_is_the_cells_type t line_shape fl m SIDE s B S Ls) as (c' & ct & O & T' & E'). exists ct. split; auto.
      intros ->. destruct T' as [[? _]|[[? _]|[_ T']]]; try discriminate. rewrite BG in T'. destruct T'. }
    destruct NT as (ty & Et & NT). destruct (@side_total t g3 s x' mi B LM NC NN Hx (proj1 Hc) (proj2 Hc) Hm) as (r & Er & Pr).
    assert (Q : side_entry M X g3 s o mi = Ok r /\ (0 < pd (snd (fst r)))%nat).
    { unfold side_entry. cbn [M line_g gm]. rewrite Et. cbn [bind]. split; [destruct ty; auto; congruence|].
      unfold compute_side_geometry in Er. fold M X in Er. replace (mdim M) with 1%nat in Er by (unfold M; rewrite line_mdim; auto). 
      destruct (side_get_coordinates M X g3 s false) as [sc| | | |]; try discriminate. cbn [bind] in Er. destruct (rd sc 0); try discriminate. cbn [bind] in Er. destruct (rd sc 1); try discriminate. cbn [bind] in Er.
      destruct (side_1d (gtype M) _ _) as [q| | | |] eqn:E1; try discriminate. cbn [bind] in Er.
      assert (Pq : (0 < pd (snd q))%nat) by (unfold side_1d in E1; destruct (gtype M); try discriminate; apply Ok_inj in E1; subst q; cbn [snd]; [unfold pdiv|]; apply smul_pos).
      repeat match type of Er with bind ?o _ = _ => destruct o; try discriminate; cbn [bind] in Er end. apply Ok_inj in Er. subst r. match goal with |- context [if ?b then _ else _] => destruct b end; cbn [fst snd]; auto. unfold popp. destruct (pd (snd q)) as [|[|[|]]]; cbn [pd]; lia. }
    destruct Q as (-> & Q1). cbn [bind]. destruct (IH (snd (fst r)) (snd r)) as (rs & ->); auto; [intros; apply Hl; right; auto|rewrite Pr; auto|]. cbn [bind]. eauto. }
  destruct (TT (ids (gm M) SIDE TYPE_ALL) (pzero 1) (pzero 1)) as (rs & Ers); [|cbn; lia|cbn; lia|].
  { cbn [M line_g gm]. rewrite (side_ids B). intros s I. apply in_seq in I. lia. }
  assert (Ns : num_entities (gm M) SIDE TYPE_ALL = length (trips t line_shape)) by (apply (n_sides_eq B)).
  assert (Lr := side_trace_length _ _ _ _ _ _ Ers).
  destruct (@wr_all_cover R (ids (gm M) SIDE TYPE_ALL) (map (fun r => fst (fst r)) rs) (length (trips t line_shape)) (resize (num_entities (gm M) SIDE TYPE_ALL) 0 (g_svol g))) as (sv & Esv & Lsv & _).
  { cbn [M line_g gm]. rewrite (side_ids B). auto. } { rewrite map_length. auto. } { rewrite resize_length. auto. }
  destruct (@side_fold_ok M X g3 _ rs (resize (num_entities (gm M) SIDE TYPE_ALL) 0 (g_svol g)) (g_sout g) (g_smid g) _ _ sv Ers Esv) as (po & pm & Ef).
  change (sdim M) with 1%nat. rewrite Ef. cbn [bind].
  destruct (fl_corners (cm_flags m)) eqn:FC'; [|eauto].
  assert (Cc : fl_corners (close_flags fl) = true) by (rewrite <- (fa_flags (built_facts B)); auto). assert (W := proj1 (close_closed fl) Cc).
  unfold compute_corners. match goal with |- context [foldM _ (corner_step M X ?h) _] => set (g4 := h) end.
  destruct (@c29_lists_partition t line_shape fl m CORNER B Cc) as [_ PC]. cbv zeta in PC.
  destruct (@mapM_exists _ _ (corner_value M X g4) (ids (gm M) CORNER TYPE_ALL)) as [ks Eks].
  { intros k I. apply (Permutation_in _ PC) in I. apply in_seq in I. destruct (@c29_reported_type_is_the_cells_type t line_shape fl m CORNER k B Cc) as (c & ct & _ & _ & Et); [apply I|].
    unfold corner_value. cbn [M line_g gm]. rewrite Et. cbn [bind]. destruct (c28_one_corner_per_cell_and_node B Cc) as [K _]. destruct (K k (proj2 I)) as (c0 & n0 & IC & _).
    destruct (c28_corner_wedges B Cc IC) as (ws & Ew & _ & _ & Hw).
    assert (V : exists v, compute_corner_geometry M X g4 k = Ok v).
    { unfold compute_corner_geometry. cbn [M line_g gm]. rewrite Ew. cbn [bind]. assert (Hl : forall w, In w ws -> (w / 2 < length (g_svol g4))%nat).
      { intros w Iw. apply Hw in Iw as [Lw _]. rewrite (n_wedges_eq B W) in Lw. cbn [g4 g_svol]. rewrite Lsv. apply Nat.div_lt_upper_bound; lia. }
      clear Ew Hw. generalize 0 as acc. induction ws as [|w ws IH]; intros acc; cbn [foldM]; [eauto|]. unfold wedge_volume at 1. cbn [M line_g gm]. destruct (swT B W) as [_ ->]. cbn [g4 g_sok asserting andb].
      destruct (nth_error (g_svol g4) (w / 2)) as [v|] eqn:E; [|apply nth_error_None in E; specialize (Hl w (or_introl eq_refl)); lia].
      apply rd_Ok in E. rewrite E. cbn [bind]. apply IH. intros; apply Hl; right; auto. }
    destruct ct; eauto. }
  destruct (@wr_all_cover R (ids (gm M) CORNER TYPE_ALL) ks _ (resize (num_entities (gm M) CORNER TYPE_ALL) 0 (g_kvol g4)) PC) as (kv & Ekv & _).
  { apply (mapM_length _ _ Eks). } { rewrite resize_length. auto. }
  assert (EF := corner_fold_ok M X g4 _ _ Eks Ekv). rewrite EF. cbn [bind]. eauto.
Qed.
End T.

Section L.
Variables (x0 : list R) (fl : flags) (m : cmesh) (gt : geom_type) (x : list R) (xs : list coordinates) (g : geo).
Let M := line_g m gt.
Let X := on_line x.
Hypothesis S : fl_sides (close_flags fl) = true.
Hypothesis C : construct_1d x0 fl = Ok m.
Hypothesis L : length x = length x0.
Hypothesis N : gt <> CYLINDRICAL.
Hypothesis H : history M (X :: xs) g.
Variables (c : nat) (a b : R).
Hypothesis Ha : nth_error x c = Some a.
Hypothesis Hb : nth_error x (c + 1) = Some b.
Hypothesis AB : a < b.
Hypothesis A0 : gt = SPHERICAL -> 0 <= a.
Lemma c_lt : (c < length x0 - 1)%nat.
Proof. assert (c + 1 < length x)%nat by (apply nth_error_Some; congruence). lia. Qed.
Lemma rd_a : rd X c = Ok (P1 a) /\ rd X (c + 1) = Ok (P1 b).
Proof. unfold X, on_line. split; apply rd_Ok; rewrite nth_error_map, ?Ha, ?Hb; auto. Qed.
Lemma cell_line : compute_cell_geometry M X c = Ok (true_volume gt a b, P1 ((a + b) / 2)).
Proof.
  unfold compute_cell_geometry. destruct (@construct_1d_built R x0 fl m S C) as (t & B & LM & NC). unfold mdim. cbn [M line_g gm]. rewrite (fa_topo (built_facts B)), (ln_dim LM).
  unfold cell_get_coordinates. cbn [M line_g cverts bind mapM]. destruct rd_a as [-> ->]. cbn [bind]. rewrite segment_eq. cbn [line_g gtype M].
  destruct gt; [| |congruence]; cbn [bind]; do 2 f_equal; unfold true_volume; try (rewrite ?Rabs_pos_eq by lra; field).
Qed.
Lemma bg : exists t, built t line_shape fl m /\ line_mesh t /\ ncells t = (length x0 - 1)%nat /\ cells_bghost t = [].
Proof.
  unfold construct_1d in C. destruct (make_simple_1d x0 _ _ false) as [sm| | | |] eqn:Em; try discriminate. cbn [bind] in C.
  destruct (@simple_line _ x0 fl sm S Em) as [LM NC]. exists (simple_topo sm). split; [|split; [auto|split; [auto|reflexivity]]].
  constructor; auto; [apply fm_1d; auto|]. intros _. apply line_node_consistent; auto.
Qed.
Lemma centre_line : cell_volume M X g c false = Ok (true_volume gt a b) /\ cell_centroid M X g c false = Ok (P1 ((a + b) / 2)).
Proof.
  destruct bg as (t & B & LM & NC & BG). assert (Hc : (c < ncells t)%nat) by (rewrite NC; apply c_lt).
  destruct (@fresh_cell t line_shape fl M X xs g B H c Hc) as (ty & r & Et & T & E & V & V2 & K). unfold cell_entry in E. rewrite Et in E. cbn [bind] in E.
  assert (E' : compute_cell_geometry M X c = Ok r) by (destruct ty; auto; destruct T as [[? _]|[[? _]|[_ T]]]; try discriminate; rewrite BG in T; destruct T).
  rewrite cell_line in E'. injection E' as <-. cbn [fst snd] in *. unfold cell_volume, cell_centroid. rewrite V, V2, K. auto.
Qed.
(** the volume of the half of the cell next to each node *)
Definition half_left := true_volume gt a ((a + b) / 2).
Definition half_right := true_volume gt ((a + b) / 2) b.
Lemma halves : 0 < half_left /\ 0 < half_right /\ half_left + half_right = true_volume gt a b.
Proof.
  unfold half_left, half_right, true_volume. assert (P := PI_RGT_0). destruct gt; [lra| |congruence]. assert (A := A0 eq_refl).
  assert (Q : forall u v, 0 <= u -> u < v -> 0 < 4 / 3 * PI * v ^ 3 - 4 / 3 * PI * u ^ 3).
  { intros u v U UV. assert (D : 0 < v ^ 3 - u ^ 3) by (replace (v ^ 3 - u ^ 3) with ((v - u) * (v * v + u * v + u * u)) by ring; apply Rmult_lt_0_compat; nra).
    replace (4 / 3 * PI * v ^ 3 - 4 / 3 * PI * u ^ 3) with (4 / 3 * PI * (v ^ 3 - u ^ 3)) by ring. apply Rmult_lt_0_compat; [|lra]. lra. }
  split; [apply Q; lra|]. split; [apply Q; lra|lra].
Qed.
(** the face area at a node *)
Definition area (r : R) : R := match gt with CARTESIAN => 1 | _ => 4 * PI * r ^ 2 end.
Lemma side_line : exists s0 s1, cell_get_sides m c = Ok [s0; s1] /\ (s0 < n_sides m)%nat /\ (s1 < n_sides m)%nat /\
  (forall pv, side_get_coordinates M X g s0 pv = Ok [P1 a; P1 ((a + b) / 2)]) /\
  side_get_coordinates M X g s1 false = Ok [P1 b; P1 ((a + b) / 2)] /\ side_get_coordinates M X g s1 true = Ok [P1 ((a + b) / 2); P1 b] /\
  compute_side_geometry M X g s0 (pzero 1) = Ok (half_left, P1 (- area a), P1 0) /\
  compute_side_geometry M X g s1 (pzero 1) = Ok (- half_right, P1 (- area b), P1 0) /\
  side_volume M X g s0 false = Ok half_left /\ side_volume M X g s1 false = Ok (- half_right).
Proof.
  destruct bg as (t & B & LM & NC & BG). assert (Hc : (c < ncells t)%nat) by (rewrite NC; apply c_lt).
  destruct (@c30_two_sides_per_cell R x0 fl m c S C c_lt) as (s0 & s1 & Es & _ & I0 & I1 & Sn). exists s0, s1. split; auto.
  destruct I0 as (L0 & C0 & F0 & G0). destruct I1 as (L1 & C1 & F1 & G1). split; auto. split; auto.
  destruct centre_line as [_ Ecc]. destruct rd_a as [Ra Rb]. destruct (built_flags B) as (_ & _ & FS).
  destruct (Sn 0%nat ltac:(lia)) as [N0 N1].
  assert (MD : mdim M = 1%nat) by (unfold mdim; cbn [M line_g gm]; rewrite (fa_topo (built_facts B)), (ln_dim LM); auto).
  assert (FN : fw_cell_nodes (cm_topo (gm M)) c = Ok [c; (c + 1)%nat]) by (cbn [M line_g gm]; rewrite (fa_topo (built_facts B)); apply (ln_cn LM Hc)).
  assert (K0 : forall pv, side_get_coordinates M X g s0 pv = Ok [P1 a; P1 ((a + b) / 2)]).
  { intros pv. unfold side_get_coordinates. rewrite MD. cbn [M line_g gm]. rewrite FS. cbn [asserting]. rewrite N0. cbn [bind]. unfold node_get_coordinates. rewrite Ra. cbn [bind]. rewrite C0. cbn [bind]. fold M. rewrite Ecc. cbn [bind].
    destruct pv; auto. cbn [gm M line_g] in FN. rewrite FN. cbn [bind rd nth_error]. assert (c =? c + 1 = false)%nat as -> by (apply Nat.eqb_neq; lia). auto. }
  assert (K1 : forall pv, side_get_coordinates M X g s1 pv = if pv then swap01 [P1 b; P1 ((a + b) / 2)] else Ok [P1 b; P1 ((a + b) / 2)]).
  { intros pv. unfold side_get_coordinates. rewrite MD. cbn [M line_g gm]. rewrite FS. cbn [asserting]. rewrite N1. cbn [bind]. unfold node_get_coordinates. rewrite Rb. cbn [bind]. rewrite C1. cbn [bind]. fold M. rewrite Ecc. cbn [bind].
    destruct pv; auto. cbn [gm M line_g] in FN. rewrite FN. cbn [bind rd nth_error]. rewrite Nat.eqb_refl. auto. }
  split; auto. split; [apply (K1 false)|]. split; [rewrite (K1 true); reflexivity|].
  destruct (fa_sides (built_facts B)) as (opp & Esi & _).
  assert (Cs : forall s k, (s < n_sides m)%nat -> side_get_cell m s = Ok c -> side_get_node m s 0 = Ok k -> exists q nn, cm_sides m = Some q /\ rd (side_cell_id q) s = Ok c /\ rd (side_node_ids q) s = Ok nn /\ fst nn = k).
  { intros s k Ls Ec Ek. rewrite (n_sides_eq B) in Ls. unfold res in *. destruct (nth_error (trips t line_shape) s) as [y|] eqn:Hy; [|apply nth_error_None in Hy; lia].
    destruct (side_at B _ Hy) as (Sc & _ & _ & Sn'). rewrite Sn' in Ek by lia. injection Ek as <-. rewrite Ec in Sc. injection Sc as Sc. eexists. exists (fst (orient t (enodes' t line_shape) y)). split; [exact Esi|].
    cbn [final_info side_cell_id side_node_ids]. split; [rewrite (rd_map _ _ _ Hy); f_equal; auto|]. split; [apply (@rd_map _ _ (fun x => fst (orient t (enodes' t line_shape) x)) _ _ _ Hy)|reflexivity]. }
  assert (R1 : forall u v, u <> v -> psub (P1 u) (P1 v) = P1 (u - v) /\ norm (P1 (u - v)) = Rabs (u - v)) by (intros; split; [reflexivity|apply norm1]).
  assert (G0' : compute_side_geometry M X g s0 (pzero 1) = Ok (half_left, P1 (- area a), P1 0)).
  { unfold compute_side_geometry. rewrite MD, K0. cbn [bind rd nth_error]. destruct (Cs s0 c L0 C0 N0) as (q & nn & Eq & Q1 & Q2 & Q3).
    destruct (R1 ((a + b) / 2) a ltac:(lra)) as [P Q]. unfold side_1d. rewrite P, Q. cbn [gtype M line_g gm].
    assert (AA : Rabs ((a + b) / 2 - a) = (b - a) / 2) by (rewrite Rabs_pos_eq; lra). rewrite AA. cbn [P1 p0 pd].
    assert (E3 : gt = SPHERICAL -> Rabs (((a + b) / 2) ^ 3 - a ^ 3) = ((a + b) / 2) ^ 3 - a ^ 3).
    { intros E. apply Rabs_pos_eq. specialize (A0 E). replace (((a + b) / 2) ^ 3 - a ^ 3) with (((a + b) / 2 - a) * ((a + b) / 2 * ((a + b) / 2) + (a + b) / 2 * a + a * a)) by ring. apply Rmult_le_pos; [lra|nra]. }
    unfold half_left, half_right, area, true_volume. destruct gt; [| |congruence]; cbn [bind]; rewrite Eq; cbn [need bind]; rewrite Q2; cbn [bind]; rewrite Q1; cbn [bind]; cbn [M line_g gm] in FN; rewrite FN; cbn [bind rd nth_error pset pzero pd];
      rewrite Q3; (assert (c =? c + 1 = false)%nat as -> by (apply Nat.eqb_neq; lia)); cbn [fst snd]; unfold P1, popp, pdiv, smul, pset, pzero; cbn [pd p0 p1 p2]; (apply f_equal; apply f_equal2; [apply f_equal2; [|f_equal; field; lra]|reflexivity]).
    - field.
    - rewrite E3 by auto. field. }
  assert (G1' : compute_side_geometry M X g s1 (pzero 1) = Ok (- half_right, P1 (- area b), P1 0)).
  { unfold compute_side_geometry. rewrite MD, (K1 false). cbn [bind rd nth_error]. destruct (Cs s1 (c + 1)%nat L1 C1 N1) as (q & nn & Eq & Q1 & Q2 & Q3).
    destruct (R1 ((a + b) / 2) b ltac:(lra)) as [P Q]. unfold side_1d. rewrite P, Q. cbn [gtype M line_g gm].
    assert (AA : Rabs ((a + b) / 2 - b) = (b - a) / 2) by (rewrite Rabs_left; lra). rewrite AA. cbn [P1 p0 pd].
    assert (E3 : gt = SPHERICAL -> Rabs (((a + b) / 2) ^ 3 - b ^ 3) = b ^ 3 - ((a + b) / 2) ^ 3).
    { intros E. specialize (A0 E). rewrite Rabs_left1; [ring|]. replace (((a + b) / 2) ^ 3 - b ^ 3) with (- ((b - (a + b) / 2) * ((a + b) / 2 * ((a + b) / 2) + (a + b) / 2 * b + b * b))) by ring.
      assert (0 <= (b - (a + b) / 2) * ((a + b) / 2 * ((a + b) / 2) + (a + b) / 2 * b + b * b)) by (apply Rmult_le_pos; [lra|nra]). lra. }
    unfold half_left, half_right, area, true_volume. destruct gt; [| |congruence]; cbn [bind]; rewrite Eq; cbn [need bind]; rewrite Q2; cbn [bind]; rewrite Q1; cbn [bind]; cbn [M line_g gm] in FN; rewrite FN; cbn [bind rd nth_error pset pzero pd];
      rewrite Q3, Nat.eqb_refl; cbn [fst snd]; unfold P1, popp, pdiv, smul, pset, pzero; cbn [pd p0 p1 p2]; (apply f_equal; apply f_equal2; [apply f_equal2; [|f_equal; field; lra]|reflexivity]).
    - field.
    - rewrite E3 by auto. field. }
  split; [exact G0'|]. split; [exact G1'|].
  assert (T : forall s y, (s < n_sides m)%nat -> side_get_cell m s = Ok c -> compute_side_geometry M X g s (pzero 1) = Ok y -> side_volume M X g s false = Ok (fst (fst y))).
  { intros s y Ls Ec Ey. destruct (@fresh_side t line_shape fl M X xs g B H s Ls) as (ty & r & Et & V & K & T1 & _).
    assert (NT : ty <> BOUNDARY_GHOST).
    { destruct (@c29_reported_type_is_the_cells_type t line_shape fl (gm M) SIDE s B S Ls) as (c' & ct & O & T' & E'). cbn [M line_g gm] in *. rewrite Et in E'. injection E' as <-.
      intros ->. destruct T' as [[? _]|[[? _]|[_ T']]]; try discriminate. rewrite BG in T'. destruct T'. }
    specialize (T1 NT). change (sdim M) with 1%nat in T1. rewrite Ey in T1. injection T1 as <-. unfold side_volume. cbn [M line_g gm] in *. rewrite FS, K. cbn [andb asserting]. exact V. }
  split; [apply (T s0 _ L0 C0 G0')|apply (T s1 _ L1 C1 G1')].
Qed.
End L.

(** ** theorems *)
(** a 1D mesh built from [x0] with sides requested, whose nodes were then moved (the positions [xs], latest first) and are now at [x],
    the geometry having been computed each time *)
Record moved_line (x0 : list R) (fl : flags) (m : cmesh) (gt : geom_type) (x : list R) (xs : list coordinates) (g : geo) : Prop := {
  mvl_sides : fl_sides (close_flags fl) = true;
  mvl_built : construct_1d x0 fl = Ok m;
  mvl_length : length x = length x0;
  mvl_type : gt <> CYLINDRICAL;
  mvl_history : history (line_g m gt) (on_line x :: xs) g }.
(** cell [c] runs from [a] to [b]; in spherical geometry radii are not negative *)
Record segment_of (gt : geom_type) (x : list R) (c : nat) (a b : R) : Prop := {
  so_left : nth_error x c = Some a;
  so_right : nth_error x (c + 1) = Some b;
  so_order : a < b;
  so_radius : gt = SPHERICAL -> 0 <= a }.
(** area of the face at [r]: a point in Cartesian, a sphere in spherical geometry *)
Definition sphere_area (gt : geom_type) (r : R) : R := match gt with CARTESIAN => 1 | _ => 4 * PI * r ^ 2 end.

(** The geometry can be computed for every position of the nodes, so that every sequence of motions is a history. *)
Theorem c60_line_update_succeeds : forall (x0 : list R) fl m gt (x : list R) g, fl_sides (close_flags fl) = true -> construct_1d x0 fl = Ok m -> length x = length x0 -> gt <> CYLINDRICAL ->
  exists g', update_geometric_quantities (line_g m gt) (on_line x) g = Ok g'.
Proof. intros x0 fl m gt x g S C L N. eapply line_update_total; eauto. Qed.
(** With the geometry type CYLINDRICAL it cannot (segment_get_vol_cen and the face area leave their results unset). *)
Theorem c60_line_cylindrical : forall (x0 : list R) fl m (x : list R) g g', fl_sides (close_flags fl) = true -> construct_1d x0 fl = Ok m -> length x = length x0 -> (0 < length x)%nat ->
  update_geometric_quantities (line_g m CYLINDRICAL) (on_line x) g <> Ok g'.
Proof.
  intros x0 fl m x g g' S C L Lx E. destruct (@line_topo x0 fl m S C) as (t & B & LM & NC & BG & NN & CF & FC). destruct (built_flags B) as (FF & FE & FS).
  unfold update_geometric_quantities in E. cbn [line_g gm] in E. rewrite FF in E. unfold compute_faces in E. cbn [line_g gm] in E. rewrite (fa_topo (built_facts B)), (ln_faces LM) in E.
  replace (ncells t + 1)%nat with (Datatypes.S (ncells t)) in E by lia. cbn [seq mapM] in E.
  assert (U : compute_face_geometry (line_g m CYLINDRICAL) (on_line x) 0 = UB).
  { unfold compute_face_geometry. unfold mdim. cbn [line_g gm sdim pset pzero pd bind]. rewrite (fa_topo (built_facts B)), (ln_dim LM). unfold face_get_coordinates. cbn [fnodes bind mapM]. destruct x; [cbn in Lx; lia|]. reflexivity. }
  change {| gm := m; sdim := 1; gtype := CYLINDRICAL; fnodes := fun f => Ok [f]; cverts := fun c => Ok [c; (c + 1)%nat] |} with (line_g m CYLINDRICAL) in E.
  rewrite U in E. discriminate.
Qed.

Section Thm.
Variables (x0 : list R) (fl : flags) (m : cmesh) (gt : geom_type) (x : list R) (xs : list coordinates) (g : geo).
Hypothesis MV : moved_line x0 fl m gt x xs g.
Variables (c : nat) (a b : R).
Hypothesis SO : segment_of gt x c a b.
Lemma sl : exists s0 s1, cell_get_sides m c = Ok [s0; s1] /\ (s0 < n_sides m)%nat /\ (s1 < n_sides m)%nat /\
  (forall pv, side_get_coordinates (line_g m gt) (on_line x) g s0 pv = Ok [P1 a; P1 ((a + b) / 2)]) /\
  side_get_coordinates (line_g m gt) (on_line x) g s1 false = Ok [P1 b; P1 ((a + b) / 2)] /\ side_get_coordinates (line_g m gt) (on_line x) g s1 true = Ok [P1 ((a + b) / 2); P1 b] /\
  compute_side_geometry (line_g m gt) (on_line x) g s0 (pzero 1) = Ok (half_left gt a b, P1 (- area gt a), P1 0) /\
  compute_side_geometry (line_g m gt) (on_line x) g s1 (pzero 1) = Ok (- half_right gt a b, P1 (- area gt b), P1 0) /\
  side_volume (line_g m gt) (on_line x) g s0 false = Ok (half_left gt a b) /\ side_volume (line_g m gt) (on_line x) g s1 false = Ok (- half_right gt a b).
Proof. destruct MV as [S C L N H], SO as [Ha Hb AB A0]. eapply side_line; eauto. Qed.
Lemma cl : cell_volume (line_g m gt) (on_line x) g c false = Ok (true_volume gt a b).
Proof. destruct MV as [S C L N H], SO as [Ha Hb AB A0]. eapply centre_line; eauto. Qed.
Lemma hv : 0 < half_left gt a b /\ 0 < half_right gt a b /\ half_left gt a b + half_right gt a b = true_volume gt a b.
Proof. destruct MV as [S C L N H], SO as [Ha Hb AB A0]. eapply halves; eauto. Qed.
Lemma fnl f re : (f = c \/ f = c + 1)%nat -> exists r, face_normal (line_g m gt) (on_line x) g f re (Some c) = Ok r /\
   r = (if (f =? c)%nat then (P1 (- sphere_area gt a), (-1)%Z) else (P1 (sphere_area gt b), 1%Z)) /\
   face_area (line_g m gt) (on_line x) g f re = Ok (sphere_area gt (if (f =? c)%nat then a else b)) /\
   face_centroid (line_g m gt) (on_line x) g f re = Ok (P1 0).
Proof.
  intros Q. destruct MV as [S C L N H], SO as [Ha Hb AB A0]. destruct (@line_topo x0 fl m S C) as (t & B & LM & NC & BG & NN & CF & FC). destruct (built_flags B) as (FF & FE & FS).
  assert (Lc : (c + 1 < length x)%nat) by (apply nth_error_Some; congruence).
  assert (Hf : (f < length x0)%nat) by lia.
  destruct (@face_line x0 fl m gt x S C L N t f B LM NC CF FC Hf) as (r & n0 & n1 & E & Er & R1 & R2).
  assert (Hf' : (f < nfaces t)%nat) by (rewrite (ln_faces LM); lia).
  destruct (@fresh_face t line_shape fl (line_g m gt) (on_line x) xs g B H f Hf') as (r' & E' & A & K & Na & Nb & Ok'). rewrite E in E'. injection E' as <-. cbn [fst snd] in *.
  assert (D : cell_face_dir (line_g m gt) c f = Ok (if (f =? c)%nat then (-1)%Z else 1%Z)).
  { unfold cell_face_dir. cbn [line_g gm]. rewrite CF by lia. cbn [bind find_dir]. destruct (Nat.eqb_spec f c) as [->|Ne]; [rewrite Nat.eqb_refl; auto|].
    destruct Q as [->| ->]; [lia|]. rewrite Nat.eqb_refl. destruct (Nat.eqb_spec c (c + 1)); [lia|auto]. }
  assert (V : r = sphere_area gt (if (f =? c)%nat then a else b)).
  { rewrite Er. unfold sphere_area. destruct (Nat.eqb_spec f c) as [->|Ne]; [rewrite (nth_error_nth _ _ 0 Ha); auto|]. destruct Q as [->| ->]; [lia|]. rewrite (nth_error_nth _ _ 0 Hb); auto. }
  eexists. split; [|split; [reflexivity|split]].
  - unfold face_normal. cbn [line_g gm]. rewrite FF, Ok'. cbn [andb asserting]. fold (line_g m gt).
    assert (Z : (if re then r0 <- compute_face_geometry (line_g m gt) (on_line x) f;; Ok (snd r0) else n0 <- rd (g_n0 g) f;; n1 <- rd (g_n1 g) f;; Ok (n0, n1)) = Ok (n0, n1)) by (destruct re; [rewrite E; reflexivity|rewrite Na, Nb; reflexivity]).
    rewrite Z. cbn [bind]. rewrite D. cbn [bind fst snd]. destruct (Nat.eqb_spec f c) as [->|Ne]; cbn [Z.eqb].
    + rewrite R2 by (exists c; lia). rewrite V. auto.
    + destruct Q as [->| ->]; [lia|]. rewrite R1 by (exists c; lia). rewrite V. auto.
  - unfold face_area. cbn [line_g gm]. rewrite FF, Ok'. cbn [andb asserting]. fold (line_g m gt). destruct re; [rewrite E; cbn; congruence|rewrite A; congruence].
  - unfold face_centroid. cbn [line_g gm]. rewrite FF, Ok'. cbn [andb asserting]. fold (line_g m gt). destruct re; [rewrite E; reflexivity|auto].
Qed.

(** C61 in 1D: seen from cell c, the normal of its left face points left and that of its right face right; their size is the area. *)
Theorem c61_outward_line : forall re,
  face_normal (line_g m gt) (on_line x) g c re (Some c) = Ok (P1 (- sphere_area gt a), (-1)%Z) /\
  face_normal (line_g m gt) (on_line x) g (c + 1) re (Some c) = Ok (P1 (sphere_area gt b), 1%Z) /\
  face_area (line_g m gt) (on_line x) g c re = Ok (sphere_area gt a) /\ face_area (line_g m gt) (on_line x) g (c + 1) re = Ok (sphere_area gt b).
Proof.
  intros re. destruct (@fnl c re (or_introl eq_refl)) as (r & E & -> & A & _). destruct (@fnl (c + 1)%nat re (or_intror eq_refl)) as (r' & E' & -> & A' & _).
  rewrite Nat.eqb_refl in *. assert (K : (c + 1 =? c)%nat = false) by (apply Nat.eqb_neq; lia). rewrite K in *. auto.
Qed.
(** C76: face_centroid of a 1D mesh is the origin, wherever the face is. *)
Theorem c76_line_face_centroid_refuted : forall re, face_centroid (line_g m gt) (on_line x) g c re = Ok (P1 0) /\ face_centroid (line_g m gt) (on_line x) g (c + 1) re = Ok (P1 0).
Proof. intros re. destruct (@fnl c re (or_introl eq_refl)) as (r & _ & _ & _ & A). destruct (@fnl (c + 1)%nat re (or_intror eq_refl)) as (r' & _ & _ & _ & A'). auto. Qed.
(** C71 in 1D: cell c has two sides; the one at the right node always has a negative volume, so that the sides never add up to the cell. *)
Theorem c71_line_refuted : exists s0 s1 v0 v1 v, cell_get_sides m c = Ok [s0; s1] /\
  side_volume (line_g m gt) (on_line x) g s0 false = Ok v0 /\ side_volume (line_g m gt) (on_line x) g s1 false = Ok v1 /\ cell_volume (line_g m gt) (on_line x) g c false = Ok v /\
  v1 < 0 /\ v0 + v1 < v.
Proof.
  destruct sl as (s0 & s1 & E & _ & _ & _ & _ & _ & _ & _ & V0 & V1). destruct hv as (H0 & H1 & H2). do 5 eexists. split; [exact E|]. split; [exact V0|]. split; [exact V1|]. split; [exact cl|]. lra.
Qed.
(** C71 in 1D, what is true: the absolute values of the volumes of the two sides add up to the volume of the cell, and they are the volumes of its halves *)
Theorem c71_line_partial : exists s0 s1 v0 v1, cell_get_sides m c = Ok [s0; s1] /\
  side_volume (line_g m gt) (on_line x) g s0 false = Ok v0 /\ side_volume (line_g m gt) (on_line x) g s1 false = Ok v1 /\
  Rabs v0 = true_volume gt a ((a + b) / 2) /\ Rabs v1 = true_volume gt ((a + b) / 2) b /\ cell_volume (line_g m gt) (on_line x) g c false = Ok (Rabs v0 + Rabs v1).
Proof.
  destruct sl as (s0 & s1 & E & _ & _ & _ & _ & _ & _ & _ & V0 & V1). destruct hv as (H0 & H1 & H2). do 4 eexists. split; [exact E|]. split; [exact V0|]. split; [exact V1|].
  rewrite Rabs_Ropp, !Rabs_pos_eq by lra. split; [reflexivity|]. split; [reflexivity|]. rewrite cl. f_equal. lra.
Qed.
(** C72 in 1D: the facet normal of the side at the left node is the normal of the left face seen from the cell; that of the side at the right
    node points the other way, into the cell. *)
Theorem c72_line_refuted : exists s0 s1, cell_get_sides m c = Ok [s0; s1] /\
  side_facet_normal (line_g m gt) (on_line x) g s0 true = Ok (P1 (- sphere_area gt a)) /\ face_normal (line_g m gt) (on_line x) g c true (Some c) = Ok (P1 (- sphere_area gt a), (-1)%Z) /\
  side_facet_normal (line_g m gt) (on_line x) g s1 true = Ok (P1 (- sphere_area gt b)) /\ face_normal (line_g m gt) (on_line x) g (c + 1) true (Some c) = Ok (P1 (sphere_area gt b), 1%Z) /\
  0 < sphere_area gt b.
Proof.
  destruct sl as (s0 & s1 & E & L0 & L1 & _ & _ & _ & G0 & G1 & _). destruct (c61_outward_line true) as (F0 & F1 & _). exists s0, s1. split; auto.
  destruct MV as [S C L N H]. destruct (@line_topo x0 fl m S C) as (t & B & LM & NC & BG & NN & CF & FC). destruct (built_flags B) as (FF & FE & FS).
  destruct (@fresh_side t line_shape fl (line_g m gt) (on_line x) xs g B H s0 L0) as (_ & _ & _ & _ & K & _).
  unfold side_facet_normal. cbn [line_g gm sdim]. rewrite FS, K. cbn [andb asserting]. fold (line_g m gt). rewrite G0, G1. cbn [bind fst snd]. split; [reflexivity|]. split; [auto|]. split; [reflexivity|]. split; [auto|].
  unfold sphere_area. destruct gt; [lra| |congruence]. destruct SO as [_ _ AB A0]. specialize (A0 eq_refl). assert (P := PI_RGT_0). assert (0 < b ^ 2) by (apply pow_lt; lra). apply Rmult_lt_0_compat; lra.
Qed.
(** C75 in 1D, sides: in the positive order the coordinates increase, and (Cartesian) their difference is the absolute value of side_volume. *)
Theorem c75_side_coordinates_line : exists s0 s1, cell_get_sides m c = Ok [s0; s1] /\ forall s, In s [s0; s1] -> exists u v w,
  side_get_coordinates (line_g m gt) (on_line x) g s true = Ok [P1 u; P1 v] /\ u < v /\ side_volume (line_g m gt) (on_line x) g s false = Ok w /\ Rabs w = true_volume gt u v.
Proof.
  destruct sl as (s0 & s1 & E & _ & _ & K0 & _ & K1 & _ & _ & V0 & V1). destruct hv as (H0 & H1 & H2). destruct SO as [_ _ AB _]. exists s0, s1. split; auto. intros s [<-|[<-|[]]].
  - exists a, ((a + b) / 2), (half_left gt a b). split; auto. split; [lra|]. split; auto. rewrite Rabs_pos_eq by lra. reflexivity.
  - exists ((a + b) / 2), b, (- half_right gt a b). split; auto. split; [lra|]. split; auto. rewrite Rabs_Ropp, Rabs_pos_eq by lra. reflexivity.
Qed.
(** C75 in 1D, wedges: each of the two wedges of a side reports the end points of the whole side, although its volume is half of the side's;
    and in the positive order the coordinates of the even wedge at the right node decrease. *)
Theorem c75_wedge_coordinates_line_refuted : fl_wedges (close_flags fl) = true -> exists s0 s1, cell_get_sides m c = Ok [s0; s1] /\
  (forall w, (w / 2 = s0)%nat -> wedge_get_coordinates (line_g m gt) (on_line x) g w false = Ok [P1 a; P1 ((a + b) / 2)] /\
    exists v, wedge_volume (line_g m gt) (on_line x) g w false = Ok v /\ v < true_volume gt a ((a + b) / 2)) /\
  wedge_get_coordinates (line_g m gt) (on_line x) g (2 * s1) true = Ok [P1 b; P1 ((a + b) / 2)] /\ (a + b) / 2 < b.
Proof.
  intros W. destruct sl as (s0 & s1 & E & L0 & L1 & _ & _ & _ & _ & _ & V0 & V1). destruct hv as (H0 & H1 & H2). assert (CV := cl).
  destruct MV as [S C L N H], SO as [Ha Hb AB A0]. destruct (@line_topo x0 fl m S C) as (t & B & LM & NC & BG & NN & CF & FC). destruct (built_flags B) as (FF & FE & FS). destruct (swT B W) as [SW FW].
  assert (Lc : (c + 1 < length x)%nat) by (apply nth_error_Some; congruence).
  assert (Cc : (c < length x0 - 1)%nat) by lia.
  destruct (@c30_two_sides_per_cell R x0 fl m c S C Cc) as (s0' & s1' & Es & _ & I0 & I1 & Sn). rewrite E in Es. injection Es as <- <-.
  destruct I0 as (_ & C0 & _). destruct I1 as (_ & C1 & _). destruct (@centre_line x0 fl m gt x xs g S C L N H c a b Ha Hb AB A0) as [_ Ecc].
  destruct (@rd_a x c a b Ha Hb) as [Ra Rb]. destruct (Sn 0%nat ltac:(lia)) as [N00 N10]. destruct (Sn 1%nat ltac:(lia)) as [N01 N11].
  assert (MD := @line_mdim x0 fl m gt S C).
  exists s0, s1. split; auto. split; [|split; [|lra]].
  - intros w Ew. assert (Nw : side_get_node m s0 (w mod 2) = Ok c) by (assert (w mod 2 < 2)%nat by (apply Nat.mod_upper_bound; lia); destruct (w mod 2)%nat as [|[|]]; auto; lia).
    split.
    + unfold wedge_get_coordinates. rewrite MD. cbn [line_g gm]. rewrite FW. cbn [asserting]. unfold wedge_get_node, wedge_get_cell. rewrite SW, Ew. cbn [asserting]. rewrite Nw. cbn [bind]. unfold node_get_coordinates. unfold on_line in *. rewrite Ra. cbn [bind].
      rewrite C0. cbn [bind]. fold (line_g m gt). rewrite Ecc. cbn [bind app andb]. reflexivity.
    + unfold wedge_volume. cbn [line_g gm]. unfold side_volume in V0. cbn [line_g gm] in V0. rewrite FS in V0. rewrite FW. destruct (g_sok g); cbn [andb asserting] in *; [|discriminate]. rewrite Ew, V0. cbn [bind]. eexists. split; [reflexivity|]. change (true_volume gt a ((a + b) / 2)) with (half_left gt a b). lra.
  - assert (D2 : (2 * s1 / 2 = s1)%nat) by (rewrite Nat.mul_comm; apply Nat.div_mul; lia). assert (M2 : (2 * s1 mod 2 = 0)%nat) by (rewrite Nat.mul_comm; apply Nat.mod_mul; lia).
    unfold wedge_get_coordinates. rewrite MD. cbn [line_g gm]. rewrite FW. cbn [asserting]. unfold wedge_get_node, wedge_get_cell. rewrite SW, D2, M2. cbn [asserting]. rewrite N10. cbn [bind]. unfold node_get_coordinates. unfold on_line in *. rewrite Rb. cbn [bind].
    rewrite C1. cbn [bind]. fold (line_g m gt). rewrite Ecc. cbn [bind app andb Nat.eqb negb]. reflexivity.
Qed.
End Thm.

(** the hypotheses are met: every strictly increasing line mesh, after any number of motions *)
Example c71_line_witness : exists m g, moved_line [0; 1; 3] (Flags true true true true true) m SPHERICAL [1; 2; 5] [on_line [0; 1; 3]] g /\ segment_of SPHERICAL [1; 2; 5] 1 2 5.
Proof.
  destruct (@c30_line_construction_succeeds R [0; 1; 3] (Flags true true true true true)) as [m E]; [discriminate|reflexivity|]. exists m.
  destruct (@c60_line_update_succeeds [0; 1; 3] (Flags true true true true true) m SPHERICAL [0; 1; 3] geo0 eq_refl E eq_refl) as [g0 U0]; [discriminate|].
  destruct (@c60_line_update_succeeds [0; 1; 3] (Flags true true true true true) m SPHERICAL [1; 2; 5] g0 eq_refl E eq_refl) as [g U]; [discriminate|].
  exists g. split.
  - constructor; auto; [discriminate|]. eapply moved; [apply constructed; exact U0|exact U].
  - constructor; auto; intros; lra.
Qed.
