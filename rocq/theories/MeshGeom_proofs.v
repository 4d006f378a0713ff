(** The state after update_geometric_quantities. *)
From Coq Require Import Reals.
From Verif Require Import Base Loop Defs Factory Cache Cache_spec Cache_proofs Cache_proofs5 Cache_proofs6 Props_Cache Point Geometry MeshGeom.
Set Implicit Arguments.
Local Open Scope R_scope.

Lemma mapM_length A B (f : A -> outcome B) l r : mapM f l = Ok r -> length r = length l.
Proof.
  revert r. induction l as [|x l IH]; intros r E; cbn [mapM] in E; [injection E as <-; auto|].
  apply bind_inv in E as [y [_ E]]. apply bind_inv in E as [r' [Er E]]. apply Ok_inj in E. subst r. simpl. rewrite (IH _ Er). auto.
Qed.
Lemma seq_at n i : (i < n)%nat -> nth_error (seq 0 n) i = Some i.
Proof. intros H. rewrite (nth_error_nth' _ 0%nat) by (rewrite seq_length; auto). rewrite seq_nth by auto. auto. Qed.
Lemma mapM_seq A (f : nat -> outcome A) n r : mapM f (seq 0 n) = Ok r ->
  length r = n /\ forall i, (i < n)%nat -> exists y, f i = Ok y /\ nth_error r i = Some y.
Proof.
  intros E. split; [rewrite (mapM_length _ _ E), seq_length; auto|]. intros i Hi. apply (mapM_at _ _ _ E (seq_at Hi)).
Qed.
Lemma rd_map A B (h : A -> B) l i y : nth_error l i = Some y -> rd (map h l) i = Ok (h y).
Proof. intros E. apply rd_Ok. rewrite nth_error_map, E. auto. Qed.
Lemma rd_map_out A B (h : A -> B) l i : (length l <= i)%nat -> rd (map h l) i = UB.
Proof. intros E. unfold rd. destruct (nth_error (map h l) i) eqn:N; auto. apply nth_error_lt in N. rewrite map_length in N. lia. Qed.
Lemma asserting_Ok A b (x : outcome A) y : asserting b x = Ok y -> b = true /\ x = Ok y.
Proof. destruct b; simpl; [auto|discriminate]. Qed.

(** ** what the steps look at *)
Record same_centres (g h : geo) : Prop := {
  sc_ccen : g_ccen g = g_ccen h; sc_cok : g_cok g = g_cok h; sc_fcen : g_fcen g = g_fcen h; sc_fok : g_fok g = g_fok h; sc_eok : g_eok g = g_eok h }.
Lemma side_coords_ext M X g h s pv : same_centres g h -> side_get_coordinates M X g s pv = side_get_coordinates M X h s pv.
Proof. intros [E1 E2 E3 E4 E5]. unfold side_get_coordinates, face_centroid, cell_centroid. rewrite E1, E2, E3, E4. reflexivity. Qed.
Lemma side_geom_ext M X g h s mid : same_centres g h -> compute_side_geometry M X g s mid = compute_side_geometry M X h s mid.
Proof.
  intros E. unfold compute_side_geometry, edge_centroid. rewrite (side_coords_ext M X s false E), (sc_eok E). reflexivity.
Qed.
Lemma corner_geom_ext M X X' g h k : g_svol g = g_svol h -> g_sok g = g_sok h -> compute_corner_geometry M X g k = compute_corner_geometry M X' h k.
Proof.
  intros E1 E2. unfold compute_corner_geometry. destruct (corner_get_wedges (gm M) k) as [ws| | | |]; cbn [bind]; auto.
  apply foldM_ext. intros w v _. unfold wedge_volume. rewrite E1, E2. reflexivity.
Qed.
(** the caller's point matters only in 1D, and then only its dimension *)
Lemma side_geom_mid M X g s mid : (mdim M = 1 -> pd mid = sdim M)%nat -> compute_side_geometry M X g s mid = compute_side_geometry M X g s (pzero (sdim M)).
Proof.
  intros H. unfold compute_side_geometry. destruct (mdim M) as [|[|[|[|n]]]]; auto.
  assert (E : forall a, pset mid a = pset (pzero (sdim M)) a) by (intros a; unfold pset; rewrite H by auto; auto). rewrite E. reflexivity.
Qed.

(** ** the side loop *)
Definition res := (R * point * point)%type.
Definition side_entry (M : gmesh) (X : coordinates) (g : geo) (s : nat) (o mi : point) : outcome res :=
  ty <- entity_get_type (gm M) SIDE s ;;
  match ty with
  | BOUNDARY_GHOST => o' <- pset o 0 ;; m' <- pset mi 0 ;; Ok (0, o', m')
  | _ => compute_side_geometry M X g s mi
  end.
Fixpoint side_trace (M : gmesh) (X : coordinates) (g : geo) (l : list nat) (o mi : point) : outcome (list res) :=
  match l with
  | [] => Ok []
  | s :: r => x <- side_entry M X g s o mi ;; rest <- side_trace M X g r (snd (fst x)) (snd x) ;; Ok (x :: rest)
  end.
Lemma side_step_eq M X g s v o m po pm : side_step M X g s (v, o, m, po, pm) =
  (x <- side_entry M X g s po pm ;; v' <- wr v s (fst (fst x)) ;; Ok (v', o ++ [snd (fst x)], m ++ [snd x], snd (fst x), snd x)).
Proof.
  unfold side_step, side_entry. destruct (entity_get_type (gm M) SIDE s) as [ty| | | |]; cbn [bind]; auto.
  assert (G : forall q : outcome res, (r <- q ;; (let '(v0, o', m') := r in vol' <- wr v s v0 ;; Ok (vol', o ++ [o'], m ++ [m'], o', m'))) =
     (x <- q ;; v' <- wr v s (fst (fst x)) ;; Ok (v', o ++ [snd (fst x)], m ++ [snd x], snd (fst x), snd x))).
  { intros [[[? ?] ?]| | | |]; reflexivity. }
  destruct ty; apply G.
Qed.
Lemma side_fold M X g l : forall v o m po pm v' o' m' po' pm',
  foldM l (side_step M X g) (v, o, m, po, pm) = Ok (v', o', m', po', pm') ->
  exists rs, side_trace M X g l po pm = Ok rs /\ length rs = length l /\
    wr_all (combine l (map (fun r => fst (fst r)) rs)) v = Ok v' /\ o' = o ++ map (fun r => snd (fst r)) rs /\ m' = m ++ map snd rs.
Proof.
  induction l as [|s l IH]; intros v o m po pm v' o' m' po' pm' E; cbn [foldM] in E.
  - injection E as <- <- <- <- <-. exists []. rewrite !app_nil_r. auto.
  - rewrite side_step_eq in E. apply bind_inv in E as [st [E1 E]]. apply bind_inv in E1 as [x [Ex E1]]. apply bind_inv in E1 as [v1 [Ev E1]].
    apply Ok_inj in E1. subst st. apply IH in E as (rs & T & L & W & Eo & Em). exists (x :: rs). cbn [side_trace]. rewrite Ex. cbn [bind]. rewrite T. cbn [bind].
    split; auto. split; [simpl; auto|]. split.
    + cbn [map combine]. unfold wr_all in *. cbn [foldM fst snd]. rewrite Ev. auto.
    + rewrite Eo, Em, <- !app_assoc. auto.
Qed.
Lemma side_fold_ok M X g l rs : forall v o m po pm v', side_trace M X g l po pm = Ok rs ->
  wr_all (combine l (map (fun r => fst (fst r)) rs)) v = Ok v' ->
  exists po' pm', foldM l (side_step M X g) (v, o, m, po, pm) = Ok (v', o ++ map (fun r => snd (fst r)) rs, m ++ map snd rs, po', pm').
Proof.
  revert rs. induction l as [|s l IH]; intros rs v o m po pm v' T W; cbn [side_trace] in T.
  - injection T as <-. simpl in *. unfold wr_all in W. simpl in W. injection W as <-. rewrite !app_nil_r. eauto.
  - apply bind_inv in T as [x [Ex T]]. apply bind_inv in T as [r [T E]]. apply Ok_inj in E. subst rs. cbn [map combine] in W. unfold wr_all in W. cbn [foldM fst snd] in W.
    apply bind_inv in W as [v1 [E1 W]]. cbn [foldM]. rewrite side_step_eq, Ex. cbn [bind]. rewrite E1. cbn [bind].
    destruct (@IH r v1 (o ++ [snd (fst x)]) (m ++ [snd x]) _ _ v' T W) as (po' & pm' & E). exists po', pm'. rewrite E. cbn [map]. rewrite <- !app_assoc. auto.
Qed.
(** writing all entries of an array gives the list of the values *)
Lemma wr_all_seq A (vs : list A) : forall pre old, length old = length vs ->
  wr_all (combine (seq (length pre) (length vs)) vs) (pre ++ old) = Ok (pre ++ vs).
Proof.
  induction vs as [|x vs IH]; intros pre old L; destruct old as [|y old]; simpl in L; try discriminate; [reflexivity|].
  cbn [length seq combine]. unfold wr_all. cbn [foldM fst snd]. rewrite wr_ok by (rewrite app_length; simpl; lia). rewrite set_nth_mid by auto. cbn [bind].
  replace (pre ++ x :: old) with ((pre ++ [x]) ++ old) by (rewrite <- app_assoc; auto). fold (wr_all (combine (seq (S (length pre)) (length vs)) vs) ((pre ++ [x]) ++ old)).
  replace (S (length pre)) with (length (pre ++ [x])) by (rewrite app_length; simpl; lia). rewrite IH by lia. rewrite <- app_assoc. auto.
Qed.
Lemma resize_length A n (d : A) l : length (resize n d l) = n.
Proof. unfold resize. rewrite app_length, firstn_length, repeat_length. lia. Qed.
Lemma side_trace_length M X g l : forall o m rs, side_trace M X g l o m = Ok rs -> length rs = length l.
Proof.
  induction l as [|s l IH]; intros o m rs T; cbn [side_trace] in T; [injection T as <-; auto|].
  apply bind_inv in T as [x [Ex T]]. apply bind_inv in T as [r [T E]]. apply Ok_inj in E. subst rs. simpl. erewrite IH; eauto.
Qed.
Lemma side_trace_ext M X g h l : same_centres g h -> forall o m, side_trace M X g l o m = side_trace M X h l o m.
Proof.
  intros E. induction l as [|s l IH]; intros o m; cbn [side_trace]; auto.
  assert (Es : side_entry M X g s o m = side_entry M X h s o m).
  { unfold side_entry. destruct (entity_get_type (gm M) SIDE s) as [ty| | | |]; cbn [bind]; auto. destruct ty; auto using side_geom_ext. }
  rewrite Es. destruct (side_entry M X h s o m); cbn [bind]; auto. rewrite IH. auto.
Qed.
(** entries of the trace *)
Lemma pset_pd p a q : pset p a = Ok q -> pd q = pd p.
Proof. unfold pset. destruct (pd p) as [|[|[|n]]] eqn:E; intros H; try discriminate; injection H as <-; auto. Qed.
Lemma side_geom_pd M X g s mid r : mdim M = 1%nat -> compute_side_geometry M X g s mid = Ok r -> pd (snd r) = pd mid.
Proof.
  intros D H. unfold compute_side_geometry in H. rewrite D in H.
  repeat (apply bind_inv in H; destruct H as [? [? H]]). apply Ok_inj in H. subst r.
  match goal with E : pset mid 0 = Ok ?q |- _ => apply pset_pd in E end. destruct (_ =? _)%nat; auto.
Qed.
Lemma side_trace_at M X g l : forall o m rs i s r, (mdim M = 1 -> pd m = sdim M)%nat -> side_trace M X g l o m = Ok rs -> nth_error l i = Some s -> nth_error rs i = Some r ->
  exists ty, entity_get_type (gm M) SIDE s = Ok ty /\
    (ty <> BOUNDARY_GHOST -> compute_side_geometry M X g s (pzero (sdim M)) = Ok r) /\ (ty = BOUNDARY_GHOST -> fst (fst r) = 0).
Proof.
  induction l as [|s0 l IH]; intros o m rs i s r D T Hs Hr; [destruct i; discriminate|]. cbn [side_trace] in T.
  apply bind_inv in T as [x [Ex T]]. apply bind_inv in T as [rest [T E]]. apply Ok_inj in E. subst rs.
  unfold side_entry in Ex. apply bind_inv in Ex as [ty [Ety Ex]]. destruct i as [|i]; cbn [nth_error] in Hs, Hr.
  - injection Hs as ->. injection Hr as ->. exists ty. split; auto. split.
    + intros N. rewrite <- (@side_geom_mid M X g s m D). destruct ty; auto. congruence.
    + intros ->. repeat (apply bind_inv in Ex; destruct Ex as [? [? Ex]]). apply Ok_inj in Ex. subst r. auto.
  - eapply IH; [|exact T|exact Hs|exact Hr]. intros D1. specialize (D D1). destruct ty;
      try (rewrite (@side_geom_pd M X g s0 m x D1 Ex); auto; fail).
    repeat (apply bind_inv in Ex; destruct Ex as [? [? Ex]]). apply Ok_inj in Ex. subst x. cbn [snd].
    match goal with E : pset m 0 = Ok _ |- _ => rewrite (pset_pd _ _ E) end. auto.
Qed.

(** ** the corner loop *)
Lemma corner_fold M X g l : forall v v', foldM l (corner_step M X g) v = Ok v' ->
  exists ks, mapM (fun k => ty <- entity_get_type (gm M) CORNER k ;; match ty with BOUNDARY_GHOST => Ok 0 | _ => compute_corner_geometry M X g k end) l = Ok ks /\
    wr_all (combine l ks) v = Ok v'.
Proof.
  induction l as [|k l IH]; intros v v' E; cbn [foldM] in E; [injection E as <-; exists []; auto|].
  apply bind_inv in E as [v1 [E1 E]]. unfold corner_step in E1. apply bind_inv in E1 as [ty [Et E1]]. apply bind_inv in E1 as [x [Ex E1]].
  apply IH in E as (ks & Ek & W). exists (x :: ks). cbn [mapM]. rewrite Et. cbn [bind]. rewrite Ex. cbn [bind]. rewrite Ek. split; auto.
  cbn [combine]. unfold wr_all in *. cbn [foldM fst snd]. rewrite E1. auto.
Qed.
Lemma corner_fold_ok M X g l ks : forall v v',
  mapM (fun k => ty <- entity_get_type (gm M) CORNER k ;; match ty with BOUNDARY_GHOST => Ok 0 | _ => compute_corner_geometry M X g k end) l = Ok ks ->
  wr_all (combine l ks) v = Ok v' -> foldM l (corner_step M X g) v = Ok v'.
Proof.
  revert ks. induction l as [|k l IH]; intros ks v v' E W; cbn [mapM] in E; [injection E as <-; auto|].
  apply bind_inv in E as [x [Ex E]]. apply bind_inv in E as [r [Er E]]. apply Ok_inj in E. subst ks. cbn [combine] in W. unfold wr_all in W. cbn [foldM fst snd] in W.
  apply bind_inv in W as [v1 [E1 W]]. cbn [foldM]. unfold corner_step at 1. apply bind_inv in Ex as [ty [Et Ex]]. rewrite Et. cbn [bind]. rewrite Ex. cbn [bind]. rewrite E1. cbn [bind].
  eapply IH; eauto.
Qed.
Definition corner_value (M : gmesh) (X : coordinates) (g : geo) (k : nat) : outcome R :=
  ty <- entity_get_type (gm M) CORNER k ;; match ty with BOUNDARY_GHOST => Ok 0 | _ => compute_corner_geometry M X g k end.

(** ** after an update *)
Record updated (M : gmesh) (X : coordinates) (g g' : geo) : Prop := {
  up_faces : fl_faces (cm_flags (gm M)) = true -> g_fok g' = true /\ exists l, mapM (compute_face_geometry M X) (seq 0 (nfaces (cm_topo (gm M)))) = Ok l /\
     g_farea g' = map (fun r => fst (fst r)) l /\ g_fcen g' = map (fun r => snd (fst r)) l /\ g_n0 g' = map (fun r => fst (snd r)) l /\ g_n1 g' = map (fun r => snd (snd r)) l;
  up_edges : fl_edges (cm_flags (gm M)) = true -> g_eok g' = true /\ exists l, mapM (compute_edge_geometry M X) (seq 0 (nedges (cm_topo (gm M)))) = Ok l /\
     g_elen g' = map (fun r => fst (fst r)) l /\ g_evec g' = map (fun r => snd (fst r)) l;
  up_cells : g_cok g' = true /\ exists l, mapM (cell_entry M X) (seq 0 (ncells (cm_topo (gm M)))) = Ok l /\ g_cvol g' = map fst l /\ g_ccen g' = map snd l;
  up_sides : fl_sides (cm_flags (gm M)) || fl_wedges (cm_flags (gm M)) = true -> g_sok g' = true /\
     exists rs, side_trace M X g' (ids (gm M) SIDE TYPE_ALL) (pzero (sdim M)) (pzero (sdim M)) = Ok rs /\
     wr_all (combine (ids (gm M) SIDE TYPE_ALL) (map (fun r => fst (fst r)) rs)) (resize (num_entities (gm M) SIDE TYPE_ALL) 0 (g_svol g)) = Ok (g_svol g') /\
     g_sout g' = g_sout g ++ map (fun r => snd (fst r)) rs /\ g_smid g' = g_smid g ++ map snd rs;
  up_corners : fl_corners (cm_flags (gm M)) = true -> g_kok g' = true /\
     exists ks, mapM (corner_value M X g') (ids (gm M) CORNER TYPE_ALL) = Ok ks /\
     wr_all (combine (ids (gm M) CORNER TYPE_ALL) ks) (resize (num_entities (gm M) CORNER TYPE_ALL) 0 (g_kvol g)) = Ok (g_kvol g');
  up_nofaces : fl_faces (cm_flags (gm M)) = false -> g_farea g' = g_farea g /\ g_fcen g' = g_fcen g /\ g_n0 g' = g_n0 g /\ g_n1 g' = g_n1 g /\ g_fok g' = g_fok g;
  up_noedges : fl_edges (cm_flags (gm M)) = false -> g_elen g' = g_elen g /\ g_evec g' = g_evec g /\ g_eok g' = g_eok g;
  up_nosides : fl_sides (cm_flags (gm M)) || fl_wedges (cm_flags (gm M)) = false -> g_svol g' = g_svol g /\ g_sout g' = g_sout g /\ g_smid g' = g_smid g /\ g_sok g' = g_sok g;
  up_nocorners : fl_corners (cm_flags (gm M)) = false -> g_kvol g' = g_kvol g /\ g_kok g' = g_kok g }.
Lemma mapM_ext A B (f h : A -> outcome B) l : (forall x, In x l -> f x = h x) -> mapM f l = mapM h l.
Proof. induction l as [|x l IH]; intros H; cbn [mapM]; auto. rewrite H by (left; auto). rewrite IH by (intros; apply H; right; auto). auto. Qed.
Lemma update_updated M X g g' : update_geometric_quantities M X g = Ok g' -> updated M X g g'.
Proof.
  unfold update_geometric_quantities. intros H.
  apply bind_inv in H as [g1 [E1 H]]. apply bind_inv in H as [g2 [E2 H]]. apply bind_inv in H as [g3 [E3 H]]. apply bind_inv in H as [g4 [E4 H]].
  set (fl := cm_flags (gm M)) in *.
  assert (F1 : (if fl_faces fl then g_fok g1 = true /\ exists l, mapM (compute_face_geometry M X) (seq 0 (nfaces (cm_topo (gm M)))) = Ok l /\
     g_farea g1 = map (fun r => fst (fst r)) l /\ g_fcen g1 = map (fun r => snd (fst r)) l /\ g_n0 g1 = map (fun r => fst (snd r)) l /\ g_n1 g1 = map (fun r => snd (snd r)) l
     else g_farea g1 = g_farea g /\ g_fcen g1 = g_fcen g /\ g_n0 g1 = g_n0 g /\ g_n1 g1 = g_n1 g /\ g_fok g1 = g_fok g) /\
     (g_elen g1 = g_elen g /\ g_evec g1 = g_evec g /\ g_eok g1 = g_eok g) /\
     (g_svol g1 = g_svol g /\ g_sout g1 = g_sout g /\ g_smid g1 = g_smid g /\ g_sok g1 = g_sok g /\ g_kvol g1 = g_kvol g /\ g_kok g1 = g_kok g)).
  { destruct (fl_faces fl); [|injection E1 as <-; auto 12]. unfold compute_faces in E1. apply bind_inv in E1 as [l [El E1]]. apply Ok_inj in E1. subst g1. cbn. split; [|auto 12]. split; auto. exists l. auto. }
  assert (F2 : (if fl_edges fl then g_eok g2 = true /\ exists l, mapM (compute_edge_geometry M X) (seq 0 (nedges (cm_topo (gm M)))) = Ok l /\
     g_elen g2 = map (fun r => fst (fst r)) l /\ g_evec g2 = map (fun r => snd (fst r)) l
     else g_elen g2 = g_elen g1 /\ g_evec g2 = g_evec g1 /\ g_eok g2 = g_eok g1) /\
     (g_farea g2 = g_farea g1 /\ g_fcen g2 = g_fcen g1 /\ g_n0 g2 = g_n0 g1 /\ g_n1 g2 = g_n1 g1 /\ g_fok g2 = g_fok g1) /\
     (g_svol g2 = g_svol g1 /\ g_sout g2 = g_sout g1 /\ g_smid g2 = g_smid g1 /\ g_sok g2 = g_sok g1 /\ g_kvol g2 = g_kvol g1 /\ g_kok g2 = g_kok g1)).
  { destruct (fl_edges fl); [|injection E2 as <-; auto 16]. unfold compute_edges in E2. apply bind_inv in E2 as [l [El E2]]. apply Ok_inj in E2. subst g2. cbn. split; [|auto 16]. split; auto. exists l. auto. }
  assert (F3 : (g_cok g3 = true /\ exists l, mapM (cell_entry M X) (seq 0 (ncells (cm_topo (gm M)))) = Ok l /\ g_cvol g3 = map fst l /\ g_ccen g3 = map snd l) /\
     (g_farea g3 = g_farea g2 /\ g_fcen g3 = g_fcen g2 /\ g_n0 g3 = g_n0 g2 /\ g_n1 g3 = g_n1 g2 /\ g_fok g3 = g_fok g2) /\
     (g_elen g3 = g_elen g2 /\ g_evec g3 = g_evec g2 /\ g_eok g3 = g_eok g2) /\
     (g_svol g3 = g_svol g2 /\ g_sout g3 = g_sout g2 /\ g_smid g3 = g_smid g2 /\ g_sok g3 = g_sok g2 /\ g_kvol g3 = g_kvol g2 /\ g_kok g3 = g_kok g2)).
  { unfold compute_cells in E3. apply bind_inv in E3 as [l [El E3]]. apply Ok_inj in E3. subst g3. cbn. split; [|auto 16]. split; auto. exists l. auto. }
  assert (F4 : (if fl_sides fl || fl_wedges fl then g_sok g4 = true /\ exists rs, side_trace M X g3 (ids (gm M) SIDE TYPE_ALL) (pzero (sdim M)) (pzero (sdim M)) = Ok rs /\
     wr_all (combine (ids (gm M) SIDE TYPE_ALL) (map (fun r => fst (fst r)) rs)) (resize (num_entities (gm M) SIDE TYPE_ALL) 0 (g_svol g3)) = Ok (g_svol g4) /\
     g_sout g4 = g_sout g3 ++ map (fun r => snd (fst r)) rs /\ g_smid g4 = g_smid g3 ++ map snd rs
     else g_svol g4 = g_svol g3 /\ g_sout g4 = g_sout g3 /\ g_smid g4 = g_smid g3 /\ g_sok g4 = g_sok g3) /\
     (g_cvol g4 = g_cvol g3 /\ g_ccen g4 = g_ccen g3 /\ g_cok g4 = g_cok g3) /\
     (g_farea g4 = g_farea g3 /\ g_fcen g4 = g_fcen g3 /\ g_n0 g4 = g_n0 g3 /\ g_n1 g4 = g_n1 g3 /\ g_fok g4 = g_fok g3) /\
     (g_elen g4 = g_elen g3 /\ g_evec g4 = g_evec g3 /\ g_eok g4 = g_eok g3) /\ (g_kvol g4 = g_kvol g3 /\ g_kok g4 = g_kok g3)).
  { destruct (fl_sides fl || fl_wedges fl); [|injection E4 as <-; auto 20]. unfold compute_sides in E4. apply bind_inv in E4 as [[[[[v o] m] po] pm] [Ef E4]]. apply Ok_inj in E4. subst g4. cbn.
    split; [|auto 20]. split; auto. apply side_fold in Ef as (rs & T & L & W & Eo & Em). exists rs. auto. }
  assert (F5 : (if fl_corners fl then g_kok g' = true /\ exists ks, mapM (corner_value M X g4) (ids (gm M) CORNER TYPE_ALL) = Ok ks /\
     wr_all (combine (ids (gm M) CORNER TYPE_ALL) ks) (resize (num_entities (gm M) CORNER TYPE_ALL) 0 (g_kvol g4)) = Ok (g_kvol g')
     else g_kvol g' = g_kvol g4 /\ g_kok g' = g_kok g4) /\
     (g_cvol g' = g_cvol g4 /\ g_ccen g' = g_ccen g4 /\ g_cok g' = g_cok g4) /\
     (g_farea g' = g_farea g4 /\ g_fcen g' = g_fcen g4 /\ g_n0 g' = g_n0 g4 /\ g_n1 g' = g_n1 g4 /\ g_fok g' = g_fok g4) /\
     (g_elen g' = g_elen g4 /\ g_evec g' = g_evec g4 /\ g_eok g' = g_eok g4) /\
     (g_svol g' = g_svol g4 /\ g_sout g' = g_sout g4 /\ g_smid g' = g_smid g4 /\ g_sok g' = g_sok g4)).
  { destruct (fl_corners fl); [|injection H as <-; auto 20]. unfold compute_corners in H. apply bind_inv in H as [v [Ef H]]. apply Ok_inj in H. subst g'. cbn.
    split; [|auto 20]. split; auto. apply corner_fold in Ef as (ks & K1 & K2). exists ks. auto. }
  clear E1 E2 E3 E4 H.
  destruct F1 as (A1 & (A2 & A3 & A4) & (A5 & A6 & A7 & A8 & A9 & A10)), F2 as (B1 & (B2 & B3 & B4 & B5 & B6) & (B7 & B8 & B9 & B10 & B11 & B12)).
  destruct F3 as (C1 & (C2 & C3 & C4 & C5 & C6) & (C7 & C8 & C9) & (C10 & C11 & C12 & C13 & C14 & C15)).
  destruct F4 as (D1 & (D2 & D3 & D4) & (D5 & D6 & D7 & D8 & D9) & (D10 & D11 & D12) & (D13 & D14)).
  destruct F5 as (G1 & (G2 & G3 & G4) & (G5 & G6 & G7 & G8 & G9) & (G10 & G11 & G12) & (G13 & G14 & G15 & G16)).
  assert (SC : same_centres g3 g') by (constructor; congruence).
  constructor; fold fl.
  - intros Hf. rewrite Hf in A1. destruct A1 as (A & l & L1 & L2 & L3 & L4 & L5). split; [congruence|]. exists l. repeat split; auto; congruence.
  - intros Hf. rewrite Hf in B1. destruct B1 as (A & l & L1 & L2 & L3). split; [congruence|]. exists l. repeat split; auto; congruence.
  - destruct C1 as (A & l & L1 & L2 & L3). split; [congruence|]. exists l. repeat split; auto; congruence.
  - intros Hf. rewrite Hf in D1. destruct D1 as (A & rs & L1 & L2 & L3 & L4). split; [congruence|]. exists rs. rewrite <- (side_trace_ext _ _ _ SC). split; auto.
    split; [replace (g_svol g) with (g_svol g3) by congruence; congruence|]. split; congruence.
  - intros Hf. rewrite Hf in G1. destruct G1 as (A & ks & L1 & L2). split; [congruence|]. exists ks. split; [|replace (g_kvol g) with (g_kvol g4) by congruence; auto].
    rewrite <- L1. apply mapM_ext. intros k _. unfold corner_value. destruct (entity_get_type (gm M) CORNER k) as [ty| | | |]; cbn [bind]; auto.
    destruct ty; auto; apply corner_geom_ext; congruence.
  - intros Hf. rewrite Hf in A1. destruct A1 as (A & A' & A'' & A''' & A4'). repeat split; congruence.
  - intros Hf. rewrite Hf in B1. destruct B1 as (A & A' & A''). repeat split; congruence.
  - intros Hf. rewrite Hf in D1. destruct D1 as (A & A' & A'' & A'''). repeat split; congruence.
  - intros Hf. rewrite Hf in G1. destruct G1 as (A & A'). repeat split; congruence.
Qed.
