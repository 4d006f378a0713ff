(** C83: the edges of cells and the map from the edges of a face to those of a cell. *)
From Coq Require Import Permutation.
From Verif Require Import Base Loop Defs Factory Cache Cache_spec Cache_proofs Cache_proofs2 Cache_proofs5 Cache_proofs6 Props_Cache CellEdges.
Set Implicit Arguments.

Lemma fill (A : Type) (h : nat -> outcome A) l : forall t0 t1, foldM l (fun c tab => x <- h c ;; wr tab c x) t0 = Ok t1 ->
  length t1 = length t0 /\ (forall c, In c l -> h c = rd t1 c) /\ (forall c, ~ In c l -> nth_error t1 c = nth_error t0 c).
Proof.
  induction l as [|a l IH]; intros t0 t1 E; cbn [foldM] in E; [injection E as <-; cbn; tauto|].
  apply bind_inv in E as (t' & E1 & E2). apply bind_inv in E1 as (x & Hx & E1). apply wr_Ok in E1 as [La ->]. destruct (IH _ _ E2) as (L & I1 & I2). rewrite set_nth_length in L. split; auto.
  assert (Q : forall c, ~ In c l -> nth_error t1 c = if c =? a then Some x else nth_error t0 c).
  { intros c N. rewrite (I2 c N). destruct (Nat.eqb_spec c a) as [->|E]; [apply nth_error_set_nth_eq; auto|apply nth_error_set_nth_ne; auto]. }
  split; intros c I.
  - destruct (in_dec Nat.eq_dec c l) as [J|J]; [auto|]. destruct I as [<-|I]; [|tauto]. rewrite Hx. unfold rd. rewrite (Q _ J), Nat.eqb_refl. auto.
  - rewrite Q by (intros J; apply I; right; auto). destruct (Nat.eqb_spec c a) as [->|]; auto. destruct I. left. auto.
Qed.
Lemma fill2 (h : nat -> outcome (list (nat * Z))) l : forall t0 t1,
  foldM l (fun c tab => x <- h c ;; ids <- wr (ce_ids tab) c (map fst x) ;; dirs <- wr (ce_dirs tab) c (map snd x) ;; Ok (CellEdgeTab ids dirs)) t0 = Ok t1 ->
  foldM l (fun c tab => x <- (y <- h c ;; Ok (map fst y)) ;; wr tab c x) (ce_ids t0) = Ok (ce_ids t1) /\
  foldM l (fun c tab => x <- (y <- h c ;; Ok (map snd y)) ;; wr tab c x) (ce_dirs t0) = Ok (ce_dirs t1).
Proof.
  induction l as [|a l IH]; intros t0 t1 E; cbn [foldM] in *; [injection E as <-; auto|].
  apply bind_inv in E as (t' & E1 & E2). apply bind_inv in E1 as (x & Hx & E1). apply bind_inv in E1 as (i & Hi & E1). apply bind_inv in E1 as (d & Hd & E1). injection E1 as <-.
  destruct (IH _ _ E2) as [A B]. rewrite Hx. cbn [bind]. rewrite Hi, Hd. auto.
Qed.
(** ** the answers of cell_get_edges are those of the framework, for every numbering of the cells *)
Lemma with_edges sd t F fl M : cache_with_edges sd t F (close_flags fl) = Ok M -> fl_edges (close_flags fl) = true ->
  made t (close_flags fl) (em M) /\ exists ce, cache_cell2edge_info sd t F = Ok ce /\ em_ce M = Some ce.
Proof.
  intros E Fe. unfold cache_with_edges in E. apply bind_inv in E as (m & E1 & E). apply bind_inv in E as (o & E2 & E). injection E as <-. rewrite Fe in E2. apply when_true in E2 as (ce & E2 & ->).
  split; [apply made_of; auto|]. exists ce. auto.
Qed.
Theorem c83_cell_edges : forall sd t F fl M c, cache_with_edges sd t F (close_flags fl) = Ok M -> fl_edges (close_flags fl) = true -> numbered t -> c < ncells t ->
  (sd = 1 -> cell_get_edges M c = fw_cell_nodes t c) /\ (sd = 3 -> cell_get_edges M c = fw_cell_edges F c) /\
  (sd = 2 -> exists l, fw_cell_edges_2D F c = Ok l /\ cell_get_edges M c = Ok (map fst l) /\ cell_2D_get_edges_and_dirs M c = Ok (map fst l, map snd l)).
Proof.
  intros sd t F fl M c E Fe N Hc. destruct (with_edges _ _ _ _ E Fe) as (_ & ce & Ec & Em). unfold cell_2D_get_edges_and_dirs, cell_get_edges. rewrite Em. cbn [need bind].
  assert (I : In c (cells_all t)) by (apply (Permutation_in _ (Permutation_sym (nb_cells N))); apply in_seq; lia).
  split; [|split]; intros ->; cbn [cache_cell2edge_info] in Ec.
  - apply bind_inv in Ec as (ids & Ei & Ec). injection Ec as <-. destruct (fill _ _ _ Ei) as (_ & H & _). symmetry. apply (H c I).
  - apply bind_inv in Ec as (ids & Ei & Ec). injection Ec as <-. destruct (fill _ _ _ Ei) as (_ & H & _). symmetry. apply (H c I).
  - destruct (fill2 _ _ _ Ec) as [A B]. destruct (fill _ _ _ A) as (La & HA & _). destruct (fill _ _ _ B) as (_ & HB & _). specialize (HA c I). specialize (HB c I). cbn [ce_ids ce_dirs] in *.
    destruct (fw_cell_edges_2D F c) as [l| | | |]; cbn [bind] in *.
    1:{ exists l. rewrite <- HA, <- HB. auto. }
    all: exfalso; assert (L : c < length (ce_ids ce)) by (rewrite La, repeat_length; auto); apply nth_error_Some in L; unfold rd in HA; destruct (nth_error (ce_ids ce) c); congruence.
Qed.
(** ** the local index of a face's edge in its cell *)
Lemma first_pos_in l e : In e l -> exists k, first_pos l e = Some k /\ nth_error l k = Some e /\ forall j, j < k -> nth_error l j <> Some e.
Proof.
  induction l as [|a l IH]; cbn; [tauto|]. destruct (Nat.eqb_spec e a) as [->|Q].
  - intros _. exists 0. split; auto. split; auto. intros; lia.
  - intros [E|I]; [congruence|]. destruct (IH I) as (k & -> & K1 & K2). exists (S k). split; auto. split; auto. intros [|j] L; cbn; [congruence|]. apply K2. lia.
Qed.
Lemma first_pos_out l e : ~ In e l -> first_pos l e = None.
Proof. induction l as [|a l IH]; cbn; auto. intros N. destruct (Nat.eqb_spec e a) as [->|Q]; [tauto|]. rewrite IH by tauto. auto. Qed.
Lemma resize0_length l n : length (resize0 l n) = n.
Proof. unfold resize0. rewrite app_length, firstn_length, repeat_length. lia. Qed.
Lemma resize0_nth l n i : i < n -> nth_error (resize0 l n) i = Some (nth i l 0).
Proof.
  intros L. unfold resize0. destruct (le_lt_dec (length l) i) as [Q|Q].
  - rewrite nth_error_app2 by (rewrite firstn_length; lia). rewrite nth_overflow by auto. rewrite firstn_length. rewrite nth_error_repeat by lia. auto.
  - rewrite nth_error_app1 by (rewrite firstn_length; lia). rewrite <- (firstn_skipn n l) at 2. rewrite app_nth1 by (rewrite firstn_length; lia). apply nth_error_nth'. rewrite firstn_length. lia.
Qed.

Section Loop.
Variables (fes : list (nat * Z)) (o : outcome (list nat)) (l : list nat) (mp : list nat).
Hypothesis El : o = Ok l.
Hypothesis Lm : length mp = length fes.
Lemma map_loop k : k <= length fes -> exists mp',
  foldM (seq 0 k) (fun i mp => e <- rd fes i ;; l <- o ;; match first_pos l (fst e) with Some k => wr mp i k | None => Ok mp end) mp = Ok mp' /\ length mp' = length mp /\
  forall j, j < length fes -> nth_error mp' j = if j <? k then match first_pos l (fst (nth j fes (0, 0%Z))) with Some q => Some q | None => nth_error mp j end else nth_error mp j.
Proof.
  induction k as [|k IH]; intros Lk; [exists mp; cbn; auto|]. destruct IH as (mp' & E & L & H); [lia|].
  rewrite seq_S, foldM_app, E. cbn [bind plus foldM]. assert (Lf : k < length fes) by lia. rewrite (proj2 (rd_Ok _ _ _) (nth_error_nth' fes (0, 0%Z) Lf)), El. cbn [bind].
  destruct (first_pos l (fst (nth k fes (0, 0%Z)))) as [q|] eqn:Q.
  - rewrite wr_ok by lia. eexists. split; [reflexivity|]. rewrite set_nth_length. split; auto. intros j Lj. destruct (Nat.eq_dec j k) as [->|Ne].
    + rewrite nth_error_set_nth_eq by lia. destruct (Nat.ltb_spec k (S k)); [|lia]. rewrite Q. auto.
    + rewrite nth_error_set_nth_ne by auto. rewrite H by auto. destruct (Nat.ltb_spec j k), (Nat.ltb_spec j (S k)); auto; lia.
  - exists mp'. split; auto. split; auto. intros j Lj. rewrite H by auto. destruct (Nat.ltb_spec j k), (Nat.ltb_spec j (S k)); auto; try lia. assert (j = k) by lia. subst j. rewrite Q. auto.
Qed.
End Loop.
Lemma map_value M f c old fe ce fes l : cm_fe (em M) = Some fe -> em_ce M = Some ce -> rd fe f = Ok fes -> rd (ce_ids ce) c = Ok l -> exists mp, face_to_cell_edge_map M f c old = Ok mp /\
  length mp = length fes /\ forall j e, nth_error (map fst fes) j = Some e -> nth_error mp j = Some (match first_pos l e with Some q => q | None => nth j old 0 end).
Proof.
  intros E1 E2 E3 E4. destruct (@map_loop fes (rd (ce_ids ce) c) l (resize0 old (length fes)) E4 (resize0_length _ _) (length fes) (le_n _)) as (mp & E & L & H). rewrite resize0_length in L.
  exists mp. split; [unfold face_to_cell_edge_map; rewrite E1, E2; cbn [need bind]; rewrite E3; exact E|]. split; auto. intros j e Ne. rewrite nth_error_map in Ne. destruct (nth_error fes j) as [x|] eqn:Nx; [|discriminate].
  injection Ne as <-. assert (Lj : j < length fes) by (apply nth_error_Some; congruence). rewrite (H j Lj), (nth_error_nth _ _ _ Nx), resize0_nth by auto. destruct (Nat.ltb_spec j (length fes)); [|lia]. destruct (first_pos l (fst x)); auto.
Qed.
(** for a face of a cell: entry i is the position of the i-th edge of the face among the edges of the cell, whatever the vector held before *)
Theorem c83_edge_map : forall sd t F fl M f c fes l old, cache_with_edges sd t F (close_flags fl) = Ok M -> fl_edges (close_flags fl) = true ->
  face_get_edges_and_dirs (em M) f = Ok fes -> cell_get_edges M c = Ok l -> incl (map fst fes) l ->
  exists mp, face_to_cell_edge_map M f c old = Ok mp /\ length mp = length fes /\
    forall i e, nth_error (map fst fes) i = Some e -> exists k, nth_error mp i = Some k /\ nth_error l k = Some e /\ forall j, j < k -> nth_error l j <> Some e.
Proof.
  intros sd t F fl M f c fes l old E Fe Ef Ec Inc. destruct (with_edges _ _ _ _ E Fe) as (Md & ce & _ & Em). unfold face_get_edges_and_dirs in Ef. unfold cell_get_edges in Ec. rewrite Em in Ec. cbn [need bind] in Ec.
  destruct (cm_fe (em M)) as [fe|] eqn:Cf; [|discriminate]. cbn [need bind] in Ef. destruct (@map_value M f c old fe ce fes l Cf Em Ef Ec) as (mp & E1 & L & H). exists mp. split; auto. split; auto.
  intros i e N. destruct (@first_pos_in l e) as (k & Ek & K1 & K2); [apply Inc; eapply nth_error_In; eauto|]. exists k. rewrite (H _ _ N), Ek. auto.
Qed.
(** for another face, the entries of its edges that are not in the cell are what the caller's vector held (0 where it was shorter): every one of them may be the index of some other edge *)
Theorem c83_foreign_face_refuted : forall sd t F fl M f c fes l old i e, cache_with_edges sd t F (close_flags fl) = Ok M -> fl_edges (close_flags fl) = true ->
  face_get_edges_and_dirs (em M) f = Ok fes -> cell_get_edges M c = Ok l -> nth_error (map fst fes) i = Some e -> ~ In e l ->
  exists mp, face_to_cell_edge_map M f c old = Ok mp /\ nth_error mp i = Some (nth i old 0).
Proof.
  intros sd t F fl M f c fes l old i e E Fe Ef Ec N NI. destruct (with_edges _ _ _ _ E Fe) as (Md & ce & _ & Em). unfold face_get_edges_and_dirs in Ef. unfold cell_get_edges in Ec. rewrite Em in Ec. cbn [need bind] in Ec.
  destruct (cm_fe (em M)) as [fe|] eqn:Cf; [|discriminate]. cbn [need bind] in Ef. destruct (@map_value M f c old fe ce fes l Cf Em Ef Ec) as (mp & E1 & L & H). exists mp. split; auto.
  rewrite (H _ _ N), (first_pos_out _ _ NI). auto.
Qed.
(** cell_2D_get_edges_and_dirs on any cell of a surface mesh (2D cells in 3D space) reads outside of an empty vector *)
Theorem c83_surface_dirs_refuted : forall t F fl M c l, cache_with_edges 3 t F (close_flags fl) = Ok M -> fl_edges (close_flags fl) = true -> numbered t -> c < ncells t -> fw_cell_edges F c = Ok l ->
  cell_get_edges M c = Ok l /\ cell_2D_get_edges_and_dirs M c = UB.
Proof.
  intros t F fl M c l E Fe N Hc El. destruct (@c83_cell_edges 3 t F fl M c E Fe N Hc) as (_ & H & _). rewrite (H eq_refl). split; auto. specialize (H eq_refl). rewrite El in H.
  destruct (with_edges _ _ _ _ E Fe) as (_ & ce & Ec & Em). cbn [cache_cell2edge_info] in Ec. apply bind_inv in Ec as (ids & Ei & Ec). injection Ec as <-.
  unfold cell_get_edges in H. unfold cell_2D_get_edges_and_dirs. rewrite Em in *. cbn [need bind ce_ids ce_dirs] in *. rewrite H. cbn [bind]. unfold rd. destruct c; reflexivity.
Qed.
(** before the table is cached every query stops *)
Theorem c83_not_requested : forall sd t F fl M c f old, cache_with_edges sd t F (close_flags fl) = Ok M -> fl_edges (close_flags fl) = false ->
  cell_get_edges M c = AssertFail /\ cell_2D_get_edges_and_dirs M c = AssertFail /\ face_to_cell_edge_map M f c old = AssertFail.
Proof.
  intros sd t F fl M c f old E Fe. unfold cache_with_edges in E. apply bind_inv in E as (m & E1 & E). apply bind_inv in E as (o & E2 & E). injection E as <-. rewrite Fe in E2. apply when_false in E2. subst o.
  apply made_of in E1. assert (Q := md_fe E1). rewrite Fe in Q. apply when_false in Q. unfold cell_get_edges, cell_2D_get_edges_and_dirs, face_to_cell_edge_map. cbn [em_ce em need bind]. rewrite Q. auto.
Qed.
(** cell_get_num_faces is the number of faces *)
Theorem c83_num_faces : forall m c l, cell_get_faces_and_dirs m c = Ok l -> cell_get_num_faces m c = Ok (length l).
Proof. intros m c l E. unfold cell_get_num_faces, cell_get_faces_and_dirs in *. destruct (need (cm_cf m)); try discriminate. cbn [bind] in *. rewrite E. auto. Qed.
(** ** cases: the two quads *)
Definition quads_edges : edge_fw := EdgeFw (fun c => Ok (map fst (cfaces quads_shape c))) (fun c => Ok (cfaces quads_shape c)).
Example c83_witness : exists M, cache_with_edges 2 quads quads_edges (close_flags all_on) = Ok M /\ fl_edges (close_flags all_on) = true /\ numbered quads /\
  cell_get_edges M 1 = Ok [1; 4; 6; 3] /\ face_get_edges_and_dirs (em M) 3 = Ok [(3, 1%Z)] /\ face_to_cell_edge_map M 3 1 [7] = Ok [3] /\
  (* face 0 is not of cell 1 *) face_to_cell_edge_map M 0 1 [7] = Ok [7].
Proof.
  destruct (cache_with_edges 2 quads quads_edges (close_flags all_on)) as [M| | | |] eqn:E; vm_compute in E; try discriminate. exists M. split; [reflexivity|]. split; [reflexivity|].
  split; [apply (fm_numbered (bl_mesh quads_built))|]. injection E as <-. vm_compute. auto.
Qed.
Example c83_surface_witness : exists M, cache_with_edges 3 quads quads_edges (close_flags all_on) = Ok M /\ cell_2D_get_edges_and_dirs M 1 = UB.
Proof. destruct (cache_with_edges 3 quads quads_edges (close_flags all_on)) as [M| | | |] eqn:E; vm_compute in E; try discriminate. exists M. split; [reflexivity|]. injection E as <-. vm_compute. auto. Qed.
