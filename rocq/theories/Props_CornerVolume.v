(** C71: wedges and corners fill what the sides fill, in one, two and three dimensions. *)
From Coq Require Import Reals Permutation Lra.
From Verif Require Import Base Loop Defs Factory Cache Cache_spec Cache_proofs Cache_proofs2 Cache_proofs3 Cache_proofs4 Cache_proofs5 Cache_proofs6 Props_Cache Point Geometry Geometry_spec Geometry_proofs
  Polyhedron_proofs MeshGeom MeshGeom_spec MeshGeom_proofs MeshGeom_proofs2 MeshGeom_proofs3 Props_MeshUpdate.
Set Implicit Arguments.
Local Open Scope R_scope.

Section S.
Variables (t : topo) (sh : shape) (fl : flags) (M : gmesh) (X : coordinates) (xs : list coordinates) (g : geo).
Hypothesis B : built t sh fl (gm M).
Hypothesis H : history M (X :: xs) g.
Let sv s := nth s (g_svol g) 0.
Lemma sv_side s : (s < n_sides (gm M))%nat -> side_volume M X g s false = Ok (sv s).
Proof.
  intros L. destruct (fresh_side B H L) as (ty & r & _ & Ev & Ok1 & _). unfold side_volume. destruct (built_flags B) as (_ & _ & F). rewrite F, Ok1. cbn [andb asserting].
  unfold sv. apply rd_Ok in Ev. rewrite (nth_error_nth _ _ _ Ev). apply rd_Ok. auto.
Qed.
Lemma sv_wedge w : fl_wedges (close_flags fl) = true -> (w < n_wedges (gm M))%nat -> wedge_volume M X g w false = Ok (sv (w / 2) / 2).
Proof.
  intros W L. assert (L' : (w / 2 < n_sides (gm M))%nat) by (rewrite (n_wedges_eq B W) in L; rewrite (n_sides_eq B); apply Nat.div_lt_upper_bound; lia).
  destruct (fresh_side B H L') as (ty & r & _ & Ev & Ok1 & _). unfold wedge_volume. destruct (swT B W) as [_ ->]. rewrite Ok1. cbn [andb asserting].
  unfold sv. rewrite Ev. cbn [bind]. apply rd_Ok in Ev. rewrite (nth_error_nth _ _ _ Ev). auto.
Qed.
Lemma mapM_ok A B' (f : A -> outcome B') h l : (forall a, In a l -> f a = Ok (h a)) -> mapM f l = Ok (map h l).
Proof. induction l as [|a l IH]; intros Hf; auto. simpl. rewrite Hf by (simpl; auto). simpl. rewrite IH; auto. intros; apply Hf; simpl; auto. Qed.
Lemma cell_ws c : fl_wedges (close_flags fl) = true -> (c < ncells t)%nat -> cell_get_wedges (gm M) c = Ok (flat_map w2 (idxs (fun x => tcell x =? c)%nat (trips t sh))).
Proof.
  intros W Hc. destruct (fa_sides (built_facts B)) as [opp [E _]]. unfold cell_get_wedges. destruct (swT B W) as [_ ->]. rewrite E. cbn [asserting need bind]. apply wedges_of_cell; auto.
Qed.
Lemma sum_w2 l : sum_of (fun w => sv (w / 2) / 2) (flat_map w2 l) = sum_of sv l.
Proof.
  rewrite sum_flat. apply sum_ext. intros s _. unfold w2, sum_of. cbn [map rsum]. replace (2 * s / 2)%nat with s by lia. replace ((2 * s + 1) / 2)%nat with s by lia. field.
Qed.
Lemma foldM_sum (ws : list nat) (f : nat -> outcome R) h : (forall w, In w ws -> f w = Ok (h w)) -> forall a, foldM ws (fun w v => wv <- f w ;; Ok (v + wv)) a = Ok (a + sum_of h ws).
Proof.
  unfold sum_of. induction ws as [|w ws IH]; intros Hf a; cbn [foldM map rsum]; [f_equal; ring|]. rewrite Hf by (simpl; auto). cbn [bind]. rewrite IH by (intros; apply Hf; simpl; auto). f_equal. ring.
Qed.
Lemma corner_sum k c n : fl_corners (close_flags fl) = true -> is_corner (gm M) k c n -> ~ cell_has_type t c BOUNDARY_GHOST -> exists ws,
  corner_get_wedges (gm M) k = Ok ws /\ corner_volume M X g k false = Ok (sum_of (fun w => sv (w / 2) / 2) ws).
Proof.
  intros C IC NB. assert (W := proj1 (close_closed fl) C). destruct (c28_corner_wedges B C IC) as (ws & Ew & _ & _ & Hw). exists ws. split; auto. destruct IC as (Hk & Kc & _).
  destruct (fresh_corner B H C Hk) as (v & Ev & Rv & K1). unfold corner_volume. assert (Fc : fl_corners (cm_flags (gm M)) = true) by (rewrite (fa_flags (built_facts B)); auto). rewrite Fc, K1. cbn [andb asserting].
  rewrite Rv. rewrite <- Ev. unfold corner_value. destruct (@c29_reported_type_is_the_cells_type t sh fl (gm M) CORNER k B C Hk) as (c' & ct & Cc & Ct & Et). cbn [cell_of] in Cc. rewrite Kc in Cc. injection Cc as <-.
  rewrite Et. cbn [bind]. transitivity (compute_corner_geometry M X g k); [destruct ct; auto; tauto|]. unfold compute_corner_geometry. rewrite Ew. cbn [bind].
  rewrite (@foldM_sum ws _ (fun w => sv (w / 2) / 2)); [f_equal; ring|]. intros w I. apply sv_wedge; auto. apply Hw in I as [L _]. auto.
Qed.
Lemma sides_list c : (c < ncells t)%nat -> let l := idxs (fun x => tcell x =? c)%nat (trips t sh) in cell_get_sides (gm M) c = Ok l /\ mapM (fun s => side_volume M X g s false) l = Ok (map sv l).
Proof.
  intros Hc. split; [apply (cell_sides B Hc)|]. apply mapM_ok. intros s I. apply sv_side. rewrite (n_sides_eq B). apply idxs_lt in I. auto.
Qed.
Lemma wedges_sum c : fl_wedges (close_flags fl) = true -> (c < ncells t)%nat -> exists ss ws vs us, cell_get_sides (gm M) c = Ok ss /\ cell_get_wedges (gm M) c = Ok ws /\
  mapM (fun s => side_volume M X g s false) ss = Ok vs /\ mapM (fun w => wedge_volume M X g w false) ws = Ok us /\ rsum us = rsum vs.
Proof.
  intros W Hc. destruct (sides_list Hc) as [E1 E2]. set (l := idxs _ _) in *. exists l, (flat_map w2 l). do 2 eexists. split; [exact E1|]. split; [apply (cell_ws W Hc)|]. split; [exact E2|]. split.
  - apply (mapM_ok _ (fun w => sv (w / 2) / 2)). intros w I. apply sv_wedge; auto. rewrite (n_wedges_eq B W). apply in_flat_map in I as (s & Is & I). apply idxs_lt in Is. unfold w2 in I. simpl in I. lia.
  - apply (sum_w2 l).
Qed.
Lemma corners_sum c : fl_corners (close_flags fl) = true -> (c < ncells t)%nat -> ~ cell_has_type t c BOUNDARY_GHOST -> exists ss ks vs us, cell_get_sides (gm M) c = Ok ss /\ cell_get_corners (gm M) c = Ok ks /\
  mapM (fun s => side_volume M X g s false) ss = Ok vs /\ mapM (fun k => corner_volume M X g k false) ks = Ok us /\ rsum us = rsum vs.
Proof.
  intros C Hc NB. assert (W := proj1 (close_closed fl) C). destruct (sides_list Hc) as [E1 E2]. set (l := idxs _ _) in *. destruct (c28_cell_corners B C Hc) as (ks & Ek & NDk & Ik & _).
  set (wk := fun k => match corner_get_wedges (gm M) k with Ok ws => ws | _ => [] end).
  assert (Q : forall k, In k ks -> exists n, is_corner (gm M) k c n).
  { intros k I. apply Ik in I as [L Kc]. destruct (c28_one_corner_per_cell_and_node B C) as [K _]. destruct (K k L) as (c0 & n0 & IC & _). exists n0. destruct IC as (I1 & I2 & I3). rewrite Kc in I2. injection I2 as <-. split; auto. }
  exists l, ks. do 2 eexists. split; [exact E1|]. split; [exact Ek|]. split; [exact E2|]. split.
  - apply (mapM_ok _ (fun k => sum_of (fun w => sv (w / 2) / 2) (wk k))). intros k I. destruct (Q k I) as [n IC]. destruct (corner_sum C IC NB) as (ws & Ew & ->). unfold wk. rewrite Ew. auto.
  - change (sum_of (fun k => sum_of (fun w => sv (w / 2) / 2) (wk k)) ks = sum_of sv l). rewrite <- sum_flat, <- sum_w2. apply sum_perm.
    assert (IW : forall w, In w (flat_map w2 l) <-> (w < n_wedges (gm M))%nat /\ wedge_get_cell (gm M) w = Ok c).
    { intros w. rewrite in_flat_map. split.
      - intros (s & Is & Iw). assert (Ls := idxs_lt _ _ _ Is). assert (Lw : (w < n_wedges (gm M))%nat) by (rewrite (n_wedges_eq B W); unfold w2 in Iw; simpl in Iw; lia). split; auto.
        destruct (wedge_at B W Lw) as (Nx & Cw & _). rewrite Cw. f_equal. apply in_idxs in Is as (x & Nx' & Tx). apply Nat.eqb_eq in Tx.
        assert (w / 2 = s)%nat as Ew by (unfold w2 in Iw; simpl in Iw; lia). rewrite Ew in Nx. unfold wcell_of. congruence.
      - intros [Lw Cw]. exists (w / 2)%nat. destruct (wedge_at B W Lw) as (Nx & Cw' & _). rewrite Cw in Cw'. injection Cw' as Ec. split.
        + apply in_idxs. eexists. split; [exact Nx|]. apply Nat.eqb_eq. auto.
        + unfold w2. cbn [In]. lia. }
    assert (Wk : forall k, In k ks -> NoDup (wk k) /\ forall w, In w (wk k) <-> exists n, is_corner (gm M) k c n /\ is_wedge (gm M) w c n).
    { intros k I. destruct (Q k I) as [n IC]. destruct (c28_corner_wedges B C IC) as (ws & Ew & ND & _ & Hw). unfold wk. rewrite Ew. split; auto. intros w. rewrite Hw. split; [eauto|].
      intros (n' & IC' & IW'). destruct IC as (_ & _ & Kn), IC' as (_ & _ & Kn'). rewrite Kn in Kn'. injection Kn' as <-. auto. }
    apply NoDup_Permutation.
    + rewrite <- (map_id (flat_map wk ks)). apply NoDup_flat_map_key; auto.
      * intros k I. rewrite map_id. apply Wk; auto.
      * intros k k' w w' I I' J J' ->. apply (Wk k I) in J as (n & IC & IW1). apply (Wk k' I') in J' as (n' & IC' & IW2). destruct IW1 as (_ & _ & N1), IW2 as (_ & _ & N2). rewrite N1 in N2. injection N2 as <-.
        apply (is_corner_iff B C) in IC. apply (is_corner_iff B C) in IC'. apply (K_inj B C _ _ IC IC').
    + rewrite <- (map_id (flat_map w2 l)). apply NoDup_flat_map_key; [apply idxs_NoDup| |].
      * intros s _. rewrite map_id. unfold w2. constructor; [simpl; lia|constructor; [simpl; tauto|constructor]].
      * intros s s' w w' _ _ J J' ->. unfold w2 in *. simpl in *. lia.
    + intros w. rewrite IW, in_flat_map. split.
      * intros (k & I & J). apply (Wk k I) in J as (n & _ & L & Cw & _). auto.
      * intros [L Cw]. destruct (c28_wedges_are_partitioned B C L) as (k & ws & _ & Lk & Ew & Iw & Kc & Kn & _). exists k. split; [apply Ik; split; auto; congruence|]. unfold wk. rewrite Ew. auto.
Qed.
End S.

Theorem c71_wedges_sum_to_the_sides : forall t sh fl M X xs g c, built t sh fl (gm M) -> history M (X :: xs) g -> fl_wedges (close_flags fl) = true -> (c < ncells t)%nat ->
  exists ss ws vs us, cell_get_sides (gm M) c = Ok ss /\ cell_get_wedges (gm M) c = Ok ws /\
    mapM (fun s => side_volume M X g s false) ss = Ok vs /\ mapM (fun w => wedge_volume M X g w false) ws = Ok us /\ rsum us = rsum vs.
Proof. intros t sh fl M X xs g c B H. apply (wedges_sum B H). Qed.
Theorem c71_corners_sum_to_the_sides : forall t sh fl M X xs g c, built t sh fl (gm M) -> history M (X :: xs) g -> fl_corners (close_flags fl) = true -> (c < ncells t)%nat -> ~ cell_has_type t c BOUNDARY_GHOST ->
  exists ss ks vs us, cell_get_sides (gm M) c = Ok ss /\ cell_get_corners (gm M) c = Ok ks /\
    mapM (fun s => side_volume M X g s false) ss = Ok vs /\ mapM (fun k => corner_volume M X g k false) ks = Ok us /\ rsum us = rsum vs.
Proof. intros t sh fl M X xs g c B H. apply (corners_sum B H). Qed.
