(** The 3D generator makes the block of the grid it is asked for: the whole. *)
From Coq Require Import Reals Permutation Lra.
From Verif Require Import Base Loop MeshSet_proofs RegularMesh RegularMesh_spec RegularMesh_proofs RegularMesh_proofs2 RegularMesh_proofs3.
Set Implicit Arguments.

Definition swap (t : triple) : triple := let '(i, k, j) := t in (i, j, k).
Lemma shift_inj i0 j0 k0 t u : shift i0 j0 k0 t = shift i0 j0 k0 u -> t = u.
Proof. destruct t as ((a, b), c), u as ((a', b'), c'). cbn. intros E. injection E as E1 E2 E3. repeat f_equal; lia. Qed.
Lemma swap_inj t u : swap t = swap u -> t = u.
Proof. destruct t as ((a, b), c), u as ((a', b'), c'). cbn. intros E. injection E as -> -> ->. auto. Qed.
Lemma next_ne d e p : d < 3 -> e < 3 -> next d p = next e p -> d = e.
Proof. destruct p as ((x, y), z). intros Ld Le E. le2 d; le2 e; auto; cbn in E; injection E; lia. Qed.
Lemma box_shift i0 j0 k0 nx ny nz p : in_box (i0, j0, k0) (i0 + nx, j0 + ny, k0 + nz) p <-> exists i j k, i <= nx /\ j <= ny /\ k <= nz /\ p = shift i0 j0 k0 (i, j, k).
Proof.
  destruct p as ((x, y), z). rewrite in_box3. split.
  - intros ((A & A') & (B & B') & (C & C')). exists (x - i0), (y - j0), (z - k0). cbn. repeat split; try lia. repeat f_equal; lia.
  - intros (i & j & k & Li & Lj & Lk & E). cbn in E. injection E as -> -> ->. lia.
Qed.

Lemma map_by_index A B (f : A -> B) l d : map f l = map (fun h => f (nth h l d)) (seq 0 (length l)).
Proof. induction l as [|a l IH]; cbn [length seq map nth]; auto. f_equal. rewrite IH, <- seq_shift, map_map. reflexivity. Qed.
Section Whole.
Variables (X0 Y0 Z0 X1 Y1 Z1 : R) (NX NY NZ i0 j0 k0 nx ny nz : nat).
Hypotheses (PX : 0 < NX) (PY : 0 < NY) (PZ : 0 < NZ) (BX : i0 + nx <= NX) (BY : j0 + ny <= NY) (BZ : k0 + nz <= NZ).
Let N : gpos := (NX, NY, NZ).
Let lo : gpos := (i0, j0, k0).
Let hi : gpos := (i0 + nx, j0 + ny, k0 + nz).
Let sh := shift i0 j0 k0.

Lemma exactly_corners a b c (corners : gpos -> list gpos) (P : list gpos -> Prop) : (forall p, hd_error (corners p) = Some p) ->
  (forall x, P x <-> exists i j k, i < a /\ j < b /\ k < c /\ x = corners (sh (i, j, k))) -> exactly (map (fun t => corners (sh t)) (grid3 a b c)) P.
Proof.
  intros H E. eapply exactly_iff; [apply exactly_map_grid with (f := fun t => corners (sh t))|].
  - intros t u _ _ C. apply (@shift_inj i0 j0 k0). pose proof (H (sh t)) as H1. rewrite C, H in H1. injection H1 as H2. exact (eq_sym H2).
  - intros x. now rewrite E.
Qed.
Lemma exactly_corners_swap a b c (corners : gpos -> list gpos) (P : list gpos -> Prop) : (forall p, hd_error (corners p) = Some p) ->
  (forall x, P x <-> exists i j k, i < a /\ j < b /\ k < c /\ x = corners (sh (i, j, k))) -> exactly (map (fun t => corners (sh (swap t))) (grid3 a c b)) P.
Proof.
  intros H E. eapply exactly_iff; [apply exactly_map_grid with (f := fun t => corners (sh (swap t)))|].
  - intros t u _ _ C. apply swap_inj, (@shift_inj i0 j0 k0). pose proof (H (sh (swap t))) as H1. rewrite C, H in H1. injection H1 as H2. exact (eq_sym H2).
  - intros x. rewrite E. split; intros (i & j & k & H1 & H2 & H3 & ->); exists i, k, j; auto.
Qed.
(** the edges of one direction, the squares of two *)
Lemma edge_dir d a b c (x : list gpos) : (a, b, c) = match d with 0 => (nx, ny + 1, nz + 1) | 1 => (nx + 1, ny, nz + 1) | _ => (nx + 1, ny + 1, nz) end -> d < 3 ->
  (exists p, in_box lo hi p /\ in_box lo hi (next d p) /\ x = [p; next d p]) <-> exists i j k, i < a /\ j < b /\ k < c /\ x = (fun p => [p; next d p]) (sh (i, j, k)).
Proof.
  intros E L. split.
  - intros (p & B & B' & ->). apply box_shift in B as (i & j & k & Li & Lj & Lk & ->). exists i, j, k. le2 d; injection E as -> -> ->; cbn [shift next] in B'; apply in_box3 in B'; repeat split; lia.
  - intros (i & j & k & Li & Lj & Lk & ->). exists (sh (i, j, k)). le2 d; injection E as -> -> ->; (split; [unfold lo, hi; cbn [sh shift]; apply in_box3; lia|split; [unfold lo, hi; cbn [sh shift next]; apply in_box3; lia|reflexivity]]).
Qed.
Lemma square_dir d e a b c (x : list gpos) : (a, b, c) = match d, e with 1, _ => (nx + 1, ny, nz) | _, 2 => (nx, ny + 1, nz) | _, _ => (nx, ny, nz + 1) end -> d < e -> e < 3 ->
  (exists p, in_box lo hi p /\ in_box lo hi (next e (next d p)) /\ x = [p; next d p; next e (next d p); next e p]) <->
  exists i j k, i < a /\ j < b /\ k < c /\ x = (fun p => [p; next d p; next e (next d p); next e p]) (sh (i, j, k)).
Proof.
  intros E L L'. assert (d = 1 /\ e = 2 \/ d = 0 /\ e = 2 \/ d = 0 /\ e = 1) as D by lia. split.
  - intros (p & B & B' & ->). apply box_shift in B as (i & j & k & Li & Lj & Lk & ->). exists i, j, k. destruct D as [(-> & ->)|[(-> & ->)|(-> & ->)]]; injection E as -> -> ->; cbn [shift next] in B'; apply in_box3 in B'; repeat split; lia.
  - intros (i & j & k & Li & Lj & Lk & ->). exists (sh (i, j, k)). destruct D as [(-> & ->)|[(-> & ->)|(-> & ->)]]; injection E as -> -> ->; (split; [unfold lo, hi; cbn [sh shift]; apply in_box3; lia|split; [unfold lo, hi; cbn [sh shift next]; apply in_box3; lia|reflexivity]]).
Qed.
Lemma gen3_ok : nx > 0 -> ny > 0 -> nz > 0 ->
  exists m pos, generate3 X0 Y0 Z0 X1 Y1 Z1 NX NY NZ i0 j0 k0 nx ny nz = Ok m /\
    regular_block N lo hi (gpoint X0 Y0 Z0 X1 Y1 Z1 NX NY NZ) (num_vert NY NZ) (num_edge NY NZ) (num_face NY NZ) (num_reg NY NZ) m pos.
Proof.
  intros Gx Gy Gz. unfold generate3. assert (forall n M, n > 0 -> defaulted n M = n) as D by (intros n M G; unfold defaulted; destruct n; [lia|auto]). rewrite !D by auto. clear D.
  pose (keys := grid3 (nx + 1) (ny + 1) (nz + 1)). pose (pos := node_of i0 j0 k0 keys).
  destruct (@loop3_ok _ (nx + 1) (ny + 1) (nz + 1) (gen_vert X0 Y0 Z0 X1 Y1 Z1 NX NY NZ i0 j0 k0)
    (fun t v => fst v = t /\ mv_xyz (snd v) = gpoint X0 Y0 Z0 X1 Y1 Z1 NX NY NZ (sh t) /\ mv_glob (snd v) = num_vert NY NZ [sh t] /\ classified N (mv_gdim (snd v)) (mv_gid (snd v)) [sh t])) as (vs & EV & FV).
  { intros i j k Li Lj Lk. destruct (@gen_vert_ok X0 Y0 Z0 X1 Y1 Z1 NX NY NZ i0 j0 k0 nx ny nz PX PY PZ BX BY BZ i j k Li Lj Lk) as (v & E & H). exists ((i, j, k), v). cbn. auto. }
  rewrite EV. cbn [bind]. assert (map fst vs = keys) as KE. { symmetry. rewrite <- (map_id keys). apply Forall2_map with (1 := FV). intros x y (<- & _). reflexivity. }
  rewrite KE. unfold gen3_body.
  destruct (@loop3_ok _ (nx + 1) (ny + 1) nz (gen_edge_z NX NY NZ i0 j0 k0 keys) (ent_ok NX NY NZ i0 j0 k0 keys (num_edge NY NZ) (fun p => [p; next 2 p]))) as (ez & -> & Fez). { intros. now apply gen_edge_z_ok with nx ny nz. }
  destruct (@loop3_ok _ (nx + 1) ny (nz + 1) (gen_edge_y NX NY NZ i0 j0 k0 keys) (ent_ok NX NY NZ i0 j0 k0 keys (num_edge NY NZ) (fun p => [p; next 1 p]))) as (ey & -> & Fey). { intros. now apply gen_edge_y_ok with nx ny nz. }
  destruct (@loop3_ok _ nx (nz + 1) (ny + 1) (gen_edge_x NY NZ i0 j0 k0 keys) (fun t => ent_ok NX NY NZ i0 j0 k0 keys (num_edge NY NZ) (fun p => [p; next 0 p]) (swap t))) as (ex & -> & Fex). { intros. now apply gen_edge_x_ok with nx ny nz. }
  destruct (@loop3_ok _ (nx + 1) ny nz (gen_face_x NX NY NZ i0 j0 k0 keys) (ent_ok NX NY NZ i0 j0 k0 keys (num_face NY NZ) (fun p => [p; next 1 p; next 2 (next 1 p); next 2 p]))) as (fx & -> & Ffx). { intros. now apply gen_face_x_ok with nx ny nz. }
  destruct (@loop3_ok _ nx (ny + 1) nz (gen_face_y NY NZ i0 j0 k0 keys) (ent_ok NX NY NZ i0 j0 k0 keys (num_face NY NZ) (fun p => [p; next 0 p; next 2 (next 0 p); next 2 p]))) as (fy & -> & Ffy). { intros. now apply gen_face_y_ok with nx ny nz. }
  destruct (@loop3_ok _ nx ny (nz + 1) (gen_face_z NY NZ i0 j0 k0 keys) (ent_ok NX NY NZ i0 j0 k0 keys (num_face NY NZ) (fun p => [p; next 0 p; next 1 (next 0 p); next 1 p]))) as (fz & -> & Ffz). { intros. now apply gen_face_z_ok with nx ny nz. }
  destruct (@loop3_ok _ nx ny nz (gen_reg NY NZ i0 j0 k0 keys) (reg_ok NY NZ i0 j0 k0 keys)) as (rs & -> & Frs). { intros. now apply gen_reg_ok with NX nx ny nz. }
  cbn [bind]. eexists. exists pos. split; [reflexivity|].
  assert (forall l l' num corners, Forall2 (ent_ok NX NY NZ i0 j0 k0 keys num corners) l l' -> map (fun e => map pos (me_verts e)) l' = map (fun t => corners (sh t)) l) as ME.
  { intros l l' num corners F. symmetry. apply Forall2_map with (1 := F). intros t e (Hm & _). exact (eq_sym Hm). }
  assert (map (fun e => map pos (me_verts e)) ex = map (fun t => [sh (swap t); next 0 (sh (swap t))]) (grid3 nx (nz + 1) (ny + 1))) as MEX.
  { symmetry. apply Forall2_map with (1 := Fex). intros t e (Hm & _). exact (eq_sym Hm). }
  assert (length vs = length keys) as LV by (rewrite <- KE, map_length; auto).
  split; cbn [m_verts m_edges m_faces m_regs].
  - rewrite map_length, LV. replace (map (fun h => [pos h]) (seq 0 (length keys))) with (map (fun t => [sh t]) keys).
    + apply (@exactly_corners (nx + 1) (ny + 1) (nz + 1) (fun p => [p])); auto. intros x. split.
      * intros (p & B & ->). apply box_shift in B as (i & j & k & Li & Lj & Lk & ->). exists i, j, k. repeat split; lia.
      * intros (i & j & k & Li & Lj & Lk & ->). exists (sh (i, j, k)). split; auto. apply box_shift. exists i, j, k. repeat split; lia.
    + apply (map_by_index (fun t => [sh t]) keys (0, 0, 0)).
  - intros h v E. rewrite nth_error_map in E. destruct (nth_error vs h) as [tv|] eqn:EH; [|discriminate]. cbn in E. injection E as <-.
    assert (nth_error keys h = Some (fst tv)) as EK by (rewrite <- KE, nth_error_map, EH; auto).
    assert (In tv vs) as I by (eapply nth_error_In; eauto). destruct (@Forall2_In_r _ _ _ _ _ _ FV I) as (t & _ & (<- & H)). unfold pos, node_of. rewrite (nth_error_nth _ _ _ EK). exact H.
  - rewrite map_length, LV. intros h I. rewrite !flat_map_app, !in_app_iff in I.
    assert (forall l l' num corners, Forall2 (ent_ok NX NY NZ i0 j0 k0 keys num corners) l l' -> In h (flat_map me_verts l') -> h < length keys) as HE.
    { intros l l' num corners F J. apply in_flat_map in J as (e & Ie & Ih). destruct (@Forall2_In_r _ _ _ _ _ _ F Ie) as (t & _ & (_ & H & _)). auto. }
    destruct I as [[I|[I|I]]|[[I|[I|I]]|I]]; eauto.
    + apply in_flat_map in I as (e & Ie & Ih). destruct (@Forall2_In_r _ _ _ _ _ _ Fex Ie) as (t & _ & (_ & H & _)). auto.
    + apply in_flat_map in I as (e & Ie & Ih). destruct (@Forall2_In_r _ _ _ _ _ _ Frs Ie) as (t & _ & (_ & H & _)). auto.
  - rewrite !map_app, MEX, (ME _ _ _ _ Fez), (ME _ _ _ _ Fey).
    eapply exactly_iff; [apply exactly_app; [|apply exactly_app|]|].
    + apply exactly_corners with (corners := fun p => [p; next 2 p]); auto. intros x. apply (@edge_dir 2); auto.
    + apply exactly_corners with (corners := fun p => [p; next 1 p]); auto. intros x. apply (@edge_dir 1); auto.
    + apply exactly_corners_swap with (corners := fun p => [p; next 0 p]); auto. intros x. apply (@edge_dir 0); auto.
    + intros x (p & _ & _ & ->) (q & _ & _ & E). injection E as <- E. apply next_ne in E; lia.
    + intros x (p & _ & _ & ->) [(q & _ & _ & E)|(q & _ & _ & E)]; injection E as <- E; apply next_ne in E; lia.
    + intros x. split. * intros [(p & H1 & H2 & H3)|[(p & H1 & H2 & H3)|(p & H1 & H2 & H3)]]; [exists 2, p|exists 1, p|exists 0, p]; repeat (split; auto).
      * intros (d & p & L & H). le2 d; eauto.
  - intros e I. rewrite !in_app_iff in I. cbv zeta.
    destruct I as [I|[I|I]]; [destruct (@Forall2_In_r _ _ _ _ _ _ Fez I) as (t & _ & (H1 & H2 & H3))|destruct (@Forall2_In_r _ _ _ _ _ _ Fey I) as (t & _ & (H1 & H2 & H3))|destruct (@Forall2_In_r _ _ _ _ _ _ Fex I) as (t & _ & (H1 & H2 & H3))]; unfold pos; rewrite H1; auto.
  - rewrite !map_app, (ME _ _ _ _ Ffx), (ME _ _ _ _ Ffy), (ME _ _ _ _ Ffz).
    eapply exactly_iff; [apply exactly_app; [|apply exactly_app|]|].
    + apply exactly_corners with (corners := fun p => [p; next 1 p; next 2 (next 1 p); next 2 p]); auto. intros x. apply (@square_dir 1 2); auto.
    + apply exactly_corners with (corners := fun p => [p; next 0 p; next 2 (next 0 p); next 2 p]); auto. intros x. apply (@square_dir 0 2); auto.
    + apply exactly_corners with (corners := fun p => [p; next 0 p; next 1 (next 0 p); next 1 p]); auto. intros x. apply (@square_dir 0 1); auto.
    + intros x (p & _ & _ & ->) (q & _ & _ & E). injection E as <- _ E. apply next_ne in E; lia.
    + intros x (p & _ & _ & ->) [(q & _ & _ & E)|(q & _ & _ & E)]; injection E as <- E _; apply next_ne in E; lia.
    + intros x. split. * intros [(p & H1 & H2 & H3)|[(p & H1 & H2 & H3)|(p & H1 & H2 & H3)]]; [exists 1, 2, p|exists 0, 2, p|exists 0, 1, p]; repeat (split; auto).
      * intros (d & e & p & L & L' & H). assert (d = 1 /\ e = 2 \/ d = 0 /\ e = 2 \/ d = 0 /\ e = 1) as [(-> & ->)|[(-> & ->)|(-> & ->)]] by lia; eauto.
  - intros e I. rewrite !in_app_iff in I. cbv zeta.
    destruct I as [I|[I|I]]; [destruct (@Forall2_In_r _ _ _ _ _ _ Ffx I) as (t & _ & (H1 & H2 & H3))|destruct (@Forall2_In_r _ _ _ _ _ _ Ffy I) as (t & _ & (H1 & H2 & H3))|destruct (@Forall2_In_r _ _ _ _ _ _ Ffz I) as (t & _ & (H1 & H2 & H3))]; unfold pos; rewrite H1; auto.
  - replace (map (fun r => map pos (mr_verts r)) rs) with (map (fun t => cube (sh t)) (grid3 nx ny nz)).
    + apply exactly_corners; auto. intros x. split.
      * intros (p & B & B' & ->). apply box_shift in B as (i & j & k & Li & Lj & Lk & ->). cbn [shift next] in B'. apply in_box3 in B'. exists i, j, k. repeat split; lia.
      * intros (i & j & k & Li & Lj & Lk & ->). exists (sh (i, j, k)). unfold lo, hi. cbn [sh shift next]. split; [apply in_box3; lia|split; [apply in_box3; lia|reflexivity]].
    + apply Forall2_map with (1 := Frs). intros t r (Hm & _). exact (eq_sym Hm).
  - intros r I. destruct (@Forall2_In_r _ _ _ _ _ _ Frs I) as (t & _ & (H1 & H2 & H3 & H4)). unfold pos. rewrite H1. auto.
Qed.
End Whole.
