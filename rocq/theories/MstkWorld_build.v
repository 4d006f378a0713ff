(** A check that concrete meshes are parts of one distributed mesh, and examples. *)
From Coq Require Import Permutation.
From Verif Require Import Base Defs Geometry_spec MstkMesh MstkMesh_spec MstkMesh_examples MstkMesh_build MstkWorld_spec.
Set Implicit Arguments. Unset Strict Implicit.

Fixpoint list_eqb (l l' : list nat) : bool := match l, l' with [], [] => true | a :: r, b :: r' => (a =? b) && list_eqb r r' | _, _ => false end.
Lemma list_eqb_iff : forall l l', list_eqb l l' = true <-> l = l'.
Proof.
  induction l as [|a l IH]; destruct l' as [|b l']; simpl; split; intros H; try discriminate; auto.
  - apply andb_prop in H as [A B]. apply Nat.eqb_eq in A. apply IH in B. congruence.
  - injection H as -> ->. rewrite Nat.eqb_refl. apply IH. auto.
Qed.
Definition cycle_b (l l' : list nat) : bool := existsb (fun i => list_eqb (skipn i l ++ firstn i l) l') (seq 0 (S (length l))).
Lemma cycle_b_iff l l' : cycle_b l l' = true <-> same_cycle l l'.
Proof.
  unfold cycle_b. rewrite existsb_exists. split.
  - intros (i & _ & E). apply list_eqb_iff in E. exists (firstn i l), (skipn i l). rewrite firstn_skipn. auto.
  - intros (a & b & -> & ->). exists (length a). split; [apply in_seq; rewrite app_length; lia|]. apply list_eqb_iff. rewrite skipn_app, skipn_all, Nat.sub_diag, firstn_app, firstn_all, Nat.sub_diag. simpl. rewrite app_nil_r. auto.
Qed.
Section Check.
Variables (w : world) (n d : nat).
Definition ents (k : mkind) : list (nat * nat) := flat_map (fun r => map (pair r) (k_all (w_mesh w r) k)) (seq 0 n).
Definition gid2 (k : mkind) (x : nat * nat) : nat := k_gid (w_mesh w (fst x)) k (snd x).
Definition ghost2 (k : mkind) (x : nat * nat) : bool := is_pghost (k_ptype (w_mesh w (fst x)) k (snd x)).
Definition overlap2 (k : mkind) (x : nat * nat) : bool := match k_ptype (w_mesh w (fst x)) k (snd x) with POVERLAP => true | _ => false end.
Definition pair_eqb (p q : nat * nat) : bool := (fst p =? fst q) && (snd p =? snd q).
Definition kinds : list mkind := [MVERTEX; MEDGE; MFACE; MREGION].
Definition same_b (x y : nat * nat) : bool := cycle_b (gfv (w_mesh w (fst x)) (snd x)) (gfv (w_mesh w (fst y)) (snd y)).
Definition opp_b (x y : nat * nat) : bool := cycle_b (rev (gfv (w_mesh w (fst x)) (snd x))) (gfv (w_mesh w (fst y)) (snd y)).
Definition implb2 (a b : bool) : bool := if a then b else true.
Definition on_copies (k : mkind) (P : nat * nat -> nat * nat -> bool) : bool :=
  forallb (fun x => forallb (fun y => implb2 (gid2 k x =? gid2 k y) (P x y)) (ents k)) (ents k).
Definition users (x : nat * nat) : list (nat * bool) :=
  flat_map (fun c => flat_map (fun fd => if fst fd =? snd x then [(c, snd fd)] else []) (k_rf (w_mesh w (fst x)) c)) (k_all (w_mesh w (fst x)) MREGION).
Definition world_check : bool :=
  forallb (fun r => k_dim (w_mesh w r) =? d) (seq 0 n) &&
  forallb (fun r => forallb (fun k => no_repeat (map (k_gid (w_mesh w r) k) (k_all (w_mesh w r) k))) kinds) (seq 0 n) &&
  forallb (fun k => forallb (fun x => negb (gid2 k x =? 0)) (ents k)) kinds &&
  forallb (fun k => forallb (fun x => implb2 (ghost2 k x) (existsb (fun y => (gid2 k x =? gid2 k y) && overlap2 k y && pair_eqb (w_rcv w (fst x) k (snd x)) (sent (w_mesh w (fst y)) k (snd y))) (ents k))) (ents k)) kinds &&
  forallb (fun k => on_copies k (fun x y => ghost2 k x || ghost2 k y || (fst x =? fst y))) kinds &&
  on_copies MEDGE (fun x y => pair_eqb (gev (w_mesh w (fst x)) (snd x)) (gev (w_mesh w (fst y)) (snd y)) || pair_eqb (gev (w_mesh w (fst x)) (snd x)) (swap (gev (w_mesh w (fst y)) (snd y)))) &&
  on_copies MFACE (fun x y => same_b x y || ((d =? 3) && opp_b x y)) &&
  on_copies MFACE (fun x y => forallb (fun c => forallb (fun c' => Bool.eqb (gid2 MREGION (fst x, fst c) =? gid2 MREGION (fst y, fst c')) (Bool.eqb (Bool.eqb (snd c) (snd c')) (same_b x y))) (users y)) (users x)) &&
  (negb (d =? 3) || forallb (fun x => match users x with [] => false | _ => true end) (ents MFACE)).
Lemma ents_iff k r h : In (r, h) (ents k) <-> r < n /\ In h (k_all (w_mesh w r) k).
Proof.
  unfold ents. rewrite in_flat_map. split.
  - intros (r' & A & B). apply in_map_iff in B as (h' & E & B). injection E as -> ->. apply in_seq in A. split; auto. lia.
  - intros [A B]. exists r. split; [apply in_seq; lia|apply in_map; auto].
Qed.
Lemma pair_eqb_iff p q : pair_eqb p q = true <-> p = q.
Proof. unfold pair_eqb. rewrite Bool.andb_true_iff, !Nat.eqb_eq. destruct p, q. simpl. split; [intros [-> ->]; auto|intros E; injection E; auto]. Qed.
Lemma users_iff r f c b : In (c, b) (users (r, f)) <-> In c (k_all (w_mesh w r) MREGION) /\ In (f, b) (k_rf (w_mesh w r) c).
Proof.
  unfold users. cbn [fst snd]. rewrite in_flat_map. split.
  - intros (c' & A & B). apply in_flat_map in B as ([g e] & B1 & B2). cbn [fst snd] in B2. destruct (g =? f) eqn:Q; [|destruct B2]. apply Nat.eqb_eq in Q. destruct B2 as [B2|[]]. injection B2 as -> ->. subst g. auto.
  - intros [A B]. exists c. split; auto. apply in_flat_map. exists (f, b). split; auto. cbn [fst snd]. rewrite Nat.eqb_refl. left; auto.
Qed.
Lemma in_kinds k : In k kinds. Proof. destruct k; simpl; tauto. Qed.
Hypothesis Hmesh : forall r, mstk_mesh (w_mesh w r).
Hypothesis Hout : forall r, n <= r -> k_dim (w_mesh w r) = d /\ forall k, k_all (w_mesh w r) k = [].
Lemma rank_lt r k h : In h (k_all (w_mesh w r) k) -> r < n.
Proof. intros I. destruct (Nat.lt_ge_cases r n) as [L|L]; auto. destruct (Hout L) as [_ E]. rewrite E in I. destruct I. Qed.
Lemma on_copies_ok k P : on_copies k P = true -> forall r1 h1 r2 h2, copies w k r1 h1 r2 h2 -> P (r1, h1) (r2, h2) = true.
Proof.
  unfold on_copies. intros H r1 h1 r2 h2 (A & B & E). rewrite forallb_forall in H. specialize (H (r1, h1) (proj2 (ents_iff k r1 h1) (conj (rank_lt A) A))). rewrite forallb_forall in H. specialize (H (r2, h2) (proj2 (ents_iff k r2 h2) (conj (rank_lt B) B))).
  unfold gid2 in H. cbn [fst snd] in H. rewrite (proj2 (Nat.eqb_eq _ _) E) in H. exact H.
Qed.
Lemma world_check_ok : world_check = true -> distributed w.
Proof.
  unfold world_check. intros H. apply andb_prop in H as [H H9]. apply andb_prop in H as [H H8]. apply andb_prop in H as [H H7]. apply andb_prop in H as [H H6]. apply andb_prop in H as [H H5]. apply andb_prop in H as [H H4]. apply andb_prop in H as [H H3]. apply andb_prop in H as [H1 H2].
  rewrite forallb_forall in H1, H2, H3, H4, H5.
  assert (Dm : forall r, k_dim (w_mesh w r) = d). { intros r. destruct (Nat.lt_ge_cases r n) as [L|L]; [apply Nat.eqb_eq, H1, in_seq; lia|apply (Hout L)]. }
  constructor.
  - exact Hmesh.
  - intros r r'. rewrite !Dm. auto.
  - intros r k h h' A B E. specialize (H2 r (proj2 (in_seq _ _ _) (conj (Nat.le_0_l r) (rank_lt A)))). rewrite forallb_forall in H2. specialize (H2 k (in_kinds k)). apply nodup_nat_dec in H2.
    revert H2 A B E. generalize (k_all (w_mesh w r) k). clear. intros l. induction l as [|x l IH]; intros N A B E; [destruct A|]. apply NoDup_cons_iff in N as [N1 N2]. destruct A as [->|A], B as [->|B]; auto; exfalso; apply N1; [rewrite E|rewrite <- E]; apply in_map; auto.
  - intros r k h A. specialize (H3 k (in_kinds k)). rewrite forallb_forall in H3. specialize (H3 (r, h) (proj2 (ents_iff k r h) (conj (rank_lt A) A))). apply Bool.negb_true_iff, Nat.eqb_neq in H3. exact H3.
  - intros r k h A P. specialize (H4 k (in_kinds k)). rewrite forallb_forall in H4. specialize (H4 (r, h) (proj2 (ents_iff k r h) (conj (rank_lt A) A))). unfold ghost2 in H4. cbn [fst snd] in H4. rewrite P in H4. cbn [is_pghost implb2] in H4.
    apply existsb_exists in H4 as ([ro ho] & I & H4). apply andb_prop in H4 as [H4 E2]. apply andb_prop in H4 as [E0 E1]. apply Nat.eqb_eq in E0. apply pair_eqb_iff in E2. unfold gid2, overlap2 in *. cbn [fst snd] in *. apply ents_iff in I as [_ I].
    exists ro, ho. split; [repeat split; auto|]. split; auto. destruct (k_ptype (w_mesh w ro) k ho); congruence.
  - intros k r1 h1 r2 h2 Cp P1 P2. pose proof (on_copies_ok (H5 k (in_kinds k)) Cp) as Q. unfold ghost2 in Q. cbn [fst snd] in Q. apply Nat.eqb_eq. destruct (k_ptype (w_mesh w r1) k h1), (k_ptype (w_mesh w r2) k h2); try congruence; exact Q.
  - intros r1 e1 r2 e2 Cp. pose proof (on_copies_ok H6 Cp) as Q. cbn [fst snd] in Q. apply Bool.orb_prop in Q as [Q|Q]; apply pair_eqb_iff in Q; auto.
  - intros r1 f1 r2 f2 Cp. pose proof (on_copies_ok H7 Cp) as Q. cbn beta in Q. unfold same_b, opp_b in Q. cbn [fst snd] in Q. unfold same_way, opposite_way. apply Bool.orb_prop in Q as [Q|Q]; [left; apply cycle_b_iff; auto|]. apply andb_prop in Q as [Q1 Q2]. right. split; [rewrite Dm; apply Nat.eqb_eq; auto|apply cycle_b_iff; auto].
  - intros r1 f1 r2 f2 c1 c2 d1 d2 Cp A B U1 U2. pose proof (on_copies_ok H8 Cp) as Q. cbn beta in Q. rewrite forallb_forall in Q. specialize (Q (c1, d1) (proj2 (users_iff r1 f1 c1 d1) (conj A U1))). rewrite forallb_forall in Q. specialize (Q (c2, d2) (proj2 (users_iff r2 f2 c2 d2) (conj B U2))).
    unfold same_b, gid2 in Q. cbn [fst snd] in Q. apply Bool.eqb_prop in Q. rewrite <- Nat.eqb_eq, Q. rewrite Bool.eqb_true_iff. unfold same_way. rewrite <- cycle_b_iff.
    destruct (Bool.eqb d1 d2) eqn:E; [apply Bool.eqb_prop in E; split; [intros <-; tauto|intros X; symmetry; tauto]|apply Bool.eqb_false_iff in E]. split; [intros <-; intuition congruence|]. intros X. destruct (cycle_b _ _); auto. tauto.
  - intros r f D3 A. rewrite Dm in D3. apply Bool.orb_prop in H9 as [H9|H9]; [rewrite D3 in H9; discriminate|]. rewrite forallb_forall in H9. specialize (H9 (r, f) (proj2 (ents_iff MFACE r f) (conj (rank_lt A) A))).
    destruct (users (r, f)) as [|[c b] l] eqn:U; [discriminate|]. assert (I : In (c, b) (users (r, f))) by (rewrite U; left; auto). apply users_iff in I as [I1 I2]. exists c. split; auto. exact (in_map fst _ _ I2).
Qed.
Definition layer_check : bool :=
  on_copies MFACE (fun x y => ghost2 MFACE x || forallb (fun c => existsb (fun c' => gid2 MREGION (fst x, fst c') =? gid2 MREGION (fst y, fst c)) (users x)) (users y)).
Lemma layer_check_ok : layer_check = true -> ghost_layer w.
Proof.
  unfold layer_check. intros H ro fo r f c Cp P Ic Uc. pose proof (on_copies_ok H Cp) as Q. cbn beta in Q. unfold ghost2 in Q. cbn [fst snd] in Q. apply in_map_iff in Uc as ([g b] & E & Uc). cbn [fst] in E. subst g.
  destruct (k_ptype (w_mesh w ro) MFACE fo); try congruence; cbn [is_pghost orb] in Q; rewrite forallb_forall in Q; specialize (Q (c, b) (proj2 (users_iff r f c b) (conj Ic Uc))); apply existsb_exists in Q as ([co e] & I & Q); apply Nat.eqb_eq in Q; unfold gid2 in Q; cbn [fst snd] in Q; apply users_iff in I as [I1 I2]; exists co; (split; [repeat split; auto|exact (in_map fst _ _ I2)]).
Qed.
Lemma no_common ro fo r f : (forall c c', In c (users (ro, fo)) -> In c' (users (r, f)) -> gid2 MREGION (ro, fst c) <> gid2 MREGION (r, fst c')) -> ~ common_cell w ro fo r f.
Proof.
  intros H (co & c & (A & B & E) & U & U'). apply in_map_iff in U as ([x e] & Q & U), U' as ([y e'] & Q' & U'). cbn [fst] in Q, Q'. subst x y. apply (H (co, e) (c, e')); [apply users_iff; auto|apply users_iff; auto|]. exact E.
Qed.
End Check.

(** ** the hexahedron and the prism of MstkMesh_build on two ranks, with one layer of ghosts.  Handles are global ids; rank 1 stores edge 13 and faces 4 and 9 the other way round *)
Local Notation T := true. Local Notation F := false.
Definition h2_ev : nat -> nat * nat := fun e => if e =? 13 then (9, 2) else hp_ev e.
Definition h2_fe : nat -> list (nat * bool) := fun f =>
  match f with 4 => [(10, T); (6, T); (11, F); (2, F)] | 7 => [(2, T); (14, F); (13, T)] | 9 => [(10, T); (15, T); (17, F); (13, T)] | _ => hp_fe f end.
Definition h2_rf : nat -> list (nat * bool) := tbl []
  [[(1,T); (2,T); (3,T); (4,F); (5,T); (6,T)]; [(4,T); (9,F); (8,T); (7,T); (10,T)]].
Definition h2_ptype (k : mkind) (h : nat) : par_type := match hp_ptype k h with PGHOST => POVERLAP | _ => PGHOST end.
Definition none_mesh : mstk := mesh_of 3 (fun _ => []) (fun _ _ => PINTERIOR) (fun _ h => h) (fun _ => (0, 0)) (fun _ => []) (fun _ => []).
Definition two_meshes (r : nat) : mstk := match r with 0 => hp_mesh | 1 => mesh_of 3 hp_all h2_ptype (fun _ h => h) h2_ev h2_fe h2_rf | _ => none_mesh end.
Definition two_ranks : world := World two_meshes (fun r k h => sent (two_meshes (1 - r)) k h).
Lemma two_meshes_ok r : mstk_mesh (w_mesh two_ranks r).
Proof. destruct r as [|[|r]]; [exact hp_is_mesh|apply mesh_check_ok; vm_compute; reflexivity|apply mesh_check_ok; reflexivity]. Qed.
Lemma two_meshes_out r : 2 <= r -> k_dim (w_mesh two_ranks r) = 3 /\ forall k, k_all (w_mesh two_ranks r) k = [].
Proof. intros L. destruct r as [|[|r]]; try lia. split; [reflexivity|]. intros k. reflexivity. Qed.
Lemma two_ranks_distributed : distributed two_ranks.
Proof. apply (@world_check_ok two_ranks 2 3 two_meshes_ok two_meshes_out). vm_compute. reflexivity. Qed.
Lemma two_ranks_layer : ghost_layer two_ranks.
Proof. apply (@layer_check_ok two_ranks 2 3 two_meshes_out). vm_compute. reflexivity. Qed.
(** ** the same without ghost cells: rank 0 has the hexahedron, rank 1 the prism; they share face 4, owned by rank 0 and stored the same way on both *)
Definition z0_all (k : mkind) : list nat := match k with MVERTEX => seq 1 8 | MEDGE => seq 1 12 | MFACE => seq 1 6 | MREGION => [1] end.
Definition z1_all (k : mkind) : list nat := match k with MVERTEX => [2; 3; 6; 7; 9; 10] | MEDGE => [2; 6; 10; 11; 13; 14; 15; 16; 17] | MFACE => [4; 7; 8; 9; 10] | MREGION => [2] end.
Definition z0_ptype (k : mkind) (h : nat) : par_type := match k with MREGION => PINTERIOR | _ => POVERLAP end.
Definition z1_ptype (k : mkind) (h : nat) : par_type := match k with MREGION => PINTERIOR | _ => if has (z0_all k) h then PGHOST else PINTERIOR end.
Definition bare_meshes (r : nat) : mstk :=
  match r with 0 => mesh_of 3 z0_all z0_ptype (fun _ h => h) hp_ev hp_fe hp_rf | 1 => mesh_of 3 z1_all z1_ptype (fun _ h => h) hp_ev hp_fe hp_rf | _ => none_mesh end.
Definition bare_ranks : world := World bare_meshes (fun r k h => sent (bare_meshes 0) k h).
Lemma bare_meshes_ok r : mstk_mesh (w_mesh bare_ranks r).
Proof. destruct r as [|[|r]]; [apply mesh_check_ok; vm_compute; reflexivity|apply mesh_check_ok; vm_compute; reflexivity|apply mesh_check_ok; reflexivity]. Qed.
Lemma bare_meshes_out r : 2 <= r -> k_dim (w_mesh bare_ranks r) = 3 /\ forall k, k_all (w_mesh bare_ranks r) k = [].
Proof. intros L. destruct r as [|[|r]]; try lia. split; [reflexivity|]. intros k. reflexivity. Qed.
Lemma bare_ranks_distributed : distributed bare_ranks.
Proof. apply (@world_check_ok bare_ranks 2 3 bare_meshes_ok bare_meshes_out). vm_compute. reflexivity. Qed.
