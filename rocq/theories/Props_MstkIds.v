(** C85: ids of the MSTK framework. *)
From Coq Require Import Permutation.
From Verif Require Import Base Loop Defs Cache Cache_proofs MstkMesh MstkMesh_spec MstkMesh_proofs MstkMesh_examples.
Set Implicit Arguments.

(** a mesh object constructed by the framework over the MSTK mesh [m] *)
Definition constructed (serial bg faces edges : bool) (m : mstk) (rcv : received) (j : jmesh) : Prop :=
  (forall k, NoDup (k_all m k)) /\ construct serial bg faces edges m rcv = Ok j.
Lemma constructed_made serial bg faces edges m rcv j : constructed serial bg faces edges m rcv j -> made serial bg faces edges m rcv j.
Proof.
  intros [N E]. destruct (@construct_made serial bg faces edges m rcv N) as [(j' & E' & M)|[_ T]]; [|congruence].
  replace j with j' by congruence. auto.
Qed.

(** C85.  The construction succeeds; only a parallel one can throw (the ghosts' data do not match the owners'). *)
Theorem c85_construction : forall serial bg faces edges m rcv, (forall k, NoDup (k_all m k)) ->
  (exists j, construct serial bg faces edges m rcv = Ok j) \/ (serial = false /\ construct serial bg faces edges m rcv = Thrown).
Proof. intros. destruct (@construct_made serial bg faces edges m rcv H) as [(j & E & _)|T]; [left; eauto|right; auto]. Qed.
(** C85.  Ids run from 0: first the owned entities, then the ghosts of other ranks, then the boundary ghosts; as many as the mesh has. *)
Theorem c85_ids_by_type : forall serial bg faces edges m rcv j K, constructed serial bg faces edges m rcv j -> base_kind K -> has_kind j K ->
  exists no ng nb, entities j K PARALLEL_OWNED = seq 0 no /\ entities j K PARALLEL_GHOST = seq no ng /\ entities j K BOUNDARY_GHOST = seq (no + ng) nb /\
    entities j K TYPE_ALL = seq 0 (no + ng + nb) /\ no + ng + nb = length (k_all m (mkind_of m K)).
Proof.
  intros serial bg faces edges m rcv j K C B Hk. pose proof (constructed_made C) as M. destruct (mj_kind M B Hk) as [Nu Ta Li]. rewrite (mj_mesh M), (mj_bg M) in *.
  cbn zeta in Li. unfold entities. rewrite Li. cbn [il_owned il_ghost il_bghost il_all].
  set (g := groups m bg K) in *. exists (length (fst (fst g))), (length (snd (fst g))), (length (snd g)).
  pose proof (groups_perm m bg B) as P. fold g in P. unfold all_of in *.
  rewrite (numbering_head _ _ Nu). rewrite (numbering_seq Nu).
  assert (Nu2 : numbering (j_ids j) (mkind_of m K) ((fst (fst g) ++ snd (fst g)) ++ snd g)) by (rewrite <- app_assoc; exact Nu).
  rewrite (numbering_part _ _ Nu2).
  assert (Hg : map (fun h => j_ids j (mkind_of m K) h - 1) (snd (fst g)) = seq (length (fst (fst g))) (length (snd (fst g)))).
  { apply map_shift_seq. intros p h E. rewrite (Nu (length (fst (fst g)) + p) h); [lia|]. rewrite nth_error_app2 by lia. replace (_ + p - _) with p by lia.
    rewrite nth_error_app1; auto. apply nth_error_Some; congruence. }
  rewrite Hg. repeat split; try (rewrite !app_length; f_equal; lia).
  rewrite <- (Permutation_length P), !app_length. lia.
Qed.
Lemma in_group serial bg faces edges m rcv j K i h (M : made serial bg faces edges m rcv j) : base_kind K -> has_kind j K -> behind j K i h ->
  In h (all_of (groups m bg K)) /\ id_of j (mkind_of m K) h = i.
Proof.
  intros B Hk E. destruct (mj_kind M B Hk) as [Nu Ta Li]. rewrite (mj_mesh M), (mj_bg M) in *. unfold behind in E. rewrite Ta in E. split; [eapply nth_error_In; eauto|].
  unfold id_of. rewrite (Nu _ _ E). lia.
Qed.
(** C85.  An id stands for one entity of the mesh and every entity of the mesh has one id: the id-to-entity table and MEnt_ID are
    inverse to each other. *)
Theorem c85_one_entity_per_id : forall serial bg faces edges m rcv j K, constructed serial bg faces edges m rcv j -> base_kind K -> has_kind j K ->
  (forall i, In i (entities j K TYPE_ALL) <-> exists h, behind j K i h) /\
  (forall h, In h (k_all m (mkind_of m K)) -> exists i, behind j K i h) /\
  (forall i h, behind j K i h -> In h (k_all m (mkind_of m K)) /\ id_of j (mkind_of m K) h = i) /\
  (forall i i' h, behind j K i h -> behind j K i' h -> i = i').
Proof.
  intros serial bg faces edges m rcv j K C B Hk. pose proof (constructed_made C) as M.
  pose proof (groups_perm m bg B) as P.
  split; [|split; [|split]].
  - intros i. destruct (mj_kind M B Hk) as [Nu Ta Li]. rewrite (mj_mesh M), (mj_bg M) in *. cbn zeta in Li. unfold entities. rewrite Li. cbn [il_all]. rewrite (numbering_seq Nu), in_seq.
    unfold behind. rewrite Ta. split.
    + intros H. destruct (nth_error (all_of (groups m bg K)) i) eqn:E; [eauto|]. apply nth_error_None in E. lia.
    + intros [h E]. assert (i < length (all_of (groups m bg K))) by (apply nth_error_Some; congruence). lia.
  - intros h I. apply (Permutation_in _ (Permutation_sym P)) in I. apply In_nth_error in I as [i E]. exists i. destruct (mj_kind M B Hk) as [Nu Ta Li]. rewrite (mj_mesh M), (mj_bg M) in *. unfold behind. rewrite Ta. auto.
  - intros i h E. destruct (in_group M B Hk E) as [A Q]. split; auto. apply (Permutation_in _ P); auto.
  - intros i i' h E E'. destruct (in_group M B Hk E) as [_ <-]. destruct (in_group M B Hk E') as [_ <-]. auto.
Qed.
(** C85.  An id is in the list of a type exactly if its entity has that type in the MSTK mesh. *)
Theorem c85_lists_hold_the_type : forall serial bg faces edges m rcv j K ty i h, constructed serial bg faces edges m rcv j -> base_kind K -> has_kind j K ->
  behind j K i h -> In ty [PARALLEL_OWNED; PARALLEL_GHOST; BOUNDARY_GHOST; TYPE_ALL] -> (In i (entities j K ty) <-> mstk_type m bg K h ty).
Proof.
  intros serial bg faces edges m rcv j K ty i h C B Hk E Hty. pose proof (constructed_made C) as M. destruct (in_group M B Hk E) as [I Q].
  pose proof (c85_one_entity_per_id C B Hk) as (Hall & _ & Hid & Huniq).
  destruct (mj_kind M B Hk) as [Nu Ta Li]. rewrite (mj_mesh M), (mj_bg M) in *. cbn zeta in Li.
  pose proof (groups_perm m bg B) as P. pose proof (groups_nodup m bg B (proj1 C _)) as ND. unfold all_of in I, ND. rewrite !in_app_iff in I.
  (* membership of the id in a group's ids is membership of the entity in the group *)
  assert (G : forall l, incl l (all_of (groups m bg K)) -> (In i (map (fun h => j_ids j (mkind_of m K) h - 1) l) <-> In h l)).
  { intros l Hl. rewrite in_map_iff. split.
    - intros (h' & Eh & I'). pose proof (Hl _ I') as J. apply In_nth_error in J as [p Ep]. assert (p = i). { rewrite <- Eh, (Nu _ _ Ep). lia. } subst p.
      unfold behind in E. rewrite Ta in E. congruence.
    - intros I'. exists h. split; auto. }
  assert (W : K = CELL \/ K <> CELL /\ groups m bg K = (owned_list m (mkind_of m K), ghost_list m (mkind_of m K), [])).
  { destruct B as [->|[->|[->| ->]]]; auto; right; split; auto; discriminate. }
  assert (Ao : In i (il_owned (list_of j K)) <-> In h (fst (fst (groups m bg K)))) by (rewrite Li; cbn [il_owned]; apply G; intros x; unfold all_of; rewrite !in_app_iff; auto).
  assert (Ag : In i (il_ghost (list_of j K)) <-> In h (snd (fst (groups m bg K)))) by (rewrite Li; cbn [il_ghost]; apply G; intros x; unfold all_of; rewrite !in_app_iff; auto).
  assert (Ab : In i (il_bghost (list_of j K)) <-> In h (snd (groups m bg K))) by (rewrite Li; cbn [il_bghost]; apply G; intros x; unfold all_of; rewrite !in_app_iff; auto).
  assert (Ih : In h (k_all m (mkind_of m K))) by (apply (Permutation_in _ P); unfold all_of; rewrite !in_app_iff; exact I).
  assert (Gp : forall k, is_pghost (k_ptype m k h) = true <-> k_ptype m k h = PGHOST) by (intros k; destruct (k_ptype m k h); simpl; split; congruence).
  simpl in Hty. destruct Hty as [<-|[<-|[<-|[<-|[]]]]]; cbn [entities mstk_type].
  - rewrite Ao. destruct W as [->|[NK W']].
    + cbn [groups fst snd mkind_of] in *. unfold owned_cells. rewrite filter_In, andb_true_iff, !negb_true_iff, <- !not_true_iff_false, Gp. unfold is_bghost. rewrite andb_true_iff. tauto.
    + rewrite W'. cbn [fst]. unfold owned_list. rewrite filter_In, negb_true_iff, <- not_true_iff_false, Gp. tauto.
  - rewrite Ag. destruct W as [->|[NK W']]; [cbn [groups fst snd mkind_of] in *|rewrite W'; cbn [fst snd]]; unfold ghost_list; rewrite filter_In, Gp; tauto.
  - rewrite Ab. destruct W as [->|[NK W']].
    + cbn [groups fst snd mkind_of] in *. destruct bg eqn:Hbg; [unfold bghost_cells; rewrite filter_In, andb_true_iff, negb_true_iff, <- not_true_iff_false, Gp; unfold is_bghost; rewrite andb_true_iff; tauto|].
      split; [intros []|intros (_ & _ & X & _); discriminate X].
    + rewrite W'. cbn [snd]. split; [intros []|]. intros (_ & X & _). congruence.
  - split; auto. intros _. apply Hall. eauto.
Qed.
(** C85.  Global ids: distinct entities have distinct GIDs if MSTK's global ids are distinct; in a serial run also if MSTK has not set any. *)
Theorem c85_gids_distinct : forall serial bg faces edges m rcv j K i1 i2 g, constructed serial bg faces edges m rcv j -> base_kind K -> has_kind j K ->
  (forall h1 h2, In h1 (k_all m (mkind_of m K)) -> In h2 (k_all m (mkind_of m K)) -> k_gid m (mkind_of m K) h1 = k_gid m (mkind_of m K) h2 -> h1 = h2) /\
    (serial = false \/ forall h, In h (k_all m (mkind_of m K)) -> k_gid m (mkind_of m K) h <> 0) \/
  serial = true /\ (forall h, In h (k_all m (mkind_of m K)) -> k_gid m (mkind_of m K) h = 0) ->
  GID j i1 K = Ok g -> GID j i2 K = Ok g -> i1 = i2.
Proof.
  intros serial bg faces edges m rcv j K i1 i2 g C B Hk H E1 E2. pose proof (constructed_made C) as M.
  destruct (c85_one_entity_per_id C B Hk) as (_ & _ & Hid & Hu).
  assert (G : forall i, GID j i K = Ok g -> exists h, behind j K i h /\ gid_of j (mkind_of m K) h = g).
  { intros i E. unfold behind. destruct B as [->|[->|[->| ->]]]; cbn [GID] in E; apply bind_Ok in E as (h & R & E); apply rd_Ok in R; exists h; rewrite <- (mj_mesh M); (split; [exact R|cbn [mkind_of]; injection E; auto]). }
  destruct (G _ E1) as (h1 & B1 & G1). destruct (G _ E2) as (h2 & B2 & G2). clear G.
  destruct (Hid _ _ B1) as [I1 D1]. destruct (Hid _ _ B2) as [I2 D2]. unfold gid_of in G1, G2. rewrite (mj_mesh M), (mj_serial M) in G1, G2.
  destruct H as [[Hd Hs]|[-> Hz]].
  - assert (h1 = h2); [|subst; eauto]. apply Hd; auto. destruct serial; [|lia].
    destruct Hs as [Hs|Hs]; [discriminate|]. rewrite (proj2 (Nat.eqb_neq _ 0) (Hs _ I1)) in G1. rewrite (proj2 (Nat.eqb_neq _ 0) (Hs _ I2)) in G2. cbn [negb] in G1, G2. lia.
  - rewrite !(Hz _ I1) in G1. rewrite !(Hz _ I2) in G2. cbn [Nat.eqb negb] in *. rewrite D1 in G1. rewrite D2 in G2. lia.
Qed.
(** C85 (the full claim, "distinct cells have distinct GIDs", fails for boundary ghosts in a parallel run): MSTK gives the cells made for
    boundary ghosts no global id, and all of them are reported with GID -1. *)
Theorem c85_gid_boundary_ghosts_refuted : forall bg faces edges m rcv j i h, constructed false bg faces edges m rcv j ->
  behind j CELL i h -> k_gid m (cell_kind m) h = 0 -> GID j i CELL = Ok (-1)%Z.
Proof.
  intros bg faces edges m rcv j i h C E Z. pose proof (constructed_made C) as M. unfold behind in E. cbn [table] in E. cbn [GID]. unfold rd. rewrite E. cbn [bind].
  unfold gid_of. rewrite (mj_serial M), (mj_mesh M), Z. reflexivity.
Qed.

(** a non-trivial case: the mesh of MstkMesh_examples on one rank of two *)
Definition ex_j : jmesh := match construct false false true true ex_mesh ex_rcv with Ok j => j | _ => JMesh ex_mesh false false true true ids0 [] [] [] [] [] [] no_ids no_ids no_ids no_ids end.
Example ex_constructed : constructed false false true true ex_mesh ex_rcv ex_j.
Proof. split; [apply (mk_nodup ex_is_mesh)|vm_compute; reflexivity]. Qed.
Example c85_example : entities ex_j NODE PARALLEL_OWNED = [0; 1; 2] /\ entities ex_j NODE PARALLEL_GHOST = [3; 4] /\ table ex_j NODE = [10; 12; 13; 11; 14] /\
  entities ex_j EDGE TYPE_ALL = seq 0 6 /\ table ex_j FACE = [20; 21; 22; 23; 24; 25] /\ GID ex_j 3 NODE = Ok 10%Z /\ edgeflip ex_j = [false; false; false; false; true; false].
Proof. vm_compute. repeat split. Qed.
(** the same mesh with a boundary ghost cell on each of the edges 20 and 22 *)
Definition ex_bg : mstk :=
  Mstk 2 (fun k => match k with MFACE => [30; 31; 40; 41] | _ => ex_all k end) ex_ptype (fun k h => match k, h with MFACE, 40 | MFACE, 41 => 0 | _, _ => h end)
    (fun h => 40 <=? h) ex_ev (fun f => match f with 40 => [(20, false)] | 41 => [(22, false)] | _ => ex_fe f end) (fun f => rev (map fst (ex_fe f)))
    (fun f => match f with 40 => [11] | 41 => [13] | _ => ex_fv f end) (fun f => rev (ex_fv f)) (fun _ => []) (fun _ => []) (fun _ => [])
    ex_ve (fun v => match v with 10 => [30; 40] | 11 => [30; 31; 40] | 12 => [31; 30; 41] | 13 => [30; 41] | _ => ex_vf v end) (fun _ => [])
    (fun e => match e with 20 => [30; 40] | 22 => [30; 41] | _ => ex_ef e end) (fun _ => []) (fun _ _ => None).
Definition ex_jbg : jmesh := match construct false true true true ex_bg ex_rcv with Ok j => j | _ => ex_j end.
Example ex_bg_constructed : constructed false true true true ex_bg ex_rcv ex_jbg.
Proof. split; [intros []; nodup|vm_compute; reflexivity]. Qed.
Example c85_bg_example : entities ex_jbg CELL PARALLEL_OWNED = [0] /\ entities ex_jbg CELL PARALLEL_GHOST = [1] /\ entities ex_jbg CELL BOUNDARY_GHOST = [2; 3] /\
  GID ex_jbg 2 CELL = Ok (-1)%Z /\ GID ex_jbg 3 CELL = Ok (-1)%Z.
Proof. vm_compute. repeat split. Qed.
