(** C88: copies of an edge or face on different ranks have the same direction. *)
From Coq Require Import Permutation.
From Verif Require Import Base Loop Defs Cache Cache_proofs MstkMesh MstkMesh_spec MstkMesh_proofs MstkMesh_examples MstkMesh_build Props_MstkIds MstkMesh_proofs2 MstkWorld_spec Props_MstkOrder MstkWorld_proofs Props_MstkAdj.
From Verif Require Import Geometry_spec.
From Verif Require Geometry_proofs Props_InPolygon.
Set Implicit Arguments. Unset Strict Implicit.

(** ** a cycle of three or more distinct nodes has a sense of rotation *)
Lemma steps_first A : forall (l : list A) a z x y, In (x, y) (steps a l z) -> In x (a :: l).
Proof. induction l as [|b l IH]; intros a z x y; simpl; [intros [Q|[]]; injection Q as <- _; auto|]. intros [Q|Q]; [injection Q as <- _; auto|]. right. eapply IH; eauto. Qed.
Lemma no_way_back (l : list nat) a b : NoDup l -> 3 <= length l -> In (a, b) (edges l) -> ~ In (b, a) (edges l).
Proof.
  intros N L Iab Iba. assert (Ia : In a l) by (destruct l as [|x l]; [destruct Iab|]; apply (steps_first Iab)).
  apply in_split in Ia as (p & q & ->). assert (Cy : same_cycle (p ++ a :: q) ((a :: q) ++ p)) by (exists p, (a :: q); auto).
  pose proof (same_cycle_perm (edges_cycle Cy)) as P. apply (Permutation_in _ P) in Iab, Iba. apply same_cycle_perm in Cy. apply (Permutation_NoDup Cy) in N. apply Permutation_length in Cy. rewrite Cy in L. clear Cy P.
  cbn [app] in *. destruct (q ++ p) as [|y [|z t]]; simpl in L; try lia. cbn [edges steps] in Iab, Iba. apply NoDup_cons_iff in N as [N1 N2]. apply NoDup_cons_iff in N2 as [N2 N3].
  assert (b = y) as ->.
  { destruct Iab as [Q|[Q|Q]]; [congruence|injection Q as -> _; exfalso; apply N1; left; auto|]. apply steps_first in Q. exfalso. apply N1. right. auto. }
  destruct Iba as [Q|[Q|Q]]; [injection Q as -> _; apply N1; left; auto|injection Q as ->; apply N1; right; left; auto|]. apply steps_first in Q. apply N2; auto.
Qed.
Lemma no_reversal (l l' : list nat) : NoDup l -> 3 <= length l -> same_cycle l l' -> same_cycle (rev l) l' -> False.
Proof.
  intros N L S R. destruct l as [|a [|b l]]; simpl in L; try lia. set (l0 := a :: b :: l) in *. assert (I : In (a, b) (edges l0)) by (left; auto).
  pose proof (same_cycle_trans S (same_cycle_sym R)) as Q. apply edges_cycle, same_cycle_perm in Q. pose proof (Permutation_in _ Q I) as I2. apply (Permutation_in _ (Props_InPolygon.edges_rev l0)) in I2. apply in_map_iff in I2 as ([x y] & E & I2). unfold swap in E. cbn [fst snd] in E. injection E as -> ->.
  apply (no_way_back N L I I2).
Qed.

Section World.
Variables (w : world).
Hypothesis D : distributed w.
Lemma copies_sym k r1 h1 r2 h2 : copies w k r1 h1 r2 h2 -> copies w k r2 h2 r1 h1.
Proof. intros (A & B & E). repeat split; auto. Qed.
Lemma copies_trans k r1 h1 r2 h2 r3 h3 : copies w k r1 h1 r2 h2 -> copies w k r2 h2 r3 h3 -> copies w k r1 h1 r3 h3.
Proof. intros (A & B & E) (A' & B' & E'). repeat split; auto. congruence. Qed.
Definition owner (k : mkind) (ro ho r h : nat) : Prop := copies w k ro ho r h /\ k_ptype (w_mesh w ro) k ho <> PGHOST.
Lemma owner_ex k r h : In h (k_all (w_mesh w r) k) -> exists ro ho, owner k ro ho r h.
Proof.
  intros I. destruct (k_ptype (w_mesh w r) k h) eqn:P; try (exists r, h; split; [repeat split; auto|congruence]).
  destruct (d_owner D I P) as (ro & ho & A & B & _). exists ro, ho. split; auto. congruence.
Qed.
Lemma owner_fun k ro ho ro' ho' r h : owner k ro ho r h -> owner k ro' ho' r h -> ro = ro' /\ ho = ho'.
Proof.
  intros [A B] [A' B']. pose proof (copies_trans A (copies_sym A')) as Q. pose proof (d_one_owner D Q B B') as ->. split; auto. destruct Q as (I1 & I2 & E). apply (d_gid D I1 I2 E).
Qed.
Lemma owner_self k ro ho r h : owner k ro ho r h -> k_ptype (w_mesh w r) k h <> PGHOST -> ro = r /\ ho = h.
Proof. intros O P. apply (owner_fun O). split; auto. destruct O as [(_ & I & _) _]. repeat split; auto. Qed.
Lemma owner_sent k ro ho r h : owner k ro ho r h -> k_ptype (w_mesh w r) k h = PGHOST -> k_ptype (w_mesh w ro) k ho = POVERLAP /\ w_rcv w r k h = sent (w_mesh w ro) k ho.
Proof.
  intros O P. destruct (d_owner D (proj1 (proj2 (proj1 O))) P) as (ro' & ho' & A & B & E). assert (O' : owner k ro' ho' r h) by (split; [auto|congruence]). destruct (owner_fun O O') as [-> ->]. auto.
Qed.
(** the flag of an edge of MSTK *)
Definition flag (k : mkind) (r h : nat) : bool := is_pghost (k_ptype (w_mesh w r) k h) && reversed (w_rcv w r k h) (local_pair (w_mesh w r) k h).
Lemma gev_distinct r e : In e (k_all (w_mesh w r) MEDGE) -> fst (gev (w_mesh w r) e) <> snd (gev (w_mesh w r) e).
Proof. intros I E. destruct (mk_ev (d_mesh D r) e I) as (A & B & N). apply N. apply (d_gid D A B E). Qed.
Lemma edge_flag ro ho r e : owner MEDGE ro ho r e -> (if flag MEDGE r e then swap (gev (w_mesh w r) e) else gev (w_mesh w r) e) = gev (w_mesh w ro) ho.
Proof.
  intros O. unfold flag. pose proof (proj1 O) as Cp. destruct (is_pghost (k_ptype (w_mesh w r) MEDGE e)) eqn:P.
  - assert (P' : k_ptype (w_mesh w r) MEDGE e = PGHOST) by (destruct (k_ptype (w_mesh w r) MEDGE e); auto; discriminate). destruct (owner_sent O P') as [Po ->].
    replace (sent (w_mesh w ro) MEDGE ho) with (gev (w_mesh w ro) ho) by (unfold sent; rewrite Po; reflexivity). change (local_pair (w_mesh w r) MEDGE e) with (gev (w_mesh w r) e). cbn [andb].
    pose proof (gev_distinct (proj1 (proj2 Cp))) as N. unfold reversed. destruct (d_edge D Cp) as [-> | ->].
    + destruct (gev (w_mesh w r) e) as [a b]. cbn [fst snd] in *. rewrite (proj2 (Nat.eqb_neq b a)), (proj2 (Nat.eqb_neq a b)) by congruence. reflexivity.
    + destruct (gev (w_mesh w r) e) as [a b]. unfold swap. cbn [fst snd] in *. rewrite Nat.eqb_refl. reflexivity.
  - cbn [andb]. destruct (owner_self O) as [-> ->]; [intros Q; rewrite Q in P; discriminate|]. reflexivity.
Qed.

(** ** faces in 3D *)
Hypothesis D3 : k_dim (w_mesh w 0) = 3.
Lemma dim3 r : k_dim (w_mesh w r) = 3. Proof. rewrite (d_dim D r 0). auto. Qed.
Lemma side_iff r f d c : In f (k_all (w_mesh w r) MFACE) -> k_side (w_mesh w r) f (if d : bool then 0 else 1) = Some c <-> In c (k_all (w_mesh w r) MREGION) /\ In (f, d) (k_rf (w_mesh w r) c).
Proof. intros I. apply (mk_side (d_mesh D r)); auto. Qed.
(** the global id of the region on a side, 0 if there is none *)
Definition sg (r f : nat) (d : bool) : nat := match k_side (w_mesh w r) f (if d then 0 else 1) with Some c => k_gid (w_mesh w r) MREGION c | None => 0 end.
Lemma sg_some r f d c : In f (k_all (w_mesh w r) MFACE) -> In c (k_all (w_mesh w r) MREGION) -> In (f, d) (k_rf (w_mesh w r) c) -> sg r f d = k_gid (w_mesh w r) MREGION c.
Proof. intros If Ic U. unfold sg. rewrite (proj2 (side_iff _ _ If) (conj Ic U)). auto. Qed.
Lemma sg_inv r f d g : In f (k_all (w_mesh w r) MFACE) -> sg r f d = g -> g <> 0 -> exists c, In c (k_all (w_mesh w r) MREGION) /\ In (f, d) (k_rf (w_mesh w r) c) /\ k_gid (w_mesh w r) MREGION c = g.
Proof. intros If E G. unfold sg in E. destruct (k_side _ _ _) as [c|] eqn:S; [|congruence]. apply side_iff in S as [A B]; auto. eauto. Qed.
Lemma one_use r f d d' c : In c (k_all (w_mesh w r) MREGION) -> In (f, d) (k_rf (w_mesh w r) c) -> In (f, d') (k_rf (w_mesh w r) c) -> d = d'.
Proof.
  intros Ic. pose proof (mk_rf_nodup (d_mesh D r) c Ic) as N. revert N. generalize (k_rf (w_mesh w r) c). intros l. induction l as [|x l IH]; intros N A B; [destruct A|]. apply NoDup_cons_iff in N as [N1 N2].
  destruct A as [A|A], B as [B|B]; auto; [congruence| |]; exfalso; apply N1; [rewrite A|rewrite B]; cbn [fst]; [change f with (fst (f, d'))|change f with (fst (f, d))]; apply in_map; auto.
Qed.
Lemma local_sg r f : local_pair (w_mesh w r) MFACE f = (sg r f true, sg r f false).
Proof. reflexivity. Qed.
Lemma face_flag ro fo r f : owner MFACE ro fo r f -> k_ptype (w_mesh w r) MFACE f = PGHOST -> exists co c d1 d2,
  In co (k_all (w_mesh w ro) MREGION) /\ In c (k_all (w_mesh w r) MREGION) /\ In (fo, d1) (k_rf (w_mesh w ro) co) /\ In (f, d2) (k_rf (w_mesh w r) c) /\
  flag MFACE r f = negb (Bool.eqb d1 d2) /\ (common_cell w ro fo r f <-> k_gid (w_mesh w ro) MREGION co = k_gid (w_mesh w r) MREGION c) /\
  (reversed (w_rcv w r MFACE f) (local_pair (w_mesh w r) MFACE f) = true \/ mismatch (w_rcv w r MFACE f) (local_pair (w_mesh w r) MFACE f) = false).
Proof.
  intros O P. destruct (owner_sent O P) as [Po Es]. pose proof (proj1 O) as Cp. pose proof Cp as (Ifo & If & _).
  assert (E : w_rcv w r MFACE f = (sg ro fo true, sg ro fo false)) by (rewrite Es; unfold sent; rewrite Po; reflexivity). unfold flag. rewrite P, E, local_sg. cbn [is_pghost andb]. unfold reversed, mismatch. cbn [fst snd].
  assert (Use : forall r f, In f (k_all (w_mesh w r) MFACE) -> exists c d, In c (k_all (w_mesh w r) MREGION) /\ In (f, d) (k_rf (w_mesh w r) c)).
  { intros r0 f0 I0. destruct (d_used D (dim3 r0) I0) as (c & Ic & Uc). apply in_map_iff in Uc as ([x d] & <- & Uc). exists c, d. auto. }
  assert (Pick : exists co c d1 d2, In co (k_all (w_mesh w ro) MREGION) /\ In c (k_all (w_mesh w r) MREGION) /\ In (fo, d1) (k_rf (w_mesh w ro) co) /\ In (f, d2) (k_rf (w_mesh w r) c) /\
            (common_cell w ro fo r f <-> k_gid (w_mesh w ro) MREGION co = k_gid (w_mesh w r) MREGION c)).
  { destruct (Use ro fo Ifo) as (co & d1 & Ico & U1). destruct (Use r f If) as (c & d2 & Ic & U2).
    assert (To : forall co c d1 d2, In co (k_all (w_mesh w ro) MREGION) -> In c (k_all (w_mesh w r) MREGION) -> In (fo, d1) (k_rf (w_mesh w ro) co) -> In (f, d2) (k_rf (w_mesh w r) c) -> k_gid (w_mesh w ro) MREGION co = k_gid (w_mesh w r) MREGION c -> common_cell w ro fo r f).
    { intros a b e1 e2 A1 A2 A3 A4 A5. exists a, b. split; [repeat split; auto|]. split; [exact (in_map fst _ _ A3)|exact (in_map fst _ _ A4)]. }
    (* is there a common region: of the at most two on either side, look at the four pairs *)
    assert (Dec : (exists d1 d2, sg ro fo d1 <> 0 /\ sg ro fo d1 = sg r f d2) \/ ~ (exists d1 d2, sg ro fo d1 <> 0 /\ sg ro fo d1 = sg r f d2)).
    { destruct (existsb (fun p : bool * bool => negb (sg ro fo (fst p) =? 0) && (sg ro fo (fst p) =? sg r f (snd p))) [(true, true); (true, false); (false, true); (false, false)]) eqn:X.
      - left. apply existsb_exists in X as ([e1 e2] & _ & X). apply andb_prop in X as [X1 X2]. apply Bool.negb_true_iff, Nat.eqb_neq in X1. apply Nat.eqb_eq in X2. cbn [fst snd] in *. eauto.
      - right. intros (e1 & e2 & X1 & X2). assert (Y : existsb (fun p : bool * bool => negb (sg ro fo (fst p) =? 0) && (sg ro fo (fst p) =? sg r f (snd p))) [(true, true); (true, false); (false, true); (false, false)] = true); [|congruence].
        apply existsb_exists. exists (e1, e2). split; [destruct e1, e2; simpl; tauto|]. cbn [fst snd]. rewrite (proj2 (Nat.eqb_neq _ _) X1), (proj2 (Nat.eqb_eq _ _) X2). auto. }
    destruct Dec as [(e1 & e2 & N0 & Eq)|Dec].
    - destruct (sg_inv Ifo eq_refl N0) as (co' & A1 & A2 & A3). assert (N0' : sg r f e2 <> 0) by congruence. destruct (sg_inv If eq_refl N0') as (c' & B1 & B2 & B3). exists co', c', e1, e2. repeat split; auto; intros _; [congruence|]. eapply To; eauto. congruence.
    - exists co, c, d1, d2. repeat split; auto; [|eapply To; eauto]. intros (a & b & (Ia & Ib & Eab) & Ua & Ub). exfalso. apply Dec. apply in_map_iff in Ua as ([x e1] & Q & Ua), Ub as ([y e2] & Q' & Ub). cbn [fst] in Q, Q'. subst x y.
      exists e1, e2. rewrite (sg_some Ifo Ia Ua), (sg_some If Ib Ub). split; auto. apply (d_gid0 D Ia). }
  destruct Pick as (co & c & d1 & d2 & Ico & Ic & U1 & U2 & Cm). exists co, c, d1, d2. split; [exact Ico|]. split; [exact Ic|]. split; [exact U1|]. split; [exact U2|].
  pose proof (sg_some Ifo Ico U1) as S1. pose proof (sg_some If Ic U2) as S2. pose proof (d_gid0 D Ico) as Z1. pose proof (d_gid0 D Ic) as Z2. pose proof (d_region D Cp Ico Ic U1 U2) as Rg.
  assert (X1 : sg ro fo (negb d1) <> k_gid (w_mesh w ro) MREGION co). { intros Q. destruct (sg_inv Ifo Q Z1) as (x & A1 & A2 & A3). pose proof (d_gid D A1 Ico A3) as ->. pose proof (one_use Ico U1 A2) as Q2. destruct d1; discriminate. }
  assert (X2 : sg r f (negb d2) <> k_gid (w_mesh w r) MREGION c). { intros Q. destruct (sg_inv If Q Z2) as (x & A1 & A2 & A3). pose proof (d_gid D A1 Ic A3) as ->. pose proof (one_use Ic U2 A2) as Q2. destruct d2; discriminate. }
  (* no common region: nothing on the other sides *)
  assert (Y : k_gid (w_mesh w ro) MREGION co <> k_gid (w_mesh w r) MREGION c -> sg ro fo (negb d1) = 0 /\ sg r f (negb d2) = 0).
  { intros N. assert (Nc : ~ common_cell w ro fo r f) by tauto. split.
    - destruct (Nat.eq_dec (sg ro fo (negb d1)) 0) as [Q|Q]; auto. exfalso. destruct (sg_inv Ifo eq_refl Q) as (x & A1 & A2 & A3). pose proof (d_region D Cp A1 Ic A2 U2) as Rg2.
      assert (Nx : k_gid (w_mesh w ro) MREGION x <> k_gid (w_mesh w r) MREGION c) by (intros Ex; apply Nc; exists x, c; split; [repeat split; auto|split; [exact (in_map fst _ _ A2)|exact (in_map fst _ _ U2)]]).
      assert (E1 : ~ (d1 = d2 <-> same_way w ro fo r f)) by tauto. assert (E2 : ~ (negb d1 = d2 <-> same_way w ro fo r f)) by tauto. clear - E1 E2. destruct d1, d2; cbn [negb] in *; intuition congruence.
    - destruct (Nat.eq_dec (sg r f (negb d2)) 0) as [Q|Q]; auto. exfalso. destruct (sg_inv If eq_refl Q) as (x & A1 & A2 & A3). pose proof (d_region D Cp Ico A1 U1 A2) as Rg2.
      assert (Nx : k_gid (w_mesh w ro) MREGION co <> k_gid (w_mesh w r) MREGION x) by (intros Ex; apply Nc; exists co, x; split; [repeat split; auto|split; [exact (in_map fst _ _ U1)|exact (in_map fst _ _ A2)]]).
      assert (E1 : ~ (d1 = d2 <-> same_way w ro fo r f)) by tauto. assert (E2 : ~ (d1 = negb d2 <-> same_way w ro fo r f)) by tauto. clear - E1 E2. destruct d1, d2; cbn [negb] in *; intuition congruence. }
  rewrite <- S1 in *. rewrite <- S2 in *. clear S1 S2 Rg U1 U2 Es E Use O Cp Po.
  cut (((sg ro fo false =? sg r f true) || (sg ro fo true =? sg r f false) = negb (Bool.eqb d1 d2)) /\ ((sg ro fo false =? sg r f true) || (sg ro fo true =? sg r f false) = true \/ negb (sg ro fo false =? sg r f false) && negb (sg ro fo true =? sg r f true) = false)); [intros [G1 G2]; auto|].
  destruct (Nat.eq_dec (sg ro fo d1) (sg r f d2)) as [Eg|Ng].
  - destruct d1, d2; cbn [negb Bool.eqb] in *.
    + rewrite (proj2 (Nat.eqb_neq (sg ro fo false) (sg r f true))), (proj2 (Nat.eqb_neq (sg ro fo true) (sg r f false))) by congruence. rewrite (proj2 (Nat.eqb_eq _ _) Eg). cbn. rewrite Bool.andb_false_r. auto.
    + rewrite (proj2 (Nat.eqb_eq _ _) Eg), Bool.orb_true_r. auto.
    + rewrite (proj2 (Nat.eqb_eq _ _) Eg). cbn. auto.
    + rewrite (proj2 (Nat.eqb_neq (sg ro fo false) (sg r f true))), (proj2 (Nat.eqb_neq (sg ro fo true) (sg r f false))) by congruence. rewrite (proj2 (Nat.eqb_eq _ _) Eg). cbn. auto.
  - destruct (Y Ng) as [Y1 Y2]. clear Y Cm. destruct d1, d2; cbn [negb Bool.eqb] in *; rewrite ?Y1, ?Y2.
    + rewrite (proj2 (Nat.eqb_neq 0 (sg r f true))), (proj2 (Nat.eqb_neq (sg ro fo true) 0)) by congruence. cbn. auto.
    + cbn. auto.
    + rewrite Nat.eqb_refl, Bool.orb_true_r. auto.
    + rewrite (proj2 (Nat.eqb_neq (sg ro fo false) 0)), (proj2 (Nat.eqb_neq 0 (sg r f false))) by congruence. cbn. rewrite Bool.andb_false_r. auto.
Qed.
Lemma gfv_distinct r f : In f (k_all (w_mesh w r) MFACE) -> NoDup (gfv (w_mesh w r) f) /\ 3 <= length (gfv (w_mesh w r) f).
Proof.
  intros If. destruct (mk_fv (d_mesh D r) f If) as [Ee Ne]. destruct (mk_fe_nodup (d_mesh D r) f If) as [_ L]. unfold gfv. split.
  - assert (X : forall l, incl l (k_all (w_mesh w r) MVERTEX) -> NoDup l -> NoDup (map (k_gid (w_mesh w r) MVERTEX) l)).
    { induction l as [|x l IH]; intros Hi N; [apply NoDup_nil|]. apply NoDup_cons_iff in N as [N1 N2]. cbn [map]. apply NoDup_cons; [|apply IH; auto; intros y Iy; apply Hi; right; auto].
      intros Q. apply in_map_iff in Q as (y & E & Iy). apply N1. replace x with y; auto. apply (d_gid D) with (r := r) (k := MVERTEX); auto; apply Hi; [right|left]; auto. }
    apply X; auto. intros v Iv. apply (fv_range (d_mesh D r) If Iv).
  - rewrite map_length. assert (Q : forall (l : list nat), length (edges l) = length l).
    { clear. assert (S0 : forall (l : list nat) a z, length (steps a l z) = S (length l)) by (induction l as [|y l IH]; intros a z; simpl; auto). intros [|a l]; auto. simpl. apply S0. }
    rewrite <- Q, Ee, map_length. auto.
Qed.
Lemma not_both r1 f1 r2 f2 : In f1 (k_all (w_mesh w r1) MFACE) -> same_way w r1 f1 r2 f2 -> opposite_way w r1 f1 r2 f2 -> False.
Proof. intros I1 A B. destruct (gfv_distinct I1) as [N L]. apply (no_reversal N L A B). Qed.
(** the nodes of a face as the API lists them, in global ids *)
Definition shown (r f : nat) : list nat := if flag MFACE r f then map (k_gid (w_mesh w r) MVERTEX) (k_fv_rev (w_mesh w r) f) else gfv (w_mesh w r) f.
Lemma shown_cycle r f : In f (k_all (w_mesh w r) MFACE) -> same_cycle (if flag MFACE r f then rev (gfv (w_mesh w r) f) else gfv (w_mesh w r) f) (shown r f).
Proof. intros I. unfold shown. destruct (flag MFACE r f); [|apply same_cycle_refl]. unfold gfv. rewrite <- map_rev. apply same_cycle_map. apply (mk_fv_rev (d_mesh D r)); auto. Qed.
Lemma face_shown ro fo r f : owner MFACE ro fo r f ->
  (k_ptype (w_mesh w r) MFACE f <> PGHOST \/ common_cell w ro fo r f -> same_cycle (gfv (w_mesh w ro) fo) (shown r f) /\ (flag MFACE r f = false <-> same_way w ro fo r f)) /\
  (k_ptype (w_mesh w r) MFACE f = PGHOST -> ~ common_cell w ro fo r f -> same_cycle (rev (gfv (w_mesh w ro) fo)) (shown r f)).
Proof.
  intros O. pose proof (proj1 O) as Cp. pose proof Cp as (Ifo & If & _). pose proof (shown_cycle If) as Sh.
  assert (RV : opposite_way w ro fo r f -> same_cycle (gfv (w_mesh w ro) fo) (rev (gfv (w_mesh w r) f))) by (intros Q; apply same_cycle_rev in Q; rewrite rev_involutive in Q; auto).
  destruct (is_pghost (k_ptype (w_mesh w r) MFACE f)) eqn:G.
  - assert (P : k_ptype (w_mesh w r) MFACE f = PGHOST) by (destruct (k_ptype (w_mesh w r) MFACE f); auto; discriminate).
    destruct (face_flag O P) as (co & c & d1 & d2 & Ico & Ic & U1 & U2 & Fl & Cm & _). pose proof (d_region D Cp Ico Ic U1 U2) as Rg. pose proof (d_face D Cp) as Df. split.
    + intros [Q|Q]; [congruence|]. apply Cm in Q. apply Rg in Q. rewrite Fl in *. destruct (Bool.eqb d1 d2) eqn:Ed; cbn [negb] in *.
      * apply Bool.eqb_prop in Ed. assert (Sw : same_way w ro fo r f) by tauto. split; [|tauto]. eapply same_cycle_trans; [exact Sw|exact Sh].
      * apply Bool.eqb_false_iff in Ed. assert (Ns : ~ same_way w ro fo r f) by tauto. split; [|split; [discriminate|tauto]]. destruct Df as [Df|[_ Df]]; [tauto|]. eapply same_cycle_trans; [apply RV; exact Df|exact Sh].
    + intros _ N. assert (Nr : ~ (d1 = d2 <-> same_way w ro fo r f)) by tauto. rewrite Fl in *. destruct (Bool.eqb d1 d2) eqn:Ed; cbn [negb] in *.
      * apply Bool.eqb_prop in Ed. destruct Df as [Df|[_ Df]]; [tauto|]. eapply same_cycle_trans; [exact Df|exact Sh].
      * apply Bool.eqb_false_iff in Ed. destruct Df as [Df|[_ Df]]; [|exfalso; apply Nr; split; [tauto|intros Sw; exfalso; exact (not_both Ifo Sw Df)]]. eapply same_cycle_trans; [apply same_cycle_rev; exact Df|exact Sh].
  - assert (P : k_ptype (w_mesh w r) MFACE f <> PGHOST) by (intros Q; rewrite Q in G; discriminate). split; [|congruence]. intros _. destruct (owner_self O P) as [-> ->].
    unfold flag in *. rewrite G in *. cbn [andb] in *. split; [exact Sh|]. split; auto. intros _. apply same_cycle_refl.
Qed.
End World.

(** ** the API *)
(** the mesh object of a rank *)
Definition on_rank (w : world) (r : nat) (faces edges : bool) (j : jmesh) : Prop := constructed false false faces edges (w_mesh w r) (w_rcv w r) j.
Definition zid (g : nat) : Z := (Z.of_nat g - 1)%Z.
Lemma zid_inj a b : zid a = zid b -> a = b.
Proof. unfold zid. lia. Qed.
Section Rank.
Variables (w : world) (r : nat) (faces edges : bool) (j : jmesh).
Hypothesis D : distributed w.
Hypothesis C : on_rank w r faces edges j.
Local Notation m := (w_mesh w r).
Let M : made false false faces edges m (w_rcv w r) j := constructed_made C.
Let Jm : j_mesh j = m := mj_mesh M.
Lemma gid_ok K i h : base_kind K -> has_kind j K -> behind j K i h -> GID j i K = Ok (zid (k_gid m (mkind_of m K) h)).
Proof.
  intros B Hk E. unfold zid. assert (G : forall k, gid_of j k h = (Z.of_nat (k_gid m k h) - 1)%Z) by (intros k; unfold gid_of; rewrite (mj_serial M), Jm; reflexivity).
  apply rd_table in E. destruct B as [->|[->|[->| ->]]]; cbn [table] in E; cbn [GID mkind_of]; rewrite E; cbn [bind]; rewrite G, ?Jm; reflexivity.
Qed.
Lemma node_gids_ok vs : incl vs (k_all m MVERTEX) -> node_gids j (map (id_of j MVERTEX) vs) = Ok (map zid (map (k_gid m MVERTEX) vs)).
Proof.
  intros Hi. unfold node_gids. induction vs as [|v vs IH]; [reflexivity|]. cbn [map mapM].
  rewrite (@gid_ok NODE _ v bk_node I) by (apply (behind_of C bk_node I); apply Hi; left; auto). cbn [bind mkind_of]. rewrite IH by (intros x Ix; apply Hi; right; auto). reflexivity.
Qed.
Lemma flip_flag h : faces = true -> In h (k_all m (face_kind m)) -> flip j (id_of j (face_kind m) h) = flag w (face_kind m) r h.
Proof.
  intros Hf Ih. destruct (mj_ff M Hf) as [E _]. unfold flip, id_of. apply (flips_exact E); auto. intros a b Ia Ib Q. apply (@id_inj _ _ _ _ _ _ C FACE a b bk_face (proj2 (faces_kind C) Hf)); auto.
Qed.
Lemma hk_edge : edges = true -> has_kind j EDGE.
Proof. intros He. simpl. rewrite (mj_edges M). auto. Qed.
Lemma gev_ids h : In h (k_all m MEDGE) -> incl [fst (k_ev m h); snd (k_ev m h)] (k_all m MVERTEX) /\ incl [snd (k_ev m h); fst (k_ev m h)] (k_all m MVERTEX).
Proof. intros Ih. destruct (mk_ev (d_mesh D r) h Ih) as (A & B & _). split; intros x [<-|[<-|[]]]; auto. Qed.
Definition pair_list (p : nat * nat) : list Z := [zid (fst p); zid (snd p)].
Lemma edge_gids_ok e h : edges = true -> behind j EDGE e h -> edge_gids j e = Ok (pair_list (if flag w MEDGE r h then swap (gev m h) else gev m h)).
Proof.
  intros He E. destruct (behind_in C bk_edge (hk_edge He) E) as [Ih Ei]. cbn [mkind_of] in Ih, Ei. unfold edge_gids, edge_nodes, asserting. rewrite (mj_edges M), He. apply rd_table in E. cbn [table] in E. rewrite E. cbn [bind]. rewrite Jm.
  destruct (mj_ef M He) as [Ed Le]. assert (Inj : forall a b, In a (k_all m MEDGE) -> In b (k_all m MEDGE) -> j_ids j MEDGE a - 1 = j_ids j MEDGE b - 1 -> a = b) by (intros a b Ia Ib Q; apply (@id_inj _ _ _ _ _ _ C EDGE a b bk_edge (hk_edge He)); auto).
  pose proof (flips_exact Ed Inj Ih : _ = flag w MEDGE r h) as Fl. unfold id_of in Ei. rewrite Ei in Fl.
  assert (Re : rd (edgeflip j) e = Ok (flag w MEDGE r h)).
  { apply rd_Ok. rewrite <- Fl. apply nth_error_nth'. rewrite Le. destruct (mj_kind M bk_edge (hk_edge He)) as [_ Ta _]. apply rd_Ok in E. pose proof (Permutation_length (Permutation_sym (groups_perm m false bk_edge))) as Lg. cbn [mkind_of] in Lg. rewrite Lg.
    apply nth_error_Some. cbn [table] in Ta. rewrite Jm, (mj_bg M) in Ta. rewrite <- Ta. congruence. }
  rewrite Re. cbn [bind]. destruct (gev_ids Ih) as [G1 G2]. destruct (flag w MEDGE r h); cbn [bind fst snd].
  - exact (node_gids_ok G2).
  - exact (node_gids_ok G1).
Qed.
Lemma face_gids_2 f h : faces = true -> k_dim m = 2 -> behind j FACE f h -> face_gids j f = Ok (pair_list (if flag w MEDGE r h then swap (gev m h) else gev m h)).
Proof.
  intros Hf D2 E. pose proof (proj2 (faces_kind C) Hf) as Hk. destruct (behind_in C bk_face Hk E) as [Ih Ei]. cbn [mkind_of] in Ih, Ei.
  pose proof (flip_flag Hf Ih) as Fl. rewrite Ei in Fl. unfold face_gids, face_nodes, asserting. rewrite (mj_faces M), Hf, (rd_flip C Hf E). apply rd_table in E. cbn [table] in E. rewrite E. cbn [bind]. rewrite Jm, D2. cbn [Nat.eqb].
  unfold face_kind in *. rewrite D2 in *. cbn [Nat.eqb] in *. rewrite Fl. destruct (gev_ids Ih) as [G1 G2]. destruct (flag w MEDGE r h).
  - exact (node_gids_ok G2).
  - exact (node_gids_ok G1).
Qed.
Lemma face_gids_3 f h : faces = true -> k_dim m = 3 -> behind j FACE f h -> face_gids j f = Ok (map zid (shown w r h)).
Proof.
  intros Hf D3 E. pose proof (proj2 (faces_kind C) Hf) as Hk. destruct (behind_in C bk_face Hk E) as [Ih Ei]. cbn [mkind_of] in Ih, Ei.
  pose proof (flip_flag Hf Ih) as Fl. rewrite Ei in Fl. unfold face_gids, face_nodes, asserting. rewrite (mj_faces M), Hf, (rd_flip C Hf E). apply rd_table in E. cbn [table] in E. rewrite E. cbn [bind]. rewrite Jm, D3. cbn [Nat.eqb].
  unfold face_kind in *. rewrite D3 in *. cbn [Nat.eqb] in *. rewrite Fl. unfold shown.
  assert (G : incl (k_fv m h) (k_all m MVERTEX)) by (intros v Iv; apply (fv_range (d_mesh D r) Ih Iv)).
  assert (G' : incl (k_fv_rev m h) (k_all m MVERTEX)) by (intros v Iv; apply G; apply in_rev; apply (Permutation_in _ (Permutation_sym (same_cycle_perm (mk_fv_rev (d_mesh D r) h Ih)))); auto).
  destruct (flag w MFACE r h).
  - exact (node_gids_ok G').
  - exact (node_gids_ok G).
Qed.
Lemma cell_face_gids_ok c h : faces = true -> behind j CELL c h ->
  cell_face_gids j c = Ok (map (fun fd => (zid (k_gid m (face_kind m) (fst fd)), dirz (snd fd) (flag w (face_kind m) r (fst fd)))) (cfaces_of m h)).
Proof.
  intros Hf E. pose proof (proj2 (faces_kind C) Hf) as Hk. unfold cell_face_gids. rewrite (cell_faces_ok (d_mesh D r) C Hf E). cbn [bind].
  destruct (behind_in C bk_cell I E) as [Ih _]. destruct (cfaces_ok (d_mesh D r) Ih) as [Hi _]. rewrite <- (map_id (map _ (cfaces_of m h))).
  assert (X : forall l, incl (map fst l) (k_all m (face_kind m)) -> mapM (fun f => g <- GID j (fst f) FACE ;; Ok (g, snd f)) (map (jface m j) l) =
    Ok (map (fun fd => (zid (k_gid m (face_kind m) (fst fd)), dirz (snd fd) (flag w (face_kind m) r (fst fd)))) l)).
  { induction l as [|fd l IH]; intros Hl; [reflexivity|]. cbn [map mapM]. unfold jface at 1 2. cbn [fst snd]. assert (If : In (fst fd) (k_all m (face_kind m))) by (apply Hl; left; auto).
    rewrite (@gid_ok FACE _ (fst fd) bk_face Hk) by (apply (@behind_of _ _ _ _ _ _ C FACE (fst fd) bk_face Hk); auto). cbn [bind mkind_of]. rewrite (flip_flag Hf If), IH by (intros x Ix; apply Hl; right; auto). reflexivity. }
  rewrite map_id. apply X. exact Hi.
Qed.
End Rank.

(** entities with the same GID on two ranks are copies of each other *)
Lemma same_gid w r1 r2 faces1 edges1 faces2 edges2 j1 j2 K i1 i2 h1 h2 : distributed w -> on_rank w r1 faces1 edges1 j1 -> on_rank w r2 faces2 edges2 j2 -> base_kind K -> has_kind j1 K -> has_kind j2 K ->
  behind j1 K i1 h1 -> behind j2 K i2 h2 -> GID j1 i1 K = GID j2 i2 K -> copies w (mkind_of (w_mesh w r1) K) r1 h1 r2 h2.
Proof.
  intros D C1 C2 B K1 K2 E1 E2 G. rewrite (gid_ok C1 B K1 E1), (gid_ok C2 B K2 E2) in G. injection G as G. apply zid_inj in G.
  assert (Ek : mkind_of (w_mesh w r2) K = mkind_of (w_mesh w r1) K) by (destruct B as [->|[->|[->| ->]]]; cbn [mkind_of]; auto; unfold face_kind, cell_kind; rewrite (d_dim D r1 r2); auto).
  rewrite Ek in G. destruct (behind_in C1 B K1 E1) as [I1 _]. destruct (behind_in C2 B K2 E2) as [I2 _]. rewrite Ek in I2. repeat split; auto.
Qed.
Lemma common_if_layer w ro fo r f : distributed w -> ghost_layer w -> k_dim (w_mesh w r) = 3 -> owner w MFACE ro fo r f -> common_cell w ro fo r f.
Proof.
  intros D G D3 [Cp P]. destruct (d_used D D3 (proj1 (proj2 Cp))) as (c & Ic & Uc). destruct (G _ _ _ _ _ Cp P Ic Uc) as (co & A & B). exists co, c. auto.
Qed.

(** C88.  On a distributed mesh the construction succeeds on every rank: the check of ghosts against their owners never raises an error. *)
Theorem c88_construction : forall w r faces edges, distributed w -> exists j, on_rank w r faces edges j.
Proof.
  intros w r faces edges D. destruct (@construct_no_throw false false faces edges (w_mesh w r) (w_rcv w r)) as [j E].
  - apply (mk_nodup (d_mesh D r)).
  - intros k h Ih Hk P. destruct (owner_ex D Ih) as (ro & ho & O). destruct Hk as [->|[-> D2]].
    + pose proof (edge_flag D O) as Fl. unfold flag in Fl. rewrite P in Fl. cbn [is_pghost andb] in Fl. destruct (reversed _ _) eqn:R; auto. right. destruct (owner_sent D O P) as [Po Es]. rewrite Es. unfold sent, mismatch. rewrite Po. change (local_pair (w_mesh w r) MEDGE h) with (gev (w_mesh w r) h). rewrite Fl. unfold gev. cbn [fst snd]. rewrite Nat.eqb_refl. reflexivity.
    + assert (D3 : k_dim (w_mesh w 0) = 3) by (rewrite (d_dim D 0 r); destruct (mk_dim (d_mesh D r)); congruence).
      destruct (face_flag D D3 O P) as (co & c & d1 & d2 & _ & _ & _ & _ & _ & _ & Q). exact Q.
  - exists j. split; auto. apply (mk_nodup (d_mesh D r)).
Qed.
(** C88.  Two ranks that have the same edge give its end points in the same order. *)
Theorem c88_edges : forall w r1 r2 f1 f2 j1 j2 e1 e2, distributed w -> on_rank w r1 f1 true j1 -> on_rank w r2 f2 true j2 -> valid j1 EDGE e1 -> valid j2 EDGE e2 -> GID j1 e1 EDGE = GID j2 e2 EDGE ->
  exists a b, a <> b /\ edge_gids j1 e1 = Ok [a; b] /\ edge_gids j2 e2 = Ok [a; b].
Proof.
  intros w r1 r2 f1 f2 j1 j2 e1 e2 D C1 C2 V1 V2 G. pose proof (hk_edge C1 eq_refl) as K1. pose proof (hk_edge C2 eq_refl) as K2. apply (valid_behind C1 _ bk_edge K1) in V1 as [h1 E1]. apply (valid_behind C2 _ bk_edge K2) in V2 as [h2 E2].
  pose proof (same_gid D C1 C2 bk_edge K1 K2 E1 E2 G) as Cp. cbn [mkind_of] in Cp. destruct (owner_ex D (proj1 Cp)) as (ro & ho & O1). assert (O2 : owner w MEDGE ro ho r2 h2) by (split; [eapply copies_trans; [apply O1|exact Cp]|apply O1]).
  rewrite (edge_gids_ok D C1 eq_refl E1), (edge_gids_ok D C2 eq_refl E2), (edge_flag D O1), (edge_flag D O2). unfold pair_list. do 2 eexists. split; [|split; reflexivity].
  intros Q. apply zid_inj in Q. revert Q. apply (gev_distinct D). apply O1.
Qed.
(** C88.  In 2D, two ranks that have the same face give its end points in the same order. *)
Theorem c88_faces_2D : forall w r1 r2 e1 e2 j1 j2 f1 f2, distributed w -> k_dim (w_mesh w r1) = 2 -> on_rank w r1 true e1 j1 -> on_rank w r2 true e2 j2 -> valid j1 FACE f1 -> valid j2 FACE f2 -> GID j1 f1 FACE = GID j2 f2 FACE ->
  exists a b, a <> b /\ face_gids j1 f1 = Ok [a; b] /\ face_gids j2 f2 = Ok [a; b].
Proof.
  intros w r1 r2 e1 e2 j1 j2 f1 f2 D D2 C1 C2 V1 V2 G. pose proof (proj2 (faces_kind C1) eq_refl) as K1. pose proof (proj2 (faces_kind C2) eq_refl) as K2. apply (valid_behind C1 _ bk_face K1) in V1 as [h1 E1]. apply (valid_behind C2 _ bk_face K2) in V2 as [h2 E2].
  pose proof (same_gid D C1 C2 bk_face K1 K2 E1 E2 G) as Cp. cbn [mkind_of] in Cp. assert (D2' : k_dim (w_mesh w r2) = 2) by (rewrite (d_dim D r2 r1); auto). unfold face_kind in Cp. rewrite D2 in Cp. cbn [Nat.eqb] in Cp.
  destruct (owner_ex D (proj1 Cp)) as (ro & ho & O1). assert (O2 : owner w MEDGE ro ho r2 h2) by (split; [eapply copies_trans; [apply O1|exact Cp]|apply O1]).
  rewrite (face_gids_2 D C1 eq_refl D2 E1), (face_gids_2 D C2 eq_refl D2' E2), (edge_flag D O1), (edge_flag D O2). unfold pair_list. do 2 eexists. split; [|split; reflexivity].
  intros Q. apply zid_inj in Q. revert Q. apply (gev_distinct D). apply O1.
Qed.
(** C88.  In 3D, with at least one layer of ghost cells, two ranks that have the same face list its nodes in the same sense of rotation. *)
Theorem c88_faces_3D_partial : forall w r1 r2 e1 e2 j1 j2 f1 f2, distributed w -> ghost_layer w -> k_dim (w_mesh w r1) = 3 -> on_rank w r1 true e1 j1 -> on_rank w r2 true e2 j2 -> valid j1 FACE f1 -> valid j2 FACE f2 -> GID j1 f1 FACE = GID j2 f2 FACE ->
  exists l1 l2, face_gids j1 f1 = Ok l1 /\ face_gids j2 f2 = Ok l2 /\ same_cycle l1 l2.
Proof.
  intros w r1 r2 e1 e2 j1 j2 f1 f2 D GL D3 C1 C2 V1 V2 G. pose proof (proj2 (faces_kind C1) eq_refl) as K1. pose proof (proj2 (faces_kind C2) eq_refl) as K2. apply (valid_behind C1 _ bk_face K1) in V1 as [h1 E1]. apply (valid_behind C2 _ bk_face K2) in V2 as [h2 E2].
  pose proof (same_gid D C1 C2 bk_face K1 K2 E1 E2 G) as Cp. cbn [mkind_of] in Cp. assert (D3' : k_dim (w_mesh w r2) = 3) by (rewrite (d_dim D r2 r1); auto). unfold face_kind in Cp. rewrite D3 in Cp. cbn [Nat.eqb] in Cp.
  assert (D30 : k_dim (w_mesh w 0) = 3) by (rewrite (d_dim D 0 r1); auto).
  destruct (owner_ex D (proj1 Cp)) as (ro & ho & O1). assert (O2 : owner w MFACE ro ho r2 h2) by (split; [eapply copies_trans; [apply O1|exact Cp]|apply O1]).
  destruct (proj1 (face_shown D D30 O1) (or_intror (common_if_layer D GL D3 O1))) as [S1 _]. destruct (proj1 (face_shown D D30 O2) (or_intror (common_if_layer D GL D3' O2))) as [S2 _].
  rewrite (face_gids_3 D C1 eq_refl D3 E1), (face_gids_3 D C2 eq_refl D3' E2). do 2 eexists. split; [reflexivity|]. split; [reflexivity|]. apply same_cycle_map. eapply same_cycle_trans; [apply same_cycle_sym; exact S1|exact S2].
Qed.
(** C88 (the full claim fails without ghost cells): if the owner of a face has none of the cells that a ghost copy sees, the ghost copy is shown with the sense of rotation
    opposite to the owner's. *)
Theorem c88_no_ghost_layer_refuted : forall w ro r e1 e2 jo j fo f, distributed w -> k_dim (w_mesh w r) = 3 -> on_rank w ro true e1 jo -> on_rank w r true e2 j ->
  In fo (entities jo FACE PARALLEL_OWNED) -> In f (entities j FACE PARALLEL_GHOST) -> GID jo fo FACE = GID j f FACE ->
  (forall ho h, behind jo FACE fo ho -> behind j FACE f h -> ~ common_cell w ro ho r h) ->
  exists lo l, face_gids jo fo = Ok lo /\ face_gids j f = Ok l /\ same_cycle (rev lo) l /\ ~ same_cycle lo l.
Proof.
  intros w ro r e1 e2 jo j fo f D D3 C1 C2 V1 V2 G Nc. pose proof (proj2 (faces_kind C1) eq_refl) as K1. pose proof (proj2 (faces_kind C2) eq_refl) as K2.
  destruct (Props_MstkAdj.typed_behind C1 bk_face K1 V1) as [ho E1]. destruct (Props_MstkAdj.typed_behind C2 bk_face K2 V2) as [h E2].
  apply (typed C1 _ bk_face K1 E1) in V1. apply (typed C2 _ bk_face K2 E2) in V2.
  pose proof (same_gid D C1 C2 bk_face K1 K2 E1 E2 G) as Cp. cbn [mkind_of] in *. assert (D3' : k_dim (w_mesh w ro) = 3) by (rewrite (d_dim D ro r); auto). unfold face_kind in *. rewrite D3, ?D3' in *. cbn [Nat.eqb] in *.
  assert (D30 : k_dim (w_mesh w 0) = 3) by (rewrite (d_dim D 0 r); auto).
  assert (Po : k_ptype (w_mesh w ro) MFACE ho <> PGHOST) by (intros Q; rewrite Q in V1; discriminate). assert (P : k_ptype (w_mesh w r) MFACE h = PGHOST) by (destruct (k_ptype (w_mesh w r) MFACE h); auto; discriminate).
  assert (O : owner w MFACE ro ho r h) by (split; auto). assert (Oo : owner w MFACE ro ho ro ho) by (split; auto; repeat split; auto; apply Cp).
  pose proof (proj2 (face_shown D D30 O) P (Nc _ _ E1 E2)) as S. destruct (proj1 (face_shown D D30 Oo) (or_introl Po)) as [So _].
  rewrite (face_gids_3 D C1 eq_refl D3' E1), (face_gids_3 D C2 eq_refl D3 E2). do 2 eexists. split; [reflexivity|]. split; [reflexivity|].
  pose proof (same_cycle_trans (same_cycle_sym (same_cycle_rev So)) S) as S2. rewrite <- map_rev. split; [apply same_cycle_map; exact S2|].
  intros Q. destruct (same_cycle_unmap Q) as (l' & Q1 & Q2). assert (l' = shown w r h). { clear - Q2. revert Q2. generalize (shown w r h). induction l' as [|a l IH]; intros [|b k]; simpl; intros E; try discriminate; auto. injection E as E1 E2. f_equal; [symmetry; apply zid_inj; auto|symmetry; rewrite <- (IH k); auto]. }
  subst l'. destruct (gfv_distinct D (proj1 Cp)) as [N L]. assert (Pm : Permutation (gfv (w_mesh w ro) ho) (shown w ro ho)) by (apply same_cycle_perm; auto).
  apply (@no_reversal (shown w ro ho) (shown w r h)); auto; [apply (Permutation_NoDup Pm); auto|rewrite <- (Permutation_length Pm); auto].
Qed.
(** C88.  Two ranks that have the same cell and the same face of it give the same direction (in 3D with a layer of ghost cells). *)
Theorem c88_cell_dirs_partial : forall w r1 r2 e1 e2 j1 j2 c1 c2 l1 l2 g d1 d2, distributed w -> (k_dim (w_mesh w r1) = 3 -> ghost_layer w) ->
  on_rank w r1 true e1 j1 -> on_rank w r2 true e2 j2 -> valid j1 CELL c1 -> valid j2 CELL c2 -> GID j1 c1 CELL = GID j2 c2 CELL ->
  cell_face_gids j1 c1 = Ok l1 -> cell_face_gids j2 c2 = Ok l2 -> In (g, d1) l1 -> In (g, d2) l2 -> d1 = d2.
Proof.
  intros w r1 r2 e1 e2 j1 j2 c1 c2 l1 l2 g d1 d2 D GL C1 C2 V1 V2 G L1 L2 I1 I2. apply (valid_behind C1 _ bk_cell I) in V1 as [h1 E1]. apply (valid_behind C2 _ bk_cell I) in V2 as [h2 E2].
  pose proof (@same_gid _ _ _ _ _ _ _ _ _ CELL _ _ _ _ D C1 C2 bk_cell I I E1 E2 G) as Cc. cbn [mkind_of] in Cc.
  rewrite (cell_face_gids_ok D C1 eq_refl E1) in L1. rewrite (cell_face_gids_ok D C2 eq_refl E2) in L2. injection L1 as <-. injection L2 as <-.
  apply in_map_iff in I1 as ([a b1] & Q1 & I1). apply in_map_iff in I2 as ([b b2] & Q2 & I2). cbn [fst snd] in *. injection Q1 as G1 <-. injection Q2 as G2 <-. rewrite <- G2 in G1. apply zid_inj in G1. clear G2.
  destruct (behind_in C1 bk_cell I E1) as [Ih1 _]. destruct (behind_in C2 bk_cell I E2) as [Ih2 _]. cbn [mkind_of] in Ih1, Ih2.
  pose proof (proj1 (cfaces_ok (d_mesh D r1) Ih1) _ (in_map fst _ _ I1)) as Ia. pose proof (proj1 (cfaces_ok (d_mesh D r2) Ih2) _ (in_map fst _ _ I2)) as Ib. cbn [fst] in Ia, Ib.
  pose proof (d_dim D r2 r1) as Ed. unfold face_kind, cell_kind, cfaces_of in *. rewrite Ed in *. destruct (mk_dim (d_mesh D r1)) as [D2|D3].
  - rewrite D2 in *. cbn [Nat.eqb] in *. assert (Cp : copies w MEDGE r1 a r2 b) by (repeat split; auto). destruct (owner_ex D (proj1 Cp)) as (ro & ho & O1). assert (O2 : owner w MEDGE ro ho r2 b) by (split; [eapply copies_trans; [apply O1|exact Cp]|apply O1]).
    pose proof (edge_flag D O1) as F1. pose proof (edge_flag D O2) as F2.
    assert (St : forall r h e d, In h (k_all (w_mesh w r) MFACE) -> In (e, d) (k_fe (w_mesh w r) h) -> In (if d : bool then gev (w_mesh w r) e else swap (gev (w_mesh w r) e)) (edges (gfv (w_mesh w r) h))).
    { intros r h e d Ih Ie. destruct (mk_fv (d_mesh D r) h Ih) as [Ee _]. unfold gfv. rewrite Geometry_proofs.edges_map, Ee, map_map. apply in_map_iff. exists (e, d). split; auto. unfold used. cbn [fst snd]. destruct d; reflexivity. }
    pose proof (St _ _ _ _ Ih1 I1) as S1. pose proof (St _ _ _ _ Ih2 I2) as S2. destruct (d_face D Cc) as [Sw|[Q _]]; [|congruence]. apply edges_cycle, same_cycle_perm in Sw. apply (Permutation_in _ (Permutation_sym Sw)) in S2.
    destruct (gfv_distinct D Ih1) as [N L]. pose proof (gev_distinct D (proj1 (proj1 O1))) as Nd. set (p := gev (w_mesh w ro) ho) in *.
    assert (U1 : (if (dirz b1 (flag w MEDGE r1 a) =? 1)%Z then p else swap p) = if b1 then gev (w_mesh w r1) a else swap (gev (w_mesh w r1) a)).
    { rewrite <- F1. destruct b1, (flag w MEDGE r1 a); cbn; unfold swap; destruct (gev (w_mesh w r1) a); reflexivity. }
    assert (U2 : (if (dirz b2 (flag w MEDGE r2 b) =? 1)%Z then p else swap p) = if b2 then gev (w_mesh w r2) b else swap (gev (w_mesh w r2) b)).
    { rewrite <- F2. destruct b2, (flag w MEDGE r2 b); cbn; unfold swap; destruct (gev (w_mesh w r2) b); reflexivity. }
    rewrite <- U1 in S1. rewrite <- U2 in S2. assert (Bo : forall x y, dirz x y = 1%Z \/ dirz x y = (-1)%Z) by (intros [] []; cbn; auto).
    destruct p as [x y]. unfold swap in S1, S2. cbn [fst snd] in *. destruct (Bo b1 (flag w MEDGE r1 a)) as [Z1|Z1], (Bo b2 (flag w MEDGE r2 b)) as [Z2|Z2]; rewrite Z1, Z2 in *; auto; cbn in S1, S2; exfalso.
    + apply (no_way_back N L S1 S2).
    + apply (no_way_back N L S2 S1).
  - rewrite D3 in *. cbn [Nat.eqb] in *. assert (Cp : copies w MFACE r1 a r2 b) by (repeat split; auto). destruct (owner_ex D (proj1 Cp)) as (ro & ho & O1). assert (O2 : owner w MFACE ro ho r2 b) by (split; [eapply copies_trans; [apply O1|exact Cp]|apply O1]).
    assert (D30 : k_dim (w_mesh w 0) = 3) by (rewrite (d_dim D 0 r1); auto). specialize (GL eq_refl).
    destruct (proj1 (face_shown D D30 O1) (or_intror (common_if_layer D GL D3 O1))) as [_ F1]. assert (D3' : k_dim (w_mesh w r2) = 3) by congruence. destruct (proj1 (face_shown D D30 O2) (or_intror (common_if_layer D GL D3' O2))) as [_ F2].
    pose proof (proj1 (d_region D Cp Ih1 Ih2 I1 I2) (proj2 (proj2 Cc))) as Rg.
    assert (Op : forall r f, owner w MFACE ro ho r f -> ~ same_way w ro ho r f -> opposite_way w ro ho r f) by (intros r f O N; destruct (d_face D (proj1 O)) as [Q|[_ Q]]; tauto).
    unfold same_way, opposite_way in *.
    destruct (flag w MFACE r1 a) eqn:W1, (flag w MFACE r2 b) eqn:W2.
    + assert (b1 = b2) as ->; auto. apply Rg. eapply same_cycle_trans; [apply same_cycle_sym; apply (Op _ _ O1)|apply (Op _ _ O2)]; intuition discriminate.
    + assert (b1 <> b2) as Nb.
      { intros Q. apply Rg in Q. apply (@not_both w D ro ho r2 b (proj1 (proj1 O1))); [apply F2; auto|]. eapply same_cycle_trans; [apply (Op _ _ O1); intuition discriminate|exact Q]. }
      destruct b1, b2; try congruence; reflexivity.
    + assert (b1 <> b2) as Nb.
      { intros Q. apply Rg in Q. apply (@not_both w D ro ho r2 b (proj1 (proj1 O1))); [|apply (Op _ _ O2); intuition discriminate]. eapply same_cycle_trans; [apply F1; auto|exact Q]. }
      destruct b1, b2; try congruence; reflexivity.
    + assert (b1 = b2) as ->; auto. apply Rg. eapply same_cycle_trans; [apply same_cycle_sym; apply F1; auto|apply F2; auto].
Qed.
