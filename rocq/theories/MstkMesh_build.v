(** A way to write down concrete MSTK meshes for examples: vertices, edges, faces and regions by their downward adjacencies, the upward ones
    computed, and a check that the result is a well-formed mesh. *)
From Coq Require Import Permutation.
From Verif Require Import Base Defs Geometry_spec MstkMesh MstkMesh_spec MstkMesh_examples.
Set Implicit Arguments.
Section Build.
Variables (dim : nat) (all : mkind -> list nat) (ptype : mkind -> nat -> par_type) (gid : mkind -> nat -> nat)
  (ev : nat -> nat * nat) (fe rf : nat -> list (nat * bool)).
Definition b_used (ed : nat * bool) : nat * nat := if snd ed then ev (fst ed) else swap (ev (fst ed)).
Definition b_fv (f : nat) : list nat := map (fun ed => fst (b_used ed)) (fe f).
Definition b_re (r : nat) : list nat := nodup Nat.eq_dec (flat_map (fun fd => map fst (fe (fst fd))) (rf r)).
Definition b_rv (r : nat) : list nat := nodup Nat.eq_dec (flat_map (fun fd => b_fv (fst fd)) (rf r)).
Definition b_has2 (l : list (nat * bool)) (x : nat * bool) : bool := existsb (fun y => (fst x =? fst y) && Bool.eqb (snd x) (snd y)) l.
Definition mesh_of : mstk :=
  Mstk dim all ptype gid (fun _ => false) ev fe (fun f => rev (map fst (fe f))) b_fv (fun f => rev (b_fv f)) rf b_re b_rv
    (fun v => filter (fun e => (v =? fst (ev e)) || (v =? snd (ev e))) (all MEDGE))
    (fun v => filter (fun f => has (b_fv f) v) (all MFACE))
    (fun v => filter (fun r => has (b_rv r) v) (all MREGION))
    (fun e => filter (fun f => has (map fst (fe f)) e) (all MFACE))
    (fun f => filter (fun r => has (map fst (rf r)) f) (all MREGION))
    (fun f s => if s <? 2 then find (fun r => b_has2 (rf r) (f, s =? 0)) (all MREGION) else None).
Fixpoint pairs_eqb (l l' : list (nat * nat)) : bool :=
  match l, l' with [], [] => true | a :: r, b :: r' => (fst a =? fst b) && (snd a =? snd b) && pairs_eqb r r' | _, _ => false end.
(** (x, d) in the table of at most one member of l *)
Definition once (tab : nat -> list (nat * bool)) (l : list nat) : bool :=
  forallb (fun r => forallb (fun x => forallb (fun r' => (r =? r') || negb (b_has2 (tab r') x)) l) (tab r)) l.
Definition mesh_check : bool :=
  ((dim =? 2) || (dim =? 3)) &&
  (no_repeat (all MVERTEX) && no_repeat (all MEDGE) && no_repeat (all MFACE) && no_repeat (all MREGION)) &&
  forallb (fun e => has (all MVERTEX) (fst (ev e)) && has (all MVERTEX) (snd (ev e)) && negb (fst (ev e) =? snd (ev e))) (all MEDGE) &&
  forallb (fun f => forallb (has (all MEDGE)) (map fst (fe f)) && no_repeat (map fst (fe f)) && (3 <=? length (fe f)) &&
                    pairs_eqb (edges (b_fv f)) (map b_used (fe f)) && no_repeat (b_fv f)) (all MFACE) &&
  forallb (fun r => forallb (has (all MFACE)) (map fst (rf r)) && no_repeat (map fst (rf r))) (all MREGION) &&
  once rf (all MREGION) && ((dim =? 3) || once fe (all MFACE)).
Lemma has_iff l x : has l x = true <-> In x l.
Proof. unfold has. rewrite existsb_exists. split; [intros (y & I & E); apply Nat.eqb_eq in E as ->; auto|intros I; exists x; rewrite Nat.eqb_refl; auto]. Qed.
Lemma has2_iff l x : b_has2 l x = true <-> In x l.
Proof.
  unfold b_has2. rewrite existsb_exists. split.
  - intros (y & I & E). apply andb_prop in E as [A B]. apply Nat.eqb_eq in A. apply Bool.eqb_prop in B. destruct x, y. simpl in *. subst. auto.
  - intros I. exists x. rewrite Nat.eqb_refl, Bool.eqb_reflx. auto.
Qed.
Lemma pairs_eqb_eq : forall l l', pairs_eqb l l' = true -> l = l'.
Proof.
  induction l as [|[a b] l IH]; destruct l' as [|[a' b'] l']; simpl; intros H; try discriminate; auto.
  apply andb_prop in H as [H1 H2]. apply andb_prop in H1 as [A B]. apply Nat.eqb_eq in A, B. subst. f_equal. auto.
Qed.
Lemma once_ok tab l : once tab l = true -> forall x d a b, In a l -> In b l -> In (x, d) (tab a) -> In (x, d) (tab b) -> a = b.
Proof.
  unfold once. intros H x d a b Ia Ib Xa Xb. rewrite forallb_forall in H. specialize (H a Ia). rewrite forallb_forall in H. specialize (H _ Xa). rewrite forallb_forall in H. specialize (H b Ib).
  apply Bool.orb_prop in H as [H|H]; [apply Nat.eqb_eq; auto|]. apply Bool.negb_true_iff in H. apply has2_iff in Xb. congruence.
Qed.
Lemma mesh_check_ok : mesh_check = true -> mstk_mesh mesh_of.
Proof.
  unfold mesh_check. intros H. repeat match goal with H : _ && _ = true |- _ => apply andb_prop in H; destruct H end.
  repeat match goal with H : forallb _ _ = true |- _ => rewrite forallb_forall in H end.
  match goal with H : forall x, In x (all MEDGE) -> _ |- _ => rename H into HE end.
  match goal with H : forall x, In x (all MFACE) -> _ |- _ => rename H into HF end.
  match goal with H : forall x, In x (all MREGION) -> _ |- _ => rename H into HR end.
  match goal with H : once rf _ = true |- _ => rename H into O1 end.
  match goal with H : (dim =? 3) || _ = true |- _ => rename H into O2 end.
  match goal with H : (dim =? 2) || _ = true |- _ => rename H into D end.
  repeat match goal with H : no_repeat _ = true |- _ => apply nodup_nat_dec in H end.
  assert (HF' : forall f, In f (all MFACE) -> (forall e, In e (map fst (fe f)) -> In e (all MEDGE)) /\ NoDup (map fst (fe f)) /\ 3 <= length (fe f) /\ edges (b_fv f) = map b_used (fe f) /\ NoDup (b_fv f)).
  { intros f I. specialize (HF f I). repeat match goal with H : _ && _ = true |- _ => apply andb_prop in H; destruct H end.
    repeat match goal with H : no_repeat _ = true |- _ => apply nodup_nat_dec in H end. repeat match goal with H : forallb _ _ = true |- _ => rewrite forallb_forall in H end.
    repeat split; auto. - intros e Ie. apply has_iff; auto. - apply Nat.leb_le; auto. - apply pairs_eqb_eq; auto. }
  assert (HR' : forall r, In r (all MREGION) -> (forall f, In f (map fst (rf r)) -> In f (all MFACE)) /\ NoDup (map fst (rf r))).
  { intros r I. specialize (HR r I). apply andb_prop in HR as [A B]. rewrite forallb_forall in A. split; [intros f If; apply has_iff; auto|apply nodup_nat_dec; auto]. }
  clear HF HR. constructor; cbn [mesh_of k_dim k_all k_ev k_fe k_fv k_fe_rev k_fv_rev k_rf k_re k_rv k_ve k_vf k_vr k_ef k_fr k_side].
  - apply Bool.orb_prop in D as [D|D]; apply Nat.eqb_eq in D; auto.
  - intros []; auto.
  - intros e I. specialize (HE e I). apply andb_prop in HE as [HE B]. apply andb_prop in HE as [A A']. apply has_iff in A, A'. apply Bool.negb_true_iff, Nat.eqb_neq in B. auto.
  - intros f e I Ie. apply (HF' f I). auto.
  - intros f I. destruct (HF' f I) as (_ & A & B & _). auto.
  - intros f I. destruct (HF' f I) as (_ & _ & _ & A & B). auto.
  - intros f I. apply same_cycle_refl.
  - intros f I. apply same_cycle_refl.
  - intros r f I If. apply (HR' r I). auto.
  - intros r I. apply (HR' r I).
  - intros r I. split; [apply NoDup_nodup|]. intros e. unfold b_re. rewrite nodup_In, in_flat_map. unfold f_of_r, e_of_f. cbn [mesh_of k_rf k_fe]. split.
    + intros (fd & A & B). exists (fst fd). split; auto. apply in_map; auto.
    + intros (f & A & B). apply in_map_iff in A as (fd & <- & A). eauto.
  - intros r I. split; [apply NoDup_nodup|]. intros e. unfold b_rv. rewrite nodup_In, in_flat_map. unfold f_of_r. cbn [mesh_of k_rf]. split.
    + intros (fd & A & B). exists (fst fd). split; auto. apply in_map; auto.
    + intros (f & A & B). apply in_map_iff in A as (fd & <- & A). eauto.
  - intros v I. split; [apply NoDup_filter; auto|]. intros e. rewrite filter_In. unfold v_of_e. cbn [mesh_of k_ev]. rewrite Bool.orb_true_iff, !Nat.eqb_eq. tauto.
  - intros v I. split; [apply NoDup_filter; auto|]. intros f. rewrite filter_In, has_iff. tauto.
  - intros v I. split; [apply NoDup_filter; auto|]. intros f. rewrite filter_In, has_iff. tauto.
  - intros v I. split; [apply NoDup_filter; auto|]. intros f. rewrite filter_In, has_iff. unfold e_of_f. cbn [mesh_of k_fe]. tauto.
  - intros v I. split; [apply NoDup_filter; auto|]. intros f. rewrite filter_In, has_iff. unfold f_of_r. cbn [mesh_of k_rf]. tauto.
  - intros f r d I. replace (if (if d then 0 else 1) <? 2 then find (fun r0 : nat => b_has2 (rf r0) (f, (if d then 0 else 1) =? 0)) (all MREGION) else None)
      with (find (fun r0 : nat => b_has2 (rf r0) (f, d)) (all MREGION)) by (destruct d; reflexivity). split.
    + intros E. apply find_some in E as [A B]. apply has2_iff in B. auto.
    + intros [A B]. destruct (find (fun r => b_has2 (rf r) (f, d)) (all MREGION)) as [r'|] eqn:E.
      * apply find_some in E as [A' B']. apply has2_iff in B'. f_equal. eapply (once_ok _ _ O1); eauto.
      * pose proof (find_none _ _ E _ A) as N. cbn beta in N. apply has2_iff in B. congruence.
  - intros D2. apply Bool.orb_prop in O2 as [O2|O2]; [apply Nat.eqb_eq in O2; congruence|]. intros e f1 f2 d. apply (once_ok _ _ O2).
Qed.
End Build.

(** ** a hexahedron and a prism that share a quadrilateral
    hexahedron: bottom 1 2 3 4, top 5 6 7 8; prism: bottom 2 9 3, top 6 10 7 *)
Local Notation T := true. Local Notation F := false.
Definition tbl {A} (d : A) (l : list A) (i : nat) : A := nth i (d :: l) d.
Definition hp_ev : nat -> nat * nat := tbl (0, 0)
  [(1,2); (2,3); (3,4); (4,1); (5,6); (6,7); (7,8); (8,5); (1,5); (2,6); (3,7); (4,8); (2,9); (9,3); (6,10); (10,7); (9,10)].
Definition hp_fe : nat -> list (nat * bool) := tbl []
  [[(4,F); (3,F); (2,F); (1,F)]; [(5,T); (6,T); (7,T); (8,T)]; [(1,T); (10,T); (5,F); (9,F)]; [(2,T); (11,T); (6,F); (10,F)]; [(3,T); (12,T); (7,F); (11,F)];
   [(4,T); (9,T); (8,F); (12,F)]; [(2,T); (14,F); (13,F)]; [(15,T); (16,T); (6,F)]; [(13,T); (17,T); (15,F); (10,F)]; [(14,T); (11,T); (16,F); (17,F)]].
Definition hp_rf : nat -> list (nat * bool) := tbl []
  [[(1,T); (2,T); (3,T); (4,T); (5,T); (6,T)]; [(4,F); (9,T); (8,T); (7,T); (10,T)]].
Definition hp_all (k : mkind) : list nat := match k with MVERTEX => seq 1 10 | MEDGE => seq 1 17 | MFACE => seq 1 10 | MREGION => [1; 2] end.
(** the prism belongs to the other rank, with all that only it has; face 9 is stored the other way round there, see hp_rcv *)
Definition hp_ptype (k : mkind) (h : nat) : par_type :=
  match k with
  | MVERTEX => if 8 <? h then PGHOST else POVERLAP | MEDGE => if 12 <? h then PGHOST else POVERLAP
  | MFACE => if 6 <? h then PGHOST else POVERLAP | MREGION => if h =? 2 then PGHOST else POVERLAP
  end.
Definition hp_mesh : mstk := mesh_of 3 hp_all hp_ptype (fun _ h => h) hp_ev hp_fe hp_rf.
Lemma hp_is_mesh : mstk_mesh hp_mesh.
Proof. apply mesh_check_ok. vm_compute. reflexivity. Qed.
Definition hp_rcv : received := fun k h =>
  match k with
  | MEDGE => if h =? 13 then (9, 2) else hp_ev h
  | MFACE => if h =? 9 then (0, 2) else (2, 0)
  | _ => (0, 0) end.
(** ** a triangular prism with two hanging nodes: 7 on the bottom edge 1 2, 8 on the top edge 5 6 *)
Definition sp_ev : nat -> nat * nat := tbl (0, 0) [(1,7); (7,2); (2,3); (3,1); (4,5); (5,8); (8,6); (6,4); (1,4); (2,5); (3,6)].
Definition sp_fe : nat -> list (nat * bool) := tbl []
  [[(4,F); (3,F); (2,F); (1,F)]; [(5,T); (6,T); (7,T); (8,T)]; [(1,T); (2,T); (10,T); (5,F); (9,F)]; [(3,T); (11,T); (7,F); (6,F); (10,F)]; [(4,T); (9,T); (8,F); (11,F)]].
Definition sp_all (k : mkind) : list nat := match k with MVERTEX => seq 1 8 | MEDGE => seq 1 11 | MFACE => seq 1 5 | MREGION => [1] end.
Definition sp_mesh : mstk := mesh_of 3 sp_all (fun _ _ => PINTERIOR) (fun _ h => h) sp_ev sp_fe (tbl [] [[(1,T); (2,T); (3,T); (4,T); (5,T)]]).
Lemma sp_is_mesh : mstk_mesh sp_mesh.
Proof. apply mesh_check_ok. vm_compute. reflexivity. Qed.

(** ** checks for polyhedra *)
Section Polyhedra.
Variables (m : mstk) (r : nat).
Let fs := map fst (k_rf m r).
Let es (f : nat) := map fst (k_fe m f).
Definition closed_check : bool :=
  forallb (fun f => forallb (fun e => length (filter (fun g => negb (g =? f) && has (es g) e) fs) =? 1) (es f)) fs.
Definition plain_check : bool :=
  forallb (fun f => forallb (fun f' => (f =? f') || (length (filter (has (es f')) (es f)) <=? 1)) fs) fs.
Lemma closed_check_ok : closed_check = true -> closed_cell m r.
Proof.
  unfold closed_check. intros H f e If Ie. rewrite forallb_forall in H. specialize (H f If). rewrite forallb_forall in H. specialize (H e Ie). apply Nat.eqb_eq in H.
  destruct (filter _ fs) as [|f' [|? ?]] eqn:E; try discriminate. assert (X : forall g, In g (filter (fun g => negb (g =? f) && has (es g) e) fs) <-> g = f') by (intros g; rewrite E; simpl; intuition).
  assert (Y : forall g, g = f' <-> In g fs /\ g <> f /\ In e (es g)). { intros g. rewrite <- X, filter_In, Bool.andb_true_iff, has_iff, Bool.negb_true_iff, Nat.eqb_neq. tauto. }
  destruct (proj1 (Y f') eq_refl) as (A & B & D). exists f'. repeat split; auto. intros g Ig Eg. destruct (Nat.eq_dec g f); auto. right. apply Y. auto.
Qed.
Lemma plain_check_ok : plain_check = true -> plain_cell m r.
Proof.
  unfold plain_check. intros H f f' e e' If If' N A B A' B'. rewrite forallb_forall in H. specialize (H f If). rewrite forallb_forall in H. specialize (H f' If'). apply Bool.orb_prop in H as [H|H]; [apply Nat.eqb_eq in H; congruence|].
  apply Nat.leb_le in H. assert (X : forall x, e_of_f m x f -> e_of_f m x f' -> In x (filter (has (es f')) (es f))) by (intros x P Q; apply filter_In; split; auto; apply has_iff; auto).
  pose proof (X _ A B) as P. pose proof (X _ A' B') as Q. destruct (filter _ _) as [|x [|y l]]; [destruct P| |simpl in H; inversion H as [|? H1]; inversion H1]. destruct P as [<-|[]], Q as [<-|[]]. auto.
Qed.
End Polyhedra.
