(** Facts about the 3D generator: the loops, the handle array, the classification templates. *)
From Coq Require Import Reals Permutation Lra.
From Verif Require Import Base Loop MeshSet_proofs RegularMesh RegularMesh_spec.
Set Implicit Arguments.

(** ** loops *)
Definition grid3 (a b c : nat) : list triple := flat_map (fun i => flat_map (fun j => map (fun k => (i, j, k)) (seq 0 c)) (seq 0 b)) (seq 0 a).
Lemma in_grid3 a b c i j k : In (i, j, k) (grid3 a b c) <-> i < a /\ j < b /\ k < c.
Proof.
  unfold grid3. rewrite in_flat_map. split.
  - intros (i' & Ii & H). rewrite in_flat_map in H. destruct H as (j' & Ij & H). apply in_map_iff in H as (k' & E & Ik). injection E as -> -> ->. apply in_seq in Ii, Ij, Ik. lia.
  - intros (Li & Lj & Lk). exists i. split; [apply in_seq; lia|]. apply in_flat_map. exists j. split; [apply in_seq; lia|]. apply in_map_iff. exists k. split; auto. apply in_seq. lia.
Qed.
Lemma NoDup_flat (A B : Type) (f : A -> list B) l : NoDup l -> (forall x, In x l -> NoDup (f x)) -> (forall x y z, In x l -> In y l -> In z (f x) -> In z (f y) -> x = y) -> NoDup (flat_map f l).
Proof.
  induction l as [|a l IH]; intros N H D; cbn; [constructor|]. inversion N as [|? ? Na Nl]; subst. apply NoDup_app_iff. split; [apply H; now left|]. split.
  - apply IH; auto. + intros; apply H; now right. + intros x y z Ix Iy; apply D; now right.
  - intros z Iz I. apply in_flat_map in I as (y & Iy & I). apply Na. replace a with y; auto. apply D with z; auto. now right. now left.
Qed.
Lemma NoDup_grid3 a b c : NoDup (grid3 a b c).
Proof.
  apply NoDup_flat; [apply seq_NoDup| |].
  - intros i _. apply NoDup_flat; [apply seq_NoDup| |].
    + intros j _. apply FinFun.Injective_map_NoDup; [intros x y E; now injection E|apply seq_NoDup].
    + intros x y z _ _ I J. apply in_map_iff in I as (? & <- & _). apply in_map_iff in J as (? & E & _). now injection E.
  - intros x y z _ _ I J. apply in_flat_map in I as (? & _ & I). apply in_flat_map in J as (? & _ & J). apply in_map_iff in I as (? & <- & _). apply in_map_iff in J as (? & E & _). now injection E.
Qed.

Lemma loop3_fold A a b c (body : nat -> nat -> nat -> outcome A) :
  loop3 a b c body = foldM (grid3 a b c) (fun t out => x <- body (fst (fst t)) (snd (fst t)) (snd t) ;; Ok (out ++ [x])) [].
Proof.
  unfold loop3, for_lt, grid3. rewrite <- foldM_flat_map. apply foldM_ext. intros i s _. rewrite <- foldM_flat_map. apply foldM_ext. intros j s' _.
  now rewrite <- foldM_map.
Qed.
Lemma fold_append A B (f : A -> outcome B) (Q : A -> B -> Prop) l : (forall x, In x l -> exists y, f x = Ok y /\ Q x y) -> forall out,
  exists ys, foldM l (fun x out => y <- f x ;; Ok (out ++ [y])) out = Ok (out ++ ys) /\ Forall2 Q l ys.
Proof.
  induction l as [|a l IH]; intros H out; cbn. { exists []. rewrite app_nil_r. auto. }
  destruct (H a) as (y & E & q); [now left|]. rewrite E. cbn. destruct (IH (fun x I => H x (or_intror I)) (out ++ [y])) as (ys & E' & F).
  exists (y :: ys). rewrite E', <- app_assoc. auto.
Qed.
Lemma loop3_ok A a b c (body : nat -> nat -> nat -> outcome A) (Q : triple -> A -> Prop) :
  (forall i j k, i < a -> j < b -> k < c -> exists x, body i j k = Ok x /\ Q (i, j, k) x) -> exists l, loop3 a b c body = Ok l /\ Forall2 Q (grid3 a b c) l.
Proof.
  intros H. rewrite loop3_fold. destruct (@fold_append _ _ (fun t : triple => body (fst (fst t)) (snd (fst t)) (snd t)) Q (grid3 a b c)) with (out := @nil A) as (l & E & F); [|exists l; auto].
  intros ((i, j), k) I. apply in_grid3 in I. cbn. apply H; lia.
Qed.

(** ** the handle array *)
Lemma triple_eqb_eq a b : triple_eqb a b = true <-> a = b.
Proof.
  destruct a as ((a1, a2), a3), b as ((b1, b2), b3). unfold triple_eqb. cbn. rewrite !andb_true_iff, !Nat.eqb_eq. split; [intros ((-> & ->) & ->); auto|]. intros E. injection E as -> -> ->. auto.
Qed.
Lemma last_pos_spec x keys : forall pre found, (forall h, found = Some h -> nth_error (pre ++ keys) h = Some x) ->
  (In x keys \/ found <> None -> exists h, last_pos keys x (length pre) found = Some h) /\
  (forall h, last_pos keys x (length pre) found = Some h -> nth_error (pre ++ keys) h = Some x).
Proof.
  induction keys as [|a r IH]; intros pre found F; cbn.
  - split; auto. intros [[]|N]. destruct found; [eauto|congruence].
  - specialize (IH (pre ++ [a]) (if triple_eqb a x then Some (length pre) else found)).
    rewrite app_length, <- app_assoc in IH. cbn in IH. rewrite Nat.add_1_r in IH. destruct IH as (I1 & I2).
    + intros h E. destruct (triple_eqb a x) eqn:T; auto. apply triple_eqb_eq in T as ->. injection E as <-. rewrite nth_error_app2, Nat.sub_diag by lia. auto.
    + split; auto. intros [[->|I]|N].
      * apply I1. right. replace (triple_eqb x x) with true by (symmetry; now apply triple_eqb_eq). congruence.
      * apply I1. now left.
      * apply I1. right. now destruct (triple_eqb a x).
Qed.
Lemma vert_handle_ok keys i j k : In (i, j, k) keys -> exists h, vert_handle keys i j k = Ok h /\ nth_error keys h = Some (i, j, k).
Proof.
  intros I. destruct (@last_pos_spec (i, j, k) keys [] None) as (H1 & H2); [discriminate|]. destruct H1 as (h & E); [now left|]. exists h. unfold vert_handle. cbn in E, H2. rewrite E. auto.
Qed.

(** ** classification *)
(** one axis of a group of nodes: 0 all low, 2 all high, 1 otherwise *)
Definition axis_state (N : gpos) (ps : list gpos) (d s : nat) : Prop :=
  s <= 2 /\ ((forall p, In p ps -> at_axis p d = 0) <-> s = 0) /\ ((forall p, In p ps -> at_axis p d = at_axis N d) <-> s = 2).
Definition onb (s : nat -> nat) (vs : list nat) : bool :=
  forallb (fun d => implb (forallb (fun v => negb (high v d)) vs) (s d =? 0) && implb (forallb (fun v => high v d) vs) (s d =? 2)) (seq 0 3).
Lemma implb_true a b : implb a b = true <-> (a = true -> b = true).
Proof. destruct a, b; cbn; split; auto; intros H; try discriminate; now apply H. Qed.
Lemma onb_ok N ps s vs : (forall d, d < 3 -> axis_state N ps d (s d)) -> ((forall p, In p ps -> on_entity N vs p) <-> onb s vs = true).
Proof.
  intros S. unfold onb. rewrite forallb_forall. split.
  - intros H d Id. apply in_seq in Id. destruct (S d) as (_ & S0 & S2); [lia|]. rewrite andb_true_iff, !implb_true, !forallb_forall, !Nat.eqb_eq. split; intros A.
    + apply S0. intros p Ip. apply (H p Ip); [lia|]. intros v Iv. specialize (A v Iv). now destruct (high v d).
    + apply S2. intros p Ip. apply (H p Ip); [lia|]. auto.
  - intros H p Ip d Ld. destruct (S d Ld) as (_ & S0 & S2). specialize (H d). rewrite in_seq, andb_true_iff, !implb_true, !forallb_forall, !Nat.eqb_eq in H. destruct H as (H0 & H2); [lia|]. split; intros A.
    + apply S0; auto. apply H0. intros v Iv. now rewrite A.
    + apply S2; auto.
Qed.
Definition check_in (M : list (nat * nat * list nat)) (s : nat -> nat) (gdim gid : nat) : bool :=
  existsb (fun '(d, i, vs) => (d =? gdim) && (i =? gid) && onb s vs) M &&
  forallb (fun '(d, i, vs) => implb (onb s vs) ((gdim <? d) || ((d =? gdim) && (i =? gid)))) M.
Lemma check_in_ok M N ps s gdim gid : (forall d, d < 3 -> axis_state N ps d (s d)) -> check_in M s gdim gid = true -> classified_in M N gdim gid ps.
Proof.
  intros S C. apply andb_true_iff in C as (C1 & C2). split.
  - apply existsb_exists in C1 as (((d, i), vs) & I & C). apply andb_true_iff in C as (C & O). apply andb_true_iff in C as (Ed & Ei). apply Nat.eqb_eq in Ed, Ei. subst. exists vs. split; auto. now apply (@onb_ok N ps s vs S).
  - intros d i vs I H. apply (@onb_ok N ps s vs S) in H. rewrite forallb_forall in C2. specialize (C2 _ I). cbv beta iota in C2. rewrite H in C2. cbn [implb] in C2. apply orb_true_iff in C2 as [L|E].
    + left. now apply Nat.ltb_lt. + right. apply andb_true_iff in E as (E1 & E2). apply Nat.eqb_eq in E1, E2. auto.
Qed.
Definition check := check_in model.
Lemma check_ok N ps s gdim gid : (forall d, d < 3 -> axis_state N ps d (s d)) -> check s gdim gid = true -> classified N gdim gid ps.
Proof. apply check_in_ok. Qed.
Definition st3 (a b c d : nat) : nat := match d with 0 => a | 1 => b | _ => c end.
Ltac le2 s := destruct s as [|[|[|s]]]; [| | |exfalso; match goal with H : S (S (S s)) < 3 |- _ => clear - H; lia | H : S (S (S s)) <= 2 |- _ => clear - H; lia | H : S (S (S s)) < S _ |- _ => clear - H; lia end].
Lemma vert_tmpl a b c : a <= 2 -> b <= 2 -> c <= 2 -> exists gdim gid, rd3 vgdim_tmpl a b c = Ok gdim /\ rd3 vgid_tmpl a b c = Ok gid /\ check (st3 a b c) gdim gid = true.
Proof. intros. le2 a; le2 b; le2 c; do 2 eexists; (split; [reflexivity|]; split; [reflexivity|]; vm_compute; reflexivity). Qed.
Lemma edge_tmpl2 a b : a <= 2 -> b <= 2 -> exists gdim gid, rd2 egdim_tmpl a b = Ok gdim /\ rd2 egid_tmpl2 a b = Ok gid /\ check (st3 a b 1) gdim gid = true.
Proof. intros. le2 a; le2 b; do 2 eexists; (split; [reflexivity|]; split; [reflexivity|]; vm_compute; reflexivity). Qed.
Lemma edge_tmpl1 a b : a <= 2 -> b <= 2 -> exists gdim gid, rd2 egdim_tmpl a b = Ok gdim /\ rd2 egid_tmpl1 a b = Ok gid /\ check (st3 a 1 b) gdim gid = true.
Proof. intros. le2 a; le2 b; do 2 eexists; (split; [reflexivity|]; split; [reflexivity|]; vm_compute; reflexivity). Qed.
Lemma edge_tmpl0 a b : a <= 2 -> b <= 2 -> exists gdim gid, rd2 egdim_tmpl a b = Ok gdim /\ rd2 egid_tmpl0 a b = Ok gid /\ check (st3 1 a b) gdim gid = true.
Proof. intros. le2 a; le2 b; do 2 eexists; (split; [reflexivity|]; split; [reflexivity|]; vm_compute; reflexivity). Qed.
Lemma face_tmpl0 a : a <= 2 -> exists gdim gid, rd fgdim_tmpl a = Ok gdim /\ rd fgid_tmpl0 a = Ok gid /\ check (st3 a 1 1) gdim gid = true.
Proof. intros. le2 a; do 2 eexists; (split; [reflexivity|]; split; [reflexivity|]; vm_compute; reflexivity). Qed.
Lemma face_tmpl1 a : a <= 2 -> exists gdim gid, rd fgdim_tmpl a = Ok gdim /\ rd fgid_tmpl1 a = Ok gid /\ check (st3 1 a 1) gdim gid = true.
Proof. intros. le2 a; do 2 eexists; (split; [reflexivity|]; split; [reflexivity|]; vm_compute; reflexivity). Qed.
Lemma face_tmpl2 a : a <= 2 -> exists gdim gid, rd fgdim_tmpl a = Ok gdim /\ rd fgid_tmpl2 a = Ok gid /\ check (st3 1 1 a) gdim gid = true.
Proof. intros. le2 a; do 2 eexists; (split; [reflexivity|]; split; [reflexivity|]; vm_compute; reflexivity). Qed.
(** the index the code computes is the state of an axis on which all the nodes agree *)
Lemma side_ix_ok g n : 0 < n -> g <= n -> exists s, side_ix g n = Ok s /\ s <= 2 /\ (g = 0 <-> s = 0) /\ (g = n <-> s = 2).
Proof.
  intros P L. unfold side_ix. replace (n =? 0) with false by (symmetry; apply Nat.eqb_neq; lia). eexists. split; [reflexivity|].
  destruct (Nat.eq_dec g n) as [->|D].
  - rewrite Nat.mod_same by lia. cbn. replace (n =? 0) with false by (symmetry; apply Nat.eqb_neq; lia). cbn. lia.
  - rewrite Nat.mod_small by lia. destruct g; cbn; lia.
Qed.
