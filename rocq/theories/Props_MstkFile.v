(** C99: reading a mesh from a file. *)
From Coq Require Import String QArith.
From Verif Require Import Base Loop IndexPartition MstkFile Props_Cache.
Set Implicit Arguments. Unset Strict Implicit.
Open Scope nat_scope.

(** * The calls *)
(** the number of ghost layers asked for is what the distribution or weaving gets, on every file that has ghosts *)
Theorem c99_ghost_layers : forall status regions n layers contiguous file p c, In c (fst (read_file status regions n layers contiguous file p)) ->
  match c with
  | Distribute d l a _ => d = (if regions then 3 else 2) /\ l = layers /\ a = true /\ 1 < n
  | Weave d l i => d = (if regions then 3 else 2) /\ l = layers /\ i = 1
  | ImportExodus f | ImportNemesis f => f = file
  | RenumberGlobalIDs => contiguous = true
  | _ => True
  end.
Proof.
  intros status regions n layers contiguous file p c. unfold read_file, init_mesh_from_file.
  destruct (contains ".exo" file).
  - destruct (Nat.ltb_spec 1 n); [destruct contiguous|]; simpl; intuition (subst; auto).
  - destruct (contains ".par" file); [destruct contiguous|]; simpl; intuition (subst; auto).
Qed.
(** degenerate edges are collapsed right after the import, and ranks are told about each other once: an Exodus file is distributed iff there are
    several ranks, a Nemesis file is woven *)
Theorem c99_order_of_calls : forall status regions n layers contiguous file p,
  let calls := fst (read_file status regions n layers contiguous file p) in
  (contains ".exo" file = true -> exists rest, calls = [ImportExodus file; CollapseDegenerate; Renumber] ++ rest /\
     (rest = [] <-> n <= 1) /\ length rest <= 2 /\ (1 < n -> exists d m, hd_error rest = Some (Distribute d layers true m))) /\
  (contains ".exo" file = false -> contains ".par" file = true -> exists rest d, calls = [ImportNemesis file; CollapseDegenerate; Renumber; Weave d layers 1] ++ rest /\
     (rest = [] \/ rest = [RenumberGlobalIDs])) /\
  (contains ".exo" file = false -> contains ".par" file = false -> calls = [] /\ snd (read_file status regions n layers contiguous file p) = Thrown).
Proof.
  intros status regions n layers contiguous file p. unfold read_file, init_mesh_from_file. cbv zeta. split; [|split].
  - intros ->. destruct (Nat.ltb_spec 1 n).
    + destruct contiguous; cbn [fst]; (eexists; split; [reflexivity|]; split; [split; [discriminate|lia]|]; split; [simpl; lia|]; intros _; do 2 eexists; reflexivity).
    + exists []. simpl. split; auto. split; [tauto|]. split; auto. lia.
  - intros -> ->. destruct contiguous; do 2 eexists; (split; [reflexivity|]); auto.
  - intros -> ->. auto.
Qed.
(** the mesh is accepted iff every call of the library that was made reports success (it answers 0 or 1) *)
Theorem c99_errors_are_reported : forall status regions n layers contiguous file p, (forall c, status c = 0%Z \/ status c = 1%Z) ->
  contains ".exo" file = true \/ contains ".par" file = true ->
  (snd (read_file status regions n layers contiguous file p) = Ok tt <->
   forall c, In c (fst (read_file status regions n layers contiguous file p)) ->
     match c with CollapseDegenerate | Renumber => True | _ => status c = 1%Z end) /\
  (snd (read_file status regions n layers contiguous file p) = Ok tt \/ snd (read_file status regions n layers contiguous file p) = Thrown).
Proof.
  intros status regions n layers contiguous file p B Hf. unfold read_file, init_mesh_from_file.
  assert (F : forall z, (if (z =? 0)%Z then Thrown else Ok tt) = Ok tt <-> z <> 0%Z) by (intros z; destruct (Z.eqb_spec z 0); split; congruence).
  assert (D : forall z, (if (z =? 0)%Z then Thrown else Ok tt) = Ok tt \/ (if (z =? 0)%Z then Thrown else Ok tt) = Thrown) by (intros z; destruct (z =? 0)%Z; auto).
  destruct (contains ".exo" file) eqn:Ex; [|destruct (contains ".par" file) eqn:Pa; [|exfalso; intuition congruence]]; cbv zeta;
  [destruct (1 <? n); [destruct contiguous|]|destruct contiguous]; cbn [fst snd app]; (split; [rewrite F|apply D]); clear F D Hf;
  repeat match goal with
  | |- context[status ?c] => let E := fresh "S" in destruct (B c) as [E|E]; rewrite !E
  end; cbn [Z.land];
  (split;
   [intros H c Hc; simpl in Hc; repeat (destruct Hc as [<-|Hc]; [auto; try congruence; try (exfalso; apply H; reflexivity)|]); destruct Hc
   |intros H; try discriminate;
    exfalso; match goal with E : status ?c = 0%Z |- _ => assert (status c = 1%Z) by (apply (H c); simpl; auto 8); congruence end]).
Qed.
(** the partitioner the user asks for has no effect at all: it is always METIS *)
Theorem c99_partitioner_ignored_refuted : forall status regions n layers contiguous file p p',
  read_file status regions n layers contiguous file p = read_file status regions n layers contiguous file p' /\
  (forall d l a m, In (Distribute d l a m) (fst (read_file status regions n layers contiguous file p)) -> m = method_of PMETIS).
Proof.
  intros. split; auto. intros d l a m. unfold read_file, init_mesh_from_file. destruct (contains ".exo" file).
  - destruct (1 <? n); [destruct contiguous|]; simpl; intuition congruence.
  - destruct (contains ".par" file); [destruct contiguous|]; simpl; intuition congruence.
Qed.
(** a Nemesis file whose name contains ".exo" somewhere is read as an Exodus file *)
Definition has_extension (ext s : string) : Prop := exists pre, s = (pre ++ ext)%string.
Theorem c99_extension_refuted : forall status regions n layers contiguous p, has_extension ".par" "mesh.exo.4.0.par" /\
  In (ImportExodus "mesh.exo.4.0.par") (fst (read_file status regions n layers contiguous "mesh.exo.4.0.par" p)).
Proof.
  intros. split; [exists "mesh.exo.4.0"%string; reflexivity|]. unfold read_file, init_mesh_from_file. simpl. destruct (1 <? n); [destruct contiguous|]; simpl; auto.
Qed.
Example c99_calls_witness : forall p, read_file (fun _ => 1%Z) true 4 1 true "box.exo" p =
    ([ImportExodus "box.exo"; CollapseDegenerate; Renumber; Distribute 3 1 true 0; RenumberGlobalIDs], Ok tt) /\
  read_file (fun _ => 1%Z) false 4 1 false "box.par" p = ([ImportNemesis "box.par"; CollapseDegenerate; Renumber; Weave 2 1 1], Ok tt) /\
  read_file (fun c => match c with Weave _ _ _ => 0%Z | _ => 1%Z end) false 4 1 false "box.par" p = ([ImportNemesis "box.par"; CollapseDegenerate; Renumber; Weave 2 1 1], Thrown).
Proof. intros p. repeat split; reflexivity. Qed.

(** * Dimensions *)
Lemma fold_max_ge l : forall a x, In x l \/ x <= a -> x <= fold_left Nat.max l a.
Proof. induction l as [|y l IH]; intros a x H; simpl. { destruct H as [[]|]; auto. } apply IH. destruct H as [[->|H]|H]; auto; right; lia. Qed.
Lemma fold_max_in l : forall a, In (fold_left Nat.max l a) l \/ fold_left Nat.max l a = a.
Proof.
  induction l as [|y l IH]; intros a; simpl; auto. destruct (IH (Nat.max a y)) as [H|H]; auto. destruct (Nat.max_spec a y) as [[_ E]|[_ E]]; rewrite E in H |- *; auto.
Qed.
Lemma max_ge l x : In x l -> x <= allreduce_max l.
Proof. intros H. apply fold_max_ge. auto. Qed.
Lemma max_le l b : (forall x, In x l -> x <= b) -> allreduce_max l <= b.
Proof. intros H. unfold allreduce_max. destruct (fold_max_in l 0) as [Q|Q]; [auto|rewrite Q; lia]. Qed.
Definition has_cells_3D (W : list rank) : Prop := exists r, In r W /\ r_regions r = true.
Lemma max_3 W : has_cells_3D W -> allreduce_max (map cell_dim W) = 3.
Proof.
  intros (r & Hr & E). assert (3 <= allreduce_max (map cell_dim W)). { apply max_ge. apply in_map_iff. exists r. unfold cell_dim. rewrite E. auto. }
  assert (allreduce_max (map cell_dim W) <= 3). { apply max_le. intros x Hx. apply in_map_iff in Hx as (s & <- & _). unfold cell_dim. destruct (r_regions s); lia. }
  lia.
Qed.
Lemma max_2 W : W <> [] -> (forall r, In r W -> r_regions r = false) -> allreduce_max (map cell_dim W) = 2.
Proof.
  intros N H. destruct W as [|r W]; [congruence|]. assert (2 <= allreduce_max (map cell_dim (r :: W))). { apply max_ge. apply in_map_iff. exists r. unfold cell_dim. rewrite (H r (or_introl eq_refl)). simpl. auto. }
  assert (allreduce_max (map cell_dim (r :: W)) <= 2). { apply max_le. intros x Hx. apply in_map_iff in Hx as (s & <- & Hs). unfold cell_dim. rewrite H by auto. lia. }
  lia.
Qed.
Lemma regions_dec W : has_cells_3D W \/ forall r, In r W -> r_regions r = false.
Proof.
  induction W as [|r W IH]. { right. simpl. tauto. } destruct (r_regions r) eqn:E. { left. exists r. simpl. auto. }
  destruct IH as [(s & Hs & Es)|IH]; [left; exists s; simpl; auto|right]. intros s [<-|Hs]; auto.
Qed.
(** whatever the ranks get, those that get dimensions get the same ones *)
Theorem c99_ranks_agree : forall W i j a b, nth_error (set_dimensions W) i = Some (Ok a) -> nth_error (set_dimensions W) j = Some (Ok b) -> a = b.
Proof.
  intros W i j a b. unfold set_dimensions. destruct (allreduce_max (map cell_dim W) =? 2).
  - destruct (mapM rank_space_dim W) eqn:M; rewrite !nth_error_map; destruct (nth_error W i), (nth_error W j); simpl; congruence.
  - rewrite !nth_error_map. destruct (nth_error W i) as [r|], (nth_error W j) as [s|]; simpl; try congruence.
    destruct (cell_dim r =? _), (cell_dim s =? _); congruence.
Qed.
(** a mesh of polyhedra on all ranks is three-dimensional everywhere *)
Theorem c99_space : forall W, W <> [] -> (forall r, In r W -> r_regions r = true) -> set_dimensions W = map (fun _ => Ok (3, 3)) W.
Proof.
  intros W N H. unfold set_dimensions. rewrite max_3. 2:{ destruct W as [|r W]; [congruence|]. exists r. split; [simpl; auto|apply H; simpl; auto]. }
  cbn [Nat.eqb]. apply map_ext_in. intros r Hr. unfold cell_dim. rewrite (H r Hr). auto.
Qed.
(** exactly planar: all vertices of all ranks have the same z *)
Definition all_planar (W : list rank) : Prop := forall r s z z', In r W -> In s W -> In z (r_z r) -> In z' (r_z s) -> (z == z')%Q.
(** two ranks share a vertex, or are linked by a chain of ranks that do *)
Inductive linked (W : list rank) : rank -> rank -> Prop :=
| linked_one r : In r W -> linked W r r
| linked_step r s t z : linked W r s -> In t W -> In z (r_z s) -> In z (r_z t) -> linked W r t.
Lemma rank_dim_2 r d : rank_space_dim r = Ok d -> (d = 2 \/ d = 3) /\ (d = 2 <-> forall z z', In z (r_z r) -> In z' (r_z r) -> (z == z')%Q).
Proof.
  unfold rank_space_dim. destruct (r_z r) as [|z0 l]; [discriminate|]. destruct (forallb (fun z => Qeq_bool z0 z) (z0 :: l)) eqn:F; intros E; injection E as <-.
  - split; auto. split; auto. intros _ z z' H H'. rewrite forallb_forall in F. apply F in H, H'. apply Qeq_bool_iff in H, H'. rewrite <- H. auto.
  - split; auto. split; [discriminate|]. intros H. exfalso. assert (Q : forallb (fun z => Qeq_bool z0 z) (z0 :: l) = true).
    { apply forallb_forall. intros z Hz. apply Qeq_bool_iff. apply H; simpl; auto. } congruence.
Qed.
Lemma mapM_all A B (f : A -> outcome B) l : (forall x, In x l -> exists y, f x = Ok y) -> exists r, mapM f l = Ok r /\ Forall2 (fun x y => f x = Ok y) l r.
Proof.
  induction l as [|a l IH]; intros H. { exists []. split; auto. } destruct (H a (or_introl eq_refl)) as [y Ey]. destruct IH as (r & Er & F). { intros x Hx. apply H. simpl. auto. }
  exists (y :: r). simpl. rewrite Ey, Er. auto.
Qed.
Lemma set_dimensions_2D W : W <> [] -> (forall r, In r W -> r_regions r = false /\ r_z r <> []) ->
  exists d, set_dimensions W = map (fun _ => Ok (2, d)) W /\ (d = 2 \/ d = 3) /\
    (d = 2 <-> forall r z z', In r W -> In z (r_z r) -> In z' (r_z r) -> (z == z')%Q).
Proof.
  intros N H. unfold set_dimensions. rewrite max_2 by (auto; intros r Hr; apply H; auto). cbn [Nat.eqb].
  destruct (@mapM_all _ _ rank_space_dim W) as (ds & E & F). { intros r Hr. unfold rank_space_dim. destruct (H r Hr) as [_ Z]. destruct (r_z r); [congruence|eauto]. }
  rewrite E. exists (allreduce_max ds). split; auto.
  assert (D : forall d, In d ds -> exists r, In r W /\ rank_space_dim r = Ok d).
  { clear -F. induction F as [|x y l l' E F IH]; simpl; [tauto|]. intros d [<-|Hd]; [eauto|]. destruct (IH d Hd) as (r & ? & ?). eauto. }
  assert (D' : forall r, In r W -> exists d, In d ds /\ rank_space_dim r = Ok d).
  { clear -F. induction F as [|x y l l' E F IH]; simpl; [tauto|]. intros d [<-|Hd]; [eauto|]. destruct (IH d Hd) as (r & ? & ?). eauto. }
  assert (R : forall d, In d ds -> d = 2 \/ d = 3). { intros d Hd. destruct (D d Hd) as (r & _ & Er). apply (rank_dim_2 Er). }
  assert (G : 2 <= allreduce_max ds). { destruct W as [|r W]; [congruence|]. destruct (D' r (or_introl eq_refl)) as (d & Hd & _). apply max_ge in Hd as M. destruct (R d Hd); lia. }
  assert (L : allreduce_max ds <= 3) by (apply max_le; intros d Hd; destruct (R d Hd); lia).
  split; [lia|]. split.
  - intros M r z z' Hr. destruct (D' r Hr) as (d & Hd & Er). apply (rank_dim_2 Er). apply max_ge in Hd as Q. destruct (R d Hd); lia.
  - intros P. assert (allreduce_max ds <= 2); [|lia]. apply max_le. intros d Hd. destruct (D d Hd) as (r & Hr & Er). assert (d = 2); [|lia]. apply (rank_dim_2 Er). intros z z'. apply (P r); auto.
Qed.
Theorem c99_planar_partial : forall W, W <> [] -> (forall r, In r W -> r_regions r = false /\ r_z r <> []) -> (forall r s, In r W -> In s W -> linked W r s) ->
  (all_planar W -> set_dimensions W = map (fun _ => Ok (2, 2)) W) /\ (~ all_planar W -> set_dimensions W = map (fun _ => Ok (2, 3)) W).
Proof.
  intros W N H C. destruct (set_dimensions_2D N H) as (d & E & D & P). rewrite E. split.
  - intros A. assert (d = 2) as ->; auto. apply P. intros r z z' Hr. apply (A r r); auto.
  - intros A. destruct D as [->| ->]; auto. exfalso. apply A. assert (P' := proj1 P eq_refl).
    assert (Q : forall r s, linked W r s -> In r W /\ In s W /\ forall z z', In z (r_z r) -> In z' (r_z s) -> (z == z')%Q).
    { intros r s L. induction L as [r Hr|r s t z L IH Ht Hz Hz']. { split; auto. split; auto. intros z z'. apply (P' r); auto. }
      destruct IH as (I1 & I2 & I3). split; auto. split; auto. intros a b Ha Hb. rewrite (I3 a z Ha Hz). apply (P' t); auto. }
    intros r s z z' Hr Hs. apply (Q r s). auto.
Qed.
(** parts on different ranks in parallel planes: taken for a mesh in the plane *)
Theorem c99_parallel_plates_refuted : forall z z' : Q, ~ (z == z')%Q -> let W := [Rank false [z; z; z]; Rank false [z'; z'; z']] in
  ~ all_planar W /\ set_dimensions W = [Ok (2, 2); Ok (2, 2)].
Proof.
  intros z z' N W. split. { intros A. apply N. apply (A (Rank false [z; z; z]) (Rank false [z'; z'; z'])); simpl; auto. }
  destruct (@set_dimensions_2D W) as (d & E & _ & P); [discriminate|intros r [<-|[<-|[]]]; simpl; split; auto; discriminate|].
  rewrite E. assert (d = 2) as ->; auto. apply P. intros r a b [<-|[<-|[]]]; simpl; intuition (subst; reflexivity).
Qed.
(** a rank without regions in a three-dimensional mesh throws, alone; a rank without vertices in a two-dimensional mesh is undefined behaviour *)
Theorem c99_rank_without_cells_refuted : forall W r i, has_cells_3D W -> nth_error W i = Some r -> r_regions r = false ->
  nth_error (set_dimensions W) i = Some Thrown /\ forall j s, nth_error W j = Some s -> r_regions s = true -> nth_error (set_dimensions W) j = Some (Ok (3, 3)).
Proof.
  intros W r i H Hi E. unfold set_dimensions. rewrite max_3 by auto. cbn [Nat.eqb]. split.
  - rewrite nth_error_map, Hi. simpl. unfold cell_dim. rewrite E. auto.
  - intros j s Hj Es. rewrite nth_error_map, Hj. simpl. unfold cell_dim. rewrite Es. auto.
Qed.
Theorem c99_rank_without_vertices_refuted : forall W r, In r W -> (forall s, In s W -> r_regions s = false) -> r_z r = [] -> set_dimensions W = map (fun _ => UB) W.
Proof.
  intros W r Hr H E. unfold set_dimensions. rewrite max_2; [|destruct W; [destruct Hr|discriminate]|auto]. cbn [Nat.eqb].
  destruct (mapM rank_space_dim W) as [ds| | | |] eqn:M; auto. exfalso. revert ds M. induction W as [|s W IH]; [destruct Hr|]. intros ds M. simpl in M.
  apply bind_inv in M as (d & Ed & M). apply bind_inv in M as (ds' & Eds & M). destruct Hr as [->|Hr].
  - unfold rank_space_dim in Ed. rewrite E in Ed. discriminate.
  - apply (IH Hr (fun s Hs => H s (or_intror Hs)) ds' Eds).
Qed.
Example c99_planar_witness : let W := [Rank false [1; 1; 1]; Rank false [1; 1]]%Q in let W' := [Rank false [1; 1; 1]; Rank false [1; 2]]%Q in
  (forall r s, In r W -> In s W -> linked W r s) /\ (forall r s, In r W' -> In s W' -> linked W' r s) /\ all_planar W /\ ~ all_planar W' /\
  set_dimensions W = [Ok (2, 2); Ok (2, 2)] /\ set_dimensions W' = [Ok (2, 3); Ok (2, 3)].
Proof.
  split; [|split; [|split; [|split; [|split; reflexivity]]]].
  - intros r s [<-|[<-|[]]] [<-|[<-|[]]]; try (apply linked_one; simpl; auto; fail); (eapply linked_step with (z := 1%Q); [apply linked_one| | |]; simpl; auto).
  - intros r s [<-|[<-|[]]] [<-|[<-|[]]]; try (apply linked_one; simpl; auto; fail); (eapply linked_step with (z := 1%Q); [apply linked_one| | |]; simpl; auto).
  - intros r s z z' [<-|[<-|[]]] [<-|[<-|[]]]; simpl; intuition (subst; reflexivity).
  - intros A. assert (Q : (1 == 2)%Q). { apply (A (Rank false [1; 1; 1]%Q) (Rank false [1; 2]%Q)); simpl; auto. } discriminate.
Qed.
