(** A concrete mesh in space: a triangular prism (cell 0, nodes 0..5) with a tetrahedron on top (cell 1, nodes 3..6). *)
From Coq Require Import Reals Permutation Lra.
From Verif Require Import Base Loop Defs Factory Cache Cache_spec Cache_proofs Cache_proofs5 Props_Cache Point Geometry Geometry_spec Geometry_proofs Props_Polygon MeshGeom MeshGeom_spec MeshGeom_examples.
Set Implicit Arguments.

(** deciding permutations of pairs of numbers *)
Definition eqp (x y : nat * nat) : bool := (fst x =? fst y) && (snd x =? snd y).
Fixpoint take (x : nat * nat) (r : list (nat * nat)) : option (list (nat * nat)) :=
  match r with [] => None | y :: r => if eqp x y then Some r else match take x r with Some r' => Some (y :: r') | None => None end end.
Fixpoint permb (l r : list (nat * nat)) : bool :=
  match l with [] => match r with [] => true | _ => false end | x :: l => match take x r with Some r' => permb l r' | None => false end end.
Lemma take_ok x r r' : take x r = Some r' -> Permutation (x :: r') r.
Proof.
  revert r'. induction r as [|y r IH]; intros r' E; [discriminate|]. cbn in E. unfold eqp in E. destruct (Nat.eqb_spec (fst x) (fst y)), (Nat.eqb_spec (snd x) (snd y)); cbn in E;
  try (destruct (take x r) eqn:T; [|discriminate]; injection E as <-; eapply perm_trans; [apply perm_swap|apply perm_skip; apply IH; auto]).
  destruct x, y; cbn in *; subst. injection E as ->. reflexivity.
Qed.
Lemma permb_ok l : forall r, permb l r = true -> Permutation l r.
Proof.
  induction l as [|x l IH]; intros r E; cbn in E; [destruct r; [constructor|discriminate]|]. destruct (take x r) as [r'|] eqn:T; [|discriminate].
  eapply perm_trans; [apply perm_skip; apply IH; eauto|apply take_ok; auto].
Qed.

Definition tower_fn (f : nat) : list nat := nth f [[0; 2; 1]; [3; 4; 5]; [0; 1; 4; 3]; [1; 2; 5; 4]; [2; 0; 3; 5]; [3; 4; 6]; [4; 5; 6]; [5; 3; 6]] [].
Definition tower_shape : shape := Shape
  (fun c => match c with 0 => [(0, 1%Z); (1, 1%Z); (2, 1%Z); (3, 1%Z); (4, 1%Z)] | _ => [(1, (-1)%Z); (5, 1%Z); (6, 1%Z); (7, 1%Z)] end)
  (fun f => nth f [[(2, (-1)%Z); (1, (-1)%Z); (0, (-1)%Z)]; [(3, 1%Z); (4, 1%Z); (5, 1%Z)]; [(0, 1%Z); (7, 1%Z); (3, (-1)%Z); (6, (-1)%Z)]; [(1, 1%Z); (8, 1%Z); (4, (-1)%Z); (7, (-1)%Z)]; [(2, 1%Z); (6, 1%Z); (5, (-1)%Z); (8, (-1)%Z)];
                   [(3, 1%Z); (10, 1%Z); (9, (-1)%Z)]; [(4, 1%Z); (11, 1%Z); (10, (-1)%Z)]; [(5, 1%Z); (9, 1%Z); (11, (-1)%Z)]] [])
  (fun e => nth e [(0, 1); (1, 2); (2, 0); (3, 4); (4, 5); (5, 3); (0, 3); (1, 4); (2, 5); (3, 6); (4, 6); (5, 6)] (0, 0))
  (fun c => match c with 0 => [0; 1; 2; 3; 4; 5] | _ => [3; 4; 5; 6] end).
Definition tower_fcells (f : nat) : list nat := nth f [[0]; [0; 1]; [0]; [0]; [0]; [1]; [1]; [1]] [].
Definition tower : topo := Topo 3 [0] [1] [] [0; 1; 2; 3; 4; 5] [6] [0; 1; 2; 3; 4] [5; 6; 7] [0; 1; 2; 3; 4; 5; 6; 7; 8] [9; 10; 11]
  (fun c => Ok (cfaces tower_shape c)) (fun f => Ok (tower_fcells f)) (fun f => Ok (fedges tower_shape f))
  (fun e => Ok (enodes tower_shape e)) (fun c => Ok (cnodes tower_shape c)).
Example tower_counts : ncells tower = 2 /\ nfaces tower = 8 /\ nedges tower = 12 /\ nnodes tower = 7.
Proof. repeat split. Qed.
Lemma lt_ind8 (P : nat -> Prop) : P 0 -> P 1 -> P 2 -> P 3 -> P 4 -> P 5 -> P 6 -> P 7 -> forall n, n < 8 -> P n.
Proof. intros. do 8 (destruct n as [|n]; [assumption|]). lia. Qed.
Ltac pair_in H := repeat (destruct H as [H|H]; [try (injection H as <- <-)|]); [..|destruct H].
Example tower_framework_mesh : framework_mesh tower tower_shape.
Proof.
  apply fm_nd; [right; reflexivity| | |].
  - assert (P : forall l n, NoDup l -> (forall x, In x l -> x < n) -> length l = n -> Permutation l (seq 0 n)).
    { intros l n ND H L. apply NoDup_Permutation_bis; auto. - rewrite seq_length. lia. - intros x Hx. apply in_seq. specialize (H x Hx). lia. }
    constructor; (apply P; [vm_compute; repeat constructor; simpl; intuition lia| |reflexivity]);
      intros x Hx; vm_compute in Hx; vm_compute; intuition lia.
  - constructor.
    + intros c f d Hc H. change (nfaces tower) with 8. quads_cell c Hc; cbn in H; pair_in H; (split; [lia|unfold is_dir; auto]).
    + intros c Hc. quads_cell c Hc; cbn; repeat constructor; simpl; intuition lia.
    + intros f e d Hf. change (nedges tower) with 12. change (nfaces tower) with 8 in Hf. revert f Hf.
      apply (@lt_ind8 (fun f => In (e, d) (fedges tower_shape f) -> e < 12 /\ is_dir d)); intros H; cbn in H; pair_in H; (split; [lia|unfold is_dir; auto]).
    + intros f Hf. change (nfaces tower) with 8 in Hf. revert f Hf. apply (@lt_ind8 (fun f => NoDup (map fst (fedges tower_shape f)))); simpl; repeat constructor; simpl; intuition lia.
    + intros c1 c2 c3 f H1 H2 H3 _ _ _. change (ncells tower) with 2 in *. lia.
  - constructor; try reflexivity. intros f Hf. exists (tower_fcells f). split; [reflexivity|].
    revert f Hf. change (nfaces tower) with 8. apply lt_ind8; vm_compute; lia.
Qed.
Example tower_nodes : node_consistent tower tower_shape.
Proof.
  constructor.
  - intros c Hc. quads_cell c Hc; cbn; repeat constructor; simpl; intuition lia.
  - intros c n Hc H. change (nnodes tower) with 7. quads_cell c Hc; cbn in H; intuition lia.
  - intros c f e [Hc [Hf He]]. unfold face_of, edge_of in *. quads_cell c Hc; cbn in Hf; repeat (destruct Hf as [<-|Hf]; [|]); try destruct Hf; cbn in He; repeat (destruct He as [<-|He]; [|]); try destruct He; cbn; auto 10.
  - intros c n Hc H.
    assert (TR : forall f e, face_of tower_shape c f -> edge_of tower_shape f e -> tri tower tower_shape c f e) by (intros f e Hf; split; [auto|split; [auto|auto]]).
    quads_cell c Hc; cbn in H; repeat (destruct H as [<-|H]; [|]); try destruct H.
    + exists 2, 0. split; [apply TR; cbn; auto|cbn; auto].
    + exists 2, 0. split; [apply TR; cbn; auto|cbn; auto].
    + exists 3, 1. split; [apply TR; cbn; auto|cbn; auto].
    + exists 1, 3. split; [apply TR; cbn; auto|cbn; auto].
    + exists 1, 3. split; [apply TR; cbn; auto|cbn; auto].
    + exists 1, 4. split; [apply TR; cbn; auto|cbn; auto].
    + exists 1, 3. split; [apply TR; cbn; auto|cbn; auto].
    + exists 1, 3. split; [apply TR; cbn; auto|cbn; auto].
    + exists 1, 4. split; [apply TR; cbn; auto|cbn; auto].
    + exists 5, 9. split; [apply TR; cbn; auto|cbn; auto].
Qed.
Example tower_dirs : opposite_dirs tower tower_shape.
Proof.
  intros c1 c2 f d1 d2 H1 H2 N I1 I2. quads_cell c1 H1; quads_cell c2 H2; try congruence; cbn in I1, I2;
    intuition; repeat match goal with E : (_, _) = (_, _) |- _ => injection E; clear E; intros; subst end; try congruence; auto.
Qed.
Definition tower_mesh : cmesh := match cache_extra_variables tower (close_flags all_on) with Ok m => m | _ => CMesh tower all_on [] [] None None None None None None None None None end.
Example tower_built : built tower tower_shape all_on tower_mesh.
Proof.
  constructor; [exact tower_framework_mesh|reflexivity|intros _; exact tower_nodes|].
  destruct (@build_spec tower tower_shape all_on tower_framework_mesh eq_refl (fun _ => tower_nodes)) as [m [E _]].
  unfold tower_mesh. rewrite E. reflexivity.
Qed.
Definition tower_g : gmesh := GMesh tower_mesh 3 CARTESIAN (fun f => Ok (tower_fn f)) (fun c => Ok (cnodes tower_shape c)).
Lemma tower_geom : geom_mesh tower tower_shape all_on tower_g tower_fn (cnodes tower_shape).
Proof.
  constructor.
  - exact tower_built.
  - right. reflexivity.
  - reflexivity.
  - intros f Hf. split; auto. change (nfaces tower) with 8 in Hf. change (nnodes tower) with 7. revert f Hf.
    apply (@lt_ind8 (fun f => forall n, In n (tower_fn f) -> (n < 7))); intros n H; simpl in H; lia.
  - intros c Hc. split; auto. intros n I. change (nnodes tower) with 7. quads_cell c Hc; simpl in I; lia.
  - intros e He. change (nedges tower) with 12 in He. change (nnodes tower) with 7.
    do 12 (destruct e as [|e]; [simpl; lia|]). lia.
  - intros f Hf. exists (tower_fcells f). split; [reflexivity|]. intros c. change (ncells tower) with 2. change (nfaces tower) with 8 in Hf.
    assert (E : (c < 2) /\ face_of tower_shape c f <-> c = 0 /\ face_of tower_shape 0 f \/ c = 1 /\ face_of tower_shape 1 f).
    { split; [intros [L H]; destruct c as [|[|c]]; [left|right|lia]; auto|intros [[-> H]|[-> H]]; split; auto]. }
    rewrite E. clear E. revert f Hf. apply lt_ind8; unfold face_of; simpl; lia.
  - discriminate.
Qed.
Lemma tower_oriented : oriented tower tower_shape tower_fn (cnodes tower_shape).
Proof.
  constructor; try discriminate.
  - intros _ f Hf. change (nfaces tower) with 8 in Hf. revert f Hf.
    apply (@lt_ind8 (fun f => 3 <= length (tower_fn f) /\ Permutation (map (along tower_shape) (fedges tower_shape f)) (edges (tower_fn f)))); (split; [simpl; lia|apply permb_ok; reflexivity]).
  - intros _ c Hc. quads_cell c Hc; apply permb_ok; reflexivity.
Qed.
Lemma tower_tet : tet_cell tower_shape tower_fn (cnodes tower_shape 1) 1.
Proof.
  exists 3, 4, 5, 6. eexists. split; [reflexivity|]. split; [reflexivity|]. repeat constructor; apply permb_ok; reflexivity.
Qed.
Lemma quads_oriented : oriented quads quads_shape quads_fn (cnodes quads_shape).
Proof.
  constructor; try discriminate.
  - intros _ f Hf. exists f, 1%Z. split; reflexivity.
  - intros _ c Hc. quads_cell c Hc; (split; [simpl; lia|apply permb_ok; reflexivity]).
Qed.
Local Open Scope R_scope.
Definition tower_X : coordinates := [Pt 3 0 0 0; Pt 3 1 0 0; Pt 3 0 1 0; Pt 3 0 0 1; Pt 3 1 0 1; Pt 3 0 1 1; Pt 3 0 0 2].
Lemma tower_coords : coords_ok tower tower_X.
Proof. split; [reflexivity|]. intros p H. simpl in H. intuition; subst; reflexivity. Qed.
Lemma tower_flat f : (f < nfaces tower)%nat -> flat (at_nodes tower_X (tower_fn f)).
Proof.
  intros Hf. change (nfaces tower) with 8%nat in Hf. revert f Hf.
  assert (P : forall n l, dot3 n n <> 0 -> planar n l -> flat l) by (intros n l A B; right; exists n; auto).
  apply (@lt_ind8 (fun f => flat (at_nodes tower_X (tower_fn f)))); try (left; reflexivity).
  - apply P with (n := Pt 3 0 1 0); [unfold dot3; cbn; lra|]. intros a b Ha Hb. cbn in Ha, Hb. intuition; subst; unfold dot3; cbn; lra.
  - apply P with (n := Pt 3 1 1 0); [unfold dot3; cbn; lra|]. intros a b Ha Hb. cbn in Ha, Hb. intuition; subst; unfold dot3; cbn; lra.
  - apply P with (n := Pt 3 1 0 0); [unfold dot3; cbn; lra|]. intros a b Ha Hb. cbn in Ha, Hb. intuition; subst; unfold dot3; cbn; lra.
Qed.
(** both cells are convex with outward faces *)
Ltac in_cases Ht := repeat (destruct Ht as [<-|Ht]; [|]); [..|destruct Ht].
Lemma tower_convex0 : convex_outward (at_nodes tower_X (cnodes tower_shape 0)) (out_faces tower_shape tower_fn tower_X 0).
Proof.
  intros t0 Ht. cbn in Ht. in_cases Ht; (split; [intros v Hv; cbn in Hv; in_cases Hv; unfold tdet, det3, mean, sum_of; cbn; lra|]);
  first [exists (Pt 3 0 0 0); split; [cbn; auto 10|unfold tdet, det3, mean, sum_of; cbn; lra]|exists (Pt 3 1 0 0); split; [cbn; auto 10|unfold tdet, det3, mean, sum_of; cbn; lra]
        |exists (Pt 3 0 1 0); split; [cbn; auto 10|unfold tdet, det3, mean, sum_of; cbn; lra]|exists (Pt 3 0 0 1); split; [cbn; auto 10|unfold tdet, det3, mean, sum_of; cbn; lra]].
Qed.
