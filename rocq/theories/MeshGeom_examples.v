(** A concrete mesh with coordinates: the two quads of Props_Cache, squares of side h. *)
From Coq Require Import Reals Permutation Lra.
From Verif Require Import Base Loop Defs Factory Cache Cache_spec Props_Cache Point Geometry Geometry_spec Geometry_proofs Props_Polygon MeshGeom MeshGeom_spec.
Set Implicit Arguments.
Local Open Scope R_scope.

Definition edge_list (e : nat * nat) : list nat := [fst e; snd e].
Definition quads_fn (f : nat) : list nat := edge_list (enodes quads_shape f).
Definition quads_g : gmesh := GMesh quads_mesh 2 CARTESIAN (fun f => Ok (quads_fn f)) (fun c => Ok (cnodes quads_shape c)).
Definition quads_X (h : R) : coordinates := [Pt 2 0 0 0; Pt 2 h 0 0; Pt 2 (2 * h) 0 0; Pt 2 0 h 0; Pt 2 h h 0; Pt 2 (2 * h) h 0].
Lemma quads_coords h : coords_ok quads (quads_X h).
Proof. split; [reflexivity|]. intros p H. simpl in H. intuition; subst; reflexivity. Qed.
Lemma quads_geom : geom_mesh quads quads_shape all_on quads_g quads_fn (cnodes quads_shape).
Proof.
  constructor.
  - exact quads_built.
  - left. reflexivity.
  - reflexivity.
  - intros f Hf. split; auto. change (nfaces quads) with 7%nat in Hf. change (nnodes quads) with 6%nat. revert f Hf.
    apply (@lt_ind7 (fun f => forall n, In n (quads_fn f) -> (n < 6)%nat)); intros n H; simpl in H; lia.
  - intros c Hc. split; auto. intros n I. change (nnodes quads) with 6%nat. quads_cell c Hc; simpl in I; lia.
  - intros e He. change (nedges quads) with 7%nat in He. change (nnodes quads) with 6%nat. revert e He.
    apply (@lt_ind7 (fun e => fst (enodes quads_shape e) < 6 /\ snd (enodes quads_shape e) < 6)%nat); simpl; lia.
  - intros f Hf. exists (quads_fcells f). split; [reflexivity|]. intros c. change (ncells quads) with 2%nat. change (nfaces quads) with 7%nat in Hf.
    assert (E : (c < 2)%nat /\ face_of quads_shape c f <-> c = 0%nat /\ face_of quads_shape 0 f \/ c = 1%nat /\ face_of quads_shape 1 f).
    { split; [intros [L H]; destruct c as [|[|c]]; [left|right|lia]; auto|intros [[-> H]|[-> H]]; split; auto]. }
    rewrite E. clear E. revert f Hf. apply lt_ind7; unfold face_of; simpl; lia.
  - reflexivity.
Qed.
(** the first cell: a square of side h *)
Lemma quads_cell0 h : 0 < h -> polygon 2 2 (at_nodes (quads_X h) (cnodes quads_shape 0)) = Ok (h * h, Pt 2 (h / 2) (h / 2) 0, Pt 2 (h * h) 0 0).
Proof.
  intros P. destruct (@c48_plane_exact (at_nodes (quads_X h) (cnodes quads_shape 0))) as [A E].
  - simpl. lia.
  - intros p H. simpl in H. intuition; subst; reflexivity.
  - intros e H. unfold mean, tri_area. cbn in H. intuition; subst; cbn; nra.
  - rewrite E. assert (S1 : shoelace (at_nodes (quads_X h) (cnodes quads_shape 0)) = h * h) by (unfold shoelace, sum_of, wedge2; cbn; field).
    unfold centroid_x, centroid_y. rewrite S1. unfold sum_of, wedge2. cbn. do 3 f_equal. f_equal; field; lra.
Qed.
