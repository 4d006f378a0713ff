(** C89: concrete cases that meet the hypotheses of the theorems of Props_MstkFramework. *)
From Coq Require Import Permutation.
From Verif Require Import Base Loop Defs Factory Cache Cache_spec Props_Cache MeshGeom MeshGeom_spec Geometry_spec MstkMesh MstkMesh_spec MstkMesh_examples MstkMesh_build MstkWorld_spec MstkWorld_build Props_MstkIds Props_MstkOrder Props_MstkDirs Props_MstkDirsWitness.
From Verif Require Import MstkFramework_spec MstkGeom Props_MstkFramework.
Set Implicit Arguments. Unset Strict Implicit.

(** the mesh object with sides, wedges and corners over the MSTK mesh of a rank *)
Definition full (j : jmesh) : cmesh := match cache_extra_variables (topo_of j) (close_flags all_on) with Ok M => M | _ => quads_mesh end.
Lemma full_built serial m rcv j : mstk_mesh m -> constructed serial false true true m rcv j -> built (topo_of j) (api_shape j) all_on (full j).
Proof.
  intros W C. destruct (c89_sides_wedges_corners (fl := all_on) W C eq_refl) as (Mc & B & _). unfold full. rewrite (bl_ok B). exact B.
Qed.
Fixpoint remove1 (x : nat * nat) (l : list (nat * nat)) : list (nat * nat) := match l with [] => [] | y :: r => if pair_eqb x y then r else y :: remove1 x r end.
Fixpoint perm_b (l l' : list (nat * nat)) : bool := match l with [] => match l' with [] => true | _ => false end | x :: r => existsb (pair_eqb x) l' && perm_b r (remove1 x l') end.
Lemma remove1_perm x l : existsb (pair_eqb x) l = true -> Permutation l (x :: remove1 x l).
Proof.
  induction l as [|y l IH]; simpl; [discriminate|]. destruct (pair_eqb x y) eqn:Q; [apply pair_eqb_iff in Q as ->; auto|]. intros H. etransitivity; [apply perm_skip, IH; auto|]. apply perm_swap.
Qed.
Lemma perm_b_ok l : forall l', perm_b l l' = true -> Permutation l l'.
Proof.
  induction l as [|x l IH]; intros l' H; simpl in H; [destruct l'; [auto|discriminate]|]. apply andb_prop in H as [A B]. apply remove1_perm in A. symmetry. etransitivity; [exact A|]. apply perm_skip. symmetry. auto.
Qed.
(** the hexahedron and the prism, constructed as a serial mesh: all the hypotheses of c89_oriented_space_partial *)
Definition hp_serial : jmesh := match construct true false true true hp_mesh hp_rcv with Ok j => j | _ => ex_j end.
Example c89_hp_serial : mstk_mesh hp_mesh /\ constructed true false true true hp_mesh hp_rcv hp_serial /\ (forall r, In r (k_all hp_mesh MREGION) -> sealed hp_mesh r) /\
  face_nodes hp_serial 8 = Ok [1; 8; 9; 5] /\ face_edges hp_serial 8 = Ok [(12, 1%Z); (16, 1%Z); (14, (-1)%Z); (9, (-1)%Z)].
Proof.
  split; [exact hp_is_mesh|]. split; [split; [intros []; nodup|apply is_ok_eq; vm_compute; reflexivity]|]. split; [|split; vm_compute; reflexivity].
  intros r I. apply perm_b_ok. destruct I as [<-|[<-|[]]]; vm_compute; reflexivity.
Qed.
(** rank 1 of two_ranks: the prism is owned; face 4, id 7, is a ghost stored the other way round; its side at edge 10, id 14, in the prism *)
Definition r1 : jmesh := world_j two_ranks 1.
Example c89_flipped_face : on_rank two_ranks 1 true true r1 /\ built (topo_of r1) (api_shape r1) all_on (full r1) /\ is_side (full r1) 0 0 7 14 /\ In 0 (entities r1 CELL PARALLEL_OWNED) /\
  behind r1 FACE 7 4 /\ copies two_ranks MFACE 0 4 1 4 /\ k_ptype (w_mesh two_ranks 0) MFACE 4 <> PGHOST /\ ~ same_way two_ranks 0 4 1 4 /\
  (exists fs, cell_faces r1 false 0 = Ok fs /\ In (7, (-1)%Z) fs) /\ side_get_node (full r1) 0 0 = Ok 3 /\ side_get_node (full r1) 0 1 = Ok 7 /\
  face_nodes r1 7 = Ok [4; 8; 7; 3].
Proof.
  pose proof (@two_on 1 ltac:(lia)) as C. split; [exact C|]. split; [apply (full_built (d_mesh two_ranks_distributed 1) C)|].
  split; [unfold is_side; split; [vm_compute; lia|]; split; [vm_compute; reflexivity|]; split; vm_compute; reflexivity|].
  split; [vm_compute; tauto|]. split; [vm_compute; reflexivity|]. split; [unfold copies; split; [vm_compute; tauto|]; split; [vm_compute; tauto|vm_compute; reflexivity]|]. split; [vm_compute; congruence|].
  split; [intros Q; apply cycle_b_iff in Q; vm_compute in Q; discriminate|].
  split; [eexists; split; [vm_compute; reflexivity|]; simpl; tauto|]. split; [vm_compute; reflexivity|]. split; vm_compute; reflexivity.
Qed.
(** a side of a face that rank 1 owns (face 10, id 3) *)
Example c89_owned_face : In 3 (entities r1 FACE PARALLEL_OWNED) /\ is_side (full r1) 14 0 3 1 /\ side_get_node (full r1) 14 0 = Ok 4 /\ side_get_node (full r1) 14 1 = Ok 0 /\ face_nodes r1 3 = Ok [0; 4; 8; 1] /\
  (exists fs, cell_faces r1 false 0 = Ok fs /\ In (3, 1%Z) fs).
Proof.
  split; [vm_compute; tauto|]. split; [unfold is_side; split; [vm_compute; lia|]; split; [vm_compute; reflexivity|]; split; vm_compute; reflexivity|].
  split; [vm_compute; reflexivity|]. split; [vm_compute; reflexivity|]. split; [vm_compute; reflexivity|]. eexists; split; [vm_compute; reflexivity|]; simpl; tauto.
Qed.

(** ** in the plane: two triangles 1 2 3 and 1 3 4 on two ranks, with ghosts; rank 1 stores the common edge 3 from 1 to 3, its owner, rank 0, from 3 to 1 *)
Local Notation T := true. Local Notation F := false.
Definition q_all (k : mkind) : list nat := match k with MVERTEX => seq 1 4 | MEDGE => seq 1 5 | MFACE => [1; 2] | MREGION => [] end.
Definition q_ev0 : nat -> nat * nat := tbl (0, 0) [(1, 2); (2, 3); (3, 1); (3, 4); (4, 1)].
Definition q_ev1 (e : nat) : nat * nat := if e =? 3 then (1, 3) else q_ev0 e.
Definition q_fe (b : bool) : nat -> list (nat * bool) := tbl [] [[(1, T); (2, T); (3, b)]; [(3, negb b); (4, T); (5, T)]].
Definition q_own0 (k : mkind) (h : nat) : bool := match k with MVERTEX => h <=? 3 | MEDGE => h <=? 3 | _ => h =? 1 end.
Definition q_meshes (r : nat) : mstk := match r with
  | 0 => mesh_of 2 q_all (fun k h => if q_own0 k h then POVERLAP else PGHOST) (fun _ h => h) q_ev0 (q_fe T) (fun _ => [])
  | 1 => mesh_of 2 q_all (fun k h => if q_own0 k h then PGHOST else POVERLAP) (fun _ h => h) q_ev1 (q_fe F) (fun _ => [])
  | _ => mesh_of 2 (fun _ => []) (fun _ _ => PINTERIOR) (fun _ h => h) (fun _ => (0, 0)) (fun _ => []) (fun _ => []) end.
Definition q_ranks : world := World q_meshes (fun r k h => sent (q_meshes (1 - r)) k h).
Lemma q_meshes_ok r : mstk_mesh (w_mesh q_ranks r).
Proof. destruct r as [|[|r]]; [apply mesh_check_ok; vm_compute; reflexivity|apply mesh_check_ok; vm_compute; reflexivity|apply mesh_check_ok; reflexivity]. Qed.
Lemma q_meshes_out r : 2 <= r -> k_dim (w_mesh q_ranks r) = 2 /\ forall k, k_all (w_mesh q_ranks r) k = [].
Proof. intros L. destruct r as [|[|r]]; try lia. split; [reflexivity|]. intros k. reflexivity. Qed.
Lemma q_ranks_distributed : distributed q_ranks.
Proof. apply (@world_check_ok q_ranks 2 2 q_meshes_ok q_meshes_out). vm_compute. reflexivity. Qed.
Definition q1 : jmesh := world_j q_ranks 1.
Lemma q1_on : on_rank q_ranks 1 true true q1.
Proof. split; [intros []; nodup|apply world_j_ok; vm_compute; reflexivity]. Qed.
(** cell 0 is the triangle 1 3 4 that rank 1 owns (nodes 1, 3, 0); edge 3 (id 4) is shown from 3 to 1, and the cell is said to use it forwards *)
Example c89_plane_edge : valid q1 CELL 0 /\ In 0 (entities q1 CELL PARALLEL_OWNED) /\ behind q1 EDGE 4 3 /\ copies q_ranks MEDGE 0 3 1 3 /\ k_ptype (w_mesh q_ranks 0) MEDGE 3 <> PGHOST /\ gev (w_mesh q_ranks 0) 3 <> gev (w_mesh q_ranks 1) 3 /\
  (exists l, cell_2D_edges q1 0 = Ok l /\ In (4, 1%Z) l) /\ cell_nodes q1 0 = Ok [1; 3; 0] /\ edge_nodes q1 4 = Ok (3, 1).
Proof.
  split; [vm_compute; tauto|]. split; [vm_compute; tauto|]. split; [vm_compute; reflexivity|]. split; [unfold copies; split; [vm_compute; tauto|]; split; [vm_compute; tauto|vm_compute; reflexivity]|]. split; [vm_compute; congruence|]. split; [vm_compute; congruence|].
  split; [eexists; split; [vm_compute; reflexivity|]; simpl; tauto|]. split; vm_compute; reflexivity.
Qed.
(** the sides of that cell in the plane *)
Example c89_plane_side : built (topo_of q1) (api_shape q1) all_on (full q1) /\ is_side (full q1) 0 0 4 4 /\ side_get_node (full q1) 0 0 = Ok 1 /\ side_get_node (full q1) 0 1 = Ok 3.
Proof.
  split; [apply (full_built (d_mesh q_ranks_distributed 1) q1_on)|]. split; [unfold is_side; split; [vm_compute; lia|]; split; [vm_compute; reflexivity|]; split; vm_compute; reflexivity|]. split; vm_compute; reflexivity.
Qed.
