(** C88: concrete cases that meet the hypotheses of the theorems of Props_MstkDirs. *)
From Verif Require Import Base Loop Defs Geometry_spec MstkMesh MstkMesh_spec MstkMesh_examples MstkMesh_build MstkWorld_spec MstkWorld_build Props_MstkIds Props_MstkDirs.

Definition world_j (w : world) (r : nat) : jmesh := match construct false false true true (w_mesh w r) (w_rcv w r) with Ok j => j | _ => ex_j end.
Lemma world_j_ok w r : match construct false false true true (w_mesh w r) (w_rcv w r) with Ok _ => true | _ => false end = true ->
  construct false false true true (w_mesh w r) (w_rcv w r) = Ok (world_j w r).
Proof. unfold world_j. destruct (construct _ _ _ _ _ _); try discriminate. auto. Qed.
Lemma two_on r : r < 2 -> on_rank two_ranks r true true (world_j two_ranks r).
Proof.
  intros L. destruct r as [|[|r]]; [| |lia]; (split; [intros []; nodup|apply world_j_ok; vm_compute; reflexivity]).
Qed.
Lemma bare_on r : r < 2 -> on_rank bare_ranks r true true (world_j bare_ranks r).
Proof.
  intros L. destruct r as [|[|r]]; [| |lia]; (split; [intros []; nodup|apply world_j_ok; vm_compute; reflexivity]).
Qed.

(** edge 13 of two_ranks: stored (2, 9) by rank 0, a ghost there, and (9, 2) by its owner, rank 1; both show it from 9 to 2 *)
Example c88_edge_13 : distributed two_ranks /\ valid (world_j two_ranks 0) EDGE 12 /\ valid (world_j two_ranks 1) EDGE 0 /\ GID (world_j two_ranks 0) 12 EDGE = GID (world_j two_ranks 1) 0 EDGE /\
  gev (w_mesh two_ranks 0) 13 <> gev (w_mesh two_ranks 1) 13 /\ edge_gids (world_j two_ranks 0) 12 = Ok [8; 1]%Z /\ edge_gids (world_j two_ranks 1) 0 = Ok [8; 1]%Z.
Proof. split; [exact two_ranks_distributed|]. repeat (split; [first [vm_compute; reflexivity|vm_compute; tauto|vm_compute; congruence]|]); first [vm_compute; reflexivity|vm_compute; tauto|vm_compute; congruence]. Qed.
(** face 9: a ghost on rank 0, stored there the other way round *)
Example c88_face_9 : ghost_layer two_ranks /\ valid (world_j two_ranks 0) FACE 8 /\ valid (world_j two_ranks 1) FACE 2 /\ GID (world_j two_ranks 0) 8 FACE = GID (world_j two_ranks 1) 2 FACE /\
  gfv (w_mesh two_ranks 0) 9 = [2; 9; 10; 6] /\ gfv (w_mesh two_ranks 1) 9 = [2; 6; 10; 9] /\ face_gids (world_j two_ranks 0) 8 = Ok [5; 9; 8; 1]%Z /\ face_gids (world_j two_ranks 1) 2 = Ok [1; 5; 9; 8]%Z.
Proof. split; [exact two_ranks_layer|]. repeat (split; [first [vm_compute; reflexivity|vm_compute; tauto|vm_compute; congruence]|]); first [vm_compute; reflexivity|vm_compute; tauto|vm_compute; congruence]. Qed.
(** both cells use their faces with the same directions on the two ranks, although faces 4 and 9 are stored differently *)
Example c88_cells : cell_face_gids (world_j two_ranks 0) 1 = cell_face_gids (world_j two_ranks 1) 0 /\ cell_face_gids (world_j two_ranks 0) 0 = cell_face_gids (world_j two_ranks 1) 1 /\
  k_rf (w_mesh two_ranks 0) 2 <> k_rf (w_mesh two_ranks 1) 2.
Proof. split; [vm_compute; reflexivity|]. split; [vm_compute; reflexivity|]. vm_compute. congruence. Qed.
(** without ghost cells: face 4 is stored the same way by both ranks, but its ghost copy is shown the other way round *)
Example c88_bare_face_4 : distributed bare_ranks /\ In 3 (entities (world_j bare_ranks 0) FACE PARALLEL_OWNED) /\ In 4 (entities (world_j bare_ranks 1) FACE PARALLEL_GHOST) /\
  GID (world_j bare_ranks 0) 3 FACE = GID (world_j bare_ranks 1) 4 FACE /\
  (forall ho h, behind (world_j bare_ranks 0) FACE 3 ho -> behind (world_j bare_ranks 1) FACE 4 h -> ~ common_cell bare_ranks 0 ho 1 h) /\
  face_gids (world_j bare_ranks 0) 3 = Ok [1; 2; 6; 5]%Z /\ face_gids (world_j bare_ranks 1) 4 = Ok [5; 6; 2; 1]%Z.
Proof.
  split; [exact bare_ranks_distributed|]. split; [vm_compute; tauto|]. split; [vm_compute; tauto|]. split; [vm_compute; reflexivity|]. split; [|split; vm_compute; reflexivity].
  intros ho h A B. vm_compute in A, B. injection A as <-. injection B as <-. apply no_common. intros c c' I I'. vm_compute in I, I'. destruct I as [<-|[]], I' as [<-|[]]. vm_compute. lia.
Qed.
