(** Model of the parents of ghost entities in a parallel extraction: the second half of Mesh_MSTK::extract_mstk_mesh,
    src/mesh/mesh_mstk/Mesh_MSTK.cc:990-1113 (the part [if (!serial_run)], after MSTK has woven the ranks' new meshes together). *)
From Verif Require Import Base Loop MstkMesh.
Set Implicit Arguments. Unset Strict Implicit.

(** One rank's part of the mesh that is extracted from: the entities on the rank and their global ids (MV_GlobalID etc.). *)
Record brank := BRank { b_ents : mkind -> list nat; b_gid : mkind -> nat -> nat }.
(** One rank's part of the new mesh after weaving: the entities the rank made itself, with their parents (the attributes vparentatt etc.; None is null), which
    of them MSTK marks as used by other ranks (POVERLAP), and the ghosts, each with the rank and the handle of its original. *)
Record xrank := XRank { x_own : mkind -> list nat; x_parent : mkind -> nat -> option nat; x_overlap : mkind -> nat -> bool; x_ghosts : mkind -> list (nat * (nat * nat)) }.
(** MESH_VertexFromGlobalID etc. in the mesh that is extracted from *)
Definition from_gid (b : brank) (k : mkind) (g : nat) : option nat := find (fun h => b_gid b k h =? g) (b_ents b k).
(** setting the attribute vparent_gid etc. of the entities used elsewhere, Mesh_MSTK.cc:1006-1041: the id of the parent; MV_GlobalID of a null parent *)
Definition set_gids (b : brank) (x : xrank) (k : mkind) : outcome (list (nat * nat)) :=
  mapM (fun h => match x_parent x k h with Some p => Ok (h, b_gid b k p) | None => UB end) (filter (x_overlap x k) (x_own x k)).
(** the attribute's value at [h]: 0 where none was set *)
Definition att_val (t : list (nat * nat)) (h : nat) : nat := match find (fun e => fst e =? h) t with Some e => snd e | None => 0 end.
Definition kinds : list mkind := [MVERTEX; MEDGE; MFACE; MREGION].
(** the attributes of one rank *)
Definition rank_gids (bx : brank * xrank) : outcome (list (mkind * list (nat * nat))) :=
  mapM (fun k => t <- set_gids (fst bx) (snd bx) k ;; Ok (k, t)) kinds.
Definition gids_of (T : list (mkind * list (nat * nat))) (k : mkind) : list (nat * nat) :=
  match find (fun e => mkind_eqb (fst e) k) T with Some e => snd e | None => [] end.
(** MESH_UpdateAttributes gives a ghost the value of its original, Mesh_MSTK.cc:1043-1046; the loops over the ghosts, 1048-1107: the entity with that id on
    this rank becomes the parent, an error if there is none *)
Definition ghost_parents (G : list (list (mkind * list (nat * nat)))) (b : brank) (x : xrank) (k : mkind) : outcome (list (nat * nat)) :=
  mapM (fun g => let '(h, (p, e)) := g in
    T <- rd G p ;;
    match from_gid b k (att_val (gids_of T k) e) with Some u => Ok (h, u) | None => Thrown end) (x_ghosts x k).
Definition rank_parents (G : list (list (mkind * list (nat * nat)))) (bx : brank * xrank) : outcome (list (mkind * list (nat * nat))) :=
  mapM (fun k => t <- ghost_parents G (fst bx) (snd bx) k ;; Ok (k, t)) kinds.
(** all ranks; simplification: the ranks run one after the other between the collective calls, an error on one rank is the result *)
Definition build_parents (W : list (brank * xrank)) : outcome (list (list (mkind * list (nat * nat)))) :=
  G <- mapM rank_gids W ;; mapM (rank_parents G) W.
(** the parent attribute afterwards: set at the ghosts, unchanged elsewhere *)
Definition parent_after (x : xrank) (T : list (mkind * list (nat * nat))) (k : mkind) (h : nat) : option nat :=
  match find (fun e => fst e =? h) (gids_of T k) with Some e => Some (snd e) | None => x_parent x k h end.
