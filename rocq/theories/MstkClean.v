(** Model of what an extraction leaves behind in the mesh that is extracted from: the attribute "copyatt" of its entities, made in Mesh_MSTK.cc:797, read and
    set while entities are copied (MstkExtract.v), removed by the clean-up at the end of Mesh_MSTK::extract_mstk_mesh, src/mesh/mesh_mstk/Mesh_MSTK.cc:1121-1206;
    and of a history of extractions from the same mesh. *)
From Verif Require Import Base Loop Factory MstkMesh MstkExtract.
Set Implicit Arguments. Unset Strict Implicit.

(** the values of "copyatt": the copy of an entity, if it has one *)
Definition marks : Type := mkind -> nat -> option nat.
Definition no_marks : marks := fun _ _ => None.
(** MEnt_Rem_AttVal(h, copyatt) *)
Definition rem_cp (c : marks) (k : mkind) (h : nat) : marks := fun k' h' => if mkind_eqb k' k && (h' =? h) then None else c k' h'.

Section Clean.
Variable m : mstk.
(** a face of a region, Mesh_MSTK.cc:1132-1145; the value of the face itself is removed before and after its vertices *)
Definition clean_vface (c : marks) (f : nat) : marks := rem_cp (fold_left (fun c v => rem_cp c MVERTEX v) (k_fv m f) (rem_cp c MFACE f)) MFACE f.
(** a region, Mesh_MSTK.cc:1127-1150 *)
Definition clean_region (c : marks) (r : nat) : marks := rem_cp (fold_left clean_vface (map fst (k_rf m r)) c) MREGION r.
(** an edge of a face: of its vertices only ME_Vertex(me, MF_EdgeDir_i(mf, j)), Mesh_MSTK.cc:1161-1167 *)
Definition clean_edge (c : marks) (ed : nat * bool) : marks :=
  rem_cp (rem_cp c MEDGE (fst ed)) MVERTEX (if snd ed then snd (k_ev m (fst ed)) else fst (k_ev m (fst ed))).
(** a face, Mesh_MSTK.cc:1156-1171 *)
Definition clean_sface (c : marks) (f : nat) : marks := rem_cp (fold_left clean_edge (k_fe m f) c) MFACE f.
(** the switch, Mesh_MSTK.cc:1123-1206; the cases MEDGE and MVERTEX are not reached, the constructor has thrown *)
Definition clean_up (dim : mkind) (src : list nat) (c : marks) : marks :=
  match dim with MREGION => fold_left clean_region src c | MFACE => fold_left clean_sface src c | _ => c end.
End Clean.

(** extract_mstk_mesh up to the new mesh (MstkExtract.extract_mstk_mesh, Mesh_MSTK.cc:719-961) on a mesh that already has values of "copyatt" *)
Definition extract_with (MAXPF3 MAXPV2 : nat) (m : mstk) (X : nat -> xyz) (c : marks) (flatten : bool) (dim : mkind) (extrude : bool) (src : list nat) : outcome xstate :=
  if extrude then Thrown else
  if flatten && (mkind_eqb dim MREGION || mkind_eqb dim MVERTEX) then Thrown else
  match dim with
  | MEDGE => Thrown
  | MVERTEX => Thrown
  | MREGION => foldM src (copy_region MAXPF3 MAXPV2 m X) (XState no_xmesh c)
  | MFACE => foldM src (copy_sface MAXPV2 m X flatten) (XState no_xmesh c)
  end.
(** One request for an extraction.  [q_ok]: nothing throws between the copying and the clean-up, Mesh_MSTK.cc:990-1118 (weaving, parents of ghosts, labeled sets,
    post_create_steps_). *)
Record request := Request { q_flatten : bool; q_dim : mkind; q_extrude : bool; q_src : list nat; q_ok : bool }.
(** what the caller gets, and the marks on the mesh that was extracted from: nothing is copied if the request is refused; whatever was copied keeps its mark if
    something throws later, Mesh_MSTK.cc:1056, 1068, 1080, 1092 and the calls between.  After undefined behaviour the marks are left as they were (simplification). *)
Definition serve (MAXPF3 MAXPV2 : nat) (m : mstk) (X : nat -> xyz) (c : marks) (q : request) : outcome xmesh * marks :=
  match extract_with MAXPF3 MAXPV2 m X c (q_flatten q) (q_dim q) (q_extrude q) (q_src q) with
  | Ok s => if q_ok q then (Ok (x_mesh s), clean_up m (q_dim q) (q_src q) (cp s)) else (Thrown, cp s)
  | UB => (UB, c) | Thrown => (Thrown, c) | AssertFail => (AssertFail, c) | OutOfFuel => (OutOfFuel, c)
  end.
(** requests one after the other on the same mesh.  MAttrib_New(inmesh_mstk, "copyatt", ...) of a name that is there is taken to give the attribute that is there
    (MSTK's MESH_AttribByName). *)
Fixpoint history (MAXPF3 MAXPV2 : nat) (m : mstk) (X : nat -> xyz) (c : marks) (qs : list request) : list (outcome xmesh) * marks :=
  match qs with
  | [] => ([], c)
  | q :: r => let '(a, c) := serve MAXPF3 MAXPV2 m X c q in let '(l, c) := history MAXPF3 MAXPV2 m X c r in (a :: l, c)
  end.
