(** Model of the collapsing of degenerate edges: Mesh_MSTK::collapse_degen_edges, src/mesh/mesh_mstk/Mesh_MSTK.cc:4212-4431, called right after an Exodus or
    Nemesis file has been read (Mesh_MSTK.cc:77, 108).  MSTK's ME_Collapse is a parameter; the theorems say what they assume about it. *)
From Coq Require Import QArith.
From Verif Require Import Base Loop.
Set Implicit Arguments. Unset Strict Implicit.
Open Scope nat_scope.

(** MType: MVERTEX, MEDGE, MFACE, MREGION.  MSTK's fifth value MDELETED is [None] in [option mtype] below. *)
Inductive mtype := MVERTEX | MEDGE | MFACE | MREGION.
Definition mtype_eqb (a b : mtype) : bool :=
  match a, b with MVERTEX, MVERTEX | MEDGE, MEDGE | MFACE, MFACE | MREGION, MREGION => true | _, _ => false end.
(** an entity: the type it was created with (MEnt_OrigDim) and a handle.  Simplification: a pointer is a number, unique within a type. *)
Definition ent : Type := mtype * nat.
Definition ent_eqb (a b : ent) : bool := mtype_eqb (fst a) (fst b) && (snd a =? snd b).
(** One processor's MSTK mesh, as far as this code looks at it: the entities of each type that are in the mesh, in the order of MESH_Next_...; the two
    vertices of an edge; coordinates (simplification: doubles as exact rationals, without rounding in ME_Len); global ids; whether the entity is PGHOST;
    the mesh sets with their type (MSet_EntDim) and entries in order. *)
Record pmesh := Pmesh { p_all : mtype -> list nat; p_ends : nat -> nat * nat; p_xyz : nat -> Q * Q * Q; p_gid : ent -> nat; p_ghost : ent -> bool;
  p_sets : list (mtype * list ent) }.
Definition alive (m : pmesh) (x : ent) : bool := existsb (Nat.eqb (snd x)) (p_all m (fst x)).
(** MEnt_Dim: MDELETED for an entity that was taken out of the mesh *)
Definition ment_dim (m : pmesh) (x : ent) : option mtype := if alive m x then Some (fst x) else None.
(** [ME_Len(edge) <= 1.0e-15], Mesh_MSTK.cc:4226-4228: the square of the length against the square of the bound *)
Definition len_sq (a b : Q * Q * Q) : Q :=
  let '(x, y, z) := a in let '(u, v, w) := b in ((x - u) * (x - u) + (y - v) * (y - v) + (z - w) * (z - w))%Q.
Definition bound_sq : Q := 1 # 1000000000000000000000000000000.
Definition degenerate (m : pmesh) (e : nat) : bool := Qle_bool (len_sq (p_xyz m (fst (p_ends m e))) (p_xyz m (snd (p_ends m e)))) bound_sq.

Section Collapse.
(** [ME_Collapse(edge, vkeep, 0, &deleted_ents, &merged_entity_pairs)]: None if it refuses, else the new mesh, the deleted entities and the
    (deleted, kept) pairs of merged ones *)
Variable me_collapse : pmesh -> nat -> nat -> option (pmesh * list ent * list (ent * ent)).
(** one degenerate edge, Mesh_MSTK.cc:4241-4267: the vertex with the lower global id is kept, the other one if MSTK refuses that, and an error otherwise.
    Also returned: the vertex that is kept. *)
Definition collapse_edge (m : pmesh) (e : nat) : outcome (pmesh * list ent * list (ent * ent) * nat) :=
  let '(ev0, ev1) := p_ends m e in
  let '(vkeep, vdel) := if p_gid m (MVERTEX, ev0) <? p_gid m (MVERTEX, ev1) then (ev0, ev1) else (ev1, ev0) in
  match me_collapse m e vkeep with
  | Some r => Ok (r, vkeep)
  | None => match me_collapse m e vdel with Some r => Ok (r, vdel) | None => Thrown end
  end.
(** the body of the loop over the edges, Mesh_MSTK.cc:4224-4279: an edge that is no longer in the mesh is not returned by MESH_Next_Edge any more
    (assumption: taking edges out of MSTK's list does not disturb the iteration) *)
Definition collapse_step (e : nat) (a : pmesh * list ent * list (ent * ent)) : outcome (pmesh * list ent * list (ent * ent)) :=
  let '(m, dels, mrg) := a in
  if negb (alive m (MEDGE, e)) then Ok a else if negb (degenerate m e) then Ok a else
  x <- collapse_edge m e ;;
  let '(m', d, g, _) := x in Ok (m', dels ++ d, mrg ++ g).
(** the loop, Mesh_MSTK.cc:4223-4279 *)
Definition collapse_loop (m : pmesh) : outcome (pmesh * list ent * list (ent * ent)) := foldM (p_all m MEDGE) collapse_step (m, [], []).
(** merged_ents_info of one processor, Mesh_MSTK.cc:4281-4288 (simplification: [&(merged_ents_info[0])] of an empty vector, 4304, is taken as harmless) *)
Definition merged_info (m : pmesh) (mrg : list (ent * ent)) : list (option mtype * nat * nat) :=
  map (fun xy => (ment_dim m (snd xy), p_gid m (fst xy), p_gid m (snd xy))) mrg.
(** renumbering of ghosts, Mesh_MSTK.cc:4309-4365: for vertices, edges and faces, the first entry with the right type and global id *)
Definition odim_eqb (a : option mtype) (b : mtype) : bool := match a with Some x => mtype_eqb x b | None => false end.
Definition new_gid (info : list (option mtype * nat * nat)) (d : mtype) (g : nat) : nat :=
  match find (fun t => odim_eqb (fst (fst t)) d && (snd (fst t) =? g)) info with Some t => snd t | None => g end.
Definition renumber_ghosts (m : pmesh) (info : list (option mtype * nat * nat)) : pmesh :=
  Pmesh (p_all m) (p_ends m) (p_xyz m)
    (fun x => match fst x with
              | MREGION => p_gid m x
              | d => if alive m x && p_ghost m x then new_gid info d (p_gid m x) else p_gid m x
              end)
    (p_ghost m) (p_sets m).
(** [MSet_Locate] and [MSet_Replacei], Mesh_MSTK.cc:4385-4387: the first entry that is [x] becomes [y] (MSTK does not look for an earlier [y]) *)
Fixpoint replace_first (x y : ent) (l : list ent) : list ent :=
  match l with [] => [] | a :: l' => if ent_eqb a x then y :: l' else a :: replace_first x y l' end.
(** [MSet_Locate] and [MSet_Remi], Mesh_MSTK.cc:4402-4404: the first entry that is [x] is taken out *)
Fixpoint remove_first (x : ent) (l : list ent) : list ent :=
  match l with [] => [] | a :: l' => if ent_eqb a x then l' else a :: remove_first x l' end.
(** replacing merged entities in the sets, Mesh_MSTK.cc:4375-4389 *)
Definition set_merge (m : pmesh) (s : mtype * list ent) (xy : ent * ent) : mtype * list ent :=
  if odim_eqb (ment_dim m (snd xy)) (fst s) then (fst s, replace_first (fst xy) (snd xy) (snd s)) else s.
(** removing deleted entities from the sets, Mesh_MSTK.cc:4394-4406 *)
Definition set_delete (s : mtype * list ent) (x : ent) : mtype * list ent :=
  if mtype_eqb (fst x) (fst s) then (fst s, remove_first x (snd s)) else s.
Definition update_sets (m : pmesh) (dels : list ent) (mrg : list (ent * ent)) : pmesh :=
  Pmesh (p_all m) (p_ends m) (p_xyz m) (p_gid m) (p_ghost m)
    (map (fun s => fold_left set_delete dels (fold_left (set_merge m) mrg s)) (p_sets m)).
(** collapse_degen_edges on all processors: the local loops, MPI_Allgather(v) of the merged ids in the order of the processors (Mesh_MSTK.cc:4290-4307), the
    ghosts, the sets.  Simplification: the processors run one after the other between the collective calls; one that throws ends the run. *)
Definition collapse_degen_edges (W : list pmesh) : outcome (list pmesh) :=
  R <- mapM collapse_loop W ;;
  let info := flat_map (fun r => merged_info (fst (fst r)) (snd r)) R in
  Ok (map (fun r => let '(m, dels, mrg) := r in update_sets (renumber_ghosts m info) dels mrg) R).
End Collapse.
