(** Model of Mesh::get_partitioning_by_index_space (src/mesh/Mesh.cc:3151-3175), of the dispatch in
    Mesh::get_partitioning (3081-3148) and of the code after the METIS call in get_partitioning_with_metis
    (3230-3245).  METIS itself is an arbitrary oracle. *)
From Verif Require Import Base.
Local Open Scope Z_scope.

(** ceil(double(ncells)/num_parts + 0.5), line 3158.  Exact rational arithmetic: for 32-bit arguments the rounding error
    of the quotient q = n/k is below q*2^-53 < 1/(2k), the distance of n/k + 1/2 to the nearest other integer, so the
    double computation gives the same integer. *)
Definition max_cells_per_tile (ncells num_parts : Z) : Z := - ((- (2 * ncells + num_parts)) / (2 * num_parts)).

(** inner loop, lines 3167-3170: fill entries j.. of the partition while cells are left.  [room] = maxcells - j,
    [left] = ncells - index; the pushed values are the successive indices. *)
Fixpoint take_cells (room left index : nat) : list nat :=
  match room, left with
  | S r, S l => index :: take_cells r l (S index)
  | _, _ => []
  end.

(** outer loop, lines 3163-3173 *)
Fixpoint index_parts (parts : nat) (maxc : nat) (ncells index : nat) : list (list nat) :=
  match parts with
  | O => []
  | S p => let part := take_cells maxc (ncells - index) index in
           part :: index_parts p maxc ncells (index + length part)
  end.

(** the function; num_parts = 0 makes the quotient infinite and its conversion to int undefined *)
Definition partition_by_index (ncells num_parts : nat) : outcome (list (list nat)) :=
  match num_parts with
  | O => UB
  | _ => Ok (index_parts num_parts (Z.to_nat (max_cells_per_tile (Z.of_nat ncells) (Z.of_nat num_parts))) ncells 0)
  end.

(** lines 3236-3239: partitions[idxpart[i]].push_back(i); [partitions] was resized to num_parts at line 3087 *)
Fixpoint push_parts (idxpart : list nat) (i : nat) (parts : list (list nat)) : outcome (list (list nat)) :=
  match idxpart with
  | [] => Ok parts
  | ip :: r => old <- rd parts ip ;; parts' <- wr parts ip (old ++ [i]) ;; push_parts r (S i) parts'
  end.
Definition partition_with_metis (idxpart : list nat) (num_parts : nat) : outcome (list (list nat)) :=
  push_parts idxpart 0 (repeat [] num_parts).

(** enum class Partitioner_type, src/mesh/MeshDefs.hh *)
Inductive partitioner := PINDEX | PMETIS | PZOLTAN_GRAPH | PZOLTAN_RCB | PBLOCK.

(** which algorithm get_partitioning runs, lines 3089-3147; the boolean is Jali_HAVE_METIS *)
Inductive algorithm := AlgIndex | AlgMetis | AlgBlocks.
Definition choose (have_metis : bool) (p : partitioner) (space_dim : nat) : algorithm :=
  match p with
  | PMETIS => if (space_dim =? 1)%nat then AlgIndex else if have_metis then AlgMetis else AlgIndex
  | PZOLTAN_GRAPH | PZOLTAN_RCB => AlgIndex
  | PBLOCK => AlgBlocks
  | PINDEX => AlgIndex
  end.
