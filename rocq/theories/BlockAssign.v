(** Model of the last part of Mesh::get_partitioning_by_blocks (src/mesh/Mesh.cc:3375-3414): assignment of cells to
    blocks by comparing centroids with block limits.  double = R.  The walk that determines the domain limits and the
    number of cells per direction (3263-3373) is in BlockDiscover.v: [lo], [hi], [cells] are its result. *)
From Coq Require Import Reals.
From Verif Require Import Base BlockPartition.
Local Open Scope R_scope.

Definition Rltb (a b : R) : bool := if Rlt_dec a b then true else false.

(** szdelta, lines 3385-3387 *)
Definition szdelta (lo hi : nat -> R) (cells : vec3) (d : nat) : R := (hi d - lo d) / IZR (get d cells).
(** blocklimits, lines 3389-3394 *)
Definition limit_lo lo hi cells (b : block) (d : nat) : R := lo d + IZR (get d (start b)) * szdelta lo hi cells d.
Definition limit_hi lo hi cells (b : block) (d : nat) : R :=
  limit_lo lo hi cells b d + IZR (get d (num b)) * szdelta lo hi cells d.

(** the inside test, lines 3399-3404 (the break makes it a conjunction) *)
Definition inside_block dim lo hi cells (b : block) (ccen : nat -> R) : bool :=
  forallb (fun d => Rltb (limit_lo lo hi cells b d) (ccen d) && Rltb (ccen d) (limit_hi lo hi cells b d)) (seq 0 dim).

(** first block that contains the centroid, lines 3398-3409 *)
Fixpoint find_block dim lo hi cells (blocks : list block) (i : nat) (ccen : nat -> R) : option nat :=
  match blocks with
  | [] => None
  | b :: r => if inside_block dim lo hi cells b ccen then Some i else find_block dim lo hi cells r (S i) ccen
  end.

(** the loop over owned cells 0..n-1, lines 3396-3410; the for-i loop indexes block arrays up to num_parts, so it needs
    [length blocks = num_parts], which C01 provides. *)
Fixpoint assign_cells dim lo hi cells (blocks : list block) (cs : list nat) (ccen : nat -> nat -> R)
   (parts : list (list nat)) : outcome (list (list nat)) :=
  match cs with
  | [] => Ok parts
  | c :: r =>
    match find_block dim lo hi cells blocks 0 (ccen c) with
    | None => assign_cells dim lo hi cells blocks r ccen parts
    | Some i => old <- rd parts i ;; parts' <- wr parts i (old ++ [c]) ;; assign_cells dim lo hi cells blocks r ccen parts'
    end
  end.

(** lines 3381-3410 with the block computation of block_partition.cc *)
Definition partition_by_blocks (fuel dim : nat) (lo hi : nat -> R) (cells : vec3) (num_parts : nat) (ncells : nat)
   (ccen : nat -> nat -> R) : outcome (list (list nat)) :=
  blocks <- block_partition fuel dim cells (Z.of_nat num_parts) ;;
  assign_cells dim lo hi cells blocks (seq 0 ncells) ccen (repeat [] num_parts).
