(** C03, C04: partitioning of the cells of a mesh (src/mesh/Mesh.cc:3081-3428). *)
From Coq Require Import Reals.
From Verif Require Import Base IndexPartition Partition_spec IndexPartition_proofs BlockPartition BlockPartition_spec BlockAssign BlockAssign_proofs.

(** C03: the index partitioner returns num_parts lists that contain every cell exactly once ... *)
Theorem c03_index_partitions : forall ncells num_parts, 1 <= num_parts ->
  exists parts, partition_by_index ncells num_parts = Ok parts
    /\ partitions_cells ncells num_parts parts
    (* ... and the parts are consecutive index ranges *)
    /\ contiguous ncells parts.
Proof. exact index_partitions. Qed.
Print Assumptions c03_index_partitions.

(** METIS post-processing: whatever part numbers (below num_parts) METIS returns, every cell ends up in exactly the part
    METIS chose for it. *)
Theorem c03_metis_partitions : forall idxpart num_parts, (forall ip, In ip idxpart -> ip < num_parts) ->
  exists parts, partition_with_metis idxpart num_parts = Ok parts
    /\ partitions_cells (length idxpart) num_parts parts
    /\ (forall c j, nth_error idxpart c = Some j -> exists p, nth_error parts j = Some p /\ In c p).
Proof. exact metis_partitions. Qed.
Print Assumptions c03_metis_partitions.

(** The block partitioner on a regular mesh (cell c at integer position pos c, centroid at the centre of its grid box). *)
Theorem c03_block_partitions : forall dim lo hi cells (k n fuel : nat) (pos : nat -> nat -> Z) (ccen : nat -> nat -> R),
  valid_grid dim cells -> (forall d, d < dim -> (lo d < hi d)%R) ->
  (1 <= Z.of_nat k <= grid_cells dim cells)%Z -> k < fuel ->
  (forall c, c < n -> in_grid dim cells (pos c)) ->
  (forall c d, c < n -> d < dim ->
     ccen c d = (lo d + (IZR (pos c d) + / 2) * ((hi d - lo d) / IZR (get d cells)))%R) ->
  exists parts, partition_by_blocks fuel dim lo hi cells k n ccen = Ok parts /\ partitions_cells n k parts.
Proof. exact partition_by_blocks_ok. Qed.
Print Assumptions c03_block_partitions.

(** C04 is false: 4 cells in 4 parts leave two parts empty. *)
Theorem c04_no_empty_part_refuted : exists ncells num_parts parts,
  1 <= num_parts <= ncells /\ partition_by_index ncells num_parts = Ok parts /\ In [] parts.
Proof. exact empty_part. Qed.
Print Assumptions c04_no_empty_part_refuted.

(** C04, what holds: with m = ceil(n/k + 1/2), no part has more than m cells, and no part is empty exactly when
    (k-1)*m < n. *)
Theorem c04_nonempty_iff_partial : forall ncells num_parts parts,
  partition_by_index ncells num_parts = Ok parts ->
  exists m, 2 * ncells + num_parts <= 2 * num_parts * m < 2 * ncells + 3 * num_parts /\
  (forall p, In p parts -> length p <= m) /\
  ((forall p, In p parts -> p <> []) <-> (num_parts - 1) * m < ncells).
Proof. exact nonempty_iff. Qed.
Print Assumptions c04_nonempty_iff_partial.

Example c03_example : partition_by_index 10 3 = Ok [[0;1;2;3]; [4;5;6;7]; [8;9]].
Proof. vm_compute. reflexivity. Qed.
Example c03_metis_example : partition_with_metis [2;0;2;1] 3 = Ok [[1];[3];[0;2]].
Proof. vm_compute. reflexivity. Qed.
Example c03_block_example : valid_grid 2 (V3 2 3 0) /\ in_grid 2 (V3 2 3 0) (fun d => Z.of_nat d).
Proof. split; [split; [lia|]|]; intros d Hd; destruct d as [|[|d]]; simpl; lia. Qed.
