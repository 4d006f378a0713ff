(** C01, C02: block_partition_regular_mesh (src/mesh/block_partition.cc:73-273). *)
From Verif Require Import Base BlockPartition BlockPartition_spec BlockPartition_proofs2.
Local Open Scope Z_scope.

(** C01: for every valid grid and every request between 1 and the number of cells, the function terminates (any fuel
    above the request is enough), hits no assert and no out-of-range access, and returns exactly the requested
    number of blocks. *)
Theorem c01_block_count : forall dim cells req fuel,
  valid_grid dim cells -> 1 <= req <= grid_cells dim cells -> (Z.to_nat req < fuel)%nat ->
  exists blocks, block_partition fuel dim cells req = Ok blocks /\ Z.of_nat (length blocks) = req.
Proof. exact block_partition_count. Qed.
Print Assumptions c01_block_count.

(** C02: every result of the function on valid arguments tiles the grid. *)
Theorem c02_blocks_tile : forall dim cells req fuel blocks,
  valid_grid dim cells -> 1 <= req <= grid_cells dim cells -> (Z.to_nat req < fuel)%nat ->
  block_partition fuel dim cells req = Ok blocks -> tiling dim cells blocks.
Proof. exact block_partition_tiling. Qed.
Print Assumptions c02_blocks_tile.

(** Requesting more blocks than cells hits the assert of line 92. *)
Theorem c01_too_many_blocks_aborts : forall dim cells req fuel,
  valid_grid dim cells -> grid_cells dim cells < req -> block_partition fuel dim cells req = AssertFail.
Proof. exact block_partition_too_many. Qed.
Print Assumptions c01_too_many_blocks_aborts.

(** Finding: a request below 1 is not rejected. On a 5x7 grid a request of 0 returns two blocks, on the one-cell
    grid it never returns (no fuel suffices). *)
Theorem c01_nonpositive_request_refuted :
  (exists blocks, block_partition 10 2 (V3 5 7 0) 0 = Ok blocks /\ length blocks = 2%nat) /\
  (forall fuel, block_partition fuel 1 (V3 1 0 0) 0 = OutOfFuel).
Proof. exact block_partition_nonpositive. Qed.
Print Assumptions c01_nonpositive_request_refuted.

(** Non-vacuity *)
Example c01_hypotheses_met : valid_grid 3 (V3 3 5 2) /\ 1 <= 7 <= grid_cells 3 (V3 3 5 2).
Proof.
  split; [split; [lia|]|compute; split; discriminate].
  intros d Hd. destruct d as [|[|[|d]]]; simpl; lia.
Qed.
Example c01_example : exists blocks, block_partition 8 3 (V3 3 5 2) 7 = Ok blocks /\ length blocks = 7%nat.
Proof. eexists; split; vm_compute; reflexivity. Qed.
