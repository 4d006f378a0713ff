(** Model of how the constructors of the MSTK framework make a distributed regular mesh: Mesh_MSTK.cc:239-505, serial_run from
    Mesh_MSTK.cc:5154.  Modelled up to and including the call of generate_regular_mesh; what follows (weaving the pieces together into a
    distributed mesh with ghosts, building the maps) is MSTK's work and post_create_steps_. [fuel] bounds the loop of
    block_partition_regular_mesh; enough fuel is a hypothesis the theorems discharge. *)
From Coq Require Import Reals ZArith.
From Verif Require Import Base Loop BlockPartition RegularMesh.
Set Implicit Arguments.

(** the mesh the processor [rank] of [np] generates in 3D, Mesh_MSTK.cc:275-341 *)
Definition mstk_regular3 (fuel : nat) (X0 Y0 Z0 X1 Y1 Z1 : R) (nx ny nz np rank : nat) : outcome mmesh3 :=
  if np =? 1 then generate3 X0 Y0 Z0 X1 Y1 Z1 nx ny nz 0 0 0 0 0 0
  else
    blocks <- block_partition fuel 3 (V3 (Z.of_nat nx) (Z.of_nat ny) (Z.of_nat nz)) (Z.of_nat np) ;;
    b <- rd blocks rank ;;
    generate3 X0 Y0 Z0 X1 Y1 Z1 nx ny nz (Z.to_nat (v0 (start b))) (Z.to_nat (v1 (start b))) (Z.to_nat (v2 (start b)))
      (Z.to_nat (v0 (num b))) (Z.to_nat (v1 (num b))) (Z.to_nat (v2 (num b))).
(** in 2D, Mesh_MSTK.cc:422-474 *)
Definition mstk_regular2 (fuel : nat) (X0 Y0 X1 Y1 : R) (nx ny np rank : nat) : outcome mmesh2 :=
  if np =? 1 then generate2 X0 Y0 X1 Y1 nx ny 0 0 0 0
  else
    blocks <- block_partition fuel 2 (V3 (Z.of_nat nx) (Z.of_nat ny) 0) (Z.of_nat np) ;;
    b <- rd blocks rank ;;
    generate2 X0 Y0 X1 Y1 nx ny (Z.to_nat (v0 (start b))) (Z.to_nat (v1 (start b))) (Z.to_nat (v0 (num b))) (Z.to_nat (v1 (num b))).
