(** Model of reading a mesh from a file: Mesh_MSTK::init_mesh_from_file_, src/mesh/mesh_mstk/Mesh_MSTK.cc:64-144, and the constructor that calls it,
    150-229 (the boundary ghosts, tables and tiles made at its end are modelled in MstkBghost, MstkMesh, Tiles).  What the MSTK library does is not
    modelled: only which of its functions are called, with which arguments, and what is made of the answers. *)
From Coq Require Import String QArith.
From Verif Require Import Base Loop IndexPartition.
Set Implicit Arguments. Unset Strict Implicit.
Open Scope nat_scope.

(** the calls of MSTK, in order *)
Inductive call :=
| ImportExodus (file : string) | ImportNemesis (file : string) | CollapseDegenerate | Renumber
| Distribute (topo_dim layers : nat) (with_attr : bool) (method : Z) | RenumberGlobalIDs
| Weave (topo_dim layers : nat) (input_type : nat).
(** [filename.find(ext) != npos] *)
Definition contains (ext s : string) : bool := match index 0 ext s with Some _ => true | None => false end.
(** [static_cast<int>(partitioner) - 2], Mesh_MSTK.cc:89-90, with the order of the enumeration, MeshDefs.hh:249-255 *)
Definition method_of (p : partitioner) : Z := match p with PINDEX => -2 | PBLOCK => -1 | PMETIS => 0 | PZOLTAN_GRAPH => 1 | PZOLTAN_RCB => 2 end.
(** PARTITIONER_DEFAULT, MeshDefs.hh:257 *)
Definition PARTITIONER_DEFAULT : partitioner := PMETIS.

Section File.
(** [status c]: the int MSTK returns for a call; [regions]: whether the mesh has regions after the import (MESH_Num_Regions(mesh) > 0) on this rank *)
Variables (status : call -> Z) (regions : bool) (numprocs layers : nat) (contiguous : bool).
Definition topo_dim : nat := if regions then 3 else 2.
(** init_mesh_from_file_, Mesh_MSTK.cc:64-144: the calls made and how it ends.  Simplification: collapse_degen_edges, which may throw, is in
    MstkCollapse and only appears as an event here. *)
Definition init_mesh_from_file (filename : string) (p : partitioner) : list call * outcome unit :=
  let finish ok := if (ok =? 0)%Z then Thrown else Ok tt in
  if contains ".exo" filename then
    let i := ImportExodus filename in
    let pre := [i; CollapseDegenerate; Renumber] in
    if 1 <? numprocs then
      let d := Distribute topo_dim layers true (method_of p) in
      let ok := Z.land (status i) (status d) in
      if contiguous then (pre ++ [d; RenumberGlobalIDs], finish (Z.land ok (status RenumberGlobalIDs))) else (pre ++ [d], finish ok)
    else (pre, finish (status i))
  else if contains ".par" filename then
    let i := ImportNemesis filename in
    let w := Weave topo_dim layers 1 in
    let ok := Z.land (status i) (status w) in
    if contiguous then ([i; CollapseDegenerate; Renumber; w; RenumberGlobalIDs], finish (Z.land ok (status RenumberGlobalIDs)))
    else ([i; CollapseDegenerate; Renumber; w], finish ok)
  else ([], Thrown).
(** the call in the constructor, Mesh_MSTK.cc:182 with the default argument of Mesh_MSTK.hh:550-552; [partitioner] is the constructor's own argument *)
Definition read_file (filename : string) (partitioner : partitioner) : list call * outcome unit := init_mesh_from_file filename PARTITIONER_DEFAULT.
End File.

(** what the constructor looks at on one rank after reading: whether there are regions, and the z coordinates of the vertices in MSTK's order
    (simplification: doubles as rationals) *)
Record rank := Rank { r_regions : bool; r_z : list Q }.
(** Mesh_MSTK.cc:184 *)
Definition cell_dim (r : rank) : nat := if r_regions r then 3 else 2.
(** MPI_Allreduce(..., MPI_MAX), Mesh_MSTK.cc:186-187, 220 *)
Definition allreduce_max (l : list nat) : nat := fold_left Nat.max l 0.
(** is this rank's part planar, Mesh_MSTK.cc:198-218: MV_Coords of a null vertex if there is none *)
Definition rank_space_dim (r : rank) : outcome nat :=
  match r_z r with [] => UB | z0 :: _ => Ok (if forallb (fun z => Qeq_bool z0 z) (r_z r) then 2 else 3) end.
(** the dimensions set on each rank, Mesh_MSTK.cc:184-222: (manifold, space) or how the rank fails.  A rank whose cell dimension is not the largest throws
    by itself; then nobody gets to the second reduction, because the others are three-dimensional.  Simplification: if one rank has undefined behaviour
    before the second reduction, no rank has a result. *)
Definition set_dimensions (W : list rank) : list (outcome (nat * nat)) :=
  let max := allreduce_max (map cell_dim W) in
  if max =? 2
  then match mapM rank_space_dim W with
       | Ok ds => map (fun _ => Ok (2, allreduce_max ds)) W
       | _ => map (fun _ => UB) W
       end
  else map (fun r => if cell_dim r =? max then Ok (max, 3) else Thrown) W.
