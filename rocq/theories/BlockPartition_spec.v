(** Independent vocabulary for C01/C02: what it means for blocks to tile a regular grid. *)
From Verif Require Import Base BlockPartition.
Local Open Scope Z_scope.

(** A cell of the [dim]-dimensional grid is given by its integer position [p d] in each direction [d < dim]. *)
Definition in_grid (dim : nat) (cells : vec3) (p : nat -> Z) : Prop :=
  forall d, (d < dim)%nat -> 0 <= p d < get d cells.
Definition in_block (dim : nat) (b : block) (p : nat -> Z) : Prop :=
  forall d, (d < dim)%nat -> get d (start b) <= p d < get d (start b) + get d (num b).

Record tiling (dim : nat) (cells : vec3) (blocks : list block) : Prop := {
  (* no block is empty *)
  tl_nonempty : forall b, In b blocks -> forall d, (d < dim)%nat -> 1 <= get d (num b);
  (* blocks stay inside the grid *)
  tl_inside : forall b p, In b blocks -> in_block dim b p -> in_grid dim cells p;
  (* every cell of the grid is in exactly one block *)
  tl_cover : forall p, in_grid dim cells p ->
     exists! i : nat, exists b, nth_error blocks i = Some b /\ in_block dim b p;
  (* unused directions are zero in the output arrays *)
  tl_unused : forall b, In b blocks -> forall d, (dim <= d < 3)%nat -> get d (start b) = 0 /\ get d (num b) = 0
}.

(** the arguments the caller may pass: 1..3 dimensions and at least one cell in each used direction *)
Definition valid_grid (dim : nat) (cells : vec3) : Prop :=
  (1 <= dim <= 3)%nat /\ forall d, (d < dim)%nat -> 1 <= get d cells.

(** number of cells of the grid, as a product over the used directions *)
Definition grid_cells (dim : nat) (cells : vec3) : Z :=
  fold_right Z.mul 1 (map (fun d => get d cells) (seq 0 dim)).
