(** What it means to partition the cells 0..n-1. *)
From Verif Require Import Base.

(** every cell is in exactly one part, exactly once, and parts contain nothing else *)
Definition partitions_cells (n k : nat) (parts : list (list nat)) : Prop :=
  length parts = k /\
  (forall p, In p parts -> NoDup p) /\
  (forall p c, In p parts -> In c p -> c < n) /\
  (forall c, c < n -> exists! i : nat, exists p, nth_error parts i = Some p /\ In c p).

(** each part is a contiguous, increasing index range and parts follow each other *)
Definition contiguous (n : nat) (parts : list (list nat)) : Prop := concat parts = seq 0 n.
