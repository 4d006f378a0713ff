(** Specification vocabulary for the structured mesh: structured positions of a box of
    nx x ny x nz unit cells, written without reference to the mesh tables. *)
From Verif Require Import Base SimpleMesh.
Set Implicit Arguments.

(** A lattice point / a cell named by its lowest corner. *)
Notation pos3 := (nat * nat * nat)%type.

Definition cell_at (d : dims) (p : pos3) : Prop :=
  let '(i, j, k) := p in i < nx d /\ j < ny d /\ k < nz d.
Definition node_at (d : dims) (p : pos3) : Prop :=
  let '(i, j, k) := p in i <= nx d /\ j <= ny d /\ k <= nz d.

(** A unit square of the lattice, normal to z, y or x, named by its lowest corner. *)
Inductive sface := FXY (i j k : nat) | FXZ (i j k : nat) | FYZ (i j k : nat).
Definition face_at (d : dims) (f : sface) : Prop :=
  match f with
  | FXY i j k => i < nx d /\ j < ny d /\ k <= nz d
  | FXZ i j k => i < nx d /\ j <= ny d /\ k < nz d
  | FYZ i j k => i <= nx d /\ j < ny d /\ k < nz d
  end.
(** squares lying in the surface of the box *)
Definition on_boundary (d : dims) (f : sface) : Prop :=
  match f with
  | FXY _ _ k => k = 0 \/ k = nz d
  | FXZ _ j _ => j = 0 \/ j = ny d
  | FYZ i _ _ => i = 0 \/ i = nx d
  end.
(** [q] is one of the four corners of the square *)
Definition corner_of_face (q : pos3) (f : sface) : Prop :=
  let '(a, b, c) := q in
  match f with
  | FXY i j k => (a = i \/ a = i + 1) /\ (b = j \/ b = j + 1) /\ c = k
  | FXZ i j k => (a = i \/ a = i + 1) /\ b = j /\ (c = k \/ c = k + 1)
  | FYZ i j k => a = i /\ (b = j \/ b = j + 1) /\ (c = k \/ c = k + 1)
  end.
(** [q] is one of the eight corners of the cell *)
Definition corner_of_cell (q p : pos3) : Prop :=
  let '(a, b, c) := q in let '(i, j, k) := p in
  (a = i \/ a = i + 1) /\ (b = j \/ b = j + 1) /\ (c = k \/ c = k + 1).
(** the square is one of the six sides of the cell *)
Definition side_of_cell (f : sface) (p : pos3) : Prop :=
  let '(i, j, k) := p in
  match f with
  | FXY a b c => a = i /\ b = j /\ (c = k \/ c = k + 1)
  | FXZ a b c => a = i /\ (b = j \/ b = j + 1) /\ c = k
  | FYZ a b c => (a = i \/ a = i + 1) /\ b = j /\ c = k
  end.

(** the ids the code gives to structured positions *)
Definition cid (d : dims) (p : pos3) : nat := let '(i, j, k) := p in cell_index d i j k.
Definition nid (d : dims) (p : pos3) : nat := let '(i, j, k) := p in node_index d i j k.
Definition fid (d : dims) (f : sface) : nat :=
  match f with
  | FXY i j k => xyface_index d i j k
  | FXZ i j k => xzface_index d i j k
  | FYZ i j k => yzface_index d i j k
  end.

(** [f] numbers the objects satisfying [P] with exactly the ids 0..n-1, each once. *)
Definition numbers {A} (P : A -> Prop) (f : A -> nat) (n : nat) : Prop :=
  (forall x, P x -> f x < n) /\
  (forall x y, P x -> P y -> f x = f y -> x = y) /\
  (forall i, i < n -> exists x, P x /\ f x = i).
