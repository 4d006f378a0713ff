(** Specification vocabulary for the geometric quantities of a mesh. *)
From Coq Require Import Reals Permutation.
From Verif Require Import Base Loop Defs Factory Cache Cache_spec Point Geometry Geometry_spec MeshGeom.
Set Implicit Arguments.
Local Open Scope R_scope.

(** The life of a mesh object: constructed with the last coordinates of the list, then moved to each of the others (from right to
    left) with a call of update_geometric_quantities after each motion. *)
Inductive history (M : gmesh) : list coordinates -> geo -> Prop :=
| constructed X g : update_geometric_quantities M X geo0 = Ok g -> history M [X] g
| moved X xs g g' : history M xs g -> update_geometric_quantities M X g = Ok g' -> history M (X :: xs) g'.

(** A 2D or 3D mesh object constructed over the connectivity [sh], with [fn f] the nodes of face f and [cv c] those of cell c in the
    order in which their coordinates are delivered: ids in range, a face's cell list holds the cells that have it as a face. *)
Record geom_mesh (t : topo) (sh : shape) (fl : flags) (M : gmesh) (fn cv : nat -> list nat) : Prop := {
  gq_built : built t sh fl (gm M);
  gq_dim : (tp_mdim t = 2 \/ tp_mdim t = 3)%nat;
  gq_sdim : sdim M = tp_mdim t;
  gq_fn : forall f, (f < nfaces t)%nat -> fnodes M f = Ok (fn f) /\ forall n, In n (fn f) -> (n < nnodes t)%nat;
  gq_cv : forall c, (c < ncells t)%nat -> cverts M c = Ok (cv c) /\ forall n, In n (cv c) -> (n < nnodes t)%nat;
  gq_en : forall e, (e < nedges t)%nat -> (fst (enodes sh e) < nnodes t /\ snd (enodes sh e) < nnodes t)%nat;
  gq_fc : forall f, (f < nfaces t)%nat -> exists l, fw_face_cells t f = Ok l /\ forall c, In c l <-> (c < ncells t)%nat /\ face_of sh c f;
  gq_two : tp_mdim t = 2%nat -> forall f, (f < nfaces t)%nat -> length (fn f) = 2%nat }.
(** one point of the right dimension for every node *)
Definition coords_ok (t : topo) (X : coordinates) : Prop := length X = nnodes t /\ all_dim (tp_mdim t) X.
(** the coordinates of a list of nodes *)
Definition at_nodes (X : coordinates) (l : list nat) : list point := map (fun n => nth n X (Pt 0 0 0 0)) l.

(** the nodes of a face of a cell in the order seen from outside the cell: the face's own order if the cell uses it in direction +1 *)
Definition node_face (fn : nat -> list nat) (fd : nat * Z) : list nat := if (snd fd =? 1)%Z then fn (fst fd) else rev (fn (fst fd)).
(** the same with coordinates *)
Definition out_face (fn : nat -> list nat) (X : coordinates) (fd : nat * Z) : list point := at_nodes X (node_face fn fd).
Definition out_faces (sh : shape) (fn : nat -> list nat) (X : coordinates) (c : nat) : list (list point) := map (out_face fn X) (cfaces sh c).
(** the normal of a face: its vector area in space; in the plane its edge turned by a right angle to the right *)
Definition right_normal (a b : point) : point := Pt 2 (p1 b - p1 a) (- (p0 b - p0 a)) 0.
Definition natural (t : topo) (fn : nat -> list nat) (X : coordinates) (f : nat) : point :=
  if (tp_mdim t =? 3)%nat then varea (at_nodes X (fn f))
  else right_normal (nth 0 (at_nodes X (fn f)) (Pt 0 0 0 0)) (nth 1 (at_nodes X (fn f)) (Pt 0 0 0 0)).
Definition turned (d : Z) (p : point) : point := if (d =? 1)%Z then p else popp p.

(** The orientations are consistent.  In space: a face lists its edges once each with their directions around the face; the faces of a
    cell form a closed surface.  In the plane: a face is its edge; the faces of a cell, in their directions, are the edges of the
    cell's polygon. *)
Definition along (sh : shape) (ed : nat * Z) : nat * nat := if (snd ed =? 1)%Z then enodes sh (fst ed) else swap (enodes sh (fst ed)).
Record oriented (t : topo) (sh : shape) (fn cv : nat -> list nat) : Prop := {
  or_face3 : tp_mdim t = 3%nat -> forall f, (f < nfaces t)%nat -> (3 <= length (fn f))%nat /\ Permutation (map (along sh) (fedges sh f)) (edges (fn f));
  or_cell3 : tp_mdim t = 3%nat -> forall c, (c < ncells t)%nat ->
     let E := flat_map (fun fd => edges (node_face fn fd)) (cfaces sh c) in Permutation E (map swap E);
  or_face2 : tp_mdim t = 2%nat -> forall f, (f < nfaces t)%nat -> exists e d, fedges sh f = [(e, d)] /\ fn f = [fst (enodes sh e); snd (enodes sh e)];
  or_cell2 : tp_mdim t = 2%nat -> forall c, (c < ncells t)%nat -> (3 <= length (cv c))%nat /\
     Permutation (map (fun fd => (nth 0 (node_face fn fd) 0%nat, nth 1 (node_face fn fd) 0%nat)) (cfaces sh c)) (edges (cv c)) }.

(** a face in space whose vertices lie in a plane, or that is a triangle *)
Definition flat (l : list point) : Prop := length l = 3%nat \/ exists n, dot3 n n <> 0 /\ planar n l.
(** the cell is a tetrahedron: its nodes are [a; b; c; d] and its faces, seen from outside, are those of the tetrahedron a b c d, each
    starting at any of its vertices *)
Definition tet_cell (sh : shape) (fn : nat -> list nat) (ns : list nat) (c : nat) : Prop := exists a b c' d fs, ns = [a; b; c'; d] /\
  Permutation fs [[a; c'; b]; [a; b; d]; [b; c'; d]; [a; d; c']] /\ Forall2 (fun fd l => Permutation (edges (node_face fn fd)) (edges l)) (cfaces sh c) fs.
(** n is the sum of the vectors of the list *)
Definition vsum (n : point) (l : list point) : Prop := p0 n = sum_of p0 l /\ p1 n = sum_of p1 l /\ p2 n = sum_of p2 l.
