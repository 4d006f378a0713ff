(** Specification vocabulary for the geometry functions, in coordinates. *)
From Coq Require Import Reals Permutation.
From Verif Require Import Base Point.
Set Implicit Arguments.
Local Open Scope R_scope.

(** sums *)
Fixpoint rsum (l : list R) : R := match l with [] => 0 | x :: r => x + rsum r end.
Definition sum_of {A} (f : A -> R) (l : list A) : R := rsum (map f l).
(** the edges (a, b) of a closed polygon *)
Fixpoint steps {A} (a : A) (l : list A) (z : A) : list (A * A) :=
  match l with [] => [(a, z)] | b :: r => (a, b) :: steps b r z end.
Definition edges {A} (l : list A) : list (A * A) := match l with [] => [] | a :: r => steps a r a end.
Definition all_dim (d : nat) (l : list point) : Prop := forall p, In p l -> pd p = d.
(** the mean of the vertices *)
Definition mean (l : list point) : point :=
  Pt 3 (sum_of p0 l / INR (length l)) (sum_of p1 l / INR (length l)) (sum_of p2 l / INR (length l)).
(** translation *)
Definition shift (v : point) (p : point) : point := Pt (pd p) (p0 p + p0 v) (p1 p + p1 v) (if (pd p =? 3)%nat then p2 p + p2 v else p2 p).

(** ** plane *)
(** twice the signed area of the triangle (origin, a, b), and the signed area of (c, a, b): positive when counter-clockwise *)
Definition wedge2 (a b : point) : R := p0 a * p1 b - p0 b * p1 a.
Definition tri_area (c a b : point) : R := ((p0 a - p0 c) * (p1 b - p1 c) - (p0 b - p0 c) * (p1 a - p1 c)) / 2.
(** the signed area of a polygon *)
Definition shoelace (l : list point) : R := sum_of (fun e => wedge2 (fst e) (snd e) / 2) (edges l).
(** the centroid of a polygon of signed area A *)
Definition centroid_x (l : list point) : R := sum_of (fun e => (p0 (fst e) + p0 (snd e)) * wedge2 (fst e) (snd e)) (edges l) / (6 * shoelace l).
Definition centroid_y (l : list point) : R := sum_of (fun e => (p1 (fst e) + p1 (snd e)) * wedge2 (fst e) (snd e)) (edges l) / (6 * shoelace l).
(** the polygon is seen counter-clockwise from the point c *)
Definition star_ccw (c : point) (l : list point) : Prop := forall e, In e (edges l) -> 0 < tri_area c (fst e) (snd e).
(** strictly convex, counter-clockwise: all other vertices are to the left of each edge *)
Definition convex_ccw (l : list point) : Prop :=
  NoDup l /\ forall a b c, In (a, b) (edges l) -> In c l -> c <> a -> c <> b -> 0 < tri_area a b c.
(** strictly convex, clockwise *)
Definition convex_cw (l : list point) : Prop :=
  NoDup l /\ forall a b c, In (a, b) (edges l) -> In c l -> c <> a -> c <> b -> tri_area a b c < 0.

(** ** space *)
Definition det3 (o a b c : point) : R :=
  let ax := p0 a - p0 o in let ay := p1 a - p1 o in let az := p2 a - p2 o in
  let bx := p0 b - p0 o in let by_ := p1 b - p1 o in let bz := p2 b - p2 o in
  let cx := p0 c - p0 o in let cy := p1 c - p1 o in let cz := p2 c - p2 o in
  ax * (by_ * cz - bz * cy) + ay * (bz * cx - bx * cz) + az * (bx * cy - by_ * cx).
(** the vector area of a polygon in space: half the sum of a x b over its edges *)
Definition varea (l : list point) : point :=
  Pt 3 (sum_of (fun e => (p1 (fst e) * p2 (snd e) - p2 (fst e) * p1 (snd e)) / 2) (edges l))
       (sum_of (fun e => (p2 (fst e) * p0 (snd e) - p0 (fst e) * p2 (snd e)) / 2) (edges l))
       (sum_of (fun e => (p0 (fst e) * p1 (snd e) - p1 (fst e) * p0 (snd e)) / 2) (edges l)).
Definition length3 (p : point) : R := sqrt (p0 p * p0 p + p1 p * p1 p + p2 p * p2 p).

(** scalar and vector products in coordinates *)
Definition dot3 (a b : point) : R := p0 a * p0 b + p1 a * p1 b + p2 a * p2 b.
(** the triangle (c, a, b) seen from the tip of n: n . (a-c) x (b-c) *)
Definition seen (n c a b : point) : R :=
  p0 n * ((p1 a - p1 c) * (p2 b - p2 c) - (p2 a - p2 c) * (p1 b - p1 c)) +
  p1 n * ((p2 a - p2 c) * (p0 b - p0 c) - (p0 a - p0 c) * (p2 b - p2 c)) +
  p2 n * ((p0 a - p0 c) * (p1 b - p1 c) - (p1 a - p1 c) * (p0 b - p0 c)).
(** the vertices lie in one plane with normal n *)
Definition planar (n : point) (l : list point) : Prop := forall a b, In a l -> In b l -> dot3 n a = dot3 n b.
(** strictly convex, counter-clockwise seen from the tip of n *)
Definition convex_about (n : point) (l : list point) : Prop :=
  NoDup l /\ forall a b c, In (a, b) (edges l) -> In c l -> c <> a -> c <> b -> 0 < seen n a b c.
(** |n| times the signed area of a planar polygon, and |n| times its first moments, as sums over the triangles (o, edge) *)
Definition area_about (n o : point) (l : list point) : R := sum_of (fun e => seen n o (fst e) (snd e) / 2) (edges l).
Definition moment_about (f : point -> R) (n o : point) (l : list point) : R :=
  sum_of (fun e => seen n o (fst e) (snd e) / 2 * ((f o + f (fst e) + f (snd e)) / 3)) (edges l).

(** ** polyhedra, as lists of faces, each the list of its vertices *)
Definition tet := (point * point * point)%type.
Definition swap {A} (e : A * A) : A * A := (snd e, fst e).
(** the triangles of a face: itself, or its edges with the mean of its vertices *)
Definition tris (f : list point) : list tet :=
  match f with [a; b; c] => [(a, b, c)] | _ => map (fun e => (fst e, snd e, mean f)) (edges f) end.
Definition all_tris (faces : list (list point)) : list tet := flat_map tris faces.
(** six times the signed volume of the tetrahedron (o, triangle): positive when the triangle is counter-clockwise seen from outside *)
Definition tdet (o : point) (t : tet) : R := let '(a, b, c) := t in det3 o a b c.
(** the surface is closed: every edge is run through as often in one direction as in the other *)
Definition closed (faces : list (list point)) : Prop :=
  Permutation (flat_map edges faces) (map swap (flat_map edges faces)).
(** the volume enclosed by a surface and its first moments, as seen from the point o *)
Definition volume_from (o : point) (faces : list (list point)) : R := sum_of (tdet o) (all_tris faces) / 6.
Definition moment_from (f : point -> R) (o : point) (faces : list (list point)) : R :=
  sum_of (fun t => tdet o t / 6 * (let '(a, b, c) := t in (f o + f a + f b + f c) / 4)) (all_tris faces).
(** all vertices are on the inner side of every triangle of the surface, or on it, and some vertex is strictly inside *)
Definition convex_outward (ccoords : list point) (faces : list (list point)) : Prop :=
  forall t, In t (all_tris faces) -> (forall v, In v ccoords -> 0 <= tdet v t) /\ exists v, In v ccoords /\ 0 < tdet v t.
(** the parallelepiped with corner o and edges u, v, w; its faces are listed counter-clockwise seen from outside when (u, v, w) is
    right-handed *)
Definition corner (o u v w : point) (i j k : R) : point :=
  Pt 3 (p0 o + i * p0 u + j * p0 v + k * p0 w) (p1 o + i * p1 u + j * p1 v + k * p1 w) (p2 o + i * p2 u + j * p2 v + k * p2 w).
Definition box_corners (o u v w : point) : list point :=
  let c := corner o u v w in [c 0 0 0; c 1 0 0; c 1 1 0; c 0 1 0; c 0 0 1; c 1 0 1; c 1 1 1; c 0 1 1].
Definition box_faces (o u v w : point) : list (list point) :=
  let c := corner o u v w in
  [ [c 0 0 0; c 0 1 0; c 1 1 0; c 1 0 0]; [c 0 0 1; c 1 0 1; c 1 1 1; c 0 1 1];
    [c 0 0 0; c 1 0 0; c 1 0 1; c 0 0 1]; [c 0 1 0; c 0 1 1; c 1 1 1; c 1 1 0];
    [c 0 0 0; c 0 0 1; c 0 1 1; c 0 1 0]; [c 1 0 0; c 1 1 0; c 1 1 1; c 1 0 1] ].
Definition det_uvw (u v w : point) : R := det3 (Pt 3 0 0 0) u v w.
(** the four faces of a tetrahedron, outward when (b-a, c-a, d-a) is right-handed *)
Definition tet_faces (a b c d : point) : list (list point) := [[a; c; b]; [a; b; d]; [b; c; d]; [a; d; c]].
