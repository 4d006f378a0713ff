(** Model of class Point (src/geometry/Point.hh:64-248).  Real numbers stand for doubles: rounding, overflow and NaN are not
    modelled.  A point has a dimension d (0 to 3) and three stored numbers; those at and above d are 0 here (the code leaves some
    uninitialised, and reads them only when points of different dimensions are mixed, which is not modelled). *)
From Coq Require Import Reals.
From Verif Require Import Base.
Set Implicit Arguments.
Local Open Scope R_scope.

Record point := Pt { pd : nat; p0 : R; p1 : R; p2 : R }.
(** Point(N), Point.hh:74-77 *)
Definition pzero (d : nat) : point := Pt d 0 0 0.
(** set(val), Point.hh:103-107 *)
Definition pset (p : point) (a : R) : outcome point :=
  match pd p with
  | O => AssertFail | 1%nat => Ok (Pt 1 a 0 0) | 2%nat => Ok (Pt 2 a a 0) | d => Ok (Pt d a a a) end.
(** x(), y(), z(), Point.hh:138-140 *)
Definition px (p : point) := p0 p.
Definition py (p : point) := if (1 <? pd p)%nat then p1 p else 0.
Definition pz (p : point) := if (2 <? pd p)%nat then p2 p else 0.
(** the loops and cases over the dimension *)
Definition pmap (d : nat) (x y z : R) : point :=
  match d with O => Pt 0 0 0 0 | 1%nat => Pt 1 x 0 0 | 2%nat => Pt 2 x y 0 | _ => Pt d x y z end.
(** +=, -=, *=, /=, Point.hh:151-166: the dimension is that of the left side *)
Definition addeq (p q : point) := pmap (pd p) (p0 p + p0 q) (p1 p + p1 q) (p2 p + p2 q).
Definition subeq (p q : point) := pmap (pd p) (p0 p - p0 q) (p1 p - p1 q) (p2 p - p2 q).
Definition muleq (p : point) (c : R) := pmap (pd p) (p0 p * c) (p1 p * c) (p2 p * c).
Definition diveq (p : point) (c : R) := pmap (pd p) (p0 p / c) (p1 p / c) (p2 p / c).
(** the binary operators make a point of dimension 1, 2 or otherwise 3, Point.hh:168-222 *)
Definition padd (p q : point) := match pd p with
  | 1%nat => Pt 1 (p0 p + p0 q) 0 0 | 2%nat => Pt 2 (p0 p + p0 q) (p1 p + p1 q) 0 | _ => Pt 3 (p0 p + p0 q) (p1 p + p1 q) (p2 p + p2 q) end.
Definition psub (p q : point) := match pd p with
  | 1%nat => Pt 1 (p0 p - p0 q) 0 0 | 2%nat => Pt 2 (p0 p - p0 q) (p1 p - p1 q) 0 | _ => Pt 3 (p0 p - p0 q) (p1 p - p1 q) (p2 p - p2 q) end.
Definition popp (p : point) := match pd p with
  | 1%nat => Pt 1 (- p0 p) 0 0 | 2%nat => Pt 2 (- p0 p) (- p1 p) 0 | _ => Pt 3 (- p0 p) (- p1 p) (- p2 p) end.
Definition smul (r : R) (p : point) := match pd p with
  | 1%nat => Pt 1 (r * p0 p) 0 0 | 2%nat => Pt 2 (r * p0 p) (r * p1 p) 0 | _ => Pt 3 (r * p0 p) (r * p1 p) (r * p2 p) end.
(** p / r = p * (1.0/r), Point.hh:187 *)
Definition pdiv (p : point) (r : R) := smul (1 / r) p.
(** p * q, Point.hh:181-185 *)
Definition dot (p q : point) : R := match pd p with
  | O => 0 | 1%nat => 0 + p0 p * p0 q | 2%nat => 0 + p0 p * p0 q + p1 p * p1 q | _ => 0 + p0 p * p0 q + p1 p * p1 q + p2 p * p2 q end.
(** p ^ q, Point.hh:224-234: in 2D the cross product is the first of the two numbers *)
Definition cross (p q : point) : point := match pd p with
  | 2%nat => Pt 2 (p0 p * p1 q - p0 q * p1 p) 0 0
  | 3%nat => Pt 3 (p1 p * p2 q - p2 p * p1 q) (p2 p * p0 q - p0 p * p2 q) (p0 p * p1 q - p1 p * p0 q)
  | d => Pt d 0 0 0 end.
(** L22 and norm, Point.hh:246-247 *)
Definition L22 (p : point) : R := dot p p.
Definition norm (p : point) : R := sqrt (dot p p).
