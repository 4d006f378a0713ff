(** Model of the geometric regions: BoxRegion.cc, PlaneRegion.cc, PointRegion.cc, PolygonRegion.cc, LogicalRegion.cc, LabeledSetRegion.cc
    (src/geometry).  Real numbers stand for doubles (see Point.v); the tolerances are the decimal numbers written in the code.
    Jali_throw is modelled by its default behaviour, throwing.  The checks under #ifdef DEBUG are not modelled. *)
From Coq Require Import Reals String.
From Verif Require Import Base Loop Point Geometry.
Set Implicit Arguments.
Local Open Scope R_scope.

(** p[i], Point.hh:135-136 (i < 3) *)
Definition pc (p : point) (i : nat) : R := match i with O => p0 p | 1%nat => p1 p | _ => p2 p end.
Definition geb (a b : R) : bool := leb b a.   (* a >= b *)
Definition eqb_R (a b : R) : bool := if Req_EM_T a b then true else false.

(** ** BoxRegion *)
(** "dimension" = the region's dimension, Region::dimension() *)
Record box := Box { bx_p0 : point; bx_p1 : point; bx_dim : nat }.
(** BoxRegion.cc:70-91 *)
Definition new_box (a b : point) : outcome box :=
  if negb (pd a =? pd b)%nat then Thrown else
  let dim := fold_left (fun dim i => if eqb_R (pc a i) (pc b i) then (dim - 1)%nat else dim) (seq 0 (pd a)) (pd a) in
  Ok (Box a b (if (dim <? pd a)%nat then dim else pd a)).
(** between_, BoxRegion.cc:107-112 *)
Definition tol_box : R := 1 / 10 ^ 8.
Definition between_ (x x0 x1 : R) : bool := (geb (x0 + tol_box) x && geb x (x1 - tol_box)) || (geb (x1 + tol_box) x && geb x (x0 - tol_box)).
(** inside, BoxRegion.cc:117-133 *)
Definition box_inside (r : box) (p : point) : outcome bool :=
  if negb (pd p =? pd (bx_p0 r))%nat then Thrown else
  Ok (fold_left (fun res i => res && between_ (pc p i) (pc (bx_p0 r) i) (pc (bx_p1 r) i)) (seq 0 (pd p)) true).
(** is_degenerate, BoxRegion.cc:138-148: result and *ndeg *)
Definition is_degenerate (r : box) : bool * nat :=
  let ndeg := fold_left (fun k i => if eqb_R (pc (bx_p0 r) i) (pc (bx_p1 r) i) then S k else k) (seq 0 (pd (bx_p0 r))) 0%nat in
  (negb (ndeg =? 0)%nat, ndeg).

(** ** PlaneRegion *)
Record plane := Plane { pl_p : point; pl_n : point; pl_dim : nat }.
(** PlaneRegion.cc:71-86; the dimension of the region is unsigned: p.dim()-1 *)
Definition new_plane (p n : point) : outcome plane := if negb (pd p =? pd n)%nat then Thrown else Ok (Plane p n (pd p - 1)).
(** inside, PlaneRegion.cc:101-130 *)
Definition tol_plane : R := 1 / 10 ^ 12.
Definition plane_inside (r : plane) (p : point) : outcome bool :=
  if negb (pd p =? pd (pl_p r))%nat then Thrown else
  let '(res, d) := fold_left (fun s i => (fst s + pc (pl_n r) i * pc p i, snd s + pc (pl_n r) i * pc (pl_p r) i)) (seq 0 (pd p)) (0, 0) in
  Ok (leb (Rabs (res - d)) tol_plane).

(** ** PointRegion *)
(** inside, PointRegion.cc:93-112 *)
Definition tol_point : R := 1 / 10 ^ 12.
Definition point_inside (q p : point) : outcome bool :=
  if negb (pd p =? pd q)%nat then Thrown else
  Ok (fold_left (fun res i => res && ltb (Rabs (pc p i - pc q i)) tol_point) (seq 0 (pd p)) true).

(** ** PolygonRegion *)
Record polyreg := Poly { pg_n : nat; pg_points : list point; pg_normal : point; pg_elim : nat; pg_dim : nat }.
(** PolygonRegion.cc:69-78 and init, 92-160.  [n]: the argument num_points.  If the first points are collinear (in 2D: equal) the code divides by
    zero and goes on with NaN; that is outside this model (Coq's x/0 is an unspecified number). *)
Definition new_polygon (n : nat) (points : list point) : outcome polyreg :=
  q0 <- rd points 0 ;;
  let dim := pd q0 in
  if (n <? dim)%nat then Thrown else
  if (dim =? 2)%nat then
    q1 <- rd points 1 ;;
    let vec := psub q1 q0 in
    let vec := diveq vec (norm vec) in
    Ok (Poly n points (Pt 2 (p1 vec) (- p0 vec) 0) (if ltb (p0 vec) (p1 vec) then 0 else 1) dim)
  else if (dim =? 3)%nat then
    q1 <- rd points 1 ;; q2 <- rd points 2 ;;
    let nrm := cross (psub q2 q1) (psub q0 q1) in
    let nrm := diveq nrm (norm nrm) in
    let '(_, dmax) := fold_left (fun s i => if gtb (pc nrm i) (fst s) then (pc nrm i, i) else s) (seq 0 3) (-1, 0%nat) in
    Ok (Poly n points nrm dmax dim)
  else Thrown.
(** the distance test of lines 195-221 and 262-305: segment from a to b (points of dimension 2) and the point q.  Where a = b the code divides by
    zero and every comparison with the resulting NaN is false: the segment does not match. *)
Definition tol_seg : R := 1 / 10 ^ 16.
Definition near_segment (q a b : point) : bool :=
  let vec0 := psub q a in
  let vec1 := psub b a in
  let slen := norm vec1 in
  if eqb_R slen 0 then false else
  let vec1 := diveq vec1 slen in
  let dp := dot vec0 vec1 in
  if geb dp 0 && leb dp slen then ltb (L22 (psub q (padd a (smul dp vec1)))) tol_seg else false.
(** inside, PolygonRegion.cc:166-314 *)
Definition polygon_inside (r : polyreg) (p : point) : outcome bool :=
  q0 <- rd (pg_points r) 0 ;;
  let '(res, d) := fold_left (fun s i => (fst s + pc (pg_normal r) i * pc p i, snd s + pc (pg_normal r) i * pc q0 i)) (seq 0 (pd p)) (0, 0) in
  if gtb (Rabs (res - d)) tol_plane then Ok false else
  if (pg_dim r =? 2)%nat then
    q1 <- rd (pg_points r) 1 ;;
    Ok (near_segment p q0 q1)
  else
    let d0 := ((pg_elim r + 1) mod 3)%nat in
    let d1 := ((pg_elim r + 2) mod 3)%nat in
    let u := pc p d0 in
    let v := pc p d1 in
    let proj (q : point) := Pt 2 (pc q d0) (pc q d1) 0 in
    c <- for_lt (pg_n r) (fun i c => a <- rd (pg_points r) i ;; b <- rd (pg_points r) ((i + 1) mod pg_n r) ;;
           Ok (if crosses u v (proj a) (proj b) then negb c else c)) false ;;
    if c then Ok true else
    for_lt (pg_n r) (fun i (found : bool) => if found then Ok true else
           a <- rd (pg_points r) i ;; b <- rd (pg_points r) ((i + 1) mod pg_n r) ;; Ok (near_segment (Pt 2 u v 0) (proj a) (proj b))) false.

(** ** LogicalRegion and LabeledSetRegion *)
Inductive bool_type := NOBOOLEAN | COMPLEMENT | UNION | INTERSECT | SUBTRACT.
(** [lr_op] = None: not initialised *)
Record logical := Logical { lr_name : string; lr_id : nat; lr_op : option bool_type; lr_names : list string }.
(** LogicalRegion.cc:71-95 *)
Definition new_logical (name : string) (id : nat) (op : string) (names : list string) : outcome logical :=
  if String.eqb op "Complement" then Ok (Logical name id (Some COMPLEMENT) names)
  else if String.eqb op "Union" then Ok (Logical name id (Some UNION) names)
  else if String.eqb op "Intersect" then Ok (Logical name id (Some INTERSECT) names)
  else if String.eqb op "Subtract" then Ok (Logical name id (Some SUBTRACT) names)
  else Thrown.
(** LogicalRegion.cc:97-105 *)
Definition new_logical_op (name : string) (id : nat) (op : bool_type) (names : list string) : logical := Logical name id (Some op) names.
(** copy constructor, LogicalRegion.cc:107-111: only the base class is copied *)
Definition copy_logical (r : logical) : logical := Logical (lr_name r) (lr_id r) None [].
(** inside, LogicalRegion.cc:122-128 *)
Definition logical_inside (r : logical) (p : point) : outcome bool := Thrown.
Record labeled := Labeled { ls_name : string; ls_id : nat; ls_entity : string; ls_file : string; ls_format : string; ls_label : string }.
(** LabeledSetRegion.cc:71-86; copy constructor 86-90: only the base class is copied *)
Definition copy_labeled (r : labeled) : labeled := Labeled (ls_name r) (ls_id r) "" "" "" "".
Definition labeled_inside (r : labeled) (p : point) : outcome bool := Thrown.
(** the copy constructors of the other regions copy all members: BoxRegion.cc:93-97, PlaneRegion.cc:88-92, PointRegion.cc:79-83,
    PolygonRegion.cc:80-85 *)
Definition copy_box (r : box) : box := Box (bx_p0 r) (bx_p1 r) (bx_dim r).
Definition copy_plane (r : plane) : plane := Plane (pl_p r) (pl_n r) (pl_dim r).
Definition copy_polygon (r : polyreg) : polyreg := Poly (pg_n r) (pg_points r) (pg_normal r) (pg_elim r) (pg_dim r).
