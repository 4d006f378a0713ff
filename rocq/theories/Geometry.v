(** Model of the geometry functions, src/geometry/Geometry.cc.  Real numbers stand for doubles. *)
From Coq Require Import Reals.
From Verif Require Import Base Loop Point.
Set Implicit Arguments.
Local Open Scope R_scope.

Definition gtb (a b : R) : bool := if Rlt_dec b a then true else false.   (* a > b *)
Definition leb (a b : R) : bool := if Rle_dec a b then true else false.   (* a <= b *)
Definition ltb (a b : R) : bool := if Rlt_dec a b then true else false.   (* a < b *)
(** "Point c(d); for p in l: c += p; c /= n" *)
Definition center_of (c0 : point) (l : list point) (n : nat) : point := diveq (fold_left addeq l c0) (INR n).
(** "if (negvol && *vol > 0) *vol = -*vol", Geometry.cc:174-180, 347-354 *)
Definition flag (neg : bool) (v : R) : R := if neg && gtb v 0 then - v else v.

(** ** polygon_get_area_centroid_normal, Geometry.cc:282-355.  [cd], [nd]: dimensions of the points for centroid and normal.
    The result is area, centroid, normal. *)
Definition tri_step (dim : nat) (center a b : point) (s : R * point * point * bool) : R * point * point * bool :=
  let '(area, centroid, normal, neg) := s in
  let v1 := psub a center in
  let v2 := psub b center in
  let v3 := cross (smul (/ 2) v1) v2 in
  let at_ := norm v3 in
  (area + at_, addeq centroid (pdiv (smul at_ (padd (padd a b) center)) 3), addeq normal v3, neg || ((dim =? 2)%nat && leb (p0 v3) 0)).
Definition polygon (cd nd : nat) (coords : list point) : outcome (R * point * point) :=
  c0 <- pset (pzero cd) 0 ;;
  n0 <- pset (pzero nd) 0 ;;
  let np := length coords in
  if (np <? 3)%nat then Ok (0, c0, n0) else
  q0 <- rd coords 0 ;;
  let dim := pd q0 in
  let center := center_of (pzero dim) coords np in
  if (np =? 3)%nat then
    q1 <- rd coords 1 ;;
    q2 <- rd coords 2 ;;
    let normal := cross (smul (/ 2) (psub q2 q1)) (psub q0 q1) in
    Ok (norm normal, center, normal)
  else
    r <- for_lt np (fun i s => a <- rd coords i ;; b <- rd coords ((i + 1) mod np) ;; Ok (tri_step dim center a b s)) (0, c0, n0, false) ;;
    let '(area, centroid, normal, neg) := r in
    Ok (flag neg area, diveq centroid area, normal).

(** ** polyhed_get_vol_centroid, Geometry.cc:75-182.  The result is volume, centroid; [cd]: dimension of the point for the centroid. *)
(** one tetrahedron: apex [center], base a, b, c *)
Definition tet_step (center a b c : point) (s : R * point * bool) : R * point * bool :=
  let '(vol, centroid, neg) := s in
  let t := dot (cross (psub a center) (psub b center)) (psub c center) in
  (vol + t, addeq centroid (smul t (pdiv (padd (padd (padd center a) b) c) 4)), neg || leb t 0).
(** the sum for faces of more than three nodes forms the centroid as center+fcenter+a+b (lines 148-150) *)
Definition tet_step_f (center fcenter a b : point) (s : R * point * bool) : R * point * bool :=
  let '(vol, centroid, neg) := s in
  let t := dot (cross (psub a center) (psub b center)) (psub fcenter center) in
  (vol + t, addeq centroid (smul t (pdiv (padd (padd (padd center fcenter) a) b) 4)), neg || leb t 0).
(** one face, Geometry.cc:116-166 *)
Definition face_step (center : point) (fcoords : list point) (n : nat) (offset : nat) (s : R * point * bool) : outcome (R * point * bool) :=
  if (n =? 3)%nat then
    a <- rd fcoords offset ;; b <- rd fcoords (offset + 1) ;; c <- rd fcoords (offset + 2) ;;
    Ok (tet_step center a b c s)
  else
    fc <- for_lt n (fun j fc => p <- rd fcoords (offset + j) ;; Ok (addeq fc p)) (pzero 3) ;;
    let fcenter := diveq fc (INR n) in
    for_lt n (fun j s => a <- rd fcoords (offset + j) ;; b <- rd fcoords (offset + (j + 1) mod n) ;; Ok (tet_step_f center fcenter a b s)) s.
Definition polyhed (cd : nat) (ccoords : list point) (nf : nat) (nfnodes : list nat) (fcoords : list point) : outcome (R * point) :=
  c0 <- pset (pzero cd) 0 ;;
  let np := length ccoords in
  if (np <? 4)%nat then Ok (0, c0) else
  if (np =? 4)%nat then
    q0 <- rd ccoords 0 ;; q1 <- rd ccoords 1 ;; q2 <- rd ccoords 2 ;; q3 <- rd ccoords 3 ;;
    Ok (dot (cross (psub q1 q0) (psub q2 q0)) (psub q3 q0) / 6, pdiv (padd (padd (padd q0 q1) q2) q3) 4)
  else
    let center := center_of (pzero 3) ccoords np in
    r <- for_lt nf (fun i os => n <- rd nfnodes i ;; s <- face_step center fcoords n (fst os) (snd os) ;; Ok ((fst os + n)%nat, s)) (0%nat, (0, c0, false)) ;;
    let '(_, (vol, centroid, neg)) := r in
    Ok (flag neg (vol / 6), diveq centroid vol).

(** ** point_in_polyhed, Geometry.cc:203-267.  [None] in the loop: returned false.  The offset is advanced only past faces that are
    not triangles. *)
Definition tet_vol (p a b c : point) : R := dot (cross (psub a p) (psub b p)) (psub c p).
Definition in_face (p : point) (fcoords : list point) (n offset : nat) : outcome (option nat) :=
  if (n =? 3)%nat then
    a <- rd fcoords offset ;; b <- rd fcoords (offset + 1) ;; c <- rd fcoords (offset + 2) ;;
    Ok (if ltb (tet_vol p a b c) 0 then None else Some offset)
  else
    fc <- for_lt n (fun j fc => q <- rd fcoords (offset + j) ;; Ok (addeq fc q)) (pzero 3) ;;
    let fcenter := diveq fc (INR n) in
    for_lt n (fun j s => match s with
      | None => Ok None
      | Some o => a <- rd fcoords (offset + j) ;; b <- rd fcoords (offset + (j + 1) mod n) ;;
          Ok (if ltb (tet_vol p a b fcenter) 0 then None else Some o)
      end) (Some (offset + n)%nat).
Definition point_in_polyhed (p : point) (ccoords : list point) (nf : nat) (nfnodes : list nat) (fcoords : list point) : outcome bool :=
  if (length ccoords <? 4)%nat then Ok false else
  r <- for_lt nf (fun i s => match s with
         | None => Ok None
         | Some offset => n <- rd nfnodes i ;; in_face p fcoords n offset
         end) (Some 0%nat) ;;
  Ok (match r with Some _ => true | None => false end).

(** ** point_in_polygon, Geometry.cc:431-458 *)
Definition crosses (x y : R) (a b : point) : bool :=
  (gtb (py a) y && leb (py b) y || gtb (py b) y && leb (py a) y) && leb x (px a + (y - py a) * (px b - px a) / (py b - py a)).
Definition point_in_polygon (p : point) (coords : list point) : outcome bool :=
  let np := length coords in
  for_lt np (fun i c => a <- rd coords i ;; b <- rd coords ((i + 1) mod np) ;; Ok (if crosses (px p) (py p) a b then negb c else c)) false.

(** ** 1D, Geometry.cc:461-485 *)
Inductive geom_type := CARTESIAN | SPHERICAL | CYLINDRICAL.
(** volume and centroid; for another geometry type the out-parameters stay as they were (None) *)
Definition segment (gt : geom_type) (ccoords : list point) : outcome (option (R * point)) :=
  match gt with
  | CARTESIAN => a <- rd ccoords 0 ;; b <- rd ccoords 1 ;; Ok (Some (norm (psub b a), smul (/ 2) (padd b a)))
  | SPHERICAL => a <- rd ccoords 0 ;; b <- rd ccoords 1 ;;
      Ok (Some (4 * PI * (px b ^ 3 - px a ^ 3) / 3, smul (/ 2) (padd b a)))
  | CYLINDRICAL => Ok None
  end.
Definition face1d_area (gt : geom_type) (fcoords : list point) : outcome (option R) :=
  match gt with
  | CARTESIAN => Ok (Some 1)
  | SPHERICAL => a <- rd fcoords 0 ;; Ok (Some (4 * PI * px a ^ 2))
  | CYLINDRICAL => Ok None
  end.
