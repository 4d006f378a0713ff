(** Model of Mesh::get_partitioning_by_blocks as a whole, src/mesh/Mesh.cc:3262-3428: the discovery of the regular structure (3265-3373) in front of
    the assignment of cells to blocks (BlockAssign.v).  double = R; the division by the norm of a zero normal is Coq's (0 here, NaN in C++). *)
From Coq Require Import Reals.
From Verif Require Import Base Loop Defs Factory Cache BlockPartition BlockAssign Point Geometry MeshGeom.
Set Implicit Arguments.
Local Open Scope R_scope.

(** Point::operator[], Point.hh:135-136 *)
Definition coord (p : point) (d : nat) : R := match d with O => p0 p | 1%nat => p1 p | _ => p2 p end.
(** domainlimits[2*d] and domainlimits[2*d+1] as functions of d *)
Definition limits : Type := (nat -> R) * (nat -> R).
(** the two ifs for one point, Mesh.cc:3277-3280 *)
Definition widen (l : limits) (p : point) : limits :=
  (fun d => if Rltb (coord p d) (fst l d) then coord p d else fst l d, fun d => if Rltb (snd l d) (coord p d) then coord p d else snd l d).
(** the initial limits and the loop over the owned cells, Mesh.cc:3267-3282 *)
Definition domain_limits (M : gmesh) (X : coordinates) : outcome limits :=
  foldM (ids (gm M) CELL PARALLEL_OWNED) (fun c l => ps <- cell_get_coordinates M X c ;; Ok (fold_left widen ps l)) (fun _ => 10 ^ 20, fun _ => - 10 ^ 20).
(** dist, Mesh.cc:3297-3299 *)
Definition dist2 (dim : nat) (lo : nat -> R) (p : point) : R :=
  fold_left (fun s d => s + (lo d - coord p d) * (lo d - coord p d)) (seq 0 dim) 0.
(** the search for the cell at the low corner, Mesh.cc:3291-3307; [None]: not found *)
Fixpoint corner_cell (M : gmesh) (X : coordinates) (lo : nat -> R) (cs : list nat) : outcome (option nat) :=
  match cs with
  | [] => Ok None
  | c :: r => ps <- cell_get_coordinates M X c ;;
      if existsb (fun p => Rltb (dist2 (sdim M) lo p) (/ 10 ^ 20)) ps then Ok (Some c) else corner_cell M X lo r
  end.
(** refdir, Mesh.cc:3319-3320: a zero point of the space dimension with one coordinate set to 1 *)
Definition refdir (dim d : nat) : point :=
  match d with O => Pt dim 1 0 0 | 1%nat => Pt dim 0 1 0 | _ => Pt dim 0 0 1 end.
(** what one turn of the while loop does: go on to a neighbour, stop at the high boundary, or give up *)
Inductive turn := Next (c : nat) | Stop | GiveUp.
(** the loop over the faces of the cell, Mesh.cc:3332-3365; the owned cells of a face are ids, -1 having been filtered out *)
Fixpoint look (M : gmesh) (X : coordinates) (g : geo) (hi : nat -> R) (d : nat) (c : nat) (fs : list nat) : outcome turn :=
  match fs with
  | [] => Ok GiveUp
  | f :: r =>
      n <- face_normal M X g f false (Some c) ;;
      let u := diveq (fst n) (norm (fst n)) in
      if Rltb (Rabs (dot u (refdir (sdim M) d) - 1)) (/ 10 ^ 12) then
        fcells <- Cache.face_get_cells (gm M) f PARALLEL_OWNED ;;
        match fcells with
        | [a; b] => Ok (Next (Z.to_nat (if (a =? Z.of_nat c)%Z then b else a)))
        | _ => fc <- face_centroid M X g f false ;; Ok (if Rltb (Rabs (coord fc d - hi d)) (/ 10 ^ 12) then Stop else GiveUp)
        end
      else look M X g hi d c r
  end.
(** the while loop, Mesh.cc:3322-3372, with the number of cells seen so far; [None]: the function returned *)
Fixpoint walk (fuel : nat) (M : gmesh) (X : coordinates) (g : geo) (hi : nat -> R) (d : nat) (c : nat) (n : Z) : outcome (option Z) :=
  match fuel with
  | O => OutOfFuel
  | S fuel =>
      cf <- Cache.cell_get_faces_and_dirs (gm M) c ;;
      s <- look M X g hi d c (map fst cf) ;;
      match s with
      | Next c' => walk fuel M X g hi d c' (n + 1)
      | Stop => Ok (Some n)
      | GiveUp => Ok None
      end
  end.
(** the loop over the directions, Mesh.cc:3316-3377 *)
Fixpoint walks (fuel : nat) (M : gmesh) (X : coordinates) (g : geo) (hi : nat -> R) (c0 : nat) (ds : list nat) : outcome (option (list Z)) :=
  match ds with
  | [] => Ok (Some [])
  | d :: r =>
      n <- walk fuel M X g hi d c0 1 ;;
      match n with
      | None => Ok None
      | Some n => ns <- walks fuel M X g hi c0 r ;; Ok (match ns with None => None | Some ns => Some (n :: ns) end)
      end
  end.
(** Mesh.cc:3265-3377: the limits and the number of cells in each direction *)
Definition discover (fuel : nat) (M : gmesh) (X : coordinates) (g : geo) : outcome (option (limits * vec3)) :=
  l <- domain_limits M X ;;
  c <- corner_cell M X (fst l) (ids (gm M) CELL PARALLEL_OWNED) ;;
  match c with
  | None => Ok None
  | Some c0 =>
      ns <- walks fuel M X g (snd l) c0 (seq 0 (sdim M)) ;;
      Ok (match ns with None => None | Some ns => Some (l, V3 (nth 0 ns 0%Z) (nth 1 ns 0%Z) (nth 2 ns 0%Z)) end)
  end.
(** get_partitioning_by_blocks on the resized vector of get_partitioning (Mesh.cc:3087): when the discovery fails it returns with a message on
    cerr and leaves the parts as they are, empty.  The centroids are read in one go before the assignment. *)
Definition get_partitioning_by_blocks (fuel : nat) (M : gmesh) (X : coordinates) (g : geo) (num_parts : nat) : outcome (list (list nat)) :=
  r <- discover fuel M X g ;;
  match r with
  | None => Ok (repeat [] num_parts)
  | Some (l, cells) =>
      blocks <- block_partition fuel (sdim M) cells (Z.of_nat num_parts) ;;
      let cs := ids (gm M) CELL PARALLEL_OWNED in
      _ <- mapM (fun c => cell_centroid M X g c false) cs ;;
      assign_cells (sdim M) (fst l) (snd l) cells blocks cs (fun c => coord (nth c (g_ccen g) (pzero (sdim M)))) (repeat [] num_parts)
  end.
