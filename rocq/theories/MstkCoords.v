(** Model of the coordinates of nodes, cells and faces in the MSTK framework: src/mesh/mesh_mstk/Mesh_MSTK.cc:2396-2551 (queries), 2557-2576 (setting them), and
    the version of class Mesh for one number, src/mesh/Mesh.hh:2209-2215.  A point is the list of its coordinates (as in SimpleMesh.v); an array the caller passes
    is the list of the numbers that are there, reading past its end is UB. *)
From Verif Require Import Base Loop Cache MstkMesh.
Set Implicit Arguments. Unset Strict Implicit.

Section Coords.
Variables (V : Type) (zero : V).
(** MV_Coords: MSTK keeps three numbers for every vertex *)
Definition vcoords : Type := nat -> V * V * V.
Definition three (c : V * V * V) : list V := [fst (fst c); snd (fst c); snd c].
Section Query.
Variables (j : jmesh) (sd : nat) (X : vcoords).  (* sd: space_dimension() *)
(** Point::set(N, val), Point.hh:115-119: the first N numbers *)
Definition point_at (h : nat) : list V := firstn sd (three (X h)).
(** node_get_coordinates(nodeid, Point* ), Mesh_MSTK.cc:2398-2410 *)
Definition node_point (n : nat) : outcome (list V) := h <- rd (vtx_h j) n ;; Ok (point_at h).
(** node_get_coordinates(nodeid, std::array<double, 3>* ), Mesh_MSTK.cc:2412-2427 *)
Definition node_array3 (n : nat) : outcome (V * V * V) := asserting (sd =? 3) (h <- rd (vtx_h j) n ;; Ok (X h)).
(** node_get_coordinates(nodeid, std::array<double, 2>* ), Mesh_MSTK.cc:2429-2443 *)
Definition node_array2 (n : nat) : outcome (V * V) := asserting (sd =? 2) (h <- rd (vtx_h j) n ;; Ok (fst (X h))).
(** node_get_coordinates(nodeid, double* ), Mesh.hh:2209-2215, not overridden *)
Definition node_double (n : nat) : outcome V := asserting (sd =? 1) (p <- node_point n ;; rd p 0).
(** cell_get_coordinates, Mesh_MSTK.cc:2452-2496 *)
Definition cell_points (c : nat) : outcome (list (list V)) :=
  h <- rd (cell_h j) c ;; Ok (map point_at (if k_dim (j_mesh j) =? 3 then k_rv (j_mesh j) h else k_fv (j_mesh j) h)).
(** face_get_coordinates, Mesh_MSTK.cc:2504-2551 *)
Definition face_points (f : nat) : outcome (list (list V)) :=
  asserting (j_faces j) (h <- rd (face_h j) f ;; fl <- rd (faceflip j) f ;;
    if k_dim (j_mesh j) =? 3 then Ok (map point_at (if fl then k_fv_rev (j_mesh j) h else k_fv (j_mesh j) h))
    else let a := fst (k_ev (j_mesh j) h) in let b := snd (k_ev (j_mesh j) h) in
      let ev := if fl : bool then (b, a) else (a, b) in Ok [point_at (fst ev); point_at (snd ev)]).
End Query.
(** MV_Set_Coords *)
Definition move (X : vcoords) (h : nat) (c : V * V * V) : vcoords := fun h' => if h' =? h then c else X h'.
(** node_set_coordinates(nodeid, const double* ), Mesh_MSTK.cc:2557-2561: MSTK takes three numbers *)
Definition set_by_array (j : jmesh) (X : vcoords) (n : nat) (a : list V) : outcome vcoords :=
  h <- rd (vtx_h j) n ;; x <- rd a 0 ;; y <- rd a 1 ;; z <- rd a 2 ;; Ok (move X h (x, y, z)).
(** node_set_coordinates(nodeid, Point), Mesh_MSTK.cc:2563-2572: zeros beyond the space dimension; a coordinate the point does not have is not initialised (UB) *)
Definition set_by_point (j : jmesh) (sd : nat) (X : vcoords) (n : nat) (p : list V) : outcome vcoords :=
  h <- rd (vtx_h j) n ;;
  c <- for_lt sd (fun i c => v <- rd p i ;; wr c i v) [zero; zero; zero] ;;
  x <- rd c 0 ;; y <- rd c 1 ;; z <- rd c 2 ;; Ok (move X h (x, y, z)).
End Coords.
