(** Model of src/mesh/mesh_simple/Mesh_simple.{hh,cc}: the structured 3D box mesh and the 1D
    mesh.  Ids are [nat] (Entity_ID is a C++ int that stays non-negative here; int overflow for
    astronomically large meshes is not modelled); [face_to_cell_] is [Z] because of its -1.
    The coordinate type [V] is a parameter: the connectivity code never looks at coordinates. *)
From Verif Require Import Base Loop.
Set Implicit Arguments.

(** nx_, ny_, nz_ (Mesh_simple.hh:380-395) *)
Record dims := mkDims { nx : nat; ny : nat; nz : nat }.

(** Mesh_simple.hh:484-486 *)
Definition node_index (d : dims) (i j k : nat) : nat := i + j * (nx d + 1) + k * (nx d + 1) * (ny d + 1).
(** Mesh_simple.hh:488-490 *)
Definition cell_index (d : dims) (i j k : nat) : nat := i + j * nx d + k * nx d * ny d.
(** Mesh_simple.hh:492-494 *)
Definition xyface_index (d : dims) (i j k : nat) : nat := i + j * nx d + k * nx d * ny d.
(** Mesh_simple.hh:496-498 *)
Definition xzface_index (d : dims) (i j k : nat) : nat :=
  i + j * nx d + k * nx d * (ny d + 1) + xyface_index d 0 0 (nz d + 1).
(** Mesh_simple.hh:500-502 *)
Definition yzface_index (d : dims) (i j k : nat) : nat :=
  i + j * (nx d + 1) + k * (nx d + 1) * ny d + xzface_index d 0 0 (nz d).

(** 1D variants: Mesh_simple.hh:506-524, all the identity. *)
Definition node_index1 (i : nat) : nat := i.
Definition cell_index1 (i : nat) : nat := i.
Definition xyface_index1 (i : nat) : nat := i.
Definition yzface_index1 (i : nat) : nat := i.

(** [for (iz < n3) for (iy < n2) for (ix < n1) body]: the loop shape of Mesh_simple.cc:377-379 etc. *)
Definition for3 {S} (n1 n2 n3 : nat) (body : nat -> nat -> nat -> S -> outcome S) (s : S) : outcome S :=
  for_lt n3 (fun iz => for_lt n2 (fun iy => for_lt n1 (fun ix => body ix iy iz))) s.

Section Simple.
Variable V : Type.   (* coordinate scalars (double) *)

(** Data members of Mesh_simple / Mesh that the constructor fills (Mesh_simple.hh:370-400,
    Mesh.hh entity id lists).  [spdim] is space_dimension(). *)
Record smesh := mkMesh {
  spdim : nat;
  nodes_per_face : nat; faces_per_cell : nat; nodes_per_cell : nat;
  faces_per_node_aug : nat; cells_per_node_aug : nat;
  num_cells : nat; num_nodes : nat; num_faces : nat;
  coordinates : list V;
  cell_to_face : list nat; cell_to_face_dirs : list Z; cell_to_node : list nat;
  face_to_node : list nat; node_to_face : list nat; node_to_cell : list nat;
  face_to_cell : list Z;
  nodeids_owned : list nat; edgeids_owned : list nat; faceids_owned : list nat; cellids_owned : list nat
}.

(** Body of the coordinates loop, Mesh_simple.cc:380-384; [gx i] is [x0_ + i*hx] etc. *)
Definition coord_body (d : dims) (gx gy gz : nat -> V) (ix iy iz : nat) : list V -> outcome (list V) :=
  let istart := 3 * node_index d ix iy iz in
  wr_all [(istart, gx ix); (istart + 1, gy iy); (istart + 2, gz iz)].

(** cell_to_node_ assignments, Mesh_simple.cc:406-413 *)
Definition c2n_body (d : dims) (ix iy iz : nat) : list nat -> outcome (list nat) :=
  let istart := 8 * cell_index d ix iy iz in
  wr_all [(istart, node_index d ix iy iz);
          (istart + 1, node_index d (ix + 1) iy iz);
          (istart + 2, node_index d (ix + 1) (iy + 1) iz);
          (istart + 3, node_index d ix (iy + 1) iz);
          (istart + 4, node_index d ix iy (iz + 1));
          (istart + 5, node_index d (ix + 1) iy (iz + 1));
          (istart + 6, node_index d (ix + 1) (iy + 1) (iz + 1));
          (istart + 7, node_index d ix (iy + 1) (iz + 1))].

(** node_to_cell_ pushes, Mesh_simple.cc:415-457 *)
Definition n2c_body (d : dims) (ix iy iz : nat) : list nat -> outcome (list nat) :=
  push_all 9 [(node_index d ix iy iz, cell_index d ix iy iz);
              (node_index d (ix + 1) iy iz, cell_index d ix iy iz);
              (node_index d (ix + 1) (iy + 1) iz, cell_index d ix iy iz);
              (node_index d ix (iy + 1) iz, cell_index d ix iy iz);
              (node_index d ix iy (iz + 1), cell_index d ix iy iz);
              (node_index d (ix + 1) iy (iz + 1), cell_index d ix iy iz);
              (node_index d (ix + 1) (iy + 1) (iz + 1), cell_index d ix iy iz);
              (node_index d ix (iy + 1) (iz + 1), cell_index d ix iy iz)].

(** cell_to_face_ assignments, Mesh_simple.cc:468-473 *)
Definition c2f_body (d : dims) (ix iy iz : nat) : list nat -> outcome (list nat) :=
  let istart := 6 * cell_index d ix iy iz in
  wr_all [(istart, xzface_index d ix iy iz);
          (istart + 1, yzface_index d (ix + 1) iy iz);
          (istart + 2, xzface_index d ix (iy + 1) iz);
          (istart + 3, yzface_index d ix iy iz);
          (istart + 4, xyface_index d ix iy iz);
          (istart + 5, xyface_index d ix iy (iz + 1))].

(** cell_to_face_dirs_ assignments, Mesh_simple.cc:475-480 *)
Definition c2fd_body (d : dims) (ix iy iz : nat) : list Z -> outcome (list Z) :=
  let istart := 6 * cell_index d ix iy iz in
  wr_all [(istart, 1%Z); (istart + 1, 1%Z); (istart + 2, (-1)%Z);
          (istart + 3, (-1)%Z); (istart + 4, (-1)%Z); (istart + 5, 1%Z)].

(** face_to_cell_ assignments, Mesh_simple.cc:482-498 *)
Definition f2c_body (d : dims) (ix iy iz : nat) : list Z -> outcome (list Z) :=
  let c := Z.of_nat (cell_index d ix iy iz) in
  wr_all [(2 * xzface_index d ix iy iz + 1, c);
          (2 * yzface_index d (ix + 1) iy iz + 1, c);
          (2 * xzface_index d ix (iy + 1) iz, c);
          (2 * yzface_index d ix iy iz, c);
          (2 * xyface_index d ix iy iz, c);
          (2 * xyface_index d ix iy (iz + 1) + 1, c)].

(** xy faces: face_to_node_, Mesh_simple.cc:511-514 *)
Definition f2n_xy (d : dims) (ix iy iz : nat) : list nat -> outcome (list nat) :=
  let istart := 4 * xyface_index d ix iy iz in
  wr_all [(istart, node_index d ix iy iz);
          (istart + 1, node_index d (ix + 1) iy iz);
          (istart + 2, node_index d (ix + 1) (iy + 1) iz);
          (istart + 3, node_index d ix (iy + 1) iz)].
(** xy faces: node_to_face_, Mesh_simple.cc:516-534 *)
Definition n2f_xy (d : dims) (ix iy iz : nat) : list nat -> outcome (list nat) :=
  push_all 13 [(node_index d ix iy iz, xyface_index d ix iy iz);
               (node_index d (ix + 1) iy iz, xyface_index d ix iy iz);
               (node_index d (ix + 1) (iy + 1) iz, xyface_index d ix iy iz);
               (node_index d ix (iy + 1) iz, xyface_index d ix iy iz)].
(** xz faces: face_to_node_, Mesh_simple.cc:544-547 *)
Definition f2n_xz (d : dims) (ix iy iz : nat) : list nat -> outcome (list nat) :=
  let istart := 4 * xzface_index d ix iy iz in
  wr_all [(istart, node_index d ix iy iz);
          (istart + 1, node_index d (ix + 1) iy iz);
          (istart + 2, node_index d (ix + 1) iy (iz + 1));
          (istart + 3, node_index d ix iy (iz + 1))].
(** xz faces: node_to_face_, Mesh_simple.cc:549-567: the value stored is xyface_index_(ix,iy,iz),
    exactly as in the source. *)
Definition n2f_xz (d : dims) (ix iy iz : nat) : list nat -> outcome (list nat) :=
  push_all 13 [(node_index d ix iy iz, xyface_index d ix iy iz);
               (node_index d (ix + 1) iy iz, xyface_index d ix iy iz);
               (node_index d (ix + 1) iy (iz + 1), xyface_index d ix iy iz);
               (node_index d ix iy (iz + 1), xyface_index d ix iy iz)].
(** yz faces: face_to_node_, Mesh_simple.cc:577-580 *)
Definition f2n_yz (d : dims) (ix iy iz : nat) : list nat -> outcome (list nat) :=
  let istart := 4 * yzface_index d ix iy iz in
  wr_all [(istart, node_index d ix iy iz);
          (istart + 1, node_index d ix (iy + 1) iz);
          (istart + 2, node_index d ix (iy + 1) (iz + 1));
          (istart + 3, node_index d ix iy (iz + 1))].
(** yz faces: node_to_face_, Mesh_simple.cc:582-600 (again xyface_index_, as in the source) *)
Definition n2f_yz (d : dims) (ix iy iz : nat) : list nat -> outcome (list nat) :=
  push_all 13 [(node_index d ix iy iz, xyface_index d ix iy iz);
               (node_index d ix (iy + 1) iz, xyface_index d ix iy iz);
               (node_index d ix (iy + 1) (iz + 1), xyface_index d ix iy iz);
               (node_index d ix iy (iz + 1), xyface_index d ix iy iz)].

(** One loop iteration that updates two independent arrays one after the other. *)
Definition two {S T} (f : nat -> nat -> nat -> S -> outcome S) (g : nat -> nat -> nat -> T -> outcome T)
  (ix iy iz : nat) (st : S * T) : outcome (S * T) :=
  a <- f ix iy iz (fst st) ;; b <- g ix iy iz (snd st) ;; Ok (a, b).

(** Mesh_simple::update_internals_3d_, Mesh_simple.cc:366-637, after clear_internals_3d_ (230-241),
    on the freshly constructed (empty) vectors.  [v0] is the value resize() fills with. *)
Definition update_internals_3d (v0 : V) (d : dims) (gx gy gz : nat -> V) (faces_requested : bool) : outcome smesh :=
  let ncells := nx d * ny d * nz d in                                   (* 367 *)
  let nnodes := (nx d + 1) * (ny d + 1) * (nz d + 1) in                 (* 368 *)
  let nfaces := (nx d + 1) * ny d * nz d + nx d * (ny d + 1) * nz d + nx d * ny d * (nz d + 1) in (* 369 *)
  crd <- for3 (nx d + 1) (ny d + 1) (nz d + 1) (coord_body d gx gy gz) (repeat v0 (3 * nnodes)) ;;  (* 377-385 *)
  cn <- for3 (nx d) (ny d) (nz d) (two (c2n_body d) (n2c_body d))
          (repeat 0 (8 * ncells), repeat 0 (9 * nnodes)) ;;             (* 399-458 *)
  cf <- for3 (nx d) (ny d) (nz d) (two (c2f_body d) (two (c2fd_body d) (f2c_body d)))
          (repeat 0 (6 * ncells), (repeat 0%Z (6 * ncells), repeat (-1)%Z (2 * nfaces))) ;; (* 461-499 *)
  f1 <- for3 (nx d) (ny d) (nz d + 1) (two (f2n_xy d) (n2f_xy d))
          (repeat 0 (4 * nfaces), repeat 0 (13 * nnodes)) ;;            (* 504-535 *)
  f2 <- for3 (nx d) (ny d + 1) (nz d) (two (f2n_xz d) (n2f_xz d)) f1 ;; (* 537-568 *)
  f3 <- for3 (nx d + 1) (ny d) (nz d) (two (f2n_yz d) (n2f_yz d)) f2 ;; (* 570-601 *)
  Ok {| spdim := 3; nodes_per_face := 4; faces_per_cell := 6; nodes_per_cell := 8;
        faces_per_node_aug := 13; cells_per_node_aug := 9;
        num_cells := ncells; num_nodes := nnodes; num_faces := nfaces;
        coordinates := crd;
        cell_to_face := fst cf; cell_to_face_dirs := fst (snd cf); cell_to_node := fst cn;
        face_to_node := fst f3; node_to_face := snd f3; node_to_cell := snd cn;
        face_to_cell := snd (snd cf);
        nodeids_owned := seq 0 nnodes; edgeids_owned := [];
        faceids_owned := if faces_requested then seq 0 nfaces else [];
        cellids_owned := seq 0 ncells |}.                               (* 603-635 *)

(** Mesh_simple 3D constructor, Mesh_simple.cc:59-100, up to cache_extra_variables/build_tiles:
    [assert(!boundary_ghosts_requested)]. *)
Definition make_simple_3d (v0 : V) (d : dims) (gx gy gz : nat -> V)
  (faces_requested boundary_ghosts : bool) : outcome smesh :=
  if boundary_ghosts then AssertFail else update_internals_3d v0 d gx gy gz faces_requested.

(** Mesh_simple 2D constructor, Mesh_simple.cc:107-123 *)
Definition make_simple_2d : outcome smesh := Thrown.

(** Mesh_simple::update_internals_1d_, Mesh_simple.cc:251-363 (nx_ = number of cells). *)
Definition update_internals_1d (x : list V) (nx : nat) (edges_requested faces_requested : bool) : outcome smesh :=
  let ncells := nx in let nnodes := nx + 1 in let nfaces := nnodes in    (* 252-254 *)
  cn <- for_lt nx (fun ix st =>
          a <- wr_all [(2 * cell_index1 ix, node_index1 ix);
                       (2 * cell_index1 ix + 1, node_index1 (ix + 1))] (fst st) ;;
          b <- push_all 3 [(node_index1 ix, cell_index1 ix);
                           (node_index1 (ix + 1), cell_index1 ix)] (snd st) ;;
          Ok (a, b)) (repeat 0 (2 * ncells), repeat 0 (3 * nnodes)) ;;   (* 268-286 *)
  cf <- for_lt nx (fun ix st =>
          a <- wr_all [(2 * cell_index1 ix, yzface_index1 ix);
                       (2 * cell_index1 ix + 1, yzface_index1 (ix + 1))] (fst st) ;;
          b <- wr_all [(2 * cell_index1 ix, (-1)%Z); (2 * cell_index1 ix + 1, 1%Z)] (fst (snd st)) ;;
          c <- wr_all [(2 * yzface_index1 (ix + 1) + 1, Z.of_nat (cell_index1 ix));
                       (2 * yzface_index1 ix, Z.of_nat (cell_index1 ix))] (snd (snd st)) ;;
          Ok (a, (b, c))) (repeat 0 (2 * ncells), (repeat 0%Z (2 * ncells), repeat (-1)%Z (2 * nfaces))) ;; (* 289-304 *)
  fn <- for_lt (nx + 1) (fun ix st =>
          a <- wr_all [(1 * yzface_index1 ix, node_index1 ix)] (fst st) ;;
          b <- push_all 2 [(node_index1 ix, xyface_index1 ix)] (snd st) ;;
          Ok (a, b)) (repeat 0 (1 * nfaces), repeat 0 (2 * nnodes)) ;;   (* 308-320 *)
  Ok {| spdim := 1; nodes_per_face := 1; faces_per_cell := 2; nodes_per_cell := 2;
        faces_per_node_aug := 2; cells_per_node_aug := 3;
        num_cells := ncells; num_nodes := nnodes; num_faces := nfaces;
        coordinates := x;
        cell_to_face := fst cf; cell_to_face_dirs := fst (snd cf); cell_to_node := fst cn;
        face_to_node := fst fn; node_to_face := snd fn; node_to_cell := snd cn;
        face_to_cell := snd (snd cf);
        nodeids_owned := seq 0 nnodes;
        edgeids_owned := if edges_requested then seq 0 (ncells + 1) else [];
        faceids_owned := if faces_requested then seq 0 nfaces else [];
        cellids_owned := seq 0 ncells |}.                                (* 322-361 *)

(** Mesh_simple 1D constructor, Mesh_simple.cc:129-163: nx_ = x.size()-1 (size_t converted to int,
    so an empty [x] gives nx_ = -1 and the resize to -1 elements throws). *)
Definition make_simple_1d (x : list V) (edges_requested faces_requested boundary_ghosts : bool) : outcome smesh :=
  match x with
  | [] => if boundary_ghosts then AssertFail else Thrown
  | _ => if boundary_ghosts then AssertFail
         else update_internals_1d x (length x - 1) edges_requested faces_requested
  end.

(** Mesh_simple::cell_get_faces_and_dirs_internal, Mesh_simple.cc:653-669 (always both lists) *)
Definition cell_get_faces_and_dirs (m : smesh) (c : nat) : outcome (list nat * list Z) :=
  let offset := faces_per_cell m * c in
  fs <- mapM (fun i => rd (cell_to_face m) (offset + i)) (seq 0 (faces_per_cell m)) ;;
  ds <- mapM (fun i => rd (cell_to_face_dirs m) (offset + i)) (seq 0 (faces_per_cell m)) ;;
  Ok (fs, ds).

(** Mesh_simple::cell_get_nodes, Mesh_simple.cc:673-683 *)
Definition cell_get_nodes (m : smesh) (c : nat) : outcome (list nat) :=
  mapM (fun i => rd (cell_to_node m) (nodes_per_cell m * c + i)) (seq 0 (nodes_per_cell m)).

(** Mesh_simple::face_get_nodes, Mesh_simple.cc:686-696 *)
Definition face_get_nodes (m : smesh) (f : nat) : outcome (list nat) :=
  mapM (fun i => rd (face_to_node m) (nodes_per_face m * f + i)) (seq 0 (nodes_per_face m)).

(** Mesh_simple::node_get_coordinates, Mesh_simple.cc:702-721 *)
Definition node_get_coordinates (m : smesh) (n : nat) : outcome (list V) :=
  mapM (fun i => rd (coordinates m) (spdim m * n + i)) (seq 0 (spdim m)).

(** Mesh_simple::cell_get_coordinates, Mesh_simple.cc:741-757 *)
Definition cell_get_coordinates (m : smesh) (c : nat) : outcome (list (list V)) :=
  ns <- cell_get_nodes m c ;; mapM (node_get_coordinates m) ns.

(** Mesh_simple::face_get_coordinates, Mesh_simple.cc:724-739 *)
Definition face_get_coordinates (m : smesh) (f : nat) : outcome (list (list V)) :=
  ns <- face_get_nodes m f ;; mapM (node_get_coordinates m) ns.

(** Mesh_simple::node_set_coordinates, Mesh_simple.cc:759-786 (both overloads): copies
    spdim scalars of [p], reading p[i] (out of range = UB). *)
Definition node_set_coordinates (m : smesh) (n : nat) (p : list V) : outcome smesh :=
  crd <- for_lt (spdim m) (fun i crd => v <- rd p i ;; wr crd (spdim m * n + i) v) (coordinates m) ;;
  Ok {| spdim := spdim m; nodes_per_face := nodes_per_face m; faces_per_cell := faces_per_cell m;
        nodes_per_cell := nodes_per_cell m; faces_per_node_aug := faces_per_node_aug m;
        cells_per_node_aug := cells_per_node_aug m;
        num_cells := num_cells m; num_nodes := num_nodes m; num_faces := num_faces m;
        coordinates := crd;
        cell_to_face := cell_to_face m; cell_to_face_dirs := cell_to_face_dirs m;
        cell_to_node := cell_to_node m; face_to_node := face_to_node m;
        node_to_face := node_to_face m; node_to_cell := node_to_cell m; face_to_cell := face_to_cell m;
        nodeids_owned := nodeids_owned m; edgeids_owned := edgeids_owned m;
        faceids_owned := faceids_owned m; cellids_owned := cellids_owned m |}.

(** Mesh_simple::node_get_cells, Mesh_simple.cc:789-800 (the type argument is ignored) *)
Definition node_get_cells (m : smesh) (n : nat) : outcome (list nat) :=
  read_bucket (cells_per_node_aug m) (node_to_cell m) n.

(** Mesh_simple::node_get_faces, Mesh_simple.cc:803-814 (the type argument is ignored) *)
Definition node_get_faces (m : smesh) (n : nat) : outcome (list nat) :=
  read_bucket (faces_per_node_aug m) (node_to_face m) n.

(** inner search of Mesh_simple.cc:835-840: does face [f] have node [n] *)
Definition face_has_node (m : smesh) (f n : nat) : outcome bool :=
  for_lt (nodes_per_face m) (fun j (found : bool) =>
    if found then Ok true
    else v <- rd (face_to_node m) (nodes_per_face m * f + j) ;; Ok (v =? n)) false.

(** Mesh_simple::node_get_cell_faces, Mesh_simple.cc:819-842 *)
Definition node_get_cell_faces (m : smesh) (n c : nat) : outcome (list nat) :=
  for_lt (faces_per_cell m) (fun i out =>
    f <- rd (cell_to_face m) (faces_per_cell m * c + i) ;;
    _ <- face_get_nodes m f ;;
    b <- face_has_node m f n ;;
    Ok (if b : bool then out ++ [f] else out)) [].

(** Mesh_simple::face_get_cells_internal, Mesh_simple.cc:845-856 *)
Definition face_get_cells (m : smesh) (f : nat) : outcome (list Z) :=
  c0 <- rd (face_to_cell m) (2 * f) ;;
  let l0 := if (c0 =? -1)%Z then [] else [c0] in
  c1 <- rd (face_to_cell m) (2 * f + 1) ;;
  Ok (l0 ++ if (c1 =? -1)%Z then [] else [c1]).

(** Mesh_simple::cell_get_face_adj_cells, Mesh_simple.cc:870-894 *)
Definition cell_get_face_adj_cells (m : smesh) (c : nat) : outcome (list Z) :=
  for_lt (faces_per_cell m) (fun i out =>
    f <- rd (cell_to_face m) (faces_per_cell m * c + i) ;;
    a0 <- rd (face_to_cell m) (2 * f) ;;
    if negb (a0 =? -1)%Z && negb (a0 =? Z.of_nat c)%Z then Ok (out ++ [a0])
    else a1 <- rd (face_to_cell m) (2 * f + 1) ;;
         if negb (a1 =? -1)%Z && negb (a1 =? Z.of_nat c)%Z then Ok (out ++ [a1]) else Ok out) [].

(** Mesh_simple::cell_get_node_adj_cells, Mesh_simple.cc:900-931 *)
Definition cell_get_node_adj_cells (m : smesh) (c : nat) : outcome (list nat) :=
  for_lt (nodes_per_cell m) (fun i out =>
    n <- rd (cell_to_node m) (nodes_per_cell m * c + i) ;;
    let offset2 := cells_per_node_aug m * n in
    ncell <- rd (node_to_cell m) offset2 ;;
    for_lt ncell (fun j out =>
      nc <- rd (node_to_cell m) (offset2 + j + 1) ;;
      if nc =? c then Ok out
      else if existsb (fun x => x =? nc) out then Ok out else Ok (out ++ [nc])) out) [].

End Simple.
