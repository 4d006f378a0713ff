(** Mesh_simple as the framework under the caches of class Mesh: its constructor calls cache_extra_variables
    (Mesh_simple.cc:156, 88) on the functions below. *)
From Verif Require Import Base Loop Defs Factory SimpleMesh.
From Verif Require Cache.
Import Cache.
Set Implicit Arguments.
Section S.
Variable V : Type.
(** Mesh_simple.hh:231-243 (edge_get_nodes_internal), 440-449, 464-475 (face_get_edges_and_dirs_internal); the other functions are
    SimpleMesh's.  The id lists are those of update_internals_{1d,3d}_ (no ghosts). *)
Definition simple_topo (m : smesh V) : topo :=
  Topo (spdim m) (cellids_owned m) [] [] (nodeids_owned m) [] (faceids_owned m) [] (edgeids_owned m) []
    (fun c => r <- SimpleMesh.cell_get_faces_and_dirs m c ;; Ok (combine (fst r) (snd r)))
    (fun f => l <- SimpleMesh.face_get_cells m f ;; Ok (map Z.to_nat l))
    (fun f => if spdim m =? 1 then Ok [] else Thrown)
    (fun e => if spdim m =? 1 then Ok (e, e) else Thrown)
    (SimpleMesh.cell_get_nodes m).
(** The 1D constructor, Mesh_simple.cc:129-163 (base class constructor Mesh.hh:182-192, then update_internals_1d_, then
    cache_extra_variables; tiles aside) *)
Definition construct_1d (x : list V) (fl : flags) : outcome cmesh :=
  m <- make_simple_1d x (fl_edges (close_flags fl)) (fl_faces (close_flags fl)) false ;;
  cache_extra_variables (simple_topo m) (close_flags fl).
(** The 3D constructor, Mesh_simple.cc:30-97 *)
Definition construct_3d (v0 : V) (d : dims) (gx gy gz : nat -> V) (fl : flags) : outcome cmesh :=
  m <- make_simple_3d v0 d gx gy gz (fl_faces (close_flags fl)) false ;;
  cache_extra_variables (simple_topo m) (close_flags fl).
End S.
