(** Specification vocabulary: the connectivity that the queries of an MSTK mesh report. *)
From Coq Require Import Permutation.
From Verif Require Import Base Defs Cache Cache_spec Geometry_spec MstkMesh MstkMesh_spec.
Set Implicit Arguments. Unset Strict Implicit.

(** the list a query returns *)
Definition ans {A} (o : outcome (list A)) : list A := match o with Ok l => l | _ => [] end.
(** cell_get_faces_and_dirs, face_get_edges_and_dirs, edge_get_nodes, cell_get_nodes as functions *)
Definition api_shape (j : jmesh) : shape :=
  Shape (fun c => ans (cell_faces j false c)) (fun f => ans (face_edges j f)) (fun e => match edge_nodes j e with Ok p => p | _ => (0, 0) end) (fun c => ans (cell_nodes j c)).
(** face_get_nodes, cell_get_nodes as functions *)
Definition api_face_nodes (j : jmesh) (f : nat) : list nat := ans (face_nodes j f).
Definition api_cell_nodes (j : jmesh) (c : nat) : list nat := ans (cell_nodes j c).
(** the faces of a region, all seen from outside, form a closed surface: each edge is traversed once in either direction *)
Definition sealed (m : mstk) (r : nat) : Prop :=
  let E := flat_map (fun fd : nat * bool => if snd fd then edges (k_fv m (fst fd)) else map swap (edges (k_fv m (fst fd)))) (k_rf m r) in Permutation E (map swap E).
