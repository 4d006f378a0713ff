(** The box mesh of Mesh_simple together with the geometric quantities computed at construction. *)
From Coq Require Import Reals.
From Verif Require Import Base Loop Defs Factory SimpleMesh SimpleTopo SimpleGeom Cache Point Geometry MeshGeom.
Set Implicit Arguments.
Local Open Scope R_scope.

(** Mesh_simple::node_get_coordinates, Mesh_simple.cc:697-722, fills a Point of the space dimension (3D here) *)
Definition point_of (l : list R) : outcome point := match l with [x; y; z] => Ok (Pt 3 x y z) | _ => UB end.
(** the coordinates of all nodes *)
Definition node_points (m : smesh R) : outcome coordinates :=
  mapM (fun n => l <- SimpleMesh.node_get_coordinates m n ;; point_of l) (seq 0 (num_nodes m)).
(** The mesh object: caches, space_dim_ = 3 (Mesh.hh:153), CARTESIAN (Mesh_simple.cc:81); face_get_coordinates and cell_get_coordinates
    (Mesh_simple.cc:724-763) deliver the coordinates of face_get_nodes and cell_get_nodes in order *)
Definition box_g (m : smesh R) (cm : cmesh) : gmesh :=
  GMesh cm 3 Geometry.CARTESIAN (SimpleMesh.face_get_nodes m) (SimpleMesh.cell_get_nodes m).
(** The 3D constructor, Mesh_simple.cc:59-100: update_internals_3d_, then cache_extra_variables (Mesh.cc:565-593), whose last step is
    update_geometric_quantities (tiles aside) *)
Definition construct_box (x0 y0 z0 x1 y1 z1 : R) (d : dims) (fl : flags) : outcome (gmesh * coordinates * geo) :=
  m <- make_box x0 y0 z0 x1 y1 z1 d (fl_faces (close_flags fl)) ;;
  cm <- cache_extra_variables (simple_topo m) (close_flags fl) ;;
  X <- node_points m ;;
  g <- update_geometric_quantities (box_g m cm) X geo0 ;;
  Ok (box_g m cm, X, g).
