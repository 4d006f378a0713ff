(** A mesh object of the MSTK framework with its geometry: Mesh_MSTK under the geometry code of class Mesh (MeshGeom.v). *)
From Verif Require Import Base Defs Cache MeshGeom MstkMesh.
Set Implicit Arguments. Unset Strict Implicit.
(** face_get_coordinates and cell_get_coordinates, Mesh_MSTK.cc:2452-2551: the coordinates of the nodes of face_get_nodes (same use of faceflip)
    and of cell_get_nodes, in their order.  Space dimension = manifold dimension: surface meshes are not modelled. *)
Definition mstk_gmesh (j : jmesh) (M : cmesh) (gt : Geometry.geom_type) : gmesh := GMesh M (k_dim (j_mesh j)) gt (face_nodes j) (cell_nodes j).
