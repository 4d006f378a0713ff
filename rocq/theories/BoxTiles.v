(** Mesh_simple, 3D, constructed with tiles: the last step of its constructor (Mesh_simple.cc:92-93) and the parent mesh a MeshTile sees. *)
From Coq Require Import Reals.
From Verif Require Import Base Loop Defs Factory SimpleMesh SimpleTopo SimpleGeom Cache Point Geometry MeshGeom BoxGeom IndexPartition BlockDiscover Tiles.
Set Implicit Arguments.
Local Open Scope R_scope.

(** The queries of MeshTile::MeshTile (MeshTile.cc:86-311) on a Mesh_simple object: the counts (Mesh.hh:1725-1810), node neighbours and
    nodes of Mesh_simple, the other connectivity through the caches of class Mesh (Mesh.cc:672-703, 920-957).  A 3D Mesh_simple with edges
    requested is never constructed (face_get_edges_and_dirs_internal throws), so cell_get_edges always fails its assertion here. *)
Definition simple_tmesh (V : Type) (m : smesh V) (cm : cmesh) : tmesh :=
  TMesh (num_entities cm CELL TYPE_ALL) (num_entities cm NODE TYPE_ALL) (num_entities cm FACE TYPE_ALL) (num_entities cm EDGE TYPE_ALL)
    (cm_flags cm)
    (SimpleMesh.cell_get_node_adj_cells m) (SimpleMesh.cell_get_nodes m)
    (fun c => l <- Cache.cell_get_faces_and_dirs cm c ;; Ok (map fst l))
    (fun _ => AssertFail)
    (cell_get_sides cm) (cell_get_wedges cm) (cell_get_corners cm).
(** Mesh::get_partitioning, Mesh.cc:3081-3148, on a mesh with geometry; [idxpart] is the answer of METIS, should it be asked *)
Definition get_partitioning (have_metis : bool) (idxpart : list nat) (fuel : nat) (M : gmesh) (X : coordinates) (g : geo)
    (num_parts : nat) (p : IndexPartition.partitioner) : outcome (list (list nat)) :=
  match choose have_metis p (sdim M) with
  | AlgBlocks => get_partitioning_by_blocks fuel M X g num_parts
  | AlgMetis => partition_with_metis idxpart num_parts
  | AlgIndex => partition_by_index (num_entities (gm M) CELL PARALLEL_OWNED) num_parts
  end.
(** The 3D constructor with its last step, Mesh_simple.cc:59-93: if num_tiles_ini_ is not 0, build_tiles (Mesh.cc:598-613).
    num_tiles_ini is an int; the model takes it non-negative (a negative one asks vector::resize for a huge size). *)
Definition construct_tiled_box (x0 y0 z0 x1 y1 z1 : R) (d : dims) (fl : flags)
    (have_metis : bool) (idxpart : list nat) (p : IndexPartition.partitioner) (num_tiles : nat) (layers : Z) (fuel : nat)
    : outcome (gmesh * coordinates * geo * tdata) :=
  m <- make_box x0 y0 z0 x1 y1 z1 d (fl_faces (close_flags fl)) ;;
  cm <- cache_extra_variables (simple_topo m) (close_flags fl) ;;
  X <- node_points m ;;
  g <- update_geometric_quantities (box_g m cm) X geo0 ;;
  let M := box_g m cm in
  if (num_tiles =? 0)%nat then Ok (M, X, g, no_tiles) else
  parts <- get_partitioning have_metis idxpart fuel M X g num_tiles p ;;
  t <- build_tiles (simple_tmesh m cm) parts layers ;;
  Ok (M, X, g, t).
