#!/usr/bin/env python3
# Generates /verif/properties.jsonl (one JSON object per line).
import json, os
P=[]
def p(i,title,statement,quantifier,why,anchors):
    P.append(dict(id=i,title=title,statement=statement,quantifier=quantifier,why_tests_cant=why,anchors=anchors))
BP="src/mesh/block_partition.cc: block_partition_regular_mesh"
p("C01","Block partitioning delivers exactly the requested number of blocks",
 "block_partition_regular_mesh terminates without out-of-range access and returns exactly num_blocks_requested blocks whenever 1 <= num_blocks_requested <= total number of cells.",
 "every dimension 1..3, every positive cell count per direction, every request between 1 and the number of cells",
 "The loop structure (bisection, uneven splitting, squeeze of blanked blocks) depends on the prime structure of all three counts and of the request; a test samples a few tuples and cannot show termination.",[BP])
p("C02","Blocks tile the index space",
 "The blocks returned by block_partition_regular_mesh are non-empty, pairwise disjoint and together contain every cell (i,j,k) of the grid exactly once.",
 "every dimension, counts and request as in C01, every cell of the grid","Coverage is a statement about all cells of all grids.",[BP])
p("C03","Index-space partitioning assigns every owned cell to exactly one partition",
 "get_partitioning with PARTITIONER_TYPE INDEX returns num_parts lists whose concatenation in order is 0,1,...,ncells-1: every cell is in exactly one partition and each partition is a contiguous index range.",
 "every number of cells and every positive number of parts","It must hold for every (cells, parts) pair, including those where the last parts run out of cells.",
 ["src/mesh/Mesh.cc: Mesh::get_partitioning_by_index_space"])
p("C04","Index-space partitioning leaves no partition empty when there are enough cells",
 "If there are at least as many cells as parts, no partition returned by the index partitioner is empty, and sizes differ by at most one.",
 "every number of cells and parts with cells >= parts","Whether some pair yields an empty part is an existential question over all pairs.",
 ["src/mesh/Mesh.cc: Mesh::get_partitioning_by_index_space"])
MS="src/mesh/MeshSet.cc: "
p("C05","A new mesh set reports exactly the entities it was given",
 "After construction, entities<OWNED>, entities<GHOST>, entities<ALL> are the given owned, ghost and owned-then-ghost lists; index_in_set (when reverse maps are requested) returns the position in entities<ALL> for members and -1 for non-members.",
 "every duplicate-free owned/ghost list of valid ids, every entity","Must hold for all lists and every id queried.",[MS+"MeshSet::MeshSet","src/mesh/MeshSet.hh: index_in_set"])
p("C06","add_entity inserts exactly one entity and keeps the index map consistent",
 "After add_entity(e), e is a member, membership of every other entity is unchanged, no duplicate is created, all == owned then ghost, and index_in_set agrees with positions in entities<ALL>.",
 "every consistent set and every entity, and every sequence of add_entity calls","Invariant over arbitrary operation histories.",[MS+"MeshSet::add_entity"])
p("C07","rem_entity removes exactly one entity and keeps the index map consistent",
 "After rem_entity(e), e is not a member, membership of every other entity is unchanged, and index_in_set agrees with entities<ALL> and is -1 for e.",
 "every consistent set and every entity","Invariant over arbitrary operation histories.",[MS+"MeshSet::rem_entity"])
p("C08","add_entities adds exactly the given entities",
 "After add_entities(L), the members are the old members and L, owned/ghost/all lists are consistent with each other and duplicate-free, and index_in_set agrees with entities<ALL>.",
 "every consistent set and every duplicate-free list of new entities","The outcome depends on the owned/ghost mix of the list and of the set.",[MS+"MeshSet::add_entities"])
p("C09","rem_entities removes exactly the given entities",
 "After rem_entities(L), the members are the old members not in L; no other entity is lost.",
 "every consistent set and every list (with or without repeated ids)","The swap-with-last loop is only wrong for particular orders/repetitions.",[MS+"MeshSet::rem_entities"])
p("C10","merge is set union","merge(sets) is a set whose owned and ghost members are exactly the union of the owned and ghost members of its arguments, duplicate-free; the result does not depend on argument order as a set.",
 "every non-empty list of mesh sets over one mesh","Quantifies over all lists of sets.",[MS+"merge"])
p("C11","subtract is set difference","subtract(A,{B1..Bn}) has exactly the members of A that are in no Bi, for owned and ghost lists separately.",
 "all sets A, B1..Bn","Quantifies over all lists of sets.",[MS+"subtract"])
p("C12","intersect is set intersection","intersect(sets) has exactly the entities that are members of every argument, for owned and ghost lists separately.",
 "every non-empty list of sets","Quantifies over all lists of sets.",[MS+"intersect"])
p("C13","complement is set complement","complement(sets) has exactly the owned (resp. ghost) mesh entities of the kind that are in no argument's owned (resp. ghost) list.",
 "every mesh size, every list of sets","Depends on the ghost numbering, only visible with ghosts.",[MS+"complement"])
p("C14","Set lookup returns the registered set","After make_meshset with a new name registered on the mesh, find_meshset(name, kind) returns it; earlier sets remain findable; find returns the first set with that name and kind and null when none exists.",
 "every sequence of set registrations, every name and kind","History property.",["src/mesh/Mesh.cc: Mesh::find_meshset, add_set, get_set_entities, get_set_size",MS+"make_meshset"])
SM="src/mesh/mesh_simple/Mesh_simple.cc: "
SH="src/mesh/mesh_simple/Mesh_simple.hh: "
p("C15","Structured numbering is a bijection","In the simple mesh the cells, nodes and faces get pairwise distinct ids that fill 0..num-1 exactly; the three face families do not overlap.",
 "all nx,ny,nz >= 1 and all structured positions","All sizes.",[SH+"node_index_, cell_index_, xyface_index_, xzface_index_, yzface_index_"])
p("C16","Cell-face and face-cell queries agree","face_get_cells(f) lists exactly the cells whose cell_get_faces contains f; every face has one or two cells, and the two-cell case are exactly the interior faces.",
 "every nx,ny,nz >= 1, every face and every cell","All sizes and all entities; depends on loop order of table writes.",[SM+"update_internals_3d_, update_internals_1d_, cell_get_faces_and_dirs_internal_, face_get_cells_internal_"])
p("C17","The two cells of an interior face see it with opposite directions","For an interior face shared by cells c1 and c2, the direction returned by cell_get_faces_and_dirs for c1 is the negative of that for c2.",
 "all sizes, all interior faces","All sizes and faces.",[SM+"update_internals_3d_, update_internals_1d_"])
p("C18","Node-cell queries are dual and tables never overflow","node_get_cells(n) lists exactly, once each, the cells whose cell_get_nodes contains n; between 1 and 8 of them in 3D; no table write is out of range or overlaps another node's slots.",
 "all sizes, all nodes and cells","All sizes; memory safety of table fill.",[SM+"update_internals_3d_, node_get_cells, cell_get_nodes"])
p("C19","Cell adjacency is symmetric, irreflexive and duplicate-free","cell_get_face_adj_cells and cell_get_node_adj_cells return duplicate-free lists not containing the cell itself; d is in c's list iff c is in d's list; they are exactly the distinct cells sharing a face (node).",
 "all sizes, all pairs of cells","All pairs in all meshes.",[SM+"cell_get_face_adj_cells, cell_get_node_adj_cells"])
p("C20","node_get_faces returns the faces of a node","node_get_faces(n) lists exactly the faces whose face_get_nodes contains n.",
 "all sizes, all nodes and faces","All sizes; a wrong id is only visible by cross-checking two tables.",[SM+"update_internals_3d_, node_get_faces"])
p("C21","Box-mesh geometry","For a box [x0,x1]x[y0,y1]x[z0,z1] divided nx*ny*nz, each node's coordinates are the affine grid position, every cell's node list is the axis-aligned sub-box in standard hexahedron order, and sub-box volumes sum to the box volume.",
 "all extents and all nx,ny,nz >= 1","Continuum of inputs.",[SM+"update_internals_3d_, node_get_coordinates"])
p("C22","Setting node coordinates is a point update","After node_set_coordinates(n,p), node_get_coordinates(n) is p and every other node's coordinates are unchanged; no out-of-range write.",
 "all nodes, all points, all histories","Frame property over all nodes and histories.",[SM+"node_set_coordinates, node_get_coordinates"])
p("C23","Faces of a cell are built from the cell's nodes","face_get_nodes(f) for f in cell_get_faces(c) is a list of 4 distinct nodes of c; node_get_cell_faces(n,c) lists exactly the faces of c that contain n (exactly 3 of them).",
 "all sizes, cells, faces, nodes","All sizes.",[SM+"face_get_nodes, node_get_cell_faces"])
CI="src/mesh/Mesh.cc: "
p("C24","Sides enumerate the (cell,face,edge) triples","Every triple (cell, face of the cell, edge of the face) has exactly one side; side ids are consecutive within a cell and cells' ranges follow each other; side_get_cell/face/edge return that triple and cell_get_sides lists exactly the sides of the cell.",
 "every 2D/3D mesh connectivity","Arbitrary unstructured connectivity.",[CI+"cache_side_info","src/mesh/Mesh.hh: side_get_*"])
p("C25","Opposite side is a partial involution","side_get_opposite_side(s)=t implies side_get_opposite_side(t)=s, s and t have the same face and edge and different cells; it is -1 iff no other cell has that face and edge.",
 "every connectivity where a face has at most two cells","Arbitrary unstructured connectivity; depends on construction order.",[CI+"cache_side_info"])
p("C26","Side/wedge numbering is consistent","wedge_get_side(side_get_wedge(s,i)) = s for i in {0,1}; every wedge belongs to exactly one side; wedge_get_cell/face/edge agree with the side's; the two wedges of a side have the side's two nodes.",
 "all sides and wedges","All ids.",["src/mesh/Mesh.hh: side_get_wedge, wedge_get_*"])
p("C27","Adjacent/opposite wedges","wedge_get_adjacent_wedge is an involution without fixed points staying within the side; wedge_get_opposite_wedge is a partial involution between different cells, preserving the node, and is -1 exactly on boundary faces.",
 "every connectivity, every wedge","All ids in all meshes.",["src/mesh/Mesh.hh: wedge_get_opposite_wedge, wedge_get_adjacent_wedge"])
p("C28","Corners partition the wedges","Every wedge belongs to exactly one corner; corner_get_wedges(k) are exactly the wedges with the corner's cell and node; there is exactly one corner per (cell,node) pair; corners of a cell / of a node are listed once each.",
 "every connectivity","Arbitrary connectivity.",[CI+"cache_corner_info, cell_get_corner_at_node, node_get_corners","src/mesh/Mesh.hh: corner_get_*"])
p("C29","Type lists partition the entities","The OWNED, GHOST and BOUNDARY_GHOST lists of sides, wedges and corners are disjoint, and together contain every entity exactly once; each entity's list is that of its cell's type.",
 "every connectivity and every assignment of types to cells","All assignments.",[CI+"cache_side_info, cache_wedge_info, cache_corner_info"])
p("C30","1D sides","In 1D every cell has exactly two sides, one per node, and the opposite of a side is the side of the neighbouring cell at the same node (-1 at the domain ends).",
 "every number of cells","All sizes.",[CI+"cache_side_info"])
MT="src/mesh/MeshTile.cc: "
p("C31","Tiles partition the owned cells","If the partitioner assigns each cell once, every cell is an owned cell of exactly one tile and master_tile_ID_of_cell returns that tile.",
 "every partition into cell lists","All partitions.",[MT+"MeshTile::MeshTile",CI+"build_tiles, init_tiles"])
p("C32","Each node/face/edge has exactly one owning tile","After all tiles are built, every node (face, edge) touching an owned cell of some tile is owned by exactly one tile, that tile is its master tile, and other tiles that use it list it as ghost.",
 "every connectivity and partition","Depends on order of tile construction.",[MT+"MeshTile::MeshTile"])
p("C33","Tile halo is the k-neighbourhood","With k halo layers, the ghost cells of a tile are exactly the non-owned cells at node-adjacency distance 1..k from its owned cells, without duplicates.",
 "every adjacency relation, every k, every set of owned cells","All graphs and all k.",[MT+"MeshTile::MeshTile"])
p("C34","Owned and ghost lists of a tile are disjoint and duplicate-free","For cells, nodes, faces and edges of a tile, owned and ghost lists have no repeats and no common entity, and num_entities equals the list length.",
 "every connectivity, partition, halo depth","All inputs.",[MT+"MeshTile::MeshTile","src/mesh/MeshTile.hh: num_entities"])
p("C35","Requested kinds are available on tiles","If sides (resp. wedges, corners, faces, edges) are requested on the mesh, tiles list the sides (...) of their owned cells.",
 "every combination of request flags","All combinations.",[MT+"MeshTile::MeshTile"])
p("C36","Set queries on tiles","Restricting a mesh set to a tile yields exactly the set's members that belong to the tile's list of that type.",
 "every tile and set","All inputs.",[MT+"MeshTile::get_*_of_set"])
JS="src/statemanager/JaliState.h: "
JV="src/statemanager/JaliStateVector.h: "
p("C37","State add/find","After adding a vector under (name, domain, kind, type), find returns that vector; vectors added earlier are still found under their own key; find of a never-added key fails. (A vector object of another mesh is stored under this mesh, so its key is the one with this mesh; see C38 for repeated additions of such objects.)",
 "every history of additions","History property.",[JS+"State::add, State::find, State::get"])
p("C38","Adding a duplicate does not create a second vector","Adding under an existing key returns the existing vector and leaves the state unchanged.",
 "every history","History property.",[JS+"State::add"])
p("C39","Iteration by entity kind visits exactly the vectors of that kind","entity_begin(kind)..entity_end(kind) visits each vector of that kind exactly once, in order of addition.",
 "every sequence of additions by every add overload","History property over mixed overloads.",[JS+"State::add, entity_begin, names_entity_begin"])
p("C40","get aliases, add copies","A vector obtained by get shares data with the stored vector (writes through one are seen by the other); adding an existing vector object stores an independent copy.",
 "every history of reads and writes","Aliasing is a heap property over all histories.",[JV+"UniStateVector copy constructor / assignment",JS+"State::get, State::add(in_vec)"])
p("C41","Vector sizes match the domain","A vector created on a domain has as many values as the domain has entities of that kind and type; element writes change only that element.",
 "every domain size, index and value","All sizes.",[JV+"UniStateVector"])
p("C42","add_material keeps the material tables consistent","After add_material(name, cells), the material is findable by name, its cells are the given ones, cell_materials(c) contains it exactly for those cells, and every multi-material vector has one value per (material, cell).",
 "every history of add_material/add_cells_to_material","History property.",["src/statemanager/JaliState.cc: State::add_material, add_cells_to_material"])
p("C43","rem_material keeps the material tables consistent","After rem_material(m), no cell lists m, the other materials keep their cells, and cell_materials is renumbered consistently.",
 "every reachable state and every m","History property.",["src/statemanager/JaliState.cc: State::rem_material"])
p("C44","Multi-material element access","The (m,c) element of a multi-material vector reads what was last written to (m,c), other elements are unaffected, and reading an absent (m,c) yields zero (const) or an error (non-const).",
 "all materials, cells, histories","Frame property.",[JV+"MultiStateVector::operator()"])
p("C45","Export to mesh is safe","export_to_mesh stores every exportable vector on the mesh and never dereferences an absent domain object.",
 "every state, including states with vectors on tiles or sets","All states.",["src/statemanager/JaliState.cc: State::export_to_mesh"])
p("C46","init_from_mesh imports all fields once","init_from_mesh adds one vector per field and kind found on the mesh with the mesh's values, and leaves existing vectors untouched.",
 "every set of fields","All inputs.",["src/statemanager/JaliState.cc: State::init_from_mesh"])
G="src/geometry/"
p("C47","Box region containment","BoxRegion::inside(p) is true iff every coordinate lies between the two corners (within 1e-8), independent of the order of the corners given; a dimension mismatch is an error.",
 "all corner pairs and points","Continuum.",[G+"BoxRegion.cc: BoxRegion::inside, between_"])
p("C48","Polygon area, centroid, normal","For a simple star-shaped polygon polygon_get_area_centroid_normal returns the shoelace area and a normal whose length is the area; translation invariant; convex counter-clockwise polygons have positive area and a clockwise (inverted) polygon is reported as such.",
 "all vertex lists","Continuum.",[G+"Geometry.cc: polygon_get_area_centroid_normal"])
p("C49","Polyhedron volume","polyhed_get_vol_centroid returns the exact volume of every tetrahedron and of every parallelepiped with planar faces, positive for outward-oriented faces; sign does not depend on listing order of nodes.",
 "all vertex coordinates","Continuum.",[G+"Geometry.cc: polyhed_get_vol_centroid"])
p("C50","point_in_polyhed","point_in_polyhed returns true only for points on the inner side of every face.",
 "all convex polyhedra and points","Continuum.",[G+"Geometry.cc: point_in_polyhed"])
p("C51","Polygon region containment","PolygonRegion::inside(p) is true exactly when p lies on the polygon's plane and within the polygon, regardless of the vertex order (orientation).",
 "all planar convex polygons and points","Continuum.",[G+"PolygonRegion.cc: init, inside"])
p("C52","Domains can be built from lists","A Domain of dimension 2 or 3 can be constructed from lists of models and interfaces.",
 "all dimensions and lists","All inputs.",[G+"Domain.cc: Domain::Domain"])
p("C53","Geometric model lookup","A region added to a geometric model of sufficient dimension is found by its name and id afterwards; the first of equal names wins; any region kind usable in a d-dimensional model can be added to it.",
 "every history of additions","History.",[G+"GeometricModel.cc: Add_Region, FindRegion"])
p("C54","Entity kind/type names are right","Entity_kind_string, Entity_type_string return the name of the enumerator passed, for every valid enumerator.",
 "all enumerators","Finite, but an index shift makes every sampled-by-eye name plausible.",["src/mesh/MeshDefs.hh: Entity_kind_string, Entity_type_string"])
p("C55","Requested entity closure","Requesting corners enables wedges, sides, faces and edges; requesting wedges enables sides, faces and edges; requesting sides enables faces and edges, for every flag combination.",
 "all flag combinations and dimensions","All combinations.",["src/mesh/Mesh.hh: Mesh::Mesh"])
MF="src/mesh/mesh_factory/"
p("C56","reset_options restores the defaults","After reset_options, the factory behaves like a newly created one, whatever options were set before.",
 "every history of option changes","History.",[MF+"MeshFactory.cc: reset_options",MF+"MeshFactory.hh"])
p("C57","1D factory produces the requested number of cells","The 1D convenience creation with nx cells over [x0,x1] yields nx cells spanning [x0,x1].",
 "all nx, x0 < x1","Continuum.",[MF+"MeshFactory.hh: operator()"])
p("C58","Factory rejects invalid requests","create throws for non-positive counts or extents and never returns a null mesh silently.",
 "all arguments and preferences","All inputs.",[MF+"MeshFactory.cc: create"])
p("C59","Exception behaviour can be selected","After set_exception_behavior_raise/abort, Jali_throw in any source file raises/aborts accordingly and exception_behavior reports the behaviour in effect.",
 "every history and every calling translation unit","Linkage-level property across translation units.",["src/error_handling/exceptions.hh: Jali_throw, exception_behavior","src/error_handling/exceptions.cc"])
p("C60","Recomputing geometry refreshes it","After node motion and update_geometric_quantities, every geometric query returns the value for the current coordinates.",
 "every history of coordinate changes","History.",[CI+"update_geometric_quantities, compute_side_geometric_quantities, side_facet_normal"])
p("C61","face_normal orientation","face_normal(f, c, &dir) points out of c: it is dir times the natural normal; an invalid cell is an error.",
 "all faces, cells","All inputs.",[CI+"face_normal"])
p("C62","Logical regions denote set operations","A set built from a LogicalRegion UNION/SUBTRACT/INTERSECT/COMPLEMENT of component regions is the corresponding operation on the component sets, and building it does not alter the component sets.",
 "every component list","All inputs.",[CI+"build_set_from_region"])
p("C63","face_get_cells filters by type","face_get_cells(f,type) returns the cells of f with that parallel type, in the same order as in the ALL answer; OWNED and GHOST answers partition the ALL answer.",
 "every face-cell table and type assignment","All inputs.",[CI+"face_get_cells, cache_face2cell_info, cache_type_info"])
p("C64","num_entities equals list lengths","num_entities(kind,type) equals the length of the list of entities of that kind and type and ALL is the sum of the parts.",
 "every kind, type and mesh","All inputs.",["src/mesh/Mesh.hh: Mesh::num_entities","src/mesh/Mesh.cc: cache_type_info"])
p("C65","Point algebra","Point dot/cross products satisfy the vector identities: cross product orthogonal to its arguments, antisymmetric, |a x b|^2 + (a.b)^2 = |a|^2|b|^2.",
 "all points","Continuum.",["src/geometry/Point.hh"])
p("C66","Plane and point region containment","PlaneRegion::inside(p) iff p is within tolerance of the plane; PointRegion::inside(p) iff p is within tolerance of the point; both reject dimension mismatches.",
 "all points, normals","Continuum.",[G+"PlaneRegion.cc",G+"PointRegion.cc"])
p("C67","Mesh creation is collective","Either every rank of the communicator gets a mesh or every rank gets an exception; no rank is left waiting in a collective call that the others do not make.",
 "any number of ranks, any per-rank arguments and constructor outcomes","Depends on every combination of per-rank failures.",["src/mesh/mesh_factory/MeshFactory.cc: MeshFactory::create"])
p("C68","One-dimensional cells","segment_get_vol_centroid and face1d_get_area give, in every geometry type of the mesh, the exact cell volume (interval, spherical shell, cylindrical shell) and face area; volumes are positive for increasing nodes and add up over a mesh.",
 "all node positions, all geometry types, any number of cells","Continuum.",[G+"Geometry.cc: segment_get_vol_centroid, face1d_get_area"])
p("C69","point_in_polygon","A point strictly inside a convex polygon is reported inside, and a point reported inside is inside or on the boundary, whatever the starting vertex and orientation of the vertex list.",
 "all convex polygons and points","Continuum.",[G+"Geometry.cc: point_in_polygon"])
p("C70","Copies of regions and names of logical operations","A copy of a region is the same region: it contains the same points, and a logical region or labeled set keeps its operation, components, entity and label. A logical region can be made from exactly the names Complement, Union, Intersect and Subtract.",
 "all regions and all strings","Every region, every string.",[G+"LogicalRegion.cc: copy constructor, constructor",G+"LabeledSetRegion.cc: copy constructor",G+"BoxRegion.cc, PlaneRegion.cc, PolygonRegion.cc: copy constructors"])
p("C71","The sides, wedges and corners of a cell fill it","For every cell (not a boundary ghost) the volumes of its sides add up to the volume of the cell, and so do those of its wedges and of its corners.",
 "all meshes, all node positions and histories of motion, all cells: 3D with planar faces, 2D convex; 1D","Continuum of coordinates and every mesh topology.",["src/mesh/Mesh.cc: compute_side_geometry, compute_corner_geometry","src/mesh/Mesh.cc: side_volume, wedge_volume, corner_volume, cell_volume"])
p("C72","Facet normals of sides add up to the face normal","For a cell c and a face f of it, the outward facet normals of the sides of c on f add up to face_normal(f) seen from c.",
 "all 2D and 3D meshes, node positions, cells and faces","Continuum, every topology.",["src/mesh/Mesh.cc: side_facet_normal, face_normal"])
p("C73","Face normals of a cell sum to zero","The outward area-weighted face normals of a cell sum to the zero vector, and sum over the faces of normal . (face centroid - o) is dim times the cell volume, for every origin o.",
 "all 2D and 3D meshes, node positions, cells, origins","Continuum, every topology; finite-volume schemes rely on it for conservation.",["src/mesh/Mesh.cc: face_normal, face_centroid, compute_face_geometry"])
p("C74","Facet normals of wedges","wedge_facet_normal(w,0) and (w,1) are the outward area-weighted normals of the facet of w on the face and of the facet shared with the other wedge of its side; the latter of the two wedges are opposite.",
 "all meshes, node positions, wedges","Continuum, every topology.",["src/mesh/Mesh.cc: wedge_facet_normal, compute_side_geometry"])
p("C75","Coordinates of sides and wedges","wedge_get_coordinates returns node, (edge centre,) face centre, cell centre; with posvol_order the documented volume formula applied to them gives wedge_volume. The same for side_get_coordinates and side_volume.",
 "all meshes, node positions, sides and wedges, both orders","Continuum, every topology.",["src/mesh/Mesh.cc: wedge_get_coordinates, side_get_coordinates"])
p("C76","Lengths, vectors and centres of edges and faces","edge_length is the distance of the end points of the edge, edge_centroid the point half way, edge_vector(e,,p) leads from p to the other end point (p must be an end point) and its orientation says whether that is the natural direction. face_area and face_centroid are the measure and the centre of gravity of the face.","all 1D, 2D and 3D meshes, histories of motion, edges, faces, nodes, cached or recomputed","They range over all coordinates and all sequences of motions; a test fixes a mesh.",["src/mesh/Mesh.cc: edge_vector, edge_length, edge_centroid, face_area, face_centroid, compute_face_geometry, compute_edge_geometry"])
p("C77","The set of a simple region","build_set_from_region(name,kind) for a region that is not logical makes a set of that name and kind that holds exactly the entities belonging to the region: cells and faces whose centroid is in the box, cells (2D) and faces with all vertices on the plane or polygon, nodes in the region, the labeled entities; owned and ghost apart, ascending, without repeats. Other sets stay as they are. For a point region, the cells containing the point.",
 "all meshes and numberings with ghosts, all node positions, all regions and tolerances, all histories of earlier sets","Continuum of geometry, every mesh and history.",["src/mesh/Mesh.cc: build_set_from_region"])
p("C78","init_sets_from_geometric_model makes all wanted sets","After init_sets_from_geometric_model, every region has a set of each kind requested for it (or of the default kinds: cells for regions of the dimension of the model, faces for dimension at least one less, nodes always; a labeled set has the kind of its label), found by find_meshset and holding exactly the entities of the region; earlier sets are kept and no other sets appear.",
 "all geometric models of any number of regions nested to any depth, all request maps, all meshes","Every model and request.",["src/mesh/Mesh.cc: init_sets_from_geometric_model"])
p("C79","point_in_cell","point_in_cell(p,c) tells whether p lies in cell c; in a mesh that fills a domain every point of the domain is in a cell, in 2D in exactly one, also on shared edges and nodes.",
 "all meshes of any number of cells, all points","Continuum.",["src/mesh/Mesh.cc: point_in_cell"])
p("C80","Looking up a set by region","find_meshset_from_region(name,kind) finds the set of a region iff the name is valid for the kind and there is such a set; with create_if_missing a missing one is made; a name is valid iff it names a region on which entities of that kind can be asked.",
 "all geometric models, meshes, names, kinds and histories","Every model and history.",["src/mesh/Mesh.cc: valid_region_name, find_meshset_from_region"])
p("C81","Generated box meshes have exact geometry","A box mesh generated with faces reports, for every cell, face and point, the exact Cartesian values, right after construction and after every later motion of the nodes onto another grid of planes: volume and centroid of a cell are those of its box, area and centroid of a face those of its rectangle, the normal with respect to a cell points out of the cell with the area as its length, the volumes add up to that of the whole box, point_in_cell is true exactly for points of the closed box of the cell, so every point of the box is in a cell and only points on inner grid planes are in several.",
 "all boxes, all numbers of cells in each direction, all increasing grid lines, all histories of motion, all points","Continuum of coordinates and unbounded numbers of cells; tests look at a few cells.",["src/mesh/mesh_simple/Mesh_simple.cc","src/mesh/Mesh.cc: update_geometric_quantities, cell_volume, cell_centroid, face_area, face_centroid, face_normal, point_in_cell"])
p("C82","Shape of corners","corner_get_facetization describes the surface of a corner: in 3D triangles on the corner's node, the centre of the cell and the centres of the edges and faces of the corner at that node, each once, forming a closed surface seen from outside that encloses corner_volume; in 2D the quadrilateral node, face centre, cell centre, face centre counter-clockwise; in 1D the two ends. corner_get_coordinates returns the same points, counter-clockwise in 2D and in increasing order in 1D.",
 "all meshes, node positions and histories of motion, all corners; any number of wedges per corner","Continuum, every topology.",["src/mesh/Mesh.cc: corner_get_facetization (3D, 2D, 1D), corner_get_coordinates"])
p("C83","Edges of cells","With edges requested, cell_get_edges(c) is the framework's edge list of c for every cell and numbering (the nodes in 1D), cell_2D_get_edges_and_dirs adds the directions, and face_to_cell_edge_map(f,c,map) sets map[i] to the position of the i-th edge of f in that list, whatever map held before; without edges requested these queries stop. cell_get_num_faces is the number of faces of the cell.",
 "all meshes and numberings, cells, faces, earlier contents of the caller's vector","Every mesh topology and every earlier content of the output vector.",["src/mesh/Mesh.cc: cache_cell2edge_info, cell_get_edges, cell_2D_get_edges_and_dirs, face_to_cell_edge_map, cell_get_num_faces"])
p("C84","Regular meshes generated for the MSTK framework are the blocks of one grid","For every box, every grid size and every number of processors from 1 to the number of cells, constructing a regular 2D or 3D mesh with the MSTK framework makes, on each processor, exactly the nodes, edges, faces and cells of one block of the grid: each entity once, with the right corners in the right order (in 2D each cell's edges, in the directions the cell uses them, go once round the cell anticlockwise), the nodes at the evenly spaced grid points with the far corner exact, and each entity classified on the smallest part of the box (vertex, edge, face, interior) it lies on. The global ids number the entities of the whole grid from 1 without gaps, whatever the partition: over all processors the cells carry every id exactly once, and two processors give two nodes, edges, faces or cells the same global id exactly when they join the same points.",
 "all domains, grid sizes, processor counts and ranks, and all pairs of entities on any two ranks","The numbering formulas mix strides of three entity families per dimension and the classification comes from lookup tables; tests build a few small meshes on a few processor counts and mostly check totals.",["src/mesh/mesh_mstk/Mesh_MSTK.cc:Mesh_MSTK::generate_regular_mesh", "src/mesh/mesh_mstk/Mesh_MSTK.cc:Mesh_MSTK::Mesh_MSTK", "src/mesh/block_partition.cc:block_partition_regular_mesh"])
p("C85","Ids of an MSTK mesh number every entity once, by type","After construction of a mesh with the MSTK framework, for nodes, cells and the requested edges and faces: the ids are 0, 1, 2, ... with the owned entities first, then the ghosts of other processors, then the boundary ghosts; every entity of the MSTK mesh has exactly one id and every id stands for one entity; nodes<T>(), edges<T>(), faces<T>(), cells<T>() list exactly the ids whose entity has type T; and two ids of a kind never have the same GID.",
 "all MSTK meshes in 2D and 3D, serial or parallel, all distributions of owned, ghost and boundary ghost entities, all requests for edges and faces","Depends on the interleaving of owned and ghost entities in the order of the mesh database; a parallel test sees a handful of partitions.",["src/mesh/mesh_mstk/Mesh_MSTK.cc:Mesh_MSTK::post_create_steps_", "src/mesh/mesh_mstk/Mesh_MSTK.cc:Mesh_MSTK::init_vertex_id2handle_maps", "src/mesh/mesh_mstk/Mesh_MSTK.cc:Mesh_MSTK::init_pcell_lists", "src/mesh/mesh_mstk/Mesh_MSTK.cc:Mesh_MSTK::GID"])
p("C86","Upward adjacency queries agree with the downward ones on MSTK meshes","node_get_cells, node_get_faces, node_get_cell_faces and face_get_cells of a mesh of the MSTK framework return each entity of the requested type that has the given node or face among its own nodes or faces, exactly once, and nothing else; a face has at most two cells; cell_get_face_adj_cells returns exactly the other cells that share a face (once per shared face) and is symmetric; cell_get_node_adj_cells exactly the other cells that share a node, once each; the answer for ALL is that for PARALLEL_OWNED and PARALLEL_GHOST together.",
 "all well-formed MSTK meshes in 2D and 3D, all nodes, faces, cells and types","The queries are separate loops for 2D and 3D with duplicate suppression by markers; tests compare counts on a few regular meshes.",["src/mesh/mesh_mstk/Mesh_MSTK.cc:Mesh_MSTK::node_get_cells", "src/mesh/mesh_mstk/Mesh_MSTK.cc:Mesh_MSTK::node_get_cell_faces", "src/mesh/mesh_mstk/Mesh_MSTK.cc:Mesh_MSTK::cell_get_face_adj_cells", "src/mesh/mesh_mstk/Mesh_MSTK.cc:Mesh_MSTK::cell_get_node_adj_cells"])
p("C87","Ordered faces of standard cells go round the base, then base, then top","cell_get_faces_and_dirs(ordered=true) of a mesh of the MSTK framework returns, for a tetrahedron, hexahedron, prism or pyramid, exactly the faces and directions of the unordered call, in the documented order: first one lateral face along each edge of a base face, going round the base as seen from inside the cell, then the base face, then (hexahedra, prisms) the face that shares no edge with the base; for other cells and in 2D it is the unordered call.",
 "all well-formed MSTK meshes, all cells whatever the stored order and orientation of their faces","The ordering code searches for the base and for the lateral face across each edge; its result depends on the stored order of faces, edges and their directions, and tests check one or two generated cells.",["src/mesh/mesh_mstk/Mesh_MSTK.cc:Mesh_MSTK::cell_get_faces_and_dirs_ordered", "src/mesh/mesh_mstk/Mesh_MSTK.cc:Mesh_MSTK::cell_get_type", "src/mesh/mesh_mstk/Mesh_MSTK.hh:region_celltype"])
p("C88","All ranks show shared edges and faces with the same orientation","In a distributed mesh of the MSTK framework, two ranks that hold a copy of the same edge (face) return its nodes in the same order (for 3D faces: in the same sense of rotation), although MSTK may store the copies with opposite directions, and a cell that several ranks hold uses each of its faces with the same direction on all of them; construction succeeds.",
 "all distributed meshes, numbers of ranks, pairs of ranks, edges, faces and cells, with any orientation of the stored copies","Orientation depends on the partition and on how each rank happened to store its copy; a test runs with one partition and a few ranks.",["src/mesh/mesh_mstk/Mesh_MSTK.cc:Mesh_MSTK::cell_get_faces_and_dirs_unordered", "src/mesh/mesh_mstk/Mesh_MSTK.cc:Mesh_MSTK::init_pface_dirs", "src/mesh/mesh_mstk/Mesh_MSTK.cc:Mesh_MSTK::init_pedge_dirs", "src/mesh/mesh_mstk/Mesh_MSTK.cc:Mesh_MSTK::face_get_nodes", "src/mesh/mesh_mstk/Mesh_MSTK.cc:Mesh_MSTK::edge_get_nodes"])
p("C89","Sides, wedges, corners and orientations on MSTK meshes","On a mesh of the MSTK framework the connectivity queries together form a valid mesh connectivity (consecutive ids, no repeats, a face has at most two cells, which use it in opposite directions, the nodes of a cell are the end points of its edges), so that sides, wedges and corners can be constructed and have the properties of C24-C29; and the directions agree with one another: the edges of a face, in the directions of face_get_edges_and_dirs, go round the face like its nodes; the faces of a cell form a closed surface; the two nodes of a side run round its face as seen from inside the cell (in 2D: along the cell's polygon); cell_2D_get_edges_and_dirs agrees with edge_get_nodes and cell_get_nodes.",
 "all well-formed MSTK meshes in 2D and 3D, serial or one rank of a distributed mesh with any stored orientation of ghosts, all cells, faces, edges and sides","It relates seven queries of the derived class and the caches of the base class on every mesh and every partition; tests run the geometry on a few small meshes, mostly serial.",["src/mesh/mesh_mstk/Mesh_MSTK.cc:Mesh_MSTK::face_get_edges_and_dirs_internal", "src/mesh/mesh_mstk/Mesh_MSTK.cc:Mesh_MSTK::cell_2D_get_edges_and_dirs_internal", "src/mesh/Mesh.cc:Mesh::cache_side_info", "src/mesh/mesh_mstk/Mesh_MSTK.cc:Mesh_MSTK::face_get_coordinates"])
p("C90","BLOCK partitioning finds the structure of a regular mesh","A mesh constructed with Partitioner_type::BLOCK is cut into rectangular blocks of cells: the partitioner finds the extent of the domain and the number of cells in each direction by itself, and then every cell of the mesh is in exactly one tile and every tile is a non-empty brick of neighbouring cells. More tiles than cells fail an assertion.",
 "all box meshes (numbers of cells, extents, uniform or graded grid lines), all line meshes, all numbers of parts","The walk from cell to cell depends on face normals, face adjacency and face centroids of every cell along the way; the number of cells and the grid spacing are unbounded.",["src/mesh/Mesh.cc:Mesh::get_partitioning_by_blocks", "src/mesh/Mesh.cc:Mesh::get_partitioning", "src/mesh/block_partition.cc"])
p("C91","Labeled sets hold exactly the entities of the file's set","On an MSTK mesh, the set built from a labeled set region holds exactly the entities of the set in the mesh file that the label names (element block or element set for cells, side set for faces, node set for nodes), by their mesh ids, owned and ghost entities apart and each once; a label the file does not have gives an empty set; a label that is both an element block and an element set, or a request for another kind of entity than the region's, is refused. A set of the wrong kind of entities is refused when the mesh is made (only for the spelling Entity_kind::..., and not for element sets).",
 "every MSTK mesh (any partition, ghosts, flags), every list of file sets, every labeled set region, every state of the mesh's sets","the id numbering, the parallel partition and the naming conventions of the file interact; tests use one small Exodus file",["src/mesh/mesh_mstk/Mesh_MSTK.cc:get_labeled_set_entities,internal_name_of_set,init_set_info", "src/mesh/Mesh.cc:build_set_from_region"])
p("C92","An extracted surface mesh is a faithful copy of the chosen entities","Extracting distinct cells of a 2D mesh or distinct faces of a 3D mesh with the MSTK framework gives a mesh with exactly one cell per chosen entity, in the order given, each reporting that entity as its parent; the cell's nodes and faces are copies of the parent's nodes and bounding faces (edges in 3D), in the same order and with the same directions; faces and nodes shared by chosen entities are shared by the copies; nothing else is copied; every node keeps its coordinates (height 0 if flattened). Extruding, flattening cells of a 3D mesh and extracting edges or nodes are refused. A repeated id gives something that is not a mesh, and an id that does not exist is not detected",
 "every serial MSTK mesh (2D, or 3D with edges), every list of ids, both values of flatten, any coordinates","depends on how chosen entities share faces, edges and nodes, and on copying order; tests extract one plane of one box",["src/mesh/mesh_mstk/Mesh_MSTK.cc:Mesh_MSTK (extraction constructors),extract_mstk_mesh,entity_get_parent"])
p("C93","An extracted solid mesh is a faithful copy of the chosen cells","Extracting distinct cells of a 3D mesh with the MSTK framework gives a mesh with exactly one cell per chosen cell, in the order given, each reporting that cell as its parent; its faces are copies of the parent's faces in the same order with the same directions, its nodes are the copies of the parent's nodes; a face has copies of its parent's nodes in the same order; faces and nodes shared by chosen cells are shared by the copies; nothing else is copied; nodes keep their coordinates. The parent of an edge is not recorded: every edge claims edge 0. A repeated id gives something that is not a mesh",
 "every serial 3D MSTK mesh, every list of ids, any coordinates","depends on how the chosen cells share faces and nodes and on copying order",["src/mesh/mesh_mstk/Mesh_MSTK.cc:Mesh_MSTK (extraction constructors),extract_mstk_mesh,entity_get_parent"])
p("C94","Labeled sets are carried over to an extracted mesh","If a labeled set region spells its kind as Entity_kind::CELL, FACE or NODE and names an element block, side set or node set of the source mesh's file, the extracted mesh has a set under this label: on a mesh of the same dimension exactly the entities whose parents are in the parent's set; on a surface of a solid the nodes whose parents are in it, the cells whose parents are faces of its cells, the faces whose parents are edges of its faces - except that a set of faces with one of the chosen faces is left out. Each entity occurs once, none as a ghost. Not inherited at all: regions that spell the kind plainly (CELL, FACE, NODE), the only spelling by which a set can be looked up by region name, and element sets. A mesh that was not extracted answers parent 0 for every entity",
 "every serial source mesh, every list of distinct ids, all three kinds of extraction, every list of file sets and regions","set contents are mapped through the copies made during extraction; no test inherits a set",["src/mesh/mesh_mstk/Mesh_MSTK.cc:inherit_labeled_sets,extract_mstk_mesh,get_labeled_set_entities,entity_get_parent"])
p("C95","Extraction by set names takes the owned entities of the named sets","Extracting a mesh by the names of labeled set regions is the same as extracting it by the list of the owned ids of the sets the labels name, each id once, however many of the sets it is in. A name no region has is not refused but undefined; regions that are not labeled sets and labels of element sets contribute nothing although the framework has a set of that name with entities, and the result may be an empty mesh, without any error",
 "every MSTK mesh (also parallel), every list of names, every list of file sets and regions, every kind of entity","ghosts, overlapping sets and naming conventions interact; the test uses one geometric or labeled set",["src/mesh/mesh_mstk/Mesh_MSTK.cc:Mesh_MSTK (constructors with setnames),internal_name_of_set"])
p("C96","A stored field's value i belongs to the entity with id i only if ids follow the file's order","On an MSTK mesh get_field returns what store_field stored, place by place, and leaves the rest of the array alone. The value with index i is the value of the entity with id i, for every array, exactly if the ids of the kind are in the order of the library's entities; this is so if there are no ghosts, or no owned entity after a ghost. On a rank where a ghost comes before an owned entity, values indexed by id are attached to other entities",
 "every MSTK mesh, serial or one rank of a distributed one, every kind, every array","depends on the order in which ghosts are in the library's lists; tests store and read back in the same order, which never shows it",["src/mesh/mesh_mstk/Mesh_MSTK.cc:store_field,get_field", "src/statemanager/JaliState.cc:export_to_mesh"])
p("C97","Boundary ghost cells of the MSTK framework","If boundary ghosts are requested, every face that is not a ghost, is not on the boundary between two ranks and has a single cell gets exactly one boundary ghost: a cell of type BOUNDARY_GHOST with that face alone, in the direction opposite to the one the interior cell has; afterwards the face has the two cells. There are no other boundary ghosts, other faces keep their cells, and the nodes, edges, faces, owned and ghost cells keep their ids, types, faces and nodes. Queries for neighbours of type PARALLEL_OWNED return only owned cells.",
 "every MSTK mesh (2D or 3D) without boundary ghosts, serial or one rank of a parallel run, every set of faces on the boundary between ranks","the loop adds cells to the mesh while it runs over its faces; tests look at the boundary of one box",["src/mesh/mesh_mstk/Mesh_MSTK.cc:4433-4476 create_boundary_ghosts", "src/mesh/mesh_mstk/Mesh_MSTK.cc:3363-3395 post_create_steps_", "src/mesh/mesh_mstk/Mesh_MSTK.cc:2227-2304 cell_get_face_adj_cells_internal"])
p("C98","Collapsing degenerate edges of an imported mesh","After reading an Exodus or Nemesis file no edge of the mesh has (nearly) zero length; every processor keeps the same one of the two vertices of a degenerate edge (the one with the lower global id if topology permits); ghosts of entities that were merged away carry the global id of the entity that replaced them, and mesh sets name the replacement, never a deleted entity. A mesh without degenerate edges is left alone; if an edge cannot be collapsed there is an error.",
 "every mesh on every number of processors, every placement of degenerate edges, all mesh sets, every behaviour of ME_Collapse that meets its contract","Test files have no or isolated degenerate edges; chains of them, sets containing both ends and several processors are not reachable by a handful of files.",["src/mesh/mesh_mstk/Mesh_MSTK.cc: Mesh_MSTK::collapse_degen_edges (4212-4431)"])
p("C99","Reading a mesh from a file","An Exodus file (.exo) or a Nemesis file (.par) is recognised by its extension, imported, its degenerate edges collapsed, and distributed over or woven between the ranks with the ghost layers and the partitioner the user asked for; other files and failures of the library are errors. Afterwards all ranks agree on the manifold and space dimensions, and a two-dimensional mesh has space dimension 2 exactly if all its vertices lie in one plane z = const.",
 "all file names, partitioners, numbers of ranks and layers, all answers of the library, all distributions of a mesh over the ranks","A test reads a handful of well-named files on a handful of ranks with the default partitioner.",["src/mesh/mesh_mstk/Mesh_MSTK.cc: Mesh_MSTK::init_mesh_from_file_ (64-144), Mesh_MSTK(filename) (150-229)", "src/mesh/mesh_mstk/Mesh_MSTK.hh: init_mesh_from_file_ (550-552)"])
p("C100","Parents of ghosts in a parallel extraction","After a mesh has been extracted in parallel, every ghost entity of the new mesh has a parent on its own rank: that rank's copy of the entity the ghost's original was made from; own entities keep the parents they had. Ranks that lack such a copy get an error, and none lacks it if the new mesh asks for no more ghost layers than the mesh it is extracted from has.",
 "all meshes and distributions, numberings, sets of extracted entities, numbers of ranks and ghost layers","A test compares a few parents on one distribution; wrong parents or a missing one appear only for some distributions and layers.",["src/mesh/mesh_mstk/Mesh_MSTK.cc: Mesh_MSTK::extract_mstk_mesh (996-1113)"])
p("C101","Extraction does not disturb the base mesh","Extracting meshes from a mesh leaves the base mesh as it was: whatever was extracted from it before, and in whatever order, the next extraction gives exactly what it would give on a mesh that nothing was ever extracted from; requests that are refused leave no trace either.",
 "all meshes, all histories of extractions (of cells, faces, with repetitions and overlaps, refused ones in between)","A test extracts one or two meshes; marks left behind show only when a later extraction meets the same entities.",["src/mesh/mesh_mstk/Mesh_MSTK.cc: Mesh_MSTK::extract_mstk_mesh (797-961, 1121-1206)"])
p("C102","Moving nodes in an MSTK mesh","After any sequence of calls of node_set_coordinates, every node is at the point it was last moved to, or where it was; all versions of node_get_coordinates agree; cell_get_coordinates and face_get_coordinates give the points of the nodes that cell_get_nodes and face_get_nodes list, in that order. Setting by an array of as many numbers as the space has dimensions is the same as setting by a point.",
 "all meshes in 2 and 3 space dimensions (surfaces too), all sequences of changes, all nodes, cells and faces","A test moves a few nodes of one mesh, and mostly through one of the overloads.",["src/mesh/mesh_mstk/Mesh_MSTK.cc: Mesh_MSTK::node_get_coordinates (2398-2443), cell_get_coordinates (2452-2496), face_get_coordinates (2504-2551), node_set_coordinates (2557-2572)", "src/mesh/Mesh.hh: Mesh::node_get_coordinates (2209-2215)"])
p("C103","The tiles of a structured box","A box mesh constructed with n tiles gets exactly n tiles. Partitioned in blocks, each tile owns the cells of a non-empty brick of neighbouring cells; its ghost cells are the other cells of that brick widened by the requested number of layers in all directions, as far as the box goes; it owns the nodes in and on the brick that no earlier tile owns, and has the other nodes in and on the widened brick as ghosts. By index, the tiles own consecutive ranges of cell ids; by METIS, the parts METIS gives. For any history of tile requests the ghost cells are the cells at most that many steps away from the tile's own cells, and every node and face of a tile's own cells is owned by the first tile that has it and asked for its kind.",
 "all box sizes, extents, numbers of tiles, numbers of layers, partitioners and answers of METIS; all histories of tile requests, also after nodes have moved","A test builds a few tiles of a 3x3x3 mesh with one layer and checks counts.",["src/mesh/mesh_simple/Mesh_simple.cc: Mesh_simple::Mesh_simple (30-97), cell_get_node_adj_cells (900-931)", "src/mesh/Mesh.cc: Mesh::build_tiles (598-613), get_partitioning (3081-3148)", "src/mesh/MeshTile.cc: MeshTile::MeshTile (86-311)"])
with open(os.path.join(os.path.dirname(__file__),"..","properties.jsonl"),"w") as f:
    for o in P: f.write(json.dumps(o)+"\n")
print(len(P))
