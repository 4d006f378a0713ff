{"id": "C01", "title": "Block partitioning delivers exactly the requested number of blocks", "statement": "block_partition_regular_mesh terminates without out-of-range access and returns exactly num_blocks_requested blocks whenever 1 <= num_blocks_requested <= total number of cells.", "quantifier": "every dimension 1..3, every positive cell count per direction, every request between 1 and the number of cells", "why_tests_cant": "The loop structure (bisection, uneven splitting, squeeze of blanked blocks) depends on the prime structure of all three counts and of the request; a test samples a few tuples and cannot show termination.", "anchors": ["src/mesh/block_partition.cc: block_partition_regular_mesh"]}
{"id": "C02", "title": "Blocks tile the index space", "statement": "The blocks returned by block_partition_regular_mesh are non-empty, pairwise disjoint and together contain every cell (i,j,k) of the grid exactly once.", "quantifier": "every dimension, counts and request as in C01, every cell of the grid", "why_tests_cant": "Coverage is a statement about all cells of all grids.", "anchors": ["src/mesh/block_partition.cc: block_partition_regular_mesh"]}
{"id": "C03", "title": "Index-space partitioning assigns every owned cell to exactly one partition", "statement": "get_partitioning with PARTITIONER_TYPE INDEX returns num_parts lists whose concatenation in order is 0,1,...,ncells-1: every cell is in exactly one partition and each partition is a contiguous index range.", "quantifier": "every number of cells and every positive number of parts", "why_tests_cant": "It must hold for every (cells, parts) pair, including those where the last parts run out of cells.", "anchors": ["src/mesh/Mesh.cc: Mesh::get_partitioning_by_index_space"]}
{"id": "C04", "title": "Index-space partitioning leaves no partition empty when there are enough cells", "statement": "If there are at least as many cells as parts, no partition returned by the index partitioner is empty, and sizes differ by at most one.", "quantifier": "every number of cells and parts with cells >= parts", "why_tests_cant": "Whether some pair yields an empty part is an existential question over all pairs.", "anchors": ["src/mesh/Mesh.cc: Mesh::get_partitioning_by_index_space"]}
{"id": "C05", "title": "A new mesh set reports exactly the entities it was given", "statement": "After construction, entities<OWNED>, entities<GHOST>, entities<ALL> are the given owned, ghost and owned-then-ghost lists; index_in_set (when reverse maps are requested) returns the position in entities<ALL> for members and -1 for non-members.", "quantifier": "every duplicate-free owned/ghost list of valid ids, every entity", "why_tests_cant": "Must hold for all lists and every id queried.", "anchors": ["src/mesh/MeshSet.cc: MeshSet::MeshSet", "src/mesh/MeshSet.hh: index_in_set"]}
{"id": "C06", "title": "add_entity inserts exactly one entity and keeps the index map consistent", "statement": "After add_entity(e), e is a member, membership of every other entity is unchanged, no duplicate is created, all == owned then ghost, and index_in_set agrees with positions in entities<ALL>.", "quantifier": "every consistent set and every entity, and every sequence of add_entity calls", "why_tests_cant": "Invariant over arbitrary operation histories.", "anchors": ["src/mesh/MeshSet.cc: MeshSet::add_entity"]}
{"id": "C07", "title": "rem_entity removes exactly one entity and keeps the index map consistent", "statement": "After rem_entity(e), e is not a member, membership of every other entity is unchanged, and index_in_set agrees with entities<ALL> and is -1 for e.", "quantifier": "every consistent set and every entity", "why_tests_cant": "Invariant over arbitrary operation histories.", "anchors": ["src/mesh/MeshSet.cc: MeshSet::rem_entity"]}
{"id": "C08", "title": "add_entities adds exactly the given entities", "statement": "After add_entities(L), the members are the old members and L, owned/ghost/all lists are consistent with each other and duplicate-free, and index_in_set agrees with entities<ALL>.", "quantifier": "every consistent set and every duplicate-free list of new entities", "why_tests_cant": "The outcome depends on the owned/ghost mix of the list and of the set.", "anchors": ["src/mesh/MeshSet.cc: MeshSet::add_entities"]}
{"id": "C09", "title": "rem_entities removes exactly the given entities", "statement": "After rem_entities(L), the members are the old members not in L; no other entity is lost.", "quantifier": "every consistent set and every list (with or without repeated ids)", "why_tests_cant": "The swap-with-last loop is only wrong for particular orders/repetitions.", "anchors": ["src/mesh/MeshSet.cc: MeshSet::rem_entities"]}
{"id": "C10", "title": "merge is set union", "statement": "merge(sets) is a set whose owned and ghost members are exactly the union of the owned and ghost members of its arguments, duplicate-free; the result does not depend on argument order as a set.", "quantifier": "every non-empty list of mesh sets over one mesh", "why_tests_cant": "Quantifies over all lists of sets.", "anchors": ["src/mesh/MeshSet.cc: merge"]}
{"id": "C11", "title": "subtract is set difference", "statement": "subtract(A,{B1..Bn}) has exactly the members of A that are in no Bi, for owned and ghost lists separately.", "quantifier": "all sets A, B1..Bn", "why_tests_cant": "Quantifies over all lists of sets.", "anchors": ["src/mesh/MeshSet.cc: subtract"]}
{"id": "C12", "title": "intersect is set intersection", "statement": "intersect(sets) has exactly the entities that are members of every argument, for owned and ghost lists separately.", "quantifier": "every non-empty list of sets", "why_tests_cant": "Quantifies over all lists of sets.", "anchors": ["src/mesh/MeshSet.cc: intersect"]}
{"id": "C13", "title": "complement is set complement", "statement": "complement(sets) has exactly the owned (resp. ghost) mesh entities of the kind that are in no argument's owned (resp. ghost) list.", "quantifier": "every mesh size, every list of sets", "why_tests_cant": "Depends on the ghost numbering, only visible with ghosts.", "anchors": ["src/mesh/MeshSet.cc: complement"]}
{"id": "C14", "title": "Set lookup returns the registered set", "statement": "After make_meshset with a new name registered on the mesh, find_meshset(name, kind) returns it; earlier sets remain findable; find returns the first set with that name and kind and null when none exists.", "quantifier": "every sequence of set registrations, every name and kind", "why_tests_cant": "History property.", "anchors": ["src/mesh/Mesh.cc: Mesh::find_meshset, add_set, get_set_entities, get_set_size", "src/mesh/MeshSet.cc: make_meshset"]}
{"id": "C15", "title": "Structured numbering is a bijection", "statement": "In the simple mesh the cells, nodes and faces get pairwise distinct ids that fill 0..num-1 exactly; the three face families do not overlap.", "quantifier": "all nx,ny,nz >= 1 and all structured positions", "why_tests_cant": "All sizes.", "anchors": ["src/mesh/mesh_simple/Mesh_simple.hh: node_index_, cell_index_, xyface_index_, xzface_index_, yzface_index_"]}
{"id": "C16", "title": "Cell-face and face-cell queries agree", "statement": "face_get_cells(f) lists exactly the cells whose cell_get_faces contains f; every face has one or two cells, and the two-cell case are exactly the interior faces.", "quantifier": "every nx,ny,nz >= 1, every face and every cell", "why_tests_cant": "All sizes and all entities; depends on loop order of table writes.", "anchors": ["src/mesh/mesh_simple/Mesh_simple.cc: update_internals_3d_, update_internals_1d_, cell_get_faces_and_dirs_internal_, face_get_cells_internal_"]}
{"id": "C17", "title": "The two cells of an interior face see it with opposite directions", "statement": "For an interior face shared by cells c1 and c2, the direction returned by cell_get_faces_and_dirs for c1 is the negative of that for c2.", "quantifier": "all sizes, all interior faces", "why_tests_cant": "All sizes and faces.", "anchors": ["src/mesh/mesh_simple/Mesh_simple.cc: update_internals_3d_, update_internals_1d_"]}
{"id": "C18", "title": "Node-cell queries are dual and tables never overflow", "statement": "node_get_cells(n) lists exactly, once each, the cells whose cell_get_nodes contains n; between 1 and 8 of them in 3D; no table write is out of range or overlaps another node's slots.", "quantifier": "all sizes, all nodes and cells", "why_tests_cant": "All sizes; memory safety of table fill.", "anchors": ["src/mesh/mesh_simple/Mesh_simple.cc: update_internals_3d_, node_get_cells, cell_get_nodes"]}
{"id": "C19", "title": "Cell adjacency is symmetric, irreflexive and duplicate-free", "statement": "cell_get_face_adj_cells and cell_get_node_adj_cells return duplicate-free lists not containing the cell itself; d is in c's list iff c is in d's list; they are exactly the distinct cells sharing a face (node).", "quantifier": "all sizes, all pairs of cells", "why_tests_cant": "All pairs in all meshes.", "anchors": ["src/mesh/mesh_simple/Mesh_simple.cc: cell_get_face_adj_cells, cell_get_node_adj_cells"]}
{"id": "C20", "title": "node_get_faces returns the faces of a node", "statement": "node_get_faces(n) lists exactly the faces whose face_get_nodes contains n.", "quantifier": "all sizes, all nodes and faces", "why_tests_cant": "All sizes; a wrong id is only visible by cross-checking two tables.", "anchors": ["src/mesh/mesh_simple/Mesh_simple.cc: update_internals_3d_, node_get_faces"]}
{"id": "C21", "title": "Box-mesh geometry", "statement": "For a box [x0,x1]x[y0,y1]x[z0,z1] divided nx*ny*nz, each node's coordinates are the affine grid position, every cell's node list is the axis-aligned sub-box in standard hexahedron order, and sub-box volumes sum to the box volume.", "quantifier": "all extents and all nx,ny,nz >= 1", "why_tests_cant": "Continuum of inputs.", "anchors": ["src/mesh/mesh_simple/Mesh_simple.cc: update_internals_3d_, node_get_coordinates"]}
{"id": "C22", "title": "Setting node coordinates is a point update", "statement": "After node_set_coordinates(n,p), node_get_coordinates(n) is p and every other node's coordinates are unchanged; no out-of-range write.", "quantifier": "all nodes, all points, all histories", "why_tests_cant": "Frame property over all nodes and histories.", "anchors": ["src/mesh/mesh_simple/Mesh_simple.cc: node_set_coordinates, node_get_coordinates"]}
{"id": "C23", "title": "Faces of a cell are built from the cell's nodes", "statement": "face_get_nodes(f) for f in cell_get_faces(c) is a list of 4 distinct nodes of c; node_get_cell_faces(n,c) lists exactly the faces of c that contain n (exactly 3 of them).", "quantifier": "all sizes, cells, faces, nodes", "why_tests_cant": "All sizes.", "anchors": ["src/mesh/mesh_simple/Mesh_simple.cc: face_get_nodes, node_get_cell_faces"]}
{"id": "C24", "title": "Sides enumerate the (cell,face,edge) triples", "statement": "Every triple (cell, face of the cell, edge of the face) has exactly one side; side ids are consecutive within a cell and cells' ranges follow each other; side_get_cell/face/edge return that triple and cell_get_sides lists exactly the sides of the cell.", "quantifier": "every 2D/3D mesh connectivity", "why_tests_cant": "Arbitrary unstructured connectivity.", "anchors": ["src/mesh/Mesh.cc: cache_side_info", "src/mesh/Mesh.hh: side_get_*"]}
{"id": "C25", "title": "Opposite side is a partial involution", "statement": "side_get_opposite_side(s)=t implies side_get_opposite_side(t)=s, s and t have the same face and edge and different cells; it is -1 iff no other cell has that face and edge.", "quantifier": "every connectivity where a face has at most two cells", "why_tests_cant": "Arbitrary unstructured connectivity; depends on construction order.", "anchors": ["src/mesh/Mesh.cc: cache_side_info"]}
{"id": "C26", "title": "Side/wedge numbering is consistent", "statement": "wedge_get_side(side_get_wedge(s,i)) = s for i in {0,1}; every wedge belongs to exactly one side; wedge_get_cell/face/edge agree with the side's; the two wedges of a side have the side's two nodes.", "quantifier": "all sides and wedges", "why_tests_cant": "All ids.", "anchors": ["src/mesh/Mesh.hh: side_get_wedge, wedge_get_*"]}
{"id": "C27", "title": "Adjacent/opposite wedges", "statement": "wedge_get_adjacent_wedge is an involution without fixed points staying within the side; wedge_get_opposite_wedge is a partial involution between different cells, preserving the node, and is -1 exactly on boundary faces.", "quantifier": "every connectivity, every wedge", "why_tests_cant": "All ids in all meshes.", "anchors": ["src/mesh/Mesh.hh: wedge_get_opposite_wedge, wedge_get_adjacent_wedge"]}
{"id": "C28", "title": "Corners partition the wedges", "statement": "Every wedge belongs to exactly one corner; corner_get_wedges(k) are exactly the wedges with the corner's cell and node; there is exactly one corner per (cell,node) pair; corners of a cell / of a node are listed once each.", "quantifier": "every connectivity", "why_tests_cant": "Arbitrary connectivity.", "anchors": ["src/mesh/Mesh.cc: cache_corner_info, cell_get_corner_at_node, node_get_corners", "src/mesh/Mesh.hh: corner_get_*"]}
{"id": "C29", "title": "Type lists partition the entities", "statement": "The OWNED, GHOST and BOUNDARY_GHOST lists of sides, wedges and corners are disjoint, and together contain every entity exactly once; each entity's list is that of its cell's type.", "quantifier": "every connectivity and every assignment of types to cells", "why_tests_cant": "All assignments.", "anchors": ["src/mesh/Mesh.cc: cache_side_info, cache_wedge_info, cache_corner_info"]}
{"id": "C30", "title": "1D sides", "statement": "In 1D every cell has exactly two sides, one per node, and the opposite of a side is the side of the neighbouring cell at the same node (-1 at the domain ends).", "quantifier": "every number of cells", "why_tests_cant": "All sizes.", "anchors": ["src/mesh/Mesh.cc: cache_side_info"]}
{"id": "C31", "title": "Tiles partition the owned cells", "statement": "If the partitioner assigns each cell once, every cell is an owned cell of exactly one tile and master_tile_ID_of_cell returns that tile.", "quantifier": "every partition into cell lists", "why_tests_cant": "All partitions.", "anchors": ["src/mesh/MeshTile.cc: MeshTile::MeshTile", "src/mesh/Mesh.cc: build_tiles, init_tiles"]}
{"id": "C32", "title": "Each node/face/edge has exactly one owning tile", "statement": "After all tiles are built, every node (face, edge) touching an owned cell of some tile is owned by exactly one tile, that tile is its master tile, and other tiles that use it list it as ghost.", "quantifier": "every connectivity and partition", "why_tests_cant": "Depends on order of tile construction.", "anchors": ["src/mesh/MeshTile.cc: MeshTile::MeshTile"]}
{"id": "C33", "title": "Tile halo is the k-neighbourhood", "statement": "With k halo layers, the ghost cells of a tile are exactly the non-owned cells at node-adjacency distance 1..k from its owned cells, without duplicates.", "quantifier": "every adjacency relation, every k, every set of owned cells", "why_tests_cant": "All graphs and all k.", "anchors": ["src/mesh/MeshTile.cc: MeshTile::MeshTile"]}
{"id": "C34", "title": "Owned and ghost lists of a tile are disjoint and duplicate-free", "statement": "For cells, nodes, faces and edges of a tile, owned and ghost lists have no repeats and no common entity, and num_entities equals the list length.", "quantifier": "every connectivity, partition, halo depth", "why_tests_cant": "All inputs.", "anchors": ["src/mesh/MeshTile.cc: MeshTile::MeshTile", "src/mesh/MeshTile.hh: num_entities"]}
{"id": "C35", "title": "Requested kinds are available on tiles", "statement": "If sides (resp. wedges, corners, faces, edges) are requested on the mesh, tiles list the sides (...) of their owned cells.", "quantifier": "every combination of request flags", "why_tests_cant": "All combinations.", "anchors": ["src/mesh/MeshTile.cc: MeshTile::MeshTile"]}
{"id": "C36", "title": "Set queries on tiles", "statement": "Restricting a mesh set to a tile yields exactly the set's members that belong to the tile's list of that type.", "quantifier": "every tile and set", "why_tests_cant": "All inputs.", "anchors": ["src/mesh/MeshTile.cc: MeshTile::get_*_of_set"]}
{"id": "C37", "title": "State add/find", "statement": "After adding a vector under (name, domain, kind, type), find returns that vector; vectors added earlier are still found under their own key; find of a never-added key fails. (A vector object of another mesh is stored under this mesh, so its key is the one with this mesh; see C38 for repeated additions of such objects.)", "quantifier": "every history of additions", "why_tests_cant": "History property.", "anchors": ["src/statemanager/JaliState.h: State::add, State::find, State::get"]}
{"id": "C38", "title": "Adding a duplicate does not create a second vector", "statement": "Adding under an existing key returns the existing vector and leaves the state unchanged.", "quantifier": "every history", "why_tests_cant": "History property.", "anchors": ["src/statemanager/JaliState.h: State::add"]}
{"id": "C39", "title": "Iteration by entity kind visits exactly the vectors of that kind", "statement": "entity_begin(kind)..entity_end(kind) visits each vector of that kind exactly once, in order of addition.", "quantifier": "every sequence of additions by every add overload", "why_tests_cant": "History property over mixed overloads.", "anchors": ["src/statemanager/JaliState.h: State::add, entity_begin, names_entity_begin"]}
{"id": "C40", "title": "get aliases, add copies", "statement": "A vector obtained by get shares data with the stored vector (writes through one are seen by the other); adding an existing vector object stores an independent copy.", "quantifier": "every history of reads and writes", "why_tests_cant": "Aliasing is a heap property over all histories.", "anchors": ["src/statemanager/JaliStateVector.h: UniStateVector copy constructor / assignment", "src/statemanager/JaliState.h: State::get, State::add(in_vec)"]}
{"id": "C41", "title": "Vector sizes match the domain", "statement": "A vector created on a domain has as many values as the domain has entities of that kind and type; element writes change only that element.", "quantifier": "every domain size, index and value", "why_tests_cant": "All sizes.", "anchors": ["src/statemanager/JaliStateVector.h: UniStateVector"]}
{"id": "C42", "title": "add_material keeps the material tables consistent", "statement": "After add_material(name, cells), the material is findable by name, its cells are the given ones, cell_materials(c) contains it exactly for those cells, and every multi-material vector has one value per (material, cell).", "quantifier": "every history of add_material/add_cells_to_material", "why_tests_cant": "History property.", "anchors": ["src/statemanager/JaliState.cc: State::add_material, add_cells_to_material"]}
{"id": "C43", "title": "rem_material keeps the material tables consistent", "statement": "After rem_material(m), no cell lists m, the other materials keep their cells, and cell_materials is renumbered consistently.", "quantifier": "every reachable state and every m", "why_tests_cant": "History property.", "anchors": ["src/statemanager/JaliState.cc: State::rem_material"]}
{"id": "C44", "title": "Multi-material element access", "statement": "The (m,c) element of a multi-material vector reads what was last written to (m,c), other elements are unaffected, and reading an absent (m,c) yields zero (const) or an error (non-const).", "quantifier": "all materials, cells, histories", "why_tests_cant": "Frame property.", "anchors": ["src/statemanager/JaliStateVector.h: MultiStateVector::operator()"]}
{"id": "C45", "title": "Export to mesh is safe", "statement": "export_to_mesh stores every exportable vector on the mesh and never dereferences an absent domain object.", "quantifier": "every state, including states with vectors on tiles or sets", "why_tests_cant": "All states.", "anchors": ["src/statemanager/JaliState.cc: State::export_to_mesh"]}
{"id": "C46", "title": "init_from_mesh imports all fields once", "statement": "init_from_mesh adds one vector per field and kind found on the mesh with the mesh's values, and leaves existing vectors untouched.", "quantifier": "every set of fields", "why_tests_cant": "All inputs.", "anchors": ["src/statemanager/JaliState.cc: State::init_from_mesh"]}
{"id": "C47", "title": "Box region containment", "statement": "BoxRegion::inside(p) is true iff every coordinate lies between the two corners (within 1e-8), independent of the order of the corners given; a dimension mismatch is an error.", "quantifier": "all corner pairs and points", "why_tests_cant": "Continuum.", "anchors": ["src/geometry/BoxRegion.cc: BoxRegion::inside, between_"]}
{"id": "C48", "title": "Polygon area, centroid, normal", "statement": "For a simple star-shaped polygon polygon_get_area_centroid_normal returns the shoelace area and a normal whose length is the area; translation invariant; convex counter-clockwise polygons have positive area and a clockwise (inverted) polygon is reported as such.", "quantifier": "all vertex lists", "why_tests_cant": "Continuum.", "anchors": ["src/geometry/Geometry.cc: polygon_get_area_centroid_normal"]}
{"id": "C49", "title": "Polyhedron volume", "statement": "polyhed_get_vol_centroid returns the exact volume of every tetrahedron and of every parallelepiped with planar faces, positive for outward-oriented faces; sign does not depend on listing order of nodes.", "quantifier": "all vertex coordinates", "why_tests_cant": "Continuum.", "anchors": ["src/geometry/Geometry.cc: polyhed_get_vol_centroid"]}
{"id": "C50", "title": "point_in_polyhed", "statement": "point_in_polyhed returns true only for points on the inner side of every face.", "quantifier": "all convex polyhedra and points", "why_tests_cant": "Continuum.", "anchors": ["src/geometry/Geometry.cc: point_in_polyhed"]}
{"id": "C51", "title": "Polygon region containment", "statement": "PolygonRegion::inside(p) is true exactly when p lies on the polygon's plane and within the polygon, regardless of the vertex order (orientation).", "quantifier": "all planar convex polygons and points", "why_tests_cant": "Continuum.", "anchors": ["src/geometry/PolygonRegion.cc: init, inside"]}
{"id": "C52", "title": "Domains can be built from lists", "statement": "A Domain of dimension 2 or 3 can be constructed from lists of models and interfaces.", "quantifier": "all dimensions and lists", "why_tests_cant": "All inputs.", "anchors": ["src/geometry/Domain.cc: Domain::Domain"]}
{"id": "C53", "title": "Geometric model lookup", "statement": "A region added to a geometric model of sufficient dimension is found by its name and id afterwards; the first of equal names wins; any region kind usable in a d-dimensional model can be added to it.", "quantifier": "every history of additions", "why_tests_cant": "History.", "anchors": ["src/geometry/GeometricModel.cc: Add_Region, FindRegion"]}
{"id": "C54", "title": "Entity kind/type names are right", "statement": "Entity_kind_string, Entity_type_string return the name of the enumerator passed, for every valid enumerator.", "quantifier": "all enumerators", "why_tests_cant": "Finite, but an index shift makes every sampled-by-eye name plausible.", "anchors": ["src/mesh/MeshDefs.hh: Entity_kind_string, Entity_type_string"]}
{"id": "C55", "title": "Requested entity closure", "statement": "Requesting corners enables wedges, sides, faces and edges; requesting wedges enables sides, faces and edges; requesting sides enables faces and edges, for every flag combination.", "quantifier": "all flag combinations and dimensions", "why_tests_cant": "All combinations.", "anchors": ["src/mesh/Mesh.hh: Mesh::Mesh"]}
{"id": "C56", "title": "reset_options restores the defaults", "statement": "After reset_options, the factory behaves like a newly created one, whatever options were set before.", "quantifier": "every history of option changes", "why_tests_cant": "History.", "anchors": ["src/mesh/mesh_factory/MeshFactory.cc: reset_options", "src/mesh/mesh_factory/MeshFactory.hh"]}
{"id": "C57", "title": "1D factory produces the requested number of cells", "statement": "The 1D convenience creation with nx cells over [x0,x1] yields nx cells spanning [x0,x1].", "quantifier": "all nx, x0 < x1", "why_tests_cant": "Continuum.", "anchors": ["src/mesh/mesh_factory/MeshFactory.hh: operator()"]}
{"id": "C58", "title": "Factory rejects invalid requests", "statement": "create throws for non-positive counts or extents and never returns a null mesh silently.", "quantifier": "all arguments and preferences", "why_tests_cant": "All inputs.", "anchors": ["src/mesh/mesh_factory/MeshFactory.cc: create"]}
{"id": "C59", "title": "Exception behaviour can be selected", "statement": "After set_exception_behavior_raise/abort, Jali_throw in any source file raises/aborts accordingly and exception_behavior reports the behaviour in effect.", "quantifier": "every history and every calling translation unit", "why_tests_cant": "Linkage-level property across translation units.", "anchors": ["src/error_handling/exceptions.hh: Jali_throw, exception_behavior", "src/error_handling/exceptions.cc"]}
{"id": "C60", "title": "Recomputing geometry refreshes it", "statement": "After node motion and update_geometric_quantities, every geometric query returns the value for the current coordinates.", "quantifier": "every history of coordinate changes", "why_tests_cant": "History.", "anchors": ["src/mesh/Mesh.cc: update_geometric_quantities, compute_side_geometric_quantities, side_facet_normal"]}
{"id": "C61", "title": "face_normal orientation", "statement": "face_normal(f, c, &dir) points out of c: it is dir times the natural normal; an invalid cell is an error.", "quantifier": "all faces, cells", "why_tests_cant": "All inputs.", "anchors": ["src/mesh/Mesh.cc: face_normal"]}
{"id": "C62", "title": "Logical regions denote set operations", "statement": "A set built from a LogicalRegion UNION/SUBTRACT/INTERSECT/COMPLEMENT of component regions is the corresponding operation on the component sets, and building it does not alter the component sets.", "quantifier": "every component list", "why_tests_cant": "All inputs.", "anchors": ["src/mesh/Mesh.cc: build_set_from_region"]}
{"id": "C63", "title": "face_get_cells filters by type", "statement": "face_get_cells(f,type) returns the cells of f with that parallel type, in the same order as in the ALL answer; OWNED and GHOST answers partition the ALL answer.", "quantifier": "every face-cell table and type assignment", "why_tests_cant": "All inputs.", "anchors": ["src/mesh/Mesh.cc: face_get_cells, cache_face2cell_info, cache_type_info"]}
{"id": "C64", "title": "num_entities equals list lengths", "statement": "num_entities(kind,type) equals the length of the list of entities of that kind and type and ALL is the sum of the parts.", "quantifier": "every kind, type and mesh", "why_tests_cant": "All inputs.", "anchors": ["src/mesh/Mesh.hh: Mesh::num_entities", "src/mesh/Mesh.cc: cache_type_info"]}
{"id": "C65", "title": "Point algebra", "statement": "Point dot/cross products satisfy the vector identities: cross product orthogonal to its arguments, antisymmetric, |a x b|^2 + (a.b)^2 = |a|^2|b|^2.", "quantifier": "all points", "why_tests_cant": "Continuum.", "anchors": ["src/geometry/Point.hh"]}
{"id": "C66", "title": "Plane and point region containment", "statement": "PlaneRegion::inside(p) iff p is within tolerance of the plane; PointRegion::inside(p) iff p is within tolerance of the point; both reject dimension mismatches.", "quantifier": "all points, normals", "why_tests_cant": "Continuum.", "anchors": ["src/geometry/PlaneRegion.cc", "src/geometry/PointRegion.cc"]}
{"id": "C67", "title": "Mesh creation is collective", "statement": "Either every rank of the communicator gets a mesh or every rank gets an exception; no rank is left waiting in a collective call that the others do not make.", "quantifier": "any number of ranks, any per-rank arguments and constructor outcomes", "why_tests_cant": "Depends on every combination of per-rank failures.", "anchors": ["src/mesh/mesh_factory/MeshFactory.cc: MeshFactory::create"]}
{"id": "C68", "title": "One-dimensional cells", "statement": "segment_get_vol_centroid and face1d_get_area give, in every geometry type of the mesh, the exact cell volume (interval, spherical shell, cylindrical shell) and face area; volumes are positive for increasing nodes and add up over a mesh.", "quantifier": "all node positions, all geometry types, any number of cells", "why_tests_cant": "Continuum.", "anchors": ["src/geometry/Geometry.cc: segment_get_vol_centroid, face1d_get_area"]}
{"id": "C69", "title": "point_in_polygon", "statement": "A point strictly inside a convex polygon is reported inside, and a point reported inside is inside or on the boundary, whatever the starting vertex and orientation of the vertex list.", "quantifier": "all convex polygons and points", "why_tests_cant": "Continuum.", "anchors": ["src/geometry/Geometry.cc: point_in_polygon"]}
{"id": "C70", "title": "Copies of regions and names of logical operations", "statement": "A copy of a region is the same region: it contains the same points, and a logical region or labeled set keeps its operation, components, entity and label. A logical region can be made from exactly the names Complement, Union, Intersect and Subtract.", "quantifier": "all regions and all strings", "why_tests_cant": "Every region, every string.", "anchors": ["src/geometry/LogicalRegion.cc: copy constructor, constructor", "src/geometry/LabeledSetRegion.cc: copy constructor", "src/geometry/BoxRegion.cc, PlaneRegion.cc, PolygonRegion.cc: copy constructors"]}
{"id": "C71", "title": "The sides, wedges and corners of a cell fill it", "statement": "For every cell (not a boundary ghost) the volumes of its sides add up to the volume of the cell, and so do those of its wedges and of its corners.", "quantifier": "all meshes, all node positions and histories of motion, all cells: 3D with planar faces, 2D convex; 1D", "why_tests_cant": "Continuum of coordinates and every mesh topology.", "anchors": ["src/mesh/Mesh.cc: compute_side_geometry, compute_corner_geometry", "src/mesh/Mesh.cc: side_volume, wedge_volume, corner_volume, cell_volume"]}
{"id": "C72", "title": "Facet normals of sides add up to the face normal", "statement": "For a cell c and a face f of it, the outward facet normals of the sides of c on f add up to face_normal(f) seen from c.", "quantifier": "all 2D and 3D meshes, node positions, cells and faces", "why_tests_cant": "Continuum, every topology.", "anchors": ["src/mesh/Mesh.cc: side_facet_normal, face_normal"]}
{"id": "C73", "title": "Face normals of a cell sum to zero", "statement": "The outward area-weighted face normals of a cell sum to the zero vector, and sum over the faces of normal . (face centroid - o) is dim times the cell volume, for every origin o.", "quantifier": "all 2D and 3D meshes, node positions, cells, origins", "why_tests_cant": "Continuum, every topology; finite-volume schemes rely on it for conservation.", "anchors": ["src/mesh/Mesh.cc: face_normal, face_centroid, compute_face_geometry"]}
{"id": "C74", "title": "Facet normals of wedges", "statement": "wedge_facet_normal(w,0) and (w,1) are the outward area-weighted normals of the facet of w on the face and of the facet shared with the other wedge of its side; the latter of the two wedges are opposite.", "quantifier": "all meshes, node positions, wedges", "why_tests_cant": "Continuum, every topology.", "anchors": ["src/mesh/Mesh.cc: wedge_facet_normal, compute_side_geometry"]}
{"id": "C75", "title": "Coordinates of sides and wedges", "statement": "wedge_get_coordinates returns node, (edge centre,) face centre, cell centre; with posvol_order the documented volume formula applied to them gives wedge_volume. The same for side_get_coordinates and side_volume.", "quantifier": "all meshes, node positions, sides and wedges, both orders", "why_tests_cant": "Continuum, every topology.", "anchors": ["src/mesh/Mesh.cc: wedge_get_coordinates, side_get_coordinates"]}
{"id": "C76", "title": "Lengths, vectors and centres of edges and faces", "statement": "edge_length is the distance of the end points of the edge, edge_centroid the point half way, edge_vector(e,,p) leads from p to the other end point (p must be an end point) and its orientation says whether that is the natural direction. face_area and face_centroid are the measure and the centre of gravity of the face.", "quantifier": "all 1D, 2D and 3D meshes, histories of motion, edges, faces, nodes, cached or recomputed", "why_tests_cant": "They range over all coordinates and all sequences of motions; a test fixes a mesh.", "anchors": ["src/mesh/Mesh.cc: edge_vector, edge_length, edge_centroid, face_area, face_centroid, compute_face_geometry, compute_edge_geometry"]}
{"id": "C77", "title": "The set of a simple region", "statement": "build_set_from_region(name,kind) for a region that is not logical makes a set of that name and kind that holds exactly the entities belonging to the region: cells and faces whose centroid is in the box, cells (2D) and faces with all vertices on the plane or polygon, nodes in the region, the labeled entities; owned and ghost apart, ascending, without repeats. Other sets stay as they are. For a point region, the cells containing the point.", "quantifier": "all meshes and numberings with ghosts, all node positions, all regions and tolerances, all histories of earlier sets", "why_tests_cant": "Continuum of geometry, every mesh and history.", "anchors": ["src/mesh/Mesh.cc: build_set_from_region"]}
{"id": "C78", "title": "init_sets_from_geometric_model makes all wanted sets", "statement": "After init_sets_from_geometric_model, every region has a set of each kind requested for it (or of the default kinds: cells for regions of the dimension of the model, faces for dimension at least one less, nodes always; a labeled set has the kind of its label), found by find_meshset and holding exactly the entities of the region; earlier sets are kept and no other sets appear.", "quantifier": "all geometric models of any number of regions nested to any depth, all request maps, all meshes", "why_tests_cant": "Every model and request.", "anchors": ["src/mesh/Mesh.cc: init_sets_from_geometric_model"]}
{"id": "C79", "title": "point_in_cell", "statement": "point_in_cell(p,c) tells whether p lies in cell c; in a mesh that fills a domain every point of the domain is in a cell, in 2D in exactly one, also on shared edges and nodes.", "quantifier": "all meshes of any number of cells, all points", "why_tests_cant": "Continuum.", "anchors": ["src/mesh/Mesh.cc: point_in_cell"]}
{"id": "C80", "title": "Looking up a set by region", "statement": "find_meshset_from_region(name,kind) finds the set of a region iff the name is valid for the kind and there is such a set; with create_if_missing a missing one is made; a name is valid iff it names a region on which entities of that kind can be asked.", "quantifier": "all geometric models, meshes, names, kinds and histories", "why_tests_cant": "Every model and history.", "anchors": ["src/mesh/Mesh.cc: valid_region_name, find_meshset_from_region"]}
{"id": "C81", "title": "Generated box meshes have exact geometry", "statement": "A box mesh generated with faces reports, for every cell, face and point, the exact Cartesian values, right after construction and after every later motion of the nodes onto another grid of planes: volume and centroid of a cell are those of its box, area and centroid of a face those of its rectangle, the normal with respect to a cell points out of the cell with the area as its length, the volumes add up to that of the whole box, point_in_cell is true exactly for points of the closed box of the cell, so every point of the box is in a cell and only points on inner grid planes are in several.", "quantifier": "all boxes, all numbers of cells in each direction, all increasing grid lines, all histories of motion, all points", "why_tests_cant": "Continuum of coordinates and unbounded numbers of cells; tests look at a few cells.", "anchors": ["src/mesh/mesh_simple/Mesh_simple.cc", "src/mesh/Mesh.cc: update_geometric_quantities, cell_volume, cell_centroid, face_area, face_centroid, face_normal, point_in_cell"]}
{"id": "C82", "title": "Shape of corners", "statement": "corner_get_facetization describes the surface of a corner: in 3D triangles on the corner's node, the centre of the cell and the centres of the edges and faces of the corner at that node, each once, forming a closed surface seen from outside that encloses corner_volume; in 2D the quadrilateral node, face centre, cell centre, face centre counter-clockwise; in 1D the two ends. corner_get_coordinates returns the same points, counter-clockwise in 2D and in increasing order in 1D.", "quantifier": "all meshes, node positions and histories of motion, all corners; any number of wedges per corner", "why_tests_cant": "Continuum, every topology.", "anchors": ["src/mesh/Mesh.cc: corner_get_facetization (3D, 2D, 1D), corner_get_coordinates"]}
{"id": "C83", "title": "Edges of cells", "statement": "With edges requested, cell_get_edges(c) is the framework's edge list of c for every cell and numbering (the nodes in 1D), cell_2D_get_edges_and_dirs adds the directions, and face_to_cell_edge_map(f,c,map) sets map[i] to the position of the i-th edge of f in that list, whatever map held before; without edges requested these queries stop. cell_get_num_faces is the number of faces of the cell.", "quantifier": "all meshes and numberings, cells, faces, earlier contents of the caller's vector", "why_tests_cant": "Every mesh topology and every earlier content of the output vector.", "anchors": ["src/mesh/Mesh.cc: cache_cell2edge_info, cell_get_edges, cell_2D_get_edges_and_dirs, face_to_cell_edge_map, cell_get_num_faces"]}
{"id": "C84", "title": "Regular meshes generated for the MSTK framework are the blocks of one grid", "statement": "For every box, every grid size and every number of processors from 1 to the number of cells, constructing a regular 2D or 3D mesh with the MSTK framework makes, on each processor, exactly the nodes, edges, faces and cells of one block of the grid: each entity once, with the right corners in the right order (in 2D each cell's edges, in the directions the cell uses them, go once round the cell anticlockwise), the nodes at the evenly spaced grid points with the far corner exact, and each entity classified on the smallest part of the box (vertex, edge, face, interior) it lies on. The global ids number the entities of the whole grid from 1 without gaps, whatever the partition: over all processors the cells carry every id exactly once, and two processors give two nodes, edges, faces or cells the same global id exactly when they join the same points.", "quantifier": "all domains, grid sizes, processor counts and ranks, and all pairs of entities on any two ranks", "why_tests_cant": "The numbering formulas mix strides of three entity families per dimension and the classification comes from lookup tables; tests build a few small meshes on a few processor counts and mostly check totals.", "anchors": ["src/mesh/mesh_mstk/Mesh_MSTK.cc:Mesh_MSTK::generate_regular_mesh", "src/mesh/mesh_mstk/Mesh_MSTK.cc:Mesh_MSTK::Mesh_MSTK", "src/mesh/block_partition.cc:block_partition_regular_mesh"]}
{"id": "C85", "title": "Ids of an MSTK mesh number every entity once, by type", "statement": "After construction of a mesh with the MSTK framework, for nodes, cells and the requested edges and faces: the ids are 0, 1, 2, ... with the owned entities first, then the ghosts of other processors, then the boundary ghosts; every entity of the MSTK mesh has exactly one id and every id stands for one entity; nodes<T>(), edges<T>(), faces<T>(), cells<T>() list exactly the ids whose entity has type T; and two ids of a kind never have the same GID.", "quantifier": "all MSTK meshes in 2D and 3D, serial or parallel, all distributions of owned, ghost and boundary ghost entities, all requests for edges and faces", "why_tests_cant": "Depends on the interleaving of owned and ghost entities in the order of the mesh database; a parallel test sees a handful of partitions.", "anchors": ["src/mesh/mesh_mstk/Mesh_MSTK.cc:Mesh_MSTK::post_create_steps_", "src/mesh/mesh_mstk/Mesh_MSTK.cc:Mesh_MSTK::init_vertex_id2handle_maps", "src/mesh/mesh_mstk/Mesh_MSTK.cc:Mesh_MSTK::init_pcell_lists", "src/mesh/mesh_mstk/Mesh_MSTK.cc:Mesh_MSTK::GID"]}
{"id": "C86", "title": "Upward adjacency queries agree with the downward ones on MSTK meshes", "statement": "node_get_cells, node_get_faces, node_get_cell_faces and face_get_cells of a mesh of the MSTK framework return each entity of the requested type that has the given node or face among its own nodes or faces, exactly once, and nothing else; a face has at most two cells; cell_get_face_adj_cells returns exactly the other cells that share a face (once per shared face) and is symmetric; cell_get_node_adj_cells exactly the other cells that share a node, once each; the answer for ALL is that for PARALLEL_OWNED and PARALLEL_GHOST together.", "quantifier": "all well-formed MSTK meshes in 2D and 3D, all nodes, faces, cells and types", "why_tests_cant": "The queries are separate loops for 2D and 3D with duplicate suppression by markers; tests compare counts on a few regular meshes.", "anchors": ["src/mesh/mesh_mstk/Mesh_MSTK.cc:Mesh_MSTK::node_get_cells", "src/mesh/mesh_mstk/Mesh_MSTK.cc:Mesh_MSTK::node_get_cell_faces", "src/mesh/mesh_mstk/Mesh_MSTK.cc:Mesh_MSTK::cell_get_face_adj_cells", "src/mesh/mesh_mstk/Mesh_MSTK.cc:Mesh_MSTK::cell_get_node_adj_cells"]}
{"id": "C87", "title": "Ordered faces of standard cells go round the base, then base, then top", "statement": "cell_get_faces_and_dirs(ordered=true) of a mesh of the MSTK framework returns, for a tetrahedron, hexahedron, prism or pyramid, exactly the faces and directions of the unordered call, in the documented order: first one lateral face along each edge of a base face, going round the base as seen from inside the cell, then the base face, then (hexahedra, prisms) the face that shares no edge with the base; for other cells and in 2D it is the unordered call.", "quantifier": "all well-formed MSTK meshes, all cells whatever the stored order and orientation of their faces", "why_tests_cant": "The ordering code searches for the base and for the lateral face across each edge; its result depends on the stored order of faces, edges and their directions, and tests check one or two generated cells.", "anchors": ["src/mesh/mesh_mstk/Mesh_MSTK.cc:Mesh_MSTK::cell_get_faces_and_dirs_ordered", "src/mesh/mesh_mstk/Mesh_MSTK.cc:Mesh_MSTK::cell_get_type", "src/mesh/mesh_mstk/Mesh_MSTK.hh:region_celltype"]}
{"id": "C88", "title": "All ranks show shared edges and faces with the same orientation", "statement": "In a distributed mesh of the MSTK framework, two ranks that hold a copy of the same edge (face) return its nodes in the same order (for 3D faces: in the same sense of rotation), although MSTK may store the copies with opposite directions, and a cell that several ranks hold uses each of its faces with the same direction on all of them; construction succeeds.", "quantifier": "all distributed meshes, numbers of ranks, pairs of ranks, edges, faces and cells, with any orientation of the stored copies", "why_tests_cant": "Orientation depends on the partition and on how each rank happened to store its copy; a test runs with one partition and a few ranks.", "anchors": ["src/mesh/mesh_mstk/Mesh_MSTK.cc:Mesh_MSTK::cell_get_faces_and_dirs_unordered", "src/mesh/mesh_mstk/Mesh_MSTK.cc:Mesh_MSTK::init_pface_dirs", "src/mesh/mesh_mstk/Mesh_MSTK.cc:Mesh_MSTK::init_pedge_dirs", "src/mesh/mesh_mstk/Mesh_MSTK.cc:Mesh_MSTK::face_get_nodes", "src/mesh/mesh_mstk/Mesh_MSTK.cc:Mesh_MSTK::edge_get_nodes"]}
{"id": "C89", "title": "Sides, wedges, corners and orientations on MSTK meshes", "statement": "On a mesh of the MSTK framework the connectivity queries together form a valid mesh connectivity (consecutive ids, no repeats, a face has at most two cells, which use it in opposite directions, the nodes of a cell are the end points of its edges), so that sides, wedges and corners can be constructed and have the properties of C24-C29; and the directions agree with one another: the edges of a face, in the directions of face_get_edges_and_dirs, go round the face like its nodes; the faces of a cell form a closed surface; the two nodes of a side run round its face as seen from inside the cell (in 2D: along the cell's polygon); cell_2D_get_edges_and_dirs agrees with edge_get_nodes and cell_get_nodes.", "quantifier": "all well-formed MSTK meshes in 2D and 3D, serial or one rank of a distributed mesh with any stored orientation of ghosts, all cells, faces, edges and sides", "why_tests_cant": "It relates seven queries of the derived class and the caches of the base class on every mesh and every partition; tests run the geometry on a few small meshes, mostly serial.", "anchors": ["src/mesh/mesh_mstk/Mesh_MSTK.cc:Mesh_MSTK::face_get_edges_and_dirs_internal", "src/mesh/mesh_mstk/Mesh_MSTK.cc:Mesh_MSTK::cell_2D_get_edges_and_dirs_internal", "src/mesh/Mesh.cc:Mesh::cache_side_info", "src/mesh/mesh_mstk/Mesh_MSTK.cc:Mesh_MSTK::face_get_coordinates"]}
{"id": "C90", "title": "BLOCK partitioning finds the structure of a regular mesh", "statement": "A mesh constructed with Partitioner_type::BLOCK is cut into rectangular blocks of cells: the partitioner finds the extent of the domain and the number of cells in each direction by itself, and then every cell of the mesh is in exactly one tile and every tile is a non-empty brick of neighbouring cells. More tiles than cells fail an assertion.", "quantifier": "all box meshes (numbers of cells, extents, uniform or graded grid lines), all line meshes, all numbers of parts", "why_tests_cant": "The walk from cell to cell depends on face normals, face adjacency and face centroids of every cell along the way; the number of cells and the grid spacing are unbounded.", "anchors": ["src/mesh/Mesh.cc:Mesh::get_partitioning_by_blocks", "src/mesh/Mesh.cc:Mesh::get_partitioning", "src/mesh/block_partition.cc"]}
{"id": "C91", "title": "Labeled sets hold exactly the entities of the file's set", "statement": "On an MSTK mesh, the set built from a labeled set region holds exactly the entities of the set in the mesh file that the label names (element block or element set for cells, side set for faces, node set for nodes), by their mesh ids, owned and ghost entities apart and each once; a label the file does not have gives an empty set; a label that is both an element block and an element set, or a request for another kind of entity than the region's, is refused. A set of the wrong kind of entities is refused when the mesh is made (only for the spelling Entity_kind::..., and not for element sets).", "quantifier": "every MSTK mesh (any partition, ghosts, flags), every list of file sets, every labeled set region, every state of the mesh's sets", "why_tests_cant": "the id numbering, the parallel partition and the naming conventions of the file interact; tests use one small Exodus file", "anchors": ["src/mesh/mesh_mstk/Mesh_MSTK.cc:get_labeled_set_entities,internal_name_of_set,init_set_info", "src/mesh/Mesh.cc:build_set_from_region"]}
{"id": "C92", "title": "An extracted surface mesh is a faithful copy of the chosen entities", "statement": "Extracting distinct cells of a 2D mesh or distinct faces of a 3D mesh with the MSTK framework gives a mesh with exactly one cell per chosen entity, in the order given, each reporting that entity as its parent; the cell's nodes and faces are copies of the parent's nodes and bounding faces (edges in 3D), in the same order and with the same directions; faces and nodes shared by chosen entities are shared by the copies; nothing else is copied; every node keeps its coordinates (height 0 if flattened). Extruding, flattening cells of a 3D mesh and extracting edges or nodes are refused. A repeated id gives something that is not a mesh, and an id that does not exist is not detected", "quantifier": "every serial MSTK mesh (2D, or 3D with edges), every list of ids, both values of flatten, any coordinates", "why_tests_cant": "depends on how chosen entities share faces, edges and nodes, and on copying order; tests extract one plane of one box", "anchors": ["src/mesh/mesh_mstk/Mesh_MSTK.cc:Mesh_MSTK (extraction constructors),extract_mstk_mesh,entity_get_parent"]}
{"id": "C93", "title": "An extracted solid mesh is a faithful copy of the chosen cells", "statement": "Extracting distinct cells of a 3D mesh with the MSTK framework gives a mesh with exactly one cell per chosen cell, in the order given, each reporting that cell as its parent; its faces are copies of the parent's faces in the same order with the same directions, its nodes are the copies of the parent's nodes; a face has copies of its parent's nodes in the same order; faces and nodes shared by chosen cells are shared by the copies; nothing else is copied; nodes keep their coordinates. The parent of an edge is not recorded: every edge claims edge 0. A repeated id gives something that is not a mesh", "quantifier": "every serial 3D MSTK mesh, every list of ids, any coordinates", "why_tests_cant": "depends on how the chosen cells share faces and nodes and on copying order", "anchors": ["src/mesh/mesh_mstk/Mesh_MSTK.cc:Mesh_MSTK (extraction constructors),extract_mstk_mesh,entity_get_parent"]}
{"id": "C94", "title": "Labeled sets are carried over to an extracted mesh", "statement": "If a labeled set region spells its kind as Entity_kind::CELL, FACE or NODE and names an element block, side set or node set of the source mesh's file, the extracted mesh has a set under this label: on a mesh of the same dimension exactly the entities whose parents are in the parent's set; on a surface of a solid the nodes whose parents are in it, the cells whose parents are faces of its cells, the faces whose parents are edges of its faces - except that a set of faces with one of the chosen faces is left out. Each entity occurs once, none as a ghost. Not inherited at all: regions that spell the kind plainly (CELL, FACE, NODE), the only spelling by which a set can be looked up by region name, and element sets. A mesh that was not extracted answers parent 0 for every entity", "quantifier": "every serial source mesh, every list of distinct ids, all three kinds of extraction, every list of file sets and regions", "why_tests_cant": "set contents are mapped through the copies made during extraction; no test inherits a set", "anchors": ["src/mesh/mesh_mstk/Mesh_MSTK.cc:inherit_labeled_sets,extract_mstk_mesh,get_labeled_set_entities,entity_get_parent"]}
{"id": "C95", "title": "Extraction by set names takes the owned entities of the named sets", "statement": "Extracting a mesh by the names of labeled set regions is the same as extracting it by the list of the owned ids of the sets the labels name, each id once, however many of the sets it is in. A name no region has is not refused but undefined; regions that are not labeled sets and labels of element sets contribute nothing although the framework has a set of that name with entities, and the result may be an empty mesh, without any error", "quantifier": "every MSTK mesh (also parallel), every list of names, every list of file sets and regions, every kind of entity", "why_tests_cant": "ghosts, overlapping sets and naming conventions interact; the test uses one geometric or labeled set", "anchors": ["src/mesh/mesh_mstk/Mesh_MSTK.cc:Mesh_MSTK (constructors with setnames),internal_name_of_set"]}
{"id": "C96", "title": "A stored field's value i belongs to the entity with id i only if ids follow the file's order", "statement": "On an MSTK mesh get_field returns what store_field stored, place by place, and leaves the rest of the array alone. The value with index i is the value of the entity with id i, for every array, exactly if the ids of the kind are in the order of the library's entities; this is so if there are no ghosts, or no owned entity after a ghost. On a rank where a ghost comes before an owned entity, values indexed by id are attached to other entities", "quantifier": "every MSTK mesh, serial or one rank of a distributed one, every kind, every array", "why_tests_cant": "depends on the order in which ghosts are in the library's lists; tests store and read back in the same order, which never shows it", "anchors": ["src/mesh/mesh_mstk/Mesh_MSTK.cc:store_field,get_field", "src/statemanager/JaliState.cc:export_to_mesh"]}
{"id": "C97", "title": "Boundary ghost cells of the MSTK framework", "statement": "If boundary ghosts are requested, every face that is not a ghost, is not on the boundary between two ranks and has a single cell gets exactly one boundary ghost: a cell of type BOUNDARY_GHOST with that face alone, in the direction opposite to the one the interior cell has; afterwards the face has the two cells. There are no other boundary ghosts, other faces keep their cells, and the nodes, edges, faces, owned and ghost cells keep their ids, types, faces and nodes. Queries for neighbours of type PARALLEL_OWNED return only owned cells.", "quantifier": "every MSTK mesh (2D or 3D) without boundary ghosts, serial or one rank of a parallel run, every set of faces on the boundary between ranks", "why_tests_cant": "the loop adds cells to the mesh while it runs over its faces; tests look at the boundary of one box", "anchors": ["src/mesh/mesh_mstk/Mesh_MSTK.cc:4433-4476 create_boundary_ghosts", "src/mesh/mesh_mstk/Mesh_MSTK.cc:3363-3395 post_create_steps_", "src/mesh/mesh_mstk/Mesh_MSTK.cc:2227-2304 cell_get_face_adj_cells_internal"]}
{"id": "C98", "title": "Collapsing degenerate edges of an imported mesh", "statement": "After reading an Exodus or Nemesis file no edge of the mesh has (nearly) zero length; every processor keeps the same one of the two vertices of a degenerate edge (the one with the lower global id if topology permits); ghosts of entities that were merged away carry the global id of the entity that replaced them, and mesh sets name the replacement, never a deleted entity. A mesh without degenerate edges is left alone; if an edge cannot be collapsed there is an error.", "quantifier": "every mesh on every number of processors, every placement of degenerate edges, all mesh sets, every behaviour of ME_Collapse that meets its contract", "why_tests_cant": "Test files have no or isolated degenerate edges; chains of them, sets containing both ends and several processors are not reachable by a handful of files.", "anchors": ["src/mesh/mesh_mstk/Mesh_MSTK.cc: Mesh_MSTK::collapse_degen_edges (4212-4431)"]}
{"id": "C99", "title": "Reading a mesh from a file", "statement": "An Exodus file (.exo) or a Nemesis file (.par) is recognised by its extension, imported, its degenerate edges collapsed, and distributed over or woven between the ranks with the ghost layers and the partitioner the user asked for; other files and failures of the library are errors. Afterwards all ranks agree on the manifold and space dimensions, and a two-dimensional mesh has space dimension 2 exactly if all its vertices lie in one plane z = const.", "quantifier": "all file names, partitioners, numbers of ranks and layers, all answers of the library, all distributions of a mesh over the ranks", "why_tests_cant": "A test reads a handful of well-named files on a handful of ranks with the default partitioner.", "anchors": ["src/mesh/mesh_mstk/Mesh_MSTK.cc: Mesh_MSTK::init_mesh_from_file_ (64-144), Mesh_MSTK(filename) (150-229)", "src/mesh/mesh_mstk/Mesh_MSTK.hh: init_mesh_from_file_ (550-552)"]}
{"id": "C100", "title": "Parents of ghosts in a parallel extraction", "statement": "After a mesh has been extracted in parallel, every ghost entity of the new mesh has a parent on its own rank: that rank's copy of the entity the ghost's original was made from; own entities keep the parents they had. Ranks that lack such a copy get an error, and none lacks it if the new mesh asks for no more ghost layers than the mesh it is extracted from has.", "quantifier": "all meshes and distributions, numberings, sets of extracted entities, numbers of ranks and ghost layers", "why_tests_cant": "A test compares a few parents on one distribution; wrong parents or a missing one appear only for some distributions and layers.", "anchors": ["src/mesh/mesh_mstk/Mesh_MSTK.cc: Mesh_MSTK::extract_mstk_mesh (996-1113)"]}
{"id": "C101", "title": "Extraction does not disturb the base mesh", "statement": "Extracting meshes from a mesh leaves the base mesh as it was: whatever was extracted from it before, and in whatever order, the next extraction gives exactly what it would give on a mesh that nothing was ever extracted from; requests that are refused leave no trace either.", "quantifier": "all meshes, all histories of extractions (of cells, faces, with repetitions and overlaps, refused ones in between)", "why_tests_cant": "A test extracts one or two meshes; marks left behind show only when a later extraction meets the same entities.", "anchors": ["src/mesh/mesh_mstk/Mesh_MSTK.cc: Mesh_MSTK::extract_mstk_mesh (797-961, 1121-1206)"]}
{"id": "C102", "title": "Moving nodes in an MSTK mesh", "statement": "After any sequence of calls of node_set_coordinates, every node is at the point it was last moved to, or where it was; all versions of node_get_coordinates agree; cell_get_coordinates and face_get_coordinates give the points of the nodes that cell_get_nodes and face_get_nodes list, in that order. Setting by an array of as many numbers as the space has dimensions is the same as setting by a point.", "quantifier": "all meshes in 2 and 3 space dimensions (surfaces too), all sequences of changes, all nodes, cells and faces", "why_tests_cant": "A test moves a few nodes of one mesh, and mostly through one of the overloads.", "anchors": ["src/mesh/mesh_mstk/Mesh_MSTK.cc: Mesh_MSTK::node_get_coordinates (2398-2443), cell_get_coordinates (2452-2496), face_get_coordinates (2504-2551), node_set_coordinates (2557-2572)", "src/mesh/Mesh.hh: Mesh::node_get_coordinates (2209-2215)"]}
{"id": "C103", "title": "The tiles of a structured box", "statement": "A box mesh constructed with n tiles gets exactly n tiles. Partitioned in blocks, each tile owns the cells of a non-empty brick of neighbouring cells; its ghost cells are the other cells of that brick widened by the requested number of layers in all directions, as far as the box goes; it owns the nodes in and on the brick that no earlier tile owns, and has the other nodes in and on the widened brick as ghosts. By index, the tiles own consecutive ranges of cell ids; by METIS, the parts METIS gives. For any history of tile requests the ghost cells are the cells at most that many steps away from the tile's own cells, and every node and face of a tile's own cells is owned by the first tile that has it and asked for its kind.", "quantifier": "all box sizes, extents, numbers of tiles, numbers of layers, partitioners and answers of METIS; all histories of tile requests, also after nodes have moved", "why_tests_cant": "A test builds a few tiles of a 3x3x3 mesh with one layer and checks counts.", "anchors": ["src/mesh/mesh_simple/Mesh_simple.cc: Mesh_simple::Mesh_simple (30-97), cell_get_node_adj_cells (900-931)", "src/mesh/Mesh.cc: Mesh::build_tiles (598-613), get_partitioning (3081-3148)", "src/mesh/MeshTile.cc: MeshTile::MeshTile (86-311)"]}
