{
"C01": [
"proved",
"Termination, no out-of-range access and exact count for every valid request; requests < 1 are a finding (c01_nonpositive_request_refuted)."
],
"C02": [
"proved",
"Full tiling statement for every dimension 1..3."
],
"C03": [
"proved",
"Index partitioner and METIS post-processing in full; the block partitioner, including the walk that discovers the regular structure, on every uniform box mesh over exact reals (c03_blocks_of_a_box); see C90 for other meshes."
],
"C04": [
"partial",
"False of the code: 4 cells/4 parts give two empty parts (c04_no_empty_part_refuted). What holds is c04_nonempty_iff_partial."
],
"C05": [
"proved",
"Full statement; ids outside the mesh are out-of-range writes (c05_out_of_range_refuted)."
],
"C06": [
"partial",
"Members/layout proved for one call and any history; index map proved when the entity goes last. False of the code otherwise: c06_index_refuted, c06_duplicate_refuted."
],
"C07": [
"partial",
"Members and index of the removed entity proved; index map and layout are false of the code (c07_index_refuted)."
],
"C08": [
"partial",
"Members proved when an owned entity is among the arguments, layout/index in stated cases; ghosts-only is UB for every input, layout and index map otherwise wrong (c08_*_refuted)."
],
"C09": [
"partial",
"Proved for duplicate-free arguments (incl. indices of remaining members); repeated arguments lose other members or read out of range, removed members keep a stale index (c09_*_refuted)."
],
"C10": [
"proved",
"Union and order-independence for any number of sets; a single argument is returned as the same object."
],
"C11": [
"proved",
"Full statement."
],
"C12": [
"proved",
"Full statement."
],
"C13": [
"partial",
"Proved for meshes without ghosts; with ghosts false of the code (c13_ghost_refuted)."
],
"C14": [
"proved",
"For any history of registrations from the empty registry."
],
"C15": [
"proved",
"3D and 1D; construction never leaves the tables, ids denote structured positions."
],
"C16": [
"proved",
"3D and 1D, also after any number of node moves."
],
"C17": [
"proved",
"Also fixes the order of face_get_cells."
],
"C18": [
"proved",
"3D and 1D; node_to_cell_ buckets never overflow."
],
"C19": [
"proved",
"Both adjacency queries; exact characterisation and symmetry."
],
"C20": [
"partial",
"Refuted for the code as written: the xz/yz loops of update_internals_3d_ store xyface_index_ in node_to_face_, so in every 3D mesh with a cell every node misses a face (c20_node_faces_refuted). 1D is correct; in 3D only the number of entries is right."
],
"C21": [
"proved",
"Over the reals (rounding not modelled). Also: direction flag = outward right-hand normal."
],
"C22": [
"proved",
"Point update for a single call and last-write-wins for any history."
],
"C23": [
"proved",
""
],
"C24": [
"proved",
"For every 2D/3D connectivity and every 1D line a framework delivers (framework_mesh), and every request implying sides."
],
"C25": [
"proved",
""
],
"C26": [
"proved",
"Includes which edge end point is node 0 (c26_side_node_order)."
],
"C27": [
"proved",
"Node preservation assumes the two cells of a face use it in opposite directions (opposite_dirs), which the frameworks guarantee."
],
"C28": [
"proved",
"Corners need the end points of a cell's edges to be the cell's nodes (node_consistent)."
],
"C29": [
"proved",
""
],
"C30": [
"proved",
"For Mesh_simple's 1D constructor. Also proved: the box mesh with sides, wedges or corners requested always throws."
],
"C31": [
"proved",
"For every mesh whose queries answer and every history of valid make_meshtile requests: construction succeeds, tile i owns exactly its cells; if no cell is given twice every given cell has exactly one owning tile, which is its master tile, and all others have master -1. c31_initial_tiles / c31_index_space_tiles: instantiated to the initial tiles built from any partition of the cells, and from the index-space partitioner (C03). METIS/Zoltan themselves are not modelled."
],
"C32": [
"proved",
"Nodes, faces and edges; a tile 'wants' an entity if it asked for the kind and has an owned cell using it. Exactly the first wanting tile owns it and is its master; every other using tile lists it as ghost; unclaimed entities have no owner and master -1."
],
"C33": [
"proved",
"Ghost cells = cells reachable in at most num_halo_layers node-adjacency steps, minus the owned cells, without duplicates; ALL = owned ++ ghost. Negative layer counts behave as 0 (Z.to_nat)."
],
"C34": [
"proved",
"All seven kinds: owned and ghost lists duplicate-free and disjoint, ALL their concatenation, counts equal list lengths. For sides/wedges/corners the hypothesis is that the mesh's own per-cell lists are duplicate-free and disjoint between cells (proved of the cache in C24-C30)."
],
"C35": [
"partial",
"Holds for faces, edges, wedges, corners (c35_requested_kinds_partial). Refuted for sides: MeshTile.cc:252 collects sides under request_wedges, so a mesh asked for sides but not wedges has tiles with no sides (c35_sides_refuted)."
],
"C36": [
"partial",
"The answer is the mesh set's list of the queried type filtered by the tile's list of the same type (c36_restriction). Hence right for ALL, and for OWNED if the tile owns no MPI ghost; refuted for GHOST: on one rank the mesh set has no ghosts, so the answer is empty whatever the tile's halo (c36_ghost_members_refuted)."
],
"C37": [
"proved",
"All find overloads are characterised as the first stored vector with the asked characteristics; found after every later history. Vectors of another mesh are stored under this mesh (c37_added_from_other_mesh)."
],
"C38": [
"partial",
"Proved for requests on this mesh (every overload, every history; keys are unique). Refuted in two cases: adding a vector object of another mesh repeatedly stores a further copy each time (c38_foreign_copy_refuted), and a vector on OWNED entities counts as a duplicate for a request for ALL entities, which gets the shorter vector (c38_type_all_refuted)."
],
"C39": [
"partial",
"Proved for histories whose additions give a value or an existing vector. Refuted for the overloads without data, with a pointer or a 2D array: they record the position before storing the vector, one too low: first vector -> undefined behaviour (c39_first_vector_refuted, for every such request), later ones -> the previous vector, of whatever kind (c39_later_vector_refuted)."
],
"C40": [
"proved",
"Data buffers are modelled as heap objects; aliasing is equality of buffers. get: c40_get_stays_the_stored_vector for all later histories, c40_write_through_get; add and the copy constructor: independent for all later histories."
],
"C41": [
"proved",
"c41_sizes is an invariant of every history; copies of vectors of this mesh have the source's size, hence the hypothesis on those. c38_type_all_refuted shows that a request for ALL may return a vector made for OWNED."
],
"C42": [
"partial",
"Proved for all histories in which new materials get names no cell set ever had, and valid cells (c42_tables_partial, c42_add_material_partial incl. absence of errors; mat_tables is the full statement). Missing because false: ghost-only cells are undefined behaviour (all states), a pre-existing mesh set of that name, multi-material vectors on tiles, and add_cells_to_material (c42_*_refuted)."
],
"C43": [
"partial",
"Proved for removing the last material. Refuted otherwise: whenever a cell of the material also has a later material the call is undefined behaviour (all states with sound tables), otherwise later materials are not renumbered in the cells' lists; the mesh set keeps its cells so re-adding duplicates them."
],
"C44": [
"partial",
"c44_read and c44_write hold in every state with sound tables (mat_tables); c44_new_vector gives the initial contents for every way of adding a vector; c44_reads_last_written_partial lifts this to all histories of vector additions, writes, material additions and removals (of the last material, as in C42/C43) of materials other than the one read. Missing: histories with add_cells_to_material and with removal of a material that is not the last, where the tables themselves are wrong (C42, C43 refutations)."
],
"C52": [
"partial",
"The list constructor throws for every input (c52_list_constructor_refuted); step-by-step construction, rejections and copy are proved."
],
"C53": [
"partial",
"Lookup after any history proved; 2D models reject logical/labeled-set regions (c53_2d_logical_refuted)."
],
"C54": [
"partial",
"Entity_kind_string and Cell_type_string proved; Entity_type_string is wrong for every enumerator (c54_type_string_refuted)."
],
"C55": [
"proved",
"All flag combinations, exact characterisation."
],
"C56": [
"partial",
"Option histories and reset proved except for sides; request_sides_ is not reset (c56_reset_refuted)."
],
"C57": [
"partial",
"Explicit node list proved; operator()(x0,x1,nx) gives nx-1 cells short of x1 for every nx>=2 and throws for nx=1 (c57_*_refuted)."
],
"C58": [
"partial",
"Rejection proved for all inputs, never-null for 3D/1D/file/extract; 2D without MSTK returns null (c58_create2_null_refuted)."
],
"C59": [
"partial",
"Query and RAISE proved; ABORT never takes effect (c59_abort_refuted)."
],
"C63": [
"partial",
"Proved for ALL, PARALLEL_OWNED and PARALLEL_GHOST; refuted for BOUNDARY_GHOST, whose answer is always empty (c63_boundary_ghost_refuted)."
],
"C64": [
"proved",
""
],
"C67": [
"partial",
"Bad arguments on any rank make all ranks throw together; constructor failure or model mismatch on one rank leaves ranks in different reductions (c67_*_refuted)."
],
"C45": [
"partial",
"Proved under the stated conditions (exportable vectors on the mesh, on nodes/edges/faces/cells, long enough): the export completes, new names become fields with the vector's dimension, type and values, INT/DOUBLE fields are overwritten, no other field changes. The full claim is false of the code: any exportable vector on a tile (c45_tile_vector_refuted) or on sides/wedges/corners (c45_other_kind_refuted) makes the export undefined behaviour, vectors on owned entities only are read out of bounds, and an existing VECTOR/TENSOR field is never updated (c45_array_field_refuted: `!= VECTOR || != TENSOR` is always true)."
],
"C46": [
"partial",
"Proved for well-formed fields with distinct names (1D-3D): exactly one vector per field and kind, with the field's values, in order, unless a vector answers the key; nothing else changes; and export followed by import returns the same values (c46_round_trip). False in general: a field with the wrong number of components leads to copying uninitialised memory (c46_wrong_components_refuted), a 1D node field is imported twice, a vector on owned entities blocks the import. Several fields with one name on different kinds are not covered."
],
"C48": [
"partial",
"Real arithmetic. Plane: the normal is the signed (shoelace) area for every polygon; for 4 or more vertices the area is positive iff the polygon is star-shaped and counter-clockwise about the vertex mean, and then area and centroid are exact (also for counter-clockwise triangles and every convex polygon); inverted polygons of 4+ vertices get a non-positive area; translation. Space: normal = vector area for every polygon, area >= |normal|, equality and exact centroid for planar star-shaped and convex polygons, translation. The claim fails for clockwise triangles in the plane: c48_clockwise_triangle_refuted (reported with positive area, no inversion check when np == 3)."
],
"C49": [
"partial",
"Real arithmetic. For more than four nodes and a closed surface the volume is the enclosed volume (from any reference point) with the sign marking inverted sub-tetrahedra, exact centroid, exact and positive for convex outward polyhedra and all right-handed parallelepipeds, independent of node and face listing order. Tetrahedra: exact up to the sign; the sign follows the node listing order, not the faces (c49_tetrahedron_sign_refuted)."
],
"C50": [
"partial",
"Proved for polyhedra without triangular faces: true iff the point is on the inner side of every sub-triangle, and for planar convex faces iff it is on the inner side of every face plane. Refuted with triangular faces: the offset is not advanced past a triangle, so an all-triangle polyhedron tests only its first face (c50_triangles_refuted)."
],
"C65": [
"proved",
"Orthogonality in space; in the plane the cross product has one number, kept in the first coordinate, and the identities are proved in that form. Also bilinearity, norm, Cauchy-Schwarz, triangle inequality. Real arithmetic."
],
"C68": [
"partial",
"Exact, positive, additive in Cartesian and spherical geometry, and the face area is the derivative of the volume. In cylindrical geometry the functions write nothing (c68_cylindrical_refuted); in spherical geometry the sign depends on node order."
],
"C69": [
"proved",
"For all strictly convex polygons, both orientations; rotation and reversal of the vertex list for all polygons. Real arithmetic."
],
"C47": [
"proved",
"Boxes of any dimension 0-3 and any corners: inside is exactly coordinate-wise betweenness with tolerance 1e-8 whatever the order of the corners; mismatched dimensions throw; the region's dimension is the number of directions with an extent and is_degenerate counts the others. Reals for doubles."
],
"C51": [
"partial",
"Convex planar polygons in space with any vertex count, in either sense, and segments in 2D (exact iff). In space: far from the plane gives false (c51_off_plane); near it the answer is that of the point of the plane with the same projection (c51_near_plane); on it the closed polygon is inside and what is inside is within 1e-8*|m|/|m_e| of the closed polygon (c51_space_partial), provided some component of the normal m is positive or all are negative. Otherwise the property is false: init compares signed components of the normal with -1 instead of absolute values, so a polygon in a coordinate plane (or a plane parallel to an axis) listed in the wrong sense is projected edge-on and contains points arbitrarily far away (c51_wrong_way_refuted, for every such polygon). Missing: non-convex polygons."
],
"C66": [
"partial",
"Planes: inside iff within 1e-12/|n| of the plane (c66_plane), so the advertised tolerance holds exactly for unit normals (c66_plane_unit); the normal is not normalised, so scaling it changes the answer (c66_plane_scaled_refuted). Points: exact iff. Dimension mismatches throw."
],
"C70": [
"partial",
"Copies of boxes, planes and polygons are the same region (c70_copies_partial); exactly the four operation names are accepted (c70_operation_names). False for logical regions and labeled sets: their copy constructors copy only the base class, so operation, components and labels are lost (c70_logical_copy_refuted, c70_labeled_copy_refuted)."
],
"C60": [
"partial",
"For every history of motions and updates on any mesh with sides: all volumes, areas, centroids, face normals, edge vectors, side and wedge coordinates equal those of a mesh newly constructed at the current coordinates (c60_update_forgets_the_past), stored = recomputed for all valid non-boundary-ghost ids (c60_cached_equals_recomputed), update never fails in 2D/3D (c60_update_succeeds). False for the facet normals of sides and wedges: they are appended to the old list, so the stored ones stay those of the construction for ever (c60_stored_facet_normals_never_change, c60_facet_normal_after_motion_refuted). Recompute=true without an update is right for cells, faces, edges (c60_recompute_uses_current_coordinates), wrong for sides (c60_recomputed_side_volume_refuted), ignores the coordinates for corners (c60_corner_volume_ignores_coordinates_refuted) and never returns in 1D (c60_recompute_1d_refuted). 1D: c60_line_update_succeeds, c60_line_cylindrical (the geometry type CYLINDRICAL leaves results unset)."
],
"C61": [
"proved",
"face_normal for a cell of the face: natural normal turned by the direction, and that direction is returned (c61_normal_of_a_cell); a cell without that face fails the assertion (c61_not_a_face); without a cell: the natural normal whichever cells exist (c61_natural_normal); two cells get opposite normals (c61_two_cells); it points out of the cell: every other vertex of a convex cell lies strictly behind (2D: c61_outward_plane), no vertex lies in front and some lies strictly behind (3D convex cell, planar face: c61_outward_space). 2D/3D solid meshes; surface meshes in 3D are not modelled by geom_mesh. 1D: c61_outward_line."
],
"C71": [
"partial",
"3D with planar faces: sides sum to the volume enclosed by the faces (c71_sides_fill_the_surface), = cell_volume for a cell that is reported positive or is a tetrahedron (c71_sides_sum_to_the_cell), convex cells (c71_space_convex); 2D convex or star-shaped cells (c71_plane_convex, c71_plane_star); wedges and corners sum to the sides in every dimension (c71_wedges_sum_to_the_sides, c71_corners_sum_to_the_sides). Missing/false: a 2D cell whose centroid sees an edge the wrong way round gets too much (c71_plane_overshoot). False in 1D: the side at the right node of a cell always gets a negative volume (c71_line_refuted, for every 1D mesh); the absolute values add up (c71_line_partial)."
],
"C72": [
"proved",
"c72_facets_sum_to_the_face for 2D and 3D, any history, with the recomputed facet normals (the stored ones are those at construction: C60). (The claim is stated for 2D and 3D; in 1D the facet normal at the right node points into the cell: c72_line_refuted.)"
],
"C73": [
"proved",
"c73_face_normals_sum_to_zero (2D and 3D), c73_divergence_space (planar faces), c73_divergence_plane, stored or recomputed."
],
"C74": [
"partial",
"3D: both facet normals are the vector areas of the facets and n.height = 3*wedge volume (c74_facets_space); 2D facet 0 (c74_facet0_plane); the two wedges of a side have opposite facet-1 normals (c74_shared_facet). False for facet 1 in 2D: the code turns the vector node->cell centre instead of edge centre->cell centre (c74_facet1_plane_refuted)."
],
"C75": [
"partial",
"3D: c75_wedge_coordinates_space, c75_wedge_positive_order_space, c75_side_coordinates_space; 2D: c75_wedge_coordinates_plane (positive for convex cells); 1D sides: c75_side_coordinates_line (absolute value of the volume). False for 1D wedges: both wedges of a side report the whole side (c75_wedge_coordinates_line_refuted)."
],
"C76": [
"partial",
"2D, 3D: c76_edges, c76_face_plane, c76_face_space (convex planar faces), stored or recomputed, after any motions; 1D areas: c61_outward_line. False: face_centroid of a 1D mesh is always the origin (c76_line_face_centroid_refuted); edge_vector with a node that is not an end point is not rejected (c76_edge_vector_of_another_node_refuted)."
],
"C62": [
"partial",
"c62_logical_region_partial: logical regions nested to any depth, any operation, any mesh and history, under three conditions, each shown necessary: a union of a single region takes over and renames that region's own set (c62_single_union_refuted; the entities are still right: c62_logical_entities_partial), a difference of a region with itself fails an assertion (c62_subtract_from_itself_refuted) or ignores the repeat (c62_subtract_repeated_refuted), complements lose ghosts (C13). Earlier sets keep their entities in every case (c62_entities_kept). Also: cyclic definitions recurse forever (c62_cycle_refuted), copies of a logical region are undefined behaviour (c62_copied_region_refuted), logical sets of edges assert (c62_edge_sets_refuted), sets of TEMPORARY regions are not findable (c62_temporary_not_found). Concrete case: c62_row."
],
"C77": [
"partial",
"c77_simple_region for every supported combination of region type and kind; the others throw (c77_unsupported) or give null (c77_other_kinds_null). Cells of a point region: only the cells at the node nearest to the point are searched (c77_point_cells_partial), so the cell containing the point can be missed (c77_point_cell_missed_refuted)."
],
"C78": [
"partial",
"c78_all_regions_partial: all wanted sets are there, exact, and no others, for permanent regions with distinct names, components defined first, and the conditions of C62. False: a region whose cell set exists already - e.g. built as part of a logical region defined earlier - gets none of its other sets (c78_existing_cells_refuted, c78_component_first_refuted); in 2D models logical regions get no cell set by default (c78_logical_2d_refuted)."
],
"C79": [
"partial",
"2D: c79_exactly_one (convex cells filling a convex domain, any number), c79_no_gaps (any polygons), c79_polygon_cell; 1D: c79_line, c79_line_cell; 3D: c79_polyhedron_cell_partial (flat convex faces with at least four nodes). False for cells with triangular faces: only the first face is tested (c79_tetrahedron_refuted, concrete: c79_tower); false for 1D cells with reversed nodes (c79_line_backwards_refuted)."
],
"C80": [
"partial",
"c80_valid_names, c80_lookup, c80_create_partial (conditions of C62). False: labeled sets with entity string Entity_kind::CELL are built but not found (c80_prefixed_label_refuted); some names are valid although no set can be made and the call throws (c80_valid_but_throws_refuted)."
],
"C81": [
"proved",
"Construction and every later update succeed on every rectilinear grid when faces and nothing finer are requested (c81_construction, c81_update_succeeds); exact cell, face, normal, sum and containment values (c81_cells .. c81_one_cell). Findings: with edges, sides, wedges or corners the 3D constructor throws, without faces it fails an assertion in the first geometry update (c81_other_requests_refuted); without a cell argument the normal of squares normal to y points to -y (c81_natural_normal). Reals for double; tiles aside."
],
"C82": [
"partial",
"3D: points, indices, closedness, enclosed volume and outward triangles for every corner whose wedges have positive volume (c82_facets_space, c82_coordinates_space), in particular in every tetrahedron (c82_tetrahedron, c71_tetrahedron_sides); the triangles themselves are described for every corner. 2D: c82_facets_plane for star-shaped cells, c82_coordinates_plane for convex ones. False in the code: corner_get_coordinates gives clockwise points at every reflex corner of a star-shaped 2D cell (c82_coordinates_reflex_refuted), decreasing ones at the right corner of every 1D cell (c82_line_order_refuted), and the 1D corner_get_facetization appends to the caller's facet list where the 2D and 3D ones clear it (c82_line_facets_refuted)."
],
"C83": [
"partial",
"Proved for the faces of a cell (c83_edge_map) and 1D, 2D and 3D tables (c83_cell_edges). False in the code: for a face that is not of the cell, entries of edges not in the cell keep what the caller's vector held, or 0, instead of -1 as the uncached branch intends (c83_foreign_face_refuted); on a surface mesh (2D cells, space dimension 3) cell_2D_get_edges_and_dirs reads past the end of an empty vector for every cell (c83_surface_dirs_refuted)."
],
"C84": [
"proved",
"MSTK itself is abstracted: *_New appends an entity, *_Set_* sets its fields, MVs_CommonEdge searches the edges made so far. Exact real arithmetic for coordinates; natural numbers for ids (int overflow for grids over 2^31 entities is not modelled). What MSTK does afterwards (weaving processors together, ghosts) is outside the model."
],
"C85": [
"partial",
"Everything about local ids is proved, with boundary ghosts too. GIDs are distinct if MSTK's are; refuted for boundary ghosts in parallel (c85_gid_boundary_ghosts_refuted): create_boundary_ghosts gives them no global id, so every boundary ghost cell, face and node answers GID -1."
],
"C86": [
"partial",
"Proved for meshes without boundary ghosts, given that MSTK's own adjacency calls are mutually consistent (mstk_mesh). Refuted with boundary ghosts (c86_boundary_ghosts_refuted): the queries look only at MSTK's ghost flag, so a boundary ghost cell is returned for PARALLEL_OWNED and nothing is ever returned for BOUNDARY_GHOST."
],
"C87": [
"partial",
"Proved for cells whose every edge is on exactly two of their faces and whose faces meet in at most one edge (closed_cell, plain_cell: c87_standard_order_partial). Refuted otherwise: the cell type is derived from the number of faces and of quadrilaterals only, so five faces of which three are quadrilaterals and none a triangle (hanging nodes) count as a prism, and the ordered call then dereferences a null base face (c87_no_triangle_refuted)."
],
"C88": [
"partial",
"Edges (all dimensions) and 2D faces: full (c88_edges, c88_faces_2D). 3D faces and cell directions: proved when the owner of a face has the cells its ghost copies see, i.e. with at least one layer of ghost cells, the default (c88_faces_3D_partial, c88_cell_dirs_partial). Refuted with num_ghost_layers_distmesh = 0: the code compares ids of regions on the two sides, decides by the absence of a common one that the face is reversed, and shows every such ghost face with the opposite rotation (c88_no_ghost_layer_refuted)."
],
"C89": [
"partial",
"Connectivity and construction: full (c89_framework_mesh, c89_sides_wedges_corners). Orientation in the plane: full (c89_oriented_plane, c89_side_nodes_plane). In space: for serial meshes, for faces the rank owns, and when no ghost face is stored reversed (c89_oriented_space_partial, c89_side_nodes_space_partial). Refuted otherwise: face_get_edges_and_dirs does not look at faceflip although face_get_nodes and cell_get_faces_and_dirs do, so on a ghost face that the rank stores opposite to its owner the node order of all sides is reversed, also in cells the rank owns (c89_side_nodes_flipped_refuted); cell_2D_get_edges_and_dirs does not look at edgeflip (c89_cell_2D_edges_partial, c89_cell_2D_edges_refuted)."
],
"C90": [
"partial",
"Proved for every uniform box mesh (c03_blocks_of_a_box, listed under C03) and the discovery for every rectilinear one (c90_discovery). False in general: with graded grid lines a cell whose centroid lies on a block limit is in no part (c90_graded_refuted; what holds there is c90_rectilinear_partial), and on every Cartesian line mesh not ending at the origin all parts are empty (c90_line_refuted). Real numbers; coordinates must stay within 1e20."
],
"C91": [
"partial",
"c91_labeled_set: the answer of get_labeled_set_entities; c91_set_from_region and c91_set_by_region_name: the set built, and found by the region's name; c91_other_labels: missing, ambiguous and mismatched labels. Partial because the check of the kind of entities at construction (c91_checked_partial) knows only the spelling Entity_kind::X and only matset_/sideset_/nodeset_: c91_unchecked_refuted shows a set of nodes handed out as cells. Sets with deleted entities and the DEBUG-build test for a globally empty set are not modelled."
],
"C92": [
"partial",
"Full statement for distinct valid ids. c92_repeated_id_refuted: with a repeated id no mesh satisfying MSTK's invariants results. c92_bad_id_refuted: an id that is not there dereferences a null entity. Hypothesis in 3D for success: no two chosen faces use a shared edge in the same direction (otherwise the library's mesh is not an oriented surface)."
],
"C93": [
"partial",
"Full statement for distinct valid cells whose faces fit the fixed-size arrays. c93_edge_parents_refuted and c93_repeated_id_refuted record what fails."
],
"C94": [
"partial",
"The inheritance rule is proved in full (c94_same_dimension, c94_surface_nodes, c94_surface_cells, c94_surface_faces). What is not inherited although a user would expect it: c94_plain_spelling_refuted, c94_element_set_refuted; c94_no_parent_refuted: the parent query cannot tell 'no parent' from 'entity 0'."
],
"C95": [
"partial",
"c95_by_names_is_by_ids is the full positive claim; c95_geometric_region_refuted, c95_element_set_refuted and c95_unknown_name_refuted are findings. get_set_size, which the constructor calls first, only adds to the framework's registry (C80, C91) and is left out of the model."
],
"C96": [
"partial",
"c96_round_trip and the exact condition c96_by_id_iff are proved, sufficient conditions c96_by_id_ghosts_last and c96_by_id_no_ghosts; c96_parallel_refuted: the claim by id fails on a rank with a ghost before an owned node. Names and types of fields: C45, C46 (Fields.v)."
],
"C97": [
"partial",
"Everything but the last sentence is proved. The last sentence is refuted (c97_owned_neighbours_refuted): cell_get_face_adj_cells takes the type from MSTK, for which a boundary ghost is an ordinary cell, so it returns boundary ghosts for PARALLEL_OWNED and nothing for BOUNDARY_GHOST."
],
"C98": [
"partial",
"Proved: no degenerate edge is left if degenerate edges have exactly coinciding ends (c98_no_degenerate_edge_partial); a mesh without degenerate edges is unchanged, for any ME_Collapse; processors choose the same vertex, the lower id unless refused (c98_same_choice); refused edges are an error; ghost ids and sets are right if no merged-into entity is collapsed later itself. Refuted otherwise: an edge made shorter by a later collapse stays degenerate; with chains of collapses ghosts keep dead ids and sets lose their entities (MEnt_Dim of a deleted entity matches no set); a set with both ends gets the remaining one twice."
],
"C99": [
"partial",
"Proved: ghost layers, order of calls, exactly the failures of the library are reported (c99_ghost_layers, c99_order_of_calls, c99_errors_are_reported), ranks agree (c99_ranks_agree), 3D meshes (c99_space), planarity when ranks are linked by shared vertices (c99_planar_partial). Refuted: the partitioner is ignored, always METIS, because the constructor does not pass it on (c99_partitioner_ignored_refuted, every input); a Nemesis file with .exo in its name is read as Exodus; parts in different parallel planes count as planar; a rank without cells throws alone (3D) or is undefined behaviour (2D)."
],
"C100": [
"partial",
"Proved: c100_parents (right parents), c100_outcome (an error exactly if a rank lacks a parent), c100_enough_layers (no error if the new mesh has at most as many ghost layers). Refuted for more layers: c100_more_layers_refuted throws on a row of three cells. Assumed: weaving produces ghosts that name the originals, marked as overlapping; all copies of an entity share their global id only as far as the look-up needs."
],
"C101": [
"partial",
"Proved for every history in which nothing throws between copying and clean-up (c101_leaves_no_marks, c101_history). Refuted otherwise: after an extraction that failed late (e.g. C100's missing parent), the same request gives a surface without edges and vertices (c101_after_failure_refuted, for every mesh and list of faces), assuming MSTK finds the attribute again by its name."
],
"C102": [
"partial",
"Proved: c102_set_and_get, c102_history, c102_versions_agree, c102_cells, c102_faces; arrays only in space (c102_array_partial). Refuted in the plane: node_set_coordinates with an array of two numbers, which is all Mesh_simple reads of an array, reads a third one past its end (c102_array_in_the_plane_refuted, every mesh and node)."
],
"C103": [
"proved",
"Proved for the 3D structured mesh with faces requested (the only 3D Mesh_simple that can be constructed, C81): c103_cells, c103_nodes, c103_faces for any history; c103_block_tiles, c103_index_tiles, c103_metis_tiles, c103_no_tiles for the constructor."
]
}