{
 "claims": [
  {
   "property": "C01",
   "status": "proved",
   "theorems": [
    "c01_block_count",
    "c01_too_many_blocks_aborts",
    "c01_nonpositive_request_refuted"
   ],
   "note": "Termination, no out-of-range access and exact count for every valid request; requests < 1 are a finding (c01_nonpositive_request_refuted)."
  },
  {
   "property": "C02",
   "status": "proved",
   "theorems": [
    "c02_blocks_tile"
   ],
   "note": "Full tiling statement for every dimension 1..3."
  },
  {
   "property": "C03",
   "status": "proved",
   "theorems": [
    "c03_blocks_of_a_box",
    "c03_index_partitions",
    "c03_metis_partitions",
    "c03_block_partitions"
   ],
   "note": "Index partitioner and METIS post-processing in full; the block partitioner, including the walk that discovers the regular structure, on every uniform box mesh over exact reals (c03_blocks_of_a_box); see C90 for other meshes."
  },
  {
   "property": "C04",
   "status": "partial",
   "theorems": [
    "c04_no_empty_part_refuted",
    "c04_nonempty_iff_partial"
   ],
   "note": "False of the code: 4 cells/4 parts give two empty parts (c04_no_empty_part_refuted). What holds is c04_nonempty_iff_partial."
  },
  {
   "property": "C05",
   "status": "proved",
   "theorems": [
    "c05_new_set",
    "c05_out_of_range_refuted"
   ],
   "note": "Full statement; ids outside the mesh are out-of-range writes (c05_out_of_range_refuted)."
  },
  {
   "property": "C06",
   "status": "partial",
   "theorems": [
    "c06_add_entity_partial",
    "c06_add_history",
    "c06_add_history_index_partial",
    "c06_index_refuted",
    "c06_duplicate_refuted"
   ],
   "note": "Members/layout proved for one call and any history; index map proved when the entity goes last. False of the code otherwise: c06_index_refuted, c06_duplicate_refuted."
  },
  {
   "property": "C07",
   "status": "partial",
   "theorems": [
    "c07_rem_entity_partial",
    "c07_index_refuted"
   ],
   "note": "Members and index of the removed entity proved; index map and layout are false of the code (c07_index_refuted)."
  },
  {
   "property": "C08",
   "status": "partial",
   "theorems": [
    "c08_add_entities_partial",
    "c08_ghosts_only_refuted",
    "c08_layout_refuted",
    "c08_ghost_index_refuted",
    "c08_boundary_ghost_refuted"
   ],
   "note": "Members proved when an owned entity is among the arguments, layout/index in stated cases; ghosts-only is UB for every input, layout and index map otherwise wrong (c08_*_refuted)."
  },
  {
   "property": "C09",
   "status": "partial",
   "theorems": [
    "c09_rem_entities_partial",
    "c09_repeated_argument_refuted",
    "c09_removed_index_refuted"
   ],
   "note": "Proved for duplicate-free arguments (incl. indices of remaining members); repeated arguments lose other members or read out of range, removed members keep a stale index (c09_*_refuted)."
  },
  {
   "property": "C10",
   "status": "proved",
   "theorems": [
    "c10_merge",
    "c10_merge_order",
    "c10_merge_single_is_alias"
   ],
   "note": "Union and order-independence for any number of sets; a single argument is returned as the same object."
  },
  {
   "property": "C11",
   "status": "proved",
   "theorems": [
    "c11_subtract"
   ],
   "note": "Full statement."
  },
  {
   "property": "C12",
   "status": "proved",
   "theorems": [
    "c12_intersect"
   ],
   "note": "Full statement."
  },
  {
   "property": "C13",
   "status": "partial",
   "theorems": [
    "c13_complement_partial",
    "c13_ghost_refuted"
   ],
   "note": "Proved for meshes without ghosts; with ghosts false of the code (c13_ghost_refuted)."
  },
  {
   "property": "C14",
   "status": "proved",
   "theorems": [
    "c14_lookup_after_history",
    "c14_register_one"
   ],
   "note": "For any history of registrations from the empty registry."
  },
  {
   "property": "C15",
   "status": "proved",
   "theorems": [
    "c15_box_construction_succeeds",
    "c15_structured_numbering_is_bijective",
    "c15_ids_denote_positions",
    "c15_face_ids_denote_squares",
    "c15_line_construction_succeeds"
   ],
   "note": "3D and 1D; construction never leaves the tables, ids denote structured positions."
  },
  {
   "property": "C16",
   "status": "proved",
   "theorems": [
    "c16_cell_face_queries_are_dual",
    "c16_face_cells_are_cells",
    "c16_two_cells_iff_interior",
    "c16_two_cells_iff_interior_1d"
   ],
   "note": "3D and 1D, also after any number of node moves."
  },
  {
   "property": "C17",
   "status": "proved",
   "theorems": [
    "c17_opposite_directions",
    "c17_face_cells_order"
   ],
   "note": "Also fixes the order of face_get_cells."
  },
  {
   "property": "C18",
   "status": "proved",
   "theorems": [
    "c18_node_cell_queries_are_dual",
    "c18_one_to_eight_cells",
    "c18_one_or_two_cells_1d"
   ],
   "note": "3D and 1D; node_to_cell_ buckets never overflow."
  },
  {
   "property": "C19",
   "status": "proved",
   "theorems": [
    "c19_face_adjacent_cells",
    "c19_node_adjacent_cells",
    "c19_adjacency_symmetric",
    "c19_node_adjacency_symmetric"
   ],
   "note": "Both adjacency queries; exact characterisation and symmetry."
  },
  {
   "property": "C20",
   "status": "partial",
   "theorems": [
    "c20_node_faces_1d_partial",
    "c20_node_faces_count_partial",
    "c20_node_faces_refuted"
   ],
   "note": "Refuted for the code as written: the xz/yz loops of update_internals_3d_ store xyface_index_ in node_to_face_, so in every 3D mesh with a cell every node misses a face (c20_node_faces_refuted). 1D is correct; in 3D only the number of entries is right."
  },
  {
   "property": "C21",
   "status": "proved",
   "theorems": [
    "c21_node_coordinates",
    "c21_box_is_filled",
    "c21_cell_is_sub_box",
    "c21_volumes_sum_to_box",
    "c21_direction_is_outward"
   ],
   "note": "Over the reals (rounding not modelled). Also: direction flag = outward right-hand normal."
  },
  {
   "property": "C22",
   "status": "proved",
   "theorems": [
    "c22_set_coordinates_is_point_update",
    "c22_last_write_wins"
   ],
   "note": "Point update for a single call and last-write-wins for any history."
  },
  {
   "property": "C23",
   "status": "proved",
   "theorems": [
    "c23_faces_use_cell_nodes",
    "c23_node_cell_faces",
    "c23_three_faces_at_a_corner",
    "c23_one_face_at_an_end_1d"
   ],
   "note": ""
  },
  {
   "property": "C24",
   "status": "proved",
   "theorems": [
    "c24_construction_succeeds",
    "c24_side_ids_are_consecutive",
    "c24_every_side_is_a_triple",
    "c24_every_triple_has_one_side",
    "c24_cell_sides",
    "c24_cells_follow_each_other"
   ],
   "note": "For every 2D/3D connectivity and every 1D line a framework delivers (framework_mesh), and every request implying sides."
  },
  {
   "property": "C25",
   "status": "proved",
   "theorems": [
    "c25_opposite_is_a_partial_involution",
    "c25_no_opposite_iff_no_other_cell"
   ],
   "note": ""
  },
  {
   "property": "C26",
   "status": "proved",
   "theorems": [
    "c26_two_wedges_per_side",
    "c26_wedge_inherits_from_side",
    "c26_wedge_nodes_are_the_edge_end_points",
    "c26_side_node_order"
   ],
   "note": "Includes which edge end point is node 0 (c26_side_node_order)."
  },
  {
   "property": "C27",
   "status": "proved",
   "theorems": [
    "c27_adjacent_wedge",
    "c27_opposite_wedge_is_a_partial_involution",
    "c27_no_opposite_wedge_iff_boundary",
    "c27_opposite_wedge_same_node"
   ],
   "note": "Node preservation assumes the two cells of a face use it in opposite directions (opposite_dirs), which the frameworks guarantee."
  },
  {
   "property": "C28",
   "status": "proved",
   "theorems": [
    "c28_one_corner_per_cell_and_node",
    "c28_corner_wedges",
    "c28_wedges_are_partitioned",
    "c28_cell_corners",
    "c28_corner_at_node",
    "c28_node_corners",
    "c28_node_wedges"
   ],
   "note": "Corners need the end points of a cell's edges to be the cell's nodes (node_consistent)."
  },
  {
   "property": "C29",
   "status": "proved",
   "theorems": [
    "c29_lists_hold_the_cells_type",
    "c29_lists_partition",
    "c29_reported_type_is_the_cells_type",
    "c29_base_types",
    "c29_unrequested_kinds_are_unknown"
   ],
   "note": ""
  },
  {
   "property": "C30",
   "status": "proved",
   "theorems": [
    "c30_line_construction_succeeds",
    "c30_two_sides_per_cell",
    "c30_opposite_side",
    "c30_corners_of_the_line",
    "c30_box_mesh_with_sides_throws"
   ],
   "note": "For Mesh_simple's 1D constructor. Also proved: the box mesh with sides, wedges or corners requested always throws."
  },
  {
   "property": "C31",
   "status": "proved",
   "theorems": [
    "c31_construction_succeeds",
    "c31_tile_owns_its_cells",
    "c31_no_tiles_no_master",
    "c31_tiles_partition_the_cells",
    "c31_initial_tiles",
    "c31_index_space_tiles"
   ],
   "note": "For every mesh whose queries answer and every history of valid make_meshtile requests: construction succeeds, tile i owns exactly its cells; if no cell is given twice every given cell has exactly one owning tile, which is its master tile, and all others have master -1. c31_initial_tiles / c31_index_space_tiles: instantiated to the initial tiles built from any partition of the cells, and from the index-space partitioner (C03). METIS/Zoltan themselves are not modelled."
  },
  {
   "property": "C32",
   "status": "proved",
   "theorems": [
    "c32_exactly_one_owner",
    "c32_unclaimed_entities_have_no_owner",
    "c32_other_users_list_it_as_ghost"
   ],
   "note": "Nodes, faces and edges; a tile 'wants' an entity if it asked for the kind and has an owned cell using it. Exactly the first wanting tile owns it and is its master; every other using tile lists it as ghost; unclaimed entities have no owner and master -1."
  },
  {
   "property": "C33",
   "status": "proved",
   "theorems": [
    "c33_halo_is_the_neighbourhood",
    "c33_all_is_owned_then_ghost"
   ],
   "note": "Ghost cells = cells reachable in at most num_halo_layers node-adjacency steps, minus the owned cells, without duplicates; ALL = owned ++ ghost. Negative layer counts behave as 0 (Z.to_nat)."
  },
  {
   "property": "C34",
   "status": "proved",
   "theorems": [
    "c34_lists_are_disjoint_and_duplicate_free",
    "c34_cell_parts_are_disjoint_and_duplicate_free",
    "c34_counts_are_list_lengths"
   ],
   "note": "All seven kinds: owned and ghost lists duplicate-free and disjoint, ALL their concatenation, counts equal list lengths. For sides/wedges/corners the hypothesis is that the mesh's own per-cell lists are duplicate-free and disjoint between cells (proved of the cache in C24-C30)."
  },
  {
   "property": "C35",
   "status": "partial",
   "theorems": [
    "c35_requested_kinds_partial",
    "c35_sides_refuted"
   ],
   "note": "Holds for faces, edges, wedges, corners (c35_requested_kinds_partial). Refuted for sides: MeshTile.cc:252 collects sides under request_wedges, so a mesh asked for sides but not wedges has tiles with no sides (c35_sides_refuted)."
  },
  {
   "property": "C36",
   "status": "partial",
   "theorems": [
    "c36_restriction",
    "c36_all_members_partial",
    "c36_owned_members_partial",
    "c36_ghost_members_refuted"
   ],
   "note": "The answer is the mesh set's list of the queried type filtered by the tile's list of the same type (c36_restriction). Hence right for ALL, and for OWNED if the tile owns no MPI ghost; refuted for GHOST: on one rank the mesh set has no ghosts, so the answer is empty whatever the tile's halo (c36_ghost_members_refuted)."
  },
  {
   "property": "C37",
   "status": "proved",
   "theorems": [
    "c37_added_is_found",
    "c37_added_from_other_mesh",
    "c37_new_vector",
    "c37_still_found",
    "c37_never_added",
    "c37_find_variants"
   ],
   "note": "All find overloads are characterised as the first stored vector with the asked characteristics; found after every later history. Vectors of another mesh are stored under this mesh (c37_added_from_other_mesh)."
  },
  {
   "property": "C38",
   "status": "partial",
   "theorems": [
    "c38_duplicate_add_changes_nothing",
    "c38_add_twice",
    "c38_keys_are_unique",
    "c38_foreign_copy_refuted",
    "c38_type_all_refuted"
   ],
   "note": "Proved for requests on this mesh (every overload, every history; keys are unique). Refuted in two cases: adding a vector object of another mesh repeatedly stores a further copy each time (c38_foreign_copy_refuted), and a vector on OWNED entities counts as a duplicate for a request for ALL entities, which gets the shorter vector (c38_type_all_refuted)."
  },
  {
   "property": "C39",
   "status": "partial",
   "theorems": [
    "c39_iteration_partial",
    "c39_first_vector_refuted",
    "c39_later_vector_refuted"
   ],
   "note": "Proved for histories whose additions give a value or an existing vector. Refuted for the overloads without data, with a pointer or a 2D array: they record the position before storing the vector, one too low: first vector -> undefined behaviour (c39_first_vector_refuted, for every such request), later ones -> the previous vector, of whatever kind (c39_later_vector_refuted)."
  },
  {
   "property": "C40",
   "status": "proved",
   "theorems": [
    "c40_get_stays_the_stored_vector",
    "c40_write_through_get",
    "c40_add_copies",
    "c40_copies_are_deep"
   ],
   "note": "Data buffers are modelled as heap objects; aliasing is equality of buffers. get: c40_get_stays_the_stored_vector for all later histories, c40_write_through_get; add and the copy constructor: independent for all later histories."
  },
  {
   "property": "C41",
   "status": "proved",
   "theorems": [
    "c41_new_vector",
    "c41_short_array",
    "c41_sizes",
    "c41_element_write"
   ],
   "note": "c41_sizes is an invariant of every history; copies of vectors of this mesh have the source's size, hence the hypothesis on those. c38_type_all_refuted shows that a request for ALL may return a vector made for OWNED."
  },
  {
   "property": "C42",
   "status": "partial",
   "theorems": [
    "c42_tables_partial",
    "c42_add_material_partial",
    "c42_duplicate_name",
    "c42_ghosts_only_refuted",
    "c42_existing_set_refuted",
    "c42_tile_vector_refuted",
    "c42_add_cells_refuted",
    "c42_add_cells_tile_refuted"
   ],
   "note": "Proved for all histories in which new materials get names no cell set ever had, and valid cells (c42_tables_partial, c42_add_material_partial incl. absence of errors; mat_tables is the full statement). Missing because false: ghost-only cells are undefined behaviour (all states), a pre-existing mesh set of that name, multi-material vectors on tiles, and add_cells_to_material (c42_*_refuted)."
  },
  {
   "property": "C43",
   "status": "partial",
   "theorems": [
    "c43_remove_last_partial",
    "c43_shared_cell_refuted",
    "c43_renumbering_refuted",
    "c43_readding_refuted"
   ],
   "note": "Proved for removing the last material. Refuted otherwise: whenever a cell of the material also has a later material the call is undefined behaviour (all states with sound tables), otherwise later materials are not renumbered in the cells' lists; the mesh set keeps its cells so re-adding duplicates them."
  },
  {
   "property": "C44",
   "status": "partial",
   "theorems": [
    "c44_layouts_agree",
    "c44_read",
    "c44_write",
    "c44_new_material_is_zero_partial",
    "c44_reads_last_written_partial",
    "c44_new_vector"
   ],
   "note": "c44_read and c44_write hold in every state with sound tables (mat_tables); c44_new_vector gives the initial contents for every way of adding a vector; c44_reads_last_written_partial lifts this to all histories of vector additions, writes, material additions and removals (of the last material, as in C42/C43) of materials other than the one read. Missing: histories with add_cells_to_material and with removal of a material that is not the last, where the tables themselves are wrong (C42, C43 refutations)."
  },
  {
   "property": "C45",
   "status": "partial",
   "theorems": [
    "c45_export_completes_partial",
    "c45_new_field_partial",
    "c45_existing_field",
    "c45_other_fields",
    "c45_tile_vector_refuted",
    "c45_other_kind_refuted",
    "c45_short_vector_refuted",
    "c45_array_field_refuted"
   ],
   "note": "Proved under the stated conditions (exportable vectors on the mesh, on nodes/edges/faces/cells, long enough): the export completes, new names become fields with the vector's dimension, type and values, INT/DOUBLE fields are overwritten, no other field changes. The full claim is false of the code: any exportable vector on a tile (c45_tile_vector_refuted) or on sides/wedges/corners (c45_other_kind_refuted) makes the export undefined behaviour, vectors on owned entities only are read out of bounds, and an existing VECTOR/TENSOR field is never updated (c45_array_field_refuted: `!= VECTOR || != TENSOR` is always true)."
  },
  {
   "property": "C46",
   "status": "partial",
   "theorems": [
    "c46_import_partial",
    "c46_field_found",
    "c46_round_trip",
    "c46_wrong_components_refuted",
    "c46_1d_twice_refuted",
    "c46_owned_blocks_refuted"
   ],
   "note": "Proved for well-formed fields with distinct names (1D-3D): exactly one vector per field and kind, with the field's values, in order, unless a vector answers the key; nothing else changes; and export followed by import returns the same values (c46_round_trip). False in general: a field with the wrong number of components leads to copying uninitialised memory (c46_wrong_components_refuted), a 1D node field is imported twice, a vector on owned entities blocks the import. Several fields with one name on different kinds are not covered."
  },
  {
   "property": "C47",
   "status": "proved",
   "theorems": [
    "c47_inside",
    "c47_corner_order",
    "c47_dimension_mismatch",
    "c47_dimension"
   ],
   "note": "Boxes of any dimension 0-3 and any corners: inside is exactly coordinate-wise betweenness with tolerance 1e-8 whatever the order of the corners; mismatched dimensions throw; the region's dimension is the number of directions with an extent and is_degenerate counts the others. Reals for doubles."
  },
  {
   "property": "C48",
   "status": "partial",
   "theorems": [
    "c48_parallelogram",
    "c48_plane_normal_is_signed_area",
    "c48_plane_area_positive_iff",
    "c48_plane_exact",
    "c48_plane_convex",
    "c48_plane_inverted",
    "c48_plane_inverted_part",
    "c48_plane_clockwise",
    "c48_clockwise_triangle_refuted",
    "c48_plane_degenerate",
    "c48_plane_translation",
    "c48_space_normal_is_vector_area",
    "c48_space_planar",
    "c48_space_convex",
    "c48_space_translation"
   ],
   "note": "Real arithmetic. Plane: the normal is the signed (shoelace) area for every polygon; for 4 or more vertices the area is positive iff the polygon is star-shaped and counter-clockwise about the vertex mean, and then area and centroid are exact (also for counter-clockwise triangles and every convex polygon); inverted polygons of 4+ vertices get a non-positive area; translation. Space: normal = vector area for every polygon, area >= |normal|, equality and exact centroid for planar star-shaped and convex polygons, translation. The claim fails for clockwise triangles in the plane: c48_clockwise_triangle_refuted (reported with positive area, no inversion check when np == 3)."
  },
  {
   "property": "C49",
   "status": "partial",
   "theorems": [
    "c49_closed_surface",
    "c49_positive_iff",
    "c49_convex",
    "c49_node_order",
    "c49_face_order",
    "c49_tetrahedron",
    "c49_tetrahedron_sign_refuted",
    "c49_parallelepiped",
    "c49_degenerate"
   ],
   "note": "Real arithmetic. For more than four nodes and a closed surface the volume is the enclosed volume (from any reference point) with the sign marking inverted sub-tetrahedra, exact centroid, exact and positive for convex outward polyhedra and all right-handed parallelepipeds, independent of node and face listing order. Tetrahedra: exact up to the sign; the sign follows the node listing order, not the faces (c49_tetrahedron_sign_refuted)."
  },
  {
   "property": "C50",
   "status": "partial",
   "theorems": [
    "c50_no_triangles_partial",
    "c50_convex_faces_partial",
    "c50_triangles_refuted"
   ],
   "note": "Proved for polyhedra without triangular faces: true iff the point is on the inner side of every sub-triangle, and for planar convex faces iff it is on the inner side of every face plane. Refuted with triangular faces: the offset is not advanced past a triangle, so an all-triangle polyhedron tests only its first face (c50_triangles_refuted)."
  },
  {
   "property": "C51",
   "status": "partial",
   "theorems": [
    "c51_segment",
    "c51_made",
    "c51_off_plane",
    "c51_space_partial",
    "c51_near_plane",
    "c51_wrong_way_refuted"
   ],
   "note": "Convex planar polygons in space with any vertex count, in either sense, and segments in 2D (exact iff). In space: far from the plane gives false (c51_off_plane); near it the answer is that of the point of the plane with the same projection (c51_near_plane); on it the closed polygon is inside and what is inside is within 1e-8*|m|/|m_e| of the closed polygon (c51_space_partial), provided some component of the normal m is positive or all are negative. Otherwise the property is false: init compares signed components of the normal with -1 instead of absolute values, so a polygon in a coordinate plane (or a plane parallel to an axis) listed in the wrong sense is projected edge-on and contains points arbitrarily far away (c51_wrong_way_refuted, for every such polygon). Missing: non-convex polygons."
  },
  {
   "property": "C52",
   "status": "partial",
   "theorems": [
    "c52_list_constructor_refuted",
    "c52_incremental_partial",
    "c52_rejects",
    "c52_copy"
   ],
   "note": "The list constructor throws for every input (c52_list_constructor_refuted); step-by-step construction, rejections and copy are proved."
  },
  {
   "property": "C53",
   "status": "partial",
   "theorems": [
    "c53_lookup_after_history",
    "c53_new_region_found",
    "c53_2d_logical_refuted"
   ],
   "note": "Lookup after any history proved; 2D models reject logical/labeled-set regions (c53_2d_logical_refuted)."
  },
  {
   "property": "C54",
   "status": "partial",
   "theorems": [
    "c54_kind_string_partial",
    "c54_cell_type_string_partial",
    "c54_type_string_refuted",
    "c54_valid_kinds_partial"
   ],
   "note": "Entity_kind_string and Cell_type_string proved; Entity_type_string is wrong for every enumerator (c54_type_string_refuted)."
  },
  {
   "property": "C55",
   "status": "proved",
   "theorems": [
    "c55_closure"
   ],
   "note": "All flag combinations, exact characterisation."
  },
  {
   "property": "C56",
   "status": "partial",
   "theorems": [
    "c56_option_history_partial",
    "c56_always_included",
    "c56_reset_partial",
    "c56_reset_refuted"
   ],
   "note": "Option histories and reset proved except for sides; request_sides_ is not reset (c56_reset_refuted)."
  },
  {
   "property": "C57",
   "status": "partial",
   "theorems": [
    "c57_explicit_nodes_partial",
    "c57_short_by_one_refuted",
    "c57_single_cell_refuted"
   ],
   "note": "Explicit node list proved; operator()(x0,x1,nx) gives nx-1 cells short of x1 for every nx>=2 and throws for nx=1 (c57_*_refuted)."
  },
  {
   "property": "C58",
   "status": "partial",
   "theorems": [
    "c58_create3_rejects",
    "c58_create2_rejects",
    "c58_create1_rejects",
    "c58_model_dimension",
    "c58_never_null",
    "c58_create2_never_null_partial",
    "c58_create2_null_refuted",
    "c58_generates_simple",
    "c58_generates_iff",
    "c58_generates_unavailable",
    "c58_file_model_dimension",
    "c58_file_failures_throw"
   ],
   "note": "Rejection proved for all inputs, never-null for 3D/1D/file/extract; 2D without MSTK returns null (c58_create2_null_refuted)."
  },
  {
   "property": "C59",
   "status": "partial",
   "theorems": [
    "c59_query_partial",
    "c59_raise_partial",
    "c59_abort_refuted"
   ],
   "note": "Query and RAISE proved; ABORT never takes effect (c59_abort_refuted)."
  },
  {
   "property": "C60",
   "status": "partial",
   "theorems": [
    "c60_line_update_succeeds",
    "c60_line_cylindrical",
    "c60_update_forgets_the_past",
    "c60_cached_equals_recomputed",
    "c60_update_succeeds",
    "c60_stored_facet_normals_never_change",
    "c60_facet_normals_at_construction",
    "c60_facet_normal_after_motion_refuted",
    "c60_recompute_uses_current_coordinates",
    "c60_recomputed_side_volume_refuted",
    "c60_corner_volume_ignores_coordinates_refuted",
    "c60_recompute_1d_refuted",
    "c60_boundary_ghost"
   ],
   "note": "For every history of motions and updates on any mesh with sides: all volumes, areas, centroids, face normals, edge vectors, side and wedge coordinates equal those of a mesh newly constructed at the current coordinates (c60_update_forgets_the_past), stored = recomputed for all valid non-boundary-ghost ids (c60_cached_equals_recomputed), update never fails in 2D/3D (c60_update_succeeds). False for the facet normals of sides and wedges: they are appended to the old list, so the stored ones stay those of the construction for ever (c60_stored_facet_normals_never_change, c60_facet_normal_after_motion_refuted). Recompute=true without an update is right for cells, faces, edges (c60_recompute_uses_current_coordinates), wrong for sides (c60_recomputed_side_volume_refuted), ignores the coordinates for corners (c60_corner_volume_ignores_coordinates_refuted) and never returns in 1D (c60_recompute_1d_refuted). 1D: c60_line_update_succeeds, c60_line_cylindrical (the geometry type CYLINDRICAL leaves results unset)."
  },
  {
   "property": "C61",
   "status": "proved",
   "theorems": [
    "c61_normal_of_a_cell",
    "c61_not_a_face",
    "c61_natural_normal",
    "c61_two_cells",
    "c61_outward_plane",
    "c61_outward_space",
    "c61_outward_line"
   ],
   "note": "face_normal for a cell of the face: natural normal turned by the direction, and that direction is returned (c61_normal_of_a_cell); a cell without that face fails the assertion (c61_not_a_face); without a cell: the natural normal whichever cells exist (c61_natural_normal); two cells get opposite normals (c61_two_cells); it points out of the cell: every other vertex of a convex cell lies strictly behind (2D: c61_outward_plane), no vertex lies in front and some lies strictly behind (3D convex cell, planar face: c61_outward_space). 2D/3D solid meshes; surface meshes in 3D are not modelled by geom_mesh. 1D: c61_outward_line."
  },
  {
   "property": "C62",
   "status": "partial",
   "theorems": [
    "c62_logical_region_partial",
    "c62_logical_entities_partial",
    "c62_entities_kept",
    "c62_single_union_refuted",
    "c62_subtract_from_itself_refuted",
    "c62_subtract_repeated_refuted",
    "c62_cycle_refuted",
    "c62_depth_only",
    "c62_no_operation_refuted",
    "c62_copied_region_refuted",
    "c62_edge_sets_refuted",
    "c62_temporary_not_found"
   ],
   "note": "c62_logical_region_partial: logical regions nested to any depth, any operation, any mesh and history, under three conditions, each shown necessary: a union of a single region takes over and renames that region's own set (c62_single_union_refuted; the entities are still right: c62_logical_entities_partial), a difference of a region with itself fails an assertion (c62_subtract_from_itself_refuted) or ignores the repeat (c62_subtract_repeated_refuted), complements lose ghosts (C13). Earlier sets keep their entities in every case (c62_entities_kept). Also: cyclic definitions recurse forever (c62_cycle_refuted), copies of a logical region are undefined behaviour (c62_copied_region_refuted), logical sets of edges assert (c62_edge_sets_refuted), sets of TEMPORARY regions are not findable (c62_temporary_not_found). Concrete case: c62_row."
  },
  {
   "property": "C63",
   "status": "partial",
   "theorems": [
    "c63_all_cells_of_the_face",
    "c63_cells_of_a_type",
    "c63_owned_and_ghost_partition_all",
    "c63_boundary_ghost_is_empty",
    "c63_boundary_ghost_refuted"
   ],
   "note": "Proved for ALL, PARALLEL_OWNED and PARALLEL_GHOST; refuted for BOUNDARY_GHOST, whose answer is always empty (c63_boundary_ghost_refuted)."
  },
  {
   "property": "C64",
   "status": "proved",
   "theorems": [
    "c64_counts_are_list_lengths",
    "c64_all_is_the_sum",
    "c64_no_boundary_ghost_below_cells"
   ],
   "note": ""
  },
  {
   "property": "C65",
   "status": "proved",
   "theorems": [
    "c65_cross_orthogonal",
    "c65_cross_plane",
    "c65_cross_antisymmetric",
    "c65_lagrange",
    "c65_dot_symmetric",
    "c65_dot_bilinear",
    "c65_cross_bilinear",
    "c65_triple_cyclic",
    "c65_double_cross",
    "c65_add_sub",
    "c65_div",
    "c65_compound",
    "c65_norm_positive",
    "c65_norm_scale",
    "c65_cauchy_schwarz",
    "c65_triangle"
   ],
   "note": "Orthogonality in space; in the plane the cross product has one number, kept in the first coordinate, and the identities are proved in that form. Also bilinearity, norm, Cauchy-Schwarz, triangle inequality. Real arithmetic."
  },
  {
   "property": "C66",
   "status": "partial",
   "theorems": [
    "c66_plane",
    "c66_plane_unit",
    "c66_plane_scaled_refuted",
    "c66_plane_mismatch",
    "c66_point",
    "c66_point_itself"
   ],
   "note": "Planes: inside iff within 1e-12/|n| of the plane (c66_plane), so the advertised tolerance holds exactly for unit normals (c66_plane_unit); the normal is not normalised, so scaling it changes the answer (c66_plane_scaled_refuted). Points: exact iff. Dimension mismatches throw."
  },
  {
   "property": "C67",
   "status": "partial",
   "theorems": [
    "c67_bad_argument_all_throw_partial",
    "c67_one_rank_fails_refuted",
    "c67_model_mismatch_refuted"
   ],
   "note": "Bad arguments on any rank make all ranks throw together; constructor failure or model mismatch on one rank leaves ranks in different reductions (c67_*_refuted)."
  },
  {
   "property": "C68",
   "status": "partial",
   "theorems": [
    "c68_volume_exact",
    "c68_volumes_add_up",
    "c68_node_order",
    "c68_node_order_spherical_refuted",
    "c68_area_is_derivative",
    "c68_cylindrical_refuted"
   ],
   "note": "Exact, positive, additive in Cartesian and spherical geometry, and the face area is the derivative of the volume. In cylindrical geometry the functions write nothing (c68_cylindrical_refuted); in spherical geometry the sign depends on node order."
  },
  {
   "property": "C69",
   "status": "proved",
   "theorems": [
    "c69_rotation",
    "c69_reversal",
    "c69_convex_sound",
    "c69_convex_complete",
    "c69_convex_clockwise"
   ],
   "note": "For all strictly convex polygons, both orientations; rotation and reversal of the vertex list for all polygons. Real arithmetic."
  },
  {
   "property": "C70",
   "status": "partial",
   "theorems": [
    "c70_copies_partial",
    "c70_logical_copy_refuted",
    "c70_labeled_copy_refuted",
    "c70_operation_names",
    "c70_operations"
   ],
   "note": "Copies of boxes, planes and polygons are the same region (c70_copies_partial); exactly the four operation names are accepted (c70_operation_names). False for logical regions and labeled sets: their copy constructors copy only the base class, so operation, components and labels are lost (c70_logical_copy_refuted, c70_labeled_copy_refuted)."
  },
  {
   "property": "C71",
   "status": "partial",
   "theorems": [
    "c71_wedges_sum_to_the_sides",
    "c71_corners_sum_to_the_sides",
    "c71_tetrahedron_sides",
    "c71_space_convex",
    "c71_line_refuted",
    "c71_line_partial",
    "c71_sides_fill_the_surface",
    "c71_sides_sum_to_the_cell",
    "c71_plane_star",
    "c71_plane_convex",
    "c71_plane_overshoot"
   ],
   "note": "3D with planar faces: sides sum to the volume enclosed by the faces (c71_sides_fill_the_surface), = cell_volume for a cell that is reported positive or is a tetrahedron (c71_sides_sum_to_the_cell), convex cells (c71_space_convex); 2D convex or star-shaped cells (c71_plane_convex, c71_plane_star); wedges and corners sum to the sides in every dimension (c71_wedges_sum_to_the_sides, c71_corners_sum_to_the_sides). Missing/false: a 2D cell whose centroid sees an edge the wrong way round gets too much (c71_plane_overshoot). False in 1D: the side at the right node of a cell always gets a negative volume (c71_line_refuted, for every 1D mesh); the absolute values add up (c71_line_partial)."
  },
  {
   "property": "C72",
   "status": "proved",
   "theorems": [
    "c72_facets_sum_to_the_face",
    "c72_line_refuted"
   ],
   "note": "c72_facets_sum_to_the_face for 2D and 3D, any history, with the recomputed facet normals (the stored ones are those at construction: C60). (The claim is stated for 2D and 3D; in 1D the facet normal at the right node points into the cell: c72_line_refuted.)"
  },
  {
   "property": "C73",
   "status": "proved",
   "theorems": [
    "c73_face_normals_sum_to_zero",
    "c73_divergence_space",
    "c73_divergence_plane"
   ],
   "note": "c73_face_normals_sum_to_zero (2D and 3D), c73_divergence_space (planar faces), c73_divergence_plane, stored or recomputed."
  },
  {
   "property": "C74",
   "status": "partial",
   "theorems": [
    "c74_facets_space",
    "c74_facet0_plane",
    "c74_shared_facet",
    "c74_facet1_plane_refuted"
   ],
   "note": "3D: both facet normals are the vector areas of the facets and n.height = 3*wedge volume (c74_facets_space); 2D facet 0 (c74_facet0_plane); the two wedges of a side have opposite facet-1 normals (c74_shared_facet). False for facet 1 in 2D: the code turns the vector node->cell centre instead of edge centre->cell centre (c74_facet1_plane_refuted)."
  },
  {
   "property": "C75",
   "status": "partial",
   "theorems": [
    "c75_side_coordinates_line",
    "c75_wedge_coordinates_line_refuted",
    "c75_wedge_coordinates_space",
    "c75_wedge_positive_order_space",
    "c75_side_coordinates_space",
    "c75_wedge_coordinates_plane"
   ],
   "note": "3D: c75_wedge_coordinates_space, c75_wedge_positive_order_space, c75_side_coordinates_space; 2D: c75_wedge_coordinates_plane (positive for convex cells); 1D sides: c75_side_coordinates_line (absolute value of the volume). False for 1D wedges: both wedges of a side report the whole side (c75_wedge_coordinates_line_refuted)."
  },
  {
   "property": "C76",
   "status": "partial",
   "theorems": [
    "c76_edges",
    "c76_edge_vector_of_another_node_refuted",
    "c76_face_plane",
    "c76_face_space",
    "c76_line_face_centroid_refuted"
   ],
   "note": "2D, 3D: c76_edges, c76_face_plane, c76_face_space (convex planar faces), stored or recomputed, after any motions; 1D areas: c61_outward_line. False: face_centroid of a 1D mesh is always the origin (c76_line_face_centroid_refuted); edge_vector with a node that is not an end point is not rejected (c76_edge_vector_of_another_node_refuted)."
  },
  {
   "property": "C77",
   "status": "partial",
   "theorems": [
    "c77_simple_region",
    "c77_unsupported",
    "c77_other_kinds_null",
    "c77_no_region",
    "c77_point_cells_partial",
    "c77_point_cell_missed_refuted"
   ],
   "note": "c77_simple_region for every supported combination of region type and kind; the others throw (c77_unsupported) or give null (c77_other_kinds_null). Cells of a point region: only the cells at the node nearest to the point are searched (c77_point_cells_partial), so the cell containing the point can be missed (c77_point_cell_missed_refuted)."
  },
  {
   "property": "C78",
   "status": "partial",
   "theorems": [
    "c78_all_regions_partial",
    "c78_default_kinds",
    "c78_existing_cells_refuted",
    "c78_component_first_refuted",
    "c78_logical_2d_refuted"
   ],
   "note": "c78_all_regions_partial: all wanted sets are there, exact, and no others, for permanent regions with distinct names, components defined first, and the conditions of C62. False: a region whose cell set exists already - e.g. built as part of a logical region defined earlier - gets none of its other sets (c78_existing_cells_refuted, c78_component_first_refuted); in 2D models logical regions get no cell set by default (c78_logical_2d_refuted)."
  },
  {
   "property": "C79",
   "status": "partial",
   "theorems": [
    "c79_exactly_one",
    "c79_no_gaps",
    "c79_polygon_cell",
    "c79_polyhedron_cell_partial",
    "c79_tetrahedron_refuted",
    "c79_line_cell",
    "c79_line_backwards_refuted",
    "c79_line"
   ],
   "note": "2D: c79_exactly_one (convex cells filling a convex domain, any number), c79_no_gaps (any polygons), c79_polygon_cell; 1D: c79_line, c79_line_cell; 3D: c79_polyhedron_cell_partial (flat convex faces with at least four nodes). False for cells with triangular faces: only the first face is tested (c79_tetrahedron_refuted, concrete: c79_tower); false for 1D cells with reversed nodes (c79_line_backwards_refuted)."
  },
  {
   "property": "C80",
   "status": "partial",
   "theorems": [
    "c80_valid_names",
    "c80_lookup",
    "c80_create_partial",
    "c80_prefixed_label_refuted",
    "c80_valid_but_throws_refuted"
   ],
   "note": "c80_valid_names, c80_lookup, c80_create_partial (conditions of C62). False: labeled sets with entity string Entity_kind::CELL are built but not found (c80_prefixed_label_refuted); some names are valid although no set can be made and the call throws (c80_valid_but_throws_refuted)."
  },
  {
   "property": "C81",
   "status": "proved",
   "theorems": [
    "c81_construction",
    "c81_other_requests_refuted",
    "c81_update_succeeds",
    "c81_cells",
    "c81_faces",
    "c81_outward_normals",
    "c81_natural_normal",
    "c81_total_volume",
    "c81_point_in_cell",
    "c81_some_cell",
    "c81_one_cell"
   ],
   "note": "Construction and every later update succeed on every rectilinear grid when faces and nothing finer are requested (c81_construction, c81_update_succeeds); exact cell, face, normal, sum and containment values (c81_cells .. c81_one_cell). Findings: with edges, sides, wedges or corners the 3D constructor throws, without faces it fails an assertion in the first geometry update (c81_other_requests_refuted); without a cell argument the normal of squares normal to y points to -y (c81_natural_normal). Reals for double; tiles aside."
  },
  {
   "property": "C82",
   "status": "partial",
   "theorems": [
    "c82_facets_space",
    "c82_coordinates_space",
    "c82_facets_plane",
    "c82_coordinates_plane",
    "c82_coordinates_reflex_refuted",
    "c82_line_order_refuted",
    "c82_line_facets_refuted",
    "c82_tetrahedron"
   ],
   "note": "3D: points, indices, closedness, enclosed volume and outward triangles for every corner whose wedges have positive volume (c82_facets_space, c82_coordinates_space), in particular in every tetrahedron (c82_tetrahedron, c71_tetrahedron_sides); the triangles themselves are described for every corner. 2D: c82_facets_plane for star-shaped cells, c82_coordinates_plane for convex ones. False in the code: corner_get_coordinates gives clockwise points at every reflex corner of a star-shaped 2D cell (c82_coordinates_reflex_refuted), decreasing ones at the right corner of every 1D cell (c82_line_order_refuted), and the 1D corner_get_facetization appends to the caller's facet list where the 2D and 3D ones clear it (c82_line_facets_refuted)."
  },
  {
   "property": "C83",
   "status": "partial",
   "theorems": [
    "c83_cell_edges",
    "c83_edge_map",
    "c83_foreign_face_refuted",
    "c83_surface_dirs_refuted",
    "c83_not_requested",
    "c83_num_faces"
   ],
   "note": "Proved for the faces of a cell (c83_edge_map) and 1D, 2D and 3D tables (c83_cell_edges). False in the code: for a face that is not of the cell, entries of edges not in the cell keep what the caller's vector held, or 0, instead of -1 as the uncached branch intends (c83_foreign_face_refuted); on a surface mesh (2D cells, space dimension 3) cell_2D_get_edges_and_dirs reads past the end of an empty vector for every cell (c83_surface_dirs_refuted)."
  },
  {
   "property": "C84",
   "status": "proved",
   "theorems": [
    "c84_regular_mesh_3d",
    "c84_cells_once_3d",
    "c84_shared_entities_3d",
    "c84_regular_mesh_2d",
    "c84_cells_once_2d",
    "c84_shared_entities_2d"
   ],
   "note": "MSTK itself is abstracted: *_New appends an entity, *_Set_* sets its fields, MVs_CommonEdge searches the edges made so far. Exact real arithmetic for coordinates; natural numbers for ids (int overflow for grids over 2^31 entities is not modelled). What MSTK does afterwards (weaving processors together, ghosts) is outside the model."
  },
  {
   "property": "C85",
   "status": "partial",
   "theorems": [
    "c85_construction",
    "c85_ids_by_type",
    "c85_one_entity_per_id",
    "c85_lists_hold_the_type",
    "c85_gids_distinct",
    "c85_gid_boundary_ghosts_refuted"
   ],
   "note": "Everything about local ids is proved, with boundary ghosts too. GIDs are distinct if MSTK's are; refuted for boundary ghosts in parallel (c85_gid_boundary_ghosts_refuted): create_boundary_ghosts gives them no global id, so every boundary ghost cell, face and node answers GID -1."
  },
  {
   "property": "C86",
   "status": "partial",
   "theorems": [
    "c86_node_cells",
    "c86_node_faces",
    "c86_node_cell_faces",
    "c86_face_cells",
    "c86_face_adjacent_cells",
    "c86_face_adjacency_symmetric",
    "c86_node_adjacent_cells",
    "c86_all_is_owned_and_ghost",
    "c86_boundary_ghosts_refuted"
   ],
   "note": "Proved for meshes without boundary ghosts, given that MSTK's own adjacency calls are mutually consistent (mstk_mesh). Refuted with boundary ghosts (c86_boundary_ghosts_refuted): the queries look only at MSTK's ghost flag, so a boundary ghost cell is returned for PARALLEL_OWNED and nothing is ever returned for BOUNDARY_GHOST."
  },
  {
   "property": "C87",
   "status": "partial",
   "theorems": [
    "c87_standard_order_partial",
    "c87_other_cells",
    "c87_no_triangle_refuted"
   ],
   "note": "Proved for cells whose every edge is on exactly two of their faces and whose faces meet in at most one edge (closed_cell, plain_cell: c87_standard_order_partial). Refuted otherwise: the cell type is derived from the number of faces and of quadrilaterals only, so five faces of which three are quadrilaterals and none a triangle (hanging nodes) count as a prism, and the ordered call then dereferences a null base face (c87_no_triangle_refuted)."
  },
  {
   "property": "C88",
   "status": "partial",
   "theorems": [
    "c88_construction",
    "c88_edges",
    "c88_faces_2D",
    "c88_faces_3D_partial",
    "c88_no_ghost_layer_refuted",
    "c88_cell_dirs_partial"
   ],
   "note": "Edges (all dimensions) and 2D faces: full (c88_edges, c88_faces_2D). 3D faces and cell directions: proved when the owner of a face has the cells its ghost copies see, i.e. with at least one layer of ghost cells, the default (c88_faces_3D_partial, c88_cell_dirs_partial). Refuted with num_ghost_layers_distmesh = 0: the code compares ids of regions on the two sides, decides by the absence of a common one that the face is reversed, and shows every such ghost face with the opposite rotation (c88_no_ghost_layer_refuted)."
  },
  {
   "property": "C89",
   "status": "partial",
   "theorems": [
    "c89_framework_mesh",
    "c89_sides_wedges_corners",
    "c89_oriented_plane",
    "c89_oriented_space_partial",
    "c89_side_nodes_plane",
    "c89_side_nodes_space_partial",
    "c89_side_nodes_flipped_refuted",
    "c89_cell_2D_edges_partial",
    "c89_cell_2D_edges_refuted"
   ],
   "note": "Connectivity and construction: full (c89_framework_mesh, c89_sides_wedges_corners). Orientation in the plane: full (c89_oriented_plane, c89_side_nodes_plane). In space: for serial meshes, for faces the rank owns, and when no ghost face is stored reversed (c89_oriented_space_partial, c89_side_nodes_space_partial). Refuted otherwise: face_get_edges_and_dirs does not look at faceflip although face_get_nodes and cell_get_faces_and_dirs do, so on a ghost face that the rank stores opposite to its owner the node order of all sides is reversed, also in cells the rank owns (c89_side_nodes_flipped_refuted); cell_2D_get_edges_and_dirs does not look at edgeflip (c89_cell_2D_edges_partial, c89_cell_2D_edges_refuted)."
  },
  {
   "property": "C90",
   "status": "partial",
   "theorems": [
    "c90_discovery",
    "c90_too_many_parts",
    "c90_rectilinear_partial",
    "c90_graded_refuted",
    "c90_line_refuted"
   ],
   "note": "Proved for every uniform box mesh (c03_blocks_of_a_box, listed under C03) and the discovery for every rectilinear one (c90_discovery). False in general: with graded grid lines a cell whose centroid lies on a block limit is in no part (c90_graded_refuted; what holds there is c90_rectilinear_partial), and on every Cartesian line mesh not ending at the origin all parts are empty (c90_line_refuted). Real numbers; coordinates must stay within 1e20."
  },
  {
   "property": "C91",
   "status": "partial",
   "theorems": [
    "c91_labeled_set",
    "c91_other_labels",
    "c91_set_from_region",
    "c91_set_by_region_name",
    "c91_checked_partial",
    "c91_unchecked_refuted"
   ],
   "note": "c91_labeled_set: the answer of get_labeled_set_entities; c91_set_from_region and c91_set_by_region_name: the set built, and found by the region's name; c91_other_labels: missing, ambiguous and mismatched labels. Partial because the check of the kind of entities at construction (c91_checked_partial) knows only the spelling Entity_kind::X and only matset_/sideset_/nodeset_: c91_unchecked_refuted shows a set of nodes handed out as cells. Sets with deleted entities and the DEBUG-build test for a globally empty set are not modelled."
  },
  {
   "property": "C92",
   "status": "partial",
   "theorems": [
    "c92_extraction_succeeds",
    "c92_cells",
    "c92_faces",
    "c92_no_more_no_less",
    "c92_coordinates",
    "c92_repeated_id_refuted",
    "c92_refused",
    "c92_bad_id_refuted"
   ],
   "note": "Full statement for distinct valid ids. c92_repeated_id_refuted: with a repeated id no mesh satisfying MSTK's invariants results. c92_bad_id_refuted: an id that is not there dereferences a null entity. Hypothesis in 3D for success: no two chosen faces use a shared edge in the same direction (otherwise the library's mesh is not an oriented surface)."
  },
  {
   "property": "C93",
   "status": "partial",
   "theorems": [
    "c93_extraction_succeeds",
    "c93_cells",
    "c93_faces",
    "c93_no_more_no_less",
    "c93_coordinates",
    "c93_edge_parents_refuted",
    "c93_repeated_id_refuted"
   ],
   "note": "Full statement for distinct valid cells whose faces fit the fixed-size arrays. c93_edge_parents_refuted and c93_repeated_id_refuted record what fails."
  },
  {
   "property": "C94",
   "status": "partial",
   "theorems": [
    "c94_same_dimension",
    "c94_surface_nodes",
    "c94_surface_cells",
    "c94_surface_faces",
    "c94_plain_spelling_refuted",
    "c94_element_set_refuted",
    "c94_no_parent_refuted"
   ],
   "note": "The inheritance rule is proved in full (c94_same_dimension, c94_surface_nodes, c94_surface_cells, c94_surface_faces). What is not inherited although a user would expect it: c94_plain_spelling_refuted, c94_element_set_refuted; c94_no_parent_refuted: the parent query cannot tell 'no parent' from 'entity 0'."
  },
  {
   "property": "C95",
   "status": "partial",
   "theorems": [
    "c95_by_names_is_by_ids",
    "c95_geometric_region_refuted",
    "c95_element_set_refuted",
    "c95_unknown_name_refuted"
   ],
   "note": "c95_by_names_is_by_ids is the full positive claim; c95_geometric_region_refuted, c95_element_set_refuted and c95_unknown_name_refuted are findings. get_set_size, which the constructor calls first, only adds to the framework's registry (C80, C91) and is left out of the model."
  },
  {
   "property": "C96",
   "status": "partial",
   "theorems": [
    "c96_round_trip",
    "c96_by_id_iff",
    "c96_by_id_ghosts_last",
    "c96_parallel_refuted"
   ],
   "note": "c96_round_trip and the exact condition c96_by_id_iff are proved, sufficient conditions c96_by_id_ghosts_last and c96_by_id_no_ghosts; c96_parallel_refuted: the claim by id fails on a rank with a ghost before an owned node. Names and types of fields: C45, C46 (Fields.v)."
  },
  {
   "property": "C97",
   "status": "partial",
   "theorems": [
    "c97_construction",
    "c97_rest_unchanged",
    "c97_one_per_exterior_face",
    "c97_no_others",
    "c97_owned_neighbours_refuted"
   ],
   "note": "Everything but the last sentence is proved. The last sentence is refuted (c97_owned_neighbours_refuted): cell_get_face_adj_cells takes the type from MSTK, for which a boundary ghost is an ordinary cell, so it returns boundary ghosts for PARALLEL_OWNED and nothing for BOUNDARY_GHOST."
  },
  {
   "property": "C98",
   "status": "partial",
   "theorems": [
    "c98_no_degenerate_edge_partial",
    "c98_nothing_to_collapse",
    "c98_same_choice",
    "c98_ghost_ids_partial",
    "c98_sets_partial",
    "c98_no_degenerate_edge_refuted",
    "c98_chain_refuted",
    "c98_set_duplicates_refuted",
    "c98_refused_is_an_error"
   ],
   "note": "Proved: no degenerate edge is left if degenerate edges have exactly coinciding ends (c98_no_degenerate_edge_partial); a mesh without degenerate edges is unchanged, for any ME_Collapse; processors choose the same vertex, the lower id unless refused (c98_same_choice); refused edges are an error; ghost ids and sets are right if no merged-into entity is collapsed later itself. Refuted otherwise: an edge made shorter by a later collapse stays degenerate; with chains of collapses ghosts keep dead ids and sets lose their entities (MEnt_Dim of a deleted entity matches no set); a set with both ends gets the remaining one twice."
  },
  {
   "property": "C99",
   "status": "partial",
   "theorems": [
    "c99_ghost_layers",
    "c99_order_of_calls",
    "c99_errors_are_reported",
    "c99_partitioner_ignored_refuted",
    "c99_extension_refuted",
    "c99_ranks_agree",
    "c99_space",
    "c99_planar_partial",
    "c99_parallel_plates_refuted",
    "c99_rank_without_cells_refuted",
    "c99_rank_without_vertices_refuted"
   ],
   "note": "Proved: ghost layers, order of calls, exactly the failures of the library are reported (c99_ghost_layers, c99_order_of_calls, c99_errors_are_reported), ranks agree (c99_ranks_agree), 3D meshes (c99_space), planarity when ranks are linked by shared vertices (c99_planar_partial). Refuted: the partitioner is ignored, always METIS, because the constructor does not pass it on (c99_partitioner_ignored_refuted, every input); a Nemesis file with .exo in its name is read as Exodus; parts in different parallel planes count as planar; a rank without cells throws alone (3D) or is undefined behaviour (2D)."
  },
  {
   "property": "C100",
   "status": "partial",
   "theorems": [
    "c100_parents",
    "c100_outcome",
    "c100_enough_layers",
    "c100_more_layers_refuted"
   ],
   "note": "Proved: c100_parents (right parents), c100_outcome (an error exactly if a rank lacks a parent), c100_enough_layers (no error if the new mesh has at most as many ghost layers). Refuted for more layers: c100_more_layers_refuted throws on a row of three cells. Assumed: weaving produces ghosts that name the originals, marked as overlapping; all copies of an entity share their global id only as far as the look-up needs."
  },
  {
   "property": "C101",
   "status": "partial",
   "theorems": [
    "c101_leaves_no_marks",
    "c101_history",
    "c101_after_failure_refuted"
   ],
   "note": "Proved for every history in which nothing throws between copying and clean-up (c101_leaves_no_marks, c101_history). Refuted otherwise: after an extraction that failed late (e.g. C100's missing parent), the same request gives a surface without edges and vertices (c101_after_failure_refuted, for every mesh and list of faces), assuming MSTK finds the attribute again by its name."
  },
  {
   "property": "C102",
   "status": "partial",
   "theorems": [
    "c102_set_and_get",
    "c102_history",
    "c102_versions_agree",
    "c102_cells",
    "c102_faces",
    "c102_array_partial",
    "c102_array_in_the_plane_refuted"
   ],
   "note": "Proved: c102_set_and_get, c102_history, c102_versions_agree, c102_cells, c102_faces; arrays only in space (c102_array_partial). Refuted in the plane: node_set_coordinates with an array of two numbers, which is all Mesh_simple reads of an array, reads a third one past its end (c102_array_in_the_plane_refuted, every mesh and node)."
  },
  {
   "property": "C103",
   "status": "proved",
   "theorems": [
    "c103_cells",
    "c103_nodes",
    "c103_faces",
    "c103_block_tiles",
    "c103_index_tiles",
    "c103_metis_tiles",
    "c103_no_tiles"
   ],
   "note": "Proved for the 3D structured mesh with faces requested (the only 3D Mesh_simple that can be constructed, C81): c103_cells, c103_nodes, c103_faces for any history; c103_block_tiles, c103_index_tiles, c103_metis_tiles, c103_no_tiles for the constructor."
  }
 ]
}