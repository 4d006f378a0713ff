{
"C01,C02": [
"`BlockPartition.v`: block_partition_regular_mesh loop by loop, fuel for the two `while`s (running out is a distinct outcome)",
"invariant: the blocks tile the box; the measure of the while loops decreases; no out-of-range write"
],
"C03": [
"`IndexPartition.v` (index space, dispatch, METIS post-processing), `BlockAssign.v` (assignment of cells to blocks, exact reals)",
"induction over the push loops; each cell goes to exactly one part"
],
"C04": [
"`IndexPartition.v`",
"arithmetic; refuted by 4 cells in 4 parts"
],
"C05-C14": [
"`MeshSet.v`: owned/ghost/all lists and the two reverse maps, all member and free functions, the set registry",
"list induction, invariants over histories; refutations by computation and for whole classes of inputs"
],
"C15-C20,C22,C23": [
"`SimpleMesh.v`: the tables of Mesh_simple filled by the actual loops of writes, all getters",
"closed form of every table by induction over the loops, numbering arithmetic"
],
"C21": [
"`SimpleGeom.v`",
"as C15, over the reals"
],
"C24-C30,C55,C63,C64": [
"`Cache.v`, `SimpleTopo.v`: cache_type/face/edge/side/wedge/corner info over an arbitrary connectivity record; queries; iteration ranges",
"invariants of the construction loops; for 1D an explicit line"
],
"C31-C36": [
"`Tiles.v`: MeshTile constructor, halo loop, master tables, tile queries, set queries on tiles",
"induction over tiles, layers, histories of make_meshtile"
],
"C37-C41": [
"`State.v`: State as keyed list of vectors over a heap of data buffers, every overload of add/get/find/copy",
"history induction; aliasing = equality of buffers"
],
"C42-C44": [
"`State.v`: materials, material cell lists, multi-material vectors",
"history induction with a table invariant; refutations for all states where the call is undefined"
],
"C45,C46": [
"`Fields.v`: export_to_mesh, init_from_mesh, get/store_field",
"loop induction; round trip"
],
"C47,C66,C70": [
"`Regions.v`, `Point.v`",
"case analysis over R"
],
"C48": [
"`Geometry.v`: polygon_get_area_centroid_normal",
"sums over edges, ring/field; convexity lemmas"
],
"C49": [
"`Geometry.v`: polyhed_get_vol_centroid",
"sums over sub-tetrahedra; reference point independence of closed surfaces"
],
"C50": [
"`Geometry.v`: point_in_polyhed",
"loop invariant with face offset"
],
"C51": [
"`Regions.v`: PolygonRegion init and inside",
"projection algebra, convex polygon in the plane"
],
"C52,C53": [
"`GeoModel.v`: GeometricModel, Domain registries",
"history induction"
],
"C54": [
"`Defs.v`",
"case analysis"
],
"C56-C58,C67": [
"`Factory.v`: MeshFactory options, create overloads, rank-wise reductions",
"case analysis; ranks as a list of outcomes"
],
"C59": [
"`ErrorHandling.v`",
"case analysis; one `behavior` variable per translation unit"
],
"C60": [
"`MeshGeom.v`: update_geometric_quantities and all compute_/getter functions",
"history induction; stored values as pushed lists"
],
"C61": [
"`MeshGeom.v`: face_normal",
"set_normals case analysis, convexity"
],
"C62,C77,C78,C80": [
"`RegionSets.v`: build_set_from_region for every region type, init_sets, lookup",
"structural recursion over the region tree with fuel; invariant on the registry"
],
"C65": [
"`Point.v`",
"ring; Cauchy-Schwarz"
],
"C68": [
"`Geometry.v`: 1D cell and face measures",
"field; derivative"
],
"C69": [
"`Geometry.v`: point_in_polygon",
"crossing count = winding number; convex polygons"
],
"C71-C76": [
"`MeshGeom.v`: sides, wedges, corners, facets, edges",
"sums regrouped by face/edge/node through the cache theorems; algebra"
],
"C79": [
"`RegionSets.v`: point_in_cell",
"cancellation of crossings over shared edges"
],
"C81": [
"`BoxGeom.v`: 3D Mesh_simple constructor with caches and geometry",
"closed forms of C15-C21 + algebra of C48/C49/C50 on boxes"
],
"C82": [
"`CornerShape.v`: corner_get_facetization, corner_get_coordinates",
"search-or-append loop invariant; edge balance of the triangles through the face/edge orientation of C72; algebra"
],
"C83": [
"`CellEdges.v`: the cell-to-edge cache and its queries",
"table-filling invariant; loop invariant over the face's edges"
],
"C84": [
"both generate_regular_mesh functions with their classification tables, handle arrays and on-demand edges, and the constructors' use of block_partition_regular_mesh",
"loop lemmas for nested counted loops; the handle array as a search in the list of assigned index triples; classification by checking all 27 axis states against the model drawn in the source; mixed-radix arguments for numberings; tiling from C02"
],
"C85": [
"init_nodes/edges/faces/cells with id-to-handle tables, id lists, GID, over an abstract MSTK mesh",
"loop invariants for filling an array with consecutive ids; permutation of the filtered lists with the mesh"
],
"C86": [
"the query functions, on the object the construction of C85 makes",
"translation of every query into MSTK entities through the bijection of C85, then the adjacency laws of an MSTK mesh"
],
"C87": [
"cell_get_type, the base search, the lateral search along the edges of the base, the search for the top; MSTK_Mesh relations as in C85/C86",
"closed cells in which two faces share at most one edge: exactly one face lies across each edge of the base, so the lateral search is injective and exhausts the other faces; refutation on a prism with hanging nodes"
],
"C88": [
"a world of one MSTK mesh per rank, with the attribute exchange of init_pface_dirs and init_pedge_dirs as the owner's data arriving at each ghost; flips and their use by edge_get_nodes, face_get_nodes and cell_get_faces_and_dirs",
"every copy is compared with its owner: the computed flag is exactly whether the copies differ in direction (for faces: given a region both see), so the directions shown are all the owner's"
],
"C89": [
"the MSTK layer of C85-C88 as the framework under the cache model (topo_of) and under the geometry model (mstk_gmesh)",
"the hypotheses of C24-C29 and of the geometry theorems are proved for the answers of the MSTK layer; flipped ghost faces: every step compares with the stored vertex cycle"
],
"C90": [
"BlockDiscover.v: get_partitioning_by_blocks as a whole (limits, corner cell, walk along each direction with fuel, assignment), on top of MeshGeom.v/BoxGeom.v",
"Induction along each direction with the exact normals and centroids of C81; the line case with the normals of C61 and the centroid finding of C76; a 4x1x1 graded grid for the lost cell"
],
"C91": [
"`MstkSets`: the sets of the file as records, the four functions line by line, over `MstkMesh`",
"lookup by name in a list with distinct names; ids through C85; then C77/C80 for the set functions of the base class"
],
"C92": [
"The copying loops of extract_mstk_mesh with the marks and copy attributes as state, the library's calls that create vertices, edges and faces as a record of what was created, the parent attributes, and the constructor on the result",
"Loop invariant: the copies made so far are in bijection with the entities met so far and their definitions are the images of the originals; a specification of the created mesh (realises_surface) links it to the abstract MSTK mesh, then the C85-C86 lemmas turn library facts into API facts"
],
"C93": [
"As for C92, the region branch of extract_mstk_mesh",
"As for C92, with realises_volume"
],
"C94": [
"The loop over the regions and over the parent's set, with the values of the attribute copyatt after the copying loops of C92/C93",
"The copy attribute is the inverse of the parent attribute (invariant of the copying loops); the loops over sets are characterised by membership; ids through the API lemmas of C85, C92, C93"
],
"C95": [
"The loops over names and sets in the constructors, with List_ChknAdd",
"Invariant of the loops (no repeats, membership), ids by C85, the framework's sets by C91"
],
"C96": [
"The loops of store_field and get_field over the entities of MSTK's list",
"Loop invariants; ids from C85; necessity of the order by storing the identity array"
],
"C97": [
"create_boundary_ghosts as a fold over the faces of the mesh record (2D: edges), each step adding a cell under a new handle, then the construction of the object (MstkMesh.v)",
"an invariant of the fold lists the new cells with their face; the two constructions (without and with the new cells) are compared step by step"
],
"C98": [
"MstkCollapse.v models the loop over the edges, the choice of the kept vertex, the exchange of merged ids, the renumbering of ghosts and the updates of the sets; ME_Collapse is a parameter with a contract (good_collapse), met by a concrete simple_collapse.",
"Invariants of the loop: coordinates of the ends of every remaining edge, entities only disappear, the lists report exactly what disappeared; list lemmas for first-occurrence replacement and removal; computed counterexamples."
],
"C99": [
"MstkFile.v models which library calls are made with which arguments, what is made of their answers, and the two reductions that set the dimensions on all ranks.",
"Case analysis over the calls; induction over the ranks for the reductions and over chains of ranks sharing a vertex."
],
"C100": [
"MstkParents.v models the three steps over the list of all ranks: attach the parents' global ids to entities used elsewhere, take them over to the ghosts, look the ids up in the base mesh.",
"Relational semantics of the loops (Forall2) with the uniqueness of handles; for the ghost layers an induction over a distance by shared vertices, comparing the extracted part with the whole mesh."
],
"C101": [
"MstkClean.v models the clean-up loops on the attribute copyatt and a history of requests on one base mesh, over the model of the copying (MstkExtract.v).",
"Two invariants: marks are only set on the source entities and what bounds them; the clean-up never adds a mark and removes all of those - for a surface because in the closed loop of a face every vertex is the head of an edge. Induction over the history."
],
"C102": [
"MstkCoords.v models the queries and both setters over the tables of ids and MSTK's three numbers per vertex, for any type of numbers.",
"Injectivity of the node table (C85) makes a change a point update; induction over the history; the lists of vertices behind cells and faces are mapped through the ids."
],
"C103": [
"BoxTiles.v gives the parent mesh MeshTile sees in a Mesh_simple (its own queries and the caches of class Mesh) and the constructor's last step with the choice of partitioner.",
"The parent answers all its queries (an instance of the hypothesis of C31-C35); its node neighbours are the cells one step away in 26 directions, so the halo of C33 is a neighbourhood in the grid, by induction on layers.",
"C03's theorems on the partitioners, the block one end to end from the computed geometry, give the owned cells; halos and nodes of bricks are computed."
]
}