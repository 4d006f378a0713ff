# Formal model of lanl/Jali in Rocq (Coq 8.16.1)

Source: `/repo` (C++), read as text. Nothing of it is built or run; the tie between model and code is the
file/line citation on every definition. (This file is generated by `tools/mkdesign.py`.)

## Layout

* `rocq/theories/<Topic>.v` – the model: total Gallina functions, one per C++ function or loop, each with a comment
  `src/...:lines` and a note of every simplification.
* `rocq/theories/<Topic>_spec.v` – the independent specification vocabulary used in theorem statements.
* `rocq/theories/<Topic>_proofs*.v`, `*_examples.v`, `MeshGeom_tower.v` – lemmas and concrete meshes.
* `rocq/theories/Props_<Topic>.v` – the property theorems with `Example`s showing that their hypotheses are met.
* Theorem names start with the property id in lower case (`c01_…`). `…_refuted`: the faithful model violates the
  property (theorem contains the witness or holds for a whole class of inputs). `…_partial`: the part of a property that holds or
  is proved; what is missing is said in the note in `MANIFEST.json` and below.
* Undefined behaviour (`UB`: out-of-range access, null or uninitialised use), failed `assert` (`AssertFail`), thrown exceptions
  (`Thrown`) and running out of fuel (`OutOfFuel`) are distinct outcomes (`Base.v: outcome`), never normal-looking values.
* `seeded/LOG.jsonl` – the record of wrong programs tried against the theorems (`tools/seed.py`).

## Conventions and global simplifications

* C++ `int` is modelled by `Z` or `nat` without overflow. `double` is modelled by `R` (exact reals): rounding, overflow, NaN and
  the effect of tolerances on rounding are not modelled; tolerances that the code states are.
* `assert` is taken as active (a debug build); with `NDEBUG` the `AssertFail` outcomes become whatever follows.
* STL containers: `std::vector` iteration order is exact; `std::map` keyed by strings is an association list with unique keys;
  `shared_ptr`/raw pointers are heap indices where sharing matters (state vectors, mesh sets, regions).
* Reading an uninitialised output argument is `UB` or an explicit `None`.
* The base class `Mesh` calls a framework through virtual functions. The model takes an arbitrary connectivity record
  (`Cache.v: topo`); theorems state the well-formedness they need (`framework_mesh`, `built`, `geom_mesh` …), and it is proved to hold of
  Mesh_simple's meshes (`SimpleTopo`, `BoxGeom`) and of concrete unstructured meshes (`MeshGeom_examples`, `MeshGeom_tower`).

## What is modelled and what is not

Modelled: `block_partition.cc`; `Mesh.cc` – caches, queries, geometry, set construction, set registry, tiles, index-space partitioning, the
block partitioner (`BlockAssign`, `BlockDiscover`); `Mesh.hh` – constructor flags, iteration ranges, queries on sides/wedges/corners;
`MeshDefs.hh` string functions; `MeshSet.cc/.hh`; `MeshTile.cc/.hh`; `Mesh_simple.cc/.hh` (1D and 3D); `MeshFactory.cc/.hh`
(decision logic); `statemanager/*` (State, UniStateVector, MultiStateVector, materials, mesh fields); `geometry/*` (Point, Geometry.cc, all regions,
GeometricModel, Domain); `error_handling/exceptions.*`; of `mesh_mstk/Mesh_MSTK.cc` the regular mesh generators with the part of the
constructors that calls them (`RegularMesh`, `RegularMeshPar`), the edges of cells (`CellEdges`), the corner facets (`CornerShape`, through `Mesh.cc`) and the topology
layer (`MstkMesh`: numbering, lists of owned and ghost entities, directions of ghost faces and edges, cell types, all adjacency queries, GID) over an
abstract MSTK mesh (a record of what the library's calls answer; `MstkWorld*` relates it to one global mesh, `MstkFramework*` to the base class's
`topo`, `MstkGeom` to coordinates), the labeled sets (`MstkSets`) and the extraction of meshes from meshes with the inheritance of sets
(`MstkExtract`), the values of fields (`MstkField`), the boundary ghost cells (`MstkBghost`), the collapsing of degenerate edges (`MstkCollapse`), the control flow of reading files (`MstkFile`), the parents of ghosts in parallel extractions (`MstkParents`), the clean-up after an extraction (`MstkClean`) and the coordinates of nodes, cells and faces (`MstkCoords`). `BoxTiles` puts the constructor of Mesh_simple with tiles together.


Not modelled: the MSTK library itself, MPI communication (only the outcome of the reductions in MeshFactory), METIS, Zoltan, the parsing of files and
output, Boost, `operator<<` printing, timing of parallel
threads, memory release (destructors).

## Trusted base

* The kernel of Coq 8.16.1, including `vm_compute` (used for concrete examples and refutations). `coqchk` accepts the compiled theories.
* `Print Assumptions`: theorems about the discrete part (partitioning, sets, Mesh_simple tables, caches, tiles, state, factory, errors,
  registries) are closed under the global context. Theorems over the reals (C21, C47–C51, C60, C61, C65, C66, C68, C69, C71–C82, C84, C90, C92-C95 and the parts of C03, C62, C70, C89
  about coordinates) rest on the standard library's `ClassicalDedekindReals.sig_forall_dec`,
  `ClassicalDedekindReals.sig_not_dec`, `FunctionalExtensionality.functional_extensionality_dep`, and some on `Classical_Prop.classic`. No other axioms;
  none of our own.
* The reading of the C++ code, i.e. the comments citing it.

## Plan per property

@PLAN@

## Status and findings per property

`proved`: the property as stated in `properties.jsonl`. `partial`: the property as stated is false of the code in some cases (each shown
by a `_refuted` theorem) or is proved in part.

@STATUS@
