# Formal model of isomesh: design

All theorems are about a hand-written Gallina model of the C++ sources in
`/repo`, checked by the Coq 8.16.1 kernel.  Nothing of `/repo` is compiled or
run.  Every definition of the model cites the file and lines it follows.

## Modelling conventions

* **Outcomes.**  `outcome A` is `Ret a`, `Throw e`, `AssertFail` or `UB`.
  Reading outside an array, reading an uninitialised variable, signed overflow
  and similar are `UB`; a violated `assert` is `AssertFail`.  A theorem
  saying that a function returns `Ret` therefore covers release builds as well,
  where asserts are compiled out.
* **Integers.**  `uint32_t` and `int32_t` are `Z` with explicit wrap-around
  (`mod 2^32`) or an explicit overflow check where the property is about range.
  Theorems that do not mention range are about the un-wrapped numbers only
  when another theorem shows that no wrap takes place; the comment says so.
* **Floating point.**  Three treatments, always named in the theorem's file:
  1. *Abstract.*  Structural theorems (which vertices, which triangles) take
     the numeric types and operations as parameters.  They hold for every
     interpretation, in particular IEEE arithmetic with any rounding.
  2. *Exact.*  Theorems about geometry use the real numbers of the standard
     library (`R`).  They say what the algorithm computes apart from rounding.
     For the QEF solvers the reals are extended by infinities and NaN (`XReal`),
     so that division by zero has the outcome of IEEE-754; the sign of the zero
     that is divided by is arbitrary.
  3. *Binary64 / binary32.*  Where rounding itself is the subject, Flocq's
     IEEE-754 formalisation is used (round to nearest even).
* **Library functions with unspecified results** (`std::sort` on equal keys,
  user supplied fields and zero finders, QEF results where irrelevant) are
  universally quantified: relation for sort, functions for the others.
* **Loops** are structural recursion or carry explicit fuel together with a
  theorem that the fuel suffices.

## Files (rocq/theories)

| file | contents |
|------|----------|
| `Base` | outcomes, vectors, machine integers, small list library |
| `Tables`, `DcTables` | the tables of `src/util/tables.cpp` and `dc_octree.cpp`, generated by `tools/gen_tables.py` |
| `*Model` | the model of one source file each, no proofs |
| `*Spec` | independent specification vocabulary used in theorem statements |
| `*Proofs` and the other files | lemmas |
| `Prop*` | the theorems named in `MANIFEST.json`, with `Print Assumptions` and worked instances |

`MANIFEST.json` is written by `tools/manifest.py` from the `Prop*` files and
`tools/status.json`.

## Trusted base

* The Coq 8.16.1 kernel (and `coqchk`), including its virtual machine for
  `vm_compute`.
* That the model is faithful: it was written by reading the sources, and the
  tables were transcribed by `tools/gen_tables.py`.
* The axioms `Print Assumptions` lists, all from the standard library (the
  classical real numbers and what Flocq takes from there):

<!-- assumptions -->
* Closed under the global context (no axioms):
  C01_mesh_history, C01_index_count, C01_add_vertex, C02_accepted, C02_result, C03_point_to_index, C03_index_to_point, C03_order, C03_no_overflow, C03_outside, C04_vertex_in, C04_edge_in, C04_face_in, C04_cell_in, C04_vertex_border, C04_edge_border, C04_face_border, C04_cell_border, C04_cells_of_edge, C05_most_negative_refuted, C05_most_negative_partial, C06_cells_of_edge, C06_order, C07_corners, C07_materials, C08_materials, C08_no_trace, C09_edges, C10_calls, C11_sort, C11_find, C11_compressed, C13_valid, C13_represents, C14_vertices, C14_triangles, C15_watertight, C16_valid, C16_vertices, C16_triangles, C17_closed, C19_fast_majority, C19_fast_member, C20_merge_majority_refuted, C20_merge_majority_partial, C20_merge_member, C20_merge_bound_tight_refuted, C21_precise, C21_precise_merge, C22_same_set, C22_leader, C22_sizes, C23_depth, C29_rows, C33_dc_sizes, C33_dc_centre, C33_dmc_sizes, C33_mdc_sizes, C34_leaves, C35_valid, C35_vertices, C35_repeat, C35_before_build, C36_same_surface, C36_closed, C36_watertight, C37_tolerance, C37_error, C38_partial, C38_destroy, C38_refuted, C39_build, C39_contour, C39_before_build, C39_cells, C39_vertices, C39_numbers, C40_triangles, C40_closed, C40_watertight, C41_cells, C41_nodes, C41_mesh, C42_material, C42_partial, C43_mesh, C44_closed, C44_inside, C46_reads, C46_safe, C46_load, C49_partial, C49_small_partial, C49_lost, C50_partial, C53_nan_partial, C55_table, C56_one_sheet, C57_one_sheet_inside, C58_pieces, C58_separate_partial, C58_separate_refuted, C59_clusters, C59_mesh, C60_marks, C60_error, C61_cells, C61_nodes, C64_mesh, C64_bad_index, C65_export, C65_round_trip, C66_unloaded, C66_load, C67_tiles, C68_partial, C68_overflow, C69_leaves, C76_build, C76_destroy, C76_vertices_partial, C76_stale_refuted, C76_leftover, C78_build, C78_returns, C78_destroy, C78_contour, C81_same_set, C81_leader, C81_add_set, C81_full, C81_room_refuted, C83_dc_partial, C83_dc_double_delete, C83_dc_refuted, C83_dmc_partial, C83_dmc_double_delete, C83_dmc_refuted, C83_mdc_partial, C83_mdc_double_delete, C83_mdc_refuted, C84_dmc, C84_mdc, C84_dc_partial, C84_dc_refuted, C85_partial, C85_dangling, C85_dangling_refuted, C85_leak_refuted, C85_copy_refuted, C86_memory, C86_answers_partial, C86_tree, C86_lost, C87_left, C87_refill, C88_at, C88_grid_meshes, C88_dc, C88_mdc, C89_left, C89_done, C89_partial, C89_reserved, C89_refuted, C90_expand, C90_history, C90_same_set.
* `ClassicalDedekindReals.sig_forall_dec`, `ClassicalDedekindReals.sig_not_dec`, `Classical_Prop.classic`, `FunctionalExtensionality.functional_extensionality_dep`:
  C10_ieee_refuted, C25_refuted, C25_partial, C26_refuted, C26_partial, C28_refuted, C28_partial, C29_refuted, C30_jacobi, C30_limit, C31_box_float, C31_finite, C31_refuted, C32_refuted, C42_refuted, C43_refuted, C46_refuted, C50_refuted, C53_nan_refuted, C63_refuted, C64_unit_refuted, C65_again_refuted, C70_float, C71_float, C72_float, C74_dc_all, C74_mdc, C75_float, C80_ieee_refuted, C82_dmc_simple_refuted, C87_refuted, C88_refuted, C91_exact, C91_back, C91_distinct.
* `ClassicalDedekindReals.sig_forall_dec`, `ClassicalDedekindReals.sig_not_dec`, `FunctionalExtensionality.functional_extensionality_dep`:
  C10_exact, C12_normal_unit, C12_normal_close, C12_point_on_edge, C24_accuracy, C24_best_end, C27_inside, C27_division, C29_partial, C29_exact_partial, C31_box, C31_least, C43_position, C43_normal_partial, C45_stop, C45_refuted, C45_build, C46_defined, C46_range, C46_vertical, C46_continuous, C46_gradient, C47_partial, C47_symmetric_partial, C47_refuted, C48_distance, C48_zero, C49_refuted, C49_cells, C49_corners_partial, C50_boxed_partial, C50_small_partial, C50_distance_partial, C51_box, C51_shape, C52_inverse, C63_partial, C64_area, C64_unit_partial, C65_again_partial, C66_root, C66_value_partial, C66_lipschitz_partial, C66_gradient, C70_cells, C70_mesh, C71_exact, C72_exact, C72_outward, C73_bisection, C74_mc, C74_udc, C74_dc, C75_exact, C77_mc, C77_udc, C77_dc, C77_mdc, C79_cells, C79_centres, C79_mesh, C79_default, C79_exact, C80_mc, C80_udc, C80_dc, C80_mdc, C80_dmc, C82_bisection, C82_regula_falsi, C82_fill, C82_mc, C82_udc, C82_dc, C82_mdc, C82_dmc_partial, C86_refuted.
* `ClassicalDedekindReals.sig_forall_dec`, `FunctionalExtensionality.functional_extensionality_dep`:
  C18_outward, C54_oriented.
* `FunctionalExtensionality.functional_extensionality_dep`:
  C62_repeat.
<!-- end assumptions -->

## Plan per property

* C01 – `MeshModel`: list of vertices, list of indices; induction over a list
  of commands.
* C02 – `GridModel`: constructor on `Z` with bit operations; case analysis over
  powers of two.
* C03–C07 – integer arithmetic on `GridModel`; specification = geometric
  incidence of unit cubes.
* C08–C09, C53 – `GridFillModel`: the loops as nested folds over the YXZ
  order with running indices `idx1`, `idx2`; values abstract with the two comparisons
  used by the code; C53 is expected to be false for NaN (refutation in Flocq).
* C10 – exact arithmetic: proved; binary64: refutation by a concrete step.
* C11 – binary search model of `std::lower_bound`, sort as a relation.
* C12 – exact arithmetic.
* C13–C15 – `McModel`: the 12-way merge over sorted entry lists, table lookups
  with uninitialised entries as `UB`.  Table facts by exhaustive evaluation
  over the 256 masks (a proof, since the domain is finite), lifted to all grids.
* C16–C18 – `UdcModel`.
* C19–C21 – `MaterialFilterModel`; potential-function invariant.  C20 is expected to be false.
* C22–C23 – `DsuModel`; forest invariant, rank = distance to the root.
* C24–C28 – `ZeroFinderModel` generic in the arithmetic, instantiated with R
  and with Flocq binary64.  C26 and C28 are expected to be false.
* C29–C32 – `QefModel` generic in the dimension; orthogonality of the
  Householder step.  C32 expected false (0/0).
* C33–C38 – `DcOctreeModel`: inductive octrees; closedness by a discrete Stokes
  argument on the unit grid; C38 in `DcHeap`: nodes at addresses, words of the
  union that are null, a pointer or data, an arbitrary set of failing
  allocations; false for a second build of an octree merged into one leaf.
* C39–C41 – `MdcOctreeModel`.
* C42–C45, C67–C70 – `DmcModel`; nodes carry their address (the key of the vertex map is a pair of
  pointers) and data that may be uninitialised; closedness by counting sides of the dual cells
  across unit faces; C42 false.
* C46–C47 – `HeightmapModel`; C47 false: rows and columns are interchanged.
* C48–C50 – `TriModel`; C49 and C50 false, partial positive results.
* C51, C63–C66 – `PlyModel`; C63 false for all-negative coordinates, partial positive result.
* C52 – exact arithmetic.
* C71 – `SolverModel`: the octree model run with the solver model; history of the solver calls.
* C75 – the same for manifold dual contouring: `MdcQef` counts the solver calls below every vertex.
* C76 – `MdcHeap`: blocks of eight nodes, the union of pointer and corners, failing allocations; a failed build
  leaves vertices in the root.
* C77 – `PropNear`: the intermediate value theorem on the edges of cubes with corners of both kinds, and the
  boxes of C71, C72 and C75.
* C72–C74 – the whole chain fill, zero finder, mesher, solver: `PropFlat`, `PropPlane`; `QefFlat` shows that
  planes with one common normal make the solver return the mean of the points. For merged vertices
  (`PlaneMerge`, `PropDcPlane`, `PropMdcPlane`) `QefPlane` shows that the Jacobi iteration finds one direction.
* C78 – `DmcHeap`: blocks of eight nodes, failing allocations and throwing fields in the DMC octree; the proofs
  follow those of C76.
* C79 – `PropDmcPlane`: the four-dimensional planes of a linear field have one common normal, so `QefFlat` applies; a
  clamped solution keeps the error that `eval` reports.
* C80 – `PropNormals`, `PropNormalsDmc`: the half space of unit vectors with a component of one sign is closed under sum and
  normalization, so the claim goes through `measured` (DC), the vertex forest (MDC) and `lerp` (DMC) without a bound on the level.
* C81 – `DsuWidthModel`, `PropDsuWidth`: every conversion to T reduces modulo `2 ^ w`; two sets never have more items together
  than the structure, so the run equals that of `DsuModel` while the number of items fits.
* C82 – `PropMoved`, `PropMovedDmc`: in exact arithmetic, position and step of a grid or octree are only a change of
  coordinates; the simple split policy of `DMC_Octree` is the exception, it depends on the scale (refuted).
* C83 – `CopyModel`, `PropCopyDc`, `PropCopyMdc`, `PropCopyDmc`: the copies the compiler makes of octrees (refuted: they share
  their nodes).
* C84 – `PropNodes`: `subdivide` of the nodes (refuted for DC nodes when memory runs out).
* C85 – `MeshFieldModel`, `PropMeshFieldLife`: loads of a `MeshField` that fail, copies and destruction (partly refuted).
* C86 – `TriHeap`, `TriHeapProofs`, `TriHeapUse`, `PropTriHeap`: the nodes of the triangle octree in memory when allocations
  fail (memory is safe; refuted: a failed insert loses triangles).
* C87 – `FillThrowModel`, `PropFillThrow`: `fill` when any call of the field or the solver, or any allocation, throws (refuted:
  the grid left behind cannot be meshed; a new fill repairs it).
* C88 – `PropNewGrid`: a grid before its first fill (refuted: its materials are uninitialised, octrees cannot be built from it).
* C89 – `MeshThrowModel`, `PropMeshThrow`: `Mesh` when its vectors cannot grow (refuted: a failed `addTriangle` leaves indices
  behind and shifts later triangles).
* C90 – `DsuThrowModel`, `PropDsuThrow`: `DisjointSetUnion` when its vectors cannot grow.
* C91 – `PropVertexMaterial`: the material number in a vertex is a `float`; conversion of all values of `Material` is exact.

A property that is false of the faithful model is answered by a theorem
`..._refuted` exhibiting a concrete witness, and by a `..._partial` theorem for
the part that does hold.

## What is modelled

| source | model | left out or simplified |
|--------|-------|------------------------|
| `data/mesh.{hpp,cpp}` | `MeshModel`; `MeshThrowModel` (allocation, `reserve`) | `m_globalPos`, `m_globalScale` (only stored) |
| `data/grid.{hpp,cpp}` | `GridModel` (indexing), `FillModel` (`fill`), `FillThrowModel` (`fill` left by an exception) | - |
| `data/grid_edge_storage.{hpp,cpp}` | `EdgeModel` | the one-bit packing of the fields |
| `field/scalar_field.hpp`, `util/zero_finder.hpp` | `FillModel` (arbitrary functions), `ZeroModel` (step count) | - |
| `util/bisection_zero_finder.cpp`, `util/regula_falsi_zero_finder.cpp` | `ZeroModel` | - |
| `util/material_filter.{hpp,cpp}` | `MaterialFilterModel` | - |
| `util/tables.{hpp,cpp}` | `Tables` (generated) | - |
| `private/disjoint_set_union.hpp` | `DsuModel` (unbounded T), `DsuWidthModel` (T of w bits), `DsuThrowModel` (allocation) | signed T |
| `algo/marching_cubes.cpp` | `MCModel` | - |
| `algo/uniform_dual_contouring.cpp` | `UdcModel` | the position of a vertex is an arbitrary function of the planes; `SolverModel` plugs in `QefModel` (C72, C74) |
| `data/dc_octree*` | `OctreeModel`, `DcModel`; `DcHeap` (allocation), `CopyModel` | the QEF solver is an arbitrary function; `SolverModel` plugs in `QefModel` (C71) |
| `data/mdc_octree*` | `OctreeModel`, `MdcModel`; `MdcHeap` (allocation), `CopyModel` | the QEF solver is an arbitrary function; `SolverModel` plugs in `QefModel` (C75) |
| `data/dmc_octree*` | `DmcModel`, `DmcHeap`, `CopyModel` | data of inner nodes; sampled points are arbitrary; pointers are ordered by address |
| `qef/householder.hpp`, `qef/jacobi.hpp`, `qef/qef_solver_{3d,4d}.{hpp,cpp}` | `QefModel` | order of the additions in four-dimensional dot products |
| `field/heightmap.{hpp,cpp}`, `private/stbi_data.*` | `HeightmapModel` | decoding of the image file |
| `private/triangle.hpp`, `private/octree.{hpp,cpp}` | `TriModel`; `TriHeap` (allocation) | `printInfoRecursify` |
| `private/ply_data.*`, `util/ply_mesh.*`, `export/mesh2ply.*`, `field/mesh_field.*` | `PlyModel`; `MeshFieldModel` (life of `MeshField`) | reading and writing of the file (tinyply, streams) |

## Not modelled

* Memory allocation apart from C38, C76, C78, C83, C84, C85, C86, C87, C89 and C90; stack depth apart from C23.
* `src/3dparty` (tinyply, stb_image) and the third-party headers; `printf`-style output.
* The random sampling in `DMC_Octree::generateDualVertex` (any sampled points
  are allowed).
* Compiler effects such as excess precision or fused multiply-add.
