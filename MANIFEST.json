{
 "claims": [
  {
   "property": "C01",
   "status": "proved",
   "theorems": [
    "C01_mesh_history",
    "C01_index_count",
    "C01_add_vertex"
   ],
   "note": ""
  },
  {
   "property": "C02",
   "status": "proved",
   "theorems": [
    "C02_accepted",
    "C02_result"
   ],
   "note": ""
  },
  {
   "property": "C03",
   "status": "proved",
   "theorems": [
    "C03_point_to_index",
    "C03_index_to_point",
    "C03_order",
    "C03_no_overflow",
    "C03_outside"
   ],
   "note": ""
  },
  {
   "property": "C04",
   "status": "proved",
   "theorems": [
    "C04_vertex_in",
    "C04_edge_in",
    "C04_face_in",
    "C04_cell_in",
    "C04_vertex_border",
    "C04_edge_border",
    "C04_face_border",
    "C04_cell_border",
    "C04_cells_of_edge"
   ],
   "note": ""
  },
  {
   "property": "C05",
   "status": "partial",
   "theorems": [
    "C05_most_negative_refuted",
    "C05_most_negative_partial"
   ],
   "note": "Refuted as stated: glm::abs of INT_MIN is undefined (C05_most_negative_refuted); proved for isCellInGrid and for positions decided by an earlier coordinate."
  },
  {
   "property": "C06",
   "status": "proved",
   "theorems": [
    "C06_cells_of_edge",
    "C06_order"
   ],
   "note": ""
  },
  {
   "property": "C07",
   "status": "proved",
   "theorems": [
    "C07_corners",
    "C07_materials"
   ],
   "note": ""
  },
  {
   "property": "C08",
   "status": "proved",
   "theorems": [
    "C08_materials",
    "C08_no_trace"
   ],
   "note": ""
  },
  {
   "property": "C09",
   "status": "proved",
   "theorems": [
    "C09_edges"
   ],
   "note": ""
  },
  {
   "property": "C10",
   "status": "partial",
   "theorems": [
    "C10_calls",
    "C10_exact",
    "C10_ieee_refuted"
   ],
   "note": "Proved in exact arithmetic (C10_exact) and as an exact description of every call (C10_calls); false in binary64 (C10_ieee_refuted)."
  },
  {
   "property": "C11",
   "status": "proved",
   "theorems": [
    "C11_sort",
    "C11_find",
    "C11_compressed"
   ],
   "note": ""
  },
  {
   "property": "C12",
   "status": "proved",
   "theorems": [
    "C12_normal_unit",
    "C12_normal_close",
    "C12_point_on_edge"
   ],
   "note": ""
  },
  {
   "property": "C13",
   "status": "proved",
   "theorems": [
    "C13_valid",
    "C13_represents"
   ],
   "note": ""
  },
  {
   "property": "C14",
   "status": "proved",
   "theorems": [
    "C14_vertices",
    "C14_triangles"
   ],
   "note": ""
  },
  {
   "property": "C15",
   "status": "proved",
   "theorems": [
    "C15_watertight"
   ],
   "note": ""
  },
  {
   "property": "C16",
   "status": "proved",
   "theorems": [
    "C16_valid",
    "C16_vertices",
    "C16_triangles"
   ],
   "note": "Holds for every field, also with NaN samples or Empty materials inside."
  },
  {
   "property": "C17",
   "status": "proved",
   "theorems": [
    "C17_closed"
   ],
   "note": ""
  },
  {
   "property": "C18",
   "status": "proved",
   "theorems": [
    "C18_outward"
   ],
   "note": "Exact arithmetic; any placement of the vertices in their cells."
  },
  {
   "property": "C19",
   "status": "proved",
   "theorems": [
    "C19_fast_majority",
    "C19_fast_member"
   ],
   "note": ""
  },
  {
   "property": "C20",
   "status": "partial",
   "theorems": [
    "C20_merge_majority_refuted",
    "C20_merge_majority_partial",
    "C20_merge_member",
    "C20_merge_bound_tight_refuted"
   ],
   "note": "Refuted as stated (witness in C20_merge_majority_refuted); proved with a margin of the number of merges."
  },
  {
   "property": "C21",
   "status": "proved",
   "theorems": [
    "C21_precise",
    "C21_precise_merge"
   ],
   "note": ""
  },
  {
   "property": "C22",
   "status": "proved",
   "theorems": [
    "C22_same_set",
    "C22_leader",
    "C22_sizes"
   ],
   "note": ""
  },
  {
   "property": "C23",
   "status": "proved",
   "theorems": [
    "C23_depth"
   ],
   "note": ""
  },
  {
   "property": "C24",
   "status": "proved",
   "theorems": [
    "C24_accuracy",
    "C24_best_end"
   ],
   "note": "exact arithmetic (real numbers)"
  },
  {
   "property": "C25",
   "status": "partial",
   "theorems": [
    "C25_refuted",
    "C25_partial"
   ],
   "note": "false as stated (C25_refuted: the sum of the ends of a later interval overflows); proved for ends of magnitude below 2^1023"
  },
  {
   "property": "C26",
   "status": "partial",
   "theorems": [
    "C26_refuted",
    "C26_partial"
   ],
   "note": "false as stated (C26_refuted: products of small values underflow); proved for fields whose values on the interval are zero or at least 2^-537 in magnitude"
  },
  {
   "property": "C27",
   "status": "proved",
   "theorems": [
    "C27_inside",
    "C27_division"
   ],
   "note": "exact arithmetic (real numbers)"
  },
  {
   "property": "C28",
   "status": "partial",
   "theorems": [
    "C28_refuted",
    "C28_partial"
   ],
   "note": "refuted: the rounded secant point can leave the interval (C28_refuted). C28_partial: it is finite, leaves it at most by steps * 2^-49 * M where M bounds the ends, and is next to an interval with a sign change, for field values that are zero or between 2^-500 and 2^500 in magnitude"
  },
  {
   "property": "C29",
   "status": "partial",
   "theorems": [
    "C29_rows",
    "C29_partial",
    "C29_exact_partial",
    "C29_refuted"
   ],
   "note": "Refuted as stated (C29_refuted: the Householder step drops columns whose sum of squares is below FLT_MIN). Proved with equality for histories without such columns (C29_exact_partial) and with an explicit error bound for all histories (C29_partial); no write outside of the matrix in any arithmetic (C29_rows)."
  },
  {
   "property": "C30",
   "status": "proved",
   "theorems": [
    "C30_jacobi",
    "C30_limit"
   ],
   "note": "In exact arithmetic extended by infinities and NaN, for both ways to compute sine and cosine."
  },
  {
   "property": "C31",
   "status": "partial",
   "theorems": [
    "C31_box",
    "C31_box_float",
    "C31_least",
    "C31_finite",
    "C31_refuted"
   ],
   "note": "False in single precision: sums of large coordinates overflow and the point is NaN (C31_refuted). Proved: in the box in exact arithmetic, also when division by zero gives infinities and NaN (C31_box, C31_finite, nonzero number of points, pinvTolerance above zero); in single precision in the box or NaN (C31_box_float); least squares and nearest to the mass point (C31_least, histories without tiny columns)."
  },
  {
   "property": "C32",
   "status": "partial",
   "theorems": [
    "C32_refuted"
   ],
   "note": "Refuted: the result is NaN in all coordinates, for every box."
  },
  {
   "property": "C33",
   "status": "proved",
   "theorems": [
    "C33_dc_sizes",
    "C33_dc_centre",
    "C33_dmc_sizes",
    "C33_mdc_sizes"
   ],
   "note": "DC_Octree, MDC_Octree and DMC_Octree constructors."
  },
  {
   "property": "C34",
   "status": "proved",
   "theorems": [
    "C34_leaves"
   ],
   "note": ""
  },
  {
   "property": "C35",
   "status": "proved",
   "theorems": [
    "C35_valid",
    "C35_vertices",
    "C35_repeat",
    "C35_before_build"
   ],
   "note": ""
  },
  {
   "property": "C36",
   "status": "proved",
   "theorems": [
    "C36_same_surface",
    "C36_closed",
    "C36_watertight"
   ],
   "note": ""
  },
  {
   "property": "C37",
   "status": "proved",
   "theorems": [
    "C37_tolerance",
    "C37_error"
   ],
   "note": "a NaN error counts as not exceeding the tolerance, as in the code"
  },
  {
   "property": "C38",
   "status": "partial",
   "theorems": [
    "C38_partial",
    "C38_destroy",
    "C38_refuted"
   ],
   "note": "refuted for an octree that is a single leaf with data and whose root cannot be subdivided by the next build; proved for every other history and failure point"
  },
  {
   "property": "C39",
   "status": "proved",
   "theorems": [
    "C39_build",
    "C39_contour",
    "C39_before_build",
    "C39_cells",
    "C39_vertices",
    "C39_numbers"
   ],
   "note": ""
  },
  {
   "property": "C40",
   "status": "proved",
   "theorems": [
    "C40_triangles",
    "C40_closed",
    "C40_watertight"
   ],
   "note": "The exception is spelled out: the side joins the vertices of two cells whose common face has a sign-changing edge on the border of the root cube."
  },
  {
   "property": "C41",
   "status": "proved",
   "theorems": [
    "C41_cells",
    "C41_nodes",
    "C41_mesh"
   ],
   "note": "Also for the vertices of inner nodes and of the mesh."
  },
  {
   "property": "C42",
   "status": "partial",
   "theorems": [
    "C42_material",
    "C42_partial",
    "C42_refuted"
   ],
   "note": "Refuted: contour reads the material of an outside node, which build does not write. C42_partial says exactly when that happens (root of at most 1024 cells across, materials never Empty)."
  },
  {
   "property": "C43",
   "status": "partial",
   "theorems": [
    "C43_mesh",
    "C43_position",
    "C43_normal_partial",
    "C43_refuted"
   ],
   "note": "Refuted for normals: two normals that cancel give NaN; C43_normal_partial excludes them. Position and normal in exact arithmetic; the mesh part holds without any assumption on the arithmetic."
  },
  {
   "property": "C44",
   "status": "proved",
   "theorems": [
    "C44_closed",
    "C44_inside"
   ],
   "note": "Border: sides between leaves along the same side of the root cube. Closed without exception if the leaves at the border are all on one side."
  },
  {
   "property": "C45",
   "status": "partial",
   "theorems": [
    "C45_stop",
    "C45_refuted",
    "C45_build"
   ],
   "note": "Refuted for negative scales, which the constructor accepts. Holds in exact arithmetic for all others, with half of the margin that the code uses."
  },
  {
   "property": "C46",
   "status": "partial",
   "theorems": [
    "C46_reads",
    "C46_safe",
    "C46_defined",
    "C46_range",
    "C46_vertical",
    "C46_continuous",
    "C46_gradient",
    "C46_refuted",
    "C46_load"
   ],
   "note": "False of a position whose pixel coordinates do not fit an int (C46_refuted, undefined behaviour). Proved for the others: only pixels of the image are read, values between its extremes, Lipschitz, gradient formula; what loading does (C46_load)."
  },
  {
   "property": "C47",
   "status": "partial",
   "theorems": [
    "C47_partial",
    "C47_symmetric_partial",
    "C47_refuted"
   ],
   "note": "C47_refuted: rows and columns are interchanged. What is computed instead is C47_partial; for symmetric images the property holds (C47_symmetric_partial)."
  },
  {
   "property": "C48",
   "status": "proved",
   "theorems": [
    "C48_distance",
    "C48_zero"
   ],
   "note": "In exact arithmetic."
  },
  {
   "property": "C49",
   "status": "partial",
   "theorems": [
    "C49_partial",
    "C49_small_partial",
    "C49_lost",
    "C49_refuted",
    "C49_cells",
    "C49_corners_partial"
   ],
   "note": "C49_refuted, C49_lost: the 61st triangle of a leaf is dropped. Proved for at most 60 triangles, and which ones stay in general; in exact arithmetic also that the cells of the leaves do not overlap (C49_cells) and that a triangle is found in the leaf around each of its corners unless that leaf was full (C49_corners_partial)."
  },
  {
   "property": "C50",
   "status": "partial",
   "theorems": [
    "C50_partial",
    "C50_boxed_partial",
    "C50_small_partial",
    "C50_distance_partial",
    "C50_refuted"
   ],
   "note": "C50_refuted: subtrees are pruned by cubes that do not contain their triangles. Proved for triangles inside their cubes, and for at most 60 triangles."
  },
  {
   "property": "C51",
   "status": "proved",
   "theorems": [
    "C51_box",
    "C51_shape"
   ],
   "note": "In exact arithmetic. Files whose coordinates along an axis are all negative stay in the box, see C63."
  },
  {
   "property": "C52",
   "status": "proved",
   "theorems": [
    "C52_inverse"
   ],
   "note": "Grid coordinates; the octree classes use the same two formulas. Mesh only stores its position and scale."
  },
  {
   "property": "C53",
   "status": "partial",
   "theorems": [
    "C53_nan_partial",
    "C53_nan_refuted"
   ],
   "note": "Refuted as stated (C53_nan_refuted); proved for fields without NaN samples (C53_nan_partial)."
  },
  {
   "property": "C54",
   "status": "proved",
   "theorems": [
    "C54_oriented"
   ],
   "note": ""
  },
  {
   "property": "C55",
   "status": "proved",
   "theorems": [
    "C55_table"
   ],
   "note": ""
  },
  {
   "property": "C56",
   "status": "proved",
   "theorems": [
    "C56_one_sheet"
   ],
   "note": ""
  },
  {
   "property": "C57",
   "status": "proved",
   "theorems": [
    "C57_one_sheet_inside"
   ],
   "note": ""
  },
  {
   "property": "C58",
   "status": "partial",
   "theorems": [
    "C58_pieces",
    "C58_separate_partial",
    "C58_separate_refuted"
   ],
   "note": "Refuted as stated (C58_separate_refuted): two opposite empty corners share a vertex; proved for all other cells."
  },
  {
   "property": "C59",
   "status": "proved",
   "theorems": [
    "C59_clusters",
    "C59_mesh"
   ],
   "note": ""
  },
  {
   "property": "C60",
   "status": "proved",
   "theorems": [
    "C60_marks",
    "C60_error"
   ],
   "note": ""
  },
  {
   "property": "C61",
   "status": "proved",
   "theorems": [
    "C61_cells",
    "C61_nodes"
   ],
   "note": ""
  },
  {
   "property": "C62",
   "status": "proved",
   "theorems": [
    "C62_repeat"
   ],
   "note": ""
  },
  {
   "property": "C63",
   "status": "partial",
   "theorems": [
    "C63_partial",
    "C63_refuted"
   ],
   "note": "C63_refuted: false if all coordinates along an axis are negative (the maximum starts at the smallest positive float). Proved otherwise."
  },
  {
   "property": "C64",
   "status": "partial",
   "theorems": [
    "C64_mesh",
    "C64_bad_index",
    "C64_area",
    "C64_unit_partial",
    "C64_unit_refuted"
   ],
   "note": "Proved except that normals are unit vectors only for vertices whose area vectors do not sum up to zero; C64_unit_refuted: NaN for a vertex without faces."
  },
  {
   "property": "C65",
   "status": "partial",
   "theorems": [
    "C65_export",
    "C65_round_trip",
    "C65_again_partial",
    "C65_again_refuted"
   ],
   "note": "The second round trip is exact only if no axis is flat (C65_again_partial, C65_again_refuted)."
  },
  {
   "property": "C66",
   "status": "partial",
   "theorems": [
    "C66_unloaded",
    "C66_load",
    "C66_root",
    "C66_value_partial",
    "C66_lipschitz_partial",
    "C66_gradient"
   ],
   "note": "Values for files of at most 60 faces without degenerate ones; see C49 and C50 for why not more."
  },
  {
   "property": "C67",
   "status": "proved",
   "theorems": [
    "C67_tiles"
   ],
   "note": ""
  },
  {
   "property": "C68",
   "status": "partial",
   "theorems": [
    "C68_partial",
    "C68_overflow"
   ],
   "note": "The default policy multiplies the size by 8 in 32 bits: undefined for roots of 2^28 cells across and more (C68_overflow)."
  },
  {
   "property": "C69",
   "status": "proved",
   "theorems": [
    "C69_leaves"
   ],
   "note": ""
  },
  {
   "property": "C70",
   "status": "proved",
   "theorems": [
    "C70_cells",
    "C70_mesh",
    "C70_float"
   ],
   "note": ""
  },
  {
   "property": "C71",
   "status": "proved",
   "theorems": [
    "C71_exact",
    "C71_float"
   ],
   "note": "The bound for merged leaves is stated for leaves of at most 256 cells a side, where the 30-bit count of points cannot overflow; the box bound has no such limit."
  },
  {
   "property": "C72",
   "status": "proved",
   "theorems": [
    "C72_exact",
    "C72_outward",
    "C72_float"
   ],
   "note": "The mean of degenerate cells is inside as well; vertices on the boundary of a cell give quads of area zero, so the area is non-negative, not positive."
  },
  {
   "property": "C73",
   "status": "proved",
   "theorems": [
    "C73_bisection"
   ],
   "note": "Exact arithmetic; the rounding of stored offsets is not part of the statement."
  },
  {
   "property": "C74",
   "status": "proved",
   "theorems": [
    "C74_dc_all",
    "C74_mdc",
    "C74_mc",
    "C74_udc",
    "C74_dc"
   ],
   "note": "Exact arithmetic. C74_dc_all and C74_mdc include simplified leaves and merged vertices; C74_dc needs no assumption on trigonometric functions or settings, for unit leaves."
  },
  {
   "property": "C75",
   "status": "proved",
   "theorems": [
    "C75_exact",
    "C75_float"
   ],
   "note": "Exact arithmetic for the sum of squares (C75_exact, cubes of at most 256 cells along a side), single precision for the range (C75_float)."
  },
  {
   "property": "C76",
   "status": "partial",
   "theorems": [
    "C76_build",
    "C76_destroy",
    "C76_vertices_partial",
    "C76_stale_refuted",
    "C76_leftover"
   ],
   "note": "C76_build, C76_destroy: no undefined behaviour, no leak, no double deletion. That a failed build leaves an octree like a new one is false: the root keeps vertices of the last successful build (C76_stale_refuted), and contour puts them into the mesh without triangles (C76_leftover). C76_vertices_partial says which vertices are left."
  },
  {
   "property": "C77",
   "status": "proved",
   "theorems": [
    "C77_mc",
    "C77_udc",
    "C77_dc",
    "C77_mdc"
   ],
   "note": "Exact arithmetic. For marching cubes the answers of the zero finder have to lie between the ends of the edges (C24, C25); the other theorems hold for every zero finder."
  },
  {
   "property": "C78",
   "status": "proved",
   "theorems": [
    "C78_build",
    "C78_returns",
    "C78_destroy",
    "C78_contour"
   ],
   "note": "An exception of the field is modelled as thrown before the node is written; the decisions of buildNode and the exceptions are arbitrary functions of the place of the node."
  },
  {
   "property": "C79",
   "status": "proved",
   "theorems": [
    "C79_cells",
    "C79_centres",
    "C79_mesh",
    "C79_default",
    "C79_exact"
   ],
   "note": "Exact arithmetic; every gradient component is zero or at least 2^-63, and the values in the root cube are in the range of float. Whether contour returns is C42."
  },
  {
   "property": "C80",
   "status": "partial",
   "theorems": [
    "C80_mc",
    "C80_udc",
    "C80_dc",
    "C80_mdc",
    "C80_ieee_refuted",
    "C80_dmc"
   ],
   "note": "Exact arithmetic. For marching cubes all fields; for the other meshers fields whose gradient stays on one side of a coordinate plane. Without this the normals of a cell can cancel out, and in floating point the normal of its vertex is then not a number: C80_ieee_refuted."
  },
  {
   "property": "C81",
   "status": "partial",
   "theorems": [
    "C81_same_set",
    "C81_leader",
    "C81_add_set",
    "C81_full",
    "C81_room_refuted"
   ],
   "note": "Holds while the number of items is below 2^w - 1 (w the number of bits of T). At 2^w - 1 items addSet silently returns an existing item: C81_full, C81_room_refuted."
  },
  {
   "property": "C82",
   "status": "partial",
   "theorems": [
    "C82_bisection",
    "C82_regula_falsi",
    "C82_fill",
    "C82_mc",
    "C82_udc",
    "C82_dc",
    "C82_mdc",
    "C82_dmc_partial",
    "C82_dmc_simple_refuted"
   ],
   "note": "In exact arithmetic (rounding breaks it in general). The simple split policy of DMC_Octree compares differences of global values with the tolerance for squared local distances, so the octree depends on the scale: C82_dmc_simple_refuted (in IEEE arithmetic, powers of two); C82_dmc_partial covers the default policy for every scale and the simple one for every position."
  },
  {
   "property": "C83",
   "status": "partial",
   "theorems": [
    "C83_dc_partial",
    "C83_dc_double_delete",
    "C83_dc_refuted",
    "C83_dmc_partial",
    "C83_dmc_double_delete",
    "C83_dmc_refuted",
    "C83_mdc_partial",
    "C83_mdc_double_delete",
    "C83_mdc_refuted"
   ],
   "note": "False as soon as the root is split: the two octrees share their nodes and the second destructor is undefined behaviour in every such state (C83_*_double_delete, C83_*_refuted). C83_*_partial cover the octrees which are a single node."
  },
  {
   "property": "C84",
   "status": "partial",
   "theorems": [
    "C84_dmc",
    "C84_mdc",
    "C84_dc_partial",
    "C84_dc_refuted"
   ],
   "note": "Holds for MDC and DMC nodes. DC_OctreeNode::subdivide marks the node as subdivided before it allocates; after std::bad_alloc the node claims to have children and they are null: C84_dc_refuted. C84_dc_partial is the rest of the claim for DC nodes."
  },
  {
   "property": "C85",
   "status": "partial",
   "theorems": [
    "C85_partial",
    "C85_dangling",
    "C85_dangling_refuted",
    "C85_leak_refuted",
    "C85_copy_refuted"
   ],
   "note": "Holds for one object that is not copied, as long as the root of the octree can be allocated (C85_partial). load deletes the old octree before it allocates the new one, so a failing allocation leaves a dangling pointer: C85_dangling, C85_dangling_refuted. The destructor leaks the octree (C85_leak_refuted) and copies share it (C85_copy_refuted). An octree is one object in this model."
  },
  {
   "property": "C86",
   "status": "partial",
   "theorems": [
    "C86_memory",
    "C86_answers_partial",
    "C86_tree",
    "C86_lost",
    "C86_refuted"
   ],
   "note": "Memory is safe whatever allocation fails: insert, search and delete are defined, every node is deleted once (C86_memory); nothing foreign is found (C86_answers_partial); without failures the answers are those of C49 and C50 (C86_tree). That a failed insert keeps the triangles of the octree is false: m_isLeaf is cleared first, so a failing allocation while a full leaf is divided loses its sixty triangles (C86_lost, C86_refuted)."
  },
  {
   "property": "C87",
   "status": "partial",
   "theorems": [
    "C87_left",
    "C87_refill",
    "C87_refuted"
   ],
   "note": "Whatever throws, fill is defined and leaves size, position and step alone, and what is left of materials and edges is the work done so far, in order (C87_left); an uninterrupted fill afterwards is as on a new grid (C87_refill). That the grid left behind can be meshed is false: materials are overwritten before the edges are, and marching cubes then fails its assertion (C87_refuted)."
  },
  {
   "property": "C88",
   "status": "partial",
   "theorems": [
    "C88_at",
    "C88_grid_meshes",
    "C88_dc",
    "C88_mdc",
    "C88_refuted"
   ],
   "note": "The algorithms which work on the grid return an empty mesh (C88_grid_meshes). The materials are not Empty: the constructor does not initialise them, reading any of them (C88_at, C88_refuted) and building a DC or MDC octree (C88_dc, C88_mdc) reads uninitialised memory."
  },
  {
   "property": "C89",
   "status": "partial",
   "theorems": [
    "C89_left",
    "C89_done",
    "C89_partial",
    "C89_reserved",
    "C89_refuted"
   ],
   "note": "A failed addVertex changes nothing, a failed addTriangle leaves none, one or two of its indices behind (C89_left); calls that return do what they always do (C89_done); every index names an existing vertex and no assertion fails (C89_partial); with room reserved addTriangle does not throw (C89_reserved). That the mesh stays valid is false: with doubling capacities the leftover index shifts all later triangles (C89_refuted)."
  },
  {
   "property": "C90",
   "status": "proved",
   "theorems": [
    "C90_expand",
    "C90_history",
    "C90_same_set"
   ],
   "note": "expand is modelled with its reserves, resizes and loop (C90_expand); histories with failed calls (C90_history); connectivity (C90_same_set)."
  },
  {
   "property": "C91",
   "status": "proved",
   "theorems": [
    "C91_exact",
    "C91_back",
    "C91_distinct"
   ],
   "note": "binary32 with Flocq: C91_exact, C91_back (truncation and rounding to nearest), C91_distinct."
  }
 ]
}