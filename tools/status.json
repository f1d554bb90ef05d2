{
 "C01": [
  "proved",
  ""
 ],
 "C02": [
  "proved",
  ""
 ],
 "C03": [
  "proved",
  ""
 ],
 "C04": [
  "proved",
  ""
 ],
 "C05": [
  "partial",
  "Refuted as stated: glm::abs of INT_MIN is undefined (C05_most_negative_refuted); proved for isCellInGrid and for positions decided by an earlier coordinate."
 ],
 "C06": [
  "proved",
  ""
 ],
 "C07": [
  "proved",
  ""
 ],
 "C08": [
  "proved",
  ""
 ],
 "C09": [
  "proved",
  ""
 ],
 "C10": [
  "partial",
  "Proved in exact arithmetic (C10_exact) and as an exact description of every call (C10_calls); false in binary64 (C10_ieee_refuted)."
 ],
 "C11": [
  "proved",
  ""
 ],
 "C12": [
  "proved",
  ""
 ],
 "C13": [
  "proved",
  ""
 ],
 "C14": [
  "proved",
  ""
 ],
 "C15": [
  "proved",
  ""
 ],
 "C16": [
  "proved",
  "Holds for every field, also with NaN samples or Empty materials inside."
 ],
 "C17": [
  "proved",
  ""
 ],
 "C18": [
  "proved",
  "Exact arithmetic; any placement of the vertices in their cells."
 ],
 "C19": [
  "proved",
  ""
 ],
 "C20": [
  "partial",
  "Refuted as stated (witness in C20_merge_majority_refuted); proved with a margin of the number of merges."
 ],
 "C21": [
  "proved",
  ""
 ],
 "C22": [
  "proved",
  ""
 ],
 "C23": [
  "proved",
  ""
 ],
 "C52": [
  "proved",
  "Grid coordinates; the octree classes use the same two formulas. Mesh only stores its position and scale."
 ],
 "C53": [
  "partial",
  "Refuted as stated (C53_nan_refuted); proved for fields without NaN samples (C53_nan_partial)."
 ],
 "C54": [
  "proved",
  ""
 ],
 "C24": [
  "proved",
  "exact arithmetic (real numbers)"
 ],
 "C25": [
  "partial",
  "false as stated (C25_refuted: the sum of the ends of a later interval overflows); proved for ends of magnitude below 2^1023"
 ],
 "C26": [
  "partial",
  "false as stated (C26_refuted: products of small values underflow); proved for fields whose values on the interval are zero or at least 2^-537 in magnitude"
 ],
 "C27": [
  "proved",
  "exact arithmetic (real numbers)"
 ],
 "C28": [
  "partial",
  "refuted: the rounded secant point can leave the interval (C28_refuted). C28_partial: it is finite, leaves it at most by steps * 2^-49 * M where M bounds the ends, and is next to an interval with a sign change, for field values that are zero or between 2^-500 and 2^500 in magnitude"
 ],
 "C33": [
  "proved",
  "DC_Octree, MDC_Octree and DMC_Octree constructors."
 ],
 "C34": [
  "proved",
  ""
 ],
 "C35": [
  "proved",
  ""
 ],
 "C36": [
  "proved",
  ""
 ],
 "C55": [
  "proved",
  ""
 ],
 "C56": [
  "proved",
  ""
 ],
 "C37": [
  "proved",
  "a NaN error counts as not exceeding the tolerance, as in the code"
 ],
 "C57": [
  "proved",
  ""
 ],
 "C38": [
  "partial",
  "refuted for an octree that is a single leaf with data and whose root cannot be subdivided by the next build; proved for every other history and failure point"
 ],
 "C39": [
  "proved",
  ""
 ],
 "C40": [
  "proved",
  "The exception is spelled out: the side joins the vertices of two cells whose common face has a sign-changing edge on the border of the root cube."
 ],
 "C41": [
  "proved",
  "Also for the vertices of inner nodes and of the mesh."
 ],
 "C58": [
  "partial",
  "Refuted as stated (C58_separate_refuted): two opposite empty corners share a vertex; proved for all other cells."
 ],
 "C59": [
  "proved",
  ""
 ],
 "C60": [
  "proved",
  ""
 ],
 "C61": [
  "proved",
  ""
 ],
 "C62": [
  "proved",
  ""
 ],
 "C46": [
  "partial",
  "False of a position whose pixel coordinates do not fit an int (C46_refuted, undefined behaviour). Proved for the others: only pixels of the image are read, values between its extremes, Lipschitz, gradient formula; what loading does (C46_load)."
 ],
 "C47": [
  "partial",
  "C47_refuted: rows and columns are interchanged. What is computed instead is C47_partial; for symmetric images the property holds (C47_symmetric_partial)."
 ],
 "C48": [
  "proved",
  "In exact arithmetic."
 ],
 "C49": [
  "partial",
  "C49_refuted, C49_lost: the 61st triangle of a leaf is dropped. Proved for at most 60 triangles, and which ones stay in general; in exact arithmetic also that the cells of the leaves do not overlap (C49_cells) and that a triangle is found in the leaf around each of its corners unless that leaf was full (C49_corners_partial)."
 ],
 "C50": [
  "partial",
  "C50_refuted: subtrees are pruned by cubes that do not contain their triangles. Proved for triangles inside their cubes, and for at most 60 triangles."
 ],
 "C51": [
  "proved",
  "In exact arithmetic. Files whose coordinates along an axis are all negative stay in the box, see C63."
 ],
 "C63": [
  "partial",
  "C63_refuted: false if all coordinates along an axis are negative (the maximum starts at the smallest positive float). Proved otherwise."
 ],
 "C64": [
  "partial",
  "Proved except that normals are unit vectors only for vertices whose area vectors do not sum up to zero; C64_unit_refuted: NaN for a vertex without faces."
 ],
 "C65": [
  "partial",
  "The second round trip is exact only if no axis is flat (C65_again_partial, C65_again_refuted)."
 ],
 "C66": [
  "partial",
  "Values for files of at most 60 faces without degenerate ones; see C49 and C50 for why not more."
 ],
 "C29": [
  "partial",
  "Refuted as stated (C29_refuted: the Householder step drops columns whose sum of squares is below FLT_MIN). Proved with equality for histories without such columns (C29_exact_partial) and with an explicit error bound for all histories (C29_partial); no write outside of the matrix in any arithmetic (C29_rows)."
 ],
 "C30": [
  "proved",
  "In exact arithmetic extended by infinities and NaN, for both ways to compute sine and cosine."
 ],
 "C31": [
  "partial",
  "False in single precision: sums of large coordinates overflow and the point is NaN (C31_refuted). Proved: in the box in exact arithmetic, also when division by zero gives infinities and NaN (C31_box, C31_finite, nonzero number of points, pinvTolerance above zero); in single precision in the box or NaN (C31_box_float); least squares and nearest to the mass point (C31_least, histories without tiny columns)."
 ],
 "C32": [
  "partial",
  "Refuted: the result is NaN in all coordinates, for every box."
 ],
 "C42": [
  "partial",
  "Refuted: contour reads the material of an outside node, which build does not write. C42_partial says exactly when that happens (root of at most 1024 cells across, materials never Empty)."
 ],
 "C43": [
  "partial",
  "Refuted for normals: two normals that cancel give NaN; C43_normal_partial excludes them. Position and normal in exact arithmetic; the mesh part holds without any assumption on the arithmetic."
 ],
 "C44": [
  "proved",
  "Border: sides between leaves along the same side of the root cube. Closed without exception if the leaves at the border are all on one side."
 ],
 "C67": [
  "proved",
  ""
 ],
 "C68": [
  "partial",
  "The default policy multiplies the size by 8 in 32 bits: undefined for roots of 2^28 cells across and more (C68_overflow)."
 ],
 "C69": [
  "proved",
  ""
 ],
 "C45": [
  "partial",
  "Refuted for negative scales, which the constructor accepts. Holds in exact arithmetic for all others, with half of the margin that the code uses."
 ],
 "C70": [
  "proved",
  ""
 ],
 "C71": [
  "proved",
  "The bound for merged leaves is stated for leaves of at most 256 cells a side, where the 30-bit count of points cannot overflow; the box bound has no such limit."
 ],
 "C72": [
  "proved",
  "The mean of degenerate cells is inside as well; vertices on the boundary of a cell give quads of area zero, so the area is non-negative, not positive."
 ],
 "C73": [
  "proved",
  "Exact arithmetic; the rounding of stored offsets is not part of the statement."
 ],
 "C74": [
  "proved",
  "Exact arithmetic. C74_dc_all and C74_mdc include simplified leaves and merged vertices; C74_dc needs no assumption on trigonometric functions or settings, for unit leaves."
 ],
 "C75": [
  "proved",
  "Exact arithmetic for the sum of squares (C75_exact, cubes of at most 256 cells along a side), single precision for the range (C75_float)."
 ],
 "C76": [
  "partial",
  "C76_build, C76_destroy: no undefined behaviour, no leak, no double deletion. That a failed build leaves an octree like a new one is false: the root keeps vertices of the last successful build (C76_stale_refuted), and contour puts them into the mesh without triangles (C76_leftover). C76_vertices_partial says which vertices are left."
 ],
 "C77": [
  "proved",
  "Exact arithmetic. For marching cubes the answers of the zero finder have to lie between the ends of the edges (C24, C25); the other theorems hold for every zero finder."
 ],
 "C78": [
  "proved",
  "An exception of the field is modelled as thrown before the node is written; the decisions of buildNode and the exceptions are arbitrary functions of the place of the node."
 ],
 "C79": [
  "proved",
  "Exact arithmetic; every gradient component is zero or at least 2^-63, and the values in the root cube are in the range of float. Whether contour returns is C42."
 ],
 "C80": [
  "partial",
  "Exact arithmetic. For marching cubes all fields; for the other meshers fields whose gradient stays on one side of a coordinate plane. Without this the normals of a cell can cancel out, and in floating point the normal of its vertex is then not a number: C80_ieee_refuted."
 ],
 "C81": [
  "partial",
  "Holds while the number of items is below 2^w - 1 (w the number of bits of T). At 2^w - 1 items addSet silently returns an existing item: C81_full, C81_room_refuted."
 ],
 "C82": [
  "partial",
  "In exact arithmetic (rounding breaks it in general). The simple split policy of DMC_Octree compares differences of global values with the tolerance for squared local distances, so the octree depends on the scale: C82_dmc_simple_refuted (in IEEE arithmetic, powers of two); C82_dmc_partial covers the default policy for every scale and the simple one for every position."
 ],
 "C83": [
  "partial",
  "False as soon as the root is split: the two octrees share their nodes and the second destructor is undefined behaviour in every such state (C83_*_double_delete, C83_*_refuted). C83_*_partial cover the octrees which are a single node."
 ],
 "C84": [
  "partial",
  "Holds for MDC and DMC nodes. DC_OctreeNode::subdivide marks the node as subdivided before it allocates; after std::bad_alloc the node claims to have children and they are null: C84_dc_refuted. C84_dc_partial is the rest of the claim for DC nodes."
 ],
 "C85": [
  "partial",
  "Holds for one object that is not copied, as long as the root of the octree can be allocated (C85_partial). load deletes the old octree before it allocates the new one, so a failing allocation leaves a dangling pointer: C85_dangling, C85_dangling_refuted. The destructor leaks the octree (C85_leak_refuted) and copies share it (C85_copy_refuted). An octree is one object in this model."
 ],
 "C86": [
  "partial",
  "Memory is safe whatever allocation fails: insert, search and delete are defined, every node is deleted once (C86_memory); nothing foreign is found (C86_answers_partial); without failures the answers are those of C49 and C50 (C86_tree). That a failed insert keeps the triangles of the octree is false: m_isLeaf is cleared first, so a failing allocation while a full leaf is divided loses its sixty triangles (C86_lost, C86_refuted)."
 ],
 "C87": [
  "partial",
  "Whatever throws, fill is defined and leaves size, position and step alone, and what is left of materials and edges is the work done so far, in order (C87_left); an uninterrupted fill afterwards is as on a new grid (C87_refill). That the grid left behind can be meshed is false: materials are overwritten before the edges are, and marching cubes then fails its assertion (C87_refuted)."
 ],
 "C88": [
  "partial",
  "The algorithms which work on the grid return an empty mesh (C88_grid_meshes). The materials are not Empty: the constructor does not initialise them, reading any of them (C88_at, C88_refuted) and building a DC or MDC octree (C88_dc, C88_mdc) reads uninitialised memory."
 ],
 "C89": [
  "partial",
  "A failed addVertex changes nothing, a failed addTriangle leaves none, one or two of its indices behind (C89_left); calls that return do what they always do (C89_done); every index names an existing vertex and no assertion fails (C89_partial); with room reserved addTriangle does not throw (C89_reserved). That the mesh stays valid is false: with doubling capacities the leftover index shifts all later triangles (C89_refuted)."
 ],
 "C90": [
  "proved",
  "expand is modelled with its reserves, resizes and loop (C90_expand); histories with failed calls (C90_history); connectivity (C90_same_set)."
 ],
 "C91": [
  "proved",
  "binary32 with Flocq: C91_exact, C91_back (truncation and rounding to nearest), C91_distinct."
 ]
}