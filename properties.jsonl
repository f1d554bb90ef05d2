{"id": "C01", "title": "Mesh keeps a valid triangle list", "statement": "After any sequence of addVertex / addTriangle / clear calls on a Mesh in which addTriangle is only given identifiers below vertexCount, indexCount is a multiple of three, every stored index is below vertexCount, no stored triangle repeats an identifier, addVertex returns the position of the vertex it has just appended and never disturbs earlier vertices, and addTriangle drops exactly the degenerate triangles.", "quantifier": "every finite history of Mesh calls", "why_tests_cant": "a test runs a handful of histories; the claim is about every interleaving of the calls including repeated clear", "anchors": ["src/data/mesh.cpp: Mesh::addVertex, Mesh::addTriangle, Mesh::clear", "include/isomesh/data/mesh.hpp: Mesh"]}
{"id": "C02", "title": "Accepted grid sizes", "statement": "UniformGrid(size) succeeds for exactly the sizes 2,4,8,...,1024; sizes 0 and 1 and sizes that are not powers of two raise invalid_argument and larger powers of two raise length_error. For an accepted size the number of samples (size+1)^3 does not overflow 32 bits.", "quantifier": "every 32-bit unsigned size", "why_tests_cant": "4294967296 sizes with three different error classes whose order matters", "anchors": ["src/data/grid.cpp: UniformGrid::UniformGrid", "include/isomesh/data/grid.hpp: dataSize"]}
{"id": "C03", "title": "Vertex index is a bijection", "statement": "For every accepted grid size, pointToIndex and indexToPoint are inverse bijections between the points of [-size/2, size/2]^3 and the indices 0..dataSize-1, no intermediate 32-bit computation overflows, and indices increase in (y,x,z) lexicographic order.", "quantifier": "every accepted grid size, every grid point, every index", "why_tests_cant": "up to 10^9 points for each of ten sizes; overflow shows up only at the largest ones", "anchors": ["src/data/grid.cpp: UniformGrid::pointToIndex, UniformGrid::indexToPoint"]}
{"id": "C04", "title": "Membership and border predicates", "statement": "isVertexInGrid, isEdgeInGrid<D>, isFaceInGrid<D> and isCellInGrid answer true exactly when all corner vertices of the element are grid vertices. For an element in the grid the OnBorder predicate is true exactly when some cell sharing the element is missing (an edge is on the border iff fewer than four cells share it).", "quantifier": "every accepted grid size, every axis, every position with 32-bit coordinates other than the most negative one", "why_tests_cant": "positions range over all 2^96 integer triples", "anchors": ["src/data/grid.cpp: isVertexInGrid, isVertexOnBorder, isEdgeInGrid, isEdgeOnBorder, isFaceInGrid, isFaceOnBorder, isCellInGrid, isCellOnBorder"]}
{"id": "C05", "title": "Most negative coordinate is rejected safely", "statement": "The membership predicates have defined behaviour and answer false for positions containing the most negative 32-bit coordinate.", "quantifier": "every accepted grid size and every 32-bit position", "why_tests_cant": "only one coordinate value out of 2^32 is affected", "anchors": ["src/data/grid.cpp: isVertexInGrid (glm::abs)"]}
{"id": "C06", "title": "Cells around an edge", "statement": "For every edge of the grid and every axis, adjacentCellsForEdge returns in each of its four slots either the index of the cell in that fixed quadrant around the edge or the bad-index marker, the latter exactly when that cell is outside the grid; the four quadrants are listed in cyclic order, counter-clockwise when seen from the positive end of the axis.", "quantifier": "every accepted grid size, axis and edge in the grid", "why_tests_cant": "borders, edges of the border and corners of the grid have different patterns, for every size", "anchors": ["src/data/grid.cpp: adjacentCellsForEdge<0>, <1>, <2>"]}
{"id": "C07", "title": "Corners of a cell", "statement": "For every cell in the grid adjacentVerticesForCell returns the indices of its eight corner points in the corner order used by the shared tables and materialsOfCell reads only stored samples and returns their materials in that order.", "quantifier": "every accepted grid size, every cell in the grid, every grid content", "why_tests_cant": "all cells of all sizes; reading past the array would only be visible with a sanitizer", "anchors": ["src/data/grid.cpp: adjacentVerticesForCell, materialsOfCell", "src/util/tables.cpp: kCellCornerOffset"]}
{"id": "C08", "title": "fill classifies every sample", "statement": "After fill(field, solver) the material of each grid vertex is Empty if the sampled field value is positive and field.material otherwise, whatever the grid contained before; a second fill leaves no trace of the first.", "quantifier": "every grid, every field, every solver, every earlier content", "why_tests_cant": "quantifies over arbitrary user supplied fields and histories", "anchors": ["src/data/grid.cpp: UniformGrid::fill, UniformGrid::at"]}
{"id": "C09", "title": "fill stores exactly the sign-changing edges", "statement": "After fill, for every axis and every 32-bit position, findEdge on that axis' storage succeeds if and only if the position is an edge of the grid exactly one of whose endpoints has a non-positive value; the edge found has that lesser endpoint, that axis, reports correctly which endpoint is solid and carries the material of that endpoint. Each such edge is stored once and storages are sorted.", "quantifier": "every grid, every NaN-free field, every solver, every query position", "why_tests_cant": "arbitrary fields produce arbitrary sign patterns on up to 3*10^9 edges", "anchors": ["src/data/grid.cpp: UniformGrid::fill", "src/data/grid_edge_storage.cpp: UniformGridEdge::UniformGridEdge, findEdge"]}
{"id": "C10", "title": "Zero finder is called with the field values at the ends of its interval", "statement": "Every call fill makes to the solver passes as f0 and f1 the field values at exactly the two points handed over with them.", "quantifier": "every grid position/step and every field", "why_tests_cant": "rounding differences between accumulated and multiplied coordinates appear only for some steps", "anchors": ["src/data/grid.cpp: UniformGrid::fill (call_pos accumulation vs localToGlobal)"]}
{"id": "C11", "title": "Edge lookup by binary search", "statement": "In any storage sorted by sortEdges (or filled in order), findEdge returns an edge with the requested lesser endpoint if one is stored and end() otherwise, for every requested triple of 32-bit integers, in particular outside the 16-bit range; sorting neither loses nor invents edges whichever permutation the library sort picks for equal keys. Coordinates within 16 bits survive the compressed representation unchanged.", "quantifier": "every list of edges, every outcome the sort may produce, every query", "why_tests_cant": "unbounded number of edges and an unspecified order of equal elements", "anchors": ["src/data/grid_edge_storage.cpp: edgeLess, sortEdges, findEdge, UniformGridEdge constructor, lesserEndpoint, biggerEndpoint"]}
{"id": "C12", "title": "Compressed edge geometry", "statement": "In exact arithmetic the normal returned by surfaceNormal always has length one, whatever the gradient (zero included), its X and Z components are the gradient's divided by (length + epsilon), its Y component has the sign of the gradient's; if the zero finder's answer lies in the interval it was given, surfacePoint lies on the edge between the two endpoints.", "quantifier": "every gradient, every edge, every offset", "why_tests_cant": "real-valued inputs", "anchors": ["src/data/grid_edge_storage.cpp: UniformGridEdge::UniformGridEdge, surfaceNormal, surfacePoint"]}
{"id": "C13", "title": "Marching cubes never touches an invalid vertex", "statement": "For every grid produced by fill from a NaN-free field whose material is non-Empty on non-positive samples, marchingCubes terminates, its internal assertions hold, it never uses an uninitialised vertex number and the mesh it returns satisfies the validity conditions of C01.", "quantifier": "every grid size, every field, every solver", "why_tests_cant": "all 256 cell configurations in all contexts of a grid of any size", "anchors": ["src/algo/marching_cubes.cpp: marchingCubes", "src/util/tables.cpp: kMcVertexMaskToEdgeMask, kMcTriangleTable"]}
{"id": "C14", "title": "Marching cubes makes one vertex per crossing edge", "statement": "The number of vertices of the marching cubes mesh is the number of stored edges; vertices are listed axis by axis in storage order, each with the surface point, normal and solid material of its edge, and every vertex whose edge belongs to at least one cell is used by some triangle.", "quantifier": "every filled grid", "why_tests_cant": "arbitrary sign patterns", "anchors": ["src/algo/marching_cubes.cpp: addVertices, marchingCubes"]}
{"id": "C15", "title": "Marching cubes surface is watertight", "statement": "In the marching cubes mesh every directed triangle side (a,b) occurs as often as (b,a), except for sides lying in an outer face of the grid; moreover no directed side occurs twice, so away from the outer border every side is shared by exactly two triangles with opposite directions.", "quantifier": "every filled grid of every size", "why_tests_cant": "needs face-compatibility of all pairs of the 256 configurations, in every arrangement", "anchors": ["src/algo/marching_cubes.cpp: marchingCubes", "src/util/tables.cpp: kMcTriangleTable"]}
{"id": "C16", "title": "Uniform dual contouring never touches an invalid vertex", "statement": "For every grid produced by fill from a NaN-free field, dualContouring terminates, creates exactly one mesh vertex for each cell with at least one crossing edge, emits exactly two triangles for each crossing edge with four surrounding cells and none otherwise, and the mesh satisfies the validity conditions of C01 - regardless of how the library sort orders equal cells.", "quantifier": "every filled grid, every sort outcome, every QEF result", "why_tests_cant": "arbitrary sign patterns and unspecified sort order", "anchors": ["src/algo/uniform_dual_contouring.cpp: dualContouring, generateQuads, generateVertices"]}
{"id": "C17", "title": "Uniform dual contouring surface is closed", "statement": "In the dual contouring mesh every directed side (a,b) occurs as often as (b,a), except for sides connecting two cells across a face that has an edge on the outer border of the grid.", "quantifier": "every filled grid of every size", "why_tests_cant": "sign patterns around all interior faces of all grids", "anchors": ["src/algo/uniform_dual_contouring.cpp: generateQuads", "src/data/grid.cpp: adjacentCellsForEdge"]}
{"id": "C18", "title": "Dual contouring quads face outwards", "statement": "For a quad built around a crossing edge from points inside the four surrounding cells, the area vector of the two triangles emitted has a non-negative component along the edge direction pointing from the solid to the empty endpoint.", "quantifier": "every crossing edge, every placement of the dual vertices inside their cells (exact arithmetic)", "why_tests_cant": "real-valued vertex placements", "anchors": ["src/algo/uniform_dual_contouring.cpp: generateQuads", "src/data/dc_octree.cpp: edgeProc"]}
{"id": "C19", "title": "Fast material filter finds a strict majority", "statement": "After adding any sequence of materials (fewer than 2^32) to a fresh MaterialFilterFast, select returns the material forming a strict majority of the non-Empty ones if there is one, always returns one of the added materials or Empty, and returns Empty only if nothing but Empty was added.", "quantifier": "every sequence of added materials", "why_tests_cant": "unbounded sequences, order dependent state", "anchors": ["include/isomesh/util/material_filter.hpp: MaterialFilterFast", "src/util/material_filter.cpp"]}
{"id": "C20", "title": "Merging fast filters keeps the majority", "statement": "Merging one MaterialFilterFast into another makes it behave as if all materials had been added to one filter: a strict majority of the non-Empty materials of both inputs is selected.", "quantifier": "every pair of sequences", "why_tests_cant": "depends on the relative order inside two independent sequences", "anchors": ["src/util/material_filter.cpp: MaterialFilterFast::add (const MaterialFilterFast &)"]}
{"id": "C21", "title": "Precise material filter", "statement": "MaterialFilterPrecise::select returns a most frequent non-Empty material (the numerically smallest one among ties), Empty exactly when no other material was added; merging filters equals adding both sequences.", "quantifier": "every sequence of materials (fewer than 2^32)", "why_tests_cant": "unbounded sequences", "anchors": ["include/isomesh/util/material_filter.hpp: MaterialFilterPrecise", "src/util/material_filter.cpp"]}
{"id": "C22", "title": "Disjoint set union decides connectivity", "statement": "For any history of the DisjointSetUnion operations with arguments in range, areInSameSet(a,b) is true exactly when a and b are connected by the merges performed so far; leader lookups terminate, never change the answer to any query, and the leader of a set is a member of it.", "quantifier": "every history of operations", "why_tests_cant": "path compression makes the internal forest history dependent", "anchors": ["src/private/disjoint_set_union.hpp: DisjointSetUnion"]}
{"id": "C23", "title": "Disjoint set union recursion is logarithmic", "statement": "For every history the recursion depth of a leader lookup is at most the base-2 logarithm of the size of the set.", "quantifier": "every history of operations", "why_tests_cant": "worst cases need adversarial histories", "anchors": ["src/private/disjoint_set_union.hpp: getSetLeader, mergeSets"]}
{"id": "C24", "title": "Bisection accuracy", "statement": "In exact arithmetic, for a continuous field with values of opposite sign (or one zero) at the ends of the interval, the point returned by the bisection zero finder lies in the interval and within interval-length / 2^steps of a zero of the field, for every number of steps; on every axis.", "quantifier": "every continuous field, every interval, every step count", "why_tests_cant": "functions and real numbers", "anchors": ["src/util/bisection_zero_finder.cpp: BisectionZeroFinder"]}
{"id": "C25", "title": "Bisection stays in its interval in binary64", "statement": "With IEEE double arithmetic (round to nearest), for finite interval ends whose sum does not overflow the point returned by bisection lies between the interval ends for every field, even one returning NaN or infinities.", "quantifier": "every field as a function on doubles, every interval, every step count", "why_tests_cant": "2^128 intervals and arbitrary functions", "anchors": ["src/util/bisection_zero_finder.cpp: BisectionZeroFinder"]}
{"id": "C26", "title": "Bisection accuracy in binary64", "statement": "The accuracy bound of C24 holds for doubles up to rounding, i.e. requesting more steps yields a correspondingly closer point.", "quantifier": "every field on doubles", "why_tests_cant": "depends on underflow of products of small field values", "anchors": ["src/util/bisection_zero_finder.cpp: BisectionZeroFinder"]}
{"id": "C27", "title": "Regula falsi stays in its interval", "statement": "In exact arithmetic, with strictly opposite signs at the ends, every iterate of the regula falsi zero finder and hence its result lies in the interval, no division by zero takes place, the working interval always contains a zero of a continuous field, and the iteration stops early only at an exact zero.", "quantifier": "every field, interval, step count", "why_tests_cant": "real-valued functions and unbounded iteration", "anchors": ["src/util/regula_falsi_zero_finder.cpp: RegulaFalsiZeroFinder"]}
{"id": "C28", "title": "Regula falsi stays in its interval in binary64", "statement": "With IEEE double arithmetic the regula falsi result lies between the finite interval ends for field values of opposite sign.", "quantifier": "every field on doubles, every interval", "why_tests_cant": "depends on rounding of nearly equal products", "anchors": ["src/util/regula_falsi_zero_finder.cpp: RegulaFalsiZeroFinder"]}
{"id": "C29", "title": "QEF solver represents the sum of squared plane distances", "statement": "In exact arithmetic, after any history of reset / addPlane / merge / state / solve calls, eval(p) of a QEF solver is the sum over all planes added (directly or by merging) of the squared distance term (n.(p - q))^2, in 3D and in 4D; the internal matrix compression never changes it.", "quantifier": "every history of planes and merges, every evaluation point", "why_tests_cant": "unbounded histories of real-valued data; compression triggers depend on the count of rows", "anchors": ["include/isomesh/qef/qef_solver_3d.hpp", "src/qef/qef_solver_3d.cpp", "include/isomesh/qef/qef_solver_4d.hpp", "src/qef/qef_solver_4d.cpp", "src/qef/householder.hpp"]}
{"id": "C30", "title": "Jacobi eigenvalue iteration", "statement": "In exact arithmetic each Jacobi rotation keeps E orthogonal and E*A*E^T equal to the input matrix, annihilates the pivot, and shrinks the sum of squared off-diagonal entries by a constant factor, so the off-diagonal part tends to zero.", "quantifier": "every symmetric 3x3 and 4x4 matrix, every number of sweeps", "why_tests_cant": "real matrices", "anchors": ["src/qef/jacobi.hpp: rotate, jacobi, calcSinCosFast"]}
{"id": "C31", "title": "QEF solution is inside the requested box", "statement": "For a solver with at least one plane, the point returned by solve lies in the box given by minPoint <= maxPoint; if in exact arithmetic the eigen-decomposition is exact and no eigenvalue is truncated, the point before clamping minimises the sum of squared distances.", "quantifier": "every history of planes, every box", "why_tests_cant": "real-valued data", "anchors": ["src/qef/qef_solver_3d.cpp: QefSolver3D::solve", "src/qef/qef_solver_4d.cpp: QefSolver4D::solve"]}
{"id": "C32", "title": "QEF solve on an empty solver", "statement": "solve on a solver without planes returns a point of the requested box.", "quantifier": "every box", "why_tests_cant": "the division by the number of points is only reached with zero points in this state", "anchors": ["src/qef/qef_solver_3d.cpp: QefSolver3D::solve"]}
{"id": "C33", "title": "Octree root sizes", "statement": "The DC, MDC and DMC octree constructors accept exactly the positive powers of two; the root cube has the requested size and, for sizes of at least two, is centred at the origin.", "quantifier": "every 32-bit signed size", "why_tests_cant": "2^32 arguments", "anchors": ["src/data/dc_octree.cpp: DC_Octree::DC_Octree", "src/data/mdc_octree.cpp: MDC_Octree::MDC_Octree", "src/data/dmc_octree.cpp: DMC_Octree::DMC_Octree"]}
{"id": "C34", "title": "DC octree leaves describe the grid", "statement": "After DC_Octree::build on a grid at least as large as the root, every leaf stores the grid materials at its eight corners, leaves tile the root cube, and a leaf whose corners are all Empty or all non-Empty contains only grid vertices of the same kind - also after simplification; without simplification every leaf containing a sign change has size one.", "quantifier": "every filled grid, every root size, every tolerance, every QEF outcome", "why_tests_cant": "simplification decisions depend on arbitrary QEF errors", "anchors": ["src/data/dc_octree.cpp: buildNode, buildLeaf, checkTopoSafety"]}
{"id": "C35", "title": "DC octree contour never touches an invalid vertex", "statement": "For every octree built from a filled grid, DC_Octree::contour gives every referenced leaf a vertex of the mesh, so no triangle refers to the invalid vertex marker and the mesh is valid in the sense of C01.", "quantifier": "every filled grid, every simplification outcome", "why_tests_cant": "adjacent leaves of different depths in every combination", "anchors": ["src/data/dc_octree.cpp: contour, makeVertices, cellProc, faceProc, edgeProc"]}
{"id": "C36", "title": "DC octree surface is closed", "statement": "In the mesh produced by DC_Octree::contour every directed side (a,b) occurs as often as (b,a), except for sides dual to faces that touch the border of the root cube, for adaptively simplified trees too.", "quantifier": "every filled grid, every simplification outcome", "why_tests_cant": "T-junction free contouring between leaves of arbitrary different sizes", "anchors": ["src/data/dc_octree.cpp: cellProc, faceProc, edgeProc", "src/util/tables.cpp: kEdgeProcCallTable, kFaceProcCallTable, kEdgeProcChildTable, kFaceProcChildTable"]}
{"id": "C37", "title": "Simplification respects the tolerance", "statement": "Every leaf of a built DC octree of size above one is either homogeneous or has an accumulated QEF error not exceeding the tolerance passed to build.", "quantifier": "every grid, every tolerance", "why_tests_cant": "arbitrary QEF outcomes", "anchors": ["src/data/dc_octree.cpp: buildNode"]}
{"id": "C38", "title": "Failed build leaves the DC octree valid", "statement": "If an allocation fails at any point of DC_Octree::build, the exception propagates, every node allocated so far is freed exactly once, nothing else is freed, and the octree may be used again.", "quantifier": "every allocation failure point, every earlier history of builds", "why_tests_cant": "needs fault injection at every allocation in every history", "anchors": ["src/data/dc_octree_node.cpp: subdivide, collapse", "src/data/dc_octree.cpp: build"]}
{"id": "C39", "title": "MDC octree contour never touches an invalid vertex", "statement": "For every octree built by MDC_Octree::build from a filled grid and every error bound passed to contour, each vertex reached from a leaf has a highest collapsible ancestor which has been given a mesh vertex, so the mesh is valid in the sense of C01; edge set indices read from the table always refer to existing leaf vertices.", "quantifier": "every filled grid, every error bound, every QEF outcome", "why_tests_cant": "cluster forests depend on arbitrary errors", "anchors": ["src/data/mdc_octree.cpp: buildLeaf, clusterCell, clusterEdgeLeaves, edgeProcLeaves, addVerticesToMesh", "src/util/tables.cpp: kMdcEdgeSetIndex"]}
{"id": "C40", "title": "MDC octree surface is closed", "statement": "In the mesh produced by MDC_Octree::contour every directed side (a,b) occurs as often as (b,a), except where the surface meets the root border, for every clustering and every error bound.", "quantifier": "every filled grid, every clustering", "why_tests_cant": "ambiguous faces between all pairs of 256 configurations", "anchors": ["src/data/mdc_octree.cpp", "src/util/tables.cpp: kMdcEdgeSetIndex"]}
{"id": "C41", "title": "MDC leaf vertices carry a solid material", "statement": "Every vertex created in an MDC leaf cell carries a non-Empty material of one of the solid corners of the cell.", "quantifier": "every leaf configuration and material assignment", "why_tests_cant": "256 configurations times all material assignments", "anchors": ["src/data/mdc_octree.cpp: buildLeaf"]}
{"id": "C42", "title": "DMC contour reads only initialised node data", "statement": "DMC_Octree::contour never reads node data that build has not written, and every mesh vertex gets the material of a node inside the surface.", "quantifier": "every field, every octree shape", "why_tests_cant": "an uninitialised read is invisible to value-based tests", "anchors": ["src/data/dmc_octree.cpp: generateDualVertex, vertProc", "src/data/dmc_octree_node.cpp"]}
{"id": "C43", "title": "DMC mesh is valid and shares vertices", "statement": "DMC_Octree::contour creates exactly one vertex per pair of adjacent nodes on different sides of the surface, all triangles refer to existing vertices, each vertex lies on the segment between the two dual vertices (exact arithmetic) and no division by zero occurs.", "quantifier": "every octree shape and every assignment of dual vertices without NaN", "why_tests_cant": "arbitrary adaptive octrees", "anchors": ["src/data/dmc_octree.cpp: vertProc, edgeProc, faceProc, cellProc"]}
{"id": "C44", "title": "DMC surface is watertight", "statement": "In the DMC mesh every directed side (a,b) occurs as often as (b,a) except where the surface meets the border of the region covered by dual cells, for adaptive octrees too.", "quantifier": "every octree shape and sign assignment", "why_tests_cant": "degenerate dual cells between leaves of different sizes", "anchors": ["src/data/dmc_octree.cpp", "src/util/tables.cpp: kMcTriangleTable"]}
{"id": "C45", "title": "DMC early stop does not lose surface", "statement": "For a field that is 1-Lipschitz (a distance bound) a cell in which splitting is stopped early contains no zero of the field.", "quantifier": "every 1-Lipschitz field, every cell", "why_tests_cant": "functions on real space", "anchors": ["src/data/dmc_octree.cpp: shouldStopSplitting"]}
{"id": "C46", "title": "Heightmap lookups stay inside the image and in range", "statement": "For every loaded image and every integer pixel position the lookup reads inside the image; in exact arithmetic the interpolated height lies in the configured height range, and the field value is continuous in the horizontal coordinates and affine with slope one in the vertical one.", "quantifier": "every image size and content, every position", "why_tests_cant": "unbounded coordinates, images of all shapes", "anchors": ["src/field/heightmap.cpp: Heightmap::heightVal, value, grad"]}
{"id": "C47", "title": "Heightmap maps pixel columns to X and rows to Z", "statement": "The height at horizontal offset (i,j) from the image centre is the value of the pixel in column width/2+i and row height/2+j.", "quantifier": "every image, every pixel position", "why_tests_cant": "square images and symmetric test images hide a transposition", "anchors": ["src/field/heightmap.cpp: Heightmap::heightVal", "include/isomesh/field/heightmap.hpp"]}
{"id": "C48", "title": "Point-triangle distance is exact", "statement": "In exact arithmetic the point-triangle distance routine of the mesh field returns the minimum squared distance over all points of a non-degenerate triangle, attained at a point of the triangle, together with the side of the plane the point is on.", "quantifier": "every non-degenerate triangle, every point", "why_tests_cant": "case analysis over real-valued regions", "anchors": ["src/private/octree.cpp: TriangleOctree distance"]}
{"id": "C49", "title": "Triangle octree keeps every inserted triangle", "statement": "After inserting any list of triangles with a vertex inside the root cube, each of them can be found in some leaf of the triangle octree.", "quantifier": "every list of triangles", "why_tests_cant": "leaf overflow needs more triangles in a cell than a small test has", "anchors": ["src/private/octree.cpp: TriangleOctree::insert"]}
{"id": "C50", "title": "Nearest triangle query is exact", "statement": "nearTriangle returns the minimum distance over all inserted triangles.", "quantifier": "every list of triangles, every query point", "why_tests_cant": "pruning errors need particular geometric arrangements", "anchors": ["src/private/octree.cpp: TriangleOctree::nearTriangle"]}
{"id": "C51", "title": "Loaded meshes are normalised", "statement": "PLY loading maps the vertices into a box of side 32 centred at the origin (exact arithmetic), preserving shape.", "quantifier": "every non-empty vertex list with non-zero extent", "why_tests_cant": "wrong only for coordinates of one sign", "anchors": ["src/private/ply_data.cpp: normalization"]}
{"id": "C52", "title": "Local and global coordinates", "statement": "In exact arithmetic with non-zero scale localToGlobal and globalToLocal are inverse to each other, for grids and meshes.", "quantifier": "every scale, position and point", "why_tests_cant": "real-valued", "anchors": ["include/isomesh/data/grid.hpp: localToGlobal, globalToLocal", "include/isomesh/data/mesh.hpp"]}
{"id": "C53", "title": "NaN samples", "statement": "The classification of C08/C09 stays consistent when the field returns NaN at some sample: an edge is stored exactly when the stored materials of its endpoints differ in being Empty.", "quantifier": "every field on doubles", "why_tests_cant": "NaN compares false both ways", "anchors": ["src/data/grid.cpp: UniformGrid::fill"]}
{"id": "C54", "title": "Marching cubes triangles face outwards", "statement": "Every marching cubes triangle belongs to one cell of the grid, and each of its directed sides that lies in a face of that cell has the solid end points of the two edges it connects on its right when the face is seen from outside the cell, wherever on those edges the surface points are; so the winding order of the whole surface is consistent and determined by inside/outside.", "quantifier": "every filled grid, every triangle, every position of the surface points on their edges (exact arithmetic)", "why_tests_cant": "real-valued positions on edges, all 256 configurations in all arrangements", "anchors": ["src/algo/marching_cubes.cpp: marchingCubes", "src/util/tables.cpp: kMcTriangleTable"]}
{"id": "C55", "title": "Manifold table", "statement": "The isManifold table used by checkTopoSafety is true for exactly the corner patterns in which both the solid and the empty corners of a cube are connected along cube edges.", "quantifier": "all 256 corner patterns", "why_tests_cant": "ties a 256-entry constant to a topological statement", "anchors": ["src/data/dc_octree.cpp: checkTopoSafety"]}
{"id": "C56", "title": "Merged leaves hold one sheet", "statement": "Every leaf of a built DC octree that is bigger than a cell and has corners of both kinds has its solid corners and its empty corners each connected along cube edges, so a single vertex can represent the surface inside it.", "quantifier": "every filled grid, every tolerance, every QEF outcome", "why_tests_cant": "simplification decisions depend on arbitrary QEF errors", "anchors": ["src/data/dc_octree.cpp: buildNode, checkTopoSafety"]}
{"id": "C57", "title": "Merged leaves hide no surface", "statement": "In every merged leaf of a built DC octree that contains surface, and recursively in its octants, the octants have connected solid and connected empty corners, and the material at the middle of every edge, face and of the cube itself equals the material of one of the corners of that edge, face or cube.", "quantifier": "every filled grid, every tolerance, every QEF outcome", "why_tests_cant": "quantifies over all merge decisions and all materials of 27 vertices", "anchors": ["src/data/dc_octree.cpp: buildNode, checkTopoSafety"]}
{"id": "C58", "title": "MDC cell vertices stand for one surface piece each", "statement": "In a leaf cell of MDC_Octree two sign-changing edges share a dual vertex exactly if the curves in which the surface meets the faces of the cell connect them.", "quantifier": "all 256 corner configurations at every cell, every pair of edges", "why_tests_cant": "the claim is about the geometry of all table rows; a test that only counts vertices does not see a joined pair of pieces", "anchors": ["src/util/tables.cpp: kMdcEdgeSetIndex", "src/data/mdc_octree.cpp: buildLeaf"]}
{"id": "C59", "title": "MDC clusters follow the connectivity of the surface", "statement": "After MDC_Octree::build two cell vertices inside a node have a common ancestor among the vertices of the node and its descendants exactly if quads around sign-changing edges inside the cube of the node connect them; a contour therefore never merges vertices of pieces of the surface that are not connected.", "quantifier": "every filled grid, every node of the octree, every pair of cell vertices, every QEF outcome", "why_tests_cant": "depends on all ways the surface can be connected inside nodes of every level", "anchors": ["src/data/mdc_octree.cpp: clusterCell, clusterFace, clusterEdge, clusterEdgeLeaves"]}
{"id": "C60", "title": "MDC contour respects the error bound", "statement": "Each vertex of the mesh made by MDC_Octree::contour(epsilon) is the vertex of a cell or a cluster whose error does not exceed epsilon in octree units, and the clusters above it exceed it.", "quantifier": "every history of builds and contours, every error bound (NaN and infinities included), every QEF outcome", "why_tests_cant": "errors are arbitrary floating-point numbers and need not grow with the level", "anchors": ["src/data/mdc_octree.cpp: contour, addVerticesToMesh"]}
{"id": "C61", "title": "MDC vertices are the solver's answers", "statement": "The vertex of a cell comes from the planes at exactly the sign-changing edges of its piece of the surface, constrained to the cell; the vertex of an inner node comes from the merged QEF data of exactly the vertices hanging below it, constrained to the cube of the node. Both keep the solver's error.", "quantifier": "every filled grid, every cell and inner node", "why_tests_cant": "solver calls are interleaved over the whole octree and share one solver object", "anchors": ["src/data/mdc_octree.cpp: buildLeaf, clusterCell"]}
{"id": "C62", "title": "MDC contours are repeatable", "statement": "Contours made in between do not change the result of MDC_Octree::contour for an error bound.", "quantifier": "every octree, every sequence of contours with arbitrary error bounds", "why_tests_cant": "contour writes marks and indices into the shared vertices; a stale mark would only show for particular sequences", "anchors": ["src/data/mdc_octree.cpp: contour, addVerticesToMesh"]}
{"id": "C63", "title": "Loaded meshes are centred and fill the box", "statement": "In exact arithmetic the bounding box of a loaded PLY mesh is centred at the origin and its longest side is exactly 32.", "quantifier": "every non-empty vertex list with non-zero extent", "why_tests_cant": "wrong only where all coordinates along an axis are negative", "anchors": ["src/private/ply_data.cpp: normalization"]}
{"id": "C64", "title": "ply2mesh keeps vertices and faces", "statement": "For a file with valid indices ply2mesh returns a mesh with the vertices of the file in order, moved and scaled by common amounts, all of material Solid, with the faces of three different corners in order (reversed on request) and with the normalised sums of the adjacent area vectors as unit normals; an invalid index is undefined behaviour.", "quantifier": "every file, both orientations", "why_tests_cant": "unbounded files; vertices without faces and invalid indices need not show in any output", "anchors": ["src/util/ply_mesh.cpp: ply2mesh", "src/private/ply_data.cpp: vertex, triangleIndexs"]}
{"id": "C65", "title": "PLY export and import round trip", "statement": "mesh2ply followed by ply2mesh preserves the number and order of the vertices and all triangles; positions are moved and scaled by common amounts; in exact arithmetic doing it again changes nothing.", "quantifier": "every mesh with valid indices and without degenerate triangles", "why_tests_cant": "unbounded meshes", "anchors": ["src/export/mesh2ply.cpp", "src/util/ply_mesh.cpp: ply2mesh"]}
{"id": "C66", "title": "MeshField is the signed distance of the mesh", "statement": "In exact arithmetic the absolute value of a loaded MeshField is the distance to the surface, it is positive outside of the nearest face, and it changes no faster than the position; the octree root contains all vertices; the gradient is a central difference; a field that was not loaded must not be evaluated.", "quantifier": "every file with valid indices, every point", "why_tests_cant": "real-valued geometry; the octree loses triangles only beyond 60", "anchors": ["src/field/mesh_field.cpp: load, value, grad", "src/private/octree.cpp"]}
{"id": "C67", "title": "DMC build tiles the root cube", "statement": "DMC_Octree::build leaves the position, the scale and the size of the octree alone; the leaves of the result are cubes with power-of-two sides that tile the root cube; each of them has a dual vertex and a normal, and a material when the vertex counts as inside; the leaves are different objects.", "quantifier": "every field, size, policy, sampling and tolerance", "why_tests_cant": "arbitrary fields and adaptive shapes", "anchors": ["src/data/dmc_octree.cpp: build, buildNode, generateDualVertex"]}
{"id": "C68", "title": "DMC build returns for every accepted size", "statement": "For every size accepted by the constructor DMC_Octree::build terminates without overflow, exception or undefined behaviour.", "quantifier": "every field, every accepted size, every policy", "why_tests_cant": "sizes of 2^28 and above cannot be built in a test", "anchors": ["src/data/dmc_octree.cpp: buildNode"]}
{"id": "C69", "title": "DMC leaves are as coarse as the tolerance allows", "statement": "A leaf that DMC_Octree::build did not split has a single cell, or was stopped early, or the simple policy found its values close to the interpolated ones, or the error of its dual vertex is within the tolerance and it is smaller than an eighth of the root.", "quantifier": "every field and policy", "why_tests_cant": "arbitrary fields", "anchors": ["src/data/dmc_octree.cpp: buildNode, shouldSplit, shouldStopSplitting, generateDualVertex"]}
{"id": "C70", "title": "DMC dual vertices stay in their cells", "statement": "The dual vertex that DMC_Octree::build computes for a leaf lies in the cell of that leaf (in single precision: every coordinate is in the range of the cell or is NaN), so in exact arithmetic every vertex of the mesh lies in the root cube, on the segment between the dual vertices of two neighbouring leaves where the interpolated value is zero.", "quantifier": "every field, octree size, sampling, policy and tuning", "why_tests_cant": "real-valued data, arbitrary fields and shapes", "anchors": ["src/data/dmc_octree.cpp: generateDualVertex, vertProc", "src/qef/qef_solver_4d.cpp: solve"]}
{"id": "C71", "title": "Dual contouring with the library's QEF solver: vertices in their cells, near their planes", "statement": "With QefSolver3D as the solver, every vertex that DC_Octree::contour emits lies in the cube of a leaf with corners on both sides (in single precision: every coordinate is in the range of the cube or is NaN). In exact arithmetic the vertex of a leaf made by simplification is, for the tolerance given to build, close to all the surface planes of the crossing edges of all the unit cells in its cube: the root of the sum of squared distances exceeds the root of the tolerance by a tiny amount only.", "quantifier": "every filled grid, octree size and scale, tolerance, and numeric behaviour of the eigenvalue iteration; the second part for cubes of up to 256 cells a side (30-bit point counts)", "why_tests_cant": "real-valued data, arbitrary grids and sequences of merges", "anchors": ["src/data/dc_octree.cpp: buildNode, simplify, contour", "src/qef/qef_solver_3d.cpp: addPlane, merge, solve, compressMatrix"]}
{"id": "C72", "title": "Uniform dual contouring with the library's QEF solver: vertices in their cells, quads facing outward", "statement": "With QefSolver3D as the solver, every vertex that uniform dual contouring emits lies in its cell in exact arithmetic, so every quad of the mesh has a non-negative area when seen from the empty end of its edge; in single precision every coordinate is in the range of the cell or is NaN.", "quantifier": "every grid size, field, zero finder, sorting routine and numeric behaviour of the eigenvalue iteration", "why_tests_cant": "real-valued data, arbitrary fields", "anchors": ["src/algo/uniform_dual_contouring.cpp", "src/qef/qef_solver_3d.cpp: solve"]}
{"id": "C73", "title": "Accuracy of marching cubes with bisection", "statement": "Fill a grid from a field that is continuous along axis-parallel lines, with bisection in n steps, then run marching cubes, in exact arithmetic: every vertex of the mesh lies on a grid edge, and on the same edge the field has a zero at a distance of at most 2^-n grid steps.", "quantifier": "every grid size, step and position, field, sorting routine and number of steps", "why_tests_cant": "arbitrary fields, real-valued data", "anchors": ["src/data/grid.cpp: fill", "src/util/bisection_zero_finder.cpp: findZero", "src/algo/marching_cubes.cpp", "include/isomesh/data/grid_edge_storage.hpp"]}
{"id": "C74", "title": "Planes are reproduced exactly", "statement": "Fill a grid from a linear field with a constant gradient, with regula falsi, in exact arithmetic. Then all vertices of marching cubes, of uniform dual contouring, of octree dual contouring with and without simplification, and of manifold dual contouring with any tolerance lie on the plane where the field is zero, and all normals are the same unit vector. For the dual methods the QEF solver is the library's.", "quantifier": "every grid size, step and position, linear field, number of steps and sorting routine; for the dual methods gradients whose first component is zero or not negligible (2^-63) beside its length; for simplified and merged vertices octrees of at most 256 cells along each side, true trigonometric functions, solver settings in a range that includes the defaults, and a normal with one component greater than the others", "why_tests_cant": "arbitrary planes and grids, real-valued data", "anchors": ["src/data/grid.cpp: fill", "src/util/regula_falsi_zero_finder.cpp: findZero", "src/algo/marching_cubes.cpp", "src/algo/uniform_dual_contouring.cpp", "src/data/dc_octree.cpp", "src/qef/qef_solver_3d.cpp", "src/data/mdc_octree.cpp"]}
{"id": "C75", "title": "Vertices of manifold dual contouring with the library's QEF solver", "statement": "Build an octree for manifold dual contouring with the library's QEF solver and contour it with a bound. Each vertex of the mesh lies in a cube of the octree that contains all cells whose quads use the vertex. The vertex stands for the planes at exactly the corners of quads (an edge and a cell next to it) which use it: unless the cube is a unit cell, the root of the sum of the squared distances to these planes does not exceed the root of the bound by more than a negligible term for the columns dropped by the solver. In single precision each coordinate is in the range of the cube or is a NaN.", "quantifier": "every grid that a fill produced, octree size and scale, number of builds and contours before, bound and solver options; the sum for cubes of at most 256 cells along a side", "why_tests_cant": "arbitrary surfaces, clusterings and bounds; real-valued data", "anchors": ["src/data/mdc_octree.cpp: build, contour", "src/data/mdc_octree_node.cpp", "src/qef/qef_solver_3d.cpp"]}
{"id": "C76", "title": "Failed build leaves the MDC octree valid", "statement": "If an allocation fails at any point of MDC_Octree::build, the exception propagates, every block of nodes allocated so far is freed exactly once, nothing else is freed, and the octree is as empty as a new one: contouring it yields an empty mesh.", "quantifier": "every allocation failure point (nodes, vertices, clusters), every earlier history of builds, every octree size", "why_tests_cant": "needs fault injection at every allocation in every history", "anchors": ["src/data/mdc_octree_node.cpp: subdivide, collapse", "src/data/mdc_octree.cpp: build, buildNode, buildLeaf, clusterCell"]}
{"id": "C77", "title": "Meshes stay close to the surface and miss none of its sampled parts", "statement": "If the field is continuous along axis-parallel lines, every vertex of a mesh made from it has a zero of the field nearby: within one grid step for marching cubes, in the same cell for uniform dual contouring, in the same octree cube for the other two algorithms. Conversely every grid edge at whose ends the samples differ in sign has a vertex nearby in the same sense. Simplification or clustering does not change this: the distance is at most the diagonal of the cube the vertex stands for.", "quantifier": "every continuous field, every grid size, step and position, every zero finder, every tolerance, every QEF settings, every history of octree calls", "why_tests_cant": "quantifies over all continuous fields and all positions of zeros", "anchors": ["src/data/grid.cpp: UniformGrid::fill", "src/algo/marching_cubes.cpp", "src/algo/uniform_dual_contouring.cpp", "src/data/dc_octree.cpp: build, contour", "src/data/mdc_octree.cpp: build, contour"]}
{"id": "C78", "title": "Exception during a DMC build leaves an empty octree", "statement": "If the field throws or an allocation fails at any point of DMC_Octree::build, that exception propagates to the caller, every block of nodes allocated so far is freed exactly once, no freed memory is touched, and the octree is as empty as a new one: contouring it yields an empty mesh and it can be built again. A build that returns has given data to every leaf.", "quantifier": "every failing allocation, every point at which the field throws, every decision about splitting cells, every earlier history of builds, every octree size", "why_tests_cant": "needs fault injection at every allocation and every evaluation of the field in every history", "anchors": ["src/data/dmc_octree_node.cpp: subdivide, collapse", "src/data/dmc_octree.cpp: build, buildNode, generateDualVertex, contour"]}
{"id": "C79", "title": "DMC meshes of linear fields are flat", "statement": "If the field is a linear function with its true gradient, DMC_Octree puts the dual vertex of every cell at the mean of the samples, which without random sampling is the centre of the cell, and at every vertex of the mesh the field is at most the square root of epsilon divided by the number of samples per cell; with epsilon 0 all vertices lie exactly on the plane. All normals are the normal of the plane.", "quantifier": "every linear field, octree size, position and scale, every sampling inside the cells, both splitting policies, with and without early stopping, every tolerance and every solver setting", "why_tests_cant": "quantifies over all planes, all samplings and all octrees, and over sequences of Householder compressions of any length", "anchors": ["src/data/dmc_octree.cpp: build, generateDualVertex, contour", "src/qef/qef_solver_4d.cpp"]}
{"id": "C80", "title": "Vertex normals are unit vectors on the side of the gradient", "statement": "Every vertex of a mesh made by marching cubes, uniform dual contouring, DC_Octree, MDC_Octree or DMC_Octree has a normal of length 1. If the gradient of the field has a component of one fixed sign along some axis everywhere, as for a terrain, so do all normals of the mesh. With marching cubes the X and Z components of the normal are those of the gradient at the vertex divided by its length, and Y has the sign of the gradient.", "quantifier": "every field, grid, zero finder, QEF solver, octree size, simplification and collapse tolerance, sampling of the cells", "why_tests_cant": "normals are sums over the edges of a cell, merged again over any number of levels of the octree; only an induction over all octrees covers them", "anchors": ["src/data/grid_edge_storage.cpp: surfaceNormal", "src/algo/marching_cubes.cpp", "src/algo/uniform_dual_contouring.cpp", "src/data/dc_octree.cpp: simplify, generateVertex", "src/data/mdc_octree.cpp", "src/data/dmc_octree.cpp: generateDualVertex, contour"]}
{"id": "C81", "title": "Disjoint set union is correct for every width of its integer type", "statement": "For every unsigned integer type T and every history of operations of DisjointSetUnion<T> whose number of items T can represent, size(), addSet, getSetLeader, mergeSets and areInSameSet behave as with unbounded integers: no stored size or index wraps, addSet returns a new item that is alone in its set, and areInSameSet decides connectivity. When T is full, addSet should not return an item that exists already.", "quantifier": "every width of T, every history of operations", "why_tests_cant": "overflow shows only at the largest number of items T can count, after any history", "anchors": ["src/private/disjoint_set_union.hpp: DisjointSetUnion", "src/data/mdc_octree.cpp: clusterCell"]}
{"id": "C82", "title": "Position and step of a grid or octree are only a change of coordinates", "statement": "If a scalar field is enlarged s times (values, like distances, too) and moved by p, then a grid or octree with s times the step at the moved position gives the same mesh in local coordinates, the tolerances of the octrees being multiplied by s^2: fill stores the same edges and materials, and marchingCubes, dualContouring, DC_Octree, MDC_Octree and DMC_Octree return the same vertices, normals and triangles.", "quantifier": "every field, s > 0, every p, grid size, zero finder (bisection, regula falsi), QEF solver, tolerance and solver configuration", "why_tests_cant": "a test fixes one position and step; an offset that is divided by the wrong scale, or a tolerance scaled by the wrong power, only shows for another one, and floating point hides small differences", "anchors": ["src/data/grid.cpp: fill", "src/data/dc_octree.cpp: build", "src/data/mdc_octree.cpp: contour", "src/data/dmc_octree.cpp: build, shouldSplit, generateDualVertex"]}
{"id": "C83", "title": "Copies of octrees can be destroyed", "statement": "DC_Octree, MDC_Octree and DMC_Octree can be copied (the compiler generates the copy constructors). After copying an octree in any state reached by builds, destroying the copy and the original deletes every node once.", "quantifier": "every state of an octree, every number of levels", "why_tests_cant": "a double delete often goes unnoticed, and whether it happens depends on the state of the octree", "anchors": ["include/isomesh/data/dc_octree.hpp", "include/isomesh/data/dc_octree_node.hpp", "include/isomesh/data/mdc_octree.hpp", "include/isomesh/data/mdc_octree_node.hpp", "include/isomesh/data/dmc_octree.hpp", "include/isomesh/data/dmc_octree_node.hpp"]}
{"id": "C84", "title": "subdivide of an octree node", "statement": "subdivide() gives a node without children eight new children without data and changes no other node. Of a node with children it throws std::logic_error (DC, DMC) or does nothing (MDC). If memory runs out, std::bad_alloc is thrown and the node is as before. collapse() of a DC node without children throws std::logic_error.", "quantifier": "every node, every state of memory, every pattern of failing allocations", "why_tests_cant": "failing allocations are not injected by tests, and what happens to all other nodes is not observable in a run", "anchors": ["src/data/dc_octree_node.cpp: subdivide, collapse", "src/data/mdc_octree_node.cpp: subdivide", "src/data/dmc_octree_node.cpp: subdivide"]}
{"id": "C85", "title": "Life of a MeshField", "statement": "A MeshField can be loaded any number of times, and a load that throws leaves it usable: value() and grad() have a valid octree once a file has been read, the octree of an earlier load is deleted exactly once, copies stay usable, and the destructor deletes the octree.", "quantifier": "every history of loads of a MeshField, with unreadable files and failing allocations at every point", "why_tests_cant": "dangling pointers, double deletes and leaks do not show in the results of a run, and tests do not inject failing allocations", "anchors": ["include/isomesh/field/mesh_field.hpp", "src/field/mesh_field.cpp: MeshField, load, value, grad"]}
{"id": "C86", "title": "Triangle octree survives failing allocations", "statement": "Whichever allocations fail during insert, the octree of a mesh field stays usable: further inserts and searches are defined, its destructor deletes every node exactly once and leaves none, and the triangles that were in it before the failing insert are still found.", "quantifier": "every list of triangles, every choice of failing allocations, every query point", "why_tests_cant": "every allocation of every insertion can be the one that fails", "anchors": ["src/private/octree.cpp: TriangleOctree::insert, ~TriangleOctree, nearTriangle", "src/field/mesh_field.cpp: MeshField::load"]}
{"id": "C87", "title": "fill left by an exception", "statement": "When the field, the solver or an allocation throws during fill, the grid stays usable: its size, position and step are unchanged; if the field was being sampled, the edges are the old ones, materials up to some vertex in index order are new and the rest old; otherwise the materials are new, the edges of one axis are the beginning of the new ones, those of earlier axes new and of later axes old; a later fill that is not interrupted gives the same grid as a fill of a new grid, and the grid left behind can be meshed.", "quantifier": "every field and solver, every history of fills that returned or threw, every choice of the calls and allocations that throw", "why_tests_cant": "the exception can come at any of the cubically many calls and the grid may have any history", "anchors": ["src/data/grid.cpp: UniformGrid::fill", "include/isomesh/data/grid_edge_storage.hpp: addEdge, clear"]}
{"id": "C88", "title": "A grid before its first fill", "statement": "A grid that has not been filled behaves like an empty one: its materials read as Empty, marching cubes and uniform dual contouring give an empty mesh, and octrees can be built from it.", "quantifier": "every grid size, position and step, every vertex of the grid, every sort and solver", "why_tests_cant": "fresh memory usually is zero, so a test sees Empty materials; the read of uninitialised memory is not visible", "anchors": ["src/data/grid.cpp: UniformGrid::UniformGrid, at, materialsOfCell", "src/algo/marching_cubes.cpp: marchingCubes", "src/algo/uniform_dual_contouring.cpp: dualContouring", "src/data/dc_octree.cpp: buildLeaf", "src/data/mdc_octree.cpp: buildLeaf"]}
{"id": "C89", "title": "Mesh when memory runs out", "statement": "If addVertex or addTriangle fails with std::bad_alloc and the client catches it, the mesh stays valid: the failed call changes nothing, later calls work, and the index buffer lists exactly the triangles whose addTriangle returned.", "quantifier": "every history of calls with existing identifiers, every growth policy of the vectors and every choice of failing requests", "why_tests_cant": "each request for memory of each history can be the one that fails", "anchors": ["src/data/mesh.cpp: Mesh::addVertex, Mesh::addTriangle, Mesh::clear, Mesh::Mesh", "include/isomesh/data/mesh.hpp: m_vertices, m_indices"]}
{"id": "C90", "title": "Disjoint set union when memory runs out", "statement": "expand and addSet either do their work or, if they are left by std::bad_alloc, change nothing; after any history with failed calls the structure is that of the calls which returned and decides their connectivity.", "quantifier": "every history of calls, every choice of failing requests, every capacity of the vectors", "why_tests_cant": "each request for memory of each history can be the one that fails", "anchors": ["src/private/disjoint_set_union.hpp: expand, addSet"]}
{"id": "C91", "title": "Materials survive in mesh vertices", "statement": "The float stored in a mesh vertex is exactly the number of its material, so that a shader which truncates or rounds it gets the material back and different materials stay different.", "quantifier": "every value of the Material type", "why_tests_cant": "tests use the few named materials, the type has 256 values", "anchors": ["include/isomesh/data/mesh.hpp: Mesh::Vertex", "include/isomesh/common.hpp: Material"]}
