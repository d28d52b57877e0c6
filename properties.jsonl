{"id": "C01", "title": "Octree renderer delivers every surface triangle exactly once", "statement": "Reading an octree renderer to io.EOF with any sequence of non-empty triangle buffers, at any concurrency setting and under any order in which the worker goroutines finish, delivers (counting the triangles returned together with io.EOF) exactly the multiset of triangles produced by marching cubes on the non-pruned finest cubes of the octree: nothing lost, nothing duplicated.", "quantifier": "every SDF (sample function), every octree depth, every concurrency value, every finite sequence of buffer lengths >= 1, every completion order of the workers of each call", "why_tests_cant": "Tests fix one model, one buffer size (1024 or 2^14) and concurrency 0; losing a triangle needs a particular alignment between buffer space, the 5-triangle spill and the end of the work list.", "anchors": ["render/octree_renderer.go:ReadTriangles", "render/octree_renderer.go:readTriangles", "render/octree_renderer.go:readTrianglesThreaded", "render/octree_renderer.go:processCube", "render/io.go:TriangleBuffer"]}
{"id": "C02", "title": "Octree renderer makes progress and terminates; io.EOF is final", "statement": "Every ReadTriangles call with a non-empty buffer returns without error while work remains and strictly shrinks the remaining work (pending cubes weighted by the size of their subtree, plus buffered triangles), so after finitely many calls io.EOF is returned; once io.EOF has been returned every later call returns (0, io.EOF).", "quantifier": "every SDF, depth, concurrency value, buffer-length sequence and schedule", "why_tests_cant": "A livelock (call returning 0,nil forever) or a non-sticky EOF depends on the work-list/buffer interplay; a test that finishes proves nothing about other buffer lengths.", "anchors": ["render/octree_renderer.go:ReadTriangles", "render/octree_renderer.go:readTriangles", "render/octree_renderer.go:readTrianglesThreaded"]}
{"id": "C03", "title": "ReadTriangles respects its buffer", "statement": "ReadTriangles never reports more triangles than the length of the buffer it was given, the first n entries of the buffer are exactly the triangles it delivers, none of the internal slicing, the 5-triangle marching-cubes requirement or the workers' sub-buffers can go out of range, and it panics exactly when the buffer is empty.", "quantifier": "every reachable renderer state, every buffer length (including 0), every concurrency value, every schedule", "why_tests_cant": "Off-by-one slicing shows up only for particular (buffer length, concurrency, triangles found) combinations.", "anchors": ["render/octree_renderer.go:ReadTriangles", "render/octree_renderer.go:readTriangles", "render/octree_renderer.go:readTrianglesThreaded", "render/marchingcubes.go:mcToTriangles"]}
{"id": "C04", "title": "Multithreaded consolidation compacts the workers' output", "statement": "After a multithreaded read, the first nt entries of the destination are the concatenation, in worker order, of exactly what each worker wrote into its own section, nt is the sum of the workers' counts, and the new work list is the concatenation over workers of their unprocessed cubes followed by the new cubes they found.", "quantifier": "every destination length, concurrency value >= 1, work list, and every amount written by each worker (0 up to its section length)", "why_tests_cant": "The in-place copy with a moving offset is only exercised by a few fill patterns in a test; a wrong offset corrupts triangles silently.", "anchors": ["render/octree_renderer.go:readTrianglesThreaded"]}
{"id": "C05", "title": "The distance cache is transparent under concurrency", "statement": "Whatever the interleaving of lock-protected cache reads and writes by concurrent evaluations of grid points, every evaluation returns the position of its grid point and exactly the SDF's value there, and the cache never holds a value that differs from the SDF's value at that key.", "quantifier": "every SDF, every set of concurrent evaluations, every interleaving of their read / evaluate / write steps", "why_tests_cant": "Interleavings cannot be enumerated by running; two workers racing on the same key is rare.", "anchors": ["render/octree_renderer.go:dc3.Evaluate", "render/octree_renderer.go:dc3.read", "render/octree_renderer.go:dc3.write"]}
{"id": "C06", "title": "Octree pruning never drops surface", "statement": "If the SDF is 1-Lipschitz (never over-estimates distance), then every finest-level cube that has a corner with negative value and a corner with positive value is reached and meshed by the octree. Unless some octree cube is in an exact tie (centre value exactly minus the half diagonal and a corner value exactly 0), the complete triangle stream equals marching cubes run on every cell of the full uniform grid; in a tie a cell with corner values 0 and negative can be skipped.", "quantifier": "every 1-Lipschitz SDF, every resolution and depth, every grid cell", "why_tests_cant": "Pruning compares the value at a cube centre with the half diagonal; a wrong comparison or table index loses patches only for surfaces touching particular cube corners.", "anchors": ["render/octree_renderer.go:IsEmpty", "render/octree_renderer.go:newDc3", "render/octree_renderer.go:processCube"]}
{"id": "C07", "title": "The sampling grid covers the model's bounds", "statement": "For every model whose Bounds has a positive longest side and every meshCells from 2 to 2^61 (other values panic), the octree root cube starts at the corner of the bounds enlarged by 1% and is at least as long as the longest enlarged side, so it contains the whole bounding box with the box strictly inside on every axis of positive size; the finest cells have side (longest side)/meshCells and there are at least meshCells and fewer than 2*meshCells of them along each axis.", "quantifier": "every bounding box and every meshCells", "why_tests_cant": "Depends on ceil(log2(...)) rounding for every real ratio; tests use one or two mesh sizes.", "anchors": ["render/octree_renderer.go:NewOctreeRenderer", "internal/d3/box.go:ScaleAboutCenter"]}
{"id": "C08", "title": "Renderer bookkeeping counters are exact", "statement": "At every moment between calls, (cubes found) - (cubes processed) equals the number of cubes waiting, and (triangles generated) equals the number of triangles delivered so far plus those buffered for the next call.", "quantifier": "every history of ReadTriangles calls, every concurrency and schedule", "why_tests_cant": "Counters are updated under a lock from several goroutines; a test inspects them at most at the end.", "anchors": ["render/octree_renderer.go:processCube", "render/octree_renderer.go:ReadTriangles"]}
{"id": "C09", "title": "RenderAll returns the complete stream", "statement": "RenderAll(r) returns every triangle that r delivers up to and including the call that reports io.EOF, in order, and reports an error exactly when r fails with something other than io.EOF.", "quantifier": "every Renderer obeying the ReadTriangles contract (including those that return n > 0 together with io.EOF, as the octree renderer does)", "why_tests_cant": "The loss only occurs when the last triangles happen to be returned along with io.EOF.", "anchors": ["render/io.go:RenderAll", "render/octree_renderer.go:ReadTriangles", "render/3mf.go:Create3MF"]}
{"id": "C10", "title": "TriangleBuffer is a FIFO queue", "statement": "Any interleaving of writes and reads on a TriangleBuffer returns the written triangles in order without loss or duplication; Len is always (written - read); Read returns min(len(t), Len()).", "quantifier": "every sequence of Write/Read/Len operations with arbitrary slices", "why_tests_cant": "Re-slicing plus append interplay over unbounded histories.", "anchors": ["render/io.go:TriangleBuffer"]}
{"id": "C11", "title": "Marching-cubes tables use exactly the sign-changing edges", "statement": "For every assignment of values to the 8 cell corners, the set of cell edges on which a vertex is placed is exactly the set of edges whose end points lie on different sides of the iso value; the generated triangles use only those edges, use every one of them, never use the same edge twice in one triangle, and there are at most 5.", "quantifier": "every real-valued corner assignment (all 256 sign patterns)", "why_tests_cant": "Two 256-entry hand-typed tables; a typo shows only as a small crack in some models.", "anchors": ["render/marchingcubes.go:mcToTriangles", "render/marchingcubes.go:mcEdgeTable", "render/marchingcubes.go:mcTriangleTable", "render/marchingcubes.go:mcPairTable"]}
{"id": "C12", "title": "Marching cubes on a grid is watertight", "statement": "For every scalar field on a cubic grid of any size that is non-negative on the grid boundary, the union of all the cells' triangles is a closed oriented surface: every directed edge is matched by as many occurrences of the reversed edge, where vertices are identified by the grid edge they lie on.", "quantifier": "every grid dimension and every field non-negative on the boundary", "why_tests_cant": "Closedness is a global property over all sign patterns of all neighbouring cells (including the ambiguous faces).", "anchors": ["render/marchingcubes.go:mcToTriangles", "render/marchingcubes.go:mcTriangleTable"]}
{"id": "C13", "title": "Triangles are oriented outward", "statement": "On every cell face the boundary of the generated patch runs so that, seen from outside the cell, the negative (inside) corners are always on the same side; consequently all triangle normals consistently point from the inside (negative values) to the outside of the solid.", "quantifier": "every sign pattern of a cell", "why_tests_cant": "One wrongly wound entry in the table flips a facet for one configuration only.", "anchors": ["render/marchingcubes.go:mcToTriangles", "render/marchingcubes.go:mcTriangleTable"]}
{"id": "C14", "title": "Interpolated vertices lie on their cell edge at the surface", "statement": "For end points with values of different sign the vertex computed for a cell edge lies on the segment between its end points, the linear interpolant of the two values at it is the iso value up to 1e-12, and the result does not depend on the order in which the end points are given.", "quantifier": "all positions and values", "why_tests_cant": "Near-zero values take special branches (1e-12) that tests rarely hit.", "anchors": ["render/marchingcubes.go:mcInterpolate"]}
{"id": "C15", "title": "Neighbouring cells compute bit-identical shared vertices", "statement": "Two cells sharing a cell edge compute exactly the same floating point vertex on it, so exported vertices can be merged by exact equality.", "quantifier": "all float64 positions and values", "why_tests_cant": "Depends on float rounding of p1+t(p2-p1) versus the swapped order.", "anchors": ["render/marchingcubes.go:mcInterpolate", "render/marchingcubes.go:mcPairTable", "render/3mf.go:AddObject"]}
{"id": "C16", "title": "Rendering a solid gives a closed mesh (end to end)", "statement": "For every 1-Lipschitz SDF3 whose negative region lies inside its Bounds, and for which no octree cube is in an exact tie (see the pruning property), the multiset of triangles streamed by the octree renderer up to io.EOF is a closed oriented surface, provided no triangle with three distinct vertices is dropped as degenerate.", "quantifier": "every such SDF, meshCells >= 2, buffer sequence, concurrency and schedule", "why_tests_cant": "Combines pruning, tables, scheduling and bounds for all solids.", "anchors": ["render/octree_renderer.go", "render/marchingcubes.go"]}
{"id": "C17", "title": "WriteSTL emits a well-formed binary STL", "statement": "For every non-empty model of at most 2^32-1 triangles WriteSTL writes exactly 84 + 50 n bytes: 80 zero bytes, the little-endian count n, then per triangle normal and three vertices as little-endian float32 and a zero attribute word; empty and over-long models give an error and write nothing.", "quantifier": "every triangle list, every float32 bit pattern", "why_tests_cant": "Unbounded sizes; byte-level layout for all bit patterns.", "anchors": ["render/stl.go:WriteSTL", "render/stl.go:stlHeader.put", "render/stl.go:stlTriangle.put"]}
{"id": "C18", "title": "STL write/read round trip", "statement": "Reading back what WriteSTL wrote returns the same triangles in the same order with each coordinate rounded to float32, whenever every triangle has finite vertices, pairwise further apart (after rounding) than the reader's degeneracy tolerance 1e-12, and a finite normal, and at most 10000 stored normals disagree with the recomputed ones; the error is nil exactly if none disagrees, and the reader consumes exactly the file.", "quantifier": "every model and every fragmentation of the byte stream by the underlying reader", "why_tests_cant": "All models, all bit patterns, all read fragmentations.", "anchors": ["render/stl.go:WriteSTL", "render/stl.go:readBinarySTL", "render/stl.go:stlTriangle.get", "render/stl.go:stlTriangle.validate"]}
{"id": "C19", "title": "CreateSTL writes the same file as WriteSTL", "statement": "For every renderer and however it splits its triangles over calls (also returning the last ones together with io.EOF), and for every copy-buffer size of at least 50 bytes, CreateSTL leaves a file byte-identical to WriteSTL of the complete stream, provided it has at least one and fewer than 2^32 triangles.", "quantifier": "every renderer behaviour, every copy buffer length >= 50", "why_tests_cant": "Chunking of the stream against the copy buffer is unbounded.", "anchors": ["render/stl.go:createSTL", "render/stl.go:stlReader.Read"]}
{"id": "C20", "title": "An interrupted CreateSTL never looks complete", "statement": "If CreateSTL is stopped at any point before its last write, or any read/write/seek fails, the file left behind is rejected by the STL reader (its header is missing or announces zero triangles), and CreateSTL reports an error when an operation failed.", "quantifier": "every crash point and every failing operation, every renderer", "why_tests_cant": "Crash points cannot be enumerated by unit tests.", "anchors": ["render/stl.go:createSTL", "render/stl.go:readBinarySTL"]}
{"id": "C21", "title": "The STL reader rejects malformed input", "statement": "readBinarySTL returns triangles without error only if the input has a complete 84-byte header announcing n > 0 triangles followed by at least 50 n bytes in which no coordinate is NaN or infinite and no two vertices of a triangle coincide; any proper prefix of a valid file is rejected, and it never reads beyond the announced triangles.", "quantifier": "every byte sequence and every fragmentation", "why_tests_cant": "All byte strings.", "anchors": ["render/stl.go:readBinarySTL", "render/stl.go:stlTriangle.validate"]}
{"id": "C22", "title": "The STL reader accepts any conforming io.Reader", "statement": "The result of readBinarySTL depends only on the bytes, not on how the io.Reader delivers them, including a reader that returns the final bytes together with io.EOF.", "quantifier": "every fragmentation permitted by the io.Reader contract", "why_tests_cant": "Only readers that combine data with EOF trigger it.", "anchors": ["render/stl.go:readBinarySTL"]}
{"id": "C23", "title": "The STL triangle count is never wrong", "statement": "Whenever CreateSTL returns nil the count in the header equals the number of triangle records in the file.", "quantifier": "every stream length", "why_tests_cant": "Needs more than 2^32 triangles.", "anchors": ["render/stl.go:createSTL"]}
{"id": "C24", "title": "3MF objects decode to the original triangles", "statement": "The vertex list and index triples stored by AddObject expand back to exactly the given triangles in order; vertices are pairwise distinct, every vertex is used, and every index is in range.", "quantifier": "every triangle list", "why_tests_cant": "Unbounded models with arbitrary vertex sharing.", "anchors": ["render/3mf.go:AddObject"]}
{"id": "C25", "title": "3MF manifold warning is exact", "statement": "AddObject returns an error if and only if some vertex occurs fewer than three times in the triangle list (counting occurrences), and in either case the object has been added.", "quantifier": "every triangle list", "why_tests_cant": "All sharing patterns; map iteration order.", "anchors": ["render/3mf.go:AddObject"]}
{"id": "C26", "title": "3MF object ids and build items stay consistent", "statement": "After any sequence of AddObject calls, object ids are 1,2,...,n in order, the build list references exactly those ids in the same order, and earlier objects are unchanged.", "quantifier": "every sequence of AddObject calls", "why_tests_cant": "Unbounded histories.", "anchors": ["render/3mf.go:AddObject", "render/3mf.go:new3MF"]}
{"id": "C27", "title": "Booleans are set operations", "statement": "A point is strictly inside Union3D/Union-of-many iff it is strictly inside some operand, inside Difference3D iff inside the first and strictly outside the second, inside Intersect3D iff inside both; same in 2D for difference and intersection. Results do not depend on operand order (union, intersection) and the constructors panic exactly on fewer than two (union) or nil operands.", "quantifier": "every operand list of any length, every point", "why_tests_cant": "All shapes and points; panics on argument shape.", "anchors": ["sdf3.go:Union3D", "sdf3.go:Difference3D", "sdf3.go:Intersect3D", "sdf2.go:Union2D", "sdf2.go:Difference2D", "sdf2.go:Intersect2D"]}
{"id": "C28", "title": "CSG trees denote the expected point set", "statement": "For every finite tree of unions, differences, intersections, rigid/affine transforms, positive uniform scalings, arrays and cuts over arbitrary leaf shapes, the sign of Evaluate agrees with membership in the set obtained by interpreting the tree with set operations.", "quantifier": "every tree of any depth and width, every point", "why_tests_cant": "Unbounded composition depth.", "anchors": ["sdf3.go:Union3D", "sdf3.go:Difference3D", "sdf3.go:Intersect3D", "sdf3.go:Transform3D", "sdf3.go:ScaleUniform3D", "sdf3.go:Array3D", "sdf3.go:Cut3D"]}
{"id": "C29", "title": "Bounds contains the solid", "statement": "For every shape built with the package's constructors from valid parameters, every point with a negative distance lies in the box returned by Bounds.", "quantifier": "every composition of constructors of any depth, every point", "why_tests_cant": "Bounds are computed separately from Evaluate in every constructor; a mismatch clips the rendered model only for particular shapes.", "anchors": ["sdf3.go:SDF3", "sdf2.go:SDF2", "sdf3.go:Bounds", "sdf2.go:Bounds"]}
{"id": "C30", "title": "Distance dominates distance to the bounding box", "statement": "For shapes built from exact primitives with isometries, booleans, extrusions, revolutions, offsets and shells, the value at a point is at least the signed Euclidean distance to the bounding box, so offset, shell and rounded extrusions of them have correct bounds.", "quantifier": "every such composition, every point", "why_tests_cant": "Quantifies over all compositions and points.", "anchors": ["sdf3.go:Offset3D", "sdf3.go:Shell3D", "sdf3.go:ExtrudeRounded3D", "sdf2.go:Offset2D"]}
{"id": "C31", "title": "Compositions stay 1-Lipschitz", "statement": "Union, difference, intersection, cut, offset, shell, elongation, isometric transform, uniform scaling, array, rotated union, linear and rounded extrusion and revolution of 1-Lipschitz shapes are 1-Lipschitz, hence safe for octree rendering and sphere tracing.", "quantifier": "every composition of any depth, every pair of points", "why_tests_cant": "Lipschitz continuity is a statement about all pairs of points.", "anchors": ["sdf3.go", "sdf2.go"]}
{"id": "C32", "title": "Blended unions respect Bounds", "statement": "A union with a smooth minimum set by SetMin still lies inside Bounds.", "quantifier": "every operand pair and every k > 0", "why_tests_cant": "Depends on the blend radius and the operands' placement.", "anchors": ["sdf3.go:SetMin", "utils.go:MinPoly", "utils.go:MinRound"]}
{"id": "C33", "title": "Transform3D/2D moves the solid by the matrix", "statement": "For every invertible affine matrix the transformed shape's value at the image of a point equals the original value at the point; a singular matrix aside, inverting recovers the shape, and transforming by a product equals transforming twice.", "quantifier": "every shape, matrix and point", "why_tests_cant": "All matrices.", "anchors": ["sdf3.go:Transform3D", "sdf2.go:Transform2D", "matrix.go:MulPosition", "matrix.go:Inverse"]}
{"id": "C34", "title": "Matrix algebra", "statement": "Inverse is a two-sided inverse whenever the determinant is non-zero, determinants multiply, multiplication is associative with the identity as unit and agrees with composition of the affine maps (2x2, 3x3 and 4x4).", "quantifier": "all matrices", "why_tests_cant": "Degree-8 polynomial identities in 32 variables cannot be settled by samples.", "anchors": ["matrix.go:Mul", "matrix.go:Determinant", "matrix.go:Inverse", "matrix.go:MulPosition"]}
{"id": "C35", "title": "Rotations and mirrors are isometries", "statement": "Rotate3D about any non-zero axis, RotateX/Y/Z, Rotate2D and Rotate preserve distances with determinant 1, fix their axis, turn by the stated right-handed angle, compose additively; the mirrors preserve distances with determinant -1 and are involutions.", "quantifier": "every axis and angle", "why_tests_cant": "All angles.", "anchors": ["matrix.go:Rotate3D", "matrix.go:RotateX", "matrix.go:RotateZ", "matrix.go:Rotate2D", "matrix.go:MirrorXY", "matrix.go:MirrorXeqY"]}
{"id": "C36", "title": "rotateToVec is a rotation taking a to b", "statement": "For all non-zero vectors the matrix is a rotation (orthogonal, determinant 1) mapping the direction of a onto that of b.", "quantifier": "all pairs of non-zero vectors", "why_tests_cant": "Opposite vectors are a special branch.", "anchors": ["matrix.go:rotateToVec", "sdf3.go:Orient3D"]}
{"id": "C37", "title": "MulBox is the tightest box around the image", "statement": "For every affine matrix and box, MulBox returns the smallest axis-aligned box containing the image of the box.", "quantifier": "all matrices and boxes with Min <= Max", "why_tests_cant": "All matrices.", "anchors": ["matrix.go:MulBox"]}
{"id": "C38", "title": "ScaleUniform scales shape and distance", "statement": "For k > 0 the uniformly scaled shape's value at k*p is k times the original value at p; for negative k the result is the mirrored solid.", "quantifier": "every shape, k, point", "why_tests_cant": "Negative factors are never tested.", "anchors": ["sdf3.go:ScaleUniform3D", "sdf2.go:ScaleUniform2D"]}
{"id": "C39", "title": "Linear extrusion is profile x interval", "statement": "A point is inside Extrude3D(s,h) iff its XY projection is inside s and |z| < h/2.", "quantifier": "every profile, height, point", "why_tests_cant": "All profiles and points.", "anchors": ["sdf3.go:Extrude3D", "utils.go:NormalExtrude"]}
{"id": "C40", "title": "Scaled extrusion interpolates between 1 and the scale", "statement": "ScaleExtrude3D evaluates the profile unscaled at the bottom face and scaled by the given factors at the top face, and its Bounds contains it.", "quantifier": "every profile, height > 0, positive scale", "why_tests_cant": "All parameters.", "anchors": ["sdf3.go:ScaleExtrude3D", "utils.go:ScaleExtrude"]}
{"id": "C41", "title": "Twist and scale-twist extrusions degenerate correctly", "statement": "TwistExtrude3D with twist 0 and ScaleTwistExtrude3D with twist 0 and scale (1,1) equal Extrude3D, and every cross-section of TwistExtrude3D is the profile rotated clockwise by z*twist/height.", "quantifier": "every profile, height, point", "why_tests_cant": "Formula depends on height; height 1 hides the error.", "anchors": ["sdf3.go:TwistExtrude3D", "sdf3.go:ScaleTwistExtrude3D", "utils.go:TwistExtrude", "utils.go:ScaleTwistExtrude"]}
{"id": "C42", "title": "Twisted extrusion stays inside its Bounds", "statement": "Every point inside TwistExtrude3D or ScaleTwistExtrude3D lies in Bounds.", "quantifier": "every profile and parameters", "why_tests_cant": "Needs profiles that are off-centre.", "anchors": ["sdf3.go:TwistExtrude3D", "sdf3.go:ScaleTwistExtrude3D"]}
{"id": "C43", "title": "Solid of revolution semantics", "statement": "A point is inside Revolve3D(s, theta) iff (distance to z axis, z) is inside s and, for a partial revolution, its polar angle lies strictly between 0 and theta; theta <= 0 gives an empty solid; theta = 2 pi the full solid; Bounds contains the solid.", "quantifier": "every profile, every theta, every point", "why_tests_cant": "Case split at pi/2, pi, 3pi/2, 2 pi and multiples.", "anchors": ["sdf3.go:Revolve3D", "sdf3.go:revolution3.Evaluate"]}
{"id": "C44", "title": "Arrays and rotated copies are unions of placed copies", "statement": "Array3D/2D, RotateUnion3D/2D contain a point iff one of their placed copies does and have Bounds around all copies; RotateCopy3D/2D is the union of the n rotations of the part of the shape lying in the sector of half-angle pi/n about the x axis.", "quantifier": "every shape, count, (invertible affine) step and point", "why_tests_cant": "Unbounded counts; angular folding at sector boundaries.", "anchors": ["sdf3.go:Array3D", "sdf3.go:RotateUnion3D", "sdf3.go:RotateCopy3D", "sdf2.go:Array2D", "sdf2.go:RotateUnion2D", "sdf2.go:RotateCopy2D"]}
{"id": "C45", "title": "Elongation stretches symmetrically", "statement": "Elongate of a shape by h contains a point iff the shape contains it after removing up to h/2 of displacement along each axis, and Bounds contains it, in 3D and 2D.", "quantifier": "every shape, h, point", "why_tests_cant": "Sign errors in one component vector.", "anchors": ["sdf3.go:Elongate3D", "sdf2.go:Elongate2D"]}
{"id": "C46", "title": "Cuts keep the documented side", "statement": "Cut3D keeps exactly the points of the shape strictly on the side the normal points to; Cut2D keeps exactly the points of the shape to the right of the directed line.", "quantifier": "every shape, plane and point", "why_tests_cant": "All planes and points.", "anchors": ["sdf3.go:Cut3D", "sdf2.go:Cut2D"]}
{"id": "C47", "title": "Slice2D is the planar section", "statement": "Slice2D evaluates the solid at a point of the plane through a with normal n, using an orthonormal 2D frame of that plane, and its Bounds contains the section of the solid.", "quantifier": "every solid, plane and point", "why_tests_cant": "Normal-vector case split.", "anchors": ["sdf2.go:Slice2D"]}
{"id": "C48", "title": "LineOf/Multi/Orient place one copy per element", "statement": "LineOf places a copy at p0 + i (p1-p0)/len(pattern) for every 'x' at byte position i, Multi one per position, Orient one per direction; they never panic for a non-empty pattern/position list with at least one copy.", "quantifier": "every pattern string and position list", "why_tests_cant": "One-element lists and patterns hit a panic.", "anchors": ["sdf3.go:LineOf3D", "sdf2.go:LineOf2D", "sdf3.go:Multi3D", "sdf2.go:Multi2D", "sdf3.go:Orient3D"]}
{"id": "C49", "title": "Union2D's bounding-box culling is invisible", "statement": "Union2D.Evaluate equals the minimum over all members (EvaluateSlow) at every point.", "quantifier": "every list of 2D shapes, every point", "why_tests_cant": "Depends on overlap of distance intervals for all configurations.", "anchors": ["sdf2.go:union2.Evaluate", "sdf2.go:EvaluateSlow", "internal/d2/box.go:MinMaxDist2"]}
{"id": "C50", "title": "Blend functions are smooth minima", "statement": "For k > 0 and n >= 2 (and n = 1, 0) MinPoly is symmetric, never larger than min(a,b), at most k/(2n) below it (chamfer aside), and equals it when |a-b| >= k; the special cases n=2,3 agree with the general formula; MaxPoly is its negation dual; MinRound is symmetric, at most min(a,b), and equals it when a >= k or b >= k; MinExp lies within ln2/k below min.", "quantifier": "all a, b, k, n", "why_tests_cant": "All reals and degrees.", "anchors": ["utils.go:MinPoly", "utils.go:MaxPoly", "utils.go:MinRound", "utils.go:MinExp", "utils.go:minQuad", "utils.go:minCubic", "utils.go:minPoly"]}
{"id": "C51", "title": "Offset and shell level sets", "statement": "Offset3D/2D by d has as interior the points with value < d of the original; Shell3D those within thickness/2 of the zero set; non-positive shell thickness gives an empty shape.", "quantifier": "every shape and amount", "why_tests_cant": "All shapes.", "anchors": ["sdf3.go:Offset3D", "sdf2.go:Offset2D", "sdf3.go:Shell3D"]}
{"id": "C52", "title": "Loft interpolates between its profiles", "statement": "Loft3D cross-sections at the bottom and top faces are the two profiles (inset height), intermediate sections use the linear blend, Bounds contains the solid, and evaluation is well defined for every accepted height/round.", "quantifier": "every pair of profiles, height, round, point", "why_tests_cant": "height = 2*round divides by zero.", "anchors": ["sdf3.go:Loft3D"]}
{"id": "C53", "title": "Box operations", "statement": "Extend/Include give the least box containing both arguments; Translate, ScaleAboutCenter, Enlarge, NewBox, Center, Size satisfy their geometric meaning; Contains is exact membership; Vertices lists the corners, whose component-wise min/max recover the box (2D and 3D).", "quantifier": "all boxes and points", "why_tests_cant": "All reals.", "anchors": ["internal/d3/box.go", "internal/d2/box.go"]}
{"id": "C54", "title": "MinMaxDist2 bounds the distance to a box", "statement": "MinMaxDist2 returns the exact squared minimum distance from the point to the box and the squared distance to its farthest point, in 2D and 3D.", "quantifier": "all boxes and points", "why_tests_cant": "Region case split (corner / edge / face).", "anchors": ["internal/d2/box.go:MinMaxDist2", "internal/d3/box.go:MinMaxDist2"]}
{"id": "C55", "title": "Grid map round trip", "statement": "newMap2 accepts exactly positive boxes and grids, ToV2 maps every cell to its centre inside the box, and ToV2i inverts it, also with the flipped y axis.", "quantifier": "all boxes, grids, cells", "why_tests_cant": "All grid sizes.", "anchors": ["utils.go:newMap2", "utils.go:ToV2", "utils.go:ToV2i", "sdf2.go:generateMesh2D"]}
{"id": "C56", "title": "Ray casting never steps through the surface", "statement": "For a 1-Lipschitz SDF and step scale in (0,1], no point strictly between the ray origin and the current position is on the surface unless already within epsilon; a reported hit has |value| < epsilon and lies on the ray at the reported parameter; failure is reported with t = -1.", "quantifier": "every 1-Lipschitz SDF, ray, epsilon, step limit", "why_tests_cant": "All rays and unbounded steps.", "anchors": ["utils.go:raycast3", "utils.go:raycast2"]}
{"id": "C57", "title": "Sphere, circle and box fields are exact distances", "statement": "Sphere, Circle, Box (3D/2D, round 0 or more) and Line return the exact signed Euclidean distance to the stated solid.", "quantifier": "all parameters accepted and all points", "why_tests_cant": "All points.", "anchors": ["form3/must3/cylinders.go:Sphere", "form3/must3/cylinders.go:Box", "form2/must2/basic.go:Circle", "form2/must2/basic.go:Box", "form2/must2/basic.go:Line"]}
{"id": "C58", "title": "Cylinder, capsule and cone are the stated solids", "statement": "Cylinder/Capsule/Cone are negative exactly inside the stated (rounded) solid, lie inside Bounds and are 1-Lipschitz.", "quantifier": "all accepted parameters and points", "why_tests_cant": "Case splits on regions.", "anchors": ["form3/must3/cylinders.go:Cylinder", "form3/must3/cylinders.go:Cone", "form3/basic.go:Capsule"]}
{"id": "C59", "title": "Polygon distance is exact", "statement": "Polygon's absolute value is the distance to the closed polyline through the vertices and it is negative exactly at points with non-zero winding number; Bounds contains the polygon's inside.", "quantifier": "every vertex list of length >= 3, every point", "why_tests_cant": "Unbounded vertex lists.", "anchors": ["form2/must2/poly.go:Polygon", "form2/must2/poly.go:polygon.Evaluate"]}
{"id": "C60", "title": "Polygon builder terminates with the expected vertices", "statement": "Vertices() terminates for every builder history, leaves normal vertices in place and order, replaces an arc vertex by facets-1 points on the circle plus itself, a smoothed vertex (unless its fillet does not fit in what its neighbours leave of the two edges) by facets+1 points on an arc of the given radius tangent to both edges of the polygon, fillets never overlapping (Chamfer(s) is one facet, of length s at a right angle), and Reverse reverses the order; calling it again is idempotent on polygons without pending modifiers.", "quantifier": "every sequence of builder calls", "why_tests_cant": "Loops until a fix point.", "anchors": ["form2/must2/poly.go:Vertices", "form2/must2/poly.go:createArcs", "form2/must2/poly.go:smoothVertices", "form2/must2/poly.go:relToAbs", "form2/must2/poly.go:Chamfer", "form2/must2/poly.go:Drop"]}
{"id": "C61", "title": "Nagon is a regular polygon", "statement": "Nagon(n, r) has n vertices all at distance |r| from the origin, the first at (r, 0), consecutive ones separated by 2 pi/n, summing to zero; n < 3 gives none.", "quantifier": "every n and r", "why_tests_cant": "All n.", "anchors": ["form2/must2/poly.go:Nagon"]}
{"id": "C62", "title": "Checked constructors never panic", "statement": "The form2/form3 constructors return an error exactly when the corresponding must2/must3 constructor panics and otherwise the same shape; they never panic themselves.", "quantifier": "all arguments (including nil and invalid)", "why_tests_cant": "All argument combinations.", "anchors": ["form2/basic.go", "form2/poly.go", "form3/basic.go"]}
{"id": "C63", "title": "Panels accept every hole pattern", "statement": "obj2.Panel and EuroRackPanel return a panel for every documented parameter set (any hole pattern including empty ones; any HP > 1), with holes exactly at the pattern positions.", "quantifier": "all parameters", "why_tests_cant": "Empty patterns and HP < 8.", "anchors": ["form2/obj2/panel.go:Panel", "form2/obj2/panel.go:EuroRackPanel"]}
{"id": "C64", "title": "Standoff accepts documented parameters", "statement": "Standoff returns a solid for every parameter set with positive pillar dimensions, including those without a hole (HoleDepth or HoleDiameter zero).", "quantifier": "all parameters", "why_tests_cant": "Zero hole parameters.", "anchors": ["form3/obj3/standoff.go:Standoff", "form3/obj3/standoff.go:pillarHole"]}
{"id": "C65", "title": "Screw threads are helically periodic and bounded", "statement": "Screw evaluates its profile at a position periodic with the pitch; moving a point one lead along the axis, or rotating it by an angle while advancing lead*angle/2pi, leaves the profile coordinate unchanged modulo the pitch; a tapered thread follows a cone of the given taper angle; the solid stays inside Bounds.", "quantifier": "every thread profile, pitch, start count and point", "why_tests_cant": "All points and angles.", "anchors": ["form3/obj3/thread/thread.go:Screw", "form3/obj3/thread/thread.go:screw.Evaluate", "form3/obj3/thread/thread.go:sawTooth"]}
{"id": "C66", "title": "Bolt and Nut validate their parameters", "statement": "Bolt and Nut return an error (never a panic, never a silently accepted part) for every parameter set their own checks classify as invalid, and Tolerance changes the thread radius as documented.", "quantifier": "all parameter sets", "why_tests_cant": "Invalid combinations.", "anchors": ["form3/obj3/thread/bolt.go:Bolt", "form3/obj3/thread/nut.go:Nut"]}
{"id": "C67", "title": "Thread standard tables", "statement": "NPT.SetFromNominal succeeds exactly within 1/32 inch of a tabulated size and then sets that row's values (rows do not overlap); the metric flat-to-flat lookup returns the largest table value below the estimate less 0.01 and is never below the smallest table value.", "quantifier": "all nominal sizes and radii", "why_tests_cant": "All reals.", "anchors": ["form3/obj3/thread/npt.go:SetFromNominal", "form3/obj3/thread/basic.go:metricf2f"]}
{"id": "C68", "title": "Mesh import: nearest triangle search is exact", "statement": "Evaluating an imported mesh (ImportModelV2) returns a magnitude equal to the minimum over all triangles of the distance to that triangle; the hierarchy's pruning never changes the result.", "quantifier": "every mesh of any size, every query point", "why_tests_cant": "Unbounded meshes.", "anchors": ["helpers/sdfexp/bih.go:nearestDistHelper", "helpers/sdfexp/bih.go:subdivide", "helpers/sdfexp/bih.go:minDistBox"]}
{"id": "C69", "title": "Point-triangle distance is exact", "statement": "The closest point computed for a non-degenerate triangle lies in the triangle and no other point of the triangle is closer.", "quantifier": "all triangles and points", "why_tests_cant": "Seven regions.", "anchors": ["helpers/sdfexp/bih.go:minDistTri"]}
{"id": "C70", "title": "2D closest point on a triangle", "statement": "closestOnTriangle2 returns the closest point of the triangle and labels the feature (vertex, edge, face) it lies on.", "quantifier": "all non-degenerate triangles and points", "why_tests_cant": "Region cases.", "anchors": ["helpers/sdfexp/spatial2.go:closestOnTriangle2", "helpers/sdfexp/spatial2.go:distToLine"]}
{"id": "C71", "title": "Body-centred cubic lattice numbering", "statement": "The tetrahedral lattice gives every shared cell corner a single node index, never triggers the 'bad mesh operation' panic, puts each node at its geometric corner, and every tetrahedron references existing nodes.", "quantifier": "every grid size", "why_tests_cant": "All grid sizes.", "anchors": ["helpers/sdfexp/bccmesh.go:meshTetraBCC", "helpers/sdfexp/bccmesh.go:neighborNode", "helpers/sdfexp/bccmesh.go:tetras"]}
{"id": "C72", "title": "Tetrahedral mesh connectivity", "statement": "newOmesh records for every node exactly the other nodes it shares a tetrahedron with, and smoothing visits every interior node.", "quantifier": "every tetrahedral mesh", "why_tests_cant": "Unbounded meshes.", "anchors": ["helpers/sdfexp/omesh.go:newOmesh", "helpers/sdfexp/omesh.go:compressAndSmooth"]}
{"id": "C73", "title": "canalisTransform puts the triangle in the XY plane", "statement": "For every non-degenerate triangle the transform is a rigid motion taking the first vertex to the origin, the first edge onto the positive x axis and the third vertex into the XY plane, and its computed inverse undoes it.", "quantifier": "all non-degenerate triangles", "why_tests_cant": "All reals.", "anchors": ["helpers/sdfexp/spatial3.go:canalisTransform", "internal/d3/transform.go:Inv", "internal/d3/transform.go:Transform"]}
{"id": "C74", "title": "d3.Transform algebra", "statement": "The zero value is the identity, Mul composes affine transforms, Inv is a two-sided inverse whenever |det| >= 1e-16, SliceCopy/NewTransform round-trip, ComposeTransform applies scale, then rotation, then translation, Scale(origin,factor) scales about the origin argument.", "quantifier": "all transforms", "why_tests_cant": "Polynomial identities.", "anchors": ["internal/d3/transform.go"]}
{"id": "C75", "title": "Material compensation", "statement": "A part scaled by a material's Scale and then shrunk to 1/(1+shrink) of its printed size has its nominal size; InternalDimScale of a viscoelastic material is strictly increasing, enlarges, and panics exactly on non-positive dimensions; that of the ideal material is the identity.", "quantifier": "all materials with shrink, pull >= 0 and all dimensions", "why_tests_cant": "All reals.", "anchors": ["helpers/matter/3dprint.go"]}
{"id": "C76", "title": "Smooth blends keep fields 1-Lipschitz", "statement": "A union, difference or intersection of 1-Lipschitz fields combined with a blend function (MinPoly, MinRound, MaxPoly) is again 1-Lipschitz, so a sphere-tracing step or an octree prune of a blended model never skips a surface.", "quantifier": "every blend function, all operands, every pair of points", "why_tests_cant": "Quantifies over all pairs of points and all blend parameters.", "anchors": ["utils.go:MinPoly", "utils.go:MinRound", "utils.go:MaxPoly", "sdf3.go:SetMin", "sdf3.go:SetMax"]}
{"id": "C77", "title": "Mesh import: merged corners stay within the vertex tolerance", "statement": "ImportModelV2 with vertex tolerance tol keeps the number of triangles, and every corner of the imported mesh is a corner of the model within tol of the corner it replaces.", "quantifier": "every model and tolerance accepted by the importer, every corner", "why_tests_cant": "Unbounded meshes and all coordinates, including those around zero.", "anchors": ["helpers/sdfexp/bih.go:ImportModelV2"]}
{"id": "C78", "title": "Mesh import: sign of the distance", "statement": "For a closed mesh with outward triangles the imported SDF is negative at points inside the solid and positive at points outside.", "quantifier": "every closed mesh, every query point", "why_tests_cant": "All meshes and points; errors appear only near sharp edges and depend on triangle order.", "anchors": ["helpers/sdfexp/bih.go:DistNearestTri", "helpers/sdfexp/bih.go:Evaluate"]}
{"id": "C79", "title": "Mesh compression never pushes a node through the surface", "statement": "Compressing a mesh towards the surface with factor c in [0,1] leaves nodes inside alone and moves each node outside, wherever the numerical gradient does not vanish, by exactly c times its distance value; if the field is 1-Lipschitz its value afterwards is at least (1-c) times the value before, and for a flat surface full compression puts the node on the surface.", "quantifier": "every field, factor, node", "why_tests_cant": "Quantifies over all fields and positions.", "anchors": ["helpers/sdfexp/omesh.go:compressAndSmooth", "helpers/sdfexp/spatial3.go:gradient"]}
{"id": "C80", "title": "Uniform tetrahedral mesh", "statement": "UniformTetrahedronMesh panics only when the resolution is too coarse for the bounds; the tetrahedra it returns are exactly the lattice tetrahedra with at least one node inside the shape, in order, with valid indices; and every returned node is a finite point that is not outside the shape by more than the compression left undone.", "quantifier": "every field, bounds, resolution", "why_tests_cant": "Quantifies over all fields and lattice sizes.", "anchors": ["helpers/sdfexp/basicmesh.go:UniformTetrahedronMesh"]}
{"id": "C81", "title": "Imported mesh: distance and sign from pseudo normals", "statement": "The size of ImportedSDF3.Evaluate is the exact distance to the triangle returned by the search; its sign comes from the face, side or vertex normal of the closest feature, is negative for points strictly behind all faces (inside a convex solid) and positive for points outside a closed mesh.", "quantifier": "every model accepted by the importer whose distinct corners are two tolerances apart, every query point, whichever triangle the search returns", "why_tests_cant": "Unbounded meshes; the features form a measure-zero boundary that sampled points rarely select.", "anchors": ["helpers/sdfexp/import.go:Evaluate", "helpers/sdfexp/spatial3.go:Distance", "helpers/sdfexp/spatial3.go:CopySign", "helpers/sdfexp/spatial2.go:closestOnTriangle2"]}
{"id": "C82", "title": "Imported mesh: vertices, normals and bounds", "statement": "ImportModel keeps every triangle, gives corners the same vertex exactly when they are within the tolerance, sums for each vertex the face normals weighted with the corner angles and for each side the face normals of its triangles, and Bounds is the smallest box around the model.", "quantifier": "every model and tolerance accepted by the importer", "why_tests_cant": "Unbounded meshes.", "anchors": ["helpers/sdfexp/import.go:newMesh", "helpers/sdfexp/import.go:Bounds"]}
{"id": "C83", "title": "Pseudo normals of the second importer", "statement": "ImportModelV2 returns for every model, with a hierarchy and pseudo normals or with an error: it neither hangs nor panics. The normal of a vertex is a positive multiple of the sum of the unit face normals of the triangles around it weighted with their angles there, and the normal of a side is the mean of the unit normals of the two triangles that share it, or that of its only triangle.", "quantifier": "every model and tolerance", "why_tests_cant": "Unbounded meshes and fans; the walk around a vertex only fails to end for particular connectivity.", "anchors": ["helpers/sdfexp/bih.go:ImportModelV2", "helpers/sdfexp/bih.go:calc_alpha_wnormal"]}
{"id": "C84", "title": "Imported mesh: the k-d tree finds the nearest triangle", "statement": "For every imported model and every query point, Evaluate returns without panicking a value whose size is the distance to the nearest point of the mesh, negative inside a convex mesh with outward normals; the bounds given to the tree are the smallest box of the centroids.", "quantifier": "every model accepted by the importer whose distinct corners are two tolerances apart, every query point, every way of choosing and partitioning around pivots", "why_tests_cant": "Unbounded meshes; the branches that are pruned wrongly depend on the relation of triangle sizes and positions.", "anchors": ["helpers/sdfexp/import.go:Evaluate", "helpers/sdfexp/import.go:Pivot", "helpers/sdfexp/import.go:Bounds", "helpers/sdfexp/spatial3.go:Compare", "helpers/sdfexp/spatial3.go:Distance"]}
{"id": "C85", "title": "d2.Transform algebra", "statement": "TransformIdentity maps points and boxes to themselves and is neutral for Mul; Mul composes affine transforms; the box of ApplyBox is the smallest one around the image; NewTransform stores the entries in row order, At and Set read and write them; Inverse undoes the transform whenever the determinant is not zero.", "quantifier": "all transforms, points and boxes", "why_tests_cant": "Polynomial identities over all reals.", "anchors": ["internal/d2/transform.go"]}
{"id": "C86", "title": "Numerical normals and differential operators", "statement": "normal3 and normal2 return a vector of length one, exactly the unit normal for a flat surface whatever the step; gradient is exact up to its factor for affine fields and bounded for distance fields; divergence is exact for linear vector fields and laplacian gives a multiple of the Laplacian.", "quantifier": "every field, point and step", "why_tests_cant": "Quantifies over all fields.", "anchors": ["utils.go:normal3", "utils.go:normal2", "helpers/sdfexp/spatial3.go:gradient", "helpers/sdfexp/spatial3.go:divergence", "helpers/sdfexp/spatial3.go:laplacian"]}
{"id": "C87", "title": "Vector helpers", "statement": "Integer vector arithmetic is component-wise and agrees with the real one; conversion to integers truncates toward zero; polar and Cartesian coordinates convert back and forth; sign, clamp, ceil do what they say; the equals methods accept exactly the matrices whose entries differ by less than the tolerance; Random points lie in their box.", "quantifier": "all vectors, matrices, boxes and random draws", "why_tests_cant": "All reals and integers.", "anchors": ["internal/d2/vector.go", "internal/d3/vector.go", "matrix.go:equals", "veci.go", "utils.go"]}
{"id": "C88", "title": "Accuracy of the rendered mesh", "statement": "For every 1-Lipschitz SDF: the field at every vertex of the rendered mesh is at most half a cell side (plus 1e-12) and a true surface point is within one cell side of it; every point of every triangle is within one cell diagonal of the surface; wherever two neighbouring samples are on different sides a vertex is placed between them; and a solid that contains a ball of more than half a cell diagonal is never rendered as an empty mesh.", "quantifier": "every 1-Lipschitz SDF, meshCells, buffer sequence, concurrency and schedule", "why_tests_cant": "Quantifies over all solids and grid positions.", "anchors": ["render/octree_renderer.go", "render/marchingcubes.go"]}
{"id": "C89", "title": "3MF: the file written is a complete package of the rendered triangles", "statement": "Create3MF returns nil only if the file is a completed package with the model, relationships and content type parts, each present once, the relationship leading to the model part and the content types covering every part; the model part is in millimetres, names author, generator and title, tells to build exactly the rendered triangles, and all its references resolve. It returns an error if rendering, creating, writing or closing fails; if rendering fails no file is touched. Part numbers of the objects of a model are all different, whatever the names.", "quantifier": "every renderer stream, every choice of failing calls, every sequence of object names", "why_tests_cant": "Failures at each of the calls and unbounded streams and name lists.", "anchors": ["render/3mf.go:Create3MF", "render/3mf.go:Create", "render/3mf.go:relationships", "render/3mf.go:new3MF"]}
{"id": "C90", "title": "From the octree renderer to an STL file and back", "statement": "CreateSTL given a new octree renderer returns, whatever the concurrency, the interleaving of its goroutines and the contents of its buffers. It returns nil unless a file operation fails, and then the file holds every triangle of the sampled surface exactly once; reading it back through any reader gives those triangles rounded to float32, provided there are some, fewer than 2^32, and rounding leaves none degenerate. Otherwise no file, a file that readers reject, or a torn header is left.", "quantifier": "every sampled surface, depth, concurrency, schedule, buffer size and choice of failing file operations", "why_tests_cant": "Unbounded octrees and interleavings combined with failures at every operation.", "anchors": ["render/stl.go:CreateSTL", "render/stl.go:Read", "render/octree_renderer.go:ReadTriangles", "render/stl.go:readBinarySTL"]}
{"id": "C91", "title": "Extrusion with rounded edges", "statement": "ExtrudeRounded3D(profile, height, round) with 0 < round <= height/2: the section is the profile grown by round in the middle and shrinks along a quarter circle near the ends; nothing lies at or beyond half the height; above the inside of the profile the solid has exactly the given height. For an exact profile it is the set of points nearer than round to the straight core and the value outside the core is that distance minus round. Bounds is the profile's Bounds grown by round and exactly the given height. A zero radius is Extrude3D, invalid sizes give a field that contains nothing, only a nil profile panics.", "quantifier": "every profile, height, radius and point", "why_tests_cant": "Quantifies over all profiles and points.", "anchors": ["sdf3.go:ExtrudeRounded3D", "sdf3.go:extrudeRounded.Evaluate"]}
{"id": "C92", "title": "Centring a 2D field", "statement": "Center2D moves the field so that the centre of its Bounds becomes the origin: the value at p minus the old centre is the value the original had at p, and Bounds moves with it, keeping its size. CenterAndScale2D with k > 0 does the same and then scales points, values and Bounds by k.", "quantifier": "every field with ordered Bounds, every k > 0 and every point", "why_tests_cant": "Quantifies over all fields and points.", "anchors": ["sdf2.go:Center2D", "sdf2.go:CenterAndScale2D"]}
{"id": "C93", "title": "Booleans are exact on float64 values", "statement": "On all float64 values, with both zeros, infinities and NaN: union, intersection, difference and copies round nothing; the value is bit for bit the value of a member (negated for the subtracted one; math.MaxFloat64 for copies that are all farther). Unions do not depend on the order or nesting of the members. Intersection is inside exactly where both operands are and difference exactly where the first is inside and the second strictly outside, also with NaN. A union is NaN exactly if a member is NaN and none is -Inf, and without NaN inside exactly where a member is. In trees of any depth without NaN leaves the sign of the computed value is the one given by the set operations on the signs of the leaves.", "quantifier": "all float64 values, all lists of members, all trees and leaf fields", "why_tests_cant": "Special values in every combination and unbounded trees.", "anchors": ["sdf3.go:union3.Evaluate", "sdf3.go:diff3.Evaluate", "sdf3.go:intersection3.Evaluate", "sdf2.go:union2.EvaluateSlow", "sdf3.go:array3.Evaluate"]}
{"id": "C94", "title": "Thread profiles have the dimensions of their standards", "statement": "Between the axis and the outline: ISO external (and unified) profiles have crests of width P/8 at the major radius, flanks at 30 degrees, roots rounded with radius H/6 on 5 facets, where H is sqrt(3)/2 P; ISO internal profiles have flats at 5/8 H below the major radius, 30 degree flanks and a groove bottom of radius H/12; Acme profiles are P/2 deep with 14.5 degree flanks; buttress profiles have 7 and 45 degree flanks, the ANSI one a root radius of 0.0714 P, the plastic one radii of 0.15 P, 0.05 P and 0.15 P, the arcs tangent to the flanks. A profile point is inside exactly if it lies strictly below the outline and above the axis.", "quantifier": "all diameters, pitches and points, for profiles less deep than the radius", "why_tests_cant": "Quantifies over all sizes and points; the arcs are exact up to their facets.", "anchors": ["form3/obj3/thread/iso.go:Thread", "form3/obj3/thread/uts.go:Thread", "form3/obj3/thread/npt.go:Thread", "form3/obj3/thread/acme.go:Thread", "form3/obj3/thread/ansibuttress.go:Thread", "form3/obj3/thread/plasticbuttress.go:Thread"]}
{"id": "C95", "title": "A straight screw has its core, its major diameter and its crests on the helix", "statement": "The solid Screw makes from a built-in profile contains every point between the end planes that is nearer to the axis than the thread's root, contains no point at or beyond the major radius, reaches the major radius along the whole helical crest of the given pitch and leaves the groove free half a pitch away.", "quantifier": "all lengths, diameters, pitches, turns and points", "why_tests_cant": "Quantifies over all sizes and points.", "anchors": ["form3/obj3/thread/thread.go:Screw", "form3/obj3/thread/thread.go:screw.Evaluate"]}
{"id": "C96", "title": "Convex polygons are intersections of half planes", "statement": "For a convex vertex loop in either orientation, Polygon is negative at a point exactly if the point lies strictly on the inner side of every edge, and at most zero exactly if it lies on no edge's outer side. In particular the field of Nagon(n, r) is negative exactly at the points that are nearer than r cos(pi/n) in each of the n directions (i + 1/2) 2 pi / n. Offset2D of any polygon by c > 0 contains exactly the points nearer than c to a point of the polygon.", "quantifier": "every convex loop of at least three vertices, every n >= 3, radius and point", "why_tests_cant": "Quantifies over all convex loops of any length and all points.", "anchors": ["form2/must2/poly.go:Polygon", "form2/must2/poly.go:polygon.Evaluate", "form2/must2/poly.go:Nagon"]}
{"id": "C97", "title": "The fasteners have the shapes they are made of", "statement": "ChamferedCylinder keeps exactly the part of the body inside its bounding cylinder whose lower and upper edges are cut at 45 degrees, with legs of radius times kb and kt over the square root of 2. HexHead is the prism of the given height over a hexagon with corners rounded to 0.08 of the radius, cut at the named sides by spheres of 1.6 times the radius. Knurl is the set of points below the ridges of both families of helices; KnurledHead adds a cylinder with rounded edges. Bolt is the union of the head around the origin, a shank with rounded edges starting in the middle of the head and the chamfered screw from the end of the shank to the total length below the head; outside the head an ISO bolt stays below the major radius, its shank is filled up to it and its thread up to the root. Nut is the body of its style without the screw.", "quantifier": "all sizes, styles, threads and points", "why_tests_cant": "Quantifies over all sizes and all points of the solids.", "anchors": ["form3/must3/cylinders.go:ChamferedCylinder", "form3/obj3/thread/hexhead.go:HexHead", "form3/obj3/thread/knurl.go:Knurl", "form3/obj3/thread/knurl.go:KnurledHead", "form3/obj3/thread/bolt.go:Bolt", "form3/obj3/thread/nut.go:Nut"]}
{"id": "C98", "title": "Membership computed in float64 is exact", "statement": "Rounding never moves a point across the surface of a shape whose field is a difference: for all float64 values, NaN, infinities and subnormal numbers included, Offset is negative exactly if the distance is less than the offset, Shell exactly if its magnitude is less than half the thickness, Sphere and Circle exactly if the computed norm is less than the radius, Extrude exactly if the section is negative and |z| is less than half the height. A box without rounding is negative, zero or positive exactly if the point is strictly inside, on or strictly outside the box in exact real arithmetic, and so is every union, difference and intersection of such boxes, nested without bound.", "quantifier": "all float64 points, sizes of magnitude at least 2^-1021, and nested Booleans of any depth", "why_tests_cant": "Quantifies over all float64 inputs; a sign error would need one particular pair of numbers out of 2^128.", "anchors": ["form3/must3/cylinders.go:box.Evaluate", "form3/must3/cylinders.go:sdfBox3d", "form3/must3/cylinders.go:sphere.Evaluate", "form2/must2/basic.go:circle.Evaluate", "sdf3.go:extrude3.Evaluate", "sdf3.go:offset3.Evaluate", "sdf3.go:shell3.Evaluate", "sdf3.go:union3.Evaluate", "sdf3.go:diff3.Evaluate", "sdf3.go:intersection3.Evaluate"]}
{"id": "C99", "title": "float64 evaluation has an explicit error bound", "statement": "Whatever the solid is built from - spheres, boxes, cylinders, extrusions and full revolutions of circles, rectangles, polygons with any number of vertices and their Booleans, offsets, shells, unions of any number of operands, differences, intersections, rigid placements, cuts, elongations, uniform scalings and arrays, nested without bound on the depth - Evaluate in float64 returns a finite number for every finite point, and it differs from the value in exact arithmetic by at most err * 2^-53 * S. S bounds the arguments and the points reached; err is computed from the expression: 130 for a primitive, 400 for a polygon, 5200 more for a placement (its inverse is computed by Cramer's rule in float64), 300 at least for a cut, 10 to 14 more for an elongation or array, the sum of the magnitudes for an offset, the larger of the operands for a Boolean. So a point is put on the wrong side of the surface only if it is that close to it.", "quantifier": "all expressions and float64 arguments with S between 2^-400 and 2^400, all float64 points in the ball", "why_tests_cant": "Quantifies over all float64 inputs and over expressions of any shape; the worst rounding errors are never met by examples.", "anchors": ["sdf3.go:transform3.Evaluate", "matrix.go:m44.Inverse", "matrix.go:m44.MulPosition", "sdf3.go:array3.Evaluate", "sdf3.go:revolution3.Evaluate", "sdf3.go:scaleUniform3.Evaluate", "sdf3.go:cut3.Evaluate", "sdf3.go:elongate3.Evaluate", "sdf3.go:extrude3.Evaluate", "sdf3.go:union3.Evaluate", "form3/must3/cylinders.go:cylinder.Evaluate", "form3/must3/cylinders.go:sdfBox3d", "form2/must2/basic.go:box.Evaluate", "form2/must2/poly.go:polygon.Evaluate"]}
{"id": "C100", "title": "Rendering in float64 stays within an explicit error of the surface", "statement": "With grid positions, half diagonals, Evaluate, the pruning test and the interpolation all computed in float64, for a 1-Lipschitz solid whose evaluation has the error bound W * 2^-53 * S of C99: a cube is discarded only if it is, up to (W + 20) units of 2^-53 * S, entirely outside or entirely inside; a cell with a point that far inside and a point that far outside survives at every level; every vertex of every delivered triangle is finite, lies within 80 units of a cell edge whose ends were computed to be on different sides, has a distance value of at most half a cell side plus 1e-12 plus (W + 100) units, and has a point of the surface (up to W + 14 units) within a cell side; and every cell edge with its ends clearly on different sides carries a vertex of a delivered triangle. This holds for every solid of C99.", "quantifier": "all float64 origins, resolutions and depths with the root cube within the range, all solids of C99, all buffer sizes, schedules and concurrency settings", "why_tests_cant": "A wrongly discarded cube leaves a hole only when rounding tips a comparison; tests of whole meshes never meet the worst case.", "anchors": ["render/octree_renderer.go:dc3.IsEmpty", "render/octree_renderer.go:dc3.Evaluate", "render/octree_renderer.go:newDc3", "render/octree_renderer.go:octree.processCube", "render/marchingcubes.go:mcToTriangles", "render/marchingcubes.go:mcInterpolate", "veci.go:V3i.ToV3"]}
{"id": "C101", "title": "The mesh computed in float64 is watertight", "statement": "If the surface does not reach the boundary of the root cube, no grid corner is within the evaluation error of the surface and no triangle is dropped as degenerate, then the triangles delivered in float64 form a closed oriented surface: every edge of a delivered triangle is, coordinate for coordinate, the reverse of an edge of a delivered triangle.", "quantifier": "all solids of C99, all float64 origins, resolutions and depths, all buffer sizes, schedules and concurrency settings", "why_tests_cant": "Two cells compute the vertex on their common edge from opposite ends; whether the last bits agree depends on the numbers.", "anchors": ["render/octree_renderer.go:octree.processCube", "render/octree_renderer.go:octree.ReadTriangles", "render/marchingcubes.go:mcToTriangles", "render/marchingcubes.go:mcInterpolate"]}
{"id": "C102", "title": "NewOctreeRenderer chooses origin, cell size and depth correctly in float64", "statement": "For every non-degenerate bounding box of finite float64 numbers and every number of cells from 2 on, the origin, resolution and number of levels that NewOctreeRenderer computes in float64 give a root cube that contains the bounding box with a margin on every side and whose cells have the requested size, with the least depth possible; for fewer than 2 cells it panics. Rendering a solid that is non-negative outside its box from that setup delivers only vertices within half a cell, 1e-12 and the evaluation error of the surface.", "quantifier": "all float64 bounding boxes, all numbers of cells, all solids of C99, all buffer sizes, schedules and concurrency settings", "why_tests_cant": "The number of levels is the ceiling of a computed logarithm; one unit too much or too little at a power of two halves or doubles the root cube, and a root cube that is too small silently cuts the model.", "anchors": ["render/octree_renderer.go:NewOctreeRenderer", "internal/d3/box.go:Box.ScaleAboutCenter", "render/octree_renderer.go:octree.ReadTriangles"]}
{"id": "C103", "title": "Bounds computed in float64 is near the exact box, and a solid rendered from it is complete", "statement": "For every solid of C99, whatever it is nested from, the corners of Bounds computed in float64 are finite and differ from the exact box by at most berr * 2^-53 * S, with berr computed from the expression (8 for a primitive, 20 times the magnitude more for an offset, three times as much plus a constant for a placement, the maximum over the operands for a union). So, when C29 holds for the calls and these errors are below 0.3 % of the sides, the solid is not negative outside that box grown by 0.3 %; the margin of NewOctreeRenderer covers the difference, and rendering the solid from its own Bounds delivers only vertices within half a cell, 1e-12 and the evaluation error of the surface, and a surface closed up to rounding.", "quantifier": "all solids of C99 with the conditions of C29, all numbers of cells, buffer sizes, schedules and concurrency settings", "why_tests_cant": "Quantifies over expressions of any shape and all float64 arguments; a corner a little too far in is visible only where the solid touches its box.", "anchors": ["sdf3.go:union3.Bounds", "sdf3.go:transform3.Bounds", "matrix.go:m44.MulBox", "internal/d3/box.go:Box.Extend", "internal/d3/box.go:Box.Enlarge", "internal/d3/box.go:Box.Scale", "sdf3.go:Offset3D", "sdf3.go:Shell3D", "sdf3.go:Array3D", "sdf3.go:Elongate3D", "sdf3.go:ScaleUniform3D", "sdf3.go:Extrude3D", "sdf3.go:Revolve3D", "render/octree_renderer.go:NewOctreeRenderer"]}
{"id": "C104", "title": "A part rendered to an STL file and read back is where it should be", "statement": "Coordinates are written as float32: for every finite float64 the pattern written is that of a nearest float32 (finite up to the largest float32), reading it back is within 2^-24 of its magnitude plus 2^-150 of the original, and a number that is a float32 comes back unchanged. So for every solid of C99 rendered from its own float64 Bounds with any number of cells, CreateSTL succeeds when no file operation fails, and whoever reads the file gets either an error or triangles whose vertices are all finite and within half a cell, 1e-12, the evaluation error and one float32 rounding (2^-23 of the distance from the origin) of the exact surface.", "quantifier": "all solids of C103, numbers of cells, buffer sizes, schedules, concurrency settings and ways in which the bytes arrive at the reader", "why_tests_cant": "Crosses evaluation, bounding box, pruning, marching cubes, goroutine scheduling, file format and float32 conversion; no test covers more than a few numbers of any of them.", "anchors": ["render/stl.go:CreateSTL", "render/stl.go:createSTL", "render/stl.go:stlReader.Read", "render/stl.go:put3F32", "render/stl.go:get3F32", "render/stl.go:r3From3F32", "render/stl.go:readBinarySTL", "render/octree_renderer.go:NewOctreeRenderer", "render/octree_renderer.go:octree.ReadTriangles"]}
{"id": "C105", "title": "Hexagonal heads have the width across flats of their thread", "statement": "The head made by Bolt and by Nut for a thread whose parameters give the width across flats F is exactly F wide between opposite flats: for each of the six flat directions the part reaches F/2 from the axis and no further, so a spanner of the nominal size fits.", "quantifier": "all threads with a width across flats between 1e-5 and 10^100, all round arguments that hex_head accepts, all bolts with a hexagonal head", "why_tests_cant": "Needs a supremum over all points of the solid in a direction; a 1.2 % deviation passes visual inspection and golden images.", "anchors": ["form3/obj3/thread/hexhead.go:HexHead", "form3/obj3/thread/parameters.go:Parameters.HexRadius", "form3/obj3/thread/bolt.go:Bolt", "form3/obj3/thread/nut.go:Nut"]}
{"id": "C106", "title": "The metric spacers have the right bore and do not touch each other", "statement": "Every spacer the program makes for a nominal diameter d and height h is the hexagonal prism minus the bore: the bore lets a rod of diameter d pass with 0.2 mm to spare on the radius, a full ring of material surrounds it and the part ends within the corners of the hexagon. A table of spacers is laid out in a row at the sum of three times the previous diameters, and when every diameter is at most 2.5 times the one before it less 2.25 mm, no two of them overlap. A diameter that is not positive panics.", "quantifier": "all diameters, heights and tables of at least two spacers", "why_tests_cant": "Quantifies over tables of any length and sizes; the program is an example and has no test.", "anchors": ["examples/metric-spacers/spacers.go:spacer.sdf", "examples/metric-spacers/spacers.go:main", "examples/metric-spacers/spacers.go:getHexRadiusFromFTF"]}
{"id": "C107", "title": "The standoffs of the board spacer take their screws", "statement": "At each of the twelve standoff positions of the board spacer a screw of the nominal diameter (4 mm or 3 mm) passes through the standoff and the plate: no point within the nominal radius of the axis is in the part.", "quantifier": "all points of space", "why_tests_cant": "The blend that joins plate and standoffs (MinPoly) also acts inside the bore; whether it closes it shows only at particular points.", "anchors": ["examples/pcb-spacer/boardspacer.go:base", "examples/pcb-spacer/boardspacer.go:standoffs"]}
{"id": "C108", "title": "The holes of the board support go through the plate", "statement": "Each of the eight holes of the board support goes through the plate: no point within its radius of the axis is in the part, and it is surrounded by at least a millimetre of material; each of the three pillars stands on the plate as a tube of inner diameter 6 and outer diameter 8.", "quantifier": "all points of space", "why_tests_cant": "A hole that lies beside the plate cuts nothing and nothing reports it.", "anchors": ["examples/pcb-support/support.go:main"]}
{"id": "C109", "title": "The sensor cover fits its sensor and connector", "statement": "The cover is exactly the union of connector housing and sensor housing, each less its cavity, less the pin hole, scaled for the shrinkage of the material; the connector of 15.6 mm and the sensor of 23 mm diameter can be put in from their ends, and the pins pass from one to the other.", "quantifier": "all points of space", "why_tests_cant": "Whether an edge is rounded on the cavity instead of on the housing shows only at particular points.", "anchors": ["examples/adz-sensor-cover/cover.go:main"]}
{"id": "C110", "title": "The pipe flange has its bore, its disc and its thread length", "statement": "The flange part lets a round bar of three quarters of an inch pass along its whole axis, contains the flange disc of 60 mm, and its threaded socket is 18 mm long.", "quantifier": "all points of space", "why_tests_cant": "Quantifies over all points of a part made with a blend and two scalings.", "anchors": ["examples/npt-flange/flange.go:main", "form3/obj3/thread/nut.go:Nut", "form3/obj3/thread/npt.go:NPT.SetFromNominal"]}
{"id": "C111", "title": "The openings of the bench supply's front panel go through, have a rim, and the display sits over its sockets", "statement": "The front panel is exactly a plate of 150 by 85 by 4 mm with 25 openings and, around the regulated output, a block that is 4 mm thicker; every opening (12 screws, switch, 8 output sockets, clamps, 2 sockets and display of the regulated output) goes through the whole part, and every point of the plate within 2 mm of an opening that is not in the opening is solid, so that no two openings meet or break the edge; the display is centred above its two sockets.", "quantifier": "all points of space", "why_tests_cant": "Positions are computed from bounding boxes of intermediate shapes; whether openings meet is a statement about all pairs and all points.", "anchors": ["examples/atx-bench-supply/atx.go:main", "examples/atx-bench-supply/atx.go:bbSize", "examples/atx-bench-supply/atx.go:bbCenter"]}
{"id": "C112", "title": "In float64 the distance to a triangle is taken to its nearest point", "statement": "In float64 minDistTri returns, for finite corners and a finite target, the vector from a point of the triangle to the target up to rounding, and no point of the triangle is nearer by more than rounding: the squared length is at most that to any other point of the triangle plus 9000 * 2^-53 * S^2 for coordinates up to S. The result is never NaN.", "quantifier": "all float64 targets and corners within S, for S from 2^-200 to 2^400", "why_tests_cant": "The choice between the edges and the interior depends on signs of rounded derivatives; wrong choices, underflows and 0/0 happen only for particular coordinates.", "anchors": ["form3/bih.go:minDistTri", "form3/bih.go:getMinEdge02", "form3/bih.go:getMinEdge12", "form3/bih.go:getMinInterior"]}
{"id": "C113", "title": "The twelve tetrahedra of naiveTetras fill the cell", "statement": "The twelve tetrahedra that naiveTetras makes of a cell, with its nodes in place, have the same volume and orientation, cover exactly the cell, do not overlap, and each has its outer side in common (with the other orientation) with a tetrahedron of the neighbouring cell.", "quantifier": "all cells, all points", "why_tests_cant": "Overlaps and gaps are statements about all points of the cell.", "anchors": ["helpers/sdfexp/bccmesh.go:naiveTetras"]}
{"id": "C114", "title": "Membership in a rectangle and a cylinder computed in float64", "statement": "With float64 arithmetic, the distance of a rectangle made by Box without rounding (sizes positive, not subnormal) is negative at a finite point exactly if the point is strictly inside the rectangle, zero exactly if it is on its boundary and positive exactly if it is strictly outside; likewise unions, differences and intersections of such rectangles and the plates extruded from them, and Cylinder without rounding, in terms of the computed distance from the axis.", "quantifier": "all positive normal sizes, all finite points", "why_tests_cant": "The rounding errors of p.Y-p.X and s.Y-s.X matter only for rare combinations of magnitudes.", "anchors": ["form2/must2/basic.go:Box", "form2/must2/errors.go:sdfBox2d", "form3/must3/cylinders.go:Cylinder", "sdf3.go:Extrude3D"]}
