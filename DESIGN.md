# Formal model of soypat/sdf in Rocq

## What is here

* `properties.jsonl` - the properties, one JSON object per line.
* `rocq/theories/` - the model and the proofs (Coq 8.16.1, logical prefix `Verif`).
* `MANIFEST.json` - for every property the theorems that state it.
* `seeded/LOG.jsonl` - attempts at breaking the model with realistic bugs.

Files are split by concern.  `*Model.v` files hold only definitions that follow
the Go code function by function, each with a comment citing the file and lines.
`*Spec.v` (or the first section of a property file) holds the small independent
specification.  `*Proofs.v` holds lemmas.  `Props*.v` holds the property
theorems, with an `Example` that shows a concrete case meeting the hypotheses.
The output of `Print Assumptions` for every claimed theorem is at the end of
this file.

## Conventions of the model

* **Result type.** `res A := Ok a | Err | Panicked`.  A Go `panic` is `Panicked`,
  a returned non-nil `error` is `Err`.  A `nil` interface argument is `None`.
* **Numbers.** Geometry uses the mathematical reals of the Coq standard library
  (`R`) in place of float64.  `min`, `max`, negation, `abs` and comparisons are
  exact in float64 (NaN aside); `+ - * / sqrt` and trigonometric functions are
  idealised.  Properties that are about rounding use explicit bit patterns (C18),
  or the standard library's `SpecFloat` model of IEEE-754 binary64 (C93, C98 to C104, C112, C114),
  whose rounding `FloatRound` proves correct from the definitions.  NaN and overflow to
  infinity are outside the real-number model.  `math.MaxFloat64` is the real
  constant `(2 - 2^-52) * 2^1023`.
* **Integers** are `Z`/`nat`/`N`; where Go wraps (uint32 triangle counter,
  little-endian bytes) the wrap is modelled explicitly.
* **Slices** are lists, with in-place operations (`copy`, re-slicing) modelled as
  list functions whose out-of-range branch is `Panicked`.
* **Goroutines** are step functions over an explicit shared state; theorems
  quantify over all interleavings of the lock-protected steps.
* **SDFs** are records of an evaluation function and a bounds box, and Go
  constructors are functions from records to `res` records.  Compositions are
  handled by induction over inductive predicates/trees of constructors.

## Properties that are false of the code

Where the model shows that a property a user would expect is false, the
full statement stays in `properties.jsonl`; the model proves its negation with a
concrete witness (`..._refuted`) and the largest restricted statement we could
prove (`..._partial`).  The manifest status is then `partial`.

## Trusted base

* Coq 8.16.1's kernel (and `coqchk`), the OCaml runtime that runs it.
* The standard library axioms listed by `Print Assumptions`:
  for theorems about reals `ClassicalDedekindReals.sig_forall_dec`,
  `ClassicalDedekindReals.sig_not_dec` and
  `FunctionalExtensionality.functional_extensionality_dep` (and, where
  classical case analysis is used, `Classical_Prop.classic`).  Theorems about the
  discrete parts are closed under the global context.
* The fidelity of the model to the Go source: this is by inspection only; the
  code was not built or run.
* `math.Hypot` and gonum's `r3.Norm`, `r2.Norm` and `r3.Unit` are, for C98, C99, C112 and C114,
  programs after their published sources; float64 operations are taken not to be
  fused (Go may fuse on architectures other than amd64).
* The Go runtime and standard library (sync, io, os, encoding/binary, zip, xml,
  math) and gonum's r2/r3 vectors are modelled only through the behaviour stated
  in the comments.

## What is modelled

Apart from the functions listed below, every function of the packages `sdf`
(the root), `render`, `form2`, `form3`, `form2/must2`, `form3/must3`,
`form2/obj2`, `form3/obj3`, `form3/obj3/thread`, `internal/d2`, `internal/d3`,
`helpers/matter` and `helpers/sdfexp` has a definition that cites it.  One-line
accessors (a `Bounds` method that returns a field, a setter) are folded into the
record of their type.

## What is not modelled

* tests, memory use, speed. Of `examples/` the programs of ExampleModel are modelled up to the rendering call (metric-spacers, pcb-spacer, pcb-support, adz-sensor-cover, npt-flange, atx-bench-supply: all there are).
* zip and xml encoding of 3MF (only the document tree is modelled) and
  file-system behaviour below write/seek/close.
* The source of gonum's k-d tree is not in the repository.  C81 holds for every
  answer the search may give; C84 uses a model of `New` and `Nearest` after
  gonum's published source, with an arbitrary pivot function that satisfies the
  contract of `Partition`.
* Error messages and stack traces (`ErrMsg`, `String` methods).
* Functions used only by tests or by nothing: `randomM44` (`naiveTetras`, which nothing calls, is C113).
* float64 rounding, overflow and NaN except where stated.
## Plan per property

| id | property | model and proof |
|---|---|---|
| C01 | Octree renderer delivers every surface triangle exactly once | Octree state machine (todo list, FIFO of unwritten triangles, sequential and threaded call). Invariant: delivered ++ buffered ++ expansion(todo) is a permutation of expansion(root). Threads: per-worker read loop plus an arbitrary order of appends to the shared FIFO. |
| C02 | Octree renderer makes progress and terminates; io.EOF is final | Same machine; measure = weighted todo + buffered, strictly decreasing on every non-EOF call; EOF state is a fixed point. |
| C03 | ReadTriangles respects its buffer | Same machine with explicit buffers (lists of fixed length), slicing as partial functions; no Panicked result reachable. |
| C04 | Multithreaded consolidation compacts the workers' output | The in-place consolidation loop on lists with memmove semantics; equality with concatenation by induction on workers. |
| C05 | The distance cache is transparent under concurrency | Interleaving semantics over read/eval/write steps of any number of evaluations sharing a map; invariant cache subset of f. |
| C06 | Octree pruning never drops surface | Over R: Lipschitz + triangle inequality at the cube centre, induction on octree levels. |
| C07 | The sampling grid covers the model's bounds | Over R and Z: ceil(log2) lemma. |
| C08 | Renderer bookkeeping counters are exact | Counters as fields of the machine, invariant over histories. |
| C09 | RenderAll returns the complete stream | RenderAll loop over an abstract renderer (list of responses). Refuted by a response (n>0, EOF), which the octree machine produces. |
| C10 | TriangleBuffer is a FIFO queue | List model of buf with Write/Read, refinement to abstract queue over histories. |
| C11 | Marching-cubes tables use exactly the sign-changing edges | Tables copied mechanically; vm_compute over 256 patterns lifted to all real corner values. |
| C12 | Marching cubes on a grid is watertight | Per-cell boundary lemma (256 cases by computation), face-matching lemma for neighbouring cells (16 face patterns), summation over a grid of any size. |
| C13 | Triangles are oriented outward | Same computation: direction of boundary segments on the faces relative to the inside corners. |
| C14 | Interpolated vertices lie on their cell edge at the surface | Over R, case analysis on mcInterpolate. |
| C15 | Neighbouring cells compute bit-identical shared vertices | binary64 via SpecFloat; refuted with concrete floats. |
| C16 | Rendering a solid gives a closed mesh (end to end) | Composition of C01, C06, C07, C12. |
| C17 | WriteSTL emits a well-formed binary STL | Byte-list model with little-endian encoders. |
| C18 | STL write/read round trip | Round trip parametric in the float32 conversion functions. |
| C19 | CreateSTL writes the same file as WriteSTL | io.Copy loop over stlReader as state machine, arbitrary renderer scripts. |
| C20 | An interrupted CreateSTL never looks complete | File state after each prefix of the operation trace. |
| C21 | The STL reader rejects malformed input | Reader on arbitrary byte lists. |
| C22 | The STL reader accepts any conforming io.Reader | Reader with fragmentation oracle; refuted for data+EOF. |
| C23 | The STL triangle count is never wrong | uint32 wrap model; refuted; partial below 2^32. |
| C24 | 3MF objects decode to the original triangles | Association-list model of the map; invariant over the loop. |
| C25 | 3MF manifold warning is exact | Same. |
| C26 | 3MF object ids and build items stay consistent | Same. |
| C27 | Booleans are set operations | Record model of SDFs over R. |
| C28 | CSG trees denote the expected point set | Inductive tree type with denotation into sets; induction. |
| C29 | Bounds contains the solid | Inductive predicate of built shapes; mutual induction 2D/3D. Refutations for twist, scale-twist, revolve 4pi, blended union. |
| C30 | Distance dominates distance to the bounding box | Dominance predicate preserved by constructors. |
| C31 | Compositions stay 1-Lipschitz | Lipschitz predicate preserved by constructors. |
| C32 | Blended unions respect Bounds | Refuted for MinPoly with a witness; partial for plain min. |
| C33 | Transform3D/2D moves the solid by the matrix | Matrices over R, field. |
| C34 | Matrix algebra | ring / field. |
| C35 | Rotations and mirrors are isometries | trigonometric identities. |
| C36 | rotateToVec is a rotation taking a to b | case split; refuted for opposite vectors; partial otherwise. |
| C37 | MulBox is the tightest box around the image | interval argument per row. |
| C38 | ScaleUniform scales shape and distance | direct; k<0 refuted. |
| C39 | Linear extrusion is profile x interval | direct. |
| C40 | Scaled extrusion interpolates between 1 and the scale | direct. |
| C41 | Twist and scale-twist extrusions degenerate correctly | twist direct; scale-twist refuted by a witness. |
| C42 | Twisted extrusion stays inside its Bounds | refuted by off-centre box; partial for profiles with |Min| <= Max. |
| C43 | Solid of revolution semantics | atan2 via acos; case analysis. |
| C44 | Arrays and rotated copies are unions of placed copies | induction on counts; sector folding. |
| C45 | Elongation stretches symmetrically | clamp case analysis; 2D refuted. |
| C46 | Cuts keep the documented side | direct. |
| C47 | Slice2D is the planar section | orthonormal frame. |
| C48 | LineOf/Multi/Orient place one copy per element | list model of pattern; panics refuted. |
| C49 | Union2D's bounding-box culling is invisible | interval argument on squared distances plus dominance of members. |
| C50 | Blend functions are smooth minima | real analysis, psatz/nra, Rpower. |
| C51 | Offset and shell level sets | direct. |
| C52 | Loft interpolates between its profiles | direct; height=2 round refuted. |
| C53 | Box operations | direct. |
| C54 | MinMaxDist2 bounds the distance to a box | 2D proved; 3D refuted with an edge-region witness. |
| C55 | Grid map round trip | Z/R floor arithmetic. |
| C56 | Ray casting never steps through the surface | loop invariant. |
| C57 | Sphere, circle and box fields are exact distances | infimum characterisation of distance. |
| C58 | Cylinder, capsule and cone are the stated solids | region analysis. |
| C59 | Polygon distance is exact | distance part by induction on edges; winding number as sum of crossings. |
| C60 | Polygon builder terminates with the expected vertices | Measure on pending modifiers; invariant: the list is one block of points per original vertex, each a fillet tangent to the original edges. |
| C61 | Nagon is a regular polygon | trig sums. |
| C62 | Checked constructors never panic | res-valued constructors and recover wrapper. |
| C63 | Panels accept every hole pattern | panic logic of Panel; refuted. |
| C64 | Standoff accepts documented parameters | panic logic; refuted. |
| C65 | Screw threads are helically periodic and bounded | sawTooth algebra. |
| C66 | Bolt and Nut validate their parameters | decision logic; refuted for Bolt. |
| C67 | Thread standard tables | table over Q/R. |
| C68 | Mesh import: nearest triangle search is exact | BIH tree with pruning, induction. |
| C69 | Point-triangle distance is exact | KKT per region. |
| C70 | 2D closest point on a triangle | refuted/partial. |
| C71 | Body-centred cubic lattice numbering | grid numbering. |
| C72 | Tetrahedral mesh connectivity | list model; refuted. |
| C73 | canalisTransform puts the triangle in the XY plane | vector algebra. |
| C74 | d3.Transform algebra | field. |
| C75 | Material compensation | lra. |
| C76 | Smooth blends keep fields 1-Lipschitz | nonspreading blends: monotone and shift-equivariant; folded over the members. MinRound and chamfer refuted. |
| C77 | Mesh import: merged corners stay within the vertex tolerance | invariant on the vertex cache: every cached index holds a corner of the same grid cell; truncation toward zero makes the cell around zero two tolerances wide. |
| C78 | Mesh import: sign of the distance | the sign is the side of the plane of one nearest triangle (from the search invariant); tetrahedron counterexample. |
| C79 | Mesh compression never pushes a node through the surface | norm of the displacement; 1-Lipschitz bound. |
| C80 | Uniform tetrahedral mesh | composition of the lattice, compression and smoothing models; the tetrahedron filter by induction. |
| C81 | Imported mesh: distance and sign from pseudo normals | 2-D closest point (C70) lifted through canalisTransform (C73); normals are non-negative combinations of face normals, so a point behind all planes is behind every normal. |
| C82 | Imported mesh: vertices, normals and bounds | fold invariant: cache = vertices by cell, normals = sums over processed triangles. |
| C83 | Pseudo normals of the second importer | fan walk as a step function with fuel; the oriented mesh makes the next triangle a partial injection, so the walk ends; loop and index witnesses. |
| C84 | Imported mesh: the k-d tree finds the nearest triangle | tree invariant (left <= node <= right) for every pivot function with the contract of Partition; search invariant with slack rho by induction on the tree; two long triangles as witness. The tree (gonum kdtree) is modelled from its published source. |
| C85 | d2.Transform algebra | matrix algebra, boxes by corners; identity and Inverse refuted. |
| C86 | Numerical normals and differential operators | unit vectors by normalisation; exactness on affine fields by ring; laplacian refuted. |
| C87 | Vector helpers | component-wise lemmas, truncation by up, polar by the atan2 of Trig.v. |
| C88 | Accuracy of the rendered mesh | crossing edge and Lipschitz bound at the vertex; intermediate value theorem for a true surface point; discrete walk along a grid line from a negative sample to the boundary. |
| C89 | 3MF: the file written is a complete package of the rendered triangles | the sequence of calls as a list of steps with an oracle for failures; the package read back by a consumer's lookup; last-dash argument for part numbers. |
| C90 | From the octree renderer to an STL file and back | simulation: every run of the writer against the octree state machine is a run against a list of the delivered triangles with suitable chunking; then C01, C02, C18, C20. |
| C91 | Extrusion with rounded edges | case analysis of the rounded combination; Pythagoras for the distance to the core. |
| C92 | Centring a 2D field | the translation is an affine map (C33); Bounds by case analysis of min/max. |
| C93 | Booleans are exact on float64 values | math.Min is the minimum of a total order of all values (-Inf, NaN, numbers with -0 before +0); maximum by negation; mutual induction over trees. |
| C94 | Thread profiles have the dimensions of their standards | an outline that runs leftwards above the x axis is the region below it (winding number, then one edge over each abscissa); each rounded corner replaced by the unique fillet (C60); chords of the circle for the facets. |
| C95 | A straight screw has its core, its major diameter and its crests on the helix | C65's helical coordinate is determined by the point up to multiples of the pitch and lies in [-P/2, P/2); then C94. The axis: the profile evaluated on its own edge. |
| C96 | Convex polygons are intersections of half planes | beyond an edge all vertices lie in an open half plane, so the angles under which the edges are seen telescope and the winding number (C59) is 0; inside they all have the same sign, so it is not; on an edge by continuity (C59's Lipschitz bound). Nagon: sum-to-product formulas. |
| C97 | The fasteners have the shapes they are made of | the chamfered corners are two-vertex fillets (C60), the outlines convex polygons (C96), the rounded hexagon an offset polygon (C96), the ridges the helical coordinate of C65 on a convex profile; then the Booleans. Bounds of the ISO profile from its vertices. |
| C98 | Membership computed in float64 is exact | SpecFloat's subtraction is shown correct from its definition (FloatRound: shifting, round-to-nearest-even, normalisation), with subnormal numbers never rounded, so a difference has the sign of the exact difference; comparisons are those of the reals; then case analysis of the branches and C93's sign rules for min and max. |
| C99 | float64 evaluation has an explicit error bound | Structural induction over expressions. Each rule bounds the rounding of one Evaluate by the nearest-number property of FloatRound and carries the error of the operands through by C31 (1-Lipschitz). For a polygon the distance to each edge is near the exact one, and the sign can differ only within 90 units of an edge, where both values are small. The 4x4 inverse is a program over any ring; a verified interval-free error analysis (FloatInv: magnitude and error in units of 2^-53, computed by reflection) is run over its symbolic expressions. |
| C100 | Rendering in float64 stays within an explicit error of the surface | grid positions and half diagonals by the nearest-number property (FloatRound, FloatNear); the centre's computed value is compared through C31 (1-Lipschitz) with every point of the cube; the interpolation parameter has a relative error of four units, its position on the edge of 60; then C01 for what is delivered. |
| C101 | The mesh computed in float64 is watertight | cells without a computed sign change give no triangle and those with one survive (C100), so that the delivered triangles are those of all cells; C12 for the combinatorial surface; the interpolation parameter is symmetric in the ends of the edge. Refutation by evaluating the float64 renderer on the unit ball. |
| C102 | NewOctreeRenderer chooses origin, cell size and depth correctly in float64 | every operation on the box by the nearest-number property; the quotient longAxis/resolution is within 4 units of 2 * meshCells, so that it is exactly a power of two or (integers being far apart compared with the error of Log2) on the right side of it; monotonicity of rounding at powers of two; then C100. |
| C103 | Bounds computed in float64 is near the exact box, and a solid rendered from it is complete | a calculus of corner errors in units of 2^-53 * S for min, max, sum, product, negation; one lemma per Bounds method; induction on the expression; C29 for the exact box; the 0.4 % margin of C102 absorbs the error. |
| C104 | A part rendered to an STL file and read back is where it should be | rounding to 24 digits proved as in FloatRound; the bit pattern is a bijection on float32 values; reading a file that was accepted gives exactly the rounded delivered triangles (C90_accepted from C21); C103 for their vertices, C31 (1-Lipschitz) for the rounding. |
| C105 | Hexagonal heads have the width across flats of their thread | the hexagon is an intersection of six half planes (C96); support function of the hexagon grown by the rounding radius; for bolts the point on a flat survives the thread, which stays within its radius. |
| C106 | The metric spacers have the right bore and do not touch each other | hex_head and cylinder by C58/C97; ceil x < x + 1; induction on the table for the row, with a monotone position and the corner radius as reach. |
| C107 | The standoffs of the board spacer take their screws | panel and standoff are distances bounded below on the axis; a lower and an upper bound for MinPoly(2,3) in terms of its arguments; refutation by a point where both arguments are small. |
| C108 | The holes of the board support go through the plate | induction on the list of cuts; blend of an added pillar is bounded by the distances of plate and pillar; off the plate by the panel's distance. |
| C109 | The sensor cover fits its sensor and connector | membership of rounded boxes and cylinders (C58), Booleans (C27), scaling (C73). |
| C110 | The pipe flange has its bore, its disc and its thread length | NPT half-inch parameters computed; nut and cylinder values on the axis; bounds of the blend. |
| C111 | The openings of the bench supply's front panel go through, have a rim, and the display sits over its sockets | bounding boxes of array, translation and union computed; signs of rounded rectangles; union culling with closed sets; pairs of openings compared by computation in units of 1/600 mm. |
| C112 | In float64 the distance to a triangle is taken to its nearest point | interval of every dot product (FloatNear); quotients of values of opposite sign lie in [0,1]; residual of the derivative at each computed parameter at most 400 * 2^-53 * S^2; convexity of the squared distance on lines through the triangle turns small residuals into small excess. |
| C113 | The twelve tetrahedra of naiveTetras fill the cell | explicit barycentric weights by nearest face and side of its diagonal; linear arithmetic for every pair of tetrahedra. |
| C114 | Membership in a rectangle and a cylinder computed in float64 | differences of floats rounded to nearest keep a strict order across the corner (the smaller float and the larger differ by a unit in the last place of the smaller, and the multiples of that unit are floats); then case analysis on the nine regions. |

## Print Assumptions of every claimed theorem

* Closed under the global context:
  `C01_exactly_once`, `C01_prefix`, `C02_eof_final`, `C02_returns`, `C02_terminates`, `C03_buffer_safety`, `C04_consolidation`, `C04_sections`, `C05_cache_transparent`, `C05_evaluate_returns`, `C08_counters`, `C09_renderall_partial`, `C09_renderall_refuted`, `C102_few`, `C10_fifo`, `C112_nan`, `C12_simple`, `C12_watertight`, `C13_face_orientation`, `C13_normal_outward`, `C15_bit_identical_refuted`, `C17_failing_writer`, `C17_write_stl`, `C18_round_trip`, `C19_create_same_as_write`, `C20_interrupted_partial`, `C20_torn_refuted`, `C21_prefix_rejected`, `C21_rejects_malformed`, `C21_values`, `C22_data_with_eof_refuted`, `C22_fragmentation_partial`, `C23_count_partial`, `C23_wraps_refuted`, `C24_decodes`, `C24_expand`, `C25_manifold_warning`, `C26_ids`, `C52_nan_refuted`, `C59_repeated_refuted`, `C60_first_relative_refuted`, `C62_chamfered_nil_refuted`, `C66_bolt_nil_refuted`, `C69_nan_refuted`, `C89_close_refuted`, `C89_errors`, `C89_last_lost_refuted`, `C89_package_partial`, `C89_part_numbers`, `C89_pid_refuted`, `C90_accepted`, `C90_create`, `C90_empty_rejected`, `C90_one_bad_triangle`, `C90_read_back`, `C90_returns`, `C93_copies`, `C93_diff`, `C93_inter`, `C93_lattice`, `C93_tree`, `C93_union`, `C93_union_order`.
* Axioms: `ClassicalDedekindReals.sig_forall_dec`:
  `C72_connectivity_partial`, `C72_defined`, `C72_fourth_refuted`, `C72_self_refuted`, `C85_entries`.
* Axioms: `ClassicalDedekindReals.sig_forall_dec`, `FunctionalExtensionality.functional_extensionality_dep`:
  `C104_float32`, `C112_closest_partial`, `C112_closest_refuted`, `C112_collapsed`, `C112_edge_ac`, `C112_edge_bc`, `C112_point`, `C112_rounding_refuted`, `C113_apart`, `C113_fill`, `C113_fit`, `C113_volume`, `C114_refuted`, `C11_tables`, `C11_triangles`, `C13_triangle_outward`, `C14_interpolation`, `C14_triangles`, `C15_shared_vertex_real`, `C27_difference`, `C27_difference2`, `C27_intersection`, `C27_intersection2`, `C27_union`, `C27_union2_panics`, `C27_union_order`, `C27_union_panics`, `C33_nil`, `C33_transform2`, `C33_transform3`, `C34_basic_maps`, `C34_composition`, `C34_determinant`, `C34_inverse22`, `C34_inverse33`, `C34_inverse44`, `C34_monoid`, `C37_mulbox2`, `C37_mulbox3`, `C38_scale_uniform_partial`, `C39_extrude`, `C40_faces`, `C40_interpolates`, `C44_array_box`, `C44_rotate_union_box`, `C44_rotate_union_defined`, `C49_inside_partial`, `C51_levels`, `C53_centered3`, `C53_extend2`, `C53_extend3`, `C53_include2`, `C53_include3`, `C53_shape2`, `C53_shape3`, `C53_vectors2`, `C53_vectors3`, `C53_vertices2`, `C53_vertices3`, `C54_maxdist2_3d`, `C54_mindist2_3d_partial`, `C54_mindist2_3d_refuted`, `C54_minmaxdist2_2d`, `C55_accepts`, `C55_centre`, `C55_mesh`, `C55_round_trip`, `C67_metric`, `C67_metric_estimate`, `C67_npt`, `C67_npt_sizes`, `C71_flat_refuted`, `C71_make`, `C71_numbering_partial`, `C71_position_refuted`, `C71_shape`, `C74_compose`, `C74_compose_identity`, `C74_identity`, `C74_inv`, `C74_mul`, `C74_mul_affine`, `C74_mul_assoc`, `C74_scale_ignores_origin`, `C74_scale_partial`, `C74_scale_refuted`, `C74_singular`, `C74_slice`, `C74_translate`, `C74_transpose`, `C75_internal`, `C75_pla`, `C75_recover`, `C84_bounds`, `C84_partition`, `C85_box`, `C85_identity_refuted`, `C85_inverse_refuted`, `C85_maps_partial`, `C86_divergence_linear`, `C86_gradient`, `C86_laplacian_refuted`, `C87_conversions`, `C87_equals`, `C87_integers`, `C87_sets`, `C88_complete`, `C92_center`, `C92_center_and_scale`, `C93_start`, `C98_box`, `C98_box_exact`, `C98_box_sign`, `C98_circle`, `C98_difference`, `C98_extrude`, `C98_offset`, `C98_shell`, `C98_solid`, `C98_sphere`.
* Axioms: `ClassicalDedekindReals.sig_forall_dec`, `ClassicalDedekindReals.sig_not_dec`, `FunctionalExtensionality.functional_extensionality_dep`:
  `C06_full_grid`, `C06_pruning_sound`, `C100_complete`, `C100_kept`, `C100_pruned`, `C100_vertices`, `C101_closed_partial`, `C103_bounds`, `C106_panics`, `C108_holes_partial`, `C108_holes_refuted`, `C109_free_partial`, `C109_sensor_refuted`, `C109_solid`, `C111_centred_refuted`, `C111_ring`, `C111_solid`, `C111_through`, `C112_distance`, `C114_cylinder_partial`, `C114_cylinder_solid_partial`, `C114_drawing_partial`, `C114_membership_partial`, `C114_plate_partial`, `C114_sign_partial`, `C28_csg`, `C29_offset_refuted`, `C31_lipschitz_partial`, `C31_union2d_refuted`, `C32_blend_bounds_refuted`, `C32_blend_grown_partial`, `C32_plain_partial`, `C35_mirrors`, `C35_rotate2d`, `C35_rotate3d`, `C35_rotate_xyz`, `C36_opposite_refuted`, `C36_rotate_to_vec_partial`, `C38_negative_refuted`, `C40_bounds`, `C41_scale_twist_partial`, `C41_scale_twist_refuted`, `C41_twist_section`, `C41_twist_zero`, `C42_scale_twist_refuted`, `C42_twist_partial`, `C42_twist_refuted`, `C44_array2`, `C44_array3`, `C44_rotate_union2`, `C44_rotate_union3`, `C45_elongate2_partial`, `C45_elongate2_refuted`, `C45_elongate3`, `C46_cut2`, `C46_cut3`, `C47_slice`, `C48_line2_partial`, `C48_line3_partial`, `C48_multi_partial`, `C48_orient_partial`, `C48_single_refuted`, `C48_unicode_refuted`, `C49_blend_refuted`, `C49_culling_partial`, `C49_empty_refuted`, `C50_chamfer_partial`, `C50_chamfer_refuted`, `C50_max_poly_partial`, `C50_max_poly_refuted`, `C50_min_poly`, `C50_min_round`, `C50_special_cases`, `C51_exact`, `C51_shell_exact`, `C52_bounds_partial`, `C52_bounds_refuted`, `C52_degenerate_partial`, `C52_faces_partial`, `C52_sections_partial`, `C56_epsilon2_refuted`, `C56_finds_partial`, `C56_no_crossing_partial`, `C56_result2_partial`, `C56_result_partial`, `C56_terminates_partial`, `C57_box2`, `C57_box3`, `C57_circle`, `C57_line`, `C57_overround_refuted`, `C57_sphere`, `C58_capsule`, `C58_cone`, `C58_cone_exact`, `C58_cone_in_sharp`, `C58_cylinder`, `C59_defined`, `C59_gap_refuted`, `C60_chamfer`, `C60_modifiers`, `C61_nagon`, `C61_small`, `C62_checked_partial`, `C62_nagon_no_error_refuted`, `C63_eurorack3_partial`, `C63_eurorack_partial`, `C63_eurorack_small_refuted`, `C63_no_mark_refuted`, `C63_panel3`, `C63_panel_hole`, `C63_panel_partial`, `C68_bounds`, `C68_exact_partial`, `C68_nearest_partial`, `C68_right_angle_refuted`, `C69_closest_partial`, `C69_right_angle_refuted`, `C70_clockwise_refuted`, `C70_closest_partial`, `C70_vertex_label_refuted`, `C72_smooth_mean`, `C72_smooth_partial`, `C72_smooth_refuted`, `C73_canalis`, `C76_difference_intersection`, `C76_min_poly`, `C76_round_chamfer_refuted`, `C76_union`, `C77_merge_partial`, `C77_tolerance`, `C77_tolerance_errors`, `C77_two_tolerances_refuted`, `C78_inside_partial`, `C78_outside_refuted`, `C78_sign_partial`, `C79_compress`, `C79_plane`, `C80_flat_inside`, `C80_nan_refuted`, `C80_tetras_partial`, `C86_lipschitz`, `C86_normal2`, `C86_normal3`, `C87_ceil`, `C87_scalars`, `C88_points`, `C88_vertices`, `C91_bounds`, `C91_degenerate`, `C91_exact`, `C91_sections`, `C97_rounded_cylinder`, `C98_box_go`, `C98_solid_go`, `C99_translate`.
* Axioms: `ClassicalDedekindReals.sig_forall_dec`, `ClassicalDedekindReals.sig_not_dec`, `Classical_Prop.classic`, `FunctionalExtensionality.functional_extensionality_dep`:
  `C06_stream`, `C06_zero_corner_refuted`, `C07_cells`, `C07_grid`, `C07_limits`, `C100_solids`, `C101_bit_closed_refuted`, `C102_closed_partial`, `C102_scene`, `C102_setup`, `C102_vertices`, `C103_closed_partial`, `C103_contains`, `C103_promise`, `C103_vertices`, `C104_closed_partial`, `C104_read_back`, `C105_bolt_refuted`, `C105_width_partial`, `C105_width_refuted`, `C106_apart`, `C106_fit`, `C106_row`, `C106_spacer`, `C107_closed_refuted`, `C107_pin_partial`, `C107_screw_refuted`, `C110_bore`, `C110_disc`, `C110_length_refuted`, `C16_closed`, `C29_bounds_contain_partial`, `C30_dominates_partial`, `C30_extrude_refuted`, `C30_level_sets_partial`, `C43_bounds_partial`, `C43_revolve_partial`, `C43_two_turns_refuted`, `C43_wrap_refuted`, `C44_none`, `C44_rotate_copy2`, `C44_rotate_copy3`, `C50_min_exp`, `C56_sigmoid_refuted`, `C59_bounds_partial`, `C59_dominates_partial`, `C59_exact_partial`, `C59_lipschitz_partial`, `C59_winding_integer`, `C60_all_relative_refuted`, `C60_arc_geometry`, `C60_calls`, `C60_fillets_partial`, `C60_history_terminates`, `C60_negative_facets_refuted`, `C60_nil_panics`, `C60_plain`, `C60_reverse`, `C60_smooth_geometry`, `C60_terminates`, `C60_vertices_partial`, `C62_chamfered`, `C64_defined_partial`, `C64_no_hole_refuted`, `C64_solid_partial`, `C64_web`, `C64_webs`, `C64_webs_partial`, `C65_bounds_partial`, `C65_defined`, `C65_helical`, `C65_negative_taper_refuted`, `C65_profiles`, `C65_screw_motion`, `C65_taper_slope_refuted`, `C66_bolt_accepts_invalid_refuted`, `C66_bolt_lengths_refuted`, `C66_bolt_outcome`, `C66_bolt_tiny_refuted`, `C66_bolt_tolerance_refuted`, `C66_knurl`, `C66_nut_partial`, `C66_nut_tolerance_refuted`, `C67_npt_thread`, `C81_convex`, `C81_nearest_partial`, `C81_value_partial`, `C81_vertex_refuted`, `C82_angles`, `C82_bounds`, `C82_merge_refuted`, `C82_normals_partial`, `C82_split_refuted`, `C82_vertices_partial`, `C83_hangs_refuted`, `C83_normals_partial`, `C83_panics_refuted`, `C83_returns_partial`, `C84_convex`, `C84_exact_partial`, `C84_nearest_partial`, `C84_nearest_refuted`, `C87_polar`, `C88_not_missed`, `C94_acme`, `C94_ansi_buttress`, `C94_inch_threads`, `C94_iso_external`, `C94_iso_internal`, `C94_plastic_buttress`, `C95_acme`, `C95_ansi_buttress`, `C95_axis_profiles`, `C95_axis_refuted`, `C95_iso_external`, `C95_iso_internal`, `C95_plastic_buttress`, `C96_closed`, `C96_convex`, `C96_nagon`, `C96_offset`, `C97_bolt`, `C97_chamfered`, `C97_hex_head`, `C97_iso_bolt`, `C97_knurl`, `C97_knurled_head`, `C97_nut`, `C99_error`, `C99_evaluate`, `C99_sign`.
