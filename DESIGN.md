# DESIGN: a Rocq model of scikit-spatial

## 1. What is modelled, and how

The library is a set of geometric value objects over numpy arrays.  The model (rocq/theories/Model) mirrors it
function by function as total Gallina functions, with exceptions as values:

* `res A := Ok a | Raise e | NonFinite`.  `Raise` carries the exception class and the message the code passes to it.
  `NonFinite` means that numpy produced nan/inf (with at most a warning) at a place where exact arithmetic has no
  value (x/0, sqrt of a negative): the call does not raise there and what it hands on is a plain non-finite array.
* The model is generic over a record `Num` of numeric operations (Model/Num.v).  Two instances exist
  (Model/Instances.v): `RNum` (exact real arithmetic; all geometric theorems are about this one) and `FNum` (IEEE
  binary64, Coq's primitive floats; C70, C72, C73 and the float refutations are about this one).  The *same* Gallina
  functions are used with both, so the real-number theorems and the double-precision theorems speak about one model.
* Points and vectors are lists of numbers of any length: no theorem fixes a dimension unless the code does.
* numpy broadcasting of length-1 operands is modelled (`bcast`, Model/Numpy.v) because it changes which calls raise.
* LAPACK/scipy routines (svd, solve, lstsq: record `linalg`; Powell's minimiser: a function) are parameters.  A theorem
  that depends on one assumes its mathematical specification (Spec/Linalg.v: `svd_correct`, `solve_correct`,
  `lstsq_correct`) as an explicit hypothesis, never as an axiom, and Proof/SvdExists.v constructs routines that meet all
  three specifications (`ideal_linalg_correct`), so the hypotheses are satisfiable.  C72 only assumes that
  the routines raise nothing but LinAlgError/ValueError.
* State (aliasing, in-place rounding) is modelled separately in Model/Heap.v by buffers and handles, with theorems over
  all operation histories.  int64 wrap-around is modelled in Model/Int64.v.  matplotlib is modelled in Model/Plotter.v as
  the list of drawing calls made on the axes.

The specification side (rocq/theories/Spec) is written without any model function: points as lists of reals, `on_line`,
`on_plane`, `on_sphere`, `min_dist`, `collinear`, `coplanar`, `in_flat`, `is_mesh`, `rounded`, `drawing_shows`, ... .  The
theorems (rocq/theories/Prop) relate the model functions to those notions; lemmas are in rocq/theories/Proof.
A theorem whose name ends in `_refuted` shows that a stronger reading of the English property is false of the code.

### Files of /repo/src/skspatial and where they are modelled

| file | model | not modelled |
|---|---|---|
| objects/_base_array.py | Model/BaseArray.v, comparison with any operand in Model/Compare.v, aliasing in Model/Heap.v | object/str/complex arrays |
| objects/vector.py | Model/Vector.v, Model/Norms.v (norm(ord)), Model/Int64.v, Model/Plotter.v | norm(axis=) with a tuple |
| objects/point.py, points.py | Model/Points.v, Model/Plotter.v | - |
| objects/_base_line_plane.py, line.py, plane.py | Model/Line.v, Model/Plane.v, Model/Repr.v (all `__repr__`), Model/Plotter.v | the text of arrays and numbers (parameters of the model) |
| objects/line_segment.py | Model/LineSegment.v, Model/Plotter.v | - |
| objects/_base_sphere.py, circle.py, sphere.py | Model/Sphere.v, Model/Plotter.v | - |
| objects/triangle.py, measurement.py | Model/Triangle.v, Model/Plotter.v | `multiple` with names of methods that are not one-argument vertex/side methods |
| objects/cylinder.py | Model/Cylinder.v, Model/Plotter.v | the iteration of scipy's minimiser |
| objects/_mixins.py, _functions.py, transformation.py | Model/Functions.v | the decorator `np_float` (identity on float values) |
| objects/_base_spatial.py, plotting.py | Model/Plotter.v | what matplotlib does with the calls; keyword styles |
| typing.py, _version, docs, examples | - | no run-time behaviour |

## 2. Not modelled

What matplotlib does after receiving the coordinates; numpy dtypes other than float64 and int64;
complex/object/string arrays; numpy warnings; the iteration of scipy.optimize.minimize; user subclasses; threads;
numpy's order of summation in float64 as such (the float theorems compute sums in one fixed order; C82 proves the
accuracy bounds for every order and for fused multiply-adds).  The float instance has no transcendental functions of its own: sin, cos, acos,
atan2 and pi come from a parameter record `Trig`.

Rounding errors are absent from the geometric theorems (they are about exact arithmetic); C69, C70, C73, C82 and the `_refuted`
theorems say what machine numbers add.

## 3. Trusted base

* Coq 8.16.1 kernel (the build is re-checked with coqchk), including its primitive 63-bit integers and floats.
* The faithfulness of the model to /repo: each definition cites file and lines.
* Axioms.  None is declared in this development; `Print Assumptions` follows every property theorem in the sources, and
  the result for each theorem is listed in section 5 with these classes:
  - **N**: closed under the global context (no axiom).
  - **R**: the standard library's reals: ClassicalDedekindReals.sig_forall_dec, ClassicalDedekindReals.sig_not_dec,
    FunctionalExtensionality.functional_extensionality_dep (or a subset).
  - **RC**: R and Classical_Prop.classic.
  - **RE**: RC and ClassicalEpsilon.constructive_indefinite_description (standard library; used to build the
    ideal linear algebra routines that witness satisfiability).
  - **P**: only the primitive types and operations of Coq's PrimFloat/PrimInt63 (no axiom about them).
  - **F**: RC, P and some of the specification axioms of Coq.Floats.FloatAxioms (Prim2SF_valid, SF2Prim_Prim2SF, Prim2SF_SF2Prim,
    opp/abs/eqb/ltb/leb/compare/classify/mul/add/sub/div/sqrt_spec) and of Coq's Uint63.
* Libraries used for proofs: the standard library; Coquelicot (integrals of C52 only), Flocq (C70, C73).  They contribute no
  axiom of their own.

## 4. Plan per property

* **C01** Point/Vector construction accepts exactly finite, non-empty 1D data — nested inputs `nd` with shape inference; ctor modelled branch by branch; iff theorem by case analysis on shape; values by induction on lists.
* **C02** Points construction accepts exactly finite, non-empty rectangular 2D data — same `nd` model for 2D.
* **C03** set_dimension pads with zeros and never loses data — lists with zero padding; induction on lists.
* **C04** is_equal is exact equality and is_close a reflexive, symmetric tolerance relation — math.isclose modelled as in CPython; iff over R, non-transitivity by witness; np.vectorize broadcasting of nested sequences of any depth (Model/Compare.v) against an index-based specification (Spec/Compare.v).
* **C05** Which objects are isolated from the caller's array — heap of buffers with object handles; invariant over arbitrary operation lists (induction over history); refutation witness for Point/Vector.
* **C06** Only round and item assignment mutate; every query leaves all objects unchanged — same heap; frame theorem per operation lifted to histories.
* **C07** Vector.from_points is the displacement — real vector algebra on lists.
* **C08** norm and unit — real algebra, Cauchy-Schwarz by discriminant on lists.
* **C09** is_zero and is_perpendicular — isclose unfolding.
* **C10** cross product — destruct to 3 coordinates, ring/nra.
* **C11** cosine_similarity — Cauchy-Schwarz incl. equality case; float clip by PrimFloat spec lemmas.
* **C12** angle_between — stdlib acos.
* **C13** angle_signed — own atan2 definition over R with characterising lemma (polar decomposition).
* **C14** angle_signed_3d — reduces to C13 polar lemma and Lagrange identity.
* **C15** is_parallel — isclose + Cauchy-Schwarz equality.
* **C16** side_vector / Line.side_point orientation — sign of 2x2 determinant.
* **C17** scalar_projection and project_vector — projection algebra.
* **C18** different_direction — exact over R given default isclose; quantitative.
* **C19** Point.distance_point is a metric — metric from C08.
* **C20** centroid and mean_center — sums over lists; Permutation.
* **C21** normalize_distance — fold max.
* **C22** unique — insertion sort + dedup; StronglySorted/NoDup; uniqueness of sorted lists.
* **C23** affine_rank and the concurrent/collinear/coplanar tests — SVD oracle used at one argument with svd_spec; rank facts proved via finite sums.
* **C24** transform_coordinates / Line.transform_points — matmul as dot products.
* **C25** Line construction — ctor characterisation.
* **C26** Line.project_point is the nearest point — Pythagoras.
* **C27** Line batch methods agree with the single-point ones — batch = map of single.
* **C28** Line.distance_point / contains_point — from C26.
* **C29** Line/Plane is_close — set equality of lines/planes.
* **C30** Line.is_coplanar — via C23.
* **C31** Line.intersect_line — 3D algebra.
* **C32** Line.distance_line — 3D algebra + minimisation; near-parallel refutation by concrete reals.
* **C33** Line.best_fit is the least-squares line — svd_spec: sum of squares along unit vector bounded by S0^2 (finite sums).
* **C34** Plane construction — cross product facts.
* **C35** Plane.cartesian — algebra.
* **C36** Plane.project_point(s) is the nearest point — Pythagoras.
* **C37** Plane distances and side_point — algebra.
* **C38** Plane.project_vector / project_line — algebra.
* **C39** Plane.intersect_line — field.
* **C40** Plane.intersect_plane — solver oracle A x = y at the argument used; 5x5 system unfolded; non-singularity proved.
* **C41** Plane.best_fit is the least-squares plane — svd_spec, smallest singular direction.
* **C42** Plane.to_mesh / to_points — field in three branches.
* **C43** LineSegment construction and contains_point — cosine -1 characterisation.
* **C44** LineSegment.intersect_line_segment — composition of C31, C43.
* **C45** Circle/Sphere construction, distance, contains, projection — triangle inequality.
* **C46** Circle.from_points — 3x3 determinants; field; uniqueness by linear algebra.
* **C47** Circle.intersect_circle — field/nra with sqrt.
* **C48** Circle.intersect_line — same.
* **C49** Sphere.intersect_line — same.
* **C50** Circle.best_fit / Sphere.best_fit — least-squares oracle (normal equations).
* **C51** Sphere.to_mesh / to_points — sin^2+cos^2.
* **C52** Areas and volumes are the integrals they claim to be — Coquelicot RInt / derivatives.
* **C53** Triangle construction and accessors — case analysis on strings; mapM induction.
* **C54** Triangle normal, area, perimeter — algebra.
* **C55** Triangle.angle — acos/atan argument via polar coordinates.
* **C56** Triangle.altitude / orthocenter — algebra.
* **C57** Triangle.classify / is_right — case analysis; refutation by concrete reals.
* **C58** Triangle.centroid — algebra.
* **C59** Cylinder construction and is_point_within — algebra.
* **C60** Cylinder.intersect_line (infinite) — quadratic roots.
* **C61** Cylinder.intersect_line (finite) — case analysis over root order.
* **C62** Cylinder.to_mesh / to_points — orthonormal frame.
* **C63** Cylinder.best_fit — optimiser is an oracle returning any parameters; what holds for whatever it returns is proved; that Powell finds the minimum is scipy's claim, not this library's.
* **C64** area_signed — induction over vertex lists.
* **C65** area_triangle / volume_tetrahedron — determinant algebra.
* **C66** Quadratic solving behind cylinder intersection — completing the square; rounding error.
* **C67** plotter dispatch and what is drawn — finite classes times nat.
* **C68** Arithmetic keeps the class invariant — array_wrap modelled on result shapes.
* **C69** Integer inputs wrap around — Z modulo 2^64.
* **C70** Double-precision facts that hold for every double — PrimFloat with stdlib FloatAxioms and Flocq; refutations by computation.
* **C71** round rounds to the nearest decimal, ties to even — nearest-even characterisation through up/Int_part.
* **C72** Which exceptions can escape — compositional predicate raises_only over the res monad, generic in the number type.
* **C73** Accuracy in double precision — Flocq error bounds, induction over the dot product (the order of the model; C82 covers every order).
* **C74** Results do not depend on the linear algebra backend — the specification of the backend determines singular values (Courant-Fischer) and solutions uniquely; equality of results by rewriting.
* **C75** Geometry does not depend on the coordinate system — a similarity is affine (polarisation, proved); every geometric quantity rewritten through it; ranks through the adjoint map and uniqueness of singular values; error cases compared case by case.
* **C76** Vector.norm(ord=...) — Minkowski inequality from the tangent form of convexity of x^p; real powers by exp/ln.
* **C77** Nan never appears out of nowhere — compositional predicate (never NonFinite) over the res monad on the exact reals; each denominator shown non-zero from the guard in front of it.
* **C78** Results depend continuously on the data — minimum distances to a common set are 1-Lipschitz; projections as orthogonal projections (Cauchy-Schwarz); angles via the component orthogonal to the middle vector.
* **C79** Loosening a tolerance only turns False into True — one relation between the outcomes with the tighter and the looser tolerance, preserved by the res monad, for every number type in which isclose is monotone; isclose proved monotone over the reals and over binary64 (monotone rounding, overflow to infinity).
* **C80** Different routes to the same answer agree — both sides unfolded to the closed forms proved for C26-C50 (projection formulas, shoelace/Gram formulas), uniqueness of the common point, of the plane through three points, of the circle and sphere (Cramer) through 3 and 4 points
* **C81** The text of an object is the constructor call that recreates it — strings; a reader of keyword calls (Spec/Repr.v) proved to read the text, by induction over texts with balanced brackets; constructors are idempotent on their own attributes
* **C82** Double-precision accuracy does not depend on the order of summation — inductive relation sums_to of all bracketings/permutations/FMA uses; error bound by induction on the derivation, superadditivity of the absolute term
* **C83** In double precision the default tolerance absorbs the rounding errors — model on FNum; Sterbenz lemma shows 1-c and 1+c are exact where they matter, then the cosine bound of C73 decides; perturbation bound of the cosine for the rounded differences; counterexample by evaluation in the kernel
* **C84** Projections and distances are accurate in double precision — forward error analysis on FNum: bounds for dot and norm (C73) are pushed through the quotient, the scaling and the sum; real-number lemma bounding the length of a vector of coordinate errors; exact foot characterised by on_line and orthogonality
* **C85** Circles, spheres, areas, volumes and centroids are accurate in double precision — forward error analysis on the IEEE instance of the model: componentwise bounds for differences, 2x2 determinants, sums and quotients, carried through the cross product (len_affine), the triple product and the column means; exact values from C65 (base times height), C53 and C20.
* **C86** Whole-number and fixed-point coordinates are computed exactly in double precision — model on FNum; each operation on multiples of 2^e with small enough multipliers is exact (Flocq round_generic), lists by induction; square roots of whole numbers stay 2^-26 away from other whole numbers, which separates rounded distances from radii; counterexample by evaluation in the kernel
* **C87** Circle.intersect_circle decides exactly and is accurate for whole-number and fixed-point circles in double precision — model on FNum; the three tests compare correctly rounded square roots of whole numbers with exact sums; when the circles touch every quantity up to the half chord is exact; when they cross, the product of the two whole-number factors of 16*area^2 is at least 3 r s, so the half chord is larger than the accumulated rounding error, which is propagated step by step
* **C88** Triangle.classify and is_right are exact for whole-number and fixed-point triangles in double precision — model on FNum; square roots of different whole numbers up to 2^28 differ by more than 1.86e-9 relative, sums of two differ from the third square by at least one unit, both beyond tolerance plus rounding; equality within rounding is far inside the tolerance; counterexamples by evaluation in the kernel
* **C89** Batch methods reject ragged and empty point lists and return one entry per point — Batch.v: case split on rectangularity of the rows, then lengths through mapM; any number type.
* **C90** Sphere.intersect_line in double precision — SphereHits.v: forward error analysis of the discriminant and of each coordinate on top of C73/C84; on grids the discriminant times the squared direction length is a whole number, so it cannot be small without being zero.
* **C91** Circle.intersect_line in double precision — CircleHits.v: the same for the two-point form used by Circle; since p + u is rounded at the scale of p, all errors carry a power of the coordinate bound B, and the order of the two results is only fixed when the y-component of the direction is zero or not tiny.
* **C92** Pairs of lines with whole-number coordinates in double precision — GridLines.v: for grid vectors that are not parallel the integers (v.v)(w.w) and (v.w)^2 differ by at least 1, so 1-|cos| is at least 2^-29, above the default tolerance plus the rounding error bound of C83; the cross products and the numerator of the intersection formula are exact, and the remaining four roundings are followed by hand; the exact nearest point comes from the real-number analysis behind C31.
* **C93** Crossing line segments with whole-number endpoints in double precision — GridSegments.v: the parameters of the crossing point along both segments are fractions with denominators of at most 2^14, so they are 0, 1 or at least 2^-14 away from both; the error bound of C92 is then so small relative to the distances to the endpoints that the cosine seen from the computed point is within 3e-10 of -1 between the endpoints and positive outside, which C83 turns into the decision of contains_point. The touching counterexample is computed.
* **C94** Planes with whole-number coordinates in double precision — GridPlanes.v: is_parallel is exact on grids (C92), dot and cross products are exact (C86); the distance between the line through an approximate solution and the true line is |b n - a m| / |n x m| for residuals a, b (Lagrange identity). The solver is a parameter; its residual rho on the exact system is a hypothesis of the theorem.
* **C95** round in double precision — FloatRounding.v: the model of np.rint adds and subtracts 2^52; in the binade [2^52, 2^53] rounding to nearest even is rounding to the nearest even integer, for every finite double. round(d) = multiply by 10^d (exact for d <= 15, which is why d is limited), rint, divide, each rounded once. The two refutations are closed by computation with the primitive floats.
* **C96** Lines and planes with whole-number coordinates compared in double precision — GridEquality.v: a grid point off a grid line or plane keeps a distance of 2^(e-7) (the Gram determinant is a non-zero whole number of steps); C84 bounds the rounding error of the computed distance and of contains_point; is_parallel is exact on grids (C92) and a tolerance up to 1e-9 does not change it because 1 - |cos| is computed exactly near 1 (Sterbenz). The default-tolerance failures are closed by computation.
* **C97** Circles, spheres and cylinders measured in double precision — FloatMeasures.v: the double math.pi is within 2^-53 relative error of the real PI (Machin-like series of Coq.Reals.Machin, 17 terms); products of quantities with known relative error and known size multiply the errors without overflow or underflow; the axis length is C73, the distances of is_point_within are C84. The boundary failure is closed by computation.
* **C98** Batch methods in double precision — FloatBatch.v: float multiplication is commutative (by the IEEE specification of Coq.Floats), so the two orders of the dot product give the same double; the batch projection scales the computed unit vector (C73) by the computed scalar projection (C84), the error of the product is bounded component by component and summed to a distance; the bitwise failures for lines are closed by computation. The order of summation inside the matrix product is the model order (see C82 for order independence).
* **C99** Triangles in double precision — FloatTriangles.v: each side is the distance of C73 and its difference vector is never taken for the zero vector; the perimeter adds two roundings of non-negative sums; area and centroid are the computations of C85 on the vertices; classify compares lengths whose relative error is below 1e-12 through the separation lemma for math.isclose of C88; the underflow failure is closed by computation.
* **C100** Starting direction of Cylinder.best_fit in double precision — FloatFit.v: for a double x between 2^-500 and 2^500 the rounded root of the rounded square of x is at least x (midpoint argument of Flocq: the true root lies above the midpoint between x and its predecessor, with powers of two treated apart); adding non-negative squares only increases the rounded sum, so each coordinate is at most the computed length and the quotient is at most 1; unit vectors come from C73. The SVD and the trigonometric functions are parameters.

## 5. Print Assumptions, per theorem

* C01: `C01_point_vector_accepts_exactly` N; `C01_point_vector_rejects` N; `C01_total` N
* C02: `C02_points_accepts_exactly` N; `C02_points_dimension` N; `C02_points_rejects` N
* C03: `C03_points_set_dimension` R; `C03_set_dimension_composes` R; `C03_set_dimension_isometry` R; `C03_set_dimension_pads` R; `C03_set_dimension_rejects_smaller` N
* C04: `C04_is_close_any_operand` R; `C04_is_close_any_raises` R; `C04_is_close_any_sym` R; `C04_is_close_broadcast` R; `C04_is_close_formula` R; `C04_is_close_instances` N; `C04_is_close_refl_sym` R; `C04_is_close_scalar` R; `C04_is_close_transitive_refuted` R; `C04_is_equal_any_operand` R; `C04_is_equal_exact` R; `C04_negative_tolerance_raises` R; `C04_points_is_close` R
* C05: `C05_composite_accepts` N; `C05_composite_built` N; `C05_composite_shares` N; `C05_field_shares` N; `C05_isolated` N; `C05_list_isolated` N; `C05_points_isolated` N; `C05_row_shares` N; `C05_shares` N; `C05_slice_shares` N; `C05_valid_forever_refuted` R
* C06: `C06_failure` N; `C06_old_objects` N; `C06_pure` N; `C06_pure_history` N; `C06_query_value` N; `C06_round` N; `C06_set_dimension` N; `C06_set_dimension_value` N; `C06_set_item` N; `C06_set_item2` N; `C06_to_array` N
* C07: `C07_from_points_laws` R; `C07_from_points_mismatch` N; `C07_from_points_unique_displacement` R; `C07_mismatch_always_raises_refuted` R
* C08: `C08_norm_is_length` R; `C08_unit` R; `C08_unit_raises_iff_zero` R
* C09: `C09_is_perpendicular_default` R; `C09_is_zero_default` R; `C09_perpendicular_mismatch` N; `C09_scale_invariant` R; `C09_with_tolerance` R
* C10: `C10_cross_bilinear` R; `C10_cross_rejects` R; `C10_cross_result` R; `C10_cross_right_handed` R
* C11: `C11_cosine` R; `C11_cosine_mismatch` R; `C11_cosine_raises` R; `C11_cosine_range_always` R; `C11_cosine_range_doubles` F (Prim2SF_SF2Prim, Prim2SF_valid, SF2Prim_Prim2SF, ltb_spec, opp_spec)
* C12: `C12_angle_between` RC; `C12_angle_between_raises` RC
* C13: `C13_angle_signed` RC; `C13_angle_signed_rejects` RC; `C13_zero_vector_raises_refuted` RC
* C14: `C14_angle_signed_3d` RC; `C14_rejects` RC
* C15: `C15_parallel_complete` R; `C15_parallel_default` R; `C15_parallel_default_angle` RC; `C15_parallel_mismatch` R; `C15_parallel_symmetric` R; `C15_parallel_zero_tolerance` R
* C16: `C16_line_side_point` R; `C16_side_vector` R; `C16_side_vector_angle` RC; `C16_side_vector_rejects` R
* C17: `C17_project_linear` R; `C17_project_vector` R; `C17_zero_vector` R
* C18: `C18_different_direction` R; `C18_different_direction_1d` R; `C18_different_direction_raises` R
* C19: `C19_dimension_checked_refuted` R; `C19_distance_is_metric` R; `C19_mismatch_raises` N
* C20: `C20_centroid_mean` R; `C20_centroid_permutation` R; `C20_centroid_translation` R; `C20_mean_center` R
* C21: `C21_normalize_all_zero` R; `C21_normalize_distance` R
* C22: `C22_unique` R
* C23: `C23_affine_rank_exact` RC; `C23_affine_rank_upper` RC; `C23_concurrent_default_exact` RC; `C23_corner_not_collinear` RC; `C23_default_sound` R; `C23_default_tests_sound` R; `C23_depends_on_set` R; `C23_implications` N; `C23_simplex_not_coplanar` RC; `C23_tolerance_sound` R; `C23_true_configurations` RC; `C23_zero_tolerance_exact` RC
* C24: `C24_line_transform_points` R; `C24_transform_coordinates` R; `C24_transform_orthonormal` R
* C25: `C25_from_points` R; `C25_from_slope` R; `C25_line_construction` R; `C25_to_point` R
* C26: `C26_project_point` R; `C26_project_point_mismatch` R
* C27: `C27_distance_points_rowwise` R; `C27_project_points_rowwise` R
* C28: `C28_distance_point_min` R; `C28_representation_independent` R
* C29: `C29_line_is_close` R; `C29_mixed_type_error` N; `C29_plane_is_close` R
* C30: `C30_coplanar_accepted` RC; `C30_default_sound` R; `C30_dimension_mismatch` R; `C30_meeting_or_parallel_accepted` RC; `C30_symmetric` R; `C30_type_error` N; `C30_zero_tolerance_exact` RC
* C31: `C31_errors` R; `C31_result_sound` R; `C31_returns_common_point` RC; `C31_unchecked_nearest` R
* C32: `C32_coplanar_lines` RC; `C32_distance_line` RC; `C32_high_dimension` R; `C32_near_parallel_refuted` R; `C32_parallel_lines` R; `C32_skew_lines` R
* C33: `C33_concurrent_rejected` RC; `C33_default_accepts` RC; `C33_line_best_fit` RC
* C34: `C34_from_points_collinear_never_ok` R; `C34_from_points_collinear_raises` RC; `C34_from_points_sound` R; `C34_from_vectors_sound` R; `C34_from_vectors_total` R; `C34_plane_construction` R
* C35: `C35_cartesian` R; `C35_cartesian_high_dim` N
* C36: `C36_project_point` R; `C36_project_points_rowwise` R
* C37: `C37_batch_rowwise` R; `C37_contains_tolerance` R; `C37_distances` R; `C37_representation_independent` R; `C37_side_point` R
* C38: `C38_project_line` R; `C38_project_line_any_tolerance` R; `C38_project_vector` R
* C39: `C39_intersect_line` R
* C40: `C40_intersect_plane` R; `C40_rejections` RC
* C41: `C41_plane_best_fit` RC; `C41_rejections` RC
* C42: `C42_mesh_on_plane` R; `C42_point_is_origin_refuted` R; `C42_to_mesh_low_high_dim` R; `C42_to_points` R
* C43: `C43_construction` R; `C43_contains_complete` R; `C43_contains_default` R; `C43_contains_default_near` R; `C43_contains_zero_tolerance` R; `C43_dimension_mismatch` R; `C43_mixed_dimensions_refuted` R
* C44: `C44_common_point_returned` RC; `C44_coplanar_segments` RC; `C44_rejections` R; `C44_result_sound` R
* C45: `C45_construction` R; `C45_distance_point` R; `C45_nan_radius` F (Prim2SF_SF2Prim, Prim2SF_valid, SF2Prim_Prim2SF, classify_spec); `C45_project_point` R
* C46: `C46_from_points` RC; `C46_not_2d` R; `C46_sound_for_any_rank_routine` RC
* C47: `C47_intersect_circle` R; `C47_raises_iff_disjoint` R
* C48: `C48_dimension_checked_refuted` R; `C48_high_dimension` R; `C48_intersect_line` R
* C49: `C49_dimension_mismatch` R; `C49_intersect_line` R
* C50: `C50_circle_best_fit` RC; `C50_circle_unique` RC; `C50_rejections` RC; `C50_sphere_best_fit` RC; `C50_sphere_unique` RC
* C51: `C51_mesh_on_sphere` RC; `C51_no_angles` RC; `C51_to_points` RC
* C52: `C52_circle` RC; `C52_cylinder` RC; `C52_scaling` RC; `C52_sphere` RC
* C53: `C53_accessors` RC; `C53_construction` RC; `C53_multiple` N
* C54: `C54_area_perimeter` RC; `C54_normal` RC; `C54_order_of_vertices` RC
* C55: `C55_angle` RC; `C55_angle_sum_and_sines` RC
* C56: `C56_altitude` RC; `C56_orthocenter_returns` RC; `C56_orthocenter_sound` RC; `C56_thin_triangle_refuted` RC
* C57: `C57_classify_counts` RC; `C57_classify_exact` RC; `C57_is_right` RC; `C57_is_right_exact` RC; `C57_two_close_pairs` RC; `C57_two_close_pairs_refuted` RC
* C58: `C58_centroid` RC
* C59: `C59_construction` R; `C59_from_points` R; `C59_is_point_within` R; `C59_nan_radius` P
* C60: `C60_intersect_infinite` R
* C61: `C61_intersect_finite` R
* C62: `C62_empty` RC; `C62_mesh_on_surface` RC; `C62_to_points` RC
* C63: `C63_covers_refuted` RE; `C63_exact_recovery` RC; `C63_fit` RC; `C63_global` RC; `C63_initial_direction` RC; `C63_objective` RC; `C63_rejects` RC; `C63_returns` RC
* C64: `C64_affine` R; `C64_cut` R; `C64_positive` R; `C64_rejects` R; `C64_rotation_reversal` R; `C64_shoelace` R; `C64_triangle` R
* C65: `C65_area` R; `C65_distances` R; `C65_permutation` R; `C65_rejects` R; `C65_volume` RC
* C66: `C66_intersect_rounded` R; `C66_rounded_coefficients` R; `C66_solve_quadratic` R
* C67: `C67_defaults` RC; `C67_dispatch` R; `C67_plot_all` R; `C67_segment_methods` RC; `C67_shows_2d` RC; `C67_shows_3d` RC; `C67_surfaces` RC
* C68: `C68_array_wrap_valid` N; `C68_array_wrap_wraps` N
* C69: `C69_area_signed` R; `C69_cross` N; `C69_distance_point` R; `C69_dot` N; `C69_from_points` N; `C69_is_perpendicular` R; `C69_is_zero` R; `C69_is_zero_exact` R; `C69_is_zero_refuted` R; `C69_line` R; `C69_nonvacuous` R; `C69_project_vector` R; `C69_side_refuted` R; `C69_side_vector` R; `C69_small_exact` R
* C70: `C70_angle_between_domain` P; `C70_contains_second_point_refuted` P; `C70_cosine_range` F (Prim2SF_SF2Prim, Prim2SF_valid, SF2Prim_Prim2SF, ltb_spec, opp_spec); `C70_distance_symmetric` F (Prim2SF_SF2Prim, Prim2SF_valid, SF2Prim_Prim2SF, abs_spec, classify_spec, mul_spec, sub_spec); `C70_is_close_reflexive` F (Prim2SF_SF2Prim, Prim2SF_valid, SF2Prim_Prim2SF, eqb_spec); `C70_is_close_symmetric` F (Prim2SF_SF2Prim, Prim2SF_valid, SF2Prim_Prim2SF, abs_spec, eqb_spec, sub_spec); `C70_line_contains_own_point` F (Prim2SF_SF2Prim, Prim2SF_valid, SF2Prim_Prim2SF, add_spec, classify_spec, div_spec, eqb_spec, mul_spec, sqrt_spec, sub_spec); `C70_nan_radius` P; `C70_nonvacuous` P; `C70_norm_nonneg` F (Prim2SF_SF2Prim, Prim2SF_valid, SF2Prim_Prim2SF, leb_spec, sqrt_spec); `C70_overflow_refuted` P; `C70_plane_contains_own_point` F (Prim2SF_SF2Prim, Prim2SF_valid, SF2Prim_Prim2SF, abs_spec, add_spec, classify_spec, div_spec, eqb_spec, mul_spec, sqrt_spec, sub_spec); `C70_tangent_circles_refuted` P; `C70_thin_triangle_angle_refuted` P; `C70_underflow_refuted` P; `C70_unit` F (Prim2SF_SF2Prim, Prim2SF_valid, SF2Prim_Prim2SF, add_spec, classify_spec, div_spec, eqb_spec, mul_spec, sqrt_spec)
* C71: `C71_round` R; `C71_round_idempotent` R; `C71_round_points` R; `C71_rounded_facts` R
* C72: `C72_arrays` N; `C72_balls` N; `C72_cylinders` N; `C72_functions` N; `C72_lines` N; `C72_multiple` N; `C72_nonvacuous` RE+P; `C72_planes` N; `C72_points` N; `C72_triangles` N; `C72_type_errors` N; `C72_vectors` N
* C73: `C73_cosine_accurate` F (Prim2SF_SF2Prim, Prim2SF_valid, SF2Prim_Prim2SF, add_spec, classify_spec, div_spec, eqb_spec, ltb_spec, mul_spec, opp_spec, sqrt_spec); `C73_distance_accurate` F (Prim2SF_SF2Prim, Prim2SF_valid, SF2Prim_Prim2SF, add_spec, classify_spec, mul_spec, opp_spec, sqrt_spec, sub_spec); `C73_dot_accurate` F (Prim2SF_SF2Prim, Prim2SF_valid, SF2Prim_Prim2SF, add_spec, mul_spec); `C73_nonvacuous` F (Prim2SF_SF2Prim, Prim2SF_valid, SF2Prim_Prim2SF); `C73_norm_accurate` F (Prim2SF_SF2Prim, Prim2SF_valid, SF2Prim_Prim2SF, add_spec, mul_spec, sqrt_spec); `C73_side_sound` F (Prim2SF_SF2Prim, Prim2SF_valid, SF2Prim_Prim2SF, classify_spec, eqb_spec, ltb_spec, mul_spec, opp_spec, sub_spec); `C73_unit_accurate` F (Prim2SF_SF2Prim, Prim2SF_valid, SF2Prim_Prim2SF, add_spec, classify_spec, div_spec, eqb_spec, mul_spec, sqrt_spec)
* C74: `C74_affine_rank` RC; `C74_ball_fits` RC; `C74_constructors` RC; `C74_histories` RC; `C74_intersect_plane` RC; `C74_line_pairs` RC; `C74_line_plane_fits` RC; `C74_predicates` RC
* C75: `C75_area_signed` R; `C75_area_triangle` R; `C75_ball_fits` RC; `C75_ball_new` R; `C75_balls` R; `C75_circle_circle` RC; `C75_circle_from_points` RC; `C75_circle_line` RC; `C75_cylinder_from_points` R; `C75_cylinder_line` R; `C75_cylinder_new` R; `C75_cylinders` RC; `C75_distance_line` RC; `C75_intersect_line` RC; `C75_intersect_plane` RC; `C75_line_fit` RC; `C75_line_pairs_tests` RC; `C75_lines` R; `C75_nonvacuous` RC; `C75_orthocenter` RC; `C75_plane_fit` RC; `C75_plane_line` RC; `C75_planes` R; `C75_points` RC; `C75_segment_construction_refuted` R; `C75_segment_contains` R; `C75_segment_intersect` RC; `C75_sphere_line` R; `C75_triangle_area` RC; `C75_triangle_new` RC; `C75_triangles` RC; `C75_vectors` RC; `C75_volume_tetrahedron` R
* C76: `C76_axis_keepdims` N; `C76_invariance` RC; `C76_nonvacuous` RC; `C76_norm_axioms` RC; `C76_ordering` RC; `C76_orders` RC; `C76_power` RC; `C76_quasi_refuted` RC
* C77: `C77_arrays` R; `C77_balls` RC; `C77_circle_from_points` RC; `C77_cylinders` RC; `C77_functions` R; `C77_lines` R; `C77_negative_tolerance` RC; `C77_nonvacuous` RE; `C77_planes` R; `C77_points` R; `C77_triangles` RC; `C77_vectors` RC
* C78: `C78_angle_triangle` RC; `C78_ball_distance` R; `C78_ball_project` R; `C78_ball_project_inside_refuted` R; `C78_centroid` R; `C78_line` R; `C78_line_base` R; `C78_nonvacuous` RC; `C78_norm` R; `C78_plane` R; `C78_plane_base` R; `C78_plane_project_vector` R; `C78_point_distance` R; `C78_project_vector` R; `C78_unit` R
* C79: `C79_classify_refuted` RC; `C79_guards` R; `C79_guards_double` F (Prim2SF_SF2Prim, Prim2SF_valid, SF2Prim_Prim2SF, abs_spec, classify_spec, leb_spec, ltb_spec, mul_spec); `C79_nonvacuous` F (Prim2SF_SF2Prim, Prim2SF_valid, SF2Prim_Prim2SF, classify_spec); `C79_project_line_refuted` R; `C79_ranks` R; `C79_ranks_double` F (Prim2SF_SF2Prim, Prim2SF_valid, SF2Prim_Prim2SF, leb_spec, ltb_spec); `C79_tests` R; `C79_tests_double` F (Prim2SF_SF2Prim, Prim2SF_valid, SF2Prim_Prim2SF, abs_spec, classify_spec, leb_spec, ltb_spec, mul_spec)
* C80: `C80_angle_signed` RC; `C80_area_by_line` R; `C80_circle_fit` RC; `C80_collinear` RC; `C80_coplanar` RC; `C80_distance` R; `C80_intersection_2d` R; `C80_line_as_plane` R; `C80_line_fit` RC; `C80_line_projection` R; `C80_line_through_two` RC; `C80_lines_coplanar` R; `C80_plane_fit` RC; `C80_plane_projection` R; `C80_plane_through_three` RC; `C80_sphere_fit` RC; `C80_sphere_projection` R; `C80_triangle` RC; `C80_vector_projection` R; `C80_volume_by_plane` R
* C81: `C81_distinguishes` N; `C81_reads_as_call` N; `C81_round_trip` N; `C81_same_text` N
* C82: `C82_cosine` F (Prim2SF_valid); `C82_distance` F (Prim2SF_SF2Prim, Prim2SF_valid, SF2Prim_Prim2SF, opp_spec); `C82_dot` F (Prim2SF_valid); `C82_model_order` F (Prim2SF_SF2Prim, Prim2SF_valid, SF2Prim_Prim2SF, add_spec, classify_spec, mul_spec, sqrt_spec, sub_spec); `C82_no_overflow` F (Prim2SF_valid); `C82_nonvacuous` F (Prim2SF_SF2Prim, Prim2SF_valid, SF2Prim_Prim2SF); `C82_norm` F (Prim2SF_valid); `C82_orders_differ` F (Prim2SF_SF2Prim, Prim2SF_valid, SF2Prim_Prim2SF, add_spec); `C82_orders_exist` RC; `C82_unit` F (Prim2SF_valid)
* C83: `C83_comparisons_exact` F (Prim2SF_SF2Prim, Prim2SF_valid, SF2Prim_Prim2SF, abs_spec, classify_spec, eqb_spec, leb_spec, mul_spec, opp_spec, sub_spec); `C83_is_parallel` F (Prim2SF_SF2Prim, Prim2SF_valid, SF2Prim_Prim2SF, abs_spec, add_spec, classify_spec, div_spec, eqb_spec, leb_spec, ltb_spec, mul_spec, opp_spec, sqrt_spec, sub_spec); `C83_is_perpendicular` F (Prim2SF_SF2Prim, Prim2SF_valid, SF2Prim_Prim2SF, abs_spec, add_spec, classify_spec, eqb_spec, leb_spec, mul_spec, sub_spec); `C83_parallel_raises` F (Prim2SF_SF2Prim, Prim2SF_valid, SF2Prim_Prim2SF, abs_spec, add_spec, classify_spec, div_spec, eqb_spec, leb_spec, ltb_spec, mul_spec, opp_spec, sqrt_spec, sub_spec); `C83_parallel_recognised` F (Prim2SF_SF2Prim, Prim2SF_valid, SF2Prim_Prim2SF, abs_spec, add_spec, classify_spec, div_spec, eqb_spec, leb_spec, ltb_spec, mul_spec, opp_spec, sqrt_spec, sub_spec); `C83_perpendicular_2d` F (Prim2SF_SF2Prim, Prim2SF_valid, SF2Prim_Prim2SF, abs_spec, add_spec, classify_spec, eqb_spec, leb_spec, mul_spec, sub_spec); `C83_perpendicular_3d_refuted` F (Prim2SF_SF2Prim, Prim2SF_valid, SF2Prim_Prim2SF); `C83_perpendicular_integers` F (Prim2SF_SF2Prim, Prim2SF_valid, SF2Prim_Prim2SF, abs_spec, add_spec, classify_spec, eqb_spec, leb_spec, mul_spec, sub_spec); `C83_segment_contains_point` F (Prim2SF_SF2Prim, Prim2SF_valid, SF2Prim_Prim2SF, abs_spec, add_spec, classify_spec, div_spec, eqb_spec, leb_spec, ltb_spec, mul_spec, opp_spec, sqrt_spec, sub_spec); `C83_segment_recognises` F (Prim2SF_SF2Prim, Prim2SF_valid, SF2Prim_Prim2SF, abs_spec, add_spec, classify_spec, div_spec, eqb_spec, leb_spec, ltb_spec, mul_spec, opp_spec, sqrt_spec, sub_spec)
* C84: `C84_line_contains_point` F (Prim2SF_SF2Prim, Prim2SF_valid, SF2Prim_Prim2SF, abs_spec, add_spec, classify_spec, div_spec, eqb_spec, leb_spec, ltb_spec, mul_spec, opp_spec, sqrt_spec, sub_spec); `C84_line_distance_point` F (Prim2SF_SF2Prim, Prim2SF_valid, SF2Prim_Prim2SF, add_spec, classify_spec, div_spec, eqb_spec, leb_spec, mul_spec, opp_spec, sqrt_spec, sub_spec); `C84_line_project_point` F (Prim2SF_SF2Prim, Prim2SF_valid, SF2Prim_Prim2SF, add_spec, classify_spec, div_spec, eqb_spec, mul_spec, opp_spec, sub_spec); `C84_plane_contains_point` F (Prim2SF_SF2Prim, Prim2SF_valid, SF2Prim_Prim2SF, abs_spec, add_spec, classify_spec, div_spec, eqb_spec, leb_spec, ltb_spec, mul_spec, opp_spec, sqrt_spec, sub_spec); `C84_plane_distance` F (Prim2SF_SF2Prim, Prim2SF_valid, SF2Prim_Prim2SF, abs_spec, add_spec, classify_spec, div_spec, eqb_spec, ltb_spec, mul_spec, opp_spec, sqrt_spec, sub_spec); `C84_plane_distance_signed` F (Prim2SF_SF2Prim, Prim2SF_valid, SF2Prim_Prim2SF, add_spec, classify_spec, div_spec, eqb_spec, mul_spec, opp_spec, sqrt_spec, sub_spec); `C84_plane_project_point` F (Prim2SF_SF2Prim, Prim2SF_valid, SF2Prim_Prim2SF, add_spec, classify_spec, div_spec, eqb_spec, mul_spec, opp_spec, sub_spec); `C84_project_vector` F (Prim2SF_SF2Prim, Prim2SF_valid, SF2Prim_Prim2SF, add_spec, classify_spec, div_spec, mul_spec); `C84_scalar_projection` F (Prim2SF_SF2Prim, Prim2SF_valid, SF2Prim_Prim2SF, add_spec, classify_spec, div_spec, eqb_spec, mul_spec, sqrt_spec)
* C85: `C85_area_triangle` F (Prim2SF_SF2Prim, Prim2SF_valid, SF2Prim_Prim2SF, add_spec, classify_spec, mul_spec, opp_spec, sqrt_spec, sub_spec); `C85_ball_contains` F (Prim2SF_SF2Prim, Prim2SF_valid, SF2Prim_Prim2SF, abs_spec, add_spec, classify_spec, eqb_spec, leb_spec, ltb_spec, mul_spec, opp_spec, sqrt_spec, sub_spec); `C85_ball_distance` F (Prim2SF_SF2Prim, Prim2SF_valid, SF2Prim_Prim2SF, abs_spec, add_spec, classify_spec, mul_spec, opp_spec, sqrt_spec, sub_spec); `C85_ball_project_point` F (Prim2SF_SF2Prim, Prim2SF_valid, SF2Prim_Prim2SF, add_spec, classify_spec, div_spec, eqb_spec, leb_spec, mul_spec, opp_spec, sqrt_spec, sub_spec); `C85_centroid` F (Prim2SF_SF2Prim, Prim2SF_valid, SF2Prim_Prim2SF, add_spec, classify_spec, div_spec, of_uint63_spec, add_spec, eqb_correct, eqb_refl, leb_spec, lor_spec, lsl_spec, lsr_spec, ltb_spec, of_to_Z, sub_spec); `C85_volume_tetrahedron` F (Prim2SF_SF2Prim, Prim2SF_valid, SF2Prim_Prim2SF, abs_spec, add_spec, classify_spec, mul_spec, opp_spec, sub_spec)
* C86: `C86_any_order` F (Prim2SF_valid); `C86_area_signed` F (Prim2SF_SF2Prim, Prim2SF_valid, SF2Prim_Prim2SF, add_spec, classify_spec, mul_spec, sub_spec); `C86_area_triangle` F (Prim2SF_SF2Prim, Prim2SF_valid, SF2Prim_Prim2SF, add_spec, classify_spec, mul_spec, sqrt_spec, sub_spec); `C86_ball_contains` F (Prim2SF_SF2Prim, Prim2SF_valid, SF2Prim_Prim2SF, abs_spec, add_spec, classify_spec, eqb_spec, leb_spec, mul_spec, opp_spec, sqrt_spec, sub_spec); `C86_cross` F (Prim2SF_SF2Prim, Prim2SF_valid, SF2Prim_Prim2SF, classify_spec, mul_spec, sub_spec); `C86_distance` F (Prim2SF_SF2Prim, Prim2SF_valid, SF2Prim_Prim2SF, add_spec, classify_spec, mul_spec, sqrt_spec, sub_spec); `C86_dot` F (Prim2SF_SF2Prim, Prim2SF_valid, SF2Prim_Prim2SF, add_spec, mul_spec); `C86_from_points` F (Prim2SF_SF2Prim, Prim2SF_valid, SF2Prim_Prim2SF, classify_spec, sub_spec); `C86_is_perpendicular` F (Prim2SF_SF2Prim, Prim2SF_valid, SF2Prim_Prim2SF, abs_spec, add_spec, classify_spec, eqb_spec, leb_spec, mul_spec, sub_spec); `C86_is_zero` F (Prim2SF_SF2Prim, Prim2SF_valid, SF2Prim_Prim2SF, abs_spec, add_spec, classify_spec, eqb_spec, leb_spec, mul_spec, sub_spec); `C86_line_from_points` F (Prim2SF_SF2Prim, Prim2SF_valid, SF2Prim_Prim2SF, abs_spec, add_spec, classify_spec, eqb_spec, leb_spec, mul_spec, sub_spec); `C86_norm` F (Prim2SF_SF2Prim, Prim2SF_valid, SF2Prim_Prim2SF, add_spec, mul_spec, sqrt_spec); `C86_orientation` F (Prim2SF_SF2Prim, Prim2SF_valid, SF2Prim_Prim2SF, abs_spec, add_spec, classify_spec, eqb_spec, leb_spec, ltb_spec, mul_spec, sub_spec); `C86_plane_cartesian` F (Prim2SF_SF2Prim, Prim2SF_valid, SF2Prim_Prim2SF, add_spec, classify_spec, eqb_spec, mul_spec, opp_spec); `C86_plane_from_vectors` F (Prim2SF_SF2Prim, Prim2SF_valid, SF2Prim_Prim2SF, classify_spec, eqb_spec, mul_spec, sub_spec); `C86_plane_intersect_line` F (Prim2SF_SF2Prim, Prim2SF_valid, SF2Prim_Prim2SF, abs_spec, add_spec, classify_spec, div_spec, eqb_spec, leb_spec, mul_spec, opp_spec, sub_spec); `C86_plane_side_point` F (Prim2SF_SF2Prim, Prim2SF_valid, SF2Prim_Prim2SF, abs_spec, add_spec, classify_spec, div_spec, eqb_spec, ltb_spec, mul_spec, opp_spec, sqrt_spec, sub_spec); `C86_plane_side_point_on_plane_refuted` F (Prim2SF_SF2Prim, Prim2SF_valid, SF2Prim_Prim2SF); `C86_volume_tetrahedron` F (Prim2SF_SF2Prim, Prim2SF_valid, SF2Prim_Prim2SF, abs_spec, add_spec, classify_spec, mul_spec, sub_spec)
* C87: `C87_rejections` F (Prim2SF_SF2Prim, Prim2SF_valid, SF2Prim_Prim2SF, abs_spec, add_spec, classify_spec, eqb_spec, leb_spec, ltb_spec, mul_spec, sqrt_spec, sub_spec); `C87_secant` F (Prim2SF_SF2Prim, Prim2SF_valid, SF2Prim_Prim2SF, abs_spec, add_spec, classify_spec, div_spec, eqb_spec, leb_spec, ltb_spec, mul_spec, of_uint63_spec, opp_spec, sqrt_spec, sub_spec, add_spec, eqb_correct, eqb_refl, leb_spec, lor_spec, lsl_spec, lsr_spec, ltb_spec, of_to_Z, sub_spec); `C87_tangent` F (Prim2SF_SF2Prim, Prim2SF_valid, SF2Prim_Prim2SF, abs_spec, add_spec, classify_spec, div_spec, eqb_spec, leb_spec, ltb_spec, mul_spec, of_uint63_spec, opp_spec, sqrt_spec, sub_spec, add_spec, eqb_correct, eqb_refl, leb_spec, lor_spec, lsl_spec, lsr_spec, ltb_spec, of_to_Z, sub_spec)
* C88: `C88_classify` F (Prim2SF_SF2Prim, Prim2SF_valid, SF2Prim_Prim2SF, abs_spec, add_spec, classify_spec, eqb_spec, leb_spec, mul_spec, opp_spec, sqrt_spec, sub_spec); `C88_is_right` F (Prim2SF_SF2Prim, Prim2SF_valid, SF2Prim_Prim2SF, abs_spec, add_spec, classify_spec, eqb_spec, leb_spec, ltb_spec, mul_spec, opp_spec, sqrt_spec, sub_spec); `C88_large_refuted` F (Prim2SF_SF2Prim, Prim2SF_valid, SF2Prim_Prim2SF, classify_spec)
* C89: `C89_rejects` N; `C89_rejects_basis` N; `C89_shapes` N
* C90: `C90_sphere_grid` F (Prim2SF_SF2Prim, Prim2SF_valid, SF2Prim_Prim2SF, add_spec, classify_spec, div_spec, eqb_spec, leb_spec, ltb_spec, mul_spec, opp_spec, sqrt_spec, sub_spec); `C90_sphere_intersect_line` F (Prim2SF_SF2Prim, Prim2SF_valid, SF2Prim_Prim2SF, add_spec, classify_spec, div_spec, eqb_spec, ltb_spec, mul_spec, opp_spec, sqrt_spec, sub_spec); `C90_tangent_refuted` R+P
* C91: `C91_circle_grid` F (Prim2SF_SF2Prim, Prim2SF_valid, SF2Prim_Prim2SF, abs_spec, add_spec, classify_spec, div_spec, eqb_spec, leb_spec, ltb_spec, mul_spec, opp_spec, sqrt_spec, sub_spec); `C91_circle_intersect_line` F (Prim2SF_SF2Prim, Prim2SF_valid, SF2Prim_Prim2SF, abs_spec, add_spec, classify_spec, div_spec, eqb_spec, leb_spec, ltb_spec, mul_spec, opp_spec, sqrt_spec, sub_spec); `C91_far_refuted` F (Prim2SF_SF2Prim, Prim2SF_valid, SF2Prim_Prim2SF); `C91_tangent_refuted` R+P
* C92: `C92_distance_line` F (Prim2SF_SF2Prim, Prim2SF_valid, SF2Prim_Prim2SF, abs_spec, add_spec, classify_spec, div_spec, eqb_spec, leb_spec, ltb_spec, mul_spec, opp_spec, sqrt_spec, sub_spec); `C92_intersect_line` F (Prim2SF_SF2Prim, Prim2SF_valid, SF2Prim_Prim2SF, abs_spec, add_spec, classify_spec, div_spec, eqb_spec, leb_spec, ltb_spec, mul_spec, opp_spec, sqrt_spec, sub_spec); `C92_is_parallel` F (Prim2SF_SF2Prim, Prim2SF_valid, SF2Prim_Prim2SF, abs_spec, add_spec, classify_spec, div_spec, eqb_spec, leb_spec, ltb_spec, mul_spec, opp_spec, sqrt_spec, sub_spec); `C92_nonvacuous` F (Prim2SF_SF2Prim, Prim2SF_valid, SF2Prim_Prim2SF); `C92_parallel_refuted` F (Prim2SF_SF2Prim, Prim2SF_valid, SF2Prim_Prim2SF)
* C93: `C93_intersect` F (Prim2SF_SF2Prim, Prim2SF_valid, SF2Prim_Prim2SF, abs_spec, add_spec, classify_spec, div_spec, eqb_spec, leb_spec, ltb_spec, mul_spec, opp_spec, sqrt_spec, sub_spec); `C93_nonvacuous` F (Prim2SF_SF2Prim, Prim2SF_valid, SF2Prim_Prim2SF); `C93_touching_refuted` F (Prim2SF_SF2Prim, Prim2SF_valid, SF2Prim_Prim2SF)
* C94: `C94_from_points` F (Prim2SF_SF2Prim, Prim2SF_valid, SF2Prim_Prim2SF, abs_spec, add_spec, classify_spec, div_spec, eqb_spec, leb_spec, ltb_spec, mul_spec, opp_spec, sqrt_spec, sub_spec); `C94_from_vectors` F (Prim2SF_SF2Prim, Prim2SF_valid, SF2Prim_Prim2SF, abs_spec, add_spec, classify_spec, div_spec, eqb_spec, leb_spec, ltb_spec, mul_spec, opp_spec, sqrt_spec, sub_spec); `C94_intersect_plane` F (Prim2SF_SF2Prim, Prim2SF_valid, SF2Prim_Prim2SF, abs_spec, add_spec, classify_spec, div_spec, eqb_spec, leb_spec, ltb_spec, mul_spec, opp_spec, sqrt_spec, sub_spec); `C94_nonvacuous` F (Prim2SF_SF2Prim, Prim2SF_valid, SF2Prim_Prim2SF)
* C95: `C95_idempotent` F (Prim2SF_SF2Prim, Prim2SF_valid, SF2Prim_Prim2SF, abs_spec, add_spec, div_spec, ltb_spec, mul_spec, of_uint63_spec, sub_spec, add_spec, eqb_correct, eqb_refl, leb_spec, lor_spec, lsl_spec, lsr_spec, ltb_spec, of_to_Z, sub_spec); `C95_nearest_refuted` F (Prim2SF_SF2Prim, Prim2SF_valid, SF2Prim_Prim2SF); `C95_nonvacuous` F (Prim2SF_SF2Prim, Prim2SF_valid, SF2Prim_Prim2SF); `C95_overflow_refuted` F (Prim2SF_valid); `C95_round_decimals` F (Prim2SF_SF2Prim, Prim2SF_valid, SF2Prim_Prim2SF, abs_spec, add_spec, div_spec, ltb_spec, mul_spec, of_uint63_spec, sub_spec, add_spec, eqb_correct, eqb_refl, leb_spec, lor_spec, lsl_spec, lsr_spec, ltb_spec, of_to_Z, sub_spec); `C95_round_whole` F (Prim2SF_SF2Prim, Prim2SF_valid, SF2Prim_Prim2SF, abs_spec, add_spec, ltb_spec, of_uint63_spec, sub_spec, add_spec, eqb_correct, eqb_refl, leb_spec, lor_spec, lsl_spec, lsr_spec, ltb_spec, of_to_Z, sub_spec)
* C96: `C96_default_tolerance_refuted` F (Prim2SF_SF2Prim, Prim2SF_valid, SF2Prim_Prim2SF); `C96_is_parallel` F (Prim2SF_SF2Prim, Prim2SF_valid, SF2Prim_Prim2SF, abs_spec, add_spec, classify_spec, div_spec, eqb_spec, leb_spec, ltb_spec, mul_spec, opp_spec, sqrt_spec, sub_spec); `C96_line_is_close` F (Prim2SF_SF2Prim, Prim2SF_valid, SF2Prim_Prim2SF, abs_spec, add_spec, classify_spec, div_spec, eqb_spec, leb_spec, ltb_spec, mul_spec, opp_spec, sqrt_spec, sub_spec); `C96_nonvacuous` F (Prim2SF_SF2Prim, Prim2SF_valid, SF2Prim_Prim2SF); `C96_plane_is_close` F (Prim2SF_SF2Prim, Prim2SF_valid, SF2Prim_Prim2SF, abs_spec, add_spec, classify_spec, div_spec, eqb_spec, leb_spec, ltb_spec, mul_spec, opp_spec, sqrt_spec, sub_spec)
* C97: `C97_boundary_refuted` F (Prim2SF_SF2Prim, Prim2SF_valid, SF2Prim_Prim2SF); `C97_circle` F (Prim2SF_SF2Prim, Prim2SF_valid, SF2Prim_Prim2SF, mul_spec, of_uint63_spec, add_spec, eqb_correct, eqb_refl, leb_spec, lor_spec, lsl_spec, lsr_spec, ltb_spec, of_to_Z, sub_spec); `C97_cylinder` F (Prim2SF_SF2Prim, Prim2SF_valid, SF2Prim_Prim2SF, add_spec, classify_spec, eqb_spec, mul_spec, of_uint63_spec, sqrt_spec, add_spec, eqb_correct, eqb_refl, leb_spec, lor_spec, lsl_spec, lsr_spec, ltb_spec, of_to_Z, sub_spec); `C97_is_point_within` F (Prim2SF_SF2Prim, Prim2SF_valid, SF2Prim_Prim2SF, add_spec, classify_spec, div_spec, eqb_spec, leb_spec, mul_spec, opp_spec, sqrt_spec, sub_spec); `C97_nonvacuous` F (Prim2SF_SF2Prim, Prim2SF_valid, SF2Prim_Prim2SF); `C97_sphere` F (Prim2SF_SF2Prim, Prim2SF_valid, SF2Prim_Prim2SF, div_spec, mul_spec, of_uint63_spec, add_spec, eqb_correct, eqb_refl, leb_spec, lor_spec, lsl_spec, lsr_spec, ltb_spec, of_to_Z, sub_spec)
* C98: `C98_line_bitwise_refuted` F (Prim2SF_SF2Prim, Prim2SF_valid); `C98_line_distance_points` F (Prim2SF_SF2Prim, Prim2SF_valid, SF2Prim_Prim2SF, add_spec, classify_spec, div_spec, eqb_spec, leb_spec, mul_spec, opp_spec, sqrt_spec, sub_spec); `C98_line_project_points` F (Prim2SF_SF2Prim, Prim2SF_valid, SF2Prim_Prim2SF, add_spec, classify_spec, div_spec, eqb_spec, mul_spec, opp_spec, sqrt_spec, sub_spec); `C98_nonvacuous` F (Prim2SF_SF2Prim, Prim2SF_valid, SF2Prim_Prim2SF); `C98_plane_distance_points` F (SF2Prim_Prim2SF, mul_spec); `C98_plane_distance_points_accurate` F (Prim2SF_SF2Prim, Prim2SF_valid, SF2Prim_Prim2SF, add_spec, classify_spec, div_spec, eqb_spec, mul_spec, opp_spec, sqrt_spec, sub_spec); `C98_plane_project_points` F (Prim2SF_SF2Prim, Prim2SF_valid, SF2Prim_Prim2SF, add_spec, classify_spec, div_spec, eqb_spec, mul_spec, opp_spec, sqrt_spec, sub_spec)
* C99: `C99_area` F (Prim2SF_SF2Prim, Prim2SF_valid, SF2Prim_Prim2SF, add_spec, classify_spec, mul_spec, opp_spec, sqrt_spec, sub_spec); `C99_centroid` F (Prim2SF_SF2Prim, Prim2SF_valid, SF2Prim_Prim2SF, add_spec, classify_spec, div_spec, of_uint63_spec, add_spec, eqb_correct, eqb_refl, leb_spec, lor_spec, lsl_spec, lsr_spec, ltb_spec, of_to_Z, sub_spec); `C99_classify` F (Prim2SF_SF2Prim, Prim2SF_valid, SF2Prim_Prim2SF, abs_spec, add_spec, classify_spec, eqb_spec, leb_spec, mul_spec, opp_spec, sqrt_spec, sub_spec); `C99_length` F (Prim2SF_SF2Prim, Prim2SF_valid, SF2Prim_Prim2SF, abs_spec, add_spec, classify_spec, eqb_spec, leb_spec, mul_spec, opp_spec, sqrt_spec, sub_spec); `C99_perimeter` F (Prim2SF_SF2Prim, Prim2SF_valid, SF2Prim_Prim2SF, abs_spec, add_spec, classify_spec, eqb_spec, leb_spec, mul_spec, opp_spec, sqrt_spec, sub_spec); `C99_tiny_side_refuted` F (Prim2SF_SF2Prim, Prim2SF_valid, SF2Prim_Prim2SF, eqb_spec)
* C100: `C100_initial_direction` F (Prim2SF_SF2Prim, Prim2SF_valid, SF2Prim_Prim2SF, abs_spec, add_spec, classify_spec, div_spec, eqb_spec, leb_spec, ltb_spec, mul_spec, opp_spec, sqrt_spec, sub_spec); `C100_spherical` F (Prim2SF_SF2Prim, Prim2SF_valid, SF2Prim_Prim2SF, abs_spec, add_spec, classify_spec, div_spec, eqb_spec, leb_spec, ltb_spec, mul_spec, opp_spec, sqrt_spec, sub_spec); `C100_tiny_refuted` P
