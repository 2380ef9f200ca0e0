{"id": "C01", "title": "Point/Vector construction accepts exactly finite, non-empty 1D data", "statement": "Point(array) and Vector(array) return an object holding exactly the given values in the given order, with dimension equal to the number of values, if and only if the input is a non-empty, one-dimensional, rectangular array of finite numbers; every other nested input raises ValueError (ragged, not 1D -> 'The array must be 1D.', empty -> 'The array must not be empty.', nan/inf -> 'The values must all be finite.').", "quantifier": "all nested array inputs of any depth and length, all values including nan and infinities", "why_tests_cant": "the set of nested inputs is infinite; a test can only try some depths, lengths and positions of a bad value", "anchors": ["src/skspatial/objects/_base_array.py:_BaseArray.__new__", "src/skspatial/objects/_base_array.py:_BaseArray1D.__new__"]}
{"id": "C02", "title": "Points construction accepts exactly finite, non-empty rectangular 2D data", "statement": "Points(array) succeeds exactly on non-empty rectangular 2D arrays of finite numbers, keeps the rows unchanged, and sets dimension to the common row length; any other nested input raises ValueError with the documented message.", "quantifier": "all nested array inputs of any depth and size", "why_tests_cant": "infinitely many shapes", "anchors": ["src/skspatial/objects/_base_array.py:_BaseArray2D.__new__", "src/skspatial/objects/points.py:Points"]}
{"id": "C03", "title": "set_dimension pads with zeros and never loses data", "statement": "For Point, Vector and Points, set_dimension(dim) returns an object of dimension dim whose first coordinates are the old ones and whose remaining coordinates are zero when dim >= dimension, raises ValueError when dim < dimension; it is idempotent, composes, and preserves distances, norms and dot products.", "quantifier": "all objects of every dimension and all target dimensions", "why_tests_cant": "unbounded dimension", "anchors": ["src/skspatial/objects/_base_array.py:_BaseArray1D.set_dimension", "src/skspatial/objects/_base_array.py:_BaseArray2D.set_dimension"]}
{"id": "C04", "title": "is_equal is exact equality and is_close a reflexive, symmetric tolerance relation", "statement": "is_equal is True exactly when shapes and all values agree (a ragged or differently shaped operand is simply unequal). is_close on equal-shape Point/Vector/Points is True exactly when every coordinate pair satisfies |a-b| <= max(rel_tol*max(|a|,|b|), abs_tol); it is reflexive and symmetric, implied by is_equal, and with both tolerances zero coincides with is_equal; it is not transitive. Against any other array_like operand - a number, or an array with any number of axes - numpy broadcasting decides which values meet: axes of length one are repeated, missing leading axes are added, and is_close is True exactly when all values that meet are close, so arrays of different shape can be 'close'; incompatible, empty or ragged operands and negative tolerances raise ValueError.", "quantifier": "all arrays, all array_like operands, all tolerances", "why_tests_cant": "tolerances and values range over a continuum", "anchors": ["src/skspatial/objects/_base_array.py:_BaseArray.is_close", "src/skspatial/objects/_base_array.py:_BaseArray.is_equal", "src/skspatial/_functions.py:_allclose"]}
{"id": "C05", "title": "Which objects are isolated from the caller's array", "statement": "An object created by an operation that only receives lists, or by Points(...), to_array or a computation, never changes unless a later item assignment or round is applied to it or to an object that shares its memory; a Points object therefore never changes when the caller mutates the array it was built from. A Point or Vector built from an ndarray, and every Line/Plane/Circle/Sphere/Triangle/Cylinder/LineSegment attribute built from one, stays equal to that array for ever, so writing to the array changes the object and can even break its constructor's guarantees (a Line with zero direction). When it is made, such an object shows exactly the numbers of its arguments, and it is made if and only if the constructor of its class accepts these numbers, whether they come from lists or from existing arrays. A slice of an array and a row of a 2D array show the chosen items of that array for ever.", "quantifier": "all histories of array writes, constructions, in-place rounding and queries", "why_tests_cant": "histories are unbounded", "anchors": ["src/skspatial/objects/_base_array.py:_BaseArray1D.__new__", "src/skspatial/objects/_base_array.py:_BaseArray2D.__new__"]}
{"id": "C06", "title": "Only round and item assignment mutate; every query leaves all objects unchanged", "statement": "Except for item assignment and round, no operation changes the values of any existing object; a failing operation changes nothing; item assignment changes exactly the addressed entry; round replaces the receiver's values by the rounded ones and returns an object sharing its memory (except Points.round on numpy < 2, which returns a copy); set_dimension and to_array return independent copies (to_array of the same values, set_dimension of the rows followed by zeros up to the given length). Every other method reads exactly the values its arguments show at the time of the call and returns an object that shows exactly what it computed.", "quantifier": "all histories of operations over any number of live objects", "why_tests_cant": "histories are unbounded", "anchors": ["src/skspatial/objects/_base_array.py:_BaseArray.round", "src/skspatial/objects/_base_array.py:_BaseArray.to_array"]}
{"id": "C07", "title": "Vector.from_points is the displacement", "statement": "Vector.from_points(a, b) is the unique vector v with a + v = b; it is antisymmetric in its arguments, additive along chains (a->b plus b->c equals a->c), invariant under translation, and zero exactly when a = b; unequal lengths (neither 1) raise ValueError.", "quantifier": "all points of equal dimension", "why_tests_cant": "continuum of points in every dimension", "anchors": ["src/skspatial/objects/vector.py:Vector.from_points"]}
{"id": "C08", "title": "norm and unit", "statement": "norm() is the Euclidean length: non-negative, zero exactly for the zero vector, absolutely homogeneous, satisfying the triangle and Cauchy-Schwarz inequalities. unit() has norm 1, is a positive multiple of the vector, is invariant under positive scaling, and raises ValueError exactly on the zero vector.", "quantifier": "all vectors of every dimension", "why_tests_cant": "continuum of vectors", "anchors": ["src/skspatial/objects/vector.py:Vector.norm", "src/skspatial/objects/vector.py:Vector.unit"]}
{"id": "C09", "title": "is_zero and is_perpendicular", "statement": "With default tolerances is_zero() is True exactly for the zero vector, and is_perpendicular(other) is True exactly when the dot product is zero; with abs_tol = t they are True exactly when the squared norm, respectively |dot|, is at most t (rel_tol < 1); both are scale-invariant at default tolerance and is_perpendicular is symmetric.", "quantifier": "all vectors, all tolerances rel_tol<1", "why_tests_cant": "continuum of vectors and tolerances", "anchors": ["src/skspatial/objects/vector.py:Vector.is_zero", "src/skspatial/objects/vector.py:Vector.is_perpendicular"]}
{"id": "C10", "title": "cross product", "statement": "cross(other) accepts vectors of dimension at most 3 (padding with zeros) and raises ValueError otherwise; the result is 3D, perpendicular to both inputs, anticommutative, bilinear, zero exactly when the inputs are linearly dependent, with squared norm |a|^2|b|^2-(a.b)^2 and right-handed orientation.", "quantifier": "all vectors of dimension <= 3 (and rejection of all others)", "why_tests_cant": "continuum of vectors", "anchors": ["src/skspatial/objects/vector.py:Vector.cross"]}
{"id": "C11", "title": "cosine_similarity", "statement": "cosine_similarity(other) always lies in [-1,1], equals dot/(|a||b|) for non-zero vectors, is symmetric and invariant under positive scaling, is 1 (resp. -1) exactly for positive (resp. negative) multiples, and raises ValueError exactly when one vector is zero. The clipping never changes the exact value and, in IEEE doubles, any non-nan quotient is brought into [-1,1].", "quantifier": "all pairs of vectors of equal dimension; all doubles for the clip", "why_tests_cant": "continuum of vectors", "anchors": ["src/skspatial/objects/vector.py:Vector.cosine_similarity"]}
{"id": "C12", "title": "angle_between", "statement": "angle_between(other) lies in [0, pi], its cosine is dot/(|a||b|), it is symmetric, 0 exactly for same-direction, pi exactly for opposite-direction, pi/2 exactly for perpendicular vectors, invariant under positive scaling, and satisfies angle(a,-b) = pi - angle(a,b).", "quantifier": "all pairs of non-zero vectors in every dimension", "why_tests_cant": "continuum", "anchors": ["src/skspatial/objects/vector.py:Vector.angle_between"]}
{"id": "C13", "title": "angle_signed", "statement": "For non-zero 2D vectors angle_signed(other) lies in (-pi, pi], rotating the first vector counter-clockwise by it gives the direction of the second, its absolute value is angle_between, it is antisymmetric except when the vectors point in opposite directions; non-2D inputs raise ValueError; zero vectors are silently accepted (0).", "quantifier": "all pairs of vectors", "why_tests_cant": "continuum", "anchors": ["src/skspatial/objects/vector.py:Vector.angle_signed"]}
{"id": "C14", "title": "angle_signed_3d", "statement": "angle_signed_3d(other, direction_positive) raises ValueError unless all are 3D and direction_positive is parallel (within tolerance) to the cross product; when it returns and the direction is exactly parallel, |result| is angle_between, and flipping direction_positive negates the result (when the cross product is non-zero).", "quantifier": "all triples of 3D vectors", "why_tests_cant": "continuum", "anchors": ["src/skspatial/objects/vector.py:Vector.angle_signed_3d"]}
{"id": "C15", "title": "is_parallel", "statement": "is_parallel is True whenever the vectors are linearly dependent (in particular if one is zero); with both tolerances zero it is True only then; with the default tolerance it is True for non-zero vectors exactly when |cos| >= 1-1e-9, so the angle to the other's line is below 4.5e-5 rad; it is symmetric; vectors of unequal dimension raise ValueError when neither is zero and give True when one is.", "quantifier": "all pairs of vectors and tolerances", "why_tests_cant": "continuum; the failure set near the threshold is thin", "anchors": ["src/skspatial/objects/vector.py:Vector.is_parallel"]}
{"id": "C16", "title": "side_vector / Line.side_point orientation", "statement": "For 2D vectors side_vector returns the sign (-1,0,1) of the oriented area: +1 exactly when other is clockwise (right) of self, -1 exactly when counter-clockwise, 0 exactly when linearly dependent; Line.side_point reports the same for the vector from the line's point, is 0 exactly for points on the line, and is independent of the base point chosen on the line.", "quantifier": "all 2D vectors, lines, points", "why_tests_cant": "continuum", "anchors": ["src/skspatial/objects/vector.py:Vector.side_vector", "src/skspatial/objects/line.py:Line.side_point"]}
{"id": "C17", "title": "scalar_projection and project_vector", "statement": "scalar_projection(other) = dot/|self|; project_vector(other) is the unique multiple of self such that other minus it is perpendicular to self, hence the nearest multiple of self; its signed length is scalar_projection; projecting is idempotent and linear; for the zero vector no finite result is produced.", "quantifier": "all vectors in every dimension", "why_tests_cant": "continuum", "anchors": ["src/skspatial/objects/vector.py:Vector.scalar_projection", "src/skspatial/objects/vector.py:Vector.project_vector"]}
{"id": "C18", "title": "different_direction", "statement": "different_direction() raises ValueError exactly for the zero vector; otherwise returns a unit vector of the same dimension which (for dimension >= 2) is not parallel to the receiver; in dimension 1 it points the opposite way.", "quantifier": "all vectors of every dimension", "why_tests_cant": "continuum and unbounded dimension", "anchors": ["src/skspatial/objects/vector.py:Vector.different_direction"]}
{"id": "C19", "title": "Point.distance_point is a metric", "statement": "On points of equal dimension distance_point is non-negative, zero exactly for equal points, symmetric, satisfies the triangle inequality, is translation invariant and scales with uniform scaling. Length-1 inputs are silently broadcast.", "quantifier": "all points of every dimension", "why_tests_cant": "continuum", "anchors": ["src/skspatial/objects/point.py:Point.distance_point"]}
{"id": "C20", "title": "centroid and mean_center", "statement": "centroid() is the coordinate-wise mean; it minimises the sum of squared distances, is invariant under permutation of the rows and equivariant under translation; mean_center() returns as many points, with centroid zero and all pairwise displacements preserved, and adding the centroid back restores the input.", "quantifier": "all Points of every size and dimension", "why_tests_cant": "unbounded number of points", "anchors": ["src/skspatial/objects/points.py:Points.centroid", "src/skspatial/objects/points.py:Points.mean_center"]}
{"id": "C21", "title": "normalize_distance", "statement": "If at least one point is non-zero, normalize_distance() returns the points scaled by one positive factor so that the greatest distance from the origin is exactly 1 (all others at most 1), and is idempotent; if all points are the origin no finite result is produced.", "quantifier": "all Points of every size", "why_tests_cant": "unbounded number of points", "anchors": ["src/skspatial/objects/points.py:Points.normalize_distance"]}
{"id": "C22", "title": "unique", "statement": "unique() contains exactly the same set of rows as the input, each once, in lexicographic order; it is idempotent and independent of the order and multiplicity of the input rows.", "quantifier": "all Points of every size", "why_tests_cant": "unbounded number of rows", "anchors": ["src/skspatial/objects/points.py:Points.unique"]}
{"id": "C23", "title": "affine_rank and the concurrent/collinear/coplanar tests", "statement": "Given a correct singular value decomposition: points all equal => are_concurrent; all on one line => are_collinear; all on one plane => are_coplanar, for every non-negative tolerance (and affine_rank never exceeds the dimension of any flat containing the points). With tol=0 affine_rank is the dimension of the affine hull and the three tests are exact; are_concurrent is exact by default too (fewer than 2^52 rows). With the default tolerance a True answer means all points lie within M^2*2^-52*diameter of one line/plane. concurrent implies collinear implies coplanar. Only the set of rows matters (duplicates and order do not).", "quantifier": "all Points of every size, dimension, tolerance", "why_tests_cant": "unbounded number of points; thin failure sets", "anchors": ["src/skspatial/objects/points.py:Points.affine_rank", "src/skspatial/objects/points.py:Points.are_concurrent", "src/skspatial/objects/points.py:Points.are_collinear", "src/skspatial/objects/points.py:Points.are_coplanar"]}
{"id": "C24", "title": "transform_coordinates / Line.transform_points", "statement": "Row i, column j of transform_coordinates is the dot product of (point_i - origin) with basis vector j; for an orthonormal basis it returns the coordinates with respect to that basis, is an isometry of the subspace and is inverted by origin + sum coords*basis. Line.transform_points returns signed distances along the line: the projection of point_i is line.point + t_i*unit(direction).", "quantifier": "all point sets, bases of any size and dimension", "why_tests_cant": "unbounded sizes", "anchors": ["src/skspatial/transformation.py:transform_coordinates", "src/skspatial/objects/line.py:Line.transform_points"]}
{"id": "C25", "title": "Line construction", "statement": "Line(point, direction) succeeds exactly when both are valid arrays of the same dimension and direction is not the zero vector; it stores both unchanged. Line.from_points(a,b) contains a and b (to_point(0)=a, to_point(1)=b) and fails exactly when a=b; from_slope(m,c) consists exactly of the points (x, m x + c); to_point(t) is point + t*direction, every returned point is on the line and the parameter is unique.", "quantifier": "all points, directions, slopes, parameters in every dimension", "why_tests_cant": "continuum", "anchors": ["src/skspatial/objects/line.py:Line.__init__", "src/skspatial/objects/line.py:Line.from_points", "src/skspatial/objects/line.py:Line.from_slope", "src/skspatial/objects/line.py:Line.to_point", "src/skspatial/objects/_base_line_plane.py:_BaseLinePlane.__init__"]}
{"id": "C26", "title": "Line.project_point is the nearest point", "statement": "For points of the line's dimension project_point returns a point on the line, strictly nearer than any other point of the line; the connecting vector is perpendicular to the line; it is idempotent and fixes points of the line.", "quantifier": "all lines and points in every dimension", "why_tests_cant": "minimality quantifies over all points of the line", "anchors": ["src/skspatial/objects/line.py:Line.project_point"]}
{"id": "C27", "title": "Line batch methods agree with the single-point ones", "statement": "project_points and distance_points return, row for row, exactly what project_point and distance_point return for each row; sum_squares is the sum of the squared distance_point values.", "quantifier": "all lines, point sets of every size", "why_tests_cant": "unbounded number of points", "anchors": ["src/skspatial/objects/line.py:Line.project_points", "src/skspatial/objects/line.py:Line.distance_points", "src/skspatial/_functions.py:_sum_squares"]}
{"id": "C28", "title": "Line.distance_point / contains_point", "statement": "distance_point is the minimum distance to points of the line (attained) and with default tolerances contains_point is True exactly for points of the line; with abs_tol=t, exactly for points at distance at most t; it does not depend on which point/direction represents the line.", "quantifier": "all lines, points, tolerances", "why_tests_cant": "minimum over a continuum", "anchors": ["src/skspatial/objects/line.py:Line.distance_point", "src/skspatial/objects/_base_line_plane.py:_BaseLinePlane.contains_point"]}
{"id": "C29", "title": "Line/Plane is_close", "statement": "line.is_close(other) (resp. plane) is True whenever they are the same set of points; with zero tolerances exactly then; comparing a Line with a Plane raises TypeError.", "quantifier": "all pairs of lines/planes, tolerances", "why_tests_cant": "continuum", "anchors": ["src/skspatial/objects/_base_line_plane.py:_BaseLinePlane.is_close"]}
{"id": "C30", "title": "Line.is_coplanar", "statement": "is_coplanar is True whenever a plane contains both lines (in particular if they intersect or are parallel), and with tol=0 only then; it is symmetric; non-lines raise TypeError.", "quantifier": "all pairs of lines in every dimension", "why_tests_cant": "continuum", "anchors": ["src/skspatial/objects/line.py:Line.is_coplanar"]}
{"id": "C31", "title": "Line.intersect_line", "statement": "For lines of equal dimension <= 3 that truly meet in exactly one point and are not near-parallel, intersect_line returns that point; if the lines are parallel, non-coplanar (check on) or of unequal or larger dimension it raises ValueError; whenever it returns with exactly coplanar lines, the result lies on both lines. With check_coplanar=False on skew lines the result is the point of self nearest to other.", "quantifier": "all pairs of lines in dimension <= 3", "why_tests_cant": "continuum; thin failure sets", "anchors": ["src/skspatial/objects/line.py:Line.intersect_line"]}
{"id": "C32", "title": "Line.distance_line", "statement": "In dimension <= 3, if the parallelism and coplanarity decisions are exact, distance_line is the infimum of distances between points of the two lines and is attained, and is symmetric. For lines within the parallel tolerance but not parallel the answer can be arbitrarily wrong; skew lines in dimension > 3 raise ValueError.", "quantifier": "all pairs of lines", "why_tests_cant": "minimum over pairs of points; thin failure sets", "anchors": ["src/skspatial/objects/line.py:Line.distance_line"]}
{"id": "C33", "title": "Line.best_fit is the least-squares line", "statement": "Given a correct SVD, Line.best_fit(points) passes through the centroid and no line whatsoever has a smaller sum of squared distances; the reported error equals that sum; collinear points (not all equal) are fitted with error 0; all-equal points raise ValueError.", "quantifier": "all point sets of every size and dimension, all competing lines", "why_tests_cant": "optimality over all lines", "anchors": ["src/skspatial/objects/line.py:Line.best_fit"]}
{"id": "C34", "title": "Plane construction", "statement": "Plane(point, normal) succeeds exactly for valid same-dimension point and non-zero normal. Plane.from_vectors contains point, point+a and point+b (and all their combinations) with normal perpendicular to both, and raises for parallel vectors; Plane.from_points contains its three points, its normal is (b-a)x(c-a), and it raises for collinear points.", "quantifier": "all points and vectors", "why_tests_cant": "continuum", "anchors": ["src/skspatial/objects/plane.py:Plane.from_vectors", "src/skspatial/objects/plane.py:Plane.from_points"]}
{"id": "C35", "title": "Plane.cartesian", "statement": "The returned (a,b,c,d) satisfy: a point (x,y,z) is on the plane exactly when ax+by+cz+d=0; (a,b,c) is the (zero-padded) normal; planes of dimension > 3 raise ValueError.", "quantifier": "all planes and points", "why_tests_cant": "continuum", "anchors": ["src/skspatial/objects/plane.py:Plane.cartesian"]}
{"id": "C36", "title": "Plane.project_point(s) is the nearest point", "statement": "project_point returns a point on the plane, strictly nearer than any other point of the plane, displaced along the normal; it is idempotent; project_points does the same row by row.", "quantifier": "all planes and points in every dimension", "why_tests_cant": "minimality over all points of the plane", "anchors": ["src/skspatial/objects/plane.py:Plane.project_point", "src/skspatial/objects/plane.py:Plane.project_points"]}
{"id": "C37", "title": "Plane distances and side_point", "statement": "distance_point is the minimum distance to the plane; distance_point_signed has that absolute value, is positive exactly on the normal's side; side_point is its sign and 0 exactly on the plane (= contains_point); reversing the normal negates it; batch versions agree row by row; the distance does not depend on the representation of the plane.", "quantifier": "all planes and points in every dimension", "why_tests_cant": "continuum", "anchors": ["src/skspatial/objects/plane.py:Plane.distance_point_signed", "src/skspatial/objects/plane.py:Plane.distance_point", "src/skspatial/objects/plane.py:Plane.side_point", "src/skspatial/objects/plane.py:Plane.distance_points"]}
{"id": "C38", "title": "Plane.project_vector / project_line", "statement": "project_vector returns the component of the vector orthogonal to the normal; project_line returns a line contained in the plane which is exactly the image of the line under project_point; it raises ValueError for lines along the normal. With other tolerances it raises exactly for the lines the tolerance calls parallel to the normal; otherwise the line through the projected point is the exact image, except that a direction the tolerance calls perpendicular to the normal is kept as it is.", "quantifier": "all planes, vectors, lines, tolerances", "why_tests_cant": "continuum", "anchors": ["src/skspatial/objects/plane.py:Plane.project_vector", "src/skspatial/objects/plane.py:Plane.project_line"]}
{"id": "C39", "title": "Plane.intersect_line", "statement": "At default tolerance intersect_line raises ValueError exactly when direction and normal are perpendicular (line parallel to plane); otherwise it returns the unique point lying on both.", "quantifier": "all planes and lines of equal dimension", "why_tests_cant": "uniqueness over a continuum", "anchors": ["src/skspatial/objects/plane.py:Plane.intersect_line"]}
{"id": "C40", "title": "Plane.intersect_plane", "statement": "Given a correct linear solver: for non-parallel 3D planes the result is a line whose points are exactly the points common to both planes, with base point the common point nearest to the origin; parallel planes raise ValueError; the linear system is always non-singular for non-parallel planes.", "quantifier": "all pairs of 3D planes", "why_tests_cant": "set equality over a continuum", "anchors": ["src/skspatial/objects/plane.py:Plane.intersect_plane"]}
{"id": "C41", "title": "Plane.best_fit is the least-squares plane", "statement": "Given a correct SVD, Plane.best_fit passes through the centroid and no plane whatsoever has a smaller sum of squared distances to the points; the reported error equals that sum; collinear points raise ValueError; non-3D points raise ValueError.", "quantifier": "all 3D point sets, all competing planes", "why_tests_cant": "optimality over all planes", "anchors": ["src/skspatial/objects/plane.py:Plane.best_fit"]}
{"id": "C42", "title": "Plane.to_mesh / to_points", "statement": "For planes of dimension 2 and 3 and all limits, in all three branches, every mesh point lies on the (zero-padded) plane and the free coordinates are the stated grid; to_points lists exactly the mesh points; other dimensions raise ValueError. The grid is centred on the plane's point only if the normal's z component is non-zero (the second limit is added to the point's y coordinate in the other branches).", "quantifier": "all planes, all limit arrays of any length", "why_tests_cant": "continuum", "anchors": ["src/skspatial/objects/plane.py:Plane.to_mesh", "src/skspatial/objects/_mixins.py:_ToPointsMixin.to_points"]}
{"id": "C43", "title": "LineSegment construction and contains_point", "statement": "LineSegment rejects endpoints that are close (in particular equal) and accepts all others of equal dimension; a 1D endpoint is broadcast, so a segment with endpoints of different dimension can be built. With tolerances zero contains_point is True exactly for the points (1-t)a+tb, 0<=t<=1; with default tolerances it is True for all of these, and every accepted point is within 1.2e-5 of the segment's length of the segment.", "quantifier": "all segments, points in every dimension", "why_tests_cant": "continuum", "anchors": ["src/skspatial/objects/line_segment.py:LineSegment.__init__", "src/skspatial/objects/line_segment.py:LineSegment.contains_point"]}
{"id": "C44", "title": "LineSegment.intersect_line_segment", "statement": "If two segments in dimension <= 3, not parallel within tolerance, share a point, that point is unique and is returned. For exactly coplanar segments a point is returned if and only if they share one, otherwise ValueError. In every case a returned point lies on the first segment and within 1.2e-5 lengths of the second. Segments of unequal dimension, of dimension > 3 or exactly parallel raise ValueError.", "quantifier": "all pairs of segments", "why_tests_cant": "continuum", "anchors": ["src/skspatial/objects/line_segment.py:LineSegment.intersect_line_segment"]}
{"id": "C45", "title": "Circle/Sphere construction, distance, contains, projection", "statement": "Circle/Sphere construction requires radius > 0 and a 2D/3D centre (ValueError otherwise; a nan radius is accepted). distance_point is the minimal distance to the points at distance radius from the centre; contains_point is True exactly on the boundary (default tolerances); project_point returns the nearest point of the boundary and raises ValueError exactly at the centre.", "quantifier": "all circles/spheres and points", "why_tests_cant": "minimality over the whole boundary", "anchors": ["src/skspatial/objects/_base_sphere.py:_BaseSphere", "src/skspatial/objects/circle.py:Circle.__init__", "src/skspatial/objects/sphere.py:Sphere.__init__"]}
{"id": "C46", "title": "Circle.from_points", "statement": "For three points accepted as non-collinear, the returned circle passes through all three and is the only circle doing so; collinear points and non-2D points raise ValueError.", "quantifier": "all triples of 2D points", "why_tests_cant": "uniqueness over all circles", "anchors": ["src/skspatial/objects/circle.py:Circle.from_points"]}
{"id": "C47", "title": "Circle.intersect_circle", "statement": "Raises ValueError exactly when the centres coincide, the circles are separate or one is inside the other; otherwise returns exactly the set of points common to both circles (equal points for tangency).", "quantifier": "all pairs of circles", "why_tests_cant": "set equality over a continuum", "anchors": ["src/skspatial/objects/circle.py:Circle.intersect_circle"]}
{"id": "C48", "title": "Circle.intersect_line", "statement": "For 2D lines raises ValueError exactly when the line misses the circle; otherwise returns exactly the set of points common to line and circle, equal exactly for tangent lines, in order of the line direction (reversed when the direction's y component is negative). Lines of dimension > 2 raise ValueError; a 1D line is silently broadcast.", "quantifier": "all circles and 2D lines", "why_tests_cant": "set equality over a continuum", "anchors": ["src/skspatial/objects/circle.py:Circle.intersect_line"]}
{"id": "C49", "title": "Sphere.intersect_line", "statement": "For 3D lines raises ValueError exactly when the line misses the sphere; otherwise returns exactly the set of points common to line and sphere, ordered along the line direction, equal exactly for tangent lines. Lines of any other dimension raise ValueError.", "quantifier": "all spheres and 3D lines", "why_tests_cant": "set equality over a continuum", "anchors": ["src/skspatial/objects/sphere.py:Sphere.intersect_line"]}
{"id": "C50", "title": "Circle.best_fit / Sphere.best_fit", "statement": "Given a correct least-squares solver the returned circle/sphere is the one and only minimiser of the algebraic error sum((|p-c|^2-r^2)^2) over all centres and radii; the squared radius is the mean squared distance of the points from the centre; points exactly on a circle/sphere (non-collinear / non-coplanar) recover it; the square root never fails.", "quantifier": "all point sets of every size", "why_tests_cant": "optimality over all circles", "anchors": ["src/skspatial/objects/circle.py:Circle.best_fit", "src/skspatial/objects/sphere.py:Sphere.best_fit"]}
{"id": "C51", "title": "Sphere.to_mesh / to_points", "statement": "For every n_angles every mesh point is exactly at distance radius from the centre, at the evenly spaced polar and azimuth angles; first and last row are the poles, first and last column coincide; there are n_angles^2 points and to_points lists exactly these; with n_angles=0 to_points raises ValueError.", "quantifier": "all spheres and all n_angles", "why_tests_cant": "unbounded n", "anchors": ["src/skspatial/objects/sphere.py:Sphere.to_mesh"]}
{"id": "C52", "title": "Areas and volumes are the integrals they claim to be", "statement": "Circle.area and circumference, Sphere.volume and surface_area, Cylinder.volume, lateral_surface_area and surface_area are positive and agree with the corresponding integrals (area = integral of chord lengths, volume = integral of slice areas, circumference = derivative of area, surface = derivative of volume), and scale with the right power of the radius.", "quantifier": "all radii and cylinders", "why_tests_cant": "statements about integrals over a continuum", "anchors": ["src/skspatial/objects/circle.py:Circle.area", "src/skspatial/objects/sphere.py:Sphere.volume", "src/skspatial/objects/cylinder.py:Cylinder.volume"]}
{"id": "C53", "title": "Triangle construction and accessors", "statement": "Triangle rejects points of unequal dimension and collinear points; point('A'|'B'|'C') returns the vertices, line(side) is the side opposite to the same-named vertex, length(side) the distance of its end points; any other name raises ValueError; multiple(name, inputs) equals calling the method on each input in order and fails on the first failing one.", "quantifier": "all triangles, all strings", "why_tests_cant": "all strings; unbounded input sequences", "anchors": ["src/skspatial/objects/triangle.py:Triangle.__init__", "src/skspatial/objects/triangle.py:Triangle.point", "src/skspatial/objects/triangle.py:Triangle.line", "src/skspatial/objects/triangle.py:Triangle.length", "src/skspatial/objects/triangle.py:Triangle.multiple"]}
{"id": "C54", "title": "Triangle normal, area, perimeter", "statement": "For triangles of dimension <= 3 normal() is perpendicular to all sides and non-zero; area() is half its norm, positive, equals Heron's formula and half base times height for each side; perimeter() is the sum of the side lengths, each side is shorter than the sum of the others; area is independent of the order of vertices.", "quantifier": "all triangles", "why_tests_cant": "continuum", "anchors": ["src/skspatial/objects/triangle.py:Triangle.normal", "src/skspatial/objects/triangle.py:Triangle.area", "src/skspatial/objects/triangle.py:Triangle.perimeter"]}
{"id": "C55", "title": "Triangle.angle", "statement": "angle(v) is the angle between the two sides at v, strictly between 0 and pi; the three angles sum to exactly pi; law of sines holds; an invalid vertex raises ValueError.", "quantifier": "all triangles in every dimension", "why_tests_cant": "continuum", "anchors": ["src/skspatial/objects/triangle.py:Triangle.angle"]}
{"id": "C56", "title": "Triangle.altitude / orthocenter", "statement": "altitude(v) never raises for a valid triangle and vertex name: it passes through v and the foot of the perpendicular on the opposite side line, which differs from v. orthocenter, when it returns, lies on all three altitudes; it returns for every triangle of dimension <= 3 whose first two altitudes are not parallel within tolerance, always with zero tolerances, and raises ValueError above dimension 3. With default tolerances there are valid (thin) triangles for which it raises ValueError.", "quantifier": "all triangles", "why_tests_cant": "continuum", "anchors": ["src/skspatial/objects/triangle.py:Triangle.altitude", "src/skspatial/objects/triangle.py:Triangle.orthocenter"]}
{"id": "C57", "title": "Triangle.classify / is_right", "statement": "With zero tolerances classify returns 'equilateral' / 'isosceles' / 'scalene' exactly when three / exactly two / no side lengths are equal, and is_right is True exactly when one of the angles is a right angle. With tolerances, three close pairs give 'equilateral', one 'isosceles', none 'scalene'; but closeness is not transitive and a triangle with exactly two close pairs is always reported 'scalene' (and such triangles exist). is_right is True exactly when the squares of the two shorter sides sum to a value close to the square of the longest.", "quantifier": "all triangles, tolerances", "why_tests_cant": "continuum; thin failure set", "anchors": ["src/skspatial/objects/triangle.py:Triangle.classify", "src/skspatial/objects/triangle.py:Triangle.is_right"]}
{"id": "C58", "title": "Triangle.centroid", "statement": "centroid() is (A+B+C)/3, lies on all three medians dividing them 2:1, strictly inside the triangle.", "quantifier": "all triangles in every dimension", "why_tests_cant": "continuum", "anchors": ["src/skspatial/objects/triangle.py:Triangle.centroid"]}
{"id": "C59", "title": "Cylinder construction and is_point_within", "statement": "Cylinder requires 3D point and vector, non-zero vector and radius > 0 (ValueError otherwise, nan radius rejected). is_point_within(p) is True exactly when p = point + t*vector + w with 0<=t<=1, w perpendicular to vector, |w|<=radius; from_points(a,b,r) has a and b as cap centres.", "quantifier": "all cylinders and points", "why_tests_cant": "continuum", "anchors": ["src/skspatial/objects/cylinder.py:Cylinder.__init__", "src/skspatial/objects/cylinder.py:Cylinder.is_point_within", "src/skspatial/objects/cylinder.py:Cylinder.from_points"]}
{"id": "C60", "title": "Cylinder.intersect_line (infinite)", "statement": "With infinite=True and no rounding raises ValueError exactly when the line is not 3D, is parallel to the axis or misses the infinite cylinder; otherwise returns exactly the points common to the line and the infinite lateral surface.", "quantifier": "all cylinders and lines", "why_tests_cant": "set equality over a continuum", "anchors": ["src/skspatial/objects/cylinder.py:Cylinder.intersect_line", "src/skspatial/objects/cylinder.py:_intersect_line_with_infinite_cylinder"]}
{"id": "C61", "title": "Cylinder.intersect_line (finite)", "statement": "With infinite=False and no rounding raises ValueError exactly when the line misses the solid cylinder; otherwise the two returned points are the end points of the intersection of the line with the solid (every common point is between them and both are within).", "quantifier": "all cylinders and lines", "why_tests_cant": "case analysis over all relative positions incl. tangent, rim and parallel", "anchors": ["src/skspatial/objects/cylinder.py:_intersect_line_with_finite_cylinder", "src/skspatial/objects/cylinder.py:_intersect_line_with_caps"]}
{"id": "C62", "title": "Cylinder.to_mesh / to_points", "statement": "Every mesh point is at distance radius from the axis and between the caps, for every cylinder and resolution; the construction never raises for a valid cylinder.", "quantifier": "all cylinders and resolutions", "why_tests_cant": "continuum and unbounded n", "anchors": ["src/skspatial/objects/cylinder.py:Cylinder.to_mesh"]}
{"id": "C63", "title": "Cylinder.best_fit", "statement": "Rejects non-3D, fewer than 6 and coplanar points. For whatever direction the optimiser returns, the cylinder's axis position and radius have the least algebraic error sum((d^2-r^2)^2) possible for that direction, radius^2 is the mean squared distance from the axis, the base cap passes through the lowest point and the centroid is at half height; the objective handed to the optimiser is that least error, so with a perfect optimiser the fit is globally least, and points exactly on some infinite cylinder are all at distance radius from the returned axis. The cylinder need not cover the points axially, and the starting direction is mirrored when y=0 and x<0.", "quantifier": "all point sets, any optimiser result", "why_tests_cant": "unbounded point sets", "anchors": ["src/skspatial/objects/cylinder.py:Cylinder.best_fit"]}
{"id": "C64", "title": "area_signed", "statement": "For every polygon with n>=3 vertices area_signed is the shoelace sum: invariant under rotation of the vertex list, multiplied by the determinant under affine maps, negated by reversal, additive when the polygon is cut along a diagonal, positive for polygons running counter-clockwise around a point, with absolute value area_triangle for triangles; fewer than 3 or non-2D points raise ValueError.", "quantifier": "all polygons of every size", "why_tests_cant": "unbounded number of vertices", "anchors": ["src/skspatial/measurement.py:area_signed"]}
{"id": "C65", "title": "area_triangle / volume_tetrahedron", "statement": "area_triangle and volume_tetrahedron do not depend on the order of the points, depend only on the mutual distances, are non-negative, zero exactly for collinear / coplanar points, equal base*height/2 and base area*height/3, and raise ValueError above dimension 3.", "quantifier": "all point tuples of dimension <= 3", "why_tests_cant": "continuum", "anchors": ["src/skspatial/measurement.py:area_triangle", "src/skspatial/measurement.py:volume_tetrahedron"]}
{"id": "C66", "title": "Quadratic solving behind cylinder intersection", "statement": "Observable through Cylinder.intersect_line: the two parameters used are exactly the real roots of the quadratic (in increasing order for positive leading coefficient); a zero leading coefficient or negative discriminant raises ValueError; n_digits=0 behaves like no rounding; with n digits the equation solved has the coefficients rounded to n decimals, and a returned point at distance u from the line's base point is off the squared radius by at most 0.5*10^-n*(u^2+u+1).", "quantifier": "all coefficients and n_digits", "why_tests_cant": "continuum", "anchors": ["src/skspatial/_functions.py:_solve_quadratic"]}
{"id": "C67", "title": "plotter dispatch and what is drawn", "statement": "plotter() returns a 2D (3D) plotting callable exactly for objects of dimension 2 (3) whose class supports it, otherwise raises ValueError with the documented message; LineSegment objects raise AttributeError for every dimension although plot_2d/plot_3d draw exactly the segment. The drawing produced shows exactly the picture of the object (points; the stretch of a line between the limits; the vector from its start point; the circle; the triangle's outline) and surfaces only show points of the plane, sphere or cylinder; a 3D drawing on a 2D axis raises. plot_2d/plot_3d of several objects show exactly the union, and fail with the first failing one.", "quantifier": "all objects of all classes and dimensions, all plotting arguments", "why_tests_cant": "all classes times all dimensions", "anchors": ["src/skspatial/objects/_base_spatial.py:_PlotterMixin.plotter"]}
{"id": "C68", "title": "Arithmetic keeps the class invariant", "statement": "The result of element-wise arithmetic or reduction on a Point, Vector or Points is either a valid object of the same class (finite, non-empty, right number of axes, dimension attribute equal to its size) or a plain array; a non-finite result is never wrapped as Point/Vector/Points.", "quantifier": "all arrays and all element-wise results", "why_tests_cant": "all values incl. overflow", "anchors": ["src/skspatial/objects/_base_array.py:_BaseArray.__array_wrap__"]}
{"id": "C69", "title": "Integer inputs wrap around", "statement": "For int64 inputs dot products, differences, cross products and shoelace sums are computed modulo 2^64: whenever the exact value fits in 63 bits the result is exact and agrees with exact arithmetic; is_zero, is_perpendicular and Line construction see exactly the value modulo 2^64, so they can be wrong (the vector (2^32, 0) is reported zero), and side_vector, area_signed and distance_point can have the wrong sign or size.", "quantifier": "all int64 vectors of every dimension", "why_tests_cant": "2^64 values per coordinate", "anchors": ["src/skspatial/objects/vector.py:Vector.is_zero", "src/skspatial/objects/vector.py:Vector.is_perpendicular"]}
{"id": "C70", "title": "Double-precision facts that hold for every double", "statement": "In IEEE binary64, for all inputs: the clipped cosine is in [-1,1] or nan, so angle_between never leaves acos' domain; distance_point is symmetric; norm is non-negative or nan; is_close is symmetric and reflexive on finite arrays; a line and a plane contain their own point at distance zero; unit returns finite components of size at most 2 or raises exactly when the squared norm underflows. On the other hand a line need not contain the second point it was built from, tangent circles and thin triangles make math.sqrt/acos raise 'math domain error', small vectors are reported zero, large ones have infinite norm, int(nan) raises in side_vector, and a nan radius is accepted by Circle and Sphere but not by Cylinder.", "quantifier": "all doubles and all dimensions", "why_tests_cant": "2^64 values per operand", "anchors": ["src/skspatial/objects/vector.py:Vector.cosine_similarity", "src/skspatial/objects/circle.py:Circle.intersect_circle"]}
{"id": "C71", "title": "round rounds to the nearest decimal, ties to even", "statement": "In exact arithmetic Point/Vector/Points.round(d) replaces every coordinate by the nearest multiple of 10^-d, the one with even multiplier in case of a tie, for every (also negative) d; it moves no coordinate by more than half a unit, is idempotent, monotone, compatible with negation and leaves multiples of 10^-d alone.", "quantifier": "all arrays, all integers d", "why_tests_cant": "continuum of values and unbounded d", "anchors": ["src/skspatial/objects/_base_array.py:_BaseArray.round"]}
{"id": "C72", "title": "Which exceptions can escape", "statement": "For all inputs (reals or doubles, any dimension, any tolerance) and any linear-algebra backend raising at most LinAlgError/ValueError, every public function either returns, or raises ValueError or LinAlgError, or meets a non-finite intermediate result (overflow or division by zero; numpy then warns and carries nan or inf on in a plain array, whose later use is not covered here, see C77), and never 'math domain error', except: comparing a Line with a Plane and Line.is_coplanar of a plane raise TypeError, Triangle.multiple with an unknown method name raises AttributeError, and 'math domain error' can only come out of Circle.from_points, Circle.intersect_circle, Triangle.angle and Triangle.multiple.", "quantifier": "all functions, all inputs, all backends", "why_tests_cant": "no finite test set shows the absence of an exception type", "anchors": ["src/skspatial/objects/_base_line_plane.py:_BaseLinePlane.is_close", "src/skspatial/objects/triangle.py:Triangle.multiple", "src/skspatial/objects/circle.py:Circle.intersect_circle"]}
{"id": "C73", "title": "Accuracy in double precision", "statement": "In IEEE binary64, for coordinates of moderate size and dimension up to 2^20, dot, norm, distance_point, unit and cosine_similarity return finite values within an explicit relative error (a few (n+c)*2^-53) of the exact result, and side_vector never reports the wrong side: +1/-1 only if the exact determinant is positive/negative, 0 only if it is below the rounding level.", "quantifier": "all vectors of moderate doubles in every dimension up to 2^20", "why_tests_cant": "2^64 values per coordinate", "anchors": ["src/skspatial/objects/vector.py:Vector.norm", "src/skspatial/objects/vector.py:Vector.cosine_similarity", "src/skspatial/objects/vector.py:Vector.side_vector", "src/skspatial/objects/point.py:Point.distance_point"]}
{"id": "C74", "title": "Results do not depend on the linear algebra backend", "statement": "affine_rank, are_concurrent/collinear/coplanar, the constructors and tests built on them (Triangle, Line.is_coplanar, Line.intersect_line, Plane.from_points, Circle.from_points), Plane.intersect_plane and the Circle/Sphere best fits return the same result for every pair of correct backends (any correct singular value decomposition, any correct solver); Line.best_fit and Plane.best_fit return the same point and a line/plane with the same total squared error (the direction/normal itself is left to the backend); any sequence of such calls gives the same results.", "quantifier": "all inputs, all pairs of correct SVD/solve implementations", "why_tests_cant": "LAPACK, MKL, OpenBLAS and future versions cannot all be run", "anchors": ["src/skspatial/objects/points.py:Points.affine_rank", "src/skspatial/objects/plane.py:Plane.best_fit", "src/skspatial/objects/line.py:Line.best_fit"]}
{"id": "C75", "title": "Geometry does not depend on the coordinate system", "statement": "Changing the coordinates by any map that multiplies all distances by s>0 (translation, rotation, reflection, change of unit, embedding into a higher dimension) changes every result accordingly: points, lines, planes, circles, spheres, triangles and cylinders returned are the images of the old ones, lengths are multiplied by s, areas by s^2, volumes by s^3, signed areas by s^2 or -s^2, cosines, angles, sides, classifications, affine ranks and all True/False tests (with absolute tolerances multiplied by s, or zero) are unchanged, and an error is raised in the same cases. Exceptions: LineSegment construction compares endpoints relatively to their coordinates, so a translation can turn an accepted segment into a rejected one; the point stored in an intersection line of planes is the one nearest to the origin. The best-fit circle and sphere are the images of the old ones, and the image of a best-fit line or plane is again a best fit, its squared error multiplied by s^2. (Meshes, plots, Cylinder.best_fit and rounding to n_digits depend on the coordinates and are not covered.)", "quantifier": "all similarities between spaces of all dimensions, all objects, all tolerances", "why_tests_cant": "infinitely many coordinate systems and inputs", "anchors": ["src/skspatial/objects/line.py:Line.intersect_line", "src/skspatial/objects/plane.py:Plane.intersect_line", "src/skspatial/objects/triangle.py:Triangle.orthocenter", "src/skspatial/objects/cylinder.py:Cylinder.intersect_line", "src/skspatial/objects/points.py:Points.affine_rank", "src/skspatial/objects/line_segment.py:LineSegment.__init__"]}
{"id": "C76", "title": "Vector.norm(ord=...)", "statement": "norm() and norm(ord=2) are the Euclidean length, ord=1 the sum of absolute values, ord=0 the number of non-zero coordinates, ord=inf/-inf the largest/smallest absolute value; any other p>0 gives the unique r>=0 with r^p = sum |x_i|^p, p<0 gives 0 if a coordinate is zero and otherwise r>0 with r^p = sum |x_i|^p; string orders raise ValueError. For p>=1 and inf it is a norm (zero only for the zero vector, homogeneous, triangle inequality); norms decrease in p and lie between the largest coordinate and n^(1/p) times it; they do not depend on the order or signs of the coordinates. For p<1 the triangle inequality fails.", "quantifier": "all vectors of every dimension, all real orders", "why_tests_cant": "continuum of vectors and orders", "anchors": ["src/skspatial/objects/vector.py:Vector.norm"]}
{"id": "C77", "title": "Nan never appears out of nowhere", "statement": "In exact arithmetic, with a backend that returns or raises, every function and method called on objects made by the constructors either returns a value or raises: the checks in front of every division, square root and arc cosine suffice, so no nan or infinity is produced. The only exceptions: Vector.project_vector on the zero vector, Points.normalize_distance when all points are the origin, and Circle.from_points exactly when its collinearity test fails to recognise collinear points, which happens for negative tolerances only.", "quantifier": "all functions, all constructed objects, all arguments of all dimensions, all tolerances", "why_tests_cant": "a missing guard shows only on inputs nobody thought of", "anchors": ["src/skspatial/objects/vector.py:Vector.project_vector", "src/skspatial/objects/points.py:Points.normalize_distance", "src/skspatial/objects/circle.py:Circle.from_points", "src/skspatial/objects/line.py:Line.intersect_line", "src/skspatial/objects/plane.py:Plane.intersect_line"]}
{"id": "C78", "title": "Results depend continuously on the data", "statement": "Distances (Point, Line, Plane signed and unsigned, Circle/Sphere) change by at most the distance the point, the base point, the centre (plus the change of radius) is moved; Line.project_point, Plane.project_point, Plane.project_vector, Vector.project_vector and Vector.scalar_projection never increase the distance of two arguments; Vector.unit satisfies |ua-ub|^2*|a||b| <= |a-b|^2 and Circle/Sphere.project_point |Px-Py|^2*|x-c||y-c| <= r^2*|x-y|^2, so it does not increase distances outside the ball (inside it can: two points at distance e may be sent to opposite points); moving each of the points by at most e moves the centroid by at most e; angle_between satisfies the triangle inequality.", "quantifier": "all pairs of arguments in every dimension, all lines, planes, circles and spheres", "why_tests_cant": "continuity is a statement about all pairs of nearby inputs", "anchors": ["src/skspatial/objects/line.py:Line.distance_point", "src/skspatial/objects/line.py:Line.project_point", "src/skspatial/objects/plane.py:Plane.distance_point_signed", "src/skspatial/objects/plane.py:Plane.project_point", "src/skspatial/objects/_base_sphere.py:_BaseSphere.project_point", "src/skspatial/objects/points.py:Points.centroid", "src/skspatial/objects/vector.py:Vector.angle_between"]}
{"id": "C79", "title": "Loosening a tolerance only turns False into True", "statement": "Over the reals and in double precision, for all objects: if a test (is_close, is_zero, is_perpendicular, is_parallel, contains_point, Triangle.is_right, are_concurrent/collinear/coplanar, is_coplanar) returns True, it returns True with every larger tolerance (math.isclose-style relative and absolute tolerance, absolute rank tolerance); the affine rank never grows with its tolerance; if a function that refuses degenerate input (the intersections of lines, planes and segments, Plane.from_vectors/from_points, Circle.from_points, the best fits, Triangle.orthocenter) returns with some tolerance, it returns the same result with every smaller one. Not so for Triangle.classify ('isosceles' can become 'scalene') and Plane.project_line (the looser tolerance can return a different line).", "quantifier": "all pairs of tolerances, all arguments, reals and doubles, any linear-algebra backend", "why_tests_cant": "a quantifier over pairs of tolerances and all inputs", "anchors": ["src/skspatial/objects/_functions.py:_contains_point", "src/skspatial/objects/vector.py:Vector.is_parallel", "src/skspatial/objects/points.py:Points.affine_rank", "src/skspatial/objects/plane.py:Plane.intersect_line", "src/skspatial/objects/triangle.py:Triangle.classify", "src/skspatial/objects/plane.py:Plane.project_line"]}
{"id": "C80", "title": "Different routes to the same answer agree", "statement": "Where the library offers two ways to compute one thing they give the same result: Plane.project_point(q) is Plane.intersect_line(Line(q, normal)), Line.project_point(q) is where the line meets the plane through q with the line's direction as normal, projecting vectors is projecting points relative to the origin, Sphere.project_point(q) is the second point of Sphere.intersect_line(Line.from_points(center, q)); in 2D a Line and the Plane with the direction turned clockwise as normal have the same sides, distances, projections, containment and intersections; angle_signed is angle_signed_3d about the third axis; Triangle.area is area_triangle and Triangle.normal is the normal of Plane.from_points; area_triangle is half of distance_point times Line.distance_point, volume_tetrahedron a third of area_triangle times Plane.distance_point; norm is distance from the origin; at tolerance 0 are_collinear is Line.from_points(a,b).contains_point(c), are_coplanar is Plane.from_points(a,b,c).contains_point(d) and volume 0; Line.is_coplanar of two lines through pairs of points is are_coplanar of the four points; Line.best_fit and Plane.best_fit of points that lie on a line (plane) return that line (plane), so they agree with from_points; Circle.best_fit of three points is Circle.from_points; Sphere.best_fit of four points passes through them and is the only sphere that does.", "quantifier": "all points, vectors, lines, planes, circles, spheres and triangles of the dimensions named; all tolerances where one is passed; all point sets for the fits", "why_tests_cant": "Each equality relates two different code paths on the same arbitrary input; unit tests compare each path with stored numbers only.", "anchors": ["src/skspatial/objects/plane.py:Plane.project_point", "src/skspatial/objects/plane.py:Plane.intersect_line", "src/skspatial/objects/plane.py:Plane.from_points", "src/skspatial/objects/plane.py:Plane.best_fit", "src/skspatial/objects/line.py:Line.project_point", "src/skspatial/objects/line.py:Line.side_point", "src/skspatial/objects/line.py:Line.best_fit", "src/skspatial/objects/line.py:Line.is_coplanar", "src/skspatial/objects/sphere.py:Sphere.intersect_line", "src/skspatial/objects/sphere.py:Sphere.best_fit", "src/skspatial/objects/circle.py:Circle.from_points", "src/skspatial/objects/circle.py:Circle.best_fit", "src/skspatial/objects/triangle.py:Triangle.area", "src/skspatial/objects/triangle.py:Triangle.normal", "src/skspatial/measurement.py:area_triangle", "src/skspatial/measurement.py:volume_tetrahedron"]}
{"id": "C81", "title": "The text of an object is the constructor call that recreates it", "statement": "repr() of a Line, Plane, LineSegment, Circle, Sphere, Triangle or Cylinder reads as a call of the object's own class with one keyword argument per constructor parameter, in order, holding the object's attributes. Whatever printers are used for arrays and numbers (as long as their brackets are balanced): two objects with the same text are of the same class and their attributes print alike, so with faithful printers different objects have different texts; and if arrays and numbers can be read back, evaluating the text calls the constructor again, which accepts and returns an equal object.", "quantifier": "all objects, all array and number printers with balanced brackets, all decoders", "why_tests_cant": "ranges over all objects and all printing options of numpy", "anchors": ["src/skspatial/objects/_base_line_plane.py:_BaseLinePlane.__repr__", "src/skspatial/objects/line_segment.py:LineSegment.__repr__", "src/skspatial/objects/_base_sphere.py:_BaseSphere.__repr__", "src/skspatial/objects/triangle.py:Triangle.__repr__", "src/skspatial/objects/cylinder.py:Cylinder.__repr__"]}
{"id": "C82", "title": "Double-precision accuracy does not depend on the order of summation", "statement": "dot, norm, distance_point, unit and cosine_similarity of vectors with coordinates up to 2^500 and up to a million dimensions are accurate to a small multiple of dimension * 2^-53 of the exact value whatever order numpy or BLAS adds the products in: left to right, pairwise, blocked, SIMD lanes, accumulators starting at zero, fused multiply-adds. No partial sum of any order overflows. The order of the model is one of these orders; different orders can give different doubles, but each is within the bound.", "quantifier": "all vectors of doubles up to 2^500 in up to 2^20 dimensions, all bracketings and permutations of the sum, with or without FMA", "why_tests_cant": "the order is chosen by the numpy/BLAS build and the CPU; tests run one build on a few vectors", "anchors": ["src/skspatial/objects/vector.py:Vector.norm", "src/skspatial/objects/vector.py:Vector.unit", "src/skspatial/objects/vector.py:Vector.cosine_similarity", "src/skspatial/objects/point.py:Point.distance_point", "src/skspatial/objects/vector.py:Vector.dot"]}
{"id": "C83", "title": "In double precision the default tolerance absorbs the rounding errors", "statement": "With the default tolerances, in IEEE doubles: comparing a computed cosine with 1 or -1 is itself free of rounding error. Vector.is_parallel answers True whenever the exact |cosine| exceeds 1 - rel_tol by (3n+20)*2^-53 and False whenever it falls short by as much; vectors that are exactly linearly dependent (including zero vectors) are always recognised, so Line.intersect_line, Plane.from_vectors, Plane.intersect_plane and Plane.project_line raise ValueError for exactly parallel inputs and never return a result of rounding noise. LineSegment.contains_point is decided the same way and recognises every point exactly on the segment, endpoints included. is_perpendicular (whose tolerance is relative to 0, hence 0) is True exactly when the rounded dot product is 0: that is exact in 2D for exactly perpendicular vectors and for integer coordinates with small products, but in 3D exactly perpendicular vectors may not be recognised, and Plane.intersect_line then returns a point for a line parallel to the plane.", "quantifier": "all vectors of doubles with coordinates up to 2^500 (2^499 for points) in up to 2^20 dimensions whose lengths do not underflow", "why_tests_cant": "the rounding error depends on every bit of every coordinate; tests use a handful of vectors", "anchors": ["src/skspatial/objects/vector.py:Vector.is_parallel", "src/skspatial/objects/vector.py:Vector.is_perpendicular", "src/skspatial/objects/vector.py:Vector.is_zero", "src/skspatial/objects/line_segment.py:LineSegment.contains_point", "src/skspatial/objects/line.py:Line.intersect_line", "src/skspatial/objects/plane.py:Plane.from_vectors", "src/skspatial/objects/plane.py:Plane.intersect_plane", "src/skspatial/objects/plane.py:Plane.intersect_line", "src/skspatial/objects/plane.py:Plane.project_line"]}
{"id": "C84", "title": "Projections and distances are accurate in double precision", "statement": "In IEEE doubles, for points with coordinates up to 2^499 (2^400 where the distance to the projected point is taken), directions and normals with coordinates up to 2^500 that do not underflow, in n <= 2^20 dimensions: Vector.scalar_projection is within (2n+10)*2^-53*|other| of the exact value; every coordinate of Vector.project_vector is within (2n+10)*2^-53*|other|*|v_i|/|v|; Line.project_point and Plane.project_point return a point within (2n+13)*2^-53*|pq| + 2^-53*|foot| of the exact foot of the perpendicular; Plane.distance_point_signed and distance_point are within (2n+12)*2^-53*|pq|; Line.distance_point within (3n+22)*2^-53*(|pq|+|p|) (plus underflow terms below 2^-510). None of them overflows. Hence Plane.side_point is right for every point farther from the plane than the bound, and contains_point(q, abs_tol=a) of a Line or Plane is True for every point whose exact distance is below a minus the bound and False above a plus the bound.", "quantifier": "all lines, planes, points and vectors of doubles in that range, all absolute tolerances", "why_tests_cant": "rounding errors depend on every bit of the input; tests compare a few values with approx", "anchors": ["src/skspatial/objects/vector.py:Vector.scalar_projection", "src/skspatial/objects/vector.py:Vector.project_vector", "src/skspatial/objects/line.py:Line.project_point", "src/skspatial/objects/line.py:Line.distance_point", "src/skspatial/objects/plane.py:Plane.project_point", "src/skspatial/objects/plane.py:Plane.distance_point_signed", "src/skspatial/objects/plane.py:Plane.distance_point", "src/skspatial/objects/plane.py:Plane.side_point", "src/skspatial/objects/_base_line_plane.py:_BaseLinePlane.contains_point"]}
{"id": "C85", "title": "Circles, spheres, areas, volumes and centroids are accurate in double precision", "statement": "In IEEE doubles: for a Circle or Sphere and a point with coordinates and radius up to 2^500, distance_point is within 9*2^-53*D + 2^-53*|D-r| of |D-r|, D being the exact distance of the point from the centre (plus 2^-519), so contains_point(q, abs_tol=a) is True for every point whose exact distance is below a by that bound and False for every point above by it; project_point (coordinates up to 2^499, D >= 2^-399) returns a point within 14*2^-53*r + 2^-53*|f| + 2^-560 of the exact nearest point f. For points with up to three coordinates up to 2^200, area_triangle is within 7*2^-53*|ab|*|ac| + 2^-519 of half of base times height, and volume_tetrahedron within 3*2^-53*|ab|*|ac|*|ad| + 2^-840 of a third of base area times height; both are non-negative. Each coordinate of Points.centroid of m <= 2^20 points (coordinates up to 2^500) is within (m+2)*2^-53 times the mean absolute coordinate (plus 2^-1075) of the exact mean. None of them overflows.", "quantifier": "all circles, spheres, triangles, tetrahedra and point sets of doubles in that range", "why_tests_cant": "rounding errors depend on every bit of the input; tests compare a few values with approx", "anchors": ["src/skspatial/objects/_base_sphere.py:_BaseSphere.distance_point", "src/skspatial/objects/_base_sphere.py:_BaseSphere.contains_point", "src/skspatial/objects/_base_sphere.py:_BaseSphere.project_point", "src/skspatial/measurement.py:area_triangle", "src/skspatial/measurement.py:volume_tetrahedron", "src/skspatial/objects/points.py:Points.centroid"]}
{"id": "C86", "title": "Whole-number and fixed-point coordinates are computed exactly in double precision", "statement": "If all coordinates are doubles of the form m*2^e with whole numbers |m| <= M (integers, halves, quarters, ...) and M is not too large, then in IEEE doubles: Vector.from_points, dot and cross are exact (dot in any order of summation and with fused multiply-add); norm and distance_point return the correctly rounded value, hence the exact one whenever it lies on the grid; is_zero and is_perpendicular decide exactly; Line.from_points raises exactly when the points coincide; for 2D points side_point of the line through a and b is 1, -1, 0 exactly as c is to the right, to the left, on the line; area_signed is exact; area_triangle is half the correctly rounded double area and zero exactly for collinear points; volume_tetrahedron is within 3*2^-53 relative and zero exactly for coplanar points; Plane.cartesian is exact and a Plane.from_vectors that succeeds has the exact normal; Circle/Sphere.contains_point with default tolerances is True exactly when the distance from the centre equals the radius; Plane.intersect_line raises exactly for parallel pairs and is otherwise within 2^-53*|X| + 3*2^-53*|X-p| in each coordinate X; Plane.side_point is right for every point off the plane. It is not right on the plane: (0,-4,3) is reported on one side of the plane 3y+4z=0 and contains_point denies it.", "quantifier": "all whole-number and fixed-point inputs up to the stated size, in any dimension unless stated", "why_tests_cant": "exactness holds for infinitely many inputs and fails just beyond the size bound or for other operations; tests use a few small integers", "anchors": ["src/skspatial/objects/vector.py:Vector.from_points", "src/skspatial/objects/vector.py:Vector.dot", "src/skspatial/objects/vector.py:Vector.cross", "src/skspatial/objects/point.py:Point.distance_point", "src/skspatial/objects/line.py:Line.side_point", "src/skspatial/objects/plane.py:Plane.intersect_line", "src/skspatial/objects/plane.py:Plane.side_point", "src/skspatial/objects/_base_sphere.py:_BaseSphere.contains_point", "src/skspatial/measurement.py:area_signed"]}
{"id": "C87", "title": "Circle.intersect_circle decides exactly and is accurate for whole-number and fixed-point circles in double precision", "statement": "If the centres' coordinates and the radii are doubles m*2^e with whole numbers |m| <= M, then in IEEE doubles: for 8*M^2 < 2^50 Circle.intersect_circle raises ValueError for coincident centres, for separate circles and for a circle inside the other exactly when these are the case (with the message naming it); for circles that touch, inside or outside, it returns a pair of two equal points, each coordinate within 2^-53*|T| + 1.01*2^-53*|T-p| + 2^-1074 of the coordinate T of the only common point (p being the first centre), and exactly T when T is a multiple of 2^e. For M <= 2^15 and circles that cross it never fails, and returns two points of which each coordinate is within 2^-53*(8*D+28*r)*r/h + 3*2^-53*|X| of the coordinate X of one of the two common points, each common point being approximated by one returned point; D is the distance of the centres, r the first radius, h half the length of the common chord.", "quantifier": "all circles with whole-number or fixed-point data up to the stated size, all relative positions", "why_tests_cant": "near-tangent circles are where rounding decides between a result, an error and a math domain error; tests use a few well-separated cases", "anchors": ["src/skspatial/objects/circle.py:Circle.intersect_circle", "src/skspatial/objects/circle.py:Circle.__init__"]}
{"id": "C88", "title": "Triangle.classify and is_right are exact for whole-number and fixed-point triangles in double precision", "statement": "If the vertices' coordinates are doubles m*2^e with whole numbers |m| <= M and n*(2*M)^2 <= 2^28 in n dimensions, and the vertices are distinct, then in IEEE doubles with the default tolerance 1e-9, whatever SVD routine accepted the triangle: classify answers 'equilateral' exactly when the three exact side lengths are equal, 'isosceles' exactly when exactly two are, 'scalene' exactly when all differ; is_right answers True exactly when two exact sides are perpendicular. Neither fails. For larger whole numbers this is false: (0,0), (60000,1), (1,-59999) is reported right-angled, and (0,0), (60000,1), (0,-60000) isosceles.", "quantifier": "all triangles with whole-number or fixed-point vertices up to the stated size, any dimension, any SVD routine", "why_tests_cant": "whether rounding and tolerance together ever blur two different integers under square roots depends on all bits of the input; tests use a few small triangles", "anchors": ["src/skspatial/objects/triangle.py:Triangle.classify", "src/skspatial/objects/triangle.py:Triangle.is_right", "src/skspatial/objects/triangle.py:Triangle.length"]}
{"id": "C89", "title": "Batch methods reject ragged and empty point lists and return one entry per point", "statement": "If the points passed to Line.project_points, Line.sum_squares, Plane.project_points, Plane.distance_points_signed, Plane.distance_points, Plane.sum_squares, transform_coordinates or Points(...) are empty or have rows of different lengths, the call raises ValueError; so does transform_coordinates for such a basis. Whenever one of these methods returns, the points were a 2D array and the result has exactly one entry per point (for project_points again a 2D array, for transform_coordinates one coordinate per basis vector).", "quantifier": "all lists of rows, all lines, planes, origins, bases and all number types", "why_tests_cant": "Ragged shapes and list lengths are unbounded; tests try a few.", "anchors": ["src/skspatial/objects/line.py: Line.project_points", "src/skspatial/objects/plane.py: Plane.project_points, Plane.distance_points_signed, Plane.distance_points", "src/skspatial/_functions.py: _sum_squares", "src/skspatial/transformation.py: transform_coordinates"]}
{"id": "C90", "title": "Sphere.intersect_line in double precision", "statement": "In IEEE doubles, with coordinates, radius and direction length between 2^-200 and 2^200 in size, let d be the distance of the sphere's centre C from the line, r the radius and s = |P-C|^2 + r^2 for the line's point P. If d^2 > r^2 + 75*2^-53*s, Sphere.intersect_line raises ValueError; if d^2 < r^2 - 75*2^-53*s it returns two points, in the order of the direction, whose coordinates differ from those of the exact intersection points X by at most 2^-53*|X| + 130*2^-53*s/h, h being half the chord. For whole-number and fixed-point inputs (coordinates and radius up to M steps, direction up to M' steps, M*M' <= 2^20) the decision is right for every line that is not tangent. For tangent lines it is not: the line through (1,-2,2) with direction (0,-1,1) touches the unit sphere and is rejected.", "quantifier": "all spheres and lines of doubles in the stated range; all fixed-point inputs of the stated size", "why_tests_cant": "Rounding errors differ for every input; tests try a few.", "anchors": ["src/skspatial/objects/sphere.py: Sphere.intersect_line"]}
{"id": "C91", "title": "Circle.intersect_line in double precision", "statement": "In IEEE doubles, let all coordinates of the circle's centre and of the line's point and the radius be at most B in size, 1 <= B <= 2^40, the direction's length and coordinates lie between 2^-200 and 2^200, d be the distance of the centre from the line and r the radius. If d^2 > r^2 + 2^-43*B^3, Circle.intersect_line raises ValueError; if d^2 < r^2 - 2^-43*B^3 it returns two points whose coordinates differ from those of the two exact intersection points by at most 2^-42*B^3/h, h being half the chord. They come in the order of the direction if its y-component is 0 or clearly positive, in the opposite order if it is clearly negative (by 2^-48*B times its length). For whole-number and fixed-point inputs (coordinates and radius up to M steps 2^e with B = M*2^e >= 1, direction up to M' steps, M^3*M'^2*2^e <= 2^40) this means: ValueError exactly when the line passes outside, two accurate points in upward (or left-to-right) order when it passes inside. Two limits are refuted: an exactly tangent line can be rejected, and a line through the centre whose defining point is far away (2^60, 0) raises a ValueError about finite values, because the second point p + u of the line rounds back to p.", "quantifier": "all circles and lines of doubles in the stated range; all fixed-point inputs of the stated size", "why_tests_cant": "Rounding errors differ for every input; tests try a few small ones near the origin.", "anchors": ["src/skspatial/objects/circle.py: Circle.intersect_line"]}
{"id": "C92", "title": "Pairs of lines with whole-number coordinates in double precision", "statement": "In IEEE double precision, for vectors whose components are whole multiples of a power of two, Vector.is_parallel is exactly right as long as n*M*M' <= 2^14, M and M' being the largest multiples used (beyond this it can be wrong: (200, 199) and (199, 198) are called parallel, and two lines with these directions that do cross are refused by Line.intersect_line). For lines in at most three dimensions with such directions (n*M'^2 <= 2^14) and points on a grid of up to 2^27 steps, Line.intersect_line raises 'The lines must not be parallel.' exactly when they are parallel; otherwise, whenever the coplanarity check is off or passes, each coordinate of the point returned differs from the true meeting point X (for skew lines, the point of the first line nearest to the second) by at most 2^-53 |X_i| + 7*2^-53 |X_i - p_i| + 2^-1073, p being the first line's point; if X is p itself, p is returned exactly. Line.distance_line is, for parallel lines, within (3n+22) 2^-53 (|pq| + |p|) + 2^-510 of the true distance; exactly 0 for lines the coplanarity check accepts; and within a relative error of 3*2^-53 for lines it rejects.", "quantifier": "all pairs of vectors / lines on a binary grid of the stated size, any scale exponent within [-100, 100] ([-300, 300] for is_parallel), and any SVD routine", "why_tests_cant": "tests compare a handful of intersections with a tolerance; they cannot show that no pair of grid directions is misclassified, nor a bound on the error that holds for all pairs", "anchors": ["src/skspatial/objects/line.py: Line.intersect_line", "src/skspatial/objects/line.py: Line.distance_line", "src/skspatial/objects/vector.py: Vector.is_parallel"]}
{"id": "C93", "title": "Crossing line segments with whole-number endpoints in double precision", "statement": "In IEEE double precision, for line segments ab and cd in at most three dimensions whose endpoints are whole multiples (up to 2^16) of one power of two and whose edges have components of at most M' steps (n*M'^2 <= 2^14), LineSegment.intersect_line_segment raises 'The lines must not be parallel.' exactly when the edges are parallel. Otherwise, whenever the coplanarity check is off or passes, and the point X common to both lines is a, or is none of the endpoints b, c, d, the outcome is the right one: if X is on both segments a point is returned, each coordinate within 2^-53 |X_i| + 7*2^-53 |X_i - a_i| + 2^-1073 of X; if X is not on both, 'The line segments must intersect.' is raised. Segments that touch in another endpoint are not always recognised: (0,0)-(49,49) and (1,1)-(2,1) share (1,1), and are said not to intersect; asked in the other order, (1,1) is returned.", "quantifier": "all pairs of segments on a binary grid of the stated size, any scale exponent within [-100, 100], any position of the crossing point outside the named endpoints, and any SVD routine", "why_tests_cant": "the decision rests on a cosine compared with -1 within 1e-9, at a point that carries rounding errors: tests with a few segments cannot show that no crossing is missed or invented; the touching case that does fail was found while proving", "anchors": ["src/skspatial/objects/line_segment.py: LineSegment.intersect_line_segment", "src/skspatial/objects/line_segment.py: LineSegment.contains_point", "src/skspatial/objects/line.py: Line.intersect_line"]}
{"id": "C94", "title": "Planes with whole-number coordinates in double precision", "statement": "In IEEE double precision, for vectors a, b whose components are whole multiples of a power of two (n*M'^2 <= 2^14, M' being the largest multiple), Plane.from_vectors raises 'The vectors must not be parallel.' exactly when they are parallel, and otherwise its normal is exactly the cross product; Plane.from_points never gives a plane for collinear points of this kind, whatever the SVD says, and otherwise its point and normal are exact. For planes with such normals and grid points in 3D, Plane.intersect_plane raises 'The planes must not be parallel.' exactly when the normals are parallel; otherwise the system handed to the linear solver is exactly the right one, the direction of the line returned is exactly the cross product of the normals, and if the solver satisfies each equation up to rho, the line returned and the true line of intersection are within rho (|n| + |m|) / |n x m| of each other, and the point returned is within 3/2 rho, along the line, of the point nearest to the origin.", "quantifier": "all planes on binary grids of the stated size, any scale exponents within [-100, 100] ([-200, 200] for from_vectors), any SVD routine and any linear solver with residual rho", "why_tests_cant": "tests run a few planes through one LAPACK build: they cannot show that no parallel pair is missed, nor separate the error of the solver from errors made by the library", "anchors": ["src/skspatial/objects/plane.py: Plane.intersect_plane", "src/skspatial/objects/plane.py: Plane.from_vectors", "src/skspatial/objects/plane.py: Plane.from_points"]}
{"id": "C95", "title": "round in double precision", "statement": "In IEEE double precision round(0) replaces every finite coordinate, of any size, by exactly the nearest whole number (the even one in a tie). For -15 <= d <= 15, d not 0, and finite coordinates up to 2^900 in size, round(d) returns finite coordinates; each is the double nearest to k/10^d for a whole number k that differs from x*10^d by at most 1/2 plus the rounding error of that product, and unless x*10^d lies within that rounding error of a half-integer the result is the double nearest to x correctly rounded to d decimals (ties to even). For 1 <= d <= 15 and |x|*10^d <= 2^49 rounding twice gives the same numbers as rounding once. Next to a half-integer the nearest decimal can be missed (2.675 is below the tie but rounds to 2.68), and a finite coordinate can become infinite (1e300 rounded to 10 decimals), which breaks the rule that arrays hold finite values only.", "quantifier": "all finite doubles (of size up to 2^900 for d not 0), arrays of any length, all numbers of decimals from -15 to 15", "why_tests_cant": "2^64 values per coordinate; wrong results only appear within one rounding error of a tie, where tests with a few decimals do not look", "anchors": ["src/skspatial/objects/_base_array.py: _BaseArray", "src/skspatial/objects/vector.py: Vector", "src/skspatial/objects/points.py: Points"]}
{"id": "C96", "title": "Lines and planes with whole-number coordinates compared in double precision", "statement": "In IEEE double precision, let two lines or two planes of dimension n have points whose coordinates are whole multiples of 2^e up to M steps (n*M^2 <= 2^50) and directions or normals whose components are whole multiples, up to K steps, of powers of two 2^f and 2^g, n*K^2 <= 2^14. Then is_close(other, abs_tol=a) answers True exactly when the two objects are the same set of points, for every a between the rounding error (3n+22)*3n*M*2^(e-53) + 2^-510 and 1e-9 that is below 2^(e-8), 2^(2f) and 2^(2g): for whole numbers up to 1000 in the plane or in space, a = 1e-9 always works. Vector.is_parallel(other, abs_tol=a) is exactly right in the same range. Without abs_tol (the default) this fails already for small whole numbers: Line([0, 0], [49, 0]) is not close to Line([1, 0], [1, 0]), although the second is close to the first, and two equal planes with coordinates up to 4 are told apart.", "quantifier": "all pairs of lines and of planes on binary grids of the stated size, in every dimension n with n*K^2 <= 2^14, all tolerances in the stated range", "why_tests_cant": "is_close compares a rounded distance with a tolerance: tests with a few lines cannot show that no equal pair is missed and no distinct pair is accepted", "anchors": ["src/skspatial/objects/_base_line_plane.py: _BaseLinePlane.is_close", "src/skspatial/objects/_base_line_plane.py: _BaseLinePlane.contains_point", "src/skspatial/objects/vector.py: Vector.is_parallel"]}
{"id": "C97", "title": "Circles, spheres and cylinders measured in double precision", "statement": "In IEEE double precision, with math.pi as the double 3.141592653589793 and for radii and axis lengths between 2^-200 and 2^200: Circle.circumference and Circle.area, Sphere.surface_area and Sphere.volume, and Cylinder.length, lateral_surface_area, surface_area and volume are finite and agree with the true values 2*pi*r, pi*r^2, 4*pi*r^2, 4/3*pi*r^3, |v|, 2*pi*r*|v|, 2*pi*r*|v| + 2*pi*r^2 and pi*r^2*|v| up to a few units of 2^-53 relative error (at most 13). Cylinder.is_point_within answers True for a point further than e inside the side and both caps and False for a point further than e outside one of them, where e = 31*2^-53*(distance from the base point + length of the base point + height) + 2^-510. Exactly on the surface it can be wrong: the point (1, -3, 2) of the base disk of Cylinder([0, 0, 0], [1, 1, 1], 4) is reported outside.", "quantifier": "all circles, spheres and cylinders that can be constructed from doubles in the stated range, all query points with coordinates below 2^400", "why_tests_cant": "the number of roundings and the value of pi enter every result; sampled radii show small errors but no bound, and the boundary failures need a search", "anchors": ["src/skspatial/objects/circle.py: Circle.area", "src/skspatial/objects/circle.py: Circle.circumference", "src/skspatial/objects/sphere.py: Sphere.surface_area", "src/skspatial/objects/sphere.py: Sphere.volume", "src/skspatial/objects/cylinder.py: Cylinder.volume", "src/skspatial/objects/cylinder.py: Cylinder.is_point_within"]}
{"id": "C98", "title": "Batch methods in double precision", "statement": "In IEEE double precision: Plane.distance_points_signed and Plane.distance_points return, entry by entry, exactly the doubles that distance_point_signed and distance_point return for the same points, for every plane and every non-empty rectangular list of points the single-point methods accept. Plane.distance_points_signed is accurate to (2n+12)*2^-53*|q-p| + 2^-550. Line.project_points and Plane.project_points normalise the direction first: each row is within (3n+20)*2^-53*|q-p| + 2^-53*|foot| + 2^-528 of the true foot of the perpendicular, and Line.distance_points is within (4n+30)*2^-53*(|q-p|+|p|) + 2^-510 of the true distance and never negative. The batch methods of a line are not bitwise equal to the single-point ones: for Line([0, 0], [1, 1]) and the point (1, 1) on it, project_point returns (1, 1) and distance_point 0, but project_points([[1, 1]]) returns (0.9999999999999998, 0.9999999999999998) and distance_points([[1, 1]]) a positive number.", "quantifier": "all lines and planes with coordinates up to 2^499 (distances: 2^400) and directions of length at least 2^-400, in every dimension up to 2^20, all non-empty lists of points; the bitwise claim for all doubles", "why_tests_cant": "the batch code takes a different arithmetic route than the single-point code: samples agree to printing precision and say nothing about bitwise equality or the worst rounding error", "anchors": ["src/skspatial/objects/line.py: Line.project_points", "src/skspatial/objects/line.py: Line.distance_points", "src/skspatial/objects/plane.py: Plane.project_points", "src/skspatial/objects/plane.py: Plane.distance_points_signed", "src/skspatial/objects/plane.py: Plane.distance_points"]}
{"id": "C99", "title": "Triangles in double precision", "statement": "In IEEE double precision, for every Triangle of dimension n whose sides are at least 2^-399 long and whose coordinates stay below 2^400: length('a'), length('b') and length('c') are within (n+5)*2^-53*(true side) + 2^-520 of the true side opposite that vertex, perimeter() is within (n+8)*2^-53*P + 2^-518 of the true perimeter P, area() (n <= 3, coordinates below 2^200) is within 7*2^-53*|ab|*|ac| + 2^-519 of base times height over two and never negative, and each coordinate of centroid() is within 5*2^-53 times the mean absolute coordinate + 2^-1075 of the mean. classify() with the default tolerances (n <= 1000) is exactly right whenever every two sides either agree to within 4e-10 of the larger or differ by at least 1.6e-9 of it: 'equilateral' when all three agree, 'isosceles' when exactly one pair does, 'scalene' when none does. A triangle with sides of 1e-170 can be constructed, but its length and perimeter raise 'The vector must not be the zero vector.' instead of answering.", "quantifier": "all triangles the constructor accepts with any SVD routine, in every dimension up to 2^20 (area 3, classify 1000), of the stated size and shape, however thin", "why_tests_cant": "the sides pass through differences, squares and roots, each rounded; sampled triangles show small errors but no bound, and the underflow failure needs very small sides", "anchors": ["src/skspatial/objects/triangle.py: Triangle.length", "src/skspatial/objects/triangle.py: Triangle.perimeter", "src/skspatial/objects/triangle.py: Triangle.area", "src/skspatial/objects/triangle.py: Triangle.centroid", "src/skspatial/objects/triangle.py: Triangle.classify"]}
{"id": "C100", "title": "Starting direction of Cylinder.best_fit in double precision", "statement": "In IEEE double precision, whenever Line.best_fit of the points gives a direction in 3D (components up to 2^500, length at least 2^-400), the two starting angles of Cylinder.best_fit are computed without leaving the domain of arccos: the polar angle is arccos of a finite double in [-1, 1], and the azimuth is either 0 or the sign of y times arccos of a finite double in [-1, 1]; so no nan starts the search, although each quotient is a rounded coordinate over a rounded root of a rounded sum of squares. More generally this holds for every double vector with components up to 2 and squared length at least 1/4, and the azimuth is 0 when |x| and |y| are both at most 1e-9. For much smaller vectors it fails: z = 1e-160 exceeds the rounded square root of its rounded square, so arccos gives nan.", "quantifier": "all point sets and SVD routines for which the line fit gives such a direction; all doubles of the stated size; any arccos", "why_tests_cant": "a quotient one unit in the last place above 1 turns into nan: sampled directions cannot exclude it, since it depends on the rounding of a root of a rounded square for each of 2^64 doubles", "anchors": ["src/skspatial/objects/cylinder.py: Cylinder.best_fit"]}
