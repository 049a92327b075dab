{"id": "C01", "title": "Angles are normalised into [-180, 180]", "statement": "For every finite number x, AngleDeg(x) does not raise and degree() lies in [-180, 180]; infinities raise ValueError and NaN stays NaN. abs() is that degree's magnitude, in [0,180], and get_normalized() maps it linearly onto [0,1] (in doubles: abs() is exact, get_normalized() stays in [0,1] and is off by at most 2^-44 degree).", "quantifier": "all finite IEEE-754 doubles x (and all real x)", "why_tests_cant": "2^64 doubles, including huge values where fmod matters, cannot be enumerated.", "anchors": ["src/pyrusgeom/angle_deg.py:AngleDeg.__init__", "src/pyrusgeom/angle_deg.py:AngleDeg.normal", "src/pyrusgeom/angle_deg.py:AngleDeg.degree"]}
{"id": "C02", "title": "Normalisation never changes the direction", "statement": "AngleDeg(x).degree() differs from x by an exact integer multiple of 360 - with no rounding error at all, even in IEEE double arithmetic - and equals x when x is already in [-180, 180].  AngleDeg() is the zero angle.", "quantifier": "all finite IEEE-754 doubles x (and all real x)", "why_tests_cant": "Exactness of floating point for every double is a universally quantified arithmetic fact.", "anchors": ["src/pyrusgeom/angle_deg.py:AngleDeg.normal"]}
{"id": "C03", "title": "No history of operations takes an angle out of range", "statement": "Start from any AngleDeg and apply any finite sequence of set_degree, set_angle, +=, -=, *=, copy-construction and reverse with arbitrary finite operands: after every step that does not raise the angle is in [-180, 180] (in double arithmetic: or is NaN).", "quantifier": "all operation sequences and all operands", "why_tests_cant": "The set of histories is infinite.", "anchors": ["src/pyrusgeom/angle_deg.py:AngleDeg.set_degree", "src/pyrusgeom/angle_deg.py:AngleDeg.__iadd__", "src/pyrusgeom/angle_deg.py:AngleDeg.reverse"]}
{"id": "C04", "title": "Angle arithmetic is arithmetic modulo 360", "statement": "(a+b).degree(), (a-b).degree() and (-a).degree() are congruent modulo 360 to the sum, difference and negation of the operands' degrees, for AngleDeg and plain-number right operands.", "quantifier": "all pairs of angles", "why_tests_cant": "The input space is unbounded (all numbers); tests sample finitely many.", "anchors": ["src/pyrusgeom/angle_deg.py:AngleDeg.__add__", "src/pyrusgeom/angle_deg.py:AngleDeg.__sub__", "src/pyrusgeom/angle_deg.py:AngleDeg.__neg__"]}
{"id": "C05", "title": "reverse() turns an angle by 180 degrees", "statement": "reverse() and reverse_angle() give an in-range angle that differs from the original by 180 modulo 360; applying it twice restores every angle except +180, which becomes -180.", "quantifier": "all angles", "why_tests_cant": "The input space is unbounded (all numbers); tests sample finitely many.", "anchors": ["src/pyrusgeom/angle_deg.py:AngleDeg.reverse", "src/pyrusgeom/angle_deg.py:AngleDeg.reverse_angle"]}
{"id": "C06", "title": "Left/right tests are a consistent circular order", "statement": "For any two angles exactly one of these holds: a is left of b, a is right of b, or they are the same or exactly opposite direction; a.is_left_of(b) iff b.is_right_of(a); the *_equal variants add exactly the case of equal degrees and coincide with a clockwise offset in [0,180).", "quantifier": "all pairs of angles (with the representation pair -180/180 treated explicitly)", "why_tests_cant": "The input space is unbounded (all numbers); tests sample finitely many.", "anchors": ["src/pyrusgeom/angle_deg.py:AngleDeg.is_left_of", "src/pyrusgeom/angle_deg.py:AngleDeg.is_right_of", "src/pyrusgeom/angle_deg.py:AngleDeg.is_left_equal_of", "src/pyrusgeom/angle_deg.py:AngleDeg.is_right_equal_of"]}
{"id": "C07", "title": "is_within is clockwise-interval membership", "statement": "x.is_within(left,right) iff the clockwise turn from left to x is no larger than the clockwise turn from left to right. This holds for all normalised angles unless one of the pairs (left,right), (left,x), (x,right) is (-180,+180): for (left,right) every direction but 0 is accepted, and in the other two cases x (which has the direction of the end point) is rejected.", "quantifier": "all triples of angles", "why_tests_cant": "The input space is unbounded (all numbers); tests sample finitely many.", "anchors": ["src/pyrusgeom/angle_deg.py:AngleDeg.is_within"]}
{"id": "C08", "title": "bisect halves the interval but on the side opposite to is_within", "statement": "bisect(left,right) always lies on the bisecting axis (equal angular distance to both); for non-collinear directions it is the direction inside the interval running clockwise from right to left, hence NOT within [left,right] in the sense of is_within.  For equal directions it is the opposite direction (except bisect(-180,180), which returns -180); for opposite directions it is a quarter turn from both (from right if left's degree is the smaller, from left otherwise).", "quantifier": "all pairs of angles", "why_tests_cant": "The input space is unbounded (all numbers); tests sample finitely many.", "anchors": ["src/pyrusgeom/angle_deg.py:AngleDeg.bisect"]}
{"id": "C09", "title": "Inverse trigonometric helpers are total, clamped and in range", "statement": "acos_deg, asin_deg, atan_deg never raise on any number and return values in [0,180], [-90,90], (-90,90); atan2_deg lies in (-180,180]; cos_deg(acos_deg(c)) and sin_deg(asin_deg(s)) return the argument clamped to [-1,1].", "quantifier": "all real arguments", "why_tests_cant": "The input space is unbounded (all numbers); tests sample finitely many.", "anchors": ["src/pyrusgeom/angle_deg.py:AngleDeg.acos_deg", "src/pyrusgeom/angle_deg.py:AngleDeg.asin_deg", "src/pyrusgeom/angle_deg.py:AngleDeg.atan_deg", "src/pyrusgeom/angle_deg.py:AngleDeg.atan2_deg"]}
{"id": "C10", "title": "Angle equality is a tolerance relation, not direction equality", "statement": "== on angles is reflexive and symmetric and means degrees differ by less than 1e-6; it is not transitive, and AngleDeg(180) != AngleDeg(-180) although they are the same direction.", "quantifier": "all angles", "why_tests_cant": "The input space is unbounded (all numbers); tests sample finitely many.", "anchors": ["src/pyrusgeom/angle_deg.py:AngleDeg.__eq__"]}
{"id": "C11", "title": "Trigonometric values depend only on the direction", "statement": "sin, cos of an AngleDeg built from x equal sin, cos of x degrees (normalisation is invisible), and cos^2+sin^2=1.", "quantifier": "all real x", "why_tests_cant": "The input space is unbounded (all numbers); tests sample finitely many.", "anchors": ["src/pyrusgeom/angle_deg.py:AngleDeg.cos", "src/pyrusgeom/angle_deg.py:AngleDeg.sin"]}
{"id": "C12", "title": "Polar round trip", "statement": "For every vector not inside the 1e-6 box round the origin, Vector2D.from_polar(v.r(), v.th()) has the coordinates of v; and for r>0 not tiny, from_polar(r,a) has length r and direction a modulo 360. Inside the box th() is 0.", "quantifier": "all vectors / all radii and angles", "why_tests_cant": "The input space is unbounded (all numbers); tests sample finitely many.", "anchors": ["src/pyrusgeom/vector_2d.py:Vector2D.th", "src/pyrusgeom/vector_2d.py:Vector2D.r", "src/pyrusgeom/vector_2d.py:Vector2D.from_polar", "src/pyrusgeom/vector_2d.py:Vector2D.set_polar"]}
{"id": "C13", "title": "rotate is a rotation", "statement": "rotate(d) preserves length, inner and outer products, composes additively in d, is undone by rotate(-d) and is the identity for multiples of 360.", "quantifier": "all vectors and angles", "why_tests_cant": "The input space is unbounded (all numbers); tests sample finitely many.", "anchors": ["src/pyrusgeom/vector_2d.py:Vector2D.rotate", "src/pyrusgeom/vector_2d.py:Vector2D.rotated_vector"]}
{"id": "C14", "title": "set_length sets the length and keeps the direction", "statement": "If |v|>1e-6, set_length(l) multiplies v by l/|v|, so its length is |l|; otherwise v is unchanged; normalize gives length 1; set_dir keeps the length.", "quantifier": "all vectors and lengths", "why_tests_cant": "The input space is unbounded (all numbers); tests sample finitely many.", "anchors": ["src/pyrusgeom/vector_2d.py:Vector2D.set_length", "src/pyrusgeom/vector_2d.py:Vector2D.normalize", "src/pyrusgeom/vector_2d.py:Vector2D.set_dir"]}
{"id": "C15", "title": "dist is a metric", "statement": "dist is total, non-negative, zero exactly for equal coordinates, symmetric, satisfies the triangle inequality and dist2 is its square; also dist(a,b) = |a-b|.", "quantifier": "all pairs/triples of points", "why_tests_cant": "The input space is unbounded (all numbers); tests sample finitely many.", "anchors": ["src/pyrusgeom/vector_2d.py:Vector2D.dist", "src/pyrusgeom/vector_2d.py:Vector2D.dist2"]}
{"id": "C16", "title": "Inner and outer product laws", "statement": "inner is symmetric bilinear, outer antisymmetric bilinear, inner^2+outer^2=|a|^2|b|^2, and inner=|a||b|cos(th b-th a), outer=|a||b|sin(th b-th a) (away from the 1e-6 box).", "quantifier": "all pairs of vectors", "why_tests_cant": "The input space is unbounded (all numbers); tests sample finitely many.", "anchors": ["src/pyrusgeom/vector_2d.py:Vector2D.inner_product", "src/pyrusgeom/vector_2d.py:Vector2D.outer_product"]}
{"id": "C17", "title": "The validity flag is only carried by set_vector", "statement": "Copy-construction, copy(), arithmetic and polar construction of an invalid vector always yield a valid one; in-place mutators leave the flag alone; set_vector copies it; == ignores it, so Vector2D.invalid() == Vector2D(0,0).", "quantifier": "all vectors, every constructor/operator", "why_tests_cant": "The input space is unbounded (all numbers); tests sample finitely many.", "anchors": ["src/pyrusgeom/vector_2d.py:Vector2D.__init__", "src/pyrusgeom/vector_2d.py:Vector2D.copy", "src/pyrusgeom/vector_2d.py:Vector2D.set_vector", "src/pyrusgeom/vector_2d.py:Vector2D.invalid"]}
{"id": "C18", "title": "Vector algebra", "statement": "+,- are inverse, associative and commutative on coordinates, scaling distributes, in-place operators agree with the pure ones, and dividing by 0 raises ZeroDivisionError (and only then).", "quantifier": "all vectors and scalars", "why_tests_cant": "The input space is unbounded (all numbers); tests sample finitely many.", "anchors": ["src/pyrusgeom/vector_2d.py:Vector2D.__add__", "src/pyrusgeom/vector_2d.py:Vector2D.__sub__", "src/pyrusgeom/vector_2d.py:Vector2D.__mul__", "src/pyrusgeom/vector_2d.py:Vector2D.__truediv__"]}
{"id": "C19", "title": "A line through two points is the line through two points", "statement": "The line built from distinct p,q contains a point iff it is p+t(q-p) for some t.", "quantifier": "all pairs of points, all query points", "why_tests_cant": "The input space is unbounded (all numbers); tests sample finitely many.", "anchors": ["src/pyrusgeom/line_2d.py:Line2D.__init__"]}
{"id": "C20", "title": "A line from point and direction", "statement": "Line2D(p, angle) contains exactly the points p+t(cos angle, sin angle) and has unit normal (a,b).", "quantifier": "all points, angles", "why_tests_cant": "The input space is unbounded (all numbers); tests sample finitely many.", "anchors": ["src/pyrusgeom/line_2d.py:Line2D.__init__"]}
{"id": "C21", "title": "Line distance is the minimum distance", "statement": "For a line with (a,b)!=(0,0), dist(p) is a lower bound of |p-q| over all q on the line and is attained; dist2 is its square; for a=b=0 both raise ZeroDivisionError.", "quantifier": "all lines and points", "why_tests_cant": "The input space is unbounded (all numbers); tests sample finitely many.", "anchors": ["src/pyrusgeom/line_2d.py:Line2D.dist", "src/pyrusgeom/line_2d.py:Line2D.dist2"]}
{"id": "C22", "title": "Line intersection is sound, unique and thresholded", "statement": "intersection returns a valid vector iff |a1*b2-b1*a2|>=1e-6; then it lies on both lines and is their only common point; otherwise the invalid vector. It never raises. is_parallel is exactly the complementary test. Non-parallel lines with small coefficients are therefore reported as non-intersecting.", "quantifier": "all pairs of lines", "why_tests_cant": "The input space is unbounded (all numbers); tests sample finitely many.", "anchors": ["src/pyrusgeom/line_2d.py:Line2D.line_intersection", "src/pyrusgeom/line_2d.py:Line2D.is_parallel", "src/pyrusgeom/line_2d.py:Line2D.intersection"]}
{"id": "C23", "title": "Projection is the nearest point of the line", "statement": "perpendicular(p) passes through p and is orthogonal; projection(p) is valid iff a^2+b^2>=1e-6 and is then on the line, with p-projection orthogonal to it and distance dist(p), minimal over the line.", "quantifier": "all lines and points", "why_tests_cant": "The input space is unbounded (all numbers); tests sample finitely many.", "anchors": ["src/pyrusgeom/line_2d.py:Line2D.perpendicular", "src/pyrusgeom/line_2d.py:Line2D.projection"]}
{"id": "C24", "title": "Perpendicular bisector is the equidistant locus", "statement": "For p,q not weakly equal, a point lies on perpendicular_bisector(p,q) iff its distances to p and q are equal; for weakly equal points a line through p is returned.", "quantifier": "all pairs of points, all query points", "why_tests_cant": "The input space is unbounded (all numbers); tests sample finitely many.", "anchors": ["src/pyrusgeom/line_2d.py:Line2D.perpendicular_bisector"]}
{"id": "C25", "title": "get_x/get_y solve the line equation", "statement": "get_x(y) satisfies a*x+b*y+c=0 when |a|>=1e-6, otherwise returns 1e20; symmetrically get_y.", "quantifier": "all lines and coordinates", "why_tests_cant": "The input space is unbounded (all numbers); tests sample finitely many.", "anchors": ["src/pyrusgeom/line_2d.py:Line2D.get_x", "src/pyrusgeom/line_2d.py:Line2D.get_y"]}
{"id": "C26", "title": "Line equality is not equality of point sets", "statement": "== is neither sound nor complete: there are equal-comparing lines with no common point and different-comparing lines with the same points; it holds for a line and itself and is symmetric.", "quantifier": "all pairs of lines", "why_tests_cant": "Whether a relation coincides with point-set equality quantifies over all points.", "anchors": ["src/pyrusgeom/line_2d.py:Line2D.__eq__"]}
{"id": "C27", "title": "Segment intersection test is exact", "statement": "exist_intersection(other segment) is True iff the two closed segments share a point - including all degenerate, collinear, touching and overlapping configurations.", "quantifier": "all pairs of segments", "why_tests_cant": "Degenerate/collinear configurations have many cases; correctness is a statement over all real coordinates.", "anchors": ["src/pyrusgeom/segment_2d.py:Segment2D.exist_intersection", "src/pyrusgeom/segment_2d.py:Segment2D.check_intersects_on_line"]}
{"id": "C28", "title": "Segment intersection test is symmetric", "statement": "s.exist_intersection(t) == t.exist_intersection(s), and swapping the endpoints of either segment does not change the answer; the symmetry holds verbatim in double arithmetic too.", "quantifier": "all pairs of segments, every arithmetic", "why_tests_cant": "The input space is unbounded (all numbers); tests sample finitely many.", "anchors": ["src/pyrusgeom/segment_2d.py:Segment2D.exist_intersection"]}
{"id": "C29", "title": "Segment/line intersection test is exact", "statement": "exist_intersection(line) is True iff some point of the segment satisfies the line equation.", "quantifier": "all segments and lines", "why_tests_cant": "The input space is unbounded (all numbers); tests sample finitely many.", "anchors": ["src/pyrusgeom/segment_2d.py:Segment2D.exist_intersection"]}
{"id": "C30", "title": "Proper-crossing test is exact", "statement": "exist_intersection_except_endpoint is True iff the segments are not parallel and share a point that is interior to both.", "quantifier": "all pairs of segments", "why_tests_cant": "The input space is unbounded (all numbers); tests sample finitely many.", "anchors": ["src/pyrusgeom/segment_2d.py:Segment2D.exist_intersection_except_endpoint"]}
{"id": "C31", "title": "nearest_point is the nearest point", "statement": "nearest_point(p) lies on the segment and no point of the segment is closer to p; never raises.", "quantifier": "all segments and points, all competitors", "why_tests_cant": "The input space is unbounded (all numbers); tests sample finitely many.", "anchors": ["src/pyrusgeom/segment_2d.py:Segment2D.nearest_point"]}
{"id": "C32", "title": "Segment-point distance is the minimum distance", "statement": "dist(p) equals |p-nearest_point(p)|, is <= |p-q| for every q of the segment and is attained.", "quantifier": "all segments and points", "why_tests_cant": "The input space is unbounded (all numbers); tests sample finitely many.", "anchors": ["src/pyrusgeom/segment_2d.py:Segment2D.dist"]}
{"id": "C33", "title": "Segment-segment distance is the minimum distance", "statement": "dist(segment) is <= |p-q| for every p, q of the two segments and is attained by some pair; it is 0 iff they share a point.", "quantifier": "all pairs of segments", "why_tests_cant": "The input space is unbounded (all numbers); tests sample finitely many.", "anchors": ["src/pyrusgeom/segment_2d.py:Segment2D.dist"]}
{"id": "C34", "title": "farthest_dist is the maximum distance", "statement": "farthest_dist(p) is >= |p-q| for every q of the segment and is attained.", "quantifier": "all segments and points", "why_tests_cant": "The input space is unbounded (all numbers); tests sample finitely many.", "anchors": ["src/pyrusgeom/segment_2d.py:Segment2D.farthest_dist"]}
{"id": "C35", "title": "on_segment is exact except on degenerate segments", "statement": "For origin != terminal, on_segment(p) iff p is a point of the segment. For a degenerate segment it wrongly accepts every point with the same y.", "quantifier": "all segments and points", "why_tests_cant": "The input space is unbounded (all numbers); tests sample finitely many.", "anchors": ["src/pyrusgeom/segment_2d.py:Segment2D.on_segment"]}
{"id": "C36", "title": "contains accepts the bounding rectangle up to tolerance", "statement": "Every point of the segment's axis-aligned bounding rectangle is accepted; an accepted point is at most 3.2e-5 outside it in each coordinate.", "quantifier": "all segments and points", "why_tests_cant": "The input space is unbounded (all numbers); tests sample finitely many.", "anchors": ["src/pyrusgeom/segment_2d.py:Segment2D.contains"]}
{"id": "C37", "title": "Segment intersection points are genuine", "statement": "A valid result of intersection(line) lies on the line and on the segment's carrier within the tolerance rectangle; intersection(segment) with endpoints disallowed is valid only if the segments properly cross and then is their unique common point.", "quantifier": "all pairs", "why_tests_cant": "The input space is unbounded (all numbers); tests sample finitely many.", "anchors": ["src/pyrusgeom/segment_2d.py:Segment2D.intersection"]}
{"id": "C38", "title": "Segment projection is the perpendicular foot", "statement": "If |segment|>=1e-6, projection(p) is the foot of the perpendicular when its parameter is within 1e-6 of the segment and the invalid vector otherwise; shorter segments give the origin.", "quantifier": "all segments and points", "why_tests_cant": "The input space is unbounded (all numbers); tests sample finitely many.", "anchors": ["src/pyrusgeom/segment_2d.py:Segment2D.projection", "src/pyrusgeom/segment_2d.py:Segment2D.on_segment_weakly"]}
{"id": "C39", "title": "Swapping a segment is an involution that keeps its geometry", "statement": "swap/reverse twice restores the segment, keep length and point set; reversed_segment leaves the receiver alone; is_valid is false iff the endpoints are weakly equal. direction() and length() are the polar form of terminal minus origin (direction 0 for a segment shorter than the tolerance).", "quantifier": "all segments", "why_tests_cant": "The input space is unbounded (all numbers); tests sample finitely many.", "anchors": ["src/pyrusgeom/segment_2d.py:Segment2D.swap", "src/pyrusgeom/segment_2d.py:Segment2D.reversed_segment", "src/pyrusgeom/segment_2d.py:Segment2D.is_valid"]}
{"id": "C40", "title": "Ray/line intersection is sound and directional", "statement": "A valid result of Ray.intersection(line) lies on the line and on the ray's carrier, in the ray's direction (forward, or within the 1e-6 box at the origin); and a crossing farther than that box in front of the ray is found whenever the lines are not reported parallel. A crossing point inside the 1e-6 box at the origin is reported only if the ray's own direction is within 10 degrees of 0.", "quantifier": "all rays and lines", "why_tests_cant": "The input space is unbounded (all numbers); tests sample finitely many.", "anchors": ["src/pyrusgeom/ray_2d.py:Ray2D.intersection", "src/pyrusgeom/ray_2d.py:Ray2D.in_right_dir"]}
{"id": "C41", "title": "Ray/ray intersection", "statement": "A valid result of Ray.intersection(ray) lies on both carriers, forward (or within the 1e-6 box) on both rays; results are symmetric in validity.", "quantifier": "all pairs of rays", "why_tests_cant": "The input space is unbounded (all numbers); tests sample finitely many.", "anchors": ["src/pyrusgeom/ray_2d.py:Ray2D.intersection"]}
{"id": "C42", "title": "Signed area laws", "statement": "double_signed_area is invariant under cyclic permutation and translation, negated by swapping, equals the outer product of the edge vectors; area()=|double|/2>=0; ccw iff positive.", "quantifier": "all triples of points", "why_tests_cant": "The input space is unbounded (all numbers); tests sample finitely many.", "anchors": ["src/pyrusgeom/triangle_2d.py:Triangle2D.double_signed_area_st", "src/pyrusgeom/triangle_2d.py:Triangle2D.area", "src/pyrusgeom/triangle_2d.py:Triangle2D.tri_ccw"]}
{"id": "C43", "title": "Triangle containment is exact for proper triangles", "statement": "For non-collinear vertices contains(p) iff p is a convex combination of them; for collinear vertices every point of the carrier line is accepted (and every point of the plane if all three coincide).", "quantifier": "all triangles and points", "why_tests_cant": "The input space is unbounded (all numbers); tests sample finitely many.", "anchors": ["src/pyrusgeom/triangle_2d.py:Triangle2D.contains", "src/pyrusgeom/triangle_2d.py:Triangle2D.tri_contains"]}
{"id": "C44", "title": "Circumcenter is equidistant from the vertices", "statement": "A valid circumcenter of a triangle with pairwise non-weakly-equal vertices has the same distance to all three vertices; for |outer product|>=1e-10 it is valid.", "quantifier": "all triangles", "why_tests_cant": "The input space is unbounded (all numbers); tests sample finitely many.", "anchors": ["src/pyrusgeom/triangle_2d.py:Triangle2D.tri_circumcenter"]}
{"id": "C45", "title": "Orthocenter lies on all three altitudes", "statement": "A valid orthocenter satisfies the three altitude equations.", "quantifier": "all triangles", "why_tests_cant": "The input space is unbounded (all numbers); tests sample finitely many.", "anchors": ["src/pyrusgeom/triangle_2d.py:Triangle2D.tri_orthocenter"]}
{"id": "C46", "title": "Incenter is equidistant from the three side lines", "statement": "A valid incenter of a proper triangle has the same distance to the three side lines.", "quantifier": "all triangles", "why_tests_cant": "The input space is unbounded (all numbers); tests sample finitely many.", "anchors": ["src/pyrusgeom/triangle_2d.py:Triangle2D.tri_incenter"]}
{"id": "C47", "title": "centroid() always raises and is_valid() is always False", "statement": "Because Vector2D.add returns None, centroid raises AttributeError for every triangle; is_valid compares a with itself and is False for every triangle whose first vertex has no NaN coordinate.", "quantifier": "all triangles", "why_tests_cant": "A claim about every triangle.", "anchors": ["src/pyrusgeom/triangle_2d.py:Triangle2D.tri_centroid", "src/pyrusgeom/triangle_2d.py:Triangle2D.is_valid"]}
{"id": "C48", "title": "Triangle/line intersection fails on the common case", "statement": "intersection(line) raises IndexError whenever the first two sides both meet the line; otherwise it returns the count and points on the line; intersection(segment) always raises UnboundLocalError.", "quantifier": "all triangles and lines/segments", "why_tests_cant": "The input space is unbounded (all numbers); tests sample finitely many.", "anchors": ["src/pyrusgeom/triangle_2d.py:Triangle2D.intersection"]}
{"id": "C49", "title": "Circle basics", "statement": "contains(p) iff |p-center|<radius; the radius of a constructed or re-assigned circle is never negative; area=pi r^2.", "quantifier": "all circles, points, histories of assign", "why_tests_cant": "The input space is unbounded (all numbers); tests sample finitely many.", "anchors": ["src/pyrusgeom/circle_2d.py:Circle2D.__init__", "src/pyrusgeom/circle_2d.py:Circle2D.contains", "src/pyrusgeom/circle_2d.py:Circle2D.area"]}
{"id": "C50", "title": "quadratic_f solves quadratics", "statement": "For a!=0 and discriminant >=1e-6 it returns exactly the two real roots; for discriminant <= -1e-6 the empty list and there is no real root; in between the vertex twice; a=0 raises.", "quantifier": "all coefficient triples", "why_tests_cant": "The input space is unbounded (all numbers); tests sample finitely many.", "anchors": ["src/pyrusgeom/circle_2d.py:quadratic_f"]}
{"id": "C51", "title": "Circle/line intersection", "statement": "The code treats an x coefficient below 1e-6 as 0. For that line: all returned points lie on it; outside the tangency tolerance they lie on the circle and every common point is returned (up to merging weakly equal points); within the tolerance the foot of the perpendicular is returned. For 0<|a|<1e-6 the returned points are not on the given line.", "quantifier": "all circles and lines", "why_tests_cant": "The input space is unbounded (all numbers); tests sample finitely many.", "anchors": ["src/pyrusgeom/circle_2d.py:Circle2D.intersection"]}
{"id": "C52", "title": "Circle/segment and circle/ray intersection filter the line solutions", "statement": "The result is exactly the line-intersection solutions that pass segment.contains (resp. ray.in_right_dir with 1 degree), in order.", "quantifier": "all circles, segments, rays", "why_tests_cant": "The input space is unbounded (all numbers); tests sample finitely many.", "anchors": ["src/pyrusgeom/circle_2d.py:Circle2D.intersection"]}
{"id": "C53", "title": "Circle/circle intersection", "statement": "Returned points (outside tolerance) lie on both circles; separated or nested circles give [] and share no point; every common point is returned provided the centers' x coordinates agree or differ by at least 5e-7. Circles with (nearly) the same center give [] even when they coincide.", "quantifier": "all pairs of circles", "why_tests_cant": "The input space is unbounded (all numbers); tests sample finitely many.", "anchors": ["src/pyrusgeom/circle_2d.py:Circle2D.intersection"]}
{"id": "C54", "title": "Circumcircle", "statement": "circum_circle of a proper triangle passes through the three vertices; circum_circle_contains(p) implies p is strictly inside it and holds for every p deeper than the 1e-12 margin.", "quantifier": "all triangles and points", "why_tests_cant": "The input space is unbounded (all numbers); tests sample finitely many.", "anchors": ["src/pyrusgeom/circle_2d.py:Circle2D.circum_circle", "src/pyrusgeom/circle_2d.py:Circle2D.circum_circle_contains"]}
{"id": "C55", "title": "Sizes and rectangles never become inverted", "statement": "After any history of constructor/assign/set_*/move_*/intersected/united calls, length and width are non-negative (or NaN) and left<=right, top<=bottom - also in double arithmetic.", "quantifier": "all operation histories", "why_tests_cant": "Infinite set of histories.", "anchors": ["src/pyrusgeom/size_2d.py:Size2D", "src/pyrusgeom/rect_2d.py:Rect2D"]}
{"id": "C56", "title": "Rectangle containment, corners and center agree", "statement": "contains(p) iff left<=x<=right and top<=y<=bottom; all corners and the center are contained; area=length*width; is_valid iff the area is non-zero. The size's diagonal is the distance between opposite corners.", "quantifier": "all rectangles and points", "why_tests_cant": "The input space is unbounded (all numbers); tests sample finitely many.", "anchors": ["src/pyrusgeom/rect_2d.py:Rect2D.contains", "src/pyrusgeom/rect_2d.py:Rect2D.center", "src/pyrusgeom/rect_2d.py:Rect2D.is_valid"]}
{"id": "C57", "title": "move_* translate the rectangle", "statement": "Each move_* puts the named side/corner/center at the given place, keeps the size and does not move the other axis.", "quantifier": "all rectangles and targets", "why_tests_cant": "The input space is unbounded (all numbers); tests sample finitely many.", "anchors": ["src/pyrusgeom/rect_2d.py:Rect2D.move_center", "src/pyrusgeom/rect_2d.py:Rect2D.move_left", "src/pyrusgeom/rect_2d.py:Rect2D.move_right", "src/pyrusgeom/rect_2d.py:Rect2D.move_bottom_right"]}
{"id": "C58", "title": "set_left/right/top/bottom keep the opposite side", "statement": "The opposite side and the other axis stay put; the given coordinate becomes a side; past the opposite side the rectangle flips.", "quantifier": "all rectangles and coordinates", "why_tests_cant": "The input space is unbounded (all numbers); tests sample finitely many.", "anchors": ["src/pyrusgeom/rect_2d.py:Rect2D.set_left", "src/pyrusgeom/rect_2d.py:Rect2D.set_right", "src/pyrusgeom/rect_2d.py:Rect2D.set_top", "src/pyrusgeom/rect_2d.py:Rect2D.set_bottom"]}
{"id": "C59", "title": "set_top_left / set_bottom_right corrupt the length", "statement": "The documented contract (the opposite corner never changes) fails: the new length is |new left x| whatever the argument, because the four-number assign uses its first argument as length. Exact behaviour and a counterexample.", "quantifier": "all rectangles and points", "why_tests_cant": "The input space is unbounded (all numbers); tests sample finitely many.", "anchors": ["src/pyrusgeom/rect_2d.py:Rect2D.set_top_left", "src/pyrusgeom/rect_2d.py:Rect2D.set_bottom_right", "src/pyrusgeom/rect_2d.py:Rect2D.assign"]}
{"id": "C60", "title": "Rect2D(top_left, bottom_right) always has zero size", "statement": "The two-corner constructor returns an empty rectangle for every pair of corners.", "quantifier": "all pairs of corners", "why_tests_cant": "The input space is unbounded (all numbers); tests sample finitely many.", "anchors": ["src/pyrusgeom/rect_2d.py:Rect2D.__init__"]}
{"id": "C61", "title": "intersected is the set intersection when the rectangles overlap", "statement": "If the overlap has positive area, the result contains exactly the points contained in both (and the receiver is overwritten). If there is no overlap the documented empty rectangle is NOT returned. With an argument of no area, self is first reset to the empty rectangle at the origin.", "quantifier": "all pairs of rectangles and all points", "why_tests_cant": "The input space is unbounded (all numbers); tests sample finitely many.", "anchors": ["src/pyrusgeom/rect_2d.py:Rect2D.intersected"]}
{"id": "C62", "title": "united does not contain the operands", "statement": "The documented union fails: for every receiver and every argument with non-zero area the result misses the receiver's top-left corner or a point of the argument; the exact value returned is given.", "quantifier": "all pairs of rectangles", "why_tests_cant": "The input space is unbounded (all numbers); tests sample finitely many.", "anchors": ["src/pyrusgeom/rect_2d.py:Rect2D.united"]}
{"id": "C63", "title": "Rectangle/line intersection", "statement": "Every returned point lies on the line and on the rectangle's boundary, at most two are returned. A line that meets the rectangle and is not nearly (but inexactly) parallel to a side gives a non-empty list, and if it passes through no corner every common point of line and boundary is returned (up to the 1e-6 merging). Through a corner a genuine second crossing can be lost. With a segment (ray) the result is the line's points accepted by the segment (ray); other arguments raise.", "quantifier": "all rectangles and lines", "why_tests_cant": "The input space is unbounded (all numbers); tests sample finitely many.", "anchors": ["src/pyrusgeom/rect_2d.py:Rect2D.intersection"]}
{"id": "C64", "title": "from_center", "statement": "The four-number form yields a rectangle of the absolute size, centred at the given point when the sizes are non-negative and shifted by the amount of a negative size otherwise; the vector form raises for every argument.", "quantifier": "all arguments", "why_tests_cant": "The input space is unbounded (all numbers); tests sample finitely many.", "anchors": ["src/pyrusgeom/rect_2d.py:Rect2D.from_center"]}
{"id": "C65", "title": "Sector containment", "statement": "contains(p) is True iff the distance of p to the center lies between the stored radii and turning from the start angle to the direction of p takes no more than turning from the start angle to the end angle - except when the start angle is stored as -180 and the end angle or the direction is 180, where the result is characterised exactly; in particular the full-turn sector from -180 to 180 does not contain a point it should contain.", "quantifier": "all sectors and points", "why_tests_cant": "The input space is unbounded (all numbers); tests sample finitely many.", "anchors": ["src/pyrusgeom/sector_2d.py:Sector2D.contains"]}
{"id": "C66", "title": "Sector radii are not the given ones", "statement": "The stored minimum radius is min(0,min_r), so positive inner radii are lost; radius_max() returns the minimum radius; area and circumferences are the fraction of the turn of the ring between the stored radii; a sector equals itself only if its two radii differ by less than 1e-6.", "quantifier": "all sectors", "why_tests_cant": "The input space is unbounded (all numbers); tests sample finitely many.", "anchors": ["src/pyrusgeom/sector_2d.py:Sector2D.__init__", "src/pyrusgeom/sector_2d.py:Sector2D.radius_max", "src/pyrusgeom/sector_2d.py:Sector2D.area"]}
{"id": "C67", "title": "Bounding box is the tight bounding box", "statement": "For a non-empty polygon the box contains every vertex and every side of it is touched by a vertex; the empty polygon raises. bounding_box_center is half way between the extreme coordinates.", "quantifier": "all vertex lists (any length)", "why_tests_cant": "Vertex lists of every length.", "anchors": ["src/pyrusgeom/polygon_2d.py:Polygon2D.get_bounding_box"]}
{"id": "C68", "title": "Polygon area laws", "statement": "double_signed_area is the shoelace sum; it is invariant under choosing another start vertex and under translation, negated by reversal, additive when the polygon is cut along a diagonal, and agrees with the triangle formula for three vertices; area is half of its absolute value; the orientation predicates are its sign.", "quantifier": "all vertex lists (any length)", "why_tests_cant": "Vertex lists of every length.", "anchors": ["src/pyrusgeom/polygon_2d.py:Polygon2D.double_signed_area", "src/pyrusgeom/polygon_2d.py:Polygon2D.area"]}
{"id": "C69", "title": "Point-in-polygon is crossing parity", "statement": "For a point on no edge, contains(p) is True iff the number of edges crossed by the rightward half line (half-open rule) is odd - for allow_on_segment=False provided no edge is degenerate; the answer does not depend on the start vertex or the direction of listing.", "quantifier": "all polygons (any number of vertices) and points", "why_tests_cant": "Vertex lists of every length.", "anchors": ["src/pyrusgeom/polygon_2d.py:Polygon2D.contains"]}
{"id": "C70", "title": "Boundary points are not reliably contained", "statement": "With allow_on_segment=True the result is exactly: p is a vertex, or the number of edges crossed by the closed rightward half line is odd; so vertices are always contained but some edge points are reported outside. With allow_on_segment=False boundary points are never contained, but a repeated vertex makes points strictly inside reported outside.", "quantifier": "all polygons and points", "why_tests_cant": "Vertex lists of every length.", "anchors": ["src/pyrusgeom/polygon_2d.py:Polygon2D.contains"]}
{"id": "C71", "title": "Point-in-polygon agrees with geometry for convex polygons", "statement": "For a strictly convex polygon with any number of vertices, in either direction, and a point on no edge, contains(p) is True iff p is strictly on the inner side of every edge; for a triangle with non-collinear vertices it agrees with being a convex combination of the vertices.", "quantifier": "all strictly convex vertex lists (any length) and all points off the outline", "why_tests_cant": "The input space is unbounded (all numbers); tests sample finitely many.", "anchors": ["src/pyrusgeom/polygon_2d.py:Polygon2D.contains"]}
{"id": "C72", "title": "Polygon distance", "statement": "With check_as_plane=False, dist(p) is the minimum over all points of the closed outline; with True it is 0 for contained points.", "quantifier": "all polygons and points", "why_tests_cant": "Vertex lists of every length.", "anchors": ["src/pyrusgeom/polygon_2d.py:Polygon2D.dist"]}
{"id": "C73", "title": "Clipping by a half plane and by a rectangle", "statement": "Clipping by a region with its boundary line never raises and returns only points of the region; if every edge that leaves the half plane has an extent of at least 1e-6 across it, then inside the half plane the clipped polygon contains exactly what the polygon contains, and nothing outside; an edge below that extent makes the rest of the polygon disappear. get_rectangle_clipped_polygon is correct for polygons without vertices below the bottom side (same clearance condition); otherwise it cuts on the line of the top side, loses points of the intersection and gains corners outside the polygon.", "quantifier": "all polygons (any number of vertices), half planes, rectangles and points off the outlines", "why_tests_cant": "Vertex lists of every length.", "anchors": ["src/pyrusgeom/polygon_2d.py:Polygon2D.get_line_clipped_polygon", "src/pyrusgeom/polygon_2d.py:Polygon2D.get_rectangle_clipped_polygon"]}
{"id": "C74", "title": "Hull vertices are input points", "statement": "After compute (wrapping), every vertex is one of the input points, the first is the lexicographically smallest, fewer than 3 inputs give an empty hull, compute terminates, input points are unchanged and recomputation gives the same result.", "quantifier": "all point lists", "why_tests_cant": "Lists of every length.", "anchors": ["src/pyrusgeom/convex_hull.py:ConvexHull.compute_wrapping_method", "src/pyrusgeom/convex_hull.py:ConvexHull.get_min_point_index"]}
{"id": "C75", "title": "Wrapping method computes the convex hull", "statement": "For distinct points, no three of them on a line or nearly so (|double signed area| at least 1e-6 for every triple), compute() (wrapping) gives the convex hull: a strictly convex counterclockwise polygon of at least three input points, all other inputs strictly inside, and to contain every input. With collinear inputs this fails: the farthest input can be left out of the result.", "quantifier": "all point lists of any length in general position; existence for the collinear failure", "why_tests_cant": "Lists of every length.", "anchors": ["src/pyrusgeom/convex_hull.py:ConvexHull.compute_wrapping_method"]}
{"id": "C76", "title": "Graham scan aliases and destroys the input", "statement": "After a successful Graham scan of three or more points input_points_() and vertices_() are the same list: the input has lost every dropped point, points added later appear among the vertices, and after any further calls every later compute, by any method, leaves input, vertices and edges empty. The points left are the input minus some points: none is invented or duplicated.", "quantifier": "all point lists, orderings produced by the sort, and all later call histories", "why_tests_cant": "History/aliasing property.", "anchors": ["src/pyrusgeom/convex_hull.py:ConvexHull.compute_graham_scan", "src/pyrusgeom/convex_hull.py:ConvexHull.clear_results"]}
{"id": "C77", "title": "Graham scan is not a convex hull", "statement": "There are inputs for which the Graham method's result misses an extreme input point, inputs for which it keeps a point strictly inside the hull (sorting is around the origin, not the pivot), and on three copies of any point it raises IndexError.", "quantifier": "existence in double arithmetic for every libm; all points for the exception", "why_tests_cant": "The counterexample has to be traced through the whole algorithm.", "anchors": ["src/pyrusgeom/convex_hull.py:ConvexHull.sort_points_angle_from"]}
{"id": "C78", "title": "list2set keeps exactly one copy of each value in first-occurrence order", "statement": "No coordinates twice, same members, order of first occurrence (appending a known point changes nothing, appending a new one appends it).", "quantifier": "all lists", "why_tests_cant": "Lists of every length.", "anchors": ["src/pyrusgeom/convex_hull.py:list2set"]}
{"id": "C79", "title": "Matrix multiplication is composition", "statement": "(A*B).transform(v) = A.transform(B.transform(v)); associative with the identity matrix neutral; A*v = A.transform(v).", "quantifier": "all matrices and vectors", "why_tests_cant": "The input space is unbounded (all numbers); tests sample finitely many.", "anchors": ["src/pyrusgeom/matrix_2d.py:Matrix2D.__imul__", "src/pyrusgeom/matrix_2d.py:Matrix2D.transform"]}
{"id": "C80", "title": "inverted is the inverse", "statement": "For det!=0, inverted undoes transform on both sides; det(inverse)=1/det; for det==0 the identity is returned; invertible() is the stricter test |det|>1e-6.", "quantifier": "all matrices", "why_tests_cant": "The input space is unbounded (all numbers); tests sample finitely many.", "anchors": ["src/pyrusgeom/matrix_2d.py:Matrix2D.inverted", "src/pyrusgeom/matrix_2d.py:Matrix2D.invertible"]}
{"id": "C81", "title": "translate/scale/rotate pre-multiply", "statement": "Each in-place operation equals make_translation/make_scaling/make_rotation times the old matrix, as its documentation states; rotation matrices have determinant 1 and agree with Vector2D.rotate.", "quantifier": "all matrices and parameters", "why_tests_cant": "The input space is unbounded (all numbers); tests sample finitely many.", "anchors": ["src/pyrusgeom/matrix_2d.py:Matrix2D.translate", "src/pyrusgeom/matrix_2d.py:Matrix2D.scale", "src/pyrusgeom/matrix_2d.py:Matrix2D.rotate"]}
{"id": "C82", "title": "Determinant is multiplicative", "statement": "det(A*B)=det A * det B.", "quantifier": "all matrices", "why_tests_cant": "The input space is unbounded (all numbers); tests sample finitely many.", "anchors": ["src/pyrusgeom/matrix_2d.py:Matrix2D.det"]}
{"id": "C83", "title": "A*B overwrites A", "statement": "The * operator returns its left operand, which now holds the product; every other object is unchanged. So an expression of matrix variables gives the product of the original values when no variable occurs twice in it, and overwrites its leftmost variable; A*B*A does not.", "quantifier": "all object graphs and all product expressions", "why_tests_cant": "Aliasing over all heaps.", "anchors": ["src/pyrusgeom/matrix_2d.py:Matrix2D.__mul__"]}
{"id": "C84", "title": "Matrix equality is wrong", "statement": "A==A is False whenever dx != dy; equality compares dx with the other's dy, so two matrices that move the origin differently can compare equal.", "quantifier": "all matrices; existence for the false positive", "why_tests_cant": "The input space is unbounded (all numbers); tests sample finitely many.", "anchors": ["src/pyrusgeom/matrix_2d.py:Matrix2D.__eq__"]}
{"id": "C85", "title": "Inertia travel is the sum of the decayed steps", "statement": "For decay != 1, inertia_n_step_travel/point/distance equal the sum of the first n decayed velocities; decay=1 raises ZeroDivisionError.", "quantifier": "all velocities, decays and step counts n", "why_tests_cant": "All n: induction.", "anchors": ["src/pyrusgeom/soccer_math.py:inertia_n_step_travel", "src/pyrusgeom/soccer_math.py:inertia_n_step_distance"]}
{"id": "C86", "title": "Final travel is the limit", "statement": "For |decay|<1 the n-step travel converges to inertia_final_travel, and final = n-step + final of the decayed velocity.", "quantifier": "all n", "why_tests_cant": "A limit.", "anchors": ["src/pyrusgeom/soccer_math.py:inertia_final_travel", "src/pyrusgeom/soccer_math.py:inertia_final_point", "src/pyrusgeom/soccer_math.py:inertia_final_distance"]}
{"id": "C87", "title": "final_speed is the fixed point of dash-and-decay", "statement": "v=final_speed satisfies v=decay*v+acceleration, is the limit of the iteration for |decay|<1, and can_over_speed_max iff final_speed>speed_max for decay<1.", "quantifier": "all parameters", "why_tests_cant": "The input space is unbounded (all numbers); tests sample finitely many.", "anchors": ["src/pyrusgeom/soccer_math.py:final_speed", "src/pyrusgeom/soccer_math.py:can_over_speed_max"]}
{"id": "C88", "title": "dir_rate interpolates", "statement": "dir_rate is 1 at 0, side rate at +-90, back rate at +-180, even, and between the neighbouring rates in between.", "quantifier": "all directions and rates", "why_tests_cant": "The input space is unbounded (all numbers); tests sample finitely many.", "anchors": ["src/pyrusgeom/soccer_math.py:dir_rate"]}
{"id": "C89", "title": "kick_rate decreases with angle and distance", "statement": "kick_rate is at most kick_rate_power for balls at contact distance or more, is antitone in |dir_diff| and in dist, and at least half of it in the kickable area.", "quantifier": "all distances and directions, non-negative powers, positive margins", "why_tests_cant": "The input space is unbounded (all numbers); tests sample finitely many.", "anchors": ["src/pyrusgeom/soccer_math.py:kick_rate"]}
{"id": "C90", "title": "Geometric series inverses", "statement": "calc_first_term_geom_series returns the first term with the given sum (or raises ZeroDivisionError if ratio^n is 1); calc_length_geom_series applied to the sum of n terms returns n as long as ratio^n > 1e-10 and -1 otherwise; guarded inputs return -1 or 0; ratio 1 raises ZeroDivisionError, nothing else raises.", "quantifier": "all first terms, ratios, lengths and sums", "why_tests_cant": "The input space is unbounded (all numbers); tests sample finitely many.", "anchors": ["src/pyrusgeom/soccer_math.py:calc_length_geom_series", "src/pyrusgeom/soccer_math.py:calc_first_term_geom_series"]}
{"id": "C91", "title": "bound and min_max clamp", "statement": "For low<=high the result is in [low,high], equals the input if it is there, else the nearer bound - also for all non-NaN doubles; for low>high the result is high.", "quantifier": "all numbers incl. all non-NaN doubles", "why_tests_cant": "The input space is unbounded (all numbers); tests sample finitely many.", "anchors": ["src/pyrusgeom/soccer_math.py:bound", "src/pyrusgeom/soccer_math.py:min_max"]}
{"id": "C92", "title": "f_range is an arithmetic progression", "statement": "For step>0 (resp. <0) it yields exactly start+k*step while below (above) stop and terminates; for step 0 it never terminates; the defaults are start 0 and step 1. No value at or past stop is produced in any arithmetic. In double arithmetic there are a start below stop and a positive step for which it never terminates.", "quantifier": "all starts, stops, steps; existence for the endless double run", "why_tests_cant": "All lengths and non-termination.", "anchors": ["src/pyrusgeom/soccer_math.py:f_range"]}
{"id": "C93", "title": "r_int rounds to nearest, ties away from zero", "statement": "|r_int(x)-x|<=1/2 and ties go away from zero (not the documented current rounding mode), over the reals and for every double of magnitude at most 2^53-1. r_int(2^53) is 2^53+1, and for every double of magnitude 2^55 or more the result is off by one.", "quantifier": "all reals; all finite doubles", "why_tests_cant": "The input space is unbounded (all numbers); tests sample finitely many.", "anchors": ["src/pyrusgeom/soccer_math.py:r_int"]}
{"id": "C94", "title": "quantize is an idempotent nearest-multiple map", "statement": "For qstep!=0 the result is a multiple of qstep at distance <= |qstep|/2, and quantising again changes nothing; qstep=0 raises ZeroDivisionError.", "quantifier": "all values and steps", "why_tests_cant": "The input space is unbounded (all numbers); tests sample finitely many.", "anchors": ["src/pyrusgeom/soccer_math.py:quantize"]}
{"id": "C95", "title": "unquantize_min/max bracket the preimages", "statement": "Every value whose quantisation is d lies between unquantize_min(d) and unquantize_max(d), which are qstep apart, and every value strictly between them quantises to d.", "quantifier": "all values and positive steps", "why_tests_cant": "The input space is unbounded (all numbers); tests sample finitely many.", "anchors": ["src/pyrusgeom/soccer_math.py:unquantize_min", "src/pyrusgeom/soccer_math.py:unquantize_max"]}
{"id": "C96", "title": "wind_effect is always zero", "statement": "For every parameter set with non-zero weights the result is the zero vector, and a given wind_error is set to zero; zero weights raise ZeroDivisionError.", "quantifier": "all parameters", "why_tests_cant": "The input space is unbounded (all numbers); tests sample finitely many.", "anchors": ["src/pyrusgeom/soccer_math.py:wind_effect"]}
{"id": "C97", "title": "Orientation and intersection are exact on integer-valued doubles", "statement": "For doubles that are integers of magnitude at most 2^25 - or such integers times one common power of two from 2^-250 to 2^200 - double_signed_area, ccw and exist_intersection computed in IEEE double arithmetic give the exact mathematical answers. Outside they need not: two tiny crossing segments are reported disjoint, two disjoint segments with one-decimal coordinates are reported to meet.", "quantifier": "all such doubles; existence for the two failures", "why_tests_cant": "2^104 argument combinations.", "anchors": ["src/pyrusgeom/triangle_2d.py:Triangle2D.double_signed_area_st", "src/pyrusgeom/segment_2d.py:Segment2D.exist_intersection"]}
{"id": "C98", "title": "Rounding breaks containment in the bounding box", "statement": "In double arithmetic there is a polygon whose bounding box does not contain one of its own vertices, so contains(vertex) is False.", "quantifier": "existence", "why_tests_cant": "A concrete rounding witness must be found and checked bit-exactly.", "anchors": ["src/pyrusgeom/polygon_2d.py:Polygon2D.get_bounding_box", "src/pyrusgeom/rect_2d.py:Rect2D.right"]}
{"id": "C99", "title": "Wrapping leaves one side out of edges()", "statement": "After compute() (wrapping) of points in general position edges() holds every side of the hull except the one from the first vertex to the second.", "quantifier": "all point lists in general position", "why_tests_cant": "All lengths and orders of the input.", "anchors": ["src/pyrusgeom/convex_hull.py:ConvexHull.compute_wrapping_method", "src/pyrusgeom/convex_hull.py:ConvexHull.edges"]}
{"id": "C102", "title": "The direct method finds the hull's sides", "statement": "For points in general position the direct method yields, whatever order the sort produces, exactly the hull sides (each once, clockwise, all other points strictly on their right) as edges and exactly the vertices the wrapping method finds, each once; only their order is unspecified. For any points at all it does not raise, its vertices are input points and no input point lies strictly between the ends of a reported side; but with collinear points a reported side may have points strictly on both sides.", "quantifier": "all point lists in general position, all sort results", "why_tests_cant": "All lengths and orders of the input.", "anchors": ["src/pyrusgeom/convex_hull.py:ConvexHull.compute_direct_method"]}
{"id": "C103", "title": "unquantize_error bounds the uncertainty of a seen distance", "statement": "Two distances that quantize_dist maps to the same observation differ by at most unquantize_error of that observation, the length of an interval containing all of them; for the observation 0 (the only one below 0.1) unquantize_error raises ValueError; quantize_dist raises ValueError exactly for distances of -1e-10 and less.", "quantifier": "all distances and positive steps", "why_tests_cant": "Two interacting roundings on logarithmic and linear scales.", "anchors": ["src/pyrusgeom/soccer_math.py:quantize_dist", "src/pyrusgeom/soccer_math.py:unquantize_error"]}
{"id": "C104", "title": "effective_turn never amplifies", "statement": "effective_turn is the moment divided by 1+inertia*speed: for non-negative inertia and speed it is in the requested direction, at most the requested moment in magnitude, and does not grow with speed; it raises ZeroDivisionError exactly when 1+inertia*speed is 0.", "quantifier": "all moments, speeds and inertia moments", "why_tests_cant": "Continuum of inputs.", "anchors": ["src/pyrusgeom/soccer_math.py:effective_turn"]}
{"id": "C105", "title": "Shapes behave as values in copying programs", "statement": "In every program built from the constructors, copies, getters without a trailing underscore and mutators that take points, angles, rectangles and numbers, each variable always reads as if objects were plain values: it has the value given by running the same calls on independent copies, and an exception is raised in one exactly when it is raised in the other. In particular p+q and p-q are new objects and p+=q, p-=q write into p alone, also when q is p. (Rect2D.united/intersected with itself as argument is the one call whose value differs, and is specified separately.)", "quantifier": "all programs of such calls of any length, with any aliasing between variables they create, for every arithmetic", "why_tests_cant": "Whether two objects share a part depends on the whole history of calls; unit tests try a few histories.", "anchors": ["src/pyrusgeom/vector_2d.py:Vector2D", "src/pyrusgeom/segment_2d.py:Segment2D", "src/pyrusgeom/rect_2d.py:Rect2D", "src/pyrusgeom/triangle_2d.py:Triangle2D", "src/pyrusgeom/circle_2d.py:Circle2D", "src/pyrusgeom/ray_2d.py:Ray2D", "src/pyrusgeom/sector_2d.py:Sector2D", "src/pyrusgeom/polygon_2d.py:Polygon2D"]}
{"id": "C106", "title": "A mutator changes only its receiver", "statement": "In such a program no call changes the value of any variable other than the object the method was called on.", "quantifier": "all programs of any length and every further call", "why_tests_cant": "Same: needs an ownership invariant over all histories.", "anchors": ["src/pyrusgeom/vector_2d.py:Vector2D", "src/pyrusgeom/segment_2d.py:Segment2D", "src/pyrusgeom/rect_2d.py:Rect2D", "src/pyrusgeom/triangle_2d.py:Triangle2D", "src/pyrusgeom/circle_2d.py:Circle2D", "src/pyrusgeom/ray_2d.py:Ray2D", "src/pyrusgeom/sector_2d.py:Sector2D", "src/pyrusgeom/polygon_2d.py:Polygon2D"]}
{"id": "C107", "title": "Rect2D keeps the Size2D it is given, and underscore getters expose the parts", "statement": "Rect2D(point, size) stores the caller's Size2D object: later changes of the size are seen through the rectangle and the reverse, and two rectangles made from one Size2D change together; the point is copied. The getters with a trailing underscore (origin_, terminal_, top_left_, size_, a_, b_, c_, center_, start_, dir_ ...) return the part itself, so changing the result changes the shape.", "quantifier": "all heaps and all such objects", "why_tests_cant": "Aliasing must be followed through every later mutation.", "anchors": ["src/pyrusgeom/rect_2d.py:Rect2D.__init__", "src/pyrusgeom/rect_2d.py:Rect2D.size_", "src/pyrusgeom/segment_2d.py:Segment2D.origin_"]}
{"id": "C108", "title": "nearest_point may return an end of the segment itself", "statement": "Segment2D.nearest_point returns the segment's own origin or terminal object when that is the nearest point (so changing the result moves the segment) and a fresh point, not shared with the segment, when the nearest point is strictly inside. Segment2D.projection returns the segment's own origin object when the segment is shorter than 1e-6 and a fresh vector otherwise.", "quantifier": "all segments and points", "why_tests_cant": "Depends on the position of the point; the aliasing shows only after a later mutation.", "anchors": ["src/pyrusgeom/segment_2d.py:Segment2D.nearest_point"]}
{"id": "C109", "title": "Polygon2D and ConvexHull share the caller's points", "statement": "Polygon2D(list), assign and add_vertex store the caller's Vector2D objects (moving one moves the polygon) but not the caller's list; vertices() returns a new list of the same points, vertices_() the list itself; ConvexHull(list) keeps the caller's list: points appended to either are in both and clear() empties the caller's list.  assign with an empty list is ignored: every object keeps its value.", "quantifier": "all lists, polygons and hulls", "why_tests_cant": "Aliasing must be followed through later mutations.", "anchors": ["src/pyrusgeom/polygon_2d.py:Polygon2D", "src/pyrusgeom/convex_hull.py:ConvexHull"]}
{"id": "C110", "title": "intersected and united on shared objects", "statement": "r.intersected(r) keeps a valid rectangle; r.united(r) keeps its corner but makes its size 0 x 0; both collapse an invalid one to 0 at the origin. If two rectangles share one Size2D then r.intersected(o) computes the right intersection for r but also resizes o.", "quantifier": "all rectangles", "why_tests_cant": "Order of in-place writes and reads matters only under aliasing.", "anchors": ["src/pyrusgeom/rect_2d.py:Rect2D.intersected", "src/pyrusgeom/rect_2d.py:Rect2D.united"]}
{"id": "C100", "title": "angle_bisector is the bisector of the corner", "statement": "Line2D.angle_bisector(o, left, right) is a line through o in the direction reached from right by half of the turn from right to left; every point of it is at the same distance from the line through o in direction left and the line through o in direction right. It never raises.", "quantifier": "all origins and all pairs of angles or numbers", "why_tests_cant": "Directions wrap around at 360 degrees, equal and opposite directions are special cases.", "anchors": ["src/pyrusgeom/line_2d.py:Line2D.angle_bisector", "src/pyrusgeom/angle_deg.py:AngleDeg.bisect"]}
{"id": "C101", "title": "Ray equality", "statement": "r == s for rays is true exactly when the origins have equal coordinates and the directions differ by less than 1e-6 of a degree up to full turns (so 180 and -180 are equal, unlike for AngleDeg). It is reflexive and symmetric, but not transitive, and equal rays can contain different points.", "quantifier": "all pairs of rays", "why_tests_cant": "A tolerance relation modulo 360 over a continuum.", "anchors": ["src/pyrusgeom/ray_2d.py:Ray2D.__eq__"]}
{"id": "C111", "title": "The angular comparison is an order only within a half plane", "statement": "angle_sort_predicate(p, q, base) always returns 1 or -1, never 0: -1 when p, q turn with negative signed area about base, 1 when that area is at least 1e-6, and by comparing distances from base in between. Among points of an open half plane through base, outside the tolerance band, it is antisymmetric and transitive. In general it is not an order: with the base the sorts use (the origin) three points can form a cycle, a point is 'greater' than itself, and two points can each be before the other or each be after it.", "quantifier": "all triples of points", "why_tests_cant": "Transitivity and antisymmetry quantify over all triples; the sorts silently rely on them.", "anchors": ["src/pyrusgeom/convex_hull.py:angle_sort_predicate", "src/pyrusgeom/convex_hull.py:AngleSortPredicate"]}
{"id": "C112", "title": "Point in polygon is exact on grids of doubles", "statement": "In double arithmetic, when all vertices and the point are integers of magnitude at most 2^25 times a common power of two (2^-250..2^200), Polygon2D.contains computes without any visible rounding although its half line ends at a rounded point: off the outline the answer is the parity of the edges crossed to the right (hence inside for convex polygons), a vertex is always contained with the default flag, and no outline point is contained with allow_on_segment=False. It never raises.", "quantifier": "all vertex lists of any length on such a grid, all grid points, both flags, every libm", "why_tests_cant": "Rounding errors appear only for particular coordinates; the half line's end passes through sqrt and a multiplication by 3 that round.", "anchors": ["src/pyrusgeom/polygon_2d.py:Polygon2D.contains", "src/pyrusgeom/polygon_2d.py:Polygon2D.get_bounding_box", "src/pyrusgeom/segment_2d.py:Segment2D.exist_intersection"]}
{"id": "C113", "title": "Triangle predicates are exact on grids of doubles", "statement": "In double arithmetic, for points on such a grid, Triangle2D.contains is true exactly for the convex combinations of the corners of a non-degenerate triangle, area, signed_area and double_signed_area are the exact areas, and ccw is true exactly for counter-clockwise corners.", "quantifier": "all quadruples of points on a grid n*2^e, |n| <= 2^25, -250 <= e <= 200", "why_tests_cant": "The set of grid points is far too large to enumerate.", "anchors": ["src/pyrusgeom/triangle_2d.py:Triangle2D.contains", "src/pyrusgeom/triangle_2d.py:Triangle2D.area", "src/pyrusgeom/triangle_2d.py:Triangle2D.ccw"]}
{"id": "C114", "title": "Gift wrapping is exact on grids of doubles", "statement": "In double arithmetic, for at least three distinct points, no three collinear, whose coordinates are integers of magnitude at most 2^25 times a common power of two (2^-9..2^200), ConvexHull.compute with the wrapping method never raises and returns the strictly convex hull: its vertices are input points, every input point is a vertex or strictly inside, Polygon2D.contains of the vertex list is true for every input point, and the edges are the sides of the hull but the one from the first vertex.", "quantifier": "all such point lists of any length, every libm, every sort order used by other methods", "why_tests_cant": "Rounding could make the wrap miss a vertex or never close; only a proof covers all coordinates and sizes.", "anchors": ["src/pyrusgeom/convex_hull.py:ConvexHull.compute", "src/pyrusgeom/convex_hull.py:ConvexHull.compute_wrapping_method", "src/pyrusgeom/convex_hull.py:ConvexHull.to_polygon"]}
{"id": "C115", "title": "Polygon area and orientation are exact on small grids of doubles", "statement": "In double arithmetic, for n vertices whose coordinates are integers of magnitude at most m times a common power of two (2^-250..2^200) with 2*n*m*m <= 2^53, double_signed_area is the exact shoelace sum, area is half its magnitude, is_counter_clockwise and is_clockwise are its sign, and area of fewer than three vertices is 0.", "quantifier": "all vertex lists and all m within the bound, every libm", "why_tests_cant": "The sum accumulates one rounding per edge; that none is visible needs an induction over the edges.", "anchors": ["src/pyrusgeom/polygon_2d.py:Polygon2D.double_signed_area", "src/pyrusgeom/polygon_2d.py:Polygon2D.area", "src/pyrusgeom/polygon_2d.py:Polygon2D.is_counter_clockwise", "src/pyrusgeom/polygon_2d.py:Polygon2D.is_clockwise"]}
{"id": "C116", "title": "Orientation tests on arbitrary doubles are right outside a proved margin", "statement": "In double arithmetic, for finite coordinates of magnitude at most 2^k, the computed double area of three points is finite and within 2^(2k-49) of the exact one; so ccw is right whenever the exact area exceeds that, Segment2D.exist_intersection (and except_endpoint) is exactly 'the segments share a point' when no end point is within 2^(2k-48) of the other line in area, Triangle2D.contains is exact for points outside that margin of the three sides, and for an n-gon double_signed_area, area and the orientation tests are right up to n(n+3)*2^(2k-53).", "quantifier": "all finite doubles of magnitude at most 2^k, k in about -480..480 (-225..230 for the segment test), all polygons of up to 2^41 vertices, every libm", "why_tests_cant": "Rounding errors depend on every bit of every coordinate.", "anchors": ["src/pyrusgeom/triangle_2d.py:Triangle2D.double_signed_area_st", "src/pyrusgeom/triangle_2d.py:Triangle2D.ccw", "src/pyrusgeom/triangle_2d.py:Triangle2D.contains", "src/pyrusgeom/segment_2d.py:Segment2D.exist_intersection", "src/pyrusgeom/polygon_2d.py:Polygon2D.double_signed_area"]}
{"id": "C117", "title": "Histories of in-place calls on a vector", "statement": "After any history of set_x, set_y, assign, set_vector, add (both forms), add_x, add_y, sub (both forms), sub_x, sub_y, scale, +=, -=, *=, validate and invalidate, each coordinate is what the history restricted to that coordinate gives (in any arithmetic), and is_valid is decided by validate, invalidate and set_vector alone; over the reals additions and subtractions move the point by the sum of the displacements and scalings multiply it by the product of the factors. abs gives the absolute coordinates and keeps the length, equals is equality of points, in-place division divides both coordinates and raises on zero.", "quantifier": "all histories of any length, all vectors and arguments, reals and doubles", "why_tests_cant": "Histories are unbounded; a swapped coordinate or dropped update shows only in some of them.", "anchors": ["src/pyrusgeom/vector_2d.py:Vector2D.set_x", "src/pyrusgeom/vector_2d.py:Vector2D.add", "src/pyrusgeom/vector_2d.py:Vector2D.add_x", "src/pyrusgeom/vector_2d.py:Vector2D.sub", "src/pyrusgeom/vector_2d.py:Vector2D.scale", "src/pyrusgeom/vector_2d.py:Vector2D.validate", "src/pyrusgeom/vector_2d.py:Vector2D.abs", "src/pyrusgeom/vector_2d.py:Vector2D.equals"]}
{"id": "C118", "title": "Histories of a rectangle, by its sides", "statement": "Starting from any constructor form, after any history of assign (all forms), move_*, set_*, is_valid, intersected and united, left, right, top and bottom are exactly the ones given by a specification on boxes that mentions no rectangle fields: including what assign with four numbers, two corners, set_top_left, set_bottom_right, intersected and united really do. That specified box is unique.", "quantifier": "all constructors, all histories of any length, all arguments", "why_tests_cant": "Histories are unbounded and the documented contracts fail for several calls.", "anchors": ["src/pyrusgeom/rect_2d.py:Rect2D.__init__", "src/pyrusgeom/rect_2d.py:Rect2D.assign", "src/pyrusgeom/rect_2d.py:Rect2D.move_center", "src/pyrusgeom/rect_2d.py:Rect2D.set_left", "src/pyrusgeom/rect_2d.py:Rect2D.intersected", "src/pyrusgeom/rect_2d.py:Rect2D.united"]}
{"id": "C119", "title": "Copies and constructor dispatch", "statement": "copy of an angle or ray has the same direction (the identical angle when it is normalised) and origin, copy of a line has the same coefficients, Circle2D.center() is the centre and assign replaces centre and radius. Polygon2D() has the single vertex (0,0), Polygon2D(list) the given vertices, Polygon2D(v1, v2, ...) the vectors among its arguments in order, clear restores (0,0), assign replaces the vertices unless given an empty list, add_vertex appends. Triangle2D(...) succeeds exactly for three vectors or a segment and a vector, with those corners.", "quantifier": "all argument lists and objects", "why_tests_cant": "Argument lists are unbounded and of mixed types.", "anchors": ["src/pyrusgeom/angle_deg.py:AngleDeg.copy", "src/pyrusgeom/line_2d.py:Line2D.copy", "src/pyrusgeom/ray_2d.py:Ray2D.copy", "src/pyrusgeom/circle_2d.py:Circle2D.assign", "src/pyrusgeom/polygon_2d.py:Polygon2D.__init__", "src/pyrusgeom/polygon_2d.py:Polygon2D.add_vertex", "src/pyrusgeom/triangle_2d.py:Triangle2D.__init__"]}
{"id": "C120", "title": "Equality of segments and sizes", "statement": "Segment2D == is equality of both end points in order, equals_weakly is agreement of all four coordinates within 1e-6, Size2D == is agreement of both extents within 1e-6, and perpendicular_bisector of a non-degenerate segment is the set of points equidistant from its ends.", "quantifier": "all segments and sizes over the reals", "why_tests_cant": "The input space is unbounded.", "anchors": ["src/pyrusgeom/segment_2d.py:Segment2D.__eq__", "src/pyrusgeom/segment_2d.py:Segment2D.equals_weakly", "src/pyrusgeom/segment_2d.py:Segment2D.perpendicular_bisector", "src/pyrusgeom/size_2d.py:Size2D.__eq__"]}
{"id": "C121", "title": "Programs over matrix variables are programs over plane transformations", "statement": "Any program that creates matrices (constructor, make_translation, make_scaling, make_rotation, inverted), copies variables, multiplies (x = y * z, x *= y), calls translate, scale, rotate, reset and assign and prints transformed points prints exactly what the same program prints when every matrix object is a map of the plane, where: y * z turns the object y itself into 'z, then y' and returns it, so every alias of y changes too; translate, scale and rotate act after the map; inverted gives a new object that undoes the map, or does nothing if the map glues points together. A program stops with an error only if it uses a name before binding it.", "quantifier": "all programs of any length over any number of variables, all coefficients, all aliasings", "why_tests_cant": "Aliasing makes the effect of a statement depend on the whole history.", "anchors": ["src/pyrusgeom/matrix_2d.py:Matrix2D.__mul__", "src/pyrusgeom/matrix_2d.py:Matrix2D.__imul__", "src/pyrusgeom/matrix_2d.py:Matrix2D.translate", "src/pyrusgeom/matrix_2d.py:Matrix2D.scale", "src/pyrusgeom/matrix_2d.py:Matrix2D.rotate", "src/pyrusgeom/matrix_2d.py:Matrix2D.inverted"]}
{"id": "C122", "title": "A computed hull shares the caller's points", "statement": "ConvexHull.compute (default method) leaves the caller's list and points unchanged; the vertex list holds the caller's own Vector2D objects, so moving one of them later moves the hull's vertices and the vertices of a polygon made before by to_polygon, while the edges, whose end points are copies, stay where they were; no other object changes. The values are those of the value-level model. input_points(), vertices() and edges() return new lists of the same objects, input_points_(), vertices_() and edges_() the hull's own lists.", "quantifier": "all heaps, all point lists with any sharing between points, any arithmetic", "why_tests_cant": "Sharing depends on the whole object graph.", "anchors": ["src/pyrusgeom/convex_hull.py:ConvexHull.compute_wrapping_method", "src/pyrusgeom/convex_hull.py:ConvexHull.to_polygon", "src/pyrusgeom/convex_hull.py:ConvexHull.clear_results", "src/pyrusgeom/segment_2d.py:Segment2D.__init__"]}
{"id": "C123", "title": "Gift wrapping on arbitrary doubles, with a margin", "statement": "For any finite double coordinates of magnitude at most 2^k (-500 <= k <= 480), if the points are distinct and every three of them span a double area of at least 2^(2k-49) + 1/999999, ConvexHull(points).compute() never raises and its vertices are input points in strictly convex order with every other point strictly inside (exact geometry on the double values); the edges join consecutive vertices.", "quantifier": "all lists of at least three double points with that margin, all libm implementations", "why_tests_cant": "Every rounding of every area in every scan must come out on the right side of 0 and EPSILON.", "anchors": ["src/pyrusgeom/convex_hull.py:ConvexHull.compute_wrapping_method", "src/pyrusgeom/triangle_2d.py:Triangle2D.double_signed_area_st"]}
{"id": "C124", "title": "The Graham scan is right for inputs hanging from the origin", "statement": "If the input points are in general position, one of them is (0,0) and none has a positive y, compute(GRAHAN_SCAN) returns the convex hull: its vertices are input points listed clockwise from (0,0), strictly convex, every other point is strictly inside, the polygon of the vertices contains every input point, and the edges join consecutive vertices with one more between (0,0) and the last vertex.", "quantifier": "all lists of at least three such points of ideal coordinates, every sorting routine that sorts under a strict total order (CPython's short-list sort is one)", "why_tests_cant": "The scan pops and swaps in place; that the stack always holds the hull of the points seen so far needs an invariant over every prefix of every sorted input.", "anchors": ["src/pyrusgeom/convex_hull.py:ConvexHull.compute_graham_scan", "src/pyrusgeom/convex_hull.py:ConvexHull.sort_points_angle_from", "src/pyrusgeom/convex_hull.py:is_clockwise", "src/pyrusgeom/convex_hull.py:angle_sort_predicate"]}
{"id": "C125", "title": "Comparison operators of AngleSortPredicate", "statement": "For any two keys, < and <= give the same answer, > and >= the opposite one, == is always False and != always True (or all six raise the same exception); a < b holds exactly when the turn base-a-b is clockwise, or the three are on a line up to the tolerance and a is farther than b if a is above the base, nearer if it is not. An object is therefore > itself and not <= itself.", "quantifier": "all pairs of keys, any arithmetic; ideal coordinates for the geometric reading", "why_tests_cant": "All points and bases, including equal and collinear ones.", "anchors": ["src/pyrusgeom/convex_hull.py:AngleSortPredicate", "src/pyrusgeom/convex_hull.py:angle_sort_predicate"]}
{"id": "C126", "title": "Vector operations that return a new vector", "statement": "reverse_vector() returns the opposite vector; for a vector longer than 1e-6, set_length_vector(k) returns the vector of length |k| along it (against it for a negative k) and normalize_vector() the one of length 1; for a shorter vector both return an equal copy.", "quantifier": "all vectors and lengths, ideal coordinates", "why_tests_cant": "Every vector, on both sides of the length tolerance.", "anchors": ["src/pyrusgeom/vector_2d.py:Vector2D.reverse_vector", "src/pyrusgeom/vector_2d.py:Vector2D.set_length_vector", "src/pyrusgeom/vector_2d.py:Vector2D.normalize_vector"]}
{"id": "C127", "title": "Which line Line2D(...) builds", "statement": "Without keywords, Line2D accepts exactly three numbers (the coefficients), two points, a point and a direction (number or angle) or a line (copied). With keywords, positional arguments are ignored; a, b and c together win, then p1 and p2, then p and a, then l, and each keyword form gives the line of the positional one; if none is complete, an exception is raised.", "quantifier": "all positional and keyword arguments, any arithmetic", "why_tests_cant": "Every combination of keywords, including several complete forms at once.", "anchors": ["src/pyrusgeom/line_2d.py:Line2D.__init__"]}
{"id": "C128", "title": "Where a ray meets a triangle", "statement": "Triangle2D.intersection with a ray first takes the answer for the ray's line. No point there means no point; if the line's first point is ahead of the ray the line's answer is returned unchanged, and if it is behind the ray the answer says there is none. In particular a ray from inside a triangle can be told that it never meets the border.", "quantifier": "all triangles and rays whose line's first point is not within the tolerance of the ray's origin, ideal coordinates", "why_tests_cant": "All positions of the ray; the second point is never examined, which tests with rays from outside do not show.", "anchors": ["src/pyrusgeom/triangle_2d.py:Triangle2D.intersection", "src/pyrusgeom/ray_2d.py:Ray2D.in_right_dir"]}
{"id": "C129", "title": "The text of an object determines its numbers", "statement": "Two vectors, sizes, segments, triangles, circles, rectangles, matrices, polygons or hulls have the same repr exactly when all their coordinates are the same (the validity flag is not shown); two lines when a and b are the same and c is the same or both c equal zero; angles, rays and sectors are shown by the normalised degree, and repr raises exactly what degree() raises. The numbers appear in the text in the order of the constructor (m11, m12, m21, m22, dx, dy for a matrix).", "quantifier": "all objects, any arithmetic, any str() of numbers that gives different texts to different numbers and uses only the characters of number literals", "why_tests_cant": "All pairs of objects, with lists of any length; ambiguity would come from separators inside nested texts.", "anchors": ["src/pyrusgeom/vector_2d.py:Vector2D.__repr__", "src/pyrusgeom/size_2d.py:Size2D.__repr__", "src/pyrusgeom/matrix_2d.py:Matrix2D.__repr__", "src/pyrusgeom/segment_2d.py:Segment2D.__repr__", "src/pyrusgeom/triangle_2d.py:Triangle2D.__repr__", "src/pyrusgeom/circle_2d.py:Circle2D.__repr__", "src/pyrusgeom/rect_2d.py:Rect2D.__repr__", "src/pyrusgeom/line_2d.py:Line2D.__repr__", "src/pyrusgeom/polygon_2d.py:Polygon2D.__repr__", "src/pyrusgeom/convex_hull.py:ConvexHull.__repr__", "src/pyrusgeom/ray_2d.py:Ray2D.__repr__", "src/pyrusgeom/sector_2d.py:Sector2D.__repr__", "src/pyrusgeom/angle_deg.py:AngleDeg.__repr__"]}
{"id": "C130", "title": "What to_str leaves", "statement": "to_str(out) of a circle, a segment or a triangle returns None and leaves the caller's string as it was, so the description is lost; that of a rectangle returns the string extended by a text that is the same exactly for rectangles with the same four rounded sides.", "quantifier": "all shapes and strings, any arithmetic and any rounding", "why_tests_cant": "Every shape and string; a test that does not look at the result cannot tell.", "anchors": ["src/pyrusgeom/circle_2d.py:Circle2D.to_str", "src/pyrusgeom/segment_2d.py:Segment2D.to_str", "src/pyrusgeom/triangle_2d.py:Triangle2D.to_str", "src/pyrusgeom/rect_2d.py:Rect2D.to_str"]}
{"id": "C131", "title": "Hashing and sets of vectors", "statement": "Equal vectors have equal hashes, so a set of vectors answers `in` exactly like a list of the same objects; a vector changed in place after it went into a set is no longer found there, though a list still finds it. Objects of the other classes that define == (angles, lines, segments, rays, sizes, matrices) cannot be hashed at all.", "quantifier": "all vectors, all lists of objects with any sharing, all changes, any arithmetic and any hash of numbers that respects ==", "why_tests_cant": "Every set and every later change.", "anchors": ["src/pyrusgeom/vector_2d.py:Vector2D.__hash__", "src/pyrusgeom/vector_2d.py:Vector2D.__eq__"]}
{"id": "C132", "title": "Accuracy of a history of turns in doubles", "statement": "After any history of adding and subtracting angles or numbers of moderate size to an AngleDeg, in doubles, every step succeeds, the degree is finite and within [-180, 180], and it is within n * 2^-45 degrees, modulo full turns, of the direction that exact arithmetic would give after the n steps.", "quantifier": "all starting angles, all histories of any length, all operands up to the stated size, any libm", "why_tests_cant": "Error may accumulate with the length of the history; tests look at a few short ones.", "anchors": ["src/pyrusgeom/angle_deg.py:AngleDeg.__add__", "src/pyrusgeom/angle_deg.py:AngleDeg.__sub__", "src/pyrusgeom/angle_deg.py:AngleDeg.normal"]}
{"id": "C133", "title": "Left/right tests in doubles", "statement": "In doubles is_left_of, is_right_of, their non-strict variants and is_within decide by the exact difference d of the two degrees, except that a difference within 2^-46 below 180 counts as 180, and one within 2^-46 below -180 as -180; away from these windows they answer exactly as in ideal arithmetic. In the window two directions that are neither equal nor opposite can be neither left nor right of each other.", "quantifier": "all pairs and triples of finite in-range degrees, any libm", "why_tests_cant": "All pairs of doubles; the subtraction may round across the boundary only for a few of them.", "anchors": ["src/pyrusgeom/angle_deg.py:AngleDeg.is_left_of", "src/pyrusgeom/angle_deg.py:AngleDeg.is_right_of", "src/pyrusgeom/angle_deg.py:AngleDeg.is_left_equal_of", "src/pyrusgeom/angle_deg.py:AngleDeg.is_right_equal_of", "src/pyrusgeom/angle_deg.py:AngleDeg.is_within"]}
{"id": "C134", "title": "Symmetries that survive rounding", "statement": "In doubles, bit for bit and for infinities and NaN too: u+v = v+u, the inner product is symmetric, the outer product changes sign with its arguments (or both are zero), u-v and v-u have the same length, reversing twice gives the vector back, reversing keeps the length, and dist is symmetric if the C library's pow(x,2) is even.", "quantifier": "all pairs of vectors of doubles, any libm (pow even for dist)", "why_tests_cant": "All bit patterns.", "anchors": ["src/pyrusgeom/vector_2d.py:Vector2D.inner_product", "src/pyrusgeom/vector_2d.py:Vector2D.outer_product", "src/pyrusgeom/vector_2d.py:Vector2D.r", "src/pyrusgeom/vector_2d.py:Vector2D.reverse", "src/pyrusgeom/vector_2d.py:Vector2D.dist", "src/pyrusgeom/vector_2d.py:Vector2D.__add__"]}
{"id": "C135", "title": "Accuracy of the length of a vector", "statement": "For vectors of doubles of length between 2^-480 and 2^500, r2() and r() are finite, r2() is within 3*2^-53 and r() within 5*2^-54 of the true value, relatively; outside, a non-zero vector can have length 0 and a finite one an infinite length.", "quantifier": "all vectors of doubles in the range, any libm", "why_tests_cant": "All doubles; the error depends on every bit.", "anchors": ["src/pyrusgeom/vector_2d.py:Vector2D.r", "src/pyrusgeom/vector_2d.py:Vector2D.r2"]}
{"id": "C136", "title": "Accuracy of distances", "statement": "If the C library's pow(x,2) is within one unit in the last place, dist of two points between 2^-480 and 2^500 apart is within 2^-51 of the true distance, relatively, and 0 for equal points; computed distances satisfy the triangle inequality up to a factor 1+2^-49 and are ordered correctly when they differ by that much.", "quantifier": "all pairs and triples of points of doubles, every libm with that pow", "why_tests_cant": "All doubles.", "anchors": ["src/pyrusgeom/vector_2d.py:Vector2D.dist", "src/pyrusgeom/vector_2d.py:Vector2D.dist2"]}
{"id": "C137", "title": "Circle membership in doubles", "statement": "With such a pow, Circle2D.contains answers true for every point nearer to the centre than the radius by 2^-51 of it, and false for every point farther by that much.", "quantifier": "all circles with radius between 2^-480 and 2^500 and all points, every libm with that pow", "why_tests_cant": "All doubles.", "anchors": ["src/pyrusgeom/circle_2d.py:Circle2D.contains"]}
{"id": "C138", "title": "A rectangle of doubles contains its corners and centre", "statement": "For every rectangle with finite fields of moderate size, contains() is true of the four corners and the centre that the rectangle itself reports, although right, bottom and centre are rounded; contains() is exactly comparison with the rounded sides.", "quantifier": "all rectangles of doubles up to 2^900, all points, any libm", "why_tests_cant": "All doubles; rounding could put a corner outside.", "anchors": ["src/pyrusgeom/rect_2d.py:Rect2D.contains", "src/pyrusgeom/rect_2d.py:Rect2D.center", "src/pyrusgeom/rect_2d.py:Rect2D.bottom_right", "src/pyrusgeom/rect_2d.py:Rect2D.top_right", "src/pyrusgeom/rect_2d.py:Rect2D.bottom_left", "src/pyrusgeom/rect_2d.py:Rect2D.top_left"]}
{"id": "C139", "title": "Moving a rectangle of doubles", "statement": "Moving left, top or top-left is exact; moving right, bottom, bottom-right or centre puts the side or centre within 2^-50 of the largest magnitude involved of the target; no move changes the size. The far moves are not exact: after move_right(x) the rectangle need not contain x.", "quantifier": "all rectangles and targets up to 2^800, any libm", "why_tests_cant": "All doubles.", "anchors": ["src/pyrusgeom/rect_2d.py:Rect2D.move_left", "src/pyrusgeom/rect_2d.py:Rect2D.move_right", "src/pyrusgeom/rect_2d.py:Rect2D.move_top", "src/pyrusgeom/rect_2d.py:Rect2D.move_bottom", "src/pyrusgeom/rect_2d.py:Rect2D.move_center", "src/pyrusgeom/rect_2d.py:Rect2D.move_top_left", "src/pyrusgeom/rect_2d.py:Rect2D.move_bottom_right"]}
{"id": "C140", "title": "The Graham scan in doubles", "statement": "For distinct points of doubles of magnitude at most 2^k, one of them the origin and none above it, every three spanning a double area above 2^(2k-49)+1/999999, the Graham scan never raises and returns the convex hull: vertices from the origin clockwise, and every other input point strictly inside.", "quantifier": "all such inputs, every sorting procedure that sorts total orders, every libm whose pow(x,2) is accurate", "why_tests_cant": "All doubles: rounding decides every comparison of the scan and of the sort.", "anchors": ["src/pyrusgeom/convex_hull.py:ConvexHull.compute_graham_scan", "src/pyrusgeom/convex_hull.py:angle_sort_predicate", "src/pyrusgeom/convex_hull.py:is_clockwise"]}
{"id": "C141", "title": "The direct hull method in doubles", "statement": "For distinct points of doubles of magnitude at most 2^k, every three spanning a double area above 2^(2k-49)+1/999999, compute with the direct method never raises; its edges are exactly the sides of the convex hull, directed clockwise and each once, its vertices exactly their ends, each once; in a suitable order these form a strictly convex polygon with every other input point strictly inside.", "quantifier": "all such inputs, -100 <= k <= 240, every sorting procedure that rearranges lists of input points, every libm", "why_tests_cant": "All doubles: the sign of a product of two rounded areas decides every pair.", "anchors": ["src/pyrusgeom/convex_hull.py:ConvexHull.compute_direct_method", "src/pyrusgeom/convex_hull.py:list2set"]}
{"id": "C142", "title": "Sine, cosine, polar construction and rotation in doubles", "statement": "In doubles, with a C library whose sin and cos are within 2^-52 on [-16,16]: cos and sin of an angle built from any finite number are within 2^-49 of the true values; from_polar(m, a) with |m| <= 2^k is within 2^(k-48) of the true point; rotate of a vector with coordinates up to 2^k is within 2^(k-47) of the true rotation; n successive rotations of a vector of length at most 2^k end within n*2^(k-46) of the rotation by the sum of the angles, and its length drifts by no more.", "quantifier": "all finite angles, magnitudes and vectors in range, every sequence of up to 2^40 rotations, every libm meeting the accuracy", "why_tests_cant": "Error accumulates along an unbounded history of operations.", "anchors": ["src/pyrusgeom/angle_deg.py:AngleDeg.cos", "src/pyrusgeom/angle_deg.py:AngleDeg.sin", "src/pyrusgeom/vector_2d.py:Vector2D.from_polar", "src/pyrusgeom/vector_2d.py:Vector2D.rotate"]}
{"id": "C143", "title": "Direction of a vector and the polar round trip in doubles", "statement": "In doubles, for a vector with some coordinate at least 1/999999 in magnitude: th() is within 2^-44 degrees of the true direction modulo 360; from_polar(v.r(), v.th()) is within 2^(k-46) of v when the length is at most 2^k.", "quantifier": "all finite vectors outside the tiny square, -30 <= k <= 500, every libm with atan2 within 2^-51 and sin, cos within 2^-52", "why_tests_cant": "All doubles.", "anchors": ["src/pyrusgeom/vector_2d.py:Vector2D.th", "src/pyrusgeom/vector_2d.py:Vector2D.from_polar", "src/pyrusgeom/vector_2d.py:Vector2D.r", "src/pyrusgeom/angle_deg.py:AngleDeg.atan2_deg"]}
{"id": "C144", "title": "Lines through points in doubles", "statement": "In doubles, for points with coordinates up to 2^k: the intersection of two lines given by two points each, whose directions have determinant D with |D| at least 2^(2k-45) and 2/999999, is valid and each coordinate is within 2^(n+2k-45)/|D| of the true one (n >= k bounding the true coordinates), and lines with |D| + 2^(2k-49) < 1/1000001 give the invalid vector; the projection of a point on a line through points at distance s is within 2^(3k-43)/s^2 of the true foot; the distance of a point from the line is within 2^(2k-45)/s of the true distance; the orthocenter of a triangle is within 2^(n+2k-45)/|D| of the common point of the altitudes.", "quantifier": "all doubles in range, -200 <= k <= 200, every libm", "why_tests_cant": "All doubles; the error depends on the conditioning of the lines.", "anchors": ["src/pyrusgeom/line_2d.py:Line2D.__init__", "src/pyrusgeom/line_2d.py:Line2D.line_intersection", "src/pyrusgeom/line_2d.py:Line2D.projection", "src/pyrusgeom/line_2d.py:Line2D.dist", "src/pyrusgeom/triangle_2d.py:Triangle2D.tri_orthocenter"]}
{"id": "C145", "title": "Nearest point and distance of segments in doubles", "statement": "In doubles, for coordinates up to 2^k and a segment of length l: if l^2 is at least 2^(2k-45), nearest_point returns a finite point within 2^(3k-43)/l^2 of the true nearest point of the segment, whichever of the end and foot branches it takes; if l is at least 2^(k-45), dist of a point returns a finite number within 2^(2k-44)/l of the true distance.", "quantifier": "all doubles in range, -200 <= k <= 200; nearest_point for every libm, dist for every libm whose pow squares accurately and never negatively", "why_tests_cant": "All doubles; near the branch boundaries the rounded test takes the other branch than the exact one.", "anchors": ["src/pyrusgeom/segment_2d.py:Segment2D.nearest_point", "src/pyrusgeom/segment_2d.py:Segment2D.dist"]}
{"id": "C146", "title": "Matrices in doubles", "statement": "In doubles, for a matrix with linear part up to 2^m and translation up to 2^(m+k) and points with coordinates up to 2^k: transform and transform_vec give each coordinate of the affine image within 2^(m+k-51); after translate, scale, or multiplication by another matrix the image of a point is within 2^(m+k-50), 2^(m+s+k-50), 2^(a+b+k-49) of the exact composite; a rotation matrix rotates a point within 2^(k-47) in each coordinate when the C library's sin and cos are accurate; if the determinant is at least 2^d >= 2^(2m-50) and the translation is up to 2^k, inverted() takes a point back to its preimage within 2^(3m+k-2d-46). With integer entries and coordinates small enough for the results to stay below 2^53, transform and products are exact and A*B applied to a point equals A applied to B applied to it.", "quantifier": "all doubles in range, all exponents in -100..100 or -200..200, every libm (accurate sin/cos for the rotation)", "why_tests_cant": "All doubles; the error of inverted depends on the determinant.", "anchors": ["src/pyrusgeom/matrix_2d.py:Matrix2D.transform", "src/pyrusgeom/matrix_2d.py:Matrix2D.transform_vec", "src/pyrusgeom/matrix_2d.py:Matrix2D.translate", "src/pyrusgeom/matrix_2d.py:Matrix2D.scale", "src/pyrusgeom/matrix_2d.py:Matrix2D.make_rotation", "src/pyrusgeom/matrix_2d.py:Matrix2D.inverted", "src/pyrusgeom/matrix_2d.py:Matrix2D.__imul__"]}
{"id": "C147", "title": "Motion formulas in doubles", "statement": "In doubles, with decay between 0 and 1-2^-g and velocities up to 2^k: inertia_n_step_travel, inertia_n_step_point and inertia_n_step_distance stay within 2^(k+2g-47) of coasting n cycles step by step, for every n < 2^53; inertia_final_* within 2^(k+2g-50) of the limit; final_speed within 2^(a+b+c+2g-50) for factors up to 2^a, 2^b, 2^c; effective_turn within 2^(k-49) of moment/(1+inertia speed); kick_rate within 2^(p+k+h-48) for power up to 2^p, lengths up to 2^k and margin at least 2^-h; dir_rate within 2^-47 of the piecewise linear rate.", "quantifier": "all finite doubles in the stated ranges, all step counts below 2^53", "why_tests_cant": "rounding errors depend on every input bit and on the number of steps; only an analysis bounds them all", "anchors": ["src/pyrusgeom/soccer_math.py:inertia_n_step_travel", "src/pyrusgeom/soccer_math.py:inertia_n_step_point", "src/pyrusgeom/soccer_math.py:inertia_n_step_distance", "src/pyrusgeom/soccer_math.py:inertia_final_travel", "src/pyrusgeom/soccer_math.py:inertia_final_point", "src/pyrusgeom/soccer_math.py:inertia_final_distance", "src/pyrusgeom/soccer_math.py:final_speed", "src/pyrusgeom/soccer_math.py:effective_turn", "src/pyrusgeom/soccer_math.py:kick_rate", "src/pyrusgeom/soccer_math.py:dir_rate"]}
{"id": "C148", "title": "Turn and kick laws survive rounding", "statement": "In doubles, exactly and not only up to an error: effective_turn never exceeds the moment in size, never flips its sign, and never grows with the speed; kick_rate never grows with the distance or with the absolute angle, and is at most the kick power rate whenever the ball is at contact distance or more.", "quantifier": "all finite doubles in wide ranges (lengths to 2^100, margins from 2^-100, speeds to 2^400)", "why_tests_cant": "an order law must hold for every pair of inputs, including neighbours one unit in the last place apart", "anchors": ["src/pyrusgeom/soccer_math.py:effective_turn", "src/pyrusgeom/soccer_math.py:kick_rate"]}
{"id": "C149", "title": "Segment membership and crossing points in doubles", "statement": "In doubles, Segment2D.contains answers True for every point of the segment's closed bounding box and False for every point beyond it by 1/31000 or more in x or in y. For segments with coordinates up to 2^k whose directions have cross product D (not tiny), let E = 2^(3k-45)/|D|: if the true crossing point lies on both segments and stays E away from their end coordinates, intersection(other, True) returns a valid point within E of it in each coordinate, and so does intersection(other) when the orientations are not rounding-size; if the lines cross beyond either segment's box by E + 1/31000, both forms return an invalid point.", "quantifier": "all finite doubles in the stated ranges, any C library", "why_tests_cant": "whether a rounded crossing point passes the box test depends on every bit of eight coordinates", "anchors": ["src/pyrusgeom/segment_2d.py:Segment2D.contains", "src/pyrusgeom/segment_2d.py:Segment2D.intersection"]}
{"id": "C150", "title": "Quantization in doubles", "statement": "In doubles, for a value of at most 2^m steps (m <= 48): quantize returns a multiple of the step (rounded once) at most half a step plus 2^(m-51) steps from the value, the nearest multiple unless the value is within 2^(m-54) steps of a tie; quantizing the result again returns the identical double; a larger value never gets a smaller result. unquantize_min and unquantize_max of the result bracket the value, are one step apart, and everything between them quantizes to the same double, each up to 2^(m-49) steps.", "quantifier": "all finite doubles value and step with 2^-900 <= |step| <= 2^900 and |value| <= 2^m |step|", "why_tests_cant": "0.1 is not a double: whether re-quantizing is stable depends on every bit of value and step", "anchors": ["src/pyrusgeom/soccer_math.py:quantize", "src/pyrusgeom/soccer_math.py:unquantize_min", "src/pyrusgeom/soccer_math.py:unquantize_max"]}
{"id": "C151", "title": "Quadratic roots in doubles", "statement": "In doubles quadratic_f raises when a is zero. Otherwise, with D = b^2-4ac exactly and e = 2^(2j-49): if D >= 1e-6+e it returns two finite doubles s with 2as within e/sqrt(D) + 2^(j-49) of -b+sqrt(D) and -b-sqrt(D), in that order; if D <= -(1e-6+e) it returns no root; if |D|+e < 1e-6 it returns one value twice, with 2as within 2^(j-49) of -b.", "quantifier": "all finite doubles with |b| <= 2^j and |ac| <= 2^2j (|a| <= 2^i, |c| <= 2^(2j-i), i and j from -200 to 200), a zero or of magnitude at least 2^-200", "why_tests_cant": "the discriminant cancels: sampled coefficients do not show how large the loss can be", "anchors": ["src/pyrusgeom/circle_2d.py:quadratic_f"]}
{"id": "C152", "title": "Circle and line intersection in doubles", "statement": "In doubles, for a circle and a line all within 2^k (slope |b/a| <= 2^p, or exactly horizontal), with d the distance from the center to the line and D = 4(1+(b/a)^2)(r^2-d^2): if D exceeds 1e-6 by the error margin, the line meets the circle in exactly two points and the returned points are within a stated distance of them, in order, or the first alone when the two returned points agree to 1e-6; if D is below -1e-6 by the margin nothing is returned, and there is no common point; if |D| plus the margin is under 1e-6 one point is returned, next to the foot of the perpendicular from the center.", "quantifier": "all finite doubles in range", "why_tests_cant": "near-tangent lines lose half the digits; the guarantee must hold for every such line", "anchors": ["src/pyrusgeom/circle_2d.py:Circle2D.intersection", "src/pyrusgeom/line_2d.py:Line2D.get_x"]}
{"id": "C153", "title": "Solving a line for a coordinate in doubles", "statement": "In doubles get_x(y) and get_y(x) return the coordinate of the line's point at that height (abscissa) to within 2^(t-49) when b*y/a and c/a are at most 2^t; when the coefficient to divide by is under 1e-6 they return ERROR_VALUE.", "quantifier": "all finite doubles in range", "why_tests_cant": "coefficients of any magnitude", "anchors": ["src/pyrusgeom/line_2d.py:Line2D.get_x", "src/pyrusgeom/line_2d.py:Line2D.get_y"]}
{"id": "C154", "title": "Setting a vector's length in doubles", "statement": "In doubles, for a vector v of length N (a little over 1e-6 up to 2^500) and a target l with 2^-400 <= |l| <= 2^400, set_length(l) gives finite coordinates within 5*2^-53 relative of v*(l/N), and the result's length is within 6*2^-53 relative of |l|; a vector a little shorter than 1e-6 is left unchanged. normalize gives length 1 within 6*2^-53, keeps the direction (cross product with v at most 11*2^-53*N, dot at least N/2), and normalize_vector agrees with it.", "quantifier": "all finite double vectors and target lengths in range", "why_tests_cant": "a normalized vector is assumed to have unit length everywhere in the library; how far from 1 it can be is a bound over all doubles", "anchors": ["src/pyrusgeom/vector_2d.py:Vector2D.set_length", "src/pyrusgeom/vector_2d.py:Vector2D.normalize", "src/pyrusgeom/vector_2d.py:Vector2D.normalize_vector"]}
{"id": "C155", "title": "Point in polygon on arbitrary doubles", "statement": "In doubles, for any polygon (convex or not, any vertex coordinates up to 2^k, zero or at least 2^-150, not smaller overall than 2^(k-40)) and any point that is not on the outline, is at least 2^(k-49) away from the outline measured along its own horizontal line, and is not in the last 2^(k-50) below the highest vertex, contains answers exactly the parity of the number of edges crossed to the right of the point, whatever the vertex levels (equal to the point's level or arbitrarily close to it); for a convex polygon this is true exactly for the strictly interior points.", "quantifier": "all vertex lists and points of doubles in range, all n", "why_tests_cant": "every edge involves four rounded areas and products of areas; vertex levels may coincide with the point's level", "anchors": ["src/pyrusgeom/polygon_2d.py:Polygon2D.contains", "src/pyrusgeom/segment_2d.py:Segment2D.exist_intersection", "src/pyrusgeom/triangle_2d.py:Triangle2D.double_signed_area"]}
{"id": "C156", "title": "Bisector of two directions in doubles", "statement": "In doubles, bisecting two stored directions always succeeds with a stored direction in [-180, 180] whose double is the sum of the two directions modulo 360 up to 6 * 2^-45 degrees. Unless the directions are equal or within 2^-45 degrees of opposite, the result is reached from the right direction by half of the clockwise turn from right to left, up to 3 * 2^-45 degrees; for equal directions it is the opposite direction. Bisecting plain finite numbers is bisecting the AngleDeg objects made from them.", "quantifier": "all stored directions and all finite doubles", "why_tests_cant": "four roundings and two reductions, with four cases of the difference of the directions", "anchors": ["src/pyrusgeom/angle_deg.py:AngleDeg.bisect"]}
{"id": "C157", "title": "Point in sector in doubles", "statement": "In doubles, with an atan2 accurate to 2^-51, for a stored sector and a point between 2^-18 and 2^499 from its centre: contains answers true whenever the distance is inside the two stored radii by a relative margin of 2^-50 and the direction of the point is inside the clockwise interval from start to end by 2^-42 degrees (the interval being at most 360 - 2^-42 long), false whenever the distance is outside the radii or the direction outside the interval by the same margins (except for a sector stored as -180 to 180). For a sector made by the constructor from 0 <= min_r <= max_r the same holds with the outer radius only: the inner radius is not kept.", "quantifier": "all finite doubles in range, all stored directions and finite angle arguments", "why_tests_cant": "rounded difference, squares, atan2, degree conversion, reduction and three side tests; the direction of the rounded difference is not that of the exact one", "anchors": ["src/pyrusgeom/sector_2d.py:Sector2D.contains", "src/pyrusgeom/sector_2d.py:Sector2D.__init__", "src/pyrusgeom/angle_deg.py:AngleDeg.is_within", "src/pyrusgeom/vector_2d.py:Vector2D.th"]}
{"id": "C158", "title": "Distances from outlines and between segments in doubles", "statement": "In doubles, with a pow whose squares are accurate and not negative, coordinates up to 2^k and all sides at least lm >= 2^(k-45) long: the distance from a point to the outline of a polygon of any number of vertices is right up to 2^(2k-44)/lm; taken as a plane figure it is exactly 0 for the points of odd crossing parity and the outline distance otherwise, for points clear of the outline as in C155; the distance between two segments none of whose end points is within C116's margin of the other's line is right up to the same bound (exactly 0 when they cross); farthest_dist is right up to a relative 2^-50.", "quantifier": "all polygons, points and segments of doubles in range", "why_tests_cant": "running minima over all sides of rounded distances, each with its own branch", "anchors": ["src/pyrusgeom/polygon_2d.py:Polygon2D.dist", "src/pyrusgeom/segment_2d.py:Segment2D.dist", "src/pyrusgeom/segment_2d.py:Segment2D.farthest_dist"]}
{"id": "C159", "title": "Bisectors, circumcenter and circumscribed circle in doubles", "statement": "In doubles, for corners up to 2^k that differ by more than 1e-6 in a coordinate: the line function of the perpendicular bisector is half the difference of the squared distances up to 2^(n+k-49) at every point up to 2^n; with D the doubled area, |D| >= max(2^(2k-45), 2e-6), the circumcenter q (up to 2^n) is found up to 2^(n+2k-44)/|D| in each coordinate and the circumscribed circle's radius up to 2^(n+2k-42)/|D|; pairwise such corners with |D| + 2^(2k-49) < 1/10000000001 have no circumcenter (invalid vector) and the default circle; circum_circle_contains answers as the squared distances from q compare, whenever they differ by more than 2^(n+3k-42)/|D| + 2^(2n-44) beyond the built-in 1e-12.", "quantifier": "all corners and points of doubles in range", "why_tests_cant": "two bisectors, a validity branch, a division and a running cancellation of squares, all rounded", "anchors": ["src/pyrusgeom/line_2d.py:Line2D.perpendicular_bisector", "src/pyrusgeom/triangle_2d.py:Triangle2D.circumcenter", "src/pyrusgeom/circle_2d.py:Circle2D.circum_circle", "src/pyrusgeom/circle_2d.py:Circle2D.circum_circle_contains"]}
{"id": "C160", "title": "Which arguments build vectors, angles, rays and rectangles", "statement": "Vector2D accepts exactly no argument (origin), two numbers, one vector (valid copy), or exactly two keywords x,y or r,a; AngleDeg accepts nothing (0), one number or angle, or af=, always normalised, with one positional argument winning over keywords; Ray2D accepts exactly a point with a point, an angle or a number; Rect2D accepts exactly two numbers and two lengths, a point and two lengths (a length is a number, or an angle standing for its degrees; its magnitude is kept), two points (empty rectangle), a point and a size, or a rectangle; the fields of the object built are given for each form, and every other call raises (a bool is a number; values of a wrong type given as x=, y= or as the size, which the code stores unchecked and which fail at their first use, are refused at once in the model).", "quantifier": "all argument lists and keyword sets, any number type", "why_tests_cant": "a finite set of calls cannot exhaust argument lists and keyword sets", "anchors": ["src/pyrusgeom/vector_2d.py:Vector2D.__init__", "src/pyrusgeom/angle_deg.py:AngleDeg.__init__", "src/pyrusgeom/ray_2d.py:Ray2D.__init__", "src/pyrusgeom/rect_2d.py:Rect2D.__init__"]}
{"id": "C161", "title": "Setting one side of a rectangle in doubles", "statement": "With finite fields and argument of magnitude at most 2^k (|k| <= 700), set_left/right/top/bottom(x) makes the smaller of x and the opposite side the near side exactly and the larger the far side within 2^(k-50), and leaves the other direction unchanged bit for bit.", "quantifier": "all rectangles with finite non-negative sides, all finite x, any libm", "why_tests_cant": "all doubles cannot be enumerated; rounding depends on the values", "anchors": ["src/pyrusgeom/rect_2d.py:Rect2D.set_left", "src/pyrusgeom/rect_2d.py:Rect2D.set_right", "src/pyrusgeom/rect_2d.py:Rect2D.set_top", "src/pyrusgeom/rect_2d.py:Rect2D.set_bottom"]}
{"id": "C162", "title": "Intersecting two rectangles in doubles", "statement": "For rectangles with finite fields of magnitude at most 2^k whose argument has positive area, intersected() reports the larger near sides exactly and far sides within 2^(k-50) of the stated ones; when the rectangles meet, the result contains a point not within 2^(k-50) of the common far sides exactly when both rectangles contain it.", "quantifier": "all pairs of rectangles with finite non-negative sides, all finite points, any libm", "why_tests_cant": "all doubles cannot be enumerated; rounding depends on the values", "anchors": ["src/pyrusgeom/rect_2d.py:Rect2D.intersected", "src/pyrusgeom/rect_2d.py:Rect2D.contains"]}
{"id": "C163", "title": "Vector arithmetic in doubles", "statement": "For finite vectors and factors of magnitude at most 2^500, every form of addition and subtraction gives each component within relative error 2^-53, every form of scaling and division within relative error 2^-53 plus 2^-1075; division raises ZeroDivisionError for a zero divisor and succeeds for divisors of magnitude at least 2^-500; abs and reverse are exact; v - w equals the zero vector exactly when v and w are the same point, and equals/== compare values. (v + w) - w = v and (v / c) * c = v are false in general.", "quantifier": "all finite vectors and factors in range, any libm", "why_tests_cant": "all doubles cannot be enumerated", "anchors": ["src/pyrusgeom/vector_2d.py:Vector2D.__add__", "src/pyrusgeom/vector_2d.py:Vector2D.__sub__", "src/pyrusgeom/vector_2d.py:Vector2D.__mul__", "src/pyrusgeom/vector_2d.py:Vector2D.__truediv__", "src/pyrusgeom/vector_2d.py:Vector2D.scale", "src/pyrusgeom/vector_2d.py:Vector2D.abs", "src/pyrusgeom/vector_2d.py:Vector2D.reverse", "src/pyrusgeom/vector_2d.py:Vector2D.equals"]}
{"id": "C164", "title": "Tolerance tests in doubles", "statement": "Vector2D.equals_weakly, Segment2D.equals_weakly and Size2D equality answer as the exact coordinate differences compared with 1e-6 unless that difference is within 2^-71 of 1e-6 (finite coordinates up to 2^900); Line2D.is_parallel, Line2D equality (for equal constant coefficients; otherwise it is False) and Matrix2D.invertible answer as the exact determinant compared with 1e-6 unless it is within 2^(2k-52) + 2^-72 of it, for coefficients of magnitude at most 2^k.", "quantifier": "all finite vectors, segments, sizes, lines and matrices in range, any libm", "why_tests_cant": "all doubles cannot be enumerated; thresholds are where rounding shows", "anchors": ["src/pyrusgeom/vector_2d.py:Vector2D.equals_weakly", "src/pyrusgeom/segment_2d.py:Segment2D.equals_weakly", "src/pyrusgeom/size_2d.py:Size2D.__eq__", "src/pyrusgeom/line_2d.py:Line2D.is_parallel", "src/pyrusgeom/line_2d.py:Line2D.__eq__", "src/pyrusgeom/matrix_2d.py:Matrix2D.invertible", "src/pyrusgeom/matrix_2d.py:Matrix2D.det"]}
{"id": "C165", "title": "Projection onto a segment in doubles", "statement": "For coordinates of magnitude at most 2^k (-10 <= k <= 200) and a segment longer than 1/999998, Segment2D.projection returns a valid point within 2^(k-44) per coordinate of the exact foot of the perpendicular when the foot is on the segment or beyond it by less than 1e-6 (up to 2^(k-46)), and an invalid one when it is further beyond; on_segment_weakly then answers whether the point is within 1e-6 of the foot in each coordinate, unless within 2^(k-43) of that, and False in the second case.", "quantifier": "all finite segments and points in range, any libm", "why_tests_cant": "all doubles cannot be enumerated", "anchors": ["src/pyrusgeom/segment_2d.py:Segment2D.projection", "src/pyrusgeom/segment_2d.py:Segment2D.on_segment_weakly"]}
{"id": "C166", "title": "Rays in doubles", "statement": "With sin, cos and atan2 accurate to a few units in the last place: Ray2D.in_right_dir compares the angle between the ray and the direction to the point with the threshold, up to 2^-42 degrees, for any point at distance 2^-18 to 2^499 from the origin. Ray2D.intersection with a line through two points, or with another ray, returns a valid point within 2^(n+k-42)/D (rays: 2^(n-42)/D) per coordinate of the exact meeting point when that lies clearly in front of the ray(s), the invalid vector when it lies clearly behind one, and the invalid vector when the directions are parallel up to the 1e-6 tolerance; D is the determinant of the two directions.", "quantifier": "all rays with origin coordinates up to 2^k and directions in [-180,180], all lines through two such points, every accurate libm", "why_tests_cant": "all doubles cannot be enumerated", "anchors": ["src/pyrusgeom/ray_2d.py:Ray2D.in_right_dir", "src/pyrusgeom/ray_2d.py:Ray2D.intersection", "src/pyrusgeom/ray_2d.py:Ray2D.line", "src/pyrusgeom/line_2d.py:Line2D.intersection", "src/pyrusgeom/line_2d.py:Line2D.__init__"]}
{"id": "C167", "title": "Lengths, arcs and areas in doubles", "statement": "Circle2D.area and Rect2D.area have relative errors of at most 2^-50 and 2^-52, Size2D.diagonal and Segment2D.length of at most 2^-51, Segment2D.direction is within 2^-43 degrees of the exact direction, and for radii up to 2^k a sector's arc lengths are within 2^(k-47) and its area within 2^(2k-46) of the exact ones, for every extent of up to 360 - 2^-44 degrees, including extents that cross the 180-degree cut.", "quantifier": "circle radii from 2^-490 to 2^490, rectangle areas from 2^-1000 to 2^990, diagonals from 2^-480 to 2^500, segment lengths from 2^-18 to 2^499, k from -200 to 200; every libm with accurate pow and atan2", "why_tests_cant": "all doubles cannot be enumerated", "anchors": ["src/pyrusgeom/circle_2d.py:Circle2D.area", "src/pyrusgeom/rect_2d.py:Rect2D.area", "src/pyrusgeom/size_2d.py:Size2D.diagonal", "src/pyrusgeom/segment_2d.py:Segment2D.length", "src/pyrusgeom/segment_2d.py:Segment2D.direction", "src/pyrusgeom/sector_2d.py:Sector2D.area", "src/pyrusgeom/sector_2d.py:Sector2D.get_circumference_min", "src/pyrusgeom/sector_2d.py:Sector2D.get_circumference_max"]}
{"id": "C168", "title": "Angle bisectors and the incenter in doubles", "statement": "Line2D.angle_bisector of two directions that are neither equal nor within 2^-45 degrees of opposite is, up to 2^-47 in its first two coefficients and 2^(k-46) in the third, the line that halves the clockwise turn from the second to the first; Triangle2D.incenter is a valid point within 2^(k-41), divided by the sine of the angle between the two bisectors used, of the exact incenter.", "quantifier": "all points with double coordinates up to 2^k (k from -200 to 200), all stored directions, every libm with accurate sin, cos and atan2", "why_tests_cant": "all doubles cannot be enumerated", "anchors": ["src/pyrusgeom/line_2d.py:Line2D.angle_bisector", "src/pyrusgeom/triangle_2d.py:Triangle2D.incenter", "src/pyrusgeom/triangle_2d.py:Triangle2D.tri_incenter"]}
{"id": "C169", "title": "Setting and building from directions in doubles", "statement": "set_polar and set_dir put a vector at the wanted length and direction up to 2^(k-48) and 2^(k-46) and keep its validity flag; rotated_vector is a valid copy turned by the angle up to 2^(k-47); Segment2D(p, length, direction) starts exactly at p and ends within 2^(k-47) of the exact end; Ray2D(o, p) starts at o with the direction of p - o up to 2^-43 degrees, and Ray2D(o, angle) has exactly that direction; Matrix2D.rotate composes the map with the rotation up to 2^(m+k-46).", "quantifier": "all finite vectors, lengths, matrices up to the stated scales, all directions given as AngleDeg or number, every libm with accurate sin, cos and atan2", "why_tests_cant": "all doubles cannot be enumerated", "anchors": ["src/pyrusgeom/vector_2d.py:Vector2D.set_polar", "src/pyrusgeom/vector_2d.py:Vector2D.set_dir", "src/pyrusgeom/vector_2d.py:Vector2D.rotated_vector", "src/pyrusgeom/segment_2d.py:Segment2D.__init__", "src/pyrusgeom/ray_2d.py:Ray2D.__init__", "src/pyrusgeom/matrix_2d.py:Matrix2D.rotate"]}
{"id": "C170", "title": "Scaling, negating and copying angles in doubles", "statement": "An AngleDeg times or (floor-)divided by a finite number is that multiple of its degree, rounded once, up to whole turns; division by zero raises ZeroDivisionError; negation and copying are exact, negating twice gives the same angle, a - a is exactly zero, and radian() is within 5 * 2^-52 of the exact radian measure.", "quantifier": "all stored angles and all finite numbers whose product or quotient stays below 2^1000", "why_tests_cant": "all doubles cannot be enumerated", "anchors": ["src/pyrusgeom/angle_deg.py:AngleDeg.__mul__", "src/pyrusgeom/angle_deg.py:AngleDeg.__imul__", "src/pyrusgeom/angle_deg.py:AngleDeg.__floordiv__", "src/pyrusgeom/angle_deg.py:AngleDeg.__neg__", "src/pyrusgeom/angle_deg.py:AngleDeg.__sub__", "src/pyrusgeom/angle_deg.py:AngleDeg.copy", "src/pyrusgeom/angle_deg.py:AngleDeg.radian"]}
{"id": "C171", "title": "Lines and segments cutting rectangles in doubles", "statement": "If each side of a rectangle is either cut by the line through two points clearly inside the side, or clearly missed, then at most two sides are cut and Rect2D.intersection(line) returns one valid point per cut, within the margin m of it, left and right sides before top and bottom (two points closer than 1e-6 may be reported as one); for a segment it returns exactly the cuts that lie on the segment, provided each cut is clearly on or clearly off it.", "quantifier": "all rectangles, lines and segments with coordinates up to 2^k, -200 <= k <= 200, and every margin m bounding the error 2^(3k-45) / |cross product| of a cut", "why_tests_cant": "all doubles cannot be enumerated", "anchors": ["src/pyrusgeom/rect_2d.py:Rect2D.intersection", "src/pyrusgeom/line_2d.py:Line2D.intersection", "src/pyrusgeom/segment_2d.py:Segment2D.contains"]}
{"id": "C172", "title": "Lines meeting segments and triangles in doubles", "statement": "If a line through two points clearly meets or clearly misses a segment, Segment2D.intersection(line) returns a valid point within the margin m of the meeting point, or an invalid vector.  If that holds for the three sides of a triangle, Triangle2D.intersection(line) raises IndexError when the line meets both ab and bc, and otherwise returns the number of meeting points and the points, each within m, in the order ab, bc, ca (two points closer than 1e-6 count once).", "quantifier": "all segments, triangles and lines with coordinates up to 2^k, -200 <= k <= 200, and every margin m <= 2^-15 bounding the error 2^(3k-45) / |cross product|", "why_tests_cant": "all doubles cannot be enumerated", "anchors": ["src/pyrusgeom/segment_2d.py:Segment2D.intersection", "src/pyrusgeom/triangle_2d.py:Triangle2D.intersection", "src/pyrusgeom/line_2d.py:Line2D.intersection"]}
{"id": "C173", "title": "Tangent and inverse trigonometry in doubles", "statement": "For every finite double, acos_deg returns a value in [0, 180] and asin_deg one in [-90, 90], each within 2^-44 degree of the true arc cosine or arc sine of the argument clamped to [-1, 1]; cos_deg and sin_deg of the result give the clamped argument back up to 2^-48; arguments at or beyond 1 and -1, infinities included, give exactly 0, 180, 90 and -90, and NaN does not raise.  atan_deg is within 2^-44 degree.  AngleDeg.tan and tan_deg are within 2^-48 / cos^2 of the tangent.", "quantifier": "all finite doubles and the special values; for tan, angles up to 512 degrees whose cosine is at least 2^-20; every C library that is accurate to the stated bounds", "why_tests_cant": "all doubles cannot be enumerated", "anchors": ["src/pyrusgeom/angle_deg.py:AngleDeg.acos_deg", "src/pyrusgeom/angle_deg.py:AngleDeg.asin_deg", "src/pyrusgeom/angle_deg.py:AngleDeg.atan_deg", "src/pyrusgeom/angle_deg.py:AngleDeg.tan", "src/pyrusgeom/angle_deg.py:AngleDeg.tan_deg"]}
{"id": "C174", "title": "Where segments, rays and circles cut a circle, in doubles", "statement": "In double arithmetic Circle2D.intersection of a circle with a segment returns exactly the cuts of the exact line that lie on the segment, each to a stated accuracy (two within 1e-6 may come as one), and nothing when the line clearly misses; with a ray exactly the cuts in front of its origin; with a circle the two common points, or nothing when the circles are clearly apart or nested.", "quantifier": "all circles, segments, rays and pairs of circles of doubles up to 2^60 whose cuts are clear of tangency and of the ends, with a line not nearly horizontal (exactly horizontal segments and vertically aligned centers included); all libm with accurate pow, trigonometry and atan2", "why_tests_cant": "Rounding errors depend on every bit of the input; tests sample finitely many doubles.", "anchors": ["src/pyrusgeom/circle_2d.py:Circle2D.intersection", "src/pyrusgeom/circle_2d.py:Circle2D.intersection_with_segment", "src/pyrusgeom/circle_2d.py:Circle2D.intersection_with_ray", "src/pyrusgeom/circle_2d.py:Circle2D.intersection_with_circle"]}
{"id": "C175", "title": "Which calls can raise in floating point", "statement": "In IEEE doubles, geometry calls raise only where stated. Needing nothing of the C library and for ALL coordinates (infinities and NaN included): length/normalise of vectors, get_x/get_y/intersection/projection of lines, projection/on_segment_weakly/nearest_point/intersection of segments, circumcentre and orthocentre, rectangle against line and segment, Size2D.diagonal, polygon containment, clipping by a line, bounding box of a non-empty polygon, and matrix inverse never raise. AngleDeg(x) raises exactly for an infinite x, and every operation between angle objects (or with a number that is NaN or at most 2^1000) returns, again giving an angle object. With a sane sin/cos/atan2, directions, polar constructors, rotation, lines and rays by angle, ray intersections, incentre, sectors, rectangle against ray, matrix rotation and rectangle clipping never raise whatever the coordinates. With a sane pow(x,2), distances (points, segments, polygons), circle containment, and direct-method hulls return unless a coordinate is finite and beyond 2^500; gift wrapping for finite coordinates within 2^500; circle intersections and circumscribed circles for coordinates within 2^100. The distance to a line returns if one of its coefficients is at least 2^-500. Refuted outside these bounds: the distance to the proper line 2^-600 x = 0 raises ZeroDivisionError, the distance between finite points 2^600 apart raises OverflowError.", "quantifier": "all doubles incl. NaN and infinities where stated, all C libraries satisfying the named sanity conditions, all lists of points", "why_tests_cant": "Whether some double makes a division by zero, a square root of a negative number or an overflow in pow reachable is a question about every one of the 2^64 values of each coordinate.", "anchors": ["src/pyrusgeom/vector_2d.py:Vector2D.dist", "src/pyrusgeom/line_2d.py:Line2D.dist", "src/pyrusgeom/segment_2d.py:Segment2D.nearest_point", "src/pyrusgeom/segment_2d.py:Segment2D.dist", "src/pyrusgeom/circle_2d.py:Circle2D.intersection", "src/pyrusgeom/angle_deg.py:AngleDeg", "src/pyrusgeom/ray_2d.py:Ray2D.intersection", "src/pyrusgeom/convex_hull.py:ConvexHull.compute_wrapping_method", "src/pyrusgeom/convex_hull.py:ConvexHull.compute_direct_method", "src/pyrusgeom/polygon_2d.py:Polygon2D.contains", "src/pyrusgeom/sector_2d.py:Sector2D.contains"]}
{"id": "C176", "title": "Setting a corner, uniting and two-corner construction of rectangles in doubles", "statement": "In IEEE doubles, set_top_left(x, y) and set_bottom_right(x, y) give a rectangle whose left and top sides are exactly the smaller of the given coordinate and the opposite (resp. old) side and whose bottom side is the larger one up to rounding, but whose right side is exactly left + |left|, whatever the old right side was. united(other) of a valid argument has the left and top sides max of the two, the right and bottom sides as over the reals up to rounding, and is never the union: it misses the receiver's top-left corner or a point of the argument, unless the argument is so small against its position that it reports equal left and right sides. Rect2D(p, q) and assign(p, q) always give a zero size.", "quantifier": "all finite rectangles and points with coordinates up to 2^700 (2^900 for the constructor), any C library", "why_tests_cant": "Whether rounding can hide or repair these defects for some of the doubles is a question about all of them.", "anchors": ["src/pyrusgeom/rect_2d.py:Rect2D.set_top_left", "src/pyrusgeom/rect_2d.py:Rect2D.set_bottom_right", "src/pyrusgeom/rect_2d.py:Rect2D.united", "src/pyrusgeom/rect_2d.py:Rect2D.__init__", "src/pyrusgeom/rect_2d.py:Rect2D.assign"]}
{"id": "C177", "title": "When the Graham scan raises", "statement": "Computing the hull with the Graham scan of three or more pairwise distinct points never raises, however the points lie and in whatever order the sort leaves them, and leaves between two and n vertices, all of them input points. On any points and from any state of the object the scan ends, and IndexError is the only exception it can raise. Three or more copies of one point always raise IndexError.", "quantifier": "all point lists, all orders a sort may leave, all states of the hull object; over the reals, and in doubles with coordinates up to 2^450 (2^500 for the second part) and distinct points at least 2^-480 apart", "why_tests_cant": "The scan indexes a list at positions it computes as it goes; that none of them falls outside is a fact about every list of points.", "anchors": ["src/pyrusgeom/convex_hull.py:ConvexHull.compute_graham_scan", "src/pyrusgeom/convex_hull.py:is_clockwise", "src/pyrusgeom/convex_hull.py:ConvexHull.sort_points_angle_from", "src/pyrusgeom/convex_hull.py:ConvexHull.compute"]}
{"id": "C178", "title": "Points on a segment, equal segments and perpendicular lines in doubles", "statement": "In IEEE doubles Segment2D.on_segment gives the exact answer for non-degenerate segments and points on one grid (integers up to 2^25 times a power of two), and for segments parallel to an axis at any coordinates. For every segment both ends are on it, and a point reported to be on it lies beside it and spans a double area of at most 2^(2k-49) with it; beyond that the answer can be wrong both ways. Segment == is equality of the coordinates, is_valid is right unless the ends differ by 1e-6 up to 2^-71, and Line2D.perpendicular(p) has exactly the perpendicular direction and passes p up to 2^(2k-52).", "quantifier": "all finite segments, points and lines with coordinates up to 2^k (k up to 480, 900 or 200; for the axis-parallel case coordinate differences zero or at least 2^-400), any C library", "why_tests_cant": "on_segment compares a rounded area with exact zero; for which doubles rounding keeps that comparison right is a question about all of them.", "anchors": ["src/pyrusgeom/segment_2d.py:Segment2D.on_segment", "src/pyrusgeom/segment_2d.py:Segment2D.__eq__", "src/pyrusgeom/segment_2d.py:Segment2D.is_valid", "src/pyrusgeom/line_2d.py:Line2D.perpendicular"]}
{"id": "C179", "title": "Rays against rectangles and triangles in doubles", "statement": "In IEEE doubles Rect2D.intersection(ray) reports the cuts of the ray's line with the sides that are clearly in front of the ray's origin, each within a stated error m in each coordinate, in the order left, right, top, bottom side, and leaves out those clearly behind it; two points closer than about 1e-6 may be reported as one. Triangle2D.intersection(ray) raises IndexError when the line of the ray meets the first two sides; otherwise its count depends only on the first meeting point (in the order ab, bc, ca): if that is clearly in front, all meeting points of the whole line are counted, even one behind the origin, and if it is clearly behind, the count is 0, even if the other is in front.", "quantifier": "all finite rectangles, triangles and rays with coordinates up to 2^k (-200<=k<=200), directions in [-180,180], cuts at least m from the ends of the sides and at least 2^-17 and 256m from the origin of the ray; sides missed are missed by the error bound, every C library with accurate sin, cos and atan2", "why_tests_cant": "The cut, the side test and the direction test are all made on rounded values; that they agree with the exact cut is a statement about all rays and shapes.", "anchors": ["src/pyrusgeom/rect_2d.py:Rect2D.intersection", "src/pyrusgeom/triangle_2d.py:Triangle2D.intersection", "src/pyrusgeom/ray_2d.py:Ray2D.in_right_dir"]}
{"id": "C180", "title": "Clipping polygons in doubles", "statement": "In IEEE doubles, clipping a polygon against a line handles the edges one by one, in order, beginning with the edge from the first vertex: an edge inside contributes its end, an edge outside nothing, an edge leaving contributes its crossing with the line (within a stated error) and an edge entering contributes the crossing and its end. It never raises, and it stops early only at a crossing edge whose extent across the line is at most about 1e-6, keeping what it has. In particular this holds for each of the four clips (right, bottom, left, top) of get_rectangle_clipped_polygon against a line at the tested threshold. A polygon whose vertices the rectangle contains comes back with exactly the same vertices (turned by four places); one wholly beyond a side gives the empty polygon. A polygon that touches the bottom side may however be lost: the rectangle (0,0)-(3,0.1) clipped to (0,0)-(1,0.1) is the single point (1,0), although interior points are in both.", "quantifier": "all polygons with finite vertices of size up to 2^k (-200<=k<=20; any vertices for the whole-polygon cases), all lines given by a point and an angle, all regions separated by the line; every C library with accurate sin and cos (for the touching case: the usual values at 0 and 90 degrees)", "why_tests_cant": "Whether a rounded crossing is accepted depends on the rounded determinant of each edge, and the number of edges is unbounded.", "anchors": ["src/pyrusgeom/polygon_2d.py:Polygon2D.get_line_clipped_polygon", "src/pyrusgeom/polygon_2d.py:Polygon2D.get_rectangle_clipped_polygon"]}
{"id": "C181", "title": "f_range in doubles", "statement": "In IEEE doubles f_range never ends if the step is zero or NaN or an end is NaN. With finite ends and a finite nonzero step it either ends, having produced values that move strictly from start towards stop and never reach it, or it arrives at a value w with w + step == w and produces that value forever. With ends of size up to 2^k and a step of at least 2^(k-53) it always ends, the i-th value is start + i*step up to i*2^(k-54), and it does not stop earlier than that error before the stop. When start, stop and step are multiples (up to 2^52 times) of one power of two, the values are exactly start + i*step, and exactly those before the stop are produced. With an infinite stop ahead of a finite start it produces finite, strictly advancing values until one overflows and it ends, which needs a step of at least 2^970, or until it is stuck as above: f_range(0.0, inf) counts to 2^53 and stays there. If the stop is already passed nothing is produced; an infinite step from a finite start produces the start alone; an infinite start away from the stop is produced forever, or followed by NaN forever if the step is infinite too. The number of values is not reliable otherwise: f_range(0.0, 1.0, 0.1) produces eleven, the last one 0.9999999999999999.", "quantifier": "all doubles (including NaN) for the endless cases, all finite doubles for the dichotomy, all infinities; sizes 2^-900 to 2^900 for the error bound; both directions", "why_tests_cant": "The loop runs until a rounded sum passes the stop; whether it does depends on every intermediate rounding, and the number of turns is unbounded.", "anchors": ["src/pyrusgeom/soccer_math.py:f_range"]}
{"id": "C182", "title": "Which soccer_math calls raise in doubles", "statement": "In IEEE doubles: final_speed and inertia_final_travel/point/distance raise ZeroDivisionError exactly when the decay is 1, kick_rate exactly when the margin is 0, dir_rate never raises, effective_turn does not unless the inertia or the speed is negative (any doubles, NaN and infinities included). r_int raises ValueError for NaN, OverflowError for infinities, else returns; quantize and unquantize_min/max raise ZeroDivisionError exactly for a zero step, else ValueError exactly when value or step is NaN or both are infinite, OverflowError exactly when only the value is infinite or the quotient rounds past the largest double. inertia_n_step_* and calc_first_term_geom_series raise OverflowError for a number of steps beyond the doubles and else ZeroDivisionError for decay (ratio) 1; inertia_n_step_* return for 0 <= decay < 1, raise ValueError for decay 0 and a negative number of steps, return for infinite and NaN decays, and for any other decay and up to 2^53 steps forward or back raise OverflowError when decay^n is 2^1025 or more and return when it is at most 2^1023 (calc_first_term_geom_series too, unless ratio^n is within 2^-51 of 1, and with ZeroDivisionError for length 0). calc_length_geom_series raises only ZeroDivisionError, exactly when the ratio is 1 and neither first term nor sum is at most SERVER_EPS. quantize_dist raises ValueError exactly when the distance is at most -SERVER_EPS and unquantize_error exactly when the seen distance is below half of the double 0.1 (bounded distances, steps 2^-900 to 1). wind_effect raises ValueError for an infinite direction, else ZeroDivisionError exactly when the product of the weights rounds to 0.", "quantifier": "all doubles where stated, otherwise the stated ranges; every libm with the stated accuracy (1 to any power and any number to the power 0 are 1; log, exp within a relative 2^-52)", "why_tests_cant": "Whether a denominator such as 1 - decay, or a logarithm, rounds to exactly zero, and whether a rounded quotient overflows, depends on every input double.", "anchors": ["src/pyrusgeom/soccer_math.py:final_speed", "src/pyrusgeom/soccer_math.py:inertia_final_travel", "src/pyrusgeom/soccer_math.py:inertia_final_point", "src/pyrusgeom/soccer_math.py:inertia_final_distance", "src/pyrusgeom/soccer_math.py:kick_rate", "src/pyrusgeom/soccer_math.py:dir_rate", "src/pyrusgeom/soccer_math.py:effective_turn", "src/pyrusgeom/soccer_math.py:r_int", "src/pyrusgeom/soccer_math.py:quantize", "src/pyrusgeom/soccer_math.py:unquantize_min", "src/pyrusgeom/soccer_math.py:unquantize_max", "src/pyrusgeom/soccer_math.py:inertia_n_step_travel", "src/pyrusgeom/soccer_math.py:inertia_n_step_point", "src/pyrusgeom/soccer_math.py:inertia_n_step_distance", "src/pyrusgeom/soccer_math.py:calc_first_term_geom_series", "src/pyrusgeom/soccer_math.py:calc_length_geom_series", "src/pyrusgeom/soccer_math.py:quantize_dist", "src/pyrusgeom/soccer_math.py:unquantize_error", "src/pyrusgeom/soccer_math.py:wind_effect"]}
{"id": "C183", "title": "Seen distances in doubles", "statement": "In IEEE doubles, for distances between 0 and 2^20 and quantization steps between 2^-10 and 1: quantize_dist returns a finite number within 0.05 (plus 2e-6) of some e with (d + SERVER_EPS) exp(-q/2) <= e <= (d + SERVER_EPS) exp(q/2), up to 1e-9 in the exponent. A larger distance is never seen smaller if the C library's log and exp do not decrease. Two distances that are seen as the same number either are seen as a number <= 0, for which unquantize_error raises ValueError, or differ by at most unquantize_error of that number plus 1e-8 (1 + d + d').", "quantifier": "all pairs of doubles in the stated ranges and every C library whose log and exp are within a relative 2^-52 (and monotone, for the monotonicity)", "why_tests_cant": "The seen distance passes through two roundings to a grid with a logarithm and an exponential between them; near each tie the rounding errors decide which grid point is chosen.", "anchors": ["src/pyrusgeom/soccer_math.py:quantize_dist", "src/pyrusgeom/soccer_math.py:unquantize_error"]}
{"id": "C184", "title": "Geometric series in doubles", "statement": "In IEEE doubles: for ratios from 0 to 1 - 2^-10, at least one term and sums up to 2^900, the first term calc_first_term_geom_series returns gives a series whose sum is the one asked for within a relative 2^-37 (plus 2^-1060). For first terms, sums and ratios above SERVER_EPS and up to 2^40, the ratio not 1, calc_length_geom_series either returns a length t for which the series sums up to the sum asked for within 2^-39 (first/|ratio - 1| + sum), or returns -1 and the term after that length would be at most SERVER_EPS times the first, up to a relative 2^-50 (or the series does not reach the sum). For any doubles, a first term or ratio <= SERVER_EPS or a negative sum gives -1, otherwise a sum <= SERVER_EPS gives 0.", "quantifier": "all doubles in the stated ranges, all lengths below 2^53, every C library whose powers of numbers in [0,1] are within 2^-52 and whose logarithm is within a relative 2^-52", "why_tests_cant": "The ratio of two logarithms and the difference 1 - ratio^n amplify rounding errors differently for every ratio and length.", "anchors": ["src/pyrusgeom/soccer_math.py:calc_first_term_geom_series", "src/pyrusgeom/soccer_math.py:calc_length_geom_series"]}
{"id": "C185", "title": "wind_effect in doubles", "statement": "In IEEE doubles, whenever wind_effect returns, both coordinates of the result are 0 or -0 if the speed is finite and the rounded product of the weights is not NaN, and both are NaN otherwise; a given wind_error becomes zero if the speed and the random factor are finite and that product is not NaN, NaN otherwise; without one nothing is set.", "quantifier": "all doubles (NaN, infinities and -0 included) and every C library", "why_tests_cant": "Every combination of special values of seven parameters.", "anchors": ["src/pyrusgeom/soccer_math.py:wind_effect"]}
{"id": "C186", "title": "Squared line distances and box centers in doubles", "statement": "In IEEE doubles, for points with coordinates up to 2^k: Line2D.dist2 of the line through two points at distance s >= 2^(k-23) is within 2^(4k-42)/s^2 of the square of the least distance to that line; Polygon2D.bounding_box_center is within 2^(k-50), in each coordinate, of the midpoint of the extreme coordinates of the vertices; Rect2D.from_center(x, y, length, width) with length and width >= 0 has exactly that length and width, and its center is within 2^(k-50) of (x, y) in each coordinate.", "quantifier": "all finite coordinates up to 2^k and all lists of vertices", "why_tests_cant": "Cancellation in the coefficients of the line depends on the pair of points; the box depends on the whole list of vertices.", "anchors": ["src/pyrusgeom/line_2d.py:Line2D.dist2", "src/pyrusgeom/polygon_2d.py:Polygon2D.bounding_box_center", "src/pyrusgeom/rect_2d.py:Rect2D.from_center"]}
{"id": "C187", "title": "Equality of directions and the speed-limit test in doubles", "statement": "In IEEE doubles: AngleDeg equality is symmetric and reflexive on angles in [-180,180] and compares the difference of the stored degrees with 1e-6, exactly unless that difference is within 2^-71 of 1e-6; Ray2D equality is False for different origins and, for equal ones, is True if the directions differ by at most 1e-6 - 2^-44 modulo a full turn and False if they differ by at least 1e-6 + 2^-44; Sector2D equality compares the largest difference between centers, start and end angles, small radii, and between the first's big and the second's small radius, with 1e-6 (up to 2^-71), so that no sector whose radii differ by 2e-6 equals itself; can_over_speed_max is True if |power|*rate*effort exceeds speed_max*(1-decay) by a relative 2^-49 and False if it is below by as much.", "quantifier": "all angles in [-180,180], all finite origins, centers and radii up to 2^900, all powers, rates, efforts and speed limits between 2^-200 and 2^200 and all decays in [0,1)", "why_tests_cant": "The answer near the tolerance depends on how each difference rounds, including across the +-180 seam.", "anchors": ["src/pyrusgeom/angle_deg.py:AngleDeg.__eq__", "src/pyrusgeom/ray_2d.py:Ray2D.__eq__", "src/pyrusgeom/sector_2d.py:Sector2D.__eq__", "src/pyrusgeom/soccer_math.py:can_over_speed_max"]}
{"id": "C188", "title": "Following a moving object cycle by cycle in doubles", "statement": "In IEEE doubles, a client that in every cycle does vel += acc (if there is an acceleration), pos += vel, vel *= decay, for n <= 2^26 cycles in which the exact velocities stay within 2^(k-1) and the exact positions within 2^(m-1) per axis, ends with a position within n*2^(m-54)+n^2*2^(k-54) and a velocity within n*2^(k-53) of the exact recurrence, per axis, and no value overflows; without accelerations that position differs from inertia_n_step_point(pos, vel, n, decay) by at most n*2^(k+g-52)+n^2*2^(k-53)+2^(k+2g-47) per axis, when 1-decay >= 2^-g.", "quantifier": "all histories of up to 2^26 cycles, all accelerations, all starting positions and velocities and all decays in [0,1], and every math library whose pow is as accurate as stated", "why_tests_cant": "The rounding errors of every cycle accumulate; a test follows one trajectory.", "anchors": ["src/pyrusgeom/vector_2d.py:Vector2D.__iadd__", "src/pyrusgeom/vector_2d.py:Vector2D.__imul__", "src/pyrusgeom/soccer_math.py:inertia_n_step_point"]}
{"id": "C189", "title": "Histories of turns and shifts in doubles", "statement": "In IEEE doubles, for any history of up to 2^40 turns (angles in [-180,180]) and shifts whose exact positions stay within 2^(k-1) of the origin: calling rotate and add in that order on a vector ends within (number of calls)*2^(k-47) of the exact position; calling rotate and translate in that order on the identity Matrix2D gives a matrix whose transform carries every point with coordinates up to 2^k to within (number of calls + 1)*2^(k-44), per coordinate, of the exact motion of that point; so the two ways of moving a point agree up to (number of calls + 1)*2^(k-43), and nothing raises or overflows.", "quantifier": "all histories of up to 2^40 calls, all angles in [-180,180], all finite shifts, all starting vectors, and every math library whose sin and cos are as accurate as stated", "why_tests_cant": "The rounding errors of every call accumulate, and the matrix and the vector accumulate different ones.", "anchors": ["src/pyrusgeom/vector_2d.py:Vector2D.rotate", "src/pyrusgeom/vector_2d.py:Vector2D.add", "src/pyrusgeom/matrix_2d.py:Matrix2D.rotate", "src/pyrusgeom/matrix_2d.py:Matrix2D.translate", "src/pyrusgeom/matrix_2d.py:Matrix2D.transform"]}
{"id": "C190", "title": "A hull and the caller's list, over any history", "statement": "ConvexHull(points) keeps the caller's list, not a copy: over any history of add_point, add_points (with another list), clear, clear_results, compute (any method, any sorting algorithm that permutes and looks only through the comparison) and of appends to and clearings of the caller's own list, the hull behaves as the history of those calls on values, with the caller's appends acting as add_point; the vertices are always the caller's own Vector2D objects, no point and no other object is changed, and an exception is raised exactly when it is on values. After a Graham scan of three or more points vertices_() is the caller's list, for good: whatever is called or added later, the next compute empties the caller's list. add_points given the hull's own (non-empty) input list never ends.", "quantifier": "all heaps, all lists of points, all finite histories of calls and of changes to the caller's list, all methods and all sorts", "why_tests_cant": "Aliasing between the caller's list, the input list and the vertex list builds up over a history; a test follows one.", "anchors": ["src/pyrusgeom/convex_hull.py:ConvexHull.__init__", "src/pyrusgeom/convex_hull.py:ConvexHull.add_points", "src/pyrusgeom/convex_hull.py:ConvexHull.clear", "src/pyrusgeom/convex_hull.py:ConvexHull.compute_direct_method", "src/pyrusgeom/convex_hull.py:ConvexHull.compute_graham_scan", "src/pyrusgeom/convex_hull.py:ConvexHull.compute_wrapping_method", "src/pyrusgeom/convex_hull.py:list2set"]}
{"id": "C191", "title": "A clipped polygon shares the vertices that stay", "statement": "Polygon2D.get_rectangle_clipped_polygon(rect), for any polygon object with at least one vertex and any rectangle, returns a new polygon whose vertices are, in value, those computed from the values, and changes no existing object; but it is not a deep copy: each of its vertices is either one of the polygon's own Vector2D objects, inside the rectangle, or a new object where an edge was cut, none occurring twice if none did before. So moving a shared vertex later moves it in both polygons, moving any other vertex of one leaves the other alone. A polygon with no vertex outside the rectangle comes back with exactly its own vertex objects, in the same cyclic order, begun four vertices later.", "quantifier": "all heaps, polygons, rectangles and number systems, and every later assignment to a vertex", "why_tests_cant": "Sharing shows only when a vertex is changed after the call, for some polygons and some of their vertices.", "anchors": ["src/pyrusgeom/polygon_2d.py:Polygon2D.get_rectangle_clipped_polygon", "src/pyrusgeom/polygon_2d.py:Polygon2D.get_line_clipped_polygon", "src/pyrusgeom/polygon_2d.py:Polygon2D.__init__"]}
{"id": "C192", "title": "An angle after calls that raised", "statement": "Every call that changes an AngleDeg in place (set_degree, set_angle, normal, +=, -=, *=, /=) either returns, with the angle NaN or within [-180, 180], or raises, and the object it leaves behind is settled: if an argument could not be read or the divisor is zero the angle is as it was; if the new value is infinite the call raises ValueError but has already stored the infinity. Such a damaged angle raises ValueError from every reading operation (degree, abs, radian, float, copy, sin, cos, tan, negation, comparisons), reverse() leaves it infinite, and set_degree/set_angle with a value that is not infinite repair it. So in a program that catches exceptions and goes on, an angle is either NaN or within [-180, 180], or it is infinite and the last call made on it, apart from reverse(), raised. In exact arithmetic the only call that raises is division by zero and it changes nothing.", "quantifier": "all sequences of in-place calls, any of which may raise and be caught, all doubles including NaN and infinities, all math libraries", "why_tests_cant": "The state left by a failed call matters only to later calls, and there are infinitely many sequences of them.", "anchors": ["src/pyrusgeom/angle_deg.py:AngleDeg.set_degree", "src/pyrusgeom/angle_deg.py:AngleDeg.set_angle", "src/pyrusgeom/angle_deg.py:AngleDeg.normal", "src/pyrusgeom/angle_deg.py:AngleDeg.__iadd__", "src/pyrusgeom/angle_deg.py:AngleDeg.__isub__", "src/pyrusgeom/angle_deg.py:AngleDeg.__imul__", "src/pyrusgeom/angle_deg.py:AngleDeg.__itruediv__", "src/pyrusgeom/angle_deg.py:AngleDeg.reverse"]}
{"id": "C193", "title": "Vectors and shapes after calls that raised", "statement": "A call that raises leaves a known object. Vectors: set_polar, set_dir, rotate, set_length and /= leave the vector exactly as it was; add(x, other) and sub(x, other) do not: when other is not a number they raise TypeError after having moved x, so repeating the call with a proper argument moves x twice. Segments: a failed assign first forgets the old segment: the terminal is the origin point, and so is the origin unless the first argument was a point. Triangles: a failed assign replaces the corners read before the bad argument and keeps the others. Size2D: a failed assign may have replaced the length, never the width. Rectangles: a failed assign from four or three arguments has already moved the top-left corner and may have changed the length, other forms change nothing; set_size never changes the corner. Circles: a failed assign changes nothing. Sectors: a failed assign changes nothing if the center is not a point; otherwise center and radii are the new ones and only angles may be the old ones.", "quantifier": "all argument lists and prior states, any number system; for vectors, exact reals and all doubles with any math library bounded on finite values", "why_tests_cant": "Whether an object is half changed depends on which argument is bad, on its type, and on what it held before.", "anchors": ["src/pyrusgeom/vector_2d.py:Vector2D.add", "src/pyrusgeom/vector_2d.py:Vector2D.sub", "src/pyrusgeom/vector_2d.py:Vector2D.set_polar", "src/pyrusgeom/vector_2d.py:Vector2D.set_dir", "src/pyrusgeom/vector_2d.py:Vector2D.rotate", "src/pyrusgeom/vector_2d.py:Vector2D.set_length", "src/pyrusgeom/segment_2d.py:Segment2D.assign", "src/pyrusgeom/triangle_2d.py:Triangle2D.assign", "src/pyrusgeom/size_2d.py:Size2D.assign", "src/pyrusgeom/rect_2d.py:Rect2D.assign", "src/pyrusgeom/rect_2d.py:Rect2D.set_size", "src/pyrusgeom/circle_2d.py:Circle2D.assign", "src/pyrusgeom/sector_2d.py:Sector2D.assign"]}
{"id": "C194", "title": "A convex hull after a compute that raised", "statement": "When compute raises by the wrapping or direct method, the points are those given, in order, the reported vertices are among them, and any later compute behaves as if the failed one had not happened. When the Graham scan raises, the points are at best rearranged; from the moment the list of points has become the list of vertices, the object reports its points as vertices without edges, some points may have been dropped, and a second compute, whatever the method, returns normally with no vertices and with all points gone: three or more copies of one point do this. Through any sequence of calls, some raising and caught, no point ever appears that was not given, every vertex reported is a point given, every edge reported is the segment between two points given; and without the Graham scan and clear, the points are exactly those given, in order.", "quantifier": "all points, all histories of calls any of which may raise, any sort that rearranges its list even when its comparison raises, any number system", "why_tests_cant": "Exceptions inside a computation depend on the data, and their damage shows only in a later call.", "anchors": ["src/pyrusgeom/convex_hull.py:ConvexHull.compute", "src/pyrusgeom/convex_hull.py:ConvexHull.compute_wrapping_method", "src/pyrusgeom/convex_hull.py:ConvexHull.compute_direct_method", "src/pyrusgeom/convex_hull.py:ConvexHull.compute_graham_scan", "src/pyrusgeom/convex_hull.py:ConvexHull.clear_results", "src/pyrusgeom/convex_hull.py:ConvexHull.add_points"]}
{"id": "C195", "title": "Whole-number coordinates of any size are handled exactly", "statement": "Coordinates given as Python ints stay ints, so a whole family of predicates is exact however large the numbers, far beyond the range of floats: twice the signed area and ccw, the inner and outer product, the squared length and ==; whether a proper triangle contains a point; whether two segments, or a segment and the line through two different points, share a point, and whether two segments cross at an inner point of both; whether a point is on a segment that is not a single point; contains of a segment accepts exactly the points of its bounding rectangle. And the gift-wrapping convex hull of three or more different integer points, no three on a line, never raises and returns the hull: strictly convex, its corners among the points, every other point strictly inside, with the edges joining the corners in order. The same points given as floats get a wrong ccw from coordinates of about 2^27 on.", "quantifier": "all integers of any size, all lists of integer points of any length, all math libraries", "why_tests_cant": "The integers are unbounded, and the float version of the same call is wrong only at rare inputs.", "anchors": ["src/pyrusgeom/vector_2d.py:Vector2D.__init__", "src/pyrusgeom/vector_2d.py:Vector2D.inner_product", "src/pyrusgeom/vector_2d.py:Vector2D.outer_product", "src/pyrusgeom/vector_2d.py:Vector2D.r2", "src/pyrusgeom/vector_2d.py:Vector2D.__eq__", "src/pyrusgeom/triangle_2d.py:Triangle2D.double_signed_area", "src/pyrusgeom/triangle_2d.py:Triangle2D.tri_ccw", "src/pyrusgeom/triangle_2d.py:Triangle2D.contains", "src/pyrusgeom/segment_2d.py:Segment2D.exist_intersection", "src/pyrusgeom/segment_2d.py:Segment2D.exist_intersection_except_endpoint", "src/pyrusgeom/segment_2d.py:Segment2D.on_segment", "src/pyrusgeom/segment_2d.py:Segment2D.contains", "src/pyrusgeom/convex_hull.py:ConvexHull.compute_wrapping_method"]}
{"id": "C196", "title": "Angles and lengths from whole numbers of any size", "statement": "AngleDeg(n) for an int n lies within [-180, 180]. Up to |n| = 2^53 it is exactly the direction of n; beyond it is the direction of the float nearest to n, so 2^53 + 1 is a whole degree off; from 2^1024 - 2^970 on the call raises OverflowError. Turning by whole degrees never drifts: after any sequence of += and -= with ints up to 2^52 the degree is exactly the sum modulo 360. set_degree with an int that is too large raises OverflowError but keeps the int, and reading degree, radian or abs then raises again until the angle is set to a usable number. The length r() of an integer vector is within relative 2^-52 of the true length whatever the size of the coordinates, until the squared length has no float, when OverflowError is raised.", "quantifier": "all integers of any size, all sequences of turns, all math libraries", "why_tests_cant": "Errors appear only beyond 2^53, the overflow only beyond 2^1024, and drift only after long sequences.", "anchors": ["src/pyrusgeom/angle_deg.py:AngleDeg.__init__", "src/pyrusgeom/angle_deg.py:AngleDeg.set_degree", "src/pyrusgeom/angle_deg.py:AngleDeg.normal", "src/pyrusgeom/angle_deg.py:AngleDeg.degree", "src/pyrusgeom/angle_deg.py:AngleDeg.__iadd__", "src/pyrusgeom/angle_deg.py:AngleDeg.__isub__", "src/pyrusgeom/vector_2d.py:Vector2D.r", "src/pyrusgeom/vector_2d.py:Vector2D.r2"]}
{"id": "C197", "title": "Ints and floats of the same value", "statement": "For whole coordinates and factors up to 2^25 in magnitude it makes no difference whether they are given as ints or as floats: sums, differences and multiples of vectors, inner and outer product, r2, r, twice the signed area, ccw and == give the same numbers and answers. It does make a difference for the direction: an int has no negative zero, so th() of Vector2D(1, 0) * -1 is 180, while th() of Vector2D(1.0, 0.0) * -1 is -180, and these two angles are not == (on a C library whose atan2 treats signed zeros as the C standard says).", "quantifier": "all integers up to 2^25 in magnitude, all math libraries", "why_tests_cant": "Equality of two kinds of number must hold for every pair of inputs; the exception is a zero with a sign.", "anchors": ["src/pyrusgeom/vector_2d.py:Vector2D.__add__", "src/pyrusgeom/vector_2d.py:Vector2D.__sub__", "src/pyrusgeom/vector_2d.py:Vector2D.__mul__", "src/pyrusgeom/vector_2d.py:Vector2D.inner_product", "src/pyrusgeom/vector_2d.py:Vector2D.outer_product", "src/pyrusgeom/vector_2d.py:Vector2D.r2", "src/pyrusgeom/vector_2d.py:Vector2D.r", "src/pyrusgeom/vector_2d.py:Vector2D.th", "src/pyrusgeom/vector_2d.py:Vector2D.__eq__", "src/pyrusgeom/triangle_2d.py:Triangle2D.double_signed_area_st", "src/pyrusgeom/triangle_2d.py:Triangle2D.tri_ccw", "src/pyrusgeom/angle_deg.py:AngleDeg.atan2_deg"]}
{"id": "C198", "title": "NaN and infinite coordinates", "statement": "A point with a NaN coordinate is in nothing: it equals no vector under ==, equals or equals_weakly, not even itself, and no rectangle, triangle, segment, sector, polygon or (unless the call raises OverflowError) circle contains it. A rectangle, triangle, segment, sector or circle with a NaN among its coordinates and sizes contains no point. A NaN angle is on no side of any angle and is_within no range, but a NaN right end of a range makes is_within a test of the left end alone, true on a half circle. The bounding box of a polygon ignores NaN coordinates: it begins at the least coordinate that is not NaN and its size is the difference from the greatest (+inf and -inf stand in when all are NaN). A polygon of two or more vertices with one coordinate at minus infinity contains no point at all. dist of a polygon to a NaN point is +inf, with one vertex NaN; no error is signalled. A convex hull by gift wrapping raises IndexError when the first of three or more points has a NaN x coordinate, and ignores points with a NaN x coordinate that come after three or more others; the direct method joins a NaN point to every other point. With finite vertices all this is the behaviour stated elsewhere.", "quantifier": "all doubles, all lists of vertices, all math libraries (circle and dist: whose pow maps NaN to NaN)", "why_tests_cant": "NaN makes every comparison false, so each branch must be followed for NaN in each position; the lists of vertices have any length.", "anchors": ["src/pyrusgeom/polygon_2d.py:Polygon2D.get_bounding_box", "src/pyrusgeom/polygon_2d.py:Polygon2D.contains", "src/pyrusgeom/polygon_2d.py:Polygon2D.dist", "src/pyrusgeom/rect_2d.py:Rect2D.contains", "src/pyrusgeom/triangle_2d.py:Triangle2D.contains", "src/pyrusgeom/segment_2d.py:Segment2D.contains", "src/pyrusgeom/segment_2d.py:Segment2D.on_segment", "src/pyrusgeom/segment_2d.py:Segment2D.on_segment_weakly", "src/pyrusgeom/sector_2d.py:Sector2D.contains", "src/pyrusgeom/circle_2d.py:Circle2D.contains", "src/pyrusgeom/vector_2d.py:Vector2D.__eq__", "src/pyrusgeom/angle_deg.py:AngleDeg.is_within", "src/pyrusgeom/convex_hull.py:ConvexHull.compute"]}
{"id": "C199", "title": "Changing the unit of length by a power of two", "statement": "In doubles, multiplying all coordinates by one power of two changes nothing but the unit, with no rounding difference at all: sums, differences, lengths, inner and outer products, triangle and polygon areas, bounding boxes, distances between points, segments and polygons (if the C library's pow(x,2) is x*x rounded once), distances to a line and the nearest point of a segment come out multiplied by the power (squared for products and areas), and the tests without a tolerance give the same answer: ==, counter-clockwise, point in triangle, rectangle, polygon or (same condition on pow) circle, on_segment, and whether two segments meet, with or without their end points. Where two lines meet, and the foot of a perpendicular, are the same point as long as neither call finds the lines parallel. Tests with a tolerance do depend on the unit: equals_weakly is refuted.", "quantifier": "all powers of two, all points whose coordinates in both units are at most 2^180 in magnitude and multiples of 2^-180, polygons of any length (area and orientation: up to 2^52 vertices), any math library", "why_tests_cant": "Rounding happens in every operation; that the errors themselves scale exactly, with no overflow or underflow, needs an argument about all doubles.", "anchors": ["src/pyrusgeom/vector_2d.py:Vector2D.add", "src/pyrusgeom/vector_2d.py:Vector2D.r", "src/pyrusgeom/vector_2d.py:Vector2D.inner_product", "src/pyrusgeom/vector_2d.py:Vector2D.outer_product", "src/pyrusgeom/vector_2d.py:Vector2D.equals_weakly", "src/pyrusgeom/triangle_2d.py:Triangle2D.contains", "src/pyrusgeom/triangle_2d.py:Triangle2D.area", "src/pyrusgeom/segment_2d.py:Segment2D.exist_intersection", "src/pyrusgeom/segment_2d.py:Segment2D.on_segment", "src/pyrusgeom/segment_2d.py:Segment2D.nearest_point", "src/pyrusgeom/segment_2d.py:Segment2D.dist", "src/pyrusgeom/line_2d.py:Line2D.dist", "src/pyrusgeom/line_2d.py:Line2D.projection", "src/pyrusgeom/polygon_2d.py:Polygon2D.dist", "src/pyrusgeom/rect_2d.py:Rect2D.contains", "src/pyrusgeom/polygon_2d.py:Polygon2D.contains", "src/pyrusgeom/polygon_2d.py:Polygon2D.area", "src/pyrusgeom/polygon_2d.py:Polygon2D.get_bounding_box"]}
{"id": "C200", "title": "Mirroring the plane", "statement": "In doubles, for all inputs including infinities and NaN, changing the sign of all x coordinates, of all y coordinates or of both (changing sides) changes results only as it should, with no rounding difference (up to the sign of zeros): sums, differences, multiples, quotients, set_length, intersections of lines and of segments, feet of perpendiculars, projections and nearest points of segments are the mirror images, found or not found in both cases, and the same exception is raised if any; lengths, inner products, areas, distances (through pow if pow(-x,2) = pow(x,2)), distances to the outline of a polygon and the size of its bounding box are the same; outer products, signed areas and the orientation of a polygon change sign exactly if one axis is flipped; ==, equals_weakly, is_parallel, point in triangle or circle, on_segment, contains of a segment and whether segments meet give the same answer. The orthocentre, the circumcentre and the circle through three points (no two of them weakly equal) are mirrored too, and the same points are in that circle. The points where a circle is cut by a line or by another circle are mirrored, perhaps listed in the other order (where only one of two weakly equal points is kept, it may be the other one). Refuted for contains of a polygon: of two mirror-image edge points of a square, with edge points allowed, one is reported inside and the other not.", "quantifier": "all doubles, all four combinations of signs, polygons of any length, any math library (pow even where it is used)", "why_tests_cant": "Every operation rounds, and each branch depends on rounded values; that no branch and no bit depends on the side needs a proof over all doubles, with infinities, NaN and signed zeros.", "anchors": ["src/pyrusgeom/vector_2d.py:Vector2D.set_length", "src/pyrusgeom/vector_2d.py:Vector2D.equals_weakly", "src/pyrusgeom/triangle_2d.py:Triangle2D.contains", "src/pyrusgeom/triangle_2d.py:Triangle2D.area", "src/pyrusgeom/segment_2d.py:Segment2D.intersection", "src/pyrusgeom/segment_2d.py:Segment2D.projection", "src/pyrusgeom/segment_2d.py:Segment2D.nearest_point", "src/pyrusgeom/segment_2d.py:Segment2D.dist", "src/pyrusgeom/line_2d.py:Line2D.intersection", "src/pyrusgeom/line_2d.py:Line2D.projection", "src/pyrusgeom/line_2d.py:Line2D.dist", "src/pyrusgeom/line_2d.py:Line2D.is_parallel", "src/pyrusgeom/circle_2d.py:Circle2D.contains", "src/pyrusgeom/polygon_2d.py:Polygon2D.area", "src/pyrusgeom/polygon_2d.py:Polygon2D.is_counter_clockwise", "src/pyrusgeom/polygon_2d.py:Polygon2D.dist", "src/pyrusgeom/polygon_2d.py:Polygon2D.contains"]}
{"id": "C201", "title": "Swapping the axes", "statement": "In doubles, for all inputs including infinities and NaN, exchanging x and y in all the points (with mirroring, C200: turning the plane by quarter turns) changes results only as it should, with no rounding difference (up to the sign of zeros): quotients of vectors, set_length, intersections of lines and of segments, feet of perpendiculars, projections and nearest points of segments have their x and y exchanged, found or not found in both cases, with the same exception if any; lengths, inner products, the area of a triangle or polygon and the distance from a line are the same; outer products and signed areas change sign, and a counter-clockwise polygon becomes clockwise; ==, equals_weakly, is_parallel, point in triangle, contains of a segment and exist_intersection_except_endpoint give the same answer; distances of points and from segments and point in circle give the same answer or raise in both cases (pow(-x,2) = pow(x,2)). The orthocentre has its x and y exchanged and the same points are in the circle through three points. Refuted for on_segment and exist_intersection, which compare only x once the area has rounded to zero: where products underflow a point off the segment is reported on it, and not on it after the exchange.", "quantifier": "all doubles, polygons of any length, any math library (pow even where it is used)", "why_tests_cant": "The code treats x and y in different orders and each operation rounds; that no branch and no bit depends on the order needs a proof over all doubles, with infinities, NaN and signed zeros.", "anchors": ["src/pyrusgeom/vector_2d.py:Vector2D.set_length", "src/pyrusgeom/vector_2d.py:Vector2D.equals_weakly", "src/pyrusgeom/vector_2d.py:Vector2D.dist", "src/pyrusgeom/triangle_2d.py:Triangle2D.contains", "src/pyrusgeom/triangle_2d.py:Triangle2D.area", "src/pyrusgeom/segment_2d.py:Segment2D.intersection", "src/pyrusgeom/segment_2d.py:Segment2D.projection", "src/pyrusgeom/segment_2d.py:Segment2D.nearest_point", "src/pyrusgeom/segment_2d.py:Segment2D.dist", "src/pyrusgeom/segment_2d.py:Segment2D.on_segment", "src/pyrusgeom/line_2d.py:Line2D.intersection", "src/pyrusgeom/line_2d.py:Line2D.projection", "src/pyrusgeom/line_2d.py:Line2D.dist", "src/pyrusgeom/line_2d.py:Line2D.is_parallel", "src/pyrusgeom/circle_2d.py:Circle2D.contains", "src/pyrusgeom/polygon_2d.py:Polygon2D.area", "src/pyrusgeom/polygon_2d.py:Polygon2D.is_counter_clockwise"]}
{"id": "C202", "title": "Mirroring directions", "statement": "In doubles, for every angle and number including infinities and NaN, opposite degrees behave as mirror images with no rounding difference (up to the sign of zero): AngleDeg(-d) is the opposite of AngleDeg(d) for d of any size; degree, sums, differences, products, quotients and negation of opposite angles are opposite, abs is the same, and the same exception is raised if any; is_right_of of the opposites answers exactly what is_left_of does, == answers the same, and for stored degrees in [-180, 180] or NaN is_right_equal_of answers what is_left_equal_of does and is_within(-right, -left) what is_within(left, right) does. If the math library's sine is odd and its cosine even, sine and cosine of opposite angles are opposite and equal, from_polar gives the mirrored point, and rotating the mirrored vector the other way gives the mirrored result. If atan2(-y, x) = -atan2(y, x) for nonzero y, th of a mirrored vector off the axis is the opposite angle, and a mirrored sector, starting where the other ends, contains the mirrored points of the other (points level with its centre apart). Refuted for reverse at 0 degrees: it gives -180 in both cases.", "quantifier": "all doubles, any math library (sine odd and cosine even where they are used)", "why_tests_cant": "Normalisation chains fmod, two conditional additions and comparisons, each rounded; that both signs take corresponding branches with the same bits, also at 180 and 360 and for huge values, needs a proof over all doubles.", "anchors": ["src/pyrusgeom/angle_deg.py:AngleDeg.normal", "src/pyrusgeom/angle_deg.py:AngleDeg.__add__", "src/pyrusgeom/angle_deg.py:AngleDeg.__sub__", "src/pyrusgeom/angle_deg.py:AngleDeg.__mul__", "src/pyrusgeom/angle_deg.py:AngleDeg.abs", "src/pyrusgeom/angle_deg.py:AngleDeg.is_left_of", "src/pyrusgeom/angle_deg.py:AngleDeg.is_right_of", "src/pyrusgeom/angle_deg.py:AngleDeg.is_left_equal_of", "src/pyrusgeom/angle_deg.py:AngleDeg.is_right_equal_of", "src/pyrusgeom/angle_deg.py:AngleDeg.is_within", "src/pyrusgeom/angle_deg.py:AngleDeg.reverse", "src/pyrusgeom/vector_2d.py:Vector2D.rotate", "src/pyrusgeom/vector_2d.py:Vector2D.from_polar", "vector_2d.py:Vector2D.th", "sector_2d.py:Sector2D.contains"]}
{"id": "C203", "title": "Motion in a mirror", "statement": "In doubles, for every position, velocity, decay and number of cycles including infinities and NaN: mirroring position and velocity in either axis (or both), or exchanging the axes of both, gives the mirrored (exchanged) inertia travel and inertia point after n cycles and at rest, with no rounding difference up to the sign of zero, and the same exception if any. dir_rate and kick_rate of a direction and its opposite are the same. effective_turn of the opposite moment is the opposite turn. quantize of the opposite value is the opposite, unquantize_min of the opposite value is the opposite of unquantize_max and the other way round, when the quotient value / step is at most 2^53 - 1 in size or not finite. If the math library's sine is odd and its cosine even, the line through the point mirrored in the x axis with the opposite direction is the mirrored line: a and c change sign, b stays.", "quantifier": "all doubles, any number of cycles, any math library (sine odd and cosine even for the line)", "why_tests_cant": "A team that plays on the other side uses the mirrored formulas; that every rounding and every exception agrees needs a proof over all doubles.", "anchors": ["src/pyrusgeom/soccer_math.py:inertia_n_step_travel", "src/pyrusgeom/soccer_math.py:inertia_n_step_point", "src/pyrusgeom/soccer_math.py:inertia_final_travel", "src/pyrusgeom/soccer_math.py:inertia_final_point", "src/pyrusgeom/soccer_math.py:dir_rate", "src/pyrusgeom/soccer_math.py:kick_rate", "src/pyrusgeom/soccer_math.py:effective_turn", "src/pyrusgeom/soccer_math.py:quantize", "src/pyrusgeom/soccer_math.py:unquantize_min", "src/pyrusgeom/soccer_math.py:unquantize_max", "src/pyrusgeom/line_2d.py:Line2D"]}
