# Formal model of PyrusGeom in Rocq/Coq

## 1. What is modelled

The package `/repo/src/pyrusgeom` is a pure-Python 2D geometry library.  The
model (directory `rocq/theories`) is a *shallow, computable, function by
function transcription* of the Python source.  Each definition of the model
carries a comment citing the file and lines it models, or saying that it is a
modelling device with no counterpart.

| source | model |
|---|---|
| angle_deg.py | M_Angle.v |
| vector_2d.py | M_Vector.v |
| line_2d.py | M_Line.v |
| segment_2d.py | M_Segment.v |
| ray_2d.py | M_Ray.v |
| triangle_2d.py | M_Triangle.v, M_Triangle2.v (intersection) |
| circle_2d.py | M_Circle.v |
| size_2d.py, sector_2d.py | M_Sector.v |
| rect_2d.py | M_Rect.v |
| polygon_2d.py | M_Polygon.v, M_PolyF.v (get_bounding_box, contains, dist with the infinities the loops start from, on all doubles) |
| convex_hull.py | M_Hull.v |
| matrix_2d.py | M_Matrix.v |
| soccer_math.py, math_values.py | M_Soccer.v, Base.v |
| region_2d.py; __repr__, to_str, __hash__ of all classes | M_Text.v |
| object identity of all classes | M_Heap.v (matrices), M_Obj.v (everything else), M_Obj2.v (convex hull), M_Obj3.v (polygon clipping) |
| what a call that raises leaves behind | M_Fail.v (statement by statement) |

* **Numbers.**  The code is written once, generically, over a record of number
  operations (`Class Num`, file `Base.v`) - addition, comparison, division,
  `math.sqrt`, `math.fmod`, `%`, trigonometry... and instantiated three times:
  * `NumR.v`: ideal real arithmetic (Coq's `R`).  Literals are exact; `math.pi`
    is the real pi.  Theorems named `..._R` are stated here: they are claims
    about the algorithm, with its EPSILON thresholds and branches, not about
    rounding.
  * `NumF.v`: IEEE-754 binary64 (Flocq `BinarySingleNaN`), round to nearest
    even, Python semantics of exceptions (`x/0.0` raises `ZeroDivisionError`,
    `math.sqrt(-1)` raises `ValueError`, ...).  The libm functions (sin, cos,
    atan2, pow, ...) are an arbitrary record `libm`: theorems named `..._F`
    quantify over all of them.  Error bounds that need the C library to be
    accurate say so in a hypothesis, each met by a concrete library shown beside
    the theorem: `trig_accurate` (sin, cos within 2^-52 on [-16, 16]),
    `atan2_accurate` (within 2^-51 of the direction), `pow_accurate` (`x ** 2`
    within relative 2^-52), `pow_square` (and not negative), `pow_even`
    (`(-x) ** 2` is `x ** 2`), `pow_unit` (`x ** n` within 2^-52 on [0, 1]).
  * `NumP.v`: Python's numbers, an `int` of any size or a binary64 float, with
    Python's mixed arithmetic and exact mixed comparisons.  Used for C195-C197
    and said explicitly there.  Literals with a whole value are ints here, so
    theorems are about functions that only compare with them.
  * Theorems with neither suffix are generic: they hold for every instance.
* **Exceptions** are values: `res A := Ok a | Raise e`.
* **Loops** that can run forever in Python (`while` in the Graham scan) carry a
  fuel argument and a separate error value when it runs out; every theorem about
  them shows that value is not reached or speaks about successful runs only.
* **Objects.**  In the value-level files objects are records and a mutating
  method returns the new record.  Where identity is observable the objects are
  modelled with references: `M_Heap.v` (Matrix2D, whose `*` overwrites its left
  operand) and `M_Obj.v` (Vector2D, AngleDeg, Size2D, Segment2D, Rect2D,
  Triangle2D, Circle2D, Ray2D, Sector2D, Polygon2D, ConvexHull and Python
  lists), with programs of arbitrary length over variables that may alias.
* `*args/**kwargs` constructors are modelled over a universal value type
  (`val`), so the dispatch (including fall-through cases) is part of the model.
* `list.sort` with a comparison function is a parameter (any permutation, or any
  sorted permutation, as each theorem states), and CPython's algorithm for short
  lists (`py_sort_small`) where a concrete run is needed.

## 2. What is not modelled

Of the 402 functions and methods of the package, 402 have a
counterpart in the model (cited there by file and lines).
CPython's `str()`, `round(x, 3)` and `hash()` of numbers are parameters of
`M_Text.v`; the theorems state the facts about them they use.

Also outside the model: type hints, the distinction between Python `int` and
`float` outside C195-C197 (numbers are one type per instance; ints behave
as the equal doubles as long as they and the exact results of + - * on them stay
within 2^53, except for the sign of zero, C197; C195 and C196 say what happens
beyond), the
concrete results of libm (arbitrary functions in the binary64 instance, ideal
ones in the real instance), memory exhaustion, recursion limits, threads,
attributes added or private fields written from outside the package.

## 3. Where the contract is false

For contracts the code violates we prove the negation (`*_refuted`, concrete
witness) and the exact behaviour for all inputs.  Specifications are in
`Spec.v` and `Spec2.v`, which do not mention the model, and in `Spec3.v`, which
says what a program does when shapes are plain values (it uses the value-level
functions, not the heap); `Abs.v` maps model values to specification values.

## 4. Per-property plan

| id | property | what is modelled and how it is proved | files |
|---|---|---|---|
| C01 | Angles are normalised into [-180, 180] | AngleDeg.normalize in R and binary64; exact value of fmod (Flocq), Sterbenz for the +-360 step; also through degree() of every constructor | P_Angle.v, P_AngleF.v, P_AngleF3.v |
| C02 | Normalisation never changes the direction | same lemma, with the integer multiple of 360 exposed; every constructor form | P_Angle.v, P_AngleF.v |
| C03 | No history of operations takes an angle out of range | fold over a list of operations; invariant 'in range' preserved by each step, in R and binary64 | P_Angle.v, P_AngleF.v |
| C04 | Angle arithmetic is arithmetic modulo 360 | congruence relation modulo 360 in R; each operator is shown congruent to the operation on reals | P_Angle.v |
| C05 | reverse() turns an angle by 180 degrees | case split on the sign of the degree | P_Angle.v |
| C06 | Left/right tests are a consistent circular order | left/right tests as sign of the normalised difference; linear arithmetic on the branches; -180/180 pair explicit | P_Angle.v |
| C07 | is_within is clockwise-interval membership | clockwise turn from start to end defined independently with floor; is_within = turn test; witness for the degenerate interval | P_Angle.v |
| C08 | bisect halves the interval but on the side opposite to is_within | congruence modulo 360; comparison with the is_within interval; witness | P_Angle.v, P_AngleF3.v |
| C09 | Inverse trigonometric helpers are total, clamped and in range | atan2 from stdlib atan; clamping proved branch by branch | P_Vector.v |
| C10 | Angle equality is a tolerance relation, not direction equality | exact characterisation of the tolerance test, plus witnesses against reflexivity across the cut and transitivity | P_Angle.v |
| C11 | Trigonometric values depend only on the direction | periodicity of sin and cos | P_Angle.v |
| C12 | Polar round trip | polar/cartesian round trips through sqrt and atan2 in R; the tiny-vector branch separately | P_Vector.v |
| C13 | rotate is a rotation | rotation matrix algebra; composition by angle addition | P_Vector.v |
| C14 | set_length sets the length and keeps the direction | scaling by r over the length; nonzero premise; zero vector branch separately | P_Vector.v |
| C15 | dist is a metric | metric axioms; triangle inequality from stdlib Rgeom-style algebra | P_Vector.v |
| C16 | Inner and outer product laws | ring identities plus Lagrange identity; polar forms by trigonometric identities | P_Vector.v |
| C17 | The validity flag is only carried by set_vector | generic over the number class: flag tracked through every operation | P_Vector.v |
| C18 | Vector algebra | ring, componentwise | P_Vector.v |
| C19 | A line through two points is the line through two points | solution set of the computed coefficients equals the affine line through the points; degenerate pair separately | P_Line.v |
| C20 | A line from point and direction | solution set = points p + t(cos, sin) | P_Line.v |
| C21 | Line distance is the minimum distance | minimum over all points of the line, by completing the square | P_Line.v |
| C22 | Line intersection is sound, unique and thresholded | Cramer's rule above the threshold; None below; witness that small coefficients lose the crossing | P_Line.v |
| C23 | Projection is the nearest point of the line | foot of the perpendicular, minimality as in C21 | P_Line.v |
| C24 | Perpendicular bisector is the equidistant locus | equidistance is a linear equation | P_Line.v |
| C25 | get_x/get_y solve the line equation | solve for one coordinate; error branch explicit | P_Line.v |
| C26 | Line equality is not equality of point sets | exact characterisation of __eq__; witness | P_Line.v |
| C27 | Segment intersection test is exact | classical orientation argument; specification: two parameters in [0,1] give the same point | P_Segment.v |
| C28 | Segment intersection test is symmetric | generic lemma on any number class whose operations commute where needed; instantiated at R and binary64 | P_Segment.v, P_SegmentF.v |
| C29 | Segment/line intersection test is exact | sign of the line's value at both ends | P_Segment.v |
| C30 | Proper-crossing test is exact | strict orientation argument | P_Segment.v |
| C31 | nearest_point is the nearest point | projection parameter clamped to [0,1]; minimality | P_Segment.v |
| C32 | Segment-point distance is the minimum distance | C31 and the triangle-area distance | P_Segment.v |
| C33 | Segment-segment distance is the minimum distance | four end-point distances or zero when crossing; minimality by convexity | P_Segment.v |
| C34 | farthest_dist is the maximum distance | convexity: the maximum is at an end | P_Segment.v |
| C35 | on_segment is exact except on degenerate segments | orientation zero plus bounding box; degenerate witness | P_Segment.v |
| C36 | contains accepts the bounding rectangle up to tolerance | interval arithmetic of the box with the tolerance | P_Segment.v |
| C37 | Segment intersection points are genuine | C22 filtered by the box tests; every returned point is on both | P_Segment.v |
| C38 | Segment projection is the perpendicular foot | foot of the perpendicular; weak variant with the tolerance | P_Segment.v |
| C39 | Swapping a segment is an involution that keeps its geometry | involution; set of points unchanged; direction reversed | P_Ctor.v, P_Segment.v |
| C40 | Ray/line intersection is sound and directional | ray points as p + t d with t >= 0; direction test by angle difference | P_Ray.v |
| C41 | Ray/ray intersection | both rays' parameters; symmetry | P_Ray.v |
| C42 | Signed area laws | ring identities for the determinant | P_Triangle.v |
| C43 | Triangle containment is exact for proper triangles | sign pattern of three orientations = barycentric coordinates; degenerate witness | P_Triangle.v |
| C44 | Circumcenter is equidistant from the vertices | solve the two bisector equations (field) | P_Triangle.v |
| C45 | Orthocenter lies on all three altitudes | dot products zero (field) | P_Triangle.v |
| C46 | Incenter is equidistant from the three side lines | weighted vertices; distance to the three lines; separate specification lemma | P_Triangle.v |
| C47 | centroid() always raises and is_valid() is always False | the computed value in both instances; raising for every input | P_Ctor.v, P_Triangle.v |
| C48 | Triangle/line intersection fails on the common case | trace of the counter and the two-element list; raising on every crossing line | P_Triangle.v |
| C49 | Circle basics | distance comparisons; constructor clamps the radius, in R and binary64 | P_Circle.v |
| C50 | quadratic_f solves quadratics | discriminant case split; both roots and completeness | P_Circle.v |
| C51 | Circle/line intersection | substitution of the line into the circle equation; thresholds explicit; witness | P_Circle.v |
| C52 | Circle/segment and circle/ray intersection filter the line solutions | generic filtering lemma; ray direction test | P_Circle.v |
| C53 | Circle/circle intersection | radical line plus C51; witness for equal centres | P_Circle.v |
| C54 | Circumcircle | C44 and the distance | P_Circle.v |
| C55 | Sizes and rectangles never become inverted | invariant over histories of constructors and setters, in R and binary64 | P_Rect.v |
| C56 | Rectangle containment, corners and center agree | interval arithmetic; corners on the boundary | P_Rect.v |
| C57 | move_* translate the rectangle | translation of all points | P_Rect.v |
| C58 | set_left/right/top/bottom keep the opposite side | each side setter, opposite side fixed | P_Rect.v |
| C59 | set_top_left / set_bottom_right corrupt the length | exact behaviour plus witness | P_Rect.v |
| C60 | Rect2D(top_left, bottom_right) always has zero size | exact behaviour: zero size for every pair of corners; witness | P_Rect.v |
| C61 | intersected is the set intersection when the rectangles overlap | interval intersection on the overlapping branch; witness otherwise | P_Rect.v |
| C62 | united does not contain the operands | exact behaviour of united with witness | P_Rect.v |
| C63 | Rectangle/line intersection | case analysis over the four sides; soundness, completeness up to the stated thresholds | P_Rect.v |
| C64 | from_center | arithmetic on the center | P_Ctor.v, P_Rect.v |
| C65 | Sector containment | C07 with the radius test; witness for the full turn | P_Sector.v |
| C66 | Sector radii are not the given ones | exact values of the clamped radii | P_Ctor.v, P_Sector.v |
| C67 | Bounding box is the tight bounding box | induction on the vertices: componentwise minimum and maximum attained | P_Polygon.v |
| C68 | Polygon area laws | induction on the edge list; rotation, reversal, translation laws of the shoelace sum | P_Polygon.v |
| C69 | Point-in-polygon is crossing parity | induction on the edge list; specification counts half-open crossings | P_Polygon2.v |
| C70 | Boundary points are not reliably contained | membership of vertices proved, of edge points refuted; exact characterisation | P_Polygon2.v |
| C71 | Point-in-polygon agrees with geometry for convex polygons | parity is 1 inside and 0 outside a convex polygon: two-crossing argument | P_Polygon3.v |
| C72 | Polygon distance | minimum over edges of C32 | P_Polygon.v |
| C73 | Clipping by a half plane and by a rectangle | induction on the clip loop; half plane; stop condition refuted | P_Polygon4.v |
| C74 | Hull vertices are input points | invariant of the gift-wrapping loop: only input indices are appended | P_Hull.v |
| C75 | Wrapping method computes the convex hull | angular-minimum invariant of each scan, strict convexity, termination within the loop bound; collinear witness | P_Hull.v, P_Hull2.v |
| C76 | Graham scan aliases and destroys the input | aliasing flag in the hull record; permutation invariant of the swaps; histories | P_Hull2.v, P_Hull4.v |
| C77 | Graham scan is not a convex hull | computation in binary64 for every libm; raising trace for three equal points | P_Hull2.v |
| C78 | list2set keeps exactly one copy of each value in first-occurrence order | induction on the list | P_Hull2.v |
| C79 | Matrix multiplication is composition | ring | P_Matrix.v |
| C80 | inverted is the inverse | field; invertibility test explicit | P_Matrix.v |
| C81 | translate/scale/rotate pre-multiply | ring plus rotation matrices | P_Matrix.v |
| C82 | Determinant is multiplicative | ring | P_Matrix.v |
| C83 | A*B overwrites A | explicit heap model of Matrix2D objects | P_Matrix.v |
| C84 | Matrix equality is wrong | exact characterisation of __eq__; witnesses in R and binary64 | P_Matrix.v |
| C85 | Inertia travel is the sum of the decayed steps | induction on the number of steps | P_Soccer.v |
| C86 | Final travel is the limit | epsilon-N limit from stdlib pow lemmas | P_Soccer.v |
| C87 | final_speed is the fixed point of dash-and-decay | fixed-point equation | P_Soccer.v |
| C88 | dir_rate interpolates | linear interpolation between table entries | P_Soccer.v |
| C89 | kick_rate decreases with angle and distance | monotonicity of each factor; division by zero margin | P_Soccer.v |
| C90 | Geometric series inverses | logarithm inverse of the geometric sum; raising conditions | P_Soccer2.v |
| C91 | bound and min_max clamp | case split; binary64 with NaN and signed zero cases stated | P_Float.v, P_Soccer2.v |
| C92 | f_range is an arithmetic progression | fuelled generator plus step relation; exact list by induction, in R and binary64 below the stop | P_Float.v, P_Soccer2.v |
| C93 | r_int rounds to nearest, ties away from zero | floor/ceil characterisation; binary64 through exact halving | P_Float.v, P_Soccer2.v |
| C94 | quantize is an idempotent nearest-multiple map | nearest multiple from C93 | P_Soccer2.v |
| C95 | unquantize_min/max bracket the preimages | preimage interval of C94 | P_Soccer2.v |
| C96 | wind_effect is always zero | every branch returns the zero vector | P_Soccer2.v |
| C97 | Orientation and intersection are exact on integer-valued doubles | Flocq: all intermediate integers below 2^53 are exact; witness above | P_Float.v |
| C98 | Rounding breaks containment in the bounding box | vm_compute on binary64 witness | P_Float.v |
| C99 | Wrapping leaves one side out of edges() | edge list characterised from the loop; missing side identified | P_Hull3.v |
| C102 | The direct method finds the hull's sides | soundness and completeness of the pair test under general position; any order of the sort | P_Hull3.v, P_Hull4.v |
| C103 | unquantize_error bounds the uncertainty of a seen distance | logarithmic quantisation; interval arithmetic | P_Soccer2.v |
| C104 | effective_turn never amplifies | monotone division | P_Soccer2.v |
| C105 | Shapes behave as values in copying programs | object heap (M_Obj.v); programs as lists of calls; specification = the same calls on plain values (Spec3.v); ownership invariant, induction on the program | P_Obj2.v, P_Obj5.v |
| C106 | A mutator changes only its receiver | same invariant, frame part | P_Obj2.v |
| C107 | Rect2D keeps the Size2D it is given, and underscore getters expose the parts | object heap, symbolic execution of the calls | P_Obj3.v |
| C108 | nearest_point may return an end of the segment itself | object heap; case split on the projection parameter | P_Obj3.v, P_Obj5.v |
| C109 | Polygon2D and ConvexHull share the caller's points | object heap with Python lists | P_Obj3.v |
| C110 | intersected and united on shared objects | object heap; self-aliased receiver and argument | P_Obj3.v |
| C100 | angle_bisector is the bisector of the corner | C08 and C20; equal distance to both lines | P_Misc.v |
| C101 | Ray equality | normalisation is congruence modulo 360 | P_Misc.v |
| C111 | The angular comparison is an order only within a half plane | polynomial identity for transitivity within a half plane; witness outside | P_Misc.v |
| C112 | Point in polygon is exact on grids of doubles | binary64 grid lemma: all intermediate values exact, so the float run equals the real run of C69-C71 | P_Grid2.v |
| C113 | Triangle predicates are exact on grids of doubles | grid lemma and C42-C43 | P_Grid2.v |
| C114 | Gift wrapping is exact on grids of doubles | the area tests on a grid give the answers of the real run; then C75 | P_HullF.v |
| C115 | Polygon area and orientation are exact on small grids of doubles | grid lemma with induction on the edge list | P_GridArea.v |
| C116 | Orientation tests on arbitrary doubles are right outside a proved margin | absolute rounding error 2^(2k-49) of the area by Flocq error bounds; sign is right outside the margin | P_Robust.v |
| C117 | Histories of in-place calls on a vector | fold over calls; specification on pairs of numbers | P_Elem.v |
| C118 | Histories of a rectangle, by its sides | fold over calls; specification on the four sides | P_Elem.v |
| C119 | Copies and constructor dispatch | dispatch over the value type | P_Elem.v |
| C120 | Equality of segments and sizes | exact characterisation of __eq__ | P_Elem.v |
| C121 | Programs over matrix variables are programs over plane transformations | heap of matrices and variables; simulation by a heap of plane maps | P_MatProg.v |
| C122 | A computed hull shares the caller's points | object heap; index-level gift wrapping related to the value-level one | P_Obj4.v |
| C123 | Gift wrapping on arbitrary doubles, with a margin | C116's error bound gives the area tests of C114 without a grid; then C75 | P_HullRobust.v |
| C124 | The Graham scan is right for inputs hanging from the origin | comparison around the origin is a strict total order in the lower half plane; sort correctness of the short-list sort; stack invariant of the scan (edges, angular order, extreme top) preserved by pop, swap and push | P_Graham.v |
| C125 | Comparison operators of AngleSortPredicate | six operators modelled; case analysis on the comparison result | P_Graham.v |
| C126 | Vector operations that return a new vector | length of a scaled vector | P_Ctor.v |
| C127 | Which line Line2D(...) builds | case analysis over argument lists; keyword lookup in a duplicate-free list | P_Ctor.v |
| C128 | Where a ray meets a triangle | the line case (C48) composed with the direction test on the carrier of the ray (C40) | P_Ctor.v |
| C129 | The text of an object determines its numbers | printing modelled as string functions over an abstract str(); unambiguous decoding of each text | P_Text.v |
| C130 | What to_str leaves | same printer model; to_str as a function to (string left, value returned) | P_Text.v |
| C131 | Hashing and sets of vectors | hashes as parameters; sets as lists of stored hash and object, over a heap of vectors | P_Text.v |
| C132 | Accuracy of a history of turns in doubles | one rounding per step, added up by induction on the history | P_AngleF2.v |
| C133 | Left/right tests in doubles | ties analysis of one rounded subtraction at the thresholds 0, 180 and -180 | P_AngleF2.v |
| C134 | Symmetries that survive rounding | commutativity and sign lemmas for the IEEE operations, lifted to the vector functions | P_VecF.v |
| C135 | Accuracy of the length of a vector | standard model of rounding with an underflow term through one sum of squares and a square root | P_VecF.v |
| C136 | Accuracy of distances | as C135 with a stated accuracy of pow(x,2) | P_VecF.v |
| C137 | Circle membership in doubles | as C136, comparing two rounded squares | P_VecF.v |
| C138 | A rectangle of doubles contains its corners and centre | monotonicity of rounding; doubling is exact | P_RectF.v |
| C139 | Moving a rectangle of doubles | absolute error calculus of C116 over two or four roundings | P_RectF.v |
| C140 | The Graham scan in doubles | the run in doubles is shown equal, step by step, to the run of C124 over the reals: margins decide areas, coinciding points have area and distance exactly 0, and a sorted permutation of a strict total order is unique | P_GrahamF.v |
| C141 | The direct hull method in doubles | the scan of every pair in doubles returns the flag of the scan over the reals (C102) and a last value of the same sign; products of areas can neither underflow nor overflow; edges and vertices are then those of C102 | P_DirectF.v |
| C142 | Sine, cosine, polar construction and rotation in doubles | the constant DEG2RAD against pi (Machin), Lipschitz bounds of sin and cos, then the close calculus; the sequence by induction with the triangle inequality | P_TrigF.v |
| C143 | Direction of a vector and the polar round trip in doubles | the constant RAD2DEG against 180/pi, C135 for the length, C142 for the way back | P_TrigF.v |
| C144 | Lines through points in doubles | the close calculus on coefficients, determinant and numerators, and a lemma on the quotient of two perturbed numbers | P_LineF.v |
| C145 | Nearest point and distance of segments in doubles | a rounded comparison that takes the other branch does so within a strip around the end, where both branches are close to the nearest point | P_SegF.v |
| C146 | Matrices in doubles | the close calculus on a x + b y + c with perturbed coefficients; the inverse through the quotient lemma of C144; integers by exactness below 2^53 | P_MatF.v |
| C147 | Motion formulas in doubles | the close calculus of C116 and the quotient lemma of C144 applied to the closed forms of C86-C89 | P_SoccerF.v |
| C148 | Turn and kick laws survive rounding | monotonicity of rounding, composed through the formula | P_SoccerF.v |
| C149 | Segment membership and crossing points in doubles | the product test bounded from both sides by relative rounding errors; the crossing point from C144, the end-point test from C116 | P_SegF2.v |
| C150 | Quantization in doubles | division and multiplication by the step bounded by relative rounding errors; the integer picked is characterised by C93 and is unique | P_QuantF.v |
| C151 | Quadratic roots in doubles | forward error of the discriminant, then of its root by sqrt(x)-sqrt(y) = (x-y)/(sqrt x+sqrt y) | P_QuadF.v |
| C152 | Circle and line intersection in doubles | errors of the coefficients (quotients, squares) carried through C151 and C153; exact two-point characterisation of the real circle and line beside it | P_CircF2.v |
| C153 | Solving a line for a coordinate in doubles | product, sum and quotient bounded by absolute errors | P_CircF.v |
| C154 | Setting a vector's length in doubles | relative errors of the length (C135), the quotient and the two products | P_LenF.v |
| C155 | Point in polygon on arbitrary doubles | relative error of each area: without cancellation its sign is exact, with cancellation the margin covers it; the loop then equals the ideal loop with the rounded half line, which C69 settles | P_PolyF.v |
| C156 | Bisector of two directions in doubles | rounding error of the difference, of its half and of the two additions; the side test decides as C133 | P_BisF.v |
| C157 | Point in sector in doubles | the rounded side tests read as turns; a small cross product bounds the direction of the rounded difference; squares of the radii against the rounded squared distance | P_SectorF.v |
| C158 | Distances from outlines and between segments in doubles | invariant of the running minimum with C145's bound for each side; C155 decides the plane case, C116 the crossing | P_DistF.v |
| C159 | Bisectors, circumcenter and circumscribed circle in doubles | C144's intersection bound makes the first branch valid; the closed formula is bounded through its inverse determinant; the inside test through the linear difference of squared distances | P_CircumF.v |
| C160 | Which arguments build vectors, angles, rays and rectangles | case analysis over argument lists; keyword lookups by membership | P_Ctor2.v |
| C161 | Setting one side of a rectangle in doubles | rounding bound for near side plus rounded length | P_RectF2.v |
| C162 | Intersecting two rectangles in doubles | rounding bound for near side plus rounded length; order facts on minimum and maximum | P_RectF2.v |
| C163 | Vector arithmetic in doubles | relative rounding error lemmas; concrete counterexamples for the laws | P_VecF2.v |
| C164 | Tolerance tests in doubles | relative error of one subtraction; absolute error of a 2x2 determinant | P_EpsF.v |
| C165 | Projection onto a segment in doubles | relative error of the normalised direction, then error propagation through the inner product | P_ProjF.v |
| C166 | Rays in doubles | 1-Lipschitz angle between directions; error propagation through Cramer's rule with separate scales for direction and position | P_RayF.v |
| C167 | Lengths, arcs and areas in doubles | error propagation; the rounded difference of the two directions stays on the same turn by monotonicity of rounding | P_MeasF.v |
| C168 | Angle bisectors and the incenter in doubles | the computed bisector is a half of a sum of directions up to 7*2^-45 degrees; both lines are close to exact ones through the incenter, and the intersection's error is propagated | P_IncF.v |
| C169 | Setting and building from directions in doubles | error propagation from accurate sin and cos of the stored degree | P_DirF.v |
| C170 | Scaling, negating and copying angles in doubles | normalisation of a finite double is exact modulo 360, so each operation rounds once | P_AngleF4.v |
| C171 | Lines and segments cutting rectangles in doubles | per-side error bound from C144; three cuts of one line cannot lie strictly inside three sides; the segment filter decides each cut by C149 | P_CutF.v |
| C172 | Lines meeting segments and triangles in doubles | per-side error bound from C144 and the membership decision of C149, then the counter logic by cases | P_TriF.v |
| C173 | Tangent and inverse trigonometry in doubles | doubles next to 1 keep the arc at least 2^-27 from the ends, then error propagation through the conversion to degrees | P_InvF.v |
| C174 | Where segments, rays and circles cut a circle, in doubles | Perturbation of the exact line by the rounding of its coefficients, on top of C152's analysis of the quadratic; then the filters of C149 and C166. | P_CircF3.v |
| C175 | Which calls can raise in floating point | P_SafeF.v: a 'returns' predicate pushed through bind; divisors are non-zero because of the epsilon guards, radicands are sums of sign-free squares, angles stay NaN or within [-180,180]. | P_NaN.v, P_SafeF.v |
| C176 | Setting a corner, uniting and two-corner construction of rectangles in doubles | P_RectF3.v: min/max are exact, a + |a| is representable, the other far sides by the span lemma of C161. | P_RectF3.v |
| C177 | When the Graham scan raises | P_GrahamSafe.v: an invariant on the index (at least -n) and the presence of a pair on which is_clockwise is true. | P_GrahamSafe.v |
| C178 | Points on a segment, equal segments and perpendicular lines in doubles | P_SegF3.v: two products with a common factor and cofactors of one sign cannot cancel; the error bound of C116 otherwise. | P_SegF3.v |
| C179 | Rays against rectangles and triangles in doubles | P_CutRayF.v: lclose2_angle for the ray's line, inter2 for the cuts, rect_any_core and tri_any_core for the lists, ahead1 for the direction test. | P_CutRayF.v |
| C180 | Clipping polygons in doubles | P_ClipF.v: lclose2_angle for the line, inter2_any for one crossing (refused or accurate), induction over the edge list; the touching case by kernel evaluation. | P_ClipF.v |
| C181 | f_range in doubles | P_RangeF.v: one turn of the loop (next_F, plus_F), induction on the number of doubles between start and stop (multiples of 2^-1074), then on the number of steps for the error bound. | P_RangeF.v, P_RangeF2.v |
| C182 | Which soccer_math calls raise in doubles | P_SafeSoccer.v: a sum of doubles is zero only when exactly zero (round_plus_neq_0), case analysis on the special values for the quotients, bounds on log and exp for the seen distances. P_PowF.v: integer powers of either sign. | P_PowF.v, P_SafeSoccer.v |
| C183 | Seen distances in doubles | P_SeenF.v: error bounds through each stage of quantize_dist; the step counts recovered by unquantize_error are compared with those of quantize_dist, so its interval contains every distance seen as the number. | P_SeenF.v |
| C184 | Geometric series in doubles | P_SeriesF.v: rounding errors through each operation; the logarithm of ratio^length against that of the intermediate, then the exponential. | P_SeriesF.v |
| C185 | wind_effect in doubles | P_SeriesF.v: case analysis on the special values. | P_SeriesF.v |
| C186 | Squared line distances and box centers in doubles | P_RestF.v: rounding errors through each operation, against the least distance as defined in Spec.v. | P_RestF.v |
| C187 | Equality of directions and the speed-limit test in doubles | P_RestF.v: differences of doubles have a relative error of 2^-53, and the turn by which two directions differ is the reduced rounded difference. | P_RestF.v |
| C188 | Following a moving object cycle by cycle in doubles | P_TrackF.v: induction over the cycles with an invariant on both errors, one axis at a time. | P_TrackF.v |
| C189 | Histories of turns and shifts in doubles | P_MoveF.v: rigid motions preserve distances, so errors add up; the columns of the matrix move as vectors do, the first two by the turns alone. | P_MoveF.v |
| C190 | A hull and the caller's list, over any history | M_Obj2.v, P_Obj6.v: simulation between the object-level methods and the value-level model of M_Hull.v; the object-level sorts and scans run on pairs (object, value). | P_Obj6.v |
| C191 | A clipped polygon shares the vertices that stay | M_Obj3.v, P_Obj7.v: simulation between the clipping loop on objects and the value-level loop, with the origin of each vertex in the invariant. | P_Obj7.v |
| C192 | An angle after calls that raised | M_Fail.v gives the methods that write to self statement by statement in a monad that keeps the state when an exception is raised; P_Fail.v proves it agrees with the value-level model, then the outcome of each call by cases and the histories by induction. | P_Fail.v |
| C193 | Vectors and shapes after calls that raised | M_Fail.v, P_Fail2.v: the statement-by-statement bodies run on every argument list by case analysis. | P_Fail2.v |
| C194 | A convex hull after a compute that raised | M_Fail.v, P_Fail3.v: the three methods statement by statement, related to the value-level methods by induction on their loops; P_Fail4.v: an invariant of every statement, raising or not. | P_Fail3.v, P_Fail4.v |
| C195 | Whole-number coordinates of any size are handled exactly | NumP.v models Python's int and float together; the functions are the same Gallina definitions at that instance. P_Int.v shows each integer comparison agrees with the comparison of the real values, so the answers are those of the exact-arithmetic theorems; the hull by a simulation between the two runs of the wrapping loop, induction on its steps. | P_Int.v |
| C196 | Angles and lengths from whole numbers of any size | P_Int2.v: the int is either left alone or converted by math.fmod; fmod and the two folding steps are exact (Sterbenz), the conversion is exact up to 2^53 and correctly rounded beyond; sequences by induction with the invariant that the degree is a whole number. | P_Int2.v |
| C197 | Ints and floats of the same value | P_Int3.v: a relation between an int and the float of the same value is kept by + - * as long as the exact result is within 2^53, where the float operation is exact; the direction by computing the two products and atan2 at signed zeros. | P_Int3.v |
| C198 | NaN and infinite coordinates | M_PolyF.v, P_NaN.v, P_NaNHull.v: NaN is absorbing for + - * and false in comparisons; the order of the other doubles is that of the reals, which gives the extremes by induction on the vertices; for hulls: a NaN area never replaces a candidate, and each round takes a new point until the first is met. | P_NaN.v, P_NaNHull.v |
| C199 | Changing the unit of length by a power of two | P_UnitF.v, P_UnitF2.v: round(2^j x) = 2^j round(x) above the subnormal range; a relation between numbers in the two units (window of magnitudes and a common grid) kept by + - * / sqrt and respected by comparisons, carried through each function. | P_UnitF.v, P_UnitF2.v |
| C200 | Mirroring the plane | P_MirrorF.v, P_MirrorF2.v: a relation mir b between a double and its mirror image (equal up to sign b, any zero for any zero), kept by + - * / abs sqrt and respected by comparisons, carried through each function. | P_MirrorF.v, P_MirrorF2.v |
| C201 | Swapping the axes | P_SwapF.v: the relation mir of C200 with commutativity of + and * and antisymmetry of -; the line through exchanged points has all its coefficients negated. | P_SwapF.v |
| C202 | Mirroring directions | P_TurnF.v: fmod and the two folding steps are odd (exact real values), carried through each method with the relation mir of C200. | P_TurnF.v |
| C203 | Motion in a mirror | P_MirrorF3.v: the relations of C200, C201 and C202 carried through each formula. | P_MirrorF3.v |

## 5. Trusted base

* Coq 8.16.1's kernel, including its `vm_compute` reduction machine.
* The axioms below, all from Coq's standard library (they come with the real
  numbers and with classical logic used by Flocq); no axiom is added here, no
  kernel check is switched off, nothing is admitted.
  * `ClassicalDedekindReals.sig_forall_dec`, `ClassicalDedekindReals.sig_not_dec`
  * `FunctionalExtensionality.functional_extensionality_dep`
  * `Classical_Prop.classic`

  `coqchk -o` also lists fields of library modules sealed by a signature
  (`Rdefinitions.RbaseSymbolsImpl.*`, `Rdefinitions.RinvImpl.*`,
  `ssrunder.Under_rel.*`); these are definitions of the standard library, not
  axioms, and `Print Assumptions` does not list them.
* Flocq's definitions of binary64 (`BinarySingleNaN`) as the meaning of IEEE 754,
  and CPython's floats being binary64 with correctly rounded `+ - * /`, `sqrt`
  and exact `fmod`.
* The faithfulness of the transcription of the Python source (section 1) and
  of the statements to the English properties.

`Print Assumptions` for every theorem listed in `MANIFEST.json`:

* **All four axioms** (476 theorems): `C01_C02_normalise_R`, `C01_C02_normalise_F`, `C01_readings_R`, `C01_readings_F`, `C02_ctor_forms_R`, `C02_normalize_angle_R`, `C02_normalize_angle_F`, `C03_history_R`, `C03_history_F`, `C04_arith_R`, `C04_scale_R`, `C05_reverse_R`, `C06_left_of_R`, `C06_left_equal_of_R`, `C06_right_and_trichotomy_R`, `C06_number_argument_R`, `C07_is_within_R`, `C08_bisect_R`, `C08_opposite_R`, `C08_equal_R`, `C09_acos_R`, `C09_asin_R`, `C09_atan_R`, `C09_atan2_R`, `C10_eq_R`, `C10_eq_refuted`, `C11_trig_R`, `C12_polar_of_cartesian_R`, `C12_tiny_R`, `C12_cartesian_of_polar_R`, `C12_polar_forms_R`, `C13_rotate_R`, `C13_compose_R`, `C14_set_length_R`, `C14_set_dir_R`, `C15_metric_R`, `C16_products_R`, `C16_polar_products_R`, `C17_eq_ignores_flag_R`, `C18_algebra_R`, `C19_line_through_points_R`, `C19_degenerate_R`, `C20_line_from_angle_R`, `C21_dist_R`, `C21_dist_degenerate_R`, `C22_intersection_R`, `C22_small_coefficients_refuted`, `C23_projection_R`, `C24_perpendicular_bisector_R`, `C25_get_xy_R`, `C26_eq_R`, `C26_eq_refuted`, `C27_exist_intersection_R`, `C28_symmetric_R`, `C28_symmetric_F`, `C29_exist_intersection_line_R`, `C30_except_endpoint_R`, `C31_nearest_point_R`, `C32_dist_point_R`, `C32_dist_other_R`, `C33_dist_seg_R`, `C34_farthest_dist_R`, `C35_on_segment_R`, `C35_degenerate_refuted`, `C36_contains_R`, `C37_intersection_line_R`, `C37_intersection_seg_R`, `C38_projection_R`, `C38_on_segment_weakly_R`, `C39_swap_R`, `C39_direction_R`, `C39_ctor_R`, `C40_in_right_dir_R`, `C40_intersection_line_R`, `C40_ray_through_points_R`, `C41_intersection_ray_R`, `C41_symmetric_R`, `C42_signed_area_R`, `C43_contains_R`, `C43_degenerate_refuted`, `C44_circumcenter_R`, `C45_orthocenter_R`, `C46_incenter_R`, `C47_is_valid_R`, `C47_is_valid_F`, `C47_is_valid_iff_F`, `C48_intersection_line_R`, `C48_common_case_raises_R`, `C49_basics_R`, `C49_radius_R`, `C49_radius_F`, `C50_quadratic_R`, `C51_intersection_line_R`, `C51_nearly_horizontal_refuted`, `C52_intersection_ray_R`, `C53_intersection_circle_R`, `C53_same_center_refuted`, `C54_circum_circle_R`, `C54_circum_circle_contains_R`, `C55_never_inverted_R`, `C55_never_inverted_F`, `C56_contains_R`, `C56_diagonal_R`, `C57_move_R`, `C58_set_side_R`, `C59_set_corner_R`, `C59_set_corner_refuted`, `C60_two_corners_R`, `C60_corners_not_contained_refuted`, `C61_intersected_R`, `C61_no_overlap_refuted`, `C62_united_R`, `C63_intersection_line_R`, `C63_meets_reported_R`, `C63_complete_R`, `C63_corner_refuted`, `C63_intersection_ray_R`, `C64_from_center_R`, `C65_contains_R`, `C65_full_turn_refuted`, `C66_radii_R`, `C66_eq_R`, `C67_bounding_box_R`, `C67_center_R`, `C68_area_R`, `C68_rotation_R`, `C68_reversal_R`, `C68_translation_R`, `C68_cut_R`, `C68_triangle_R`, `C69_parity_R`, `C69_start_orientation_R`, `C70_contains_R`, `C70_vertices_R`, `C70_edge_point_refuted`, `C70_boundary_excluded_R`, `C70_repeated_vertex_refuted`, `C71_convex_R`, `C71_triangle_R`, `C72_outline_dist_R`, `C73_only_inside_R`, `C73_halfplane_R`, `C73_stop_refuted`, `C73_rect_R`, `C73_bottom_refuted`, `C74_wrapping_R`, `C75_convex_hull_R`, `C75_collinear_refuted`, `C77_graham_misses_F`, `C77_graham_keeps_inner_F`, `C77_graham_raises_R`, `C78_list2set_R`, `C79_composition_R`, `C80_inverted_R`, `C81_premultiply_R`, `C82_det_R`, `C83_product_R`, `C83_reuse_refuted`, `C84_eq_R`, `C84_refuted_F`, `C84_false_equal_R`, `C85_inertia_R`, `C86_final_R`, `C87_final_speed_R`, `C88_dir_rate_R`, `C89_kick_rate_R`, `C89_margin_zero_raises_R`, `C90_first_term_R`, `C90_first_term_raises_R`, `C90_length_R`, `C90_length_guards_R`, `C91_clamp_R`, `C91_clamp_F`, `C92_f_range_R`, `C92_defaults_R`, `C92_stuck_F`, `C93_r_int_R`, `C93_ties_R`, `C93_r_int_F`, `C93_refuted_F`, `C93_large_F`, `C94_quantize_R`, `C95_unquantize_R`, `C96_wind_R`, `C97_area_F`, `C97_exist_intersection_F`, `C97_tiny_refuted_F`, `C97_rounding_refuted_F`, `C98_bounding_box_F`, `C99_wrapping_edges_R`, `C102_direct_R`, `C102_direct_any_R`, `C102_collinear_refuted`, `C103_dist_error_R`, `C103_same_seen_R`, `C103_domain_R`, `C104_effective_turn_R`, `C105_vector_operators_R`, `C108_nearest_point_shares_R`, `C108_projection_shares_R`, `C110_self_intersected_R`, `C110_self_united_R`, `C100_angle_bisector_R`, `C101_ray_eq_R`, `C101_ray_eq_refuted`, `C111_compare_R`, `C111_half_plane_order_R`, `C111_not_an_order_refuted`, `C112_parity_F`, `C112_convex_F`, `C112_vertices_F`, `C112_closed_F`, `C112_boundary_excluded_F`, `C113_contains_F`, `C113_area_F`, `C114_convex_hull_F`, `C115_area_F`, `C116_orientation_F`, `C116_exist_intersection_F`, `C116_triangle_contains_F`, `C116_polygon_area_F`, `C117_moves_R`, `C117_abs_R`, `C117_equals_R`, `C117_idiv_R`, `C118_rect_history_R`, `C119_copies_R`, `C120_segments_R`, `C120_sizes_R`, `C121_programs_R`, `C121_stops_R`, `C123_convex_hull_margin_F`, `C124_graham_R`, `C125_sort_keys_R`, `C125_irreflexive_refuted`, `C126_copies_R`, `C128_triangle_ray_R`, `C128_from_inside_refuted`, `C132_history_accuracy_F`, `C133_side_tests_F`, `C133_is_within_F`, `C133_agree_F`, `C133_trichotomy_refuted_F`, `C134_symmetry_F`, `C135_length_F`, `C135_range_refuted_F`, `C136_dist_F`, `C136_triangle_order_F`, `C137_circle_contains_F`, `C138_corners_F`, `C139_moves_F`, `C139_exact_refuted_F`, `C140_graham_margin_F`, `C141_direct_margin_F`, `C142_trig_F`, `C142_from_polar_F`, `C142_rotate_F`, `C142_rotations_F`, `C143_th_F`, `C143_polar_roundtrip_F`, `C144_intersection_F`, `C144_parallel_F`, `C144_projection_F`, `C144_orthocenter_F`, `C144_dist_F`, `C145_nearest_point_F`, `C145_dist_F`, `C146_transform_F`, `C146_product_F`, `C146_translate_F`, `C146_scale_F`, `C146_rotation_F`, `C146_inverse_F`, `C146_integers_F`, `C147_coast_F`, `C147_final_F`, `C147_final_speed_F`, `C147_effective_turn_F`, `C147_kick_rate_F`, `C147_dir_rate_F`, `C148_effective_turn_F`, `C148_kick_rate_F`, `C149_contains_F`, `C149_hit_F`, `C149_miss_F`, `C150_quantize_F`, `C150_monotone_F`, `C150_unquantize_F`, `C151_quadratic_F`, `C152_line_F`, `C152_level_F`, `C153_get_x_F`, `C153_get_y_F`, `C154_set_length_F`, `C154_normalize_F`, `C155_parity_F`, `C155_convex_F`, `C156_bisect_F`, `C156_bisect_numbers_F`, `C157_contains_F`, `C157_constructed_F`, `C158_outline_dist_F`, `C158_plane_dist_F`, `C158_seg_dist_F`, `C158_farthest_dist_F`, `C159_bisector_F`, `C159_circumcenter_F`, `C159_circum_circle_F`, `C159_collinear_F`, `C159_contains_F`, `C161_set_side_F`, `C162_intersected_F`, `C163_arith_F`, `C163_laws_refuted_F`, `C164_weak_equality_F`, `C164_determinant_tests_F`, `C165_projection_F`, `C166_in_right_dir_F`, `C166_intersection_line_F`, `C166_intersection_ray_F`, `C166_parallel_F`, `C167_sector_F`, `C167_area_F`, `C167_segment_F`, `C168_angle_bisector_F`, `C168_incenter_F`, `C169_set_polar_F`, `C169_set_dir_F`, `C169_rotated_vector_F`, `C169_segment_F`, `C169_ray_F`, `C169_matrix_rotate_F`, `C170_scale_F`, `C170_exact_F`, `C171_rect_line_F`, `C171_rect_segment_F`, `C172_segment_line_F`, `C172_triangle_line_F`, `C173_acos_F`, `C173_asin_F`, `C173_atan_F`, `C173_tan_F`, `C174_segment_F`, `C174_ray_F`, `C174_circle_F`, `C175_plain_F`, `C175_angle_init_F`, `C175_angles_F`, `C175_directions_F`, `C175_distances_F`, `C175_polygons_F`, `C175_circles_F`, `C175_hull_F`, `C175_line_dist_F`, `C175_line_dist_refuted`, `C175_dist_overflow_refuted`, `C176_set_corner_F`, `C176_united_F`, `C176_two_corners_F`, `C177_distinct_R`, `C177_distinct_F`, `C177_ends_R`, `C177_ends_F`, `C177_copies_raise_R`, `C177_copies_raise_F`, `C177_python_sort`, `C178_on_segment_grid_F`, `C178_on_segment_axis_F`, `C178_on_segment_any_F`, `C178_on_segment_refuted_F`, `C178_equality_F`, `C178_perpendicular_F`, `C179_rect_ray_F`, `C179_triangle_ray_F`, `C180_clip_F`, `C180_axis_F`, `C180_rect_whole_F`, `C180_touching_refuted_F`, `C181_never_F`, `C181_ends_or_sticks_F`, `C181_values_F`, `C181_exact_F`, `C181_tenths_refuted_F`, `C181_infinite_stop_F`, `C181_infinite_F`, `C181_counting_F`, `C182_divisions_F`, `C182_rounding_F`, `C182_coast_F`, `C182_powers_F`, `C182_series_F`, `C182_seen_F`, `C182_wind_F`, `C183_seen_F`, `C183_same_seen_F`, `C183_monotone_F`, `C184_first_term_F`, `C184_length_F`, `C184_guards_F`, `C185_wind_F`, `C186_dist2_F`, `C186_box_center_F`, `C186_from_center_F`, `C187_angle_eq_F`, `C187_ray_eq_F`, `C187_sector_eq_F`, `C187_speed_limit_F`, `C188_track_F`, `C188_coast_F`, `C189_vector_F`, `C189_matrix_F`, `C189_agree_F`, `C192_outcome_F`, `C192_damaged_F`, `C192_history_F`, `C192_history_R`, `C193_vector_R`, `C193_vector_F`, `C194_copies_lost_R`, `C195_orientation`, `C195_orientation_float_refuted`, `C195_products`, `C195_triangle`, `C195_segments`, `C195_on_segment`, `C195_hull`, `C196_angle`, `C196_angle_refuted`, `C196_no_drift`, `C196_left_behind`, `C196_length`, `C197_same`, `C197_direction_refuted`, `C198_nan_point_F`, `C198_nan_shape_F`, `C198_nan_angle_F`, `C198_bounding_box_F`, `C198_minus_infinity_F`, `C198_agrees_F`, `C198_nan_dist_F`, `C198_hull_first_F`, `C198_hull_last_F`, `C198_hull_direct_F`, `C199_measures_F`, `C199_tests_F`, `C199_polygon_F`, `C199_nearest_F`, `C199_distance_F`, `C199_lines_F`, `C199_distances_F`, `C199_tolerance_refuted_F`, `C200_measures_F`, `C200_tests_F`, `C200_points_F`, `C200_distances_F`, `C200_polygon_F`, `C200_centres_F`, `C200_circles_F`, `C200_contains_refuted_F`, `C201_measures_F`, `C201_tests_F`, `C201_points_F`, `C201_distances_F`, `C201_centres_F`, `C201_polygon_F`, `C201_on_segment_refuted_F`, `C202_angles_F`, `C202_sides_F`, `C202_rotate_F`, `C202_reverse_refuted_F`, `C202_sector_F`, `C203_coast_F`, `C203_coast_swap_F`, `C203_sides_F`, `C203_line_F`, `C203_quantize_F`
* **Closed under the global context**, no axiom at all (70 theorems): `C17_flag`, `C28_symmetric`, `C39_forms`, `C47_centroid_raises`, `C48_other_raises`, `C52_intersection_seg`, `C52_intersection_seg_raise`, `C56_contains_almost_raises`, `C63_intersection_seg`, `C63_intersection_other_raises`, `C64_from_center_forms`, `C67_empty_raises`, `C72_plane_dist`, `C73_empty`, `C76_graham_destroys`, `C76_graham_drops_points`, `C83_overwrites`, `C92_below_stop`, `C105_copying_programs`, `C106_only_receiver_changes`, `C107_size_object_shared`, `C107_two_rects_one_size`, `C107_underscore_accessors`, `C109_polygon_of_list_shares_vertices`, `C109_assign_shares`, `C109_add_vertex_shares`, `C109_vertices_shares`, `C109_hull_keeps_the_list`, `C109_assign_empty`, `C110_intersected_shared_size`, `C117_history`, `C119_polygon`, `C119_triangle`, `C122_hull_shares_points`, `C122_accessors`, `C124_python_sort`, `C125_sort_keys`, `C127_line_forms`, `C129_repr_identifies`, `C129_repr_angles`, `C129_words`, `C130_to_str`, `C130_words`, `C131_hash`, `C131_unhashable`, `C160_vector_forms`, `C160_angle_forms`, `C160_ray_forms`, `C160_rect_forms`, `C190_hull_history`, `C190_graham_takes_the_list`, `C190_add_own_points`, `C191_clip_shares`, `C191_inside_keeps_vertices`, `C192_agrees`, `C193_vector_agrees`, `C193_add_moves_x_refuted`, `C193_segment`, `C193_triangle`, `C193_size`, `C193_rect`, `C193_rect_set_size`, `C193_circle`, `C193_sector`, `C194_agrees`, `C194_wrapping_direct`, `C194_graham`, `C194_retry_empties`, `C194_history`, `C194_edges`
* **Only** `ClassicalDedekindReals.sig_forall_dec`, `ClassicalDedekindReals.sig_not_dec`, `FunctionalExtensionality.functional_extensionality_dep` (1): `C46_incenter_spec`

## 6. Checks against wrong programs

`seeded/LOG.jsonl` records edits of the model that mimic realistic bugs, the
theorems that stopped proving, and the theorems that were tightened because an
edit had gone unnoticed.
