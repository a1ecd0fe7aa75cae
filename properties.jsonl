{"id": "C01", "title": "Span search always terminates with the right span", "statement": "bsp.FindSpan(p,U,u) terminates for every knot array (sorted or not), and returns an index k with p<=k<=n such that either U[k] <= u < U[k+1], or u >= U[n+1] and k = n, or u <= U[p] and k = p.", "quantifier": "all degrees p>=0, all n>=p, all knot arrays, all parameters u (any totally ordered scalar type, so no rounding is involved)", "why_tests_cant": "A binary search loop with a do-while exit can loop forever on some input; tests only try a few vectors and cannot show termination for all.", "anchors": ["igakit/igalib.f90:FindSpan"]}
{"id": "C02", "title": "Knot multiplicity count is exact", "statement": "bsp.FindMult(p,U,u) returns the number of knots equal to u, provided distinct knots are at least machine epsilon apart and u occurs at most p+1 times.", "quantifier": "all p>=1, all nondecreasing knot vectors with knots equal or at least eps apart, all u in the domain", "why_tests_cant": "The count uses a window around the span and an absolute tolerance; correctness depends on the ordering of all knots.", "anchors": ["igakit/igalib.f90:FindMult", "igakit/igalib.f90:FindSpanMult"]}
{"id": "C03", "title": "Basis functions are the Cox-de Boor B-splines", "statement": "bsp.EvalBasisFuns(p,U,u) returns exactly the p+1 B-spline basis values N_{k-p,p}(u),...,N_{k,p}(u) of the textbook recursion with the 0/0=0 convention, and all other basis functions vanish at u; passing the span that contains u gives the same (also for FindMult and EvalBasisFunsDers).", "quantifier": "all p>=0, all n>=p, all nondecreasing knot vectors with nonempty first and last domain spans, all u in [U[p],U[n+1]]", "why_tests_cant": "An identity between a triangular in-place algorithm and a recursive definition for every degree; tests only compare sampled degrees.", "anchors": ["igakit/igalib.f90:BasisFuns", "igakit/igalib.f90:EvalBasisFuns"]}
{"id": "C04", "title": "Basis functions sum to one", "statement": "The values returned by EvalBasisFuns sum to 1.", "quantifier": "all degrees, knot vectors with a nonempty span at u, all u (also outside the span)", "why_tests_cant": "Universal algebraic identity over all degrees and knots.", "anchors": ["igakit/igalib.f90:BasisFuns"]}
{"id": "C05", "title": "Basis functions are nonnegative on the domain", "statement": "The values returned by EvalBasisFuns are all >= 0 for u in the domain.", "quantifier": "all degrees, all nondecreasing knot vectors, all u in [U[p],U[n+1]]", "why_tests_cant": "Sign condition over a continuum of inputs.", "anchors": ["igakit/igalib.f90:BasisFuns"]}
{"id": "C06", "title": "Evaluation is the tensor-product spline sum", "statement": "Evaluating a curve, surface or volume at a parameter returns the sum over the whole control net of products of Cox-de Boor basis values and homogeneous control values (right end of the domain included).", "quantifier": "dimension 1, 2 and 3, all degrees, all well-formed knot vectors, all control nets, all parameters in the domain", "why_tests_cant": "The code only visits (p+1)^dim control points at computed offsets; agreement with the full sum needs locality for every span.", "anchors": ["igakit/igalib.f90:Evaluate1", "igakit/igalib.f90:Evaluate2", "igakit/igalib.f90:Evaluate3", "igakit/nurbs.py:NURBS.__call__"]}
{"id": "C07", "title": "Evaluation reads only control points that exist", "statement": "For an object whose every axis has at least degree+1 control points, evaluation at any parameter of the domain depends only on control values and knots with in-range indices.", "quantifier": "all well-formed objects of dimension 1..3, all parameters", "why_tests_cant": "Out-of-range reads of Fortran arrays are undefined behaviour which tests do not observe.", "anchors": ["igakit/igalib.f90:CurvePoint", "igakit/igalib.f90:Evaluate1", "igakit/igalib.f90:BasisFuns", "igakit/igalib.f90:FindMult"]}
{"id": "C08", "title": "Curves stay in the bounding box of their control points", "statement": "Every Cartesian coordinate of an evaluated NURBS with positive weights lies between the minimum and the maximum of that coordinate over the control points.", "quantifier": "all dimensions 1..3, degrees, well-formed knots, control nets with positive weights, all parameters in the domain", "why_tests_cant": "Inequality over a continuum of parameters and control nets.", "anchors": ["igakit/nurbs.py:NURBS.__call__", "igakit/nurbs.py:NURBS.points"]}
{"id": "C09", "title": "Clamped objects interpolate their end points", "statement": "If the end knots are repeated p+1 times the curve starts at its first and ends at its last control point.", "quantifier": "all degrees, all clamped well-formed knot vectors, all control points", "why_tests_cant": "Needs the basis to be a unit vector at the ends for every degree.", "anchors": ["igakit/nurbs.py:NURBS.__call__", "igakit/igalib.f90:Evaluate1"]}
{"id": "C10", "title": "Transforming then evaluating equals evaluating then transforming", "statement": "nrb.transform(T)(u) equals T applied to nrb(u) for every affine T (translate, scale, rotate and compositions), also for rational objects and for objects carrying fields, and the fields are left unchanged.", "quantifier": "all well-formed objects with nonzero evaluated weight, all 4x4 matrices with last row (0,0,0,1), all parameters", "why_tests_cant": "Algebraic identity in all coefficients.", "anchors": ["igakit/nurbs.py:NURBS.transform", "igakit/transform.py:transform.__call__"]}
{"id": "C11", "title": "Knot insertion does not change the geometry", "statement": "nrb.insert(axis,u,times) evaluates to the same point as nrb at every parameter of the domain, when u is an interior parameter or an end at which the knot vector is clamped.", "quantifier": "all dimensions and axes, all degrees, all well-formed knot vectors (distinct knots at least eps apart), all u, all legal times, all control nets", "why_tests_cant": "The in-place triangular algorithm must be right for each span position, multiplicity and repetition count.", "anchors": ["igakit/nurbs.py:NURBS.insert", "igakit/igalib.f90:InsertKnot"]}
{"id": "C12", "title": "Knot insertion bookkeeping", "statement": "After insert(axis,u,times) the axis has exactly `times` more control points, the knot vector is the old one with `times` copies of u merged in order, the degree and the other axes are unchanged; illegal times raise.", "quantifier": "all objects, axes, values, times", "why_tests_cant": "Universal statement over list contents and sizes.", "anchors": ["igakit/nurbs.py:NURBS.insert", "igakit/igalib.f90:InsertKnot"]}
{"id": "C13", "title": "Knot refinement does not change the geometry", "statement": "nrb.refine(axis,values) evaluates to the same point as nrb at every parameter in the domain.", "quantifier": "all dimensions and axes, all degrees, all well-formed knots, all sorted or unsorted lists of values in the domain with legal multiplicities", "why_tests_cant": "The algorithm interleaves two moving indices over the whole array; no finite test covers all interleavings.", "anchors": ["igakit/nurbs.py:NURBS.refine", "igakit/igalib.f90:RefineKnotVector"]}
{"id": "C14", "title": "Knot refinement bookkeeping", "statement": "After refine(axis,values) the knot vector is the sorted merge of the old knots and the values, and the axis has len(values) more control points.", "quantifier": "all objects, axes, value lists", "why_tests_cant": "Universal statement over list contents and sizes.", "anchors": ["igakit/nurbs.py:NURBS.refine", "igakit/igalib.f90:RefineKnotVector"]}
{"id": "C15", "title": "Corner cutting evaluates the curve", "statement": "extract(axis,u) returns the object obtained by fixing that parameter: evaluating the result equals evaluating the original with the fixed parameter.", "quantifier": "all dimensions, axes, degrees, well-formed knots, all u in the domain (at the right end: for end multiplicity 1 or at least p)", "why_tests_cant": "Depends on multiplicity case splits for every degree.", "anchors": ["igakit/nurbs.py:NURBS.extract", "igakit/igalib.f90:CurvePntByCornerCut", "igakit/igalib.f90:Extract"]}
{"id": "C16", "title": "Boundary extraction at a partly unclamped right end", "statement": "boundary(axis,1) evaluates to the original restricted to the right end of that axis, for every continuity allowed by unclamp.", "quantifier": "all objects produced by unclamp with any legal continuity", "why_tests_cant": "Only end multiplicities strictly between 1 and p expose the index choice at the right end; tests use clamped or fully unclamped vectors.", "anchors": ["igakit/nurbs.py:NURBS.boundary", "igakit/igalib.f90:CurvePntByCornerCut"]}
{"id": "C17", "title": "Clamping does not change the geometry", "statement": "nrb.clamp(axis,side) evaluates to the same point as nrb on the whole domain, the requested ends of the knot vector become p+1-fold, the other knots are unchanged, and clamping twice equals clamping once.", "quantifier": "all degrees, all well-formed knot vectors (distinct knots at least eps apart), either or both sides, all control nets", "why_tests_cant": "Index arithmetic of a partial triangular scheme for each end multiplicity.", "anchors": ["igakit/nurbs.py:NURBS.clamp", "igakit/igalib.f90:ClampKnot"]}
{"id": "C18", "title": "Unclamping does not change the geometry", "statement": "nrb.unclamp(axis,continuity,side) evaluates to the same point as nrb on the whole domain, for every legal continuity, and the end knots become the periodic continuation.", "quantifier": "all degrees, all continuities 0..p-1, all well-formed knot vectors, all control nets", "why_tests_cant": "In-place recurrences which read entries updated earlier in the same loop; correctness for each degree and continuity.", "anchors": ["igakit/nurbs.py:NURBS.unclamp", "igakit/igalib.f90:UnclampKnot"]}
{"id": "C19", "title": "Degree elevation does not change the geometry", "statement": "nrb.elevate(axis,times) evaluates to the same point as nrb at every parameter of the domain for clamped knot vectors.", "quantifier": "all degrees, all elevation counts, all clamped well-formed knot vectors with interior multiplicity at most p, all control nets", "why_tests_cant": "The algorithm mixes Bezier extraction, elevation and knot removal with several moving indices.", "anchors": ["igakit/nurbs.py:NURBS.elevate", "igakit/igalib.f90:DegreeElevate"]}
{"id": "C20", "title": "Degree elevation bookkeeping", "statement": "After elevate(axis,times) the degree is increased by times, every distinct knot has its multiplicity increased by times, and the number of control points grows by times per nonempty span.", "quantifier": "all clamped well-formed knot vectors, all times", "why_tests_cant": "Universal statement over list contents.", "anchors": ["igakit/nurbs.py:NURBS.elevate", "igakit/igalib.f90:DegreeElevate", "igakit/igalib.pyf:CountSpans"]}
{"id": "C21", "title": "Degree elevation of unclamped objects", "statement": "nrb.elevate preserves the geometry and stays inside its arrays also for objects whose knot vector is not clamped (the API does not ask for clamping).", "quantifier": "all well-formed knot vectors, clamped or not", "why_tests_cant": "Tests only elevate clamped objects.", "anchors": ["igakit/nurbs.py:NURBS.elevate", "igakit/igalib.f90:DegreeElevate"]}
{"id": "C22", "title": "Knot removal undoes knot insertion", "statement": "Removing with any nonnegative tolerance a knot that was just inserted succeeds and gives back the original knots and control points.", "quantifier": "all degrees, all well-formed knot vectors, all interior values and legal insertion counts, all control nets, all tolerances >= 0", "why_tests_cant": "The removal algorithm solves from both sides; exact recovery must hold for all degrees and multiplicities.", "anchors": ["igakit/nurbs.py:NURBS.remove", "igakit/igalib.f90:RemoveKnot"]}
{"id": "C23", "title": "Knot removal bookkeeping", "statement": "bsp.RemoveKnot removes at most the requested number of knots, exactly as many control points as knots, keeps the other knots in order, and with zero removals leaves everything unchanged.", "quantifier": "all inputs", "why_tests_cant": "Universal statement over a loop with early exit.", "anchors": ["igakit/igalib.f90:RemoveKnot", "igakit/nurbs.py:NURBS.remove"]}
{"id": "C24", "title": "Removal tolerance is meaningful for objects with fields", "statement": "insert followed by remove with the default tolerance restores the original object, also when the object carries fields.", "quantifier": "all objects with positive weights and arbitrary fields", "why_tests_cant": "The tolerance is scaled by a column chosen by position; only field values of special sign expose it.", "anchors": ["igakit/nurbs.py:NURBS.remove"]}
{"id": "C25", "title": "Slicing restricts the geometry", "statement": "nrb.slice(axis,a,b) evaluates to the same point as nrb for every parameter in [a,b] and its domain along the axis is exactly [a,b].", "quantifier": "all objects, all a<b in the domain", "why_tests_cant": "Index arithmetic over all knot positions.", "anchors": ["igakit/nurbs.py:NURBS.slice"]}
{"id": "C26", "title": "Reversal mirrors the parameter and is an involution", "statement": "nrb.reverse(axis)(u) = nrb(a+b-u), where [a,b] is the domain, for every u in the domain, and reversing twice restores the object.", "quantifier": "all objects with interior knot multiplicity at most p", "why_tests_cant": "Uses continuity at knots, for every degree.", "anchors": ["igakit/nurbs.py:NURBS.reverse"]}
{"id": "C27", "title": "Remapping is an affine change of parameter", "statement": "nrb.remap(axis,c,d)(c+(u-a)(d-c)/(b-a)) = nrb(u) for every u in the domain [a,b].", "quantifier": "all objects, all c<d", "why_tests_cant": "Affine invariance of the basis for every degree and knot vector.", "anchors": ["igakit/nurbs.py:NURBS.remap"]}
{"id": "C28", "title": "Transposing permutes parameters", "statement": "nrb.transpose(axes) and nrb.swap(i,j) evaluate to the original with permuted parameters; swapping twice restores the object.", "quantifier": "all objects of dimension 1..3, all permutations / axis pairs, all parameters", "why_tests_cant": "Universal over arrays.", "anchors": ["igakit/nurbs.py:NURBS.transpose", "igakit/nurbs.py:NURBS.swap"]}
{"id": "C29", "title": "Copies are independent, clones share", "statement": "Writing into the arrays of nrb.copy() never changes nrb; nrb.clone() shares them; and every mutating method called on a clone or on the original leaves the other object's observable value unchanged.", "quantifier": "all heaps, all objects, all sequences of method calls", "why_tests_cant": "Aliasing statements quantify over all later writes.", "anchors": ["igakit/nurbs.py:NURBS.copy", "igakit/nurbs.py:NURBS.clone", "igakit/nurbs.py:NURBS.insert", "igakit/nurbs.py:NURBS.refine", "igakit/nurbs.py:NURBS.transform"]}
{"id": "C30", "title": "Methods do not modify their arguments", "statement": "No method of NURBS modifies an array passed by the caller (knot values, parameters, control points).", "quantifier": "all methods, all argument arrays", "why_tests_cant": "In-place operations on views are invisible unless the caller inspects its own array.", "anchors": ["igakit/nurbs.py:NURBS.refine"]}
{"id": "C31", "title": "The constructor establishes the class invariant", "statement": "NURBS(knots,control,fields,weights) either raises or returns an object with 1 to 3 axes, one knot vector per axis, degree at least one on each axis and knots = control points + degree + 1.", "quantifier": "all argument shapes", "why_tests_cant": "Case analysis over all shapes.", "anchors": ["igakit/nurbs.py:NURBS.__init__"]}
{"id": "C32", "title": "Every constructed object can be evaluated safely", "statement": "Every object accepted by the constructor has at least degree+1 control points on each axis, so that evaluation stays within bounds.", "quantifier": "all accepted arguments", "why_tests_cant": "Boundary combination of sizes nobody tests.", "anchors": ["igakit/nurbs.py:NURBS.__init__", "igakit/nurbs.py:NURBS.__call__"]}
{"id": "C33", "title": "Points, weights and fields read back what was given", "statement": "Building from Cartesian points, weights and fields and reading back points, weights and fields returns the given values.", "quantifier": "all shapes, all nonzero weights, all values", "why_tests_cant": "Universal over arrays.", "anchors": ["igakit/nurbs.py:NURBS.__init__", "igakit/nurbs.py:NURBS.points", "igakit/nurbs.py:NURBS.weights", "igakit/nurbs.py:NURBS.fields"]}
{"id": "C34", "title": "Default control net is the identity map", "statement": "NURBS(knots) without control points evaluates to its own parameters: x(u,v,w)=(u,v,w).", "quantifier": "all degrees, all clamped well-formed knot vectors, dimension 1..3, all parameters", "why_tests_cant": "Linear precision for every degree.", "anchors": ["igakit/nurbs.py:NURBS.__init__", "igakit/igalib.f90:Greville"]}
{"id": "C35", "title": "Greville abscissae are ordered and inside the domain", "statement": "nrb.greville(axis) is the list of knot averages, nondecreasing and, for clamped knots, contained in the domain with the domain ends as first and last values; iga.Greville(p,U) returns the same averages.", "quantifier": "all degrees and clamped knot vectors", "why_tests_cant": "Universal.", "anchors": ["igakit/nurbs.py:NURBS.greville", "igakit/igalib.f90:Greville"]}
{"id": "C36", "title": "Derivatives of basis functions are true derivatives", "statement": "The k-th row of bsp.EvalBasisFunsDers is the k-th derivative of the basis functions (of the polynomial piece of the span), and is zero for k>p.", "quantifier": "all degrees p, all orders k, all knot vectors with nonempty span, all u", "why_tests_cant": "Analytic statement for every degree and order.", "anchors": ["igakit/igalib.f90:DersBasisFuns", "igakit/igalib.f90:EvalBasisFunsDers"]}
{"id": "C37", "title": "Derivative arithmetic does not overflow", "statement": "The integer factor p!/(p-k)! used for the k-th derivative is representable in the 32-bit integer the code stores it in, for every legal call of EvalBasisFunsDers.", "quantifier": "all p and all orders d<=p", "why_tests_cant": "Only large degrees show the overflow.", "anchors": ["igakit/igalib.f90:DersBasisFuns", "igakit/igalib.pyf:EvalBasisFunsDers"]}
{"id": "C38", "title": "Rational derivatives satisfy the Leibniz rule up to order three", "statement": "First, second and third derivatives returned for rational objects satisfy the quotient rule: differentiating weight times value gives the derivatives of the homogeneous numerator.", "quantifier": "all dimensions, weights, control nets with nonzero weight function", "why_tests_cant": "Algebraic identity with many index permutations.", "anchors": ["igakit/igalib.f90:Rationalize", "igakit/nurbs.py:NURBS.gradient", "igakit/nurbs.py:NURBS.hessian", "igakit/nurbs.py:NURBS.derivative"]}
{"id": "C39", "title": "Rational fourth derivatives satisfy the Leibniz rule", "statement": "derivative(4,...) of a rational object returns its fourth derivatives.", "quantifier": "all dimensions, weights, control nets with nonzero weight function", "why_tests_cant": "One missing term out of fifteen is invisible when weights are constant.", "anchors": ["igakit/igalib.f90:Rationalize", "igakit/igalib.f90:FourthDer"]}
{"id": "C40", "title": "Fourth derivatives of curves", "statement": "derivative(4,...) of a curve with unit weights is its fourth derivative.", "quantifier": "all degrees >= 3, all curves", "why_tests_cant": "Tests use low degrees where third and fourth derivatives vanish.", "anchors": ["igakit/igalib.f90:TensorProd1", "igakit/igalib.f90:FourthDer"]}
{"id": "C41", "title": "Tensor-product derivative tables are right", "statement": "The tables of mixed partial derivatives combine, for each multi-index, the one-dimensional derivative of the matching order in each direction (surfaces and volumes up to order four).", "quantifier": "all orders up to 4, all index combinations, all 1-D tables", "why_tests_cant": "Hundreds of hand-written table entries.", "anchors": ["igakit/igalib.f90:TensorProd2", "igakit/igalib.f90:TensorProd3"]}
{"id": "C42", "title": "Derivatives of constants vanish", "statement": "For a field with constant control values all derivatives of order 1..4 are zero and the value is the constant.", "quantifier": "all objects with nonzero weight function", "why_tests_cant": "Universal algebraic identity.", "anchors": ["igakit/igalib.f90:Rationalize", "igakit/igalib.f90:Interpolate"]}
{"id": "C43", "title": "Mapped gradients of the coordinates are the identity", "statement": "gradient of the physical coordinates with mapped=True is the identity matrix wherever the geometry map is invertible.", "quantifier": "all dimensions 1..3, all geometries with nonzero Jacobian determinant", "why_tests_cant": "Algebraic identity.", "anchors": ["igakit/igalib.f90:GeometryMap", "igakit/igalib.f90:Inverse", "igakit/igalib.f90:Determinant", "igakit/nurbs.py:NURBS.gradient"]}
{"id": "C44", "title": "Knot vector generator", "statement": "iga.KnotVector(E,p,C,Ui,Uf,wrap=False) is nondecreasing, clamped, has E equal spans from Ui to Uf and interior multiplicity p-C; with wrap=True the end knots continue periodically.", "quantifier": "all E>=1, p>=1, 0<=C<p, Ui<Uf", "why_tests_cant": "Universal over sizes.", "anchors": ["igakit/igalib.f90:KnotVector"]}
{"id": "C45", "title": "Span enumeration", "statement": "nrb.spans(axis) lists exactly the indices of nonempty knot spans in the domain in increasing order, for distinct knots more than eps apart and a nonempty last span.", "quantifier": "all knot vectors", "why_tests_cant": "The size is computed by one routine and the contents by another.", "anchors": ["igakit/igalib.f90:SpanIndex", "igakit/igalib.pyf:CountSpans", "igakit/nurbs.py:NURBS.spans"]}
{"id": "C46", "title": "Span enumeration with degenerate knots", "statement": "The number of spans announced always equals the number of spans listed.", "quantifier": "all nondecreasing knot vectors", "why_tests_cant": "Needs a repeated knot beyond the end, or spans shorter than eps.", "anchors": ["igakit/igalib.f90:SpanIndex", "igakit/igalib.pyf:CountSpans"]}
{"id": "C47", "title": "Gauss rules integrate polynomials", "statement": "iga.GaussLegendreRule(q) integrates every polynomial of degree <= 2q-1 and iga.GaussLobattoRule(q) every polynomial of degree <= 2q-3 over [-1,1] up to the accuracy of the tabulated digits; points are symmetric, increasing, inside [-1,1].", "quantifier": "all q in the supported range, all polynomials of the stated degree", "why_tests_cant": "Universal over polynomials; tables typed by hand.", "anchors": ["igakit/igalib.f90:GaussLegendreRule", "igakit/igalib.f90:GaussLobattoRule"]}
{"id": "C48", "title": "Transform algebra", "statement": "Composing transforms multiplies matrices in application order; rotate produces an orthogonal matrix of determinant one fixing its axis; vector axes agree with numbered axes; translate and scale act as named; inverse does not modify the receiver.", "quantifier": "all angles, axes, displacements, scales, points", "why_tests_cant": "Trigonometric identities over a continuum.", "anchors": ["igakit/transform.py:transform.compose", "igakit/transform.py:transform.rotate", "igakit/transform.py:transform.translate", "igakit/transform.py:transform.scale", "igakit/transform.py:transform.inverse"]}
{"id": "C49", "title": "Circles are circles", "statement": "Every point of cad.circle(radius,center,angle) has distance radius from the center, the curve starts and ends at the requested angles, and all weights are positive, for every nonzero sweep with |sweep| <= 2*pi.", "quantifier": "all radii, centers, angles, parameters", "why_tests_cant": "Exact identity over a continuum.", "anchors": ["igakit/cad.py:circle"]}
{"id": "C50", "title": "Lines and multilinear patches", "statement": "line/linear/bilinear/trilinear evaluate to the multilinear interpolation of the given corner points.", "quantifier": "all points, all parameters", "why_tests_cant": "Universal.", "anchors": ["igakit/cad.py:line", "igakit/cad.py:linear", "igakit/cad.py:bilinear", "igakit/cad.py:trilinear"]}
{"id": "C51", "title": "Extrusion adds the displacement linearly", "statement": "extrude(nrb,d)(u,v) = nrb(u) + v*d.", "quantifier": "all objects of dimension 1 or 2, all displacements and axes, all parameters", "why_tests_cant": "Universal identity for rational objects.", "anchors": ["igakit/cad.py:extrude"]}
{"id": "C52", "title": "Ruled surfaces interpolate the two inputs", "statement": "ruled(a,b) evaluates at v=0 to a and at v=1 to b, at affinely corresponding parameters, and is linear in v in homogeneous coordinates.", "quantifier": "all curves and surfaces compat can make compatible (C60), all parameters", "why_tests_cant": "Universal.", "anchors": ["igakit/cad.py:ruled"]}
{"id": "C53", "title": "Sweeping adds the two curves", "statement": "sweep(section,trajectory)(u,v) = section(u) + trajectory(v).", "quantifier": "all rational inputs with nonzero weight function, all parameters", "why_tests_cant": "Universal identity for rational objects.", "anchors": ["igakit/cad.py:sweep"]}
{"id": "C54", "title": "Revolution rotates the generator", "statement": "revolve(crv,point,axis,angle)(u,v) is crv(u) rotated about the axis by the angle of the arc at v.", "quantifier": "all curves, axes, angles, parameters", "why_tests_cant": "Identity over a continuum.", "anchors": ["igakit/cad.py:revolve"]}
{"id": "C55", "title": "Revolution accepts every axis", "statement": "revolve works for every nonzero axis vector.", "quantifier": "all nonzero axes", "why_tests_cant": "A single direction triggers the failure.", "anchors": ["igakit/cad.py:revolve", "igakit/transform.py:transform.rotate"]}
{"id": "C56", "title": "Coons patches interpolate their boundary curves", "statement": "coons evaluates on each side of the domain to the given boundary curve, when the corner points agree in homogeneous coordinates and corner weights are one.", "quantifier": "all compatible boundary curves", "why_tests_cant": "Universal.", "anchors": ["igakit/cad.py:coons"]}
{"id": "C57", "title": "Coons patches with weighted corners", "statement": "coons interpolates its boundary curves whenever the curves meet at the corners.", "quantifier": "all curves meeting at the corners, any positive weights", "why_tests_cant": "Tests use unit corner weights.", "anchors": ["igakit/cad.py:coons"]}
{"id": "C58", "title": "Joining keeps both pieces", "statement": "join(a,b,axis) has the larger degree and the domain of a followed by that of b along the axis; it evaluates to a on the first part and to b (shifted) on the second part, within t*1e-9 times the last array component at the upper corner of a, where t < degree is the number of knots removed at the joint; exactly for degree 1.", "quantifier": "all inputs of any dimension that meet in homogeneous coordinates, second piece starting at parameter 0; other axes as in C60; knots along the axis equal or more than eps apart; clamped and continuous along the axis if the degree has to be raised", "why_tests_cant": "Universal.", "anchors": ["igakit/cad.py:join"]}
{"id": "C59", "title": "Joining pieces with arbitrary domains", "statement": "join keeps the shape of the second piece also when its parameter domain does not start at 0.", "quantifier": "all inputs", "why_tests_cant": "Tests use domains starting at zero.", "anchors": ["igakit/cad.py:join"]}
{"id": "C60", "title": "Compatible objects share degree and knots", "statement": "compat(*nurbs, axes=axes) returns objects that have, along the given axes (by default all), the largest degree, the largest domain and identical knot vectors, each with the geometry (points and fields) of the corresponding input up to the affine change of parameter; other axes are untouched.", "quantifier": "any number of inputs clamped and continuous along the axes, axes listed once; knots mapped to the common domain equal or more than eps apart; degrees to be raised at most 9 or meeting the guard of C21", "why_tests_cant": "Universal over lists of objects and knots.", "anchors": ["igakit/cad.py:compat"]}
{"id": "C61", "title": "Grid is the identity map", "statement": "cad.grid produces an object evaluating to affine functions of its parameters over the requested limits.", "quantifier": "all shapes, degrees, continuities", "why_tests_cant": "Linear precision for each degree.", "anchors": ["igakit/cad.py:grid"]}
{"id": "C62", "title": "PetIGA files round-trip", "statement": "PetIGA().write followed by PetIGA().read returns the same knots, degrees, control net (if the dropped coordinates vanish) and fields; the number of bytes of the file follows from the number formats and the sizes.", "quantifier": "all objects of dimension 1..3 with 32-bit sizes", "why_tests_cant": "Byte-level codec over all sizes and shapes.", "anchors": ["igakit/io.py:PetIGA.write", "igakit/io.py:PetIGA.read"]}
{"id": "C63", "title": "PetIGA reader rejects damaged files", "statement": "Reading a strict prefix of a file written by PetIGA().write, or a file with a wrong class id, or one whose dimension, degree, number of knots, number of coordinates or number of fields is out of range, raises instead of returning an object.", "quantifier": "all written files, all truncation points", "why_tests_cant": "All truncation points of all files.", "anchors": ["igakit/io.py:PetIGA.read"]}
{"id": "C64", "title": "PetIGA vectors round-trip", "statement": "write_vec followed by read_vec with the same NURBS returns the same array.", "quantifier": "all array shapes", "why_tests_cant": "Index permutations over all shapes.", "anchors": ["igakit/io.py:PetIGA.write_vec", "igakit/io.py:PetIGA.read_vec"]}
{"id": "C65", "title": "PetIGA matrices are valid CSR", "statement": "read_mat returns row pointers that start at 0, are the running sums of the row lengths and end at the number of nonzeros, or raises; a file made of consistent parts is read and gives these parts, and no strict prefix of it is accepted.", "quantifier": "all files", "why_tests_cant": "Universal over byte streams.", "anchors": ["igakit/io.py:PetIGA.read_mat"]}
{"id": "C66", "title": "VTK point order", "statement": "VTK().write stores the points with the first parametric axis varying fastest, three doubles per point, with DIMENSIONS matching the sampled breaks.", "quantifier": "all objects and samplers", "why_tests_cant": "Index permutations over all shapes.", "anchors": ["igakit/io.py:VTK.write"]}
{"id": "C67", "title": "Evaluation rejects parameters outside the domain", "statement": "Calling an object at a parameter outside [U[p],U[n+1]] on some axis raises; inside, it does not.", "quantifier": "all objects and parameters", "why_tests_cant": "Boundary behaviour over a continuum.", "anchors": ["igakit/nurbs.py:NURBS.__call__", "igakit/nurbs.py:NURBS.evaluate"]}
{"id": "C68", "title": "Evaluating with and without fields agrees", "statement": "The points returned by nrb(u,fields=F) are those returned by nrb(u), and its field values equal nrb.evaluate(F,u). Without an array, nrb.evaluate(u=u) returns the same values of the stored fields as nrb(u,fields=True).", "quantifier": "all objects, fields, parameters", "why_tests_cant": "Universal.", "anchors": ["igakit/nurbs.py:NURBS.__call__", "igakit/nurbs.py:NURBS.evaluate"]}
{"id": "C69", "title": "Basis tables for assembly", "statement": "iga.BasisData(p,U,d,q) announces exactly the nonempty spans in order; for each, the offset is the first active basis function, J is half the span length, the points are the Gauss points mapped strictly inside the span, and N[.,.,a,k] is the k-th derivative of basis function offset+a at the point.", "quantifier": "all p>=1, well-formed knot vectors with knots equal or more than eps apart, 0<=d<=p, 1<=q<=10", "why_tests_cant": "Universal over knot vectors and orders; involves true derivatives.", "anchors": ["igakit/igalib.f90:BasisData", "igakit/igalib.pyf:BasisData"]}
{"id": "C70", "title": "Basis tables for collocation", "statement": "iga.BasisDataCol(p,U,X,d) returns for each point of the domain the offset of its span and the derivatives up to order d of the p+1 basis functions starting there.", "quantifier": "all p>=1, well-formed knot vectors, all points in the domain, 0<=d<=p", "why_tests_cant": "Universal over a continuum.", "anchors": ["igakit/igalib.f90:BasisDataCol", "igakit/igalib.pyf:BasisDataCol"]}
{"id": "C71", "title": "Breaks and their multiplicities", "statement": "nrb.breaks(axis) lists the distinct knots of the domain in strictly increasing order from its left to its right end; nrb.breaks(axis,mults=True) returns with them the multiplicities (at most the degree at the two ends).", "quantifier": "all objects, ends separated from other knots by more than eps", "why_tests_cant": "Universal over knot vectors.", "anchors": ["igakit/nurbs.py:NURBS.breaks"]}
{"id": "C72", "title": "Interpolation nodes", "statement": "nrb.lagrange(axis) and nrb.lobatto(axis) return strictly increasing nodes from the left to the right end of the domain: p per nonempty span plus one, equally spaced (Gauss-Lobatto spaced) within each span; lobatto raises for degrees above 9.", "quantifier": "all objects and degrees", "why_tests_cant": "Universal over knot vectors and degrees.", "anchors": ["igakit/nurbs.py:NURBS.lagrange", "igakit/nurbs.py:NURBS.lobatto"]}
{"id": "C73", "title": "Binomial coefficients of degree elevation do not overflow", "statement": "The binomial coefficients computed by DegreeElevate in 32-bit integers are the exact ones.", "quantifier": "all degrees", "why_tests_cant": "Overflow only shows at final degrees of 30 or more.", "anchors": ["igakit/igalib.f90:Bin"]}
{"id": "C74", "title": "How far knot removal moves the object", "statement": "nrb.remove(axis,u,times,deviation) moves every homogeneous component of nrb by at most (number of knots removed)*deviation*M, M a bound of the last component of the control array (and by that much divided by 1+|h| for any other homogeneous coordinate h of a control point), and the points accordingly; with deviation 0 the object evaluates exactly as before.", "quantifier": "all objects, axes, values, deviations >= 0, parameters", "why_tests_cant": "Universal over a continuum of objects and parameters.", "anchors": ["igakit/nurbs.py:NURBS.remove", "igakit/igalib.f90:RemoveKnot"]}
{"id": "C75", "title": "The deviation argument bounds the change of the geometry", "statement": "nrb.remove(axis,u,1,deviation) moves no point of an object without fields by more than deviation.", "quantifier": "all objects with positive weights, all deviations > 0", "why_tests_cant": "Only objects with uneven weights and points far from the origin expose it.", "anchors": ["igakit/nurbs.py:NURBS.remove"]}
{"id": "C76", "title": "Ruled surfaces of unclamped inputs", "statement": "ruled(a,b) evaluates at v=0 to a and at v=1 to b also when the inputs are not clamped.", "quantifier": "all well-formed inputs", "why_tests_cant": "Tests use clamped inputs.", "anchors": ["igakit/cad.py:ruled", "igakit/cad.py:compat"]}
{"id": "C77", "title": "Refinement of all axes produces the requested knots", "statement": "cad.refine(nrb,factor,degree,continuity) evaluates as nrb, and along each axis has degree max(degree,old degree), the old spans cut into the requested number of equal pieces, and knots of multiplicity degree-continuity at the cuts (at old breaks more if the raised degree requires it) and nowhere else inside.", "quantifier": "all objects, factors per axis or per span, degrees, continuities", "why_tests_cant": "Universal over objects, knot vectors and requests.", "anchors": ["igakit/cad.py:refine"]}
{"id": "C78", "title": "Results do not depend on sharing", "statement": "A method applied to an object whose arrays are shared with clones, with the caller or with objects made from it gives the same object, new object, values or exception as on an object with arrays of its own.", "quantifier": "all objects, all sharing of arrays, all methods and arguments (the array passed to refine not being one of the object's)", "why_tests_cant": "Sharing patterns are unbounded; tests use fresh objects.", "anchors": ["igakit/nurbs.py:NURBS.__init__", "igakit/nurbs.py:NURBS.reverse", "igakit/nurbs.py:NURBS.slice", "igakit/nurbs.py:NURBS.remap", "igakit/nurbs.py:NURBS.refine"]}
{"id": "C79", "title": "The remapped domain is the requested one in double precision", "statement": "After nrb.remap(axis,start,end) the domain is [start,end] exactly, so the object can be evaluated at start and end.", "quantifier": "all objects, all finite start < end, IEEE double precision", "why_tests_cant": "Only particular pairs of numbers round the wrong way.", "anchors": ["igakit/nurbs.py:NURBS.remap"]}
{"id": "C80", "title": "Reversal keeps the domain in double precision", "statement": "nrb.reverse(axis) leaves the domain of the axis unchanged.", "quantifier": "all objects, IEEE double precision", "why_tests_cant": "Only particular pairs of end points round the wrong way.", "anchors": ["igakit/nurbs.py:NURBS.reverse"]}
{"id": "C81", "title": "Greville abscissae can be evaluated in double precision", "statement": "nrb.evaluate(nrb.greville(axis)) succeeds: the computed abscissae lie in the domain.", "quantifier": "all objects, IEEE double precision", "why_tests_cant": "Only particular degrees and end points round the wrong way.", "anchors": ["igakit/nurbs.py:NURBS.greville", "igakit/igalib.f90:Greville"]}
{"id": "C82", "title": "Compatibility in double precision", "statement": "compat gives objects whose breaks divide their domains in the same proportions no further knots, and coons accepts sides over different domains that meet at the corners.", "quantifier": "all objects, IEEE double precision", "why_tests_cant": "Only particular domains round the wrong way.", "anchors": ["igakit/cad.py:compat", "igakit/cad.py:coons"]}
{"id": "C83", "title": "Results do not depend on the unit of the parameter", "statement": "Multiplying all knots and parameters by a positive number changes no point computed by insert, extract, elevate or clamp.", "quantifier": "all objects and factors", "why_tests_cant": "Test domains have length about one; very short domains expose the absolute tolerance.", "anchors": ["igakit/igalib.f90:FindMult", "igakit/igalib.f90:DegreeElevate", "igakit/nurbs.py:NURBS.extract", "igakit/nurbs.py:NURBS.insert", "igakit/nurbs.py:NURBS.elevate", "igakit/nurbs.py:NURBS.clamp"]}
{"id": "C84", "title": "Coons patches of sides that do not meet are refused", "statement": "coons raises AssertionError if at some corner some coordinate of the two sides differs by more than 1e-15.", "quantifier": "all compatible sides, all corners and coordinates", "why_tests_cant": "Universal over curves; a check that omits a corner or coordinate passes most tests.", "anchors": ["igakit/cad.py:coons"]}
{"id": "C85", "title": "Computed points are accurate in double precision", "statement": "nrb(u,v,w) in IEEE double precision returns finite numbers; each coordinate and field value differs from the exact value of the rational spline by at most k*2^-49*M+2^-900, where M bounds that coordinate or field over the control points and k = prod(p+1)+sum(6p+1).", "quantifier": "all objects of dimension at most 3, degrees up to 100, knots up to 2^500 and equal or 2^-500 apart, weights in [2^-100,2^100], all parameters of the domain", "why_tests_cant": "Rounding errors depend on every input; tests sample a few.", "anchors": ["igakit/nurbs.py:NURBS.__call__", "igakit/igalib.f90:BasisFuns", "igakit/igalib.f90:FindSpan", "igakit/igalib.f90:Evaluate1", "igakit/igalib.f90:Evaluate2", "igakit/igalib.f90:Evaluate3"]}
{"id": "C86", "title": "Knots stay sorted in double precision", "statement": "nrb.remap(axis,start,end) computed in IEEE double precision keeps the order of the knots (equal knots stay equal, smaller ones never become larger), nrb.reverse(axis) gives a sorted knot vector and nrb.greville(axis) sorted abscissae; all of them finite.", "quantifier": "all objects with knots, start and end up to 2^300 and domains not shorter than 2^-300, degrees up to 1000", "why_tests_cant": "Rounding could swap two close knots only for particular numbers.", "anchors": ["igakit/nurbs.py:NURBS.remap", "igakit/nurbs.py:NURBS.reverse", "igakit/nurbs.py:NURBS.greville", "igakit/igalib.f90:Greville"]}
{"id": "C87", "title": "Constructors refuse unsuitable inputs", "statement": "extrude, revolve and ruled raise AssertionError for volumes; compat, ruled and join for objects of different dimensions; sweep unless a curve or surface is swept along a curve; coons unless given four curves; join for an axis that does not exist; linear, bilinear, trilinear for a corner array of the wrong shape; grid unless there are 1 to 3 axes, one entry per axis, positive degrees and continuities from -degree to degree-1; cad.refine raises for nonpositive degrees or factors or the wrong number of them.", "quantifier": "all objects and arguments, any arithmetic (assert statements enabled)", "why_tests_cant": "A missing check shows only on the inputs nobody tests.", "anchors": ["igakit/cad.py:compat", "igakit/cad.py:extrude", "igakit/cad.py:revolve", "igakit/cad.py:ruled", "igakit/cad.py:sweep", "igakit/cad.py:coons", "igakit/cad.py:join", "igakit/cad.py:grid", "igakit/cad.py:refine", "igakit/cad.py:bilinear"]}
{"id": "C88", "title": "Control points at full knots come back exactly in double precision", "statement": "Evaluated in IEEE double precision at an end of the domain, or at a knot whose multiplicity is the degree, a curve, surface or volume returns the Cartesian coordinates of the control point there without rounding error.", "quantifier": "all clamped objects and weights, IEEE double precision", "why_tests_cant": "Whether the rounding errors of the basis functions cancel depends on the length of the span and on the coordinate.", "anchors": ["igakit/nurbs.py:NURBS.__call__", "igakit/igalib.f90:BasisFuns", "igakit/igalib.f90:Evaluate1", "igakit/igalib.f90:Evaluate2"]}
{"id": "C89", "title": "The box of the control points in double precision", "statement": "In IEEE double precision every computed coordinate or field value lies between the least and the greatest value of that coordinate or field over the control points.", "quantifier": "all objects with positive weights, all parameters of the domain, IEEE double precision", "why_tests_cant": "A universal statement about rounding errors; the excess is one unit in the last place at particular inputs.", "anchors": ["igakit/nurbs.py:NURBS.__call__", "igakit/igalib.f90:BasisFuns", "igakit/igalib.f90:Evaluate1", "igakit/igalib.f90:Evaluate2", "igakit/igalib.f90:Evaluate3"]}
{"id": "C90", "title": "A point depends on its own parameters alone", "statement": "nrb(u,v,w) with arrays of parameters gives at every position, bit for bit, what nrb gives for the single parameters there, whatever the other parameters, and independently of the contents of uninitialised work arrays; the same for nrb.evaluate.", "quantifier": "all objects, parameter arrays, fields and work arrays, any arithmetic", "why_tests_cant": "Stale or uninitialised table entries show only for particular combinations of parameters.", "anchors": ["igakit/nurbs.py:NURBS.__call__", "igakit/nurbs.py:NURBS.evaluate", "igakit/igalib.f90:BasisFuns", "igakit/igalib.f90:Evaluate1", "igakit/igalib.f90:Evaluate2", "igakit/igalib.f90:Evaluate3"]}
{"id": "C91", "title": "Local control in double precision", "statement": "Changing control points and weights (to any doubles, infinities and NaN included) whose basis function vanishes at the parameter leaves the computed point unchanged bit for bit.", "quantifier": "all objects with finite sorted knots, all parameters of the domain, IEEE double precision", "why_tests_cant": "0*NaN is NaN: reading one control point too many shows only with special values.", "anchors": ["igakit/nurbs.py:NURBS.__call__", "igakit/igalib.f90:FindSpan", "igakit/igalib.f90:Evaluate1", "igakit/igalib.f90:Evaluate2", "igakit/igalib.f90:Evaluate3"]}
{"id": "C92", "title": "Derivative calls return or raise", "statement": "nrb.gradient, nrb.hessian and nrb.derivative, mapped or not, return an array or raise a Python exception; they never end the process.", "quantifier": "all objects, fields, parameters and orders", "why_tests_cant": "A call that ends the process cannot be observed by a test in the same process, and the flag is rarely combined with high orders.", "anchors": ["igakit/nurbs.py:NURBS.gradient", "igakit/nurbs.py:NURBS.hessian", "igakit/nurbs.py:NURBS.derivative", "igakit/igalib.f90:Hessian1", "igakit/igalib.f90:ThirdDer1", "igakit/igalib.f90:FourthDer1"]}
{"id": "C93", "title": "Grid and refine leave the caller's arrays alone", "statement": "cad.grid and cad.refine do not change the arrays passed to them as shape, degree, continuity or factor, so that the same arrays can be used for several calls.", "quantifier": "all arrays, all calls", "why_tests_cant": "Aliasing through np.asarray is invisible in a single call and depends on the dtype of the caller's array.", "anchors": ["igakit/cad.py:grid", "igakit/cad.py:refine"]}
{"id": "C94", "title": "Knot insertion in double precision", "statement": "nrb.insert(axis,u,times) computed in IEEE double precision is not refused, adds u exactly times times to the knots without touching the others, and moves the spline only by rounding: each homogeneous component by at most times*(2^-48*M+2^-1073), each coordinate or field by at most p*2^-46*(w1/w0)*M+2^-960 (M bounds it over the control points, weights in [w0,w1]), and the values computed by nrb(u,v,w) before and after differ by at most (2^-47*k+2^-46*p*w1/w0)*M+2^-898 with k as in C85.", "quantifier": "all objects of dimension at most 3, degrees up to 100, knots up to 2^500, every u strictly inside the domain that equals or is 2^-52 away from each knot, all admissible times, weights in [2^-99,2^99] with w1/w0 up to 2^30", "why_tests_cant": "The blending factors are quotients of rounded differences; whether errors stay small for every knot spacing and are not amplified from round to round is a universal statement.", "anchors": ["igakit/nurbs.py:NURBS.insert", "igakit/igalib.f90:InsertKnot", "igakit/igalib.f90:FindMult", "igakit/igalib.f90:FindSpan"]}
{"id": "C95", "title": "Basis functions in double precision", "statement": "bsp.EvalBasisFuns(p,U,u) in IEEE double precision returns finite nonnegative numbers, each within p*2^-48 (relative) plus 2^-369 of the exact basis function, for the span that contains u; their sum is 1 up to p*2^-48+2^-362.", "quantifier": "all knot vectors as in C85, degrees up to 100, all parameters of the domain", "why_tests_cant": "Relative accuracy of every basis function, also of the tiny ones near the ends of their supports, is a statement about all parameters.", "anchors": ["igakit/igalib.f90:EvalBasisFuns", "igakit/igalib.f90:BasisFuns", "igakit/igalib.f90:FindSpan"]}
{"id": "C96", "title": "Control points read back in double precision", "statement": "After NURBS(knots,control,fields,weights) the attributes weights, points and fields return the numbers given to the constructor.", "quantifier": "all shapes, numbers zero or between 2^-300 and 2^300 in size, nonzero weights, IEEE double precision", "why_tests_cant": "Whether x*w/w gives x again depends on the particular pair of numbers.", "anchors": ["igakit/nurbs.py:NURBS.__init__", "igakit/nurbs.py:NURBS.points", "igakit/nurbs.py:NURBS.weights", "igakit/nurbs.py:NURBS.fields"]}
{"id": "C97", "title": "Plots show the object", "statement": "plot(nrb) hands to the backend the points of the object at equally spaced parameters of the whole domain: one line for a curve, one array for a surface, six for a volume, one on every side. curve(nrb) draws the four edges of a surface, and the edges of all sides of a volume.", "quantifier": "all objects, all resolutions from 2 on", "why_tests_cant": "A wrong array is a wrong picture, which no test looks at; axes are reversed on the way by C.T.", "anchors": ["igakit/plot.py:Plotter.plot", "igakit/plot.py:Plotter.curve", "igakit/plot.py:Plotter.surface", "igakit/plot.py:Plotter.volume"]}
{"id": "C98", "title": "Knot plots show the knot points, lines and surfaces", "statement": "kpoint shows the points of the object at all combinations of breaks; kwire(nrb,axes) draws exactly the lines along the chosen axes where every other parameter is a break; ksurf(nrb,axes) exactly the surfaces where the parameter of a chosen axis is a break. Axes may be counted from the end.", "quantifier": "all objects, resolutions and axes", "why_tests_cant": "The wrong order of axes still gives arrays of the right shape.", "anchors": ["igakit/plot.py:Plotter.kpoint", "igakit/plot.py:Plotter.kwire", "igakit/plot.py:Plotter.ksurf"]}
{"id": "C99", "title": "Grids are drawn completely and without extra lines", "statement": "Given arrays of points, both backends draw exactly the segments between neighbouring points of each array, and as surfaces exactly the faces of its cells; cwire draws exactly the segments between neighbouring control points, and cpoint shows every control point at its position in space.", "quantifier": "all lists of arrays with one to three axes of any length, any arithmetic", "why_tests_cant": "The index arithmetic for several arrays of different shapes in one picture cannot be judged from examples.", "anchors": ["igakit/plot_myv.py:_extract_grid_lines", "igakit/plot_myv.py:_extract_grid_polys", "igakit/plot_mpl.py:line3d", "igakit/plot_mpl.py:surf3d", "igakit/plot.py:Plotter.cwire", "igakit/plot.py:Plotter.cpoint"]}
{"id": "C100", "title": "Points and vectors with missing coordinates", "statement": "points and quiver accept arrays whose points have one to three coordinates, take zero for the missing ones, and raise AssertionError for any other number; a single point may be given without the outer array.", "quantifier": "all arrays", "why_tests_cant": "Universal over shapes.", "anchors": ["igakit/plot.py:Plotter.points", "igakit/plot.py:Plotter.quiver"]}
{"id": "C101", "title": "The geometry determines the control points", "statement": "Two objects over the same knots, no knot more than degree+1 times, with the same homogeneous spline have the same control points and weights; with the same positive weights already equal results of every evaluation (points and fields) imply equal control points and fields. So a control point that matters to no point of the object does not exist.", "quantifier": "all objects of any dimension over such knot vectors", "why_tests_cant": "Linear independence of the basis functions on the domain is a statement about all knot vectors; evaluation at finitely many parameters shows nothing about it.", "anchors": ["igakit/nurbs.py:NURBS.__call__", "igakit/igalib.f90:BasisFuns", "igakit/nurbs.py:NURBS.points", "igakit/nurbs.py:NURBS.weights"]}
{"id": "C102", "title": "The order of refinements does not matter", "statement": "Two sequences of insert, refine, clamp, unclamp and elevate from the same object which end in the same knots end in the same control points. In particular: operations along different axes commute; insertions commute along the same axis; inserting r and then s times is inserting r+s times; refine(axis,values) is inserting the values one after the other; elevating by s and then t is elevating by s+t; clamp undoes unclamp of a clamped object.", "quantifier": "all objects, all sequences of operations that meet the conditions of C11, C13, C17, C18 and C19", "why_tests_cant": "Quantifies over all pairs of sequences of calls.", "anchors": ["igakit/nurbs.py:NURBS.insert", "igakit/nurbs.py:NURBS.refine", "igakit/nurbs.py:NURBS.clamp", "igakit/nurbs.py:NURBS.unclamp", "igakit/nurbs.py:NURBS.elevate"]}
{"id": "C103", "title": "Smoothness across knots", "statement": "If no knot inside the domain occurs more than p times along any axis, evaluation is continuous in the parameters; if none occurs more than p-m times along an axis that is differentiated m times, the values returned by gradient, hessian and derivative are continuous too, and at every point inside the domain, also exactly on a knot, they are the derivative of the object itself and not only of the piece to the right of the knot.", "quantifier": "all objects of any dimension, rational ones included, all parameters, orders 1 to 3", "why_tests_cant": "Continuity and differentiability at a point are limits; parameters on a knot are an exceptional set that tests meet only by construction, and there the code switches from one polynomial piece to another.", "anchors": ["igakit/nurbs.py:NURBS.__call__", "igakit/nurbs.py:NURBS.gradient", "igakit/nurbs.py:NURBS.hessian", "igakit/nurbs.py:NURBS.derivative", "igakit/igalib.f90:FindSpan", "igakit/igalib.f90:DersBasisFuns"]}
{"id": "C104", "title": "Local convex hull", "statement": "With positive weights every point returned by evaluation, together with its field values, is a convex combination of the control points whose knots surround the parameter (at most p+1 along each axis), with the same coefficients for coordinates and fields; so it lies in every convex set that contains those control points.", "quantifier": "all objects of any dimension with positive weights, all parameters in the domain", "why_tests_cant": "A test can check a sampled point against a bounding box; membership in the hull of the active control points for every parameter and every net is a universal statement about the coefficients.", "anchors": ["igakit/nurbs.py:NURBS.__call__", "igakit/nurbs.py:NURBS.evaluate", "igakit/igalib.f90:BasisFuns", "igakit/igalib.f90:FindSpan"]}
{"id": "C105", "title": "A curve does not oscillate more than its control polygon", "statement": "With positive weights no plane separates points of a curve more often than it separates control points: if the points evaluated at increasing parameters lie alternately on both sides of a plane, there are control points, in the same order, on the same sides. If the control points advance monotonically in some direction, so do the evaluated points.", "quantifier": "all curves with positive weights, all planes and directions, any number of crossings", "why_tests_cant": "The number of crossings over a continuum of parameters for all planes cannot be enumerated; the proof goes through knot insertion until every parameter is a knot of full multiplicity.", "anchors": ["igakit/nurbs.py:NURBS.__call__", "igakit/igalib.f90:BasisFuns", "igakit/nurbs.py:NURBS.insert"]}
{"id": "C106", "title": "End tangents of clamped curves", "statement": "At the start and at the end of a clamped curve the gradient of the coordinates, or of any field, is p/(knot difference) times the ratio of the weights of the last two control points there times the difference of their values; so the curve leaves and arrives along the first and last leg of the control polygon.", "quantifier": "all clamped curves of degree at least 1 with nonzero end weights, all fields", "why_tests_cant": "The end of the domain is an exceptional parameter where one-sided spans and the quotient rule meet; the formula is claimed for all degrees, knots and weights.", "anchors": ["igakit/nurbs.py:NURBS.gradient", "igakit/igalib.f90:DersBasisFuns", "igakit/igalib.f90:FindSpan"]}
{"id": "C107", "title": "Derivatives depend on the geometry only", "statement": "Two objects over the same domain that evaluate alike have the same gradients, hessians and third derivatives at every parameter of the domain, including parameters that are knots of one of them only, also when the gradient is mapped to physical space. In particular insert, clamp, unclamp, refine and elevate change no derivative of an object with positive weights, and remap multiplies derivatives by the ratio of domain lengths, once for each differentiation along the remapped axis. A component whose control values are all equal (unit weights, say) keeps that value under refinement.", "quantifier": "all objects of any dimension, all representations of the same geometry, all parameters, orders 1 to 3", "why_tests_cant": "Two representations differ in degree, knots, weights and control points at once, and derivatives at knots are one-sided on different spans; tests compare a few representations at a few parameters.", "anchors": ["igakit/nurbs.py:NURBS.gradient", "igakit/nurbs.py:NURBS.hessian", "igakit/nurbs.py:NURBS.derivative", "igakit/nurbs.py:NURBS.insert", "igakit/nurbs.py:NURBS.elevate", "igakit/nurbs.py:NURBS.remap", "igakit/igalib.f90:DersBasisFuns"]}
{"id": "C108", "title": "PetIGA files in single precision", "statement": "With PetIGA(precision='single'), in all four variants, write followed by read gives back an object of the same degrees and sizes in which every knot, homogeneous coordinate and weight is replaced by a nearest single precision number (numbers that are singles come back unchanged, order is kept), the coordinates not written are zero and the quotients of the fields by the weights are rounded the same way. Writing the object that was read produces the same file byte for byte.", "quantifier": "all objects of up to three dimensions whose numbers are below 2^127, all variants", "why_tests_cant": "Rounding, subnormal singles and the division and multiplication of fields by weights act on every bit pattern; tests try a few round numbers, which are singles already.", "anchors": ["igakit/io.py:PetIGA.write", "igakit/io.py:PetIGA.read", "igakit/io.py:PetIGA._write", "igakit/io.py:PetIGA._read"]}
{"id": "C109", "title": "Derivatives of reversed and transposed objects", "statement": "After transpose or swap the derivatives of every order up to three are those of the original object in the correspondingly permuted directions at the corresponding points. After reverse of an axis they are those of the original at the mirrored parameters, with one change of sign for each differentiation along the reversed axis, wherever the parameter along that axis is no interior knot or the object is differentiable often enough across it. At other knots this fails: derivatives are those to the right, and reversal exchanges the sides.", "quantifier": "all objects of one to three dimensions with positive weights, continuous along a reversed axis; all arguments in the domain, orders 1 to 3", "why_tests_cant": "Mixed derivatives in permuted directions, end points of the domain and knots of every multiplicity have to be covered at once; the failure shows only at knots of reduced continuity.", "anchors": ["igakit/nurbs.py:reverse", "igakit/nurbs.py:transpose", "igakit/nurbs.py:swap", "igakit/nurbs.py:derivative", "igakit/nurbs.py:gradient"]}
{"id": "C110", "title": "Mapped gradients do not depend on the parametrisation", "statement": "gradient(mapped=True) returns the gradient with respect to physical coordinates: after transpose, swap, reverse or remap the mapped gradient at the corresponding parameters is the one of the original object, wherever the Jacobian matrix of the original is regular there; for reverse also the parameter must not be an interior knot of full multiplicity.", "quantifier": "all objects of one to three dimensions with positive weights, continuous along a reversed axis; all arguments in the domain with regular Jacobian matrix; all fields and directions", "why_tests_cant": "Depends on the interplay of the Jacobian matrix, its inverse and the order of indices in one, two and three dimensions: a transposed inverse is not noticed on symmetric test geometries.", "anchors": ["igakit/nurbs.py:gradient", "igakit/nurbs.py:reverse", "igakit/nurbs.py:transpose", "igakit/nurbs.py:swap", "igakit/nurbs.py:remap", "igakit/igalib.f90:Gradient1"]}
{"id": "C111", "title": "Plot options reach the backend", "statement": "Every method of Plotter hands the caller's keyword arguments to the backend unchanged and adds its documented defaults for the missing ones only (red spheres for control points, blue lines for the control net, green cubes, lines and surfaces for knots, yellow tubes and surfaces for bodies; color=None removes the colour); mode, representation and, for thin lines, tube_radius are settled by the method; a mode lines do not have is refused. plot_mpl turns sphere, cube and cone into the markers o, s and ^, draws surfaces with every grid line and passes on every option that it does not handle itself. Expected also: a mode given to cplot suits points and lines (false), arrows can be drawn with every backend (false: matplotlib has no quiver3d), and matplotlib never receives options only mayavi knows (false for cplot with scale_factor or tube_radius).", "quantifier": "all objects, all dictionaries of keyword arguments, all backends that define the function called; any arithmetic", "why_tests_cant": "There are unboundedly many combinations of options, and what matters is which of them are absent; the backends need displays and are not exercised by tests.", "anchors": ["igakit/plot.py:Plotter.plot", "igakit/plot.py:Plotter.cplot", "igakit/plot.py:Plotter.curve", "igakit/plot.py:Plotter.surface", "igakit/plot_mpl.py:surf3d"]}
{"id": "C112", "title": "Choice of the plotting backend", "statement": "use(b) with a known name makes b the backend of that plotter and changes no other plotter; with an unknown name or a module that cannot be imported it raises and changes nothing. matplotlib, mayavi and null or none are other names of mpl, myv and nul. Without a choice the backend is mayavi, or matplotlib if mayavi is not installed; a mayavi that is installed but fails to load is an error. A backend, once there, stays until the same plotter chooses another one, and no backend module is imported successfully twice.", "quantifier": "all sequences of calls on any number of plotters, with imports that succeed or fail in any pattern", "why_tests_cant": "Depends on the history of calls and of failing imports; the table of modules is shared by all plotters.", "anchors": ["igakit/plot.py:Plotter.use", "igakit/plot.py:Plotter.set_backend", "igakit/plot.py:Plotter.get_backend"]}
{"id": "C113", "title": "Derivatives of moved, scaled and turned objects", "statement": "After an affine transform every derivative of the points, of order one to four, is the linear part of the transform applied to the old derivative; derivatives of fields with respect to the parameters stay; mapped gradients g' satisfy A^T g' = g, where A is the linear part. In particular translate changes no derivative, scale multiplies the derivatives of coordinate c by its factor and divides component c of mapped gradients by it, and rotate turns derivatives of the points and mapped gradients about the same axis by the same angle.", "quantifier": "all well-formed objects of dimension 1 to 3 with positive weights, all affine transforms, all parameters and orders; for mapped gradients, transforms that act on the first dim coordinates and points where the Jacobian is regular", "why_tests_cant": "Relates the derivative methods to the transformation methods for all objects and all maps; cancellation of the translation is a property of sums of derivatives of rational basis functions.", "anchors": ["igakit/nurbs.py:NURBS.transform", "igakit/nurbs.py:NURBS.gradient", "igakit/nurbs.py:NURBS.derivative", "igakit/transform.py:transform"]}
{"id": "C114", "title": "Refining replaces control points by averages", "statement": "The control points that insert, refine, clamp, elevate and slice leave are averages of the old ones along the axis: combinations with nonnegative coefficients of sum 1, the same for every line of control points and every homogeneous component. So after any sequence of such calls positive weights are still positive, and the Cartesian control points and fields stay in every half-space that held them: their convex hull and bounding box do not grow. (Unclamp is different: it can make positive weights negative.)", "quantifier": "all well-formed objects whose interior knots have multiplicity at most the degree plus one, all axes, all arguments under the conditions of the geometry properties of these methods, any number of calls in any order", "why_tests_cant": "The claim is about every control point of every refined object; the Fortran computes them by recurrences in which signs are not visible, and tests see a few values.", "anchors": ["igakit/nurbs.py:NURBS.insert", "igakit/nurbs.py:NURBS.refine", "igakit/nurbs.py:NURBS.elevate", "igakit/nurbs.py:NURBS.clamp", "igakit/nurbs.py:NURBS.slice", "igakit/igalib.f90:DegreeElevate", "igakit/igalib.f90:InsertKnot"]}
{"id": "C115", "title": "Parts of an object have its derivatives", "statement": "A slice has, at every parameter before its right end, the derivatives of order one to three and the mapped gradients of the whole object, for points and for fields; also at its right end when that is the end of the object. An extracted section or boundary has the derivatives of the object at the fixed parameter along the remaining directions (direction d of the section is direction d of the object, or d + 1 from the removed axis on), and positive weights if the object has positive weights. At the right end of a slice inside the object the slice may have the other one-sided derivative.", "quantifier": "all well-formed objects with positive weights, all axes and parameters under the conditions of the geometry properties of slice, extract and boundary, all argument arrays inside the part, all components, orders and directions", "why_tests_cant": "Derivatives of the part are computed from other knots and control points than those of the whole; equality at all parameters, knots included, with the right choice of side, is beyond samples.", "anchors": ["igakit/nurbs.py:NURBS.slice", "igakit/nurbs.py:NURBS.extract", "igakit/nurbs.py:NURBS.boundary", "igakit/nurbs.py:NURBS.derivative"]}
{"id": "C116", "title": "Refining does not make the control net oscillate more", "statement": "Insertion, refinement, clamping and slicing along an axis add no crossings: if a plane (a linear form of Cartesian coordinates and fields) has control points of the new object alternately on its two sides along a line of control points in that direction, then the old object has as many control points on the same line, in the same order and on the same sides. (Unclamp is different: it can add crossings.)", "quantifier": "all well-formed objects of any dimension with positive weights whose interior knots have multiplicity at most the degree plus one, all axes, all planes, all lines of control points, all arguments under the conditions of the geometry properties of these methods", "why_tests_cant": "The claim is about all planes and all control points of every refined object.", "anchors": ["igakit/nurbs.py:NURBS.insert", "igakit/nurbs.py:NURBS.refine", "igakit/nurbs.py:NURBS.clamp", "igakit/nurbs.py:NURBS.slice", "igakit/igalib.f90:InsertKnot"]}
{"id": "C117", "title": "Refined control nets lie close to the object", "statement": "For an object with positive weights there is a constant K such that, for every object obtained from it by any sequence of insertions, refinements, clampings and slices, each control point (in Cartesian coordinates, with its fields) is within K times the largest knot span of the new object of every point of the original object on which that control point has influence. The reason is a property of its own: these calls do not increase the steps between neighbouring control points relative to the averages of the knots belonging to them.", "quantifier": "all well-formed continuous objects of any dimension with positive weights whose knots have multiplicity at most the degree plus one, all sequences of calls on all axes under the conditions of the geometry properties of these methods, all control points, all parameters in the range of influence, all coordinates and fields", "why_tests_cant": "The claim is about all refined objects, of any number of control points, with one constant.", "anchors": ["igakit/nurbs.py:NURBS.insert", "igakit/nurbs.py:NURBS.refine", "igakit/nurbs.py:NURBS.clamp", "igakit/nurbs.py:NURBS.slice", "igakit/igalib.f90:InsertKnot"]}
{"id": "C118", "title": "An object cut in two can be joined again", "statement": "Slicing an object at an inner parameter u of an axis into the part below and the part above, remapping the second part to start at 0 and joining the two along that axis succeeds and gives an object with the same dimension, components, degrees and domains, which at every parameter of the whole object has the same homogeneous coordinates, and hence points and fields, within (degree-1) times the tolerance 1e-9 of the knot removal in join, relative to the weight at the corner of the cut.", "quantifier": "all well-formed objects of any dimension, any axis (clamped or not, inner knots at most degree times), any u inside whether or not it is a knot, other axes open, knots equal or more than machine epsilon apart, real arithmetic, any contents of uninitialised arrays, all parameters of the domain", "why_tests_cant": "All objects, cuts and parameters; the result is the composition of knot refinement, slicing, remapping, compatibility, clamping and knot removal.", "anchors": ["igakit/nurbs.py:NURBS.slice", "igakit/nurbs.py:NURBS.remap", "igakit/cad.py:join"]}
{"id": "C119", "title": "Refining and transforming commute", "statement": "Any sequence of insert, refine, clamp, unclamp and elevate calls which an object accepts is accepted by the transformed, translated, scaled or rotated object as well, and gives the knots and control points obtained by refining first and transforming afterwards. An object with the same stored knots and control points accepts the same calls with the same results.", "quantifier": "all well-formed objects of any dimension, all lists of calls along any axes each meeting the condition of its own property, all 4x4 matrices (singular and projective ones included), all displacements, scales, angles and axes accepted, real arithmetic, any contents of uninitialised arrays, resulting knots at most degree+1 times", "why_tests_cant": "All call sequences, objects and matrices; equality of every control point of two different computations.", "anchors": ["igakit/nurbs.py:NURBS.transform", "igakit/nurbs.py:NURBS.translate", "igakit/nurbs.py:NURBS.insert", "igakit/nurbs.py:NURBS.elevate"]}
{"id": "C120", "title": "Sections in double precision", "statement": "In any arithmetic, extract at a parameter inside an axis returns, bit for bit, a layer of the control net that insert returns when the parameter is inserted as often as possible. In IEEE double precision such a parameter is accepted, the control points of the section are finite, and the section has the homogeneous coordinates of the object at that parameter within (p-s)(2^-48 M + 2^-1073) and its points within p 2^-46 (w1/w0) M + 2^-960. At the ends of a clamped axis boundary returns the first or last layer of the net without any rounding.", "quantifier": "for the layer: any number type whose comparisons fit together, all objects, axes and parameters inside; for the bounds: all objects of dimension up to 3 with finite knots of degree at most 100, any inner parameter equal to knots or at least machine epsilon apart from them, all parameters of the other axes, control points up to 2^500 in size, weights between w0 and w1", "why_tests_cant": "All doubles as control points, knots and parameters; accumulated rounding errors of the whole corner cutting.", "anchors": ["igakit/nurbs.py:NURBS.extract", "igakit/nurbs.py:NURBS.boundary", "igakit/igalib.f90:CurvePntByCornerCut"]}
{"id": "C121", "title": "Refining and renumbering axes commute", "statement": "Any sequence of insert, refine, clamp, unclamp and elevate calls which an object accepts is accepted, with the axis arguments renumbered, by the object after swap or transpose, and gives the knots and control points obtained by refining first and calling swap or transpose afterwards.", "quantifier": "all well-formed objects of any dimension, all lists of calls along any axes (negative axis arguments included) each meeting the condition of its own property, all pairs of axes and all permutations given by nonnegative numbers, real arithmetic, any contents of uninitialised arrays, resulting knots at most degree+1 times", "why_tests_cant": "All call sequences, objects and permutations; equality of every control point of two different computations.", "anchors": ["igakit/nurbs.py:NURBS.swap", "igakit/nurbs.py:NURBS.transpose", "igakit/nurbs.py:NURBS.insert", "igakit/nurbs.py:NURBS.elevate"]}
{"id": "C122", "title": "Refining and changing the parameter commute", "statement": "Inserting or refining knots, clamping, unclamping or elevating and then calling remap gives the same knots and control points as calling remap first and making the same calls with the knot values moved like the knots of the remapped axis.", "quantifier": "all well-formed objects of any dimension, all lists of calls along any axes each meeting the condition of its own property before and after remap (the kernels compare knots with a fixed tolerance), all start and end values remap accepts, real arithmetic, any contents of uninitialised arrays, resulting knots at most degree+1 times", "why_tests_cant": "All call sequences, objects and intervals; equality of every control point of two different computations.", "anchors": ["igakit/nurbs.py:NURBS.remap", "igakit/nurbs.py:NURBS.insert", "igakit/nurbs.py:NURBS.refine", "igakit/nurbs.py:NURBS.unclamp", "igakit/nurbs.py:NURBS.elevate"]}
{"id": "C123", "title": "Refining and reversing commute", "statement": "Inserting or refining knots, clamping, unclamping or elevating and then calling reverse along an axis gives the same knots and control points as calling reverse first and making the same calls at the other end of that axis: a knot u becomes lo + hi - u, side 0 becomes side 1 and side 1 becomes side 0. Up to degree 9 the calls at the other end are accepted whenever the original ones are.", "quantifier": "all well-formed objects of any dimension, all lists of calls along any axes each meeting the condition of its own property, the reversed axis continuous before and after the calls (no inner knot more than degree times), resulting knots at most degree+1 times, real arithmetic, any contents of uninitialised arrays", "why_tests_cant": "All call sequences and objects; equality of every control point of two different computations.", "anchors": ["igakit/nurbs.py:NURBS.reverse", "igakit/nurbs.py:NURBS.insert", "igakit/nurbs.py:NURBS.refine", "igakit/nurbs.py:NURBS.clamp", "igakit/nurbs.py:NURBS.unclamp", "igakit/nurbs.py:NURBS.elevate"]}
{"id": "C124", "title": "Refining and taking a section commute", "statement": "Inserting or refining knots, clamping, unclamping or elevating along any axes and then calling extract (or boundary) gives the same knots and control points as calling extract (or boundary) first and making, on the section, the calls that do not concern the removed axis, in the same order under the new numbers of the axes. The calls on the section are accepted.", "quantifier": "all well-formed objects of any dimension, all lists of calls along any axes each meeting the condition of its own property, all values meeting the condition of C15 before and after the calls, resulting knots at most degree+1 times, real arithmetic, any contents of uninitialised arrays", "why_tests_cant": "All call sequences, objects and values; equality of every control point of two different computations.", "anchors": ["igakit/nurbs.py:NURBS.extract", "igakit/nurbs.py:NURBS.boundary", "igakit/nurbs.py:NURBS.insert", "igakit/nurbs.py:NURBS.refine", "igakit/nurbs.py:NURBS.clamp", "igakit/nurbs.py:NURBS.unclamp", "igakit/nurbs.py:NURBS.elevate"]}
{"id": "C125", "title": "Refining and slicing commute", "statement": "Refining an object and then calling slice gives the same knots and control points as calling slice first and making, on the slice, the calls along the other axes, the elevations, and the insertions of those knots that lie strictly between the ends of the slice; knots inserted elsewhere along the sliced axis leave no trace. The slice has each end knot degree+1 times and between them exactly the knots of the object.", "quantifier": "all well-formed objects of any dimension, all lists of calls of insert, refine and elevate along any axes and of clamp and unclamp along the other axes, each meeting the condition of its own property on the object and on the slice, all ends meeting the condition of C25 before and after the calls, resulting knots at most degree+1 times, real arithmetic, any contents of uninitialised arrays", "why_tests_cant": "All call sequences, objects and ends of the slice; equality of every control point of two different computations.", "anchors": ["igakit/nurbs.py:NURBS.slice", "igakit/nurbs.py:NURBS.insert", "igakit/nurbs.py:NURBS.refine", "igakit/nurbs.py:NURBS.elevate"]}
