{
 "claims": [
  {
   "property": "C01",
   "status": "proved",
   "theorems": [
    "C01_FindSpan_terminates_and_correct",
    "C01_FindSpan_any_order"
   ],
   "note": "Termination and result for every array over the reals and over any carrier with two comparison laws."
  },
  {
   "property": "C02",
   "status": "proved",
   "theorems": [
    "C02_FindMult_exact"
   ],
   "note": "Exact arithmetic; knots different from u at least 2^-52 away."
  },
  {
   "property": "C03",
   "status": "proved",
   "theorems": [
    "C03_EvalBasisFuns_is_CoxDeBoor",
    "C03_given_span"
   ],
   "note": "Exact arithmetic, well-formed knots."
  },
  {
   "property": "C04",
   "status": "proved",
   "theorems": [
    "C04_partition_of_unity"
   ],
   "note": ""
  },
  {
   "property": "C05",
   "status": "proved",
   "theorems": [
    "C05_basis_nonnegative"
   ],
   "note": ""
  },
  {
   "property": "C06",
   "status": "proved",
   "theorems": [
    "C06_call_is_tensor_product",
    "C06_Evaluate1",
    "C06_Evaluate2",
    "C06_Evaluate3",
    "C06_CurvePoint",
    "C06_SurfacePoint"
   ],
   "note": "Compiled evaluators and the Python call layer; rational quotient and fields included. Exact arithmetic."
  },
  {
   "property": "C07",
   "status": "proved",
   "theorems": [
    "C07_call_reads_in_range"
   ],
   "note": "For any number carrier with two comparison laws (also with NaN): the outcome depends only on knots and control values with valid indices."
  },
  {
   "property": "C08",
   "status": "proved",
   "theorems": [
    "C08_bounding_box"
   ],
   "note": "Positive weights."
  },
  {
   "property": "C09",
   "status": "proved",
   "theorems": [
    "C09_corner_interpolation"
   ],
   "note": "Each axis clamped at the chosen end."
  },
  {
   "property": "C10",
   "status": "proved",
   "theorems": [
    "C10_transform",
    "C10_translate",
    "C10_scale",
    "C10_rotate",
    "C10_accepts"
   ],
   "note": "Affine matrices, nonzero weight function; the methods translate (move), scale and rotate."
  },
  {
   "property": "C11",
   "status": "proved",
   "theorems": [
    "C11_insert_keeps_geometry",
    "C11_insert_unclamped_end_refuted"
   ],
   "note": "Proved for values strictly inside the domain or at a clamped end. False of the code at an unclamped end: refuted there."
  },
  {
   "property": "C12",
   "status": "proved",
   "theorems": [
    "C12_insert_bookkeeping"
   ],
   "note": "Includes exactly when the call succeeds."
  },
  {
   "property": "C13",
   "status": "proved",
   "theorems": [
    "C13_refine_keeps_geometry",
    "C13_refine_unclamped_end_refuted"
   ],
   "note": "Proved for values strictly inside the domain or already p-fold. False of the code at an unclamped end: refuted there."
  },
  {
   "property": "C14",
   "status": "proved",
   "theorems": [
    "C14_refine_bookkeeping"
   ],
   "note": "Includes exactly when the call succeeds."
  },
  {
   "property": "C15",
   "status": "proved",
   "theorems": [
    "C15_extract_fixes_parameter"
   ],
   "note": "At the right end: multiplicity 1 or at least the degree."
  },
  {
   "property": "C16",
   "status": "proved",
   "theorems": [
    "C16_boundary_partly_unclamped_refuted",
    "C16_boundary_values"
   ],
   "note": "The property is false of the code: refuted by a degree-3 object made by unclamp with continuity 1. The guarded theorem covers the remaining cases."
  },
  {
   "property": "C17",
   "status": "proved",
   "theorems": [
    "C17_clamp"
   ],
   "note": "Values, knots, success, idempotence."
  },
  {
   "property": "C18",
   "status": "proved",
   "theorems": [
    "C18_unclamp"
   ],
   "note": "Values, knots, success."
  },
  {
   "property": "C19",
   "status": "proved",
   "theorems": [
    "C19_elevate_keeps_geometry",
    "C19_elevate_high_degree_refuted"
   ],
   "note": "Proved for degrees up to 9 at any multiplicities, and for every degree when multiplicities grow by at most one from one interior knot to the next (elev_guard). False of the code from degree 10 on without that: refuted. Knots equal or more than eps apart."
  },
  {
   "property": "C20",
   "status": "proved",
   "theorems": [
    "C20_elevate_bookkeeping"
   ],
   "note": "All degrees and multiplicities; knots equal or more than eps apart."
  },
  {
   "property": "C21",
   "status": "proved",
   "theorems": [
    "C21_elevate_unclamped_refuted",
    "C21_elevate_left_unclamped_refuted",
    "C21_elevate_out_of_bounds_refuted"
   ],
   "note": "The property is false of the code: refuted (wrong geometry, unwritten knots, a write past the end of the array)."
  },
  {
   "property": "C22",
   "status": "proved",
   "theorems": [
    "C22_kernel",
    "C22_remove_undoes_insert",
    "C22_remove_all"
   ],
   "note": "The kernel for every tolerance >= 0; the methods for objects whose last component (the weights if there are no fields) is nonnegative. C24 shows what happens otherwise."
  },
  {
   "property": "C23",
   "status": "proved",
   "theorems": [
    "C23_kernel",
    "C23_remove_returns",
    "C23_remove_bookkeeping"
   ],
   "note": "Values at distance more than eps from other knots, multiplicity at most p+1."
  },
  {
   "property": "C24",
   "status": "proved",
   "theorems": [
    "C24_not_restored_refuted",
    "C24_wrongly_removed_refuted",
    "C24_negative_field"
   ],
   "note": "The property is false of the code: refuted twice. C24_negative_field: with a last field that is negative everywhere nothing is ever removed. C22 is the guarded version."
  },
  {
   "property": "C25",
   "status": "proved",
   "theorems": [
    "C25_slice"
   ],
   "note": "Objects continuous along the axis (interior multiplicity at most the degree); includes exactly when the call succeeds."
  },
  {
   "property": "C26",
   "status": "proved",
   "theorems": [
    "C26_reverse",
    "C26_reverse_many",
    "C26_reverse_discontinuous_refuted"
   ],
   "note": "Objects continuous along the axis; without continuity refuted."
  },
  {
   "property": "C27",
   "status": "proved",
   "theorems": [
    "C27_remap"
   ],
   "note": ""
  },
  {
   "property": "C28",
   "status": "proved",
   "theorems": [
    "C28_swap",
    "C28_transpose",
    "C28_transpose_default",
    "C28_transpose_negative_refuted"
   ],
   "note": "Permutations given by nonnegative axis numbers; a refutation shows what negative numbers do."
  },
  {
   "property": "C29",
   "status": "proved",
   "theorems": [
    "C29_refuted",
    "C29_copy",
    "C29_others",
    "C29_independent",
    "C29_clone"
   ],
   "note": "False of the code in one case: an array of the object passed to refine of any object is sorted in place (refuted). The other theorems hold for all calls and writes, with that argument excluded."
  },
  {
   "property": "C30",
   "status": "proved",
   "theorems": [
    "C30_refuted",
    "C30_arguments",
    "C30_refine"
   ],
   "note": "The property is false of the code: refine sorts the caller's array (refuted). Every other call leaves all arrays alone, and refine leaves the same numbers sorted."
  },
  {
   "property": "C31",
   "status": "proved",
   "theorems": [
    "C31_constructor_invariant"
   ],
   "note": ""
  },
  {
   "property": "C32",
   "status": "proved",
   "theorems": [
    "C32_too_few_points_refuted",
    "C32_span_search_diverges_refuted",
    "C07_call_reads_in_range"
   ],
   "note": "The property is false of the code: refuted. C07 is the guarded version for objects with enough points."
  },
  {
   "property": "C33",
   "status": "proved",
   "theorems": [
    "C33_constructor_reads_back"
   ],
   "note": ""
  },
  {
   "property": "C34",
   "status": "proved",
   "theorems": [
    "C34_default_is_identity"
   ],
   "note": ""
  },
  {
   "property": "C35",
   "status": "proved",
   "theorems": [
    "C35_greville",
    "C35_iga"
   ],
   "note": ""
  },
  {
   "property": "C36",
   "status": "proved",
   "theorems": [
    "C36_basis_derivatives",
    "C36_zero_above_degree"
   ],
   "note": "True derivatives (standard library), well-formed knots, exact arithmetic."
  },
  {
   "property": "C37",
   "status": "proved",
   "theorems": [
    "C37_overflow_refuted",
    "C37_no_overflow"
   ],
   "note": "The property is false of the code: refuted at degree 13, order 12. Proved for degrees up to 12 at any order, and up to degree 75 for the orders (at most 4) the NURBS methods use."
  },
  {
   "property": "C38",
   "status": "proved",
   "theorems": [
    "C38_derivatives",
    "C38_gradient",
    "C38_hessian",
    "C38_own_derivatives"
   ],
   "note": "Values are the mixed partial derivatives of the rational field (inside spans: of the function itself; at knots: of the restriction to the spans of the point), which is stronger than the Leibniz identities."
  },
  {
   "property": "C39",
   "status": "proved",
   "theorems": [
    "C39_fourth_refuted",
    "C39_fourth_characterised",
    "C39_equal_weights"
   ],
   "note": "The property is false of the code: refuted. The error term is characterised for surfaces and volumes; with equal weights the value is right."
  },
  {
   "property": "C40",
   "status": "proved",
   "theorems": [
    "C40_fourth_refuted",
    "C40_fourth_is_third"
   ],
   "note": "The property is false of the code: refuted by u^3; for every curve with equal weights derivative(4) returns derivative(3)."
  },
  {
   "property": "C41",
   "status": "proved",
   "theorems": [
    "C41_tables2",
    "C41_tables3"
   ],
   "note": ""
  },
  {
   "property": "C42",
   "status": "proved",
   "theorems": [
    "C42_constant"
   ],
   "note": "All orders 1..4, also for curves."
  },
  {
   "property": "C43",
   "status": "proved",
   "theorems": [
    "C43_identity",
    "C43_mapped_gradient"
   ],
   "note": "Also the chain rule for every field."
  },
  {
   "property": "C44",
   "status": "proved",
   "theorems": [
    "C44_clamped",
    "C44_wrapped"
   ],
   "note": "Exact index block of every distinct knot; periodicity for wrap=True."
  },
  {
   "property": "C45",
   "status": "proved",
   "theorems": [
    "C45_spans"
   ],
   "note": ""
  },
  {
   "property": "C46",
   "status": "proved",
   "theorems": [
    "C46_spans_refuted"
   ],
   "note": "The property is false of the code: refuted twice (empty last span; knots closer than eps). C45 is the guarded version."
  },
  {
   "property": "C47",
   "status": "proved",
   "theorems": [
    "C47_Gauss_Legendre",
    "C47_Gauss_Lobatto",
    "C47_points"
   ],
   "note": "Error at most 1e-34 times the sum of the absolute coefficients, for the tabulated decimal values read exactly."
  },
  {
   "property": "C48",
   "status": "proved",
   "theorems": [
    "C48_compose",
    "C48_compose_accepts",
    "C48_translate",
    "C48_scale",
    "C48_accepts",
    "C48_rotate",
    "C48_rotate_zero",
    "C48_rotate_accepts",
    "C48_turn",
    "C48_axis_forms",
    "C48_invert",
    "C48_invert_raises",
    "C48_inverse_fresh",
    "C48_methods_local",
    "C48_methods_value",
    "C48_new",
    "C48_copy",
    "C48_clone"
   ],
   "note": "sin, cos, sqrt are the real functions; the matrix inverse is modelled by cofactors."
  },
  {
   "property": "C49",
   "status": "proved",
   "theorems": [
    "C49_circle",
    "C49_distance",
    "C49_empty"
   ],
   "note": "sin, cos, tan, sqrt, pi are the real ones. An empty sweep raises ValueError."
  },
  {
   "property": "C50",
   "status": "proved",
   "theorems": [
    "C50_line",
    "C50_multilinear",
    "C50_default"
   ],
   "note": "Cartesian and homogeneous corners, and the default corners."
  },
  {
   "property": "C51",
   "status": "proved",
   "theorems": [
    "C51_extrude"
   ],
   "note": "For objects whose weight function has no zero."
  },
  {
   "property": "C52",
   "status": "proved",
   "theorems": [
    "C52_ruled"
   ],
   "note": "For clamped, continuous inputs that compat can bring to common knots (joinable in SpecCompat.v)."
  },
  {
   "property": "C53",
   "status": "proved",
   "theorems": [
    "C53_sweep"
   ],
   "note": "For nonzero weights and weight functions without zeros."
  },
  {
   "property": "C54",
   "status": "proved",
   "theorems": [
    "C54_revolve"
   ],
   "note": "For an axis that does not point straight down and nonzero weights; sin, cos, acos, atan2, hypot, sqrt, pi are the real ones."
  },
  {
   "property": "C55",
   "status": "proved",
   "theorems": [
    "C55_axis_refuted"
   ],
   "note": "The property is false of the code: the axis (0,0,-1) is rejected with AssertionError. C54_revolve is the guarded version, for every other axis."
  },
  {
   "property": "C56",
   "status": "proved",
   "theorems": [
    "C56_coons",
    "C56_boolean_sum"
   ],
   "note": "Corner weights one and sides that meet exactly; C56_boolean_sum gives the surface for any weights."
  },
  {
   "property": "C57",
   "status": "proved",
   "theorems": [
    "C57_weighted_corner_refuted"
   ],
   "note": "The property is false of the code: with a corner of weight 2 (equal in both sides) the patch does not interpolate the side. C56_coons is the guarded version."
  },
  {
   "property": "C58",
   "status": "proved",
   "theorems": [
    "C58_join"
   ],
   "note": "The second domain must start at 0 (see C59); the tolerance is that of the knot removal at the joint; sqrt is the real one."
  },
  {
   "property": "C59",
   "status": "proved",
   "theorems": [
    "C59_domain_refuted"
   ],
   "note": "The property is false of the code: with a second domain [1,3] the first span of the second piece is stretched. C58_join is the guarded version."
  },
  {
   "property": "C60",
   "status": "proved",
   "theorems": [
    "C60_compat"
   ],
   "note": "For clamped, continuous inputs; knots mapped to the common domain equal or more than eps apart; elevation within the guard of C21."
  },
  {
   "property": "C61",
   "status": "proved",
   "theorems": [
    "C61_grid"
   ],
   "note": "For all spans >= 1, degrees >= 1, continuities (negative ones count from the degree), limits lo < hi, wrapped or not; also that the knots are the ones asked for."
  },
  {
   "property": "C62",
   "status": "proved",
   "theorems": [
    "C62_roundtrip",
    "C62_same",
    "C62_doubles",
    "C62_identifier",
    "C62_size"
   ],
   "note": "Any arithmetic and any lossless number format (the four double precision formats proved lossless on doubles). Exact equality of the fields is in exact arithmetic: the code divides and multiplies by the weight, which rounds in doubles."
  },
  {
   "property": "C63",
   "status": "proved",
   "theorems": [
    "C63_rejects",
    "C63_out_of_range",
    "C63_short"
   ],
   "note": "Every strict prefix, every wrong class id and every dimension, degree, number of knots, of coordinates or of fields out of range raises; a file shorter than its identifier raises IndexError."
  },
  {
   "property": "C64",
   "status": "proved",
   "theorems": [
    "C64_refuted",
    "C64_vectors",
    "C64_entries",
    "C64_identifier"
   ],
   "note": "The property is false of the code for arrays with one component per point, whose last axis is dropped (refuted). Guarded theorem for all other shapes; the entries are always kept in order."
  },
  {
   "property": "C65",
   "status": "proved",
   "theorems": [
    "C65_refuted",
    "C65_csr",
    "C65_reads"
   ],
   "note": "The property is false of the code: row lengths are summed in the file's integers, and wrapped sums are accepted (refuted). Guarded theorem as far as the sums fit; files made of consistent parts are read and give these parts, truncated ones are rejected (C65_reads)."
  },
  {
   "property": "C66",
   "status": "proved",
   "theorems": [
    "C66_layout"
   ],
   "note": "The complete file: header, dimensions, points or coordinates, scalars and vectors, for any sampler that returns nonempty lists."
  },
  {
   "property": "C67",
   "status": "proved",
   "theorems": [
    "C67_domain_check"
   ],
   "note": ""
  },
  {
   "property": "C68",
   "status": "proved",
   "theorems": [
    "C68_fields_agree",
    "C68_stored_fields"
   ],
   "note": ""
  },
  {
   "property": "C69",
   "status": "proved",
   "theorems": [
    "C69_BasisData"
   ],
   "note": ""
  },
  {
   "property": "C70",
   "status": "proved",
   "theorems": [
    "C70_BasisDataCol"
   ],
   "note": ""
  },
  {
   "property": "C71",
   "status": "proved",
   "theorems": [
    "C71_breaks"
   ],
   "note": ""
  },
  {
   "property": "C72",
   "status": "proved",
   "theorems": [
    "C72_lagrange",
    "C72_lobatto"
   ],
   "note": ""
  },
  {
   "property": "C73",
   "status": "proved",
   "theorems": [
    "C73_overflow_refuted",
    "C73_no_overflow"
   ],
   "note": "The property is false of the code: refuted at Bin(30,15). Exact for final degrees up to 29."
  },
  {
   "property": "C74",
   "status": "proved",
   "theorems": [
    "C74_remove_bound",
    "C74_deviation_zero"
   ],
   "note": "Homogeneous and Cartesian bounds; with deviation 0 the object evaluates exactly as before."
  },
  {
   "property": "C75",
   "status": "proved",
   "theorems": [
    "C75_deviation_refuted"
   ],
   "note": "The property is false of the code: refuted (no fields, deviation 1/1000, a point moves by 0.4). C74 is what holds."
  },
  {
   "property": "C76",
   "status": "proved",
   "theorems": [
    "C76_ruled_unclamped_refuted"
   ],
   "note": "The property is false of the code: compat leaves knots outside the domain different, ruled takes those of the first input. C52_ruled is the guarded version."
  },
  {
   "property": "C77",
   "status": "proved",
   "theorems": [
    "C77_refine"
   ],
   "note": "Distinct knots (also after the cuts) more than eps apart, interior multiplicities at most the degree, elevation within the guard of C21."
  },
  {
   "property": "C78",
   "status": "proved",
   "theorems": [
    "C78_methods",
    "C78_objects",
    "C78_init",
    "C78_evaluation"
   ],
   "note": "For every method and constructor of NURBS modelled; results equal in shape, knots and entries."
  },
  {
   "property": "C79",
   "status": "proved",
   "theorems": [
    "C79_remap_refuted",
    "C79_remap_close"
   ],
   "note": "The property is false of the code: remap(0,0,1) of the domain [0,49] ends below 1 (refuted, IEEE doubles). True in exact arithmetic: C27_remap. What holds in doubles: the start is exact and every knot is accurate (C79_remap_close)."
  },
  {
   "property": "C80",
   "status": "proved",
   "theorems": [
    "C80_reverse_refuted",
    "C80_reverse_close"
   ],
   "note": "The property is false of the code: reversal moves the domain [0.2,0.5] (refuted, IEEE doubles). True in exact arithmetic: C26_reverse. What holds in doubles: every knot is accurate, and a domain starting at 0 is kept (C80_reverse_close)."
  },
  {
   "property": "C81",
   "status": "proved",
   "theorems": [
    "C81_greville_refuted",
    "C81_greville_close"
   ],
   "note": "The property is false of the code: the last abscissa of a cubic on [0,0.1] lies outside (refuted, IEEE doubles). True in exact arithmetic: C35_greville. What holds in doubles: every abscissa is accurate (C81_greville_close)."
  },
  {
   "property": "C82",
   "status": "proved",
   "theorems": [
    "C82_compat_refuted",
    "C82_coons_refuted"
   ],
   "note": "The property is false of the code (both refuted, IEEE doubles). True in exact arithmetic: C60_compat, C56_coons."
  },
  {
   "property": "C83",
   "status": "proved",
   "theorems": [
    "C83_extract_insert_refuted",
    "C83_elevate_refuted",
    "C83_clamp_refuted"
   ],
   "note": "The property is false of the code: knots closer than 2^-52 are taken for equal whatever the size of the domain (refuted in exact rationals). C11, C15, C17, C19 hold under a separation hypothesis."
  },
  {
   "property": "C84",
   "status": "proved",
   "theorems": [
    "C84_coons_refuses"
   ],
   "note": "Every corner and coordinate."
  },
  {
   "property": "C85",
   "status": "proved",
   "theorems": [
    "C85_accuracy"
   ],
   "note": "All operations rounded to nearest even as in IEEE 754, in the order of the source."
  },
  {
   "property": "C86",
   "status": "proved",
   "theorems": [
    "C86_remap_order",
    "C86_reverse_order",
    "C86_greville_order"
   ],
   "note": "Rounding to nearest even is monotone; stated for numbers up to 2^300 and domains not shorter than 2^-300, so that nothing overflows."
  },
  {
   "property": "C87",
   "status": "proved",
   "theorems": [
    "C87_dimension",
    "C87_corners",
    "C87_grid",
    "C87_refine"
   ],
   "note": "Stated for every arithmetic; python -O removes assert statements."
  },
  {
   "property": "C88",
   "status": "proved",
   "theorems": [
    "C88_curve_exact",
    "C88_surface_refuted",
    "C88_weighted_refuted"
   ],
   "note": "The property is false of the code for surfaces and for end weights other than 1 (both refuted, IEEE doubles). It is proved for curves whose control point there has weight 1."
  },
  {
   "property": "C89",
   "status": "proved",
   "theorems": [
    "C89_box_refuted",
    "C89_box_close"
   ],
   "note": "The property is false of the code: a surface with all control points at 3 gives a corner that is not 3 (refuted, IEEE doubles). What holds: the box is left by at most the error bound of C85."
  },
  {
   "property": "C90",
   "status": "proved",
   "theorems": [
    "C90_call",
    "C90_single",
    "C90_evaluate"
   ],
   "note": "For every arithmetic, hence bit for bit in doubles."
  },
  {
   "property": "C91",
   "status": "proved",
   "theorems": [
    "C91_local"
   ],
   "note": "Finite sorted knots and parameters of the domain; control points and weights arbitrary, infinities and NaN included."
  },
  {
   "property": "C92",
   "status": "proved",
   "theorems": [
    "C92_mapped_refuted",
    "C92_mapped_stops",
    "C92_otherwise"
   ],
   "note": "The property is false of the code: mapped derivatives of order two to four execute the Fortran statement stop, for every object (refuted). All other derivative calls return or raise."
  },
  {
   "property": "C93",
   "status": "proved",
   "theorems": [
    "C93_grid_refuted",
    "C93_refine_refuted",
    "C93_grid_writes",
    "C93_refine_writes",
    "C93_grid_result",
    "C93_refine_result",
    "C93_refine_sequence"
   ],
   "note": "The property is false of the code: grid adds the degrees to negative entries of the caller's int32 continuity array, refine replaces None in the caller's object array, and the next call with the array gives another result (both refuted). Proved: these arrays, and a 0-d int32 shape array (which gets an axis), are the only ones changed, and each single call returns the result for the numbers in the arrays."
  },
  {
   "property": "C94",
   "status": "proved",
   "theorems": [
    "C94_accepts",
    "C94_knots",
    "C94_spline",
    "C94_points",
    "C94_values"
   ],
   "note": "All operations rounded to nearest even as in IEEE 754, in the order of the source."
  },
  {
   "property": "C95",
   "status": "proved",
   "theorems": [
    "C95_basis",
    "C95_sum_refuted"
   ],
   "note": "The values add up to 1 only up to rounding (C95_sum_refuted: they need not add up to 1 exactly)."
  },
  {
   "property": "C96",
   "status": "proved",
   "theorems": [
    "C96_points_refuted",
    "C96_weights",
    "C96_points",
    "C96_points_unweighted",
    "C96_fields"
   ],
   "note": "The property is false of the code: points given with weights come back changed (refuted: 0.1 with weight 3). Proved: weights come back bit for bit, points and fields within a relative error of 2^-51, and without error where the weight is a power of two or no weights are given."
  },
  {
   "property": "C97",
   "status": "proved",
   "theorems": [
    "C97_plot_shows_the_object",
    "C97_curve_shows_the_edges",
    "C97_other_dimensions"
   ],
   "note": "What is handed to the backend; for sides of volumes and edges the ends of the axes meet the condition of C16 (separated from other knots; at the right end multiplicity 1 or at least the degree)."
  },
  {
   "property": "C98",
   "status": "proved",
   "theorems": [
    "C98_kpoint",
    "C98_kwire",
    "C98_ksurf",
    "C98_kwire_negative_axis_refuted"
   ],
   "note": "The property is false of the code for kwire with an axis counted from the end: the lines join points of different lines (refuted on the unit square). Proved for kpoint, for kwire with all axes or nonnegative axes, and for ksurf with any axes whose breaks meet the condition of C15."
  },
  {
   "property": "C99",
   "status": "proved",
   "theorems": [
    "C99_mayavi_lines",
    "C99_mayavi_faces",
    "C99_matplotlib_lines",
    "C99_mayavi_rejects",
    "C99_matplotlib_faces",
    "C99_control_net",
    "C99_control_points"
   ],
   "note": "Arrays with at least two points along each axis (mayavi and faces); faces in matplotlib for arrays with two axes, others are not drawn there."
  },
  {
   "property": "C100",
   "status": "proved",
   "theorems": [
    "C100_points",
    "C100_one_point",
    "C100_quiver"
   ],
   "note": "What is handed to the backend. plot_mpl.py has no quiver3d, so that quiver fails there; this is outside the model."
  },
  {
   "property": "C101",
   "status": "proved",
   "theorems": [
    "C101_homogeneous",
    "C101_evaluation"
   ],
   "note": "In exact real arithmetic."
  },
  {
   "property": "C102",
   "status": "proved",
   "theorems": [
    "C102_path_independent",
    "C102_different_axes",
    "C102_insert_order",
    "C102_insert_splits",
    "C102_refine_is_inserts",
    "C102_clamp_undoes_unclamp",
    "C102_elevate_splits"
   ],
   "note": "In exact real arithmetic. Elevation in two steps for degrees up to 9 after the first step (beyond, C19 needs a guard); clamp after unclamp with the knots at the ends of the unclamped object separated from the others."
  },
  {
   "property": "C103",
   "status": "proved",
   "theorems": [
    "C103_continuous",
    "C103_derivatives_continuous",
    "C103_derivatives_at_knots"
   ],
   "note": "In exact real arithmetic, where the weight function does not vanish; derivatives with respect to the parameters (not mapped)."
  },
  {
   "property": "C104",
   "status": "proved",
   "theorems": [
    "C104_convex_hull"
   ],
   "note": "In exact real arithmetic."
  },
  {
   "property": "C105",
   "status": "proved",
   "theorems": [
    "C105_variation",
    "C105_monotone"
   ],
   "note": "In exact real arithmetic; curves (one parametric axis)."
  },
  {
   "property": "C106",
   "status": "proved",
   "theorems": [
    "C106_start",
    "C106_end"
   ],
   "note": "In exact real arithmetic."
  },
  {
   "property": "C107",
   "status": "proved",
   "theorems": [
    "C107_evaluation",
    "C107_refinement",
    "C107_calls",
    "C107_constant",
    "C107_remap"
   ],
   "note": "In exact real arithmetic; positive weights (after a refinement: nonzero weights, which C107_constant provides for polynomial objects)."
  },
  {
   "property": "C108",
   "status": "proved",
   "theorems": [
    "C108_roundtrip",
    "C108_doubles",
    "C108_nearest",
    "C108_monotone",
    "C108_again",
    "C108_size"
   ],
   "note": "With the control net written. The same file again: for weights that are not rounded to zero."
  },
  {
   "property": "C109",
   "status": "proved",
   "theorems": [
    "C109_transpose",
    "C109_swap",
    "C109_reverse",
    "C109_knot_refuted"
   ],
   "note": "At knots where the object is not differentiable often enough the mirrored derivative is not obtained (refuted, the derivative is the one to the right)."
  },
  {
   "property": "C110",
   "status": "proved",
   "theorems": [
    "C110_transpose",
    "C110_swap",
    "C110_reverse",
    "C110_remap"
   ],
   "note": ""
  },
  {
   "property": "C111",
   "status": "proved",
   "theorems": [
    "C111_points",
    "C111_quiver",
    "C111_cpoint",
    "C111_kpoint",
    "C111_cwire",
    "C111_kwire",
    "C111_ksurf",
    "C111_curve",
    "C111_surface",
    "C111_plot",
    "C111_cplot",
    "C111_kplot",
    "C111_refused",
    "C111_cplot_mode",
    "C111_cplot_refuted",
    "C111_quiver_mpl_refuted",
    "C111_mpl",
    "C111_mpl_refuted",
    "C111_mpl_color",
    "C111_mpl_points",
    "C111_mpl_lines",
    "C111_mpl_surfaces"
   ],
   "note": "The parts about cplot with a mode, arrows with matplotlib and options of mayavi reaching matplotlib are false of the code (refuted); the rest is proved."
  },
  {
   "property": "C112",
   "status": "proved",
   "theorems": [
    "C112_use",
    "C112_unknown",
    "C112_names",
    "C112_default",
    "C112_default_fails",
    "C112_kept",
    "C112_once"
   ],
   "note": ""
  },
  {
   "property": "C113",
   "status": "proved",
   "theorems": [
    "C113_points",
    "C113_fields",
    "C113_mapped",
    "C113_translate",
    "C113_scale",
    "C113_rotate"
   ],
   "note": ""
  },
  {
   "property": "C114",
   "status": "proved",
   "theorems": [
    "C114_insert",
    "C114_refine",
    "C114_clamp",
    "C114_elevate",
    "C114_slice",
    "C114_hull",
    "C114_unclamp_refuted"
   ],
   "note": "C114_unclamp_refuted shows only that unclamp has to be left out; nothing claimed for the five methods is refuted."
  },
  {
   "property": "C115",
   "status": "proved",
   "theorems": [
    "C115_slice",
    "C115_extract",
    "C115_boundary",
    "C115_end_refuted"
   ],
   "note": "C115_end_refuted shows only that the right end of an inner slice has to be left out."
  },
  {
   "property": "C116",
   "status": "proved",
   "theorems": [
    "C116_insert",
    "C116_refine",
    "C116_clamp",
    "C116_slice",
    "C116_unclamp_refuted"
   ],
   "note": "C116_unclamp_refuted shows only that unclamp has to be left out; nothing claimed for the four methods is refuted."
  },
  {
   "property": "C117",
   "status": "proved",
   "theorems": [
    "C117_slopes",
    "C117_distance",
    "C117_converges"
   ],
   "note": ""
  },
  {
   "property": "C118",
   "status": "proved",
   "theorems": [
    "C118_cut_join"
   ],
   "note": "Equality up to the removal tolerance of join; real arithmetic."
  },
  {
   "property": "C119",
   "status": "proved",
   "theorems": [
    "C119_transform",
    "C119_translate",
    "C119_scale",
    "C119_rotate",
    "C119_data"
   ],
   "note": "Real arithmetic; resulting knots at most degree+1 times."
  },
  {
   "property": "C120",
   "status": "proved",
   "theorems": [
    "C120_layer",
    "C120_accepts",
    "C120_net",
    "C120_spline",
    "C120_points",
    "C120_boundary"
   ],
   "note": "IEEE doubles (SpecFloat); C120_layer in any arithmetic."
  },
  {
   "property": "C121",
   "status": "proved",
   "theorems": [
    "C121_swap",
    "C121_transpose"
   ],
   "note": "Exact arithmetic; the result has every knot at most degree+1 times."
  },
  {
   "property": "C122",
   "status": "proved",
   "theorems": [
    "C122_call",
    "C122_calls"
   ],
   "note": "Exact arithmetic.  C122_call also proves that the moved call is accepted; C122_calls takes both lists of calls as accepted.  The conditions of the calls are asked for before and after remap, as the tolerance of the kernels does not scale."
  },
  {
   "property": "C123",
   "status": "proved",
   "theorems": [
    "C123_calls",
    "C123_any_degree"
   ],
   "note": "Exact arithmetic.  C123_calls proves that the calls at the other end are accepted, for degrees up to 9; C123_any_degree takes them as accepted, because the condition of C19 for degrees of 10 and more is not symmetric.  The reversed axis is continuous, as in C26."
  },
  {
   "property": "C124",
   "status": "proved",
   "theorems": [
    "C124_extract",
    "C124_boundary"
   ],
   "note": "Exact arithmetic.  The condition of C15 on the value of the section is asked for before and after the calls."
  },
  {
   "property": "C125",
   "status": "proved",
   "theorems": [
    "C125_slice",
    "C125_knots"
   ],
   "note": "Exact arithmetic.  C125_slice takes both lists of calls as accepted and proves that the refined object can be sliced.  Clamping and unclamping along the sliced axis itself are not among the calls of C125_slice."
  }
 ]
}