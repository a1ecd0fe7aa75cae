# Design of the igakit model

## What is being verified

`/repo/igakit` (Fortran kernel `igalib.f90`, its f2py interface `igalib.pyf`, and the
Python layer `nurbs.py`, `cad.py`, `transform.py`, `io.py`), read as text.
The model lives in `rocq/theories` and is plain Gallina.

## Architecture

* **Numbers.** Every numeric definition is parametrised by a record `Num` of
  operations only (carrier, 0, 1, +, -, *, /, <=, <, =, machine epsilon, integers).  The record
  carries no laws.  `Rn` instantiates it with Coq's real numbers: the theorems are
  about this instance (exact arithmetic, no rounding).  `Qn` instantiates it with
  rationals: it is executable, and is used for sanity tests by `vm_compute` and for
  the `_refuted` witnesses.  `Dn` instantiates it with IEEE doubles (the standard library's
  `SpecFloat`), for the properties about rounding and about files.  Order-only statements (span search) are proved for an
  arbitrary carrier with two comparison laws, which doubles satisfy (also with NaN).
  `epsilon(uu)` of Fortran is the constant 2^-52 in both instances.
* **Arrays** are functions `Z -> T` with Fortran's own index bases.  `intent(out)` arrays
  start with arbitrary contents given as an argument, so every theorem about an
  output also says that no uninitialised cell influences it.  Out-of-range reads are
  addressed by separate theorems: two inputs that agree on the in-range indices give
  equal results.
* **Loops.** `do` loops are `for_up`/`for_down` (structural recursion on the trip count),
  `do while` loops carry explicit fuel and return `None` when it runs out; the theorems
  show that the fuel suffices.
* **Vectors.** Statements such as `Qw(:,i) = alpha*Rw(:,i+1)+(1-alpha)*Rw(:,i)` act on each
  component separately with the same scalars, so the kernels are modelled for one
  component `Z -> T`.  Where components interact (RemoveKnot's distance) the model has them all.
* **Errors.** Python assertions, index errors and f2py checks are an explicit result type.
* **Control nets** are functions from a multi-index (list of Z) and a component to T, together
  with the list of sizes.  `rollaxis/reshape/kernel/reshape/rollaxis` is modelled as applying
  the kernel to each line of the net along the axis.
* **Aliasing** is modelled in a separate small heap model (ModelHeap.v for the methods of NURBS,
  ModelArgs.v for the array arguments of `cad.grid` and `cad.refine`).
* **Files** are lists of bytes; a double is its 64-bit pattern.

## Specification

`Spec.v` contains the independent specification: the textbook Cox-de Boor recursion,
the full sum over the control net, domains, multiplicities.  Theorems about kernels are
stated against it and not against model helpers.

## Trusted base

* the Coq 8.16.1 kernel;
* the standard library axioms about real numbers reported by `Print Assumptions`
  (`ClassicalDedekindReals.sig_forall_dec`, `ClassicalDedekindReals.sig_not_dec`,
  `FunctionalExtensionality.functional_extensionality_dep`, and, where the standard library's
  analysis is used, `Classical_Prop.classic`).  No axiom of our own.
* the correspondence between the model and the source, documented by the file and line
  citations on each definition.

## Not modelled

* floating-point rounding, overflow, NaN (the theorems are about exact arithmetic), except where a
  property is explicitly about double precision (C79 to C82, C85, C86, C88, C89, C94, C95, C96, C108) or holds in any arithmetic (C87, C90, C91, C92, C93, C99, C100) or 32-bit integers.  Fused or
  reordered operations a compiler may produce, and NaN payloads, are not modelled;
* of plotting: returned handles (and the scaling of glyphs done on them), and the drawing done by
  matplotlib and mayavi (what is handed to them, and the lines and polygons made of it by plot_mpl.py and
  plot_myv.py, are modelled in ModelPlot.v; keyword options and the choice of the backend in ModelPlotOpt.v);
* the f2py glue beyond its explicit `check(...)` clauses, numpy itself
  (its array primitives are replaced by their documented meaning).

## Properties

* **C01 Span search always terminates with the right span.** Models FindSpan with fuel; invariant U[low]<=u<U[high] of the bisection. *Status:* proved. *Theorems:* `C01_FindSpan_terminates_and_correct`, `C01_FindSpan_any_order`.
* **C02 Knot multiplicity count is exact.** Models FindMult's window count; counting argument on sorted eps-separated knots. *Status:* proved. *Theorems:* `C02_FindMult_exact`.
* **C03 Basis functions are the Cox-de Boor B-splines.** Models BasisFuns line by line; invariant: after pass j, N(r)=N_{k-j+r,j}(u). *Status:* proved. *Theorems:* `C03_EvalBasisFuns_is_CoxDeBoor`, `C03_given_span`.
* **C04 Basis functions sum to one.** Induction on the degree over the polynomial pieces of the Cox-de Boor recursion. *Status:* proved. *Theorems:* `C04_partition_of_unity`.
* **C05 Basis functions are nonnegative on the domain.** Induction on the degree. *Status:* proved. *Theorems:* `C05_basis_nonnegative`.
* **C06 Evaluation is the tensor-product spline sum.** Models Evaluate1..3 and __call__; locality of the pieces turns the full sum into the local one. *Status:* proved. *Theorems:* `C06_call_is_tensor_product`, `C06_Evaluate1`, `C06_Evaluate2`, `C06_Evaluate3`, `C06_CurvePoint`, `C06_SurfacePoint`.
* **C07 Evaluation reads only control points that exist.** Extensionality of the model on in-range indices. *Status:* proved. *Theorems:* `C07_call_reads_in_range`.
* **C08 Curves stay in the bounding box of their control points.** C04+C05 and weighted means. *Status:* proved. *Theorems:* `C08_bounding_box`.
* **C09 Clamped objects interpolate their end points.** Value of the pieces at a p-fold knot. *Status:* proved. *Theorems:* `C09_corner_interpolation`.
* **C10 Transforming then evaluating equals evaluating then transforming.** Linearity of evaluation; the matrices built by the methods are those of C48 (ProofTransform2.v). *Status:* proved. *Theorems:* `C10_transform`, `C10_translate`, `C10_scale`, `C10_rotate`, `C10_accepts`.
* **C11 Knot insertion does not change the geometry.** Boehm's basis relation by induction on the degree; the triangular scheme is iterated Boehm insertion; lifted to nets along an axis. *Status:* proved. *Theorems:* `C11_insert_keeps_geometry`, `C11_insert_unclamped_end_refuted`.
* **C12 Knot insertion bookkeeping.** Direct from the model of the knot array and of the argument checks. *Status:* proved. *Theorems:* `C12_insert_bookkeeping`.
* **C13 Knot refinement does not change the geometry.** Loop invariant: each round of RefineKnotVector is one Boehm insertion. *Status:* proved. *Theorems:* `C13_refine_keeps_geometry`, `C13_refine_unclamped_end_refuted`.
* **C14 Knot refinement bookkeeping.** Same invariant, on the knots. *Status:* proved. *Theorems:* `C14_refine_bookkeeping`.
* **C15 Corner cutting evaluates the curve.** Corner cutting is the de Boor algorithm; multiplicity cases. *Status:* proved. *Theorems:* `C15_extract_fixes_parameter`.
* **C16 Boundary extraction at a partly unclamped right end.** Expected false: refutation by computation on rationals. *Status:* proved. *Theorems:* `C16_boundary_partly_unclamped_refuted`, `C16_boundary_values`.
* **C17 Clamping does not change the geometry.** Clamping is Boehm insertion followed by dropping end control points. *Status:* proved. *Theorems:* `C17_clamp`.
* **C18 Unclamping does not change the geometry.** Each pass inverts one Boehm insertion. *Status:* proved. *Theorems:* `C18_unclamp`.
* **C19 Degree elevation does not change the geometry.** Models DegreeElevate phase by phase; polar forms (blossoms): Bezier extraction, elevation and knot removal each produce the values of the elevated polar form at the right knot windows. False from degree 10 on (early exit of the removal loop, igalib.f90:609): refuted. *Status:* proved. *Theorems:* `C19_elevate_keeps_geometry`, `C19_elevate_high_degree_refuted`.
* **C20 Degree elevation bookkeeping.** Loop invariant on the knots written so far, independent of the control points. *Status:* proved. *Theorems:* `C20_elevate_bookkeeping`.
* **C21 Degree elevation of unclamped objects.** Expected false: refutation by computation. *Status:* proved. *Theorems:* `C21_elevate_unclamped_refuted`, `C21_elevate_left_unclamped_refuted`, `C21_elevate_out_of_bounds_refuted`.
* **C22 Knot removal undoes knot insertion.** RemoveKnot solves the Boehm relations; uniqueness. *Status:* proved. *Theorems:* `C22_kernel`, `C22_remove_undoes_insert`, `C22_remove_all`.
* **C23 Knot removal bookkeeping.** Loop invariants. *Status:* proved. *Theorems:* `C23_kernel`, `C23_remove_returns`, `C23_remove_bookkeeping`.
* **C24 Removal tolerance is meaningful for objects with fields.** False: the tolerance is scaled by the last column, which is the last field; two witnesses. *Status:* proved. *Theorems:* `C24_not_restored_refuted`, `C24_wrongly_removed_refuted`, `C24_negative_field`.
* **C25 Slicing restricts the geometry.** C13 plus index shift and locality. *Status:* proved. *Theorems:* `C25_slice`.
* **C26 Reversal mirrors the parameter and is an involution.** Mirror symmetry of the pieces plus continuity at knots. *Status:* proved. *Theorems:* `C26_reverse`, `C26_reverse_many`, `C26_reverse_discontinuous_refuted`.
* **C27 Remapping is an affine change of parameter.** Affine invariance of the pieces. *Status:* proved. *Theorems:* `C27_remap`.
* **C28 Transposing permutes parameters.** Permutation of finite sums. *Status:* proved. *Theorems:* `C28_swap`, `C28_transpose`, `C28_transpose_default`, `C28_transpose_negative_refuted`.
* **C29 Copies are independent, clones share.** Arrays have locations, objects refer to them (ModelHeap.v, every method of NURBS). A frame invariant kept by every step of every method (keeps in ProofHeap.v), induction over the sequence of calls. Refuted by computation: refine with an array of the object as argument. An array is one location: views of parts of an array are not modelled as arguments. *Status:* proved. *Theorems:* `C29_refuted`, `C29_copy`, `C29_others`, `C29_independent`, `C29_clone`.
* **C30 Methods do not modify their arguments.** The same invariant; refine's sort is followed through the store (refine_sorts in ProofHeap6.v). Refuted by computation. *Status:* proved. *Theorems:* `C30_refuted`, `C30_arguments`, `C30_refine`.
* **C31 The constructor establishes the class invariant.** Model of __init__ as a result type. *Status:* proved. *Theorems:* `C31_constructor_invariant`.
* **C32 Every constructed object can be evaluated safely.** Expected false: witness. *Status:* proved. *Theorems:* `C32_too_few_points_refuted`, `C32_span_search_diverges_refuted`, `C07_call_reads_in_range`.
* **C33 Points, weights and fields read back what was given.** Model of __init__ and the accessors. *Status:* proved. *Theorems:* `C33_constructor_reads_back`.
* **C34 Default control net is the identity map.** Marsden-type identity: sum of Greville abscissae times basis is u. *Status:* proved. *Theorems:* `C34_default_is_identity`.
* **C35 Greville abscissae are ordered and inside the domain.** Direct; C35_iga says the same of iga.Greville (any knot array, accepted lengths included). *Status:* proved. *Theorems:* `C35_greville`, `C35_iga`.
* **C36 Derivatives of basis functions are true derivatives.** Models DersBasisFuns line by line; invariants of the two-row table of coefficients; derivatives with the standard library's derivable_pt_lim. *Status:* proved. *Theorems:* `C36_basis_derivatives`, `C36_zero_above_degree`.
* **C37 Derivative arithmetic does not overflow.** False: 13!/1! exceeds 2^31 (gfortran default integer, wrap-around assumed). A copy of DersBasisFuns with every product of r reduced to 32 bits (ModelInt32.v) is compared with the exact one. *Status:* proved. *Theorems:* `C37_overflow_refuted`, `C37_no_overflow`.
* **C38 Rational derivatives satisfy the Leibniz rule up to order three.** Models TensorProd, Rationalize, Interpolate, the kernels and the methods; the sums over local nodes are derivatives of polynomial pieces; the quotient rule by derivable_pt_lim. *Status:* proved. *Theorems:* `C38_derivatives`, `C38_gradient`, `C38_hessian`, `C38_own_derivatives`.
* **C39 Rational fourth derivatives satisfy the Leibniz rule.** False: the term R3(i,j,k)*W1(l) is missing in Rationalize (igalib.f90:925-940). Witness over the reals; the error is characterised. *Status:* proved. *Theorems:* `C39_fourth_refuted`, `C39_fourth_characterised`, `C39_equal_weights`.
* **C40 Fourth derivatives of curves.** False: TensorProd1 uses iN(ia,3) for order four (igalib.f90:687). Witness over the reals. *Status:* proved. *Theorems:* `C40_fourth_refuted`, `C40_fourth_is_third`.
* **C41 Tensor-product derivative tables are right.** Case analysis on the modelled tables. *Status:* proved. *Theorems:* `C41_tables2`, `C41_tables3`.
* **C42 Derivatives of constants vanish.** Sums through the model of Rationalize and Interpolate. *Status:* proved. *Theorems:* `C42_constant`.
* **C43 Mapped gradients of the coordinates are the identity.** Models GeometryMap, Determinant, Inverse; cofactor identities by field. *Status:* proved. *Theorems:* `C43_identity`, `C43_mapped_gradient`.
* **C44 Knot vector generator.** Loop invariants give a closed form of every knot. *Status:* proved. *Theorems:* `C44_clamped`, `C44_wrapped`.
* **C45 Span enumeration.** Loop invariants on CountSpans and SpanIndex; both list the same indices when no span is shorter than eps. *Status:* proved. *Theorems:* `C45_spans`.
* **C46 Span enumeration with degenerate knots.** False: CountSpans compares exactly, SpanIndex with epsilon, and they treat an empty last span differently; the surplus entry is uninitialised memory. *Status:* proved. *Theorems:* `C46_spans_refuted`.
* **C47 Gauss rules integrate polynomials.** Tables transcribed digit by digit as integers over 10^36; moments by computation; linearity for all polynomials, with the integral given by any antiderivative. *Status:* proved. *Theorems:* `C47_Gauss_Legendre`, `C47_Gauss_Lobatto`, `C47_points`.
* **C48 Transform algebra.** transform.py over the reals (ModelTransform.v); rotation is Rodrigues' formula, inverse by cofactors, sharing of matrices between clones in a small heap. *Status:* proved. *Theorems:* `C48_compose`, `C48_compose_accepts`, `C48_translate`, `C48_scale`, `C48_accepts`, `C48_rotate`, `C48_rotate_zero`, `C48_rotate_accepts`, `C48_turn`, `C48_axis_forms`, `C48_invert`, `C48_invert_raises`, `C48_inverse_fresh`, `C48_methods_local`, `C48_methods_value`, `C48_new`, `C48_copy`, `C48_clone`.
* **C49 Circles are circles.** Model of circle over the reals; every segment is a Bezier piece, whose point is written with the half angle tangent; segments fit together to a strictly monotone angle. *Status:* proved. *Theorems:* `C49_circle`, `C49_distance`, `C49_empty`.
* **C50 Lines and multilinear patches.** Induction on the number of axes with knots 0,0,1,1. *Status:* proved. *Theorems:* `C50_line`, `C50_multilinear`, `C50_default`.
* **C51 Extrusion adds the displacement linearly.** Translation in homogeneous coordinates, linear axis 0,0,1,1. *Status:* proved. *Theorems:* `C51_extrude`.
* **C52 Ruled surfaces interpolate the two inputs.** compat (C60), then linearity of the tensor sums (ProofRuled.v). *Status:* proved. *Theorems:* `C52_ruled`.
* **C53 Sweeping adds the two curves.** Product of sums. *Status:* proved. *Theorems:* `C53_sweep`.
* **C54 Revolution rotates the generator.** The frame built by the code takes the axis to z; a Rodrigues rotation conjugated by it is the rotation about z; polar coordinates of each control point; linearity (ProofRevolve.v). *Status:* proved. *Theorems:* `C54_revolve`.
* **C55 Revolution accepts every axis.** Refuted: for the axis (0,0,-1) the code asks for a rotation about the zero vector, which is an AssertionError (revolve_down in ProofRevolve.v). *Status:* proved. *Theorems:* `C55_axis_refuted`.
* **C56 Coons patches interpolate their boundary curves.** compat and ruled of both pairs, transpose, bilinear, compat of the three surfaces (the common domain contains [0,1], so knots stay apart), linearity (ProofCoons.v). *Status:* proved. *Theorems:* `C56_coons`, `C56_boolean_sum`.
* **C57 Coons patches with weighted corners.** Refuted by computation in exact rationals: four straight sides, corner of weight 2. *Status:* proved. *Theorems:* `C57_weighted_corner_refuted`.
* **C58 Joining keeps both pieces.** compat on the other axes, clamping, shifting, elevation of the pieces (ProofJoin2.v); locality of the glued knots on both sides of the joint (ProofJoin.v); the bound of knot removal with the weight at the corner (ProofJoin3.v). *Status:* proved. *Theorems:* `C58_join`.
* **C59 Joining pieces with arbitrary domains.** Refuted by computation in exact rationals (the square root in the removal tolerance is a rational stand-in; no knot is removable). *Status:* proved. *Theorems:* `C59_domain_refuted`.
* **C60 Compatible objects share degree and knots.** remap, elevate and refine steps composed per axis and per object (record moves in ProofCompat1.v); merged break lists and multiplicities (ProofCompat2.v); a clamped knot vector is determined by its multiplicities (ProofCompat3.v). *Status:* proved. *Theorems:* `C60_compat`.
* **C61 Grid is the identity map.** KnotVector (C44) gives the uniform axes; the control net of Greville abscissae gives linear precision (curve_greville), also for wrapped knots (ProofGrid.v). SpecGrid.v says what each argument form asks for. *Status:* proved. *Theorems:* `C61_grid`.
* **C62 PetIGA files round-trip.** Files are lists of bytes, readers consume them (ModelIo.v). Every writer step is parsed back by the matching reader step (parses in ProofIo.v), Fortran order against nested loops (grid_order), np.fromfile with short input modelled. Doubles are the standard library's SpecFloat with their 64 bits (ModelFloat.v, ProofFloat.v). Not modelled: the file system, NaN payloads, imaginary parts. For the single precision formats see C108. C62_size gives the number of bytes of every file (file_size in SpecIo.v, ProofIoSize.v). *Status:* proved. *Theorems:* `C62_roundtrip`, `C62_same`, `C62_doubles`, `C62_identifier`, `C62_size`.
* **C63 PetIGA reader rejects damaged files.** A parser that succeeds on a list raises on each strict prefix (second half of parses, ProofIo.v); class ids in ProofIo2.v, numbers out of range in ProofIoBad.v. *Status:* proved. *Theorems:* `C63_rejects`, `C63_out_of_range`, `C63_short`.
* **C64 PetIGA vectors round-trip.** C order and Fortran order as index maps (ravel_c, ravel), squeeze modelled; refuted for shape + (1,). *Status:* proved. *Theorems:* `C64_refuted`, `C64_vectors`, `C64_entries`, `C64_identifier`.
* **C65 PetIGA matrices are valid CSR.** Running sums in wrapped integers; refuted with the row lengths 2^31-1, 2^31-1, 2 and no nonzeros. M+1 in the file's integer type (numpy 2). Acceptance of consistent files: ProofIoBad.v. *Status:* proved. *Theorems:* `C65_refuted`, `C65_csr`, `C65_reads`.
* **C66 VTK point order.** Fortran ravel against nested loops (flatten_grid); the file as text lines and numbers in SpecVtk.v. Values come from nrb(...), modelled by call (C25, C26). Dictionaries are given as sorted lists; text is ASCII. *Status:* proved. *Theorems:* `C66_layout`.
* **C67 Evaluation rejects parameters outside the domain.** Model of the argument check. *Status:* proved. *Theorems:* `C67_domain_check`.
* **C68 Evaluating with and without fields agrees.** Direct. *Status:* proved. *Theorems:* `C68_fields_agree`, `C68_stored_fields`.
* **C69 Basis tables for assembly.** Loop invariant for the span list; derivative tables by C36's lemma. *Status:* proved. *Theorems:* `C69_BasisData`.
* **C70 Basis tables for collocation.** As C69. *Status:* proved. *Theorems:* `C70_BasisDataCol`.
* **C71 Breaks and their multiplicities.** unique = sort and drop repetitions; counts by the window lemma for FindMult. *Status:* proved. *Theorems:* `C71_breaks`.
* **C72 Interpolation nodes.** Induction on the list of breaks. *Status:* proved. *Theorems:* `C72_lagrange`, `C72_lobatto`.
* **C73 Binomial coefficients of degree elevation do not overflow.** False at n=30; complete enumeration of n <= 29. *Status:* proved. *Theorems:* `C73_overflow_refuted`, `C73_no_overflow`.
* **C74 How far knot removal moves the object.** Each accepted round moves every homogeneous component by at most TOL (both sides of the solve are Boehm insertions of the new points); rounds add up. *Status:* proved. *Theorems:* `C74_remove_bound`, `C74_deviation_zero`.
* **C75 The deviation argument bounds the change of the geometry.** False: the tolerance is scaled by the norm of homogeneous coordinates; witness. *Status:* proved. *Theorems:* `C75_deviation_refuted`.
* **C76 Ruled surfaces of unclamped inputs.** Refuted by computation in exact rationals. *Status:* proved. *Theorems:* `C76_ruled_unclamped_refuted`.
* **C77 Refinement of all axes produces the requested knots.** clamp, elevate and refine composed per axis (ProofCadRefine.v, ProofCadRefine2.v); the knots are determined by their multiplicities. SpecCadRefine.v says what each argument form asks for. A scalar argument is the list of dim copies; how numpy builds its object array in Arg is not modelled. *Status:* proved. *Theorems:* `C77_refine`.
* **C78 Results do not depend on sharing.** Every method on the store is shown equal to the method on values used by all other theorems (ProofHeap2.v to ProofHeap5.v), exceptions included. *Status:* proved. *Theorems:* `C78_methods`, `C78_objects`, `C78_init`, `C78_evaluation`.
* **C79 The remapped domain is the requested one in double precision.** Refuted by computation with the IEEE operations of the standard library (Dn, ModelFloat.v); the exact version is C27. Guarded: error bounds for every new knot (ProofRound8.v, ProofRound9.v). *Status:* proved. *Theorems:* `C79_remap_refuted`, `C79_remap_close`.
* **C80 Reversal keeps the domain in double precision.** As C79; the exact version is C26. Guarded: error bounds. *Status:* proved. *Theorems:* `C80_reverse_refuted`, `C80_reverse_close`.
* **C81 Greville abscissae can be evaluated in double precision.** As C79; the exact version is C35. Guarded: error bound. *Status:* proved. *Theorems:* `C81_greville_refuted`, `C81_greville_close`.
* **C82 Compatibility in double precision.** As C79; the exact versions are C60 and C56. *Status:* proved. *Theorems:* `C82_compat_refuted`, `C82_coons_refuted`.
* **C83 Results do not depend on the unit of the parameter.** Refuted in exact rationals: the tolerance for equal knots is absolute. C11, C15, C17 and C19 hold for knots further apart than the tolerance. *Status:* proved. *Theorems:* `C83_extract_insert_refuted`, `C83_elevate_refuted`, `C83_clamp_refuted`.
* **C84 Coons patches of sides that do not meet are refused.** The corner points are those of the given sides (compat keeps them); every corner and coordinate enters the assertion (ProofCoons2.v). *Status:* proved. *Theorems:* `C84_coons_refuses`.
* **C85 Computed points are accurate in double precision.** SpecFloat's operations are shown to be within half a unit in the last place (ProofRound.v, ProofRound2.v); the error is carried through the triangular scheme of BasisFuns (products, sums and quotients of nonnegative numbers, ProofRound3.v, ProofRound4.v), the accumulation loops of Evaluate1 to Evaluate3 (ProofRound5.v, ProofRound6.v) and the final division (ProofRound7.v). The span search is exact in doubles. Statement against SpecDouble.v and SpecRound.v. *Status:* proved. *Theorems:* `C85_accuracy`.
* **C86 Knots stay sorted in double precision.** Each SpecFloat operation is shown to round to the nearest even neighbour (near, rounds in ProofRound.v, ProofRound2.v), which is a monotone map of the reals (ProofRound8.v); the formulas of remap, reverse and greville are compositions of monotone maps (ProofRound9.v). *Status:* proved. *Theorems:* `C86_remap_order`, `C86_reverse_order`, `C86_greville_order`.
* **C87 Constructors refuse unsuitable inputs.** Case analysis on the assert statements; nothing that runs before them can succeed with a wrong value (ProofRefuse.v). *Status:* proved. *Theorems:* `C87_dimension`, `C87_corners`, `C87_grid`, `C87_refine`.
* **C88 Control points at full knots come back exactly in double precision.** At such a knot one of the two families of differences in BasisFuns vanishes; the other factors cancel as fl(h*fl(w/h)), which is 1 or 1-2^-53, and fl(fl(w*x)/w)=x for these w (ProofRound10.v). Refuted by computation for surfaces and for end weights other than 1. *Status:* proved. *Theorems:* `C88_curve_exact`, `C88_surface_refuted`, `C88_weighted_refuted`.
* **C89 The box of the control points in double precision.** Refuted by computation (the surface of C88). Guarded: C85 and the exact box property (ProofRound11.v). *Status:* proved. *Theorems:* `C89_box_refuted`, `C89_box_close`.
* **C90 A point depends on its own parameters alone.** The kernels are shown equal to nested sums without tables and uninitialised entries (ProofPoint.v, relational loop rule), for an arbitrary Num; calls in ProofPoint2.v. *Status:* proved. *Theorems:* `C90_call`, `C90_single`, `C90_evaluate`.
* **C91 Local control in double precision.** The sums of C90 read only the control points of the span found; the span search is exact in doubles (ProofPoint2.v). Vocabulary in SpecPoint.v. *Status:* proved. *Theorems:* `C91_local`.
* **C92 Derivative calls return or raise.** The Fortran statement stop is modelled as the outcome ProcessStop; case analysis on the checks before it (ProofStop.v). *Status:* proved. *Theorems:* `C92_mapped_refuted`, `C92_mapped_stops`, `C92_otherwise`.
* **C93 Grid and refine leave the caller's arrays alone.** Model of the two functions over a memory of integer or object arrays (ModelArgs.v); refuted by computation in exact rationals; the guarded theorems by following every write, in any arithmetic. *Status:* proved. *Theorems:* `C93_grid_refuted`, `C93_refine_refuted`, `C93_grid_writes`, `C93_refine_writes`, `C93_grid_result`, `C93_refine_result`, `C93_refine_sequence`.
* **C94 Knot insertion in double precision.** The blending factor (u-U_i)/(U_j-U_i) is within 13 units of 2^-53 of the exact one and nonnegative, and one blend adds at most 2^-48 M + 2^-1073 (ProofRound12.v); by induction over the rounds of InsertKnot the computed net is compared with the exact one. Span, multiplicity and knots are exactly those of the insertion in real numbers (ProofRound13.v), which preserves the spline (C11); the errors of the net pass to the spline by the partition of unity, and C85 gives the computed values (ProofRound14.v). Statement against SpecRound.v and SpecRound2.v. *Status:* proved. *Theorems:* `C94_accepts`, `C94_knots`, `C94_spline`, `C94_points`, `C94_values`.
* **C95 Basis functions in double precision.** The relative error of each entry through the recurrences of BasisFuns (ProofRound4-5.v), the span of the search being exact; the sum by the partition of unity (ProofRound15.v). C95_sum_refuted shows that exactness of the sum cannot be claimed. *Status:* proved. *Theorems:* `C95_basis`, `C95_sum_refuted`.
* **C96 Control points read back in double precision.** The stored product and the quotient read back have one rounding each (ProofRound16.v); multiplication by a power of two only shifts the exponent. Refuted by computation: the point 0.1 with weight 3. Statement against SpecRound3.v. *Status:* proved. *Theorems:* `C96_points_refuted`, `C96_weights`, `C96_points`, `C96_points_unweighted`, `C96_fields`.
* **C97 Plots show the object.** Calls are tensor sums (C06), boundaries are restrictions (C16), both composed with numpy's linspace and the reversal of axes (ProofPlot4.v, ProofPlot5.v). Sides of volumes under the condition of C16 on the ends of the axes. Specification in SpecPlot.v. *Status:* proved. *Theorems:* `C97_plot_shows_the_object`, `C97_curve_shows_the_edges`, `C97_other_dimensions`.
* **C98 Knot plots show the knot points, lines and surfaces.** As C97; the reshaped array of kwire is followed through rollaxis and reshape (ProofPlot6.v). Refuted by computation for kwire with a negative axis: rollaxis counts it from the end of an array that has one axis more. ksurf under the condition of C15 on the breaks. *Status:* proved. *Theorems:* `C98_kpoint`, `C98_kwire`, `C98_ksurf`, `C98_kwire_negative_axis_refuted`.
* **C99 Grids are drawn completely and without extra lines.** The lists of segments and polygons are characterised by induction over the arrays and their cells (ProofPlot.v to ProofPlot3.v, ProofPlot7.v), for an arbitrary Num. *Status:* proved. *Theorems:* `C99_mayavi_lines`, `C99_mayavi_faces`, `C99_matplotlib_lines`, `C99_mayavi_rejects`, `C99_matplotlib_faces`, `C99_control_net`, `C99_control_points`.
* **C100 Points and vectors with missing coordinates.** Case analysis on the shape (ProofPlot7.v). *Status:* proved. *Theorems:* `C100_points`, `C100_one_point`, `C100_quiver`.
* **C101 The geometry determines the control points.** The basis functions are shown linearly independent on the domain: on a nonempty span the pieces are independent polynomials (induction on the degree through the derivative formula), and a basis function whose support is not a point meets the domain in a nonempty span (BIndep.v); tensor products by induction over the axes; from calls to the homogeneous spline by C06 (ProofUniq.v, ProofUniq2.v). *Status:* proved. *Theorems:* `C101_homogeneous`, `C101_evaluation`.
* **C102 The order of refinements does not matter.** Each operation keeps the homogeneous spline (C11, C13, C17, C18, C19), so that C101 gives equal control points as soon as the knots are equal; the knots after each operation are determined by multiplicities (ProofUniq.v, ProofUniq2.v). The commutation theorems also show that the other order is accepted. *Status:* proved. *Theorems:* `C102_path_independent`, `C102_different_axes`, `C102_insert_order`, `C102_insert_splits`, `C102_refine_is_inserts`, `C102_clamp_undoes_unclamp`, `C102_elevate_splits`.
* **C103 Smoothness across knots.** The m-th derivatives of a basis function on the pieces left and right of a knot agree there while multiplicity+m <= p: the derivative is a combination of basis functions of degree p-m, and those join continuously (B_cont); hence the derivative, taken on whichever closed span contains the parameter, is continuous (gder_clos, ProofSmooth.v). This passes through tensor sums and the quotient rule (ProofSmooth2.v); the one-sided derivatives are glued (dl_glue). Specification in SpecSmooth.v; API level in ProofSmooth3.v and ProofSmooth4.v. *Status:* proved. *Theorems:* `C103_continuous`, `C103_derivatives_continuous`, `C103_derivatives_at_knots`.
* **C104 Local convex hull.** The coefficients are the rational basis functions: basis values times weights over the weight function (ProofShape2.v, call_hull); nonnegativity, locality and sum one come from the tensor product of B-splines. Specification in SpecShape.v. *Status:* proved. *Theorems:* `C104_convex_hull`.
* **C105 A curve does not oscillate more than its control polygon.** Inserting one knot does not create sign changes among control values, since each new control value is a convex combination of two neighbours (ProofShape.v, step_alt); after inserting every parameter up to full multiplicity the values on the curve are control values (full_value, insert_all). The weights are positive, so a side of a plane is the sign of a nonrational curve (ProofShape2.v). Monotonicity follows by moving the plane a little. *Status:* proved. *Theorems:* `C105_variation`, `C105_monotone`.
* **C106 End tangents of clamped curves.** At a clamped end only the first or last two basis functions have a nonzero derivative (end_slope); the quotient rule gives the factor of weights (ProofShape3.v). *Status:* proved. *Theorems:* `C106_start`, `C106_end`.
* **C107 Derivatives depend on the geometry only.** The derivative computed at a parameter is the one-sided derivative of the piece on the span found there (gD, C103). The pieces of both objects are equal as functions on a one-sided neighbourhood (same side at both: right, except at the end of the domain), so all derivatives at the parameter agree (gD_alike, ProofDerGeom.v); evaluation gives equal quotients by C06. Mapped gradients: the Jacobian and its inverse are built from equal values. Remapping: chain rule for the affine map (gD_remap, ProofDerGeom2.v). Constant components: C101 applied to the object with the constant put in. *Status:* proved. *Theorems:* `C107_evaluation`, `C107_refinement`, `C107_calls`, `C107_constant`, `C107_remap`.
* **C108 PetIGA files in single precision.** Singles are SpecFloat numbers with 24 bits and their 32 bits (ModelSingle.v); a double is rounded by binary_round 24 128, of which the nearest-number and exactness properties are proved in ProofSgl.v and ProofSgl2.v. The round trip of C62 is redone for formats that round (ProofIo7.v). Same file again: (q*w)/w = q in doubles for singles q and w, because the product of two singles is a double (times_over, ProofSgl3.v). Not modelled: files without control net (whose Greville net io.py keeps in singles), numbers of 2^127 and above. *Status:* proved. *Theorems:* `C108_roundtrip`, `C108_doubles`, `C108_nearest`, `C108_monotone`, `C108_again`, `C108_size`.
* **C109 Derivatives of reversed and transposed objects.** gD_move (ProofDerMove.v): two objects that agree under a map of the parameters that is affine along each axis, or permutes the axes, have the same derivatives up to the scale factors, provided one can move along each axis to a side on which both keep their spans. Transposition and exchange permute (ProofDerMove3.v). For a reversal the sides agree at end points and between knots; at an inner knot the span to the left is used, and the pieces on both sides have the same derivatives there if the multiplicity allows (Qd_link1, gD_mirror, ProofDerMove2.v). The condition is necessary: C109_knot_refuted is a polygon with edges of different lengths. *Status:* proved. *Theorems:* `C109_transpose`, `C109_swap`, `C109_reverse`, `C109_knot_refuted`.
* **C110 Mapped gradients do not depend on the parametrisation.** The mapped gradient G solves G J = g with J the Jacobian matrix and g the gradient in the parameters (C43). C107 and C109 relate g before and after the operation, and, applied to the object without its fields (trunc), relate J: columns are permuted and scaled by nonzero factors. So the new matrix is regular too (det_move), both systems have the same unique solution (unique_solution, by cofactors), ProofDerMap.v. *Status:* proved. *Theorems:* `C110_transpose`, `C110_swap`, `C110_reverse`, `C110_remap`.
* **C111 Plot options reach the backend.** Dictionaries are partial functions; every method is modelled with the calls it makes and the exception that ends it (ModelPlotOpt.v), so that what was drawn before an exception is visible. Each default is a lookup lemma; the recursion of curve over boundaries by induction with the data of C97. plot_mpl.py: the options that remain. Three expectations are refuted. *Status:* proved. *Theorems:* `C111_points`, `C111_quiver`, `C111_cpoint`, `C111_kpoint`, `C111_cwire`, `C111_kwire`, `C111_ksurf`, `C111_curve`, `C111_surface`, `C111_plot`, `C111_cplot`, `C111_kplot`, `C111_refused`, `C111_cplot_mode`, `C111_cplot_refuted`, `C111_quiver_mpl_refuted`, `C111_mpl`, `C111_mpl_refuted`, `C111_mpl_color`, `C111_mpl_points`, `C111_mpl_lines`, `C111_mpl_surfaces`.
* **C112 Choice of the plotting backend.** State: loaded modules (shared by all plotters) and the backend of each plotter; imports are given by an arbitrary function at each call. Invariant over all sequences of calls (ps_ok, ProofPlotOpt.v). *Status:* proved. *Theorems:* `C112_use`, `C112_unknown`, `C112_names`, `C112_default`, `C112_default_fails`, `C112_kept`, `C112_once`.
* **C113 Derivatives of moved, scaled and turned objects.** The kernels are linear in the field and use the fourth component of the control points as weights only, which an affine transform keeps; the constant part drops out by C42. Mapped gradients: the chain rule of C43 for both objects, det(A J) = det A det J, and uniqueness of the solution of a regular system (ProofDerTrans.v). *Status:* proved. *Theorems:* `C113_points`, `C113_fields`, `C113_mapped`, `C113_translate`, `C113_scale`, `C113_rotate`.
* **C114 Refining replaces control points by averages.** A stochastic matrix depending on the knots only is constructed for one Boehm insertion, composed for many, restricted for clamping and slicing (ProofAvg.v); for elevation by one it is the mean, over the entries of a window of the new knots, of the matrices that insert the remaining new knots, by polar forms (ProofAvg3.v); elevation by t composes. That the code computes exactly these points follows from preservation of the geometry and uniqueness of the control net (C101). *Status:* proved. *Theorems:* `C114_insert`, `C114_refine`, `C114_clamp`, `C114_elevate`, `C114_slice`, `C114_hull`, `C114_unclamp_refuted`.
* **C115 Parts of an object have its derivatives.** A general lemma compares iterated one-sided derivatives of an object and of an object placed inside it (gD_embed, ProofDerSub.v): equal values on the part, steps to the side used by the code stay in the part. Values agree by C25 and C15, weights of the part are averages of weights (C114; corner cutting gives the value of the basis expansion). C107_calls removes the assumption on weights of the result from C107 for averaging calls. *Status:* proved. *Theorems:* `C115_slice`, `C115_extract`, `C115_boundary`, `C115_end_refuted`.
* **C116 Refining does not make the control net oscillate more.** One Boehm insertion puts each new control value between two neighbours; a sign pattern of the new values is found among the old ones by choosing, for each entry, a neighbour with its sign, and alternating signs force the choices apart (no_more_mix, ProofAvg.v). Composed and restricted along with the matrices of C114. Elevation is not covered. *Status:* proved. *Theorems:* `C116_insert`, `C116_refine`, `C116_clamp`, `C116_slice`, `C116_unclamp_refuted`.
* **C117 Refined control nets lie close to the object.** One Boehm insertion turns sums of p successive knots into sums of p successive knots (ProofAvg.v), and the matrices of C116 keep nondecreasing sequences nondecreasing; applied to L times those sums plus or minus the control values, this gives that slopes do not grow (C117_slopes). Control points with influence at one parameter then differ by a multiple of the largest span, and the point is a convex combination of them (C08), whence C117_distance with an explicit factor; bounds for slopes, weights and coordinates of the original net are kept by all calls (C117_converges). Elevation and unclamp are not covered. *Status:* proved. *Theorems:* `C117_slopes`, `C117_distance`, `C117_converges`.
* **C118 An object cut in two can be joined again.** The knots of the two slices are knots of the object or the ends (slice_from, ProofCutJoin.v), remapping by the length of the second piece is a shift, so the pieces meet in the sense of C58 (continues, SpecJoin.v) with other axes that already agree; C25, C27 and C58 are then composed. The tolerance is that of the knot removal at the end of join, which may remove knots of the original object at u as well if that changes it by less. Real arithmetic. *Status:* proved. *Theorems:* `C118_cut_join`.
* **C119 Refining and transforming commute.** The transformed object is an object over the same knots whose homogeneous spline is the image of the original one under a map of components. Whether a call is accepted and what it does to the knots depend on the knots only (ProofEquiv.v, eq_op_ok, eq_after), and each call keeps the spline; so after the calls both results lie over the same knots and have the same spline, and by C101 the same control points. The same argument with the identity map gives the second part. Real arithmetic. *Status:* proved. *Theorems:* `C119_transform`, `C119_translate`, `C119_scale`, `C119_rotate`, `C119_data`.
* **C120 Sections in double precision.** CurvePntByCornerCut and InsertKnot with r = p-s run the same triangular scheme on the same numbers (ProofLayer.v), which gives the layer in any arithmetic. In doubles the span and the multiplicity found are those of the reals (ProofRound13.v); the exact spline of the refined object at a knot of multiplicity p is its layer there (ProofRound17.v), so the bounds of C94 for insertion carry over to the section. At clamped ends the code copies the layer. Doubles as in the other double precision properties: stdlib SpecFloat, round to nearest even, no contraction. *Status:* proved. *Theorems:* `C120_layer`, `C120_accepts`, `C120_net`, `C120_spline`, `C120_points`, `C120_boundary`.
* **C121 Refining and renumbering axes commute.** The relation between an object and the one with renumbered axes (equal knots along corresponding axes, equal homogeneous coordinates at permuted parameters; turned, ProofTurn.v) is kept by every call (turned_step, with the argument of C119), and determines the stored data (uniqueness of the control net, C101). *Status:* proved. *Theorems:* `C121_swap`, `C121_transpose`.
* **C122 Refining and changing the parameter commute.** The relation between an object and one whose knots along one axis are moved by an increasing affine function (moved, ProofMove.v) is kept by every call: the multiplicities, the clamped and the periodic ends of the result move along (after_g), and the calls are accepted (moved_accepts); the relation determines the stored data (uniqueness of the control net, C101). *Status:* proved. *Theorems:* `C122_call`, `C122_calls`.
* **C123 Refining and reversing commute.** The relation between an object and one whose knots along one axis are mirrored (flipped, ProofFlip.v) is kept by every call made at the other end (flipped_step), because multiplicities, clamped and periodic ends are mirrored along (after_g); the conditions of the calls are symmetric except the guard of elevate for degrees above 9 (flip_ok), so the calls are accepted (flipped_runs); the relation determines the stored data (C101). *Status:* proved. *Theorems:* `C123_calls`, `C123_any_degree`.
* **C124 Refining and taking a section commute.** The relation between an object and a section of it (cut, ProofSection.v: axes equal up to renumbering, sums equal at the fixed parameter) is kept by a call along the removed axis with the section unchanged (cut_along) and by the same call on both along any other axis (cut_across, which also proves acceptance); the relation determines the stored data (C101). *Status:* proved. *Theorems:* `C124_extract`, `C124_boundary`.
* **C125 Refining and slicing commute.** The multiplicity of every knot of a slice is computed (slice_mults, ProofPart.v). The relation between an object and a slice of it (part: multiplicities along the sliced axis, equal other axes, equal sums on the smaller box) is kept by the calls (part_step, part_outside) and determines the stored data (C101). *Status:* proved. *Theorems:* `C125_slice`, `C125_knots`.
