{
 "C08": {
  "note": "The unconditional user expectation is false of the code (C08_div_by_number_refuted)."
 },
 "C09": {
  "note": "Failure beyond 2^53 is C09_big_integers_refuted."
 },
 "C10": {
  "note": "Zero-containing divisors: C10_numpy_scalar_divide_refuted."
 },
 "C11": {
  "note": "The property a user expects is refuted; both theorems describe the actual behaviour."
 },
 "C16": {
  "note": "Inverse part refuted by a concrete interval."
 },
 "C18": {
  "note": "Fails on reachable inconsistently-classed operands (C18_reachable_mixed_product_refuted)."
 },
 "C19": {
  "note": "General claim refuted (C19_outward_refuted)."
 },
 "C20": {
  "note": "C20_mid_overflow_refuted shows the no-overflow proviso is needed."
 },
 "C24": {
  "note": "Odd powers of negative doubles: C24_pow_odd_negative_refuted."
 },
 "C25": {
  "note": "Overflowing upper endpoint: C25_exp_overflow_refuted."
 },
 "C26": {
  "note": "Endpoints up to 2^20; beyond: C26_sin_large_argument_refuted."
 },
 "C27": {
  "note": "Enclosure of the midpoint-radius form is refuted (C27_midrad_encloses_refuted)."
 },
 "C28": {
  "note": "Vectors and matrices; any number of components."
 },
 "C29": {
  "note": "Mixed int/float endpoints: C29_mixed_types_refuted."
 },
 "C31": {
  "note": "Tiny gaps: C31_disjoint_gives_nan_refuted."
 },
 "C32": {
  "note": "dist over exact reals; subset over the floating-point model (lists of elements)."
 },
 "C33": {
  "note": "Exact reals for the recognition, the margin and concavity; binary64 for what a non-negative computed value guarantees (exact when b.mid and b.rad are exact, e.g. an integer b; otherwise up to rounding_margin; weights at least 1). The unguarded binary64 claims are refuted."
 },
 "C34": {
  "note": "Exact reals for the equivalences; binary64 for what a negative computed Uni guarantees. Uss in floating point (BLAS summation order) is not modelled."
 },
 "C35": {
  "note": "Exact-real model; unguarded Uni claim refuted."
 },
 "C36": {
  "note": "The algorithm is modelled over an abstract record of number/vector operations, instantiated with binary64 lists and with exact reals. nit <= maxiter: C36_nit_at_most_maxiter_refuted."
 },
 "C37": {
  "note": "Exact-real model; random weights uniform(1,1) are the constant 1."
 },
 "C38": {
  "note": "For three or more unknowns the code transposes the multipliers and loses solutions (C38_gauss_encloses_refuted)."
 },
 "C39": {
  "note": "Kernel (binary64) model; dist, the preconditioner and the H-matrix test are arbitrary. Default box and negative limits are refuted."
 },
 "C40": {
  "note": "Kernel (binary64) model. Several unknowns: the code calls to_float on the elements, which do not have it; what follows is an arbitrary continuation in the model."
 },
 "C41": {
  "note": "Kernel (binary64) model for any dimension; off-by-one of the limit refuted."
 },
 "C42": {
  "note": "Exact reals; cvxopt is an oracle assumed truthful on the 2n problems it is given; the nu argument of the internal helper is never passed by Rohn."
 },
 "C43": {
  "note": "Exact reals; any inverse function for the settled case, exact inverses for the strongly regular case, where a large enough limit is shown to exist. The unconditional claim is refuted for the iteration limit."
 },
 "C44": {
  "note": "Exact reals; H-matrix is a hypothesis because the check in the code is too weak (refuted); the corrected check is proved exact. Matrix right-hand side: refuted beyond one equation."
 },
 "C45": {
  "note": "Exact reals; starting boxes (StartBar) and the LP solver are arguments; solutions with |x_nu| <= 1e15, the bound written into the LP. Refuted for x0 (second pass starts from x0 instead of -x0). On doubles (PssFl.v): the answer contains the solution rounded to nearest, the solution itself if the column is clear of zero; losing it otherwise is proved (floating_point_rounding_refuted)."
 },
 "C46": {
  "note": "Exact reals. The systems are handled for any m and n; slices for two unknowns (any number of equations), assuming rounding to 12 digits leaves the system unchanged, no zero rows (refuted with them) and corners more than 1e-8 apart."
 },
 "C47": {
  "note": "Exact reals; the 1e-301 is a parameter (0 in the lineqs theorems). Corners of the set are assumed more than 1e-8 apart (the tolerance of the code). Plotting is not modelled."
 },
 "C50": {
  "note": "Enlarging in-place broadcasting: C50_in_place_broadcast_refuted."
 },
 "C51": {
  "note": "wid of a plain number: C51_wid_of_number_refuted."
 },
 "C52": {
  "note": "Exact reals; numpy.linalg.solve is an argument assumed correct when it answers. Convergence of the iteration is not claimed by the property and not proved."
 },
 "C53": {
  "note": "The unconditional claim is refuted (C53_inner_refuted, C53_weighted_refuted); C53_inner_iff says exactly when it holds.",
  "status": "proved"
 },
 "C54": {
  "note": "Exact reals; aliasing of the weight argument is modelled, float rounding is not."
 },
 "C55": {
  "note": "Exact reals; numpy's root finder is an argument; the bases are defined by their recurrences. Pandas is not modelled."
 },
 "C56": {
  "note": "Full claim refuted (sign error in the comparison; weights missing in the gradient); exact characterisation of when it holds proved."
 },
 "C59": {
  "note": "Division by a zero-containing scalar interval: see the _refuted theorem."
 },
 "C60": {
  "note": "Membership of every element is refuted."
 },
 "C62": {
  "note": "Exact reals."
 },
 "C63": {
  "note": "Exact reals; the r-algorithm is the model of C36. Uni subgradients have the exception of C35."
 },
 "C64": {
  "note": "Exact reals; roots are an argument assumed to contain all real roots of the derivative."
 },
 "C65": {
  "note": "The property a user expects (no genericity condition) is false: C65_block_triangular_refuted. Termination of the sign propagation is not claimed: a run that does not end is the value PHang."
 },
 "C66": {
  "note": "Exact reals. Histories of lineqs and IntLinIncR2 calls; the calls in space share the variable and are not part of the histories."
 },
 "C67": {
  "note": "Exact reals; numpy.linalg.cond and the random choices are oracles; uses the model of Tol.maximize."
 },
 "C68": {
  "note": "Up to the calls of matplotlib; colours and axes not modelled."
 },
 "C69": {
  "note": "Exact reals (rounding to 12 decimals and BoundaryIntervals' eps taken as exact); the tolerances 1e-12 and 1e-8 are kept and appear as the conditions all_apart and separated3. The defaults that raise or lose inequalities are proved as refutations."
 },
 "C70": {
  "note": "Hull statements with exact arithmetic (around = identity); the one-window, history and dropped-equation theorems hold for any rounding / for the program's own 12 decimals. Drawing is not modelled."
 },
 "C71": {
  "note": "Elements are classical or Kaucher intervals; a scalar interval or numpy array on the left always raises, proved in C71_scalar_and_left_refuted."
 },
 "C72": {
  "note": "sum is stated for vectors; for arrays with more dimensions the pieces are numpy arrays and the sum is not an interval array."
 },
 "C73": {
  "note": "The C library is an oracle; its accuracy is a hypothesis (library_ok) met by perfect_libm. Where the scalar functions fail (C24, C25, C26 refutations) the array functions fail alike."
 },
 "C74": {
  "note": "Keys: ints, slices, one list or mask among slices, a mask of the full shape. Lists combined with ints or with other lists, and an array stored under a full int key (numpy then stores the array object as an element), are outside the model."
 },
 "C75": {
  "note": "Model: buffers, objects and variables; intervals are immutable values (no operation of the Cython classes changes one). C75_objects is a refinement of a machine in which each object has its own value, for programs without numpy handles; the other theorems hold for programs with handles too."
 },
 "C76": {
  "note": "C76_ragged_refuted records the inputs on which a user would expect a ValueError or another shape."
 }
}