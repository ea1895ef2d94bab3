import json
head = r'''# Formal model of intvalpy in Rocq (Coq 8.16.1)

This document was started before the proofs and is kept current. Section 2 says how the code is
modelled, section 3 which parts of which source file are modelled and which are not, section 4 the
trusted base, section 5 lists, per property, what is modelled and how it is proved.

## 1. Layout

* `properties.jsonl` - the English properties (ids C01...), written by `tools/mkprops.py`.
* `MANIFEST.json` - property -> theorem map, written by `tools/mkmanifest.py`.
* `rocq/theories/`
  * **model files** hold definitions only; every definition cites the file and lines of `/repo` it
    models and says where it simplifies:
    `Base.v` (results, rounding-mode monad), `PyNum.v` (Python numbers), `Kernel.v` (scalar
    intervals), `Arrays.v`, `Construct.v` (array intervals, constructors, utilities),
    `Recog.v` (Tol, Uni, Uss, LinearConstraint), `Ralgb5.v`, `Solvers.v` (Gauss, Gauss-Seidel,
    Krawczyk, Hansen-Sengupta, globopt), `Exact.v` (exact-real intervals, vectors, matrices),
    `Estim.v` (Rohn, HBR, Neumaier, ChebNorm), `EstimMat.v` (HBR with a matrix right-hand side, PPS for all components), `Boundary.v` and `BoundaryState.v` (boundary intervals, lineqs,
    IntLinIncR2/3), `Subdiff.v`, `Models.v` (WILS, ISPAE), `Pss.v` (PSS)@MOREMODEL@;
  * **specification files** `Spec.v`, `Spec*.v` hold the small independent vocabulary of the theorem
    statements (real members of an interval, united and tolerable solution sets, feasible sets,
    what it means for an oracle to answer truthfully, ...). They do not mention the model's helpers;
  * **proof files** hold lemmas (`*Proofs.v`, `*More.v`, `*Refute.v`, ...);
  * **property files** `Props_*.v` hold only the property theorems, each closed by `exact lemma.`,
    followed by `Print Assumptions` and by an `Example` that meets its hypotheses in a concrete case.
* `seeded/LOG.jsonl` - mutation experiments (`seeded/mutants.json` the edits, `tools/mutate.py` the
  driver: it seeds an edit in a scratch copy, rebuilds, and lists the theorems that lose their proof).

## 2. Modelling decisions

**Numbers.** Python numbers are `PInt Z | PFlt binary64`, `binary64` being Flocq's
`BinarySingleNaN.binary_float 53 1024`, with rounding mode as explicit machine state.
int/int arithmetic is exact, mixed arithmetic converts the int with round-half-even
(`PyLong_AsDouble`, `OverflowError` if too large), true division by zero raises
`ZeroDivisionError`, `int/int` divides in the current mode when both are below 2^53 and
half-even otherwise. `min`/`max` keep the first argument unless a later one compares strictly
smaller/larger (that is what Cython's inlined min/max does, including with NaN).
Assigning to a C `double` rounds an int half-even.

**Exceptions** are values (`res A := Ok a | Err e`). **Rounding mode** is threaded by a state
monad `M A := mode -> res A * mode`; `with_rounding` models `RoundingContext`
(enter: save + set; exit: restore also on exception).

**Dispatch.** Cython 3 semantics: `__r*__` methods exist; Python `int`/`float` on the left reach
`__radd__` etc.; numpy scalars on the left reach `__array_ufunc__`. `subset`, `proper_subset` and
`contain` use `np.bool`, which numpy has before 1.24 and from 2.0 on; the model assumes it exists.

**Loops** are structural recursion, folds, or recursion on an iteration budget that is the
program's own (`maxiter`, `N`). Where the program has no limit of its own the theorem is about every
number of passes.

**Mutable arrays.** Where in-place assignment is observable (item assignment and deletion C50, weight
arrays of WILS and ISPAE C54, the work list of PSS and globopt, the matrix rows of Gauss) the new
contents are threaded explicitly.

**libm / LAPACK / LP solvers / polynomial roots / random draws / user callbacks** are section
variables or explicit function arguments ("oracles"); whatever a theorem needs of them is a hypothesis in
its statement, and an `Example` beside it exhibits an oracle that satisfies it.

**Three levels of arithmetic.**
1. Code that uses directed interval arithmetic throughout (scalar kernel, arrays, matrix products, Gauss,
   Gauss-Seidel, Krawczyk, Hansen-Sengupta, globopt, intersection) is modelled on binary64 and integers
   themselves; the theorems speak about floating-point results.
2. `Ralgb5.v` is modelled over a record of number operations; its theorems hold for *every* instance
   of the record satisfying an order law, and are instantiated both at binary64 and at the reals.
3. Code that computes with plain numpy floats and gives no rounding guarantee of its own
   (Tol/Uni/Uss values and gradients, penalties, Rohn, HBR, Neumaier, ChebNorm, boundary intervals, Subdiff,
   WILS, ISPAE, PSS, PPS) is modelled in exact real arithmetic (`Exact.v`). Its theorems say what the algorithm
   computes with rounding errors neglected. This simplification is stated in the headers of the
   model files. `RecogFl.v` additionally has Tol and Uni in binary64: a non-negative computed Tol and a
   negative computed Uni are guarantees up to the rounding of `b.mid` and `b.rad` (`C33_floating_point_guarantee`,
   `C33_floating_point_margin`, and the same for C34), and not further (`..._refuted`).  `UssFl.v` has Uss in
   binary64, with numpy's inner product as an oracle with an error bound (`dot_within`). `PssFl.v` has PSS in binary64: the
   interval encloses the solutions rounded to nearest (`C45_floating_point`), or exactly when the column is clear of
   zero; the starting boxes and the answers of the LP solver are oracles.

**A property whose general form is false of the code** is proved in the strongest form that holds, and the
failure is proved as a theorem named `..._refuted`. The English statement in `properties.jsonl` then states the true
form and names the failure.

## 3. What is modelled and what is not

| source file (under `/repo/intvalpy`) | modelled | not modelled |
|---|---|---|
| `kernel/interval_arithmetics.pyx` | scalar intervals: endpoints, all arithmetic and reflected operators (classical, Kaucher and mixed formulas), rounding contexts, comparison, membership, dual/opp/inv/neg/pro, mid/wid/rad/mag/mig, abs, powers, `__array_ufunc__`, `__repr__` (`Repr.v`) | - |
| `kernel/real_intervals.py` | `Interval(...)` construction; array intervals: broadcasting arithmetic, `@`, items, deletion, transpose, reshape, membership, vertex, endpoint arrays, shape metadata, comparisons, iteration, `sum`, powers and numpy's elementary functions of arrays (`ArrayCmp.v`, `ArrayElem.v`), slices, lists and masks as keys (`Slices.v`), sharing of memory between objects, names and numpy handles (`Memory.v`), `__repr__` of arrays (`ArrRepr.v`) | `precision` class, an array stored under a full int key |
| `kernel/elementary_functions.py` | sqrt, exp, log, sin, cos, sign of intervals, numbers, arrays and nested lists, with libm as oracle | `np.vectorize` output type inference |
| `kernel/new_objects.py` | all | - |
| `kernel/preprocessing.py` | asinterval, intersection, `unique`, `non_repeat`, `clear_zero_rows`, `get_shape` | pandas containers |
| `kernel/utils.py` | all public functions | - |
| `kernel/abstract.py` | LinearConstraint, find_mu, dispatch of `maximize` | - |
| `kernel/ralgb5.py` | all | printing of progress |
| `kernel/visualization.py` | `IPlot.scatter`, `lineqs`, `IntLinIncR2` up to the matplotlib calls (`Plot.v`) | colours, axes, `subplots` |
| `linear/Tol.py`, `Uni.py`, `Uss.py` | value, gradient, constrained versions, maximize (exact reals); value and maximize, with or without a constraint, also on doubles (RecogFl.v, UssFl.v, RecogOpt.v, RecogOptCon.v) | - |
| `linear/Gauss.py`, `Gauss_Seidel.py` | all | - |
| `linear/Rohn.py` | tolerable and united branch (exact reals); the united branch also on doubles (RohnFl.v); the choice of the branch and the tolerable branch with Tol.maximize on doubles (RohnTol.v) | rounding in the LP solver's answers |
| `linear/HBR.py` | all, vector and matrix right-hand side (exact reals; the two inverses are oracles); the vector right-hand side also on doubles (HbrFl.v; inverses and inner products are oracles) | |
| `linear/Neumaier.py`, `ChebNorm.py` | all (exact reals); Neumaier without weights also on doubles (RohnFl.v; answer and margin in Props_NeumFl.v) | that Neumaier returns a numpy array of intervals, not an interval array, is only noted in RohnFl.v |
| `linear/boundary_intervals.py` | BoundaryIntervals, Intervals2Path, lineqs, IntLinIncR2, ChangeVariable, lineqs3D, IntLinIncR3 | drawing |
| `linear/Subdiff.py`, `PSS.py` | all | - |
| `linear/PPS.py` | all, for one component and for all of them (exact reals; Gauss, HBR, the determinant and the real solver are oracles) | |
| `linear/system_properties.py` | `ive` (`SysProps.v`) | the printed warning |
| `nonlinear/external_evaluation.py` | scalar Krawczyk and Hansen-Sengupta; the branch for several unknowns up to the call that always raises (`NewtonVec.v`) | what would follow that call |
| `nonlinear/globopt.py` | all | - |
| `nonlinear/recognizing_functional.py`, `solution_existence.py` | - | not importable (commented out in `__init__`, import a missing module) |
| `models/WILS.py`, `ISPAE.py` | weights, objectives, gradients, fit, predict, polynomial ranges; fit and predict of WILS also on doubles (WilsFl.v), values, objectives (norm inf), the reported optimum and predictions of ISPAE with monomials also on doubles (IspaeFl.v, IspaeFlObj.v, IspaeFlPred.v; the subgradient is an argument there) | sklearn-style attribute plumbing |

## 4. Trusted base

* Coq 8.16.1 kernel (and its `vm_compute`).
* Axioms of the standard library as listed by `Print Assumptions` under every theorem. The list is a
  subset of the following four for every theorem of this development:
  `ClassicalDedekindReals.sig_forall_dec`, `ClassicalDedekindReals.sig_not_dec`,
  `FunctionalExtensionality.functional_extensionality_dep`, `Classical_Prop.classic`.
  No axiom of ours, no `Admitted`, no functor or module type.
* Flocq and Coquelicot as libraries (definitions and proved lemmas; they add no axioms).
* The reading of `/repo` reflected in the model; the CPython/Cython/numpy semantics stated in section 2.

That reading is itself tested, though not proved, by running the model on what `/repo` records about
the library's behaviour:

* `Recorded.v` (generated by `tools/mkrecorded.py`): `test/unittests_ITF1788` comes with the log of a
  run on this code (the line numbers of its tracebacks are those of the pinned `.pyx`). All 1261
  outcomes the model covers - passed, failed with the value shown, or raised - agree with the model;
  not replayed: 5 tests that compare with `None`, one on decimal square roots, and 5 on a helper of
  the test file. The C library enters as a table: sin, cos, exp to the nearest double whatever the
  rounding mode (cos one unit off at two arguments, as on the recording machine) and log rounded in
  the current direction; so the log also shows a platform on which the hypothesis of C57 holds.
* `Documented.v` (generated by `tools/mkdocumented.py`): the assertions of `test/test_basic.py` and
  `test/interval_properties.py` on single intervals, the outputs of Gauss, Gauss_Seidel, Tol.value,
  Uni.value, intersection, eye, diag, Shary, Neumaier and `@` printed in `doc/src` and `examples`, and
  five runs of globopt from `test/optimization/intvalpy_result.txt`, whose width (to six digits) and
  number of bisections the model reproduces. One assertion of `test_basic.py` (line 45) is false of
  the pinned code and of the model, since 1/5 is rounded downwards (`test_div_inexact`).

## 5. Properties: model and proof

| id | model | proof |
|----|-------|-------|
| C01-C05, C07, C13, C14 | kernel scalar operations on binary64/int endpoints | Flocq correctness of each rounded operation gives "greatest double below"; real-interval case analysis gives the range; induction over expression trees for C13 and C14; C14 also for array operators and matrix products (`ArrIso.v`), by induction over the sum of products |
| C06 | mode-threading monad | every operation, array operation, constructor and solver is shown to return the mode it got (RoundMode.v), by a calculus of mode-preserving programs; user functions are assumed to restore it |
| C08-C11 | same kernel | counterexamples by computation (`_refuted`), positive part under the guard where it holds |
| C12 | same kernel | induction over expression trees |
| C15-C19, C61 | kernel, plus an independent real-number definition of Kaucher's product | case analysis; refutations by computation |
| C20-C23 | kernel | Flocq rounding monotonicity |
| C24-C26, C57, C58 | kernel with pow/exp/log/sin/cos/sqrt oracles | oracle hypotheses in the statement; exact-real lemma for the extremum tests; `PerfectLibm.v` shows correctly rounded libm satisfies the hypotheses |
| C27-C32, C48-C51, C59, C60 | array layer | induction on sizes; histories of item operations by induction on the history |
| C33-C35, C37 | recognizing functionals and penalties over exact reals | real algebra, convexity; for Tol, Uni and Uss also binary64 (`RecogFl.v`, `UssFl.v`): containment of the matrix product, exact sign of a floating-point difference, error bound for midpoint and radius |
| C36 | ralgb5 over a record of operations | loop invariants on the recorded evaluations |
| C38, C39 | Gauss, Gauss-Seidel on the kernel | loop invariants |
| C40, C41 | Krawczyk, Hansen-Sengupta, globopt on the kernel, user function as oracle | mean value theorem; work-list invariant |
| C42, C43 | Rohn with LP and inverse oracles | LP duality-free: feasibility and optimality of the oracle's answers; monotone iteration |
| C44 | HBR with a vector or a matrix on the right-hand side | exact-real algebra; the H-matrix test and the matrix branch are refuted |
| C45 | PSS with LP oracle and the start-box oracle (Rohn/Gauss) | work-list covering invariant, every number of iterations; on doubles (`PssFl.v`) the same invariant for the rounded solution |
| C46, C47, C62 | boundary intervals over exact reals | geometry of half planes; induction on the rows; the path by following edges: every corner has one next edge, a closed walk along edges surrounds the set |
| C66 | `BoundaryState.v`: the module variable as a state passed through calls | induction on the history; refutations on concrete systems |
| C52 | Subdiff | linearization by case analysis of the 16 Kaucher cases |
| C53, C56 | Neumaier, ChebNorm with LP oracle | algebra, counterexamples |
| C67 | `ive` with oracles for the random choices and the condition number | induction on the rounds; facts of C33/C36 about Tol |
| C68 | the matplotlib calls as a list of shapes | induction on the list, up to permutation |
| C69 | `Boundary3.v`: lineqs3D with non_repeat, clear_zero_rows, the probes of every plane, the window and the polygons | each plane is an affine image of the plane problem of C47; a set with bounded faces is bounded (a slice through a point, last points in two opposite directions) |
| C70 | `Boundary3State.v`: IntLinIncR3 with its two passes, the shift by 1e-15, the shared module variable, and numpy.around with 12 decimals | induction over the orthants and over histories; C69 for each slice; integer rows are fixed by the rounding, so the dropped row is exhibited with the program's own rounding |
| C71 | `ArrayCmp.v`: the six comparisons of arrays through numpy's broadcasting; `SpecArrayCmp.v` says what a comparison means on reals | general lemma on broadcast operations; endpoint comparison on finite numbers |
| C72 | `ArrayCmp.v`: len, iteration, and Python's `sum` started at 0 | arithmetic of flat indices; induction over the vector with C01 for each addition |
| C73 | `ArrayElem.v`: numpy functions and powers of arrays, the package's functions of any argument | element-wise lemma plus the scalar theorems C24-C26, C57, C58 |
| C74 | `Slices.v`: slice.indices, keys of ints, slices, lists and masks, the selection they define (also numpy's joint run through several lists, masks and ints), broadcasting of the assigned value | induction over the dimensions relates the computed selection to a relational specification (`SpecSlices.v`); induction over the writes |
| C75 | `Memory.v`: buffers, objects, variables; a command per API call | invariant (no two objects own one buffer; views stay in bounds) by induction over histories; refinement of a machine without buffers (`SpecMemory.v`) |
| C76 | `GetShape.v`: get_shape on numbers, intervals, arrays and nested lists | induction over nested lists; counterexamples for irregular ones |
| C77 | the same model; `HbrCall.v`: one call of HBR with an oracle for matrix inversion | `PpsSigns.v`: the propagation makes progress or is consistent (potential: unknown signs); `PpsAcc.v`: weights 2^(uncertain entries + 1) of the work list strictly decrease, the bound omega is always attained; `PpsHbr.v`: HBR on point matrices computes C b |
| C78 | the model of C45 | converse of the extended division (every point of a quotient is a quotient), intersections with slack, weights 2^depth - 1 of the work list strictly decrease; two counterexamples by running the model |
| C79 | the model of C41 (floating point) | by monotonicity of rounding the chosen component is at least half the resolution wide; its rounded midpoint leaves parts of at most 9/16 of the width; weights 2^depth - 1 of the work list strictly decrease; optimality from C41 |
| C80 | `repr` (Repr.v): CPython's `%.6g` as exact integer arithmetic on the double's mantissa and exponent, and the text layout | the six digits are the nearest to the value, by bounds on the decimal exponent; the layout is read back by an independent parser of decimal literals (SpecRepr.v) |
| C81 | `HbrFl.v`: HBR with a vector right-hand side on doubles and interval arrays, operation by operation; numpy.linalg.inv and the inner products of the BLAS are oracles | enclosure of each entry of C A and C b (C30), Interval(-beta, beta) contains 0 whatever beta is, division encloses; the lost solution is one run computed in the kernel with inverses proved correct to half an ulp |
| C82 | ralgb5 of C36 over exact reals; the divisions are arguments constrained only away from 0 | invariant: the metric of `SpecShor.v` is B B' and B' has no kernel; a rank-one computation for the dilation; a turn implies two different subgradients, so no denominator vanishes |
| C83 | Krawczyk and Hansen-Sengupta of C40, one step on doubles | intermediate value theorem on the ends of x0 and the mean value form; uniqueness because a zero slope between two zeros would put an end of x0 into the step; a constant function on [-16, 16] refutes the several-step version |
| C84 | Krawczyk, Hansen-Sengupta, Gauss-Seidel of C39, C40 | the longer run continues the shorter one; each step keeps the zero, so every intersection is a genuine part of the last; HansenSengupta on [0, 1] with x - (1 + 2^-52) refutes the version without a zero |
| C85 | the kernel operations of both classes | each end is one rounding of an exact expression: the four sum formulas of the Kaucher product have at most one non-zero product; SpecKaucher states the exact Kaucher ends by nested extrema |
| C86 | the same | monotonicity of the exact Kaucher product in each end, and of rounding toward and away from zero; a classical operand inside a Kaucher-class proper one refutes the version without the class condition |
| C87 | exp, log, sin, cos of the kernel, C library as oracle | nextafter moves to the adjacent double; the extremum test is right unless an end is within 1e-8 of an extremum, where the value is within 2^-53 of 1; the double PI_half < pi/2 refutes outward rounding for improper intervals |
| C88 | `__pow__` of the Kaucher class | ranges of x^n by monotonicity; int ends are exact, double ends with a directed pow; two evaluations refute negative bases and exponent 0 |
| C89 | `__repr__` of arrays (ArrRepr.v); numpy's text of the elements is an argument, numpy's choice between one and two lines for the type is modelled | lengths of concatenated strings; both outcomes are proved exactly |
| C65 | PPS with oracles for the estimator, the inverse and the solver; running out of fuel in the sign propagation is a hang | sign invariants of the optimal vertex (obtained by perturbing one entry), work-list invariant; refutations by computation |
| C54, C63 | WILS | induction on the history of calls; convexity |
| C90 | unary properties of arrays (Arrays.v, ArrayUnary.v), khi | elementwise from the laws of `np.vectorize`; the quotient of two doubles of different magnitude is at most 1 - 2^-53 (spacing of doubles) |
| C91 | optimize with a LinearConstraint (Constrained.v): the automatic mu with numpy's division by zero, its storage in the object, the optimizer on value plus penalty (exact reals; binary64 for mu = inf) | best-point invariant of the optimizer; F loses at most max|A| per unit along a coordinate, so a violated row is repaired along its own variable; induction on the rows and on the sequence of calls; refutations by evaluation and by the lemma that an unbeaten start is returned |
| C92 | the operators of Kernel.v on pairs and triples, == and unary minus | every result is the tightest double hull of the exact image (C13), so two expressions whose exact images have the same hull return the same ends; enclosure for the inclusions; concrete doubles evaluated in every rounding mode for the refutations |
| C93 | RecogOpt.v: the calcfg methods on doubles (midpoints, radii, inner products with any error bound, the subgradients), np.argmin, and ralgb5 run on them with any vector operations | the optimizer keeps the best value with its point (invariant of C36, here with flt_ltb as the order and NaN ruled out step by step); each constituent is compared with the exact extreme over the matrices with an explicit error, for its sign and (RecogOptAccuracy.v, weights 1) for its size; concrete runs with the default parameters evaluated for the refutations; the directions (RecogGradProofs.v): choosing an end by products with 1 and 0 is exact, so one product is rounded, and the choice by the sign of x is a super- or subgradient |
| C94 | RecogOptCon.v: linear_penalty and calcfg_constr on doubles with any order of summation, ralgb5 run on them | the best-value invariant of the optimizer; a rounded sum with a non-negative penalty is not below the summand (monotone rounding); C93's lemmas for the sign; a run evaluated for the refutation; the direction (PenaltyGradProofs.v) by induction on the rows |
| C95 | RohnTol.v: the choice of the branch, the tolerable branch with Tol.maximize on doubles (RecogOpt.v), the real ends of the coefficients and an LP oracle | C42 for the linear programs; C93 for the reported value; for the refutation: between two neighbouring doubles 3 x jumps over 3 + 2^-51, so the computed residual is never zero |
| C96 | Kernel.v: classical_pow, kaucher_pow, itv_log, rmul, itv_exp; SpecPow.v: the real power | the three enclosures composed; the rounded e * log(x) exceeds the true value by less than 1/2 as long as x**e <= 2^1023, so exp does not overflow; tightness by bounding each of the four roundings (log, product, exp, nextafter); limit at 0 by the values just above it; refutations by running the model with any library that overflows |
| C97 | WilsFl.v: WILS.fit from any starting point and predict on doubles; numpy's matrix product, C @ x and np.sum are arguments | the best point of ralgb5 (C36) and the row-wise error bounds of C92 and C93, here with weights down to 2^-500; smoothing: monotone rounding, and 2^300 (1 + 2^-54) rounds to 2^300; refutations by running the model; the summed directions (WilsGradProofs.v) by induction on the rows |
| C98 | IspaeFl.v: Horner's rule of numpy, the choice of points, Python's min and max, the sum of the columns with the interval addition; the roots of the derivative are an argument | error of Horner's rule by induction on the coefficients; extreme values are at ends or critical points; error of directed sums; refutation by running the model |
| C99 | IspaeFlObj.v: the centred values, the residuals of Tol and Uni, the norm and the report of fit on doubles; the subgradient, the roots and np.sum are arguments | the best point of ralgb5 (C36); the sign of a rounded difference of doubles is exact and directed rounding does not cross a double, so the Tol sign is exact relative to the computed value; C98 for that value; for Uni the intermediate value theorem on the segment between two points of the row; predictions (IspaeFlPred.v): the range of each power by C98, then the enclosure of numpy's inner product and the rounding error of its terms and sums |
| C55, C64 | ISPAE with roots oracle | monotonicity between critical points (mean value theorem); the bases satisfy the differential equations that characterise them |
@MOREPROPS@
Partial properties: none. C53 is refuted as an unconditional claim and proved with its exact condition.
C43, C44 and C56 are stated with the conditions under which they hold; that the conditions are needed is proved too.
'''
mm=', `Pps.v` (PPS)'; mp=''
open('/verif/DESIGN.md','w').write(head.replace('@MOREMODEL@',mm).replace('@MOREPROPS@',mp))
