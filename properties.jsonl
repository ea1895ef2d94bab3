{"id": "C01", "title": "Interval addition encloses every sum of members", "statement": "For classical intervals X, Y with double endpoints (infinite ones allowed) or small integer endpoints, X+Y never raises and contains x+y for every real x in X and y in Y.", "quantifier": "all pairs of intervals with arbitrary double endpoints or integer endpoints up to 2^26 in magnitude, and all reals x in X, y in Y, in any ambient rounding mode", "why_tests_cant": "Directed rounding errs only on some of the 2^128 endpoint pairs; a wrong rounding direction is invisible on exactly representable sums.", "anchors": ["intvalpy/kernel/interval_arithmetics.pyx:ClassicalArithmetic.__add__", "intvalpy/kernel/interval_arithmetics.pyx:RoundingContext"]}
{"id": "C02", "title": "Interval subtraction encloses every difference of members", "statement": "For classical intervals X, Y with double or small integer endpoints, X-Y contains x-y for every real x in X and y in Y.", "quantifier": "all pairs of classical intervals and all real members, any ambient rounding mode", "why_tests_cant": "Same as C01: needs every endpoint pair and every rounding case, including overflow.", "anchors": ["intvalpy/kernel/interval_arithmetics.pyx:ClassicalArithmetic.__sub__"]}
{"id": "C03", "title": "Interval multiplication encloses every product of members", "statement": "For classical X, Y with double or small integer endpoints, X*Y never raises, and unless it is the NaN interval (only possible if an endpoint is infinite) it contains x*y for all reals x in X, y in Y; with finite endpoints it is never NaN.", "quantifier": "all pairs of classical intervals incl. infinite endpoints and all sign patterns, all real members", "why_tests_cant": "Nine sign cases times rounding, overflow, underflow and 0*inf; sampling misses the NaN-ordering cases.", "anchors": ["intvalpy/kernel/interval_arithmetics.pyx:ClassicalArithmetic.__mul__"]}
{"id": "C04", "title": "Interval division encloses every quotient and rejects exactly the zero-containing divisors", "statement": "X/Y for classical X,Y raises ValueError if and only if 0 lies in Y; otherwise it succeeds and (unless it is the NaN interval) contains x/y for all reals x in X, y in Y.", "quantifier": "all pairs of classical intervals with double or small integer endpoints and all real members", "why_tests_cant": "Quantifies over all divisors arbitrarily close to zero and all rounding cases.", "anchors": ["intvalpy/kernel/interval_arithmetics.pyx:ClassicalArithmetic.__truediv__"]}
{"id": "C05", "title": "Addition, subtraction, multiplication and division are optimally tight", "statement": "For finite double endpoints the lower (upper) endpoint of X op Y is the greatest (least) double that bounds the exact range {x op y} from below (above); no tighter double interval would be an enclosure.", "quantifier": "all pairs of finite-endpoint classical intervals and every double that could be a better bound", "why_tests_cant": "Optimality compares against every double; a test can only compare against a few.", "anchors": ["intvalpy/kernel/interval_arithmetics.pyx:ClassicalArithmetic.__add__", "intvalpy/kernel/interval_arithmetics.pyx:ClassicalArithmetic.__sub__", "intvalpy/kernel/interval_arithmetics.pyx:ClassicalArithmetic.__mul__", "intvalpy/kernel/interval_arithmetics.pyx:ClassicalArithmetic.__truediv__"]}
{"id": "C06", "title": "The FPU rounding mode is always restored", "statement": "Whatever the operands, and whether the operation returns or raises, the rounding mode after every interval operation equals the mode before it. The same holds for operations on interval arrays, the constructors and test systems, Gauss, Gauss_Seidel, HBR, Rohn, Neumaier, PSS and the values of Tol, Uni and Uss; and for Krawczyk, HansenSengupta and globopt provided the functions the user passes restore the mode.", "quantifier": "all interval operations (arithmetic with intervals or numbers on either side, powers, inv, exp, log, sin, cos, ufunc entry points), array operations, constructors and solvers, all operands incl. those that raise, all initial modes", "why_tests_cant": "A leak only shows in later unrelated computations and on exceptional paths that tests rarely reach.", "anchors": ["intvalpy/kernel/interval_arithmetics.pyx:RoundingContext", "intvalpy/kernel/interval_arithmetics.pyx:BaseTools.inv", "intvalpy/kernel/interval_arithmetics.pyx:ClassicalArithmetic", "intvalpy/kernel/interval_arithmetics.pyx:KaucherArithmetic"]}
{"id": "C07", "title": "Mixed interval/number arithmetic encloses", "statement": "For a classical interval X and a Python number c: X+c, c+X, X-c, c-X, c*X, X*c contain x+c, c-x, c*x ... for every real x in X, and c/X raises ValueError iff 0 is in X and otherwise encloses c/x.", "quantifier": "all classical intervals, all double or small integer scalars, all real members", "why_tests_cant": "Needs every scalar and every rounding case on both dispatch sides.", "anchors": ["intvalpy/kernel/interval_arithmetics.pyx:ClassicalArithmetic.__radd__", "intvalpy/kernel/interval_arithmetics.pyx:ClassicalArithmetic.__rsub__", "intvalpy/kernel/interval_arithmetics.pyx:ClassicalArithmetic.__rmul__", "intvalpy/kernel/interval_arithmetics.pyx:ClassicalArithmetic.__rtruediv__"]}
{"id": "C08", "title": "Dividing an interval by a number encloses when (and in general only when) the reciprocal is exact", "statement": "For a classical X with finite endpoints and a number c whose reciprocal is a double, X/c contains x/c for every x in X. Without that proviso the claim is false (X/c multiplies by 1/c rounded to nearest): there are X, c and x in X with x/c outside X/c.", "quantifier": "all intervals, all non-zero scalars, all real members", "why_tests_cant": "X/c multiplies by a reciprocal rounded to nearest; whether the final outward rounding hides that depends on the operands.", "anchors": ["intvalpy/kernel/interval_arithmetics.pyx:ClassicalArithmetic.__truediv__"]}
{"id": "C09", "title": "Addition and subtraction of integer endpoints enclose up to 2^52 and fail beyond", "statement": "X+Y and X-Y enclose for integer endpoints of magnitude up to 2^52 (and for arbitrary doubles); for larger integer endpoints enclosure fails for some X, Y because sums are converted to double with rounding to nearest.", "quantifier": "all Python-int endpoint pairs (unbounded)", "why_tests_cant": "Failure starts above 2^53 and then depends on low-order bits.", "anchors": ["intvalpy/kernel/interval_arithmetics.pyx:BaseTools.__cinit__", "intvalpy/kernel/interval_arithmetics.pyx:ClassicalArithmetic.__add__"]}
{"id": "C10", "title": "numpy-scalar left operands behave like Python-number left operands", "statement": "For a numpy scalar c and interval X, c+X, c-X, c*X, and c/X when 0 is not in X (dispatched through the ufunc protocol) give the same interval as for a Python number. When 0 is in X, c/X with a numpy scalar does not raise and can return a bounded interval that misses quotients.", "quantifier": "all scalars and intervals", "why_tests_cant": "The ufunc path is separate code; agreement is needed for all operands, including those where the Python path raises.", "anchors": ["intvalpy/kernel/interval_arithmetics.pyx:BaseTools.__array_ufunc__"]}
{"id": "C11", "title": "numpy ufuncs with the interval first ignore the second argument", "statement": "np.add(X,c), np.subtract(X,c), np.multiply(X,c), np.divide(X,c) with the interval first do not depend on c at all, and so disagree with X+c etc. for some X, c. The same holds when X is an interval array: the result is X+X, X-X, X*X, X/X (X@X for np.matmul) whatever the second argument, even if its shape does not fit, and can miss the true values.", "quantifier": "all intervals and numbers, scalar and array versions", "why_tests_cant": "Agreement is an equality over all operands.", "anchors": ["intvalpy/kernel/interval_arithmetics.pyx:BaseTools.__array_ufunc__", "intvalpy/kernel/real_intervals.py:ArrayInterval.__array_ufunc__"]}
{"id": "C12", "title": "Proper-interval class invariant", "statement": "Every classical interval obtained from good classical intervals by any finite sequence of +,-,*,/, mixed operations with numbers, neg, abs and pro satisfies lower <= upper (or is NaN), so it denotes a set.", "quantifier": "all expression trees over the API, of any depth, with any double or small integer leaves", "why_tests_cant": "Unbounded compositions of operations.", "anchors": ["intvalpy/kernel/interval_arithmetics.pyx:ClassicalArithmetic", "intvalpy/kernel/real_intervals.py:SingleInterval"]}
{"id": "C13", "title": "Containment is preserved by arbitrarily nested expressions (fundamental theorem)", "statement": "If an arithmetic expression over classical interval variables (+,-,*,/, mixed operations with finite numbers, division by numbers with exact reciprocal, neg, abs, pro, nested to any depth) evaluates without raising, its value contains (or is NaN) the real value of the same expression, which is defined, at every choice of members.", "quantifier": "all expression trees of any depth, all interval assignments, all real member assignments", "why_tests_cant": "Unbounded nesting.", "anchors": ["intvalpy/kernel/interval_arithmetics.pyx:ClassicalArithmetic"]}
{"id": "C14", "title": "Inclusion isotonicity", "statement": "If X is contained in X2 and Y in Y2 (finite double endpoints) then X op Y is contained in X2 op Y2 for +,-,* and, when 0 is not in Y2, /. The same holds for whole nested expressions in +,-,*,/, with interval and number operands, unary minus, abs and pro, as long as neither the result nor any subexpression overflows on the larger intervals (numbers are not 0 divided by an interval); when a subexpression overflows it can fail (0*inf is NaN). It also holds for arrays entry by entry: +,-,*,/ of an interval array and an array or number with broadcasting, number or numeric array on the left of +,-,*, and matrix products, as long as no entry of the result on the larger arrays overflows; the product on the smaller arrays then exists and has the same shape.", "quantifier": "all nested pairs of intervals, all expressions of any depth, arrays of all shapes, all rounding modes", "why_tests_cant": "Monotonicity of rounded operations over all pairs.", "anchors": ["intvalpy/kernel/interval_arithmetics.pyx:ClassicalArithmetic"]}
{"id": "C15", "title": "dual, opp, neg and pro algebra", "statement": "dual(dual X)=X, opp(opp X)=X, -(-X)=X, pro is idempotent and yields the ordered endpoints, opp X = -(dual X); each result has the class matching its orientation as documented.", "quantifier": "all intervals of both classes, all endpoints", "why_tests_cant": "Equations over all endpoints, class tags included.", "anchors": ["intvalpy/kernel/interval_arithmetics.pyx:BaseTools.dual", "intvalpy/kernel/interval_arithmetics.pyx:BaseTools.opp", "intvalpy/kernel/interval_arithmetics.pyx:BaseTools.pro", "intvalpy/kernel/interval_arithmetics.pyx:BaseTools.__neg__"]}
{"id": "C16", "title": "X + opp(X) is exactly [0,0]; X * inv(X) is [1,1]", "statement": "Algebraic opposite: X + opp(X) equals [0,0] for all finite endpoints (proper or improper). Algebraic inverse: inv(X) has the outward rounded reciprocals of the endpoints in the same order and is classical exactly when upper<=lower; X * inv(X) is not always [1,1] in floating point (a concrete X with 0 not in X differs).", "quantifier": "all finite intervals, proper and improper (for inv: not containing zero)", "why_tests_cant": "Equality over all floating-point endpoints.", "anchors": ["intvalpy/kernel/interval_arithmetics.pyx:BaseTools.opp", "intvalpy/kernel/interval_arithmetics.pyx:BaseTools.inv"]}
{"id": "C17", "title": "Kaucher multiplication extends classical multiplication", "statement": "On integer-valued endpoints up to 2^24 in magnitude (where the arithmetic is exact) X*Y has exactly the endpoints of the Kaucher (lattice) product for every class combination; on proper operands it is the exact range of products; it is commutative and dual(X*Y) = dual X * dual Y.", "quantifier": "all generalized intervals of either class whose endpoints are integers of magnitude at most 2^24", "why_tests_cant": "Sixteen sign/orientation cases of real endpoints.", "anchors": ["intvalpy/kernel/interval_arithmetics.pyx:KaucherArithmetic.__mul__", "intvalpy/kernel/interval_arithmetics.pyx:ClassicalArithmetic.__mul__"]}
{"id": "C18", "title": "Mixed classical*Kaucher multiplication is commutative on consistently-classed operands only", "statement": "For a classical proper X and a Kaucher improper Y with finite endpoints, X*Y = Y*X (bitwise equal values, whatever the rounding). For a Kaucher-class Y that is in fact proper - reachable by adding a classical interval to a Kaucher one - it fails.", "quantifier": "all such pairs, including Kaucher objects with proper orientation", "why_tests_cant": "The two orders are computed by two different formulas.", "anchors": ["intvalpy/kernel/interval_arithmetics.pyx:ClassicalArithmetic.__mul__", "intvalpy/kernel/interval_arithmetics.pyx:KaucherArithmetic.__mul__"]}
{"id": "C19", "title": "Kaucher multiplication rounds outward on non-negative operands only", "statement": "For non-negative finite endpoints the Kaucher product computed in floating point has lower endpoint <= and upper endpoint >= the exact Kaucher product endpoints. In general this fails: there are improper X, Y whose computed lower endpoint exceeds the exact one.", "quantifier": "all generalized intervals with finite double endpoints", "why_tests_cant": "Rounding direction inside a difference of maxima.", "anchors": ["intvalpy/kernel/interval_arithmetics.pyx:KaucherArithmetic.__mul__"]}
{"id": "C20", "title": "mid lies in the interval", "statement": "For finite endpoints a<=b whose sum does not overflow, a <= mid <= b; without the no-overflow proviso this fails.", "quantifier": "all finite double endpoints a <= b, any rounding mode", "why_tests_cant": "Rounding and overflow corner cases.", "anchors": ["intvalpy/kernel/interval_arithmetics.pyx:BaseTools.mid"]}
{"id": "C21", "title": "mig and mag are the exact extreme absolute values; abs is the exact range", "statement": "mig(X)=min|x|, mag(X)=max|x| over x in X (exactly, no rounding), and abs(X) encloses exactly {|x|: x in X}.", "quantifier": "all classical intervals with finite double endpoints, all members", "why_tests_cant": "Quantifies over all members.", "anchors": ["intvalpy/kernel/interval_arithmetics.pyx:BaseTools.mig", "intvalpy/kernel/interval_arithmetics.pyx:BaseTools.mag", "intvalpy/kernel/interval_arithmetics.pyx:BaseTools.__abs__"]}
{"id": "C22", "title": "Order and equality laws", "statement": "!= is the negation of ==; == is an equivalence on NaN-free intervals and means equality of both endpoint values; <= is a partial order and < a strict order, both endpointwise; >,>= are the converses; x<y implies x<=y and x!=y.", "quantifier": "all intervals and numbers", "why_tests_cant": "Laws over all triples.", "anchors": ["intvalpy/kernel/interval_arithmetics.pyx:BaseTools.__lt__", "intvalpy/kernel/interval_arithmetics.pyx:BaseTools.__eq__"]}
{"id": "C23", "title": "Membership test agrees with set membership", "statement": "x in X is True exactly when a<=x<=b for numbers, and Y in X exactly when Y is a subset of X for proper intervals.", "quantifier": "all numbers and intervals", "why_tests_cant": "Quantifies over all members of Y.", "anchors": ["intvalpy/kernel/interval_arithmetics.pyx:BaseTools.__contains__"]}
{"id": "C24", "title": "Integer powers enclose", "statement": "X**n contains x**n for every x in X and every natural n when the endpoints are ints (and then, for n>0, both endpoints of the result are attained); for double endpoints when the platform pow honours the rounding direction and n is even or X is non-negative. For odd n and negative double endpoints it fails: there is an X for which X**3 misses x**3 for every such platform pow.", "quantifier": "all natural exponents, all intervals, all members", "why_tests_cant": "Unbounded exponents, parity and sign cases.", "anchors": ["intvalpy/kernel/interval_arithmetics.pyx:ClassicalArithmetic.__pow__"]}
{"id": "C25", "title": "exp encloses the exponential range", "statement": "exp(X) contains e^x for every x in X when the platform exp is within one ulp and e^(upper endpoint) does not overflow; when it overflows the result can be [inf,inf] and miss e^x for members x.", "quantifier": "all intervals and members", "why_tests_cant": "Transcendental function at all doubles.", "anchors": ["intvalpy/kernel/interval_arithmetics.pyx:BaseTools.exp"]}
{"id": "C26", "title": "sin and cos enclose their ranges", "statement": "sin(X) and cos(X) contain sin x, cos x for every x in X, for every X with endpoints up to 2^20 in magnitude and any platform sin/cos within one ulp: the extremum tests miss an interior maximum/minimum only when the endpoint value already covers it. For larger arguments it fails: there is an X with endpoints below 2^43 for which sin(X) misses the value 1 attained inside X.", "quantifier": "all real intervals and members", "why_tests_cant": "Intervals of any width and position relative to multiples of pi.", "anchors": ["intvalpy/kernel/interval_arithmetics.pyx:BaseTools.sin", "intvalpy/kernel/interval_arithmetics.pyx:BaseTools.cos"]}
{"id": "C27", "title": "Interval construction preserves its data", "statement": "Interval(l,r) with sorting keeps the two numbers, has lower<=upper and is classical; without sorting it keeps l,r in order and is classical iff l<=r; Interval of two equally nested lists, or of a nested list of pairs, is an array with exactly that interval at every index; the midpoint-radius form rejects negative radii and contains the midpoint, its endpoints being mid-rad and mid+rad rounded in the current mode. It fails to contain every point within the radius in general, and Interval(c) of one number raises TypeError.", "quantifier": "all number pairs, all nesting shapes, all rounding modes", "why_tests_cant": "All pairs incl. NaN and mixed int/float.", "anchors": ["intvalpy/kernel/real_intervals.py:SingleInterval", "intvalpy/kernel/real_intervals.py:Interval"]}
{"id": "C28", "title": "vertex lists exactly the corners", "statement": "X.vertex of an n-vector has 2^n rows, each component an endpoint of the matching component, and every endpoint choice occurs exactly once in order.", "quantifier": "all n and all interval vectors; all endpoint choices", "why_tests_cant": "Exponential number of choices, unbounded n.", "anchors": ["intvalpy/kernel/real_intervals.py:ArrayInterval.vertex"]}
{"id": "C29", "title": "Endpoint arrays agree with element endpoints", "statement": "When all lower endpoints are doubles (or all are small ints) X.a has at every index exactly the lower endpoint of that element, likewise X.b; the mag, mig, mid and rad arrays hold what mag, mig, mid and rad of the elements return, and so does wid when every element has a double among its endpoints or none has. When int and double endpoints are mixed the entries can be truncated (dtype of the first element): X.wid can report 0 for an interval that is not a point.", "quantifier": "all interval arrays", "why_tests_cant": "Depends on the type of the first element only; arrays with mixed endpoint types are needed.", "anchors": ["intvalpy/kernel/real_intervals.py:ArrayInterval.a", "intvalpy/kernel/real_intervals.py:ArrayInterval.b"]}
{"id": "C30", "title": "Interval matrix products enclose", "statement": "(A @ x) contains M v componentwise for every real M in A and v in x.", "quantifier": "all dimensions, all interval matrices/vectors, all members", "why_tests_cant": "Unbounded dimension; all members.", "anchors": ["intvalpy/kernel/real_intervals.py:ArrayInterval.__matmul__"]}
{"id": "C31", "title": "intersection contains the set intersection and signals emptiness", "statement": "intersection(X,Y) contains every common member and equals the set of common members whenever there is one; if it is NaN there is no common member; if it is not NaN then X and Y come within 1.001e-15 of each other; for arrays it is elementwise and raises AssertionError on shape mismatch. Disjoint intervals with a tiny gap do not give NaN.", "quantifier": "all pairs of classical intervals, all array shapes", "why_tests_cant": "All endpoint pairs near touching.", "anchors": ["intvalpy/kernel/preprocessing.py:intersection"]}
{"id": "C32", "title": "dist is a metric; subset is a partial order", "statement": "In exact arithmetic dist (Chebyshev order and every integer order p>=1) is >=0, zero iff all endpoints are equal, symmetric, and satisfies the triangle inequality; on floating-point arrays subset(X,Y) holds iff every element of X is included in that of Y, and is reflexive (NaN-free), transitive and antisymmetric up to equal endpoint values.", "quantifier": "all interval vectors of any length", "why_tests_cant": "Laws over all triples and lengths.", "anchors": ["intvalpy/kernel/utils.py:dist", "intvalpy/kernel/utils.py:subset"]}
{"id": "C33", "title": "Tol recognizes the tolerable solution set", "statement": "In exact arithmetic, with unit weights, t <= Tol.value(A,b,x) iff M x lies in b shrunk by t on both sides for every real matrix M in A; with any positive weights Tol.value >= 0 iff M x lies in b for every M in A; Tol is concave. In floating point, with weights at least 1, a non-negative Tol.value still guarantees that M x lies in b for every M in A when b.mid and b.rad are computed without rounding error (for example integer b), and in b widened by about 2^-52 of its magnitude otherwise; without that margin, or with tiny weights, a non-negative value can be returned at a point outside the right-hand side (refuted).", "quantifier": "all m x n interval systems, all points x, all real matrices in A", "why_tests_cant": "Ranges over all matrices in A.", "anchors": ["intvalpy/linear/Tol.py:Tol"]}
{"id": "C34", "title": "Uni and Uss recognize the united solution set", "statement": "In exact arithmetic, with unit weights, t <= Uni.value(A,b,x) iff x solves some real system with matrix in A and right side in b shrunk by t; with positive weights Uni.value >= 0 iff Uss.value >= 0 iff some real M in A and v in b satisfy M x = v. In floating point a negative Uni.value guarantees that no M in A sends x into b when b.mid and b.rad are exact, and into b narrowed by about 2^-52 of its magnitude otherwise; without the margin it is refuted. In floating point Uss.value >= 0 guarantees that some M in A sends x into b widened by a margin proportional to the rounding errors of the inner products, and Uss.value < 0 that none sends it into b narrowed by that margin; without the margin both are refuted.", "quantifier": "all m x n interval systems and all points; all real matrices in A; for Uss in floating point all inner products with a known error bound", "why_tests_cant": "Existence over a continuum of matrices.", "anchors": ["intvalpy/linear/Uni.py:Uni", "intvalpy/linear/Uss.py:Uss"]}
{"id": "C35", "title": "Recognizing functionals are consistent and their gradients are subgradients", "statement": "In exact arithmetic calcfg returns minus the value; for Tol (also with the linear penalty) the returned vector is a subgradient of the function minimized; for Uss it is a subgradient within the closed orthant of x (no zero component), for Uni likewise provided no active row has its right-side midpoint strictly inside the row range - without the proviso it fails.", "quantifier": "all systems and pairs of points", "why_tests_cant": "Inequality for all pairs of points.", "anchors": ["intvalpy/linear/Tol.py:Tol.calcfg", "intvalpy/linear/Uni.py:Uni.calcfg"]}
{"id": "C36", "title": "ralgb5 returns the best point it evaluated, with truthful counters", "statement": "The r-algorithm returns one of the points it evaluated, together with the objective value there; no evaluated point (in particular not the starting point) is better; ncalls is the number of objective evaluations and at most 1+501*(nit+1); code 2 is reported exactly when a gradient below tolg was seen, code 4 only if nit > maxiter, code 3 only after an iteration whose way was shorter than tolx, code 5 only after 501 steps against one direction, code 1 only when the best value changed by less than tolf (relatively, if its magnitude exceeds 1) over the last nsims iterations, in binary64 not before nsims iterations; nit <= maxiter+1 but nit <= maxiter fails. A starting point that no point beats is the one returned, and in binary64 a starting point with the value NaN is never left. Hence, in exact arithmetic, Tol/Uni.maximize return a point whose functional value is the reported one and at least the value at the starting point, so a solution given as starting point is never lost.", "quantifier": "all objective functions, starting points, parameters, dimensions; any arithmetic (real or binary64) with a total preorder comparison", "why_tests_cant": "All histories of an adaptive search.", "anchors": ["intvalpy/kernel/ralgb5.py:ralgb5"]}
{"id": "C37", "title": "LinearConstraint penalty vanishes exactly on the feasible set", "statement": "The linear penalty is non-negative, and zero iff lb <= Cx <= ub for all finite bounds on non-zero rows; its dp is a subgradient; the automatic mu makes some component of dp at least the given numerator in absolute value at every infeasible point (unless some column has a vanishing partial sum). Zero rows are ignored even if unsatisfiable, and the constructor fails if no row is usable.", "quantifier": "all constraint systems and points", "why_tests_cant": "All points and dimensions.", "anchors": ["intvalpy/kernel/abstract.py:BaseRecFun.linear_penalty", "intvalpy/kernel/abstract.py:LinearConstraint"]}
{"id": "C38", "title": "Interval Gauss elimination encloses the united solution set", "statement": "Whenever Gauss(A,b) returns for a system with at most two unknowns, every solution of every real system M x = v with M in A, v in b lies in the result (a NaN component excludes nothing). For three or more unknowns this is false: a 3x3 point system is answered with an interval missing its only solution; it still holds for every size when M is zero below the diagonal except in the last two columns.", "quantifier": "all n, all square interval systems, all real systems inside", "why_tests_cant": "All real systems and all dimensions.", "anchors": ["intvalpy/linear/Gauss.py:Gauss"]}
{"id": "C39", "title": "Interval Gauss-Seidel keeps every solution in the start box", "statement": "If Gauss_Seidel(A,b,x0) returns, with x0 given, a non-negative iteration limit and a non-NaN tolerance, every real solution of M x = v (M in A, v in b) lying in x0 lies in the result and the result lies in x0, for every preconditioner with finite entries. With the default box (-1000..1000), or a negative iteration limit, solutions can be lost. If the call raises the exception of an empty component, no solution lies in x0, for systems of at most 2^20 unknowns with entries, box and preconditioner below 2^200.", "quantifier": "all systems, boxes, preconditioners, tolerances, iteration limits", "why_tests_cant": "All histories of an iteration and all real systems.", "anchors": ["intvalpy/linear/Gauss_Seidel.py:Gauss_Seidel"]}
{"id": "C40", "title": "Krawczyk and Hansen-Sengupta never lose a zero", "statement": "For one unknown: given an inclusion function of f and of its derivative on x0, every zero of f in x0 remains in the result of Krawczyk and HansenSengupta, and the result lies in x0, unless the result is NaN; for every iteration limit and tolerance. A NaN result proves that f has no zero in x0, provided func and J return finite intervals on the parts of x0 and the slope scaled by the reciprocal of its midpoint stays below 2^1000. An exception of Krawczyk itself also proves that f has no zero in x0, if func(x0) is not NaN; one of HansenSengupta does if no scaled slope contains 0. For several unknowns a call either raises (AttributeError in the usual case) or returns x0 unchanged without an iteration.", "quantifier": "all functions with valid interval extensions, boxes, iteration limits", "why_tests_cant": "All functions and iteration histories.", "anchors": ["intvalpy/nonlinear/external_evaluation.py:Krawczyk", "intvalpy/nonlinear/external_evaluation.py:HansenSengupta"]}
{"id": "C41", "title": "globopt returns a guaranteed lower bound and a sub-box", "statement": "For an inclusion function the lower endpoint of the returned value is <= f(x) for every x in x0, the returned box is non-empty and inside x0, the returned value is func of that box and contains the global minimum whenever it is attained; a value narrower than tol is final for all larger limits; with a negative limit x0 is returned. The number of bisections can be maxiter+1, not maxiter.", "quantifier": "all functions with valid inclusion functions, all boxes, tolerances, limits", "why_tests_cant": "All branch-and-bound histories.", "anchors": ["intvalpy/nonlinear/globopt.py:globopt"]}
{"id": "C42", "title": "Rohn tolerable hull", "statement": "With a truthful LP solver, Rohn for the tolerable solution set returns for every coordinate the exact (attained) range over the tolerable solution set; it returns whenever that set is non-empty and bounded and Tol.maximize reported a value >= 0, and raises when the set is empty.", "quantifier": "all systems; all LP answers satisfying the LP specification", "why_tests_cant": "Ranges over every point of a polytope.", "anchors": ["intvalpy/linear/Rohn.py:_Rohn_Tol"]}
{"id": "C43", "title": "Rohn united enclosure", "statement": "Whatever matrices numpy.linalg.inv returns: if one further iteration would not change the answer of Rohn (united), the returned box contains every solution of every real system in the interval system. With exact inverses and a strongly regular matrix, this is so for every large enough iteration limit. Stopping at the iteration limit does not guarantee it. On doubles solutions can be lost to rounding even with exact inverses (x = [1, 2^53+2] gives a box without 1).", "quantifier": "all overdetermined systems and approximate inverses", "why_tests_cant": "All real systems inside A.", "anchors": ["intvalpy/linear/Rohn.py:_Rohn_Uni"]}
{"id": "C44", "title": "HBR bounds enclose the united solution set of H-matrix systems", "statement": "For every preconditioner C: if C@A is an H-matrix and its comparison matrix is inverted exactly, HBR with a vector right-hand side returns a box that contains every solution of every real system. The H-matrix check in the code (any component positive) accepts some matrices that are not H-matrices, for which solutions are missed; with all in place of any it would accept exactly the H-matrices. With a matrix on the right-hand side the answer encloses the solutions of each column only for a single equation: already for the identity matrix of any size from two on it misses every non-zero entry of the solution.", "quantifier": "all n and all real systems inside an H-matrix", "why_tests_cant": "All real systems and dimensions.", "anchors": ["intvalpy/linear/HBR.py:HBR"]}
{"id": "C45", "title": "PSS encloses the solution set at any iteration", "statement": "With a truthful LP solver, whatever the tolerance and the iteration limit: if PSS returns for a component, the interval contains that component of every solution of every real system inside A, b that lies in the starting box of the first pass and whose negative lies in that of the second. If no other component of the starting box contains zero and splitting starts, the lower end is attained by a solution. Given x0, both passes start from x0, so solutions in x0 may be outside the answer (refuted); a starting box that is a point in the component, and systems with one unknown, raise. On doubles, with every rounding error: the returned interval contains the double nearest to the component of every such solution; if no entry of that column of A contains zero it contains the component itself; otherwise quotients are rounded to nearest and a solution can be lost (refuted).", "quantifier": "all m x n interval systems, starting boxes, tolerances, iteration limits, truthful LP solvers, members and solutions; exact reals and doubles", "why_tests_cant": "All real systems.", "anchors": ["intvalpy/linear/PSS.py:PSS"]}
{"id": "C46", "title": "Solution-set slices in an orthant are described exactly", "statement": "In each orthant, the inequality system built for the united/tolerable solution set is satisfied exactly by the points of the set in that orthant (in space: up to a 1e-15 change of the right-hand side); the four orthants of the plane together give the whole set; the list returned for an orthant is, up to rounding to 12 digits, exactly the corners of that slice (of its part in the given window, when it is unbounded), each once and in order around it, if corners are more than 1e-8 apart. An unsatisfiable equation with zero coefficients is dropped, so a non-empty answer can be given for an empty set.", "quantifier": "all m x n interval systems, all orthants, all points", "why_tests_cant": "Continuum of points.", "anchors": ["intvalpy/linear/boundary_intervals.py:IntLinIncR2", "intvalpy/linear/boundary_intervals.py:IntLinIncR3"]}
{"id": "C47", "title": "BoundaryIntervals returns exactly the boundary pieces", "statement": "For each inequality with a non-zero row exactly one segment is returned iff some point of its line satisfies all inequalities, and that segment is exactly the set of such points (up to the 1e-301 added to the direction); an end is infinite iff the piece is unbounded on that side; every vertex is an end of a segment; no segment means no solution. lineqs returns, rounded to 12 digits, exactly the corners of a bounded set (or of the part of an unbounded set in the window), each once and going round it, if corners are more than 1e-8 apart; if the set is not empty but misses the window it raises. An empty answer means no solution of the non-zero inequalities; contradictory zero rows are ignored.", "quantifier": "all 2-D inequality systems", "why_tests_cant": "Continuum of points and unbounded number of inequalities.", "anchors": ["intvalpy/linear/boundary_intervals.py:BoundaryIntervals"]}
{"id": "C48", "title": "Factory functions and test systems have the documented entries", "statement": "zeros, full, eye, diag, Neumaier, Shary and Toft systems have exactly the documented shape and entries for every non-zero size and every parameter in range; Shary rejects parameters out of range.", "quantifier": "all n, offsets and parameters", "why_tests_cant": "All sizes and indices.", "anchors": ["intvalpy/kernel/new_objects.py", "intvalpy/kernel/utils.py:diag"]}
{"id": "C49", "title": "asinterval and Interval are idempotent and value-preserving", "statement": "asinterval of an interval object is that object; of a number it is the point interval; of nested data it is elementwise; applying it twice changes nothing.", "quantifier": "all nested data", "why_tests_cant": "Structural recursion over arbitrary nesting.", "anchors": ["intvalpy/kernel/preprocessing.py:asinterval"]}
{"id": "C50", "title": "Deletion and assignment keep shape metadata consistent", "statement": "After any history of item assignment, deletion and in-place arithmetic with scalars the reported shape equals the shape of the data; assignment changes exactly the addressed element, deletion removes exactly the addressed slice; in-place arithmetic with an array keeps the metadata consistent exactly when the broadcast shape is the old shape (otherwise the reported shape is stale).", "quantifier": "all operation histories", "why_tests_cant": "Unbounded histories.", "anchors": ["intvalpy/kernel/real_intervals.py:ArrayInterval.__delitem__", "intvalpy/kernel/real_intervals.py:ArrayInterval.__setitem__", "intvalpy/kernel/real_intervals.py:ArrayInterval.__iadd__"]}
{"id": "C51", "title": "sign, compmat and componentwise utilities are exact", "statement": "sign(X) is the hull of {sgn x}; compmat(A) is the Ostrowski comparison matrix; rad/mid/inf/sup/mag/mig of plain numbers treat the number as a point interval. wid of a plain number does not (refuted).", "quantifier": "all intervals, matrices and numbers", "why_tests_cant": "All members and sizes.", "anchors": ["intvalpy/kernel/elementary_functions.py:sign", "intvalpy/kernel/utils.py:compmat", "intvalpy/kernel/utils.py:wid"]}
{"id": "C52", "title": "Subdiff linearizes the Kaucher product and returns formal solutions", "statement": "The matrix Subdiff builds at a point, applied to the flattened endpoints of that point, reproduces the endpoints of the Kaucher matrix-vector product whenever the coefficient or the unknown of each term is proper (it has a wrong sign for an improper coefficient times an improper unknown when both contain zero); for point matrices the answer is a formal solution; an answer that does not change with one more iteration, or whose matrix is that of the previous iterate, is a formal solution; proper formal solutions lie in the tolerable solution set, and those of the dual matrix in the united solution set. For proper matrices a run starts at the formal solution of the system of midpoints, makes Newton steps with relaxation tau, and ends at the first step whose starting point has a misfit of at most tol relative to the norm of the new point (or after maxiter + 1 steps); the misfit of the returned vector itself may exceed the tolerance.", "quantifier": "all generalized interval matrices and vectors", "why_tests_cant": "Sixteen sign cases at every entry.", "anchors": ["intvalpy/linear/Subdiff.py:Subdiff"]}
{"id": "C53", "title": "When the Neumaier estimate is inner", "statement": "The box returned by Neumaier for a square system lies inside the tolerable solution set exactly when the interval product of the matrix and the box lies inside the right-hand side. Around a tolerable centre this is so for one equation without weights, and for a square system without weights if in no row the average half-width of the box, weighted with the magnitudes of the row, exceeds the half-width of the coordinate with the number of that row; a cube with the smallest row radius is always inside. It is false in general because row radii are applied to coordinates, and false with weights: for one equation the half-widths returned fit the centre w*y instead of y. For one equation around the origin the box is the largest one with the proportions of the weights. On doubles rounding alone can put points outside the tolerable set into the box (5x = [-1,1] around 0); there component j is the smallest interval of doubles around y_j whose radius is the rounded quotient of the reported constituent of Tol and the sum of the magnitudes of the row, and for one equation whose reported constituent is not negative every point of the box satisfies the equation for all coefficients up to a margin of a few units of rounding error. A system with several equations in a different number (above one) of unknowns raises.", "quantifier": "all systems with a centre in the tolerable set", "why_tests_cant": "Continuum of points and matrices.", "anchors": ["intvalpy/linear/Neumaier.py"]}
{"id": "C54", "title": "WILS and ISPAE weights and fits are reproducible", "statement": "fit follows the smoothing recurrence for weights (weight k is (1-alpha) times the sum of beta^(k-i+1) alpha^(k-i) w_i for i up to k), keeps positive weights positive for 0<=alpha<1 and beta>0, and leaves them unchanged for alpha=0, beta=1; without a weight argument every fit of a history uses the same weights. A given weight array is overwritten, so each further fit with it smooths again, and integer arrays are truncated (unit weights with alpha=1/2 become zero).", "quantifier": "all data, parameters and number of iterations", "why_tests_cant": "Unbounded iteration histories.", "anchors": ["intvalpy/models/WILS.py", "intvalpy/models/ISPAE.py"]}
{"id": "C55", "title": "ISPAE value is the exact polynomial range", "statement": "With a list containing all real roots of the derivative, the value of a column is the exact range of the polynomial over the interval and the value of a row the exact range of the additive model over the box (its ends are attained in any case); predict contains it; a suitable list of roots always exists; the bases are the monomial, Chebyshev, Hermite, Laguerre and Legendre polynomials; a bias adds a constant proportional to its coefficient except for the Laguerre basis, where it has no effect.", "quantifier": "all coefficients, orders, bases and intervals", "why_tests_cant": "All members of an interval.", "anchors": ["intvalpy/models/ISPAE.py:ISPAE.value_of_one_col"]}
{"id": "C56", "title": "ChebNorm value is the Chebyshev deviation", "statement": "The ChebNorm value is attained by members of the data, so never exceeds the largest deviation; it equals the largest deviation where the endpoint comparison is right (in particular for point matrices), and is too small otherwise; with unit weights value and vector of calcfg bound the true deviation from below at all other points.", "quantifier": "all systems and points", "why_tests_cant": "Continuum of matrices.", "anchors": ["intvalpy/linear/ChebNorm.py"]}
{"id": "C57", "title": "log encloses the logarithm range", "statement": "log(X) contains ln x for every positive x in X (the platform log honouring the rounding direction); if every member is negative the result is the NaN interval.", "quantifier": "all intervals with double or small-int endpoints, all members", "why_tests_cant": "Transcendental function at all doubles, unbounded intervals.", "anchors": ["intvalpy/kernel/interval_arithmetics.pyx:BaseTools.log"]}
{"id": "C58", "title": "sqrt encloses the square-root range", "statement": "sqrt(X) contains the square root of every non-negative x in X, for a classical X with finite upper endpoint and some positive member (platform exp within one ulp, platform log within one ulp and honouring the rounding direction). If the lower endpoint is positive, each endpoint of the result differs from the square root of some member by a relative error of at most 2**-39.", "quantifier": "all classical intervals, all members", "why_tests_cant": "Composition of two transcendental functions at all doubles.", "anchors": ["intvalpy/kernel/interval_arithmetics.pyx:BaseTools.sqrt"]}
{"id": "C59", "title": "Array arithmetic is elementwise with broadcasting and encloses", "statement": "For interval arrays X, Y of broadcast-compatible shapes X+Y, X-Y, X*Y, X/Y have the broadcast shape and at every index the scalar operation of the broadcast elements, hence contain every elementwise real result; reflected and numpy-left forms and scalar-interval operands agree. Dividing by a scalar interval containing zero is not rejected (refuted).", "quantifier": "all array shapes and dimensions, all four operations, all elements and members", "why_tests_cant": "Broadcasting ranges over all pairs of shapes; tests only see a few.", "anchors": ["intvalpy/kernel/real_intervals.py:ArrayInterval.__add__", "intvalpy/kernel/real_intervals.py:ArrayInterval.__array_ufunc__", "intvalpy/kernel/real_intervals.py:ArrayInterval.__truediv__"]}
{"id": "C60", "title": "Indexing, transpose, reshape and membership of arrays", "statement": "X[k] is the element or sub-array of the data at k with consistent shape; X.T[j,i] = X[i,j] and transposing twice is the identity; reshape keeps the elements in row-major order; \"v in X\" for an array X means some element contains v (not every element).", "quantifier": "all array shapes, all keys, all permissible reshapes", "why_tests_cant": "Ranges over all shapes, dimensions and keys.", "anchors": ["intvalpy/kernel/real_intervals.py:ArrayInterval.__getitem__", "intvalpy/kernel/real_intervals.py:ArrayInterval.T", "intvalpy/kernel/real_intervals.py:ArrayInterval.reshape", "intvalpy/kernel/real_intervals.py:ArrayInterval.__contains__"]}
{"id": "C61", "title": "Kaucher division rounds outward on non-negative dividends and positive divisors", "statement": "For X, Y not both classical, X with non-negative finite endpoints and Y with endpoints at least the smallest normal double, X/Y succeeds, is of the Kaucher class, its lower endpoint is at most lower(X)/upper(Y) and its upper endpoint is at least upper(X)/lower(Y).", "quantifier": "all such pairs of intervals, proper or improper, any ambient rounding mode", "why_tests_cant": "Two successive directed roundings have to go the same way on all 2^256 endpoint combinations.", "anchors": ["intvalpy/kernel/interval_arithmetics.pyx:KaucherArithmetic.__truediv__"]}
{"id": "C62", "title": "The change of variables used for drawing in space parametrizes exactly the plane", "statement": "For a non-zero inequality a.x >= b in three unknowns, the points xi + s y1 + t y2 are exactly the points of the plane a.x = b, each for one (s,t), and every other inequality c.x >= d holds at such a point iff the transformed inequality holds at (s,t).", "quantifier": "all planes, all inequalities, all points", "why_tests_cant": "Continuum of points.", "anchors": ["intvalpy/linear/boundary_intervals.py:ChangeVariable"]}
{"id": "C63", "title": "WILS objectives, fits and predictions", "statement": "The Tol/Uni objective with norm inf is the least, with norm l1 the sum, of the weighted slacks of the observations; the vector given to the optimizer is a subgradient (Tol everywhere, Uss within an orthant, Uni within an orthant if no row that counts has the midpoint of its observation strictly inside the range of the model, else not); fit reports the penalized objective at the point it returns, never less than at the starting point; with Tol and norm inf a non-negative value holds iff the coefficients are tolerable, and then the predictions on the training data lie in (Uni: meet) the observed intervals; for norm l1 a non-negative value is necessary but not sufficient.", "quantifier": "all interval data, weights, starting points, parameters of the optimizer", "why_tests_cant": "Continuum of data and points, unbounded iterations.", "anchors": ["intvalpy/models/WILS.py:WILS.fit", "intvalpy/models/WILS.py:WILS.predict"]}
{"id": "C64", "title": "ISPAE objectives, fits and predictions", "statement": "With exact roots, a non-negative Tol (Uni) objective with norm inf holds iff for every observation the additive model stays in (meets) the observed interval for all (some) members of the row; fit reports the objective at the point it returns, never less than at the starting point. The predictions on the training data may leave the observed intervals although the objective is non-negative, and the vector given to the optimizer need not be a subgradient. With columns of order one, objective and vector are those of the linear model WILS for the matrix of the first basis polynomials, and there the vector is a subgradient (Tol).", "quantifier": "all interval data, bases, orders, weights, starting points", "why_tests_cant": "Continuum of members and points, unbounded iterations.", "anchors": ["intvalpy/models/ISPAE.py:ISPAE.fit", "intvalpy/models/ISPAE.py:ISPAE.predict"]}
{"id": "C65", "title": "PPS encloses the solution set in the generic case", "statement": "When everything PPS calls tells the truth (the outer estimator and the interval inverse enclose, the real solver is exact), then whatever the tolerance and the iteration limit: if PPS returns for a component, the interval contains that component of every solution of every real system inside A, b, provided the smallest and largest values of the component are taken at a member system whose solution and whose inverse row have no zero component. Without that provision solutions may be missed (a 2 x 2 block-triangular system, refuted). The undefined name rt in the source is never read. A matrix of plain numbers raises UnboundLocalError.", "quantifier": "all n x n interval systems, components, tolerances, iteration limits, truthful estimators, members and solutions", "why_tests_cant": "Continuum of member systems; adaptive subdivision with unbounded histories.", "anchors": ["intvalpy/linear/PPS.py:PPS"]}
{"id": "C66", "title": "The drawing window: one for all orthants, and not always the one asked for", "statement": "All slices of an IntLinIncR2 answer are cut with one window, whatever calls were made before. If the module state is clean - at import, after an IntLinIncR2 call that returned, after lineqs calls with bounds - a given window is the one used. After lineqs was called without bounds on an unbounded set, the next IntLinIncR2 call ignores its bounds argument (refuted). Without a given window all slices are cut with one square around the origin that holds every point lineqs itself would list for each orthant. The window lineqs chooses itself can shrink to a point or miss the set and raise (refuted).", "quantifier": "all histories of calls, all interval systems, all windows", "why_tests_cant": "Depends on the history of calls and on a continuum of inputs.", "anchors": ["intvalpy/linear/boundary_intervals.py:lineqs", "intvalpy/linear/boundary_intervals.py:IntLinIncR2", "intvalpy/linear/boundary_intervals.py:__center_rm"]}
{"id": "C67", "title": "ive never underestimates the variability measure", "statement": "The value of ive(A,b,N) is sqrt(n) * t * c * |x| / |b|, where x is a point whose image of A stays inside b with slack exactly t, and c is the condition number of a corner matrix, the least among the sampled ones. Whatever was sampled it is not closer to zero than with the least condition number of all corners; more rounds can only bring it closer; a positive value proves that the tolerable set has a point with positive slack, a negative one (when the maximum of Tol was found) that it is empty. Every corner matrix can be the sampled one. If no sampled matrix has a finite condition number, or the right-hand side is zero, the value is infinite with the sign of t, or NaN if t, |x| or n is zero; in particular with N=0 it is not a number. A system with positive slack can have the value 0.", "quantifier": "every system, every number of rounds, every outcome of the random choices, every starting point, every answer of numpy.linalg.cond", "why_tests_cant": "the random choices and the condition numbers range over infinitely many outcomes; a test samples a few", "anchors": ["intvalpy/linear/system_properties.py:ive", "intvalpy/linear/Tol.py:Tol.maximize"]}
{"id": "C68", "title": "Every interval pair is drawn exactly once, as itself", "statement": "IPlot.scatter(x, y) draws for every index exactly one shape: a dot when both intervals are points, an outline when one is, a filled polygon otherwise; the convex hull of the polygon drawn is exactly the box x[i] times y[i]. IPlot.IntLinIncR2 draws every non-empty list of vertices as one filled polygon with all its vertices and nothing else.", "quantifier": "all arrays of proper intervals of any length", "why_tests_cant": "the claim is about all mixtures of degenerate and non-degenerate intervals; pictures are not compared by tests", "anchors": ["intvalpy/kernel/visualization.py:IPlot.scatter", "intvalpy/kernel/visualization.py:IPlot.IntLinIncR2"]}
{"id": "C69", "title": "lineqs3D lists the faces of the set in space", "statement": "For a bounded set {x : A x >= b} in space, lineqs3D(A, b) returns one polygon for every non-empty face, in the order of the inequalities; each polygon lists every corner of its face exactly once in order around the face (and may repeat one at the end). An unbounded set is cut with the bounds asked for, or with a cube if none are given. Repeated inequalities do not change the answer. Exceptions: different inequalities with the same row of A - b are taken for one, a contradictory inequality 0 >= 1 is ignored, a single inequality raises, a system containing a whole plane raises without bounds, and the cube chosen by the program can miss the set.", "quantifier": "all systems of inequalities in three unknowns whose directions are parallel or noticeably different and whose corners are noticeably apart", "why_tests_cant": "depends on the geometry of arbitrary polyhedra; tests compare a few pictures", "anchors": ["intvalpy/linear/boundary_intervals.py:lineqs3D", "intvalpy/linear/boundary_intervals.py:ChangeVariable", "intvalpy/kernel/preprocessing.py:non_repeat", "intvalpy/kernel/preprocessing.py:clear_zero_rows"]}
{"id": "C70", "title": "IntLinIncR3 returns the solution set in space", "statement": "IntLinIncR3(A, b) returns eight lists of polygons, one per orthant; the convex hull of the points of each is the part of the united (or tolerable) solution set in that orthant, up to the shift of the right-hand side by 1e-15, and an unbounded part is cut by the bounds asked for. All eight are cut by one window, whatever lineqs, lineqs3D, IntLinIncR2 or IntLinIncR3 calls came before, and a call that returns leaves the shared module variable empty. Exceptions: after a call of lineqs3D without bounds the bounds asked for are replaced by the left-over ones, and an equation whose row of A - b equals another row is lost, so that a box can be returned for an empty solution set.", "quantifier": "all interval matrices with three columns, all right-hand sides, both kinds of solution set, all windows, all histories of calls", "why_tests_cant": "The hull statement ranges over all systems and all points; the history statement over all sequences of calls sharing a module variable.", "anchors": ["intvalpy/linear/boundary_intervals.py:IntLinIncR3", "intvalpy/linear/boundary_intervals.py:lineqs3D", "intvalpy/kernel/preprocessing.py:non_repeat"]}
{"id": "C71", "title": "Comparing interval arrays compares their elements", "statement": "For an interval array x and an interval array, numpy array or number y, each of x < y, x <= y, x == y, x != y, x > y, x >= y returns a boolean array of the broadcast shape whose element at every index is the comparison of the two elements read there; for elements with finite endpoints that is the comparison of both endpoints as reals (!= is the negation of ==). Shapes that do not broadcast raise ValueError. A scalar interval as the other operand raises NotImplementedError and a numpy array on the left raises Exception.", "quantifier": "all six operators, all shapes and elements", "why_tests_cant": "tests compare a few arrays of one shape", "anchors": ["intvalpy/kernel/real_intervals.py:ArrayInterval.__lt__", "intvalpy/kernel/real_intervals.py:ArrayInterval.__eq__", "intvalpy/kernel/real_intervals.py:ArrayInterval.__array_ufunc__"]}
{"id": "C72", "title": "Iterating over an interval array visits its pieces in order, and sum encloses", "statement": "len(x) is the length of the first dimension; iteration yields that many pieces, the i-th holding exactly the elements x[i, ...]. sum(x) of a vector of intervals contains every sum of members (or is NaN), and is the number 0 for an empty vector. For two or more dimensions sum(x) is a numpy array of the shape of a piece whose element at each index is the sum of the vector of elements at that index.", "quantifier": "all array shapes, all vectors, all choices of members, all rounding modes", "why_tests_cant": "the sum has unboundedly many rounding patterns and members", "anchors": ["intvalpy/kernel/real_intervals.py:ArrayInterval.__len__", "intvalpy/kernel/real_intervals.py:ArrayInterval.__iter__"]}
{"id": "C73", "title": "Elementary functions and powers act on interval arrays element by element", "statement": "np.sqrt, np.exp, np.log, np.sin, np.cos of an interval array return an array of the same shape whose element at each index is the function of the element there, hence contains the value of the real function at every member of that element for which the scalar function guarantees it (C25, C26, C57, C58); an exception is the one of the first element that raises. The functions sqrt, exp, log, sin, cos of the package convert their argument first and then do the same. x ** n broadcasts the exponents and raises each element to the exponent read at the same index; for integer endpoints and exponents each element is the exact range.", "quantifier": "all arrays, all members, all C libraries that round within the stated error", "why_tests_cant": "an enclosure ranges over all reals in all elements", "anchors": ["intvalpy/kernel/real_intervals.py:ArrayInterval.__array_ufunc__", "intvalpy/kernel/real_intervals.py:ArrayInterval.__pow__", "intvalpy/kernel/elementary_functions.py:sqrt", "intvalpy/kernel/elementary_functions.py:exp", "intvalpy/kernel/elementary_functions.py:log", "intvalpy/kernel/elementary_functions.py:sin", "intvalpy/kernel/elementary_functions.py:cos"]}
{"id": "C74", "title": "Slices, lists and masks select and assign exactly the elements Python prescribes", "statement": "x[key] with ints, slices start:stop:step (negative, omitted or out-of-range bounds, negative steps), a list of ints or a mask among slices, several lists, masks and ints together (then they are run through in parallel: their lengths must be 1 or one common number, and the common dimension stands where they stand if no slice is between them, else in front), a key shorter than the number of dimensions, or a mask of the shape of x, returns the interval itself when all components are ints and otherwise a new array: its shape has one dimension per non-int component with as many entries as that component selects, and its element at every index is the element of x that the index names. x[key] = v stores v (an interval, a number as a point interval, an array broadcast to the selection) at exactly those positions, the last one winning if a list repeats a position, and leaves every other element and the shape alone; a value that cannot be broadcast raises ValueError; x[key] then returns what was stored (where a list names an element several times, the value stored last, each time). A key with too many components and lists whose lengths do not fit raise IndexError, an index out of range or a step 0 raises IndexError or ValueError.", "quantifier": "every array of any number of dimensions, every key of the kinds described, every value", "why_tests_cant": "Combinations of dimensions, signs, bounds and steps are unlimited; tests look at a few small slices.", "anchors": ["intvalpy/kernel/real_intervals.py:ArrayInterval.__getitem__", "intvalpy/kernel/real_intervals.py:ArrayInterval.__setitem__"]}
{"id": "C75", "title": "Interval arrays do not share memory; only renaming and numpy handles alias", "statement": "Over every history of calls: v = w and asinterval(w) give another name to the same array object, so a change under one name is seen under all; slices, T, reshape, copy and arithmetic give new arrays that no later change to the original affects, and conversely. x[key] = v, x += y and del x[k] change exactly one object; a call that raises changes nothing. x.data (and np.asarray(x)) is live memory of x: writing an element of it writes that element of x and of no other array, through any sequence of further calls, until x op= y or del x[k] is applied to x, after which writing to the old x.data affects no array. The pieces met when iterating over an array of two or more dimensions are live memory too. Such a numpy array of intervals is no value for an item: x[key] = y.data raises (AssertionError; ValueError when empty).", "quantifier": "every finite sequence of constructions, assignments, reads, item assignments, in-place operators, deletions and writes through numpy handles on any number of variables", "why_tests_cant": "A sharing defect shows only for a particular order of slicing, copying and writing; the number of histories is unbounded.", "anchors": ["intvalpy/kernel/real_intervals.py:ArrayInterval.__init__", "intvalpy/kernel/real_intervals.py:ArrayInterval.__setitem__", "intvalpy/kernel/real_intervals.py:ArrayInterval.__iadd__", "intvalpy/kernel/real_intervals.py:ArrayInterval.__delitem__", "intvalpy/kernel/real_intervals.py:ArrayInterval.data", "intvalpy/kernel/preprocessing.py:asinterval"]}
{"id": "C76", "title": "get_shape returns the shape of regular nested lists", "statement": "For nested lists (or tuples) of numbers of a regular form get_shape returns the shape numpy would give, and for an ndarray its shape. For irregular nested lists any result is read off the first elements only: raggedness below a later element is not detected. A list of ndarrays loses its outer dimension, interval arrays raise or lose a trailing dimension of size 1, an empty list raises IndexError.", "quantifier": "nested lists of any depth, lengths and form", "why_tests_cant": "Depth and lengths are unbounded and the irregular forms are endless.", "anchors": ["intvalpy/kernel/preprocessing.py:get_shape"]}
{"id": "C77", "title": "PPS ends, and its answer is accurate to the tolerance", "statement": "PPS never runs forever: its inner sign propagation takes at most 4 n + 3 passes, whatever its helpers answer. When HBR, the interval inverse and the real solver answer for all subsystems and the matrix is not a matrix of numbers, PPS returns an interval. When HBR and the solver are exact on matrices of numbers (which HBR is if its inversions are) and the iteration limit is at least 2^(n^2+n+1), both ends of the answer are within tol of the value of the component at a solution; where PPS encloses the solution set (C65), the answer is the exact hull up to tol.", "quantifier": "all square interval systems, tolerances, iteration limits, components, and all answers of the helpers", "why_tests_cant": "termination and accuracy are statements about all runs of a branching search; a test follows one", "anchors": ["intvalpy/linear/PPS.py: PPS", "intvalpy/linear/HBR.py: HBR"]}
{"id": "C78", "title": "PSS ends by its tolerance, and its bounds are attained up to the tolerance", "statement": "With a truthful LP solver and a positive tolerance: if every other component of the starting box is narrower than tol after K reductions by 2/3 and at least one is not narrower to begin with, then from 2^(K (n-1)) iterations on the result of PSS for a component no longer depends on the limit, and a bound it returns is the value of the component at a solution of the system whose i-th right-hand side is widened by tol/2 times the sum of magnitudes of the other coefficients of row i (plus (m+1) 1e-15 times that of the component, the slack of the intersections). So for a system without solutions after this widening PSS raises. It needs a starting box whose end in the component is not 0 (otherwise the bound may stay 0 for every tolerance) and at most 1e15. An answer is not guaranteed: for a component that does not depend on the others more iterations may turn the right answer into an IndexError.", "quantifier": "all rectangular interval systems, starting boxes, tolerances, iteration limits, components and truthful LP solvers", "why_tests_cant": "termination and accuracy are statements about all runs of a branching search; a test follows one", "anchors": ["intvalpy/linear/PSS.py: PSS"]}
{"id": "C79", "title": "globopt reaches its tolerance, and then its box is optimal up to it", "statement": "Given a finite starting box whose endpoints are below 2^(d+45), an interval function that returns on every part of the box, and a resolution 2^d such that on parts narrower than 2^d in every component the width of the returned interval is below the tolerance: if K reductions by 9/16 (a halving up to rounding) bring every component below 2^(d-1), then with a limit of at least 2^(K n) - 2 iterations globopt returns a value interval narrower than the tolerance, its lower end bounds the function on the whole box from below, and the function at every point of the returned box exceeds the function at any point of the starting box by less than the tolerance. All this in floating point and for every rounding mode. (At least one endpoint of the first component must be a float.)", "quantifier": "all starting boxes of any dimension, interval functions and functions they enclose, tolerances, resolutions, iteration limits and rounding modes", "why_tests_cant": "convergence is a statement about all functions and all runs of a branching search; a test follows a few", "anchors": ["intvalpy/nonlinear/globopt.py: globopt"]}
{"id": "C80", "title": "An interval prints as its endpoints rounded to six significant digits", "statement": "repr(x) of a scalar interval is '[a, b]' (with the quotes), where a and b are decimal literals whose values are numbers of at most six significant digits closest to the lower and upper endpoint (of two equally close ones, one with an even last digit); endpoints with at most six significant digits are shown exactly, a proper interval is shown with a <= b, and infinite and NaN endpoints as inf, -inf and nan. It is not an outward rounding: the shown interval need not contain the interval, different intervals can print alike, and an int endpoint too large for a double raises OverflowError.", "quantifier": "all classical and Kaucher intervals with float endpoints or int endpoints up to 2^53", "why_tests_cant": "rounding to decimal digits has special cases (ties, carries, exponents) among all doubles; tests print a few", "anchors": ["intvalpy/kernel/interval_arithmetics.pyx: BaseTools.__repr__"]}
{"id": "C81", "title": "HBR on doubles keeps the solutions of diagonal systems, and of no larger class", "statement": "HBR as it runs on binary64: for one equation, and for any system whose matrix is diagonal (and for which numpy.linalg.inv returns a finite diagonal inverse of the midpoint), every component of the answer contains the solution or is NaN, whatever the rounding errors of the inner products and of the second inverse. In general solutions are lost: for the point system -8x+4y=2, 4x+3y=0 the answer misses x = -3/20 although both inverses are correct to half a unit in the last place and the inner products are rounded as well as possible.", "quantifier": "all n, all diagonal interval systems, all rounding modes, all behaviours of the inverse and of the inner product", "why_tests_cant": "The bounds alpha and beta are computed with rounding to nearest; which systems are affected depends on the last bits and on the BLAS in use.", "anchors": ["intvalpy/linear/HBR.py:HBR", "intvalpy/kernel/interval_arithmetics.pyx", "intvalpy/kernel/real_intervals.py:ArrayInterval"]}
{"id": "C82", "title": "ralgb5 evaluates the objective along Shor's method and never divides by zero", "statement": "In exact arithmetic, for every objective, starting point and choice of the parameters with tolg > 0 and alpha != 0: the points at which calcfg is called are, in order, those of Shor's subgradient method with space dilation in the direction of the difference of two successive subgradients, stated with a symmetric metric H instead of the factor the program keeps: directions H g / sqrt(g' H g), H shrunk by 1/alpha in the direction of the difference at every turn, the step enlarged by q2 after every nh moves of a line and diminished by q1 after a line of one move. H stays positive definite, every line starts against its subgradient, and no division by zero happens. With tolg = 0 a zero subgradient leads to 0/0 and the next point depends on its value.", "quantifier": "every subgradient oracle, starting point, dimension and parameter choice with tolg > 0 and alpha != 0; every number of evaluations", "why_tests_cant": "The sequence of directions depends on the whole history of subgradients; a wrong dilation still descends on the examples one tries.", "anchors": ["intvalpy/kernel/ralgb5.py:ralgb5"]}
{"id": "C83", "title": "One step of Krawczyk or HansenSengupta proves that a zero exists and is unique", "statement": "For one unknown: given inclusion functions of f and of its derivative on x0, if the call that makes a single step (Krawczyk with maxiter=0, HansenSengupta with maxiter=1) returns an interval whose ends lie strictly between those of x0, then x0 contains exactly one zero of f, and it lies in the result. With more steps the comparison of the result with x0 proves nothing: a constant non-zero function passes it.", "quantifier": "every function with inclusion functions, every starting interval of moderate size, every tolerance and rounding mode on entry", "why_tests_cant": "Existence of a zero is a statement about all reals of an interval and about every inclusion function; a test can only confirm zeros known beforehand, and the refuted variant holds on all usual examples.", "anchors": ["intvalpy/nonlinear/external_evaluation.py: Krawczyk", "intvalpy/nonlinear/external_evaluation.py: HansenSengupta"]}
{"id": "C84", "title": "More iterations or a smaller tolerance never widen the result", "statement": "Of two calls of Krawczyk, HansenSengupta (one unknown) or Gauss_Seidel with the same data, where the second has an iteration limit at least as large and a tolerance at most as large, the result of the second lies in the result of the first, provided x0 contains a zero (a solution) and the results are not NaN. Without a zero in x0 this fails: the intersection tolerates a gap of 1e-15, and a longer run of HansenSengupta can return an interval that sticks out of x0.", "quantifier": "every function with inclusion functions, every system and preconditioner with finite entries, every pair of limits and tolerances", "why_tests_cant": "It compares all pairs of runs; on usual examples the iteration has converged and both results coincide.", "anchors": ["intvalpy/nonlinear/external_evaluation.py: Krawczyk", "intvalpy/nonlinear/external_evaluation.py: HansenSengupta", "intvalpy/linear/Gauss_Seidel.py: Gauss_Seidel", "intvalpy/kernel/preprocessing.py: intersection"]}
{"id": "C85", "title": "Operations on intervals of the Kaucher class round each end by one rounding of the exact Kaucher end", "statement": "X+Y and X-Y of intervals of either class have the exact lower end rounded down and the exact upper end rounded up, and are of the classical class exactly if both operands are. If an operand is of the Kaucher class, X*Y is of the Kaucher class and its ends are the ends of the exact Kaucher product, the lower one rounded toward zero and the upper one away from zero; the same holds for the product with a number, and X/Y is that product of X and the outward rounded reciprocal of Y. So a product with a negative lower (upper) end is rounded inwards there.", "quantifier": "all finite intervals of both classes with doubles or small ints as ends, all finite numbers, all rounding modes at the call; for a product of a classical by a Kaucher interval, class and order of the ends agree; for quotients, both ends of the divisor have one sign and are at least the smallest normal double in magnitude", "why_tests_cant": "a test compares a few products against decimals and cannot tell the direction of the last bit for every sign combination", "anchors": ["intvalpy/kernel/interval_arithmetics.pyx:KaucherArithmetic.__add__", "intvalpy/kernel/interval_arithmetics.pyx:KaucherArithmetic.__mul__", "intvalpy/kernel/interval_arithmetics.pyx:KaucherArithmetic.__truediv__", "intvalpy/kernel/interval_arithmetics.pyx:KaucherArithmetic.__rmul__", "intvalpy/kernel/interval_arithmetics.pyx:ClassicalArithmetic.__mul__"]}
{"id": "C86", "title": "Arithmetic of proper and improper intervals is inclusion isotonic", "statement": "If the ends of X lie inside X2 (lower end not below, upper end not above, whatever the order of the ends) and those of Y inside Y2, then the computed X+Y, X-Y, X*Y lie inside X2+Y2, X2-Y2, X2*Y2 in the same sense, although products are not rounded outwards; likewise X/Y inside X2/Y2 for Kaucher divisions. Refuted when a proper interval carries the Kaucher class, as the sum of an improper and a proper interval does: its product is rounded otherwise than that of a classical interval inside it.", "quantifier": "all finite intervals, proper or improper, whose class agrees with the order of their ends (for quotients: any class, no division of two classical intervals), all rounding modes", "why_tests_cant": "isotonicity relates two computations over all nested operands; a failure is in the last bit", "anchors": ["intvalpy/kernel/interval_arithmetics.pyx:KaucherArithmetic.__add__", "intvalpy/kernel/interval_arithmetics.pyx:KaucherArithmetic.__mul__", "intvalpy/kernel/interval_arithmetics.pyx:KaucherArithmetic.__truediv__", "intvalpy/kernel/interval_arithmetics.pyx:ClassicalArithmetic.__mul__"]}
{"id": "C87", "title": "Elementary functions of proper and improper intervals are tight", "statement": "exp of an interval of either class has ends outside the exact exp of the ends and at most one double away from the neighbours; log of a positive interval has the exact logarithms rounded down and up as ends; sin and cos have ends at most one double beyond the neighbours of the least and the greatest value of the function between the ends of the argument, in this order for a proper and in the opposite order for an improper interval. The result keeps the class of the argument. Refuted: that the lower end of sin of an improper interval is not above the greatest value.", "quantifier": "all finite intervals of both classes with doubles or small ints as ends (sin, cos: of magnitude at most 2**20; exp: no overflow), all C libraries with faithful functions, all rounding modes", "why_tests_cant": "the extremum tests of sin and cos decide by floating-point quotients whether a multiple of pi lies in the interval; tests cannot cover the arguments next to such multiples", "anchors": ["intvalpy/kernel/interval_arithmetics.pyx:BaseTools.exp", "intvalpy/kernel/interval_arithmetics.pyx:BaseTools.log", "intvalpy/kernel/interval_arithmetics.pyx:BaseTools.sin", "intvalpy/kernel/interval_arithmetics.pyx:BaseTools.cos"]}
{"id": "C88", "title": "Natural powers of intervals of the Kaucher class", "statement": "X**n for X of the Kaucher class and n > 0 has the least and the greatest value of x**n between the ends of X as ends, in this order for a proper and in the opposite order for an improper X, if n is odd, or both ends are non-negative, or 0 lies between them. For double ends that are non-negative the ends are rounded outwards. Refuted: for an even n and an improper X with two negative ends the result is the proper interval with these ends, and X**0 of an improper X around 0 is [1, 0].", "quantifier": "all intervals of the Kaucher class with int ends whose powers are at most 2**53 in magnitude, or with finite double ends; all n", "why_tests_cant": "the branches depend on the parity of n, the order and the signs of the ends; each must be right for all ends", "anchors": ["intvalpy/kernel/interval_arithmetics.pyx:KaucherArithmetic.__pow__"]}
{"id": "C89", "title": "repr of an interval array", "statement": "repr of an interval array is \"Interval(\", the text numpy gives for the elements, and \")\", as long as the last line of that text (with \"array(\" before and \",\" behind it) leaves 14 characters in the line width for the type. Otherwise, and so already for a vector of four intervals such as [-100, 100] on one line, the text is followed by a comma, a line break, four blanks and the parenthesis.", "quantifier": "all line widths and all texts of the elements, of one or several lines", "why_tests_cant": "the fixed offsets 5 and -15 cut the right text for short rows, which is what tests print", "anchors": ["intvalpy/kernel/real_intervals.py:ArrayInterval.__repr__"]}
{"id": "C90", "title": "Unary properties of interval arrays act element by element", "statement": "For an interval array x with at least one element, x.dual, x.pro, x.opp, x.inv, abs(x) and -x are interval arrays of the same shape whose element at each index is that of the element of x there: abs gives exactly the absolute values, inv the outward rounded reciprocals of the ends in the same order. An exception is that of the first element that raises one; an array without elements raises ValueError, except under -x. x.khi is an array of doubles: for each element the end of smaller magnitude divided by the other end, rounded; it lies in [-1, 1], is 1 exactly for point intervals and -1 exactly for intervals symmetric about 0, and [0, 0] raises ZeroDivisionError. The function khi on a list that starts with a number truncates the values for the intervals in it. x.to_float() and reversed(x) always raise AttributeError.", "quantifier": "all interval arrays of any shape with elements as stated (proper or improper), every rounding mode, every index", "why_tests_cant": "Tests compare a few arrays; that no shape, position, class or rounding mode of the caller behaves differently, and the exact range of khi under rounding, need a proof over all of them.", "anchors": ["intvalpy/kernel/real_intervals.py:ArrayInterval.dual", "intvalpy/kernel/real_intervals.py:ArrayInterval.inv", "intvalpy/kernel/real_intervals.py:ArrayInterval.khi", "intvalpy/kernel/real_intervals.py:ArrayInterval.__abs__", "intvalpy/kernel/real_intervals.py:ArrayInterval.__neg__", "intvalpy/kernel/real_intervals.py:ArrayInterval.to_float", "intvalpy/kernel/real_intervals.py:ArrayInterval.__reversed__", "intvalpy/kernel/interval_arithmetics.pyx:BaseTools.khi", "intvalpy/kernel/utils.py:khi"]}
{"id": "C91", "title": "Maximization under linear constraints", "statement": "maximize of Tol, Uni and Uss with a LinearConstraint and coefficient mu > 0 returns a point x and the value F(x) - mu * (total violation of the constraints at x). This value is never above F(x), equals F(x) exactly when x satisfies the constraints, and is never below the same quantity at the starting point; a non-negative value means that x is a tolerable (united) solution, and a starting point that is one and satisfies the constraints never leads to a negative value (ChebNorm.minimize likewise with the sign reversed). The coefficient chosen automatically is large enough when every constraint row has a variable that occurs in no other row and no weight exceeds 1: no point outside the constraints has a better penalized value than every point inside, and with any larger mu every point outside is strictly worse than some point inside. It guarantees no more: the run can return the infeasible default starting point for every setting of the optimizer, and when rows share all their variables, when a weight exceeds 1, or when the constraint object was used with another system before (its mu is kept through every sequence of calls), an infeasible point can be strictly best. A row with both a finite lower and a finite upper bound always makes the automatic mu infinite; the penalty is then NaN at every point satisfying the constraints, and in binary64 a run from such a point returns it with the value NaN.", "quantifier": "all proper interval systems of any size, weights, constraint matrices and bounds, starting points, optimizer parameters and sequences of calls with one constraint object; binary64 for the run with infinite mu", "why_tests_cant": "A test sees a few constraint sets where the penalty happens to suffice; whether it suffices for every point of R^n, and what earlier calls leave in the object, are statements about all points and histories.", "anchors": ["intvalpy/kernel/abstract.py:BaseRecFun.optimize", "intvalpy/kernel/abstract.py:BaseRecFun.linear_penalty", "intvalpy/kernel/abstract.py:LinearConstraint.find_mu", "intvalpy/linear/Tol.py:Tol.maximize", "intvalpy/linear/Uni.py:Uni.maximize", "intvalpy/linear/Uss.py:Uss.maximize", "intvalpy/linear/ChebNorm.py:ChebNorm.minimize"]}
{"id": "C92", "title": "Which laws of arithmetic survive outward rounding", "statement": "For proper intervals with finite endpoints the following hold as equality (==) of the returned intervals, whatever rounding or overflow happens: X+Y == Y+X, X*Y == Y*X, X-Y == -(Y-X) == X+(-Y), (-X)*Y == X*(-Y) == -(X*Y) and the same for division; a number c in +, - and * acts as the interval [c,c]; X+0, X-0, X*1 and X/[1,1] equal X, 0-X equals -X, X*0 equals 0; X+X == 2*X. X-X is symmetric around 0, which it contains, and is 0 only for a point; X/X contains 1 and is 1 only for a point. X is contained in (X+Y)-Y, (X-Y)+Y and, if nothing overflows and Y excludes 0, in (X*Y)/Y and (X/Y)*Y. X*(Y+Z) is contained in X*Y+X*Z when Y+Z needs no rounding. Associativity of +, distributivity, and subdistributivity with a rounded Y+Z are false.", "quantifier": "all pairs and triples of proper intervals with finite endpoints (doubles, or ints up to 2^26) and all ambient rounding modes", "why_tests_cant": "Algebraic identities range over all pairs of doubles; a rounding that breaks one does so on a sparse set of endpoints that examples miss.", "anchors": ["intvalpy/kernel/interval_arithmetics.pyx:ClassicalArithmetic.__add__", "intvalpy/kernel/interval_arithmetics.pyx:ClassicalArithmetic.__sub__", "intvalpy/kernel/interval_arithmetics.pyx:ClassicalArithmetic.__mul__", "intvalpy/kernel/interval_arithmetics.pyx:ClassicalArithmetic.__truediv__", "intvalpy/kernel/interval_arithmetics.pyx:BaseTools.__neg__", "intvalpy/kernel/interval_arithmetics.pyx:BaseTools.__eq__"]}
{"id": "C93", "title": "What Tol.maximize, Uni.maximize and Uss.maximize return on doubles", "statement": "Let (x, v) be the point and the value returned. If v is not NaN, v is the least constituent recomputed with numpy at x exactly (the optimizer reports the value of the point it reports), and v is at least the value at the starting point. Started at a point of a proper system of moderate size with weights of at least 1, v is not NaN, whatever the tolerances and the iteration limit. If v >= 0, then for Tol every matrix, for Uni and Uss some matrix of the system sends x into the right-hand side widened by an explicit rounding margin; if v < 0, then for Tol some matrix does not, for Uni and Uss no matrix does send x into the right-hand side narrowed by it. With weights 1 the finite value itself is accurate: up to twice the margin, v is the greatest amount by which the right-hand side can be narrowed so that every matrix (Tol), some matrix (Uni, and Uss when v <= 0) still sends x into it, a negative amount being a widening. Without the margin this is false with the default parameters: maximize reports a non-negative value at a point that no matrix sends into the right-hand side, at which Tol.value is negative. A negative maximum does not show that the solution set is empty: x = 1 started at 0.5 yields a negative value. The search direction of one constituent given to the optimizer is also right: for Tol and Uni (and WILS) it is, with one rounding in each component, plus or minus the weight times a supergradient of the least or a subgradient of the greatest product of the row and x, the side being chosen by the computed ends of the residual; for Uss it is the weight times the radii with the signs of x plus the midpoints with the sign of the computed residual, up to rounding.", "quantifier": "all proper systems of any size, all starting points, weights and parameters of the optimizer, all vector operations and inner products with a known error bound, all numbers of iterations", "why_tests_cant": "The run of the optimizer depends on every rounding in it; tests see only a few runs and compare with tolerances that hide the sign of the value.", "anchors": ["intvalpy/linear/Tol.py:Tol.maximize", "intvalpy/linear/Uni.py:Uni.maximize", "intvalpy/linear/Uss.py:Uss.maximize", "intvalpy/linear/Tol.py:Tol.calcfg", "intvalpy/linear/Uni.py:Uni.calcfg", "intvalpy/linear/Uss.py:Uss.calcfg", "intvalpy/kernel/abstract.py:BaseRecFun.optimize", "intvalpy/kernel/ralgb5.py:ralgb5"]}
{"id": "C94", "title": "What maximize under a linear constraint returns on doubles", "statement": "Let (x, v) be the point and the value Tol.maximize, Uni.maximize or Uss.maximize returns with a linear_constraint C x <= c and its coefficient mu. If v is not NaN, v is exactly the least constituent at x minus mu times the sum of the computed violations at x, and at least the same expression at the starting point. With mu >= 0, v is at most the least constituent, so v >= 0 means what it means without the constraint (C93), whether x satisfies the constraint or not; with a finite mu and a point x that satisfies the constraint, v is the least constituent, so v < 0 means what it means without it. That x satisfies the constraint is not guaranteed: with x <= 1, the coefficient mu = 1 the library itself chooses, and a feasible start, x = 1.5 is reported with a positive value. The direction added for the penalty is mu times a subgradient of the total violation, up to the error of the summation and one rounding in each component, where the computed left-hand sides decide the rows correctly.", "quantifier": "all proper systems, constraints, coefficients, weights, starting points and parameters of the optimizer, all orders of summation, all numbers of iterations", "why_tests_cant": "Which points the optimizer visits depends on every rounding; a test sees one run and cannot tell a penalty that is too small from one that is never active.", "anchors": ["intvalpy/kernel/abstract.py:BaseRecFun.linear_penalty", "intvalpy/kernel/abstract.py:LinearConstraint.largeCondQ", "intvalpy/linear/Tol.py:Tol.calcfg_constr", "intvalpy/linear/Uni.py:Uni.calcfg_constr", "intvalpy/linear/Uss.py:Uss.calcfg_constr", "intvalpy/kernel/abstract.py:BaseRecFun.optimize"]}
{"id": "C95", "title": "Rohn as a whole, with the value Tol.maximize reports on doubles", "statement": "Rohn(A, b, consistency=c) raises for every c other than uni and tol. With a truthful LP solver, what it returns for tol is coordinate by coordinate the exact (attained) range of the tolerable solution set, whatever value Tol.maximize reported on doubles, and it raises when that set is empty. For a non-empty bounded set it raises exactly when the value Tol.maximize reported is negative, so it returns whenever the value computed at the starting point is not. That it raises only for an empty set is false: for 3 x = 3 + 2^-51, whose solution is no double, the message that the tolerable set is empty appears from every starting point, with all parameters of the optimizer and all LP solvers.", "quantifier": "all systems with proper finite coefficients, all starting points, parameters and vector operations of the optimizer, all truthful LP solvers, all values of consistency", "why_tests_cant": "Whether the reported value is negative depends on the rounding of every step of the optimizer; tests use systems with a wide margin.", "anchors": ["intvalpy/linear/Rohn.py:Rohn", "intvalpy/linear/Rohn.py:_Rohn_Tol", "intvalpy/linear/Tol.py:Tol.maximize"]}
{"id": "C96", "title": "Powers with float or negative exponents", "statement": "For an interval X with 0 <= X and a finite exponent e that is a float or a negative int, X ** e contains x**e for every member x (with 0**e = 0 for e > 0), provided no such power exceeds 2**1023 and either e > 0 or the lower end of X is positive. In particular X ** -n contains 1/x**n for every member. The enclosure is tight: if the lower end of X is positive and the powers lie between 2**-1000 and 2**1000, each end of the result differs from the power of some member by a relative error of at most 2**-39. For a Kaucher interval with positive ends, proper or improper, the ends of X ** e are those of the powers of the ends (exchanged when e is negative) up to the same relative error. If an end of X is negative the operation raises ValueError, even when the float exponent is a whole number. X ** 0.5 is np.sqrt(X). Two limits: [0, 1] ** 0.0 is the NaN interval although x**0 = 1 for its positive members, and [1, 2**1000] ** 2.0 is [inf, inf], which does not contain 1**2.", "quantifier": "all classical and Kaucher intervals with double or small int ends, all finite float and all small negative int exponents, all members, all rounding modes, all C libraries whose exp and log are faithful and whose log honours the direction", "why_tests_cant": "an enclosure ranges over all reals of all intervals and over the rounding errors of the C library", "anchors": ["intvalpy/kernel/interval_arithmetics.pyx:ClassicalArithmetic.__pow__", "intvalpy/kernel/interval_arithmetics.pyx:KaucherArithmetic.__pow__", "intvalpy/kernel/interval_arithmetics.pyx:BaseTools.exp", "intvalpy/kernel/interval_arithmetics.pyx:BaseTools.log"]}
{"id": "C97", "title": "WILS.fit and predict in double precision", "statement": "WILS(alpha, beta).fit(X, y, ...) with double precision arithmetic asserts that X and y have as many rows, and otherwise returns. Unless it is NaN, the reported fr is the least weighted slack (norm inf) or the np.sum of the weighted slacks (norm l1) of the chosen objective at the reported xr, less the penalty of the constraint, and is not less than the value at the starting point. For 0 <= alpha < 1 and 0 < beta <= 1 the smoothed weights stay positive and within the bound of the given ones and follow the exponential smoothing rule up to a relative error of 2^-49; with alpha=0, beta=1 they are unchanged. With norm inf a non-negative fr means that xr explains the observations (Tol: with every matrix in X, Uni and Uss: with some) up to an explicit rounding margin; under either norm a negative fr at coefficients satisfying the constraint means that it does not. With norm l1 a non-negative fr does not mean that; and a second fit with the same weight array smooths the weights again. predict(X) contains the values of the model for every matrix in X. The search direction given to the optimizer is the negated direction of one row with the least slack (norm inf) or of the sum over all rows (norm l1), plus the direction of the penalty (C93, C94).", "quantifier": "all data, observations, weights, starting points, optimizer parameters and orders of summation in numpy; entries and coefficients up to 2^400, weights from 2^-300 to 2^300", "why_tests_cant": "The optimizer may end anywhere and the rounding errors of matrix products differ with the order of summation; a test sees a few data sets, on which a point that misses an observation by a rounding error is not noticed", "anchors": ["intvalpy/models/WILS.py: WILS.fit, WILS.predict, _tol_calcfg_extend, _uni_calcfg_extend, _uss_calcfg_extend, _wrap_norm", "intvalpy/kernel/ralgb5.py: ralgb5"]}
{"id": "C98", "title": "Values of ISPAE in double precision", "statement": "With the monomial basis and finite data that do not overflow, the value of a column is a proper interval with finite ends and is the range of the polynomial over the data interval: widened by the rounding error (2^-50 of the size of the terms for each coefficient) and by the error of the critical points found it contains every value, and each end is within the rounding error of a value. The value of a row is, in the same sense, the range of the sum of the polynomials over the box. The rounding is to nearest and not outwards, so the value need not contain the range, even for a point and one coefficient: 0.1 x at x = 3.", "quantifier": "all coefficients, orders, numbers of columns, intervals of doubles and lists of approximate critical points", "why_tests_cant": "All members of an interval and all doubles; the error bound is for every order.", "anchors": ["intvalpy/models/ISPAE.py:ISPAE.value_of_one_col", "intvalpy/models/ISPAE.py:ISPAE.value"]}
{"id": "C99", "title": "What ISPAE.fit reports and predict returns in double precision", "statement": "With the monomial basis, unless the reported fr is NaN, it is the value of the chosen objective at the reported coefficients xr, and not less than the value at the starting point. With norm='inf', weights of at least 1 and data that do not overflow, Tol is a number. If it is not negative, every value of the model over every row of data lies in the target interval of that row, up to the rounding errors of the values and of the target's midpoint and radius; if it is negative, some value over some row leaves the target, up to these errors. If Uni is not negative, over every row some value of the model lies in the target; if it is negative, there is a row over which no value does, again up to explicit rounding errors. predict(X) contains every value of the model over the row up to the errors of the powers, unless it overflows to NaN; without overflow each of its ends is, up to rounding, a sum of the coefficients times powers of points of the row, taken independently for each power, so it is in general wider than the range.", "quantifier": "all data, orders, numbers of columns and rows, targets, weights of at least 1, coefficients, starting points, optimizer parameters and lists of approximate critical points", "why_tests_cant": "The optimizer may end at any coefficients, and the statement is about all points of all boxes of data; a test sees a few fits and cannot notice a residual whose sign is wrong by rounding", "anchors": ["intvalpy/models/ISPAE.py:ISPAE.fit", "intvalpy/models/ISPAE.py:ISPAE._tol_calcfg_extend", "intvalpy/models/ISPAE.py:ISPAE._uni_calcfg_extend", "intvalpy/models/ISPAE.py:ISPAE._wrap_norm", "intvalpy/models/ISPAE.py:ISPAE.predict", "intvalpy/models/ISPAE.py:ISPAE._expand_dataframe", "intvalpy/kernel/ralgb5.py:ralgb5"]}
