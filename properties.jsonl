{"id": "C01", "title": "Nominal values are those of the plain calculation", "statement": "The nominal value of any calculated number with uncertainty is exactly what the same calculation gives on the nominal values alone; uncertainties never influence it, and reading uncertainties or derivatives never changes it.", "quantifier": "all straight-line programs of arithmetic operators and math functions, all values, all interleavings of reads", "why_tests_cant": "programs, values and read orders are unbounded; a test samples a few expressions", "anchors": ["uncertainties/core.py: wrap, AffineScalarFunc.nominal_value, AffineScalarFunc.derivatives"]}
{"id": "C02", "title": "Derivatives are the true partial derivatives", "statement": "x.derivatives[v] is the partial derivative, at the nominal values, of the function that the program computes with respect to the independent variable v (chain rule through any number of shared intermediate results); a variable the result does not depend on has no entry.", "quantifier": "all programs whose elementary steps are differentiable at the nominal point, all nominal values, any sharing of sub-results", "why_tests_cant": "the claim is about every expression and every point; tests compare to finite differences at random points", "anchors": ["uncertainties/core.py: wrap, LinearCombination.expand, AffineScalarFunc.derivatives, get_ops_with_reflection"]}
{"id": "C03", "title": "Standard deviation is linear error propagation", "statement": "x.std_dev is the square root of the sum over the independent variables of (partial derivative times the variable's current standard deviation) squared.", "quantifier": "all programs, all standard deviations, any number of variables", "why_tests_cant": "ranges over all functions and all sets of variables", "anchors": ["uncertainties/core.py: AffineScalarFunc.std_dev, AffineScalarFunc.error_components"]}
{"id": "C04", "title": "Lazy evaluation is invisible", "statement": "Whether and when derivatives, standard deviations or error components of this or any other number sharing sub-results have been read makes no difference to any later result.", "quantifier": "all histories: all interleavings of calculations and reads over shared intermediate results", "why_tests_cant": "quantifies over histories; the internal representation is rewritten in place by reads", "anchors": ["uncertainties/core.py: LinearCombination.expand, AffineScalarFunc.derivatives"]}
{"id": "C05", "title": "Reading derivatives terminates and succeeds", "statement": "For numbers built through the public operations, computing the derivatives always terminates and does not raise.", "quantifier": "all numbers with uncertainties reachable by any history of public operations", "why_tests_cant": "termination over arbitrary shared expression graphs cannot be tested", "anchors": ["uncertainties/core.py: LinearCombination.expand", "uncertainties/umath_core.py: frexp, ldexp, modf"]}
{"id": "C06", "title": "Correlations cancel exactly", "statement": "Two calculations that define the same function of the same variables have a difference that is exactly 0+/-0 and compare equal, however each was computed.", "quantifier": "all pairs of programs with equal value and equal gradient", "why_tests_cant": "quantifies over pairs of programs", "anchors": ["uncertainties/core.py: LinearCombination.expand, eq_on_aff_funcs"]}
{"id": "C07", "title": "Every ufloat() call creates an independent variable", "statement": "Two numbers created by separate ufloat() calls are uncorrelated (zero covariance, each absent from the other's derivatives), even with identical value, uncertainty and tag, and never compare equal unless their uncertainties vanish.", "quantifier": "all creation parameters and all histories between the creations", "why_tests_cant": "identity freshness must hold after any history", "anchors": ["uncertainties/core.py: Variable.__init__, Variable.__hash__, ufloat, eq_on_aff_funcs"]}
{"id": "C08", "title": "Uncertainty updates are live and only affect uncertainties", "statement": "Setting v.std_dev makes the std_dev of every number depending on v, calculated before or after, use the new value; nothing else changes: no nominal value, no derivative, no number that does not depend on v.", "quantifier": "all histories, all variables, all new values", "why_tests_cant": "must hold for every earlier and later number in any history, whether its derivatives had been cached or not", "anchors": ["uncertainties/core.py: Variable.std_dev setter, AffineScalarFunc.error_components"]}
{"id": "C09", "title": "Negative standard deviations are rejected without side effect", "statement": "Creating a variable with, or assigning, a negative standard deviation raises NegativeStdDev and leaves the previous state untouched; any other float, including NaN, is accepted.", "quantifier": "all floats, all prior states", "why_tests_cant": "ranges over all floats including signed zeros, NaN and infinities", "anchors": ["uncertainties/core.py: Variable.__init__, Variable.std_dev setter, NegativeStdDev"]}
{"id": "C10", "title": "Equality means identical random variable", "statement": "x == y holds exactly when x-y has zero nominal value and zero standard deviation, i.e. same nominal value and same dependence on every uncertain variable; it is an equivalence relation, x == x always holds, and != is its negation.", "quantifier": "all numbers with uncertainties, in any state of laziness", "why_tests_cant": "relation laws over all values and all internal states", "anchors": ["uncertainties/core.py: eq_on_aff_funcs, ne_on_aff_funcs, force_aff_func_args"]}
{"id": "C11", "title": "Ordering compares nominal values consistently", "statement": "> and < compare nominal values and are strict orders, mirror images of each other; >= and <= are > or ==, < or ==, and are partial orders; distinct variables with the same nominal value are incomparable.", "quantifier": "all numbers with uncertainties", "why_tests_cant": "order laws over all triples of values", "anchors": ["uncertainties/core.py: gt_on_aff_funcs, ge_on_aff_funcs, lt_on_aff_funcs, le_on_aff_funcs"]}
{"id": "C12", "title": "Truth value is x != 0", "statement": "bool(x) is False exactly when x is the exact constant 0 (zero nominal value and zero standard deviation).", "quantifier": "all numbers with uncertainties", "why_tests_cant": "for every value and dependence", "anchors": ["uncertainties/core.py: AffineScalarFunc.__bool__"]}
{"id": "C13", "title": "Equal numbers used as keys hash equally", "statement": "If two variables compare equal, their hashes are equal (Python's contract for dictionary keys and set members).", "quantifier": "all pairs of variables", "why_tests_cant": "contract over all pairs of objects", "anchors": ["uncertainties/core.py: Variable.__hash__, eq_on_aff_funcs"]}
{"id": "C14", "title": "Exact variables contribute nothing", "statement": "A variable with zero standard deviation contributes exactly 0 to any uncertainty, even where the derivative is undefined (NaN) or infinite; so a function of exact numbers only has uncertainty 0.", "quantifier": "all functions and derivative values, including NaN and infinity", "why_tests_cant": "must hold for every NaN-producing function and combination", "anchors": ["uncertainties/core.py: AffineScalarFunc.error_components, nan_if_exception"]}
{"id": "C15", "title": "Error components decompose the variance", "statement": "error_components() has one non-negative entry per variable the number depends on, equal to |derivative| times standard deviation, and the squares sum to the variance.", "quantifier": "all numbers with uncertainties", "why_tests_cant": "any number of variables", "anchors": ["uncertainties/core.py: AffineScalarFunc.error_components, AffineScalarFunc.std_dev"]}
{"id": "C16", "title": "x.s is x.std_dev and x.n is x.nominal_value", "statement": "The documented abbreviations n and s return the same value as nominal_value and std_dev.", "quantifier": "all numbers with uncertainties, all magnitudes", "why_tests_cant": "ranges over all floats, including those whose square overflows or underflows", "anchors": ["uncertainties/core.py: AffineScalarFunc.s, AffineScalarFunc.n, Variable.std_dev"]}
{"id": "C17", "title": "Covariance matrix is the exact linear covariance", "statement": "covariance_matrix(nums) is a square, symmetric, positive semi-definite matrix of the right size whose (i,j) entry is the sum over variables of d_i*d_j*sigma^2.", "quantifier": "all lists of numbers with uncertainties, any length, any dependence", "why_tests_cant": "matrix laws over all lists", "anchors": ["uncertainties/core.py: covariance_matrix"]}
{"id": "C18", "title": "Covariance diagonal agrees with std_dev", "statement": "The i-th diagonal entry of covariance_matrix(nums) is the square of nums[i].std_dev.", "quantifier": "all lists of numbers with uncertainties, including undefined derivatives", "why_tests_cant": "two independent code paths must agree on all values, including NaN cases", "anchors": ["uncertainties/core.py: covariance_matrix, AffineScalarFunc.std_dev"]}
{"id": "C19", "title": "correlated_values reproduces the covariance matrix", "statement": "correlated_values(nom, C) and correlated_values_norm return numbers with the requested nominal values whose covariance matrix is exactly C for any positive semi-definite C, zero variances included, and which depend only on new variables.", "quantifier": "all sizes, all positive semi-definite matrices (given a correct eigen-decomposition)", "why_tests_cant": "ranges over all matrices; tests use three or four", "anchors": ["uncertainties/core.py: correlated_values, correlated_values_norm"]}
{"id": "C20", "title": "Correlation matrix is normalised", "statement": "correlation_matrix has unit diagonal, is symmetric, and all entries are within [-1, 1], for numbers with non-zero uncertainty.", "quantifier": "all lists of numbers with non-zero uncertainty", "why_tests_cant": "Cauchy-Schwarz over all inputs", "anchors": ["uncertainties/core.py: correlation_matrix"]}
{"id": "C21", "title": "Operators use correct derivatives, in both operand orders", "statement": "For +, -, *, /, unary -, + and abs, and for // and % away from their discontinuities, the propagated derivative is the true one, whether the uncertain operand is on the left, on the right, or both, and whether the other operand is an int, a float or an uncertain number.", "quantifier": "all operand values in the differentiability domain", "why_tests_cant": "all values and operand kinds", "anchors": ["uncertainties/core.py: get_ops_with_reflection, add_operators_to_AffineScalarFunc"]}
{"id": "C22", "title": "Power has correct derivatives and special cases", "statement": "x**y and y.__rpow__(x) propagate the true partial derivatives wherever they exist (x>0; x<0 with integral y; x==0 with y>=1 integral or y==0), NaN where they do not, and raise where the value itself is undefined or complex.", "quantifier": "all bases and exponents", "why_tests_cant": "case analysis over the whole plane", "anchors": ["uncertainties/core.py: pow_deriv_0, pow_deriv_1, no_complex_result", "uncertainties/umath_core.py: _deriv_pow_0, _deriv_pow_1"]}
{"id": "C23", "title": "umath functions use correct derivatives", "statement": "Each umath function with an analytical derivative (acos, acosh, asin, asinh, atan, atan2, atanh, copysign, cos, cosh, degrees, erf, erfc, exp, expm1, fabs, hypot, log with 1 or 2 arguments, log10, log1p, pow, radians, sin, sinh, sqrt, tan, tanh) propagates the exact mathematical derivative everywhere it exists in the interior of its domain.", "quantifier": "all arguments in the interior of each domain", "why_tests_cant": "real-analysis statement at every point", "anchors": ["uncertainties/umath_core.py: fixed_derivatives, log_der0, _deriv_copysign, _deriv_fabs"]}
{"id": "C24", "title": "Undefined derivatives become NaN, not exceptions", "statement": "If the function value is defined but a derivative calculation fails with ValueError, ZeroDivisionError or OverflowError, the derivative is NaN (so the uncertainty is NaN unless the variable is exact); other exceptions, and exceptions of the function itself, propagate unchanged.", "quantifier": "all umath functions and power, all arguments", "why_tests_cant": "all singular points of all functions", "anchors": ["uncertainties/core.py: nan_if_exception", "uncertainties/umath_core.py: wrap loop"]}
{"id": "C25", "title": "Wrapped functions are drop-in replacements", "statement": "wrap(f) called without any number with uncertainty returns exactly f's result (or raises f's exception); called with some, its nominal value is f at the nominal values; it never passes a number with uncertainty to f; non-numeric results give NotImplemented.", "quantifier": "all functions f, all positional and keyword arguments", "why_tests_cant": "quantifies over functions and argument lists", "anchors": ["uncertainties/core.py: wrap"]}
{"id": "C26", "title": "wrap uses the documented derivative for each argument", "statement": "For an uncertain positional argument i, wrap uses the i-th supplied derivative if there is one that is not None, else the numerical derivative; for a keyword argument it uses the derivative of the same-named positional parameter (as inspect lists them; bound methods: see C58), else the one in derivatives_kwargs, else the numerical one with respect to that name; same result for any order or number of calls.", "quantifier": "all derivative lists (finite or infinite, with None holes), all argument positions, all call histories", "why_tests_cant": "histories of calls with caching, infinite iterables", "anchors": ["uncertainties/core.py: wrap, IndexableIter, partial_derivative"]}
{"id": "C27", "title": "Wrapped functions of many arguments propagate by the chain rule", "statement": "The derivative of wrap(f)(args) with respect to v is the sum over uncertain arguments, positional and keyword, of the corresponding partial derivative times the argument's derivative, also when the same number is passed several times.", "quantifier": "all arities, all argument lists, all dependences", "why_tests_cant": "unbounded arity and sharing", "anchors": ["uncertainties/core.py: wrap"]}
{"id": "C28", "title": "IndexableIter caches faithfully", "statement": "Indexing returns the n-th element of the underlying iterable, with None replaced by none_converter(n), whatever the order and repetition of accesses.", "quantifier": "all iterables, all access sequences", "why_tests_cant": "all access histories", "anchors": ["uncertainties/core.py: IndexableIter"]}
{"id": "C29", "title": "Numerical derivatives are accurate", "statement": "partial_derivative(f, i) varies only argument i, uses a symmetric non-zero step, is exact for functions that are affine or quadratic in that argument, and its error is bounded by h^2/6 times a bound on the third derivative. In binary64, for a function calculated with an error of at most E whose derivative varies by at most V near x, the result is finite and within V + E/h + 2^-26 times (|derivative| + V + E/h) of the derivative, where h is 2^-26 |x| (2^-26 at zero).", "quantifier": "all functions, all argument positions, all points", "why_tests_cant": "error bound over all functions", "anchors": ["uncertainties/core.py: partial_derivative"]}
{"id": "C30", "title": "fsum, modf, ldexp, frexp propagate uncertainty", "statement": "umath.fsum(l) has the derivative of the sum; modf(x)[0], ldexp(x,i) and frexp(x)[0] have derivatives 1, 2**i and 2**-e times those of x; with exact arguments they behave like the math functions.", "quantifier": "all argument lists and all integers i", "why_tests_cant": "unbounded lists and exponents", "anchors": ["uncertainties/umath_core.py: wrapped_fsum, modf, ldexp, frexp"]}
{"id": "C31", "title": "Locally constant functions ignore uncertainties", "statement": "umath.ceil, floor, trunc, isinf and isnan return exactly what the math function returns on the nominal value, with no uncertainty.", "quantifier": "all arguments", "why_tests_cant": "all values", "anchors": ["uncertainties/umath_core.py: wrap_locally_cst_func, locally_cst_funcs"]}
{"id": "C32", "title": "Copies: which are correlated and which are not", "statement": "copy.copy of a calculated number stays fully correlated with it; copy.copy or copy.deepcopy of a variable, and copy.deepcopy of any number, have the same nominal value and uncertainty but are independent of the original and everything before it; internal correlations of the copied number are kept.", "quantifier": "all numbers, in any state of laziness, all heaps", "why_tests_cant": "graph copying over arbitrary shared expression graphs", "anchors": ["uncertainties/core.py: AffineScalarFunc.__deepcopy__, Variable.__copy__, Variable.__deepcopy__, LinearCombination.__getstate__"]}
{"id": "C33", "title": "Pickling preserves values and mutual correlations", "statement": "Numbers pickled together are restored with the same nominal values, standard deviations, tags and mutual covariances, on new variables independent of the originals; the originals are unaffected.", "quantifier": "all lists of numbers, all expression graphs, lazily evaluated or not", "why_tests_cant": "graph isomorphism over arbitrary graphs", "anchors": ["uncertainties/core.py: AffineScalarFunc.__getstate__, AffineScalarFunc.__setstate__, LinearCombination.__getstate__, LinearCombination.__setstate__"]}
{"id": "C34", "title": "An interrupted read does not corrupt the number", "statement": "If reading derivatives or std_dev is interrupted by an exception (KeyboardInterrupt, MemoryError, OverflowError) at any point, a later read returns the correct value.", "quantifier": "all interruption points, all expression graphs", "why_tests_cant": "every crash point of the expansion loop", "anchors": ["uncertainties/core.py: LinearCombination.expand"]}
{"id": "C35", "title": "Concurrent reads are safe", "statement": "Two threads reading std_dev or derivatives of the same number, or of numbers sharing sub-results, both obtain the correct values.", "quantifier": "all thread interleavings, all expression graphs", "why_tests_cant": "all schedules", "anchors": ["uncertainties/core.py: LinearCombination.expand, AffineScalarFunc.derivatives"]}
{"id": "C36", "title": "Format specifications are parsed as documented", "statement": "A specification assembled from fill, align, sign, zero, width, comma, precision, u, type and options is decomposed into exactly those parts, and a string that is not such a specification raises ValueError.", "quantifier": "all strings", "why_tests_cant": "all strings over an unbounded alphabet", "anchors": ["uncertainties/core.py: AffineScalarFunc.__format__"]}
{"id": "C37", "title": "Nominal value and uncertainty are shown with the same precision", "statement": "When the uncertainty is a non-zero real number, both displayed numbers have the same number of decimals and are the correct half-even roundings, at that digit, of the nominal value and the uncertainty divided by the common power of ten.", "quantifier": "all finite values, all format specifications", "why_tests_cant": "all values and specifications", "anchors": ["uncertainties/core.py: AffineScalarFunc.__format__, format_num"]}
{"id": "C38", "title": "Uncertainty is shown with the requested number of significant digits", "statement": "With .Nu the rounded uncertainty has exactly N significant digits (including when rounding carries into a new digit), except that digits up to the units are always shown.", "quantifier": "all positive uncertainties, all N >= 1", "why_tests_cant": "carry cases at every power of ten", "anchors": ["uncertainties/core.py: signif_dgt_to_limit, first_digit"]}
{"id": "C39", "title": "Default precision follows the PDG rule", "statement": "Without precision the number of digits of the uncertainty follows the Particle Data Group rule on its three highest digits: 100-354 two digits, 355-949 one digit, 950-999 rounded to 1000 with two digits.", "quantifier": "all positive uncertainties", "why_tests_cant": "boundaries at every decade", "anchors": ["uncertainties/core.py: PDG_precision"]}
{"id": "C40", "title": "Common exponent is chosen like for floats", "statement": "e/E always use, and g and the empty type use exactly when the exponent of the rounded larger value is below -4 or at least the number of significant digits, a common exponent which is that of the larger of |nominal value| and uncertainty after rounding, so its mantissa is in [1, 10); f/F and % never do.", "quantifier": "all values, types and precisions", "why_tests_cant": "all magnitudes and rounding carries", "anchors": ["uncertainties/core.py: AffineScalarFunc.__format__"]}
{"id": "C41", "title": "An exactly zero uncertainty is shown as 0", "statement": "If and only if the uncertainty is exactly zero it is shown as the integer 0 (0 digit without decimal point, no exponent attached) in all formats without width.", "quantifier": "all nominal values, all specifications", "why_tests_cant": "all values and specifications", "anchors": ["uncertainties/core.py: format_num"]}
{"id": "C42", "title": "Precision is honoured for exact numbers", "statement": "A precision in the specification controls the digits of the nominal value also when the uncertainty is zero, NaN or infinite, like for floats.", "quantifier": "all values, all specifications with a precision", "why_tests_cant": "all specification combinations", "anchors": ["uncertainties/core.py: format_num"]}
{"id": "C43", "title": "Width and alignment apply to each number or to the shorthand form", "statement": "With a width w, each of the two numbers (or the whole shorthand form) occupies at least w characters, padded with the fill character on the requested side, or with zeros after the sign; without width nothing is padded.", "quantifier": "all values, widths, fills and alignments", "why_tests_cant": "all widths and contents", "anchors": ["uncertainties/core.py: format_num, robust_align"]}
{"id": "C44", "title": "Formatted output parses back", "statement": "ufloat_fromstr(format(x, spec)) succeeds and returns exactly the displayed nominal value and uncertainty, for all non-LaTeX, non-percent specifications without fill characters or comma.", "quantifier": "all values and specifications", "why_tests_cant": "round trip over all values and specifications", "anchors": ["uncertainties/core.py: format_num, str_to_number_with_uncert, parse_error_in_parentheses, to_float"]}
{"id": "C45", "title": "repr parses back exactly", "statement": "ufloat_fromstr(repr(x)) has exactly the nominal value and standard deviation of x, for untagged numbers; for a variable with a tag, repr(x) shows the tag and the same text, and ufloat_fromstr() rejects it whatever the tag is.", "quantifier": "all floats including NaN and infinities", "why_tests_cant": "all floats", "anchors": ["uncertainties/core.py: AffineScalarFunc.__repr__, str_to_number_with_uncert"]}
{"id": "C46", "title": "String notations denote the documented values", "statement": "a+/-b, a±b, (a+/-b)eN, a(d), a(d.d), a(d)eN, a alone, with e/E or ×10 and superscripts denote the documented nominal value and uncertainty: digits without point in parentheses count in units of the last digit of a, with a point are absolute, nothing means one unit of the last digit.", "quantifier": "all digit strings of any length, all exponents", "why_tests_cant": "all strings of the grammar", "anchors": ["uncertainties/core.py: parse_error_in_parentheses, str_to_number_with_uncert, nrmlze_superscript, to_float"]}
{"id": "C47", "title": "Invalid strings raise ValueError and nothing else", "statement": "ufloat_fromstr either returns a number or raises ValueError, for every string.", "quantifier": "all strings", "why_tests_cant": "all strings", "anchors": ["uncertainties/core.py: ufloat_fromstr, str_to_number_with_uncert, parse_error_in_parentheses"]}
{"id": "C48", "title": "Array accessors are element-wise", "statement": "unumpy.nominal_values, std_devs and uarray act element by element and keep the shape: nominal_values(uarray(n,s)) = n and std_devs(uarray(n,s)) = s, floats pass with their value and uncertainty 0, and the elements of a uarray are independent.", "quantifier": "all shapes and values", "why_tests_cant": "all shapes", "anchors": ["uncertainties/unumpy/core.py: nominal_values, std_devs, uarray, array_derivative, derivative", "uncertainties/core.py: nominal_value, std_dev"]}
{"id": "C49", "title": "Matrix inverse propagates exactly", "statement": "ulinalg.inv(A) has as nominal value the inverse of the nominal matrix, and its derivative with respect to each variable is the derivative of the inverse matrix, -inv dA inv; variables absent from A are absent from the result.", "quantifier": "all invertible matrices of any size, all dependences of entries on variables", "why_tests_cant": "all sizes and dependences", "anchors": ["uncertainties/unumpy/core.py: inv_with_derivatives, func_with_deriv_to_uncert_func"]}
{"id": "C50", "title": "Matrix pseudo-inverse propagates exactly", "statement": "ulinalg.pinv(A) propagates the derivative of the Moore-Penrose inverse wherever it is differentiable.", "quantifier": "all shapes and matrices with locally constant rank", "why_tests_cant": "all shapes", "anchors": ["uncertainties/unumpy/core.py: pinv_with_derivatives"]}
{"id": "C51", "title": "unumpy functions follow NumPy's names", "statement": "Every umath function is available in unumpy under NumPy's name for it (arccos, arcsinh, arctan2, ...).", "quantifier": "all wrapped functions", "why_tests_cant": "finite, but the documented mapping is not tested name by name", "anchors": ["uncertainties/unumpy/core.py: define_vectorized_funcs"]}
{"id": "C52", "title": "The 1to2 fixers preserve meaning", "statement": "The code updater rewrites exactly the obsolete calls (ufloat of a tuple or string, uarray/umatrix of a single argument, std_dev(), set_std_dev(), std_devs()) into current calls with the same arguments and leaves all other code unchanged; updated code is a fixed point.", "quantifier": "all syntax trees", "why_tests_cant": "all programs", "anchors": ["uncertainties/lib1to2/fixes/fix_ufloat.py", "uncertainties/lib1to2/fixes/fix_std_dev.py", "uncertainties/lib1to2/fixes/fix_std_devs.py", "uncertainties/lib1to2/fixes/fix_uarray_umatrix.py"]}
{"id": "C53", "title": "std_score counts standard deviations", "statement": "x.std_score(v) is (v - nominal)/std_dev, and raises ValueError exactly when the standard deviation is zero.", "quantifier": "all numbers and values", "why_tests_cant": "all values", "anchors": ["uncertainties/core.py: AffineScalarFunc.std_score"]}
{"id": "C54", "title": "Arithmetic raises only where float arithmetic raises", "statement": "An operator applied to numbers with uncertainties raises an arithmetic exception only if the same operator raises on the nominal values.", "quantifier": "all operators, all finite floats", "why_tests_cant": "all magnitudes, including those where a derivative overflows or underflows", "anchors": ["uncertainties/core.py: get_ops_with_reflection, wrap"]}
{"id": "C55", "title": "Obsolete ufloat forms are equivalent to the current ones", "statement": "ufloat((n, s)), ufloat((n, s), tag) and ufloat(string[, tag]) create the same variable as ufloat(n, s, tag) and ufloat_fromstr(string, tag); incorrect arguments raise instead.", "quantifier": "all arguments", "why_tests_cant": "all argument shapes", "anchors": ["uncertainties/core.py: ufloat, ufloat_obsolete"]}
{"id": "C56", "title": "Uniform access functions", "statement": "uncertainties.nominal_value(x) and std_dev(x) return the attributes for numbers with uncertainties, and x itself and 0.0 for anything else.", "quantifier": "all Python values", "why_tests_cant": "all values", "anchors": ["uncertainties/core.py: nominal_value, std_dev"]}
{"id": "C57", "title": "Numbers with uncertainties are never silently converted", "statement": "float(x), int(x) and complex(x) raise TypeError for any number with uncertainty; operations with unsupported types raise TypeError or let the other operand decide, and comparisons with them are decided by Python's fallback.", "quantifier": "all numbers and operand types", "why_tests_cant": "all operand kinds", "anchors": ["uncertainties/core.py: add_operators_to_AffineScalarFunc, force_aff_func_args, to_affine_scalar"]}
{"id": "C58", "title": "Derivatives of keyword arguments of wrapped methods", "statement": "For any callable that wrap() accepts, functions and bound methods alike, a number with uncertainty passed by keyword is propagated with the derivative given for the parameter of that name.", "quantifier": "all callables, derivative lists and keyword arguments", "why_tests_cant": "all signatures and lists of derivatives; bound methods are not tried by the test suite", "anchors": ["uncertainties/core.py: wrap, getargspec"]}
{"id": "C59", "title": "Only the documented notations are accepted", "statement": "A string that ufloat_fromstr accepts is one of the documented notations, of which every character counts: no part of the string is ignored.", "quantifier": "all strings", "why_tests_cant": "all strings outside of the grammar", "anchors": ["uncertainties/core.py: str_to_number_with_uncert, parse_error_in_parentheses, to_float"]}
{"id": "C60", "title": "Formatting fails only for the documented reasons", "statement": "For any number, including zero, infinite and NaN uncertainties and infinite and NaN nominal values, formatting with a specification of the documented form succeeds unless the alignment is '=' with a width, zero digits of a positive uncertainty are requested with 'u', or commas are combined with a precision for types g, G or none while one of the numbers has no digits limit; in all cases of failure, invalid specifications included, the exception is ValueError.", "quantifier": "all numbers, all strings as specifications", "why_tests_cant": "all combinations of flags, widths, precisions and options with zero, infinite and NaN values", "anchors": ["uncertainties/core.py: AffineScalarFunc.__format__, format_num, PDG_precision, signif_dgt_to_limit"]}
{"id": "C61", "title": "Infinite numbers and NaN are shown as words", "statement": "A nominal value or a standard deviation that is infinite or NaN is shown as inf or nan (in upper case for types E, F and G; \\infty and \\mathrm{nan} in LaTeX), with its sign, and in a field of given width without exponent; there is no common exponent when both are infinite or NaN.", "quantifier": "all specifications and all pairs of numbers of which one is infinite or NaN", "why_tests_cant": "all combinations of options with infinite and NaN values", "anchors": ["uncertainties/core.py: AffineScalarFunc.__format__, format_num"]}
{"id": "C62", "title": "Functions of arrays are wrapped with accurate derivatives", "statement": "wrap_array_func(f) applied to an array of numbers with uncertainties has the nominal values of f at the nominal values; its derivative with respect to each variable is the difference quotient of f over a step that only depends on the nominal value and standard deviation of this variable, and thus differs from the derivative of f by at most half the step times a bound on the second derivative; elements that do not change do not depend on the variable.", "quantifier": "all functions of arrays, array shapes and arrays of results of any program", "why_tests_cant": "all functions, shapes and programs", "anchors": ["uncertainties/unumpy/core.py: wrap_array_func"]}
{"id": "C63", "title": "In binary64 the display is that of numbers within a tiny relative error", "statement": "With floats, formatting a number with a positive finite standard deviation shows a nominal value and a standard deviation that are rounded, half to even, at the position that the options ask for, for numbers within a relative error of 1e-11 of the floats (for magnitudes from 1e-90 to 1e90, precisions up to 100, and up to 14 decimals in the shorthand notation); in fixed-point notation with a given number of decimals, the digits are those of the exact values of the floats, without any bound.", "quantifier": "all floats in this range, all specifications, all C libraries whose log10 and pow are accurate", "why_tests_cant": "all pairs of floats and all specifications; numbers close to a power of ten, where log10 is rounded to an integer", "anchors": ["uncertainties/core.py: AffineScalarFunc.__format__, first_digit, signif_dgt_to_limit, PDG_precision, format_num"]}
{"id": "C64", "title": "Numbers without a positive uncertainty are shown like floats", "statement": "With the types g, G and none and without precision, a number whose standard deviation is zero, infinite or NaN shows all the digits of its nominal value (no type) or its six first significant digits (g, G), without trailing zeros; both numbers are divided by the power of ten of the exponent, which is shown outside, and the nominal value has no exponent of its own. (Without type, magnitudes from 1e-4 - 5e-16 to 1e-4 are left out.)", "quantifier": "all decimal nominal values, zero, infinite or NaN standard deviations, all specifications of these types", "why_tests_cant": "all values, in particular those close to a power of ten, and all specifications", "anchors": ["uncertainties/core.py: AffineScalarFunc.__format__, format_num"]}
{"id": "C65", "title": "Standard deviations are accurate in binary64", "statement": "With floats, each error component differs from the product of the derivative and of the standard deviation of the variable by a relative error of at most 2^-53, and the standard deviation of a calculated number differs from the square root of the sum of the squares of these products by a relative error of at most (n + 7) 2^-53, for n independent variables; no exception is raised. (For non-zero products from 1e-140 to 1e140 in absolute value, and up to a million variables.)", "quantifier": "all programs, numbers and floats in this range, and all C libraries whose pow(x, 2) is accurate to one unit in the last place", "why_tests_cant": "all derivatives, standard deviations and numbers of variables: the accumulated rounding errors cannot be enumerated", "anchors": ["uncertainties/core.py: AffineScalarFunc.std_dev, AffineScalarFunc.error_components"]}
{"id": "C66", "title": "Remainders, integer quotients, powers and sums have the right nominal values in binary64", "statement": "With floats, the nominal value of x % y is x - y*floor(x/y) rounded once; that of x // y is the exact floor of x/y (for quotients up to 2^50); that of fsum() is the sum of the nominal values rounded once; those of modf() and frexp() are exact; that of ldexp(x, i) is x*2^i rounded once; that of fmod(x, y) is exactly x - y*trunc(x/y), ValueError is raised if x is infinite or y zero, and NaN arguments give NaN; a power of a negative number is refused if the exponent is not an integer and otherwise has the sign given by the parity of the exponent.", "quantifier": "all finite nominal values of numbers with uncertainties or not, in all states", "why_tests_cant": "all pairs of floats, whose quotients can be arbitrarily close to an integer", "anchors": ["uncertainties/core.py: modified_operators, get_ops_with_reflection (float.__mod__, __floordiv__, __pow__)", "uncertainties/umath_core.py: fsum, modf, frexp, ldexp"]}
{"id": "C67", "title": "Instances of subclasses keep their attributes when pickled or copied", "statement": "pickle.loads(pickle.dumps(x)) of an instance of a subclass of UFloat, however the classes of the hierarchy store attributes (a __dict__, __slots__ given as a name or as a container of names, several base classes), is an instance of the same class with the same value for every attribute that x has, including entries of __dict__ hidden by a slot, and no attribute that x does not have; later changes of its attributes do not affect x. copy.copy(x) of a calculated number has the same attributes. Slots must not be private names, __weakref__ or names that a class of the hierarchy uses for something else, and __slots__ must not be an iterator.", "quantifier": "all class hierarchies, all instances, any subset of defined attributes", "why_tests_cant": "arbitrary class hierarchies and attribute names", "anchors": ["uncertainties/core.py: AffineScalarFunc.__getstate__, AffineScalarFunc.__setstate__"]}
{"id": "C68", "title": "Strings are read accurately in binary64", "statement": "In ufloat_fromstr() of any documented notation, a nominal value or an uncertainty which is written in full, without common power of ten, is the float nearest to the decimal number that is written. With a power of ten as a factor, or an uncertainty in units of the last digit, the floats obtained are within a relative error of 1e-14 of the numbers denoted, for magnitudes between 1e-290 and 1e290; NegativeStdDev is raised exactly if the uncertainty is negative.", "quantifier": "all strings of the documented notations, any number of digits", "why_tests_cant": "infinitely many strings, and roundings of binary64 in several steps", "anchors": ["uncertainties/core.py: parse_error_in_parentheses, to_float, str_to_number_with_uncert, ufloat_fromstr"]}
{"id": "C69", "title": "Reading an uncertainty takes a predictable number of steps", "statement": "Reading the uncertainty of a number for the first time expands one term per node of the tree of its calculation, down to variables and numbers that were read before, a number that is used several times counting each time; reading it again expands nothing. Hence sum() of a list of variables takes at most two expansions per term, with at most two terms pending at any time (no recursion), and the result of any function of numbers that were read takes at most one per argument. Intermediate results that are used several times without having been read are expanded several times: y = y*y repeated n times takes 2**(n+1) - 1 expansions.", "quantifier": "all calculations, lists of any length, any number of repetitions", "why_tests_cant": "unbounded lengths; timing tests give no bound", "anchors": ["uncertainties/core.py: LinearCombination.expand, AffineScalarFunc.derivatives, wrap.f_with_affine_output"]}
{"id": "C70", "title": "Operators on arrays act on the elements", "statement": "An operator between two arrays of numbers with uncertainties (or between such an array and an array or a number without uncertainty) does the operator on each pair of elements of the broadcast arrays, in the order of the indices. For + - * / the nominal values are those of the operator on the nominal values, the derivatives are given by the rules of differentiation with respect to the original variables, and an element depends exactly on the variables of its two operands; the result exists unless a divisor has a zero nominal value. Older numbers are not affected.", "quantifier": "all shapes that broadcast, all histories that lead to the elements, both numbers with and without uncertainty", "why_tests_cant": "unbounded shapes and histories; tests compare a few arrays", "anchors": ["uncertainties/unumpy/core.py: module (arrays of numbers with uncertainties)", "uncertainties/core.py: operators of AffineScalarFunc"]}
{"id": "C71", "title": "Products of matrices follow the rules of linear algebra, correlations included", "statement": "The product of two matrices of numbers with or without uncertainty has the product of the nominal matrices as nominal value and, for each variable, the derivative DA*B + A*DB; its elements depend exactly on the variables of their row and column; it exists whenever the shapes match (with at least one product to add). A number, with or without uncertainty, times a matrix multiplies each element, and a matrix on the left stays on the left. The product of a matrix and of its inverse, in either order, is the identity matrix with zero derivatives and zero standard deviations. Older numbers are not affected.", "quantifier": "matrices of all sizes, all histories", "why_tests_cant": "unbounded sizes and histories; tests compare a few matrices up to rounding", "anchors": ["uncertainties/unumpy/core.py: matrix, matrix.__rmul__, matrix.getI, inv"]}
{"id": "C72", "title": "Derivatives are accurate in binary64, whatever was read before", "statement": "In binary64, the derivatives of a number obtained by any chain of operators and functions are, for each variable, within k/2**52 times P of the sum over all chains of operations of the products of the local derivatives, P being the sum of the absolute values of these products and k at most six times the number of chains of operations (six roundings for each argument, through all intermediate results); as long as products of local derivatives or of their inverses do not exceed 2**900. This holds whatever was done in between, in particular reads of any attribute of intermediate results, calls and matrices: the same calculation, with or without such reads, gives derivatives that differ by at most 2k/2**52 times P. The standard deviation is within (n + 8 + 2k)/2**53 of the exact quadratic sum, relative to the quadratic sum of the P's times the standard deviations of the n variables.", "quantifier": "all histories (operators, functions with any derivatives, reads in between), all finite floats in the given range", "why_tests_cant": "results depend on the order of roundings, which depends on what was read before; infinitely many orders and values", "anchors": ["uncertainties/core.py: LinearCombination.expand, LinearCombination.expanded, AffineScalarFunc.derivatives, wrap.f_with_affine_output, AffineScalarFunc.std_dev"]}
{"id": "C73", "title": "Covariances and correlations are accurate in binary64", "statement": "In binary64, the covariance that covariance_matrix() gives for two results of calculations is within k/2**52 times Q of the exact covariance, the sum over variables of the products of the two derivatives and of the square of the standard deviation, where derivatives are exact differentials of the chains of operations, Q is the same sum with absolute values along all chains, and k is the number of roundings in the two chains plus two per variable plus 6; whatever was read before and whatever the order in which common variables are enumerated, as long as standard deviations are 0 or between 2**-200 and 2**200 and products of local derivatives and of their inverses do not exceed 2**200. Each number that correlation_matrix() gives is within 5/2**53, in relative value, of the quotient of the covariance by the square root of the product of the two variances, if these are between 1e-100 and 1e100.", "quantifier": "all histories, all pairs of results, any number of numbers (up to a million common variables), any order of sets", "why_tests_cant": "results depend on the order of a set and on roundings; infinitely many histories and values", "anchors": ["uncertainties/core.py: covariance_matrix, correlation_matrix"]}
{"id": "C74", "title": "Derivatives agree with differential calculus in binary64", "statement": "With a C library whose functions are accurate to two units in the last place, the derivatives returned by x.derivatives agree with the chain rule of differential calculus, applied at the nominal values of each step, for calculations made of + - * / **, and sin, cos, tan, atan, exp, expm1, log, log10, log1p, sqrt, sinh, cosh, asinh, fabs, degrees, radians, atan2, copysign, hypot, log with a base and pow everywhere, and of acos, asin, atanh (x**2 at most 3/4), acosh (x at least 5/4), tanh (abs(x) at most 3/4), erf and erfc (abs(x) at most 7/4) away from where their formulas cancel: the error is at most 40 roundings per step times the sum of absolute values over all paths. Each single local derivative is within 32 roundings of the exact one. (This does not hold for tanh everywhere: its derivative 1 - tanh(x)**2 cancels.)", "quantifier": "all histories, all operands inside the domains and between 1e-100 and 1e100 in absolute value (or 0), all C libraries accurate to two units in the last place (eight for hypot, log with a base and pow)", "why_tests_cant": "a few values cannot show that a formula for a derivative is right and accurate everywhere, and the errors accumulate along arbitrary expressions", "anchors": ["uncertainties/core.py: get_ops_with_reflection, pow_deriv_0, pow_deriv_1, LinearCombination.expand", "uncertainties/umath_core.py: fixed_derivatives"]}
{"id": "C75", "title": "Variables can be used as keys, results cannot", "statement": "hash(x) never raises for a variable, and never changes, whatever is done later with it or with other numbers (new uncertainty, reads, calculations, copies, pickling). It raises TypeError for all results of calculations, which can thus not be used as keys by mistake.", "quantifier": "all histories, all variables and results", "why_tests_cant": "the hash must survive all that any later program does", "anchors": ["uncertainties/core.py: Variable.__hash__, AffineScalarFunc.__eq__"]}
{"id": "C76", "title": "The accepted strings form an explicit, unambiguous language", "statement": "The strings that ufloat_fromstr accepts are exactly those of an explicit grammar: white space, signs, Unicode digits with underscores, decimal points, exponents with e, E or a multiplication sign and superscripts, the plus-minus signs, uncertainties and powers of ten in parentheses, plus the peculiarities that the grammar spells out (text after a newline, empty exponents, ignored factors). Each of these strings is read with the value that the grammar gives it, the only possible errors being a negative uncertainty and a result that overflows; two derivations of the same string give the same value; all other strings raise an exception.", "quantifier": "all strings, all Unicode characters, any number of digits", "why_tests_cant": "infinitely many strings; a few samples say nothing of backtracking in regular expressions", "anchors": ["uncertainties/core.py: str_to_number_with_uncert, parse_error_in_parentheses, to_float, nrmlze_superscript, ufloat_fromstr"]}
{"id": "C77", "title": "Updated programs do the same", "statement": "A program that runs without exception ends in the same state (all names, all variables with their values, uncertainties and tags) once the code updater has replaced its obsolete calls by current ones, whatever the other statements and functions of the program do; if ufloat_fromstr can be used where ufloat is, set_std_dev() is called by statements, with a positional argument whose evaluation does not interfere with that of the variable, uarray() and umatrix() are not called with a single starred or keyword argument, and tags given after a string are not numbers. The last two conditions are necessary: otherwise the updated program can raise, or create other variables.", "quantifier": "all programs (syntax trees of any size), all initial states, any semantics for the constructs that the updater does not look at", "why_tests_cant": "all programs: a few snippets cannot show that rewriting calls at any depth, next to arbitrary code, keeps the meaning", "anchors": ["uncertainties/lib1to2/fixes/*.py", "uncertainties/core.py: ufloat, ufloat_fromstr, ufloat_obsolete, CallableStdDev, Variable.set_std_dev", "uncertainties/unumpy/core.py: uarray, umatrix, matrix.std_devs, CallableStdDevs"]}
{"id": "C78", "title": "Dependencies are tracked exactly, in any arithmetic", "statement": "Whatever the arithmetic does (overflow, NaN, derivatives that cancel or vanish), the variables listed by x.derivatives are exactly the variables from which x was calculated by operators and wrapped functions, each listed once, and error_components() lists the same ones; a new variable is not among those of any existing number; setting the standard deviation of a variable that is not among them changes nothing that can be read about x; and the covariance of two numbers without a common variable is exactly zero. This does not depend on which uncertainties were read in between.", "quantifier": "all floating-point arithmetics, all histories of API calls (reads that raised exceptions excepted), all numbers calculated from variables", "why_tests_cant": "all histories and all floating-point results, including overflows and NaN that tests with usual numbers do not meet", "anchors": ["uncertainties/core.py: Variable.__init__, LinearCombination.expand, AffineScalarFunc.derivatives, error_components, Variable.std_dev, covariance_matrix, wrap"]}
{"id": "C79", "title": "What has been read of a number does not change", "statement": "Once the derivatives of a number have been read, every later read gives exactly the same derivatives, and the same uncertainty, error components and standard score as long as the standard deviations of its variables are not changed, whatever else the program does (exceptions included); a variable always depends on itself only, with the derivative 1.", "quantifier": "all numbers, all arithmetics (binary64 included), all continuations of the program", "why_tests_cant": "the continuations of a program are unbounded, and reads rewrite shared objects in place", "anchors": ["uncertainties/core.py: LinearCombination.expand, AffineScalarFunc.derivatives, Variable.__init__, Variable.std_dev"]}
{"id": "C80", "title": "A calculation can be repeated", "statement": "A program that only uses variables, plain values and numbers whose derivatives have been read gives the same results when it is run again at any later time: the same nominal values, derivatives, uncertainties, comparisons, truth values, covariance and correlation matrices and exceptions, exactly, provided that the standard deviations of the variables are then the same; only the variables that it creates are different ones.", "quantifier": "all straight-line programs, all arithmetics (binary64 included), all states and whatever happens between the two runs", "why_tests_cant": "programs and what happens in between are unbounded; reads rewrite objects that are shared with the operands of the calculation", "anchors": ["uncertainties/core.py: wrap, LinearCombination.expand, AffineScalarFunc, eq_on_aff_funcs, Variable", "uncertainties/umath_core.py"]}
{"id": "C81", "title": "Uncertainties are never negative in floating-point arithmetic", "statement": "In binary64, reading the derivatives, error components or uncertainty of a number that does not come from umath.frexp (C30) always ends, either with a result or with OverflowError and no other exception; error components and uncertainties of calculated numbers are never below zero (they are zero, positive, infinite or NaN), and neither are the diagonal entries of covariance matrices. Comparisons of such numbers (with each other, or with floats and ints), and bool(x), give a boolean or raise OverflowError, their covariance and correlation matrices are calculated or OverflowError is raised, and std_score() gives a number or raises OverflowError, or ValueError if the uncertainty is zero.", "quantifier": "all histories of variables, operators and functions in binary64 arithmetic, whatever else happens in between (except reads that raise, C34); any C library for which pow(x, 2) is not negative", "why_tests_cant": "rounding, overflow, infinities and NaN may combine in unboundedly many ways in a calculation", "anchors": ["uncertainties/core.py: AffineScalarFunc.derivatives, error_components, std_dev; covariance_matrix; LinearCombination.expand"]}
{"id": "C82", "title": "Larger standard deviations never give smaller uncertainties", "statement": "In binary64, when the standard deviation of a variable is replaced by a larger one, no uncertainty that is read afterwards is smaller than before, in spite of rounding errors: for every number, the new std_dev is at least the old one, unless one of them is NaN or its calculation raises an exception. The same holds when several standard deviations grow and anything else happens in between, for numbers whose derivatives have been read.", "quantifier": "all numbers with any derivatives, all standard deviations, in every state of every program", "why_tests_cant": "the formula chains several roundings for each variable; counter-examples would be isolated floats among 2**64 for each variable", "anchors": ["uncertainties/core.py: AffineScalarFunc.error_components, AffineScalarFunc.std_dev, Variable.std_dev"]}
{"id": "C83", "title": "An uncertainty is at least as large as each of its components", "statement": "In binary64, the std_dev of a number is at least as large as each of the contributions that error_components() lists, in spite of the rounding errors of the squares, sums and square roots, if the contribution is zero, or between 2**-500 and 2**500 (the square of a smaller one can underflow; if the square is the exact one rounded to nearest).", "quantifier": "all numbers with any derivatives, all components in the range, in every state of every program", "why_tests_cant": "the formula chains several roundings for each variable; counter-examples would be isolated floats", "anchors": ["uncertainties/core.py: AffineScalarFunc.error_components, AffineScalarFunc.std_dev"]}
{"id": "C84", "title": "Signs and constant terms do not change uncertainties", "statement": "In binary64, -x, +x, abs(x), umath.fabs(x), x + c, c + x, x - c, c - x and x % c with a constant c, and the products of x by 1 or -1, have exactly (without any rounding) the error components of x, and the same uncertainty as x.s, if the derivatives of x have been read: the std_dev of the result is the same float, and it can be read whenever x.s can.", "quantifier": "all numbers with any derivatives and standard deviations, infinite and NaN ones included, in every state of every program", "why_tests_cant": "rounding could differ for isolated floats, and signs of zeros, infinities and NaN are easily overlooked", "anchors": ["uncertainties/core.py: AffineScalarFunc.__neg__, AffineScalarFunc.__pos__, AffineScalarFunc.__abs__, LinearCombination.expand, AffineScalarFunc.error_components"]}
