# Design

Formal model of `lebigot/uncertainties` (sources in /repo, read as text only) in Rocq/Coq 8.16.1.

## Approach

* The model consists of total Gallina functions. Python exceptions are values (`res`), mutation of shared
  Python objects is an explicit heap, loops over that heap take fuel, and running out of fuel is a separate
  outcome excluded by theorems.
* Code is modelled once, generically over a record of float operations (`NumOps` for calculations, `FmtOps`
  for formatting and parsing), and then instantiated: real numbers (exact arithmetic, Coquelicot derivatives),
  IEEE binary64 (Flocq; results and refutations that depend on rounding, NaN, infinities, overflow), exact
  decimal numbers with infinities and NaN (formatting and parsing; every binary64 number is one of them).
* Statements quantify over all histories of API calls (`Machine.v`, `Calls.v`, `History.v`): creation of
  variables, operators, wrapped functions, reads, updates of standard deviations, copies, pickling, correlated
  values, matrices.
* Model files contain no proofs. Specifications (`*Spec.v`, `Spec.v`, `Plain.v`, `Prim.v`, `Regular.v`) do not
  mention the helpers of the model. Property theorems are in `Props*.v`, closed by `exact`, each followed by
  `Print Assumptions` and accompanied by an `Example` in which its hypotheses hold.
* Properties that the code does not have are stated as `..._refuted` theorems with a witness, beside the
  theorem that holds under a condition.

## Trusted base

* Coq's kernel (and `vm_compute` in some examples).
* Axioms of the standard library only, through the real numbers and Coquelicot; see the table at the end for
  each theorem. No axiom, parameter or hypothesis of our own.
* That the model is what the code does: each definition cites the file and lines it stands for. The semantics
  of Python that is used (evaluation order, dict order, `float`/`int` operations, `re` matching, `str.format` of
  floats, `copy`/`pickle` traversal, operator dispatch) is part of the definitions.
* The reading of the properties as Coq statements (`properties.jsonl`, the comments in `Props*.v`).

Oracles, which are arguments of the model and not axioms: C library functions (`Libm` in binary64, the gamma
functions over the reals), `numpy.linalg.eigh`, `inv`, `pinv`, the enumeration order of a Python set, the
`log10` and the powers of ten of the C library in formatting (`Libm10`, with the laws `LibmLaws`: relative accuracy
1e-12 for the exponent that log10 gives, exact at the floats nearest to powers of ten, right sign; powers of ten within 1e-15; which hold if both functions are correctly rounded, C63_libm, and for a computable library, `ExBin.lmx_laws`), the
Unicode database (`Unicode`, with the laws `UniLaws`: what `re`'s `\d` and `float()` agree on for decimal digits and what is
true of ASCII).

## What is modelled

| file | code |
|----|----|
| `Base`, `Heap`, `Affine` | core.py 267-300 (to_affine_scalar), 303-377 (numerical derivatives), 436-773 (wrap), 823-872 (comparisons), 1487-1585 (LinearCombination), 1586-1837 (AffineScalarFunc: derivatives, error_components, std_dev, bool), 2349-2360 (std_score), 2471-2480 (nan_if_exception), 2711-2811 (Variable), 2853-2880 |
| `Ops` | core.py 776-872 (force_aff_func_args), 2485-2708 (operators, derivatives, reflection, conversions) |
| `UMath` | umath_core.py: all functions, derivatives, locally constant functions, fsum, modf, ldexp, frexp |
| `Wrap` | core.py 303-430 (IndexableIter, numerical derivatives), 436-773: caches of derivatives, keyword arguments, methods |
| `Cov` | core.py 119-255 (correlated values), 2883-2965 (covariance and correlation matrices) |
| `Copy`, `Calls` | core.py 1579-1584, 2364-2467, 2814-2846 (copy, deepcopy, pickling) |
| `Attrs` | core.py 2376-2451 (attributes of instances of subclasses, when pickled or copied) |
| `Conc` | core.py 1533-1577, 1684-1703, access by access to shared objects |
| `Str`, `FmtOps` | Python's `re` matching, conversions between floats and strings, `format()` of floats |
| `Format` | core.py 875-1485 and 1840-2333 |
| `Parse` | core.py 974-1022, 2711-2830, 2948-3307 (parsing; forms of ufloat()) |
| `Unumpy` | unumpy/core.py (see below), unumpy/ulinalg.py |
| `UMatrix` | unumpy/core.py 603-613 (`matrix.__rmul__`); NumPy's operators and `dot()` on arrays of objects |
| `Fixer` | lib1to2/fixes/*.py, with the patterns, the traversal (`lib2to3.refactor`, bottom matcher) and the tree operations they use |
| `PyEval`, `PyLib` | semantics of the Python programs that the code updater treats; core.py 935-948 (CallableStdDev), 2767-2795, 3165-3307, unumpy/core.py 272-296, 576-596, 640-659 as a library for them |
| `NumR`, `NumF` | instances of the float operations |
| `FmtF` | binary64 instance of the operations of formatting and parsing (decimal conversions are correctly rounded; `log10` and powers of ten of the C library are oracles) |

## What is not modelled, or simplified

* `__init__.py`'s documentation, `set_doc`, deprecation warnings, `setup.py`, Python 2 branches; the tests.
* unumpy: complex matrices, arrays of tuples made by `unumpy.modf`.
* `PyLib`: arrays with one dimension made of tuples, no operators, no user functions but `pop()` (in `PyEval` all these are parameters); library names are not rebound.
* Arrays: `//`, `%` and `**` on two Python ints go through float (`pn_op`); `dot()` only on two dimensions.
* Derivative functions given by users return an int or a float, or raise. Complex results carry no value.
  Other operand types are assumed to decline the operation (NumPy arrays do not).
* In the real-number instance there is no NaN: a calculation that would produce one stops with `ENaN`.
* NaN has no sign and no payload; intermediate overflow inside fsum is not distinguished.
* copy and pickle: each reachable object is recreated exactly once; in `Copy.v` there are no subclasses (their attributes are the subject of `Attrs.v`, with the values left abstract).
* Python 3.11's limit of 4300 digits for `int()` and `str()` is ignored; `round()` of huge exponents does not overflow in
  exact decimal arithmetic.
* Exact decimal numbers: `log10` is exact, division by a power of ten is exact. In binary64, `first_digit` may be wrong next to a
  power of ten and `5e-324` raises ZeroDivisionError (finding below): the decimal theorems are about the
  algorithm; what its rounding errors can do is C63 (`FmtF`, `BinSpec`, `BinThm`).
* Binary64 conversions (`FmtF`): the digits of `repr()` are those of the decimal number nearest to the float, with the
  smallest number of digits that converts back (for powers of 2 Python may find one digit less); `round()` of a number that
  becomes too large gives an infinity instead of OverflowError.
* Concurrency: threads switch between accesses to shared objects, memory is sequentially consistent (CPython's GIL).
* The parser of lib2to3 and its pattern compiler are not modelled (the compiled patterns are data); the root of a tree is
  never replaced.

## Results per property

| id | how |
|----|----|
| C01 | Generic in the float operations. Straight-line programs of operators, umath functions, wrapped functions, reads and updates, run on the heap machine (`Machine.v`), against plain evaluation on floats (`Plain.v`). Induction on programs. |
| C02 | Reals. `Regular.v` defines when a program is differentiable without mentioning derivative formulas; chain rule for n-ary functions (`DiffProofs`, `ADProofs`, `ADRun`); the `derivatives` dict equals the Coquelicot derivatives of the function that plain evaluation computes. |
| C03 | Reals. Independent formula: square root of the sum over the variables. In any arithmetic (`AnyArith`): the sum, from the left, of the squares of the components that are read. |
| C04 | Reals: the heap machine (linear combinations expanded in place) refines a machine without laziness (`Spec.v`, `Refine.v`, `RefineStep.v`) for every history of every API call, copies, pickling, correlated values and matrices included (`History.v`, `CallProofs.v`). In any arithmetic (`AnyArith`): reading a number changes nothing in what is then read of the same number. Refuted in binary64: the result of `==` may change after a read of another number. |
| C05 | Every read in a reachable state returns (acyclicity and fuel, `HeapProofs`, `Fuel`). In any arithmetic (`Term`): the number of steps of `expand()` is bounded by the size of the linear combination seen as a tree, which is finite since each one only refers to older ones. Refuted for frexp, and in binary64 for results that overflow. |
| C06 | Reals, from C02/C04. In binary64 (`BinCancel`): the bound of C72 for a difference whose exact differential is zero; refuted by (x + y) + z and x + (y + z), and by w - w. |
| C07 | Freshness invariant + covariance 0. |
| C08 | Refinement + frame theorem for the setter; the frame also in any arithmetic (`AnyArith`). |
| C09 | Any arithmetic. |
| C10 | Reals. In binary64 (`BinEq`): the difference of two expanded dictionaries is calculated with one rounding per variable, which is never zero for different floats (`round_plus_neq_0` of Flocq); refuted for numbers not expanded yet. |
| C11 | Reals. In any arithmetic and in binary64 (`BinOrd`): unfolding; NaN is incomparable with everything; `below` is a total order on the values of binary64 that are not NaN. |
| C12 | Reals. In binary64 (`BinOrd`): the standard deviation is zero only if each product is zero, since squares that do not underflow are positive and sums of nonnegative floats grow. Refuted if a square underflows (`bool_tiny`). |
| C13 | Exact arithmetic: proved for non-zero standard deviations; refuted for zero ones. Binary64: proved for standard deviations between 1e-140 and 1e140 (by C79 a variable keeps the derivative 1, so that a difference has a zero variance only when the variables are the same); refuted for 2**-600. |
| C14 | Any arithmetic, NaN included. |
| C15 | Reals; in any arithmetic, from the derivatives that are read (`AnyArith`). |
| C16 | Reals; in binary64 for derived numbers, and for variables where the square neither overflows nor underflows (`BinSqrt.v`: the rounded square root of the rounded square); refuted for the others. |
| C17 | Reals, in every reachable state. In any arithmetic (`AnyArith`): exact symmetry, and the entries as sums over the derivatives that are read, in the iteration order of sets. |
| C18 | Reals; in binary64 (`BinOrd`) both code paths are compared with the exact sum of squares, by the error bounds of C16 and C73. |
| C19 | Reals; numpy.linalg.eigh is a function with its specification as a hypothesis on the matrix at hand. In any arithmetic (`CorrAny`), whatever eigh returns: exact nominal values, one fresh variable per eigenvalue (negative eigenvalues clipped to 0), exact derivatives. |
| C20 | Reals (Cauchy-Schwarz); binary64 for numbers whose calculated variance is zero: their correlations are NaN or, if only the variance underflows, infinite. Refuted in binary64 (`ExAny`): the two entries of x and x + y differ by one ulp when x has standard deviation 3 and y 1, and the correlation of the sum of three unit variables with itself is 1 + 2^-52. |
| C21 | Coquelicot derivatives of each operator against the table of the code, in both orders of operands. |
| C22 | The whole plane of (base, exponent). |
| C23 | Each function of umath that has an analytical derivative; fmod, gamma and lgamma, which have numerical ones, with the error of these (fmod: exact away from the discontinuities). |
| C24 | Binary64, any C library. |
| C25 | Any arithmetic, any wrapped function. |
| C26 | Any arithmetic: `Wrap.v` models the caches of wrap() over any history of calls. |
| C27 | Reals. |
| C28 | Any iterable, finite or infinite, after any accesses. |
| C29 | Reals: exact for quadratic functions, Taylor bound. Binary64: error bound that includes all the roundings, for functions calculated with a known error. |
| C30 | Reals; refuted for frexp. |
| C31 | Any arithmetic; floor, ceil and trunc of binary64 proved to be the mathematical ones. |
| C32 | Copy of the object graph on the heap; what is correlated with what. In any arithmetic (`Twin`): the expansion of a linear combination commutes with the renaming of the objects, so that what is read of a copy is what is read of the original with other variables (`TwinSpec`). |
| C33 | Same with a memo shared by the list of objects; one renaming for the whole list. |
| C34 | Accesses to shared objects as small steps (`Conc.v`): refuted, an interrupted read loses part of the uncertainty for ever; proved for numbers that do not use the interrupted one. |
| C35 | Interleavings of the same small steps, any number of threads: refuted for a shared unexpanded number; proved for unrelated or expanded numbers. |
| C36 | The regular expression of `__format__` as data, with the semantics of backtracking (`Str.v`); grammar of specifications stated separately. Refuted for a fill character without alignment and a final newline. |
| C37 | Exact decimal numbers: independent description of the output (`FmtSpec.v`: `output`, `laid_out`, `shown`). |
| C38 | Same. |
| C39 | Same. |
| C40 | Same; zero, infinite and NaN values included (`SpecialFmt.v`). |
| C41 | Proved in one direction, refuted in the other (precision .0f). |
| C42 | True for e, E, f, F, %; refuted for g, G and no type (the precision becomes a width). |
| C43 | Any arithmetic. Refuted for the alignment =, which always raises. |
| C44 | Composition of formatting and parsing, exact decimal numbers and binary64 (errors of 1e-14, from C63 and C68); zero, infinite and NaN numbers from the texts of C42, C61 and C64, exact decimal numbers; refuted for NaN padded with zeros, for zero uncertainties with g and S, and for nan with a finite uncertainty in shorthand notation. |
| C45 | Any arithmetic in which the shortest digits convert back to the float. |
| C46 | All texts of an independent grammar (`ParseSpec.v`). |
| C47 | All strings: classification of the outcomes; refuted by OverflowError and NegativeStdDev. |
| C48 | Arrays as shape and elements, broadcasting included; any arithmetic; standard deviations of results over the reals. |
| C49 | Matrices of any size over the reals; derivative of the inverse along any differentiable curve of matrices; numpy.linalg.inv is a function which is assumed to invert the nominal matrix, and only that one. |
| C50 | Same with the Moore-Penrose inverse, along any curve on which it is continuous. |
| C51 | Any version of the math module: the list of functions of umath, and of unumpy. Refuted for asinh, pow, frexp. |
| C52 | Syntax trees of lib2to3, patterns as data, traversal bottom-up as in Python 3.11 (`Fixer.v`). Refuted in general: calls in the middle of an expression are missed, and some updated programs have another meaning. |
| C53 | Reals; in binary64 (`BinOrd`) two roundings. |
| C54 | Reals; binary64 by case analysis of the derivatives, with the rounding errors of the square and of the numerical derivative of % (`BinArith`); refuted outside of a range of divisors. |
| C55 | Any arithmetic; refuted in part. |
| C56 | Any arithmetic. |
| C57 | Any arithmetic. |
| C58 | Refuted for bound methods: the derivative of the next parameter is used. |
| C59 | Refuted: text after a newline, an empty exponent or factor is ignored. What is accepted is described by the grammar of `LangSpec.v`: `LangProofs` and `LangThm` invert each regular expression, int(), float() and the superscripts. |
| C60 | Exact decimal numbers, infinities, NaN: necessary and sufficient condition; only ValueError is raised (any specification). |
| C61 | Proved without zero padding, and without precision for g, G and no type; refuted otherwise. |
| C62 | `wrap_array_func` modelled with its step, numerical derivatives over exact numbers; refinement as for C49; the error bound is the mean value theorem applied twice |
| C63 | Binary64 (`FmtF`): error analysis of first_digit, signif_dgt_to_limit, PDG_precision, round and the divisions by powers of ten (`BinProofs`, `BinRepr`, `BinQ`, `BinFmt`); each computed number is within 1e-11 of the exact one, so that the decimal rules hold for nearby numbers. Conditions shown to be necessary by three refuted theorems. |
| C64 | Exact decimal numbers: digits of `repr` and of `g` as fixed-point strings, removal of trailing zeros (`GenFmt`). |
| C65 | Binary64 (`NumF`): relative errors of the product, the square, the sum and the square root are accumulated by induction over the derivatives (`BinStd`); `squares_ok` is the hypothesis on the C library. |
| C66 | Binary64: CPython's `float_rem`, `_float_div_mod` and `float_pow` as in `NumF`; the specification is in real numbers (`NumFacts`), then for the statements of a program (`NumState`); `IntDiv`: quotients of ints. |
| C67 | `Attrs`: slots, `__dict__`, MRO, private names, getattr and setattr as in the Python reference; arbitrary class hierarchies, values of any type. |
| C68 | Binary64: `ParseBin` follows the roundings of each conversion, product and quotient, on the grammar of `ParseSpec`. |
| C69 | `Cost`: least fuel with which the loop of `expand()` ends, for stacks made of nodes of the tree. |
| C70 | `UMatrix`: element-wise operators of NumPy on arrays of objects; `UMxConv` relates them to the calculation with derivatives (`Spec`), hence states after them are reachable too. |
| C71 | `UMatrix`: numpy.dot() on arrays of objects, `matrix.__rmul__`; induction on the sum, algebra of matrices (`MxProofs`). |
| C72 | `GradSpec` defines exact differentials of results along histories; `BinGrad` bounds the roundings of the loop of `expand()`, by the number of terms still to be expanded; `Evolve` and `BinGradThm` show that whatever happens in between preserves the bound of each linear combination, expanded or not. |
| C73 | Binary64 (`BinCov`): the dictionaries read during the loops over pairs satisfy the bounds of C72 (`Inv` of `BinGradThm` is preserved by each read); products of two derivatives and of a square, then an induction over the common variables in any order. |
| C74 | `CalcSpec` defines accuracy of a C library and histories with the derivatives of Coquelicot at each step. `CalcAlg` is an algebra of relative errors; `CalcFun`, `CalcMore` (the functions with a restricted range), `CalcTwo` (two arguments), `CalcOp` and `CalcPow` prove each computed derivative accurate; `CalcThm` and `CalcTop` carry this through the invariant of C72. Refuted for tanh (`CalcPow`): 1 - t**2 is 0 or at least 2**-53 for any float t. |
| C75 | Any arithmetic. The hash of a variable is its identity; the numbers of a program are never replaced. That different variables have different identities is C07. |
| C76 | `LangThm` inverts all matches; `LangRead` shows the converse: the regular expressions find the parts that the grammar gives, with the priorities of greedy and lazy repetitions, and stripping of white space keeps a text in the grammar. |
| C77 | `PyEval` gives a meaning to the syntax trees of lib2to3 (calls, attributes, tuples, starred and keyword arguments, assignments, statements; all else is a parameter that must be monotonic), and the laws expected of the library. `PyThm`: induction on trees along the relation `updated` of C52. `PyLib` is an instance with the functions of this repository (`Parse.ufloat`), `PyInst` proves the laws. `PyEff` says what each updated call does to the state. |
| C78 | Any arithmetic. `DepSpec` follows a history and lists the variables of each result without looking at linear combinations; `Evolve` shows what each API call can do to the heap; `Deps`: invariant that relates unexpanded and expanded linear combinations to these lists, and what follows for reads, the setter and covariances. |
| C79 | Evolution of the heap (`Evolve`): objects are added, and only lists of terms are replaced; a dictionary of derivatives is never replaced. `StaySpec` says what can happen after a read. |
| C80 | Any arithmetic. Simulation (`Later`) between two heaps in which corresponding objects are shifted: both runs allocate in step, and what they share are dictionaries, which are never replaced (C79). `LaterSpec` says what a program uses and how its results are renamed. |
| C81 | Binary64. `Outcome` follows the expansion of linear combinations (only int to float conversions can raise), and the sums of squares (rounding is monotone, hence sums and products of non-negative floats are not negative). Existence of the variables comes from `history` (C78). `OutcomeCov`: diagonal of covariance matrices, through C17_entries_any. |
| C82 | Binary64 (`Bigger`): rounding is monotonic; each operation of the formula of C03 (product, absolute value, square, sum, square root) is shown to be so on floats that are not negative, infinities included. |
| C83 | Binary64 (`Parts`): the square root of the rounded square is the float itself (`BinSqrt`); sums of floats that are not negative are at least their terms; the square root is monotonic. |
| C84 | Binary64 (`Opposite`): products by 1.0 and -1.0 are exact, rounding is symmetric, and the absolute value removes the signs of zeros. |

## Findings

Behaviours of the code met while modelling; those with a theorem are in brackets.

* `frexp` keeps the argument's own uncertainty and makes later reads fail [C30_frexp_refuted, C05].
* In binary64 `y == y` may become false after `y.std_dev` is read [C10_binary64_refuted]; `x.s` and `x.std_dev` may differ
  [C16_binary64_refuted]; `1/ufloat(1e-200, ...)` raises though `1/1e-200` does not [C54_binary64_refuted];
  `bool(ufloat(0, 1e-170))` is False, since the square of the standard deviation underflows [C12_binary64_refuted].
* Variables with zero standard deviation compare equal and hash differently [C13_hash_refuted]; in binary64, so do variables whose standard deviation has a zero square [C13_binary64_refuted].
* An interrupted read loses uncertainty for ever [C34_interrupted_refuted]; two threads reading the same number may get
  wrong values or an exception [C35_*_refuted].
* `wrap()` of a bound method uses the derivative of the next parameter for keyword arguments [C58_bound_method_refuted].
* Infinite standard deviations: `-inf` is accepted [C09_example_infinity]; `==` fails [C10_infinite_refuted].
* Formatting: the precision is used as a width with g, G and no type if the uncertainty is zero, infinite or NaN, or the nominal value infinite or NaN
  [C42_precision_refuted]; alignment `=` always raises [C43_sign_align_refuted]; a fill character without alignment and a
  final newline are accepted [C36]; zeros are put before nan [C61_padding_refuted]; output that cannot be read back
  [C44_unreadable_refuted]; nan+/-0.1 in shorthand notation is nan(100000000000) [C44_units_refuted]; a standard deviation of -0.0 is shown as -0; LaTeX drops the + flag of infinities; `5e-324` raises ZeroDivisionError
  [C63_subnormal_refuted]; just below 1e-4 a number without uncertainty is shown with two notations for exponents [C64_own_exponent_refuted].
* Parsing: OverflowError and NegativeStdDev instead of ValueError [C47]; text after a newline, an empty exponent or
  factor is ignored [C59_strange_refuted]; `1.23(4)e5` in outer parentheses and `(...)%` are refused.
* Obsolete `ufloat((n, s))`: longer and nested tuples accepted, a number as second argument with a string used as tag or
  refused [C55].
* unumpy: no `arcsinh`, `power`, `frexp` [C51_refuted]; an element of an inverse without dependence makes `ldexp` raise.
* Subclasses: private slots are lost by pickling, slots named `__weakref__` make it fail, and copy.copy() shares the `__dict__`
  of the original [C67_*_refuted].
* An intermediate result that is used twice without having been read is expanded twice, so that `y = y*y` repeated n times takes
  2^(n+1) - 1 steps when the uncertainty is read [C69_reuse]; reading it at each stage keeps the cost linear [C69_call].
* Code updater: calls inside expressions are missed (`x.std_dev()**2`, `a.b.ufloat((1, 2))`); `y =
  x.set_std_dev(3)` and starred arguments give wrong programs [C52_misses_refuted, C52_meaning_refuted]; `f().set_std_dev(g())` becomes code that
  calls g first, and the 0.1 of `ufloat('1', 0.1)` becomes a tag [C77_order_refuted, C77_number_refuted]; ufloat_fromstr is not
  imported.

## Testing the theorems

`seeded/LOG.jsonl` records edits of the model that imitate bugs (wrong boundary, missed case, swapped arguments, dropped update), and
which theorems then fail. Edits that left all theorems provable led to new or stronger theorems (field `tightened`).

## Axioms of each theorem

R = `ClassicalDedekindReals.sig_forall_dec`, `ClassicalDedekindReals.sig_not_dec`, `Classical_Prop.classic`,
`FunctionalExtensionality.functional_extensionality_dep` (all from the standard library).

* none (closed under the global context): C15_any_arithmetic, C03_any_arithmetic, C04_same_number_any, C08_any_arithmetic, C17_symmetric_any, C17_entries_any, C67_pickle, C67_copy, C67_set, C67_private_refuted, C67_iterator_refuted, C67_weakref_refuted, C67_property_refuted, C67_shared_refuted, C35_concurrent_read_partial, C35_expanded, C34_unrelated_partial, C01_nominal_values, C19_any_arithmetic, C19_any_arithmetic_covariances, C80_matrices, C69_steps, C69_sum, C69_call, C69_reuse, C78_dependencies, C78_components, C78_fresh, C78_unaffected, C78_uncorrelated, C51_functions, C48_tuple, C48_ragged, C48_empty, C52_updates_partial, C52_returns, C52_keeps_current, C52_misses_refuted, C52_meaning_refuted, C52_fixed_point_refuted, C77_same, C77_library, C77_laws, C77_effects, C77_arguments, C77_order_refuted, C77_number_refuted, C36_accepted, C36_parts, C36_refused, C36_fill_refuted, C36_newline_refuted, C11_any_arithmetic, C80_repeat, C80_comparison, C80_truth, C80_read_settles, C80_variable, C79_deviations, C44_round_trip_partial, C44_unreadable_refuted, C44_special_partial, C44_general_partial, C44_words_partial, C44_word_real_partial, C44_units_refuted, C45_repr, C45_repr_any, C45_tagged, C45_untagged, C46_notations, C46_floats, C47_errors_partial, C47_errors_exact, C47_negative_refuted, C47_overflow_refuted, C59_strange_refuted, C59_accepted, C59_refused, C76_read, C76_unambiguous, C55_current_form, C55_tuple, C55_short_tuple, C55_string_partial, C55_others, C55_string_number, C55_string_tag, C55_number_refuted, C55_tuples_refuted, C09_new_negative, C09_set_negative, C09_new_accepted, C09_set_accepted, C14_exact_component, C14_exact_std_dev, C21_unary_call, C23_call1, C23_call2, C24_nan_if_exception, C25_raises, C25_plain, C25_plain_args, C25_not_number, C25_number, C29_only_argument, C30_fsum_call, C30_exact, C30_frexp_refuted, C30_frexp_later_refuted, C30_frexp_derived_refuted, C31_locally_constant, C31_plain_integer, C31_plain_float, C31_plain_tests, C56_access_functions, C57_unsupported_operand, C57_unsupported_comparison, C57_conversions, C75_hashes, C75_kept, C75_kept_call, C37_same_precision, C38_uncertainty_digits, C39_pdg_rule, C40_common_exponent, C41_zero, C41_converse_partial, C41_converse_refuted, C42_precision_partial, C42_precision_refuted, C43_width, C43_sign_align_refuted, C40_special_exponent, C60_formats, C60_formats_only, C60_value_error, C61_words_partial, C61_padding_refuted, C64_general, C64_own_exponent_refuted, C79_derivatives, C79_attributes, C79_variable, C79_numbers, C05_terminates, C32_deepcopy_any, C32_copy_variable_any, C32_copy_calculated_any, C32_unaffected_any, C32_existing_any, C33_pickle_any, C70_elementwise, C71_order, C48_uarray, C48_uarray_refuses, C48_uarray_program, C48_values, C48_nominal_values, C48_one_argument, C48_umatrix, C48_umatrix_returns, C50_attribute, C51_names_partial, C51_refuted, C51_unique, C51_meaning, C51_one_argument, C51_two_arguments, C26_calls, C28_indexing, C28_negative_index, C58_bound_method_refuted.
* `ClassicalDedekindReals.sig_forall_dec`, `FunctionalExtensionality.functional_extensionality_dep`: C31_floor, C31_ceil, C31_trunc.
* R: C20_binary64_refuted, C82_set, C82_later, C82_squares, C83_parts, C83_tiny_refuted, C84_signs, C84_shifts, C84_fabs, C84_units, C45_binary64, C63_display, C63_fixed, C63_libm, C63_exact_refuted, C63_shorthand_refuted, C63_subnormal_refuted, C74_functions, C74_functions2, C74_operators, C74_integer_powers, C74_histories, C74_tanh_refuted, C35_sequential, C35_same_number_refuted, C35_exception_refuted, C35_shared_refuted, C34_interrupted_refuted, C81_matrices, C81_score, C81_truth, C17_succeeds, C17_shape, C17_entries, C17_invisible, C17_repeatable, C18_diagonal, C18_bound, C18_undefined_derivative_refuted, C19_correlated_values, C19_correlated_values_norm, C19_returns, C19_norm_returns, C20_correlation, C32_deepcopy, C32_copy_variable, C32_copy_calculated, C32_unaffected, C32_deepcopies_independent, C33_pickle, C33_covariance, C20_no_variance, C72_derivatives, C72_repeatable, C72_arithmetic, C72_standard_deviation, C16_variable_binary64, C16_calculated_binary64, C73_covariance, C73_correlation, C11_binary64, C12_read_binary64, C12_binary64_refuted, C53_binary64, C18_binary64, C02_true_derivatives, C02_builtin_derivatives, C03_std_dev_formula, C04_laziness_invisible, C05_reads_succeed, C06_same_function_equal, C06_difference_vanishes, C07_variables_independent, C07_fresh_independent, C08_std_update, C10_eq_spec, C10_eq_refl, C10_eq_sym, C10_eq_trans, C10_ne_spec, C11_order_spec, C11_partial_order, C11_incomparable, C12_bool_spec, C15_error_components, C16_s_is_std_dev, C53_std_score, C65_std_dev, C65_libm, C65_overflow_refuted, C10_read_binary64_partial, C10_read_sym_partial, C10_read_refl_partial, C54_binary64_partial, C54_unary, C66_mod, C66_floordiv, C66_pow, C66_fsum, C66_modf, C66_ldexp, C66_frexp, C66_modf_parts, C66_fsum_overflow, C66_ldexp_overflow, C66_fmod, C66_fmod_domain, C66_fmod_nan, C66_constants, C29_binary64, C81_derivatives, C81_components, C81_deviation, C81_variances, C81_comparison, C68_accuracy, C68_nearest, C44_binary64_partial, C09_never_negative, C10_binary64_refuted, C10_infinite_refuted, C16_binary64_refuted, C05_binary64_refuted, C13_equal_same_hash, C13_hash_refuted, C21_operators, C21_unary_operators, C22_undefined_x, C22_undefined_y, C23_umath1, C23_umath2, C23_fmod, C23_gamma, C24_umath_nan, C24_pow_nan, C24_other_exception, C24_own_exception, C27_chain_rule, C29_numerical_derivative, C30_fsum, C30_modf, C30_ldexp, C54_exact_partial, C54_binary64_refuted, C13_binary64, C13_binary64_refuted, C05_terminates_binary64, C05_matrices_terminate, C06_cancel_binary64, C06_binary64_refuted, C06_self_binary64_refuted, C66_int_quotient, C70_result, C70_returns, C70_unaffected, C71_product, C71_returns, C71_unaffected, C71_scalar, C71_inverse, C48_std_devs, C48_invisible, C49_result, C49_derivative, C49_returns, C49_unaffected, C50_result, C50_derivative, C50_returns, C62_result, C62_accuracy, C62_returns, C62_unaffected.
