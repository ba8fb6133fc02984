{
 "claims": [
  {
   "property": "C01",
   "status": "proved",
   "theorems": [
    "C01_nominal_values"
   ],
   "note": "All float arithmetics (the model is generic in the float operations)."
  },
  {
   "property": "C02",
   "status": "proved",
   "theorems": [
    "C02_true_derivatives",
    "C02_builtin_derivatives"
   ],
   "note": "Exact real arithmetic; C02_builtin_derivatives assumes nothing about derivative functions."
  },
  {
   "property": "C03",
   "status": "proved",
   "theorems": [
    "C03_std_dev_formula",
    "C65_std_dev",
    "C03_any_arithmetic"
   ],
   "note": "Exact real arithmetic; C03_any_arithmetic: the formula as calculated, from the components that are read, in any arithmetic; accuracy in binary64: C65."
  },
  {
   "property": "C04",
   "status": "partial",
   "theorems": [
    "C04_laziness_invisible",
    "C72_repeatable",
    "C04_same_number_any",
    "C10_binary64_refuted"
   ],
   "note": "Proved in exact arithmetic. In any arithmetic: reads of a number do not change its own attributes (C04_same_number_any). In binary64 the reads may change the roundings of derivatives of other numbers: C72_repeatable bounds the differences; C10_binary64_refuted: reading a standard deviation changes the result of a later ==."
  },
  {
   "property": "C05",
   "status": "partial",
   "theorems": [
    "C05_reads_succeed",
    "C05_terminates",
    "C05_terminates_binary64",
    "C05_matrices_terminate",
    "C72_derivatives",
    "C05_binary64_refuted",
    "C30_frexp_refuted",
    "C30_frexp_derived_refuted",
    "C81_derivatives"
   ],
   "note": "Every read ends, in any arithmetic. Reads succeed in exact arithmetic for everything but frexp; in binary64 the derivatives that are read are accurate (C72_derivatives), and OverflowError is the only exception that a read can raise (C81_derivatives; it happens, hence refuted). Refuted for frexp."
  },
  {
   "property": "C06",
   "status": "partial",
   "theorems": [
    "C06_same_function_equal",
    "C06_difference_vanishes",
    "C06_cancel_binary64",
    "C06_binary64_refuted",
    "C06_self_binary64_refuted"
   ],
   "note": "Proved in exact arithmetic. In binary64, refuted: different orders of additions round differently, and the derivatives of a number that has not been read do not cancel exactly; C06_cancel_binary64 bounds what remains by a number of roundings, and C10_read_binary64_partial shows that equality is exact for numbers that have been read."
  },
  {
   "property": "C07",
   "status": "proved",
   "theorems": [
    "C07_variables_independent",
    "C07_fresh_independent",
    "C78_fresh",
    "C78_uncorrelated"
   ],
   "note": "Exact real arithmetic; C78_fresh and C78_uncorrelated in any arithmetic."
  },
  {
   "property": "C08",
   "status": "proved",
   "theorems": [
    "C08_std_update",
    "C78_unaffected",
    "C08_any_arithmetic"
   ],
   "note": "Exact real arithmetic; C78_unaffected and C08_any_arithmetic in any arithmetic."
  },
  {
   "property": "C09",
   "status": "proved",
   "theorems": [
    "C09_new_negative",
    "C09_set_negative",
    "C09_new_accepted",
    "C09_set_accepted",
    "C09_never_negative"
   ],
   "note": "Any float arithmetic. Minus infinity is not tested by the code and accepted (C09_example_infinity)."
  },
  {
   "property": "C10",
   "status": "partial",
   "theorems": [
    "C10_eq_spec",
    "C10_eq_refl",
    "C10_eq_sym",
    "C10_eq_trans",
    "C10_ne_spec",
    "C10_read_binary64_partial",
    "C10_read_sym_partial",
    "C10_read_refl_partial",
    "C10_binary64_refuted",
    "C10_infinite_refuted"
   ],
   "note": "Proved in exact arithmetic. In binary64: proved for numbers of which the derivatives have been read, if the differences of the contributions are zero or do not underflow when squared; reflexivity is refuted for a number not read yet and for infinite or NaN values."
  },
  {
   "property": "C11",
   "status": "proved",
   "theorems": [
    "C11_order_spec",
    "C11_partial_order",
    "C11_incomparable",
    "C11_any_arithmetic",
    "C11_binary64"
   ],
   "note": "Exact real arithmetic; that > and < are strict orders, mirror images of each other, and that >= and <= are > or ==, < or ==, also in binary64 with infinities and NaN."
  },
  {
   "property": "C12",
   "status": "partial",
   "theorems": [
    "C12_bool_spec",
    "C12_read_binary64",
    "C12_binary64_refuted"
   ],
   "note": "Proved in exact arithmetic, and in binary64 for numbers of which the derivatives have been read and whose error components are zero or between 1e-140 and 1e140; refuted in binary64 for standard deviations whose square underflows (ufloat(0, 2**-600) is false)."
  },
  {
   "property": "C13",
   "status": "partial",
   "theorems": [
    "C13_equal_same_hash",
    "C13_hash_refuted",
    "C13_binary64",
    "C13_binary64_refuted"
   ],
   "note": "Proved in exact arithmetic for variables with non-zero standard deviation, and in binary64 for standard deviations between 1e-140 and 1e140; refuted for zero standard deviations, and in binary64 for 2**-600."
  },
  {
   "property": "C14",
   "status": "proved",
   "theorems": [
    "C14_exact_component",
    "C14_exact_std_dev"
   ],
   "note": "Any float arithmetic."
  },
  {
   "property": "C15",
   "status": "proved",
   "theorems": [
    "C15_error_components",
    "C15_any_arithmetic"
   ],
   "note": "Exact real arithmetic; C15_any_arithmetic: the components as calculated from the derivatives that are read, in any arithmetic."
  },
  {
   "property": "C16",
   "status": "partial",
   "theorems": [
    "C16_s_is_std_dev",
    "C16_variable_binary64",
    "C16_calculated_binary64",
    "C16_binary64_refuted"
   ],
   "note": "Proved in exact arithmetic. In binary64, proved for results of operations, and for variables whose standard deviation is between 2**-500 and 2**500; refuted for variables where the square underflows."
  },
  {
   "property": "C17",
   "status": "proved",
   "theorems": [
    "C17_succeeds",
    "C17_shape",
    "C17_entries",
    "C17_invisible",
    "C17_repeatable",
    "C17_symmetric_any",
    "C17_entries_any"
   ],
   "note": "Exact real arithmetic, for every history of calls; C17_symmetric_any and C17_entries_any in any arithmetic."
  },
  {
   "property": "C18",
   "status": "partial",
   "theorems": [
    "C18_diagonal",
    "C18_bound",
    "C18_binary64",
    "C18_undefined_derivative_refuted"
   ],
   "note": "Proved in exact arithmetic, and in binary64 up to a bound on the rounding errors, for any history; refuted in binary64 for an undefined derivative with respect to a variable of zero standard deviation (NaN variance, zero standard deviation)."
  },
  {
   "property": "C19",
   "status": "proved",
   "theorems": [
    "C19_correlated_values",
    "C19_correlated_values_norm",
    "C19_returns",
    "C19_norm_returns",
    "C19_any_arithmetic",
    "C19_any_arithmetic_covariances"
   ],
   "note": "Covariances: exact real arithmetic, given what numpy.linalg.eigh guarantees (eigh_exact). C19_any_arithmetic says what is returned in any arithmetic, binary64 included, whatever eigh returns."
  },
  {
   "property": "C20",
   "status": "partial",
   "theorems": [
    "C20_correlation",
    "C20_no_variance",
    "C73_correlation",
    "C20_binary64_refuted"
   ],
   "note": "Proved in exact real arithmetic; in binary64 C73_correlation bounds the roundings, and C20_binary64_refuted gives a matrix that is not symmetric and has a diagonal entry greater than 1."
  },
  {
   "property": "C21",
   "status": "proved",
   "theorems": [
    "C21_operators",
    "C21_unary_operators",
    "C21_unary_call"
   ],
   "note": "Exact real arithmetic."
  },
  {
   "property": "C22",
   "status": "proved",
   "theorems": [
    "C21_operators",
    "C22_undefined_x",
    "C22_undefined_y"
   ],
   "note": "Exact real arithmetic."
  },
  {
   "property": "C23",
   "status": "proved",
   "theorems": [
    "C23_umath1",
    "C23_umath2",
    "C23_call1",
    "C23_call2",
    "C23_fmod",
    "C23_gamma"
   ],
   "note": "Exact real arithmetic; fmod, gamma and lgamma have numerical derivatives: C23_fmod, C23_gamma (and C29_binary64)."
  },
  {
   "property": "C24",
   "status": "proved",
   "theorems": [
    "C24_umath_nan",
    "C24_pow_nan",
    "C24_other_exception",
    "C24_own_exception",
    "C24_nan_if_exception"
   ],
   "note": "Binary64, any C library."
  },
  {
   "property": "C25",
   "status": "proved",
   "theorems": [
    "C25_raises",
    "C25_plain",
    "C25_plain_args",
    "C25_not_number",
    "C25_number"
   ],
   "note": "Any float arithmetic, any function."
  },
  {
   "property": "C26",
   "status": "proved",
   "theorems": [
    "C26_calls"
   ],
   "note": "Any float arithmetic; the names of the positional parameters are those that inspect reports."
  },
  {
   "property": "C27",
   "status": "proved",
   "theorems": [
    "C27_chain_rule"
   ],
   "note": "Exact real arithmetic."
  },
  {
   "property": "C28",
   "status": "proved",
   "theorems": [
    "C28_indexing",
    "C28_negative_index"
   ],
   "note": "Any iterable, finite or infinite, after any previous accesses."
  },
  {
   "property": "C29",
   "status": "proved",
   "theorems": [
    "C29_numerical_derivative",
    "C29_only_argument",
    "C29_binary64"
   ],
   "note": "Exact real arithmetic; C29_binary64: accuracy in binary64, with rounding, for arguments that are zero or between 1e-140 and 1e140."
  },
  {
   "property": "C30",
   "status": "partial",
   "theorems": [
    "C30_fsum",
    "C30_fsum_call",
    "C30_modf",
    "C30_ldexp",
    "C30_exact",
    "C30_frexp_refuted",
    "C30_frexp_later_refuted",
    "C30_frexp_derived_refuted"
   ],
   "note": "Proved in exact arithmetic for fsum, modf and ldexp; refuted for frexp."
  },
  {
   "property": "C31",
   "status": "proved",
   "theorems": [
    "C31_locally_constant",
    "C31_floor",
    "C31_ceil",
    "C31_trunc",
    "C31_plain_integer",
    "C31_plain_float",
    "C31_plain_tests"
   ],
   "note": "Any float arithmetic; binary64 functions proved equal to the mathematical ones."
  },
  {
   "property": "C32",
   "status": "proved",
   "theorems": [
    "C32_deepcopy",
    "C32_copy_variable",
    "C32_copy_calculated",
    "C32_unaffected",
    "C32_deepcopies_independent",
    "C32_deepcopy_any",
    "C32_copy_variable_any",
    "C32_copy_calculated_any",
    "C32_unaffected_any",
    "C32_existing_any"
   ],
   "note": "Exact real arithmetic, for every history of calls; the theorems *_any in any arithmetic (binary64 too): everything that is read of a copy is equal, exactly, but for the names of the variables."
  },
  {
   "property": "C33",
   "status": "proved",
   "theorems": [
    "C33_pickle",
    "C33_covariance",
    "C32_unaffected",
    "C33_pickle_any",
    "C32_unaffected_any"
   ],
   "note": "Exact real arithmetic; C33_pickle_any in any arithmetic, exactly. Lists without repeated objects (C33_pickle)."
  },
  {
   "property": "C34",
   "status": "partial",
   "theorems": [
    "C34_unrelated_partial",
    "C34_interrupted_refuted"
   ],
   "note": "False: witness where an interrupted read makes the number lose its uncertainty for ever. True for numbers that do not use the number being read, or use it expanded."
  },
  {
   "property": "C35",
   "status": "partial",
   "theorems": [
    "C35_concurrent_read_partial",
    "C35_expanded",
    "C35_sequential",
    "C35_same_number_refuted",
    "C35_exception_refuted",
    "C35_shared_refuted"
   ],
   "note": "Accesses to shared objects interleave arbitrarily. True for threads that read numbers which are unrelated or already expanded (any arithmetic); false in general: witnesses with two threads reading the same unexpanded number, or a number and a sub-result."
  },
  {
   "property": "C36",
   "status": "partial",
   "theorems": [
    "C36_accepted",
    "C36_parts",
    "C36_refused",
    "C36_fill_refuted",
    "C36_newline_refuted"
   ],
   "note": "Proved for all strings, with two exceptions for which the statement is refuted: a fill character without alignment and a final newline are accepted."
  },
  {
   "property": "C37",
   "status": "proved",
   "theorems": [
    "C37_same_precision"
   ],
   "note": "Exact decimal numbers (every binary64 number is one): divisions by powers of ten are exact, log10 is exact."
  },
  {
   "property": "C38",
   "status": "proved",
   "theorems": [
    "C38_uncertainty_digits"
   ],
   "note": "Exact decimal numbers."
  },
  {
   "property": "C39",
   "status": "proved",
   "theorems": [
    "C39_pdg_rule"
   ],
   "note": "Exact decimal numbers."
  },
  {
   "property": "C40",
   "status": "proved",
   "theorems": [
    "C40_common_exponent",
    "C40_special_exponent"
   ],
   "note": "Exact decimal numbers; zero, infinite and NaN values included."
  },
  {
   "property": "C41",
   "status": "partial",
   "theorems": [
    "C41_zero",
    "C41_converse_partial",
    "C41_converse_refuted"
   ],
   "note": "A zero uncertainty is shown as 0 (all nominal values, all specifications); the converse is true if the digits are chosen by the package or with u, and refuted with other precisions (.0f)."
  },
  {
   "property": "C42",
   "status": "partial",
   "theorems": [
    "C42_precision_partial",
    "C42_precision_refuted"
   ],
   "note": "True for e, E, f, F, %; refuted for g, G and no type, where the precision is used as a width."
  },
  {
   "property": "C43",
   "status": "partial",
   "theorems": [
    "C43_width",
    "C37_same_precision",
    "C43_sign_align_refuted"
   ],
   "note": "True in any arithmetic for <, >, ^ and zeros; the alignment = raises for all numbers."
  },
  {
   "property": "C44",
   "status": "partial",
   "theorems": [
    "C44_round_trip_partial",
    "C44_binary64_partial",
    "C44_special_partial",
    "C44_general_partial",
    "C44_words_partial",
    "C44_word_real_partial",
    "C44_unreadable_refuted",
    "C44_units_refuted"
   ],
   "note": "Exact decimal numbers, and binary64 within 1e-14 for numbers between 1e-90 and 1e90: proved for real nominal values and positive real uncertainties, all such specifications. In exact decimal arithmetic also for uncertainties that are zero, infinite or NaN, and for infinite and NaN nominal values, unless the precision is used as a width (see C42). Refuted for NaN padded with zeros, for zero uncertainties with g and S, and for nan with a finite uncertainty in shorthand notation (nan+/-0.1 gives nan(100000000000))."
  },
  {
   "property": "C45",
   "status": "proved",
   "theorems": [
    "C45_repr",
    "C45_repr_any",
    "C45_binary64",
    "C45_tagged",
    "C45_untagged"
   ],
   "note": "Exact decimal numbers; any arithmetic where the digits of repr() convert back; and binary64 for all floats, the standard deviation being non-negative, infinite or NaN. With a tag, repr() shows it and is never read as a number."
  },
  {
   "property": "C46",
   "status": "proved",
   "theorems": [
    "C46_notations",
    "C46_floats"
   ],
   "note": "All texts of an independent grammar; exact values, and the computation with floats in any arithmetic."
  },
  {
   "property": "C47",
   "status": "partial",
   "theorems": [
    "C47_errors_partial",
    "C47_errors_exact",
    "C47_negative_refuted",
    "C47_overflow_refuted"
   ],
   "note": "Every string gives a number, ValueError, OverflowError or NegativeStdDev; the last two are not ValueErrors."
  },
  {
   "property": "C48",
   "status": "proved",
   "theorems": [
    "C48_uarray",
    "C48_uarray_refuses",
    "C48_uarray_program",
    "C48_one_argument",
    "C48_umatrix",
    "C48_umatrix_returns",
    "C48_values",
    "C48_nominal_values",
    "C48_std_devs",
    "C48_invisible",
    "C48_tuple",
    "C48_ragged",
    "C48_empty"
   ],
   "note": "All shapes, with broadcasting, in any arithmetic; standard deviations of results in exact arithmetic."
  },
  {
   "property": "C49",
   "status": "proved",
   "theorems": [
    "C49_result",
    "C49_derivative",
    "C49_returns",
    "C49_unaffected"
   ],
   "note": "Exact arithmetic; numpy.linalg.inv is a function assumed to invert the nominal matrix (and only that one)."
  },
  {
   "property": "C50",
   "status": "proved",
   "theorems": [
    "C50_result",
    "C50_derivative",
    "C50_returns",
    "C50_attribute"
   ],
   "note": "Exact arithmetic; numpy.linalg.pinv is a function assumed to give the Moore-Penrose inverse of the nominal matrix; locally constant rank is expressed as continuity of the Moore-Penrose inverse along the curve."
  },
  {
   "property": "C51",
   "status": "partial",
   "theorems": [
    "C51_names_partial",
    "C51_refuted",
    "C51_unique",
    "C51_meaning",
    "C51_one_argument",
    "C51_two_arguments",
    "C51_functions"
   ],
   "note": "All functions but asinh (not renamed arcsinh), pow (not renamed power) and frexp (missing), for which the statement is refuted."
  },
  {
   "property": "C52",
   "status": "partial",
   "theorems": [
    "C52_updates_partial",
    "C52_returns",
    "C52_keeps_current",
    "C52_misses_refuted",
    "C52_meaning_refuted",
    "C52_fixed_point_refuted"
   ],
   "note": "All syntax trees satisfying a condition on the calls of set_std_dev(), uarray() and umatrix(); only calls that start (optionally after one module name) or end an expression. Refuted without these conditions. The parser of lib2to3 is not modelled."
  },
  {
   "property": "C53",
   "status": "proved",
   "theorems": [
    "C53_std_score",
    "C53_binary64"
   ],
   "note": "Exact real arithmetic; in binary64 within a relative error of 3/2**53, ValueError for a zero standard deviation."
  },
  {
   "property": "C54",
   "status": "partial",
   "theorems": [
    "C54_exact_partial",
    "C54_binary64_partial",
    "C54_unary",
    "C54_binary64_refuted"
   ],
   "note": "Proved in exact arithmetic, and in binary64 for all operands except divisors with uncertainties that are not zero and below 1e-140 or above 1e140 in absolute value (or infinite or NaN), for which it is refuted: the square in the derivative underflows or overflows."
  },
  {
   "property": "C55",
   "status": "partial",
   "theorems": [
    "C55_current_form",
    "C55_tuple",
    "C55_short_tuple",
    "C55_string_partial",
    "C55_others",
    "C55_string_number",
    "C55_string_tag",
    "C55_number_refuted",
    "C55_tuples_refuted"
   ],
   "note": "Proved in any arithmetic for tuples, and for strings whose second argument is not a number; refuted when it is a number; some incorrect arguments do not raise."
  },
  {
   "property": "C56",
   "status": "proved",
   "theorems": [
    "C56_access_functions"
   ],
   "note": "Any float arithmetic."
  },
  {
   "property": "C57",
   "status": "proved",
   "theorems": [
    "C57_conversions",
    "C57_unsupported_operand",
    "C57_unsupported_comparison"
   ],
   "note": "Any float arithmetic; other operands are modelled as declining."
  },
  {
   "property": "C58",
   "status": "partial",
   "theorems": [
    "C26_calls",
    "C58_bound_method_refuted"
   ],
   "note": "Proved for functions; refuted for bound methods: the derivative of the next parameter is used."
  },
  {
   "property": "C59",
   "status": "partial",
   "theorems": [
    "C46_notations",
    "C59_accepted",
    "C59_refused",
    "C59_strange_refuted"
   ],
   "note": "The documented notations are accepted with their values. All that is accepted is described by a grammar with values (LangSpec.v), everything else raises. That only the documented notations are accepted is refuted: text after a newline, an empty exponent or a factor is ignored."
  },
  {
   "property": "C60",
   "status": "proved",
   "theorems": [
    "C60_formats",
    "C60_formats_only",
    "C60_value_error"
   ],
   "note": "Exact decimal numbers, infinities and NaN: necessary and sufficient condition. In binary64, intermediate overflow and underflow are possible (see DESIGN.md)."
  },
  {
   "property": "C61",
   "status": "partial",
   "theorems": [
    "C61_words_partial",
    "C61_padding_refuted"
   ],
   "note": "Without zero padding, and without precision for types g, G and none; otherwise zeros or spaces are put before the word (refuted by example)."
  },
  {
   "property": "C62",
   "status": "proved",
   "theorems": [
    "C62_result",
    "C62_accuracy",
    "C62_returns",
    "C62_unaffected"
   ],
   "note": "Exact arithmetic; the wrapped function is an arbitrary function of arrays of floats without side effects."
  },
  {
   "property": "C63",
   "status": "proved",
   "theorems": [
    "C63_display",
    "C63_fixed",
    "C63_libm",
    "C63_exact_refuted",
    "C63_shorthand_refuted",
    "C63_subnormal_refuted"
   ],
   "note": "Laws about log10 and pow of the C library (LibmLaws) are hypotheses; they hold if these functions are correctly rounded (C63_libm). The refuted theorems show that the relative error, the bound on the decimals of the shorthand notation and the range of magnitudes cannot be left out."
  },
  {
   "property": "C64",
   "status": "proved",
   "theorems": [
    "C64_general",
    "C64_own_exponent_refuted"
   ],
   "note": "Exact decimal numbers. The refuted theorem shows that the range which is left out must be: there the nominal value is shown with an exponent of its own."
  },
  {
   "property": "C65",
   "status": "proved",
   "theorems": [
    "C65_std_dev",
    "C65_libm",
    "C65_overflow_refuted"
   ],
   "note": "Binary64, for all programs; the accuracy of pow(x, 2) is a hypothesis, which holds if squares are correctly rounded (C65_libm). The refuted theorem shows that a bound on the magnitudes is necessary (the square overflows); C16_binary64_refuted shows the same for small ones."
  },
  {
   "property": "C66",
   "status": "proved",
   "theorems": [
    "C66_mod",
    "C66_floordiv",
    "C66_pow",
    "C66_fsum",
    "C66_modf",
    "C66_ldexp",
    "C66_frexp",
    "C66_modf_parts",
    "C66_fsum_overflow",
    "C66_ldexp_overflow",
    "C66_fmod",
    "C66_fmod_domain",
    "C66_fmod_nan",
    "C66_constants",
    "C66_int_quotient"
   ],
   "note": "Binary64. The algorithms of CPython (fmod and an adjustment) and exact integer arithmetic are modelled; pow() of the C library is arbitrary. C66_int_quotient: quotients of Python ints (derivatives of x/n, elements of object arrays)."
  },
  {
   "property": "C67",
   "status": "proved",
   "theorems": [
    "C67_pickle",
    "C67_copy",
    "C67_set",
    "C67_private_refuted",
    "C67_iterator_refuted",
    "C67_weakref_refuted",
    "C67_property_refuted",
    "C67_shared_refuted"
   ],
   "note": "Any class hierarchy; Python attribute access is modelled. The refuted theorems show that the conditions on slots are necessary, and that a copy made by copy.copy() shares its __dict__ with the original."
  },
  {
   "property": "C68",
   "status": "proved",
   "theorems": [
    "C68_accuracy",
    "C68_nearest"
   ],
   "note": "Binary64; the accuracy of powers of ten of the C library (LibmLaws) is a hypothesis of C68_accuracy, which holds if they are correctly rounded (C63_libm). float() of a text is correctly rounded."
  },
  {
   "property": "C69",
   "status": "proved",
   "theorems": [
    "C69_steps",
    "C69_sum",
    "C69_call",
    "C69_reuse"
   ],
   "note": "Number of iterations of the loop of expand(), the last test included; C69_steps supposes that the coefficients are floats (C69_call: any numbers). C69_reuse gives the exponential number."
  },
  {
   "property": "C70",
   "status": "proved",
   "theorems": [
    "C70_elementwise",
    "C70_result",
    "C70_returns",
    "C70_unaffected"
   ],
   "note": "Exact arithmetic, and any arithmetic for C70_elementwise (pairs with at least one number with uncertainty). That NumPy applies Python operators to the elements of arrays of objects is part of the model."
  },
  {
   "property": "C71",
   "status": "proved",
   "theorems": [
    "C71_product",
    "C71_returns",
    "C71_unaffected",
    "C71_order",
    "C71_scalar",
    "C71_inverse"
   ],
   "note": "Exact arithmetic. numpy.dot() on objects is modelled as sums of products from the left; numpy.linalg.inv() is an oracle that inverts. C71_inverse supposes that no element of the inverse has an empty dictionary of derivatives."
  },
  {
   "property": "C72",
   "status": "proved",
   "theorems": [
    "C72_derivatives",
    "C72_repeatable",
    "C72_arithmetic",
    "C72_standard_deviation"
   ],
   "note": "Binary64. Local derivatives are the floats that the derivative functions return; C72_arithmetic gives them for + - and * of two numbers with uncertainties. C72_standard_deviation: for up to 1000 variables whose contributions are 0 or between 1e-140 and 1e140 in absolute value, with a C library that squares within 2 roundings."
  },
  {
   "property": "C73",
   "status": "proved",
   "theorems": [
    "C73_covariance",
    "C73_correlation"
   ],
   "note": "Binary64. The accuracy of pow(x, 2) is a hypothesis, which holds if squares are correctly rounded (C65_libm)."
  },
  {
   "property": "C74",
   "status": "proved",
   "theorems": [
    "C74_functions",
    "C74_functions2",
    "C74_operators",
    "C74_integer_powers",
    "C74_histories",
    "C74_tanh_refuted"
   ],
   "note": "Binary64, for the functions and ranges of the statement; the accuracy of the C library is a hypothesis (met by a library that rounds correctly: C74_histories_example). C74_tanh_refuted shows why the range of tanh is restricted; gamma, lgamma and fmod, whose derivatives are numerical, are left out."
  },
  {
   "property": "C75",
   "status": "proved",
   "theorems": [
    "C75_hashes",
    "C75_kept",
    "C75_kept_call"
   ],
   "note": "Any float arithmetic; all numbers of all states."
  },
  {
   "property": "C76",
   "status": "proved",
   "theorems": [
    "C59_accepted",
    "C59_refused",
    "C76_read",
    "C76_unambiguous"
   ],
   "note": "Any arithmetic; the regular expressions are modelled with the backtracking of Python."
  },
  {
   "property": "C77",
   "status": "proved",
   "theorems": [
    "C77_same",
    "C77_library",
    "C77_laws",
    "C77_effects",
    "C77_arguments",
    "C77_order_refuted",
    "C77_number_refuted"
   ],
   "note": "All syntax trees satisfying the conditions of the statement; values, states and other constructs of Python are parameters (C77_same), and C77_library is an instance with the functions of this repository. Deprecation warnings are not part of the states. The parser of lib2to3 is not modelled."
  },
  {
   "property": "C78",
   "status": "proved",
   "theorems": [
    "C78_dependencies",
    "C78_components",
    "C78_fresh",
    "C78_unaffected",
    "C78_uncorrelated"
   ],
   "note": "Any arithmetic (binary64 included: infinite, NaN and zero derivatives), any history of calls; only histories in which a read of an uncertainty raised an exception are excluded (C34)."
  },
  {
   "property": "C79",
   "status": "proved",
   "theorems": [
    "C79_derivatives",
    "C79_attributes",
    "C79_variable",
    "C79_numbers",
    "C79_deviations"
   ],
   "note": "Any arithmetic, any continuation (statements, calls of library functions, matrices; exceptions included); C79_deviations is about statements."
  },
  {
   "property": "C80",
   "status": "proved",
   "theorems": [
    "C80_repeat",
    "C80_comparison",
    "C80_truth",
    "C80_matrices",
    "C80_read_settles",
    "C80_variable"
   ],
   "note": "Any arithmetic; programs of the statements of Machine.v; anything can happen between the two runs. Without reading the operands first it is false in binary64 (C04, C10_binary64_refuted)."
  },
  {
   "property": "C81",
   "status": "proved",
   "theorems": [
    "C81_derivatives",
    "C81_components",
    "C81_deviation",
    "C81_variances",
    "C81_comparison",
    "C81_matrices",
    "C81_score",
    "C81_truth"
   ],
   "note": "Binary64 with any C library whose pow(x, 2) is not below zero. Histories without umath.frexp (C30_frexp_refuted: TypeError). The standard deviation that is stored in a Variable itself (C09) is not concerned: the constructor accepts -inf."
  },
  {
   "property": "C82",
   "status": "proved",
   "theorems": [
    "C82_set",
    "C82_later",
    "C82_squares"
   ],
   "note": "Binary64. Hypothesis: x**2 does not decrease when x >= 0 grows (squares_grow; C82_squares: true of squares rounded to nearest). NaN and exceptions are excluded: infinities are not."
  },
  {
   "property": "C83",
   "status": "proved",
   "theorems": [
    "C83_parts",
    "C83_tiny_refuted"
   ],
   "note": "Binary64, for components that are zero or between 2**-500 and 2**500, if x**2 is the square rounded to nearest (exact_squares). C83_tiny_refuted: false of smaller ones (the square underflows)."
  },
  {
   "property": "C84",
   "status": "proved",
   "theorems": [
    "C84_signs",
    "C84_shifts",
    "C84_fabs",
    "C84_units"
   ],
   "note": "Binary64, any C library. For numbers of which the derivatives have been read; NoDup: a Python dict has distinct keys; C78_dependencies shows it of the model, for numbers that do not come from frexp."
  }
 ]
}