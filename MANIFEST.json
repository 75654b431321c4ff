{
 "claims": [
  {
   "property": "C01",
   "status": "partial",
   "theorems": [
    "C01_plus_exact",
    "C01_plus_effect",
    "C01_plus_exactly_when",
    "C01_plus_total",
    "C01_plus_value_partial",
    "C01_plus_degree2_partial",
    "C01_plus_one_variable_partial",
    "C01_plus_sorted_partial",
    "C01_plus_refuted"
   ],
   "note": "FALSE in general: C01_plus_refuted (x*x*y + y*y*x, API-built, binary64 and exact). No-panic, validity and normal form proved for all; the value proved under 'unambiguous' and for degree <= 2, one variable, common variable order. For ALL valid operands: C01_plus_effect (every term of the result is read with the variables and exponents of the first term that looks like it) and C01_plus_exactly_when (the sum is right iff that reading changes no total coefficient). C01_plus_exact: the sum itself, term by term, for all operands (exact numbers)."
  },
  {
   "property": "C02",
   "status": "partial",
   "theorems": [
    "C02_minus_exact",
    "C02_minus_effect",
    "C02_minus_exactly_when",
    "C02_minus_total",
    "C02_minus_value_partial",
    "C02_minus_degree2_partial",
    "C02_minus_one_variable_partial",
    "C02_minus_sorted_partial",
    "C02_minus_refuted"
   ],
   "note": "FALSE in general: C02_minus_refuted. Otherwise as C01. Exact effect and necessary-and-sufficient condition for all operands: C02_minus_effect, C02_minus_exactly_when. C02_minus_exact: the difference itself, term by term."
  },
  {
   "property": "C03",
   "status": "partial",
   "theorems": [
    "C03_multiply_exact",
    "C03_multiply_exactly_when",
    "C03_multiply_effect_partial",
    "C03_multiply_exactly_when_partial",
    "C03_multiply_total",
    "C03_multiply_value_partial",
    "C03_multiply_degree2_partial",
    "C03_multiply_one_variable_partial",
    "C03_multiply_one_term_partial",
    "C03_multiply_refuted"
   ],
   "note": "FALSE in general: C03_multiply_refuted ((x^2 + y*x)*y). Totality proved for all; value proved when the product terms are unambiguous, degree sum <= 2, one variable, or both operands have one term. For ALL operands C03_multiply_exact gives the product itself, term by term, and C03_multiply_exactly_when the necessary and sufficient condition for it to be right; C03_multiply_effect_partial and C03_multiply_exactly_when_partial say the same without intermediate sums for the products by one term."
  },
  {
   "property": "C04",
   "status": "partial",
   "theorems": [
    "C04_power_exact",
    "C04_power_exactly_when",
    "C04_power_step",
    "C04_power_total",
    "C04_power_zero",
    "C04_power_negative",
    "C04_power_not_polynomial_partial",
    "C04_power_value_partial",
    "C04_power_degree2_partial",
    "C04_power_one_variable_partial",
    "C04_power_refuted"
   ],
   "note": "FALSE in general: C04_power_refuted ((x+y)^3). Power 0, negative exponents and totality proved for all; the value for constants, variables, monomials, degree n*d <= 2, one variable, or unambiguous power terms. For all expressions C04_power_exact gives the power itself, term by term, and C04_power_exactly_when the necessary and sufficient condition for it to be right. C04_power_step: for every type of number a^(z+1) is a^z times a."
  },
  {
   "property": "C05",
   "status": "partial",
   "theorems": [
    "C05_simplify_exact",
    "C05_simplify_effect",
    "C05_simplify_exactly_when",
    "C05_simplify_value_partial",
    "C05_simplify_degree2_partial",
    "C05_simplify_one_variable_partial",
    "C05_simplify_refuted"
   ],
   "note": "FALSE in general: C05_simplify_refuted. Proved under 'unambiguous', degree <= 2 and one variable. For ALL valid expressions: C05_simplify_effect and C05_simplify_exactly_when. C05_simplify_exact: the simplified expression itself, term by term."
  },
  {
   "property": "C06",
   "status": "proved",
   "theorems": [
    "C06_simplified_normal",
    "C06_idempotent_exact",
    "C06_idempotent_binary64"
   ],
   "note": "Normal form for all numbers; idempotence for exact numbers and for binary64."
  },
  {
   "property": "C07",
   "status": "proved",
   "theorems": [
    "C07_derivative_total",
    "C07_derivative_correct"
   ],
   "note": "Pure function; the effect on the receiver is C08."
  },
  {
   "property": "C08",
   "status": "partial",
   "theorems": [
    "C08_anywhere_partial",
    "C08_successive_partial",
    "C08_repeated_refuted",
    "C08_history_partial",
    "C08_twice_partial",
    "C08_effect",
    "C08_repeated",
    "C08_receiver_refuted",
    "C08_twice_refuted",
    "C08_other_refuted",
    "C08_programs_partial",
    "C08_programs_linear",
    "C08_reached_partial"
   ],
   "note": "FALSE in general (C08_receiver_refuted, C08_twice_refuted, C08_other_refuted): when the exponent of v is not 1 DerivativeWrt decrements the receiver's own exponent in place. C08_effect and C08_repeated give the exact effect. Proved without restriction on sharing when v has exponent 1 wherever it occurs, for single calls, repeated calls and whole histories. C08_anywhere_partial and C08_successive_partial cover all exponents, on any heap: the result and all derivatives of derivatives have the right value if no two terms of the receiver share their exponents (false otherwise: C08_repeated_refuted), exactly the expressions that share exponents with a nonlinear term can change, and the receiver changes in exactly one way. C08_programs_partial covers whole programs with derivatives of any exponents: every expression that has no term looking like a nonlinear term of a differentiated receiver keeps its value, derivatives of derivatives included, so the values of such programs are those of the calls read as functions. C08_reached_partial says the same for one call after any program at all."
  },
  {
   "property": "C09",
   "status": "partial",
   "theorems": [
    "C09_entries_partial",
    "C09_terms_partial",
    "C09_refuted",
    "C09_effect",
    "C09_exactly_when"
   ],
   "note": "FALSE in general (C09_refuted): every entry is differentiated twice, so [x^2] gives [1]. Proved for entries at most linear in v. C09_effect states what the call computes and leaves behind for all exponents (entries that share no exponents), C09_exactly_when that the result is right exactly when every entry is zero or at most linear in v."
  },
  {
   "property": "C10",
   "status": "partial",
   "theorems": [
    "C10_entries_partial",
    "C10_total_partial",
    "C10_panic_refuted",
    "C10_overwrite_refuted",
    "C10_any_exponents_partial",
    "C10_any_exponents_real_partial",
    "C10_panics_when"
   ],
   "note": "FALSE in general: panics when an entry does not contain v (C10_panic_refuted, C10_panics_when) and always overwrites the receiver (C10_overwrite_refuted). Proved: entries that mention v are differentiated correctly whatever the exponents, if no two terms share exponents (C10_any_exponents_partial), and nothing but the receiver's own slice and terms changes."
  },
  {
   "property": "C11",
   "status": "proved",
   "theorems": [
    "C11_array_degree",
    "C11_array_linear",
    "C11_constraint_is_linear",
    "C11_degree_is_maximum",
    "C11_degree_plus",
    "C11_degree_multiply",
    "C11_degree_monomials",
    "C11_degree_power",
    "C11_degree_derivative",
    "C11_degree_substitute",
    "C11_degree_programs",
    "C11_is_linear",
    "C11_is_quadratic"
   ],
   "note": "All numbers; scalars, vectors and matrices. Derivatives, substitutions and whole programs included."
  },
  {
   "property": "C12",
   "status": "proved",
   "theorems": [
    "C12_array_variables",
    "C12_variables"
   ],
   "note": "All numbers; scalars, vectors and matrices."
  },
  {
   "property": "C13",
   "status": "proved",
   "theorems": [
    "C13_unique_vars",
    "C13_unique",
    "C13_union_of_variables"
   ],
   "note": "All lists."
  },
  {
   "property": "C14",
   "status": "proved",
   "theorems": [
    "C14_find_in_slice"
   ],
   "note": "All lists and equality tests."
  },
  {
   "property": "C15",
   "status": "partial",
   "theorems": [
    "C15_array_total",
    "C15_array_value_partial",
    "C15_array_degree2_partial",
    "C15_variable",
    "C15_substitute_exact",
    "C15_substitute_exactly_when",
    "C15_array_entries",
    "C15_array_exact",
    "C15_array_exactly_when",
    "C15_substitute_total",
    "C15_substitute_value_partial",
    "C15_substitute_degree2_partial",
    "C15_substitute_one_variable_partial",
    "C15_substitute_refuted"
   ],
   "note": "FALSE in general: C15_substitute_refuted. Totality for all; value under unambiguity, degree d*D <= 2, or one variable. The same for vectors and matrices. For all expressions C15_substitute_exact gives the result itself, term by term, and C15_substitute_exactly_when the necessary and sufficient condition for it to be right; C15_variable: a variable with the same ID from another environment stays. C15_array_entries: in vectors and matrices every entry has the terms that Substitute gives for that entry alone, for all numbers; C15_array_exact and C15_array_exactly_when carry the exact result and condition over."
  },
  {
   "property": "C16",
   "status": "partial",
   "theorems": [
    "C16_substitute_map_exact",
    "C16_substitute_map_exactly_when",
    "C16_substitute_map_total",
    "C16_substitute_map_value_partial",
    "C16_substitute_map_degree2_partial",
    "C16_substitute_numbers",
    "C16_substitute_map_refuted"
   ],
   "note": "Numeric substitution proved without side condition (exact numbers). The general simultaneous claim is false for ambiguous terms: C16_substitute_map_refuted. For all expressions C16_substitute_map_exact gives the result itself, term by term, and C16_substitute_map_exactly_when the necessary and sufficient condition for it to be right."
  },
  {
   "property": "C17",
   "status": "partial",
   "theorems": [
    "C17_substitute_map_total",
    "C17_substitute_map_value_partial",
    "C17_substitute_map_order_partial",
    "C17_substitute_map_refuted",
    "C17_substitute_map_steps",
    "C17_substitute_map_nothing"
   ],
   "note": "FALSE in general: C17_substitute_map_refuted (the map is applied key by key, in iteration order). Totality for all; value and order independence when no replacement contains a mapped variable, degree <= 2. C17_substitute_map_steps, C17_substitute_map_nothing: for all numbers and maps the call is Substitute for one key after the other in iteration order, so C15_array_exact gives the result."
  },
  {
   "property": "C18",
   "status": "partial",
   "theorems": [
    "C18_vector_linear_partial",
    "C18_linear_decomposition_partial",
    "C18_linear_programs_partial",
    "C18_linear_refuted"
   ],
   "note": "FALSE for uncollected sums, which DerivativeWrt produces: C18_linear_refuted. Proved for collected expressions and for all API programs without DerivativeWrt. Vectors: C18_vector_linear_partial."
  },
  {
   "property": "C19",
   "status": "partial",
   "theorems": [
    "C19_no_list",
    "C19_vector_no_list",
    "C19_several_lists",
    "C19_vector_several_lists",
    "C19_panics_when",
    "C19_vector_panics_when",
    "C19_linear_coeff_total_partial",
    "C19_linear_coeff_refuted"
   ],
   "note": "FALSE for monomials: C19_linear_coeff_refuted. Proved for constants, variables and polynomials. LinearCoeff without a list uses the variables of the expression (C19_no_list), and more than one list is refused except by constants (C19_several_lists). C19_panics_when and C19_vector_panics_when say exactly when LinearCoeff with one list panics."
  },
  {
   "property": "C20",
   "status": "partial",
   "theorems": [
    "C20_inequality_partial",
    "C20_inequality_programs_partial",
    "C20_inequality_refuted"
   ],
   "note": "FALSE for sides with uncollected like terms, which DerivativeWrt produces: C20_inequality_refuted. Proved for collected sides and for all constraints between API programs without DerivativeWrt."
  },
  {
   "property": "C21",
   "status": "partial",
   "theorems": [
    "C21_vector_inequality_nonlinear",
    "C21_vector_equality_nonlinear",
    "C21_vector_inequality_sense",
    "C21_vector_equality_sense",
    "C21_inequality_nonlinear_partial",
    "C21_equality_nonlinear",
    "C21_equality_sense",
    "C21_inequality_refuted"
   ],
   "note": "FALSE: the scalar LinearInequalityConstraintRepresentation accepts equalities (C21_inequality_refuted). The other rejections, and all four for vector constraints, are proved for all numbers."
  },
  {
   "property": "C22",
   "status": "partial",
   "theorems": [
    "C22_equality_partial",
    "C22_equality_programs_partial",
    "C22_equality_refuted"
   ],
   "note": "As C20."
  },
  {
   "property": "C23",
   "status": "partial",
   "theorems": [
    "C23_simplify_shape",
    "C23_simplify_feasible_partial",
    "C23_simplify_degree2_partial",
    "C23_simplify_one_variable_partial",
    "C23_constant_refuted",
    "C23_feasible_refuted"
   ],
   "note": "FALSE in general: C23_constant_refuted (the left side keeps its constant), C23_feasible_refuted (ambiguous terms). Shape proved for all numbers; feasible set under unambiguity, degree <= 2, one variable."
  },
  {
   "property": "C24",
   "status": "partial",
   "theorems": [
    "C24_scale_sense",
    "C24_scale_feasible_partial",
    "C24_scale_degree2_partial",
    "C24_scale_one_variable_partial",
    "C24_scale_refuted"
   ],
   "note": "FALSE for ambiguous uncollected sides: C24_scale_refuted. Otherwise proved; sense flip for all numbers."
  },
  {
   "property": "C25",
   "status": "partial",
   "theorems": [
    "C25_array_implies_sound_partial",
    "C25_implies_sound_partial",
    "C25_implies_exact_partial",
    "C25_implies_refuted",
    "C25_nonlinear_refuted"
   ],
   "note": "FALSE: C25_implies_refuted, C25_nonlinear_refuted. Soundness proved for linear constraints without constant on the left, for every map iteration order, scalar, vector and matrix; exactness for one-variable constraints."
  },
  {
   "property": "C26",
   "status": "partial",
   "theorems": [
    "C26_nonnegativity_partial",
    "C26_nonnegativity_exact_partial",
    "C26_nonnegativity_refuted"
   ],
   "note": "FALSE: C26_nonnegativity_refuted. Proved for constraints without constant on the left, exact for one-variable constraints."
  },
  {
   "property": "C27",
   "status": "partial",
   "theorems": [
    "C27_total",
    "C27_unsupported",
    "C27_sense",
    "C27_means",
    "C27_means_exact",
    "C27_mismatch",
    "C27_comparison_refuted"
   ],
   "note": "Proved, for all numbers, for exactly the implemented pairs of types (comparison_accepts, exact by C27_total and C27_unsupported); array against scalar for exact numbers. FALSE in general: C27_comparison_refuted lists valid pairs of equal dimensions whose comparison panics."
  },
  {
   "property": "C28",
   "status": "partial",
   "theorems": [
    "C28_array_substitute_total",
    "C28_array_substitute_partial",
    "C28_array_substitute_degree2_partial",
    "C28_array_substitute_map_partial",
    "C28_substitute_total",
    "C28_substitute_partial",
    "C28_substitute_degree2_partial",
    "C28_substitute_map_degree2_partial",
    "C28_substitute_numbers",
    "C28_substitute_refuted"
   ],
   "note": "FALSE for ambiguous terms: C28_substitute_refuted. Proved under unambiguity, degree <= 2, and unconditionally for numeric substitution. The same for vector and matrix constraints."
  },
  {
   "property": "C29",
   "status": "proved",
   "theorems": [
    "C29_conjunction",
    "C29_entries",
    "C29_compile_refuted"
   ],
   "note": "All numbers, all lists, for constraints whose sides have equal dimensions, which is what Comparison returns (C27_sense). Outside the claim: Check accepts vector constraint literals with sides of different lengths (C29_compile_refuted)."
  },
  {
   "property": "C30",
   "status": "partial",
   "theorems": [
    "C30_inequality_partial",
    "C30_inequality_total_partial",
    "C30_equality_partial",
    "C30_equality_total_partial",
    "C30_inequality_one",
    "C30_equality_one",
    "C30_representation_refuted"
   ],
   "note": "FALSE in general: C30_representation_refuted (every constraint of length one panics, and a row without variables panics). Proved for collected sides; totality for length >= 2 when every row involves a variable. Uncollected sides are extracted wrongly: C66_unsimplified_refuted."
  },
  {
   "property": "C31",
   "status": "partial",
   "theorems": [
    "C31_feasible_partial",
    "C31_degree2_partial",
    "C31_vectors_total",
    "C31_numbers_total",
    "C31_one_panics",
    "C31_matrices_panic",
    "C31_simplified_refuted",
    "C31_feasible_refuted"
   ],
   "note": "FALSE in general: C31_simplified_refuted (length-one vectors, VariableMatrix and MonomialMatrix sides always panic), C31_feasible_refuted (look-alike terms). Feasible set proved when terms are unambiguous or degree <= 2; vectors of length >= 2 and numeric matrices never panic."
  },
  {
   "property": "C32",
   "status": "partial",
   "theorems": [
    "C32_plus_shape",
    "C32_plus_mismatch",
    "C32_plus_value_partial",
    "C32_plus_degree2_partial",
    "C32_plus_one_variable_partial",
    "C32_plus_total",
    "C32_plus_variable_matrix",
    "C32_plus_refuted",
    "C32_plus_length_refuted",
    "C32_plus_zero_refuted",
    "C32_minus_shape",
    "C32_minus_value_partial",
    "C32_minus_degree2_partial",
    "C32_minus_total",
    "C32_minus_mismatch",
    "C32_minus_refuted",
    "C32_plus_effect",
    "C32_plus_exactly_when",
    "C32_plus_listed",
    "C32_plus_listed_value"
   ],
   "note": "FALSE in general: C32_plus_refuted (look-alike terms), C32_plus_length_refuted (length 1 plus length 2 returns one entry), C32_plus_zero_refuted (VariableMatrix plus 0 panics), C32_minus_refuted. Shape, dimension errors and totality proved for every implemented pair of types; value for unambiguous terms, degree <= 2, one variable; for all operands the exact value of every entry of a sum and the exact condition under which it is right (C32_plus_effect, C32_plus_exactly_when), and sums by a MonomialMatrix right without condition (C32_plus_listed_value)."
  },
  {
   "property": "C33",
   "status": "partial",
   "theorems": [
    "C33_multiply_shape",
    "C33_multiply_mismatch",
    "C33_multiply_value_partial",
    "C33_multiply_degree2_partial",
    "C33_multiply_one_variable_partial",
    "C33_multiply_total",
    "C33_multiply_number",
    "C33_multiply_refuted",
    "C33_multiply_length_refuted",
    "C33_multiply_panic_refuted",
    "C33_multiply_exact_partial",
    "C33_multiply_exactly_when_partial",
    "C33_monomials_panic",
    "C33_monomials_exact",
    "C33_monomials_exactly_when"
   ],
   "note": "FALSE in general: C33_multiply_refuted, C33_multiply_length_refuted, C33_multiply_panic_refuted. Otherwise as C32. C33_multiply_exact_partial gives every entry of a product of matrices (and of a polynomial matrix or a one-row monomial matrix by a VariableVector) term by term for all operands, and C33_multiply_exactly_when_partial the exact condition under which that entry is right. C33_monomials_*: a monomial matrix of several rows times a VariableVector, exactly when it panics, what it returns and when that is right."
  },
  {
   "property": "C34",
   "status": "partial",
   "theorems": [
    "C34_power_total_partial",
    "C34_power_value_partial",
    "C34_power_numeric",
    "C34_power_one_variable_partial",
    "C34_power_degree2_partial",
    "C34_power_not_square",
    "C34_power_negative",
    "C34_vector_power",
    "C34_vector_power_entry",
    "C34_vector_power_value_partial",
    "C34_power_refuted",
    "C34_power_value_refuted",
    "C34_power_step_partial",
    "C34_power_exact_partial",
    "C34_power_zero"
   ],
   "note": "FALSE in general: C34_power_refuted (1x1 matrices panic), C34_power_value_refuted. Proved for numeric matrices, one variable, degree n*d <= 2, unambiguous powers. C34_power_step_partial, C34_power_exact_partial: from 2x2 on, the power z+1 is the power z times the matrix (any numbers), entry by entry as in C33_multiply_exact_partial (exact numbers). C34_power_zero: the power 0 of a square matrix (of any size, 1 x 1 included) is the identity matrix, constant entry by constant entry, in exact arithmetic and in float64."
  },
  {
   "property": "C35",
   "status": "proved",
   "theorems": [
    "C35_transpose",
    "C35_transpose_twice",
    "C35_transpose_memory"
   ],
   "note": "All numbers. C35_transpose_memory: with memory, nothing is written, for any expression."
  },
  {
   "property": "C36",
   "status": "proved",
   "theorems": [
    "C36_hstack",
    "C36_vstack",
    "C36_hstack_entry",
    "C36_vstack_entry",
    "C36_hstack_mismatch",
    "C36_vstack_mismatch"
   ],
   "note": "All numbers; C36_*_entry for exact numbers."
  },
  {
   "property": "C37",
   "status": "proved",
   "theorems": [
    "C37_concretize_vector",
    "C37_concretize_matrix",
    "C37_concretize_slice",
    "C37_concretize_rows",
    "C37_concretize_empty",
    "C37_concretize_ragged"
   ],
   "note": "All numbers."
  },
  {
   "property": "C38",
   "status": "proved",
   "theorems": [
    "C38_at",
    "C38_at_vec",
    "C38_at_out",
    "C38_at_vec_out",
    "C38_at_out_error",
    "C38_at_vec_out_error",
    "C38_at_memory",
    "C38_at_vec_memory"
   ],
   "note": "All numbers, every integer index. C38_at_memory, C38_at_vec_memory: with memory, nothing is written, for any expression and index."
  },
  {
   "property": "C39",
   "status": "partial",
   "theorems": [
    "C39_distinct_partial",
    "C39_tracked_partial",
    "C39_numbered_partial",
    "C39_names_partial",
    "C39_vector_length",
    "C39_matrix_dims",
    "C39_track_refuted"
   ],
   "note": "FALSE with TrackVariable on variables of another environment: C39_track_refuted. Proved for every history in which only own variables are tracked; also numbering, order and names."
  },
  {
   "property": "C40",
   "status": "partial",
   "theorems": [
    "C40_exclusive_partial",
    "C40_separate_partial",
    "C40_race_refuted",
    "C40_race_tracked_refuted"
   ],
   "note": "FALSE: C40_race_refuted. Proved for mutually exclusive calls, and for every interleaving of goroutines with separate environments."
  },
  {
   "property": "C41",
   "status": "partial",
   "theorems": [
    "C41_plus_partial",
    "C41_multiply_partial",
    "C41_worlds_refuted"
   ],
   "note": "FALSE: C41_worlds_refuted. Proved when equal IDs mean equal environments (and the terms are unambiguous)."
  },
  {
   "property": "C42",
   "status": "proved",
   "theorems": [
    "C42_programs_valid",
    "C42_program_value_degree2_partial",
    "C42_program_value_one_variable_partial"
   ],
   "note": "Validity and no panic proved for every program and every Num. Beyond the claim, whole-program value theorems (partial)."
  },
  {
   "property": "C43",
   "status": "partial",
   "theorems": [
    "C43_history_unchanged",
    "C43_history_values",
    "C43_call_partial",
    "C43_overlap_refuted",
    "C43_reachable",
    "C43_any_program"
   ],
   "note": "Proved for every history of calls from nothing (C43_history_unchanged) and for one call on every heap in which unused capacity does not overlap visible variables (C43_call_partial); FALSE for overlapping slices (C43_overlap_refuted): Monomial.Multiply appends into the receiver's spare capacity. C43_reachable proves that every program of calls, including derivatives that spoil their receiver, leads to such a heap, so that C43_any_program needs no hypothesis about memory; overlapping slices arise only if the caller builds them outside the library."
  },
  {
   "property": "C44",
   "status": "partial",
   "theorems": [
    "C44_products_partial",
    "C44_products_after_calls_partial",
    "C44_sums",
    "C44_sums_heap",
    "C44_finishes",
    "C44_race_refuted"
   ],
   "note": "Proved for every schedule when no shared monomial has spare capacity in its slice of variables (C44_products_partial), unconditionally for sums, differences and simplification (C44_sums), with termination (C44_finishes); FALSE in general: two goroutines that multiply the same monomial race on its spare capacity and one call panics (C44_race_refuted)."
  },
  {
   "property": "C45",
   "status": "partial",
   "theorems": [
    "C45_plus_int_partial",
    "C45_multiply_int",
    "C45_plus_int_unsupported",
    "C45_int_refuted"
   ],
   "note": "FALSE: C45_int_refuted (Monomial and Polynomial reject int). Where int is accepted the results are identical, for exact numbers and binary64."
  },
  {
   "property": "C46",
   "status": "partial",
   "theorems": [
    "C46_vector_constant_partial",
    "C46_matrix_constant_partial",
    "C46_matrix_refuted",
    "C46_constant_partial",
    "C46_constant_programs_partial",
    "C46_constant_refuted"
   ],
   "note": "FALSE for uncollected sums: C46_constant_refuted. Proved for collected expressions and all API programs without DerivativeWrt. Vectors and matrices likewise; C46_matrix_refuted: MonomialMatrix.Plus does not collect."
  },
  {
   "property": "C47",
   "status": "partial",
   "theorems": [
    "C47_receiver_plus",
    "C47_receiver_multiply",
    "C47_receiver_minus",
    "C47_receiver_power",
    "C47_operand_multiply",
    "C47_operand_minus",
    "C47_operand_plus_partial",
    "C47_unsupported_minus",
    "C47_unsupported_plus",
    "C47_unsupported_multiply",
    "C47_unsupported_plus_error",
    "C47_unsupported_multiply_error",
    "C47_operand_refuted",
    "C47_operand_comparison",
    "C47_receiver_comparison",
    "C47_unsupported_comparison"
   ],
   "note": "FALSE for Variable.Plus(Variable): C47_operand_refuted. All other operands and receivers of Plus, Minus, Multiply, Power and Comparison; the tables of implemented types are exact. C47_unsupported_plus_error, C47_unsupported_multiply_error: with valid operands of suitable dimensions the panic is the library's unsupported-input error. The errors for invalid ones are C77."
  },
  {
   "property": "C48",
   "status": "proved",
   "theorems": [
    "C48_vector_from",
    "C48_matrix_from"
   ],
   "note": "All inputs."
  },
  {
   "property": "C49",
   "status": "proved",
   "theorems": [
    "C49_array_variables",
    "C49_array_variables_ids",
    "C49_scalar_variables",
    "C49_scalar_variables_ids"
   ],
   "note": "Scalar, vector and matrix constraints, every iteration order."
  },
  {
   "property": "C50",
   "status": "partial",
   "theorems": [
    "C50_zeros",
    "C50_ones",
    "C50_identity",
    "C50_zeros_vector",
    "C50_ones_vector",
    "C50_zero_dimensions",
    "C50_identity_times_partial",
    "C50_times_identity_partial",
    "C50_plus_zeros_partial"
   ],
   "note": "Dimensions and entries for all numbers. Neutrality for unambiguous arrays; false otherwise, and VariableMatrix plus zeros panics."
  },
  {
   "property": "C51",
   "status": "partial",
   "theorems": [
    "C51_simplified_total",
    "C51_simplified_value_partial",
    "C51_simplified_twice",
    "C51_simplify_effect",
    "C51_simplify_exactly_when"
   ],
   "note": "Totality and idempotence for all arrays; the value under unambiguity (false otherwise as in C05); for all arrays the exact value of every entry and the exact condition under which it is right (C51_simplify_effect, C51_simplify_exactly_when)."
  },
  {
   "property": "C52",
   "status": "partial",
   "theorems": [
    "C52_monomials_partial",
    "C52_polynomials_partial",
    "C52_shared_refuted",
    "C52_panic_refuted",
    "C52_monomials_any_partial",
    "C52_monomials_any_real_partial",
    "C52_polynomials_any_partial",
    "C52_polynomials_any_real_partial",
    "C52_polynomials_panics_when"
   ],
   "note": "FALSE in general: two entries that share exponents (C52_shared_refuted); polynomial entries without v panic (C52_panic_refuted). Proved for all exponents when no two terms share exponents (C52_monomials_any_partial, C52_polynomials_any_partial), and for entries at most linear in v whatever they share. C52_polynomials_panics_when: which entry makes DerivativeWrt of a PolynomialMatrix panic, and what the call leaves behind."
  },
  {
   "property": "C53",
   "status": "partial",
   "theorems": [
    "C53_linear_part_partial",
    "C53_linear_part_programs"
   ],
   "note": "Proved for collected expressions other than constant monomials and for all API programs without DerivativeWrt; uncollected sums: FALSE as in C18."
  },
  {
   "property": "C54",
   "status": "proved",
   "theorems": [
    "C54_continuous",
    "C54_binary",
    "C54_arrays",
    "C54_valid",
    "C54_two_environments_refuted"
   ],
   "note": "Holds for zero or one environment argument. With two or more, NewContinuousVariable, NewBinaryVariable and NewVariableVector silently use the default environment (C54_two_environments_refuted)."
  },
  {
   "property": "C55",
   "status": "proved",
   "theorems": [
    "C55_constant_vector",
    "C55_variable_vector",
    "C55_constant_matrix",
    "C55_variable_matrix"
   ],
   "note": "Entries 0/1 for every Num; rates of change for exact arithmetic."
  },
  {
   "property": "C56",
   "status": "partial",
   "theorems": [
    "C56_vectors",
    "C56_matrices",
    "C56_value",
    "C56_numeric",
    "C56_copy",
    "C56_square",
    "C56_ragged_refuted",
    "C56_ragged_panic_refuted",
    "C56_empty_refuted"
   ],
   "note": "Proved for all arrays with rows of equal length; FALSE for ragged KMatrix values and the empty KVector, which pass Check (C56_ragged_refuted, C56_ragged_panic_refuted, C56_empty_refuted)."
  },
  {
   "property": "C57",
   "status": "partial",
   "theorems": [
    "C57_scalar",
    "C57_vector",
    "C57_matrix",
    "C57_polynomial_like",
    "C57_tests",
    "C57_polynomial_like_test",
    "C57_failure",
    "C57_polynomial_like_panics",
    "C57_polynomial_like_refuted",
    "C57_int_refuted"
   ],
   "note": "Recognition and conversion agree for every Go value. FALSE: ToPolynomialLike panics instead of returning an error and refuses pointers (C57_polynomial_like_refuted); ints are accepted by the arithmetic but are not scalar expressions (C57_int_refuted)."
  },
  {
   "property": "C58",
   "status": "partial",
   "theorems": [
    "C58_monomial",
    "C58_polynomial",
    "C58_vectors",
    "C58_no_variables",
    "C58_constant_partial",
    "C58_simplified_partial",
    "C58_simplified_degree2_partial",
    "C58_constant_refuted"
   ],
   "note": "IsConstant reports exactly the expressions without variables. FALSE for x - x and 0*x (C58_constant_refuted); proved for collected expressions with non-zero coefficients, and for simplified forms."
  },
  {
   "property": "C59",
   "status": "partial",
   "theorems": [
    "C59_monomial",
    "C59_monomial_used",
    "C59_monomial_derivative",
    "C59_polynomial_partial",
    "C59_polynomial_used",
    "C59_polynomial_refuted",
    "C59_simplified_refuted"
   ],
   "note": "Monomial.Copy: proved for all memories and writes (C59_monomial, _used, _derivative). Polynomial.Copy: FALSE in general (C59_polynomial_refuted): the terms share exponents and variables with the original, although it is documented as a deep copy; proved for replacing terms. AsSimplifiedExpression of a monomial returns the monomial itself (C59_simplified_refuted)."
  },
  {
   "property": "C60",
   "status": "partial",
   "theorems": [
    "C60_functions",
    "C60_canonical_partial",
    "C60_canonical_degree2_partial",
    "C60_canonical_one_variable_partial",
    "C60_difference_partial",
    "C60_difference_degree2_partial",
    "C60_difference_one_variable_partial",
    "C60_difference_sorted_partial",
    "C60_difference_refuted"
   ],
   "note": "FALSE in general: x*x*y - y*x*x does not cancel (C60_difference_refuted). Proved when factors are listed uniquely, for degree <= 2, for one variable and for sorted factors. The coefficient criterion (C60_functions) is unconditional."
  },
  {
   "property": "C61",
   "status": "partial",
   "theorems": [
    "C61_total",
    "C61_total_constraints",
    "C61_names",
    "C61_scalars_partial",
    "C61_arrays_partial",
    "C61_values_partial",
    "C61_constraints_partial",
    "C61_renamed_refuted",
    "C61_environments_refuted",
    "C61_negative_zero_refuted",
    "C61_brackets",
    "C61_brackets_refuted"
   ],
   "note": "FALSE in general: renamed variables, variables of two environments and negative zeros print alike, and matrices of numbers print unbalanced brackets (refuted). Proved for the names the library assigns, in exact arithmetic and in float64 without negative zeros after the first term."
  },
  {
   "property": "C62",
   "status": "proved",
   "theorems": [
    "C62_plus",
    "C62_minus",
    "C62_multiply",
    "C62_power",
    "C62_simplified",
    "C62_derivative",
    "C62_substitute",
    "C62_program",
    "C62_value_degree2",
    "C62_value_one_variable",
    "C62_linear_coefficients",
    "C62_inequality",
    "C62_equality",
    "C62_large_refuted",
    "C62_tenths_refuted"
   ],
   "note": "Simulation of the float64 model by the rational one: single calls, whole programs, LinearCoeff, Constant, linear constraint representations. Values follow at degree <= 2 and in one variable. The two refuted theorems show that the bound is needed and sharp; they do not contradict the property."
  },
  {
   "property": "C63",
   "status": "partial",
   "theorems": [
    "C63_dimensions",
    "C63_mismatch",
    "C63_degree",
    "C63_value_degree2_partial",
    "C63_value_one_variable_partial",
    "C63_value_refuted",
    "C63_total_refuted"
   ],
   "note": "FALSE in general: C63_value_refuted (third power of the matrix (x y; x y)), C63_total_refuted (a monomial times a vector is unsupported). Dimensions, validity, degree and the rejection of misfits proved for all programs and numbers; the value for programs of degree <= 2 and for one variable."
  },
  {
   "property": "C64",
   "status": "partial",
   "theorems": [
    "C64_quadratic_form_partial",
    "C64_one_variable_refuted",
    "C64_linear_map",
    "C64_affine_map",
    "C64_linear_constraint_partial",
    "C64_affine_constraint_partial",
    "C64_coefficients_partial",
    "C64_zero_row_refuted"
   ],
   "note": "FALSE for one variable (C64_one_variable_refuted) and for rows of zeros (C64_zero_row_refuted). Otherwise proved: success of the calls for all numbers, values and the exact coefficients for exact numbers."
  },
  {
   "property": "C65",
   "status": "proved",
   "theorems": [
    "C65_plus",
    "C65_minus",
    "C65_multiply",
    "C65_simplified",
    "C65_program",
    "C65_value_degree2",
    "C65_value_one_variable",
    "C65_quadratic_form",
    "C65_linear_constraint",
    "C65_inequality",
    "C65_equality",
    "C65_any_order",
    "C65_large_refuted"
   ],
   "note": "Simulation of the float64 model of vectors and matrices by the rational one: single calls, whole programs, quadratic forms, linear constraints. C65_any_order: within the bound the order of summation inside gonum does not matter, so the left-to-right order of the model is no restriction. C65_large_refuted shows that the bound is needed; it does not contradict the property."
  },
  {
   "property": "C66",
   "status": "proved",
   "theorems": [
    "C66_inequality",
    "C66_equality",
    "C66_comparison",
    "C66_inequality_total",
    "C66_equality_total",
    "C66_inequality_float64",
    "C66_equality_float64",
    "C66_inequality_total_float64",
    "C66_equality_total_float64",
    "C66_unsimplified_refuted"
   ],
   "note": "Composition of the value of array programs (C63), normal forms (C51) and representations (C30), for exact numbers and, within 53 bits, for float64. C66_unsimplified_refuted shows that the simplification is needed: 1 + 2 + 2x <= 1 is extracted as 2x <= 0; it does not contradict the property."
  },
  {
   "property": "C67",
   "status": "partial",
   "theorems": [
    "C67_identified",
    "C67_numbers",
    "C67_mentions",
    "C67_type_names",
    "C67_types_told_apart",
    "C67_addition",
    "C67_subtraction",
    "C67_multiplication",
    "C67_vector_index",
    "C67_matrix_index",
    "C67_comparison",
    "C67_comparison_vectors",
    "C67_comparison_panics",
    "C67_plus",
    "C67_minus",
    "C67_multiply",
    "C67_compare",
    "C67_hstack",
    "C67_vstack"
   ],
   "note": "FALSE in one place: the exported smErrors.CheckDimensionsInComparison panics with a failed type assertion for a one-column matrix and a vector of a different length (C67_comparison_panics says exactly when; package symbolic never calls it so). Everything else is proved for all errors and all valid operands; names of types are texts without spaces and round brackets, which holds for all expression types (C67_type_names)."
  },
  {
   "property": "C68",
   "status": "proved",
   "theorems": [
    "C68_locates",
    "C68_one_fault",
    "C68_nil"
   ],
   "note": "for every expression, valid or not, and every way of printing float64 numbers"
  },
  {
   "property": "C69",
   "status": "partial",
   "theorems": [
    "C69_arithmetic",
    "C69_history_values_partial",
    "C69_history_kept_partial",
    "C69_call_partial",
    "C69_program_partial",
    "C69_program_value_partial",
    "C69_sum_refuted",
    "C69_transpose_refuted"
   ],
   "note": "Proved for every sequence of calls other than DerivativeWrt (C69_arithmetic) and for every nested program (C69_program_partial), with any growth policy of append; with DerivativeWrt of scalars at most linear in the variable (C69_history_values_partial). FALSE for DerivativeWrt of an entry with another exponent: M.Plus(1).At(0,0).DerivativeWrt(x) and M.Transpose().At(0,1).DerivativeWrt(x) change M (C69_sum_refuted, C69_transpose_refuted), because MonomialMatrix.Plus, Transpose, At and stacking share the entries' slices."
  },
  {
   "property": "C70",
   "status": "partial",
   "theorems": [
    "C70_session",
    "C70_session_values_partial",
    "C70_session_kept_partial",
    "C70_call_partial",
    "C70_inequality_partial",
    "C70_equality_partial",
    "C70_system_values_partial",
    "C70_derivative_refuted",
    "C70_comparison_memory"
   ],
   "note": "FALSE in general: DerivativeWrt of x^2 rewrites the exponent a constraint shares (C70_derivative_refuted). Proved for every session without DerivativeWrt (C70_session), and with DerivativeWrt of scalars in which the variable has exponent 1 at most; one call on any separate heap; and the whole way from two linear programs to the solver's matrices in memory. Missing: heaps with overlapping capacity, DerivativeWrt with other exponents or of vectors and matrices. C70_comparison_memory: Comparison writes nothing at all, for any operands."
  },
  {
   "property": "C71",
   "status": "partial",
   "theorems": [
    "C71_is_zero",
    "C71_is_variable",
    "C71_degree_one",
    "C71_same_powers",
    "C71_matches_degree2_partial",
    "C71_matches_sorted_partial",
    "C71_matches",
    "C71_matches_symmetric",
    "C71_matches_refuted",
    "C71_constant_index",
    "C71_variable_index",
    "C71_monomial_index_degree2_partial",
    "C71_monomial_index",
    "C71_to_variable",
    "C71_to_variable_value",
    "C71_to_variable_refuted",
    "C71_conversions",
    "C71_rejects"
   ],
   "note": "FALSE in general: MatchesFormOf compares exponents by position, so x y^2 matches y x^2 and x^2 y does not (C71_matches_refuted), and MonomialIndex with it; ToVariable turns 3x into x (C71_to_variable_refuted). Proved: IsZero, IsVariable, IsDegreeOneContainingVariable, the constant and variable indices, the conversions and the rejections for all terms; MatchesFormOf and MonomialIndex for degree two and for sorted factors, and exactly what they decide in general."
  },
  {
   "property": "C72",
   "status": "partial",
   "theorems": [
    "C72_dims",
    "C72_len",
    "C72_dims_invalid",
    "C72_len_invalid",
    "C72_len_unchecked",
    "C72_variable_ids",
    "C72_constraint_dims",
    "C72_constraint_mismatch",
    "C72_constraint_check_partial",
    "C72_constraint_check_refuted",
    "C72_submap",
    "C72_submap_valid",
    "C72_submap_rejected_scalar",
    "C72_submap_rejected_vector",
    "C72_submap_rejected_matrix"
   ],
   "note": "FALSE in general: Check of a VectorConstraint accepts a side of length 1 against a longer one, and AtVec then panics (C72_constraint_check_refuted); constants ignore a rejected map (C72_submap_rejected_*). Proved: Dims, Len, VariableIDs, NumVariables of every valid array, Check in one direction for all constraints and in the other up to the length 1 case, and exactly which maps are accepted."
  },
  {
   "property": "C73",
   "status": "partial",
   "theorems": [
    "C73_multiply_partial",
    "C73_plus_partial",
    "C73_minus_partial",
    "C73_hstack",
    "C73_vstack",
    "C73_transpose",
    "C73_concretize_slice",
    "C73_concretize_rows",
    "C73_refuted"
   ],
   "note": "FALSE in general: the transpose of a matrix with one row stays a matrix, and a KMatrix with one column times or plus a number stays a matrix while a PolynomialMatrix becomes a vector (C73_refuted). Proved: HStack, VStack and Concretize for all arguments, exactly when Transpose keeps to it, Plus and Minus for operands that are not matrices with one column, Multiply except one-column matrices times a scalar."
  },
  {
   "property": "C74",
   "status": "proved",
   "theorems": [
    "C74_plus_array",
    "C74_simplify_array",
    "C74_multiply_array",
    "C74_minus_array",
    "C74_minus_function_array",
    "C74_one_coefficient",
    "C74_simplify",
    "C74_plus",
    "C74_plus_commutes",
    "C74_minus",
    "C74_multiply_number",
    "C74_order_matters"
   ],
   "note": "Proved for binary64 (SpecFloat), coefficient by coefficient: Plus, Minus and number times expression on operands in which like terms have been collected, Simplify on every valid expression; for vectors and matrices the same entry by entry, except sums and differences computed by a MonomialMatrix, which list the terms (C32_plus_listed). Zeros are dropped on both sides of the comparison, since the constant 0 keeps a zero coefficient. Also shown: the order of two additions matters (C74_order_matters), so no claim of associativity is made."
  },
  {
   "property": "C75",
   "status": "partial",
   "theorems": [
    "C75_plus_entries_partial",
    "C75_plus_entries_float64_partial",
    "C75_refuted",
    "C75_simplify_entries",
    "C75_multiply_entries_partial",
    "C75_multiply_entries_float64_partial"
   ],
   "note": "FALSE in general: a MonomialMatrix plus anything lists the terms without collecting them (C75_refuted; C32_plus_listed states the result). Proved for every other pair of operands that Plus accepts, with exact numbers and with float64, and for simplification with every number type. A constant or a variable plus an array is added in the other order, as sum_of_entries says. C75_multiply_entries_partial and C75_multiply_entries_float64_partial: products of two matrices, and of a PolynomialMatrix or a one-row MonomialMatrix by a VariableVector, for all operands; the other products by vectors are stated under C33."
  },
  {
   "property": "C76",
   "status": "partial",
   "theorems": [
    "C76_plus_partial",
    "C76_minus_partial",
    "C76_multiply_number_partial",
    "C76_simplify_partial",
    "C76_sum_partial",
    "C76_multiply_partial",
    "C76_exact_refuted",
    "C76_slope",
    "C76_derivative",
    "C76_plus_array_partial",
    "C76_minus_array_partial",
    "C76_minus_function_array_partial",
    "C76_multiply_array_partial",
    "C76_simplify_array_partial",
    "C76_multiply_matrix_partial"
   ],
   "note": "Proved for expressions without ambiguous terms (terms such as x^2 y and x y^2, which the library confuses even in exact arithmetic: C01, C03) and, for Plus, Minus and multiples by a number (not for products), operands in which like terms have been collected, as the library's own results are; arrays entry by entry (C76_multiply_matrix_partial: products of matrices), except sums and differences computed by a MonomialMatrix, which list the terms. C76_slope and C76_derivative hold for all expressions, ambiguous or not. C76_exact_refuted: the results are not exact, so a bound is what one can ask for. Uses Flocq and the standard library's reals; the axioms are listed in DESIGN.md."
  },
  {
   "property": "C77",
   "status": "partial",
   "theorems": [
    "C77_check",
    "C77_substitute",
    "C77_substitute_map",
    "C77_at",
    "C77_linear_coeff",
    "C77_transpose_partial",
    "C77_simplified_partial",
    "C77_degree_partial",
    "C77_constant_partial",
    "C77_variables_partial",
    "C77_variables_unchecked",
    "C77_receiver_refuted",
    "C77_substitute_argument",
    "C77_substitute_map_argument",
    "C77_constants_ignore",
    "C77_derivative",
    "C77_monomial_tests",
    "C77_variable_tests",
    "C77_polynomial_tests",
    "C77_vector_access_partial",
    "C77_derivative_heap",
    "C77_substitute_heap",
    "C77_minus_power_heap",
    "C77_derivative_monomial_vector",
    "C77_derivative_monomial_matrix",
    "C77_derivative_polynomial_matrix",
    "C77_derivative_variables_partial",
    "C77_arithmetic_receiver",
    "C77_arithmetic_operand_partial",
    "C77_arithmetic_receiver_heap",
    "C77_arithmetic_operand_heap_partial",
    "C77_variable_operand_heap_partial",
    "C77_comparison_heap"
   ],
   "note": "FALSE in general: C77_receiver_refuted (a Variable or an array of variables that fails Check has a degree and a simplification, C77_variables_unchecked; a Variable also a transpose; Constant of Variable, Monomial and VariableVector and Variables of scalars, VariableVector and PolynomialVector do not test). Not tested either: the variable given to VariableMatrix.DerivativeWrt, and the receiver of PolynomialVector.DerivativeWrt (its entries are, one after the other: C10). Proved without exception for Substitute, SubstituteAccordingTo, DerivativeWrt of scalars, At and LinearCoeff, receivers and arguments; DerivativeWrt, Substitute, Minus and Power with memory: a rejected call leaves every slice as it was; for the other methods, for all types that do test. The arithmetic methods are C47. VariableVector.AtVec and Len of VariableVector and MonomialVector do not test. Arithmetic: C77_arithmetic_receiver without exception; operands except Variable.Plus of a Variable (C47_operand_refuted) and of a matrix, which is refused for its type first. C77_check says without exception which expressions Check accepts (the variables inside terms are not tested, nor is that exponents are positive or variables distinct). Arithmetic with memory (scalars, vectors, matrices): C77_arithmetic_receiver_heap without exception, operands as in the pure theorems. C77_comparison_heap: the same for Comparison, without exception."
  },
  {
   "property": "C78",
   "status": "partial",
   "theorems": [
    "C78_check",
    "C78_constraint",
    "C78_scalar",
    "C78_vector",
    "C78_matrix",
    "C78_compile_partial",
    "C78_constraint_heap",
    "C78_each_heap",
    "C78_unchecked_refuted"
   ],
   "note": "FALSE in general: C78_unchecked_refuted (AsSimplifiedConstraint of scalar and matrix constraints and CompileConstraintsIntoScalarConstraints of scalar constraints do not call Check, nor does IsLinear). All other methods of the three types, with the very error that Check reports. C78_check says which constraints Check accepts. With memory (C78_constraint_heap, C78_each_heap): a rejected call leaves every slice as it was."
  }
 ]
}