{
 "claims": [
  {
   "property": "C01",
   "status": "proved",
   "theorems": [
    "C01_addressing_bijection",
    "C01_odometer_enumerates"
   ],
   "note": "Strides, Index, Indexes and IncArrayIndex modelled literally; bijection and enumeration for every shape."
  },
  {
   "property": "C02",
   "status": "proved",
   "theorems": [
    "C02_reshape_cyclic",
    "C02_reshape_scalar",
    "C02_reshape_own_shape",
    "C02_reshape_empty_shape",
    "C02_negative_lengths_accepted",
    "C02_overflow_accepted"
   ],
   "note": "Also recorded: negative lengths are accepted by ⍴ (C02_negative_lengths_accepted), outside the property's quantifier."
  },
  {
   "property": "C03",
   "status": "proved",
   "theorems": [
    "C03_empty_reshape",
    "C03_shape_of_reshape",
    "C03_shape_scalar_and_empty",
    "C03_rank_counts_axes"
   ],
   "note": "For arrays, scalars and the empty array; tables/objects have their own ⍴ (not part of this property)."
  },
  {
   "property": "C04",
   "status": "partial",
   "theorems": [
    "C04_store_mixed_int",
    "C04_store_bool_string_partial",
    "C04_store_past_end_refuted"
   ],
   "note": "Proved for MixedArray/IntArray at full strength. Refuted for BoolArray, StringArray, FloatArray, ComplexArray, TimeArray at index = size: 'i > len' (bool.go:73, string.go:87, numbers/floats.go:41, complexs.go:42, times.go:43) lets i = len through and the store panics; everything else proved."
  },
  {
   "property": "C05",
   "status": "proved",
   "theorems": [
    "C05_first",
    "C05_last",
    "C05_reverse",
    "C05_reverse_involution",
    "C05_reverse_axis_error",
    "C05_reverse_scalar"
   ],
   "note": "All ranks, all axes including negative ones."
  },
  {
   "property": "C06",
   "status": "proved",
   "theorems": [
    "C06_named",
    "C06_rotate_vector",
    "C06_rotate_compose",
    "C06_rotate_multiple",
    "C06_rotate_inverse",
    "C06_overflow_is_no_rotation"
   ],
   "note": "Every integer count, including negative and larger than the length, via Go's truncated remainder."
  },
  {
   "property": "C07",
   "status": "partial",
   "theorems": [
    "C07_first",
    "C07_last",
    "C07_rotate_lines",
    "C07_single_element_refuted"
   ],
   "note": "Proved for a conforming left argument of any rank. The documented single-element extension is refuted (reverse.go:162-174 builds a shape of lshape[0]s and only for rank > 2)."
  },
  {
   "property": "C08",
   "status": "proved",
   "theorems": [
    "C08_monadic_transpose",
    "C08_transpose_involution",
    "C08_transpose_empty_panics"
   ],
   "note": "Also recorded: ⍉ of the empty array panics (C08_transpose_empty_panics)."
  },
  {
   "property": "C09",
   "status": "proved",
   "theorems": [
    "C09_dyadic_transpose",
    "C09_dyadic_transpose_rejects"
   ],
   "note": "Acceptance and rejection, both index origins."
  },
  {
   "property": "C10",
   "status": "proved",
   "theorems": [
    "C10_take",
    "C10_take_vector"
   ],
   "note": "Any rank, partial counts, explicit axes, over-take fill."
  },
  {
   "property": "C11",
   "status": "proved",
   "theorems": [
    "C11_drop",
    "C11_take_drop_join",
    "C11_smallest_count_takes"
   ],
   "note": "Any rank; (N↑V),(N↓V) is V."
  },
  {
   "property": "C12",
   "status": "partial",
   "theorems": [
    "C12_take_full_length_keeps_left_partial",
    "C12_transpose_origin1_keeps_left_partial",
    "C12_arguments_modified_refuted"
   ],
   "note": "Refuted: takedrop writes Dims[0] of the caller's L when it is shorter than the rank and its elements on drop; transposeIndexes adds 1 to L in place when ⎕IO is 0. Proved: take with a full-length L and transpose with ⎕IO 1 leave L alone. Other primitives build fresh results in the model (right arguments are never written by the modelled functions)."
  },
  {
   "property": "C13",
   "status": "proved",
   "theorems": [
    "C13_catenate",
    "C13_catenate_shape_error",
    "C13_catenate_axis_error",
    "C13_catenate_vectors",
    "C13_catenate_empty"
   ],
   "note": "Arrays with zero elements return the other argument (comma.go:210-214), stated separately."
  },
  {
   "property": "C14",
   "status": "partial",
   "theorems": [
    "C14_default_axis",
    "C14_default_axis_scalar",
    "C14_two_more_axes",
    "C14_catenate_lower_left",
    "C14_catenate_lower_right_partial",
    "C14_catenate_scalar_left",
    "C14_catenate_scalar_right_partial",
    "C14_rank_difference_error_partial",
    "C14_default_axis_refuted"
   ],
   "note": "Proved for every rank difference: lower-rank or scalar left argument with any axis, lower-rank or scalar right argument with an explicit axis, an error for differences of 2 or more on the right and 3 or more on the left. What the code does elsewhere is exact too, but not what the property asks: without an axis the last axis of the right argument is taken (C14_default_axis, axis.go:45), the first one for a scalar (C14_default_axis_scalar), and a left argument with two more axes panics or is an error as C14_two_more_axes says (comma.go:263 tests d > 2)."
  },
  {
   "property": "C15",
   "status": "proved",
   "theorems": [
    "C15_laminate",
    "C15_laminate_scalar",
    "C15_laminate_shape_error",
    "C15_laminate_axis_panics"
   ],
   "note": "Also recorded: the axis rank+1+fraction passes the range check and panics."
  },
  {
   "property": "C16",
   "status": "proved",
   "theorems": [
    "C16_ravel_inserts_axis",
    "C16_ravel_scalar_axis",
    "C16_ravel_axis_error",
    "C16_ravel_axis_panic",
    "C16_enlist",
    "C16_enlist_atom",
    "C16_enlist_idempotent",
    "C16_ravel_row_major",
    "C16_ravel_merges_axes"
   ],
   "note": "Ravel and ravel with axes; enlist of nested lists in Prop_List."
  },
  {
   "property": "C17",
   "status": "proved",
   "theorems": [
    "C17_selects",
    "C17_error",
    "C17_wrong_rank",
    "C17_out_of_range",
    "C17_all"
   ],
   "note": "Index specifications with integer arrays, elided axes or non-numeric values; index arrays of higher rank are flattened by the code (documented in the model)."
  },
  {
   "property": "C18",
   "status": "proved",
   "theorems": [
    "C18_shape",
    "C18_scalar"
   ],
   "note": ""
  },
  {
   "property": "C19",
   "status": "partial",
   "theorems": [
    "C19_alias_refuted",
    "C19_assign",
    "C19_modified",
    "C19_bad_index",
    "C19_bad_value",
    "C19_frame"
   ],
   "note": "Proved for a right argument that shares no storage with the array. C19_alias_refuted: A[3 2 1]←A reads its right argument while it is changed and gives 1 2 1."
  },
  {
   "property": "C20",
   "status": "partial",
   "theorems": [
    "C20_copies_partial",
    "C20_independent_partial",
    "C20_separate_partial",
    "C20_complex_refuted"
   ],
   "note": "C20_complex_refuted: ComplexArray.Copy returns its receiver (numbers/complexs.go:19-23), so after A←1J1 2J2 ⋄ B←A, B[1]←5J5 changes A. Proved (C20_copies_partial, C20_independent_partial, C20_separate_partial) for every history over values without arrays that are copied by reference: after B←X no assignment to B or parts of B changes X or any other variable; and no assignment to any variable changes another one unless parts of an argument of a running lambda are assigned."
  },
  {
   "property": "C21",
   "status": "partial",
   "theorems": [
    "C21_partial",
    "C21_refuted"
   ],
   "note": "C21_refuted: {⍵[1]←5}A changes A, because a lambda binds its arguments without copying. C21_partial: true for bodies that do not assign to parts of ⍺ and ⍵."
  },
  {
   "property": "C22",
   "status": "proved",
   "theorems": [
    "C22_interval"
   ],
   "note": "Every origin and every n."
  },
  {
   "property": "C23",
   "status": "partial",
   "theorems": [
    "C23_indexof",
    "C23_indexof_empty",
    "C23_scalar_shape_refuted"
   ],
   "note": "First occurrence for every array R of any shape and every comparison. Refuted: a scalar R is turned into a one-element vector before the search (iota.go:20), so the result is a vector."
  },
  {
   "property": "C24",
   "status": "proved",
   "theorems": [
    "C24_membership"
   ],
   "note": "Any shape of L, scalar or array or empty R."
  },
  {
   "property": "C25",
   "status": "partial",
   "theorems": [
    "C25_unique",
    "C25_unique_any_comparison",
    "C25_union",
    "C25_union_empty_refuted",
    "C25_union_empty_partial"
   ],
   "note": "Unique and union for every equivalence (and duplicate-freedom for any comparison). Refuted: ∪ with the empty array returns the other side with its duplicates (unique.go:48-53)."
  },
  {
   "property": "C26",
   "status": "partial",
   "theorems": [
    "C26_without_partial",
    "C26_without_empty_refuted"
   ],
   "note": "Proved for all non-empty L. Refuted: a zero-length L (not the ⍬ constant) panics."
  },
  {
   "property": "C27",
   "status": "proved",
   "theorems": [
    "C27_where",
    "C27_where_other_ranks"
   ],
   "note": "All boolean vectors; other ranks rejected. Model starts after ToBoolArray."
  },
  {
   "property": "C28",
   "status": "partial",
   "theorems": [
    "C28_intervalindex",
    "C28_not_sorted_rejected",
    "C28_matrix_refuted"
   ],
   "note": "Vectors: every origin, every comparison that is a strict weak order, every sort meeting Go's contract; unsorted L rejected. Refuted for matrices: only the first element of each row is located."
  },
  {
   "property": "C29",
   "status": "partial",
   "theorems": [
    "C29_grade",
    "C29_grade_converted",
    "C29_grade_vector",
    "C29_grade_dyadic",
    "C29_empty_refuted"
   ],
   "note": "Any rank, up and down, dyadic form, for every sort meeting the contract of sort.Sort (proved satisfiable by insertion sort). Refuted: grading an array without elements panics."
  },
  {
   "property": "C30",
   "status": "proved",
   "theorems": [
    "C30_match_arrays",
    "C30_match_scalars",
    "C30_match_equivalence"
   ],
   "note": "Arrays of any rank, scalars, empty; equivalence relation when the element comparison is one."
  },
  {
   "property": "C31",
   "status": "partial",
   "theorems": [
    "C31_find_vector",
    "C31_find_array_partial",
    "C31_find_lower_rank",
    "C31_find_wraps_refuted"
   ],
   "note": "Vectors: full. Any rank: complete, and sound where the pattern fits, as long as no comparison leaves R. Refuted: matches wrap across rows, tall patterns panic (find.go:60-80)."
  },
  {
   "property": "C32",
   "status": "proved",
   "theorems": [
    "C32_reduce_vector",
    "C32_reduce_axis",
    "C32_reduce_axis_pure",
    "C32_reduce_single",
    "C32_reduce_axis_length_one",
    "C32_reduce_axis_error"
   ],
   "note": "For every effectful function operand, every rank and axis; call order fixed by state threading. Channels, tables and objects (reduceChannel, reduceTable) are not modelled."
  },
  {
   "property": "C33",
   "status": "partial",
   "theorems": [
    "C33_identity_table",
    "C33_min_max_items_swapped_refuted",
    "C33_reduce_empty",
    "C33_reduce_empty_axis",
    "C33_reduce_zero_vector_refuted"
   ],
   "note": "Table proved to hold identities for 14 scalar functions; ⌊ and ⌈ items are exchanged (refuted). ⍬ and empty axes of rank>=2 give the identity / error. Refuted for vectors of shape [0] (reduce.go:193-201 reshapes to an array without axes)."
  },
  {
   "property": "C34",
   "status": "partial",
   "theorems": [
    "C34_scan_vector",
    "C34_scan_axis",
    "C34_scan_axis_pure",
    "C34_scan_scalar",
    "C34_scan_empty_axis_refuted"
   ],
   "note": "Proved for every non-empty axis; refuted for axes without elements (scan indexes vec[0], reduce.go:752)."
  },
  {
   "property": "C35",
   "status": "partial",
   "theorems": [
    "C35_nwise",
    "C35_nwise_moving_window",
    "C35_nwise_effects",
    "C35_nwise_too_long",
    "C35_times_moving_window_refuted",
    "C35_length_plus_two_refuted"
   ],
   "note": "Proved for plain windows and for the moving window with any function that has a true inverse (integer + included). Refuted: × with a zero leaving a window (fast path divides), N = size+2 panics."
  },
  {
   "property": "C36",
   "status": "partial",
   "theorems": [
    "C36_replicate",
    "C36_replicate_vector",
    "C36_single_count",
    "C36_extend_right",
    "C36_length_error",
    "C36_compress",
    "C36_edge_cases_refuted"
   ],
   "note": "Full statement proved for arrays with existing axis; corner cases (empty array, axis too large, single count on an empty axis) behave as recorded in C36_edge_cases_refuted."
  },
  {
   "property": "C37",
   "status": "partial",
   "theorems": [
    "C37_empty_mask",
    "C37_empty_mask_scalar",
    "C37_expand",
    "C37_expand_vector",
    "C37_compress_expand",
    "C37_count_mismatch_refuted"
   ],
   "note": "Proved when the number of positive entries equals the axis length; the required error for a different number is refuted."
  },
  {
   "property": "C38",
   "status": "partial",
   "theorems": [
    "C38_inner_arrays",
    "C38_inner_vectors",
    "C38_inner_length_error",
    "C38_inner_scalars",
    "C38_inner_empty_axis_refuted"
   ],
   "note": "All ranks, scalar extension, length error; G/F call order fixed. Inner axis of length 0 panics (refuted)."
  },
  {
   "property": "C39",
   "status": "partial",
   "theorems": [
    "C39_outer_arrays",
    "C39_outer_elements",
    "C39_outer_scalar_partial",
    "C39_outer_scalar_shape_refuted"
   ],
   "note": "Arrays of any rank, call order and elements. Refuted for a scalar argument (extra axis of length 1, ToArray) and for the empty array (panic)."
  },
  {
   "property": "C40",
   "status": "partial",
   "theorems": [
    "C40_each_monadic",
    "C40_each_array_result",
    "C40_each_scalar",
    "C40_each_dyadic",
    "C40_each_scalar_extension",
    "C40_each_shape_error",
    "C40_each_lists",
    "C40_each_refuted"
   ],
   "note": "Monadic, dyadic, scalar extension, lists, errors. Refuted: arrays with a zero axis become ⍬; scalar L with a list R; unequal shapes pass when one side is empty. Channels not modelled here."
  },
  {
   "property": "C41",
   "status": "proved",
   "theorems": [
    "C41_power_iterates",
    "C41_power_zero",
    "C41_power_add",
    "C41_power_negative",
    "C41_power_until",
    "C41_power_limit"
   ],
   "note": "Any effectful F for N; until-form for F, G whose calls do not change the state."
  },
  {
   "property": "C42",
   "status": "proved",
   "theorems": [
    "C42_commute",
    "C42_commute_twice",
    "C42_compose",
    "C42_compose_assoc",
    "C42_compose_errors"
   ],
   "note": "All forms, plus involution of commute and associativity of compose."
  },
  {
   "property": "C43",
   "status": "partial",
   "theorems": [
    "C43_at_index_partial",
    "C43_at_boolean_function",
    "C43_at_index_out_of_range",
    "C43_at_order_refuted"
   ],
   "note": "Proved for increasing index lists (any rank, function or value replacement, single value extension) and for a boolean selector function. Refuted for unordered and duplicate index lists."
  },
  {
   "property": "C44",
   "status": "partial",
   "theorems": [
    "C44_rank_cells_partial",
    "C44_rank_refuted"
   ],
   "note": "Monadic rank. Proved for frames of one axis and for k=0 with any frame. Refuted: full rank never applies F; frames of two or more axes fail. Results of differing shapes and the dyadic form: C134."
  },
  {
   "property": "C45",
   "status": "proved",
   "theorems": [
    "C45_monadic",
    "C45_monadic_error",
    "C45_scalars",
    "C45_equal_shapes",
    "C45_scalar_left",
    "C45_scalar_right",
    "C45_one_element_left",
    "C45_one_element_right",
    "C45_different_shapes",
    "C45_no_elements",
    "C45_element_error",
    "C45_element_error_scalar_left",
    "C45_element_error_scalar_right"
   ],
   "note": "Monadic and dyadic forms; the element function is any function that may fail. Arrays without elements go with every array."
  },
  {
   "property": "C46",
   "status": "proved",
   "theorems": [
    "C46_lower_left",
    "C46_lower_right",
    "C46_bad_axis_left",
    "C46_bad_axis_right"
   ],
   "note": "Either argument may have the lower rank; the axes may be named in any order; every other axis list is an error."
  },
  {
   "property": "C47",
   "status": "partial",
   "theorems": [
    "C47_fractions",
    "C47_add_sub_mul",
    "C47_exact_when_it_fits",
    "C47_div_exact",
    "C47_div_passed_on",
    "C47_div_big",
    "C47_div_default",
    "C47_div_refuted"
   ],
   "note": "+ - x wrap in every tower; exact quotients stay Int, others go to the tower (exact rational, IEEE double). Refuted: ¯2^63÷¯1 is ¯2^63; 1b÷0b panics (nil Numeric)."
  },
  {
   "property": "C48",
   "status": "partial",
   "theorems": [
    "C48_lcm",
    "C48_lcm_overflow_refuted",
    "C48_zero",
    "C48_gcd_fractions",
    "C48_factorial",
    "C48_factorial_limit",
    "C48_binomial",
    "C48_binomial_general",
    "C48_gcd"
   ],
   "note": "Factorial, binomial (Pascal and generalized), gcd on Int and on fractions, lcm on Int whenever the product of the arguments fits in 64 bits, gcd and lcm with zero in every tower. gcd arguments whose gcd is 2^63 are excluded. Refuted: the product inside lcm wraps, so L∧R can be wrong although the least common multiple fits."
  },
  {
   "property": "C49",
   "status": "partial",
   "theorems": [
    "C49_zero",
    "C49_multiple",
    "C49_default",
    "C49_big",
    "C49_large_refuted"
   ],
   "note": "Default numbers: exact for |L|,|R| <= 2^52 (Flocq; uses the axioms of the standard library's reals). Exact numbers: whenever Rat.Floor is exact at the quotient. Refuted beyond 2^53."
  },
  {
   "property": "C50",
   "status": "partial",
   "theorems": [
    "C50_int",
    "C50_exact",
    "C50_exact_one",
    "C50_float",
    "C50_float_order",
    "C50_float_int",
    "C50_min_max",
    "C50_min_max_int",
    "C50_nan_refuted"
   ],
   "note": "Total order on Int, exact numbers and non-NaN doubles; min and max. Refuted for NaN."
  },
  {
   "property": "C51",
   "status": "proved",
   "theorems": [
    "C51_set_tower",
    "C51_set_tower_index",
    "C51_same",
    "C51_bool_int",
    "C51_general",
    "C51_symmetric",
    "C51_towers"
   ],
   "note": "For every well-formed tower; both towers of the program are well-formed."
  },
  {
   "property": "C52",
   "status": "proved",
   "theorems": [
    "C52_truth",
    "C52_exact",
    "C52_float",
    "C52_not",
    "C52_logic"
   ],
   "note": "ToBool by value for exact numbers and doubles; not, and, or, nand, nor."
  },
  {
   "property": "C53",
   "status": "proved",
   "theorems": [
    "C53_same_data",
    "C53_failure_unchanged",
    "C53_empty",
    "C53_uptype"
   ],
   "note": "All representations (mixed, list of scalars, bool, int, string, tower numbers, empty), with and without uptyping."
  },
  {
   "property": "C54",
   "status": "partial",
   "theorems": [
    "C54_digits",
    "C54_encode",
    "C54_zero_radix",
    "C54_encode_scalar",
    "C54_decode",
    "C54_decode_shape",
    "C54_inverse",
    "C54_default",
    "C54_default_inverse",
    "C54_large_refuted",
    "C54_encode_empty",
    "C54_decode_empty_refuted"
   ],
   "note": "Encode/decode are proved for every arithmetic that is exact on the integers involved, for arrays and scalars on both sides; the default tower is proved to be exact up to 2^52 (Bool, Int and Float arguments). For larger integers the statement is false: the residue goes through doubles (C54_large_refuted). Encoding with an empty array: C54_encode_empty; decoding one panics (C54_decode_empty_refuted)."
  },
  {
   "property": "C55",
   "status": "proved",
   "theorems": [
    "C55_assign",
    "C55_history",
    "C55_modified",
    "C55_nonconforming"
   ],
   "note": ""
  },
  {
   "property": "C56",
   "status": "proved",
   "theorems": [
    "C56_index",
    "C56_assign",
    "C56_modified",
    "C56_error",
    "C56_not_an_integer"
   ],
   "note": ""
  },
  {
   "property": "C57",
   "status": "proved",
   "theorems": [
    "C57_one",
    "C57_pieces",
    "C57_error",
    "C57_not_a_vector"
   ],
   "note": ""
  },
  {
   "property": "C58",
   "status": "partial",
   "theorems": [
    "C58_table",
    "C58_empty",
    "C58_numbers",
    "C58_refused",
    "C58_back",
    "C58_twice",
    "C58_times_refuted"
   ],
   "note": "Proved for columns of strings and numbers that have compact arrays (plain). C58_times_refuted: for numbers without compact arrays (times, since makeUniform compares with the type of time.Time, and all numbers of apl/big) ⍉ accepts the dictionary but the table has mixed columns and indexing it panics."
  },
  {
   "property": "C59",
   "status": "proved",
   "theorems": [
    "C59_right_to_left",
    "C59_monadic",
    "C59_deterministic"
   ],
   "note": "All expressions; the functions, primitives and operators are arbitrary (parameters of the model), including failing ones."
  },
  {
   "property": "C60",
   "status": "proved",
   "theorems": [
    "C60_operator",
    "C60_operator_dyadic",
    "C60_latest_handler",
    "C60_no_handler"
   ],
   "note": "For every registration history. Handlers are conversion function + code as in the Go interface; a rejecting handler has no effect in the model because its To method has none (domains are modelled in M_Scalar/M_Index where they matter)."
  },
  {
   "property": "C61",
   "status": "proved",
   "theorems": [
    "C61_latest",
    "C61_unknown",
    "C61_expression"
   ],
   "note": "Histories of assignments in one environment; the exceptions for ⍺ (a default does not replace a given argument) and system variables are in the model (AssignEnv), the theorem is about ordinary names."
  },
  {
   "property": "C62",
   "status": "proved",
   "theorems": [
    "C62_environment_restored",
    "C62_no_new_variables",
    "C62_caller_unchanged",
    "C62_env_call"
   ],
   "note": "All lambdas, all outcomes (value, error, panic). The condition 'executes no modified assignment' is about the run (plain steps)."
  },
  {
   "property": "C63",
   "status": "proved",
   "theorems": [
    "C63_first_true",
    "C63_last",
    "C63_no_branch",
    "C63_condition_fails",
    "C63_not_boolean"
   ],
   "note": ""
  },
  {
   "property": "C64",
   "status": "partial",
   "theorems": [
    "C64_tail_calls_partial",
    "C64_orderly_runs",
    "C64_condition_refuted",
    "C64_left_refuted"
   ],
   "note": "Proved for all runs with orderly steps (both directions, same outcome and same state). Missing because false: tail calls with a condition (the condition is ignored, C64_condition_refuted), tail calls without left argument in a dyadic call (C64_left_refuted). Runs with modified assignments are not covered."
  },
  {
   "property": "C65",
   "status": "proved",
   "theorems": [
    "C65_atop",
    "C65_fork",
    "C65_fork_value",
    "C65_longer_even",
    "C65_longer_odd"
   ],
   "note": ""
  },
  {
   "property": "C66",
   "status": "proved",
   "theorems": [
    "C66_variables",
    "C66_failure",
    "C66_success"
   ],
   "note": "Statements of the file are given as parsed; parse errors end the file. ⎕IO and ⎕PP are global and not restored."
  },
  {
   "property": "C67",
   "status": "proved",
   "theorems": [
    "C67_quoted",
    "C67_in_line",
    "C67_unterminated",
    "C67_unterminated_line"
   ],
   "note": ""
  },
  {
   "property": "C68",
   "status": "proved",
   "theorems": [
    "C68_history",
    "C68_complete",
    "C68_blank",
    "C68_surplus",
    "C68_unread",
    "C68_joined",
    "C68_text"
   ],
   "note": ""
  },
  {
   "property": "C69",
   "status": "proved",
   "theorems": [
    "C69_nested",
    "C69_statement",
    "C69_text"
   ],
   "note": ""
  },
  {
   "property": "C70",
   "status": "proved",
   "theorems": [
    "C70_all",
    "C70_closed",
    "C70_beyond"
   ],
   "note": "Every schedule of the goroutines; Show prints by draining, Take takes one, CloseC closes."
  },
  {
   "property": "C71",
   "status": "proved",
   "theorems": [
    "C71_map",
    "C71_through",
    "C71_closed"
   ],
   "note": "Any function without panics; an error ends the stream with an error value."
  },
  {
   "property": "C72",
   "status": "partial",
   "theorems": [
    "C72_closed_ends_partial",
    "C72_drained_ends_partial",
    "C72_endless_partial",
    "C72_endless_refuted",
    "C72_chain_leaks_refuted",
    "C72_zip_error_leaks_refuted",
    "C72_reshape_close_refuted"
   ],
   "note": "Proved for one Apply over sources (closing) and for expressions that are never left early (draining), and for an endless source once its select sees the closed control channel. Refuted in general: a chained each leaks after close, a zip whose function fails leaks its left sender, closing a reshaped channel panics in a goroutine, an endless source may be scheduled to go on. channelCopy runs in the main goroutine and is not in the model."
  },
  {
   "property": "C73",
   "status": "partial",
   "theorems": [
    "C73_reader_partial",
    "C73_progress",
    "C73_reader_refuted",
    "C73_runes_partial",
    "C73_runes_refuted"
   ],
   "note": "Proved: the reader delivers a newline followed by the joined strings (the leading newline refutes the plain statement); the rune scanner delivers the joined strings when the first string is not empty (refuted otherwise)."
  },
  {
   "property": "C74",
   "status": "proved",
   "theorems": [
    "C74_chunks",
    "C74_groups"
   ],
   "note": "Complete groups, in order; the incomplete rest is dropped."
  },
  {
   "property": "C75",
   "status": "partial",
   "theorems": [
    "C75_no_common_type",
    "C75_complex_time",
    "C75_exact",
    "C75_default_same_type",
    "C75_transitive_refuted"
   ],
   "note": "Exact tower: equality of values. Default tower: per type. Refuted: not transitive across Int and Float beyond 2^53."
  },
  {
   "property": "C76",
   "status": "proved",
   "theorems": [
    "C76_calls",
    "C76_assign",
    "C76_bad_answer",
    "C76_empty_answer_shifts_index"
   ],
   "note": "An empty answer of f (not a boolean number) leaves the running index behind: recorded as C76_empty_answer_shifts_index (index.go 'continue')."
  },
  {
   "property": "C77",
   "status": "proved",
   "theorems": [
    "C77_put_get",
    "C77_reverse",
    "C77_transpose",
    "C77_rotate",
    "C77_take",
    "C77_drop",
    "C77_overtake",
    "C77_ravel"
   ],
   "note": "Generic put-get for every selection function that picks distinct cells, with reverse, transpose and rotate shown to be such functions; take, drop and ravel have their own selection code and theorems."
  },
  {
   "property": "C78",
   "status": "proved",
   "theorems": [
    "C78_atomic",
    "C78_modified_not_atomic"
   ],
   "note": "Modified assignment is not atomic: C78_modified_not_atomic shows a failing modifier leaves earlier elements changed."
  },
  {
   "property": "C79",
   "status": "proved",
   "theorems": [
    "C79_depth",
    "C79_depth_simple"
   ],
   "note": ""
  },
  {
   "property": "C80",
   "status": "proved",
   "theorems": [
    "C80_catenate",
    "C80_assoc",
    "C80_cut",
    "C80_enlist",
    "C80_first"
   ],
   "note": ""
  },
  {
   "property": "C81",
   "status": "proved",
   "theorems": [
    "C81_each",
    "C81_each2",
    "C81_each2_lengths",
    "C81_simple_left_rejected"
   ],
   "note": ""
  },
  {
   "property": "C82",
   "status": "proved",
   "theorems": [
    "C82_single",
    "C82_vector",
    "C82_nonconforming",
    "C82_subset",
    "C82_missing",
    "C82_duplicate_keys"
   ],
   "note": ""
  },
  {
   "property": "C83",
   "status": "proved",
   "theorems": [
    "C83_read",
    "C83_read_missing",
    "C83_assign",
    "C83_assign_missing"
   ],
   "note": ""
  },
  {
   "property": "C84",
   "status": "proved",
   "theorems": [
    "C84_monadic",
    "C84_monadic_fails",
    "C84_dyadic",
    "C84_value"
   ],
   "note": ""
  },
  {
   "property": "C85",
   "status": "proved",
   "theorems": [
    "C85_first",
    "C85_last"
   ],
   "note": ""
  },
  {
   "property": "C86",
   "status": "proved",
   "theorems": [
    "C86_array",
    "C86_vector",
    "C86_other"
   ],
   "note": ""
  },
  {
   "property": "C87",
   "status": "proved",
   "theorems": [
    "C87_negate",
    "C87_abs",
    "C87_sign",
    "C87_sign_times_magnitude"
   ],
   "note": ""
  },
  {
   "property": "C88",
   "status": "proved",
   "theorems": [
    "C88_spacing",
    "C88_respace"
   ],
   "note": ""
  },
  {
   "property": "C89",
   "status": "proved",
   "theorems": [
    "C89_reads",
    "C89_total",
    "C89_unique",
    "C89_characters"
   ],
   "note": ""
  },
  {
   "property": "C90",
   "status": "proved",
   "theorems": [
    "C90_statement",
    "C90_program",
    "C90_unambiguous"
   ],
   "note": ""
  },
  {
   "property": "C91",
   "status": "proved",
   "theorems": [
    "C91_results",
    "C91_no_crash",
    "C91_terminates"
   ],
   "note": "Side condition: closing before the end is allowed on expressions without reshape (closing a reshaped channel panics: C72_reshape_close_refuted)."
  },
  {
   "property": "C92",
   "status": "proved",
   "theorems": [
    "C92_zip",
    "C92_pairs",
    "C92_ends"
   ],
   "note": "C92_zip also describes what happens when the left channel is exhausted first: f is called monadically."
  },
  {
   "property": "C93",
   "status": "proved",
   "theorems": [
    "C93_reduce",
    "C93_scan",
    "C93_ends"
   ],
   "note": "f/C is a left fold, unlike the right fold on arrays."
  },
  {
   "property": "C94",
   "status": "partial",
   "theorems": [
    "C94_finite_partial",
    "C94_refuted"
   ],
   "note": "C94_refuted: A[1]{A}←0 makes A contain itself, and copying it overflows the stack. Proved for functions that build their result from their arguments and new values."
  },
  {
   "property": "C95",
   "status": "partial",
   "theorems": [
    "C95_evaluated_partial",
    "C95_refuted"
   ],
   "note": "C95_refuted: (A[1]←5)+A sees the changed A on the right. Proved while no variable is assigned in parts that shares storage with the operand."
  },
  {
   "property": "C96",
   "status": "proved",
   "theorems": [
    "C96_latin",
    "C96_latin_spelling",
    "C96_first_letter",
    "C96_package",
    "C96_rejected",
    "C96_distinct",
    "C96_kind",
    "C96_package_fixed",
    "C96_no_name"
   ],
   "note": ""
  },
  {
   "property": "C97",
   "status": "proved",
   "theorems": [
    "C97_statements",
    "C97_no_panic",
    "C97_deterministic",
    "C97_sequence"
   ],
   "note": ""
  },
  {
   "property": "C98",
   "status": "proved",
   "theorems": [
    "C98_origin",
    "C98_origin_domain",
    "C98_origin_read",
    "C98_print"
   ],
   "note": ""
  },
  {
   "property": "C99",
   "status": "proved",
   "theorems": [
    "C99_elements",
    "C99_scalar",
    "C99_count"
   ],
   "note": ""
  },
  {
   "property": "C100",
   "status": "proved",
   "theorems": [
    "C100_in_order",
    "C100_all"
   ],
   "note": ""
  },
  {
   "property": "C101",
   "status": "partial",
   "theorems": [
    "C101_update_partial",
    "C101_program_partial",
    "C101_next_partial",
    "C101_complex_refuted"
   ],
   "note": "Prop_Heap2: refinement of the heap semantics (M_Heap) to the value semantics of S_HeapUpdate for all programs over values without arrays that are copied by reference. C101_complex_refuted: with arrays of complex numbers it is false (ComplexArray.Copy returns its receiver). C101_shared shows that the condition on the right argument is needed (A[3 2 1]←A)."
  },
  {
   "property": "C102",
   "status": "proved",
   "theorems": [
    "C102_no_names",
    "C102_table",
    "C102_value",
    "C102_column",
    "C102_row",
    "C102_no_row",
    "C102_no_column"
   ],
   "note": "For tables whose columns are compact vectors (good), as ⍉ makes them. Findings: T[`a] of a table with one row is a scalar, T[⍳0;C] selects all rows, T[⍳0] no columns."
  },
  {
   "property": "C103",
   "status": "proved",
   "theorems": [
    "C103_array"
   ],
   "note": "table2array."
  },
  {
   "property": "C104",
   "status": "proved",
   "theorems": [
    "C104_assigned",
    "C104_same_types",
    "C104_modified",
    "C104_array"
   ],
   "note": "At least one row selected; general success theorem, exact theorem for equal types, modified assignment, arrays on the right."
  },
  {
   "property": "C105",
   "status": "partial",
   "theorems": [
    "C105_misfit_partial",
    "C105_bad_index_partial",
    "C105_array_types_partial",
    "C105_atomic_refuted"
   ],
   "note": "Refuted: T[1;]←5 on a table with a string column fails after the first column was changed (C105_atomic_refuted). Proved for wrong indexes, shapes, keys and array types, where nothing is changed."
  },
  {
   "property": "C106",
   "status": "proved",
   "theorems": [
    "C106_below",
    "C106_different",
    "C106_beside",
    "C106_value"
   ],
   "note": "Types of common columns equal."
  },
  {
   "property": "C107",
   "status": "partial",
   "theorems": [
    "C107_rows_refuted",
    "C107_types_refuted",
    "C107_proper_partial"
   ],
   "note": "Refuted: T,U with different numbers of rows (C107_rows_refuted) and T⍪U with booleans above integers (C107_types_refuted) succeed, and indexing the result panics. Proved when rows and types agree."
  },
  {
   "property": "C108",
   "status": "proved",
   "theorems": [
    "C108_indexed",
    "C108_grouped",
    "C108_whole",
    "C108_scalars",
    "C108_no_group",
    "C108_mismatch"
   ],
   "note": "Functions are modelled as functions from columns to outcomes."
  },
  {
   "property": "C109",
   "status": "partial",
   "theorems": [
    "C109_aligned_partial",
    "C109_rows_refuted"
   ],
   "note": "Refuted: only total numbers of rows are compared, so functions with different numbers of results per group misalign the columns (C109_rows_refuted). Proved if the number of results depends on the length of the argument only."
  },
  {
   "property": "C110",
   "status": "proved",
   "theorems": [
    "C110_join",
    "C110_catenate",
    "C110_strings_only",
    "C110_split",
    "C110_join_split",
    "C110_split_join",
    "C110_split_join_char",
    "C110_split_join_empty"
   ],
   "note": ""
  },
  {
   "property": "C111",
   "status": "proved",
   "theorems": [
    "C111_runes",
    "C111_join_runes",
    "C111_words"
   ],
   "note": ""
  },
  {
   "property": "C112",
   "status": "partial",
   "theorems": [
    "C112_json",
    "C112_table",
    "C112_table_same",
    "C112_matrix",
    "C112_elements",
    "C112_one_row_refuted",
    "C112_sign_refuted",
    "C112_no_values"
   ],
   "note": "JSON: every non-empty array is read back identically (C112_json); table: identically up to leading axes of length 1 (C112_table), vectors and matrices under ¯3 (C112_matrix); integers, booleans and strings are readable elements (C112_elements). Refuted: a one-row matrix comes back as a vector under ¯1 and ¯3, and numbers printed with - or + (floats under ¯2, ¯3, exponents) are rejected. The tabwriter is abstracted to an arbitrary positive number of blanks."
  },
  {
   "property": "C113",
   "status": "partial",
   "theorems": [
    "C113_table",
    "C113_json",
    "C113_scalars",
    "C113_last_refuted",
    "C113_no_values"
   ],
   "note": "proved for JSON text for every k and for table text if k<=2 or one of the first two axes of the cell is longer than 1; refuted for the last cell of shape 1 1 n, which comes back with a smaller rank."
  },
  {
   "property": "C114",
   "status": "partial",
   "theorems": [
    "C114_solves",
    "C114_unique",
    "C114_singular",
    "C114_inverse",
    "C114_shapes",
    "C114_single",
    "C114_vector",
    "C114_single_refuted",
    "C114_rationals"
   ],
   "note": "Everything is proved for exact fields (numbers are abstract: add, multiply, subtract exact, division defined for nonzero divisors, |x| zero only for 0); rationals are given as an instance. Refuted part: L⌹5 with more than one element in L panics (index out of range), because array2 is called without the conversion of a single element array to a scalar. The floating point tower is not exact and not covered."
  },
  {
   "property": "C115",
   "status": "proved",
   "theorems": [
    "C115_normal",
    "C115_least_squares",
    "C115_singular",
    "C115_rationals"
   ],
   "note": "for exact fields; optimality and the singularity criterion for numbers with conj x = x and a nonnegativity predicate (instance: rationals). A vector L gives a matrix with one column."
  },
  {
   "property": "C116",
   "status": "proved",
   "theorems": [
    "C116_open_resolves",
    "C116_open_error",
    "C116_root_hides",
    "C116_create_agrees"
   ],
   "note": ""
  },
  {
   "property": "C117",
   "status": "proved",
   "theorems": [
    "C117_mount_succeeds",
    "C117_failed_mount_changes_nothing",
    "C117_umount_undoes",
    "C117_mount_lists"
   ],
   "note": ""
  },
  {
   "property": "C118",
   "status": "partial",
   "theorems": [
    "C118_arrow",
    "C118_var_writable",
    "C118_var_write_open_partial",
    "C118_var_write_left_argument_refuted",
    "C118_assigned_names",
    "C118_env_write_open"
   ],
   "note": "Full statement for the environment and for all variables except a given left argument ⍺: C118_var_write_left_argument_refuted shows that writing to it inside a function is accepted without effect (AssignEnv does not replace a given left argument). Also the written variable is that of the innermost scope; strings print as themselves only if PP is not negative and no format is set (strFmt = None)."
  },
  {
   "property": "C119",
   "status": "proved",
   "theorems": [
    "C119_absolute",
    "C119_escape",
    "C119_listing"
   ],
   "note": ""
  },
  {
   "property": "C120",
   "status": "partial",
   "theorems": [
    "C120_add_partial",
    "C120_add_durations_partial",
    "C120_refused",
    "C120_difference_partial",
    "C120_subtract_partial",
    "C120_subtract_durations_partial",
    "C120_inverse_partial",
    "C120_sign_partial",
    "C120_order",
    "C120_refuted"
   ],
   "note": "Proved for stamps and differences below 292 years and durations strictly inside 64 bits; outside that C120_refuted: differences saturate, 1000.01.01 itself is neither stamp nor duration, sums of durations beyond 64 bits, and the absolute value of -2^63 ns."
  },
  {
   "property": "C121",
   "status": "partial",
   "theorems": [
    "C121_floor",
    "C121_ceil_partial",
    "C121_ceil_refuted",
    "C121_year",
    "C121_month",
    "C121_quarter",
    "C121_week",
    "C121_clock"
   ],
   "note": "Everything but the ceiling is proved in full; C121_ceil_refuted: the ceiling of a time is the nearest second (half up), which may be before it."
  },
  {
   "property": "C122",
   "status": "proved",
   "theorems": [
    "C122_duration",
    "C122_refused"
   ],
   "note": "Proved for durations at least one unit away from the 64 bit limits, where Go's Duration.Round saturates."
  },
  {
   "property": "C123",
   "status": "partial",
   "theorems": [
    "C123_windows",
    "C123_errors",
    "C123_left_argument_partial",
    "C123_left_argument_refuted",
    "C123_columns_refuted",
    "C123_movement_refuted",
    "C123_empty_refuted"
   ],
   "note": "The windows, their order and the results are proved in full. The left argument tells the number of fill elements only for arrays of the size of the window (C123_left_argument_partial; the code compares with the axes of the window instead of the array: C123_left_argument_refuted); the movement is never used (C123_movement_refuted); a matrix w with fewer columns than axes is read wrongly and an empty w panics."
  },
  {
   "property": "C124",
   "status": "proved",
   "theorems": [
    "C124_deal",
    "C124_deal_all",
    "C124_deal_any",
    "C124_deal_refused",
    "C124_roll",
    "C124_roll_scalar",
    "C124_roll_zero"
   ],
   "note": ""
  },
  {
   "property": "C125",
   "status": "partial",
   "theorems": [
    "C125_lines",
    "C125_concatenated",
    "C125_text",
    "C125_long_line_refuted",
    "C125_files_refuted"
   ],
   "note": "Proved for lines that fit the scanner's buffer (C125_lines, C125_concatenated, C125_text). A line of more than 64 kB ends the file without an error (scanner.Err() is not looked at: C125_long_line_refuted), and of several files on the command line only the first is run (C125_files_refuted)."
  },
  {
   "property": "C126",
   "status": "partial",
   "theorems": [
    "C126_session",
    "C126_survives",
    "C126_file",
    "C126_parser_refuted"
   ],
   "note": "A line on which the parser panics ends the session (C126_parser_refuted, see C162); all other lines are covered."
  },
  {
   "property": "C127",
   "status": "partial",
   "theorems": [
    "C127_shows",
    "C127_rank",
    "C127_transparency_refuted"
   ],
   "note": "C127_shows and C127_rank: the matrix round trip for 24 bit colours. C127_transparency_refuted: the alpha byte is shifted by 16 and ORed into red, so a transparent colour does not come back."
  },
  {
   "property": "C128",
   "status": "partial",
   "theorems": [
    "C128_write",
    "C128_read_partial",
    "C128_read_refuted"
   ],
   "note": "C128_write is full. Reading: Image.At swaps the coordinates, so it returns the transposed pixel (C128_read_partial gives exactly what is read; C128_read_refuted a counterexample)."
  },
  {
   "property": "C129",
   "status": "partial",
   "theorems": [
    "C129_there_and_back",
    "C129_back_and_there",
    "C129_shape_partial",
    "C129_types_refuted",
    "C129_uint"
   ],
   "note": "C129_there_and_back and C129_back_and_there prove both round trips at all nesting depths. C129_shape_partial: an array of rank>1 comes back as its ravel. C129_types_refuted: an Int exported to string becomes a character, other mismatches panic instead of an error."
  },
  {
   "property": "C130",
   "status": "partial",
   "theorems": [
    "C130_arguments",
    "C130_results",
    "C130_dyadic_partial"
   ],
   "note": "C130_arguments, C130_results are full for up to two arguments; C130_dyadic_partial: a function of three or more arguments with a left argument panics."
  },
  {
   "property": "C131",
   "status": "partial",
   "theorems": [
    "C131_set",
    "C131_errors",
    "C131_lower_refuted"
   ],
   "note": "C131_set and C131_errors are full for exported names; C131_lower_refuted: lower-case names are readable but not assignable."
  },
  {
   "property": "C132",
   "status": "partial",
   "theorems": [
    "C132_session_partial",
    "C132_stale_refuted",
    "C132_panic_refuted",
    "C132_closed",
    "C132_unsendable",
    "C132_call_list"
   ],
   "note": "C132_session_partial: as long as no monadic call follows a dyadic one; C132_stale_refuted: the decoder keeps the left argument of an earlier call; C132_panic_refuted: a panic of a function ends the server. C132_closed, C132_unsendable, C132_call_list are full."
  },
  {
   "property": "C133",
   "status": "proved",
   "theorems": [
    "C133_rewritten",
    "C133_apply",
    "C133_zero",
    "C133_rest",
    "C133_typed",
    "C133_two",
    "C133_mount",
    "C133_time"
   ],
   "note": ""
  },
  {
   "property": "C134",
   "status": "partial",
   "theorems": [
    "C134_monadic",
    "C134_pairs",
    "C134_left_whole",
    "C134_right_whole",
    "C134_lengths",
    "C134_ranks",
    "C134_scalar_refuted",
    "C134_whole_refuted"
   ],
   "note": "Proved for all cell ranks whose cells the code can address (frames of one axis, or scalars: C44), for any function and results. Refuted: a scalar left argument panics (C134_scalar_refuted), and two whole arguments never call the function (C134_whole_refuted)."
  },
  {
   "property": "C135",
   "status": "partial",
   "theorems": [
    "C135_one_argument",
    "C135_two_arguments",
    "C135_result",
    "C135_exponent_refuted",
    "C135_signum_refuted"
   ],
   "note": "Proved for all functions and states except two cases, each refuted: × of a complex number overwrites the number with intermediate results (C135_signum_refuted), and a fraction used as negative exponent changes its sign, for every base (C135_exponent_refuted)."
  },
  {
   "property": "C136",
   "status": "partial",
   "theorems": [
    "C136_add",
    "C136_subtract",
    "C136_multiply",
    "C136_divide",
    "C136_power",
    "C136_negate",
    "C136_magnitude",
    "C136_sign",
    "C136_reciprocal",
    "C136_reciprocal_of_zero",
    "C136_factorial",
    "C136_less",
    "C136_equal",
    "C136_overflow_refuted",
    "C136_self_power_refuted",
    "C136_root_of_zero_refuted",
    "C136_zero_power_refuted",
    "C136_floor_refuted",
    "C136_division_by_zero_refuted",
    "C136_gcd_unique",
    "C136_gcd",
    "C136_gcd_zero",
    "C136_gcd_sign_refuted",
    "C136_index",
    "C136_exponential"
   ],
   "note": "Refuted in the limits: machine integers wrap (C136_overflow_refuted), x*x with a negative fraction x (C136_self_power_refuted), 0*¯2 panics, 0*¯1r2 gives 0, the floor of a fraction goes through float64, ¯1÷0 is +inf. Powers with an exponent held as negative fraction are excluded in C136_power."
  },
  {
   "property": "C137",
   "status": "partial",
   "theorems": [
    "C137_add",
    "C137_subtract",
    "C137_multiply",
    "C137_divide",
    "C137_divide_zero",
    "C137_compare",
    "C137_complex_add",
    "C137_complex_multiply",
    "C137_complex_error",
    "C137_complex_divide",
    "C137_reciprocal_refuted",
    "C137_import_refuted",
    "C137_power_refuted",
    "C137_zero_refuted",
    "C137_index",
    "C137_index_not",
    "C137_index_complex",
    "C137_negate",
    "C137_magnitude",
    "C137_sign",
    "C137_floor_partial",
    "C137_logarithm",
    "C137_complex_negate",
    "C137_complex_reciprocal",
    "C137_floor_refuted",
    "C137_index_refuted",
    "C137_by_zero",
    "C137_logarithm_base",
    "C137_exponential",
    "C137_order"
   ],
   "note": "Refuted in the details: ÷x has 53 bits whatever the precision (C137_reciprocal_refuted), integers of more than 53 bits lose digits when they enter (C137_import_refuted), a negative base panics (C137_power_refuted), 0J0÷0J0 is +inf. Complex quotient: exact arithmetic only, no bound of the rounding error. exp, log, pow and the trigonometric functions are parameters."
  },
  {
   "property": "C138",
   "status": "partial",
   "theorems": [
    "C138_monadic",
    "C138_channel",
    "C138_objects",
    "C138_axis",
    "C138_arrays",
    "C138_scalars",
    "C138_round",
    "C138_command",
    "C138_binomial_refuted"
   ],
   "note": "Refuted only for arrays without elements before ! in the program iv; all other cases proved for every elementary function."
  },
  {
   "property": "C139",
   "status": "partial",
   "theorems": [
    "C139_functions",
    "C139_operators",
    "C139_refuted",
    "C139_operators_refuted",
    "C139_ordinary"
   ],
   "note": "The claim is false; the theorems give the exact set of calls (functions and operators) that fail, and a class of ordinary arguments for which none does. Assertions inside loops and after the entry are not modelled."
  },
  {
   "property": "C140",
   "status": "proved",
   "theorems": [
    "C140_registers",
    "C140_last_wins"
   ],
   "note": "For arbitrary registries and handlers."
  },
  {
   "property": "C141",
   "status": "proved",
   "theorems": [
    "C141_array",
    "C141_integers",
    "C141_vector",
    "C141_vector_accepts",
    "C141_index",
    "C141_truth_values",
    "C141_kind"
   ],
   "note": "-"
  },
  {
   "property": "C142",
   "status": "proved",
   "theorems": [
    "C142_replicate",
    "C142_compress",
    "C142_expand",
    "C142_axis",
    "C142_axis_overtake",
    "C142_first_axis"
   ],
   "note": ""
  },
  {
   "property": "C143",
   "status": "proved",
   "theorems": [
    "C143_read_back",
    "C143_matrix",
    "C143_not_a_matrix"
   ],
   "note": ""
  },
  {
   "property": "C144",
   "status": "partial",
   "theorems": [
    "C144_csv",
    "C144_key_panics",
    "C144_global_format_ignored_refuted",
    "C144_nested_format_leaks_refuted"
   ],
   "note": "The statement holds for cells that are no arrays (C144_csv); for array cells and for formats set with ⎕PP it is refuted."
  },
  {
   "property": "C145",
   "status": "partial",
   "theorems": [
    "C145_number",
    "C145_reset",
    "C145_other",
    "C145_dict_partial",
    "C145_dict_error_refuted"
   ],
   "note": "Everything holds except that ⎕PP←D succeeds: it sets the formats and reports an error for every D (C145_dict_error_refuted)."
  },
  {
   "property": "C146",
   "status": "proved",
   "theorems": [
    "C146_write_only",
    "C146_program"
   ],
   "note": ""
  },
  {
   "property": "C147",
   "status": "proved",
   "theorems": [
    "C147_value",
    "C147_nothing",
    "C147_failed",
    "C147_program",
    "C147_compared"
   ],
   "note": ""
  },
  {
   "property": "C148",
   "status": "proved",
   "theorems": [
    "C148_slash",
    "C148_each",
    "C148_dot",
    "C148_rank",
    "C148_others",
    "C148_no_operator"
   ],
   "note": ""
  },
  {
   "property": "C149",
   "status": "partial",
   "theorems": [
    "C149_equal",
    "C149_involutions",
    "C149_commutative",
    "C149_conjugate",
    "C149_negative",
    "C149_reals_partial",
    "C149_mixed",
    "C149_tower",
    "C149_infinite_refuted"
   ],
   "note": "The extension of the reals fails for infinite numbers (C149_infinite_refuted): ∞×2J0 has the imaginary part NaN."
  },
  {
   "property": "C150",
   "status": "partial",
   "theorems": [
    "C150_next_to",
    "C150_exact_partial",
    "C150_grid",
    "C150_gaussian",
    "C150_fails",
    "C150_ceil",
    "C150_tower",
    "C150_rounding_refuted"
   ],
   "note": "The McDonnell floor is proved where the sum of the fractions is exact (C150_exact_partial, C150_grid); in general it is refuted by rounding (C150_rounding_refuted)."
  },
  {
   "property": "C151",
   "status": "partial",
   "theorems": [
    "C151_parts_partial",
    "C151_times_i",
    "C151_together",
    "C151_real",
    "C151_int",
    "C151_imaginary_refuted",
    "C151_phase_refuted"
   ],
   "note": "The parts of complex numbers are proved; for real numbers the imaginary part and the phase are wrong in the code (C151_imaginary_refuted, C151_phase_refuted)."
  },
  {
   "property": "C152",
   "status": "proved",
   "theorems": [
    "C152_cartesian",
    "C152_cartesian_j",
    "C152_real",
    "C152_quarter_turns",
    "C152_reads_back"
   ],
   "note": "strconv and the printing of doubles are parameters; the way back is proved under the contract stated in the theorem."
  },
  {
   "property": "C153",
   "status": "partial",
   "theorems": [
    "C153_reads",
    "C153_only",
    "C153_prints",
    "C153_reads_back",
    "C153_exact",
    "C153_refuted"
   ],
   "note": "Go's time.Parse and Time.Format are modelled for the layouts of time.go. C153_refuted: moments between milliseconds are not printed with any precision, dates before the year 1000 are taken for durations, years from 10000 are not read."
  },
  {
   "property": "C154",
   "status": "partial",
   "theorems": [
    "C154_reads_back_partial",
    "C154_scanned_partial",
    "C154_micro_refuted",
    "C154_interchange_refuted",
    "C154_range_refuted"
   ],
   "note": "C154_reads_back_partial holds for every duration; C154_scanned_partial for those outside one microsecond to one millisecond. C154_micro_refuted: the others are printed with the unit µs, which the scanner does not take. C154_interchange_refuted: with a negative precision durations are printed as time stamps of the year 0. ParseDuration's doubles are modelled exactly, as they are for printed durations."
  },
  {
   "property": "C155",
   "status": "proved",
   "theorems": [
    "C155_unreadable",
    "C155_line",
    "C155_empty_statement",
    "C155_execute",
    "C155_deterministic"
   ],
   "note": "C155_line: a line that reads as the words of the sentences (any spacing, comments) has exactly the outcomes of the independent big-step meaning in S_Session.v; C155_execute for the primitive execute; C155_deterministic. Sentences without axes, indexing, lambdas, trains and dyadic operators (these are C90, C97, C62-C66 at the level of words and expressions)."
  },
  {
   "property": "C156",
   "status": "partial",
   "theorems": [
    "C156_vector",
    "C156_scalar",
    "C156_single_refuted",
    "C156_newline",
    "C156_matrix_refuted"
   ],
   "note": "C156_vector, C156_scalar: the text is executed to the same value in an unchanged state. Refuted for one-element vectors (C156_single_refuted) and matrices of two or more rows (C156_matrix_refuted); C156_newline: a newline outside of quotes and comments is refused by the scanner."
  },
  {
   "property": "C157",
   "status": "partial",
   "theorems": [
    "C157_sort",
    "C157_sort_one_refuted",
    "C157_inverse",
    "C157_without",
    "C157_member_index",
    "C157_where",
    "C157_unique",
    "C157_reverse",
    "C157_scan_last"
   ],
   "note": "Proved for vectors of two or more elements (index expressions with at least two positions); C157_sort_one_refuted shows that a one-element result of bracket indexing is a scalar, so V[⍋V]≡V fails there."
  },
  {
   "property": "C158",
   "status": "proved",
   "theorems": [
    "C158_elements",
    "C158_associative",
    "C158_transpose",
    "C158_distributes",
    "C158_unit_left",
    "C158_unit_right",
    "C158_integers"
   ],
   "note": "For pure F and G with the ring laws, any ranks, shared axis of positive length; an empty shared axis panics (C38_inner_empty_axis_refuted)."
  },
  {
   "property": "C159",
   "status": "partial",
   "theorems": [
    "C159_json_partial",
    "C159_strings",
    "C159_values_refuted"
   ],
   "note": "C159_json_partial covers values from non-negative integers, other numbers whose text is a JSON number, strings of JSON runes, arrays, lists and dictionaries with string keys. The full statement is refuted (C159_values_refuted) for negative integers, booleans, the empty array and other keys; C159_strings says exactly which strings have a JSON text. Texts of floats are given, not computed."
  },
  {
   "property": "C160",
   "status": "proved",
   "theorems": [
    "C160_newline",
    "C160_unquote",
    "C160_token",
    "C160_array"
   ],
   "note": "For strings of valid runes; strconv.Quote and Unquote are modelled from the Go library, its table of printable runes is a parameter that agrees with ASCII. Strings that are not valid UTF-8 are not modelled."
  },
  {
   "property": "C161",
   "status": "proved",
   "theorems": [
    "C161_modified",
    "C161_modified_fails",
    "C161_modified_unknown",
    "C161_selected",
    "C161_selected_modified",
    "C161_in_place",
    "C161_selected_fails",
    "C161_not_selectable",
    "C161_vector",
    "C161_vector_length",
    "C161_dyadic_operator",
    "C161_no_target"
   ],
   "note": "indexed assignment itself is the parameter l_setidx of the interpreter (C21, C22, C101); the names are plain variables (not the system variables)"
  },
  {
   "property": "C162",
   "status": "partial",
   "theorems": [
    "C162_empty",
    "C162_tokens",
    "C162_line",
    "C162_session",
    "C162_file",
    "C162_refuted"
   ],
   "note": "The unrestricted statement is refuted: 1+A[1][2] and A[1][2][3] panic in the parser (C162_refuted)."
  },
  {
   "property": "C163",
   "status": "partial",
   "theorems": [
    "C163_primes",
    "C163_sieve",
    "C163_life",
    "C163_generations",
    "C163_empty_refuted"
   ],
   "note": "Composed from the models of the primitives: the parser and the evaluator are not part of these statements (C59, C90 give the order of evaluation). n is at most 2^52 (residues are exact floats) and 2^31 (products fit); the arrays of n times n elements have to fit in memory, which the model does not bound. Refuted for n = 0 (panic). The two tacit variants of the life program are not covered."
  },
  {
   "property": "C164",
   "status": "partial",
   "theorems": [
    "C164_lines_partial",
    "C164_long_line_refuted",
    "C164_cells",
    "C164_each",
    "C164_shape",
    "C164_shape_cells",
    "C164_meanwhile",
    "C164_terminates",
    "C164_table",
    "C164_close_refuted"
   ],
   "note": "Proved for readable input whose first line is not empty (an empty first line ends the text, C73) and whose lines are shorter than 64 kB: a longer line ends the input silently (C164_long_line_refuted). The result must not be closed early: C164_close_refuted shows that closing it before the first line crashes the process. What the mapped function does is a parameter; a scanner is any function that keeps what it has found (steady) and agrees with ScanRankArray (M_Format) when all is read."
  },
  {
   "property": "C165",
   "status": "partial",
   "theorems": [
    "C165_type",
    "C165_contents",
    "C165_no_panic",
    "C165_any",
    "C165_unreadable",
    "C165_json",
    "C165_table",
    "C165_matrix",
    "C165_dict_refuted",
    "C165_whole_refuted"
   ],
   "note": "Arrays: the type is that of L, contents, the three round trips, no panic. Refuted: dictionaries and tables are never read; float arrays of whole numbers are refused with themselves as L. The element formats are parameters (readable_elems), instantiated in C112."
  },
  {
   "property": "C166",
   "status": "partial",
   "theorems": [
    "C166_source",
    "C166_source_safe",
    "C166_source_ends",
    "C166_source_send_refuted",
    "C166_echo",
    "C166_echo_safe",
    "C166_echo_fifo",
    "C166_echo_can_end",
    "C166_echo_close_refuted",
    "C166_arguments"
   ],
   "note": "Proved for operations that take, show, send (echo) and close once. Refuted: a value sent to a source either closes it or blocks both sides for ever, depending on the schedule; closing an echo has an unfair schedule without end. Before the first value echo answers without the prefix (visible in the specification echoed)."
  },
  {
   "property": "C167",
   "status": "proved",
   "theorems": [
    "C167_tally",
    "C167_tally_vector",
    "C167_depth"
   ],
   "note": "Arrays and scalars (lists: C79)."
  },
  {
   "property": "C168",
   "status": "partial",
   "theorems": [
    "C168_umount",
    "C168_mount_umount",
    "C168_registered",
    "C168_protocol",
    "C168_order",
    "C168_directory",
    "C168_mount",
    "C168_mount_possible",
    "C168_failed",
    "C168_register",
    "C168_second_interpreter_refuted",
    "C168_order_refuted"
   ],
   "note": "C168_protocol, _order, _directory, _mount, _mount_possible, _failed and _register are proved for all inputs; refuted by the code are the independence of the order if a protocol name contains :// (C168_order_refuted) and that a second interpreter finds its own variables at /v/ (C168_second_interpreter_refuted: it finds those of the first one, and var:// is the second's in both)."
  },
  {
   "property": "C169",
   "status": "partial",
   "theorems": [
    "C169_relative",
    "C169_mounted",
    "C169_refused",
    "C169_argument_changed_refuted"
   ],
   "note": "C169_relative, _mounted and _refused are proved for all inputs; that the argument is not changed is refuted by the code (C169_argument_changed_refuted): exec writes the relocated program name into the caller's array, so the same call starts another program the second time."
  },
  {
   "property": "C170",
   "status": "proved",
   "theorems": [
    "C170_cd",
    "C170_return",
    "C170_dot_follows",
    "C170_directory_stays"
   ],
   "note": "Proved for all names, directories and mount tables. Symbolic links are not modelled."
  },
  {
   "property": "C171",
   "status": "proved",
   "theorems": [
    "C171_strand",
    "C171_single",
    "C171_nothing",
    "C171_list",
    "C171_index",
    "C171_names",
    "C171_refused"
   ],
   "note": "Proved for all members, states and outcomes, as an equivalence with the relation left_to_right."
  },
  {
   "property": "C172",
   "status": "partial",
   "theorems": [
    "C172_passes",
    "C172_iv_passes",
    "C172_order",
    "C172_no_panic",
    "C172_place",
    "C172_shorter",
    "C172_line_refuted",
    "C172_empty_line_refuted"
   ],
   "note": "C172_passes, _iv_passes, _order, _no_panic, _place and _shorter are proved for all directories. Refuted by the code: the line of the message is one too large if the first difference is where a newline was expected (C172_line_refuted), and an iv test with an empty first line crashes (C172_empty_line_refuted)."
  },
  {
   "property": "C173",
   "status": "proved",
   "theorems": [
    "C173_any_rows",
    "C173_matrix",
    "C173_rows_even",
    "C173_array",
    "C173_dict",
    "C173_table",
    "C173_read_back"
   ],
   "note": ""
  },
  {
   "property": "C174",
   "status": "partial",
   "theorems": [
    "C174_order",
    "C174_root",
    "C174_package",
    "C174_open",
    "C174_no_variable",
    "C174_no_package",
    "C174_environment",
    "C174_root_refuted"
   ],
   "note": "All listings, packages, opening and the environment are proved. Refuted by the code: the root directory lists the innermost environment, not the root environment the comment promises (C174_root_refuted)."
  },
  {
   "property": "C175",
   "status": "partial",
   "theorems": [
    "C175_text",
    "C175_read",
    "C175_negative_refuted",
    "C175_token",
    "C175_distinct",
    "C175_array",
    "C175_leading_zero",
    "C175_negative_array_refuted"
   ],
   "note": "Proved for the texts (distinct, canonical digits), for single tokens, and for reading every integer that is not negative, alone and in arrays. Refuted by the code for negative integers: the sign follows the prefix and nothing reads it; and for leading zeros, which select base 8."
  },
  {
   "property": "C176",
   "status": "partial",
   "theorems": [
    "C176_integer_text",
    "C176_fraction",
    "C176_fraction_text",
    "C176_read",
    "C176_distinct",
    "C176_token",
    "C176_zero_denominator",
    "C176_interchange_refuted",
    "C176_leading_zeros_refuted",
    "C176_booleans",
    "C176_malformed",
    "C176_trailing_refuted"
   ],
   "note": "Proved for the texts for programs (print precision from ¯1), in any size; refuted by the code: the texts for interchange use - for fractions and ¯ for integers, leading zeros change the base."
  }
 ]
}