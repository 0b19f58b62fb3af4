{
 "claims": [
  {
   "property": "C01",
   "status": "proved",
   "theorems": [
    "C01_linear_to_float_exact"
   ],
   "note": ""
  },
  {
   "property": "C02",
   "status": "proved",
   "theorems": [
    "C02_linear_to_float_correctly_rounded"
   ],
   "note": ""
  },
  {
   "property": "C03",
   "status": "proved",
   "theorems": [
    "C03_integer_order_is_numeric_order",
    "C03_nar_is_least",
    "C03_distinct_patterns_distinct_values"
   ],
   "note": ""
  },
  {
   "property": "C04",
   "status": "proved",
   "theorems": [
    "C04_integer_negation_negates"
   ],
   "note": ""
  },
  {
   "property": "C05",
   "status": "proved",
   "theorems": [
    "C05_widening_lossless",
    "C05_widening_preserves_order"
   ],
   "note": ""
  },
  {
   "property": "C06",
   "status": "proved",
   "theorems": [
    "C06_narrowing_correctly_rounded"
   ],
   "note": ""
  },
  {
   "property": "C07",
   "status": "proved",
   "theorems": [
    "C07_narrow_after_widen",
    "C07_narrowing_monotone",
    "C07_narrowing_odd"
   ],
   "note": ""
  },
  {
   "property": "C08",
   "status": "proved",
   "theorems": [
    "C08_linear_takum_float_round_trip"
   ],
   "note": ""
  },
  {
   "property": "C09",
   "status": "proved",
   "theorems": [
    "C09_float_linear64_round_trip",
    "C09_float32_linear64_round_trip",
    "C09_float32_linear32_round_trip"
   ],
   "note": ""
  },
  {
   "property": "C10",
   "status": "proved",
   "theorems": [
    "C10_linear_from_float_specials"
   ],
   "note": ""
  },
  {
   "property": "C11",
   "status": "proved",
   "theorems": [
    "C11_linear_from_float_correctly_rounded"
   ],
   "note": ""
  },
  {
   "property": "C12",
   "status": "partial",
   "theorems": [
    "C12_linear_from_float_refuted",
    "C12_linear_from_float_partial"
   ],
   "note": "false of the code: every one of the four functions has a float it does not round to the nearest takum; proved instead: it rounds a number with coordinate off by a relative 2^-24"
  },
  {
   "property": "C13",
   "status": "proved",
   "theorems": [
    "C13_linear_from_float_monotone",
    "C13_linear_from_float_faithful"
   ],
   "note": ""
  },
  {
   "property": "C14",
   "status": "proved",
   "theorems": [
    "C14_linear_from_float_odd"
   ],
   "note": ""
  },
  {
   "property": "C15",
   "status": "proved",
   "theorems": [
    "C15_multiplication_correctly_rounded"
   ],
   "note": ""
  },
  {
   "property": "C16",
   "status": "proved",
   "theorems": [
    "C16_division_correctly_rounded"
   ],
   "note": ""
  },
  {
   "property": "C17",
   "status": "proved",
   "theorems": [
    "C17_multiplication_faithful",
    "C17_division_faithful",
    "C17_multiplication_64_error",
    "C17_division_64_error"
   ],
   "note": ""
  },
  {
   "property": "C18",
   "status": "proved",
   "theorems": [
    "C18_multiplication_commutes",
    "C18_one_denotes_one",
    "C18_multiplication_by_one",
    "C18_division_by_one",
    "C18_division_by_itself",
    "C18_multiplication_by_inverse",
    "C18_division_is_multiplication_by_inverse",
    "C18_multiplication_sign",
    "C18_division_sign"
   ],
   "note": ""
  },
  {
   "property": "C19",
   "status": "proved",
   "theorems": [
    "C19_inversion_lossless",
    "C19_inversion_involutive",
    "C19_inversion_reverses_order"
   ],
   "note": ""
  },
  {
   "property": "C20",
   "status": "proved",
   "theorems": [
    "C20_square_root_correctly_rounded"
   ],
   "note": ""
  },
  {
   "property": "C21",
   "status": "proved",
   "theorems": [
    "C21_integer_power_correctly_rounded"
   ],
   "note": ""
  },
  {
   "property": "C22",
   "status": "proved",
   "theorems": [
    "C22_root_correctly_rounded",
    "C22_root_64_faithful",
    "C22_root_is_unique"
   ],
   "note": ""
  },
  {
   "property": "C23",
   "status": "proved",
   "theorems": [
    "C23_absolute_of_number",
    "C23_absolute_of_nar_8_16"
   ],
   "note": ""
  },
  {
   "property": "C24",
   "status": "proved",
   "theorems": [
    "C24_sign"
   ],
   "note": ""
  },
  {
   "property": "C25",
   "status": "proved",
   "theorems": [
    "C25_precision_counts_mantissa_bits",
    "C25_precision_is_spacing",
    "C25_precision_of_special_values",
    "C25_special_precision_is_worst"
   ],
   "note": ""
  },
  {
   "property": "C26",
   "status": "proved",
   "theorems": [
    "C26_functions_of_nar",
    "C26_binary_nar",
    "C26_integer_power_nar",
    "C26_root_nar",
    "C26_nar_to_float",
    "C26_nonfinite_to_nar"
   ],
   "note": "power is excluded: pow(NaN,0) and pow(1,NaN) are 1 in C99, see C32"
  },
  {
   "property": "C27",
   "status": "proved",
   "theorems": [
    "C27_linear_addition_correctly_rounded",
    "C27_linear_subtraction_correctly_rounded",
    "C27_linear_addition_faithful",
    "C27_linear_subtraction_faithful"
   ],
   "note": "Correct rounding for 8, 16, 32 bits; faithful rounding at all widths. Correct rounding fails at 64 bits, see C46."
  },
  {
   "property": "C28",
   "status": "proved",
   "theorems": [
    "C28_linear_multiplication_correctly_rounded",
    "C28_linear_division_correctly_rounded",
    "C28_linear_multiplication_faithful",
    "C28_linear_division_faithful"
   ],
   "note": "Correct rounding for 8 and 16 bits; faithful rounding at all widths. Correct rounding fails at 32 bits, see C46."
  },
  {
   "property": "C29",
   "status": "proved",
   "theorems": [
    "C29_linear_addition_commutes",
    "C29_linear_multiplication_commutes",
    "C29_linear_zero_neutral",
    "C29_linear_one_neutral",
    "C29_linear_cancellation",
    "C29_linear_zero_absorbs",
    "C29_linear_quotients",
    "C29_linear_subtraction_is_addition",
    "C29_linear_addition_negated",
    "C29_linear_subtraction_swapped",
    "C29_linear_multiplication_sign",
    "C29_linear_division_sign",
    "C29_linear_inversion_sign"
   ],
   "note": ""
  },
  {
   "property": "C30",
   "status": "proved",
   "theorems": [
    "C30_log_takum_float_round_trip"
   ],
   "note": "for any math library with the C99 special cases and accuracy bounds of LibmSpec.v (a hypothesis, met by LibmIdeal.ideal)"
  },
  {
   "property": "C31",
   "status": "proved",
   "theorems": [
    "C31_positive_results",
    "C31_sign_of_results",
    "C31_hypotenuse_positive",
    "C31_power_positive"
   ],
   "note": "For every libm that satisfies c99 (LibmSpec.v)."
  },
  {
   "property": "C32",
   "status": "partial",
   "theorems": [
    "C32_power_conventions_refuted"
   ],
   "note": "Refuted: false of the code."
  },
  {
   "property": "C33",
   "status": "proved",
   "theorems": [
    "C33_linear_pi_functions_exact",
    "C33_log_pi_functions_exact"
   ],
   "note": ""
  },
  {
   "property": "C34",
   "status": "proved",
   "theorems": [
    "C34_nar_iff_undefined",
    "C34_undefined_is_nar",
    "C34_trigonometric_nar_iff",
    "C34_linear_nar_iff_undefined",
    "C34_linear_pi_nar_only_if_undefined"
   ],
   "note": ""
  },
  {
   "property": "C35",
   "status": "proved",
   "theorems": [
    "C35_functions_defined",
    "C35_binary_defined",
    "C35_integer_power_defined",
    "C35_root_defined",
    "C35_from_float_defined",
    "C35_to_float_defined"
   ],
   "note": "for any math library whatsoever; x86_64 long double; absolute is treated in C42"
  },
  {
   "property": "C36",
   "status": "partial",
   "theorems": [
    "C36_portability_refuted",
    "C36_struct_layout_refuted",
    "C36_quietly_wrong_refuted",
    "C36_takum64_nan_refuted"
   ],
   "note": "Refuted: false of the code. Where long double has 53 or 113 bits, encoding shifts by a negative amount (undefined) or doubles the fraction; where it has 53 bits takum64 decodes to NaN only. C90 is the part that works everywhere."
  },
  {
   "property": "C37",
   "status": "partial",
   "theorems": [
    "C37_linear_odd_root_refuted"
   ],
   "note": "Refuted: false of the code."
  },
  {
   "property": "C38",
   "status": "proved",
   "theorems": [
    "C38_multiplication_by_positive_monotone",
    "C38_division_by_positive_monotone",
    "C38_square_root_monotone",
    "C38_odd_integer_power_monotone",
    "C38_odd_root_monotone"
   ],
   "note": ""
  },
  {
   "property": "C39",
   "status": "proved",
   "theorems": [
    "C39_power_identities",
    "C39_root_identities"
   ],
   "note": ""
  },
  {
   "property": "C40",
   "status": "proved",
   "theorems": [
    "C40_constants_correctly_rounded",
    "C40_constants_exist"
   ],
   "note": "for pi, ln, sqrt, golden ratio and Euler's constant (Euler-Maclaurin bounds proved from the limit definition)"
  },
  {
   "property": "C41",
   "status": "partial",
   "theorems": [
    "C41_multiplication_64_correctly_rounded_refuted",
    "C41_division_64_correctly_rounded_refuted"
   ],
   "note": "false of the code: counterexamples; what holds instead is C17"
  },
  {
   "property": "C42",
   "status": "partial",
   "theorems": [
    "C42_absolute_of_nar_32_64_refuted"
   ],
   "note": "false of the code: negating the least int32_t/int64_t is undefined behaviour; C23 covers everything else"
  },
  {
   "property": "C43",
   "status": "partial",
   "theorems": [
    "C43_linear_from_extended_refuted",
    "C43_linear_from_extended_partial",
    "C43_linear_from_wide_float_nearly_partial"
   ],
   "note": "Refuted: false of the code at every width. Proved instead: 32 and 64 bits round a number with coordinate off by a relative 2^-64; 8 and 16 bits by 2^-23 and 2^-51 of 1 + its magnitude; always a neighbour (C13)"
  },
  {
   "property": "C44",
   "status": "partial",
   "theorems": [
    "C44_linear64_to_float32_refuted",
    "C44_linear64_to_float32_rounds_via_float64"
   ],
   "note": "false of the code: the value is rounded to float64 first; proved: the result is the double rounding"
  },
  {
   "property": "C45",
   "status": "partial",
   "theorems": [
    "C45_linear16_from_extended_odd_refuted"
   ],
   "note": "false of the code: for negative f the subtraction of the floor of -l rounds to 53 bits, for positive f it is exact"
  },
  {
   "property": "C46",
   "status": "partial",
   "theorems": [
    "C46_linear32_multiplication_refuted",
    "C46_linear32_division_refuted",
    "C46_linear32_inversion_refuted",
    "C46_linear32_square_root_refuted",
    "C46_linear64_addition_refuted"
   ],
   "note": "The claim is false of the code: the result is rounded to the float format and then to the takum. Counterexamples are proved; the result is still one of the two bracketing takums (C27, C28, C47)."
  },
  {
   "property": "C47",
   "status": "proved",
   "theorems": [
    "C47_linear_square_root_correctly_rounded",
    "C47_linear_inversion_correctly_rounded",
    "C47_linear_square_root_faithful",
    "C47_linear_inversion_faithful"
   ],
   "note": "square root as the IEEE operation (sqrt/sqrtl correctly rounded, as C99 Annex F requires)"
  },
  {
   "property": "C48",
   "status": "proved",
   "theorems": [
    "C48_linear_addition_monotone",
    "C48_linear_subtraction_monotone",
    "C48_linear_multiplication_monotone",
    "C48_linear_division_monotone",
    "C48_linear_square_root_monotone",
    "C48_linear_inversion_antitone"
   ],
   "note": ""
  },
  {
   "property": "C49",
   "status": "proved",
   "theorems": [
    "C49_linear_addition_exact",
    "C49_linear_subtraction_exact",
    "C49_linear_multiplication_exact",
    "C49_linear_division_exact",
    "C49_linear_square_root_exact",
    "C49_linear_inversion_exact"
   ],
   "note": ""
  },
  {
   "property": "C50",
   "status": "partial",
   "theorems": [
    "C50_all_constants_correctly_rounded_refuted"
   ],
   "note": "false of the code: two constants are one unit in the last place too large; C40 proves all others"
  },
  {
   "property": "C51",
   "status": "proved",
   "theorems": [
    "C51_limits"
   ],
   "note": ""
  },
  {
   "property": "C52",
   "status": "proved",
   "theorems": [
    "C52_log_to_float_accuracy",
    "C52_log_to_float_specials"
   ],
   "note": "for any math library with the C99 special cases and accuracy bounds of LibmSpec.v (a hypothesis, met by LibmIdeal.ideal)"
  },
  {
   "property": "C53",
   "status": "proved",
   "theorems": [
    "C53_log_from_float_faithful",
    "C53_log_from_float_nar",
    "C53_log_from_extended_nearly"
   ],
   "note": "for any math library with the C99 special cases and accuracy bounds of LibmSpec.v (a hypothesis, met by LibmIdeal.ideal)"
  },
  {
   "property": "C54",
   "status": "proved",
   "theorems": [
    "C54_elementary_functions_accurate",
    "C54_minus_1_near_0"
   ],
   "note": "Excluded arguments are listed in the statement; see C56 and C57 for two of them."
  },
  {
   "property": "C55",
   "status": "partial",
   "theorems": [
    "C55_pi_functions_exact_refuted",
    "C55_should_be_0_or_nar"
   ],
   "note": "Refuted: false of the code."
  },
  {
   "property": "C56",
   "status": "partial",
   "theorems": [
    "C56_arcoth64_domain_refuted"
   ],
   "note": "Refuted: false of the code."
  },
  {
   "property": "C57",
   "status": "partial",
   "theorems": [
    "C57_minus_1_accurate_refuted"
   ],
   "note": "Refuted: false of the code."
  },
  {
   "property": "C58",
   "status": "proved",
   "theorems": [
    "C58_binary_functions_accurate"
   ],
   "note": "For every libm that satisfies c99."
  },
  {
   "property": "C59",
   "status": "proved",
   "theorems": [
    "C59_power_accurate",
    "C59_linear_power_nar_iff",
    "C59_power_nar"
   ],
   "note": "For every libm that satisfies c99."
  },
  {
   "property": "C60",
   "status": "proved",
   "theorems": [
    "C60_integer_power_accurate",
    "C60_integer_power_nar_iff"
   ],
   "note": "For every libm that satisfies c99."
  },
  {
   "property": "C61",
   "status": "proved",
   "theorems": [
    "C61_linear_root_accurate",
    "C61_linear_root_nar_iff"
   ],
   "note": "For every libm that satisfies c99."
  },
  {
   "property": "C62",
   "status": "proved",
   "theorems": [
    "C62_linear_to_log_faithful",
    "C62_log_to_linear_accurate",
    "C62_linear_to_log_nar",
    "C62_log_to_linear_nar"
   ],
   "note": ""
  },
  {
   "property": "C63",
   "status": "proved",
   "theorems": [
    "C63_log_linear_log",
    "C63_linear_log_linear"
   ],
   "note": ""
  },
  {
   "property": "C64",
   "status": "proved",
   "theorems": [
    "C64_expressions_evaluated",
    "C64_only_expressions",
    "C64_unambiguous"
   ],
   "note": "Calculator on x86-64 with enough memory; strtold is an arbitrary function."
  },
  {
   "property": "C65",
   "status": "proved",
   "theorems": [
    "C65_registers"
   ],
   "note": "Calculator on x86-64 with enough memory; strtold is an arbitrary function."
  },
  {
   "property": "C66",
   "status": "proved",
   "theorems": [
    "C66_switch_type",
    "C66_type_kept"
   ],
   "note": "Calculator on x86-64 with enough memory; strtold is an arbitrary function."
  },
  {
   "property": "C67",
   "status": "proved",
   "theorems": [
    "C67_lines_defined"
   ],
   "note": "Calculator on x86-64 with enough memory; strtold is an arbitrary function."
  },
  {
   "property": "C68",
   "status": "partial",
   "theorems": [
    "C68_lines_defined_refuted",
    "C68_one_operand_undefined",
    "C68_two_operands_undefined"
   ],
   "note": "Refuted: false of the code. The other two theorems say when an operator makes a line undefined."
  },
  {
   "property": "C69",
   "status": "proved",
   "theorems": [
    "C69_printed_integer_exact"
   ],
   "note": "Calculator on x86-64 with enough memory; strtold is an arbitrary function."
  },
  {
   "property": "C70",
   "status": "partial",
   "theorems": [
    "C70_printed_literal_refuted"
   ],
   "note": "Refuted: false of the code. C69 is the part that holds."
  },
  {
   "property": "C71",
   "status": "proved",
   "theorems": [
    "C71_integer_literals",
    "C71_large_literals"
   ],
   "note": "Calculator on x86-64 with enough memory; strtold is an arbitrary function."
  },
  {
   "property": "C72",
   "status": "partial",
   "theorems": [
    "C72_small_literals_refuted"
   ],
   "note": "Refuted: false of the code. C71 is the part that holds."
  },
  {
   "property": "C73",
   "status": "proved",
   "theorems": [
    "C73_main_processes_lines",
    "C73_reading_safe"
   ],
   "note": "With enough memory for the first theorem; any allocation failures in the second."
  },
  {
   "property": "C74",
   "status": "partial",
   "theorems": [
    "C74_exhaustion_refuted"
   ],
   "note": "Refuted: false of the code. Reading lines is safe (C73)."
  },
  {
   "property": "C75",
   "status": "proved",
   "theorems": [
    "C75_unary_exact",
    "C75_linear_binary_exact",
    "C75_linear_integer_power_exact",
    "C75_linear_root_exact"
   ],
   "note": "For every libm that satisfies c99."
  },
  {
   "property": "C76",
   "status": "proved",
   "theorems": [
    "C76_addition_commutes",
    "C76_zero_is_neutral",
    "C76_subtraction_adds_the_negative",
    "C76_sign_of_difference",
    "C76_sign_of_sum",
    "C76_to_float_odd",
    "C76_to_extended_increasing"
   ],
   "note": ""
  },
  {
   "property": "C77",
   "status": "partial",
   "theorems": [
    "C77_from_extended_odd_refuted",
    "C77_takum8_from_extended_odd_refuted"
   ],
   "note": "Refuted: false of the code. For 16, 32 and 64 bits with every library that meets c99; for 8 bits with the library that rounds correctly."
  },
  {
   "property": "C78",
   "status": "proved",
   "theorems": [
    "C78_linear_odd_functions",
    "C78_linear_even_functions",
    "C78_log_even_functions"
   ],
   "note": ""
  },
  {
   "property": "C79",
   "status": "proved",
   "theorems": [
    "C79_increasing_functions",
    "C79_decreasing_functions",
    "C79_log_from_float_monotone"
   ],
   "note": "Hypotheses on the math library: c99 and monotone; the correctly rounding library meets both (C79_case)."
  },
  {
   "property": "C80",
   "status": "proved",
   "theorems": [
    "C80_log_to_float_monotone",
    "C80_log_to_linear_monotone",
    "C80_linear_to_log_monotone",
    "C80_log_addition_monotone",
    "C80_log_subtraction_monotone",
    "C80_power_monotone",
    "C80_hypotenuse_monotone",
    "C80_integer_power_monotone",
    "C80_root_monotone"
   ],
   "note": "For every library satisfying c99 and monotone (the correctly rounded library ideal does). Functions of two arguments; functions of one are C79, linear addition and subtraction C48."
  },
  {
   "property": "C81",
   "status": "proved",
   "theorems": [
    "C81_every_line_listed",
    "C81_line_behaves",
    "C81_undefined_exactly"
   ],
   "note": "Covers C64-C68 in one statement; the help text itself and decimal float text are not modelled."
  },
  {
   "property": "C82",
   "status": "partial",
   "theorems": [
    "C82_no_silent_line_refuted"
   ],
   "note": "Refuted: false of the code. C81 lists what is printed for every line."
  },
  {
   "property": "C83",
   "status": "proved",
   "theorems": [
    "C83_c_integers"
   ],
   "note": "strtoll is modelled after C99; decimal numerals alone are C71."
  },
  {
   "property": "C84",
   "status": "partial",
   "theorems": [
    "C84_leading_zeros_refuted"
   ],
   "note": "Refuted: false of the code (strtoll is called with base 0). C83 says what happens."
  },
  {
   "property": "C85",
   "status": "proved",
   "theorems": [
    "C85_start",
    "C85_output_grows"
   ],
   "note": "With enough memory."
  },
  {
   "property": "C86",
   "status": "partial",
   "theorems": [
    "C86_float_log64_round_trip_refuted"
   ],
   "note": "Refuted: false of the code. The conversion to float32 and float64 rounds the logarithm to that format before pow, so that neighbouring floats already near 3, different as takums, come back as one, whatever the library. C87 is the trip that works."
  },
  {
   "property": "C87",
   "status": "proved",
   "theorems": [
    "C87_float32_log64_long_double_round_trip",
    "C87_float64_log64_long_double_round_trip"
   ],
   "note": ""
  },
  {
   "property": "C88",
   "status": "proved",
   "theorems": [
    "C88_linear_unary_faithful",
    "C88_unary_faithful_near",
    "C88_linear_binary_faithful",
    "C88_linear_integer_power_faithful",
    "C88_linear_root_faithful"
   ],
   "note": "Arguments restricted by `regular` (WrapSpec.v) where the libraries' accuracy gives nothing."
  },
  {
   "property": "C89",
   "status": "proved",
   "theorems": [
    "C89_range",
    "C89_inverse_defined",
    "C89_linear_no_overshoot"
   ],
   "note": "The set for each function is `range` in RangeSpec.v; takum64 is not covered."
  },
  {
   "property": "C90",
   "status": "proved",
   "theorems": [
    "C90_linear_to_float_portable",
    "C90_linear_to_long_double_portable"
   ],
   "note": "The opposite direction is C36, which is false of the code."
  },
  {
   "property": "C91",
   "status": "proved",
   "theorems": [
    "C91_linear_versus_argument",
    "C91_linear_hypotenuse_not_below_legs",
    "C91_linear_integer_power_versus_base",
    "C91_linear_root_versus_radicand"
   ],
   "note": "The comparison for each function is `versus_argument` in RangeSpec.v."
  },
  {
   "property": "C92",
   "status": "proved",
   "theorems": [
    "C92_linear_unary_libraries_agree",
    "C92_linear_binary_libraries_agree",
    "C92_linear_integer_power_libraries_agree",
    "C92_linear_root_libraries_agree",
    "C92_log_from_float_libraries_agree"
   ],
   "note": ""
  },
  {
   "property": "C93",
   "status": "partial",
   "theorems": [
    "C93_narrowing_in_two_steps_refuted"
   ],
   "note": "Refuted: false of the code (double rounding). C94 says how far the results are apart."
  },
  {
   "property": "C94",
   "status": "proved",
   "theorems": [
    "C94_narrowing_in_two_steps_near",
    "C94_widening_in_two_steps",
    "C94_widening_then_narrowing"
   ],
   "note": ""
  },
  {
   "property": "C95",
   "status": "proved",
   "theorems": [
    "C95_square_exact",
    "C95_square_root_of_square",
    "C95_power_of_two_exact"
   ],
   "note": "Range stated as e^(-255/4) < |x| < e^(255/4) for squares, e^(-255/2) < |x|^(2^j) < e^(255/2) for powers. 64-bit integer powers go through long double (C60)."
  },
  {
   "property": "C96",
   "status": "partial",
   "theorems": [
    "C96_square_root_of_square_refuted"
   ],
   "note": "Refuted: false of the code for takum8 and for linear takums of every width. The true part is C95."
  },
  {
   "property": "C97",
   "status": "proved",
   "theorems": [
    "C97_wider_multiplication",
    "C97_wider_division",
    "C97_wider_square_root",
    "C97_wider_integer_power",
    "C97_wider_linear_multiplication"
   ],
   "note": ""
  },
  {
   "property": "C98",
   "status": "proved",
   "theorems": [
    "C98_product_in_wider_format"
   ],
   "note": ""
  },
  {
   "property": "C99",
   "status": "proved",
   "theorems": [
    "C99_close_subtraction_exact",
    "C99_close_addition_exact"
   ],
   "note": ""
  },
  {
   "property": "C100",
   "status": "proved",
   "theorems": [
    "C100_linear_binary_no_overshoot",
    "C100_linear_integer_power_no_overshoot",
    "C100_linear_root_no_overshoot",
    "C100_linear_arctan2_over_pi_octant"
   ],
   "note": ""
  },
  {
   "property": "C101",
   "status": "proved",
   "theorems": [
    "C101_linear_addition",
    "C101_linear_subtraction",
    "C101_linear_multiplication",
    "C101_linear_division",
    "C101_linear_square_root",
    "C101_linear_inversion",
    "C101_log_multiplication",
    "C101_log_division",
    "C101_log_square_root",
    "C101_log_integer_power",
    "C101_narrowing",
    "C101_linear_from_float",
    "C101_log_from_float",
    "C101_linear_to_log",
    "C101_linear_unary",
    "C101_linear_binary"
   ],
   "note": "Not claimed for 8 bits, where some exponents leave no fraction bits."
  },
  {
   "property": "C102",
   "status": "proved",
   "theorems": [
    "C102_linear_sum",
    "C102_linear_sum_positive"
   ],
   "note": "16, 32 and 64 bits. The Example C102_case meets the hypotheses."
  },
  {
   "property": "C103",
   "status": "proved",
   "theorems": [
    "C103_linear_product",
    "C103_log_product"
   ],
   "note": "16, 32 and 64 bits. The Example C102_case meets the hypotheses."
  },
  {
   "property": "C104",
   "status": "proved",
   "theorems": [
    "C104_linear_scalar_product",
    "C104_linear_polynomial"
   ],
   "note": "16, 32 and 64 bits. The Example C102_case meets the hypotheses."
  },
  {
   "property": "C105",
   "status": "proved",
   "theorems": [
    "C105_linear_addition",
    "C105_linear_subtraction",
    "C105_linear_multiplication",
    "C105_linear_division",
    "C105_linear_square_root",
    "C105_linear_inversion",
    "C105_log_multiplication",
    "C105_log_division",
    "C105_log_square_root"
   ],
   "note": "16, 32 and 64 bits; exact results of exponents -254 to 253."
  },
  {
   "property": "C106",
   "status": "proved",
   "theorems": [
    "C106_linear_addition_error_is_takum"
   ],
   "note": "16 and 32 bits, where addition is correctly rounded."
  },
  {
   "property": "C107",
   "status": "proved",
   "theorems": [
    "C107_linear_fast_two_sum"
   ],
   "note": ""
  },
  {
   "property": "C108",
   "status": "partial",
   "theorems": [
    "C108_linear_fast_two_sum_always_refuted"
   ],
   "note": "Refuted: false of the code, as it must be of any correctly rounded takum arithmetic (0x47ff + 0x47ff of linear 16 bits); the true part is C107."
  },
  {
   "property": "C109",
   "status": "proved",
   "theorems": [
    "C109_linear_from_float_depends_on_value",
    "C109_log_from_float_depends_on_value",
    "C109_linear_from_float_formats_agree",
    "C109_log_from_float_formats_agree"
   ],
   "note": ""
  },
  {
   "property": "C110",
   "status": "partial",
   "theorems": [
    "C110_linear16_from_float32_equals_float64_refuted"
   ],
   "note": "Refuted: false of the code; takum_linear16_from_float32 casts the coordinate to float although the encoder takes a double. The true part is C109 (at most one unit apart; equal for the other widths)."
  },
  {
   "property": "C111",
   "status": "proved",
   "theorems": [
    "C111_exponential_of_logarithm",
    "C111_logarithm_of_exponential"
   ],
   "note": ""
  },
  {
   "property": "C112",
   "status": "proved",
   "theorems": [
    "C112_quotient_of_product",
    "C112_product_of_quotient",
    "C112_inverse_of_inverse",
    "C112_square_of_square_root"
   ],
   "note": ""
  },
  {
   "property": "C113",
   "status": "partial",
   "theorems": [
    "C113_inverse_of_inverse_exact_refuted",
    "C113_quotient_of_product_exact_refuted",
    "C113_mean_exact_refuted"
   ],
   "note": "Refuted: false of the code (and of every correctly rounded implementation of the format). The true part is C112; for logarithmic takums inversion is lossless (C19)."
  },
  {
   "property": "C114",
   "status": "proved",
   "theorems": [
    "C114_sign_of_product",
    "C114_sum_above_summands",
    "C114_sum_monotone",
    "C114_product_monotone"
   ],
   "note": "accumulate folds the function of the library over a list of any length."
  },
  {
   "property": "C115",
   "status": "proved",
   "theorems": [
    "C115_middle_between"
   ],
   "note": "The range of the difference is needed (C116)."
  },
  {
   "property": "C116",
   "status": "partial",
   "theorems": [
    "C116_middle_between_refuted"
   ],
   "note": "Refuted: false of the code. In 16 bits the middle of the smallest takums 1 and 2 is 17: their difference halved is rounded at the coarse end of the range. C115 proves the property for differences between 2^-252 and 2^252."
  },
  {
   "property": "C117",
   "status": "proved",
   "theorems": [
    "C117_sine_cosine_squares"
   ],
   "note": "For every library that meets c99 (LibmSpec.v)."
  },
  {
   "property": "C118",
   "status": "proved",
   "theorems": [
    "C118_quotient_one_logarithmic",
    "C118_quotient_one_linear",
    "C118_quotient_below_one"
   ],
   "note": ""
  },
  {
   "property": "C119",
   "status": "partial",
   "theorems": [
    "C119_quotient_one_refuted"
   ],
   "note": "Refuted: false of the code. 2 / (2 - 2^-27) is one in 32 bits and 2 / (2 - 2^-59) in 64 bits: the quotient is rounded to the long double or double first. C118 proves the property for the other widths and the lower half for these."
  },
  {
   "property": "C120",
   "status": "proved",
   "theorems": [
    "C120_text_round_trip"
   ],
   "note": "printf and strtold are specified after C99 in TextSpec.v; reads_decimals is a hypothesis on strtold that strtold_ideal meets"
  },
  {
   "property": "C121",
   "status": "proved",
   "theorems": [
    "C121_text_accurate"
   ],
   "note": "printf is specified after C99 in TextSpec.v"
  },
  {
   "property": "C122",
   "status": "partial",
   "theorems": [
    "C122_text_round_trip_refuted",
    "C122_nar_not_accepted"
   ],
   "note": "Refuted: false of the code. 8388609 / 8388608 as takum_linear32 is printed as 1, which is another takum; NaR is an invalid token. C120 is the part that holds at 8 and 16 bits, C123 the part for integers."
  },
  {
   "property": "C123",
   "status": "proved",
   "theorems": [
    "C123_integer_round_trip"
   ],
   "note": ""
  },
  {
   "property": "C124",
   "status": "proved",
   "theorems": [
    "C124_linear16_portable",
    "C124_logarithmic_to_float_portable"
   ],
   "note": "Multiplication, division, square root, integer power and root of takum16 do not depend on the platform at all (their models do not take it as an argument)."
  },
  {
   "property": "C125",
   "status": "partial",
   "theorems": [
    "C125_other_widths_portable_refuted",
    "C125_other_widths_undefined"
   ],
   "note": "Refuted: false of the code on every platform but the one with a long double of 64 bits and the big-endian struct."
  },
  {
   "property": "C126",
   "status": "proved",
   "theorems": [
    "C126_through_linear64_correctly_rounded",
    "C126_linear32_through_linear64"
   ],
   "note": ""
  },
  {
   "property": "C127",
   "status": "partial",
   "theorems": [
    "C127_direct_conversion_refuted"
   ],
   "note": "Refuted: false of the code for float and double at 8 and 16 bits."
  },
  {
   "property": "C128",
   "status": "proved",
   "theorems": [
    "C128_two_ways_agree",
    "C128_two_ways_ordered",
    "C128_two_ways_separated",
    "C128_squares",
    "C128_reciprocals",
    "C128_square_roots",
    "C128_powers_of_two",
    "C128_doubles"
   ],
   "note": "Functions whose argument is rounded first (e.g. sin_pi_times where argument_error is not 0) and, for 64 bits, the functions from the mathematical library and root are outside of the claim; logarithmic takums too."
  },
  {
   "property": "C129",
   "status": "proved",
   "theorems": [
    "C129_product_of_reciprocals",
    "C129_reciprocal_of_quotient",
    "C129_square_root_of_reciprocal",
    "C129_integer_power_of_reciprocal",
    "C129_root_of_reciprocal"
   ],
   "note": ""
  },
  {
   "property": "C130",
   "status": "partial",
   "theorems": [
    "C130_root64_of_reciprocal_refuted"
   ],
   "note": "Refuted: false of the code. The fraction of the logarithmic value is truncated to 64 bits before rounding, which is not symmetric. The true part is C129."
  },
  {
   "property": "C131",
   "status": "proved",
   "theorems": [
    "C131_absolute_of_product",
    "C131_absolute_of_quotient",
    "C131_sign_of_product",
    "C131_sign_of_quotient",
    "C131_sign_times_absolute"
   ],
   "note": ""
  },
  {
   "property": "C132",
   "status": "proved",
   "theorems": [
    "C132_distance",
    "C132_triangle_inequality",
    "C132_reverse_triangle_inequality"
   ],
   "note": ""
  },
  {
   "property": "C133",
   "status": "partial",
   "theorems": [
    "C133_distance_is_a_metric_refuted"
   ],
   "note": "Refuted: false of the code, as of any rounded arithmetic. The true part is C132."
  },
  {
   "property": "C134",
   "status": "proved",
   "theorems": [
    "C134_sum_in_any_order",
    "C134_positive_sum_in_any_order",
    "C134_two_orders_agree",
    "C134_sum_above_summands"
   ],
   "note": ""
  },
  {
   "property": "C135",
   "status": "proved",
   "theorems": [
    "C135_linear_product_in_any_order",
    "C135_log_product_in_any_order",
    "C135_sign_in_any_order",
    "C135_nar_in_any_order"
   ],
   "note": ""
  },
  {
   "property": "C136",
   "status": "partial",
   "theorems": [
    "C136_associative_distributive_refuted"
   ],
   "note": "Refuted: false of the code, as of any rounded arithmetic. What is true are C134 and C135."
  },
  {
   "property": "C137",
   "status": "proved",
   "theorems": [
    "C137_computation_error",
    "C137_computations_agree",
    "C137_tangent",
    "C137_hyperbolic_tangent",
    "C137_exponential_of_sum",
    "C137_hypotenuse"
   ],
   "note": "Relative to the accuracy assumptions on the mathematical library (c99)."
  },
  {
   "property": "C138",
   "status": "proved",
   "theorems": [
    "C138_full_period",
    "C138_zero_state"
   ],
   "note": "Proved by computing powers of the transition matrices over GF(2) inside the kernel and by the factorisation of 2^n-1. rand() is an oracle."
  },
  {
   "property": "C139",
   "status": "proved",
   "theorems": [
    "C139_terminates",
    "C139_exhaustive"
   ],
   "note": ""
  },
  {
   "property": "C140",
   "status": "proved",
   "theorems": [
    "C140_distinct"
   ],
   "note": "What fails without the two conditions is C141."
  },
  {
   "property": "C141",
   "status": "partial",
   "theorems": [
    "C141_pairs_repeat",
    "C141_pairs_distinct_refuted",
    "C141_takums_distinct_refuted"
   ],
   "note": "Refuted: false of the code. Both operands come from generators of the same period, so that the pairs repeat after 2^n-1 samples: of the 2^22 pairs of 16 bit takums only 2^16 are different. The distinctness that holds is C140."
  },
  {
   "property": "C142",
   "status": "proved",
   "theorems": [
    "C142_verdict",
    "C142_exhaustive_verdict",
    "C142_block_verdict",
    "C142_checks_defined"
   ],
   "note": "The reference values are parameters of the test block (evaluate_reference_function is not modelled)."
  },
  {
   "property": "C143",
   "status": "partial",
   "theorems": [
    "C143_nar_tested_refuted"
   ],
   "note": "Refuted: false of the code. The allowed deviation by one accepts the smallest real takum where NaR is expected (and 0 where a real is expected): a function that never returns NaR passes all tests of all widths against a reference that always does. What passing tests imply is C142."
  },
  {
   "property": "C144",
   "status": "partial",
   "theorems": [
    "C144_comparison_refuted",
    "C144_nar_undefined"
   ],
   "note": "Refuted: false of the code. For 64 bits the comparison computes the expected result plus and minus one in int64_t, which overflows if NaR or the largest takum is expected and something else is returned. It is defined for narrower takums, round trips and predicates (C142_checks_defined)."
  },
  {
   "property": "C145",
   "status": "partial",
   "theorems": [
    "C145_termination_refuted",
    "C145_duplicate_integers",
    "C145_no_integers"
   ],
   "note": "Refuted: false of the code. The next integer is found by searching the current one, so that a list with an integer twice is never left; an empty list divides by zero. The lists in test/ have neither defect; termination for such lists is C139."
  },
  {
   "property": "C146",
   "status": "proved",
   "theorems": [
    "C146_codec_test_passes",
    "C146_conversion_test_passes",
    "C146_double_of_bits"
   ],
   "note": "exp2(255) and exp2(-255) are taken to be exact. Of the types without a function (NULL) nothing is tested."
  },
  {
   "property": "C147",
   "status": "proved",
   "theorems": [
    "C147_addition_test_passes",
    "C147_subtraction_test_passes"
   ],
   "note": ""
  },
  {
   "property": "C148",
   "status": "partial",
   "theorems": [
    "C148_arithmetic_test_passes_partial",
    "C148_linear_arithmetic_test_passes"
   ],
   "note": "Proved for takum8, takum16, takum32 and all four linear types. Missing: takum64, whose reference in long double is not known to be accurate to one unit."
  },
  {
   "property": "C149",
   "status": "proved",
   "theorems": [
    "C149_sign_test_passes",
    "C149_precision_test_passes"
   ],
   "note": "The reference of the precision test reads the regime from the bits of the takum, to which the long double is converted back."
  },
  {
   "property": "C150",
   "status": "proved",
   "theorems": [
    "C150_absolute_small_test_passes"
   ],
   "note": "For 32 and 64 bits see C151."
  },
  {
   "property": "C151",
   "status": "partial",
   "theorems": [
    "C151_absolute_test_refuted",
    "C151_absolute_test_undefined"
   ],
   "note": "Refuted: false of the code. For 32 and 64 bits the sampler can choose NaR, for which the absolute value has undefined behaviour (the negation of INT32_MIN, INT64_MIN)."
  },
  {
   "property": "C152",
   "status": "proved",
   "theorems": [
    "C152_function_test_passes",
    "C152_functions"
   ],
   "note": "For programs of two blocks see C153. The linear takums of at most 32 bits are computed in double, or by rounding a long double to double; all others are computed in long double like the reference."
  },
  {
   "property": "C153",
   "status": "proved",
   "theorems": [
    "C153_function2_test_passes",
    "C153_arctan2_program",
    "C153_programs_of_two_blocks"
   ],
   "note": ""
  },
  {
   "property": "C154",
   "status": "partial",
   "theorems": [
    "C154_raising_test_passes_partial",
    "C154_functions"
   ],
   "note": "Proved for all of these functions except 2_raised_minus_1 and 10_raised_minus_1. The exceptions FE_OVERFLOW and FE_UNDERFLOW are modelled from the results of the mathematical library."
  }
 ]
}