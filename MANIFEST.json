{
 "claims": [
  {
   "property": "C01",
   "status": "proved",
   "theorems": [
    "C01_addition_exact"
   ],
   "note": ""
  },
  {
   "property": "C02",
   "status": "proved",
   "theorems": [
    "C02_subtraction_negation_exact"
   ],
   "note": ""
  },
  {
   "property": "C03",
   "status": "proved",
   "theorems": [
    "C03_increment_decrement"
   ],
   "note": ""
  },
  {
   "property": "C04",
   "status": "proved",
   "theorems": [
    "C04_multiplication_exact"
   ],
   "note": ""
  },
  {
   "property": "C05",
   "status": "proved",
   "theorems": [
    "C05_add_small_builtin",
    "C05_every_value"
   ],
   "note": ""
  },
  {
   "property": "C06",
   "status": "partial",
   "theorems": [
    "C06_add_u64_partial",
    "C06_add_u64_refuted"
   ],
   "note": "The full claim is false of the code: the 64-bit addition of block 0 and the addend loses its carry. Proved: an exact characterisation (iff) of when the result is right; C06_add_u64_refuted is the counterexample."
  },
  {
   "property": "C07",
   "status": "proved",
   "theorems": [
    "C07_mul_builtin_exact",
    "C07_every_value"
   ],
   "note": ""
  },
  {
   "property": "C08",
   "status": "partial",
   "theorems": [
    "C08_mul_any_u64_partial",
    "C08_mul_any_u64_refuted"
   ],
   "note": "The full claim is false of the code for a 64-bit unsigned type that is not uint64_t (unsigned long long on LP64). Proved for uint64_t and, for the other type, for factors up to 2^32; C08_mul_any_u64_refuted is the counterexample."
  },
  {
   "property": "C09",
   "status": "proved",
   "theorems": [
    "C09_division_euclidean",
    "C09_any_output_contents"
   ],
   "note": ""
  },
  {
   "property": "C10",
   "status": "proved",
   "theorems": [
    "C10_division_by_zero",
    "C10_division_by_zero_exact"
   ],
   "note": ""
  },
  {
   "property": "C11",
   "status": "proved",
   "theorems": [
    "C11_bitwise"
   ],
   "note": ""
  },
  {
   "property": "C12",
   "status": "proved",
   "theorems": [
    "C12_shift_left"
   ],
   "note": ""
  },
  {
   "property": "C13",
   "status": "proved",
   "theorems": [
    "C13_shift_right"
   ],
   "note": ""
  },
  {
   "property": "C14",
   "status": "proved",
   "theorems": [
    "C14_comparison_numeric",
    "C14_equal_values_equal_objects"
   ],
   "note": ""
  },
  {
   "property": "C15",
   "status": "proved",
   "theorems": [
    "C15_comparison_builtin"
   ],
   "note": ""
  },
  {
   "property": "C16",
   "status": "proved",
   "theorems": [
    "C16_equality_across_precisions"
   ],
   "note": ""
  },
  {
   "property": "C17",
   "status": "partial",
   "theorems": [
    "C17_ordering_across_precisions_partial",
    "C17_ordering_across_precisions_refuted",
    "C17_ordering_across_precisions_exact",
    "C17_less_right_iff"
   ],
   "note": "The full claim is false of the code: the common low blocks are compared before the excess high blocks. Proved when both values fit both widths or the common parts agree; counterexample in C17_ordering_across_precisions_refuted."
  },
  {
   "property": "C18",
   "status": "proved",
   "theorems": [
    "C18_bit_access"
   ],
   "note": ""
  },
  {
   "property": "C19",
   "status": "partial",
   "theorems": [
    "C19_byte_access_partial",
    "C19_byte_access_refuted"
   ],
   "note": "The full claim is false at the single index N/8 (passes the range check, then aborts or reads outside the object: C19_byte_access_refuted). Proved for every other index."
  },
  {
   "property": "C20",
   "status": "proved",
   "theorems": [
    "C20_block_access"
   ],
   "note": ""
  },
  {
   "property": "C21",
   "status": "proved",
   "theorems": [
    "C21_observers"
   ],
   "note": ""
  },
  {
   "property": "C22",
   "status": "proved",
   "theorems": [
    "C22_gcd"
   ],
   "note": ""
  },
  {
   "property": "C23",
   "status": "proved",
   "theorems": [
    "C23_bezout",
    "C23_bezout_exact",
    "C23_modular_inverse",
    "C23_any_sharing"
   ],
   "note": ""
  },
  {
   "property": "C24",
   "status": "proved",
   "theorems": [
    "C24_lcm",
    "C24_lcm_exact_when_it_fits"
   ],
   "note": ""
  },
  {
   "property": "C25",
   "status": "partial",
   "theorems": [
    "C25_powm_partial",
    "C25_powm_refuted",
    "C25_powm_right_iff"
   ],
   "note": "The full claim is false for power 0 with modulus 1 (returns 1): C25_powm_refuted. Proved for every other input with a positive modulus whose square fits."
  },
  {
   "property": "C26",
   "status": "partial",
   "theorems": [
    "C26_powm_mixed_partial",
    "C26_powm_mixed_refuted",
    "C26_powm_mixed_right_iff"
   ],
   "note": "The full claim is false for base 0 with a positive power (returns 1), and for modulus 1 with base 1 or power 0: C26_powm_mixed_refuted. Proved for every other input with a positive modulus whose square fits."
  },
  {
   "property": "C27",
   "status": "proved",
   "theorems": [
    "C27_power2"
   ],
   "note": ""
  },
  {
   "property": "C28",
   "status": "proved",
   "theorems": [
    "C28_square_root"
   ],
   "note": ""
  },
  {
   "property": "C29",
   "status": "proved",
   "theorems": [
    "C29_integral_cast"
   ],
   "note": ""
  },
  {
   "property": "C30",
   "status": "proved",
   "theorems": [
    "C30_precision_cast",
    "C30_precision_roundtrip"
   ],
   "note": ""
  },
  {
   "property": "C31",
   "status": "proved",
   "theorems": [
    "C31_construct_unsigned"
   ],
   "note": ""
  },
  {
   "property": "C32",
   "status": "proved",
   "theorems": [
    "C32_string_construction",
    "C32_literal_construction",
    "C32_numerals"
   ],
   "note": ""
  },
  {
   "property": "C33",
   "status": "proved",
   "theorems": [
    "C33_getString_digits",
    "C33_numeral_exists_unique",
    "C33_getString_zero"
   ],
   "note": ""
  },
  {
   "property": "C34",
   "status": "proved",
   "theorems": [
    "C34_getString_hex"
   ],
   "note": ""
  },
  {
   "property": "C35",
   "status": "partial",
   "theorems": [
    "C35_getString_in_bounds_partial",
    "C35_getString_in_bounds_wide_partial",
    "C35_getString_in_bounds_refuted"
   ],
   "note": "The full claim is false: when the numeral does not fit, the digit loop, the NUL or snprintf'd pieces land outside the buffer (C35_getString_in_bounds_refuted: every non-zero value and every buffer of 2..number-of-digits characters). Proved: an exact characterisation (iff) of when it is safe, for every character type and base, of when it stays inside (wchar_t in base 16 has its own condition, wide_hex_safe)."
  },
  {
   "property": "C36",
   "status": "proved",
   "theorems": [
    "C36_text_roundtrip"
   ],
   "note": ""
  },
  {
   "property": "C37",
   "status": "proved",
   "theorems": [
    "C37_stream_insertion"
   ],
   "note": ""
  },
  {
   "property": "C38",
   "status": "partial",
   "theorems": [
    "C38_stream_format_partial",
    "C38_stream_format_refuted"
   ],
   "note": "The full claim is false: showbase is cleared in bases 8 and 16; hexadecimal output of a number over 32 bits leaves fill '0' and right adjustment (_refuted). Proved: the exact condition (iff) under which the format is preserved, at width() = 0."
  },
  {
   "property": "C39",
   "status": "proved",
   "theorems": [
    "C39_binary_roundtrip",
    "C39_concatenation"
   ],
   "note": ""
  },
  {
   "property": "C40",
   "status": "proved",
   "theorems": [
    "C40_short_read",
    "C40_bad_stream",
    "C40_bytes_determine"
   ],
   "note": ""
  },
  {
   "property": "C41",
   "status": "proved",
   "theorems": [
    "C41_swap",
    "C41_self_swap"
   ],
   "note": ""
  },
  {
   "property": "C42",
   "status": "proved",
   "theorems": [
    "C42_from_gmp",
    "C42_signed_from_gmp"
   ],
   "note": ""
  },
  {
   "property": "C43",
   "status": "proved",
   "theorems": [
    "C43_signed_add_sub"
   ],
   "note": ""
  },
  {
   "property": "C44",
   "status": "proved",
   "theorems": [
    "C44_signed_mul"
   ],
   "note": ""
  },
  {
   "property": "C45",
   "status": "proved",
   "theorems": [
    "C45_signed_division"
   ],
   "note": ""
  },
  {
   "property": "C46",
   "status": "partial",
   "theorems": [
    "C46_signed_modulo_partial",
    "C46_signed_modulo_refuted"
   ],
   "note": "The full claim is false for a negative modulus (the sign is inverted; 7 % -3 = -1 while divide gives 1): C46_signed_modulo_refuted. Proved for a positive modulus, and the exact result for a negative one."
  },
  {
   "property": "C47",
   "status": "proved",
   "theorems": [
    "C47_signed_comparison"
   ],
   "note": ""
  },
  {
   "property": "C48",
   "status": "partial",
   "theorems": [
    "C48_signed_comparison_across_precisions_partial",
    "C48_signed_comparison_across_precisions_refuted",
    "C48_signed_comparison_across_precisions_exact"
   ],
   "note": "The full claim is false when the left operand does not fit the right operand's width (it is truncated first): counterexample in the _refuted theorem. Proved whenever it fits."
  },
  {
   "property": "C49",
   "status": "proved",
   "theorems": [
    "C49_signed_comparison_builtin",
    "C49_int64_min_undefined",
    "C49_int64_min_elsewhere"
   ],
   "note": "Also proved: the excluded operand (the most negative 64-bit integer) is undefined behaviour against any negative number."
  },
  {
   "property": "C50",
   "status": "partial",
   "theorems": [
    "C50_zero_has_no_residue_partial",
    "C50_zero_has_no_residue_refuted"
   ],
   "note": "The full claim is false for +, - and * (5 - 5 keeps magnitude 5 behind sign zero): C50_zero_has_no_residue_refuted. Proved for /, %, ++, --, divide, squareRoot, precisionCast, power2 and the constructors."
  },
  {
   "property": "C51",
   "status": "partial",
   "theorems": [
    "C51_signed_modulo_builtin_partial",
    "C51_signed_modulo_builtin_refuted"
   ],
   "note": "The full claim is false: a zero remainder keeps the old sign, so 10 % 5 does not compare equal to 0 (_refuted). Proved: the value (with C46's sign rule), and well-formedness when non-zero."
  },
  {
   "property": "C52",
   "status": "partial",
   "theorems": [
    "C52_signed_construct_partial",
    "C52_signed_construct_refuted"
   ],
   "note": "False exactly for the minimum of 32- and 64-bit signed types (signed overflow, proved in _refuted). Proved for every other value."
  },
  {
   "property": "C53",
   "status": "partial",
   "theorems": [
    "C53_signed_mul_div_builtin_partial",
    "C53_signed_mul_div_builtin_refuted"
   ],
   "note": "False for |k| > 2^32 where unsigned long long is not uint64_t, for the minimum of int8/int16 (wrong value), and undefined for the minimum of int32/int64 (_refuted). Proved for every other operand."
  },
  {
   "property": "C54",
   "status": "partial",
   "theorems": [
    "C54_signed_integral_cast_partial",
    "C54_signed_integral_cast_refuted"
   ],
   "note": "False for negative numbers congruent to 2^(w-1) with a 32- or 64-bit target (undefined behaviour, e.g. -2^31 to int32_t; _refuted). Proved for every other value."
  },
  {
   "property": "C55",
   "status": "proved",
   "theorems": [
    "C55_signed_unary"
   ],
   "note": ""
  },
  {
   "property": "C56",
   "status": "partial",
   "theorems": [
    "C56_signed_text_partial",
    "C56_signed_text_zero_partial",
    "C56_signed_stream",
    "C56_signed_text_refuted"
   ],
   "note": "The text written is proved right in every case; the full claim is false because the returned amount omits the '-' (C56_signed_text_refuted). Signed zero in base 8/10/16 proved for buffers of 3 characters and more."
  },
  {
   "property": "C57",
   "status": "proved",
   "theorems": [
    "C57_signed_string_construction",
    "C57_signed_literal_construction"
   ],
   "note": ""
  },
  {
   "property": "C58",
   "status": "partial",
   "theorems": [
    "C58_unsigned_signed_conversion_partial",
    "C58_unsigned_signed_conversion_refuted"
   ],
   "note": "False for zero only: Aesi(Aeu 0) has sign Positive (_refuted). Proved for non-zero values and for unsignedCast."
  },
  {
   "property": "C59",
   "status": "partial",
   "theorems": [
    "C59_signed_precision_cast_partial",
    "C59_signed_precision_cast_refuted"
   ],
   "note": "False only when the magnitude is a non-zero multiple of 2^M: the result has a sign but magnitude zero (_refuted). Proved otherwise."
  },
  {
   "property": "C60",
   "status": "proved",
   "theorems": [
    "C60_signed_root_power2"
   ],
   "note": ""
  },
  {
   "property": "C61",
   "status": "proved",
   "theorems": [
    "C61_unsigned_programs",
    "C61_unsigned_programs_never_fault"
   ],
   "note": ""
  },
  {
   "property": "C62",
   "status": "proved",
   "theorems": [
    "C62_signed_programs",
    "C62_signed_programs_never_fault"
   ],
   "note": ""
  },
  {
   "property": "C63",
   "status": "proved",
   "theorems": [
    "C63_compound_any_sharing",
    "C63_self_like_copy",
    "C63_signed_any_sharing",
    "C63_signed_self_like_copy"
   ],
   "note": ""
  },
  {
   "property": "C64",
   "status": "partial",
   "theorems": [
    "C64_divide_distinct_partial",
    "C64_output_is_number",
    "C64_remainder_is_divisor",
    "C64_quotient_is_divisor",
    "C64_aliased_divide_refuted",
    "C64_signed_divide_distinct_partial",
    "C64_signed_aliased_divide_refuted",
    "C64_signed_output_is_number",
    "C64_signed_remainder_is_divisor",
    "C64_signed_quotient_is_divisor"
   ],
   "note": "The full claim is false of the code: l.1090 zeroes the outputs before the inputs are read (C64_aliased_divide_refuted, C64_signed_aliased_divide_refuted). Proved: right whenever the outputs are distinct from the inputs and from each other (the inputs may be one object), and for each way of sharing the exact set of values for which the result is right."
  },
  {
   "property": "C65",
   "status": "proved",
   "theorems": [
    "C65_every_interleaving",
    "C65_finished",
    "C65_same_value",
    "C65_last_alone",
    "C65_whole_value_refuted",
    "C65_signed_finished",
    "C65_signed_same_value",
    "C65_signed_wellformed_refuted"
   ],
   "note": ""
  },
  {
   "property": "C66",
   "status": "partial",
   "theorems": [
    "C66_every_width_partial",
    "C66_every_width_refuted",
    "C66_octal64_refuted"
   ],
   "note": "The full claim is false for 32-bit numbers (integralCast, 64-bit comparison, decimal getString read blocks[1]; _refuted) and 64-bit octal stream output loses the top digit (C66_octal64_refuted). Proved for 64 bits and more."
  },
  {
   "property": "C67",
   "status": "partial",
   "theorems": [
    "C67_signed_field_width",
    "C67_field_width_partial",
    "C67_field_width_refuted"
   ],
   "note": "The full claim is false: only the first piece of text (prefix, top block or first digit) is padded; setw(5) << 42 prints 6 characters (_refuted). Proved: exactly what is printed, and an iff for when it is the padded number."
  },
  {
   "property": "C68",
   "status": "partial",
   "theorems": [
    "C68_char_strings_partial",
    "C68_char_strings_refuted"
   ],
   "note": "The full claim is false: std::isalnum is called with a negative value when a char below -1 precedes the first alphanumeric character. Proved: exactly those strings are undefined; all others give their value (C68_char_strings_partial)."
  },
  {
   "property": "C69",
   "status": "partial",
   "theorems": [
    "C69_nul_terminated_partial",
    "C69_nul_terminated_refuted"
   ],
   "note": "The full claim is false for zero (C69_nul_terminated_refuted: for every width and buffer). Proved for every non-zero value."
  },
  {
   "property": "C70",
   "status": "partial",
   "theorems": [
    "C70_signed_in_bounds_partial",
    "C70_signed_in_bounds_wide_partial",
    "C70_signed_in_bounds_refuted"
   ],
   "note": "The full claim is false (zero into a zero-sized buffer; numerals that do not fit). Proved: an iff for when it stays inside, for every character type and base."
  },
  {
   "property": "C71",
   "status": "proved",
   "theorems": [
    "C71_signed_text_roundtrip"
   ],
   "note": ""
  },
  {
   "property": "C72",
   "status": "partial",
   "theorems": [
    "C72_byte_order_partial",
    "C72_byte_order_refuted"
   ],
   "note": "The full claim is false: only the order of blocks follows the flag, each block is in host order (C72_byte_order_refuted). Proved: the exact place of every byte, and the claim when host and requested order agree."
  },
  {
   "property": "C73",
   "status": "partial",
   "theorems": [
    "C73_gmp_any_host_partial",
    "C73_gmp_any_host_refuted"
   ],
   "note": "The full claim is false on big-endian hosts and with AESI_UNSAFE (_refuted). Proved for little-endian hosts, with index checks or a value that fits."
  },
  {
   "property": "C74",
   "status": "partial",
   "theorems": [
    "C74_equals_gmp_partial",
    "C74_signed_equals_gmp_partial",
    "C74_equals_gmp_refuted"
   ],
   "note": "The full claim is false for integers outside the range of the type (_refuted). Proved: the exact result for Aeu, and the claim for integers in range."
  },
  {
   "property": "C75",
   "status": "proved",
   "theorems": [
    "C75_write_prefix"
   ],
   "note": ""
  },
  {
   "property": "C76",
   "status": "proved",
   "theorems": [
    "C76_egcd_any_sharing"
   ],
   "note": ""
  },
  {
   "property": "C77",
   "status": "proved",
   "theorems": [
    "C77_unsigned_mixed_operators"
   ],
   "note": ""
  },
  {
   "property": "C78",
   "status": "partial",
   "theorems": [
    "C78_signed_mixed_operators_partial",
    "C78_signed_mixed_operators_refuted"
   ],
   "note": "The full claim is false for INT_MIN / INT64_MIN operands (signed overflow in the constructor: C78_signed_mixed_operators_refuted) and the sign of k % a is inverted for negative a. Proved for every other operand, with the exact result for negative a."
  },
  {
   "property": "C79",
   "status": "proved",
   "theorems": [
    "C79_signed_setters",
    "C79_setters_and_zero"
   ],
   "note": ""
  },
  {
   "property": "C80",
   "status": "partial",
   "theorems": [
    "C80_signed_overflow_partial",
    "C80_signed_overflow_refuted"
   ],
   "note": "The full claim is false when the reduced magnitude is zero: the result is a non-zero sign with magnitude zero (C80_signed_overflow_refuted). Proved: sign and magnitude for every overflow, validity whenever the magnitude is non-zero."
  },
  {
   "property": "C81",
   "status": "proved",
   "theorems": [
    "C81_relational_operators",
    "C81_builtin_on_the_left",
    "C81_builtin_on_the_left_signed"
   ],
   "note": ""
  },
  {
   "property": "C82",
   "status": "partial",
   "theorems": [
    "C82_unsigned_vs_signed_builtin_partial",
    "C82_unsigned_vs_signed_builtin_refuted"
   ],
   "note": "The full claim is false for negative k, which is converted to uint64_t first; C82_unsigned_vs_signed_builtin_refuted gives the exact wrong result for every negative k. Proved for k >= 0."
  },
  {
   "property": "C83",
   "status": "proved",
   "theorems": [
    "C83_signed_observers"
   ],
   "note": ""
  },
  {
   "property": "C84",
   "status": "proved",
   "theorems": [
    "C84_ring_laws",
    "C84_bit_laws",
    "C84_division_shift_laws",
    "C84_gcd_lcm_law"
   ],
   "note": ""
  },
  {
   "property": "C85",
   "status": "proved",
   "theorems": [
    "C85_factorial",
    "C85_factorial_program_prints"
   ],
   "note": ""
  },
  {
   "property": "C86",
   "status": "proved",
   "theorems": [
    "C86_powm_doubled_precision",
    "C86_double_width_suffices"
   ],
   "note": ""
  },
  {
   "property": "C87",
   "status": "partial",
   "theorems": [
    "C87_powm_mixed_right_iff",
    "C87_powm_mixed_doubled_partial",
    "C87_powm_mixed_doubled_refuted"
   ],
   "note": "The full claim is false of the code for base 0 with a positive power (the result is 1, see C26): C87_powm_mixed_doubled_refuted. Proved for every non-zero base."
  },
  {
   "property": "C88",
   "status": "partial",
   "theorems": [
    "C88_builtin_roundtrip_partial",
    "C88_builtin_roundtrip_refuted",
    "C88_unsigned_roundtrip"
   ],
   "note": "The full claim is false of the code for the minima of the signed types of 32 and 64 bits (the conversion negates them, undefined behaviour): C88_builtin_roundtrip_refuted. Proved for every other value of every type."
  },
  {
   "property": "C89",
   "status": "proved",
   "theorems": [
    "C89_calculator"
   ],
   "note": ""
  },
  {
   "property": "C90",
   "status": "proved",
   "theorems": [
    "C90_signed_calculator"
   ],
   "note": ""
  },
  {
   "property": "C91",
   "status": "proved",
   "theorems": [
    "C91_unsigned_keys",
    "C91_signed_keys"
   ],
   "note": ""
  },
  {
   "property": "C92",
   "status": "proved",
   "theorems": [
    "C92_configuration_independent",
    "C92_signed_configuration_independent"
   ],
   "note": ""
  },
  {
   "property": "C93",
   "status": "proved",
   "theorems": [
    "C93_signed_laws"
   ],
   "note": ""
  },
  {
   "property": "C94",
   "status": "partial",
   "theorems": [
    "C94_signed_chain_exact",
    "C94_chained_insertion_partial",
    "C94_signed_chained_insertion_partial",
    "C94_chained_insertion_refuted"
   ],
   "note": "The full claim is false of the code with std::showbase in hexadecimal and octal: the first insertion clears showbase (see C38), so only the first number gets a prefix: C94_chained_insertion_refuted. Proved: the exact output of any sequence of insertions, which is the claimed one without showbase or in decimal."
  },
  {
   "property": "C95",
   "status": "proved",
   "theorems": [
    "C95_key_agreement"
   ],
   "note": ""
  },
  {
   "property": "C96",
   "status": "proved",
   "theorems": [
    "C96_radix_conversion"
   ],
   "note": ""
  },
  {
   "property": "C97",
   "status": "proved",
   "theorems": [
    "C97_factorize_sound",
    "C97_factorize_finds_smooth_factors"
   ],
   "note": ""
  },
  {
   "property": "C98",
   "status": "proved",
   "theorems": [
    "C98_extended_gcd",
    "C98_bezout_check_passes",
    "C98_lcm_condition_needed"
   ],
   "note": ""
  },
  {
   "property": "C99",
   "status": "proved",
   "theorems": [
    "C99_square_root_check",
    "C99_divide_check",
    "C99_across_zero_check",
    "C99_prime_product"
   ],
   "note": ""
  },
  {
   "property": "C100",
   "status": "proved",
   "theorems": [
    "C100_rsa"
   ],
   "note": ""
  },
  {
   "property": "C101",
   "status": "proved",
   "theorems": [
    "C101_powm_exact",
    "C101_powm_mixed_exact",
    "C101_powm_residue",
    "C101_powm_mixed_residue",
    "C101_powm_wrapping_moduli"
   ],
   "note": ""
  },
  {
   "property": "C102",
   "status": "proved",
   "theorems": [
    "C102_add_u64_exact",
    "C102_mul_ull_iff"
   ],
   "note": ""
  },
  {
   "property": "C103",
   "status": "proved",
   "theorems": [
    "C103_suite",
    "C103_unsigned_sum_and_product",
    "C103_unsigned_builtin_sum_and_product",
    "C103_signed_sum_and_difference",
    "C103_signed_product",
    "C103_signed_builtin_long",
    "C103_signed_builtin_product",
    "C103_bitwise",
    "C103_increments",
    "C103_loops_detect",
    "C103_composite_detects",
    "C103_builtin_detects",
    "C103_signs",
    "C103_bitwise_detects"
   ],
   "note": ""
  },
  {
   "property": "C104",
   "status": "proved",
   "theorems": [
    "C104_unsigned_difference",
    "C104_unsigned_builtin_difference",
    "C104_decrements",
    "C104_not_every_draw"
   ],
   "note": ""
  },
  {
   "property": "C105",
   "status": "proved",
   "theorems": [
    "C105_unsigned_division",
    "C105_unsigned_builtin_division",
    "C105_signed_division",
    "C105_signed_modulo",
    "C105_signed_builtin_division",
    "C105_signed_builtin_modulo"
   ],
   "note": ""
  },
  {
   "property": "C106",
   "status": "proved",
   "theorems": [
    "C106_power_by_modulo",
    "C106_power_by_modulo_mixed",
    "C106_lcm_and_gcd"
   ],
   "note": ""
  },
  {
   "property": "C107",
   "status": "proved",
   "theorems": [
    "C107_count_bits",
    "C107_get_set_bit_and_byte",
    "C107_signed_get_set_bit_and_byte",
    "C107_get_set_block",
    "C107_signed_get_set_block",
    "C107_draws_too_large"
   ],
   "note": ""
  },
  {
   "property": "C108",
   "status": "proved",
   "theorems": [
    "C108_comparisons",
    "C108_parity",
    "C108_square_roots",
    "C108_shifts",
    "C108_comparisons_detect",
    "C108_parity_detects",
    "C108_shift_detects"
   ],
   "note": ""
  },
  {
   "property": "C109",
   "status": "proved",
   "theorems": [
    "C109_powers_of_two",
    "C109_complement",
    "C109_text_of_gmp",
    "C109_text_detects"
   ],
   "note": ""
  },
  {
   "property": "C110",
   "status": "proved",
   "theorems": [
    "C110_signed_integral_cast",
    "C110_unsigned_integral_cast",
    "C110_precision_cast",
    "C110_binary_read",
    "C110_binary_write",
    "C110_cast_detects"
   ],
   "note": ""
  },
  {
   "property": "C111",
   "status": "proved",
   "theorems": [
    "C111_accessors_in_range",
    "C111_accessors_out_of_range"
   ],
   "note": ""
  },
  {
   "property": "C112",
   "status": "proved",
   "theorems": [
    "C112_functions_ignore_the_build",
    "C112_programs_in_range",
    "C112_unsafe_programs",
    "C112_signed_programs",
    "C112_signed_programs_in_range"
   ],
   "note": ""
  },
  {
   "property": "C113",
   "status": "proved",
   "theorems": [
    "C113_digits_dropped",
    "C113_narrow_hexadecimal"
   ],
   "note": ""
  },
  {
   "property": "C114",
   "status": "proved",
   "theorems": [
    "C114_unsigned_kernel",
    "C114_signed_kernel"
   ],
   "note": ""
  },
  {
   "property": "C115",
   "status": "proved",
   "theorems": [
    "C115_integration_program",
    "C115_literal_printed_back"
   ],
   "note": ""
  },
  {
   "property": "C116",
   "status": "proved",
   "theorems": [
    "C116_benchmarks",
    "C116_powm_benchmark",
    "C116_addition_literal",
    "C116_multiplication_literal",
    "C116_powm_literal"
   ],
   "note": ""
  },
  {
   "property": "C117",
   "status": "partial",
   "theorems": [
    "C117_by_zero_partial",
    "C117_by_zero_refuted"
   ],
   "note": "The full claim is false of the code: number % zero (both Aesi) returns the number unchanged, although Aesi.h l.547 and 582 document zero (C117_by_zero_refuted, for every non-zero number). Proved: everything else in the claim."
  },
  {
   "property": "C118",
   "status": "proved",
   "theorems": [
    "C118_undefined",
    "C118_multiplication",
    "C118_division_modulo",
    "C118_multiplication_right_iff"
   ],
   "note": ""
  },
  {
   "property": "C119",
   "status": "proved",
   "theorems": [
    "C119_zero",
    "C119_digits_dropped",
    "C119_narrow_hexadecimal"
   ],
   "note": ""
  },
  {
   "property": "C120",
   "status": "proved",
   "theorems": [
    "C120_prefix",
    "C120_failing_sink",
    "C120_failing_sink_signed",
    "C120_broken_stream"
   ],
   "note": ""
  },
  {
   "property": "C121",
   "status": "partial",
   "theorems": [
    "C121_locale_partial",
    "C121_hexadecimal",
    "C121_locale_refuted"
   ],
   "note": "The full claim is false in hexadecimal: the 32-bit blocks are inserted as integers, so a locale with grouping separates the digits block by block (C121_locale_refuted, for every grouping function and every number below 2^32 it affects; C121_hexadecimal gives the exact text). Proved for every other base, and in hexadecimal when the locale leaves 32-bit numerals alone."
  },
  {
   "property": "C122",
   "status": "partial",
   "theorems": [
    "C122_nothing_lost",
    "C122_alone",
    "C122_signed_partial",
    "C122_signed_refuted"
   ],
   "note": "Modelled is the body with the const of its parameter removed (as written it does not compile when instantiated). Proved for Aeu. The signed version is false: the argument's sign is not exchanged (C122_signed_refuted); proved: the exact result, and the claim when the signs are equal."
  },
  {
   "property": "C123",
   "status": "partial",
   "theorems": [
    "C123_any_base_partial",
    "C123_small_bases",
    "C123_any_base_refuted",
    "C123_degenerate",
    "C123_documented_bases",
    "C123_signed",
    "C123_signed_positive",
    "C123_signed_zero",
    "C123_signed_documented"
   ],
   "note": "The full claim is false of the code: digits of ten and more are printed as ':', ';', ... (C123_any_base_refuted, every base 11..36 but 16 and every number with such a digit), and bases 0 and 1 write past the buffer (C123_degenerate). Proved: the exact outcome for every base 2..255 and every size."
  },
  {
   "property": "C124",
   "status": "partial",
   "theorems": [
    "C124_other_width_partial",
    "C124_other_width_default",
    "C124_other_width_refuted",
    "C124_other_order",
    "C124_other_host"
   ],
   "note": "C124_other_width_partial: little-endian block order only; C124_other_width_refuted: in the default order every non-zero number is multiplied by a power of two when read at a larger width."
  },
  {
   "property": "C125",
   "status": "partial",
   "theorems": [
    "C125_bool_partial",
    "C125_bool_refuted"
   ],
   "note": "The round trip holds for numbers below 2^64; refuted for non-zero multiples of 2^64 (integralCast<bool> is false)."
  },
  {
   "property": "C126",
   "status": "partial",
   "theorems": [
    "C126_u128_partial",
    "C126_signed_partial",
    "C126_u128_refuted"
   ],
   "note": "Holds for values below 2^64 only; C126_u128_refuted for all others."
  },
  {
   "property": "C127",
   "status": "partial",
   "theorems": [
    "C127_read_partial",
    "C127_write_partial",
    "C127_write_refuted"
   ],
   "note": "readBinary can be handled; writeBinary is noexcept, so a throwing stream ends the program (C127_write_refuted)."
  },
  {
   "property": "C128",
   "status": "proved",
   "theorems": [
    "C128_unsigned_initialization",
    "C128_signed_initialization",
    "C128_detects",
    "C128_dashes",
    "C128_different_precisions"
   ],
   "note": ""
  },
  {
   "property": "C129",
   "status": "proved",
   "theorems": [
    "C129_streams",
    "C129_arrays",
    "C129_signed_arrays",
    "C129_array_loop",
    "C129_loop_all"
   ],
   "note": ""
  },
  {
   "property": "C130",
   "status": "proved",
   "theorems": [
    "C130_values_at_all_widths",
    "C130_literals_at_two_widths"
   ],
   "note": ""
  },
  {
   "property": "C131",
   "status": "proved",
   "theorems": [
    "C131_format",
    "C131_format_sequence"
   ],
   "note": ""
  },
  {
   "property": "C132",
   "status": "proved",
   "theorems": [
    "C132_throwing",
    "C132_prefix",
    "C132_showbase"
   ],
   "note": ""
  },
  {
   "property": "C133",
   "status": "proved",
   "theorems": [
    "C133_gmp_every_host",
    "C133_gmp_every_host_signed"
   ],
   "note": ""
  },
  {
   "property": "C134",
   "status": "proved",
   "theorems": [
    "C134_signed_equals_any_gmp",
    "C134_signed_truth",
    "C134_unsigned_truth"
   ],
   "note": ""
  },
  {
   "property": "C135",
   "status": "proved",
   "theorems": [
    "C135_signed_integral_cast"
   ],
   "note": ""
  },
  {
   "property": "C136",
   "status": "proved",
   "theorems": [
    "C136_leftover",
    "C136_leftover_fresh"
   ],
   "note": ""
  },
  {
   "property": "C137",
   "status": "proved",
   "theorems": [
    "C137_narrow_streams",
    "C137_narrow_getString"
   ],
   "note": ""
  },
  {
   "property": "C138",
   "status": "proved",
   "theorems": [
    "C138_search",
    "C138_word",
    "C138_search_word",
    "C138_precision_cast_program",
    "C138_precision_cast2_program",
    "C138_checks_pass"
   ],
   "note": ""
  },
  {
   "property": "C139",
   "status": "partial",
   "theorems": [
    "C139_inverse_by_mod_partial",
    "C139_inverse_by_mod_refuted",
    "C139_inverse_by_sign"
   ],
   "note": "Refuted as stated (C139_inverse_by_mod_refuted: 3 modulo 7 gives 0 at 64 bits); proved: exactly when x % m is the inverse, and that the sign-aware program always returns it."
  },
  {
   "property": "C140",
   "status": "proved",
   "theorems": [
    "C140_miller_rabin",
    "C140_primes_pass",
    "C140_rejected_is_composite"
   ],
   "note": ""
  },
  {
   "property": "C141",
   "status": "proved",
   "theorems": [
    "C141_summary",
    "C141_no_summary"
   ],
   "note": ""
  },
  {
   "property": "C142",
   "status": "proved",
   "theorems": [
    "C142_unsigned_numerals",
    "C142_signed_numerals",
    "C142_without_digits"
   ],
   "note": ""
  },
  {
   "property": "C143",
   "status": "proved",
   "theorems": [
    "C143_unsigned_zero",
    "C143_signed_zero"
   ],
   "note": ""
  },
  {
   "property": "C144",
   "status": "proved",
   "theorems": [
    "C144_additionZero_checks",
    "C144_additionLiteral_checks",
    "C144_subtractionBasic_checks",
    "C144_multiplicationBasic_checks",
    "C144_unsigned_basic",
    "C144_signed_basic",
    "C144_signed_subtraction",
    "C144_addition_lines",
    "C144_unsigned_division_lines",
    "C144_signed_division_lines",
    "C144_unsigned_steps",
    "C144_signed_steps",
    "C144_text_steps"
   ],
   "note": ""
  },
  {
   "property": "C145",
   "status": "proved",
   "theorems": [
    "C145_nothing_lost",
    "C145_nothing_invented",
    "C145_isolated",
    "C145_signed"
   ],
   "note": ""
  },
  {
   "property": "C146",
   "status": "proved",
   "theorems": [
    "C146_whole_programs",
    "C146_from_scratch",
    "C146_portable",
    "C146_never_fault"
   ],
   "note": ""
  },
  {
   "property": "C147",
   "status": "proved",
   "theorems": [
    "C147_signed_widen",
    "C147_unsigned_widen",
    "C147_truncate"
   ],
   "note": ""
  },
  {
   "property": "C148",
   "status": "proved",
   "theorems": [
    "C148_same",
    "C148_arithmetic",
    "C148_bits",
    "C148_observe",
    "C148_compare_cast",
    "C148_number_theory"
   ],
   "note": ""
  },
  {
   "property": "C149",
   "status": "proved",
   "theorems": [
    "C149_same",
    "C149_arithmetic",
    "C149_compare_convert",
    "C149_relations",
    "C149_same_derived"
   ],
   "note": ""
  },
  {
   "property": "C150",
   "status": "proved",
   "theorems": [
    "C150_same",
    "C150_read",
    "C150_write",
    "C150_stream"
   ],
   "note": ""
  },
  {
   "property": "C151",
   "status": "partial",
   "theorems": [
    "C151_mixed_powm_returns_partial",
    "C151_mixed_powm_returns_refuted",
    "C151_long_exponents"
   ],
   "note": ""
  },
  {
   "property": "C152",
   "status": "proved",
   "theorems": [
    "C152_arithmetic",
    "C152_observe",
    "C152_number_theory",
    "C152_same",
    "C152_same_rest"
   ],
   "note": ""
  },
  {
   "property": "C153",
   "status": "partial",
   "theorems": [
    "C153_declared_objects_usable_partial",
    "C153_declared_objects_usable_refuted"
   ],
   "note": ""
  },
  {
   "property": "C154",
   "status": "proved",
   "theorems": [
    "C154_arithmetic",
    "C154_observe",
    "C154_same",
    "C154_same_rest"
   ],
   "note": ""
  },
  {
   "property": "C155",
   "status": "partial",
   "theorems": [
    "C155_divide_writes_outputs_partial",
    "C155_divide_writes_outputs_refuted",
    "C155_half_written",
    "C155_written_outputs_stay"
   ],
   "note": ""
  },
  {
   "property": "C156",
   "status": "proved",
   "theorems": [
    "C156_assigned_programs",
    "C156_assigned_programs_never_fault"
   ],
   "note": ""
  },
  {
   "property": "C157",
   "status": "partial",
   "theorems": [
    "C157_assigned_signed_programs_partial",
    "C157_assigned_signed_programs_refuted",
    "C157_written_programs_never_fault"
   ],
   "note": ""
  },
  {
   "property": "C158",
   "status": "proved",
   "theorems": [
    "C158_machine_programs",
    "C158_from_scratch"
   ],
   "note": ""
  },
  {
   "property": "C159",
   "status": "proved",
   "theorems": [
    "C159_getString",
    "C159_getString_zero",
    "C159_signed_getString",
    "C159_signed_zero",
    "C159_no_garbage",
    "C159_signed_no_garbage",
    "C159_same",
    "C159_streams",
    "C159_construction",
    "C159_round_trip",
    "C159_unassigned"
   ],
   "note": ""
  },
  {
   "property": "C160",
   "status": "partial",
   "theorems": [
    "C160_array_constructor_refuted",
    "C160_printed_array_refuted",
    "C160_array_constructor_partial"
   ],
   "note": ""
  },
  {
   "property": "C161",
   "status": "proved",
   "theorems": [
    "C161_read",
    "C161_read_bad_stream",
    "C161_read_forgets",
    "C161_write",
    "C161_round_trip",
    "C161_unassigned",
    "C161_write_bad_stream",
    "C161_gmp",
    "C161_signed_gmp"
   ],
   "note": ""
  },
  {
   "property": "C162",
   "status": "proved",
   "theorems": [
    "C162_assigned_whole_programs",
    "C162_from_bare_memory",
    "C162_unassigned"
   ],
   "note": ""
  },
  {
   "property": "C163",
   "status": "proved",
   "theorems": [
    "C163_every_schedule",
    "C163_all_finish",
    "C163_no_race",
    "C163_never_fault",
    "C163_same_result"
   ],
   "note": ""
  },
  {
   "property": "C164",
   "status": "partial",
   "theorems": [
    "C164_blocks_partial",
    "C164_copy_partial",
    "C164_one_block_partial",
    "C164_torn_refuted",
    "C164_lost_update_refuted",
    "C164_increments_partial",
    "C164_overshoot_refuted"
   ],
   "note": "False of the code, which takes no locks: C164_torn_refuted, C164_lost_update_refuted, C164_overshoot_refuted. The partial theorems say what a thread can see at worst, block by block, and that with one block copies are whole and k increments add between 1 and k."
  },
  {
   "property": "C165",
   "status": "proved",
   "theorems": [
    "C165_in_bounds",
    "C165_ends",
    "C165_finishes"
   ],
   "note": ""
  },
  {
   "property": "C166",
   "status": "proved",
   "theorems": [
    "C166_every_schedule",
    "C166_all_finish",
    "C166_no_race",
    "C166_never_fault",
    "C166_same_result"
   ],
   "note": ""
  },
  {
   "property": "C167",
   "status": "proved",
   "theorems": [
    "C167_in_bounds",
    "C167_finishes"
   ],
   "note": ""
  },
  {
   "property": "C168",
   "status": "partial",
   "theorems": [
    "C168_parts_partial",
    "C168_torn_refuted",
    "C168_valid_refuted"
   ],
   "note": ""
  },
  {
   "property": "C169",
   "status": "proved",
   "theorems": [
    "C169_unsigned",
    "C169_unsigned_joined",
    "C169_signed",
    "C169_signed_joined",
    "C169_racing"
   ],
   "note": ""
  },
  {
   "property": "C170",
   "status": "proved",
   "theorems": [
    "C170_same_accesses",
    "C170_same_among_threads",
    "C170_bit_tests",
    "C170_others",
    "C170_comparing"
   ],
   "note": ""
  },
  {
   "property": "C171",
   "status": "proved",
   "theorems": [
    "C171_alone",
    "C171_comparing",
    "C171_programs",
    "C171_turns"
   ],
   "note": ""
  },
  {
   "property": "C172",
   "status": "proved",
   "theorems": [
    "C172_same_accesses",
    "C172_same_among_threads",
    "C172_sign_tests",
    "C172_others",
    "C172_comparing",
    "C172_products",
    "C172_products_elsewhere"
   ],
   "note": ""
  },
  {
   "property": "C173",
   "status": "proved",
   "theorems": [
    "C173_alone",
    "C173_comparing",
    "C173_programs",
    "C173_turns"
   ],
   "note": ""
  },
  {
   "property": "C174",
   "status": "proved",
   "theorems": [
    "C174_square",
    "C174_fermat",
    "C174_primes"
   ],
   "note": ""
  },
  {
   "property": "C175",
   "status": "proved",
   "theorems": [
    "C175_crt"
   ],
   "note": ""
  },
  {
   "property": "C176",
   "status": "proved",
   "theorems": [
    "C176_rsa_halves"
   ],
   "note": ""
  },
  {
   "property": "C177",
   "status": "proved",
   "theorems": [
    "C177_floor_division"
   ],
   "note": ""
  },
  {
   "property": "C178",
   "status": "proved",
   "theorems": [
    "C178_binomial"
   ],
   "note": ""
  },
  {
   "property": "C179",
   "status": "proved",
   "theorems": [
    "C179_fibonacci"
   ],
   "note": ""
  },
  {
   "property": "C180",
   "status": "proved",
   "theorems": [
    "C180_inverse",
    "C180_exact_division"
   ],
   "note": ""
  },
  {
   "property": "C181",
   "status": "proved",
   "theorems": [
    "C181_newton_square_root",
    "C181_agrees_with_squareRoot",
    "C181_all_ones_wrong"
   ],
   "note": ""
  }
 ]
}