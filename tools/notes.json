{
 "C06": "The full claim is false of the code: the 64-bit addition of block 0 and the addend loses its carry. Proved: an exact characterisation (iff) of when the result is right; C06_add_u64_refuted is the counterexample.",
 "C08": "The full claim is false of the code for a 64-bit unsigned type that is not uint64_t (unsigned long long on LP64). Proved for uint64_t and, for the other type, for factors up to 2^32; C08_mul_any_u64_refuted is the counterexample.",
 "C17": "The full claim is false of the code: the common low blocks are compared before the excess high blocks. Proved when both values fit both widths or the common parts agree; counterexample in C17_ordering_across_precisions_refuted.",
 "C19": "The full claim is false at the single index N/8 (passes the range check, then aborts or reads outside the object: C19_byte_access_refuted). Proved for every other index.",
 "C25": "The full claim is false for power 0 with modulus 1 (returns 1): C25_powm_refuted. Proved for every other input with a positive modulus whose square fits.",
 "C26": "The full claim is false for base 0 with a positive power (returns 1), and for modulus 1 with base 1 or power 0: C26_powm_mixed_refuted. Proved for every other input with a positive modulus whose square fits.",
 "C46": "The full claim is false for a negative modulus (the sign is inverted; 7 % -3 = -1 while divide gives 1): C46_signed_modulo_refuted. Proved for a positive modulus, and the exact result for a negative one.",
 "C48": "The full claim is false when the left operand does not fit the right operand's width (it is truncated first): counterexample in the _refuted theorem. Proved whenever it fits.",
 "C49": "Also proved: the excluded operand (the most negative 64-bit integer) is undefined behaviour against any negative number.",
 "C50": "The full claim is false for +, - and * (5 - 5 keeps magnitude 5 behind sign zero): C50_zero_has_no_residue_refuted. Proved for /, %, ++, --, divide, squareRoot, precisionCast, power2 and the constructors.",
 "C51": "The full claim is false: a zero remainder keeps the old sign, so 10 % 5 does not compare equal to 0 (_refuted). Proved: the value (with C46's sign rule), and well-formedness when non-zero.",
 "C52": "False exactly for the minimum of 32- and 64-bit signed types (signed overflow, proved in _refuted). Proved for every other value.",
 "C53": "False for |k| > 2^32 where unsigned long long is not uint64_t, for the minimum of int8/int16 (wrong value), and undefined for the minimum of int32/int64 (_refuted). Proved for every other operand.",
 "C54": "False for negative numbers congruent to 2^(w-1) with a 32- or 64-bit target (undefined behaviour, e.g. -2^31 to int32_t; _refuted). Proved for every other value.",
 "C58": "False for zero only: Aesi(Aeu 0) has sign Positive (_refuted). Proved for non-zero values and for unsignedCast.",
 "C59": "False only when the magnitude is a non-zero multiple of 2^M: the result has a sign but magnitude zero (_refuted). Proved otherwise.",
 "C35": "The full claim is false: when the numeral does not fit, the digit loop, the NUL or snprintf'd pieces land outside the buffer (C35_getString_in_bounds_refuted: every non-zero value and every buffer of 2..number-of-digits characters). Proved: an exact characterisation (iff) of when it is safe, for every character type and base, of when it stays inside (wchar_t in base 16 has its own condition, wide_hex_safe).",
 "C38": "The full claim is false: showbase is cleared in bases 8 and 16; hexadecimal output of a number over 32 bits leaves fill '0' and right adjustment (_refuted). Proved: the exact condition (iff) under which the format is preserved, at width() = 0.",
 "C56": "The text written is proved right in every case; the full claim is false because the returned amount omits the '-' (C56_signed_text_refuted). Signed zero in base 8/10/16 proved for buffers of 3 characters and more.",
 "C66": "The full claim is false for 32-bit numbers (integralCast, 64-bit comparison, decimal getString read blocks[1]; _refuted) and 64-bit octal stream output loses the top digit (C66_octal64_refuted). Proved for 64 bits and more.",
 "C67": "The full claim is false: only the first piece of text (prefix, top block or first digit) is padded; setw(5) << 42 prints 6 characters (_refuted). Proved: exactly what is printed, and an iff for when it is the padded number.",
 "C68": "The full claim is false: std::isalnum is called with a negative value when a char below -1 precedes the first alphanumeric character. Proved: exactly those strings are undefined; all others give their value (C68_char_strings_partial).",
 "C69": "The full claim is false for zero (C69_nul_terminated_refuted: for every width and buffer). Proved for every non-zero value.",
 "C70": "The full claim is false (zero into a zero-sized buffer; numerals that do not fit). Proved: an iff for when it stays inside, for every character type and base.",
 "C72": "The full claim is false: only the order of blocks follows the flag, each block is in host order (C72_byte_order_refuted). Proved: the exact place of every byte, and the claim when host and requested order agree.",
 "C73": "The full claim is false on big-endian hosts and with AESI_UNSAFE (_refuted). Proved for little-endian hosts, with index checks or a value that fits.",
 "C74": "The full claim is false for integers outside the range of the type (_refuted). Proved: the exact result for Aeu, and the claim for integers in range.",
 "C64": "The full claim is false of the code: l.1090 zeroes the outputs before the inputs are read (C64_aliased_divide_refuted, C64_signed_aliased_divide_refuted). Proved: right whenever the outputs are distinct from the inputs and from each other (the inputs may be one object), and for each way of sharing the exact set of values for which the result is right.",
 "C78": "The full claim is false for INT_MIN / INT64_MIN operands (signed overflow in the constructor: C78_signed_mixed_operators_refuted) and the sign of k % a is inverted for negative a. Proved for every other operand, with the exact result for negative a.",
 "C80": "The full claim is false when the reduced magnitude is zero: the result is a non-zero sign with magnitude zero (C80_signed_overflow_refuted). Proved: sign and magnitude for every overflow, validity whenever the magnitude is non-zero.",
 "C82": "The full claim is false for negative k, which is converted to uint64_t first; C82_unsigned_vs_signed_builtin_refuted gives the exact wrong result for every negative k. Proved for k >= 0.",
 "C87": "The full claim is false of the code for base 0 with a positive power (the result is 1, see C26): C87_powm_mixed_doubled_refuted. Proved for every non-zero base.",
 "C88": "The full claim is false of the code for the minima of the signed types of 32 and 64 bits (the conversion negates them, undefined behaviour): C88_builtin_roundtrip_refuted. Proved for every other value of every type.",
 "C94": "The full claim is false of the code with std::showbase in hexadecimal and octal: the first insertion clears showbase (see C38), so only the first number gets a prefix: C94_chained_insertion_refuted. Proved: the exact output of any sequence of insertions, which is the claimed one without showbase or in decimal.",
 "C117": "The full claim is false of the code: number % zero (both Aesi) returns the number unchanged, although Aesi.h l.547 and 582 document zero (C117_by_zero_refuted, for every non-zero number). Proved: everything else in the claim.",
 "C121": "The full claim is false in hexadecimal: the 32-bit blocks are inserted as integers, so a locale with grouping separates the digits block by block (C121_locale_refuted, for every grouping function and every number below 2^32 it affects; C121_hexadecimal gives the exact text). Proved for every other base, and in hexadecimal when the locale leaves 32-bit numerals alone.",
 "C122": "Modelled is the body with the const of its parameter removed (as written it does not compile when instantiated). Proved for Aeu. The signed version is false: the argument's sign is not exchanged (C122_signed_refuted); proved: the exact result, and the claim when the signs are equal.",
 "C123": "The full claim is false of the code: digits of ten and more are printed as ':', ';', ... (C123_any_base_refuted, every base 11..36 but 16 and every number with such a digit), and bases 0 and 1 write past the buffer (C123_degenerate). Proved: the exact outcome for every base 2..255 and every size.",
 "C124": "C124_other_width_partial: little-endian block order only; C124_other_width_refuted: in the default order every non-zero number is multiplied by a power of two when read at a larger width.",
 "C125": "The round trip holds for numbers below 2^64; refuted for non-zero multiples of 2^64 (integralCast<bool> is false).",
 "C126": "Holds for values below 2^64 only; C126_u128_refuted for all others.",
 "C127": "readBinary can be handled; writeBinary is noexcept, so a throwing stream ends the program (C127_write_refuted).",
 "C139": "Refuted as stated (C139_inverse_by_mod_refuted: 3 modulo 7 gives 0 at 64 bits); proved: exactly when x % m is the inverse, and that the sign-aware program always returns it.",
 "C164": "False of the code, which takes no locks: C164_torn_refuted, C164_lost_update_refuted, C164_overshoot_refuted. The partial theorems say what a thread can see at worst, block by block, and that with one block copies are whole and k increments add between 1 and k."
}