# Aesi-Multiprecision: formal model and proofs (Rocq / Coq 8.16.1)

## 1. Approach

The library is two header files, `include/AesiMultiprecision/Aeu.h` (unsigned, `Aeu<N>`) and `Aesi.h` (signed,
`Aesi<N>`).  A number of width N = 32n is an array of n 32-bit blocks, least significant first; a signed number is a
sign (Zero, Positive, Negative) and such an array.

* **Vocabulary** (`Base.v`): outcomes, checked arrays, loops, machine words, built-in types, build configuration.
  Every array access goes through `aget`/`aset`, which return the fault `OutOfBounds` for an index outside the object.
  Undefined behaviour and aborts are distinct outcomes (`Err fault`): out-of-bounds access, signed overflow, failed
  `assert`, `<cctype>` argument out of range.  A theorem that says a call yields a value therefore also says that none
  of these happens.  Loops without a static bound take fuel and return `Err OutOfFuel`; theorems give an explicit
  sufficient fuel, so they include termination.
* **Specifications** (`Spec.v`, `TextSpec.v`, `BinSpec.v`, `ProgSpec.v`, `AtomicSpec.v`, `WholeSpec.v`, `WidenSpec.v`, `IniSpec.v`, `IniProgSpec.v`, `IniTextSpec.v`, `IniWholeSpec.v`, `ThrSpec.v`, `SThrSpec.v`, `TraceSpec.v`, `STraceSpec.v`): the integer a block array
  represents (`bval`), validity (`wf n`), `modulus n = 2^N`, the integer a signed object represents (`sval`), numerals
  and streams, byte strings, the meaning of programs in Z, schedules.  No specification file refers to a function of
  the model.
* **Model** (`*Model.v`): one Gallina definition per C++ function with the same loops over the same indices, the same
  32/64-bit wrap-arounds (`mod 2^32`, `mod 2^64`) and the same early exits; each carries a comment with the file and
  lines it models and any simplification.
* **Proofs** (`Lib.v`, `*Arith.v`, `*Facts.v`, `Aeu{Bits,Access,Div}.v`, `Text{Out,Hex,More,Width}.v`,
  `Alias{Facts,Signed,Div}.v`, `Prog{Facts,Total,Signed}.v`) and **property theorems** (`Props*.v`), each followed by
  `Print Assumptions` and accompanied by an `Example` on concrete, non-trivial data that meets the hypotheses.

All theorems quantify over the width n >= 1 (any positive number of blocks; n >= 2 where the code needs 64 bits) and
over all block contents; no theorem bounds sizes, depths or steps.

### Naming
`Cnn_*` proves (part of) property `Cnn`.  A name ending in `_partial` proves less than the English property; the reason
is always that the full property is **false of the code**, and then a theorem ending in `_refuted` proves a
counterexample (usually for every width, sometimes at a concrete one) and the partial theorem gives the exact condition
(an equivalence where possible) under which the property does hold.

## 2. What is modelled

| file | code |
|------|------|
| `AeuModel.v` | Aeu.h l.66-134 (constants, addLine, makeComplement), 167-186 (integral constructor), 280-403 (unary, ++/--, +, -), 415-507 (*), 520-555 (/, %), 566-714 (bitwise, shifts), 727-883 (==, compareTo, <=>), 896-1074 (accessors, counters, swap), 1087-1105 (divide), 1127-1265 (gcd, Bezout gcd, lcm, powm x2, power2, squareRoot), 1475-1497 (integralCast, precisionCast) |
| `AesiModel.v` | Aesi.h l.40-898 and 918-1047: every constructor except text and GMP ones, all operators, comparisons, accessors, swap, inverse, divide, squareRoot, power2, casts, l.1220-1286 built-in left operands |
| `MixModel.v` | Aeu.h l.1593-1656 (built-in left operands), built-in right operands through the converting constructor, l.839-842 (relational operators without `<=>`), rewritten comparisons with the built-in on the left, comparisons of Aeu with signed built-ins |
| `TextModel.v` | Aeu.h l.183-253 (string constructors), 1281-1365 (getString), 1378-1425 (operator<<); Aesi.h l.45-58, 122-145 (string constructors), 1061-1107 (getString), 1119-1128 (operator<<) |
| `BinModel.v` | Aeu.h l.257-267, 753-755 (GMP), 1437-1464 (readBinary, writeBinary); Aesi.h l.158-169, 635-637 (GMP) |
| `MachModel.v` | the part of Aeu.h in `AeuModel.v` once more (except swap, block accessors and the trivial wrappers) with `size_t` modulo 2^64, wrapping loop counters and checked shifts |
| `MachSigned.v`, `MachText.v` | the functions of `AesiModel.v` and `TextModel.v` once more, on top of `MachModel.v` and in the same style |
| `IniModel.v`, `IniSigned.v` | the functions of `AeuModel.v` and `AesiModel.v` once more on memory in which a block (and the sign) may not have been written yet; locals declared without initialiser in the source start unwritten |
| `MachProg.v` | no code: whole client programs run on the functions of `MachModel.v`, `MachSigned.v` and `MachText.v` |
| `IniText.v` | string constructors, `getString` and `operator<<` of both classes once more, on numbers and character arrays whose elements may not have been written yet |
| `IniBin.v` | `readBinary`, `writeBinary` and the GMP constructors once more, on memory that may not have been written yet |
| `ThrMonad.v`, `ThrModel.v` | the functions of Aeu.h that programs of `ProgSpec.v` call (l.127-158, 280-714, 741, 805-862, 896-922, 1004-1052, 1072-1105, 1162-1265) once more as trees of single loads and stores, and a scheduler that interleaves the accesses of several threads |
| `SThrModel.v` | the functions of Aesi.h that programs of `ProgSpec.v` call (l.178-240, 255-604, 619-766, 877-993) as trees of single accesses to signs and blocks, for the same scheduler |
| `ThrWeak.v` | no code: another scheduler for the trees of `ThrModel.v` and `SThrModel.v`, with a picture of memory for each thread, stores others need not see and racing loads that return anything |
| `ThrTrace.v` | no code: the addresses a tree of `ThrModel.v` loads from and stores to, in order |
| `IniWhole.v` | no code: the programs of `WholeModel.v` run on `IniModel.v`, `IniSigned.v`, `IniText.v` and `IniBin.v`, all variables uninitialised at the start |
| `IniProgModel.v` | no code: client programs run on the functions of `IniModel.v` and `IniSigned.v`, variables uninitialised at the start |
| `AliasModel.v` | the mutating operations once more, on a store in which reference operands may be the same object |
| `ProgModel.v` | straight-line code, if and while over calls of the public interface, on that store |
| `UseModel.v` | complete programs using the library: README.md l.72-76, 88-89, 108, 119-120 with their constants generalised, text-in text-out programs, chained insertion, key agreement. The outputs README shows (50!, the 128-bit and 256-bit powm) are derived from the theorems in the examples of `PropsUse.v` |
| `PresModel.v` | ci/integration/presentation.cpp l.15-59 with literals and widths as parameters: `std::endl`, the two programs, and `std::regex_search` for the two expressions used there (literal characters; `\\w+\n` followed by literal characters) as a library contract |
| `SanModel.v` | the two programs of /repo/sanitize with their constants generalised: Pollard's p-1 `factorize` (the floating-point expression of l.19-23 replaced by any list of uint64_t factors) and the signed checks (`extendedGcd`, `checkBezout`, `checkSignedOps`, `primeProduct`); Fermat's little theorem is proved from the standard library in `Fermat.v` |
| `UseModel2.v` | two client programs (modular inverse, Miller-Rabin round), every line one library call |
| `UseModel3.v` | four more client programs (test of squares, Fermat factorisation, Chinese remainders, RSA by halves), every line one library call |
| `UseModel4.v` | one client program over the signed class (division rounding down), every line one library call |
| `UseModel5.v` | two client programs (binomial coefficients, Fibonacci numbers by doubling), every line one library call |
| `UseModel6.v` | one client program (inverses modulo 2^N by Newton's iteration, and exact division by an odd number with them), every line one library call |
| `UseModel7.v` | one client program (square roots by Newton's iteration), every line one library call |
| `SummaryModel.v` | ci/benchmarking/make_summary.py, strings as code points, dicts as entries in insertion order |
| `TestModel4.v` | initialization.cpp Basic and display.cpp Zero with their literals generalised |
| `TestModel5.v` | addition, subtraction, multiplication, division and modulo tests (Basic, and the fixed lines of Increment and Decrement) with their literals generalised |
| `TestModel.v`, `TestModel2.v`, `TestModel3.v` | the randomized tests of /repo/test with the random draws as parameters (test/generation.h, arithmetic/*, bitwise/*, boolean.cpp, number-theory.cpp, binary_io.cpp, casts/*, gmp-integration.cpp, initialization.cpp, display.cpp), and the width-crossing checks of boolean.cpp and initialization.cpp with their literals generalised; GMP results are exact integers |
| `CiModel.v` | /repo/ci/cuda/smoke.cu (the two kernels, launched with one thread), /repo/ci/integration/main.cpp, the loop bodies and literals of /repo/benchmark/*.cpp |
| `AnyBaseModel.v` | getString of both classes for char and any base 0..255, with the narrowing cast of Aeu.h l.1348 |
| `CastModel.v` | the integral constructor and integralCast at `bool` and at 128-bit built-ins; readBinary and writeBinary on streams that may throw |
| `StreamModel.v` | operator<< of both classes once more, on streams with a sink that may refuse characters and a locale with digit grouping |
| `XStreamModel.v` | the same operators on a stream that throws when its sink refuses a character |
| `ExchModel.v` | Aeu.h l.1520-1523, Aesi.h l.1148-1151 (tryAtomicExchange) with the const of the parameter removed (as written it does not compile when instantiated: `atomicExch` on a const object) |
| `MixAtomicModel.v` | tryAtomicSet and tryAtomicExchange of both classes called by several threads on one object (Aeu.h l.1509-1523, Aesi.h l.1137-1151), the const of the parameter removed as in ExchModel |
| `WholeModel.v` | programs over both classes at several widths with conversions, text input, stream output and a binary file (calls of the other models; no code of its own) |
| `AtomicModel.v` | Aeu.h l.1509-1512, Aesi.h l.1137-1140 (tryAtomicSet) as interleavings of atomic steps |

### Modelled by contract (library functions outside the repository)
`isalnum`/`iswalnum` (any classification `alnum`, undefined for char below -1), `snprintf`/`swprintf` with `%x`/`%08x`,
`std::basic_ostream` formatted insertion (fill, width, adjustment, base, showbase, uppercase), `istream::read`,
`ostream::write`, `mpz_sizeinbase`, `mpz_export`, IEEE double division in l.1410, `atomicExch`.

### Not modelled
* The pre-C++20 operator!= (Aeu.h l.838) and the pre-C++20 operators of Aesi.h (l.732-746): do not compile when used.
* `readBinary`/`writeBinary` for wchar_t and `Aesi ^ & |` with a built-in left operand: do not compile when instantiated.
* `getGMP`-style conversions back to GMP are absent from the code; hash/`std` specialisations likewise.
* Compile-time aspects (constexpr evaluation, overload resolution between built-in types other than as stated in the
  comments), exceptions other than those of streams in readBinary, writeBinary (`CastModel.v`) and operator<< (`XStreamModel.v`), the C++ and CUDA memory models themselves (interleavings of atomic steps and of block
  accesses are modelled, and for race-free programs the weak machine of `ThrWeak.v`), performance, `json.load` and `int(float)` in make_summary.py, workflow and CMake files.

### Simplifications
* In `AeuModel.v` and the models built on it `size_t` values are unbounded integers except where the source relies on
  wrap-around (`u64` is then written), and shifts of built-in values are mathematical.  `MachModel.v` removes this for
  the unsigned class, `MachSigned.v` for the signed class and `MachText.v` for texts and streams: `size_t` arithmetic
  modulo 2^64, loops with their own wrapping counters, checked shift counts.  C148-C150 prove the two levels equal for
  every bitness below 2^64 (2^53 for operator<<), the mixed powm with a long exponent excepted; `MachProg.v` (C158)
  runs whole client programs on that level.  The models of tests and atomics stay at the upper level; binary files have
  no counters.
* Function results are returned by value; objects passed by reference are handled by value in `AeuModel.v` and by
  location in `AliasModel.v`; C63 and C61/C62 connect the two.
* In the upper-level models every object has a value from its declaration on.  `IniModel.v` and `IniSigned.v` remove this
  (C152-C155); there a copy reads all blocks of its source, `std::pair` results are written when they are assigned.
  `IniText.v` adds texts and streams (C159, C160), `IniBin.v` binary files and GMP (C161), `IniWhole.v` whole programs (C162); aliasing is not repeated.  `IniProgModel.v` runs client programs on such memory (C156, C157) with
  operands passed by value; that sharing changes nothing is C61-C63.
* In `ThrModel.v` one step of a thread is one load or store of one block, and the steps of all threads form one sequence
  (sequential consistency).  For the programs of C163 and C166, which have no race, this is what C++ guarantees, and C169 proves
  that they mean the same on a machine with no such sequence (`ThrWeak.v`);
  C164, C165, C167 and C168 are about programs with races, which C++ leaves undefined, so they speak of this machine only.  Objects that a function
  declares itself and that it passes to nobody are values there.
* In `SThrModel.v` the sign of an object is block 0 of a cell of its own, with the value of the enumerator modulo 2^32 (0, 1,
  2^32 - 1); any other pattern would read as Zero, and C167 shows that none is ever stored.  Reading or storing a sign is one step.
* In `AeuModel.v` the 32-bit loop counter of l.1210 is assumed not to wrap; `MachModel.v` has it as it is.

## 3. Trusted base

* Coq 8.16.1's kernel, including its bytecode VM (`vm_compute` evaluates examples and counterexamples).
* `Print Assumptions` prints "Closed under the global context" for every theorem listed below: no axioms at all.
  The loaded standard-library files (`Lia`, `Zify` through `ssreflect`'s `ssrunder`) declare the module-type
  parameters `Coq.ssr.ssrunder.Under_rel.*`, which `coqchk` lists as loaded; no theorem uses them.
* The reading of the C++ source into the `*Model.v` files and the library contracts listed above.
* The English-to-Coq reading of the property statements, for which `*Spec.v` are the files to read.

No axioms, parameters, admitted proofs, functors, module types or plugins are used.

## 4. Tests against wrong programs

`seeded/LOG.jsonl` has one line per edited copy of the model (a realistic bug), the claim it breaks, the theorems that
stopped proving and the theorems tightened as a result.

## 5. Plan and result per property

**C01 Unsigned addition is exact modulo 2^N** (proved).  Modelled: addLine; operator+(Aeu,Aeu); operator+=(Aeu,Aeu).  Proof: loop invariant: the processed low blocks and the carry are the sum of the low parts.  Theorems: `C01_addition_exact`.

**C02 Unsigned subtraction and negation are exact modulo 2^N** (proved).  Modelled: makeComplement; operator-; operator-=.  Proof: two's complement invariant for makeComplement, then C01.  Theorems: `C02_subtraction_negation_exact`.

**C03 Increment and decrement step by one modulo 2^N** (proved).  Modelled: operator++; operator--.  Proof: early-exit loop invariant (the blocks passed so far were all 2^32-1, resp. 0).  Theorems: `C03_increment_decrement`.

**C04 Unsigned multiplication is exact modulo 2^N** (proved).  Modelled: operator*(Aeu,Aeu); operator*=(Aeu,Aeu).  Proof: nested invariants: buffer = product of the low part of one factor with the other, modulo 2^N; 64-bit no-overflow bounds.  Theorems: `C04_multiplication_exact`.

**C05 Adding a built-in unsigned of at most 32 bits is exact modulo 2^N** (proved).  Modelled: operator+=(Aeu,Unsigned).  Proof: carry invariant with the addend cast back to its type.  Theorems: `C05_add_small_builtin`, `C05_every_value`.

**C06 Adding a 64-bit built-in unsigned is exact modulo 2^N** (partial).  Modelled: operator+=(Aeu,Unsigned).  Proof: same loop with the 64-bit wrap kept; equivalence for when it is harmless.  Theorems: `C06_add_u64_partial`, `C06_add_u64_refuted`.  The full claim is false of the code: the 64-bit addition of block 0 and the addend loses its carry. Proved: an exact characterisation (iff) of when the result is right; C06_add_u64_refuted is the counterexample.

**C07 Multiplying by a built-in unsigned of at most 32 bits or by uint64_t is exact modulo 2^N** (proved).  Modelled: operator*=(Aeu,Unsigned).  Proof: as C04 with the factor's two halves as digits, and the single-loop variant.  Theorems: `C07_mul_builtin_exact`, `C07_every_value`.

**C08 Multiplying by any 64-bit built-in unsigned type is exact modulo 2^N** (partial).  Modelled: operator*=(Aeu,Unsigned).  Proof: as C07, with the wrap of factor*block + carry kept.  Theorems: `C08_mul_any_u64_partial`, `C08_mul_any_u64_refuted`.  The full claim is false of the code for a 64-bit unsigned type that is not uint64_t (unsigned long long on LP64). Proved for uint64_t and, for the other type, for factors up to 2^32; C08_mul_any_u64_refuted is the counterexample.

**C09 Unsigned division yields the Euclidean quotient and remainder** (proved).  Modelled: divide; operator%; operator/.  Proof: long-division invariant: quotient*divisor + remainder = number >> i, remainder < divisor; shift-in without overflow.  Theorems: `C09_division_euclidean`, `C09_any_output_contents`.

**C10 Unsigned division by zero never faults** (proved).  Modelled: divide.  Proof: the same loop with divisor 0: every comparison succeeds, closed form of the result.  Theorems: `C10_division_by_zero`, `C10_division_by_zero_exact`.

**C11 Bitwise operators act bit by bit** (proved).  Modelled: operator&=; operator^=; operator|=; operator~.  Proof: pointwise block description, then bit extensionality (Z.testbit).  Theorems: `C11_bitwise`.

**C12 Left shift multiplies by a power of two modulo 2^N** (proved).  Modelled: operator<<=.  Proof: descending in-place loop: blocks not yet written still hold the old value; combination of two blocks as a shift; case split on the remainder.  Theorems: `C12_shift_left`.

**C13 Right shift divides by a power of two** (proved).  Modelled: operator>>=.  Proof: ascending in-place loop, same technique.  Theorems: `C13_shift_right`.

**C14 Same-precision comparison is the numeric order** (proved).  Modelled: compareTo; operator<=>; operator==.  Proof: descending invariant: all blocks above i agree.  Theorems: `C14_comparison_numeric`, `C14_equal_values_equal_objects`.

**C15 Comparison with built-in unsigned values is numeric** (proved).  Modelled: compareTo(Unsigned); compareTo(uint64_t); operator==(Aeu,Unsigned).  Proof: filledBlocksNumber characterised as bound on the value.  Theorems: `C15_comparison_builtin`.

**C16 Equality across precisions is numeric equality** (proved).  Modelled: compareTo; operator==(Aeu,Aeu<M>).  Proof: compareTo for two widths: equality iff common blocks agree and excess is zero.  Theorems: `C16_equality_across_precisions`.

**C17 Ordering across precisions is the numeric order** (partial).  Modelled: compareTo.  Proof: same lemma, exact condition, counterexample.  Theorems: `C17_ordering_across_precisions_partial`, `C17_ordering_across_precisions_refuted`, `C17_ordering_across_precisions_exact`, `C17_less_right_iff`.  The full claim is false of the code: the common low blocks are compared before the excess high blocks. Proved when both values fit both widths or the common parts agree; counterexample in C17_ordering_across_precisions_refuted.

**C18 Bit access is exact and confined** (proved).  Modelled: getBit; setBit.  Proof: testbit of lor/land with a one-bit mask.  Theorems: `C18_bit_access`.

**C19 Byte access is exact and confined** (partial).  Modelled: getByte; setByte.  Proof: byte of a block as div/mod.  Theorems: `C19_byte_access_partial`, `C19_byte_access_refuted`.  The full claim is false at the single index N/8 (passes the range check, then aborts or reads outside the object: C19_byte_access_refuted). Proved for every other index.

**C20 Block access is exact and confined** (proved).  Modelled: getBlock; setBlock.  Proof: direct.  Theorems: `C20_block_access`.

**C21 Size and parity observers are exact** (proved).  Modelled: bitCount; byteCount; filledBlocksNumber; isEven; isOdd; isZero.  Proof: early-exit scans; bit_length characterised by 2^(k-1) <= v < 2^k.  Theorems: `C21_observers`.

**C22 gcd returns the greatest common divisor and terminates** (proved).  Modelled: gcd.  Proof: Euclid invariant with gcd preservation; remainder halves every two steps, so 64n+2 iterations suffice.  Theorems: `C22_gcd`.

**C23 Extended gcd satisfies the Bezout identity** (proved).  Modelled: gcd(first,second,bezoutX,bezoutY).  Proof: Bezout invariant modulo 2^N for both coefficient pairs.  Theorems: `C23_bezout`, `C23_bezout_exact`, `C23_modular_inverse`, `C23_any_sharing`.

**C24 lcm is the least common multiple modulo 2^N** (proved).  Modelled: lcm.  Proof: C22, C09, C04.  Theorems: `C24_lcm`, `C24_lcm_exact_when_it_fits`.

**C25 powm is modular exponentiation** (partial).  Modelled: powm(base,power,mod).  Proof: square-and-multiply invariant over the bits of the exponent, no overflow because (m-1)^2 < 2^N.  Theorems: `C25_powm_partial`, `C25_powm_refuted`, `C25_powm_right_iff`.  The full claim is false for power 0 with modulus 1 (returns 1): C25_powm_refuted. Proved for every other input with a positive modulus whose square fits.

**C26 powm with an exponent of another precision is modular exponentiation** (partial).  Modelled: powm<powerBitness>.  Proof: same loop lemma with the exponent's own width.  Theorems: `C26_powm_mixed_partial`, `C26_powm_mixed_refuted`, `C26_powm_mixed_right_iff`.  The full claim is false for base 0 with a positive power (returns 1), and for modulus 1 with base 1 or power 0: C26_powm_mixed_refuted. Proved for every other input with a positive modulus whose square fits.

**C27 power2 is the power of two** (proved).  Modelled: power2.  Proof: C18 on zero.  Theorems: `C27_power2`.

**C28 squareRoot is the floor of the square root and terminates** (proved).  Modelled: squareRoot.  Proof: Newton iteration from above: invariant x >= sqrt; error at least halves, so 16n+3 iterations suffice.  Theorems: `C28_square_root`.

**C29 integralCast returns the low bits** (proved).  Modelled: integralCast.  Proof: direct from the definitions and the lemmas about the called functions.  Theorems: `C29_integral_cast`.

**C30 precisionCast reduces or extends** (proved).  Modelled: precisionCast.  Proof: direct from the definitions and the lemmas about the called functions.  Theorems: `C30_precision_cast`, `C30_precision_roundtrip`.

**C31 Construction from built-in unsigned is exact modulo 2^N** (proved).  Modelled: Aeu(Integral).  Proof: direct from the definitions and the lemmas about the called functions.  Theorems: `C31_construct_unsigned`.

**C32 String construction reads the numeral modulo 2^N** (proved).  Modelled: Aeu(const Char*, size_t).  Proof: digit-list induction (Horner).  Theorems: `C32_string_construction`, `C32_literal_construction`, `C32_numerals`.

**C33 getString writes the numeral in bases 2, 8, 10** (proved).  Modelled: getString.  Proof: digit loop invariant (little-endian digits), in-place reversal lemma.  Theorems: `C33_getString_digits`, `C33_numeral_exists_unique`, `C33_getString_zero`.

**C34 getString<16> writes the hexadecimal numeral** (proved).  Modelled: getString.  Proof: block-wise hexadecimal: fmt_x/fmt_08x concatenation is the numeral.  Theorems: `C34_getString_hex`.

**C35 getString never writes outside the buffer** (partial).  Modelled: getString.  Proof: the same functions on a buffer of arbitrary length: exact set of writes.  Theorems: `C35_getString_in_bounds_partial`, `C35_getString_in_bounds_wide_partial`, `C35_getString_in_bounds_refuted`.  The full claim is false: when the numeral does not fit, the digit loop, the NUL or snprintf'd pieces land outside the buffer (C35_getString_in_bounds_refuted: every non-zero value and every buffer of 2..number-of-digits characters). Proved: an exact characterisation (iff) of when it is safe, for every character type and base, of when it stays inside (wchar_t in base 16 has its own condition, wide_hex_safe).

**C36 Parsing a printed number returns it** (proved).  Modelled: Aeu(const Char*, size_t); getString.  Proof: C32 composed with C33/C34.  Theorems: `C36_text_roundtrip`.

**C37 Stream insertion prints the numeral** (proved).  Modelled: operator<<(ostream,Aeu).  Proof: the characters appended to the stream, per base.  Theorems: `C37_stream_insertion`.

**C38 Stream insertion leaves the stream's format state unchanged** (partial).  Modelled: operator<<(ostream,Aeu).  Proof: direct from the definitions and the lemmas about the called functions.  Theorems: `C38_stream_format_partial`, `C38_stream_format_refuted`.  The full claim is false: showbase is cleared in bases 8 and 16; hexadecimal output of a number over 32 bits leaves fill '0' and right adjustment (_refuted). Proved: the exact condition (iff) under which the format is preserved, at width() = 0.

**C39 Binary write then read is the identity** (proved).  Modelled: readBinary; writeBinary.  Proof: byte-list induction over blocks in either direction.  Theorems: `C39_binary_roundtrip`, `C39_concatenation`.

**C40 Binary read from a short stream zero-fills** (proved).  Modelled: readBinary.  Proof: readBinary on a short stream: closed form.  Theorems: `C40_short_read`, `C40_bad_stream`, `C40_bytes_determine`.

**C41 swap exchanges two numbers** (proved).  Modelled: swap.  Proof: direct from the definitions and the lemmas about the called functions.  Theorems: `C41_swap`, `C41_self_swap`.

**C42 Construction from GMP integers is exact modulo 2^N** (proved).  Modelled: Aesi(const mpz_class&); Aeu(const mpz_class&).  Proof: word list of |z|; setBlock loop.  Theorems: `C42_from_gmp`, `C42_signed_from_gmp`.

**C43 Signed addition and subtraction are exact when the result fits** (proved).  Modelled: operator+=; operator-=.  Proof: case analysis over signs on top of C01, C02, C14.  Theorems: `C43_signed_add_sub`.

**C44 Signed multiplication is exact when the result fits** (proved).  Modelled: operator*=.  Proof: direct from the definitions and the lemmas about the called functions.  Theorems: `C44_signed_mul`.

**C45 Signed division truncates toward zero** (proved).  Modelled: divide; operator/=.  Proof: direct from the definitions and the lemmas about the called functions.  Theorems: `C45_signed_division`.

**C46 Signed modulo is consistent with division** (partial).  Modelled: operator%=.  Proof: direct from the definitions and the lemmas about the called functions.  Theorems: `C46_signed_modulo_partial`, `C46_signed_modulo_refuted`.  The full claim is false for a negative modulus (the sign is inverted; 7 % -3 = -1 while divide gives 1): C46_signed_modulo_refuted. Proved for a positive modulus, and the exact result for a negative one.

**C47 Signed comparison is the numeric order** (proved).  Modelled: compareTo; operator<=>.  Proof: direct from the definitions and the lemmas about the called functions.  Theorems: `C47_signed_comparison`.

**C48 Signed comparison across precisions is numeric** (partial).  Modelled: compareTo<otherBitness>; operator==.  Proof: direct from the definitions and the lemmas about the called functions.  Theorems: `C48_signed_comparison_across_precisions_partial`, `C48_signed_comparison_across_precisions_refuted`, `C48_signed_comparison_across_precisions_exact`.  The full claim is false when the left operand does not fit the right operand's width (it is truncated first): counterexample in the _refuted theorem. Proved whenever it fits.

**C49 Signed comparison with built-in integers is numeric** (proved).  Modelled: compareTo(Integral).  Proof: direct from the definitions and the lemmas about the called functions.  Theorems: `C49_signed_comparison_builtin`, `C49_int64_min_undefined`, `C49_int64_min_elsewhere`.  Also proved: the excluded operand (the most negative 64-bit integer) is undefined behaviour against any negative number.

**C50 A zero signed number has no residual magnitude** (partial).  Modelled: bitCount; isOdd; operator*=; operator-=; unsignedCast.  Proof: direct from the definitions and the lemmas about the called functions.  Theorems: `C50_zero_has_no_residue_partial`, `C50_zero_has_no_residue_refuted`.  The full claim is false for +, - and * (5 - 5 keeps magnitude 5 behind sign zero): C50_zero_has_no_residue_refuted. Proved for /, %, ++, --, divide, squareRoot, precisionCast, power2 and the constructors.

**C51 Signed modulo by a built-in integer agrees with signed modulo** (partial).  Modelled: operator%=(Aesi,Integral).  Proof: direct from the definitions and the lemmas about the called functions.  Theorems: `C51_signed_modulo_builtin_partial`, `C51_signed_modulo_builtin_refuted`.  The full claim is false: a zero remainder keeps the old sign, so 10 % 5 does not compare equal to 0 (_refuted). Proved: the value (with C46's sign rule), and well-formedness when non-zero.

**C52 Signed construction and assignment from built-in integers is exact** (partial).  Modelled: Aesi(Integral).  Proof: direct from the definitions and the lemmas about the called functions.  Theorems: `C52_signed_construct_partial`, `C52_signed_construct_refuted`.  False exactly for the minimum of 32- and 64-bit signed types (signed overflow, proved in _refuted). Proved for every other value.

**C53 Signed multiplication and division by built-in integers is exact** (partial).  Modelled: operator*=(Aesi,Integral); operator/=(Aesi,Integral).  Proof: direct from the definitions and the lemmas about the called functions.  Theorems: `C53_signed_mul_div_builtin_partial`, `C53_signed_mul_div_builtin_refuted`.  False for |k| > 2^32 where unsigned long long is not uint64_t, for the minimum of int8/int16 (wrong value), and undefined for the minimum of int32/int64 (_refuted). Proved for every other operand.

**C54 Signed integralCast returns the value when it fits** (partial).  Modelled: integralCast.  Proof: direct from the definitions and the lemmas about the called functions.  Theorems: `C54_signed_integral_cast_partial`, `C54_signed_integral_cast_refuted`.  False for negative numbers congruent to 2^(w-1) with a 32- or 64-bit target (undefined behaviour, e.g. -2^31 to int32_t; _refuted). Proved for every other value.

**C55 Unary operators and steps on signed numbers are exact** (proved).  Modelled: inverse; operator++; operator-; operator--.  Proof: direct from the definitions and the lemmas about the called functions.  Theorems: `C55_signed_unary`.

**C56 Signed text output is the sign followed by the magnitude numeral** (partial).  Modelled: getString; operator<<(ostream,Aesi).  Proof: direct from the definitions and the lemmas about the called functions.  Theorems: `C56_signed_text_partial`, `C56_signed_text_zero_partial`, `C56_signed_stream`, `C56_signed_text_refuted`.  The text written is proved right in every case; the full claim is false because the returned amount omits the '-' (C56_signed_text_refuted). Signed zero in base 8/10/16 proved for buffers of 3 characters and more.

**C57 Signed string construction: an odd number of dashes negates** (proved).  Modelled: Aesi(const Char*, size_t); traverseDashes.  Proof: direct from the definitions and the lemmas about the called functions.  Theorems: `C57_signed_string_construction`, `C57_signed_literal_construction`.

**C58 Conversion between unsigned and signed preserves the value** (partial).  Modelled: Aesi(const Aeu&); unsignedCast.  Proof: direct from the definitions and the lemmas about the called functions.  Theorems: `C58_unsigned_signed_conversion_partial`, `C58_unsigned_signed_conversion_refuted`.  False for zero only: Aesi(Aeu 0) has sign Positive (_refuted). Proved for non-zero values and for unsignedCast.

**C59 Signed precisionCast preserves the value when it fits** (partial).  Modelled: precisionCast.  Proof: direct from the definitions and the lemmas about the called functions.  Theorems: `C59_signed_precision_cast_partial`, `C59_signed_precision_cast_refuted`.  False only when the magnitude is a non-zero multiple of 2^M: the result has a sign but magnitude zero (_refuted). Proved otherwise.

**C60 Signed squareRoot and power2** (proved).  Modelled: power2; squareRoot.  Proof: direct from the definitions and the lemmas about the called functions.  Theorems: `C60_signed_root_power2`.

**C61 Any sequence of unsigned operations computes in Z/2^N** (proved).  Modelled: divide; operator*=; operator+=; operator-=; operator<<=; operator>>=.  Proof: refinement: one simulation lemma per instruction, then induction over fuel of statements.  Theorems: `C61_unsigned_programs`, `C61_unsigned_programs_never_fault`.

**C62 Any sequence of signed operations without overflow computes in Z** (proved).  Modelled: operator*=; operator+=; operator-=; operator/=.  Proof: same, over signed objects; the specification run is undefined on overflow.  Theorems: `C62_signed_programs`, `C62_signed_programs_never_fault`.

**C63 Compound assignment with itself** (proved).  Modelled: operator*=; operator+=; operator-=; operator^=.  Proof: simulation between store loops and by-value loops with dst = src allowed.  Theorems: `C63_compound_any_sharing`, `C63_self_like_copy`, `C63_signed_any_sharing`, `C63_signed_self_like_copy`.

**C64 divide tolerates outputs that alias inputs** (partial).  Modelled: divide.  Proof: symbolic execution of the store version for each sharing pattern.  Theorems: `C64_divide_distinct_partial`, `C64_output_is_number`, `C64_remainder_is_divisor`, `C64_quotient_is_divisor`, `C64_aliased_divide_refuted`, `C64_signed_divide_distinct_partial`, `C64_signed_aliased_divide_refuted`, `C64_signed_output_is_number`, `C64_signed_remainder_is_divisor`, `C64_signed_quotient_is_divisor`.  The full claim is false of the code: l.1090 zeroes the outputs before the inputs are read (C64_aliased_divide_refuted, C64_signed_aliased_divide_refuted). Proved: right whenever the outputs are distinct from the inputs and from each other (the inputs may be one object), and for each way of sharing the exact set of values for which the result is right.

**C65 tryAtomicSet under concurrency stores only written blocks** (proved).  Modelled: tryAtomicSet.  Proof: invariant indexed by the executed prefix of the schedule: each cell holds what the last thread to reach it wrote.  Theorems: `C65_every_interleaving`, `C65_finished`, `C65_same_value`, `C65_last_alone`, `C65_whole_value_refuted`, `C65_signed_finished`, `C65_signed_same_value`, `C65_signed_wellformed_refuted`.

**C66 Every accepted width supports every operation** (partial).  Modelled: compareTo(uint64_t); integralCast; static_assert(bitness > sizeof(uint64_t)).  Proof: direct from the definitions and the lemmas about the called functions.  Theorems: `C66_every_width_partial`, `C66_every_width_refuted`, `C66_octal64_refuted`.  The full claim is false for 32-bit numbers (integralCast, 64-bit comparison, decimal getString read blocks[1]; _refuted) and 64-bit octal stream output loses the top digit (C66_octal64_refuted). Proved for 64 bits and more.

**C67 A field width pads the whole number** (partial).  Modelled: operator<<(ostream,Aeu).  Proof: direct from the definitions and the lemmas about the called functions.  Theorems: `C67_signed_field_width`, `C67_field_width_partial`, `C67_field_width_refuted`.  The full claim is false: only the first piece of text (prefix, top block or first digit) is padded; setw(5) << 42 prints 6 characters (_refuted). Proved: exactly what is printed, and an iff for when it is the padded number.

**C68 Construction from any char string is defined** (partial).  Modelled: Aeu(const Char*, size_t).  Proof: direct from the definitions and the lemmas about the called functions.  Theorems: `C68_char_strings_partial`, `C68_char_strings_refuted`.  The full claim is false: std::isalnum is called with a negative value when a char below -1 precedes the first alphanumeric character. Proved: exactly those strings are undefined; all others give their value (C68_char_strings_partial).

**C69 getString terminates its output** (partial).  Modelled: getString.  Proof: direct from the definitions and the lemmas about the called functions.  Theorems: `C69_nul_terminated_partial`, `C69_nul_terminated_refuted`.  The full claim is false for zero (C69_nul_terminated_refuted: for every width and buffer). Proved for every non-zero value.

**C70 Signed getString never writes outside the buffer** (partial).  Modelled: getString.  Proof: direct from the definitions and the lemmas about the called functions.  Theorems: `C70_signed_in_bounds_partial`, `C70_signed_in_bounds_wide_partial`, `C70_signed_in_bounds_refuted`.  The full claim is false (zero into a zero-sized buffer; numerals that do not fit). Proved: an iff for when it stays inside, for every character type and base.

**C71 Parsing a printed signed number returns it** (proved).  Modelled: Aesi(const Char*, size_t); getString.  Proof: direct from the definitions and the lemmas about the called functions.  Theorems: `C71_signed_text_roundtrip`.

**C72 The binary format has the requested byte order** (partial).  Modelled: writeBinary.  Proof: direct from the definitions and the lemmas about the called functions.  Theorems: `C72_byte_order_partial`, `C72_byte_order_refuted`.  The full claim is false: only the order of blocks follows the flag, each block is in host order (C72_byte_order_refuted). Proved: the exact place of every byte, and the claim when host and requested order agree.

**C73 Construction from GMP integers on every host and build** (partial).  Modelled: Aeu(const mpz_class&).  Proof: direct from the definitions and the lemmas about the called functions.  Theorems: `C73_gmp_any_host_partial`, `C73_gmp_any_host_refuted`.  The full claim is false on big-endian hosts and with AESI_UNSAFE (_refuted). Proved for little-endian hosts, with index checks or a value that fits.

**C74 Equality with a GMP integer is equality of the integers** (partial).  Modelled: operator==(__gmp_expr).  Proof: direct from the definitions and the lemmas about the called functions.  Theorems: `C74_equals_gmp_partial`, `C74_signed_equals_gmp_partial`, `C74_equals_gmp_refuted`.  The full claim is false for integers outside the range of the type (_refuted). Proved: the exact result for Aeu, and the claim for integers in range.

**C75 A failing sink leaves a prefix of the file** (proved).  Modelled: readBinary; writeBinary.  Proof: direct from the definitions and the lemmas about the called functions.  Theorems: `C75_write_prefix`.

**C76 Extended gcd tolerates outputs that alias inputs** (proved).  Modelled: gcd(first,second,bezoutX,bezoutY).  Proof: simulation: outputs only written after the inputs were last read.  Theorems: `C76_egcd_any_sharing`.

**C77 Unsigned number and unsigned built-in in one expression** (proved).  Modelled: Aeu(Unsigned); friend operator+,-,*,/,%,^,&,| with built-in left operand.  Proof: the temporary represents k (C05's constructor lemma), then the same-width operator lemmas.  Theorems: `C77_unsigned_mixed_operators`.

**C78 Signed number and built-in in one expression** (partial).  Modelled: Aesi(Integral); friend operator+,-,*,/,% with built-in left operand.  Proof: the same with the signed constructor.  Theorems: `C78_signed_mixed_operators_partial`, `C78_signed_mixed_operators_refuted`.  The full claim is false for INT_MIN / INT64_MIN operands (signed overflow in the constructor: C78_signed_mixed_operators_refuted) and the sign of k % a is inverted for negative a. Proved for every other operand, with the exact result for negative a.

**C79 Signed setters change one digit and keep the sign** (proved).  Modelled: setBit; setBlock; setByte.  Proof: unfolding to the unsigned setters.  Theorems: `C79_signed_setters`, `C79_setters_and_zero`.

**C80 Signed overflow wraps the magnitude** (partial).  Modelled: operator*; operator+; operator++; operator-; operator--.  Proof: case analysis on signs and on the direction of the subtraction, wrap lemma of the magnitude addition.  Theorems: `C80_signed_overflow_partial`, `C80_signed_overflow_refuted`.  The full claim is false when the reduced magnitude is zero: the result is a non-zero sign with magnitude zero (C80_signed_overflow_refuted). Proved: sign and magnitude for every overflow, validity whenever the magnitude is non-zero.

**C81 Relational operators, with or without <=>, and with the built-in on the left** (proved).  Modelled: operator<,>,<=,>= (without <=>); operator<=>(Integral); operator<=>(Unsigned).  Proof: compareTo lemma plus the C++20 rewriting of k < a into a <=> k.  Theorems: `C81_relational_operators`, `C81_builtin_on_the_left`, `C81_builtin_on_the_left_signed`.

**C82 Comparing an unsigned number with a signed built-in** (partial).  Modelled: operator<=>(integral); operator==(integral).  Proof: compareTo(uint64_t) lemma on k mod 2^64.  Theorems: `C82_unsigned_vs_signed_builtin_partial`, `C82_unsigned_vs_signed_builtin_refuted`.  The full claim is false for negative k, which is converted to uint64_t first; C82_unsigned_vs_signed_builtin_refuted gives the exact wrong result for every negative k. Proved for k >= 0.

**C83 Observers of a signed number** (proved).  Modelled: bitCount; getBit; isNegative; isPositive; isZero; unsignedCast.  Proof: unfolding to the unsigned observers.  Theorems: `C83_signed_observers`.

**C84 The laws of arithmetic hold between calls** (proved).  Modelled: gcd; lcm; operator*; operator+; operator<<; operator~; power2.  Proof: both sides yield the same integer and valid arrays are determined by their integer.  Theorems: `C84_ring_laws`, `C84_bit_laws`, `C84_division_shift_laws`, `C84_gcd_lcm_law`.

**C85 The README's factorial program prints k!** (proved).  Modelled: operator*=(Unsigned); operator<<(ostream,Aeu).  Proof: loop invariant f = i! mod 2^N over mul_assign_u_correct, then C37.  Theorems: `C85_factorial`, `C85_factorial_program_prints`.

**C86 Modular power after widening both operands** (proved).  Modelled: powm; precisionCast.  Proof: precisionCast_spec keeps the values, then powm_spec.  Theorems: `C86_powm_doubled_precision`, `C86_double_width_suffices`.

**C87 Mixed-precision modular power after widening base and modulus** (partial).  Modelled: powm<powerBitness>; precisionCast.  Proof: as C86 with powm_x_spec; counterexample by computation.  Theorems: `C87_powm_mixed_right_iff`, `C87_powm_mixed_doubled_partial`, `C87_powm_mixed_doubled_refuted`.  The full claim is false of the code for base 0 with a positive power (the result is 1, see C26): C87_powm_mixed_doubled_refuted. Proved for every non-zero base.

**C88 A built-in value survives the way through the library** (partial).  Modelled: Aesi(Integral); integralCast.  Proof: s_from_int_correct and C54 composed.  Theorems: `C88_builtin_roundtrip_partial`, `C88_builtin_roundtrip_refuted`, `C88_unsigned_roundtrip`.  The full claim is false of the code for the minima of the signed types of 32 and 64 bits (the conversion negates them, undefined behaviour): C88_builtin_roundtrip_refuted. Proved for every other value of every type.

**C89 Text in, computation, text out** (proved).  Modelled: Aeu(const std::basic_string<Char>&); operator<<(ostream,Aeu).  Proof: C32 for every text, C61 for the program, C37 for the result.  Theorems: `C89_calculator`.

**C90 Signed text in, computation, text out** (proved).  Modelled: Aesi(const std::basic_string<Char>&); operator<<(ostream,Aesi).  Proof: C57, C62, C56 composed.  Theorems: `C90_signed_calculator`.

**C91 Numbers can be keys of ordered containers** (proved).  Modelled: operator<=>; operator==.  Proof: compareTo decides the order of the integers; bval is injective on valid arrays.  Theorems: `C91_unsigned_keys`, `C91_signed_keys`.

**C92 Results do not depend on the build configuration** (proved).  Modelled: AESI_UNSAFE; operator*=(Unsigned); setBit.  Proof: two instances of C61 (C62) meet in the same integers; bval is injective.  Theorems: `C92_configuration_independent`, `C92_signed_configuration_independent`.

**C93 The laws of signed arithmetic hold between calls** (proved).  Modelled: operator%; operator*; operator+; operator-; operator/; operator==.  Proof: both sides yield the same integer; == decides equality of integers.  Theorems: `C93_signed_laws`.

**C94 Several insertions print the numbers one after the other** (partial).  Modelled: operator<<(ostream,Aeu).  Proof: induction over the list with the complete stream state after one insertion.  Theorems: `C94_signed_chain_exact`, `C94_chained_insertion_partial`, `C94_signed_chained_insertion_partial`, `C94_chained_insertion_refuted`.  The full claim is false of the code with std::showbase in hexadecimal and octal: the first insertion clears showbase (see C38), so only the first number gets a prefix: C94_chained_insertion_refuted. Proved: the exact output of any sequence of insertions, which is the claimed one without showbase or in decimal.

**C95 Key agreement** (proved).  Modelled: powm.  Proof: C25 twice and (b^x mod m)^y = b^(xy) mod m.  Theorems: `C95_key_agreement`.

**C96 Radix conversion** (proved).  Modelled: Aeu(const Char*, size_t); operator<<(ostream,Aeu).  Proof: C32_numerals and C37 composed.  Theorems: `C96_radix_conversion`.

**C97 Pollard's p-1 factorisation returns true factors** (proved).  Modelled: bitCount; factorize; gcd; operator*=(Unsigned); powm<powerBitness>.  Proof: induction over the factor list; Fermat's little theorem for completeness.  Theorems: `C97_factorize_sound`, `C97_factorize_finds_smooth_factors`.

**C98 The signed extended Euclidean algorithm is exact** (proved).  Modelled: checkBezout; extendedGcd; operator%; operator*; operator-; operator/.  Proof: induction over the recursion depth (a*b halves), with the sign pattern and size bounds of the coefficients as invariant.  Theorems: `C98_extended_gcd`, `C98_bezout_check_passes`, `C98_lcm_condition_needed`.

**C99 The self-checks of the signed sanitizer program never fail** (proved).  Modelled: checkSignedOps; divide; power2; primeProduct; squareRoot.  Proof: composition of the signed operation lemmas.  Theorems: `C99_square_root_check`, `C99_divide_check`, `C99_across_zero_check`, `C99_prime_product`.

**C100 RSA decrypts what it encrypts** (proved).  Modelled: gcd(first,second,bezoutX,bezoutY); getBit; operator+; powm.  Proof: egcd_exact gives the inverse, powm_spec twice, Fermat modulo each prime, Gauss.  Theorems: `C100_rsa`.

**C101 powm for every operand** (proved).  Modelled: powm; powm<powerBitness>.  Proof: loop invariant of powm_loop: residues without the size condition, exact values with it or for moduli dividing 2^N.  Theorems: `C101_powm_exact`, `C101_powm_mixed_exact`, `C101_powm_residue`, `C101_powm_mixed_residue`, `C101_powm_wrapping_moduli`.

**C102 64-bit built-in operands: the exact result** (proved).  Modelled: operator*=(Unsigned); operator+=(Unsigned).  Proof: loop invariant that tracks the part lost by each 64-bit wrap; the first loss decides.  Theorems: `C102_add_u64_exact`, `C102_mul_ull_iff`.

**C103 Exactly which draws the addition, multiplication, bitwise and increment tests accept** (proved).  Modelled: TEST; runBitwiseTest; runCompositeTest; runIncrementLoop; runSignedCompositeTest.  Proof: model the test programs with the draws as parameters; each trial reduces to the operation's value theorem compared with the exact integer.  Theorems: `C103_suite`, `C103_unsigned_sum_and_product`, `C103_unsigned_builtin_sum_and_product`, `C103_signed_sum_and_difference`, `C103_signed_product`, `C103_signed_builtin_long`, `C103_signed_builtin_product`, `C103_bitwise`, `C103_increments`, `C103_loops_detect`, `C103_composite_detects`, `C103_builtin_detects`, `C103_signs`, `C103_bitwise_detects`.

**C104 Exactly which draws the subtraction and decrement tests accept** (proved).  Modelled: TEST; operator-=; runDecrementLoop.  Proof: same, comparing the wrapped difference with the absolute value of the exact one.  Theorems: `C104_unsigned_difference`, `C104_unsigned_builtin_difference`, `C104_decrements`, `C104_not_every_draw`.

**C105 Exactly which draws the division and modulo tests accept** (proved).  Modelled: TEST; operator%=(Integral).  Proof: same, over op_div/op_mod and the signed quotient.  Theorems: `C105_unsigned_division`, `C105_unsigned_builtin_division`, `C105_signed_division`, `C105_signed_modulo`, `C105_signed_builtin_division`, `C105_signed_builtin_modulo`.

**C106 Exactly which draws the number-theory tests accept** (proved).  Modelled: TEST; gcd; lcm; powm; powm<powerBitness>.  Proof: same, over powm/gcd/lcm.  Theorems: `C106_power_by_modulo`, `C106_power_by_modulo_mixed`, `C106_lcm_and_gcd`.

**C107 Exactly which draws the bit, byte and block tests accept** (proved).  Modelled: TEST; bitCount; setBlock; testCountBitsBytes.  Proof: loop invariants over the bits, bytes and blocks written so far; the endless loop by induction on fuel.  Theorems: `C107_count_bits`, `C107_get_set_bit_and_byte`, `C107_signed_get_set_bit_and_byte`, `C107_get_set_block`, `C107_signed_get_set_block`, `C107_draws_too_large`.

**C108 Every draw passes the comparison, parity, square-root and shift tests** (proved).  Modelled: TEST; checkComparisons.  Proof: same as C103, over comparison, parity, root and shift theorems.  Theorems: `C108_comparisons`, `C108_parity`, `C108_square_roots`, `C108_shifts`, `C108_comparisons_detect`, `C108_parity_detects`, `C108_shift_detects`.

**C109 Exactly which draws the tests that compare with text accept** (proved).  Modelled: TEST.  Proof: texts specified by numerals; the complement by an invariant on the binary digits written so far.  Theorems: `C109_powers_of_two`, `C109_complement`, `C109_text_of_gmp`, `C109_text_detects`.

**C110 Exactly which draws the cast and binary stream tests accept** (proved).  Modelled: TEST.  Proof: same; binary streams through the round-trip theorems and an invariant on the bytes left.  Theorems: `C110_signed_integral_cast`, `C110_unsigned_integral_cast`, `C110_precision_cast`, `C110_binary_read`, `C110_binary_write`, `C110_cast_detects`.

**C111 AESI_UNSAFE changes nothing inside the number and always stops outside** (proved).  Modelled: getBit; getBlock; getByte; power2; setBit; setBlock; setByte.  Proof: accessor theorems instantiated in two configurations (bval_inj), and the out-of-range branch computed.  Theorems: `C111_accessors_in_range`, `C111_accessors_out_of_range`.

**C112 A program's results do not depend on AESI_UNSAFE or NDEBUG** (proved).  Modelled: divide; gcd; getString; operator+=; operator<<; powm; squareRoot.  Proof: equality of outcomes by induction on every loop with the shape invariant; simulation of runs, program by program, by induction on fuel.  Theorems: `C112_functions_ignore_the_build`, `C112_programs_in_range`, `C112_unsafe_programs`, `C112_signed_programs`, `C112_signed_programs_in_range`.

**C113 getString with an understated size** (proved).  Modelled: getString.  Proof: exact digit-loop and snprintf contracts; an invariant on every array cell over the block loop.  Theorems: `C113_digits_dropped`, `C113_narrow_hexadecimal`.

**C114 The CUDA smoke kernels compute (a + b) * b for any pointers** (proved).  Modelled: operator*=; operator+; signedKernel; unsignedKernel.  Proof: instances of the aliasing-aware operator lemmas (frame and value), case analysis on out = b.  Theorems: `C114_unsigned_kernel`, `C114_signed_kernel`.

**C115 A hexadecimal literal with digit separators is printed back** (proved).  Modelled: Aeu; main; operator<<.  Proof: C32 literal construction, C37 insertion; digits_in ignores separators by induction.  Theorems: `C115_integration_program`, `C115_literal_printed_back`.

**C116 The benchmark bodies compute what they are compared with** (proved).  Modelled: addition_Aesi; division_Aesi; gcd_Aesi; modulo_Aesi; multiplication_Aesi; powm_Aesi; subtraction_Aesi.  Proof: literal values, operator theorems, invariant over the iterations; lower bounds on numerals for the source's literals.  Theorems: `C116_benchmarks`, `C116_powm_benchmark`, `C116_addition_literal`, `C116_multiplication_literal`, `C116_powm_literal`.

**C117 Signed division and modulo by zero return zero** (partial).  Modelled: divide; operator%=; operator/=.  Proof: case analysis on the signs; the documented 'returns zero for the modulo of zero' is false for an Aesi modulus.  Theorems: `C117_by_zero_partial`, `C117_by_zero_refuted`.  The full claim is false of the code: number % zero (both Aesi) returns the number unchanged, although Aesi.h l.547 and 582 document zero (C117_by_zero_refuted, for every non-zero number). Proved: everything else in the claim.

**C118 Signed number times, divided by or modulo a built-in: every operand** (proved).  Modelled: operator%=; operator*=; operator/=.  Proof: exact effect of the operand preparation per type, then C102 and the division theorems.  Theorems: `C118_undefined`, `C118_multiplication`, `C118_division_modulo`, `C118_multiplication_right_iff`.

**C119 Signed getString at every size** (proved).  Modelled: getString.  Proof: case analysis for zero; C113 behind the dash.  Theorems: `C119_zero`, `C119_digits_dropped`, `C119_narrow_hexadecimal`.

**C120 A sink that refuses characters gets a prefix of the text** (proved).  Modelled: operator<<.  Proof: StreamModel: the operator once more on streams with a bounded sink; a simulation relation (bounded output is a prefix of the unbounded one) preserved by every insertion and manipulator.  Theorems: `C120_prefix`, `C120_failing_sink`, `C120_failing_sink_signed`, `C120_broken_stream`.

**C121 Stream output does not depend on the locale's digit grouping** (partial).  Modelled: operator<<.  Proof: StreamModel with an arbitrary grouping function applied to inserted integers; exact output in hexadecimal by induction over the blocks.  Theorems: `C121_locale_partial`, `C121_hexadecimal`, `C121_locale_refuted`.  The full claim is false in hexadecimal: the 32-bit blocks are inserted as integers, so a locale with grouping separates the digits block by block (C121_locale_refuted, for every grouping function and every number below 2^32 it affects; C121_hexadecimal gives the exact text). Proved for every other base, and in hexadecimal when the locale leaves 32-bit numerals alone.

**C122 Concurrent tryAtomicExchange calls lose no block** (partial).  Modelled: tryAtomicExchange.  Proof: ExchModel: three memory accesses per block; invariant: blocks in memory and in flight are a permutation of the initial ones.  Theorems: `C122_nothing_lost`, `C122_alone`, `C122_signed_partial`, `C122_signed_refuted`.  Modelled is the body with the const of its parameter removed (as written it does not compile when instantiated). Proved for Aeu. The signed version is false: the argument's sign is not exchanged (C122_signed_refuted); proved: the exact result, and the claim when the signs are equal.

**C123 getString in every base it accepts** (partial).  Modelled: getString.  Proof: AnyBaseModel.v models getString<base, ., char> with the narrowing cast of l.1348 for any base. One theorem gives the exact outcome for bases 2..255 other than 16 and every stated size (prefix, low digits that fit, NUL or out-of-bounds write); corollaries: the numeral for bases up to 10, agreement with the getString of C33-C35 for the documented bases, negative numbers; the letters claim is refuted for every base 11..36 other than 16 and every number with a digit above 9; bases 0 and 1 always write outside the buffer..  Theorems: `C123_any_base_partial`, `C123_small_bases`, `C123_any_base_refuted`, `C123_degenerate`, `C123_documented_bases`, `C123_signed`, `C123_signed_positive`, `C123_signed_zero`, `C123_signed_documented`.  The full claim is false of the code: digits of ten and more are printed as ':', ';', ... (C123_any_base_refuted, every base 11..36 but 16 and every number with such a digit), and bases 0 and 1 write past the buffer (C123_degenerate). Proved: the exact outcome for every base 2..255 and every size.

**C124 A binary file read at another width, block order or host** (partial).  Modelled: readBinary; writeBinary.  Proof: BinModel's readBinary and writeBinary are composed at two widths, two orders and two hosts; byte position arithmetic gives the exact result in each case. The English claim holds for the little-endian block order and is refuted for the default (big-endian) one..  Theorems: `C124_other_width_partial`, `C124_other_width_default`, `C124_other_width_refuted`, `C124_other_order`, `C124_other_host`.  C124_other_width_partial: little-endian block order only; C124_other_width_refuted: in the default order every non-zero number is multiplied by a power of two when read at a larger width.

**C125 Conversion to and from bool** (partial).  Modelled: Aeu(Unsigned value); integralCast.  Proof: CastModel instantiates the Unsigned constructor and integralCast loops at bool (Aeu.h l.167-175, l.1475-1478); refuted for non-zero multiples of 2^64..  Theorems: `C125_bool_partial`, `C125_bool_refuted`.  The round trip holds for numbers below 2^64; refuted for non-zero multiples of 2^64 (integralCast<bool> is false).

**C126 Conversion to and from 128-bit built-ins** (partial).  Modelled: Aesi(Integral value); Aeu(Unsigned value); integralCast.  Proof: CastModel instantiates the same templates at (unsigned) __int128, whose intermediate uint64_t keeps 64 bits only; exact result proved, English claim refuted from 2^64 up..  Theorems: `C126_u128_partial`, `C126_signed_partial`, `C126_u128_refuted`.  Holds for values below 2^64 only; C126_u128_refuted for all others.

**C127 A failing stream can be handled by the program** (partial).  Modelled: readBinary; writeBinary.  Proof: CastModel gives streams with an exception mask; writeBinary is declared noexcept (std::terminate), readBinary is not. Without throwing, the model is proved equal to BinModel's..  Theorems: `C127_read_partial`, `C127_write_partial`, `C127_write_refuted`.  readBinary can be handled; writeBinary is noexcept, so a throwing stream ends the program (C127_write_refuted).

**C128 Every draw passes the initialization tests** (proved).  Modelled: Aesi(std::basic_string_view); Aeu(std::basic_string_view); testInitDecimal.  Proof: TestModel3's initTrial, s_initTrial, dashesTrial, precisionTrial; the test's binary conversion is proved to produce the numeral (empty text for 0), then C32, C57, C74..  Theorems: `C128_unsigned_initialization`, `C128_signed_initialization`, `C128_detects`, `C128_dashes`, `C128_different_precisions`.

**C129 Exactly which draws the display tests accept** (proved).  Modelled: getString; gmpToBinaryString; operator<<.  Proof: TestModel3's streamTrial, bufferTrial and signed versions, with the static array as an argument and string_view as a function of the array; exact verdict for every draw, and the loop over the static array by induction..  Theorems: `C129_streams`, `C129_arrays`, `C129_signed_arrays`, `C129_array_loop`, `C129_loop_all`.

**C130 The cross-precision comparison tests hold for all values and widths** (proved).  Modelled: checkPrecisionCrossComparisons; operator<=>.  Proof: TestModel3's crossTrial and orderTrial for any two widths, from C15-C17, C48, C49, C32, C57..  Theorems: `C130_values_at_all_widths`, `C130_literals_at_two_widths`.

**C131 What stream insertion leaves in the stream's format** (proved).  Modelled: operator<<.  Proof: On StreamModel (sinks that fail, locales, widths): the format fields are followed through the digit and block loops; then induction over the sequence of numbers..  Theorems: `C131_format`, `C131_format_sequence`.

**C132 Inserting into a stream that throws** (proved).  Modelled: operator<<.  Proof: XStreamModel: the operators with an early exit at the first refused character; related to the run without exceptions (simulation), then C120..  Theorems: `C132_throwing`, `C132_prefix`, `C132_showbase`.

**C133 Construction from GMP integers on every host, exactly** (proved).  Modelled: Aesi(const mpz_class&); Aeu(const mpz_class&).  Proof: BinModel's from_mpz for both byte orders: the exported words byte by byte; the loop of setBlock up to the first index out of range..  Theorems: `C133_gmp_every_host`, `C133_gmp_every_host_signed`.

**C134 Exactly when comparing with a GMP integer tells the truth** (proved).  Modelled: operator==.  Proof: The exact result of == for every integer from C133's value and the signed comparison, then compared with integer equality..  Theorems: `C134_signed_equals_any_gmp`, `C134_signed_truth`, `C134_unsigned_truth`.

**C135 Signed integralCast of every value to every built-in type** (proved).  Modelled: integralCast.  Proof: AesiModel's s_integralCast: closed form by cases on sign and type; uniqueness of the residue in the range of the type..  Theorems: `C135_signed_integral_cast`.

**C136 What a zero leaves behind** (proved).  Modelled: bitCount; isOdd; operator*=; operator+=; operator-=.  Proof: AesiModel's +=, -=, *= in the cases that give zero: the result is the left operand with the sign replaced; observers of the magnitude by C18-C21..  Theorems: `C136_leftover`, `C136_leftover_fresh`.

**C137 Exactly which texts of a 32-bit number work** (proved).  Modelled: getString; integralCast; operator<<.  Proof: TextModel at width 1: the first digit already calls integralCast (C66); hexadecimal and zero do not..  Theorems: `C137_narrow_streams`, `C137_narrow_getString`.

**C138 The README's two precision-cast programs print the exact results** (proved).  Modelled: PrecisionCast; PrecisionCast2; operator<<; powm; precisionCast.  Proof: PresModel: both test bodies function by function, including the regex_search contract for these expressions; C32 for the literals, C86/C87 and the product for the values, exact stream state after each insertion; the expressions' matches characterised as lists..  Theorems: `C138_search`, `C138_word`, `C138_search_word`, `C138_precision_cast_program`, `C138_precision_cast2_program`, `C138_checks_pass`.

**C139 The Bezout coefficient gives the modular inverse** (partial).  Modelled: gcd; getBit; operator%; operator-.  Proof: UseModel2: the two programs over gcd_ext, op_mod, getBit, op_neg, op_sub; C23_bezout_exact bounds the coefficient, the rest is modular arithmetic; counterexample 3 mod 7..  Theorems: `C139_inverse_by_mod_partial`, `C139_inverse_by_mod_refuted`, `C139_inverse_by_sign`.  Refuted as stated (C139_inverse_by_mod_refuted: 3 modulo 7 gives 0 at 64 bits); proved: exactly when x % m is the inverse, and that the sign-aware program always returns it.

**C140 A Miller-Rabin round never rejects a prime** (proved).  Modelled: isEven; operator%; operator*; operator==; operator>>=; powm.  Proof: UseModel2: strip_twos and miller_rabin over the library calls; loop invariants with powm_spec and exact products; Fermat's little theorem (Fermat.v) and prime_mult for primes..  Theorems: `C140_miller_rabin`, `C140_primes_pass`, `C140_rejected_is_composite`.

**C141 The benchmark summary shows the last time of every operation and library** (proved).  Modelled: make_summary.  Proof: SummaryModel: the script function by function (strings as code points, dicts as association lists); induction from the right over the results; specification by first and last occurrences..  Theorems: `C141_summary`, `C141_no_summary`.

**C142 The literal tests of construction hold for all literals** (proved).  Modelled: Aesi; Aeu; Basic; operator==.  Proof: TestModel4: the four forms of the checks with text and value generalised; C32/C57 for the value of a text, C15/C49 for the comparison..  Theorems: `C142_unsigned_numerals`, `C142_signed_numerals`, `C142_without_digits`.

**C143 Zero is displayed as 0 by every way of printing** (proved).  Modelled: Zero; getString; operator<<.  Proof: TestModel4: the bodies with the subtracted value, base, size generalised; exact insertion of zero, C33/C119 for getString..  Theorems: `C143_unsigned_zero`, `C143_signed_zero`.

**C144 The fixed-value arithmetic tests hold for all values** (proved).  Modelled: Basic; operator%=; operator+=.  Proof: TestModel5: the test bodies over a record of the operations, with the literals generalised; exact meaning of a pass for any operations, then one proof for operations that compute correctly, instantiated for both classes..  Theorems: `C144_additionZero_checks`, `C144_additionLiteral_checks`, `C144_subtractionBasic_checks`, `C144_multiplicationBasic_checks`, `C144_unsigned_basic`, `C144_signed_basic`, `C144_signed_subtraction`, `C144_addition_lines`, `C144_unsigned_division_lines`, `C144_signed_division_lines`, `C144_unsigned_steps`, `C144_signed_steps`, `C144_text_steps`.

**C145 Sets and exchanges at the same time** (proved).  Modelled: tryAtomicExchange; tryAtomicSet.  Proof: MixAtomicModel: a schedule over threads that are each in a set or an exchange, every block access one step. A simulation turns it into an exchange-only run (a set is an exchange whose old block is dropped), so the permutation invariant of C122 carries over; isolated calls by running the schedule's tail..  Theorems: `C145_nothing_lost`, `C145_nothing_invented`, `C145_isolated`, `C145_signed`.

**C146 Whole programs: both classes, several widths, texts, a stream and a file** (proved).  Modelled: integralCast; operator<<; powm; precisionCast; readBinary; unsignedCast; writeBinary.  Proof: WholeSpec: the meaning of whole programs on integers, a list of printed pieces and a list of file records; WholeModel: the same programs over the modelled calls, variables stored by class and width. A simulation relation preserved by every instruction (from the single-operation theorems), lifted to statements by induction on fuel; uniqueness of numerals gives a single text..  Theorems: `C146_whole_programs`, `C146_from_scratch`, `C146_portable`, `C146_never_fault`.

**C147 Changing the width of a program** (proved).  Modelled: operator*=; operator+=; operator/=; operator~; precisionCast.  Proof: WidenSpec: an overflow-checking reading and a syntactic class of low-bit programs. Monotonicity of the readings in the width, then C61/C62 at both widths; for truncation a relation between the two readings preserved step by step..  Theorems: `C147_signed_widen`, `C147_unsigned_widen`, `C147_truncate`.

**C148 Machine counters, indices and shift counts** (proved).  Modelled: bitCount; divide; operator*=; operator<<=; operator>>=; powm; precisionCast; setByte; squareRoot.  Proof: MachModel: the unsigned class with size_t arithmetic modulo 2^64, C++ loops with wrapping counters and faulting shifts. Each machine function is proved equal to the one of AeuModel for every bitness below 2^64 (loop by loop, by induction on the counter), so the specifications carry over..  Theorems: `C148_same`, `C148_arithmetic`, `C148_bits`, `C148_observe`, `C148_compare_cast`, `C148_number_theory`.

**C149 Machine counters under the signed class** (proved).  Modelled: compareTo; divide; operator%=; operator*=; operator+=; operator-=; operator/=; precisionCast; squareRoot.  Proof: MachSigned: AesiModel on top of MachModel. Each function is proved equal to its AesiModel counterpart from the equalities of C148, so the specifications of C43-C60 carry over..  Theorems: `C149_same`, `C149_arithmetic`, `C149_compare_convert`, `C149_relations`, `C149_same_derived`.

**C150 Machine counters in texts** (proved).  Modelled: Aesi; Aeu; getString; operator<<.  Proof: MachText: TextModel with C++ loops on machine variables. Each loop is proved equal to the counted loop of TextModel by induction on the remaining distance to its bound (the reversal loop tests i * 2, the stream loop counts down); the buffer size computed in floating point is bounded by the bitness. The specifications of C32-C37 and C57 carry over..  Theorems: `C150_same`, `C150_read`, `C150_write`, `C150_stream`.

**C151 powm returns for every exponent of another precision** (partial).  Modelled: powm.  Proof: MachModel w_powm_x, whose loop has the 32-bit counter of l.1210. Equal to the unbounded loop for every exponent of at most 2^32 - 32 bits. Refuted for every longer exponent (these exist exactly at widths of at least 2^32 bits) with a base other than 0 and 1: an invariant shows that the loop condition stays true, so no number of iterations is enough..  Theorems: `C151_mixed_powm_returns_partial`, `C151_mixed_powm_returns_refuted`, `C151_long_exponents`.

**C152 No unsigned operation reads memory nobody wrote** (proved).  Modelled: Aeu(); divide; gcd; operator~; squareRoot.  Proof: IniModel: blocks are cells that are written or not; reading an unwritten one is the fault Indeterminate; every function of AeuModel once more with its locals declared as the source declares them. Simulation with AeuModel function by function (IniFacts), then the value theorems of AeuModel give values and completeness..  Theorems: `C152_arithmetic`, `C152_observe`, `C152_number_theory`, `C152_same`, `C152_same_rest`.

**C153 A declared unsigned object is usable whatever its initialiser** (partial).  Modelled: Aeu(); setBit; setBlock; setByte.  Proof: Same model. With {} the object is zero; writing it block by block makes it complete. Refuted without an initialiser: every operation that looks at the object, setBit and setByte included, faults, at every width..  Theorems: `C153_declared_objects_usable_partial`, `C153_declared_objects_usable_refuted`.

**C154 No signed operation reads memory nobody wrote** (proved).  Modelled: Aesi(); divide; precisionCast.  Proof: IniSigned: sign and blocks as cells, on top of IniModel; simulation with AesiModel function by function..  Theorems: `C154_arithmetic`, `C154_observe`, `C154_same`, `C154_same_rest`.

**C155 Signed divide leaves its outputs completely written** (partial).  Modelled: divide; operator+=; operator==.  Proof: Complete for operands other than zero. Refuted for every zero operand: only the signs are written. Further theorems say which operations such a half-written object survives and that outputs written before stay written..  Theorems: `C155_divide_writes_outputs_partial`, `C155_divide_writes_outputs_refuted`, `C155_half_written`, `C155_written_outputs_stay`.

**C156 Assign-before-use unsigned programs never read memory nobody wrote** (proved).  Modelled: blocksLine; constexpr Aeu() noexcept = default; divide.  Proof: IniProgSpec: the definite-assignment check as a function of the program text alone. IniProgModel: the programs of ProgSpec run on memory with unwritten blocks. Invariant: every variable the check counts as assigned is completely written and has the integer's value; unassigned variables are unconstrained..  Theorems: `C156_assigned_programs`, `C156_assigned_programs_never_fault`.

**C157 Assign-before-use signed programs never read memory nobody wrote** (partial).  Modelled: constexpr Aesi() noexcept = default; divide.  Proof: Same over IniSigned. Holds (values, and never a fault) when the outputs of divide count as variables that must be assigned before. Refuted without that, at every width and in every build: divide with a zero dividend writes only the signs, so a copy of the quotient reads unwritten blocks..  Theorems: `C157_assigned_signed_programs_partial`, `C157_assigned_signed_programs_refuted`, `C157_written_programs_never_fault`.

**C158 Whole programs on machine counters, indices and shift counts** (proved).  Modelled: class Aesi; class Aeu.  Proof: MachProg: the instructions of WholeSpec executed by the functions of MachModel, MachSigned and MachText. Simulation with the integer reading of WholeSpec: unsigned and signed instructions through the function equalities of C148/C149 and the value theorems, texts through C150, the rest through C146..  Theorems: `C158_machine_programs`, `C158_from_scratch`.

**C159 Text output and input on memory nobody initialised** (proved).  Modelled: Aesi(const Char* ptr, std::size_t size); Aeu(const Char* data, std::size_t size); getString; operator<<.  Proof: IniText: the text functions of both classes on cells (numbers, input characters and output array may be unwritten). Relational simulation with TextModel (`follows`: each element is written with the definite value or untouched in both); instantiated at two different definite contents it gives the exact memory after the call. Reads of the array are shown to hit only characters written before..  Theorems: `C159_getString`, `C159_getString_zero`, `C159_signed_getString`, `C159_signed_zero`, `C159_no_garbage`, `C159_signed_no_garbage`, `C159_same`, `C159_streams`, `C159_construction`, `C159_round_trip`, `C159_unassigned`.

**C160 A printed character array can be passed to the array constructor** (partial).  Modelled: Aesi(const Char (&literal)[arrayLength]); Aeu(const Char (&literal)[arrayLength]); getString.  Proof: Refuted in general: any array with an unwritten character makes the array constructor read it (C160_array_constructor_refuted, C160_printed_array_refuted). Proved: if the rest of the array is written, the number comes back with the digits found there appended (C160_array_constructor_partial); it is the number itself when there are none..  Theorems: `C160_array_constructor_refuted`, `C160_printed_array_refuted`, `C160_array_constructor_partial`.

**C161 Binary files and GMP integers on memory nobody initialised** (proved).  Modelled: Aesi(const mpz_class& number); Aeu(const mpz_class& value); readBinary; writeBinary.  Proof: IniBin: readBinary, writeBinary and the GMP constructors on cells; a block's old contents matter to the read only if fewer than four bytes arrive. Simulation with BinModel by the loop-simulation lemmas, then C39, C40, C72, C73, C42; the unassigned case by induction on the loop up to the first unwritten block..  Theorems: `C161_read`, `C161_read_bad_stream`, `C161_read_forgets`, `C161_write`, `C161_round_trip`, `C161_unassigned`, `C161_write_bad_stream`, `C161_gmp`, `C161_signed_gmp`.

**C162 Whole programs that assign before use never read uninitialised memory** (proved).  Modelled: Aesi() noexcept = default; Aeu() noexcept = default; integralCast; operator<<; precisionCast; readBinary; unsignedCast.  Proof: IniWhole: the instructions of WholeModel on cells. The compiler's definite-assignment check is a function on programs over typed variables (IniWholeSpec). Induction over the run with the invariant that all assigned variables are completely written and stand for the integer world of WholeSpec; each call by its simulation lemma and the value theorem of its own property..  Theorems: `C162_assigned_whole_programs`, `C162_from_bare_memory`, `C162_unassigned`.

**C163 Threads that share only what none of them assigns are independent** (proved).  Modelled: compareTo; divide; gcd; operator*=; operator-=; powm.  Proof: ThrMonad/ThrModel: every call as a tree of loads and stores of single blocks, threads as such trees plus their local objects, a schedule as any list of thread numbers. ThrFacts, ThrStore, ThrExec: run alone, a tree computes what the functions of AliasModel and ProgModel compute. ThrFoot: which objects a tree touches; induction over the schedule shows that each thread is where it would be had it run alone for as many steps. With C61 the values follow..  Theorems: `C163_every_schedule`, `C163_all_finish`, `C163_no_race`, `C163_never_fault`, `C163_same_result`.

**C164 What a thread sees of an object that another thread is assigning** (partial).  Modelled: operator++(); operator=(const Aeu& other).  Proof: Full claim refuted for two blocks (torn copy), for ++ (lost update) and, two blocks wide, for the bound on what ++ may add (both threads carry). Proved: for programs that only copy, an invariant over the schedule says that every block is a block with the same index of an object from which there is a chain of copies; for one finished copy, a second invariant on its program counter says the sources are the values assigned to the original; with one block the copy is one of these values, and k concurrent ++ add between 1 and k..  Theorems: `C164_blocks_partial`, `C164_copy_partial`, `C164_one_block_partial`, `C164_torn_refuted`, `C164_lost_update_refuted`, `C164_increments_partial`, `C164_overshoot_refuted`.  False of the code, which takes no locks: C164_torn_refuted, C164_lost_update_refuted, C164_overshoot_refuted. The partial theorems say what a thread can see at worst, block by block, and that with one block copies are whole and k increments add between 1 and k.

**C165 Races stay inside the objects** (proved).  Modelled: bitCount; divide; filledBlocksNumber; operator*=; operator<<=; setBit.  Proof: ThrSafe: a predicate on trees that quantifies over every block-sized value a load might return, proved for each function with loop rules; induction over the schedule. Termination by induction on the tree along any schedule that is fair to the thread..  Theorems: `C165_in_bounds`, `C165_ends`, `C165_finishes`.

**C166 Threads that share only signed objects none of them assigns are independent** (proved).  Modelled: compareTo; divide; operator*=; operator+=; operator=(const Aesi& other).  Proof: SThrModel: every call of the signed class as a tree of accesses to signs and blocks, over the scheduler of ThrModel. SThrFacts, SThrExec: run alone, a tree computes what ProgModel computes. SThrFoot: which objects a tree touches; the interleaving lemma of ThrFoot, over cells (sign and magnitude of an object). With C62 the values follow..  Theorems: `C166_every_schedule`, `C166_all_finish`, `C166_no_race`, `C166_never_fault`, `C166_same_result`.

**C167 Races on signed objects stay inside the objects** (proved).  Modelled: divide; inverse; operator-=; operator/=.  Proof: SThrSafe: as C165, for the signed functions, over every sign and block a load might return; SThrSign: a predicate on trees that says which signs they store; induction over the schedule..  Theorems: `C167_in_bounds`, `C167_finishes`.

**C168 What a thread sees of a signed object that another thread is assigning** (partial).  Modelled: isNegative; operator=(const Aesi& other).  Proof: Full claim refuted, also for one block: sign of one value with the magnitude of another, and a zero with the sign Negative. Proved: for programs that only copy, an invariant over the schedule says that every sign and every block is the one of an object from which there is a chain of copies..  Theorems: `C168_parts_partial`, `C168_torn_refuted`, `C168_valid_refuted`.

**C169 Race-free threads do not depend on the order in which memory shows their accesses** (proved).  Modelled: compareTo; divide; operator*=; operator+=; operator=(const Aesi& other).  Proof: ThrWeak.v: the trees of accesses of ThrModel.v and SThrModel.v under a scheduler that gives every thread a picture of its own of the shared objects, lets nobody see the stores of others, and lets a load of an object that another thread stores into anywhere in the execution return any number. By induction over the moves, first that a thread stays within its footprint (ThrFoot.v, SThrFoot.v) whatever its loads return, so no load races; then that each thread has the picture and state of running alone; the value of that comes from C163 and C166 (PropsThrW.v). That the rule is needed: C169_racing..  Theorems: `C169_unsigned`, `C169_unsigned_joined`, `C169_signed`, `C169_signed_joined`, `C169_racing`.

**C170 Which operations touch the same memory whatever the numbers are** (proved).  Modelled: compareTo; operator*=; operator+=; operator-=; operator<<=; setBit; swap.  Proof: ThrTrace.v: the list of accesses of a tree of ThrModel.v, run alone on a store or with its loads answered by any numbers. By induction over the trees: for the operations of TraceSpec.v there is one list of addresses that every run has (ThrSteady.v), for all answers; that the answers of a store are such answers comes from ThrSafe.v. For each of the other operations and comparisons two stores whose lists differ, computed (PropsThrT.v: C170_others, C170_comparing). Local objects of the functions are values in ThrModel.v, so accesses to them are not in the list..  Theorems: `C170_same_accesses`, `C170_same_among_threads`, `C170_bit_tests`, `C170_others`, `C170_comparing`.

**C171 Every operation makes a bounded number of accesses, and every thread is done after a known number of turns** (proved).  Modelled: compareTo; divide; operator*=; operator+=; powm; squareRoot.  Proof: The bounds are written out in TraceSpec.v. By structural induction over the trees of ThrModel.v, with what ThrSafe.v knows about lengths, every tree of an operation has at most that many accesses on every path (ThrCount.v), so has its list of accesses (ThrTrace.v: C171_alone, C171_comparing, C171_programs); each turn of a thread uses up one access, and a thread that has none left has finished without a fault, by the invariant of C165 (PropsThrC.v: C171_turns). Accesses to local objects of the functions are not counted. C171_example: some bounds are reached..  Theorems: `C171_alone`, `C171_comparing`, `C171_programs`, `C171_turns`.

**C172 Some signed operations touch the same memory whatever the numbers and their signs are** (proved).  Modelled: inverse; isZero; operator*=; operator-; operator=; power2; swap.  Proof: As C170, on the trees of SThrModel.v, in which the sign of an object is a cell of its own: one list of addresses for every run of the operations of STraceSpec.v (SThrCount.v, second part), hence the theorems about two stores and about two sequences of answers (PropsThrS3.v: C172_same_accesses, C172_same_among_threads); the tests of the sign and the products with a positive built-in number by themselves (C172_sign_tests, C172_products, C172_products_elsewhere); for each of the others two stores whose lists of accesses differ in length, computed (C172_others, C172_comparing). Accesses to local objects of the functions are not in the list..  Theorems: `C172_same_accesses`, `C172_same_among_threads`, `C172_sign_tests`, `C172_others`, `C172_comparing`, `C172_products`, `C172_products_elsewhere`.

**C173 Every signed operation makes a bounded number of accesses, and every thread is done after a known number of turns** (proved).  Modelled: compareTo; divide; inverse; operator*=; operator+=; operator-=; operator/=.  Proof: As C171: the bounds are written out in STraceSpec.v; every path of the trees of SThrModel.v stays below them, by structural induction on top of the bounds of the unsigned functions (SThrCount.v, first part); the turns of a thread by the lemma of C171 about any bounded tree and the invariant of C167 (PropsThrS3.v: C173_alone, C173_comparing, C173_programs, C173_turns). C173_example: some bounds are reached..  Theorems: `C173_alone`, `C173_comparing`, `C173_programs`, `C173_turns`.

**C174 Squares and Fermat's factorisation** (proved).  Modelled: operator*; operator++; operator-; operator==; squareRoot.  Proof: UseModel3: is_square and fermat over the library calls. Integer square root, product and comparison are exact below the width (squareRoot_correct, mul_assign_correct, op_eq_cross); loop invariant of the search: a*a >= x and d + e >= 2a for every pair of divisors d <= e of x, so a never exceeds (x+1)/2 and an exit is at the closest pair (PropsUse4.v: C174_square, C174_fermat, C174_primes)..  Theorems: `C174_square`, `C174_fermat`, `C174_primes`.

**C175 Chinese remainders** (proved).  Modelled: gcd; operator%; operator*; operator+; operator-; operator<.  Proof: UseModel3: crt over the library calls, with inverse_by_sign of UseModel2. No intermediate value leaves the width under the stated bounds; the congruences from the inverse's (C139), uniqueness from Gauss's lemma (PropsUse4.v: C175_crt)..  Theorems: `C175_crt`.

**C176 RSA from the two halves** (proved).  Modelled: gcd; operator%; operator-; powm.  Proof: UseModel3: rsa_halves over the library calls and crt. powm is exact for moduli whose square fits (powm_spec), the reduced exponents give the same residues by Fermat's little theorem (Fermat.v), also for multiples of the prime, and the uniqueness part of C175 identifies the result (PropsUse4.v: C176_rsa_halves)..  Theorems: `C176_rsa_halves`.

**C177 Division that rounds down** (proved).  Modelled: isNegative; isZero; operator*; operator+=; operator-; operator--; operator/.  Proof: UseModel4: floor_div over the signed library calls. The truncated quotient is exact (C45), |q*b| <= |a| so the product and the difference do not overflow (C43, C44), the correction happens exactly when the signs differ and then |b| >= 2 keeps q - 1 in range (C55); uniqueness of floor division identifies the result with Z.div and Z.modulo (PropsUse5.v: C177_floor_division)..  Theorems: `C177_floor_division`.

**C178 Binomial coefficients** (proved).  Modelled: Aeu; operator*=; operator/=.  Proof: UseModel5: binomial over the library calls; choose is Pascal's triangle. Loop invariant c = C(m-k+i-1, i-1); the absorption identity C(m+1,k+1)*(k+1) = C(m,k)*(m+1) makes each division exact, and monotonicity along the diagonal bounds every intermediate product by C(m,k)*k; the calls are exact by C07 and C09 (PropsUse6.v: C178_binomial)..  Theorems: `C178_binomial`.

**C179 Fibonacci numbers by doubling** (proved).  Modelled: Aeu; operator*; operator+; operator-.  Proof: UseModel5: fibonacci over the library calls; fib by its recursion. Loop invariant: after the bits above i, (a, b) are fib(k / 2^i) and its successor modulo 2^N; the addition law of Fibonacci numbers gives the doubling step, and C01, C02, C04 make every call exact modulo 2^N (PropsUse6.v: C179_fibonacci)..  Theorems: `C179_fibonacci`.

**C180 Inverses modulo 2^N** (proved).  Modelled: Aeu; operator*; operator*=; operator-.  Proof: UseModel6: inverse_2N and exact_div_odd over the library calls. Loop invariant: 2^min(3*2^i, N) divides a*x - 1 (an odd square is 1 modulo 8; the error squares in every step); C02 and C04 make every call exact modulo 2^N; uniqueness by cancelling (PropsUse7.v: C180_inverse, C180_exact_division)..  Theorems: `C180_inverse`, `C180_exact_division`.

**C181 Square roots by Newton's iteration** (proved).  Modelled: isZero; operator+; operator/; operator>=; operator>>; squareRoot.  Proof: UseModel7: newton_sqrt over the library calls. Loop invariant 1 <= x <= a < (x+1)^2 with x decreasing; the arithmetic-geometric inequality keeps the invariant, x + a/x <= a + 1 does not overflow, and y >= x gives x*x <= a. C09, C01, C13, C14 make the calls exact; C28 gives the agreement with squareRoot (PropsUse8.v: C181_newton_square_root, C181_agrees_with_squareRoot; C181_all_ones_wrong proves the exception by running the two rounds symbolically, the second one dividing by zero)..  Theorems: `C181_newton_square_root`, `C181_agrees_with_squareRoot`, `C181_all_ones_wrong`.

