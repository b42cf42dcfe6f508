# Aesi-Multiprecision: formal model and proofs (Rocq / Coq 8.16.1)

## 1. Approach

The library is two header files, `include/AesiMultiprecision/Aeu.h` (unsigned, `Aeu<N>`) and `Aesi.h` (signed,
`Aesi<N>`).  A number of width N = 32n is an array of n 32-bit blocks, least significant first; a signed number is a
sign (Zero, Positive, Negative) and such an array.

* **Vocabulary** (`Base.v`): outcomes, checked arrays, loops, machine words, built-in types, build configuration.
  Every array access goes through `aget`/`aset`, which return the fault `OutOfBounds` for an index outside the object.
  Undefined behaviour and aborts are distinct outcomes (`Err fault`): out-of-bounds access, signed overflow, failed
  `assert`, `<cctype>` argument out of range.  A theorem that says a call yields a value therefore also says that none
  of these happens.  Loops without a static bound take fuel and return `Err OutOfFuel`; theorems give an explicit
  sufficient fuel, so they include termination.
* **Specifications** (`Spec.v`, `TextSpec.v`, `BinSpec.v`, `ProgSpec.v`, `AtomicSpec.v`, `WholeSpec.v`, `WidenSpec.v`, `IniSpec.v`, `IniProgSpec.v`, `IniTextSpec.v`, `IniWholeSpec.v`, `ThrSpec.v`, `SThrSpec.v`, `TraceSpec.v`, `STraceSpec.v`): the integer a block array
  represents (`bval`), validity (`wf n`), `modulus n = 2^N`, the integer a signed object represents (`sval`), numerals
  and streams, byte strings, the meaning of programs in Z, schedules.  No specification file refers to a function of
  the model.
* **Model** (`*Model.v`): one Gallina definition per C++ function with the same loops over the same indices, the same
  32/64-bit wrap-arounds (`mod 2^32`, `mod 2^64`) and the same early exits; each carries a comment with the file and
  lines it models and any simplification.
* **Proofs** (`Lib.v`, `*Arith.v`, `*Facts.v`, `Aeu{Bits,Access,Div}.v`, `Text{Out,Hex,More,Width}.v`,
  `Alias{Facts,Signed,Div}.v`, `Prog{Facts,Total,Signed}.v`) and **property theorems** (`Props*.v`), each followed by
  `Print Assumptions` and accompanied by an `Example` on concrete, non-trivial data that meets the hypotheses.

All theorems quantify over the width n >= 1 (any positive number of blocks; n >= 2 where the code needs 64 bits) and
over all block contents; no theorem bounds sizes, depths or steps.

### Naming
`Cnn_*` proves (part of) property `Cnn`.  A name ending in `_partial` proves less than the English property; the reason
is always that the full property is **false of the code**, and then a theorem ending in `_refuted` proves a
counterexample (usually for every width, sometimes at a concrete one) and the partial theorem gives the exact condition
(an equivalence where possible) under which the property does hold.

## 2. What is modelled

| file | code |
|------|------|
| `AeuModel.v` | Aeu.h l.66-134 (constants, addLine, makeComplement), 167-186 (integral constructor), 280-403 (unary, ++/--, +, -), 415-507 (*), 520-555 (/, %), 566-714 (bitwise, shifts), 727-883 (==, compareTo, <=>), 896-1074 (accessors, counters, swap), 1087-1105 (divide), 1127-1265 (gcd, Bezout gcd, lcm, powm x2, power2, squareRoot), 1475-1497 (integralCast, precisionCast) |
| `AesiModel.v` | Aesi.h l.40-898 and 918-1047: every constructor except text and GMP ones, all operators, comparisons, accessors, swap, inverse, divide, squareRoot, power2, casts, l.1220-1286 built-in left operands |
| `MixModel.v` | Aeu.h l.1593-1656 (built-in left operands), built-in right operands through the converting constructor, l.839-842 (relational operators without `<=>`), rewritten comparisons with the built-in on the left, comparisons of Aeu with signed built-ins |
| `TextModel.v` | Aeu.h l.183-253 (string constructors), 1281-1365 (getString), 1378-1425 (operator<<); Aesi.h l.45-58, 122-145 (string constructors), 1061-1107 (getString), 1119-1128 (operator<<) |
| `BinModel.v` | Aeu.h l.257-267, 753-755 (GMP), 1437-1464 (readBinary, writeBinary); Aesi.h l.158-169, 635-637 (GMP) |
| `MachModel.v` | the part of Aeu.h in `AeuModel.v` once more (except swap, block accessors and the trivial wrappers) with `size_t` modulo 2^64, wrapping loop counters and checked shifts |
| `MachSigned.v`, `MachText.v` | the functions of `AesiModel.v` and `TextModel.v` once more, on top of `MachModel.v` and in the same style |
| `IniModel.v`, `IniSigned.v` | the functions of `AeuModel.v` and `AesiModel.v` once more on memory in which a block (and the sign) may not have been written yet; locals declared without initialiser in the source start unwritten |
| `MachProg.v` | no code: whole client programs run on the functions of `MachModel.v`, `MachSigned.v` and `MachText.v` |
| `IniText.v` | string constructors, `getString` and `operator<<` of both classes once more, on numbers and character arrays whose elements may not have been written yet |
| `IniBin.v` | `readBinary`, `writeBinary` and the GMP constructors once more, on memory that may not have been written yet |
| `ThrMonad.v`, `ThrModel.v` | the functions of Aeu.h that programs of `ProgSpec.v` call (l.127-158, 280-714, 741, 805-862, 896-922, 1004-1052, 1072-1105, 1162-1265) once more as trees of single loads and stores, and a scheduler that interleaves the accesses of several threads |
| `SThrModel.v` | the functions of Aesi.h that programs of `ProgSpec.v` call (l.178-240, 255-604, 619-766, 877-993) as trees of single accesses to signs and blocks, for the same scheduler |
| `ThrWeak.v` | no code: another scheduler for the trees of `ThrModel.v` and `SThrModel.v`, with a picture of memory for each thread, stores others need not see and racing loads that return anything |
| `ThrTrace.v` | no code: the addresses a tree of `ThrModel.v` loads from and stores to, in order |
| `IniWhole.v` | no code: the programs of `WholeModel.v` run on `IniModel.v`, `IniSigned.v`, `IniText.v` and `IniBin.v`, all variables uninitialised at the start |
| `IniProgModel.v` | no code: client programs run on the functions of `IniModel.v` and `IniSigned.v`, variables uninitialised at the start |
| `AliasModel.v` | the mutating operations once more, on a store in which reference operands may be the same object |
| `ProgModel.v` | straight-line code, if and while over calls of the public interface, on that store |
| `UseModel.v` | complete programs using the library: README.md l.72-76, 88-89, 108, 119-120 with their constants generalised, text-in text-out programs, chained insertion, key agreement. The outputs README shows (50!, the 128-bit and 256-bit powm) are derived from the theorems in the examples of `PropsUse.v` |
| `PresModel.v` | ci/integration/presentation.cpp l.15-59 with literals and widths as parameters: `std::endl`, the two programs, and `std::regex_search` for the two expressions used there (literal characters; `\\w+\n` followed by literal characters) as a library contract |
| `SanModel.v` | the two programs of /repo/sanitize with their constants generalised: Pollard's p-1 `factorize` (the floating-point expression of l.19-23 replaced by any list of uint64_t factors) and the signed checks (`extendedGcd`, `checkBezout`, `checkSignedOps`, `primeProduct`); Fermat's little theorem is proved from the standard library in `Fermat.v` |
| `UseModel2.v` | two client programs (modular inverse, Miller-Rabin round), every line one library call |
| `UseModel3.v` | four more client programs (test of squares, Fermat factorisation, Chinese remainders, RSA by halves), every line one library call |
| `UseModel4.v` | one client program over the signed class (division rounding down), every line one library call |
| `UseModel5.v` | two client programs (binomial coefficients, Fibonacci numbers by doubling), every line one library call |
| `UseModel6.v` | one client program (inverses modulo 2^N by Newton's iteration, and exact division by an odd number with them), every line one library call |
| `UseModel7.v` | one client program (square roots by Newton's iteration), every line one library call |
| `SummaryModel.v` | ci/benchmarking/make_summary.py, strings as code points, dicts as entries in insertion order |
| `TestModel4.v` | initialization.cpp Basic and display.cpp Zero with their literals generalised |
| `TestModel5.v` | addition, subtraction, multiplication, division and modulo tests (Basic, and the fixed lines of Increment and Decrement) with their literals generalised |
| `TestModel.v`, `TestModel2.v`, `TestModel3.v` | the randomized tests of /repo/test with the random draws as parameters (test/generation.h, arithmetic/*, bitwise/*, boolean.cpp, number-theory.cpp, binary_io.cpp, casts/*, gmp-integration.cpp, initialization.cpp, display.cpp), and the width-crossing checks of boolean.cpp and initialization.cpp with their literals generalised; GMP results are exact integers |
| `CiModel.v` | /repo/ci/cuda/smoke.cu (the two kernels, launched with one thread), /repo/ci/integration/main.cpp, the loop bodies and literals of /repo/benchmark/*.cpp |
| `AnyBaseModel.v` | getString of both classes for char and any base 0..255, with the narrowing cast of Aeu.h l.1348 |
| `CastModel.v` | the integral constructor and integralCast at `bool` and at 128-bit built-ins; readBinary and writeBinary on streams that may throw |
| `StreamModel.v` | operator<< of both classes once more, on streams with a sink that may refuse characters and a locale with digit grouping |
| `XStreamModel.v` | the same operators on a stream that throws when its sink refuses a character |
| `ExchModel.v` | Aeu.h l.1520-1523, Aesi.h l.1148-1151 (tryAtomicExchange) with the const of the parameter removed (as written it does not compile when instantiated: `atomicExch` on a const object) |
| `MixAtomicModel.v` | tryAtomicSet and tryAtomicExchange of both classes called by several threads on one object (Aeu.h l.1509-1523, Aesi.h l.1137-1151), the const of the parameter removed as in ExchModel |
| `WholeModel.v` | programs over both classes at several widths with conversions, text input, stream output and a binary file (calls of the other models; no code of its own) |
| `AtomicModel.v` | Aeu.h l.1509-1512, Aesi.h l.1137-1140 (tryAtomicSet) as interleavings of atomic steps |

### Modelled by contract (library functions outside the repository)
`isalnum`/`iswalnum` (any classification `alnum`, undefined for char below -1), `snprintf`/`swprintf` with `%x`/`%08x`,
`std::basic_ostream` formatted insertion (fill, width, adjustment, base, showbase, uppercase), `istream::read`,
`ostream::write`, `mpz_sizeinbase`, `mpz_export`, IEEE double division in l.1410, `atomicExch`.

### Not modelled
* The pre-C++20 operator!= (Aeu.h l.838) and the pre-C++20 operators of Aesi.h (l.732-746): do not compile when used.
* `readBinary`/`writeBinary` for wchar_t and `Aesi ^ & |` with a built-in left operand: do not compile when instantiated.
* `getGMP`-style conversions back to GMP are absent from the code; hash/`std` specialisations likewise.
* Compile-time aspects (constexpr evaluation, overload resolution between built-in types other than as stated in the
  comments), exceptions other than those of streams in readBinary, writeBinary (`CastModel.v`) and operator<< (`XStreamModel.v`), the C++ and CUDA memory models themselves (interleavings of atomic steps and of block
  accesses are modelled, and for race-free programs the weak machine of `ThrWeak.v`), performance, `json.load` and `int(float)` in make_summary.py, workflow and CMake files.

### Simplifications
* In `AeuModel.v` and the models built on it `size_t` values are unbounded integers except where the source relies on
  wrap-around (`u64` is then written), and shifts of built-in values are mathematical.  `MachModel.v` removes this for
  the unsigned class, `MachSigned.v` for the signed class and `MachText.v` for texts and streams: `size_t` arithmetic
  modulo 2^64, loops with their own wrapping counters, checked shift counts.  C148-C150 prove the two levels equal for
  every bitness below 2^64 (2^53 for operator<<), the mixed powm with a long exponent excepted; `MachProg.v` (C158)
  runs whole client programs on that level.  The models of tests and atomics stay at the upper level; binary files have
  no counters.
* Function results are returned by value; objects passed by reference are handled by value in `AeuModel.v` and by
  location in `AliasModel.v`; C63 and C61/C62 connect the two.
* In the upper-level models every object has a value from its declaration on.  `IniModel.v` and `IniSigned.v` remove this
  (C152-C155); there a copy reads all blocks of its source, `std::pair` results are written when they are assigned.
  `IniText.v` adds texts and streams (C159, C160), `IniBin.v` binary files and GMP (C161), `IniWhole.v` whole programs (C162); aliasing is not repeated.  `IniProgModel.v` runs client programs on such memory (C156, C157) with
  operands passed by value; that sharing changes nothing is C61-C63.
* In `ThrModel.v` one step of a thread is one load or store of one block, and the steps of all threads form one sequence
  (sequential consistency).  For the programs of C163 and C166, which have no race, this is what C++ guarantees, and C169 proves
  that they mean the same on a machine with no such sequence (`ThrWeak.v`);
  C164, C165, C167 and C168 are about programs with races, which C++ leaves undefined, so they speak of this machine only.  Objects that a function
  declares itself and that it passes to nobody are values there.
* In `SThrModel.v` the sign of an object is block 0 of a cell of its own, with the value of the enumerator modulo 2^32 (0, 1,
  2^32 - 1); any other pattern would read as Zero, and C167 shows that none is ever stored.  Reading or storing a sign is one step.
* In `AeuModel.v` the 32-bit loop counter of l.1210 is assumed not to wrap; `MachModel.v` has it as it is.

## 3. Trusted base

* Coq 8.16.1's kernel, including its bytecode VM (`vm_compute` evaluates examples and counterexamples).
* `Print Assumptions` prints "Closed under the global context" for every theorem listed below: no axioms at all.
  The loaded standard-library files (`Lia`, `Zify` through `ssreflect`'s `ssrunder`) declare the module-type
  parameters `Coq.ssr.ssrunder.Under_rel.*`, which `coqchk` lists as loaded; no theorem uses them.
* The reading of the C++ source into the `*Model.v` files and the library contracts listed above.
* The English-to-Coq reading of the property statements, for which `*Spec.v` are the files to read.

No axioms, parameters, admitted proofs, functors, module types or plugins are used.

## 4. Tests against wrong programs

`seeded/LOG.jsonl` has one line per edited copy of the model (a realistic bug), the claim it breaks, the theorems that
stopped proving and the theorems tightened as a result.

## 5. Plan and result per property

