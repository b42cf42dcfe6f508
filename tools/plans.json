{
 "C01": "loop invariant: the processed low blocks and the carry are the sum of the low parts",
 "C02": "two's complement invariant for makeComplement, then C01",
 "C03": "early-exit loop invariant (the blocks passed so far were all 2^32-1, resp. 0)",
 "C04": "nested invariants: buffer = product of the low part of one factor with the other, modulo 2^N; 64-bit no-overflow bounds",
 "C05": "carry invariant with the addend cast back to its type",
 "C06": "same loop with the 64-bit wrap kept; equivalence for when it is harmless",
 "C07": "as C04 with the factor's two halves as digits, and the single-loop variant",
 "C08": "as C07, with the wrap of factor*block + carry kept",
 "C09": "long-division invariant: quotient*divisor + remainder = number >> i, remainder < divisor; shift-in without overflow",
 "C10": "the same loop with divisor 0: every comparison succeeds, closed form of the result",
 "C11": "pointwise block description, then bit extensionality (Z.testbit)",
 "C12": "descending in-place loop: blocks not yet written still hold the old value; combination of two blocks as a shift; case split on the remainder",
 "C13": "ascending in-place loop, same technique",
 "C14": "descending invariant: all blocks above i agree",
 "C15": "filledBlocksNumber characterised as bound on the value",
 "C16": "compareTo for two widths: equality iff common blocks agree and excess is zero",
 "C17": "same lemma, exact condition, counterexample",
 "C18": "testbit of lor/land with a one-bit mask",
 "C19": "byte of a block as div/mod",
 "C20": "direct",
 "C21": "early-exit scans; bit_length characterised by 2^(k-1) <= v < 2^k",
 "C22": "Euclid invariant with gcd preservation; remainder halves every two steps, so 64n+2 iterations suffice",
 "C23": "Bezout invariant modulo 2^N for both coefficient pairs",
 "C24": "C22, C09, C04",
 "C25": "square-and-multiply invariant over the bits of the exponent, no overflow because (m-1)^2 < 2^N",
 "C26": "same loop lemma with the exponent's own width",
 "C27": "C18 on zero",
 "C28": "Newton iteration from above: invariant x >= sqrt; error at least halves, so 16n+3 iterations suffice",
 "C32": "digit-list induction (Horner)",
 "C33": "digit loop invariant (little-endian digits), in-place reversal lemma",
 "C34": "block-wise hexadecimal: fmt_x/fmt_08x concatenation is the numeral",
 "C35": "the same functions on a buffer of arbitrary length: exact set of writes",
 "C36": "C32 composed with C33/C34",
 "C37": "the characters appended to the stream, per base",
 "C39": "byte-list induction over blocks in either direction",
 "C40": "readBinary on a short stream: closed form",
 "C42": "word list of |z|; setBlock loop",
 "C43": "case analysis over signs on top of C01, C02, C14",
 "C61": "refinement: one simulation lemma per instruction, then induction over fuel of statements",
 "C62": "same, over signed objects; the specification run is undefined on overflow",
 "C63": "simulation between store loops and by-value loops with dst = src allowed",
 "C64": "symbolic execution of the store version for each sharing pattern",
 "C65": "invariant indexed by the executed prefix of the schedule: each cell holds what the last thread to reach it wrote",
 "C76": "simulation: outputs only written after the inputs were last read",
 "C77": "the temporary represents k (C05's constructor lemma), then the same-width operator lemmas",
 "C78": "the same with the signed constructor",
 "C79": "unfolding to the unsigned setters",
 "C80": "case analysis on signs and on the direction of the subtraction, wrap lemma of the magnitude addition",
 "C81": "compareTo lemma plus the C++20 rewriting of k < a into a <=> k",
 "C82": "compareTo(uint64_t) lemma on k mod 2^64",
 "C83": "unfolding to the unsigned observers",
 "C84": "both sides yield the same integer and valid arrays are determined by their integer",
 "C85": "loop invariant f = i! mod 2^N over mul_assign_u_correct, then C37",
 "C86": "precisionCast_spec keeps the values, then powm_spec",
 "C87": "as C86 with powm_x_spec; counterexample by computation",
 "C88": "s_from_int_correct and C54 composed",
 "C89": "C32 for every text, C61 for the program, C37 for the result",
 "C90": "C57, C62, C56 composed",
 "C91": "compareTo decides the order of the integers; bval is injective on valid arrays",
 "C92": "two instances of C61 (C62) meet in the same integers; bval is injective",
 "C93": "both sides yield the same integer; == decides equality of integers",
 "C94": "induction over the list with the complete stream state after one insertion",
 "C95": "C25 twice and (b^x mod m)^y = b^(xy) mod m",
 "C96": "C32_numerals and C37 composed",
 "C97": "induction over the factor list; Fermat's little theorem for completeness",
 "C98": "induction over the recursion depth (a*b halves), with the sign pattern and size bounds of the coefficients as invariant",
 "C99": "composition of the signed operation lemmas",
 "C100": "egcd_exact gives the inverse, powm_spec twice, Fermat modulo each prime, Gauss",
 "C101": "loop invariant of powm_loop: residues without the size condition, exact values with it or for moduli dividing 2^N",
 "C102": "loop invariant that tracks the part lost by each 64-bit wrap; the first loss decides",
 "C103": "model the test programs with the draws as parameters; each trial reduces to the operation's value theorem compared with the exact integer",
 "C104": "same, comparing the wrapped difference with the absolute value of the exact one",
 "C105": "same, over op_div/op_mod and the signed quotient",
 "C106": "same, over powm/gcd/lcm",
 "C107": "loop invariants over the bits, bytes and blocks written so far; the endless loop by induction on fuel",
 "C108": "same as C103, over comparison, parity, root and shift theorems",
 "C109": "texts specified by numerals; the complement by an invariant on the binary digits written so far",
 "C110": "same; binary streams through the round-trip theorems and an invariant on the bytes left",
 "C111": "accessor theorems instantiated in two configurations (bval_inj), and the out-of-range branch computed",
 "C112": "equality of outcomes by induction on every loop with the shape invariant; simulation of runs, program by program, by induction on fuel",
 "C113": "exact digit-loop and snprintf contracts; an invariant on every array cell over the block loop",
 "C114": "instances of the aliasing-aware operator lemmas (frame and value), case analysis on out = b",
 "C115": "C32 literal construction, C37 insertion; digits_in ignores separators by induction",
 "C116": "literal values, operator theorems, invariant over the iterations; lower bounds on numerals for the source's literals",
 "C117": "case analysis on the signs; the documented 'returns zero for the modulo of zero' is false for an Aesi modulus",
 "C118": "exact effect of the operand preparation per type, then C102 and the division theorems",
 "C119": "case analysis for zero; C113 behind the dash",
 "C120": "StreamModel: the operator once more on streams with a bounded sink; a simulation relation (bounded output is a prefix of the unbounded one) preserved by every insertion and manipulator",
 "C121": "StreamModel with an arbitrary grouping function applied to inserted integers; exact output in hexadecimal by induction over the blocks",
 "C122": "ExchModel: three memory accesses per block; invariant: blocks in memory and in flight are a permutation of the initial ones",
 "C123": "AnyBaseModel.v models getString<base, ., char> with the narrowing cast of l.1348 for any base. One theorem gives the exact outcome for bases 2..255 other than 16 and every stated size (prefix, low digits that fit, NUL or out-of-bounds write); corollaries: the numeral for bases up to 10, agreement with the getString of C33-C35 for the documented bases, negative numbers; the letters claim is refuted for every base 11..36 other than 16 and every number with a digit above 9; bases 0 and 1 always write outside the buffer.",
 "C124": "BinModel's readBinary and writeBinary are composed at two widths, two orders and two hosts; byte position arithmetic gives the exact result in each case. The English claim holds for the little-endian block order and is refuted for the default (big-endian) one.",
 "C125": "CastModel instantiates the Unsigned constructor and integralCast loops at bool (Aeu.h l.167-175, l.1475-1478); refuted for non-zero multiples of 2^64.",
 "C126": "CastModel instantiates the same templates at (unsigned) __int128, whose intermediate uint64_t keeps 64 bits only; exact result proved, English claim refuted from 2^64 up.",
 "C127": "CastModel gives streams with an exception mask; writeBinary is declared noexcept (std::terminate), readBinary is not. Without throwing, the model is proved equal to BinModel's.",
 "C128": "TestModel3's initTrial, s_initTrial, dashesTrial, precisionTrial; the test's binary conversion is proved to produce the numeral (empty text for 0), then C32, C57, C74.",
 "C129": "TestModel3's streamTrial, bufferTrial and signed versions, with the static array as an argument and string_view as a function of the array; exact verdict for every draw, and the loop over the static array by induction.",
 "C130": "TestModel3's crossTrial and orderTrial for any two widths, from C15-C17, C48, C49, C32, C57.",
 "C131": "On StreamModel (sinks that fail, locales, widths): the format fields are followed through the digit and block loops; then induction over the sequence of numbers.",
 "C132": "XStreamModel: the operators with an early exit at the first refused character; related to the run without exceptions (simulation), then C120.",
 "C133": "BinModel's from_mpz for both byte orders: the exported words byte by byte; the loop of setBlock up to the first index out of range.",
 "C134": "The exact result of == for every integer from C133's value and the signed comparison, then compared with integer equality.",
 "C135": "AesiModel's s_integralCast: closed form by cases on sign and type; uniqueness of the residue in the range of the type.",
 "C136": "AesiModel's +=, -=, *= in the cases that give zero: the result is the left operand with the sign replaced; observers of the magnitude by C18-C21.",
 "C137": "TextModel at width 1: the first digit already calls integralCast (C66); hexadecimal and zero do not.",
 "C138": "PresModel: both test bodies function by function, including the regex_search contract for these expressions; C32 for the literals, C86/C87 and the product for the values, exact stream state after each insertion; the expressions' matches characterised as lists.",
 "C139": "UseModel2: the two programs over gcd_ext, op_mod, getBit, op_neg, op_sub; C23_bezout_exact bounds the coefficient, the rest is modular arithmetic; counterexample 3 mod 7.",
 "C140": "UseModel2: strip_twos and miller_rabin over the library calls; loop invariants with powm_spec and exact products; Fermat's little theorem (Fermat.v) and prime_mult for primes.",
 "C141": "SummaryModel: the script function by function (strings as code points, dicts as association lists); induction from the right over the results; specification by first and last occurrences.",
 "C142": "TestModel4: the four forms of the checks with text and value generalised; C32/C57 for the value of a text, C15/C49 for the comparison.",
 "C143": "TestModel4: the bodies with the subtracted value, base, size generalised; exact insertion of zero, C33/C119 for getString.",
 "C144": "TestModel5: the test bodies over a record of the operations, with the literals generalised; exact meaning of a pass for any operations, then one proof for operations that compute correctly, instantiated for both classes.",
 "C145": "MixAtomicModel: a schedule over threads that are each in a set or an exchange, every block access one step. A simulation turns it into an exchange-only run (a set is an exchange whose old block is dropped), so the permutation invariant of C122 carries over; isolated calls by running the schedule's tail.",
 "C146": "WholeSpec: the meaning of whole programs on integers, a list of printed pieces and a list of file records; WholeModel: the same programs over the modelled calls, variables stored by class and width. A simulation relation preserved by every instruction (from the single-operation theorems), lifted to statements by induction on fuel; uniqueness of numerals gives a single text.",
 "C147": "WidenSpec: an overflow-checking reading and a syntactic class of low-bit programs. Monotonicity of the readings in the width, then C61/C62 at both widths; for truncation a relation between the two readings preserved step by step.",
 "C148": "MachModel: the unsigned class with size_t arithmetic modulo 2^64, C++ loops with wrapping counters and faulting shifts. Each machine function is proved equal to the one of AeuModel for every bitness below 2^64 (loop by loop, by induction on the counter), so the specifications carry over.",
 "C149": "MachSigned: AesiModel on top of MachModel. Each function is proved equal to its AesiModel counterpart from the equalities of C148, so the specifications of C43-C60 carry over.",
 "C150": "MachText: TextModel with C++ loops on machine variables. Each loop is proved equal to the counted loop of TextModel by induction on the remaining distance to its bound (the reversal loop tests i * 2, the stream loop counts down); the buffer size computed in floating point is bounded by the bitness. The specifications of C32-C37 and C57 carry over.",
 "C151": "MachModel w_powm_x, whose loop has the 32-bit counter of l.1210. Equal to the unbounded loop for every exponent of at most 2^32 - 32 bits. Refuted for every longer exponent (these exist exactly at widths of at least 2^32 bits) with a base other than 0 and 1: an invariant shows that the loop condition stays true, so no number of iterations is enough.",
 "C152": "IniModel: blocks are cells that are written or not; reading an unwritten one is the fault Indeterminate; every function of AeuModel once more with its locals declared as the source declares them. Simulation with AeuModel function by function (IniFacts), then the value theorems of AeuModel give values and completeness.",
 "C153": "Same model. With {} the object is zero; writing it block by block makes it complete. Refuted without an initialiser: every operation that looks at the object, setBit and setByte included, faults, at every width.",
 "C154": "IniSigned: sign and blocks as cells, on top of IniModel; simulation with AesiModel function by function.",
 "C155": "Complete for operands other than zero. Refuted for every zero operand: only the signs are written. Further theorems say which operations such a half-written object survives and that outputs written before stay written.",
 "C156": "IniProgSpec: the definite-assignment check as a function of the program text alone. IniProgModel: the programs of ProgSpec run on memory with unwritten blocks. Invariant: every variable the check counts as assigned is completely written and has the integer's value; unassigned variables are unconstrained.",
 "C157": "Same over IniSigned. Holds (values, and never a fault) when the outputs of divide count as variables that must be assigned before. Refuted without that, at every width and in every build: divide with a zero dividend writes only the signs, so a copy of the quotient reads unwritten blocks.",
 "C158": "MachProg: the instructions of WholeSpec executed by the functions of MachModel, MachSigned and MachText. Simulation with the integer reading of WholeSpec: unsigned and signed instructions through the function equalities of C148/C149 and the value theorems, texts through C150, the rest through C146.",
 "C159": "IniText: the text functions of both classes on cells (numbers, input characters and output array may be unwritten). Relational simulation with TextModel (`follows`: each element is written with the definite value or untouched in both); instantiated at two different definite contents it gives the exact memory after the call. Reads of the array are shown to hit only characters written before.",
 "C160": "Refuted in general: any array with an unwritten character makes the array constructor read it (C160_array_constructor_refuted, C160_printed_array_refuted). Proved: if the rest of the array is written, the number comes back with the digits found there appended (C160_array_constructor_partial); it is the number itself when there are none.",
 "C161": "IniBin: readBinary, writeBinary and the GMP constructors on cells; a block's old contents matter to the read only if fewer than four bytes arrive. Simulation with BinModel by the loop-simulation lemmas, then C39, C40, C72, C73, C42; the unassigned case by induction on the loop up to the first unwritten block.",
 "C162": "IniWhole: the instructions of WholeModel on cells. The compiler's definite-assignment check is a function on programs over typed variables (IniWholeSpec). Induction over the run with the invariant that all assigned variables are completely written and stand for the integer world of WholeSpec; each call by its simulation lemma and the value theorem of its own property.",
 "C163": "ThrMonad/ThrModel: every call as a tree of loads and stores of single blocks, threads as such trees plus their local objects, a schedule as any list of thread numbers. ThrFacts, ThrStore, ThrExec: run alone, a tree computes what the functions of AliasModel and ProgModel compute. ThrFoot: which objects a tree touches; induction over the schedule shows that each thread is where it would be had it run alone for as many steps. With C61 the values follow.",
 "C164": "Full claim refuted for two blocks (torn copy), for ++ (lost update) and, two blocks wide, for the bound on what ++ may add (both threads carry). Proved: for programs that only copy, an invariant over the schedule says that every block is a block with the same index of an object from which there is a chain of copies; for one finished copy, a second invariant on its program counter says the sources are the values assigned to the original; with one block the copy is one of these values, and k concurrent ++ add between 1 and k.",
 "C165": "ThrSafe: a predicate on trees that quantifies over every block-sized value a load might return, proved for each function with loop rules; induction over the schedule. Termination by induction on the tree along any schedule that is fair to the thread.",
 "C166": "SThrModel: every call of the signed class as a tree of accesses to signs and blocks, over the scheduler of ThrModel. SThrFacts, SThrExec: run alone, a tree computes what ProgModel computes. SThrFoot: which objects a tree touches; the interleaving lemma of ThrFoot, over cells (sign and magnitude of an object). With C62 the values follow.",
 "C167": "SThrSafe: as C165, for the signed functions, over every sign and block a load might return; SThrSign: a predicate on trees that says which signs they store; induction over the schedule.",
 "C168": "Full claim refuted, also for one block: sign of one value with the magnitude of another, and a zero with the sign Negative. Proved: for programs that only copy, an invariant over the schedule says that every sign and every block is the one of an object from which there is a chain of copies.",
 "C169": "ThrWeak.v: the trees of accesses of ThrModel.v and SThrModel.v under a scheduler that gives every thread a picture of its own of the shared objects, lets nobody see the stores of others, and lets a load of an object that another thread stores into anywhere in the execution return any number. By induction over the moves, first that a thread stays within its footprint (ThrFoot.v, SThrFoot.v) whatever its loads return, so no load races; then that each thread has the picture and state of running alone; the value of that comes from C163 and C166 (PropsThrW.v). That the rule is needed: C169_racing.",
 "C170": "ThrTrace.v: the list of accesses of a tree of ThrModel.v, run alone on a store or with its loads answered by any numbers. By induction over the trees: for the operations of TraceSpec.v there is one list of addresses that every run has (ThrSteady.v), for all answers; that the answers of a store are such answers comes from ThrSafe.v. For each of the other operations and comparisons two stores whose lists differ, computed (PropsThrT.v: C170_others, C170_comparing). Local objects of the functions are values in ThrModel.v, so accesses to them are not in the list.",
 "C171": "The bounds are written out in TraceSpec.v. By structural induction over the trees of ThrModel.v, with what ThrSafe.v knows about lengths, every tree of an operation has at most that many accesses on every path (ThrCount.v), so has its list of accesses (ThrTrace.v: C171_alone, C171_comparing, C171_programs); each turn of a thread uses up one access, and a thread that has none left has finished without a fault, by the invariant of C165 (PropsThrC.v: C171_turns). Accesses to local objects of the functions are not counted. C171_example: some bounds are reached.",
 "C172": "As C170, on the trees of SThrModel.v, in which the sign of an object is a cell of its own: one list of addresses for every run of the operations of STraceSpec.v (SThrCount.v, second part), hence the theorems about two stores and about two sequences of answers (PropsThrS3.v: C172_same_accesses, C172_same_among_threads); the tests of the sign and the products with a positive built-in number by themselves (C172_sign_tests, C172_products, C172_products_elsewhere); for each of the others two stores whose lists of accesses differ in length, computed (C172_others, C172_comparing). Accesses to local objects of the functions are not in the list.",
 "C173": "As C171: the bounds are written out in STraceSpec.v; every path of the trees of SThrModel.v stays below them, by structural induction on top of the bounds of the unsigned functions (SThrCount.v, first part); the turns of a thread by the lemma of C171 about any bounded tree and the invariant of C167 (PropsThrS3.v: C173_alone, C173_comparing, C173_programs, C173_turns). C173_example: some bounds are reached.",
 "C174": "UseModel3: is_square and fermat over the library calls. Integer square root, product and comparison are exact below the width (squareRoot_correct, mul_assign_correct, op_eq_cross); loop invariant of the search: a*a >= x and d + e >= 2a for every pair of divisors d <= e of x, so a never exceeds (x+1)/2 and an exit is at the closest pair (PropsUse4.v: C174_square, C174_fermat, C174_primes).",
 "C175": "UseModel3: crt over the library calls, with inverse_by_sign of UseModel2. No intermediate value leaves the width under the stated bounds; the congruences from the inverse's (C139), uniqueness from Gauss's lemma (PropsUse4.v: C175_crt).",
 "C176": "UseModel3: rsa_halves over the library calls and crt. powm is exact for moduli whose square fits (powm_spec), the reduced exponents give the same residues by Fermat's little theorem (Fermat.v), also for multiples of the prime, and the uniqueness part of C175 identifies the result (PropsUse4.v: C176_rsa_halves).",
 "C177": "UseModel4: floor_div over the signed library calls. The truncated quotient is exact (C45), |q*b| <= |a| so the product and the difference do not overflow (C43, C44), the correction happens exactly when the signs differ and then |b| >= 2 keeps q - 1 in range (C55); uniqueness of floor division identifies the result with Z.div and Z.modulo (PropsUse5.v: C177_floor_division).",
 "C178": "UseModel5: binomial over the library calls; choose is Pascal's triangle. Loop invariant c = C(m-k+i-1, i-1); the absorption identity C(m+1,k+1)*(k+1) = C(m,k)*(m+1) makes each division exact, and monotonicity along the diagonal bounds every intermediate product by C(m,k)*k; the calls are exact by C07 and C09 (PropsUse6.v: C178_binomial).",
 "C179": "UseModel5: fibonacci over the library calls; fib by its recursion. Loop invariant: after the bits above i, (a, b) are fib(k / 2^i) and its successor modulo 2^N; the addition law of Fibonacci numbers gives the doubling step, and C01, C02, C04 make every call exact modulo 2^N (PropsUse6.v: C179_fibonacci).",
 "C180": "UseModel6: inverse_2N and exact_div_odd over the library calls. Loop invariant: 2^min(3*2^i, N) divides a*x - 1 (an odd square is 1 modulo 8; the error squares in every step); C02 and C04 make every call exact modulo 2^N; uniqueness by cancelling (PropsUse7.v: C180_inverse, C180_exact_division).",
 "C181": "UseModel7: newton_sqrt over the library calls. Loop invariant 1 <= x <= a < (x+1)^2 with x decreasing; the arithmetic-geometric inequality keeps the invariant, x + a/x <= a + 1 does not overflow, and y >= x gives x*x <= a. C09, C01, C13, C14 make the calls exact; C28 gives the agreement with squareRoot (PropsUse8.v: C181_newton_square_root, C181_agrees_with_squareRoot; C181_all_ones_wrong proves the exception by running the two rounds symbolically, the second one dividing by zero)."
}