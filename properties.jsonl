{"id": "C01", "title": "Unsigned addition is exact modulo 2^N", "statement": "For every width N and all a, b: a + b and a += b yield the number (a + b) mod 2^N, store it in a valid N-bit object, and never access memory outside the operands.", "quantifier": "every width N = 32n with n >= 1, every pair of N-bit values", "why_tests_cant": "The operand space has 2^(2N) pairs for each of infinitely many widths; random sampling hits the carry/borrow/boundary patterns with negligible probability.", "anchors": [{"file": "include/AesiMultiprecision/Aeu.h", "symbol": "operator+(Aeu,Aeu)"}, {"file": "include/AesiMultiprecision/Aeu.h", "symbol": "operator+=(Aeu,Aeu)"}, {"file": "include/AesiMultiprecision/Aeu.h", "symbol": "addLine"}]}
{"id": "C02", "title": "Unsigned subtraction and negation are exact modulo 2^N", "statement": "a - b and a -= b yield (a - b) mod 2^N and -a yields (-a) mod 2^N, for every width and all values, including b > a and a = 0.", "quantifier": "every width, every pair of values", "why_tests_cant": "The operand space has 2^(2N) pairs for each of infinitely many widths; random sampling hits the carry/borrow/boundary patterns with negligible probability.", "anchors": [{"file": "include/AesiMultiprecision/Aeu.h", "symbol": "operator-"}, {"file": "include/AesiMultiprecision/Aeu.h", "symbol": "operator-="}, {"file": "include/AesiMultiprecision/Aeu.h", "symbol": "makeComplement"}]}
{"id": "C03", "title": "Increment and decrement step by one modulo 2^N", "statement": "++a and a++ store (a + 1) mod 2^N, --a and a-- store (a - 1) mod 2^N; the prefix forms return the new value, the postfix forms the old one.", "quantifier": "every width, every value (including all-ones and zero, where the carry runs through every block)", "why_tests_cant": "The operand space has 2^(2N) pairs for each of infinitely many widths; random sampling hits the carry/borrow/boundary patterns with negligible probability.", "anchors": [{"file": "include/AesiMultiprecision/Aeu.h", "symbol": "operator++"}, {"file": "include/AesiMultiprecision/Aeu.h", "symbol": "operator--"}]}
{"id": "C04", "title": "Unsigned multiplication is exact modulo 2^N", "statement": "a * b and a *= b yield (a * b) mod 2^N for every width and all values; no intermediate 64-bit product or carry is lost.", "quantifier": "every width, every pair of values", "why_tests_cant": "The operand space has 2^(2N) pairs for each of infinitely many widths; random sampling hits the carry/borrow/boundary patterns with negligible probability.", "anchors": [{"file": "include/AesiMultiprecision/Aeu.h", "symbol": "operator*(Aeu,Aeu)"}, {"file": "include/AesiMultiprecision/Aeu.h", "symbol": "operator*=(Aeu,Aeu)"}]}
{"id": "C05", "title": "Adding a built-in unsigned of at most 32 bits is exact modulo 2^N", "statement": "For a built-in unsigned value u of type bool, uint8_t, uint16_t or uint32_t, a + u and a += u yield (a + u) mod 2^N.", "quantifier": "every width, every value a, every u of each of the types", "why_tests_cant": "The operand space has 2^(2N) pairs for each of infinitely many widths; random sampling hits the carry/borrow/boundary patterns with negligible probability.", "anchors": [{"file": "include/AesiMultiprecision/Aeu.h", "symbol": "operator+=(Aeu,Unsigned)"}]}
{"id": "C06", "title": "Adding a 64-bit built-in unsigned is exact modulo 2^N", "statement": "For every uint64_t (or unsigned long long) u, a + u and a += u yield (a + u) mod 2^N.", "quantifier": "every width, every value a, every 64-bit u", "why_tests_cant": "The failing inputs need the low block plus u to exceed 2^64, probability about 2^-33 per random trial.", "anchors": [{"file": "include/AesiMultiprecision/Aeu.h", "symbol": "operator+=(Aeu,Unsigned)"}]}
{"id": "C07", "title": "Multiplying by a built-in unsigned of at most 32 bits or by uint64_t is exact modulo 2^N", "statement": "For u of type bool, uint8_t, uint16_t, uint32_t or uint64_t, a * u and a *= u yield (a * u) mod 2^N.", "quantifier": "every width, every value a, every u", "why_tests_cant": "The operand space has 2^(2N) pairs for each of infinitely many widths; random sampling hits the carry/borrow/boundary patterns with negligible probability.", "anchors": [{"file": "include/AesiMultiprecision/Aeu.h", "symbol": "operator*=(Aeu,Unsigned)"}]}
{"id": "C08", "title": "Multiplying by any 64-bit built-in unsigned type is exact modulo 2^N", "statement": "a *= u yields (a * u) mod 2^N for u of any 64-bit unsigned type, also unsigned long long on platforms where uint64_t is unsigned long.", "quantifier": "every width, every value a, every 64-bit u, every platform typedef choice", "why_tests_cant": "The tests only multiply by unsigned (32-bit) and depend on the host's choice of uint64_t.", "anchors": [{"file": "include/AesiMultiprecision/Aeu.h", "symbol": "operator*=(Aeu,Unsigned)"}]}
{"id": "C09", "title": "Unsigned division yields the Euclidean quotient and remainder", "statement": "For every non-zero divisor d: divide (both forms), n / d, n % d, n /= d and n %= d yield q = floor(n / d) and r = n - q*d, with 0 <= r < d; results do not depend on the previous contents of the output objects.", "quantifier": "every width, every n, every d <> 0, every initial content of the result objects", "why_tests_cant": "The operand space has 2^(2N) pairs for each of infinitely many widths; random sampling hits the carry/borrow/boundary patterns with negligible probability.", "anchors": [{"file": "include/AesiMultiprecision/Aeu.h", "symbol": "divide"}, {"file": "include/AesiMultiprecision/Aeu.h", "symbol": "operator/"}, {"file": "include/AesiMultiprecision/Aeu.h", "symbol": "operator%"}]}
{"id": "C10", "title": "Unsigned division by zero never faults", "statement": "divide with a zero divisor terminates without memory faults, leaves the remainder equal to the dividend, and satisfies n = q*0 + r; / and % inherit this.", "quantifier": "every width, every n", "why_tests_cant": "Tests never divide by zero because the documentation calls it undefined.", "anchors": [{"file": "include/AesiMultiprecision/Aeu.h", "symbol": "divide"}]}
{"id": "C11", "title": "Bitwise operators act bit by bit", "statement": "Bit i of ~a, a & b, a | b and a ^ b is the negation, conjunction, disjunction, exclusive or of the bits i of the operands for every i < N; the result is a valid N-bit number.", "quantifier": "every width, every pair of values, every bit index", "why_tests_cant": "The operand space has 2^(2N) pairs for each of infinitely many widths; random sampling hits the carry/borrow/boundary patterns with negligible probability.", "anchors": [{"file": "include/AesiMultiprecision/Aeu.h", "symbol": "operator~"}, {"file": "include/AesiMultiprecision/Aeu.h", "symbol": "operator&="}, {"file": "include/AesiMultiprecision/Aeu.h", "symbol": "operator|="}, {"file": "include/AesiMultiprecision/Aeu.h", "symbol": "operator^="}]}
{"id": "C12", "title": "Left shift multiplies by a power of two modulo 2^N", "statement": "a << s and a <<= s yield (a * 2^s) mod 2^N for 0 <= s < N, and leave a unchanged for s >= N (documented).", "quantifier": "every width, every value, every shift count", "why_tests_cant": "Every combination of block offset and in-block offset and every boundary must be right in an in-place loop.", "anchors": [{"file": "include/AesiMultiprecision/Aeu.h", "symbol": "operator<<="}]}
{"id": "C13", "title": "Right shift divides by a power of two", "statement": "a >> s and a >>= s yield floor(a / 2^s) for 0 <= s < N, and leave a unchanged for s >= N (documented).", "quantifier": "every width, every value, every shift count", "why_tests_cant": "Every combination of block offset and in-block offset and every boundary must be right in an in-place loop.", "anchors": [{"file": "include/AesiMultiprecision/Aeu.h", "symbol": "operator>>="}]}
{"id": "C14", "title": "Same-precision comparison is the numeric order", "statement": "For a, b of the same width, compareTo, <=>, ==, !=, <, <=, >, >= agree with the order of the represented integers; in particular they form a total order.", "quantifier": "every width, every pair of values", "why_tests_cant": "The operand space has 2^(2N) pairs for each of infinitely many widths; random sampling hits the carry/borrow/boundary patterns with negligible probability.", "anchors": [{"file": "include/AesiMultiprecision/Aeu.h", "symbol": "compareTo"}, {"file": "include/AesiMultiprecision/Aeu.h", "symbol": "operator<=>"}, {"file": "include/AesiMultiprecision/Aeu.h", "symbol": "operator=="}]}
{"id": "C15", "title": "Comparison with built-in unsigned values is numeric", "statement": "For widths N >= 64, ==, != and <=> between an Aeu and a built-in unsigned of 8, 16, 32 or 64 bits agree with the numeric comparison.", "quantifier": "every width N >= 64, every value, every built-in operand", "why_tests_cant": "The operand space has 2^(2N) pairs for each of infinitely many widths; random sampling hits the carry/borrow/boundary patterns with negligible probability.", "anchors": [{"file": "include/AesiMultiprecision/Aeu.h", "symbol": "compareTo(Unsigned)"}, {"file": "include/AesiMultiprecision/Aeu.h", "symbol": "compareTo(uint64_t)"}, {"file": "include/AesiMultiprecision/Aeu.h", "symbol": "operator==(Aeu,Unsigned)"}]}
{"id": "C16", "title": "Equality across precisions is numeric equality", "statement": "For a of width N and b of width M, a == b holds exactly when they represent the same integer.", "quantifier": "every pair of widths, every pair of values", "why_tests_cant": "Pairs of widths times pairs of values cannot be enumerated; tests use equal values of one size.", "anchors": [{"file": "include/AesiMultiprecision/Aeu.h", "symbol": "operator==(Aeu,Aeu<M>)"}, {"file": "include/AesiMultiprecision/Aeu.h", "symbol": "compareTo"}]}
{"id": "C17", "title": "Ordering across precisions is the numeric order", "statement": "For a of width N and b of width M, a < b, a > b, a <= b, a >= b agree with the order of the represented integers.", "quantifier": "every pair of widths, every pair of values", "why_tests_cant": "Tests only order numbers that fit into the narrower width, where the defect does not show.", "anchors": [{"file": "include/AesiMultiprecision/Aeu.h", "symbol": "compareTo"}]}
{"id": "C18", "title": "Bit access is exact and confined", "statement": "getBit(i) is bit i of the value for i < N and false beyond; setBit(i,b) changes bit i to b and nothing else for i < N, and changes nothing for i >= N (checked mode).", "quantifier": "every width, value, 64-bit index and bit", "why_tests_cant": "The operand space has 2^(2N) pairs for each of infinitely many widths; random sampling hits the carry/borrow/boundary patterns with negligible probability.", "anchors": [{"file": "include/AesiMultiprecision/Aeu.h", "symbol": "setBit"}, {"file": "include/AesiMultiprecision/Aeu.h", "symbol": "getBit"}]}
{"id": "C19", "title": "Byte access is exact and confined", "statement": "getByte(i) is byte i of the value for i < N/8 and 0 for every other index; setByte(i,b) changes exactly byte i, and does nothing for an index out of range (documented).", "quantifier": "every width, value, 64-bit index and byte", "why_tests_cant": "The failing index is exactly one past the end; tests only use in-range indices.", "anchors": [{"file": "include/AesiMultiprecision/Aeu.h", "symbol": "setByte"}, {"file": "include/AesiMultiprecision/Aeu.h", "symbol": "getByte"}]}
{"id": "C20", "title": "Block access is exact and confined", "statement": "getBlock(i) is the 32-bit digit i for i < N/32 and 0 beyond; setBlock(i,x) changes exactly digit i, and does nothing beyond.", "quantifier": "every width, value, 64-bit index and block", "why_tests_cant": "The operand space has 2^(2N) pairs for each of infinitely many widths; random sampling hits the carry/borrow/boundary patterns with negligible probability.", "anchors": [{"file": "include/AesiMultiprecision/Aeu.h", "symbol": "setBlock"}, {"file": "include/AesiMultiprecision/Aeu.h", "symbol": "getBlock"}]}
{"id": "C21", "title": "Size and parity observers are exact", "statement": "bitCount is the bit length (0 for zero), byteCount the byte length, filledBlocksNumber the number of significant 32-bit digits, isZero/isOdd/isEven decide zero and parity.", "quantifier": "every width, every value", "why_tests_cant": "The operand space has 2^(2N) pairs for each of infinitely many widths; random sampling hits the carry/borrow/boundary patterns with negligible probability.", "anchors": [{"file": "include/AesiMultiprecision/Aeu.h", "symbol": "bitCount"}, {"file": "include/AesiMultiprecision/Aeu.h", "symbol": "byteCount"}, {"file": "include/AesiMultiprecision/Aeu.h", "symbol": "filledBlocksNumber"}, {"file": "include/AesiMultiprecision/Aeu.h", "symbol": "isOdd"}, {"file": "include/AesiMultiprecision/Aeu.h", "symbol": "isEven"}, {"file": "include/AesiMultiprecision/Aeu.h", "symbol": "isZero"}]}
{"id": "C22", "title": "gcd returns the greatest common divisor and terminates", "statement": "gcd(a, b) terminates and is the greatest common divisor of a and b for all a, b including zero operands (gcd(0,0) = 0), in both overloads.", "quantifier": "every width, every pair of values", "why_tests_cant": "Termination and the zero-operand paths through division by zero cannot be sampled.", "anchors": [{"file": "include/AesiMultiprecision/Aeu.h", "symbol": "gcd"}]}
{"id": "C23", "title": "Extended gcd satisfies the Bezout identity", "statement": "gcd(a, b, x, y) terminates, returns gcd(a,b) and sets x, y with a*x + b*y = gcd(a,b) modulo 2^N.", "quantifier": "every width, every pair of values, every initial content of x and y, also when x or y is the same object as a or b", "why_tests_cant": "Coefficients wrap around as two's complement; tests never read them.", "anchors": [{"file": "include/AesiMultiprecision/Aeu.h", "symbol": "gcd(first,second,bezoutX,bezoutY)"}]}
{"id": "C24", "title": "lcm is the least common multiple modulo 2^N", "statement": "lcm(a, b) is the least common multiple reduced modulo 2^N (hence exact whenever it fits), with lcm(a,0) = lcm(0,b) = 0.", "quantifier": "every width, every pair of values", "why_tests_cant": "The operand space has 2^(2N) pairs for each of infinitely many widths; random sampling hits the carry/borrow/boundary patterns with negligible probability.", "anchors": [{"file": "include/AesiMultiprecision/Aeu.h", "symbol": "lcm"}]}
{"id": "C25", "title": "powm is modular exponentiation", "statement": "powm(base, power, m) with all operands of one width returns base^power mod m for m >= 1 whenever (m-1)^2 < 2^N (no intermediate overflow, the documented caveat).", "quantifier": "every width, base, power and modulus meeting the no-overflow guard", "why_tests_cant": "The operand space has 2^(2N) pairs for each of infinitely many widths; random sampling hits the carry/borrow/boundary patterns with negligible probability.", "anchors": [{"file": "include/AesiMultiprecision/Aeu.h", "symbol": "powm(base,power,mod)"}]}
{"id": "C26", "title": "powm with an exponent of another precision is modular exponentiation", "statement": "powm<M>(base, power, m) with an M-bit power returns base^power mod m whenever (m-1)^2 < 2^N.", "quantifier": "every pair of widths, every base, power, modulus", "why_tests_cant": "Tests draw random bases, never 0 or 1.", "anchors": [{"file": "include/AesiMultiprecision/Aeu.h", "symbol": "powm<powerBitness>"}]}
{"id": "C27", "title": "power2 is the power of two", "statement": "power2(k) is 2^k for k < N and 0 for k >= N.", "quantifier": "every width, every 64-bit k (checked mode)", "why_tests_cant": "The loop in tests covers one width.", "anchors": [{"file": "include/AesiMultiprecision/Aeu.h", "symbol": "power2"}]}
{"id": "C28", "title": "squareRoot is the floor of the square root and terminates", "statement": "a.squareRoot() terminates and returns s with s^2 <= a < (s+1)^2, for every a including 0 and 2^N - 1.", "quantifier": "every width, every value", "why_tests_cant": "Newton iteration: termination and the final comparison must hold for every start value.", "anchors": [{"file": "include/AesiMultiprecision/Aeu.h", "symbol": "squareRoot"}]}
{"id": "C29", "title": "integralCast returns the low bits", "statement": "For N >= 64, integralCast<T>() is the value reduced to T: a mod 2^w for unsigned T of width w, the congruent value in two's complement range for signed T.", "quantifier": "every width N >= 64, every value, every built-in T", "why_tests_cant": "The operand space has 2^(2N) pairs for each of infinitely many widths; random sampling hits the carry/borrow/boundary patterns with negligible probability.", "anchors": [{"file": "include/AesiMultiprecision/Aeu.h", "symbol": "integralCast"}]}
{"id": "C30", "title": "precisionCast reduces or extends", "statement": "precisionCast<M>() yields the value modulo 2^M; widening preserves the value, and narrowing after widening is the identity.", "quantifier": "every pair of widths, every value", "why_tests_cant": "The operand space has 2^(2N) pairs for each of infinitely many widths; random sampling hits the carry/borrow/boundary patterns with negligible probability.", "anchors": [{"file": "include/AesiMultiprecision/Aeu.h", "symbol": "precisionCast"}]}
{"id": "C31", "title": "Construction from built-in unsigned is exact modulo 2^N", "statement": "Aeu<N>(u) represents u mod 2^N (u itself when N >= 64), independently of the previous memory contents.", "quantifier": "every width, every u up to 64 bits, every previous memory content", "why_tests_cant": "The operand space has 2^(2N) pairs for each of infinitely many widths; random sampling hits the carry/borrow/boundary patterns with negligible probability.", "anchors": [{"file": "include/AesiMultiprecision/Aeu.h", "symbol": "Aeu(Integral)"}]}
{"id": "C32", "title": "String construction reads the numeral modulo 2^N", "statement": "A decimal numeral, or a 0b/0o/0x prefixed binary/octal/hexadecimal numeral (either case), constructs its value modulo 2^N; leading non-alphanumeric characters and characters that are not digits of the base are skipped.", "quantifier": "every width, every character string of non-negative codes (7-bit char, or wchar_t); for signed char codes see 'Construction from any char string is defined'", "why_tests_cant": "Strings are unbounded.", "anchors": [{"file": "include/AesiMultiprecision/Aeu.h", "symbol": "Aeu(const Char*, size_t)"}]}
{"id": "C33", "title": "getString writes the numeral in bases 2, 8, 10", "statement": "With a large enough buffer getString<2|8|10> writes the optional prefix, the digits of the value without leading zeros, and (for non-zero values) a terminating NUL, and returns the number of symbols written, NUL included; zero is written as the optional prefix and '0'. Nothing else in the buffer changes.", "quantifier": "every width of at least 64 bits, value, base, buffer content and sufficient size", "why_tests_cant": "The operand space has 2^(2N) pairs for each of infinitely many widths; random sampling hits the carry/borrow/boundary patterns with negligible probability.", "anchors": [{"file": "include/AesiMultiprecision/Aeu.h", "symbol": "getString"}]}
{"id": "C34", "title": "getString<16> writes the hexadecimal numeral", "statement": "With a large enough buffer getString<16> (either case, char or wchar_t) writes the optional 0x, the hexadecimal digits without leading zeros, and (for non-zero values) a NUL, and returns the number of symbols written, NUL included; zero is written as the optional prefix and '0'.", "quantifier": "every width, value, case, buffer content and sufficient size", "why_tests_cant": "The operand space has 2^(2N) pairs for each of infinitely many widths; random sampling hits the carry/borrow/boundary patterns with negligible probability.", "anchors": [{"file": "include/AesiMultiprecision/Aeu.h", "symbol": "getString"}]}
{"id": "C35", "title": "getString never writes outside the buffer", "statement": "getString never writes at or beyond buffer + bufferSize, for any buffer size; it 'places the maximum possible amount of the number's characters in the buffer'.", "quantifier": "every width, value, base and buffer size", "why_tests_cant": "The overrun occurs only when the buffer is shorter than the numeral; tests pass ample buffers.", "anchors": [{"file": "include/AesiMultiprecision/Aeu.h", "symbol": "getString"}]}
{"id": "C36", "title": "Parsing a printed number returns it", "statement": "Constructing an Aeu from the characters getString wrote (with showBase) gives back the same number, for bases 2, 8, 10 (no prefix needed) and 16.", "quantifier": "every width (32 bits: base 16 only), every value, base, buffer of at least N + 3 characters", "why_tests_cant": "The operand space has 2^(2N) pairs for each of infinitely many widths; random sampling hits the carry/borrow/boundary patterns with negligible probability.", "anchors": [{"file": "include/AesiMultiprecision/Aeu.h", "symbol": "getString"}, {"file": "include/AesiMultiprecision/Aeu.h", "symbol": "Aeu(const Char*, size_t)"}]}
{"id": "C37", "title": "Stream insertion prints the numeral", "statement": "os << a writes the decimal, octal or hexadecimal numeral selected by the base flags, with 0o/0x prefix under showbase and upper-case digits under uppercase.", "quantifier": "every width from 96 bits (64 in decimal, 32 in hexadecimal) to 2^53 bits, every value, every flag state with width() = 0; narrower widths: 'Every accepted width supports every operation'", "why_tests_cant": "The operand space has 2^(2N) pairs for each of infinitely many widths; random sampling hits the carry/borrow/boundary patterns with negligible probability.", "anchors": [{"file": "include/AesiMultiprecision/Aeu.h", "symbol": "operator<<(ostream,Aeu)"}]}
{"id": "C38", "title": "Stream insertion leaves the stream's format state unchanged", "statement": "After os << a the stream's format flags, fill character and adjustment are what they were before (only width is reset), as for built-in types.", "quantifier": "every width, value and stream state", "why_tests_cant": "Tests never inspect the stream after printing.", "anchors": [{"file": "include/AesiMultiprecision/Aeu.h", "symbol": "operator<<(ostream,Aeu)"}]}
{"id": "C39", "title": "Binary write then read is the identity", "statement": "writeBinary appends exactly N/8 bytes; readBinary with the same block order applied to a stream starting with those bytes restores the value and leaves the rest of the stream unread; consecutive numbers can be concatenated.", "quantifier": "every width, value, block order, host byte order, following stream content, previous object content", "why_tests_cant": "The operand space has 2^(2N) pairs for each of infinitely many widths; random sampling hits the carry/borrow/boundary patterns with negligible probability.", "anchors": [{"file": "include/AesiMultiprecision/Aeu.h", "symbol": "readBinary"}, {"file": "include/AesiMultiprecision/Aeu.h", "symbol": "writeBinary"}]}
{"id": "C40", "title": "Binary read from a short stream zero-fills", "statement": "readBinary on a stream with fewer than N/8 bytes uses the available bytes in order and zero for all the missing ones, and never touches memory outside the object.", "quantifier": "every width, stream length, content and block order", "why_tests_cant": "Every truncation point must be considered.", "anchors": [{"file": "include/AesiMultiprecision/Aeu.h", "symbol": "readBinary"}]}
{"id": "C41", "title": "swap exchanges two numbers", "statement": "a.swap(b) exchanges the values of a and b; a.swap(a) leaves a unchanged (Aeu and Aesi).", "quantifier": "every width, every pair", "why_tests_cant": "The operand space has 2^(2N) pairs for each of infinitely many widths; random sampling hits the carry/borrow/boundary patterns with negligible probability.", "anchors": [{"file": "include/AesiMultiprecision/Aeu.h", "symbol": "swap"}, {"file": "include/AesiMultiprecision/Aesi.h", "symbol": "swap"}]}
{"id": "C42", "title": "Construction from GMP integers is exact modulo 2^N", "statement": "Aeu<N>(mpz) represents |mpz| mod 2^N and never overruns its conversion buffer; Aesi<N>(mpz) represents mpz whenever |mpz| < 2^N.", "quantifier": "every width, every integer (little-endian host; without AESI_UNSAFE or with |mpz| < 2^N; other hosts and builds: 'Construction from GMP integers on every host and build')", "why_tests_cant": "mpz values are unbounded.", "anchors": [{"file": "include/AesiMultiprecision/Aeu.h", "symbol": "Aeu(const mpz_class&)"}, {"file": "include/AesiMultiprecision/Aesi.h", "symbol": "Aesi(const mpz_class&)"}]}
{"id": "C43", "title": "Signed addition and subtraction are exact when the result fits", "statement": "For well-formed signed a, b: a + b, a += b, a - b, a -= b represent the exact sum/difference whenever its magnitude is below 2^N, and the result is well formed.", "quantifier": "every width, every pair of signs and magnitudes", "why_tests_cant": "The operand space has 2^(2N) pairs for each of infinitely many widths; random sampling hits the carry/borrow/boundary patterns with negligible probability.", "anchors": [{"file": "include/AesiMultiprecision/Aesi.h", "symbol": "operator+="}, {"file": "include/AesiMultiprecision/Aesi.h", "symbol": "operator-="}]}
{"id": "C44", "title": "Signed multiplication is exact when the result fits", "statement": "a * b and a *= b represent the exact product whenever its magnitude is below 2^N.", "quantifier": "every width, every pair", "why_tests_cant": "The operand space has 2^(2N) pairs for each of infinitely many widths; random sampling hits the carry/borrow/boundary patterns with negligible probability.", "anchors": [{"file": "include/AesiMultiprecision/Aesi.h", "symbol": "operator*="}]}
{"id": "C45", "title": "Signed division truncates toward zero", "statement": "For b <> 0, a / b and a /= b represent the quotient truncated toward zero; static divide returns that quotient and the remainder with the sign of the dividend, so that a = q*b + r; division by a zero divisor yields zero.", "quantifier": "every width, every pair of signs and magnitudes", "why_tests_cant": "The operand space has 2^(2N) pairs for each of infinitely many widths; random sampling hits the carry/borrow/boundary patterns with negligible probability.", "anchors": [{"file": "include/AesiMultiprecision/Aesi.h", "symbol": "operator/="}, {"file": "include/AesiMultiprecision/Aesi.h", "symbol": "divide"}]}
{"id": "C46", "title": "Signed modulo is consistent with division", "statement": "For b <> 0, a % b is the remainder of the truncated division, so that a == (a / b) * b + a % b and a % b agrees with divide.", "quantifier": "every width, every pair of signs", "why_tests_cant": "Tests only use a negative modulus where the remainder is 0.", "anchors": [{"file": "include/AesiMultiprecision/Aesi.h", "symbol": "operator%="}]}
{"id": "C47", "title": "Signed comparison is the numeric order", "statement": "For well-formed signed numbers of one width all comparison operators agree with the order of the integers.", "quantifier": "every width, every pair", "why_tests_cant": "The operand space has 2^(2N) pairs for each of infinitely many widths; random sampling hits the carry/borrow/boundary patterns with negligible probability.", "anchors": [{"file": "include/AesiMultiprecision/Aesi.h", "symbol": "compareTo"}, {"file": "include/AesiMultiprecision/Aesi.h", "symbol": "operator<=>"}]}
{"id": "C48", "title": "Signed comparison across precisions is numeric", "statement": "For Aesi<N> a and Aesi<M> b, ==, <, >, <=, >= agree with the integers they represent.", "quantifier": "every pair of widths, every pair of values", "why_tests_cant": "Tests only use values that fit both widths.", "anchors": [{"file": "include/AesiMultiprecision/Aesi.h", "symbol": "compareTo<otherBitness>"}, {"file": "include/AesiMultiprecision/Aesi.h", "symbol": "operator=="}]}
{"id": "C49", "title": "Signed comparison with built-in integers is numeric", "statement": "Comparison of a signed number with a built-in signed or unsigned integer agrees with the integers.", "quantifier": "every width N >= 64, every value, every built-in operand except the most negative 64-bit one", "why_tests_cant": "The operand space has 2^(2N) pairs for each of infinitely many widths; random sampling hits the carry/borrow/boundary patterns with negligible probability.", "anchors": [{"file": "include/AesiMultiprecision/Aesi.h", "symbol": "compareTo(Integral)"}]}
{"id": "C50", "title": "A zero signed number has no residual magnitude", "statement": "Whenever an operation yields a number that is zero (isZero, prints 0, compares equal to 0), its observers agree: isEven, bitCount = 0, byteCount = 0, filledBlocksNumber = 0, getBit = 0, unsignedCast = 0.", "quantifier": "every width, every pair of operands and operation yielding zero", "why_tests_cant": "Tests only check observers on freshly constructed zeros.", "anchors": [{"file": "include/AesiMultiprecision/Aesi.h", "symbol": "operator-="}, {"file": "include/AesiMultiprecision/Aesi.h", "symbol": "operator*="}, {"file": "include/AesiMultiprecision/Aesi.h", "symbol": "isOdd"}, {"file": "include/AesiMultiprecision/Aesi.h", "symbol": "bitCount"}, {"file": "include/AesiMultiprecision/Aesi.h", "symbol": "unsignedCast"}]}
{"id": "C51", "title": "Signed modulo by a built-in integer agrees with signed modulo", "statement": "a % k and a %= k for a built-in k <> 0 represent the remainder; in particular a multiple of k gives a number equal to zero.", "quantifier": "every width, every a, every built-in k", "why_tests_cant": "A random multi-precision value is divisible by a random 64-bit modulus with probability 2^-64.", "anchors": [{"file": "include/AesiMultiprecision/Aesi.h", "symbol": "operator%=(Aesi,Integral)"}]}
{"id": "C52", "title": "Signed construction and assignment from built-in integers is exact", "statement": "Aesi<N>(v) represents v for every built-in signed or unsigned v (N >= 64), independently of previous memory contents.", "quantifier": "every width, every built-in type, every value", "why_tests_cant": "The failing value is the single most negative one of the type.", "anchors": [{"file": "include/AesiMultiprecision/Aesi.h", "symbol": "Aesi(Integral)"}]}
{"id": "C53", "title": "Signed multiplication and division by built-in integers is exact", "statement": "a * k, a *= k represent the exact product when it fits, a / k, a /= k the truncated quotient, for every built-in k.", "quantifier": "every width, every a, every built-in type and value k", "why_tests_cant": "Failures need |k| > 2^32 or k the most negative value.", "anchors": [{"file": "include/AesiMultiprecision/Aesi.h", "symbol": "operator*=(Aesi,Integral)"}, {"file": "include/AesiMultiprecision/Aesi.h", "symbol": "operator/=(Aesi,Integral)"}]}
{"id": "C54", "title": "Signed integralCast returns the value when it fits", "statement": "For signed T, integralCast<T>() returns the represented integer whenever it lies in T's range; otherwise the congruent value.", "quantifier": "every width N >= 64, every value, every T", "why_tests_cant": "The failing value is the most negative one.", "anchors": [{"file": "include/AesiMultiprecision/Aesi.h", "symbol": "integralCast"}]}
{"id": "C55", "title": "Unary operators and steps on signed numbers are exact", "statement": "-a, inverse(), ++a, a++, --a, a-- represent -a, a+1, a-1 (when the magnitude fits), crossing zero correctly.", "quantifier": "every width, every well-formed value", "why_tests_cant": "The operand space has 2^(2N) pairs for each of infinitely many widths; random sampling hits the carry/borrow/boundary patterns with negligible probability.", "anchors": [{"file": "include/AesiMultiprecision/Aesi.h", "symbol": "operator-"}, {"file": "include/AesiMultiprecision/Aesi.h", "symbol": "operator++"}, {"file": "include/AesiMultiprecision/Aesi.h", "symbol": "operator--"}, {"file": "include/AesiMultiprecision/Aesi.h", "symbol": "inverse"}]}
{"id": "C56", "title": "Signed text output is the sign followed by the magnitude numeral", "statement": "getString and stream insertion write '-' for negative numbers, then the magnitude; getString returns the amount of symbols written.", "quantifier": "every width, value, base, flags", "why_tests_cant": "The operand space has 2^(2N) pairs for each of infinitely many widths; random sampling hits the carry/borrow/boundary patterns with negligible probability.", "anchors": [{"file": "include/AesiMultiprecision/Aesi.h", "symbol": "getString"}, {"file": "include/AesiMultiprecision/Aesi.h", "symbol": "operator<<(ostream,Aesi)"}]}
{"id": "C57", "title": "Signed string construction: an odd number of dashes negates", "statement": "Aesi(string) represents the numeral's value, negated when the string contains an odd number of '-' characters; a zero magnitude gives the number zero.", "quantifier": "every width, every string", "why_tests_cant": "Strings are unbounded.", "anchors": [{"file": "include/AesiMultiprecision/Aesi.h", "symbol": "Aesi(const Char*, size_t)"}, {"file": "include/AesiMultiprecision/Aesi.h", "symbol": "traverseDashes"}]}
{"id": "C58", "title": "Conversion between unsigned and signed preserves the value", "statement": "Aesi(Aeu) represents the same integer and is well formed (so a zero converts to a number that isZero); unsignedCast returns the magnitude.", "quantifier": "every width, every value", "why_tests_cant": "The only failing value is zero.", "anchors": [{"file": "include/AesiMultiprecision/Aesi.h", "symbol": "Aesi(const Aeu&)"}, {"file": "include/AesiMultiprecision/Aesi.h", "symbol": "unsignedCast"}]}
{"id": "C59", "title": "Signed precisionCast preserves the value when it fits", "statement": "precisionCast<M>() represents the same integer whenever its magnitude is below 2^M, and in general a well-formed number with the sign kept and the magnitude reduced modulo 2^M.", "quantifier": "every pair of widths, every value", "why_tests_cant": "The operand space has 2^(2N) pairs for each of infinitely many widths; random sampling hits the carry/borrow/boundary patterns with negligible probability.", "anchors": [{"file": "include/AesiMultiprecision/Aesi.h", "symbol": "precisionCast"}]}
{"id": "C60", "title": "Signed squareRoot and power2", "statement": "squareRoot of a positive number is the floor of its root, of zero and negative numbers zero; power2(k) is 2^k for k < N and the number zero for k >= N.", "quantifier": "every width, every value, every k", "why_tests_cant": "The operand space has 2^(2N) pairs for each of infinitely many widths; random sampling hits the carry/borrow/boundary patterns with negligible probability.", "anchors": [{"file": "include/AesiMultiprecision/Aesi.h", "symbol": "squareRoot"}, {"file": "include/AesiMultiprecision/Aesi.h", "symbol": "power2"}]}
{"id": "C61", "title": "Any sequence of unsigned operations computes in Z/2^N", "statement": "Any program of unsigned operations on any number of variables, in any order and with any sharing of operands, leaves every variable holding exactly the value the same program computes on integers modulo 2^N, and never faults.", "quantifier": "every width, every number of variables, every finite operation sequence (history), every initial values", "why_tests_cant": "Histories are unbounded.", "anchors": [{"file": "include/AesiMultiprecision/Aeu.h", "symbol": "operator+="}, {"file": "include/AesiMultiprecision/Aeu.h", "symbol": "operator-="}, {"file": "include/AesiMultiprecision/Aeu.h", "symbol": "operator*="}, {"file": "include/AesiMultiprecision/Aeu.h", "symbol": "divide"}, {"file": "include/AesiMultiprecision/Aeu.h", "symbol": "operator<<="}, {"file": "include/AesiMultiprecision/Aeu.h", "symbol": "operator>>="}]}
{"id": "C62", "title": "Any sequence of signed operations without overflow computes in Z", "statement": "Any program of signed operations (+,-,*,/,unary -,++,--, divide, comparisons) in which no intermediate magnitude reaches 2^N leaves every variable representing exactly the integer the program computes on Z.", "quantifier": "every width, number of variables, history", "why_tests_cant": "Histories are unbounded; residual magnitudes left behind by zeros could surface later.", "anchors": [{"file": "include/AesiMultiprecision/Aesi.h", "symbol": "operator+="}, {"file": "include/AesiMultiprecision/Aesi.h", "symbol": "operator-="}, {"file": "include/AesiMultiprecision/Aesi.h", "symbol": "operator*="}, {"file": "include/AesiMultiprecision/Aesi.h", "symbol": "operator/="}]}
{"id": "C63", "title": "Compound assignment with itself", "statement": "a op= a (same object on both sides) gives the same result as a op= copy-of-a, for every compound operator of Aeu and Aesi.", "quantifier": "every width, every value, every operator", "why_tests_cant": "In-place loops read the operand while overwriting it; tests never alias.", "anchors": [{"file": "include/AesiMultiprecision/Aeu.h", "symbol": "operator+="}, {"file": "include/AesiMultiprecision/Aeu.h", "symbol": "operator-="}, {"file": "include/AesiMultiprecision/Aeu.h", "symbol": "operator*="}, {"file": "include/AesiMultiprecision/Aeu.h", "symbol": "operator^="}, {"file": "include/AesiMultiprecision/Aesi.h", "symbol": "operator*="}, {"file": "include/AesiMultiprecision/Aesi.h", "symbol": "operator-="}]}
{"id": "C64", "title": "divide tolerates outputs that alias inputs", "statement": "divide(n, d, q, r) gives the quotient and remainder also when q or r is the same object as n or d.", "quantifier": "every width, every aliasing pattern, every value", "why_tests_cant": "Tests always pass distinct objects.", "anchors": [{"file": "include/AesiMultiprecision/Aeu.h", "symbol": "divide"}, {"file": "include/AesiMultiprecision/Aesi.h", "symbol": "divide"}]}
{"id": "C65", "title": "tryAtomicSet under concurrency stores only written blocks", "statement": "When any number of threads run tryAtomicSet on one object concurrently, after they all finish every 32-bit block holds the block of one of the written values (the last writer's), under every interleaving; a single writer stores its value exactly.", "quantifier": "every width, number of threads, values and interleaving", "why_tests_cant": "The interleavings cannot be enumerated or controlled on a GPU.", "anchors": [{"file": "include/AesiMultiprecision/Aeu.h", "symbol": "tryAtomicSet"}, {"file": "include/AesiMultiprecision/Aesi.h", "symbol": "tryAtomicSet"}]}
{"id": "C66", "title": "Every accepted width supports every operation", "statement": "For every bitness the class template accepts (a positive multiple of 32 passing the static_assert), integralCast, comparison with 64-bit built-ins and decimal output access only the object's own blocks, and stream insertion prints the complete numeral.", "quantifier": "every accepted width, every value", "why_tests_cant": "Tests instantiate widths of 96 bits and more; the failing width is 32.", "anchors": [{"file": "include/AesiMultiprecision/Aeu.h", "symbol": "static_assert(bitness > sizeof(uint64_t))"}, {"file": "include/AesiMultiprecision/Aeu.h", "symbol": "integralCast"}, {"file": "include/AesiMultiprecision/Aeu.h", "symbol": "compareTo(uint64_t)"}]}
{"id": "C67", "title": "A field width pads the whole number", "statement": "With os.width(w) set, os << a writes the number (prefix and digits) padded to w characters with the fill character, on the side the adjustment selects, as for built-in integers; afterwards width() is 0.", "quantifier": "every width, value, flag state, field width and fill", "why_tests_cant": "Tests never set a field width on a multi-digit number.", "anchors": [{"file": "include/AesiMultiprecision/Aeu.h", "symbol": "operator<<(ostream,Aeu)"}]}
{"id": "C68", "title": "Construction from any char string is defined", "statement": "Aeu(string) has defined behaviour for every std::string, including ones with bytes above 127 (negative char), and skips them like other non-digits.", "quantifier": "every width, every byte string", "why_tests_cant": "Undefined behaviour depends on the C library; a test cannot observe its absence.", "anchors": [{"file": "include/AesiMultiprecision/Aeu.h", "symbol": "Aeu(const Char*, size_t)"}]}
{"id": "C69", "title": "getString terminates its output", "statement": "getString<base> leaves a NUL-terminated string in the buffer whenever the buffer is large enough.", "quantifier": "every width, value, base, buffer content", "why_tests_cant": "Only zero fails, and only if the buffer was not zeroed before.", "anchors": [{"file": "include/AesiMultiprecision/Aeu.h", "symbol": "getString"}]}
{"id": "C70", "title": "Signed getString never writes outside the buffer", "statement": "Aesi::getString never writes at or beyond buffer + bufferSize, for any buffer size.", "quantifier": "every width, value, base and buffer size", "why_tests_cant": "Needs every (value, size) combination.", "anchors": [{"file": "include/AesiMultiprecision/Aesi.h", "symbol": "getString"}]}
{"id": "C71", "title": "Parsing a printed signed number returns it", "statement": "Constructing an Aesi from the symbols getString reports (with showBase, or decimal) gives back the same number, sign included.", "quantifier": "every width (32 bits: base 16 only), every value, base, buffer of at least N + 4 characters", "why_tests_cant": "The operand space has 2^(2N) pairs for each of infinitely many widths; random sampling hits the carry/borrow/boundary patterns with negligible probability.", "anchors": [{"file": "include/AesiMultiprecision/Aesi.h", "symbol": "getString"}, {"file": "include/AesiMultiprecision/Aesi.h", "symbol": "Aesi(const Char*, size_t)"}]}
{"id": "C72", "title": "The binary format has the requested byte order", "statement": "writeBinary(os, true) writes the N/8 bytes of the value most significant first, writeBinary(os, false) least significant first, on every host.", "quantifier": "every width, value, host byte order", "why_tests_cant": "Round-trip tests cannot see the byte order; files are exchanged between programs and hosts.", "anchors": [{"file": "include/AesiMultiprecision/Aeu.h", "symbol": "writeBinary"}]}
{"id": "C73", "title": "Construction from GMP integers on every host and build", "statement": "Aeu<N>(mpz) represents |mpz| mod 2^N whatever the host byte order and whether or not AESI_UNSAFE is defined.", "quantifier": "every width, every integer, every host byte order and build configuration", "why_tests_cant": "Tests run on one host in one configuration.", "anchors": [{"file": "include/AesiMultiprecision/Aeu.h", "symbol": "Aeu(const mpz_class&)"}]}
{"id": "C74", "title": "Equality with a GMP integer is equality of the integers", "statement": "a == mpz holds exactly when the number a represents equals the GMP integer (Aeu and Aesi).", "quantifier": "every width, every value, every integer", "why_tests_cant": "Only integers outside the N-bit range fail.", "anchors": [{"file": "include/AesiMultiprecision/Aeu.h", "symbol": "operator==(__gmp_expr)"}, {"file": "include/AesiMultiprecision/Aesi.h", "symbol": "operator==(__gmp_expr)"}]}
{"id": "C75", "title": "A failing sink leaves a prefix of the file", "statement": "If the stream stops accepting bytes after the first r, writeBinary has written exactly the first r bytes of the complete file, reports the failure in the stream state, and never writes anything after the gap; reading the truncated file gives the number with the missing bytes zero.", "quantifier": "every width, value, block order, host and every failure point r", "why_tests_cant": "Every failure point (crash, full disk) must be considered.", "anchors": [{"file": "include/AesiMultiprecision/Aeu.h", "symbol": "writeBinary"}, {"file": "include/AesiMultiprecision/Aeu.h", "symbol": "readBinary"}]}
{"id": "C76", "title": "Extended gcd tolerates outputs that alias inputs", "statement": "gcd(a, b, x, y) returns gcd(a, b) and stores Bezout coefficients of the original a and b (modulo 2^N) also when x or y is the same object as a or b.", "quantifier": "every width, every sharing pattern with x and y distinct, every value", "why_tests_cant": "Tests always pass distinct objects.", "anchors": [{"file": "include/AesiMultiprecision/Aeu.h", "symbol": "gcd(first,second,bezoutX,bezoutY)"}]}
{"id": "C77", "title": "Unsigned number and unsigned built-in in one expression", "statement": "k + a, k - a, k * a, k / a, k % a, k ^ a, k & a, k | a (built-in on the left) and a - k, a * k, a / k, a % k, a ^ k, a & k, a | k (built-in converted to Aeu) give the arithmetic result modulo 2^N (exact quotient and remainder for a non-zero divisor; bitwise results of the two integers).", "quantifier": "every width of at least 64 bits, every value, every unsigned built-in value up to 64 bits", "why_tests_cant": "The operand space has 2^(2N) pairs for each of infinitely many widths; random sampling hits the carry/borrow/boundary patterns with negligible probability.", "anchors": [{"file": "include/AesiMultiprecision/Aeu.h", "symbol": "friend operator+,-,*,/,%,^,&,| with built-in left operand"}, {"file": "include/AesiMultiprecision/Aeu.h", "symbol": "Aeu(Unsigned)"}]}
{"id": "C78", "title": "Signed number and built-in in one expression", "statement": "For a built-in integer k of any type and width: k + a, a + k, k - a, a - k, k * a, k / a, k % a give the arithmetic result (truncated quotient, remainder with the sign of the dividend) whenever it fits, and never have undefined behaviour.", "quantifier": "every width of at least 64 bits, every value, every built-in integer of every type", "why_tests_cant": "The failing values are the minima of the signed types and negative divisors.", "anchors": [{"file": "include/AesiMultiprecision/Aesi.h", "symbol": "friend operator+,-,*,/,% with built-in left operand"}, {"file": "include/AesiMultiprecision/Aesi.h", "symbol": "Aesi(Integral)"}]}
{"id": "C79", "title": "Signed setters change one digit and keep the sign", "statement": "setBit, setByte, setBlock of an Aesi change exactly the addressed bit, byte or block of the magnitude and leave the sign alone; consequently setting a bit of zero still gives zero and clearing the last bit of a negative number leaves isNegative() true.", "quantifier": "every width, every value, every index in range", "why_tests_cant": "The operand space has 2^(2N) pairs for each of infinitely many widths; random sampling hits the carry/borrow/boundary patterns with negligible probability.", "anchors": [{"file": "include/AesiMultiprecision/Aesi.h", "symbol": "setBit"}, {"file": "include/AesiMultiprecision/Aesi.h", "symbol": "setByte"}, {"file": "include/AesiMultiprecision/Aesi.h", "symbol": "setBlock"}]}
{"id": "C80", "title": "Signed overflow wraps the magnitude", "statement": "If a + b, a - b, a * b, ++a or --a does not fit N magnitude bits, the result is a valid number with the sign of the exact result and its magnitude modulo 2^N.", "quantifier": "every width, every pair of values whose result overflows", "why_tests_cant": "Only overflowing pairs matter and the failing ones are multiples of 2^N.", "anchors": [{"file": "include/AesiMultiprecision/Aesi.h", "symbol": "operator+"}, {"file": "include/AesiMultiprecision/Aesi.h", "symbol": "operator-"}, {"file": "include/AesiMultiprecision/Aesi.h", "symbol": "operator*"}, {"file": "include/AesiMultiprecision/Aesi.h", "symbol": "operator++"}, {"file": "include/AesiMultiprecision/Aesi.h", "symbol": "operator--"}]}
{"id": "C81", "title": "Relational operators, with or without <=>, and with the built-in on the left", "statement": "a < b, a <= b, a > b, a >= b of builds without <=>, and k < a, k <= a, k > a, k >= a, k == a with a built-in k on the left, agree with the order of the integers (Aeu and Aesi).", "quantifier": "every width (64 bits and more for built-ins), every value, every built-in value in range", "why_tests_cant": "The operand space has 2^(2N) pairs for each of infinitely many widths; random sampling hits the carry/borrow/boundary patterns with negligible probability.", "anchors": [{"file": "include/AesiMultiprecision/Aeu.h", "symbol": "operator<,>,<=,>= (without <=>)"}, {"file": "include/AesiMultiprecision/Aeu.h", "symbol": "operator<=>(Unsigned)"}, {"file": "include/AesiMultiprecision/Aesi.h", "symbol": "operator<=>(Integral)"}]}
{"id": "C82", "title": "Comparing an unsigned number with a signed built-in", "statement": "a == k, a < k, a > k with k of a signed built-in type agree with the order of the integers.", "quantifier": "every width of at least 64 bits, every value, every k", "why_tests_cant": "Only negative k fail.", "anchors": [{"file": "include/AesiMultiprecision/Aeu.h", "symbol": "operator==(integral)"}, {"file": "include/AesiMultiprecision/Aeu.h", "symbol": "operator<=>(integral)"}]}
{"id": "C83", "title": "Observers of a signed number", "statement": "isZero, isPositive, isNegative, isOdd, isEven, bitCount, byteCount, filledBlocksNumber, getBit, getByte, getBlock, unsignedCast of an Aesi describe the sign and the digits of |value|.", "quantifier": "every width, every value, every index in range", "why_tests_cant": "The operand space has 2^(2N) pairs for each of infinitely many widths; random sampling hits the carry/borrow/boundary patterns with negligible probability.", "anchors": [{"file": "include/AesiMultiprecision/Aesi.h", "symbol": "isZero"}, {"file": "include/AesiMultiprecision/Aesi.h", "symbol": "isPositive"}, {"file": "include/AesiMultiprecision/Aesi.h", "symbol": "isNegative"}, {"file": "include/AesiMultiprecision/Aesi.h", "symbol": "bitCount"}, {"file": "include/AesiMultiprecision/Aesi.h", "symbol": "getBit"}, {"file": "include/AesiMultiprecision/Aesi.h", "symbol": "unsignedCast"}]}
{"id": "C84", "title": "The laws of arithmetic hold between calls", "statement": "Addition and multiplication of Aeu are commutative, associative, distributive, with inverses; ~, &, |, ^ obey De Morgan and x ^ y ^ y == x; ~x + 1 == -x; (a / b) * b + a % b == a; shifts compose and equal multiplication or division by power2; gcd(a,b) * lcm(a,b) == a * b (mod 2^N): both sides are the same object state, with no fault on either side.", "quantifier": "every width, every triple of values, every shift", "why_tests_cant": "Algebraic laws quantify over all operands.", "anchors": [{"file": "include/AesiMultiprecision/Aeu.h", "symbol": "operator+"}, {"file": "include/AesiMultiprecision/Aeu.h", "symbol": "operator*"}, {"file": "include/AesiMultiprecision/Aeu.h", "symbol": "operator~"}, {"file": "include/AesiMultiprecision/Aeu.h", "symbol": "operator<<"}, {"file": "include/AesiMultiprecision/Aeu.h", "symbol": "gcd"}, {"file": "include/AesiMultiprecision/Aeu.h", "symbol": "lcm"}, {"file": "include/AesiMultiprecision/Aeu.h", "symbol": "power2"}]}
{"id": "C85", "title": "The README's factorial program prints k!", "statement": "Aeu<N> f = 1u; for (unsigned i = 2; i <= k; ++i) f *= i; leaves k! mod 2^N in f, and std::cout << std::showbase << std::hex << f prints 0x and the hexadecimal numeral of it.", "quantifier": "every width of at least 96 bits, every k below 2^32 - 1", "why_tests_cant": "README shows one k; the loop must be right for all.", "anchors": [{"file": "include/AesiMultiprecision/Aeu.h", "symbol": "operator*=(Unsigned)"}, {"file": "include/AesiMultiprecision/Aeu.h", "symbol": "operator<<(ostream,Aeu)"}]}
{"id": "C86", "title": "Modular power after widening both operands", "statement": "Aeu<M>::powm(base.precisionCast<M>(), power.precisionCast<M>(), mod) is base^power mod mod whenever 1 < mod and (mod-1)^2 < 2^M; in particular M = 2N always suffices for an N-bit modulus.", "quantifier": "every pair of widths N, K <= M, every base, power and modulus", "why_tests_cant": "The operand space has 2^(2N) pairs for each of infinitely many widths; random sampling hits the carry/borrow/boundary patterns with negligible probability.", "anchors": [{"file": "include/AesiMultiprecision/Aeu.h", "symbol": "powm"}, {"file": "include/AesiMultiprecision/Aeu.h", "symbol": "precisionCast"}]}
{"id": "C87", "title": "Mixed-precision modular power after widening base and modulus", "statement": "Aeu<M>::powm(base.precisionCast<M>(), power, modulo.precisionCast<M>()) with a power of another width is base^power mod modulo whenever 1 < modulo and (modulo-1)^2 < 2^M.", "quantifier": "every pair of widths, every base, power and modulus", "why_tests_cant": "Only base 0 fails.", "anchors": [{"file": "include/AesiMultiprecision/Aeu.h", "symbol": "powm<powerBitness>"}, {"file": "include/AesiMultiprecision/Aeu.h", "symbol": "precisionCast"}]}
{"id": "C88", "title": "A built-in value survives the way through the library", "statement": "Aesi<N> x = v; x.integralCast<T>() == v for every v of the built-in type T; the same for Aeu and unsigned T.", "quantifier": "every width of at least 64 bits, every integral type, every value", "why_tests_cant": "Only the minima of the signed types fail.", "anchors": [{"file": "include/AesiMultiprecision/Aesi.h", "symbol": "Aesi(Integral)"}, {"file": "include/AesiMultiprecision/Aesi.h", "symbol": "integralCast"}, {"file": "include/AesiMultiprecision/Aeu.h", "symbol": "integralCast"}]}
{"id": "C89", "title": "Text in, computation, text out", "statement": "A program that constructs its numbers from strings, computes with Aeu operations, branches and loops, and prints a result with operator<< prints the numeral (in the stream's base) of what the program computes on N-bit integers.", "quantifier": "every width of at least 96 bits, every list of strings, every program over the interface that stays in the promised domain, every flag state", "why_tests_cant": "Quantifies over all programs and texts.", "anchors": [{"file": "include/AesiMultiprecision/Aeu.h", "symbol": "Aeu(const std::basic_string<Char>&)"}, {"file": "include/AesiMultiprecision/Aeu.h", "symbol": "operator<<(ostream,Aeu)"}]}
{"id": "C90", "title": "Signed text in, computation, text out", "statement": "The same for Aesi: input strings with dashes, exact integer arithmetic as long as nothing overflows, output with a minus sign for negative results.", "quantifier": "every width of at least 96 bits, every list of strings, every signed program that does not overflow, every flag state", "why_tests_cant": "Quantifies over all programs and texts.", "anchors": [{"file": "include/AesiMultiprecision/Aesi.h", "symbol": "Aesi(const std::basic_string<Char>&)"}, {"file": "include/AesiMultiprecision/Aesi.h", "symbol": "operator<<(ostream,Aesi)"}]}
{"id": "C91", "title": "Numbers can be keys of ordered containers", "statement": "< is a strict total order (irreflexive, transitive, exactly one of <, ==, > holds, a < b iff b > a), and two numbers neither of which is less are ==; for Aeu == holds only between identical states.", "quantifier": "every width, every triple of values (Aeu and Aesi)", "why_tests_cant": "The order axioms quantify over triples of values.", "anchors": [{"file": "include/AesiMultiprecision/Aeu.h", "symbol": "operator<=>"}, {"file": "include/AesiMultiprecision/Aeu.h", "symbol": "operator=="}, {"file": "include/AesiMultiprecision/Aesi.h", "symbol": "operator<=>"}, {"file": "include/AesiMultiprecision/Aesi.h", "symbol": "operator=="}]}
{"id": "C92", "title": "Results do not depend on the build configuration", "statement": "A program that stays in the promised domain leaves the same numbers with or without AESI_UNSAFE and NDEBUG and whether or not unsigned long long is uint64_t.", "quantifier": "every width, every program in the promised domain, every pair of configurations, every initial state", "why_tests_cant": "Each configuration is a different binary; tests build one.", "anchors": [{"file": "include/AesiMultiprecision/Aeu.h", "symbol": "AESI_UNSAFE"}, {"file": "include/AesiMultiprecision/Aeu.h", "symbol": "setBit"}, {"file": "include/AesiMultiprecision/Aeu.h", "symbol": "operator*=(Unsigned)"}]}
{"id": "C93", "title": "The laws of signed arithmetic hold between calls", "statement": "Addition and multiplication of Aesi are commutative, associative and distributive, a - b == a + (-b) == -(b - a), -(-a) == a, a - a == 0, (-a) / b == -(a / b), and (a / b) * b + a % b == a for b > 0, whenever the intermediate results fit: both sides finish and == says they are equal.", "quantifier": "every width, every triple of values whose intermediate results fit", "why_tests_cant": "Algebraic laws quantify over all operands.", "anchors": [{"file": "include/AesiMultiprecision/Aesi.h", "symbol": "operator+"}, {"file": "include/AesiMultiprecision/Aesi.h", "symbol": "operator-"}, {"file": "include/AesiMultiprecision/Aesi.h", "symbol": "operator*"}, {"file": "include/AesiMultiprecision/Aesi.h", "symbol": "operator/"}, {"file": "include/AesiMultiprecision/Aesi.h", "symbol": "operator%"}, {"file": "include/AesiMultiprecision/Aesi.h", "symbol": "operator=="}]}
{"id": "C94", "title": "Several insertions print the numbers one after the other", "statement": "os << a << b << ... prints exactly what inserting each number into a stream with os's flags prints, one after the other.", "quantifier": "every width of at least 96 bits, every sequence of values, every flag state", "why_tests_cant": "Format state carried between insertions; the first differing element matters.", "anchors": [{"file": "include/AesiMultiprecision/Aeu.h", "symbol": "operator<<(ostream,Aeu)"}]}
{"id": "C95", "title": "Key agreement", "statement": "powm(powm(g, x, p), y, p) == powm(powm(g, y, p), x, p) == g^(x*y) mod p for every modulus p > 1 with (p-1)^2 < 2^N.", "quantifier": "every width, every g, x, y, p", "why_tests_cant": "The operand space has 2^(2N) pairs for each of infinitely many widths; random sampling hits the carry/borrow/boundary patterns with negligible probability.", "anchors": [{"file": "include/AesiMultiprecision/Aeu.h", "symbol": "powm"}]}
{"id": "C96", "title": "Radix conversion", "statement": "Constructing an Aeu from a numeral in base 2, 8, 10 or 16 (with its prefix) and inserting it into a stream prints the numeral of the same integer in the stream's base.", "quantifier": "every width of at least 96 bits, every integer below 2^N, every pair of bases", "why_tests_cant": "The operand space has 2^(2N) pairs for each of infinitely many widths; random sampling hits the carry/borrow/boundary patterns with negligible probability.", "anchors": [{"file": "include/AesiMultiprecision/Aeu.h", "symbol": "Aeu(const Char*, size_t)"}, {"file": "include/AesiMultiprecision/Aeu.h", "symbol": "operator<<(ostream,Aeu)"}]}
{"id": "C97", "title": "Pollard's p-1 factorisation returns true factors", "statement": "factorize(number, primes) (sanitize/unsigned) never faults; a value it returns is greater than 1 and divides number; and it does return one whenever number > 1 has an odd prime factor p with p - 1 dividing the product of the exponents it accumulated ((number-1)^2 < 2^N).", "quantifier": "every pair of widths, every number, every list of prime-power factors", "why_tests_cant": "Quantifies over all numbers and factor lists; the program's own run tests two numbers.", "anchors": [{"file": "sanitize/unsigned/main.cpp", "symbol": "factorize"}, {"file": "include/AesiMultiprecision/Aeu.h", "symbol": "powm<powerBitness>"}, {"file": "include/AesiMultiprecision/Aeu.h", "symbol": "gcd"}, {"file": "include/AesiMultiprecision/Aeu.h", "symbol": "bitCount"}, {"file": "include/AesiMultiprecision/Aeu.h", "symbol": "operator*=(Unsigned)"}]}
{"id": "C98", "title": "The signed extended Euclidean algorithm is exact", "statement": "extendedGcd(a, b, x, y) (sanitize/signed) of non-negative a and b terminates, returns gcd(a, b) and stores x, y with a*x + b*y == gcd(a, b) exactly, |x| * gcd <= max(gcd, b), |y| * gcd <= max(gcd, a), with no intermediate overflow; checkBezout(a, b) passes for operands of any signs whose least common multiple is below 2^N.", "quantifier": "every width of at least 64 bits, every pair of values", "why_tests_cant": "Quantifies over all pairs; overflow needs particular pairs.", "anchors": [{"file": "sanitize/signed/main.cpp", "symbol": "extendedGcd"}, {"file": "sanitize/signed/main.cpp", "symbol": "checkBezout"}, {"file": "include/AesiMultiprecision/Aesi.h", "symbol": "operator%"}, {"file": "include/AesiMultiprecision/Aesi.h", "symbol": "operator/"}, {"file": "include/AesiMultiprecision/Aesi.h", "symbol": "operator*"}, {"file": "include/AesiMultiprecision/Aesi.h", "symbol": "operator-"}]}
{"id": "C99", "title": "The self-checks of the signed sanitizer program never fail", "statement": "squareRoot(power2(p))^2 == power2(p) exactly for even p below N; q*b + r == a after divide(a, b, q, r) for every b != 0; ++ and -- across zero; primeProduct returns the product whenever it fits.", "quantifier": "every width, every even exponent, every pair of values, every list of factors", "why_tests_cant": "The program checks twenty exponents and one pair.", "anchors": [{"file": "sanitize/signed/main.cpp", "symbol": "checkSignedOps"}, {"file": "sanitize/signed/main.cpp", "symbol": "primeProduct"}, {"file": "include/AesiMultiprecision/Aesi.h", "symbol": "squareRoot"}, {"file": "include/AesiMultiprecision/Aesi.h", "symbol": "power2"}, {"file": "include/AesiMultiprecision/Aesi.h", "symbol": "divide"}]}
{"id": "C100", "title": "RSA decrypts what it encrypts", "statement": "With m = p*q for distinct primes, phi = (p-1)(q-1), e coprime to phi and d computed from gcd(e, phi, x, y) (adding phi if the top bit of x is set), powm(powm(msg, e, m), d, m) == msg for every msg < m, provided (m-1)^2 < 2^N.", "quantifier": "every width, every pair of distinct primes, every public exponent and message", "why_tests_cant": "The operand space has 2^(2N) pairs for each of infinitely many widths; random sampling hits the carry/borrow/boundary patterns with negligible probability.", "anchors": [{"file": "include/AesiMultiprecision/Aeu.h", "symbol": "gcd(first,second,bezoutX,bezoutY)"}, {"file": "include/AesiMultiprecision/Aeu.h", "symbol": "powm"}, {"file": "include/AesiMultiprecision/Aeu.h", "symbol": "getBit"}, {"file": "include/AesiMultiprecision/Aeu.h", "symbol": "operator+"}]}
{"id": "C101", "title": "powm for every operand", "statement": "Both overloads of powm finish for every operand. For a modulus m >= 2 the result is below m, even if products overflow. If m >= 1 and (m-1)^2 < 2^N, or m is a power of two, or m == 0 (which acts as 2^N), the result is base^power mod m, except that it is 1 when power == 0 and, in the overload with its own exponent precision, when base is 0 or 1.", "quantifier": "every width, every pair of precisions, every base, power and modulus", "why_tests_cant": "The operand space has 2^(2N) pairs for each of infinitely many widths; random sampling hits the carry/borrow/boundary patterns with negligible probability.", "anchors": [{"file": "include/AesiMultiprecision/Aeu.h", "symbol": "powm"}, {"file": "include/AesiMultiprecision/Aeu.h", "symbol": "powm<powerBitness>"}]}
{"id": "C102", "title": "64-bit built-in operands: the exact result", "statement": "a += u with a 64-bit u gives (a + u) mod 2^N, less 2^64 exactly when the low 32 bits of a plus u reach 2^64. a *= u with a 64-bit type that is not uint64_t never faults and gives (a * u) mod 2^N if and only if, for every block i below the two top ones, (a mod 2^(32(i+1))) * u < 2^(32(i+2)).", "quantifier": "every width, every value, every 64-bit operand", "why_tests_cant": "The wrap needs particular pairs of operands; an iff quantifies over all of them.", "anchors": [{"file": "include/AesiMultiprecision/Aeu.h", "symbol": "operator+=(Unsigned)"}, {"file": "include/AesiMultiprecision/Aeu.h", "symbol": "operator*=(Unsigned)"}]}
{"id": "C103", "title": "Exactly which draws the addition, multiplication, bitwise and increment tests accept", "statement": "The randomized comparisons with GMP of +, += , *, *= (Aeu, with an Aeu or a 32-bit built-in operand) and ++ accept every non-negative draw, also when the result wraps; ^, &, | and their assignments every pair below 2^N; +, - and * of Aesi (all sign combinations) every pair whose sizes keep the result below 2^N; with a long operand Aesi + and - accept every draw except LONG_MIN, which is undefined behaviour; with an unsigned operand Aesi * accepts every draw. A suite passes if and only if every trial passes.", "quantifier": "every width, every number of trials, every draw", "why_tests_cant": "A test run samples some draws; the claim is about every draw the generator can make.", "anchors": [{"file": "test/generation.h", "symbol": "runCompositeTest"}, {"file": "test/generation.h", "symbol": "runSignedCompositeTest"}, {"file": "test/arithmetic/addition/addition.cpp", "symbol": "runIncrementLoop"}, {"file": "test/arithmetic/multiplication/multiplication.cpp", "symbol": "TEST"}, {"file": "test/bitwise/binary.cpp", "symbol": "runBitwiseTest"}]}
{"id": "C104", "title": "Exactly which draws the subtraction and decrement tests accept", "statement": "The unsigned subtraction trial (draws l, r) passes if and only if r <= l or r - l is exactly half of 2^N; with a 32-bit built-in operand k if and only if k <= l; the unsigned decrement loop of d double steps if and only if 2d <= l; the signed decrement loop always while |l| + 2d < 2^N. There are draws of the sizes the project's tests ask for that fail.", "quantifier": "every width, every draw", "why_tests_cant": "A test run samples some draws; the claim is about every draw the generator can make.", "anchors": [{"file": "test/arithmetic/subtraction/subtraction.cpp", "symbol": "runDecrementLoop"}, {"file": "test/arithmetic/subtraction/subtraction.cpp", "symbol": "TEST"}, {"file": "include/AesiMultiprecision/Aeu.h", "symbol": "operator-="}]}
{"id": "C105", "title": "Exactly which draws the division and modulo tests accept", "statement": "Unsigned division and modulo trials, signed division (any signs) and signed modulo of non-negative draws accept every pair with a non-zero divisor (GMP raises a signal for a zero divisor), and so do the trials with built-in divisors, except that the signed modulo trial with a built-in operand fails exactly when the number is non-zero and the remainder is zero.", "quantifier": "every width, every draw, every sign combination", "why_tests_cant": "A test run samples some draws; the claim is about every draw the generator can make.", "anchors": [{"file": "test/arithmetic/division/division.cpp", "symbol": "TEST"}, {"file": "test/arithmetic/modulo/modulo.cpp", "symbol": "TEST"}, {"file": "include/AesiMultiprecision/Aesi.h", "symbol": "operator%=(Integral)"}]}
{"id": "C106", "title": "Exactly which draws the number-theory tests accept", "statement": "The powm trial accepts every draw with a non-zero modulus m, (m-1)^2 < 2^N, except power 0 with modulus 1; the trial with a different exponent precision also rejects base 0 with a positive power (and small bases with modulus 1); the gcd and lcm trials accept every draw.", "quantifier": "every pair of widths, every draw", "why_tests_cant": "A test run samples some draws; the claim is about every draw the generator can make.", "anchors": [{"file": "test/number-theory.cpp", "symbol": "TEST"}, {"file": "include/AesiMultiprecision/Aeu.h", "symbol": "powm"}, {"file": "include/AesiMultiprecision/Aeu.h", "symbol": "powm<powerBitness>"}, {"file": "include/AesiMultiprecision/Aeu.h", "symbol": "gcd"}, {"file": "include/AesiMultiprecision/Aeu.h", "symbol": "lcm"}]}
{"id": "C107", "title": "Exactly which draws the bit, byte and block tests accept", "statement": "The bit-count trial accepts every draw except 0; setting every bit (or byte) of a number from GMP's and reading it back is accepted for every draw (the signed trials fail on draw 0); the block trial is accepted for every draw of at least 2^24 and does not terminate below.", "quantifier": "every width, every draw", "why_tests_cant": "A test run samples some draws; the claim is about every draw the generator can make.", "anchors": [{"file": "test/bitwise/manipulations/manipulations.cpp", "symbol": "testCountBitsBytes"}, {"file": "test/bitwise/manipulations/manipulations.cpp", "symbol": "TEST"}, {"file": "include/AesiMultiprecision/Aeu.h", "symbol": "setBlock"}, {"file": "include/AesiMultiprecision/Aeu.h", "symbol": "bitCount"}]}
{"id": "C108", "title": "Every draw passes the comparison, parity, square-root and shift tests", "statement": "checkComparisons accepts every pair of draws, for Aeu and for Aesi with any signs; isEven/isOdd agree with GMP; squareRoot agrees with mpz_sqrt (and is 0 for negative numbers); << and >> by less than N agree with GMP.", "quantifier": "every width, every draw, every shift below the width", "why_tests_cant": "A test run samples some draws; the claim is about every draw the generator can make.", "anchors": [{"file": "test/boolean/boolean.cpp", "symbol": "checkComparisons"}, {"file": "test/arithmetic/odd_even.cpp", "symbol": "TEST"}, {"file": "test/arithmetic/square-root.cpp", "symbol": "TEST"}, {"file": "test/bitwise/shift.cpp", "symbol": "TEST"}]}
{"id": "C109", "title": "Exactly which draws the tests that compare with text accept", "statement": "power2(i) equals the number read from GMP's hexadecimal text of 2^i for every i below N, and power2(N) == 0; the complement trial accepts every draw except 0; inserting a number made from any mpz into a fresh stream prints exactly GMP's decimal text, signed and unsigned.", "quantifier": "every width, every draw", "why_tests_cant": "A test run samples some draws; the claim is about every draw the generator can make.", "anchors": [{"file": "test/arithmetic/power2.cpp", "symbol": "TEST"}, {"file": "test/bitwise/not.cpp", "symbol": "TEST"}, {"file": "test/operations/initialization/gmp-integration.cpp", "symbol": "TEST"}]}
{"id": "C110", "title": "Exactly which draws the cast and binary stream tests accept", "statement": "integralCast returns every drawn uint64_t/uint32_t and every drawn int64_t/int32_t except INT64_MIN and INT32_MIN, which are undefined behaviour; precisionCast to every wider precision compares equal to the original; reading the bytes of any blocks in either order gives the number of their hexadecimal text, and writing followed by block-wise reading gives the number back, on hosts of either byte order.", "quantifier": "every width, every draw, every list of blocks, both byte orders", "why_tests_cant": "A test run samples some draws; the claim is about every draw the generator can make.", "anchors": [{"file": "test/operations/casts/integral_cast.cpp", "symbol": "TEST"}, {"file": "test/operations/casts/precision_cast.cpp", "symbol": "TEST"}, {"file": "test/operations/binary_io.cpp", "symbol": "TEST"}]}
{"id": "C111", "title": "AESI_UNSAFE changes nothing inside the number and always stops outside", "statement": "setBit, getBit, setByte, getByte, setBlock, getBlock of Aeu and Aesi, and power2, give identical results in builds with and without AESI_UNSAFE and NDEBUG for every index inside the number; with AESI_UNSAFE an index outside fails the assert, or (NDEBUG, and always for blocks) accesses memory outside the object.", "quantifier": "every width, number, index, value and build configuration", "why_tests_cant": "The suite is built in one configuration; the claim compares all of them for every index.", "anchors": [{"file": "include/AesiMultiprecision/Aeu.h", "symbol": "setBit"}, {"file": "include/AesiMultiprecision/Aeu.h", "symbol": "getBit"}, {"file": "include/AesiMultiprecision/Aeu.h", "symbol": "setByte"}, {"file": "include/AesiMultiprecision/Aeu.h", "symbol": "getByte"}, {"file": "include/AesiMultiprecision/Aeu.h", "symbol": "setBlock"}, {"file": "include/AesiMultiprecision/Aeu.h", "symbol": "getBlock"}, {"file": "include/AesiMultiprecision/Aeu.h", "symbol": "power2"}, {"file": "include/AesiMultiprecision/Aesi.h", "symbol": "setBit"}]}
{"id": "C112", "title": "A program's results do not depend on AESI_UNSAFE or NDEBUG", "statement": "Comparison, division, gcd, lcm, Bezout coefficients, powm, squareRoot, precisionCast, getString and stream insertion give the same result in every build. A sequence of library calls with loops and branches whose bit indices lie inside the numbers runs identically in every build; for any other program a build with AESI_UNSAFE either faults or ends in exactly the state the checked build ends in.", "quantifier": "every program over the public calls, every initial state, every width, every pair of configurations", "why_tests_cant": "A relation between two builds over all programs and inputs.", "anchors": [{"file": "include/AesiMultiprecision/Aeu.h", "symbol": "divide"}, {"file": "include/AesiMultiprecision/Aeu.h", "symbol": "gcd"}, {"file": "include/AesiMultiprecision/Aeu.h", "symbol": "powm"}, {"file": "include/AesiMultiprecision/Aeu.h", "symbol": "squareRoot"}, {"file": "include/AesiMultiprecision/Aeu.h", "symbol": "getString"}, {"file": "include/AesiMultiprecision/Aeu.h", "symbol": "operator<<"}, {"file": "include/AesiMultiprecision/Aesi.h", "symbol": "operator+="}, {"file": "include/AesiMultiprecision/Aesi.h", "symbol": "divide"}]}
{"id": "C113", "title": "getString with an understated size", "statement": "When bufferSize is smaller than the text but the array behind the pointer is larger: in bases 2, 8 and 10 the low-order digits that fit are written (the high-order digits are dropped silently), the NUL goes to index bufferSize and bufferSize + 1 is returned; in base 16 (char) the full length is returned, whole blocks of eight digits before and after the stated end are written, the block across it is cut off by a NUL at bufferSize - 1 and a block starting exactly there is skipped.", "quantifier": "every number, width, array content, stated size, prefix setting and letter case", "why_tests_cant": "The result depends on the content of the whole array, the position of the block boundaries and the size.", "anchors": [{"file": "include/AesiMultiprecision/Aeu.h", "symbol": "getString"}]}
{"id": "C114", "title": "The CUDA smoke kernels compute (a + b) * b for any pointers", "statement": "`*out = *a + *b; *out *= *b;` stores (a + b) * b modulo 2^N (unsigned), or (a + b) * b when neither step overflows (signed), whichever of the three pointers coincide (with out = b the factor is the freshly stored sum), and changes no other object.", "quantifier": "every width, every store, every aliasing of a, b, out", "why_tests_cant": "The smoke test runs one pair of values and does not look at the result.", "anchors": [{"file": "ci/cuda/smoke.cu", "symbol": "unsignedKernel"}, {"file": "ci/cuda/smoke.cu", "symbol": "signedKernel"}, {"file": "include/AesiMultiprecision/Aeu.h", "symbol": "operator+"}, {"file": "include/AesiMultiprecision/Aeu.h", "symbol": "operator*="}, {"file": "include/AesiMultiprecision/Aesi.h", "symbol": "operator*="}]}
{"id": "C115", "title": "A hexadecimal literal with digit separators is printed back", "statement": "The integration program, for any literal 0x... : the number printed with std::hex and std::showbase is 0x followed by the digits of the literal without the ' separators (reduced modulo 2^N if too long), then a newline.", "quantifier": "every literal, separator placement, width, stream case flag", "why_tests_cant": "The program prints one literal and nothing checks it.", "anchors": [{"file": "ci/integration/main.cpp", "symbol": "main"}, {"file": "include/AesiMultiprecision/Aeu.h", "symbol": "Aeu"}, {"file": "include/AesiMultiprecision/Aeu.h", "symbol": "operator<<"}]}
{"id": "C116", "title": "The benchmark bodies compute what they are compared with", "statement": "For any literals and any number of iterations the addition, subtraction, multiplication, division, modulo and gcd benchmarks leave the operation's result modulo 2^N, and the powm benchmark the modular power when the modulus squared fits. With the literals in the source: addition is the true sum; the product does not fit the 4192 bits chosen (the result is smaller than the product GMP computes); powm's modulus is too large for 512 bits.", "quantifier": "every pair (triple) of literals, width, iteration count", "why_tests_cant": "Benchmarks discard their results.", "anchors": [{"file": "benchmark/addition.cpp", "symbol": "addition_Aesi"}, {"file": "benchmark/subtraction.cpp", "symbol": "subtraction_Aesi"}, {"file": "benchmark/multiplication.cpp", "symbol": "multiplication_Aesi"}, {"file": "benchmark/division.cpp", "symbol": "division_Aesi"}, {"file": "benchmark/modulo.cpp", "symbol": "modulo_Aesi"}, {"file": "benchmark/gcd.cpp", "symbol": "gcd_Aesi"}, {"file": "benchmark/powm.cpp", "symbol": "powm_Aesi"}]}
{"id": "C117", "title": "Signed division and modulo by zero return zero", "statement": "Dividing a signed number by zero, taking it modulo zero (number or built-in) and divide with a zero divisor never fault and return zero (both results of divide).", "quantifier": "every number, width, build configuration, old content of the output objects", "why_tests_cant": "Must hold for every number; the suite never divides a signed number by zero.", "anchors": [{"file": "include/AesiMultiprecision/Aesi.h", "symbol": "operator/="}, {"file": "include/AesiMultiprecision/Aesi.h", "symbol": "operator%="}, {"file": "include/AesiMultiprecision/Aesi.h", "symbol": "divide"}]}
{"id": "C118", "title": "Signed number times, divided by or modulo a built-in: every operand", "statement": "For every value k of every built-in type: the minimum of a 32- or 64-bit signed type is undefined behaviour; the minimum of a narrower type acts as -(2^64 + k); every other k acts as itself. The product has sign sign(a)*sign(k) and magnitude |a|*|k| mod 2^N where unsigned long long is uint64_t, and otherwise exactly when no partial product of a low part of |a| and |k| reaches 2^(32(i+2)); division and modulo use |k| mod 2^N, and only a 32-bit number with a 64-bit operand can meet a zero divisor there.", "quantifier": "every number, width, built-in type and value, both kinds of platform", "why_tests_cant": "The failing operands are sparse: the condition ranges over all blocks of the number.", "anchors": [{"file": "include/AesiMultiprecision/Aesi.h", "symbol": "operator*="}, {"file": "include/AesiMultiprecision/Aesi.h", "symbol": "operator/="}, {"file": "include/AesiMultiprecision/Aesi.h", "symbol": "operator%="}, {"file": "include/AesiMultiprecision/Aeu.h", "symbol": "operator*="}]}
{"id": "C119", "title": "Signed getString at every size", "statement": "Zero: with showBase the text is written if it fits the stated size and nothing otherwise (0 returned); without showBase '0' is written at any stated size. A negative number with a size too small: the dash, then in bases 2, 8 and 10 the low-order digits that fit, in base 16 the blocks of eight digits around the stated end as for unsigned numbers.", "quantifier": "every number, width, array content, stated size, prefix setting, letter case", "why_tests_cant": "The result depends on the whole array content and the position of block boundaries.", "anchors": [{"file": "include/AesiMultiprecision/Aesi.h", "symbol": "getString"}, {"file": "include/AesiMultiprecision/Aeu.h", "symbol": "getString"}]}
{"id": "C120", "title": "A sink that refuses characters gets a prefix of the text", "statement": "Inserting any sequence of numbers into a stream whose sink accepts only r more characters leaves exactly the first r characters of the text an unlimited sink would get, whatever the base, width, fill and locale; the stream stays good() exactly if everything fitted; a stream that is not good() gets nothing. Without field width in the classic locale the text is the sign, the shown base and the numeral.", "quantifier": "every number (unsigned and signed), width, stream state, locale, sequence of insertions and point of failure r", "why_tests_cant": "Every failure point of every text; tests write to string streams that never fail.", "anchors": [{"file": "include/AesiMultiprecision/Aeu.h", "symbol": "operator<<"}, {"file": "include/AesiMultiprecision/Aesi.h", "symbol": "operator<<"}]}
{"id": "C121", "title": "Stream output does not depend on the locale's digit grouping", "statement": "Inserting a number prints the same characters under every locale: the digits of an arbitrary-precision number are not regrouped.", "quantifier": "every number, width, stream state and digit-grouping function", "why_tests_cant": "Quantifies over all locales; tests use the classic one.", "anchors": [{"file": "include/AesiMultiprecision/Aeu.h", "symbol": "operator<<"}]}
{"id": "C122", "title": "Concurrent tryAtomicExchange calls lose no block", "statement": "tryAtomicExchange (its parameter taken as modifiable) exchanges two numbers; when any number of threads exchange their own numbers with a shared one, under every interleaving, the blocks of all the numbers at each position are afterwards a rearrangement of what they were before.", "quantifier": "every width, number of threads, contents and schedule", "why_tests_cant": "The number of interleavings is exponential and a GPU schedule is not reproducible.", "anchors": [{"file": "include/AesiMultiprecision/Aeu.h", "symbol": "tryAtomicExchange"}, {"file": "include/AesiMultiprecision/Aesi.h", "symbol": "tryAtomicExchange"}]}
{"id": "C123", "title": "getString in every base it accepts", "statement": "getString<base> for char compiles for every base from 0 to 255. For every base from 2 up it writes one character per base-`base` digit of the number (as many low digits as fit the stated size) and a terminator; up to base 10, and in base 16, the text is the number's numeral, and the same is expected of bases 11 to 36 with letters as digits.", "quantifier": "all widths of 64 bits and more, all values, all bases 0..255, all buffers and stated sizes", "why_tests_cant": "values, bases and buffer sizes multiply to an unbounded space; tests use the four documented bases on a few numbers", "anchors": [{"file": "include/AesiMultiprecision/Aeu.h", "symbol": "getString"}, {"file": "include/AesiMultiprecision/Aesi.h", "symbol": "getString"}]}
{"id": "C124", "title": "A binary file read at another width, block order or host", "statement": "A number written with writeBinary on one width can be read with readBinary on another and, if it fits, is the same number (low bits if it does not); the same file read with the opposite bigEndian argument, or on a host of the opposite byte order, still has a definite value.", "quantifier": "all widths on both sides, all numbers, both block orders, both host byte orders, all trailing file contents", "why_tests_cant": "Pairs of widths and values are unbounded; the tests only read back at the width they wrote.", "anchors": [{"file": "include/AesiMultiprecision/Aeu.h", "symbol": "readBinary"}, {"file": "include/AesiMultiprecision/Aeu.h", "symbol": "writeBinary"}]}
{"id": "C125", "title": "Conversion to and from bool", "statement": "A number constructed from or assigned a bool is 0 or 1, and integralCast<bool> is false exactly for the number zero.", "quantifier": "all widths, numbers and both booleans", "why_tests_cant": "Ranges over every number of every width; no test casts to bool.", "anchors": [{"file": "include/AesiMultiprecision/Aeu.h", "symbol": "integralCast"}, {"file": "include/AesiMultiprecision/Aeu.h", "symbol": "Aeu(Unsigned value)"}]}
{"id": "C126", "title": "Conversion to and from 128-bit built-ins", "statement": "Where the compiler counts 128-bit built-ins as integral types, constructing a number from one keeps its value (if the width allows) and integralCast to one gives the low 128 bits.", "quantifier": "all widths, numbers and 128-bit values, signed and unsigned", "why_tests_cant": "2^128 values for every width.", "anchors": [{"file": "include/AesiMultiprecision/Aeu.h", "symbol": "integralCast"}, {"file": "include/AesiMultiprecision/Aeu.h", "symbol": "Aeu(Unsigned value)"}, {"file": "include/AesiMultiprecision/Aesi.h", "symbol": "Aesi(Integral value)"}]}
{"id": "C127", "title": "A failing stream can be handled by the program", "statement": "If a stream is set to throw on errors and readBinary or writeBinary meets one, the program can catch the exception; without an error, or with throwing switched off, the calls behave as documented.", "quantifier": "all widths, contents, block orders, stream capacities and exception masks", "why_tests_cant": "Ranges over every point at which the stream may fail.", "anchors": [{"file": "include/AesiMultiprecision/Aeu.h", "symbol": "readBinary"}, {"file": "include/AesiMultiprecision/Aeu.h", "symbol": "writeBinary"}]}
{"id": "C128", "title": "Every draw passes the initialization tests", "statement": "In test/operations/initialization every randomized trial passes whatever is drawn: a number assigned from a GMP integer, and the same number read from its binary (the test's own conversion), octal, decimal or hexadecimal text in either letter case, signed and unsigned, equals it; any number of leading dashes gives the sign; a 64-bit value initialises every width.", "quantifier": "all widths, draws, trial indices, letter cases and character classifications", "why_tests_cant": "A randomized test samples a few hundred draws; the claim is about every draw, so that the test can never fail by chance.", "anchors": [{"file": "test/operations/initialization/initialization.cpp", "symbol": "testInitDecimal"}, {"file": "include/AesiMultiprecision/Aeu.h", "symbol": "Aeu(std::basic_string_view)"}, {"file": "include/AesiMultiprecision/Aesi.h", "symbol": "Aesi(std::basic_string_view)"}]}
{"id": "C129", "title": "Exactly which draws the display tests accept", "statement": "In test/operations/display every draw other than 0 passes every trial, whatever the earlier trials left in the static array; the draw 0 passes the unsigned stream trials and the signed ones without a shown base, and in the array trials its verdict depends on the stale contents behind the text, because getString writes no terminator for zero.", "quantifier": "all widths, draws, trial indices, array contents, bases, letter cases", "why_tests_cant": "Whether a randomized test can fail by chance is not visible from its runs.", "anchors": [{"file": "test/operations/display/display.cpp", "symbol": "gmpToBinaryString"}, {"file": "include/AesiMultiprecision/Aeu.h", "symbol": "getString"}, {"file": "include/AesiMultiprecision/Aeu.h", "symbol": "operator<<"}, {"file": "include/AesiMultiprecision/Aesi.h", "symbol": "getString"}, {"file": "include/AesiMultiprecision/Aesi.h", "symbol": "operator<<"}]}
{"id": "C130", "title": "The cross-precision comparison tests hold for all values and widths", "statement": "The checks of test/boolean, with their literals replaced by arbitrary ones: a 64-bit value stored at two widths is equal to itself and compares with built-ins by value, and two literals that fit both widths compare, signed and unsigned, as the integers they denote.", "quantifier": "all pairs of widths, all values, all literals", "why_tests_cant": "The tests fix ten widths and two dozen literals.", "anchors": [{"file": "test/boolean/boolean.cpp", "symbol": "checkPrecisionCrossComparisons"}, {"file": "include/AesiMultiprecision/Aeu.h", "symbol": "operator<=>"}, {"file": "include/AesiMultiprecision/Aesi.h", "symbol": "operator<=>"}]}
{"id": "C131", "title": "What stream insertion leaves in the stream's format", "statement": "After any sequence of insertions the base, the letter case and, if the stream is good, the zero width are as the standard's own inserters leave them; std::showbase is cleared exactly when a non-zero signed or any unsigned number was inserted in base 8 or 16; the fill character and the adjustment become '0' and right exactly when a number of magnitude 2^32 or more was inserted in hexadecimal; nothing else changes.", "quantifier": "all streams (flags, width, fill, locale, sinks that fail), widths and sequences of numbers", "why_tests_cant": "The format state after the call depends on every flag, the value and the sink; tests look at the text only.", "anchors": [{"file": "include/AesiMultiprecision/Aeu.h", "symbol": "operator<<"}, {"file": "include/AesiMultiprecision/Aesi.h", "symbol": "operator<<"}]}
{"id": "C132", "title": "Inserting into a stream that throws", "statement": "With exceptions enabled on the stream, a sequence of insertions throws exactly when without exceptions the stream would end up failed, and the sink then holds the same prefix of the text; if nothing is thrown both streams end in the same state. std::showbase is still set at the handler exactly if the failure came from the base prefix.", "quantifier": "all streams with room for any number of characters, all locales, flags, widths and sequences of numbers", "why_tests_cant": "The exception can come from any single character.", "anchors": [{"file": "include/AesiMultiprecision/Aeu.h", "symbol": "operator<<"}, {"file": "include/AesiMultiprecision/Aesi.h", "symbol": "operator<<"}]}
{"id": "C133", "title": "Construction from GMP integers on every host, exactly", "statement": "Whatever the host's byte order, the number built from a GMP integer has the bytes of its absolute value below 2^N, in the opposite order inside each 32-bit block on a big-endian host; too large integers lose the excess, except that a build with AESI_UNSAFE writes out of bounds exactly for those. A signed number takes the sign of the integer.", "quantifier": "all integers, widths, hosts and builds", "why_tests_cant": "Big-endian hosts and AESI_UNSAFE are not part of the test matrix, and the integers are unbounded.", "anchors": [{"file": "include/AesiMultiprecision/Aeu.h", "symbol": "Aeu(const mpz_class&)"}, {"file": "include/AesiMultiprecision/Aesi.h", "symbol": "Aesi(const mpz_class&)"}]}
{"id": "C134", "title": "Exactly when comparing with a GMP integer tells the truth", "statement": "number == integer is right for an unsigned number exactly when the integer is in [0, 2^N) or its absolute value reduced modulo 2^N differs from the number; for a signed number exactly when the absolute value of the integer is below 2^N, or a multiple of 2^N, or the reduced integer differs from the number.", "quantifier": "all integers, numbers and widths", "why_tests_cant": "The integer is unbounded; wrong answers need an integer that collides with the number modulo 2^N.", "anchors": [{"file": "include/AesiMultiprecision/Aeu.h", "symbol": "operator=="}, {"file": "include/AesiMultiprecision/Aesi.h", "symbol": "operator=="}]}
{"id": "C135", "title": "Signed integralCast of every value to every built-in type", "statement": "For a signed target the result is the value reduced to the type, except that a negative number congruent to 2^(w-1) modulo 2^w with w at least 32 is undefined behaviour; for an unsigned target the result is the magnitude (not the value) modulo 2^w.", "quantifier": "all values, widths of at least 64 bits and the eight built-in types of 8 to 64 bits", "why_tests_cant": "The faulty values are single residues out of 2^32 or 2^64.", "anchors": [{"file": "include/AesiMultiprecision/Aesi.h", "symbol": "integralCast"}]}
{"id": "C136", "title": "What a zero leaves behind", "statement": "A zero produced by +, - or by multiplication with zero keeps the magnitude of the left operand: isZero is true, but isOdd, isEven, bitCount, byteCount, filledBlocksNumber, getBit, getByte, getBlock and unsignedCast report that magnitude; a zero times a number keeps its leftover times the number's magnitude modulo 2^N. For operands fresh from a constructor the observers are right exactly when the operand itself is zero.", "quantifier": "all signed operands and widths", "why_tests_cant": "Quantifies over all operands and over the history of the operand.", "anchors": [{"file": "include/AesiMultiprecision/Aesi.h", "symbol": "operator+="}, {"file": "include/AesiMultiprecision/Aesi.h", "symbol": "operator-="}, {"file": "include/AesiMultiprecision/Aesi.h", "symbol": "operator*="}, {"file": "include/AesiMultiprecision/Aesi.h", "symbol": "isOdd"}, {"file": "include/AesiMultiprecision/Aesi.h", "symbol": "bitCount"}]}
{"id": "C137", "title": "Exactly which texts of a 32-bit number work", "statement": "A 32-bit number can be inserted into a stream exactly when the stream is hexadecimal or the number is zero, and written by getString in base 2, 8 or 10 exactly when it is zero; otherwise the code reads a second block that does not exist.", "quantifier": "all 32-bit values, stream states, buffers and flags", "why_tests_cant": "Out-of-bounds reads need not show in a test run.", "anchors": [{"file": "include/AesiMultiprecision/Aeu.h", "symbol": "operator<<"}, {"file": "include/AesiMultiprecision/Aeu.h", "symbol": "getString"}, {"file": "include/AesiMultiprecision/Aeu.h", "symbol": "integralCast"}]}
{"id": "C138", "title": "The README's two precision-cast programs print the exact results", "statement": "The README's programs, as the integration tests run them, print for every choice of literals and widths exactly the decimal texts of base^power mod m (the wider type holding the squared modulus) and of the product of the two literals modulo 2^N, each on its own line; with an exponent of the narrow type and a doubled width, the second line is exactly base^power mod m for every nonzero base, after some line that is a number below m; so the regular expressions of the tests always match.", "quantifier": "all literals, locales' alphanumeric classes, widths with the stated order, squared modulus below the wide range", "why_tests_cant": "The tests run these programs with one set of literals each.", "anchors": [{"file": "ci/integration/presentation.cpp", "symbol": "PrecisionCast"}, {"file": "ci/integration/presentation.cpp", "symbol": "PrecisionCast2"}, {"file": "include/AesiMultiprecision/Aeu.h", "symbol": "powm"}, {"file": "include/AesiMultiprecision/Aeu.h", "symbol": "precisionCast"}, {"file": "include/AesiMultiprecision/Aeu.h", "symbol": "operator<<"}]}
{"id": "C139", "title": "The Bezout coefficient gives the modular inverse", "statement": "For coprime a and m (1 < m < 2^(N-1)), the first Bezout coefficient of gcd(a, m, x, y) reduced with x % m is the inverse of a modulo m. (In the code this holds exactly when the coefficient's top bit is clear or m divides 2^N; when a set top bit is read as a negative sign - negate, reduce, subtract from m - the result is the inverse always.)", "quantifier": "all widths, all coprime a and m below half the range", "why_tests_cant": "The coefficient's sign depends on the length of the remainder sequence; a few pairs do not show which half of the inputs goes wrong.", "anchors": [{"file": "include/AesiMultiprecision/Aeu.h", "symbol": "gcd"}, {"file": "include/AesiMultiprecision/Aeu.h", "symbol": "operator%"}, {"file": "include/AesiMultiprecision/Aeu.h", "symbol": "getBit"}, {"file": "include/AesiMultiprecision/Aeu.h", "symbol": "operator-"}]}
{"id": "C140", "title": "A Miller-Rabin round never rejects a prime", "statement": "The usual Miller-Rabin round written with isEven, >>=, powm, *, % and == answers, for every odd p >= 3 whose squared predecessor fits and every base a, exactly whether p is a strong probable prime to base a; so no prime p not dividing a is ever rejected, and a rejected number is composite.", "quantifier": "all widths, all odd p with (p-1)^2 < 2^N, all bases", "why_tests_cant": "The statement is about every prime and every base.", "anchors": [{"file": "include/AesiMultiprecision/Aeu.h", "symbol": "powm"}, {"file": "include/AesiMultiprecision/Aeu.h", "symbol": "isEven"}, {"file": "include/AesiMultiprecision/Aeu.h", "symbol": "operator>>="}, {"file": "include/AesiMultiprecision/Aeu.h", "symbol": "operator*"}, {"file": "include/AesiMultiprecision/Aeu.h", "symbol": "operator%"}, {"file": "include/AesiMultiprecision/Aeu.h", "symbol": "operator=="}]}
{"id": "C141", "title": "The benchmark summary shows the last time of every operation and library", "statement": "For every list of benchmark results whose names are operation, '_', library, make_summary returns a table with a header naming every library and one row per operation, each once and in the order of first appearance; a cell shows the last time recorded for its operation and library, and a dash if there is none. It raises an exception exactly if some name has no '_'.", "quantifier": "all lists of names and times", "why_tests_cant": "The script is run on one list of results per commit and has no tests.", "anchors": [{"file": "ci/benchmarking/make_summary.py", "symbol": "make_summary"}]}
{"id": "C142", "title": "The literal tests of construction hold for all literals", "statement": "The checks of the Basic initialization tests hold for every literal: comparing a number built from the text of v in base 2, 8, 10 or 16 (with the prefix, either letter case, any string type, for the signed class any number of dashes in front) with a built-in w is true exactly if the values are equal; a text without decimal digits gives zero.", "quantifier": "all values, widths of at least 64 bits, bases, string types, locales' alphanumeric classes, built-in values in range", "why_tests_cant": "The tests check about forty literals.", "anchors": [{"file": "test/operations/initialization/initialization.cpp", "symbol": "Basic"}, {"file": "include/AesiMultiprecision/Aeu.h", "symbol": "Aeu"}, {"file": "include/AesiMultiprecision/Aesi.h", "symbol": "Aesi"}, {"file": "include/AesiMultiprecision/Aeu.h", "symbol": "operator=="}, {"file": "include/AesiMultiprecision/Aesi.h", "symbol": "operator=="}]}
{"id": "C143", "title": "Zero is displayed as 0 by every way of printing", "statement": "The checks of the Zero display tests hold at every width: two insertions of zero print 00 in every base, a number minus itself prints 0 (as a difference, under unary plus and after -=), and getString of zero in a zeroed array of at least 4 characters is \"0\" after the base's prefix if shown.", "quantifier": "all widths, built-in values, bases, letter cases, character types and array sizes of at least 4", "why_tests_cant": "The tests check width 128 and arrays of ten characters.", "anchors": [{"file": "test/operations/display/display.cpp", "symbol": "Zero"}, {"file": "include/AesiMultiprecision/Aeu.h", "symbol": "operator<<"}, {"file": "include/AesiMultiprecision/Aesi.h", "symbol": "operator<<"}, {"file": "include/AesiMultiprecision/Aeu.h", "symbol": "getString"}, {"file": "include/AesiMultiprecision/Aesi.h", "symbol": "getString"}]}
{"id": "C144", "title": "The fixed-value arithmetic tests hold for all values", "statement": "The checks of the Basic arithmetic tests hold for every literal: adding or subtracting zero and multiplying by zero or one (as a number, under unary plus or minus, as a built-in on either side, in the assigning form) leaves the expected value; a line a + b == w, a / b == w, a % b == w or a step of ++ or -- passes exactly if the equation is true of the integers; a signed quotient by zero is 0 and a remainder by zero the dividend, as the tests expect. A signed remainder by a negative divisor agrees with C++ exactly if it is 0, which the literals of the tests never show. Each test passes only if every one of its checks does.", "quantifier": "all values of the literals (64-bit; 32-bit for division and steps), all widths of at least 64 bits; for the meaning of a pass: all number types", "why_tests_cant": "The tests check about a hundred and fifty fixed lines at width 128.", "anchors": [{"file": "test/arithmetic/addition/addition.cpp", "symbol": "Basic"}, {"file": "test/arithmetic/subtraction/subtraction.cpp", "symbol": "Basic"}, {"file": "test/arithmetic/multiplication/multiplication.cpp", "symbol": "Basic"}, {"file": "test/arithmetic/division/division.cpp", "symbol": "Basic"}, {"file": "test/arithmetic/modulo/modulo.cpp", "symbol": "Basic"}, {"file": "include/AesiMultiprecision/Aeu.h", "symbol": "operator+="}, {"file": "include/AesiMultiprecision/Aesi.h", "symbol": "operator%="}]}
{"id": "C145", "title": "Sets and exchanges at the same time", "statement": "When any number of threads each set one object to a value of their own (tryAtomicSet) or exchange one with it (tryAtomicExchange), under any interleaving: nothing faults; at every moment each block of the object is the one it began with or some caller's block at that position; when all calls have finished the values passed to a set are unchanged, and at each position the block of the object, those of the exchanged values and exactly one overwritten block per set are a rearrangement of the blocks there were at the start, so no exchange loses or duplicates a block; a call that runs without interruption is an assignment or a swap, whatever the other calls are in the middle of. For the signed class the same holds of the magnitudes, the values keep their signs and the object ends with the sign of one of the callers.", "quantifier": "all widths, values, numbers of threads, mixtures of sets and exchanges, and schedules", "why_tests_cant": "Interleavings of several threads over many blocks cannot be enumerated, and the functions only compile for the device.", "anchors": [{"file": "include/AesiMultiprecision/Aeu.h", "symbol": "tryAtomicSet"}, {"file": "include/AesiMultiprecision/Aeu.h", "symbol": "tryAtomicExchange"}, {"file": "include/AesiMultiprecision/Aesi.h", "symbol": "tryAtomicSet"}, {"file": "include/AesiMultiprecision/Aesi.h", "symbol": "tryAtomicExchange"}]}
{"id": "C146", "title": "Whole programs: both classes, several widths, texts, a stream and a file", "statement": "Any program that uses unsigned and signed numbers of any mixture of widths, converts between them (precisionCast, unsignedCast, construction of a signed from an unsigned number, integralCast to a built-in and back, powm with an exponent of another width), compares across widths, reads numbers from texts, prints numbers and texts to a stream while changing its base, writes numbers to a binary file and reads them back, with branches and loops, ends exactly as its reading on the integers does, as long as that reading stays in the domain in which each single operation keeps its promise: every variable holds the integer it should, the stream holds exactly the numerals and texts in order, the file exactly the bytes of the numbers not read back, and the program loops exactly if its reading does. The text printed is unique and does not depend on the build configuration, the byte order of the host, the character type or the stream's fill and adjustment.", "quantifier": "all programs of the language, inputs, widths, initial values, build configurations, hosts, step bounds", "why_tests_cant": "Tests exercise single operations at one width; the interplay of widths, classes, conversions, stream state and file over arbitrary histories is not covered by any finite set of programs.", "anchors": [{"file": "include/AesiMultiprecision/Aeu.h", "symbol": "precisionCast"}, {"file": "include/AesiMultiprecision/Aeu.h", "symbol": "powm"}, {"file": "include/AesiMultiprecision/Aeu.h", "symbol": "operator<<"}, {"file": "include/AesiMultiprecision/Aeu.h", "symbol": "readBinary"}, {"file": "include/AesiMultiprecision/Aeu.h", "symbol": "writeBinary"}, {"file": "include/AesiMultiprecision/Aesi.h", "symbol": "precisionCast"}, {"file": "include/AesiMultiprecision/Aesi.h", "symbol": "unsignedCast"}, {"file": "include/AesiMultiprecision/Aesi.h", "symbol": "integralCast"}, {"file": "include/AesiMultiprecision/Aesi.h", "symbol": "operator<<"}]}
{"id": "C147", "title": "Changing the width of a program", "statement": "A signed program that does not overflow at one width computes the same integers at every larger width. An unsigned program whose reading on the natural numbers stays below 2^N computes just these numbers at N bits and at every larger width, and loops there exactly if its reading does. A program of +, -, *, bitwise operators, negation, complement, left shifts, bit sets, steps and copies, whose branches look only at bits below N, commutes with truncation: cutting the variables to N bits before it or its results after it is the same, and it ends at both widths or at neither.", "quantifier": "all programs of the three kinds, all pairs of widths n <= m, all values, step bounds and build configurations", "why_tests_cant": "It relates runs of an arbitrary program at two arbitrary widths.", "anchors": [{"file": "include/AesiMultiprecision/Aeu.h", "symbol": "operator+="}, {"file": "include/AesiMultiprecision/Aeu.h", "symbol": "operator*="}, {"file": "include/AesiMultiprecision/Aeu.h", "symbol": "operator~"}, {"file": "include/AesiMultiprecision/Aeu.h", "symbol": "precisionCast"}, {"file": "include/AesiMultiprecision/Aesi.h", "symbol": "operator+="}, {"file": "include/AesiMultiprecision/Aesi.h", "symbol": "operator/="}]}
{"id": "C148", "title": "Machine counters, indices and shift counts", "statement": "At every width below 2^64 bits the unsigned class computes what its operators promise although all its indices, counters and sizes are std::size_t values that wrap around: no loop runs on or stops early because its counter wrapped, every counted loop makes at most N + 9 iterations, and no operation shifts a built-in value by an out-of-range count. This covers the arithmetic, bitwise and shift operators, bit and byte access, the counting functions, comparisons, conversions, division, gcd, Bezout gcd, lcm, square root and powm with operands of one width.", "quantifier": "all widths below 2^64 bits, all values, all indices and shift counts, all build configurations", "why_tests_cant": "Wrap-around shows only at widths and counts no test can allocate, and an undefined shift may happen to give the right value.", "anchors": [{"file": "include/AesiMultiprecision/Aeu.h", "symbol": "operator*="}, {"file": "include/AesiMultiprecision/Aeu.h", "symbol": "operator<<="}, {"file": "include/AesiMultiprecision/Aeu.h", "symbol": "operator>>="}, {"file": "include/AesiMultiprecision/Aeu.h", "symbol": "bitCount"}, {"file": "include/AesiMultiprecision/Aeu.h", "symbol": "setByte"}, {"file": "include/AesiMultiprecision/Aeu.h", "symbol": "divide"}, {"file": "include/AesiMultiprecision/Aeu.h", "symbol": "powm"}, {"file": "include/AesiMultiprecision/Aeu.h", "symbol": "squareRoot"}, {"file": "include/AesiMultiprecision/Aeu.h", "symbol": "precisionCast"}]}
{"id": "C149", "title": "Machine counters under the signed class", "statement": "At every width below 2^64 bits the operators, comparisons, accessors, counting functions, division, square root and conversions of the signed class give the same results on the machine, with its wrapping indices and checked shift counts, as in the integer-indexed model, so that each of their promises holds at every width that can be written down: sums, differences, products and steps that fit are exact, division truncates, comparisons are numeric, conversions keep the value.", "quantifier": "all widths below 2^64 bits, all pairs of widths, all values, all build configurations", "why_tests_cant": "Wrap-around shows only at widths no test can allocate.", "anchors": [{"file": "include/AesiMultiprecision/Aesi.h", "symbol": "operator+="}, {"file": "include/AesiMultiprecision/Aesi.h", "symbol": "operator-="}, {"file": "include/AesiMultiprecision/Aesi.h", "symbol": "operator*="}, {"file": "include/AesiMultiprecision/Aesi.h", "symbol": "operator/="}, {"file": "include/AesiMultiprecision/Aesi.h", "symbol": "operator%="}, {"file": "include/AesiMultiprecision/Aesi.h", "symbol": "divide"}, {"file": "include/AesiMultiprecision/Aesi.h", "symbol": "compareTo"}, {"file": "include/AesiMultiprecision/Aesi.h", "symbol": "precisionCast"}, {"file": "include/AesiMultiprecision/Aesi.h", "symbol": "squareRoot"}]}
{"id": "C150", "title": "Machine counters in texts", "statement": "Reading a text of any length below 2^64 - 1 characters, writing a number into a buffer of any such size, and inserting it into a stream work on the machine, with its wrapping positions, sizes and counters, exactly as with unbounded ones: the text's value modulo 2^N is read, the numeral is written and terminated, no loop runs on because a position wrapped, for both classes and both character types.", "quantifier": "all texts and buffers of fewer than 2^64 - 1 characters, all widths below 2^64 bits (2^53 for streams), all values, bases, cases and prefixes", "why_tests_cant": "The sizes at which positions could wrap cannot be allocated by a test.", "anchors": [{"file": "include/AesiMultiprecision/Aeu.h", "symbol": "Aeu"}, {"file": "include/AesiMultiprecision/Aeu.h", "symbol": "getString"}, {"file": "include/AesiMultiprecision/Aeu.h", "symbol": "operator<<"}, {"file": "include/AesiMultiprecision/Aesi.h", "symbol": "Aesi"}, {"file": "include/AesiMultiprecision/Aesi.h", "symbol": "getString"}, {"file": "include/AesiMultiprecision/Aesi.h", "symbol": "operator<<"}]}
{"id": "C151", "title": "powm returns for every exponent of another precision", "statement": "A call of powm whose exponent has another precision than the base returns, and its result is that of square-and-multiply over all bits of the exponent, for every exponent the exponent's type can hold.", "quantifier": "all pairs of widths below 2^64 bits, all bases, exponents and moduli, all build configurations", "why_tests_cant": "The loop counter of this overload is a 32-bit unsigned, so the claim fails only for exponents of more than 2^32 - 32 bits, which a unit test does not build.", "anchors": [{"file": "include/AesiMultiprecision/Aeu.h", "symbol": "powm"}]}
{"id": "C152", "title": "No unsigned operation reads memory nobody wrote", "statement": "Called on completely written objects, every unsigned operation (construction from integers, arithmetic, bitwise operations, shifts, comparisons, accessors, divide, gcd, Bezout gcd, lcm, powm, power2, squareRoot, casts) reads only blocks that have been written and leaves its result completely written, although several functions declare objects without an initialiser; the outputs of divide may themselves be uninitialised. Results are those of the model in which every block always has a value.", "quantifier": "all widths, all operand values, all build configurations, outputs in any state of initialisation", "why_tests_cant": "An uninitialised block usually happens to hold zero or the value of an earlier call, so a test that reads one can pass; the absence of such a read must be shown for every path.", "anchors": [{"file": "include/AesiMultiprecision/Aeu.h", "symbol": "Aeu()"}, {"file": "include/AesiMultiprecision/Aeu.h", "symbol": "divide"}, {"file": "include/AesiMultiprecision/Aeu.h", "symbol": "gcd"}, {"file": "include/AesiMultiprecision/Aeu.h", "symbol": "squareRoot"}, {"file": "include/AesiMultiprecision/Aeu.h", "symbol": "operator~"}]}
{"id": "C153", "title": "A declared unsigned object is usable whatever its initialiser", "statement": "After its declaration an unsigned object can be read: declared with {} it is zero, declared without an initialiser it has some value.", "quantifier": "all widths, all operations that look at the object, all build configurations", "why_tests_cant": "Reading an indeterminate value is undefined behaviour; a test sees some value and cannot tell.", "anchors": [{"file": "include/AesiMultiprecision/Aeu.h", "symbol": "Aeu()"}, {"file": "include/AesiMultiprecision/Aeu.h", "symbol": "setBit"}, {"file": "include/AesiMultiprecision/Aeu.h", "symbol": "setByte"}, {"file": "include/AesiMultiprecision/Aeu.h", "symbol": "setBlock"}]}
{"id": "C154", "title": "No signed operation reads memory nobody wrote", "statement": "Called on completely written objects, every signed operation (construction, arithmetic, operators with built-in operands, comparisons, accessors, squareRoot, power2, casts; divide with operands other than zero) reads only signs and blocks that have been written and leaves its result completely written. Results are those of the model in which sign and blocks always have values.", "quantifier": "all widths, all operand values, all build configurations, outputs in any state of initialisation", "why_tests_cant": "An uninitialised sign or block usually happens to hold a plausible value, so a test that reads one can pass.", "anchors": [{"file": "include/AesiMultiprecision/Aesi.h", "symbol": "Aesi()"}, {"file": "include/AesiMultiprecision/Aesi.h", "symbol": "divide"}, {"file": "include/AesiMultiprecision/Aesi.h", "symbol": "precisionCast"}]}
{"id": "C155", "title": "Signed divide leaves its outputs completely written", "statement": "After a call of the signed divide, quotient and remainder are completely written and can be copied and used, whatever state they were in before the call.", "quantifier": "all widths, all operands, outputs in any state of initialisation, all build configurations", "why_tests_cant": "Tests pass outputs that already hold a value; uninitialised outputs hold whatever is in memory, and most operations on a number with sign zero do not look at the magnitude.", "anchors": [{"file": "include/AesiMultiprecision/Aesi.h", "symbol": "divide"}, {"file": "include/AesiMultiprecision/Aesi.h", "symbol": "operator=="}, {"file": "include/AesiMultiprecision/Aesi.h", "symbol": "operator+="}]}
{"id": "C156", "title": "Assign-before-use unsigned programs never read memory nobody wrote", "statement": "A client program over unsigned numbers (copies, literals, all operators, divide, gcd, lcm, powm, square root, swap, branches and loops) in which every variable is assigned on every path before it is used, as a compiler's definite-assignment check decides it, never reads memory nobody wrote, even though all other variables start uninitialised and the outputs of divide need not be assigned before. Every assigned variable ends completely written with the value integer arithmetic gives; where the integers promise nothing (division by zero, oversized shifts) there is still no fault.", "quantifier": "all programs passing the check, all widths, all inputs, all build configurations, any contents of the unassigned variables", "why_tests_cant": "A memory sanitizer sees the paths one test takes; the claim is about every program and every path.", "anchors": [{"file": "include/AesiMultiprecision/Aeu.h", "symbol": "constexpr Aeu() noexcept = default"}, {"file": "include/AesiMultiprecision/Aeu.h", "symbol": "divide"}, {"file": "include/AesiMultiprecision/Aeu.h", "symbol": "blocksLine"}]}
{"id": "C157", "title": "Assign-before-use signed programs never read memory nobody wrote", "statement": "A client program over signed numbers (copies, literals, all operators, negation, divide, square root, swap, branches and loops) in which every variable is assigned on every path before it is used, the outputs of divide counting as assigned by it, never reads memory nobody wrote, and every assigned variable ends completely written with the value integer arithmetic gives.", "quantifier": "all programs passing the check, all widths, all inputs, all build configurations, any contents of the unassigned variables", "why_tests_cant": "A memory sanitizer sees the paths one test takes; whether divide writes its outputs depends on the value of the dividend.", "anchors": [{"file": "include/AesiMultiprecision/Aesi.h", "symbol": "divide"}, {"file": "include/AesiMultiprecision/Aesi.h", "symbol": "constexpr Aesi() noexcept = default"}]}
{"id": "C158", "title": "Whole programs on machine counters, indices and shift counts", "statement": "A whole program (both classes, several widths, conversions, texts, a stream, a binary file, branches and loops) executed with the class's own size_t counters and indices, which wrap around, and with shift counts checked against the width of the shifted built-in, computes what the same program computes on integers: every variable, the printed text and the bytes of the file. Widths are any bitness a size_t can express (below 2^53 where a number is printed); a modular power with an exponent of another width needs that width below 2^32 bits (C151).", "quantifier": "all programs, all widths, all inputs, all build configurations, hosts and locales", "why_tests_cant": "Tests run at a handful of widths and programs; whether a counter can wrap, an index run out of range or a shift count reach the word size has to hold for every width and every reachable state.", "anchors": [{"file": "include/AesiMultiprecision/Aeu.h", "symbol": "class Aeu"}, {"file": "include/AesiMultiprecision/Aesi.h", "symbol": "class Aesi"}]}
{"id": "C159", "title": "Text output and input on memory nobody initialised", "statement": "getString may be given a character array nobody has initialised: of a number that was assigned it only reads back characters it has itself written (the in-place reversal, the copied '0' of Aesi), whatever the sizes; it writes the text and leaves every other element as it was, written or not. Constructing from a pointer and a length never looks at characters beyond that length and yields a completely written object; printing and reading back through an uninitialised array returns the number. Stream insertion never reads unwritten memory either. Only a number that was never assigned cannot be printed; a signed object of which just the sign was written (zero) prints as 0.", "quantifier": "all widths, values, bases, character types, buffer contents (written, unwritten or mixed) and sizes", "why_tests_cant": "Uninitialised memory usually contains zeros in a test, so a read of it goes unnoticed; the claim ranges over every content, size and value.", "anchors": [{"file": "include/AesiMultiprecision/Aeu.h", "symbol": "getString"}, {"file": "include/AesiMultiprecision/Aeu.h", "symbol": "Aeu(const Char* data, std::size_t size)"}, {"file": "include/AesiMultiprecision/Aeu.h", "symbol": "operator<<"}, {"file": "include/AesiMultiprecision/Aesi.h", "symbol": "getString"}, {"file": "include/AesiMultiprecision/Aesi.h", "symbol": "Aesi(const Char* ptr, std::size_t size)"}]}
{"id": "C160", "title": "A printed character array can be passed to the array constructor", "statement": "A number printed into a character array by getString can be constructed again from that array with the array constructor.", "quantifier": "all widths, values, bases and contents of the rest of the array", "why_tests_cant": "Whether it works depends on what the array contains behind the text: the array constructor reads the whole array, past the terminating NUL. Tests use arrays initialised with zeros or exactly fitting literals.", "anchors": [{"file": "include/AesiMultiprecision/Aeu.h", "symbol": "Aeu(const Char (&literal)[arrayLength])"}, {"file": "include/AesiMultiprecision/Aesi.h", "symbol": "Aesi(const Char (&literal)[arrayLength])"}, {"file": "include/AesiMultiprecision/Aeu.h", "symbol": "getString"}]}
{"id": "C161", "title": "Binary files and GMP integers on memory nobody initialised", "statement": "readBinary may be called on an object that was never assigned: whatever its memory held, and however many bytes the stream delivers (none included), afterwards the number is completely written, consists of the bytes delivered and zeros, and does not depend on what was there before. writeBinary of an assigned number reads nothing else; written and read back into an unassigned object it is the same number. If even one block was never written, writing to a good stream reads it; a failed stream is left alone and nothing is read. The GMP constructors yield completely written objects with the integer's value.", "quantifier": "all widths, memory contents (written, unwritten or mixed), byte orders, streams and integers", "why_tests_cant": "Uninitialised memory usually contains zeros in a test, so a read of it goes unnoticed, and the short or failed stream is the case where the old contents could survive; the claim ranges over every content and every stream.", "anchors": [{"file": "include/AesiMultiprecision/Aeu.h", "symbol": "readBinary"}, {"file": "include/AesiMultiprecision/Aeu.h", "symbol": "writeBinary"}, {"file": "include/AesiMultiprecision/Aeu.h", "symbol": "Aeu(const mpz_class& value)"}, {"file": "include/AesiMultiprecision/Aesi.h", "symbol": "Aesi(const mpz_class& number)"}]}
{"id": "C162", "title": "Whole programs that assign before use never read uninitialised memory", "statement": "A program over both classes at several widths - with conversions, text input, stream output and a binary file - in which every variable is assigned before it is used on every path (the outputs of the signed divide count as used) computes what the same program computes on integers, values, printed text and file contents alike, although its variables start uninitialised; the result does not depend on what their memory held. Printing, saving or converting a variable that was never assigned always reads uninitialised memory.", "quantifier": "all programs (branches, loops), inputs, widths, streams, builds, hosts and initial memory contents", "why_tests_cant": "Whether some path through a program reaches an unassigned variable depends on the inputs, and a test that happens to find zeros in memory passes; the claim ranges over all programs and all inputs.", "anchors": [{"file": "include/AesiMultiprecision/Aeu.h", "symbol": "Aeu() noexcept = default"}, {"file": "include/AesiMultiprecision/Aesi.h", "symbol": "Aesi() noexcept = default"}, {"file": "include/AesiMultiprecision/Aeu.h", "symbol": "precisionCast"}, {"file": "include/AesiMultiprecision/Aeu.h", "symbol": "operator<<"}, {"file": "include/AesiMultiprecision/Aeu.h", "symbol": "readBinary"}, {"file": "include/AesiMultiprecision/Aesi.h", "symbol": "unsignedCast"}, {"file": "include/AesiMultiprecision/Aesi.h", "symbol": "integralCast"}]}
{"id": "C163", "title": "Threads that share only what none of them assigns are independent", "statement": "Several threads may call the library at the same time as long as no object that one of them assigns is read or assigned by another; operands passed by const reference may be shared freely. However the threads are scheduled, down to a single load or store of one block at a time, each thread finds exactly the values its program alone would compute, no thread faults or is starved of its result, two accesses to the same object of which one is a store are never pending at once, and the final objects do not depend on the schedule.", "quantifier": "all numbers of threads, programs (branches, loops) over the unsigned interface, widths, values, builds and schedules", "why_tests_cant": "A const operand that is temporarily modified, or a buffer shared between calls, shows only under particular interleavings of block accesses; a test samples a handful of schedules, the claim covers all of them.", "anchors": [{"file": "include/AesiMultiprecision/Aeu.h", "symbol": "operator-="}, {"file": "include/AesiMultiprecision/Aeu.h", "symbol": "operator*="}, {"file": "include/AesiMultiprecision/Aeu.h", "symbol": "divide"}, {"file": "include/AesiMultiprecision/Aeu.h", "symbol": "gcd"}, {"file": "include/AesiMultiprecision/Aeu.h", "symbol": "powm"}, {"file": "include/AesiMultiprecision/Aeu.h", "symbol": "compareTo"}]}
{"id": "C164", "title": "What a thread sees of an object that another thread is assigning", "statement": "If threads copy objects that other threads assign at the same time, a copy should be one of the values the object has had; and no update by an operator like ++ should be lost.", "quantifier": "all numbers of threads, programs that copy objects, widths, values and schedules", "why_tests_cant": "A torn copy needs a store of the other thread between two loads of one copy loop; whether a test ever hits that is luck, and what can be observed at worst is a statement about all schedules.", "anchors": [{"file": "include/AesiMultiprecision/Aeu.h", "symbol": "operator=(const Aeu& other)"}, {"file": "include/AesiMultiprecision/Aeu.h", "symbol": "operator++()"}]}
{"id": "C165", "title": "Races stay inside the objects", "statement": "Even when threads assign objects that others are reading or assigning, no call ever accesses a block outside an object, trips an assertion or leaves anything but n blocks in an object, whatever it finds in its operands from one access to the next; and no call waits for another thread: every thread that keeps being scheduled comes to its end, and if its program has no loops and no square root it gets there by completing every call.", "quantifier": "all numbers of threads, programs (branches, loops) over the unsigned interface, values, widths and schedules, with the index checks on", "why_tests_cant": "Lengths and bit counts are computed by one pass over an operand and used by a later one; whether an operand that changes in between can push an index out of its array is a question about all interleavings.", "anchors": [{"file": "include/AesiMultiprecision/Aeu.h", "symbol": "filledBlocksNumber"}, {"file": "include/AesiMultiprecision/Aeu.h", "symbol": "operator*="}, {"file": "include/AesiMultiprecision/Aeu.h", "symbol": "divide"}, {"file": "include/AesiMultiprecision/Aeu.h", "symbol": "bitCount"}, {"file": "include/AesiMultiprecision/Aeu.h", "symbol": "setBit"}, {"file": "include/AesiMultiprecision/Aeu.h", "symbol": "operator<<="}]}
{"id": "C166", "title": "Threads that share only signed objects none of them assigns are independent", "statement": "Several threads may call the signed class at the same time as long as no object that one of them assigns is read or assigned by another. However the threads are scheduled, down to a single access to a sign or to one block, each thread finds exactly the integers its program alone would compute, with the signs right, no thread faults or is starved of its result, two accesses to the same sign or magnitude of which one is a store are never pending at once, and the final objects do not depend on the schedule.", "quantifier": "all numbers of threads, programs (branches, loops) over the signed interface, widths, values, builds and schedules", "why_tests_cant": "A signed operation reads signs and magnitudes several times over; one that changed the sign of a const operand in between, and put it back, would pass every sequential test.", "anchors": [{"file": "include/AesiMultiprecision/Aesi.h", "symbol": "operator+="}, {"file": "include/AesiMultiprecision/Aesi.h", "symbol": "operator*="}, {"file": "include/AesiMultiprecision/Aesi.h", "symbol": "divide"}, {"file": "include/AesiMultiprecision/Aesi.h", "symbol": "compareTo"}, {"file": "include/AesiMultiprecision/Aesi.h", "symbol": "operator=(const Aesi& other)"}]}
{"id": "C167", "title": "Races on signed objects stay inside the objects", "statement": "Even when threads assign signed objects that others are reading or assigning, no call ever accesses a block outside a magnitude, trips an assertion, leaves anything but n blocks in a magnitude or a sign that is none of the three, whatever it finds in its operands from one access to the next; and no call waits for another thread: every thread that keeps being scheduled comes to its end.", "quantifier": "all numbers of threads, programs (branches, loops) over the signed interface, values, widths and schedules, with the index checks on", "why_tests_cant": "The signed operations test a sign and then work on a magnitude that may have become zero in between, for instance as a divisor; what happens then is a question about all interleavings.", "anchors": [{"file": "include/AesiMultiprecision/Aesi.h", "symbol": "operator/="}, {"file": "include/AesiMultiprecision/Aesi.h", "symbol": "divide"}, {"file": "include/AesiMultiprecision/Aesi.h", "symbol": "operator-="}, {"file": "include/AesiMultiprecision/Aesi.h", "symbol": "inverse"}]}
{"id": "C168", "title": "What a thread sees of a signed object that another thread is assigning", "statement": "If threads copy signed objects that other threads assign at the same time, a copy should be one of the values the object has had, and an object that is a valid number should stay one, at least when the magnitude is a single block.", "quantifier": "all numbers of threads, programs that copy signed objects, widths, values and schedules", "why_tests_cant": "Sign and magnitude are stored one after the other; whether a reader ever comes between the two stores is luck in a test.", "anchors": [{"file": "include/AesiMultiprecision/Aesi.h", "symbol": "operator=(const Aesi& other)"}, {"file": "include/AesiMultiprecision/Aesi.h", "symbol": "isNegative"}]}
{"id": "C169", "title": "Race-free threads do not depend on the order in which memory shows their accesses", "statement": "For threads that obey the rule that no object one of them assigns is read or assigned by another, it does not matter whether stores become visible to other threads at once, late or never before the threads are joined, nor what a load would return if it raced with a store: while running, no thread faults, every thread that finishes sees in all objects it uses exactly the numbers its program alone computes, and after joining them every object has the value its one assigning thread gave it, or its old one.", "quantifier": "all numbers of threads, programs (branches, loops) over the unsigned and over the signed interface, widths, values, builds, schedules, delays of stores and values returned by racing loads", "why_tests_cant": "Tests run on one processor with one memory model, usually a strong one, and with one compiler; a program that happens to work there says nothing about weaker ones.", "anchors": [{"file": "include/AesiMultiprecision/Aeu.h", "symbol": "operator+="}, {"file": "include/AesiMultiprecision/Aeu.h", "symbol": "operator*="}, {"file": "include/AesiMultiprecision/Aeu.h", "symbol": "compareTo"}, {"file": "include/AesiMultiprecision/Aesi.h", "symbol": "operator+="}, {"file": "include/AesiMultiprecision/Aesi.h", "symbol": "divide"}, {"file": "include/AesiMultiprecision/Aesi.h", "symbol": "operator=(const Aesi& other)"}]}
{"id": "C170", "title": "Which operations touch the same memory whatever the numbers are", "statement": "Assignment, +, -, unary -, ~, ^, &, |, shifts, setBit, adding and multiplying by a built-in number (not multiplying by a uint64_t), swap and power2 of the unsigned class load and store the same blocks of the same objects in the same order for all values of those objects, and so does every sequence of them, alone or with other threads changing the objects at any moment; so do isOdd and getBit. An observer of addresses learns nothing about the numbers. Of ++, --, *, /, %, multiplication by a uint64_t, divide, gcd, lcm, squareRoot, powm and all comparisons the observer does learn something.", "quantifier": "all widths, values, sequences of operations, amounts of shifts and places of bits, and all numbers that loads may find", "why_tests_cant": "A test sees results and, at best, times; that no two of all values can be told apart by the addresses is a statement about pairs of runs.", "anchors": [{"file": "include/AesiMultiprecision/Aeu.h", "symbol": "operator+="}, {"file": "include/AesiMultiprecision/Aeu.h", "symbol": "operator-="}, {"file": "include/AesiMultiprecision/Aeu.h", "symbol": "operator<<="}, {"file": "include/AesiMultiprecision/Aeu.h", "symbol": "setBit"}, {"file": "include/AesiMultiprecision/Aeu.h", "symbol": "operator*="}, {"file": "include/AesiMultiprecision/Aeu.h", "symbol": "compareTo"}, {"file": "include/AesiMultiprecision/Aeu.h", "symbol": "swap"}]}
{"id": "C171", "title": "Every operation makes a bounded number of accesses, and every thread is done after a known number of turns", "statement": "The number of loads and stores of blocks of its operands that an operation of the unsigned class makes is bounded by a polynomial in the number n of blocks, whatever the numbers are: 2n for a copy, 3n for +=, n^2+4n for *=, 64n^2+36n for /= and %=, 65n^2+77n for lcm, about 2176n^2 for squareRoot and 4096n^3 for powm, 2n for a comparison. A program of such operations without loops and square roots has finished once its thread has had as many turns as these bounds add up to along its longest branch, whatever other threads do to its operands meanwhile and however all threads are scheduled.", "quantifier": "all widths, values, programs without loops and square roots (for single operations: all of them), numbers of threads, other programs and schedules", "why_tests_cant": "A worst case over all values and all interleavings is not something a test can find; a loop that restarts when it sees a changed operand would only show under load.", "anchors": [{"file": "include/AesiMultiprecision/Aeu.h", "symbol": "operator+="}, {"file": "include/AesiMultiprecision/Aeu.h", "symbol": "operator*="}, {"file": "include/AesiMultiprecision/Aeu.h", "symbol": "divide"}, {"file": "include/AesiMultiprecision/Aeu.h", "symbol": "powm"}, {"file": "include/AesiMultiprecision/Aeu.h", "symbol": "squareRoot"}, {"file": "include/AesiMultiprecision/Aeu.h", "symbol": "compareTo"}]}
{"id": "C172", "title": "Some signed operations touch the same memory whatever the numbers and their signs are", "statement": "A program made of signed assignments, negations, swaps, powers of two, and products and quotients with the built-in number 0 loads and stores the same signs and the same blocks of the same objects in the same order on any two stores, whatever values and signs the objects have, and whatever other threads store into them meanwhile. So does a product with a positive built-in number where unsigned long long is another type than uint64_t, but not where it is the same. A test of the sign (isZero, isPositive, isNegative) reads the sign and nothing else. For +, -, *, /, %, ++, --, inverse, a product with a negative built-in number, a quotient by one that is not 0, divide, squareRoot and for comparing there are values on which the accesses differ.", "quantifier": "all widths, programs of such operations, values, signs, and interleaved stores of other threads", "why_tests_cant": "That no value or sign changes which memory is touched, or when, is a statement about pairs of runs on all pairs of inputs; a test can only show that some pair does not differ.", "anchors": [{"file": "include/AesiMultiprecision/Aesi.h", "symbol": "operator="}, {"file": "include/AesiMultiprecision/Aesi.h", "symbol": "operator-"}, {"file": "include/AesiMultiprecision/Aesi.h", "symbol": "swap"}, {"file": "include/AesiMultiprecision/Aesi.h", "symbol": "power2"}, {"file": "include/AesiMultiprecision/Aesi.h", "symbol": "operator*="}, {"file": "include/AesiMultiprecision/Aesi.h", "symbol": "isZero"}, {"file": "include/AesiMultiprecision/Aesi.h", "symbol": "inverse"}]}
{"id": "C173", "title": "Every signed operation makes a bounded number of accesses, and every thread is done after a known number of turns", "statement": "The number of loads and stores of signs and blocks of its operands that an operation of the signed class makes is bounded by a polynomial in the number n of blocks, whatever the numbers and signs are: 2n+2 for a copy or a negation, 5n+6 for += and -=, n^2+4n+5 for *=, 64n^2+37n+6 for /= and %=, 3n+2 for ++, 3n+3 for --, 3 for inverse, 36n+4 for a quotient by a built-in number, 2n+3 for a comparison, 1 for a test of the sign. A program of such operations without loops and square roots has finished once its thread has had as many turns as these bounds add up to along its longest branch, whatever other threads do to its operands meanwhile and however all threads are scheduled.", "quantifier": "all widths, values, signs, programs without loops and square roots (for single operations: all of them), numbers of threads, other programs and schedules", "why_tests_cant": "A worst case over all values, signs and interleavings is not something a test can find.", "anchors": [{"file": "include/AesiMultiprecision/Aesi.h", "symbol": "operator+="}, {"file": "include/AesiMultiprecision/Aesi.h", "symbol": "operator-="}, {"file": "include/AesiMultiprecision/Aesi.h", "symbol": "operator*="}, {"file": "include/AesiMultiprecision/Aesi.h", "symbol": "operator/="}, {"file": "include/AesiMultiprecision/Aesi.h", "symbol": "divide"}, {"file": "include/AesiMultiprecision/Aesi.h", "symbol": "compareTo"}, {"file": "include/AesiMultiprecision/Aesi.h", "symbol": "inverse"}]}
{"id": "C174", "title": "Squares and Fermat's factorisation", "statement": "r = x.squareRoot(); r * r == x answers for every x whether it is the square of an integer. Fermat's method written with squareRoot, *, -, +, ++ and == (start at the square root of x, rounded up, and count a up until a*a - x is a square b*b) ends for every odd x for which ((x+1)/2)^2 is below 2^N, and returns a - b and a + b: two divisors with product x, and of all such pairs the one whose members are closest. They are 1 and x exactly if x is prime (x > 1).", "quantifier": "all odd values with ((x+1)/2)^2 < 2^N (for the test of squares: all values), all widths", "why_tests_cant": "Correctness and termination for every number, including that no pair of divisors is missed, is a statement about an unbounded search; tests factor a few numbers.", "anchors": [{"file": "include/AesiMultiprecision/Aeu.h", "symbol": "squareRoot"}, {"file": "include/AesiMultiprecision/Aeu.h", "symbol": "operator*"}, {"file": "include/AesiMultiprecision/Aeu.h", "symbol": "operator-"}, {"file": "include/AesiMultiprecision/Aeu.h", "symbol": "operator++"}, {"file": "include/AesiMultiprecision/Aeu.h", "symbol": "operator=="}]}
{"id": "C175", "title": "Chinese remainders", "statement": "For coprime moduli m1, m2 with m1*m2 and m2*m2 at most 2^N, 1 < m2 < 2^(N-1), and remainders a1 < m1 and any a2, Garner's formula a1 + m1 * (((a2 % m2 - a1 % m2 (+ m2 if negative)) * inverse(m1, m2)) % m2), with the inverse taken from gcd's coefficient with its sign (C139), returns the one number below m1*m2 that leaves a1 modulo m1 and a2 modulo m2.", "quantifier": "all such moduli and remainders, all widths", "why_tests_cant": "Exactness of a chain of six operations with an inverse that may be negative, for all coprime pairs, cannot be enumerated.", "anchors": [{"file": "include/AesiMultiprecision/Aeu.h", "symbol": "gcd"}, {"file": "include/AesiMultiprecision/Aeu.h", "symbol": "operator%"}, {"file": "include/AesiMultiprecision/Aeu.h", "symbol": "operator*"}, {"file": "include/AesiMultiprecision/Aeu.h", "symbol": "operator+"}, {"file": "include/AesiMultiprecision/Aeu.h", "symbol": "operator-"}, {"file": "include/AesiMultiprecision/Aeu.h", "symbol": "operator<"}]}
{"id": "C176", "title": "RSA from the two halves", "statement": "m^d mod p*q computed as RSA implementations do, from powm(m, d % (p-1), p) and powm(m, d % (q-1), q) put together as in C175, is exactly m^d mod p*q, for all different primes p and q with p*p, q*q and p*q at most 2^N, every message m (also one divisible by p or q) and every exponent d that is a multiple of neither p-1 nor q-1.", "quantifier": "all primes, messages and exponents as described, all widths", "why_tests_cant": "It holds by Fermat's little theorem and the Chinese remainder theorem, for all keys and messages; a test decrypts a few.", "anchors": [{"file": "include/AesiMultiprecision/Aeu.h", "symbol": "powm"}, {"file": "include/AesiMultiprecision/Aeu.h", "symbol": "gcd"}, {"file": "include/AesiMultiprecision/Aeu.h", "symbol": "operator%"}, {"file": "include/AesiMultiprecision/Aeu.h", "symbol": "operator-"}]}
{"id": "C177", "title": "Division that rounds down", "statement": "The usual way to get floor division from the signed class: q = a / b; r = a - q * b; if(!r.isZero() && r.isNegative() != b.isNegative()) { --q; r += b; } - gives, for every a and every b other than 0, the quotient rounded down and the remainder that has the sign of b, with a = q * b + r and r smaller in magnitude than b; nothing on the way leaves the range of the type, for any width.", "quantifier": "all dividends, all nonzero divisors, all widths", "why_tests_cant": "It depends on the signs the library gives to quotients and remainders and on q * b and q - 1 never overflowing, for all pairs of numbers; a test tries some.", "anchors": [{"file": "include/AesiMultiprecision/Aesi.h", "symbol": "operator/"}, {"file": "include/AesiMultiprecision/Aesi.h", "symbol": "operator*"}, {"file": "include/AesiMultiprecision/Aesi.h", "symbol": "operator-"}, {"file": "include/AesiMultiprecision/Aesi.h", "symbol": "operator--"}, {"file": "include/AesiMultiprecision/Aesi.h", "symbol": "operator+="}, {"file": "include/AesiMultiprecision/Aesi.h", "symbol": "isNegative"}, {"file": "include/AesiMultiprecision/Aesi.h", "symbol": "isZero"}]}
{"id": "C178", "title": "Binomial coefficients", "statement": "The program c = 1; for(unsigned i = 1; i <= k; ++i) { c *= m - k + i; c /= i; } computes exactly the number of ways to choose k of m things (the entry of Pascal's triangle), for all k <= m below 2^32 - 1 for which C(m,k) * k is below 2^N: every division on the way is exact and no product on the way overflows.", "quantifier": "all m, all k, all widths, any previous contents of the memory", "why_tests_cant": "It needs every intermediate product to fit and every division to be exact, for all m and k; a test checks some entries.", "anchors": [{"file": "include/AesiMultiprecision/Aeu.h", "symbol": "operator*="}, {"file": "include/AesiMultiprecision/Aeu.h", "symbol": "operator/="}, {"file": "include/AesiMultiprecision/Aeu.h", "symbol": "Aeu"}]}
{"id": "C179", "title": "Fibonacci numbers by doubling", "statement": "The 64-step doubling program (t = a * (b + b - a); b = a * a + b * b; a = t; one more step if the bit of k is set) returns the k-th Fibonacci number modulo 2^N for every 64-bit k and every width, although the differences and products on the way wrap.", "quantifier": "all 64-bit indices, all widths, any previous contents of the memory", "why_tests_cant": "It holds because every operation is exact modulo 2^N, for all 2^64 indices; a test checks a few.", "anchors": [{"file": "include/AesiMultiprecision/Aeu.h", "symbol": "operator+"}, {"file": "include/AesiMultiprecision/Aeu.h", "symbol": "operator-"}, {"file": "include/AesiMultiprecision/Aeu.h", "symbol": "operator*"}, {"file": "include/AesiMultiprecision/Aeu.h", "symbol": "Aeu"}]}
{"id": "C180", "title": "Inverses modulo 2^N", "statement": "Newton's iteration x = a; repeat: x *= two - a * x; gives, for every odd a and every width, after a number of steps s with 3 * 2^s >= N, the only number x below 2^N with a * x = 1 modulo 2^N; and c * x is then exactly c / a for every c that a divides.", "quantifier": "all odd numbers, all dividends that are multiples of them, all widths, every sufficient number of steps", "why_tests_cant": "It depends on every product and difference being exact modulo 2^N, for all odd numbers and widths; a test inverts some.", "anchors": [{"file": "include/AesiMultiprecision/Aeu.h", "symbol": "operator*"}, {"file": "include/AesiMultiprecision/Aeu.h", "symbol": "operator-"}, {"file": "include/AesiMultiprecision/Aeu.h", "symbol": "operator*="}, {"file": "include/AesiMultiprecision/Aeu.h", "symbol": "Aeu"}]}
{"id": "C181", "title": "Square roots by Newton's iteration", "statement": "The program x = a; for(;;) { y = (x + a / x) >> 1; if(y >= x) return x; x = y; } (0 for a = 0) ends for every a other than 2^N - 1, and the result is the root rounded down, the same object as a.squareRoot() returns. For a = 2^N - 1, in every width, the first sum wraps and the program returns 0.", "quantifier": "all numbers, all widths", "why_tests_cant": "It needs termination and the absence of overflow for all numbers; a test checks some, and would likely miss the one exception.", "anchors": [{"file": "include/AesiMultiprecision/Aeu.h", "symbol": "operator/"}, {"file": "include/AesiMultiprecision/Aeu.h", "symbol": "operator+"}, {"file": "include/AesiMultiprecision/Aeu.h", "symbol": "operator>>"}, {"file": "include/AesiMultiprecision/Aeu.h", "symbol": "operator>="}, {"file": "include/AesiMultiprecision/Aeu.h", "symbol": "squareRoot"}, {"file": "include/AesiMultiprecision/Aeu.h", "symbol": "isZero"}]}
