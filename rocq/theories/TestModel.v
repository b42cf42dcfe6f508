(** * TestModel: the project's own tests and CI programs, with the random draws as parameters.

    A test is a program that returns whether all its EXPECTs hold; [Err] is a run that ends in undefined behaviour or
    in a signal.  Draws of [Generation::getRandom(bits)] (test/generation.h l.39-43, mpz_urandomb) are integers
    0 <= v < 2^bits; draws of [getRandom<T>()] (l.22-26) are arbitrary values of T.
    The tests are compiled with AESI_GMP_INTEGRATION and without AESI_UNSAFE; [cfg] is the build, the host is
    little-endian ([from_mpz cfg true]). *)
From Verif Require Export AeuModel AesiModel MixModel BinModel TextModel.
Open Scope Z_scope.

(** ** GMP: exact integers.  mpz_class [/] and [%] truncate (mpz_tdiv_q, mpz_tdiv_r); division by zero raises SIGFPE. *)
(** GMP; generation.h l.51, 53 *)
Definition gmp_total (f : Z -> Z -> Z) (l r : Z) : outcome Z := Ok (f l r).
(** GMP; division.cpp l.80-84 *)
Definition gmp_quot (l r : Z) : outcome Z := if r =? 0 then Err GmpDivByZero else Ok (Z.quot l r).
(** GMP; modulo.cpp l.13-15 *)
Definition gmp_rem (l r : Z) : outcome Z := if r =? 0 then Err GmpDivByZero else Ok (Z.rem l r).
(** mpz_powm for a non-negative exponent; the result is in [0, |m|) *)
(** GMP; number-theory.cpp l.13, 28 *)
Definition gmp_powm (b p m : Z) : outcome Z := if m =? 0 then Err GmpDivByZero else Ok ((b ^ p) mod (Z.abs m)).

(** ** The two instantiations of the test templates: [T = Aeu] and [T = Aesi] *)
(** the template parameter of generation.h l.45, 57 *)
Record tested (T : Type) := mk_tested { t_from : Z -> outcome T; t_eq : T -> Z -> outcome bool }.
Arguments t_from {T}. Arguments t_eq {T}.
(** generation.h l.45 with T = Aeu *)
Definition onAeu (cfg : config) (n : Z) : tested (list Z) := mk_tested (list Z) (from_mpz cfg true n) (op_eq_mpz cfg true n).
(** generation.h l.45, 57 with T = Aesi *)
Definition onAesi (cfg : config) (n : Z) : tested aesi := mk_tested aesi (s_from_mpz cfg true n) (s_eq_mpz cfg true n).

(** [for (std::size_t i = 0; i < testsAmount; ++i) { one trial }]: an EXPECT that fails is recorded and the loop goes on *)
(** generation.h l.48, 60 and the same loop in every test *)
Definition trials (testsAmount : Z) (trial : Z -> outcome bool) : outcome bool :=
  forU 0 testsAmount (fun i ok => e <- trial i ;; Ok (ok && e)) true.

(** test/generation.h l.49-53: one trial of runCompositeTest; also test/arithmetic/modulo/modulo.cpp l.10-15
    (testModuloComposite) *)
Definition composite {T} (k : tested T) (op assignOp : T -> T -> outcome T) (gop : Z -> Z -> outcome Z) (l r : Z) : outcome bool :=
  lA <- t_from k l ;; rA <- t_from k r ;;
  x <- op lA rA ;; g <- gop l r ;; e1 <- t_eq k x g ;;
  lA <- assignOp lA rA ;; e2 <- t_eq k lA g ;;
  Ok (e1 && e2).

(** generation.h l.61-67: the signs of the operands in trial [i] *)
Definition sign_first (i : Z) : Z := if i mod 4 =? 0 then 1 else if i mod 4 =? 1 then -1 else if i mod 4 =? 2 then -1 else 1.
(** generation.h l.61-67 *)
Definition sign_second (i : Z) : Z := if i mod 4 =? 0 then 1 else if i mod 4 =? 1 then -1 else if i mod 4 =? 2 then 1 else -1.

(** generation.h l.45-55 runCompositeTest and l.57-76 runSignedCompositeTest; [draw i] are the two random numbers of trial [i] *)
Definition runCompositeTest {T} (k : tested T) op assignOp gop (testsAmount : Z) (draw : Z -> Z * Z) : outcome bool :=
  trials testsAmount (fun i => composite (T := T) k op assignOp gop (fst (draw i)) (snd (draw i))).
(** generation.h l.57-76 *)
Definition runSignedCompositeTest {T} (k : tested T) op assignOp gop (testsAmount : Z) (draw : Z -> Z * Z) : outcome bool :=
  trials testsAmount (fun i => composite (T := T) k op assignOp gop (sign_first i * fst (draw i)) (sign_second i * snd (draw i))).

(** The built-in operand trials: addition.cpp l.73-78 and 91-96, multiplication.cpp l.56-63, subtraction.cpp l.77-82,
    division.cpp l.22-29 and 93-100, modulo.cpp l.35-42: [EXPECT_EQ(aeu op k, value op k); aeu op= k; EXPECT_EQ(aeu, value op k);] *)
Definition builtin {T} (t : tested T) (op assignOp : T -> Z -> outcome T) (gop : Z -> Z -> outcome Z) (value k : Z) : outcome bool :=
  a <- t_from t value ;;
  x <- op a k ;; g <- gop value k ;; e1 <- t_eq t x g ;;
  a <- assignOp a k ;; e2 <- t_eq t a g ;;
  Ok (e1 && e2).
(** The same with the operation applied twice: Signed_Multiplication (multiplication.cpp l.77-84), Signed_Subtraction
    (subtraction.cpp l.95-100): [EXPECT_EQ((a op k) op k, ...); a op= k; a op= k; EXPECT_EQ(a, ...)] *)
Definition builtin2 {T} (t : tested T) (op assignOp : T -> Z -> outcome T) (gop : Z -> Z -> outcome Z) (value k : Z) : outcome bool :=
  a <- t_from t value ;;
  x <- op a k ;; x <- op x k ;; g <- gop value k ;; g <- gop g k ;; e1 <- t_eq t x g ;;
  a <- assignOp a k ;; a <- assignOp a k ;; e2 <- t_eq t a g ;;
  Ok (e1 && e2).
(** Signed_Modulo, modulo.cpp l.79-86: [EXPECT_EQ(a % k, value % k); a %= k; a %= k; EXPECT_EQ(a, value % k)] *)
Definition builtin_mod {T} (t : tested T) (op assignOp : T -> Z -> outcome T) (gop : Z -> Z -> outcome Z) (value k : Z) : outcome bool :=
  a <- t_from t value ;;
  x <- op a k ;; g <- gop value k ;; e1 <- t_eq t x g ;;
  a <- assignOp a k ;; a <- assignOp a k ;; e2 <- t_eq t a g ;;
  Ok (e1 && e2).

(** addition.cpp l.51-60 runIncrementLoop; [increments]: rand() % 100 *)
Definition runIncrementLoop {T} (k : tested T) (post_inc : T -> outcome (T * T)) (inc : T -> outcome T) (l increments : Z) : outcome bool :=
  value <- t_from k l ;;
  '(value, ok) <- forU 0 increments (fun i '(value, ok) =>
    '(old, value) <- post_inc value ;; e1 <- t_eq k old (l + 2 * i) ;;
    value <- inc value ;; e2 <- t_eq k value (l + 2 * i + 2) ;;
    Ok (value, ok && e1 && e2)) (value, true) ;;
  e <- t_eq k value (l + increments * 2) ;;
  Ok (ok && e).
(** subtraction.cpp l.6-15 runDecrementLoop *)
Definition runDecrementLoop {T} (k : tested T) (post_dec : T -> outcome (T * T)) (dec : T -> outcome T) (l decrements : Z) : outcome bool :=
  value <- t_from k l ;;
  '(value, ok) <- forU 0 decrements (fun i '(value, ok) =>
    '(old, value) <- post_dec value ;; e1 <- t_eq k old (l - 2 * i) ;;
    value <- dec value ;; e2 <- t_eq k value (l - 2 * i - 2) ;;
    Ok (value, ok && e1 && e2)) (value, true) ;;
  e <- t_eq k value (l - decrements * 2) ;;
  Ok (ok && e).

(** division.cpp l.64-89: one trial of Signed_Division.Huge, composite part; [first] and [second] the signs *)
Definition signedDivision (cfg : config) (n : Z) (first l r : Z) : outcome bool :=
  let k := onAesi cfg n in
  lA <- t_from k l ;; rA <- t_from k r ;;
  g <- (if first =? 1 then gmp_quot l r else q <- gmp_quot (l * -1) r ;; Ok (-1 * q)) ;;
  x <- s_div cfg n lA rA ;; e1 <- t_eq k x g ;;
  lA <- s_div_assign cfg n lA rA ;; e2 <- t_eq k lA g ;;
  Ok (e1 && e2).

(** shift.cpp l.8-14 and l.21-27: one trial; [value1], [value2] the two draws, [shift = i + constShift] *)
Definition shiftTrial (cfg : config) (n : Z) (op assignOp : list Z -> Z -> outcome (list Z)) (gop : Z -> Z -> Z) (value1 value2 shift : Z) : outcome bool :=
  a <- from_mpz cfg true n value1 ;; x <- op a shift ;; e1 <- op_eq_mpz cfg true n x (gop value1 shift) ;;
  a <- from_mpz cfg true n value2 ;; a <- assignOp a shift ;; e2 <- op_eq_mpz cfg true n a (gop value2 shift) ;;
  Ok (e1 && e2).

(** odd_even.cpp l.12-16 and 27-31 *)
Definition oddEven {T} (k : tested T) (isEven isOdd : T -> outcome bool) (value : Z) : outcome bool :=
  a <- t_from k value ;;
  e <- isEven a ;; o <- isOdd a ;;
  Ok (Bool.eqb (Z.even value) e && Bool.eqb (Z.odd value) o).

(** square-root.cpp l.10-15 (trial [i]) and l.26-29 *)
Definition signedSquareRoot (cfg : config) (fuel : nat) (n : Z) (i draw : Z) : outcome bool :=
  let value := (if i mod 2 =? 0 then 1 else -1) * draw in
  m <- s_from_mpz cfg true n value ;;
  r <- s_squareRoot cfg fuel n m ;;
  if i mod 2 =? 0 then s_eq_mpz cfg true n r (Z.sqrt value) else s_eq_int n r 0.
(** square-root.cpp l.26-29 *)
Definition unsignedSquareRoot (cfg : config) (fuel : nat) (n : Z) (value : Z) : outcome bool :=
  m <- from_mpz cfg true n value ;; r <- squareRoot cfg fuel n m ;; op_eq_mpz cfg true n r (Z.sqrt value).

(** boolean.cpp l.6-14 checkComparisons *)
Definition checkComparisons {T} (k : tested T) (lt le gt ge eq : T -> T -> outcome bool) (l r : Z) : outcome bool :=
  lA <- t_from k l ;; rA <- t_from k r ;;
  a <- lt lA rA ;; b <- le lA rA ;; c <- gt lA rA ;; d <- ge lA rA ;; e <- eq lA rA ;;
  Ok (Bool.eqb a (l <? r) && Bool.eqb b (l <=? r) && Bool.eqb c (l >? r) && Bool.eqb d (l >=? r) && Bool.eqb e (l =? r)).

(** ** test/number-theory.cpp *)
(** l.5-18 *)
Definition powerByModulo (cfg : config) (n base power modulo : Z) : outcome bool :=
  g <- gmp_powm base power modulo ;;
  b <- from_mpz cfg true n base ;; p <- from_mpz cfg true n power ;; m <- from_mpz cfg true n modulo ;;
  r <- powm cfg n b p m ;; op_eq_mpz cfg true n r g.
(** l.20-35: the exponent has [k] blocks, the other numbers [n] *)
Definition powerByModuloDifferentPrecision (cfg : config) (n k base power modulo : Z) : outcome bool :=
  g <- gmp_powm base power modulo ;;
  b <- from_mpz cfg true n base ;; m <- from_mpz cfg true n modulo ;; result <- from_mpz cfg true n g ;;
  p <- from_mpz cfg true k power ;;
  r <- powm_x cfg n k b p m ;; op_eq cfg n n r result.
(** l.37-49 *)
Definition leastCommonMultiplier (cfg : config) (fuel : nat) (n left right : Z) : outcome bool :=
  l <- from_mpz cfg true n left ;; r <- from_mpz cfg true n right ;;
  x <- lcm cfg fuel n l r ;; op_eq_mpz cfg true n x (Z.lcm left right).
(** l.51-63 *)
Definition greatestCommonDivisor (cfg : config) (fuel : nat) (n common left0 right0 : Z) : outcome bool :=
  let left := common * left0 in let right := common * right0 in
  l <- from_mpz cfg true n left ;; r <- from_mpz cfg true n right ;;
  x <- gcd cfg fuel n l r ;; op_eq_mpz cfg true n x (Z.gcd left right).

(** ** test/bitwise *)
(** binary.cpp l.9-17: one trial of runBitwiseTest; [l], [r] and [l'], [r'] the draws *)
Definition bitwiseTrial (cfg : config) (n : Z) (op assignOp : list Z -> list Z -> outcome (list Z)) (gop : Z -> Z -> Z) (l r l' r' : Z) : outcome bool :=
  let k := onAeu cfg n in
  left <- t_from k l ;; right <- t_from k r ;; x <- op left right ;; e1 <- t_eq k x (gop l r) ;;
  left <- t_from k l' ;; right <- t_from k r' ;; left <- assignOp left right ;; e2 <- t_eq k left (gop l' r') ;;
  Ok (e1 && e2).

(** manipulations.cpp l.6-10 testCountBitsBytes *)
Definition countBits {T} (k : tested T) (bitCount : T -> outcome Z) (value : Z) : outcome bool :=
  a <- t_from k value ;; c <- bitCount a ;; Ok (mpz_sizeinbase2 value =? c).

(** manipulations.cpp l.16-27: Unsigned_Bitwise.GetSetBit *)
Definition getSetBit (cfg : config) (n value : Z) : outcome bool :=
  let bitCount := mpz_sizeinbase2 value in
  a <- forU 0 bitCount (fun j a => setBit cfg n a j (Z.testbit value j)) (zeros n) ;;
  e1 <- op_eq_mpz cfg true n a value ;;
  a <- from_mpz cfg true n value ;;
  e2 <- forU 0 bitCount (fun j ok => b <- getBit cfg n a j ;; Ok (ok && Bool.eqb b (Z.testbit value j))) true ;;
  Ok (e1 && e2).
(** manipulations.cpp l.36-38 (= 58-60, 122-124, 146-148) getByteGmp *)
Definition getByteGmp (value k : Z) : Z := Z.land (u64 (Z.shiftr value (8 * k))) 255.
(** manipulations.cpp l.35: the number of bytes *)
Definition byteCountGmp (value : Z) : Z := (mpz_sizeinbase2 value + 7) / 8.
(** manipulations.cpp l.34-48: Unsigned_Bitwise.GetSetByte *)
Definition getSetByte (cfg : config) (n value : Z) : outcome bool :=
  let byteCount := byteCountGmp value in
  a <- forU 0 byteCount (fun j a => setByte cfg n a j (getByteGmp value j)) (zeros n) ;;
  e1 <- op_eq_mpz cfg true n a value ;;
  a <- from_mpz cfg true n value ;;
  e2 <- forU 0 byteCount (fun j ok => b <- getByte cfg n a j ;; Ok (ok && (b =? getByteGmp value j))) true ;;
  Ok (e1 && e2).
(** manipulations.cpp l.98-112: Signed_Bitwise.GetSetBit, trial [i] *)
Definition signedGetSetBit (cfg : config) (n i draw : Z) : outcome bool :=
  let value := (if i mod 2 =? 0 then -1 else 1) * draw in
  let absVal := Z.abs value in
  let bitCount := mpz_sizeinbase2 absVal in
  a <- s_from_int n int32 1 ;;
  a <- forU 0 bitCount (fun j a => s_setBit cfg n a j (Z.testbit absVal j)) a ;;
  let a := if i mod 2 =? 0 then s_inverse a else a in
  e1 <- s_eq_mpz cfg true n a value ;;
  a <- s_from_mpz cfg true n value ;;
  e2 <- forU 0 bitCount (fun j ok => b <- s_getBit cfg n a j ;; Ok (ok && Bool.eqb b (Z.testbit absVal j))) true ;;
  Ok (e1 && e2).
(** manipulations.cpp l.119-136: Signed_Bitwise.GetSetByte, trial [i] *)
Definition signedGetSetByte (cfg : config) (n i draw : Z) : outcome bool :=
  let value := (if i mod 2 =? 0 then -1 else 1) * draw in
  let absVal := Z.abs value in
  let byteCount := byteCountGmp absVal in
  a <- s_from_int n int32 1 ;;
  a <- forU 0 byteCount (fun j a => s_setByte cfg n a j (getByteGmp absVal j)) a ;;
  let a := if i mod 2 =? 0 then s_inverse a else a in
  e1 <- s_eq_mpz cfg true n a value ;;
  a <- s_from_mpz cfg true n value ;;
  e2 <- forU 0 byteCount (fun j ok => b <- s_getByte cfg n a j ;; Ok (ok && (b =? getByteGmp absVal j))) true ;;
  Ok (e1 && e2).
(** manipulations.cpp l.63-81 and 152-170: assembling blocks from bytes.  [k0]: the inner loop runs k from [k0] to 4
    (1 in the unsigned test, 0 in the signed one). *)
Definition blockOfBytes (value j k0 : Z) : outcome Z :=
  forU k0 5 (fun k block => Ok (Z.lor (u32 (block * 256)) (getByteGmp value ((j + 1) * 4 - k)))) 0.
(** l.74-79 (= 163-168): [for (std::size_t j = byteCount - 1; j >= totalBlocks * 4; --j)]; size_t j wraps to 2^64 - 1
    after 0, which is not below [totalBlocks * 4] when that is 0: then the loop does not end. *)
Definition topBlockOfBytes (value byteCount totalBlocks : Z) (fuel : nat) : outcome Z :=
  whileF fuel (fun '(j, block) =>
    if j >=? totalBlocks * 4 then Ok (Next (u64 (j - 1), Z.lor (u32 (block * 256)) (getByteGmp value j)))
    else Ok (Exit block)) (u64 (byteCount - 1), 0).
(** manipulations.cpp l.55-82: Unsigned_Bitwise.GetSetBlock *)
Definition getSetBlock (cfg : config) (fuel : nat) (n value : Z) : outcome bool :=
  let byteCount := byteCountGmp value in
  let totalBlocks := byteCount / 4 in
  a <- forU 0 totalBlocks (fun j a => b <- blockOfBytes value j 1 ;; setBlock cfg n a j b) (zeros n) ;;
  b <- topBlockOfBytes value byteCount totalBlocks fuel ;;
  a <- setBlock cfg n a totalBlocks b ;;
  op_eq_mpz cfg true n a value.
(** manipulations.cpp l.143-173: Signed_Bitwise.GetSetBlock, trial [i] *)
Definition signedGetSetBlock (cfg : config) (fuel : nat) (n i draw : Z) : outcome bool :=
  let value := (if i mod 2 =? 0 then -1 else 1) * draw in
  let absVal := Z.abs value in
  let byteCount := byteCountGmp absVal in
  let totalBlocks := byteCount / 4 in
  a <- s_from_int n int32 1 ;;
  a <- forU 0 totalBlocks (fun j a => b <- blockOfBytes absVal j 0 ;; s_setBlock cfg n a j b) a ;;
  b <- topBlockOfBytes absVal byteCount totalBlocks fuel ;;
  a <- s_setBlock cfg n a totalBlocks b ;;
  let a := if i mod 2 =? 0 then s_inverse a else a in
  s_eq_mpz cfg true n a value.
