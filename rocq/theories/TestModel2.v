(** * TestModel2: the tests that go through text, streams and casts; conventions as in TestModel.

    The texts GMP produces ([mpz_class] in [std::hex], [get_str]) are parameters, specified by [numeral] (TextSpec).
    [EXPECT_EQ(number, text)] (power2.cpp l.12 and 24, binary_io.cpp l.34): no [operator==] of Aeu.h l.726-756 or
    Aesi.h l.607-638 accepts a string (the templates do not deduce from one), so as written these lines need a
    conversion; modelled as the comparison with the number constructed from the text. *)
From Verif Require Export TestModel.
Open Scope Z_scope.

(** test/arithmetic/power2.cpp l.20-25 and l.8-13: [text] is what [ss << std::hex << power2] appends to "0x" *)
Definition power2Trial (cfg : config) (n : Z) (alnum : Z -> bool) (i : Z) (text : list Z) : outcome bool :=
  x <- power2 cfg n i ;; y <- from_string n false alnum ([48; 120] ++ text) ;; op_eq cfg n n x y.
(** power2.cpp l.8-13 *)
Definition s_power2Trial (cfg : config) (n : Z) (alnum : Z -> bool) (i : Z) (text : list Z) : outcome bool :=
  x <- s_power2 cfg n i ;; y <- s_from_string n false alnum ([48; 120] ++ text) ;; s_eq cfg n n x y.
(** l.26 and l.14: [EXPECT_EQ(power2(512), 0u)] for N = 512 *)
Definition power2Top (cfg : config) (n : Z) : outcome bool := x <- power2 cfg n (32 * n) ;; op_eq_u32 n x 0.
(** power2.cpp l.14 *)
Definition s_power2Top (cfg : config) (n : Z) : outcome bool := x <- s_power2 cfg n (32 * n) ;; s_eq_int n x 0.

(** test/bitwise/not.cpp *)
(** l.22-23: the binary digits of a byte, least significant first, until the byte is zero *)
Definition byteBinary (byte : Z) : outcome (list Z) :=
  whileF 9 (fun '(byte, binary) => if byte =? 0 then Ok (Exit binary)
    else Ok (Next (byte / 2, binary ++ [if Z.odd byte then 49 else 48]))) (byte, []).
(** std::bitset<8>: eight binary digits, most significant first (standard library) *)
(** standard library; not.cpp l.26 *)
Definition bitset8 (byte : Z) : list Z := map (fun i => 48 + byte / 2 ^ i mod 2) [7; 6; 5; 4; 3; 2; 1; 0].
(** [static_cast<uint8_t>(~byte)] *)
(** not.cpp l.22, 26 *)
Definition not8 (byte : Z) : Z := Z.lnot byte mod 256.
(** l.10-29: one trial; N = 32 n *)
Definition notTrial (cfg : config) (n : Z) (junk : list Z) (alnum : Z -> bool) (draw : Z) : outcome bool :=
  let bitCount := mpz_sizeinbase2 draw in
  let value := if bitCount <? 32 * n then Z.shiftl draw (32 * n - bitCount) else draw in
  let byteCount := byteCountGmp value in
  binary <- byteBinary (not8 (getByteGmp value (byteCount - 1))) ;;
  ss <- forD (byteCount - 1) 0 (fun j ss => Ok (ss ++ bitset8 (not8 (getByteGmp value j)))) ([48; 98] ++ rev binary) ;;
  aeu <- from_mpz cfg true n value ;; notted <- from_string n false alnum ss ;;
  x <- op_not n junk aeu ;; op_eq cfg n n x notted.

(** test/operations/initialization/gmp-integration.cpp l.22-33 and l.9-20: the stream holds exactly [get_str()] *)
Definition gmpText (cfg : config) (n : Z) (gmp : Z) (ss : ostream) (get_str : list Z) : outcome bool :=
  a <- from_mpz cfg true n gmp ;; ss <- stream_insert cfg n ss a ;;
  Ok (if list_eq_dec Z.eq_dec (out ss) get_str then true else false).
(** gmp-integration.cpp l.9-20 *)
Definition s_gmpText (cfg : config) (n : Z) (gmp : Z) (ss : ostream) (get_str : list Z) : outcome bool :=
  a <- s_from_mpz cfg true n gmp ;; ss <- s_stream_insert cfg n ss a ;;
  Ok (if list_eq_dec Z.eq_dec (out ss) get_str then true else false).

(** test/operations/casts/integral_cast.cpp l.10-17: one trial; [value] has type int64_t throughout *)
Definition signedIntegralCast (n v64 v32 : Z) : outcome bool :=
  a <- s_from_int n int64 v64 ;; x <- s_integralCast int64 a ;;
  a <- s_assign_int n int64 a v32 ;; y <- s_integralCast int32 a ;;
  Ok ((x =? v64) && (y =? v32)).
(** l.24-30 *)
Definition unsignedIntegralCast (n : Z) (junk : list Z) (v64 v32 : Z) : outcome bool :=
  a <- from_unsigned n junk v64 ;; x <- integralCast uint64 a ;;
  a <- from_unsigned n junk v32 ;; y <- integralCast uint32 a ;;
  Ok ((x =? v64) && (y =? v32)).
(** [std::hex << std::setw(16) << std::setfill('0')] of a uint64_t: sixteen hexadecimal digits (standard library) *)
(** standard library; integral_cast.cpp l.36 *)
Definition hex16 (x : Z) : list Z := hex8 (x / 2 ^ 32) ++ hex8 (x mod 2 ^ 32).
(** l.34-41; [text]: the random GMP number in hexadecimal *)
Definition textIntegralCast (n : Z) (alnum : Z -> bool) (text : list Z) (baseValue : Z) : outcome bool :=
  a <- from_string n false alnum ([48; 120] ++ text ++ map (digit_char false) (hex16 baseValue)) ;;
  x <- integralCast uint64 a ;; Ok (x =? baseValue).

(** test/operations/casts/precision_cast.cpp l.9-33 and l.100-122: one number, one target precision *)
Definition precisionCastTrial (cfg : config) (n m init0 : Z) : outcome bool :=
  a <- from_mpz cfg true n init0 ;; x <- precisionCast cfg n m a ;; op_eq_mpz cfg true m x init0.
(** precision_cast.cpp l.9-33 *)
Definition s_precisionCastTrial (cfg : config) (n m init0 : Z) : outcome bool :=
  a <- s_from_mpz cfg true n init0 ;; x <- s_precisionCast cfg n m a ;; s_eq_mpz cfg true m x init0.

(** test/operations/binary_io.cpp; [le]: the host's byte order.
    [ss2 << std::setw(8) << std::setfill('0') << block] in hexadecimal is [fmt_08x false]. *)
(** binary_io.cpp l.14-34 *)
Definition blocksText (blocks : list Z) : list Z := [48; 120] ++ flat_map (fmt_08x false) blocks.
(** l.9-35: trial [i] with the drawn [blocks] *)
Definition binaryRead (cfg : config) (le : bool) (n : Z) (alnum : Z -> bool) (i : Z) (blocks : list Z) : outcome bool :=
  '(a, _) <- (if i mod 2 =? 0 then readBinary le n (mk_is (flat_map (block_bytes le) blocks) true) true
              else readBinary le n (mk_is (flat_map (block_bytes le) (rev blocks)) true) false) ;;
  y <- from_string n false alnum (blocksText blocks) ;; op_eq cfg n n a y.
(** l.39-63: trial [i]; [ss2.read] of four bytes into [temp], which is read only after being filled *)
Definition binaryWrite (cfg : config) (le : bool) (n : Z) (alnum : Z -> bool) (i : Z) (blocks : list Z) : outcome bool :=
  l <- from_string n false alnum (blocksText blocks) ;;
  let body := fun j '(r, ss2, temp) =>
    let '(got, ss2) := is_read ss2 4 in
    let temp := bytes_block le (got ++ skipn (length got) (block_bytes le temp)) in
    r <- setBlock cfg n r j temp ;; Ok (r, ss2, temp) in
  '(r, _, _) <- (if i mod 2 =? 0 then
      ss2 <- writeBinary le n l (mk_bos [] None true) false ;;
      forU 0 n body (zeros n, mk_is (obytes ss2) true, 0)
    else
      ss2 <- writeBinary le n l (mk_bos [] None true) true ;;
      forD n 0 body (zeros n, mk_is (obytes ss2) true, 0)) ;;
  op_eq cfg n n l r.
