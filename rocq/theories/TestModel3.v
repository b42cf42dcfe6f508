(** * TestModel3: the randomized tests of initialization.cpp and display.cpp, and the width-crossing checks of
    initialization.cpp and boolean.cpp with their literals generalised.  Conventions as in TestModel and TestModel2:
    what GMP prints is a parameter specified by [numeral]; [draw] is what [Generation::getRandom] returned.
    init = test/operations/initialization/initialization.cpp, display = test/operations/display/display.cpp. *)
From Verif Require Export TestModel2.
Open Scope Z_scope.

(** display l.8-21 gmpToBinaryString (= l.848-860).  [(bitCount - 1) / 8] is the index of the top byte. *)
Definition gmpToBinaryString (v : Z) : outcome (list Z) :=
  let bitCount := mpz_sizeinbase2 v in
  let byteCount := (bitCount + 7) / 8 in
  msb <- byteBinary (getByteGmp v ((bitCount - 1) / 8)) ;;
  forD (byteCount - 1) 0 (fun j result => Ok (result ++ bitset8 (getByteGmp v j))) (rev msb).
(** init l.99-109 (= l.224-235): the same with [getByteGmp(byteCount - 1)] *)
Definition initBinaryString (v : Z) : outcome (list Z) :=
  let byteCount := byteCountGmp v in
  msb <- byteBinary (getByteGmp v (byteCount - 1)) ;;
  forD (byteCount - 1) 0 (fun j result => Ok (result ++ bitset8 (getByteGmp v j))) (rev msb).
(** The literals "0b", "0o", "0x" the tests put in front. *)
(** e.g. init l.107, display l.115 *)
Definition literal_prefix (base : Z) : list Z :=
  if base =? 2 then [48; 98] else if base =? 8 then [48; 111] else if base =? 16 then [48; 120] else [].

(** ** initialization.cpp *)
(** The value of trial [i] in the signed tests: [(i % 2 == 0 ? 1 : -1) * getRandom(...)] *)
(** e.g. init l.221 *)
Definition signedDraw (i draw : Z) : Z := (if i mod 2 =? 0 then 1 else -1) * draw.
(** init l.27-30 and the bodies of l.91-152: [record = value; EXPECT_EQ; record = ss.str(); EXPECT_EQ]; [digits] is what
    GMP prints in the base, for base 2 the test's own conversion is used. *)
Definition initTrial (cfg : config) (n : Z) (alnum : Z -> bool) (base value : Z) (digits : list Z) : outcome bool :=
  record <- from_mpz cfg true n value ;; e1 <- op_eq_mpz cfg true n record value ;;
  d <- (if base =? 2 then initBinaryString value else Ok digits) ;;
  record <- from_string n false alnum (literal_prefix base ++ d) ;; e2 <- op_eq_mpz cfg true n record value ;;
  Ok (e1 && e2).
(** init l.216-279, trial [i]: the test writes "-" for odd [i], except in base 10 (l.241-247), where GMP writes the sign. *)
Definition s_initTrial (cfg : config) (n : Z) (alnum : Z -> bool) (base i draw : Z) (digits : list Z) : outcome bool :=
  let value := signedDraw i draw in
  record <- s_from_mpz cfg true n value ;; e1 <- s_eq_mpz cfg true n record value ;;
  d <- (if base =? 2 then initBinaryString (Z.abs value) else Ok digits) ;;
  let minus := if base =? 10 then value <? 0 else negb (i mod 2 =? 0) in
  record <- s_from_string n false alnum ((if minus then [45] else []) ++ literal_prefix base ++ d) ;;
  e2 <- s_eq_mpz cfg true n record value ;;
  Ok (e1 && e2).
(** init l.204-209: [i + 2] dashes in front of a digit string (there "1"), compared with [1 * (i % 2 == 0 ? 1 : -1)],
    an int; there [digits] = "1" and [v] = 1. *)
Definition dashesTrial (n : Z) (alnum : Z -> bool) (i : Z) (digits : list Z) (v : Z) : outcome bool :=
  a <- s_from_string n false alnum (repeat 45 (Z.to_nat (i + 2)) ++ digits) ;;
  s_eq_int n a (v * (if i mod 2 =? 0 then 1 else -1)).
(** init l.8-23 for one width, l.88 (uint64_t) and l.213 (int64_t) *)
Definition precisionTrial (n : Z) (junk : list Z) (value : Z) : outcome bool :=
  o <- from_unsigned n junk value ;; op_eq_u64 n o value.
(** init l.213 *)
Definition s_precisionTrial (n value : Z) : outcome bool := o <- s_from_int n int64 value ;; s_eq_int n o value.

(** [o > 0], [o < 0] *)
(** boolean.cpp l.51-52 *)
Definition is_gt (o : ordering_t) : bool := match o with OGreater => true | _ => false end.
(** boolean.cpp l.53-54 *)
Definition is_lt (o : ordering_t) : bool := match o with OLess => true | _ => false end.
(** ** boolean.cpp l.38-55 for two widths: [EXPECT_EQ(o1, o2)], [EXPECT_EQ(o1, iv)], [EXPECT_GT(o1, low)], [EXPECT_LT(o1, high)] *)
Definition crossTrial (cfg : config) (n m : Z) (j1 j2 : list Z) (iv low high : Z) : outcome bool :=
  o1 <- from_unsigned n j1 iv ;; o2 <- from_unsigned m j2 iv ;;
  e1 <- op_eq cfg n m o1 o2 ;; e2 <- op_eq_u64 n o1 iv ;;
  g <- op_spaceship_u64 n o1 low ;; l <- op_spaceship_u64 n o1 high ;;
  Ok (e1 && e2 && is_gt g && is_lt l).
(** boolean.cpp l.38-55, the Aesi instance *)
Definition s_crossTrial (cfg : config) (n m : Z) (iv low high : Z) : outcome bool :=
  o1 <- s_from_int n uint64 iv ;; o2 <- s_from_int m uint64 iv ;;
  e1 <- s_eq cfg n m o1 o2 ;; e2 <- s_eq_int n o1 iv ;;
  g <- s_spaceship_int n o1 low ;; l <- s_spaceship_int n o1 high ;;
  Ok (e1 && e2 && is_gt g && is_lt l).
(** boolean.cpp l.60-98 and l.104-150: two numerals read at two widths; the five comparisons as expected of the integers *)
Definition orderTrial (cfg : config) (n m : Z) (alnum : Z -> bool) (t0 t1 : list Z) (v0 v1 : Z) : outcome bool :=
  w0 <- from_literal n false alnum t0 ;; w1 <- from_literal m false alnum t1 ;;
  g <- op_gt cfg n m w0 w1 ;; l <- op_lt cfg n m w0 w1 ;; e <- op_eq cfg n m w0 w1 ;; le <- op_le cfg n m w0 w1 ;; ge <- op_ge cfg n m w0 w1 ;;
  Ok (Bool.eqb g (v0 >? v1) && Bool.eqb l (v0 <? v1) && Bool.eqb e (v0 =? v1) && Bool.eqb le (v0 <=? v1) && Bool.eqb ge (v0 >=? v1)).
(** boolean.cpp l.104-150 *)
Definition s_orderTrial (cfg : config) (n m : Z) (alnum : Z -> bool) (t0 t1 : list Z) (v0 v1 : Z) : outcome bool :=
  w0 <- s_from_literal n false alnum t0 ;; w1 <- s_from_literal m false alnum t1 ;;
  g <- s_gt cfg n m w0 w1 ;; l <- s_lt cfg n m w0 w1 ;; e <- s_eq cfg n m w0 w1 ;; le <- s_le cfg n m w0 w1 ;; ge <- s_ge cfg n m w0 w1 ;;
  Ok (Bool.eqb g (v0 >? v1) && Bool.eqb l (v0 <? v1) && Bool.eqb e (v0 =? v1) && Bool.eqb le (v0 <=? v1) && Bool.eqb ge (v0 >=? v1)).

(** ** display.cpp *)
(** [EXPECT_EQ] of two strings *)
(** gtest; e.g. display l.89 *)
Definition text_eq (s t : list Z) : bool := if list_eq_dec Z.eq_dec s t then true else false.
(** [std::string_view(p)]: the characters before the first NUL; reading past the array is undefined *)
(** standard library; e.g. display l.40 *)
Fixpoint string_view (buffer : list Z) : outcome (list Z) :=
  match buffer with
  | [] => Err OutOfBounds
  | c :: t => if c =? 0 then Ok [] else s <- string_view t ;; Ok (c :: s)
  end.
(** A fresh stringstream to which [first] was written and on which the manipulators were applied *)
(** standard library; e.g. display l.86-88 *)
Definition fresh_with (first : list Z) (b : basefield) (show upper : bool) : ostream := mk_os first b show upper 32 0 AdjNone.
(** std::dec, std::oct, std::hex; e.g. display l.87-160 *)
Definition base_of (b : basefield) : Z := match b with BHex => 16 | BOct => 8 | _ => 10 end.

(** display l.80-171: [ss2 << "0o" << std::oct << std::noshowbase << aeu] ("" in l.80-105), cases 0-3 of l.284-448:
    [ss2 << std::oct << std::showbase << aeu] compared with "0o" and the digits GMP prints. *)
Definition streamTrial (cfg : config) (n : Z) (b : basefield) (show upper : bool) (value : Z) (digits : list Z) : outcome bool :=
  aeu <- from_mpz cfg true n value ;;
  ss2 <- stream_insert cfg n (fresh_with (if show then [] else literal_prefix (base_of b)) b show upper) aeu ;;
  Ok (text_eq (out ss2) (literal_prefix (base_of b) ++ digits)).
(** display l.507-576 ([show] off: GMP writes the sign) and cases 0-3 of l.691-868 ([show] on: the test writes "-0x" for
    odd [i], except in base 10), trial [i] *)
Definition s_streamTrial (cfg : config) (n : Z) (b : basefield) (show upper : bool) (i draw : Z) (digits : list Z) : outcome bool :=
  let value := signedDraw i draw in
  aesi <- s_from_mpz cfg true n value ;;
  ss2 <- s_stream_insert cfg n (fresh_with [] b show upper) aesi ;;
  let minus := if show && negb (base_of b =? 10) then negb (i mod 2 =? 0) else value <? 0 in
  Ok (text_eq (out ss2) ((if minus then [45] else []) ++ (if show then literal_prefix (base_of b) else []) ++ digits)).
(** display l.181-269 ([show] off) and cases 4-8 of l.284-448 ([show] on): the array is static, so [buffer] is whatever
    the earlier trials left; returned again. *)
Definition bufferTrial (cfg : config) (n : Z) (wide upper : bool) (wfail : list Z -> Z -> list Z) (base : Z) (show : bool)
    (buffer : list Z) (value : Z) (digits : list Z) : outcome (bool * list Z) :=
  aeu <- from_mpz cfg true n value ;;
  d <- (if base =? 2 then gmpToBinaryString value else Ok digits) ;;
  '(buffer, _) <- getString cfg n wide upper wfail base aeu buffer (len buffer) show ;;
  v <- string_view buffer ;;
  Ok (text_eq v ((if show then literal_prefix base else []) ++ d), buffer).
(** display l.586-676 and cases 4-8 of l.691-868, trial [i].  The sign of the expected text: written by the test for
    odd [i] in base 2 (l.614, 664) and when the base is shown, except in base 10; otherwise by GMP. *)
Definition s_bufferTrial (cfg : config) (n : Z) (wide upper : bool) (wfail : list Z -> Z -> list Z) (base : Z) (show : bool)
    (buffer : list Z) (i draw : Z) (digits : list Z) : outcome (bool * list Z) :=
  let value := signedDraw i draw in
  aesi <- s_from_mpz cfg true n value ;;
  d <- (if base =? 2 then gmpToBinaryString (Z.abs value) else Ok digits) ;;
  '(buffer, _) <- s_getString cfg n wide upper wfail base aesi buffer (len buffer) show ;;
  v <- string_view buffer ;;
  let minus := if (base =? 2) || (show && negb (base =? 10)) then negb (i mod 2 =? 0) else value <? 0 in
  Ok (text_eq v ((if minus then [45] else []) ++ (if show then literal_prefix base else []) ++ d), buffer).
(** The loop of l.181-219: the trials one after the other on the static array; [sel i] gives base and letter case of
    trial [i]; all must hold. *)
Fixpoint formatLoop (cfg : config) (n : Z) (wide : bool) (wfail : list Z -> Z -> list Z) (sel : Z -> Z * bool) (show : bool)
    (buffer : list Z) (i : Z) (draws : list (Z * list Z)) : outcome bool :=
  match draws with
  | [] => Ok true
  | (v, digits) :: rest =>
      '(ok, buffer) <- bufferTrial cfg n wide (snd (sel i)) wfail (fst (sel i)) show buffer v digits ;;
      more <- formatLoop cfg n wide wfail sel show buffer (i + 1) rest ;;
      Ok (ok && more)
  end.
