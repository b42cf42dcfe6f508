(** * TestModel5: the arithmetic tests on fixed values, with the values generalised: addition.cpp Basic (l.6-48, 62-63) and
    the fixed part of Increment (l.108-128, 137-156), subtraction.cpp Basic (l.17-67) and the fixed part of Decrement
    (l.112-132, 141-160), multiplication.cpp Basic (l.6-45), division.cpp Basic (l.6-11, 34-57), modulo.cpp Basic
    (l.19-26, 47-69).  All files in test/arithmetic.  EXPECT macros are recorded and the test goes on; a trial's result
    says whether all of them held.  [junk]: the memory temporaries are constructed in. *)
From Verif Require Export TestModel4 MixModel.
Open Scope Z_scope.

(** The operations of the template parameter T128 used by the tests.  [o_lit], [o_eq], ..: with an unsuffixed-width
    literal of an unsigned type ("u": unsigned int if it fits, else unsigned long). *)
Record number (T : Type) := mk_number {
  o_lit : Z -> outcome T; o_eq : T -> Z -> outcome bool;
  o_plus : T -> outcome T; o_minus : T -> outcome T;
  o_add : T -> T -> outcome T; o_add_assign : T -> T -> outcome T;
  o_sub : T -> T -> outcome T; o_sub_assign : T -> T -> outcome T;
  o_mul : T -> T -> outcome T; o_mul_assign : T -> T -> outcome T;
  o_add_lit : T -> Z -> outcome T; o_add_assign_lit : T -> Z -> outcome T;
  o_sub_lit : T -> Z -> outcome T; o_sub_assign_lit : T -> Z -> outcome T;
  o_mul_lit : T -> Z -> outcome T; o_mul_assign_lit : T -> Z -> outcome T;
  o_lit_add : Z -> T -> outcome T; o_lit_mul : Z -> T -> outcome T }.
Arguments o_lit {T}. Arguments o_eq {T}. Arguments o_plus {T}. Arguments o_minus {T}. Arguments o_add {T}. Arguments o_add_assign {T}.
Arguments o_sub {T}. Arguments o_sub_assign {T}. Arguments o_mul {T}. Arguments o_mul_assign {T}. Arguments o_add_lit {T}. Arguments o_add_assign_lit {T}.
Arguments o_sub_lit {T}. Arguments o_sub_assign_lit {T}. Arguments o_mul_lit {T}. Arguments o_mul_assign_lit {T}. Arguments o_lit_add {T}. Arguments o_lit_mul {T}.

(** the type of an unsigned literal: [unsigned int] or [unsigned long] (C++ standard, integer literals) *)
Definition lit_uty (k : Z) : uty := if k <? 2 ^ 32 then U32 else U64.
(** the same for Aesi's overloads *)
Definition lit_ity (k : Z) : ity := if k <? 2 ^ 32 then uint32 else uint64.

(** T128 = Aeu: Aeu.h l.166-175 (construction), 726-733 (==), 280-289 (unary), 341-405 (+ -), 415-475 ( * ), 1592-1611 *)
Definition aeu_number (n : Z) (junk : list Z) : number (list Z) := mk_number (list Z)
  (from_unsigned n junk) (fun a k => if k <? 2 ^ 32 then op_eq_u32 n a k else op_eq_u64 n a k)
  op_plus (op_neg n)
  (op_add n) (add_assign n) (op_sub n) (sub_assign n) (op_mul n) (mul_assign n)
  (fun a k => op_add_u n (lit_uty k) a k) (fun a k => add_assign_u n (lit_uty k) a k)
  (u_sub_int n junk) (fun a k => x <- from_unsigned n junk k ;; sub_assign n a x)
  (fun a k => op_mul_u n (lit_uty k) a k) (fun a k => mul_assign_u n (lit_uty k) a k)
  (u_int_add n junk) (u_int_mul n junk).
(** T128 = Aesi: Aesi.h l.96-112 (construction), 607-615 (==), 190-205 (unary), 260-460 (arithmetic), 1219-1245 *)
Definition aesi_number (cfg : config) (n : Z) : number aesi := mk_number aesi
  (fun k => s_from_int n (lit_ity k) k) (s_eq_int n)
  s_plus s_neg
  (s_add cfg n) (s_add_assign cfg n) (s_sub cfg n) (s_sub_assign cfg n) (s_mul n) (s_mul_assign n)
  (fun a k => s_add_int cfg n (lit_ity k) a k) (fun a k => x <- s_from_int n (lit_ity k) k ;; s_add_assign cfg n a x)
  (fun a k => s_sub_int cfg n (lit_ity k) a k) (fun a k => x <- s_from_int n (lit_ity k) k ;; s_sub_assign cfg n a x)
  (fun a k => s_mul_int cfg n (lit_ity k) a k) (fun a k => s_mul_assign_int cfg n (lit_ity k) a k)
  (fun k a => s_int_add cfg n (lit_ity k) k a) (fun k a => s_int_mul cfg n (lit_ity k) k a).

(** [EXPECT_EQ(expression, k)] *)
(** googletest; addition.cpp l.10 and all others *)
Definition expect {T} (o : number T) (k : Z) (x : outcome T) : outcome bool := r <- x ;; o_eq o r k.
(** the same EXPECT_EQ for several expressions, in order *)
(** googletest; addition.cpp l.10-17 *)
Fixpoint expect_all {T} (o : number T) (k : Z) (xs : list (outcome T)) : outcome bool :=
  match xs with [] => Ok true | x :: t => e <- expect o k x ;; f <- expect_all o k t ;; Ok (e && f) end.

(** addition.cpp l.8-19 *)
Definition additionZero {T} (o : number T) (v : Z) : outcome bool :=
  zero <- o_lit o 0 ;; m0 <- o_lit o v ;; pz <- o_plus o zero ;; pm <- o_plus o m0 ;;
  e1 <- expect_all o v [o_add o zero m0; o_add o m0 zero; o_add o zero pm; o_add o m0 pz;
                        o_add o pz m0; o_add o pm zero; o_add o pz pm; o_add o pm pz] ;;
  m0 <- o_add_assign o m0 zero ;; e2 <- o_eq o m0 v ;;
  m0 <- o_add_assign o m0 pz ;; e3 <- o_eq o m0 v ;;
  Ok (e1 && e2 && e3).
(** addition.cpp l.22-24, and l.26-28 with the other number *)
Definition additionLiteral {T} (o : number T) (v : Z) : outcome bool :=
  zero <- o_lit o 0 ;; m1 <- o_lit o v ;; pz <- o_plus o zero ;;
  e1 <- expect_all o v [o_add_lit o m1 0; o_lit_add o 0 m1; o_add o m1 zero; o_add o m1 pz; o_add o m1 pz; o_add o zero m1; o_add o pz m1] ;;
  m1 <- o_add_assign_lit o m1 0 ;; e2 <- o_eq o m1 v ;;
  m1 <- o_add_assign o m1 zero ;; e3 <- o_eq o m1 v ;;
  m1 <- o_add_assign o m1 pz ;; e4 <- o_eq o m1 v ;;
  Ok (e1 && e2 && e3 && e4).
(** addition.cpp l.30-47: one of the sixteen lines [EXPECT_EQ(s + t, w)] *)
Definition additionPair {T} (o : number T) (s t w : Z) : outcome bool :=
  a <- o_lit o s ;; b <- o_lit o t ;; expect o w (o_add o a b).

(** subtraction.cpp l.18-28 (= 44-54, with the literals of type long); [minus]: with the line [m0 -= -zero] *)
Definition subtractionBasic {T} (o : number T) (lit : Z -> outcome T) (minus : bool) (v : Z) : outcome bool :=
  zero <- lit 0 ;; m0 <- lit v ;; pz <- o_plus o zero ;;
  e1 <- expect_all o v [o_sub_lit o m0 0; o_add_lit o m0 0; o_add o m0 zero; o_sub o m0 zero; o_add o m0 pz; o_sub o m0 pz] ;;
  m0 <- o_sub_assign_lit o m0 0 ;; e2 <- o_eq o m0 v ;;
  m0 <- o_sub_assign o m0 zero ;; e3 <- o_eq o m0 v ;;
  '(m0, e4) <- (if minus then mz <- o_minus o zero ;; m0 <- o_sub_assign o m0 mz ;; e <- o_eq o m0 v ;; Ok (m0, e) else Ok (m0, true)) ;;
  m0 <- o_sub_assign o m0 pz ;; e5 <- o_eq o m0 v ;;
  Ok (e1 && e2 && e3 && e4 && e5).

(** multiplication.cpp l.8-41 *)
Definition multiplicationBasic {T} (o : number T) (v : Z) : outcome bool :=
  zero <- o_lit o 0 ;; one <- o_lit o 1 ;; m0 <- o_lit o v ;;
  pz <- o_plus o zero ;; p1 <- o_plus o one ;; pm <- o_plus o m0 ;;
  e1 <- expect_all o 0 [o_mul_lit o m0 0; o_lit_mul o 0 m0; o_mul o m0 zero; o_mul o m0 pz; o_mul o zero m0; o_mul o zero pm; o_mul o pz m0; o_mul o pz pm] ;;
  e2 <- expect_all o v [o_mul_lit o m0 1; o_lit_mul o 1 m0; o_mul o m0 one; o_mul o m0 p1; o_mul o one m0; o_mul o one pm; o_mul o p1 m0; o_mul o p1 pm] ;;
  m0 <- o_mul_assign_lit o m0 0 ;; e3 <- o_eq o m0 0 ;; m0 <- o_lit o v ;;
  m0 <- o_mul_assign o m0 zero ;; e4 <- o_eq o m0 0 ;; m0 <- o_lit o v ;;
  m0 <- o_mul_assign o m0 pz ;; e5 <- o_eq o m0 0 ;; m0 <- o_lit o v ;;
  zero <- o_mul_assign o zero m0 ;; e6 <- o_eq o zero 0 ;;
  pm <- o_plus o m0 ;; zero <- o_mul_assign o zero pm ;; e7 <- o_eq o zero 0 ;;
  m0 <- o_mul_assign_lit o m0 1 ;; e8 <- o_eq o m0 v ;;
  m0 <- o_mul_assign o m0 one ;; e9 <- o_eq o m0 v ;;
  m0 <- o_mul_assign o m0 p1 ;; e10 <- o_eq o m0 v ;;
  one <- o_mul_assign o one m0 ;; e11 <- o_eq o one v ;; one <- o_lit o 1 ;;
  pm <- o_plus o m0 ;; one <- o_mul_assign o one pm ;; e12 <- o_eq o one v ;;
  Ok (e1 && e2 && e3 && e4 && e5 && e6 && e7 && e8 && e9 && e10 && e11 && e12).

(** division.cpp l.7-10 and modulo.cpp l.20-25: one line [EXPECT_EQ(a op b, w)] with a literal or a number on the right *)
Definition divisionLine (n : Z) (junk : list Z) (op : list Z -> list Z -> outcome (list Z)) (a b w : Z) : outcome bool :=
  x <- from_unsigned n junk a ;; y <- from_unsigned n junk b ;; q <- op x y ;; op_eq_u32 n q w.
(** division.cpp l.8 and modulo.cpp l.21, [EXPECT_EQ(zero / one, zero)] *)
Definition divisionLineNumber (cfg : config) (n : Z) (junk : list Z) (op : list Z -> list Z -> outcome (list Z)) (a b w : Z) : outcome bool :=
  x <- from_unsigned n junk a ;; y <- from_unsigned n junk b ;; z <- from_unsigned n junk w ;; q <- op x y ;; op_eq cfg n n q z.
(** division.cpp l.35-56 and modulo.cpp l.48-69: the operands are built from unsigned or int ([ta], [tb]) *)
Definition s_divisionLine (n : Z) (ta tb : ity) (op : aesi -> aesi -> outcome aesi) (a b w : Z) : outcome bool :=
  x <- s_from_int n ta a ;; y <- s_from_int n tb b ;; q <- op x y ;; s_eq_int n q w.

(** addition.cpp l.108-116, subtraction.cpp l.112-120: [test = k; ++test; EXPECT_EQ(test, k1); EXPECT_FALSE(test.isZero());
    EXPECT_GT(test, k)] and the same with the postfix operator.  [step]: the operator's effect on the object;
    [z]: the value isZero should have; [greater]: EXPECT_GT or EXPECT_LT *)
Definition stepLines (n : Z) (junk : list Z) (op : list Z -> outcome (list Z)) (k k1 : Z) (z greater : bool) : outcome bool :=
  test <- from_unsigned n junk k ;; test <- op test ;;
  e1 <- op_eq_u32 n test k1 ;; i <- isZero n test ;; o <- op_spaceship_u32 n test k ;;
  Ok (e1 && Bool.eqb i z && match o with OGreater => greater | OLess => negb greater | _ => false end).
(** addition.cpp l.137-155, subtraction.cpp l.141-159 *)
Definition s_stepLines (n : Z) (op : aesi -> outcome aesi) (k k1 : Z) (z greater : bool) : outcome bool :=
  test <- s_from_int n int32 k ;; test <- op test ;;
  e1 <- s_eq_int n test k1 ;; o <- s_spaceship_int n test k ;;
  Ok (e1 && Bool.eqb (s_isZero test) z && match o with OGreater => greater | OLess => negb greater | _ => false end).
(** addition.cpp l.118-127, subtraction.cpp l.122-131: [Aeu<512> test2 = text; EXPECT_EQ(++test2, text')] (the comparison
    with a literal modelled as with the number constructed from it, see TestModel2) *)
Definition stepText (cfg : config) (n : Z) (alnum : Z -> bool) (op : list Z -> outcome (list Z)) (text text' : list Z) : outcome bool :=
  test2 <- from_literal n false alnum text ;; x <- op test2 ;; y <- from_literal n false alnum text' ;; op_eq cfg n n x y.
