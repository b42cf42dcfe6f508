(** * AesiModel: the signed class [Aesi<bitness>], function by function.

    All line numbers refer to /repo/include/AesiMultiprecision/Aesi.h unless Aeu.h is named.
    A function that mutates an object through a reference returns the new contents.  Where the source
    constructs a temporary [Base(v)] its previous memory contents are irrelevant (theorem C31); the model
    uses zeros. *)
From Verif Require Export AeuModel.
Open Scope Z_scope.

(** Aesi.h l.39: == on the enumeration *)
Definition sign_eqb (a b : sign_t) : bool :=
  match a, b with SZero, SZero | SPos, SPos | SNeg, SNeg => true | _, _ => false end.

(** Aesi.h l.69: assignment to the member sign *)
Definition with_sign (x : aesi) (s : sign_t) : aesi := mk_aesi s (mag x).
(** Aesi.h l.72: assignment to the member base *)
Definition with_mag (x : aesi) (b : list Z) : aesi := mk_aesi (sgn x) b.

(** l.877, 884, 891 *)
Definition s_isZero (x : aesi) : bool := sign_eqb (sgn x) SZero.
(** Aesi.h l.884 *)
Definition s_isPositive (x : aesi) : bool := sign_eqb (sgn x) SPos.
(** Aesi.h l.891 *)
Definition s_isNegative (x : aesi) : bool := sign_eqb (sgn x) SNeg.

(** l.927-930 inverse *)
Definition s_inverse (x : aesi) : aesi :=
  with_sign x (match sgn x with SZero => SZero | SNeg => SPos | SPos => SNeg end).

(** [Aesi {}] (value-initialisation of the defaulted constructor l.82) *)
Definition s_default (n : Z) : aesi := mk_aesi SZero (zeros n).

(** l.100-113 Aesi(Integral value); [t]: the type [Integral].
    [static_cast<unsigned long long>(x)] is [x mod 2^64]. *)
Definition s_from_int (n : Z) (t : ity) (value : Z) : outcome aesi :=
  if value <? 0 then
    nv <- ineg t value ;;
    b <- from_unsigned n (zeros n) (u64 nv) ;; Ok (mk_aesi SNeg b)
  else if value >? 0 then
    b <- from_unsigned n (zeros n) (u64 value) ;; Ok (mk_aesi SPos b)
  else Ok (mk_aesi SZero (zeros n)).

(** l.178-180 operator=(Integral): [*this = Aesi(value)] *)
Definition s_assign_int (n : Z) (t : ity) (_this : aesi) (value : Z) : outcome aesi := s_from_int n t value.

(** l.151 explicit Aesi(const Aeu&) *)
Definition s_from_aeu (value : list Z) : aesi := mk_aesi SPos value.

(** l.197 *)
Definition s_plus (x : aesi) : outcome aesi := Ok x.
(** l.204 *)
Definition s_neg (x : aesi) : outcome aesi := Ok (s_inverse x).

(** l.210-218 prefix ++ *)
Definition s_inc (n : Z) (x : aesi) : outcome aesi :=
  match sgn x with
  | SNeg => b <- op_dec n (mag x) ;; z <- isZero n b ;; Ok (mk_aesi (if z then SZero else SNeg) b)
  | SPos => b <- op_inc n (mag x) ;; Ok (mk_aesi SPos b)
  | SZero => b <- from_unsigned n (zeros n) 1 ;; Ok (mk_aesi SPos b)
  end.
(** l.224 postfix ++: (returned old value, new value of the object) *)
Definition s_post_inc (n : Z) (x : aesi) : outcome (aesi * aesi) := r <- s_inc n x ;; Ok (x, r).
(** l.230-238 prefix -- *)
Definition s_dec (n : Z) (x : aesi) : outcome aesi :=
  match sgn x with
  | SNeg => b <- op_inc n (mag x) ;; Ok (mk_aesi SNeg b)
  | SPos => b <- op_dec n (mag x) ;; z <- isZero n b ;; Ok (mk_aesi (if z then SZero else SPos) b)
  | SZero => b <- from_unsigned n (zeros n) 1 ;; Ok (mk_aesi SNeg b)
  end.
(** l.244 postfix -- *)
Definition s_post_dec (n : Z) (x : aesi) : outcome (aesi * aesi) := r <- s_dec n x ;; Ok (x, r).

(** l.265-315 operator+= *)
Definition s_add_assign (cfg : config) (n : Z) (a b : aesi) : outcome aesi :=
  match sgn b with
  | SZero => Ok a                                                     (* l.270-271 *)
  | _ =>
    match sgn a with
    | SZero => Ok b                                                   (* l.272-273 *)
    | _ =>
      if sign_eqb (sgn a) (sgn b) then
        r <- add_assign n (mag a) (mag b) ;; Ok (with_mag a r)        (* l.274-277 *)
      else
        match sgn a with
        | SPos =>                                                     (* l.279-295 *)
          ratio <- compareTo cfg n n (mag a) (mag b) ;;
          match ratio with
          | CGreater => r <- sub_assign n (mag a) (mag b) ;; Ok (with_mag a r)
          | CLess => r <- op_sub n (mag b) (mag a) ;; Ok (mk_aesi SNeg r)
          | _ => Ok (with_sign a SZero)
          end
        | _ =>                                                        (* l.296-313 *)
          ratio <- compareTo cfg n n (mag a) (mag b) ;;
          match ratio with
          | CGreater => r <- sub_assign n (mag a) (mag b) ;; Ok (with_mag a r)
          | CLess => r <- op_sub n (mag b) (mag a) ;; Ok (mk_aesi SPos r)
          | _ => Ok (with_sign a SZero)
          end
        end
    end
  end.
(** l.255-257 *)
Definition s_add (cfg : config) (n : Z) (a b : aesi) : outcome aesi := s_add_assign cfg n a b.

(** l.335-393 operator-= *)
Definition s_sub_assign (cfg : config) (n : Z) (a b : aesi) : outcome aesi :=
  match sgn b with
  | SZero => Ok a                                                     (* l.340-341 *)
  | _ =>
    match sgn a with
    | SZero => Ok (s_inverse b)                                       (* l.342-346 *)
    | SPos =>
      match sgn b with
      | SPos =>                                                       (* l.349-366 *)
        ratio <- compareTo cfg n n (mag a) (mag b) ;;
        match ratio with
        | CGreater => r <- sub_assign n (mag a) (mag b) ;; Ok (with_mag a r)
        | CLess => r <- op_sub n (mag b) (mag a) ;; Ok (mk_aesi SNeg r)
        | _ => Ok (with_sign a SZero)
        end
      | _ => r <- add_assign n (mag a) (mag b) ;; Ok (with_mag a r)   (* l.367-370 *)
      end
    | SNeg =>
      match sgn b with
      | SNeg =>                                                       (* l.372-388 *)
        ratio <- compareTo cfg n n (mag a) (mag b) ;;
        match ratio with
        | CGreater => r <- sub_assign n (mag a) (mag b) ;; Ok (with_mag a r)
        | CLess => r <- op_sub n (mag b) (mag a) ;; Ok (mk_aesi SPos r)
        | _ => Ok (with_sign a SZero)
        end
      | _ => r <- add_assign n (mag a) (mag b) ;; Ok (with_mag a r)   (* l.389-392 *)
      end
    end
  end.
(** l.325-327 *)
Definition s_sub (cfg : config) (n : Z) (a b : aesi) : outcome aesi := s_sub_assign cfg n a b.

(** The operand preparation shared by l.431-435, l.497-501, l.567-571:
    [if(k < 0) { x.inverse(); k = static_cast<Integral>(-k); }] *)
Definition s_strip_sign (t : ity) (x : aesi) (k : Z) : outcome (aesi * Z) :=
  if k <? 0 then nk <- ineg t k ;; Ok (s_inverse x, icast t nk) else Ok (x, k).

(** l.426-439 operator*=(Integral): the factor is cast to [unsigned long long] before [base *= factor]. *)
Definition s_mul_assign_int (cfg : config) (n : Z) (t : ity) (a : aesi) (factor : Z) : outcome aesi :=
  if factor =? 0 then Ok (with_sign a SZero)
  else
    '(a, factor) <- s_strip_sign t a factor ;;
    b <- mul_assign_u n (ull_ty cfg) (mag a) (u64 factor) ;; Ok (with_mag a b).
(** l.404-406 *)
Definition s_mul_int (cfg : config) (n : Z) (t : ity) (a : aesi) (factor : Z) := s_mul_assign_int cfg n t a factor.

(** l.446-456 operator*= *)
Definition s_mul_assign (n : Z) (a factor : aesi) : outcome aesi :=
  if s_isZero factor then Ok (with_sign a SZero)
  else
    let a := if s_isNegative factor then s_inverse a else a in
    b <- mul_assign n (mag a) (mag factor) ;; Ok (with_mag a b).
(** l.415-417 *)
Definition s_mul (n : Z) (a factor : aesi) := s_mul_assign n a factor.

(** l.502 (= l.522, 591-592, 996-997): [if(division.base.isZero()) division.sign = Zero;] *)
Definition s_fix_zero (n : Z) (a : aesi) : outcome aesi :=
  z <- isZero n (mag a) ;; Ok (if z then with_sign a SZero else a).

(** l.492-506 operator/=(Integral): the divisor is converted to [Aeu] by the constructor Aeu.h:167. *)
Definition s_div_assign_int (cfg : config) (n : Z) (t : ity) (a : aesi) (divisor : Z) : outcome aesi :=
  if divisor =? 0 then Ok (with_sign a SZero)
  else
    '(a, divisor) <- s_strip_sign t a divisor ;;
    d <- from_unsigned n (zeros n) (u64 divisor) ;;
    q <- div_assign cfg n (mag a) d ;;
    s_fix_zero n (with_mag a q).
(** l.468-470 *)
Definition s_div_int (cfg : config) (n : Z) (t : ity) (a : aesi) (divisor : Z) := s_div_assign_int cfg n t a divisor.

(** l.514-525 operator/= *)
Definition s_div_assign (cfg : config) (n : Z) (a divisor : aesi) : outcome aesi :=
  if s_isZero divisor then Ok (with_sign a SZero)
  else
    let a := if s_isNegative divisor then s_inverse a else a in
    q <- div_assign cfg n (mag a) (mag divisor) ;;
    s_fix_zero n (with_mag a q).
(** l.480-482 *)
Definition s_div (cfg : config) (n : Z) (a divisor : aesi) := s_div_assign cfg n a divisor.

(** l.562-575 operator%=(Integral) *)
Definition s_mod_assign_int (cfg : config) (n : Z) (t : ity) (a : aesi) (modulo : Z) : outcome aesi :=
  if modulo =? 0 then Ok (with_sign a SZero)
  else
    '(a, modulo) <- s_strip_sign t a modulo ;;
    d <- from_unsigned n (zeros n) (u64 modulo) ;;
    r <- mod_assign cfg n (mag a) d ;;
    Ok (with_mag a r).
(** l.537-539 *)
Definition s_mod_int (cfg : config) (n : Z) (t : ity) (a : aesi) (modulo : Z) := s_mod_assign_int cfg n t a modulo.

(** l.584-596 operator%= *)
Definition s_mod_assign (cfg : config) (n : Z) (a modulo : aesi) : outcome aesi :=
  if s_isZero modulo then Ok a
  else
    let a := if s_isNegative modulo then s_inverse a else a in
    r <- mod_assign cfg n (mag a) (mag modulo) ;;
    s_fix_zero n (with_mag a r).
(** l.550-552 *)
Definition s_mod (cfg : config) (n : Z) (a modulo : aesi) := s_mod_assign cfg n a modulo.

(** l.1220-1256 operators with a built-in left operand: [Aesi<bitness>(number) op value] *)
Definition s_int_add cfg n t (k : Z) (v : aesi) : outcome aesi := x <- s_from_int n t k ;; s_add cfg n x v.
(** Aesi.h l.1229 *)
Definition s_int_sub cfg n t (k : Z) (v : aesi) : outcome aesi := x <- s_from_int n t k ;; s_sub cfg n x v.
(** Aesi.h l.1238 *)
Definition s_int_mul (cfg : config) n t (k : Z) (v : aesi) : outcome aesi := x <- s_from_int n t k ;; s_mul n x v.
(** Aesi.h l.1247 *)
Definition s_int_div cfg n t (k : Z) (v : aesi) : outcome aesi := x <- s_from_int n t k ;; s_div cfg n x v.
(** Aesi.h l.1256 *)
Definition s_int_mod cfg n t (k : Z) (v : aesi) : outcome aesi := x <- s_from_int n t k ;; s_mod cfg n x v.
(** [a + k], [a += k], [a - k], [a -= k]: the operand is converted by the (non-explicit) constructor l.100,
    then l.255, 265, 325, 335. *)
Definition s_add_int cfg n t (a : aesi) (k : Z) : outcome aesi := x <- s_from_int n t k ;; s_add cfg n a x.
(** Aesi.h l.100-113, 325 *)
Definition s_sub_int cfg n t (a : aesi) (k : Z) : outcome aesi := x <- s_from_int n t k ;; s_sub cfg n a x.

(** ** Comparison *)

(** [switch(sign)] of l.652-659 and l.698-705: comparison with zero *)
Definition s_cmp_zero (s : sign_t) : comparison_t :=
  match s with SPos => CGreater | SNeg => CLess | SZero => CEqual end.
(** [switch(...)] of l.662-669 and l.709-716: reversed magnitude comparison of two negatives *)
Definition s_cmp_flip (c : comparison_t) : comparison_t :=
  match c with CGreater => CLess | CLess => CGreater | _ => CEqual end.

(** l.695-724 compareTo(const Aesi&) *)
Definition s_compareTo (cfg : config) (n : Z) (a b : aesi) : outcome comparison_t :=
  if s_isZero b then Ok (s_cmp_zero (sgn a))
  else if s_isNegative b then
    if sign_eqb (sgn a) SNeg then c <- compareTo cfg n n (mag a) (mag b) ;; Ok (s_cmp_flip c)
    else Ok CGreater
  else if sign_eqb (sgn a) SPos then compareTo cfg n n (mag a) (mag b)
  else Ok CLess.

(** [-static_cast<int64_t>(x)]: signed overflow on the minimum *)
(** used at Aesi.h l.662 *)
Definition neg_i64 (x : Z) : outcome Z := ineg int64 (icast int64 x).

(** l.649-678 compareTo(Integral); the magnitude is compared by Aeu.h:790 compareTo(uint64_t) *)
Definition s_compareTo_int (n : Z) (a : aesi) (integral : Z) : outcome comparison_t :=
  if integral =? 0 then Ok (s_cmp_zero (sgn a))
  else if integral <? 0 then
    if sign_eqb (sgn a) SNeg then
      k <- neg_i64 integral ;;
      c <- compareTo_u64 n (mag a) (u64 k) ;; Ok (s_cmp_flip c)
    else Ok CGreater
  else if sign_eqb (sgn a) SPos then compareTo_u64 n (mag a) (u64 (icast int64 integral))
  else Ok CLess.

(** l.1025-1041 precisionCast<newBitness>; [m]: block count of the result, m <> n. *)
Definition s_precisionCast (cfg : config) (n m : Z) (a : aesi) : outcome aesi :=
  if negb (s_isZero a) then
    result <- s_from_int m int32 1 ;;                                (* l.1028 *)
    let blockBoarder := if 32 * m >? 32 * n then n else m in         (* l.1030 *)
    b <- forU 0 blockBoarder (fun blockIdx base =>
      x <- getBlock cfg n (mag a) blockIdx ;;
      setBlock cfg m base blockIdx x) (mag result) ;;
    let result := with_mag result b in
    Ok (if s_isNegative a then s_inverse result else result)
  else Ok (s_default m).                                             (* l.1040 *)

(** l.685-687 compareTo(const Aesi<otherBitness>&), otherBitness <> bitness *)
Definition s_compareTo_x (cfg : config) (n m : Z) (a b : aesi) : outcome comparison_t :=
  if n =? m then s_compareTo cfg n a b
  else a' <- s_precisionCast cfg n m a ;; s_compareTo cfg m a' b.

(** l.619-625 operator== *)
Definition s_eq (cfg : config) (n m : Z) (a b : aesi) : outcome bool :=
  if n =? m then c <- s_compareTo cfg n a b ;; Ok (cmp_eqb c CEqual)
  else a' <- s_precisionCast cfg n m a ;;
       c <- s_compareTo cfg m a' b ;; Ok (cmp_eqb c CEqual).
(** l.608-610 operator==(Integral) *)
Definition s_eq_int (n : Z) (a : aesi) (k : Z) : outcome bool :=
  c <- s_compareTo_int n a k ;; Ok (cmp_eqb c CEqual).

(** l.754-766 and 775-787 operator<=> *)
Definition s_spaceship (cfg : config) (n m : Z) (a b : aesi) : outcome ordering_t :=
  c <- s_compareTo_x cfg n m a b ;; Ok (to_ordering c).
(** Aesi.h l.775-787 *)
Definition s_spaceship_int (n : Z) (a : aesi) (k : Z) : outcome ordering_t :=
  c <- s_compareTo_int n a k ;; Ok (to_ordering c).
(** The relational operators C++20 rewrites to [<=>] and [==]. *)
(** Aesi.h l.754-766 *)
Definition s_lt cfg n m a b := o <- s_spaceship cfg n m a b ;; Ok (match o with OLess => true | _ => false end).
(** Aesi.h l.754-766 *)
Definition s_gt cfg n m a b := o <- s_spaceship cfg n m a b ;; Ok (match o with OGreater => true | _ => false end).
(** Aesi.h l.754-766 *)
Definition s_le cfg n m a b := o <- s_spaceship cfg n m a b ;; Ok (match o with OGreater => false | _ => true end).
(** Aesi.h l.754-766 *)
Definition s_ge cfg n m a b := o <- s_spaceship cfg n m a b ;; Ok (match o with OLess => false | _ => true end).
(** Aesi.h l.619-627, rewritten from == by C++20 *)
Definition s_ne cfg n m a b := e <- s_eq cfg n m a b ;; Ok (negb e).

(** ** Supporting methods: l.799-898 forward to [base] *)
Definition s_setBit cfg n (a : aesi) i v := b <- setBit cfg n (mag a) i v ;; Ok (with_mag a b).
(** Aesi.h l.808 *)
Definition s_getBit cfg n (a : aesi) i := getBit cfg n (mag a) i.
(** Aesi.h l.816 *)
Definition s_setByte cfg n (a : aesi) i v := b <- setByte cfg n (mag a) i v ;; Ok (with_mag a b).
(** Aesi.h l.825 *)
Definition s_getByte cfg n (a : aesi) i := getByte cfg n (mag a) i.
(** Aesi.h l.833 *)
Definition s_setBlock cfg n (a : aesi) i v := b <- setBlock cfg n (mag a) i v ;; Ok (with_mag a b).
(** Aesi.h l.842 *)
Definition s_getBlock cfg n (a : aesi) i := getBlock cfg n (mag a) i.
(** Aesi.h l.849 *)
Definition s_byteCount n (a : aesi) := byteCount n (mag a).
(** Aesi.h l.856 *)
Definition s_bitCount n (a : aesi) := bitCount n (mag a).
(** Aesi.h l.863 *)
Definition s_isOdd (a : aesi) := isOdd (mag a).
(** Aesi.h l.870 *)
Definition s_isEven (a : aesi) := isEven (mag a).
(** Aesi.h l.898 *)
Definition s_filledBlocksNumber n (a : aesi) := filledBlocksNumber n (mag a).

(** l.942-973 divide(number, divisor, quotient&, remainder&): returns (quotient, remainder); [q0], [r0] are
    the previous contents of the output objects, which here are objects distinct from the inputs. *)
Definition s_divide (cfg : config) (n : Z) (number divisor q0 r0 : aesi) : outcome (aesi * aesi) :=
  if s_isZero number || s_isZero divisor then Ok (with_sign q0 SZero, with_sign r0 SZero)
  else
    '(q, r) <- divide cfg n (mag number) (mag divisor) ;;
    let '(qs, rs) :=
      match sgn number with
      | SPos => match sgn divisor with SPos => (SPos, SPos) | _ => (SNeg, SPos) end
      | _ => match sgn divisor with SPos => (SNeg, SNeg) | _ => (SPos, SNeg) end
      end in
    qz <- isZero n q ;; rz <- isZero n r ;;
    Ok (mk_aesi (if qz then SZero else qs) q, mk_aesi (if rz then SZero else rs) r).

(** l.981-986 squareRoot *)
Definition s_squareRoot (cfg : config) (fuel : nat) (n : Z) (a : aesi) : outcome aesi :=
  match sgn a with
  | SPos => r <- squareRoot cfg fuel n (mag a) ;; Ok (mk_aesi SPos r)
  | _ => s_from_int n int32 0
  end.

(** l.993-999 power2 *)
Definition s_power2 (cfg : config) (n : Z) (power : Z) : outcome aesi :=
  b <- power2 cfg n power ;; s_fix_zero n (mk_aesi SPos b).

(** [x * -1] for [x] of type [t] (promoted to [int] when narrower): signed overflow on the minimum *)
(** used at Aesi.h l.1014 *)
Definition imul_m1 (t : ity) (x : Z) : outcome Z := ineg t x.

(** l.1007-1017 integralCast<Integral> *)
Definition s_integralCast (t : ity) (a : aesi) : outcome Z :=
  match sgn a with
  | SZero => Ok 0
  | SNeg =>
      v <- integralCast t (mag a) ;;
      if isigned t then p <- imul_m1 t v ;; Ok (icast t p) else Ok v
  | SPos => integralCast t (mag a)
  end.

(** l.1047 unsignedCast *)
Definition s_unsignedCast (a : aesi) : list Z := mag a.
