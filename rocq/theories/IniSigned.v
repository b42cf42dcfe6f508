(** * IniSigned: the signed class on memory whose contents may be indeterminate (see IniModel.v).

    All line numbers refer to /repo/include/AesiMultiprecision/Aesi.h.  An object is its member [sign] (l.69) and its
    member [base] (l.72), neither of which has an initialiser: [Aesi x;] (l.82) leaves both indeterminate.  The
    definitions follow AesiModel.v line by line; reading a sign or a block nobody has written is the fault
    [Indeterminate], and copying an object reads both members. *)
From Verif Require Export AesiModel IniModel.
Open Scope Z_scope.

(** l.69, 72 *)
Record caesi := mk_caesi { csgn : option sign_t; cmag : cells }.
(** [Aesi x;]: l.82 with default-initialisation *)
Definition sfresh (n : Z) : caesi := mk_caesi None (fresh n).
(** A completely written object. *)
Definition sinit (x : aesi) : caesi := mk_caesi (Some (sgn x)) (init (mag x)).

(** [sign] as an rvalue *)
Definition sget (x : caesi) : outcome sign_t := match csgn x with Some s => Ok s | None => Err Indeterminate end.
(** [sign = s] *)
Definition cwith_sign (x : caesi) (s : sign_t) : caesi := mk_caesi (Some s) (cmag x).
(** [base = b] *)
Definition cwith_mag (x : caesi) (b : cells) : caesi := mk_caesi (csgn x) b.
(** l.93, 186: the defaulted copies *)
Definition scopy (x : caesi) : outcome caesi := s <- sget x ;; b <- copy (cmag x) ;; Ok (mk_caesi (Some s) b).

(** l.877, 884, 891 *)
Definition cs_isZero (x : caesi) : outcome bool := s <- sget x ;; Ok (sign_eqb s SZero).
(** l.884 *)
Definition cs_isPositive (x : caesi) : outcome bool := s <- sget x ;; Ok (sign_eqb s SPos).
(** l.891 *)
Definition cs_isNegative (x : caesi) : outcome bool := s <- sget x ;; Ok (sign_eqb s SNeg).
(** l.927-930 inverse *)
Definition cs_inverse (x : caesi) : outcome caesi :=
  s <- sget x ;; Ok (cwith_sign x (match s with SZero => SZero | SNeg => SPos | SPos => SNeg end)).

(** [Aesi {}] *)
Definition cs_default (n : Z) : caesi := mk_caesi (Some SZero) (czeros n).
(** l.100-113 Aesi(Integral value): members without initialiser, assigned in every branch *)
Definition cs_from_int (n : Z) (t : ity) (value : Z) : outcome caesi :=
  let this := sfresh n in
  if value <? 0 then
    nv <- ineg t value ;;
    b <- c_from_unsigned n (u64 nv) ;; b <- copy b ;; Ok (cwith_sign (cwith_mag this b) SNeg)
  else if value >? 0 then
    b <- c_from_unsigned n (u64 value) ;; b <- copy b ;; Ok (cwith_sign (cwith_mag this b) SPos)
  else b <- copy (czeros n) ;; Ok (cwith_sign (cwith_mag this b) SZero).
(** l.151 explicit Aesi(const Aeu&) *)
Definition cs_from_aeu (value : cells) : outcome caesi := b <- copy value ;; Ok (mk_caesi (Some SPos) b).
(** l.197 *)
Definition cs_plus (x : caesi) : outcome caesi := scopy x.
(** l.204 *)
Definition cs_neg (x : caesi) : outcome caesi := c <- scopy x ;; cs_inverse c.

(** l.502 (= l.522, 591-592, 996-997) *)
Definition cs_fix_zero (n : Z) (a : caesi) : outcome caesi :=
  z <- c_isZero n (cmag a) ;; Ok (if z then cwith_sign a SZero else a).
(** l.210-218 prefix ++ *)
Definition cs_inc (n : Z) (x : caesi) : outcome caesi :=
  s <- sget x ;;
  match s with
  | SNeg => b <- c_op_dec n (cmag x) ;; cs_fix_zero n (cwith_mag x b)
  | SPos => b <- c_op_inc n (cmag x) ;; Ok (cwith_mag x b)
  | SZero => b <- c_from_unsigned n 1 ;; b <- copy b ;; Ok (cwith_sign (cwith_mag x b) SPos)
  end.
(** l.224 postfix ++ *)
Definition cs_post_inc (n : Z) (x : caesi) : outcome (caesi * caesi) := o <- scopy x ;; r <- cs_inc n x ;; Ok (o, r).
(** l.230-238 prefix -- *)
Definition cs_dec (n : Z) (x : caesi) : outcome caesi :=
  s <- sget x ;;
  match s with
  | SNeg => b <- c_op_inc n (cmag x) ;; Ok (cwith_mag x b)
  | SPos => b <- c_op_dec n (cmag x) ;; cs_fix_zero n (cwith_mag x b)
  | SZero => b <- c_from_unsigned n 1 ;; b <- copy b ;; Ok (cwith_sign (cwith_mag x b) SNeg)
  end.
(** l.244 postfix -- *)
Definition cs_post_dec (n : Z) (x : caesi) : outcome (caesi * caesi) := o <- scopy x ;; r <- cs_dec n x ;; Ok (o, r).

(** The switch on [lBase.compareTo(rBase)] of l.280-295, 297-313, 350-366, 373-388: subtract the smaller magnitude
    from the larger; [s]: the sign taken when the right one is larger *)
Definition cs_cancel (cfg : config) (n : Z) (a b : caesi) (s : sign_t) : outcome caesi :=
  ratio <- c_compareTo cfg n n (cmag a) (cmag b) ;;
  match ratio with
  | CGreater => r <- c_sub_assign n (cmag a) (cmag b) ;; Ok (cwith_mag a r)
  | CLess => r <- c_op_sub n (cmag b) (cmag a) ;; r <- copy r ;; Ok (cwith_sign (cwith_mag a r) s)
  | _ => Ok (cwith_sign a SZero)
  end.
(** l.265-315 operator+= *)
Definition cs_add_assign (cfg : config) (n : Z) (a b : caesi) : outcome caesi :=
  sb <- sget b ;;
  if sign_eqb sb SZero then Ok a else
  sa <- sget a ;;
  if sign_eqb sa SZero then scopy b else
  if sign_eqb sa sb then r <- c_add_assign n (cmag a) (cmag b) ;; Ok (cwith_mag a r) else
  if sign_eqb sa SPos then cs_cancel cfg n a b SNeg else cs_cancel cfg n a b SPos.
(** l.255-257 *)
Definition cs_add (cfg : config) (n : Z) (a b : caesi) : outcome caesi := r <- scopy a ;; cs_add_assign cfg n r b.
(** l.335-393 operator-= *)
Definition cs_sub_assign (cfg : config) (n : Z) (a b : caesi) : outcome caesi :=
  sb <- sget b ;;
  if sign_eqb sb SZero then Ok a else
  sa <- sget a ;;
  if sign_eqb sa SZero then c <- scopy b ;; cs_inverse c else
  if sign_eqb sa SPos then
    if sign_eqb sb SPos then cs_cancel cfg n a b SNeg
    else r <- c_add_assign n (cmag a) (cmag b) ;; Ok (cwith_mag a r)
  else
    if sign_eqb sb SNeg then cs_cancel cfg n a b SPos
    else r <- c_add_assign n (cmag a) (cmag b) ;; Ok (cwith_mag a r).
(** l.325-327 *)
Definition cs_sub (cfg : config) (n : Z) (a b : caesi) : outcome caesi := r <- scopy a ;; cs_sub_assign cfg n r b.

(** l.431-435, 497-501, 567-571 *)
Definition cs_strip_sign (t : ity) (x : caesi) (k : Z) : outcome (caesi * Z) :=
  if k <? 0 then x' <- cs_inverse x ;; nk <- ineg t k ;; Ok (x', icast t nk) else Ok (x, k).
(** l.426-439 operator*=(Integral) *)
Definition cs_mul_assign_int (cfg : config) (n : Z) (t : ity) (a : caesi) (factor : Z) : outcome caesi :=
  if factor =? 0 then Ok (cwith_sign a SZero)
  else
    '(a, factor) <- cs_strip_sign t a factor ;;
    b <- c_mul_assign_u n (ull_ty cfg) (cmag a) (u64 factor) ;; Ok (cwith_mag a b).
(** l.404-406 *)
Definition cs_mul_int cfg n t (a : caesi) (factor : Z) := r <- scopy a ;; cs_mul_assign_int cfg n t r factor.
(** l.446-456 operator*= *)
Definition cs_mul_assign (n : Z) (a factor : caesi) : outcome caesi :=
  z <- cs_isZero factor ;;
  if z then Ok (cwith_sign a SZero)
  else
    ng <- cs_isNegative factor ;;
    a <- (if ng then cs_inverse a else Ok a) ;;
    b <- c_mul_assign n (cmag a) (cmag factor) ;; Ok (cwith_mag a b).
(** l.415-417 *)
Definition cs_mul (n : Z) (a factor : caesi) := r <- scopy a ;; cs_mul_assign n r factor.
(** l.492-506 operator/=(Integral) *)
Definition cs_div_assign_int (cfg : config) (n : Z) (t : ity) (a : caesi) (divisor : Z) : outcome caesi :=
  if divisor =? 0 then Ok (cwith_sign a SZero)
  else
    '(a, divisor) <- cs_strip_sign t a divisor ;;
    d <- c_from_unsigned n (u64 divisor) ;;
    q <- c_div_assign cfg n (cmag a) d ;;
    cs_fix_zero n (cwith_mag a q).
(** l.468-470 *)
Definition cs_div_int cfg n t (a : caesi) (divisor : Z) := r <- scopy a ;; cs_div_assign_int cfg n t r divisor.
(** l.514-525 operator/= *)
Definition cs_div_assign (cfg : config) (n : Z) (a divisor : caesi) : outcome caesi :=
  z <- cs_isZero divisor ;;
  if z then Ok (cwith_sign a SZero)
  else
    ng <- cs_isNegative divisor ;;
    a <- (if ng then cs_inverse a else Ok a) ;;
    q <- c_div_assign cfg n (cmag a) (cmag divisor) ;;
    cs_fix_zero n (cwith_mag a q).
(** l.480-482 *)
Definition cs_div cfg n (a divisor : caesi) := r <- scopy a ;; cs_div_assign cfg n r divisor.
(** l.562-575 operator%=(Integral) *)
Definition cs_mod_assign_int (cfg : config) (n : Z) (t : ity) (a : caesi) (modulo : Z) : outcome caesi :=
  if modulo =? 0 then Ok (cwith_sign a SZero)
  else
    '(a, modulo) <- cs_strip_sign t a modulo ;;
    d <- c_from_unsigned n (u64 modulo) ;;
    r <- c_mod_assign cfg n (cmag a) d ;;
    Ok (cwith_mag a r).
(** l.537-539 *)
Definition cs_mod_int cfg n t (a : caesi) (modulo : Z) := r <- scopy a ;; cs_mod_assign_int cfg n t r modulo.
(** l.584-596 operator%= *)
Definition cs_mod_assign (cfg : config) (n : Z) (a modulo : caesi) : outcome caesi :=
  z <- cs_isZero modulo ;;
  if z then Ok a
  else
    ng <- cs_isNegative modulo ;;
    a <- (if ng then cs_inverse a else Ok a) ;;
    r <- c_mod_assign cfg n (cmag a) (cmag modulo) ;;
    cs_fix_zero n (cwith_mag a r).
(** l.550-552 *)
Definition cs_mod cfg n (a modulo : caesi) := r <- scopy a ;; cs_mod_assign cfg n r modulo.

(** l.695-724 compareTo(const Aesi&) *)
Definition cs_compareTo (cfg : config) (n : Z) (a b : caesi) : outcome comparison_t :=
  z <- cs_isZero b ;;
  if z then s <- sget a ;; Ok (s_cmp_zero s)
  else
    ng <- cs_isNegative b ;;
    sa <- sget a ;;
    if ng then
      if sign_eqb sa SNeg then c <- c_compareTo cfg n n (cmag a) (cmag b) ;; Ok (s_cmp_flip c) else Ok CGreater
    else if sign_eqb sa SPos then c_compareTo cfg n n (cmag a) (cmag b)
    else Ok CLess.
(** l.649-678 compareTo(Integral) *)
Definition cs_compareTo_int (n : Z) (a : caesi) (integral : Z) : outcome comparison_t :=
  sa <- sget a ;;
  if integral =? 0 then Ok (s_cmp_zero sa)
  else if integral <? 0 then
    if sign_eqb sa SNeg then
      k <- neg_i64 integral ;;
      c <- c_compareTo_u64 n (cmag a) (u64 k) ;; Ok (s_cmp_flip c)
    else Ok CGreater
  else if sign_eqb sa SPos then c_compareTo_u64 n (cmag a) (u64 (icast int64 integral))
  else Ok CLess.
(** l.1025-1041 precisionCast<newBitness> *)
Definition cs_precisionCast (cfg : config) (n m : Z) (a : caesi) : outcome caesi :=
  z <- cs_isZero a ;;
  if negb z then
    result <- cs_from_int m int32 1 ;;
    let blockBoarder := if 32 * m >? 32 * n then n else m in
    b <- forU 0 blockBoarder (fun blockIdx base =>
      x <- c_getBlock cfg n (cmag a) blockIdx ;;
      c_setBlock cfg m base blockIdx x) (cmag result) ;;
    let result := cwith_mag result b in
    ng <- cs_isNegative a ;;
    if ng then cs_inverse result else Ok result
  else Ok (cs_default m).
(** l.619-625 operator==, one precision *)
Definition cs_eq (cfg : config) (n : Z) (a b : caesi) : outcome bool :=
  c <- cs_compareTo cfg n a b ;; Ok (cmp_eqb c CEqual).
(** l.608-610 operator==(Integral) *)
Definition cs_eq_int (n : Z) (a : caesi) (k : Z) : outcome bool :=
  c <- cs_compareTo_int n a k ;; Ok (cmp_eqb c CEqual).
(** l.754-766 operator<=>, one precision; the relation [<] rewritten from it *)
Definition cs_lt (cfg : config) (n : Z) (a b : caesi) : outcome bool :=
  c <- cs_compareTo cfg n a b ;; Ok (match to_ordering c with OLess => true | _ => false end).
(** l.863, 856 *)
Definition cs_isOdd (a : caesi) := c_isOdd (cmag a).
(** l.856 *)
Definition cs_bitCount n (a : caesi) := c_bitCount n (cmag a).
(** l.918-921 swap *)
Definition cs_swap (a b : caesi) : outcome (caesi * caesi) :=
  tSign <- sget a ;; sb <- sget b ;; '(x, y) <- c_swap (cmag a) (cmag b) ;; Ok (mk_caesi (Some sb) x, mk_caesi (Some tSign) y).

(** l.942-973 divide(number, divisor, quotient&, remainder&); [q0], [r0]: the two outputs before the call, objects
    distinct from the inputs *)
Definition cs_divide (cfg : config) (n : Z) (number divisor q0 r0 : caesi) : outcome (caesi * caesi) :=
  sn <- sget number ;;
  stop <- (if sign_eqb sn SZero then Ok true else cs_isZero divisor) ;;
  if stop then Ok (cwith_sign q0 SZero, cwith_sign r0 SZero)
  else
    '(q, r) <- c_divide cfg n (cmag number) (cmag divisor) (cmag q0) (cmag r0) ;;
    sd <- sget divisor ;;
    let '(qs, rs) :=
      match sn with
      | SPos => match sd with SPos => (SPos, SPos) | _ => (SNeg, SPos) end
      | _ => match sd with SPos => (SNeg, SNeg) | _ => (SPos, SNeg) end
      end in
    let quotient := cwith_sign (cwith_mag q0 q) qs in
    let remainder := cwith_sign (cwith_mag r0 r) rs in
    quotient <- cs_fix_zero n quotient ;;
    remainder <- cs_fix_zero n remainder ;;
    Ok (quotient, remainder).
(** l.981-986 squareRoot *)
Definition cs_squareRoot (cfg : config) (fuel : nat) (n : Z) (a : caesi) : outcome caesi :=
  s <- sget a ;;
  match s with
  | SPos => r <- c_squareRoot cfg fuel n (cmag a) ;; Ok (mk_caesi (Some SPos) r)
  | _ => cs_from_int n int32 0
  end.
(** l.993-999 power2 *)
Definition cs_power2 (cfg : config) (n : Z) (power : Z) : outcome caesi :=
  b <- c_power2 cfg n power ;; cs_fix_zero n (mk_caesi (Some SPos) b).
(** l.1007-1017 integralCast<Integral> *)
Definition cs_integralCast (t : ity) (a : caesi) : outcome Z :=
  s <- sget a ;;
  match s with
  | SZero => Ok 0
  | SNeg =>
      v <- c_integralCast t (cmag a) ;;
      if isigned t then p <- imul_m1 t v ;; Ok (icast t p) else Ok v
  | SPos => c_integralCast t (cmag a)
  end.
(** l.1047 unsignedCast *)
Definition cs_unsignedCast (a : caesi) : outcome cells := copy (cmag a).

(** ** Operators with a built-in operand, comparisons across precisions and the forwarding methods *)

(** l.178-180 operator=(Integral): [*this = Aesi(value)] *)
Definition cs_assign_int (n : Z) (t : ity) (_this : caesi) (value : Z) : outcome caesi := cs_from_int n t value.
(** l.1220 *)
Definition cs_int_add cfg n t (k : Z) (v : caesi) : outcome caesi := x <- cs_from_int n t k ;; cs_add cfg n x v.
(** l.1229 *)
Definition cs_int_sub cfg n t (k : Z) (v : caesi) : outcome caesi := x <- cs_from_int n t k ;; cs_sub cfg n x v.
(** l.1238 *)
Definition cs_int_mul (cfg : config) n t (k : Z) (v : caesi) : outcome caesi := x <- cs_from_int n t k ;; cs_mul n x v.
(** l.1247 *)
Definition cs_int_div cfg n t (k : Z) (v : caesi) : outcome caesi := x <- cs_from_int n t k ;; cs_div cfg n x v.
(** l.1256 *)
Definition cs_int_mod cfg n t (k : Z) (v : caesi) : outcome caesi := x <- cs_from_int n t k ;; cs_mod cfg n x v.
(** l.100-113, 255 *)
Definition cs_add_int cfg n t (a : caesi) (k : Z) : outcome caesi := x <- cs_from_int n t k ;; cs_add cfg n a x.
(** l.100-113, 325 *)
Definition cs_sub_int cfg n t (a : caesi) (k : Z) : outcome caesi := x <- cs_from_int n t k ;; cs_sub cfg n a x.
(** l.685-687 compareTo(const Aesi<otherBitness>&) *)
Definition cs_compareTo_x (cfg : config) (n m : Z) (a b : caesi) : outcome comparison_t :=
  if n =? m then cs_compareTo cfg n a b
  else a' <- cs_precisionCast cfg n m a ;; cs_compareTo cfg m a' b.
(** l.619-625 operator== *)
Definition cs_eq_x (cfg : config) (n m : Z) (a b : caesi) : outcome bool :=
  c <- cs_compareTo_x cfg n m a b ;; Ok (cmp_eqb c CEqual).
(** l.619-627, rewritten from == by C++20 *)
Definition cs_ne (cfg : config) (n m : Z) (a b : caesi) : outcome bool := e <- cs_eq_x cfg n m a b ;; Ok (negb e).
(** l.754-766, 775-787 operator<=> *)
Definition cs_spaceship (cfg : config) (n m : Z) (a b : caesi) : outcome ordering_t :=
  c <- cs_compareTo_x cfg n m a b ;; Ok (to_ordering c).
(** l.775-787 *)
Definition cs_spaceship_int (n : Z) (a : caesi) (k : Z) : outcome ordering_t :=
  c <- cs_compareTo_int n a k ;; Ok (to_ordering c).
(** l.754-766 *)
Definition cs_lt_x cfg n m a b := o <- cs_spaceship cfg n m a b ;; Ok (match o with OLess => true | _ => false end).
(** l.754-766 *)
Definition cs_gt cfg n m a b := o <- cs_spaceship cfg n m a b ;; Ok (match o with OGreater => true | _ => false end).
(** l.754-766 *)
Definition cs_le cfg n m a b := o <- cs_spaceship cfg n m a b ;; Ok (match o with OGreater => false | _ => true end).
(** l.754-766 *)
Definition cs_ge cfg n m a b := o <- cs_spaceship cfg n m a b ;; Ok (match o with OLess => false | _ => true end).
(** l.799 *)
Definition cs_setBit cfg n (a : caesi) i v := b <- c_setBit cfg n (cmag a) i v ;; Ok (cwith_mag a b).
(** l.808 *)
Definition cs_getBit cfg n (a : caesi) i := c_getBit cfg n (cmag a) i.
(** l.816 *)
Definition cs_setByte cfg n (a : caesi) i v := b <- c_setByte cfg n (cmag a) i v ;; Ok (cwith_mag a b).
(** l.825 *)
Definition cs_getByte cfg n (a : caesi) i := c_getByte cfg n (cmag a) i.
(** l.833 *)
Definition cs_setBlock cfg n (a : caesi) i v := b <- c_setBlock cfg n (cmag a) i v ;; Ok (cwith_mag a b).
(** l.842 *)
Definition cs_getBlock cfg n (a : caesi) i := c_getBlock cfg n (cmag a) i.
(** l.849 *)
Definition cs_byteCount n (a : caesi) := c_byteCount n (cmag a).
(** l.870 *)
Definition cs_isEven (a : caesi) := c_isEven (cmag a).
(** l.898 *)
Definition cs_filledBlocksNumber n (a : caesi) := c_filledBlocksNumber n (cmag a).
