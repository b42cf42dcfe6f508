(** * MachSigned: the signed class on top of [MachModel.v].

    The same functions as in AesiModel.v, calling the machine-level functions of the unsigned class; the only loop of
    its own (l.1031) has a [std::size_t] counter.  Line numbers refer to /repo/include/AesiMultiprecision/Aesi.h.
    [F] bounds the iterations of every counted loop, as in MachModel.v. *)
From Verif Require Export MachModel AesiModel.
Open Scope Z_scope.

(** Aeu.h l.1041 isZero *)
Definition w_isZero (F : nat) (n : Z) (a : list Z) : outcome bool := f <- w_filled F n a ;; Ok (f =? 0).

(** l.100-113 Aesi(Integral value); [t]: the type [Integral].
    [static_cast<unsigned long long>(x)] is [x mod 2^64]. *)
Definition ws_from_int (F : nat) (n : Z) (t : ity) (value : Z) : outcome aesi :=
  if value <? 0 then
    nv <- ineg t value ;;
    b <- w_from_unsigned F n (zeros n) (u64 nv) ;; Ok (mk_aesi SNeg b)
  else if value >? 0 then
    b <- w_from_unsigned F n (zeros n) (u64 value) ;; Ok (mk_aesi SPos b)
  else Ok (mk_aesi SZero (zeros n)).

(** l.178-180 operator=(Integral): [*this = Aesi(value)] *)
Definition ws_assign_int (F : nat) (n : Z) (t : ity) (_this : aesi) (value : Z) : outcome aesi := ws_from_int F n t value.

(** l.210-218 prefix ++ *)
Definition ws_inc (F : nat) (n : Z) (x : aesi) : outcome aesi :=
  match sgn x with
  | SNeg => b <- w_dec F n (mag x) ;; z <- w_isZero F n b ;; Ok (mk_aesi (if z then SZero else SNeg) b)
  | SPos => b <- w_inc F n (mag x) ;; Ok (mk_aesi SPos b)
  | SZero => b <- w_from_unsigned F n (zeros n) 1 ;; Ok (mk_aesi SPos b)
  end.

(** l.224 postfix ++: (returned old value, new value of the object) *)
Definition ws_post_inc (F : nat) (n : Z) (x : aesi) : outcome (aesi * aesi) := r <- ws_inc F n x ;; Ok (x, r).

(** l.230-238 prefix -- *)
Definition ws_dec (F : nat) (n : Z) (x : aesi) : outcome aesi :=
  match sgn x with
  | SNeg => b <- w_inc F n (mag x) ;; Ok (mk_aesi SNeg b)
  | SPos => b <- w_dec F n (mag x) ;; z <- w_isZero F n b ;; Ok (mk_aesi (if z then SZero else SPos) b)
  | SZero => b <- w_from_unsigned F n (zeros n) 1 ;; Ok (mk_aesi SNeg b)
  end.

(** l.244 postfix -- *)
Definition ws_post_dec (F : nat) (n : Z) (x : aesi) : outcome (aesi * aesi) := r <- ws_dec F n x ;; Ok (x, r).

(** l.265-315 operator+= *)
Definition ws_add_assign (F : nat) (cfg : config) (n : Z) (a b : aesi) : outcome aesi :=
  match sgn b with
  | SZero => Ok a                                                     (* l.270-271 *)
  | _ =>
    match sgn a with
    | SZero => Ok b                                                   (* l.272-273 *)
    | _ =>
      if sign_eqb (sgn a) (sgn b) then
        r <- w_add F n (mag a) (mag b) ;; Ok (with_mag a r)        (* l.274-277 *)
      else
        match sgn a with
        | SPos =>                                                     (* l.279-295 *)
          ratio <- w_compareTo cfg F n n (mag a) (mag b) ;;
          match ratio with
          | CGreater => r <- w_sub F n (mag a) (mag b) ;; Ok (with_mag a r)
          | CLess => r <- w_sub F n (mag b) (mag a) ;; Ok (mk_aesi SNeg r)
          | _ => Ok (with_sign a SZero)
          end
        | _ =>                                                        (* l.296-313 *)
          ratio <- w_compareTo cfg F n n (mag a) (mag b) ;;
          match ratio with
          | CGreater => r <- w_sub F n (mag a) (mag b) ;; Ok (with_mag a r)
          | CLess => r <- w_sub F n (mag b) (mag a) ;; Ok (mk_aesi SPos r)
          | _ => Ok (with_sign a SZero)
          end
        end
    end
  end.

(** l.255-257 *)
Definition ws_add (F : nat) (cfg : config) (n : Z) (a b : aesi) : outcome aesi := ws_add_assign F cfg n a b.

(** l.335-393 operator-= *)
Definition ws_sub_assign (F : nat) (cfg : config) (n : Z) (a b : aesi) : outcome aesi :=
  match sgn b with
  | SZero => Ok a                                                     (* l.340-341 *)
  | _ =>
    match sgn a with
    | SZero => Ok (s_inverse b)                                       (* l.342-346 *)
    | SPos =>
      match sgn b with
      | SPos =>                                                       (* l.349-366 *)
        ratio <- w_compareTo cfg F n n (mag a) (mag b) ;;
        match ratio with
        | CGreater => r <- w_sub F n (mag a) (mag b) ;; Ok (with_mag a r)
        | CLess => r <- w_sub F n (mag b) (mag a) ;; Ok (mk_aesi SNeg r)
        | _ => Ok (with_sign a SZero)
        end
      | _ => r <- w_add F n (mag a) (mag b) ;; Ok (with_mag a r)   (* l.367-370 *)
      end
    | SNeg =>
      match sgn b with
      | SNeg =>                                                       (* l.372-388 *)
        ratio <- w_compareTo cfg F n n (mag a) (mag b) ;;
        match ratio with
        | CGreater => r <- w_sub F n (mag a) (mag b) ;; Ok (with_mag a r)
        | CLess => r <- w_sub F n (mag b) (mag a) ;; Ok (mk_aesi SPos r)
        | _ => Ok (with_sign a SZero)
        end
      | _ => r <- w_add F n (mag a) (mag b) ;; Ok (with_mag a r)   (* l.389-392 *)
      end
    end
  end.

(** l.325-327 *)
Definition ws_sub (F : nat) (cfg : config) (n : Z) (a b : aesi) : outcome aesi := ws_sub_assign F cfg n a b.

(** l.426-439 operator*=(Integral): the factor is cast to [unsigned long long] before [base *= factor]. *)
Definition ws_mul_assign_int (F : nat) (cfg : config) (n : Z) (t : ity) (a : aesi) (factor : Z) : outcome aesi :=
  if factor =? 0 then Ok (with_sign a SZero)
  else
    '(a, factor) <- s_strip_sign t a factor ;;
    b <- w_mul_u F n (ull_ty cfg) (mag a) (u64 factor) ;; Ok (with_mag a b).

(** l.404-406 *)
Definition ws_mul_int (F : nat) (cfg : config) (n : Z) (t : ity) (a : aesi) (factor : Z) := ws_mul_assign_int F cfg n t a factor.

(** l.446-456 operator*= *)
Definition ws_mul_assign (F : nat) (n : Z) (a factor : aesi) : outcome aesi :=
  if s_isZero factor then Ok (with_sign a SZero)
  else
    let a := if s_isNegative factor then s_inverse a else a in
    b <- w_mul F n (mag a) (mag factor) ;; Ok (with_mag a b).

(** l.415-417 *)
Definition ws_mul (F : nat) (n : Z) (a factor : aesi) := ws_mul_assign F n a factor.

(** l.502 (= l.522, 591-592, 996-997): [if(division.base.isZero()) division.sign = Zero;] *)
Definition ws_fix_zero (F : nat) (n : Z) (a : aesi) : outcome aesi :=
  z <- w_isZero F n (mag a) ;; Ok (if z then with_sign a SZero else a).

(** l.492-506 operator/=(Integral): the divisor is converted to [Aeu] by the constructor Aeu.h:167. *)
Definition ws_div_assign_int (F : nat) (cfg : config) (n : Z) (t : ity) (a : aesi) (divisor : Z) : outcome aesi :=
  if divisor =? 0 then Ok (with_sign a SZero)
  else
    '(a, divisor) <- s_strip_sign t a divisor ;;
    d <- w_from_unsigned F n (zeros n) (u64 divisor) ;;
    q <- w_div cfg F n (mag a) d ;;
    ws_fix_zero F n (with_mag a q).

(** l.468-470 *)
Definition ws_div_int (F : nat) (cfg : config) (n : Z) (t : ity) (a : aesi) (divisor : Z) := ws_div_assign_int F cfg n t a divisor.

(** l.514-525 operator/= *)
Definition ws_div_assign (F : nat) (cfg : config) (n : Z) (a divisor : aesi) : outcome aesi :=
  if s_isZero divisor then Ok (with_sign a SZero)
  else
    let a := if s_isNegative divisor then s_inverse a else a in
    q <- w_div cfg F n (mag a) (mag divisor) ;;
    ws_fix_zero F n (with_mag a q).

(** l.480-482 *)
Definition ws_div (F : nat) (cfg : config) (n : Z) (a divisor : aesi) := ws_div_assign F cfg n a divisor.

(** l.562-575 operator%=(Integral) *)
Definition ws_mod_assign_int (F : nat) (cfg : config) (n : Z) (t : ity) (a : aesi) (modulo : Z) : outcome aesi :=
  if modulo =? 0 then Ok (with_sign a SZero)
  else
    '(a, modulo) <- s_strip_sign t a modulo ;;
    d <- w_from_unsigned F n (zeros n) (u64 modulo) ;;
    r <- w_mod cfg F n (mag a) d ;;
    Ok (with_mag a r).

(** l.537-539 *)
Definition ws_mod_int (F : nat) (cfg : config) (n : Z) (t : ity) (a : aesi) (modulo : Z) := ws_mod_assign_int F cfg n t a modulo.

(** l.584-596 operator%= *)
Definition ws_mod_assign (F : nat) (cfg : config) (n : Z) (a modulo : aesi) : outcome aesi :=
  if s_isZero modulo then Ok a
  else
    let a := if s_isNegative modulo then s_inverse a else a in
    r <- w_mod cfg F n (mag a) (mag modulo) ;;
    ws_fix_zero F n (with_mag a r).

(** l.550-552 *)
Definition ws_mod (F : nat) (cfg : config) (n : Z) (a modulo : aesi) := ws_mod_assign F cfg n a modulo.

(** l.1220-1256 operators with a built-in left operand: [Aesi<bitness>(number) op value] *)
Definition ws_int_add (F : nat) cfg n t (k : Z) (v : aesi) : outcome aesi := x <- ws_from_int F n t k ;; ws_add F cfg n x v.

(** Aesi.h l.1229 *)
Definition ws_int_sub (F : nat) cfg n t (k : Z) (v : aesi) : outcome aesi := x <- ws_from_int F n t k ;; ws_sub F cfg n x v.

(** Aesi.h l.1238 *)
Definition ws_int_mul (F : nat) (cfg : config) n t (k : Z) (v : aesi) : outcome aesi := x <- ws_from_int F n t k ;; ws_mul F n x v.

(** Aesi.h l.1247 *)
Definition ws_int_div (F : nat) cfg n t (k : Z) (v : aesi) : outcome aesi := x <- ws_from_int F n t k ;; ws_div F cfg n x v.

(** Aesi.h l.1256 *)
Definition ws_int_mod (F : nat) cfg n t (k : Z) (v : aesi) : outcome aesi := x <- ws_from_int F n t k ;; ws_mod F cfg n x v.

(** [a + k], [a += k], [a - k], [a -= k]: the operand is converted by the (non-explicit) constructor l.100,
    then l.255, 265, 325, 335. *)
Definition ws_add_int (F : nat) cfg n t (a : aesi) (k : Z) : outcome aesi := x <- ws_from_int F n t k ;; ws_add F cfg n a x.

(** Aesi.h l.100-113, 325 *)
Definition ws_sub_int (F : nat) cfg n t (a : aesi) (k : Z) : outcome aesi := x <- ws_from_int F n t k ;; ws_sub F cfg n a x.

(** l.695-724 compareTo(const Aesi&) *)
Definition ws_compareTo (F : nat) (cfg : config) (n : Z) (a b : aesi) : outcome comparison_t :=
  if s_isZero b then Ok (s_cmp_zero (sgn a))
  else if s_isNegative b then
    if sign_eqb (sgn a) SNeg then c <- w_compareTo cfg F n n (mag a) (mag b) ;; Ok (s_cmp_flip c)
    else Ok CGreater
  else if sign_eqb (sgn a) SPos then w_compareTo cfg F n n (mag a) (mag b)
  else Ok CLess.

(** l.649-678 compareTo(Integral); the magnitude is compared by Aeu.h:790 compareTo(uint64_t) *)
Definition ws_compareTo_int (F : nat) (n : Z) (a : aesi) (integral : Z) : outcome comparison_t :=
  if integral =? 0 then Ok (s_cmp_zero (sgn a))
  else if integral <? 0 then
    if sign_eqb (sgn a) SNeg then
      k <- neg_i64 integral ;;
      c <- w_compareTo_u64 F n (mag a) (u64 k) ;; Ok (s_cmp_flip c)
    else Ok CGreater
  else if sign_eqb (sgn a) SPos then w_compareTo_u64 F n (mag a) (u64 (icast int64 integral))
  else Ok CLess.

(** l.1025-1041 precisionCast<newBitness>; [m]: block count of the result, m <> n. *)
Definition ws_precisionCast (F : nat) (cfg : config) (n m : Z) (a : aesi) : outcome aesi :=
  if negb (s_isZero a) then
    result <- ws_from_int F m int32 1 ;;                                (* l.1028 *)
    let blockBoarder := if 32 * m >? 32 * n then n else m in         (* l.1030 *)
    b <- w_forU F 0 blockBoarder (fun blockIdx base =>
      x <- getBlock cfg n (mag a) blockIdx ;;
      setBlock cfg m base blockIdx x) (mag result) ;;
    let result := with_mag result b in
    Ok (if s_isNegative a then s_inverse result else result)
  else Ok (s_default m).                                             (* l.1040 *)

(** l.685-687 compareTo(const Aesi<otherBitness>&), otherBitness <> bitness *)
Definition ws_compareTo_x (F : nat) (cfg : config) (n m : Z) (a b : aesi) : outcome comparison_t :=
  if n =? m then ws_compareTo F cfg n a b
  else a' <- ws_precisionCast F cfg n m a ;; ws_compareTo F cfg m a' b.

(** l.619-625 operator== *)
Definition ws_eq (F : nat) (cfg : config) (n m : Z) (a b : aesi) : outcome bool :=
  if n =? m then c <- ws_compareTo F cfg n a b ;; Ok (cmp_eqb c CEqual)
  else a' <- ws_precisionCast F cfg n m a ;;
       c <- ws_compareTo F cfg m a' b ;; Ok (cmp_eqb c CEqual).

(** l.608-610 operator==(Integral) *)
Definition ws_eq_int (F : nat) (n : Z) (a : aesi) (k : Z) : outcome bool :=
  c <- ws_compareTo_int F n a k ;; Ok (cmp_eqb c CEqual).

(** l.754-766 and 775-787 operator<=> *)
Definition ws_spaceship (F : nat) (cfg : config) (n m : Z) (a b : aesi) : outcome ordering_t :=
  c <- ws_compareTo_x F cfg n m a b ;; Ok (to_ordering c).

(** Aesi.h l.775-787 *)
Definition ws_spaceship_int (F : nat) (n : Z) (a : aesi) (k : Z) : outcome ordering_t :=
  c <- ws_compareTo_int F n a k ;; Ok (to_ordering c).

(** The relational operators C++20 rewrites to [<=>] and [==]. *)
(** Aesi.h l.754-766 *)
Definition ws_lt (F : nat) cfg n m a b := o <- ws_spaceship F cfg n m a b ;; Ok (match o with OLess => true | _ => false end).

(** Aesi.h l.754-766 *)
Definition ws_gt (F : nat) cfg n m a b := o <- ws_spaceship F cfg n m a b ;; Ok (match o with OGreater => true | _ => false end).

(** Aesi.h l.754-766 *)
Definition ws_le (F : nat) cfg n m a b := o <- ws_spaceship F cfg n m a b ;; Ok (match o with OGreater => false | _ => true end).

(** Aesi.h l.754-766 *)
Definition ws_ge (F : nat) cfg n m a b := o <- ws_spaceship F cfg n m a b ;; Ok (match o with OLess => false | _ => true end).

(** Aesi.h l.619-627, rewritten from == by C++20 *)
Definition ws_ne (F : nat) cfg n m a b := e <- ws_eq F cfg n m a b ;; Ok (negb e).

(** ** Supporting methods: l.799-898 forward to [base] *)
Definition ws_setBit (F : nat) cfg n (a : aesi) i v := b <- w_setBit cfg n (mag a) i v ;; Ok (with_mag a b).

(** Aesi.h l.808 *)
Definition ws_getBit (F : nat) cfg n (a : aesi) i := w_getBit cfg n (mag a) i.

(** Aesi.h l.816 *)
Definition ws_setByte (F : nat) cfg n (a : aesi) i v := b <- w_setByte cfg n (mag a) i v ;; Ok (with_mag a b).

(** Aesi.h l.825 *)
Definition ws_getByte (F : nat) cfg n (a : aesi) i := w_getByte cfg n (mag a) i.

(** Aesi.h l.849 *)
Definition ws_byteCount (F : nat) n (a : aesi) := w_byteCount F n (mag a).

(** Aesi.h l.856 *)
Definition ws_bitCount (F : nat) n (a : aesi) := w_bitCount F n (mag a).

(** Aesi.h l.898 *)
Definition ws_filledBlocksNumber (F : nat) n (a : aesi) := w_filled F n (mag a).

(** l.942-973 divide(number, divisor, quotient&, remainder&): returns (quotient, remainder); [q0], [r0] are
    the previous contents of the output objects, which here are objects distinct from the inputs. *)
Definition ws_divide (F : nat) (cfg : config) (n : Z) (number divisor q0 r0 : aesi) : outcome (aesi * aesi) :=
  if s_isZero number || s_isZero divisor then Ok (with_sign q0 SZero, with_sign r0 SZero)
  else
    '(q, r) <- w_divide cfg F n (mag number) (mag divisor) ;;
    let '(qs, rs) :=
      match sgn number with
      | SPos => match sgn divisor with SPos => (SPos, SPos) | _ => (SNeg, SPos) end
      | _ => match sgn divisor with SPos => (SNeg, SNeg) | _ => (SPos, SNeg) end
      end in
    qz <- w_isZero F n q ;; rz <- w_isZero F n r ;;
    Ok (mk_aesi (if qz then SZero else qs) q, mk_aesi (if rz then SZero else rs) r).

(** l.981-986 squareRoot *)
Definition ws_squareRoot (F : nat) (cfg : config) (fuel : nat) (n : Z) (a : aesi) : outcome aesi :=
  match sgn a with
  | SPos => r <- w_squareRoot cfg F fuel n (mag a) ;; Ok (mk_aesi SPos r)
  | _ => ws_from_int F n int32 0
  end.

(** l.993-999 power2 *)
Definition ws_power2 (F : nat) (cfg : config) (n : Z) (power : Z) : outcome aesi :=
  b <- w_power2 cfg n power ;; ws_fix_zero F n (mk_aesi SPos b).

(** l.1007-1017 integralCast<Integral> *)
Definition ws_integralCast (F : nat) (t : ity) (a : aesi) : outcome Z :=
  match sgn a with
  | SZero => Ok 0
  | SNeg =>
      v <- w_integralCast t (mag a) ;;
      if isigned t then p <- imul_m1 t v ;; Ok (icast t p) else Ok v
  | SPos => w_integralCast t (mag a)
  end.
