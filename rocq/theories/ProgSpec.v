(** * ProgSpec: a small imperative language over numbers, and what its programs mean on the integers.

    Refers to no function of the model.  A program works on variables 0, 1, 2, ...; an environment gives each its
    integer.  [RUndef]: the program left the domain on which the library promises a result (division by zero,
    shift by N or more, ...; for signed programs also overflow).  [RTimeout]: more than [fuel] nested steps. *)
From Verif Require Export Spec.
Open Scope Z_scope.

Definition env := nat -> Z.
Definition eput (e : env) (d : nat) (v : Z) : env := fun i => if Nat.eqb i d then v else e i.
Inductive sres := RVal (e : env) | RUndef | RTimeout.

(** ** Unsigned programs *)

(** Binary operators between numbers. *)
Inductive cop := OAdd | OSub | OMul | ODiv | OMod | OXor | OAnd | OOr.
Inductive uinstr :=
| UCopy (d s : nat)                       (* d = s *)
| ULit (d : nat) (v : Z)                  (* d = v, v a built-in unsigned value *)
| UOp (o : cop) (d s : nat)               (* d o= s *)
| UBin (o : cop) (d a b : nat)            (* d = a o b *)
| UInc (d : nat) | UDec (d : nat)         (* ++d, --d *)
| UNeg (d s : nat) | UNot (d s : nat)     (* d = -s, d = ~s *)
| UShl (d : nat) (k : Z) | UShr (d : nat) (k : Z)      (* d <<= k, d >>= k *)
| USetBit (d : nat) (i : Z) (b : bool)    (* d.setBit(i, b) *)
| UAddLit (d : nat) (t : uty) (v : Z)     (* d += v, v of type t *)
| UMulLit (d : nat) (t : uty) (v : Z)     (* d *= v *)
| USwap (a b : nat)                       (* a.swap(b) *)
| UDivide (nu de q r : nat)               (* divide(nu, de, q, r) *)
| UGcd (d a b : nat) | ULcm (d a b : nat) (* d = gcd(a, b), d = lcm(a, b) *)
| USqrt (d a : nat)                       (* d = a.squareRoot() *)
| UPow2 (d : nat) (k : Z)                 (* d = power2(k) *)
| UPowm (d b p m : nat).                  (* d = powm(b, p, m) *)

Inductive ucond :=
| CEq (a b : nat) | CNe (a b : nat) | CLt (a b : nat) | CLe (a b : nat) | CGt (a b : nat) | CGe (a b : nat)
| COdd (a : nat) | CIsZero (a : nat) | CBit (a : nat) (i : Z).

Inductive stmt (I C : Type) :=
| Skip
| Do (i : I)
| Seq (s t : stmt I C)
| If (c : C) (s t : stmt I C)
| While (c : C) (s : stmt I C).
Arguments Skip {I C}. Arguments Do {I C} i. Arguments Seq {I C} s t. Arguments If {I C} c s t. Arguments While {I C} c s.

Definition cop_value (o : cop) (n x y : Z) : Z :=
  match o with
  | OAdd => (x + y) mod modulus n | OSub => (x - y) mod modulus n | OMul => (x * y) mod modulus n
  | ODiv => x / y | OMod => x mod y
  | OXor => Z.lxor x y | OAnd => Z.land x y | OOr => Z.lor x y
  end.
Definition cop_defined (o : cop) (y : Z) : bool :=
  match o with ODiv | OMod => negb (y =? 0) | _ => true end.

(** The effect of one instruction on N-bit integers (N = 32 n); [None]: outside the promised domain. *)
Definition uspec_instr (n : Z) (e : env) (i : uinstr) : option env :=
  let guard (b : bool) (d : nat) (v : Z) := if b then Some (eput e d v) else None in
  match i with
  | UCopy d s => Some (eput e d (e s))
  | ULit d v => guard ((0 <=? v) && (v <? 2 ^ 64)) d (v mod modulus n)
  | UOp o d s => guard (cop_defined o (e s)) d (cop_value o n (e d) (e s))
  | UBin o d a b => guard (cop_defined o (e b)) d (cop_value o n (e a) (e b))
  | UInc d => Some (eput e d ((e d + 1) mod modulus n))
  | UDec d => Some (eput e d ((e d - 1) mod modulus n))
  | UNeg d s => Some (eput e d ((- e s) mod modulus n))
  | UNot d s => Some (eput e d (modulus n - 1 - e s))
  | UShl d k => guard ((0 <=? k) && (k <? 32 * n)) d ((e d * 2 ^ k) mod modulus n)
  | UShr d k => guard ((0 <=? k) && (k <? 32 * n)) d (e d / 2 ^ k)
  | USetBit d i b => guard ((0 <=? i) && (i <? 32 * n)) d (if b then Z.setbit (e d) i else Z.clearbit (e d) i)
  | UAddLit d t v => guard ((0 <=? v) && (v <? 2 ^ uwidth t) && (uwidth t <=? 32)) d ((e d + v) mod modulus n)
  | UMulLit d t v => guard ((0 <=? v) && (v <? 2 ^ uwidth t) && (match t with ULL => v <=? 2 ^ 32 | _ => true end))
                           d ((e d * v) mod modulus n)
  | USwap a b => Some (eput (eput e a (e b)) b (e a))
  | UDivide nu de q r =>
      if negb (e de =? 0) && negb (Nat.eqb q nu) && negb (Nat.eqb q de) && negb (Nat.eqb r nu) && negb (Nat.eqb r de)
         && negb (Nat.eqb q r)
      then Some (eput (eput e q (e nu / e de)) r (e nu mod e de)) else None
  | UGcd d a b => Some (eput e d (Z.gcd (e a) (e b)))
  | ULcm d a b => Some (eput e d (Z.lcm (e a) (e b) mod modulus n))
  | USqrt d a => Some (eput e d (Z.sqrt (e a)))
  | UPow2 d k => guard ((0 <=? k) && (k <? 32 * n)) d (2 ^ k)
  | UPowm d b p m => guard ((1 <? e m) && ((e m - 1) * (e m - 1) <? modulus n)) d (e b ^ e p mod e m)
  end.
Definition uspec_cond (n : Z) (e : env) (c : ucond) : option bool :=
  match c with
  | CEq a b => Some (e a =? e b) | CNe a b => Some (negb (e a =? e b))
  | CLt a b => Some (e a <? e b) | CLe a b => Some (e a <=? e b)
  | CGt a b => Some (e a >? e b) | CGe a b => Some (e a >=? e b)
  | COdd a => Some (Z.odd (e a)) | CIsZero a => Some (e a =? 0)
  | CBit a i => if (0 <=? i) && (i <? 32 * n) then Some (Z.testbit (e a) i) else None
  end.

(** ** Signed programs, on Z *)
Inductive scop := SOAdd | SOSub | SOMul | SODiv | SOMod.
Inductive sinstr :=
| SCopy (d s : nat)
| SLit (d : nat) (t : ity) (v : Z)        (* d = v, v of built-in type t *)
| SOp (o : scop) (d s : nat)              (* d o= s *)
| SBin (o : scop) (d a b : nat)           (* d = a o b *)
| SInc (d : nat) | SDec (d : nat)
| SNegate (d s : nat)                     (* d = -s *)
| SInverse (d : nat)                      (* d.inverse() *)
| SMulLit (d : nat) (t : ity) (v : Z)     (* d *= v *)
| SDivLit (d : nat) (t : ity) (v : Z)     (* d /= v *)
| SSwap (a b : nat)
| SDivide (nu de q r : nat)
| SSqrt (d a : nat)
| SPow2 (d : nat) (k : Z).
Inductive scond :=
| SCEq (a b : nat) | SCNe (a b : nat) | SCLt (a b : nat) | SCLe (a b : nat) | SCGt (a b : nat) | SCGe (a b : nat)
| SCZero (a : nat) | SCPos (a : nat) | SCNeg (a : nat).

(** [%] with a negative modulus is undefined here: the library inverts the sign (see C46). *)
Definition scop_result (o : scop) (x y : Z) : option Z :=
  match o with
  | SOAdd => Some (x + y) | SOSub => Some (x - y) | SOMul => Some (x * y)
  | SODiv => if y =? 0 then None else Some (Z.quot x y)
  | SOMod => if y <=? 0 then None else Some (Z.rem x y)
  end.
(** A built-in value of type [t] whose negation does not overflow in [t]. *)
Definition lit_ok (t : ity) (v : Z) : bool :=
  ity_ok t && in_ity t v && (negb (v =? ity_min t) || (v =? 0)).
Definition sspec_instr (n : Z) (e : env) (i : sinstr) : option env :=
  (* the result must not overflow: its magnitude is below 2^N *)
  let store (d : nat) (v : Z) := if Z.abs v <? modulus n then Some (eput e d v) else None in
  let storeo (d : nat) (v : option Z) := match v with Some v => store d v | None => None end in
  match i with
  | SCopy d s => Some (eput e d (e s))
  | SLit d t v => if lit_ok t v && ((iwidth t <=? 32) || (2 <=? n)) then store d v else None
  | SOp o d s => storeo d (scop_result o (e d) (e s))
  | SBin o d a b => storeo d (scop_result o (e a) (e b))
  | SInc d => store d (e d + 1) | SDec d => store d (e d - 1)
  | SNegate d s => Some (eput e d (- e s))
  | SInverse d => Some (eput e d (- e d))
  | SMulLit d t v => if lit_ok t v && (iwidth t <=? 32) then store d (e d * v) else None
  | SDivLit d t v => if lit_ok t v && negb (v =? 0) && ((iwidth t <=? 32) || (2 <=? n)) then store d (Z.quot (e d) v) else None
  | SSwap a b => Some (eput (eput e a (e b)) b (e a))
  | SDivide nu de q r =>
      if negb (e de =? 0) && negb (Nat.eqb q nu) && negb (Nat.eqb q de) && negb (Nat.eqb r nu) && negb (Nat.eqb r de)
         && negb (Nat.eqb q r)
      then Some (eput (eput e q (Z.quot (e nu) (e de))) r (Z.rem (e nu) (e de))) else None
  | SSqrt d a => Some (eput e d (Z.sqrt (e a)))
  | SPow2 d k => if (0 <=? k) && (k <? 32 * n) then Some (eput e d (2 ^ k)) else None
  end.
Definition sspec_cond (n : Z) (e : env) (c : scond) : option bool :=
  match c with
  | SCEq a b => Some (e a =? e b) | SCNe a b => Some (negb (e a =? e b))
  | SCLt a b => Some (e a <? e b) | SCLe a b => Some (e a <=? e b)
  | SCGt a b => Some (e a >? e b) | SCGe a b => Some (e a >=? e b)
  | SCZero a => Some (e a =? 0) | SCPos a => Some (0 <? e a) | SCNeg a => Some (e a <? 0)
  end.

(** ** Statements: sequencing, branching, loops *)
Section Run.
Context {I C : Type} (instr : env -> I -> option env) (cond : env -> C -> option bool).
Fixpoint spec_run (fuel : nat) (s : stmt I C) (e : env) : sres :=
  match fuel with
  | O => RTimeout
  | S f =>
      match s with
      | Skip => RVal e
      | Do i => match instr e i with Some e' => RVal e' | None => RUndef end
      | Seq s t => match spec_run f s e with RVal e' => spec_run f t e' | r => r end
      | If c s t => match cond e c with Some b => spec_run f (if b then s else t) e | None => RUndef end
      | While c s =>
          match cond e c with
          | Some true => match spec_run f s e with RVal e' => spec_run f (While c s) e' | r => r end
          | Some false => RVal e
          | None => RUndef
          end
      end
  end.
End Run.
Definition uspec_run (n : Z) := spec_run (uspec_instr n) (uspec_cond n).
Definition sspec_run (n : Z) := spec_run (sspec_instr n) (sspec_cond n).
