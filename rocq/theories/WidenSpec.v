(** * WidenSpec: programs that do not overflow, and programs that only look at low bits.
    Refers to no function of the model. *)
From Verif Require Export ProgSpec.
Open Scope Z_scope.

(** Unsigned programs read on the natural numbers: no reduction; a result outside [0, 2^N) is [None].  [UNot] has no
    meaning independent of the width. *)
Definition cop_exact (o : cop) (x y : Z) : Z :=
  match o with
  | OAdd => x + y | OSub => x - y | OMul => x * y | ODiv => x / y | OMod => x mod y
  | OXor => Z.lxor x y | OAnd => Z.land x y | OOr => Z.lor x y
  end.
Definition exact_instr (n : Z) (e : env) (i : uinstr) : option env :=
  let fits (b : bool) (d : nat) (v : Z) := if b && (0 <=? v) && (v <? modulus n) then Some (eput e d v) else None in
  match i with
  | UCopy d s => Some (eput e d (e s))
  | ULit d v => fits (v <? 2 ^ 64) d v
  | UOp o d s => fits (cop_defined o (e s)) d (cop_exact o (e d) (e s))
  | UBin o d a b => fits (cop_defined o (e b)) d (cop_exact o (e a) (e b))
  | UInc d => fits true d (e d + 1)
  | UDec d => fits true d (e d - 1)
  | UNeg d s => fits true d (- e s)
  | UNot d s => None
  | UShl d k => fits ((0 <=? k) && (k <? 32 * n)) d (e d * 2 ^ k)
  | UShr d k => fits ((0 <=? k) && (k <? 32 * n)) d (e d / 2 ^ k)
  | USetBit d i b => fits ((0 <=? i) && (i <? 32 * n)) d (if b then Z.setbit (e d) i else Z.clearbit (e d) i)
  | UAddLit d t v => fits ((0 <=? v) && (v <? 2 ^ uwidth t) && (uwidth t <=? 32)) d (e d + v)
  | UMulLit d t v => fits ((0 <=? v) && (v <? 2 ^ uwidth t) && (match t with ULL => v <=? 2 ^ 32 | _ => true end)) d (e d * v)
  | USwap a b => Some (eput (eput e a (e b)) b (e a))
  | UDivide nu de q r =>
      if negb (e de =? 0) && negb (Nat.eqb q nu) && negb (Nat.eqb q de) && negb (Nat.eqb r nu) && negb (Nat.eqb r de)
         && negb (Nat.eqb q r)
      then Some (eput (eput e q (e nu / e de)) r (e nu mod e de)) else None
  | UGcd d a b => Some (eput e d (Z.gcd (e a) (e b)))
  | ULcm d a b => fits true d (Z.lcm (e a) (e b))
  | USqrt d a => Some (eput e d (Z.sqrt (e a)))
  | UPow2 d k => fits ((0 <=? k) && (k <? 32 * n)) d (2 ^ k)
  | UPowm d b p m => fits ((1 <? e m) && ((e m - 1) * (e m - 1) <? modulus n)) d (e b ^ e p mod e m)
  end.
Definition exact_cond (n : Z) (e : env) (c : ucond) : option bool := uspec_cond n e c.
Definition exact_run (n : Z) := spec_run (exact_instr n) (exact_cond n).

(** Instructions whose low N bits depend only on the low N bits of the operands. *)
Definition ring_op (o : cop) : bool := match o with ODiv | OMod => false | _ => true end.
Definition low_instr (n : Z) (i : uinstr) : Prop :=
  match i with
  | UCopy _ _ | UInc _ | UDec _ | UNeg _ _ | UNot _ _ | USwap _ _ => True
  | ULit _ v => 0 <= v < 2 ^ 64
  | UOp o _ _ | UBin o _ _ _ => ring_op o = true
  | UShl _ k => 0 <= k < 32 * n
  | USetBit _ i _ => 0 <= i < 32 * n
  | UAddLit _ t v => 0 <= v < 2 ^ uwidth t /\ uwidth t <= 32
  | UMulLit _ t v => 0 <= v < 2 ^ uwidth t /\ (t = ULL -> v <= 2 ^ 32)
  | UPow2 _ k => 0 <= k < 32 * n
  | _ => False
  end.
Definition low_cond (n : Z) (c : ucond) : Prop :=
  match c with COdd _ => True | CBit _ i => 0 <= i < 32 * n | _ => False end.
Fixpoint low_program (n : Z) (s : stmt uinstr ucond) : Prop :=
  match s with
  | Skip => True
  | Do i => low_instr n i
  | Seq s t => low_program n s /\ low_program n t
  | If c s t => low_cond n c /\ low_program n s /\ low_program n t
  | While c s => low_cond n c /\ low_program n s
  end.
