(** * ProgModel: running programs (syntax: [ProgSpec.v]) with the library's operations on a store of objects.

    Each instruction is one call of the public interface, written with the store operations of [AliasModel.v]
    (operands by reference, sharing allowed) or, for functions that only read their arguments and return by
    value, with the by-value models of [AeuModel.v] / [AesiModel.v].  Line numbers: Aeu.h for [u*], Aesi.h for
    [s*]. *)
From Verif Require Export AliasModel ProgSpec.
Open Scope Z_scope.

(** The functions with data-dependent loops get this many iterations; the theorems show it is enough. *)
(** no code: bound for the loops Aeu.h l.1140, 1174, 1259 *)
Definition gfuel (n : Z) : nat := Z.to_nat (64 * n + 3).

(** l.377, 401, 477, 531, 553, 590, 613, 636: the compound assignments *)
Definition aeu_assign (cfg : config) (o : cop) (n : Z) (m : mem) (a b : loc) : outcome mem :=
  match o with
  | OAdd => m_add_assign n m a b | OSub => m_sub_assign n m a b | OMul => m_mul_assign n m a b
  | ODiv => m_div_assign cfg n m a b | OMod => m_mod_assign cfg n m a b
  | OXor => m_xor_assign n m a b | OAnd => m_and_assign n m a b | OOr => m_or_assign n m a b
  end.
(** l.352, 391, 426, 580, 603, 626 [a op b]: a local copy of [a] ([Tmp 5]), [op=] on it, returned; l.520 and
    l.543 for [/] and [%]; then the assignment [d = ...] (l.158). *)
Definition aeu_binary (cfg : config) (o : cop) (n : Z) (m : mem) (d a b : loc) : outcome mem :=
  match o with
  | ODiv => q <- m_op_div cfg n m a b ;; Ok (mput m d q)
  | OMod => r <- m_op_mod cfg n m a b ;; Ok (mput m d r)
  | _ => m1 <- aeu_assign cfg o n (m_copy m (Tmp 5) a) (Tmp 5) b ;; Ok (m_copy m1 d (Tmp 5))
  end.

Definition uexec (cfg : config) (n : Z) (m : mem) (i : uinstr) : outcome mem :=
  match i with
  | UCopy d s => Ok (m_copy m (Var d) (Var s))                                          (* l.158 *)
  | ULit d v => r <- from_unsigned n (zeros n) v ;; Ok (mput m (Var d) r)               (* l.167-186, 158 *)
  | UOp o d s => aeu_assign cfg o n m (Var d) (Var s)
  | UBin o d a b => aeu_binary cfg o n m (Var d) (Var a) (Var b)
  | UInc d => m_update m (Var d) (op_inc n)                                             (* l.295 *)
  | UDec d => m_update m (Var d) (op_dec n)                                             (* l.315 *)
  | UNeg d s => r <- op_neg n (m (Var s)) ;; Ok (mput m (Var d) r)                      (* l.287, 158 *)
  | UNot d s => r <- op_not n (zeros n) (m (Var s)) ;; Ok (mput m (Var d) r)            (* l.566, 158 *)
  | UShl d k => m_update m (Var d) (fun x => shl_assign n x k)                          (* l.662 *)
  | UShr d k => m_update m (Var d) (fun x => shr_assign n x k)                          (* l.700 *)
  | USetBit d i b => m_update m (Var d) (fun x => setBit cfg n x i b)                   (* l.896 *)
  | UAddLit d t v => m_update m (Var d) (fun x => add_assign_u n t x v)                 (* l.363 *)
  | UMulLit d t v => m_update m (Var d) (fun x => mul_assign_u n t x v)                 (* l.438 *)
  | USwap a b => Ok (m_swap m (Var a) (Var b))                                          (* l.1072 *)
  | UDivide nu de q r => m_divide cfg n m (Var nu) (Var de) (Var q) (Var r)             (* l.1087 *)
  | UGcd d a b => g <- gcd cfg (gfuel n) n (m (Var a)) (m (Var b)) ;; Ok (mput m (Var d) g)       (* l.1162, 158 *)
  | ULcm d a b => g <- lcm cfg (gfuel n) n (m (Var a)) (m (Var b)) ;; Ok (mput m (Var d) g)       (* l.1189 *)
  | USqrt d a => r <- squareRoot cfg (gfuel n) n (m (Var a)) ;; Ok (mput m (Var d) r)             (* l.1256 *)
  | UPow2 d k => r <- power2 cfg n k ;; Ok (mput m (Var d) r)                                     (* l.1248 *)
  | UPowm d b p md => r <- powm cfg n (m (Var b)) (m (Var p)) (m (Var md)) ;; Ok (mput m (Var d) r)  (* l.1224 *)
  end.
(** l.741, 850, 1027, 1041, 915 *)
Definition utest (cfg : config) (n : Z) (m : mem) (c : ucond) : outcome bool :=
  match c with
  | CEq a b => op_eq cfg n n (m (Var a)) (m (Var b)) | CNe a b => op_ne cfg n n (m (Var a)) (m (Var b))
  | CLt a b => op_lt cfg n n (m (Var a)) (m (Var b)) | CLe a b => op_le cfg n n (m (Var a)) (m (Var b))
  | CGt a b => op_gt cfg n n (m (Var a)) (m (Var b)) | CGe a b => op_ge cfg n n (m (Var a)) (m (Var b))
  | COdd a => isOdd (m (Var a)) | CIsZero a => isZero n (m (Var a))
  | CBit a i => getBit cfg n (m (Var a)) i
  end.

(** l.265, 335, 446, 514, 584 *)
Definition aesi_assign (cfg : config) (o : scop) (n : Z) (m : smem) (a b : loc) : outcome smem :=
  match o with
  | SOAdd => ms_add_assign cfg n m a b | SOSub => ms_sub_assign cfg n m a b | SOMul => ms_mul_assign n m a b
  | SODiv => ms_div_assign cfg n m a b | SOMod => ms_mod_assign cfg n m a b
  end.
(** l.255, 325, 415, 480, 550: a local copy ([Tmp 5]), [op=] on it, returned; then l.186 *)
Definition aesi_binary (cfg : config) (o : scop) (n : Z) (m : smem) (d a b : loc) : outcome smem :=
  m1 <- aesi_assign cfg o n (ms_copy m (Tmp 5) a) (Tmp 5) b ;; Ok (ms_copy m1 d (Tmp 5)).

Definition sexec (cfg : config) (n : Z) (m : smem) (i : sinstr) : outcome smem :=
  match i with
  | SCopy d s => Ok (ms_copy m (Var d) (Var s))                                         (* l.186 *)
  | SLit d t v => ms_update m (Var d) (fun x => s_assign_int n t x v)                   (* l.178 *)
  | SOp o d s => aesi_assign cfg o n m (Var d) (Var s)
  | SBin o d a b => aesi_binary cfg o n m (Var d) (Var a) (Var b)
  | SInc d => ms_update m (Var d) (s_inc n)                                             (* l.210 *)
  | SDec d => ms_update m (Var d) (s_dec n)                                             (* l.230 *)
  | SNegate d s => r <- s_neg (m (Var s)) ;; Ok (sput m (Var d) r)                      (* l.204, 186 *)
  | SInverse d => Ok (ms_inverse m (Var d))                                             (* l.927 *)
  | SMulLit d t v => ms_update m (Var d) (fun x => s_mul_assign_int cfg n t x v)        (* l.426 *)
  | SDivLit d t v => ms_update m (Var d) (fun x => s_div_assign_int cfg n t x v)        (* l.492 *)
  | SSwap a b => Ok (ms_swap m (Var a) (Var b))                                         (* l.918 *)
  | SDivide nu de q r => ms_divide cfg n m (Var nu) (Var de) (Var q) (Var r)            (* l.942 *)
  | SSqrt d a => r <- s_squareRoot cfg (gfuel n) n (m (Var a)) ;; Ok (sput m (Var d) r) (* l.981, 186 *)
  | SPow2 d k => r <- s_power2 cfg n k ;; Ok (sput m (Var d) r)                         (* l.993, 186 *)
  end.
(** l.619, 754, 877, 884, 891 *)
Definition stest (cfg : config) (n : Z) (m : smem) (c : scond) : outcome bool :=
  match c with
  | SCEq a b => s_eq cfg n n (m (Var a)) (m (Var b)) | SCNe a b => s_ne cfg n n (m (Var a)) (m (Var b))
  | SCLt a b => s_lt cfg n n (m (Var a)) (m (Var b)) | SCLe a b => s_le cfg n n (m (Var a)) (m (Var b))
  | SCGt a b => s_gt cfg n n (m (Var a)) (m (Var b)) | SCGe a b => s_ge cfg n n (m (Var a)) (m (Var b))
  | SCZero a => Ok (s_isZero (m (Var a))) | SCPos a => Ok (s_isPositive (m (Var a)))
  | SCNeg a => Ok (s_isNegative (m (Var a)))
  end.

(** Statements: the C++ control structure around the calls. *)
Section Run.
Context {M I C : Type} (exec : M -> I -> outcome M) (test : M -> C -> outcome bool).
(** no code: if, while and sequencing of the calling program *)
Fixpoint run (fuel : nat) (s : stmt I C) (m : M) : outcome M :=
  match fuel with
  | O => Err OutOfFuel
  | S f =>
      match s with
      | Skip => Ok m
      | Do i => exec m i
      | Seq s t => m' <- run f s m ;; run f t m'
      | If c s t => b <- test m c ;; run f (if b then s else t) m
      | While c s =>
          b <- test m c ;;
          if b then m' <- run f s m ;; run f (While c s) m' else Ok m
      end
  end.
End Run.
(** no code: a program over Aeu *)
Definition urun (cfg : config) (n : Z) := run (uexec cfg n) (utest cfg n).
(** no code: a program over Aesi *)
Definition srun (cfg : config) (n : Z) := run (sexec cfg n) (stest cfg n).
