(** * IniProgModel: programs (syntax: [ProgSpec.v]) on objects whose memory may not have been written yet.

    Each instruction is one call of [IniModel.v] / [IniSigned.v]; an assignment from a returned object copies it.
    Operands are passed by value here; operands that are the same object are the subject of [AliasModel.v] and
    C61-C63.  Line numbers: Aeu.h for [u*], Aesi.h for [s*]. *)
From Verif Require Export IniSigned ProgModel IniProgSpec.
Open Scope Z_scope.

(** no code: the variables of the calling program *)
Definition cmem := nat -> cells.
(** no code: the variable [d] now has the memory [x] *)
Definition cput {A} (m : nat -> A) (d : nat) (x : A) : nat -> A := fun i => if Nat.eqb i d then x else m i.
(** l.158: copy assignment from a returned object *)
Definition c_store (m : cmem) (d : nat) (call : outcome cells) : outcome cmem := r <- call ;; r <- copy r ;; Ok (cput m d r).
(** no code: an operation that changes its object in place *)
Definition c_inplace (m : cmem) (d : nat) (call : outcome cells) : outcome cmem := r <- call ;; Ok (cput m d r).

(** l.377, 401, 477, 531, 553, 590, 613, 636 *)
Definition c_assign (cfg : config) (o : cop) (n : Z) (a b : cells) : outcome cells :=
  match o with
  | OAdd => c_add_assign n a b | OSub => c_sub_assign n a b | OMul => c_mul_assign n a b
  | ODiv => c_div_assign cfg n a b | OMod => c_mod_assign cfg n a b
  | OXor => c_xor_assign n a b | OAnd => c_and_assign n a b | OOr => c_or_assign n a b
  end.
(** l.352, 391, 426, 520, 543, 580, 603, 626 *)
Definition c_binary (cfg : config) (o : cop) (n : Z) (a b : cells) : outcome cells :=
  match o with
  | OAdd => c_op_add n a b | OSub => c_op_sub n a b | OMul => c_op_mul n a b
  | ODiv => c_op_div cfg n a b | OMod => c_op_mod cfg n a b
  | OXor => c_op_xor n a b | OAnd => c_op_and n a b | OOr => c_op_or n a b
  end.
(** one call of the public interface of Aeu.h, at the lines given with each case *)
Definition cexec (cfg : config) (n : Z) (m : cmem) (i : uinstr) : outcome cmem :=
  match i with
  | UCopy d s => c_store m d (Ok (m s))                                     (* l.158 *)
  | ULit d v => c_store m d (c_from_unsigned n v)                           (* l.167-186 *)
  | UOp o d s => c_inplace m d (c_assign cfg o n (m d) (m s))
  | UBin o d a b => c_store m d (c_binary cfg o n (m a) (m b))
  | UInc d => c_inplace m d (c_op_inc n (m d))                              (* l.295 *)
  | UDec d => c_inplace m d (c_op_dec n (m d))                              (* l.315 *)
  | UNeg d s => c_store m d (c_op_neg n (m s))                              (* l.287 *)
  | UNot d s => c_store m d (c_op_not n (m s))                              (* l.566 *)
  | UShl d k => c_inplace m d (c_shl_assign n (m d) k)                      (* l.662 *)
  | UShr d k => c_inplace m d (c_shr_assign n (m d) k)                      (* l.700 *)
  | USetBit d i b => c_inplace m d (c_setBit cfg n (m d) i b)               (* l.896 *)
  | UAddLit d t v => c_inplace m d (c_add_assign_u n t (m d) v)             (* l.363 *)
  | UMulLit d t v => c_inplace m d (c_mul_assign_u n t (m d) v)             (* l.438 *)
  | USwap a b => '(x, y) <- c_swap (m a) (m b) ;; Ok (cput (cput m a x) b y)                                (* l.1072 *)
  | UDivide nu de q r => '(x, y) <- c_divide cfg n (m nu) (m de) (m q) (m r) ;; Ok (cput (cput m q x) r y)  (* l.1087 *)
  | UGcd d a b => c_store m d (c_gcd cfg (gfuel n) n (m a) (m b))           (* l.1162 *)
  | ULcm d a b => c_store m d (c_lcm cfg (gfuel n) n (m a) (m b))           (* l.1189 *)
  | USqrt d a => c_store m d (c_squareRoot cfg (gfuel n) n (m a))           (* l.1256 *)
  | UPow2 d k => c_store m d (c_power2 cfg n k)                             (* l.1248 *)
  | UPowm d b p md => c_store m d (c_powm cfg n (m b) (m p) (m md))         (* l.1224 *)
  end.
(** l.741, 850, 1027, 1041, 915 *)
Definition ctest (cfg : config) (n : Z) (m : cmem) (c : ucond) : outcome bool :=
  match c with
  | CEq a b => c_op_eq cfg n n (m a) (m b) | CNe a b => c_op_ne cfg n n (m a) (m b)
  | CLt a b => c_op_lt cfg n n (m a) (m b) | CLe a b => c_op_le cfg n n (m a) (m b)
  | CGt a b => c_op_gt cfg n n (m a) (m b) | CGe a b => c_op_ge cfg n n (m a) (m b)
  | COdd a => c_isOdd (m a) | CIsZero a => c_isZero n (m a)
  | CBit a i => c_getBit cfg n (m a) i
  end.
(** no code: a program over Aeu *)
Definition crun (cfg : config) (n : Z) := run (cexec cfg n) (ctest cfg n).

(** no code: the variables of a program over Aesi *)
Definition csmem := nat -> caesi.
(** Aesi.h l.186: copy assignment from a returned object *)
Definition cs_store (m : csmem) (d : nat) (call : outcome caesi) : outcome csmem := r <- call ;; r <- scopy r ;; Ok (cput m d r).
(** no code: an operation that changes its object in place *)
Definition cs_inplace (m : csmem) (d : nat) (call : outcome caesi) : outcome csmem := r <- call ;; Ok (cput m d r).
(** l.265, 335, 446, 514, 584 *)
Definition cs_assign (cfg : config) (o : scop) (n : Z) (a b : caesi) : outcome caesi :=
  match o with
  | SOAdd => cs_add_assign cfg n a b | SOSub => cs_sub_assign cfg n a b | SOMul => cs_mul_assign n a b
  | SODiv => cs_div_assign cfg n a b | SOMod => cs_mod_assign cfg n a b
  end.
(** l.255, 325, 415, 480, 550 *)
Definition cs_binary (cfg : config) (o : scop) (n : Z) (a b : caesi) : outcome caesi :=
  match o with
  | SOAdd => cs_add cfg n a b | SOSub => cs_sub cfg n a b | SOMul => cs_mul n a b
  | SODiv => cs_div cfg n a b | SOMod => cs_mod cfg n a b
  end.
(** one call of the public interface of Aesi.h, at the lines given with each case *)
Definition csexec (cfg : config) (n : Z) (m : csmem) (i : sinstr) : outcome csmem :=
  match i with
  | SCopy d s => cs_store m d (Ok (m s))                                    (* l.186 *)
  | SLit d t v => cs_store m d (cs_assign_int n t (m d) v)                  (* l.178 *)
  | SOp o d s => cs_inplace m d (cs_assign cfg o n (m d) (m s))
  | SBin o d a b => cs_store m d (cs_binary cfg o n (m a) (m b))
  | SInc d => cs_inplace m d (cs_inc n (m d))                               (* l.210 *)
  | SDec d => cs_inplace m d (cs_dec n (m d))                               (* l.230 *)
  | SNegate d s => cs_store m d (cs_neg (m s))                              (* l.204 *)
  | SInverse d => cs_inplace m d (cs_inverse (m d))                         (* l.927 *)
  | SMulLit d t v => cs_inplace m d (cs_mul_assign_int cfg n t (m d) v)     (* l.426 *)
  | SDivLit d t v => cs_inplace m d (cs_div_assign_int cfg n t (m d) v)     (* l.492 *)
  | SSwap a b => '(x, y) <- cs_swap (m a) (m b) ;; Ok (cput (cput m a x) b y)                                (* l.918 *)
  | SDivide nu de q r => '(x, y) <- cs_divide cfg n (m nu) (m de) (m q) (m r) ;; Ok (cput (cput m q x) r y)  (* l.942 *)
  | SSqrt d a => cs_store m d (cs_squareRoot cfg (gfuel n) n (m a))         (* l.981 *)
  | SPow2 d k => cs_store m d (cs_power2 cfg n k)                           (* l.993 *)
  end.
(** l.619, 754, 877, 884, 891 *)
Definition cstest (cfg : config) (n : Z) (m : csmem) (c : scond) : outcome bool :=
  match c with
  | SCEq a b => cs_eq_x cfg n n (m a) (m b) | SCNe a b => cs_ne cfg n n (m a) (m b)
  | SCLt a b => cs_lt_x cfg n n (m a) (m b) | SCLe a b => cs_le cfg n n (m a) (m b)
  | SCGt a b => cs_gt cfg n n (m a) (m b) | SCGe a b => cs_ge cfg n n (m a) (m b)
  | SCZero a => cs_isZero (m a) | SCPos a => cs_isPositive (m a) | SCNeg a => cs_isNegative (m a)
  end.
(** no code: a program over Aesi *)
Definition csrun (cfg : config) (n : Z) := run (csexec cfg n) (cstest cfg n).
