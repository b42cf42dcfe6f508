(** * TraceSpec: the operations whose accesses to memory should not depend on the numbers, and how many accesses there may be.

    Refers to no function of the model.  Programs: [ProgSpec.v]. *)
From Verif Require Export ProgSpec.
Open Scope Z_scope.

(** Assignment, sums, differences, negation, bit by bit operations, shifts and bits at given places, sums with and multiples
    by a built-in number (not multiples by a [uint64_t]), swap, powers of two. *)
Definition steady (i : uinstr) : Prop :=
  match i with
  | UCopy _ _ | ULit _ _ | UNeg _ _ | UNot _ _ | UShl _ _ | UShr _ _ | USetBit _ _ _ | UAddLit _ _ _ | USwap _ _ | UPow2 _ _ => True
  | UOp o _ _ | UBin o _ _ _ => match o with OAdd | OSub | OXor | OAnd | OOr => True | OMul | ODiv | OMod => False end
  | UMulLit _ t _ => t <> U64
  | UInc _ | UDec _ | UDivide _ _ _ _ | UGcd _ _ _ | ULcm _ _ _ | USqrt _ _ | UPowm _ _ _ _ => False
  end.
(** Such operations one after the other. *)
Fixpoint steady_prog (p : stmt uinstr ucond) : Prop :=
  match p with
  | Skip => True
  | Do i => steady i
  | Seq s t => steady_prog s /\ steady_prog t
  | If _ _ _ | While _ _ => False
  end.

(** ** How many *)
(** At most so many loads and stores of blocks of the objects it is called with does an operation on [n] blocks make. *)
Definition most_accesses (n : Z) (i : uinstr) : Z :=
  match i with
  | ULit _ _ | UPow2 _ _ => n
  | UCopy _ _ | UInc _ | UDec _ | UNeg _ _ | UNot _ _ | UAddLit _ _ _ => 2 * n
  | UMulLit _ _ _ => 3 * n
  | UShl _ _ | UShr _ _ => 4 * n + 2
  | USetBit _ _ _ => 2
  | USwap _ _ => 6 * n
  | UOp o _ _ => match o with OMul => n * n + 4 * n | ODiv | OMod => 64 * (n * n) + 36 * n | _ => 3 * n end
  | UBin o _ _ _ => match o with OMul => n * n + 8 * n | ODiv | OMod => 64 * (n * n) + 36 * n | _ => 7 * n end
  | UDivide _ _ _ _ => 288 * (n * n) + 229 * n
  | UGcd _ _ _ => 64 * (n * n) + 39 * n
  | ULcm _ _ _ => 65 * (n * n) + 77 * n
  | USqrt _ _ => 2176 * (n * n) + 104 * n + 4
  | UPowm _ _ _ _ => 4096 * (n * n * n) + 128 * (n * n) + 69 * n
  end.
Definition most_tests (n : Z) (c : ucond) : Z :=
  match c with COdd _ | CBit _ _ => 1 | CIsZero _ => n | _ => 2 * n end.
(** A program without loops: on its longest way. *)
Fixpoint most_prog (n : Z) (p : stmt uinstr ucond) : Z :=
  match p with
  | Skip => 0
  | Do i => most_accesses n i
  | Seq s t => most_prog n s + most_prog n t
  | If c s t => most_tests n c + Z.max (most_prog n s) (most_prog n t)
  | While _ _ => 0
  end.
