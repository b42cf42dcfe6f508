(** * STraceSpec: as [TraceSpec.v], for programs over signed objects.  Refers to no function of the model. *)
From Verif Require Export ProgSpec.
Open Scope Z_scope.

(** Assignment, negation, swap, powers of two, products and quotients with the built-in number 0. *)
Definition ssteady (i : sinstr) : Prop :=
  match i with
  | SCopy _ _ | SLit _ _ _ | SNegate _ _ | SSwap _ _ | SPow2 _ _ => True
  | SMulLit _ _ v | SDivLit _ _ v => v = 0
  | SOp _ _ _ | SBin _ _ _ _ | SInc _ | SDec _ | SInverse _ | SDivide _ _ _ _ | SSqrt _ _ => False
  end.
(** Such operations one after the other. *)
Fixpoint ssteady_prog (p : stmt sinstr scond) : Prop :=
  match p with
  | Skip => True
  | Do i => ssteady i
  | Seq s t => ssteady_prog s /\ ssteady_prog t
  | If _ _ _ | While _ _ => False
  end.

(** ** How many *)
(** At most so many loads and stores of signs and of blocks of the objects it is called with does an operation on [n] blocks make. *)
Definition smost_op (n : Z) (o : scop) : Z :=
  match o with SOAdd | SOSub => 5 * n + 6 | SOMul => n * n + 4 * n + 5 | SODiv | SOMod => 64 * (n * n) + 37 * n + 6 end.
Definition smost_accesses (n : Z) (i : sinstr) : Z :=
  match i with
  | SLit _ _ _ | SPow2 _ _ => n + 1
  | SCopy _ _ | SNegate _ _ => 2 * n + 2
  | SInc _ => 3 * n + 2
  | SDec _ | SMulLit _ _ _ => 3 * n + 3
  | SInverse _ => 3
  | SSwap _ _ => 6 * n + 4
  | SOp o _ _ => smost_op n o
  | SBin o _ _ _ => smost_op n o + 4 * n + 4
  | SDivLit _ _ _ => 36 * n + 4
  | SDivide _ _ _ _ => 288 * (n * n) + 231 * n + 8
  | SSqrt _ _ => 2176 * (n * n) + 104 * n + 6
  end.
Definition smost_tests (n : Z) (c : scond) : Z :=
  match c with SCZero _ | SCPos _ | SCNeg _ => 1 | _ => 2 * n + 3 end.
(** A program without loops: on its longest way. *)
Fixpoint smost_prog (n : Z) (p : stmt sinstr scond) : Z :=
  match p with
  | Skip => 0
  | Do i => smost_accesses n i
  | Seq s t => smost_prog n s + smost_prog n t
  | If c s t => smost_tests n c + Z.max (smost_prog n s) (smost_prog n t)
  | While _ _ => 0
  end.
