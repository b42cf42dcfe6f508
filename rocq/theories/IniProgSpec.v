(** * IniProgSpec: definite assignment of programs (syntax: [ProgSpec.v]).  Refers to no modelled function. *)
From Verif Require Export IniSpec ProgSpec.
Open Scope Z_scope.

(** The variables an instruction needs, and those it assigns as a whole. *)
Definition ureads (i : uinstr) : list nat :=
  match i with
  | ULit _ _ | UPow2 _ _ => []
  | UCopy _ s | UNeg _ s | UNot _ s | USqrt _ s => [s]
  | UOp _ d s => [d; s]
  | UBin _ _ a b | UGcd _ a b | ULcm _ a b | USwap a b => [a; b]
  | UInc d | UDec d | UShl d _ | UShr d _ | USetBit d _ _ | UAddLit d _ _ | UMulLit d _ _ => [d]
  | UDivide nu de _ _ => [nu; de]
  | UPowm _ b p m => [b; p; m]
  end.
Definition uwrites (i : uinstr) : list nat :=
  match i with
  | UCopy d _ | ULit d _ | UOp _ d _ | UBin _ d _ _ | UInc d | UDec d | UNeg d _ | UNot d _ | UShl d _ | UShr d _
  | USetBit d _ _ | UAddLit d _ _ | UMulLit d _ _ | UGcd d _ _ | ULcm d _ _ | USqrt d _ | UPow2 d _ | UPowm d _ _ _ => [d]
  | USwap a b => [a; b]
  | UDivide _ _ q r => [q; r]
  end.
Definition ucreads (c : ucond) : list nat :=
  match c with
  | CEq a b | CNe a b | CLt a b | CLe a b | CGt a b | CGe a b => [a; b]
  | COdd a | CIsZero a | CBit a _ => [a]
  end.
Definition sreads (i : sinstr) : list nat :=
  match i with
  | SLit _ _ _ | SPow2 _ _ => []
  | SCopy _ s | SNegate _ s | SSqrt _ s => [s]
  | SOp _ d s => [d; s]
  | SBin _ _ a b | SSwap a b => [a; b]
  | SInc d | SDec d | SInverse d | SMulLit d _ _ | SDivLit d _ _ => [d]
  | SDivide nu de _ _ => [nu; de]
  end.
Definition swrites (i : sinstr) : list nat :=
  match i with
  | SCopy d _ | SLit d _ _ | SOp _ d _ | SBin _ d _ _ | SInc d | SDec d | SNegate d _ | SInverse d | SMulLit d _ _ | SDivLit d _ _
  | SSqrt d _ | SPow2 d _ => [d]
  | SSwap a b => [a; b]
  | SDivide _ _ q r => [q; r]
  end.
Definition screads (c : scond) : list nat :=
  match c with
  | SCEq a b | SCNe a b | SCLt a b | SCLe a b | SCGt a b | SCGe a b => [a; b]
  | SCZero a | SCPos a | SCNeg a => [a]
  end.
(** As [sreads], but the outputs of [divide] count as needed too. *)
Definition sreads_strict (i : sinstr) : list nat :=
  match i with SDivide nu de q r => [nu; de; q; r] | _ => sreads i end.

(** The outputs of [divide] are objects of their own. *)
Definition uown (i : uinstr) : Prop :=
  match i with UDivide nu de q r => q <> nu /\ q <> de /\ r <> nu /\ r <> de /\ q <> r | _ => True end.
Definition sown (i : sinstr) : Prop :=
  match i with SDivide nu de q r => q <> nu /\ q <> de /\ r <> nu /\ r <> de /\ q <> r | _ => True end.

Definition within (a b : list nat) : bool := forallb (fun x => existsb (Nat.eqb x) b) a.

(** The compiler's check: with the variables [V] assigned before [s], no instruction of [s] needs a variable that
    may be unassigned; the result lists variables assigned after [s] on every path. *)
Fixpoint assigned {I C} (rd wr : I -> list nat) (cr : C -> list nat) (V : list nat) (s : stmt I C) : option (list nat) :=
  match s with
  | Skip => Some V
  | Do i => if within (rd i) V then Some (wr i ++ V) else None
  | Seq s t => match assigned rd wr cr V s with Some W => assigned rd wr cr W t | None => None end
  | If c s t =>
      if within (cr c) V then
        match assigned rd wr cr V s, assigned rd wr cr V t with
        | Some A, Some B => Some (filter (fun x => existsb (Nat.eqb x) B) A)
        | _, _ => None
        end
      else None
  | While c s =>
      if within (cr c) V then match assigned rd wr cr V s with Some _ => Some V | None => None end else None
  end.
