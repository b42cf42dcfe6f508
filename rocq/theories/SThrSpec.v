(** * SThrSpec: as [ThrSpec.v], for programs over signed objects.  Refers to no function of the model. *)
From Verif Require Export ThrSpec.
Open Scope Z_scope.

(** The variables whose value a program may look at, and those it may assign. *)
Fixpoint sprog_reads (p : stmt sinstr scond) : list nat :=
  match p with
  | Skip => [] | Do i => sreads i
  | Seq s t => sprog_reads s ++ sprog_reads t
  | If c s t => screads c ++ sprog_reads s ++ sprog_reads t
  | While c s => screads c ++ sprog_reads s
  end.
Fixpoint sprog_writes (p : stmt sinstr scond) : list nat :=
  match p with
  | Skip => [] | Do i => swrites i
  | Seq s t | If _ s t => sprog_writes s ++ sprog_writes t
  | While _ s => sprog_writes s
  end.
(** No object that one program assigns is read or assigned by another one. *)
Definition sseparate (progs : list (stmt sinstr scond)) : Prop :=
  forall t u p q x, t <> u -> nth_error progs t = Some p -> nth_error progs u = Some q ->
    In x (sprog_writes p) -> ~ In x (sprog_reads q) /\ ~ In x (sprog_writes q).
(** No loops and no square root. *)
Fixpoint sstraight (p : stmt sinstr scond) : Prop :=
  match p with
  | Skip => True
  | Do (SSqrt _ _) => False
  | Do _ => True
  | Seq p q | If _ p q => sstraight p /\ sstraight q
  | While _ _ => False
  end.
(** How deeply its statements are nested. *)
Fixpoint sdepth (p : stmt sinstr scond) : nat :=
  match p with
  | Skip | Do _ => 1
  | Seq p q | If _ p q => S (Nat.max (sdepth p) (sdepth q))
  | While _ p => S (sdepth p)
  end.
(** The program contains the statement [d = s]. *)
Fixpoint scopies_in (p : stmt sinstr scond) (s d : nat) : Prop :=
  match p with
  | Skip => False
  | Do (SCopy d' s') => s' = s /\ d' = d
  | Do _ => False
  | Seq p q | If _ p q => scopies_in p s d \/ scopies_in q s d
  | While _ p => scopies_in p s d
  end.
(** Every assignment it makes is such a statement. *)
Fixpoint sonly_copies (p : stmt sinstr scond) : Prop :=
  match p with
  | Skip => True
  | Do (SCopy _ _) => True
  | Do _ => False
  | Seq p q | If _ p q => sonly_copies p /\ sonly_copies q
  | While _ p => sonly_copies p
  end.
(** A value can come from [s] to [d] by a chain of such statements, whichever thread they stand in. *)
Inductive sflows (progs : list (stmt sinstr scond)) (s : nat) : nat -> Prop :=
| sflows_here : sflows progs s s
| sflows_on p d e : sflows progs s d -> In p progs -> scopies_in p d e -> sflows progs s e.
