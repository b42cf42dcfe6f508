(** * ThrSpec: which objects a program reads and assigns, and when programs may run side by side.

    Refers to no function of the model.  Programs: [ProgSpec.v]; [ureads], [uwrites], [ucreads]: [IniProgSpec.v]. *)
From Verif Require Export ProgSpec IniProgSpec.
Open Scope Z_scope.

(** The variables whose value a program may look at, and those it may assign. *)
Fixpoint prog_reads (p : stmt uinstr ucond) : list nat :=
  match p with
  | Skip => [] | Do i => ureads i
  | Seq s t => prog_reads s ++ prog_reads t
  | If c s t => ucreads c ++ prog_reads s ++ prog_reads t
  | While c s => ucreads c ++ prog_reads s
  end.
Fixpoint prog_writes (p : stmt uinstr ucond) : list nat :=
  match p with
  | Skip => [] | Do i => uwrites i
  | Seq s t | If _ s t => prog_writes s ++ prog_writes t
  | While _ s => prog_writes s
  end.
(** No object that one program assigns is read or assigned by another one. *)
Definition separate (progs : list (stmt uinstr ucond)) : Prop :=
  forall t u p q x, t <> u -> nth_error progs t = Some p -> nth_error progs u = Some q ->
    In x (prog_writes p) -> ~ In x (prog_reads q) /\ ~ In x (prog_writes q).
(** The schedule gives every thread its turn at least [k] times. *)
Definition fair_for (threads k : nat) (schedule : list nat) : Prop :=
  forall t, (t < threads)%nat -> (k <= count_occ Nat.eq_dec schedule t)%nat.

(** ** Programs that only copy *)
(** The program contains the statement [d = s]. *)
Fixpoint copies_in (p : stmt uinstr ucond) (s d : nat) : Prop :=
  match p with
  | Skip => False
  | Do (UCopy d' s') => s' = s /\ d' = d
  | Do _ => False
  | Seq p q | If _ p q => copies_in p s d \/ copies_in q s d
  | While _ p => copies_in p s d
  end.
(** Every assignment it makes is such a statement. *)
Fixpoint only_copies (p : stmt uinstr ucond) : Prop :=
  match p with
  | Skip => True
  | Do (UCopy _ _) => True
  | Do _ => False
  | Seq p q | If _ p q => only_copies p /\ only_copies q
  | While _ p => only_copies p
  end.
(** A value can come from [s] to [d] by a chain of such statements, whichever thread they stand in. *)
Inductive flows (progs : list (stmt uinstr ucond)) (s : nat) : nat -> Prop :=
| flows_here : flows progs s s
| flows_on p d e : flows progs s d -> In p progs -> copies_in p d e -> flows progs s e.

(** No loops and no square root (whose number of rounds depends on what it finds in its operand). *)
Fixpoint straight (p : stmt uinstr ucond) : Prop :=
  match p with
  | Skip => True
  | Do (USqrt _ _) => False
  | Do _ => True
  | Seq p q | If _ p q => straight p /\ straight q
  | While _ _ => False
  end.
(** How deeply its statements are nested. *)
Fixpoint depth (p : stmt uinstr ucond) : nat :=
  match p with
  | Skip | Do _ => 1
  | Seq p q | If _ p q => S (Nat.max (depth p) (depth q))
  | While _ p => S (depth p)
  end.
