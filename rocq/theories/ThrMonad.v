(** * ThrMonad: computations that touch the objects of a program one block at a time.

    This file contains no code of the repository.  A call of the library is a tree of accesses to memory: [Get x i]
    loads block [i] of the object [x] and goes on with what it found, [Put x i v] stores into it.  Run alone on a
    store, such a tree gives an [outcome]; run by one of several threads ([ThrModel.v]), every access is one step of
    that thread, and the steps of other threads may come in between. *)
From Verif Require Export AliasModel.
Open Scope Z_scope.

(** no code *)
Inductive act (A : Type) :=
| Ret (a : A)
| Stop (f : fault)                                  (* undefined behaviour, or out of fuel *)
| Get (x : loc) (i : Z) (k : Z -> act A)
| Put (x : loc) (i v : Z) (k : act A).
Arguments Ret {A} a. Arguments Stop {A} f. Arguments Get {A} x i k. Arguments Put {A} x i v k.

(** no code *)
Fixpoint abind {A B} (c : act A) (f : A -> act B) : act B :=
  match c with
  | Ret a => f a
  | Stop e => Stop e
  | Get x i k => Get x i (fun v => abind (k v) f)
  | Put x i v k => Put x i v (abind k f)
  end.
Notation "x <~ e ;; k" := (abind e (fun x => k)) (at level 61, e at next level, right associativity).
Notation "' p <~ e ;; k" := (abind e (fun x => match x with p => k end))
  (at level 61, p pattern, e at next level, right associativity).
(** no code: a computation that touches only objects nobody else can see *)
Definition pure {A} (x : outcome A) : act A := match x with Ok a => Ret a | Err e => Stop e end.
(** no code *)
Definition aput (x : loc) (i v : Z) : act unit := Put x i v (Ret tt).

(** A [const] operand: how to get at its block [i].  Either an object of the program, read where it is, or a local
    value of the running function. *)
(** no code *)
Definition view := Z -> act Z.
(** no code *)
Definition at_ (x : loc) : view := fun i => Get x i Ret.
(** no code *)
Definition local (a : list Z) : view := fun i => pure (aget a i).

(** The loops of [Base.v], over [act]. *)
(** no code *)
Fixpoint aloopU {S} (cnt : nat) (i : Z) (body : Z -> S -> act S) (s : S) : act S :=
  match cnt with
  | O => Ret s
  | Datatypes.S c => s' <~ body i s ;; aloopU c (i + 1) body s'
  end.
(** no code *)
Definition aforU {S} (lo hi : Z) (body : Z -> S -> act S) (s : S) : act S := aloopU (Z.to_nat (hi - lo)) lo body s.
(** no code *)
Fixpoint aloopD {S} (cnt : nat) (i : Z) (body : Z -> S -> act S) (s : S) : act S :=
  match cnt with
  | O => Ret s
  | Datatypes.S c => s' <~ body (i - 1) s ;; aloopD c (i - 1) body s'
  end.
(** no code *)
Definition aforD {S} (hi lo : Z) (body : Z -> S -> act S) (s : S) : act S := aloopD (Z.to_nat (hi - lo)) hi body s.
(** no code *)
Fixpoint aloopUx {S R} (cnt : nat) (i : Z) (body : Z -> S -> act (step S R)) (s : S) : act (step S R) :=
  match cnt with
  | O => Ret (Next s)
  | Datatypes.S c =>
      x <~ body i s ;;
      match x with Next s' => aloopUx c (i + 1) body s' | Exit r => Ret (Exit r) end
  end.
(** no code *)
Definition aforUx {S R} (lo hi : Z) (body : Z -> S -> act (step S R)) (s : S) := aloopUx (Z.to_nat (hi - lo)) lo body s.
(** no code *)
Fixpoint aloopDx {S R} (cnt : nat) (i : Z) (body : Z -> S -> act (step S R)) (s : S) : act (step S R) :=
  match cnt with
  | O => Ret (Next s)
  | Datatypes.S c =>
      x <~ body (i - 1) s ;;
      match x with Next s' => aloopDx c (i - 1) body s' | Exit r => Ret (Exit r) end
  end.
(** no code *)
Definition aforDx {S R} (hi lo : Z) (body : Z -> S -> act (step S R)) (s : S) := aloopDx (Z.to_nat (hi - lo)) hi body s.
(** no code *)
Fixpoint awhileF {S R} (fuel : nat) (body : S -> act (step S R)) (s : S) : act R :=
  match fuel with
  | O => Stop OutOfFuel
  | Datatypes.S f =>
      x <~ body s ;;
      match x with Next s' => awhileF f body s' | Exit r => Ret r end
  end.

(** The tree run alone, on a store. *)
(** no code *)
Fixpoint run_act {A} (c : act A) (m : mem) : outcome (A * mem) :=
  match c with
  | Ret a => Ok (a, m)
  | Stop e => Err e
  | Get x i k => v <- mget m x i ;; run_act (k v) m
  | Put x i v k => m' <- mset m x i v ;; run_act k m'
  end.
