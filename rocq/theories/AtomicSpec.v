(** * AtomicSpec: schedules of threads.  Refers to no function of the model.

    A schedule is the sequence of the threads (numbered from 0) in the order in which they take their steps. *)
From Verif Require Export Spec.
Open Scope Z_scope.

(** How many steps thread [t] takes in [s]. *)
Fixpoint steps_of (t : nat) (s : list nat) : Z :=
  match s with [] => 0 | x :: s' => (if Nat.eqb x t then 1 else 0) + steps_of t s' end.
(** At position [pos] of the schedule thread [t] takes its step number [i] (counting from 0). *)
Definition takes_step (s : list nat) (i : Z) (t pos : nat) : Prop :=
  nth_error s pos = Some t /\ steps_of t (firstn pos s) = i.
(** Of all the threads below [k], [t] is the one that takes its step number [i] last. *)
Definition last_to_step (k : nat) (s : list nat) (i : Z) (t : nat) : Prop :=
  (t < k)%nat /\ exists pos, takes_step s i t pos /\ forall t' pos', (t' < k)%nat -> takes_step s i t' pos' -> (pos' <= pos)%nat.
(** Every thread below [k] takes at least [n] steps. *)
Definition all_finish (k : nat) (n : Z) (s : list nat) : Prop := forall t, (t < k)%nat -> n <= steps_of t s.
