(** * AtomicModel: concurrent [tryAtomicSet] calls (CUDA device code) as interleavings of their atomic steps. *)
From Verif Require Export AesiModel AtomicSpec.
Open Scope Z_scope.

(** A thread inside [target.tryAtomicSet(value)]: its argument (an object nobody writes meanwhile) and the loop
    counter [i]. *)
(** Aeu.h l.1509-1511: value and i *)
Record athread := mk_athread { at_val : list Z; at_pc : Z }.
(** no code: list update *)
Definition set_nth {A} (l : list A) (k : nat) (x : A) : list A := firstn k l ++ x :: skipn (S k) l.

(** Aeu.h l.1509-1512: one iteration, [atomicExch(&blocks[i], value.blocks[i])], is one atomic step of the
    thread (the result of atomicExch is discarded).  A thread whose loop is over does nothing. *)
Definition aeu_step (n : Z) (st : list Z * list athread) (tid : nat) : outcome (list Z * list athread) :=
  let '(target, threads) := st in
  match nth_error threads tid with
  | None => Ok st
  | Some th =>
      if at_pc th <? n then
        b <- aget (at_val th) (at_pc th) ;;
        target' <- aset target (at_pc th) b ;;
        Ok (target', set_nth threads tid (mk_athread (at_val th) (at_pc th + 1)))
      else Ok st
  end.
(** no code: an interleaving *)
Fixpoint run_schedule {S} (step : S -> nat -> outcome S) (s : list nat) (st : S) : outcome S :=
  match s with [] => Ok st | t :: s' => st' <- step st t ;; run_schedule step s' st' end.
(** All the threads start their call; the schedule [s] decides the order of their steps.  Returns the
    target object afterwards. *)
(** Aeu.h l.1509-1512, called by every thread *)
Definition aeu_try_atomic_set (n : Z) (target : list Z) (values : list (list Z)) (s : list nat) : outcome (list Z) :=
  '(r, _) <- run_schedule (aeu_step n) s (target, map (fun v => mk_athread v 0) values) ;; Ok r.

(** Aesi.h l.1137-1140: the blocks as above, then the plain store [sign = value.sign], taken to be one
    indivisible step (a store of one aligned machine word). *)
Record sthread := mk_sthread { st_val : aesi; st_pc : Z }.
(** Aesi.h l.1137-1140 *)
Definition aesi_step (n : Z) (st : aesi * list sthread) (tid : nat) : outcome (aesi * list sthread) :=
  let '(target, threads) := st in
  match nth_error threads tid with
  | None => Ok st
  | Some th =>
      let next := set_nth threads tid (mk_sthread (st_val th) (st_pc th + 1)) in
      if st_pc th <? n then
        b <- aget (mag (st_val th)) (st_pc th) ;;
        base' <- aset (mag target) (st_pc th) b ;;
        Ok (with_mag target base', next)
      else if st_pc th =? n then Ok (with_sign target (sgn (st_val th)), next)
      else Ok st
  end.
(** Aesi.h l.1137-1140, called by every thread *)
Definition aesi_try_atomic_set (n : Z) (target : aesi) (values : list aesi) (s : list nat) : outcome aesi :=
  '(r, _) <- run_schedule (aesi_step n) s (target, map (fun v => mk_sthread v 0) values) ;; Ok r.
