(** * ExchModel: concurrent [tryAtomicExchange] calls (CUDA device code) as interleavings of their memory accesses.

    Aeu.h l.1520-1523, Aesi.h l.1148-1151.  As written the function does not compile when instantiated: its parameter is
    const and atomicExch needs a pointer to a non-const block.  Modelled is its body with that const removed. *)
From Verif Require Export AtomicModel.
Open Scope Z_scope.

(** Aeu.h l.1522: [atomicExch(&value.blocks[i], atomicExch(&blocks[i], value.blocks[i]))] is three accesses:
    the read of [value.blocks[i]], the exchange with the target, the exchange with the argument (result discarded). *)
Inductive xphase := XRead | XSwap (b : Z) | XPut (old : Z).
(** A thread inside [target.tryAtomicExchange(value)]: its argument, the loop counter, the next access. *)
(** Aeu.h l.1520-1523: value, i, and the position inside l.1522 *)
Record xthread := mk_xthread { x_val : list Z; x_pc : Z; x_ph : xphase }.

(** Aeu.h l.1521-1522 *)
Definition exch_step (n : Z) (st : list Z * list xthread) (tid : nat) : outcome (list Z * list xthread) :=
  let '(target, threads) := st in
  match nth_error threads tid with
  | None => Ok st
  | Some th =>
      if x_pc th <? n then
        match x_ph th with
        | XRead => b <- aget (x_val th) (x_pc th) ;; Ok (target, set_nth threads tid (mk_xthread (x_val th) (x_pc th) (XSwap b)))
        | XSwap b => old <- aget target (x_pc th) ;; target' <- aset target (x_pc th) b ;;
                     Ok (target', set_nth threads tid (mk_xthread (x_val th) (x_pc th) (XPut old)))
        | XPut old => v' <- aset (x_val th) (x_pc th) old ;; Ok (target, set_nth threads tid (mk_xthread v' (x_pc th + 1) XRead))
        end
      else Ok st
  end.
(** Thread [t] calls [target.tryAtomicExchange(values[t])]; the arguments are different objects.  Returns the target and
    the arguments afterwards. *)
(** Aeu.h l.1520-1523, called by every thread *)
Definition try_atomic_exchange (n : Z) (target : list Z) (values : list (list Z)) (s : list nat) : outcome (list Z * list (list Z)) :=
  '(r, threads) <- run_schedule (exch_step n) s (target, map (fun v => mk_xthread v 0 XRead) values) ;; Ok (r, map x_val threads).

(** Aesi.h l.1148-1151 by one thread alone: the magnitudes are exchanged, then [sign = value.sign].
    Returns the target and the argument. *)
Definition s_try_exchange_alone (n : Z) (target value : aesi) : outcome (aesi * aesi) :=
  r <- try_atomic_exchange n (mag target) [mag value] (repeat 0%nat (Z.to_nat (3 * n))) ;;
  match r with
  | (t, [v]) => Ok (mk_aesi (sgn value) t, mk_aesi (sgn value) v)
  | _ => Err OutOfBounds
  end.
