(** * MixAtomicModel: [tryAtomicSet] and [tryAtomicExchange] calls of several threads on one object at the same time.
    The single steps are those of AtomicModel and ExchModel (the const of the parameter of tryAtomicExchange removed,
    see ExchModel). *)
From Verif Require Export ExchModel.
Open Scope Z_scope.

(** A thread inside one of the two calls. *)
(** Aeu.h l.1509-1512, 1520-1523 *)
Inductive mthread := MSet (th : athread) | MExch (th : xthread).
(** the argument object *)
(** Aeu.h l.1509, 1520: value *)
Definition m_val (th : mthread) : list Z := match th with MSet a => at_val a | MExch x => x_val x end.
(** the loop counter *)
(** Aeu.h l.1510, 1521: i *)
Definition m_pc (th : mthread) : Z := match th with MSet a => at_pc a | MExch x => x_pc x end.
(** One step of thread [tid]. *)
(** Aeu.h l.1510-1511, 1521-1522 *)
Definition mixed_step (n : Z) (st : list Z * list mthread) (tid : nat) : outcome (list Z * list mthread) :=
  let '(target, threads) := st in
  match nth_error threads tid with
  | None => Ok st
  | Some (MSet a) =>
      '(target', l) <- aeu_step n (target, [a]) 0 ;;
      match l with [a'] => Ok (target', set_nth threads tid (MSet a')) | _ => Err OutOfBounds end
  | Some (MExch x) =>
      '(target', l) <- exch_step n (target, [x]) 0 ;;
      match l with [x'] => Ok (target', set_nth threads tid (MExch x')) | _ => Err OutOfBounds end
  end.
(** [(true, v)]: the thread calls [target.tryAtomicExchange(v)]; [(false, v)]: [target.tryAtomicSet(v)] *)
(** Aeu.h l.1509, 1520: entry of the two functions *)
Definition mixed_start (c : bool * list Z) : mthread :=
  if fst c then MExch (mk_xthread (snd c) 0 XRead) else MSet (mk_athread (snd c) 0).
(** The target and the arguments after the schedule [s]. *)
(** Aeu.h l.1509-1512, 1520-1523, called by the threads *)
Definition try_mixed (n : Z) (target : list Z) (calls : list (bool * list Z)) (s : list nat) : outcome (list Z * list (list Z)) :=
  '(r, threads) <- run_schedule (mixed_step n) s (target, map mixed_start calls) ;; Ok (r, map m_val threads).

(** The same calls on an Aesi: after the blocks, the plain store [sign = value.sign] (one step). *)
(** Aesi.h l.1137-1140, 1148-1151: the block part, value.sign, whether the sign is stored *)
Record smthread := mk_smthread { sm_blocks : mthread; sm_sign : sign_t; sm_stored : bool }.
(** Aesi.h l.1138-1139, 1149-1150 *)
Definition s_mixed_step (n : Z) (st : aesi * list smthread) (tid : nat) : outcome (aesi * list smthread) :=
  let '(target, threads) := st in
  match nth_error threads tid with
  | None => Ok st
  | Some th =>
      if m_pc (sm_blocks th) <? n then
        '(base', l) <- mixed_step n (mag target, [sm_blocks th]) 0 ;;
        match l with [b'] => Ok (with_mag target base', set_nth threads tid (mk_smthread b' (sm_sign th) (sm_stored th))) | _ => Err OutOfBounds end
      else if sm_stored th then Ok st
      else Ok (with_sign target (sm_sign th), set_nth threads tid (mk_smthread (sm_blocks th) (sm_sign th) true))
  end.
(** Aesi.h l.1137, 1148: entry of the two functions *)
Definition s_mixed_start (c : bool * aesi) : smthread := mk_smthread (mixed_start (fst c, mag (snd c))) (sgn (snd c)) false.
(** Aesi.h l.1137-1140, 1148-1151, called by the threads *)
Definition s_try_mixed (n : Z) (target : aesi) (calls : list (bool * aesi)) (s : list nat) : outcome (aesi * list aesi) :=
  '(r, threads) <- run_schedule (s_mixed_step n) s (target, map s_mixed_start calls) ;;
  Ok (r, map (fun th => mk_aesi (sm_sign th) (m_val (sm_blocks th))) threads).
