(** * UseModel7: a program over the public interface of Aeu.h.  The program is not in the repository; every line is one call
    of a library function, whose model is cited. *)
From Verif Require Export UseModel6.
Open Scope Z_scope.

(** The square root by Newton's iteration, from the number itself:
    [if(a.isZero()) return a; x = a; for(;;) { y = (x + a / x) >> 1; if(y >= x) return x; x = y; }]
    [isZero] (Aeu.h l.1041), [/] (l.520-522), [+] (l.352-354), [>>] (l.688), [>=] (l.850-852) *)
Definition newton_sqrt (cfg : config) (fuel : nat) (n : Z) (a : list Z) : outcome (list Z) :=
  z <- isZero n a ;;
  if z : bool then Ok a else
  whileF fuel (fun x =>
    q <- op_div cfg n a x ;; s <- op_add n x q ;; y <- op_shr n s 1 ;;
    ge <- op_ge cfg n n y x ;;
    if ge : bool then Ok (Exit x) else Ok (Next y)) a.
