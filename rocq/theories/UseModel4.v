(** * UseModel4: a program over the public interface of Aesi.h.  The program is not in the repository; every line is one call
    of a library function, whose model is cited. *)
From Verif Require Export AesiModel.
Open Scope Z_scope.

(** Division rounding down, on top of the truncating one:
    [q = a / b; r = a - q * b; if(!r.isZero() && r.isNegative() != b.isNegative()) { --q; r += b; }]
    [/] (Aesi.h l.480-482), [*] (l.415-417), [-] (l.325-327), [isZero], [isNegative] (l.877, 891), [--] (l.230-238),
    [+=] (l.265-315) *)
Definition floor_div (cfg : config) (n : Z) (a b : aesi) : outcome (aesi * aesi) :=
  q <- s_div cfg n a b ;; t <- s_mul n q b ;; r <- s_sub cfg n a t ;;
  if negb (s_isZero r) && negb (Bool.eqb (s_isNegative r) (s_isNegative b))
  then q' <- s_dec n q ;; r' <- s_add_assign cfg n r b ;; Ok (q', r')
  else Ok (q, r).
