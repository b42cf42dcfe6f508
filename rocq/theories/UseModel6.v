(** * UseModel6: a program over the public interface of Aeu.h.  The program is not in the repository; every line is one call
    of a library function, whose model is cited. *)
From Verif Require Export UseModel5.
Open Scope Z_scope.

(** The inverse of an odd number modulo 2^N by Newton's iteration:
    [Aeu<N> two = 2u, x = a; for(unsigned i = 0; i < steps; ++i) x *= two - a * x;]
    construction (Aeu.h l.167-176), [*] (l.426-428), [-] (l.391-393), [*=] (l.477-507) *)
Definition inverse_2N (n : Z) (junk : list Z) (steps : Z) (a : list Z) : outcome (list Z) :=
  two <- from_unsigned n junk 2 ;;
  forU 0 steps (fun _ x => t <- op_mul n a x ;; d <- op_sub n two t ;; mul_assign n x d) a.
(** Exact division by an odd number: [c * inverse_2N(a)] *)
Definition exact_div_odd (n : Z) (junk : list Z) (steps : Z) (c a : list Z) : outcome (list Z) :=
  x <- inverse_2N n junk steps a ;; op_mul n c x.
