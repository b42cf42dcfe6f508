(** * UseModel2: two more programs over the public interface of Aeu.h.  The programs are not in the repository; every
    line is one call of a library function, whose model is cited. *)
From Verif Require Export UseModel.
Open Scope Z_scope.

(** The inverse of a modulo m from the Bezout coefficient of [gcd] (Aeu.h l.1127-1153), reduced by [%] (l.545-547). *)
Definition inverse_by_mod (cfg : config) (fuel : nat) (n : Z) (a m : list Z) : outcome (list Z) :=
  '(_, x, _) <- gcd_ext cfg fuel n a m ;; op_mod cfg n x m.
(** The same with the sign taken into account: a coefficient with the top bit set (Aeu.h l.915-922) stands for a
    negative number, whose opposite (l.287-289) is reduced and subtracted from m (l.391-393). *)
Definition inverse_by_sign (cfg : config) (fuel : nat) (n : Z) (a m : list Z) : outcome (list Z) :=
  '(_, x, _) <- gcd_ext cfg fuel n a m ;;
  negative <- getBit cfg n x (32 * n - 1) ;;
  if negative : bool then x' <- op_neg n x ;; r <- op_mod cfg n x' m ;; op_sub n m r else op_mod cfg n x m.

(** [for(s = 0; d.isEven(); ++s) d >>= 1u;] (Aeu.h l.1034, l.700-714) *)
Definition strip_twos (n : Z) (fuel : nat) (d : list Z) : outcome (list Z * Z) :=
  whileF fuel (fun '(d, s) =>
    e <- isEven d ;;
    if e : bool then d' <- shr_assign n d 1 ;; Ok (Next (d', s + 1)) else Ok (Exit (d, s))) (d, 0).
(** One round of the Miller-Rabin test of an odd p with base a: [powm] (Aeu.h l.1224-1239), [*] (l.426-428), [%]
    (l.545-547), [==] (l.727-729, 741-743), [-] (l.391-393); true: "probably prime". *)
Definition miller_rabin (cfg : config) (fuel : nat) (n : Z) (p a : list Z) : outcome bool :=
  one <- from_unsigned n (zeros n) 1 ;;
  p1 <- op_sub n p one ;;
  '(d, s) <- strip_twos n fuel p1 ;;
  x <- powm cfg n a d p ;;
  e1 <- op_eq_u32 n x 1 ;;
  e2 <- op_eq cfg n n x p1 ;;
  if e1 || e2 then Ok true else
  r <- forUx 1 s (fun _ x =>
    square <- op_mul n x x ;; x' <- op_mod cfg n square p ;;
    e <- op_eq cfg n n x' p1 ;;
    if e : bool then Ok (Exit true) else Ok (Next x')) x ;;
  match r with Exit b => Ok b | Next _ => Ok false end.
