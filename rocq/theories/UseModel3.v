(** * UseModel3: a third set of programs over the public interface of Aeu.h.  The programs are not in the repository; every
    line is one call of a library function, whose model is cited. *)
From Verif Require Export UseModel2.
Open Scope Z_scope.

(** Is x a square?  [squareRoot] (Aeu.h l.1256-1272), [*] (l.426-428), [==] (l.727-729, 741-743) *)
Definition is_square (cfg : config) (fuel : nat) (n : Z) (x : list Z) : outcome bool :=
  r <- squareRoot cfg fuel n x ;; q <- op_mul n r r ;; op_eq cfg n n q x.
(** Fermat's factorisation of an odd number:
    [a = x.squareRoot(); if(a * a != x) ++a;
     for(;;) { d = a * a - x; b = d.squareRoot(); if(b * b == d) return { a - b, a + b }; ++a; }]
    [squareRoot], [*], [==] as above, [++] (l.295-303), [-] (l.391-393), [+] (l.352-354) *)
Definition fermat (cfg : config) (fuel : nat) (n : Z) (x : list Z) : outcome (list Z * list Z) :=
  a0 <- squareRoot cfg fuel n x ;;
  q0 <- op_mul n a0 a0 ;; e0 <- op_eq cfg n n q0 x ;;
  a <- (if negb e0 then op_inc n a0 else Ok a0) ;;
  whileF fuel (fun a =>
    q <- op_mul n a a ;; d <- op_sub n q x ;;
    b <- squareRoot cfg fuel n d ;;
    b2 <- op_mul n b b ;; e <- op_eq cfg n n b2 d ;;
    if e : bool then p <- op_sub n a b ;; q <- op_add n a b ;; Ok (Exit (p, q))
    else a' <- op_inc n a ;; Ok (Next a')) a.

(** The Chinese remainder for two moduli (Garner): [i] the inverse of m1 modulo m2 as in [UseModel2.v];
    [d = a2 % m2 - a1 % m2], plus m2 if negative; [a1 + m1 * ((d * i) % m2)].
    [%] (l.545-547), [<] (l.850-852, 839), [-], [+], [*] as above. *)
Definition crt (cfg : config) (fuel : nat) (n : Z) (a1 m1 a2 m2 : list Z) : outcome (list Z) :=
  i <- inverse_by_sign cfg fuel n m1 m2 ;;
  r1 <- op_mod cfg n a1 m2 ;; r2 <- op_mod cfg n a2 m2 ;;
  below <- op_lt cfg n n r2 r1 ;;
  r2' <- (if below : bool then op_add n r2 m2 else Ok r2) ;;
  d <- op_sub n r2' r1 ;;
  t <- op_mul n d i ;; t' <- op_mod cfg n t m2 ;;
  u <- op_mul n m1 t' ;; op_add n a1 u.

(** [m^d mod p*q] from the two halves, as RSA implementations do: the exponents reduced modulo p - 1 and q - 1, [powm]
    (l.1224-1239) modulo p and modulo q, put together by [crt].  [-] (l.391-393), [%] (l.545-547) *)
Definition rsa_halves (cfg : config) (fuel : nat) (n : Z) (m d p q : list Z) : outcome (list Z) :=
  one <- from_unsigned n (zeros n) 1 ;;
  p1 <- op_sub n p one ;; dp <- op_mod cfg n d p1 ;; mp <- powm cfg n m dp p ;;
  q1 <- op_sub n q one ;; dq <- op_mod cfg n d q1 ;; mq <- powm cfg n m dq q ;;
  crt cfg fuel n mp p mq q.
