(** * UseModel5: two more programs over the public interface of Aeu.h.  The programs are not in the repository; every line is
    one call of a library function, whose model is cited. *)
From Verif Require Export UseModel3.
Open Scope Z_scope.

(** The number of ways to choose [k] of [m] things:
    [Aeu<N> c = 1u; for(unsigned i = 1; i <= k; ++i) { c *= m - k + i; c /= i; }]
    construction and conversion of [i] (Aeu.h l.167-176), [*=] with a built-in (l.438-469), [/=] (l.531) *)
Definition binomial (cfg : config) (n : Z) (junk : list Z) (m k : Z) : outcome (list Z) :=
  c <- from_unsigned n junk 1 ;;
  forU 1 (k + 1) (fun i c =>
    c <- mul_assign_u n U32 c (m - k + i) ;;
    d <- from_unsigned n (zeros n) i ;; div_assign cfg n c d) c.

(** The k-th Fibonacci number by doubling:
    [Aeu<N> a = 0u, b = 1u; for(int i = 64; i-- > 0;) { t = a * (b + b - a); b = a * a + b * b; a = t;
     if(k >> i & 1) { t = a + b; a = b; b = t; } } return a;]
    construction (l.167-176), [+] (l.352-354), [-] (l.391-393), [*] (l.426-428) *)
Definition fibonacci (n : Z) (junk junk2 : list Z) (k : Z) : outcome (list Z) :=
  a <- from_unsigned n junk 0 ;; b <- from_unsigned n junk2 1 ;;
  ab <- forD 64 0 (fun i '(a, b) =>
    s <- op_add n b b ;; s <- op_sub n s a ;; t <- op_mul n a s ;;
    p <- op_mul n a a ;; q <- op_mul n b b ;; b <- op_add n p q ;;
    if Z.testbit k i then u <- op_add n t b ;; Ok (b, u) else Ok (t, b)) (a, b) ;;
  Ok (fst ab).
