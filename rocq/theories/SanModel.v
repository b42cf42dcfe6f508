(** * SanModel: the two programs of /repo/sanitize, with their constants (512 and 4096 bits, 3072) generalised. *)
From Verif Require Export AesiModel MixModel.
Open Scope Z_scope.

(** sanitize/unsigned/main.cpp l.14-34 factorize (Pollard's p-1 method).  n: blocks of [Aeu512], m: blocks of
    [Aeu<4096>], [limit]: 3072.  The range [primes] with the floating-point expression of l.19-23 is replaced by the list of
    the resulting uint64_t values [factors] (any values; [pow] and [log] are not modelled).  [None]: the exception of l.33.
    [junk]: what memory held before the temporaries of type Aeu512 / Aeu<4096> were constructed. *)
Fixpoint factorize_loop (cfg : config) (fuel : nat) (n m limit : Z) (junkn junkm : list Z) (number : list Z)
    (base power : list Z) (factors : list Z) : outcome (option (list Z)) :=
  match factors with
  | [] => Ok None                                                        (* l.33 *)
  | f :: rest =>
      power <- mul_assign_u m U64 power f ;;                             (* l.23 *)
      c <- bitCount m power ;;                                           (* l.24 *)
      if c >? limit then
        base <- powm_x cfg n m base power number ;;                      (* l.25 *)
        power <- from_unsigned m junkm 1 ;;                              (* l.26 *)
        b1 <- u_sub_int n junkn base 1 ;;                                (* l.28 *)
        candidate <- gcd cfg fuel n b1 number ;;
        o <- op_spaceship_u32 n candidate 1 ;;
        match o with
        | OGreater => Ok (Some candidate)                                (* l.29 *)
        | _ => factorize_loop cfg fuel n m limit junkn junkm number base power rest
        end
      else factorize_loop cfg fuel n m limit junkn junkm number base power rest
  end.
Definition factorize (cfg : config) (fuel : nat) (n m limit : Z) (junkn junkm : list Z) (number : list Z) (factors : list Z)
    : outcome (option (list Z)) :=
  base <- from_unsigned n junkn 2 ;;                                     (* l.15 *)
  power <- from_unsigned m junkm 1 ;;                                    (* l.16 *)
  factorize_loop cfg fuel n m limit junkn junkm number base power factors.

(** sanitize/signed/main.cpp l.14-24 extendedGcd; returns (g, x, y); [fuel] bounds the recursion depth. *)
Fixpoint extendedGcd (cfg : config) (n : Z) (fuel : nat) (a b : aesi) : outcome (aesi * aesi * aesi) :=
  match fuel with
  | O => Err OutOfFuel
  | S fuel =>
      z <- s_eq_int n b 0 ;;                                             (* l.15 *)
      if z : bool then
        x <- s_assign_int n int32 (s_default n) 1 ;; y <- s_assign_int n int32 (s_default n) 0 ;; Ok (a, x, y)
      else
        r <- s_mod cfg n a b ;;
        '(g, x1, y1) <- extendedGcd cfg n fuel b r ;;                    (* l.20 *)
        q <- s_div cfg n a b ;; p <- s_mul n q y1 ;; y <- s_sub cfg n x1 p ;;
        Ok (g, y1, y)                                                    (* l.21-23 *)
  end.
(** l.26-42 checkBezout; [false]: the message and exit(1) of l.39-40 *)
Definition checkBezout (cfg : config) (n : Z) (fuel : nat) (a b : aesi) : outcome bool :=
  absA <- (if s_isNegative a then s_neg a else Ok a) ;;
  absB <- (if s_isNegative b then s_neg b else Ok b) ;;
  '(g, x, y) <- extendedGcd cfg n fuel absA absB ;;
  x <- (if s_isNegative a then s_neg x else Ok x) ;;
  y <- (if s_isNegative b then s_neg y else Ok y) ;;
  p <- s_mul n a x ;; q <- s_mul n b y ;; s <- s_add cfg n p q ;;
  ne <- s_ne cfg n n s g ;; Ok (negb ne).

(** l.59-66: [const Aesi512 powered = Aesi512::power2(p); root = powered.squareRoot(); root * root == powered] *)
Definition checkRoot (cfg : config) (n : Z) (fuel : nat) (p : Z) : outcome bool :=
  powered <- s_power2 cfg n p ;; root <- s_squareRoot cfg fuel n powered ;;
  sq <- s_mul n root root ;; ne <- s_ne cfg n n sq powered ;; Ok (negb ne).
(** l.68-76: [Aesi512::divide(a, b, q, r); q * b + r == a] *)
Definition checkDivide (cfg : config) (n : Z) (a b : aesi) : outcome bool :=
  '(q, r) <- s_divide cfg n a b (s_default n) (s_default n) ;;
  p <- s_mul n q b ;; s <- s_add cfg n p r ;; ne <- s_ne cfg n n s a ;; Ok (negb ne).
(** l.53-57: v = -1; ++v; v == 0; --v; v == -1 *)
Definition checkAcrossZero (n : Z) : outcome bool :=
  v <- s_from_int n int32 (-1) ;; v <- s_inc n v ;; e <- s_eq_int n v 0 ;;
  v <- s_dec n v ;; e' <- s_eq_int n v (-1) ;; Ok (e && e')%bool.
(** l.79-84 primeProduct, over the slice of [unsigned int] values it visits *)
Definition primeProduct (cfg : config) (n : Z) (slice : list Z) : outcome aesi :=
  one <- s_from_int n int32 1 ;;
  fold_left (fun r p => r <- r ;; s_mul_int cfg n uint32 r p) slice (Ok one).
