(** * UseModel: the complete programs of /repo/README.md, as calls of the modelled interface, with their constants
    generalised (any width, any bound, any operands). *)
From Verif Require Export TextModel ProgModel.
Open Scope Z_scope.

(** README.md l.72-74: [Aeu<N> f = 1u; for(unsigned i = 2; i <= k; ++i) f *= i;]  ([f] is constructed in memory
    [junk]; [unsigned] is the 32-bit built-in type, so the theorems ask for k + 1 < 2^32.) *)
Definition readme_factorial (n : Z) (junk : list Z) (k : Z) : outcome (list Z) :=
  f <- from_unsigned n junk 1 ;;
  forU 2 (k + 1) (fun i f => mul_assign_u n U32 f i) f.
(** [std::showbase], [std::hex] *)
(** README.md l.76 *)
Definition os_showbase (os : ostream) : ostream :=
  mk_os (out os) (basef os) true (uppercase os) (fillc os) (width os) (adj os).
(** README.md l.76 *)
Definition os_hex (os : ostream) : ostream :=
  mk_os (out os) BHex (showbase os) (uppercase os) (fillc os) (width os) (adj os).
(** README.md l.76: [std::cout << std::showbase << std::hex << f] *)
Definition readme_main (cfg : config) (n : Z) (junk : list Z) (k : Z) (cout : ostream) : outcome ostream :=
  f <- readme_factorial n junk k ;; stream_insert cfg n (os_hex (os_showbase cout)) f.

(** README.md l.88-89: [Aesi<N> amp = v; amp.integralCast<T>()], v of type T *)
Definition readme_kernel (n : Z) (t : ity) (v : Z) : outcome Z :=
  amp <- s_from_int n t v ;; s_integralCast t amp.
(** The same with the unsigned class and an unsigned type. *)
(** Aeu.h l.167, 1475 *)
Definition through_aeu (n : Z) (junk : list Z) (t : ity) (v : Z) : outcome Z :=
  x <- from_unsigned n junk v ;; integralCast t x.

(** README.md l.108: [Aeu<M>::powm(base.precisionCast<M>(), power.precisionCast<M>(), mod)]; n, k: block counts of
    base and power, m: block count of mod and of the result. *)
Definition readme_powm (cfg : config) (n k m : Z) (base power modulo : list Z) : outcome (list Z) :=
  b <- precisionCast cfg n m base ;; p <- precisionCast cfg k m power ;; powm cfg m b p modulo.
(** README.md l.119-120: [Aeu<M>::powm(base.precisionCast<M>(), power, modulo.precisionCast<M>())] *)
Definition readme_powm2 (cfg : config) (n m : Z) (base power modulo : list Z) : outcome (list Z) :=
  b <- precisionCast cfg n m base ;; q <- precisionCast cfg n m modulo ;; powm_x cfg m n b power q.

(** Reading operands from text, running a program on them, and printing one variable: the variables 0, 1, ... are
    constructed from the strings (Aeu.h l.247-253), all others are zero. *)
Fixpoint parse_all (n : Z) (wide : bool) (alnum : Z -> bool) (texts : list (list Z)) (i : nat) (m : mem) : outcome mem :=
  match texts with
  | [] => Ok m
  | t :: ts => x <- from_string n wide alnum t ;; parse_all n wide alnum ts (S i) (mput m (Var i) x)
  end.
(** a program: Aeu.h l.247-253, the calls of [urun], Aeu.h l.1378 *)
Definition calculator (cfg : config) (n : Z) (wide : bool) (alnum : Z -> bool) (fuel : nat) (texts : list (list Z))
    (prog : stmt uinstr ucond) (result : nat) (os : ostream) : outcome ostream :=
  m <- parse_all n wide alnum texts 0 (fun _ => zeros n) ;;
  m' <- urun cfg n fuel prog m ;;
  stream_insert cfg n os (m' (Var result)).
(** a program: Aesi.h l.141 *)
Fixpoint s_parse_all (n : Z) (wide : bool) (alnum : Z -> bool) (texts : list (list Z)) (i : nat) (m : smem) : outcome smem :=
  match texts with
  | [] => Ok m
  | t :: ts => x <- s_from_string n wide alnum t ;; s_parse_all n wide alnum ts (S i) (sput m (Var i) x)
  end.
(** a program: Aesi.h l.141, the calls of [srun], Aesi.h l.1119 *)
Definition s_calculator (cfg : config) (n : Z) (wide : bool) (alnum : Z -> bool) (fuel : nat) (texts : list (list Z))
    (prog : stmt sinstr scond) (result : nat) (os : ostream) : outcome ostream :=
  m <- s_parse_all n wide alnum texts 0 (fun _ => s_default n) ;;
  m' <- srun cfg n fuel prog m ;;
  s_stream_insert cfg n os (m' (Var result)).

(** Several insertions in a row: [os << a << b << ...] *)
(** Aeu.h l.1378: the returned stream *)
Fixpoint stream_all (cfg : config) (n : Z) (os : ostream) (l : list (list Z)) : outcome ostream :=
  match l with [] => Ok os | a :: t => os' <- stream_insert cfg n os a ;; stream_all cfg n os' t end.
(** Aesi.h l.1119: the returned stream *)
Fixpoint s_stream_all (cfg : config) (n : Z) (os : ostream) (l : list aesi) : outcome ostream :=
  match l with [] => Ok os | a :: t => os' <- s_stream_insert cfg n os a ;; s_stream_all cfg n os' t end.

(** Key agreement over [powm] (Aeu.h l.1224-1239): one side raises g to x, the other raises the received number to y. *)
Definition dh_shared (cfg : config) (n : Z) (g x y p : list Z) : outcome (list Z) :=
  half <- powm cfg n g x p ;; powm cfg n half y p.
(** Reading a numeral and printing it (Aeu.h l.247-253, l.1378-1425): [os << Aeu<N>(text)] *)
Definition convert (cfg : config) (n : Z) (wide : bool) (alnum : Z -> bool) (text : list Z) (os : ostream) : outcome ostream :=
  a <- from_string n wide alnum text ;; stream_insert cfg n os a.
(** RSA over [gcd] with Bezout coefficients (Aeu.h l.1127-1153), [getBit], [+] and [powm]: the private exponent is the
    inverse of e modulo phi; a coefficient with the top bit set stands for a negative number and gets phi added. *)
Definition rsa_private (cfg : config) (fuel : nat) (n : Z) (e phi : list Z) : outcome (list Z) :=
  '(_, x, _) <- gcd_ext cfg fuel n e phi ;;
  negative <- getBit cfg n x (32 * n - 1) ;;
  if negative : bool then op_add n x phi else Ok x.
(** a program: Aeu.h l.1127, 1224 *)
Definition rsa_roundtrip (cfg : config) (fuel : nat) (n : Z) (e phi m msg : list Z) : outcome (list Z) :=
  d <- rsa_private cfg fuel n e phi ;; c <- powm cfg n msg e m ;; powm cfg n c d m.
