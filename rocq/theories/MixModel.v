(** * MixModel: operators that mix the library's numbers with built-in integers, and the relational
    operators used when <=> is not available.

    Sources: include/AesiMultiprecision/Aeu.h l.152-176, 341-531, 580-640, 830-890, 1585-1656 and
    include/AesiMultiprecision/Aesi.h l.600-790, 1218-1256.  Every operator below first builds a temporary number from the
    built-in operand; [junk] is the memory the temporary is constructed in (the constructor Aeu.h l.167-176 assigns
    every block, so nothing may depend on it).  [k] is the value of the built-in operand, of any unsigned type of at
    most 64 bits. *)
From Verif Require Export AeuModel AesiModel.
Open Scope Z_scope.

(** ** Built-in left operand: [Aeu<bitness>(number) op value].  A signed [number] selects no constructor
    (l.166 requires an unsigned type), so these are modelled for unsigned built-ins only. *)
Definition u_int_add (n : Z) (junk : list Z) (k : Z) (v : list Z) : outcome (list Z) :=     (* Aeu.h l.1592-1593 *)
  x <- from_unsigned n junk k ;; op_add n x v.
Definition u_int_sub (n : Z) (junk : list Z) (k : Z) (v : list Z) : outcome (list Z) :=     (* Aeu.h l.1601-1602 *)
  x <- from_unsigned n junk k ;; op_sub n x v.
Definition u_int_mul (n : Z) (junk : list Z) (k : Z) (v : list Z) : outcome (list Z) :=     (* Aeu.h l.1610-1611 *)
  x <- from_unsigned n junk k ;; op_mul n x v.
Definition u_int_div (cfg : config) (n : Z) (junk : list Z) (k : Z) (v : list Z) : outcome (list Z) :=  (* Aeu.h l.1619-1620 *)
  x <- from_unsigned n junk k ;; op_div cfg n x v.
Definition u_int_mod (cfg : config) (n : Z) (junk : list Z) (k : Z) (v : list Z) : outcome (list Z) :=  (* Aeu.h l.1628-1629 *)
  x <- from_unsigned n junk k ;; op_mod cfg n x v.
Definition u_int_xor (n : Z) (junk : list Z) (k : Z) (v : list Z) : outcome (list Z) :=     (* Aeu.h l.1637-1638 *)
  x <- from_unsigned n junk k ;; op_xor n x v.
Definition u_int_and (n : Z) (junk : list Z) (k : Z) (v : list Z) : outcome (list Z) :=     (* Aeu.h l.1646-1647 *)
  x <- from_unsigned n junk k ;; op_and n x v.
Definition u_int_or (n : Z) (junk : list Z) (k : Z) (v : list Z) : outcome (list Z) :=      (* Aeu.h l.1655-1656 *)
  x <- from_unsigned n junk k ;; op_or n x v.

(** ** Built-in right operand where the class has no overload for it: the operand is converted by the
    (non-explicit) constructor l.166-176 and the operator on two numbers runs: [a - k] and [a -= k] (l.391, 401),
    [a / k], [a /= k] (l.520, 531), [a % k], [a %= k] (l.543, 553), [a ^ k] ... [a |= k] (l.580-640). *)
Definition u_sub_int (n : Z) (junk : list Z) (v : list Z) (k : Z) : outcome (list Z) :=
  x <- from_unsigned n junk k ;; op_sub n v x.
(** Aeu.h l.166-176, 520 *)
Definition u_div_int (cfg : config) (n : Z) (junk : list Z) (v : list Z) (k : Z) : outcome (list Z) :=
  x <- from_unsigned n junk k ;; op_div cfg n v x.
(** Aeu.h l.166-176, 543 *)
Definition u_mod_int (cfg : config) (n : Z) (junk : list Z) (v : list Z) (k : Z) : outcome (list Z) :=
  x <- from_unsigned n junk k ;; op_mod cfg n v x.
(** Aeu.h l.166-176, 580 *)
Definition u_xor_int (n : Z) (junk : list Z) (v : list Z) (k : Z) : outcome (list Z) :=
  x <- from_unsigned n junk k ;; op_xor n v x.
(** Aeu.h l.166-176, 603 *)
Definition u_and_int (n : Z) (junk : list Z) (v : list Z) (k : Z) : outcome (list Z) :=
  x <- from_unsigned n junk k ;; op_and n v x.
(** Aeu.h l.166-176, 626 *)
Definition u_or_int (n : Z) (junk : list Z) (v : list Z) (k : Z) : outcome (list Z) :=
  x <- from_unsigned n junk k ;; op_or n v x.
(** [a * k] for a constant [a]: the overload l.415 takes a non-const reference and is not viable, so the operand
    is converted and l.426 runs. *)
Definition u_cmul_int (n : Z) (junk : list Z) (v : list Z) (k : Z) : outcome (list Z) :=
  x <- from_unsigned n junk k ;; op_mul n v x.

(** ** The relational operators of builds without <=> (Aeu.h l.833-842: CUDA, before C++20, PRE_CPP_20).
    [operator!=] of l.838 calls a member [operator==] that does not exist (l.727-745 are friends) and does not
    compile when used; it is not modelled. *)
Definition old_lt (cfg : config) (n : Z) (a b : list Z) : outcome bool :=        (* l.839 *)
  c <- compareTo cfg n n a b ;; Ok (cmp_eqb c CLess).
Definition old_gt (cfg : config) (n : Z) (a b : list Z) : outcome bool :=        (* l.841 *)
  c <- compareTo cfg n n a b ;; Ok (cmp_eqb c CGreater).
Definition old_le (cfg : config) (n : Z) (a b : list Z) : outcome bool :=        (* l.840 *)
  g <- old_gt cfg n a b ;; Ok (negb g).
Definition old_ge (cfg : config) (n : Z) (a b : list Z) : outcome bool :=        (* l.842 *)
  l <- old_lt cfg n a b ;; Ok (negb l).

(** ** Comparisons with a built-in on the left.  C++20 rewrites [k < a] to [0 < (a <=> k)] and [k == a] to
    [a == k]; [o] is the result of [a <=> k]. *)
(** the rewriting of k < a; Aeu.h l.871 *)
Definition rev_lt (o : ordering_t) : bool := match o with OGreater => true | _ => false end.
(** the rewriting of k > a; Aeu.h l.871 *)
Definition rev_gt (o : ordering_t) : bool := match o with OLess => true | _ => false end.
(** the rewriting of k <= a; Aeu.h l.871 *)
Definition rev_le (o : ordering_t) : bool := match o with OLess => false | _ => true end.
(** the rewriting of k >= a; Aeu.h l.871 *)
Definition rev_ge (o : ordering_t) : bool := match o with OGreater => false | _ => true end.
(** unsigned (Aeu.h l.727-732, 871-884); [narrow]: the operand's type has at most 32 bits (the overloads l.727
    and l.770), otherwise it is [uint64_t] (l.730 and l.790). *)
Definition u_cmp_int (narrow : bool) (n : Z) (a : list Z) (k : Z) : outcome ordering_t :=
  if narrow then op_spaceship_u32 n a k else op_spaceship_u64 n a k.
(** Aeu.h l.727-732 *)
Definition u_eq_int (narrow : bool) (n : Z) (a : list Z) (k : Z) : outcome bool :=
  if narrow then op_eq_u32 n a k else op_eq_u64 n a k.
(** Aeu.h l.871-883 *)
Definition int_lt_u narrow (n k : Z) (a : list Z) := o <- u_cmp_int narrow n a k ;; Ok (rev_lt o).
(** Aeu.h l.871-883 *)
Definition int_gt_u narrow (n k : Z) (a : list Z) := o <- u_cmp_int narrow n a k ;; Ok (rev_gt o).
(** Aeu.h l.871-883 *)
Definition int_le_u narrow (n k : Z) (a : list Z) := o <- u_cmp_int narrow n a k ;; Ok (rev_le o).
(** Aeu.h l.871-883 *)
Definition int_ge_u narrow (n k : Z) (a : list Z) := o <- u_cmp_int narrow n a k ;; Ok (rev_ge o).
(** Aeu.h l.727-732 *)
Definition int_eq_u narrow (n k : Z) (a : list Z) := u_eq_int narrow n a k.
(** An operand of a signed type: only the [uint64_t] overloads are viable, after the conversion of the value to
    [uint64_t] (reduction modulo 2^64). *)
(** Aeu.h l.730 *)
Definition u_eq_signed (n : Z) (a : list Z) (k : Z) : outcome bool := op_eq_u64 n a (u64 k).
(** Aeu.h l.871-883, 790 *)
Definition u_cmp_signed (n : Z) (a : list Z) (k : Z) : outcome ordering_t := op_spaceship_u64 n a (u64 k).
(** Aeu.h l.871-883, 790 *)
Definition u_lt_signed (n : Z) (a : list Z) (k : Z) := o <- u_cmp_signed n a k ;; Ok (match o with OLess => true | _ => false end).
(** Aeu.h l.871-883, 790 *)
Definition u_gt_signed (n : Z) (a : list Z) (k : Z) := o <- u_cmp_signed n a k ;; Ok (match o with OGreater => true | _ => false end).
(** signed (Aesi.h l.608-610, 775-787) *)
Definition int_lt_s (n : Z) (k : Z) (a : aesi) := o <- s_spaceship_int n a k ;; Ok (rev_lt o).
(** Aesi.h l.775-787 *)
Definition int_gt_s (n : Z) (k : Z) (a : aesi) := o <- s_spaceship_int n a k ;; Ok (rev_gt o).
(** Aesi.h l.775-787 *)
Definition int_le_s (n : Z) (k : Z) (a : aesi) := o <- s_spaceship_int n a k ;; Ok (rev_le o).
(** Aesi.h l.775-787 *)
Definition int_ge_s (n : Z) (k : Z) (a : aesi) := o <- s_spaceship_int n a k ;; Ok (rev_ge o).
(** Aesi.h l.608-610 *)
Definition int_eq_s (n : Z) (k : Z) (a : aesi) := s_eq_int n a k.
