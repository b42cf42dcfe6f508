(** * Base: outcomes (with undefined behaviour as a distinct outcome), arrays, loops, machine words.

    This file contains no code of the repository; it is the vocabulary in which the C++ functions of
    [/repo/include/AesiMultiprecision/*.h] are written down in the [*Model.v] files. *)
From Coq Require Export ZArith List Bool Lia.
Export ListNotations.
Open Scope Z_scope.

(** Everything that can go wrong when the modelled C++ code runs. *)
Inductive fault :=
| OutOfBounds        (* array / buffer access outside the object: undefined behaviour *)
| SignedOverflow     (* signed integer overflow: undefined behaviour *)
| AssertFailed       (* assert() with NDEBUG not defined: abort *)
| CtypeRange         (* isalnum() called with a negative value other than EOF: undefined behaviour *)
| GmpDivByZero       (* a GMP division by zero: GMP raises SIGFPE *)
| ShiftRange         (* a shift by less than 0 or by the width of its operand or more: undefined behaviour *)
| Indeterminate      (* a read of memory nobody has written: undefined behaviour *)
| OutOfFuel.         (* the loop did not finish within the given number of iterations *)

Inductive outcome (A : Type) :=
| Ok  (a : A)
| Err (f : fault).
Arguments Ok {A} a.
Arguments Err {A} f.

Definition bind {A B} (x : outcome A) (k : A -> outcome B) : outcome B :=
  match x with Ok a => k a | Err f => Err f end.

Notation "x <- e ;; k" := (bind e (fun x => k))
  (at level 61, e at next level, right associativity).
Notation "' p <- e ;; k" := (bind e (fun x => match x with p => k end))
  (at level 61, p pattern, e at next level, right associativity).

(** ** Arrays: lists with checked access.  Indices are integers; a negative index stands for a wrapped
    [size_t], which is out of bounds just the same. *)
Definition len {A} (a : list A) : Z := Z.of_nat (length a).

Definition znth (a : list Z) (i : Z) : Z := if i <? 0 then 0 else nth (Z.to_nat i) a 0.

Fixpoint upd (a : list Z) (i : nat) (v : Z) : list Z :=
  match a, i with
  | [], _ => []
  | _ :: t, O => v :: t
  | x :: t, S j => x :: upd t j v
  end.

Definition in_range (a : list Z) (i : Z) : bool := (0 <=? i) && (i <? len a).

(** [a[i]] as an rvalue. *)
Definition aget (a : list Z) (i : Z) : outcome Z :=
  if in_range a i then Ok (znth a i) else Err OutOfBounds.

(** [a[i] = v]. *)
Definition aset (a : list Z) (i v : Z) : outcome (list Z) :=
  if in_range a i then Ok (upd a (Z.to_nat i) v) else Err OutOfBounds.

(** The zero-initialised array of [n] blocks ([blockLine {}]). *)
Definition zeros (n : Z) : list Z := repeat 0 (Z.to_nat n).

(** ** Loops. *)

(** [for (i = lo; i < hi; ++i) body], state [S]. *)
Fixpoint loopU {S} (cnt : nat) (i : Z) (body : Z -> S -> outcome S) (s : S) : outcome S :=
  match cnt with
  | O => Ok s
  | Datatypes.S c => s' <- body i s ;; loopU c (i + 1) body s'
  end.
Definition forU {S} (lo hi : Z) (body : Z -> S -> outcome S) (s : S) : outcome S :=
  loopU (Z.to_nat (hi - lo)) lo body s.

(** [for (i = hi; i-- > lo;) body]: [i] runs from [hi - 1] down to [lo]. *)
Fixpoint loopD {S} (cnt : nat) (i : Z) (body : Z -> S -> outcome S) (s : S) : outcome S :=
  match cnt with
  | O => Ok s
  | Datatypes.S c => s' <- body (i - 1) s ;; loopD c (i - 1) body s'
  end.
Definition forD {S} (hi lo : Z) (body : Z -> S -> outcome S) (s : S) : outcome S :=
  loopD (Z.to_nat (hi - lo)) hi body s.

(** The same loops with an early exit: the body yields [Next s] to go on with state [s], or [Exit r]
    ([break] / [return]) to leave the loop with result [r]. *)
Inductive step (S R : Type) :=
| Next (s : S)
| Exit (r : R).
Arguments Next {S R} s.
Arguments Exit {S R} r.

Fixpoint loopUx {S R} (cnt : nat) (i : Z) (body : Z -> S -> outcome (step S R)) (s : S)
  : outcome (step S R) :=
  match cnt with
  | O => Ok (Next s)
  | Datatypes.S c =>
      x <- body i s ;;
      match x with
      | Next s' => loopUx c (i + 1) body s'
      | Exit r => Ok (Exit r)
      end
  end.
Definition forUx {S R} (lo hi : Z) (body : Z -> S -> outcome (step S R)) (s : S) :=
  loopUx (Z.to_nat (hi - lo)) lo body s.

Fixpoint loopDx {S R} (cnt : nat) (i : Z) (body : Z -> S -> outcome (step S R)) (s : S)
  : outcome (step S R) :=
  match cnt with
  | O => Ok (Next s)
  | Datatypes.S c =>
      x <- body (i - 1) s ;;
      match x with
      | Next s' => loopDx c (i - 1) body s'
      | Exit r => Ok (Exit r)
      end
  end.
Definition forDx {S R} (hi lo : Z) (body : Z -> S -> outcome (step S R)) (s : S) :=
  loopDx (Z.to_nat (hi - lo)) hi body s.

(** [while (...) body] without a static bound: [fuel] iterations at most. *)
Fixpoint whileF {S R} (fuel : nat) (body : S -> outcome (step S R)) (s : S) : outcome R :=
  match fuel with
  | O => Err OutOfFuel
  | Datatypes.S f =>
      x <- body s ;;
      match x with
      | Next s' => whileF f body s'
      | Exit r => Ok r
      end
  end.

(** ** Machine words. *)
Definition u8  (z : Z) : Z := z mod 2 ^ 8.
Definition u32 (z : Z) : Z := z mod 2 ^ 32.
Definition u64 (z : Z) : Z := z mod 2 ^ 64.
(** [~x] on a 32-bit block. *)
Definition not32 (x : Z) : Z := u32 (Z.lnot x).
(** [b ? 1 : 0] *)
Definition b2z (b : bool) : Z := if b then 1 else 0.

(** Build configuration and platform.
    - [cfg_unsafe]: AESI_UNSAFE defined (index checks off, Aeu.h:53, 897, 916, 931, 947, 962, 976);
    - [cfg_ndebug]: NDEBUG defined ([assert] off);
    - [cfg_ull_distinct]: [unsigned long long] is a type different from [uint64_t]
      (true on LP64 Linux, where [uint64_t] is [unsigned long]; false on Windows and macOS). *)
Record config := mk_config { cfg_unsafe : bool; cfg_ndebug : bool; cfg_ull_distinct : bool }.

(** [assert(b)] *)
Definition assert_ (cfg : config) (b : bool) : outcome unit :=
  if cfg_ndebug cfg then Ok tt else if b then Ok tt else Err AssertFailed.

(** Built-in unsigned types.  [U64] is the platform's [uint64_t]; [ULL] is a 64-bit unsigned type that is
    not [uint64_t] (e.g. [unsigned long long] on LP64 Linux). *)
Inductive uty := UBool | U8 | U16 | U32 | U64 | ULL.
Definition uwidth (t : uty) : Z :=
  match t with UBool => 1 | U8 => 8 | U16 => 16 | U32 => 32 | U64 => 64 | ULL => 64 end.
Definition is_uint64_t (t : uty) : bool := match t with U64 => true | _ => false end.
(** [static_cast<T>(z)] for a built-in unsigned type. *)
Definition ucast (t : uty) (z : Z) : Z :=
  match t with UBool => if z =? 0 then 0 else 1 | _ => z mod 2 ^ uwidth t end.
(** The type [unsigned long long] on the configured platform. *)
Definition ull_ty (cfg : config) : uty := if cfg_ull_distinct cfg then ULL else U64.

(** Built-in integral types (signed or unsigned, by width in bits). *)
Record ity := mk_ity { isigned : bool; iwidth : Z }.
Definition int8 := mk_ity true 8.    Definition int16 := mk_ity true 16.
Definition int32 := mk_ity true 32.  Definition int64 := mk_ity true 64.
Definition uint8 := mk_ity false 8.  Definition uint16 := mk_ity false 16.
Definition uint32 := mk_ity false 32. Definition uint64 := mk_ity false 64.
Definition ity_ok (t : ity) : bool :=
  (iwidth t =? 8) || (iwidth t =? 16) || (iwidth t =? 32) || (iwidth t =? 64).
Definition ity_min (t : ity) : Z := if isigned t then - 2 ^ (iwidth t - 1) else 0.
Definition ity_max (t : ity) : Z := if isigned t then 2 ^ (iwidth t - 1) - 1 else 2 ^ iwidth t - 1.
Definition in_ity (t : ity) (v : Z) : bool := (ity_min t <=? v) && (v <=? ity_max t).
(** [static_cast<T>(z)] (C++20: modular, two's complement). *)
Definition icast (t : ity) (z : Z) : Z :=
  let r := z mod 2 ^ iwidth t in
  if isigned t && (2 ^ (iwidth t - 1) <=? r) then r - 2 ^ iwidth t else r.
(** [-v] for [v] of type [t]: types narrower than [int] (32 bits) are promoted to [int] first;
    signed types of 32 bits and more overflow on their minimum. *)
Definition ineg (t : ity) (v : Z) : outcome Z :=
  if isigned t then
    if (32 <=? iwidth t) && (v =? ity_min t) then Err SignedOverflow else Ok (- v)
  else Ok (if iwidth t <? 32 then - v else (- v) mod 2 ^ iwidth t).

(** Aesi.h:40 enum class Sign; Aesi.h:70-74: an [Aesi<32*n>] object is its two members [sign] and [base]. *)
Inductive sign_t := SZero | SPos | SNeg.
Record aesi := mk_aesi { sgn : sign_t; mag : list Z }.
