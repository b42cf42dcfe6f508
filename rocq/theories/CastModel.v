(** * CastModel: the built-in types the other models leave out - bool as the target of a cast, 128-bit integers -
    and streams that throw.  Line numbers: Aeu.h unless Aesi.h is named. *)
From Verif Require Export BinModel MixModel.
Open Scope Z_scope.

(** ** bool *)
(** l.1475-1478 integralCast<bool>: [static_cast<bool>(value)] is [value != 0]. *)
Definition integralCast_bool (a : list Z) : outcome bool :=
  b1 <- aget a 1 ;; b0 <- aget a 0 ;;
  let value := Z.lor (u64 (Z.shiftl b1 blockBitLength)) b0 in
  Ok (negb (value =? 0)).
(** Aesi.h l.1007-1017 integralCast<bool>: bool is not a signed type, so the sign only matters when zero. *)
Definition s_integralCast_bool (a : aesi) : outcome bool :=
  match sgn a with SZero => Ok false | _ => integralCast_bool (mag a) end.
(** l.167-175 Aeu(bool), Aesi.h l.100-113 Aesi(bool) *)
Definition from_bool (n : Z) (junk : list Z) (v : bool) : outcome (list Z) := from_unsigned n junk (Z.b2z v).
(** Aesi.h l.100-113 *)
Definition s_from_bool (n : Z) (v : bool) : outcome aesi :=
  if Z.b2z v <? 0 then Ok (s_default n)
  else if Z.b2z v >? 0 then b <- from_unsigned n (zeros n) (u64 (Z.b2z v)) ;; Ok (mk_aesi SPos b)
  else Ok (s_default n).

(** ** __int128 (std::is_integral_v holds for it under GNU extensions, CMake's default) *)
(** the template argument in Aeu.h l.166, 1474 *)
Definition int128 := mk_ity true 128.
(** the template argument in Aeu.h l.166, 1474 *)
Definition uint128 := mk_ity false 128.
(** l.167-175 Aeu(unsigned __int128): the value is cast to [unsigned long long] (inside [from_unsigned]). *)
Definition from_u128 (n : Z) (junk : list Z) (value : Z) : outcome (list Z) := from_unsigned n junk value.
(** l.363-369 operator+=(unsigned __int128): the addend is cast to uint64_t in every step; the carry fits any type. *)
Definition add_assign_u128 (n : Z) (a : list Z) (addendum : Z) : outcome (list Z) :=
  '(r, _) <- forU 0 n (fun i '(blocks, addendum) =>
    b <- aget blocks i ;;
    let currentSum := u64 (b + u64 addendum) in
    blocks' <- aset blocks i (u32 (currentSum mod blockBase)) ;;
    Ok (blocks', currentSum / blockBase)) (a, addendum) ;;
  Ok r.
(** l.438-467 operator*=(unsigned __int128): not uint64_t, the second branch *)
Definition mul_assign_u128 (n : Z) (a : list Z) (factor : Z) : outcome (list Z) :=
  '(r, _) <- forU 0 n (fun i '(blocks, carryOut) =>
    b <- aget blocks i ;;
    let product := u64 (u64 (u64 factor * b) + carryOut) in
    blocks' <- aset blocks i (u32 (product mod blockBase)) ;;
    Ok (blocks', product / blockBase)) (a, 0) ;;
  Ok r.
(** l.1475-1478 integralCast<unsigned __int128>, <__int128>; Aesi.h l.100-113, l.1007-1017: the functions of AeuModel.v
    and AesiModel.v at these types. *)

(** ** Streams with exceptions enabled: [exc] = os.exceptions(failbit | badbit | eofbit) *)
(** How a call ends: it returns, an exception leaves it (with the objects as they then are), or - when an exception
    leaves a noexcept function - std::terminate is called. *)
(** the declarations Aeu.h l.1437, 1456 *)
Inductive ending (A : Type) := Returns (x : A) | Throws (x : A) | Terminates.
Arguments Returns {A} x. Arguments Throws {A} x. Arguments Terminates {A}.

(** l.1437-1446; not noexcept: the exception of [is.read] leaves the function at once. *)
Definition readBinary_x (le : bool) (exc : bool) (n : Z) (is : istream) (bigEndian : bool) : outcome (ending (list Z * istream)) :=
  let body := fun i '(blocks, is) =>
    '(blocks, is') <- read_block le blocks is i ;;
    if igood is' then Ok (Next (blocks, is'))
    else if exc : bool then Ok (Exit (Throws (blocks, is'))) else Ok (Exit (Returns (blocks, is'))) in
  x <- (if bigEndian then forDx n 0 body (zeros n, is) else forUx 0 n body (zeros n, is)) ;;
  match x with Next r => Ok (Returns r) | Exit r => Ok r end.

(** l.1456-1464; noexcept (l.1456): the exception of [os.write] ends the program. *)
Definition writeBinary_x (le : bool) (exc : bool) (n : Z) (a : list Z) (os : bostream) (bigEndian : bool) : outcome (ending bostream) :=
  let body := fun i os =>
    b <- aget a i ;;
    let os' := os_write os (block_bytes le b) in
    if ogood os' then Ok (Next os')
    else if exc : bool then Ok (Exit Terminates) else Ok (Exit (Returns os')) in
  x <- (if bigEndian then forDx n 0 body os else forUx 0 n body os) ;;
  match x with Next r => Ok (Returns r) | Exit r => Ok r end.
