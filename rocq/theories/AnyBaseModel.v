(** * AnyBaseModel: getString<base> for [char] and every base the template accepts (Aeu.h, Aesi.h).

    The requires-clause of Aeu.h:1280 (Aesi.h:1060) restricts the base for wchar_t only: with [char] any value of type
    [byte] (0..255) compiles.  TextModel.v models the documented bases 2, 8, 10, 16, where the narrowing
    [static_cast<Char>] of l.1348 has no effect; here it is modelled. *)
From Verif Require Export TextModel.
Open Scope Z_scope.

(** l.1345-1354 the digit loop with the cast of l.1348: [static_cast<char>('0' + remainder.integralCast<byte>())];
    [char] is signed, 8 bits. *)
Definition digit_loop_any (cfg : config) (n base : Z) (bufferSize : Z) (buffer : list Z) (position : Z) (a : list Z)
  : outcome (list Z * Z) :=
  x <- forUx position bufferSize (fun position '(buffer, copy) =>
    z <- isZero n copy ;;
    if z : bool then Ok (Exit (buffer, position)) else
    d <- from_unsigned n (zeros n) base ;;
    '(quotient, remainder) <- divide cfg n copy d ;;
    r <- integralCast uint8 remainder ;;
    b <- aset buffer position (icast int8 (48 + r)) ;;
    Ok (Next (b, quotient))) (buffer, a) ;;
  match x with
  | Exit (buffer, position) => Ok (buffer, position)
  | Next (buffer, _) => Ok (buffer, Z.max position bufferSize)
  end.

(** Aeu.h:1281-1365 getString<base, hexUppercase, char>, any base (base 16 takes the snprintf branch of TextModel). *)
(** Aeu.h l.1281-1365 *)
Definition getString_any (cfg : config) (n : Z) (upper : bool) (base : Z) (a : list Z) (buffer : list Z)
    (bufferSize : Z) (showBase : bool) : outcome (list Z * Z) :=
  if base =? 16 then getString cfg n false upper (fun b _ => b) 16 a buffer bufferSize showBase else
  if bufferSize <? 2 then Ok (buffer, 0) else
  '(buffer, position) <-
    (if showBase && (bufferSize >? 3) then
       b <- set_chars buffer 0 (gs_prefix base) ;; Ok (b, len (gs_prefix base))
     else Ok (buffer, 0)) ;;
  z <- isZero n a ;;
  if z : bool then
    b <- aset buffer position 48 ;; Ok (b, position + 1)
  else
  '(b, p) <- digit_loop_any cfg n base bufferSize buffer position a ;;
  b <- reverse_digits b position (p - position) ;;
  b <- aset b p 0 ;;
  Ok (b, u64 (p + 1)).

(** Aesi.h:1061-1107 getString<notation, hexUppercase, char>, any base. *)
(** Aesi.h l.1061-1107 *)
Definition s_getString_any (cfg : config) (n : Z) (upper : bool) (notation : Z) (a : aesi) (buffer : list Z)
    (bufferSize : Z) (showBase : bool) : outcome (list Z * Z) :=
  match sgn a with
  | SNeg =>
      if bufferSize >? 0 then
        b <- aset buffer 0 45 ;;
        '(rest, k) <- getString_any cfg n upper notation (mag a) (tl b) (bufferSize - 1) showBase ;;
        Ok (firstn 1 b ++ rest, k)
      else getString_any cfg n upper notation (mag a) buffer bufferSize showBase
  | SPos => getString_any cfg n upper notation (mag a) buffer bufferSize showBase
  | SZero =>
      if showBase then
        if (notation =? 2) || (notation =? 8) || (notation =? 16) then
          if bufferSize <? 3 then Ok (buffer, 0)
          else b <- set_chars buffer 0 (gs_prefix notation ++ [48]) ;; Ok (b, 3)
        else if bufferSize <? 1 then Ok (buffer, 0)
        else b <- aset buffer 0 48 ;; Ok (b, 1)
      else b <- aset buffer 0 48 ;; Ok (b, 1)
  end.
