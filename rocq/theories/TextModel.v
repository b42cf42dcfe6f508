(** * TextModel: string construction and text output of Aeu (include/AesiMultiprecision/Aeu.h) and Aesi (Aesi.h).

    Characters are integers (their codes in [char] or [wchar_t]); a character array is a list of them.
    [wide] says which of the two instantiations ([Char = char] / [Char = wchar_t]) is meant, where it matters. *)
From Verif Require Export AesiModel TextSpec.
Open Scope Z_scope.

(** ** String constructors *)

(** [std::isalnum(c)] / [std::iswalnum(c)].  [isalnum] is undefined for negative arguments other than EOF = -1
    (ISO C 7.4p1); [char] is signed on the platforms considered.  [alnum] is the locale's classification. *)
(** called at Aeu.h l.191, 193 *)
Definition is_alnum (wide : bool) (alnum : Z -> bool) (c : Z) : outcome bool :=
  if wide then Ok (alnum c)
  else if c <? -1 then Err CtypeRange
  else if c =? -1 then Ok false
  else Ok (alnum c).

(** l.188-194 skip the leading characters that are not alphanumeric *)
Definition skip_leading (wide : bool) (alnum : Z -> bool) (data : list Z) (size : Z) : outcome Z :=
  x <- forUx 0 size (fun position (_ : unit) =>
    c <- aget data position ;;
    b <- is_alnum wide alnum c ;;
    if b then Ok (Exit position) else Ok (Next tt)) tt ;;
  match x with Exit p => Ok p | Next _ => Ok size end.

(** l.199-212 the lambda computing [base]; returns (base, new position) *)
Definition detect_base (data : list Z) (size position : Z) : outcome (Z * Z) :=
  c <- aget data position ;;
  if (c =? 48) && (size >? position + 1) then
    d <- aget data (position + 1) ;;
    if (d =? 98) || (d =? 66) then Ok (2, position + 2)
    else if (d =? 111) || (d =? 79) then Ok (8, position + 2)
    else if (d =? 120) || (d =? 88) then Ok (16, position + 2)
    else Ok (10, position)
  else Ok (10, position).

(** l.215-223 the lambda computing [digit]; 99 for "not a digit" *)
Definition char_digit (ch : Z) : Z :=
  if (48 <=? ch) && (ch <=? 57) then ch - 48
  else if (97 <=? ch) && (ch <=? 102) then ch - 97 + 10
  else if (65 <=? ch) && (ch <=? 70) then ch - 65 + 10
  else 99.

(** l.183-230 Aeu(const Char* data, std::size_t size) *)
Definition from_chars (n : Z) (wide : bool) (alnum : Z -> bool) (data : list Z) (size : Z) : outcome (list Z) :=
  if size =? 0 then Ok (zeros n) else
  position <- skip_leading wide alnum data size ;;
  if position =? size then Ok (zeros n) else
  '(base, position) <- detect_base data size position ;;
  forU position size (fun i blocks =>
    c <- aget data i ;;
    let digit := char_digit c in
    if digit <? base then
      b <- mul_assign_u n U32 blocks base ;;
      add_assign_u n U32 b digit
    else Ok blocks) (zeros n).

(** l.247-253 the std::basic_string / std::basic_string_view constructors: data() and size() *)
Definition from_string (n : Z) (wide : bool) (alnum : Z -> bool) (s : list Z) : outcome (list Z) :=
  from_chars n wide alnum s (len s).
(** l.237-238 the array constructor: the array includes the terminating NUL of a literal *)
Definition from_literal (n : Z) (wide : bool) (alnum : Z -> bool) (s : list Z) : outcome (list Z) :=
  from_chars n wide alnum (s ++ [0]) (len s + 1).

(** ** getString *)

(** Writing consecutive characters through a pointer. *)
(** assignments Aeu.h l.1290-1306, Aesi.h l.1075-1100, and the printf contracts *)
Fixpoint set_chars (buffer : list Z) (pos : Z) (cs : list Z) : outcome (list Z) :=
  match cs with
  | [] => Ok buffer
  | c :: t => b <- aset buffer pos c ;; set_chars b (pos + 1) t
  end.

(** The library contract of the conversions %08x / %08X: exactly the eight hexadecimal digits of the block ... *)
(** called at Aeu.h l.1325-1339 *)
Definition hex8 (x : Z) : list Z := map (fun i => x / 16 ^ i mod 16) [7; 6; 5; 4; 3; 2; 1; 0].
(** ... and of %x / %X: the same without leading zeros. *)
(** called at Aeu.h l.1323-1337, 1402 *)
Fixpoint strip0 (ds : list Z) : list Z :=
  match ds with
  | d :: t => match t with [] => ds | _ => if d =? 0 then strip0 t else ds end
  | [] => []
  end.
(** called at Aeu.h l.1323-1337, 1402, 1405 *)
Definition fmt_x (upper : bool) (x : Z) : list Z := map (digit_char upper) (strip0 (hex8 x)).
(** called at Aeu.h l.1325-1339 *)
Definition fmt_08x (upper : bool) (x : Z) : list Z := map (digit_char upper) (hex8 x).

(** [position += snprintf(buffer + position, bufferSize - position, fmt, block)] (l.1323-1329), respectively swprintf
    (l.1333-1339), where [text] is the complete formatted text.
    snprintf: writes at most [avail - 1] characters and a NUL (nothing when avail = 0), returns the full length.
    swprintf: writes the text and a NUL if they fit; otherwise returns a negative value (-1), with unspecified content
    in the destination ([wfail], which the caller may choose). [size_t] arithmetic wraps modulo 2^64. *)
Definition print_block (wide : bool) (wfail : list Z -> Z -> list Z) (bufferSize : Z) (text : list Z)
    (st : list Z * Z) : outcome (list Z * Z) :=
  let '(buffer, position) := st in
  let avail := u64 (bufferSize - position) in
  if wide then
    if len text + 1 <=? avail then
      b <- set_chars buffer position (text ++ [0]) ;; Ok (b, u64 (position + len text))
    else if position + avail <=? len buffer then Ok (wfail buffer position, u64 (position - 1))
    else Err OutOfBounds
  else if avail =? 0 then Ok (buffer, u64 (position + len text))
  else b <- set_chars buffer position (firstn (Z.to_nat (avail - 1)) text ++ [0]) ;;
       Ok (b, u64 (position + len text)).

(** l.1317-1319 (and l.1398-1400): index of the highest non-zero block *)
Definition top_block (n : Z) (a : list Z) : outcome Z :=
  x <- forDx n 1 (fun i (_ : unit) =>
    b <- aget a i ;; if b =? 0 then Ok (Next tt) else Ok (Exit i)) tt ;;
  match x with Exit r => Ok r | Next _ => Ok 0 end.

(** l.1345-1354 (and l.1413-1418): the digit loop; [divide(copy, base)] converts [base] to an Aeu (l.166-175).
    Returns (buffer, position). *)
Definition digit_loop (cfg : config) (n base : Z) (bufferSize : Z) (buffer : list Z) (position : Z) (a : list Z)
  : outcome (list Z * Z) :=
  x <- forUx position bufferSize (fun position '(buffer, copy) =>
    z <- isZero n copy ;;
    if z : bool then Ok (Exit (buffer, position)) else
    d <- from_unsigned n (zeros n) base ;;
    '(quotient, remainder) <- divide cfg n copy d ;;
    r <- integralCast uint8 remainder ;;
    b <- aset buffer position (48 + r) ;;
    Ok (Next (b, quotient))) (buffer, a) ;;
  match x with
  | Exit (buffer, position) => Ok (buffer, position)
  | Next (buffer, _) => Ok (buffer, Z.max position bufferSize)
  end.

(** l.1355-1360: reversing the digits in place; the loop runs while [i * 2 < digitsTotal] *)
Definition reverse_digits (buffer : list Z) (startPosition digitsTotal : Z) : outcome (list Z) :=
  forU 0 ((digitsTotal + 1) / 2) (fun i buffer =>
    t <- aget buffer (startPosition + i) ;;
    u <- aget buffer (startPosition + digitsTotal - 1 - i) ;;
    b <- aset buffer (startPosition + i) u ;;
    aset b (startPosition + digitsTotal - 1 - i) t) buffer.

(** l.1286-1308 the prefix written by getString *)
Definition gs_prefix (base : Z) : list Z :=
  if base =? 2 then [48; 98] else if base =? 8 then [48; 111] else if base =? 16 then [48; 120] else [].

(** l.1281-1365 getString<base, hexUppercase, Char>(buffer, bufferSize, showBase); [buffer] is the character
    array [buffer] points into (from its first element on).  Returns (buffer, returned value). *)
Definition getString (cfg : config) (n : Z) (wide upper : bool) (wfail : list Z -> Z -> list Z)
    (base : Z) (a : list Z) (buffer : list Z) (bufferSize : Z) (showBase : bool) : outcome (list Z * Z) :=
  if bufferSize <? 2 then Ok (buffer, 0) else
  '(buffer, position) <-
    (if showBase && (bufferSize >? 3) then
       b <- set_chars buffer 0 (gs_prefix base) ;; Ok (b, len (gs_prefix base))
     else Ok (buffer, 0)) ;;
  z <- isZero n a ;;
  if z : bool then
    b <- aset buffer position 48 ;; Ok (b, position + 1)
  else
  '(buffer, position) <-
    (if base =? 16 then
       iter <- top_block n a ;;
       x <- aget a iter ;;
       st <- print_block wide wfail bufferSize (fmt_x upper x) (buffer, position) ;;
       forD iter 0 (fun i st => x <- aget a i ;; print_block wide wfail bufferSize (fmt_08x upper x) st) st
     else
       '(b, p) <- digit_loop cfg n base bufferSize buffer position a ;;
       b <- reverse_digits b position (p - position) ;;
       Ok (b, p)) ;;
  b <- aset buffer position 0 ;;
  Ok (b, u64 (position + 1)).

(** ** Stream insertion *)

(** Formatted insertion of a character sequence (character, string, or integer without sign and base prefix):
    padding to [width] with [fillc], after the text for [left], before it otherwise; [width] is reset. *)
(** standard library; used at Aeu.h l.1384-1421 *)
Definition os_put (os : ostream) (s : list Z) : ostream :=
  let pad := repeat (fillc os) (Z.to_nat (width os - len s)) in
  mk_os (out os ++ match adj os with AdjLeft => s ++ pad | _ => pad ++ s end)
        (basef os) (showbase os) (uppercase os) (fillc os) 0 (adj os).
(** Aeu.h l.1390 *)
Definition os_noshowbase (os : ostream) : ostream :=
  mk_os (out os) (basef os) false (uppercase os) (fillc os) (width os) (adj os).
(** Aeu.h l.1404 *)
Definition os_fill (os : ostream) (c : Z) : ostream :=
  mk_os (out os) (basef os) (showbase os) (uppercase os) c (width os) (adj os).
(** Aeu.h l.1405 *)
Definition os_width (os : ostream) (w : Z) : ostream :=
  mk_os (out os) (basef os) (showbase os) (uppercase os) (fillc os) w (adj os).
(** Aeu.h l.1405 *)
Definition os_right (os : ostream) : ostream :=
  mk_os (out os) (basef os) (showbase os) (uppercase os) (fillc os) (width os) AdjRight.

(** l.1410 [static_cast<std::size_t>(static_cast<double>(bitness) / 2.95)]: the IEEE binary64 constant nearest to 2.95
    is [d295 / 2^50]; the quotient is rounded to 53 significant bits (nearest, ties to even), then truncated.
    Exact for bitness < 2^53 (the conversion to double is then exact). *)
Definition d295 : Z := 3321404725185741.
(** Aeu.h l.1410, the rounding of the division *)
Definition rne_div (p q : Z) : Z :=
  let f := p / q in
  let r := p - f * q in
  if 2 * r <? q then f else if q <? 2 * r then f + 1 else if Z.even f then f else f + 1.
(** Aeu.h l.1410 *)
Definition stream_buffer_size (n : Z) : Z :=
  let num := 32 * n * 2 ^ 50 in
  let e := Z.log2 (num / d295) in          (* 2^e <= quotient < 2^(e+1) *)
  let s := 52 - e in                       (* scale to 53 bits; e <= 52 since bitness < 2^53 *)
  rne_div (num * 2 ^ s) d295 / 2 ^ s.

(** l.1378-1425 operator<<(std::basic_ostream<Char>&, const Aeu&) *)
Definition stream_insert (cfg : config) (n : Z) (os : ostream) (a : list Z) : outcome ostream :=
  let base := match basef os with BHex => 16 | BOct => 8 | _ => 10 end in
  let os := if showbase os && negb (base =? 10)
            then os_noshowbase (os_put os (if base =? 8 then [48; 111] else [48; 120])) else os in
  z <- isZero n a ;;
  if z : bool then Ok (os_put os [48]) else
  if base =? 16 then
    iter <- top_block n a ;;
    x <- aget a iter ;;
    let os := os_put os (fmt_x (uppercase os) x) in
    forD iter 0 (fun i os =>
      x <- aget a i ;;
      let os := os_right (os_width (os_fill os 48) 8) in
      Ok (os_put os (fmt_x (uppercase os) x))) os
  else
    let bufferSize := stream_buffer_size n in
    '(buffer, filled) <- digit_loop cfg n base bufferSize (zeros bufferSize) 0 a ;;
    forD filled 0 (fun i os => c <- aget buffer i ;; Ok (os_put os [c])) os.

(** ** Aesi *)

(** Aesi.h:45-58 traverseDashes *)
(** Aesi.h l.45-58 *)
Definition traverseDashes (ptr : list Z) (size : Z) : outcome sign_t :=
  p <- forU 0 size (fun i positive => c <- aget ptr i ;; Ok (if c =? 45 then Z.lxor positive 1 else positive)) 1 ;;
  Ok (if p =? 1 then SPos else SNeg).

(** Aesi.h:122-127 Aesi(const Char* ptr, std::size_t size) *)
(** Aesi.h l.122-127 *)
Definition s_from_chars (n : Z) (wide : bool) (alnum : Z -> bool) (ptr : list Z) (size : Z) : outcome aesi :=
  base <- from_chars n wide alnum ptr size ;;
  z <- isZero n base ;;
  if negb z then s <- traverseDashes ptr size ;; Ok (mk_aesi s base)
  else Ok (mk_aesi SZero base).
(** Aesi.h:133, 141, 145 *)
(** Aesi.h l.141, 145 *)
Definition s_from_string n wide alnum (s : list Z) := s_from_chars n wide alnum s (len s).
(** Aesi.h l.133 *)
Definition s_from_literal n wide alnum (s : list Z) := s_from_chars n wide alnum (s ++ [0]) (len s + 1).

(** Aesi.h:1061-1107 getString *)
(** Aesi.h l.1061-1107 *)
Definition s_getString (cfg : config) (n : Z) (wide upper : bool) (wfail : list Z -> Z -> list Z)
    (notation : Z) (a : aesi) (buffer : list Z) (bufferSize : Z) (showBase : bool) : outcome (list Z * Z) :=
  match sgn a with
  | SNeg =>
      if bufferSize >? 0 then
        b <- aset buffer 0 45 ;;
        '(rest, k) <- getString cfg n wide upper wfail notation (mag a) (tl b) (bufferSize - 1) showBase ;;
        Ok (firstn 1 b ++ rest, k)
      else getString cfg n wide upper wfail notation (mag a) buffer bufferSize showBase
  | SPos => getString cfg n wide upper wfail notation (mag a) buffer bufferSize showBase
  | SZero =>
      if showBase then
        if (notation =? 2) || (notation =? 8) || (notation =? 16) then
          if bufferSize <? 3 then Ok (buffer, 0)
          else b <- set_chars buffer 0 (gs_prefix notation ++ [48]) ;; Ok (b, 3)
        else if bufferSize <? 1 then Ok (buffer, 0)
        else b <- aset buffer 0 48 ;; Ok (b, 1)
      else b <- aset buffer 0 48 ;; Ok (b, 1)
  end.

(** Aesi.h:1119-1128 operator<< *)
(** Aesi.h l.1119-1128 *)
Definition s_stream_insert (cfg : config) (n : Z) (os : ostream) (a : aesi) : outcome ostream :=
  match sgn a with
  | SZero => Ok (os_put os [48])
  | SNeg => stream_insert cfg n (os_put os [45]) (mag a)
  | SPos => stream_insert cfg n os (mag a)
  end.
