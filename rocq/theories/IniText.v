(** * IniText: text input and output on memory whose contents may be indeterminate.

    The definitions of TextModel.v once more, on the memory of IniModel.v: the number, the array of characters read by
    the string constructors and the array of characters getString writes to may contain elements nobody has written
    ([None]); reading such an element is the fault [Indeterminate].  The local variables are those of the source:
    [Aeu copy = *this;], [divide(copy, base)] with outputs declared without initialiser, the swap variable of the
    reversal, [buffer[2] = buffer[0]] in Aesi.  snprintf and swprintf only write to their destination. *)
From Verif Require Export TextModel IniSigned.
Open Scope Z_scope.

(** ** String constructors *)

(** Aeu.h l.188-194 *)
Definition c_skip_leading (wide : bool) (alnum : Z -> bool) (data : cells) (size : Z) : outcome Z :=
  x <- forUx 0 size (fun position (_ : unit) =>
    c <- cget data position ;;
    b <- is_alnum wide alnum c ;;
    if b then Ok (Exit position) else Ok (Next tt)) tt ;;
  match x with Exit p => Ok p | Next _ => Ok size end.

(** Aeu.h l.199-212 *)
Definition c_detect_base (data : cells) (size position : Z) : outcome (Z * Z) :=
  c <- cget data position ;;
  if (c =? 48) && (size >? position + 1) then
    d <- cget data (position + 1) ;;
    if (d =? 98) || (d =? 66) then Ok (2, position + 2)
    else if (d =? 111) || (d =? 79) then Ok (8, position + 2)
    else if (d =? 120) || (d =? 88) then Ok (16, position + 2)
    else Ok (10, position)
  else Ok (10, position).

(** Aeu.h l.183-230 Aeu(const Char* data, std::size_t size) : Aeu {} - the delegation writes every block. *)
Definition c_from_chars (n : Z) (wide : bool) (alnum : Z -> bool) (data : cells) (size : Z) : outcome cells :=
  if size =? 0 then Ok (czeros n) else
  position <- c_skip_leading wide alnum data size ;;
  if position =? size then Ok (czeros n) else
  '(base, position) <- c_detect_base data size position ;;
  forU position size (fun i blocks =>
    c <- cget data i ;;
    let digit := char_digit c in
    if digit <? base then
      b <- c_mul_assign_u n U32 blocks base ;;
      c_add_assign_u n U32 b digit
    else Ok blocks) (czeros n).

(** Aeu.h l.237-238 Aeu(const Char (&literal)[arrayLength]): the whole array, whatever it contains *)
Definition c_from_array (n : Z) (wide : bool) (alnum : Z -> bool) (array : cells) : outcome cells :=
  c_from_chars n wide alnum array (len array).

(** ** getString *)

(** assignments Aeu.h l.1290-1306 and the writes of snprintf / swprintf *)
Fixpoint c_set_chars (buffer : cells) (pos : Z) (cs : list Z) : outcome cells :=
  match cs with
  | [] => Ok buffer
  | c :: t => b <- cset buffer pos c ;; c_set_chars b (pos + 1) t
  end.

(** Aeu.h l.1323-1339, see print_block in TextModel.v; [wfail]: what a failing swprintf leaves behind *)
Definition c_print_block (wide : bool) (wfail : cells -> Z -> cells) (bufferSize : Z) (text : list Z)
    (st : cells * Z) : outcome (cells * Z) :=
  let '(buffer, position) := st in
  let avail := u64 (bufferSize - position) in
  if wide then
    if len text + 1 <=? avail then
      b <- c_set_chars buffer position (text ++ [0]) ;; Ok (b, u64 (position + len text))
    else if position + avail <=? len buffer then Ok (wfail buffer position, u64 (position - 1))
    else Err OutOfBounds
  else if avail =? 0 then Ok (buffer, u64 (position + len text))
  else b <- c_set_chars buffer position (firstn (Z.to_nat (avail - 1)) text ++ [0]) ;;
       Ok (b, u64 (position + len text)).

(** Aeu.h l.1317-1319 (and l.1398-1400) *)
Definition c_top_block (n : Z) (a : cells) : outcome Z :=
  x <- forDx n 1 (fun i (_ : unit) =>
    b <- cget a i ;; if b =? 0 then Ok (Next tt) else Ok (Exit i)) tt ;;
  match x with Exit r => Ok r | Next _ => Ok 0 end.

(** Aeu.h l.1345-1354 (and l.1412-1417), with the copies [Aeu copy = *this] and [copy = quotient] *)
Definition c_digit_loop (cfg : config) (n base : Z) (bufferSize : Z) (buffer : cells) (position : Z) (a : cells)
  : outcome (cells * Z) :=
  a <- copy a ;;
  x <- forUx position bufferSize (fun position '(buffer, copy_) =>
    z <- c_isZero n copy_ ;;
    if z : bool then Ok (Exit (buffer, position)) else
    d <- c_from_unsigned n base ;;
    '(quotient, remainder) <- c_divide_pair cfg n copy_ d ;;
    r <- c_integralCast uint8 remainder ;;
    b <- cset buffer position (48 + r) ;;
    next <- copy quotient ;;
    Ok (Next (b, next))) (buffer, a) ;;
  match x with
  | Exit (buffer, position) => Ok (buffer, position)
  | Next (buffer, _) => Ok (buffer, Z.max position bufferSize)
  end.

(** Aeu.h l.1355-1360: reads the characters it swaps *)
Definition c_reverse_digits (buffer : cells) (startPosition digitsTotal : Z) : outcome cells :=
  forU 0 ((digitsTotal + 1) / 2) (fun i buffer =>
    t <- cget buffer (startPosition + i) ;;
    u <- cget buffer (startPosition + digitsTotal - 1 - i) ;;
    b <- cset buffer (startPosition + i) u ;;
    cset b (startPosition + digitsTotal - 1 - i) t) buffer.

(** Aeu.h l.1281-1365 *)
Definition c_getString (cfg : config) (n : Z) (wide upper : bool) (wfail : cells -> Z -> cells)
    (base : Z) (a : cells) (buffer : cells) (bufferSize : Z) (showBase : bool) : outcome (cells * Z) :=
  if bufferSize <? 2 then Ok (buffer, 0) else
  '(buffer, position) <-
    (if showBase && (bufferSize >? 3) then
       b <- c_set_chars buffer 0 (gs_prefix base) ;; Ok (b, len (gs_prefix base))
     else Ok (buffer, 0)) ;;
  z <- c_isZero n a ;;
  if z : bool then
    b <- cset buffer position 48 ;; Ok (b, position + 1)
  else
  '(buffer, position) <-
    (if base =? 16 then
       iter <- c_top_block n a ;;
       x <- cget a iter ;;
       st <- c_print_block wide wfail bufferSize (fmt_x upper x) (buffer, position) ;;
       forD iter 0 (fun i st => x <- cget a i ;; c_print_block wide wfail bufferSize (fmt_08x upper x) st) st
     else
       '(b, p) <- c_digit_loop cfg n base bufferSize buffer position a ;;
       b <- c_reverse_digits b position (p - position) ;;
       Ok (b, p)) ;;
  b <- cset buffer position 0 ;;
  Ok (b, u64 (position + 1)).

(** ** Stream insertion *)

(** Aeu.h l.1378-1425; l.1411 [Char buffer [bufferSize] {}] is value-initialised *)
Definition c_stream_insert (cfg : config) (n : Z) (os : ostream) (a : cells) : outcome ostream :=
  let base := match basef os with BHex => 16 | BOct => 8 | _ => 10 end in
  let os := if showbase os && negb (base =? 10)
            then os_noshowbase (os_put os (if base =? 8 then [48; 111] else [48; 120])) else os in
  z <- c_isZero n a ;;
  if z : bool then Ok (os_put os [48]) else
  if base =? 16 then
    iter <- c_top_block n a ;;
    x <- cget a iter ;;
    let os := os_put os (fmt_x (uppercase os) x) in
    forD iter 0 (fun i os =>
      x <- cget a i ;;
      let os := os_right (os_width (os_fill os 48) 8) in
      Ok (os_put os (fmt_x (uppercase os) x))) os
  else
    let bufferSize := stream_buffer_size n in
    '(buffer, filled) <- c_digit_loop cfg n base bufferSize (czeros bufferSize) 0 a ;;
    forD filled 0 (fun i os => c <- cget buffer i ;; Ok (os_put os [c])) os.

(** ** Aesi *)

(** Aesi.h l.45-58 *)
Definition c_traverseDashes (ptr : cells) (size : Z) : outcome sign_t :=
  p <- forU 0 size (fun i positive => c <- cget ptr i ;; Ok (if c =? 45 then Z.lxor positive 1 else positive)) 1 ;;
  Ok (if p =? 1 then SPos else SNeg).

(** Aesi.h l.122-127 Aesi(const Char* ptr, std::size_t size) : base(ptr, size); the sign is assigned on both paths *)
Definition cs_from_chars (n : Z) (wide : bool) (alnum : Z -> bool) (ptr : cells) (size : Z) : outcome caesi :=
  base <- c_from_chars n wide alnum ptr size ;;
  z <- c_isZero n base ;;
  if negb z then s <- c_traverseDashes ptr size ;; Ok (mk_caesi (Some s) base)
  else Ok (mk_caesi (Some SZero) base).

(** Aesi.h l.133 the array constructor *)
Definition cs_from_array (n : Z) (wide : bool) (alnum : Z -> bool) (array : cells) : outcome caesi :=
  cs_from_chars n wide alnum array (len array).

(** Aesi.h l.1061-1107; l.1079, 1086, 1093 read [buffer[0]] back *)
Definition cs_getString (cfg : config) (n : Z) (wide upper : bool) (wfail : cells -> Z -> cells)
    (notation : Z) (a : caesi) (buffer : cells) (bufferSize : Z) (showBase : bool) : outcome (cells * Z) :=
  s <- sget a ;;
  match s with
  | SNeg =>
      if bufferSize >? 0 then
        b <- cset buffer 0 45 ;;
        '(rest, k) <- c_getString cfg n wide upper wfail notation (cmag a) (tl b) (bufferSize - 1) showBase ;;
        Ok (firstn 1 b ++ rest, k)
      else c_getString cfg n wide upper wfail notation (cmag a) buffer bufferSize showBase
  | SPos => c_getString cfg n wide upper wfail notation (cmag a) buffer bufferSize showBase
  | SZero =>
      if showBase then
        if (notation =? 2) || (notation =? 8) || (notation =? 16) then
          if bufferSize <? 3 then Ok (buffer, 0)
          else
            b <- c_set_chars buffer 0 (gs_prefix notation) ;;
            c <- cget b 0 ;;
            b <- cset b 2 c ;; Ok (b, 3)
        else if bufferSize <? 1 then Ok (buffer, 0)
        else b <- cset buffer 0 48 ;; Ok (b, 1)
      else b <- cset buffer 0 48 ;; Ok (b, 1)
  end.

(** Aesi.h l.1119-1128 *)
Definition cs_stream_insert (cfg : config) (n : Z) (os : ostream) (a : caesi) : outcome ostream :=
  s <- sget a ;;
  match s with
  | SZero => Ok (os_put os [48])
  | SNeg => c_stream_insert cfg n (os_put os [45]) (cmag a)
  | SPos => c_stream_insert cfg n os (cmag a)
  end.
