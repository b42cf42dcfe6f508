(** * MachText: string construction and text output of both classes, on top of [MachModel.v].

    The functions of TextModel.v once more: every [std::size_t] computation is reduced modulo 2^64, every loop is the
    C++ loop on its own variables, and the unsigned class is called at machine level.  Line numbers refer to
    /repo/include/AesiMultiprecision/Aeu.h unless Aesi.h is named.  [F] bounds the iterations of every loop. *)
From Verif Require Export MachSigned TextModel.
Open Scope Z_scope.

(** [while(cond) body] on a state that holds the machine variables *)
Fixpoint w_while {S} (F : nat) (cond : S -> outcome bool) (body : S -> outcome S) (s : S) : outcome S :=
  match F with
  | O => Err OutOfFuel
  | Datatypes.S f => c <- cond s ;; if c : bool then s' <- body s ;; w_while f cond body s' else Ok s
  end.

(** ** String constructors *)

(** l.188-194 [for(; position < size && !isalnum(data[position]); ++position);] *)
Definition w_skip_leading (F : nat) (wide : bool) (alnum : Z -> bool) (data : list Z) (size : Z) : outcome Z :=
  w_while F
    (fun position => if position <? size then c <- aget data position ;; b <- is_alnum wide alnum c ;; Ok (negb b) else Ok false)
    (fun position => Ok (u64 (position + 1))) 0.
(** l.199-212 the lambda computing [base] *)
Definition w_detect_base (data : list Z) (size position : Z) : outcome (Z * Z) :=
  c <- aget data position ;;
  if (c =? 48) && (size >? u64 (position + 1)) then
    d <- aget data (u64 (position + 1)) ;;
    if (d =? 98) || (d =? 66) then Ok (2, u64 (position + 2))
    else if (d =? 111) || (d =? 79) then Ok (8, u64 (position + 2))
    else if (d =? 120) || (d =? 88) then Ok (16, u64 (position + 2))
    else Ok (10, position)
  else Ok (10, position).
(** l.215-223 the lambda computing [digit], in [unsigned] arithmetic *)
Definition w_char_digit (ch : Z) : Z :=
  if (48 <=? ch) && (ch <=? 57) then u32 (u32 ch - u32 48)
  else if (97 <=? ch) && (ch <=? 102) then u32 (u32 (u32 ch - u32 97) + 10)
  else if (65 <=? ch) && (ch <=? 70) then u32 (u32 (u32 ch - u32 65) + 10)
  else 99.
(** l.183-230 Aeu(const Char* data, std::size_t size) *)
Definition w_from_chars (F : nat) (n : Z) (wide : bool) (alnum : Z -> bool) (data : list Z) (size : Z) : outcome (list Z) :=
  if size =? 0 then Ok (zeros n) else
  position <- w_skip_leading F wide alnum data size ;;
  if position =? size then Ok (zeros n) else
  '(base, position) <- w_detect_base data size position ;;
  '(_, blocks) <- w_while F (fun '(position, _) => Ok (position <? size)) (fun '(position, blocks) =>
    c <- aget data position ;;
    let digit := w_char_digit c in
    blocks <- (if digit <? base then b <- w_mul_u F n U32 blocks base ;; w_add_u F n U32 b digit else Ok blocks) ;;
    Ok (u64 (position + 1), blocks)) (position, zeros n) ;;
  Ok blocks.
(** l.247-253 *)
Definition w_from_string (F : nat) (n : Z) (wide : bool) (alnum : Z -> bool) (s : list Z) : outcome (list Z) :=
  w_from_chars F n wide alnum s (len s).
(** l.237-238 *)
Definition w_from_literal (F : nat) (n : Z) (wide : bool) (alnum : Z -> bool) (s : list Z) : outcome (list Z) :=
  w_from_chars F n wide alnum (s ++ [0]) (len s + 1).

(** ** getString *)

(** l.1345-1354 (and l.1413-1418) [while(!copy.isZero() && position < bufferSize)]: (position, buffer, copy) *)
Definition w_digit_loop (F : nat) (cfg : config) (n base : Z) (bufferSize : Z) (buffer : list Z) (position : Z) (a : list Z)
  : outcome (list Z * Z) :=
  '(position, buffer, _) <- w_while F
    (fun '(position, _, copy) => z <- w_isZero F n copy ;; if negb z then Ok (position <? bufferSize) else Ok false)
    (fun '(position, buffer, copy) =>
       d <- w_from_unsigned F n (zeros n) base ;;
       '(quotient, remainder) <- w_divide cfg F n copy d ;;
       r <- w_integralCast uint8 remainder ;;
       b <- aset buffer position (48 + r) ;;
       Ok (u64 (position + 1), b, quotient)) (position, buffer, a) ;;
  Ok (buffer, position).
(** l.1356-1360 [for (std::size_t i = 0; i * 2 < digitsTotal; ++i)] *)
Definition w_reverse_digits (F : nat) (buffer : list Z) (startPosition digitsTotal : Z) : outcome (list Z) :=
  x <- w_for (R := list Z) F 64 (fun i => Ok (u64 (i * 2) <? digitsTotal)) (w_go (fun i buffer =>
    let l := u64 (startPosition + i) in
    let r := u64 (u64 (u64 (startPosition + digitsTotal) - 1) - i) in
    t <- aget buffer l ;;
    u <- aget buffer r ;;
    b <- aset buffer l u ;;
    aset b r t)) 0 buffer ;;
  Ok (w_end x).
(** l.1281-1365 getString *)
Definition w_getString (F : nat) (cfg : config) (n : Z) (wide upper : bool) (wfail : list Z -> Z -> list Z)
    (base : Z) (a : list Z) (buffer : list Z) (bufferSize : Z) (showBase : bool) : outcome (list Z * Z) :=
  if bufferSize <? 2 then Ok (buffer, 0) else
  '(buffer, position) <-
    (if showBase && (bufferSize >? 3) then
       b <- set_chars buffer 0 (gs_prefix base) ;; Ok (b, len (gs_prefix base))
     else Ok (buffer, 0)) ;;
  z <- w_isZero F n a ;;
  if z : bool then
    b <- aset buffer position 48 ;; Ok (b, u64 (position + 1))
  else
  '(buffer, position) <-
    (if base =? 16 then
       iter <- w_last F n a ;;
       x <- aget a iter ;;
       st <- print_block wide wfail bufferSize (fmt_x upper x) (buffer, position) ;;
       w_forD F iter 0 (fun i st => x <- aget a i ;; print_block wide wfail bufferSize (fmt_08x upper x) st) st
     else
       '(b, p) <- w_digit_loop F cfg n base bufferSize buffer position a ;;
       b <- w_reverse_digits F b position (u64 (p - position)) ;;
       Ok (b, p)) ;;
  b <- aset buffer position 0 ;;
  Ok (b, u64 (position + 1)).

(** ** Stream insertion *)

(** l.1378-1425 operator<<; the last loop is [for(; filled > 0; --filled) os << buffer[filled - 1];] *)
Definition w_stream_insert (F : nat) (cfg : config) (n : Z) (os : ostream) (a : list Z) : outcome ostream :=
  let base := match basef os with BHex => 16 | BOct => 8 | _ => 10 end in
  let os := if showbase os && negb (base =? 10)
            then os_noshowbase (os_put os (if base =? 8 then [48; 111] else [48; 120])) else os in
  z <- w_isZero F n a ;;
  if z : bool then Ok (os_put os [48]) else
  if base =? 16 then
    iter <- w_last F n a ;;
    x <- aget a iter ;;
    let os := os_put os (fmt_x (uppercase os) x) in
    w_forD F iter 0 (fun i os =>
      x <- aget a i ;;
      let os := os_right (os_width (os_fill os 48) 8) in
      Ok (os_put os (fmt_x (uppercase os) x))) os
  else
    let bufferSize := stream_buffer_size n in
    '(buffer, filled) <- w_digit_loop F cfg n base bufferSize (zeros bufferSize) 0 a ;;
    '(_, os) <- w_while F (fun '(filled, _) => Ok (filled >? 0)) (fun '(filled, os) =>
      c <- aget buffer (u64 (filled - 1)) ;; Ok (u64 (filled - 1), os_put os [c])) (filled, os) ;;
    Ok os.

(** ** Aesi *)

(** Aesi.h l.45-58 traverseDashes *)
Definition w_traverseDashes (F : nat) (ptr : list Z) (size : Z) : outcome sign_t :=
  p <- w_forU F 0 size (fun i positive => c <- aget ptr i ;; Ok (if c =? 45 then Z.lxor positive 1 else positive)) 1 ;;
  Ok (if p =? 1 then SPos else SNeg).
(** Aesi.h l.122-127 *)
Definition ws_from_chars (F : nat) (n : Z) (wide : bool) (alnum : Z -> bool) (ptr : list Z) (size : Z) : outcome aesi :=
  base <- w_from_chars F n wide alnum ptr size ;;
  z <- w_isZero F n base ;;
  if negb z then s <- w_traverseDashes F ptr size ;; Ok (mk_aesi s base)
  else Ok (mk_aesi SZero base).
(** Aesi.h l.141, 145 *)
Definition ws_from_string (F : nat) n wide alnum (s : list Z) := ws_from_chars F n wide alnum s (len s).
(** Aesi.h l.133 *)
Definition ws_from_literal (F : nat) n wide alnum (s : list Z) := ws_from_chars F n wide alnum (s ++ [0]) (len s + 1).
(** Aesi.h l.1061-1107 getString *)
Definition ws_getString (F : nat) (cfg : config) (n : Z) (wide upper : bool) (wfail : list Z -> Z -> list Z)
    (notation : Z) (a : aesi) (buffer : list Z) (bufferSize : Z) (showBase : bool) : outcome (list Z * Z) :=
  match sgn a with
  | SNeg =>
      if bufferSize >? 0 then
        b <- aset buffer 0 45 ;;
        '(rest, k) <- w_getString F cfg n wide upper wfail notation (mag a) (tl b) (u64 (bufferSize - 1)) showBase ;;
        Ok (firstn 1 b ++ rest, k)
      else w_getString F cfg n wide upper wfail notation (mag a) buffer bufferSize showBase
  | SPos => w_getString F cfg n wide upper wfail notation (mag a) buffer bufferSize showBase
  | SZero =>
      if showBase then
        if (notation =? 2) || (notation =? 8) || (notation =? 16) then
          if bufferSize <? 3 then Ok (buffer, 0)
          else b <- set_chars buffer 0 (gs_prefix notation ++ [48]) ;; Ok (b, 3)
        else if bufferSize <? 1 then Ok (buffer, 0)
        else b <- aset buffer 0 48 ;; Ok (b, 1)
      else b <- aset buffer 0 48 ;; Ok (b, 1)
  end.
(** Aesi.h l.1119-1128 operator<< *)
Definition ws_stream_insert (F : nat) (cfg : config) (n : Z) (os : ostream) (a : aesi) : outcome ostream :=
  match sgn a with
  | SZero => Ok (os_put os [48])
  | SNeg => w_stream_insert F cfg n (os_put os [45]) (mag a)
  | SPos => w_stream_insert F cfg n os (mag a)
  end.
