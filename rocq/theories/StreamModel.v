(** * StreamModel: operator<< once more, on streams with a locale and a sink that may refuse characters.

    Sources: Aeu.h l.1378-1425, Aesi.h l.1119-1128.  [TextModel.stream_insert] has the classic locale and a sink that
    accepts everything; here
    - [sroom]: how many more characters the sink (the stream's streambuf) accepts; [None]: any number;
    - [sgood]: the stream is good(); the first refused character sets badbit, and formatted insertion into a stream that
      is not good does nothing at all ([ostream.formatted.reqmts]: the sentry fails), manipulators and the setters
      fill() and width() still act;
    - [grp]: what [num_put] makes of the digits of an integer in the stream's locale: the digits with the separators of
      [numpunct] inserted ([facet.num.put.virtuals] stage 2, in every base).  Characters and strings are not affected.
    Simplified: exceptions() is 0 (with badbit in it, the first refused character throws, what was written stays). *)
From Verif Require Export TextModel.
Open Scope Z_scope.

(** the parameter os of Aeu.h l.1378 *)
Record sstream := mk_ss { sos : ostream; sroom : option Z; sgood : bool }.

(** The stream after the characters [t] have been handed to the sink, with format state [o] otherwise. *)
(** standard library; used at Aeu.h l.1384-1421 *)
Definition ss_write (s : sstream) (o : ostream) (t : list Z) : sstream :=
  let put k := mk_os (out (sos s) ++ firstn k t) (basef o) (showbase o) (uppercase o) (fillc o) (width o) (adj o) in
  match sroom s with
  | None => mk_ss (put (length t)) None true
  | Some r => mk_ss (put (Z.to_nat r)) (Some (Z.max 0 (r - len t))) (len t <=? r)
  end.
(** Formatted insertion of a character or string: pads, writes, resets the width. *)
(** standard library; used at Aeu.h l.1384, 1395, 1421 *)
Definition ss_put (s : sstream) (t : list Z) : sstream :=
  if sgood s then ss_write s (os_width (sos s) 0) (field (sos s) t) else s.
(** Formatted insertion of an unsigned integer whose digits are [t]. *)
(** standard library; used at Aeu.h l.1402, 1405 *)
Definition ss_put_int (grp : list Z -> list Z) (s : sstream) (t : list Z) : sstream := ss_put s (grp t).
(** standard library; used at Aeu.h l.1390, 1404-1405 *)
Definition ss_on (f : ostream -> ostream) (s : sstream) : sstream := mk_ss (f (sos s)) (sroom s) (sgood s).

(** Aeu.h l.1378-1425 *)
Definition ss_insert (cfg : config) (grp : list Z -> list Z) (n : Z) (s : sstream) (a : list Z) : outcome sstream :=
  let base := match basef (sos s) with BHex => 16 | BOct => 8 | _ => 10 end in                   (* l.1379-1392 *)
  let s := if showbase (sos s) && negb (base =? 10)
           then ss_on os_noshowbase (ss_put s (if base =? 8 then [48; 111] else [48; 120])) else s in
  z <- isZero n a ;;
  if z : bool then Ok (ss_put s [48]) else                                                       (* l.1394-1395 *)
  if base =? 16 then
    iter <- top_block n a ;;
    x <- aget a iter ;;
    let s := ss_put_int grp s (fmt_x (uppercase (sos s)) x) in                                   (* l.1402 *)
    forD iter 0 (fun i s =>
      x <- aget a i ;;
      let s := ss_on (fun os => os_right (os_width (os_fill os 48) 8)) s in                      (* l.1404-1405 *)
      Ok (ss_put_int grp s (fmt_x (uppercase (sos s)) x))) s
  else
    let bufferSize := stream_buffer_size n in
    '(buffer, filled) <- digit_loop cfg n base bufferSize (zeros bufferSize) 0 a ;;
    forD filled 0 (fun i s => c <- aget buffer i ;; Ok (ss_put s [c])) s.                        (* l.1420-1421 *)

(** Aesi.h l.1119-1128 *)
Definition ss_insert_signed (cfg : config) (grp : list Z -> list Z) (n : Z) (s : sstream) (a : aesi) : outcome sstream :=
  match sgn a with
  | SZero => Ok (ss_put s [48])
  | SNeg => ss_insert cfg grp n (ss_put s [45]) (mag a)
  | SPos => ss_insert cfg grp n s (mag a)
  end.

(** [os << x1 << x2 << ...]: the operators return their stream. *)
(** Aeu.h l.1378, Aesi.h l.1119: the returned stream *)
Fixpoint ss_insert_all (cfg : config) (grp : list Z -> list Z) (n : Z) (s : sstream) (xs : list aesi) : outcome sstream :=
  match xs with
  | [] => Ok s
  | x :: xs => s <- ss_insert_signed cfg grp n s x ;; ss_insert_all cfg grp n s xs
  end.
