(** * XStreamModel: operator<< on a stream that throws (exceptions() contains badbit).

    Sources: Aeu.h l.1378-1425, Aesi.h l.1119-1128; neither operator is noexcept, neither has a try block.
    As in [StreamModel], but the first insertion the sink does not take in full sets badbit, which throws
    std::ios_base::failure from inside that insertion; the exception leaves the operator at once.  [Exit e]: thrown, with
    the stream in state [e].  The characters accepted stay on the sink; the format flags are those at that moment.
    Simplified: whether the inserter that throws has already reset the width is left open by the standard; [width] of a
    state in [Exit] is not meaningful (no theorem reads it). *)
From Verif Require Export StreamModel.
Open Scope Z_scope.

(** Formatted insertion of characters. *)
(** standard library; used at Aeu.h l.1384-1421 *)
Definition x_put (s : sstream) (t : list Z) : step sstream sstream :=
  let s' := ss_put s t in if sgood s' then Next s' else Exit s'.

(** Aeu.h l.1378-1425 *)
Definition x_insert (cfg : config) (grp : list Z -> list Z) (n : Z) (s : sstream) (a : list Z) : outcome (step sstream sstream) :=
  let base := match basef (sos s) with BHex => 16 | BOct => 8 | _ => 10 end in                   (* l.1379-1382 *)
  let p := if showbase (sos s) && negb (base =? 10)                                              (* l.1383-1390 *)
           then match x_put s (if base =? 8 then [48; 111] else [48; 120]) with
                | Next s => Next (ss_on os_noshowbase s) | Exit e => Exit e end
           else Next s in
  match p with
  | Exit e => Ok (Exit e)
  | Next s =>
    z <- isZero n a ;;
    if z : bool then Ok (x_put s [48]) else                                                      (* l.1394-1395 *)
    if base =? 16 then
      iter <- top_block n a ;;
      x <- aget a iter ;;
      match x_put s (grp (fmt_x (uppercase (sos s)) x)) with                                     (* l.1402 *)
      | Exit e => Ok (Exit e)
      | Next s =>
        forDx iter 0 (fun i s =>
          x <- aget a i ;;
          let s := ss_on (fun os => os_right (os_width (os_fill os 48) 8)) s in                  (* l.1404-1405 *)
          Ok (x_put s (grp (fmt_x (uppercase (sos s)) x)))) s
      end
    else
      let bufferSize := stream_buffer_size n in
      '(buffer, filled) <- digit_loop cfg n base bufferSize (zeros bufferSize) 0 a ;;
      forDx filled 0 (fun i s => c <- aget buffer i ;; Ok (x_put s [c])) s                       (* l.1420-1421 *)
  end.

(** Aesi.h l.1119-1128 *)
Definition x_insert_signed (cfg : config) (grp : list Z -> list Z) (n : Z) (s : sstream) (a : aesi) : outcome (step sstream sstream) :=
  match sgn a with
  | SZero => Ok (x_put s [48])
  | SNeg => match x_put s [45] with Exit e => Ok (Exit e) | Next s => x_insert cfg grp n s (mag a) end
  | SPos => x_insert cfg grp n s (mag a)
  end.

(** [os << x1 << x2 << ...] *)
(** Aeu.h l.1378, Aesi.h l.1119: the returned stream *)
Fixpoint x_insert_all (cfg : config) (grp : list Z -> list Z) (n : Z) (s : sstream) (xs : list aesi) : outcome (step sstream sstream) :=
  match xs with
  | [] => Ok (Next s)
  | x :: xs =>
      y <- x_insert_signed cfg grp n s x ;;
      match y with Exit e => Ok (Exit e) | Next s => x_insert_all cfg grp n s xs end
  end.
