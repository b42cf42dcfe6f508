(** * WholeSpec: what whole programs mean - programs that use both classes at several widths, convert between them,
    read texts, print to a stream and go through a binary file.

    Refers to no function of the model.  A variable is named by its class, its width (in 32-bit blocks) and a number;
    the [world] gives each its integer, and holds the texts still to be read, what has been printed, and the numbers
    in the binary file (a first-in first-out [std::stringstream]). *)
From Verif Require Export ProgSpec TextSpec BinSpec.
Open Scope Z_scope.

(** What was printed: a number in the base of that moment, or a text of the program. *)
Inductive piece := PNum (upper : bool) (base v : Z) | PText (s : list Z).
Definition piece_text (p : piece) (t : list Z) : Prop :=
  match p with
  | PNum up base v => exists s, numeral (up && (base =? 16)) base (Z.abs v) s /\ t = (if v <? 0 then [45] else []) ++ s
  | PText s => t = s
  end.
Definition renders (ps : list piece) (text : list Z) : Prop := exists ts, Forall2 piece_text ps ts /\ text = concat ts.

(** A record of the file: the byte order asked for, the width, the number. *)
Definition record : Type := bool * Z * Z.
Definition record_bytes (le : bool) (r : record) : list Z :=
  let '(be, n, v) := r in map (fun k => byte_at v (place le be n (Z.of_nat k))) (seq 0 (Z.to_nat (4 * n))).

Record world := mk_world {
  wu : Z -> env;                 (* unsigned variables by width *)
  ws : Z -> env;                 (* signed variables by width *)
  winput : list (list Z);        (* texts still to be read *)
  wbase : basefield;             (* the stream's base *)
  wprinted : list piece;
  wfile : list record }.

Inductive winstr :=
| WU (n : Z) (i : uinstr)                       (* an instruction on unsigned variables of one width *)
| WS (n : Z) (i : sinstr)                       (* the same for signed ones *)
| WCast (n : Z) (s : nat) (m : Z) (d : nat)     (* d = s.precisionCast<m>() *)
| WSCast (n : Z) (s : nat) (m : Z) (d : nat)
| WSigned (n : Z) (s d : nat)                   (* Aesi d = Aeu s *)
| WUnsigned (n : Z) (s d : nat)                 (* Aeu d = Aesi s .unsignedCast() *)
| WTrunc (n : Z) (s : nat) (t : ity) (m : Z) (d : nat)    (* Aeu<m> d = s.integralCast<t>(), t unsigned *)
| WSTrunc (n : Z) (s : nat) (t : ity) (m : Z) (d : nat)   (* Aesi<m> d = s.integralCast<t>() *)
| WPowm (n : Z) (d b : nat) (k : Z) (p m : nat) (* d = powm(b, p, m), the exponent of another width *)
| WRead (n : Z) (d : nat)                       (* d = Aeu { next text } *)
| WSRead (n : Z) (d : nat)
| WBase (b : basefield)                         (* os << std::hex, std::oct, std::dec *)
| WPrint (n : Z) (s : nat)                      (* os << s *)
| WSPrint (n : Z) (s : nat)
| WText (t : list Z)                            (* os << "..." *)
| WSave (be : bool) (n : Z) (s : nat)           (* s.writeBinary(file, be) *)
| WLoad (be : bool) (n : Z) (d : nat).          (* d.readBinary(file, be) *)
Inductive wcond :=
| WUc (n : Z) (c : ucond) | WSc (n : Z) (c : scond)
| WEq (n : Z) (a : nat) (m : Z) (b : nat)       (* unsigned a == b across widths *)
| WLt (n : Z) (a : nat) (m : Z) (b : nat)       (* a < b *)
| WSEq (n : Z) (a : nat) (m : Z) (b : nat)      (* signed *)
| WSLt (n : Z) (a : nat) (m : Z) (b : nat)
| WMore.                                        (* is there another text? *)

Definition at_width (f : Z -> env) (n : Z) (e : env) : Z -> env := fun k => if k =? n then e else f k.
Definition set_u (w : world) (n : Z) (e : env) : world :=
  mk_world (at_width (wu w) n e) (ws w) (winput w) (wbase w) (wprinted w) (wfile w).
Definition set_s (w : world) (n : Z) (e : env) : world :=
  mk_world (wu w) (at_width (ws w) n e) (winput w) (wbase w) (wprinted w) (wfile w).
Definition put_u (w : world) (n : Z) (d : nat) (v : Z) : world := set_u w n (eput (wu w n) d v).
Definition put_s (w : world) (n : Z) (d : nat) (v : Z) : world := set_s w n (eput (ws w n) d v).
Definition print_piece (w : world) (p : piece) : world :=
  mk_world (wu w) (ws w) (winput w) (wbase w) (wprinted w ++ [p]) (wfile w).
Definition set_input (w : world) (l : list (list Z)) : world :=
  mk_world (wu w) (ws w) l (wbase w) (wprinted w) (wfile w).
Definition set_file (w : world) (l : list record) : world :=
  mk_world (wu w) (ws w) (winput w) (wbase w) (wprinted w) l.
Definition base_of (b : basefield) : Z := match b with BHex => 16 | BOct => 8 | _ => 10 end.
(** Widths at which every base can be printed (see C66). *)
Definition printable (n : Z) : bool := (3 <=? n) && (32 * n <? 2 ^ 53).
(** The built-in value [v] of type [t] can become a signed number of [m] blocks. *)
Definition builtin_ok (t : ity) (m v : Z) : bool :=
  ity_ok t && in_ity t v && (negb (v =? ity_min t) || (v =? 0)) && ((iwidth t <=? 32) || (2 <=? m)).

(** The effect of one instruction; [None]: outside the domain on which the library promises a result.
    [up]: the stream prints capital letters; [alnum]: the locale's isalnum. *)
Definition wspec_instr (up : bool) (alnum : Z -> bool) (w : world) (i : winstr) : option world :=
  let guard (b : bool) (r : world) := if b then Some r else None in
  match i with
  | WU n i => if 1 <=? n then match uspec_instr n (wu w n) i with Some e => Some (set_u w n e) | None => None end else None
  | WS n i => if 1 <=? n then match sspec_instr n (ws w n) i with Some e => Some (set_s w n e) | None => None end else None
  | WCast n s m d => guard ((1 <=? n) && (1 <=? m)) (put_u w m d (wu w n s mod modulus m))
  | WSCast n s m d => guard ((1 <=? n) && (1 <=? m) && (Z.abs (ws w n s) <? modulus m)) (put_s w m d (ws w n s))
  | WSigned n s d => guard ((1 <=? n) && negb (wu w n s =? 0)) (put_s w n d (wu w n s))
  | WUnsigned n s d => guard ((1 <=? n) && negb (ws w n s =? 0)) (put_u w n d (Z.abs (ws w n s)))
  | WTrunc n s t m d => guard ((2 <=? n) && (1 <=? m) && ity_ok t && negb (isigned t)) (put_u w m d ((wu w n s mod 2 ^ iwidth t) mod modulus m))
  | WSTrunc n s t m d => guard ((2 <=? n) && (1 <=? m) && isigned t && builtin_ok t m (ws w n s)) (put_s w m d (ws w n s))
  | WPowm n d b k p m =>
      guard ((1 <=? n) && (1 <=? k) && negb (wu w n b =? 0) && (1 <? wu w n m) && ((wu w n m - 1) * (wu w n m - 1) <? modulus n))
            (put_u w n d (wu w n b ^ wu w k p mod wu w n m))
  | WRead n d =>
      match winput w with
      | t :: rest => guard ((1 <=? n) && forallb (fun c => 0 <=? c) t) (put_u (set_input w rest) n d (string_value alnum t mod modulus n))
      | [] => None
      end
  | WSRead n d =>
      match winput w with
      | t :: rest => guard ((1 <=? n) && forallb (fun c => 0 <=? c) t)
                       (put_s (set_input w rest) n d (let v := string_value alnum t mod modulus n in if odd_dashes t then - v else v))
      | [] => None
      end
  | WBase b => Some (mk_world (wu w) (ws w) (winput w) b (wprinted w) (wfile w))
  | WPrint n s => guard (printable n) (print_piece w (PNum up (base_of (wbase w)) (wu w n s)))
  | WSPrint n s => guard (printable n) (print_piece w (PNum up (base_of (wbase w)) (ws w n s)))
  | WText t => Some (print_piece w (PText t))
  | WSave be n s => guard (1 <=? n) (set_file w (wfile w ++ [(be, n, wu w n s)]))
  | WLoad be n d =>
      match wfile w with
      | (be', n', v) :: rest => guard ((1 <=? n) && Bool.eqb be be' && (n =? n')) (put_u (set_file w rest) n d v)
      | [] => None
      end
  end.
Definition wspec_cond (w : world) (c : wcond) : option bool :=
  let guard (b : bool) (r : bool) := if b then Some r else None in
  match c with
  | WUc n c => if 1 <=? n then uspec_cond n (wu w n) c else None
  | WSc n c => if 1 <=? n then sspec_cond n (ws w n) c else None
  | WEq n a m b => guard ((1 <=? n) && (1 <=? m)) (wu w n a =? wu w m b)
  | WLt n a m b => guard ((1 <=? n) && (1 <=? m) && (wu w n a <? modulus m) && (wu w m b <? modulus n)) (wu w n a <? wu w m b)
  | WSEq n a m b => guard ((1 <=? n) && (1 <=? m) && (Z.abs (ws w n a) <? modulus m)) (ws w n a =? ws w m b)
  | WSLt n a m b => guard ((1 <=? n) && (1 <=? m) && (Z.abs (ws w n a) <? modulus m)) (ws w n a <? ws w m b)
  | WMore => Some (match winput w with [] => false | _ => true end)
  end.

Inductive wres := WVal (w : world) | WUndef | WTimeout.
(** Sequencing, branching and loops; [WTimeout]: more than [fuel] nested steps. *)
Fixpoint wspec_run (up : bool) (alnum : Z -> bool) (fuel : nat) (s : stmt winstr wcond) (w : world) : wres :=
  match fuel with
  | O => WTimeout
  | S f =>
      match s with
      | Skip => WVal w
      | Do i => match wspec_instr up alnum w i with Some w' => WVal w' | None => WUndef end
      | Seq s t => match wspec_run up alnum f s w with WVal w' => wspec_run up alnum f t w' | r => r end
      | If c s t => match wspec_cond w c with Some b => wspec_run up alnum f (if b then s else t) w | None => WUndef end
      | While c s =>
          match wspec_cond w c with
          | Some true => match wspec_run up alnum f s w with WVal w' => wspec_run up alnum f (While c s) w' | r => r end
          | Some false => WVal w
          | None => WUndef
          end
      end
  end.
