(** * TextSpec: what numerals are.  Characters are their codes (integers).  Refers to no function of the model. *)
From Verif Require Export Spec.
Open Scope Z_scope.

(** Positional value of a digit list, most significant digit first. *)
Definition dvalue (base : Z) (ds : list Z) : Z := fold_left (fun acc d => acc * base + d) ds 0.

(** '0'..'9', then 'a'.. or 'A'.. *)
Definition digit_char (upper : bool) (d : Z) : Z :=
  if d <? 10 then 48 + d else if upper then 55 + d else 87 + d.

(** [s] is the numeral of [v] in the given base: digits below the base, positional value [v], no leading zero
    (zero itself is "0"). *)
Definition numeral (upper : bool) (base v : Z) (s : list Z) : Prop :=
  exists ds, s = map (digit_char upper) ds /\ Forall (fun d => 0 <= d < base) ds /\ dvalue base ds = v /\
             (ds = [0] \/ exists d t, ds = d :: t /\ d <> 0).

(** The digit a character stands for. *)
Definition digit_of (c : Z) : option Z :=
  if (48 <=? c) && (c <=? 57) then Some (c - 48)
  else if (97 <=? c) && (c <=? 102) then Some (c - 87)
  else if (65 <=? c) && (c <=? 70) then Some (c - 55)
  else None.

(** The digits of a base that occur in a string, in order; every other character is dropped. *)
Definition digits_in (base : Z) (s : list Z) : list Z :=
  flat_map (fun c => match digit_of c with
                     | Some d => if d <? base then [d] else []
                     | None => []
                     end) s.

(** The base a prefix letter announces: b/B, o/O, x/X. *)
Definition prefix_base (c : Z) : option Z :=
  if (c =? 98) || (c =? 66) then Some 2
  else if (c =? 111) || (c =? 79) then Some 8
  else if (c =? 120) || (c =? 88) then Some 16
  else None.

(** The prefix written in front of a numeral when the base is shown: 0b, 0o, 0x, nothing for decimal. *)
Definition prefix_text (base : Z) : list Z :=
  if base =? 2 then [48; 98] else if base =? 8 then [48; 111] else if base =? 16 then [48; 120] else [].

(** Minimal assumption on [isalnum]/[iswalnum] (ISO C 7.4.1): ASCII digits and letters are alphanumeric in every locale. *)
Definition alnum_ok (alnum : Z -> bool) : Prop :=
  forall c, (48 <= c <= 57 \/ 65 <= c <= 90 \/ 97 <= c <= 122) -> alnum c = true.

(** Leading characters: skippable ones are not alphanumeric and (char only) not below EOF. *)
Definition skippable (wide : bool) (alnum : Z -> bool) (c : Z) : Prop :=
  if wide then alnum c = false else c = -1 \/ 0 <= c /\ alnum c = false.

(** [base_ok]: the bases the function documents. *)
Definition base_ok (base : Z) : Prop := base = 2 \/ base = 8 \/ base = 10 \/ base = 16.

(** The prefix, if it is to be shown. *)
Definition shown (showBase : bool) (base : Z) : list Z := if showBase then prefix_text base else [].

(** getString shows the prefix only in buffers of more than three characters. *)
Definition shown_in (bufferSize : Z) (showBase : bool) (base : Z) : list Z :=
  if showBase && (bufferSize >? 3) then prefix_text base else [].

(** What position [q] of a block of text placed at [start, end) holds when the writer believes the array has
    [B] characters: the digit, a NUL or the old content. *)
Definition short_cell (B start end_ q digit old : Z) : Z :=
  if end_ <? B then digit                                   (* the block and its NUL fit *)
  else if start <? B then                                   (* the block crosses the stated end *)
    if q <? B - 1 then digit else if q =? B - 1 then 0 else old
  else if start =? B then old                               (* no room at all: skipped *)
  else digit.                                               (* past the stated end: bufferSize - position wraps *)
(** The text [s] of [L] digits stands at [P, P+L); blocks of eight digits are counted from its end, the first
    one is shorter. *)
Definition short_at (B P : Z) (s : list Z) (q old : Z) : Z :=
  let end_ := P + len s - 8 * ((P + len s - 1 - q) / 8) in
  short_cell B (Z.max P (end_ - 8)) end_ q (znth s (q - P)) old.


(** The part of the stream's state the operator reads or writes.  [basef]: [BOther] stands for no or several
    basefield bits set. Locale grouping and stream errors are in StreamModel.v. *)
Inductive basefield := BDec | BOct | BHex | BOther.
Inductive adjust := AdjLeft | AdjRight | AdjInternal | AdjNone.
Record ostream := mk_os { out : list Z; basef : basefield; showbase : bool; uppercase : bool;
                          fillc : Z; width : Z; adj : adjust }.

(** The base the stream's flags select, and the prefix to show. *)
Definition os_base (os : ostream) : Z := match basef os with BHex => 16 | BOct => 8 | _ => 10 end.
Definition os_shown (os : ostream) : list Z := shown (showbase os) (os_base os).


(** What formatted insertion makes of a piece of text: padded to the width ([left]: after the text; otherwise before it). *)
Definition field (os : ostream) (s : list Z) : list Z :=
  let pad := repeat (fillc os) (Z.to_nat (width os - len s)) in
  match adj os with AdjLeft => s ++ pad | _ => pad ++ s end.
(** The first piece of text stream insertion hands to the stream: the base prefix if shown; otherwise the digits of
    the topmost 32-bit block in hexadecimal, the first digit in octal and decimal. *)
Definition first_piece (os : ostream) (s : list Z) : list Z :=
  if 0 <? len (os_shown os) then os_shown os
  else if os_base os =? 16 then firstn (Z.to_nat ((len s - 1) mod 8 + 1)) s else firstn 1 s.

(** Two stream states agree on the format: flags, fill and adjustment. *)
Definition same_format (x y : ostream) : Prop :=
  basef x = basef y /\ showbase x = showbase y /\ uppercase x = uppercase y /\ fillc x = fillc y /\ adj x = adj y.

(** Number of '-' characters is odd. *)
Definition odd_dashes (s : list Z) : bool := Nat.odd (count_occ Z.eq_dec s 45).

(** The string from its first alphanumeric character on. *)
Fixpoint numeral_part (alnum : Z -> bool) (s : list Z) : list Z :=
  match s with
  | [] => []
  | c :: t => if alnum c then s else numeral_part alnum t
  end.

(** The integer a string denotes: skip to the first alphanumeric character; 0b/0o/0x there announces the base,
    otherwise it is ten; then the digits of the base, other characters being skipped. *)
Definition string_value (alnum : Z -> bool) (s : list Z) : Z :=
  match numeral_part alnum s with
  | 48 :: c :: rest =>
      match prefix_base c with
      | Some base => dvalue base (digits_in base rest)
      | None => dvalue 10 (digits_in 10 (48 :: c :: rest))
      end
  | body => dvalue 10 (digits_in 10 body)
  end.

(** When the wide-character hexadecimal getString of a non-zero number stays inside a buffer of [B] characters ([p]
    characters of prefix, [d] digits): always from nine characters on; below that, each block of eight digits fails to
    print and moves the position one back, so it must not go below zero. *)
Definition wide_hex_safe (B p d : Z) : Prop :=
  let lower := (d - 1) / 8 in        (* blocks below the highest one: eight digits each *)
  let top := d - 8 * lower in        (* digits of the highest block: one to eight *)
  9 <= B \/ (p + top < B /\ lower <= p + top) \/ (B <= p + top /\ lower < p).
