(** * PropsShort: C113, getString told a size smaller than the text while the array behind it is larger. *)
From Verif Require Import TextSpec TextModel TextMore TextShort.
Open Scope Z_scope.
Definition cfg0 : config := mk_config false false true.
Definition nofail : list Z -> Z -> list Z := fun b _ => b.

(** Bases 2, 8, 10: the high-order digits are dropped, the low-order digits that fit are written, the NUL goes to
    index bufferSize (one past the stated end) and bufferSize + 1 is returned. *)
Theorem C113_digits_dropped : forall cfg n wide upper wfail base a buffer bufferSize showBase s, wf n a -> bval a <> 0 ->
  base = 2 \/ base = 8 \/ base = 10 -> 2 <= n -> 2 <= bufferSize < len buffer -> len buffer < 2 ^ 64 -> numeral false base (bval a) s ->
  bufferSize <= len (shown_in bufferSize showBase base) + len s ->
  getString cfg n wide upper wfail base a buffer bufferSize showBase =
    Ok (shown_in bufferSize showBase base ++
        skipn (Z.to_nat (len (shown_in bufferSize showBase base) + len s - bufferSize)) s ++ 0 :: skipn (Z.to_nat (bufferSize + 1)) buffer,
        bufferSize + 1).
Proof. exact getString_short_digits. Qed.
Print Assumptions C113_digits_dropped.

(** Base 16, char: the call writes past the stated end and returns the full length; which characters end up in
    the array is given position by position ([short_at], TextSpec.v): whole blocks of eight digits that fit, the
    block across the stated end cut off with a NUL, a block starting exactly there skipped, later blocks written. *)
Theorem C113_narrow_hexadecimal : forall cfg n upper wfail a buffer bufferSize showBase s, wf n a -> bval a <> 0 -> 1 <= n ->
  2 <= bufferSize <= len buffer -> len buffer < 2 ^ 62 -> numeral upper 16 (bval a) s ->
  len (shown_in bufferSize showBase 16) + len s + 1 <= len buffer ->
  exists r, getString cfg n false upper wfail 16 a buffer bufferSize showBase = Ok (r, len (shown_in bufferSize showBase 16) + len s + 1) /\
    len r = len buffer /\
    forall q, 0 <= q < len buffer -> znth r q =
      let P := len (shown_in bufferSize showBase 16) in
      if q <? P then znth (shown_in bufferSize showBase 16) q
      else if q <? P + len s then short_at bufferSize P s q (znth buffer q)
      else if q =? P + len s then 0 else znth buffer q.
Proof. exact getString_short_hex. Qed.
Print Assumptions C113_narrow_hexadecimal.
(** 12345 with size 4: "2345"; 0x123456789 with sizes 4 and 9, 0x1234523456789 with size 5, in arrays of sevens. *)
Example C113_example :
  getString cfg0 3 false false nofail 10 [12345; 0; 0] (repeat 7 6) 4 false = Ok ([50; 51; 52; 53; 0; 7], 5) /\
  getString cfg0 3 false false nofail 16 [591751049; 1; 0] (repeat 7 11) 4 false = Ok ([49; 50; 51; 0; 7; 7; 7; 7; 7; 0; 7], 10) /\
  getString cfg0 3 false false nofail 16 [591751049; 1; 0] (repeat 7 11) 9 false = Ok ([49; 50; 51; 52; 53; 54; 55; 56; 0; 0; 7], 10) /\
  getString cfg0 3 false false nofail 16 [591751049; 74565; 0] (repeat 7 16) 5 false = Ok ([49; 50; 51; 52; 0; 7; 7; 7; 7; 7; 7; 7; 7; 0; 7; 7], 14).
Proof. repeat match goal with |- _ /\ _ => split end; vm_compute; reflexivity. Qed.

(** ** C119: Aesi::getString at every size. *)
(** Zero: with showBase the stated size decides (nothing is written if the text does not fit); without showBase '0' is
    written whatever the stated size. *)
Theorem C119_zero : forall cfg n wide upper wfail base a buffer bufferSize showBase, sgn a = SZero -> base_ok base -> 0 <= bufferSize <= len buffer ->
  let text := shown showBase base ++ [48] in
  s_getString cfg n wide upper wfail base a buffer bufferSize showBase =
    if len text <=? bufferSize then Ok (text ++ skipn (Z.to_nat (len text)) buffer, len text)
    else if showBase then Ok (buffer, 0)
    else match buffer with [] => Err OutOfBounds | _ :: t => Ok (48 :: t, 1) end.
Proof.
  intros cfg n wide upper wfail base a buffer bufferSize showBase Z0 Hb HL text.
  unfold s_getString. rewrite Z0. subst text. change gs_prefix with prefix_text. unfold shown.
  assert (A0 : forall b0 t, aset (b0 :: t) 0 48 = Ok (48 :: t)) by (intros; apply (aset_mid [] b0)).
  destruct showBase.
  - destruct Hb as [-> |[-> |[-> | ->] ] ]; cbn [Z.eqb Pos.eqb orb prefix_text app].
    1,2,4: change (len [48; 98; 48]) with 3; change (len [48; 111; 48]) with 3; change (len [48; 120; 48]) with 3;
      destruct (Z.ltb_spec bufferSize 3), (Z.leb_spec 3 bufferSize); try lia; auto;
      destruct buffer as [|b0 [|b1 [|b2 buffer] ] ]; unfold len in HL; cbn [length] in HL; try lia;
      (rewrite (set_chars_app _ [] [b0; b1; b2] buffer) by reflexivity; reflexivity).
    change (len [48]) with 1. destruct (Z.ltb_spec bufferSize 1), (Z.leb_spec 1 bufferSize); try lia; auto.
    destruct buffer as [|b0 buffer]; unfold len in HL; cbn [length] in HL; try lia. rewrite A0. reflexivity.
  - cbn [app]. change (len [48]) with 1. destruct buffer as [|b0 buffer]; [|rewrite A0]; destruct (Z.leb_spec 1 bufferSize); try reflexivity.
    unfold len in HL; cbn [length] in HL. lia.
Qed.
Print Assumptions C119_zero.
(** Negative, base 2, 8 or 10, a size too small for the text: the dash, then the low-order digits that fit. *)
Theorem C119_digits_dropped : forall cfg n wide upper wfail base a b0 buffer bufferSize showBase s, wf n (mag a) -> sgn a = SNeg -> bval (mag a) <> 0 ->
  base = 2 \/ base = 8 \/ base = 10 -> 2 <= n -> 3 <= bufferSize < len (b0 :: buffer) -> len buffer < 2 ^ 64 -> numeral false base (- sval a) s ->
  let left := bufferSize - 1 in
  left <= len (shown_in left showBase base) + len s ->
  s_getString cfg n wide upper wfail base a (b0 :: buffer) bufferSize showBase =
    Ok (45 :: shown_in left showBase base ++
        skipn (Z.to_nat (len (shown_in left showBase base) + len s - left)) s ++ 0 :: skipn (Z.to_nat (left + 1)) buffer,
        bufferSize).
Proof.
  intros cfg n wide upper wfail base a b0 buffer bufferSize showBase s W G V Hb Hn HL H64 HS lft Hf. rewrite len_cons in HL.
  unfold s_getString. rewrite G. replace (bufferSize >? 0) with true by (symmetry; rewrite Z.gtb_ltb; apply Z.ltb_lt; lia).
  rewrite (aset_mid [] b0 buffer). cbn [bind app tl firstn]. fold lft.
  unfold sval in HS. rewrite G, Z.opp_involutive in HS.
  rewrite (getString_short_digits cfg n wide upper wfail base (mag a) buffer lft showBase s W V Hb Hn ltac:(lia) H64 HS Hf). cbn [bind]. do 2 f_equal. lia.
Qed.
Print Assumptions C119_digits_dropped.
(** Negative, base 16, char. *)
Theorem C119_narrow_hexadecimal : forall cfg n upper wfail a b0 buffer bufferSize showBase s, wf n (mag a) -> sgn a = SNeg -> bval (mag a) <> 0 -> 1 <= n ->
  3 <= bufferSize <= len (b0 :: buffer) -> len buffer < 2 ^ 62 -> numeral upper 16 (- sval a) s ->
  let left := bufferSize - 1 in let P := len (shown_in left showBase 16) in
  P + len s + 1 <= len buffer ->
  exists r, s_getString cfg n false upper wfail 16 a (b0 :: buffer) bufferSize showBase = Ok (45 :: r, P + len s + 1) /\
    len r = len buffer /\
    forall q, 0 <= q < len buffer -> znth r q =
      if q <? P then znth (shown_in left showBase 16) q
      else if q <? P + len s then short_at left P s q (znth buffer q)
      else if q =? P + len s then 0 else znth buffer q.
Proof.
  intros cfg n upper wfail a b0 buffer bufferSize showBase s W G V Hn HL H62 HS lft P Hf. rewrite len_cons in HL.
  unfold s_getString. rewrite G. replace (bufferSize >? 0) with true by (symmetry; rewrite Z.gtb_ltb; apply Z.ltb_lt; lia).
  rewrite (aset_mid [] b0 buffer). cbn [bind app tl firstn]. fold lft.
  unfold sval in HS. rewrite G, Z.opp_involutive in HS.
  destruct (getString_short_hex cfg n upper wfail (mag a) buffer lft showBase s W V Hn ltac:(lia) H62 HS Hf) as (r & E & L & Q). rewrite E. cbn [bind].
  exists r. split; [reflexivity|]. split; [exact L|]. exact Q.
Qed.
Print Assumptions C119_narrow_hexadecimal.
Example C119_example :
  s_getString cfg0 3 false false nofail 10 (mk_aesi SNeg [12345; 0; 0]) (repeat 7 7) 5 false = Ok ([45; 50; 51; 52; 53; 0; 7], 5) /\
  s_getString cfg0 3 false false nofail 16 (mk_aesi SNeg [591751049; 1; 0]) (repeat 7 12) 5 false = Ok ([45; 49; 50; 51; 0; 7; 7; 7; 7; 7; 0; 7], 10) /\
  s_getString cfg0 3 false false nofail 16 (mk_aesi SZero [0; 0; 0]) (repeat 7 2) 2 true = Ok ([7; 7], 0) /\
  s_getString cfg0 3 false false nofail 10 (mk_aesi SZero [0; 0; 0]) (repeat 7 2) 0 false = Ok ([48; 7], 1).
Proof. repeat match goal with |- _ /\ _ => split end; vm_compute; reflexivity. Qed.
