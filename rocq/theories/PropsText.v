(** * PropsText: text input and output, C32 - C38, C56, C57, C66 - C70.

    Vocabulary (TextSpec.v): [numeral upper base v s]: s is the numeral of v in that base; [string_value alnum s]:
    the integer a string denotes; [shown showBase base]: the prefix text.  Characters are their codes; a character
    buffer is a list; [getString ... buffer bufferSize showBase = Ok (buffer', returned)]. *)
From Verif Require Import TextMore TextWide.
Open Scope Z_scope.

Ltac wfc := apply wfb_wf; vm_compute; reflexivity.
Definition cfg0 := mk_config false false true.
Definition exA : list Z := [4294967295; 0; 1].     (* 2^64 + 2^32 - 1 = 18446744078004518911 = 0x100000000ffffffff *)
Definition ascii_alnum (c : Z) : bool := ((48 <=? c) && (c <=? 57)) || ((65 <=? c) && (c <=? 90)) || ((97 <=? c) && (c <=? 122)).
Lemma ascii_alnum_ok : alnum_ok ascii_alnum.
Proof.
  intros c H. unfold ascii_alnum.
  destruct (Z.leb_spec 48 c), (Z.leb_spec c 57), (Z.leb_spec 65 c), (Z.leb_spec c 90), (Z.leb_spec 97 c), (Z.leb_spec c 122); cbn; auto; lia.
Qed.
Ltac numc l := exists l; split; [vm_compute; reflexivity|]; split; [repeat (apply Forall_cons; [lia|]); apply Forall_nil|];
  split; [vm_compute; reflexivity|right; eexists _, _; split; [reflexivity|discriminate] ].
Definition nofail (b : list Z) (_ : Z) : list Z := b.

(** ** C32 *)
Theorem C32_string_construction : forall n wide alnum s, 0 <= n -> alnum_ok alnum -> Forall (fun c => 0 <= c) s ->
  yields n (from_string n wide alnum s) (string_value alnum s mod modulus n).
Proof. intros. apply from_string_value; auto. Qed.
Print Assumptions C32_string_construction.
Theorem C32_literal_construction : forall n wide alnum s, 0 <= n -> alnum_ok alnum -> alnum 0 = false -> Forall (fun c => 0 <= c) s ->
  yields n (from_literal n wide alnum s) (string_value alnum s mod modulus n).
Proof. intros. apply from_literal_value; auto. Qed.
Print Assumptions C32_literal_construction.
(** In particular: every numeral, decimal or prefixed, is read as its value modulo 2^N. *)
Theorem C32_numerals : forall n wide alnum upper base v s, 0 <= n -> alnum_ok alnum -> 0 <= v < modulus n ->
  (base = 10 -> numeral upper base v s -> yields n (from_string n wide alnum s) v) /\
  (base = 2 \/ base = 8 \/ base = 16 -> numeral upper base v s -> yields n (from_string n wide alnum (prefix_text base ++ s)) v).
Proof.
  intros n wide alnum upper base v s Hn Ha Hv. split.
  - intros -> H. rewrite <- (app_nil_r s). apply (parse_decimal n wide alnum upper); auto.
  - intros Hb H. rewrite <- (app_nil_r s). apply (parse_prefixed n wide alnum upper); auto.
Qed.
Print Assumptions C32_numerals.
(** " 18446744078004518911", "+0x1_FFFFFFFF" and "(0b101)" *)
Example C32_example :
  from_string 3 false ascii_alnum [32; 49; 56; 52; 52; 54; 55; 52; 52; 48; 55; 56; 48; 48; 52; 53; 49; 56; 57; 49; 49] = Ok [4294967295; 0; 1] /\
  string_value ascii_alnum [32; 49; 56; 52; 52; 54; 55; 52; 52; 48; 55; 56; 48; 48; 52; 53; 49; 56; 57; 49; 49] = 18446744078004518911 /\
  from_literal 3 true ascii_alnum [43; 48; 120; 49; 95; 70; 70; 70; 70; 70; 70; 70; 70] = Ok [4294967295; 1; 0] /\
  string_value ascii_alnum [43; 48; 120; 49; 95; 70; 70; 70; 70; 70; 70; 70; 70] = 8589934591 /\
  string_value ascii_alnum [40; 48; 98; 49; 48; 49; 41] = 5.
Proof. conjs; vm_compute; reflexivity. Qed.

(** ** C33 *)
Theorem C33_getString_digits : forall cfg n wide upper wfail base a buffer bufferSize showBase s,
  2 <= n -> wf n a -> bval a <> 0 -> base = 2 \/ base = 8 \/ base = 10 -> numeral false base (bval a) s ->
  len (shown showBase base ++ s) + 1 <= bufferSize -> bufferSize <= len buffer -> bufferSize < 2 ^ 64 ->
  getString cfg n wide upper wfail base a buffer bufferSize showBase =
    Ok ((shown showBase base ++ s ++ [0]) ++ skipn (Z.to_nat (len (shown showBase base ++ s) + 1)) buffer, len (shown showBase base ++ s) + 1).
Proof.
  intros cfg n wide upper wfail base a buffer bufferSize showBase s Hn W V Hb HS Hf HL H64.
  assert (base_ok base) by (unfold base_ok; tauto). apply getString_ok; auto; [lia|].
  replace (base =? 16) with false by (symmetry; apply Z.eqb_neq; destruct Hb as [-> |[-> | ->] ]; lia). rewrite andb_false_r. auto.
Qed.
Print Assumptions C33_getString_digits.
Theorem C33_numeral_exists_unique : forall upper base v, 2 <= base -> 0 <= v ->
  exists s, numeral upper base v s /\ forall t, numeral upper base v t -> t = s.
Proof.
  intros upper base v Hb Hv. destruct (numeral_exists upper base v Hb Hv) as (s & H). exists s. split; auto.
  intros t Ht. exact (numeral_unique upper base v t s Hb Ht H).
Qed.
Print Assumptions C33_numeral_exists_unique.
(** Zero: the prefix (in buffers of more than 3 characters) and "0", without a terminator; sizes below 2 write nothing. *)
Theorem C33_getString_zero : forall cfg n wide upper wfail base a buffer bufferSize showBase, wf n a -> bval a = 0 -> 2 <= bufferSize <= len buffer ->
  let text := shown_in bufferSize showBase base ++ [48] in
  getString cfg n wide upper wfail base a buffer bufferSize showBase = Ok (text ++ skipn (Z.to_nat (len text)) buffer, len text).
Proof. intros. apply getString_zero_ok; auto. Qed.
Print Assumptions C33_getString_zero.
Example C33_example : wf 3 exA /\ numeral false 8 (bval exA) [50; 48; 48; 48; 48; 48; 48; 48; 48; 48; 48; 51; 55; 55; 55; 55; 55; 55; 55; 55; 55; 55] /\
  getString cfg0 3 false false nofail 10 exA (repeat 7 22) 22 true =
    Ok ([49; 56; 52; 52; 54; 55; 52; 52; 48; 55; 56; 48; 48; 52; 53; 49; 56; 57; 49; 49; 0; 7], 21) /\
  getString cfg0 3 false false nofail 2 [5; 0; 0] (repeat 7 8) 8 true = Ok ([48; 98; 49; 48; 49; 0; 7; 7], 6) /\
  getString cfg0 3 true false nofail 8 (zeros 3) (repeat 7 5) 4 true = Ok ([48; 111; 48; 7; 7], 3).
Proof.
  split; [wfc|]. split; [numc [2; 0; 0; 0; 0; 0; 0; 0; 0; 0; 0; 3; 7; 7; 7; 7; 7; 7; 7; 7; 7; 7]|]. conjs; vm_compute; reflexivity.
Qed.

(** ** C34 *)
Theorem C34_getString_hex : forall cfg n wide upper wfail a buffer bufferSize showBase s,
  1 <= n -> wf n a -> bval a <> 0 -> numeral upper 16 (bval a) s ->
  len (shown showBase 16 ++ s) + 1 <= bufferSize -> bufferSize <= len buffer -> bufferSize < 2 ^ 64 ->
  getString cfg n wide upper wfail 16 a buffer bufferSize showBase =
    Ok ((shown showBase 16 ++ s ++ [0]) ++ skipn (Z.to_nat (len (shown showBase 16 ++ s) + 1)) buffer, len (shown showBase 16 ++ s) + 1).
Proof.
  intros cfg n wide upper wfail a buffer bufferSize showBase s Hn W V HS Hf HL H64.
  apply getString_ok; auto; [unfold base_ok; tauto|]. cbn [Z.eqb Pos.eqb]. rewrite andb_true_r. auto.
Qed.
Print Assumptions C34_getString_hex.
Example C34_example : wf 3 exA /\ numeral true 16 (bval exA) [49; 48; 48; 48; 48; 48; 48; 48; 48; 70; 70; 70; 70; 70; 70; 70; 70] /\
  getString cfg0 3 true true nofail 16 exA (repeat 7 21) 21 true =
    Ok ([48; 120; 49; 48; 48; 48; 48; 48; 48; 48; 48; 70; 70; 70; 70; 70; 70; 70; 70; 0; 7], 20).
Proof.
  split; [wfc|]. split; [numc [1; 0; 0; 0; 0; 0; 0; 0; 0; 15; 15; 15; 15; 15; 15; 15; 15]|]. vm_compute; reflexivity.
Qed.

(** ** C35: the full claim ("for any buffer size") is false.  Proved: exactly which calls stay inside a buffer of
    bufferSize characters (char, or any base but 16): those whose text and terminator fit, or that write zero, or do nothing. *)
Theorem C35_getString_in_bounds_partial : forall cfg n wide upper wfail base a buffer bufferSize showBase s, wf n a -> base_ok base ->
  2 <= n \/ base = 16 -> 1 <= n < 2 ^ 59 -> wide = false \/ base <> 16 -> bufferSize < 2 ^ 64 -> bufferSize = len buffer ->
  numeral (upper && (base =? 16)) base (bval a) s ->
  ((exists r, getString cfg n wide upper wfail base a buffer bufferSize showBase = Ok r) <->
   (bufferSize < 2 \/ bval a = 0 \/ len (shown_in bufferSize showBase base ++ s) + 1 <= bufferSize)).
Proof. intros. eapply getString_safe_iff; eauto. Qed.
Print Assumptions C35_getString_in_bounds_partial.
(** wchar_t in base 16: [wfail] is what a failing swprintf leaves in the buffer. *)
Theorem C35_getString_in_bounds_wide_partial : forall cfg n upper wfail a buffer showBase s, wf n a -> 1 <= n -> bval a <> 0 ->
  (forall b p, len (wfail b p) = len b) -> 2 <= len buffer < 2 ^ 64 -> numeral upper 16 (bval a) s ->
  ((exists r, getString cfg n true upper wfail 16 a buffer (len buffer) showBase = Ok r) <->
   wide_hex_safe (len buffer) (len (shown_in (len buffer) showBase 16)) (len s)) /\
  (~ wide_hex_safe (len buffer) (len (shown_in (len buffer) showBase 16)) (len s) ->
   getString cfg n true upper wfail 16 a buffer (len buffer) showBase = Err OutOfBounds).
Proof.
  intros cfg n upper wfail a buffer showBase s W Hn Hv Wf HB HS. destruct (wide_hex_iff cfg n upper wfail a buffer showBase s W Hv Hn Wf HB HS) as [I [D|D] ].
  - split; [exact I|]. intros N. exfalso. apply N, I, D.
  - split; [exact I|]. auto.
Qed.
Print Assumptions C35_getString_in_bounds_wide_partial.
(** Every non-zero number and every buffer that is too small: out-of-bounds write (char, or base 2, 8, 10). *)
Theorem C35_getString_in_bounds_refuted : forall cfg n wide upper wfail base a buffer bufferSize showBase s, wf n a -> base_ok base ->
  2 <= n \/ base = 16 -> 1 <= n < 2 ^ 59 -> wide = false \/ base <> 16 -> bufferSize < 2 ^ 64 -> bufferSize = len buffer ->
  numeral (upper && (base =? 16)) base (bval a) s -> bval a <> 0 -> 2 <= bufferSize <= len s ->
  getString cfg n wide upper wfail base a buffer bufferSize showBase = Err OutOfBounds.
Proof.
  intros. eapply getString_overflow; eauto; [lia|]. rewrite len_app. pose proof (len_nonneg (shown_in bufferSize showBase base)). lia.
Qed.
Print Assumptions C35_getString_in_bounds_refuted.
(** 12345 in a 5-character buffer; and 0x12345 in a 4-character wide buffer, where the NUL goes to buffer[-1]. *)
Example C35_example : getString cfg0 3 false false nofail 10 [12345; 0; 0] (repeat 7 5) 5 false = Err OutOfBounds /\
  getString cfg0 3 false false nofail 16 exA (repeat 7 9) 9 false = Err OutOfBounds /\
  getString cfg0 3 true false nofail 16 [74565; 0; 0] (repeat 7 4) 4 false = Err OutOfBounds /\
  getString cfg0 3 false false nofail 10 [12345; 0; 0] (repeat 7 6) 6 false = Ok ([49; 50; 51; 52; 53; 0], 6) /\
  getString cfg0 3 true false nofail 16 exA (repeat 7 9) 9 false = Ok ([102; 102; 102; 102; 102; 102; 102; 102; 0], 9) /\
  getString cfg0 3 true false nofail 16 exA (repeat 7 3) 3 false = Err OutOfBounds /\
  getString cfg0 3 true false nofail 16 [0; 1; 0] (repeat 7 3) 3 false = Ok ([0; 0; 7], 1).
Proof. conjs; vm_compute; reflexivity. Qed.

(** ** C36 *)
Theorem C36_text_roundtrip : forall cfg n wide wide' upper wfail base alnum a buffer bufferSize showBase, wf n a -> base_ok base ->
  2 <= n \/ base = 16 -> 1 <= n -> base = 10 \/ showBase = true -> alnum_ok alnum -> 32 * n + 3 <= bufferSize <= len buffer -> bufferSize < 2 ^ 64 ->
  exists b k, getString cfg n wide upper wfail base a buffer bufferSize showBase = Ok (b, k) /\
   yields n (from_string n wide' alnum (firstn (Z.to_nat k) b)) (bval a).
Proof. intros. apply roundtrip; auto. Qed.
Print Assumptions C36_text_roundtrip.
Example C36_example : wf 3 exA /\ 32 * 3 + 3 <= 100 <= len (repeat 7 100) /\
   match getString cfg0 3 false true nofail 16 exA (repeat 7 100) 100 true with
   | Ok (b, k) => k = 20 /\ from_string 3 false ascii_alnum (firstn 20 b) = Ok exA | Err _ => False end.
Proof. split; [wfc|]. split; [split; vm_compute; congruence|]. vm_compute. split; reflexivity. Qed.

(** ** C37 *)
Theorem C37_stream_insertion : forall cfg n os a s, wf n a -> width os = 0 -> 32 * n < 2 ^ 53 ->
  (3 <= n \/ (n = 2 /\ os_base os = 10) \/ (1 <= n /\ os_base os = 16)) ->
  numeral (uppercase os && (os_base os =? 16)) (os_base os) (bval a) s ->
  exists os', stream_insert cfg n os a = Ok os' /\ out os' = out os ++ os_shown os ++ s.
Proof.
  intros cfg n os a s W W0 H53 Hn HS. pose proof (bval_bound n _ W) as Bv.
  assert (B2 : 2 <= os_base os <= 16) by (unfold os_base; destruct (basef os); lia).
  destruct (Z.eq_dec (bval a) 0) as [V|V].
  { rewrite stream_zero by auto. eexists. split; [reflexivity|]. cbn [out]. do 2 f_equal.
    apply (numeral_unique (uppercase os && (os_base os =? 16)) (os_base os) (bval a)); auto; [lia|]. exists [0]. rewrite V. conjs; auto. constructor; [lia|auto]. }
  destruct (Z.eq_dec (os_base os) 16) as [B16|N16].
  - rewrite B16 in HS. cbn [Z.eqb Pos.eqb] in HS. rewrite andb_true_r in HS.
    assert (BH : basef os = BHex) by (unfold os_base in B16; destruct (basef os); congruence || lia).
    destruct (stream_hex cfg n os a s) as (f & ad & E & _); auto; [lia|]. eexists. split; [exact E|]. reflexivity.
  - replace (os_base os =? 16) with false in HS by (symmetry; apply Z.eqb_neq; auto). rewrite andb_false_r in HS.
    rewrite (stream_digits cfg n os a s); auto; [eexists; split; reflexivity|lia|].
    destruct Hn as [Hn|[ [-> E10]|[_ E16] ] ]; [| |congruence].
    + pose proof (d295_bs n Hn H53) as D. unfold modulus in Bv. assert (8 <= os_base os) by (unfold os_base in *; destruct (basef os); lia).
      assert (2 ^ (32 * n) <= 2 ^ (3 * stream_buffer_size n)) by (apply Z.pow_le_mono_r; lia). rewrite (Z.pow_mul_r 2 3) in H0 by lia. change (2 ^ 3) with 8 in H0.
      assert (8 ^ stream_buffer_size n <= os_base os ^ stream_buffer_size n) by (apply Z.pow_le_mono_l; lia). lia.
    + rewrite E10. eapply Z.lt_trans; [apply Bv|]. vm_compute. reflexivity.
Qed.
Print Assumptions C37_stream_insertion.
Definition ex_os (bf : basefield) (sb up : bool) : ostream := mk_os [62] bf sb up 32 0 AdjNone.
Example C37_example : wf 3 exA /\ width (ex_os BHex true true) = 0 /\
  stream_insert cfg0 3 (ex_os BHex true true) exA =
    Ok (mk_os [62; 48; 120; 49; 48; 48; 48; 48; 48; 48; 48; 48; 70; 70; 70; 70; 70; 70; 70; 70] BHex false true 48 0 AdjRight) /\
  stream_insert cfg0 3 (ex_os BDec true true) exA =
    Ok (mk_os [62; 49; 56; 52; 52; 54; 55; 52; 52; 48; 55; 56; 48; 48; 52; 53; 49; 56; 57; 49; 49] BDec true true 32 0 AdjNone) /\
  stream_insert cfg0 3 (ex_os BOct true false) [64; 0; 0] = Ok (mk_os [62; 48; 111; 49; 48; 48] BOct false false 32 0 AdjNone).
Proof. split; [wfc|]. conjs; vm_compute; reflexivity. Qed.

(** ** C38: the full claim is false.  Proved: exactly which insertions preserve the format state. *)
Theorem C38_stream_format_partial : forall cfg n os a, wf n a -> width os = 0 -> 32 * n < 2 ^ 53 ->
  (3 <= n \/ (n = 2 /\ os_base os = 10) \/ (1 <= n /\ os_base os = 16)) ->
  ((os_base os = 10 \/ showbase os = false) /\ (os_base os <> 16 \/ bval a < 2 ^ 32 \/ (fillc os = 48 /\ adj os = AdjRight)) <->
   exists os', stream_insert cfg n os a = Ok os' /\ same_format os os').
Proof.
  intros cfg n os a W W0 H53 Hn. pose proof (bval_bound n _ W) as Bv. unfold same_format.
  assert (B2 : 2 <= os_base os <= 16) by (unfold os_base; destruct (basef os); lia).
  assert (SB : (os_base os = 10 \/ showbase os = false) <-> showbase os = (showbase os && (os_base os =? 10))).
  { destruct (Z.eqb_spec (os_base os) 10), (showbase os); cbn; intuition congruence. }
  destruct (Z.eq_dec (bval a) 0) as [V|V].
  { rewrite stream_zero by auto. rewrite SB. split.
    - intros [H _]. eexists. split; [reflexivity|]. cbn [basef showbase uppercase fillc adj]. auto.
    - intros (os' & E & F). injection E as <-. cbn [basef showbase uppercase fillc adj] in F. split; [tauto|]. right; left. lia. }
  destruct (Z.eq_dec (os_base os) 16) as [B16|N16].
  - assert (BH : basef os = BHex) by (unfold os_base in B16; destruct (basef os); congruence || lia).
    destruct (numeral_exists (uppercase os) 16 (bval a)) as (s & HS); [lia|lia|].
    destruct (stream_hex cfg n os a s) as (f & ad & E & F1 & F2); auto; [lia|]. rewrite E. split.
    + intros [H1 H2]. eexists. split; [reflexivity|]. cbn [basef showbase uppercase fillc adj]. conjs; auto.
      * destruct H1 as [H1|H1]; [lia|auto].
      * destruct (Z_lt_le_dec (bval a) (2 ^ 32)) as [L|L]; [symmetry; apply F1; auto|]. destruct H2 as [|[|[Hf _] ] ]; [congruence|lia|]. rewrite Hf. symmetry. apply F2; auto.
      * destruct (Z_lt_le_dec (bval a) (2 ^ 32)) as [L|L]; [symmetry; apply F1; auto|]. destruct H2 as [|[|[_ Hf] ] ]; [congruence|lia|]. rewrite Hf. symmetry. apply F2; auto.
    + intros (os' & E' & F). injection E' as <-. cbn [basef showbase uppercase fillc adj] in F. destruct F as (_ & S & _ & Ff & Fa). split; [auto|].
      right. destruct (Z_lt_le_dec (bval a) (2 ^ 32)) as [L|L]; [auto|right]. destruct (F2 L) as [-> ->]. auto.
  - destruct (numeral_exists false (os_base os) (bval a)) as (s & HS); [lia|lia|].
    assert (HB : bval a < os_base os ^ stream_buffer_size n).
    { destruct Hn as [Hn|[ [-> E10]|[_ E16] ] ]; [| |congruence].
      + pose proof (d295_bs n Hn H53) as D. unfold modulus in Bv. assert (8 <= os_base os) by (unfold os_base in *; destruct (basef os); lia).
        assert (2 ^ (32 * n) <= 2 ^ (3 * stream_buffer_size n)) by (apply Z.pow_le_mono_r; lia). rewrite (Z.pow_mul_r 2 3) in H0 by lia. change (2 ^ 3) with 8 in H0.
        assert (8 ^ stream_buffer_size n <= os_base os ^ stream_buffer_size n) by (apply Z.pow_le_mono_l; lia). lia.
      + rewrite E10. eapply Z.lt_trans; [apply Bv|]. vm_compute. reflexivity. }
    rewrite (stream_digits cfg n os a s) by (auto; lia). rewrite SB. split.
    + intros [H _]. eexists. split; [reflexivity|]. cbn [basef showbase uppercase fillc adj]. auto.
    + intros (os' & E' & F). injection E' as <-. cbn [basef showbase uppercase fillc adj] in F. split; [tauto|auto].
Qed.
Print Assumptions C38_stream_format_partial.
(** showbase is switched off by a hexadecimal or octal insertion; fill and adjustment are overwritten by a multi-block one. *)
Theorem C38_stream_format_refuted :
  (exists cfg n os a os', wf n a /\ width os = 0 /\ stream_insert cfg n os a = Ok os' /\ showbase os = true /\ showbase os' = false) /\
  (exists cfg n os a os', wf n a /\ width os = 0 /\ stream_insert cfg n os a = Ok os' /\ fillc os = 32 /\ fillc os' = 48 /\ adj os = AdjNone /\ adj os' = AdjRight).
Proof.
  split.
  - exists cfg0, 3, (ex_os BOct true false), [64; 0; 0], (mk_os [62; 48; 111; 49; 48; 48] BOct false false 32 0 AdjNone).
    split; [wfc|]. conjs; vm_compute; reflexivity.
  - exists cfg0, 3, (ex_os BHex false false), exA, (mk_os [62; 49; 48; 48; 48; 48; 48; 48; 48; 48; 102; 102; 102; 102; 102; 102; 102; 102] BHex false false 48 0 AdjRight).
    split; [wfc|]. conjs; vm_compute; reflexivity.
Qed.
Print Assumptions C38_stream_format_refuted.

(** ** C56: the returned amount does not count the '-', so the full claim is false for negative numbers; the text is right. *)
Theorem C56_signed_text_partial : forall cfg n wide upper wfail base a buffer bufferSize showBase s,
  1 <= n -> 2 <= n \/ base = 16 -> canon n a -> sval a <> 0 -> base_ok base -> numeral (upper && (base =? 16)) base (Z.abs (sval a)) s ->
  let sign := if sval a <? 0 then [45] else [] in
  len (sign ++ shown showBase base ++ s) + 1 <= bufferSize -> bufferSize <= len buffer -> bufferSize < 2 ^ 64 ->
  exists k, s_getString cfg n wide upper wfail base a buffer bufferSize showBase =
    Ok ((sign ++ shown showBase base ++ s ++ [0]) ++ skipn (Z.to_nat (len (sign ++ shown showBase base ++ s) + 1)) buffer, k) /\
  (0 < sval a -> k = len (sign ++ shown showBase base ++ s) + 1).
Proof.
  intros cfg n wide upper wfail base a buffer bufferSize showBase s Hn Hnb (W & C) V Hb HS sign Hf HL H64.
  pose proof (bval_bound n _ W) as Bv. unfold s_getString, sval in *. destruct (sgn a) eqn:G; [congruence| |].
  - assert (P : bval (mag a) <> 0) by auto. rewrite Z.abs_eq in HS by lia. subst sign. replace (bval (mag a) <? 0) with false in * by (symmetry; apply Z.ltb_ge; lia). cbn [app] in *.
    eexists. split; [apply getString_ok; auto|]. auto.
  - assert (P : bval (mag a) <> 0) by lia. rewrite Z.abs_neq in HS by lia. rewrite Z.opp_involutive in HS.
    subst sign. replace (- bval (mag a) <? 0) with true in * by (symmetry; apply Z.ltb_lt; lia). rewrite len_app in *. change (len [45]) with 1 in *.
    pose proof (len_nonneg (shown showBase base ++ s)). replace (bufferSize >? 0) with true by (symmetry; rewrite Z.gtb_ltb; apply Z.ltb_lt; lia).
    destruct buffer as [|b0 buffer]; [change (len (@nil Z)) with 0 in HL; lia|]. rewrite len_cons in HL.
    rewrite (aset_mid [] b0 buffer). cbn [bind app tl firstn].
    rewrite (getString_ok cfg n wide upper wfail base (mag a) buffer (bufferSize - 1) showBase s) by (auto; lia). cbn [bind].
    eexists. split; [|intros; lia]. f_equal. f_equal. replace (Z.to_nat (1 + len (shown showBase base ++ s) + 1)) with (S (Z.to_nat (len (shown showBase base ++ s) + 1))) by lia.
    cbn [skipn app]. reflexivity.
Qed.
Print Assumptions C56_signed_text_partial.
Theorem C56_signed_text_zero_partial : forall cfg n wide upper wfail base a buffer bufferSize showBase,
  canon n a -> sval a = 0 -> base_ok base -> 3 <= bufferSize <= len buffer ->
  let text := shown showBase base ++ [48] in
  s_getString cfg n wide upper wfail base a buffer bufferSize showBase = Ok (text ++ skipn (Z.to_nat (len text)) buffer, len text).
Proof.
  intros cfg n wide upper wfail base a buffer bufferSize showBase (W & C) V Hb HL text.
  assert (Z0 : sgn a = SZero). { unfold sval in V. destruct (sgn a); auto; apply C; lia. }
  unfold s_getString. rewrite Z0. subst text. change gs_prefix with prefix_text. unfold shown.
  destruct buffer as [|b0 [|b1 [|b2 buffer] ] ]; unfold len in HL; cbn [length] in HL; try lia.
  replace (bufferSize <? 3) with false by (symmetry; apply Z.ltb_ge; lia). replace (bufferSize <? 1) with false by (symmetry; apply Z.ltb_ge; lia).
  assert (A0 : forall t, aset (b0 :: t) 0 48 = Ok (48 :: t)) by (intros; apply (aset_mid [] b0)).
  assert (A1 : forall p, len p = 3 -> set_chars (b0 :: b1 :: b2 :: buffer) 0 p = Ok (p ++ buffer)).
  { intros p Lp. apply (set_chars_app p [] [b0; b1; b2] buffer). rewrite Lp. reflexivity. }
  destruct showBase; [|rewrite A0; reflexivity].
  destruct Hb as [-> |[-> |[-> | ->] ] ]; cbn [Z.eqb Pos.eqb orb]; try (rewrite A1 by reflexivity; reflexivity). rewrite A0. reflexivity.
Qed.
Print Assumptions C56_signed_text_zero_partial.
Theorem C56_signed_stream : forall cfg n os a s, canon n a -> width os = 0 -> 32 * n < 2 ^ 53 ->
  (3 <= n \/ (n = 2 /\ os_base os = 10) \/ (1 <= n /\ os_base os = 16)) ->
  numeral (uppercase os && (os_base os =? 16)) (os_base os) (Z.abs (sval a)) s ->
  exists os', s_stream_insert cfg n os a = Ok os' /\
    out os' = out os ++ (if sval a <? 0 then [45] else []) ++ (if sval a =? 0 then [] else os_shown os) ++ s.
Proof.
  intros cfg n os a s (W & C) W0 H53 Hn HS. pose proof (bval_bound n _ W) as Bv. unfold s_stream_insert, sval in *.
  assert (B2 : 2 <= os_base os <= 16) by (unfold os_base; destruct (basef os); lia).
  destruct (sgn a) eqn:G.
  - eexists. split; [reflexivity|]. rewrite os_put0 by auto. cbn [out]. f_equal.
    apply (numeral_unique (uppercase os && (os_base os =? 16)) (os_base os) 0); auto; [lia|]. exists [0]. conjs; auto. constructor; [lia|auto].
  - assert (bval (mag a) <> 0) by (intros E; apply C in E; congruence). rewrite Z.abs_eq in HS by lia.
    replace (bval (mag a) <? 0) with false by (symmetry; apply Z.ltb_ge; lia). replace (bval (mag a) =? 0) with false by (symmetry; apply Z.eqb_neq; lia).
    apply C37_stream_insertion; auto.
  - assert (bval (mag a) <> 0) by (intros E; apply C in E; congruence). rewrite Z.abs_neq, Z.opp_involutive in HS by lia.
    replace (- bval (mag a) <? 0) with true by (symmetry; apply Z.ltb_lt; lia). replace (- bval (mag a) =? 0) with false by (symmetry; apply Z.eqb_neq; lia).
    rewrite os_put0 by auto. destruct (C37_stream_insertion cfg n (mk_os (out os ++ [45]) (basef os) (showbase os) (uppercase os) (fillc os) 0 (adj os)) (mag a) s) as (os' & E & O); auto.
    exists os'. split; auto. rewrite O. cbn [out]. rewrite <- app_assoc. reflexivity.
Qed.
Print Assumptions C56_signed_stream.
Theorem C56_signed_text_refuted : s_getString cfg0 3 false false nofail 10 (mk_aesi SNeg [42; 0; 0]) (repeat 7 5) 5 false = Ok ([45; 52; 50; 0; 7], 3) /\
  len [45; 52; 50; 0] = 4 /\ canon 3 (mk_aesi SNeg [42; 0; 0]).
Proof.
  split; [vm_compute; reflexivity|]. split; [reflexivity|]. split; cbn [mag sgn]; [wfc|]. split; [discriminate|]. intros H. vm_compute in H. discriminate.
Qed.
Print Assumptions C56_signed_text_refuted.

(** ** C57 *)
Theorem C57_signed_string_construction : forall n wide alnum s, 1 <= n -> alnum_ok alnum -> Forall (fun c => 0 <= c) s ->
  exists r, s_from_string n wide alnum s = Ok r /\ canon n r /\
    sval r = (if odd_dashes s then - (string_value alnum s mod modulus n) else string_value alnum s mod modulus n).
Proof. intros n wide alnum s Hn Ha F. apply s_from_chars_lift. apply from_string_value; auto; lia. Qed.
Print Assumptions C57_signed_string_construction.
Theorem C57_signed_literal_construction : forall n wide alnum s, 1 <= n -> alnum_ok alnum -> alnum 0 = false -> Forall (fun c => 0 <= c) s ->
  exists r, s_from_literal n wide alnum s = Ok r /\ canon n r /\
    sval r = (if odd_dashes s then - (string_value alnum s mod modulus n) else string_value alnum s mod modulus n).
Proof.
  intros n wide alnum s Hn Ha A0 F. pose proof (from_literal_value n wide alnum s ltac:(lia) Ha A0 F) as Y. unfold from_literal, s_from_literal in *.
  replace (len s + 1) with (len (s ++ [0])) in * by (rewrite len_app; reflexivity).
  replace (odd_dashes s) with (odd_dashes (s ++ [0])). { apply s_from_chars_lift. exact Y. }
  unfold odd_dashes. rewrite count_occ_app. cbn [count_occ]. destruct (Z.eq_dec 0 45); [lia|]. rewrite Nat.add_0_r. reflexivity.
Qed.
Print Assumptions C57_signed_literal_construction.
(** "-0x10" and "--5" *)
Example C57_example : s_from_string 2 false ascii_alnum [45; 48; 120; 49; 48] = Ok (mk_aesi SNeg [16; 0]) /\
  s_from_literal 2 false ascii_alnum [45; 45; 53] = Ok (mk_aesi SPos [5; 0]) /\ s_from_literal 2 false ascii_alnum [45; 48] = Ok (mk_aesi SZero [0; 0]).
Proof. conjs; vm_compute; reflexivity. Qed.

(** ** C66: widths.  The class accepts 32 bits; several functions read blocks[1] and need 64; octal stream output needs 96. *)
Theorem C66_every_width_partial : forall n a, 2 <= n -> wf n a ->
  (forall t, exists v, integralCast t a = Ok v) /\
  (forall u, 0 <= u < 2 ^ 64 -> (exists c, compareTo_u64 n a u = Ok c) /\ (exists e, op_eq_u64 n a u = Ok e)) /\
  (forall cfg wide upper wfail showBase buffer, 32 * n + 3 <= len buffer < 2 ^ 64 ->
     exists r, getString cfg n wide upper wfail 10 a buffer (len buffer) showBase = Ok r) /\
  (forall cfg os, width os = 0 -> os_base os = 10 -> 32 * n < 2 ^ 53 -> exists os', stream_insert cfg n os a = Ok os').
Proof.
  intros n a Hn W. pose proof (bval_bound n _ W) as Bv. conjs.
  - intros t. rewrite (integralCast_spec t n) by auto. eauto.
  - intros u Hu. split; [rewrite compareTo_u64_spec by auto|rewrite op_eq_u64_spec by auto]; eauto.
  - intros cfg wide upper wfail showBase buffer HL.
    destruct (roundtrip cfg n wide wide upper wfail 10 ascii_alnum a buffer (len buffer) showBase) as (b & k & E & _); auto; try lia; [unfold base_ok; tauto|apply ascii_alnum_ok|]. eauto.
  - intros cfg os W0 B10 H53. destruct (numeral_exists (uppercase os && (os_base os =? 16)) (os_base os) (bval a)) as (s & HS); [lia|lia|].
    destruct (C37_stream_insertion cfg n os a s) as (os' & E & _); auto; [|eauto]. destruct (Z.eq_dec n 2); [right; left; auto|left; lia].
Qed.
Print Assumptions C66_every_width_partial.
Theorem C66_every_width_refuted : forall a t u, wf 1 a ->
  integralCast t a = Err OutOfBounds /\ compareTo_u64 1 a u = Err OutOfBounds /\ op_eq_u64 1 a u = Err OutOfBounds /\
  (forall cfg wide upper wfail showBase buffer, bval a <> 0 -> 2 <= len buffer -> getString cfg 1 wide upper wfail 10 a buffer (len buffer) showBase = Err OutOfBounds).
Proof.
  intros a t u W. pose proof (wf_len _ _ W) as L. destruct a as [|x [|y a] ]; unfold len in L; cbn [length] in L; try lia.
  conjs.
  - apply integralCast_n1; auto.
  - apply compareTo_u64_n1; auto.
  - apply op_eq_u64_n1; auto.
  - intros cfg wide upper wfail showBase buffer V HL. unfold getString.
    replace (len buffer <? 2) with false by (symmetry; apply Z.ltb_ge; lia).
    assert (PRE : exists b, (if showBase && (len buffer >? 3) then b <- set_chars buffer 0 (gs_prefix 10) ;; Ok (b, len (gs_prefix 10)) else Ok (buffer, 0)) = Ok (b, 0)).
    { change (gs_prefix 10) with (@nil Z). destruct (showBase && (len buffer >? 3)); eexists; reflexivity. }
    destruct PRE as (b & ->). cbn [bind]. rewrite isZero_spec by auto. replace (bval [x] =? 0) with false by (symmetry; apply Z.eqb_neq; auto). cbn [bind Z.eqb Pos.eqb].
    unfold digit_loop, forUx. rewrite Z.sub_0_r. destruct (Z.to_nat (len buffer)) eqn:EL; [lia|]. cbn [loopUx].
    rewrite isZero_spec by auto. replace (bval [x] =? 0) with false by (symmetry; apply Z.eqb_neq; auto). cbn [bind].
    destruct (from_unsigned_correct 1 (zeros 1) 10) as (d & -> & Wd & Bd); [lia|reflexivity|lia|]. cbn [bind].
    destruct (divide_spec cfg 1 [x] d) as (q & r & -> & Wq & Wr & _); auto; [lia|]. cbn [bind].
    unfold integralCast. assert (Lr : len r = 1) by apply (wf_len _ _ Wr). rewrite (aget_err r 1) by lia. reflexivity.
Qed.
Print Assumptions C66_every_width_refuted.
(** 2^63 should print as 1 followed by 21 zeros *)
Theorem C66_octal64_refuted : exists cfg os a os', wf 2 a /\ bval a = 2 ^ 63 /\ os_base os = 8 /\ width os = 0 /\
  stream_insert cfg 2 os a = Ok os' /\ out os' = out os ++ repeat 48 21.
Proof.
  exists cfg0, (ex_os BOct false false), [0; 2147483648], (mk_os (62 :: repeat 48 21) BOct false false 32 0 AdjNone).
  split; [wfc|]. conjs; vm_compute; reflexivity.
Qed.
Print Assumptions C66_octal64_refuted.
