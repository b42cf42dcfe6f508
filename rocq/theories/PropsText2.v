(** * PropsText2: more about text: C67 - C71. *)
From Verif Require Import TextWidth TextWide AesiFacts.
Open Scope Z_scope.

Ltac wfc := apply wfb_wf; vm_compute; reflexivity.
Definition cfg0 := mk_config false false true.
Definition exA : list Z := [4294967295; 0; 1].     (* 18446744078004518911 = 0x100000000ffffffff *)
Definition ascii_alnum (c : Z) : bool := ((48 <=? c) && (c <=? 57)) || ((65 <=? c) && (c <=? 90)) || ((97 <=? c) && (c <=? 122)).
Definition nofail (b : list Z) (_ : Z) : list Z := b.
Ltac numc l := exists l; split; [vm_compute; reflexivity|]; split; [repeat (apply Forall_cons; [lia|]); apply Forall_nil|];
  split; [vm_compute; reflexivity|right; eexists _, _; split; [reflexivity|discriminate] ].

(** ** C67: with a field width set (std::setw), built-in numbers are padded as a whole.  Here only the first piece of text
    is padded.  Proved: exactly what is printed, and exactly when it is the padded number. *)
Theorem C67_field_width_partial : forall cfg n os a s, wf n a -> 32 * n < 2 ^ 53 ->
  (3 <= n \/ (n = 2 /\ os_base os = 10) \/ (1 <= n /\ os_base os = 16)) ->
  numeral (uppercase os && (os_base os =? 16)) (os_base os) (bval a) s ->
  let text := os_shown os ++ s in
  exists os', stream_insert cfg n os a = Ok os' /\ width os' = 0 /\
    out os' = out os ++ field os (first_piece os s) ++ skipn (length (first_piece os s)) text /\
    (out os' = out os ++ field os text <-> width os <= len (first_piece os s) \/ first_piece os s = text).
Proof.
  intros cfg n os a s W H53 HW HS text. destruct (stream_width cfg n os a s W H53 HW HS) as (os' & E & W0 & O). exists os'. conjs; auto.
  assert (P : first_piece os s ++ skipn (length (first_piece os s)) text = text).
  { unfold text, first_piece. destruct (0 <? len (os_shown os)) eqn:G.
    - rewrite skipn_app, skipn_all, Nat.sub_diag. reflexivity.
    - assert (os_shown os = []) as ->. { apply Z.ltb_ge in G. destruct (os_shown os) as [|x l]; auto. rewrite len_cons in G. pose proof (len_nonneg l). lia. }
      cbn [app]. assert (F1 : forall k, firstn k s ++ skipn (length (firstn k s)) s = s).
      { intros k. rewrite firstn_length. destruct (Nat.le_ge_cases k (length s)).
        - rewrite Nat.min_l by auto. apply firstn_skipn.
        - rewrite Nat.min_r by auto. rewrite firstn_all2, skipn_all by auto. apply app_nil_r. }
      destruct (os_base os =? 16); apply F1. }
  set (p := first_piece os s) in *. set (r := skipn (length p) text) in *. fold text in O. fold r in O. rewrite O. rewrite <- P.
  assert (FL : forall t, len (field os t) = Z.max (width os) (len t)).
  { intros t. unfold field, len. destruct (adj os); rewrite app_length, repeat_length; lia. }
  split.
  - intros Q. apply app_inv_head in Q. pose proof (f_equal len Q) as QL. rewrite len_app, !FL, len_app in QL. pose proof (len_nonneg p). pose proof (len_nonneg r).
    destruct (Z_le_gt_dec (width os) (len p)); auto. right. assert (len r = 0) by lia. destruct r; [symmetry; apply app_nil_r|unfold len in *; cbn [length] in *; lia].
  - intros [Q|Q].
    + rewrite field0 by auto. rewrite field0 by (rewrite len_app; pose proof (len_nonneg r); lia). reflexivity.
    + assert (RE : r = []). { pose proof (f_equal len Q) as PL. rewrite len_app in PL. pose proof (len_nonneg r). destruct r as [|x l]; auto. rewrite len_cons in PL. pose proof (len_nonneg l). lia. }
      rewrite RE, !app_nil_r. reflexivity.
Qed.
Print Assumptions C67_field_width_partial.
(** std::setw(5) << 42 prints "    42": four blanks too many in front of the 2. *)
Theorem C67_field_width_refuted : exists os os', width os = 5 /\ adj os = AdjNone /\ stream_insert cfg0 3 os [42; 0; 0] = Ok os' /\
  field os [52; 50] = [32; 32; 32; 52; 50] /\ out os' = out os ++ [32; 32; 32; 32; 52; 50].
Proof.
  exists (mk_os [62] BDec false false 32 5 AdjNone), (mk_os [62; 32; 32; 32; 32; 52; 50] BDec false false 32 0 AdjNone).
  conjs; vm_compute; reflexivity.
Qed.
Print Assumptions C67_field_width_refuted.
(** left-adjusted: "4   2"; a one-digit decimal and a hexadecimal of one block are padded correctly *)
Example C67_example :
  stream_insert cfg0 3 (mk_os [62] BDec false false 46 4 AdjLeft) [42; 0; 0] = Ok (mk_os [62; 52; 46; 46; 46; 50] BDec false false 46 0 AdjLeft) /\
  stream_insert cfg0 3 (mk_os [62] BDec false false 46 4 AdjLeft) [7; 0; 0] = Ok (mk_os [62; 55; 46; 46; 46] BDec false false 46 0 AdjLeft) /\
  stream_insert cfg0 3 (mk_os [62] BHex false false 46 4 AdjNone) [42; 0; 0] = Ok (mk_os [62; 46; 46; 50; 97] BHex false false 46 0 AdjNone).
Proof. conjs; vm_compute; reflexivity. Qed.

(** ** C68: construction from any char string.  Exactly the strings in which a char below -1 comes before the first
    alphanumeric character have undefined behaviour (std::isalnum on a negative value). *)
Definition plain_alnum (alnum : Z -> bool) (c : Z) : bool := (0 <=? c) && alnum c.
Theorem C68_char_strings_partial : forall n alnum s, 0 <= n -> alnum_ok alnum ->
  (yields n (from_string n false alnum s) (string_value (plain_alnum alnum) s mod modulus n) /\
   ~ exists pre c body, s = pre ++ c :: body /\ Forall (fun x => plain_alnum alnum x = false) pre /\ c < -1) \/
  (from_string n false alnum s = Err CtypeRange /\
   exists pre c body, s = pre ++ c :: body /\ Forall (fun x => plain_alnum alnum x = false) pre /\ c < -1).
Proof.
  intros n alnum s Hn Ha. pose proof (modulus_pos n Hn) as Mp.
  destruct (numeral_part_split (plain_alnum alnum) s) as (pre & E & Fp & H). unfold string_value.
  set (body := numeral_part (plain_alnum alnum) s) in *. clearbody body.
  assert (D : Forall (fun c => -1 <= c) pre \/ exists p c t, pre = p ++ c :: t /\ Forall (fun c => -1 <= c) p /\ c < -1).
  { clear. induction pre as [|c pre IH]; [left; constructor|]. destruct (Z_lt_le_dec c (-1)) as [L|L].
    - right. exists [], c, pre. auto.
    - destruct IH as [IH|(p & d & t & -> & F & Hd)]; [left; constructor; auto|right; exists (c :: p), d, t; auto]. }
  assert (SKP : forall p, Forall (fun c => plain_alnum alnum c = false) p -> Forall (fun c => -1 <= c) p -> Forall (skippable false alnum) p).
  { intros p F1 F2. apply Forall_forall. intros c Hc. rewrite Forall_forall in F1, F2. specialize (F1 c Hc). specialize (F2 c Hc). unfold skippable, plain_alnum in *.
    destruct (Z.leb_spec 0 c); [right; auto|left; lia]. }
  destruct D as [D|(p & c & t & -> & D & Hc)].
  - left. pose proof (SKP pre Fp D) as SK. subst s. split.
    + destruct H as [-> |(c & t & -> & Hc)].
      * rewrite app_nil_r. unfold from_string. rewrite from_string_blank by auto. apply yields_ok; [apply wf_zeros; auto|]. rewrite bval_zeros. change (0 = 0 mod modulus n). rewrite Z.mod_0_l; lia.
      * unfold plain_alnum in Hc. apply andb_prop in Hc. destruct Hc as [Hc0 Hc]. apply Z.leb_le in Hc0. unfold from_string. destruct (Z.eq_dec c 48) as [-> | N].
        -- destruct t as [|d rest]; [apply from_string_decimal; auto; intros _ d rest E; inversion E|].
           destruct (prefix_base d) as [b|] eqn:P; [apply from_string_prefixed; auto|].
           apply from_string_decimal; auto. intros _ d' rest' E. inversion E; subst. auto.
        -- assert (M : match c :: t with
             | 48 :: c0 :: rest => match prefix_base c0 with Some base => dvalue base (digits_in base rest) | None => dvalue 10 (digits_in 10 (48 :: c0 :: rest)) end
             | body => dvalue 10 (digits_in 10 body) end = dvalue 10 (digits_in 10 (c :: t))).
           { destruct c as [|p|p]; try reflexivity. do 6 (destruct p as [p|p|]; try reflexivity). congruence. }
           rewrite M. apply from_string_decimal; auto. congruence.
    + intros (p & c & t & E & F & Hc). (* the offending character cannot be in pre, nor after the first alphanumeric *)
      assert (NA : plain_alnum alnum c = false) by (unfold plain_alnum; replace (0 <=? c) with false by (symmetry; apply Z.leb_gt; lia); reflexivity).
      revert pre D Fp SK E. clear -H F Hc NA. induction p as [|x p IH]; intros pre D Fp SK E.
      * destruct pre as [|y pre]; cbn [app] in E.
        -- destruct H as [-> |(d & u & -> & Hd)]; [discriminate|]. injection E as -> ->. congruence.
        -- injection E as -> _. inversion D; subst; lia.
      * destruct pre as [|y pre]; cbn [app] in E.
        -- destruct H as [-> |(d & u & -> & Hd)]; [discriminate|]. injection E as -> ->. inversion F; subst. congruence.
        -- injection E as -> E. inversion F; subst. inversion D; inversion Fp; inversion SK; subst. apply (IH H3 pre); auto.
  - right. split.
    + subst s. unfold from_string. rewrite <- app_assoc. cbn [app]. apply from_chars_ub; auto. apply SKP; auto. apply Forall_app in Fp. tauto.
    + exists p, c, (t ++ body). rewrite E, <- app_assoc. apply Forall_app in Fp. conjs; auto; tauto.
Qed.
Print Assumptions C68_char_strings_partial.
(** A UTF-8 encoded no-break space (C2 A0) in front of "5". *)
Theorem C68_char_strings_refuted : from_string 3 false ascii_alnum [-62; -96; 53] = Err CtypeRange /\ from_string 3 false ascii_alnum [53; -62; -96] = Ok [5; 0; 0].
Proof. conjs; vm_compute; reflexivity. Qed.
Print Assumptions C68_char_strings_refuted.

(** ** C69: getString terminates its output with NUL.  True for every non-zero number that fits; false for zero. *)
Theorem C69_nul_terminated_partial : forall cfg n wide upper wfail base a buffer bufferSize showBase s,
  1 <= n -> 2 <= n \/ base = 16 -> wf n a -> bval a <> 0 -> base_ok base -> numeral (upper && (base =? 16)) base (bval a) s ->
  len (shown showBase base ++ s) + 1 <= bufferSize -> bufferSize <= len buffer -> bufferSize < 2 ^ 64 ->
  exists b k, getString cfg n wide upper wfail base a buffer bufferSize showBase = Ok (b, k) /\ 1 <= k <= bufferSize /\ nth (Z.to_nat (k - 1)) b 7 = 0 /\
    Forall (fun c => c <> 0) (firstn (Z.to_nat (k - 1)) b).
Proof.
  intros cfg n wide upper wfail base a buffer bufferSize showBase s Hn Hb W V Hbo HS L1 L2 L3.
  rewrite (getString_ok cfg n wide upper wfail base a buffer bufferSize showBase s) by auto.
  set (t := shown showBase base ++ s) in *. eexists _, _. split; [reflexivity|]. pose proof (len_nonneg t). split; [lia|].
  replace (len t + 1 - 1) with (len t) by lia. assert (E : shown showBase base ++ s ++ [0] = t ++ [0]) by (unfold t; rewrite app_assoc; auto). rewrite E, <- app_assoc. split.
  - unfold len. rewrite Nat2Z.id. rewrite app_nth2, Nat.sub_diag by lia. reflexivity.
  - rewrite firstn_app_len by auto. unfold t. apply Forall_app. split.
    + unfold shown, prefix_text. destruct showBase; [|constructor]. destruct (base =? 2); [|destruct (base =? 8); [|destruct (base =? 16)] ]; repeat constructor; discriminate.
    + destruct HS as (ds & -> & F & _). apply Forall_map. eapply Forall_impl; [|exact F]. intros d Hd. cbv beta in Hd. unfold digit_char.
      destruct (Z.ltb_spec d 10); [lia|]. destruct (upper && (base =? 16)); lia.
Qed.
Print Assumptions C69_nul_terminated_partial.
(** Zero: whatever followed in the buffer stays: "0" then the previous content. *)
Theorem C69_nul_terminated_refuted : forall cfg n wide upper wfail base a buffer bufferSize, wf n a -> bval a = 0 -> 2 <= bufferSize <= len buffer ->
  getString cfg n wide upper wfail base a buffer bufferSize false = Ok (48 :: tl buffer, 1).
Proof.
  intros cfg n wide upper wfail base a buffer bufferSize W V HL. rewrite getString_zero_ok by auto. unfold shown_in. cbn [andb app].
  change (len [48]) with 1. change (Z.to_nat 1) with 1%nat. destruct buffer; reflexivity.
Qed.
Print Assumptions C69_nul_terminated_refuted.
Example C69_example : getString cfg0 3 false false nofail 10 (zeros 3) [55; 55; 55; 55] 4 false = Ok ([48; 55; 55; 55], 1).
Proof. vm_compute; reflexivity. Qed.

(** ** C70: signed getString and the end of the buffer: exactly when it stays inside (char, or bases 2, 8, 10). *)
Theorem C70_signed_in_bounds_partial : forall cfg n wide upper wfail base a buffer showBase s, canon n a -> base_ok base ->
  2 <= n \/ base = 16 -> 1 <= n < 2 ^ 59 -> wide = false \/ base <> 16 -> len buffer < 2 ^ 64 ->
  numeral (upper && (base =? 16)) base (Z.abs (sval a)) s ->
  let size := len buffer in let left := if sval a <? 0 then size - 1 else size in
  ((exists r, s_getString cfg n wide upper wfail base a buffer size showBase = Ok r) <->
   if sval a =? 0 then showBase = true \/ 1 <= size
   else left < 2 \/ len (shown_in left showBase base ++ s) + 1 <= left).
Proof.
  intros cfg n wide upper wfail base a buffer showBase s [W C] Hbo Hb Hn Hw H64 HS size lft. pose proof (bval_bound n _ W) as Bv. pose proof (len_nonneg buffer) as LB.
  unfold s_getString, sval in *. destruct a as [sg m]. cbn [sgn mag] in *. destruct sg.
  - cbn [Z.eqb]. destruct buffer as [|b0 [|b1 [|b2 buffer] ] ].
    + subst size. change (len (@nil Z)) with 0 in *. destruct showBase.
      * split; [auto|intros _]. destruct ((base =? 2) || (base =? 8) || (base =? 16)); eexists; reflexivity.
      * split; [|intros [|]; [discriminate|lia] ]. intros (r & E). discriminate.
    + split; [intros _; right; unfold size, len; cbn [length]; lia|intros _]. subst size. change (len [b0]) with 1. destruct showBase; [|eexists; reflexivity].
      destruct ((base =? 2) || (base =? 8) || (base =? 16)); eexists; reflexivity.
    + split; [intros _; right; unfold size, len; cbn [length]; lia|intros _]. subst size. change (len [b0; b1]) with 2. destruct showBase; [|eexists; reflexivity].
      destruct ((base =? 2) || (base =? 8) || (base =? 16)); eexists; reflexivity.
    + split; [intros _; right; unfold size, len; cbn [length]; lia|intros _].
      assert (3 <= size) by (unfold size, len; cbn [length]; lia).
      replace (size <? 3) with false by (symmetry; apply Z.ltb_ge; lia). replace (size <? 1) with false by (symmetry; apply Z.ltb_ge; lia).
      assert (A1 : forall v, aset (b0 :: b1 :: b2 :: buffer) 0 v = Ok (v :: b1 :: b2 :: buffer)) by (intros v; rewrite aset_ok by (fold size; lia); reflexivity).
      destruct showBase; [|rewrite A1; eexists; reflexivity]. destruct Hbo as [-> |[-> |[-> | ->] ] ]; cbn [Z.eqb Pos.eqb orb gs_prefix]; try (rewrite A1; eexists; reflexivity).
      all: cbn [gs_prefix Z.eqb Pos.eqb app set_chars]; rewrite A1; cbn [bind]; change (0 + 1) with 1; rewrite aset_ok by (unfold size, len in *; cbn [length] in *; lia); cbn [bind];
        rewrite aset_ok by (rewrite len_upd; unfold size, len in *; cbn [length] in *; lia); cbn [bind]; eexists; reflexivity.
  - assert (V : bval m <> 0) by (intros E; apply C in E; discriminate). subst lft size. replace (bval m <? 0) with false in * by (symmetry; apply Z.ltb_ge; lia).
    replace (bval m =? 0) with false by (symmetry; apply Z.eqb_neq; auto). rewrite Z.abs_eq in HS by lia.
    pose proof (getString_safe_iff cfg n wide upper wfail base m buffer (len buffer) showBase s W Hbo Hb Hn Hw ltac:(lia) eq_refl HS) as SI. tauto.
  - assert (V : bval m <> 0) by (intros E; apply C in E; discriminate). subst lft size. replace (- bval m <? 0) with true in * by (symmetry; apply Z.ltb_lt; lia).
    replace (- bval m =? 0) with false by (symmetry; apply Z.eqb_neq; lia). rewrite Z.abs_neq, Z.opp_involutive in HS by lia.
    destruct buffer as [|b0 buffer].
    + change (len (@nil Z)) with 0. cbn [Z.gtb Z.compare]. split; [intros _; left; lia|intros _]. rewrite getString_tiny by lia. eauto.
    + rewrite len_cons in *. pose proof (len_nonneg buffer). replace (1 + len buffer >? 0) with true by (symmetry; rewrite Z.gtb_ltb; apply Z.ltb_lt; lia).
      rewrite aset_ok by (rewrite len_cons; lia). cbn [bind tl upd Z.to_nat]. replace (1 + len buffer - 1) with (len buffer) by lia.
      pose proof (getString_safe_iff cfg n wide upper wfail base m buffer (len buffer) showBase s W Hbo Hb Hn Hw ltac:(lia) eq_refl HS) as SI.
      split.
      * intros (r & E). destruct (getString cfg n wide upper wfail base m buffer (len buffer) showBase) as [ [b k]|f] eqn:G; [|discriminate].
        assert (X : exists r, @Ok (list Z * Z) (b, k) = Ok r) by eauto. apply SI in X. tauto.
      * intros X. assert (Y : exists r, getString cfg n wide upper wfail base m buffer (len buffer) showBase = Ok r) by (apply SI; tauto).
        destruct Y as ([b k] & ->). eexists. reflexivity.
Qed.
Print Assumptions C70_signed_in_bounds_partial.
(** wchar_t in base 16. *)
Theorem C70_signed_in_bounds_wide_partial : forall cfg n upper wfail a buffer showBase s, canon n a -> 1 <= n -> sval a <> 0 -> len buffer < 2 ^ 64 ->
  (forall b p, len (wfail b p) = len b) -> numeral upper 16 (Z.abs (sval a)) s ->
  let left := if sval a <? 0 then len buffer - 1 else len buffer in
  ((exists r, s_getString cfg n true upper wfail 16 a buffer (len buffer) showBase = Ok r) <->
   left < 2 \/ wide_hex_safe left (len (shown_in left showBase 16)) (len s)).
Proof.
  intros cfg n upper wfail a buffer showBase s [W C] Hn V0 H64 Wf HS lft. pose proof (bval_bound n _ W) as Bv. pose proof (len_nonneg buffer) as LB.
  assert (SI : forall m b, wf n m -> bval m <> 0 -> len b < 2 ^ 64 -> numeral upper 16 (bval m) s ->
    ((exists r, getString cfg n true upper wfail 16 m b (len b) showBase = Ok r) <-> len b < 2 \/ wide_hex_safe (len b) (len (shown_in (len b) showBase 16)) (len s))).
  { intros m b Wm Vm Lb HSm. destruct (Z_lt_le_dec (len b) 2) as [T|T].
    - rewrite getString_tiny by lia. split; [auto|eauto].
    - destruct (wide_hex_iff cfg n upper wfail m b showBase s Wm Vm Hn Wf ltac:(lia) HSm) as [I _]. split; intros H; [right; apply I, H|apply I; destruct H; [lia|auto] ]. }
  unfold s_getString, sval in *. destruct a as [sg m]. cbn [sgn mag] in *. destruct sg; [lia| |].
  - subst lft. replace (bval m <? 0) with false in * by (symmetry; apply Z.ltb_ge; lia). rewrite Z.abs_eq in HS by lia. apply SI; auto.
  - subst lft. replace (- bval m <? 0) with true in * by (symmetry; apply Z.ltb_lt; lia). rewrite Z.abs_neq, Z.opp_involutive in HS by lia.
    destruct buffer as [|b0 buffer].
    + change (len (@nil Z)) with 0. cbn [Z.gtb Z.compare]. split; [intros _; left; lia|intros _]. rewrite getString_tiny by lia. eauto.
    + rewrite len_cons in *. pose proof (len_nonneg buffer). replace (1 + len buffer >? 0) with true by (symmetry; rewrite Z.gtb_ltb; apply Z.ltb_lt; lia).
      rewrite aset_ok by (rewrite len_cons; lia). cbn [bind tl upd Z.to_nat]. replace (1 + len buffer - 1) with (len buffer) by lia.
      rewrite <- (SI m buffer) by (auto; lia). split.
      * intros (r & E). destruct (getString cfg n true upper wfail 16 m buffer (len buffer) showBase) as [r'|f] eqn:G; [eauto|discriminate].
      * intros ([b k] & ->). eexists. reflexivity.
Qed.
Print Assumptions C70_signed_in_bounds_wide_partial.
(** Zero into a zero-sized buffer without showBase writes one character. *)
Theorem C70_signed_in_bounds_refuted : forall cfg n wide upper wfail base m,
  s_getString cfg n wide upper wfail base (mk_aesi SZero m) [] 0 false = Err OutOfBounds.
Proof. reflexivity. Qed.
Print Assumptions C70_signed_in_bounds_refuted.
Example C70_example : s_getString cfg0 3 false false nofail 10 (mk_aesi SNeg [42; 0; 0]) [7; 7; 7; 7] 4 false = Ok ([45; 52; 50; 0], 3) /\
  s_getString cfg0 3 false false nofail 10 (mk_aesi SNeg [42; 0; 0]) [7; 7; 7] 3 false = Err OutOfBounds /\
  s_getString cfg0 3 false false nofail 10 (mk_aesi SZero [0; 0; 0]) [7; 7; 7] 3 false = Ok ([48; 7; 7], 1) /\
  s_getString cfg0 3 true false nofail 16 (mk_aesi SNeg [74565; 0; 0]) [7; 7; 7; 7; 7; 7] 6 false = Err OutOfBounds /\
  s_getString cfg0 3 true false nofail 16 (mk_aesi SNeg [74565; 0; 0]) [7; 7; 7; 7; 7; 7; 7] 7 false = Ok ([45; 49; 50; 51; 52; 53; 0], 6).
Proof. conjs; vm_compute; reflexivity. Qed.

(** ** C71: a signed number printed by getString and read back is the same number. *)
Lemma no_dash upper base v s showBase : numeral upper base v s -> base <= 16 -> Forall (fun c => 0 <= c /\ c <> 45) (shown showBase base ++ s).
Proof.
  intros (ds & -> & F & _) Hb. apply Forall_app. split.
  - unfold shown, prefix_text. destruct showBase; [|constructor]. destruct (base =? 2); [|destruct (base =? 8); [|destruct (base =? 16)] ]; repeat constructor; lia.
  - apply Forall_map. eapply Forall_impl; [|exact F]. intros d Hd. cbv beta in Hd. unfold digit_char. destruct (Z.ltb_spec d 10); [lia|]. destruct upper; lia.
Qed.
Lemma odd_dashes_none s : Forall (fun c => 0 <= c /\ c <> 45) s -> odd_dashes s = false /\ odd_dashes (45 :: s) = true.
Proof.
  intros F. assert (E : count_occ Z.eq_dec s 45 = O). { apply count_occ_not_In. intros I. rewrite Forall_forall in F. destruct (F _ I). congruence. }
  unfold odd_dashes. cbn [count_occ]. destruct (Z.eq_dec 45 45); [|congruence]. rewrite E. auto.
Qed.

Theorem C71_signed_text_roundtrip : forall cfg n wide wide' upper wfail base alnum a buffer bufferSize showBase, canon n a -> base_ok base ->
  2 <= n \/ base = 16 -> 1 <= n -> base = 10 \/ showBase = true -> alnum_ok alnum -> alnum 45 = false -> 32 * n + 4 <= bufferSize <= len buffer -> bufferSize < 2 ^ 64 ->
  exists b k r, s_getString cfg n wide upper wfail base a buffer bufferSize showBase = Ok (b, k) /\
   s_from_string n wide' alnum (firstn (Z.to_nat k) b) = Ok r /\ canon n r /\ sval r = sval a.
Proof.
  intros cfg n wide wide' upper wfail base alnum a buffer bufferSize showBase [W C] Hb Hnb Hn Hs Ha A45 HB H64. pose proof (bval_bound n _ W) as Bv.
  assert (B2 : 2 <= base <= 16) by (destruct Hb as [-> |[-> |[-> | ->] ] ]; lia).
  destruct (numeral_exists (upper && (base =? 16)) base (bval (mag a))) as (s & HS); [lia|lia|].
  pose proof (numeral_len_bound n _ base _ s ltac:(lia) ltac:(lia) Bv HS) as LS. pose proof (prefix_text_len base) as PL.
  assert (SB : shown showBase base = prefix_text base). { destruct Hs as [-> | ->]; [destruct showBase|]; reflexivity. }
  pose proof (no_dash _ base _ s showBase HS ltac:(lia)) as ND.
  assert (P : forall t, t = [] \/ t = [0] -> yields n (from_string n wide' alnum (prefix_text base ++ s ++ t)) (bval (mag a))).
  { intros t Ht. destruct (Z.eq_dec base 10) as [E10| N10].
    - subst base. change (prefix_text 10) with (@nil Z). cbn [app]. eapply parse_decimal; eauto; lia.
    - eapply parse_prefixed; eauto; [lia|]. destruct Hb as [|[|[|] ] ]; auto. congruence. }
  unfold s_getString. destruct (sgn a) eqn:SG.
  - (* zero *)
    assert (V : bval (mag a) = 0) by (apply C; auto).
    assert (Es : s = [48]). { apply (numeral_unique (upper && (base =? 16)) base (bval (mag a))); auto; [lia|]. exists [0]. rewrite V. conjs; auto. constructor; [lia|auto]. }
    assert (T : exists b k, (if showBase then if (base =? 2) || (base =? 8) || (base =? 16) then if bufferSize <? 3 then Ok (buffer, 0)
          else b <- set_chars buffer 0 (gs_prefix base ++ [48]) ;; Ok (b, 3) else if bufferSize <? 1 then Ok (buffer, 0) else b <- aset buffer 0 48 ;; Ok (b, 1)
          else b <- aset buffer 0 48 ;; Ok (b, 1)) = Ok (b, k) /\ firstn (Z.to_nat k) b = prefix_text base ++ [48]).
    { destruct buffer as [|b0 [|b1 [|b2 buffer] ] ]; unfold len in HB; cbn [length] in HB; try lia.
      replace (bufferSize <? 3) with false by (symmetry; apply Z.ltb_ge; lia). replace (bufferSize <? 1) with false by (symmetry; apply Z.ltb_ge; lia).
      assert (A1 : forall v, aset (b0 :: b1 :: b2 :: buffer) 0 v = Ok (v :: b1 :: b2 :: buffer)) by (intros v; rewrite aset_ok by (unfold len; cbn [length]; lia); reflexivity).
      destruct Hs as [-> | ->].
      - cbn [Z.eqb Pos.eqb orb]. rewrite A1. destruct showBase; eexists _, _; split; reflexivity.
      - destruct Hb as [-> |[-> |[-> | ->] ] ]; cbn [Z.eqb Pos.eqb orb]; [| |rewrite A1; eexists _, _; split; reflexivity|];
        cbn [gs_prefix Z.eqb Pos.eqb app set_chars]; rewrite A1; cbn [bind]; change (0 + 1) with 1; rewrite aset_ok by (unfold len in *; cbn [length] in *; lia); cbn [bind];
        rewrite aset_ok by (rewrite len_upd; unfold len in *; cbn [length] in *; lia); cbn [bind]; eexists _, _; (split; [reflexivity|]); reflexivity. }
    destruct T as (b & k & E & F). specialize (P [] (or_introl eq_refl)). rewrite app_nil_r, Es, <- F in P. unfold from_string in P.
    destruct (s_from_chars_lift _ _ _ _ _ P) as (r & Er & Cr & Sr). exists b, k, r. split; [exact E|]. split; [exact Er|]. split; auto. rewrite Sr, V. unfold sval. rewrite SG. destruct (odd_dashes _); reflexivity.
  - assert (V : bval (mag a) <> 0) by (intros E; apply C in E; congruence).
    rewrite (getString_ok cfg n wide upper wfail base (mag a) buffer bufferSize showBase s) by (auto; try lia; rewrite SB, len_app; lia).
    specialize (P [0] (or_intror eq_refl)). unfold from_string in P. destruct (s_from_chars_lift _ _ _ _ _ P) as (r & Er & Cr & Sr).
    eexists _, _, r. split; [reflexivity|]. rewrite firstn_app_len by (rewrite !len_app; change (len [0]) with 1; lia). rewrite SB. split; [exact Er|]. split; auto.
    rewrite Sr, app_assoc, <- SB. unfold odd_dashes. rewrite count_occ_app. cbn [count_occ]. destruct (Z.eq_dec 0 45); [lia|]. rewrite Nat.add_0_r.
    fold (odd_dashes (shown showBase base ++ s)). rewrite (proj1 (odd_dashes_none _ ND)). unfold sval. rewrite SG. reflexivity.
  - assert (V : bval (mag a) <> 0) by (intros E; apply C in E; congruence).
    destruct buffer as [|b0 buffer]; [change (len (@nil Z)) with 0 in HB; lia|]. rewrite len_cons in HB.
    replace (bufferSize >? 0) with true by (symmetry; rewrite Z.gtb_ltb; apply Z.ltb_lt; lia). rewrite aset_ok by (rewrite len_cons; lia). cbn [bind tl upd Z.to_nat].
    rewrite (getString_ok cfg n wide upper wfail base (mag a) buffer (bufferSize - 1) showBase s) by (auto; try lia; rewrite SB, len_app; lia). cbn [bind firstn].
    specialize (P [] (or_introl eq_refl)). rewrite app_nil_r, <- SB in P. set (t := shown showBase base ++ s) in *.
    assert (Fn : Forall (fun c => 0 <= c) t) by (eapply Forall_impl; [|exact ND]; intros; cbv beta in *; lia).
    assert (Q : yields n (from_chars n wide' alnum (45 :: t) (len (45 :: t))) (bval (mag a))).
    { destruct P as (x & Ex & Wx & Vx). destruct (from_string_value n wide' alnum t ltac:(lia) Ha Fn) as (y & Ey & Wy & Vy). unfold from_string in Ex. rewrite Ex in Ey. injection Ey as ->.
      rewrite <- Vx, Vy. assert (SV : string_value alnum (45 :: t) = string_value alnum t) by (unfold string_value; cbn [numeral_part]; rewrite A45; reflexivity). rewrite <- SV.
      apply from_string_value; auto; [lia|]. constructor; [lia|auto]. }
    destruct (s_from_chars_lift _ _ _ _ _ Q) as (r & Er & Cr & Sr).
    eexists _, _, r. split; [reflexivity|]. unfold s_from_string.
    assert (FI : firstn (Z.to_nat (len t + 1)) ([45] ++ (shown showBase base ++ s ++ [0]) ++ skipn (Z.to_nat (len t + 1)) buffer) = 45 :: t).
    { replace ([45] ++ (shown showBase base ++ s ++ [0]) ++ skipn (Z.to_nat (len t + 1)) buffer) with ((45 :: t) ++ [0] ++ skipn (Z.to_nat (len t + 1)) buffer).
      2:{ unfold t. cbn [app]. rewrite <- !app_assoc. reflexivity. }
      apply firstn_app_len. rewrite len_cons. lia. }
    rewrite FI. split; [exact Er|]. split; auto. rewrite Sr, (proj2 (odd_dashes_none _ ND)). unfold sval. rewrite SG. reflexivity.
Qed.
Print Assumptions C71_signed_text_roundtrip.
Example C71_example : canon 3 (mk_aesi SNeg exA) /\
  match s_getString cfg0 3 false true nofail 16 (mk_aesi SNeg exA) (repeat 7 100) 100 true with
  | Ok (b, k) => k = 20 /\ s_from_string 3 false ascii_alnum (firstn 20 b) = Ok (mk_aesi SNeg exA) | Err _ => False end.
Proof. split; [split; [wfc|cbn; split; discriminate || lia]|]. vm_compute. auto. Qed.
