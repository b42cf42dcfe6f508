(** * PropsTest5: C142, C143, the tests on fixed literals for all literals. *)
From Coq Require Import ZifyBool.
From Verif Require Import Spec Lib AeuModel AeuArith AeuBits AeuAccess AeuDiv AeuFacts AeuMore AesiModel AesiArith AesiFacts
  MixModel MixFacts BinModel BinFacts TestModel TestFacts PropsMix PropsTest PropsExact PropsTest2 PropsUse2 PropsAesi PropsAeu PropsBin
  TextSpec TextModel TextFacts TextMore TextOut PropsText PropsText2 TestModel2 PropsTest3 TestModel3 PropsTest4 PropsShort TestModel4.
Open Scope Z_scope.

Ltac conjs := repeat match goal with |- _ /\ _ => split end.
Ltac wfc := apply wfb_wf; vm_compute; reflexivity.

(** ** C142: initialization.cpp Basic *)
Lemma numeral_value n alnum base upper v d : 0 <= n -> alnum_ok alnum -> base_ok base -> 0 <= v < modulus n -> numeral upper base v d ->
  string_value alnum (literal_prefix base ++ d) mod modulus n = v /\ Forall (fun c => 0 <= c /\ c <> 45) (literal_prefix base ++ d).
Proof.
  intros Hn Ha Hb Hv HD.
  assert (X : yields n (from_string n false alnum (literal_prefix base ++ d)) v /\ Forall (fun c => 0 <= c /\ c <> 45) (literal_prefix base ++ d)).
  { split.
    - destruct Hb as [-> |[-> |[-> | ->] ] ].
      1,2,4: rewrite <- (app_nil_r d); apply (parse_prefixed n false alnum upper _ v d []); auto; lia.
      cbn [literal_prefix Z.eqb Pos.eqb app]. rewrite <- (app_nil_r d). apply (parse_decimal n false alnum upper v d []); auto; lia.
    - refine (no_dash upper base v d true HD _). destruct Hb as [-> |[-> |[-> | ->] ] ]; lia. }
  destruct X as ((x & E & Wx & Vx) & F). split; [|exact F].
  destruct (from_string_value n false alnum (literal_prefix base ++ d) Hn Ha) as (y & Ey & _ & Vy); [eapply Forall_impl; [|exact F]; intros; cbv beta in *; lia|].
  unfold from_string in E. rewrite E in Ey. injection Ey as <-. congruence.
Qed.
Lemma dashes_value alnum k t : alnum 45 = false -> string_value alnum (repeat 45 k ++ t) = string_value alnum t.
Proof. intros A45. induction k as [|k IH]; [reflexivity|]. cbn [repeat app]. rewrite <- IH. unfold string_value at 1. cbn [numeral_part]. rewrite A45. reflexivity. Qed.
Lemma dashes_odd k t : Forall (fun c => 0 <= c /\ c <> 45) t -> odd_dashes (repeat 45 k ++ t) = Nat.odd k.
Proof.
  intros F. unfold odd_dashes. rewrite count_occ_app. replace (count_occ Z.eq_dec t 45) with 0%nat.
  - rewrite Nat.add_0_r. f_equal. clear. induction k; [reflexivity|]. cbn [repeat count_occ]. destruct (Z.eq_dec 45 45); congruence.
  - symmetry. apply count_occ_not_In. intros I. rewrite Forall_forall in F. destruct (F _ I). congruence.
Qed.
Lemma dashes_nonneg k t : Forall (fun c => 0 <= c /\ c <> 45) t -> Forall (fun c => 0 <= c) (repeat 45 k ++ t).
Proof. intros F. apply Forall_app. split; [apply Forall_forall; intros c I; apply repeat_spec in I; lia|]. eapply Forall_impl; [|exact F]. intros; cbv beta in *; lia. Qed.
(** Every numeral in every base with its prefix, in every string type; the comparison with any built-in is the truth. *)
Theorem C142_unsigned_numerals : forall n wide alnum upper base v digits w, 2 <= n -> alnum_ok alnum -> base_ok base -> 0 <= v < modulus n -> numeral upper base v digits ->
  let text := literal_prefix base ++ digits in
  (0 <= w < 2 ^ 64 -> textTrial n wide alnum text w = Ok (v =? w)) /\
  (0 <= w < 2 ^ 32 -> alnum 0 = false -> literalTrial n wide alnum text w = Ok (v =? w)).
Proof.
  intros n wide alnum upper base v d w Hn Ha Hb Hv HD text. destruct (numeral_value n alnum base upper v d ltac:(lia) Ha Hb Hv HD) as [SV F]. fold text in SV, F.
  assert (F0 : Forall (fun c => 0 <= c) text) by (eapply Forall_impl; [|exact F]; intros; cbv beta in *; lia). split.
  - intros Hw. unfold textTrial. destruct (C32_string_construction n wide alnum text ltac:(lia) Ha F0) as (a & -> & Wa & Va). cbn [bind].
    rewrite op_eq_u64_spec by (auto; lia). rewrite Va, SV. reflexivity.
  - intros Hw A0. unfold literalTrial. destruct (C32_literal_construction n wide alnum text ltac:(lia) Ha A0 F0) as (a & -> & Wa & Va). cbn [bind].
    rewrite op_eq_u32_spec by (auto; lia). rewrite Va, SV. reflexivity.
Qed.
Print Assumptions C142_unsigned_numerals.
(** The same for signed numbers with any number of dashes in front. *)
Theorem C142_signed_numerals : forall n wide alnum upper base v digits dashes w, 2 <= n -> alnum_ok alnum -> alnum 45 = false -> base_ok base -> 0 <= v < modulus n -> numeral upper base v digits ->
  - 2 ^ 63 < w < 2 ^ 64 ->
  let text := repeat 45 dashes ++ literal_prefix base ++ digits in let value := if Nat.odd dashes then - v else v in
  s_textTrial n wide alnum text w = Ok (value =? w) /\ (alnum 0 = false -> s_literalTrial n wide alnum text w = Ok (value =? w)).
Proof.
  intros n wide alnum upper base v d k w Hn Ha A45 Hb Hv HD Hw text value. destruct (numeral_value n alnum base upper v d ltac:(lia) Ha Hb Hv HD) as [SV F].
  assert (F0 : Forall (fun c => 0 <= c) text) by (apply dashes_nonneg; exact F).
  assert (V : (if odd_dashes text then - (string_value alnum text mod modulus n) else string_value alnum text mod modulus n) = value).
  { unfold text, value. rewrite dashes_odd, dashes_value, SV by auto. reflexivity. }
  split.
  - unfold s_textTrial. destruct (C57_signed_string_construction n wide alnum text ltac:(lia) Ha F0) as (a & -> & Ca & Va). cbn [bind].
    rewrite (proj1 (C49_signed_comparison_builtin n a w Hn (canon_swf _ _ Ca) Hw)), Va, V. reflexivity.
  - intros A0. unfold s_literalTrial. destruct (C57_signed_literal_construction n wide alnum text ltac:(lia) Ha A0 F0) as (a & -> & Ca & Va). cbn [bind].
    rewrite (proj1 (C49_signed_comparison_builtin n a w Hn (canon_swf _ _ Ca) Hw)), Va, V. reflexivity.
Qed.
Print Assumptions C142_signed_numerals.
(** A text without a decimal digit is zero ("Somebody once told me..."). *)
Lemma no_digits alnum s : (forall c, In c s -> ~ (48 <= c <= 57)) -> string_value alnum s = 0.
Proof.
  intros H. assert (P : forall c, In c (numeral_part alnum s) -> ~ (48 <= c <= 57)).
  { intros c I. apply H. clear H. induction s as [|x t IH]; cbn [numeral_part] in I; [destruct I|]. destruct (alnum x); [exact I|]. right. auto. }
  unfold string_value. set (t := numeral_part alnum s) in *. clearbody t. clear H.
  assert (D : digits_in 10 t = []).
  { induction t as [|c t IH]; [reflexivity|]. unfold digits_in in *. cbn [flat_map]. rewrite IH by (intros x I; apply P; right; exact I). rewrite app_nil_r.
    pose proof (P c (or_introl eq_refl)) as N. unfold digit_of. destruct ((48 <=? c) && (c <=? 57)) eqn:E1; [lia|].
    destruct ((97 <=? c) && (c <=? 102)) eqn:E2; [replace (c - 87 <? 10) with false by lia; reflexivity|].
    destruct ((65 <=? c) && (c <=? 70)) eqn:E3; [replace (c - 55 <? 10) with false by lia; reflexivity|]. reflexivity. }
  destruct t as [|c t]; [reflexivity|]. assert (N : c <> 48) by (pose proof (P c (or_introl eq_refl)); lia).
  clear - N D. destruct c as [|p|p]; try exact (f_equal (dvalue 10) D). do 6 (destruct p as [p|p|]; try exact (f_equal (dvalue 10) D); try congruence).
Qed.
Theorem C142_without_digits : forall n wide alnum text, 2 <= n -> alnum_ok alnum -> alnum 0 = false -> Forall (fun c => 0 <= c /\ ~ (48 <= c <= 57)) text ->
  textTrial n wide alnum text 0 = Ok true /\ literalTrial n wide alnum text 0 = Ok true /\ s_textTrial n wide alnum text 0 = Ok true /\ s_literalTrial n wide alnum text 0 = Ok true.
Proof.
  intros n wide alnum text Hn Ha A0 F. pose proof (modulus_pos n ltac:(lia)) as MP. assert (F0 : Forall (fun c => 0 <= c) text) by (eapply Forall_impl; [|exact F]; intros; cbv beta in *; lia).
  assert (SV : string_value alnum text = 0). { apply no_digits. intros c I. rewrite Forall_forall in F. destruct (F c I); auto. }
  conjs.
  - unfold textTrial. destruct (C32_string_construction n wide alnum text ltac:(lia) Ha F0) as (a & -> & Wa & Va). cbn [bind].
    rewrite op_eq_u64_spec by (auto; lia). rewrite Va, SV, Z.mod_0_l by lia. reflexivity.
  - unfold literalTrial. destruct (C32_literal_construction n wide alnum text ltac:(lia) Ha A0 F0) as (a & -> & Wa & Va). cbn [bind].
    rewrite op_eq_u32_spec by (auto; lia). rewrite Va, SV, Z.mod_0_l by lia. reflexivity.
  - unfold s_textTrial. destruct (C57_signed_string_construction n wide alnum text ltac:(lia) Ha F0) as (a & -> & Ca & Va). cbn [bind].
    rewrite (proj1 (C49_signed_comparison_builtin n a 0 Hn (canon_swf _ _ Ca) ltac:(lia))), Va, SV, Z.mod_0_l by lia. destruct (odd_dashes text); reflexivity.
  - unfold s_literalTrial. destruct (C57_signed_literal_construction n wide alnum text ltac:(lia) Ha A0 F0) as (a & -> & Ca & Va). cbn [bind].
    rewrite (proj1 (C49_signed_comparison_builtin n a 0 Hn (canon_swf _ _ Ca) ltac:(lia))), Va, SV, Z.mod_0_l by lia. destruct (odd_dashes text); reflexivity.
Qed.
Print Assumptions C142_without_digits.
(** "0x3c9" is 969, "-0xA" is -10, "0o24" is not 24, "So, me" is 0. *)
Example C142_example : textTrial 4 false ascii_alnum [48; 120; 51; 99; 57] 969 = Ok true /\ s_literalTrial 4 true ascii_alnum [45; 48; 120; 65] (-10) = Ok true /\
  literalTrial 4 false ascii_alnum [48; 111; 50; 52] 24 = Ok false /\ literalTrial 4 false ascii_alnum [83; 111; 44; 32; 109; 101] 0 = Ok true.
Proof. conjs; vm_compute; reflexivity. Qed.

(** ** C143: display.cpp Zero *)
Lemma two_zeros cfg n os a b : wf n a -> bval a = 0 -> wf n b -> bval b = 0 -> width os = 0 -> showbase os = false ->
  exists os1 os2, stream_insert cfg n os a = Ok os1 /\ width os1 = 0 /\ showbase os1 = false /\ stream_insert cfg n os1 b = Ok os2 /\ width os2 = 0 /\ showbase os2 = false /\ out os2 = out os ++ [48; 48].
Proof.
  intros Wa Va Wb Vb W0 S0. pose proof (stream_zero cfg n os a Wa Va W0) as E. assert (SH : os_shown os = []) by (unfold os_shown, shown; rewrite S0; reflexivity).
  rewrite SH, S0 in E. cbn [app andb] in E. eexists _, _. split; [exact E|]. cbn [width showbase]. split; [reflexivity|]. split; [reflexivity|].
  rewrite (stream_zero cfg n _ b Wb Vb) by reflexivity. split; [reflexivity|]. cbn [width showbase out andb]. split; [reflexivity|]. split; [reflexivity|].
  unfold os_shown, shown. cbn [showbase]. cbn [app]. rewrite <- app_assoc. reflexivity.
Qed.
Theorem C143_unsigned_zero : forall cfg n junk wide upper wfail base b size show k, 1 <= n -> len junk = n -> base_ok base -> 4 <= size -> 0 <= k < 2 ^ 64 ->
  zeroStreams cfg n junk b = Ok true /\ zeroDifference cfg n junk k = Ok true /\ zeroBuffer cfg n junk wide upper wfail base size show = Ok true.
Proof.
  intros cfg n junk wide upper wfail base b size show k Hn Lj Hb Hs Hk. pose proof (modulus_pos n ltac:(lia)) as MP.
  destruct (from_unsigned_correct n junk 0 ltac:(lia) Lj ltac:(lia)) as (z & Ez & Wz & Vz). rewrite Z.mod_0_l in Vz by lia. conjs.
  - unfold zeroStreams, op_plus. rewrite Ez. cbn [bind].
    destruct (two_zeros cfg n (fresh_with [] b false false) z z Wz Vz Wz Vz eq_refl eq_refl) as (o1 & o2 & -> & _ & _ & E & _ & _ & O). cbn [bind]. rewrite E. cbn [bind]. rewrite O. reflexivity.
  - unfold zeroDifference, op_plus, op_sub. destruct (from_unsigned_correct n junk k ltac:(lia) Lj Hk) as (m & -> & Wm & Vm). cbn [bind].
    destruct (sub_assign_correct n m m Wm Wm) as (d & -> & Wd & Vd). rewrite Z.sub_diag, Z.mod_0_l in Vd by lia. cbn [bind].
    destruct (two_zeros cfg n (fresh_with [] BDec false false) d d Wd Vd Wd Vd eq_refl eq_refl) as (o1 & o2 & -> & _ & _ & E & W2 & S2 & O). cbn [bind]. rewrite E. cbn [bind].
    rewrite (stream_zero cfg n o2 d Wd Vd W2). cbn [bind out]. unfold os_shown, shown. rewrite S2, O. reflexivity.
  - unfold zeroBuffer. rewrite Ez. cbn [bind].
    rewrite C33_getString_zero by (auto; rewrite len_zeros by lia; lia). cbn [bind]. unfold shown_in. replace (size >? 3) with true by lia. rewrite andb_true_r.
    assert (SK : exists r, skipn (Z.to_nat (len ((if show then prefix_text base else []) ++ [48]))) (zeros size) = 0 :: r).
    { assert (L : lt (Z.to_nat (len ((if show then prefix_text base else []) ++ [48]))) (Z.to_nat size)).
      { apply Nat2Z.inj_lt. rewrite !Z2Nat.id by (try apply len_nonneg; lia). rewrite len_app. change (len [48]) with 1.
        destruct show; [destruct Hb as [-> |[-> |[-> | ->] ] ]; vm_compute len; lia|]. change (len (@nil Z)) with 0. lia. }
      unfold zeros. remember (Z.to_nat (len ((if show then prefix_text base else []) ++ [48]))) as i. remember (Z.to_nat size) as s. clear - L.
      revert s L. induction i as [|i IH]; intros [|s] L; try lia; cbn [repeat skipn]; [eauto|]. apply IH. lia. }
    destruct SK as (r & ->). rewrite view_app; [|destruct show; [destruct Hb as [-> |[-> |[-> | ->] ] ]|]; repeat constructor; lia].
    cbn [string_view Z.eqb]. cbn [bind]. rewrite app_nil_r. unfold text_eq. destruct (list_eq_dec _ _ _) as [|N]; [reflexivity|]. elim N. reflexivity.
Qed.
Print Assumptions C143_unsigned_zero.
Lemma s_zero_stream cfg n os a : swf n a -> sval a = 0 -> width os = 0 -> s_stream_insert cfg n os a = Ok (os_put os [48]).
Proof.
  intros [W N] V W0. unfold s_stream_insert. pose proof (bval_bound n _ W). unfold sval in V. destruct (sgn a) eqn:S; [reflexivity| |]; exfalso; apply N; try discriminate; lia.
Qed.
Theorem C143_signed_zero : forall cfg n wide upper wfail base b size show k, 1 <= n -> base_ok base -> 4 <= size -> 0 <= k < 2 ^ 32 ->
  s_zeroStreams cfg n b = Ok true /\ s_zeroDifference cfg n k = Ok true /\ s_zeroBuffer cfg n wide upper wfail base size show = Ok true.
Proof.
  intros cfg n wide upper wfail base b size show k Hn Hb Hs Hk. pose proof (modulus_pos n ltac:(lia)) as MP.
  assert (IN : forall v, 0 <= v < 2 ^ 32 -> exists r, s_from_int n uint32 v = Ok r /\ canon n r /\ sval r = v).
  { intros v Hv. apply s_from_int_correct; auto; [unfold in_ity, ity_min, ity_max, uint32; cbn [isigned iwidth]; lia|left; cbn; lia|]. intros Q _. discriminate. }
  destruct (IN 0 ltac:(lia)) as (z & Ez & Cz & Vz). pose proof (canon_swf _ _ Cz) as Sz. conjs.
  - unfold s_zeroStreams, s_plus. rewrite Ez. cbn [bind]. rewrite (s_zero_stream cfg n) by auto. cbn [bind]. rewrite (s_zero_stream cfg n) by (auto; reflexivity). reflexivity.
  - unfold s_zeroDifference, s_plus, s_sub. destruct (IN k Hk) as (m & -> & Cm & Vm). cbn [bind]. pose proof (canon_swf _ _ Cm) as Sm.
    destruct (s_sub_correct cfg n m m Sm Sm ltac:(rewrite Z.sub_diag; cbn; lia)) as (d & -> & Sd & Vd). rewrite Z.sub_diag in Vd. cbn [bind].
    rewrite !(s_zero_stream cfg n _ d) by (auto; reflexivity). cbn [bind]. rewrite !(s_zero_stream cfg n _ d) by (auto; reflexivity). cbn [bind].
    rewrite !(s_zero_stream cfg n _ d) by (auto; reflexivity). reflexivity.
  - unfold s_zeroBuffer. rewrite Ez. cbn [bind]. assert (S0 : sgn z = SZero).
    { destruct Sz as [W N]. pose proof (bval_bound n _ W). unfold sval in Vz. destruct (sgn z) eqn:S; [reflexivity| |]; exfalso; apply N; try discriminate; lia. }
    pose proof (C119_zero cfg n wide upper wfail base z (zeros size) size show S0 Hb ltac:(rewrite len_zeros by lia; lia)) as E. cbv zeta in E. rewrite E. clear E.
    assert (L : len (shown show base ++ [48]) <= 3) by (unfold shown; destruct show; [destruct Hb as [-> |[-> |[-> | ->] ] ]|]; vm_compute; discriminate).
    replace (len (shown show base ++ [48]) <=? size) with true by lia. cbn [bind].
    assert (SK : exists r, skipn (Z.to_nat (len (shown show base ++ [48]))) (zeros size) = 0 :: r).
    { assert (LN : lt (Z.to_nat (len (shown show base ++ [48]))) (Z.to_nat size)) by (pose proof (len_nonneg (shown show base ++ [48])); lia).
      unfold zeros. remember (Z.to_nat (len (shown show base ++ [48]))) as i. remember (Z.to_nat size) as s. clear - LN.
      revert s LN. induction i as [|i IH]; intros [|s] L; try lia; cbn [repeat skipn]; [eauto|]. apply IH. lia. }
    destruct SK as (r & ->). rewrite view_app; [|unfold shown; destruct show; [destruct Hb as [-> |[-> |[-> | ->] ] ]|]; repeat constructor; lia].
    cbn [string_view Z.eqb]. cbn [bind]. rewrite app_nil_r. unfold text_eq. destruct (list_eq_dec _ _ _) as [|N]; [reflexivity|]. elim N. reflexivity.
Qed.
Print Assumptions C143_signed_zero.
(** A buffer of three characters drops the prefix of zero (so 4 is the least size), and the text is "0". *)
Example C143_example : zeroBuffer cfg0 4 (zeros 4) false false nofail 16 4 true = Ok true /\ zeroBuffer cfg0 4 (zeros 4) false false nofail 16 3 true = Ok false /\
  s_zeroBuffer cfg0 4 true false nofail 8 10 true = Ok true /\ s_zeroBuffer cfg0 4 false false nofail 2 3 true = Err OutOfBounds /\ zeroDifference cfg0 4 (zeros 4) 8 = Ok true.
Proof. conjs; vm_compute; reflexivity. Qed.
