(** * PropsTest4: the initialization, display and cross-precision tests (C128-C130). *)
From Coq Require Import ZifyBool.
From Verif Require Import Spec Lib AeuModel AeuArith AeuBits AeuAccess AeuDiv AeuFacts AeuMore AesiModel AesiArith AesiFacts
  MixModel MixFacts BinModel BinFacts TestModel TestFacts PropsMix PropsTest PropsExact PropsTest2 PropsUse2 PropsAesi PropsAeu PropsBin
  TextSpec TextModel TextFacts TextMore TextOut PropsText PropsText2 TestModel2 PropsTest3 TestModel3.
Open Scope Z_scope.

(** ** The tests' own conversion to binary text *)
Lemma byteBinary_lead fuel : forall b acc, 0 < b < 2 ^ Z.of_nat fuel -> exists d t, Forall (fun d => 0 <= d < 2) (d :: t) /\ d <> 0 /\ dvalue 2 (d :: t) = b /\
  whileF (S fuel) (fun '(byte, binary) => if byte =? 0 then Ok (Exit binary)
    else Ok (Next (byte / 2, binary ++ [if Z.odd byte then 49 else 48]))) (b, acc) = Ok (acc ++ rev (map (digit_char false) (d :: t))).
Proof.
  induction fuel as [|fuel IH]; intros b acc Hb.
  - change (2 ^ Z.of_nat 0) with 1 in Hb. lia.
  - rewrite Nat2Z.inj_succ, Z.pow_succ_r in Hb by lia. remember (S fuel) as f1 eqn:Ef. cbn [whileF]. subst f1.
    destruct (Z.eqb_spec b 0) as [->|Nb]; [lia|]. cbn [bind]. destruct (Z.eq_dec (b / 2) 0) as [Z2|N2].
    + assert (b = 1) by (Z.div_mod_to_equations; lia). subst b. exists 1, []. conjs; [repeat constructor; lia|lia|reflexivity|].
      cbn [whileF]. change (1 / 2) with 0. cbn [Z.eqb bind]. reflexivity.
    + assert (Hb2 : 0 < b / 2 < 2 ^ Z.of_nat fuel) by (split; [pose proof (Z.div_pos b 2); lia|apply Z.div_lt_upper_bound; lia]).
      destruct (IH (b / 2) (acc ++ [if Z.odd b then 49 else 48]) Hb2) as (d & t & F & Nd & V & E). exists d, (t ++ [b mod 2]).
      pose proof (Z.mod_pos_bound b 2 ltac:(lia)). conjs.
      * change (d :: t ++ [b mod 2]) with ((d :: t) ++ [b mod 2]). apply Forall_app. split; auto.
      * auto.
      * change (d :: t ++ [b mod 2]) with ((d :: t) ++ [b mod 2]). rewrite dvalue_app. change (len [b mod 2]) with 1. rewrite V. unfold dvalue. cbn [fold_left]. pose proof (Z.div_mod b 2). lia.
      * rewrite E. f_equal. change (d :: t ++ [b mod 2]) with ((d :: t) ++ [b mod 2]). rewrite map_app, rev_app_distr. cbn [map rev app]. rewrite <- !app_assoc. cbn [app]. do 2 f_equal.
        rewrite Zmod_odd. destruct (Z.odd b); reflexivity.
Qed.
Lemma bytes_top v : 0 < v -> byteCountGmp v - 1 = Z.log2 v / 8 /\ (mpz_sizeinbase2 v - 1) / 8 = Z.log2 v / 8 /\ (mpz_sizeinbase2 v + 7) / 8 = byteCountGmp v /\
  0 < v / 2 ^ (8 * (Z.log2 v / 8)) < 256.
Proof.
  intros Hv. assert (SB : mpz_sizeinbase2 v = Z.log2 v + 1) by (unfold mpz_sizeinbase2; replace (v =? 0) with false by lia; rewrite Z.abs_eq by lia; auto).
  unfold byteCountGmp. rewrite SB. pose proof (Z.log2_nonneg v). pose proof (Z.log2_spec v Hv) as L. set (l := Z.log2 v) in *. clearbody l.
  pose proof (Z.div_mod l 8 ltac:(lia)). pose proof (Z.mod_pos_bound l 8 ltac:(lia)). assert (0 <= l / 8) by (apply Z.div_pos; lia). conjs.
  - replace (l + 1 + 7) with (l + 1 * 8) by lia. rewrite Z.div_add by lia. lia.
  - f_equal. lia.
  - reflexivity.
  - apply Z.div_str_pos. split; [apply Z.pow_pos_nonneg; lia|]. apply Z.le_trans with (2 ^ l); [apply Z.pow_le_mono_r; lia|lia].
  - apply Z.div_lt_upper_bound; [apply Z.pow_pos_nonneg; lia|]. change 256 with (2 ^ 8). rewrite <- Z.pow_add_r by lia.
    apply Z.lt_le_trans with (2 ^ Z.succ l); [lia|apply Z.pow_le_mono_r; lia].
Qed.
Lemma binary_loop v k : 0 < v -> 0 <= k -> 0 < v / 2 ^ (8 * k) < 256 -> exists s, numeral false 2 v s /\
  (msb <- byteBinary (getByteGmp v k) ;; forD k 0 (fun j result => Ok (result ++ bitset8 (getByteGmp v j))) (rev msb)) = Ok s.
Proof.
  intros Hv Hk Ht. rewrite byte_gmp by lia. rewrite Z.mod_small by lia.
  destruct (byteBinary_lead 8 (v / 2 ^ (8 * k)) [] Ht) as (d & t & F & Nd & V & E). unfold byteBinary. rewrite E. cbn [bind]. rewrite app_nil_l, rev_involutive.
  set (Inv := fun (j : Z) (ss : list Z) => exists d t, ss = map (digit_char false) (d :: t) /\ Forall (fun d => 0 <= d < 2) (d :: t) /\ d <> 0 /\ dvalue 2 (d :: t) = v / 2 ^ (8 * j)).
  destruct (forD_spec Inv k 0 (fun j ss => Ok (ss ++ bitset8 (getByteGmp v j))) (map (digit_char false) (d :: t))) as (ss & E2 & I).
  { lia. } { exists d, t. auto. }
  { intros j ss Hj (e & u & -> & Fe & Ne & Ve). eexists. split; [reflexivity|]. rewrite byte_gmp by lia.
    assert (HB : 0 <= v / 2 ^ (8 * j) mod 2 ^ 8 < 256) by (apply (Z.mod_pos_bound _ 256); lia). destruct (bitset8_bits _ HB) as (bs & -> & Fb & Lb & Vb). exists e, (u ++ bs).
    change (e :: u ++ bs) with ((e :: u) ++ bs). conjs.
    - rewrite map_app. reflexivity.
    - apply Forall_app; auto.
    - auto.
    - rewrite dvalue_app, Lb, Ve, Vb. replace (8 * (j + 1)) with (8 * j + 8) by lia. rewrite (Z.pow_add_r 2 (8 * j)) by lia. rewrite <- Z.div_div by (try apply Z.pow_nonzero; lia).
      change (2 ^ 8) with 256. pose proof (Z.div_mod (v / 2 ^ (8 * j)) 256 ltac:(lia)). lia. }
  rewrite E2. destruct I as (e & u & -> & Fe & Ne & Ve). change (8 * 0) with 0 in Ve. change (2 ^ 0) with 1 in Ve. rewrite Z.div_1_r in Ve.
  eexists. split; [|reflexivity]. exists (e :: u). conjs; auto. right. exists e, u. auto.
Qed.
Lemma binary_text v : 0 <= v -> if v =? 0 then gmpToBinaryString v = Ok [] /\ initBinaryString v = Ok [] else
  exists s, numeral false 2 v s /\ gmpToBinaryString v = Ok s /\ initBinaryString v = Ok s.
Proof.
  intros Hv. destruct (Z.eqb_spec v 0) as [->|Nv]; [split; reflexivity|].
  destruct (bytes_top v ltac:(lia)) as (B1 & B2 & B3 & T). destruct (binary_loop v (Z.log2 v / 8) ltac:(lia)) as (s & Ns & E); [apply Z.div_pos; [apply Z.log2_nonneg|lia]|auto|].
  exists s. split; [auto|]. unfold gmpToBinaryString, initBinaryString. rewrite B2, B3, B1. auto.
Qed.
(** What the test expects in base 2 for a non-zero draw is the numeral; for zero it is the empty text. *)
Lemma expected_digits upper base v digits : 0 <= v -> (base <> 2 -> numeral upper base v digits) ->
  exists d, (if base =? 2 then gmpToBinaryString v else Ok digits) = Ok d /\ (if base =? 2 then initBinaryString v else Ok digits) = Ok d /\
    (if (base =? 2) && (v =? 0) then d = [] else numeral (if base =? 2 then false else upper) base v d).
Proof.
  intros Hv HN. destruct (Z.eqb_spec base 2) as [->|Nb].
  - pose proof (binary_text v Hv) as B. cbn [andb]. destruct (v =? 0); [exists []; tauto|]. destruct B as (s & N & E1 & E2). exists s. auto.
  - exists digits. cbn [andb]. auto.
Qed.

(** ** C128: initialization.cpp *)
Lemma lp_shown show base : (if show : bool then literal_prefix base else []) = shown show base. Proof. reflexivity. Qed.
Lemma init_parse n alnum base upper v d : 0 <= n -> alnum_ok alnum -> base_ok base -> 0 <= v < modulus n ->
  (if (base =? 2) && (v =? 0) then d = [] else numeral upper base v d) ->
  yields n (from_string n false alnum (literal_prefix base ++ d)) v /\ Forall (fun c => 0 <= c /\ c <> 45) (literal_prefix base ++ d).
Proof.
  intros Hn Ha Hb Hv HD. destruct (Z.eqb_spec base 2) as [->|Nb]; cbn [andb] in HD; [destruct (Z.eqb_spec v 0) as [->|Nv]|].
  - subst d. split; [|repeat constructor; lia]. pose proof (parse_base n alnum 98 2 [] Hn Ha eq_refl ltac:(lia) ltac:(constructor)) as Y. exact Y.
  - split; [|exact (no_dash upper 2 v d true HD ltac:(lia))]. rewrite <- (app_nil_r d). apply (parse_prefixed n false alnum upper 2 v d []); auto; lia.
  - split.
    2:{ refine (no_dash upper base v d true HD _). destruct Hb as [-> |[-> |[-> | ->] ] ]; lia. }
    destruct (Z.eq_dec base 10) as [->|N10].
    + cbn [literal_prefix Z.eqb Pos.eqb app]. rewrite <- (app_nil_r d). apply (parse_decimal n false alnum upper v d []); auto; lia.
    + rewrite <- (app_nil_r d). apply (parse_prefixed n false alnum upper base v d []); auto; try lia; try (destruct Hb as [-> |[-> |[-> | ->] ] ]; auto; lia).
Qed.
Theorem C128_unsigned_initialization : forall cfg n alnum upper base value digits, cfg_unsafe cfg = false -> 1 <= n -> alnum_ok alnum -> base_ok base ->
  0 <= value < modulus n -> (base <> 2 -> numeral upper base value digits) ->
  initTrial cfg n alnum base value digits = Ok true.
Proof.
  intros cfg n alnum upper base v digits U Hn Ha Hb Hv HN. unfold initTrial.
  destruct (u_from_small cfg n v U ltac:(lia) Hv) as (a & -> & Wa & Va). cbn [bind].
  rewrite (proj2 (C74_equals_gmp_partial cfg n a v Wa U) Hv). cbn [bind]. rewrite Va, Z.eqb_refl.
  destruct (expected_digits upper base v digits ltac:(lia) HN) as (d & _ & -> & HD). cbn [bind].
  destruct (init_parse n alnum base _ v d ltac:(lia) Ha Hb Hv HD) as ((b & -> & Wb & Vb) & _). cbn [bind].
  rewrite (proj2 (C74_equals_gmp_partial cfg n b v Wb U) Hv). cbn [bind]. rewrite Vb, Z.eqb_refl. reflexivity.
Qed.
Print Assumptions C128_unsigned_initialization.
Lemma signed_parse n alnum t v k : 1 <= n -> alnum_ok alnum -> alnum 45 = false -> Forall (fun c => 0 <= c /\ c <> 45) t -> 0 <= v < modulus n ->
  yields n (from_string n false alnum t) v ->
  exists r, s_from_string n false alnum (repeat 45 k ++ t) = Ok r /\ canon n r /\ sval r = if Nat.odd k then - v else v.
Proof.
  intros Hn Ha A45 F Hv (x & Ex & Wx & Vx).
  assert (Fn : Forall (fun c => 0 <= c) (repeat 45 k ++ t)).
  { apply Forall_app. split; [apply Forall_forall; intros c I; apply repeat_spec in I; lia|]. eapply Forall_impl; [|exact F]. intros; cbv beta in *; lia. }
  assert (Ft : Forall (fun c => 0 <= c) t) by (eapply Forall_impl; [|exact F]; intros; cbv beta in *; lia).
  destruct (C57_signed_string_construction n false alnum (repeat 45 k ++ t) Hn Ha Fn) as (r & Er & Cr & Sr). exists r. split; [exact Er|]. split; [auto|].
  assert (SV : string_value alnum (repeat 45 k ++ t) = string_value alnum t).
  { clear - A45. induction k as [|k IH]; [reflexivity|]. cbn [repeat app]. rewrite <- IH. unfold string_value at 1. cbn [numeral_part]. rewrite A45. reflexivity. }
  destruct (from_string_value n false alnum t ltac:(lia) Ha Ft) as (y & Ey & Wy & Vy). unfold from_string in Ex. rewrite Ex in Ey. injection Ey as <-.
  assert (OD : odd_dashes (repeat 45 k ++ t) = Nat.odd k).
  { unfold odd_dashes. rewrite count_occ_app. replace (count_occ Z.eq_dec t 45) with O.
    - rewrite Nat.add_0_r. f_equal. clear. induction k; [reflexivity|]. cbn [repeat count_occ]. destruct (Z.eq_dec 45 45); congruence.
    - symmetry. apply count_occ_not_In. intros I. rewrite Forall_forall in F. destruct (F _ I). congruence. }
  rewrite Sr, OD, SV, <- Vy, Vx. reflexivity.
Qed.
Lemma sign_text (b : bool) (t : list Z) : (if b then [45] else []) ++ t = repeat 45 (if b then 1 else 0) ++ t. Proof. destruct b; reflexivity. Qed.
Lemma signedDraw_abs i v : 0 <= v -> Z.abs (signedDraw i v) = v. Proof. intros. unfold signedDraw. destruct (i mod 2 =? 0); lia. Qed.
Theorem C128_signed_initialization : forall cfg n alnum upper base i draw digits, cfg_unsafe cfg = false -> 1 <= n -> alnum_ok alnum -> alnum 45 = false -> base_ok base ->
  0 <= draw < modulus n -> (base <> 2 -> numeral upper base draw digits) ->
  s_initTrial cfg n alnum base i draw digits = Ok true.
Proof.
  intros cfg n alnum upper base i v digits U Hn Ha A45 Hb Hv HN. unfold s_initTrial. cbv zeta.
  pose proof (signedDraw_abs i v ltac:(lia)) as AV. destruct (s_from cfg n (signedDraw i v) ltac:(lia) ltac:(lia)) as (a & -> & Ca & Va). cbn [bind].
  rewrite s_eq_z by (try apply canon_swf; auto; lia). cbn [bind]. rewrite Va, Z.eqb_refl, AV.
  destruct (expected_digits upper base v digits ltac:(lia) HN) as (d & _ & -> & HD). cbn [bind].
  destruct (init_parse n alnum base _ v d ltac:(lia) Ha Hb Hv HD) as (Y & F). rewrite sign_text.
  destruct (signed_parse n alnum _ v (if (if base =? 10 then signedDraw i v <? 0 else negb (i mod 2 =? 0)) then 1%nat else 0%nat) Hn Ha A45 F Hv Y) as (r & -> & Cr & Vr). cbn [bind].
  rewrite s_eq_z by (try apply canon_swf; auto; lia). cbn [bind]. rewrite Vr. f_equal. cbn [andb]. unfold signedDraw.
  destruct (Z.eqb_spec base 10), (Z.eqb_spec (i mod 2) 0); cbn [negb]; try destruct (Z.ltb_spec (1 * v) 0); try destruct (Z.ltb_spec (-1 * v) 0); cbn [Nat.odd Nat.even negb]; lia.
Qed.
Print Assumptions C128_signed_initialization.
(** The trials are not vacuous: with the digits of another number they report a failure. *)
Theorem C128_detects : forall cfg n alnum upper base i value written digits, cfg_unsafe cfg = false -> 1 <= n -> alnum_ok alnum -> alnum 45 = false -> base_ok base -> base <> 2 ->
  0 <= value < modulus n -> 0 <= written < modulus n -> numeral upper base written digits ->
  initTrial cfg n alnum base value digits = Ok (written =? value) /\
  s_initTrial cfg n alnum base i value digits = Ok (written =? value).
Proof.
  intros cfg n alnum upper base i v w digits U Hn Ha A45 Hb N2 Hv Hw HN.
  destruct (init_parse n alnum base upper w digits ltac:(lia) Ha Hb Hw ltac:(replace (base =? 2) with false by lia; exact HN)) as (Y & F). split.
  - unfold initTrial. destruct (u_from_small cfg n v U ltac:(lia) Hv) as (a & -> & Wa & Va). cbn [bind].
    rewrite (proj2 (C74_equals_gmp_partial cfg n a v Wa U) Hv). cbn [bind]. rewrite Va, Z.eqb_refl.
    replace (base =? 2) with false by lia. cbn [bind]. destruct Y as (b & -> & Wb & Vb). cbn [bind].
    rewrite (proj2 (C74_equals_gmp_partial cfg n b v Wb U) Hv). cbn [bind]. rewrite Vb. reflexivity.
  - unfold s_initTrial. cbv zeta.
    pose proof (signedDraw_abs i v ltac:(lia)) as AV. destruct (s_from cfg n (signedDraw i v) ltac:(lia) ltac:(lia)) as (a & -> & Ca & Va). cbn [bind].
    rewrite s_eq_z by (try apply canon_swf; auto; lia). cbn [bind]. rewrite Va, Z.eqb_refl.
    replace (base =? 2) with false by lia. cbn [bind]. rewrite sign_text.
    destruct (signed_parse n alnum _ w (if (if base =? 10 then signedDraw i v <? 0 else negb (i mod 2 =? 0)) then 1%nat else 0%nat) Hn Ha A45 F Hw Y) as (r & -> & Cr & Vr). cbn [bind].
    rewrite s_eq_z by (try apply canon_swf; auto; lia). cbn [bind]. rewrite Vr. f_equal. cbn [andb]. clear - Hv Hw. unfold signedDraw.
    destruct (Z.eqb_spec base 10), (Z.eqb_spec (i mod 2) 0); cbn [negb]; try destruct (Z.ltb_spec (1 * v) 0); try destruct (Z.ltb_spec (-1 * v) 0); cbn [Nat.odd Nat.even negb]; try lia.
Qed.
Print Assumptions C128_detects.
(** Any number of dashes, any width holding the value. *)
Theorem C128_dashes : forall n alnum i digits v, 2 <= n -> alnum_ok alnum -> alnum 45 = false -> 0 <= i -> 0 <= v < 2 ^ 63 -> numeral false 10 v digits ->
  dashesTrial n alnum i digits v = Ok true.
Proof.
  intros n alnum i d v Hn Ha A45 Hi Hv HD. unfold dashesTrial. assert (M : 2 ^ 64 <= modulus n) by (apply Z.pow_le_mono_r; lia).
  destruct (init_parse n alnum 10 false v d ltac:(lia) Ha ltac:(unfold base_ok; tauto) ltac:(lia) HD) as (Y & F). cbn [literal_prefix Z.eqb Pos.eqb app] in Y, F.
  destruct (signed_parse n alnum d v (Z.to_nat (i + 2)) ltac:(lia) Ha A45 F ltac:(lia) Y) as (r & -> & Cr & Vr). cbn [bind].
  rewrite (proj1 (C49_signed_comparison_builtin n r (v * (if i mod 2 =? 0 then 1 else -1)) Hn (canon_swf _ _ Cr) ltac:(destruct (i mod 2 =? 0); lia))). rewrite Vr.
  assert (O : Nat.odd (Z.to_nat (i + 2)) = Z.odd i).
  { replace (Z.to_nat (i + 2)) with (S (S (Z.to_nat i))) by lia. change (Nat.odd (S (S (Z.to_nat i)))) with (Nat.odd (Z.to_nat i)).
    rewrite <- (Z2Nat.id i) at 2 by lia. clear. generalize (Z.to_nat i) as k. intros k.
    destruct (Nat.Even_or_Odd k) as [ [m ->]|[m ->] ].
    - rewrite Nat.odd_mul. rewrite Nat2Z.inj_mul, Z.odd_mul. reflexivity.
    - rewrite Nat.odd_add, Nat.odd_mul, Nat2Z.inj_add, Nat2Z.inj_mul, Z.odd_add, Z.odd_mul. reflexivity. }
  rewrite O, Zmod_odd. destruct (Z.odd i); cbn [Z.eqb]; f_equal; lia.
Qed.
Print Assumptions C128_dashes.
Theorem C128_different_precisions : forall n junk value, 2 <= n ->
  (len junk = n -> 0 <= value < 2 ^ 64 -> precisionTrial n junk value = Ok true) /\
  (- 2 ^ 63 < value < 2 ^ 63 -> s_precisionTrial n value = Ok true) /\
  s_precisionTrial n (- 2 ^ 63) = Err SignedOverflow.
Proof.
  intros n junk v Hn. assert (M : 2 ^ 64 <= modulus n) by (apply Z.pow_le_mono_r; lia). conjs.
  - intros HJ Hv. unfold precisionTrial. destruct (from_unsigned_correct n junk v ltac:(lia) HJ Hv) as (a & -> & Wa & Va). cbn [bind].
    rewrite op_eq_u64_spec by (auto; lia). rewrite Va, Z.mod_small, Z.eqb_refl by lia. reflexivity.
  - intros Hv. unfold s_precisionTrial. destruct (s_from_int_correct n int64 v ltac:(lia) eq_refl) as (a & -> & Ca & Va); [unfold in_ity, ity_min, ity_max, int64; cbn [isigned iwidth]; change (64 - 1) with 63; lia|right; lia|intros _ _; change (ity_min int64) with (- 2 ^ 63); lia|]. cbn [bind].
    rewrite (proj1 (C49_signed_comparison_builtin n a v Hn (canon_swf _ _ Ca) ltac:(lia))). rewrite Va, Z.eqb_refl. reflexivity.
  - reflexivity.
Qed.
Print Assumptions C128_different_precisions.
Example C128_example : initTrial cfg0 3 ascii_alnum 2 37 [] = Ok true /\ initTrial cfg0 3 ascii_alnum 2 0 [] = Ok true /\
  s_initTrial cfg0 3 ascii_alnum 16 1 255 [70; 70] = Ok true /\ s_initTrial cfg0 3 ascii_alnum 16 1 255 [70; 69] = Ok false /\
  initBinaryString 4660 = Ok [49; 48; 48; 49; 48; 48; 48; 49; 49; 48; 49; 48; 48] /\
  dashesTrial 4 ascii_alnum 7 [49] 1 = Ok true /\ numeral true 16 255 [70; 70].
Proof. conjs; try (vm_compute; reflexivity). exists [15; 15]. conjs; [reflexivity|repeat constructor; lia|reflexivity|right; exists 15, [15]; split; [auto|lia] ]. Qed.

(** ** C129: display.cpp *)
Lemma text_eq_refl s : text_eq s s = true. Proof. unfold text_eq. destruct (list_eq_dec Z.eq_dec s s); congruence. Qed.
Lemma text_eq_ne s t : s <> t -> text_eq s t = false. Proof. intros. unfold text_eq. destruct (list_eq_dec Z.eq_dec s t); congruence. Qed.
Lemma view_app t r : Forall (fun c => c <> 0) t -> string_view (t ++ r) = match string_view r with Ok s => Ok (t ++ s) | Err e => Err e end.
Proof.
  induction t as [|c t IH]; intros F; cbn [app string_view]; [destruct (string_view r); reflexivity|]. inversion F; subst.
  destruct (Z.eqb_spec c 0); [congruence|]. rewrite IH by auto. destruct (string_view r); reflexivity.
Qed.
Lemma nonzero_text upper base v s show : numeral upper base v s -> base <= 16 -> Forall (fun c => c <> 0) (shown show base ++ s).
Proof.
  intros (ds & -> & F & _) Hb. apply Forall_app. split.
  - unfold shown, prefix_text. destruct show; [|constructor]. destruct (base =? 2); [|destruct (base =? 8); [|destruct (base =? 16)] ]; repeat constructor; lia.
  - apply Forall_map. eapply Forall_impl; [|exact F]. intros d Hd. cbv beta in Hd. unfold digit_char. destruct (Z.ltb_spec d 10); [lia|]. destruct upper; lia.
Qed.
(** Every draw passes the stream tests of the unsigned numbers; of the signed ones exactly the draw 0 with the base shown
    in octal or hexadecimal does not (the number prints "0", the test expects "0o0", "0x0", "-0o0" or "-0x0"). *)
Theorem C129_streams : forall cfg n b show upper i draw digits, cfg_unsafe cfg = false -> 3 <= n -> 32 * n < 2 ^ 53 -> 0 <= draw < modulus n ->
  numeral (upper && (base_of b =? 16)) (base_of b) draw digits ->
  streamTrial cfg n b show upper draw digits = Ok true /\
  s_streamTrial cfg n b show upper i draw digits = Ok (negb (show && (negb (base_of b =? 10)) && (draw =? 0))).
Proof.
  intros cfg n b show upper i v ds U Hn H53 Hv HD. split.
  - unfold streamTrial. destruct (u_from_small cfg n v U ltac:(lia) Hv) as (a & -> & Wa & Va). cbn [bind].
    destruct (C37_stream_insertion cfg n (fresh_with (if show then [] else literal_prefix (base_of b)) b show upper) a ds Wa eq_refl H53) as (os & -> & O); [lia|rewrite Va; exact HD|].
    cbn [bind]. rewrite O. cbn [out fresh_with]. unfold os_shown, os_base. cbn [showbase basef fresh_with]. fold (base_of b). f_equal.
    replace ((if show then [] else literal_prefix (base_of b)) ++ shown show (base_of b) ++ ds) with (literal_prefix (base_of b) ++ ds); [apply text_eq_refl|].
    destruct show; reflexivity.
  - unfold s_streamTrial. cbv zeta. pose proof (signedDraw_abs i v ltac:(lia)) as AV. destruct (s_from cfg n (signedDraw i v) ltac:(lia) ltac:(lia)) as (a & -> & Ca & Va). cbn [bind].
    destruct (C56_signed_stream cfg n (fresh_with [] b show upper) a ds Ca eq_refl H53) as (os & -> & O); [lia|rewrite Va, AV; exact HD|].
    cbn [bind]. rewrite O. cbn [out fresh_with app]. unfold os_shown, os_base. cbn [showbase basef fresh_with]. fold (base_of b). rewrite Va, lp_shown. f_equal.
    destruct (Z.eqb_spec v 0) as [->|Nv].
    + replace (signedDraw i 0) with 0 by (unfold signedDraw; lia). change (0 <? 0) with false. change (0 =? 0) with true. cbn iota. rewrite andb_true_r.
      destruct show; cbn [andb negb app].
      2:{ apply text_eq_refl. }
      destruct (Z.eqb_spec (base_of b) 10) as [E10|N10]; cbn [negb].
      * rewrite E10. apply text_eq_refl.
      * apply text_eq_ne. intros E. apply (f_equal (@length Z)) in E. rewrite !app_length in E. unfold base_of in *. destruct b; cbn in E; lia.
    + rewrite andb_false_r. cbn [negb]. replace (signedDraw i v =? 0) with false by (unfold signedDraw; destruct (i mod 2 =? 0); lia).
      replace (if show && negb (base_of b =? 10) then negb (i mod 2 =? 0) else signedDraw i v <? 0) with (signedDraw i v <? 0); [apply text_eq_refl|].
      destruct (show && negb (base_of b =? 10)); [|reflexivity]. unfold signedDraw. destruct (i mod 2 =? 0); lia.
Qed.
Print Assumptions C129_streams.

Lemma draw_len n upper base v s : 2 <= n -> 2 <= base -> 0 <= v < modulus (n - 1) -> numeral upper base v s -> len s <= 32 * n - 32.
Proof. intros Hn Hb Hv HS. pose proof (numeral_len_bound (n - 1) upper base v s ltac:(lia) Hb Hv HS). lia. Qed.
Lemma modulus_less n : 2 <= n -> modulus (n - 1) < modulus n. Proof. intros. apply Z.pow_lt_mono_r; lia. Qed.

(** The array tests: for draws other than 0 the verdict is "equal" whatever the static array held before, and the array
    then holds the text.  For the draw 0 no terminator is written: the old contents behind the text are read as well. *)
Theorem C129_arrays : forall cfg n wide upper wfail base show buffer draw digits, cfg_unsafe cfg = false -> 2 <= n -> base_ok base ->
  len buffer = 32 * n + 2 -> len buffer < 2 ^ 64 -> 0 <= draw < 2 ^ (32 * n - 32) ->
  (base <> 2 -> numeral (upper && (base =? 16)) base draw digits) ->
  exists d, (if base =? 2 then gmpToBinaryString draw else Ok digits) = Ok d /\
  bufferTrial cfg n wide upper wfail base show buffer draw digits =
    if draw =? 0 then
      let text := (if show then literal_prefix base else []) ++ [48] in
      match string_view (skipn (length text) buffer) with
      | Ok stale => Ok (negb (base =? 2) && text_eq stale [], text ++ skipn (length text) buffer)
      | Err e => Err e
      end
    else Ok (true, (if show then literal_prefix base else []) ++ d ++ [0] ++ skipn (length ((if show then literal_prefix base else []) ++ d) + 1) buffer).
Proof.
  intros cfg n wide upper wfail base show buffer v digits U Hn Hb LB L64 Hv HN. rewrite lp_shown.
  assert (B2 : 2 <= base <= 16) by (destruct Hb as [-> |[-> |[-> | ->] ] ]; lia). pose proof (prefix_text_len base) as PL.
  assert (Hv' : 0 <= v < modulus (n - 1)) by (unfold modulus; replace (32 * (n - 1)) with (32 * n - 32) by lia; lia).
  pose proof (modulus_less n Hn) as ML. destruct (expected_digits (upper && (base =? 16)) base v digits ltac:(lia) HN) as (d & Ed & _ & HD). exists d. split; [exact Ed|].
  unfold bufferTrial. destruct (u_from_small cfg n v U ltac:(lia) ltac:(lia)) as (a & -> & Wa & Va). cbn [bind]. rewrite Ed. cbn [bind].
  assert (SL : len (shown show base) <= 2) by (unfold shown; destruct show; [lia|change (len (@nil Z)) with 0; lia]).
  destruct (Z.eqb_spec v 0) as [->|Nv].
  - rewrite C33_getString_zero by (auto; lia). cbv zeta. cbn [bind].
    assert (SI : shown_in (len buffer) show base = shown show base) by (unfold shown_in, shown; replace (len buffer >? 3) with true by lia; rewrite andb_true_r; reflexivity). rewrite SI.
    set (text := shown show base ++ [48]). assert (LT : Z.to_nat (len text) = length text) by (unfold len; apply Nat2Z.id). rewrite LT.
    assert (FZ : Forall (fun c => c <> 0) text). { apply (nonzero_text false base 0 [48] show); [|lia]. exists [0]. conjs; auto. constructor; [lia|auto]. }
    rewrite view_app by auto. destruct (string_view (skipn (length text) buffer)) as [st|e]; [|reflexivity]. cbn [bind]. rewrite lp_shown. do 2 f_equal.
    rewrite andb_true_r in HD. destruct (Z.eqb_spec base 2) as [->|N2]; cbn [negb andb].
    + subst d. apply text_eq_ne. intros E. apply (f_equal (@length Z)) in E. unfold text in E. rewrite !app_length in E. cbn in E. lia.
    + assert (d = [48]). { apply (numeral_unique (upper && (base =? 16)) base 0); auto; [lia|]. exists [0]. conjs; auto. constructor; [lia|auto]. }
      subst d. fold text. destruct st as [|c st]; [rewrite app_nil_r, !text_eq_refl; reflexivity|]. rewrite (text_eq_ne (c :: st) []) by congruence.
      apply text_eq_ne. intros E. apply (f_equal (@length Z)) in E. rewrite !app_length in E. cbn in E. lia.
  - rewrite andb_false_r in HD. assert (HD' : numeral (upper && (base =? 16)) base v d).
    { destruct (Z.eqb_spec base 2) as [->|]; [|exact HD]. change (2 =? 16) with false. rewrite andb_false_r. exact HD. }
    pose proof (draw_len n _ base v d Hn ltac:(lia) Hv' HD') as LD.
    assert (G : getString cfg n wide upper wfail base a buffer (len buffer) show = Ok ((shown show base ++ d ++ [0]) ++ skipn (Z.to_nat (len (shown show base ++ d) + 1)) buffer, len (shown show base ++ d) + 1)).
    { apply getString_ok; auto; try lia; try (rewrite Va; auto); rewrite len_app; lia. }
    rewrite G. cbn [bind]. replace ((shown show base ++ d ++ [0]) ++ skipn (Z.to_nat (len (shown show base ++ d) + 1)) buffer) with ((shown show base ++ d) ++ 0 :: skipn (Z.to_nat (len (shown show base ++ d) + 1)) buffer) by (rewrite <- !app_assoc; reflexivity).
    rewrite view_app by (eapply nonzero_text; [exact HD'|lia]). cbn [string_view Z.eqb bind]. rewrite app_nil_r, lp_shown, text_eq_refl. do 2 f_equal.
    rewrite <- app_assoc. cbn [app]. do 4 f_equal. unfold len. lia.
Qed.
Print Assumptions C129_arrays.
Theorem C129_signed_arrays : forall cfg n wide upper wfail base show buffer i draw digits, cfg_unsafe cfg = false -> 2 <= n -> base_ok base ->
  len buffer = 32 * n + 2 -> len buffer < 2 ^ 64 -> 0 <= draw < 2 ^ (32 * n - 32) ->
  (base <> 2 -> numeral (upper && (base =? 16)) base draw digits) ->
  exists d, (if base =? 2 then gmpToBinaryString draw else Ok digits) = Ok d /\
  s_bufferTrial cfg n wide upper wfail base show buffer i draw digits =
    if draw =? 0 then
      let text := (if show then literal_prefix base else []) ++ [48] in
      match string_view (skipn (length text) buffer) with
      | Ok stale => Ok (negb (base =? 2) && text_eq stale [] && negb (show && negb (base =? 10) && negb (i mod 2 =? 0)), text ++ skipn (length text) buffer)
      | Err e => Err e
      end
    else let text := (if i mod 2 =? 0 then [] else [45]) ++ (if show then literal_prefix base else []) ++ d in
      Ok (true, text ++ [0] ++ skipn (length text + 1) buffer).
Proof.
  intros cfg n wide upper wfail base show buffer i v digits U Hn Hb LB L64 Hv HN. rewrite lp_shown.
  assert (B2 : 2 <= base <= 16) by (destruct Hb as [-> |[-> |[-> | ->] ] ]; lia). pose proof (prefix_text_len base) as PL.
  assert (Hv' : 0 <= v < modulus (n - 1)) by (unfold modulus; replace (32 * (n - 1)) with (32 * n - 32) by lia; lia).
  pose proof (modulus_less n Hn) as ML. destruct (expected_digits (upper && (base =? 16)) base v digits ltac:(lia) HN) as (d & Ed & _ & HD). exists d. split; [exact Ed|].
  unfold s_bufferTrial. cbv zeta. pose proof (signedDraw_abs i v ltac:(lia)) as AV. rewrite AV.
  destruct (s_from cfg n (signedDraw i v) ltac:(lia) ltac:(lia)) as (a & -> & Ca & Va). cbn [bind]. rewrite Ed. cbn [bind].
  assert (SL : len (shown show base) <= 2) by (unfold shown; destruct show; [lia|change (len (@nil Z)) with 0; lia]). pose proof (len_nonneg (shown show base)) as SL0.
  destruct (Z.eqb_spec v 0) as [->|Nv].
  - assert (V0 : signedDraw i 0 = 0) by (unfold signedDraw; lia). rewrite V0 in *.
    rewrite C56_signed_text_zero_partial by (auto; lia). cbn [bind].
    set (text := shown show base ++ [48]). assert (LT : Z.to_nat (len text) = length text) by (unfold len; apply Nat2Z.id). rewrite LT.
    assert (FZ : Forall (fun c => c <> 0) text). { apply (nonzero_text false base 0 [48] show); [|lia]. exists [0]. conjs; auto. constructor; [lia|auto]. }
    rewrite view_app by auto. destruct (string_view (skipn (length text) buffer)) as [st|e]; [|reflexivity]. cbn [bind]. rewrite lp_shown. do 2 f_equal.
    change (0 <? 0) with false. rewrite andb_true_r in HD. destruct (Z.eqb_spec base 2) as [->|N2]; cbn [negb andb orb].
    + subst d. apply text_eq_ne. intros E. assert (E0 := f_equal (hd 7) E). apply (f_equal (@length Z)) in E. unfold text in E, E0. rewrite !app_length in E.
      destruct (i mod 2 =? 0); cbn [negb length app] in E, E0; [lia|]. destruct show; cbn in E0; lia.
    + assert (d = [48]). { apply (numeral_unique (upper && (base =? 16)) base 0); auto; [lia|]. exists [0]. conjs; auto. constructor; [lia|auto]. }
      subst d. fold text.
      assert (T0 : forall t, text_eq (text ++ st) ([45] ++ t) = false). { intros t. apply text_eq_ne. intros E. apply (f_equal (hd 7)) in E. unfold text, shown, prefix_text in E.
        destruct show; [|cbn in E; lia]. destruct Hb as [-> |[-> |[-> | ->] ] ]; cbn in E; lia. }
      assert (T1 : text_eq (text ++ st) ([] ++ text) = text_eq st []).
      { cbn [app]. destruct st as [|c st]; [rewrite app_nil_r, !text_eq_refl; reflexivity|]. rewrite (text_eq_ne (c :: st) []) by congruence.
        apply text_eq_ne. intros E. apply (f_equal (@length Z)) in E. rewrite !app_length in E. cbn in E. lia. }
      destruct (show && negb (base =? 10)); cbn [andb negb]; [|rewrite T1, andb_true_r; reflexivity].
      destruct (i mod 2 =? 0); cbn [negb]; [rewrite T1, andb_true_r; reflexivity|rewrite T0, andb_false_r; reflexivity].
  - rewrite andb_false_r in HD. assert (HD' : numeral (upper && (base =? 16)) base v d).
    { destruct (Z.eqb_spec base 2) as [->|]; [|exact HD]. change (2 =? 16) with false. rewrite andb_false_r. exact HD. }
    pose proof (draw_len n _ base v d Hn ltac:(lia) Hv' HD') as LD. pose proof (len_nonneg d) as LD0.
    assert (SG : (signedDraw i v <? 0) = negb (i mod 2 =? 0)) by (unfold signedDraw; destruct (i mod 2 =? 0); cbn [negb]; lia).
    destruct (C56_signed_text_partial cfg n wide upper wfail base a buffer (len buffer) show d) as (k & G & _); auto; try lia; try (rewrite Va; unfold signedDraw; destruct (i mod 2 =? 0); lia).
    { rewrite Va, AV. exact HD'. }
    { rewrite !len_app. destruct (sval a <? 0); [change (len [45]) with 1|change (len (@nil Z)) with 0]; lia. }
    rewrite G. cbn [bind]. rewrite Va, SG, lp_shown.
    replace (if (base =? 2) || show && negb (base =? 10) then negb (i mod 2 =? 0) else negb (i mod 2 =? 0)) with (negb (i mod 2 =? 0)) by (destruct ((base =? 2) || show && negb (base =? 10)); reflexivity).
    replace (if negb (i mod 2 =? 0) then [45] else []) with (if i mod 2 =? 0 then [] else [45]) by (destruct (i mod 2 =? 0); reflexivity).
    set (text := (if i mod 2 =? 0 then [] else [45]) ++ shown show base ++ d).
    replace (((if i mod 2 =? 0 then [] else [45]) ++ shown show base ++ d ++ [0]) ++ skipn (Z.to_nat (len text + 1)) buffer) with (text ++ 0 :: skipn (Z.to_nat (len text + 1)) buffer) by (unfold text; rewrite <- !app_assoc; reflexivity).
    rewrite view_app.
    2:{ unfold text. apply Forall_app. split; [destruct (i mod 2 =? 0); repeat constructor; lia|]. eapply nonzero_text; [exact HD'|lia]. }
    cbn [string_view Z.eqb bind]. rewrite app_nil_r, text_eq_refl. do 2 f_equal. cbn [app]. do 2 f_equal. f_equal. unfold len. lia.
Qed.
Print Assumptions C129_signed_arrays.
(** A whole run of the array tests passes if no draw is 0, whatever the array held at first. *)
Theorem C129_array_loop : forall cfg n wide wfail sel show draws buffer i, cfg_unsafe cfg = false -> 2 <= n -> len buffer = 32 * n + 2 -> len buffer < 2 ^ 64 ->
  (forall j, base_ok (fst (sel j))) ->
  Forall (fun '(v, _) => 0 < v < 2 ^ (32 * n - 32)) draws ->
  (forall j v digits, nth_error draws j = Some (v, digits) -> let base := fst (sel (i + Z.of_nat j)) in
     base <> 2 -> numeral (snd (sel (i + Z.of_nat j)) && (base =? 16)) base v digits) ->
  formatLoop cfg n wide wfail sel show buffer i draws = Ok true.
Proof.
  intros cfg n wide wfail sel show draws. induction draws as [|[v ds] rest IH]; intros buffer i U Hn LB L64 HS F HD; cbn [formatLoop]; [reflexivity|].
  inversion F as [|? ? Hv Frest]; subst. cbv beta in Hv.
  destruct (C129_arrays cfg n wide (snd (sel i)) wfail (fst (sel i)) show buffer v ds U Hn (HS i) LB L64 ltac:(lia)) as (d & Ed & ->).
  { intros N2. specialize (HD O v ds eq_refl). cbv zeta in HD. rewrite Z.add_0_r in HD. auto. }
  replace (v =? 0) with false by lia. cbn [bind]. rewrite lp_shown.
  set (text := shown show (fst (sel i)) ++ d).
  assert (LT : (length text + 1 <= length buffer)%nat).
  { assert (B2 : 2 <= fst (sel i) <= 16) by (destruct (HS i) as [-> |[-> |[-> | ->] ] ]; lia). pose proof (prefix_text_len (fst (sel i))) as PL.
    assert (Hv' : 0 <= v < modulus (n - 1)) by (unfold modulus; replace (32 * (n - 1)) with (32 * n - 32) by lia; lia).
    assert (Nd : exists u, numeral u (fst (sel i)) v d).
    { destruct (Z.eqb_spec (fst (sel i)) 2) as [E2|N2].
      - pose proof (binary_text v ltac:(lia)) as B. replace (v =? 0) with false in B by lia. destruct B as (s & Ns & Es & _). rewrite Es in Ed. injection Ed as <-. exists false. rewrite E2. auto.
      - injection Ed as <-. specialize (HD O v ds eq_refl). cbv zeta in HD. rewrite Z.add_0_r in HD. eauto. }
    destruct Nd as (u & Nd). pose proof (draw_len n u (fst (sel i)) v d Hn ltac:(lia) Hv' Nd) as LD. unfold text. rewrite app_length. unfold len in *.
    assert (length (shown show (fst (sel i))) <= 2)%nat by (unfold shown; destruct show; [lia|cbn; lia]). lia. }
  rewrite IH; auto.
  - replace (shown show (fst (sel i)) ++ d ++ [0] ++ skipn (length text + 1) buffer) with (text ++ [0] ++ skipn (length text + 1) buffer) by (unfold text; rewrite <- app_assoc; reflexivity).
    unfold len in *. rewrite !app_length, skipn_length. cbn [length]. lia.
  - replace (shown show (fst (sel i)) ++ d ++ [0] ++ skipn (length text + 1) buffer) with (text ++ [0] ++ skipn (length text + 1) buffer) by (unfold text; rewrite <- app_assoc; reflexivity).
    unfold len in *. rewrite !app_length, skipn_length. cbn [length]. lia.
  - intros j v' ds' E. specialize (HD (S j) v' ds' E). cbv zeta in HD |- *. replace (i + 1 + Z.of_nat j) with (i + Z.of_nat (S j)) by lia. exact HD.
Qed.
Print Assumptions C129_array_loop.
(** The run passes exactly if every trial passes: trial [j] on the array trial [j - 1] left. *)
Theorem C129_loop_all : forall cfg n wide wfail sel show draws buffer i,
  formatLoop cfg n wide wfail sel show buffer i draws = Ok true <->
  exists arrays, nth_error arrays 0 = Some buffer /\ length arrays = S (length draws) /\
    forall j v digits, nth_error draws j = Some (v, digits) -> exists b b', nth_error arrays j = Some b /\ nth_error arrays (S j) = Some b' /\
      bufferTrial cfg n wide (snd (sel (i + Z.of_nat j))) wfail (fst (sel (i + Z.of_nat j))) show b v digits = Ok (true, b').
Proof.
  intros cfg n wide wfail sel show draws. induction draws as [|[v ds] rest IH]; intros buffer i; cbn [formatLoop].
  - split; [|reflexivity]. intros _. exists [buffer]. conjs; [reflexivity|reflexivity|]. intros [|j] v ds E; discriminate.
  - split.
    + destruct (bufferTrial cfg n wide (snd (sel i)) wfail (fst (sel i)) show buffer v ds) as [ [ok b]|] eqn:B; cbn [bind]; [|discriminate].
      destruct (formatLoop cfg n wide wfail sel show b (i + 1) rest) as [more|] eqn:M; cbn [bind]; [|discriminate].
      intros E. injection E as E. apply andb_prop in E. destruct E as [-> ->]. apply IH in M. destruct M as (arr & A0 & AL & AT).
      exists (buffer :: arr). conjs; [reflexivity|cbn [length]; lia|]. intros [|j] v' ds' E.
      * injection E as <- <-. exists buffer, b. conjs; [reflexivity|exact A0|]. change (Z.of_nat 0) with 0. rewrite Z.add_0_r. exact B.
      * cbn [nth_error] in E. destruct (AT j v' ds' E) as (x & y & X & Y & T). exists x, y. conjs; [exact X|exact Y|].
        replace (i + Z.of_nat (S j)) with (i + 1 + Z.of_nat j) by lia. exact T.
    + intros (arr & A0 & AL & AT). destruct arr as [|x arr]; [discriminate|]. injection A0 as ->.
      destruct (AT O v ds eq_refl) as (b & b' & E0 & E1 & T). injection E0 as <-. change (Z.of_nat 0) with 0 in T. rewrite Z.add_0_r in T. rewrite T. cbn [bind].
      assert (M : formatLoop cfg n wide wfail sel show b' (i + 1) rest = Ok true).
      { apply IH. exists arr. conjs; [exact E1|cbn [length] in AL; lia|]. intros j v' ds' E. destruct (AT (S j) v' ds' E) as (p & q & P & Q & R).
        exists p, q. conjs; [exact P|exact Q|]. replace (i + 1 + Z.of_nat j) with (i + Z.of_nat (S j)) by lia. exact R. }
      rewrite M. reflexivity.
Qed.
Print Assumptions C129_loop_all.
(** Draw 0 behind a longer text fails the test, first it passes. *)
Example C129_example :
  let sel := fun i => nth (Z.to_nat (i mod 5)) [(8, false); (16, false); (16, true); (10, false); (2, false)] (10, false) in
  formatLoop cfg0 3 false nofail sel false (zeros 98) 0 [(64, [49; 48; 48]); (255, [102; 102]); (255, [70; 70]); (42, [52; 50]); (5, [])] = Ok true /\
  formatLoop cfg0 3 false nofail sel false (zeros 98) 0 [(64, [49; 48; 48]); (0, [48])] = Ok false /\
  formatLoop cfg0 3 false nofail sel false (zeros 98) 0 [(0, [48]); (0, [48])] = Ok true /\
  s_streamTrial cfg0 3 BHex true false 1 0 [48] = Ok false /\ s_streamTrial cfg0 3 BHex true true 1 255 [70; 70] = Ok true.
Proof. cbv zeta. conjs; vm_compute; reflexivity. Qed.

(** ** C130: the comparisons across widths *)
Lemma eqb_refl_all x y : Bool.eqb (x >? y) (x >? y) && Bool.eqb (x <? y) (x <? y) && Bool.eqb (x =? y) (x =? y) && Bool.eqb (x <=? y) (x <=? y) && Bool.eqb (x >=? y) (x >=? y) = true.
Proof. rewrite !Bool.eqb_reflx. reflexivity. Qed.
Lemma gt_verdict o x y : (o = OLess <-> x < y) /\ (o = OEqual <-> x = y) /\ (o = OGreater <-> x > y) -> is_gt o = (x >? y) /\ is_lt o = (x <? y).
Proof.
  intros (L & E & G). destruct o; cbn [is_gt is_lt].
  - assert (x < y) by tauto. lia.
  - assert (x = y) by tauto. lia.
  - assert (x > y) by tauto. lia.
  - destruct (Z.lt_trichotomy x y) as [H|[H|H] ]; [apply L in H|apply E in H|apply Z.lt_gt in H; apply G in H]; discriminate.
Qed.
Theorem C130_values_at_all_widths : forall cfg n m j1 j2 iv low high, 2 <= n -> 2 <= m -> len j1 = n -> len j2 = m ->
  0 <= iv < 2 ^ 64 -> 0 <= low < 2 ^ 64 -> 0 <= high < 2 ^ 64 ->
  crossTrial cfg n m j1 j2 iv low high = Ok ((low <? iv) && (iv <? high)) /\
  s_crossTrial cfg n m iv low high = Ok ((low <? iv) && (iv <? high)).
Proof.
  intros cfg n m j1 j2 iv lo hi Hn Hm L1 L2 Hv Hl Hh. assert (M1 : 2 ^ 64 <= modulus n) by (apply Z.pow_le_mono_r; lia). assert (M2 : 2 ^ 64 <= modulus m) by (apply Z.pow_le_mono_r; lia). split.
  - unfold crossTrial. destruct (from_unsigned_correct n j1 iv ltac:(lia) L1 Hv) as (a & -> & Wa & Va). destruct (from_unsigned_correct m j2 iv ltac:(lia) L2 Hv) as (b & -> & Wb & Vb). cbn [bind].
    rewrite Z.mod_small in Va by lia. rewrite Z.mod_small in Vb by lia. rewrite op_eq_cross by auto. cbn [bind].
    destruct (C15_comparison_builtin n a iv Hn Wa) as [_ H1]. destruct (H1 Hv) as (-> & _). cbn [bind].
    destruct (C15_comparison_builtin n a lo Hn Wa) as [_ H2]. destruct (H2 Hl) as (_ & o & -> & O). cbn [bind].
    destruct (C15_comparison_builtin n a hi Hn Wa) as [_ H3]. destruct (H3 Hh) as (_ & q & -> & Q). cbn [bind].
    rewrite (proj1 (gt_verdict _ _ _ O)), (proj2 (gt_verdict _ _ _ Q)). rewrite Va, Vb, Z.eqb_refl. cbn [andb]. rewrite Z.gtb_ltb. reflexivity.
  - unfold s_crossTrial. assert (R : in_ity uint64 iv = true) by (unfold in_ity, ity_min, ity_max, uint64; cbn [isigned iwidth]; lia).
    destruct (s_from_int_correct n uint64 iv ltac:(lia) eq_refl R) as (a & -> & Ca & Va); [right; lia|discriminate|].
    destruct (s_from_int_correct m uint64 iv ltac:(lia) eq_refl R) as (b & -> & Cb & Vb); [right; lia|discriminate|]. cbn [bind].
    pose proof (canon_swf _ _ Ca) as Sa. pose proof (canon_swf _ _ Cb) as Sb.
    rewrite (proj1 (C48_signed_comparison_across_precisions_partial cfg n m a b ltac:(lia) ltac:(lia) Sa Sb ltac:(lia))). cbn [bind].
    destruct (C49_signed_comparison_builtin n a iv Hn Sa ltac:(lia)) as (-> & _). cbn [bind].
    destruct (C49_signed_comparison_builtin n a lo Hn Sa ltac:(lia)) as (_ & _ & o & -> & O). cbn [bind].
    destruct (C49_signed_comparison_builtin n a hi Hn Sa ltac:(lia)) as (_ & _ & q & -> & Q). cbn [bind].
    rewrite (proj1 (gt_verdict _ _ _ O)), (proj2 (gt_verdict _ _ _ Q)). rewrite Va, Vb, Z.eqb_refl. cbn [andb]. rewrite Z.gtb_ltb. reflexivity.
Qed.
Print Assumptions C130_values_at_all_widths.
(** Two literals read at two widths compare as the integers they denote (TextSpec: digits, a base prefix, other characters
    such as the final dot of the test's literals skipped) if both fit both widths; signed: dashes negate. *)
Definition signed_value (alnum : Z -> bool) (s : list Z) : Z := if odd_dashes s then - string_value alnum s else string_value alnum s.
Theorem C130_literals_at_two_widths : forall cfg n m alnum t0 t1, 1 <= n -> 1 <= m -> alnum_ok alnum -> alnum 0 = false ->
  Forall (fun c => 0 <= c) t0 -> Forall (fun c => 0 <= c) t1 -> 0 <= string_value alnum t0 < modulus (Z.min n m) -> 0 <= string_value alnum t1 < modulus (Z.min n m) ->
  orderTrial cfg n m alnum t0 t1 (string_value alnum t0) (string_value alnum t1) = Ok true /\
  s_orderTrial cfg n m alnum t0 t1 (signed_value alnum t0) (signed_value alnum t1) = Ok true.
Proof.
  intros cfg n m alnum t0 t1 Hn Hm Ha A0 F0 F1 V0 V1.
  assert (M0 : modulus (Z.min n m) <= modulus n) by (apply Z.pow_le_mono_r; lia). assert (M1 : modulus (Z.min n m) <= modulus m) by (apply Z.pow_le_mono_r; lia). split.
  - unfold orderTrial. destruct (C32_literal_construction n false alnum t0 ltac:(lia) Ha A0 F0) as (a & -> & Wa & Va). destruct (C32_literal_construction m false alnum t1 ltac:(lia) Ha A0 F1) as (b & -> & Wb & Vb). cbn [bind].
    rewrite Z.mod_small in Va by lia. rewrite Z.mod_small in Vb by lia.
    destruct (C17_ordering_across_precisions_partial cfg n m a b Wa Wb) as (EL & ELE & EG & EGE); [left; unfold modulus in *; lia|]. rewrite EG, EL, ELE, EGE. cbn [bind].
    rewrite op_eq_cross by auto. cbn [bind]. rewrite Va, Vb, eqb_refl_all. reflexivity.
  - unfold s_orderTrial. destruct (C57_signed_literal_construction n false alnum t0 Hn Ha A0 F0) as (a & -> & Ca & Va). destruct (C57_signed_literal_construction m false alnum t1 Hm Ha A0 F1) as (b & -> & Cb & Vb). cbn [bind].
    rewrite Z.mod_small in Va by lia. rewrite Z.mod_small in Vb by lia. fold (signed_value alnum t0) in Va. fold (signed_value alnum t1) in Vb.
    assert (A : Z.abs (sval a) < modulus m) by (rewrite Va; unfold signed_value; destruct (odd_dashes t0); lia).
    destruct (C48_signed_comparison_across_precisions_partial cfg n m a b Hn Hm (canon_swf _ _ Ca) (canon_swf _ _ Cb) A) as (EE & _ & EL & ELE & EG & EGE).
    rewrite EG, EL, EE, ELE, EGE. cbn [bind]. rewrite Va, Vb, eqb_refl_all. reflexivity.
Qed.
Print Assumptions C130_literals_at_two_widths.
(** "1904621738309688096963.", "-0x1EB651E8." *)
Example C130_example : let t0 := [49; 57; 48; 52; 54; 50; 49; 55; 51; 56; 51; 48; 57; 54; 56; 56; 48; 57; 54; 57; 54; 51; 46] in let t1 := [45; 48; 120; 49; 69; 66; 54; 53; 49; 69; 56; 46] in
  string_value ascii_alnum t0 = 1904621738309688096963 /\ signed_value ascii_alnum t1 = - 515265000 /\
  orderTrial cfg0 3 5 ascii_alnum t0 t1 1904621738309688096963 515265000 = Ok true /\ s_orderTrial cfg0 3 5 ascii_alnum t0 t1 1904621738309688096963 (-515265000) = Ok true /\
  crossTrial cfg0 3 5 [7; 7; 7] [8; 8; 8; 8; 8] 9112537908201049656 9112537908201000000 9999999999999999999 = Ok true.
Proof. cbv zeta. conjs; vm_compute; reflexivity. Qed.
