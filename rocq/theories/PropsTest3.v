(** * PropsTest3: comparison, parity, root, shift, complement, power-of-two, cast and stream tests (C108-C110). *)
From Coq Require Import ZifyBool.
From Coq Require Znumtheory.
From Verif Require Import Spec Lib AeuModel AeuArith AeuBits AeuAccess AeuDiv AeuFacts AeuMore AesiModel AesiArith AesiFacts
  MixModel MixFacts BinModel BinFacts TestModel TestFacts PropsMix PropsTest PropsExact PropsTest2 PropsUse2 PropsAesi
  TextSpec TextModel TextFacts TextMore TextOut PropsText TestModel2.
Open Scope Z_scope.

(** ** C108 *)
Lemma s_spaceship_same cfg n a b : 1 <= n -> swf n a -> swf n b ->
  s_lt cfg n n a b = Ok (sval a <? sval b) /\ s_le cfg n n a b = Ok (sval a <=? sval b) /\ s_gt cfg n n a b = Ok (sval a >? sval b) /\
  s_ge cfg n n a b = Ok (sval a >=? sval b) /\ s_eq cfg n n a b = Ok (sval a =? sval b).
Proof.
  intros Hn Wa Wb. destruct (s_cmp_all cfg n a b Hn Wa Wb) as (-> & -> & ->). conjs; auto; unfold s_le, s_ge, s_spaceship, s_compareTo_x;
    rewrite Z.eqb_refl; rewrite s_compareTo_correct by auto; cbn [bind]; unfold zcmp;
    destruct (Z.gtb_spec (sval a) (sval b)), (Z.ltb_spec (sval a) (sval b)); cbn; f_equal; lia.
Qed.
(** test/boolean/boolean.cpp l.16-34 *)
Theorem C108_comparisons : forall cfg n l r, cfg_unsafe cfg = false -> 1 <= n ->
  (0 <= l < modulus n -> 0 <= r < modulus n ->
   checkComparisons (onAeu cfg n) (op_lt cfg n n) (op_le cfg n n) (op_gt cfg n n) (op_ge cfg n n) (op_eq cfg n n) l r = Ok true) /\
  (Z.abs l < modulus n -> Z.abs r < modulus n ->
   checkComparisons (onAesi cfg n) (s_lt cfg n n) (s_le cfg n n) (s_gt cfg n n) (s_ge cfg n n) (s_eq cfg n n) l r = Ok true).
Proof.
  intros cfg n l r U Hn. split; intros Hl Hr; unfold checkComparisons, onAeu, onAesi; cbn [t_from].
  - destruct (u_from_small cfg n l U ltac:(lia) Hl) as (a & -> & Wa & Va). destruct (u_from_small cfg n r U ltac:(lia) Hr) as (b & -> & Wb & Vb). cbn [bind].
    rewrite op_lt_same, op_le_same, op_gt_same, op_ge_same, op_eq_cross by auto. cbn [bind]. rewrite Va, Vb, !eqb_reflx. reflexivity.
  - destruct (s_from cfg n l ltac:(lia) Hl) as (a & -> & Ca & Va). destruct (s_from cfg n r ltac:(lia) Hr) as (b & -> & Cb & Vb). cbn [bind].
    destruct (s_spaceship_same cfg n a b Hn (canon_swf _ _ Ca) (canon_swf _ _ Cb)) as (-> & -> & -> & -> & ->). cbn [bind]. rewrite Va, Vb, !eqb_reflx. reflexivity.
Qed.
Print Assumptions C108_comparisons.
(** test/arithmetic/odd_even.cpp; negative numbers included, although the test draws none *)
Theorem C108_parity : forall cfg n v, cfg_unsafe cfg = false -> 1 <= n ->
  (0 <= v < modulus n -> oddEven (onAeu cfg n) isEven isOdd v = Ok true) /\
  (Z.abs v < modulus n -> oddEven (onAesi cfg n) s_isEven s_isOdd v = Ok true).
Proof.
  intros cfg n v U Hn. split; intros Hv; unfold oddEven, onAeu, onAesi; cbn [t_from].
  - destruct (u_from_small cfg n v U ltac:(lia) Hv) as (a & -> & Wa & Va). cbn [bind]. rewrite (isEven_spec n), (isOdd_spec n) by auto. cbn [bind]. rewrite Va, !eqb_reflx. reflexivity.
  - destruct (s_from cfg n v ltac:(lia) Hv) as (a & -> & [Wa Ca] & Va). cbn [bind]. unfold s_isEven, s_isOdd. rewrite (isEven_spec n), (isOdd_spec n) by auto. cbn [bind].
    assert (E : bval (mag a) = Z.abs v) by (rewrite <- Va; pose proof (bval_bound n _ Wa); unfold sval; destruct (sgn a) eqn:S; [|lia|lia]; rewrite (proj1 Ca) by auto; reflexivity).
    rewrite E. destruct (Z.abs_eq_or_opp v) as [-> | ->]; rewrite ?Z.even_opp, ?Z.odd_opp, !eqb_reflx; reflexivity.
Qed.
Print Assumptions C108_parity.
(** test/arithmetic/square-root.cpp *)
Theorem C108_square_roots : forall cfg fuel n i draw, cfg_unsafe cfg = false -> 2 <= n -> 16 * n + 3 <= Z.of_nat fuel -> 0 <= draw < modulus n ->
  unsignedSquareRoot cfg fuel n draw = Ok true /\ signedSquareRoot cfg fuel n i draw = Ok true.
Proof.
  intros cfg fuel n i v U Hn HF Hv. assert (SQ : 0 <= Z.sqrt v < modulus n) by (pose proof (Z.sqrt_nonneg v); pose proof (Z.sqrt_le_lin v ltac:(lia)); lia). split.
  - unfold unsignedSquareRoot. destruct (u_from_small cfg n v U ltac:(lia) Hv) as (a & -> & Wa & Va). cbn [bind].
    destruct (squareRoot_correct cfg n fuel a ltac:(lia) Wa HF) as (r & -> & Wr & Vr). cbn [bind]. rewrite u_eq by auto. rewrite Vr, Va, Z.abs_eq, Z.mod_small, Z.eqb_refl by lia. reflexivity.
  - unfold signedSquareRoot. cbv zeta. set (s := if i mod 2 =? 0 then 1 else -1).
    assert (A : Z.abs (s * v) < modulus n) by (unfold s; destruct (i mod 2 =? 0); lia).
    destruct (s_from cfg n _ ltac:(lia) A) as (a & -> & Ca & Va). cbn [bind].
    destruct (s_squareRoot_correct cfg n fuel a ltac:(lia) (canon_swf _ _ Ca) HF) as (r & -> & Cr & Vr). cbn [bind]. rewrite Va in Vr. unfold s in *.
    destruct (i mod 2 =? 0).
    + rewrite Z.mul_1_l in *. rewrite s_eq_z; [|lia|apply canon_swf; auto|lia]. rewrite Vr. destruct (Z.gtb_spec v 0); [rewrite Z.eqb_refl; auto|].
      replace v with 0 by lia. reflexivity.
    + replace (-1 * v >? 0) with false in Vr by lia. unfold s_eq_int. rewrite s_compareTo_int_correct; [|lia|apply canon_swf; auto|lia]. rewrite Vr. reflexivity.
Qed.
Print Assumptions C108_square_roots.
(** test/bitwise/shift.cpp: bitness 1024, draws below 2^200 and 2^990, shifts up to 711 and 767 *)
Theorem C108_shifts : forall cfg n value1 value2 shift, cfg_unsafe cfg = false -> 1 <= n -> 0 <= shift < 32 * n -> 0 <= value1 -> 0 <= value2 ->
  shiftTrial cfg n (op_shl n) (shl_assign n) Z.shiftl value1 value2 shift = Ok true /\
  (value1 < modulus n -> value2 < modulus n -> shiftTrial cfg n (op_shr n) (shr_assign n) Z.shiftr value1 value2 shift = Ok true).
Proof.
  intros cfg n v1 v2 s U Hn Hs H1 H2. pose proof (modulus_pos n ltac:(lia)) as HM. unfold shiftTrial, op_shl, op_shr. split.
  - destruct (u_from cfg n v1 U ltac:(lia)) as (a & -> & Wa & Va). destruct (u_from cfg n v2 U ltac:(lia)) as (b & -> & Wb & Vb). cbn [bind].
    destruct (shl_total n a s Wa ltac:(lia)) as (x & -> & Wx & Vx). destruct (shl_total n b s Wb ltac:(lia)) as (y & Ey & Wy & Vy). cbn [bind].
    rewrite u_eq by auto. cbn [bind]. rewrite Ey. cbn [bind]. rewrite u_eq by auto. cbn [bind]. replace (s <? 32 * n) with true in * by lia. rewrite !Z.shiftl_mul_pow2 by lia.
    assert (P : 0 < 2 ^ s) by (apply Z.pow_pos_nonneg; lia).
    rewrite Vx, Vy, Va, Vb, !Z.abs_eq by lia. rewrite !Z.mul_mod_idemp_l by lia. rewrite !Z.eqb_refl. reflexivity.
  - intros B1 B2. destruct (u_from_small cfg n v1 U ltac:(lia) ltac:(lia)) as (a & -> & Wa & Va). destruct (u_from_small cfg n v2 U ltac:(lia) ltac:(lia)) as (b & -> & Wb & Vb). cbn [bind].
    destruct (shr_total n a s Wa ltac:(lia)) as (x & -> & Wx & Vx). destruct (shr_total n b s Wb ltac:(lia)) as (y & Ey & Wy & Vy). cbn [bind].
    rewrite u_eq by auto. cbn [bind]. rewrite Ey. cbn [bind]. rewrite u_eq by auto. cbn [bind]. replace (s <? 32 * n) with true in * by lia. rewrite !Z.shiftr_div_pow2 by lia.
    pose proof (bval_bound n x Wx). pose proof (bval_bound n y Wy).
    rewrite Va in *. rewrite Vb in *. rewrite <- Vx, <- Vy. rewrite !Z.abs_eq, !Z.mod_small by lia. rewrite !Z.eqb_refl. reflexivity.
Qed.
Print Assumptions C108_shifts.
Example C108_example : checkComparisons (onAesi cfg0 2) (s_lt cfg0 2 2) (s_le cfg0 2 2) (s_gt cfg0 2 2) (s_ge cfg0 2 2) (s_eq cfg0 2 2) (-5) 4294967297 = Ok true /\
  oddEven (onAesi cfg0 2) s_isEven s_isOdd (-4294967297) = Ok true /\ signedSquareRoot cfg0 40 2 0 1000000000000 = Ok true /\ signedSquareRoot cfg0 40 2 1 1000000000000 = Ok true /\
  shiftTrial cfg0 2 (op_shl 2) (shl_assign 2) Z.shiftl 18446744073709551615 5 33 = Ok true /\ shiftTrial cfg0 2 (op_shr 2) (shr_assign 2) Z.shiftr 18446744073709551615 5 33 = Ok true.
Proof. conjs; vm_compute; reflexivity. Qed.

(** ** C109: the tests that compare with text *)
Lemma bits16 : forall base ds, base <= 16 -> Forall (fun d => 0 <= d < base) ds -> Forall (fun c => 48 <= c) (map (digit_char false) ds).
Proof. intros base ds Hb F. apply Forall_map. eapply Forall_impl; [|exact F]. intros d Hd. cbn beta in *. unfold digit_char. destruct (Z.ltb_spec d 10); cbn iota; lia. Qed.
Lemma parse_base n alnum p base ds : 0 <= n -> alnum_ok alnum -> prefix_base p = Some base -> base <= 16 -> Forall (fun d => 0 <= d < base) ds ->
  yields n (from_string n false alnum ([48; p] ++ map (digit_char false) ds)) (dvalue base ds mod modulus n).
Proof.
  intros Hn Ha Hp Hb F. pose proof (from_string_prefixed n false alnum [] p base (map (digit_char false) ds) Hn (Forall_nil _) Ha Hp) as Y.
  cbn [app] in Y. rewrite digits_in_numeral in Y by auto. exact Y.
Qed.
Lemma no_dashes s : Forall (fun c => 48 <= c) s -> odd_dashes s = false.
Proof. intros F. unfold odd_dashes. replace (count_occ Z.eq_dec s 45) with 0%nat; [reflexivity|]. symmetry. apply count_occ_not_In. intros I. rewrite Forall_forall in F. specialize (F _ I). lia. Qed.
Lemma s_parse_hex n alnum ds : 1 <= n -> alnum_ok alnum -> Forall (fun d => 0 <= d < 16) ds ->
  exists r, s_from_string n false alnum ([48; 120] ++ map (digit_char false) ds) = Ok r /\ canon n r /\ sval r = dvalue 16 ds mod modulus n.
Proof.
  intros Hn Ha F. pose proof (parse_base n alnum 120 16 ds ltac:(lia) Ha eq_refl ltac:(lia) F) as Y. unfold from_string in Y.
  destruct (s_from_chars_lift n false alnum ([48; 120] ++ map (digit_char false) ds) _ Y) as (r & E & C & V). exists r. split; [exact E|]. split; [exact C|].
  rewrite V, no_dashes; [reflexivity|]. apply Forall_app. split; [repeat constructor; lia|]. apply (bits16 16); auto; lia.
Qed.
Theorem C109_powers_of_two : forall cfg n alnum i text, cfg_unsafe cfg = false -> 2 <= n -> alnum_ok alnum ->
  (0 <= i < 32 * n -> numeral false 16 (2 ^ i) text -> power2Trial cfg n alnum i text = Ok true /\ s_power2Trial cfg n alnum i text = Ok true) /\
  power2Top cfg n = Ok true /\ s_power2Top cfg n = Ok true.
Proof.
  intros cfg n alnum i text U Hn Ha. conjs.
  - intros Hi (ds & -> & F & V & _). assert (P : 0 <= 2 ^ i < modulus n) by (split; [apply Z.pow_nonneg; lia|apply Z.pow_lt_mono_r; lia]). split.
    + unfold power2Trial. destruct (power2_total cfg n i U ltac:(lia) ltac:(lia)) as (x & -> & Wx & Vx). cbn [bind].
      destruct (parse_base n alnum 120 16 ds ltac:(lia) Ha eq_refl ltac:(lia) F) as (y & -> & Wy & Vy). cbn [bind]. rewrite op_eq_cross by auto.
      replace (i <? 32 * n) with true in Vx by lia. rewrite V, Z.mod_small in Vy by auto. rewrite Vx, Vy, Z.eqb_refl. auto.
    + unfold s_power2Trial. destruct (s_power2_correct cfg n i U ltac:(lia) ltac:(lia)) as (x & -> & Cx & Vx). cbn [bind].
      destruct (s_parse_hex n alnum ds ltac:(lia) Ha F) as (y & -> & Cy & Vy). cbn [bind].
      destruct (s_spaceship_same cfg n x y ltac:(lia) (canon_swf _ _ Cx) (canon_swf _ _ Cy)) as (_ & _ & _ & _ & ->).
      replace (i <? 32 * n) with true in Vx by lia. rewrite V, Z.mod_small in Vy by auto. rewrite Vx, Vy, Z.eqb_refl. auto.
  - unfold power2Top. destruct (power2_total cfg n (32 * n) U ltac:(lia) ltac:(lia)) as (x & -> & Wx & Vx). cbn [bind].
    rewrite op_eq_u32_spec by (auto; lia). rewrite Vx, Z.ltb_irrefl. auto.
  - unfold s_power2Top. destruct (s_power2_correct cfg n (32 * n) U ltac:(lia) ltac:(lia)) as (x & -> & Cx & Vx). cbn [bind].
    unfold s_eq_int. rewrite s_compareTo_int_correct; [|lia|apply canon_swf; auto|lia]. rewrite Vx, Z.ltb_irrefl. reflexivity.
Qed.
Print Assumptions C109_powers_of_two.
(** test/bitwise/not.cpp *)
Lemma byteBinary_gen fuel : forall b acc, 0 <= b < 2 ^ Z.of_nat fuel -> exists ds, Forall (fun d => 0 <= d < 2) ds /\ dvalue 2 ds = b /\
  whileF (S fuel) (fun '(byte, binary) => if byte =? 0 then Ok (Exit binary)
    else Ok (Next (byte / 2, binary ++ [if Z.odd byte then 49 else 48]))) (b, acc) = Ok (acc ++ rev (map (digit_char false) ds)).
Proof.
  induction fuel as [|fuel IH]; intros b acc Hb.
  - exists []. change (2 ^ Z.of_nat 0) with 1 in Hb. replace b with 0 by lia. cbn. rewrite app_nil_r. auto.
  - cbn [whileF]. destruct (Z.eqb_spec b 0) as [->|Nb].
    + exists []. cbn. rewrite app_nil_r. auto.
    + rewrite Nat2Z.inj_succ, Z.pow_succ_r in Hb by lia. cbn [bind].
      assert (Hb2 : 0 <= b / 2 < 2 ^ Z.of_nat fuel) by (split; [apply Z.div_pos; lia|apply Z.div_lt_upper_bound; lia]).
      destruct (IH (b / 2) (acc ++ [if Z.odd b then 49 else 48]) Hb2) as (ds & F & V & E). exists (ds ++ [b mod 2]).
      pose proof (Z.mod_pos_bound b 2 ltac:(lia)). conjs.
      * apply Forall_app. split; auto.
      * rewrite dvalue_app. change (len [b mod 2]) with 1. rewrite V. unfold dvalue. cbn [fold_left]. pose proof (Z.div_mod b 2). lia.
      * cbn [whileF] in E. rewrite E. f_equal. rewrite map_app, rev_app_distr. cbn [map rev app]. rewrite <- app_assoc. cbn [app]. do 2 f_equal.
        rewrite Zmod_odd. destruct (Z.odd b); reflexivity.
Qed.
Lemma bitset8_bits b : 0 <= b < 256 -> exists ds, bitset8 b = map (digit_char false) ds /\ Forall (fun d => 0 <= d < 2) ds /\ len ds = 8 /\ dvalue 2 ds = b.
Proof.
  intros Hb. exists (map (fun i => b / 2 ^ i mod 2) [7; 6; 5; 4; 3; 2; 1; 0]). unfold bitset8. conjs.
  - rewrite map_map. apply map_ext. intros i. pose proof (Z.mod_pos_bound (b / 2 ^ i) 2 ltac:(lia)). unfold digit_char. replace (b / 2 ^ i mod 2 <? 10) with true by lia. auto.
  - apply Forall_map. apply Forall_forall. intros i _. apply Z.mod_pos_bound. lia.
  - reflexivity.
  - unfold dvalue. cbn [map fold_left].
    change (2 ^ 7) with 128. change (2 ^ 6) with 64. change (2 ^ 5) with 32. change (2 ^ 4) with 16. change (2 ^ 3) with 8. change (2 ^ 2) with 4. change (2 ^ 1) with 2. change (2 ^ 0) with 1.
    Z.div_mod_to_equations. lia.
Qed.
Lemma not8_byte b : 0 <= b < 256 -> not8 b = 255 - b.
Proof. intros. unfold not8, Z.lnot. rewrite <- (Z_mod_plus_full _ 1). rewrite Z.mod_small; lia. Qed.
Lemma not_shift v m k : 0 <= k <= m -> (2 ^ m - 1 - v) / 2 ^ k = 2 ^ (m - k) - 1 - v / 2 ^ k.
Proof.
  intros Hk. assert (P : 0 < 2 ^ k) by (apply Z.pow_pos_nonneg; lia). replace (2 ^ m) with (2 ^ (m - k) * 2 ^ k) by (rewrite <- Z.pow_add_r by lia; f_equal; lia).
  symmetry. apply (Z.div_unique_pos _ _ _ (2 ^ k - 1 - v mod 2 ^ k)). { pose proof (Z.mod_pos_bound v (2 ^ k) P). lia. }
  pose proof (Z.div_mod v (2 ^ k) ltac:(lia)). nia.
Qed.
Theorem C109_complement : forall cfg n junk alnum draw, cfg_unsafe cfg = false -> 1 <= n -> len junk = n -> alnum_ok alnum -> 0 <= draw < modulus n ->
  notTrial cfg n junk alnum draw = Ok (negb (draw =? 0)).
Proof.
  intros cfg n junk alnum v0 U Hn HJ Ha Hv0. unfold notTrial. cbv zeta. destruct (Z.eqb_spec v0 0) as [->|N0].
  - change (mpz_sizeinbase2 0) with 1. replace (1 <? 32 * n) with true by lia. rewrite Z.shiftl_0_l.
    change (byteCountGmp 0) with 1. change (1 - 1) with 0. change (byteBinary (not8 (getByteGmp 0 0))) with (@Ok (list Z) [49; 49; 49; 49; 49; 49; 49; 49]). cbn [bind].
    unfold forD. change (Z.to_nat (0 - 0)) with 0%nat. cbn [loopD bind].
    destruct (u_from cfg n 0 U ltac:(lia)) as (a & -> & Wa & Va). cbn [bind]. rewrite Z.mod_small in Va by lia. change (Z.abs 0) with 0 in Va.
    match goal with |- context [from_string n false alnum ?t] => change t with ([48; 98] ++ map (digit_char false) [1; 1; 1; 1; 1; 1; 1; 1]) end.
    destruct (parse_base n alnum 98 2 [1; 1; 1; 1; 1; 1; 1; 1] ltac:(lia) Ha eq_refl ltac:(lia) ltac:(repeat constructor; lia)) as (y & -> & Wy & Vy). cbn [bind].
    destruct (op_not_correct n junk a HJ Wa) as [(x & -> & Wx & Vx) _]. cbn [bind]. rewrite op_eq_cross by auto. rewrite Vx, Va, Vy. f_equal.
    change (dvalue 2 [1; 1; 1; 1; 1; 1; 1; 1]) with 255. assert (2 ^ 32 <= modulus n) by (apply Z.pow_le_mono_r; lia). rewrite Z.mod_small by lia. cbn. lia.
  - assert (SB : mpz_sizeinbase2 v0 = Z.log2 v0 + 1) by (unfold mpz_sizeinbase2; replace (v0 =? 0) with false by lia; rewrite Z.abs_eq by lia; auto).
    assert (L0 : 0 <= Z.log2 v0 < 32 * n) by (split; [apply Z.log2_nonneg|apply Z.log2_lt_pow2; [lia|apply Hv0] ]).
    set (v := if _ <? _ then _ else _).
    assert (Hv : 2 ^ (32 * n - 1) <= v < 2 ^ (32 * n)).
    { pose proof (Z.log2_spec v0 ltac:(lia)) as LS. unfold v. rewrite SB. destruct (Z.ltb_spec (Z.log2 v0 + 1) (32 * n)).
      - rewrite Z.shiftl_mul_pow2 by lia. set (d := 32 * n - (Z.log2 v0 + 1)). assert (0 < 2 ^ d) by (apply Z.pow_pos_nonneg; lia).
        replace (32 * n - 1) with (Z.log2 v0 + d) by lia. replace (32 * n) with (Z.succ (Z.log2 v0) + d) by lia. rewrite !Z.pow_add_r by lia. clear - LS H0. nia.
      - replace (32 * n - 1) with (Z.log2 v0) by lia. split; [lia|apply Hv0]. }
    clearbody v. assert (P1 : 0 < 2 ^ (32 * n - 1)) by (apply Z.pow_pos_nonneg; lia).
    assert (BC : byteCountGmp v = 4 * n).
    { unfold byteCountGmp, mpz_sizeinbase2. replace (v =? 0) with false by lia. rewrite Z.abs_eq by lia. rewrite (Z.log2_unique v (32 * n - 1)) by (try lia; replace (Z.succ (32 * n - 1)) with (32 * n) by lia; lia).
      replace (32 * n - 1 + 1 + 7) with (4 * n * 8 + 7) by lia. rewrite Z.div_add_l by lia. change (7 / 8) with 0. lia. }
    rewrite BC.
    assert (BG : forall j, 0 <= j -> getByteGmp v j = v / 2 ^ (8 * j) mod 256) by (intros j Hj; apply byte_gmp; lia).
    assert (NB : forall j, 0 <= j -> not8 (getByteGmp v j) = 255 - v / 2 ^ (8 * j) mod 256) by (intros j Hj; rewrite BG by auto; apply not8_byte; apply Z.mod_pos_bound; lia).
    assert (NR : forall j, 0 <= 255 - v / 2 ^ (8 * j) mod 256 < 256) by (intros j; pose proof (Z.mod_pos_bound (v / 2 ^ (8 * j)) 256 ltac:(lia)); lia).
    rewrite NB by lia. set (t := 255 - v / 2 ^ (8 * (4 * n - 1)) mod 256).
    destruct (byteBinary_gen 8 t [] (NR _)) as (ds & F & V & E). unfold byteBinary. rewrite E. cbn [bind]. rewrite app_nil_l, rev_involutive.
    set (Inv := fun (j : Z) (ss : list Z) => exists ds, ss = [48; 98] ++ map (digit_char false) ds /\ Forall (fun d => 0 <= d < 2) ds /\ dvalue 2 ds = (2 ^ (32 * n) - 1 - v) / 2 ^ (8 * j)).
    destruct (forD_spec Inv (4 * n - 1) 0 (fun j ss => Ok (ss ++ bitset8 (not8 (getByteGmp v j)))) ([48; 98] ++ map (digit_char false) ds)) as (ss & -> & I).
    { lia. }
    { exists ds. conjs; auto. rewrite not_shift by lia. replace (32 * n - 8 * (4 * n - 1)) with 8 by lia. rewrite V. unfold t.
      rewrite Z.mod_small; [reflexivity|]. split; [apply Z.div_pos; [lia|apply Z.pow_pos_nonneg; lia]|]. apply Z.div_lt_upper_bound; [apply Z.pow_pos_nonneg; lia|].
      change 256 with (2 ^ 8). rewrite <- Z.pow_add_r by lia. replace (8 * (4 * n - 1) + 8) with (32 * n) by lia. lia. }
    { intros j ss Hj (es & -> & Fe & Ve). eexists. split; [reflexivity|]. rewrite NB by lia.
      destruct (bitset8_bits _ (NR j)) as (bs & -> & Fb & Lb & Vb). exists (es ++ bs). conjs.
      - rewrite map_app, <- app_assoc. reflexivity.
      - apply Forall_app; auto.
      - rewrite dvalue_app, Lb, Ve, Vb. rewrite !not_shift by lia. change (2 ^ 8) with 256.
        replace (32 * n - 8 * j) with ((32 * n - 8 * (j + 1)) + 8) by lia. rewrite Z.pow_add_r by lia. change (2 ^ 8) with 256.
        replace (8 * (j + 1)) with (8 * j + 8) by lia. rewrite (Z.pow_add_r 2 (8 * j)) by lia. change (2 ^ 8) with 256. rewrite <- Z.div_div by (try apply Z.pow_nonzero; lia).
        pose proof (Z.div_mod (v / 2 ^ (8 * j)) 256 ltac:(lia)). lia. }
    destruct I as (es & -> & Fe & Ve). cbn [bind]. change (8 * 0) with 0 in Ve. change (2 ^ 0) with 1 in Ve. rewrite Z.div_1_r in Ve.
    destruct (u_from_small cfg n v U ltac:(lia)) as (a & -> & Wa & Va); [unfold modulus; lia|]. cbn [bind].
    destruct (parse_base n alnum 98 2 es ltac:(lia) Ha eq_refl ltac:(lia) Fe) as (y & -> & Wy & Vy). cbn [bind].
    destruct (op_not_correct n junk a HJ Wa) as [(x & -> & Wx & Vx) _]. cbn [bind]. rewrite op_eq_cross by auto. rewrite Vx, Va, Vy, Ve. unfold modulus. rewrite Z.mod_small by lia. rewrite Z.eqb_refl. auto.
Qed.
Print Assumptions C109_complement.
(** test/operations/initialization/gmp-integration.cpp: a fresh stringstream *)
Definition fresh : ostream := mk_os [] BDec false false 32 0 AdjNone.
Theorem C109_text_of_gmp : forall cfg n gmp digits, cfg_unsafe cfg = false -> 2 <= n -> 32 * n < 2 ^ 53 -> Z.abs gmp < modulus n -> numeral false 10 (Z.abs gmp) digits ->
  (0 <= gmp -> gmpText cfg n gmp fresh digits = Ok true) /\
  s_gmpText cfg n gmp fresh ((if gmp <? 0 then [45] else []) ++ digits) = Ok true.
Proof.
  intros cfg n g ds U Hn H53 Hg HD. split.
  - intros H0. unfold gmpText. destruct (u_from_small cfg n g U ltac:(lia) ltac:(lia)) as (a & -> & Wa & Va). cbn [bind].
    destruct (C37_stream_insertion cfg n fresh a ds Wa eq_refl H53) as (os & -> & O); [cbn; lia|cbn; rewrite Va; rewrite Z.abs_eq in HD by lia; auto|]. cbn [bind]. rewrite O. change (out fresh ++ os_shown fresh ++ ds) with ds.
    destruct (list_eq_dec Z.eq_dec ds ds); congruence.
  - unfold s_gmpText. destruct (s_from cfg n g ltac:(lia) Hg) as (a & -> & Ca & Va). cbn [bind].
    destruct (C56_signed_stream cfg n fresh a ds Ca eq_refl H53) as (os & -> & O); [cbn; lia|cbn; rewrite Va; auto|]. cbn [bind]. rewrite O, Va. cbn [out fresh app].
    change (os_shown fresh) with (@nil Z). destruct (g =? 0); cbn [app]; destruct (list_eq_dec Z.eq_dec ((if g <? 0 then [45] else []) ++ ds) ((if g <? 0 then [45] else []) ++ ds)); congruence.
Qed.
Print Assumptions C109_text_of_gmp.
Example C109_example : power2Trial cfg0 3 ascii_alnum 66 [52; 48; 48; 48; 48; 48; 48; 48; 48; 48; 48; 48; 48; 48; 48; 48; 48] = Ok true /\ s_power2Top cfg0 3 = Ok true /\
  notTrial cfg0 1 [7] ascii_alnum 305419896 = Ok true /\ notTrial cfg0 1 [7] ascii_alnum 0 = Ok false /\
  s_gmpText cfg0 3 (-42) fresh [45; 52; 50] = Ok true /\ gmpText cfg0 3 0 fresh [48] = Ok true.
Proof. conjs; vm_compute; reflexivity. Qed.

(** ** C110: the cast and binary stream tests *)
(** casts/integral_cast.cpp l.7-19: a drawn INT64_MIN or INT32_MIN is undefined behaviour, every other draw passes *)
Theorem C110_signed_integral_cast : forall n v64 v32, 2 <= n -> - 2 ^ 63 <= v64 < 2 ^ 63 -> - 2 ^ 31 <= v32 < 2 ^ 31 ->
  signedIntegralCast n v64 v32 = (if (v64 =? - 2 ^ 63) || (v32 =? - 2 ^ 31) then Err SignedOverflow else Ok true).
Proof.
  intros n a b Hn Ha Hb. unfold signedIntegralCast, s_assign_int.
  assert (G : forall v, - 2 ^ 63 < v < 2 ^ 63 -> exists r, s_from_int n int64 v = Ok r /\ canon n r /\ sval r = v).
  { intros v Hv. apply s_from_int_correct; auto; try lia; [unfold in_ity, ity_min, ity_max; cbn; lia|]. unfold neg_ok, ity_min. cbn. lia. }
  assert (C : forall t v r, t = int64 \/ t = int32 -> canon n r -> sval r = v -> ity_min t < v <= ity_max t -> s_integralCast t r = Ok v).
  { intros t v r Ht Cr Vr Hv. destruct (s_integralCast_correct t n r Hn (canon_swf _ _ Cr)) as (w & E & B & M); try (destruct Ht as [-> | ->]; reflexivity).
    - right. destruct (Z_le_gt_dec 0 v); [left; lia|right]. assert (bval (mag r) = - v) by (revert Vr; destruct Cr as [W _]; pose proof (bval_bound _ _ W); unfold sval; destruct (sgn r); lia).
      rewrite H. unfold icast. destruct Ht as [-> | ->]; unfold ity_min, ity_max in *; cbn [isigned iwidth int64 int32 andb] in *;
        (rewrite Z.mod_small by lia; match goal with |- (if ?c then _ else _) <> _ => replace c with false by lia end; lia).
    - rewrite E. f_equal. rewrite Vr in M. destruct Ht as [-> | ->]; unfold ity_min, ity_max in *; cbn [isigned iwidth int64 int32] in *; Z.div_mod_to_equations; lia. }
  destruct (Z.eqb_spec a (- 2 ^ 63)) as [-> |Na]; cbn [orb].
  { rewrite s_from_int_min by (try reflexivity; cbn; lia). reflexivity. }
  destruct (G a ltac:(lia)) as (r & -> & Cr & Vr). cbn [bind]. rewrite (C int64 a) by (auto; unfold ity_min, ity_max; cbn; lia). cbn [bind].
  destruct (G b ltac:(lia)) as (q & -> & Cq & Vq). cbn [bind]. destruct (Z.eqb_spec b (- 2 ^ 31)) as [-> |Nb].
  - destruct Cq as [Wq Cq]. pose proof (bval_bound _ _ Wq) as Bq. unfold s_integralCast, sval in *. destruct (sgn q); try lia. rewrite (integralCast_spec _ n) by auto. replace (bval (mag q)) with (2 ^ 31) by lia. reflexivity.
  - rewrite (C int32 b) by (auto; unfold ity_min, ity_max; cbn; lia). cbn [bind]. rewrite !Z.eqb_refl. reflexivity.
Qed.
Print Assumptions C110_signed_integral_cast.
Lemma hex8_digits x : Forall (fun d => 0 <= d < 16) (hex8 x).
Proof. unfold hex8. apply Forall_map. apply Forall_forall. intros i _. apply Z.mod_pos_bound. lia. Qed.
(** l.21-40 *)
Theorem C110_unsigned_integral_cast : forall n junk alnum v64 v32 gmp text, 2 <= n -> len junk = n -> alnum_ok alnum -> 0 <= v64 < 2 ^ 64 -> 0 <= v32 < 2 ^ 32 ->
  0 <= gmp -> numeral false 16 gmp text ->
  unsignedIntegralCast n junk v64 v32 = Ok true /\ textIntegralCast n alnum text v64 = Ok true.
Proof.
  intros n junk alnum a b g text Hn HJ Ha H64 H32 Hg (ds & -> & F & V & _). assert (M64 : 2 ^ 64 <= modulus n) by (apply Z.pow_le_mono_r; lia). split.
  - unfold unsignedIntegralCast. destruct (from_unsigned_correct n junk a ltac:(lia) HJ H64) as (x & -> & Wx & Vx). destruct (from_unsigned_correct n junk b ltac:(lia) HJ ltac:(lia)) as (y & Ey & Wy & Vy).
    cbn [bind]. rewrite (integralCast_spec _ n) by auto. cbn [bind]. rewrite Ey. cbn [bind]. rewrite (integralCast_spec _ n) by auto. cbn [bind].
    rewrite Vx, Vy. rewrite !(Z.mod_small _ (modulus n)) by lia. rewrite !(Z.mod_small _ (2 ^ 64)) by lia. unfold icast. cbn [isigned iwidth uint64 uint32 andb]. rewrite !Z.mod_small by lia. rewrite !Z.eqb_refl. reflexivity.
  - unfold textIntegralCast. rewrite <- map_app. unfold hex16.
    assert (F2 : Forall (fun d => 0 <= d < 16) (ds ++ hex8 (a / 2 ^ 32) ++ hex8 (a mod 2 ^ 32))) by (apply Forall_app; split; auto; apply Forall_app; split; apply hex8_digits).
    destruct (parse_base n alnum 120 16 _ ltac:(lia) Ha eq_refl ltac:(lia) F2) as (x & -> & Wx & Vx). cbn [bind]. rewrite (integralCast_spec _ n) by auto. cbn [bind].
    assert (E : bval x mod 2 ^ 64 = a).
    { rewrite Vx. unfold modulus. rewrite <- Znumtheory.Zmod_div_mod; [|lia|apply Z.pow_pos_nonneg; lia|exists (2 ^ (32 * n - 64)); rewrite <- Z.pow_add_r by lia; f_equal; lia].
      rewrite !dvalue_app. rewrite len_app. change (len (hex8 (a / 2 ^ 32))) with 8. change (len (hex8 (a mod 2 ^ 32))) with 8. change (16 ^ (8 + 8)) with (2 ^ 64). change (16 ^ 8) with (2 ^ 32).
      rewrite (hex8_value (a / 2 ^ 32)) by (split; [apply Z.div_pos; lia|apply Z.div_lt_upper_bound; lia]). rewrite (hex8_value (a mod 2 ^ 32)) by (apply Z.mod_pos_bound; lia).
      rewrite (Z.add_comm (_ * 2 ^ 64)), Z.mod_add by lia. pose proof (Z.div_mod a (2 ^ 32) ltac:(lia)) as DM. rewrite (Z.mul_comm (a / 2 ^ 32)), <- DM. apply Z.mod_small. lia. }
    rewrite E. unfold icast. cbn [isigned iwidth uint64 andb]. rewrite Z.mod_small by lia. rewrite Z.eqb_refl. reflexivity.
Qed.
Print Assumptions C110_unsigned_integral_cast.
(** casts/precision_cast.cpp, the random part: 256 bits and every wider precision *)
Theorem C110_precision_cast : forall cfg n m init0, cfg_unsafe cfg = false -> 1 <= n <= m -> Z.abs init0 < modulus n ->
  (0 <= init0 -> precisionCastTrial cfg n m init0 = Ok true) /\ s_precisionCastTrial cfg n m init0 = Ok true.
Proof.
  intros cfg n m v U Hnm Hv. assert (MM : modulus n <= modulus m) by (apply Z.pow_le_mono_r; lia). split.
  - intros H0. unfold precisionCastTrial. destruct (u_from_small cfg n v U ltac:(lia) ltac:(lia)) as (a & -> & Wa & Va). cbn [bind].
    destruct (precisionCast_spec cfg n m a Wa ltac:(lia)) as (x & -> & Wx & Vx). cbn [bind]. rewrite u_eq by auto. rewrite Vx, Va, Z.abs_eq, Z.eqb_refl by lia. reflexivity.
  - unfold s_precisionCastTrial. destruct (s_from cfg n v ltac:(lia) Hv) as (a & -> & Ca & Va). cbn [bind].
    destruct (s_precisionCast_fits cfg n m a ltac:(lia) ltac:(lia) (canon_swf _ _ Ca)) as (x & -> & Cx & Vx); [lia|]. cbn [bind].
    rewrite s_eq_z; [|lia|apply canon_swf; auto|lia]. rewrite Vx, Va, Z.eqb_refl. reflexivity.
Qed.
Print Assumptions C110_precision_cast.
(** binary_io.cpp *)
Lemma blocks_value bs : Forall (fun b => 0 <= b < 2 ^ 32) bs -> dvalue 16 (flat_map hex8 bs) = bval (rev bs) /\ Forall (fun d => 0 <= d < 16) (flat_map hex8 bs) /\ len (flat_map hex8 bs) = 8 * len bs.
Proof.
  induction bs as [|b bs IH]; intros F; [conjs; [reflexivity|constructor|reflexivity]|]. inversion F as [|? ? Hb Fb]; subst. destruct (IH Fb) as (V & D & L). cbn [flat_map rev]. conjs.
  - rewrite dvalue_app, V, L, hex8_value by auto. rewrite bval_app. replace (len (rev bs)) with (len bs) by (unfold len; rewrite rev_length; auto).
    replace (16 ^ (8 * len bs)) with (2 ^ (32 * len bs)); [cbn; lia|]. change 16 with (2 ^ 4). rewrite <- Z.pow_mul_r by (unfold len; lia). f_equal. lia.
  - apply Forall_app. split; [apply hex8_digits|auto].
  - rewrite len_app, L. change (len (hex8 b)) with 8. unfold len. cbn [length]. lia.
Qed.
Lemma flat_seq (f : Z -> list Z) l k : flat_map (fun q : nat => f (znth l (Z.of_nat (q - k)))) (seq k (length l)) = flat_map f l.
Proof.
  revert k. induction l as [|x l IH]; intros k; [reflexivity|]. cbn [length seq flat_map]. replace (k - k)%nat with 0%nat by lia. change (znth (x :: l) (Z.of_nat 0)) with x. f_equal.
  rewrite <- (IH (S k)). rewrite !flat_map_concat_map. f_equal. apply map_ext_in. intros q Hq. apply in_seq in Hq. f_equal. replace (q - k)%nat with (S (q - S k)) by lia. rewrite Nat2Z.inj_succ. unfold znth.
  destruct (Z.ltb_spec (Z.succ (Z.of_nat (q - S k))) 0), (Z.ltb_spec (Z.of_nat (q - S k)) 0); try lia. rewrite Z2Nat.inj_succ by lia. reflexivity.
Qed.
Lemma file_up le n bs : len bs = n -> file_bytes le false n bs = flat_map (block_bytes le) bs.
Proof.
  intros L. unfold file_bytes. rewrite <- (flat_seq (block_bytes le) bs 0). replace (Z.to_nat n) with (length bs) by (unfold len in L; lia).
  rewrite !flat_map_concat_map. f_equal. apply map_ext. intros q. rewrite Nat.sub_0_r. reflexivity.
Qed.
Lemma file_down le n bs : len bs = n -> file_bytes le true n (rev bs) = flat_map (block_bytes le) bs.
Proof.
  intros L. unfold file_bytes. rewrite <- (flat_seq (block_bytes le) bs 0). unfold len in L. replace (Z.to_nat n) with (length bs) by lia.
  rewrite !flat_map_concat_map. f_equal. apply map_ext_in. intros q Hq. apply in_seq in Hq. rewrite Nat.sub_0_r. f_equal. unfold znth.
  destruct (Z.ltb_spec (n - 1 - Z.of_nat q) 0), (Z.ltb_spec (Z.of_nat q) 0); try lia. rewrite rev_nth by lia. f_equal. lia.
Qed.
Lemma wf_blocks n bs : len bs = n -> Forall (fun b => 0 <= b < 2 ^ 32) bs -> wf n (rev bs).
Proof. intros L F. split; [unfold len in *; rewrite rev_length; auto|]. apply Forall_rev. auto. Qed.
Lemma parse_blocks n alnum bs : len bs = n -> alnum_ok alnum -> Forall (fun b => 0 <= b < 2 ^ 32) bs -> from_string n false alnum (blocksText bs) = Ok (rev bs).
Proof.
  intros L Ha F. destruct (blocks_value bs F) as (V & D & _). pose proof (wf_blocks n bs L F) as W. unfold blocksText.
  replace (flat_map (fmt_08x false) bs) with (map (digit_char false) (flat_map hex8 bs)).
  2:{ rewrite !flat_map_concat_map, concat_map, map_map. reflexivity. }
  destruct (parse_base n alnum 120 16 _ (wf_nonneg _ _ W) Ha eq_refl ltac:(lia) D) as (y & -> & Wy & Vy). f_equal. apply (bval_inj n); auto.
  rewrite Vy, V. apply Z.mod_small. apply bval_bound. auto.
Qed.
Theorem C110_binary_read : forall cfg le n alnum i blocks, len blocks = n -> alnum_ok alnum -> Forall (fun b => 0 <= b < 2 ^ 32) blocks ->
  binaryRead cfg le n alnum i blocks = Ok true.
Proof.
  intros cfg le n alnum i bs L Ha F. pose proof (wf_blocks n bs L F) as W. unfold binaryRead.
  pose proof (roundtrip_bin le n (rev bs) true [] W (Forall_nil _)) as R1. pose proof (roundtrip_bin le n (rev bs) false [] W (Forall_nil _)) as R2. rewrite app_nil_r in R1, R2.
  rewrite file_down in R1 by auto. rewrite file_up in R2 by apply (wf_len _ _ W).
  destruct (i mod 2 =? 0); [rewrite R1|rewrite R2]; cbn [bind]; rewrite parse_blocks by auto; cbn [bind]; rewrite op_eq_cross by auto; rewrite Z.eqb_refl; reflexivity.
Qed.
Print Assumptions C110_binary_read.
Lemma skipn_znth (l : list Z) j : 0 <= j < len l -> skipn (Z.to_nat j) l = znth l j :: skipn (Z.to_nat (j + 1)) l.
Proof.
  intros Hj. unfold znth. destruct (Z.ltb_spec j 0); [lia|]. replace (Z.to_nat (j + 1)) with (S (Z.to_nat j)) by lia. unfold len in Hj.
  assert (HK : (Z.to_nat j < length l)%nat) by lia. revert HK. generalize (Z.to_nat j) as k. clear. induction l as [|x l IH]; intros k HK; [cbn in HK; lia|].
  destruct k as [|k]; [reflexivity|]. cbn [skipn nth]. apply IH. cbn in HK. lia.
Qed.
Lemma znth_rev (l : list Z) j : 0 <= j < len l -> znth (rev l) j = znth l (len l - 1 - j).
Proof. intros Hj. unfold znth. unfold len in *. destruct (Z.ltb_spec j 0), (Z.ltb_spec (Z.of_nat (length l) - 1 - j) 0); try lia. rewrite rev_nth by lia. f_equal. lia. Qed.
Lemma block_roundtrip le x : 0 <= x < 2 ^ 32 -> bytes_block le (block_bytes le x) = x.
Proof. intros Hx. unfold bytes_block, block_bytes. destruct le; rewrite ?rev_involutive; apply le_bytes_block; auto. Qed.
Lemma read_step cfg le n r x rest temp j : len r = n -> 0 <= j < n -> 0 <= x < 2 ^ 32 ->
  (let '(got, ss2) := is_read (mk_is (block_bytes le x ++ rest) true) 4 in
   let temp := bytes_block le (got ++ skipn (length got) (block_bytes le temp)) in
   r <- setBlock cfg n r j temp ;; Ok (r, ss2, temp)) = Ok (upd r (Z.to_nat j) x, mk_is rest true, x).
Proof.
  intros L Hj Hx. unfold is_read. cbn [igood ibytes].
  assert (B4 : forall y, length (block_bytes le y) = 4%nat) by (intros y; pose proof (block_bytes_len le y) as LB; unfold len in LB; lia).
  assert (F4 : firstn (Z.to_nat 4) (block_bytes le x ++ rest) = block_bytes le x) by (rewrite firstn_app, B4; change (Z.to_nat 4 - 4)%nat with 0%nat; cbn [firstn]; rewrite app_nil_r; apply firstn_all2; rewrite B4; reflexivity).
  assert (S4 : skipn (Z.to_nat 4) (block_bytes le x ++ rest) = rest) by (rewrite skipn_app, B4; change (Z.to_nat 4 - 4)%nat with 0%nat; rewrite skipn_all2 by (rewrite B4; reflexivity); reflexivity).
  rewrite F4, S4. rewrite B4. rewrite skipn_all2 by (rewrite B4; reflexivity). rewrite app_nil_r, block_roundtrip by auto.
  replace (4 <=? len (block_bytes le x ++ rest)) with true by (rewrite len_app, block_bytes_len; pose proof (Zle_0_nat (length rest)); unfold len; lia).
  unfold setBlock. replace (j >=? n) with false by lia. rewrite andb_false_r. rewrite aset_ok by lia. reflexivity.
Qed.
Theorem C110_binary_write : forall cfg le n alnum i blocks, len blocks = n -> alnum_ok alnum -> Forall (fun b => 0 <= b < 2 ^ 32) blocks ->
  binaryWrite cfg le n alnum i blocks = Ok true.
Proof.
  intros cfg le n alnum i bs L Ha F. pose proof (wf_blocks n bs L F) as W. pose proof (wf_len _ _ W) as LR. pose proof (wf_nonneg _ _ W) as Hn. unfold binaryWrite. rewrite parse_blocks by auto. cbn [bind]. cbv zeta.
  assert (WB : forall be, writeBinary le n (rev bs) (mk_bos [] None true) be = Ok (mk_bos (file_bytes le be n (rev bs)) None true)) by (intros be; rewrite writeBinary_spec by (auto; discriminate); reflexivity).
  assert (RG : forall k, 0 <= k < n -> 0 <= znth (rev bs) k < 2 ^ 32) by (intros k Hk; apply (wf_znth n); auto).
  match goal with |- context [forD n 0 ?b _] => set (body := b) end.
  assert (U : exists is t, forU 0 n body (zeros n, mk_is (file_bytes le false n (rev bs)) true, 0) = Ok (rev bs, is, t)).
  { set (Inv := fun (j : Z) (s : list Z * istream * Z) => let '(r, is, t) := s in len r = n /\ is = mk_is (flat_map (block_bytes le) (skipn (Z.to_nat j) (rev bs))) true /\ forall k, 0 <= k < j -> znth r k = znth (rev bs) k).
    destruct (forU_spec Inv 0 n body (zeros n, mk_is (file_bytes le false n (rev bs)) true, 0)) as ( [ [r is] t] & E & I1 & I2 & I3).
    - lia.
    - unfold Inv. conjs; [apply len_zeros; lia|rewrite file_up by auto; reflexivity|lia].
    - intros j [ [r is] t] Hj (I1 & -> & I3). rewrite skipn_znth by lia. cbn [flat_map]. unfold body. rewrite read_step by auto. eexists. split; [reflexivity|]. unfold Inv. conjs.
      + rewrite len_upd. auto.
      + reflexivity.
      + intros k Hk. rewrite znth_upd by lia. destruct (Z.eqb_spec j k) as [->|]; auto. apply I3. lia.
    - exists is, t. rewrite E. do 3 f_equal. apply list_ext_znth; [lia|]. intros k Hk. apply I3. lia. }
  assert (D : exists is t, forD n 0 body (zeros n, mk_is (file_bytes le true n (rev bs)) true, 0) = Ok (rev bs, is, t)).
  { set (Inv := fun (j : Z) (s : list Z * istream * Z) => let '(r, is, t) := s in len r = n /\ is = mk_is (flat_map (block_bytes le) (skipn (Z.to_nat (n - j)) bs)) true /\ forall k, j <= k < n -> znth r k = znth (rev bs) k).
    destruct (forD_spec Inv n 0 body (zeros n, mk_is (file_bytes le true n (rev bs)) true, 0)) as ( [ [r is] t] & E & I1 & I2 & I3).
    - lia.
    - unfold Inv. conjs; [apply len_zeros; lia|rewrite file_down by auto; rewrite Z.sub_diag; reflexivity|lia].
    - intros j [ [r is] t] Hj (I1 & -> & I3). rewrite skipn_znth by lia. cbn [flat_map]. replace (znth bs (n - (j + 1))) with (znth (rev bs) j) by (rewrite znth_rev by lia; f_equal; lia).
      unfold body. rewrite read_step by auto. eexists. split; [reflexivity|]. unfold Inv. conjs.
      + rewrite len_upd. auto.
      + do 4 f_equal. lia.
      + intros k Hk. rewrite znth_upd by lia. destruct (Z.eqb_spec j k) as [->|]; auto. apply I3. lia.
    - exists is, t. rewrite E. do 3 f_equal. apply list_ext_znth; [lia|]. intros k Hk. apply I3. lia. }
  destruct U as (is1 & t1 & U). destruct D as (is2 & t2 & D).
  destruct (i mod 2 =? 0); rewrite WB; cbn [bind obytes]; [rewrite U|rewrite D]; cbn [bind]; rewrite op_eq_cross by auto; rewrite Z.eqb_refl; reflexivity.
Qed.
Print Assumptions C110_binary_write.
Example C110_example : signedIntegralCast 4 (-5000000000) (-7) = Ok true /\ signedIntegralCast 4 (- 2 ^ 63) 1 = Err SignedOverflow /\ signedIntegralCast 4 1 (- 2 ^ 31) = Err SignedOverflow /\
  unsignedIntegralCast 4 [9; 9; 9; 9] 18446744073709551615 4294967295 = Ok true /\ textIntegralCast 4 ascii_alnum [49; 102] 4294967297 = Ok true /\
  s_precisionCastTrial cfg0 2 3 (-4294967297) = Ok true /\
  binaryRead cfg0 true 2 ascii_alnum 1 [305419896; 4294967295] = Ok true /\ binaryWrite cfg0 false 2 ascii_alnum 1 [305419896; 4294967295] = Ok true.
Proof. conjs; vm_compute; reflexivity. Qed.
