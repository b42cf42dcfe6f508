(** * PropsTest2: number-theory, bit, comparison and root tests (C106-C108). *)
From Coq Require Import ZifyBool.
From Verif Require Import Spec Lib AeuModel AeuArith AeuBits AeuAccess AeuDiv AeuFacts AeuMore AesiModel AesiArith AesiFacts
  MixModel MixFacts BinModel BinFacts TestModel TestFacts PropsMix PropsTest PropsExact.
Open Scope Z_scope.

(** ** C106: the number-theory tests *)
Lemma u_from_small cfg n z : cfg_unsafe cfg = false -> 0 <= n -> 0 <= z < modulus n -> exists a, from_mpz cfg true n z = Ok a /\ wf n a /\ bval a = z.
Proof. intros U Hn Hz. destruct (u_from cfg n z U Hn) as (a & E & W & V). exists a. rewrite Z.abs_eq, Z.mod_small in V by lia. auto. Qed.
(** l.5-18.  GMP ends the program for the modulus 0; power 0 with modulus 1 is the one other draw that is not accepted. *)
Theorem C106_power_by_modulo : forall cfg n base power modulo, cfg_unsafe cfg = false -> 1 <= n ->
  0 <= base < modulus n -> 0 <= power < modulus n -> 0 <= modulo < modulus n -> (modulo - 1) * (modulo - 1) < modulus n ->
  powerByModulo cfg n base power modulo = (if modulo =? 0 then Err GmpDivByZero else Ok (negb ((power =? 0) && (modulo =? 1)))).
Proof.
  intros cfg n b p m U Hn Hb Hp Hm Hsq. unfold powerByModulo, gmp_powm. destruct (Z.eqb_spec m 0) as [E|E]; [reflexivity|]. cbn [bind].
  destruct (u_from_small cfg n b U ltac:(lia) Hb) as (B & -> & WB & VB). destruct (u_from_small cfg n p U ltac:(lia) Hp) as (P & -> & WP & VP).
  destruct (u_from_small cfg n m U ltac:(lia) Hm) as (M & -> & WM & VM). cbn [bind].
  destruct (powm_spec cfg n B P M Hn WB WP WM ltac:(lia)) as (r & -> & Wr & Vr); [rewrite VM; auto|]. cbn [bind]. rewrite u_eq by auto. rewrite Vr, VB, VP, VM.
  rewrite (Z.abs_eq m) by lia. pose proof (Z.mod_pos_bound (b ^ p) m ltac:(lia)). rewrite (Z.abs_eq (b ^ p mod m)) by lia. rewrite (Z.mod_small (b ^ p mod m)) by lia. f_equal.
  destruct (Z.eqb_spec p 0) as [->|Ep]; [|rewrite Z.eqb_refl; auto]. rewrite Z.pow_0_r in *. cbn [andb]. destruct (Z.eqb_spec m 1) as [->|E1]; [reflexivity|].
  rewrite Z.mod_small by lia. reflexivity.
Qed.
Print Assumptions C106_power_by_modulo.
(** l.20-35: the overload with an exponent of another precision answers 1 for the bases 0 and 1. *)
Theorem C106_power_by_modulo_mixed : forall cfg n k base power modulo, cfg_unsafe cfg = false -> 1 <= n -> 0 <= k ->
  0 <= base < modulus n -> 0 <= power < modulus k -> 0 <= modulo < modulus n -> (modulo - 1) * (modulo - 1) < modulus n ->
  powerByModuloDifferentPrecision cfg n k base power modulo =
    (if modulo =? 0 then Err GmpDivByZero
     else Ok (if modulo =? 1 then (2 <=? base) && (0 <? power) else negb ((base =? 0) && (0 <? power)))).
Proof.
  intros cfg n k b p m U Hn Hk Hb Hp Hm Hsq. unfold powerByModuloDifferentPrecision, gmp_powm. destruct (Z.eqb_spec m 0) as [E|E]; [reflexivity|]. cbn [bind].
  destruct (u_from_small cfg n b U ltac:(lia) Hb) as (B & -> & WB & VB). destruct (u_from_small cfg k p U ltac:(lia) Hp) as (P & -> & WP & VP).
  destruct (u_from_small cfg n m U ltac:(lia) Hm) as (M & -> & WM & VM). cbn [bind].
  rewrite (Z.abs_eq m) by lia. pose proof (Z.mod_pos_bound (b ^ p) m ltac:(lia)) as HB.
  destruct (u_from_small cfg n (b ^ p mod m) U ltac:(lia) ltac:(lia)) as (R & -> & WR & VR). cbn [bind].
  destruct (C101_powm_mixed_exact cfg n k B P M Hn WB WP WM ltac:(lia)) as (r & -> & Wr & Vr); [rewrite VM; auto|]. cbn [bind].
  rewrite op_eq_cross by auto. rewrite Vr, VR, VB, VP, VM. f_equal. unfold powm_mixed_value, powm_value.
  destruct (Z.eqb_spec m 1) as [->|E1].
  - rewrite Z.mod_1_r. destruct (Z.eqb_spec b 0) as [->|B0]; [reflexivity|]. destruct (Z.eqb_spec b 1) as [->|B1]; [reflexivity|]. cbn [orb].
    destruct (Z.eqb_spec p 0) as [->|P0]; [rewrite andb_false_r; reflexivity|]. replace (2 <=? b) with true by lia. replace (0 <? p) with true by lia. reflexivity.
  - destruct (Z.eqb_spec b 0) as [->|B0].
    + cbn [orb andb]. destruct (Z.eqb_spec p 0) as [->|P0]; [rewrite Z.pow_0_r, Z.mod_small by lia; reflexivity|].
      rewrite Z.pow_0_l by lia. rewrite Z.mod_0_l by lia. replace (0 <? p) with true by lia. reflexivity.
    + destruct (Z.eqb_spec b 1) as [->|B1]; [rewrite Z.pow_1_l by lia; cbn [orb andb]; rewrite Z.mod_small by lia; reflexivity|]. cbn [orb andb].
      destruct (Z.eqb_spec p 0) as [->|P0]; [rewrite Z.pow_0_r, Z.mod_small by lia; reflexivity|]. apply Z.eqb_refl.
Qed.
Print Assumptions C106_power_by_modulo_mixed.
(** l.37-63 *)
Theorem C106_lcm_and_gcd : forall cfg fuel n left right common, cfg_unsafe cfg = false -> 1 <= n -> 64 * n + 2 <= Z.of_nat fuel ->
  (0 <= left < modulus n -> 0 <= right < modulus n -> leastCommonMultiplier cfg fuel n left right = Ok true) /\
  (0 <= common * left < modulus n -> 0 <= common * right < modulus n -> greatestCommonDivisor cfg fuel n common left right = Ok true).
Proof.
  intros cfg fuel n l r c U Hn HF. split; intros Hl Hr.
  - unfold leastCommonMultiplier. destruct (u_from_small cfg n l U ltac:(lia) Hl) as (L & -> & WL & VL). destruct (u_from_small cfg n r U ltac:(lia) Hr) as (R & -> & WR & VR).
    cbn [bind]. destruct (lcm_correct cfg n fuel L R Hn WL WR HF) as (x & -> & Wx & Vx). cbn [bind]. rewrite u_eq by auto. rewrite Vx, VL, VR.
    rewrite Z.abs_eq by apply Z.lcm_nonneg. rewrite Z.eqb_refl. auto.
  - unfold greatestCommonDivisor. destruct (u_from_small cfg n (c * l) U ltac:(lia) Hl) as (L & -> & WL & VL). destruct (u_from_small cfg n (c * r) U ltac:(lia) Hr) as (R & -> & WR & VR).
    cbn [bind]. destruct (gcd_correct cfg n fuel L R Hn WL WR HF) as (x & -> & Wx & Vx). cbn [bind]. rewrite u_eq by auto. pose proof (bval_bound n x Wx) as B.
    rewrite Vx, VL, VR in *. rewrite Z.abs_eq by lia. rewrite Z.mod_small by lia. rewrite Z.eqb_refl. auto.
Qed.
Print Assumptions C106_lcm_and_gcd.
(** The draws of the tests meet the hypotheses (512 bits, numbers of 246 and 250 bits; the gcd operands have 118 + 374 bits). *)
Lemma C106_hypotheses_met : (2 ^ 250 - 1 - 1) * (2 ^ 250 - 1 - 1) < modulus 16 /\ 2 ^ 1000 < modulus 32 /\ 2 ^ 118 * 2 ^ 374 < modulus 16.
Proof. vm_compute. auto. Qed.
Example C106_example : powerByModulo cfg0 2 3 4 7 = Ok true /\ powerByModulo cfg0 2 3 0 1 = Ok false /\
  powerByModuloDifferentPrecision cfg0 2 1 0 4 7 = Ok false /\ powerByModuloDifferentPrecision cfg0 2 1 3 4 7 = Ok true /\
  leastCommonMultiplier cfg0 200 2 12 18 = Ok true /\ greatestCommonDivisor cfg0 200 2 6 2 3 = Ok true.
Proof. conjs; vm_compute; reflexivity. Qed.

(** ** C107: the bit, byte and block tests *)
Lemma size_length z : mpz_sizeinbase2 z = Z.max 1 (bit_length (Z.abs z)).
Proof.
  unfold mpz_sizeinbase2, bit_length. destruct (Z.eqb_spec z 0) as [->|H]; [reflexivity|]. replace (Z.abs z =? 0) with false by lia.
  pose proof (Z.log2_nonneg (Z.abs z)). lia.
Qed.
Lemma size_pow z : Z.abs z < 2 ^ mpz_sizeinbase2 z.
Proof. rewrite size_length. destruct (bit_length_bounds (Z.abs z) ltac:(lia)) as (A & B & _). eapply Z.lt_le_trans; [exact B|]. apply Z.pow_le_mono_r; lia. Qed.
Lemma size_le z k : 1 <= k -> Z.abs z < 2 ^ k -> mpz_sizeinbase2 z <= k.
Proof. intros. rewrite size_length. pose proof (bit_length_le (Z.abs z) k). lia. Qed.
Theorem C107_count_bits : forall cfg n value, 1 <= n -> Z.abs value < modulus n ->
  (cfg_unsafe cfg = false -> 0 <= value -> countBits (onAeu cfg n) (bitCount n) value = Ok (negb (value =? 0))) /\
  countBits (onAesi cfg n) (s_bitCount n) value = Ok (negb (value =? 0)).
Proof.
  intros cfg n v Hn Hv. assert (G : (mpz_sizeinbase2 v =? bit_length (Z.abs v)) = negb (v =? 0)).
  { rewrite size_length. destruct (bit_length_bounds (Z.abs v) ltac:(lia)) as (A & B & _). destruct (Z.eqb_spec v 0) as [->|E]; [reflexivity|]. cbn [negb].
    assert (bit_length (Z.abs v) <> 0) by (intros Z; rewrite Z in B; change (2 ^ 0) with 1 in B; lia). lia. }
  split; [intros U H0|]; unfold countBits, onAeu, onAesi; cbn [t_from].
  - destruct (u_from_small cfg n v U ltac:(lia) ltac:(lia)) as (a & -> & W & V). cbn [bind]. rewrite bitCount_spec with (n := n) by auto. cbn [bind].
    rewrite V, <- G, Z.abs_eq by lia. auto.
  - destruct (s_from cfg n v ltac:(lia) Hv) as (a & -> & C & V). cbn [bind]. unfold s_bitCount. destruct C as [W C]. rewrite bitCount_spec with (n := n) by auto. cbn [bind].
    rewrite <- G. do 3 f_equal. unfold sval in V. pose proof (bval_bound n (mag a) W). destruct (sgn a); try lia. destruct C as [C _]. rewrite (C eq_refl). lia.
Qed.
Print Assumptions C107_count_bits.

(** setBit / setByte from the lowest position up *)
Lemma bits_below x y L : 0 <= x -> 0 <= y < 2 ^ L -> 0 <= L -> (forall k, 0 <= k -> Z.testbit x k = if k <? L then Z.testbit y k else false) -> x = y.
Proof.
  intros Hx Hy HL H. apply Z.bits_inj'. intros k Hk. rewrite H by auto. destruct (Z.ltb_spec k L); auto. symmetry.
  rewrite <- (Z.mod_small y (2 ^ L)) by lia. apply Z.mod_pow2_bits_high. lia.
Qed.
Lemma fill_bits cfg n v a0 L : wf n a0 -> 0 <= L <= 32 * n ->
  exists a, forU 0 L (fun j a => setBit cfg n a j (Z.testbit v j)) a0 = Ok a /\ wf n a /\
    forall k, 0 <= k -> Z.testbit (bval a) k = if k <? L then Z.testbit v k else Z.testbit (bval a0) k.
Proof.
  intros W HL. apply (forU_spec (fun i a => wf n a /\ forall k, 0 <= k -> Z.testbit (bval a) k = if k <? i then Z.testbit v k else Z.testbit (bval a0) k)).
  - lia.
  - split; auto. intros k Hk. replace (k <? 0) with false by lia. auto.
  - intros i a Hi [Wa H]. destruct (setBit_spec cfg n a i (Z.testbit v i) Wa ltac:(lia)) as (r & E & Wr & Vr). exists r. conjs; auto.
    intros k Hk. rewrite Vr, put_bit_spec by lia. destruct (Z.eqb_spec k i) as [->|Ne]; [replace (i <? i + 1) with true by lia; auto|].
    rewrite H by auto. replace (k <? i + 1) with (k <? i) by lia. auto.
Qed.
Lemma byte_gmp v k : 0 <= v -> 0 <= k -> getByteGmp v k = (v / 2 ^ (8 * k)) mod 2 ^ 8.
Proof.
  intros Hv Hk. unfold getByteGmp, u64. rewrite Z.shiftr_div_pow2 by lia. change 255 with (Z.ones 8). rewrite Z.land_ones by lia.
  symmetry. apply Znumtheory.Zmod_div_mod; [reflexivity|reflexivity|]. exists (2 ^ 56). reflexivity.
Qed.
Lemma fill_bytes cfg n v a0 L : wf n a0 -> 0 <= v -> 0 <= L <= 4 * n ->
  exists a, forU 0 L (fun j a => setByte cfg n a j (getByteGmp v j)) a0 = Ok a /\ wf n a /\
    forall k, 0 <= k -> Z.testbit (bval a) k = if k <? 8 * L then Z.testbit v k else Z.testbit (bval a0) k.
Proof.
  intros W Hv HL. apply (forU_spec (fun i a => wf n a /\ forall k, 0 <= k -> Z.testbit (bval a) k = if k <? 8 * i then Z.testbit v k else Z.testbit (bval a0) k)).
  - lia.
  - split; auto. intros k Hk. replace (k <? 8 * 0) with false by lia. auto.
  - intros i a Hi [Wa H]. rewrite byte_gmp by lia. pose proof (Z.mod_pos_bound (v / 2 ^ (8 * i)) (2 ^ 8) ltac:(lia)) as B.
    destruct (setByte_spec cfg n a i _ Wa ltac:(lia) B) as (r & E & Wr & Vr). exists r. conjs; auto.
    intros k Hk. rewrite Vr by auto. pose proof (Z.div_mod k 8 ltac:(lia)). pose proof (Z.mod_pos_bound k 8 ltac:(lia)).
    destruct (Z.eqb_spec (k / 8) i) as [Ei|Ne].
    + replace (k <? 8 * (i + 1)) with true by lia. rewrite Z.mod_pow2_bits_low by lia. rewrite Z.div_pow2_bits by lia. f_equal. lia.
    + rewrite H by auto. replace (k <? 8 * (i + 1)) with (k <? 8 * i) by lia. auto.
Qed.
Lemma all_true L (f : Z -> outcome bool) : 0 <= L -> (forall j, 0 <= j < L -> f j = Ok true) ->
  forU 0 L (fun j ok => e <- f j ;; Ok (ok && e)) true = Ok true.
Proof. intros HL H. apply trials_iff. auto. Qed.
Lemma testbit_zero_val k : Z.testbit 0 k = false. Proof. apply Z.bits_0. Qed.
Lemma forU_ext {S} (f g : Z -> S -> outcome S) lo hi : (forall i s, f i s = g i s) -> forall s, forU lo hi f s = forU lo hi g s.
Proof.
  intros H s. unfold forU. generalize (Z.to_nat (hi - lo)). intros c. revert lo s. induction c as [|c IH]; intros lo s; cbn [loopU]; auto.
  rewrite H. destruct (g lo s); cbn [bind]; auto.
Qed.
Theorem C107_get_set_bit_and_byte : forall cfg n value, cfg_unsafe cfg = false -> 1 <= n -> 0 <= value < modulus n ->
  getSetBit cfg n value = Ok true /\ getSetByte cfg n value = Ok true.
Proof.
  intros cfg n v U Hn Hv. pose proof (size_pow v) as SP. rewrite Z.abs_eq in SP by lia. pose proof (sizeinbase_pos v) as S1.
  pose proof (size_le v (32 * n) ltac:(lia)) as S2. rewrite Z.abs_eq in S2 by lia. specialize (S2 (proj2 Hv)).
  assert (BC : 8 * byteCountGmp v >= mpz_sizeinbase2 v /\ 1 <= byteCountGmp v <= 4 * n).
  { unfold byteCountGmp. pose proof (Z.div_mod (mpz_sizeinbase2 v + 7) 8 ltac:(lia)). pose proof (Z.mod_pos_bound (mpz_sizeinbase2 v + 7) 8 ltac:(lia)). lia. }
  split.
  - unfold getSetBit. destruct (fill_bits cfg n v (zeros n) (mpz_sizeinbase2 v) (wf_zeros n ltac:(lia)) ltac:(lia)) as (a & -> & Wa & Ha). cbn [bind].
    rewrite u_eq by auto. cbn [bind]. destruct (u_from_small cfg n v U ltac:(lia) Hv) as (b & -> & Wb & Vb). cbn [bind].
    assert (E : bval a = v).
    { apply (bits_below _ _ (mpz_sizeinbase2 v)); try lia; [apply bval_bound with n; auto|]. intros k Hk. rewrite Ha by auto. rewrite bval_zeros, testbit_zero_val. auto. }
    match goal with |- context [forU 0 ?L ?f true] => replace (forU 0 L f true) with (Ok true) end.
    + cbn [bind]. rewrite E, Z.abs_eq, Z.mod_small by lia. rewrite Z.eqb_refl. auto.
    + symmetry. match goal with |- forU 0 ?L ?f true = _ => rewrite (forU_ext f (fun j ok => e <- (bt <- getBit cfg n b j ;; Ok (Bool.eqb bt (Z.testbit v j))) ;; Ok (ok && e))) end.
      * apply all_true; [lia|]. intros j Hj. rewrite getBit_spec by (auto; lia). cbn [bind]. rewrite Vb, Bool.eqb_reflx. auto.
      * intros i s. destruct (getBit cfg n b i); reflexivity.
  - unfold getSetByte. destruct (fill_bytes cfg n v (zeros n) (byteCountGmp v) (wf_zeros n ltac:(lia)) ltac:(lia) ltac:(lia)) as (a & -> & Wa & Ha). cbn [bind].
    rewrite u_eq by auto. cbn [bind]. destruct (u_from_small cfg n v U ltac:(lia) Hv) as (b & -> & Wb & Vb). cbn [bind].
    assert (E : bval a = v).
    { apply (bits_below _ _ (8 * byteCountGmp v)); try lia; [apply bval_bound with n; auto|split; [lia|eapply Z.lt_le_trans; [exact SP|apply Z.pow_le_mono_r; lia] ]|].
      intros k Hk. rewrite Ha by auto. rewrite bval_zeros, testbit_zero_val. auto. }
    match goal with |- context [forU 0 ?L ?f true] => replace (forU 0 L f true) with (Ok true) end.
    + cbn [bind]. rewrite E, Z.abs_eq, Z.mod_small by lia. rewrite Z.eqb_refl. auto.
    + symmetry. match goal with |- forU 0 ?L ?f true = _ => rewrite (forU_ext f (fun j ok => e <- (bt <- getByte cfg n b j ;; Ok (bt =? getByteGmp v j)) ;; Ok (ok && e))) end.
      * apply all_true; [lia|]. intros j Hj. rewrite getByte_spec by (auto; lia). cbn [bind]. rewrite Vb, byte_gmp, Z.eqb_refl by lia. auto.
      * intros i s. destruct (getByte cfg n b i); reflexivity.
Qed.
Print Assumptions C107_get_set_bit_and_byte.
(** The signed tests start from the value 1, fill in the magnitude and negate in the even trials: a drawn zero leaves a sign behind. *)
Lemma signed_fill cfg n i a value draw : 1 <= n -> wf n (mag a) -> sgn a = SPos -> bval (mag a) = draw -> 0 <= draw < modulus n ->
  value = (if i mod 2 =? 0 then -1 else 1) * draw ->
  s_eq_mpz cfg true n (if i mod 2 =? 0 then s_inverse a else a) value = Ok (negb (draw =? 0)).
Proof.
  intros Hn W S V Hd ->. destruct (Z.eqb_spec draw 0) as [->|E].
  - rewrite Z.mul_0_r. rewrite eq_by_sign. destruct (i mod 2 =? 0); [unfold s_inverse|]; rewrite ?S; reflexivity.
  - destruct (i mod 2 =? 0).
    + rewrite s_eq_z; [|lia| |lia].
      * unfold s_inverse, sval. cbn [sgn mag with_sign]. rewrite S. cbn [negb]. f_equal. lia.
      * split; [exact W|]. intros _. unfold s_inverse, with_sign. cbn [mag]. lia.
    + rewrite s_eq_z; [|lia|split; [auto|intros _; lia]|lia]. unfold sval. rewrite S, V. cbn [negb]. f_equal. lia.
Qed.
Lemma one_s n : 1 <= n -> exists a, s_from_int n int32 1 = Ok a /\ wf n (mag a) /\ sgn a = SPos /\ bval (mag a) = 1.
Proof.
  intros Hn. unfold s_from_int. change (1 <? 0) with false. change (1 >? 0) with true. cbn iota. change (u64 1) with 1.
  destruct (one_spec n Hn) as (b & -> & W & V). cbn [bind]. eexists. split; [reflexivity|]. cbn. auto.
Qed.
Lemma s_fill {B} (f : list Z -> Z -> outcome (list Z)) (L : Z) (a : aesi) (k : aesi -> outcome B) :
  bind (forU 0 L (fun j a => b <- f (mag a) j ;; Ok (with_mag a b)) a) k = bind (forU 0 L (fun j b => f b j) (mag a)) (fun b => k (with_mag a b)).
Proof.
  unfold forU. generalize (Z.to_nat (L - 0)). intros c. generalize 0. intros lo. revert lo a. induction c as [|c IH]; intros lo a; cbn [loopU].
  - cbn [bind]. destruct a; reflexivity.
  - destruct (f (mag a) lo) as [b|e]; cbn [bind]; auto. rewrite IH. cbn [mag with_mag sgn]. reflexivity.
Qed.
Theorem C107_signed_get_set_bit_and_byte : forall cfg n i draw, 1 <= n -> 0 <= draw < modulus n ->
  signedGetSetBit cfg n i draw = Ok (negb (draw =? 0)) /\ signedGetSetByte cfg n i draw = Ok (negb (draw =? 0)).
Proof.
  intros cfg n i v Hn Hv. set (value := (if i mod 2 =? 0 then -1 else 1) * v).
  assert (AV : Z.abs value = v) by (unfold value; destruct (i mod 2 =? 0); lia).
  pose proof (size_pow v) as SP. rewrite Z.abs_eq in SP by lia. pose proof (sizeinbase_pos v) as S1.
  pose proof (size_le v (32 * n) ltac:(lia)) as S2. rewrite Z.abs_eq in S2 by lia. specialize (S2 (proj2 Hv)).
  assert (BC : 8 * byteCountGmp v >= mpz_sizeinbase2 v /\ 1 <= byteCountGmp v <= 4 * n).
  { unfold byteCountGmp. pose proof (Z.div_mod (mpz_sizeinbase2 v + 7) 8 ltac:(lia)). pose proof (Z.mod_pos_bound (mpz_sizeinbase2 v + 7) 8 ltac:(lia)). lia. }
  assert (T1 : forall k, 1 <= k -> Z.testbit 1 k = false) by (intros k Hk; destruct k as [|p|p]; try lia; reflexivity).
  destruct (one_s n Hn) as (o & Eo & Wo & So & Vo).
  assert (AM : forall x, canon n x -> sval x = value -> wf n (mag x) /\ bval (mag x) = v).
  { intros x [Wx Cx] Vx. split; auto. pose proof (bval_bound n (mag x) Wx). unfold sval in Vx. destruct (sgn x) eqn:Sx; try lia. destruct Cx as [Cx _]. rewrite (Cx eq_refl). lia. }
  split.
  - unfold signedGetSetBit. fold value. rewrite AV, Eo. cbn [bind]. unfold s_setBit.
    rewrite (s_fill (fun b j => setBit cfg n b j (Z.testbit v j))).
    destruct (fill_bits cfg n v (mag o) (mpz_sizeinbase2 v) Wo ltac:(lia)) as (a & -> & Wa & Ha). cbn [bind].
    assert (E : bval a = v).
    { apply (bits_below _ _ (mpz_sizeinbase2 v)); try lia; [apply bval_bound with n; auto|]. intros k Hk. rewrite Ha by auto. rewrite Vo.
      destruct (Z.ltb_spec k (mpz_sizeinbase2 v)); auto. apply T1. lia. }
    rewrite (signed_fill cfg n i (with_mag o a) value v); cbn [mag sgn with_mag]; auto. cbn [bind].
    destruct (s_from cfg n value ltac:(lia) ltac:(lia)) as (b & -> & Cb & Vb). cbn [bind]. destruct (AM b Cb Vb) as [Wb Mb].
    match goal with |- context [forU 0 ?L ?f true] => replace (forU 0 L f true) with (Ok true) end; [cbn [bind]; rewrite andb_true_r; auto|].
    symmetry. match goal with |- forU 0 ?L ?f true = _ => rewrite (forU_ext f (fun j ok => e <- (bt <- s_getBit cfg n b j ;; Ok (Bool.eqb bt (Z.testbit v j))) ;; Ok (ok && e))) end.
    + apply all_true; [lia|]. intros j Hj. unfold s_getBit. rewrite getBit_spec by (auto; lia). cbn [bind]. rewrite Mb, Bool.eqb_reflx. auto.
    + intros j s. destruct (s_getBit cfg n b j); reflexivity.
  - unfold signedGetSetByte. fold value. rewrite AV, Eo. cbn [bind]. unfold s_setByte.
    rewrite (s_fill (fun b j => setByte cfg n b j (getByteGmp v j))).
    destruct (fill_bytes cfg n v (mag o) (byteCountGmp v) Wo ltac:(lia) ltac:(lia)) as (a & -> & Wa & Ha). cbn [bind].
    assert (E : bval a = v).
    { apply (bits_below _ _ (8 * byteCountGmp v)); try lia; [apply bval_bound with n; auto|split; [lia|eapply Z.lt_le_trans; [exact SP|apply Z.pow_le_mono_r; lia] ]|].
      intros k Hk. rewrite Ha by auto. rewrite Vo. destruct (Z.ltb_spec k (8 * byteCountGmp v)); auto. apply T1. lia. }
    rewrite (signed_fill cfg n i (with_mag o a) value v); cbn [mag sgn with_mag]; auto. cbn [bind].
    destruct (s_from cfg n value ltac:(lia) ltac:(lia)) as (b & -> & Cb & Vb). cbn [bind]. destruct (AM b Cb Vb) as [Wb Mb].
    match goal with |- context [forU 0 ?L ?f true] => replace (forU 0 L f true) with (Ok true) end; [cbn [bind]; rewrite andb_true_r; auto|].
    symmetry. match goal with |- forU 0 ?L ?f true = _ => rewrite (forU_ext f (fun j ok => e <- (bt <- s_getByte cfg n b j ;; Ok (bt =? getByteGmp v j)) ;; Ok (ok && e))) end.
    + apply all_true; [lia|]. intros j Hj. unfold s_getByte. rewrite getByte_spec by (auto; lia). cbn [bind]. rewrite Mb, byte_gmp, Z.eqb_refl by lia. auto.
    + intros j s. destruct (s_getByte cfg n b j); reflexivity.
Qed.
Print Assumptions C107_signed_get_set_bit_and_byte.

(** Blocks *)
Lemma block_step v q x : 0 <= v -> 0 <= q -> 0 <= x < 2 ^ 32 -> exists h, Z.lor (u32 (x * 256)) (getByteGmp v q) = h /\ 0 <= h < 2 ^ 32 /\
  (forall k, 0 <= k <= 3 -> x mod 2 ^ (8 * k) = (v / 2 ^ (8 * (q + 1))) mod 2 ^ (8 * k) -> h mod 2 ^ (8 * (k + 1)) = (v / 2 ^ (8 * q)) mod 2 ^ (8 * (k + 1))) /\
  (x < 2 ^ 24 -> h = x * 256 + (v / 2 ^ (8 * q)) mod 256).
Proof.
  intros Hv Hq Hx. eexists. split; [reflexivity|]. rewrite byte_gmp by lia. change (2 ^ 8) with 256. unfold u32.
  set (w := v / 2 ^ (8 * q)). assert (W256 : v / 2 ^ (8 * (q + 1)) = w / 256).
  { unfold w. change 256 with (2 ^ 8). rewrite Z.div_div by (try apply Z.pow_nonzero; lia || (apply Z.pow_pos_nonneg; lia)). rewrite <- Z.pow_add_r by lia. f_equal. f_equal. lia. }
  rewrite W256. pose proof (Z.mod_pos_bound w 256 ltac:(lia)) as B.
  assert (L : Z.lor ((x * 256) mod 2 ^ 32) (w mod 256) = (x * 256) mod 2 ^ 32 + w mod 256).
  { apply lor_add. apply Z.bits_inj'. intros k Hk. rewrite Z.land_spec, Z.bits_0. change 256 with (2 ^ 8). destruct (Z.ltb_spec k 8).
    - rewrite Z.mod_pow2_bits_low by lia. rewrite Z.mul_pow2_bits_low by lia. auto.
    - rewrite (Z.mod_pow2_bits_high w) by lia. apply andb_false_r. }
  rewrite L. assert (M : (x * 256) mod 2 ^ 32 = 256 * (x mod 2 ^ 24)) by (change (2 ^ 32) with (256 * 2 ^ 24); rewrite (Z.mul_comm x 256); apply Z.mul_mod_distr_l; lia).
  rewrite M. pose proof (Z.mod_pos_bound x (2 ^ 24) ltac:(lia)) as B2. change (2 ^ 32) with (256 * 2 ^ 24) in *. change (2 ^ 24) with 16777216 in *. conjs; try lia.
  - intros k Hk E. replace (8 * (k + 1)) with (8 + 8 * k) by lia. rewrite Z.pow_add_r by lia. change (2 ^ 8) with 256.
    assert (HP : 0 < 2 ^ (8 * k)) by (apply Z.pow_pos_nonneg; lia).
    rewrite (Z.rem_mul_r w) by lia. rewrite <- E. rewrite (Z.rem_mul_r (256 * _ + _)) by lia.
    assert (D : (256 * (x mod 16777216) + w mod 256) / 256 = x mod 16777216) by (rewrite (Z.mul_comm 256), Z.div_add_l by lia; rewrite Z.div_small by lia; lia).
    assert (R : (256 * (x mod 16777216) + w mod 256) mod 256 = w mod 256) by (rewrite Z.add_comm, Z.mul_comm, Z_mod_plus_full, Z.mod_mod by lia; auto).
    rewrite D, R. do 2 f_equal. symmetry. apply Znumtheory.Zmod_div_mod; try lia. exists (2 ^ (24 - 8 * k)). rewrite <- Z.pow_add_r by lia. replace (24 - 8 * k + 8 * k) with 24 by lia. reflexivity.
  - intros Hs. rewrite (Z.mod_small x) by lia. lia.
Qed.
Lemma block_of_bytes v j k0 : 0 <= v -> 0 <= j -> (k0 = 0 \/ k0 = 1) -> blockOfBytes v j k0 = Ok ((v / 2 ^ (32 * j)) mod 2 ^ 32).
Proof.
  intros Hv Hj Hk. unfold blockOfBytes.
  match goal with |- forU k0 5 ?f 0 = _ => destruct (forU_spec (fun k x => 0 <= x < 2 ^ 32 /\ (1 <= k -> x mod 2 ^ (8 * (k - 1)) = (v / 2 ^ (8 * (4 * (j + 1) - (k - 1)))) mod 2 ^ (8 * (k - 1)))) k0 5 f 0) as (x & -> & Hx & E) end.
  - lia.
  - split; [lia|]. intros H1. replace (8 * (k0 - 1)) with 0 by lia. rewrite !Z.mod_1_r. auto.
  - intros k x Hi [Hx E]. replace ((j + 1) * 4 - k) with (4 * (j + 1) - k) by lia.
    destruct (block_step v (4 * (j + 1) - k) x Hv ltac:(lia) Hx) as (h & -> & Hh & Hs & _). exists h. conjs; auto; try lia. intros _.
    replace (k + 1 - 1) with k by lia. destruct (Z.eq_dec k 0) as [->|Nz]; [rewrite !Z.mod_1_r; auto|].
    specialize (Hs (k - 1)). replace (k - 1 + 1) with k in Hs by lia. apply Hs; [lia|]. rewrite E by lia. do 3 f_equal. lia.
  - f_equal. specialize (E ltac:(lia)). change (8 * (5 - 1)) with 32 in E. rewrite (Z.mod_small x) in E by lia. rewrite E. do 3 f_equal. lia.
Qed.
Lemma top_block v T : 0 <= v < 2 ^ (8 * byteCountGmp v) -> T = byteCountGmp v / 4 -> 1 <= T -> byteCountGmp v < 2 ^ 62 ->
  forall fuel, (5 <= fuel)%nat -> topBlockOfBytes v (byteCountGmp v) T fuel = Ok (v / 2 ^ (32 * T)).
Proof.
  intros Hv HT H1 HB fuel HF. set (c := byteCountGmp v) in *. pose proof (Z.div_mod c 4 ltac:(lia)). pose proof (Z.mod_pos_bound c 4 ltac:(lia)). rewrite <- HT in *.
  unfold topBlockOfBytes. unfold u64 at 2. rewrite Z.mod_small by lia.
  match goal with |- whileF fuel ?f ?s = _ =>
    destruct (whileF_spec (fun '(j, b) => 4 * T - 1 <= j <= c - 1 /\ b = v / 2 ^ (8 * (j + 1))) (fun '(j, _) => j - (4 * T - 1)) (fun b => b = v / 2 ^ (32 * T)) f fuel s) as (r & -> & ->); auto end.
  - split; [lia|]. replace (c - 1 + 1) with c by lia. rewrite Z.div_small by lia. auto.
  - cbn beta iota. lia.
  - intros [j b] [Hj _]. lia.
  - intros [j b] [Hj Eb]. destruct (Z.geb_spec j (T * 4)) as [Hge|Hlt].
    + assert (Hb : 0 <= b < 2 ^ 16).
      { subst b. split; [apply Z.div_pos; [lia|apply Z.pow_pos_nonneg; lia]|]. apply Z.div_lt_upper_bound; [apply Z.pow_pos_nonneg; lia|]. rewrite <- Z.pow_add_r by lia.
        eapply Z.lt_le_trans; [apply Hv|]. apply Z.pow_le_mono_r; lia. }
      destruct (block_step v j b ltac:(lia) ltac:(lia) ltac:(lia)) as (h & Eh & _ & _ & Hs). specialize (Hs ltac:(lia)). rewrite Eh. eexists. split; [reflexivity|]. cbn [step_post].
      unfold u64. rewrite Z.mod_small by lia. split; [|lia]. split; [lia|]. rewrite Hs. subst b. replace (j - 1 + 1) with j by lia.
      replace (8 * (j + 1)) with (8 * j + 8) by lia. rewrite Z.pow_add_r by lia. rewrite <- Z.div_div by (try apply Z.pow_nonzero; lia). change (2 ^ 8) with 256.
      rewrite (Z.div_mod (v / 2 ^ (8 * j)) 256) at 3 by lia. lia.
    + eexists. split; [reflexivity|]. cbn [step_post]. subst b. do 2 f_equal. lia.
Qed.
Lemma digits_eq n x y : 0 <= n -> 0 <= x < modulus n -> 0 <= y < modulus n ->
  (forall k, 0 <= k < n -> (x / 2 ^ (32 * k)) mod 2 ^ 32 = (y / 2 ^ (32 * k)) mod 2 ^ 32) -> x = y.
Proof.
  intros Hn Hx Hy H. unfold modulus in *. apply (bits_below x y (32 * n)); try lia. intros k Hk. destruct (Z.ltb_spec k (32 * n)) as [Hl|Hg].
  - pose proof (Z.div_mod k 32 ltac:(lia)). pose proof (Z.mod_pos_bound k 32 ltac:(lia)). specialize (H (k / 32)).
    assert (T : forall z, Z.testbit z k = Z.testbit ((z / 2 ^ (32 * (k / 32))) mod 2 ^ 32) (k mod 32)).
    { intros z. rewrite Z.mod_pow2_bits_low by lia. rewrite Z.div_pow2_bits by lia. f_equal. lia. }
    rewrite (T x), (T y), H by lia. auto.
  - rewrite <- (Z.mod_small x (2 ^ (32 * n))) by lia. apply Z.mod_pow2_bits_high. lia.
Qed.
Lemma fill_blocks cfg n v a0 T k0 : wf n a0 -> 0 <= v -> 0 <= T <= n -> (k0 = 0 \/ k0 = 1) ->
  exists a, forU 0 T (fun j a => b <- blockOfBytes v j k0 ;; setBlock cfg n a j b) a0 = Ok a /\ wf n a /\
    forall k, 0 <= k < n -> (bval a / 2 ^ (32 * k)) mod 2 ^ 32 = if k <? T then (v / 2 ^ (32 * k)) mod 2 ^ 32 else (bval a0 / 2 ^ (32 * k)) mod 2 ^ 32.
Proof.
  intros W Hv HT H0. apply (forU_spec (fun i a => wf n a /\ forall k, 0 <= k < n -> (bval a / 2 ^ (32 * k)) mod 2 ^ 32 = if k <? i then (v / 2 ^ (32 * k)) mod 2 ^ 32 else (bval a0 / 2 ^ (32 * k)) mod 2 ^ 32)).
  - lia.
  - split; auto. intros k Hk. replace (k <? 0) with false by lia. auto.
  - intros i a Hi [Wa H]. rewrite block_of_bytes by (auto; lia). cbn [bind].
    destruct (setBlock_spec cfg n a i ((v / 2 ^ (32 * i)) mod 2 ^ 32) Wa ltac:(lia)) as (r & E & Wr & Vr); [apply Z.mod_pos_bound; lia|]. exists r. conjs; auto.
    intros k Hk. rewrite Vr by auto. destruct (Z.eqb_spec k i) as [->|Ne]; [replace (i <? i + 1) with true by lia; auto|].
    rewrite H by auto. replace (k <? i + 1) with (k <? i) by lia. auto.
Qed.
Lemma byte_count_bounds v : 0 <= v -> v < 2 ^ (8 * byteCountGmp v) /\ 1 <= byteCountGmp v /\ (forall L, 1 <= L -> v < 2 ^ (8 * L) -> byteCountGmp v <= L) /\ (2 ^ 24 <= v -> 4 <= byteCountGmp v).
Proof.
  intros Hv. pose proof (size_pow v) as SP. rewrite Z.abs_eq in SP by lia. pose proof (sizeinbase_pos v). unfold byteCountGmp in *.
  pose proof (Z.div_mod (mpz_sizeinbase2 v + 7) 8 ltac:(lia)). pose proof (Z.mod_pos_bound (mpz_sizeinbase2 v + 7) 8 ltac:(lia)). conjs; try lia.
  - eapply Z.lt_le_trans; [exact SP|apply Z.pow_le_mono_r; lia].
  - intros L HL HvL. pose proof (size_le v (8 * L) ltac:(lia)) as S2. rewrite Z.abs_eq in S2 by lia. specialize (S2 HvL). lia.
  - intros HvL. assert (24 < mpz_sizeinbase2 v); [|lia]. apply (Z.pow_lt_mono_r_iff 2); lia.
Qed.
(** The value the two loops leave in the magnitude. *)
Lemma blocks_end cfg n v a a' b T : 1 <= n -> 0 <= v < 2 ^ (32 * n - 8) -> T = byteCountGmp v / 4 -> wf n a ->
  (forall k, 0 <= k < n -> (bval a / 2 ^ (32 * k)) mod 2 ^ 32 = if k <? T then (v / 2 ^ (32 * k)) mod 2 ^ 32 else 0) ->
  b = v / 2 ^ (32 * T) -> setBlock cfg n a T b = Ok a' -> wf n a' -> bval a' = v.
Proof.
  intros Hn Hv HT Wa Ha Hb Es Wa'. destruct (byte_count_bounds v ltac:(lia)) as (B1 & B2 & B3 & _). specialize (B3 (4 * n - 1) ltac:(lia)).
  replace (8 * (4 * n - 1)) with (32 * n - 8) in B3 by lia. specialize (B3 (proj2 Hv)).
  pose proof (Z.div_mod (byteCountGmp v) 4 ltac:(lia)). pose proof (Z.mod_pos_bound (byteCountGmp v) 4 ltac:(lia)). rewrite <- HT in *.
  assert (HPv : v < 2 ^ (32 * T) * 2 ^ 32) by (rewrite <- Z.pow_add_r by lia; eapply Z.lt_le_trans; [exact B1|apply Z.pow_le_mono_r; lia]).
  assert (Hb32 : 0 <= b < 2 ^ 32) by (subst b; split; [apply Z.div_pos; [lia|apply Z.pow_pos_nonneg; lia]|apply Z.div_lt_upper_bound; [apply Z.pow_pos_nonneg; lia|auto] ]).
  destruct (setBlock_spec cfg n a T b Wa ltac:(lia) Hb32) as (r & E & Wr & Vr). rewrite Es in E. injection E as <-.
  apply (digits_eq n); [lia|apply bval_bound; auto| |].
  - split; [lia|]. eapply Z.lt_le_trans; [apply Hv|]. unfold modulus. apply Z.pow_le_mono_r; lia.
  - intros k Hk. rewrite Vr by auto. destruct (Z.eqb_spec k T) as [->|Ne]; [rewrite <- Hb, Z.mod_small by lia; auto|]. rewrite Ha by auto.
    destruct (Z.ltb_spec k T); auto. symmetry. rewrite Z.div_small; [reflexivity|]. split; [lia|]. eapply Z.lt_le_trans; [exact B1|]. apply Z.pow_le_mono_r; lia.
Qed.
Lemma top_block_endless v : 0 <= v < 2 ^ 24 -> forall fuel, topBlockOfBytes v (byteCountGmp v) 0 fuel = Err OutOfFuel.
Proof.
  intros Hv fuel. unfold topBlockOfBytes.
  match goal with |- whileF fuel ?f _ = _ => assert (G : forall fu j b, 0 <= j -> whileF fu f (j, b) = Err OutOfFuel) end.
  { induction fu as [|fu IH]; intros j b Hj; [reflexivity|]. cbn [whileF]. replace (j >=? 0 * 4) with true by lia. cbn [bind]. apply IH. unfold u64. apply Z.mod_pos_bound. lia. }
  apply G. unfold u64. apply Z.mod_pos_bound. lia.
Qed.
(** Below 2^24 the second loop of the test counts [j] down past zero and never ends; the other draws pass. *)
Theorem C107_get_set_block : forall cfg fuel n value, cfg_unsafe cfg = false -> 1 <= n <= 2 ^ 59 -> 0 <= value < 2 ^ (32 * n - 8) -> (5 <= fuel)%nat ->
  getSetBlock cfg fuel n value = (if value <? 2 ^ 24 then Err OutOfFuel else Ok true).
Proof.
  intros cfg fuel n v U Hn Hv HF. unfold getSetBlock. destruct (byte_count_bounds v ltac:(lia)) as (B1 & B2 & B3 & B4).
  pose proof (B3 (4 * n - 1) ltac:(lia)) as B5. replace (8 * (4 * n - 1)) with (32 * n - 8) in B5 by lia. specialize (B5 (proj2 Hv)).
  pose proof (Z.div_mod (byteCountGmp v) 4 ltac:(lia)). pose proof (Z.mod_pos_bound (byteCountGmp v) 4 ltac:(lia)).
  assert (Wz : wf n (zeros n)) by (apply wf_zeros; lia).
  destruct (Z.ltb_spec v (2 ^ 24)) as [Hs|Hs].
  - assert (T0 : byteCountGmp v / 4 = 0) by (specialize (B3 3 ltac:(lia) Hs); lia). rewrite T0. unfold forU. cbn [Z.to_nat Z.sub loopU bind]. rewrite top_block_endless by lia. reflexivity.
  - specialize (B4 Hs). remember (byteCountGmp v / 4) as T eqn:HT. destruct (fill_blocks cfg n v (zeros n) T 1 Wz ltac:(lia) ltac:(lia) ltac:(auto)) as (a & -> & Wa & Ha). cbn [bind].
    rewrite (top_block v T) by (auto; lia). cbn [bind].
    assert (HPv : v < 2 ^ (32 * T) * 2 ^ 32) by (rewrite <- Z.pow_add_r by lia; eapply Z.lt_le_trans; [exact B1|apply Z.pow_le_mono_r; lia]).
    assert (Hb32 : 0 <= v / 2 ^ (32 * T) < 2 ^ 32) by (split; [apply Z.div_pos; [lia|apply Z.pow_pos_nonneg; lia]|apply Z.div_lt_upper_bound; [apply Z.pow_pos_nonneg; lia|auto] ]).
    destruct (setBlock_spec cfg n a T (v / 2 ^ (32 * T)) Wa ltac:(lia) Hb32) as (r & E & Wr & Vr). rewrite E. cbn [bind]. rewrite u_eq by auto.
    assert (V : bval r = v).
    { apply (blocks_end cfg n v a r (v / 2 ^ (32 * T)) T); auto; try lia. intros k Hk. rewrite Ha by auto. destruct (k <? T); auto. rewrite bval_zeros. reflexivity. }
    rewrite V, Z.abs_eq by lia. pose proof (bval_bound n r Wr). rewrite Z.mod_small by lia. rewrite Z.eqb_refl. auto.
Qed.
Print Assumptions C107_get_set_block.
Theorem C107_signed_get_set_block : forall cfg fuel n i draw, 1 <= n <= 2 ^ 59 -> 0 <= draw < 2 ^ (32 * n - 8) -> (5 <= fuel)%nat ->
  signedGetSetBlock cfg fuel n i draw = (if draw <? 2 ^ 24 then Err OutOfFuel else Ok true).
Proof.
  intros cfg fuel n i v Hn Hv HF. unfold signedGetSetBlock. set (value := (if i mod 2 =? 0 then -1 else 1) * v).
  assert (AV : Z.abs value = v) by (unfold value; destruct (i mod 2 =? 0); lia). rewrite AV. destruct (byte_count_bounds v ltac:(lia)) as (B1 & B2 & B3 & B4).
  pose proof (B3 (4 * n - 1) ltac:(lia)) as B5. replace (8 * (4 * n - 1)) with (32 * n - 8) in B5 by lia. specialize (B5 (proj2 Hv)).
  pose proof (Z.div_mod (byteCountGmp v) 4 ltac:(lia)). pose proof (Z.mod_pos_bound (byteCountGmp v) 4 ltac:(lia)).
  destruct (one_s n ltac:(lia)) as (o & -> & Wo & So & Vo). cbn [bind]. unfold s_setBlock.
  match goal with |- context [forU 0 ?L ?f o] => rewrite (forU_ext f (fun j a => b <- (b <- blockOfBytes v j 0 ;; setBlock cfg n (mag a) j b) ;; Ok (with_mag a b))) by (intros j s; destruct (blockOfBytes v j 0); reflexivity) end.
  rewrite (s_fill (fun m j => b <- blockOfBytes v j 0 ;; setBlock cfg n m j b)).
  destruct (Z.ltb_spec v (2 ^ 24)) as [Hs|Hs].
  - assert (T0 : byteCountGmp v / 4 = 0) by (specialize (B3 3 ltac:(lia) Hs); lia). rewrite T0. unfold forU. cbn [Z.to_nat Z.sub loopU bind]. rewrite top_block_endless by lia. reflexivity.
  - specialize (B4 Hs). remember (byteCountGmp v / 4) as T eqn:HT. destruct (fill_blocks cfg n v (mag o) T 0 Wo ltac:(lia) ltac:(lia) ltac:(auto)) as (a & -> & Wa & Ha). cbn [bind].
    rewrite (top_block v T) by (auto; lia). cbn [bind mag with_mag].
    assert (HPv : v < 2 ^ (32 * T) * 2 ^ 32) by (rewrite <- Z.pow_add_r by lia; eapply Z.lt_le_trans; [exact B1|apply Z.pow_le_mono_r; lia]).
    assert (Hb32 : 0 <= v / 2 ^ (32 * T) < 2 ^ 32) by (split; [apply Z.div_pos; [lia|apply Z.pow_pos_nonneg; lia]|apply Z.div_lt_upper_bound; [apply Z.pow_pos_nonneg; lia|auto] ]).
    destruct (setBlock_spec cfg n a T (v / 2 ^ (32 * T)) Wa ltac:(lia) Hb32) as (r & E & Wr & Vr). rewrite E. cbn [bind].
    assert (V : bval r = v).
    { apply (blocks_end cfg n v a r (v / 2 ^ (32 * T)) T); auto; try lia. intros k Hk. rewrite Ha by auto. destruct (Z.ltb_spec k T); auto. rewrite Vo.
      rewrite Z.div_small; [reflexivity|]. split; [lia|]. apply Z.pow_gt_1; lia. }
    pose proof (bval_bound n r Wr). rewrite (signed_fill cfg n i _ value v); cbn [mag sgn with_mag]; auto; try lia. replace (v =? 0) with false by lia. reflexivity.
Qed.
Print Assumptions C107_signed_get_set_block.
Example C107_example : countBits (onAeu cfg0 2) (bitCount 2) 0 = Ok false /\ countBits (onAesi cfg0 2) (s_bitCount 2) (-77) = Ok true /\
  getSetBit cfg0 2 4294967297 = Ok true /\ signedGetSetByte cfg0 2 0 70000 = Ok true /\ signedGetSetBit cfg0 2 1 0 = Ok false /\
  getSetBlock cfg0 9 2 4311810305 = Ok true /\ signedGetSetBlock cfg0 9 2 0 4311810305 = Ok true.
Proof. conjs; vm_compute; reflexivity. Qed.
