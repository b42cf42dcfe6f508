(** * AeuAccess: proofs about accessors, observers, comparisons and casts of [Aeu]. *)
From Verif Require Export AeuBits.
From Coq Require Import ZifyBool.
Open Scope Z_scope.

Lemma assert_ok cfg b : b = true -> assert_ cfg b = Ok tt.
Proof. intros ->. unfold assert_. destruct (cfg_ndebug cfg); auto. Qed.

Lemma land_pow2_testbit x k : 0 <= k -> negb (Z.land x (Z.shiftl 1 k) =? 0) = Z.testbit x k.
Proof.
  intros Hk. rewrite Z.shiftl_mul_pow2 by lia. rewrite Z.mul_1_l.
  destruct (Z.testbit x k) eqn:T.
  - destruct (Z.eqb_spec (Z.land x (2 ^ k)) 0) as [E|]; auto.
    assert (F : Z.testbit (Z.land x (2 ^ k)) k = false) by (rewrite E; apply Z.testbit_0_l).
    rewrite Z.land_spec, T, Z.pow2_bits_true in F by lia. discriminate.
  - destruct (Z.eqb_spec (Z.land x (2 ^ k)) 0) as [E|E]; auto. exfalso. apply E.
    apply Z.bits_inj'. intros i Hi. rewrite Z.land_spec, Z.testbit_0_l. rewrite Z.pow2_bits_eqb by lia.
    destruct (Z.eqb_spec k i); [subst; rewrite T; auto|]. apply andb_false_r.
Qed.

Lemma upd_testbit n a k v i : wf n a -> 0 <= v < 2 ^ 32 -> 0 <= k < n -> 0 <= i ->
  Z.testbit (bval (upd a (Z.to_nat k) v)) i = if i / 32 =? k then Z.testbit v (i mod 32) else Z.testbit (bval a) i.
Proof.
  intros Wa Hv Hk Hi. rewrite (bval_testbit n) by (auto; apply wf_upd; auto). rewrite (bval_testbit n a) by auto.
  pose proof (wf_len _ _ Wa). rewrite znth_upd by lia. rewrite (Z.eqb_sym (i / 32)). destruct (k =? i / 32); auto.
Qed.

(** ** Bits *)
Lemma getBit_spec cfg n a i : wf n a -> 0 <= i < 32 * n -> getBit cfg n a i = Ok (Z.testbit (bval a) i).
Proof.
  intros Wa Hi. destruct (block_index i n Hi) as (H1 & H2 & H3). pose proof (wf_len _ _ Wa).
  unfold getBit, blockBitLength. destruct (Z.geb_spec i (32 * n)); [lia|]. rewrite andb_false_r. cbv zeta.
  rewrite assert_ok by lia. cbn [bind]. rewrite aget_ok by lia. cbn [bind].
  rewrite land_pow2_testbit by lia. rewrite (bval_testbit n) by (auto; lia). auto.
Qed.
Lemma getBit_over cfg n a i : cfg_unsafe cfg = false -> 32 * n <= i -> getBit cfg n a i = Ok false.
Proof. intros U H. unfold getBit. rewrite U. destruct (Z.geb_spec i (32 * n)); [|lia]. reflexivity. Qed.

Definition put_bit (b : bool) (z i : Z) : Z := if b then Z.setbit z i else Z.clearbit z i.
Lemma put_bit_spec b z i k : 0 <= i -> 0 <= k -> Z.testbit (put_bit b z i) k = if k =? i then b else Z.testbit z k.
Proof.
  intros. unfold put_bit. destruct b.
  - rewrite Z.setbit_eqb by auto. rewrite (Z.eqb_sym i k). destruct (k =? i); auto.
  - rewrite Z.clearbit_eqb. rewrite (Z.eqb_sym i k). destruct (k =? i); cbn; [apply andb_false_r|apply andb_true_r].
Qed.

Lemma setBit_spec cfg n a i b : wf n a -> 0 <= i < 32 * n ->
  yields n (setBit cfg n a i b) (put_bit b (bval a) i).
Proof.
  intros Wa Hi. destruct (block_index i n Hi) as (H1 & H2 & H3). pose proof (wf_len _ _ Wa) as La.
  unfold setBit, blockBitLength. destruct (Z.geb_spec i (32 * n)); [lia|]. rewrite andb_false_r. cbv zeta.
  rewrite assert_ok by lia. cbn [bind]. rewrite aget_ok by lia. cbn [bind].
  pose proof (wf_znth n a (i / 32) Wa) as Hz.
  assert (Hp : 0 <= Z.shiftl 1 (i mod 32) < 2 ^ 32).
  { rewrite Z.shiftl_mul_pow2 by lia. rewrite Z.mul_1_l. split; [apply Z.pow_nonneg; lia|]. apply Z.pow_lt_mono_r; lia. }
  set (v := if b then Z.lor (znth a (i / 32)) (Z.shiftl 1 (i mod 32)) else Z.land (znth a (i / 32)) (not32 (Z.shiftl 1 (i mod 32)))).
  assert (Hv : 0 <= v < 2 ^ 32).
  { subst v. destruct b; [apply lor_range; auto|apply land_range; auto]. }
  replace (if b then _ else _) with (Ok (upd a (Z.to_nat (i / 32)) v)).
  2:{ subst v. destruct b; rewrite aset_ok by lia; auto. }
  assert (W' : wf n (upd a (Z.to_nat (i / 32)) v)) by (apply wf_upd; auto).
  apply yields_ok; auto. apply Z.bits_inj'. intros k Hk. rewrite put_bit_spec by lia.
  rewrite (upd_testbit n) by (auto; lia).
  assert (B1 : forall j, 0 <= j -> Z.testbit (Z.shiftl 1 (i mod 32)) j = (j =? i mod 32)).
  { intros j Hj. rewrite Z.shiftl_mul_pow2, Z.mul_1_l by lia. rewrite Z.pow2_bits_eqb by lia. apply Z.eqb_sym. }
  destruct (Z.eqb_spec (k / 32) (i / 32)) as [Eb|Eb].
  - pose proof (Z.div_mod k 32 ltac:(lia)) as Dk. pose proof (Z.mod_pos_bound k 32 ltac:(lia)) as Mk.
    rewrite (bval_testbit n) by (auto; lia). rewrite Eb.
    subst v. destruct b.
    + rewrite Z.lor_spec. rewrite B1 by lia. destruct (Z.eqb_spec (k mod 32) (i mod 32)), (Z.eqb_spec k i); try (exfalso; lia).
      * apply orb_true_r.
      * apply orb_false_r.
    + rewrite Z.land_spec. rewrite not32_testbit by lia. rewrite B1 by lia.
      destruct (Z.ltb_spec (k mod 32) 32); [|lia].
      destruct (Z.eqb_spec (k mod 32) (i mod 32)), (Z.eqb_spec k i); try (exfalso; lia); cbn.
      * apply andb_false_r.
      * apply andb_true_r.
  - destruct (Z.eqb_spec k i); [subst; lia|]. auto.
Qed.
Lemma setBit_over cfg n a i b : cfg_unsafe cfg = false -> 32 * n <= i -> setBit cfg n a i b = Ok a.
Proof. intros U H. unfold setBit. rewrite U. destruct (Z.geb_spec i (32 * n)); [|lia]. reflexivity. Qed.

Lemma power2_spec cfg n k : 0 <= n -> 0 <= k < 32 * n -> yields n (power2 cfg n k) (2 ^ k).
Proof.
  intros Hn Hk. unfold power2, aeu_zero. replace (2 ^ k) with (put_bit true (bval (zeros n)) k).
  - apply setBit_spec; auto. apply wf_zeros; auto.
  - rewrite bval_zeros. apply Z.bits_inj'. intros i Hi. rewrite put_bit_spec by lia. rewrite Z.testbit_0_l.
    rewrite Z.pow2_bits_eqb by lia. rewrite Z.eqb_sym. destruct (k =? i); auto.
Qed.
Lemma power2_over cfg n k : cfg_unsafe cfg = false -> 0 <= n -> 32 * n <= k -> yields n (power2 cfg n k) 0.
Proof.
  intros U Hn Hk. unfold power2. rewrite setBit_over by auto. apply yields_ok; [apply wf_zeros; auto|apply bval_zeros].
Qed.

(** ** Bytes *)
Lemma byte_index i n : 0 <= i < 4 * n -> 0 <= i / 4 < n /\ 0 <= i mod 4 < 4 /\ i = 4 * (i / 4) + i mod 4.
Proof.
  intros H. pose proof (Z.div_mod i 4 ltac:(lia)). pose proof (Z.mod_pos_bound i 4 ltac:(lia)). lia.
Qed.

Lemma byte_mask k : 0 <= k < 4 -> u32 (Z.shiftl 255 (8 * k)) = Z.shiftl 255 (8 * k) /\
  forall j, 0 <= j -> Z.testbit (Z.shiftl 255 (8 * k)) j = ((8 * k <=? j) && (j <? 8 * k + 8))%bool.
Proof.
  intros Hk. split.
  - apply u32_small. assert (k = 0 \/ k = 1 \/ k = 2 \/ k = 3) as [->|[->|[->| ->]]] by lia; cbn; lia.
  - intros j Hj. destruct (Z.leb_spec (8 * k) j); cbn [andb].
    + rewrite Z.shiftl_spec by lia. change 255 with (2 ^ 8 - 1). rewrite ones_testbit by lia.
      destruct (Z.ltb_spec (j - 8 * k) 8), (Z.ltb_spec j (8 * k + 8)); auto; lia.
    + rewrite Z.shiftl_spec by lia. apply Z.testbit_neg_r. lia.
Qed.

Lemma byteOf_spec b k : 0 <= k < 4 -> byteOf b k = (b / 2 ^ (8 * k)) mod 2 ^ 8.
Proof.
  intros Hk. unfold byteOf, bitsInByte. rewrite (Z.mul_comm k 8). destruct (byte_mask k Hk) as [-> M].
  apply Z.bits_inj'. intros j Hj. rewrite Z.shiftr_spec by lia. rewrite Z.land_spec, M by lia.
  destruct (Z.leb_spec (8 * k) (j + 8 * k)); [|lia]. cbn [andb].
  destruct (Z.ltb_spec (j + 8 * k) (8 * k + 8)).
  - rewrite Z.mod_pow2_bits_low by lia. rewrite Z.div_pow2_bits by lia. apply andb_true_r.
  - rewrite Z.mod_pow2_bits_high by lia. apply andb_false_r.
Qed.

Lemma getByte_spec cfg n a i : wf n a -> 0 <= i < 4 * n ->
  getByte cfg n a i = Ok ((bval a / 2 ^ (8 * i)) mod 2 ^ 8).
Proof.
  intros Wa Hi. destruct (byte_index i n Hi) as (H1 & H2 & H3). pose proof (wf_len _ _ Wa).
  unfold getByte, blockBytes. destruct (Z.gtb_spec i (n * 4)); [lia|]. rewrite andb_false_r. cbv zeta.
  rewrite assert_ok by lia. cbn [bind]. rewrite aget_ok by lia. cbn [bind].
  fold (byteOf (znth a (i / 4)) (i mod 4)). rewrite byteOf_spec by lia.
  rewrite u8_small by (apply Z.mod_pos_bound; lia). f_equal.
  apply Z.bits_inj'. intros j Hj. destruct (Z.ltb_spec j 8).
  - rewrite !Z.mod_pow2_bits_low by lia. rewrite !Z.div_pow2_bits by lia.
    rewrite (bval_testbit n) by (auto; lia).
    replace (j + 8 * i) with ((j + 8 * (i mod 4)) + (i / 4) * 32) by lia.
    rewrite Z.div_add, Z.mod_add by lia. rewrite (Z.div_small (j + _)), (Z.mod_small (j + _)) by lia. auto.
  - rewrite !Z.mod_pow2_bits_high by lia. auto.
Qed.

Lemma setByte_spec cfg n a i v : wf n a -> 0 <= i < 4 * n -> 0 <= v < 2 ^ 8 ->
  exists r, setByte cfg n a i v = Ok r /\ wf n r /\
    forall k, 0 <= k -> Z.testbit (bval r) k = if k / 8 =? i then Z.testbit v (k mod 8) else Z.testbit (bval a) k.
Proof.
  intros Wa Hi Hv8. destruct (byte_index i n Hi) as (H1 & H2 & H3). pose proof (wf_len _ _ Wa) as La.
  unfold setByte, blockBytes. destruct (Z.gtb_spec i (n * 4)); [lia|]. rewrite andb_false_r. cbv zeta.
  rewrite assert_ok by lia. cbn [bind]. rewrite aget_ok by lia. cbn [bind]. rewrite aset_ok by lia. cbn [bind].
  rewrite aget_ok by lenlia. cbn [bind]. rewrite znth_upd_eq by lia. rewrite aset_ok by lenlia.
  unfold bitsInByte. rewrite (Z.mul_comm (i mod 4) 8).
  destruct (byte_mask (i mod 4) H2) as [Em M]. rewrite Em.
  set (x := znth a (i / 4)). set (m := i mod 4) in *.
  set (v1 := Z.land x (not32 (Z.shiftl 255 (8 * m)))).
  assert (Hv1 : 0 <= v1 < 2 ^ 32) by (apply land_range; apply (wf_znth n); auto).
  set (v2 := Z.lor v1 (u32 (Z.shiftl v (8 * m)))).
  assert (Hv2 : 0 <= v2 < 2 ^ 32) by (apply lor_range; auto; apply u32_range).
  assert (W1 : wf n (upd a (Z.to_nat (i / 4)) v1)) by (apply wf_upd; auto).
  eexists. split; [reflexivity|]. split; [apply wf_upd; auto|].
  intros k Hk. rewrite (upd_testbit n) by (auto; lia). rewrite (upd_testbit n) by (auto; lia).
  pose proof (Z.div_mod k 32 ltac:(lia)) as D1. pose proof (Z.mod_pos_bound k 32 ltac:(lia)) as D2.
  pose proof (Z.div_mod k 8 ltac:(lia)) as D3. pose proof (Z.mod_pos_bound k 8 ltac:(lia)) as D4.
  destruct (Z.eqb_spec (k / 32) (i / 4)) as [Eb|Eb].
  - unfold v2, v1. rewrite Z.lor_spec, Z.land_spec, not32_testbit, u32_testbit, M by lia.
    destruct (Z.ltb_spec (k mod 32) 32); [|lia]. cbn [andb].
    destruct (Z.eqb_spec (k / 8) i) as [Ek|Ek].
    + replace (8 * m <=? k mod 32) with true by lia. replace (k mod 32 <? 8 * m + 8) with true by lia. cbn [negb andb].
      rewrite andb_false_r. cbn [orb]. rewrite Z.shiftl_spec by lia. f_equal. lia.
    + rewrite (bval_testbit n) by (auto; lia). rewrite Eb.
      rewrite Z.shiftl_spec by lia.
      assert (k mod 32 < 8 * m \/ 8 * m + 8 <= k mod 32) as [HH|HH] by lia.
      * replace (8 * m <=? k mod 32) with false by lia. cbn [negb andb].
        rewrite (Z.testbit_neg_r v) by lia. rewrite andb_true_r, orb_false_r. auto.
      * replace (8 * m <=? k mod 32) with true by lia. replace (k mod 32 <? 8 * m + 8) with false by lia. cbn [negb andb].
        rewrite (testbit_lt_pow2 v 8) by lia. rewrite andb_true_r, orb_false_r. auto.
  - destruct (Z.eqb_spec (k / 8) i) as [Ek|Ek]; [lia|auto].
Qed.

Lemma setByte_over cfg n a i v : cfg_unsafe cfg = false -> 4 * n < i -> setByte cfg n a i v = Ok a.
Proof. intros U H. unfold setByte, blockBytes. rewrite U. destruct (Z.gtb_spec i (n * 4)); [|lia]. reflexivity. Qed.
Lemma getByte_over cfg n a i : cfg_unsafe cfg = false -> 4 * n < i -> getByte cfg n a i = Ok 0.
Proof. intros U H. unfold getByte, blockBytes. rewrite U. destruct (Z.gtb_spec i (n * 4)); [|lia]. reflexivity. Qed.
(** The index one past the last byte passes the check. *)
Lemma getByte_edge cfg n a : wf n a -> 0 <= n ->
  getByte cfg n a (4 * n) = Err (if cfg_ndebug cfg then OutOfBounds else AssertFailed).
Proof.
  intros Wa Hn. pose proof (wf_len _ _ Wa) as La. unfold getByte, blockBytes.
  destruct (Z.gtb_spec (4 * n) (n * 4)); [lia|]. rewrite andb_false_r. cbv zeta.
  replace (4 * n / 4) with n by (rewrite Z.mul_comm, Z.div_mul; lia).
  replace ((4 * n) mod 4) with 0 by (rewrite Z.mul_comm, Z.mod_mul; lia).
  unfold assert_. destruct (Z.ltb_spec n n); [lia|]. cbn [andb]. destruct (cfg_ndebug cfg); cbn [bind]; auto.
  rewrite aget_err by lia. auto.
Qed.
Lemma setByte_edge cfg n a v : wf n a -> 0 <= n ->
  setByte cfg n a (4 * n) v = Err (if cfg_ndebug cfg then OutOfBounds else AssertFailed).
Proof.
  intros Wa Hn. pose proof (wf_len _ _ Wa) as La. unfold setByte, blockBytes.
  destruct (Z.gtb_spec (4 * n) (n * 4)); [lia|]. rewrite andb_false_r. cbv zeta.
  replace (4 * n / 4) with n by (rewrite Z.mul_comm, Z.div_mul; lia).
  replace ((4 * n) mod 4) with 0 by (rewrite Z.mul_comm, Z.mod_mul; lia).
  unfold assert_. destruct (Z.ltb_spec n n); [lia|]. cbn [andb]. destruct (cfg_ndebug cfg); cbn [bind]; auto.
  rewrite aget_err by lia. auto.
Qed.

(** ** Blocks *)
Lemma getBlock_znth cfg n a i : wf n a -> 0 <= i < n -> getBlock cfg n a i = Ok (znth a i).
Proof.
  intros Wa Hi. pose proof (wf_len _ _ Wa). unfold getBlock. destruct (Z.geb_spec i n); [lia|]. rewrite andb_false_r.
  apply aget_ok. lia.
Qed.
Lemma getBlock_spec cfg n a i : wf n a -> 0 <= i < n -> getBlock cfg n a i = Ok ((bval a / 2 ^ (32 * i)) mod 2 ^ 32).
Proof. intros Wa Hi. rewrite getBlock_znth by auto. f_equal. apply (znth_digit n); auto. Qed.
Lemma getBlock_over cfg n a i : cfg_unsafe cfg = false -> n <= i -> getBlock cfg n a i = Ok 0.
Proof. intros U H. unfold getBlock. rewrite U. destruct (Z.geb_spec i n); [|lia]. reflexivity. Qed.
Lemma setBlock_upd cfg n a i v : wf n a -> 0 <= i < n -> setBlock cfg n a i v = Ok (upd a (Z.to_nat i) v).
Proof.
  intros Wa Hi. pose proof (wf_len _ _ Wa). unfold setBlock. destruct (Z.geb_spec i n); [lia|]. rewrite andb_false_r.
  apply aset_ok. lia.
Qed.
Lemma setBlock_spec cfg n a i v : wf n a -> 0 <= i < n -> 0 <= v < 2 ^ 32 ->
  exists r, setBlock cfg n a i v = Ok r /\ wf n r /\
    forall k, 0 <= k < n -> (bval r / 2 ^ (32 * k)) mod 2 ^ 32 = if k =? i then v else (bval a / 2 ^ (32 * k)) mod 2 ^ 32.
Proof.
  intros Wa Hi Hv. pose proof (wf_len _ _ Wa). rewrite setBlock_upd by auto. eexists. split; [reflexivity|].
  assert (wf n (upd a (Z.to_nat i) v)) as W by (apply wf_upd; auto). split; auto.
  intros k Hk. rewrite <- !(znth_digit n) by auto. rewrite znth_upd by lia. rewrite Z.eqb_sym. auto.
Qed.
Lemma setBlock_over cfg n a i v : cfg_unsafe cfg = false -> n <= i -> setBlock cfg n a i v = Ok a.
Proof. intros U H. unfold setBlock. rewrite U. destruct (Z.geb_spec i n); [|lia]. reflexivity. Qed.

(** ** Size and parity *)
Lemma bit_length_unique z k : 0 <= k -> 0 <= z < 2 ^ k -> (k = 0 \/ 2 ^ (k - 1) <= z) -> bit_length z = k.
Proof.
  intros Hk Hz H. unfold bit_length. destruct (Z.eqb_spec z 0) as [->|Hne].
  - destruct H as [->|H]; auto. destruct (Z.eq_dec k 0); auto. assert (0 < 2 ^ (k - 1)) by (apply Z.pow_pos_nonneg; lia). lia.
  - destruct H as [->|H]; [cbn in Hz; lia|]. destruct (Z.eq_dec k 0) as [->|]; [cbn in Hz; lia|].
    rewrite (Z.log2_unique z (k - 1)); try lia. replace (Z.succ (k - 1)) with k by lia. lia.
Qed.

Lemma bit_length_bounds z : 0 <= z -> 0 <= bit_length z /\ z < 2 ^ bit_length z /\ (bit_length z = 0 \/ 2 ^ (bit_length z - 1) <= z).
Proof.
  intros Hz. unfold bit_length. destruct (Z.eqb_spec z 0) as [->|Hne]; [cbn; lia|].
  pose proof (Z.log2_nonneg z). pose proof (Z.log2_spec z ltac:(lia)) as [H1 H2].
  replace (Z.log2 z + 1 - 1) with (Z.log2 z) by lia. unfold Z.succ in H2. lia.
Qed.

Lemma bit_length_le z k : 0 <= k -> 0 <= z < 2 ^ k -> bit_length z <= k.
Proof.
  intros Hk Hz. destruct (bit_length_bounds z ltac:(lia)) as (B1 & B2 & B3). destruct (Z.leb_spec (bit_length z) k); auto.
  destruct B3 as [B3|B3]; [lia|]. assert (2 ^ k <= 2 ^ (bit_length z - 1)) by (apply Z.pow_le_mono_r; lia). lia.
Qed.

Lemma isOdd_spec n a : wf n a -> 1 <= n -> isOdd a = Ok (Z.odd (bval a)).
Proof.
  intros Wa Hn. pose proof (wf_len _ _ Wa). unfold isOdd. rewrite aget_ok by lia. cbn [bind]. f_equal.
  rewrite Z.land_comm. change 1 with (Z.ones 1) at 1. rewrite Z.land_ones by lia.
  rewrite <- Z.bit0_odd. rewrite (bval_testbit n) by (auto; lia). cbn [Z.div Z.modulo].
  change (0 / 32) with 0. change (0 mod 32) with 0. rewrite Z.bit0_odd. change (2 ^ 1) with 2. rewrite Zmod_odd.
  destruct (Z.odd (znth a 0)); auto.
Qed.
Lemma land1_mod2 x : Z.land 1 x = x mod 2.
Proof. rewrite Z.land_comm. change 1 with (Z.ones 1). rewrite Z.land_ones by lia. reflexivity. Qed.
Lemma isEven_spec n a : wf n a -> 1 <= n -> isEven a = Ok (Z.even (bval a)).
Proof.
  intros Wa Hn. pose proof (isOdd_spec n a Wa Hn) as H. unfold isOdd, isEven in *. pose proof (wf_len _ _ Wa).
  rewrite aget_ok in * by lia. cbn [bind] in *. f_equal. assert (H' : (Z.land 1 (znth a 0) =? 1) = Z.odd (bval a)) by congruence. clear H. rename H' into H. rewrite <- Z.negb_odd. rewrite <- H.
  rewrite land1_mod2. pose proof (Z.mod_pos_bound (znth a 0) 2 ltac:(lia)).
  destruct (Z.eqb_spec (znth a 0 mod 2) 0), (Z.eqb_spec (znth a 0 mod 2) 1); auto; lia.
Qed.

Lemma filledBlocksNumber_value n a : wf n a -> filledBlocksNumber n a = Ok ((bit_length (bval a) + 31) / 32).
Proof.
  intros Wa. destruct (filledBlocksNumber_spec n a Wa) as (f & E & Hf & T & N). rewrite E. f_equal.
  destruct (filled_bounds n a f Wa Hf T N) as [B1 B2].
  destruct (bit_length_bounds (bval a) ltac:(lia)) as (C1 & C2 & C3).
  assert (bit_length (bval a) <= 32 * f) by (apply bit_length_le; lia).
  destruct (Z.eq_dec f 0) as [->|Hf0]; [replace (bit_length (bval a)) with 0 by lia; auto|].
  destruct B2 as [|B2]; [lia|]. assert (32 * (f - 1) < bit_length (bval a)).
  { destruct (Z.ltb_spec (32 * (f - 1)) (bit_length (bval a))); auto.
    assert (2 ^ bit_length (bval a) <= 2 ^ (32 * (f - 1))) by (apply Z.pow_le_mono_r; lia). lia. }
  apply Z.div_unique with (bit_length (bval a) + 31 - 32 * f); lia.
Qed.

Lemma lastBlockIndex_spec n a : wf n a -> 1 <= n ->
  exists L, lastBlockIndex n a = Ok L /\ 0 <= L < n /\ (forall j, L < j -> znth a j = 0) /\ (L = 0 \/ znth a L <> 0).
Proof.
  intros Wa Hn. pose proof (wf_len _ _ Wa) as La. unfold lastBlockIndex.
  match goal with |- context [forDx n 1 ?B _] =>
  destruct (forDx_spec (fun i (_ : unit) => forall j, i <= j -> znth a j = 0)
     (fun L => 0 <= L < n /\ (forall j, L < j -> znth a j = 0) /\ (L = 0 \/ znth a L <> 0)) n 1 B tt) as (x & E & P) end.
  - lia.
  - intros j Hj. apply znth_out. lia.
  - intros i _ Hi T. rewrite aget_ok by lia. cbn [bind]. destruct (Z.eqb_spec (znth a i) 0).
    + eexists. split; [reflexivity|]. cbn. intros j Hj. destruct (Z.eq_dec j i) as [->|]; auto. apply T. lia.
    + eexists. split; [reflexivity|]. cbn [step_post]. split; [lia|]. split; auto. intros; apply T; lia.
  - rewrite E. cbn [bind]. destruct x as [[]|L]; cbn [step_post] in P.
    + exists 0. split; auto. split; [lia|]. split; auto. intros; apply P; lia.
    + exists L. auto.
Qed.

Lemma last_value n a L : wf n a -> 0 <= L < n -> (forall j, L < j -> znth a j = 0) ->
  bval a = pval a L + 2 ^ (32 * L) * znth a L /\ 0 <= pval a L < 2 ^ (32 * L).
Proof.
  intros Wa HL T. pose proof (wf_len _ _ Wa). rewrite (bval_filled n a (L + 1)) by (auto; try lia; intros; apply T; lia).
  rewrite pval_succ by lia. split; auto. apply (pval_bound n); auto. lia.
Qed.

(** The position of the leading one of a block determines the position in the number. *)
Lemma last_bit_length n a L k : wf n a -> 0 <= L < n -> (forall j, L < j -> znth a j = 0) ->
  0 < k -> 2 ^ (k - 1) <= znth a L < 2 ^ k -> bit_length (bval a) = 32 * L + k.
Proof.
  intros Wa HL T Hk Hz. destruct (last_value n a L Wa HL T) as [E B]. rewrite E.
  assert (0 < 2 ^ (32 * L)) by (apply pow32_pos; lia). pose proof (wf_znth n a L Wa) as Hzz.
  apply bit_length_unique; try lia.
  - rewrite Z.pow_add_r by lia. split; [nia|].
    assert (2 ^ (32 * L) * (znth a L + 1) <= 2 ^ (32 * L) * 2 ^ k) by (apply Z.mul_le_mono_nonneg_l; lia). lia.
  - right. replace (32 * L + k - 1) with (32 * L + (k - 1)) by lia. rewrite Z.pow_add_r by lia. nia.
Qed.

Lemma byte_lead b k : 0 <= b -> 0 <= k < 4 -> b < 2 ^ (8 * (k + 1)) ->
  byteOf b k = b / 2 ^ (8 * k) /\ 0 <= byteOf b k < 2 ^ 8 /\ (byteOf b k = 0 -> b < 2 ^ (8 * k)).
Proof.
  intros Hb Hk H. rewrite byteOf_spec by auto. assert (0 < 2 ^ (8 * k)) by (apply Z.pow_pos_nonneg; lia).
  assert (0 <= b / 2 ^ (8 * k) < 2 ^ 8).
  { split; [apply Z.div_pos; lia|]. apply Z.div_lt_upper_bound; auto. rewrite <- Z.pow_add_r by lia. replace (8 * k + 8) with (8 * (k + 1)) by lia. auto. }
  rewrite Z.mod_small by auto. split; auto. split; auto. intros E.
  pose proof (Z.div_mod b (2 ^ (8 * k)) ltac:(lia)). pose proof (Z.mod_pos_bound b (2 ^ (8 * k)) ltac:(lia)). rewrite E in *. lia.
Qed.

Lemma byteCount_spec n a : wf n a -> 1 <= n -> byteCount n a = Ok ((bit_length (bval a) + 7) / 8).
Proof.
  intros Wa Hn. pose proof (wf_len _ _ Wa) as La.
  destruct (lastBlockIndex_spec n a Wa Hn) as (L & E & HL & T & N). unfold byteCount. rewrite E. cbn [bind].
  unfold blockBytes. pose proof (wf_znth n a L Wa) as Hz.
  match goal with |- context [forDx 4 0 ?B _] =>
  destruct (forDx_spec (fun i (_ : unit) => znth a L < 2 ^ (8 * i))
     (fun r => r = (bit_length (bval a) + 7) / 8) 4 0 B tt) as (x & E2 & P) end.
  - lia.
  - change (8 * 4) with 32. lia.
  - intros i _ Hi B. rewrite aget_ok by lia. cbn [bind].
    destruct (byte_lead (znth a L) i ltac:(lia) Hi B) as (F1 & F2 & F3).
    destruct (Z.eqb_spec (byteOf (znth a L) i) 0) as [Z0|Z0]; cbn [negb].
    + eexists. split; [reflexivity|]. cbn [step_post]. auto.
    + eexists. split; [reflexivity|]. cbn [step_post].
      assert (Hb : 2 ^ (8 * i) <= znth a L).
      { destruct (Z.leb_spec (2 ^ (8 * i)) (znth a L)); auto. rewrite F1 in Z0. rewrite Z.div_small in Z0 by lia. lia. }
      destruct (bit_length_bounds (znth a L) ltac:(lia)) as (G1 & G2 & G3). set (k := bit_length (znth a L)) in *.
      assert (Hk1 : k <= 8 * (i + 1)) by (apply bit_length_le; lia).
      assert (Hk2 : 8 * i < k).
      { destruct (Z.ltb_spec (8 * i) k); auto. assert (2 ^ k <= 2 ^ (8 * i)) by (apply Z.pow_le_mono_r; lia). lia. }
      destruct G3 as [G3|G3]; [lia|].
      rewrite (last_bit_length n a L k) by (auto; lia).
      apply Z.div_unique with (32 * L + k + 7 - 8 * (L * 4 + i + 1)); lia.
  - rewrite E2. cbn [bind]. destruct x as [[]|r]; cbn [step_post] in P.
    + change (2 ^ (8 * 0)) with 1 in P. destruct N as [->|N]; [|lia].
      destruct (last_value n a 0 Wa HL T) as [V _]. rewrite pval_0 in V. replace (znth a 0) with 0 in V by lia. rewrite V. reflexivity.
    + subst. auto.
Qed.

Lemma bitCount_spec n a : wf n a -> 1 <= n -> bitCount n a = Ok (bit_length (bval a)).
Proof.
  intros Wa Hn. pose proof (wf_len _ _ Wa) as La.
  destruct (lastBlockIndex_spec n a Wa Hn) as (L & E & HL & T & N). unfold bitCount. rewrite E. cbn [bind].
  unfold blockBytes. pose proof (wf_znth n a L Wa) as Hz.
  match goal with |- context [forDx 4 0 ?B _] =>
  destruct (forDx_spec (fun i (_ : unit) => znth a L < 2 ^ (8 * i))
     (fun r => r = bit_length (bval a)) 4 0 B tt) as (x & E2 & P) end.
  - lia.
  - change (8 * 4) with 32. lia.
  - intros i _ Hi B. rewrite aget_ok by lia. cbn [bind]. cbv zeta.
    destruct (byte_lead (znth a L) i ltac:(lia) Hi B) as (F1 & F2 & F3).
    destruct (Z.eqb_spec (byteOf (znth a L) i) 0) as [Z0|Z0]; cbn [negb].
    + eexists. split; [reflexivity|]. cbn [step_post]. auto.
    + unfold bitsInByte. set (y := byteOf (znth a L) i) in *.
      match goal with |- context [forDx 8 0 ?B _] =>
      destruct (forDx_spec (fun j (_ : unit) => y < 2 ^ j)
         (fun r => r = bit_length (bval a)) 8 0 B tt) as (z & E3 & P3) end.
      * lia.
      * lia.
      * intros j _ Hj Bj.
        assert (Hp : 0 < 2 ^ j) by (apply Z.pow_pos_nonneg; lia).
        assert (TB : (Z.shiftr (Z.land y (Z.shiftl 1 j)) j =? 0) = negb (Z.testbit y j)).
        { rewrite <- land_pow2_testbit by lia. rewrite negb_involutive.
          rewrite Z.shiftl_mul_pow2, Z.mul_1_l by lia.
          destruct (Z.eqb_spec (Z.land y (2 ^ j)) 0) as [E0|E0]; [rewrite E0, Z.shiftr_0_l; auto|].
          apply Z.eqb_neq. intros E4. apply E0. apply Z.bits_inj'. intros i0 Hi0. rewrite Z.testbit_0_l.
          destruct (Z.eq_dec i0 j) as [->|]; [|rewrite Z.land_spec, Z.pow2_bits_false by lia; apply andb_false_r].
          assert (Z.testbit (Z.shiftr (Z.land y (2 ^ j)) j) 0 = false) as T0 by (rewrite E4; apply Z.testbit_0_l).
          rewrite Z.shiftr_spec in T0 by lia. auto. }
        rewrite TB, negb_involutive. destruct (Z.testbit y j) eqn:Tj.
        -- eexists. split; [reflexivity|]. cbn [step_post].
           assert (Hy : 2 ^ j <= y).
           { destruct (Z.leb_spec (2 ^ j) y); auto. rewrite (testbit_lt_pow2 y j) in Tj by lia. discriminate. }
           rewrite (last_bit_length n a L (8 * i + j + 1)); auto; try lia.
           assert (Hp8 : 0 < 2 ^ (8 * i)) by (apply Z.pow_pos_nonneg; lia).
           pose proof (Z.div_mod (znth a L) (2 ^ (8 * i)) ltac:(lia)) as D1. pose proof (Z.mod_pos_bound (znth a L) (2 ^ (8 * i)) ltac:(lia)) as D2.
           rewrite <- F1 in D1.
           replace (8 * i + j + 1 - 1) with (8 * i + j) by lia. replace (8 * i + j + 1) with (8 * i + (j + 1)) by lia.
           rewrite !(Z.pow_add_r 2 (8 * i)) by lia. split; [nia|]. nia.
        -- eexists. split; [reflexivity|]. cbn [step_post].
           (* bit j clear and y < 2^(j+1) *)
           apply (bits_range y j); [lia|]. intros m Hm. destruct (Z.eq_dec m j) as [->|]; auto.
           apply (testbit_lt_pow2 y (j + 1)); lia.
      * rewrite E3. cbn [bind]. destruct z as [[]|r]; cbn [step_post] in P3.
        -- change (2 ^ 0) with 1 in P3. lia.
        -- eexists. split; [reflexivity|]. auto.
  - rewrite E2. cbn [bind]. destruct x as [[]|r]; cbn [step_post] in P.
    + change (2 ^ (8 * 0)) with 1 in P. destruct N as [->|N]; [|lia].
      destruct (last_value n a 0 Wa HL T) as [V _]. rewrite pval_0 in V. replace (znth a 0) with 0 in V by lia. rewrite V. reflexivity.
    + subst. auto.
Qed.

(** ** Comparison *)
Definition zcmp (x y : Z) : comparison_t :=
  if x >? y then CGreater else if x <? y then CLess else CEqual.

Lemma pval_lex n a m b i k : wf n a -> wf m b -> 0 <= i < k -> k <= n -> k <= m ->
  (forall j, i < j < k -> znth a j = znth b j) -> znth a i < znth b i -> pval a k < pval b k.
Proof.
  intros Wa Wb Hi Hk1 Hk2 T Lt. pose proof (wf_len _ _ Wa) as La. pose proof (wf_len _ _ Wb) as Lb.
  assert (G : forall d, 0 <= d -> i + 1 + d <= k -> pval a (i + 1 + d) < pval b (i + 1 + d)).
  { intros d Hd. pattern d. apply natlike_ind; auto.
    - intros _. rewrite Z.add_0_r. rewrite !pval_succ by lia.
      pose proof (pval_bound n a i Wa ltac:(lia)). pose proof (pval_bound m b i Wb ltac:(lia)).
      pose proof (pow32_pos i ltac:(lia)). nia.
    - intros x Hx IH Hx2. unfold Z.succ in *. replace (i + 1 + (x + 1)) with (i + 1 + x + 1) by lia.
      rewrite !pval_succ by lia. rewrite T by lia. specialize (IH ltac:(lia)). lia. }
  replace k with (i + 1 + (k - i - 1)) by lia. apply G; lia.
Qed.

Lemma pval_eq_blocks n a m b k : wf n a -> wf m b -> 0 <= k <= n -> k <= m ->
  (forall j, 0 <= j < k -> znth a j = znth b j) -> pval a k = pval b k.
Proof.
  intros Wa Wb [Hk Hk1] Hk2. pose proof (wf_len _ _ Wa) as La. pose proof (wf_len _ _ Wb) as Lb.
  revert Hk1 Hk2. pattern k. apply natlike_ind; auto.
  intros x Hx IH H1 H2 T. unfold Z.succ in *. rewrite !pval_succ by lia. rewrite T by lia. rewrite IH; auto; try lia.
  intros; apply T; lia.
Qed.

(** What the cross-precision comparison computes: first the common low blocks, then the rest. *)
Definition low_first (k x y : Z) : comparison_t :=
  let c := zcmp (x mod 2 ^ (32 * k)) (y mod 2 ^ (32 * k)) in
  if cmp_eqb c CEqual then zcmp x y else c.

Lemma zcmp_refl x : zcmp x x = CEqual.
Proof. unfold zcmp. rewrite Z.gtb_ltb, Z.ltb_irrefl. auto. Qed.
Lemma zcmp_gt x y : y < x -> zcmp x y = CGreater.
Proof. intros. unfold zcmp. destruct (Z.gtb_spec x y); [auto|lia]. Qed.
Lemma zcmp_lt x y : x < y -> zcmp x y = CLess.
Proof. intros. unfold zcmp. destruct (Z.gtb_spec x y); [lia|]. destruct (Z.ltb_spec x y); [auto|lia]. Qed.

Lemma compareTo_spec cfg n m a b : wf n a -> wf m b ->
  compareTo cfg n m a b = Ok (low_first (Z.min n m) (bval a) (bval b)).
Proof.
  intros Wa Wb. pose proof (wf_len _ _ Wa) as La. pose proof (wf_len _ _ Wb) as Lb.
  pose proof (wf_nonneg _ _ Wa) as Hn. pose proof (wf_nonneg _ _ Wb) as Hm.
  unfold compareTo. replace (if n <? m then n else m) with (Z.min n m) by (destruct (Z.ltb_spec n m); lia).
  set (k := Z.min n m). assert (Hk : 0 <= k <= n /\ k <= m) by lia.
  unfold low_first. rewrite <- (pval_mod n a k), <- (pval_mod m b k) by (auto; lia).
  match goal with |- context [forDx k 0 ?B _] =>
  destruct (forDx_spec (fun i (_ : unit) => forall j, i <= j < k -> znth a j = znth b j)
     (fun c => c <> CEqual /\ c = zcmp (pval a k) (pval b k)) k 0 B tt) as (x & E & P) end.
  - lia.
  - lia.
  - intros i _ Hi T. rewrite aget_ok by lia. cbn [bind]. rewrite getBlock_znth by (auto; lia). cbn [bind].
    destruct (Z.eqb_spec (znth a i) (znth b i)) as [Ez|Nz]; cbn [negb].
    + eexists. split; [reflexivity|]. cbn. intros j Hj. destruct (Z.eq_dec j i) as [->|]; auto. apply T. lia.
    + eexists. split; [reflexivity|]. cbn [step_post]. destruct (Z.gtb_spec (znth a i) (znth b i)).
      * split; [discriminate|]. symmetry. apply zcmp_gt. apply (pval_lex m b n a i k); auto; try lia. intros; symmetry; apply T; lia.
      * split; [discriminate|]. symmetry. apply zcmp_lt. apply (pval_lex n a m b i k); auto; try lia. intros; apply T; lia.
  - rewrite E. cbn [bind]. destruct x as [[]|c]; cbn [step_post] in P.
    2:{ destruct P as [P1 ->]. destruct (zcmp (pval a k) (pval b k)); cbn [cmp_eqb]; auto; congruence. }
    assert (Epv : pval a k = pval b k) by (apply (pval_eq_blocks n a m b k); auto; lia).
    rewrite Epv, zcmp_refl. cbn [cmp_eqb].
    destruct (Z.eqb_spec (32 * m) (n * blockBitLength)) as [Enm|Nnm]; cbn [negb]; unfold blockBitLength in *.
    + replace k with n in Epv by lia. rewrite (pval_wf n a), (pval_over b) in Epv by (auto; lia). rewrite Epv, zcmp_refl. auto.
    + destruct (Z.gtb_spec m n).
      * replace k with n in * by lia. rewrite (pval_wf n a) in Epv by auto.
        match goal with |- context [forDx m n ?B _] =>
        destruct (forDx_spec (fun i (_ : unit) => forall j, i <= j -> znth b j = 0)
           (fun c => c = CLess /\ pval b n < bval b) m n B tt) as (x & E2 & P2) end.
        -- lia.
        -- intros j Hj. apply znth_out. lia.
        -- intros i _ Hi T. rewrite getBlock_znth by (auto; lia). cbn [bind]. destruct (Z.eqb_spec (znth b i) 0); cbn [negb].
           ++ eexists. split; [reflexivity|]. cbn. intros j Hj. destruct (Z.eq_dec j i) as [->|]; auto. apply T. lia.
           ++ eexists. split; [reflexivity|]. cbn [step_post]. split; auto.
              pose proof (wf_znth m b i Wb). pose proof (pow32_pos i ltac:(lia)) as Pi.
              rewrite (bval_filled m b (i + 1)) by (auto; lia). rewrite pval_succ by lia.
              pose proof (pval_bound m b n Wb ltac:(lia)) as Bn. pose proof (pval_bound m b i Wb ltac:(lia)) as Bi.
              destruct (Z.eq_dec i n) as [->|]; [nia|].
              assert (2 ^ (32 * n) <= 2 ^ (32 * i)) by (apply Z.pow_le_mono_r; lia). nia.
        -- rewrite E2. cbn [bind]. destruct x as [[]|c]; cbn [step_post] in P2.
           ++ rewrite (bval_filled m b n) by (auto; lia). rewrite Epv, zcmp_refl. auto.
           ++ destruct P2 as [-> P2]. rewrite Epv. rewrite zcmp_lt by auto. auto.
      * destruct (Z.gtb_spec n m); [|lia]. replace k with m in * by lia. rewrite (pval_wf m b) in Epv by auto.
        match goal with |- context [forDx n m ?B _] =>
        destruct (forDx_spec (fun i (_ : unit) => forall j, i <= j -> znth a j = 0)
           (fun c => c = CGreater /\ pval a m < bval a) n m B tt) as (x & E2 & P2) end.
        -- lia.
        -- intros j Hj. apply znth_out. lia.
        -- intros i _ Hi T. rewrite aget_ok by lia. cbn [bind]. destruct (Z.eqb_spec (znth a i) 0); cbn [negb].
           ++ eexists. split; [reflexivity|]. cbn. intros j Hj. destruct (Z.eq_dec j i) as [->|]; auto. apply T. lia.
           ++ eexists. split; [reflexivity|]. cbn [step_post]. split; auto.
              pose proof (wf_znth n a i Wa). pose proof (pow32_pos i ltac:(lia)) as Pi.
              rewrite (bval_filled n a (i + 1)) by (auto; lia). rewrite pval_succ by lia.
              pose proof (pval_bound n a m Wa ltac:(lia)) as Bn. pose proof (pval_bound n a i Wa ltac:(lia)) as Bi.
              destruct (Z.eq_dec i m) as [->|]; [nia|].
              assert (2 ^ (32 * m) <= 2 ^ (32 * i)) by (apply Z.pow_le_mono_r; lia). nia.
        -- rewrite E2. cbn [bind]. destruct x as [[]|c]; cbn [step_post] in P2.
           ++ rewrite (bval_filled n a m) by (auto; lia). rewrite Epv, zcmp_refl. auto.
           ++ destruct P2 as [-> P2]. rewrite <- Epv. rewrite zcmp_gt by auto. auto.
Qed.

Lemma low_first_same n a b : wf n a -> wf n b -> low_first n (bval a) (bval b) = zcmp (bval a) (bval b).
Proof.
  intros Wa Wb. unfold low_first. fold (modulus n). rewrite !Z.mod_small by (apply bval_bound; auto).
  destruct (zcmp (bval a) (bval b)); auto.
Qed.

Lemma compareTo_same cfg n a b : wf n a -> wf n b -> compareTo cfg n n a b = Ok (zcmp (bval a) (bval b)).
Proof. intros. rewrite compareTo_spec by auto. rewrite Z.min_id. rewrite low_first_same by auto. auto. Qed.

Lemma op_ge_same cfg n a b : wf n a -> wf n b -> op_ge cfg n n a b = Ok (bval a >=? bval b).
Proof.
  intros. unfold op_ge, op_spaceship. rewrite compareTo_same by auto. cbn [bind]. f_equal. unfold zcmp.
  destruct (Z.gtb_spec (bval a) (bval b)), (Z.geb_spec (bval a) (bval b)), (Z.ltb_spec (bval a) (bval b)); cbn; auto; lia.
Qed.
Lemma op_lt_same cfg n a b : wf n a -> wf n b -> op_lt cfg n n a b = Ok (bval a <? bval b).
Proof.
  intros. unfold op_lt, op_spaceship. rewrite compareTo_same by auto. cbn [bind]. f_equal. unfold zcmp.
  destruct (Z.gtb_spec (bval a) (bval b)), (Z.ltb_spec (bval a) (bval b)); cbn; auto; lia.
Qed.
Lemma op_gt_same cfg n a b : wf n a -> wf n b -> op_gt cfg n n a b = Ok (bval a >? bval b).
Proof.
  intros. unfold op_gt, op_spaceship. rewrite compareTo_same by auto. cbn [bind]. f_equal. unfold zcmp.
  destruct (Z.gtb_spec (bval a) (bval b)), (Z.ltb_spec (bval a) (bval b)); cbn; auto; lia.
Qed.
Lemma op_le_same cfg n a b : wf n a -> wf n b -> op_le cfg n n a b = Ok (bval a <=? bval b).
Proof.
  intros. unfold op_le, op_spaceship. rewrite compareTo_same by auto. cbn [bind]. f_equal. unfold zcmp.
  destruct (Z.gtb_spec (bval a) (bval b)), (Z.ltb_spec (bval a) (bval b)), (Z.leb_spec (bval a) (bval b)); cbn; auto; lia.
Qed.

Lemma op_eq_cross cfg n m a b : wf n a -> wf m b -> op_eq cfg n m a b = Ok (bval a =? bval b).
Proof.
  intros. unfold op_eq. rewrite compareTo_spec by auto. cbn [bind]. f_equal. unfold low_first, zcmp.
  destruct (Z.eqb_spec (bval a) (bval b)) as [->|N].
  - rewrite !Z.gtb_ltb, !Z.ltb_irrefl. reflexivity.
  - set (x := bval a mod _). set (y := bval b mod _).
    destruct (Z.gtb_spec x y), (Z.ltb_spec x y); cbn; auto.
    destruct (Z.gtb_spec (bval a) (bval b)), (Z.ltb_spec (bval a) (bval b)); cbn; auto; lia.
Qed.

(** ** Comparison with built-in values *)
Lemma op_eq_u32_spec n a v : wf n a -> 1 <= n -> 0 <= v < 2 ^ 32 -> op_eq_u32 n a v = Ok (bval a =? v).
Proof.
  intros Wa Hn Hv. pose proof (wf_len _ _ Wa). destruct (filledBlocksNumber_spec n a Wa) as (f & E & Hf & T & N).
  destruct (filled_bounds n a f Wa Hf T N) as [B1 B2].
  unfold op_eq_u32. rewrite E. cbn [bind]. destruct (Z.leb_spec f 1).
  - rewrite aget_ok by lia. cbn [bind]. rewrite u32_small by auto. f_equal.
    rewrite (bval_filled n a 1) by (auto; try lia; intros; apply T; lia). replace 1 with (0 + 1) by lia. rewrite pval_succ by lia. rewrite pval_0. cbn [Z.mul]. change (2 ^ 0) with 1. rewrite Z.eqb_sym. f_equal. lia.
  - f_equal. destruct B2 as [|B2]; [lia|]. assert (2 ^ 32 <= 2 ^ (32 * (f - 1))) by (apply Z.pow_le_mono_r; lia). lia.
Qed.

Lemma low2_value n a : wf n a -> 2 <= n -> pval a 2 = Z.lor (u64 (Z.shiftl (znth a 1) blockBitLength)) (znth a 0).
Proof.
  intros Wa Hn. pose proof (wf_len _ _ Wa). unfold blockBitLength.
  pose proof (wf_znth n a 0 Wa) as Z0. pose proof (wf_znth n a 1 Wa) as Z1.
  rewrite Z.shiftl_mul_pow2 by lia. rewrite u64_small by lia.
  replace 2 with (0 + 1 + 1) at 1 by lia. rewrite !pval_succ by lia. rewrite pval_0. change (2 ^ (32 * 0)) with 1. change (32 * (0 + 1)) with 32.
  change (0 + 1) with 1. rewrite lor_shift_add by lia. lia.
Qed.

Lemma op_eq_u64_spec n a v : wf n a -> 2 <= n -> 0 <= v < 2 ^ 64 -> op_eq_u64 n a v = Ok (bval a =? v).
Proof.
  intros Wa Hn Hv. pose proof (wf_len _ _ Wa). destruct (filledBlocksNumber_spec n a Wa) as (f & E & Hf & T & N).
  destruct (filled_bounds n a f Wa Hf T N) as [B1 B2].
  unfold op_eq_u64. rewrite E. cbn [bind]. destruct (Z.leb_spec f 2).
  - rewrite !aget_ok by lia. cbn [bind]. rewrite <- (low2_value n) by auto. f_equal. f_equal.
    symmetry. apply (bval_filled n); auto; try lia. intros; apply T; lia.
  - f_equal. destruct B2 as [|B2]; [lia|]. assert (2 ^ 64 <= 2 ^ (32 * (f - 1))) by (apply Z.pow_le_mono_r; lia). lia.
Qed.

Lemma compareTo_u32_spec n a v : wf n a -> 1 <= n -> 0 <= v < 2 ^ 32 -> compareTo_u32 n a v = Ok (zcmp (bval a) v).
Proof.
  intros Wa Hn Hv. pose proof (wf_len _ _ Wa). destruct (filledBlocksNumber_spec n a Wa) as (f & E & Hf & T & N).
  destruct (filled_bounds n a f Wa Hf T N) as [B1 B2].
  unfold compareTo_u32. rewrite E. cbn [bind]. destruct (Z.gtb_spec f 1).
  - f_equal. symmetry. apply zcmp_gt. destruct B2 as [|B2]; [lia|]. assert (2 ^ 32 <= 2 ^ (32 * (f - 1))) by (apply Z.pow_le_mono_r; lia). lia.
  - rewrite aget_ok by lia. cbn [bind]. rewrite u32_small by auto.
    assert (V : bval a = znth a 0).
    { rewrite (bval_filled n a 1) by (auto; try lia; intros; apply T; lia). replace 1 with (0 + 1) by lia. rewrite pval_succ by lia. rewrite pval_0. change (2 ^ (32 * 0)) with 1. lia. }
    rewrite V. unfold zcmp. destruct (znth a 0 >? v); auto. destruct (znth a 0 <? v); auto.
Qed.

Lemma compareTo_u64_spec n a v : wf n a -> 2 <= n -> 0 <= v < 2 ^ 64 -> compareTo_u64 n a v = Ok (zcmp (bval a) v).
Proof.
  intros Wa Hn Hv. pose proof (wf_len _ _ Wa). destruct (filledBlocksNumber_spec n a Wa) as (f & E & Hf & T & N).
  destruct (filled_bounds n a f Wa Hf T N) as [B1 B2].
  unfold compareTo_u64. rewrite E. cbn [bind]. destruct (Z.gtb_spec f 2).
  - f_equal. symmetry. apply zcmp_gt. destruct B2 as [|B2]; [lia|]. assert (2 ^ 64 <= 2 ^ (32 * (f - 1))) by (apply Z.pow_le_mono_r; lia). lia.
  - rewrite !aget_ok by lia. cbn [bind]. cbv zeta. rewrite <- (low2_value n) by auto.
    assert (V : bval a = pval a 2) by (apply (bval_filled n); auto; try lia; intros; apply T; lia).
    rewrite <- V. unfold zcmp. destruct (bval a >? v); auto. destruct (bval a <? v); auto.
Qed.

Lemma filled_le n a f : wf n a -> filledBlocksNumber n a = Ok f -> 0 <= f <= n.
Proof. intros Wa E. destruct (filledBlocksNumber_spec n a Wa) as (f' & E' & Hf & _). congruence. Qed.

(** At one block these read past the end. *)
Lemma op_eq_u64_n1 a v : wf 1 a -> op_eq_u64 1 a v = Err OutOfBounds.
Proof.
  intros Wa. pose proof (wf_len _ _ Wa). destruct (filledBlocksNumber_spec 1 a Wa) as (f & E & Hf & _).
  unfold op_eq_u64. rewrite E. cbn [bind]. destruct (Z.leb_spec f 2); [|lia]. rewrite aget_err by lia. auto.
Qed.
Lemma compareTo_u64_n1 a v : wf 1 a -> compareTo_u64 1 a v = Err OutOfBounds.
Proof.
  intros Wa. pose proof (wf_len _ _ Wa). destruct (filledBlocksNumber_spec 1 a Wa) as (f & E & Hf & _).
  unfold compareTo_u64. rewrite E. cbn [bind]. destruct (Z.gtb_spec f 2); [lia|]. rewrite aget_err by lia. auto.
Qed.
Lemma integralCast_n1 t a : wf 1 a -> integralCast t a = Err OutOfBounds.
Proof. intros Wa. pose proof (wf_len _ _ Wa). unfold integralCast. rewrite aget_err by lia. auto. Qed.

(** ** Casts *)
Lemma integralCast_spec t n a : wf n a -> 2 <= n -> integralCast t a = Ok (icast t (bval a mod 2 ^ 64)).
Proof.
  intros Wa Hn. pose proof (wf_len _ _ Wa). unfold integralCast. rewrite !aget_ok by lia. cbn [bind]. cbv zeta.
  rewrite <- (low2_value n) by auto. rewrite (pval_mod n) by (auto; lia). reflexivity.
Qed.

Lemma precisionCast_spec cfg n m a : wf n a -> 0 <= m -> yields m (precisionCast cfg n m a) (bval a mod modulus m).
Proof.
  intros Wa Hm. pose proof (wf_len _ _ Wa) as La. pose proof (wf_nonneg _ _ Wa) as Hn. unfold precisionCast.
  replace (if 32 * m >? 32 * n then n else m) with (Z.min n m) by (destruct (Z.gtb_spec (32 * m) (32 * n)); lia).
  set (k := Z.min n m).
  match goal with |- context [forU 0 k ?B _] =>
  destruct (forU_spec (fun i d => wf m d /\ (forall j, 0 <= j < i -> znth d j = znth a j) /\
    forall j, i <= j -> znth d j = 0) 0 k B (zeros m)) as (r & E & W & P & T) end.
  - lia.
  - split; [apply wf_zeros; auto|]. split; [lia|]. intros. apply znth_zeros.
  - intros i d Hi (Wd & P & T). pose proof (wf_len _ _ Wd). rewrite getBlock_znth by (auto; lia). cbn [bind].
    rewrite setBlock_upd by (auto; lia). eexists. split; [reflexivity|].
    split; [apply wf_upd; auto; apply (wf_znth n); auto|]. split.
    + intros j Hj. rewrite znth_upd by lia. destruct (Z.eqb_spec i j); [subst; auto|]. apply P. lia.
    + intros j Hj. rewrite znth_upd_ne by lia. apply T. lia.
  - rewrite E. apply yields_ok; auto. rewrite (bval_filled m r k) by (auto; lia).
    rewrite (pval_eq_blocks m r n a k) by (auto; lia).
    destruct (Z.leb_spec m n).
    + replace k with m by lia. rewrite (pval_mod n) by (auto; lia). auto.
    + replace k with n by lia. rewrite (pval_wf n) by auto. symmetry. apply Z.mod_small.
      pose proof (bval_bound n a Wa). assert (modulus n <= modulus m) by (apply Z.pow_le_mono_r; lia). lia.
Qed.
