(** * AeuBits: proofs about bitwise operators, shifts, accessors, observers and comparisons of [Aeu]. *)
From Verif Require Export AeuArith.
From Coq Require Import ZifyBool.
Open Scope Z_scope.

(** Two numbers below 2^N with the same N bits are equal. *)
Lemma bits_inj_mod n x y : 0 <= n -> 0 <= x < modulus n -> 0 <= y < modulus n ->
  (forall i, 0 <= i < 32 * n -> Z.testbit x i = Z.testbit y i) -> x = y.
Proof.
  intros Hn Hx Hy H. apply Z.bits_inj'. intros i Hi. destruct (Z.ltb_spec i (32 * n)); [apply H; lia|].
  rewrite !(testbit_lt_pow2 _ (32 * n)); auto.
Qed.

Lemma block_index i n : 0 <= i < 32 * n -> 0 <= i / 32 < n /\ 0 <= i mod 32 < 32 /\ i = 32 * (i / 32) + i mod 32.
Proof.
  intros H. pose proof (Z.div_mod i 32 ltac:(lia)). pose proof (Z.mod_pos_bound i 32 ltac:(lia)). lia.
Qed.

(** ** Bitwise operators *)
Lemma op_not_correct n junk a : len junk = n -> wf n a ->
  yields n (op_not n junk a) (modulus n - 1 - bval a) /\
  exists r, op_not n junk a = Ok r /\ forall i, 0 <= i < 32 * n -> Z.testbit (bval r) i = negb (Z.testbit (bval a) i).
Proof.
  intros Lj Wa. pose proof (wf_nonneg _ _ Wa) as Hn. pose proof (wf_len _ _ Wa) as La.
  assert (exists r, op_not n junk a = Ok r /\ wf n r /\ forall i, 0 <= i < n -> znth r i = not32 (znth a i)) as (r & E & W & P).
  { unfold op_not.
    match goal with |- context [forU 0 n ?B _] =>
    destruct (forU_spec (fun i d => len d = n /\ forall j, 0 <= j < i -> znth d j = not32 (znth a j)) 0 n B junk) as (r & E & L & P) end.
    - lia.
    - split; auto. lia.
    - intros i d Hi (Ld & P). rewrite aget_ok by lia. cbn [bind]. rewrite aset_ok by lia. eexists; split; [reflexivity|].
      split; [lenlia|]. intros j Hj. rewrite znth_upd by lia. destruct (Z.eqb_spec i j); [subst; auto|]. apply P. lia.
    - exists r. split; auto. split; auto. apply wf_intro; auto. intros i Hi. rewrite P by lia. apply not32_range. }
  assert (Bits : forall i, 0 <= i < 32 * n -> Z.testbit (bval r) i = negb (Z.testbit (bval a) i)).
  { intros i Hi. destruct (block_index i n Hi) as (H1 & H2 & H3).
    rewrite !(bval_testbit n) by (auto; lia). rewrite P by lia. rewrite not32_testbit by lia.
    destruct (Z.ltb_spec (i mod 32) 32); [auto|lia]. }
  split; [|eauto]. rewrite E. apply yields_ok; auto.
  pose proof (bval_bound n a Wa) as Ba. pose proof (bval_bound n r W) as Br.
  apply (bits_inj_mod n); auto; try lia. intros i Hi. rewrite Bits by auto.
  replace (modulus n - 1 - bval a) with (Z.lnot (bval a) + 1 * 2 ^ (32 * n)) by (unfold Z.lnot, modulus; lia).
  rewrite <- (Z.mod_pow2_bits_low (Z.lnot (bval a) + 1 * 2 ^ (32 * n)) (32 * n)) by lia. rewrite Z_mod_plus_full.
  rewrite Z.mod_pow2_bits_low by lia. rewrite Z.lnot_spec by lia. auto.
Qed.

Lemma bitwise_correct (op : Z -> Z -> Z) (bop : bool -> bool -> bool) n a b :
  (forall x y i, Z.testbit (op x y) i = bop (Z.testbit x i) (Z.testbit y i)) ->
  bop false false = false ->
  (forall x y, 0 <= x -> 0 <= y -> 0 <= op x y) ->
  wf n a -> wf n b -> yields n (bitwise_assign op n a b) (op (bval a) (bval b)).
Proof.
  intros Hop H00 Hpos Wa Wb. pose proof (wf_nonneg _ _ Wa) as Hn.
  pose proof (wf_len _ _ Wa) as La. pose proof (wf_len _ _ Wb) as Lb.
  assert (R : forall k x y, 0 <= k -> 0 <= x < 2 ^ k -> 0 <= y < 2 ^ k -> 0 <= op x y < 2 ^ k).
  { intros k x y Hk Hx Hy. apply bits_range; auto. intros i Hi. rewrite Hop.
    rewrite !(testbit_lt_pow2 _ k) by auto. auto. }
  assert (exists r, bitwise_assign op n a b = Ok r /\ wf n r /\ forall i, 0 <= i < n -> znth r i = op (znth a i) (znth b i)) as (r & E & W & P).
  { unfold bitwise_assign.
    match goal with |- context [forU 0 n ?B _] =>
    destruct (forU_spec (fun i d => wf n d /\ (forall j, 0 <= j < i -> znth d j = op (znth a j) (znth b j)) /\
      forall j, i <= j -> znth d j = znth a j) 0 n B a) as (r & E & L & P & _) end.
    - lia.
    - split; auto. split; auto. lia.
    - intros i d Hi (Wd & P & T). pose proof (wf_len _ _ Wd) as Ld.
      rewrite aget_ok by lia. cbn [bind]. rewrite aget_ok by lia. cbn [bind].
      rewrite aset_ok by lia. eexists; split; [reflexivity|].
      split; [apply wf_upd; auto; apply R; [lia| | ]; apply (wf_znth n); auto|]. split.
      + intros j Hj. rewrite znth_upd by lia. destruct (Z.eqb_spec i j); [subst; rewrite T by lia; auto|]. apply P. lia.
      + intros j Hj. rewrite znth_upd_ne by lia. apply T. lia.
    - exists r. auto. }
  rewrite E. apply yields_ok; auto.
  pose proof (bval_bound n a Wa). pose proof (bval_bound n b Wb). pose proof (bval_bound n r W).
  apply (bits_inj_mod n); auto; [apply R; auto; lia|]. intros i Hi.
  destruct (block_index i n Hi) as (H3 & H4 & H5).
  rewrite Hop. rewrite !(bval_testbit n) by (auto; lia). rewrite P by lia. apply Hop.
Qed.

Lemma xor_correct n a b : wf n a -> wf n b -> yields n (xor_assign n a b) (Z.lxor (bval a) (bval b)).
Proof. apply bitwise_correct with xorb; auto; [apply Z.lxor_spec|]. intros. apply Z.lxor_nonneg. lia. Qed.
Lemma and_correct n a b : wf n a -> wf n b -> yields n (and_assign n a b) (Z.land (bval a) (bval b)).
Proof. apply bitwise_correct with andb; auto; [apply Z.land_spec|]. intros. apply Z.land_nonneg. lia. Qed.
Lemma or_correct n a b : wf n a -> wf n b -> yields n (or_assign n a b) (Z.lor (bval a) (bval b)).
Proof. apply bitwise_correct with orb; auto; [apply Z.lor_spec|]. intros. apply Z.lor_nonneg. lia. Qed.

(** ** Left shift *)
Definition shl_stamp (r : Z) : Z := u32 (u64 (Z.shiftl 1 (32 - r)) - 1).
Lemma shl_stamp_eq r : 0 <= r < 32 -> shl_stamp r = 2 ^ (32 - r) - 1.
Proof.
  intros H. unfold shl_stamp. rewrite Z.shiftl_mul_pow2 by lia. rewrite Z.mul_1_l.
  assert (2 ^ (32 - r) <= 2 ^ 32) by (apply Z.pow_le_mono_r; lia).
  assert (0 < 2 ^ (32 - r)) by (apply Z.pow_pos_nonneg; lia).
  rewrite u64_small by lia. rewrite u32_small; lia.
Qed.

Definition shl_low (x r : Z) : Z := u32 (Z.shiftl (Z.land x (shl_stamp r)) r).
Definition shl_high (y r : Z) : Z := Z.shiftr (Z.land y (not32 (shl_stamp r))) ((32 - r) mod 32).

Lemma shl_low_bit x r b : 0 <= r < 32 -> 0 <= b < 32 ->
  Z.testbit (shl_low x r) b = ((r <=? b) && Z.testbit x (b - r))%bool.
Proof.
  intros Hr Hb. unfold shl_low. rewrite u32_testbit by lia. destruct (Z.ltb_spec b 32); [|lia]. cbn [andb].
  rewrite Z.shiftl_spec by lia. destruct (Z.leb_spec r b); cbn [andb].
  - rewrite Z.land_spec. rewrite shl_stamp_eq by lia. rewrite ones_testbit by lia.
    destruct (Z.ltb_spec (b - r) (32 - r)); [apply andb_true_r|lia].
  - apply Z.testbit_neg_r. lia.
Qed.
Lemma shl_high_bit y r b : 0 <= y < 2 ^ 32 -> 0 <= r < 32 -> 0 <= b < 32 ->
  Z.testbit (shl_high y r) b = ((b <? r) && Z.testbit y (b + 32 - r))%bool.
Proof.
  intros Hy Hr Hb. unfold shl_high. rewrite shl_stamp_eq by lia.
  destruct (Z.eq_dec r 0) as [->|Hr0].
  - change ((32 - 0) mod 32) with 0. rewrite Z.shiftr_0_r. rewrite Z.land_spec, not32_testbit by lia.
    rewrite ones_testbit by lia. destruct (Z.ltb_spec b (32 - 0)); [|lia].
    destruct (Z.ltb_spec b 0); [lia|]. cbn [negb andb]. rewrite !andb_false_r. auto.
  - rewrite Z.mod_small by lia. rewrite Z.shiftr_spec by lia. rewrite Z.land_spec, not32_testbit by lia.
    rewrite ones_testbit by lia. destruct (Z.ltb_spec b r); cbn [andb].
    + destruct (Z.ltb_spec (b + (32 - r)) 32); [|lia].
      destruct (Z.ltb_spec (b + (32 - r)) (32 - r)); [lia|]. cbn [negb andb]. rewrite andb_true_r. f_equal. lia.
    + destruct (Z.ltb_spec (b + (32 - r)) 32); [lia|]. cbn [andb]. apply andb_false_r.
Qed.
Lemma shl_low_range x r : 0 <= shl_low x r < 2 ^ 32.
Proof. apply u32_range. Qed.
Lemma shl_high_range y r : 0 <= y < 2 ^ 32 -> 0 <= shl_high y r < 2 ^ 32.
Proof.
  intros. unfold shl_high. apply shiftr_range; [apply Z.mod_pos_bound; lia|]. apply land_range. auto.
Qed.

Lemma b2z_range b : 0 <= b2z b <= 1.
Proof. destruct b; cbn; lia. Qed.

Lemma testbit_shift_mod n A s k : 0 <= s -> 0 <= k < 32 * n ->
  Z.testbit ((A * 2 ^ s) mod modulus n) k = ((s <=? k) && Z.testbit A (k - s))%bool.
Proof.
  intros Hs Hk. unfold modulus. rewrite Z.mod_pow2_bits_low by lia. destruct (Z.leb_spec s k); cbn [andb].
  - rewrite Z.mul_pow2_bits by lia. auto.
  - rewrite Z.mul_pow2_bits by lia. apply Z.testbit_neg_r. lia.
Qed.

Lemma shl_assign_correct n a s : wf n a -> 0 <= s < 32 * n ->
  yields n (shl_assign n a s) ((bval a * 2 ^ s) mod modulus n).
Proof.
  intros Wa Hs. pose proof (wf_nonneg _ _ Wa) as Hn. pose proof (wf_len _ _ Wa) as La.
  unfold shl_assign. destruct (Z.geb_spec s (32 * n)); [lia|]. cbn [orb].
  destruct (Z.eqb_spec s 0) as [->|Hs0].
  { apply yields_ok; auto. rewrite Z.pow_0_r, Z.mul_1_r. symmetry. apply Z.mod_small. apply bval_bound; auto. }
  destruct (block_index s n Hs) as (Hq & Hr & Es). unfold blockBitLength.
  remember (s / 32) as q eqn:Eq0. remember (s mod 32) as r eqn:Er0. clear Eq0 Er0. fold (shl_stamp r).
  set (r1 := b2z (negb (r =? 0))). assert (Hr1 : (r = 0 /\ r1 = 0) \/ (0 < r /\ r1 = 1)).
  { subst r1. destruct (Z.eqb_spec r 0); cbn; lia. }
  clearbody r1. cbv zeta.
  match goal with |- context [forD n (q + r1) ?B _] =>
  destruct (forD_spec (fun i d => wf n d /\
     (forall j, i <= j < n -> znth d j = Z.lor (shl_low (znth a (j - q)) r) (shl_high (znth a (j - q - r1)) r)) /\
     (forall j, j < i -> znth d j = znth a j)) n (q + r1) B a) as (v1 & E1 & W1 & P1 & T1) end.
  - lia.
  - split; auto. split; auto. lia.
  - intros i d Hi (Wd & P & T). pose proof (wf_len _ _ Wd) as Ld.
    rewrite aget_ok by lia. cbn [bind]. rewrite aget_ok by lia. cbn [bind]. rewrite aset_ok by lia.
    eexists; split; [reflexivity|].
    fold (shl_low (znth d (i - q)) r). fold (shl_high (znth d (i - q - r1)) r).
    split; [apply wf_upd; auto; apply lor_range; [apply shl_low_range|apply shl_high_range; apply (wf_znth n); auto]|].
    split.
    + intros j Hj. rewrite znth_upd by lia. destruct (Z.eqb_spec i j); [subst; rewrite !T by lia; auto|]. apply P. lia.
    + intros j Hj. rewrite znth_upd_ne by lia. apply T. lia.
  - rewrite E1. cbn [bind]. pose proof (wf_len _ _ W1) as L1.
    rewrite aget_ok by lia. cbn [bind]. rewrite T1 by lia. fold (shl_low (znth a 0) r).
    rewrite aset_ok by lia. cbn [bind].
    set (v2 := upd v1 (Z.to_nat q) (shl_low (znth a 0) r)).
    assert (W2 : wf n v2) by (apply wf_upd; auto; apply shl_low_range).
    match goal with |- context [forU 0 q ?B _] =>
    destruct (forU_spec (fun i d => wf n d /\
       (forall j, 0 <= j < i -> znth d j = 0) /\
       (forall j, i <= j -> znth d j = znth v2 j)) 0 q B v2) as (v3 & E3 & W3 & P3 & T3) end.
    + lia.
    + split; auto. split; auto. lia.
    + intros i d Hi (Wd & P & T). pose proof (wf_len _ _ Wd) as Ld. rewrite aset_ok by lia.
      eexists; split; [reflexivity|]. split; [apply wf_upd; auto; lia|]. split.
      * intros j Hj. rewrite znth_upd by lia. destruct (Z.eqb_spec i j); auto. apply P. lia.
      * intros j Hj. rewrite znth_upd_ne by lia. apply T. lia.
    + rewrite E3. apply yields_ok; auto.
      pose proof (bval_bound n v3 W3). pose proof (modulus_pos n ltac:(lia)).
      apply (bits_inj_mod n); auto; [apply Z.mod_pos_bound; auto|].
      intros k Hk. rewrite testbit_shift_mod by lia. rewrite (bval_testbit n) by (auto; lia).
      destruct (block_index k n Hk) as (Hi & Hb & Ek). remember (k / 32) as i eqn:Ei0. remember (k mod 32) as b eqn:Eb0. clear Ei0 Eb0.
      destruct (Z.ltb_spec i q) as [Hiq|Hiq].
      { rewrite P3 by lia. rewrite Z.testbit_0_l. destruct (Z.leb_spec s k); [lia|auto]. }
      rewrite T3 by lia. unfold v2. rewrite znth_upd by lia.
      assert (SRC1 : r <= b -> Z.testbit (bval a) (k - s) = Z.testbit (znth a (i - q)) (b - r)).
      { intros Hrb. rewrite (bval_testbit n) by (auto; lia).
        replace (k - s) with ((b - r) + (i - q) * 32) by lia. rewrite Z.div_add, Z.mod_add by lia.
        rewrite Z.div_small, Z.mod_small by lia. auto. }
      assert (SRC2 : b < r -> q < i -> Z.testbit (bval a) (k - s) = Z.testbit (znth a (i - q - 1)) (b + 32 - r)).
      { intros Hrb Hqi. rewrite (bval_testbit n) by (auto; lia).
        replace (k - s) with ((b + 32 - r) + (i - q - 1) * 32) by lia. rewrite Z.div_add, Z.mod_add by lia.
        rewrite Z.div_small, Z.mod_small by lia. auto. }
      destruct (Z.eqb_spec q i) as [Eqi|Nqi].
      * subst i. rewrite shl_low_bit by lia. destruct (Z.leb_spec r b).
        -- destruct (Z.leb_spec s k); [|lia]. rewrite SRC1 by lia. rewrite Z.sub_diag. auto.
        -- destruct (Z.leb_spec s k); [lia|]. auto.
      * rewrite P1 by lia. rewrite Z.lor_spec. rewrite shl_low_bit, shl_high_bit by (auto; try lia; apply (wf_znth n); auto).
        destruct (Z.leb_spec s k); [|lia]. cbn [andb].
        destruct (Z.leb_spec r b).
        -- destruct (Z.ltb_spec b r); [lia|]. rewrite SRC1 by lia. cbn [andb]. apply orb_false_r.
        -- destruct (Z.ltb_spec b r); [|lia]. rewrite SRC2 by lia. cbn [andb orb]. f_equal. f_equal. lia.
Qed.

Lemma shl_assign_over n a s : 32 * n <= s -> shl_assign n a s = Ok a.
Proof. intros H. unfold shl_assign. destruct (Z.geb_spec s (32 * n)); [|lia]. reflexivity. Qed.

(** ** Right shift *)
Definition shr_stamp (r : Z) : Z := u32 (Z.shiftl 1 r - 1).
Lemma shr_stamp_eq r : 0 <= r < 32 -> shr_stamp r = 2 ^ r - 1.
Proof.
  intros H. unfold shr_stamp. rewrite Z.shiftl_mul_pow2 by lia. rewrite Z.mul_1_l.
  assert (2 ^ r <= 2 ^ 32) by (apply Z.pow_le_mono_r; lia).
  assert (0 < 2 ^ r) by (apply Z.pow_pos_nonneg; lia). rewrite u32_small; lia.
Qed.
Definition shr_high (x r : Z) : Z := u32 (Z.shiftl (Z.land x (shr_stamp r)) ((32 - r) mod 32)).
Definition shr_low (y r : Z) : Z := Z.shiftr (Z.land y (not32 (shr_stamp r))) r.

Lemma shr_high_bit x r b : 0 <= r < 32 -> 0 <= b < 32 ->
  Z.testbit (shr_high x r) b = ((32 - r <=? b) && Z.testbit x (b + r - 32))%bool.
Proof.
  intros Hr Hb. unfold shr_high. rewrite u32_testbit by lia. destruct (Z.ltb_spec b 32); [|lia]. cbn [andb].
  rewrite shr_stamp_eq by lia.
  destruct (Z.eq_dec r 0) as [->|Hr0].
  - change (2 ^ 0 - 1) with 0. rewrite Z.land_0_r, Z.shiftl_0_l, Z.testbit_0_l.
    destruct (Z.leb_spec (32 - 0) b); [lia|auto].
  - rewrite Z.mod_small by lia. rewrite Z.shiftl_spec by lia. destruct (Z.leb_spec (32 - r) b); cbn [andb].
    + rewrite Z.land_spec, ones_testbit by lia. destruct (Z.ltb_spec (b - (32 - r)) r); [|lia].
      rewrite andb_true_r. f_equal. lia.
    + apply Z.testbit_neg_r. lia.
Qed.
Lemma shr_low_bit y r b : 0 <= y < 2 ^ 32 -> 0 <= r < 32 -> 0 <= b < 32 ->
  Z.testbit (shr_low y r) b = ((b <? 32 - r) && Z.testbit y (b + r))%bool.
Proof.
  intros Hy Hr Hb. unfold shr_low. rewrite shr_stamp_eq by lia. rewrite Z.shiftr_spec by lia.
  rewrite Z.land_spec, not32_testbit by lia. rewrite ones_testbit by lia.
  destruct (Z.ltb_spec b (32 - r)); cbn [andb].
  - destruct (Z.ltb_spec (b + r) 32); [|lia]. destruct (Z.ltb_spec (b + r) r); [lia|]. cbn. apply andb_true_r.
  - destruct (Z.ltb_spec (b + r) 32); [lia|]. cbn. apply andb_false_r.
Qed.
Lemma shr_high_range x r : 0 <= shr_high x r < 2 ^ 32.
Proof. apply u32_range. Qed.
Lemma shr_low_range y r : 0 <= r -> 0 <= y < 2 ^ 32 -> 0 <= shr_low y r < 2 ^ 32.
Proof. intros. unfold shr_low. apply shiftr_range; auto. apply land_range. auto. Qed.

Lemma shr_assign_correct n a s : wf n a -> 0 <= s < 32 * n ->
  yields n (shr_assign n a s) (bval a / 2 ^ s).
Proof.
  intros Wa Hs. pose proof (wf_nonneg _ _ Wa) as Hn. pose proof (wf_len _ _ Wa) as La.
  unfold shr_assign. destruct (Z.geb_spec s (32 * n)); [lia|]. cbn [orb].
  destruct (Z.eqb_spec s 0) as [->|Hs0].
  { apply yields_ok; auto. rewrite Z.pow_0_r, Z.div_1_r. auto. }
  destruct (block_index s n Hs) as (Hq & Hr & Es). unfold blockBitLength.
  remember (s / 32) as q eqn:Eq0. remember (s mod 32) as r eqn:Er0. clear Eq0 Er0. fold (shr_stamp r).
  set (r1 := b2z (negb (r =? 0))). assert (Hr1 : (r = 0 /\ r1 = 0) \/ (0 < r /\ r1 = 1)).
  { subst r1. destruct (Z.eqb_spec r 0); cbn; lia. }
  clearbody r1. cbv zeta.
  match goal with |- context [forU 0 (n - (q + r1)) ?B _] =>
  destruct (forU_spec (fun i d => wf n d /\
     (forall j, 0 <= j < i -> znth d j = Z.lor (shr_high (znth a (j + q + r1)) r) (shr_low (znth a (j + q)) r)) /\
     (forall j, i <= j -> znth d j = znth a j)) 0 (n - (q + r1)) B a) as (v1 & E1 & W1 & P1 & T1) end.
  - lia.
  - split; auto. split; auto. lia.
  - intros i d Hi (Wd & P & T). pose proof (wf_len _ _ Wd) as Ld.
    rewrite aget_ok by lia. cbn [bind]. rewrite aget_ok by lia. cbn [bind]. rewrite aset_ok by lia.
    eexists; split; [reflexivity|].
    fold (shr_high (znth d (i + q + r1)) r). fold (shr_low (znth d (i + q)) r).
    split; [apply wf_upd; auto; apply lor_range; [apply shr_high_range|apply shr_low_range; [lia|apply (wf_znth n); auto]]|].
    split.
    + intros j Hj. rewrite znth_upd by lia. destruct (Z.eqb_spec i j); [subst; rewrite !T by lia; auto|]. apply P. lia.
    + intros j Hj. rewrite znth_upd_ne by lia. apply T. lia.
  - rewrite E1. cbn [bind]. pose proof (wf_len _ _ W1) as L1.
    rewrite aget_ok by lia. cbn [bind]. rewrite T1 by lia. fold (shr_low (znth a (n - 1)) r).
    rewrite aset_ok by lia. cbn [bind].
    set (v2 := upd v1 (Z.to_nat (n - 1 - q)) (shr_low (znth a (n - 1)) r)).
    assert (W2 : wf n v2) by (apply wf_upd; auto; apply shr_low_range; [lia|apply (wf_znth n); auto]).
    match goal with |- context [forU (n - q) n ?B _] =>
    destruct (forU_spec (fun i d => wf n d /\
       (forall j, n - q <= j < i -> znth d j = 0) /\
       (forall j, j < n - q -> znth d j = znth v2 j)) (n - q) n B v2) as (v3 & E3 & W3 & P3 & T3) end.
    + lia.
    + split; auto. split; auto. lia.
    + intros i d Hi (Wd & P & T). pose proof (wf_len _ _ Wd) as Ld. rewrite aset_ok by lia.
      eexists; split; [reflexivity|]. split; [apply wf_upd; auto; lia|]. split.
      * intros j Hj. rewrite znth_upd by lia. destruct (Z.eqb_spec i j); auto. apply P. lia.
      * intros j Hj. rewrite znth_upd_ne by lia. apply T. lia.
    + rewrite E3. apply yields_ok; auto.
      pose proof (bval_bound n v3 W3). pose proof (bval_bound n a Wa) as Ba.
      assert (0 < 2 ^ s) by (apply Z.pow_pos_nonneg; lia).
      apply (bits_inj_mod n); auto.
      { split; [apply Z.div_pos; lia|]. apply Z.le_lt_trans with (bval a); [|lia]. apply Z.div_le_upper_bound; nia. }
      intros k Hk. rewrite Z.div_pow2_bits by lia. rewrite !(bval_testbit n) by (auto; lia).
      destruct (block_index k n Hk) as (Hi & Hb & Ek). remember (k / 32) as i eqn:Ei0. remember (k mod 32) as b eqn:Eb0. clear Ei0 Eb0.
      assert (SRC1 : b + r < 32 -> znth a ((k + s) / 32) = znth a (i + q) /\ (k + s) mod 32 = b + r).
      { intros Hrb. replace (k + s) with ((b + r) + (i + q) * 32) by lia. rewrite Z.div_add, Z.mod_add by lia.
        rewrite Z.div_small, Z.mod_small by lia. auto. }
      assert (SRC2 : 32 <= b + r -> znth a ((k + s) / 32) = znth a (i + q + 1) /\ (k + s) mod 32 = b + r - 32).
      { intros Hrb. replace (k + s) with ((b + r - 32) + (i + q + 1) * 32) by lia. rewrite Z.div_add, Z.mod_add by lia.
        rewrite Z.div_small, Z.mod_small by lia. auto. }
      assert (Ya : forall j, 0 <= znth a j < 2 ^ 32) by (intros; apply (wf_znth n); auto).
      destruct (Z.ltb_spec i (n - q)) as [Hiq|Hiq].
      2:{ rewrite P3 by lia. rewrite Z.testbit_0_l. destruct (Z.ltb_spec (b + r) 32).
          - destruct SRC1 as [-> ->]; auto. rewrite znth_out by lia. rewrite Z.testbit_0_l. auto.
          - destruct SRC2 as [-> ->]; auto. rewrite znth_out by lia. rewrite Z.testbit_0_l. auto. }
      rewrite T3 by lia. unfold v2. rewrite znth_upd by lia.
      destruct (Z.eqb_spec (n - 1 - q) i) as [Eqi|Nqi].
      * rewrite shr_low_bit by (auto; lia). destruct (Z.ltb_spec (b + r) 32).
        -- destruct SRC1 as [-> ->]; auto. destruct (Z.ltb_spec b (32 - r)); [|lia]. cbn [andb].
           f_equal. f_equal. lia.
        -- destruct SRC2 as [-> ->]; auto. destruct (Z.ltb_spec b (32 - r)); [lia|]. cbn [andb].
           rewrite znth_out by lia. rewrite Z.testbit_0_l. auto.
      * rewrite P1 by lia. rewrite Z.lor_spec. rewrite shr_high_bit, shr_low_bit by (auto; lia).
        destruct (Z.ltb_spec (b + r) 32).
        -- destruct SRC1 as [-> ->]; auto. destruct (Z.leb_spec (32 - r) b); [lia|].
           destruct (Z.ltb_spec b (32 - r)); [|lia]. auto.
        -- destruct SRC2 as [-> ->]; auto. destruct (Z.leb_spec (32 - r) b); [|lia].
           destruct (Z.ltb_spec b (32 - r)); [lia|]. cbn [andb]. rewrite orb_false_r. f_equal. f_equal. lia.
Qed.

Lemma shr_assign_over n a s : 32 * n <= s -> shr_assign n a s = Ok a.
Proof. intros H. unfold shr_assign. destruct (Z.geb_spec s (32 * n)); [|lia]. reflexivity. Qed.
