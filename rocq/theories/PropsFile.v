(** * PropsFile: a binary file read at another width, with another block order or on another host (C124).

    [writeBinary le n a os be], [readBinary le m is be]: [le] little-endian host, [n]/[m] width in blocks, [be] the
    bigEndian argument (true by default).  [byte_at v i], [place]: BinSpec.v. *)
From Verif Require Import BinModel BinFacts TextFacts AeuAccess Lib.
Open Scope Z_scope.

(** ** bytes determine a non-negative integer *)
Lemma byte_bit v i t : 0 <= v -> 0 <= i -> 0 <= t < 8 -> Z.testbit (byte_at v i) t = Z.testbit v (8 * i + t).
Proof.
  intros Hv Hi Ht. unfold byte_at. change 256 with (2 ^ 8) at 2. rewrite Z.mod_pow2_bits_low by lia.
  replace (256 ^ i) with (2 ^ (8 * i)) by (rewrite Z.pow_mul_r by lia; reflexivity). rewrite Z.div_pow2_bits by lia. f_equal. lia.
Qed.
Lemma bytes_value u v k : 0 <= k -> 0 <= u < 256 ^ k -> 0 <= v < 256 ^ k -> (forall i, 0 <= i < k -> byte_at u i = byte_at v i) -> u = v.
Proof.
  intros Hk Hu Hv H. apply Z.bits_inj'. intros b Hb.
  destruct (Z_lt_le_dec (b / 8) k) as [L|L].
  - assert (0 <= b / 8) by (apply Z.div_pos; lia). pose proof (Z.mod_pos_bound b 8 ltac:(lia)).
    pose proof (Z.div_mod b 8 ltac:(lia)) as E. rewrite E. rewrite <- !byte_bit by lia. rewrite H by lia. reflexivity.
  - assert (G : forall w, 0 <= w < 256 ^ k -> Z.testbit w b = false).
    { intros w Hw. destruct (Z.eq_dec w 0) as [-> |]; [apply Z.bits_0|]. apply Z.bits_above_log2; [lia|]. apply Z.log2_lt_pow2; [lia|].
      replace (256 ^ k) with (2 ^ (8 * k)) in Hw by (rewrite Z.pow_mul_r by lia; reflexivity).
      assert (2 ^ (8 * k) <= 2 ^ b). { apply Z.pow_le_mono_r; [lia|]. pose proof (Z.mul_div_le b 8 ltac:(lia)). lia. } lia. }
    rewrite (G u Hu), (G v Hv). reflexivity.
Qed.
Lemma modulus_bytes n : 0 <= n -> modulus n = 256 ^ (4 * n).
Proof. intros H. unfold modulus. change 256 with (2 ^ 8). rewrite <- Z.pow_mul_r by lia. f_equal. lia. Qed.
Lemma byte_mod v m i : 0 <= i < m -> byte_at (v mod 256 ^ m) i = byte_at v i.
Proof.
  intros H. unfold byte_at. replace m with (i + (1 + (m - i - 1))) by lia. rewrite (Z.pow_add_r 256 i) by lia.
  assert (0 < 256 ^ i) by (apply Z.pow_pos_nonneg; lia).
  assert (0 < 256 ^ (1 + (m - i - 1))) by (apply Z.pow_pos_nonneg; lia).
  rewrite Z.rem_mul_r by lia. rewrite Z.mul_comm, Z.div_add by lia. rewrite (Z.div_small (v mod 256 ^ i)) by (apply Z.mod_pos_bound; lia). rewrite Z.add_0_l.
  rewrite Z.pow_add_r, Z.pow_1_r by lia. assert (0 < 256 ^ (m - i - 1)) by (apply Z.pow_pos_nonneg; lia).
  rewrite Z.rem_mul_r by lia. rewrite Z.mul_comm, Z.mod_add by lia. apply Z.mod_mod. lia.
Qed.
Lemma byte_out v k i : 0 <= v < 256 ^ k -> 0 <= k <= i -> byte_at v i = 0.
Proof. intros H Hk. unfold byte_at. assert (256 ^ k <= 256 ^ i) by (apply Z.pow_le_mono_r; lia). rewrite Z.div_small by lia. reflexivity. Qed.
Lemma byte_up v d i : 0 <= d -> 0 <= i -> byte_at (v * 256 ^ d) i = if i <? d then 0 else byte_at v (i - d).
Proof.
  intros Hd Hi. unfold byte_at. assert (0 < 256 ^ i) by (apply Z.pow_pos_nonneg; lia). destruct (Z.ltb_spec i d).
  - replace d with (i + (1 + (d - i - 1))) by lia. rewrite (Z.pow_add_r 256 i), (Z.pow_add_r 256 1), Z.pow_1_r by lia.
    replace (v * (256 ^ i * (256 * 256 ^ (d - i - 1)))) with (v * 256 ^ (d - i - 1) * 256 * 256 ^ i) by ring. rewrite Z.div_mul by lia. apply Z.mod_mul. lia.
  - replace (256 ^ i) with (256 ^ (i - d) * 256 ^ d) by (rewrite <- Z.pow_add_r by lia; f_equal; lia).
    rewrite Z.div_mul_cancel_r; [reflexivity| |]; assert (0 < 256 ^ (i - d)) by (apply Z.pow_pos_nonneg; lia); assert (0 < 256 ^ d) by (apply Z.pow_pos_nonneg; lia); lia.
Qed.
Lemma byte_down v d i : 0 <= d -> 0 <= i -> byte_at (v / 256 ^ d) i = byte_at v (i + d).
Proof.
  intros Hd Hi. unfold byte_at. rewrite Z.div_div; [|assert (0 < 256 ^ d) by (apply Z.pow_pos_nonneg; lia); lia|apply Z.pow_pos_nonneg; lia].
  rewrite <- Z.pow_add_r by lia. do 3 f_equal. lia.
Qed.

Lemma cross_bytes le le' n m a be be' o : wf n a -> 0 <= m ->
  exists w r, writeBinary le n a (mk_bos o None true) be = Ok (mk_bos (o ++ w) None true) /\ len w = 4 * n /\
    readBinary le' m (mk_is w true) be' = Ok (r, mk_is (skipn (Z.to_nat (4 * m)) w) (m <=? n)) /\ wf m r /\
    forall k, 0 <= k < 4 * m -> byte_at (bval r) (place le' be' m k) = if k <? 4 * n then byte_at (bval a) (place le be n k) else 0.
Proof.
  intros W Hm. pose proof (wf_nonneg _ _ W) as Hn. exists (file_bytes le be n a).
  destruct (readBinary_spec le' m (file_bytes le be n a) be' Hm (file_bytes_bytes le be n a W)) as (r & E & Wr & Q).
  rewrite file_bytes_len in E by auto. exists r. conjs; auto.
  - rewrite writeBinary_spec by (auto; discriminate). reflexivity.
  - apply file_bytes_len. auto.
  - rewrite E. do 3 f_equal. destruct (Z.leb_spec (4 * m) (4 * n)), (Z.leb_spec m n); lia || reflexivity.
  - intros k Hk. rewrite Q by auto. destruct (Z.ltb_spec k (4 * n)); [apply file_bytes_nth; auto; lia|].
    unfold znth. destruct (Z.ltb_spec k 0); [lia|]. apply nth_overflow. pose proof (file_bytes_len le be n a Hn) as L. unfold len in L. lia.
Qed.

(** ** C124 *)
(** Least significant block first: the number modulo 2^M; in particular the number itself if it fits. *)
Theorem C124_other_width_partial : forall le n m a o, wf n a -> 1 <= n -> 1 <= m ->
  exists w r, writeBinary le n a (mk_bos o None true) false = Ok (mk_bos (o ++ w) None true) /\ len w = 4 * n /\
    readBinary le m (mk_is w true) false = Ok (r, mk_is (skipn (Z.to_nat (4 * m)) w) (m <=? n)) /\
    represents m r (bval a mod modulus m).
Proof.
  intros le n m a o W Hn Hm. destruct (cross_bytes le le n m a false false o W ltac:(lia)) as (w & r & E1 & L & E2 & Wr & Q).
  exists w, r. conjs; auto. split; [auto|]. pose proof (bval_bound n _ W) as Ba. pose proof (bval_bound m _ Wr) as Br. pose proof (modulus_pos m).
  apply (bytes_value _ _ (4 * m)); [lia|rewrite <- modulus_bytes by lia; auto|rewrite <- modulus_bytes by lia; apply Z.mod_pos_bound; lia|].
  intros i Hi. rewrite modulus_bytes by lia. rewrite byte_mod by lia.
  pose proof (Z.div_mod i 4 ltac:(lia)) as D. pose proof (Z.mod_pos_bound i 4 ltac:(lia)) as Mi.
  set (k := place le false m i).
  assert (K4 : k / 4 = i / 4 /\ k mod 4 = if le then i mod 4 else 3 - i mod 4).
  { subst k. unfold place. split; [symmetry; apply Z.div_unique_pos with (if le then i mod 4 else 3 - i mod 4)|symmetry; apply Z.mod_unique_pos with (i / 4)]; destruct le; lia. }
  assert (Pk : forall x, place le false x k = i). { intros x. unfold place. destruct K4 as [-> ->]. destruct le; lia. }
  assert (Hk : 0 <= k < 4 * m) by (apply place_range; auto).
  specialize (Q k Hk). rewrite !Pk in Q. rewrite Q. destruct (Z.ltb_spec k (4 * n)) as [|Hge]; [reflexivity|].
  symmetry. apply (byte_out _ (4 * n)); [rewrite <- modulus_bytes by lia; auto|]. pose proof (Z.div_mod k 4 ltac:(lia)). pose proof (Z.mod_pos_bound k 4 ltac:(lia)). lia.
Qed.
Print Assumptions C124_other_width_partial.

(** Most significant block first (the default): the file has no length field, so the blocks line up at the top: a
    wider number gets the value times 2^(M-N), a narrower one the top blocks. *)
Theorem C124_other_width_default : forall le n m a o, wf n a -> 1 <= n -> 1 <= m ->
  exists w r, writeBinary le n a (mk_bos o None true) true = Ok (mk_bos (o ++ w) None true) /\ len w = 4 * n /\
    readBinary le m (mk_is w true) true = Ok (r, mk_is (skipn (Z.to_nat (4 * m)) w) (m <=? n)) /\
    represents m r (if n <=? m then bval a * 2 ^ (32 * (m - n)) else bval a / 2 ^ (32 * (n - m))).
Proof.
  intros le n m a o W Hn Hm. destruct (cross_bytes le le n m a true true o W ltac:(lia)) as (w & r & E1 & L & E2 & Wr & Q).
  exists w, r. conjs; auto. split; [auto|]. pose proof (bval_bound n _ W) as Ba. pose proof (bval_bound m _ Wr) as Br.
  rewrite modulus_bytes in Ba, Br by lia.
  assert (P32 : forall d, 0 <= d -> 2 ^ (32 * d) = 256 ^ (4 * d)). { intros d Hd. rewrite <- modulus_bytes by lia. reflexivity. }
  assert (Step : forall i, 0 <= i < 4 * m -> byte_at (bval r) i = if 0 <=? i + 4 * (n - m) then byte_at (bval a) (i + 4 * (n - m)) else 0).
  { intros i Hi. pose proof (Z.div_mod i 4 ltac:(lia)) as D. pose proof (Z.mod_pos_bound i 4 ltac:(lia)) as Mi.
    set (k := place le true m i).
    assert (K4 : k / 4 = m - 1 - i / 4 /\ k mod 4 = if le then i mod 4 else 3 - i mod 4).
    { subst k. unfold place. split; [symmetry; apply Z.div_unique_pos with (if le then i mod 4 else 3 - i mod 4)|symmetry; apply Z.mod_unique_pos with (m - 1 - i / 4)]; destruct le; lia. }
    assert (Pk : forall x, place le true x k = i + 4 * (x - m)). { intros x. unfold place. destruct K4 as [-> ->]. destruct le; lia. }
    assert (Hk : 0 <= k < 4 * m) by (apply place_range; auto).
    specialize (Q k Hk). rewrite !Pk in Q. replace (i + 4 * (m - m)) with i in Q by lia. rewrite Q.
    pose proof (Z.div_mod k 4 ltac:(lia)). pose proof (Z.mod_pos_bound k 4 ltac:(lia)).
    destruct (Z.ltb_spec k (4 * n)), (Z.leb_spec 0 (i + 4 * (n - m))); auto; lia. }
  destruct (Z.leb_spec n m) as [Hnm|Hnm].
  - rewrite P32 by lia. apply (bytes_value _ _ (4 * m)); [lia|auto| |].
    + assert (0 < 256 ^ (4 * (m - n))) by (apply Z.pow_pos_nonneg; lia).
      replace (256 ^ (4 * m)) with (256 ^ (4 * n) * 256 ^ (4 * (m - n))) by (rewrite <- Z.pow_add_r by lia; f_equal; lia). nia.
    + intros i Hi. rewrite Step by auto. rewrite byte_up by lia.
      destruct (Z.leb_spec 0 (i + 4 * (n - m))), (Z.ltb_spec i (4 * (m - n))); try lia. f_equal. lia.
  - rewrite P32 by lia. assert (0 < 256 ^ (4 * (n - m))) by (apply Z.pow_pos_nonneg; lia). apply (bytes_value _ _ (4 * m)); [lia|auto| |].
    + split; [apply Z.div_pos; lia|]. apply Z.div_lt_upper_bound; [lia|]. rewrite <- Z.pow_add_r by lia. replace (4 * (n - m) + 4 * m) with (4 * n) by lia. lia.
    + intros i Hi. rewrite Step by auto. rewrite byte_down by lia. destruct (Z.leb_spec 0 (i + 4 * (n - m))); [reflexivity|lia].
Qed.
Print Assumptions C124_other_width_default.
(** Hence with the default order every non-zero number read back at any greater width is wrong. *)
Theorem C124_other_width_refuted : forall le n m a o, wf n a -> 1 <= n < m -> bval a <> 0 ->
  exists w r, writeBinary le n a (mk_bos o None true) true = Ok (mk_bos (o ++ w) None true) /\
    readBinary le m (mk_is w true) true = Ok (r, mk_is [] false) /\ bval r <> bval a.
Proof.
  intros le n m a o W Hn Hv. destruct (C124_other_width_default le n m a o W ltac:(lia) ltac:(lia)) as (w & r & E1 & L & E2 & Wr & V).
  exists w, r. conjs; auto.
  - rewrite E2. replace (m <=? n) with false by (symmetry; apply Z.leb_gt; lia). rewrite skipn_all2; [reflexivity|]. unfold len in L. lia.
  - rewrite V. replace (n <=? m) with true by (symmetry; apply Z.leb_le; lia). assert (2 ^ 32 <= 2 ^ (32 * (m - n))) by (apply Z.pow_le_mono_r; lia). nia.
Qed.
Print Assumptions C124_other_width_refuted.

(** Written in one block order and read in the other: the blocks are reversed. *)
Theorem C124_other_order : forall le n a be o, wf n a ->
  exists w, writeBinary le n a (mk_bos o None true) be = Ok (mk_bos (o ++ w) None true) /\
    readBinary le n (mk_is w true) (negb be) = Ok (rev a, mk_is [] true).
Proof.
  intros le n a be o W. pose proof (wf_nonneg _ _ W) as Hn. destruct (cross_bytes le le n n a be (negb be) o W ltac:(lia)) as (w & r & E1 & L & E2 & Wr & Q).
  exists w. split; [auto|]. rewrite E2. rewrite Z.leb_refl. rewrite skipn_all2 by (unfold len in L; lia).
  assert (WR : wf n (rev a)). { destruct W as [LW FW]. split; [rewrite rev_len; auto|apply Forall_rev; auto]. }
  assert (r = rev a) as ->; [|reflexivity]. apply (bytes_ext n); auto. intros i Hi.
  pose proof (Z.div_mod i 4 ltac:(lia)) as D. pose proof (Z.mod_pos_bound i 4 ltac:(lia)) as Mi.
  set (k := 4 * (if negb be then n - 1 - i / 4 else i / 4) + (if le then i mod 4 else 3 - i mod 4)).
  assert (Di : 0 <= i / 4 < n) by (split; [apply Z.div_pos; lia|apply Z.div_lt_upper_bound; lia]).
  assert (K4 : k / 4 = (if negb be then n - 1 - i / 4 else i / 4) /\ k mod 4 = if le then i mod 4 else 3 - i mod 4).
  { subst k. split; [symmetry; apply Z.div_unique_pos with (if le then i mod 4 else 3 - i mod 4)|symmetry; apply Z.mod_unique_pos with (if negb be then n - 1 - i / 4 else i / 4)]; destruct le, be; cbn [negb]; lia. }
  assert (Hk : 0 <= k < 4 * n) by (subst k; destruct le, be; cbn [negb]; lia).
  specialize (Q k Hk). replace (k <? 4 * n) with true in Q by (symmetry; apply Z.ltb_lt; lia).
  assert (P1 : place le (negb be) n k = i). { unfold place. destruct K4 as [-> ->]. destruct le, be; cbn [negb]; lia. }
  assert (P2 : place le be n k = 4 * (n - 1 - i / 4) + i mod 4). { unfold place. destruct K4 as [-> ->]. destruct le, be; cbn [negb]; lia. }
  rewrite P1, P2 in Q. rewrite Q. rewrite (byte_at_block n) by (auto; lia).
  replace i with (4 * (i / 4) + i mod 4) at 3 by lia. rewrite (byte_at_block n (rev a)) by (auto; lia). f_equal.
  unfold znth. destruct (Z.ltb_spec (n - 1 - i / 4) 0), (Z.ltb_spec (i / 4) 0); try lia.
  rewrite rev_nth by (pose proof (wf_len _ _ W) as LW; unfold len in LW; lia). f_equal. pose proof (wf_len _ _ W) as LW. unfold len in LW. lia.
Qed.
Print Assumptions C124_other_order.

(** Read on a host of the other endianness: the bytes of every block are reversed; the number survives exactly when
    every block reads the same both ways. *)
Theorem C124_other_host : forall le n a be o, wf n a ->
  exists w r, writeBinary le n a (mk_bos o None true) be = Ok (mk_bos (o ++ w) None true) /\
    readBinary (negb le) n (mk_is w true) be = Ok (r, mk_is [] true) /\ wf n r /\
    (forall j t, 0 <= j < n -> 0 <= t < 4 -> byte_at (bval r) (4 * j + t) = byte_at (bval a) (4 * j + (3 - t))) /\
    (bval r = bval a <-> forall j t, 0 <= j < n -> 0 <= t < 4 -> byte_at (bval a) (4 * j + t) = byte_at (bval a) (4 * j + (3 - t))).
Proof.
  intros le n a be o W. pose proof (wf_nonneg _ _ W) as Hn. destruct (cross_bytes le (negb le) n n a be be o W ltac:(lia)) as (w & r & E1 & L & E2 & Wr & Q).
  exists w, r. split; [auto|]. rewrite E2. rewrite Z.leb_refl. rewrite skipn_all2 by (unfold len in L; lia). split; [reflexivity|]. split; [auto|].
  assert (X : forall j t, 0 <= j < n -> 0 <= t < 4 -> byte_at (bval r) (4 * j + t) = byte_at (bval a) (4 * j + (3 - t))).
  { intros j t Hj Ht. set (k := 4 * (if be then n - 1 - j else j) + (if negb le then t else 3 - t)).
    assert (K4 : k / 4 = (if be then n - 1 - j else j) /\ k mod 4 = if negb le then t else 3 - t).
    { subst k. split; [symmetry; apply Z.div_unique_pos with (if negb le then t else 3 - t)|symmetry; apply Z.mod_unique_pos with (if be then n - 1 - j else j)]; destruct le, be; cbn [negb]; lia. }
    assert (Hk : 0 <= k < 4 * n) by (subst k; destruct le, be; cbn [negb]; lia).
    specialize (Q k Hk). replace (k <? 4 * n) with true in Q by (symmetry; apply Z.ltb_lt; lia).
    assert (P1 : place (negb le) be n k = 4 * j + t). { unfold place. destruct K4 as [-> ->]. destruct le, be; cbn [negb]; lia. }
    assert (P2 : place le be n k = 4 * j + (3 - t)). { unfold place. destruct K4 as [-> ->]. destruct le, be; cbn [negb]; lia. }
    rewrite P1, P2 in Q. exact Q. }
  split; [exact X|]. split.
  - intros E j t Hj Ht. rewrite <- X by auto. rewrite E. reflexivity.
  - intros H. pose proof (bval_bound n _ W) as Ba. pose proof (bval_bound n _ Wr) as Br. rewrite modulus_bytes in Ba, Br by lia.
    apply (bytes_value _ _ (4 * n)); [lia|auto|auto|]. intros i Hi.
    pose proof (Z.div_mod i 4 ltac:(lia)) as D. pose proof (Z.mod_pos_bound i 4 ltac:(lia)) as Mi.
    assert (Di : 0 <= i / 4 < n) by (split; [apply Z.div_pos; lia|apply Z.div_lt_upper_bound; lia]).
    rewrite D. rewrite X by lia. symmetry. apply H; lia.
Qed.
Print Assumptions C124_other_host.

(** 0x0123456789abcdef of 64 bits read as 96 bits in both orders, as 32 bits, and with blocks reversed. *)
Definition exF : list Z := [2309737967; 19088743].
Example C124_example : wf 2 exF /\ bval exF = 81985529216486895 /\
  writeBinary true 2 exF (mk_bos [] None true) true = Ok (mk_bos [103; 69; 35; 1; 239; 205; 171; 137] None true) /\
  readBinary true 3 (mk_is [103; 69; 35; 1; 239; 205; 171; 137] true) true = Ok ([0; 2309737967; 19088743], mk_is [] false) /\
  readBinary true 3 (mk_is [239; 205; 171; 137; 103; 69; 35; 1] true) false = Ok ([2309737967; 19088743; 0], mk_is [] false) /\
  readBinary true 1 (mk_is [103; 69; 35; 1; 239; 205; 171; 137] true) true = Ok ([19088743], mk_is [239; 205; 171; 137] true) /\
  readBinary true 2 (mk_is [103; 69; 35; 1; 239; 205; 171; 137] true) false = Ok ([19088743; 2309737967], mk_is [] true) /\
  readBinary false 2 (mk_is [103; 69; 35; 1; 239; 205; 171; 137] true) true = Ok ([4023233417; 1732584193], mk_is [] true).
Proof. split; [apply wfb_wf; vm_compute; reflexivity|]. conjs; vm_compute; reflexivity. Qed.
