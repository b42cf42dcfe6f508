(** * PropsExact2: C133 (GMP integers on every host and build), C134 (comparison with any GMP integer), C135 (signed
    integralCast of every value), C136 (what is left behind a zero), C137 (text of 32-bit numbers). *)
From Verif Require Import Lib AeuAccess AeuFacts AesiFacts TextFacts TextMore TextHex BinFacts PropsBin PropsMix PropsText PropsAesi.
Open Scope Z_scope.

Ltac conjs := repeat match goal with |- _ /\ _ => split end.

(** ** C133 *)
Lemma le_bytes_in x : bytes_in (le_bytes x).
Proof. unfold le_bytes, bytes_in. repeat constructor; apply Z.mod_pos_bound; lia. Qed.
Lemma le_bytes_at x m : 0 <= m < 4 -> znth (le_bytes x) m = byte_at x m.
Proof. intros H. exact (block_bytes_nth true x m H). Qed.
Lemma byte_word z j m : 0 <= z -> 0 <= j -> 0 <= m < 4 -> byte_at (z / 2 ^ (32 * j) mod 2 ^ 32) m = byte_at z (4 * j + m).
Proof.
  intros Hz Hj Hm. unfold byte_at. change 256 with (2 ^ 8). rewrite <- !Z.pow_mul_r by lia.
  replace (8 * (4 * j + m)) with (32 * j + 8 * m) by lia. rewrite Z.pow_add_r, <- Z.div_div by (try apply Z.pow_pos_nonneg; try apply Z.pow_nonzero; lia).
  generalize (z / 2 ^ (32 * j)). intros v. replace (2 ^ 32) with (2 ^ (8 * m) * (2 ^ 8 * 2 ^ (32 - 8 * m - 8))) by (rewrite <- !Z.pow_add_r by lia; f_equal; lia).
  assert (P1 : 0 < 2 ^ (8 * m)) by (apply Z.pow_pos_nonneg; lia). assert (P2 : 0 < 2 ^ (32 - 8 * m - 8)) by (apply Z.pow_pos_nonneg; lia).
  rewrite Z.rem_mul_r by lia. rewrite (Z.mul_comm (2 ^ (8 * m))), Z.div_add by lia. rewrite (Z.div_small (v mod 2 ^ (8 * m))) by (apply Z.mod_pos_bound; lia). rewrite Z.add_0_l.
  rewrite Z.rem_mul_r by lia. rewrite (Z.mul_comm (2 ^ 8)), Z.mod_add by lia. apply Z.mod_mod. lia.
Qed.
Definition word (le : bool) (z i : Z) : Z := bytes_block le (le_bytes (Z.abs z / 2 ^ (32 * i) mod 2 ^ 32)).
Lemma word_range le z i : 0 <= word le z i < 2 ^ 32.
Proof. apply bytes_block_range; [reflexivity|apply le_bytes_in]. Qed.
Lemma word_byte le z i m : 0 <= i -> 0 <= m < 4 -> byte_at (word le z i) m = byte_at (Z.abs z) (4 * i + (if le then m else 3 - m)).
Proof.
  intros Hi Hm. unfold word. rewrite bytes_block_byte by (auto using le_bytes_in). rewrite le_bytes_at by (destruct le; lia). apply byte_word; destruct le; lia.
Qed.
Lemma export_any le buffer z : word_count z <= len buffer ->
  exists b, mpz_export le buffer z = Ok (b, word_count z) /\ len b = len buffer /\ forall i, 0 <= i < word_count z -> znth b i = word le z i.
Proof.
  intros H. unfold mpz_export. pose proof (word_count_nonneg z).
  match goal with |- context [forU 0 _ ?B buffer] => destruct (forU_spec (fun i b => len b = len buffer /\ forall j, 0 <= j < i -> znth b j = word le z j) 0 (word_count z) B buffer) as (b & -> & L & Q) end; auto.
  - split; auto. intros. lia.
  - intros j b Hj (L & Q). rewrite aset_ok by lia. eexists. split; [reflexivity|]. split; [rewrite len_upd; auto|].
    intros i Hi. rewrite znth_upd by lia. destruct (Z.eqb_spec j i) as [-> |]; [reflexivity|apply Q; lia].
  - cbn [bind]. eauto.
Qed.
Lemma loopU_err {S} (P : S -> Prop) (f : Z -> S -> outcome S) e : forall c i k s, i <= k < i + Z.of_nat c -> P s ->
  (forall j s, i <= j < k -> P s -> exists s', f j s = Ok s' /\ P s') -> (forall s, P s -> f k s = Err e) -> loopU c i f s = Err e.
Proof.
  induction c as [|c IH]; intros i k s Hk Ps F E; [lia|]. cbn [loopU]. destruct (Z.eq_dec i k) as [->|N].
  - rewrite E by auto. reflexivity.
  - destruct (F i s ltac:(lia) Ps) as (s' & -> & Ps'). cbn [bind]. apply (IH (i + 1) k); auto; [lia|]. intros j t Hj. apply F. lia.
Qed.
Lemma big_words n z : 0 <= n -> modulus n <= Z.abs z -> n < word_count z.
Proof.
  intros Hn H. assert (Z0 : z <> 0). { intros ->. unfold modulus in H. assert (0 < 2 ^ (32 * n)) by (apply Z.pow_pos_nonneg; lia). lia. }
  destruct (log2_words z Z0) as (L & _ & _). unfold modulus in H. destruct (Z_lt_ge_dec n (word_count z)); auto.
  assert (2 ^ (32 * word_count z) <= 2 ^ (32 * n)) by (apply Z.pow_le_mono_r; lia). lia.
Qed.

(** Every host (little- and big-endian), every build and every integer: the bytes of |z| below 2^N, in the opposite order
    inside each 32-bit block on a big-endian host; the excess of a too large integer is dropped, but with AESI_UNSAFE the
    write after the last block is out of bounds. *)
Theorem C133_gmp_every_host : forall cfg le n z, 0 <= n ->
  (cfg_unsafe cfg = false \/ Z.abs z < modulus n -> exists r, from_mpz cfg le n z = Ok r /\ wf n r /\
     forall j m, 0 <= j < n -> 0 <= m < 4 -> byte_at (bval r) (4 * j + m) = byte_at (Z.abs z) (4 * j + (if le then m else 3 - m))) /\
  (cfg_unsafe cfg = true -> modulus n <= Z.abs z -> from_mpz cfg le n z = Err OutOfBounds).
Proof.
  intros cfg le n z Hn. unfold from_mpz. pose proof (word_count_nonneg z) as WC. pose proof (sizeinbase_pos z) as SB.
  destruct (export_any le (zeros (1 + (mpz_sizeinbase2 z - 1) / 4 * 8)) z) as (b & -> & L & Q).
  { rewrite len_zeros by dm. destruct (Z.eq_dec z 0) as [-> |Hz]; [|apply log2_words; auto]. unfold word_count. cbn [Z.eqb]. dm. }
  rewrite len_zeros in L by dm. cbn [bind].
  assert (WL : word_count z <= len b).
  { rewrite L. destruct (Z.eq_dec z 0) as [-> |Hz]; [|apply log2_words; auto]. unfold word_count. cbn [Z.eqb]. dm. }
  split.
  - intros HU.
    match goal with |- context [forU 0 _ ?B (zeros n)] => destruct (forU_spec (fun i a => wf n a /\ forall j, 0 <= j < n -> znth a j = if j <? i then word le z j else 0) 0 (word_count z) B (zeros n)) as (a & -> & W & Qa) end; auto.
    + split; [apply wf_zeros; auto|]. intros j Hj. rewrite znth_zeros. destruct (Z.ltb_spec j 0); [lia|auto].
    + intros j a Hj (W & Qa). rewrite aget_ok by lia. cbn [bind]. unfold setBlock. rewrite Q by lia.
      destruct (Z.geb_spec j n) as [G|G].
      * assert (U : cfg_unsafe cfg = false). { destruct HU as [U|U]; auto. pose proof (word_count_fits n z Hn U). lia. }
        rewrite U. cbn [negb andb]. eexists. split; [reflexivity|]. split; auto. intros i Hi. rewrite Qa by auto. destruct (Z.ltb_spec i j), (Z.ltb_spec i (j + 1)); auto; lia.
      * rewrite andb_false_r. pose proof (wf_len _ _ W). rewrite aset_ok by lia. eexists. split; [reflexivity|]. split.
        -- apply wf_upd; auto. apply word_range.
        -- intros i Hi. rewrite znth_upd by lia. destruct (Z.eqb_spec j i) as [-> |].
           ++ replace (i <? i + 1) with true by lia. auto.
           ++ rewrite Qa by auto. destruct (Z.ltb_spec i j), (Z.ltb_spec i (j + 1)); auto; lia.
    + exists a. conjs; auto. intros j m Hj Hm. rewrite (byte_at_block n) by auto. rewrite Qa by auto. destruct (Z.ltb_spec j (word_count z)) as [H|H].
      * apply word_byte; lia.
      * assert (V : Z.abs z < 2 ^ (32 * j)). { destruct (Z.eq_dec z 0) as [->|Z0]; [change (Z.abs 0) with 0; apply Z.pow_pos_nonneg; lia|]. destruct (log2_words z Z0) as (V & _). eapply Z.lt_le_trans; [exact V|]. apply Z.pow_le_mono_r; lia. }
        unfold byte_at. rewrite Z.div_0_l by (apply Z.pow_nonzero; lia). rewrite Z.div_small; [reflexivity|]. split; [lia|]. eapply Z.lt_le_trans; [exact V|].
        assert (K : j * 4 <= 4 * j + (if le then m else 3 - m)) by (destruct le; lia). revert K. generalize (4 * j + (if le then m else 3 - m)). intros k K. clear - K Hj.
        change 256 with (2 ^ 8). rewrite <- (Z.pow_mul_r 2 8 k) by lia. apply Z.pow_le_mono_r; lia.
  - intros U HB. pose proof (big_words n z Hn HB). unfold forU.
    eapply (loopU_err (wf n)) with (k := n); [lia|apply wf_zeros; auto| |].
    + intros j a Hj W. rewrite aget_ok by lia. cbn [bind]. unfold setBlock. replace (j >=? n) with false by lia. rewrite andb_false_r. pose proof (wf_len _ _ W).
      rewrite aset_ok by lia. eexists. split; [reflexivity|]. apply wf_upd; auto. rewrite Q by lia. apply word_range.
    + intros a W. rewrite aget_ok by lia. cbn [bind]. unfold setBlock. rewrite U. cbn [negb andb]. pose proof (wf_len _ _ W). apply aset_err. lia.
Qed.
Print Assumptions C133_gmp_every_host.
(** The signed number has the sign of z and that magnitude (so for a non-zero multiple of 2^N a sign and magnitude zero). *)
Theorem C133_gmp_every_host_signed : forall cfg le n z, 0 <= n -> cfg_unsafe cfg = false \/ Z.abs z < modulus n ->
  exists r, s_from_mpz cfg le n z = Ok r /\ wf n (mag r) /\ sgn r = (if z =? 0 then SZero else if z <? 0 then SNeg else SPos) /\
    forall j m, 0 <= j < n -> 0 <= m < 4 -> byte_at (bval (mag r)) (4 * j + m) = byte_at (Z.abs z) (4 * j + (if le then m else 3 - m)).
Proof.
  intros cfg le n z Hn H. unfold s_from_mpz. destruct (Z.eqb_spec z 0) as [->|Z0].
  - eexists. split; [reflexivity|]. cbn [mag sgn]. conjs; auto using wf_zeros. intros j m Hj Hm. rewrite bval_zeros. reflexivity.
  - destruct (proj1 (C133_gmp_every_host cfg le n z Hn) H) as (r & -> & W & Q). cbn [bind]. eexists. split; [reflexivity|]. cbn [mag sgn]. auto.
Qed.
Print Assumptions C133_gmp_every_host_signed.
(** 0x123456789 into 64 bits on both kinds of host, and 2^64 + 1 with and without the checks. *)
Example C133_nonvacuous : let c := mk_config false false true in let u := mk_config true false true in
  from_mpz c true 2 4886718345 = Ok [591751049; 1] /\ from_mpz c false 2 4886718345 = Ok [2305246499; 16777216] /\
  s_from_mpz c false 2 (-4886718345) = Ok (mk_aesi SNeg [2305246499; 16777216]) /\
  from_mpz c true 2 (2 ^ 64 + 1) = Ok [1; 0] /\ from_mpz u true 2 (2 ^ 64 + 1) = Err OutOfBounds.
Proof. cbv zeta. conjs; vm_compute; reflexivity. Qed.

(** ** C134.  Aesi == GMP integer, every integer, on a little-endian host with index checks. *)
Theorem C134_signed_equals_any_gmp : forall cfg n a z, 1 <= n -> swf n a -> cfg_unsafe cfg = false ->
  let m := Z.abs z mod modulus n in
  s_eq_mpz cfg true n a z = Ok (if negb (z =? 0) && (m =? 0) then false else sval a =? Z.sgn z * m).
Proof.
  intros cfg n a z Hn [W S] U m. pose proof (bval_bound n _ W) as B. unfold s_eq_mpz, s_from_mpz. destruct (Z.eqb_spec z 0) as [->|Z0]; cbn [negb andb].
  - cbn [bind]. unfold s_eq. rewrite Z.eqb_refl. unfold s_compareTo. cbn [s_isZero sign_eqb sgn mag bind]. unfold s_isZero. cbn [sgn sign_eqb bind].
    change (Z.sgn 0) with 0. rewrite Z.mul_0_l. unfold sval. destruct (sgn a) eqn:E; cbn; auto; specialize (S ltac:(discriminate)); symmetry; f_equal; apply Z.eqb_neq; lia.
  - destruct (from_mpz_spec cfg n z ltac:(lia) (or_introl U)) as (r & -> & Wr & V). cbn [bind]. fold m in V. pose proof (bval_bound n _ Wr) as Br.
    unfold s_eq. rewrite Z.eqb_refl. unfold s_compareTo, s_isZero, s_isNegative. cbn [sgn mag].
    assert (SG : Z.sgn z = if z <? 0 then -1 else 1) by (destruct (Z.ltb_spec z 0); lia). rewrite SG.
    assert (X : forall P, (if m =? 0 then false else P) = negb (m =? 0) && P) by (intros []; destruct (m =? 0); reflexivity). rewrite X. clear X.
    unfold sval. destruct (Z.ltb_spec z 0); cbn [sign_eqb]; destruct (sgn a) eqn:E; cbn [sign_eqb bind]; try specialize (S ltac:(discriminate));
      rewrite ?compareTo_same by auto; cbn [bind]; f_equal; unfold zcmp; rewrite ?V;
      repeat match goal with |- context [?p >? ?q] => destruct (Z.gtb_spec p q) | |- context [?p <? ?q] => destruct (Z.ltb_spec p q) | |- context [?p =? ?q] => destruct (Z.eqb_spec p q) end; cbn; auto; lia.
Qed.
Print Assumptions C134_signed_equals_any_gmp.
(** So the operator tells the truth exactly when ... *)
Theorem C134_signed_truth : forall cfg n a z, 1 <= n -> swf n a -> cfg_unsafe cfg = false ->
  (s_eq_mpz cfg true n a z = Ok (sval a =? z) <-> Z.abs z < modulus n \/ Z.abs z mod modulus n = 0 \/ sval a <> Z.sgn z * (Z.abs z mod modulus n)).
Proof.
  intros cfg n a z Hn Wa U. rewrite C134_signed_equals_any_gmp by auto. cbv zeta. pose proof (modulus_pos n ltac:(lia)) as MP.
  pose proof (Z.mod_pos_bound (Z.abs z) (modulus n) MP) as MB. set (m := Z.abs z mod modulus n) in *.
  destruct Wa as [W S]. pose proof (bval_bound n _ W) as B. assert (AB : Z.abs (sval a) < modulus n) by (unfold sval; destruct (sgn a); lia).
  assert (SM : Z.abs z < modulus n -> m = Z.abs z) by (intros; apply Z.mod_small; lia).
  destruct (Z_lt_ge_dec (Z.abs z) (modulus n)) as [L|L].
  - rewrite SM by auto. split; [auto|]. intros _. f_equal. destruct (Z.eqb_spec z 0) as [->|Z0]; cbn [negb andb]; [reflexivity|].
    replace (Z.abs z =? 0) with false by (symmetry; apply Z.eqb_neq; lia). f_equal. lia.
  - assert (Z0 : z <> 0) by lia. replace (z =? 0) with false by (symmetry; apply Z.eqb_neq; auto). cbn [negb andb].
    replace (sval a =? z) with false by (symmetry; apply Z.eqb_neq; lia). destruct (Z.eqb_spec m 0) as [M0|M0].
    + split; auto.
    + destruct (Z.eqb_spec (sval a) (Z.sgn z * m)) as [E|E]; split; intros H; auto; [congruence|]. destruct H as [H|[H|H] ]; [lia|congruence|congruence].
Qed.
Print Assumptions C134_signed_truth.
Theorem C134_unsigned_truth : forall cfg n a z, wf n a -> cfg_unsafe cfg = false ->
  (op_eq_mpz cfg true n a z = Ok (bval a =? z) <-> 0 <= z < modulus n \/ bval a <> Z.abs z mod modulus n).
Proof.
  intros cfg n a z W U. destruct (C74_equals_gmp_partial cfg n a z W U) as [-> _]. pose proof (bval_bound n _ W) as B.
  set (m := Z.abs z mod modulus n). split.
  - intros H. injection H as H. destruct (Z.eqb_spec (bval a) m) as [E|E]; [|auto]. left. symmetry in H. apply Z.eqb_eq in H. lia.
  - intros [H|H]; f_equal.
    + assert (m = z) as ->; [|reflexivity]. unfold m. rewrite Z.abs_eq by lia. apply Z.mod_small. lia.
    + destruct (Z.eqb_spec (bval a) m) as [E|E]; [contradiction|]. symmetry. apply Z.eqb_neq. intros Ez. apply E. unfold m. rewrite Z.abs_eq by lia. rewrite Z.mod_small by lia. exact Ez.
Qed.
Print Assumptions C134_unsigned_truth.

(** ** C135.  integralCast of every signed number to every built-in type: [icast] is the conversion of the value to the
    type (reduction modulo 2^w); the only fault is the negation of the minimum of int32_t and int64_t.  Unsigned targets
    receive the magnitude, not the value. *)
Theorem C135_signed_integral_cast : forall t n a, 2 <= n -> swf n a -> ity_ok t = true ->
  s_integralCast t a =
    (if negb (isigned t) then Ok (Z.abs (sval a) mod 2 ^ iwidth t)
     else if (32 <=? iwidth t) && (sval a <? 0) && (sval a mod 2 ^ iwidth t =? 2 ^ (iwidth t - 1)) then Err SignedOverflow
     else Ok (icast t (sval a))).
Proof.
  intros t n a Hn Wa Ht. pose proof Wa as [W S]. pose proof (bval_bound n _ W) as B. pose proof (ity_ok_width t Ht) as HW.
  assert (P : 0 < 2 ^ (iwidth t - 1)) by (apply Z.pow_pos_nonneg; lia). assert (PE : 2 ^ iwidth t = 2 * 2 ^ (iwidth t - 1)) by (rewrite <- Z.pow_succ_r by lia; f_equal; lia).
  destruct (isigned t) eqn:IS; cbn [negb].
  2:{ unfold s_integralCast. destruct (sgn a) eqn:E; unfold sval; rewrite E; rewrite ?IS.
    - change (Z.abs 0) with 0. rewrite Z.mod_0_l by lia. reflexivity.
    - rewrite (integralCast_spec t n) by auto. rewrite icast_mod64 by auto. rewrite icast_unsigned by auto. rewrite Z.abs_eq by lia. reflexivity.
    - rewrite (integralCast_spec t n) by auto. rewrite icast_mod64 by auto. rewrite icast_unsigned by auto. cbn [bind]. rewrite Z.abs_opp, Z.abs_eq by lia. reflexivity. }
  assert (MIN : ity_min t = - 2 ^ (iwidth t - 1)) by (unfold ity_min; rewrite IS; reflexivity). assert (MAX : ity_max t = 2 ^ (iwidth t - 1) - 1) by (unfold ity_max; rewrite IS; reflexivity).
  assert (U : forall x y, ity_min t <= x <= ity_max t -> ity_min t <= y <= ity_max t -> (x - y) mod 2 ^ iwidth t = 0 -> x = y).
  { intros x y Hx Hy M. apply Z.mod_divide in M; [|lia]. destruct M as [q M]. rewrite MIN, MAX in *. rewrite PE in M. clear - P M Hx Hy. assert (q = 0) by nia. subst q. lia. }
  assert (ov : sval a < 0 -> (icast t (bval (mag a)) = ity_min t <-> sval a mod 2 ^ iwidth t = 2 ^ (iwidth t - 1))).
  { intros N. assert (E : sval a = - bval (mag a)) by (unfold sval in *; destruct (sgn a); lia). rewrite E. clear E.
    pose proof (icast_congr t (bval (mag a)) Ht) as C. pose proof (icast_range t (bval (mag a)) Ht) as R. split.
    - intros E. rewrite E, MIN in C. apply Z.mod_divide in C; [|lia]. destruct C as [q C]. symmetry. apply Z.mod_unique_pos with q; [lia|]. lia.
    - intros E. apply U; [exact R|lia|]. pose proof (Z.div_mod (- bval (mag a)) (2 ^ iwidth t) ltac:(lia)) as D. rewrite E in D.
      apply Z.mod_divide in C; [|lia]. destruct C as [q C]. apply Z.mod_divide; [lia|]. exists (q - (- bval (mag a)) / 2 ^ iwidth t). nia. }
  destruct (Z.leb_spec 32 (iwidth t)) as [W32|W32]; cbn [andb]; [destruct (Z.ltb_spec (sval a) 0) as [N|N]; cbn [andb]; [destruct (Z.eqb_spec (sval a mod 2 ^ iwidth t) (2 ^ (iwidth t - 1))) as [M|M]|]|].
  - apply ov in M; [|auto]. unfold s_integralCast. unfold sval in N. destruct (sgn a) eqn:E; try lia. rewrite (integralCast_spec t n) by auto. rewrite icast_mod64 by auto. cbn [bind]. rewrite IS, M.
    unfold imul_m1, ineg. rewrite IS. replace (32 <=? iwidth t) with true by lia. rewrite Z.eqb_refl. reflexivity.
  - destruct (s_integralCast_correct t n a Hn Wa Ht IS) as (v & -> & R & C); [right; right; intros X; apply M, ov; auto|]. f_equal. apply U; [auto|apply icast_range; auto|].
    pose proof (icast_congr t (sval a) Ht) as D. apply Z.mod_divide in C; [|lia]. apply Z.mod_divide in D; [|lia]. destruct C as [q C], D as [p D]. apply Z.mod_divide; [lia|]. exists (q - p). nia.
  - destruct (s_integralCast_correct t n a Hn Wa Ht IS) as (v & -> & R & C); [auto|]. f_equal. apply U; [auto|apply icast_range; auto|].
    pose proof (icast_congr t (sval a) Ht) as D. apply Z.mod_divide in C; [|lia]. apply Z.mod_divide in D; [|lia]. destruct C as [q C], D as [p D]. apply Z.mod_divide; [lia|]. exists (q - p). nia.
  - destruct (s_integralCast_correct t n a Hn Wa Ht IS) as (v & -> & R & C); [auto|]. f_equal. apply U; [auto|apply icast_range; auto|].
    pose proof (icast_congr t (sval a) Ht) as D. apply Z.mod_divide in C; [|lia]. apply Z.mod_divide in D; [|lia]. destruct C as [q C], D as [p D]. apply Z.mod_divide; [lia|]. exists (q - p). nia.
Qed.
Print Assumptions C135_signed_integral_cast.
(** -2^31 to int32_t is the fault, to int64_t it is exact; -130 to int8_t wraps; -5 to uint8_t is 5. *)
Example C135_nonvacuous : let a := mk_aesi SNeg [2147483648; 0] in let b := mk_aesi SNeg [130; 0] in let c := mk_aesi SNeg [5; 0] in
  (swf 2 a /\ swf 2 b /\ swf 2 c) /\ s_integralCast int32 a = Err SignedOverflow /\ s_integralCast int64 a = Ok (-2147483648) /\
  s_integralCast int8 b = Ok 126 /\ s_integralCast uint8 c = Ok 5.
Proof.
  cbv zeta. split; [conjs; (split; [apply wfb_wf; vm_compute; reflexivity|intros _; vm_compute; discriminate])|conjs; vm_compute; reflexivity].
Qed.

(** ** C136.  What a zero result leaves behind.  [shows_zero_over m z]: the number z is zero, but every observer that looks
    at the magnitude reports the number m. *)
Definition shows_zero_over (cfg : config) (n m : Z) (z : aesi) : Prop :=
  sval z = 0 /\ s_isZero z = true /\ represents n (s_unsignedCast z) m /\ s_isOdd z = Ok (Z.odd m) /\ s_isEven z = Ok (Z.even m) /\
  s_bitCount n z = Ok (bit_length m) /\ s_byteCount n z = Ok ((bit_length m + 7) / 8) /\ s_filledBlocksNumber n z = Ok ((bit_length m + 31) / 32) /\
  (forall i, 0 <= i < 32 * n -> s_getBit cfg n z i = Ok (Z.testbit m i)) /\
  (forall i, 0 <= i < 4 * n -> s_getByte cfg n z i = Ok ((m / 2 ^ (8 * i)) mod 2 ^ 8)) /\
  (forall i, 0 <= i < n -> s_getBlock cfg n z i = Ok ((m / 2 ^ (32 * i)) mod 2 ^ 32)).
Lemma over cfg n a : 1 <= n -> wf n a -> shows_zero_over cfg n (bval a) (mk_aesi SZero a).
Proof.
  intros Hn W. unfold shows_zero_over, s_isZero, s_isEven, s_isOdd, s_bitCount, s_byteCount, s_filledBlocksNumber, s_unsignedCast, s_getBit, s_getByte, s_getBlock, sval.
  cbn [sgn mag sign_eqb]. rewrite (isEven_spec n), (isOdd_spec n), (bitCount_spec n), (byteCount_spec n), (filledBlocksNumber_value n) by auto.
  repeat match goal with |- _ /\ _ => split | |- represents _ _ _ => split end; auto.
  - intros i Hi. apply getBit_spec; auto.
  - intros i Hi. apply getByte_spec; auto.
  - intros i Hi. apply getBlock_spec; auto.
Qed.
(** +, - with a zero result and * by a zero keep the whole magnitude of the left operand behind the sign zero; a zero times
    a number keeps its own leftover times the magnitude of the number. *)
Theorem C136_leftover : forall cfg n a b, 1 <= n -> swf n a -> swf n b ->
  let m := bval (s_unsignedCast a) in let k := bval (s_unsignedCast b) in
  (sval a + sval b = 0 -> exists z, s_add cfg n a b = Ok z /\ shows_zero_over cfg n m z) /\
  (sval a - sval b = 0 -> exists z, s_sub cfg n a b = Ok z /\ shows_zero_over cfg n m z) /\
  (sval b = 0 -> exists z, s_mul n a b = Ok z /\ shows_zero_over cfg n m z) /\
  (sval a = 0 -> sval b <> 0 -> exists z, s_mul n a b = Ok z /\ shows_zero_over cfg n (m * k mod modulus n) z).
Proof.
  intros cfg n a b Hn [Wa Sa] [Wb Sb] m k. pose proof (bval_bound n _ Wa) as Ba. pose proof (bval_bound n _ Wb) as Bb. subst m k. unfold s_unsignedCast.
  assert (R : forall s, exists z, Ok (with_sign (mk_aesi s (mag a)) SZero) = Ok z /\ shows_zero_over cfg n (bval (mag a)) z) by (intros s; eexists; split; [reflexivity|apply over; auto]).
  destruct a as [sa ma], b as [sb mb]. unfold sval in *. cbn [sgn mag] in *.
  unfold s_add, s_add_assign, s_sub, s_sub_assign, s_mul, s_mul_assign, s_isZero, s_isNegative, s_inverse. cbn [sgn mag].
  conjs; intros H; destruct sa, sb; cbn [sign_eqb with_sign with_mag mag sgn] in *; try specialize (Sa ltac:(discriminate)); try specialize (Sb ltac:(discriminate)); try lia;
    try (eexists; split; [reflexivity|]; apply over; assumption);
    try (rewrite compareTo_same by auto; unfold zcmp; replace (bval ma >? bval mb) with false by lia; replace (bval ma <? bval mb) with false by lia; cbn [bind]; eexists; split; [reflexivity|]; apply over; assumption);
    try (intros; lia);
    (intros _; destruct (mul_assign_correct n ma mb Wa Wb) as (r & -> & Wr & V); cbn [bind]; eexists; split; [reflexivity|]; unfold with_mag; cbn [sgn]; rewrite <- V; apply over; assumption).
Qed.
Print Assumptions C136_leftover.
(** Numbers that have been through no such operation have no leftover, so the leftover is the magnitude of the operand. *)
Theorem C136_leftover_fresh : forall cfg n a b, 1 <= n -> canon n a -> canon n b -> sval a = sval b ->
  exists z, s_sub cfg n a b = Ok z /\ shows_zero_over cfg n (Z.abs (sval a)) z /\ (zero_looks_like_zero cfg n z <-> sval a = 0).
Proof.
  intros cfg n a b Hn Ca Cb E. destruct (C136_leftover cfg n a b Hn (canon_swf _ _ Ca) (canon_swf _ _ Cb)) as (_ & H & _).
  destruct (H ltac:(lia)) as (z & Ez & O). exists z. split; [exact Ez|]. destruct Ca as [W C]. pose proof (bval_bound n _ W) as B.
  assert (A : bval (s_unsignedCast a) = Z.abs (sval a)).
  { unfold sval, s_unsignedCast. destruct (sgn a); [destruct C as [C _]; rewrite C by reflexivity; reflexivity|lia|lia]. }
  rewrite A in O. split; [exact O|]. unfold shows_zero_over in O. destruct O as (O1 & O2 & (O3 & O3v) & O4 & O5 & O6 & O7 & O8 & O9 & _). unfold zero_looks_like_zero. split.
  - intros Z0. destruct (Z0 O1) as (_ & _ & _ & _ & _ & _ & V & _). lia.
  - intros V0. rewrite V0 in O3v, O4, O5, O6, O7, O8, O9. change (Z.abs 0) with 0 in *. intros _. conjs; auto. intros i Hi. rewrite O9 by auto. rewrite Z.testbit_0_l. reflexivity.
Qed.
Print Assumptions C136_leftover_fresh.
(** 5 - 5, and then (5 - 5) * 3. *)
Example C136_nonvacuous : let p := mk_aesi SPos [5; 0] in let z := mk_aesi SZero [5; 0] in
  (canon 2 p /\ swf 2 z) /\ s_sub (mk_config false false true) 2 p p = Ok z /\ s_mul 2 z (mk_aesi SNeg [3; 0]) = Ok (mk_aesi SZero [15; 0]).
Proof.
  cbv zeta. split; [|conjs; vm_compute; reflexivity]. split; (split; [apply wfb_wf; vm_compute; reflexivity|]); [cbn; split; [discriminate|lia]|intros H; elim H; reflexivity].
Qed.

(** ** C137.  32-bit numbers as text: zero and hexadecimal work, everything else reads a second block that is not there. *)
Lemma digit_loop_n1 cfg base sz buffer position a : wf 1 a -> 1 <= base < 2 ^ 32 -> position < sz -> bval a <> 0 ->
  digit_loop cfg 1 base sz buffer position a = Err OutOfBounds.
Proof.
  intros W HB HP V. unfold digit_loop, forUx. destruct (Z.to_nat (sz - position)) eqn:EL; [lia|]. cbn [loopUx].
  rewrite isZero_spec by auto. replace (bval a =? 0) with false by (symmetry; apply Z.eqb_neq; auto). cbn [bind].
  destruct (from_unsigned_correct 1 (zeros 1) base) as (d & -> & Wd & Bd); [lia|reflexivity|lia|]. cbn [bind].
  destruct (divide_spec cfg 1 a d) as (q & r & -> & Wq & Wr & _); auto; [lia|]. cbn [bind].
  unfold integralCast. assert (Lr : len r = 1) by apply (wf_len _ _ Wr). rewrite (aget_err r 1) by lia. reflexivity.
Qed.
Theorem C137_narrow_streams : forall cfg os a, wf 1 a ->
  (os_base os = 16 \/ bval a = 0 <-> exists os', stream_insert cfg 1 os a = Ok os').
Proof.
  intros cfg os a W. split.
  - intros H. unfold stream_insert. fold (os_base os). cbv zeta. rewrite isZero_spec by auto. cbn [bind]. destruct (Z.eqb_spec (bval a) 0) as [V|V]; [eauto|].
    destruct H as [B|B]; [|contradiction]. rewrite B. cbn [Z.eqb Pos.eqb]. destruct (top_block_spec 1 a W ltac:(lia)) as (L & -> & RL & _). cbn [bind].
    rewrite aget_ok by (rewrite (wf_len _ _ W); lia). cbn [bind]. assert (L = 0) by lia. subst L. eexists. reflexivity.
  - intros (os' & E). destruct (Z.eq_dec (os_base os) 16); [auto|]. destruct (Z.eq_dec (bval a) 0); [auto|]. exfalso. revert E.
    unfold stream_insert. fold (os_base os). cbv zeta. rewrite isZero_spec by auto. cbn [bind]. replace (bval a =? 0) with false by (symmetry; apply Z.eqb_neq; auto).
    replace (os_base os =? 16) with false by (symmetry; apply Z.eqb_neq; auto). rewrite digit_loop_n1; auto; [discriminate| |].
    + unfold os_base. destruct (basef os); lia.
    + change (stream_buffer_size 1) with 10. lia.
Qed.
Print Assumptions C137_narrow_streams.
Theorem C137_narrow_getString : forall cfg wide upper wfail base a buffer showBase, wf 1 a -> base = 2 \/ base = 8 \/ base = 10 -> 2 <= len buffer ->
  (bval a = 0 <-> exists r, getString cfg 1 wide upper wfail base a buffer (len buffer) showBase = Ok r).
Proof.
  intros cfg wide upper wfail base a buffer showBase W HB HL. unfold getString.
  replace (len buffer <? 2) with false by (symmetry; apply Z.ltb_ge; lia).
  assert (PRE : exists b p, (if showBase && (len buffer >? 3) then b <- set_chars buffer 0 (gs_prefix base) ;; Ok (b, len (gs_prefix base)) else Ok (buffer, 0)) = Ok (b, p) /\ 0 <= p < len buffer /\ len b = len buffer).
  { destruct (prefix_step (len buffer) showBase base buffer ltac:(lia)) as (old & rest & EB & LO & ES). change (gs_prefix base) with (prefix_text base). rewrite ES.
    eexists _, _. split; [reflexivity|]. assert (LB : len buffer = len old + len rest) by (rewrite EB at 1; apply len_app). rewrite len_app.
    pose proof (len_nonneg rest). pose proof (prefix_text_len base). pose proof (len_nonneg (shown_in (len buffer) showBase base)).
    assert (L3 : len (shown_in (len buffer) showBase base) = 0 \/ (len (shown_in (len buffer) showBase base) <= 2 /\ 3 < len buffer)).
    { unfold shown_in. destruct (showBase && (len buffer >? 3)) eqn:C; [|left; reflexivity]. apply andb_true_iff in C. destruct C as [_ C]. apply Z.gtb_lt in C. right. lia. }
    lia. }
  destruct PRE as (b & p & -> & Hp & Lb). cbn [bind]. rewrite isZero_spec by auto. destruct (Z.eqb_spec (bval a) 0) as [V|V].
  - split; auto. intros _. cbn [bind]. rewrite aset_ok by lia. eexists. reflexivity.
  - split; [contradiction|]. intros (r & E). exfalso. revert E. replace (base =? 16) with false by (symmetry; apply Z.eqb_neq; lia). cbn [bind].
    rewrite digit_loop_n1; auto; [discriminate|lia|lia].
Qed.
Print Assumptions C137_narrow_getString.
(** 255 as a 32-bit number: hexadecimal works, decimal does not. *)
Example C137_nonvacuous : wf 1 [255] /\
  stream_insert (mk_config false false true) 1 (mk_os [] BHex false false 32 0 AdjNone) [255] = Ok (mk_os [102; 102] BHex false false 32 0 AdjNone) /\
  stream_insert (mk_config false false true) 1 (mk_os [] BDec false false 32 0 AdjNone) [255] = Err OutOfBounds.
Proof. split; [apply wfb_wf; vm_compute; reflexivity|]. conjs; vm_compute; reflexivity. Qed.
