(** * PropsMach: C148, machine counters and machine shifts; C151, powm with a long exponent.

    Stated about the functions of [MachModel.v], in which every [size_t] computation is reduced modulo 2^64, every
    loop has its own wrapping counter and every [<<] or [>>] of a built-in value whose count is out of range faults.
    [bitness = 32 * n] has to be a [std::size_t]: [32 * n < 2 ^ 64].  [F] bounds the iterations of every counted loop:
    a conclusion [Ok] says in particular that no counted loop runs longer than [32 * n + 9] times. *)
From Verif Require Import Lib Spec AeuModel AeuFacts AeuArith AeuBits AeuAccess AeuDiv AeuMore ProgTotal MixFacts MachModel MachFacts PropsAeu PropsExact.
Open Scope Z_scope.

Ltac conjs := repeat match goal with |- _ /\ _ => split end.
Ltac wfc := apply wfb_wf; vm_compute; reflexivity.

(** ** The two models are the same function, on every object of the machine *)
Theorem C148_same : forall cfg F fuel n, 1 <= n -> 32 * n < 2 ^ 64 -> (Z.to_nat (32 * n) + 9 < F)%nat -> forall a b,
  w_add F n a b = add_assign n a b /\ w_sub F n a b = sub_assign n a b /\ w_neg F n a = op_neg n a /\
  w_inc F n a = op_inc n a /\ w_dec F n a = op_dec n a /\ w_mul F n a b = mul_assign n a b /\
  (forall t v, w_add_u F n t a v = add_assign_u n t a v) /\ (forall t v, w_mul_u F n t a v = mul_assign_u n t a v) /\
  (forall v, w_from_unsigned F n a v = from_unsigned n a v) /\ w_not F n b a = op_not n b a /\
  (forall op, w_bitwise op F n a b = bitwise_assign op n a b) /\
  (forall k, 0 <= k -> w_shl F n a k = shl_assign n a k /\ w_shr F n a k = shr_assign n a k) /\
  (forall i, w_getBit cfg n a i = getBit cfg n a i /\ w_getByte cfg n a i = getByte cfg n a i) /\
  (forall i v, w_setBit cfg n a i v = setBit cfg n a i v) /\ (forall i v, w_setByte cfg n a i v = setByte cfg n a i v) /\
  w_bitCount F n a = bitCount n a /\ w_byteCount F n a = byteCount n a /\ w_filled F n a = filledBlocksNumber n a /\
  w_compareTo cfg F n n a b = compareTo cfg n n a b /\ w_divide cfg F n a b = divide cfg n a b /\
  w_gcd cfg F fuel n a b = gcd cfg fuel n a b /\ w_lcm cfg F fuel n a b = lcm cfg fuel n a b /\
  w_gcd_ext cfg F fuel n a b = gcd_ext cfg fuel n a b /\ w_squareRoot cfg F fuel n a = squareRoot cfg fuel n a /\
  (forall m, w_powm cfg F n a b m = powm cfg n a b m) /\ (forall t, w_integralCast t a = integralCast t a).
Proof.
  intros cfg F fuel n H1 H2 H3 a b. assert (R : room F n) by (unfold room; auto).
  conjs; intros; conjs; auto using w_add_eq, w_sub_eq, w_neg_eq, w_inc_eq, w_dec_eq, w_mul_eq, w_add_u_eq, w_mul_u_eq, w_from_unsigned_eq, w_not_eq, w_bitwise_eq, w_shl_eq, w_shr_eq, w_getBit_eq, w_getByte_eq, w_setBit_eq, w_setByte_eq, w_bitCount_eq, w_byteCount_eq, w_filled_eq, w_compareTo_eq, w_divide_eq, w_gcd_eq, w_lcm_eq, w_gcd_ext_eq, w_squareRoot_eq, w_powm_eq, w_integralCast_eq.
Qed.
Print Assumptions C148_same.

(** ** What the user sees, at machine level *)
Theorem C148_arithmetic : forall F n a b, 1 <= n -> 32 * n < 2 ^ 64 -> (Z.to_nat (32 * n) + 9 < F)%nat -> wf n a -> wf n b ->
  yields n (w_add F n a b) ((bval a + bval b) mod modulus n) /\
  yields n (w_sub F n a b) ((bval a - bval b) mod modulus n) /\
  yields n (w_mul F n a b) ((bval a * bval b) mod modulus n) /\
  yields n (w_neg F n a) ((- bval a) mod modulus n) /\
  yields n (w_inc F n a) ((bval a + 1) mod modulus n) /\
  yields n (w_dec F n a) ((bval a - 1) mod modulus n) /\
  (forall v, 0 <= v < 2 ^ 64 -> yields n (w_from_unsigned F n (zeros n) v) (v mod modulus n)) /\
  (forall t v, 0 <= v < 2 ^ uwidth t -> uwidth t <= 32 -> yields n (w_add_u F n t a v) ((bval a + v) mod modulus n)) /\
  (forall t v, 0 <= v < 2 ^ uwidth t -> t <> ULL -> yields n (w_mul_u F n t a v) ((bval a * v) mod modulus n)).
Proof.
  intros F n a b H1 H2 H3 Wa Wb. assert (R : room F n) by (unfold room; auto).
  rewrite w_add_eq, w_sub_eq, w_mul_eq, w_neg_eq, w_inc_eq, w_dec_eq by auto.
  conjs; intros; rewrite ?w_from_unsigned_eq, ?w_add_u_eq, ?w_mul_u_eq by auto; auto using add_assign_correct, sub_assign_correct, mul_assign_correct, op_neg_correct, op_inc_correct, op_dec_correct, add_assign_u_correct, mul_assign_u_correct.
  apply from_unsigned_correct; auto; [lia|apply len_zeros; lia].
Qed.
Print Assumptions C148_arithmetic.

Theorem C148_bits : forall F n a b, 1 <= n -> 32 * n < 2 ^ 64 -> (Z.to_nat (32 * n) + 9 < F)%nat -> wf n a -> wf n b ->
  yields n (w_not F n (zeros n) a) (modulus n - 1 - bval a) /\
  yields n (w_bitwise Z.lxor F n a b) (Z.lxor (bval a) (bval b)) /\
  yields n (w_bitwise Z.land F n a b) (Z.land (bval a) (bval b)) /\
  yields n (w_bitwise Z.lor F n a b) (Z.lor (bval a) (bval b)) /\
  (forall k, 0 <= k < 2 ^ 64 ->
     yields n (w_shl F n a k) (if k <? 32 * n then (bval a * 2 ^ k) mod modulus n else bval a) /\
     yields n (w_shr F n a k) (if k <? 32 * n then bval a / 2 ^ k else bval a)).
Proof.
  intros F n a b H1 H2 H3 Wa Wb. assert (R : room F n) by (unfold room; auto).
  rewrite w_not_eq, !w_bitwise_eq by auto. conjs.
  - apply (op_not_correct n (zeros n) a (len_zeros n ltac:(lia)) Wa).
  - apply xor_correct; auto.
  - apply and_correct; auto.
  - apply or_correct; auto.
  - intros k Hk. rewrite w_shl_eq, w_shr_eq by (auto; lia). split; [apply shl_total|apply shr_total]; auto; lia.
Qed.
Print Assumptions C148_bits.

Theorem C148_observe : forall cfg F n a, 1 <= n -> 32 * n < 2 ^ 64 -> (Z.to_nat (32 * n) + 9 < F)%nat -> wf n a ->
  w_bitCount F n a = Ok (bit_length (bval a)) /\
  w_byteCount F n a = Ok ((bit_length (bval a) + 7) / 8) /\
  w_filled F n a = Ok ((bit_length (bval a) + 31) / 32) /\
  (forall i, 0 <= i < 32 * n -> w_getBit cfg n a i = Ok (Z.testbit (bval a) i)) /\
  (forall i b, 0 <= i < 32 * n -> exists r, w_setBit cfg n a i b = Ok r /\ wf n r /\
     forall k, 0 <= k -> Z.testbit (bval r) k = if k =? i then b else Z.testbit (bval a) k) /\
  (forall i, 0 <= i < 4 * n -> w_getByte cfg n a i = Ok ((bval a / 2 ^ (8 * i)) mod 2 ^ 8)) /\
  (forall i v, 0 <= i < 4 * n -> 0 <= v < 2 ^ 8 -> exists r, w_setByte cfg n a i v = Ok r /\ wf n r /\
     forall k, 0 <= k -> Z.testbit (bval r) k = if k / 8 =? i then Z.testbit v (k mod 8) else Z.testbit (bval a) k).
Proof.
  intros cfg F n a H1 H2 H3 Wa. assert (R : room F n) by (unfold room; auto).
  rewrite w_bitCount_eq, w_byteCount_eq, w_filled_eq by auto.
  destruct (C21_observers n a H1 Wa) as (A1 & A2 & A3 & _).
  conjs; auto; intros; rewrite ?w_getBit_eq, ?w_setBit_eq, ?w_getByte_eq, ?w_setByte_eq by auto.
  - apply getBit_spec; auto.
  - apply (proj1 (C18_bit_access cfg n a i b Wa ltac:(lia))); lia.
  - apply (proj1 (C19_byte_access_partial cfg n a i 0 Wa ltac:(lia) ltac:(lia))); lia.
  - apply (proj1 (C19_byte_access_partial cfg n a i v Wa ltac:(lia) ltac:(lia))); lia.
Qed.
Print Assumptions C148_observe.

(** Comparison at one width; the comparisons with built-in values; the conversions. *)
Theorem C148_compare_cast : forall cfg F n m a b, 1 <= n -> 32 * n < 2 ^ 64 -> (Z.to_nat (32 * n) + 9 < F)%nat ->
  1 <= m -> 32 * m < 2 ^ 64 -> (Z.to_nat (32 * m) + 9 < F)%nat -> wf n a -> wf n b ->
  w_compareTo cfg F n n a b = Ok (if bval a <? bval b then CLess else if bval b <? bval a then CGreater else CEqual) /\
  (forall v, 0 <= v < 2 ^ 32 ->
     w_eq_u32 F n a v = Ok (bval a =? v) /\
     w_compareTo_u32 F n a v = Ok (if bval a <? v then CLess else if v <? bval a then CGreater else CEqual)) /\
  (forall v, 2 <= n -> 0 <= v < 2 ^ 64 ->
     w_eq_u64 F n a v = Ok (bval a =? v) /\
     w_compareTo_u64 F n a v = Ok (if bval a <? v then CLess else if v <? bval a then CGreater else CEqual)) /\
  yields m (w_precisionCast cfg F n m a) (bval a mod modulus m) /\
  (forall c, w_compareTo cfg F n m a c = compareTo cfg n m a c).
Proof.
  intros cfg F n m a b H1 H2 H3 M1 M2 M3 Wa Wb. assert (R : room F n) by (unfold room; auto). assert (Rm : room F m) by (unfold room; auto).
  assert (Z3 : forall x y, zcmp x y = (if x <? y then CLess else if y <? x then CGreater else CEqual)).
  { intros x y. unfold zcmp. destruct (Z.ltb_spec x y), (Z.ltb_spec y x), (Z.gtb_spec x y); auto; lia. }
  conjs.
  - rewrite w_compareTo_eq, compareTo_same by auto. rewrite Z3. reflexivity.
  - intros v Hv. rewrite w_eq_u32_eq, w_compareTo_u32_eq, op_eq_u32_spec, compareTo_u32_spec by auto. rewrite Z3. auto.
  - intros v Hn Hv. rewrite w_eq_u64_eq, w_compareTo_u64_eq, op_eq_u64_spec, compareTo_u64_spec by auto. rewrite Z3. auto.
  - rewrite w_precisionCast_eq by auto. apply precisionCast_spec; auto. lia.
  - intros c. apply w_compareTo_eq; auto.
Qed.
Print Assumptions C148_compare_cast.

Theorem C148_number_theory : forall cfg F fuel n a b, 1 <= n -> 32 * n < 2 ^ 64 -> (Z.to_nat (32 * n) + 9 < F)%nat ->
  64 * n + 2 <= Z.of_nat fuel -> wf n a -> wf n b ->
  (bval b <> 0 -> exists q r, w_divide cfg F n a b = Ok (q, r) /\ represents n q (bval a / bval b) /\ represents n r (bval a mod bval b)) /\
  yields n (w_gcd cfg F fuel n a b) (Z.gcd (bval a) (bval b)) /\
  yields n (w_lcm cfg F fuel n a b) (Z.lcm (bval a) (bval b) mod modulus n) /\
  (exists g x y, w_gcd_ext cfg F fuel n a b = Ok (g, x, y) /\ represents n g (Z.gcd (bval a) (bval b)) /\ wf n x /\ wf n y /\
     (bval a * bval x + bval b * bval y) mod modulus n = Z.gcd (bval a) (bval b) mod modulus n) /\
  yields n (w_squareRoot cfg F fuel n a) (Z.sqrt (bval a)) /\
  (forall m, wf n m -> 1 <= bval m -> (bval m - 1) * (bval m - 1) < modulus n -> bval b <> 0 \/ bval m <> 1 ->
     yields n (w_powm cfg F n a b m) (bval a ^ bval b mod bval m)).
Proof.
  intros cfg F fuel n a b H1 H2 H3 H4 Wa Wb. assert (R : room F n) by (unfold room; auto).
  rewrite w_divide_eq, w_gcd_eq, w_lcm_eq, w_gcd_ext_eq, w_squareRoot_eq by auto. conjs.
  - intros Hb. apply divide_pos; auto.
  - apply gcd_correct; auto.
  - apply lcm_correct; auto.
  - apply egcd_correct; auto.
  - apply squareRoot_correct; auto. lia.
  - intros m Wm M1 M2 M3. rewrite w_powm_eq by auto. apply C25_powm_partial; auto.
Qed.
Print Assumptions C148_number_theory.

(** ** powm with an exponent of another width *)

(** For exponents of at most 2^32 - 32 bits the 32-bit counter makes no difference.  Missing: longer exponents, for
    which the claim is false (below). *)
Theorem C151_mixed_powm_returns_partial : forall cfg F n k base power m,
  1 <= n -> 32 * n < 2 ^ 64 -> (Z.to_nat (32 * n) + 9 < F)%nat -> 1 <= k -> 32 * k < 2 ^ 64 -> (Z.to_nat (32 * k) + 9 < F)%nat ->
  wf n base -> wf k power -> wf n m -> bit_length (bval power) <= 2 ^ 32 - 32 ->
  w_powm_x cfg F n k base power m = powm_x cfg n k base power m /\
  (1 <= bval m -> (bval m - 1) * (bval m - 1) < modulus n -> bval base <> 0 -> (bval power <> 0 /\ bval base <> 1) \/ bval m <> 1 ->
   yields n (w_powm_x cfg F n k base power m) (bval base ^ bval power mod bval m)).
Proof.
  intros cfg F n k base power m H1 H2 H3 K1 K2 K3 Wb Wp Wm HL.
  assert (E : w_powm_x cfg F n k base power m = powm_x cfg n k base power m).
  { apply w_powm_x_eq; [unfold room; auto..|]. intros f. rewrite (filledBlocksNumber_value k power Wp). intros [= <-].
    clear - HL. assert ((bit_length (bval power) + 31) / 32 <= (2 ^ 32 - 1) / 32) by (apply Z.div_le_mono; lia).
    change ((2 ^ 32 - 1) / 32) with (2 ^ 27 - 1) in H. lia. }
  split; auto. intros. rewrite E. apply C26_powm_mixed_partial; auto.
Qed.
Print Assumptions C151_mixed_powm_returns_partial.

Lemma w_for_never {S R} w cond (body : Z -> S -> outcome (step S R)) (Inv : S -> Prop) :
  0 <= w -> (forall i, 0 <= i < 2 ^ w -> cond i = Ok true) ->
  (forall i s, 0 <= i < 2 ^ w -> Inv s -> exists s', body i s = Ok (Next s') /\ Inv s') ->
  forall F i s, 0 <= i < 2 ^ w -> Inv s -> w_for F w cond body i s = Err OutOfFuel.
Proof.
  intros Hw C B. induction F as [|F IH]; intros i s Hi Is; cbn [w_for]; auto.
  rewrite C by auto. cbn [bind]. destruct (B i s Hi Is) as (s' & E & Is'). rewrite E. cbn [bind]. apply IH; auto.
  apply Z.mod_pos_bound. apply Z.pow_pos_nonneg; lia.
Qed.

(** For longer exponents, and a base other than 0 and 1, the call never returns: whatever number of iterations the
    loop is given, it wants more. *)
Theorem C151_mixed_powm_returns_refuted : forall cfg F n k base power m,
  1 <= n -> 32 * n < 2 ^ 64 -> (Z.to_nat (32 * n) + 9 < F)%nat -> 1 <= k -> 32 * k < 2 ^ 64 -> (Z.to_nat (32 * k) + 9 < F)%nat ->
  wf n base -> wf k power -> wf n m -> 2 ^ 32 - 32 < bit_length (bval power) -> bval base <> 0 -> bval base <> 1 ->
  w_powm_x cfg F n k base power m = Err OutOfFuel.
Proof.
  intros cfg F n k base power m H1 H2 H3 K1 K2 K3 Wb Wp Wm HL B0 B1.
  assert (R : room F n) by (unfold room; auto). assert (Rk : room F k) by (unfold room; auto).
  unfold w_powm_x. rewrite !w_eq_u32_eq, !op_eq_u32_spec by (auto; lia). cbn [bind].
  destruct (Z.eqb_spec (bval base) 1); [lia|]. destruct (Z.eqb_spec (bval base) 0); [lia|].
  rewrite w_from_unsigned_eq by auto. destruct (one_spec n H1) as (o & Eo & Wo & _). rewrite Eo. cbn [bind].
  rewrite w_divide_eq by auto. destruct (div_tot cfg n base m H1 Wb Wm) as (q & r & E & _ & Wr). rewrite E. cbn [bind].
  pose proof (filledBlocksNumber_value k power Wp) as FV. set (f := (bit_length (bval power) + 31) / 32) in *.
  pose proof FV as FR. apply filled_range in FR. destruct FR as [F0 F1]. specialize (F1 ltac:(lia)).
  assert (FF : 2 ^ 27 <= f) by (clear - HL; unfold f; change (2 ^ 27) with (2 ^ 32 / 32); apply Z.div_le_mono; lia).
  unfold w_powm_loop. rewrite (w_for_never 32 _ _ (fun '(x, y) => wf n x /\ wf n y)); auto; try lia.
  - intros i Hi. rewrite w_filled_eq, FV by auto. cbn [bind]. unfold blockBitLength. rewrite u64s by lia.
    destruct (Z.eqb_spec (f * 32) i); auto. lia.
  - intros i [x y] Hi [Wx Wy]. unfold w_go.
    assert (M : forall u v, wf n u -> wf n v -> exists s, w_mul F n u v = Ok s /\ wf n s).
    { intros u v Wu Wv. rewrite w_mul_eq by auto. destruct (mul_assign_correct n u v Wu Wv) as (s & Es & Ws & _). eauto. }
    assert (D : forall u, wf n u -> exists q s, w_divide cfg F n u m = Ok (q, s) /\ wf n s).
    { intros u Wu. rewrite w_divide_eq by auto. destruct (div_tot cfg n u m H1 Wu Wm) as (q' & s & Es & _ & Ws). eauto. }
    rewrite w_getBit_eq, getBit_spec by (auto; lia). cbn [bind].
    destruct (M x y Wx Wy) as (p1 & Ep1 & Wp1). destruct (D p1 Wp1) as (q1 & r1 & Er1 & Wr1).
    destruct (M y y Wy Wy) as (p2 & Ep2 & Wp2). destruct (D p2 Wp2) as (q2 & r2 & Er2 & Wr2).
    destruct (Z.testbit (bval power) i).
    + exists (r1, r2). rewrite Ep1. cbn [bind]. rewrite Er1. cbn [bind]. rewrite Ep2. cbn [bind]. rewrite Er2. cbn [bind]. auto.
    + exists (x, r2). cbn [bind]. rewrite Ep2. cbn [bind]. rewrite Er2. cbn [bind]. auto.
Qed.
Print Assumptions C151_mixed_powm_returns_refuted.

(** There are such exponents at every width of at least 2^32 bits (and only there). *)
Theorem C151_long_exponents : forall k, 1 <= k ->
  (exists power, wf k power /\ 2 ^ 32 - 32 < bit_length (bval power)) <-> 2 ^ 27 <= k.
Proof.
  intros k Hk. split.
  - intros (p & Wp & L). pose proof (bval_bound k p Wp) as B. assert (bit_length (bval p) <= 32 * k) by (apply bit_length_le; [lia|exact B]). lia.
  - intros L. exists (upd (zeros k) (Z.to_nat (k - 1)) 1).
    assert (W : wf k (upd (zeros k) (Z.to_nat (k - 1)) 1)) by (apply wf_upd; [apply wf_zeros; lia|lia]).
    split; auto. rewrite bval_upd by (rewrite len_zeros; lia). rewrite bval_zeros, znth_zeros.
    assert (bit_length (0 + 2 ^ (32 * (k - 1)) * (1 - 0)) = 32 * (k - 1) + 1).
    { rewrite Z.add_0_l, Z.sub_0_r, Z.mul_1_r. unfold bit_length. rewrite Z.log2_pow2 by lia.
      destruct (Z.eqb_spec (2 ^ (32 * (k - 1))) 0) as [E|]; [|lia]. pose proof (Z.pow_pos_nonneg 2 (32 * (k - 1)) ltac:(lia) ltac:(lia)). lia. }
    lia.
Qed.
Print Assumptions C151_long_exponents.

(** The hypotheses hold for real numbers; 74 iterations are enough for every counted loop at 64 bits. *)
Example C148_example : wf 2 [4294967295; 7] /\ wf 2 [9; 0] /\ (Z.to_nat (32 * 2) + 9 < 74)%nat /\
  w_mul 74 2 [4294967295; 7] [9; 0] = Ok [4294967287; 71] /\
  w_divide cfg0 74 2 [4294967295; 7] [9; 0] = Ok ([3817748707; 0], [4; 0]) /\
  w_shl 74 2 [4294967295; 7] 33 = Ok [0; 4294967294] /\ w_bitCount 74 2 [4294967295; 7] = Ok 35 /\
  w_powm_x cfg0 74 2 1 [3; 0] [5] [7; 0] = Ok [5; 0].
Proof. split; [wfc|]. split; [wfc|]. split; [vm_compute; repeat constructor|]. conjs; vm_compute; reflexivity. Qed.
(** A shift whose count is out of range does fault in this model. *)
Example C148_shifts_checked : w_shl32 1 32 = Err ShiftRange /\ w_shr32 1 (u64 (0 - 1)) = Err ShiftRange /\ w_shl64 1 63 = Ok (2 ^ 63).
Proof. conjs; vm_compute; reflexivity. Qed.
