(** * PropsEdge: C117 (signed division and modulo by zero), C118 (built-in operands of signed * / %, every value). *)
From Coq Require Import ZifyBool.
From Verif Require Import Spec Lib AeuModel AeuArith AeuAccess AeuDiv AeuFacts AesiModel AesiArith AesiFacts PropsAesi PropsExact.
Open Scope Z_scope.

(** ** C117 *)
Theorem C117_by_zero_partial : forall cfg n t a b q0 r0, 1 <= n -> swf n a -> swf n b -> swf n q0 -> swf n r0 -> sval b = 0 ->
  (exists r, s_div cfg n a b = Ok r /\ swf n r /\ sval r = 0 /\ s_isZero r = true) /\
  (exists r, s_div_int cfg n t a 0 = Ok r /\ swf n r /\ sval r = 0 /\ s_isZero r = true) /\
  (exists r, s_mod_int cfg n t a 0 = Ok r /\ swf n r /\ sval r = 0 /\ s_isZero r = true) /\
  (exists q r, s_divide cfg n a b q0 r0 = Ok (q, r) /\ swf n q /\ swf n r /\ sval q = 0 /\ sval r = 0 /\ s_isZero q = true /\ s_isZero r = true) /\
  s_mod cfg n a b = Ok a.
Proof.
  intros cfg n t a b q0 r0 Hn Wa Wb Wq Wr B0.
  assert (Zb : s_isZero b = true).
  { destruct Wb as [Wb Nb]. pose proof (bval_bound n _ Wb). unfold s_isZero, sval in *. destruct (sgn b); auto; exfalso; apply Nb; try congruence; lia. }
  assert (Z0 : forall x, swf n x -> swf n (with_sign x SZero) /\ sval (with_sign x SZero) = 0 /\ s_isZero (with_sign x SZero) = true).
  { intros x [Wx _]. conjs; try reflexivity. split; [exact Wx|]. intros N. exfalso. apply N. reflexivity. }
  destruct (Z0 a Wa) as (A1 & A2 & A3). conjs.
  - exists (with_sign a SZero). unfold s_div, s_div_assign. rewrite Zb. auto.
  - exists (with_sign a SZero). auto.
  - exists (with_sign a SZero). auto.
  - destruct (Z0 q0 Wq) as (Q1 & Q2 & Q3). destruct (Z0 r0 Wr) as (R1 & R2 & R3). exists (with_sign q0 SZero), (with_sign r0 SZero).
    unfold s_divide. rewrite Zb, Bool.orb_true_r. conjs; auto.
  - unfold s_mod, s_mod_assign. rewrite Zb. reflexivity.
Qed.
Print Assumptions C117_by_zero_partial.
(** Aesi.h l.547, 582: "Returns zero for the modulo of zero". *)
Theorem C117_by_zero_refuted : forall cfg n a b, 1 <= n -> swf n a -> swf n b -> sval b = 0 -> sval a <> 0 ->
  exists r, s_mod cfg n a b = Ok r /\ sval r <> 0.
Proof.
  intros cfg n a b Hn Wa Wb B0 A0. exists a. split; [|exact A0].
  destruct (C117_by_zero_partial cfg n int32 a b a a Hn Wa Wb Wa Wa B0) as (_ & _ & _ & _ & E). exact E.
Qed.
Print Assumptions C117_by_zero_refuted.
Example C117_example : swf 2 (sn [7; 1]) /\ swf 2 sz /\ sval sz = 0 /\ sval (sn [7; 1]) <> 0 /\
  s_mod cfg0 2 (sn [7; 1]) sz = Ok (sn [7; 1]) /\ s_mod_int cfg0 2 int32 (sn [7; 1]) 0 = Ok (mk_aesi SZero [7; 1]).
Proof. split; [swfc|]. split; [swfc|]. conjs; vm_compute; congruence. Qed.

(** ** C118.  The value a built-in operand of type [t] has in *=, /= and %=: itself, except that negating the minimum
    of a type narrower than int does not change it, so it becomes 2^64 + k with the sign of the number inverted. *)
Definition eff_operand (t : ity) (k : Z) : Z := if isigned t && (k =? ity_min t) && (iwidth t <? 32) then - (2 ^ 64 + k) else k.
(** The exception: the negation overflows. *)
Definition neg_overflows (t : ity) (k : Z) : Prop := isigned t = true /\ 32 <= iwidth t /\ k = ity_min t.

Lemma eff_bound t k : ity_ok t = true -> in_ity t k = true -> k <> 0 -> 0 < Z.abs (eff_operand t k) < 2 ^ 64 /\ Z.sgn (eff_operand t k) = Z.sgn k.
Proof.
  intros Ht Hk K0. destruct (ity_bound t k Ht Hk) as [B _]. pose proof (pow_le64 t Ht). pose proof (in_ity_range t k Hk) as R. unfold eff_operand.
  destruct (isigned t) eqn:S; cbn [andb]; [|lia]. destruct (Z.eqb_spec k (ity_min t)) as [E|E]; cbn [andb]; [|lia].
  destruct (Z.ltb_spec (iwidth t) 32); [|lia]. unfold ity_min in E. rewrite S in E.
  assert (0 < 2 ^ (iwidth t - 1)) by (apply Z.pow_pos_nonneg; apply ity_ok_width in Ht; lia). lia.
Qed.
Lemma eff_low t k : ity_ok t = true -> in_ity t k = true -> k <> 0 -> iwidth t <= 32 -> Z.abs (eff_operand t k) mod 2 ^ 32 <> 0.
Proof.
  intros Ht Hk K0 W32. pose proof (in_ity_range t k Hk) as R. apply ity_ok_width in Ht. unfold eff_operand, ity_min, ity_max in *. clear Hk.
  destruct (isigned t) eqn:S; cbn [andb].
  - destruct (Z.eqb_spec k (- 2 ^ (iwidth t - 1))) as [E|E]; cbn [andb].
    + destruct (Z.ltb_spec (iwidth t) 32) as [L|L].
      * destruct Ht as [W|[W|[W|W]]]; try lia; rewrite E, W; vm_compute; discriminate.
      * rewrite E. replace (iwidth t) with 32 by lia. vm_compute. discriminate.
    + rewrite Z.mod_small; [lia|]. destruct Ht as [W|[W|[W|W]]]; try lia; rewrite W in R; clear - R; cbn in R; lia.
  - rewrite Z.mod_small; [lia|]. destruct Ht as [W|[W|[W|W]]]; try lia; rewrite W in R; clear - R; cbn in R; lia.
Qed.
Lemma strip_any t x k : ity_ok t = true -> in_ity t k = true -> k <> 0 -> ~ neg_overflows t k ->
  exists k', s_strip_sign t x k = Ok (flip k x, k') /\ u64 k' = Z.abs (eff_operand t k).
Proof.
  intros Ht Hk K0 NO. destruct (eff_bound t k Ht Hk K0) as [EB _].
  destruct (isigned t) eqn:S.
  - destruct (Z.eq_dec k (ity_min t)) as [E|E].
    + assert (W32 : iwidth t < 32) by (destruct (Z_lt_le_dec (iwidth t) 32); auto; exfalso; apply NO; repeat split; auto).
      exists k. unfold eff_operand in *. rewrite S, E, Z.eqb_refl in *. replace (iwidth t <? 32) with true in * by lia. cbn [andb] in *.
      assert (M : ity_min t = - 2 ^ (iwidth t - 1)) by (unfold ity_min; rewrite S; reflexivity).
      apply ity_ok_width in Ht. unfold s_strip_sign, flip.
      destruct Ht as [W|[W|[W|W]]]; try lia; unfold ineg, icast; rewrite S, M, W; split; reflexivity.
    + destruct (strip_ok t x k Ht Hk) as [E1 B]; [intros _; exact E|]. exists (Z.abs k). split; [exact E1|].
      unfold eff_operand. rewrite S. replace (k =? ity_min t) with false by lia. cbn [andb]. pose proof (pow_le64 t Ht). apply u64_small. lia.
  - destruct (strip_ok t x k Ht Hk) as [E1 B]; [intros C; congruence|]. exists (Z.abs k). split; [exact E1|].
    unfold eff_operand. rewrite S. cbn [andb]. pose proof (pow_le64 t Ht). apply u64_small. lia.
Qed.

Theorem C118_undefined : forall cfg n t a k, neg_overflows t k ->
  s_mul_int cfg n t a k = Err SignedOverflow /\ s_div_int cfg n t a k = Err SignedOverflow /\ s_mod_int cfg n t a k = Err SignedOverflow.
Proof.
  intros cfg n t a k (S & W & E). assert (N : k < 0).
  { rewrite E. unfold ity_min. rewrite S. assert (0 < 2 ^ (iwidth t - 1)) by (apply Z.pow_pos_nonneg; lia). lia. }
  assert (X : s_strip_sign t a k = Err SignedOverflow).
  { unfold s_strip_sign, ineg. replace (k <? 0) with true by lia. rewrite S. replace (32 <=? iwidth t) with true by lia. rewrite E, Z.eqb_refl. reflexivity. }
  unfold s_mul_int, s_div_int, s_mod_int, s_mul_assign_int, s_div_assign_int, s_mod_assign_int. replace (k =? 0) with false by lia. rewrite X. auto.
Qed.
Print Assumptions C118_undefined.

(** Multiplication where unsigned long long is uint64_t, and in general the exact condition. *)
Theorem C118_multiplication : forall cfg n t a k, 1 <= n -> swf n a -> ity_ok t = true -> in_ity t k = true -> k <> 0 -> ~ neg_overflows t k ->
  let E := eff_operand t k in
  exists r, s_mul_int cfg n t a k = Ok r /\ wf n (mag r) /\ ssgn r = ssgn a * Z.sgn k /\
    (cfg_ull_distinct cfg = false -> bval (mag r) = bval (mag a) * Z.abs E mod modulus n) /\
    (cfg_ull_distinct cfg = true ->
       (bval (mag r) = bval (mag a) * Z.abs E mod modulus n <->
        forall i, 0 <= i < n - 2 -> bval (mag a) mod 2 ^ (32 * (i + 1)) * Z.abs E < 2 ^ (32 * (i + 2)))).
Proof.
  intros cfg n t a k Hn [Wa Na] Ht Hk K0 NO E. destruct (eff_bound t k Ht Hk K0) as [EB _]. fold E in EB.
  destruct (strip_any t a k Ht Hk K0 NO) as (k' & ES & EU). fold E in EU. unfold s_mul_int, s_mul_assign_int. replace (k =? 0) with false by lia. rewrite ES. cbn [bind].
  rewrite EU, flip_mag. unfold ull_ty. destruct (cfg_ull_distinct cfg).
  - destruct (C102_mul_ull_iff n (mag a) (Z.abs E) Wa ltac:(lia)) as [(r & Er & Wr) I]. rewrite Er in *. cbn [bind]. exists (with_mag (flip k a) r).
    conjs; [reflexivity|exact Wr|rewrite <- flip_ssgn by auto; reflexivity|discriminate|]. intros _. cbn [with_mag mag]. rewrite <- I. split.
    + intros V. exists r. split; [reflexivity|]. split; auto.
    + intros (r' & [= <-] & _ & V). exact V.
  - destruct (mul_assign_u64_correct n (mag a) (Z.abs E) Wa ltac:(lia)) as (r & Er & Wr & Vr). rewrite Er. cbn [bind]. exists (with_mag (flip k a) r).
    conjs; [reflexivity|exact Wr|rewrite <- flip_ssgn by auto; reflexivity|intros _; exact Vr|discriminate].
Qed.
Print Assumptions C118_multiplication.

(** Division and modulo: the operand is reduced to the width of the number first. *)
Theorem C118_division_modulo : forall cfg n t a k, 1 <= n -> swf n a -> ity_ok t = true -> in_ity t k = true -> k <> 0 -> ~ neg_overflows t k ->
  let D := Z.abs (eff_operand t k) mod modulus n in
  (D <> 0 -> syields n (s_div_int cfg n t a k) (Z.quot (sval a) (Z.sgn k * D))) /\
  (exists r, s_mod_int cfg n t a k = Ok r /\ wf n (mag r) /\ ssgn r = ssgn a * Z.sgn k /\
     bval (mag r) = (if D =? 0 then bval (mag a) else bval (mag a) mod D)) /\
  (D = 0 -> n = 1 /\ 33 <= iwidth t /\
     exists r, s_div_int cfg n t a k = Ok r /\ swf n r /\ sval r = ssgn a * Z.sgn k * (if bval (mag a) =? 0 then 1 else 2 ^ 32 - 1)).
Proof.
  intros cfg n t a k Hn [Wa Na] Ht Hk K0 NO D. destruct (eff_bound t k Ht Hk K0) as [EB ESg].
  destruct (strip_any t a k Ht Hk K0 NO) as (k' & ES & EU). pose proof (modulus_pos n ltac:(lia)) as PM. pose proof (bval_bound n _ Wa) as Ba.
  unfold s_div_int, s_mod_int, s_div_assign_int, s_mod_assign_int. replace (k =? 0) with false by lia. rewrite ES. cbn [bind]. rewrite EU.
  destruct (from_unsigned_correct n (zeros n) (Z.abs (eff_operand t k)) ltac:(lia) (len_zeros n ltac:(lia)) ltac:(lia)) as (d & Ed & Wd & Vd). fold D in Vd. rewrite Ed. cbn [bind].
  rewrite !flip_mag. assert (BD : 0 <= D) by (apply Z.mod_pos_bound; lia).
  destruct (divide_spec cfg n (mag a) d Hn Wa Wd) as (q & r & Eq & Wq & Wr & EV & RB & R0). rewrite Vd in *.
  unfold div_assign, mod_assign, op_div, op_mod. rewrite Eq. cbn [bind]. pose proof (bval_bound n _ Wr) as Br.
  conjs.
  - intros D0. specialize (RB D0).
    assert (Q : bval q = bval (mag a) / D) by (apply (Z.div_unique_pos _ D (bval q) (bval r)); lia).
    destruct (s_fix_zero_spec n (with_mag (flip k a) q) Wq) as (x & Ex & Sx & Vx & _). exists x. rewrite Ex. split; auto. split; auto.
    rewrite Vx. unfold with_mag. rewrite sval_with. fold (ssgn (flip k a)). rewrite flip_ssgn by auto. rewrite sval_ssgn.
    destruct (quot_signs (ssgn a) (Z.sgn k) (bval (mag a)) D (ssgn3 a) ltac:(lia) ltac:(lia) ltac:(lia)) as [-> _]. rewrite Q. lia.
  - exists (with_mag (flip k a) r). conjs; [reflexivity|exact Wr|rewrite <- flip_ssgn by auto; reflexivity|]. cbn [with_mag mag].
    destruct (Z.eqb_spec D 0) as [E|E]; [apply R0; exact E|]. apply (Z.mod_unique_pos _ D (bval q) (bval r)); [specialize (RB E); lia|lia].
  - intros D0. destruct (R0 D0) as [_ VQ].
    assert (N1 : n = 1).
    { destruct (Z.eq_dec n 1); auto. exfalso. assert (modulus n >= 2 ^ 64) by (apply Z.le_ge; unfold modulus; apply Z.pow_le_mono_r; lia).
      unfold D in D0. rewrite Z.mod_small in D0 by lia. lia. }
    split; [exact N1|]. split.
    { destruct (Z_le_gt_dec 33 (iwidth t)); auto. exfalso. assert (W32 : iwidth t <= 32) by lia. unfold D in D0. rewrite N1 in D0.
      change (modulus 1) with (2 ^ 32) in D0. exact (eff_low t k Ht Hk K0 W32 D0). }
    destruct (s_fix_zero_spec n (with_mag (flip k a) q) Wq) as (x & Ex & Sx & Vx & _). exists x. rewrite Ex. conjs; auto.
    rewrite Vx. unfold with_mag. rewrite sval_with. fold (ssgn (flip k a)). rewrite flip_ssgn by auto. f_equal.
    rewrite VQ. destruct (Z.eqb_spec (bval (mag a)) 0) as [|A0]; [reflexivity|]. rewrite N1 in Ba. change (modulus 1) with (2 ^ 32) in Ba.
    destruct (bit_length_bounds (bval (mag a)) ltac:(lia)) as (C1 & C2 & C3).
    assert (bit_length (bval (mag a)) <= 32).
    { destruct (Z_le_gt_dec (bit_length (bval (mag a))) 32) as [|G]; auto. exfalso. assert (2 ^ 32 <= 2 ^ (bit_length (bval (mag a)) - 1)) by (apply Z.pow_le_mono_r; lia). lia. }
    assert (1 <= bit_length (bval (mag a))).
    { destruct (Z_le_gt_dec 1 (bit_length (bval (mag a)))) as [|G]; auto. exfalso. assert (E0 : bit_length (bval (mag a)) = 0) by lia. rewrite E0 in *. cbn in *. lia. }
    replace ((bit_length (bval (mag a)) + 31) / 32) with 1; [reflexivity|]. apply (Z.div_unique_pos _ 32 1 (bit_length (bval (mag a)) - 1)); lia.
Qed.
Print Assumptions C118_division_modulo.
(** So, when the product fits, the result is right exactly if no partial product overflows. *)
Theorem C118_multiplication_right_iff : forall cfg n t a k, 1 <= n -> swf n a -> ity_ok t = true -> in_ity t k = true ->
  (isigned t = true -> k <> ity_min t) -> Z.abs (sval a * k) < modulus n ->
  (syields n (s_mul_int cfg n t a k) (sval a * k) <->
   (cfg_ull_distinct cfg = true -> sval a <> 0 -> k <> 0 ->
      forall i, 0 <= i < n - 2 -> Z.abs (sval a) mod 2 ^ (32 * (i + 1)) * Z.abs k < 2 ^ (32 * (i + 2)))).
Proof.
  intros cfg n t a k Hn Wa Ht Hk Hm HF.
  assert (EF : eff_operand t k = k).
  { unfold eff_operand. destruct (isigned t); cbn [andb]; auto. specialize (Hm eq_refl). replace (k =? ity_min t) with false by lia. reflexivity. }
  destruct (Z.eq_dec k 0) as [->|K0].
  { split; [intros _ _ _ C; exfalso; apply C; reflexivity|]. intros _. rewrite Z.mul_0_r. exists (with_sign a SZero). split; [reflexivity|]. split; [split; [apply Wa|intros N; exfalso; apply N; reflexivity]|reflexivity]. }
  assert (NO : ~ neg_overflows t k) by (intros (S & _ & E); exact (Hm S E)).
  destruct (C118_multiplication cfg n t a k Hn Wa Ht Hk K0 NO) as (r & Er & Wr & Sr & Vf & Vt). rewrite EF in *.
  pose proof (bval_bound n _ (proj1 Wa)) as Ba. pose proof (bval_bound n _ Wr) as Br.
  destruct (Z.eq_dec (sval a) 0) as [A0|A0].
  { split; [intros _ _ C; lia|]. intros _. rewrite A0, Z.mul_0_l. exists r. assert (SA : ssgn a = 0).
    { rewrite sval_ssgn in A0. destruct Wa as [_ Na]. clear - A0 Na. unfold ssgn in *. destruct (sgn a); auto; exfalso; apply Na; try congruence; lia. }
    rewrite SA in Sr. assert (GZ : sgn r = SZero) by (clear - Sr; unfold ssgn in Sr; destruct (sgn r); try reflexivity; lia). split; [exact Er|]. split; [split; [exact Wr|congruence]|]. rewrite sval_ssgn, Sr. lia. }
  assert (SA : Z.abs (sval a) = bval (mag a) /\ sval a = ssgn a * bval (mag a) /\ (ssgn a = 1 \/ ssgn a = -1)).
  { rewrite sval_ssgn in *. destruct (ssgn3 a) as [S|[S|S]]; rewrite S in *; lia. }
  destruct SA as (AB & AV & SA). rewrite Z.abs_mul, AB in HF. assert (PN : 0 <= bval (mag a) * Z.abs k) by (apply Z.mul_nonneg_nonneg; lia).
  rewrite (Z.mod_small (bval (mag a) * Z.abs k)) in Vf, Vt by lia. rewrite AB.
  assert (K : syields n (s_mul_int cfg n t a k) (sval a * k) <-> bval (mag r) = bval (mag a) * Z.abs k).
  { split.
    - intros (r' & E' & _ & V'). rewrite Er in E'. injection E' as <-. rewrite (sval_ssgn r), Sr in V'.
      assert (X : Z.abs (ssgn a * Z.sgn k * bval (mag r)) = Z.abs (sval a * k)) by (f_equal; exact V'). rewrite !Z.abs_mul, AB in X. replace (Z.abs (ssgn a)) with 1 in X by lia.
      replace (Z.abs (Z.sgn k)) with 1 in X by lia. lia.
    - intros V. exists r. split; [exact Er|]. split.
      + split; [exact Wr|]. intros _. rewrite V. apply Z.neq_mul_0. lia.
      + rewrite sval_ssgn, Sr, V, AV. transitivity (ssgn a * bval (mag a) * (Z.abs k * Z.sgn k)); [ring|]. rewrite Z.abs_sgn. reflexivity. }
  rewrite K. destruct (cfg_ull_distinct cfg).
  - rewrite (Vt eq_refl). split; [intros H _ _ _; exact H|intros H; apply H; auto].
  - split; [discriminate|intros _; apply Vf; reflexivity].
Qed.
Print Assumptions C118_multiplication_right_iff.
(** -128 of int8_t acts as -(2^64 - 128); int64_t 2^32 as the divisor of a 32-bit number is zero; the witness of C53. *)
Example C118_example :
  ~ neg_overflows int8 (-128) /\ eff_operand int8 (-128) = - (2 ^ 64 - 128) /\ neg_overflows int32 (- 2 ^ 31) /\
  s_mul_int cfg2 2 int8 (sp [1; 0]) (-128) = Ok (sn [4294967168; 4294967295]) /\
  s_div_int cfg2 1 int64 (sp [5]) (2 ^ 32) = Ok (sp [4294967295]) /\ s_mod_int cfg2 1 int64 (sp [5]) (2 ^ 32) = Ok (sp [5]) /\
  4294967295 * 1099511627777 >= 2 ^ 64.
Proof.
  split; [intros (_ & H & _); cbn in H; lia|]. split; [vm_compute; reflexivity|]. split; [split; [reflexivity|split; [cbn; lia|reflexivity]]|].
  conjs; vm_compute; try reflexivity; discriminate.
Qed.
