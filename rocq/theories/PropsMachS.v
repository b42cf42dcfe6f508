(** * PropsMachS: C149, the signed class with machine counters and machine shifts.

    Stated about the functions of [MachSigned.v]; [F] bounds the iterations of every counted loop and
    [bitness = 32 * n] has to be a [std::size_t], as in PropsMach.v. *)
From Verif Require Import Lib Spec AesiModel AesiFacts AesiArith MachModel MachFacts MachSigned PropsAesi.
Open Scope Z_scope.

Ltac conjs := repeat match goal with |- _ /\ _ => split end.
Ltac wfc := apply wfb_wf; vm_compute; reflexivity.

Lemma w_isZero_eq F n a : room F n -> w_isZero F n a = isZero n a.
Proof. intros H. unfold w_isZero, isZero. rewrite w_filled_eq by auto. reflexivity. Qed.

(** One step of "the same calls in the same order". *)
Ltac same1 := match goal with
  | |- ?x = ?x => reflexivity
  | |- bind _ _ = bind _ _ => apply bind_ext; [|intros ? _]
  | |- w_isZero _ _ _ = _ => apply w_isZero_eq; auto
  | |- w_from_unsigned _ _ _ _ = _ => apply w_from_unsigned_eq; auto
  | |- w_dec _ _ _ = _ => apply w_dec_eq; auto
  | |- w_inc _ _ _ = _ => apply w_inc_eq; auto
  | |- w_add _ _ _ _ = _ => apply w_add_eq; auto
  | |- w_sub _ _ _ _ = _ => apply w_sub_eq; auto
  | |- w_mul _ _ _ _ = _ => apply w_mul_eq; auto
  | |- w_mul_u _ _ _ _ _ = _ => apply w_mul_u_eq; auto
  | |- w_div _ _ _ _ _ = _ => apply w_div_eq; auto
  | |- w_mod _ _ _ _ _ = _ => apply w_mod_eq; auto
  | |- w_divide _ _ _ _ _ = _ => apply w_divide_eq; auto
  | |- w_compareTo _ _ _ _ _ _ = _ => apply w_compareTo_eq; auto
  | |- w_compareTo_u64 _ _ _ _ = _ => apply w_compareTo_u64_eq; auto
  | |- w_squareRoot _ _ _ _ _ = _ => apply w_squareRoot_eq; auto
  | |- w_power2 _ _ _ = _ => apply w_power2_eq; auto
  | |- w_integralCast _ _ = _ => apply w_integralCast_eq; auto
  | |- w_setBit _ _ _ _ _ = _ => apply w_setBit_eq; auto
  | |- w_setByte _ _ _ _ _ = _ => apply w_setByte_eq; unfold room in *; lia
  | |- (match ?x with _ => _ end) = _ => destruct x
  end.
Ltac same := repeat same1.

Lemma ws_from_int_eq F n t v : room F n -> ws_from_int F n t v = s_from_int n t v.
Proof. intros H. unfold ws_from_int, s_from_int. same. Qed.
Lemma ws_inc_eq F n a : room F n -> ws_inc F n a = s_inc n a.
Proof. intros H. unfold ws_inc, s_inc. same. Qed.
Lemma ws_dec_eq F n a : room F n -> ws_dec F n a = s_dec n a.
Proof. intros H. unfold ws_dec, s_dec. same. Qed.
Lemma ws_add_eq F cfg n a b : room F n -> ws_add F cfg n a b = s_add cfg n a b.
Proof. intros H. unfold ws_add, s_add, ws_add_assign, s_add_assign, op_sub. same. Qed.
Lemma ws_sub_eq F cfg n a b : room F n -> ws_sub F cfg n a b = s_sub cfg n a b.
Proof. intros H. unfold ws_sub, s_sub, ws_sub_assign, s_sub_assign, op_sub. same. Qed.
Lemma ws_mul_int_eq F cfg n t a k : room F n -> ws_mul_int F cfg n t a k = s_mul_int cfg n t a k.
Proof. intros H. unfold ws_mul_int, s_mul_int, ws_mul_assign_int, s_mul_assign_int. same. Qed.
Lemma ws_mul_eq F n a b : room F n -> ws_mul F n a b = s_mul n a b.
Proof. intros H. unfold ws_mul, s_mul, ws_mul_assign, s_mul_assign. same. Qed.
Lemma ws_fix_zero_eq F n a : room F n -> ws_fix_zero F n a = s_fix_zero n a.
Proof. intros H. unfold ws_fix_zero, s_fix_zero. same. Qed.
Lemma ws_div_int_eq F cfg n t a k : room F n -> ws_div_int F cfg n t a k = s_div_int cfg n t a k.
Proof. intros H. unfold ws_div_int, s_div_int, ws_div_assign_int, s_div_assign_int, div_assign. same. apply ws_fix_zero_eq; auto. Qed.
Lemma ws_div_eq F cfg n a b : room F n -> ws_div F cfg n a b = s_div cfg n a b.
Proof. intros H. unfold ws_div, s_div, ws_div_assign, s_div_assign, div_assign. same. all: apply ws_fix_zero_eq; auto. Qed.
Lemma ws_mod_int_eq F cfg n t a k : room F n -> ws_mod_int F cfg n t a k = s_mod_int cfg n t a k.
Proof. intros H. unfold ws_mod_int, s_mod_int, ws_mod_assign_int, s_mod_assign_int, mod_assign. same. Qed.
Lemma ws_mod_eq F cfg n a b : room F n -> ws_mod F cfg n a b = s_mod cfg n a b.
Proof. intros H. unfold ws_mod, s_mod, ws_mod_assign, s_mod_assign, mod_assign. same. all: apply ws_fix_zero_eq; auto. Qed.
Lemma ws_compareTo_eq F cfg n a b : room F n -> ws_compareTo F cfg n a b = s_compareTo cfg n a b.
Proof. intros H. unfold ws_compareTo, s_compareTo. same. Qed.
Lemma ws_compareTo_int_eq F n a k : room F n -> ws_compareTo_int F n a k = s_compareTo_int n a k.
Proof. intros H. unfold ws_compareTo_int, s_compareTo_int. same. Qed.
Lemma ws_precisionCast_eq F cfg n m a : room F n -> room F m -> ws_precisionCast F cfg n m a = s_precisionCast cfg n m a.
Proof.
  intros H K. unfold ws_precisionCast, s_precisionCast. destruct (negb (s_isZero a)); auto.
  rewrite ws_from_int_eq by auto. apply bind_ext; auto. intros r _. cbv zeta. apply bind_ext; auto.
  apply w_forU_eq; unfold room in *; try lia; try (destruct (32 * m >? 32 * n); lia). auto.
Qed.
Lemma ws_compareTo_x_eq F cfg n m a b : room F n -> room F m -> ws_compareTo_x F cfg n m a b = s_compareTo_x cfg n m a b.
Proof. intros H K. unfold ws_compareTo_x, s_compareTo_x. destruct (n =? m); [apply ws_compareTo_eq; auto|]. rewrite ws_precisionCast_eq by auto. same. apply ws_compareTo_eq; auto. Qed.
Lemma ws_spaceship_eq F cfg n m a b : room F n -> room F m -> ws_spaceship F cfg n m a b = s_spaceship cfg n m a b.
Proof. intros H K. unfold ws_spaceship, s_spaceship. rewrite ws_compareTo_x_eq by auto. reflexivity. Qed.
Lemma ws_eq_eq F cfg n m a b : room F n -> room F m -> ws_eq F cfg n m a b = s_eq cfg n m a b.
Proof.
  intros H K. unfold ws_eq, s_eq. destruct (n =? m); [rewrite ws_compareTo_eq by auto; auto|]. rewrite ws_precisionCast_eq by auto.
  apply bind_ext; auto. intros x _. rewrite ws_compareTo_eq by auto. reflexivity.
Qed.
Lemma ws_divide_eq F cfg n a b q r : room F n -> ws_divide F cfg n a b q r = s_divide cfg n a b q r.
Proof.
  intros H. unfold ws_divide, s_divide. destruct (s_isZero a || s_isZero b); auto. apply bind_ext; [apply w_divide_eq; auto|]. intros [x y] _.
  destruct (match sgn a with SPos => _ | _ => _ end). rewrite !w_isZero_eq by auto. reflexivity.
Qed.
Lemma ws_squareRoot_eq F cfg fuel n a : room F n -> ws_squareRoot F cfg fuel n a = s_squareRoot cfg fuel n a.
Proof. intros H. unfold ws_squareRoot, s_squareRoot. same. all: apply ws_from_int_eq; auto. Qed.
Lemma ws_power2_eq F cfg n k : room F n -> ws_power2 F cfg n k = s_power2 cfg n k.
Proof. intros H. unfold ws_power2, s_power2. same. apply ws_fix_zero_eq; auto. Qed.
Lemma ws_integralCast_eq F t a : ws_integralCast F t a = s_integralCast t a.
Proof. unfold ws_integralCast, s_integralCast. same. Qed.

(** ** The two models are the same function, on every object of the machine *)
Theorem C149_same : forall cfg F fuel n m, 1 <= n -> 32 * n < 2 ^ 64 -> (Z.to_nat (32 * n) + 9 < F)%nat ->
  1 <= m -> 32 * m < 2 ^ 64 -> (Z.to_nat (32 * m) + 9 < F)%nat -> forall a b,
  ws_add F cfg n a b = s_add cfg n a b /\ ws_sub F cfg n a b = s_sub cfg n a b /\ ws_mul F n a b = s_mul n a b /\
  ws_div F cfg n a b = s_div cfg n a b /\ ws_mod F cfg n a b = s_mod cfg n a b /\
  ws_inc F n a = s_inc n a /\ ws_dec F n a = s_dec n a /\
  (forall t k, ws_from_int F n t k = s_from_int n t k /\ ws_mul_int F cfg n t a k = s_mul_int cfg n t a k /\
     ws_div_int F cfg n t a k = s_div_int cfg n t a k /\ ws_mod_int F cfg n t a k = s_mod_int cfg n t a k) /\
  (forall q r, ws_divide F cfg n a b q r = s_divide cfg n a b q r) /\
  ws_compareTo_x F cfg n m a b = s_compareTo_x cfg n m a b /\ ws_eq F cfg n m a b = s_eq cfg n m a b /\
  ws_spaceship F cfg n m a b = s_spaceship cfg n m a b /\
  (forall k, ws_compareTo_int F n a k = s_compareTo_int n a k) /\
  (forall i v, ws_setBit F cfg n a i v = s_setBit cfg n a i v) /\ (forall i v, ws_setByte F cfg n a i v = s_setByte cfg n a i v) /\
  (forall i, ws_getBit F cfg n a i = s_getBit cfg n a i /\ ws_getByte F cfg n a i = s_getByte cfg n a i) /\
  ws_byteCount F n a = s_byteCount n a /\ ws_bitCount F n a = s_bitCount n a /\ ws_filledBlocksNumber F n a = s_filledBlocksNumber n a /\
  ws_squareRoot F cfg fuel n a = s_squareRoot cfg fuel n a /\ (forall k, ws_power2 F cfg n k = s_power2 cfg n k) /\
  (forall t, ws_integralCast F t a = s_integralCast t a) /\ ws_precisionCast F cfg n m a = s_precisionCast cfg n m a.
Proof.
  intros cfg F fuel n m H1 H2 H3 M1 M2 M3 a b. assert (R : room F n) by (unfold room; auto). assert (K : room F m) by (unfold room; auto).
  conjs; intros; conjs; auto using ws_from_int_eq, ws_inc_eq, ws_dec_eq, ws_add_eq, ws_sub_eq, ws_mul_int_eq, ws_mul_eq, ws_div_int_eq, ws_div_eq, ws_mod_int_eq, ws_mod_eq, ws_compareTo_x_eq, ws_compareTo_int_eq, ws_precisionCast_eq, ws_spaceship_eq, ws_eq_eq, ws_divide_eq, ws_squareRoot_eq, ws_power2_eq, ws_integralCast_eq.
  - unfold ws_setBit, s_setBit. same.
  - unfold ws_setByte, s_setByte. same.
  - apply w_getBit_eq.
  - apply w_getByte_eq; auto.
  - apply w_byteCount_eq; auto.
  - apply w_bitCount_eq; auto.
  - apply w_filled_eq; auto.
Qed.
Print Assumptions C149_same.

(** ** What the user sees, at machine level *)
Theorem C149_arithmetic : forall cfg F n a b q0 r0, 1 <= n -> 32 * n < 2 ^ 64 -> (Z.to_nat (32 * n) + 9 < F)%nat -> swf n a -> swf n b -> swf n q0 -> swf n r0 ->
  (Z.abs (sval a + sval b) < modulus n -> syields n (ws_add F cfg n a b) (sval a + sval b)) /\
  (Z.abs (sval a - sval b) < modulus n -> syields n (ws_sub F cfg n a b) (sval a - sval b)) /\
  (Z.abs (sval a * sval b) < modulus n -> syields n (ws_mul F n a b) (sval a * sval b)) /\
  (Z.abs (sval a + 1) < modulus n -> syields n (ws_inc F n a) (sval a + 1)) /\
  (Z.abs (sval a - 1) < modulus n -> syields n (ws_dec F n a) (sval a - 1)) /\
  (sval b <> 0 ->
     syields n (ws_div F cfg n a b) (Z.quot (sval a) (sval b)) /\
     syields n (ws_mod F cfg n a b) (if 0 <? sval b then Z.rem (sval a) (sval b) else - Z.rem (sval a) (sval b)) /\
     exists q r, ws_divide F cfg n a b q0 r0 = Ok (q, r) /\ swf n q /\ swf n r /\
       sval q = Z.quot (sval a) (sval b) /\ sval r = Z.rem (sval a) (sval b)) /\
  (sval b = 0 -> syields n (ws_div F cfg n a b) 0).
Proof.
  intros cfg F n a b q0 r0 H1 H2 H3 Wa Wb Wq Wr. assert (R : room F n) by (unfold room; auto).
  rewrite ws_add_eq, ws_sub_eq, ws_mul_eq, ws_inc_eq, ws_dec_eq, ws_div_eq, ws_mod_eq, ws_divide_eq by auto.
  destruct (C43_signed_add_sub cfg n a b Wa Wb) as [A S]. destruct (C55_signed_unary n a H1 Wa) as (_ & _ & _ & _ & I & D).
  destruct (C45_signed_division cfg n a b q0 r0 H1 Wa Wb Wq Wr) as [Dv D0]. conjs.
  - intros H. apply (proj1 (A H)).
  - intros H. apply (proj1 (S H)).
  - intros H. apply (proj1 (C44_signed_mul n a b Wa Wb H)).
  - intros H. apply (proj1 (I H)).
  - intros H. apply (proj1 (D H)).
  - intros H. destruct (Dv H) as (X & _ & q & r & E & Q1 & Q2 & Q3 & Q4 & _). conjs; auto.
    + destruct (C46_signed_modulo_partial cfg n a b H1 Wa Wb H) as [P N]. destruct (Z.ltb_spec 0 (sval b)).
      * apply (proj1 (P ltac:(lia))).
      * apply (proj1 (N ltac:(lia))).
    + exists q, r. conjs; auto.
  - intros H. apply (proj1 (D0 H)).
Qed.
Print Assumptions C149_arithmetic.

Theorem C149_compare_convert : forall cfg F fuel n m a b, 1 <= n -> 32 * n < 2 ^ 64 -> (Z.to_nat (32 * n) + 9 < F)%nat ->
  1 <= m -> 32 * m < 2 ^ 64 -> (Z.to_nat (32 * m) + 9 < F)%nat -> 16 * n + 3 <= Z.of_nat fuel -> swf n a -> swf n b ->
  ws_eq F cfg n n a b = Ok (sval a =? sval b) /\
  (exists o, ws_spaceship F cfg n n a b = Ok o /\
     (o = OLess <-> sval a < sval b) /\ (o = OEqual <-> sval a = sval b) /\ (o = OGreater <-> sval a > sval b)) /\
  (forall k, 2 <= n -> - 2 ^ 63 < k < 2 ^ 64 -> ws_eq_int F n a k = Ok (sval a =? k)) /\
  (Z.abs (sval a) < modulus m -> exists r, ws_precisionCast F cfg n m a = Ok r /\ canon m r /\ sval r = sval a) /\
  (exists r, ws_squareRoot F cfg fuel n a = Ok r /\ swf n r /\
     (0 < sval a -> sval r * sval r <= sval a < (sval r + 1) * (sval r + 1)) /\ (sval a <= 0 -> sval r = 0)) /\
  (forall t v, ity_ok t = true -> in_ity t v = true -> iwidth t <= 32 \/ 2 <= n -> (isigned t = true -> 32 <= iwidth t -> v <> ity_min t) ->
     syields n (ws_from_int F n t v) v).
Proof.
  intros cfg F fuel n m a b H1 H2 H3 M1 M2 M3 HF Wa Wb. assert (R : room F n) by (unfold room; auto). assert (K : room F m) by (unfold room; auto).
  rewrite ws_eq_eq, ws_spaceship_eq, ws_precisionCast_eq, ws_squareRoot_eq by auto.
  destruct (C47_signed_comparison cfg n a b H1 Wa Wb) as (_ & Sp & E & _). conjs; auto.
  - intros k Hn Hk. unfold ws_eq_int. rewrite ws_compareTo_int_eq by auto. apply (proj1 (C49_signed_comparison_builtin n a k Hn Wa Hk)).
  - apply (proj1 (C59_signed_precision_cast_partial cfg n m a H1 M1 Wa)).
  - destruct (proj1 (C60_signed_root_power2 cfg n fuel a 0 H1 Wa HF)) as (r & Er & Wr & P & N). exists r. conjs; auto.
    + intros H. apply (proj2 (P H)).
    + intros H. apply (proj1 (N H)).
  - intros t v T1 T2 T3 T4. rewrite ws_from_int_eq by auto. apply (C52_signed_construct_partial n t v (s_default n) H1 T1 T2 T3 T4).
Qed.
Print Assumptions C149_compare_convert.

(** The relational operators, the postfix forms and the operators with a built-in operand. *)
Theorem C149_relations : forall cfg F n a b, 1 <= n -> 32 * n < 2 ^ 64 -> (Z.to_nat (32 * n) + 9 < F)%nat -> swf n a -> swf n b ->
  ws_ne F cfg n n a b = Ok (negb (sval a =? sval b)) /\
  ws_lt F cfg n n a b = Ok (sval a <? sval b) /\ ws_le F cfg n n a b = Ok (sval a <=? sval b) /\
  ws_gt F cfg n n a b = Ok (sval a >? sval b) /\ ws_ge F cfg n n a b = Ok (sval a >=? sval b) /\
  (forall k, 2 <= n -> - 2 ^ 63 < k < 2 ^ 64 -> exists o, ws_spaceship_int F n a k = Ok o /\
     (o = OLess <-> sval a < k) /\ (o = OEqual <-> sval a = k) /\ (o = OGreater <-> sval a > k)).
Proof.
  intros cfg F n a b H1 H2 H3 Wa Wb. assert (R : room F n) by (unfold room; auto).
  unfold ws_ne, ws_lt, ws_le, ws_gt, ws_ge. rewrite ws_eq_eq, ws_spaceship_eq by auto.
  destruct (C47_signed_comparison cfg n a b H1 Wa Wb) as (_ & _ & _ & N & L & Le & G & Ge).
  conjs; auto. intros k Hn Hk. unfold ws_spaceship_int. rewrite ws_compareTo_int_eq by auto.
  apply (proj2 (proj2 (C49_signed_comparison_builtin n a k Hn Wa Hk))).
Qed.
Print Assumptions C149_relations.

Theorem C149_same_derived : forall cfg F n m, 1 <= n -> 32 * n < 2 ^ 64 -> (Z.to_nat (32 * n) + 9 < F)%nat ->
  1 <= m -> 32 * m < 2 ^ 64 -> (Z.to_nat (32 * m) + 9 < F)%nat -> forall a b t k,
  ws_ne F cfg n m a b = s_ne cfg n m a b /\ ws_lt F cfg n m a b = s_lt cfg n m a b /\ ws_gt F cfg n m a b = s_gt cfg n m a b /\
  ws_le F cfg n m a b = s_le cfg n m a b /\ ws_ge F cfg n m a b = s_ge cfg n m a b /\
  ws_spaceship_int F n a k = s_spaceship_int n a k /\ ws_eq_int F n a k = s_eq_int n a k /\
  ws_post_inc F n a = s_post_inc n a /\ ws_post_dec F n a = s_post_dec n a /\ ws_assign_int F n t a k = s_assign_int n t a k /\
  ws_int_add F cfg n t k b = s_int_add cfg n t k b /\ ws_int_sub F cfg n t k b = s_int_sub cfg n t k b /\
  ws_int_mul F cfg n t k b = s_int_mul cfg n t k b /\ ws_int_div F cfg n t k b = s_int_div cfg n t k b /\
  ws_int_mod F cfg n t k b = s_int_mod cfg n t k b /\
  ws_add_int F cfg n t a k = s_add_int cfg n t a k /\ ws_sub_int F cfg n t a k = s_sub_int cfg n t a k.
Proof.
  intros cfg F n m H1 H2 H3 M1 M2 M3 a b t k. assert (R : room F n) by (unfold room; auto). assert (K : room F m) by (unfold room; auto).
  unfold ws_ne, s_ne, ws_lt, s_lt, ws_gt, s_gt, ws_le, s_le, ws_ge, s_ge, ws_spaceship_int, s_spaceship_int, ws_eq_int, s_eq_int,
    ws_post_inc, s_post_inc, ws_post_dec, s_post_dec, ws_assign_int, s_assign_int, ws_int_add, s_int_add, ws_int_sub, s_int_sub,
    ws_int_mul, s_int_mul, ws_int_div, s_int_div, ws_int_mod, s_int_mod, ws_add_int, s_add_int, ws_sub_int, s_sub_int.
  rewrite ws_eq_eq, ws_spaceship_eq, ws_compareTo_int_eq, ws_inc_eq, ws_dec_eq, ws_from_int_eq by auto.
  conjs; try reflexivity; (destruct (s_from_int n t k); cbn [bind]; [|reflexivity]);
    auto using ws_add_eq, ws_sub_eq, ws_mul_eq, ws_div_eq, ws_mod_eq.
Qed.
Print Assumptions C149_same_derived.

Example C149_example : (Z.to_nat (32 * 2) + 9 < 74)%nat /\
  ws_sub 74 cfg0 2 (mk_aesi SNeg [7; 0]) (mk_aesi SPos [4294967295; 1]) = Ok (mk_aesi SNeg [6; 2]) /\
  ws_mod 74 cfg0 2 (mk_aesi SNeg [7; 0]) (mk_aesi SPos [5; 0]) = Ok (mk_aesi SNeg [2; 0]) /\
  ws_precisionCast 74 cfg0 2 1 (mk_aesi SNeg [7; 0]) = Ok (mk_aesi SNeg [7]).
Proof. split; [vm_compute; repeat constructor|]. conjs; vm_compute; reflexivity. Qed.
