(** * PropsMore: sharper statements of C10, C17, C23 and C48, and the algebraic laws C84.

    Stated about the functions of [AeuModel.v] and [AesiModel.v] with the vocabulary of [Spec.v]. *)
From Verif Require Import MixFacts.
Open Scope Z_scope.

Ltac conjs := repeat match goal with |- _ /\ _ => split end.
Ltac wfc := apply wfb_wf; vm_compute; reflexivity.
Definition exA : list Z := [4294967295; 0; 1].
Definition exB : list Z := [0; 4294967294; 4294967295].
Example exA_wf : wf 3 exA. Proof. wfc. Qed.
Example exB_wf : wf 3 exB. Proof. wfc. Qed.
Definition sp (l : list Z) := mk_aesi SPos l.
Definition sn (l : list Z) := mk_aesi SNeg l.
Ltac canonc := split; [wfc|cbn; split; [discriminate || reflexivity|intros; discriminate || reflexivity]].
Ltac swfc := apply canon_swf; canonc.
Definition cfg0 := mk_config false false true.   (* checks on, asserts on, LP64 *)

(** ** C10: the exact quotient and remainder of a division by zero: the remainder is the number itself, the
    quotient has all bits of the number's used 32-bit blocks set (and is 1 for 0 / 0). *)
Theorem C10_division_by_zero_exact : forall cfg n num d, 1 <= n -> wf n num -> wf n d -> bval d = 0 ->
  let q := if bval num =? 0 then 1 else 2 ^ (32 * ((bit_length (bval num) + 31) / 32)) - 1 in
  yields n (op_div cfg n num d) q /\ yields n (div_assign cfg n num d) q /\
  yields n (op_mod cfg n num d) (bval num) /\ yields n (mod_assign cfg n num d) (bval num) /\
  exists q' r', divide cfg n num d = Ok (q', r') /\ represents n q' q /\ represents n r' (bval num).
Proof.
  intros cfg n num d Hn WN WD Hd q. destruct (divide_spec cfg n num d Hn WN WD) as (q0 & r0 & E & Wq & Wr & EQ & _ & H0).
  destruct (H0 Hd) as [Vr Vq]. fold q in Vq. unfold div_assign, mod_assign, op_div, op_mod. rewrite E. cbn [bind].
  assert (Rq : represents n q0 q) by (split; auto). assert (Rr : represents n r0 (bval num)) by (split; auto).
  split; [exists q0; auto|]. split; [exists q0; auto|]. split; [exists r0; auto|]. split; [exists r0; auto|]. exists q0, r0. auto.
Qed.
Print Assumptions C10_division_by_zero_exact.
Example C10_exact_example : wf 3 [5; 6; 0] /\ wf 3 (zeros 3) /\ bval (zeros 3) = 0 /\
  op_div cfg0 3 [5; 6; 0] (zeros 3) = Ok [4294967295; 4294967295; 0] /\ op_mod cfg0 3 [5; 6; 0] (zeros 3) = Ok [5; 6; 0] /\ op_div cfg0 3 (zeros 3) (zeros 3) = Ok [1; 0; 0].
Proof. split; [wfc|]. split; [wfc|]. conjs; vm_compute; reflexivity. Qed.

(** ** C17: what the ordering across precisions really is, for all operands: the values modulo 2^(32 * common
    blocks) are compared first, and only if these are equal the values. *)
Definition ordered_below (n m x y : Z) : bool :=
  let M := 2 ^ (32 * Z.min n m) in if x mod M =? y mod M then x <? y else x mod M <? y mod M.
Theorem C17_ordering_across_precisions_exact : forall cfg n m a b, wf n a -> wf m b ->
  op_lt cfg n m a b = Ok (ordered_below n m (bval a) (bval b)) /\
  op_ge cfg n m a b = Ok (negb (ordered_below n m (bval a) (bval b))) /\
  op_gt cfg n m a b = Ok (ordered_below n m (bval b) (bval a)) /\
  op_le cfg n m a b = Ok (negb (ordered_below n m (bval b) (bval a))).
Proof. intros cfg n m a b Wa Wb. destruct (cross_order_exact cfg n m a b Wa Wb) as (L & LE & G & GE). auto. Qed.
Print Assumptions C17_ordering_across_precisions_exact.
(** Hence exactly when [<] is right. *)
Theorem C17_less_right_iff : forall cfg n m a b, wf n a -> wf m b ->
  let M := 2 ^ (32 * Z.min n m) in
  op_lt cfg n m a b = Ok (bval a <? bval b) <->
  (bval a mod M = bval b mod M \/ (bval a mod M < bval b mod M <-> bval a < bval b)).
Proof.
  intros cfg n m a b Wa Wb M. destruct (C17_ordering_across_precisions_exact cfg n m a b Wa Wb) as (-> & _). unfold ordered_below. fold M.
  destruct (Z.eqb_spec (bval a mod M) (bval b mod M)) as [E|N]; [split; auto|].
  destruct (Z.ltb_spec (bval a mod M) (bval b mod M)), (Z.ltb_spec (bval a) (bval b)); split; intros X; try reflexivity; try discriminate; try (right; lia); destruct X; lia.
Qed.
Print Assumptions C17_less_right_iff.
Example C17_exact_example : wf 2 [5; 0] /\ wf 4 [3; 0; 1; 0] /\ op_lt cfg0 2 4 [5; 0] [3; 0; 1; 0] = Ok false /\ op_lt cfg0 2 4 [3; 0] [3; 0; 1; 0] = Ok true /\
  ordered_below 2 4 (bval [5; 0]) (bval [3; 0; 1; 0]) = false.
Proof. split; [wfc|]. split; [wfc|]. conjs; vm_compute; reflexivity. Qed.

(** ** C23: the Bezout coefficients are integers [X], [Y] stored modulo 2^N with a*X + b*Y = gcd(a, b) exactly, and
    they are small: |X| <= b / gcd and |Y| <= a / gcd when neither operand is zero. *)
Theorem C23_bezout_exact : forall cfg n fuel a b, 1 <= n -> wf n a -> wf n b -> 64 * n + 2 <= Z.of_nat fuel ->
  exists g x y X Y, gcd_ext cfg fuel n a b = Ok (g, x, y) /\ represents n g (Z.gcd (bval a) (bval b)) /\
    represents n x (X mod modulus n) /\ represents n y (Y mod modulus n) /\
    bval a * X + bval b * Y = Z.gcd (bval a) (bval b) /\
    (bval a <> 0 -> bval b <> 0 ->
       Z.abs X * Z.gcd (bval a) (bval b) <= bval b /\ Z.abs Y * Z.gcd (bval a) (bval b) <= bval a).
Proof. exact egcd_exact. Qed.
Print Assumptions C23_bezout_exact.
(** The use made of it: for coprime a and m > 0 the first coefficient, reduced modulo m as a signed number, is the
    inverse of a modulo m. *)
Theorem C23_modular_inverse : forall cfg n fuel a m, 1 <= n -> wf n a -> wf n m -> 64 * n + 2 <= Z.of_nat fuel ->
  1 < bval m -> Z.gcd (bval a) (bval m) = 1 ->
  exists g x y X, gcd_ext cfg fuel n a m = Ok (g, x, y) /\ bval g = 1 /\ represents n x (X mod modulus n) /\
    Z.abs X <= bval m /\ (bval a * X) mod bval m = 1.
Proof.
  intros cfg n fuel a m Hn Wa Wm Hf Hm G. destruct (egcd_exact cfg n fuel a m Hn Wa Wm Hf) as (g & x & y & X & Y & E & [Wg Vg] & Rx & Ry & B & Q).
  exists g, x, y, X. rewrite G in *. split; [exact E|]. split; [exact Vg|]. split; [exact Rx|].
  assert (A0 : bval a <> 0). { intros A. rewrite A, Z.gcd_0_l in G. lia. }
  destruct (Q A0 ltac:(lia)) as [Q1 _]. split; [lia|].
  replace (bval a * X) with (1 + (- Y) * bval m) by lia. rewrite Z_mod_plus_full. apply Z.mod_small. lia.
Qed.
Print Assumptions C23_modular_inverse.
Example C23_exact_example : wf 2 [240; 0] /\ wf 2 [46; 0] /\ gcd_ext cfg0 130 2 [240; 0] [46; 0] = Ok ([2; 0], [4294967287; 4294967295], [47; 0]) /\
  bval [4294967287; 4294967295] = (-9) mod modulus 2 /\ 240 * (-9) + 46 * 47 = 2 /\ gcd_ext cfg0 130 2 [7; 0] [40; 0] = Ok ([1; 0], [4294967279; 4294967295], [3; 0]).
Proof. split; [wfc|]. split; [wfc|]. conjs; vm_compute; reflexivity. Qed.

(** ** C48: what the signed comparison across different precisions really computes when the left operand does not
    fit the right operand's width: its magnitude is reduced modulo 2^M first; a magnitude that becomes zero keeps
    its sign and then sits strictly between zero and the smallest number of that sign. *)
Theorem C48_signed_comparison_across_precisions_exact : forall cfg n m a b, 1 <= n -> 1 <= m -> n <> m -> swf n a -> swf m b ->
  let M := Z.abs (sval a) mod modulus m in
  (M <> 0 -> let t := Z.sgn (sval a) * M in
     s_eq cfg n m a b = Ok (t =? sval b) /\ s_lt cfg n m a b = Ok (t <? sval b) /\ s_gt cfg n m a b = Ok (sval b <? t)) /\
  (M = 0 -> sval a <> 0 ->
     s_eq cfg n m a b = Ok false /\
     s_lt cfg n m a b = Ok (if 0 <? sval a then 0 <? sval b else 0 <=? sval b) /\
     s_gt cfg n m a b = Ok (if 0 <? sval a then sval b <=? 0 else sval b <? 0)).
Proof.
  intros cfg n m a b Hn Hm Hne Wa Wb M. destruct (s_precisionCast_correct cfg n m a Hn Hm Wa) as (r & E & W & S & V).
  assert (Ba : 0 <= bval (mag a) < modulus n) by (apply mag_bounds; apply Wa).
  unfold s_eq, s_lt, s_gt, s_spaceship, s_compareTo_x. destruct (Z.eqb_spec n m) as [|_]; [contradiction|]. rewrite E. cbn [bind].
  assert (Am : sgn a <> SZero -> Z.abs (sval a) = bval (mag a)) by (intros X; unfold sval; destruct (sgn a); try congruence; lia).
  split.
  - intros NM. set (t := Z.sgn (sval a) * M). assert (SZ : sgn a <> SZero) by (intros X; apply NM; unfold M, sval; rewrite X; cbn [Z.abs]; apply Z.mod_0_l; pose proof (modulus_pos m); lia).
    assert (Vr : bval (mag r) = M) by (rewrite V; unfold s_isZero, M; rewrite Am by auto; destruct (sgn a); cbn; congruence).
    assert (Wr : swf m r) by (split; [exact W|]; intros _; rewrite Vr; exact NM).
    assert (Tr : sval r = t). { unfold t. unfold sval at 1. rewrite S, Vr. destruct Wa as [Wa Na]. specialize (Na SZ). unfold sval. destruct (sgn a); try congruence; [rewrite Z.sgn_pos by lia|rewrite Z.sgn_neg by lia]; lia. }
    rewrite s_compareTo_correct by auto. cbn [bind]. rewrite Tr.
    destruct (zcmp_cases t (sval b)) as [[-> C]|[[-> C]|[-> C]]]; cbn [cmp_eqb to_ordering]; repeat split; f_equal; symmetry; (apply Z.eqb_eq || apply Z.eqb_neq || apply Z.ltb_lt || apply Z.ltb_ge || idtac); lia.
  - intros ZM NA. assert (SZ : sgn a <> SZero) by (intros X; unfold sval in NA; rewrite X in NA; lia).
    assert (Vr : bval (mag r) = 0) by (rewrite V; unfold s_isZero; rewrite <- Am by auto; fold M; destruct (sgn a); cbn; congruence).
    destruct Wb as [Wb Nb]. pose proof (bval_bound m _ Wb) as Bb. destruct Wa as [Wa Na]. specialize (Na SZ).
    unfold s_compareTo, s_isZero, s_isNegative. rewrite S.
    destruct (sgn a) eqn:Sa; try congruence; destruct (sgn b) eqn:Sb; cbn [sign_eqb s_cmp_zero];
      rewrite ?compareTo_same by auto; rewrite ?Vr; cbn [bind]; unfold sval; rewrite Sa, Sb;
      try (specialize (Nb ltac:(discriminate))); rewrite ?(zcmp_lt 0 (bval (mag b))) by lia; cbn [cmp_eqb to_ordering s_cmp_flip];
      try (replace (0 <? bval (mag a)) with true by (symmetry; apply Z.ltb_lt; lia));
      try (replace (0 <? - bval (mag a)) with false by (symmetry; apply Z.ltb_ge; lia));
      repeat split; f_equal; symmetry; (apply Z.ltb_lt || apply Z.ltb_ge || apply Z.leb_le || apply Z.leb_gt || idtac); try lia; reflexivity.
Qed.
Print Assumptions C48_signed_comparison_across_precisions_exact.
Example C48_exact_example : swf 3 (sn [5; 0; 1]) /\ swf 2 (sn [5; 0]) /\ s_eq cfg0 3 2 (sn [5; 0; 1]) (sn [5; 0]) = Ok true /\
  swf 3 (sp [0; 0; 1]) /\ s_lt cfg0 3 2 (sp [0; 0; 1]) (sp [1; 0]) = Ok true /\ s_gt cfg0 3 2 (sp [0; 0; 1]) (mk_aesi SZero [0; 0]) = Ok true.
Proof. split; [swfc|]. split; [swfc|]. split; [vm_compute; reflexivity|]. split; [swfc|]. split; vm_compute; reflexivity. Qed.

(** ** C84: the laws of arithmetic hold for the objects themselves: both sides are the same call result. *)
Lemma yields_same n x y z : yields n x z -> yields n y z -> x = y.
Proof. intros (r & -> & Wr & Vr) (s & -> & Ws & Vs). f_equal. apply (bval_inj n); auto; congruence. Qed.

Theorem C84_ring_laws : forall n a b c, wf n a -> wf n b -> wf n c ->
  op_add n a b = op_add n b a /\
  (x <- op_add n a b ;; op_add n x c) = (x <- op_add n b c ;; op_add n a x) /\
  op_mul n a b = op_mul n b a /\
  (x <- op_mul n a b ;; op_mul n x c) = (x <- op_mul n b c ;; op_mul n a x) /\
  (x <- op_add n b c ;; op_mul n a x) = (x <- op_mul n a b ;; y <- op_mul n a c ;; op_add n x y) /\
  op_add n a (zeros n) = Ok a /\ op_sub n a a = Ok (zeros n) /\
  (x <- op_neg n b ;; op_add n a x) = op_sub n a b /\
  (x <- op_neg n a ;; op_neg n x) = Ok a /\
  (x <- op_sub n a b ;; op_add n x b) = Ok a /\
  (x <- op_inc n a ;; op_dec n x) = Ok a /\ (x <- op_dec n a ;; op_inc n x) = Ok a.
Proof.
  intros n a b c Wa Wb Wc. pose proof (wf_nonneg _ _ Wa) as Hn. assert (PM : 0 < modulus n) by (apply modulus_pos; exact Hn).
  pose proof (bval_bound n a Wa) as Ba. fold (modulus n) in Ba.
  assert (Ia : forall w, w mod modulus n = bval a -> yields n (Ok a) (w mod modulus n)) by (intros w ->; exists a; split; [reflexivity|split; auto]).
  assert (ADD := add_assign_correct n). assert (SUB := sub_assign_correct n). assert (MUL := mul_assign_correct n).
  assert (NEG := op_neg_correct n). assert (INC := op_inc_correct n). assert (DEC := op_dec_correct n).
  unfold op_add, op_sub, op_mul.
  split; [eapply yields_same; [apply ADD; auto|rewrite Z.add_comm; apply ADD; auto]|].
  split.
  { apply yields_same with n ((bval a + bval b + bval c) mod modulus n).
    - eapply yields_bind; [apply ADD; auto|]. intros r Wr Vr. rewrite <- Zplus_mod_idemp_l, <- Vr. apply ADD; auto.
    - eapply yields_bind; [apply ADD; auto|]. intros r Wr Vr. rewrite <- Z.add_assoc, <- Zplus_mod_idemp_r, <- Vr. apply ADD; auto. }
  split; [eapply yields_same; [apply MUL; auto|rewrite Z.mul_comm; apply MUL; auto]|].
  split.
  { apply yields_same with n ((bval a * bval b * bval c) mod modulus n).
    - eapply yields_bind; [apply MUL; auto|]. intros r Wr Vr. rewrite <- Zmult_mod_idemp_l, <- Vr. apply MUL; auto.
    - eapply yields_bind; [apply MUL; auto|]. intros r Wr Vr. rewrite <- Z.mul_assoc, <- Zmult_mod_idemp_r, <- Vr. apply MUL; auto. }
  split.
  { apply yields_same with n ((bval a * (bval b + bval c)) mod modulus n).
    - eapply yields_bind; [apply ADD; auto|]. intros r Wr Vr. rewrite <- Zmult_mod_idemp_r, <- Vr. apply MUL; auto.
    - eapply yields_bind; [apply MUL; auto|]. intros r Wr Vr. eapply yields_bind; [apply MUL; auto|]. intros s Ws Vs.
      rewrite Z.mul_add_distr_l. rewrite Zplus_mod, <- Vr, <- Vs. apply ADD; auto. }
  split.
  { eapply yields_same; [apply ADD; auto; apply wf_zeros; auto|]. apply Ia. rewrite bval_zeros, Z.add_0_r. apply Z.mod_small; lia. }
  split.
  { eapply yields_same; [apply SUB; auto|]. rewrite Z.sub_diag, Z.mod_0_l by lia. apply yields_ok; [apply wf_zeros; auto|apply bval_zeros]. }
  split.
  { eapply yields_same; [|apply SUB; auto]. eapply yields_bind; [apply NEG; auto|]. intros r Wr Vr.
    replace (bval a - bval b) with (bval a + - bval b) by lia. rewrite <- Zplus_mod_idemp_r, <- Vr. apply ADD; auto. }
  split.
  { apply yields_same with n ((- (- bval a)) mod modulus n); [|apply Ia; rewrite Z.opp_involutive; apply Z.mod_small; lia].
    eapply yields_bind; [apply NEG; auto|]. intros r Wr Vr. rewrite <- (Z.sub_0_l (- bval a)), <- Zminus_mod_idemp_r, <- Vr, Z.sub_0_l. apply NEG; auto. }
  split.
  { apply yields_same with n ((bval a - bval b + bval b) mod modulus n); [|apply Ia; rewrite Z.sub_add; apply Z.mod_small; lia].
    eapply yields_bind; [apply SUB; auto|]. intros r Wr Vr. rewrite <- Zplus_mod_idemp_l, <- Vr. apply ADD; auto. }
  split.
  - apply yields_same with n ((bval a + 1 - 1) mod modulus n); [|apply Ia; rewrite Z.add_simpl_r; apply Z.mod_small; lia].
    eapply yields_bind; [apply INC; auto|]. intros r Wr Vr. rewrite <- Zminus_mod_idemp_l, <- Vr. apply DEC; auto.
  - apply yields_same with n ((bval a - 1 + 1) mod modulus n); [|apply Ia; rewrite Z.sub_add; apply Z.mod_small; lia].
    eapply yields_bind; [apply DEC; auto|]. intros r Wr Vr. rewrite <- Zplus_mod_idemp_l, <- Vr. apply INC; auto.
Qed.
Print Assumptions C84_ring_laws.

Lemma lor_land_sum x y : Z.lor x y + Z.land x y = x + y.
Proof.
  assert (E1 : Z.lor x y = x + Z.ldiff y x).
  { rewrite <- lor_add.
    - apply Z.bits_inj'. intros i Hi. rewrite !Z.lor_spec, Z.ldiff_spec by lia. destruct (Z.testbit x i), (Z.testbit y i); reflexivity.
    - apply Z.bits_inj'. intros i Hi. rewrite Z.land_spec, Z.ldiff_spec, Z.bits_0 by lia. destruct (Z.testbit x i), (Z.testbit y i); reflexivity. }
  assert (E2 : y = Z.ldiff y x + Z.land x y).
  { rewrite <- lor_add.
    - apply Z.bits_inj'. intros i Hi. rewrite Z.lor_spec, Z.ldiff_spec, Z.land_spec by lia. destruct (Z.testbit x i), (Z.testbit y i); reflexivity.
    - apply Z.bits_inj'. intros i Hi. rewrite !Z.land_spec, Z.ldiff_spec, Z.bits_0 by lia. destruct (Z.testbit x i), (Z.testbit y i); reflexivity. }
  lia.
Qed.

Theorem C84_bit_laws : forall n junk a b, wf n a -> wf n b -> len junk = n ->
  (x <- op_not n junk a ;; op_not n junk x) = Ok a /\
  (x <- op_xor n a b ;; op_xor n x b) = Ok a /\
  (x <- op_and n a b ;; op_not n junk x) = (x <- op_not n junk a ;; y <- op_not n junk b ;; op_or n x y) /\
  (x <- op_or n a b ;; op_not n junk x) = (x <- op_not n junk a ;; y <- op_not n junk b ;; op_and n x y) /\
  (x <- op_not n junk a ;; op_inc n x) = op_neg n a /\
  (x <- op_or n a b ;; y <- op_and n a b ;; op_add n x y) = op_add n a b.
Proof.
  intros n junk a b Wa Wb Lj. pose proof (wf_nonneg _ _ Wa) as Hn. assert (PM : 0 < modulus n) by (apply modulus_pos; exact Hn).
  pose proof (bval_bound n a Wa) as Ba. pose proof (bval_bound n b Wb) as Bb. fold (modulus n) in Ba, Bb.
  assert (NOT : forall x, wf n x -> yields n (op_not n junk x) (modulus n - 1 - bval x)) by (intros; apply op_not_correct; auto).
  assert (XOR := xor_correct n). assert (AND := and_correct n). assert (OR := or_correct n). assert (ADD := add_assign_correct n).
  assert (OK : forall w, w = bval a -> yields n (Ok a) w) by (intros w ->; exists a; split; [reflexivity|split; auto]).
  assert (LN : forall z, modulus n - 1 - z = modulus n + Z.lnot z) by (intros; unfold Z.lnot; lia).
  (* complement within N bits, bit by bit *)
  assert (CB : forall z i, 0 <= z < modulus n -> 0 <= i -> Z.testbit (modulus n - 1 - z) i = if i <? 32 * n then negb (Z.testbit z i) else false).
  { intros z i Hz Hi. destruct (Z.ltb_spec i (32 * n)).
    - replace (modulus n - 1 - z) with (Z.lnot z + 1 * modulus n) by (unfold Z.lnot; lia). rewrite <- (Z.mod_pow2_bits_low _ (32 * n)) by lia. fold (modulus n).
      rewrite Z_mod_plus_full. unfold modulus. rewrite Z.mod_pow2_bits_low by lia. apply Z.lnot_spec. lia.
    - rewrite <- (Z.mod_small (modulus n - 1 - z) (modulus n)) by lia. unfold modulus at 2. apply Z.mod_pow2_bits_high. lia. }
  assert (LOR : 0 <= Z.lor (bval a) (bval b) < modulus n).
  { destruct (OR a b Wa Wb) as (r & _ & W & <-). apply bval_bound; auto. }
  assert (LAND : 0 <= Z.land (bval a) (bval b) < modulus n).
  { destruct (AND a b Wa Wb) as (r & _ & W & <-). apply bval_bound; auto. }
  unfold op_xor, op_and, op_or, op_add. split; [|split; [|split; [|split; [|split]]]].
  - apply yields_same with n (bval a); [eapply yields_bind; [apply NOT; auto|]; intros r Wr Vr; replace (bval a) with (modulus n - 1 - bval r) by lia; apply NOT; auto|apply OK; auto].
  - apply yields_same with n (Z.lxor (Z.lxor (bval a) (bval b)) (bval b)); [|apply OK; rewrite Z.lxor_assoc, Z.lxor_nilpotent, Z.lxor_0_r; auto].
    eapply yields_bind; [apply XOR; auto|]. intros r Wr <-. apply XOR; auto.
  - apply yields_same with n (modulus n - 1 - Z.land (bval a) (bval b)).
    + eapply yields_bind; [apply AND; auto|]. intros r Wr <-. apply NOT; auto.
    + eapply yields_bind; [apply NOT; auto|]. intros r Wr Vr. eapply yields_bind; [apply NOT; auto|]. intros s Ws Vs.
      replace (modulus n - 1 - Z.land (bval a) (bval b)) with (Z.lor (bval r) (bval s)); [apply OR; auto|]. rewrite Vr, Vs.
      apply Z.bits_inj'. intros i Hi. rewrite Z.lor_spec, !CB by lia. rewrite Z.land_spec. destruct (i <? 32 * n); [|reflexivity]. symmetry. apply negb_andb.
  - apply yields_same with n (modulus n - 1 - Z.lor (bval a) (bval b)).
    + eapply yields_bind; [apply OR; auto|]. intros r Wr <-. apply NOT; auto.
    + eapply yields_bind; [apply NOT; auto|]. intros r Wr Vr. eapply yields_bind; [apply NOT; auto|]. intros s Ws Vs.
      replace (modulus n - 1 - Z.lor (bval a) (bval b)) with (Z.land (bval r) (bval s)); [apply AND; auto|]. rewrite Vr, Vs.
      apply Z.bits_inj'. intros i Hi. rewrite Z.land_spec, !CB by lia. rewrite Z.lor_spec. destruct (i <? 32 * n); [|reflexivity]. symmetry. apply negb_orb.
  - eapply yields_same; [|apply op_neg_correct; auto]. eapply yields_bind; [apply NOT; auto|]. intros r Wr Vr.
    replace ((- bval a) mod modulus n) with ((bval r + 1) mod modulus n); [apply op_inc_correct; auto|]. rewrite Vr.
    replace (modulus n - 1 - bval a + 1) with (- bval a + 1 * modulus n) by lia. apply Z_mod_plus_full.
  - eapply yields_same; [|apply ADD; auto]. eapply yields_bind; [apply OR; auto|]. intros r Wr Vr. eapply yields_bind; [apply AND; auto|]. intros s Ws Vs.
    replace (bval a + bval b) with (bval r + bval s); [apply ADD; auto|]. rewrite Vr, Vs.
    apply lor_land_sum.
Qed.
Print Assumptions C84_bit_laws.

Theorem C84_division_shift_laws : forall cfg n a b s t, 1 <= n -> wf n a -> wf n b -> 0 <= s -> 0 <= t ->
  (bval b <> 0 -> (q <- op_div cfg n a b ;; r <- op_mod cfg n a b ;; p <- op_mul n q b ;; op_add n p r) = Ok a) /\
  (s + t < 32 * n -> (x <- op_shl n a s ;; op_shl n x t) = op_shl n a (s + t) /\ (x <- op_shr n a s ;; op_shr n x t) = op_shr n a (s + t)) /\
  (s < 32 * n -> bval a * 2 ^ s < modulus n -> (x <- op_shl n a s ;; op_shr n x s) = Ok a) /\
  (s < 32 * n -> cfg_unsafe cfg = false ->
     (p <- power2 cfg n s ;; op_mul n a p) = op_shl n a s /\ (p <- power2 cfg n s ;; op_div cfg n a p) = op_shr n a s).
Proof.
  intros cfg n a b s t Hn Wa Wb Hs Ht. assert (PM : 0 < modulus n) by (apply modulus_pos; lia).
  pose proof (bval_bound n a Wa) as Ba. pose proof (bval_bound n b Wb) as Bb. fold (modulus n) in Ba, Bb.
  assert (OK : forall w, w = bval a -> yields n (Ok a) w) by (intros w ->; exists a; split; [reflexivity|split; auto]).
  assert (SHL : forall x k, wf n x -> 0 <= k < 32 * n -> yields n (op_shl n x k) ((bval x * 2 ^ k) mod modulus n)).
  { intros x k Wx Hk. pose proof (shl_total n x k Wx ltac:(lia)) as H. destruct (Z.ltb_spec k (32 * n)); [exact H|lia]. }
  assert (SHR : forall x k, wf n x -> 0 <= k < 32 * n -> yields n (op_shr n x k) (bval x / 2 ^ k)).
  { intros x k Wx Hk. pose proof (shr_total n x k Wx ltac:(lia)) as H. destruct (Z.ltb_spec k (32 * n)); [exact H|lia]. }
  assert (P2 : forall k, 0 <= k -> 0 < 2 ^ k) by (intros; apply Z.pow_pos_nonneg; lia).
  split; [|split; [|split]].
  - intros Hb. destruct (op_div_total cfg n a b Hn Wa Wb Hb) as [(q & Eq & Wq & Vq) (r & Er & Wr & Vr)]. rewrite Eq, Er. cbn [bind].
    eapply yields_same; [|apply OK; reflexivity]. unfold op_mul, op_add. eapply yields_bind; [apply mul_assign_correct; auto|]. intros p Wp Vp.
    pose proof (Z.div_mod (bval a) (bval b) Hb). pose proof (Z.mod_pos_bound (bval a) (bval b) ltac:(lia)).
    assert (Ep : bval p = bval q * bval b). { rewrite Vp. apply Z.mod_small. rewrite Vq. split; [apply Z.mul_nonneg_nonneg; [apply Z.div_pos; lia|lia]|lia]. }
    pose proof (add_assign_correct n p r Wp Wr) as A. replace (bval a) with ((bval p + bval r) mod modulus n); [exact A|]. rewrite Z.mod_small; rewrite Ep, Vq, Vr; lia.
  - intros H. split.
    + eapply yields_same; [|apply SHL; auto; lia]. eapply yields_bind; [apply SHL; auto; lia|]. intros x Wx Vx.
      rewrite Z.pow_add_r, Z.mul_assoc by lia. rewrite <- Zmult_mod_idemp_l, <- Vx. apply SHL; auto; lia.
    + eapply yields_same; [|apply SHR; auto; lia]. eapply yields_bind; [apply SHR; auto; lia|]. intros x Wx Vx.
      rewrite Z.pow_add_r by lia. rewrite <- Z.div_div by (pose proof (P2 s Hs); pose proof (P2 t Ht); lia). rewrite <- Vx. apply SHR; auto; lia.
  - intros H F. eapply yields_same; [|apply OK; reflexivity]. eapply yields_bind; [apply SHL; auto; lia|]. intros x Wx Vx.
    rewrite Z.mod_small in Vx by (pose proof (P2 s Hs); nia). replace (bval a) with (bval x / 2 ^ s); [apply SHR; auto; lia|].
    rewrite Vx. apply Z.div_mul. pose proof (P2 s Hs). lia.
  - intros H U. destruct (power2_total cfg n s U ltac:(lia) Hs) as (p & Ep & Wp & Vp). destruct (Z.ltb_spec s (32 * n)); [|lia]. rewrite Ep. cbn [bind]. split.
    + eapply yields_same; [|apply SHL; auto; lia]. rewrite <- Vp. apply mul_assign_correct; auto.
    + eapply yields_same; [|apply SHR; auto; lia]. rewrite <- Vp. apply op_div_total; auto. rewrite Vp. pose proof (P2 s Hs). lia.
Qed.
Print Assumptions C84_division_shift_laws.

Theorem C84_gcd_lcm_law : forall cfg n fuel a b, 1 <= n -> wf n a -> wf n b -> 64 * n + 2 <= Z.of_nat fuel ->
  (g <- gcd cfg fuel n a b ;; l <- lcm cfg fuel n a b ;; op_mul n g l) = op_mul n a b /\
  gcd cfg fuel n a b = gcd cfg fuel n b a /\ lcm cfg fuel n a b = lcm cfg fuel n b a.
Proof.
  intros cfg n fuel a b Hn Wa Wb Hf. pose proof (bval_bound n a Wa) as Ba. pose proof (bval_bound n b Wb) as Bb.
  split; [|split].
  - eapply yields_same; [|apply mul_assign_correct; auto]. eapply yields_bind; [apply gcd_correct; auto|]. intros g Wg Vg.
    eapply yields_bind; [apply lcm_correct; auto|]. intros l Wl Vl. unfold op_mul.
    replace ((bval a * bval b) mod modulus n) with ((bval g * bval l) mod modulus n); [apply mul_assign_correct; auto|].
    rewrite Vg, Vl, Zmult_mod_idemp_r. f_equal. unfold Z.lcm. destruct (Z.eq_dec (Z.gcd (bval a) (bval b)) 0) as [G0|G0].
    + apply Z.gcd_eq_0 in G0. destruct G0 as [-> ->]. reflexivity.
    + destruct (Z.gcd_divide_r (bval a) (bval b)) as (v & Hv). pose proof (Z.gcd_nonneg (bval a) (bval b)).
      set (G := Z.gcd (bval a) (bval b)) in *. assert (E : bval b / G = v) by (rewrite Hv; apply Z.div_mul; auto). rewrite E.
      assert (0 <= v) by nia. rewrite Z.abs_eq by nia. rewrite Hv. ring.
  - eapply yields_same; [apply gcd_correct; auto|]. rewrite Z.gcd_comm. apply gcd_correct; auto.
  - eapply yields_same; [apply lcm_correct; auto|]. rewrite Z.lcm_comm. apply lcm_correct; auto.
Qed.
Print Assumptions C84_gcd_lcm_law.
Example C84_example : wf 3 exA /\ wf 3 exB /\ wf 3 [7; 0; 3] /\
  (x <- op_add 3 exB [7; 0; 3] ;; op_mul 3 exA x) = Ok [4294967289; 8; 2] /\ (q <- op_div cfg0 3 exB exA ;; r <- op_mod cfg0 3 exB exA ;; p <- op_mul 3 q exA ;; op_add 3 p r) = Ok exB.
Proof. split; [apply exA_wf|]. split; [apply exB_wf|]. split; [wfc|]. split; vm_compute; reflexivity. Qed.
