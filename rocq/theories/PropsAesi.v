(** * PropsAesi: the property theorems about the signed class, C43 - C55, C58 - C60.

    Every theorem is about the functions of [AesiModel.v] (the model of Aesi.h).  Vocabulary ([Spec.v]):
    [swf n x]: x is a well-formed 32n-bit signed object; [sval x]: the integer it stands for;
    [canon n x]: in addition a zero has a zero magnitude; [syields n call z]: the call finishes without any
    fault and its result is a well-formed object standing for z. *)
From Verif Require Import AesiFacts.
Open Scope Z_scope.

Ltac conjs := repeat match goal with |- _ /\ _ => split end.
Ltac wfc := apply wfb_wf; vm_compute; reflexivity.
(** Concrete signed numbers (64 bits). *)
Definition sp (l : list Z) := mk_aesi SPos l.
Definition sn (l : list Z) := mk_aesi SNeg l.
Definition sz := mk_aesi SZero [0; 0].
Ltac canonc := split; [wfc|cbn; split; [discriminate || reflexivity|intros; discriminate || reflexivity]].
Ltac swfc := apply canon_swf; canonc.
Definition cfg0 := mk_config false false true.   (* checks on, asserts on, LP64 *)
Definition cfg2 := mk_config false false false.  (* checks on, asserts on, unsigned long long = uint64_t *)
Example ex_swf : swf 2 (sp [7; 1]) /\ swf 2 (sn [9; 1]) /\ swf 2 sz /\ sval (sn [9; 1]) = -4294967305.
Proof. conjs; try (swfc); reflexivity. Qed.

(** ** C43 *)
Theorem C43_signed_add_sub : forall cfg n a b, swf n a -> swf n b ->
  (Z.abs (sval a + sval b) < modulus n ->
     syields n (s_add cfg n a b) (sval a + sval b) /\ syields n (s_add_assign cfg n a b) (sval a + sval b)) /\
  (Z.abs (sval a - sval b) < modulus n ->
     syields n (s_sub cfg n a b) (sval a - sval b) /\ syields n (s_sub_assign cfg n a b) (sval a - sval b)).
Proof.
  intros cfg n a b Wa Wb. split; intros H.
  - split; exact (s_add_correct cfg n a b Wa Wb H).
  - split; exact (s_sub_correct cfg n a b Wa Wb H).
Qed.
Print Assumptions C43_signed_add_sub.
Example C43_example : swf 2 (sp [7; 1]) /\ swf 2 (sn [9; 1]) /\ Z.abs (sval (sp [7; 1]) + sval (sn [9; 1])) < modulus 2 /\
  s_add cfg0 2 (sp [7; 1]) (sn [9; 1]) = Ok (sn [2; 0]) /\ s_sub cfg0 2 (sp [7; 1]) (sn [9; 1]) = Ok (sp [16; 2]).
Proof. split; [swfc|]. split; [swfc|]. conjs; vm_compute; reflexivity. Qed.

(** ** C44 *)
Theorem C44_signed_mul : forall n a b, swf n a -> swf n b -> Z.abs (sval a * sval b) < modulus n ->
  syields n (s_mul n a b) (sval a * sval b) /\ syields n (s_mul_assign n a b) (sval a * sval b).
Proof. intros n a b Wa Wb H. split; exact (s_mul_correct n a b Wa Wb H). Qed.
Print Assumptions C44_signed_mul.
Example C44_example : swf 2 (sn [5; 3]) /\ swf 2 (sn [9; 0]) /\ Z.abs (sval (sn [5; 3]) * sval (sn [9; 0])) < modulus 2 /\
  s_mul 2 (sn [5; 3]) (sn [9; 0]) = Ok (sp [45; 27]) /\ s_mul 2 (sn [5; 3]) (sp [9; 0]) = Ok (sn [45; 27]).
Proof. split; [swfc|]. split; [swfc|]. conjs; vm_compute; reflexivity. Qed.

(** ** C45: [Z.quot] and [Z.rem] are truncated division and its remainder (sign of the dividend). *)
Theorem C45_signed_division : forall cfg n a b q0 r0, 1 <= n -> swf n a -> swf n b -> swf n q0 -> swf n r0 ->
  (sval b <> 0 ->
     syields n (s_div cfg n a b) (Z.quot (sval a) (sval b)) /\
     syields n (s_div_assign cfg n a b) (Z.quot (sval a) (sval b)) /\
     exists q r, s_divide cfg n a b q0 r0 = Ok (q, r) /\ swf n q /\ swf n r /\
       sval q = Z.quot (sval a) (sval b) /\ sval r = Z.rem (sval a) (sval b) /\
       sval a = sval q * sval b + sval r /\ Z.abs (sval r) < Z.abs (sval b)) /\
  (sval b = 0 -> syields n (s_div cfg n a b) 0 /\ syields n (s_div_assign cfg n a b) 0).
Proof.
  intros cfg n a b q0 r0 Hn Wa Wb Wq Wr. split; intros H.
  - split; [exact (s_div_correct cfg n a b Hn Wa Wb H)|]. split; [exact (s_div_correct cfg n a b Hn Wa Wb H)|].
    destruct (s_divide_correct cfg n a b q0 r0 Hn Wa Wb (proj1 Wq) (proj1 Wr) H) as (q & r & E & Sq & Sr & Vq & Vr).
    exists q, r. pose proof (Z.quot_rem (sval a) (sval b) H). pose proof (Z.rem_bound_abs (sval a) (sval b) H).
    conjs; auto; rewrite ?Vq, ?Vr; lia.
  - assert (Z0 : s_isZero b = true).
    { destruct Wb as [Wb Nb]. pose proof (bval_bound n _ Wb). unfold s_isZero, sval in *.
      destruct (sgn b); auto; specialize (Nb ltac:(discriminate)); lia. }
    assert (K : syields n (s_div_assign cfg n a b) 0).
    { unfold s_div_assign. rewrite Z0. exists (with_sign a SZero). split; [reflexivity|]. split; [split; [apply Wa|cbn; congruence]|reflexivity]. }
    split; exact K.
Qed.
Print Assumptions C45_signed_division.
Example C45_example : swf 2 (sn [7; 0]) /\ swf 2 (sp [2; 0]) /\ sval (sp [2; 0]) <> 0 /\
  s_div cfg0 2 (sn [7; 0]) (sp [2; 0]) = Ok (sn [3; 0]) /\ s_divide cfg0 2 (sn [7; 0]) (sn [2; 0]) sz sz = Ok (sp [3; 0], sn [1; 0]).
Proof. split; [swfc|]. split; [swfc|]. split; [vm_compute; discriminate|]. conjs; vm_compute; reflexivity. Qed.

(** ** C46.  Fails for a negative modulus: the sign is inverted.  Proved: exact for a positive modulus; for a
    negative one the result is the negated remainder. *)
Theorem C46_signed_modulo_partial : forall cfg n a b, 1 <= n -> swf n a -> swf n b -> sval b <> 0 ->
  (0 < sval b ->
     syields n (s_mod cfg n a b) (Z.rem (sval a) (sval b)) /\ syields n (s_mod_assign cfg n a b) (Z.rem (sval a) (sval b)) /\
     exists q r, s_div cfg n a b = Ok q /\ s_mod cfg n a b = Ok r /\ sval a = sval q * sval b + sval r) /\
  (sval b < 0 ->
     syields n (s_mod cfg n a b) (- Z.rem (sval a) (sval b)) /\ syields n (s_mod_assign cfg n a b) (- Z.rem (sval a) (sval b))).
Proof.
  intros cfg n a b Hn Wa Wb H. pose proof (s_mod_correct cfg n a b Hn Wa Wb H) as M. split; intros S.
  - rewrite Z.sgn_pos, Z.mul_1_l in M by lia. split; [exact M|]. split; [exact M|].
    destruct (s_div_correct cfg n a b Hn Wa Wb H) as (q & Eq & _ & Vq). destruct M as (r & Er & _ & Vr).
    exists q, r. split; [exact Eq|]. split; [exact Er|]. rewrite Vq, Vr. pose proof (Z.quot_rem (sval a) (sval b) H). lia.
  - rewrite Z.sgn_neg in M by lia. replace (-1 * Z.rem (sval a) (sval b)) with (- Z.rem (sval a) (sval b)) in M by lia. split; exact M.
Qed.
Print Assumptions C46_signed_modulo_partial.
Example C46_example : swf 2 (sn [7; 0]) /\ swf 2 (sp [3; 0]) /\ 0 < sval (sp [3; 0]) /\ s_mod cfg0 2 (sn [7; 0]) (sp [3; 0]) = Ok (sn [1; 0]).
Proof. split; [swfc|]. split; [swfc|]. conjs; vm_compute; reflexivity. Qed.
(** 7 % -3 is -1 while 7 / -3 is -2 and divide gives remainder 1: (a / b) * b + a % b = 6 - 1 = 5 <> 7. *)
Theorem C46_signed_modulo_refuted : exists cfg n a b q r, swf n a /\ swf n b /\ sval b <> 0 /\
  s_div cfg n a b = Ok q /\ s_mod cfg n a b = Ok r /\ sval a <> sval q * sval b + sval r.
Proof.
  exists cfg0, 2, (sp [7; 0]), (sn [3; 0]), (sn [2; 0]), (sn [1; 0]). split; [swfc|]. split; [swfc|].
  split; [vm_compute; discriminate|]. split; [vm_compute; reflexivity|]. split; [vm_compute; reflexivity|]. vm_compute. discriminate.
Qed.
Print Assumptions C46_signed_modulo_refuted.

(** ** C47 *)
Theorem C47_signed_comparison : forall cfg n a b, 1 <= n -> swf n a -> swf n b ->
  (exists c, s_compareTo cfg n a b = Ok c /\
     (c = CLess <-> sval a < sval b) /\ (c = CEqual <-> sval a = sval b) /\ (c = CGreater <-> sval a > sval b)) /\
  (exists o, s_spaceship cfg n n a b = Ok o /\
     (o = OLess <-> sval a < sval b) /\ (o = OEqual <-> sval a = sval b) /\ (o = OGreater <-> sval a > sval b)) /\
  s_eq cfg n n a b = Ok (sval a =? sval b) /\ s_ne cfg n n a b = Ok (negb (sval a =? sval b)) /\
  s_lt cfg n n a b = Ok (sval a <? sval b) /\ s_le cfg n n a b = Ok (sval a <=? sval b) /\
  s_gt cfg n n a b = Ok (sval a >? sval b) /\ s_ge cfg n n a b = Ok (sval a >=? sval b).
Proof.
  intros cfg n a b Hn Wa Wb. pose proof (mag_bounds n a (proj1 Wa)).
  assert (B : Z.abs (sval a) < modulus n) by (unfold sval; destruct (sgn a); lia).
  destruct (s_compareTo_x_correct cfg n n a b Hn Hn Wa Wb B) as [Ex Eq].
  unfold s_ne, s_lt, s_le, s_gt, s_ge, s_spaceship. rewrite Ex, Eq, (s_compareTo_correct cfg n a b Wa Wb). cbn [bind].
  destruct (zcmp_cases (sval a) (sval b)) as [[-> C]|[[-> C]|[-> C]]]; cbn [to_ordering];
  (split; [eexists; split; [reflexivity|]; conjs; split; intros; try discriminate; auto; lia|]);
  (split; [eexists; split; [reflexivity|]; conjs; split; intros; try discriminate; auto; lia|]);
  destruct (Z.eqb_spec (sval a) (sval b)), (Z.ltb_spec (sval a) (sval b)), (Z.leb_spec (sval a) (sval b)),
    (Z.gtb_spec (sval a) (sval b)), (Z.geb_spec (sval a) (sval b)); try lia; conjs; reflexivity.
Qed.
Print Assumptions C47_signed_comparison.
Example C47_example : swf 2 (sn [7; 0]) /\ swf 2 (sn [5; 1]) /\ s_gt cfg0 2 2 (sn [7; 0]) (sn [5; 1]) = Ok true /\ s_lt cfg0 2 2 (sn [7; 0]) sz = Ok true.
Proof. split; [swfc|]. split; [swfc|]. conjs; vm_compute; reflexivity. Qed.

(** ** C48.  The left operand is first cut to the right operand's width.  Proved when it fits there. *)
Theorem C48_signed_comparison_across_precisions_partial : forall cfg n m a b, 1 <= n -> 1 <= m -> swf n a -> swf m b ->
  Z.abs (sval a) < modulus m ->
  s_eq cfg n m a b = Ok (sval a =? sval b) /\ s_ne cfg n m a b = Ok (negb (sval a =? sval b)) /\
  s_lt cfg n m a b = Ok (sval a <? sval b) /\ s_le cfg n m a b = Ok (sval a <=? sval b) /\
  s_gt cfg n m a b = Ok (sval a >? sval b) /\ s_ge cfg n m a b = Ok (sval a >=? sval b).
Proof.
  intros cfg n m a b Hn Hm Wa Wb B.
  destruct (s_compareTo_x_correct cfg n m a b Hn Hm Wa Wb B) as [Ex Eq].
  unfold s_ne, s_lt, s_le, s_gt, s_ge, s_spaceship. rewrite Ex, Eq. cbn [bind].
  destruct (zcmp_cases (sval a) (sval b)) as [[-> C]|[[-> C]|[-> C]]]; cbn [to_ordering];
  destruct (Z.eqb_spec (sval a) (sval b)), (Z.ltb_spec (sval a) (sval b)), (Z.leb_spec (sval a) (sval b)),
    (Z.gtb_spec (sval a) (sval b)), (Z.geb_spec (sval a) (sval b)); try lia; conjs; reflexivity.
Qed.
Print Assumptions C48_signed_comparison_across_precisions_partial.
Example C48_example : swf 3 (mk_aesi SNeg [7; 5; 0]) /\ swf 2 (sn [8; 5]) /\ Z.abs (sval (mk_aesi SNeg [7; 5; 0])) < modulus 2 /\
  s_gt cfg0 3 2 (mk_aesi SNeg [7; 5; 0]) (sn [8; 5]) = Ok true.
Proof. split; [swfc|]. split; [swfc|]. conjs; vm_compute; reflexivity. Qed.
(** 2^64 + 5 (96 bits) compares equal to 5 (64 bits). *)
Theorem C48_signed_comparison_across_precisions_refuted : exists cfg n m a b, swf n a /\ swf m b /\
  sval a <> sval b /\ s_eq cfg n m a b = Ok true /\ s_gt cfg n m a b = Ok false.
Proof.
  exists cfg0, 3, 2, (mk_aesi SPos [5; 0; 1]), (sp [5; 0]). split; [swfc|]. split; [swfc|]. split; [vm_compute; discriminate|]. split; vm_compute; reflexivity.
Qed.
Print Assumptions C48_signed_comparison_across_precisions_refuted.

(** ** C49 *)
Theorem C49_signed_comparison_builtin : forall n a k, 2 <= n -> swf n a -> - 2 ^ 63 < k < 2 ^ 64 ->
  s_eq_int n a k = Ok (sval a =? k) /\
  (exists c, s_compareTo_int n a k = Ok c /\
     (c = CLess <-> sval a < k) /\ (c = CEqual <-> sval a = k) /\ (c = CGreater <-> sval a > k)) /\
  exists o, s_spaceship_int n a k = Ok o /\
     (o = OLess <-> sval a < k) /\ (o = OEqual <-> sval a = k) /\ (o = OGreater <-> sval a > k).
Proof.
  intros n a k Hn Wa Hk. unfold s_eq_int, s_spaceship_int. rewrite (s_compareTo_int_correct n a k Hn Wa Hk). cbn [bind].
  destruct (zcmp_cases (sval a) k) as [[-> C]|[[-> C]|[-> C]]]; cbn [to_ordering cmp_eqb];
  (split; [destruct (Z.eqb_spec (sval a) k); [reflexivity || lia|reflexivity || lia]|]);
  (split; eexists; (split; [reflexivity|]); conjs; split; intros; try discriminate; auto; lia).
Qed.
Print Assumptions C49_signed_comparison_builtin.
Example C49_example : swf 2 (sn [7; 0]) /\ - 2 ^ 63 < -8 < 2 ^ 64 /\ s_compareTo_int 2 (sn [7; 0]) (-8) = Ok CGreater /\
  s_compareTo_int 2 (sp [7; 4294967295]) 18446744073709551615 = Ok CLess.
Proof. split; [swfc|]. conjs; vm_compute; reflexivity. Qed.
(** The excluded operand: comparing any negative number with the most negative 64-bit integer is undefined. *)
Theorem C49_int64_min_undefined : forall n a, sgn a = SNeg -> s_compareTo_int n a (- 2 ^ 63) = Err SignedOverflow.
Proof. intros n a H. unfold s_compareTo_int. rewrite H. reflexivity. Qed.
Print Assumptions C49_int64_min_undefined.

(** ** C50.  What every observer says of a number standing for zero. *)
Definition zero_looks_like_zero (cfg : config) (n : Z) (r : aesi) : Prop :=
  sval r = 0 ->
    s_isZero r = true /\ s_isEven r = Ok true /\ s_isOdd r = Ok false /\ s_bitCount n r = Ok 0 /\ s_byteCount n r = Ok 0 /\
    s_filledBlocksNumber n r = Ok 0 /\ bval (s_unsignedCast r) = 0 /\
    forall i, 0 <= i < 32 * n -> s_getBit cfg n r i = Ok false.
Lemma canon_zero_clean cfg n r : 1 <= n -> canon n r -> zero_looks_like_zero cfg n r.
Proof.
  intros Hn [W C] V. assert (Z0 : sgn r = SZero /\ bval (mag r) = 0).
  { unfold sval in V. pose proof (bval_bound n _ W). destruct (sgn r); [|exfalso..]; [tauto| |]; assert (bval (mag r) = 0) as B by lia; apply C in B; discriminate. }
  destruct Z0 as [S B]. unfold s_isZero, s_isEven, s_isOdd, s_bitCount, s_byteCount, s_filledBlocksNumber, s_unsignedCast, s_getBit.
  rewrite S, (isEven_spec n), (isOdd_spec n), (bitCount_spec n), (byteCount_spec n), (filledBlocksNumber_value n), B by auto.
  split; [reflexivity|]. split; [reflexivity|]. split; [reflexivity|]. split; [reflexivity|]. split; [reflexivity|]. split; [reflexivity|]. split; [reflexivity|].
  intros i Hi. rewrite getBit_spec by auto. rewrite B, Z.testbit_0_l. reflexivity.
Qed.
(** Proved: the constructors, [/], [%], [++], [--], [divide] with non-zero operands, [power2], [squareRoot],
    and [precisionCast] of a value that fits never leave residue.  Missing (false): [+], [-], [*]. *)
Theorem C50_zero_has_no_residue_partial : forall cfg n a b, 1 <= n -> canon n a -> canon n b ->
  (sval b <> 0 -> exists q r, s_div cfg n a b = Ok q /\ s_mod cfg n a b = Ok r /\ zero_looks_like_zero cfg n q /\ zero_looks_like_zero cfg n r) /\
  (Z.abs (sval a + 1) < modulus n -> exists r, s_inc n a = Ok r /\ zero_looks_like_zero cfg n r) /\
  (Z.abs (sval a - 1) < modulus n -> exists r, s_dec n a = Ok r /\ zero_looks_like_zero cfg n r) /\
  (sval a <> 0 -> sval b <> 0 -> forall q0 r0, swf n q0 -> swf n r0 -> exists q r, s_divide cfg n a b q0 r0 = Ok (q, r) /\ zero_looks_like_zero cfg n q /\ zero_looks_like_zero cfg n r) /\
  (forall fuel, 16 * n + 3 <= Z.of_nat fuel -> exists r, s_squareRoot cfg fuel n a = Ok r /\ zero_looks_like_zero cfg n r) /\
  (forall m, 1 <= m -> Z.abs (sval a) < modulus m -> exists r, s_precisionCast cfg n m a = Ok r /\ zero_looks_like_zero cfg m r) /\
  (forall k, 0 <= k -> cfg_unsafe cfg = false -> exists r, s_power2 cfg n k = Ok r /\ zero_looks_like_zero cfg n r) /\
  (forall t v, ity_ok t = true -> in_ity t v = true -> iwidth t <= 32 \/ 2 <= n -> v <> ity_min t \/ v = 0 -> exists r, s_from_int n t v = Ok r /\ zero_looks_like_zero cfg n r) /\
  zero_looks_like_zero cfg n (s_default n).
Proof.
  intros cfg n a b Hn Ca Cb. pose proof (canon_swf n b Cb) as Wb. pose proof (canon_swf n a Ca) as Wa.
  split; [|split; [|split; [|split; [|split; [|split; [|split; [|split]]]]]]].
  - intros H. destruct (s_div_canon cfg n a b Hn Ca Wb H) as (q & Eq & Cq & _). destruct (s_mod_canon cfg n a b Hn Ca Wb H) as (r & Er & Cr & _).
    exists q, r. split; [exact Eq|]. split; [exact Er|]. split; apply canon_zero_clean; auto.
  - intros H. destruct (s_inc_canon n a Hn Ca H) as (r & E & C & _). exists r. split; [exact E|]. apply canon_zero_clean; auto.
  - intros H. destruct (s_dec_canon n a Hn Ca H) as (r & E & C & _). exists r. split; [exact E|]. apply canon_zero_clean; auto.
  - intros Ha Hb q0 r0 Wq Wr. destruct (s_divide_canon cfg n a b q0 r0 Hn Wa Wb (proj1 Wq) (proj1 Wr) Ha Hb) as (q & r & E & Cq & Cr).
    exists q, r. split; [exact E|]. split; apply canon_zero_clean; auto.
  - intros fuel Hf. destruct (s_squareRoot_correct cfg n fuel a Hn Wa Hf) as (r & E & C & _). exists r. split; [exact E|]. apply canon_zero_clean; auto.
  - intros m Hm H. destruct (s_precisionCast_fits cfg n m a Hn Hm Wa H) as (r & E & C & _). exists r. split; [exact E|]. apply canon_zero_clean; auto.
  - intros k Hk U. destruct (s_power2_correct cfg n k U ltac:(lia) Hk) as (r & E & C & _). exists r. split; [exact E|]. apply canon_zero_clean; auto.
  - intros t v Ht Hv Hw Hm. destruct (s_from_int_correct n t v Hn Ht Hv Hw) as (r & E & C & _).
    { intros S W. destruct Hm as [| ->]; auto. unfold ity_min. rewrite S. assert (0 < 2 ^ (iwidth t - 1)) by (apply Z.pow_pos_nonneg; lia). lia. }
    exists r. split; [exact E|]. apply canon_zero_clean; auto.
  - apply canon_zero_clean; auto. split; [apply wf_zeros; lia|]. cbn [sgn mag s_default]. rewrite bval_zeros. tauto.
Qed.
Print Assumptions C50_zero_has_no_residue_partial.
Example C50_example : canon 2 (sp [5; 0]) /\ canon 2 (sn [7; 0]) /\ s_div cfg0 2 (sp [5; 0]) (sn [7; 0]) = Ok sz /\ s_dec 2 (sp [1; 0]) = Ok sz.
Proof. split; [canonc|]. split; [canonc|]. conjs; vm_compute; reflexivity. Qed.
(** 5 - 5 is zero (isZero) but isOdd, has bitCount 3 and unsignedCast 5; the same after 5 + (-5) and 5 * 0. *)
Theorem C50_zero_has_no_residue_refuted : exists cfg n a b z, canon n a /\ canon n b /\
  s_sub cfg n a b = Ok z /\ s_isZero z = true /\ s_isOdd z = Ok true /\ s_bitCount n z = Ok 3 /\ bval (s_unsignedCast z) = 5 /\
  s_add cfg n a (s_inverse b) = Ok z /\ s_mul n a (s_default n) = Ok z.
Proof.
  exists cfg0, 2, (sp [5; 0]), (sp [5; 0]), (mk_aesi SZero [5; 0]). split; [canonc|]. split; [canonc|]. conjs; vm_compute; reflexivity.
Qed.
Print Assumptions C50_zero_has_no_residue_refuted.

(** ** C51.  Proved: the value of the result (with the sign of the divisor applied, as in C46), and that it is
    well formed when non-zero.  Missing (false): a zero remainder keeps the old sign. *)
Theorem C51_signed_modulo_builtin_partial : forall cfg n t a k, 1 <= n -> swf n a -> ity_ok t = true -> in_ity t k = true ->
  iwidth t <= 32 \/ 2 <= n -> (isigned t = true -> k <> ity_min t) -> k <> 0 ->
  exists r, s_mod_int cfg n t a k = Ok r /\ s_mod_assign_int cfg n t a k = Ok r /\
    sval r = Z.sgn k * Z.rem (sval a) k /\ (Z.rem (sval a) k <> 0 -> swf n r).
Proof.
  intros cfg n t a k Hn Wa Ht Hk Hw Hm K0. destruct (s_mod_int_correct cfg n t a k Hn Wa Ht Hk Hw Hm K0) as (r & E & W & V & B & S).
  exists r. split; [exact E|]. split; [exact E|]. split; [exact V|]. intros N. split; [exact W|]. intros Sr Z0. apply N.
  rewrite sval_ssgn. pose proof (mag_bounds n a (proj1 Wa)).
  destruct (quot_signs_k (ssgn a) (bval (mag a)) k (ssgn3 a) ltac:(lia) K0) as [_ ->]. rewrite <- B, Z0. lia.
Qed.
Print Assumptions C51_signed_modulo_builtin_partial.
Example C51_example : swf 2 (sn [17; 0]) /\ in_ity int32 5 = true /\ s_mod_int cfg0 2 int32 (sn [17; 0]) 5 = Ok (sn [2; 0]).
Proof. split; [swfc|]. split; vm_compute; reflexivity. Qed.
(** 10 % 5: not zero according to isZero and ==. *)
Theorem C51_signed_modulo_builtin_refuted : exists cfg n t a k r, swf n a /\ ity_ok t = true /\ in_ity t k = true /\ k <> 0 /\
  s_mod_int cfg n t a k = Ok r /\ Z.rem (sval a) k = 0 /\ s_isZero r = false /\ s_eq_int n r 0 = Ok false.
Proof.
  exists cfg0, 2, int32, (sp [10; 0]), 5, (sp [0; 0]). split; [swfc|]. conjs; vm_compute; congruence.
Qed.
Print Assumptions C51_signed_modulo_builtin_refuted.

(** ** C52.  Fails exactly for the minimum of the 32- and 64-bit signed types. *)
Theorem C52_signed_construct_partial : forall n t v old, 1 <= n -> ity_ok t = true -> in_ity t v = true ->
  iwidth t <= 32 \/ 2 <= n -> (isigned t = true -> 32 <= iwidth t -> v <> ity_min t) ->
  syields n (s_from_int n t v) v /\ syields n (s_assign_int n t old v) v.
Proof.
  intros n t v old Hn Ht Hv Hw Hm. destruct (s_from_int_correct n t v Hn Ht Hv Hw Hm) as (r & E & C & V).
  assert (K : syields n (s_from_int n t v) v) by (exists r; split; [exact E|]; split; [apply canon_swf; exact C|exact V]). split; exact K.
Qed.
Print Assumptions C52_signed_construct_partial.
Example C52_example : in_ity int16 (-32768) = true /\ s_from_int 2 int16 (-32768) = Ok (sn [32768; 0]) /\ s_from_int 2 uint64 18446744073709551615 = Ok (sp [4294967295; 4294967295]).
Proof. conjs; vm_compute; reflexivity. Qed.
Theorem C52_signed_construct_refuted : forall n t v, ity_ok t = true -> isigned t = true -> 32 <= iwidth t -> v = ity_min t ->
  s_from_int n t v = Err SignedOverflow.
Proof. intros n t v _ S W E. exact (s_from_int_min n t v S W E). Qed.
Print Assumptions C52_signed_construct_refuted.

(** ** C53.  Proved for every operand that is not the minimum of a signed type; multiplication additionally
    needs |k| <= 2^32 where [unsigned long long] is not [uint64_t]. *)
Theorem C53_signed_mul_div_builtin_partial : forall cfg n t a k, 1 <= n -> swf n a -> ity_ok t = true -> in_ity t k = true ->
  (isigned t = true -> k <> ity_min t) ->
  (cfg_ull_distinct cfg = false \/ Z.abs k <= 2 ^ 32 -> Z.abs (sval a * k) < modulus n ->
     syields n (s_mul_int cfg n t a k) (sval a * k) /\ syields n (s_mul_assign_int cfg n t a k) (sval a * k)) /\
  (iwidth t <= 32 \/ 2 <= n -> k <> 0 ->
     syields n (s_div_int cfg n t a k) (Z.quot (sval a) k) /\ syields n (s_div_assign_int cfg n t a k) (Z.quot (sval a) k)) /\
  (k = 0 -> syields n (s_div_int cfg n t a k) 0).
Proof.
  intros cfg n t a k Hn Wa Ht Hk Hm. split; [|split].
  - intros U H. split; exact (s_mul_int_correct cfg n t a k Wa Ht Hk Hm U H).
  - intros Hw K0. split; exact (s_div_int_correct cfg n t a k Hn Wa Ht Hk Hw Hm K0).
  - intros ->. exists (with_sign a SZero). split; [reflexivity|]. split; [split; [apply Wa|cbn; congruence]|reflexivity].
Qed.
Print Assumptions C53_signed_mul_div_builtin_partial.
Example C53_example : swf 2 (sn [17; 0]) /\ in_ity int64 (-4294967296) = true /\ s_mul_int cfg0 2 int64 (sn [17; 0]) (-4294967296) = Ok (sp [0; 17]) /\ s_div_int cfg0 2 int8 (sn [17; 0]) (-5) = Ok (sp [3; 0]).
Proof. split; [swfc|]. conjs; vm_compute; reflexivity. Qed.
(** (2^32 - 1) * (2^40 + 1) (64-bit operand, LP64) and 1 * int8_t(-128): wrong results; int32_t minimum: undefined. *)
Theorem C53_signed_mul_div_builtin_refuted :
  (exists cfg n a k r, swf n a /\ in_ity int64 k = true /\ Z.abs (sval a * k) < modulus n /\ s_mul_int cfg n int64 a k = Ok r /\ sval r <> sval a * k) /\
  (exists cfg n a r, swf n a /\ Z.abs (sval a * -128) < modulus n /\ s_mul_int cfg n int8 a (-128) = Ok r /\ sval r <> sval a * -128) /\
  (forall cfg n a, s_mul_int cfg n int32 a (- 2 ^ 31) = Err SignedOverflow /\ s_div_int cfg n int32 a (- 2 ^ 31) = Err SignedOverflow).
Proof.
  split; [|split].
  - exists cfg0, 3, (mk_aesi SPos [4294967295; 0; 0]), 1099511627777, (mk_aesi SPos [4294967295; 4294967040; 0]).
    split; [swfc|]. split; [reflexivity|]. split; [reflexivity|]. split; [vm_compute; reflexivity|]. vm_compute. discriminate.
  - exists cfg2, 2, (sp [1; 0]), (sn [4294967168; 4294967295]).
    split; [swfc|]. split; [reflexivity|]. split; [vm_compute; reflexivity|]. vm_compute. discriminate.
  - intros cfg n a. split; reflexivity.
Qed.
Print Assumptions C53_signed_mul_div_builtin_refuted.

(** ** C54.  Proved for 8- and 16-bit targets always, for wider ones unless the number is negative with
    magnitude congruent to 2^(w-1). *)
Theorem C54_signed_integral_cast_partial : forall t n a, 2 <= n -> swf n a -> ity_ok t = true -> isigned t = true ->
  (iwidth t < 32 \/ 0 <= sval a \/ sval a mod 2 ^ iwidth t <> 2 ^ (iwidth t - 1)) ->
  exists v, s_integralCast t a = Ok v /\
    ity_min t <= v <= ity_max t /\ (v - sval a) mod 2 ^ iwidth t = 0 /\
    (ity_min t <= sval a <= ity_max t -> v = sval a).
Proof.
  intros t n a Hn Wa Ht Hs H. destruct (s_integralCast_correct t n a Hn Wa Ht Hs) as (v & E & R & C).
  - destruct H as [H|[H|H]]; auto. destruct (Z.ltb_spec (sval a) 0); [|right; left; lia]. right; right. intros M. apply H.
    assert (S : sval a = - bval (mag a)) by (pose proof (mag_bounds n a (proj1 Wa)); unfold sval in *; destruct (sgn a); auto; lia).
    pose proof (icast_congr t (bval (mag a)) Ht) as C. rewrite M in C. unfold ity_min in C. rewrite Hs in C. rewrite S.
    pose proof (ity_ok_width t Ht). assert (P : 0 < 2 ^ (iwidth t - 1)) by (apply Z.pow_pos_nonneg; lia).
    assert (P2 : 2 ^ iwidth t = 2 * 2 ^ (iwidth t - 1)) by (rewrite <- Z.pow_succ_r by lia; f_equal; lia).
    apply Z.mod_divide in C; [|lia]. destruct C as [q Q].
    replace (- bval (mag a)) with (2 ^ (iwidth t - 1) + q * 2 ^ iwidth t) by lia. rewrite Z_mod_plus_full. apply Z.mod_small. lia.
  - exists v. split; [exact E|]. split; [exact R|]. split; [exact C|]. intros I. exact (ity_unique t v (sval a) Ht R I C).
Qed.
Print Assumptions C54_signed_integral_cast_partial.
Example C54_example : swf 2 (sn [128; 0]) /\ s_integralCast int8 (sn [128; 0]) = Ok (-128) /\ s_integralCast int64 (sn [5; 1]) = Ok (-4294967301).
Proof. split; [swfc|]. conjs; vm_compute; reflexivity. Qed.
(** The representable value -2^31 cannot be cast to int32_t (nor -2^63 to int64_t): undefined behaviour. *)
Theorem C54_signed_integral_cast_refuted : forall t, ity_ok t = true -> isigned t = true -> 32 <= iwidth t ->
  exists n a, swf n a /\ sval a = ity_min t /\ s_integralCast t a = Err SignedOverflow.
Proof.
  intros t Ht Hs Hw. apply ity_ok_width in Ht. destruct t as [s w]. cbn in *. subst s. exists 2.
  destruct Ht as [E|[E|[E|E]]]; subst w; try lia.
  - exists (sn [2147483648; 0]). split; [swfc|]. split; vm_compute; reflexivity.
  - exists (sn [0; 2147483648]). split; [swfc|]. split; vm_compute; reflexivity.
Qed.
Print Assumptions C54_signed_integral_cast_refuted.

(** ** C55 *)
Theorem C55_signed_unary : forall n a, 1 <= n -> swf n a ->
  syields n (s_neg a) (- sval a) /\ sval (s_inverse a) = - sval a /\ swf n (s_inverse a) /\ syields n (s_plus a) (sval a) /\
  (Z.abs (sval a + 1) < modulus n -> syields n (s_inc n a) (sval a + 1) /\
     exists r, s_post_inc n a = Ok (a, r) /\ swf n r /\ sval r = sval a + 1) /\
  (Z.abs (sval a - 1) < modulus n -> syields n (s_dec n a) (sval a - 1) /\
     exists r, s_post_dec n a = Ok (a, r) /\ swf n r /\ sval r = sval a - 1).
Proof.
  intros n a Hn Wa. pose proof (s_inverse_swf n a Wa) as Wi. pose proof (s_inverse_val a) as Vi.
  split; [exists (s_inverse a); split; [reflexivity|]; split; assumption|]. split; [exact Vi|]. split; [exact Wi|].
  split; [exists a; split; [reflexivity|]; split; auto|]. split; intros H.
  - pose proof (s_inc_correct n a Hn Wa H) as I. split; [exact I|]. destruct I as (r & E & W & V). exists r. unfold s_post_inc. rewrite E. auto.
  - pose proof (s_dec_correct n a Hn Wa H) as I. split; [exact I|]. destruct I as (r & E & W & V). exists r. unfold s_post_dec. rewrite E. auto.
Qed.
Print Assumptions C55_signed_unary.
Example C55_example : swf 2 (sn [1; 0]) /\ Z.abs (sval (sn [1; 0]) + 1) < modulus 2 /\ s_inc 2 (sn [1; 0]) = Ok sz /\ s_dec 2 sz = Ok (sn [1; 0]) /\ s_inc 2 (sn [0; 1]) = Ok (sn [4294967295; 0]).
Proof. split; [swfc|]. conjs; vm_compute; reflexivity. Qed.

(** ** C58.  Fails only for zero: Aesi(Aeu 0) claims to be positive. *)
Theorem C58_unsigned_signed_conversion_partial : forall n u, wf n u ->
  sval (s_from_aeu u) = bval u /\ (bval u <> 0 -> swf n (s_from_aeu u)) /\
  (forall x, swf n x -> wf n (s_unsignedCast x) /\ (sval x <> 0 -> bval (s_unsignedCast x) = Z.abs (sval x))).
Proof.
  intros n u Wu. split; [reflexivity|]. split; [intros H; split; auto|]. intros x [W N]. split; [exact W|].
  intros H. pose proof (bval_bound n _ W). unfold sval in *. unfold s_unsignedCast. destruct (sgn x); lia.
Qed.
Print Assumptions C58_unsigned_signed_conversion_partial.
Example C58_example : wf 2 [5; 7] /\ bval [5; 7] <> 0 /\ s_from_aeu [5; 7] = sp [5; 7].
Proof. split; [wfc|]. split; [vm_compute; discriminate|reflexivity]. Qed.
Theorem C58_unsigned_signed_conversion_refuted : exists n u, wf n u /\ bval u = 0 /\
  s_isZero (s_from_aeu u) = false /\ s_eq_int n (s_from_aeu u) 0 = Ok false.
Proof. exists 2, [0; 0]. split; [wfc|]. split; [reflexivity|]. split; reflexivity. Qed.
Print Assumptions C58_unsigned_signed_conversion_refuted.

(** ** C59.  Fails only when a non-zero magnitude is divisible by 2^M: the result claims a sign. *)
Theorem C59_signed_precision_cast_partial : forall cfg n m a, 1 <= n -> 1 <= m -> swf n a ->
  (Z.abs (sval a) < modulus m -> exists r, s_precisionCast cfg n m a = Ok r /\ canon m r /\ sval r = sval a) /\
  exists r, s_precisionCast cfg n m a = Ok r /\ wf m (mag r) /\ sgn r = sgn a /\ sval r = Z.sgn (sval a) * (Z.abs (sval a) mod modulus m) /\
    (Z.abs (sval a) mod modulus m <> 0 -> swf m r).
Proof.
  intros cfg n m a Hn Hm Wa. split; [exact (s_precisionCast_fits cfg n m a Hn Hm Wa)|].
  destruct (s_precisionCast_correct cfg n m a Hn Hm Wa) as (r & E & W & S & V). exists r. split; [exact E|]. split; [exact W|]. split; [exact S|].
  destruct Wa as [Wa Na]. pose proof (bval_bound n _ Wa). unfold s_isZero in V. unfold sval. rewrite S.
  destruct (sgn a) eqn:Sa; cbn [sign_eqb] in V.
  - split; [reflexivity|]. intros _. split; [exact W|]. congruence.
  - specialize (Na ltac:(discriminate)). rewrite Z.sgn_pos, Z.abs_eq by lia. split; [lia|]. intros K. split; [exact W|]. lia.
  - specialize (Na ltac:(discriminate)). rewrite Z.sgn_neg, Z.abs_opp, Z.abs_eq by lia. split; [lia|]. intros K. split; [exact W|]. lia.
Qed.
Print Assumptions C59_signed_precision_cast_partial.
Example C59_example : swf 3 (mk_aesi SNeg [7; 5; 0]) /\ Z.abs (sval (mk_aesi SNeg [7; 5; 0])) < modulus 2 /\ s_precisionCast cfg0 3 2 (mk_aesi SNeg [7; 5; 0]) = Ok (sn [7; 5]) /\
  s_precisionCast cfg0 2 3 (sn [7; 5]) = Ok (mk_aesi SNeg [7; 5; 0]).
Proof. split; [swfc|]. conjs; vm_compute; reflexivity. Qed.
Theorem C59_signed_precision_cast_refuted : exists cfg n m a r, swf n a /\ s_precisionCast cfg n m a = Ok r /\ ~ swf m r /\
  sval r = 0 /\ s_isZero r = false.
Proof.
  exists cfg0, 3, 2, (mk_aesi SPos [0; 0; 1]), (sp [0; 0]). split; [swfc|]. split; [vm_compute; reflexivity|]. split; [|split; reflexivity].
  intros [_ H]. apply H; [discriminate|reflexivity].
Qed.
Print Assumptions C59_signed_precision_cast_refuted.

(** ** C60 *)
Theorem C60_signed_root_power2 : forall cfg n fuel a k, 1 <= n -> swf n a -> 16 * n + 3 <= Z.of_nat fuel ->
  (exists r, s_squareRoot cfg fuel n a = Ok r /\ swf n r /\
     (0 < sval a -> 0 < sval r /\ sval r * sval r <= sval a < (sval r + 1) * (sval r + 1)) /\ (sval a <= 0 -> sval r = 0 /\ s_isZero r = true)) /\
  (0 <= k -> cfg_unsafe cfg = false ->
     exists p, s_power2 cfg n k = Ok p /\ swf n p /\ (k < 32 * n -> sval p = 2 ^ k) /\ (32 * n <= k -> sval p = 0 /\ s_isZero p = true)).
Proof.
  intros cfg n fuel a k Hn Wa Hf. split.
  - destruct (s_squareRoot_correct cfg n fuel a Hn Wa Hf) as (r & E & C & V). exists r. split; [exact E|]. split; [apply canon_swf; exact C|].
    split; intros H.
    + destruct (Z.gtb_spec (sval a) 0); [|lia]. rewrite V. pose proof (Z.sqrt_spec (sval a) ltac:(lia)).
      pose proof (Z.sqrt_pos (sval a)). split; [|exact H1]. apply H2. exact H.
    + destruct (Z.gtb_spec (sval a) 0); [lia|]. split; [exact V|]. apply (canon_zero_clean cfg n r Hn C V).
  - intros Hk U. destruct (s_power2_correct cfg n k U ltac:(lia) Hk) as (r & E & C & V). exists r. split; [exact E|]. split; [apply canon_swf; exact C|].
    destruct (Z.ltb_spec k (32 * n)); split; intros; try lia. split; [exact V|]. apply (canon_zero_clean cfg n r Hn C V).
Qed.
Print Assumptions C60_signed_root_power2.
Example C60_example : swf 2 (sp [0; 4]) /\ s_squareRoot cfg0 35 2 (sp [0; 4]) = Ok (sp [131072; 0]) /\ s_squareRoot cfg0 35 2 (sn [9; 0]) = Ok sz /\ s_power2 cfg0 2 33 = Ok (sp [0; 2]) /\ s_power2 cfg0 2 64 = Ok sz.
Proof. split; [swfc|]. conjs; vm_compute; reflexivity. Qed.
