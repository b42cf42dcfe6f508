(** * PropsMix: C77 - C84, operators mixing the library's numbers with built-in integers, the relational
    operators of builds without <=>, signed setters, observers and overflow, and the algebraic laws.

    Stated about the functions of [AeuModel.v], [AesiModel.v] and [MixModel.v] with the vocabulary of [Spec.v]. *)
From Verif Require Import MixFacts.
Open Scope Z_scope.

Ltac conjs := repeat match goal with |- _ /\ _ => split end.
Ltac wfc := apply wfb_wf; vm_compute; reflexivity.
Definition exA : list Z := [4294967295; 0; 1].
Definition exB : list Z := [0; 4294967294; 4294967295].
Example exA_wf : wf 3 exA. Proof. wfc. Qed.
Example exB_wf : wf 3 exB. Proof. wfc. Qed.
Definition sp (l : list Z) := mk_aesi SPos l.
Definition sn (l : list Z) := mk_aesi SNeg l.
Definition sz := mk_aesi SZero [0; 0].
Ltac canonc := split; [wfc|cbn; split; [discriminate || reflexivity|intros; discriminate || reflexivity]].
Ltac swfc := apply canon_swf; canonc.
Definition cfg0 := mk_config false false true.   (* checks on, asserts on, LP64 *)

(** ** C77: unsigned number and unsigned built-in of at most 64 bits, in either order.  [junk] is the memory the
    temporary is built in. *)
Theorem C77_unsigned_mixed_operators : forall cfg n junk a k, 2 <= n -> len junk = n -> wf n a -> 0 <= k < 2 ^ 64 ->
  yields n (u_int_add n junk k a) ((k + bval a) mod modulus n) /\
  yields n (u_int_sub n junk k a) ((k - bval a) mod modulus n) /\
  yields n (u_int_mul n junk k a) ((k * bval a) mod modulus n) /\
  (bval a <> 0 -> yields n (u_int_div cfg n junk k a) (k / bval a) /\ yields n (u_int_mod cfg n junk k a) (k mod bval a)) /\
  yields n (u_int_xor n junk k a) (Z.lxor k (bval a)) /\
  yields n (u_int_and n junk k a) (Z.land k (bval a)) /\
  yields n (u_int_or n junk k a) (Z.lor k (bval a)) /\
  yields n (u_sub_int n junk a k) ((bval a - k) mod modulus n) /\
  yields n (u_cmul_int n junk a k) ((bval a * k) mod modulus n) /\
  (k <> 0 -> yields n (u_div_int cfg n junk a k) (bval a / k) /\ yields n (u_mod_int cfg n junk a k) (bval a mod k)) /\
  yields n (u_xor_int n junk a k) (Z.lxor (bval a) k) /\
  yields n (u_and_int n junk a k) (Z.land (bval a) k) /\
  yields n (u_or_int n junk a k) (Z.lor (bval a) k).
Proof.
  intros cfg n junk a k Hn Lj Wa Hk. destruct (u_temp n junk k Hn Lj Hk) as (x & E & W & <-).
  unfold u_int_add, u_int_sub, u_int_mul, u_int_div, u_int_mod, u_int_xor, u_int_and, u_int_or, u_sub_int, u_cmul_int, u_div_int, u_mod_int, u_xor_int, u_and_int, u_or_int.
  rewrite E. cbn [bind].
  split; [exact (add_assign_correct n x a W Wa)|]. split; [exact (sub_assign_correct n x a W Wa)|]. split; [exact (mul_assign_correct n x a W Wa)|].
  split; [intros H; exact (op_div_total cfg n x a ltac:(lia) W Wa H)|].
  split; [exact (xor_correct n x a W Wa)|]. split; [exact (and_correct n x a W Wa)|]. split; [exact (or_correct n x a W Wa)|].
  split; [exact (sub_assign_correct n a x Wa W)|]. split; [exact (mul_assign_correct n a x Wa W)|].
  split; [intros H; exact (op_div_total cfg n a x ltac:(lia) Wa W H)|].
  split; [exact (xor_correct n a x Wa W)|]. split; [exact (and_correct n a x Wa W)|]. exact (or_correct n a x Wa W).
Qed.
Print Assumptions C77_unsigned_mixed_operators.
Example C77_example : wf 3 exA /\ len exB = 3 /\ u_int_sub 3 exB 5 exA = Ok [6; 4294967295; 4294967294] /\
  u_int_div cfg0 3 exB 18446744073709551615 [7; 0; 0] = Ok [2454267026; 613566756; 0] /\ u_div_int cfg0 3 exB exA 7 = Ok [3067833782; 613566756; 0].
Proof. split; [apply exA_wf|]. split; [reflexivity|]. conjs; vm_compute; reflexivity. Qed.

(** ** C78: signed number and any built-in integer, in either order.  The full claim is false for the minimum of the
    32- and 64-bit signed types (see the refutation), and a % b with a negative b has the wrong sign (C46). *)
Theorem C78_signed_mixed_operators_partial : forall cfg n t a k, 2 <= n -> swf n a -> ity_ok t = true -> in_ity t k = true ->
  (isigned t = true -> 32 <= iwidth t -> k <> ity_min t) ->
  (Z.abs (k + sval a) < modulus n -> syields n (s_int_add cfg n t k a) (k + sval a) /\ syields n (s_add_int cfg n t a k) (sval a + k)) /\
  (Z.abs (k - sval a) < modulus n -> syields n (s_int_sub cfg n t k a) (k - sval a) /\ syields n (s_sub_int cfg n t a k) (sval a - k)) /\
  (Z.abs (k * sval a) < modulus n -> syields n (s_int_mul cfg n t k a) (k * sval a)) /\
  (sval a <> 0 -> syields n (s_int_div cfg n t k a) (Z.quot k (sval a)) /\
     (0 < sval a -> syields n (s_int_mod cfg n t k a) (Z.rem k (sval a))) /\
     (sval a < 0 -> syields n (s_int_mod cfg n t k a) (- Z.rem k (sval a)))).
Proof.
  intros cfg n t a k Hn Wa Ht Hk Hm. destruct (s_from_int_correct n t k ltac:(lia) Ht Hk ltac:(lia) Hm) as (x & E & C & <-).
  apply canon_swf in C. unfold s_int_add, s_add_int, s_int_sub, s_sub_int, s_int_mul, s_int_div, s_int_mod. rewrite E. cbn [bind].
  split; [|split; [|split]].
  - intros H. split; [exact (s_add_correct cfg n x a C Wa H)|]. apply s_add_correct; auto. rewrite Z.add_comm. exact H.
  - intros H. split; [exact (s_sub_correct cfg n x a C Wa H)|]. apply s_sub_correct; auto. lia.
  - intros H. exact (s_mul_correct n x a C Wa H).
  - intros H. split; [exact (s_div_correct cfg n x a ltac:(lia) C Wa H)|].
    pose proof (s_mod_correct cfg n x a ltac:(lia) C Wa H) as M. split; intros S.
    + rewrite Z.sgn_pos, Z.mul_1_l in M by lia. exact M.
    + rewrite Z.sgn_neg in M by lia. replace (- Z.rem (sval x) (sval a)) with (-1 * Z.rem (sval x) (sval a)) by lia. exact M.
Qed.
Print Assumptions C78_signed_mixed_operators_partial.
Example C78_example : swf 2 (sn [5; 3]) /\ in_ity int64 (-7) = true /\ s_int_add cfg0 2 int64 (-7) (sn [5; 3]) = Ok (sn [12; 3]) /\
  s_int_div cfg0 2 int32 (-7) (sp [2; 0]) = Ok (sn [3; 0]) /\ s_int_sub cfg0 2 int8 (-128) (sn [128; 0]) = Ok (mk_aesi SZero [128; 0]).
Proof. split; [swfc|]. conjs; vm_compute; reflexivity. Qed.
(** For INT_MIN (and INT64_MIN) every mixed operator is undefined behaviour, whatever the other operand. *)
Theorem C78_signed_mixed_operators_refuted : forall cfg n t a, ity_ok t = true -> isigned t = true -> 32 <= iwidth t ->
  let k := ity_min t in
  s_int_add cfg n t k a = Err SignedOverflow /\ s_add_int cfg n t a k = Err SignedOverflow /\
  s_int_sub cfg n t k a = Err SignedOverflow /\ s_sub_int cfg n t a k = Err SignedOverflow /\
  s_int_mul cfg n t k a = Err SignedOverflow /\ s_int_div cfg n t k a = Err SignedOverflow /\ s_int_mod cfg n t k a = Err SignedOverflow.
Proof.
  intros cfg n t a Ht Hs Hw k. unfold s_int_add, s_add_int, s_int_sub, s_sub_int, s_int_mul, s_int_div, s_int_mod.
  rewrite (s_from_int_min n t k Hs Hw eq_refl). cbn [bind]. conjs; reflexivity.
Qed.
Print Assumptions C78_signed_mixed_operators_refuted.

(** ** C79: setBit, setByte, setBlock of a signed number change exactly the addressed digit of the magnitude
    ([s_unsignedCast]) and never the sign. *)
Theorem C79_signed_setters : forall cfg n a i b v w, wf n (mag a) -> 0 <= i -> 0 <= v < 2 ^ 8 -> 0 <= w < 2 ^ 32 ->
  (i < 32 * n -> exists r, s_setBit cfg n a i b = Ok r /\ sgn r = sgn a /\ wf n (s_unsignedCast r) /\
     forall k, 0 <= k -> Z.testbit (bval (s_unsignedCast r)) k = if k =? i then b else Z.testbit (bval (s_unsignedCast a)) k) /\
  (i < 4 * n -> exists r, s_setByte cfg n a i v = Ok r /\ sgn r = sgn a /\ wf n (s_unsignedCast r) /\
     forall k, 0 <= k -> Z.testbit (bval (s_unsignedCast r)) k = if k / 8 =? i then Z.testbit v (k mod 8) else Z.testbit (bval (s_unsignedCast a)) k) /\
  (i < n -> exists r, s_setBlock cfg n a i w = Ok r /\ sgn r = sgn a /\ wf n (s_unsignedCast r) /\
     forall k, 0 <= k < n -> (bval (s_unsignedCast r) / 2 ^ (32 * k)) mod 2 ^ 32 = if k =? i then w else (bval (s_unsignedCast a) / 2 ^ (32 * k)) mod 2 ^ 32).
Proof.
  intros cfg n a i b v w Wa Hi Hv Hw. unfold s_setBit, s_setByte, s_setBlock, s_unsignedCast. split; [|split]; intros H.
  - destruct (setBit_spec cfg n (mag a) i b Wa (conj Hi H)) as (r & E & W & V). rewrite E. cbn [bind]. eexists. split; [reflexivity|].
    unfold with_mag. cbn [sgn mag]. split; [reflexivity|]. split; [exact W|]. intros k Hk. rewrite V. apply put_bit_spec; lia.
  - destruct (setByte_spec cfg n (mag a) i v Wa (conj Hi H) Hv) as (r & E & W & V). rewrite E. cbn [bind]. eexists. split; [reflexivity|].
    unfold with_mag. cbn [sgn mag]. split; [reflexivity|]. split; [exact W|]. exact V.
  - destruct (setBlock_spec cfg n (mag a) i w Wa (conj Hi H) Hw) as (r & E & W & V). rewrite E. cbn [bind]. eexists. split; [reflexivity|].
    unfold with_mag. cbn [sgn mag]. split; [reflexivity|]. split; [exact W|]. exact V.
Qed.
Print Assumptions C79_signed_setters.
Example C79_example : wf 2 (mag (sn [5; 3])) /\ s_setBit cfg0 2 (sn [5; 3]) 33 false = Ok (sn [5; 1]) /\ s_setByte cfg0 2 (sn [5; 3]) 1 255 = Ok (sn [65285; 3]) /\
  s_setBlock cfg0 2 (sp [5; 3]) 1 0 = Ok (sp [5; 0]).
Proof. split; [wfc|]. conjs; vm_compute; reflexivity. Qed.
(** The consequence the documentation hides: setting a bit of the number zero leaves a number that is still zero, and
    clearing the only bit of a negative number leaves a "negative" number of magnitude zero. *)
Theorem C79_setters_and_zero : forall cfg n i, 0 <= i < 32 * n ->
  (exists r, s_setBit cfg n (s_default n) i true = Ok r /\ s_isZero r = true /\ sval r = 0) /\
  (forall a, sgn a = SNeg -> wf n (mag a) -> bval (mag a) = 2 ^ i ->
     exists r, s_setBit cfg n a i false = Ok r /\ s_isNegative r = true /\ sval r = 0).
Proof.
  intros cfg n i Hi. split.
  - destruct (setBit_spec cfg n (zeros n) i true (wf_zeros n ltac:(lia)) Hi) as (r & E & W & V).
    unfold s_setBit, s_default. cbn [mag]. rewrite E. cbn [bind]. eexists. split; [reflexivity|]. split; reflexivity.
  - intros a Sa Wa Va. destruct (setBit_spec cfg n (mag a) i false Wa Hi) as (r & E & W & V).
    unfold s_setBit. rewrite E. cbn [bind]. eexists. split; [reflexivity|]. unfold s_isNegative, with_mag, sval. cbn [sgn mag]. rewrite Sa. split; [reflexivity|].
    rewrite V, Va. unfold put_bit. rewrite Z.clearbit_spec' by lia. rewrite Z.ldiff_diag. reflexivity.
Qed.
Print Assumptions C79_setters_and_zero.
Example C79_zero_example : sgn (sn [0; 4]) = SNeg /\ wf 2 (mag (sn [0; 4])) /\ bval (mag (sn [0; 4])) = 2 ^ 34 /\ 0 <= 34 < 32 * 2 /\
  s_setBit cfg0 2 (sn [0; 4]) 34 false = Ok (sn [0; 0]) /\ s_setBit cfg0 2 sz 3 true = Ok (mk_aesi SZero [8; 0]).
Proof. split; [reflexivity|]. split; [wfc|]. split; [reflexivity|]. split; [lia|]. conjs; vm_compute; reflexivity. Qed.

(** ** C80: overflow of signed +, -, *, ++, --.  The sign is the sign of the exact result, the magnitude is reduced
    modulo 2^N.  Missing (false): the result is not a number of the class when the reduced magnitude is zero. *)
Definition zsign (s : sign_t) : Z := match s with SZero => 0 | SPos => 1 | SNeg => -1 end.
Definition wraps_to (n : Z) (x : outcome aesi) (z : Z) : Prop :=
  exists r, x = Ok r /\ wf n (s_unsignedCast r) /\ zsign (sgn r) = Z.sgn z /\ bval (s_unsignedCast r) = Z.abs z mod modulus n /\
    (Z.abs z mod modulus n <> 0 -> swf n r).
Theorem C80_signed_overflow_partial : forall cfg n a b, 1 <= n -> swf n a -> swf n b ->
  (modulus n <= Z.abs (sval a + sval b) -> wraps_to n (s_add cfg n a b) (sval a + sval b)) /\
  (modulus n <= Z.abs (sval a - sval b) -> wraps_to n (s_sub cfg n a b) (sval a - sval b)) /\
  (modulus n <= Z.abs (sval a * sval b) -> wraps_to n (s_mul n a b) (sval a * sval b)) /\
  (modulus n <= Z.abs (sval a + 1) -> wraps_to n (s_inc n a) (sval a + 1)) /\
  (modulus n <= Z.abs (sval a - 1) -> wraps_to n (s_dec n a) (sval a - 1)).
Proof.
  intros cfg n a b Hn Wa Wb. assert (PM : 1 < modulus n) by (apply Z.lt_le_trans with (2 ^ 32); [lia|apply Z.pow_le_mono_r; lia]).
  assert (K : forall x z, (exists r, x = Ok r /\ wf n (mag r) /\ sgnz (sgn r) = Z.sgn z /\ bval (mag r) = Z.abs z mod modulus n) -> wraps_to n x z).
  { intros x z (r & E & W & S & V). exists r. split; [exact E|]. split; [exact W|]. split; [exact S|]. split; [exact V|].
    intros N. split; [exact W|]. intros _. rewrite V. exact N. }
  split; [|split; [|split; [|split]]]; intros H; apply K.
  - exact (s_add_wrap cfg n a b Wa Wb H).
  - exact (s_sub_wrap cfg n a b Wa Wb H).
  - destruct (s_mul_any n a b Wa Wb) as (r & E & W & S & V). exists r. split; [exact E|]. split; [exact W|]. split; [exact S|]. apply V; nia.
  - destruct Wa as [Wm Nz]. pose proof (bval_bound n _ Wm) as B. fold (modulus n) in B. unfold s_inc. unfold sval in *. destruct (sgn a) eqn:Sa; try lia.
    destruct (op_inc_correct n (mag a) Wm) as (r & E & W & V). rewrite E. cbn [bind]. eexists. split; [reflexivity|]. cbn [sgn mag sgnz].
      split; [exact W|]. split; [lia|]. rewrite V. f_equal. lia.
  - destruct Wa as [Wm Nz]. pose proof (bval_bound n _ Wm) as B. fold (modulus n) in B. unfold s_dec. unfold sval in *. destruct (sgn a) eqn:Sa; try lia.
    destruct (op_inc_correct n (mag a) Wm) as (r & E & W & V). rewrite E. cbn [bind]. eexists. split; [reflexivity|]. cbn [sgn mag sgnz].
      split; [exact W|]. split; [lia|]. rewrite V. f_equal. lia.
Qed.
Print Assumptions C80_signed_overflow_partial.
Example C80_example : swf 2 (sn [5; 4294967295]) /\ swf 2 (sn [7; 1]) /\ modulus 2 <= Z.abs (sval (sn [5; 4294967295]) + sval (sn [7; 1])) /\
  s_add cfg0 2 (sn [5; 4294967295]) (sn [7; 1]) = Ok (sn [12; 0]).
Proof. split; [swfc|]. split; [swfc|]. split; [vm_compute; congruence|]. vm_compute. reflexivity. Qed.
(** 2^63 + 2^63 at 64 bits is a "positive" number of magnitude zero: not zero, not equal to 0, and not less than 1 apart. *)
Theorem C80_signed_overflow_refuted : exists cfg n a b r, swf n a /\ swf n b /\ s_add cfg n a b = Ok r /\
  ~ swf n r /\ s_isZero r = false /\ bval (s_unsignedCast r) = 0 /\ s_eq_int n r 0 = Ok false.
Proof.
  exists cfg0, 2, (sp [0; 2147483648]), (sp [0; 2147483648]), (sp [0; 0]). split; [swfc|]. split; [swfc|]. split; [vm_compute; reflexivity|].
  split; [intros [_ H]; apply H; [discriminate|reflexivity]|]. conjs; vm_compute; reflexivity.
Qed.
Print Assumptions C80_signed_overflow_refuted.

(** ** C81: the relational operators of builds without <=>, and comparisons with the built-in on the left. *)
Theorem C81_relational_operators : forall cfg n a b, wf n a -> wf n b ->
  old_lt cfg n a b = Ok (bval a <? bval b) /\ old_le cfg n a b = Ok (bval a <=? bval b) /\
  old_gt cfg n a b = Ok (bval b <? bval a) /\ old_ge cfg n a b = Ok (bval b <=? bval a).
Proof.
  intros cfg n a b Wa Wb. unfold old_le, old_ge, old_lt, old_gt. rewrite compareTo_same by auto. cbn [bind].
  destruct (zcmp_cases (bval a) (bval b)) as [[-> C]|[[-> C]|[-> C]]]; cbn [cmp_eqb negb];
    repeat split; f_equal; symmetry; (apply Z.ltb_lt || apply Z.leb_le || apply Z.ltb_ge || apply Z.leb_gt); lia.
Qed.
Print Assumptions C81_relational_operators.
Theorem C81_builtin_on_the_left : forall (narrow : bool) n k (a : list Z), 2 <= n -> wf n a -> 0 <= k < (if narrow then 2 ^ 32 else 2 ^ 64) ->
  int_lt_u narrow n k a = Ok (k <? bval a) /\ int_le_u narrow n k a = Ok (k <=? bval a) /\
  int_gt_u narrow n k a = Ok (bval a <? k) /\ int_ge_u narrow n k a = Ok (bval a <=? k) /\ int_eq_u narrow n k a = Ok (k =? bval a).
Proof.
  intros narrow n k a Hn Wa Hk. unfold int_lt_u, int_le_u, int_gt_u, int_ge_u, int_eq_u, u_cmp_int, u_eq_int.
  assert (E : (if narrow then op_spaceship_u32 n a k else op_spaceship_u64 n a k) = Ok (to_ordering (zcmp (bval a) k)) /\
              (if narrow then op_eq_u32 n a k else op_eq_u64 n a k) = Ok (k =? bval a)).
  { rewrite (Z.eqb_sym k). destruct narrow; unfold op_spaceship_u32, op_spaceship_u64.
    - rewrite compareTo_u32_spec, op_eq_u32_spec by (auto; lia). auto.
    - rewrite compareTo_u64_spec, op_eq_u64_spec by (auto; lia). auto. }
  destruct E as [-> ->]. cbn [bind].
  destruct (zcmp_cases (bval a) k) as [[-> C]|[[-> C]|[-> C]]]; cbn [to_ordering rev_lt rev_gt rev_le rev_ge];
    repeat split; f_equal; symmetry; (apply Z.ltb_lt || apply Z.leb_le || apply Z.ltb_ge || apply Z.leb_gt); lia.
Qed.
Print Assumptions C81_builtin_on_the_left.
Theorem C81_builtin_on_the_left_signed : forall n k a, 2 <= n -> swf n a -> - 2 ^ 63 < k < 2 ^ 64 ->
  int_lt_s n k a = Ok (k <? sval a) /\ int_le_s n k a = Ok (k <=? sval a) /\
  int_gt_s n k a = Ok (sval a <? k) /\ int_ge_s n k a = Ok (sval a <=? k) /\ int_eq_s n k a = Ok (k =? sval a).
Proof.
  intros n k a Hn Wa Hk. unfold int_lt_s, int_le_s, int_gt_s, int_ge_s, int_eq_s, s_spaceship_int, s_eq_int.
  rewrite (s_compareTo_int_correct n a k Hn Wa Hk). cbn [bind].
  destruct (zcmp_cases (sval a) k) as [[-> C]|[[-> C]|[-> C]]]; cbn [to_ordering rev_lt rev_gt rev_le rev_ge cmp_eqb];
    repeat split; f_equal; symmetry; (apply Z.ltb_lt || apply Z.leb_le || apply Z.ltb_ge || apply Z.leb_gt || apply Z.eqb_eq || apply Z.eqb_neq); lia.
Qed.
Print Assumptions C81_builtin_on_the_left_signed.
Example C81_example : wf 3 exA /\ wf 3 exB /\ old_lt cfg0 3 exA exB = Ok true /\ old_ge cfg0 3 exA exA = Ok true /\
  int_lt_u true 3 7 exA = Ok true /\ swf 2 (sn [5; 3]) /\ int_ge_s 2 (-9) (sn [5; 3]) = Ok true.
Proof. split; [apply exA_wf|]. split; [apply exB_wf|]. split; [vm_compute; reflexivity|]. split; [vm_compute; reflexivity|]. split; [vm_compute; reflexivity|]. split; [swfc|]. vm_compute; reflexivity. Qed.

(** ** C82: comparing an unsigned number with a value of a signed built-in type.  Right for non-negative values;
    negative ones are first converted to uint64_t, so the claim is false for them. *)
Theorem C82_unsigned_vs_signed_builtin_partial : forall n a k, 2 <= n -> wf n a -> 0 <= k < 2 ^ 63 ->
  u_eq_signed n a k = Ok (bval a =? k) /\ u_lt_signed n a k = Ok (bval a <? k) /\ u_gt_signed n a k = Ok (k <? bval a).
Proof.
  intros n a k Hn Wa Hk. unfold u_eq_signed, u_lt_signed, u_gt_signed, u_cmp_signed, op_spaceship_u64.
  assert (E : u64 k = k) by (apply Z.mod_small; lia). rewrite E. rewrite op_eq_u64_spec, compareTo_u64_spec by (auto; lia). cbn [bind]. split; [reflexivity|].
  destruct (zcmp_cases (bval a) k) as [[-> C]|[[-> C]|[-> C]]]; cbn [to_ordering];
    split; f_equal; symmetry; (apply Z.ltb_lt || apply Z.ltb_ge); lia.
Qed.
Print Assumptions C82_unsigned_vs_signed_builtin_partial.
Example C82_example : wf 2 [7; 0] /\ u_eq_signed 2 [7; 0] 7 = Ok true /\ u_lt_signed 2 [7; 0] 8 = Ok true.
Proof. split; [wfc|]. conjs; vm_compute; reflexivity. Qed.
(** What really happens for a negative value: the number is compared with k + 2^64, so a small number is "less" than
    every negative value and 2^64 - 1 "equals" -1. *)
Theorem C82_unsigned_vs_signed_builtin_refuted : forall n a k, 2 <= n -> wf n a -> - 2 ^ 63 <= k < 0 ->
  u_eq_signed n a k = Ok (bval a =? k + 2 ^ 64) /\ u_lt_signed n a k = Ok (bval a <? k + 2 ^ 64) /\ u_gt_signed n a k = Ok (k + 2 ^ 64 <? bval a).
Proof.
  intros n a k Hn Wa Hk. unfold u_eq_signed, u_lt_signed, u_gt_signed, u_cmp_signed, op_spaceship_u64.
  assert (E : u64 k = k + 2 ^ 64).
  { unfold u64. replace (k mod 2 ^ 64) with ((k + 1 * 2 ^ 64) mod 2 ^ 64) by apply Z_mod_plus_full. rewrite Z.mul_1_l. apply Z.mod_small. lia. }
  rewrite E. rewrite op_eq_u64_spec, compareTo_u64_spec by (auto; lia). cbn [bind]. split; [reflexivity|].
  destruct (zcmp_cases (bval a) (k + 2 ^ 64)) as [[-> C]|[[-> C]|[-> C]]]; cbn [to_ordering];
    split; f_equal; symmetry; (apply Z.ltb_lt || apply Z.ltb_ge); lia.
Qed.
Print Assumptions C82_unsigned_vs_signed_builtin_refuted.
Example C82_refuted_example : wf 3 [4294967295; 4294967295; 0] /\ u_eq_signed 3 [4294967295; 4294967295; 0] (-1) = Ok true /\ u_lt_signed 3 [5; 0; 0] (-1) = Ok true.
Proof. split; [wfc|]. conjs; vm_compute; reflexivity. Qed.

(** ** C83: the observers of a signed number describe its sign and the digits of |value|. *)
Theorem C83_signed_observers : forall cfg n a i, 1 <= n -> canon n a ->
  s_isZero a = (sval a =? 0) /\ s_isPositive a = (0 <? sval a) /\ s_isNegative a = (sval a <? 0) /\
  s_isOdd a = Ok (Z.odd (sval a)) /\ s_isEven a = Ok (Z.even (sval a)) /\
  s_bitCount n a = Ok (bit_length (Z.abs (sval a))) /\ s_byteCount n a = Ok ((bit_length (Z.abs (sval a)) + 7) / 8) /\
  s_filledBlocksNumber n a = Ok ((bit_length (Z.abs (sval a)) + 31) / 32) /\
  (0 <= i < 32 * n -> s_getBit cfg n a i = Ok (Z.testbit (Z.abs (sval a)) i)) /\
  (0 <= i < 4 * n -> s_getByte cfg n a i = Ok ((Z.abs (sval a) / 2 ^ (8 * i)) mod 2 ^ 8)) /\
  (0 <= i < n -> s_getBlock cfg n a i = Ok ((Z.abs (sval a) / 2 ^ (32 * i)) mod 2 ^ 32)) /\
  represents n (s_unsignedCast a) (Z.abs (sval a)).
Proof.
  intros cfg n a i Hn [W C]. pose proof (bval_bound n _ W) as B.
  assert (A : Z.abs (sval a) = bval (mag a)) by (unfold sval; destruct (sgn a); destruct C as [C1 C2]; [rewrite C1 by reflexivity; reflexivity|lia|lia]).
  assert (O : Z.odd (sval a) = Z.odd (bval (mag a))).
  { unfold sval; destruct (sgn a); destruct C as [C1 C2]; [rewrite C1 by reflexivity; reflexivity|reflexivity|apply Z.odd_opp]. }
  assert (Ev : Z.even (sval a) = Z.even (bval (mag a))).
  { unfold sval; destruct (sgn a); destruct C as [C1 C2]; [rewrite C1 by reflexivity; reflexivity|reflexivity|apply Z.even_opp]. }
  assert (S : s_isZero a = (sval a =? 0) /\ s_isPositive a = (0 <? sval a) /\ s_isNegative a = (sval a <? 0)).
  { unfold s_isZero, s_isPositive, s_isNegative, sval. destruct (sgn a) eqn:Sa; cbn [sign_eqb].
    - auto.
    - assert (bval (mag a) <> 0) by (intros X; apply C in X; discriminate). repeat split; symmetry; lia.
    - assert (bval (mag a) <> 0) by (intros X; apply C in X; discriminate). repeat split; symmetry; lia. }
  destruct S as (S1 & S2 & S3). split; [exact S1|]. split; [exact S2|]. split; [exact S3|].
  unfold s_isOdd, s_isEven, s_bitCount, s_byteCount, s_filledBlocksNumber, s_getBit, s_getByte, s_getBlock. rewrite O, Ev, A.
  split; [exact (isOdd_spec n _ W Hn)|]. split; [exact (isEven_spec n _ W Hn)|].
  split; [exact (bitCount_spec n _ W Hn)|]. split; [exact (byteCount_spec n _ W Hn)|]. split; [exact (filledBlocksNumber_value n _ W)|].
  split; [intros H; exact (getBit_spec cfg n _ i W H)|]. split; [intros H; exact (getByte_spec cfg n _ i W H)|].
  split; [intros H; exact (getBlock_spec cfg n _ i W H)|]. split; [exact W|reflexivity].
Qed.
Print Assumptions C83_signed_observers.
Example C83_example : canon 2 (sn [5; 3]) /\ s_isNegative (sn [5; 3]) = true /\ s_bitCount 2 (sn [5; 3]) = Ok 34 /\ s_getBlock cfg0 2 (sn [5; 3]) 1 = Ok 3.
Proof. split; [canonc|]. conjs; vm_compute; reflexivity. Qed.
