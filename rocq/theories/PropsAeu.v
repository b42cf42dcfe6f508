(** * PropsAeu: the property theorems about the unsigned class, C01 - C31.

    Every theorem is about the functions of [AeuModel.v] (the model of Aeu.h) and is stated with the
    vocabulary of [Spec.v] only: [wf n a] ("a is a valid 32n-bit object"), [bval a] (the integer it
    represents), [modulus n] (2^(32n)), [represents n r z], [yields n call z] ("the call finishes without
    any fault and its result is the valid 32n-bit object representing z").  [bit_length] is the number of
    significant bits.  [cfg] ranges over all build configurations. *)
From Verif Require Import AeuFacts.
Open Scope Z_scope.

Ltac conjs := repeat match goal with |- _ /\ _ => split end.
Ltac wfc := apply wfb_wf; vm_compute; reflexivity.

(** Two concrete 96-bit numbers used by the examples: 2^64 + 2^32 - 1 and 2^96 - 2^33. *)
Definition exA : list Z := [4294967295; 0; 1].
Definition exB : list Z := [0; 4294967294; 4294967295].
Example exA_wf : wf 3 exA. Proof. wfc. Qed.
Example exB_wf : wf 3 exB. Proof. wfc. Qed.
Definition cfg0 := mk_config false false true.   (* checks on, asserts on, LP64 *)
Definition cfg1 := mk_config false true false.   (* checks on, NDEBUG *)

(** ** C01 *)
Theorem C01_addition_exact : forall n a b, wf n a -> wf n b ->
  yields n (op_add n a b) ((bval a + bval b) mod modulus n) /\
  yields n (add_assign n a b) ((bval a + bval b) mod modulus n).
Proof. intros n a b Ha Hb. split; exact (add_assign_correct n a b Ha Hb). Qed.
Print Assumptions C01_addition_exact.
Example C01_example : wf 3 exA /\ wf 3 exB /\ op_add 3 exA exB = Ok [4294967295; 4294967294; 0].
Proof. conjs; [apply exA_wf|apply exB_wf|]. vm_compute. reflexivity. Qed.

(** ** C02 *)
Theorem C02_subtraction_negation_exact : forall n a b, wf n a -> wf n b ->
  yields n (op_sub n a b) ((bval a - bval b) mod modulus n) /\
  yields n (sub_assign n a b) ((bval a - bval b) mod modulus n) /\
  yields n (op_neg n a) ((- bval a) mod modulus n) /\ yields n (op_plus a) (bval a).
Proof.
  intros n a b Ha Hb. split; [exact (sub_assign_correct n a b Ha Hb)|]. split; [exact (sub_assign_correct n a b Ha Hb)|].
  split; [exact (op_neg_correct n a Ha)|]. apply yields_ok; auto.
Qed.
Print Assumptions C02_subtraction_negation_exact.
Example C02_example : wf 3 exA /\ wf 3 exB /\ op_sub 3 exA exB = Ok [4294967295; 2; 1] /\ op_neg 3 (zeros 3) = Ok (zeros 3).
Proof. split; [apply exA_wf|]. split; [apply exB_wf|]. split; vm_compute; reflexivity. Qed.

(** ** C03 *)
Theorem C03_increment_decrement : forall n a, wf n a ->
  yields n (op_inc n a) ((bval a + 1) mod modulus n) /\
  yields n (op_dec n a) ((bval a - 1) mod modulus n) /\
  (exists new, op_post_inc n a = Ok (a, new) /\ represents n new ((bval a + 1) mod modulus n)) /\
  (exists new, op_post_dec n a = Ok (a, new) /\ represents n new ((bval a - 1) mod modulus n)).
Proof.
  intros n a Ha. pose proof (op_inc_correct n a Ha) as I. pose proof (op_dec_correct n a Ha) as D.
  split; [exact I|]. split; [exact D|]. destruct I as (i & Ei & Ri). destruct D as (d & Ed & Rd).
  unfold op_post_inc, op_post_dec. rewrite Ei, Ed. cbn [bind]. split; [exists i|exists d]; split; auto.
Qed.
Print Assumptions C03_increment_decrement.
Example C03_example : wf 2 [4294967295; 4294967295] /\ op_inc 2 [4294967295; 4294967295] = Ok [0; 0] /\
  op_dec 2 [0; 0] = Ok [4294967295; 4294967295] /\ op_post_inc 2 [4294967295; 3] = Ok ([4294967295; 3], [0; 4]).
Proof. split; [wfc|]. conjs; vm_compute; reflexivity. Qed.

(** ** C04 *)
Theorem C04_multiplication_exact : forall n a b, wf n a -> wf n b ->
  yields n (op_mul n a b) ((bval a * bval b) mod modulus n) /\
  yields n (mul_assign n a b) ((bval a * bval b) mod modulus n).
Proof. intros n a b Ha Hb. split; exact (mul_assign_correct n a b Ha Hb). Qed.
Print Assumptions C04_multiplication_exact.
Example C04_example : wf 3 exA /\ wf 3 exB /\
  op_mul 3 exA exB = Ok [0; 2; 4294967294].
Proof. split; [apply exA_wf|]. split; [apply exB_wf|]. vm_compute. reflexivity. Qed.

(** ** C05: bool, uint8_t, uint16_t, uint32_t *)
Theorem C05_add_small_builtin : forall n t a u, wf n a ->
  (t = UBool \/ t = U8 \/ t = U16 \/ t = U32) -> 0 <= u < 2 ^ uwidth t ->
  yields n (op_add_u n t a u) ((bval a + u) mod modulus n) /\
  yields n (add_assign_u n t a u) ((bval a + u) mod modulus n).
Proof.
  intros n t a u Ha Ht Hu. assert (uwidth t <= 32) by (destruct Ht as [-> | [-> | [-> | ->]]]; cbn; lia).
  split; exact (add_assign_u_correct n t a u Ha Hu H).
Qed.
Print Assumptions C05_add_small_builtin.
(** Spelled out: every value of every one of these types. *)
Theorem C05_every_value : forall n a u, wf n a ->
  (0 <= u < 2 -> yields n (op_add_u n UBool a u) ((bval a + u) mod modulus n)) /\
  (0 <= u < 256 -> yields n (op_add_u n U8 a u) ((bval a + u) mod modulus n)) /\
  (0 <= u < 65536 -> yields n (op_add_u n U16 a u) ((bval a + u) mod modulus n)) /\
  (0 <= u < 4294967296 -> yields n (op_add_u n U32 a u) ((bval a + u) mod modulus n)).
Proof. intros n a u W. repeat split; intros H; apply (C05_add_small_builtin n _ a u W); auto. Qed.
Print Assumptions C05_every_value.
Example C05_example : wf 3 exA /\ 0 <= 4294967295 < 2 ^ uwidth U32 /\
  add_assign_u 3 U32 exA 4294967295 = Ok [4294967294; 1; 1] /\ add_assign_u 3 UBool exA 1 = Ok [0; 1; 1].
Proof. split; [apply exA_wf|]. split; [vm_compute; split; congruence|]. split; vm_compute; reflexivity. Qed.

(** ** C06: 64-bit addends.  The full claim (exactness for every uint64_t) is false: the first addition
    [block 0 + addend] is done in 64 bits and its carry out of bit 63 is lost.  Proved: exactly when the
    result is right, namely iff that sum does not wrap, or the number has at most 64 bits. *)
Theorem C06_add_u64_partial : forall n t a u, 1 <= n -> wf n a -> (t = U64 \/ t = ULL) -> 0 <= u < 2 ^ 64 ->
  (yields n (add_assign_u n t a u) ((bval a + u) mod modulus n) <-> (bval a mod 2 ^ 32 + u < 2 ^ 64 \/ n <= 2)) /\
  op_add_u n t a u = add_assign_u n t a u.
Proof.
  intros n t a u Hn Ha Ht Hu. split; [|reflexivity]. apply add_u64_iff; auto.
  destruct Ht as [-> | ->]; exact Hu.
Qed.
Print Assumptions C06_add_u64_partial.
Example C06_example : wf 3 exA /\ bval exA mod 2 ^ 32 + 18446744069414584320 < 2 ^ 64 /\
  add_assign_u 3 U64 exA 18446744069414584320 = Ok [4294967295; 4294967295; 1].
Proof. split; [apply exA_wf|]. split; vm_compute; reflexivity. Qed.
(** The witness: (2^32 - 1) + (2^64 - 1) at 96 bits gives 2^32 - 2 instead of 2^64 + 2^32 - 2. *)
Theorem C06_add_u64_refuted : exists n t a u, wf n a /\ t = U64 /\ 0 <= u < 2 ^ 64 /\
  ~ yields n (add_assign_u n t a u) ((bval a + u) mod modulus n).
Proof.
  exists 3, U64, [4294967295; 0; 0], 18446744073709551615. split; [wfc|]. split; [reflexivity|]. split; [split; vm_compute; congruence|].
  intros (r & E & _ & V). vm_compute in E. injection E as <-. vm_compute in V. discriminate.
Qed.
Print Assumptions C06_add_u64_refuted.

(** ** C07 *)
Theorem C07_mul_builtin_exact : forall n t a u, wf n a ->
  (t = UBool \/ t = U8 \/ t = U16 \/ t = U32 \/ t = U64) -> 0 <= u < 2 ^ uwidth t ->
  yields n (op_mul_u n t a u) ((bval a * u) mod modulus n) /\
  yields n (mul_assign_u n t a u) ((bval a * u) mod modulus n).
Proof.
  intros n t a u Ha Ht Hu. assert (t <> ULL) by (destruct Ht as [-> | [-> | [-> | [-> | ->]]]]; discriminate).
  split; exact (mul_assign_u_correct n t a u Ha Hu H).
Qed.
Print Assumptions C07_mul_builtin_exact.
(** Spelled out: every value of every one of these types. *)
Theorem C07_every_value : forall n a u, wf n a ->
  (0 <= u < 2 -> yields n (op_mul_u n UBool a u) ((bval a * u) mod modulus n)) /\
  (0 <= u < 256 -> yields n (op_mul_u n U8 a u) ((bval a * u) mod modulus n)) /\
  (0 <= u < 65536 -> yields n (op_mul_u n U16 a u) ((bval a * u) mod modulus n)) /\
  (0 <= u < 4294967296 -> yields n (op_mul_u n U32 a u) ((bval a * u) mod modulus n)) /\
  (0 <= u < 18446744073709551616 -> yields n (op_mul_u n U64 a u) ((bval a * u) mod modulus n)).
Proof. intros n a u W. repeat split; intros H; apply (C07_mul_builtin_exact n _ a u W); auto. Qed.
Print Assumptions C07_every_value.
Example C07_example : wf 3 exA /\ 0 <= 18446744073709551615 < 2 ^ uwidth U64 /\
  mul_assign_u 3 U64 exA 18446744073709551615 = Ok [1; 4294967295; 4294967293] /\
  mul_assign_u 3 U32 exA 4294967295 = Ok [1; 4294967294; 4294967295].
Proof. split; [apply exA_wf|]. split; [split; vm_compute; congruence|]. split; vm_compute; reflexivity. Qed.

(** ** C08: any 64-bit unsigned type.  False when [unsigned long long] is not [uint64_t]: the single-pass
    branch multiplies [factor * block] in 64 bits.  Proved: exact for [uint64_t], and for the other type
    whenever the factor is at most 2^32. *)
Theorem C08_mul_any_u64_partial : forall n t a u, wf n a -> 0 <= u < 2 ^ 64 ->
  t = U64 \/ (t = ULL /\ u <= 2 ^ 32) ->
  yields n (mul_assign_u n t a u) ((bval a * u) mod modulus n).
Proof.
  intros n t a u Ha Hu [-> | [-> H]]; [exact (mul_assign_u64_correct n a u Ha Hu)|].
  exact (mul_assign_u_small n ULL a u Ha eq_refl (conj (proj1 Hu) H)).
Qed.
Print Assumptions C08_mul_any_u64_partial.
Example C08_example : wf 3 exA /\ mul_assign_u 3 ULL exA 4294967296 = Ok [0; 4294967295; 0].
Proof. split; [apply exA_wf|]. vm_compute. reflexivity. Qed.
Theorem C08_mul_any_u64_refuted : exists n a u, wf n a /\ 0 <= u < 2 ^ 64 /\
  ~ yields n (mul_assign_u n ULL a u) ((bval a * u) mod modulus n).
Proof.
  exists 3, [4294967295; 0; 0], 18446744073709551615. split; [wfc|]. split; [split; vm_compute; congruence|].
  intros (r & E & _ & V). vm_compute in E. injection E as <-. vm_compute in V. discriminate.
Qed.
Print Assumptions C08_mul_any_u64_refuted.

(** ** C09 *)
Theorem C09_division_euclidean : forall cfg n num d, 1 <= n -> wf n num -> wf n d -> bval d <> 0 ->
  exists q r, divide cfg n num d = Ok (q, r) /\
    represents n q (bval num / bval d) /\ represents n r (bval num mod bval d) /\
    bval num = bval q * bval d + bval r /\ 0 <= bval r < bval d /\
    op_div cfg n num d = Ok q /\ op_mod cfg n num d = Ok r /\
    div_assign cfg n num d = Ok q /\ mod_assign cfg n num d = Ok r.
Proof.
  intros cfg n num d Hn WN WD Hd. destruct (divide_pos cfg n num d Hn WN WD Hd) as (q & r & E & [Wq Vq] & [Wr Vr]).
  pose proof (bval_bound n d WD). pose proof (bval_bound n r Wr). pose proof (Z.mod_pos_bound (bval num) (bval d) ltac:(lia)).
  pose proof (Z.div_mod (bval num) (bval d) Hd).
  exists q, r. split; [exact E|]. split; [split; auto|]. split; [split; auto|]. split; [rewrite Vq, Vr; lia|]. split; [lia|].
  unfold div_assign, mod_assign, op_div, op_mod. rewrite E. repeat split; reflexivity.
Qed.
Print Assumptions C09_division_euclidean.
Example C09_example : wf 3 exB /\ wf 3 [10; 0; 0] /\ bval [10; 0; 0] <> 0 /\
  divide cfg0 3 exB [10; 0; 0] = Ok ([1717986918; 2576980377; 429496729], [4; 0; 0]).
Proof. split; [apply exB_wf|]. split; [wfc|]. split; [vm_compute; discriminate|]. vm_compute. reflexivity. Qed.

(** ** C10 *)
Theorem C10_division_by_zero : forall cfg n num d, 1 <= n -> wf n num -> wf n d -> bval d = 0 ->
  exists q r, divide cfg n num d = Ok (q, r) /\ wf n q /\ represents n r (bval num) /\
    bval num = bval q * bval d + bval r /\
    op_div cfg n num d = Ok q /\ op_mod cfg n num d = Ok r.
Proof.
  intros cfg n num d Hn WN WD Hd. destruct (divide_spec cfg n num d Hn WN WD) as (q & r & E & Wq & Wr & EQ & _ & H0).
  destruct (H0 Hd) as [Vr _]. exists q, r. split; [exact E|]. split; [exact Wq|]. split; [split; auto|]. split; [exact EQ|].
  unfold op_div, op_mod. rewrite E. split; reflexivity.
Qed.
Print Assumptions C10_division_by_zero.
Example C10_example : wf 3 exA /\ bval (zeros 3) = 0 /\ divide cfg0 3 exA (zeros 3) = Ok ([4294967295; 4294967295; 4294967295], exA).
Proof. split; [apply exA_wf|]. split; vm_compute; reflexivity. Qed.

(** ** C11 *)
Theorem C11_bitwise : forall n junk a b, len junk = n -> wf n a -> wf n b ->
  (exists r, op_not n junk a = Ok r /\ wf n r /\
     forall i, 0 <= i < 32 * n -> Z.testbit (bval r) i = negb (Z.testbit (bval a) i)) /\
  (exists r, op_and n a b = Ok r /\ and_assign n a b = Ok r /\ wf n r /\
     forall i, 0 <= i -> Z.testbit (bval r) i = (Z.testbit (bval a) i && Z.testbit (bval b) i)%bool) /\
  (exists r, op_or n a b = Ok r /\ or_assign n a b = Ok r /\ wf n r /\
     forall i, 0 <= i -> Z.testbit (bval r) i = (Z.testbit (bval a) i || Z.testbit (bval b) i)%bool) /\
  (exists r, op_xor n a b = Ok r /\ xor_assign n a b = Ok r /\ wf n r /\
     forall i, 0 <= i -> Z.testbit (bval r) i = xorb (Z.testbit (bval a) i) (Z.testbit (bval b) i)).
Proof.
  intros n junk a b Lj Wa Wb. split; [|split; [|split]].
  - destruct (op_not_correct n junk a Lj Wa) as [(r & E & W & _) (r' & E' & B)]. rewrite E in E'. injection E' as <-. eauto.
  - destruct (and_correct n a b Wa Wb) as (r & E & W & V). exists r. unfold op_and. split; [exact E|]. split; [exact E|]. split; [exact W|].
    intros i _. rewrite V. apply Z.land_spec.
  - destruct (or_correct n a b Wa Wb) as (r & E & W & V). exists r. unfold op_or. split; [exact E|]. split; [exact E|]. split; [exact W|].
    intros i _. rewrite V. apply Z.lor_spec.
  - destruct (xor_correct n a b Wa Wb) as (r & E & W & V). exists r. unfold op_xor. split; [exact E|]. split; [exact E|]. split; [exact W|].
    intros i _. rewrite V. apply Z.lxor_spec.
Qed.
Print Assumptions C11_bitwise.
Example C11_example : len exB = 3 /\ wf 3 exA /\ wf 3 exB /\ op_not 3 exB exA = Ok [0; 4294967295; 4294967294] /\
  op_xor 3 exA exB = Ok [4294967295; 4294967294; 4294967294].
Proof. split; [reflexivity|]. split; [apply exA_wf|]. split; [apply exB_wf|]. split; vm_compute; reflexivity. Qed.

(** ** C12 *)
Theorem C12_shift_left : forall n a s, wf n a -> 0 <= s ->
  yields n (op_shl n a s) (if s <? 32 * n then (bval a * 2 ^ s) mod modulus n else bval a) /\
  yields n (shl_assign n a s) (if s <? 32 * n then (bval a * 2 ^ s) mod modulus n else bval a).
Proof. intros n a s Wa Hs. split; exact (shl_total n a s Wa Hs). Qed.
Print Assumptions C12_shift_left.
Example C12_example : wf 3 exA /\ op_shl 3 exA 37 = Ok [0; 4294967264; 31] /\ op_shl 3 exA 64 = Ok [0; 0; 4294967295] /\ op_shl 3 exA 96 = Ok exA.
Proof. split; [apply exA_wf|]. conjs; vm_compute; reflexivity. Qed.

(** ** C13 *)
Theorem C13_shift_right : forall n a s, wf n a -> 0 <= s ->
  yields n (op_shr n a s) (if s <? 32 * n then bval a / 2 ^ s else bval a) /\
  yields n (shr_assign n a s) (if s <? 32 * n then bval a / 2 ^ s else bval a).
Proof. intros n a s Wa Hs. split; exact (shr_total n a s Wa Hs). Qed.
Print Assumptions C13_shift_right.
Example C13_example : wf 3 exB /\ op_shr 3 exB 37 = Ok [4294967295; 134217727; 0] /\ op_shr 3 exB 64 = Ok [4294967295; 0; 0] /\ op_shr 3 exB 96 = Ok exB.
Proof. split; [apply exB_wf|]. conjs; vm_compute; reflexivity. Qed.

(** ** C14 *)
Theorem C14_comparison_numeric : forall cfg n a b, wf n a -> wf n b ->
  (exists c, compareTo cfg n n a b = Ok c /\
     (c = CLess <-> bval a < bval b) /\ (c = CEqual <-> bval a = bval b) /\ (c = CGreater <-> bval a > bval b)) /\
  (exists o, op_spaceship cfg n n a b = Ok o /\
     (o = OLess <-> bval a < bval b) /\ (o = OEqual <-> bval a = bval b) /\ (o = OGreater <-> bval a > bval b)) /\
  op_eq cfg n n a b = Ok (bval a =? bval b) /\ op_ne cfg n n a b = Ok (negb (bval a =? bval b)) /\
  op_lt cfg n n a b = Ok (bval a <? bval b) /\ op_le cfg n n a b = Ok (bval a <=? bval b) /\
  op_gt cfg n n a b = Ok (bval a >? bval b) /\ op_ge cfg n n a b = Ok (bval a >=? bval b).
Proof. exact all_compare_same. Qed.
Print Assumptions C14_comparison_numeric.
(** Equal values are equal objects, so the order is total and antisymmetric on objects too. *)
Theorem C14_equal_values_equal_objects : forall n a b, wf n a -> wf n b -> bval a = bval b -> a = b.
Proof. exact bval_inj. Qed.
Print Assumptions C14_equal_values_equal_objects.
Example C14_example : wf 3 exA /\ wf 3 exB /\ op_lt cfg0 3 3 exA exB = Ok true /\ op_ge cfg0 3 3 exA exA = Ok true.
Proof. split; [apply exA_wf|]. split; [apply exB_wf|]. split; vm_compute; reflexivity. Qed.

(** ** C15 *)
Theorem C15_comparison_builtin : forall n a u, 2 <= n -> wf n a ->
  (0 <= u < 2 ^ 32 ->                            (* 8-, 16-, 32-bit operands *)
     op_eq_u32 n a u = Ok (bval a =? u) /\
     exists o, op_spaceship_u32 n a u = Ok o /\
       (o = OLess <-> bval a < u) /\ (o = OEqual <-> bval a = u) /\ (o = OGreater <-> bval a > u)) /\
  (0 <= u < 2 ^ 64 ->                            (* 64-bit operands *)
     op_eq_u64 n a u = Ok (bval a =? u) /\
     exists o, op_spaceship_u64 n a u = Ok o /\
       (o = OLess <-> bval a < u) /\ (o = OEqual <-> bval a = u) /\ (o = OGreater <-> bval a > u)).
Proof.
  intros n a u Hn Wa. destruct (compare_builtin n a u Wa) as [H1 H2]. split; [apply H1; lia|apply H2; lia].
Qed.
Print Assumptions C15_comparison_builtin.
Example C15_example : wf 3 exA /\ op_eq_u64 3 [4294967295; 7; 0] 34359738367 = Ok true /\ op_spaceship_u64 3 exA 18446744073709551615 = Ok OGreater.
Proof. split; [apply exA_wf|]. split; vm_compute; reflexivity. Qed.

(** ** C16 *)
Theorem C16_equality_across_precisions : forall cfg n m a b, wf n a -> wf m b ->
  op_eq cfg n m a b = Ok (bval a =? bval b) /\ op_ne cfg n m a b = Ok (negb (bval a =? bval b)).
Proof. intros cfg n m a b Wa Wb. unfold op_ne. rewrite (op_eq_cross cfg n m a b Wa Wb). split; reflexivity. Qed.
Print Assumptions C16_equality_across_precisions.
Example C16_example : wf 2 [5; 6] /\ wf 3 [5; 6; 0] /\ wf 3 [5; 6; 1] /\
  op_eq cfg0 2 3 [5; 6] [5; 6; 0] = Ok true /\ op_eq cfg0 2 3 [5; 6] [5; 6; 1] = Ok false.
Proof. split; [wfc|]. split; [wfc|]. split; [wfc|]. split; vm_compute; reflexivity. Qed.

(** ** C17.  False in general: the common low blocks are compared first.  Proved: the ordering is numeric
    when each number fits the other's width, or when the common low blocks are equal. *)
Theorem C17_ordering_across_precisions_partial : forall cfg n m a b, wf n a -> wf m b ->
  (bval a < 2 ^ (32 * m) /\ bval b < 2 ^ (32 * n)) \/
    bval a mod 2 ^ (32 * Z.min n m) = bval b mod 2 ^ (32 * Z.min n m) ->
  op_lt cfg n m a b = Ok (bval a <? bval b) /\ op_le cfg n m a b = Ok (bval a <=? bval b) /\
  op_gt cfg n m a b = Ok (bval a >? bval b) /\ op_ge cfg n m a b = Ok (bval a >=? bval b).
Proof. exact cross_order. Qed.
Print Assumptions C17_ordering_across_precisions_partial.
Example C17_example : wf 2 [5; 6] /\ wf 3 [4; 7; 0] /\ (bval [5; 6] < 2 ^ (32 * 3) /\ bval [4; 7; 0] < 2 ^ (32 * 2)) /\
  op_lt cfg0 2 3 [5; 6] [4; 7; 0] = Ok true.
Proof. split; [wfc|]. split; [wfc|]. split; [split; vm_compute; reflexivity|]. vm_compute. reflexivity. Qed.
(** 5 (64 bits) against 2^64 + 3 (128 bits): reported as greater. *)
Theorem C17_ordering_across_precisions_refuted : exists cfg n m a b, wf n a /\ wf m b /\
  bval a < bval b /\ op_gt cfg n m a b = Ok true /\ op_lt cfg n m a b = Ok false.
Proof.
  exists cfg0, 2, 4, [5; 0], [3; 0; 1; 0]. split; [wfc|]. split; [wfc|]. split; [vm_compute; reflexivity|]. split; vm_compute; reflexivity.
Qed.
Print Assumptions C17_ordering_across_precisions_refuted.

(** ** C18 *)
Theorem C18_bit_access : forall cfg n a i b, wf n a -> 0 <= i ->
  (i < 32 * n ->
     getBit cfg n a i = Ok (Z.testbit (bval a) i) /\
     exists r, setBit cfg n a i b = Ok r /\ wf n r /\
       forall k, 0 <= k -> Z.testbit (bval r) k = if k =? i then b else Z.testbit (bval a) k) /\
  (32 * n <= i -> cfg_unsafe cfg = false ->
     getBit cfg n a i = Ok false /\ setBit cfg n a i b = Ok a).
Proof.
  intros cfg n a i b Wa Hi. split.
  - intros H. split; [exact (getBit_spec cfg n a i Wa (conj Hi H))|].
    destruct (setBit_spec cfg n a i b Wa (conj Hi H)) as (r & E & W & V). exists r. split; [exact E|]. split; [exact W|].
    intros k Hk. rewrite V. apply put_bit_spec; auto.
  - intros H U. split; [exact (getBit_over cfg n a i U H)|exact (setBit_over cfg n a i b U H)].
Qed.
Print Assumptions C18_bit_access.
Example C18_example : wf 3 exA /\ getBit cfg0 3 exA 64 = Ok true /\ setBit cfg0 3 exA 33 true = Ok [4294967295; 2; 1] /\ setBit cfg0 3 exA 31 false = Ok [2147483647; 0; 1].
Proof. split; [apply exA_wf|]. conjs; vm_compute; reflexivity. Qed.

(** ** C19.  The full claim fails at the single index N/8, which passes the range check.  Proved: exact for
    every index below N/8 and inert for every index above N/8, and what happens at N/8. *)
Theorem C19_byte_access_partial : forall cfg n a i v, wf n a -> 0 <= i -> 0 <= v < 2 ^ 8 ->
  (i < 4 * n ->
     getByte cfg n a i = Ok ((bval a / 2 ^ (8 * i)) mod 2 ^ 8) /\
     exists r, setByte cfg n a i v = Ok r /\ wf n r /\
       forall k, 0 <= k -> Z.testbit (bval r) k = if k / 8 =? i then Z.testbit v (k mod 8) else Z.testbit (bval a) k) /\
  (4 * n < i -> cfg_unsafe cfg = false ->
     getByte cfg n a i = Ok 0 /\ setByte cfg n a i v = Ok a).
Proof.
  intros cfg n a i v Wa Hi Hv. split.
  - intros H. split; [exact (getByte_spec cfg n a i Wa (conj Hi H))|exact (setByte_spec cfg n a i v Wa (conj Hi H) Hv)].
  - intros H U. split; [exact (getByte_over cfg n a i U H)|exact (setByte_over cfg n a i v U H)].
Qed.
Print Assumptions C19_byte_access_partial.
Example C19_example : wf 3 exB /\ getByte cfg0 3 exB 4 = Ok 254 /\ setByte cfg0 3 exB 5 17 = Ok [0; 4294906366; 4294967295].
Proof. split; [apply exB_wf|]. split; vm_compute; reflexivity. Qed.
(** At index N/8 every object, in every configuration, aborts or accesses memory outside the object. *)
Theorem C19_byte_access_refuted : forall cfg n a v, 0 <= n -> wf n a ->
  getByte cfg n a (4 * n) = Err (if cfg_ndebug cfg then OutOfBounds else AssertFailed) /\
  setByte cfg n a (4 * n) v = Err (if cfg_ndebug cfg then OutOfBounds else AssertFailed).
Proof. intros cfg n a v Hn Wa. split; [exact (getByte_edge cfg n a Wa Hn)|exact (setByte_edge cfg n a v Wa Hn)]. Qed.
Print Assumptions C19_byte_access_refuted.

(** ** C20 *)
Theorem C20_block_access : forall cfg n a i v, wf n a -> 0 <= i -> 0 <= v < 2 ^ 32 ->
  (i < n ->
     getBlock cfg n a i = Ok ((bval a / 2 ^ (32 * i)) mod 2 ^ 32) /\
     exists r, setBlock cfg n a i v = Ok r /\ wf n r /\
       forall k, 0 <= k < n ->
         (bval r / 2 ^ (32 * k)) mod 2 ^ 32 = if k =? i then v else (bval a / 2 ^ (32 * k)) mod 2 ^ 32) /\
  (n <= i -> cfg_unsafe cfg = false ->
     getBlock cfg n a i = Ok 0 /\ setBlock cfg n a i v = Ok a).
Proof.
  intros cfg n a i v Wa Hi Hv. split.
  - intros H. split; [exact (getBlock_spec cfg n a i Wa (conj Hi H))|exact (setBlock_spec cfg n a i v Wa (conj Hi H) Hv)].
  - intros H U. split; [exact (getBlock_over cfg n a i U H)|exact (setBlock_over cfg n a i v U H)].
Qed.
Print Assumptions C20_block_access.
Example C20_example : wf 3 exB /\ getBlock cfg0 3 exB 1 = Ok 4294967294 /\ setBlock cfg0 3 exB 2 9 = Ok [0; 4294967294; 9] /\ setBlock cfg0 3 exB 3 9 = Ok exB.
Proof. split; [apply exB_wf|]. conjs; vm_compute; reflexivity. Qed.

(** ** C21 *)
Theorem C21_observers : forall n a, 1 <= n -> wf n a ->
  bitCount n a = Ok (bit_length (bval a)) /\
  byteCount n a = Ok ((bit_length (bval a) + 7) / 8) /\
  filledBlocksNumber n a = Ok ((bit_length (bval a) + 31) / 32) /\
  isZero n a = Ok (bval a =? 0) /\ isOdd a = Ok (Z.odd (bval a)) /\ isEven a = Ok (Z.even (bval a)).
Proof.
  intros n a Hn Wa. split; [exact (bitCount_spec n a Wa Hn)|]. split; [exact (byteCount_spec n a Wa Hn)|].
  split; [exact (filledBlocksNumber_value n a Wa)|]. split; [exact (isZero_spec n a Wa)|].
  split; [exact (isOdd_spec n a Wa Hn)|exact (isEven_spec n a Wa Hn)].
Qed.
Print Assumptions C21_observers.
Example C21_example : wf 3 exA /\ bitCount 3 exA = Ok 65 /\ byteCount 3 exA = Ok 9 /\ filledBlocksNumber 3 exA = Ok 3 /\ bitCount 3 (zeros 3) = Ok 0.
Proof. split; [apply exA_wf|]. conjs; vm_compute; reflexivity. Qed.

(** ** C22: both overloads; 64n + 2 loop iterations always suffice. *)
Theorem C22_gcd : forall cfg n fuel a b, 1 <= n -> wf n a -> wf n b -> 64 * n + 2 <= Z.of_nat fuel ->
  yields n (gcd cfg fuel n a b) (Z.gcd (bval a) (bval b)) /\
  exists g x y, gcd_ext cfg fuel n a b = Ok (g, x, y) /\ represents n g (Z.gcd (bval a) (bval b)).
Proof.
  intros cfg n fuel a b Hn Wa Wb Hf. split; [exact (gcd_correct cfg n fuel a b Hn Wa Wb Hf)|].
  destruct (egcd_correct cfg n fuel a b Hn Wa Wb Hf) as (g & x & y & E & Rg & _). eauto.
Qed.
Print Assumptions C22_gcd.
Example C22_example : wf 3 exA /\ wf 3 exB /\ gcd cfg0 194 3 [12; 0; 6] [0; 18; 0] = Ok [36; 0; 0] /\ gcd cfg0 194 3 (zeros 3) exA = Ok exA /\ gcd cfg0 194 3 (zeros 3) (zeros 3) = Ok (zeros 3).
Proof. split; [apply exA_wf|]. split; [apply exB_wf|]. conjs; vm_compute; reflexivity. Qed.

(** ** C23 *)
Theorem C23_bezout : forall cfg n fuel a b, 1 <= n -> wf n a -> wf n b -> 64 * n + 2 <= Z.of_nat fuel ->
  exists g x y, gcd_ext cfg fuel n a b = Ok (g, x, y) /\ represents n g (Z.gcd (bval a) (bval b)) /\ wf n x /\ wf n y /\
    (bval a * bval x + bval b * bval y) mod modulus n = Z.gcd (bval a) (bval b) mod modulus n.
Proof. exact egcd_correct. Qed.
Print Assumptions C23_bezout.
Example C23_example : wf 2 [240; 0] /\ wf 2 [46; 0] /\
  gcd_ext cfg0 130 2 [240; 0] [46; 0] = Ok ([2; 0], [4294967287; 4294967295], [47; 0]).
Proof. split; [wfc|]. split; [wfc|]. vm_compute. reflexivity. Qed.

(** ** C24 *)
Theorem C24_lcm : forall cfg n fuel a b, 1 <= n -> wf n a -> wf n b -> 64 * n + 2 <= Z.of_nat fuel ->
  yields n (lcm cfg fuel n a b) (Z.lcm (bval a) (bval b) mod modulus n).
Proof. exact lcm_correct. Qed.
Print Assumptions C24_lcm.
Theorem C24_lcm_exact_when_it_fits : forall cfg n fuel a b, 1 <= n -> wf n a -> wf n b -> 64 * n + 2 <= Z.of_nat fuel ->
  Z.lcm (bval a) (bval b) < modulus n -> yields n (lcm cfg fuel n a b) (Z.lcm (bval a) (bval b)).
Proof.
  intros cfg n fuel a b Hn Wa Wb Hf H. pose proof (Z.lcm_nonneg (bval a) (bval b)).
  rewrite <- (Z.mod_small (Z.lcm (bval a) (bval b)) (modulus n)) by lia. exact (lcm_correct cfg n fuel a b Hn Wa Wb Hf).
Qed.
Print Assumptions C24_lcm_exact_when_it_fits.
Example C24_example : wf 2 [12; 6] /\ lcm cfg0 130 2 [12; 0] [18; 0] = Ok [36; 0] /\ lcm cfg0 130 2 [0; 0] [0; 0] = Ok [0; 0] /\ lcm cfg0 130 2 [5; 1] [0; 0] = Ok [0; 0].
Proof. split; [wfc|]. conjs; vm_compute; reflexivity. Qed.

(** ** C25.  The only exception to the claim is power = 0 with modulus 1 (result 1 instead of 0). *)
Theorem C25_powm_partial : forall cfg n base power m, 1 <= n -> wf n base -> wf n power -> wf n m ->
  1 <= bval m -> (bval m - 1) * (bval m - 1) < modulus n ->
  (bval power <> 0 \/ bval m <> 1) ->
  yields n (powm cfg n base power m) (bval base ^ bval power mod bval m).
Proof.
  intros cfg n base power m Hn Wb Wp Wm Hm Hsq Hx. pose proof (powm_spec cfg n base power m Hn Wb Wp Wm ltac:(lia) Hsq) as H.
  destruct (Z.eqb_spec (bval power) 0) as [E|E]; [|exact H]. rewrite E, Z.pow_0_r, Z.mod_small by lia. exact H.
Qed.
Print Assumptions C25_powm_partial.
Example C25_example : wf 2 [3; 0] /\ wf 2 [1000; 5] /\ wf 2 [4294967291; 0] /\ (bval [4294967291; 0] - 1) * (bval [4294967291; 0] - 1) < modulus 2 /\
  powm cfg0 2 [3; 0] [1000; 0] [1000007; 0] = Ok [297623; 0].
Proof. split; [wfc|]. split; [wfc|]. split; [wfc|]. split; [vm_compute; reflexivity|]. vm_compute. reflexivity. Qed.
Theorem C25_powm_refuted : exists cfg n base power m, wf n base /\ wf n power /\ wf n m /\
  1 <= bval m /\ (bval m - 1) * (bval m - 1) < modulus n /\
  exists r, powm cfg n base power m = Ok r /\ bval r <> bval base ^ bval power mod bval m.
Proof.
  exists cfg0, 2, [7; 0], [0; 0], [1; 0]. split; [wfc|]. split; [wfc|]. split; [wfc|]. split; [vm_compute; congruence|]. split; [vm_compute; reflexivity|].
  exists [1; 0]. split; vm_compute; [reflexivity|discriminate].
Qed.
Print Assumptions C25_powm_refuted.

(** ** C26.  Exceptions: base 0 (returns 1), base 1 with modulus 1, and power 0 with modulus 1. *)
Theorem C26_powm_mixed_partial : forall cfg n k base power m, 1 <= n -> wf n base -> wf k power -> wf n m ->
  1 <= bval m -> (bval m - 1) * (bval m - 1) < modulus n ->
  bval base <> 0 -> (bval power <> 0 /\ bval base <> 1) \/ bval m <> 1 ->
  yields n (powm_x cfg n k base power m) (bval base ^ bval power mod bval m).
Proof.
  intros cfg n k base power m Hn Wb Wp Wm Hm Hsq H0 Hx. pose proof (bval_bound k power Wp).
  destruct (Z.eq_dec (bval base) 1) as [E1|E1].
  - rewrite E1, Z.pow_1_l by lia. rewrite Z.mod_small by lia. exact (powm_x_base1 cfg n k base power m Hn Wb E1).
  - pose proof (powm_x_spec cfg n k base power m Hn Wb Wp Wm ltac:(lia) Hsq H0 E1) as P.
    destruct (Z.eqb_spec (bval power) 0) as [E|E]; [|exact P]. rewrite E, Z.pow_0_r, Z.mod_small by lia. exact P.
Qed.
Print Assumptions C26_powm_mixed_partial.
Example C26_example : wf 2 [3; 0] /\ wf 3 [1; 0; 1] /\ wf 2 [1000007; 0] /\ powm_x cfg0 2 3 [3; 0] [1; 0; 1] [1000007; 0] = Ok [296701; 0].
Proof. split; [wfc|]. split; [wfc|]. split; [wfc|]. vm_compute. reflexivity. Qed.
(** 0^5 mod 7: returns 1. *)
Theorem C26_powm_mixed_refuted : exists cfg n k base power m, wf n base /\ wf k power /\ wf n m /\
  1 < bval m /\ 0 < bval power /\ (bval m - 1) * (bval m - 1) < modulus n /\
  exists r, powm_x cfg n k base power m = Ok r /\ bval r <> bval base ^ bval power mod bval m.
Proof.
  exists cfg0, 2, 3, [0; 0], [5; 0; 0], [7; 0]. split; [wfc|]. split; [wfc|]. split; [wfc|]. split; [vm_compute; reflexivity|]. split; [vm_compute; reflexivity|].
  split; [vm_compute; reflexivity|]. exists [1; 0]. split; vm_compute; [reflexivity|discriminate].
Qed.
Print Assumptions C26_powm_mixed_refuted.

(** ** C27 *)
Theorem C27_power2 : forall cfg n k, cfg_unsafe cfg = false -> 0 <= n -> 0 <= k ->
  yields n (power2 cfg n k) (if k <? 32 * n then 2 ^ k else 0).
Proof. exact power2_total. Qed.
Print Assumptions C27_power2.
Example C27_example : power2 cfg0 3 65 = Ok [0; 0; 2] /\ power2 cfg0 3 96 = Ok [0; 0; 0].
Proof. split; vm_compute; reflexivity. Qed.

(** ** C28: floor of the square root; 16n + 3 iterations suffice. *)
Theorem C28_square_root : forall cfg n fuel a, 1 <= n -> wf n a -> 16 * n + 3 <= Z.of_nat fuel ->
  exists s, squareRoot cfg fuel n a = Ok s /\ wf n s /\
    bval s * bval s <= bval a < (bval s + 1) * (bval s + 1).
Proof.
  intros cfg n fuel a Hn Wa Hf. destruct (squareRoot_correct cfg n fuel a Hn Wa Hf) as (s & E & W & V).
  exists s. split; [exact E|]. split; [exact W|]. rewrite V. pose proof (bval_bound n a Wa).
  exact (Z.sqrt_spec (bval a) ltac:(lia)).
Qed.
Print Assumptions C28_square_root.
Example C28_example : wf 2 [4294967295; 4294967295] /\ squareRoot cfg0 35 2 [4294967295; 4294967295] = Ok [4294967295; 0] /\ squareRoot cfg0 35 2 [0; 0] = Ok [0; 0].
Proof. split; [wfc|]. split; vm_compute; reflexivity. Qed.

(** ** C29 *)
Theorem C29_integral_cast : forall t n a, wf n a -> 2 <= n -> ity_ok t = true ->
  exists v, integralCast t a = Ok v /\
    (isigned t = false -> v = bval a mod 2 ^ iwidth t) /\
    (isigned t = true -> ity_min t <= v <= ity_max t /\ (v - bval a) mod 2 ^ iwidth t = 0).
Proof. exact integralCast_facts. Qed.
Print Assumptions C29_integral_cast.
Example C29_example : wf 3 exB /\ integralCast int16 [65535; 3; 9] = Ok (-1) /\ integralCast uint64 exB = Ok 18446744065119617024.
Proof. split; [apply exB_wf|]. split; vm_compute; reflexivity. Qed.

(** ** C30 *)
Theorem C30_precision_cast : forall cfg n m a, wf n a -> 0 <= m ->
  yields m (precisionCast cfg n m a) (bval a mod modulus m).
Proof. exact precisionCast_spec. Qed.
Print Assumptions C30_precision_cast.
Theorem C30_precision_roundtrip : forall cfg n m a, wf n a -> n <= m ->
  exists b, precisionCast cfg n m a = Ok b /\ wf m b /\ bval b = bval a /\ precisionCast cfg m n b = Ok a.
Proof. exact precisionCast_roundtrip. Qed.
Print Assumptions C30_precision_roundtrip.
Example C30_example : wf 3 exB /\ precisionCast cfg0 3 2 exB = Ok [0; 4294967294] /\ precisionCast cfg0 3 4 exB = Ok [0; 4294967294; 4294967295; 0].
Proof. split; [apply exB_wf|]. split; vm_compute; reflexivity. Qed.

(** ** C31: independent of the previous memory contents [junk]. *)
Theorem C31_construct_unsigned : forall n junk u, 1 <= n -> len junk = n -> 0 <= u < 2 ^ 64 ->
  yields n (from_unsigned n junk u) (u mod modulus n) /\
  (2 <= n -> yields n (from_unsigned n junk u) u).
Proof.
  intros n junk u Hn Lj Hu. assert (H : yields n (from_unsigned n junk u) (u mod modulus n)) by exact (from_unsigned_correct n junk u ltac:(lia) Lj Hu).
  split; [exact H|]. intros H2. rewrite Z.mod_small in H; [exact H|]. split; [lia|]. apply Z.lt_le_trans with (2 ^ 64); [lia|]. apply Z.pow_le_mono_r; lia.
Qed.
Print Assumptions C31_construct_unsigned.
Example C31_example : len exB = 3 /\ from_unsigned 3 exB 18446744069414584322 = Ok [2; 4294967295; 0] /\ from_unsigned 3 exB 0 = Ok [0; 0; 0].
Proof. conjs; vm_compute; reflexivity. Qed.
