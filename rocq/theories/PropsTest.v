(** * PropsTest: which draws the project's randomised tests accept (C103-C108). *)
From Coq Require Import ZifyBool.
From Verif Require Import Spec Lib AeuModel AeuArith AeuBits AeuAccess AeuDiv AeuFacts AeuMore AesiModel AesiArith AesiFacts
  MixModel MixFacts BinModel BinFacts TestModel TestFacts PropsMix.
Open Scope Z_scope.

(** ** Suites: the loop over the trials passes exactly when every trial does. *)
Theorem C103_suite : forall N trial, trials N trial = Ok true <-> forall i, 0 <= i < N -> trial i = Ok true.
Proof. exact trials_iff. Qed.
Print Assumptions C103_suite.

(** ** C103: tests that accept every draw. *)
Theorem C103_unsigned_sum_and_product : forall cfg n testsAmount draw, cfg_unsafe cfg = false -> 0 <= n ->
  (forall i, 0 <= i < testsAmount -> 0 <= fst (draw i) /\ 0 <= snd (draw i)) ->
  runCompositeTest (onAeu cfg n) (op_add n) (add_assign n) (gmp_total Z.add) testsAmount draw = Ok true /\
  runCompositeTest (onAeu cfg n) (op_mul n) (mul_assign n) (gmp_total Z.mul) testsAmount draw = Ok true.
Proof.
  intros cfg n N draw U Hn HD. pose proof (modulus_pos n Hn) as HM. unfold runCompositeTest. split; apply trials_iff; intros i Hi; destruct (HD i Hi) as [A B].
  - rewrite (composite_u cfg n _ _ _ _ _ ((fst (draw i) + snd (draw i)) mod modulus n) (fst (draw i) + snd (draw i)));
      [rewrite Z.abs_eq by lia; rewrite Z.eqb_refl; auto|auto|auto|reflexivity|].
    intros a b Wa Wb Va Vb. rewrite Z.abs_eq in Va, Vb by lia. unfold op_add. rewrite Zplus_mod, <- Va, <- Vb. split; apply add_assign_correct; auto.
  - rewrite (composite_u cfg n _ _ _ _ _ ((fst (draw i) * snd (draw i)) mod modulus n) (fst (draw i) * snd (draw i)));
      [rewrite Z.abs_eq by (apply Z.mul_nonneg_nonneg; auto); rewrite Z.eqb_refl; auto|auto|auto|reflexivity|].
    intros a b Wa Wb Va Vb. rewrite Z.abs_eq in Va, Vb by lia. unfold op_mul. rewrite Zmult_mod, <- Va, <- Vb. split; apply mul_assign_correct; auto.
Qed.
Print Assumptions C103_unsigned_sum_and_product.

Theorem C103_unsigned_builtin_sum_and_product : forall cfg n value k, cfg_unsafe cfg = false -> 0 <= n -> 0 <= value -> 0 <= k < 2 ^ 32 ->
  builtin (onAeu cfg n) (op_add_u n U32) (add_assign_u n U32) (gmp_total Z.add) value k = Ok true /\
  builtin (onAeu cfg n) (op_mul_u n U32) (mul_assign_u n U32) (gmp_total Z.mul) value k = Ok true.
Proof.
  intros cfg n v k U Hn Hv Hk. pose proof (modulus_pos n Hn) as HM. split.
  - rewrite (builtin_u cfg n _ _ _ _ _ ((v + k) mod modulus n) (v + k)); [rewrite Z.abs_eq by lia; rewrite Z.eqb_refl; auto|auto|auto|reflexivity|].
    intros a Wa Va. rewrite Z.abs_eq in Va by lia. unfold op_add_u.
    replace ((v + k) mod modulus n) with ((bval a + k) mod modulus n) by (rewrite Va; apply Zplus_mod_idemp_l).
    split; apply add_assign_u_correct; auto; cbn; lia.
  - rewrite (builtin_u cfg n _ _ _ _ _ ((v * k) mod modulus n) (v * k));
      [rewrite Z.abs_eq by (apply Z.mul_nonneg_nonneg; lia); rewrite Z.eqb_refl; auto|auto|auto|reflexivity|].
    intros a Wa Va. rewrite Z.abs_eq in Va by lia. unfold op_mul_u.
    replace ((v * k) mod modulus n) with ((bval a * k) mod modulus n) by (rewrite Va; apply Zmult_mod_idemp_l).
    split; apply mul_assign_u_correct; auto; cbn; try lia; discriminate.
Qed.
Print Assumptions C103_unsigned_builtin_sum_and_product.

(** The signed suites; the draws of trial [i] get the signs [sign_first i], [sign_second i]. *)
Lemma signed_abs s v : (s = 1 \/ s = -1) -> 0 <= v -> Z.abs (s * v) = v.
Proof. intros [-> | ->]; lia. Qed.
Theorem C103_signed_sum_and_difference : forall cfg n testsAmount draw, 1 <= n ->
  (forall i, 0 <= i < testsAmount -> 0 <= fst (draw i) < 2 ^ (32 * n - 1) /\ 0 <= snd (draw i) < 2 ^ (32 * n - 1)) ->
  runSignedCompositeTest (onAesi cfg n) (s_add cfg n) (s_add_assign cfg n) (gmp_total Z.add) testsAmount draw = Ok true /\
  runSignedCompositeTest (onAesi cfg n) (s_sub cfg n) (s_sub_assign cfg n) (gmp_total Z.sub) testsAmount draw = Ok true.
Proof.
  intros cfg n N draw H1 HD. assert (HM : modulus n = 2 * 2 ^ (32 * n - 1)) by (unfold modulus; rewrite <- Z.pow_succ_r by lia; f_equal; lia).
  assert (Hn : 0 <= n) by lia. unfold runSignedCompositeTest. conjs; apply trials_iff; intros i Hi; destruct (HD i Hi) as [A B];
    pose proof (signed_abs _ _ (sgn_first i) (proj1 A)) as SA; pose proof (signed_abs _ _ (sgn_second i) (proj1 B)) as SB;
    set (l := sign_first i * fst (draw i)) in *; set (r := sign_second i * snd (draw i)) in *;
    assert (Z.abs l < modulus n) by lia; assert (Z.abs r < modulus n) by lia.
  - assert (Z.abs (l + r) < modulus n) by lia.
    rewrite (composite_s cfg n _ _ _ l r (l + r) (l + r)); try rewrite Z.eqb_refl; auto.
    intros a b Wa Wb <- <-. unfold s_add. split; apply s_add_correct; auto.
  - assert (Z.abs (l - r) < modulus n) by lia.
    rewrite (composite_s cfg n _ _ _ l r (l - r) (l - r)); try rewrite Z.eqb_refl; auto.
    intros a b Wa Wb <- <-. unfold s_sub. split; apply s_sub_correct; auto.
Qed.
Print Assumptions C103_signed_sum_and_difference.
Theorem C103_signed_product : forall cfg n testsAmount draw, 0 <= n ->
  (forall i, 0 <= i < testsAmount -> 0 <= fst (draw i) < 2 ^ (16 * n) /\ 0 <= snd (draw i) < 2 ^ (16 * n)) ->
  runSignedCompositeTest (onAesi cfg n) (s_mul n) (s_mul_assign n) (gmp_total Z.mul) testsAmount draw = Ok true.
Proof.
  intros cfg n N draw Hn HD. assert (HM : modulus n = 2 ^ (16 * n) * 2 ^ (16 * n)) by (unfold modulus; rewrite <- Z.pow_add_r by lia; f_equal; lia).
  assert (HP : 0 < 2 ^ (16 * n)) by (apply Z.pow_pos_nonneg; lia). set (P := 2 ^ (16 * n)) in *.
  unfold runSignedCompositeTest. apply trials_iff; intros i Hi; destruct (HD i Hi) as [A B];
    pose proof (signed_abs _ _ (sgn_first i) (proj1 A)) as SA; pose proof (signed_abs _ _ (sgn_second i) (proj1 B)) as SB;
    set (l := sign_first i * fst (draw i)) in *; set (r := sign_second i * snd (draw i)) in *;
    assert (Z.abs l < modulus n) by (rewrite HM; nia); assert (Z.abs r < modulus n) by (rewrite HM; nia).
  assert (Z.abs (l * r) < modulus n) by (rewrite HM, Z.abs_mul, SA, SB; nia).
  rewrite (composite_s cfg n _ _ _ l r (l * r) (l * r)); try rewrite Z.eqb_refl; auto.
  intros a b Wa Wb <- <-. unfold s_mul. split; apply s_mul_correct; auto.
Qed.
Print Assumptions C103_signed_product.

(** Built-in operands of type [long]: the draw LONG_MIN is negated by the converting constructor (Aesi.h l.100-113), which is
    undefined behaviour; every other draw passes. *)
Lemma int64_bounds k : in_ity int64 k = true <-> - 2 ^ 63 <= k <= 2 ^ 63 - 1.
Proof. unfold in_ity, ity_min, ity_max, int64. cbn [isigned iwidth]. change (2 ^ (64 - 1)) with (2 ^ 63). lia. Qed.
Lemma from_int64 n k : 2 <= n -> - 2 ^ 63 < k <= 2 ^ 63 - 1 -> exists x, s_from_int n int64 k = Ok x /\ canon n x /\ sval x = k.
Proof.
  intros Hn Hk. apply s_from_int_correct; try lia.
  - reflexivity.
  - apply int64_bounds. lia.
  - intros _ _. cbn. lia.
Qed.
Lemma add_int64 cfg n a k : 2 <= n -> swf n a -> - 2 ^ 63 < k <= 2 ^ 63 - 1 -> Z.abs (sval a + k) < modulus n -> syields n (s_add_int cfg n int64 a k) (sval a + k).
Proof.
  intros Hn Wa Hk HB. unfold s_add_int, s_add. destruct (from_int64 n k Hn Hk) as (x & -> & C & V). cbn [bind]. rewrite <- V.
  apply s_add_correct; auto; [apply canon_swf; auto|rewrite V; auto].
Qed.
Lemma sub_int64 cfg n a k : 2 <= n -> swf n a -> - 2 ^ 63 < k <= 2 ^ 63 - 1 -> Z.abs (sval a - k) < modulus n -> syields n (s_sub_int cfg n int64 a k) (sval a - k).
Proof.
  intros Hn Wa Hk HB. unfold s_sub_int, s_sub. destruct (from_int64 n k Hn Hk) as (x & -> & C & V). cbn [bind]. rewrite <- V.
  apply s_sub_correct; auto; [apply canon_swf; auto|rewrite V; auto].
Qed.
Theorem C103_signed_builtin_long : forall cfg n value k, 3 <= n -> 0 <= value < 2 ^ (32 * n - 1) -> - 2 ^ 63 <= k <= 2 ^ 63 - 1 ->
  builtin (onAesi cfg n) (s_add_int cfg n int64) (s_add_int cfg n int64) (gmp_total Z.add) value k =
    (if k =? - 2 ^ 63 then Err SignedOverflow else Ok true) /\
  builtin2 (onAesi cfg n) (s_sub_int cfg n int64) (s_sub_int cfg n int64) (gmp_total Z.sub) value k =
    (if k =? - 2 ^ 63 then Err SignedOverflow else Ok true).
Proof.
  intros cfg n v k Hn Hv Hk. assert (HM : modulus n = 2 * 2 ^ (32 * n - 1)) by (unfold modulus; rewrite <- Z.pow_succ_r by lia; f_equal; lia).
  assert (HP : 2 ^ 95 <= 2 ^ (32 * n - 1)) by (apply Z.pow_le_mono_r; lia).
  assert (H63 : 2 ^ 95 = 2 ^ 63 * 2 ^ 32) by reflexivity. change (2 ^ 32) with 4294967296 in H63. assert (0 < 2 ^ 63) by reflexivity. set (P := 2 ^ 63) in *.
  destruct (Z.eqb_spec k (- P)) as [->|Hm].
  - destruct (s_from cfg n v ltac:(lia) ltac:(lia)) as (a & Ea & Ca & Va).
    unfold builtin, builtin2, onAesi. cbn [t_from]. rewrite Ea. cbn [bind].
    assert (E : s_from_int n int64 (- P) = Err SignedOverflow) by (unfold s_from_int; replace (- P <? 0) with true by lia; reflexivity).
    unfold s_add_int, s_sub_int. rewrite E. split; reflexivity.
  - split.
    + rewrite (builtin_s cfg n _ _ _ v k (v + k) (v + k)); try rewrite Z.eqb_refl; auto; try lia.
      intros a Wa <-. split; apply add_int64; auto; fold P; lia.
    + rewrite (builtin2_s cfg n _ _ _ v k (v - k) (v - k - k) (v - k) (v - k - k)); try rewrite Z.eqb_refl; auto; try lia.
      * intros a Wa <-. split; apply sub_int64; auto; fold P; lia.
      * intros a Wa E. rewrite <- E. split; apply sub_int64; auto; fold P; lia.
Qed.
Print Assumptions C103_signed_builtin_long.
Theorem C103_signed_builtin_product : forall cfg n value k, 2 <= n -> 0 <= value < 2 ^ (32 * n - 64) -> 0 <= k < 2 ^ 32 ->
  builtin2 (onAesi cfg n) (s_mul_int cfg n uint32) (s_mul_assign_int cfg n uint32) (gmp_total Z.mul) value k = Ok true.
Proof.
  intros cfg n v k Hn Hv Hk. assert (HM : modulus n = 2 ^ (32 * n - 64) * (2 ^ 32 * 2 ^ 32)) by (unfold modulus; rewrite <- Z.pow_add_r by lia; change (2 ^ 32 * 2 ^ 32) with (2 ^ 64); rewrite <- Z.pow_add_r by lia; f_equal; lia).
  set (P := 2 ^ (32 * n - 64)) in *. assert (0 < P) by (apply Z.pow_pos_nonneg; lia).
  set (B := 2 ^ 32) in *. assert (HB : 0 < B) by reflexivity.
  assert (KK : k * k <= B * B) by (apply Z.mul_le_mono_nonneg; lia).
  assert (H1 : v * k * k < modulus n).
  { rewrite HM. rewrite <- Z.mul_assoc. apply Z.le_lt_trans with (v * (B * B)); [apply Z.mul_le_mono_nonneg_l; lia|]. apply Z.mul_lt_mono_pos_r; nia. }
  assert (H2 : 0 <= v * k) by (apply Z.mul_nonneg_nonneg; lia). assert (H3 : 0 <= v * k * k) by (apply Z.mul_nonneg_nonneg; lia).
  assert (H4 : v * k < modulus n).
  { rewrite HM. apply Z.le_lt_trans with (v * (B * B)); [apply Z.mul_le_mono_nonneg_l; nia|]. apply Z.mul_lt_mono_pos_r; nia. }
  assert (H5 : Z.abs v < modulus n) by (rewrite Z.abs_eq by lia; rewrite HM; clear - Hv HB; nia).
  assert (U : in_ity uint32 k = true) by (unfold in_ity, ity_min, ity_max, uint32; cbn [isigned iwidth]; fold B; lia).
  assert (A : Z.abs k <= B) by lia.
  rewrite (builtin2_s cfg n _ _ _ v k (v * k) (v * k * k) (v * k) (v * k * k)); try rewrite Z.eqb_refl; auto; try lia.
  - intros a Wa <-. unfold s_mul_int. split; (apply s_mul_int_correct; auto; [cbn; discriminate|lia]).
  - intros a Wa E. rewrite <- E. unfold s_mul_int. split; (apply s_mul_int_correct; auto; [cbn; discriminate|rewrite E; lia]).
Qed.
Print Assumptions C103_signed_builtin_product.

(** The three bitwise suites. *)
Theorem C103_bitwise : forall cfg n l r l' r', cfg_unsafe cfg = false -> 0 <= n ->
  0 <= l < modulus n -> 0 <= r < modulus n -> 0 <= l' < modulus n -> 0 <= r' < modulus n ->
  bitwiseTrial cfg n (op_and n) (and_assign n) Z.land l r l' r' = Ok true /\
  bitwiseTrial cfg n (op_or n) (or_assign n) Z.lor l r l' r' = Ok true /\
  bitwiseTrial cfg n (op_xor n) (xor_assign n) Z.lxor l r l' r' = Ok true.
Proof.
  intros cfg n l r l' r' U Hn Hl Hr Hl' Hr'.
  assert (G : forall f gop, (forall a b, wf n a -> wf n b -> yields n (f n a b) (gop (bval a) (bval b))) -> bitwiseTrial cfg n (f n) (f n) gop l r l' r' = Ok true).
  { intros f gop H. unfold bitwiseTrial, onAeu. cbn [t_from t_eq].
    destruct (u_from cfg n l U Hn) as (a & -> & Wa & Va). cbn [bind]. destruct (u_from cfg n r U Hn) as (b & -> & Wb & Vb). cbn [bind].
    rewrite Z.abs_eq, Z.mod_small in Va, Vb by lia. destruct (H a b Wa Wb) as (x & -> & Wx & Vx). cbn [bind]. rewrite u_eq by auto. cbn [bind].
    destruct (u_from cfg n l' U Hn) as (a' & -> & Wa' & Va'). cbn [bind]. destruct (u_from cfg n r' U Hn) as (b' & -> & Wb' & Vb'). cbn [bind].
    rewrite Z.abs_eq, Z.mod_small in Va', Vb' by lia. destruct (H a' b' Wa' Wb') as (y & -> & Wy & Vy). cbn [bind]. rewrite u_eq by auto. cbn [bind].
    pose proof (bval_bound n x Wx). pose proof (bval_bound n y Wy). rewrite Va, Vb in Vx. rewrite Va', Vb' in Vy. rewrite <- Vx, <- Vy.
    rewrite !Z.abs_eq by lia. rewrite !Z.mod_small by lia. rewrite !Z.eqb_refl. auto. }
  unfold op_and, op_or, op_xor. conjs; apply G; intros; [apply and_correct|apply or_correct|apply xor_correct]; auto.
Qed.
Print Assumptions C103_bitwise.

(** Increments (the test draws [increments] below 100). *)
Lemma inc_loop_u cfg n l m : cfg_unsafe cfg = false -> 0 <= n -> 0 <= l -> 0 <= m ->
  runIncrementLoop (onAeu cfg n) (op_post_inc n) (op_inc n) l m = Ok true.
Proof.
  intros U Hn Hl Hm. unfold runIncrementLoop, onAeu. cbn [t_from t_eq]. destruct (u_from cfg n l U Hn) as (a & -> & Wa & Va). cbn [bind].
  rewrite Z.abs_eq in Va by lia.
  match goal with |- context [forU 0 m ?f ?s] => destruct (forU_spec (fun i (st : list Z * bool) => wf n (fst st) /\ bval (fst st) = (l + 2 * i) mod modulus n /\ snd st = true) 0 m f s) as ([v ok] & -> & W & V & Eok) end.
  - lia.
  - cbn. conjs; auto. rewrite Va. f_equal. lia.
  - intros i [v ok] Hi (W & V & Eok). cbn [fst snd] in W, V, Eok. subst ok. unfold op_post_inc.
    destruct (op_inc_correct n v W) as (v1 & -> & W1 & V1). cbn [bind]. rewrite u_eq by auto. cbn [bind].
    destruct (op_inc_correct n v1 W1) as (v2 & -> & W2 & V2). cbn [bind]. rewrite u_eq by auto. cbn [bind]. eexists. split; [reflexivity|]. cbn [fst snd].
    assert (E2 : bval v2 = (l + 2 * i + 2) mod modulus n) by (rewrite V2, V1, V; rewrite Zplus_mod_idemp_l, <- Z.add_assoc, Zplus_mod_idemp_l; f_equal; lia).
    rewrite V, E2, !Z.abs_eq by lia. rewrite !Z.eqb_refl. conjs; auto. f_equal. lia.
  - cbn [bind fst snd] in *. subst ok. rewrite u_eq by auto. cbn [bind]. rewrite V, Z.abs_eq by lia. replace (l + m * 2) with (l + 2 * m) by lia. rewrite Z.eqb_refl. auto.
Qed.
Lemma inc_loop_s cfg n l m : 1 <= n -> Z.abs l + 2 * m < modulus n -> 0 <= m ->
  runIncrementLoop (onAesi cfg n) (s_post_inc n) (s_inc n) l m = Ok true.
Proof.
  intros H1 Hl Hm. assert (Hn : 0 <= n) by lia. unfold runIncrementLoop, onAesi. cbn [t_from t_eq]. destruct (s_from cfg n l Hn ltac:(lia)) as (a & -> & Ca & Va). cbn [bind].
  match goal with |- context [forU 0 m ?f ?s] => destruct (forU_spec (fun i (st : aesi * bool) => swf n (fst st) /\ sval (fst st) = l + 2 * i /\ snd st = true) 0 m f s) as ([v ok] & -> & W & V & Eok) end.
  - lia.
  - cbn. conjs; auto; [apply canon_swf; auto|lia].
  - intros i [v ok] Hi (W & V & Eok). cbn [fst snd] in W, V, Eok. subst ok. unfold s_post_inc.
    destruct (s_inc_correct n v H1 W ltac:(lia)) as (v1 & -> & W1 & V1). cbn [bind]. rewrite s_eq_z by (auto; lia). cbn [bind].
    destruct (s_inc_correct n v1 H1 W1 ltac:(lia)) as (v2 & -> & W2 & V2). cbn [bind]. rewrite s_eq_z by (auto; lia). cbn [bind]. eexists. split; [reflexivity|]. cbn [fst snd].
    conjs; auto; [lia|]. lia.
  - cbn [bind fst snd] in *. subst ok. rewrite s_eq_z by (auto; lia). cbn [bind]. rewrite V. replace (l + m * 2) with (l + 2 * m) by lia. rewrite Z.eqb_refl. auto.
Qed.
Theorem C103_increments : forall cfg n l increments, 1 <= n -> 0 <= increments ->
  (cfg_unsafe cfg = false -> 0 <= l -> runIncrementLoop (onAeu cfg n) (op_post_inc n) (op_inc n) l increments = Ok true) /\
  (Z.abs l + 2 * increments < modulus n -> runIncrementLoop (onAesi cfg n) (s_post_inc n) (s_inc n) l increments = Ok true).
Proof. intros. split; intros; [apply inc_loop_u|apply inc_loop_s]; auto; lia. Qed.
Print Assumptions C103_increments.

(** Draws of the actual sizes meet the hypotheses: the precisions 256, 512, 1024 are n = 8, 16, 32. *)
Lemma C103_hypotheses_met : forall n, 8 <= n -> 2 ^ (16 * n - 10) <= 2 ^ (16 * n) /\ 2 ^ (32 * n - 110) <= 2 ^ (32 * n - 1) /\
  2 ^ (32 * n - 200) <= 2 ^ (32 * n - 64) /\ 2 ^ (32 * n - 20) <= modulus n /\ 2 ^ (32 * n - 110) + 2 * 100 <= modulus n.
Proof.
  intros n Hn. assert (P : 2 ^ 146 <= 2 ^ (32 * n - 110)) by (apply Z.pow_le_mono_r; lia). assert (200 <= 2 ^ 146) by (vm_compute; discriminate).
  assert (Q : 2 ^ (32 * n - 110 + 1) <= modulus n) by (unfold modulus; apply Z.pow_le_mono_r; lia). rewrite Z.pow_add_r in Q by lia. change (2 ^ 1) with 2 in Q.
  conjs; try (apply Z.pow_le_mono_r; lia); try lia.
Qed.
Example C103_example :
  composite (onAeu cfg0 2) (op_add 2) (add_assign 2) (gmp_total Z.add) 4294967295 4294967295 = Ok true /\
  composite (onAesi cfg0 2) (s_sub cfg0 2) (s_sub_assign cfg0 2) (gmp_total Z.sub) (-7) 4294967295 = Ok true /\
  builtin (onAesi cfg0 3) (s_add_int cfg0 3 int64) (s_add_int cfg0 3 int64) (gmp_total Z.add) 5 (-9) = Ok true /\
  runIncrementLoop (onAesi cfg0 2) (s_post_inc 2) (s_inc 2) (-3) 3 = Ok true.
Proof. conjs; vm_compute; reflexivity. Qed.

(** ** C104: subtraction.  The unsigned test compares the wrapped difference with the absolute value of GMP's. *)
Theorem C104_unsigned_difference : forall cfg n l r, cfg_unsafe cfg = false -> 0 <= n -> 0 <= l < modulus n -> 0 <= r < modulus n ->
  composite (onAeu cfg n) (op_sub n) (sub_assign n) (gmp_total Z.sub) l r = Ok ((r <=? l) || (2 * (r - l) =? modulus n)).
Proof.
  intros cfg n l r U Hn Hl Hr. rewrite (composite_u cfg n _ _ _ _ _ ((l - r) mod modulus n) (l - r)); [rewrite sub_abs by (auto; lia); auto|auto|auto|reflexivity|].
  intros a b Wa Wb Va Vb. rewrite Z.abs_eq, Z.mod_small in Va, Vb by lia. unfold op_sub. rewrite <- Va, <- Vb. split; apply sub_assign_correct; auto.
Qed.
Print Assumptions C104_unsigned_difference.
Theorem C104_unsigned_builtin_difference : forall cfg n junk value k, cfg_unsafe cfg = false -> 3 <= n -> len junk = n -> 0 <= value < modulus n -> 0 <= k < 2 ^ 32 ->
  builtin (onAeu cfg n) (u_sub_int n junk) (u_sub_int n junk) (gmp_total Z.sub) value k = Ok (k <=? value).
Proof.
  intros cfg n junk v k U Hn Hj Hv Hk. assert (HM : 2 ^ 96 <= modulus n) by (unfold modulus; apply Z.pow_le_mono_r; lia).
  assert (2 * 2 ^ 32 < 2 ^ 96) by reflexivity.
  rewrite (builtin_u cfg n _ _ _ _ _ ((v - k) mod modulus n) (v - k)); [rewrite sub_abs by lia|auto|lia|reflexivity|].
  - replace (2 * (k - v) =? modulus n) with false by lia. rewrite orb_false_r. auto.
  - intros a Wa Va. rewrite Z.abs_eq, Z.mod_small in Va by lia. unfold u_sub_int, op_sub. destruct (u_temp n junk k ltac:(lia) Hj ltac:(lia)) as (x & -> & Wx & Vx).
    cbn [bind]. rewrite <- Va, <- Vx. split; apply sub_assign_correct; auto.
Qed.
Print Assumptions C104_unsigned_builtin_difference.
Lemma dec_loop_u cfg n l m : cfg_unsafe cfg = false -> 0 <= n -> 0 <= l < modulus n -> 0 <= m -> 4 * m < modulus n ->
  runDecrementLoop (onAeu cfg n) (op_post_dec n) (op_dec n) l m = Ok (2 * m <=? l).
Proof.
  intros U Hn Hl Hm H4. unfold runDecrementLoop, onAeu. cbn [t_from t_eq]. destruct (u_from cfg n l U Hn) as (a & -> & Wa & Va). cbn [bind].
  rewrite Z.abs_eq, Z.mod_small in Va by lia.
  assert (T : forall d, 0 <= d <= 2 * m -> ((l - d) mod modulus n =? Z.abs (l - d) mod modulus n) = (d <=? l)).
  { intros d Hd. rewrite sub_abs by lia. replace (2 * (d - l) =? modulus n) with false by lia. apply orb_false_r. }
  match goal with |- context [forU 0 m ?f ?s] => destruct (forU_spec (fun i (st : list Z * bool) => wf n (fst st) /\ bval (fst st) = (l - 2 * i) mod modulus n /\ snd st = (2 * i <=? l)) 0 m f s) as ([v ok] & -> & W & V & Eok) end.
  - lia.
  - cbn. conjs; auto; [rewrite Va, Z.mod_small by lia; lia|lia].
  - intros i [v ok] Hi (W & V & Eok). cbn [fst snd] in W, V, Eok. subst ok. unfold op_post_dec.
    destruct (op_dec_correct n v W) as (v1 & -> & W1 & V1). cbn [bind]. rewrite u_eq by auto. cbn [bind].
    destruct (op_dec_correct n v1 W1) as (v2 & -> & W2 & V2). cbn [bind]. rewrite u_eq by auto. cbn [bind]. eexists. split; [reflexivity|]. cbn [fst snd].
    assert (E2 : bval v2 = (l - 2 * i - 2) mod modulus n) by (rewrite V2, V1, V; rewrite Zminus_mod_idemp_l, <- Z.sub_add_distr, Zminus_mod_idemp_l; f_equal; lia).
    rewrite V, E2. rewrite (T (2 * i)) by lia. replace (l - 2 * i - 2) with (l - (2 * i + 2)) by lia. rewrite T by lia. conjs; auto; [f_equal; lia|lia].
  - cbn [bind fst snd] in *. subst ok. rewrite u_eq by auto. cbn [bind]. rewrite V. replace (l - m * 2) with (l - 2 * m) by lia. rewrite T by lia. rewrite andb_diag. auto.
Qed.
Lemma dec_loop_s cfg n l m : 1 <= n -> Z.abs l + 2 * m < modulus n -> 0 <= m ->
  runDecrementLoop (onAesi cfg n) (s_post_dec n) (s_dec n) l m = Ok true.
Proof.
  intros H1 Hl Hm. assert (Hn : 0 <= n) by lia. unfold runDecrementLoop, onAesi. cbn [t_from t_eq]. destruct (s_from cfg n l Hn ltac:(lia)) as (a & -> & Ca & Va). cbn [bind].
  match goal with |- context [forU 0 m ?f ?s] => destruct (forU_spec (fun i (st : aesi * bool) => swf n (fst st) /\ sval (fst st) = l - 2 * i /\ snd st = true) 0 m f s) as ([v ok] & -> & W & V & Eok) end.
  - lia.
  - cbn. conjs; auto; [apply canon_swf; auto|lia].
  - intros i [v ok] Hi (W & V & Eok). cbn [fst snd] in W, V, Eok. subst ok. unfold s_post_dec.
    destruct (s_dec_correct n v H1 W ltac:(lia)) as (v1 & -> & W1 & V1). cbn [bind]. rewrite s_eq_z by (auto; lia). cbn [bind].
    destruct (s_dec_correct n v1 H1 W1 ltac:(lia)) as (v2 & -> & W2 & V2). cbn [bind]. rewrite s_eq_z by (auto; lia). cbn [bind]. eexists. split; [reflexivity|]. cbn [fst snd].
    conjs; auto; [lia|]. lia.
  - cbn [bind fst snd] in *. subst ok. rewrite s_eq_z by (auto; lia). cbn [bind]. rewrite V. replace (l - m * 2) with (l - 2 * m) by lia. rewrite Z.eqb_refl. auto.
Qed.
Theorem C104_decrements : forall cfg n l decrements, 1 <= n -> 0 <= decrements ->
  (cfg_unsafe cfg = false -> 0 <= l < modulus n -> 4 * decrements < modulus n ->
    runDecrementLoop (onAeu cfg n) (op_post_dec n) (op_dec n) l decrements = Ok (2 * decrements <=? l)) /\
  (Z.abs l + 2 * decrements < modulus n -> runDecrementLoop (onAesi cfg n) (s_post_dec n) (s_dec n) l decrements = Ok true).
Proof. intros. split; intros; [apply dec_loop_u|apply dec_loop_s]; auto; lia. Qed.
Print Assumptions C104_decrements.
(** So the unsigned suites do not accept every draw of the sizes they ask for. *)
Theorem C104_not_every_draw :
  ~ (forall cfg n l r, cfg_unsafe cfg = false -> 8 <= n -> 0 <= l < 2 ^ (32 * n - 5) -> 0 <= r < 2 ^ (32 * n - 32) ->
       composite (onAeu cfg n) (op_sub n) (sub_assign n) (gmp_total Z.sub) l r = Ok true) /\
  ~ (forall cfg n l, cfg_unsafe cfg = false -> 8 <= n -> 0 <= l < 2 ^ (32 * n - 110) ->
       runDecrementLoop (onAeu cfg n) (op_post_dec n) (op_dec n) l 1 = Ok true).
Proof.
  split; intros H.
  - specialize (H cfg0 8 0 1 eq_refl). rewrite C104_unsigned_difference in H; [|reflexivity|lia|vm_compute; split; congruence|vm_compute; split; congruence].
    assert (F : (1 <=? 0) || (2 * (1 - 0) =? modulus 8) = false) by (vm_compute; reflexivity). rewrite F in H.
    assert (X : Ok false = Ok true) by (apply H; [lia|split; [lia|vm_compute; reflexivity]|split; [lia|vm_compute; reflexivity] ]). discriminate X.
  - specialize (H cfg0 8 0 eq_refl). destruct (C104_decrements cfg0 8 0 1 ltac:(lia) ltac:(lia)) as [E _].
    rewrite E in H; [|reflexivity|vm_compute; split; congruence|vm_compute; reflexivity].
    assert (X : Ok (2 * 1 <=? 0) = Ok true) by (apply H; [lia|split; [lia|vm_compute; reflexivity] ]). discriminate X.
Qed.
Print Assumptions C104_not_every_draw.
Example C104_example :
  composite (onAeu cfg0 2) (op_sub 2) (sub_assign 2) (gmp_total Z.sub) 12 5 = Ok true /\
  composite (onAeu cfg0 2) (op_sub 2) (sub_assign 2) (gmp_total Z.sub) 5 12 = Ok false /\
  runDecrementLoop (onAeu cfg0 2) (op_post_dec 2) (op_dec 2) 6 3 = Ok true /\
  runDecrementLoop (onAeu cfg0 2) (op_post_dec 2) (op_dec 2) 5 3 = Ok false.
Proof. conjs; vm_compute; reflexivity. Qed.

(** ** C105: division and modulo.  GMP ends the program when the divisor drawn is zero. *)
Lemma div_any cfg n a b : 1 <= n -> wf n a -> wf n b -> exists q r, divide cfg n a b = Ok (q, r) /\ wf n q /\ wf n r.
Proof. intros Hn Wa Wb. destruct (divide_spec cfg n a b Hn Wa Wb) as (q & r & E & Wq & Wr & _). exists q, r. auto. Qed.
Theorem C105_unsigned_division : forall cfg n l r, cfg_unsafe cfg = false -> 1 <= n -> 0 <= l < modulus n -> 0 <= r < modulus n ->
  composite (onAeu cfg n) (op_div cfg n) (div_assign cfg n) gmp_quot l r = (if r =? 0 then Err GmpDivByZero else Ok true) /\
  composite (onAeu cfg n) (op_mod cfg n) (mod_assign cfg n) gmp_rem l r = (if r =? 0 then Err GmpDivByZero else Ok true).
Proof.
  intros cfg n l r U Hn Hl Hr. destruct (Z.eqb_spec r 0) as [->|Hz].
  - unfold composite, onAeu. cbn [t_from t_eq]. destruct (u_from cfg n l U ltac:(lia)) as (a & -> & Wa & Va). cbn [bind].
    destruct (u_from cfg n 0 U ltac:(lia)) as (b & -> & Wb & Vb). cbn [bind]. unfold op_div, op_mod.
    destruct (div_any cfg n a b Hn Wa Wb) as (q & x & -> & _). split; reflexivity.
  - assert (Q : 0 <= l / r <= l) by (split; [apply Z.div_pos; lia|apply Z.div_le_upper_bound; nia]). pose proof (Z.mod_pos_bound l r ltac:(lia)).
    split.
    + rewrite (composite_u cfg n _ _ _ _ _ (l / r) (l / r)); [rewrite Z.abs_eq, Z.mod_small by lia; rewrite Z.eqb_refl; auto|auto|lia| |].
      * unfold gmp_quot. replace (r =? 0) with false by lia. rewrite Z.quot_div_nonneg by lia. auto.
      * intros a b Wa Wb Va Vb. rewrite Z.abs_eq, Z.mod_small in Va, Vb by lia. unfold div_assign. rewrite <- Va, <- Vb. split; apply op_div_total; auto; lia.
    + rewrite (composite_u cfg n _ _ _ _ _ (l mod r) (l mod r)); [rewrite Z.abs_eq, (Z.mod_small (l mod r)) by lia; rewrite Z.eqb_refl; auto|auto|lia| |].
      * unfold gmp_rem. replace (r =? 0) with false by lia. rewrite Z.rem_mod_nonneg by lia. auto.
      * intros a b Wa Wb Va Vb. rewrite Z.abs_eq, Z.mod_small in Va, Vb by lia. unfold mod_assign. rewrite <- Va, <- Vb. split; apply op_div_total; auto; lia.
Qed.
Print Assumptions C105_unsigned_division.
Theorem C105_unsigned_builtin_division : forall cfg n junk value k, cfg_unsafe cfg = false -> 2 <= n -> len junk = n -> 0 <= value < modulus n -> 0 <= k < 2 ^ 32 ->
  builtin (onAeu cfg n) (u_div_int cfg n junk) (u_div_int cfg n junk) gmp_quot value k = (if k =? 0 then Err GmpDivByZero else Ok true) /\
  builtin (onAeu cfg n) (u_mod_int cfg n junk) (u_mod_int cfg n junk) gmp_rem value k = (if k =? 0 then Err GmpDivByZero else Ok true).
Proof.
  intros cfg n junk v k U Hn Hj Hv Hk. destruct (Z.eqb_spec k 0) as [->|Hz].
  - unfold builtin, onAeu, u_div_int, u_mod_int. cbn [t_from t_eq]. destruct (u_from cfg n v U ltac:(lia)) as (a & -> & Wa & Va). cbn [bind].
    destruct (u_temp n junk 0 Hn Hj ltac:(lia)) as (b & -> & Wb & Vb). cbn [bind]. unfold op_div, op_mod.
    destruct (div_any cfg n a b ltac:(lia) Wa Wb) as (q & x & -> & _). split; reflexivity.
  - assert (Q : 0 <= v / k <= v) by (split; [apply Z.div_pos; lia|apply Z.div_le_upper_bound; nia]). pose proof (Z.mod_pos_bound v k ltac:(lia)).
    pose proof (Z.mod_le v k ltac:(lia) ltac:(lia)).
    split.
    + rewrite (builtin_u cfg n _ _ _ _ _ (v / k) (v / k)); [rewrite Z.abs_eq, Z.mod_small by lia; rewrite Z.eqb_refl; auto|auto|lia| |].
      * unfold gmp_quot. replace (k =? 0) with false by lia. rewrite Z.quot_div_nonneg by lia. auto.
      * intros a Wa Va. rewrite Z.abs_eq, Z.mod_small in Va by lia. rewrite <- Va. split; apply (C77_unsigned_mixed_operators cfg n junk a k); auto; lia.
    + rewrite (builtin_u cfg n _ _ _ _ _ (v mod k) (v mod k)); [rewrite Z.abs_eq, (Z.mod_small (v mod k)) by lia; rewrite Z.eqb_refl; auto|auto|lia| |].
      * unfold gmp_rem. replace (k =? 0) with false by lia. rewrite Z.rem_mod_nonneg by lia. auto.
      * intros a Wa Va. rewrite Z.abs_eq, Z.mod_small in Va by lia. rewrite <- Va. split; apply (C77_unsigned_mixed_operators cfg n junk a k); auto; lia.
Qed.
Print Assumptions C105_unsigned_builtin_division.
Lemma quot_abs_le l r : r <> 0 -> Z.abs (Z.quot l r) <= Z.abs l.
Proof. intros H. rewrite <- Z.quot_abs by auto. apply Z.quot_le_upper_bound; [lia|]. assert (0 <= Z.abs l * (Z.abs r - 1)) by (apply Z.mul_nonneg_nonneg; lia). lia. Qed.
(** Trial [i] of the signed division suite: [first = sign_first i], the operands drawn with their signs. *)
Theorem C105_signed_division : forall cfg n first l r, 1 <= n -> Z.abs l < modulus n -> Z.abs r < modulus n ->
  signedDivision cfg n first l r = if r =? 0 then Err GmpDivByZero else Ok true.
Proof.
  intros cfg n first l r Hn Hl Hr. unfold signedDivision, onAesi. cbn [t_from t_eq].
  destruct (s_from cfg n l ltac:(lia) Hl) as (a & -> & Ca & Va). cbn [bind]. destruct (s_from cfg n r ltac:(lia) Hr) as (b & -> & Cb & Vb). cbn [bind].
  assert (G : (if first =? 1 then gmp_quot l r else q <- gmp_quot (l * -1) r ;; Ok (-1 * q)) = if r =? 0 then Err GmpDivByZero else Ok (Z.quot l r)).
  { unfold gmp_quot. destruct (first =? 1), (Z.eqb_spec r 0) as [E|E]; auto. cbn [bind]. f_equal. replace (l * -1) with (- l) by lia. rewrite Z.quot_opp_l by auto. lia. }
  rewrite G. destruct (Z.eqb_spec r 0) as [E|E]; [reflexivity|]. cbn [bind]. unfold s_div.
  destruct (s_div_correct cfg n a b Hn (canon_swf _ _ Ca) (canon_swf _ _ Cb) ltac:(lia)) as (x & -> & Wx & Vx). cbn [bind].
  rewrite Va, Vb in Vx. pose proof (quot_abs_le l r E). rewrite s_eq_z by (auto; lia). cbn [bind]. rewrite Vx, Z.eqb_refl. auto.
Qed.
Print Assumptions C105_signed_division.
Theorem C105_signed_modulo : forall cfg n l r, 1 <= n -> 0 <= l < modulus n -> 0 <= r < modulus n ->
  composite (onAesi cfg n) (s_mod cfg n) (s_mod_assign cfg n) gmp_rem l r = (if r =? 0 then Err GmpDivByZero else Ok true).
Proof.
  intros cfg n l r Hn Hl Hr. destruct (Z.eqb_spec r 0) as [->|Hz].
  - unfold composite, onAesi. cbn [t_from t_eq]. destruct (s_from cfg n l ltac:(lia) ltac:(lia)) as (a & -> & Ca & Va). cbn [bind].
    reflexivity.
  - pose proof (Z.rem_bound_pos l r ltac:(lia) ltac:(lia)) as B. rewrite (composite_s cfg n _ _ _ l r (Z.rem l r) (Z.rem l r)); [rewrite Z.eqb_refl; auto|lia|lia|lia|lia| |].
    + unfold gmp_rem. replace (r =? 0) with false by lia. auto.
    + intros a b Wa Wb Va Vb. unfold s_mod. assert (E : Z.rem l r = Z.sgn (sval b) * Z.rem (sval a) (sval b)) by (rewrite Va, Vb, (Z.sgn_pos r) by lia; lia).
      rewrite E. split; apply s_mod_correct; auto; lia.
Qed.
Print Assumptions C105_signed_modulo.
Lemma uint64_in k : 0 <= k < 2 ^ 64 -> in_ity uint64 k = true.
Proof. intros. unfold in_ity, ity_min, ity_max, uint64. cbn [isigned iwidth]. lia. Qed.
Theorem C105_signed_builtin_division : forall cfg n value k, 2 <= n -> 0 <= value < modulus n -> 0 <= k < 2 ^ 64 ->
  builtin (onAesi cfg n) (s_div_int cfg n uint64) (s_div_assign_int cfg n uint64) gmp_quot value k = (if k =? 0 then Err GmpDivByZero else Ok true).
Proof.
  intros cfg n v k Hn Hv Hk. destruct (Z.eqb_spec k 0) as [->|Hz].
  - unfold builtin, onAesi. cbn [t_from t_eq]. destruct (s_from cfg n v ltac:(lia) ltac:(lia)) as (a & -> & Ca & Va). cbn [bind]. reflexivity.
  - pose proof (quot_abs_le v k Hz). rewrite (builtin_s cfg n _ _ _ v k (Z.quot v k) (Z.quot v k)); [rewrite Z.eqb_refl; auto|lia|lia|lia| |].
    + unfold gmp_quot. replace (k =? 0) with false by lia. auto.
    + intros a Wa <-. unfold s_div_int. split; apply s_div_int_correct; auto; try lia; try (apply uint64_in; auto); cbn; discriminate.
Qed.
Print Assumptions C105_signed_builtin_division.
(** The signed modulo by a built-in number: a zero remainder keeps the sign of the operand, and then the test fails. *)
Lemma mod_u64 cfg n a k : 2 <= n -> wf n (mag a) -> 0 < k < 2 ^ 64 ->
  exists r, s_mod_assign_int cfg n uint64 a k = Ok r /\ wf n (mag r) /\ sgn r = sgn a /\ bval (mag r) = bval (mag a) mod k.
Proof.
  intros Hn W Hk. unfold s_mod_assign_int, s_strip_sign. replace (k =? 0) with false by lia. replace (k <? 0) with false by lia. cbn [bind].
  unfold u64. rewrite Z.mod_small by lia. destruct (u_temp n (zeros n) k Hn ltac:(apply len_zeros; lia) ltac:(lia)) as (d & -> & Wd & Vd). cbn [bind].
  unfold mod_assign. destruct (op_div_total cfg n (mag a) d ltac:(lia) W Wd ltac:(lia)) as [_ (r & -> & Wr & Vr)]. cbn [bind].
  eexists. split; [reflexivity|]. cbn [mag sgn with_mag]. rewrite <- Vd. auto.
Qed.
Lemma eq_by_sign cfg n a : s_eq_mpz cfg true n a 0 = Ok (sign_eqb (sgn a) SZero).
Proof. unfold s_eq_mpz, s_from_mpz. cbn [bind Z.eqb]. unfold s_eq. rewrite Z.eqb_refl. unfold s_compareTo, s_isZero. cbn. destruct (sgn a); reflexivity. Qed.
Theorem C105_signed_builtin_modulo : forall cfg n value k, 2 <= n -> 0 <= value < modulus n -> 0 <= k < 2 ^ 64 ->
  builtin_mod (onAesi cfg n) (s_mod_int cfg n uint64) (s_mod_assign_int cfg n uint64) gmp_rem value k =
    (if k =? 0 then Err GmpDivByZero else Ok ((value =? 0) || negb (value mod k =? 0))).
Proof.
  intros cfg n v k Hn Hv Hk. unfold builtin_mod, onAesi. cbn [t_from t_eq]. destruct (s_from cfg n v ltac:(lia) ltac:(lia)) as (a & -> & Ca & Va). cbn [bind].
  destruct (Z.eqb_spec k 0) as [->|Hz]; [reflexivity|]. unfold s_mod_int.
  destruct Ca as (Wa & Ca). destruct (mod_u64 cfg n a k Hn Wa ltac:(lia)) as (x & -> & Wx & Sx & Vx). cbn [bind].
  unfold gmp_rem. replace (k =? 0) with false by lia. cbn [bind].
  destruct (mod_u64 cfg n x k Hn Wx ltac:(lia)) as (y & -> & Wy & Sy & Vy). rewrite Vx, Z.mod_mod in Vy by lia.
  assert (Hm : bval (mag a) = v /\ (sgn a = SZero /\ v = 0 \/ sgn a = SPos /\ v <> 0)).
  { unfold sval in Va. pose proof (bval_bound n (mag a) Wa). destruct (sgn a) eqn:S.
    - destruct Ca as [Ca _]. specialize (Ca eq_refl). split; [lia|left; auto].
    - split; [lia|right]. split; auto. intros E. destruct Ca as [_ Ca]. assert (SPos = SZero) by (apply Ca; lia). discriminate.
    - assert (E : bval (mag a) = 0) by lia. destruct Ca as [_ Ca]. discriminate (Ca E). }
  destruct Hm as [Hm Hs]. rewrite Hm in Vx, Vy. rewrite Z.rem_mod_nonneg by lia. pose proof (Z.mod_pos_bound v k ltac:(lia)). pose proof (Z.mod_le v k ltac:(lia) ltac:(lia)).
  destruct (Z.eqb_spec (v mod k) 0) as [E|E].
  - rewrite E. rewrite eq_by_sign. cbn [bind]. rewrite eq_by_sign. cbn [bind]. rewrite Sy, Sx. destruct Hs as [ [-> ->]|[-> Hv0] ]; [reflexivity|]. cbn. replace (v =? 0) with false by lia. reflexivity.
  - assert (v <> 0) by (intros ->; rewrite Z.mod_0_l in E; lia). destruct Hs as [ [_ ?]|[S _] ]; [lia|].
    assert (G : forall z, wf n (mag z) -> sgn z = SPos -> bval (mag z) = v mod k -> s_eq_mpz cfg true n z (v mod k) = Ok true).
    { intros z Wz Sz Vz. rewrite s_eq_z; [|lia|split; [auto|intros _; lia]|lia]. unfold sval. rewrite Sz, Vz, Z.eqb_refl. auto. }
    rewrite (G x) by (auto; congruence). cbn [bind]. rewrite (G y) by (auto; congruence). cbn [bind]. rewrite orb_true_r. reflexivity.
Qed.
Print Assumptions C105_signed_builtin_modulo.
Example C105_example :
  composite (onAeu cfg0 2) (op_div cfg0 2) (div_assign cfg0 2) gmp_quot 100 7 = Ok true /\
  signedDivision cfg0 2 (-1) (-100) 7 = Ok true /\
  builtin_mod (onAesi cfg0 2) (s_mod_int cfg0 2 uint64) (s_mod_assign_int cfg0 2 uint64) gmp_rem 100 7 = Ok true /\
  builtin_mod (onAesi cfg0 2) (s_mod_int cfg0 2 uint64) (s_mod_assign_int cfg0 2 uint64) gmp_rem 100 10 = Ok false.
Proof. conjs; vm_compute; reflexivity. Qed.
