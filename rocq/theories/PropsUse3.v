(** * PropsUse3: C139, C140, modular inverses and primality testing with the public interface. *)
From Coq Require Import Zpow_facts Znumtheory.
From Verif Require Import UseModel2 Lib AeuArith AeuAccess AeuDiv AeuFacts AeuMore MixFacts Fermat PropsMore.
Open Scope Z_scope.

Ltac conjs := repeat match goal with |- _ /\ _ => split end.
Ltac wfc := apply wfb_wf; vm_compute; reflexivity.

(** ** C139 *)
Lemma coefficient cfg n fuel a m : 1 <= n -> wf n a -> wf n m -> 64 * n + 2 <= Z.of_nat fuel ->
  1 < bval m < 2 ^ (32 * n - 1) -> Z.gcd (bval a) (bval m) = 1 ->
  exists g x y X, gcd_ext cfg fuel n a m = Ok (g, x, y) /\ wf n x /\ Z.abs X <= bval m /\ (bval a * X) mod bval m = 1 /\
    bval x = (if X <? 0 then modulus n + X else X) /\ getBit cfg n x (32 * n - 1) = Ok (X <? 0).
Proof.
  intros Hn Wa Wm Hf Hm G. destruct (C23_modular_inverse cfg n fuel a m Hn Wa Wm Hf ltac:(lia) G) as (g & x & y & X & E & _ & [Wx Vx] & BX & IX).
  assert (M2 : modulus n = 2 * 2 ^ (32 * n - 1)) by (unfold modulus; rewrite <- Z.pow_succ_r by lia; f_equal; lia).
  assert (V : bval x = (if X <? 0 then modulus n + X else X)).
  { rewrite Vx. destruct (Z.ltb_spec X 0) as [N|N]; [rewrite <- (Z_mod_plus_full X 1)|]; rewrite Z.mod_small; lia. }
  exists g, x, y, X. conjs; auto. rewrite getBit_spec by (auto; lia). f_equal. rewrite Z.testbit_odd, Z.shiftr_div_pow2 by lia. rewrite V.
  destruct (Z.ltb_spec X 0) as [N|N].
  - replace ((modulus n + X) / 2 ^ (32 * n - 1)) with 1; [reflexivity|]. apply Z.div_unique with (modulus n + X - 2 ^ (32 * n - 1)); lia.
  - rewrite Z.div_small by lia. reflexivity.
Qed.
(** The coefficient reduced by %: the inverse exactly if its top bit is clear or m divides 2^N. *)
Theorem C139_inverse_by_mod_partial : forall cfg n fuel a m, 1 <= n -> wf n a -> wf n m -> 64 * n + 2 <= Z.of_nat fuel ->
  1 < bval m < 2 ^ (32 * n - 1) -> Z.gcd (bval a) (bval m) = 1 ->
  exists g x y r, gcd_ext cfg fuel n a m = Ok (g, x, y) /\ inverse_by_mod cfg fuel n a m = Ok r /\ wf n r /\ bval r < bval m /\
    ((bval a * bval r) mod bval m = 1 <-> bval x < 2 ^ (32 * n - 1) \/ (bval m | 2 ^ (32 * n))).
Proof.
  intros cfg n fuel a m Hn Wa Wm Hf Hm G. destruct (coefficient cfg n fuel a m Hn Wa Wm Hf Hm G) as (g & x & y & X & E & Wx & BX & IX & V & _).
  assert (M2 : modulus n = 2 * 2 ^ (32 * n - 1)) by (unfold modulus; rewrite <- Z.pow_succ_r by lia; f_equal; lia).
  destruct (op_div_total cfg n x m Hn Wx Wm ltac:(lia)) as [_ (r & Er & Wr & Vr)].
  exists g, x, y, r. split; [exact E|]. split; [unfold inverse_by_mod; rewrite E; cbn [bind]; exact Er|]. split; [exact Wr|].
  pose proof (Z.mod_pos_bound (bval x) (bval m) ltac:(lia)). split; [lia|]. rewrite Vr, Zmult_mod_idemp_r, V. destruct (Z.ltb_spec X 0) as [N|N].
  - split.
    + intros Q. right. change (2 ^ (32 * n)) with (modulus n). apply (Gauss (bval m) (bval a)).
      * apply Z.mod_divide; [lia|]. replace (bval a * modulus n) with (bval a * (modulus n + X) - bval a * X) by ring.
        rewrite Zminus_mod, Q, IX. reflexivity.
      * apply Zgcd_1_rel_prime. rewrite Z.gcd_comm. exact G.
    + intros [Q|Q]; [lia|]. change (2 ^ (32 * n)) with (modulus n) in Q. destruct Q as [c Q]. rewrite Q.
      replace (bval a * (c * bval m + X)) with (bval a * X + (bval a * c) * bval m) by ring. rewrite Z_mod_plus_full. exact IX.
  - split; [intros _; left; lia|auto].
Qed.
Print Assumptions C139_inverse_by_mod_partial.
(** The full claim is false: 3 * 5 = 1 mod 7, but the program returns 0. *)
Theorem C139_inverse_by_mod_refuted : exists a m, wf 2 a /\ wf 2 m /\ Z.gcd (bval a) (bval m) = 1 /\ 1 < bval m < 2 ^ 63 /\
  inverse_by_mod cfg0 130 2 a m = Ok [0; 0].
Proof. exists [3; 0], [7; 0]. split; [wfc|]. split; [wfc|]. conjs; vm_compute; reflexivity. Qed.
(** With the sign taken into account it is the inverse, for every coprime a and every m below half the range. *)
Theorem C139_inverse_by_sign : forall cfg n fuel a m, 1 <= n -> wf n a -> wf n m -> 64 * n + 2 <= Z.of_nat fuel ->
  1 < bval m < 2 ^ (32 * n - 1) -> Z.gcd (bval a) (bval m) = 1 ->
  exists r, inverse_by_sign cfg fuel n a m = Ok r /\ wf n r /\ 0 < bval r < bval m /\ (bval a * bval r) mod bval m = 1.
Proof.
  intros cfg n fuel a m Hn Wa Wm Hf Hm G. destruct (coefficient cfg n fuel a m Hn Wa Wm Hf Hm G) as (g & x & y & X & E & Wx & BX & IX & V & B).
  assert (M2 : modulus n = 2 * 2 ^ (32 * n - 1)) by (unfold modulus; rewrite <- Z.pow_succ_r by lia; f_equal; lia).
  assert (NZ : X mod bval m <> 0). { intros Q. rewrite <- Zmult_mod_idemp_r, Q, Z.mul_0_r, Z.mod_0_l in IX by lia. lia. }
  unfold inverse_by_sign. rewrite E. cbn [bind]. rewrite B. cbn [bind]. destruct (Z.ltb_spec X 0) as [N|N].
  - destruct (op_neg_correct n x Wx) as (x' & -> & Wx' & Vx'). cbn [bind].
    assert (Vx2 : bval x' = - X). { rewrite Vx', V. replace (- (modulus n + X)) with (- X + (-1) * modulus n) by ring. rewrite Z_mod_plus_full. apply Z.mod_small. lia. }
    destruct (op_div_total cfg n x' m Hn Wx' Wm ltac:(lia)) as [_ (r & -> & Wr & Vr)]. cbn [bind]. rewrite Vx2 in Vr.
    destruct (sub_assign_correct n m r Wm Wr) as (s & Es & Ws & Vs). exists s. split; [exact Es|]. split; [exact Ws|].
    pose proof (Z.mod_pos_bound (- X) (bval m) ltac:(lia)). assert (R0 : (- X) mod bval m <> 0).
    { intros Q. apply NZ. apply Z.mod_divide; [lia|]. apply Z.divide_opp_r. apply Z.mod_divide; [lia|exact Q]. }
    rewrite Z.mod_small in Vs by lia. rewrite Vs, Vr. split; [lia|].
    replace (bval a * (bval m - (- X) mod bval m)) with (- (bval a * ((- X) mod bval m)) + bval a * bval m) by ring. rewrite Z_mod_plus_full.
    rewrite (Z.mod_eq (- X) (bval m)) by lia. replace (- (bval a * (- X - bval m * (- X / bval m)))) with (bval a * X + (bval a * (- X / bval m)) * bval m) by ring.
    rewrite Z_mod_plus_full. exact IX.
  - destruct (op_div_total cfg n x m Hn Wx Wm ltac:(lia)) as [_ (r & -> & Wr & Vr)]. exists r. split; [reflexivity|]. split; [exact Wr|].
    pose proof (Z.mod_pos_bound (bval x) (bval m) ltac:(lia)). rewrite Vr, V in *. split; [lia|]. rewrite Zmult_mod_idemp_r. exact IX.
Qed.
Print Assumptions C139_inverse_by_sign.
Example C139_example : wf 2 [3; 0] /\ wf 2 [7; 0] /\ inverse_by_sign cfg0 130 2 [3; 0] [7; 0] = Ok [5; 0] /\ inverse_by_mod cfg0 130 2 [5; 0] [7; 0] = Ok [3; 0] /\
  gcd_ext cfg0 130 2 [3; 0] [7; 0] = Ok ([1; 0], [4294967294; 4294967295], [1; 0]).
Proof. split; [wfc|]. split; [wfc|]. conjs; vm_compute; reflexivity. Qed.

(** ** C140 *)
(** a is a witness for the compositeness of p unless this holds (p - 1 = 2^s d with odd d). *)
Definition strong_probable_prime (p a : Z) : Prop := exists d s, 0 <= s /\ 0 < d /\ Z.odd d = true /\ p - 1 = 2 ^ s * d /\
  (a ^ d mod p = 1 \/ exists r, 0 <= r < s /\ a ^ (2 ^ r * d) mod p = p - 1).
Lemma odd_part_unique s d s' d' : 0 <= s -> 0 <= s' -> Z.odd d = true -> Z.odd d' = true -> 2 ^ s * d = 2 ^ s' * d' -> s = s' /\ d = d'.
Proof.
  assert (H : forall s d s' d', 0 <= s -> s < s' -> Z.odd d = true -> 2 ^ s * d = 2 ^ s' * d' -> False).
  { clear. intros s d s' d' Hs L O E. replace (2 ^ s') with (2 ^ s * (2 * 2 ^ (s' - s - 1))) in E by (rewrite <- Z.pow_succ_r, <- Z.pow_add_r by lia; f_equal; lia).
    rewrite <- !Z.mul_assoc in E. apply Z.mul_reg_l in E; [|pose proof (Z.pow_pos_nonneg 2 s); lia]. rewrite E, Z.odd_mul in O. discriminate. }
  intros Hs Hs' O O' E. destruct (Z.lt_trichotomy s s') as [L|[L|L] ].
  - exfalso. exact (H s d s' d' Hs L O E).
  - subst s'. split; [reflexivity|]. apply Z.mul_reg_l in E; [exact E|pose proof (Z.pow_pos_nonneg 2 s); lia].
  - exfalso. exact (H s' d' s d Hs' L O' (eq_sym E)).
Qed.
Lemma strip_twos_spec n fuel d : 1 <= n -> wf n d -> bval d <> 0 -> 32 * n <= Z.of_nat fuel ->
  exists d' s, strip_twos n fuel d = Ok (d', s) /\ wf n d' /\ 0 <= s /\ 0 < bval d' /\ Z.odd (bval d') = true /\ bval d = 2 ^ s * bval d'.
Proof.
  intros Hn Wd D0 Hf. pose proof (bval_bound n d Wd) as Bd. unfold strip_twos.
  match goal with |- context [whileF fuel ?B _] =>
  destruct (whileF_spec (fun '(x, s) => wf n x /\ 0 <= s /\ 0 < bval x /\ bval d = 2 ^ s * bval x) (fun '(x, _) => Z.log2 (bval x))
    (fun '(x, s) => wf n x /\ 0 <= s /\ 0 < bval x /\ Z.odd (bval x) = true /\ bval d = 2 ^ s * bval x) B fuel (d, 0)) as ([x s] & -> & P) end.
  - conjs; auto; try lia. 
  - apply Z.lt_le_trans with (32 * n); [|exact Hf]. apply Z.log2_lt_pow2; [lia|]. unfold modulus in Bd. lia.
  - intros [x s] _. apply Z.log2_nonneg.
  - intros [x s] (W & S & P & E). rewrite (isEven_spec n) by auto. cbn [bind]. destruct (Z.even (bval x)) eqn:EV.
    + destruct (shr_total n x 1 W ltac:(lia)) as (x' & -> & W' & V'). cbn [bind]. replace (1 <? 32 * n) with true in V' by lia. change (2 ^ 1) with 2 in V'.
      apply Z.even_spec in EV. destruct EV as [h EV]. assert (V2 : bval x' = h) by (rewrite V', EV, Z.mul_comm; apply Z.div_mul; lia).
      eexists. split; [reflexivity|]. cbn [step_post]. assert (0 < h) by lia. conjs; auto; try lia.
      * rewrite Z.pow_add_r by lia. rewrite E, V2, EV. change (2 ^ 1) with 2. ring.
      * rewrite V2, EV. rewrite Z.log2_double by lia. lia.
    + eexists. split; [reflexivity|]. cbn [step_post]. conjs; auto. rewrite <- Z.negb_even, EV. reflexivity.
  - exists x, s. destruct P as (A & B & C & D & F). conjs; auto.
Qed.
Lemma next_square p a d j : 1 < p -> 0 <= d -> 1 <= j -> ((a ^ (2 ^ (j - 1) * d) mod p) * (a ^ (2 ^ (j - 1) * d) mod p)) mod p = a ^ (2 ^ j * d) mod p.
Proof.
  intros Hp Hd Hj. rewrite <- Zmult_mod. f_equal. rewrite <- Z.pow_add_r by (apply Z.mul_nonneg_nonneg; [apply Z.pow_nonneg|]; lia).
  f_equal. replace (2 ^ j) with (2 * 2 ^ (j - 1)) by (rewrite <- Z.pow_succ_r by lia; f_equal; lia). ring.
Qed.
(** The round answers exactly whether p is a strong probable prime to base a. *)
Theorem C140_miller_rabin : forall cfg fuel n p a, 1 <= n -> wf n p -> wf n a -> 32 * n <= Z.of_nat fuel ->
  3 <= bval p -> Z.odd (bval p) = true -> (bval p - 1) * (bval p - 1) < modulus n ->
  exists b, miller_rabin cfg fuel n p a = Ok b /\ (b = true <-> strong_probable_prime (bval p) (bval a)).
Proof.
  intros cfg fuel n p a Hn Wp Wa Hf P3 PO SQ. pose proof (bval_bound n p Wp) as Bp. pose proof (bval_bound n a Wa) as Ba. unfold miller_rabin.
  destruct (one_spec n Hn) as (o & -> & Wo & Vo). cbn [bind].
  destruct (sub_assign_correct n p o Wp Wo) as (p1 & Ep1 & W1 & V1). unfold op_sub. rewrite Ep1. cbn [bind]. rewrite Vo, Z.mod_small in V1 by lia.
  destruct (strip_twos_spec n fuel p1 Hn W1 ltac:(lia) Hf) as (d & s & -> & Wd & S0 & D0 & DO & DE). cbn [bind]. rewrite V1 in DE.
  assert (S1 : 1 <= s). { destruct (Z.eq_dec s 0) as [->|]; [|lia]. rewrite Z.pow_0_r, Z.mul_1_l in DE. rewrite <- DE, Z.odd_sub, PO in DO. discriminate. }
  pose proof (powm_spec cfg n a d p Hn Wa Wd Wp ltac:(lia) SQ) as PW. replace (bval d =? 0) with false in PW by lia. destruct PW as (x & -> & Wx & Vx). cbn [bind].
  rewrite op_eq_u32_spec by (auto; lia). cbn [bind]. rewrite op_eq_cross by auto. cbn [bind]. rewrite V1, Vx.
  assert (UNI : strong_probable_prime (bval p) (bval a) <-> (bval a ^ bval d mod bval p = 1 \/ exists r, 0 <= r < s /\ bval a ^ (2 ^ r * bval d) mod bval p = bval p - 1)).
  { split.
    - intros (d' & s' & H1 & H2 & H3 & H4 & H5). destruct (odd_part_unique s (bval d) s' d') as [-> ->]; auto; congruence.
    - intros H. exists (bval d), s. conjs; auto. }
  setoid_rewrite UNI. clear UNI. destruct (Z.eqb_spec (bval a ^ bval d mod bval p) 1) as [E1|E1]; cbn [orb]; [exists true; split; [reflexivity|tauto]|].
  destruct (Z.eqb_spec (bval a ^ bval d mod bval p) (bval p - 1)) as [E2|E2].
  { exists true. split; [reflexivity|]. split; [intros _; right; exists 0; rewrite Z.pow_0_r, Z.mul_1_l; split; [lia|auto]|auto]. }
  match goal with |- context [forUx 1 s ?B x] =>
  destruct (forUx_spec (fun j y => wf n y /\ bval y = bval a ^ (2 ^ (j - 1) * bval d) mod bval p /\ forall r, 0 <= r < j -> bval a ^ (2 ^ r * bval d) mod bval p <> bval p - 1)
    (fun b : bool => b = true /\ exists r, 0 <= r < s /\ bval a ^ (2 ^ r * bval d) mod bval p = bval p - 1) 1 s B x S1) as (st & -> & ST) end.
  - split; [exact Wx|]. split; [rewrite Vx; f_equal; change (2 ^ (1 - 1)) with 1; rewrite Z.mul_1_l; reflexivity|].
    intros r Hr. replace r with 0 by lia. rewrite Z.pow_0_r, Z.mul_1_l. exact E2.
  - intros j y Hj (Wy & Vy & NO). pose proof (Z.mod_pos_bound (bval a ^ (2 ^ (j - 1) * bval d)) (bval p) ltac:(lia)) as MB. rewrite <- Vy in MB.
    assert (YY : bval y * bval y < modulus n). { apply Z.le_lt_trans with ((bval p - 1) * (bval p - 1)); [|exact SQ]. apply Z.mul_le_mono_nonneg; lia. }
    destruct (mul_assign_correct n y y Wy Wy) as (q & Eq & Wq & Vq). unfold op_mul. rewrite Eq. cbn [bind].
    rewrite Z.mod_small in Vq by (split; [apply Z.mul_nonneg_nonneg; lia|exact YY]).
    destruct (op_div_total cfg n q p Hn Wq Wp ltac:(lia)) as [_ (z & -> & Wz & Vz)]. cbn [bind].
    rewrite op_eq_cross by auto. cbn [bind]. rewrite V1.
    assert (VZ : bval z = bval a ^ (2 ^ j * bval d) mod bval p) by (rewrite Vz, Vq, Vy; apply next_square; lia).
    destruct (Z.eqb_spec (bval z) (bval p - 1)) as [E|E].
    + eexists. split; [reflexivity|]. cbn [step_post]. split; [reflexivity|]. exists j. split; [lia|]. rewrite <- VZ. exact E.
    + eexists. split; [reflexivity|]. cbn [step_post]. split; [exact Wz|]. split; [replace (j + 1 - 1) with j by lia; exact VZ|].
      intros r Hr. destruct (Z.eq_dec r j) as [->|]; [rewrite <- VZ; exact E|apply NO; lia].
  - destruct st as [y|b]; cbn [step_post] in ST.
    + exists false. split; [reflexivity|]. split; [discriminate|]. intros [Q|(r & Hr & Q)]; [congruence|]. destruct ST as (_ & _ & NO). elim (NO r Hr Q).
    + destruct ST as (-> & ST). exists true. split; [reflexivity|]. tauto.
Qed.
Print Assumptions C140_miller_rabin.
(** No prime is ever rejected, so an answer "false" proves that the number is composite. *)
Lemma prime_strong p a : prime p -> 3 <= p -> 0 <= a -> ~ (p | a) -> Z.odd p = true -> forall s d, 0 <= s -> 0 < d -> p - 1 = 2 ^ s * d ->
  a ^ d mod p = 1 \/ exists r, 0 <= r < s /\ a ^ (2 ^ r * d) mod p = p - 1.
Proof.
  intros Pp P3 A0 ND PO s d S0 D0 DE. pose proof (fermat_one p a Pp ND) as F. rewrite DE in F.
  assert (K : forall k, 0 <= k -> a ^ (2 ^ k * d) mod p = 1 -> a ^ d mod p = 1 \/ exists r, 0 <= r < k /\ a ^ (2 ^ r * d) mod p = p - 1).
  { clear F DE. intros k Hk. pattern k. apply natlike_ind; auto; clear k Hk.
    - rewrite Z.pow_0_r, Z.mul_1_l. auto.
    - intros k Hk IH E. set (y := a ^ (2 ^ k * d)) in *. assert (Y : a ^ (2 ^ Z.succ k * d) = y * y).
      { unfold y. rewrite <- Z.pow_add_r by (apply Z.mul_nonneg_nonneg; [apply Z.pow_nonneg|]; lia). f_equal. rewrite Z.pow_succ_r by lia. ring. }
      rewrite Y in E. assert (DV : (p | (y - 1) * (y + 1))).
      { apply Z.mod_divide; [lia|]. replace ((y - 1) * (y + 1)) with (y * y - 1) by ring. rewrite Zminus_mod, E, Z.mod_1_l by lia. apply Z.mod_0_l. lia. }
      apply prime_mult in DV; auto. destruct DV as [ [c DV]|[c DV] ].
      + destruct IH as [H|(r & Hr & H)]; [|auto|right; exists r; split; [lia|auto] ].
        replace y with (1 + c * p) by lia. rewrite Z_mod_plus_full. apply Z.mod_1_l. lia.
      + right. exists k. split; [lia|]. fold y. replace y with ((p - 1) + (c - 1) * p) by lia. rewrite Z_mod_plus_full. apply Z.mod_small. lia. }
  apply K; auto.
Qed.
Theorem C140_primes_pass : forall cfg fuel n p a, 1 <= n -> wf n p -> wf n a -> 32 * n <= Z.of_nat fuel ->
  prime (bval p) -> 3 <= bval p -> ~ (bval p | bval a) -> (bval p - 1) * (bval p - 1) < modulus n ->
  miller_rabin cfg fuel n p a = Ok true.
Proof.
  intros cfg fuel n p a Hn Wp Wa Hf Pp P3 ND SQ.
  assert (PO : Z.odd (bval p) = true).
  { destruct (Z.odd (bval p)) eqn:E; auto. exfalso. assert (EV : Z.even (bval p) = true) by (rewrite <- Z.negb_odd, E; reflexivity).
    apply Z.even_spec in EV. destruct EV as [h EV]. assert (D : (2 | bval p)) by (exists h; lia). apply prime_divisors in D; auto. lia. }
  destruct (C140_miller_rabin cfg fuel n p a Hn Wp Wa Hf P3 PO SQ) as (b & -> & H). f_equal. apply H.
  assert (X : exists d s, 0 <= s /\ 0 < d /\ Z.odd d = true /\ bval p - 1 = 2 ^ s * d).
  { destruct (one_spec n Hn) as (o & _ & Wo & Vo). destruct (sub_assign_correct n p o Wp Wo) as (p1 & _ & W1 & V1).
    pose proof (bval_bound n p Wp). rewrite Vo, Z.mod_small in V1 by lia.
    destruct (strip_twos_spec n fuel p1 Hn W1 ltac:(lia) Hf) as (d & s & _ & _ & S0 & D0 & DO & DE). exists (bval d), s. rewrite <- V1. auto. }
  destruct X as (d & s & S0 & D0 & DO & DE). exists d, s. conjs; auto. pose proof (bval_bound n a Wa). apply prime_strong; auto; lia.
Qed.
Print Assumptions C140_primes_pass.
Corollary C140_rejected_is_composite : forall cfg fuel n p a, 1 <= n -> wf n p -> wf n a -> 32 * n <= Z.of_nat fuel ->
  3 <= bval p -> ~ (bval p | bval a) -> (bval p - 1) * (bval p - 1) < modulus n ->
  miller_rabin cfg fuel n p a = Ok false -> ~ prime (bval p).
Proof. intros cfg fuel n p a Hn Wp Wa Hf P3 ND SQ E Pp. rewrite (C140_primes_pass cfg fuel n p a) in E by auto. discriminate. Qed.
Print Assumptions C140_rejected_is_composite.
Example C140_example : wf 2 [561; 0] /\ wf 2 [2; 0] /\ miller_rabin cfg0 64 2 [561; 0] [2; 0] = Ok false /\ miller_rabin cfg0 64 2 [61; 0] [2; 0] = Ok true /\
  miller_rabin cfg0 64 2 [2047; 0] [2; 0] = Ok true /\ 2047 = 23 * 89.
Proof. split; [wfc|]. split; [wfc|]. conjs; vm_compute; reflexivity. Qed.
