(** * PropsShare: more about outputs and inputs in one object (C09, C23, C64), exact conditions for the modular power
    (C25, C26, C87), the most negative built-in (C49), field width and chains of signed numbers (C67, C94). *)
From Coq Require Import ZifyBool.
From Verif Require Import Spec Lib AeuModel AeuArith AeuBits AeuAccess AeuDiv AeuFacts AesiModel AesiArith AesiFacts
  AliasModel AliasFacts AliasSigned AliasDiv UseModel MixFacts TextMore TextWidth PropsText PropsText2 PropsAlias PropsExact PropsUse PropsUse2.
Open Scope Z_scope.
Ltac conjs := repeat match goal with |- _ /\ _ => split end.
Ltac wfc := apply wfb_wf; vm_compute; reflexivity.

(** ** C09: whatever the two result objects held before, divide stores the quotient and the remainder and touches no
    other object (the dividend and the divisor may be one object). *)
Theorem C09_any_output_contents : forall cfg n m nu de q r, 1 <= n -> wf n (m (Var nu)) -> wf n (m (Var de)) -> bval (m (Var de)) <> 0 ->
  q <> nu -> q <> de -> r <> nu -> r <> de -> q <> r ->
  exists m', m_divide cfg n m (Var nu) (Var de) (Var q) (Var r) = Ok m' /\
    represents n (m' (Var q)) (bval (m (Var nu)) / bval (m (Var de))) /\
    represents n (m' (Var r)) (bval (m (Var nu)) mod bval (m (Var de))) /\
    forall k, k <> q -> k <> r -> m' (Var k) = m (Var k).
Proof.
  intros cfg n m nu de q r Hn W1 W2 H0 H1 H2 H3 H4 H5.
  destruct (C64_divide_distinct_partial cfg n m nu de q r Hn W1 W2 H0 H1 H2 H3 H4 H5) as (m' & E & [Q R] & O). exists m'. split; [exact E|]. split; [exact Q|]. split; [exact R|exact O].
Qed.
Print Assumptions C09_any_output_contents.
Example C09_contents_example : let m := st2 [10; 0] [3; 0] in let m := mput m (Var 2) [99; 99] in
  after (m_divide cfg0 2 m (Var 0) (Var 1) (Var 2) (Var 3)) 2 = Some [3; 0] /\ after (m_divide cfg0 2 m (Var 0) (Var 1) (Var 2) (Var 3)) 3 = Some [1; 0].
Proof. split; vm_compute; reflexivity. Qed.

(** ** C23: whatever x and y held before, and also if they are the objects of a and b. *)
Theorem C23_any_sharing : forall cfg fuel n m a b x y, 1 <= n -> 64 * n + 2 <= Z.of_nat fuel ->
  wf n (m (Var a)) -> wf n (m (Var b)) -> x <> y ->
  exists g m', m_gcd_ext cfg fuel n m (Var a) (Var b) (Var x) (Var y) = Ok (g, m') /\
    represents n g (Z.gcd (bval (m (Var a))) (bval (m (Var b)))) /\
    wf n (m' (Var x)) /\ wf n (m' (Var y)) /\
    (bval (m (Var a)) * bval (m' (Var x)) + bval (m (Var b)) * bval (m' (Var y))) mod modulus n =
      Z.gcd (bval (m (Var a))) (bval (m (Var b))) mod modulus n.
Proof.
  intros cfg fuel n m a b x y Hn Hf Wa Wb N. destruct (C76_egcd_any_sharing cfg fuel n m a b x y Hn Hf Wa Wb N) as (g & m' & E & G & X & Y & B & _).
  exists g, m'. split; [exact E|]. split; [exact G|]. split; [exact X|]. split; [exact Y|exact B].
Qed.
Print Assumptions C23_any_sharing.

(** ** C25, C26: exactly for which operands the modular power is right. *)
Lemma yields_value n x u v : yields n x u -> (yields n x v <-> u = v).
Proof. intros (r & E & R). split; [|intros <-; exists r; auto]. intros (r' & E' & R'). rewrite E in E'. injection E' as <-. destruct R, R'. congruence. Qed.
Theorem C25_powm_right_iff : forall cfg n base power m, 1 <= n -> wf n base -> wf n power -> wf n m ->
  1 <= bval m -> (bval m - 1) * (bval m - 1) < modulus n ->
  (yields n (powm cfg n base power m) (bval base ^ bval power mod bval m) <-> bval power <> 0 \/ bval m <> 1).
Proof.
  intros cfg n base power m Hn Wb Wp Wm M1 G. rewrite (yields_value n _ _ _ (C101_powm_exact cfg n base power m Hn Wb Wp Wm M1 G)).
  unfold powm_value. destruct (Z.eqb_spec (bval power) 0) as [P|P]; [|tauto]. rewrite P, Z.pow_0_r.
  destruct (Z.eq_dec (bval m) 1) as [->|N]; [rewrite Z.mod_1_r; lia|]. rewrite Z.mod_1_l by lia. tauto.
Qed.
Print Assumptions C25_powm_right_iff.
Theorem C26_powm_mixed_right_iff : forall cfg n k base power m, 1 <= n -> wf n base -> wf k power -> wf n m ->
  1 <= bval m -> (bval m - 1) * (bval m - 1) < modulus n ->
  (yields n (powm_x cfg n k base power m) (bval base ^ bval power mod bval m) <->
   if bval m =? 1 then 2 <= bval base /\ bval power <> 0 else bval base <> 0 \/ bval power = 0).
Proof.
  intros cfg n k base power m Hn Wb Wp Wm M1 G. rewrite (yields_value n _ _ _ (C101_powm_mixed_exact cfg n k base power m Hn Wb Wp Wm M1 G)).
  pose proof (bval_bound n _ Wb) as Bb. pose proof (bval_bound k _ Wp) as Bp. clear - M1 Bb Bp.
  set (B := bval base) in *. set (P := bval power) in *. set (M := bval m) in *. clearbody B P M.
  unfold powm_mixed_value, powm_value. destruct (Z.eqb_spec M 1) as [->|N].
  - rewrite Z.mod_1_r. destruct (Z.eqb_spec B 0); cbn [orb]; [lia|]. destruct (Z.eqb_spec B 1); [lia|]. destruct (Z.eqb_spec P 0); [lia|]. split; [lia|reflexivity].
  - destruct (Z.eqb_spec P 0) as [->|NP]; [rewrite Z.pow_0_r, Z.mod_1_l by lia; destruct ((B =? 0) || (B =? 1)); split; auto|].
    destruct (Z.eqb_spec B 0) as [->|N0]; cbn [orb]; [rewrite Z.pow_0_l, Z.mod_0_l by lia; lia|].
    destruct (Z.eqb_spec B 1) as [->|]; [|tauto]. rewrite Z.pow_1_l, Z.mod_1_l by lia. tauto.
Qed.
Print Assumptions C26_powm_mixed_right_iff.
Example C26_iff_example : wf 2 [0; 0] /\ wf 1 [3] /\ wf 2 [7; 0] /\ powm_x cfg0 2 1 [0; 0] [3] [7; 0] = Ok [1; 0] /\ powm_x cfg0 2 1 [2; 0] [3] [7; 0] = Ok [1; 0] /\ 2 ^ 3 mod 7 = 1.
Proof. conjs; try wfc; vm_compute; reflexivity. Qed.
(** C87, any width M with (modulo - 1)^2 < 2^M: wrong exactly for base 0 with a positive power. *)
Theorem C87_powm_mixed_right_iff : forall cfg n m base power modulo, 1 <= n <= m -> wf n base -> wf n power -> wf n modulo ->
  1 < bval modulo -> (bval modulo - 1) * (bval modulo - 1) < modulus m ->
  (yields m (readme_powm2 cfg n m base power modulo) (bval base ^ bval power mod bval modulo) <-> bval base <> 0 \/ bval power = 0).
Proof.
  intros cfg n m base power modulo Hn Wb Wp Wm M1 G. unfold readme_powm2.
  assert (L : modulus n <= modulus m) by (unfold modulus; apply Z.pow_le_mono_r; lia).
  pose proof (bval_bound n base Wb) as Bb. pose proof (bval_bound n modulo Wm) as Bm.
  destruct (precisionCast_spec cfg n m base Wb ltac:(lia)) as (b & -> & Wb' & Vb). cbn [bind]. rewrite Z.mod_small in Vb by lia.
  destruct (precisionCast_spec cfg n m modulo Wm ltac:(lia)) as (q & -> & Wq & Vq). cbn [bind]. rewrite Z.mod_small in Vq by lia.
  pose proof (C26_powm_mixed_right_iff cfg m n b power q ltac:(lia) Wb' Wp Wq ltac:(lia) ltac:(rewrite Vq; exact G)) as H. rewrite Vb, Vq in H.
  replace (bval modulo =? 1) with false in H by lia. exact H.
Qed.
Print Assumptions C87_powm_mixed_right_iff.

(** ** C49: the most negative 64-bit operand is undefined behaviour only against a negative number. *)
Theorem C49_int64_min_elsewhere : forall n a, 0 <= sval a -> swf n a -> s_compareTo_int n a (- 2 ^ 63) = Ok CGreater.
Proof.
  intros n a H W. unfold s_compareTo_int. change (- 2 ^ 63 =? 0) with false. change (- 2 ^ 63 <? 0) with true. cbn iota.
  destruct (sgn a) eqn:S; cbn [sign_eqb]; try reflexivity. exfalso. destruct W as [W N]. pose proof (bval_bound n _ W). unfold sval in H. rewrite S in *.
  assert (bval (mag a) <> 0) by (apply N; discriminate). lia.
Qed.
Print Assumptions C49_int64_min_elsewhere.
Example C49_elsewhere_example : swf 2 (mk_aesi SPos [3; 0]) /\ 0 <= sval (mk_aesi SPos [3; 0]) /\ s_compareTo_int 2 (mk_aesi SPos [3; 0]) (- 2 ^ 63) = Ok CGreater.
Proof. split; [split; [wfc|intros _; vm_compute; discriminate]|]. split; [vm_compute; discriminate|vm_compute; reflexivity]. Qed.

(** ** C64, signed: for every way of sharing, exactly when divide is right. *)
Lemma sval_sgn n a : swf n a -> sval a <> 0 -> sgn a = (if sval a <? 0 then SNeg else SPos) /\ bval (mag a) = Z.abs (sval a).
Proof.
  intros [W N] V. pose proof (bval_bound n _ W). unfold sval in *. destruct (sgn a); [lia| |].
  - replace (bval (mag a) <? 0) with false by lia. split; [reflexivity|lia].
  - assert (bval (mag a) <> 0) by lia. replace (- bval (mag a) <? 0) with true by lia. split; [reflexivity|lia].
Qed.
Lemma fix_zero_at n m a : wf n (mag (m a)) ->
  exists m', ms_fix_zero n m a = Ok m' /\ (forall l, l <> a -> m' l = m l) /\ swf n (m' a) /\ sval (m' a) = sval (m a).
Proof.
  intros W. unfold ms_fix_zero. rewrite isZero_val by auto. cbn [bind]. destruct (Z.eqb_spec (bval (mag (m a))) 0) as [E|E].
  - eexists. split; [reflexivity|]. unfold sput_sign. split; [intros; apply sput_ne; auto|]. rewrite sput_eq. split; [split; [exact W|intros X; elim X; reflexivity]|].
    unfold sval. cbn [sgn mag]. rewrite E. destruct (sgn (m a)); reflexivity.
  - exists m. split; [reflexivity|]. split; [auto|]. split; [split; [exact W|auto]|reflexivity].
Qed.
Lemma signed_divide_over cfg n (m : smem) nu de q r mu Q R : swf n (m nu) -> swf n (m de) -> q <> r ->
  sval (m nu) <> 0 -> sval (m de) <> 0 ->
  m_divide cfg n (bases m) nu de q r = Ok mu -> represents n (mu q) Q -> represents n (mu r) R ->
  exists m', ms_divide cfg n m nu de q r = Ok m' /\ swf n (m' q) /\ swf n (m' r) /\
    sval (m' q) = Z.sgn (sval (m nu)) * Z.sgn (sval (m de)) * Q /\ sval (m' r) = Z.sgn (sval (m nu)) * R.
Proof.
  intros W1 W2 NE A0 B0 E [WQ VQ] [WR VR]. destruct (sval_sgn n _ W1 A0) as [SA _]. destruct (sval_sgn n _ W2 B0) as [SB _].
  unfold ms_divide. rewrite SA, SB. set (A := sval (m nu)) in *. set (B := sval (m de)) in *. clearbody A B.
  replace (sign_eqb (if A <? 0 then SNeg else SPos) SZero || sign_eqb (if B <? 0 then SNeg else SPos) SZero) with false by (destruct (A <? 0), (B <? 0); reflexivity).
  unfold on_bases. rewrite E. cbn [bind]. cbv zeta. cbn [put_bases sgn]. rewrite SA, SB.
  set (pick := fun s t => sput_sign (sput_sign (put_bases m mu) q s) r t).
  assert (X : forall s t, s <> SZero -> t <> SZero -> exists m', (m1 <- ms_fix_zero n (pick s t) q ;; ms_fix_zero n m1 r) = Ok m' /\ swf n (m' q) /\ swf n (m' r) /\
    sval (m' q) = (match s with SNeg => -1 | _ => 1 end) * Q /\ sval (m' r) = (match t with SNeg => -1 | _ => 1 end) * R).
  { intros s t Hs Ht. assert (PQ : pick s t q = mk_aesi s (mu q)). { unfold pick, sput_sign. rewrite sput_ne by auto. rewrite sput_eq. reflexivity. }
    assert (PR : pick s t r = mk_aesi t (mu r)). { unfold pick, sput_sign. rewrite sput_eq. rewrite sput_ne by auto. reflexivity. }
    destruct (fix_zero_at n (pick s t) q) as (m1 & -> & O1 & S1 & V1); [rewrite PQ; exact WQ|]. cbn [bind].
    assert (M1R : m1 r = pick s t r) by (apply O1; auto).
    destruct (fix_zero_at n m1 r) as (m2 & -> & O2 & S2 & V2); [rewrite M1R, PR; exact WR|]. exists m2. split; [reflexivity|].
    rewrite (O2 q) by auto. split; [exact S1|]. split; [exact S2|]. rewrite V1, V2, M1R, PQ, PR. unfold sval. cbn [sgn mag]. rewrite VQ, VR. destruct s, t; try congruence; lia. }
  unfold pick in X.
  destruct (Z.ltb_spec A 0); destruct (Z.ltb_spec B 0); cbn [sign_eqb].
  - destruct (X SPos SNeg ltac:(discriminate) ltac:(discriminate)) as (m' & E' & S1 & S2 & V1 & V2). exists m'. split; [exact E'|]. rewrite !(Z.sgn_neg A), !(Z.sgn_neg B) by lia. conjs; auto; lia.
  - destruct (X SNeg SNeg ltac:(discriminate) ltac:(discriminate)) as (m' & E' & S1 & S2 & V1 & V2). exists m'. split; [exact E'|]. rewrite !(Z.sgn_neg A), !(Z.sgn_pos B) by lia. conjs; auto; lia.
  - destruct (X SNeg SPos ltac:(discriminate) ltac:(discriminate)) as (m' & E' & S1 & S2 & V1 & V2). exists m'. split; [exact E'|]. rewrite !(Z.sgn_pos A), !(Z.sgn_neg B) by lia. conjs; auto; lia.
  - destruct (X SPos SPos ltac:(discriminate) ltac:(discriminate)) as (m' & E' & S1 & S2 & V1 & V2). exists m'. split; [exact E'|]. rewrite !(Z.sgn_pos A), !(Z.sgn_pos B) by lia. conjs; auto; lia.
Qed.
Lemma quot_abs A B : B <> 0 -> Z.quot A B = Z.sgn A * Z.sgn B * (Z.abs A / Z.abs B).
Proof. intros H. rewrite Z.quot_div by auto. rewrite (Z.mul_comm (Z.sgn A)). lia. Qed.
Lemma rem_abs A B : B <> 0 -> Z.rem A B = Z.sgn A * (Z.abs A mod Z.abs B).
Proof. intros H. apply Z.rem_mod; auto. Qed.
Lemma sign_cancel s x y : (s = 1 \/ s = -1) -> (s * x = s * y <-> x = y).
Proof. intros [->| ->]; lia. Qed.
(** Lifting an unsigned outcome: the signed call is right exactly if the unsigned one on the magnitudes is. *)
Lemma signed_right cfg n (m : smem) nu de q r mu Q R (P : Prop) : swf n (m (Var nu)) -> swf n (m (Var de)) -> q <> r -> sval (m (Var de)) <> 0 -> sval (m (Var nu)) <> 0 ->
  m_divide cfg n (bases m) (Var nu) (Var de) (Var q) (Var r) = Ok mu -> represents n (mu (Var q)) Q -> represents n (mu (Var r)) R ->
  (quot_rem_stored n mu q r (bval (mag (m (Var nu)))) (bval (mag (m (Var de)))) <-> P) ->
  exists m', ms_divide cfg n m (Var nu) (Var de) (Var q) (Var r) = Ok m' /\ swf n (m' (Var q)) /\ swf n (m' (Var r)) /\
    ((sval (m' (Var q)) = Z.quot (sval (m (Var nu))) (sval (m (Var de))) /\ sval (m' (Var r)) = Z.rem (sval (m (Var nu))) (sval (m (Var de)))) <-> P).
Proof.
  intros W1 W2 NE B0 A0 E RQ RR HP.
  destruct (signed_divide_over cfg n m (Var nu) (Var de) (Var q) (Var r) mu Q R W1 W2 ltac:(congruence) A0 B0 E RQ RR) as (m' & E' & S1 & S2 & V1 & V2).
  exists m'. split; [exact E'|]. split; [exact S1|]. split; [exact S2|]. rewrite V1, V2, quot_abs, rem_abs by auto.
  destruct (sval_sgn n _ W1 A0) as [_ MA]. destruct (sval_sgn n _ W2 B0) as [_ MB]. rewrite MA, MB in HP. rewrite <- HP. unfold quot_rem_stored.
  set (A := sval (m (Var nu))) in *. set (B := sval (m (Var de))) in *. clearbody A B.
  rewrite sign_cancel by (clear - A0 B0; destruct (Z.lt_trichotomy A 0) as [?|[?|?] ]; destruct (Z.lt_trichotomy B 0) as [?|[?|?] ]; rewrite ?(Z.sgn_neg A), ?(Z.sgn_pos A), ?(Z.sgn_neg B), ?(Z.sgn_pos B) by lia; lia).
  rewrite sign_cancel by (clear - A0; destruct (Z.lt_trichotomy A 0) as [?|[?|?] ]; rewrite ?(Z.sgn_neg A), ?(Z.sgn_pos A) by lia; lia).
  destruct RQ as [WQ VQ], RR as [WR VR]. unfold represents. rewrite VQ, VR. tauto.
Qed.
Lemma signed_zero_dividend cfg n (m : smem) nu de q r : swf n (m (Var nu)) -> sval (m (Var nu)) = 0 -> q <> r ->
  wf n (mag (m (Var q))) -> wf n (mag (m (Var r))) ->
  exists m', ms_divide cfg n m (Var nu) (Var de) (Var q) (Var r) = Ok m' /\ swf n (m' (Var q)) /\ swf n (m' (Var r)) /\
    sval (m' (Var q)) = 0 /\ sval (m' (Var r)) = 0.
Proof.
  intros [W N] V NE WQ WR. assert (S : sgn (m (Var nu)) = SZero).
  { pose proof (bval_bound n _ W). unfold sval in V. destruct (sgn (m (Var nu))); auto; exfalso; apply N; try discriminate; lia. }
  unfold ms_divide. rewrite S. cbn [sign_eqb orb]. eexists. split; [reflexivity|]. unfold sput_sign.
  rewrite (sput_ne _ (Var r) _ (Var q)), !sput_eq by congruence. rewrite sput_ne by congruence.
  conjs; try (split; [assumption|intros X; elim X; reflexivity]); reflexivity.
Qed.
(** One output is the dividend's object. *)
Theorem C64_signed_output_is_number : forall cfg n m nu de q r, 1 <= n -> swf n (m (Var nu)) -> swf n (m (Var de)) -> swf n (m (Var q)) -> swf n (m (Var r)) ->
  sval (m (Var de)) <> 0 -> q <> r -> nu = q \/ nu = r ->
  exists m', ms_divide cfg n m (Var nu) (Var de) (Var q) (Var r) = Ok m' /\ swf n (m' (Var q)) /\ swf n (m' (Var r)) /\
    ((sval (m' (Var q)) = Z.quot (sval (m (Var nu))) (sval (m (Var de))) /\ sval (m' (Var r)) = Z.rem (sval (m (Var nu))) (sval (m (Var de)))) <->
     sval (m (Var nu)) = 0 \/ Z.abs (sval (m (Var nu))) = Z.abs (sval (m (Var de)))).
Proof.
  intros cfg n m nu de q r Hn W1 W2 WQ WR B0 NE HS. destruct (Z.eq_dec (sval (m (Var nu))) 0) as [A0|A0].
  - destruct (signed_zero_dividend cfg n m nu de q r W1 A0 NE (proj1 WQ) (proj1 WR)) as (m' & E & S1 & S2 & V1 & V2). exists m'. conjs; auto.
    rewrite V1, V2, A0, Z.quot_0_l, Z.rem_0_l by auto. tauto.
  - destruct (C64_output_is_number cfg n (bases m) nu de q r Hn (proj1 W1) (proj1 W2)) as (mu & E & P); auto.
    { unfold bases. destruct (sval_sgn n _ W2 B0) as [_ ->]. lia. }
    destruct (m_divide_number_shared cfg n (bases m) (Var nu) (Var de) (Var q) (Var r) Hn (proj1 W1) (proj1 W2) ltac:(congruence)
      ltac:(destruct HS; [left|right]; congruence)) as (mu' & E' & RQ & RR). rewrite E in E'. injection E' as <-.
    destruct (sval_sgn n _ W1 A0) as [_ MA]. destruct (sval_sgn n _ W2 B0) as [_ MB]. unfold bases in P. rewrite MA, MB in P.
    apply (signed_right cfg n m nu de q r mu _ _ _ W1 W2 NE B0 A0 E RQ RR). rewrite MA, MB, P. split; intros [X|X]; auto; lia.
Qed.
Print Assumptions C64_signed_output_is_number.
(** The remainder is the divisor's object. *)
Theorem C64_signed_remainder_is_divisor : forall cfg n m nu de q, 1 <= n -> swf n (m (Var nu)) -> swf n (m (Var de)) -> swf n (m (Var q)) ->
  sval (m (Var de)) <> 0 -> q <> nu -> q <> de -> nu <> de ->
  exists m', ms_divide cfg n m (Var nu) (Var de) (Var q) (Var de) = Ok m' /\ swf n (m' (Var q)) /\ swf n (m' (Var de)) /\
    let A := sval (m (Var nu)) in let B := sval (m (Var de)) in
    ((sval (m' (Var q)) = Z.quot A B /\ sval (m' (Var de)) = Z.rem A B) <->
     Z.abs A <= Z.abs B \/ (Z.abs B = 1 /\ Z.abs A = 2 ^ (32 * ((bit_length (Z.abs A) + 31) / 32)) - 1)).
Proof.
  intros cfg n m nu de q Hn W1 W2 WQ B0 N1 N2 N3. cbv zeta. destruct (Z.eq_dec (sval (m (Var nu))) 0) as [A0|A0].
  - destruct (signed_zero_dividend cfg n m nu de q de W1 A0 N2 (proj1 WQ) (proj1 W2)) as (m' & E & S1 & S2 & V1 & V2). exists m'. conjs; auto.
    rewrite V1, V2, A0, Z.quot_0_l, Z.rem_0_l by auto. split; auto. intros _. left. cbn. lia.
  - destruct (C64_remainder_is_divisor cfg n (bases m) nu de q Hn (proj1 W1) (proj1 W2)) as (mu & E & P); auto.
    { unfold bases. destruct (sval_sgn n _ W2 B0) as [_ ->]. lia. }
    destruct (m_divide_rem_is_divisor cfg n (bases m) (Var nu) (Var de) (Var q) Hn (proj1 W1) (proj1 W2) ltac:(congruence) ltac:(congruence) ltac:(congruence)
      ltac:(discriminate) ltac:(discriminate) ltac:(discriminate)) as (mu' & E' & RQ). rewrite E in E'. injection E' as <-.
    destruct (sval_sgn n _ W1 A0) as [_ MA]. destruct (sval_sgn n _ W2 B0) as [_ MB]. unfold bases in P. rewrite MA, MB in P.
    destruct (bval (bases m (Var nu)) <=? bval (bases m (Var de))); destruct RQ as [RQ RR];
      apply (signed_right cfg n m nu de q de mu _ _ _ W1 W2 N2 B0 A0 E RQ RR); rewrite MA, MB; exact P.
Qed.
Print Assumptions C64_signed_remainder_is_divisor.
(** The quotient is the divisor's object. *)
Theorem C64_signed_quotient_is_divisor : forall cfg n m nu de r, 1 <= n -> swf n (m (Var nu)) -> swf n (m (Var de)) -> swf n (m (Var r)) ->
  sval (m (Var de)) <> 0 -> r <> nu -> r <> de -> nu <> de ->
  exists m', ms_divide cfg n m (Var nu) (Var de) (Var de) (Var r) = Ok m' /\ swf n (m' (Var de)) /\ swf n (m' (Var r)) /\
    let A := sval (m (Var nu)) in let B := sval (m (Var de)) in
    ((sval (m' (Var de)) = Z.quot A B /\ sval (m' (Var r)) = Z.rem A B) <-> Z.abs A <= Z.abs B).
Proof.
  intros cfg n m nu de r Hn W1 W2 WR B0 N1 N2 N3. cbv zeta. destruct (Z.eq_dec (sval (m (Var nu))) 0) as [A0|A0].
  - destruct (signed_zero_dividend cfg n m nu de de r W1 A0 ltac:(congruence) (proj1 W2) (proj1 WR)) as (m' & E & S1 & S2 & V1 & V2). exists m'. conjs; auto.
    rewrite V1, V2, A0, Z.quot_0_l, Z.rem_0_l by auto. split; auto. intros _. cbn. lia.
  - destruct (C64_quotient_is_divisor cfg n (bases m) nu de r Hn (proj1 W1) (proj1 W2)) as (mu & E & P); auto.
    { unfold bases. destruct (sval_sgn n _ W2 B0) as [_ ->]. lia. }
    destruct (m_divide_quot_is_divisor cfg n (bases m) (Var nu) (Var de) (Var r) Hn (proj1 W1) (proj1 W2) ltac:(congruence) ltac:(congruence) ltac:(congruence)
      ltac:(discriminate) ltac:(discriminate) ltac:(discriminate)) as (mu' & E' & RQ). rewrite E in E'. injection E' as <-.
    destruct (sval_sgn n _ W1 A0) as [_ MA]. destruct (sval_sgn n _ W2 B0) as [_ MB]. unfold bases in P. rewrite MA, MB in P. cbv zeta in RQ.
    destruct (bval (bases m (Var nu)) <=? bval (bases m (Var de))); [|destruct (bval (bases m (Var nu)) <? 2 ^ (bitsUsed_of (bval (bases m (Var nu))) - 1))];
      destruct RQ as [RQ RR]; apply (signed_right cfg n m nu de de r mu _ _ _ W1 W2 ltac:(congruence) B0 A0 E RQ RR); rewrite MA, MB; exact P.
Qed.
Print Assumptions C64_signed_quotient_is_divisor.
(** -3 / 3 into the dividend's object is right, -4 / 3 is not. *)
Example C64_signed_example :
  safter (ms_divide cfg0 2 (sst2 (mk_aesi SNeg [3; 0]) (mk_aesi SPos [3; 0])) (Var 0) (Var 1) (Var 0) (Var 2)) 0 = Some (mk_aesi SNeg [1; 0]) /\
  safter (ms_divide cfg0 2 (sst2 (mk_aesi SNeg [4; 0]) (mk_aesi SPos [3; 0])) (Var 0) (Var 1) (Var 0) (Var 2)) 0 = Some (mk_aesi SZero [0; 0]) /\
  safter (ms_divide cfg0 2 (sst2 (mk_aesi SNeg [4294967295; 0]) (mk_aesi SNeg [1; 0])) (Var 0) (Var 1) (Var 2) (Var 1)) 2 = Some (mk_aesi SPos [4294967295; 0]).
Proof. split; [vm_compute; reflexivity|]. split; vm_compute; reflexivity. Qed.

(** ** C67, signed: the sign is a piece of its own and takes the padding. *)
Theorem C67_signed_field_width : forall cfg n os a s, canon n a -> 32 * n < 2 ^ 53 ->
  (3 <= n \/ (n = 2 /\ os_base os = 10) \/ (1 <= n /\ os_base os = 16)) ->
  numeral (uppercase os && (os_base os =? 16)) (os_base os) (Z.abs (sval a)) s ->
  let text := os_shown os ++ s in
  exists os', s_stream_insert cfg n os a = Ok os' /\ width os' = 0 /\
    (sval a = 0 -> out os' = out os ++ field os [48]) /\
    (0 < sval a -> out os' = out os ++ field os (first_piece os s) ++ skipn (length (first_piece os s)) text) /\
    (sval a < 0 -> out os' = out os ++ field os [45] ++ text /\
       (out os' = out os ++ field os ([45] ++ text) <-> width os <= 1)).
Proof.
  intros cfg n os a s [W Z0] H53 HW HN text. pose proof (bval_bound n _ W) as Bv. unfold s_stream_insert. unfold sval in *. destruct (sgn a) eqn:S.
  - eexists. split; [reflexivity|]. split; [unfold os_put; destruct (adj os); reflexivity|]. split; [|split; intros; lia]. intros _. unfold os_put, field. destruct (adj os); reflexivity.
  - assert (bval (mag a) <> 0) by (intros X; apply Z0 in X; discriminate). rewrite Z.abs_eq in HN by lia.
    destruct (C67_field_width_partial cfg n os (mag a) s W H53 HW HN) as (os' & E & W0 & O & _). exists os'. conjs; auto; lia.
  - assert (bval (mag a) <> 0) by (intros X; apply Z0 in X; discriminate). rewrite Z.abs_opp, Z.abs_eq in HN by lia.
    set (o1 := os_put os [45]). assert (P : out o1 = out os ++ field os [45] /\ width o1 = 0 /\ os_base o1 = os_base os /\ uppercase o1 = uppercase os /\ os_shown o1 = os_shown os).
    { unfold o1, os_put, field, os_base, os_shown. cbn [out width basef uppercase showbase]. conjs; auto. }
    destruct P as (P1 & P2 & P3 & P4 & P5).
    destruct (C37_stream_insertion cfg n o1 (mag a) s W P2 H53) as (os' & E & O); [rewrite P3; exact HW|rewrite P3, P4; exact HN|].
    destruct (C67_field_width_partial cfg n o1 (mag a) s W H53) as (os2 & E2 & W2 & _); [rewrite P3; exact HW|rewrite P3, P4; exact HN|].
    rewrite E2 in E. injection E as ->. exists os'. split; [exact E2|]. split; [exact W2|]. split; [lia|]. split; [lia|]. intros _.
    rewrite O, P1, P5. fold text. split; [rewrite <- app_assoc; reflexivity|]. rewrite <- app_assoc.
    assert (FL : forall t, len (field os t) = Z.max (width os) (len t)) by (intros t; unfold field, len; destruct (adj os); rewrite app_length, repeat_length; lia).
    assert (LT : 1 <= len text). { unfold text. rewrite len_app. pose proof (len_nonneg (os_shown os)). destruct HN as (ds & -> & _ & _ & L). destruct L as [-> |(d & t & -> & _)]; [cbn; lia|]. cbn [map]. rewrite len_cons. pose proof (len_nonneg (map (digit_char (uppercase os && (os_base os =? 16))) t)). lia. }
    change (len [45]) with 1 in *. split.
    + intros Q. apply app_inv_head in Q. apply (f_equal len) in Q. rewrite len_app, !FL, len_app in Q. change (len [45]) with 1 in Q. lia.
    + intros Q. f_equal. unfold field. change (len [45]) with 1. replace (Z.to_nat (width os - 1)) with 0%nat by lia.
      rewrite len_app. change (len [45]) with 1. replace (Z.to_nat (width os - (1 + len text))) with 0%nat by lia. cbn [repeat]. destruct (adj os); rewrite ?app_nil_r; reflexivity.
Qed.
Print Assumptions C67_signed_field_width.
Example C67_signed_example : exists os', s_stream_insert cfg0 3 (mk_os [] BDec false false 32 5 AdjNone) (mk_aesi SNeg [42; 0; 0]) = Ok os' /\ out os' = [32; 32; 32; 32; 45; 52; 50].
Proof. eexists. split; vm_compute; reflexivity. Qed.

(** ** C94, signed, with or without a shown base: the base appears once, in front of the first number that is not zero. *)
Fixpoint chain_text (pre : list Z) (l : list (Z * list Z)) : list Z :=
  match l with
  | [] => []
  | (v, s) :: t => (if v <? 0 then [45] else []) ++ (if v =? 0 then [] else pre) ++ s ++ chain_text (if v =? 0 then pre else []) t
  end.
Theorem C94_signed_chain_exact : forall cfg n l digits os, 3 <= n -> 32 * n < 2 ^ 53 -> width os = 0 ->
  Forall2 (fun a s => canon n a /\ numeral (uppercase os && (os_base os =? 16)) (os_base os) (Z.abs (sval a)) s) l digits ->
  exists os', s_stream_all cfg n os l = Ok os' /\ out os' = out os ++ chain_text (os_shown os) (combine (map sval l) digits).
Proof.
  intros cfg n l digits os Hn H53 W0 F. remember (uppercase os) as up eqn:EU. remember (os_base os) as ba eqn:EB.
  revert os W0 EU EB. induction F as [|a s l digits [Ca Ha] F IH]; intros os W0 EU EB; cbn [s_stream_all map combine chain_text].
  { exists os. rewrite app_nil_r. auto. }
  assert (ST : exists os1, s_stream_insert cfg n os a = Ok os1 /\
    out os1 = out os ++ (if sval a <? 0 then [45] else []) ++ (if sval a =? 0 then [] else os_shown os) ++ s /\
    basef os1 = basef os /\ uppercase os1 = uppercase os /\ width os1 = 0 /\ os_shown os1 = (if sval a =? 0 then os_shown os else [])).
  { subst up ba. assert (SH : forall o o', basef o' = basef o -> showbase o' = (showbase o && (os_base o =? 10))%bool -> os_shown o' = []).
    { intros o o' B E. unfold os_shown, shown, os_base in *. rewrite B, E. destruct (showbase o), (basef o); reflexivity. }
    destruct Ca as [W Z0]. pose proof (bval_bound n _ W) as B. unfold s_stream_insert. unfold sval in *. destruct (sgn a) eqn:G.
    - cbn [Z.ltb Z.compare Z.eqb app]. cbn [Z.abs] in Ha. assert (s = [48]).
      { apply (numeral_unique (uppercase os && (os_base os =? 16)) (os_base os) 0); [unfold os_base; destruct (basef os); lia|exact Ha|].
        exists [0]. split; [reflexivity|]. split; [constructor; [unfold os_base; destruct (basef os); lia|constructor]|]. split; [reflexivity|left; reflexivity]. }
      subst s. eexists. split; [reflexivity|]. rewrite os_put0 by auto. cbn [out basef uppercase width]. conjs; reflexivity.
    - assert (bval (mag a) <> 0) by (intros X; apply Z0 in X; discriminate). rewrite Z.abs_eq in Ha by lia.
      replace (bval (mag a) <? 0) with false by lia. replace (bval (mag a) =? 0) with false by lia. cbn [app].
      destruct (stream_state cfg n os (mag a) s W W0 H53 Hn Ha) as (o & E & O & B1 & U1 & W1 & SB). exists o. conjs; auto. eapply SH; eauto.
    - assert (bval (mag a) <> 0) by (intros X; apply Z0 in X; discriminate). rewrite Z.abs_opp, Z.abs_eq in Ha by lia.
      replace (- bval (mag a) <? 0) with true by lia. replace (- bval (mag a) =? 0) with false by lia.
      rewrite os_put0 by auto. set (o1 := mk_os (out os ++ [45]) (basef os) (showbase os) (uppercase os) (fillc os) 0 (adj os)).
      destruct (stream_state cfg n o1 (mag a) s W eq_refl H53 Hn Ha) as (o & E & O & B1 & U1 & W1 & SB). exists o. conjs; auto.
      + rewrite O. change (out o1) with (out os ++ [45]). change (os_shown o1) with (os_shown os). rewrite <- !app_assoc. reflexivity.
      + apply (SH o1 o); auto. }
  destruct ST as (os1 & E1 & O1 & B1 & U1 & W1 & SB1). rewrite E1. cbn [bind].
  destruct (IH os1) as (os' & E' & O'); auto; [congruence|unfold os_base in *; rewrite B1; exact EB|].
  exists os'. split; [exact E'|]. rewrite O', O1, SB1, <- !app_assoc. reflexivity.
Qed.
Print Assumptions C94_signed_chain_exact.
Example C94_chain_example : chain_text [48; 120] [(0, [48]); (-255, [102; 102]); (16, [49; 48])] = [48; 45; 48; 120; 102; 102; 49; 48] /\
  exists os', s_stream_all cfg0 3 (mk_os [] BHex true false 32 0 AdjNone) [mk_aesi SZero [0; 0; 0]; mk_aesi SNeg [255; 0; 0]; mk_aesi SPos [16; 0; 0] ] = Ok os' /\
    out os' = [48; 45; 48; 120; 102; 102; 49; 48].
Proof. split; [reflexivity|]. eexists. split; vm_compute; reflexivity. Qed.
