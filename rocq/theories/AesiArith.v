(** * AesiArith: proofs about the signed class. *)
From Verif Require Export AesiModel AeuFacts.
From Coq Require Import ZifyBool.
Open Scope Z_scope.

Lemma modulus_pos n : 0 <= n -> 0 < modulus n.
Proof. intros. unfold modulus. apply Z.pow_pos_nonneg; lia. Qed.

Lemma wf_n n a : wf n a -> 0 <= n.
Proof. intros [H _]. rewrite <- H. unfold len. lia. Qed.

Lemma mag_bounds n x : wf n (mag x) -> 0 <= bval (mag x) < modulus n.
Proof. intros. apply bval_bound. auto. Qed.

(** The unsigned facts in "value" form. *)
Lemma yields_small n x z : 0 <= z < modulus n -> yields n x (z mod modulus n) -> yields n x z.
Proof. intros H. rewrite Z.mod_small; auto. Qed.

Lemma sub_exact n a b : wf n a -> wf n b -> bval b <= bval a -> yields n (sub_assign n a b) (bval a - bval b).
Proof.
  intros Wa Wb H. apply yields_small; [|apply sub_assign_correct; auto].
  pose proof (bval_bound n a Wa). pose proof (bval_bound n b Wb). unfold modulus in *. lia.
Qed.
Lemma add_exact n a b : wf n a -> wf n b -> bval a + bval b < modulus n -> yields n (add_assign n a b) (bval a + bval b).
Proof.
  intros Wa Wb H. apply yields_small; [|apply add_assign_correct; auto].
  pose proof (bval_bound n a Wa). pose proof (bval_bound n b Wb). unfold modulus in *. lia.
Qed.

Lemma zcmp_cases x y : (zcmp x y = CGreater /\ x > y) \/ (zcmp x y = CLess /\ x < y) \/ (zcmp x y = CEqual /\ x = y).
Proof. unfold zcmp. destruct (Z.gtb_spec x y); [|destruct (Z.ltb_spec x y)]; [left|right;left|right;right]; split; auto; lia. Qed.

Lemma s_inverse_val x : sval (s_inverse x) = - sval x.
Proof. unfold sval, s_inverse, with_sign. destruct x as [[] m]; cbn; lia. Qed.
Lemma s_inverse_swf n x : swf n x -> swf n (s_inverse x).
Proof. intros [W H]. split; [exact W|]. destruct x as [[] m]; cbn in *; intros; apply H; congruence. Qed.
Lemma s_inverse_canon n x : canon n x -> canon n (s_inverse x).
Proof. intros [W H]. split; [exact W|]. destruct x as [[] m]; cbn in *; intuition discriminate. Qed.
Lemma s_inverse_mag x : mag (s_inverse x) = mag x.
Proof. auto. Qed.
Lemma canon_swf n x : canon n x -> swf n x.
Proof. intros [W H]. split; auto. tauto. Qed.

Lemma syields_intro n x r z : x = Ok r -> wf n (mag r) -> (sgn r <> SZero -> bval (mag r) <> 0) -> sval r = z -> syields n x z.
Proof. intros. exists r. unfold swf. auto. Qed.

Lemma sval_with s m : sval (mk_aesi s m) = (match s with SZero => 0 | SPos => 1 | SNeg => -1 end) * bval m.
Proof. unfold sval. cbn [sgn mag]. destruct s; lia. Qed.
(** ** Addition and subtraction *)
Lemma s_add_correct cfg n a b : swf n a -> swf n b -> Z.abs (sval a + sval b) < modulus n ->
  syields n (s_add_assign cfg n a b) (sval a + sval b).
Proof.
  destruct a as [sa ma], b as [sb mb]. intros [Wa Na] [Wb Nb] H. unfold sval in *. cbn [sgn mag] in *.
  pose proof (bval_bound n ma Wa) as Ba. pose proof (bval_bound n mb Wb) as Bb. fold (modulus n) in Ba, Bb.
  unfold s_add_assign, with_mag, with_sign. cbn [sgn mag].
  assert (ADD : forall s, s <> SZero -> bval ma + bval mb < modulus n -> bval ma <> 0 ->
    syields n (r <- add_assign n ma mb ;; Ok (mk_aesi s r)) ((match s with SZero => 0 | SPos => 1 | SNeg => -1 end) * (bval ma + bval mb))).
  { intros s Hs HH N0. destruct (add_exact n ma mb Wa Wb HH) as (r & E & W & V). rewrite E. cbn [bind].
    eapply syields_intro; [reflexivity|exact W|cbn [mag]; lia|]. rewrite sval_with, V. reflexivity. }
  assert (CMP : forall s s', s <> SZero -> s' <> SZero ->
    syields n (ratio <- compareTo cfg n n ma mb ;;
          match ratio with
          | CGreater => r <- sub_assign n ma mb ;; Ok (mk_aesi s r)
          | CLess => r <- op_sub n mb ma ;; Ok (mk_aesi s' r)
          | _ => Ok (mk_aesi SZero ma)
          end)
     (if bval ma >? bval mb then (match s with SZero => 0 | SPos => 1 | SNeg => -1 end) * (bval ma - bval mb)
      else (match s' with SZero => 0 | SPos => 1 | SNeg => -1 end) * (bval mb - bval ma))).
  { intros s s' Hs Hs'. rewrite compareTo_same by auto. cbn [bind].
    destruct (zcmp_cases (bval ma) (bval mb)) as [[-> C]|[[-> C]|[-> C]]]; destruct (Z.gtb_spec (bval ma) (bval mb)); try lia.
    - destruct (sub_exact n ma mb Wa Wb) as (r & E & W & V); [lia|]. rewrite E. cbn [bind].
      eapply syields_intro; [reflexivity|exact W|cbn [mag]; lia|]. rewrite sval_with, V. reflexivity.
    - unfold op_sub. destruct (sub_exact n mb ma Wb Wa) as (r & E & W & V); [lia|]. rewrite E. cbn [bind].
      eapply syields_intro; [reflexivity|exact W|cbn [mag]; lia|]. rewrite sval_with, V. reflexivity.
    - eapply syields_intro; [reflexivity|exact Wa|cbn; congruence|]. rewrite sval_with. destruct s'; lia. }
  destruct sb.
  - exists (mk_aesi sa ma). split; [reflexivity|]. split; [split; auto|]. unfold sval; cbn [sgn mag]. destruct sa; lia.
  - destruct sa; cbn [sign_eqb].
    + exists (mk_aesi SPos mb). split; [reflexivity|]. split; [split; auto|]. cbn; lia.
    + specialize (ADD SPos ltac:(discriminate) ltac:(lia) ltac:(apply Na; discriminate)). rewrite Z.mul_1_l in ADD. exact ADD.
    + specialize (CMP SNeg SPos ltac:(discriminate) ltac:(discriminate)).
      replace (- bval ma + bval mb) with (if bval ma >? bval mb then -1 * (bval ma - bval mb) else 1 * (bval mb - bval ma)) by (destruct (Z.gtb_spec (bval ma) (bval mb)); lia). exact CMP.
  - destruct sa; cbn [sign_eqb].
    + exists (mk_aesi SNeg mb). split; [reflexivity|]. split; [split; auto|]. cbn; lia.
    + specialize (CMP SPos SNeg ltac:(discriminate) ltac:(discriminate)).
      replace (bval ma + - bval mb) with (if bval ma >? bval mb then 1 * (bval ma - bval mb) else -1 * (bval mb - bval ma)) by (destruct (Z.gtb_spec (bval ma) (bval mb)); lia). exact CMP.
    + specialize (ADD SNeg ltac:(discriminate) ltac:(lia) ltac:(apply Na; discriminate)).
      replace (- bval ma + - bval mb) with (-1 * (bval ma + bval mb)) by lia. exact ADD.
Qed.

Lemma s_sub_as_add cfg n a b : s_sub_assign cfg n a b = s_add_assign cfg n a (s_inverse b).
Proof.
  destruct a as [sa ma], b as [sb mb]. unfold s_sub_assign, s_add_assign, s_inverse, with_sign, with_mag. cbn [sgn mag].
  destruct sb, sa; cbn [sign_eqb sgn mag]; auto.
Qed.

Lemma s_sub_correct cfg n a b : swf n a -> swf n b -> Z.abs (sval a - sval b) < modulus n ->
  syields n (s_sub_assign cfg n a b) (sval a - sval b).
Proof.
  intros Ha Hb H. rewrite s_sub_as_add. replace (sval a - sval b) with (sval a + sval (s_inverse b)) by (rewrite s_inverse_val; lia).
  apply s_add_correct; auto using s_inverse_swf. rewrite s_inverse_val. replace (sval a + - sval b) with (sval a - sval b) by lia. auto.
Qed.

(** ** Multiplication *)
Lemma sval_abs x : sgn x <> SZero -> 0 <= bval (mag x) -> Z.abs (sval x) = bval (mag x).
Proof. unfold sval. destruct (sgn x); intros; try congruence; lia. Qed.

Lemma isZero_val n a : wf n a -> isZero n a = Ok (bval a =? 0).
Proof. intros. apply isZero_spec; auto. Qed.

Definition ssgn (x : aesi) : Z := match sgn x with SZero => 0 | SPos => 1 | SNeg => -1 end.
Lemma sval_ssgn x : sval x = ssgn x * bval (mag x).
Proof. destruct x. apply sval_with. Qed.
Lemma ssgn_cases x : ssgn x = 0 /\ sgn x = SZero \/ ssgn x = 1 /\ sgn x = SPos \/ ssgn x = -1 /\ sgn x = SNeg.
Proof. unfold ssgn. destruct (sgn x); auto. Qed.
Lemma ssgn_inverse x : ssgn (s_inverse x) = - ssgn x.
Proof. unfold ssgn, s_inverse, with_sign. cbn. destruct (sgn x); auto. Qed.

Lemma s_mul_correct n a b : swf n a -> swf n b -> Z.abs (sval a * sval b) < modulus n ->
  syields n (s_mul_assign n a b) (sval a * sval b).
Proof.
  intros [Wa Na] [Wb Nb] H. pose proof (bval_bound n _ Wa) as Ba. pose proof (bval_bound n _ Wb) as Bb. unfold s_mul_assign.
  rewrite !sval_ssgn in *. unfold s_isZero, s_isNegative.
  assert (AB : ssgn b <> 0 -> sgn b <> SZero) by (unfold ssgn; destruct (sgn b); congruence).
  assert (K : forall a', mag a' = mag a -> ssgn a' = ssgn a * ssgn b -> ssgn b = 1 \/ ssgn b = -1 ->
     syields n (r <- mul_assign n (mag a') (mag b);; Ok (with_mag a' r)) (ssgn a * bval (mag a) * (ssgn b * bval (mag b)))).
  { intros a' Em Es Hb. rewrite Em. destruct (mul_assign_correct n _ _ Wa Wb) as (r & Er & Wr & Vr). rewrite Er. cbn [bind].
    eapply syields_intro; [reflexivity|exact Wr| |]; unfold with_mag; [cbn [sgn mag]|rewrite sval_with; fold (ssgn a')].
    - intros Hs. assert (ssgn a' <> 0) by (unfold ssgn; destruct (sgn a'); congruence).
      assert (ssgn a <> 0) by (intros Z0; rewrite Z0 in Es; lia).
      assert (Ha0 : sgn a <> SZero) by (unfold ssgn in *; destruct (sgn a); congruence).
      specialize (Na Ha0). specialize (Nb ltac:(apply AB; lia)).
      assert (P : bval (mag a) * bval (mag b) <> 0) by (apply Z.neq_mul_0; auto).
      assert (0 <= bval (mag a) * bval (mag b)) by (apply Z.mul_nonneg_nonneg; lia).
      rewrite Vr, Z.mod_small; auto. destruct (ssgn_cases a) as [[S _]|[[S _]|[S _]]]; rewrite S in H; destruct Hb as [Hb|Hb]; rewrite Hb in H; lia.
    - rewrite Es. destruct (ssgn_cases a) as [[S _]|[[S _]|[S _]]]; rewrite S in *; [lia| |];
      assert (0 <= bval (mag a) * bval (mag b)) by (apply Z.mul_nonneg_nonneg; lia);
      rewrite Vr, Z.mod_small by (destruct Hb as [Hb|Hb]; rewrite Hb in H; lia); lia. }
  destruct (ssgn_cases b) as [[S E]|[[S E]|[S E]]]; rewrite E; cbn [sign_eqb].
  - rewrite S. eapply syields_intro; [reflexivity|exact Wa|cbn; congruence|cbn; lia].
  - apply K; auto. lia.
  - apply K; auto. rewrite ssgn_inverse. lia.
Qed.

(** ** Division *)
Lemma s_fix_zero_spec n a : wf n (mag a) ->
  exists r, s_fix_zero n a = Ok r /\ swf n r /\ sval r = sval a /\ mag r = mag a /\ (bval (mag a) = 0 -> sgn r = SZero).
Proof.
  intros W. unfold s_fix_zero. rewrite isZero_val by auto. cbn [bind]. destruct (Z.eqb_spec (bval (mag a)) 0) as [E|E].
  - exists (with_sign a SZero). split; [reflexivity|]. split; [split; [exact W|cbn; congruence]|].
    rewrite (sval_ssgn a), E. cbn. split; [lia|]. auto.
  - exists a. split; [reflexivity|]. split; [split; auto|]. split; auto. split; auto. intros; contradiction.
Qed.

Lemma fix_zero_canon n a r : wf n (mag a) -> sgn a <> SZero -> s_fix_zero n a = Ok r -> canon n r.
Proof.
  intros W N H. unfold s_fix_zero in H. rewrite isZero_val in H by auto. cbn [bind] in H.
  destruct (Z.eqb_spec (bval (mag a)) 0) as [E|E]; injection H as <-; (split; [exact W|]); cbn; intuition.
Qed.

(** Truncated division in terms of sign and magnitude. *)
Lemma quot_signs s1 s2 x y : (s1 = 0 \/ s1 = 1 \/ s1 = -1) -> (s2 = 1 \/ s2 = -1) -> 0 <= x -> 0 < y ->
  Z.quot (s1 * x) (s2 * y) = s1 * s2 * (x / y) /\ Z.rem (s1 * x) (s2 * y) = s1 * (x mod y).
Proof.
  intros H1 H2 Hx Hy.
  pose proof (Z.quot_div_nonneg x y Hx Hy). pose proof (Z.rem_mod_nonneg x y Hx Hy).
  destruct H1 as [-> | [-> | ->]], H2 as [-> | ->]; split;
  replace (1 * x) with x by lia; replace (1 * y) with y by lia; replace (-1 * x) with (- x) by lia; replace (-1 * y) with (- y) by lia; replace (0 * x) with 0 by lia;
  rewrite ?Z.quot_opp_opp, ?Z.rem_opp_opp, ?Z.quot_opp_l, ?Z.quot_opp_r, ?Z.rem_opp_l, ?Z.rem_opp_r, ?Z.quot_0_l, ?Z.rem_0_l by lia; lia.
Qed.

Lemma nz_parts n b : wf n (mag b) -> ssgn b * bval (mag b) <> 0 -> (ssgn b = 1 \/ ssgn b = -1) /\ 0 < bval (mag b).
Proof.
  intros W H. pose proof (bval_bound n _ W). assert (ssgn b <> 0) by (intros E; rewrite E in H; lia).
  assert (bval (mag b) <> 0) by (intros E; rewrite E in H; lia). destruct (ssgn_cases b); lia.
Qed.
Lemma ssgn3 a : ssgn a = 0 \/ ssgn a = 1 \/ ssgn a = -1.
Proof. destruct (ssgn_cases a); lia. Qed.

Lemma s_div_correct cfg n a b : 1 <= n -> swf n a -> swf n b -> sval b <> 0 ->
  syields n (s_div_assign cfg n a b) (Z.quot (sval a) (sval b)).
Proof.
  intros Hn [Wa Na] [Wb Nb] H. pose proof (bval_bound n _ Wa) as Ba. pose proof (bval_bound n _ Wb) as Bb. unfold s_div_assign.
  rewrite !sval_ssgn in *. unfold s_isZero, s_isNegative, div_assign, op_div.
  destruct (divide_pos cfg n (mag a) (mag b) Hn Wa Wb ltac:(pose proof (nz_parts n b Wb H); lia)) as (q & r & E & [Wq Vq] & _).
  destruct (nz_parts n b Wb H) as [Sb Pb].
  destruct (quot_signs (ssgn a) (ssgn b) (bval (mag a)) (bval (mag b)) (ssgn3 a) Sb ltac:(lia) Pb) as [Q _]. rewrite Q.
  destruct (ssgn_cases b) as [[S Eb]|[[S Eb]|[S Eb]]]; rewrite S, Eb in *; [lia| |]; cbn [sign_eqb]; rewrite ?s_inverse_mag, E; cbn [bind].
  - destruct (s_fix_zero_spec n (with_mag a q) Wq) as (x & Ex & Sx & Vx & _). exists x. rewrite Ex. split; auto. split; auto.
    rewrite Vx. unfold with_mag. rewrite sval_with. fold (ssgn a). rewrite Vq. lia.
  - destruct (s_fix_zero_spec n (with_mag (s_inverse a) q) Wq) as (x & Ex & Sx & Vx & _). exists x. rewrite Ex. split; auto. split; auto.
    rewrite Vx. unfold with_mag. rewrite sval_with. fold (ssgn (s_inverse a)). rewrite ssgn_inverse, Vq. lia.
Qed.

(** [%=]: the magnitude of the remainder with the sign of dividend times divisor. *)
Lemma s_mod_correct cfg n a b : 1 <= n -> swf n a -> swf n b -> sval b <> 0 ->
  syields n (s_mod_assign cfg n a b) (Z.sgn (sval b) * Z.rem (sval a) (sval b)).
Proof.
  intros Hn [Wa Na] [Wb Nb] H. pose proof (bval_bound n _ Wa) as Ba. pose proof (bval_bound n _ Wb) as Bb. unfold s_mod_assign.
  rewrite !sval_ssgn in *. unfold s_isZero, s_isNegative, mod_assign, op_mod.
  destruct (divide_pos cfg n (mag a) (mag b) Hn Wa Wb ltac:(pose proof (nz_parts n b Wb H); lia)) as (q & r & E & _ & [Wq Vq]).
  destruct (nz_parts n b Wb H) as [Sb Pb].
  destruct (quot_signs (ssgn a) (ssgn b) (bval (mag a)) (bval (mag b)) (ssgn3 a) Sb ltac:(lia) Pb) as [_ Q]. rewrite Q.
  destruct (ssgn_cases b) as [[S Eb]|[[S Eb]|[S Eb]]]; rewrite S, Eb in *; [lia| |]; cbn [sign_eqb]; rewrite ?s_inverse_mag, E; cbn [bind].
  - destruct (s_fix_zero_spec n (with_mag a r) Wq) as (x & Ex & Sx & Vx & _). exists x. rewrite Ex. split; auto. split; auto.
    rewrite Vx. unfold with_mag. rewrite sval_with. fold (ssgn a). rewrite Vq. rewrite Z.sgn_pos by lia. lia.
  - destruct (s_fix_zero_spec n (with_mag (s_inverse a) r) Wq) as (x & Ex & Sx & Vx & _). exists x. rewrite Ex. split; auto. split; auto.
    rewrite Vx. unfold with_mag. rewrite sval_with. fold (ssgn (s_inverse a)). rewrite ssgn_inverse, Vq. rewrite Z.sgn_neg by lia. lia.
Qed.

Lemma s_divide_correct cfg n a b q0 r0 : 1 <= n -> swf n a -> swf n b -> wf n (mag q0) -> wf n (mag r0) -> sval b <> 0 ->
  exists q r, s_divide cfg n a b q0 r0 = Ok (q, r) /\ swf n q /\ swf n r /\
    sval q = Z.quot (sval a) (sval b) /\ sval r = Z.rem (sval a) (sval b).
Proof.
  intros Hn [Wa Na] [Wb Nb] Wq0 Wr0 H. pose proof (bval_bound n _ Wa) as Ba. pose proof (bval_bound n _ Wb) as Bb. unfold s_divide.
  rewrite !sval_ssgn in *. unfold s_isZero.
  destruct (nz_parts n b Wb H) as [Sb Pb].
  destruct (quot_signs (ssgn a) (ssgn b) (bval (mag a)) (bval (mag b)) (ssgn3 a) Sb ltac:(lia) Pb) as [Q R]. rewrite Q, R.
  destruct (ssgn_cases b) as [[S Eb]|SB]; [lia|].
  destruct (ssgn_cases a) as [[Sa Ea]|SA].
  - rewrite Sa, Ea in *. cbn [sign_eqb orb]. do 2 eexists. split; [reflexivity|]. unfold swf, sval, with_sign; cbn [sgn mag].
    split; [|split]; [split; auto; congruence..|]. split; lia.
  - assert (sign_eqb (sgn a) SZero = false) as -> by (destruct SA as [[_ ->]|[_ ->]]; auto).
    assert (sign_eqb (sgn b) SZero = false) as -> by (destruct SB as [[_ ->]|[_ ->]]; auto). cbn [orb].
    destruct (divide_pos cfg n (mag a) (mag b) Hn Wa Wb ltac:(pose proof (nz_parts n b Wb H); lia)) as (q & r & E & [Wq Vq] & [Wr Vr]). rewrite E. cbn [bind].
    rewrite !isZero_val by auto.
    destruct SA as [[S1 E1]|[S1 E1]], SB as [[S2 E2]|[S2 E2]]; rewrite S1, S2, E1, E2, <- Vq, <- Vr; cbn [bind];
    (do 2 eexists; split; [reflexivity|]; unfold swf, sval; cbn [sgn mag];
     destruct (Z.eqb_spec (bval q) 0), (Z.eqb_spec (bval r) 0); 
     (split; [split; [exact Wq|congruence]|]; split; [split; [exact Wr|congruence]|]; split; lia)).
Qed.

(** ** Steps *)
Lemma s_inc_correct n a : 1 <= n -> swf n a -> Z.abs (sval a + 1) < modulus n -> syields n (s_inc n a) (sval a + 1).
Proof.
  intros Hn [W N] H. pose proof (bval_bound n _ W) as B. unfold s_inc. destruct a as [[] m]; unfold sval in *; cbn [sgn mag] in *.
  - destruct (one_spec n Hn) as (r & E & Wr & V). rewrite E. eapply syields_intro; [reflexivity|exact Wr|cbn; lia|cbn; lia].
  - destruct (op_inc_correct n m W) as (r & E & Wr & V). fold (modulus n) in *. rewrite Z.mod_small in V by lia. rewrite E.
    eapply syields_intro; [reflexivity|exact Wr|cbn; lia|cbn; lia].
  - specialize (N ltac:(discriminate)). destruct (op_dec_correct n m W) as (r & E & Wr & V). fold (modulus n) in *.
    rewrite Z.mod_small in V by (unfold modulus in *; lia). rewrite E. cbn [bind]. rewrite isZero_val by auto. cbn [bind].
    eapply syields_intro; [reflexivity|exact Wr|cbn|unfold sval; cbn]; destruct (Z.eqb_spec (bval r) 0); try lia; congruence.
Qed.
Lemma s_dec_correct n a : 1 <= n -> swf n a -> Z.abs (sval a - 1) < modulus n -> syields n (s_dec n a) (sval a - 1).
Proof.
  intros Hn [W N] H. pose proof (bval_bound n _ W) as B. unfold s_dec. destruct a as [[] m]; unfold sval in *; cbn [sgn mag] in *.
  - destruct (one_spec n Hn) as (r & E & Wr & V). rewrite E. eapply syields_intro; [reflexivity|exact Wr|cbn; lia|cbn; lia].
  - specialize (N ltac:(discriminate)). destruct (op_dec_correct n m W) as (r & E & Wr & V). fold (modulus n) in *.
    rewrite Z.mod_small in V by (unfold modulus in *; lia). rewrite E. cbn [bind]. rewrite isZero_val by auto. cbn [bind].
    eapply syields_intro; [reflexivity|exact Wr|cbn|unfold sval; cbn]; destruct (Z.eqb_spec (bval r) 0); try lia; congruence.
  - destruct (op_inc_correct n m W) as (r & E & Wr & V). fold (modulus n) in *. rewrite Z.mod_small in V by lia. rewrite E.
    eapply syields_intro; [reflexivity|exact Wr|cbn; lia|cbn; lia].
Qed.
