(** * SThrCount: as [ThrCount.v] and [ThrSteady.v], for the signed class. *)
From Verif Require Import Spec Lib AeuModel AeuFacts AesiModel AesiArith AesiFacts AliasModel AliasFacts ProgSpec ProgModel ProgFacts ProgSigned ProgTotal
  ThrMonad ThrModel ThrSpec ThrSafe ThrTrace ThrSteady ThrCount SThrModel SThrSpec SThrSafe STraceSpec.
From Coq Require Import ZifyBool.
Open Scope Z_scope.
Notation any := (fun _ => True).

Section Count.
Context (n : Z) (Hn : 1 <= n).
Ltac bnd k1 k2 := apply (upto_bind any _ k1 k2); [ | nia | | nia].
Ltac weaken k0 := apply (upto_more any any _ (fun _ _ => I) k0); [nia|].
Lemma k_base x : costs 1 (base_ x).
Proof. apply costs_at. Qed.
Lemma k_sign x : upto any 1 (v_sign x).
Proof. unfold v_sign. bnd 1 0; [apply upto_at|]. intros; apply upto_ret; auto; lia. Qed.
Lemma k_tsign x s : upto any 1 (t_sign x s).
Proof. apply upto_aput. Qed.
(** reading a sign first *)
Lemma k_read {A} k x (f : sign_t -> act A) : 1 <= k -> (forall s, upto any (k - 1) (f s)) -> upto any k (abind (v_sign x) f).
Proof. intros L H. bnd 1 (k - 1); [apply k_sign|]. auto. Qed.
Lemma k_scompareTo cfg a b : upto any (2 * n + 3) (v_scompareTo cfg n a b).
Proof.
  unfold v_scompareTo. apply k_read; [lia|]. intros s1. destruct (sign_eqb s1 SZero).
  { apply k_read; [lia|]. intros s2. apply upto_ret; auto; lia. }
  assert (C : upto any (2 * n) (v_compareTo cfg n (base_ a) (base_ b))) by (weaken (n * (1 + 1)); apply k_compare; auto using k_base).
  apply k_read; [lia|]. intros s2. destruct (sign_eqb s2 SNeg); (apply k_read; [lia|]; intros s3).
  - destruct (sign_eqb s3 SNeg); [|apply upto_ret; auto; lia]. bnd (2 * n) 0; [exact C|]. intros; apply upto_ret; auto; lia.
  - destruct (sign_eqb s3 SPos); [|apply upto_ret; auto; lia]. weaken (2 * n). exact C.
Qed.
Lemma k_seq cfg a b : upto any (2 * n + 3) (v_seq cfg n a b).
Proof. unfold v_seq. bnd (2 * n + 3) 0; [apply k_scompareTo|]. intros; apply upto_ret; auto; lia. Qed.
Lemma k_srel cfg a b f : upto any (2 * n + 3) (v_srel cfg n a b f).
Proof. unfold v_srel. bnd (2 * n + 3) 0; [apply k_scompareTo|]. intros; apply upto_ret; auto; lia. Qed.
Lemma k_local d l : upto any n (t_assign n d (local l)).
Proof. weaken (n * (0 + 1)). apply k_assign; auto. apply costs_local. Qed.
Lemma k_scopy d s : upto any (2 * n + 2) (t_scopy n d s).
Proof. unfold t_scopy. apply k_read; [lia|]. intros x. bnd 1 (n * (1 + 1)); [apply k_tsign|]. intros _ _. apply k_assign; auto. apply k_base. Qed.
Lemma k_sput d r : upto any (n + 1) (t_sput n d r).
Proof. unfold t_sput. bnd 1 n; [apply k_tsign|]. intros _ _. apply k_local. Qed.
Lemma k_inverse x : upto any 3 (t_inverse x).
Proof.
  unfold t_inverse. apply k_read; [lia|]. intros s. destruct (sign_eqb s SZero); [weaken 1; apply k_tsign|].
  apply k_read; [lia|]. intros s'. apply k_tsign.
Qed.
Lemma k_fix a : upto any (n + 1) (t_fix_zero n a).
Proof.
  unfold t_fix_zero. bnd n 1.
  - unfold v_isZero. apply (upto_bind (fun f => 0 <= f <= n) _ (n * 1) 0); [apply k_filled; auto using k_base|lia| |lia]. intros; apply upto_ret; auto; lia.
  - intros z _. destruct z; [apply k_tsign|apply upto_ret; auto; lia].
Qed.
Lemma k_rsub a b s : upto any (3 * n + 1) (t_rsub n a b s).
Proof.
  unfold t_rsub. bnd (n * 1) (2 * n + 1); [apply k_copy; auto using k_base|]. intros r _.
  bnd (n * 1) (n + 1); [apply k_sub_local; auto using k_base|]. intros r' _. bnd n 1; [apply k_local|]. intros _ _. apply k_tsign.
Qed.
Lemma k_difference cfg a b s : upto any (5 * n + 1) (t_difference cfg n a b s).
Proof.
  unfold t_difference. bnd (n * (1 + 1)) (3 * n + 1); [apply k_compare; auto using k_base|]. intros c _. destruct c.
  - weaken 1. apply k_tsign.
  - apply k_rsub.
  - weaken (3 * n). apply k_sub; auto. apply k_base.
  - weaken 1. apply k_tsign.
Qed.
Lemma k_plus a b : upto any (3 * n) (t_add_assign n (mag_at a) (base_ b)).
Proof. weaken (n * (1 + 2)). apply k_add; auto. apply k_base. Qed.
Lemma k_sadd cfg a b : upto any (5 * n + 6) (t_sadd_assign cfg n a b).
Proof.
  unfold t_sadd_assign. apply k_read; [lia|]. intros s1. destruct (sign_eqb s1 SZero); [apply upto_ret; auto; lia|].
  apply k_read; [lia|]. intros s2. destruct (sign_eqb s2 SZero); [weaken (2 * n + 2); apply k_scopy|].
  apply k_read; [lia|]. intros s3. apply k_read; [lia|]. intros s4. destruct (sign_eqb s3 s4); [weaken (3 * n); apply k_plus|].
  apply k_read; [lia|]. intros s5. destruct (sign_eqb s5 SPos); (weaken (5 * n + 1); apply k_difference).
Qed.
Lemma k_ssub cfg a b : upto any (5 * n + 6) (t_ssub_assign cfg n a b).
Proof.
  unfold t_ssub_assign. apply k_read; [lia|]. intros s1. destruct (sign_eqb s1 SZero); [apply upto_ret; auto; lia|].
  apply k_read; [lia|]. intros s2. destruct (sign_eqb s2 SZero).
  { bnd (2 * n + 2) 3; [apply k_scopy|]. intros _ _. apply k_inverse. }
  apply k_read; [lia|]. intros s3. destruct (sign_eqb s3 SPos); (apply k_read; [lia|]; intros s4).
  - destruct (sign_eqb s4 SPos); [weaken (5 * n + 1); apply k_difference|weaken (3 * n); apply k_plus].
  - destruct (sign_eqb s4 SNeg); [weaken (5 * n + 1); apply k_difference|weaken (3 * n); apply k_plus].
Qed.
Lemma k_flip a b : upto any 4 (t_flip a b).
Proof. unfold t_flip. apply k_read; [lia|]. intros s. destruct (sign_eqb s SNeg); [apply k_inverse|apply upto_ret; auto; lia]. Qed.
Lemma k_sop cfg o a b : upto any (smost_op n o) (t_sop_assign cfg o n a b).
Proof.
  destruct o; cbn [t_sop_assign smost_op].
  - apply k_sadd.
  - apply k_ssub.
  - unfold t_smul_assign. apply k_read; [nia|]. intros s. destruct (sign_eqb s SZero); [weaken 1; apply k_tsign|].
    bnd 4 (n * n + 4 * n); [apply k_flip|]. intros _ _. apply (k_op n Hn cfg OMul). apply k_base.
  - unfold t_sdiv_assign. apply k_read; [nia|]. intros s. destruct (sign_eqb s SZero); [weaken 1; apply k_tsign|].
    bnd 4 (64 * (n * n) + 37 * n + 1); [apply k_flip|]. intros _ _. bnd (64 * (n * n) + 36 * n) (n + 1); [apply (k_op n Hn cfg ODiv), k_base|].
    intros _ _. apply k_fix.
  - unfold t_smod_assign. apply k_read; [nia|]. intros s. destruct (sign_eqb s SZero); [apply upto_ret; auto; nia|].
    bnd 4 (64 * (n * n) + 37 * n + 1); [apply k_flip|]. intros _ _. bnd (64 * (n * n) + 36 * n) (n + 1); [apply (k_op n Hn cfg OMod), k_base|].
    intros _ _. apply k_fix.
Qed.
Lemma smost_op_nonneg o : 0 <= smost_op n o.
Proof. destruct o; cbn [smost_op]; nia. Qed.
Lemma k_sbinary cfg o d a b : upto any (smost_op n o + 4 * n + 4) (t_sbinary cfg o n d a b).
Proof.
  pose proof (smost_op_nonneg o). unfold t_sbinary. bnd (2 * n + 2) (smost_op n o + 2 * n + 2); [apply k_scopy|]. intros _ _.
  bnd (smost_op n o) (2 * n + 2); [apply k_sop|]. intros _ _. apply k_scopy.
Qed.
Lemma k_one a s : upto any (n + 1) (t_one n a s).
Proof. unfold t_one. bnd 0 (n + 1); [apply upto_pure|]. intros one _. bnd n 1; [apply k_local|]. intros _ _. apply k_tsign. Qed.
Lemma k_sinc a : upto any (3 * n + 2) (t_sinc n a).
Proof.
  unfold t_sinc. apply k_read; [lia|]. intros s. destruct (sign_eqb s SNeg).
  { bnd (2 * n) (n + 1); [now apply k_dec|]. intros _ _. apply k_fix. }
  apply k_read; [lia|]. intros s'. destruct (sign_eqb s' SPos); [weaken (2 * n); now apply k_inc|weaken (n + 1); apply k_one].
Qed.
Lemma k_sdec a : upto any (3 * n + 3) (t_sdec n a).
Proof.
  unfold t_sdec. apply k_read; [lia|]. intros s. destruct (sign_eqb s SNeg); [weaken (2 * n); now apply k_inc|].
  apply k_read; [lia|]. intros s'. destruct (sign_eqb s' SPos); [|weaken (n + 1); apply k_one].
  bnd (2 * n) (n + 1); [now apply k_dec|]. intros _ _. apply k_fix.
Qed.
Lemma k_strip t a k : upto any 3 (t_strip t a k).
Proof. unfold t_strip. destruct (k <? 0); [|apply upto_ret; auto; lia]. bnd 3 0; [apply k_inverse|]. intros _ _. bnd 0 0; [apply upto_pure|]. intros; apply upto_ret; auto; lia. Qed.
Lemma k_smul_int cfg t a k : upto any (3 * n + 3) (t_smul_int cfg n t a k).
Proof.
  unfold t_smul_int. destruct (k =? 0); [weaken 1; apply k_tsign|]. bnd 3 (3 * n); [apply k_strip|]. intros f _. now apply k_mul_u.
Qed.
Lemma k_sdiv_int cfg t a k : upto any (36 * n + 4) (t_sdiv_int cfg n t a k).
Proof.
  unfold t_sdiv_int. destruct (k =? 0); [weaken 1; apply k_tsign|]. bnd 3 (36 * n + 1); [apply k_strip|]. intros f _.
  bnd 0 (36 * n + 1); [apply upto_pure|]. intros d _. bnd (35 * n) (n + 1); [|intros _ _; apply k_fix].
  unfold t_div_assign. bnd (n * (1 + 0) + (n * 1 + 32 * n * (1 + 2 * (n * 0)))) n; [|intros [q r] _; apply k_local].
  apply k_divide; auto; [apply costs_at|apply costs_local].
Qed.
Lemma k_sswap a b : upto any (6 * n + 4) (t_sswap n a b).
Proof.
  unfold t_sswap. apply k_read; [lia|]. intros s1. apply k_read; [lia|]. intros s2. bnd 1 (6 * n + 1); [apply k_tsign|]. intros _ _.
  bnd 1 (6 * n); [apply k_tsign|]. intros _ _. now apply k_swap.
Qed.
Lemma k_sdivide cfg nu de q r : upto any (288 * (n * n) + 231 * n + 8) (t_sdivide cfg n nu de q r).
Proof.
  unfold t_sdivide. apply k_read; [nia|]. intros s1. bnd 1 (288 * (n * n) + 231 * n + 6).
  { destruct (sign_eqb s1 SZero); [apply upto_ret; auto; lia|]. apply k_read; [lia|]. intros; apply upto_ret; auto; lia. }
  intros z _. destruct z.
  { bnd 1 1; [apply k_tsign|]. intros _ _. apply k_tsign. }
  bnd (288 * (n * n) + 229 * n) (2 * n + 6); [now apply k_tdivide|]. intros _ _.
  apply k_read; [nia|]. intros s2. apply k_read; [nia|]. intros s3. bnd 1 (2 * n + 3); [apply k_tsign|]. intros _ _.
  bnd 1 (2 * n + 2); [apply k_tsign|]. intros _ _. bnd (n + 1) (n + 1); [apply k_fix|]. intros _ _. apply k_fix.
Qed.
Lemma k_snegate d s : upto any (2 * n + 2) (t_snegate n d s).
Proof.
  unfold t_snegate. apply k_read; [lia|]. intros x. bnd (n * 1) (n + 1); [apply k_copy; auto using k_base|]. intros b _. apply k_sput.
Qed.
Lemma k_ssqrt cfg d a : upto any (2176 * (n * n) + 104 * n + 6) (t_ssqrt cfg n d a).
Proof.
  unfold t_ssqrt. apply k_read; [nia|]. intros s. destruct (sign_eqb s SPos).
  - bnd (2176 * (n * n) + 103 * n + 4) (n + 1); [apply k_squareRoot; auto using k_base|]. intros r _. apply k_sput.
  - bnd 0 (n + 1); [apply upto_pure|]. intros r _. apply k_sput.
Qed.
Lemma k_pure_put d x : upto any (n + 1) (abind (pure x) (fun r => t_sput n d r)).
Proof. bnd 0 (n + 1); [apply upto_pure|]. intros r _. apply k_sput. Qed.
Lemma k_stexec cfg i : upto any (smost_accesses n i) (stexec cfg n i).
Proof.
  destruct i; cbn [stexec smost_accesses].
  - apply k_scopy.
  - apply k_pure_put.
  - apply k_sop.
  - apply k_sbinary.
  - apply k_sinc.
  - apply k_sdec.
  - apply k_snegate.
  - apply k_inverse.
  - apply k_smul_int.
  - apply k_sdiv_int.
  - apply k_sswap.
  - apply k_sdivide.
  - apply k_ssqrt.
  - apply k_pure_put.
Qed.
Lemma k_sttest cfg c : upto any (smost_tests n c) (sttest cfg n c).
Proof.
  destruct c; cbn [sttest smost_tests]; try apply k_srel; try (apply k_read; [lia|]; intros; apply upto_ret; auto; lia).
  - apply k_seq.
  - bnd (2 * n + 3) 0; [apply k_seq|]. intros; apply upto_ret; auto; lia.
Qed.
Lemma smost_nonneg p : 0 <= smost_prog n p.
Proof.
  induction p as [|i|s IHs t IHt|c s IHs t IHt|c s IHs]; cbn [smost_prog]; try lia.
  - destruct i; cbn [smost_accesses]; try (pose proof (smost_op_nonneg o)); nia.
  - destruct c; cbn [smost_tests]; lia.
Qed.
Lemma k_srun cfg : forall fuel p, sstraight p -> upto any (smost_prog n p) (strun cfg n fuel p).
Proof.
  induction fuel as [|f IH]; intros p S; cbn [strun]; [cbn; apply smost_nonneg|]. destruct p as [|i|s t|c s t|c s]; cbn [sstraight smost_prog] in *.
  - apply upto_ret; auto; lia.
  - apply k_stexec.
  - pose proof (smost_nonneg s). pose proof (smost_nonneg t). destruct S. bnd (smost_prog n s) (smost_prog n t); [now apply IH|]. intros _ _. now apply IH.
  - pose proof (smost_nonneg s). pose proof (smost_nonneg t). destruct S. bnd (smost_tests n c) (Z.max (smost_prog n s) (smost_prog n t)); [apply k_sttest|].
    intros b _. destruct b; [weaken (smost_prog n s)|weaken (smost_prog n t)]; now apply IH.
  - contradiction.
Qed.
End Count.

(** ** The same accesses *)
Section Steady.
Context (n : Z) (Hn : 1 <= n).
Notation same c := (exists tr, obl (fun _ => True) tr c).
Lemma o_sign x : obl any [Load (sign_at x) 0] (v_sign x).
Proof. unfold v_sign. replace [Load (sign_at x) 0] with ([Load (sign_at x) 0] ++ []) by reflexivity. eapply obl_bind; [apply obl_at|]. intros; now apply obl_ret. Qed.
Lemma o_tsign x s : obl any [Store (sign_at x) 0] (t_sign x s).
Proof. apply obl_aput. Qed.
Lemma o_put d : exists tr, forall r, wf n (mag r) -> obl any tr (t_sput n d r).
Proof.
  destruct (o_local n (mag_at d)) as [tr H]. eexists. intros r W. unfold t_sput. eapply obl_bind; [apply o_tsign|]. intros _ _. now apply H.
Qed.
Lemma o_scopy d s : same (t_scopy n d s).
Proof.
  destruct (o_assign n (fun i => [Load (mag_at s) i]) (mag_at d) (base_ s)) as [tr H]; [apply vobl_at|].
  eexists. unfold t_scopy. eapply obl_bind; [apply o_sign|]. intros x _. eapply obl_bind; [apply o_tsign|]. intros _ _. exact H.
Qed.
Lemma o_snegate d s : same (t_snegate n d s).
Proof.
  destruct (o_copy n Hn (fun i => [Load (mag_at s) i]) (base_ s)) as [tr H]; [apply vobl_at|]. destruct (o_put d) as [tr' H'].
  eexists. unfold t_snegate. eapply obl_bind; [apply o_sign|]. intros x _. eapply obl_bind; [exact H|]. intros b W. apply H'.
  unfold AesiModel.s_inverse. destruct x; exact W.
Qed.
Lemma o_sswap a b : same (t_sswap n a b).
Proof.
  destruct (o_swap n (mag_at a) (mag_at b)) as [tr H]. eexists. unfold t_sswap. eapply obl_bind; [apply o_sign|]. intros s1 _.
  eapply obl_bind; [apply o_sign|]. intros s2 _. eapply obl_bind; [apply o_tsign|]. intros _ _. eapply obl_bind; [apply o_tsign|]. intros _ _. exact H.
Qed.
Lemma o_pure_put d x : stot n x -> same (abind (pure x) (fun r => t_sput n d r)).
Proof. intros (r & -> & W). cbn [pure abind]. destruct (o_put d) as [tr H]. exists tr. now apply H. Qed.
Lemma o_stexec cfg i : cfg_unsafe cfg = false -> sinstr_typed i -> ssteady i -> same (stexec cfg n i).
Proof.
  intros U T S. destruct i; cbn [stexec sinstr_typed ssteady] in *; try contradiction.
  - apply o_scopy.
  - apply o_pure_put, s_from_int_tot; tauto.
  - apply o_snegate.
  - subst v. unfold t_smul_int. rewrite Z.eqb_refl. eexists. apply o_tsign.
  - subst v. unfold t_sdiv_int. rewrite Z.eqb_refl. eexists. apply o_tsign.
  - apply o_sswap.
  - apply o_pure_put. unfold s_power2. destruct (power2_total cfg n k U ltac:(lia) T) as (b & -> & Wb & _). cbn [bind]. now apply fix_zero_tot.
Qed.
Lemma o_smul_pos cfg d t v : ull_ty cfg <> U64 -> 0 < v -> same (stexec cfg n (SMulLit d t v)).
Proof.
  intros U V. cbn [stexec]. unfold t_smul_int. destruct (Z.eqb_spec v 0); [lia|]. unfold t_strip. destruct (Z.ltb_spec v 0); [lia|]. cbn [abind].
  now apply o_mul_u.
Qed.
Lemma o_srun cfg : cfg_unsafe cfg = false -> forall fuel p, typed sinstr_typed (fun _ => True) p -> ssteady_prog p -> (sdepth p <= fuel)%nat ->
  same (strun cfg n fuel p).
Proof.
  intros U. induction fuel as [|f IH]; intros p T S D; [destruct p; cbn [sdepth] in D; lia|]. cbn [strun].
  destruct p as [|i|s t|c s t|c s]; cbn [typed ssteady_prog sdepth] in *; try contradiction.
  - exists []. now apply obl_ret.
  - now apply o_stexec.
  - destruct T, S. apply ThrSteady.o_seq; apply IH; auto; lia.
Qed.
End Steady.
