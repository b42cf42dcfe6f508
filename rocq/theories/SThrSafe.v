(** * SThrSafe: every access of the calls in [SThrModel.v] is inside the arrays, whatever the loads return. *)
From Verif Require Import Spec Lib AeuModel AeuArith AeuBits AeuAccess AeuDiv AeuFacts AesiModel AesiArith AesiFacts AliasModel AliasFacts
  ProgSpec ProgModel ProgFacts ProgTotal ProgSigned ThrMonad ThrModel ThrSpec ThrSafe SThrModel SThrSpec.
From Coq Require Import ZifyBool.
Open Scope Z_scope.

Lemma code_block s : block (code s).
Proof. destruct s; cbn [code]; unfold block; lia. Qed.

Section Safe.
Context (F : Prop) (n : Z) (Hn : 1 <= n).
Notation done c := (safe F n (fun _ => True) c).
Lemma s_sign x : done (v_sign x).
Proof. unfold v_sign. eapply safe_bind; [apply safe_at; lia|]. intros; exact I. Qed.
Lemma s_tsign x s : done (t_sign x s).
Proof. apply safe_aput; [lia|apply code_block]. Qed.
(** reading a sign, then anything that is safe for every sign *)
Lemma s_read {A} (P : A -> Prop) x (f : sign_t -> act A) : (forall s, safe F n P (f s)) -> safe F n P (s <~ v_sign x ;; f s).
Proof. intros H. eapply safe_bind; [apply s_sign|]. auto. Qed.
Lemma s_then {A} (c : act unit) (k : unit -> act A) (P : A -> Prop) : done c -> safe F n P (k tt) -> safe F n P (abind c k).
Proof. intros H K. eapply safe_bind; [exact H|]. intros [] _. exact K. Qed.
Lemma s_base x : vsafe n (base_ x).
Proof. apply vsafe_at. Qed.
Lemma s_scompareTo cfg a b : cfg_unsafe cfg = false -> done (v_scompareTo cfg n a b).
Proof.
  intros U. unfold v_scompareTo. apply s_read. intros s. destruct (sign_eqb s SZero); [apply s_read; intros; exact I|].
  apply s_read. intros s'. destruct (sign_eqb s' SNeg); apply s_read; intros s2.
  - destruct (sign_eqb s2 SNeg); [|exact I]. eapply safe_bind; [apply ThrSafe.s_compareTo; auto; apply s_base|]. intros; exact I.
  - destruct (sign_eqb s2 SPos); [|exact I]. apply ThrSafe.s_compareTo; auto; apply s_base.
Qed.
Lemma s_seq cfg a b : cfg_unsafe cfg = false -> done (v_seq cfg n a b).
Proof. intros. unfold v_seq. eapply safe_bind; [now apply s_scompareTo|]. intros; exact I. Qed.
Lemma s_srel cfg a b f : cfg_unsafe cfg = false -> done (v_srel cfg n a b f).
Proof. intros. unfold v_srel. eapply safe_bind; [now apply s_scompareTo|]. intros; exact I. Qed.
Lemma s_scopy d s : done (t_scopy n d s).
Proof. unfold t_scopy. apply s_read. intros x. apply s_then; [apply s_tsign|]. apply ThrSafe.s_assign, s_base. Qed.
Lemma s_sput d r : wf n (mag r) -> done (t_sput n d r).
Proof. intros W. unfold t_sput. apply s_then; [apply s_tsign|]. apply ThrSafe.s_assign. now apply vsafe_local. Qed.
Lemma s_tinverse x : done (t_inverse x).
Proof.
  unfold t_inverse. apply s_read. intros s. destruct (sign_eqb s SZero); [apply s_tsign|]. apply s_read. intros. apply s_tsign.
Qed.
Lemma s_tfix a : done (t_fix_zero n a).
Proof. unfold t_fix_zero. eapply safe_bind; [apply ThrSafe.s_isZero; auto; apply s_base|]. intros [] _; [apply s_tsign|exact I]. Qed.
Lemma s_rsub a b s : done (t_rsub n a b s).
Proof.
  unfold t_rsub. eapply safe_bind; [apply ThrSafe.s_copy; auto; apply s_base|]. intros r W. eapply safe_bind; [apply ThrSafe.s_sub_local; auto; apply s_base|].
  intros r' W'. apply s_then; [apply ThrSafe.s_assign; now apply vsafe_local|apply s_tsign].
Qed.
Lemma s_difference cfg a b s : cfg_unsafe cfg = false -> done (t_difference cfg n a b s).
Proof.
  intros U. unfold t_difference. eapply safe_bind; [apply ThrSafe.s_compareTo; auto; apply s_base|].
  intros [] _; try apply s_tsign; [apply s_rsub|apply ThrSafe.s_sub; auto; apply s_base].
Qed.
Lemma s_sadd cfg a b : cfg_unsafe cfg = false -> done (t_sadd_assign cfg n a b).
Proof.
  intros U. unfold t_sadd_assign. apply s_read. intros s1. destruct (sign_eqb s1 SZero); [exact I|]. apply s_read. intros s2.
  destruct (sign_eqb s2 SZero); [apply s_scopy|]. apply s_read. intros s3. apply s_read. intros s4.
  destruct (sign_eqb s3 s4); [apply ThrSafe.s_add, s_base|]. apply s_read. intros s5. destruct (sign_eqb s5 SPos); now apply s_difference.
Qed.
Lemma s_ssub cfg a b : cfg_unsafe cfg = false -> done (t_ssub_assign cfg n a b).
Proof.
  intros U. unfold t_ssub_assign. apply s_read. intros s1. destruct (sign_eqb s1 SZero); [exact I|]. apply s_read. intros s2.
  destruct (sign_eqb s2 SZero); [apply s_then; [apply s_scopy|apply s_tinverse]|]. apply s_read. intros s3. destruct (sign_eqb s3 SPos).
  - apply s_read. intros s4. destruct (sign_eqb s4 SPos); [now apply s_difference|apply ThrSafe.s_add, s_base].
  - apply s_read. intros s4. destruct (sign_eqb s4 SNeg); [now apply s_difference|apply ThrSafe.s_add, s_base].
Qed.
Lemma s_flip a b : done (t_flip a b).
Proof. unfold t_flip. apply s_read. intros s. destruct (sign_eqb s SNeg); [apply s_tinverse|exact I]. Qed.
Lemma s_sop cfg o a b : cfg_unsafe cfg = false -> done (t_sop_assign cfg o n a b).
Proof.
  intros U. destruct o; cbn [t_sop_assign].
  - now apply s_sadd.
  - now apply s_ssub.
  - unfold t_smul_assign. apply s_read. intros s. destruct (sign_eqb s SZero); [apply s_tsign|]. apply s_then; [apply s_flip|].
    exact (ThrSafe.s_op F n Hn cfg OMul (mag_at a) (base_ b) U (s_base b)).
  - unfold t_sdiv_assign. apply s_read. intros s. destruct (sign_eqb s SZero); [apply s_tsign|]. apply s_then; [apply s_flip|].
    apply s_then; [exact (ThrSafe.s_op F n Hn cfg ODiv (mag_at a) (base_ b) U (s_base b))|apply s_tfix].
  - unfold t_smod_assign. apply s_read. intros s. destruct (sign_eqb s SZero); [exact I|]. apply s_then; [apply s_flip|].
    apply s_then; [exact (ThrSafe.s_op F n Hn cfg OMod (mag_at a) (base_ b) U (s_base b))|apply s_tfix].
Qed.
Lemma s_sbinary cfg o d a b : cfg_unsafe cfg = false -> done (t_sbinary cfg o n d a b).
Proof. intros U. unfold t_sbinary. apply s_then; [apply s_scopy|]. apply s_then; [now apply s_sop|apply s_scopy]. Qed.
Lemma s_tone a s : done (t_one n a s).
Proof. unfold t_one. eapply safe_bind; [now apply ThrSafe.s_one|]. intros o W. apply s_then; [apply ThrSafe.s_assign; now apply vsafe_local|apply s_tsign]. Qed.
Lemma s_sinc a : done (t_sinc n a).
Proof.
  unfold t_sinc. apply s_read. intros s. destruct (sign_eqb s SNeg); [apply s_then; [now apply ThrSafe.s_dec|apply s_tfix]|].
  apply s_read. intros s'. destruct (sign_eqb s' SPos); [now apply ThrSafe.s_inc|apply s_tone].
Qed.
Lemma s_sdec a : done (t_sdec n a).
Proof.
  unfold t_sdec. apply s_read. intros s. destruct (sign_eqb s SNeg); [now apply ThrSafe.s_inc|].
  apply s_read. intros s'. destruct (sign_eqb s' SPos); [apply s_then; [now apply ThrSafe.s_dec|apply s_tfix]|apply s_tone].
Qed.
Lemma s_tstrip t a k : (isigned t = true -> 32 <= iwidth t -> k <> ity_min t) -> done (t_strip t a k).
Proof.
  intros H. unfold t_strip. destruct (k <? 0); [|exact I]. apply s_then; [apply s_tinverse|]. destruct (ineg_ok t k H) as (w & ->). exact I.
Qed.
Lemma s_smul_int cfg t a k : (isigned t = true -> 32 <= iwidth t -> k <> ity_min t) -> done (t_smul_int cfg n t a k).
Proof.
  intros H. unfold t_smul_int. destruct (k =? 0); [apply s_tsign|]. eapply safe_bind; [now apply s_tstrip|]. intros w _. apply ThrSafe.s_mul_u; auto.
Qed.
Lemma s_sdiv_int cfg t a k : cfg_unsafe cfg = false -> (isigned t = true -> 32 <= iwidth t -> k <> ity_min t) -> done (t_sdiv_int cfg n t a k).
Proof.
  intros U H. unfold t_sdiv_int. destruct (k =? 0); [apply s_tsign|]. eapply safe_bind; [now apply s_tstrip|]. intros w _.
  eapply safe_bind; [apply tot_ok; eapply yields_tot, from_unsigned_correct; [lia|apply len_zeros; lia|apply Z.mod_pos_bound; lia]|]. intros d W.
  apply s_then; [|apply s_tfix]. exact (ThrSafe.s_op F n Hn cfg ODiv (mag_at a) (local d) U (vsafe_local n d W)).
Qed.
Lemma s_sswap a b : done (t_sswap n a b).
Proof.
  unfold t_sswap. apply s_read. intros s. apply s_read. intros s'. apply s_then; [apply s_tsign|]. apply s_then; [apply s_tsign|]. apply ThrSafe.s_swap.
Qed.
Lemma s_sdivide cfg nu de q r : cfg_unsafe cfg = false -> done (t_sdivide cfg n nu de q r).
Proof.
  intros U. unfold t_sdivide. apply s_read. intros s. eapply safe_bind with (Q := fun _ => True).
  { destruct (sign_eqb s SZero); [exact I|]. apply s_read. intros; exact I. }
  intros [] _; [apply s_then; apply s_tsign|]. apply s_then; [now apply ThrSafe.s_tdivide|]. apply s_read. intros s1. apply s_read. intros s2.
  apply s_then; [apply s_tsign|]. apply s_then; [apply s_tsign|]. apply s_then; apply s_tfix.
Qed.
Lemma s_snegate d s : done (t_snegate n d s).
Proof.
  unfold t_snegate. apply s_read. intros x. eapply safe_bind; [apply ThrSafe.s_copy; auto; apply s_base|]. intros b W. apply s_sput.
  unfold AesiModel.s_inverse. destruct x; exact W.
Qed.
Lemma s_stot_put d x : stot n x -> done (r <~ pure x ;; t_sput n d r).
Proof. intros (r & -> & W). cbn [pure abind]. now apply s_sput. Qed.
Lemma s_ssqrt cfg d a (HF : F) : cfg_unsafe cfg = false -> done (t_ssqrt cfg n d a).
Proof.
  intros U. unfold t_ssqrt. apply s_read. intros s. destruct (sign_eqb s SPos).
  - eapply safe_bind; [apply ThrSafe.s_squareRoot; auto; apply s_base|]. intros r W. now apply s_sput.
  - apply s_stot_put. apply s_from_int_tot; [auto|discriminate].
Qed.
Lemma s_stexec cfg i : cfg_unsafe cfg = false -> sinstr_typed i -> F \/ sstraight (Do i) -> done (stexec cfg n i).
Proof.
  intros U T SF. destruct i; cbn [stexec sinstr_typed] in *.
  - apply s_scopy.
  - apply s_stot_put, s_from_int_tot; tauto.
  - now apply s_sop.
  - now apply s_sbinary.
  - apply s_sinc.
  - apply s_sdec.
  - apply s_snegate.
  - apply s_tinverse.
  - apply s_smul_int. tauto.
  - apply s_sdiv_int; tauto.
  - apply s_sswap.
  - now apply s_sdivide.
  - destruct SF as [HF|[] ]. now apply s_ssqrt.
  - apply s_stot_put. unfold s_power2. destruct (power2_total cfg n k U ltac:(lia) T) as (b & -> & Wb & _). cbn [bind].
    now apply fix_zero_tot.
Qed.
Lemma s_sttest cfg c : cfg_unsafe cfg = false -> done (sttest cfg n c).
Proof.
  intros U. destruct c; cbn [sttest]; try now apply s_srel.
  - now apply s_seq.
  - eapply safe_bind; [now apply s_seq|]. intros; exact I.
  - apply s_read; intros; exact I.
  - apply s_read; intros; exact I.
  - apply s_read; intros; exact I.
Qed.
Lemma s_srun cfg : cfg_unsafe cfg = false -> forall fuel p, typed sinstr_typed (fun _ => True) p ->
  F \/ (sstraight p /\ (sdepth p <= fuel)%nat) -> done (strun cfg n fuel p).
Proof.
  intros U. induction fuel as [|f IH]; intros p T SF; cbn [strun].
  { cbn [safe]. destruct SF as [HF|[_ D] ]; [now split|]. destruct p; cbn [sdepth] in D; lia. }
  destruct p as [|i|s t|c s t|c s]; cbn [typed sstraight sdepth] in *.
  - exact I.
  - apply s_stexec; auto. destruct SF as [HF|[S _] ]; auto.
  - destruct T. eapply safe_bind; [apply IH; auto|intros _ _; apply IH; auto]; (destruct SF as [HF|[ [? ?] ?] ]; [left; exact HF|right; split; auto; lia]).
  - destruct T as (? & ? & ?). eapply safe_bind; [now apply s_sttest|].
    intros [] _; apply IH; auto; (destruct SF as [HF|[ [? ?] ?] ]; [left; exact HF|right; split; auto; lia]).
  - destruct T. destruct SF as [HF|[ [] _] ]. eapply safe_bind; [now apply s_sttest|]. intros [] _; [|exact I].
    eapply safe_bind; [apply IH; auto|]. intros _ _. apply IH; cbn [typed]; auto.
Qed.
End Safe.
