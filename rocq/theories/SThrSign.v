(** * SThrSign: whatever its loads return, a call of [SThrModel.v] stores no sign but one of the three. *)
From Verif Require Import Spec Lib AeuModel AesiModel AliasModel ProgSpec ProgModel ThrMonad ThrModel ThrSpec ThrFoot SThrModel SThrSpec.
Open Scope Z_scope.

Definition coded (v : Z) : Prop := exists s, v = code s.
Lemma coded_code s : coded (code s).
Proof. exists s. reflexivity. Qed.
(** What is stored into a sign of the program's objects is one of the three values. *)
Fixpoint signs {A} (c : act A) : Prop :=
  match c with
  | Ret _ | Stop _ => True
  | Get _ _ k => forall v, signs (k v)
  | Put (Var c) _ v k => (Nat.odd c = true -> coded v) /\ signs k
  | Put (Tmp _) _ _ k => signs k
  end.
Lemma signs_bind {A B} (c : act A) (f : A -> act B) : signs c -> (forall a, signs (f a)) -> signs (abind c f).
Proof. intros H K. induction c as [a|e|x i k IH|[x|x] i v k IH]; cbn [abind signs] in *; auto. destruct H. auto. Qed.
Lemma signs_pure {A} (x : outcome A) : signs (pure x).
Proof. destruct x; exact I. Qed.
Definition any : nat -> Prop := fun _ => True.
Definition evens : nat -> Prop := fun c => Nat.odd c = false.
Lemma signs_foot {A} (c : act A) : foot any evens c -> signs c.
Proof.
  induction c as [a|e|x i k IH|[x|x] i v k IH]; cbn [foot signs]; auto.
  - intros H v. apply IH. destruct x as [x|x]; [apply H|apply H].
  - intros [H K]. split; [|apply IH, K]. cbn [lfoot] in H. unfold evens in H. congruence.
Qed.
Lemma any_l x : lfoot any x.
Proof. destruct x; exact I. Qed.
Lemma evens_mag x : lfoot evens (mag_at x).
Proof. destruct x as [i|i]; [|exact I]. cbn [mag_at lfoot]. unfold evens. rewrite Nat.odd_mul. reflexivity. Qed.
Lemma any_base x : vfoot any evens (base_ x).
Proof. apply vfoot_at, any_l. Qed.
Lemma n_sign x : signs (v_sign x).
Proof. unfold v_sign. apply signs_bind; [|intros; exact I]. apply signs_foot, foot_at, any_l. Qed.
Lemma n_tsign x s : signs (t_sign x s).
Proof. destruct x; cbn; auto. split; auto. intros. apply coded_code. Qed.
#[local] Hint Resolve any_l evens_mag any_base vfoot_local : foot.
#[local] Hint Resolve f_copy f_filled f_isZero f_compareTo f_sub_local f_squareRoot f_assign f_add f_sub f_op f_inc f_dec f_mul_u f_swap f_tdivide : foot.
Lemma n_uop cfg o n a v : vfoot any evens v -> signs (t_op_assign cfg o n (mag_at a) v).
Proof. intros. apply signs_foot. auto with foot. Qed.
#[local] Hint Resolve n_sign n_tsign : sgn.
Ltac sg := repeat (cbv beta zeta; first [assumption | exact I | lazymatch goal with
  | |- forall _, _ => intro
  | |- signs (abind _ _) => apply signs_bind
  | |- signs (pure _) => apply signs_pure
  | |- signs (Ret _) => exact I
  | |- signs (match ?x with _ => _ end) => destruct x
  end | solve [eauto with sgn] | solve [apply signs_foot; eauto 6 with foot]]).
Lemma n_scompareTo cfg n a b : signs (v_scompareTo cfg n a b).
Proof. unfold v_scompareTo. sg. Qed.
Lemma n_scopy n d s : signs (t_scopy n d s).
Proof. unfold t_scopy. sg. Qed.
Lemma n_sput n d r : signs (t_sput n d r).
Proof. unfold t_sput. sg. Qed.
Lemma n_inverse x : signs (t_inverse x).
Proof. unfold t_inverse. sg. Qed.
Lemma n_fix n a : signs (t_fix_zero n a).
Proof. unfold t_fix_zero. sg. Qed.
Lemma n_flip a b : signs (t_flip a b).
Proof. unfold t_flip. sg. apply n_inverse. Qed.
Lemma n_rsub n a b s : signs (t_rsub n a b s).
Proof. unfold t_rsub. sg. Qed.
#[local] Hint Resolve n_scompareTo n_scopy n_sput n_inverse n_fix n_flip n_rsub : sgn.
Lemma n_difference cfg n a b s : signs (t_difference cfg n a b s).
Proof. unfold t_difference. sg. Qed.
#[local] Hint Resolve n_difference : sgn.
Lemma n_sop cfg o n a b : signs (t_sop_assign cfg o n a b).
Proof.
  assert (MUL : signs (t_mul_assign n (mag_at a) (base_ b))) by (apply (n_uop cfg OMul), any_base).
  assert (DIV : signs (t_div_assign cfg n (mag_at a) (base_ b))) by (apply (n_uop cfg ODiv), any_base).
  assert (MOD : signs (t_mod_assign cfg n (mag_at a) (base_ b))) by (apply (n_uop cfg OMod), any_base).
  destruct o; cbn [t_sop_assign]; unfold t_sadd_assign, t_ssub_assign, t_smul_assign, t_sdiv_assign, t_smod_assign; sg.
Qed.
#[local] Hint Resolve n_sop : sgn.
Lemma n_one n a s : signs (t_one n a s).
Proof. unfold t_one. sg. Qed.
#[local] Hint Resolve n_one : sgn.
Lemma n_strip t a k : signs (t_strip t a k).
Proof. unfold t_strip. sg. Qed.
#[local] Hint Resolve n_strip : sgn.
Lemma n_sexec cfg n i : signs (stexec cfg n i).
Proof.
  assert (DV : forall a d, signs (t_div_assign cfg n (mag_at a) (local d))) by (intros; apply (n_uop cfg ODiv), vfoot_local).
  destruct i; cbn [stexec]; unfold t_sbinary, t_sinc, t_sdec, t_snegate, t_smul_int, t_sdiv_int, t_sswap, t_sdivide, t_ssqrt; sg; apply DV.
Qed.
Lemma n_stest cfg n c : signs (sttest cfg n c).
Proof. destruct c; cbn [sttest]; unfold v_seq, v_srel; sg. Qed.
Lemma n_srun cfg n : forall fuel p, signs (strun cfg n fuel p).
Proof.
  induction fuel as [|f IH]; intros p; cbn [strun]; [exact I|]. destruct p as [|i|s t|c s t|c s].
  - exact I.
  - apply n_sexec.
  - apply signs_bind; auto.
  - apply signs_bind; auto. apply n_stest.
  - apply signs_bind; [apply n_stest|]. intros []; [|exact I]. apply signs_bind; auto.
Qed.
(** One step of a thread. *)
Lemma signs_step sh th : (forall x, coded (znth (sh (2 * x + 1)%nat) 0)) -> signs (th_act th) ->
  (forall x, coded (znth (fst (thread_step sh th) (2 * x + 1)%nat) 0)) /\ signs (th_act (snd (thread_step sh th))).
Proof.
  intros HS H. destruct th as [c tmp]. unfold thread_step. cbn [th_act th_tmp] in *. destruct c as [a|e|x i k|x i v k]; cbn [signs] in H.
  - auto.
  - auto.
  - destruct (mget (seen sh tmp) x i); cbn [fst snd th_act]; auto. split; auto. exact I.
  - destruct (aset (seen sh tmp x) i v) as [b|e] eqn:E; [|cbn [fst snd th_act]; split; auto; destruct x; exact I].
    destruct x as [c|c]; cbn [fst snd th_act seen] in *; auto. destruct H as [H1 H2]. split; auto. intros x. unfold put_at.
    destruct (Nat.eqb_spec (2 * x + 1) c) as [<-|]; auto.
    assert (O : Nat.odd (2 * x + 1) = true) by (rewrite Nat.add_1_r, Nat.odd_succ, Nat.even_mul; reflexivity).
    assert (RI : 0 <= i < len (sh (2 * x + 1)%nat)).
    { destruct (Z_lt_dec i 0) as [|]; [rewrite aset_err in E by lia; discriminate|].
      destruct (Z_lt_dec i (len (sh (2 * x + 1)%nat))); [lia|rewrite aset_err in E by lia; discriminate]. }
    assert (EB : b = upd (sh (2 * x + 1)%nat) (Z.to_nat i) v) by (rewrite aset_ok in E by lia; congruence). rewrite EB.
    destruct (Z.eq_dec i 0) as [Z0|N]; [subst i; rewrite znth_upd_eq by lia; auto|].
    rewrite znth_upd_ne by lia. apply HS.
Qed.
