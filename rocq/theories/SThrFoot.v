(** * SThrFoot: which cells the calls of [SThrModel.v] touch. *)
From Verif Require Import Lib AeuModel AesiModel AliasModel AliasFacts ProgSpec ProgModel ThrMonad ThrModel ThrSpec ThrFoot SThrModel SThrSpec.
From Coq Require Import ZifyBool.
Open Scope Z_scope.

(** The cells of the objects in [P]. *)
Definition cells (P : nat -> Prop) (c : nat) : Prop := P (Nat.div2 c).
Lemma cells_mag P x : lfoot P x -> lfoot (cells P) (mag_at x).
Proof. destruct x as [i|i]; [|exact (fun H => H)]. unfold cells. cbn [lfoot mag_at]. now rewrite Nat.div2_double. Qed.
Lemma cells_sign P x : lfoot P x -> lfoot (cells P) (sign_at x).
Proof.
  destruct x as [i|i]; [|exact (fun H => H)]. unfold cells. cbn [lfoot sign_at]. rewrite Nat.add_1_r, Nat.div2_succ_double. auto.
Qed.
Lemma cells_0 P i : cells P (2 * i)%nat <-> P i.
Proof. unfold cells. now rewrite Nat.div2_double. Qed.
Lemma cells_1 P i : cells P (2 * i + 1)%nat <-> P i.
Proof. unfold cells. now rewrite Nat.add_1_r, Nat.div2_succ_double. Qed.

Section Feet.
Context (R0 W0 : nat -> Prop).
Notation R := (cells R0). Notation W := (cells W0).
Lemma f_base x : lfoot R0 x -> vfoot R W (base_ x).
Proof. intros. now apply vfoot_at, cells_mag. Qed.
Lemma f_sign x : lfoot R0 x -> foot R W (v_sign x).
Proof. intros. unfold v_sign. apply foot_bind; [now apply foot_at, cells_sign|]. intros; exact I. Qed.
Lemma f_tsign x s : lfoot W0 x -> foot R W (t_sign x s).
Proof. intros. now apply foot_aput, cells_sign. Qed.
Lemma f_sbind {A} x (f : sign_t -> act A) : lfoot R0 x -> (forall s, foot R W (f s)) -> foot R W (abind (v_sign x) f).
Proof. intros. apply foot_bind; auto. now apply f_sign. Qed.
#[local] Hint Resolve f_base f_sign f_tsign cells_mag cells_sign : foot.
#[local] Hint Resolve f_copy f_filled f_isZero f_compareTo f_sub_local f_squareRoot f_assign f_add f_sub f_op f_inc f_dec f_mul_u f_swap f_tdivide : foot.
Ltac fs := repeat (cbv beta zeta; first [assumption | exact I | lazymatch goal with
  | |- forall _, _ => intro
  | |- foot _ _ (abind _ _) => apply foot_bind
  | |- foot _ _ (pure _) => apply foot_pure
  | |- foot _ _ (Ret _) => exact I
  | |- foot _ _ (match ?x with _ => _ end) => destruct x
  end | solve [eauto 6 with foot]]).
Lemma f_scompareTo cfg n a b : lfoot R0 a -> lfoot R0 b -> foot R W (v_scompareTo cfg n a b).
Proof. intros. unfold v_scompareTo. fs. Qed.
Lemma f_seq cfg n a b : lfoot R0 a -> lfoot R0 b -> foot R W (v_seq cfg n a b).
Proof. intros. unfold v_seq. apply foot_bind; [now apply f_scompareTo|]. intros; exact I. Qed.
Lemma f_srel cfg n a b f : lfoot R0 a -> lfoot R0 b -> foot R W (v_srel cfg n a b f).
Proof. intros. unfold v_srel. apply foot_bind; [now apply f_scompareTo|]. intros; exact I. Qed.
Lemma f_scopy n d s : lfoot W0 d -> lfoot R0 s -> foot R W (t_scopy n d s).
Proof. intros. unfold t_scopy. fs. Qed.
Lemma f_sput n d r : lfoot W0 d -> foot R W (t_sput n d r).
Proof. intros. unfold t_sput. apply foot_bind; [now apply f_tsign|]. intros. apply f_assign; [now apply cells_mag|apply vfoot_local]. Qed.
Lemma f_inverse x : lfoot R0 x -> lfoot W0 x -> foot R W (t_inverse x).
Proof. intros. unfold t_inverse. fs. Qed.
Lemma f_fix n a : lfoot R0 a -> lfoot W0 a -> foot R W (t_fix_zero n a).
Proof. intros. unfold t_fix_zero. fs. Qed.
#[local] Hint Resolve f_scopy f_sput f_inverse f_fix : foot.
Lemma f_rsub n a b s : lfoot R0 a -> lfoot R0 b -> lfoot W0 a -> foot R W (t_rsub n a b s).
Proof.
  intros. unfold t_rsub. apply foot_bind; [now apply f_copy, f_base|]. intros. apply foot_bind; [now apply f_sub_local, f_base|]. intros.
  apply foot_bind; [apply f_assign; [now apply cells_mag|apply vfoot_local]|]. intros. now apply f_tsign.
Qed.
#[local] Hint Resolve f_rsub : foot.
Lemma f_difference cfg n a b s : lfoot R0 a -> lfoot R0 b -> lfoot W0 a -> foot R W (t_difference cfg n a b s).
Proof. intros. unfold t_difference. fs. Qed.
Lemma f_flip a b : lfoot R0 a -> lfoot R0 b -> lfoot W0 a -> foot R W (t_flip a b).
Proof. intros. unfold t_flip. fs. Qed.
#[local] Hint Resolve f_difference f_flip : foot.
Lemma f_uop cfg o n a v : lfoot R0 a -> lfoot W0 a -> vfoot R W v -> foot R W (t_op_assign cfg o n (mag_at a) v).
Proof. intros. apply f_op; auto using cells_mag. Qed.
Lemma f_sop cfg o n a b : lfoot R0 a -> lfoot R0 b -> lfoot W0 a -> foot R W (t_sop_assign cfg o n a b).
Proof.
  intros A B C.
  assert (ADD : foot R W (t_add_assign n (mag_at a) (base_ b))) by (apply (f_uop cfg OAdd); auto; now apply f_base).
  assert (MUL : foot R W (t_mul_assign n (mag_at a) (base_ b))) by (apply (f_uop cfg OMul); auto; now apply f_base).
  assert (DIV : foot R W (t_div_assign cfg n (mag_at a) (base_ b))) by (apply (f_uop cfg ODiv); auto; now apply f_base).
  assert (MOD : foot R W (t_mod_assign cfg n (mag_at a) (base_ b))) by (apply (f_uop cfg OMod); auto; now apply f_base).
  destruct o; cbn [t_sop_assign]; unfold t_sadd_assign, t_ssub_assign, t_smul_assign, t_sdiv_assign, t_smod_assign; fs.
Qed.
#[local] Hint Resolve f_sop : foot.
Lemma f_sbinary cfg o n d a b : lfoot W0 d -> lfoot R0 a -> lfoot R0 b -> foot R W (t_sbinary cfg o n d a b).
Proof.
  intros. assert (lfoot R0 (Tmp 5)) by exact I. assert (lfoot W0 (Tmp 5)) by exact I. unfold t_sbinary. fs.
Qed.
Lemma f_one n a s : lfoot W0 a -> foot R W (t_one n a s).
Proof.
  intros. unfold t_one. apply foot_bind; [apply foot_pure|]. intros. apply foot_bind; [apply f_assign; [now apply cells_mag|apply vfoot_local]|].
  intros. now apply f_tsign.
Qed.
#[local] Hint Resolve f_one : foot.
Lemma f_sinc n a : lfoot R0 a -> lfoot W0 a -> foot R W (t_sinc n a).
Proof. intros. unfold t_sinc. fs. Qed.
Lemma f_sdec n a : lfoot R0 a -> lfoot W0 a -> foot R W (t_sdec n a).
Proof. intros. unfold t_sdec. fs. Qed.
Lemma f_strip t a k : lfoot R0 a -> lfoot W0 a -> foot R W (t_strip t a k).
Proof. intros. unfold t_strip. fs. Qed.
#[local] Hint Resolve f_strip : foot.
Lemma f_smul_int cfg n t a k : lfoot R0 a -> lfoot W0 a -> foot R W (t_smul_int cfg n t a k).
Proof. intros. unfold t_smul_int. fs. Qed.
Lemma f_sdiv_int cfg n t a k : lfoot R0 a -> lfoot W0 a -> foot R W (t_sdiv_int cfg n t a k).
Proof.
  intros. assert (DIV : forall d, foot R W (t_div_assign cfg n (mag_at a) (local d))) by (intros; apply (f_uop cfg ODiv); auto; apply vfoot_local).
  unfold t_sdiv_int. fs.
Qed.
Lemma f_sswap n a b : lfoot R0 a -> lfoot W0 a -> lfoot R0 b -> lfoot W0 b -> foot R W (t_sswap n a b).
Proof. intros. unfold t_sswap. fs. Qed.
Lemma f_sdivide cfg n nu de q r : lfoot R0 nu -> lfoot R0 de -> lfoot R0 q -> lfoot W0 q -> lfoot R0 r -> lfoot W0 r ->
  foot R W (t_sdivide cfg n nu de q r).
Proof.
  intros. assert (DV : foot R W (t_divide cfg n (mag_at nu) (mag_at de) (mag_at q) (mag_at r))) by (apply f_tdivide; auto using cells_mag).
  unfold t_sdivide. fs.
Qed.
Lemma f_snegate n d s : lfoot W0 d -> lfoot R0 s -> foot R W (t_snegate n d s).
Proof. intros. unfold t_snegate. fs. Qed.
Lemma f_ssqrt cfg n d a : lfoot W0 d -> lfoot R0 a -> foot R W (t_ssqrt cfg n d a).
Proof. intros. unfold t_ssqrt. fs. Qed.
Lemma f_svalue n d x : lfoot W0 d -> foot R W (r <~ pure x ;; t_sput n d r).
Proof. intros. apply foot_bind; [apply foot_pure|]. intros. now apply f_sput. Qed.

Lemma f_sexec cfg n i : (forall x, In x (sreads i) -> R0 x) -> (forall x, In x (swrites i) -> R0 x /\ W0 x) -> foot R W (stexec cfg n i).
Proof.
  intros HR HW.
  destruct i; cbn [stexec sreads swrites In] in *;
    [apply f_scopy|apply f_svalue|apply f_sop|apply f_sbinary|apply f_sinc|apply f_sdec|apply f_snegate|apply f_inverse|apply f_smul_int|apply f_sdiv_int
    |apply f_sswap|apply f_sdivide|apply f_ssqrt|apply f_svalue];
    cbn [lfoot]; first [apply HR; tauto | apply HW; tauto].
Qed.
Lemma f_stest cfg n c : (forall x, In x (screads c) -> R0 x) -> foot R W (sttest cfg n c).
Proof.
  intros HR.
  destruct c; cbn [sttest screads In] in *;
    [apply f_seq|apply foot_bind; [apply f_seq|intros; exact I]|apply f_srel|apply f_srel|apply f_srel|apply f_srel
    |apply f_sbind; [|intros; exact I]|apply f_sbind; [|intros; exact I]|apply f_sbind; [|intros; exact I]];
    apply HR; tauto.
Qed.
End Feet.
Lemma f_srun cfg n : forall fuel p (R W : nat -> Prop), (forall x, In x (sprog_reads p) -> R x) -> (forall x, In x (sprog_writes p) -> R x /\ W x) ->
  foot (cells R) (cells W) (strun cfg n fuel p).
Proof.
  induction fuel as [|f IH]; intros p R W HR HW; cbn [strun]; [exact I|].
  destruct p as [|i|s t|c s t|c s]; cbn [sprog_reads sprog_writes] in *.
  - exact I.
  - now apply f_sexec.
  - apply foot_bind; [|intros _]; apply IH; intros; (apply HR + apply HW); rewrite in_app_iff; tauto.
  - apply foot_bind; [apply f_stest; intros; apply HR; rewrite in_app_iff; tauto|]. intros [];
      (apply IH; intros; (apply HR + apply HW); rewrite !in_app_iff; tauto).
  - apply foot_bind; [apply f_stest; intros; apply HR; rewrite in_app_iff; tauto|]. intros []; [|exact I].
    apply foot_bind; [|intros _]; apply IH; intros; cbn [sprog_reads sprog_writes] in *; (apply HR + apply HW); rewrite ?in_app_iff in *; tauto.
Qed.
