(** * ThrFoot: what the calls of [ThrModel.v] touch, and what that means when threads interleave. *)
From Verif Require Import Lib AeuModel AliasModel AliasFacts ProgSpec ProgModel ThrMonad ThrModel ThrSpec.
From Coq Require Import ZifyBool.
Open Scope Z_scope.

(** Every variable the tree loads from is in [R], every one it stores into in [W]. *)
Fixpoint foot (R W : nat -> Prop) {A} (c : act A) : Prop :=
  match c with
  | Ret _ | Stop _ => True
  | Get (Var x) i k => R x /\ forall v, foot R W (k v)
  | Get (Tmp _) i k => forall v, foot R W (k v)
  | Put (Var x) i v k => W x /\ foot R W k
  | Put (Tmp _) i v k => foot R W k
  end.
Definition vfoot R W (v : view) : Prop := forall i, foot R W (v i).
Definition lfoot (P : nat -> Prop) (l : loc) : Prop := match l with Var x => P x | Tmp _ => True end.

Lemma foot_bind R W {A B} (c : act A) (f : A -> act B) : foot R W c -> (forall a, foot R W (f a)) -> foot R W (abind c f).
Proof.
  intros H K. induction c as [a|e|[x|x] i k IH|[x|x] i v k IH]; cbn [abind foot] in *; auto.
  - destruct H. split; auto.
  - destruct H. split; auto.
Qed.
Lemma foot_pure R W {A} (x : outcome A) : foot R W (pure x).
Proof. destruct x; exact I. Qed.
Lemma foot_ret R W {A} (x : A) : foot R W (Ret x).
Proof. exact I. Qed.
Lemma foot_stop R W {A} e : foot R W (@Stop A e).
Proof. exact I. Qed.
Lemma vfoot_at R W x : lfoot R x -> vfoot R W (at_ x).
Proof. intros H i. destruct x; cbn; auto. Qed.
Lemma vfoot_local R W l : vfoot R W (local l).
Proof. intros i. apply foot_pure. Qed.
Lemma foot_at R W x i : lfoot R x -> foot R W (at_ x i).
Proof. intros. now apply vfoot_at. Qed.
Lemma foot_aput R W x i v : lfoot W x -> foot R W (aput x i v).
Proof. destruct x; cbn; auto. Qed.
Lemma foot_forU R W {S} lo hi (b : Z -> S -> act S) s : (forall i s, foot R W (b i s)) -> foot R W (aforU lo hi b s).
Proof. intros H. unfold aforU. generalize lo at 2, s. induction (Z.to_nat (hi - lo)); intros; cbn [aloopU]; [exact I|]. apply foot_bind; auto. Qed.
Lemma foot_forD R W {S} lo hi (b : Z -> S -> act S) s : (forall i s, foot R W (b i s)) -> foot R W (aforD hi lo b s).
Proof. intros H. unfold aforD. generalize hi at 2, s. induction (Z.to_nat (hi - lo)); intros; cbn [aloopD]; [exact I|]. apply foot_bind; auto. Qed.
Lemma foot_forUx R W {S Q} lo hi (b : Z -> S -> act (step S Q)) s : (forall i s, foot R W (b i s)) -> foot R W (aforUx lo hi b s).
Proof.
  intros H. unfold aforUx. generalize lo at 2, s. induction (Z.to_nat (hi - lo)); intros; cbn [aloopUx]; [exact I|].
  apply foot_bind; auto. intros []; auto. exact I.
Qed.
Lemma foot_forDx R W {S Q} lo hi (b : Z -> S -> act (step S Q)) s : (forall i s, foot R W (b i s)) -> foot R W (aforDx hi lo b s).
Proof.
  intros H. unfold aforDx. generalize hi at 2, s. induction (Z.to_nat (hi - lo)); intros; cbn [aloopDx]; [exact I|].
  apply foot_bind; auto. intros []; auto. exact I.
Qed.
Lemma foot_while R W {S Q} (b : S -> act (step S Q)) : (forall s, foot R W (b s)) -> forall fuel s, foot R W (awhileF fuel b s).
Proof. intros H. induction fuel; intros; cbn [awhileF]; [exact I|]. apply foot_bind; auto. intros []; auto. exact I. Qed.
Lemma foot_mono (R W R' W' : nat -> Prop) {A} (c : act A) : (forall x, R x -> R' x) -> (forall x, W x -> W' x) -> foot R W c -> foot R' W' c.
Proof.
  intros HR HW. induction c as [a|e|[x|x] i k IH|[x|x] i v k IH]; cbn [foot]; auto.
  - intros [H K]. split; auto.
  - intros [H K]. split; auto.
Qed.

Create HintDb foot.
#[export] Hint Resolve vfoot_at vfoot_local foot_pure foot_ret foot_stop foot_at foot_aput : foot.
Ltac ft1 :=
  lazymatch goal with
  | |- forall _, _ => intro
  | |- foot _ _ (abind _ _) => apply foot_bind
  | |- foot _ _ (pure _) => apply foot_pure
  | |- foot _ _ (Ret _) => exact I
  | |- foot _ _ (aput _ _ _) => apply foot_aput
  | |- foot _ _ (at_ _ _) => apply foot_at
  | |- foot _ _ (aforU _ _ _ _) => apply foot_forU
  | |- foot _ _ (aforD _ _ _ _) => apply foot_forD
  | |- foot _ _ (aforUx _ _ _ _) => apply foot_forUx
  | |- foot _ _ (aforDx _ _ _ _) => apply foot_forDx
  | |- foot _ _ (awhileF _ _ _) => apply foot_while
  | |- foot _ _ (match ?x with _ => _ end) => destruct x
  | |- foot _ _ (?v _) => match goal with H : vfoot _ _ v |- _ => apply H end
  end.
Ltac ft := repeat (cbv beta zeta; first [assumption | ft1 | solve [eauto 5 with foot]]).

Section Feet.
Context (R W : nat -> Prop).
Lemma f_copy n v : vfoot R W v -> foot R W (v_copy n v).
Proof. intros. unfold v_copy. ft. Qed.
Lemma f_filled n v : vfoot R W v -> foot R W (v_filledBlocksNumber n v).
Proof. intros. unfold v_filledBlocksNumber. ft. Qed.
Lemma f_isZero n v : vfoot R W v -> foot R W (v_isZero n v).
Proof. intros. unfold v_isZero. apply foot_bind; [now apply f_filled|ft]. Qed.
Lemma f_isOdd v : vfoot R W v -> foot R W (v_isOdd v).
Proof. intros. unfold v_isOdd. ft. Qed.
Lemma f_getBit cfg n v i : vfoot R W v -> foot R W (v_getBit cfg n v i).
Proof. intros. unfold v_getBit. ft. Qed.
Lemma f_compareTo cfg n v w : vfoot R W v -> vfoot R W w -> foot R W (v_compareTo cfg n v w).
Proof. intros. unfold v_compareTo, v_getBlock. ft. Qed.
#[local] Hint Resolve f_copy f_filled f_isZero f_isOdd f_getBit f_compareTo : foot.
Lemma f_eq cfg n v w : vfoot R W v -> vfoot R W w -> foot R W (v_eq cfg n v w).
Proof. intros. unfold v_eq. ft. Qed.
Lemma f_rel cfg n v w f : vfoot R W v -> vfoot R W w -> foot R W (v_rel cfg n v w f).
Proof. intros. unfold v_rel. ft. Qed.
Lemma f_ge cfg n v w : vfoot R W v -> vfoot R W w -> foot R W (v_ge cfg n v w).
Proof. apply f_rel. Qed.
Lemma f_neg n v : vfoot R W v -> foot R W (v_neg n v).
Proof. intros. unfold v_neg. ft. Qed.
Lemma f_not n v : vfoot R W v -> foot R W (v_not n v).
Proof. intros. unfold v_not. ft. Qed.
#[local] Hint Resolve f_eq f_ge f_neg f_not : foot.
Lemma f_sub_local n r v : vfoot R W v -> foot R W (v_sub_local n r v).
Proof. intros. unfold v_sub_local. ft. Qed.
Lemma f_mul_inner n i t v sl b : vfoot R W v -> foot R W (v_mul_inner n i t v sl b).
Proof. intros. unfold v_mul_inner. ft. Qed.
#[local] Hint Resolve f_sub_local f_mul_inner : foot.
Lemma f_multiplyLines n v vl w wl : vfoot R W v -> vfoot R W w -> foot R W (v_multiplyLines n v vl w wl).
Proof. intros. unfold v_multiplyLines. ft. Qed.
#[local] Hint Resolve f_multiplyLines : foot.
Lemma f_mul n v w : vfoot R W v -> vfoot R W w -> foot R W (v_mul n v w).
Proof. intros. unfold v_mul. ft. Qed.
Lemma f_divide cfg n v w : vfoot R W v -> vfoot R W w -> foot R W (v_divide cfg n v w).
Proof. intros. unfold v_divide. ft. Qed.
#[local] Hint Resolve f_mul f_divide : foot.
Lemma f_gcd cfg fuel n v w : vfoot R W v -> vfoot R W w -> foot R W (v_gcd cfg fuel n v w).
Proof. intros. unfold v_gcd. ft. Qed.
#[local] Hint Resolve f_gcd : foot.
Lemma f_lcm cfg fuel n v w : vfoot R W v -> vfoot R W w -> foot R W (v_lcm cfg fuel n v w).
Proof. intros. unfold v_lcm. ft. Qed.
Lemma f_powm cfg n v w u : vfoot R W v -> vfoot R W w -> vfoot R W u -> foot R W (v_powm cfg n v w u).
Proof. intros. unfold v_powm. ft. Qed.
Lemma f_bitCount n v : vfoot R W v -> foot R W (v_bitCount n v).
Proof. intros. unfold v_bitCount, v_lastBlockIndex. ft. Qed.
#[local] Hint Resolve f_bitCount : foot.
Lemma f_squareRoot cfg fuel n v : vfoot R W v -> foot R W (v_squareRoot cfg fuel n v).
Proof. intros. unfold v_squareRoot. ft. Qed.

Lemma f_assign n d v : lfoot W d -> vfoot R W v -> foot R W (t_assign n d v).
Proof. intros. unfold t_assign. ft. Qed.
Lemma f_add n a v : lfoot R a -> lfoot W a -> vfoot R W v -> foot R W (t_add_assign n a v).
Proof. intros. unfold t_add_assign. ft. Qed.
#[local] Hint Resolve f_assign f_add : foot.
Lemma f_sub n a v : lfoot R a -> lfoot W a -> vfoot R W v -> foot R W (t_sub_assign n a v).
Proof. intros. unfold t_sub_assign. ft. Qed.
#[local] Hint Resolve f_sub : foot.
Lemma f_op cfg o n a v : lfoot R a -> lfoot W a -> vfoot R W v -> foot R W (t_op_assign cfg o n a v).
Proof.
  intros. destruct o; cbn [t_op_assign]; unfold t_mul_assign, t_div_assign, t_mod_assign, t_bitwise_assign; ft.
Qed.
#[local] Hint Resolve f_op : foot.
Lemma f_binary cfg o n d a b : lfoot W d -> lfoot R a -> lfoot R b -> foot R W (t_binary cfg o n d a b).
Proof.
  intros. assert (lfoot R (Tmp 5)) by exact I. assert (lfoot W (Tmp 5)) by exact I.
  destruct o; cbn [t_binary]; ft.
Qed.
Lemma f_inc n a : lfoot R a -> lfoot W a -> foot R W (t_inc n a).
Proof. intros. unfold t_inc. ft. Qed.
Lemma f_dec n a : lfoot R a -> lfoot W a -> foot R W (t_dec n a).
Proof. intros. unfold t_dec. ft. Qed.
Lemma f_add_u n t a v : lfoot R a -> lfoot W a -> foot R W (t_add_assign_u n t a v).
Proof. intros. unfold t_add_assign_u. ft. Qed.
Lemma f_mul_u n t a v : lfoot R a -> lfoot W a -> foot R W (t_mul_assign_u n t a v).
Proof.
  intros. unfold t_mul_assign_u, v_mul_inner. assert (vfoot R W (at_ a)) by now apply vfoot_at. ft.
Qed.
Lemma f_shl n a k : lfoot R a -> lfoot W a -> foot R W (t_shl_assign n a k).
Proof. intros. unfold t_shl_assign. ft. Qed.
Lemma f_shr n a k : lfoot R a -> lfoot W a -> foot R W (t_shr_assign n a k).
Proof. intros. unfold t_shr_assign. ft. Qed.
Lemma f_setBit cfg n a i b : lfoot R a -> lfoot W a -> foot R W (t_setBit cfg n a i b).
Proof. intros. unfold t_setBit. ft. Qed.
Lemma f_swap n a b : lfoot R a -> lfoot W a -> lfoot R b -> lfoot W b -> foot R W (t_swap n a b).
Proof.
  intros. assert (lfoot R (Tmp 0)) by exact I. assert (lfoot W (Tmp 0)) by exact I. unfold t_swap. ft.
Qed.
#[local] Hint Resolve f_shl f_setBit : foot.
Lemma f_tdivide cfg n nu de q r : lfoot R nu -> lfoot R de -> lfoot R q -> lfoot W q -> lfoot R r -> lfoot W r ->
  foot R W (t_divide cfg n nu de q r).
Proof. intros. unfold t_divide. ft. Qed.
Lemma f_store n d c : W d -> foot R W c -> foot R W (t_store n d c).
Proof. intros. unfold t_store. apply foot_bind; auto. intros. apply f_assign; auto. apply vfoot_local. Qed.

Lemma f_exec cfg n i : (forall x, In x (ureads i) -> R x) -> (forall x, In x (uwrites i) -> R x /\ W x) -> foot R W (texec cfg n i).
Proof.
  intros HR HW.
  assert (AT : forall x, R x -> vfoot R W (at_ (Var x))) by (intros; now apply vfoot_at).
  destruct i; cbn [texec ureads uwrites In] in *;
    try (apply f_store; [apply HW; tauto|]);
    [apply f_assign|apply foot_pure|apply f_op|apply f_binary|apply f_inc|apply f_dec|apply f_neg|apply f_not|apply f_shl|apply f_shr
    |apply f_setBit|apply f_add_u|apply f_mul_u|apply f_swap|apply f_tdivide|apply f_gcd|apply f_lcm|apply f_squareRoot|apply foot_pure|apply f_powm];
    cbn [lfoot]; first [apply HR; tauto | apply HW; tauto | apply AT; apply HR; tauto | apply AT; apply HW; tauto].
Qed.
Lemma f_test cfg n c : (forall x, In x (ucreads c) -> R x) -> foot R W (ttest cfg n c).
Proof.
  intros HR.
  assert (AT : forall x, R x -> vfoot R W (at_ (Var x))) by (intros; now apply vfoot_at).
  destruct c; cbn [ttest ucreads In] in *;
    [apply f_eq|apply foot_bind; [apply f_eq|intros; exact I]|apply f_rel|apply f_rel|apply f_rel|apply f_rel|apply f_isOdd|apply f_isZero|apply f_getBit];
    apply AT; apply HR; tauto.
Qed.
End Feet.
Lemma f_run cfg n : forall fuel p (R W : nat -> Prop), (forall x, In x (prog_reads p) -> R x) -> (forall x, In x (prog_writes p) -> R x /\ W x) ->
  foot R W (trun cfg n fuel p).
Proof.
  induction fuel as [|f IH]; intros p R W HR HW; cbn [trun]; [exact I|].
  destruct p as [|i|s t|c s t|c s]; cbn [prog_reads prog_writes] in *.
  - exact I.
  - now apply f_exec.
  - apply foot_bind; [|intros _]; apply IH; intros; (apply HR + apply HW); rewrite in_app_iff; tauto.
  - apply foot_bind; [apply f_test; intros; apply HR; rewrite in_app_iff; tauto|]. intros [];
      (apply IH; intros; (apply HR + apply HW); rewrite !in_app_iff; tauto).
  - apply foot_bind; [apply f_test; intros; apply HR; rewrite in_app_iff; tauto|]. intros []; [|exact I].
    apply foot_bind; [|intros _]; apply IH; intros; cbn [prog_reads prog_writes] in *; (apply HR + apply HW); rewrite ?in_app_iff in *; tauto.
Qed.

(** ** Threads *)
Definition solo_step (s : (nat -> list Z) * thread) := thread_step (fst s) (snd s).
Fixpoint solo (k : nat) (s : (nat -> list Z) * thread) : (nat -> list Z) * thread :=
  match k with O => s | S j => solo j (solo_step s) end.
Lemma solo_S k : forall s, solo (S k) s = solo_step (solo k s).
Proof. induction k as [|k IH]; intros s; [reflexivity|]. cbn [solo]. cbn [solo] in IH. apply IH. Qed.
Lemma solo_add j : forall k s, solo (j + k) s = solo k (solo j s).
Proof. induction j as [|j IH]; intros k s; [reflexivity|]. cbn [Nat.add solo]. apply IH. Qed.

(** A step depends on the thread's own objects only, and changes no others. *)
Lemma step_local (R W : nat -> Prop) sh1 sh2 th : (forall x, W x -> R x) -> foot R W (th_act th) -> (forall x, R x -> sh1 x = sh2 x) ->
  snd (thread_step sh1 th) = snd (thread_step sh2 th) /\
  (forall x, R x -> fst (thread_step sh1 th) x = fst (thread_step sh2 th) x) /\
  (forall x, ~ W x -> fst (thread_step sh1 th) x = sh1 x) /\
  foot R W (th_act (snd (thread_step sh1 th))).
Proof.
  intros WR F E. destruct th as [c tmp]. unfold thread_step. cbn [th_act th_tmp] in *. destruct c as [a|e|x i k|x i v k].
  - auto.
  - auto.
  - assert (S : mget (seen sh1 tmp) x i = mget (seen sh2 tmp) x i).
    { unfold mget. destruct x; cbn [seen foot] in *; auto. destruct F as [Rx _]. now rewrite E. }
    rewrite <- S. destruct (mget (seen sh1 tmp) x i); cbn [fst snd th_act]; repeat split; auto.
    destruct x; cbn [foot] in F; apply F.
  - assert (S : seen sh1 tmp x = seen sh2 tmp x).
    { destruct x; cbn [seen foot] in *; auto. apply E, WR, F. }
    rewrite <- S. destruct (aset (seen sh1 tmp x) i v) as [b|]; cbn [fst snd th_act]; [|repeat split; auto].
    destruct x; cbn [fst snd th_act foot] in *.
    + destruct F as [Wx Fk]. split; [reflexivity|]. split; [|split].
      * intros y Ry. unfold put_at. destruct (Nat.eqb y i0); auto.
      * intros y Ny. unfold put_at. destruct (Nat.eqb_spec y i0) as [->|]; [contradiction|reflexivity].
      * exact Fk.
    + repeat split; auto.
Qed.
Lemma replace_eq {A} (x : A) : forall l k y, nth_error l k = Some y -> nth_error (replace l k x) k = Some x.
Proof. induction l as [|z l IH]; intros [|k] y; cbn; intros; try discriminate; eauto. Qed.
Lemma replace_ne {A} (x : A) : forall l k j, j <> k -> nth_error (replace l k x) j = nth_error l j.
Proof. induction l as [|z l IH]; intros [|k] [|j] H; cbn; auto; try congruence. Qed.
Lemma replace_len {A} (x : A) : forall l k, length (replace l k x) = length l.
Proof. induction l as [|z l IH]; intros [|k]; cbn; auto. Qed.

(** After any schedule every thread is where it would be had it run alone for as many steps as it got. *)
Lemma interleave (R W : nat -> nat -> Prop) sh0 ths0 : (forall t x, W t x -> R t x) -> (forall t u x, t <> u -> W t x -> ~ R u x) ->
  (forall t th, nth_error ths0 t = Some th -> foot (R t) (W t) (th_act th)) ->
  forall s, let w := world_run (sh0, ths0) s in
    length (snd w) = length ths0 /\
    (forall t th0, nth_error ths0 t = Some th0 ->
      let e := solo (count_occ Nat.eq_dec s t) (sh0, th0) in
      nth_error (snd w) t = Some (snd e) /\ foot (R t) (W t) (th_act (snd e)) /\ forall x, R t x -> fst w x = fst e x) /\
    (forall x, (forall t, ~ W t x) -> fst w x = sh0 x).
Proof.
  intros WR SEP F s. induction s as [|u s IH] using rev_ind; cbv zeta in *.
  { split; [reflexivity|]. split; auto. }
  unfold world_run in *. rewrite fold_left_app. cbn [fold_left]. set (w := fold_left world_step s (sh0, ths0)) in *.
  destruct IH as (HL & HT & HX). unfold world_step at 1 2 3 4. destruct (nth_error (snd w) u) as [thu|] eqn:EU.
  2: { split; [exact HL|]. split; [|exact HX]. intros t th0 H. rewrite count_occ_app. cbn [count_occ].
       destruct (Nat.eq_dec u t) as [->|N]; [|rewrite Nat.add_0_r; auto]. destruct (HT t th0 H) as [K _]. congruence. }
  assert (U0 : exists th0, nth_error ths0 u = Some th0).
  { destruct (nth_error ths0 u) eqn:E0; [eauto|]. apply nth_error_None in E0. rewrite <- HL in E0. apply nth_error_None in E0. congruence. }
  destruct U0 as [thu0 EU0]. destruct (HT u thu0 EU0) as (K1 & K2 & K3). rewrite EU in K1. injection K1 as K1.
  pose proof (step_local (R u) (W u) (fst w) (fst (solo (count_occ Nat.eq_dec s u) (sh0, thu0))) thu (WR u)) as ST.
  rewrite K1 in ST at 1. specialize (ST K2 K3). destruct (thread_step (fst w) thu) as [sh' th'] eqn:ES. cbn [fst snd] in ST |- *.
  destruct ST as (S1 & S2 & S3 & S4). split; [rewrite replace_len; exact HL|]. split.
  - intros t th0 H. rewrite count_occ_app. cbn [count_occ]. destruct (Nat.eq_dec u t) as [->|N].
    + rewrite EU0 in H. injection H as <-. rewrite Nat.add_comm. change (1 + ?k)%nat with (S k). rewrite solo_S.
      unfold solo_step. rewrite <- K1. rewrite <- S1. split; [eapply replace_eq, EU|]. split; [exact S4|]. exact S2.
    + rewrite Nat.add_0_r. rewrite replace_ne by auto. destruct (HT t th0 H) as (L1 & L2 & L3). split; [exact L1|]. split; [exact L2|].
      intros x Rx. rewrite S3; [now apply L3|]. intros Wx. exact (SEP u t x N Wx Rx).
  - intros x Hx. rewrite S3; [now apply HX|]. apply Hx.
Qed.

Lemma run_ext {A} (c : act A) : forall m1 m2, (forall l, m1 l = m2 l) ->
  osim (fun r s => fst r = fst s /\ forall l, snd r l = snd s l) (run_act c m1) (run_act c m2).
Proof.
  induction c as [a|e|x i k IH|x i v k IH]; intros m1 m2 E; cbn [run_act]; [cbn; auto|reflexivity| |].
  - unfold mget. rewrite (E x). destruct (aget (m2 x) i); cbn [bind osim]; auto.
  - unfold mset. rewrite (E x). destruct (aset (m2 x) i v); cbn [bind osim]; auto. apply IH. intros l. unfold mput. destruct (loc_eqb l x); auto.
Qed.
(** A thread that runs alone ends the way its tree does. *)
Lemma solo_run (c : act unit) : forall sh tmp,
  match run_act c (seen sh tmp) with
  | Ok (a, m') => exists k sh' tmp', solo k (sh, mk_thread c tmp) = (sh', mk_thread (Ret a) tmp') /\ forall l, m' l = seen sh' tmp' l
  | Err e => exists k sh' tmp', solo k (sh, mk_thread c tmp) = (sh', mk_thread (Stop e) tmp')
  end.
Proof.
  induction c as [a|e|x i k IH|x i v k IH]; intros sh tmp; cbn [run_act].
  - exists O, sh, tmp. split; reflexivity.
  - exists O, sh, tmp. reflexivity.
  - destruct (mget (seen sh tmp) x i) as [v|e] eqn:E; cbn [bind].
    + pose proof (IH v sh tmp) as H. destruct (run_act (k v) (seen sh tmp)) as [[a m']|e]; destruct H as (j & sh' & tmp' & H); exists (S j), sh', tmp';
        cbn [solo]; unfold solo_step, thread_step; cbn [fst snd th_act th_tmp]; rewrite E; exact H.
    + exists 1%nat, sh, tmp. cbn [solo]; unfold solo_step, thread_step; cbn [fst snd th_act th_tmp]; rewrite E; reflexivity.
  - unfold mset. destruct (aset (seen sh tmp x) i v) as [b|e] eqn:E; cbn [bind].
    + assert (G : exists sh1 tmp1, solo_step (sh, mk_thread (Put x i v k) tmp) = (sh1, mk_thread k tmp1) /\
        forall l, mput (seen sh tmp) x b l = seen sh1 tmp1 l).
      { unfold solo_step, thread_step. cbn [fst snd th_act th_tmp]. rewrite E. destruct x as [x|x]; eexists _, _; (split; [reflexivity|]);
          intros [l|l]; cbn [mput loc_eqb seen]; unfold mput, put_at; cbn [loc_eqb seen]; reflexivity. }
      destruct G as (sh1 & tmp1 & G1 & G2). pose proof (IH sh1 tmp1) as H. pose proof (run_ext k _ _ G2) as X.
      destruct (run_act k (mput (seen sh tmp) x b)) as [[a m']|e], (run_act k (seen sh1 tmp1)) as [[a2 m2]|e2]; cbn [osim fst snd] in X; try contradiction.
      * destruct X as [-> X2]. destruct H as (j & sh' & tmp' & H1 & H2). exists (S j), sh', tmp'. cbn [solo]. rewrite G1. split; auto.
        intros l. rewrite X2. apply H2.
      * subst e2. destruct H as (j & sh' & tmp' & H1). exists (S j), sh', tmp'. cbn [solo]. rewrite G1. exact H1.
    + exists 1%nat, sh, tmp. cbn [solo]; unfold solo_step, thread_step; cbn [fst snd th_act th_tmp]; rewrite E; reflexivity.
Qed.
Definition over (th : thread) : Prop := match th_act th with Ret _ | Stop _ => True | _ => False end.
Lemma solo_over k : forall s, over (snd s) -> solo k s = s.
Proof.
  induction k as [|k IH]; intros [sh th] H; [reflexivity|]. cbn [solo snd] in *. unfold over in H. unfold solo_step, thread_step. cbn [fst snd].
  destruct (th_act th) eqn:E; try contradiction; apply IH; unfold over; cbn [snd]; now rewrite E.
Qed.
(** Two moments of the same run at which it is over are the same. *)
Lemma solo_unique j k s : over (snd (solo j s)) -> over (snd (solo k s)) -> solo j s = solo k s.
Proof.
  intros HJ HK. destruct (Nat.le_ge_cases j k) as [L|L].
  - replace k with (j + (k - j))%nat by lia. rewrite solo_add. symmetry. apply solo_over, HJ.
  - replace j with (k + (j - k))%nat by lia. rewrite solo_add. apply solo_over, HK.
Qed.
