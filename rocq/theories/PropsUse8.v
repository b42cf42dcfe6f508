(** * PropsUse8: C181, square roots by Newton's iteration with the public interface of the unsigned class. *)
From Coq Require Import ZifyBool.
From Verif Require Import UseModel7 MixFacts PropsAeu.
Open Scope Z_scope.

Ltac conjs := repeat match goal with |- _ /\ _ => split end.
Ltac wfc := apply wfb_wf; vm_compute; reflexivity.
(** ** C181.  One step from [x], not below the root of [a]. *)
Lemma newton_step a x y : 1 <= x <= a -> a < (x + 1) * (x + 1) -> y = (x + a / x) / 2 ->
  1 <= y /\ a < (y + 1) * (y + 1) /\ (x <= y -> x * x <= a).
Proof.
  intros Hx Hr ->. assert (Q1 : 1 <= a / x) by (apply Z.div_le_lower_bound; lia).
  pose proof (Z.mul_div_le a x ltac:(lia)) as L. pose proof (Z.mul_succ_div_gt a x ltac:(lia)) as G. set (q := a / x) in *.
  pose proof (Z.div_mod (x + q) 2 ltac:(lia)) as E. pose proof (Z.mod_pos_bound (x + q) 2 ltac:(lia)) as B. set (y := (x + q) / 2) in *.
  split; [lia|]. split.
  - assert (H : x + (q + 1) <= 2 * (y + 1)) by lia.
    assert (4 * (x * (q + 1)) <= (x + (q + 1)) * (x + (q + 1))) by (pose proof (Z.square_nonneg (x - (q + 1))); lia).
    assert ((x + (q + 1)) * (x + (q + 1)) <= 2 * (y + 1) * (2 * (y + 1))) by (apply Z.mul_le_mono_nonneg; lia). lia.
  - intros H. assert (x <= q) by lia. assert (x * x <= x * q) by (apply Z.mul_le_mono_nonneg_l; lia). lia.
Qed.
(** For every number but 2^N - 1, it ends with the root rounded down. *)
Theorem C181_newton_square_root : forall cfg n fuel a, 1 <= n -> wf n a -> bval a <> modulus n - 1 -> bval a < Z.of_nat fuel ->
  exists r, newton_sqrt cfg fuel n a = Ok r /\ wf n r /\ bval r * bval r <= bval a < (bval r + 1) * (bval r + 1).
Proof.
  intros cfg n fuel a Hn Wa Ne Hf. pose proof (bval_bound n a Wa) as Ba. unfold newton_sqrt. destruct (C21_observers n a Hn Wa) as (_ & _ & _ & -> & _). cbn [bind].
  destruct (Z.eqb_spec (bval a) 0) as [Z0|Z0]; [exists a; rewrite Z0; conjs; auto; lia|].
  apply (whileF_spec (fun x => wf n x /\ 1 <= bval x <= bval a /\ bval a < (bval x + 1) * (bval x + 1)) (fun x => bval x)
    (fun r => wf n r /\ bval r * bval r <= bval a < (bval r + 1) * (bval r + 1))).
  - conjs; auto; try lia; clear - Z0 Ba; nia.
  - lia.
  - intros x (W & B & _). lia.
  - intros x (Wx & Bx & Rx).
    destruct (C09_division_euclidean cfg n a x Hn Wa Wx ltac:(lia)) as (q & r & _ & [Wq Vq] & _ & _ & _ & -> & _). cbn [bind].
    destruct (proj1 (C01_addition_exact n x q Wx Wq)) as (s & -> & Ws & Vs). cbn [bind].
    assert (SB : bval x + bval q <= bval a + 1).
    { rewrite Vq. pose proof (Z.mul_div_le (bval a) (bval x) ltac:(lia)) as L.
      assert (1 <= bval a / bval x) by (apply Z.div_le_lower_bound; lia). clear - L H Bx. nia. }
    assert (0 <= bval q) by (apply (bval_bound n q Wq)).
    rewrite Z.mod_small in Vs by lia.
    destruct (proj1 (C13_shift_right n s 1 Ws ltac:(lia))) as (y & -> & Wy & Vy). cbn [bind].
    destruct (Z.ltb_spec 1 (32 * n)) as [_|]; [|lia]. change (2 ^ 1) with 2 in Vy. rewrite Vs, Vq in Vy.
    destruct (C14_comparison_numeric cfg n y x Wy Wx) as (_ & _ & _ & _ & _ & _ & _ & ->). cbn [bind].
    destruct (newton_step (bval a) (bval x) (bval y) Bx Rx Vy) as (Y1 & Y2 & Y3).
    destruct (Z.geb_spec (bval y) (bval x)) as [GE|LT].
    + exists (Exit x). split; [reflexivity|]. cbn [step_post]. conjs; auto.
    + exists (Next y). split; [reflexivity|]. cbn [step_post]. conjs; auto; lia.
Qed.
Print Assumptions C181_newton_square_root.
(** So it agrees with the library's own root. *)
Corollary C181_agrees_with_squareRoot : forall cfg n fuel a, 1 <= n -> wf n a -> bval a <> modulus n - 1 -> bval a < Z.of_nat fuel ->
  16 * n + 3 <= Z.of_nat fuel -> newton_sqrt cfg fuel n a = squareRoot cfg fuel n a.
Proof.
  intros cfg n fuel a Hn Wa Ne Hf Hf'. destruct (C181_newton_square_root cfg n fuel a Hn Wa Ne Hf) as (r & -> & Wr & Vr).
  destruct (C28_square_root cfg n fuel a Hn Wa Hf') as (s & -> & Ws & Vs). f_equal. apply (bval_inj n); auto.
  pose proof (bval_bound n r Wr). pose proof (bval_bound n s Ws). clear - Vr Vs H H0. nia.
Qed.
Print Assumptions C181_agrees_with_squareRoot.
(** For 2^N - 1, in every width, it returns 0: the first sum wraps. *)
Theorem C181_all_ones_wrong : forall cfg n fuel a, 1 <= n -> wf n a -> bval a = modulus n - 1 -> (2 <= fuel)%nat ->
  exists r, newton_sqrt cfg fuel n a = Ok r /\ wf n r /\ bval r = 0.
Proof.
  intros cfg n fuel a Hn Wa Va Hf. pose proof (bval_bound n a Wa) as Ba. unfold newton_sqrt.
  assert (M1 : 2 ^ 32 <= modulus n) by (unfold modulus; apply Z.pow_le_mono_r; lia).
  destruct (C21_observers n a Hn Wa) as (_ & _ & _ & -> & _). cbn [bind]. destruct (Z.eqb_spec (bval a) 0) as [Z0|_]; [lia|].
  destruct fuel as [|[|fuel]]; [lia|lia|]. cbn [whileF].
  destruct (C09_division_euclidean cfg n a a Hn Wa Wa ltac:(lia)) as (q & r & _ & [Wq Vq] & _ & _ & _ & -> & _). cbn [bind].
  rewrite Z.div_same in Vq by lia.
  destruct (proj1 (C01_addition_exact n a q Wa Wq)) as (s & -> & Ws & Vs). cbn [bind].
  replace (bval a + bval q) with (1 * modulus n) in Vs by lia. rewrite Z.mod_mul in Vs by lia.
  destruct (proj1 (C13_shift_right n s 1 Ws ltac:(lia))) as (y & -> & Wy & Vy). cbn [bind].
  destruct (Z.ltb_spec 1 (32 * n)) as [_|]; [|lia]. rewrite Vs in Vy. change (bval y = 0) in Vy.
  destruct (C14_comparison_numeric cfg n y a Wy Wa) as (_ & _ & _ & _ & _ & _ & _ & ->). cbn [bind].
  destruct (Z.geb_spec (bval y) (bval a)) as [|_]; [lia|]. cbn [bind].
  destruct (C10_division_by_zero cfg n a y Hn Wa Wy Vy) as (q2 & r2 & _ & Wq2 & _ & _ & -> & _). cbn [bind].
  destruct (proj1 (C01_addition_exact n y q2 Wy Wq2)) as (s2 & -> & Ws2 & _). cbn [bind].
  destruct (proj1 (C13_shift_right n s2 1 Ws2 ltac:(lia))) as (y2 & -> & Wy2 & _). cbn [bind].
  destruct (C14_comparison_numeric cfg n y2 y Wy2 Wy) as (_ & _ & _ & _ & _ & _ & _ & ->). cbn [bind].
  pose proof (bval_bound n y2 Wy2). destruct (Z.geb_spec (bval y2) (bval y)) as [_|]; [|lia]. cbn [bind]. exists y. auto.
Qed.
Print Assumptions C181_all_ones_wrong.
(** The root of 10^6 is 1000.  For 2^N - 1 the first sum wraps to 0 and the program returns 0. *)
Example C181_example : wf 1 [1000000] /\ newton_sqrt cfg0 100 1 [1000000] = Ok [1000] /\ newton_sqrt cfg0 100 1 [1000001] = Ok [1000] /\
  newton_sqrt cfg0 100 1 [4294967295] = Ok [0].
Proof. split; [wfc|]. conjs; vm_compute; reflexivity. Qed.
