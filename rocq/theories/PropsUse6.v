(** * PropsUse6: C178, C179, binomial coefficients and Fibonacci numbers with the public interface of the unsigned class. *)
From Coq Require Import ZifyBool.
From Verif Require Import UseModel5 MixFacts PropsAeu.
Open Scope Z_scope.

Ltac conjs := repeat match goal with |- _ /\ _ => split end.
(** ** C178.  Pascal's triangle. *)
Fixpoint choose (m k : nat) : Z :=
  match m, k with
  | _, O => 1
  | O, S _ => 0
  | S m', S k' => choose m' k' + choose m' k
  end.
Lemma choose_nonneg : forall m k, 0 <= choose m k.
Proof. induction m; intros [|k]; cbn [choose]; try lia. pose proof (IHm k); pose proof (IHm (S k)); lia. Qed.
Lemma choose_0 m : choose m 0 = 1. Proof. destruct m; reflexivity. Qed.
Lemma choose_absorb : forall m k, choose (S m) (S k) * Z.of_nat (S k) = choose m k * Z.of_nat (S m).
Proof.
  induction m; intros k.
  - destruct k; cbn [choose]; [reflexivity|]. lia.
  - change (choose (S (S m)) (S k)) with (choose (S m) k + choose (S m) (S k)). destruct k as [|k].
    + pose proof (IHm 0%nat) as E. rewrite !choose_0 in *. lia.
    + pose proof (IHm k) as E1. pose proof (IHm (S k)) as E2. change (choose (S m) (S k)) with (choose m k + choose m (S k)) in *. nia.
Qed.
Lemma choose_grows m k : choose m k <= choose (S m) (S k).
Proof. cbn [choose]. pose proof (choose_nonneg m (S k)). lia. Qed.
Lemma choose_up m k : forall j, choose m k <= choose (m + j) (k + j).
Proof.
  induction j; [rewrite !Nat.add_0_r; lia|]. rewrite !Nat.add_succ_r. pose proof (choose_grows (m + j) (k + j)). lia.
Qed.
(** For all k <= m below 2^32 - 1 for which C(m, k) * k fits the type: exactly C(m, k). *)
Theorem C178_binomial : forall cfg n junk m k, 1 <= n -> len junk = n -> (k <= m)%nat -> Z.of_nat m + 1 < 2 ^ 32 ->
  choose m k * Z.of_nat k < modulus n -> yields n (binomial cfg n junk (Z.of_nat m) (Z.of_nat k)) (choose m k).
Proof.
  intros cfg n junk m k Hn Lj Hk Hm Fit. unfold binomial. pose proof (modulus_pos n ltac:(lia)) as MP.
  assert (M1 : 2 ^ 32 <= modulus n) by (unfold modulus; apply Z.pow_le_mono_r; lia).
  eapply yields_bind; [apply from_unsigned_correct; [lia|exact Lj|lia]|]. intros c Wc Vc. rewrite Z.mod_small in Vc by lia.
  destruct (forU_spec (fun i c => wf n c /\ bval c = choose (m - k + Z.to_nat (i - 1)) (Z.to_nat (i - 1))) 1 (Z.of_nat k + 1)
    (fun i c => c <- mul_assign_u n U32 c (Z.of_nat m - Z.of_nat k + i) ;; d <- from_unsigned n (zeros n) i ;; div_assign cfg n c d) c) as (r & E & W & V).
  - lia.
  - split; [exact Wc|]. cbn. rewrite choose_0. exact Vc.
  - intros i x Hi [Wx Vx]. set (j := Z.to_nat (i - 1)) in *. assert (Ei : i = Z.of_nat (S j)) by lia.
    replace (Z.to_nat (i + 1 - 1)) with (S j) by lia.
    assert (AB : choose (m - k + S j) (S j) * i = bval x * (Z.of_nat m - Z.of_nat k + i)).
    { rewrite Nat.add_succ_r, Ei, choose_absorb, Vx. f_equal. lia. }
    assert (UP : choose (m - k + S j) (S j) <= choose m k).
    { pose proof (choose_up (m - k + S j) (S j) (k - S j)) as U. replace (m - k + S j + (k - S j))%nat with m in U by lia.
      replace (S j + (k - S j))%nat with k in U by lia. exact U. }
    assert (FT : choose (m - k + S j) (S j) * i < modulus n).
    { pose proof (choose_nonneg (m - k + S j) (S j)). clear - UP H Hi Fit. nia. }
    pose proof (choose_nonneg (m - k + S j) (S j)) as NN.
    destruct (proj2 (C07_mul_builtin_exact n U32 x (Z.of_nat m - Z.of_nat k + i) Wx ltac:(tauto) ltac:(cbn [uwidth]; lia))) as (y & -> & Wy & Vy). cbn [bind].
    rewrite <- AB, Z.mod_small in Vy by nia.
    destruct (from_unsigned_correct n (zeros n) i ltac:(lia) ltac:(apply wf_zeros; lia) ltac:(lia)) as (d & -> & Wd & Vd). cbn [bind].
    rewrite Z.mod_small in Vd by lia.
    destruct (C09_division_euclidean cfg n y d Hn Wy Wd ltac:(lia)) as (q & r & _ & [Wq Vq] & _ & _ & _ & _ & _ & -> & _).
    exists q. split; [reflexivity|]. split; [exact Wq|]. rewrite Vq, Vy, Vd. apply Z.div_mul. lia.
  - exists r. split; [exact E|]. split; [exact W|]. rewrite V. replace (Z.to_nat (Z.of_nat k + 1 - 1)) with k by lia. f_equal. lia.
Qed.
Print Assumptions C178_binomial.
(** 10 choose 4 in one block; 34 choose 17 = 2333606220 fits one block but, times 17, not: the 32-bit program goes wrong *)
Example C178_example : choose 10 4 = 210 /\ binomial cfg0 1 [7] 10 4 = Ok [210] /\
  binomial cfg0 2 [7; 7] 34 17 = Ok [2333606220; 0] /\ binomial cfg0 1 [7] 34 17 <> Ok [2333606220].
Proof. conjs; [reflexivity|vm_compute; reflexivity|vm_compute; reflexivity|vm_compute; discriminate]. Qed.

(** ** C179 *)
Fixpoint fib (k : nat) : Z :=
  match k with
  | O => 0
  | S k' => match k' with O => 1 | S k'' => fib k' + fib k'' end
  end.
Lemma fib_SS k : fib (S (S k)) = fib (S k) + fib k. Proof. reflexivity. Qed.
Lemma fib_add : forall m k, fib (S (m + k)) = fib (S m) * fib (S k) + fib m * fib k.
Proof.
  assert (H : forall m k, fib (S (m + k)) = fib (S m) * fib (S k) + fib m * fib k /\
    fib (S (S m + k)) = fib (S (S m)) * fib (S k) + fib (S m) * fib k).
  { induction m; intros k.
    - split; [cbn [Nat.add]; change (fib 1) with 1; change (fib 0) with 0; lia|].
      change (S (1 + k)) with (S (S k)). rewrite fib_SS. change (fib 2) with 1. change (fib 1) with 1. lia.
    - destruct (IHm k) as [E1 E2]. split; [exact E2|]. change (S (S (S m) + k)) with (S (S (S m + k))). rewrite fib_SS.
      change (S m + k)%nat with (S (m + k)) at 2. rewrite E1, E2, !fib_SS. ring. }
  intros m k. apply H.
Qed.
Lemma fib_double k : fib (k + k) = fib k * (2 * fib (S k) - fib k) /\ fib (S (k + k)) = fib k * fib k + fib (S k) * fib (S k) /\
  fib (S (S (k + k))) = fib (k + k) + fib (S (k + k)).
Proof.
  assert (A : fib (S (k + k)) = fib k * fib k + fib (S k) * fib (S k)) by (rewrite fib_add; ring).
  assert (B : fib (S (S (k + k))) = fib (k + k) + fib (S (k + k))) by (rewrite fib_SS; ring).
  split; [|auto]. assert (C : fib (S (S (k + k))) = fib (S (S k)) * fib (S k) + fib (S k) * fib k).
  { change (S (S (k + k))) with (S (S k + k)). apply fib_add. }
  rewrite B, A, fib_SS in C. lia.
Qed.
(** For every 64-bit index: the Fibonacci number modulo 2^N. *)
Theorem C179_fibonacci : forall n junk junk2 k, 1 <= n -> len junk = n -> len junk2 = n -> 0 <= k < 2 ^ 64 ->
  yields n (fibonacci n junk junk2 k) (fib (Z.to_nat k) mod modulus n).
Proof.
  intros n junk junk2 k Hn L1 L2 Hk. unfold fibonacci. pose proof (modulus_pos n ltac:(lia)) as MP.
  eapply yields_bind; [apply from_unsigned_correct; [lia|exact L1|lia]|]. intros a Wa Va.
  eapply yields_bind; [apply from_unsigned_correct; [lia|exact L2|lia]|]. intros b Wb Vb.
  match goal with |- context [forD 64 0 ?f ?s] =>
    destruct (forD_spec (fun i '(a, b) => wf n a /\ wf n b /\ bval a = fib (Z.to_nat (k / 2 ^ i)) mod modulus n /\
      bval b = fib (S (Z.to_nat (k / 2 ^ i))) mod modulus n) 64 0 f s) as ((ra & rb) & -> & W & _ & V & _) end.
  - lia.
  - rewrite Z.div_small by lia. auto.
  - intros i [x y] Hi (Wx & Wy & Vx & Vy). set (h := Z.to_nat (k / 2 ^ (i + 1))) in *.
    assert (H0 : 0 <= k / 2 ^ (i + 1)) by (apply Z.div_pos; lia).
    assert (HB : k / 2 ^ i = 2 * (k / 2 ^ (i + 1)) + Z.b2z (Z.testbit k i)).
    { rewrite Z.pow_add_r, <- Z.div_div by lia. change (2 ^ 1) with 2. rewrite Z.testbit_spec' by lia. apply Z.div_mod. lia. }
    destruct (fib_double h) as (F0 & F1 & F2).
    destruct (proj1 (C01_addition_exact n y y Wy Wy)) as (s & -> & Ws & Vs). cbn [bind].
    destruct (proj1 (C02_subtraction_negation_exact n s x Ws Wx)) as (s' & -> & Ws' & Vs'). cbn [bind].
    destruct (proj1 (C04_multiplication_exact n x s' Wx Ws')) as (t & -> & Wt & Vt). cbn [bind].
    destruct (proj1 (C04_multiplication_exact n x x Wx Wx)) as (p & -> & Wp & Vp). cbn [bind].
    destruct (proj1 (C04_multiplication_exact n y y Wy Wy)) as (q & -> & Wq & Vq). cbn [bind].
    destruct (proj1 (C01_addition_exact n p q Wp Wq)) as (b' & -> & Wb' & Vb'). cbn [bind].
    assert (VT : bval t = fib (h + h) mod modulus n).
    { rewrite Vt, Vs', Vs, Vx, Vy, F0. rewrite <- Zplus_mod, <- Zminus_mod, <- Zmult_mod. f_equal. ring. }
    assert (VB : bval b' = fib (S (h + h)) mod modulus n).
    { rewrite Vb', Vp, Vq, Vx, Vy, F1. rewrite <- !Zmult_mod, <- Zplus_mod. reflexivity. }
    destruct (Z.testbit k i); cbn [Z.b2z] in HB.
    + destruct (proj1 (C01_addition_exact n t b' Wt Wb')) as (u & -> & Wu & Vu). cbn [bind].
      exists (b', u). split; [reflexivity|]. replace (Z.to_nat (k / 2 ^ i)) with (S (h + h)) by lia. conjs; auto.
      rewrite Vu, VT, VB, F2, <- Zplus_mod. reflexivity.
    + exists (t, b'). split; [reflexivity|]. replace (Z.to_nat (k / 2 ^ i)) with (h + h)%nat by lia. auto.
  - cbn [bind fst]. exists ra. split; [reflexivity|]. split; [exact W|]. rewrite V. change (2 ^ 0) with 1. rewrite Z.div_1_r. reflexivity.
Qed.
Print Assumptions C179_fibonacci.
(** F(10) = 55; F(50) = 12586269025 in one block and in two *)
Example C179_example : fib 10 = 55 /\ fibonacci 1 [7] [8] 10 = Ok [55] /\ fibonacci 1 [7] [8] 50 = Ok [12586269025 mod 2 ^ 32] /\
  fibonacci 2 [7; 7] [8; 8] 50 = Ok [12586269025 mod 2 ^ 32; 2].
Proof. conjs; vm_compute; reflexivity. Qed.
