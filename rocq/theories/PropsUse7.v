(** * PropsUse7: C180, inverses modulo 2^N with the public interface of the unsigned class. *)
From Coq Require Import ZifyBool Znumtheory.
From Verif Require Import UseModel6 MixFacts PropsAeu.
Open Scope Z_scope.

Ltac conjs := repeat match goal with |- _ /\ _ => split end.
Ltac wfc := apply wfb_wf; vm_compute; reflexivity.
(** ** C180 *)
Lemma pow2_divide e f : 0 <= e <= f -> (2 ^ e | 2 ^ f).
Proof. intros. exists (2 ^ (f - e)). rewrite <- Z.pow_add_r by lia. f_equal. lia. Qed.
Lemma mod_congr M x : 0 < M -> (M | x mod M - x).
Proof. intros. exists (- (x / M)). rewrite Z.mod_eq by lia. lia. Qed.
(** For every odd number and every width, if 3 * 2^steps >= N: the number x below 2^N with a * x = 1 modulo 2^N. *)
Theorem C180_inverse : forall n junk s a, 1 <= n -> len junk = n -> wf n a -> Z.odd (bval a) = true -> 0 <= s -> 32 * n <= 3 * 2 ^ s ->
  exists x, inverse_2N n junk s a = Ok x /\ wf n x /\ (bval a * bval x) mod modulus n = 1 /\
    (forall y, 0 <= y < modulus n -> (bval a * y) mod modulus n = 1 -> y = bval x).
Proof.
  intros n junk s a Hn Lj Wa Oa Hs Fit. unfold inverse_2N. pose proof (modulus_pos n ltac:(lia)) as MP.
  assert (M1 : 2 ^ 32 <= modulus n) by (unfold modulus; apply Z.pow_le_mono_r; lia).
  destruct (from_unsigned_correct n junk 2 ltac:(lia) Lj ltac:(lia)) as (two & -> & W2 & V2). cbn [bind]. rewrite Z.mod_small in V2 by lia.
  destruct (forU_spec (fun i x => wf n x /\ (2 ^ Z.min (3 * 2 ^ i) (32 * n) | bval a * bval x - 1)) 0 s
    (fun _ x => t <- op_mul n a x ;; d <- op_sub n two t ;; mul_assign n x d) a) as (x & E & W & D).
  - exact Hs.
  - split; [exact Wa|]. change (3 * 2 ^ 0) with 3. rewrite Z.min_l by lia. change (2 ^ 3) with 8.
    apply Z.odd_spec in Oa. destruct Oa as (k & ->). destruct (Z.Even_or_Odd k) as [[j ->]|[j ->]].
    + exists (j * (2 * j + 1)). ring.
    + exists ((2 * j + 1) * (j + 1)). ring.
  - intros i x Hi [Wx Dx].
    destruct (proj1 (C04_multiplication_exact n a x Wa Wx)) as (t & -> & Wt & Vt). cbn [bind].
    destruct (proj1 (C02_subtraction_negation_exact n two t W2 Wt)) as (d & -> & Wd & Vd). cbn [bind].
    destruct (proj2 (C04_multiplication_exact n x d Wx Wd)) as (x' & -> & Wx' & Vx'). exists x'. split; [reflexivity|]. split; [exact Wx'|].
    set (A := bval a) in *. set (X := bval x) in *.
    assert (CG : (modulus n | bval x' - X * (2 - A * X))).
    { apply Z.mod_divide; [lia|]. rewrite Vx', Vd, V2, Vt. rewrite Zminus_mod_idemp_r, Zmult_mod_idemp_r.
      rewrite Zminus_mod_idemp_l, Z.sub_diag. apply Z.mod_0_l. lia. }
    set (e := Z.min (3 * 2 ^ i) (32 * n)) in *. assert (P : 0 < 2 ^ i) by (apply Z.pow_pos_nonneg; lia).
    assert (SQ : (2 ^ (e + e) | (A * X - 1) * (A * X - 1))) by (rewrite Z.pow_add_r by lia; destruct Dx as [z ->]; exists (z * z); ring).
    assert (G : Z.min (3 * 2 ^ (i + 1)) (32 * n) <= e + e) by (rewrite Z.pow_add_r by lia; change (2 ^ 1) with 2; lia).
    assert (G2 : 0 <= Z.min (3 * 2 ^ (i + 1)) (32 * n)) by (rewrite Z.pow_add_r by lia; change (2 ^ 1) with 2; lia).
    replace (A * bval x' - 1) with (A * (bval x' - X * (2 - A * X)) - (A * X - 1) * (A * X - 1)) by ring.
    apply Z.divide_sub_r.
    + apply Z.divide_mul_r. eapply Z.divide_trans; [|exact CG]. unfold modulus. apply pow2_divide. lia.
    + eapply Z.divide_trans; [|exact SQ]. apply pow2_divide. lia.
  - assert (R : (bval a * bval x) mod modulus n = 1).
    { rewrite Z.min_r in D by lia. destruct D as (z & D). replace (bval a * bval x) with (1 + z * modulus n) by (unfold modulus; lia).
      rewrite Z.mod_add by lia. apply Z.mod_small. lia. }
    exists x. split; [exact E|]. split; [exact W|]. split; [exact R|]. intros y Hy Ey. pose proof (bval_bound n x W) as Bx.
    rewrite <- (Z.mod_small y (modulus n)), <- (Z.mod_small (bval x) (modulus n)) by lia.
    transitivity ((y * ((bval a * bval x) mod modulus n)) mod modulus n).
    { rewrite R. f_equal. ring. }
    rewrite Zmult_mod_idemp_r. replace (y * (bval a * bval x)) with (bval x * (bval a * y)) by ring.
    rewrite <- Zmult_mod_idemp_r, Ey. f_equal. ring.
Qed.
Print Assumptions C180_inverse.
(** Hence exact division by an odd number without a division. *)
Corollary C180_exact_division : forall n junk s c a, 1 <= n -> len junk = n -> wf n a -> wf n c -> Z.odd (bval a) = true -> 0 <= s -> 32 * n <= 3 * 2 ^ s ->
  (bval a | bval c) -> yields n (exact_div_odd n junk s c a) (bval c / bval a).
Proof.
  intros n junk s c a Hn Lj Wa Wc Oa Hs Fit [q Q]. unfold exact_div_odd. pose proof (modulus_pos n ltac:(lia)) as MP.
  destruct (C180_inverse n junk s a Hn Lj Wa Oa Hs Fit) as (x & -> & Wx & R & _). cbn [bind].
  destruct (proj1 (C04_multiplication_exact n c x Wc Wx)) as (r & -> & Wr & Vr). exists r. split; [reflexivity|]. split; [exact Wr|].
  pose proof (bval_bound n c Wc) as Bc. pose proof (bval_bound n a Wa) as Ba.
  assert (A0 : bval a <> 0) by (intros Z0; rewrite Z0 in Oa; discriminate).
  assert (Q0 : 0 <= q < modulus n) by (clear - Bc Ba A0 Q; nia).
  rewrite Vr, Q, Z.div_mul by exact A0. replace (q * bval a * bval x) with (q * (bval a * bval x)) by ring.
  rewrite <- Zmult_mod_idemp_r, R, Z.mul_1_r. apply Z.mod_small. exact Q0.
Qed.
Print Assumptions C180_exact_division.
(** the inverse of 3 in two blocks is 0xaaaaaaaaaaaaaaab, after five steps; four are too few *)
Example C180_example : wf 2 [3; 0] /\ 32 * 2 <= 3 * 2 ^ 5 /\ inverse_2N 2 [7; 7] 5 [3; 0] = Ok [2863311531; 2863311530] /\
  inverse_2N 2 [7; 7] 4 [3; 0] <> inverse_2N 2 [7; 7] 5 [3; 0] /\
  exact_div_odd 2 [7; 7] 5 [9; 3] [3; 0] = Ok [3; 1].
Proof. split; [wfc|]. conjs; [lia|vm_compute; reflexivity|vm_compute; discriminate|vm_compute; reflexivity]. Qed.
