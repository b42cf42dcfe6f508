(** * Fermat: Fermat's little theorem on Z, from the standard library only.  No part of the code is modelled here. *)
From Coq Require Import ZArith Znumtheory Zpow_facts List Permutation Lia.
Import ListNotations.
Open Scope Z_scope.

Definition zprod (l : list Z) : Z := fold_right Z.mul 1 l.
Lemma zprod_perm : forall l l', Permutation l l' -> zprod l = zprod l'.
Proof. intros l l' H. induction H; unfold zprod in *; cbn [fold_right] in *; lia. Qed.
Definition residues (p : Z) : list Z := map Z.of_nat (seq 1 (Z.to_nat (p - 1))).
Lemma residues_in : forall p x, In x (residues p) <-> 1 <= x < p.
Proof.
  intros p x. unfold residues. rewrite in_map_iff. split.
  - intros (k & <- & H). apply in_seq in H. lia.
  - intros H. exists (Z.to_nat x). split; [lia|]. apply in_seq. lia.
Qed.
Lemma residues_nodup : forall p, NoDup (residues p).
Proof. intros p. unfold residues. apply FinFun.Injective_map_NoDup; [intros x y H; lia|apply seq_NoDup]. Qed.
Lemma zprod_scale : forall p a l, 0 < p -> zprod (map (fun k => (a * k) mod p) l) mod p = (a ^ Z.of_nat (length l) * zprod l) mod p.
Proof.
  intros p a l Hp. induction l as [|x l IH]; [reflexivity|].
  cbn [map length]. rewrite Nat2Z.inj_succ, Z.pow_succ_r by lia. unfold zprod in *. cbn [fold_right].
  rewrite Z.mul_mod_idemp_l by lia. rewrite <- Z.mul_mod_idemp_r, IH, Z.mul_mod_idemp_r by lia. f_equal. ring.
Qed.
Lemma zprod_coprime : forall p l, prime p -> (forall x, In x l -> 1 <= x < p) -> rel_prime p (zprod l).
Proof.
  intros p l Hp. induction l as [|x l IH]; intros H.
  - apply rel_prime_sym, rel_prime_1.
  - unfold zprod. cbn [fold_right]. apply rel_prime_mult.
    + apply rel_prime_sym. destruct (H x (or_introl eq_refl)). apply rel_prime_sym, prime_rel_prime; [exact Hp|].
      intros D. apply Z.divide_pos_le in D; lia.
    + apply IH. intros y Hy. apply H. right. exact Hy.
Qed.
Lemma fermat_one p a : prime p -> ~ (p | a) -> a ^ (p - 1) mod p = 1.
Proof.
  intros Hp ND. pose proof (prime_ge_2 p Hp) as P2. assert (CO : rel_prime p a) by (apply prime_rel_prime; auto).
  assert (PM : Permutation (map (fun k => (a * k) mod p) (residues p)) (residues p)).
  { apply NoDup_Permutation_bis.
    - (* injective on the residues *)
      assert (G : forall l, NoDup l -> (forall x, In x l -> 1 <= x < p) -> NoDup (map (fun k => (a * k) mod p) l)).
      { induction l as [|x l IH]; intros NDl HR; [constructor|]. inversion NDl; subst. cbn [map]. constructor.
        - intros Hin. apply in_map_iff in Hin. destruct Hin as (y & E & Hy). assert (y = x); [|subst; contradiction].
          assert (D : (p | a * (y - x))) by (apply Z.mod_divide; [lia|]; rewrite Z.mul_sub_distr_l, Zminus_mod, E, Z.sub_diag, Z.mod_0_l by lia; reflexivity).
          apply Gauss in D; [|exact CO]. pose proof (HR x (or_introl eq_refl)). pose proof (HR y (or_intror Hy)).
          destruct D as [q Q]. assert (q = 0) by nia. subst q. lia.
        - apply IH; auto. intros z Hz. apply HR. right. exact Hz. }
      apply G; [apply residues_nodup|apply residues_in].
    - rewrite map_length. lia.
    - intros y Hy. apply in_map_iff in Hy. destruct Hy as (k & <- & Hk). apply residues_in in Hk. apply residues_in.
      pose proof (Z.mod_pos_bound (a * k) p ltac:(lia)). enough ((a * k) mod p <> 0) by lia.
      intros E. apply Z.mod_divide in E; [|lia]. apply Gauss in E; [|exact CO]. apply Z.divide_pos_le in E; lia. }
  pose proof (zprod_scale p a (residues p) ltac:(lia)) as S. rewrite (zprod_perm _ _ PM) in S.
  assert (L : Z.of_nat (length (residues p)) = p - 1) by (unfold residues; rewrite map_length, seq_length; lia). rewrite L in S.
  assert (D : (p | zprod (residues p) * (a ^ (p - 1) - 1))).
  { apply Z.mod_divide; [lia|]. rewrite Z.mul_sub_distr_l, Z.mul_1_r, Z.mul_comm, Zminus_mod, <- S, Z.sub_diag, Z.mod_0_l by lia. reflexivity. }
  apply Gauss in D; [|apply zprod_coprime; [exact Hp|intros x Hx; apply residues_in; exact Hx] ].
  destruct D as [q Q]. replace (a ^ (p - 1)) with (1 + q * p) by lia. rewrite Z_mod_plus_full, Z.mod_small by lia. reflexivity.
Qed.
Lemma fermat_Z p a : prime p -> 0 <= a -> a ^ p mod p = a mod p.
Proof.
  intros Hp Ha. pose proof (prime_ge_2 p Hp) as P2. replace p with (1 + (p - 1)) at 1 by lia. rewrite Z.pow_add_r, Z.pow_1_r by lia.
  destruct (Zdivide_dec p a) as [D|D].
  - rewrite Z.mul_mod by lia. apply Z.mod_divide in D; [|lia]. rewrite D, Z.mul_0_l, Z.mod_0_l by lia. reflexivity.
  - rewrite <- Z.mul_mod_idemp_r, fermat_one, Z.mul_1_r by (auto; lia). reflexivity.
Qed.
(** a^(p-1) = 1 mod p for p prime not dividing a; hence a^k = 1 whenever p-1 divides k. *)
Lemma fermat_unit p a k : prime p -> 0 <= a -> ~ (p | a) -> 0 <= k -> (p - 1 | k) -> a ^ k mod p = 1.
Proof.
  intros Hp Ha ND Hk [j ->]. pose proof (prime_ge_2 p Hp) as P2. pose proof (fermat_one p a Hp ND) as E.
  destruct (Z_lt_le_dec j 0) as [J|J].
  { assert (j * (p - 1) = 0) by nia. rewrite H, Z.pow_0_r, Z.mod_small by lia. reflexivity. }
  rewrite Z.mul_comm, Z.pow_mul_r by lia. rewrite Zpower_mod, E, Z.pow_1_l, Z.mod_small by lia. reflexivity.
Qed.
Print Assumptions fermat_unit.
