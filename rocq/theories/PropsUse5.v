(** * PropsUse5: C177, division that rounds down, with the public interface of the signed class. *)
From Coq Require Import ZifyBool.
From Verif Require Import AesiFacts UseModel4 PropsAesi.
Open Scope Z_scope.

(** ** C177 *)
Lemma seen_zero n r : swf n r -> s_isZero r = (sval r =? 0).
Proof.
  intros [W S]. unfold s_isZero, sval, ssgn in *. pose proof (bval_bound n _ W). destruct (sgn r); cbn [sign_eqb] in *; try lia.
  all: assert (bval (mag r) <> 0) by (apply S; discriminate); lia.
Qed.
Lemma seen_negative n r : swf n r -> s_isNegative r = (sval r <? 0).
Proof.
  intros [W S]. unfold s_isNegative, sval, ssgn in *. pose proof (bval_bound n _ W). destruct (sgn r); cbn [sign_eqb] in *; try lia.
  assert (bval (mag r) <> 0) by (apply S; discriminate); lia.
Qed.
Lemma swf_bound n r : swf n r -> Z.abs (sval r) < modulus n.
Proof. intros [W _]. unfold sval, ssgn. pose proof (bval_bound n _ W). destruct (sgn r); lia. Qed.
(** For every dividend and every divisor but 0: the quotient rounded down, and a remainder with the sign of the divisor. *)
Theorem C177_floor_division : forall cfg n a b, 1 <= n -> swf n a -> swf n b -> sval b <> 0 ->
  exists q r, floor_div cfg n a b = Ok (q, r) /\ swf n q /\ swf n r /\ sval a = sval q * sval b + sval r /\
    (0 <= sval r < sval b \/ sval b < sval r <= 0) /\ sval q = sval a / sval b /\ sval r = sval a mod sval b.
Proof.
  intros cfg n a b Hn Wa Wb B0. pose proof (swf_bound n a Wa) as Ba. pose proof (swf_bound n b Wb) as Bb. unfold floor_div.
  destruct (proj1 (C45_signed_division cfg n a b a a Hn Wa Wb Wa Wa) B0) as ((q & -> & Wq & Vq) & _). cbn [bind].
  pose proof (swf_bound n q Wq) as Bq. pose proof (Z.quot_rem' (sval a) (sval b)) as QR. pose proof (Z.rem_bound_abs (sval a) (sval b) B0) as RB.
  rewrite <- Vq in QR.
  set (R := Z.rem (sval a) (sval b)) in *.
  assert (QB : Z.abs (sval q * sval b) <= Z.abs (sval a)) by
    (rewrite Z.abs_mul, Vq, <- Z.quot_abs, Z.mul_comm by exact B0; apply Z.mul_quot_le; lia).
  destruct (C44_signed_mul n q b Wq Wb ltac:(lia)) as [(t & -> & Wt & Vt) _]. cbn [bind].
  destruct (proj2 (C43_signed_add_sub cfg n a t Wa Wt) ltac:(lia)) as [(r & -> & Wr & Vr) _]. cbn [bind].
  assert (VR : sval r = R) by lia. rewrite (seen_zero n r Wr), (seen_negative n r Wr), (seen_negative n b Wb).
  assert (FIN : forall q r, swf n q -> swf n r -> sval a = sval q * sval b + sval r -> (0 <= sval r < sval b \/ sval b < sval r <= 0) ->
    swf n q /\ swf n r /\ sval a = sval q * sval b + sval r /\ (0 <= sval r < sval b \/ sval b < sval r <= 0) /\ sval q = sval a / sval b /\ sval r = sval a mod sval b).
  { intros q' r' W1 W2 E S. conjs; auto.
    - apply (Z.div_unique _ _ _ (sval r')); [lia|]. rewrite E. ring.
    - apply (Z.mod_unique _ _ (sval q')); [lia|]. rewrite E. ring. }
  destruct (negb (sval r =? 0) && negb (Bool.eqb (sval r <? 0) (sval b <? 0))) eqn:C.
  - assert (SG : (sval r < 0 /\ 0 < sval b) \/ (0 < sval r /\ sval b < 0)).
    { destruct (Z.eqb_spec (sval r) 0); [discriminate|]. destruct (Z.ltb_spec (sval r) 0), (Z.ltb_spec (sval b) 0); cbn in C; try discriminate; lia. }
    assert (Q1 : Z.abs (sval q - 1) < modulus n). { assert (2 <= Z.abs (sval b)) by lia. rewrite Z.abs_mul in QB.
      assert (2 * Z.abs (sval q) <= Z.abs (sval a)) by (clear - QB H; nia). destruct (Z.eq_dec (sval q) 0) as [->|]; lia. }
    destruct (proj2 (proj2 (proj2 (proj2 (proj2 (C55_signed_unary n q Hn Wq))))) Q1) as [(q' & -> & Wq' & Vq') _]. cbn [bind].
    destruct (proj1 (C43_signed_add_sub cfg n r b Wr Wb) ltac:(lia)) as [_ (r' & -> & Wr' & Vr')]. cbn [bind].
    exists q', r'. split; [reflexivity|]. apply FIN; auto; [rewrite Vq', Vr'; lia|lia].
  - exists q, r. split; [reflexivity|]. apply FIN; auto; [lia|].
    destruct (Z.eqb_spec (sval r) 0); [lia|]. destruct (Z.ltb_spec (sval r) 0), (Z.ltb_spec (sval b) 0); cbn in C; try discriminate; lia.
Qed.
Print Assumptions C177_floor_division.
(** -7 / 2 = -4 rest 1; 7 / -2 = -4 rest -1; -8 / 2 = -4 rest 0 (whose magnitude, which no method shows, is still 8) *)
Example C177_example : swf 2 (sn [7; 0]) /\ swf 2 (sp [2; 0]) /\ sval (sn [7; 0]) = -7 /\
  floor_div cfg0 2 (sn [7; 0]) (sp [2; 0]) = Ok (sn [4; 0], sp [1; 0]) /\
  floor_div cfg0 2 (sp [7; 0]) (sn [2; 0]) = Ok (sn [4; 0], sn [1; 0]) /\
  floor_div cfg0 2 (sn [8; 0]) (sp [2; 0]) = Ok (sn [4; 0], mk_aesi SZero [8; 0]).
Proof. split; [swfc|]. split; [swfc|]. conjs; vm_compute; reflexivity. Qed.
