(** * MixFacts: lemmas about the mixed operators, the old relational operators and signed overflow. *)
From Verif Require Export MixModel AeuMore AesiFacts.
Open Scope Z_scope.

Lemma u_temp n junk k : 2 <= n -> len junk = n -> 0 <= k < 2 ^ 64 ->
  exists x, from_unsigned n junk k = Ok x /\ wf n x /\ bval x = k.
Proof.
  intros Hn Lj Hk. destruct (from_unsigned_correct n junk k ltac:(lia) Lj Hk) as (x & E & W & V).
  exists x. split; [exact E|]. split; [exact W|]. rewrite V. apply Z.mod_small. split; [lia|].
  apply Z.lt_le_trans with (2 ^ 64); [lia|]. apply Z.pow_le_mono_r; lia.
Qed.

Lemma op_div_total cfg n a b : 1 <= n -> wf n a -> wf n b -> bval b <> 0 ->
  yields n (op_div cfg n a b) (bval a / bval b) /\ yields n (op_mod cfg n a b) (bval a mod bval b).
Proof.
  intros Hn Wa Wb H. destruct (divide_pos cfg n a b Hn Wa Wb H) as (q & r & E & Rq & Rr).
  unfold op_div, op_mod. rewrite E. cbn [bind]. split; [exists q|exists r]; auto.
Qed.

(** ** Signed arithmetic when the magnitude overflows *)
Definition sgnz (s : sign_t) : Z := match s with SZero => 0 | SPos => 1 | SNeg => -1 end.

Lemma s_add_wrap cfg n a b : swf n a -> swf n b -> modulus n <= Z.abs (sval a + sval b) ->
  exists r, s_add_assign cfg n a b = Ok r /\ wf n (mag r) /\ sgnz (sgn r) = Z.sgn (sval a + sval b) /\
    bval (mag r) = Z.abs (sval a + sval b) mod modulus n.
Proof.
  intros [Wa Na] [Wb Nb] H. pose proof (bval_bound n _ Wa) as Ba. pose proof (bval_bound n _ Wb) as Bb. fold (modulus n) in Ba, Bb.
  unfold s_add_assign. destruct a as [sa ma], b as [sb mb]. unfold sval in *. cbn [sgn mag] in *.
  assert (S : sb <> SZero /\ sb = sa).
  { destruct sa, sb; cbn in H; split; try discriminate; try reflexivity; exfalso; lia. }
  destruct S as [S0 ->]. destruct (add_assign_correct n ma mb Wa Wb) as (r & E & W & V).
  destruct sa; try congruence; cbn [sign_eqb]; rewrite E; cbn [bind with_mag sgn mag]; eexists; (split; [reflexivity|]); cbn [sgn mag sgnz];
    (split; [exact W|]); unfold with_mag; cbn [sgn mag sgnz]; rewrite V; (split; [lia|]); f_equal; lia.
Qed.

Lemma s_sub_wrap cfg n a b : swf n a -> swf n b -> modulus n <= Z.abs (sval a - sval b) ->
  exists r, s_sub_assign cfg n a b = Ok r /\ wf n (mag r) /\ sgnz (sgn r) = Z.sgn (sval a - sval b) /\
    bval (mag r) = Z.abs (sval a - sval b) mod modulus n.
Proof.
  intros Wa Wb H. rewrite s_sub_as_add. pose proof (s_inverse_val b) as V.
  replace (sval a - sval b) with (sval a + sval (s_inverse b)) in * by lia.
  apply s_add_wrap; auto. apply s_inverse_swf; auto.
Qed.

Lemma s_mul_any n a b : swf n a -> swf n b ->
  exists r, s_mul_assign n a b = Ok r /\ wf n (mag r) /\ sgnz (sgn r) = Z.sgn (sval a * sval b) /\
    (sval a <> 0 -> sval b <> 0 -> bval (mag r) = Z.abs (sval a * sval b) mod modulus n).
Proof.
  intros [Wa Na] [Wb Nb]. pose proof (bval_bound n _ Wa) as Ba. pose proof (bval_bound n _ Wb) as Bb.
  unfold s_mul_assign, s_isZero, s_isNegative. destruct a as [sa ma], b as [sb mb]. unfold sval in *. cbn [sgn mag] in *.
  assert (Pa : sa <> SZero -> 0 < bval ma) by (intros X; specialize (Na X); lia).
  assert (Pb : sb <> SZero -> 0 < bval mb) by (intros X; specialize (Nb X); lia).
  destruct (mul_assign_correct n ma mb Wa Wb) as (r & E & W & V).
  destruct sb; cbn [sign_eqb]; try (specialize (Pb ltac:(discriminate)));
  [eexists; split; [reflexivity|]; unfold with_sign; cbn [sgn mag sgnz]; split; [exact Wa|]; split; [lia|]; lia| |].
  - cbn [sgn mag]. rewrite E. cbn [bind]. eexists. split; [reflexivity|]. unfold with_mag; cbn [sgn mag]. split; [exact W|]. rewrite V.
    destruct sa; cbn [sgnz]; try (specialize (Pa ltac:(discriminate))); (split; [nia|]); intros; f_equal; lia.
  - rewrite s_inverse_mag. cbn [mag]. rewrite E. cbn [bind]. eexists. split; [reflexivity|]. unfold with_mag, s_inverse, with_sign; cbn [sgn mag]. split; [exact W|]. rewrite V.
    destruct sa; cbn [sgnz]; try (specialize (Pa ltac:(discriminate))); (split; [nia|]); intros; f_equal; lia.
Qed.
