(** * PropsIniS: C154 (no signed operation on written objects reads memory nobody wrote) and C155 (the outputs of the
    signed divide). *)
From Verif Require Import Base Spec Lib AeuModel AeuFacts AesiModel AesiFacts AesiArith PropsAeu PropsAesi IniSpec IniModel IniFacts IniSigned PropsIni.
From Coq Require Import Lia.
Open Scope Z_scope.

Definition sinit2 (x : aesi * aesi) : caesi * caesi := (sinit (fst x), sinit (snd x)).

Ltac red_s := cbn [sinit sgn mag csgn cmag sget bind cwith_sign cwith_mag with_sign with_mag sign_eqb lift fst snd].
Ltac bs f := apply (bind_sim f); [reflexivity|intros ?].

Lemma scopy_i a : scopy (sinit a) = Ok (sinit a).
Proof. destruct a as [s m]. unfold scopy, sget. red_s. rewrite copy_init. reflexivity. Qed.
Lemma inverse_i a : cs_inverse (sinit a) = Ok (sinit (s_inverse a)).
Proof. destruct a as [s m]. reflexivity. Qed.
Lemma sisZero_i a : cs_isZero (sinit a) = Ok (s_isZero a).
Proof. reflexivity. Qed.
Lemma sisNeg_i a : cs_isNegative (sinit a) = Ok (s_isNegative a).
Proof. reflexivity. Qed.
Lemma fix_zero_i n a : cs_fix_zero n (sinit a) = lift sinit (s_fix_zero n a).
Proof.
  destruct a as [s m]. unfold cs_fix_zero, s_fix_zero. red_s. rewrite isZero_i.
  apply bind_same; [reflexivity|]. intros [|]; reflexivity.
Qed.
Lemma from_int_i n t v : 0 <= n -> cs_from_int n t v = lift sinit (s_from_int n t v).
Proof.
  intros Hn. unfold cs_from_int, s_from_int, sfresh. cbn zeta.
  destruct (v <? 0).
  - apply bind_same; [reflexivity|]. intros nv. rewrite from_unsigned_i by exact Hn. bs init. rewrite copy_init. reflexivity.
  - destruct (v >? 0).
    + rewrite from_unsigned_i by exact Hn. bs init. rewrite copy_init. reflexivity.
    + unfold czeros. rewrite copy_init. reflexivity.
Qed.
Lemma neg_i a : cs_neg (sinit a) = lift sinit (s_neg a).
Proof. unfold cs_neg, s_neg. rewrite scopy_i. cbn [bind lift]. apply inverse_i. Qed.
Lemma fix_mk n s b : cs_fix_zero n (mk_caesi (Some s) (init b)) =
  lift sinit (z <- isZero n b ;; Ok (mk_aesi (if z then SZero else s) b)).
Proof.
  unfold cs_fix_zero. cbn [cmag]. rewrite isZero_i. apply bind_same; [reflexivity|]. intros [|]; reflexivity.
Qed.
Lemma inc_i n a : 0 <= n -> cs_inc n (sinit a) = lift sinit (s_inc n a).
Proof.
  intros Hn. destruct a as [s m]. unfold cs_inc, s_inc, sget. red_s. destruct s; red_s.
  - rewrite from_unsigned_i by exact Hn. bs init. rewrite copy_init. reflexivity.
  - rewrite op_inc_i. bs init. reflexivity.
  - rewrite op_dec_i. bs init. apply fix_mk.
Qed.
Lemma dec_i n a : 0 <= n -> cs_dec n (sinit a) = lift sinit (s_dec n a).
Proof.
  intros Hn. destruct a as [s m]. unfold cs_dec, s_dec, sget. red_s. destruct s; red_s.
  - rewrite from_unsigned_i by exact Hn. bs init. rewrite copy_init. reflexivity.
  - rewrite op_dec_i. bs init. apply fix_mk.
  - rewrite op_inc_i. bs init. reflexivity.
Qed.
Lemma cancel_i cfg n a b s : cs_cancel cfg n (sinit a) (sinit b) s =
  lift sinit (ratio <- compareTo cfg n n (mag a) (mag b) ;;
     match ratio with
     | CGreater => r <- sub_assign n (mag a) (mag b) ;; Ok (with_mag a r)
     | CLess => r <- op_sub n (mag b) (mag a) ;; Ok (mk_aesi s r)
     | _ => Ok (with_sign a SZero)
     end).
Proof.
  destruct a as [sa ma], b as [sb mb]. unfold cs_cancel. red_s. rewrite compareTo_i.
  apply bind_same; [reflexivity|]. intros [| | |]; try reflexivity.
  - rewrite op_sub_i. bs init. rewrite copy_init. reflexivity.
  - rewrite sub_assign_i. bs init. reflexivity.
Qed.
Lemma sadd_assign_i cfg n a b : cs_add_assign cfg n (sinit a) (sinit b) = lift sinit (s_add_assign cfg n a b).
Proof.
  unfold cs_add_assign, s_add_assign. rewrite !cancel_i, scopy_i. destruct a as [sa ma], b as [sb mb]. unfold sget.
  destruct sa, sb; red_s; try reflexivity; rewrite add_assign_i; bs init; reflexivity.
Qed.
Lemma sadd_i cfg n a b : cs_add cfg n (sinit a) (sinit b) = lift sinit (s_add cfg n a b).
Proof. unfold cs_add, s_add. rewrite scopy_i. apply sadd_assign_i. Qed.
Lemma ssub_assign_i cfg n a b : cs_sub_assign cfg n (sinit a) (sinit b) = lift sinit (s_sub_assign cfg n a b).
Proof.
  unfold cs_sub_assign, s_sub_assign. rewrite !cancel_i, scopy_i. cbn [bind]. rewrite inverse_i. destruct a as [sa ma], b as [sb mb]. unfold sget.
  destruct sa, sb; red_s; try reflexivity; rewrite add_assign_i; bs init; reflexivity.
Qed.
Lemma ssub_i cfg n a b : cs_sub cfg n (sinit a) (sinit b) = lift sinit (s_sub cfg n a b).
Proof. unfold cs_sub, s_sub. rewrite scopy_i. apply ssub_assign_i. Qed.

Definition sinit1 {A} (x : aesi * A) : caesi * A := (sinit (fst x), snd x).
Lemma strip_i t a k : cs_strip_sign t (sinit a) k = lift sinit1 (s_strip_sign t a k).
Proof.
  unfold cs_strip_sign, s_strip_sign. destruct (k <? 0); [|reflexivity]. rewrite inverse_i. cbn [bind].
  apply bind_same; [reflexivity|]. intros nk. reflexivity.
Qed.
Lemma smul_int_i cfg n t a k : cs_mul_int cfg n t (sinit a) k = lift sinit (s_mul_int cfg n t a k).
Proof.
  unfold cs_mul_int, s_mul_int, cs_mul_assign_int, s_mul_assign_int. rewrite scopy_i. cbn [bind].
  destruct (k =? 0); [reflexivity|]. rewrite strip_i. bs (@sinit1 Z). destruct a0 as [[s m] f]. cbn [sinit1 fst snd].
  red_s. rewrite mul_assign_u_i. bs init. reflexivity.
Qed.
Lemma smul_i n a b : cs_mul n (sinit a) (sinit b) = lift sinit (s_mul n a b).
Proof.
  unfold cs_mul, s_mul, cs_mul_assign, s_mul_assign. rewrite scopy_i. cbn [bind]. rewrite sisZero_i, sisNeg_i. cbn [bind].
  destruct (s_isZero b); [reflexivity|]. cbn zeta. rewrite inverse_i.
  destruct (s_isNegative b); cbn [bind]; unfold sinit; cbn [cmag mag]; rewrite mul_assign_i; bs init; reflexivity.
Qed.
Lemma sdiv_int_i cfg n t a k : 0 <= n -> cs_div_int cfg n t (sinit a) k = lift sinit (s_div_int cfg n t a k).
Proof.
  intros Hn. unfold cs_div_int, s_div_int, cs_div_assign_int, s_div_assign_int. rewrite scopy_i. cbn [bind].
  destruct (k =? 0); [reflexivity|]. rewrite strip_i. bs (@sinit1 Z). destruct a0 as [[s m] f]. cbn [sinit1 fst snd].
  rewrite from_unsigned_i by exact Hn. bs init. red_s. rewrite div_assign_i by exact Hn. bs init. red_s.
  apply (fix_zero_i n (mk_aesi s a1)).
Qed.
Lemma sdiv_i cfg n a b : 0 <= n -> cs_div cfg n (sinit a) (sinit b) = lift sinit (s_div cfg n a b).
Proof.
  intros Hn. unfold cs_div, s_div, cs_div_assign, s_div_assign. rewrite scopy_i. cbn [bind]. rewrite sisZero_i, sisNeg_i. cbn [bind].
  destruct (s_isZero b); [reflexivity|]. cbn zeta. rewrite inverse_i.
  destruct (s_isNegative b); cbn [bind]; unfold sinit at 1 2; cbn [cmag mag]; rewrite div_assign_i by exact Hn; bs init.
  - apply (fix_zero_i n (mk_aesi (sgn (s_inverse a)) a0)).
  - apply (fix_zero_i n (mk_aesi (sgn a) a0)).
Qed.
Lemma smod_int_i cfg n t a k : 0 <= n -> cs_mod_int cfg n t (sinit a) k = lift sinit (s_mod_int cfg n t a k).
Proof.
  intros Hn. unfold cs_mod_int, s_mod_int, cs_mod_assign_int, s_mod_assign_int. rewrite scopy_i. cbn [bind].
  destruct (k =? 0); [reflexivity|]. rewrite strip_i. bs (@sinit1 Z). destruct a0 as [[s m] f]. cbn [sinit1 fst snd].
  rewrite from_unsigned_i by exact Hn. bs init. red_s. rewrite mod_assign_i by exact Hn. bs init. reflexivity.
Qed.
Lemma smod_i cfg n a b : 0 <= n -> cs_mod cfg n (sinit a) (sinit b) = lift sinit (s_mod cfg n a b).
Proof.
  intros Hn. unfold cs_mod, s_mod, cs_mod_assign, s_mod_assign. rewrite scopy_i. cbn [bind]. rewrite sisZero_i, sisNeg_i. cbn [bind].
  destruct (s_isZero b); [reflexivity|]. cbn zeta. rewrite inverse_i.
  destruct (s_isNegative b); cbn [bind]; unfold sinit at 1 2; cbn [cmag mag]; rewrite mod_assign_i by exact Hn; bs init.
  - apply (fix_zero_i n (mk_aesi (sgn (s_inverse a)) a0)).
  - apply (fix_zero_i n (mk_aesi (sgn a) a0)).
Qed.
Lemma scompareTo_i cfg n a b : cs_compareTo cfg n (sinit a) (sinit b) = s_compareTo cfg n a b.
Proof.
  unfold cs_compareTo, s_compareTo. rewrite sisZero_i, sisNeg_i. cbn [bind]. destruct a as [sa ma], b as [sb mb].
  unfold sget. red_s. rewrite compareTo_i. reflexivity.
Qed.
Lemma scompareTo_int_i n a k : cs_compareTo_int n (sinit a) k = s_compareTo_int n a k.
Proof.
  unfold cs_compareTo_int, s_compareTo_int. destruct a as [sa ma]. unfold sget. red_s.
  rewrite compareTo_u64_i. destruct (k =? 0); [reflexivity|]. destruct (k <? 0); [|reflexivity].
  destruct (sign_eqb sa SNeg); [|reflexivity]. apply bind_eq; [reflexivity|]. intros c. rewrite compareTo_u64_i. reflexivity.
Qed.
Lemma sprecisionCast_i cfg n m a : 0 <= m -> cs_precisionCast cfg n m (sinit a) = lift sinit (s_precisionCast cfg n m a).
Proof.
  intros Hm. unfold cs_precisionCast, s_precisionCast. rewrite sisZero_i, sisNeg_i. cbn [bind].
  destruct (negb (s_isZero a)); [|reflexivity]. rewrite from_int_i by exact Hm. bs sinit. cbn zeta.
  destruct a as [sa ma], a0 as [sr mr]. red_s. apply (bind_sim init).
  - apply forU_sim. intros i s. rewrite getBlock_i. apply bind_same; [reflexivity|]. intros b. apply setBlock_i.
  - intros r. destruct (s_isNegative _); [|reflexivity]. exact (inverse_i (mk_aesi sr r)).
Qed.
Lemma seq_i cfg n a b : cs_eq cfg n (sinit a) (sinit b) = s_eq cfg n n a b.
Proof. unfold cs_eq, s_eq. rewrite scompareTo_i, Z.eqb_refl. reflexivity. Qed.
Lemma slt_i cfg n a b : cs_lt cfg n (sinit a) (sinit b) = s_lt cfg n n a b.
Proof. unfold cs_lt, s_lt, s_spaceship, s_compareTo_x. rewrite scompareTo_i, Z.eqb_refl. destruct (s_compareTo cfg n a b); reflexivity. Qed.
Lemma seq_int_i n a k : cs_eq_int n (sinit a) k = s_eq_int n a k.
Proof. unfold cs_eq_int, s_eq_int. rewrite scompareTo_int_i. reflexivity. Qed.

(** With two non-zero operands the contents of the outputs never matter. *)
Lemma sdivide_i cfg n a b q0 r0 Q0 R0 : 0 <= n -> s_isZero a = false -> s_isZero b = false ->
  cs_divide cfg n (sinit a) (sinit b) Q0 R0 = lift sinit2 (s_divide cfg n a b q0 r0).
Proof.
  intros Hn Ha Hb. unfold cs_divide, s_divide. rewrite Ha, Hb. cbn [orb]. rewrite sisZero_i, Hb.
  destruct a as [sa ma], b as [sb mb]. unfold s_isZero in Ha. cbn [sgn] in Ha. unfold sget. red_s. rewrite Ha.
  cbn [bind]. rewrite divide_i by exact Hn. bs init2. destruct a as [q r]. cbn [init2 fst snd mag sgn].
  destruct (match sa with SPos => match sb with SPos => (SPos, SPos) | _ => (SNeg, SPos) end
            | _ => match sb with SPos => (SNeg, SNeg) | _ => (SPos, SNeg) end end) as [qs rs].
  unfold cs_fix_zero. cbn [bind cmag cwith_sign cwith_mag csgn]. rewrite !isZero_i.
  destruct (isZero n q) as [[|]|]; cbn [bind]; rewrite ?isZero_i; destruct (isZero n r) as [[|]|]; reflexivity.
Qed.
(** With a zero operand only the signs of the outputs are written. *)
Lemma sdivide_zero cfg n a b Q0 R0 : s_isZero a = true \/ s_isZero b = true ->
  cs_divide cfg n (sinit a) (sinit b) Q0 R0 = Ok (cwith_sign Q0 SZero, cwith_sign R0 SZero).
Proof.
  intros H. unfold cs_divide. rewrite sisZero_i. destruct a as [sa ma]. unfold sget. red_s. unfold s_isZero in H at 1. cbn [sgn] in H.
  destruct (sign_eqb sa SZero); [reflexivity|]. destruct H as [H|H]; [discriminate|]. rewrite H. reflexivity.
Qed.
Lemma ssquareRoot_i cfg f n a : 0 <= n -> cs_squareRoot cfg f n (sinit a) = lift sinit (s_squareRoot cfg f n a).
Proof.
  intros Hn. unfold cs_squareRoot, s_squareRoot. destruct a as [sa ma]. unfold sget. red_s.
  destruct sa; try (apply from_int_i; exact Hn). rewrite squareRoot_i by exact Hn. bs init. reflexivity.
Qed.
Lemma spower2_i cfg n k : cs_power2 cfg n k = lift sinit (s_power2 cfg n k).
Proof. unfold cs_power2, s_power2. rewrite power2_i. bs init. apply (fix_zero_i n (mk_aesi SPos a)). Qed.
Lemma sintegralCast_i t a : cs_integralCast t (sinit a) = s_integralCast t a.
Proof.
  unfold cs_integralCast, s_integralCast. destruct a as [sa ma]. unfold sget. red_s. rewrite integralCast_i. reflexivity.
Qed.

(** ** C154 *)

(** The signed object [c] is completely written, well formed, and has value [v]. *)
Definition sholds (n : Z) (c : caesi) (v : Z) : Prop := exists a, c = sinit a /\ swf n a /\ sval a = v.
Definition sgives (n : Z) (call : outcome caesi) (v : Z) : Prop := exists c, call = Ok c /\ sholds n c v.

Lemma sgives_lift n call x v : call = lift sinit x -> syields n x v -> sgives n call v.
Proof. intros -> (r & -> & W & V). exists (sinit r). split; [reflexivity|]. exists r. auto. Qed.

Theorem C154_arithmetic : forall cfg n A B x y, 1 <= n -> sholds n A x -> sholds n B y ->
  (Z.abs (x + y) < modulus n -> sgives n (cs_add cfg n A B) (x + y)) /\
  (Z.abs (x - y) < modulus n -> sgives n (cs_sub cfg n A B) (x - y)) /\
  (Z.abs (x * y) < modulus n -> sgives n (cs_mul n A B) (x * y)) /\
  (Z.abs (x + 1) < modulus n -> sgives n (cs_inc n A) (x + 1)) /\
  (Z.abs (x - 1) < modulus n -> sgives n (cs_dec n A) (x - 1)) /\
  sgives n (cs_neg A) (- x) /\
  (y <> 0 ->
     sgives n (cs_div cfg n A B) (Z.quot x y) /\
     sgives n (cs_mod cfg n A B) (if 0 <? y then Z.rem x y else - Z.rem x y)) /\
  (forall t v, ity_ok t = true -> in_ity t v = true -> iwidth t <= 32 \/ 2 <= n ->
     (isigned t = true -> 32 <= iwidth t -> v <> ity_min t) -> sgives n (cs_from_int n t v) v).
Proof.
  intros cfg n A B x y H1 (a & -> & Wa & <-) (b & -> & Wb & <-).
  destruct (C43_signed_add_sub cfg n a b Wa Wb) as [HA HS]. destruct (C55_signed_unary n a H1 Wa) as (U1 & U2 & U3 & U4 & I & D).
  destruct (C45_signed_division cfg n a b (s_default n) (s_default n) H1 Wa Wb) as [Dv D0].
  { split; [apply wf_zeros; lia|]. intros H. exfalso. apply H. reflexivity. }
  { split; [apply wf_zeros; lia|]. intros H. exfalso. apply H. reflexivity. }
  conjs.
  - intros H. eapply sgives_lift; [apply sadd_i|]. apply (proj1 (HA H)).
  - intros H. eapply sgives_lift; [apply ssub_i|]. apply (proj1 (HS H)).
  - intros H. eapply sgives_lift; [apply smul_i|]. apply (proj1 (C44_signed_mul n a b Wa Wb H)).
  - intros H. eapply sgives_lift; [apply inc_i; lia|]. apply (proj1 (I H)).
  - intros H. eapply sgives_lift; [apply dec_i; lia|]. apply (proj1 (D H)).
  - eapply sgives_lift; [apply neg_i|]. assumption.
  - intros H. destruct (Dv H) as (X & _). split.
    + eapply sgives_lift; [apply sdiv_i; lia|]. exact X.
    + eapply sgives_lift; [apply smod_i; lia|].
      destruct (C46_signed_modulo_partial cfg n a b H1 Wa Wb H) as [P N]. destruct (Z.ltb_spec 0 (sval b)).
      * apply (proj1 (P ltac:(lia))).
      * apply (proj1 (N ltac:(lia))).
  - intros t v T1 T2 T3 T4. eapply sgives_lift; [apply from_int_i; lia|]. apply (C52_signed_construct_partial n t v (s_default n) H1 T1 T2 T3 T4).
Qed.

Theorem C154_observe : forall cfg fuel n m A B x y, 1 <= n -> 1 <= m -> 16 * n + 3 <= Z.of_nat fuel -> sholds n A x -> sholds n B y ->
  cs_eq cfg n A B = Ok (x =? y) /\ cs_lt cfg n A B = Ok (x <? y) /\
  (forall k, 2 <= n -> - 2 ^ 63 < k < 2 ^ 64 -> cs_eq_int n A k = Ok (x =? k)) /\
  (Z.abs x < modulus m -> sgives m (cs_precisionCast cfg n m A) x) /\
  (exists r, sgives n (cs_squareRoot cfg fuel n A) r /\ (0 < x -> r * r <= x < (r + 1) * (r + 1)) /\ (x <= 0 -> r = 0)) /\
  sgives n (scopy A) x /\ cs_swap A B = Ok (B, A).
Proof.
  intros cfg fuel n m A B x y H1 M1 HF (a & -> & Wa & <-) (b & -> & Wb & <-).
  destruct (C47_signed_comparison cfg n a b H1 Wa Wb) as (_ & (o & So & L & _) & E & _). conjs.
  - rewrite seq_i. exact E.
  - rewrite slt_i. unfold s_lt. rewrite So. cbn [bind]. f_equal. destruct (Z.ltb_spec (sval a) (sval b)) as [H|H].
    + rewrite (proj2 L H). reflexivity.
    + destruct o; try reflexivity. exfalso. apply proj1 in L. specialize (L eq_refl). lia.
  - intros k Hn Hk. rewrite seq_int_i. apply (proj1 (C49_signed_comparison_builtin n a k Hn Wa Hk)).
  - intros H. rewrite sprecisionCast_i by lia. destruct (proj1 (C59_signed_precision_cast_partial cfg n m a H1 M1 Wa) H) as (r & -> & [Wr Cr] & V).
    exists (sinit r). split; [reflexivity|]. exists r. conjs; auto. split; [exact Wr|]. intros S Z0. apply S, Cr, Z0.
  - destruct (proj1 (C60_signed_root_power2 cfg n fuel a 0 H1 Wa HF)) as (r & Er & Wr & P & N). exists (sval r). conjs.
    + rewrite ssquareRoot_i by lia. rewrite Er. exists (sinit r). split; [reflexivity|]. exists r. auto.
    + intros H. apply (proj2 (P H)).
    + intros H. apply (proj1 (N H)).
  - rewrite scopy_i. exists (sinit a). split; [reflexivity|]. exists a. auto.
  - unfold cs_swap, sget. destruct a as [sa ma], b as [sb mb]. red_s. rewrite swap_i. reflexivity.
Qed.

(** On written objects the cell model and the plain model agree, whatever the plain model returns. *)
Theorem C154_same : forall cfg n a b, 0 <= n ->
  cs_add cfg n (sinit a) (sinit b) = lift sinit (s_add cfg n a b) /\ cs_sub cfg n (sinit a) (sinit b) = lift sinit (s_sub cfg n a b) /\
  cs_mul n (sinit a) (sinit b) = lift sinit (s_mul n a b) /\ cs_div cfg n (sinit a) (sinit b) = lift sinit (s_div cfg n a b) /\
  cs_mod cfg n (sinit a) (sinit b) = lift sinit (s_mod cfg n a b) /\
  cs_inc n (sinit a) = lift sinit (s_inc n a) /\ cs_dec n (sinit a) = lift sinit (s_dec n a) /\
  (forall t k, cs_mul_int cfg n t (sinit a) k = lift sinit (s_mul_int cfg n t a k) /\
     cs_div_int cfg n t (sinit a) k = lift sinit (s_div_int cfg n t a k) /\
     cs_mod_int cfg n t (sinit a) k = lift sinit (s_mod_int cfg n t a k) /\
     cs_from_int n t k = lift sinit (s_from_int n t k)) /\
  (forall k, cs_compareTo_int n (sinit a) k = s_compareTo_int n a k /\ cs_power2 cfg n k = lift sinit (s_power2 cfg n k)) /\
  cs_compareTo cfg n (sinit a) (sinit b) = s_compareTo cfg n a b /\
  (forall t, cs_integralCast t (sinit a) = s_integralCast t a) /\
  cs_isOdd (sinit a) = s_isOdd a /\ cs_bitCount n (sinit a) = s_bitCount n a /\ cs_unsignedCast (sinit a) = Ok (init (s_unsignedCast a)).
Proof.
  intros cfg n a b Hn. conjs; intros; conjs; auto using sadd_i, ssub_i, smul_i, sdiv_i, smod_i, inc_i, dec_i, smul_int_i, sdiv_int_i, smod_int_i, from_int_i, scompareTo_int_i, spower2_i, scompareTo_i, sintegralCast_i.
  - apply isOdd_i. - apply bitCount_i. - apply copy_init.
Qed.

Theorem C154_same_rest : forall cfg n m a b t k, 0 <= n -> 0 <= m ->
  (cs_int_add cfg n t k (sinit b) = lift sinit (s_int_add cfg n t k b) /\ cs_int_sub cfg n t k (sinit b) = lift sinit (s_int_sub cfg n t k b) /\
   cs_int_mul cfg n t k (sinit b) = lift sinit (s_int_mul cfg n t k b) /\ cs_int_div cfg n t k (sinit b) = lift sinit (s_int_div cfg n t k b) /\
   cs_int_mod cfg n t k (sinit b) = lift sinit (s_int_mod cfg n t k b) /\
   cs_add_int cfg n t (sinit a) k = lift sinit (s_add_int cfg n t a k) /\ cs_sub_int cfg n t (sinit a) k = lift sinit (s_sub_int cfg n t a k) /\
   cs_assign_int n t (sinit a) k = lift sinit (s_assign_int n t a k)) /\
  (cs_compareTo_x cfg n m (sinit a) (sinit b) = s_compareTo_x cfg n m a b /\ cs_eq_x cfg n m (sinit a) (sinit b) = s_eq cfg n m a b /\
   cs_ne cfg n m (sinit a) (sinit b) = s_ne cfg n m a b /\ cs_spaceship cfg n m (sinit a) (sinit b) = s_spaceship cfg n m a b /\
   cs_spaceship_int n (sinit a) k = s_spaceship_int n a k /\ cs_lt_x cfg n m (sinit a) (sinit b) = s_lt cfg n m a b /\
   cs_gt cfg n m (sinit a) (sinit b) = s_gt cfg n m a b /\ cs_le cfg n m (sinit a) (sinit b) = s_le cfg n m a b /\
   cs_ge cfg n m (sinit a) (sinit b) = s_ge cfg n m a b) /\
  (forall i v, cs_setBit cfg n (sinit a) i v = lift sinit (s_setBit cfg n a i v)) /\
  (forall i, cs_getBit cfg n (sinit a) i = s_getBit cfg n a i /\ cs_getByte cfg n (sinit a) i = s_getByte cfg n a i /\
     cs_getBlock cfg n (sinit a) i = s_getBlock cfg n a i) /\
  (forall i v, cs_setByte cfg n (sinit a) i v = lift sinit (s_setByte cfg n a i v) /\
     cs_setBlock cfg n (sinit a) i v = lift sinit (s_setBlock cfg n a i v)) /\
  cs_byteCount n (sinit a) = s_byteCount n a /\ cs_isEven (sinit a) = s_isEven a /\ cs_filledBlocksNumber n (sinit a) = s_filledBlocksNumber n a /\
  cs_isPositive (sinit a) = Ok (s_isPositive a) /\ cs_isNegative (sinit a) = Ok (s_isNegative a) /\ cs_isZero (sinit a) = Ok (s_isZero a) /\
  cs_plus (sinit a) = Ok (sinit a) /\ (forall r, s_inc n a = Ok r -> cs_post_inc n (sinit a) = Ok (sinit a, sinit r)) /\
  (forall r, s_dec n a = Ok r -> cs_post_dec n (sinit a) = Ok (sinit a, sinit r)) /\
  (forall u, cs_from_aeu (init u) = Ok (sinit (s_from_aeu u))).
Proof.
  intros cfg n m a b t k Hn Hm.
  assert (FI : forall (f : caesi -> outcome caesi) (g : aesi -> outcome aesi), (forall x, f (sinit x) = lift sinit (g x)) ->
     (x <- cs_from_int n t k ;; f x) = lift sinit (x <- s_from_int n t k ;; g x)).
  { intros f g H. rewrite from_int_i by exact Hn. destruct (s_from_int n t k); cbn [lift bind]; auto. }
  assert (CX : cs_compareTo_x cfg n m (sinit a) (sinit b) = s_compareTo_x cfg n m a b).
  { unfold cs_compareTo_x, s_compareTo_x. destruct (n =? m); [apply scompareTo_i|]. rewrite sprecisionCast_i by exact Hm.
    destruct (s_precisionCast cfg n m a); cbn [lift bind]; auto using scompareTo_i. }
  assert (EX : cs_eq_x cfg n m (sinit a) (sinit b) = s_eq cfg n m a b).
  { unfold cs_eq_x, s_eq. rewrite CX. unfold s_compareTo_x. destruct (n =? m); [reflexivity|]. destruct (s_precisionCast cfg n m a); reflexivity. }
  assert (MG : forall (x : outcome (list Z)), (y <- lift init x ;; Ok (cwith_mag (sinit a) y)) = lift sinit (y <- x ;; Ok (with_mag a y))).
  { intros [x|e]; reflexivity. }
  conjs; intros; conjs; auto using sisNeg_i, sisZero_i, scopy_i, from_int_i.
  - apply FI. intros; apply sadd_i. - apply FI. intros; apply ssub_i. - apply FI. intros; apply smul_i.
  - apply FI. intros; apply sdiv_i, Hn. - apply FI. intros; apply smod_i, Hn.
  - apply FI. intros; apply sadd_i. - apply FI. intros; apply ssub_i.
  - apply from_int_i, Hn.
  - unfold cs_ne, s_ne. rewrite EX. reflexivity.
  - unfold cs_spaceship, s_spaceship. rewrite CX. reflexivity.
  - unfold cs_spaceship_int, s_spaceship_int. rewrite scompareTo_int_i. reflexivity.
  - unfold cs_lt_x, s_lt, cs_spaceship, s_spaceship. rewrite CX. reflexivity.
  - unfold cs_gt, s_gt, cs_spaceship, s_spaceship. rewrite CX. reflexivity.
  - unfold cs_le, s_le, cs_spaceship, s_spaceship. rewrite CX. reflexivity.
  - unfold cs_ge, s_ge, cs_spaceship, s_spaceship. rewrite CX. reflexivity.
  - unfold cs_setBit, s_setBit. cbn [sinit cmag]. rewrite setBit_i. apply MG.
  - apply getBit_i. - apply getByte_i. - apply getBlock_i.
  - unfold cs_setByte, s_setByte. cbn [sinit cmag]. rewrite setByte_i. apply MG.
  - unfold cs_setBlock, s_setBlock. cbn [sinit cmag]. rewrite setBlock_i. apply MG.
  - apply byteCount_i. - apply isEven_i. - apply filled_i.
  - unfold cs_post_inc. rewrite scopy_i, inc_i by exact Hn. rewrite H. reflexivity.
  - unfold cs_post_dec. rewrite scopy_i, dec_i by exact Hn. rewrite H. reflexivity.
  - unfold cs_from_aeu. rewrite copy_init. reflexivity.
Qed.

Definition exM : caesi := mk_caesi (Some SNeg) [Some 7; Some 0; Some 1].
Definition exN : caesi := mk_caesi (Some SPos) [Some 3; Some 0; Some 0].
Example C154_example : sholds 3 exM (- (7 + 2 ^ 64)) /\ sholds 3 exN 3 /\
  cs_add cfg0 3 exM exN = Ok (mk_caesi (Some SNeg) [Some 4; Some 0; Some 1]) /\ sfresh 2 = mk_caesi None [None; None].
Proof.
  assert (W : forall l, length l = 3%nat -> Forall (fun b => 0 <= b < 2 ^ 32) l -> wf 3 l) by (intros l L F; split; [unfold len; rewrite L; reflexivity|exact F]).
  split; [exists (mk_aesi SNeg [7; 0; 1])|split; [exists (mk_aesi SPos [3; 0; 0])|conjs; vm_compute; reflexivity]];
    (split; [reflexivity|split; [split; [apply W; [reflexivity|repeat constructor; lia]|intros _; vm_compute; discriminate]|vm_compute; reflexivity]]).
Qed.

(** ** C155 *)

(** Two non-zero operands: the outputs may be objects nobody has written, and come back completely written. *)
Theorem C155_divide_writes_outputs_partial : forall cfg n A B x y Q0 R0, 1 <= n -> sholds n A x -> sholds n B y -> x <> 0 -> y <> 0 ->
  exists Q R, cs_divide cfg n A B Q0 R0 = Ok (Q, R) /\ sholds n Q (Z.quot x y) /\ sholds n R (Z.rem x y).
Proof.
  intros cfg n A B x y Q0 R0 H1 (a & -> & Wa & <-) (b & -> & Wb & <-) Hx Hy.
  assert (D : swf n (s_default n)).
  { split; [apply wf_zeros; lia|]. intros H. exfalso. apply H. reflexivity. }
  destruct (proj1 (C45_signed_division cfg n a b _ _ H1 Wa Wb D D) Hy) as (_ & _ & q & r & E & Wq & Wr & Vq & Vr & _).
  rewrite (sdivide_i cfg n a b (s_default n) (s_default n)).
  - rewrite E. exists (sinit q), (sinit r). split; [reflexivity|]. split; [exists q|exists r]; auto.
  - lia.
  - destruct a as [[| |] m]; try reflexivity. exfalso. apply Hx. reflexivity.
  - destruct b as [[| |] m]; try reflexivity. exfalso. apply Hy. reflexivity.
Qed.

(** A zero operand: only the signs are written; outputs declared without initialiser stay without magnitude. *)
Definition half (n : Z) : caesi := mk_caesi (Some SZero) (fresh n).

Lemma swf_sign n a : swf n a -> sval a = 0 -> sgn a = SZero.
Proof.
  destruct a as [s m]. intros [W N] V. cbn [sgn mag] in *. destruct s; try reflexivity; exfalso; unfold sval in V; cbn [sgn mag] in V;
    apply N; try discriminate; lia.
Qed.
Lemma swf_sign_ne n a : swf n a -> sval a <> 0 -> sgn a <> SZero.
Proof. intros _ V S. apply V. unfold sval. rewrite S. reflexivity. Qed.
Lemma half_not_written n v : 1 <= n -> ~ sholds n (half n) v.
Proof.
  intros Hn ([s m] & E & _ & _). unfold half, sinit in E. injection E as _ E. cbn [mag] in E.
  unfold fresh in E. destruct (Z.to_nat n) eqn:K; [lia|]. destruct m; discriminate.
Qed.
Lemma half_copy n : 1 <= n -> scopy (half n) = Err Indeterminate.
Proof. intros Hn. unfold scopy, half, sget. cbn [csgn cmag bind]. rewrite copy_fresh by exact Hn. reflexivity. Qed.

Theorem C155_divide_writes_outputs_refuted : forall cfg n A B x y, 1 <= n -> sholds n A x -> sholds n B y -> x = 0 \/ y = 0 ->
  exists Q R, cs_divide cfg n A B (sfresh n) (sfresh n) = Ok (Q, R) /\
    (forall v, ~ sholds n Q v) /\ (forall v, ~ sholds n R v) /\ reads_garbage (scopy Q) /\ reads_garbage (scopy R) /\
    csgn Q = Some SZero /\ cmag Q = fresh n /\ csgn R = Some SZero /\ cmag R = fresh n.
Proof.
  intros cfg n A B x y Hn (a & -> & Wa & <-) (b & -> & Wb & <-) H. exists (half n), (half n).
  split. { rewrite sdivide_zero; [reflexivity|]. destruct H as [H|H]; [left; unfold s_isZero; rewrite (swf_sign n a Wa H); reflexivity | right; unfold s_isZero; rewrite (swf_sign n b Wb H); reflexivity]. }
  conjs; try reflexivity; try (intros v; apply half_not_written; exact Hn); apply half_copy; exact Hn.
Qed.

(** What such an object - sign zero, magnitude never written - is still good for, and what reads garbage. *)
Theorem C155_half_written : forall cfg fuel n m A x, 1 <= n -> 1 <= m -> sholds n A x ->
  (cs_isZero (half n) = Ok true /\ cs_eq cfg n A (half n) = Ok (x =? 0) /\ cs_eq cfg n (half n) A = Ok (x =? 0) /\
   cs_eq cfg n (half n) (half n) = Ok true /\ cs_lt cfg n (half n) A = Ok (0 <? x) /\
   cs_add_assign cfg n A (half n) = Ok A /\ cs_sub_assign cfg n A (half n) = Ok A /\
   (x <> 0 -> sgives n (cs_add_assign cfg n (half n) A) x /\ sgives n (cs_sub_assign cfg n (half n) A) (- x)) /\
   sgives n (cs_inc n (half n)) 1 /\ sgives n (cs_dec n (half n)) (-1) /\
   (forall t, cs_integralCast t (half n) = Ok 0) /\ sgives m (cs_precisionCast cfg n m (half n)) 0 /\
   sgives n (cs_squareRoot cfg fuel n (half n)) 0) /\
  (reads_garbage (scopy (half n)) /\ reads_garbage (cs_add cfg n (half n) A) /\ reads_garbage (cs_mul n (half n) A) /\
   (x <> 0 -> reads_garbage (cs_mul_assign n (half n) A) /\ reads_garbage (cs_div_assign cfg n (half n) A) /\
      reads_garbage (cs_mod_assign cfg n (half n) A)) /\
   reads_garbage (cs_isOdd (half n)) /\ reads_garbage (cs_bitCount n (half n)) /\ reads_garbage (cs_unsignedCast (half n)) /\
   reads_garbage (cs_swap A (half n))).
Proof.
  intros cfg fuel n m A x Hn Hm (a & -> & Wa & <-).
  assert (Z1 : sgives n (cs_from_int n int32 0) 0).
  { unfold cs_from_int. cbn [Z.ltb Z.gtb Z.compare]. unfold czeros. rewrite copy_init. cbn [bind]. eexists. split; [reflexivity|].
    exists (mk_aesi SZero (zeros n)). split; [reflexivity|]. split; [|reflexivity].
    split; [apply wf_zeros; lia|]. intros H. exfalso. apply H. reflexivity. }
  assert (ONE : forall s, s <> SZero -> sgives n (b <- c_from_unsigned n 1 ;; b <- copy b ;; Ok (cwith_sign (cwith_mag (half n) b) s)) (if sign_eqb s SNeg then -1 else 1)).
  { intros s Hs. rewrite from_unsigned_i by lia.
    destruct (from_unsigned_correct n (zeros n) 1 ltac:(lia) (len_zeros n ltac:(lia)) ltac:(lia)) as (r & -> & Wr & Vr).
    cbn [lift bind]. rewrite copy_init. cbn [bind]. eexists. split; [reflexivity|]. exists (mk_aesi s r). split; [reflexivity|].
    assert (P : 1 < modulus n). { unfold modulus. apply Z.pow_gt_1; lia. }
    rewrite Z.mod_small in Vr by lia. split; [split; [exact Wr|cbn [mag]; intros _; lia]|].
    unfold sval. cbn [sgn mag]. destruct s; cbn [sign_eqb]; try congruence; lia. }
  assert (S : (sval a =? 0) = sign_eqb (sgn a) SZero).
  { destruct (Z.eqb_spec (sval a) 0) as [E|E]; [rewrite (swf_sign n a Wa E); reflexivity|].
    pose proof (swf_sign_ne n a Wa E). destruct (sgn a); try reflexivity. congruence. }
  assert (S2 : (0 <? sval a) = sign_eqb (sgn a) SPos).
  { destruct a as [s ma]. destruct Wa as [W N]. cbn [sgn mag] in *. pose proof (bval_bound _ _ W) as Bd. unfold sval. cbn [sgn mag].
    destruct s; cbn [sign_eqb]; [reflexivity| |]; specialize (N ltac:(discriminate)).
    - apply Z.ltb_lt. lia. - apply Z.ltb_ge. lia. }
  conjs; intros; conjs; unfold reads_garbage.
  - reflexivity.
  - rewrite S. unfold cs_eq, cs_compareTo, cs_isZero, half, sget. cbn [csgn cmag sinit bind sign_eqb]. destruct (sgn a); reflexivity.
  - rewrite S. unfold cs_eq, cs_compareTo, cs_isZero, cs_isNegative, half, sget. cbn [csgn cmag sinit bind]. destruct (sgn a); reflexivity.
  - reflexivity.
  - rewrite S2. unfold cs_lt, cs_compareTo, cs_isZero, cs_isNegative, half, sget. cbn [csgn cmag sinit bind]. destruct (sgn a); reflexivity.
  - reflexivity.
  - reflexivity.
  - unfold cs_add_assign. rewrite scopy_i. unfold half, sget. cbn [csgn cmag sinit bind]. pose proof (swf_sign_ne n a Wa H) as NS.
    replace (sign_eqb (sgn a) SZero) with false by (destruct (sgn a); [congruence|reflexivity|reflexivity]). cbn [sign_eqb]. exists (sinit a). split; [reflexivity|]. exists a. auto.
  - unfold cs_sub_assign. rewrite scopy_i. cbn [bind]. rewrite inverse_i. unfold half, sget. cbn [csgn cmag sinit bind]. pose proof (swf_sign_ne n a Wa H) as NS.
    replace (sign_eqb (sgn a) SZero) with false by (destruct (sgn a); [congruence|reflexivity|reflexivity]). cbn [sign_eqb]. eexists. split; [reflexivity|]. exists (s_inverse a).
    split; [reflexivity|]. split; [apply s_inverse_swf; exact Wa|apply s_inverse_val].
  - apply (ONE SPos). discriminate.
  - apply (ONE SNeg). discriminate.
  - reflexivity.
  - exists (sinit (mk_aesi SZero (zeros m))). split; [reflexivity|]. eexists. split; [reflexivity|].
    split; [split; [apply wf_zeros; lia|intros H; exfalso; apply H; reflexivity]|reflexivity].
  - exact Z1.
  - apply half_copy; exact Hn.
  - unfold cs_add. rewrite half_copy by exact Hn. reflexivity.
  - unfold cs_mul. rewrite half_copy by exact Hn. reflexivity.
  - pose proof (swf_sign_ne n a Wa H) as NS. unfold cs_mul_assign. rewrite sisZero_i, sisNeg_i. cbn [bind]. unfold s_isZero, s_isNegative.
    replace (sign_eqb (sgn a) SZero) with false by (destruct (sgn a); [congruence|reflexivity|reflexivity]).
    destruct (sign_eqb (sgn a) SNeg); cbn [bind]; unfold cs_inverse, half, sget; cbn [csgn cmag bind cwith_sign]; unfold c_mul_assign;
      rewrite filled_fresh by exact Hn; reflexivity.
  - pose proof (swf_sign_ne n a Wa H) as NS. unfold cs_div_assign. rewrite sisZero_i, sisNeg_i. cbn [bind]. unfold s_isZero, s_isNegative.
    replace (sign_eqb (sgn a) SZero) with false by (destruct (sgn a); [congruence|reflexivity|reflexivity]).
    destruct (sign_eqb (sgn a) SNeg); cbn [bind]; unfold cs_inverse, half, sget; cbn [csgn cmag bind cwith_sign]; unfold c_div_assign, c_op_div, c_divide;
      rewrite compareTo_fresh by exact Hn; reflexivity.
  - pose proof (swf_sign_ne n a Wa H) as NS. unfold cs_mod_assign. rewrite sisZero_i, sisNeg_i. cbn [bind]. unfold s_isZero, s_isNegative.
    replace (sign_eqb (sgn a) SZero) with false by (destruct (sgn a); [congruence|reflexivity|reflexivity]).
    destruct (sign_eqb (sgn a) SNeg); cbn [bind]; unfold cs_inverse, half, sget; cbn [csgn cmag bind cwith_sign]; unfold c_mod_assign, c_op_mod, c_divide;
      rewrite compareTo_fresh by exact Hn; reflexivity.
  - unfold cs_isOdd, c_isOdd, half. cbn [cmag]. rewrite cget_fresh by lia. reflexivity.
  - unfold cs_bitCount, half. cbn [cmag]. apply lastBlock_fresh; exact Hn.
  - unfold cs_unsignedCast, half. cbn [cmag]. apply copy_fresh; exact Hn.
  - unfold cs_swap, c_swap, half, sget. cbn [csgn cmag sinit bind]. rewrite copy_fresh by exact Hn. reflexivity.
Qed.

(** With outputs that were already written (say [Aesi q {}]) they stay written in the zero case too - with their old
    magnitude (C45). *)
Theorem C155_written_outputs_stay : forall cfg n A B x y Q0 R0 p0 s0, 1 <= n -> sholds n A x -> sholds n B y -> x = 0 \/ y = 0 ->
  sholds n Q0 p0 -> sholds n R0 s0 ->
  exists Q R, cs_divide cfg n A B Q0 R0 = Ok (Q, R) /\ sholds n Q 0 /\ sholds n R 0.
Proof.
  intros cfg n A B x y Q0 R0 p0 s0 Hn (a & -> & Wa & <-) (b & -> & Wb & <-) H ([qs qm] & -> & Wq & <-) ([rs rm] & -> & Wr & <-).
  assert (SZ : forall s m, swf n (mk_aesi s m) -> sholds n (cwith_sign (sinit (mk_aesi s m)) SZero) 0).
  { intros s m [W _]. exists (mk_aesi SZero m). split; [reflexivity|]. split; [|reflexivity]. split; [exact W|]. intros X. exfalso. apply X. reflexivity. }
  eexists. eexists. split.
  - apply sdivide_zero. destruct H as [H|H]; [left; unfold s_isZero; rewrite (swf_sign n a Wa H); reflexivity | right; unfold s_isZero; rewrite (swf_sign n b Wb H); reflexivity].
  - split; apply SZ; assumption.
Qed.

Example C155_example : sholds 3 exM (- (7 + 2 ^ 64)) /\ sholds 3 (cs_default 3) 0 /\
  cs_divide cfg0 3 exM (cs_default 3) (sfresh 3) (sfresh 3) = Ok (half 3, half 3) /\
  cs_divide cfg0 3 exM exM (sfresh 3) (sfresh 3) = Ok (mk_caesi (Some SPos) [Some 1; Some 0; Some 0], cs_default 3).
Proof.
  split; [exact (proj1 C154_example)|]. split; [|conjs; vm_compute; reflexivity].
  exists (mk_aesi SZero (zeros 3)). split; [reflexivity|]. split; [|reflexivity]. split; [apply wf_zeros; lia|]. intros H. exfalso. apply H. reflexivity.
Qed.
Print Assumptions C154_arithmetic.
Print Assumptions C154_observe.
Print Assumptions C155_divide_writes_outputs_partial.
Print Assumptions C155_divide_writes_outputs_refuted.
Print Assumptions C155_half_written.
Print Assumptions C154_same.
Print Assumptions C154_same_rest.
Print Assumptions C155_written_outputs_stay.
