(** * AliasDiv: divide with outputs that share the inputs; extended gcd with shared outputs. *)
From Verif Require Import Spec Lib AeuModel AeuArith AeuBits AeuAccess AeuDiv AeuFacts AliasModel AliasFacts.
From Coq Require Import ZifyBool.
Open Scope Z_scope.

Lemma osim_yields {n} {R : mem -> list Z -> Prop} {x y z} : osim R x y -> yields n y z ->
  exists m' d, x = Ok m' /\ R m' d /\ represents n d z.
Proof. intros H (d & -> & P). destruct x as [m'|]; cbn in H; [|tauto]. eauto. Qed.

Lemma m_update_yields n m a f z : yields n (f (m a)) z ->
  exists m', m_update m a f = Ok m' /\ represents n (m' a) z /\ forall l, l <> a -> m' l = m l.
Proof.
  intros H. destruct (osim_yields (m_update_frame m a f) H) as (m' & d & E & [E1 O] & P). subst d. eauto.
Qed.
Lemma m_sub_yields n m a b : 0 <= n -> a <> Tmp 0 -> wf n (m a) -> wf n (m b) ->
  exists m', m_sub_assign n m a b = Ok m' /\ represents n (m' a) ((bval (m a) - bval (m b)) mod modulus n) /\
    forall l, l <> a -> l <> Tmp 0 -> m' l = m l.
Proof.
  intros Hn Ha Wa Wb.
  destruct (osim_yields (m_sub_assign_frame n m a b Hn Ha) (sub_assign_correct n _ _ Wa Wb)) as (m' & d & E & [E1 O] & P).
  subst d. eauto.
Qed.

Lemma zeros_rep n : 0 <= n -> represents n (zeros n) 0.
Proof. intros. split; [apply wf_zeros; auto | apply bval_zeros]. Qed.
Lemma one_lt_modulus n : 1 <= n -> 1 < modulus n.
Proof. intros. apply Z.lt_le_trans with (2 ^ 32); [lia|apply Z.pow_le_mono_r; lia]. Qed.
Lemma from_one_rep n j : 1 <= n -> len j = n -> yields n (from_unsigned n j 1) 1.
Proof.
  intros Hn L. destruct (from_unsigned_correct n j 1 ltac:(lia) L ltac:(lia)) as (o & E & W & V).
  rewrite Z.mod_small in V by (pose proof (one_lt_modulus n Hn); lia). exists o. repeat split; auto; apply W.
Qed.

(** Number of bits l.1093 walks over. *)
Definition bitsUsed_of (N : Z) : Z := 32 * ((bit_length N + 31) / 32).
Lemma bitsUsed_bounds n N : 1 <= n -> 0 < N < modulus n ->
  32 <= bitsUsed_of N <= 32 * n /\ N < 2 ^ bitsUsed_of N.
Proof.
  intros Hn BN. unfold bitsUsed_of. destruct (bit_length_bounds N ltac:(lia)) as (BL1 & BL2 & BL3).
  assert (HB : bit_length N <= 32 * n) by (apply bit_length_le; [lia|exact (conj (proj1 BN) (proj2 BN)) || (unfold modulus in BN; lia)]).
  pose proof (Z.div_mod (bit_length N + 31) 32 ltac:(lia)) as Dm. pose proof (Z.mod_pos_bound (bit_length N + 31) 32 ltac:(lia)) as Mm.
  assert (1 <= bit_length N).
  { unfold bit_length. destruct (Z.eqb_spec N 0); [lia|]. pose proof (Z.log2_nonneg N). lia. }
  set (f := (bit_length N + 31) / 32) in *. split; [lia|].
  apply Z.lt_le_trans with (2 ^ bit_length N); auto. apply Z.pow_le_mono_r; lia.
Qed.

(** One of the outputs is the dividend: unless number = divisor, both outputs end up 0. *)
Lemma m_divide_number_shared cfg n m nu de q r : 1 <= n -> wf n (m nu) -> wf n (m de) -> q <> r -> (nu = q \/ nu = r) ->
  exists m', m_divide cfg n m nu de q r = Ok m' /\
    represents n (m' q) (if bval (m nu) =? bval (m de) then 1 else 0) /\ represents n (m' r) 0.
Proof.
  intros Hn WN WD NE HA. unfold m_divide. rewrite compareTo_same by auto. cbn [bind]. cbv zeta. unfold aeu_zero.
  set (m0 := mput (mput m q (zeros n)) r (zeros n)).
  assert (Z0 : m0 nu = zeros n).
  { subst m0. destruct HA as [-> | ->]; [rewrite mput_ne by auto|]; apply mput_eq. }
  assert (Q0 : m0 q = zeros n) by (subst m0; rewrite mput_ne by auto; apply mput_eq).
  assert (R0 : m0 r = zeros n) by (subst m0; apply mput_eq).
  pose proof (zeros_rep n ltac:(lia)) as ZR. unfold zcmp.
  destruct (Z.gtb_spec (bval (m nu)) (bval (m de))) as [G|G]; [|destruct (Z.ltb_spec (bval (m nu)) (bval (m de))) as [L|L] ];
    destruct (Z.eqb_spec (bval (m nu)) (bval (m de))); try lia.
  - rewrite Z0. rewrite filledBlocksNumber_value by apply ZR. rewrite bval_zeros. cbn [bind].
    change ((bit_length 0 + 31) / 32 * blockBitLength) with 0. unfold forD. cbn.
    exists m0. rewrite Q0, R0. auto.
  - exists (m_copy m0 r nu). split; auto. unfold m_copy. rewrite (mput_ne _ r _ q), mput_eq by auto. rewrite Q0, Z0. auto.
  - destruct (from_one_rep n (m0 q)) as (o & E & P); auto. rewrite Q0. apply len_zeros. lia.
    rewrite E. cbn [bind]. exists (mput m0 q o). split; auto. rewrite mput_eq, mput_ne by auto. rewrite R0. auto.
Qed.

(** The remainder is the divisor's object. *)
Lemma m_divide_rem_is_divisor cfg n m nu de q : 1 <= n -> wf n (m nu) -> wf n (m de) ->
  q <> nu -> q <> de -> nu <> de -> nu <> Tmp 0 -> q <> Tmp 0 -> de <> Tmp 0 ->
  exists m', m_divide cfg n m nu de q de = Ok m' /\
    (if bval (m nu) <=? bval (m de)
     then represents n (m' q) (if bval (m nu) =? bval (m de) then 1 else 0) /\
          represents n (m' de) (if bval (m nu) =? bval (m de) then 0 else bval (m nu))
     else represents n (m' q) (2 ^ bitsUsed_of (bval (m nu)) - 1) /\ represents n (m' de) 0).
Proof.
  intros Hn WN WD N1 N2 N3 T1 T2 T3. pose proof (bval_bound n _ WN) as BN. pose proof (bval_bound n _ WD) as BD.
  assert (M1 := one_lt_modulus n Hn).
  assert (nu <> q /\ de <> q /\ de <> nu) as (S1 & S2 & S3) by auto.
  unfold m_divide. rewrite compareTo_same by auto. cbn [bind]. cbv zeta. unfold aeu_zero.
  set (m0 := mput (mput m q (zeros n)) de (zeros n)).
  assert (E0 : m0 nu = m nu) by (subst m0; now rewrite !mput_ne by auto).
  assert (Q0 : m0 q = zeros n) by (subst m0; rewrite mput_ne by auto; apply mput_eq).
  assert (R0 : m0 de = zeros n) by (subst m0; apply mput_eq).
  pose proof (zeros_rep n ltac:(lia)) as ZR. unfold zcmp.
  destruct (Z.gtb_spec (bval (m nu)) (bval (m de))) as [G|G]; [|destruct (Z.ltb_spec (bval (m nu)) (bval (m de))) as [L|L] ];
    destruct (Z.leb_spec (bval (m nu)) (bval (m de))); destruct (Z.eqb_spec (bval (m nu)) (bval (m de))); try lia.
  - rewrite E0. rewrite filledBlocksNumber_value by auto. cbn [bind].
    change ((bit_length (bval (m nu)) + 31) / 32 * blockBitLength) with ((bit_length (bval (m nu)) + 31) / 32 * 32).
    rewrite (Z.mul_comm _ 32). fold (bitsUsed_of (bval (m nu))). set (U := bitsUsed_of (bval (m nu))).
    destruct (bitsUsed_bounds n (bval (m nu)) Hn ltac:(lia)) as [HU1 HU2]. fold U in HU1, HU2.
    match goal with |- context [forD U 0 ?B _] =>
      destruct (forD_spec (fun i m' => m' nu = m nu /\ represents n (m' de) 0 /\ wf n (m' q) /\
         exists h, bval (m' q) = 2 ^ i * h /\ h = 2 ^ (U - i) - 1) U 0 B m0) as (m' & E & Enu & Ede & Wq & h & Eq & Eh) end.
    + lia.
    + split; auto. rewrite R0, Q0. split; auto. split; [apply ZR|]. exists 0. rewrite bval_zeros, Z.sub_diag. cbn. lia.
    + intros j m1 Hj (Enu & [Wde Vde] & Wq & h & Eq & Eh).
      destruct (m_update_yields n m1 de (fun r => shl_assign n r 1) _ (shl_assign_correct n _ 1 Wde ltac:(lia)))
        as (m2 & E2 & [W2 V2] & O2). rewrite E2. cbn [bind]. rewrite Vde in V2. change (0 * 2 ^ 1) with 0 in V2. rewrite Z.mod_0_l in V2 by lia.
      rewrite (O2 nu), Enu by auto. rewrite getBit_spec by (auto; lia). cbn [bind].
      set (bt := Z.testbit (bval (m nu)) j).
      destruct (m_update_yields n m2 de (fun r => setBit cfg n r 0 bt) _ (setBit_spec cfg n _ 0 bt W2 ltac:(lia)))
        as (m3 & E3 & [W3 V3] & O3). rewrite E3. cbn [bind].
      rewrite op_ge_same by auto. cbn [bind]. destruct (Z.geb_spec (bval (m3 de)) (bval (m3 de))); [|lia].
      destruct (m_sub_yields n m3 de de ltac:(lia) T3 W3 W3) as (m4 & E4 & [W4 V4] & O4). rewrite E4. cbn [bind].
      rewrite Z.sub_diag, Z.mod_0_l in V4 by lia.
      assert (Q4 : m4 q = m1 q) by (rewrite O4, O3, O2 by auto; auto).
      assert (Wq4 : wf n (m4 q)) by (rewrite Q4; auto).
      destruct (m_update_yields n m4 q (fun x => setBit cfg n x j true) _ (setBit_spec cfg n _ j true Wq4 ltac:(lia)))
        as (m5 & E5 & [W5 V5] & O5). rewrite E5. exists m5. split; auto.
      split; [rewrite O5, O4, O3, O2 by auto; auto|]. split; [rewrite O5 by auto; split; auto|]. split; auto.
      exists (2 * h + 1). rewrite V5, Q4, Eq, put_bit_high by lia.
      replace (U - j) with (U - (j + 1) + 1) by lia.
      rewrite (Z.pow_add_r 2 j 1), (Z.pow_add_r 2 (U - (j + 1)) 1) by lia. lia.
    + exists m'. split; [exact E|]. split; auto. split; auto. rewrite Eq, Eh, Z.sub_0_r. change (2 ^ 0) with 1. lia.
  - exists (m_copy m0 de nu). split; auto. unfold m_copy. rewrite (mput_ne _ de _ q), mput_eq by auto. rewrite Q0, E0. split; auto. split; auto.
  - destruct (from_one_rep n (m0 q)) as (o & E & P); auto. rewrite Q0. apply len_zeros. lia.
    rewrite E. cbn [bind]. exists (mput m0 q o). split; auto. rewrite mput_eq, mput_ne by auto. rewrite R0. auto.
Qed.

(** The quotient is the divisor's object. *)
Lemma m_divide_quot_is_divisor cfg n m nu de r : 1 <= n -> wf n (m nu) -> wf n (m de) ->
  r <> nu -> r <> de -> nu <> de -> nu <> Tmp 0 -> r <> Tmp 0 -> de <> Tmp 0 ->
  exists m', m_divide cfg n m nu de de r = Ok m' /\
    (if bval (m nu) <=? bval (m de)
     then represents n (m' de) (if bval (m nu) =? bval (m de) then 1 else 0) /\
          represents n (m' r) (if bval (m nu) =? bval (m de) then 0 else bval (m nu))
     else let top := 2 ^ (bitsUsed_of (bval (m nu)) - 1) in
          if bval (m nu) <? top then represents n (m' de) top /\ represents n (m' r) (bval (m nu))
          else represents n (m' de) (top + 1) /\ represents n (m' r) (bval (m nu) - top)).
Proof.
  intros Hn WN WD N1 N2 N3 T1 T2 T3. pose proof (bval_bound n _ WN) as BN. pose proof (bval_bound n _ WD) as BD.
  assert (M1 := one_lt_modulus n Hn).
  assert (nu <> r /\ de <> r /\ de <> nu) as (S1 & S2 & S3) by auto.
  unfold m_divide. rewrite compareTo_same by auto. cbn [bind]. cbv zeta. unfold aeu_zero.
  set (m0 := mput (mput m de (zeros n)) r (zeros n)).
  assert (E0 : m0 nu = m nu) by (subst m0; now rewrite !mput_ne by auto).
  assert (Q0 : m0 de = zeros n) by (subst m0; rewrite mput_ne by auto; apply mput_eq).
  assert (R0 : m0 r = zeros n) by (subst m0; apply mput_eq).
  pose proof (zeros_rep n ltac:(lia)) as ZR. unfold zcmp.
  destruct (Z.gtb_spec (bval (m nu)) (bval (m de))) as [G|G]; [|destruct (Z.ltb_spec (bval (m nu)) (bval (m de))) as [L|L] ];
    destruct (Z.leb_spec (bval (m nu)) (bval (m de))); destruct (Z.eqb_spec (bval (m nu)) (bval (m de))); try lia.
  - rewrite E0. rewrite filledBlocksNumber_value by auto. cbn [bind].
    change ((bit_length (bval (m nu)) + 31) / 32 * blockBitLength) with ((bit_length (bval (m nu)) + 31) / 32 * 32).
    rewrite (Z.mul_comm _ 32). fold (bitsUsed_of (bval (m nu))). set (U := bitsUsed_of (bval (m nu))).
    destruct (bitsUsed_bounds n (bval (m nu)) Hn ltac:(lia)) as [HU1 HU2]. fold U in HU1, HU2.
    set (N := bval (m nu)) in *.
    assert (HUn : 2 ^ U <= modulus n) by (apply Z.pow_le_mono_r; lia).
    assert (HT : 2 ^ U = 2 * 2 ^ (U - 1)).
    { replace U with (U - 1 + 1) at 1 by lia. rewrite Z.pow_add_r by lia. change (2 ^ 1) with 2. lia. }
    assert (HTp : 0 < 2 ^ (U - 1)) by (apply Z.pow_pos_nonneg; lia).
    match goal with |- context [forD U 0 ?B _] =>
      destruct (forD_spec (fun i m' => m' nu = m nu /\ wf n (m' de) /\ wf n (m' r) /\
         bval (m' de) = (if i =? U then 0 else if (i =? 0) && (2 ^ (U - 1) <=? N) then 2 ^ (U - 1) + 1 else 2 ^ (U - 1)) /\
         bval (m' r) = (if (i =? 0) && (2 ^ (U - 1) <=? N) then N - 2 ^ (U - 1) else N / 2 ^ i)) U 0 B m0)
         as (m' & E & Enu & Wde & Wr & Vde & Vr) end.
    + lia.
    + split; auto. rewrite R0, Q0. split; [apply ZR|]. split; [apply ZR|]. rewrite bval_zeros, Z.eqb_refl.
      destruct (Z.eqb_spec U 0); [lia|]. cbn [andb]. rewrite Z.div_small by lia. auto.
    + intros j m1 Hj (Enu & Wde & Wr & Vde & Vr).
      destruct (Z.eqb_spec (j + 1) 0); [lia|]. cbn [andb] in Vde, Vr.
      pose proof (div_pow2_step N j ltac:(lia)) as ES.
      assert (HNj : 0 <= N / 2 ^ j < 2 ^ (U - j)).
      { assert (0 < 2 ^ j) by (apply Z.pow_pos_nonneg; lia). split; [apply Z.div_pos; lia|]. apply Z.div_lt_upper_bound; auto.
        rewrite <- Z.pow_add_r by lia. replace (j + (U - j)) with U by lia. auto. }
      assert (HUj : 2 ^ (U - j) <= 2 ^ U) by (apply Z.pow_le_mono_r; lia).
      assert (Hb : 0 <= Z.b2z (Z.testbit N j) <= 1) by (destruct (Z.testbit N j); cbn; lia).
      destruct (m_update_yields n m1 r (fun r => shl_assign n r 1) _ (shl_assign_correct n _ 1 Wr ltac:(lia)))
        as (m2 & E2 & [W2 V2] & O2). rewrite E2. cbn [bind]. change (2 ^ 1) with 2 in V2.
      rewrite Vr in V2. rewrite Z.mod_small in V2 by lia.
      rewrite (O2 nu), Enu by auto. rewrite getBit_spec by (auto; lia). cbn [bind]. fold N.
      destruct (m_update_yields n m2 r (fun r => setBit cfg n r 0 (Z.testbit N j)) _ (setBit_spec cfg n _ 0 (Z.testbit N j) W2 ltac:(lia)))
        as (m3 & E3 & [W3 V3] & O3). rewrite E3. cbn [bind].
      rewrite V2 in V3. replace (N / 2 ^ (j + 1) * 2) with (2 * (N / 2 ^ (j + 1))) in V3 by lia. rewrite put_bit_low in V3.
      rewrite <- ES in V3.
      assert (De : m3 de = m1 de) by (rewrite O3, O2 by auto; auto). rewrite De.
      rewrite op_ge_same by auto. cbn [bind]. rewrite V3, Vde.
      assert (Wde3 : wf n (m3 de)) by (rewrite De; auto).
      (* whether the subtraction happens *)
      destruct (Z.eqb_spec (j + 1) U) as [Top|Top].
      * (* first iteration: the divisor reads as 0 *)
        destruct (Z.geb_spec (N / 2 ^ j) 0); [|lia].
        destruct (m_sub_yields n m3 r de ltac:(lia) T2 W3 Wde3) as (m4 & E4 & [W4 V4] & O4). rewrite E4. cbn [bind].
        rewrite V3, De, Vde, Z.sub_0_r, Z.mod_small in V4 by lia.
        assert (Q4 : m4 de = m1 de) by (rewrite O4 by auto; auto).
        assert (Wq4 : wf n (m4 de)) by (rewrite Q4; auto).
        destruct (m_update_yields n m4 de (fun x => setBit cfg n x j true) _ (setBit_spec cfg n _ j true Wq4 ltac:(lia)))
          as (m5 & E5 & [W5 V5] & O5). rewrite E5. exists m5. split; auto.
        split; [rewrite O5, O4, O3, O2 by auto; auto|]. split; auto. split; [rewrite O5 by auto; auto|].
        assert (j <> 0) by lia. destruct (Z.eqb_spec j U); [lia|]. destruct (Z.eqb_spec j 0); [lia|]. cbn [andb].
        rewrite V5, Q4, Vde. replace 0 with (2 ^ (j + 1) * 0) at 1 by lia. rewrite put_bit_high by lia.
        split; [replace (U - 1) with j by lia; lia|]. rewrite O5 by auto. auto.
      * assert (HUj1 : 0 < j -> 2 ^ (U - j) <= 2 ^ (U - 1)) by (intros; apply Z.pow_le_mono_r; lia).
        destruct (Z.geb_spec (N / 2 ^ j) (2 ^ (U - 1))) as [GE|LT].
        -- assert (j = 0) by lia. subst j. change (2 ^ 0) with 1 in *. rewrite Z.div_1_r in *.
           destruct (m_sub_yields n m3 r de ltac:(lia) T2 W3 Wde3) as (m4 & E4 & [W4 V4] & O4). rewrite E4. cbn [bind].
           rewrite V3, De, Vde, Z.mod_small in V4 by lia.
           assert (Q4 : m4 de = m1 de) by (rewrite O4 by auto; auto).
           assert (Wq4 : wf n (m4 de)) by (rewrite Q4; auto).
           destruct (m_update_yields n m4 de (fun x => setBit cfg n x 0 true) _ (setBit_spec cfg n _ 0 true Wq4 ltac:(lia)))
             as (m5 & E5 & [W5 V5] & O5). rewrite E5. exists m5. split; auto.
           split; [rewrite O5, O4, O3, O2 by auto; auto|]. split; auto. split; [rewrite O5 by auto; auto|].
           destruct (Z.eqb_spec 0 U); [lia|]. destruct (Z.leb_spec (2 ^ (U - 1)) N); [|lia]. cbn [andb Z.eqb].
           rewrite V5, Q4, Vde. replace (2 ^ (U - 1)) with (2 ^ (0 + 1) * 2 ^ (U - 2)) at 1.
           2:{ rewrite <- Z.pow_add_r by lia. f_equal. lia. }
           rewrite put_bit_high by lia. rewrite <- Z.pow_add_r by lia. replace (0 + 1 + (U - 2)) with (U - 1) by lia.
           split; [reflexivity|]. rewrite O5 by auto. auto.
        -- exists m3. split; auto. split; [rewrite O3, O2 by auto; auto|]. split; auto. split; auto.
           destruct (Z.eqb_spec j U); [lia|]. rewrite De, Vde, V3.
           destruct (Z.eqb_spec j 0) as [->|]; cbn [andb]; auto.
           change (2 ^ 0) with 1 in *. rewrite Z.div_1_r in *. destruct (Z.leb_spec (2 ^ (U - 1)) N); [lia|]. auto.
    + exists m'. split; [exact E|]. destruct (Z.eqb_spec 0 U); [lia|]. cbn [andb Z.eqb] in *.
      change (2 ^ 0) with 1 in *. rewrite Z.div_1_r in *.
      destruct (Z.leb_spec (2 ^ (U - 1)) N); destruct (Z.ltb_spec N (2 ^ (U - 1))); try lia; split; split; auto.
  - exists (m_copy m0 r nu). split; auto. unfold m_copy. rewrite (mput_ne _ r _ de), mput_eq by auto. rewrite Q0, E0. split; auto. split; auto.
  - destruct (from_one_rep n (m0 de)) as (o & E & P); auto. rewrite Q0. apply len_zeros. lia.
    rewrite E. cbn [bind]. exists (mput m0 de o). split; auto. rewrite mput_eq, mput_ne by auto. rewrite R0. auto.
Qed.

(** ** Extended gcd *)
Lemma whileF_sim {S T R Q} (I : S -> T -> Prop) (J : R -> Q -> Prop) (f : S -> outcome (step S R)) (g : T -> outcome (step T Q)) :
  (forall s t, I s t -> osim (fun x y => match x, y with Next a, Next b => I a b | Exit a, Exit b => J a b | _, _ => False end) (f s) (g t)) ->
  forall fuel s t, I s t -> osim J (whileF fuel f s) (whileF fuel g t).
Proof.
  intros H. induction fuel as [|k IH]; intros s t HI; cbn; auto.
  eapply osim_bind. apply H; eauto. intros x y Hxy. destruct x, y; try tauto. now apply IH.
Qed.

Lemma m_gcd_ext_frame cfg fuel n m a b x y : x <> y -> x <> Tmp 0 -> y <> Tmp 0 ->
  osim (fun gm d => fst gm = fst (fst d) /\ snd gm x = snd (fst d) /\ snd gm y = snd d /\
          forall l, l <> x -> l <> y -> l <> Tmp 0 -> snd gm l = m l)
    (m_gcd_ext cfg fuel n m a b x y) (gcd_ext cfg fuel n (m a) (m b)).
Proof.
  intros NE Tx Ty. assert (y <> x) as NE' by auto. unfold m_gcd_ext, gcd_ext.
  eapply osim_bind. apply osim_refl. intros c ? <-.
  eapply osim_bind. apply osim_refl. intros [ [g q] r] ? <-.
  eapply osim_bind. apply osim_refl. intros bx ? <-.
  eapply osim_bind. apply osim_refl. intros by_ ? <-.
  eapply osim_bind. apply osim_refl. intros tx ? <-.
  eapply osim_bind. apply osim_refl. intros ty ? <-. cbv zeta.
  set (I := fun (s : mgcd_st) (t : egcd_st) =>
    mg_gcd s = eg_gcd t /\ mg_q s = eg_q t /\ mg_r s = eg_r t /\ mg_tx s = eg_tx t /\ mg_ty s = eg_ty t /\
    mg_mem s x = eg_x t /\ mg_mem s y = eg_y t /\ forall l, l <> x -> l <> y -> l <> Tmp 0 -> mg_mem s l = m l).
  apply osim_bind with (R := I).
  - apply whileF_sim with (I := I).
    + intros [m1 g1 q1 r1 tx1 ty1] [g2 q2 r2 x2 y2 tx2 ty2] (E1 & E2 & E3 & E4 & E5 & E6 & E7 & O).
      cbn [mg_gcd mg_q mg_r mg_tx mg_ty mg_mem eg_gcd eg_q eg_r eg_tx eg_ty eg_x eg_y] in *. subst g2 q2 r2 tx2 ty2.
      unfold m_egcd_body, egcd_body. cbn [mg_gcd mg_q mg_r mg_tx mg_ty mg_mem eg_gcd eg_q eg_r eg_tx eg_ty eg_x eg_y].
      eapply osim_bind. apply osim_refl. intros z ? <-. destruct z.
      { cbn. unfold I. cbn. tauto. }
      cbv zeta. rewrite E6.
      eapply osim_bind. apply osim_refl. intros p ? <-.
      eapply osim_bind. apply osim_refl. intros x' ? <-.
      rewrite (mput_ne m1 x x' y) by auto. rewrite E7.
      eapply osim_bind. apply osim_refl. intros p2 ? <-.
      eapply osim_bind. apply osim_refl. intros y' ? <-.
      eapply osim_bind. apply osim_refl. intros [q' r'] ? <-.
      cbn. unfold I. cbn. do 5 (split; auto).
      split. rewrite mput_ne by auto. apply mput_eq. split. apply mput_eq.
      intros l N1 N2 N3. rewrite !mput_ne by auto. auto.
    + unfold I. cbn. do 5 (split; auto).
      split. rewrite mput_ne by auto. apply mput_eq. split. apply mput_eq.
      intros l N1 N2 N3. now rewrite !mput_ne by auto.
  - intros s t (E1 & E2 & E3 & E4 & E5 & E6 & E7 & O).
    destruct (negb (cmp_eqb c CGreater)); cbn [osim fst snd]; auto.
    destruct (m_swap_spec (mg_mem s) x y Tx Ty) as (S1 & S2 & S3). rewrite S1, S2. do 3 (split; auto).
    intros. rewrite S3 by auto. auto.
Qed.
