(** * ProgSigned: signed programs, simulation and totality. *)
From Verif Require Import Spec Lib AeuModel AeuArith AeuBits AeuAccess AeuDiv AeuFacts AesiModel AesiArith AesiFacts
  AliasModel AliasFacts AliasSigned AliasDiv ProgSpec ProgModel ProgFacts ProgTotal.
From Coq Require Import ZifyBool.
Open Scope Z_scope.

(** The store holds, in every variable, a well-formed signed number equal to the environment's integer. *)
Definition srelE (n : Z) (m : smem) (e : env) : Prop := forall i, swf n (m (Var i)) /\ sval (m (Var i)) = e i.

Lemma srelE_upd n m m' e d v : srelE n m e -> swf n (m' (Var d)) -> sval (m' (Var d)) = v ->
  (forall k, k <> d -> m' (Var k) = m (Var k)) -> srelE n m' (eput e d v).
Proof.
  intros R H V O i. destruct (Nat.eq_dec i d) as [->|N]; [rewrite eput_eq; auto|]. rewrite eput_ne, O by auto. apply R.
Qed.
Lemma srelE_put n m e d x v : srelE n m e -> swf n x -> sval x = v -> srelE n (sput m (Var d) x) (eput e d v).
Proof.
  intros R H V. apply srelE_upd with m; auto; try (rewrite sput_eq; auto). intros. apply sput_ne. congruence.
Qed.
Lemma srelE_ret n m e d x v : srelE n m e -> syields n x v ->
  exists m', (r <- x ;; Ok (sput m (Var d) r)) = Ok m' /\ srelE n m' (eput e d v).
Proof. intros R (r & -> & W & V). exists (sput m (Var d) r). split; [reflexivity|]. now apply srelE_put. Qed.
Lemma srelE_update n m e d f v : srelE n m e -> syields n (f (m (Var d))) v ->
  exists m', ms_update m (Var d) f = Ok m' /\ srelE n m' (eput e d v).
Proof. intros R H. unfold ms_update. now apply srelE_ret. Qed.

(** What each compound assignment computes from the two operands. *)
Definition s_assign_val (cfg : config) (o : scop) (n : Z) (a b : aesi) : outcome aesi :=
  match o with
  | SOAdd => s_add_assign cfg n a b | SOSub => s_sub_assign cfg n a b | SOMul => s_mul_assign n a b
  | SODiv => s_div_assign cfg n a b | SOMod => s_mod_assign cfg n a b
  end.
Lemma aesi_assign_frame cfg o n m a b : 0 <= n -> (forall k, (k <= 3)%nat -> a <> Tmp k) -> (forall k, (k <= 3)%nat -> b <> Tmp k) ->
  osim (srel m a) (aesi_assign cfg o n m a b) (s_assign_val cfg o n (m a) (m b)).
Proof.
  intros Hn Ha Hb. destruct o; cbn [aesi_assign s_assign_val].
  - apply ms_add_assign_frame; auto.
  - apply ms_sub_assign_frame; auto.
  - apply ms_mul_assign_frame; auto.
  - apply ms_div_assign_frame; auto.
  - apply ms_mod_assign_frame; auto.
Qed.
Lemma s_assign_val_ok cfg o n a b v : 1 <= n -> swf n a -> swf n b -> scop_result o (sval a) (sval b) = Some v ->
  Z.abs v < modulus n -> syields n (s_assign_val cfg o n a b) v.
Proof.
  intros Hn Wa Wb H B. destruct o; cbn [scop_result s_assign_val] in *.
  - injection H as <-. now apply s_add_correct.
  - injection H as <-. now apply s_sub_correct.
  - injection H as <-. now apply s_mul_correct.
  - destruct (Z.eqb_spec (sval b) 0); [discriminate|]. injection H as <-. now apply s_div_correct.
  - destruct (Z.leb_spec (sval b) 0); [discriminate|]. injection H as <-.
    pose proof (s_mod_correct cfg n a b Hn Wa Wb ltac:(lia)) as S. rewrite Z.sgn_pos, Z.mul_1_l in S by lia. exact S.
Qed.

(** [d = a op b] through the local copy. *)
Lemma aesi_binary_frame cfg o n m d a b : 0 <= n ->
  osim (fun m' r => m' (Var d) = r /\ forall k, k <> d -> m' (Var k) = m (Var k))
    (aesi_binary cfg o n m (Var d) (Var a) (Var b)) (s_assign_val cfg o n (m (Var a)) (m (Var b))).
Proof.
  intros Hn. unfold aesi_binary. set (m0 := ms_copy m (Tmp 5) (Var a)).
  pose proof (aesi_assign_frame cfg o n m0 (Tmp 5) (Var b) Hn ltac:(intros k K EK; injection EK; lia) ltac:(intros; discriminate)) as H.
  assert (EA : m0 (Tmp 5%nat) = m (Var a)) by apply sput_eq.
  assert (EV : forall x, m0 (Var x) = m (Var x)) by (intros; apply sput_ne; discriminate).
  rewrite EA, EV in H.
  destruct (aesi_assign cfg o n m0 (Tmp 5) (Var b)) as [m1|], (s_assign_val cfg o n (m (Var a)) (m (Var b))) as [r|];
    cbn in H |- *; try tauto.
  destruct H as [E O]. split.
  - unfold ms_copy. now rewrite sput_eq.
  - intros k K. unfold ms_copy. rewrite sput_ne by congruence. rewrite O by discriminate. apply EV.
Qed.

Lemma sexec_ok cfg n m e i e' : 1 <= n -> srelE n m e -> sspec_instr n e i = Some e' ->
  exists m', sexec cfg n m i = Ok m' /\ srelE n m' e'.
Proof.
  intros Hn R H. pose proof (gfuel_enough n Hn) as GF.
  assert (W : forall k, swf n (m (Var k))) by (intros; apply R).
  assert (V : forall k, sval (m (Var k)) = e k) by (intros; apply R).
  assert (T : forall x k, (k <= 3)%nat -> Var x <> Tmp k) by (intros; discriminate).
  assert (L : forall t v, lit_ok t v = true -> ity_ok t = true /\ in_ity t v = true /\ (v <> ity_min t \/ v = 0)).
  { intros t v HL. unfold lit_ok in HL. repeat (apply andb_prop in HL; destruct HL as [HL ?]). lia. }
  destruct i; cbn [sspec_instr sexec] in *.
  - injection H as <-. eexists. split; [reflexivity|]. apply srelE_put; auto.
  - destruct (lit_ok t v && _) eqn:G; [|discriminate]. destruct (Z.abs v <? modulus n) eqn:B; [|discriminate]. injection H as <-.
    apply andb_prop in G. destruct G as [G Hw]. destruct (L _ _ G) as (L1 & L2 & L3).
    apply srelE_update; auto. unfold s_assign_int.
    destruct (s_from_int_correct n t v Hn L1 L2) as (r & E & C & Vr).
    + lia.
    + intros HS HT Ev. destruct L3 as [?|Z0]; [auto|]. rewrite Z0 in Ev.
      unfold ity_min in Ev. rewrite HS in Ev. assert (0 < 2 ^ (iwidth t - 1)) by (apply Z.pow_pos_nonneg; unfold ity_ok in L1; lia). lia.
    + exists r. split; auto. split; auto. now apply canon_swf.
  - destruct (scop_result o (e d) (e s)) as [v|] eqn:ER; [|discriminate].
    destruct (Z.abs v <? modulus n) eqn:B; [|discriminate]. injection H as <-.
    pose proof (aesi_assign_frame cfg o n m (Var d) (Var s) ltac:(lia) (T d) (T s)) as HF.
    destruct (s_assign_val_ok cfg o n (m (Var d)) (m (Var s)) v Hn (W d) (W s)) as (r & E & Wr & Vr); [now rewrite !V|lia|].
    rewrite E in HF. destruct (aesi_assign cfg o n m (Var d) (Var s)) as [m'|]; cbn in HF; [|tauto].
    destruct HF as [E1 O]. exists m'. split; auto. apply srelE_upd with m; auto; try (now rewrite E1).
    intros. apply O; try congruence; try discriminate.
  - destruct (scop_result o (e a) (e b)) as [v|] eqn:ER; [|discriminate].
    destruct (Z.abs v <? modulus n) eqn:B; [|discriminate]. injection H as <-.
    pose proof (aesi_binary_frame cfg o n m d a b ltac:(lia)) as HF.
    destruct (s_assign_val_ok cfg o n (m (Var a)) (m (Var b)) v Hn (W a) (W b)) as (r & E & Wr & Vr); [now rewrite !V|lia|].
    rewrite E in HF. destruct (aesi_binary cfg o n m (Var d) (Var a) (Var b)) as [m'|]; cbn in HF; [|tauto].
    destruct HF as [E1 O]. exists m'. split; auto. apply srelE_upd with m; auto; now rewrite E1.
  - destruct (Z.abs (e d + 1) <? modulus n) eqn:B; [|discriminate]. injection H as <-. apply srelE_update; auto.
    rewrite <- V in *. apply s_inc_correct; auto. lia.
  - destruct (Z.abs (e d - 1) <? modulus n) eqn:B; [|discriminate]. injection H as <-. apply srelE_update; auto.
    rewrite <- V in *. apply s_dec_correct; auto. lia.
  - injection H as <-. apply srelE_ret; auto. exists (s_inverse (m (Var s))). split; [reflexivity|].
    split; [apply s_inverse_swf; auto|]. now rewrite s_inverse_val, V.
  - injection H as <-. eexists. split; [reflexivity|]. unfold ms_inverse, sput_sign.
    apply srelE_put; auto; [exact (s_inverse_swf n (m (Var d)) (W d))|]. rewrite <- V. exact (s_inverse_val (m (Var d))).
  - destruct (lit_ok t v && _) eqn:G; [|discriminate]. destruct (Z.abs (e d * v) <? modulus n) eqn:B; [|discriminate]. injection H as <-.
    apply andb_prop in G. destruct G as [G Hw]. destruct (L _ _ G) as (L1 & L2 & L3).
    apply srelE_update; auto. rewrite <- V in *.
    assert (P31 : 2 ^ (iwidth t - 1) <= 2 ^ 31 /\ 2 ^ iwidth t <= 2 ^ 32 /\ 0 < 2 ^ (iwidth t - 1)).
    { unfold ity_ok in L1. split; [apply Z.pow_le_mono_r; lia|]. split; [apply Z.pow_le_mono_r; lia|]. apply Z.pow_pos_nonneg; lia. }
    apply s_mul_int_correct; auto.
    + intros HS Ev. destruct L3 as [?|Z0]; [auto|]. unfold ity_min in Ev. rewrite HS in Ev. lia.
    + right. unfold in_ity, ity_min, ity_max in L2. destruct (isigned t); lia.
    + lia.
  - destruct (lit_ok t v && _ && _) eqn:G; [|discriminate]. destruct (Z.abs (Z.quot (e d) v) <? modulus n) eqn:B; [|discriminate]. injection H as <-.
    apply andb_prop in G. destruct G as [G Hw]. apply andb_prop in G. destruct G as [G G0]. destruct (L _ _ G) as (L1 & L2 & L3).
    apply srelE_update; auto. rewrite <- V in *. apply s_div_int_correct; auto; try lia.
  - injection H as <-. eexists. split; [reflexivity|].
    destruct (ms_swap_spec m (Var a) (Var b) (T a) (T b)) as (A & B & C).
    intros k. unfold eput. destruct (Nat.eqb_spec k b) as [->|]; [rewrite B; apply R|].
    destruct (Nat.eqb_spec k a) as [->|]; [rewrite A; apply R|]. rewrite C by (discriminate || congruence). apply R.
  - match type of H with (if ?g then _ else _) = _ => destruct g eqn:G; [|discriminate] end. injection H as <-.
    assert (sval (m (Var de)) <> 0) as D by (rewrite V; lia).
    assert (forall i j, negb (i =? j)%nat = true -> Var i <> Var j) as NN
      by (intros i j Hij [= ->]; rewrite Nat.eqb_refl in Hij; discriminate).
    repeat (apply andb_prop in G; destruct G as [G ?]).
    pose proof (ms_divide_distinct cfg n m (Var nu) (Var de) (Var q) (Var r) ltac:(lia) ltac:(auto) ltac:(auto) ltac:(auto) ltac:(auto)
      ltac:(auto) (T nu) (T de) (T q) (T r)) as HS.
    destruct (s_divide_correct cfg n _ _ (m (Var q)) (m (Var r)) Hn (W nu) (W de) (proj1 (W q)) (proj1 (W r)) D) as (x & y & E & Wx & Wy & X & Y).
    rewrite E in HS.
    destruct (ms_divide cfg n m (Var nu) (Var de) (Var q) (Var r)) as [m'|]; cbn in HS; [|tauto].
    destruct HS as (E1 & E2 & O).
    exists m'. split; [reflexivity|]. rewrite !V in X, Y.
    apply srelE_upd with (sput m (Var q) x).
    + apply srelE_put; auto.
    + now rewrite E2.
    + now rewrite E2.
    + intros k K. destruct (Nat.eq_dec k q) as [->|N]; [rewrite E1, sput_eq; auto|]. rewrite sput_ne by congruence.
      apply O; congruence.
  - injection H as <-. apply srelE_ret; auto.
    destruct (s_squareRoot_correct cfg n (gfuel n) (m (Var a)) Hn (W a) ltac:(lia)) as (r & E & C & Vr). exists r. split; auto.
    split; [now apply canon_swf|]. rewrite Vr, V. destruct (e a >? 0) eqn:Q; auto.
    destruct (Z.eq_dec (e a) 0) as [->|]; [reflexivity|]. symmetry. apply Z.sqrt_neg. lia.
  - destruct ((0 <=? k) && (k <? 32 * n)) eqn:G; [|discriminate]. injection H as <-. apply srelE_ret; auto.
    unfold s_power2. pose proof (setBit_spec cfg n (zeros n) k true (wf_zeros n ltac:(lia)) ltac:(lia)) as S. rewrite bval_zeros in S.
    unfold put_bit in S. rewrite Z.setbit_spec' in S. rewrite Z.lor_0_l in S. destruct S as (b & E & Wb & Vb).
    unfold power2, aeu_zero. rewrite E. cbn [bind].
    destruct (s_fix_zero_spec n (mk_aesi SPos b) Wb) as (r & Er & Sr & Vr & _). exists r. split; auto. split; auto. rewrite Vr. exact Vb.
Qed.

Lemma stest_ok cfg n m e c b : 1 <= n -> srelE n m e -> sspec_cond n e c = Some b -> stest cfg n m c = Ok b.
Proof.
  intros Hn R H.
  assert (W : forall k, swf n (m (Var k))) by (intros; apply R).
  assert (V : forall k, sval (m (Var k)) = e k) by (intros; apply R).
  assert (AB : forall k, Z.abs (sval (m (Var k))) < modulus n).
  { intros k. destruct (W k) as [Wk _]. pose proof (bval_bound n _ Wk). unfold sval. destruct (sgn (m (Var k))); lia. }
  assert (K : forall x y, s_compareTo_x cfg n n (m (Var x)) (m (Var y)) = Ok (zcmp (e x) (e y)) /\ s_eq cfg n n (m (Var x)) (m (Var y)) = Ok (e x =? e y)).
  { intros x y. rewrite <- !V. apply s_compareTo_x_correct; auto. }
  assert (S0 : forall k, (s_isZero (m (Var k)) = (e k =? 0)) /\ (s_isPositive (m (Var k)) = (0 <? e k)) /\ (s_isNegative (m (Var k)) = (e k <? 0))).
  { intros k. rewrite <- V. destruct (W k) as [Wk Nk]. pose proof (bval_bound n _ Wk). unfold s_isZero, s_isPositive, s_isNegative, sval.
    destruct (sgn (m (Var k))) eqn:S; cbn [sign_eqb]; [lia| |]; specialize (Nk ltac:(discriminate)); lia. }
  destruct c; cbn [sspec_cond stest] in *; injection H as <-;
    try (destruct (K a b0) as [K1 K2]; unfold s_ne, s_lt, s_le, s_gt, s_ge, s_spaceship; rewrite ?K1, ?K2; cbn [bind]; try reflexivity;
         f_equal; destruct (zcmp_cases (e a) (e b0)) as [ [-> C]|[ [-> C]|[-> C] ] ]; cbn [to_ordering]; lia);
    f_equal; apply S0.
Qed.

(** ** Totality: no signed operation faults on well-formed magnitudes, overflowing or not. *)
Definition stot (n : Z) (x : outcome aesi) : Prop := exists r, x = Ok r /\ wf n (mag r).
Definition all_swf (n : Z) (m : smem) : Prop := forall i, wf n (mag (m (Var i))).

Lemma stot_mk n x (f : list Z -> aesi) : tot n x -> (forall r, mag (f r) = r) -> stot n (r <- x ;; Ok (f r)).
Proof. intros (r & -> & W) H. exists (f r). split; [reflexivity|]. now rewrite H. Qed.
Lemma fix_zero_tot n a : wf n (mag a) -> stot n (s_fix_zero n a).
Proof. intros W. unfold s_fix_zero. rewrite isZero_spec by auto. cbn [bind]. eexists. split; [reflexivity|]. destruct (_ =? 0); auto. Qed.

Lemma s_assign_val_tot cfg o n a b : 1 <= n -> wf n (mag a) -> wf n (mag b) -> stot n (s_assign_val cfg o n a b).
Proof.
  intros Hn Wa Wb.
  assert (AD : tot n (add_assign n (mag a) (mag b))) by (eapply yields_tot, add_assign_correct; auto).
  assert (SB : tot n (sub_assign n (mag a) (mag b))) by (eapply yields_tot, sub_assign_correct; auto).
  assert (RS : tot n (op_sub n (mag b) (mag a))) by (eapply yields_tot, sub_assign_correct; auto).
  assert (CM : forall (f : comparison_t -> outcome aesi), (forall c, stot n (f c)) -> stot n (c <- compareTo cfg n n (mag a) (mag b) ;; f c)).
  { intros f Hf. rewrite compareTo_same by auto. apply Hf. }
  assert (OK : forall r, wf n (mag r) -> stot n (Ok r)) by (intros r Wr; exists r; auto).
  destruct o; cbn [s_assign_val].
  - unfold s_add_assign. destruct (sgn b) eqn:Sb; [auto|..]; (destruct (sgn a) eqn:Sa; [auto|..]); cbn [sign_eqb];
      try (apply stot_mk; auto; fail); apply CM; intros []; try (apply stot_mk; auto; fail); auto.
  - unfold s_sub_assign. destruct (sgn b) eqn:Sb; [auto|..]; (destruct (sgn a) eqn:Sa; [auto|..]);
      try (apply stot_mk; auto; fail); apply CM; intros []; try (apply stot_mk; auto; fail); auto.
  - unfold s_mul_assign. destruct (s_isZero b); [auto|]. cbv zeta.
    apply stot_mk; [|auto]. eapply yields_tot, mul_assign_correct; auto. destruct (s_isNegative b); auto.
  - unfold s_div_assign. destruct (s_isZero b); [auto|]. cbv zeta. unfold div_assign, op_div.
    destruct (div_tot cfg n (mag (if s_isNegative b then s_inverse a else a)) (mag b) Hn) as (q & r & E & Wq & Wr); auto.
    { destruct (s_isNegative b); auto. }
    rewrite E. cbn [bind]. apply fix_zero_tot. auto.
  - unfold s_mod_assign. destruct (s_isZero b); [auto|]. cbv zeta. unfold mod_assign, op_mod.
    destruct (div_tot cfg n (mag (if s_isNegative b then s_inverse a else a)) (mag b) Hn) as (q & r & E & Wq & Wr); auto.
    { destruct (s_isNegative b); auto. }
    rewrite E. cbn [bind]. apply fix_zero_tot. auto.
Qed.
Lemma s_inc_tot n a : 1 <= n -> wf n (mag a) -> stot n (s_inc n a).
Proof.
  intros Hn W. unfold s_inc. destruct (sgn a).
  - destruct (one_spec n Hn) as (o & -> & Wo & _). cbn [bind]. eexists. split; [reflexivity|auto].
  - destruct (op_inc_correct n _ W) as (r & -> & Wr & _). cbn [bind]. eexists. split; [reflexivity|auto].
  - destruct (op_dec_correct n _ W) as (r & -> & Wr & _). cbn [bind]. rewrite isZero_spec by auto. cbn [bind]. eexists. split; [reflexivity|auto].
Qed.
Lemma s_dec_tot n a : 1 <= n -> wf n (mag a) -> stot n (s_dec n a).
Proof.
  intros Hn W. unfold s_dec. destruct (sgn a).
  - destruct (one_spec n Hn) as (o & -> & Wo & _). cbn [bind]. eexists. split; [reflexivity|auto].
  - destruct (op_dec_correct n _ W) as (r & -> & Wr & _). cbn [bind]. rewrite isZero_spec by auto. cbn [bind]. eexists. split; [reflexivity|auto].
  - destruct (op_inc_correct n _ W) as (r & -> & Wr & _). cbn [bind]. eexists. split; [reflexivity|auto].
Qed.

Lemma allswf_upd n m m' d : all_swf n m -> wf n (mag (m' (Var d))) -> (forall k, k <> d -> m' (Var k) = m (Var k)) -> all_swf n m'.
Proof. intros A W O k. destruct (Nat.eq_dec k d) as [->|N]; auto. rewrite O by auto. apply A. Qed.
Lemma allswf_put n m d x : all_swf n m -> wf n (mag x) -> all_swf n (sput m (Var d) x).
Proof. intros A W. apply allswf_upd with m d; auto. now rewrite sput_eq. intros. apply sput_ne. congruence. Qed.
Lemma allswf_ret n m d x : all_swf n m -> stot n x -> exists m', (r <- x ;; Ok (sput m (Var d) r)) = Ok m' /\ all_swf n m'.
Proof. intros A (r & -> & W). eexists. split; [reflexivity|]. now apply allswf_put. Qed.
Lemma allswf_update n m d f : all_swf n m -> stot n (f (m (Var d))) -> exists m', ms_update m (Var d) f = Ok m' /\ all_swf n m'.
Proof. intros A W. unfold ms_update. now apply allswf_ret. Qed.
Lemma allswf_sign n m d s : all_swf n m -> all_swf n (sput_sign m (Var d) s).
Proof. intros A. apply allswf_put; auto. apply A. Qed.
Lemma ms_fix_zero_tot n m d : all_swf n m -> exists m', ms_fix_zero n m (Var d) = Ok m' /\ all_swf n m'.
Proof.
  intros A. unfold ms_fix_zero. rewrite (isZero_spec n) by apply A. cbn [bind]. eexists. split; [reflexivity|].
  destruct (_ =? 0); auto. now apply allswf_sign.
Qed.

Lemma ms_divide_tot cfg n m nu de q r : 1 <= n -> all_swf n m ->
  exists m', ms_divide cfg n m (Var nu) (Var de) (Var q) (Var r) = Ok m' /\ all_swf n m'.
Proof.
  intros Hn A. unfold ms_divide. destruct (_ || _).
  { eexists. split; [reflexivity|]. now do 2 apply allswf_sign. }
  unfold on_bases. destruct (m_divide_tot cfg n (bases m) nu de q r Hn A) as (b & -> & Ab). cbn [bind].
  set (m1 := put_bases m b). assert (A1 : all_swf n m1) by exact Ab.
  match goal with |- context [ms_fix_zero n ?x (Var q)] => assert (A2 : all_swf n x) end.
  { do 2 destruct (sign_eqb _ SPos); now do 2 apply allswf_sign. }
  match goal with |- context [ms_fix_zero n ?x (Var q)] => destruct (ms_fix_zero_tot n x q A2) as (m3 & E3 & A3) end.
  rewrite E3. cbn [bind]. apply ms_fix_zero_tot; auto.
Qed.

Lemma ineg_ok t v : (isigned t = true -> 32 <= iwidth t -> v <> ity_min t) -> exists w, ineg t v = Ok w.
Proof.
  intros H. unfold ineg. destruct (isigned t); [|eauto].
  destruct ((32 <=? iwidth t) && (v =? ity_min t)) eqn:E; [|eauto]. exfalso. apply H; auto; lia.
Qed.
Lemma s_from_int_tot n t v : 1 <= n -> (isigned t = true -> 32 <= iwidth t -> v <> ity_min t) -> stot n (s_from_int n t v).
Proof.
  intros Hn H. unfold s_from_int. assert (LZ : len (zeros n) = n) by (apply len_zeros; lia).
  assert (U : forall x, 0 <= u64 x < 2 ^ 64) by (intros; apply Z.mod_pos_bound; lia).
  destruct (v <? 0); [|destruct (v >? 0)].
  - destruct (ineg_ok t v H) as (w & ->). cbn [bind].
    destruct (from_unsigned_correct n (zeros n) (u64 w) ltac:(lia) LZ (U _)) as (r & -> & Wr & _). cbn [bind]. eexists. split; [reflexivity|auto].
  - destruct (from_unsigned_correct n (zeros n) (u64 v) ltac:(lia) LZ (U _)) as (r & -> & Wr & _). cbn [bind]. eexists. split; [reflexivity|auto].
  - eexists. split; [reflexivity|]. apply wf_zeros; lia.
Qed.
Lemma strip_tot t a k : (isigned t = true -> 32 <= iwidth t -> k <> ity_min t) ->
  exists a' k', s_strip_sign t a k = Ok (a', k') /\ mag a' = mag a.
Proof.
  intros H. unfold s_strip_sign. destruct (k <? 0); [|eauto]. destruct (ineg_ok t k H) as (w & ->). cbn [bind]. eauto.
Qed.
Lemma s_mul_int_tot cfg n t a k : wf n (mag a) -> (isigned t = true -> 32 <= iwidth t -> k <> ity_min t) -> stot n (s_mul_assign_int cfg n t a k).
Proof.
  intros W H. unfold s_mul_assign_int. destruct (k =? 0). { eexists. split; [reflexivity|auto]. }
  destruct (strip_tot t a k H) as (a' & k' & -> & M). cbn [bind]. apply stot_mk; auto. rewrite M. apply mul_assign_u_tot; auto.
  replace (uwidth (ull_ty cfg)) with 64 by (unfold ull_ty; destruct (cfg_ull_distinct cfg); reflexivity). apply Z.mod_pos_bound; lia.
Qed.
Lemma s_div_int_tot cfg n t a k : 1 <= n -> wf n (mag a) -> (isigned t = true -> 32 <= iwidth t -> k <> ity_min t) -> stot n (s_div_assign_int cfg n t a k).
Proof.
  intros Hn W H. unfold s_div_assign_int. destruct (k =? 0). { eexists. split; [reflexivity|auto]. }
  destruct (strip_tot t a k H) as (a' & k' & -> & M). cbn [bind].
  destruct (from_unsigned_correct n (zeros n) (u64 k') ltac:(lia) (len_zeros n ltac:(lia)) ltac:(apply Z.mod_pos_bound; lia)) as (d & -> & Wd & _). cbn [bind].
  unfold div_assign, op_div. rewrite M. destruct (div_tot cfg n (mag a) d Hn W Wd) as (q & r & -> & Wq & Wr). cbn [bind].
  apply fix_zero_tot. auto.
Qed.

(** Operands a C++ caller can pass without overflow in the conversion itself. *)
Definition sinstr_typed (i : sinstr) : Prop :=
  match i with
  | SLit _ t v | SMulLit _ t v | SDivLit _ t v => in_ity t v = true /\ (isigned t = true -> 32 <= iwidth t -> v <> ity_min t)
  | SPow2 _ k => 0 <= k
  | _ => True
  end.
Lemma sexec_tot cfg n m i : 1 <= n -> cfg_unsafe cfg = false -> sinstr_typed i -> all_swf n m ->
  exists m', sexec cfg n m i = Ok m' /\ all_swf n m'.
Proof.
  intros Hn U T A. pose proof (gfuel_enough n Hn) as GF.
  assert (V : forall x k, (k <= 3)%nat -> Var x <> Tmp k) by (intros; discriminate).
  destruct i; cbn [sexec sinstr_typed] in *.
  - eexists. split; [reflexivity|]. apply allswf_put; auto.
  - apply allswf_update; auto. apply s_from_int_tot; tauto.
  - pose proof (aesi_assign_frame cfg o n m (Var d) (Var s) ltac:(lia) (V d) (V s)) as HF.
    destruct (s_assign_val_tot cfg o n (m (Var d)) (m (Var s)) Hn (A d) (A s)) as (r & E & W). rewrite E in HF.
    destruct (aesi_assign cfg o n m (Var d) (Var s)) as [m'|]; cbn in HF; [|tauto]. destruct HF as [E1 O].
    exists m'. split; auto. apply allswf_upd with m d; auto; [now rewrite E1|]. intros. apply O; try congruence; discriminate.
  - pose proof (aesi_binary_frame cfg o n m d a b ltac:(lia)) as HF.
    destruct (s_assign_val_tot cfg o n (m (Var a)) (m (Var b)) Hn (A a) (A b)) as (r & E & W). rewrite E in HF.
    destruct (aesi_binary cfg o n m (Var d) (Var a) (Var b)) as [m'|]; cbn in HF; [|tauto]. destruct HF as [E1 O].
    exists m'. split; auto. apply allswf_upd with m d; auto. now rewrite E1.
  - apply allswf_update; auto. apply s_inc_tot; auto.
  - apply allswf_update; auto. apply s_dec_tot; auto.
  - apply allswf_ret; auto. exists (s_inverse (m (Var s))). split; [reflexivity|]. apply A.
  - eexists. split; [reflexivity|]. now apply allswf_sign.
  - apply allswf_update; auto. apply s_mul_int_tot; [apply A|tauto].
  - apply allswf_update; auto. apply s_div_int_tot; [lia|apply A|tauto].
  - eexists. split; [reflexivity|]. destruct (ms_swap_spec m (Var a) (Var b) (V a) (V b)) as (X & Y & Z').
    intros k. destruct (Nat.eq_dec k a) as [->|]; [rewrite X; apply A|]. destruct (Nat.eq_dec k b) as [->|]; [rewrite Y; apply A|].
    rewrite Z' by (discriminate || congruence). apply A.
  - apply ms_divide_tot; auto.
  - apply allswf_ret; auto. unfold s_squareRoot.
    destruct (sgn (m (Var a))); try (apply s_from_int_tot; [auto|discriminate]).
    apply stot_mk; auto. eapply yields_tot, squareRoot_correct; auto; lia.
  - apply allswf_ret; auto. unfold s_power2. destruct (power2_total cfg n k U ltac:(lia) T) as (b & -> & Wb & _). cbn [bind].
    now apply fix_zero_tot.
Qed.
Lemma stest_tot cfg n m c : 1 <= n -> all_swf n m -> exists b, stest cfg n m c = Ok b.
Proof.
  intros Hn A.
  assert (K : forall x y, exists c, s_compareTo cfg n (m (Var x)) (m (Var y)) = Ok c).
  { intros x y. unfold s_compareTo. rewrite (compareTo_same cfg n) by apply A. cbn [bind].
    destruct (s_isZero (m (Var y))), (s_isNegative (m (Var y))), (sign_eqb (sgn (m (Var x))) SNeg), (sign_eqb (sgn (m (Var x))) SPos); eauto. }
  destruct c; cbn [stest]; try (destruct (K a b) as (c & E));
    unfold s_ne, s_lt, s_le, s_gt, s_ge, s_spaceship, s_compareTo_x, s_eq; rewrite ?Z.eqb_refl, ?E; cbn [bind]; eauto.
Qed.
