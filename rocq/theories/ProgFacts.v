(** * ProgFacts: simulation of the specification of programs by their execution on the store. *)
From Verif Require Import Spec Lib AeuModel AeuArith AeuBits AeuAccess AeuDiv AeuFacts AesiModel AesiArith AesiFacts
  AliasModel AliasFacts AliasSigned AliasDiv ProgSpec ProgModel.
From Coq Require Import ZifyBool.
Open Scope Z_scope.

(** The store holds, in every variable, an N-bit number equal to the environment's integer. *)
Definition urel (n : Z) (m : mem) (e : env) : Prop := forall i, represents n (m (Var i)) (e i).

Lemma eput_eq e d v : eput e d v d = v.
Proof. unfold eput. now rewrite Nat.eqb_refl. Qed.
Lemma eput_ne e d v i : i <> d -> eput e d v i = e i.
Proof. unfold eput. intros H. destruct (Nat.eqb_spec i d); congruence. Qed.

Lemma urel_upd n m m' e d v : urel n m e -> represents n (m' (Var d)) v -> (forall k, k <> d -> m' (Var k) = m (Var k)) ->
  urel n m' (eput e d v).
Proof.
  intros R H O i. destruct (Nat.eq_dec i d) as [->|N]; [rewrite eput_eq; auto|]. rewrite eput_ne, O by auto. apply R.
Qed.
Lemma urel_put n m e d x v : urel n m e -> represents n x v -> urel n (mput m (Var d) x) (eput e d v).
Proof.
  intros R H. apply urel_upd with m; auto. rewrite mput_eq; auto. intros. apply mput_ne. congruence.
Qed.
Lemma urel_ret n m e d x v : urel n m e -> yields n x v ->
  exists m', (r <- x ;; Ok (mput m (Var d) r)) = Ok m' /\ urel n m' (eput e d v).
Proof. intros R (r & -> & P). exists (mput m (Var d) r). split; [reflexivity|]. now apply urel_put. Qed.
Lemma urel_update n m e d f v : urel n m e -> yields n (f (m (Var d))) v ->
  exists m', m_update m (Var d) f = Ok m' /\ urel n m' (eput e d v).
Proof. intros R H. unfold m_update. now apply urel_ret. Qed.

(** Compound assignment to any location but [Tmp 0]. *)
Lemma aeu_assign_loc cfg o n m a b : 1 <= n -> a <> Tmp 0 -> (forall k, b <> Tmp k) -> wf n (m a) -> wf n (m b) ->
  (o = ODiv \/ o = OMod -> bval (m b) <> 0 /\ forall k, a <> Tmp k) ->
  exists m', aeu_assign cfg o n m a b = Ok m' /\ represents n (m' a) (cop_value o n (bval (m a)) (bval (m b))) /\
    forall l, l <> a -> l <> Tmp 0 -> m' l = m l.
Proof.
  intros Hn A0 B0 Wa Wb H.
  assert (K : forall x y z, osim (fun m' (d : list Z) => m' a = d /\ forall l, l <> a -> l <> Tmp 0 -> m' l = m l) x y -> yields n y z ->
     exists m', x = Ok m' /\ represents n (m' a) z /\ forall l, l <> a -> l <> Tmp 0 -> m' l = m l).
  { intros x y z HS HY. destruct (osim_yields HS HY) as (m' & d & E & [E1 O] & P). subst d. eauto. }
  assert (F : forall x y, osim (fun m' (d : list Z) => m' a = d /\ forall l, l <> a -> m' l = m l) x y ->
    osim (fun m' d => m' a = d /\ forall l, l <> a -> l <> Tmp 0 -> m' l = m l) x y).
  { intros x y HS. eapply osim_mono. exact HS. intros ? ? [? O]. auto. }
  destruct o; cbn [aeu_assign cop_value].
  - eapply K. apply F, m_add_assign_frame. lia. now apply add_assign_correct.
  - eapply K. apply m_sub_assign_frame; auto. lia. now apply sub_assign_correct.
  - eapply K. apply F, m_mul_assign_frame. now apply mul_assign_correct.
  - destruct (H (or_introl eq_refl)) as [D T]. eapply K. apply F, m_div_assign_frame; auto. lia.
    unfold div_assign, op_div. destruct (divide_pos cfg n _ _ Hn Wa Wb D) as (q & r & E & Q & R). rewrite E. exists q. auto.
  - destruct (H (or_intror eq_refl)) as [D T]. eapply K. apply F, m_mod_assign_frame; auto. lia.
    unfold mod_assign, op_mod. destruct (divide_pos cfg n _ _ Hn Wa Wb D) as (q & r & E & Q & R). rewrite E. exists r. auto.
  - eapply K. apply F, m_bitwise_assign_frame. lia. now apply xor_correct.
  - eapply K. apply F, m_bitwise_assign_frame. lia. now apply and_correct.
  - eapply K. apply F, m_bitwise_assign_frame. lia. now apply or_correct.
Qed.

Lemma aeu_binary_ok cfg o n m d a b : 1 <= n -> wf n (m (Var a)) -> wf n (m (Var b)) ->
  (o = ODiv \/ o = OMod -> bval (m (Var b)) <> 0) ->
  exists m', aeu_binary cfg o n m (Var d) (Var a) (Var b) = Ok m' /\
    represents n (m' (Var d)) (cop_value o n (bval (m (Var a))) (bval (m (Var b)))) /\
    forall k, k <> d -> m' (Var k) = m (Var k).
Proof.
  intros Hn Wa Wb H.
  assert (T : forall x k, Var x <> Tmp k) by discriminate.
  assert (NE : forall x y, x <> y -> Var x <> Var y) by congruence.
  assert (G : o <> ODiv -> o <> OMod -> exists m',
     (m1 <- aeu_assign cfg o n (m_copy m (Tmp 5) (Var a)) (Tmp 5) (Var b) ;; Ok (m_copy m1 (Var d) (Tmp 5))) = Ok m' /\
     represents n (m' (Var d)) (cop_value o n (bval (m (Var a))) (bval (m (Var b)))) /\
     forall k, k <> d -> m' (Var k) = m (Var k)).
  { intros N1 N2. set (m0 := m_copy m (Tmp 5) (Var a)).
    assert (EA : m0 (Tmp 5%nat) = m (Var a)) by apply mput_eq.
    assert (EV : forall x, m0 (Var x) = m (Var x)) by (intros; apply mput_ne; auto).
    assert (WA : wf n (m0 (Tmp 5%nat))) by (rewrite EA; exact Wa).
    assert (WB : wf n (m0 (Var b))) by (rewrite EV; exact Wb).
    destruct (aeu_assign_loc cfg o n m0 (Tmp 5) (Var b) Hn ltac:(discriminate) (T b) WA WB) as (m1 & E1 & R1 & O1).
    { intros [?|?]; congruence. }
    exists (m_copy m1 (Var d) (Tmp 5)). split.
    { change (@bind mem mem (aeu_assign cfg o n m0 (Tmp 5) (Var b)) (fun m2 => Ok (m_copy m2 (Var d) (Tmp 5))) = Ok (m_copy m1 (Var d) (Tmp 5))).
      rewrite E1. reflexivity. }
    split.
    - unfold m_copy. rewrite mput_eq. rewrite EA, EV in R1. exact R1.
    - intros k Hk. unfold m_copy. rewrite mput_ne by auto. rewrite O1 by (auto || discriminate). apply EV. }
  destruct o; cbn [aeu_binary]; try (apply G; discriminate).
  - rewrite m_op_div_eq by (auto || lia). unfold op_div.
    destruct (divide_pos cfg n _ _ Hn Wa Wb (H (or_introl eq_refl))) as (q & r & E & Q & R). rewrite E. cbn [bind].
    exists (mput m (Var d) q). split; [reflexivity|]. rewrite mput_eq. split; auto. intros. apply mput_ne; auto.
  - rewrite m_op_mod_eq by (auto || lia). unfold op_mod.
    destruct (divide_pos cfg n _ _ Hn Wa Wb (H (or_intror eq_refl))) as (q & r & E & Q & R). rewrite E. cbn [bind].
    exists (mput m (Var d) r). split; [reflexivity|]. rewrite mput_eq. split; auto. intros. apply mput_ne; auto.
Qed.

Lemma guard_some (b : bool) e d v e' : (if b then Some (eput e d v) else None) = Some e' -> b = true /\ e' = eput e d v.
Proof. destruct b; intros [= <-]; auto. Qed.

Lemma gfuel_enough n : 1 <= n -> 64 * n + 2 <= Z.of_nat (gfuel n).
Proof. unfold gfuel. lia. Qed.

Lemma uexec_ok cfg n m e i e' : 1 <= n -> urel n m e -> uspec_instr n e i = Some e' ->
  exists m', uexec cfg n m i = Ok m' /\ urel n m' e'.
Proof.
  intros Hn R H. pose proof (gfuel_enough n Hn) as GF.
  assert (W : forall k, wf n (m (Var k))) by (intros; apply R).
  assert (V : forall k, bval (m (Var k)) = e k) by (intros; apply R).
  assert (T : forall x k, Var x <> Tmp k) by discriminate.
  destruct i; cbn [uspec_instr uexec] in *.
  - injection H as <-. eexists. split; [reflexivity|]. apply urel_put; auto.
  - apply guard_some in H. destruct H as [G ->]. apply urel_ret; auto. apply from_unsigned_correct; try lia. apply len_zeros; lia.
  - apply guard_some in H. destruct H as [G ->].
    destruct (aeu_assign_loc cfg o n m (Var d) (Var s)) as (m' & E & P & O); auto.
    { intros Q. rewrite V. split; auto. destruct Q; subst o; cbn in G; lia. }
    exists m'. split; auto. rewrite !V in P. apply urel_upd with m; auto. intros. apply O; congruence.
  - apply guard_some in H. destruct H as [G ->].
    destruct (aeu_binary_ok cfg o n m d a b) as (m' & E & P & O); auto.
    { intros Q. rewrite V. destruct Q; subst o; cbn in G; lia. }
    exists m'. split; auto. rewrite !V in P. apply urel_upd with m; auto.
  - injection H as <-. apply urel_update; auto. rewrite <- V. now apply op_inc_correct.
  - injection H as <-. apply urel_update; auto. rewrite <- V. now apply op_dec_correct.
  - injection H as <-. apply urel_ret; auto. rewrite <- V. now apply op_neg_correct.
  - injection H as <-. apply urel_ret; auto. rewrite <- V. apply op_not_correct; auto. apply len_zeros; lia.
  - apply guard_some in H. destruct H as [G ->]. apply urel_update; auto. rewrite <- V. apply shl_assign_correct; auto. lia.
  - apply guard_some in H. destruct H as [G ->]. apply urel_update; auto. rewrite <- V. apply shr_assign_correct; auto. lia.
  - apply guard_some in H. destruct H as [G ->]. apply urel_update; auto. rewrite <- V. apply setBit_spec; auto. lia.
  - apply guard_some in H. destruct H as [G ->]. apply urel_update; auto. rewrite <- V. apply add_assign_u_correct; auto; lia.
  - apply guard_some in H. destruct H as [G ->]. apply urel_update; auto. rewrite <- V.
    destruct t; try (apply mul_assign_u_correct; auto; cbn in *; [lia|discriminate]).
    apply mul_assign_u_small; auto. lia.
  - injection H as <-. eexists. split; [reflexivity|].
    destruct (m_swap_spec m (Var a) (Var b)) as (A & B & C); try discriminate.
    intros k. unfold eput. destruct (Nat.eqb_spec k b) as [->|]; [rewrite B; apply R|].
    destruct (Nat.eqb_spec k a) as [->|]; [rewrite A; apply R|]. rewrite C by (discriminate || congruence). apply R.
  - match type of H with (if ?g then _ else _) = _ => destruct g eqn:G; [|discriminate] end. injection H as <-.
    assert (bval (m (Var de)) <> 0) as D by (rewrite V; lia).
    pose proof (m_divide_distinct cfg n m (Var nu) (Var de) (Var q) (Var r) ltac:(lia)) as HS.
    destruct (divide_pos cfg n _ _ Hn (W nu) (W de) D) as (x & y & E & X & Y). rewrite E in HS.
    assert (forall i j, negb (i =? j)%nat = true -> Var i <> Var j) as NN
      by (intros i j Hij [= ->]; rewrite Nat.eqb_refl in Hij; discriminate).
    repeat (apply andb_prop in G; destruct G as [G ?]).
    destruct (m_divide cfg n m (Var nu) (Var de) (Var q) (Var r)) as [m'|]; cbn in HS;
      [|exfalso; apply HS; auto; discriminate].
    destruct HS as (E1 & E2 & O); auto; try discriminate.
    exists m'. split; [reflexivity|]. rewrite !V in X, Y.
    apply urel_upd with (mput m (Var q) x).
    + apply urel_put; auto.
    + rewrite E2. auto.
    + intros k K. destruct (Nat.eq_dec k q) as [->|N]; [rewrite E1, mput_eq; auto|]. rewrite mput_ne by congruence.
      apply O; congruence.
  - injection H as <-. apply urel_ret; auto. rewrite <- !V. apply gcd_correct; auto.
  - injection H as <-. apply urel_ret; auto. rewrite <- !V. apply lcm_correct; auto.
  - injection H as <-. apply urel_ret; auto. rewrite <- !V. apply squareRoot_correct; auto. lia.
  - apply guard_some in H. destruct H as [G ->]. apply urel_ret; auto.
    pose proof (setBit_spec cfg n (zeros n) k true (wf_zeros n ltac:(lia)) ltac:(lia)) as S. rewrite bval_zeros in S.
    unfold power2, aeu_zero. unfold put_bit in S. rewrite Z.setbit_spec' in S. rewrite Z.lor_0_l in S. exact S.
  - apply guard_some in H. destruct H as [G ->]. apply urel_ret; auto. rewrite <- !V in *.
    pose proof (powm_spec cfg n _ _ _ Hn (W b) (W p) (W m0) ltac:(lia) ltac:(lia)) as S.
    destruct (Z.eqb_spec (bval (m (Var p))) 0) as [E0|]; [|exact S]. rewrite E0. rewrite Z.mod_small by lia. exact S.
Qed.

Lemma utest_ok cfg n m e c b : 1 <= n -> urel n m e -> uspec_cond n e c = Some b -> utest cfg n m c = Ok b.
Proof.
  intros Hn R H.
  assert (W : forall k, wf n (m (Var k))) by (intros; apply R).
  assert (V : forall k, bval (m (Var k)) = e k) by (intros; apply R).
  destruct c; cbn [uspec_cond utest] in *;
    try (unfold op_ne; rewrite ?op_eq_cross, ?op_lt_same, ?op_le_same, ?op_gt_same, ?op_ge_same, ?(isOdd_spec n), ?isZero_spec, ?V by auto;
         cbn [bind]; congruence).
  destruct ((0 <=? i) && (i <? 32 * n)) eqn:G; [|discriminate]. rewrite getBit_spec by (auto || lia). rewrite V. congruence.
Qed.

(** Lifting to programs, for any instruction set. *)
Lemma run_ok {M I C} (exec : M -> I -> outcome M) (test : M -> C -> outcome bool) si sc (R : M -> env -> Prop) :
  (forall m e i e', R m e -> si e i = Some e' -> exists m', exec m i = Ok m' /\ R m' e') ->
  (forall m e c b, R m e -> sc e c = Some b -> test m c = Ok b) ->
  forall fuel s m e, R m e ->
  match spec_run si sc fuel s e with
  | RVal e' => exists m', run exec test fuel s m = Ok m' /\ R m' e'
  | RUndef => True
  | RTimeout => run exec test fuel s m = Err OutOfFuel
  end.
Proof.
  intros HI HC. induction fuel as [|f IH]; intros s m e HR; cbn [spec_run run]; [reflexivity|].
  destruct s as [|i|s t|c s t|c s].
  - eauto.
  - destruct (si e i) as [e'|] eqn:E; auto. eauto.
  - pose proof (IH s m e HR) as H. destruct (spec_run si sc f s e) as [e'| |]; auto.
    + destruct H as (m' & -> & R'). cbn [bind]. apply IH; auto.
    + rewrite H. reflexivity.
  - destruct (sc e c) as [b|] eqn:E; auto. rewrite (HC _ _ _ _ HR E). cbn [bind]. apply IH; auto.
  - destruct (sc e c) as [b|] eqn:E; auto. rewrite (HC _ _ _ _ HR E). cbn [bind]. destruct b; [|eauto].
    pose proof (IH s m e HR) as H. destruct (spec_run si sc f s e) as [e'| |]; auto.
    + destruct H as (m' & -> & R'). cbn [bind]. apply IH; auto.
    + rewrite H. reflexivity.
Qed.
