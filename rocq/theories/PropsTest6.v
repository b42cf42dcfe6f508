(** * PropsTest6: the checks of the GMP text, cast and increment tests reject wrong results (C103, C109, C110). *)
From Coq Require Import ZifyBool.
From Coq Require Znumtheory.
From Verif Require Import Spec Lib AeuModel AeuArith AeuBits AeuAccess AeuDiv AeuFacts AeuMore AesiModel AesiArith AesiFacts
  MixModel MixFacts BinModel BinFacts TestModel TestFacts PropsMix PropsTest PropsExact PropsTest2 PropsUse2 PropsAesi
  TextSpec TextModel TextFacts TextMore TextOut PropsText TestModel2 PropsTest3 PropsExact2 PropsAeu.
Open Scope Z_scope.

(** ** C103: the increment and decrement loops pass exactly when every single check passes.
    [k], [post] and [pre] are arbitrary: this is about the test, whatever the number type does. *)
Lemma loop_checks {T} (f : Z -> T * bool -> outcome (T * bool)) (good : Z -> T -> T -> Prop) :
  (forall i v w ok, f i (v, ok) = Ok (w, true) <-> ok = true /\ good i v w) ->
  forall c i v w ok, loopU c i f (v, ok) = Ok (w, true) <->
    ok = true /\ exists vs : Z -> T, vs i = v /\ vs (i + Z.of_nat c) = w /\ forall j, i <= j < i + Z.of_nat c -> good j (vs j) (vs (j + 1)).
Proof.
  intros Hf. induction c as [|c IH]; intros i v w ok.
  - cbn [loopU]. rewrite Z.add_0_r. split.
    + intros [= -> ->]. split; auto. exists (fun _ => w). conjs; auto. intros j Hj. lia.
    + intros (-> & vs & <- & <- & _). reflexivity.
  - cbn [loopU]. split.
    + intros H. destruct (f i (v, ok)) as [[v1 ok1]|] eqn:E; cbn [bind] in H; [|discriminate].
      apply IH in H as (-> & vs & V0 & V1 & G). apply Hf in E as [-> g]. split; auto.
      exists (fun j => if j =? i then v else vs j). rewrite Z.eqb_refl. replace (i + Z.of_nat (S c) =? i) with false by lia.
      conjs; auto; [rewrite <- V1; f_equal; lia|]. intros j Hj. replace (j + 1 =? i) with false by lia. destruct (Z.eqb_spec j i) as [-> |N].
      * rewrite V0. auto.
      * apply G. lia.
    + intros (-> & vs & <- & <- & G). pose proof (G i ltac:(lia)) as g. assert (E : f i (vs i, true) = Ok (vs (i + 1), true)) by (apply Hf; auto).
      rewrite E. cbn [bind]. apply IH. split; auto. exists vs. conjs; auto; [f_equal; lia|]. intros j Hj. apply G. lia.
Qed.
Lemma checked_loop {T} (start : outcome T) (t_eq0 : T -> outcome bool) (f : Z -> T * bool -> outcome (T * bool)) (good : Z -> T -> T -> Prop) m : 0 <= m ->
  (forall i v w ok, f i (v, ok) = Ok (w, true) <-> ok = true /\ good i v w) ->
  (value <- start ;; '(value, ok) <- forU 0 m f (value, true) ;; e <- t_eq0 value ;; Ok (ok && e)) = Ok true <->
  exists vs : Z -> T, start = Ok (vs 0) /\ (forall i, 0 <= i < m -> good i (vs i) (vs (i + 1))) /\ t_eq0 (vs m) = Ok true.
Proof.
  intros Hm Hf. pose proof (loop_checks f good Hf (Z.to_nat (m - 0)) 0) as L. replace (0 + Z.of_nat (Z.to_nat (m - 0))) with m in L by lia. unfold forU. split.
  - intros H. destruct start as [v|] eqn:Es; cbn [bind] in H; [|discriminate]. destruct (loopU _ 0 f (v, true)) as [[w ok]|] eqn:E; cbn [bind] in H; [|discriminate].
    destruct (t_eq0 w) as [e|] eqn:Ee; cbn [bind] in H; [|discriminate]. injection H as H. apply andb_true_iff in H as [-> ->].
    apply L in E as (_ & vs & <- & <- & G). exists vs. auto.
  - intros (vs & -> & G & E). cbn [bind]. assert (Q : loopU (Z.to_nat (m - 0)) 0 f (vs 0, true) = Ok (vs m, true)) by (apply L; split; auto; exists vs; auto).
    rewrite Q. cbn [bind]. rewrite E. reflexivity.
Qed.
Theorem C103_loops_detect : forall T (k : tested T) (post : T -> outcome (T * T)) (pre : T -> outcome T) l m, 0 <= m ->
  (runIncrementLoop k post pre l m = Ok true <->
   exists vs : Z -> T, t_from k l = Ok (vs 0) /\
     (forall i, 0 <= i < m -> exists old mid, post (vs i) = Ok (old, mid) /\ t_eq k old (l + 2 * i) = Ok true /\
        pre mid = Ok (vs (i + 1)) /\ t_eq k (vs (i + 1)) (l + 2 * i + 2) = Ok true) /\
     t_eq k (vs m) (l + m * 2) = Ok true) /\
  (runDecrementLoop k post pre l m = Ok true <->
   exists vs : Z -> T, t_from k l = Ok (vs 0) /\
     (forall i, 0 <= i < m -> exists old mid, post (vs i) = Ok (old, mid) /\ t_eq k old (l - 2 * i) = Ok true /\
        pre mid = Ok (vs (i + 1)) /\ t_eq k (vs (i + 1)) (l - 2 * i - 2) = Ok true) /\
     t_eq k (vs m) (l - m * 2) = Ok true).
Proof.
  intros T k post pre l m Hm. split; unfold runIncrementLoop, runDecrementLoop.
  - apply (checked_loop (t_from k l) (fun v => t_eq k v (l + m * 2))) with (good := fun i v w => exists old mid, post v = Ok (old, mid) /\ t_eq k old (l + 2 * i) = Ok true /\ pre mid = Ok w /\ t_eq k w (l + 2 * i + 2) = Ok true); auto.
    intros i v w ok. split.
    + intros H. destruct (post v) as [[old mid]|] eqn:E1; cbn [bind] in H; [|discriminate]. destruct (t_eq k old _) as [e1|] eqn:E2; cbn [bind] in H; [|discriminate].
      destruct (pre mid) as [w'|] eqn:E3; cbn [bind] in H; [|discriminate]. destruct (t_eq k w' _) as [e2|] eqn:E4; cbn [bind] in H; [|discriminate].
      injection H as -> H. apply andb_true_iff in H as [H ->]. apply andb_true_iff in H as [-> ->]. split; auto. exists old, mid. conjs; auto.
    + intros (-> & old & mid & E1 & E2 & E3 & E4). rewrite E1. cbn [bind]. rewrite E2. cbn [bind]. rewrite E3. cbn [bind]. rewrite E4. reflexivity.
  - apply (checked_loop (t_from k l) (fun v => t_eq k v (l - m * 2))) with (good := fun i v w => exists old mid, post v = Ok (old, mid) /\ t_eq k old (l - 2 * i) = Ok true /\ pre mid = Ok w /\ t_eq k w (l - 2 * i - 2) = Ok true); auto.
    intros i v w ok. split.
    + intros H. destruct (post v) as [[old mid]|] eqn:E1; cbn [bind] in H; [|discriminate]. destruct (t_eq k old _) as [e1|] eqn:E2; cbn [bind] in H; [|discriminate].
      destruct (pre mid) as [w'|] eqn:E3; cbn [bind] in H; [|discriminate]. destruct (t_eq k w' _) as [e2|] eqn:E4; cbn [bind] in H; [|discriminate].
      injection H as -> H. apply andb_true_iff in H as [H ->]. apply andb_true_iff in H as [-> ->]. split; auto. exists old, mid. conjs; auto.
    + intros (-> & old & mid & E1 & E2 & E3 & E4). rewrite E1. cbn [bind]. rewrite E2. cbn [bind]. rewrite E3. cbn [bind]. rewrite E4. reflexivity.
Qed.
Print Assumptions C103_loops_detect.
(** a post-increment that hands back the new value is caught, an operator++ that adds two as well *)
Example C103_detects_example : runIncrementLoop (onAeu cfg0 2) (fun a => r <- op_inc 2 a ;; Ok (r, r)) (op_inc 2) 5 3 = Ok false /\
  runIncrementLoop (onAeu cfg0 2) (op_post_inc 2) (fun a => r <- op_inc 2 a ;; op_inc 2 r) 5 3 = Ok false /\
  runIncrementLoop (onAeu cfg0 2) (op_post_inc 2) (op_inc 2) 5 3 = Ok true.
Proof. conjs; vm_compute; reflexivity. Qed.

(** ** C109: the GMP text test accepts exactly the number's own decimal text. *)
Theorem C109_text_detects : forall cfg n gmp digits text, cfg_unsafe cfg = false -> 2 <= n -> 32 * n < 2 ^ 53 -> Z.abs gmp < modulus n -> numeral false 10 (Z.abs gmp) digits ->
  (0 <= gmp -> text <> digits -> gmpText cfg n gmp fresh text = Ok false) /\
  (text <> (if gmp <? 0 then [45] else []) ++ digits -> s_gmpText cfg n gmp fresh text = Ok false).
Proof.
  intros cfg n g ds text U Hn H53 Hg HD. split.
  - intros H0 N. unfold gmpText. destruct (u_from_small cfg n g U ltac:(lia) ltac:(lia)) as (a & -> & Wa & Va). cbn [bind].
    destruct (C37_stream_insertion cfg n fresh a ds Wa eq_refl H53) as (os & -> & O); [cbn; lia|cbn; rewrite Va; rewrite Z.abs_eq in HD by lia; auto|]. cbn [bind]. rewrite O. change (out fresh ++ os_shown fresh ++ ds) with ds.
    destruct (list_eq_dec Z.eq_dec ds text); congruence.
  - intros N. unfold s_gmpText. destruct (s_from cfg n g ltac:(lia) Hg) as (a & -> & Ca & Va). cbn [bind].
    destruct (C56_signed_stream cfg n fresh a ds Ca eq_refl H53) as (os & -> & O); [cbn; lia|cbn; rewrite Va; auto|]. cbn [bind]. rewrite O, Va. cbn [out fresh app].
    change (os_shown fresh) with (@nil Z). destruct (g =? 0); cbn [app]; destruct (list_eq_dec Z.eq_dec ((if g <? 0 then [45] else []) ++ ds) text); congruence.
Qed.
Print Assumptions C109_text_detects.
Example C109_text_detects_example : gmpText cfg0 3 42 fresh [52; 51] = Ok false /\ s_gmpText cfg0 3 (-42) fresh [52; 50] = Ok false.
Proof. conjs; vm_compute; reflexivity. Qed.

(** ** C110: the cast tests pass only values the target type holds. *)
Theorem C110_cast_detects : forall n junk v64 v32, 2 <= n -> len junk = n ->
  (0 <= v64 < 2 ^ 63 -> 0 <= v32 < 2 ^ 63 -> signedIntegralCast n v64 v32 = Ok (v32 <? 2 ^ 31)) /\
  (0 <= v64 < 2 ^ 64 -> 0 <= v32 < 2 ^ 64 -> unsignedIntegralCast n junk v64 v32 = Ok (v32 <? 2 ^ 32)).
Proof.
  intros n junk a b Hn HJ. assert (M64 : 2 ^ 64 <= modulus n) by (apply Z.pow_le_mono_r; lia). split; intros Ha Hb.
  - unfold signedIntegralCast, s_assign_int.
    assert (G : forall v, 0 <= v < 2 ^ 63 -> exists r, s_from_int n int64 v = Ok r /\ canon n r /\ sval r = v).
    { intros v Hv. apply s_from_int_correct; auto; try lia; [unfold in_ity, ity_min, ity_max; cbn; lia|]. unfold neg_ok, ity_min. cbn. lia. }
    destruct (G a Ha) as (r & -> & Cr & Vr). cbn [bind]. rewrite (C135_signed_integral_cast int64 n r Hn (canon_swf _ _ Cr) eq_refl). rewrite Vr.
    destruct (G b Hb) as (q & Eq & Cq & Vq). cbn [isigned iwidth int64 negb]. replace (a <? 0) with false by lia. rewrite andb_false_r. cbn [andb bind]. rewrite Eq. cbn [bind].
    rewrite (C135_signed_integral_cast int32 n q Hn (canon_swf _ _ Cq) eq_refl). rewrite Vq. cbn [isigned iwidth int32 negb]. replace (b <? 0) with false by lia. rewrite andb_false_r. cbn [andb bind].
    f_equal. unfold icast. cbn [isigned iwidth int64 int32 andb]. rewrite (Z.mod_small a (2 ^ 64)) by lia. cbv zeta. rewrite ?(Z.mod_small a (2 ^ 64)) by lia. replace (2 ^ (64 - 1) <=? a) with false by lia. rewrite Z.eqb_refl. cbn [andb].
    pose proof (Z.mod_pos_bound b (2 ^ 32) ltac:(lia)). destruct (Z.ltb_spec b (2 ^ 31)).
    + rewrite (Z.mod_small b (2 ^ 32)) by lia. replace (2 ^ (32 - 1) <=? b) with false by lia. apply Z.eqb_refl.
    + change (2 ^ (32 - 1)) with (2 ^ 31). destruct (Z.leb_spec (2 ^ 31) (b mod 2 ^ 32)); apply Z.eqb_neq; lia.
  - unfold unsignedIntegralCast. destruct (from_unsigned_correct n junk a ltac:(lia) HJ Ha) as (x & -> & Wx & Vx). destruct (from_unsigned_correct n junk b ltac:(lia) HJ ltac:(lia)) as (y & Ey & Wy & Vy).
    cbn [bind]. rewrite (integralCast_spec _ n) by auto. cbn [bind]. rewrite Ey. cbn [bind]. rewrite (integralCast_spec _ n) by auto. cbn [bind].
    rewrite Vx, Vy. rewrite !(Z.mod_small _ (modulus n)) by lia. rewrite !(Z.mod_small _ (2 ^ 64)) by lia. unfold icast. cbn [isigned iwidth uint64 uint32 andb]. rewrite (Z.mod_small a (2 ^ 64)) by lia. rewrite Z.eqb_refl. cbn [andb].
    f_equal. pose proof (Z.mod_pos_bound b (2 ^ 32) ltac:(lia)). destruct (Z.ltb_spec b (2 ^ 32)); [rewrite (Z.mod_small b (2 ^ 32)) by lia; apply Z.eqb_refl|apply Z.eqb_neq; lia].
Qed.
Print Assumptions C110_cast_detects.
Example C110_cast_detects_example : signedIntegralCast 4 5 2147483648 = Ok false /\ unsignedIntegralCast 4 [9; 9; 9; 9] 5 4294967296 = Ok false.
Proof. conjs; vm_compute; reflexivity. Qed.

(** ** C103, C105, C108: each trial passes exactly when every comparison in it does, for any number type and operation. *)
Ltac step H := let E := fresh "E" in match type of H with (bind ?x _ = _) => destruct x eqn:E; cbn [bind] in H; [|discriminate] end.
Ltac fwd := repeat match goal with E : ?x = Ok _ |- context [bind ?x _] => rewrite E; cbn [bind] end.
Theorem C103_composite_detects : forall T (k : tested T) op assignOp gop l r,
  composite k op assignOp gop l r = Ok true <->
  exists a b x y g, t_from k l = Ok a /\ t_from k r = Ok b /\ gop l r = Ok g /\
    op a b = Ok x /\ t_eq k x g = Ok true /\ assignOp a b = Ok y /\ t_eq k y g = Ok true.
Proof.
  intros T k op asg gop l r. unfold composite. split.
  - intros H. step H. step H. step H. step H. step H. step H. step H. injection H as H. apply andb_true_iff in H as [-> ->]. do 5 eexists. conjs; eauto.
  - intros (a & b & x & y & g & H1 & H2 & H3 & H4 & H5 & H6 & H7). fwd. reflexivity.
Qed.
Print Assumptions C103_composite_detects.
(** the trials with a built-in operand: once, twice, and the modulo form that applies the assignment twice *)
Theorem C103_builtin_detects : forall T (t : tested T) op assignOp gop value k,
  (builtin t op assignOp gop value k = Ok true <->
   exists a x y g, t_from t value = Ok a /\ gop value k = Ok g /\ op a k = Ok x /\ t_eq t x g = Ok true /\ assignOp a k = Ok y /\ t_eq t y g = Ok true) /\
  (builtin2 t op assignOp gop value k = Ok true <->
   exists a x1 x2 y1 y2 g1 g2, t_from t value = Ok a /\ gop value k = Ok g1 /\ gop g1 k = Ok g2 /\
     op a k = Ok x1 /\ op x1 k = Ok x2 /\ t_eq t x2 g2 = Ok true /\ assignOp a k = Ok y1 /\ assignOp y1 k = Ok y2 /\ t_eq t y2 g2 = Ok true) /\
  (builtin_mod t op assignOp gop value k = Ok true <->
   exists a x y1 y2 g, t_from t value = Ok a /\ gop value k = Ok g /\ op a k = Ok x /\ t_eq t x g = Ok true /\
     assignOp a k = Ok y1 /\ assignOp y1 k = Ok y2 /\ t_eq t y2 g = Ok true).
Proof.
  intros T t op asg gop v k. conjs; split; unfold builtin, builtin2, builtin_mod.
  - intros H. do 6 step H. injection H as H. apply andb_true_iff in H as [-> ->]. do 4 eexists. conjs; eauto.
  - intros (a & x & y & g & H1 & H2 & H3 & H4 & H5 & H6). fwd. reflexivity.
  - intros H. do 9 step H. injection H as H. apply andb_true_iff in H as [-> ->]. do 7 eexists. conjs; eauto.
  - intros (a & x1 & x2 & y1 & y2 & g1 & g2 & H1 & H2 & H3 & H4 & H5 & H6 & H7 & H8 & H9). fwd. reflexivity.
  - intros H. do 7 step H. injection H as H. apply andb_true_iff in H as [-> ->]. do 5 eexists. conjs; eauto.
  - intros (a & x & y1 & y2 & g & H1 & H2 & H3 & H4 & H5 & H6 & H7). fwd. reflexivity.
Qed.
Print Assumptions C103_builtin_detects.
Theorem C108_comparisons_detect : forall T (k : tested T) lt le gt ge eq l r,
  checkComparisons k lt le gt ge eq l r = Ok true <->
  exists a b, t_from k l = Ok a /\ t_from k r = Ok b /\ lt a b = Ok (l <? r) /\ le a b = Ok (l <=? r) /\ gt a b = Ok (l >? r) /\ ge a b = Ok (l >=? r) /\ eq a b = Ok (l =? r).
Proof.
  intros T k lt le gt ge eq l r. unfold checkComparisons. split.
  - intros H. do 7 step H. injection H as H. repeat match goal with H : _ && _ = true |- _ => apply andb_true_iff in H as [? ?] end.
    repeat match goal with H : Bool.eqb _ _ = true |- _ => apply eqb_prop in H; subst end. do 2 eexists. conjs; eauto.
  - intros (a & b & H1 & H2 & H3 & H4 & H5 & H6 & H7). fwd. rewrite !eqb_reflx. reflexivity.
Qed.
Print Assumptions C108_comparisons_detect.
Theorem C108_parity_detects : forall T (k : tested T) isEven isOdd value,
  oddEven k isEven isOdd value = Ok true <-> exists a, t_from k value = Ok a /\ isEven a = Ok (Z.even value) /\ isOdd a = Ok (Z.odd value).
Proof.
  intros T k ev od v. unfold oddEven. split.
  - intros H. do 3 step H. injection H as H. apply andb_true_iff in H as [H1 H2]. apply eqb_prop in H1, H2. subst. eauto.
  - intros (a & H1 & H2 & H3). fwd. rewrite !eqb_reflx. reflexivity.
Qed.
Print Assumptions C108_parity_detects.
(** generation.h l.61-67: the signs in trial i: both positive, both negative, first negative, second negative, and again *)
Theorem C103_signs : forall T (k : tested T) op assignOp gop N draw,
  runSignedCompositeTest k op assignOp gop N draw = Ok true <->
  forall i, 0 <= i < N -> exists q, (i = 4 * q /\ composite k op assignOp gop (fst (draw i)) (snd (draw i)) = Ok true) \/
    (i = 4 * q + 1 /\ composite k op assignOp gop (- fst (draw i)) (- snd (draw i)) = Ok true) \/
    (i = 4 * q + 2 /\ composite k op assignOp gop (- fst (draw i)) (snd (draw i)) = Ok true) \/
    (i = 4 * q + 3 /\ composite k op assignOp gop (fst (draw i)) (- snd (draw i)) = Ok true).
Proof.
  intros T k op asg gop N draw. unfold runSignedCompositeTest. rewrite trials_iff.
  assert (G : forall i q r, 0 <= r < 4 -> i = 4 * q + r -> i mod 4 = r) by (intros; subst; rewrite Z.add_comm, Z.mul_comm, Z.mod_add by lia; apply Z.mod_small; lia).
  split; intros H i Hi; specialize (H i Hi); revert H.
  - pose proof (Z.div_mod i 4 ltac:(lia)) as D. pose proof (Z.mod_pos_bound i 4 ltac:(lia)) as B. intros H. exists (i / 4).
    assert (C : i mod 4 = 0 \/ i mod 4 = 1 \/ i mod 4 = 2 \/ i mod 4 = 3) by lia. unfold sign_first, sign_second in H.
    destruct C as [C|[C|[C|C] ] ]; rewrite C in H, D; cbn [Z.eqb Pos.eqb] in H;
      [left|right; left|right; right; left|right; right; right]; (split; [lia|]);
      rewrite <- H; f_equal; lia.
  - intros (q & [ [E H]|[ [E H]|[ [E H]|[E H] ] ] ]); rewrite <- H; unfold sign_first, sign_second.
    + rewrite (G i q 0) by lia. cbn [Z.eqb]. f_equal; lia.
    + rewrite (G i q 1) by lia. cbn [Z.eqb Pos.eqb]. f_equal; lia.
    + rewrite (G i q 2) by lia. cbn [Z.eqb Pos.eqb]. f_equal; lia.
    + rewrite (G i q 3) by lia. cbn [Z.eqb Pos.eqb]. f_equal; lia.
Qed.
Print Assumptions C103_signs.
(** an addition that forgets the carry into the second block, a <= that is <, an isOdd that is constant: all caught *)
Example C103_composite_example :
  composite (onAeu cfg0 2) (op_add 2) (add_assign 2) (gmp_total Z.add) 4294967295 1 = Ok true /\
  composite (onAeu cfg0 2) (op_or 2) (add_assign 2) (gmp_total Z.add) 4294967295 1 = Ok false /\
  composite (onAeu cfg0 2) (op_add 2) (or_assign 2) (gmp_total Z.add) 4294967295 1 = Ok false /\
  checkComparisons (onAeu cfg0 2) (op_lt cfg0 2 2) (op_lt cfg0 2 2) (op_gt cfg0 2 2) (op_ge cfg0 2 2) (op_eq cfg0 2 2) 5 5 = Ok false /\
  oddEven (onAeu cfg0 2) (fun a => isEven a) (fun _ => Ok true) 4 = Ok false.
Proof. conjs; vm_compute; reflexivity. Qed.

(** ** C103, C108: the bitwise and shift trials. *)
Theorem C103_bitwise_detects : forall cfg n op assignOp gop l r l' r',
  bitwiseTrial cfg n op assignOp gop l r l' r' = Ok true <->
  exists a b a' b' x y, from_mpz cfg true n l = Ok a /\ from_mpz cfg true n r = Ok b /\ op a b = Ok x /\ op_eq_mpz cfg true n x (gop l r) = Ok true /\
    from_mpz cfg true n l' = Ok a' /\ from_mpz cfg true n r' = Ok b' /\ assignOp a' b' = Ok y /\ op_eq_mpz cfg true n y (gop l' r') = Ok true.
Proof.
  intros cfg n op asg gop l r l' r'. unfold bitwiseTrial, onAeu. cbn [t_from t_eq]. split.
  - intros H. do 8 step H. injection H as H. apply andb_true_iff in H as [-> ->]. do 6 eexists. conjs; eauto.
  - intros (a & b & a' & b' & x & y & H1 & H2 & H3 & H4 & H5 & H6 & H7 & H8). fwd. reflexivity.
Qed.
Print Assumptions C103_bitwise_detects.
Theorem C108_shift_detects : forall cfg n op assignOp gop v1 v2 shift,
  shiftTrial cfg n op assignOp gop v1 v2 shift = Ok true <->
  exists a b x y, from_mpz cfg true n v1 = Ok a /\ op a shift = Ok x /\ op_eq_mpz cfg true n x (gop v1 shift) = Ok true /\
    from_mpz cfg true n v2 = Ok b /\ assignOp b shift = Ok y /\ op_eq_mpz cfg true n y (gop v2 shift) = Ok true.
Proof.
  intros cfg n op asg gop v1 v2 sh. unfold shiftTrial. split.
  - intros H. do 6 step H. injection H as H. apply andb_true_iff in H as [-> ->]. do 4 eexists. conjs; eauto.
  - intros (a & b & x & y & H1 & H2 & H3 & H4 & H5 & H6). fwd. reflexivity.
Qed.
Print Assumptions C108_shift_detects.

(** ** C107: draws that do not fit the number.  The bit test fails (getBit is 0 above the number), the byte test hits
    index N/8 (C19). *)
Lemma top_bit v : 0 < v -> Z.testbit v (mpz_sizeinbase2 v - 1) = true.
Proof.
  intros Hv. pose proof (size_pow v) as B. rewrite size_length in *. rewrite Z.abs_eq in * by lia. destruct (bit_length_bounds v ltac:(lia)) as (A & _ & [C|C]).
  - rewrite C in B. change (2 ^ Z.max 1 0) with 2 in B. assert (v = 1) by lia. subst v. reflexivity.
  - assert (P : 0 < bit_length v) by (destruct (Z.eq_dec (bit_length v) 0) as [E|]; [rewrite E in C; change (2 ^ (0 - 1)) with 0 in C; rewrite E in B; change (2 ^ Z.max 1 0) with 2 in B; assert (v = 1) by lia; subst v; discriminate|lia]).
    rewrite Z.max_r in * by lia. apply Z.testbit_true; [lia|]. replace (2 ^ bit_length v) with (2 * 2 ^ (bit_length v - 1)) in B by (rewrite <- Z.pow_succ_r by lia; f_equal; lia).
    assert (Q : v / 2 ^ (bit_length v - 1) = 1) by (symmetry; apply (Z.div_unique v (2 ^ (bit_length v - 1)) 1 (v - 2 ^ (bit_length v - 1))); lia). rewrite Q. reflexivity.
Qed.
Theorem C107_draws_too_large : forall cfg n value, cfg_unsafe cfg = false -> 1 <= n -> modulus n <= value ->
  getSetBit cfg n value = Ok false /\ getSetByte cfg n value = Err (if cfg_ndebug cfg then OutOfBounds else AssertFailed).
Proof.
  intros cfg n v U Hn Hv. pose proof (modulus_pos n ltac:(lia)) as HM. pose proof (size_pow v) as SP. rewrite Z.abs_eq in SP by lia.
  assert (SL : 32 * n < mpz_sizeinbase2 v).
  { destruct (Z_lt_le_dec (32 * n) (mpz_sizeinbase2 v)); auto. exfalso. assert (2 ^ mpz_sizeinbase2 v <= 2 ^ (32 * n)) by (apply Z.pow_le_mono_r; lia). unfold modulus in *. lia. }
  split.
  - unfold getSetBit.
    match goal with |- context [forU 0 ?L ?f (zeros n)] => destruct (forU_spec (fun i a => wf n a) 0 L f (zeros n)) as (a & -> & Wa) end.
    + lia.
    + apply wf_zeros; lia.
    + intros i a Hi Wa. destruct (C18_bit_access cfg n a i (Z.testbit v i) Wa ltac:(lia)) as [A B]. destruct (Z_lt_le_dec i (32 * n)) as [L|L].
      * destruct (A L) as (_ & r & E & W & _). eauto.
      * destruct (B L U) as [_ E]. eauto.
    + cbn [bind]. rewrite u_eq by auto. cbn [bind]. destruct (u_from cfg n v U ltac:(lia)) as (b & -> & Wb & Vb). cbn [bind].
      match goal with |- context [forU 0 ?L ?f true] => destruct (forU_spec (fun i (ok : bool) => i = L -> ok = false) 0 L f true) as (ok & -> & Hok) end.
      * lia.
      * intros E. lia.
      * intros i ok Hi _. destruct (C18_bit_access cfg n b i false Wb ltac:(lia)) as [A B]. destruct (Z_lt_le_dec i (32 * n)) as [L|L].
        -- destruct (A L) as [-> _]. cbn [bind]. eexists. split; [reflexivity|]. intros E. lia.
        -- destruct (B L U) as [-> _]. cbn [bind]. eexists. split; [reflexivity|]. intros E. replace i with (mpz_sizeinbase2 v - 1) by lia. rewrite top_bit by lia. apply andb_false_r.
      * cbn [bind]. rewrite (Hok eq_refl), andb_false_r. reflexivity.
  - unfold getSetByte. unfold forU.
    assert (BL : 4 * n < byteCountGmp v) by (unfold byteCountGmp; apply Z.lt_le_trans with ((32 * n + 8) / 8); [replace (32 * n + 8) with ((4 * n + 1) * 8) by lia; rewrite Z.div_mul by lia; lia|apply Z.div_le_mono; lia]).
    rewrite (loopU_err (fun a => wf n a) _ (if cfg_ndebug cfg then OutOfBounds else AssertFailed) _ 0 (4 * n)); [reflexivity|lia|apply wf_zeros; lia| |].
    + intros j a Hj Wa. rewrite byte_gmp by lia. pose proof (Z.mod_pos_bound (v / 2 ^ (8 * j)) (2 ^ 8) ltac:(lia)) as B.
      destruct (setByte_spec cfg n a j _ Wa ltac:(lia) B) as (r & E & Wr & _). eauto.
    + intros a Wa. apply setByte_edge; auto; lia.
Qed.
Print Assumptions C107_draws_too_large.
Example C107_too_large_example : getSetBit cfg0 1 4294967297 = Ok false /\ getSetBit cfg0 1 4294967295 = Ok true /\ getSetByte cfg0 1 4294967296 = Err AssertFailed.
Proof. conjs; vm_compute; reflexivity. Qed.
