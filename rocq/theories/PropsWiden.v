(** * PropsWiden: C147, changing the width of a program.

    Stated about [urun] and [srun] of [ProgModel.v] with the vocabulary of [ProgSpec.v] and [WidenSpec.v]. *)
From Verif Require Import Lib WidenSpec ProgModel ProgFacts ProgSigned PropsProg.
Open Scope Z_scope.

Ltac conjs := repeat match goal with |- _ /\ _ => split end.
Ltac wfc := apply wfb_wf; vm_compute; reflexivity.

Lemma modulus_le n m : 0 <= n -> n <= m -> modulus n <= modulus m.
Proof. intros. unfold modulus. apply Z.pow_le_mono_r; lia. Qed.

(** A more permissive reading agrees with a stricter one. *)
Lemma spec_mono {I C} (si si' : env -> I -> option env) (sc sc' : env -> C -> option bool) (P : env -> Prop) :
  (forall e i e', P e -> si e i = Some e' -> si' e i = Some e' /\ P e') ->
  (forall e c b, P e -> sc e c = Some b -> sc' e c = Some b) ->
  forall fuel s e, P e ->
  match spec_run si sc fuel s e with
  | RVal e' => spec_run si' sc' fuel s e = RVal e' /\ P e'
  | RUndef => True
  | RTimeout => spec_run si' sc' fuel s e = RTimeout
  end.
Proof.
  intros HI HC. induction fuel as [|f IH]; intros s e HP; cbn [spec_run]; [reflexivity|].
  destruct s as [|i|s t|c s t|c s].
  - auto.
  - destruct (si e i) as [e'|] eqn:E; auto. destruct (HI _ _ _ HP E) as (-> & P'). auto.
  - pose proof (IH s e HP) as H. destruct (spec_run si sc f s e) as [e'| |]; auto.
    + destruct H as (-> & P'). apply IH; auto.
    + rewrite H. reflexivity.
  - destruct (sc e c) as [b|] eqn:E; auto. rewrite (HC _ _ _ HP E). apply IH; auto.
  - destruct (sc e c) as [b|] eqn:E; auto. rewrite (HC _ _ _ HP E). destruct b; [|auto].
    pose proof (IH s e HP) as H. destruct (spec_run si sc f s e) as [e'| |]; auto.
    + destruct H as (-> & P'). apply IH; auto.
    + rewrite H. reflexivity.
Qed.

(** ** Signed programs *)
Lemma sspec_widen n m e i e' : n <= m -> 1 <= n -> sspec_instr n e i = Some e' -> sspec_instr m e i = Some e'.
Proof.
  intros L Hn E. pose proof (modulus_le n m ltac:(lia) L) as ML.
  assert (ST : forall d v, (if Z.abs v <? modulus n then Some (eput e d v) else None) = Some e' -> (if Z.abs v <? modulus m then Some (eput e d v) else None) = Some e').
  { intros d v. destruct (Z.ltb_spec (Z.abs v) (modulus n)); [|discriminate]. destruct (Z.ltb_spec (Z.abs v) (modulus m)); [auto|lia]. }
  assert (O2 : (2 <=? n) = true -> (2 <=? m) = true) by (intros K; apply Z.leb_le in K; apply Z.leb_le; lia).
  destruct i; cbn [sspec_instr] in *; auto.
  - destruct (lit_ok t v); cbn [andb] in *; [|discriminate]. destruct (iwidth t <=? 32); cbn [orb] in *; auto. destruct (2 <=? n); [|discriminate]. rewrite O2 by auto. auto.
  - destruct (scop_result o (e d) (e s)); auto.
  - destruct (scop_result o (e a) (e b)); auto.
  - destruct (lit_ok t v && (iwidth t <=? 32)); [auto|discriminate].
  - destruct (lit_ok t v && negb (v =? 0)); cbn [andb] in *; [|discriminate]. destruct (iwidth t <=? 32); cbn [orb] in *; auto. destruct (2 <=? n); [|discriminate]. rewrite O2 by auto. auto.
  - destruct (Z.leb_spec 0 k); cbn [andb] in *; [|discriminate]. destruct (Z.ltb_spec k (32 * n)); [|discriminate]. destruct (Z.ltb_spec k (32 * m)); [auto|lia].
Qed.
(** A signed program that does not overflow at [n] blocks computes the same integers at every larger width. *)
Theorem C147_signed_widen : forall cfg cfg' n m fuel prog mn mm e e', 1 <= n -> n <= m ->
  (forall i, swf n (mn (Var i)) /\ sval (mn (Var i)) = e i) -> (forall i, swf m (mm (Var i)) /\ sval (mm (Var i)) = e i) ->
  sspec_run n fuel prog e = RVal e' ->
  exists rn rm, srun cfg n fuel prog mn = Ok rn /\ srun cfg' m fuel prog mm = Ok rm /\
    forall i, sval (rn (Var i)) = e' i /\ sval (rm (Var i)) = e' i.
Proof.
  intros cfg cfg' n m fuel prog mn mm e e' Hn L Rn Rm E.
  pose proof (spec_mono (sspec_instr n) (sspec_instr m) (sspec_cond n) (sspec_cond m) (fun _ => True)) as M.
  specialize (M ltac:(intros e0 i e1 _ H; split; [eapply sspec_widen; eauto|exact I]) ltac:(intros e0 c b _ H; exact H) fuel prog e I).
  unfold sspec_run in E. rewrite E in M. destruct M as (M & _).
  pose proof (C62_signed_programs cfg n fuel prog mn e Hn Rn) as A. unfold sspec_run in A. rewrite E in A. destruct A as (rn & A1 & A2).
  pose proof (C62_signed_programs cfg' m fuel prog mm e ltac:(lia) Rm) as B. unfold sspec_run in B. rewrite M in B. destruct B as (rm & B1 & B2).
  exists rn, rm. conjs; auto. intros i. split; [apply A2|apply B2].
Qed.
Print Assumptions C147_signed_widen.

(** ** Unsigned programs that do not overflow *)
Definition within (n : Z) (e : env) : Prop := forall i, 0 <= e i < modulus n.
Lemma within_put n e d v : within n e -> 0 <= v < modulus n -> within n (eput e d v).
Proof. intros W H i. unfold eput. destruct (Nat.eqb i d); auto. Qed.
Lemma exact_widen n m e i e' : 1 <= n -> n <= m -> within n e -> exact_instr n e i = Some e' -> uspec_instr m e i = Some e' /\ within n e'.
Proof.
  intros Hn L W E. pose proof (modulus_le n m ltac:(lia) L) as ML. pose proof (modulus_pos n ltac:(lia)) as MP.
  assert (FI : forall (b b' : bool) d v v', (if b && (0 <=? v) && (v <? modulus n) then Some (eput e d v) else None) = Some e' ->
             (b = true -> b' = true) -> (0 <= v < modulus m -> v' = v) -> (if b' then Some (eput e d v') else None) = Some e' /\ within n e').
  { intros b b' d v v' H Hb Hv. destruct b; cbn [andb] in H; [|discriminate]. destruct (Z.leb_spec 0 v); cbn [andb] in H; [|discriminate].
    destruct (Z.ltb_spec v (modulus n)); [|discriminate]. rewrite Hb, Hv by (auto; lia). split; auto. injection H as <-. apply within_put; auto. }
  assert (MS : forall v, 0 <= v < modulus m -> v mod modulus m = v) by (intros; apply Z.mod_small; auto).
  assert (CO : forall o x y, 0 <= cop_exact o x y < modulus m -> cop_value o m x y = cop_exact o x y) by (intros [] x y; cbn [cop_exact cop_value]; auto).
  destruct i; cbn [exact_instr uspec_instr] in *.
  - injection E as <-. split; auto. apply within_put; auto.
  - destruct (Z.ltb_spec v (2 ^ 64)); cbn [andb] in E; [|discriminate]. destruct (Z.leb_spec 0 v); cbn [andb] in *; [|discriminate].
    destruct (Z.ltb_spec v (modulus n)); [|discriminate]. injection E as <-. rewrite MS by lia. split; auto. apply within_put; auto.
  - eapply FI; eauto.
  - eapply FI; eauto.
  - apply (FI _ true _ _ _ E); auto.
  - apply (FI _ true _ _ _ E); auto.
  - apply (FI _ true _ _ _ E); auto.
  - discriminate.
  - eapply FI; eauto. intros K. apply andb_prop in K as [K1 K2]. rewrite K1. apply Z.ltb_lt in K2. apply Z.ltb_lt. lia.
  - eapply FI; eauto. intros K. apply andb_prop in K as [K1 K2]. rewrite K1. apply Z.ltb_lt in K2. apply Z.ltb_lt. lia.
  - eapply FI; eauto. intros K. apply andb_prop in K as [K1 K2]. rewrite K1. apply Z.ltb_lt in K2. apply Z.ltb_lt. lia.
  - eapply FI; eauto.
  - eapply FI; eauto.
  - injection E as <-. split; auto. apply within_put; auto. apply within_put; auto.
  - destruct (_ && _) eqn:G; [|discriminate]. injection E as <-. split; auto. repeat (apply andb_prop in G as [G _]). apply Bool.negb_true_iff, Z.eqb_neq in G.
    pose proof (W nu). pose proof (W de). apply within_put; [apply within_put; auto|].
    + split; [apply Z.div_pos; lia|]. apply Z.le_lt_trans with (e nu); [|lia]. apply Z.div_le_upper_bound; nia.
    + pose proof (Z.mod_pos_bound (e nu) (e de)). lia.
  - injection E as <-. split; auto. apply within_put; auto. pose proof (W a). pose proof (W b). split; [apply Z.gcd_nonneg|].
    destruct (Z.eq_dec (e a) 0) as [->|]; [rewrite Z.gcd_0_l; lia|]. pose proof (Z.gcd_divide_l (e a) (e b)) as D. apply Z.divide_pos_le in D; lia.
  - apply (FI _ true _ _ _ E); auto.
  - injection E as <-. split; auto. apply within_put; auto. pose proof (W a). split; [apply Z.sqrt_nonneg|]. pose proof (Z.sqrt_le_lin (e a)). lia.
  - eapply FI; eauto. intros K. apply andb_prop in K as [K1 K2]. rewrite K1. apply Z.ltb_lt in K2. apply Z.ltb_lt. lia.
  - eapply FI; eauto. intros K. apply andb_prop in K as [K1 K2]. rewrite K1. apply Z.ltb_lt in K2. apply Z.ltb_lt. lia.
Qed.
Lemma exact_cond_widen n m e c b : n <= m -> exact_cond n e c = Some b -> uspec_cond m e c = Some b.
Proof.
  intros L. unfold exact_cond. destruct c; cbn [uspec_cond]; auto. destruct (Z.leb_spec 0 i); cbn [andb]; [|discriminate].
  destruct (Z.ltb_spec i (32 * n)); [|discriminate]. destruct (Z.ltb_spec i (32 * m)); [auto|lia].
Qed.
(** An unsigned program whose reading on the natural numbers stays below 2^N computes just these numbers at N bits
    and at every larger width. *)
Theorem C147_unsigned_widen : forall cfg n m fuel prog mm e, 1 <= n -> n <= m ->
  (forall i, 0 <= e i < modulus n) -> (forall i, represents m (mm (Var i)) (e i)) ->
  match exact_run n fuel prog e with
  | RVal e' => exists rm, urun cfg m fuel prog mm = Ok rm /\ forall i, represents m (rm (Var i)) (e' i) /\ 0 <= e' i < modulus n
  | RUndef => True
  | RTimeout => urun cfg m fuel prog mm = Err OutOfFuel
  end.
Proof.
  intros cfg n m fuel prog mm e Hn L W R.
  pose proof (spec_mono (exact_instr n) (uspec_instr m) (exact_cond n) (uspec_cond m) (within n)
    ltac:(intros; eapply exact_widen; eauto) ltac:(intros; eapply exact_cond_widen; eauto) fuel prog e W) as M.
  pose proof (C61_unsigned_programs cfg m fuel prog mm e ltac:(lia) R) as B. unfold exact_run. unfold uspec_run in B.
  destruct (spec_run (exact_instr n) (exact_cond n) fuel prog e) as [e'| |]; auto.
  - destruct M as (M & W'). rewrite M in B. destruct B as (rm & B1 & B2). exists rm. split; auto.
  - rewrite M in B. auto.
Qed.
Print Assumptions C147_unsigned_widen.

(** ** Programs that only look at low bits *)
Definition low_rel (n : Z) (e el : env) : Prop := forall i, el i = e i mod modulus n.
Lemma low_put n e el d v vl : low_rel n e el -> vl = v mod modulus n -> low_rel n (eput e d v) (eput el d vl).
Proof. intros R E i. unfold eput. destruct (Nat.eqb i d); auto. Qed.
Lemma mod_modulus n m x : 1 <= n -> n <= m -> (x mod modulus m) mod modulus n = x mod modulus n.
Proof.
  intros Hn L. unfold modulus. replace (32 * m) with (32 * n + 32 * (m - n)) by lia. rewrite Z.pow_add_r by lia.
  rewrite Z.rem_mul_r by (try apply Z.pow_nonzero; try apply Z.pow_pos_nonneg; lia).
  rewrite (Z.mul_comm (2 ^ (32 * n))), Z_mod_plus_full, Z.mod_mod by (apply Z.pow_nonzero; lia). reflexivity.
Qed.
Lemma bits_mod n x i : 0 <= n -> 0 <= i -> Z.testbit (x mod modulus n) i = (i <? 32 * n) && Z.testbit x i.
Proof.
  intros Hn Hi. unfold modulus. destruct (Z.ltb_spec i (32 * n)); cbn [andb]; [apply Z.mod_pow2_bits_low; lia|apply Z.mod_pow2_bits_high; lia].
Qed.
Lemma low_step n m e el i e' : 1 <= n -> n <= m -> low_rel n e el -> low_instr n i -> uspec_instr m e i = Some e' ->
  exists el', uspec_instr n el i = Some el' /\ low_rel n e' el'.
Proof.
  intros Hn L R P E. pose proof (modulus_pos n ltac:(lia)) as MP. pose proof (mod_modulus n m) as MM.
  assert (CO : forall o x y, ring_op o = true -> cop_value o n (x mod modulus n) (y mod modulus n) = cop_value o m x y mod modulus n).
  { intros [] x y K; try discriminate; cbn [cop_value]; rewrite ?MM by lia.
    - rewrite <- Z.add_mod by lia. reflexivity.
    - rewrite <- Zminus_mod. reflexivity.
    - rewrite <- Z.mul_mod by lia. reflexivity.
    - apply Z.bits_inj'. intros j Hj. rewrite Z.lxor_spec, !bits_mod, Z.lxor_spec by lia. destruct (j <? 32 * n); auto.
    - apply Z.bits_inj'. intros j Hj. rewrite Z.land_spec, !bits_mod, Z.land_spec by lia. destruct (j <? 32 * n); auto.
    - apply Z.bits_inj'. intros j Hj. rewrite Z.lor_spec, !bits_mod, Z.lor_spec by lia. destruct (j <? 32 * n); auto. }
  destruct i; cbn [low_instr uspec_instr] in *; try contradiction.
  - injection E as <-. eexists. split; [reflexivity|]. apply low_put; auto.
  - destruct (_ && _) eqn:G; [|discriminate]. injection E as <-. eexists. split; [reflexivity|]. apply low_put; auto. rewrite MM by lia. reflexivity.
  - assert (CD : forall y, cop_defined o y = true) by (intros; destruct o; try discriminate; reflexivity). rewrite CD in *. injection E as <-. eexists. split; [reflexivity|]. apply low_put; auto. rewrite !R. auto.
  - assert (CD : forall y, cop_defined o y = true) by (intros; destruct o; try discriminate; reflexivity). rewrite CD in *. injection E as <-. eexists. split; [reflexivity|]. apply low_put; auto. rewrite !R. auto.
  - injection E as <-. eexists. split; [reflexivity|]. apply low_put; auto. rewrite R, MM, Zplus_mod_idemp_l by lia. reflexivity.
  - injection E as <-. eexists. split; [reflexivity|]. apply low_put; auto. rewrite R, MM, Zminus_mod_idemp_l by lia. reflexivity.
  - injection E as <-. eexists. split; [reflexivity|]. apply low_put; auto. rewrite R, MM by lia. rewrite <- !Z.sub_0_l. apply Zminus_mod_idemp_r.
  - injection E as <-. eexists. split; [reflexivity|]. apply low_put; auto. rewrite R. rewrite <- (Z.mod_small (modulus n - 1 - e s mod modulus n) (modulus n)) by (pose proof (Z.mod_pos_bound (e s) (modulus n)); lia).
    rewrite Zminus_mod_idemp_r. unfold modulus. replace (32 * m) with (32 * n + 32 * (m - n)) by lia. rewrite Z.pow_add_r by lia.
    replace (2 ^ (32 * n) * 2 ^ (32 * (m - n)) - 1 - e s) with (2 ^ (32 * n) - 1 - e s + (2 ^ (32 * (m - n)) - 1) * 2 ^ (32 * n)) by lia.
    rewrite Z_mod_plus_full. reflexivity.
  - destruct (Z.leb_spec 0 k), (Z.ltb_spec k (32 * m)), (Z.ltb_spec k (32 * n)); cbn [andb] in *; try discriminate; try lia. injection E as <-. eexists. split; [reflexivity|]. apply low_put; auto.
    rewrite R, MM by lia. apply Zmult_mod_idemp_l.
  - destruct (Z.leb_spec 0 i), (Z.ltb_spec i (32 * m)), (Z.ltb_spec i (32 * n)); cbn [andb] in *; try discriminate; try lia. injection E as <-. eexists. split; [reflexivity|]. apply low_put; auto.
    rewrite R. apply Z.bits_inj'. intros j Hj. rewrite bits_mod by lia. destruct b.
    + rewrite !Z.setbit_eqb, bits_mod by lia. destruct (Z.eqb_spec i j); cbn [orb]; [|reflexivity]. subst j. destruct (Z.ltb_spec i (32 * n)); [reflexivity|lia].
    + rewrite !Z.clearbit_eqb, bits_mod by lia. destruct (j <? 32 * n); auto.
  - destruct (_ && _) eqn:G; [|discriminate]. injection E as <-. eexists. split; [reflexivity|]. apply low_put; auto. rewrite R, MM, Zplus_mod_idemp_l by lia. reflexivity.
  - destruct (_ && _) eqn:G; [|discriminate]. injection E as <-. eexists. split; [reflexivity|]. apply low_put; auto. rewrite R, MM, Zmult_mod_idemp_l by lia. reflexivity.
  - injection E as <-. eexists. split; [reflexivity|]. apply low_put; [apply low_put|]; auto.
  - destruct (Z.leb_spec 0 k), (Z.ltb_spec k (32 * m)), (Z.ltb_spec k (32 * n)); cbn [andb] in *; try discriminate; try lia. injection E as <-. eexists. split; [reflexivity|]. apply low_put; auto.
    symmetry. apply Z.mod_small. unfold modulus. split; [apply Z.pow_nonneg; lia|]. apply Z.pow_lt_mono_r; lia.
Qed.
Lemma low_defined n m e i : 1 <= n -> n <= m -> low_instr n i -> exists e', uspec_instr m e i = Some e'.
Proof.
  intros Hn L P.
  assert (LE : forall a b, a <= b -> (a <=? b) = true) by (intros; apply Z.leb_le; lia).
  assert (LT : forall a b, a < b -> (a <? b) = true) by (intros; apply Z.ltb_lt; lia).
  destruct i; cbn [low_instr uspec_instr] in *; try contradiction; eauto.
  - rewrite LE, LT by lia. cbn [andb]. eauto.
  - destruct o; try discriminate; cbn [cop_defined]; eauto.
  - destruct o; try discriminate; cbn [cop_defined]; eauto.
  - rewrite LE, LT by lia. cbn [andb]. eauto.
  - rewrite LE, LT by lia. cbn [andb]. eauto.
  - destruct P. rewrite !LE, LT by lia. cbn [andb]. eauto.
  - destruct P as (P1 & P2). rewrite (LE 0), LT by lia. cbn [andb]. destruct t; eauto. rewrite LE by auto. eauto.
  - rewrite LE, LT by lia. cbn [andb]. eauto.
Qed.
Lemma low_test n m e el c : 1 <= n -> n <= m -> low_rel n e el -> low_cond n c -> exists b, uspec_cond m e c = Some b /\ uspec_cond n el c = Some b.
Proof.
  intros Hn L R P. destruct c; cbn [low_cond uspec_cond] in *; try contradiction.
  - eexists. split; [reflexivity|]. rewrite R, <- !Z.bit0_odd, bits_mod by lia. destruct (Z.ltb_spec 0 (32 * n)); [reflexivity|lia].
  - destruct (Z.leb_spec 0 i), (Z.ltb_spec i (32 * m)), (Z.ltb_spec i (32 * n)); cbn [andb] in *; try lia. eexists. split; [reflexivity|].
    rewrite R, bits_mod by lia. destruct (Z.ltb_spec i (32 * n)); [reflexivity|lia].
Qed.
Lemma low_run n m : 1 <= n -> n <= m -> forall fuel prog e el, low_program n prog -> low_rel n e el ->
  (exists e' el', uspec_run m fuel prog e = RVal e' /\ uspec_run n fuel prog el = RVal el' /\ low_rel n e' el') \/
  (uspec_run m fuel prog e = RTimeout /\ uspec_run n fuel prog el = RTimeout).
Proof.
  intros Hn L. unfold uspec_run. induction fuel as [|f IH]; intros s e el P R; cbn [spec_run]; [auto|].
  destruct s as [|i|s t|c s t|c s]; cbn [low_program] in P.
  - left. eauto 10.
  - destruct (low_defined n m e i Hn L P) as (e' & E). destruct (low_step n m e el i e' Hn L R P E) as (el' & El & R'). rewrite E, El. left. eauto 10.
  - destruct P as (P1 & P2). destruct (IH s e el P1 R) as [(e1 & el1 & -> & -> & R1)|(-> & ->)]; [|auto]. apply IH; auto.
  - destruct P as (Pc & P1 & P2). destruct (low_test n m e el c Hn L R Pc) as (b & -> & ->). apply IH; auto. destruct b; auto.
  - destruct P as (Pc & P1). destruct (low_test n m e el c Hn L R Pc) as (b & -> & ->). destruct b; [|left; eauto 10].
    destruct (IH s e el P1 R) as [(e1 & el1 & -> & -> & R1)|(-> & ->)]; [|auto]. apply IH; auto. cbn [low_program]. auto.
Qed.
(** Truncating the variables before running such a program or its results after it is the same. *)
Theorem C147_truncate : forall cfg cfg' n m fuel prog mm mn, 1 <= n -> n <= m -> low_program n prog ->
  (forall i, wf m (mm (Var i))) -> (forall i, represents n (mn (Var i)) (bval (mm (Var i)) mod modulus n)) ->
  (exists rm rn, urun cfg m fuel prog mm = Ok rm /\ urun cfg' n fuel prog mn = Ok rn /\
     forall i, wf m (rm (Var i)) /\ represents n (rn (Var i)) (bval (rm (Var i)) mod modulus n)) \/
  (urun cfg m fuel prog mm = Err OutOfFuel /\ urun cfg' n fuel prog mn = Err OutOfFuel).
Proof.
  intros cfg cfg' n m fuel prog mm mn Hn L P Wm Rn.
  pose proof (C61_unsigned_programs cfg m fuel prog mm (fun i => bval (mm (Var i))) ltac:(lia) ltac:(intros i; split; auto)) as A.
  pose proof (C61_unsigned_programs cfg' n fuel prog mn (fun i => bval (mm (Var i)) mod modulus n) Hn Rn) as B.
  destruct (low_run n m Hn L fuel prog (fun i => bval (mm (Var i))) (fun i => bval (mm (Var i)) mod modulus n) P ltac:(intros i; reflexivity)) as [(e' & el' & E1 & E2 & R)|(E1 & E2)]; rewrite E1 in A; rewrite E2 in B.
  - destruct A as (rm & A1 & A2), B as (rn & B1 & B2). left. exists rm, rn. conjs; auto. intros i. destruct (A2 i) as (W & V), (B2 i) as (W' & V'). conjs; auto. split; auto. rewrite V', V. apply R.
  - auto.
Qed.
Print Assumptions C147_truncate.

(** Sum of squares 1^2 + ... + 9^2 does not overflow 32 bits; a multiplication by halves looks at low bits only. *)
Definition squares : stmt uinstr ucond :=
  Seq (Do (ULit 1 9)) (While (CGt 1 0) (Seq (Do (UBin OMul 2 1 1)) (Seq (Do (UOp OAdd 3 2)) (Do (UDec 1))))).
Definition doubling : stmt uinstr ucond :=
  Seq (Do (UBin OMul 2 0 1)) (Seq (If (COdd 0) (Do (UOp OXor 2 1)) (Do (UNot 2 2))) (Do (UShl 2 5))).
Example C147_example :
  (match exact_run 1 20 squares (fun _ => 0) with RVal e => e 3%nat = 285 | _ => False end) /\ low_program 1 doubling /\
  (match urun cfg0 2 9 doubling (fun x => match x with Var O => [7; 3] | Var _ => [4294967295; 5] | _ => [] end) with
   | Ok m => m (Var 2%nat) = [192; 1120] | _ => False end) /\
  (match urun cfg0 1 9 doubling (fun x => match x with Var O => [7] | Var _ => [4294967295] | _ => [] end) with
   | Ok m => m (Var 2%nat) = [192] | _ => False end).
Proof. conjs; try (vm_compute; reflexivity). unfold doubling; cbn [low_program low_instr low_cond ring_op]; conjs; auto; lia. Qed.
