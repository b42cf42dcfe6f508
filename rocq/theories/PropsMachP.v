(** * PropsMachP: C158, whole programs on machine counters, indices and shifts. *)
From Verif Require Import Base Spec Lib AeuModel AeuFacts AeuArith AeuBits AeuAccess AeuDiv AeuMore AesiModel AesiArith AesiFacts AliasModel AliasFacts AliasSigned
  ProgSpec ProgModel ProgFacts ProgTotal ProgSigned WholeModel PropsWhole PropsAesi MachModel MachFacts MachSigned MachText PropsMachS PropsMachT MachProg PropsIniP.
From Coq Require Import Lia ZifyBool.
Open Scope Z_scope.

(** ** What the statement needs *)

(** The machine can count the bits of an [n]-block number, and [F] iterations are enough for them. *)
Definition in_reach (F : nat) (n : Z) : Prop := 32 * n < 2 ^ 64 /\ (Z.to_nat (32 * n) + 9 < F)%nat.
(** The widths an instruction uses. *)
Definition instr_widths (i : winstr) : list Z :=
  match i with
  | WU n _ | WS n _ | WSigned n _ _ | WUnsigned n _ _ | WRead n _ | WSRead n _ | WPrint n _ | WSPrint n _ | WSave _ n _ | WLoad _ n _ => [n]
  | WCast n _ k _ | WSCast n _ k _ | WTrunc n _ _ k _ | WSTrunc n _ _ k _ | WPowm n _ _ k _ _ => [n; k]
  | WBase _ | WText _ => []
  end.
Definition cond_widths (c : wcond) : list Z :=
  match c with
  | WUc n _ | WSc n _ => [n]
  | WEq n _ k _ | WLt n _ k _ | WSEq n _ k _ | WSLt n _ k _ => [n; k]
  | WMore => []
  end.
(** All widths are in reach; an exponent of another width has fewer than 2^32 bits (see C151). *)
Definition instr_fits (F : nat) (i : winstr) : Prop :=
  Forall (in_reach F) (instr_widths i) /\ match i with WPowm _ _ _ k _ _ => 32 * k < 2 ^ 32 | _ => True end.
Fixpoint fits (F : nat) (s : stmt winstr wcond) : Prop :=
  match s with
  | Skip => True
  | Do i => instr_fits F i
  | Seq s t => fits F s /\ fits F t
  | If c s t => Forall (in_reach F) (cond_widths c) /\ fits F s /\ fits F t
  | While c s => Forall (in_reach F) (cond_widths c) /\ fits F s
  end.
Definition text_fits (F : nat) (t : list Z) : Prop := len t < 2 ^ 64 /\ (Z.to_nat (len t) < F)%nat.

(** ** Unsigned instructions *)
Lemma wu_binary_eq cfg F o n a b : room F n -> wu_binary cfg F o n a b = u_val cfg o n a b.
Proof.
  intros R. destruct o; cbn [wu_binary u_val].
  - now apply w_add_eq. - now apply w_sub_eq. - now apply w_mul_eq. - now apply w_div_eq. - now apply w_mod_eq.
  - now apply w_bitwise_eq. - now apply w_bitwise_eq. - now apply w_bitwise_eq.
Qed.
Lemma w_cmp_eq cfg F n m a b : room F n -> room F m ->
  w_eq cfg F n m a b = op_eq cfg n m a b /\ w_ne cfg F n m a b = op_ne cfg n m a b /\ w_gt cfg F n m a b = op_gt cfg n m a b /\ w_le cfg F n m a b = op_le cfg n m a b.
Proof.
  intros R R'. unfold w_ne, w_eq, w_gt, w_le, op_ne, op_eq, op_gt, op_le, op_spaceship. rewrite w_compareTo_eq by assumption.
  destruct (compareTo cfg n m a b); auto.
Qed.
Lemma wu_exec_ok cfg F n m e i e' : room F n -> 1 <= n -> urel n m e -> uspec_instr n e i = Some e' ->
  exists m', wu_exec cfg F n m i = Ok m' /\ urel n m' e'.
Proof.
  intros RM Hn R H. pose proof (gfuel_enough n Hn) as GF. pose proof (fun i => proj1 (R i)) as W. pose proof (fun i => proj2 (R i)) as V.
  assert (LZ : len (zeros n) = n) by (apply len_zeros; lia).
  destruct i; cbn [uspec_instr wu_exec] in *; unfold wu_store;
    rewrite ?w_from_unsigned_eq, ?wu_binary_eq, ?w_inc_eq, ?w_dec_eq, ?w_neg_eq, ?w_not_eq, ?w_setBit_eq, ?w_add_u_eq, ?w_mul_u_eq, ?w_divide_eq, ?w_gcd_eq, ?w_lcm_eq,
      ?w_squareRoot_eq, ?w_power2_eq, ?w_powm_eq by exact RM.
  - injection H as <-. apply urel_ret; auto. exists (m (Var s)). split; [reflexivity|apply R].
  - apply guard_some in H. destruct H as [Gd ->]. apply urel_ret; auto. apply from_unsigned_correct; auto; lia.
  - apply guard_some in H. destruct H as [Gd ->]. apply urel_ret; auto. rewrite <- !V in *. apply u_val_ok; auto.
  - apply guard_some in H. destruct H as [Gd ->]. apply urel_ret; auto. rewrite <- !V in *. apply u_val_ok; auto.
  - injection H as <-. apply urel_ret; auto. rewrite <- !V in *. now apply op_inc_correct.
  - injection H as <-. apply urel_ret; auto. rewrite <- !V in *. now apply op_dec_correct.
  - injection H as <-. apply urel_ret; auto. rewrite <- !V in *. now apply op_neg_correct.
  - injection H as <-. apply urel_ret; auto. rewrite <- !V in *. now apply op_not_correct.
  - apply guard_some in H. destruct H as [Gd ->]. rewrite w_shl_eq by (auto; lia). apply urel_ret; auto. rewrite <- !V in *. apply shl_assign_correct; auto. lia.
  - apply guard_some in H. destruct H as [Gd ->]. rewrite w_shr_eq by (auto; lia). apply urel_ret; auto. rewrite <- !V in *. apply shr_assign_correct; auto. lia.
  - apply guard_some in H. destruct H as [Gd ->]. apply urel_ret; auto. rewrite <- !V in *. apply setBit_spec; auto. lia.
  - apply guard_some in H. destruct H as [Gd ->]. apply urel_ret; auto. rewrite <- !V in *. apply add_assign_u_correct; auto; lia.
  - apply guard_some in H. destruct H as [Gd ->]. apply urel_ret; auto. rewrite <- !V in *.
    destruct t; try (apply mul_assign_u_correct; auto; cbn in *; [lia|discriminate]). apply mul_assign_u_small; auto. lia.
  - injection H as <-. eexists. split; [reflexivity|]. apply urel_put; [apply urel_put; auto|]; apply R.
  - match type of H with (if ?g then _ else _) = _ => destruct g eqn:Gd; [|discriminate] end. injection H as <-.
    assert (D : bval (m (Var de)) <> 0) by (rewrite V; lia).
    destruct (divide_pos cfg n _ _ Hn (W nu) (W de) D) as (q0 & r0 & E3 & Q & R3). rewrite E3. cbn [bind]. eexists. split; [reflexivity|].
    rewrite <- !V. apply urel_put; auto. apply urel_put; auto.
  - injection H as <-. apply urel_ret; auto. rewrite <- !V in *. now apply gcd_correct.
  - injection H as <-. apply urel_ret; auto. rewrite <- !V in *. now apply lcm_correct.
  - injection H as <-. apply urel_ret; auto. rewrite <- !V in *. apply squareRoot_correct; auto. lia.
  - apply guard_some in H. destruct H as [Gd ->]. apply urel_ret; auto.
    pose proof (setBit_spec cfg n (zeros n) k true (wf_zeros n ltac:(lia)) ltac:(lia)) as S. rewrite bval_zeros in S.
    unfold power2, aeu_zero. unfold put_bit in S. rewrite Z.setbit_spec' in S. rewrite Z.lor_0_l in S. exact S.
  - apply guard_some in H. destruct H as [Gd ->]. apply urel_ret; auto. rewrite <- !V in *.
    pose proof (powm_spec cfg n _ _ _ Hn (W b) (W p) (W m0) ltac:(lia) ltac:(lia)) as S.
    destruct (Z.eqb_spec (bval (m (Var p))) 0) as [E0|]; [|exact S]. rewrite E0. rewrite Z.mod_small by lia. exact S.
Qed.
Lemma wu_test_ok cfg F n m e c b : room F n -> 1 <= n -> urel n m e -> uspec_cond n e c = Some b -> wu_test cfg F n m c = Ok b.
Proof.
  intros RM Hn R H. rewrite <- (utest_ok cfg n m e c b Hn R H).
  destruct c; cbn [wu_test utest]; try (apply w_cmp_eq; assumption).
  - now apply w_lt_eq. - now apply w_ge_eq. - reflexivity. - now apply w_isZero_eq. - apply w_getBit_eq.
Qed.

(** ** Signed instructions *)
Lemma wsg_binary_eq cfg F o n a b : room F n -> wsg_binary cfg F o n a b = s_assign_val cfg o n a b.
Proof.
  intros R. destruct o; cbn [wsg_binary s_assign_val].
  - now apply ws_add_eq. - now apply ws_sub_eq. - now apply ws_mul_eq. - now apply ws_div_eq. - now apply ws_mod_eq.
Qed.
Lemma wsg_exec_ok cfg F n m e i e' : room F n -> 1 <= n -> srelE n m e -> sspec_instr n e i = Some e' ->
  exists m', wsg_exec cfg F n m i = Ok m' /\ srelE n m' e'.
Proof.
  intros RM Hn R H. pose proof (gfuel_enough n Hn) as GF. pose proof (fun i => proj1 (R i)) as W. pose proof (fun i => proj2 (R i)) as V.
  assert (ME : forall t a k, ws_mul_assign_int F cfg n t a k = s_mul_assign_int cfg n t a k) by (intros; apply (ws_mul_int_eq F cfg n t a k RM)).
  assert (DE : forall t a k, ws_div_assign_int F cfg n t a k = s_div_assign_int cfg n t a k) by (intros; apply (ws_div_int_eq F cfg n t a k RM)).
  pose proof (sexec_ok cfg n m e i e' Hn R H) as X.
  destruct i as [d s|d t v|o d s|o d a b|d|d|d s|d|d t v|d t v|a b|nu de q r|d a|d k];
    try (cbn [wsg_exec]; unfold wsg_store, ws_assign_int; rewrite ?ws_from_int_eq, ?ws_inc_eq, ?ws_dec_eq, ?ME, ?DE, ?ws_squareRoot_eq, ?ws_power2_eq by exact RM; exact X).
  - cbn [sspec_instr wsg_exec] in *. unfold wsg_store. rewrite wsg_binary_eq by exact RM.
    destruct (scop_result o (e d) (e s)) as [v|] eqn:ER; [|discriminate].
    destruct (Z.abs v <? modulus n) eqn:B; [|discriminate]. injection H as <-. rewrite <- !V in ER.
    apply srelE_ret; auto. apply s_assign_val_ok; auto. lia.
  - cbn [sspec_instr wsg_exec] in *. unfold wsg_store. rewrite wsg_binary_eq by exact RM.
    destruct (scop_result o (e a) (e b)) as [v|] eqn:ER; [|discriminate].
    destruct (Z.abs v <? modulus n) eqn:B; [|discriminate]. injection H as <-. rewrite <- !V in ER.
    apply srelE_ret; auto. apply s_assign_val_ok; auto. lia.
  - cbn [sspec_instr wsg_exec] in *. injection H as <-. eexists. split; [reflexivity|].
    destruct (R a) as [Wa Va], (R b) as [Wb Vb]. apply srelE_put; auto. apply srelE_put; auto.
  - cbn [sspec_instr wsg_exec] in *. rewrite ws_divide_eq by exact RM.
    match type of H with (if ?g then _ else _) = _ => destruct g eqn:Gd; [|discriminate] end. injection H as <-.
    assert (D : sval (m (Var de)) <> 0) by (rewrite V; lia).
    destruct (s_divide_correct cfg n _ _ (m (Var q)) (m (Var r)) Hn (W nu) (W de) (proj1 (W q)) (proj1 (W r)) D) as (qq & rr & E5 & Wq & Wr & Vq & Vr).
    rewrite E5. cbn [bind]. eexists. split; [reflexivity|]. rewrite <- !V. apply srelE_put; auto. apply srelE_put; auto.
Qed.
Lemma wsg_test_ok cfg F n m e c b : room F n -> 1 <= n -> srelE n m e -> sspec_cond n e c = Some b -> wsg_test cfg F n m c = Ok b.
Proof.
  intros RM Hn R H. rewrite <- (stest_ok cfg n m e c b Hn R H).
  destruct c; cbn [wsg_test stest]; try reflexivity; try (now apply ws_eq_eq);
    unfold ws_ne, ws_lt, ws_le, ws_gt, ws_ge, s_ne, s_lt, s_le, s_gt, s_ge; rewrite ?ws_eq_eq, ?ws_spaceship_eq by assumption; reflexivity.
Qed.

(** ** Whole programs *)
Lemma reach_room F n : 1 <= n -> in_reach F n -> room F n.
Proof. intros Hn [A B]. unfold room. auto. Qed.

Lemma ww_exec_ok cfg F le wide alnum up old m w i w' : alnum_ok alnum -> instr_fits F i -> Forall (text_fits F) (winput w) ->
  stands_for le up old m w -> wspec_instr up alnum w i = Some w' ->
  exists m', ww_exec cfg F le wide alnum m i = Ok m' /\ stands_for le up old m' w' /\ Forall (text_fits F) (winput w').
Proof.
  intros Ha [Fi FP] FT H E. pose proof H as (A & B & C & _).
  pose proof (wexec_ok cfg le wide alnum up old m w i w' Ha H E) as K.
  assert (FT' : Forall (text_fits F) (winput w')).
  { destruct i; cbn [wspec_instr] in E;
      repeat match type of E with
      | (if ?g then _ else _) = _ => destruct g; try discriminate
      | match ?x with _ => _ end = _ => let Q := fresh in destruct x eqn:Q; try discriminate
      end; injection E as <-; unfold put_u, put_s, set_u, set_s, set_input, set_file, print_piece; cbn [winput]; auto.
    all: exact (Forall_inv_tail FT). }
  assert (K' : forall x, x = wexec cfg le wide alnum m i -> exists m', x = Ok m' /\ stands_for le up old m' w' /\ Forall (text_fits F) (winput w')).
  { intros x ->. destruct K as (m' & E1 & S). exists m'. auto. }
  destruct i; cbn [instr_widths] in Fi; repeat match goal with X : Forall _ (_ :: _) |- _ => apply Forall_cons_iff in X as [? ?] end.
  - cbn [wspec_instr ww_exec] in *. destruct (Z.leb_spec 1 n); [|discriminate]. destruct (uspec_instr n (wu w n) i) as [e|] eqn:EI; [|discriminate]. injection E as <-.
    destruct (wu_exec_ok cfg F n (mu m n) (wu w n) i e) as (x & -> & R); auto; [now apply reach_room|intros k; apply A; auto|]. cbn [bind]. eexists. split; [reflexivity|].
    split; [apply stands_u; auto|exact FT'].
  - cbn [wspec_instr ww_exec] in *. destruct (Z.leb_spec 1 n); [|discriminate]. destruct (sspec_instr n (ws w n) i) as [e|] eqn:EI; [|discriminate]. injection E as <-.
    destruct (wsg_exec_ok cfg F n (ms m n) (ws w n) i e) as (x & -> & R); auto; [now apply reach_room|intros k; apply B; auto|]. cbn [bind]. eexists. split; [reflexivity|].
    split; [apply stands_s; auto|exact FT'].
  - apply K'. cbn [wspec_instr ww_exec wexec] in *. destruct (_ && _) eqn:G in E; [|discriminate]. rewrite w_precisionCast_eq by (apply reach_room; auto; lia). reflexivity.
  - apply K'. cbn [wspec_instr ww_exec wexec] in *. destruct (_ && _) eqn:G in E; [|discriminate]. rewrite ws_precisionCast_eq by (apply reach_room; auto; lia). reflexivity.
  - apply K'. reflexivity.
  - apply K'. reflexivity.
  - apply K'. cbn [wspec_instr ww_exec wexec] in *. destruct (_ && _) eqn:G in E; [|discriminate]. rewrite w_integralCast_eq.
    destruct (integralCast t (mu m n (Var s))); cbn [bind]; [|reflexivity]. rewrite w_from_unsigned_eq by (apply reach_room; auto; lia). reflexivity.
  - apply K'. cbn [wspec_instr ww_exec wexec] in *. destruct (_ && _) eqn:G in E; [|discriminate]. rewrite ws_integralCast_eq.
    destruct (s_integralCast t (ms m n (Var s))); cbn [bind]; [|reflexivity]. rewrite ws_from_int_eq by (apply reach_room; auto; lia). reflexivity.
  - apply K'. cbn [wspec_instr ww_exec wexec] in *. destruct (_ && _) eqn:G in E; [|discriminate]. rewrite w_powm_x_eq; [reflexivity|apply reach_room; auto; lia..|].
    destruct (A k p) as (Wp & _); [lia|]. intros f. rewrite (filledBlocksNumber_value k _ Wp). intros [= <-].
    pose proof (bval_bound k _ Wp) as BB. assert (bit_length (bval (mu m k (Var p))) <= 32 * k) by (apply bit_length_le; [lia|exact BB]).
    assert ((bit_length (bval (mu m k (Var p))) + 31) / 32 <= k) by (apply Z.lt_succ_r, Z.div_lt_upper_bound; lia). lia.
  - apply K'. cbn [wspec_instr ww_exec wexec] in *. rewrite <- C in *. destruct (minput m) as [|t rest]; [reflexivity|]. destruct (_ && _) eqn:G in E; [|discriminate].
    apply Forall_inv in FT. destruct FT as [T1 T2]. pose proof (len_nonneg t). unfold w_from_string, from_string. rewrite w_from_chars_eq by (try (apply reach_room; auto); lia). reflexivity.
  - apply K'. cbn [wspec_instr ww_exec wexec] in *. rewrite <- C in *. destruct (minput m) as [|t rest]; [reflexivity|]. destruct (_ && _) eqn:G in E; [|discriminate].
    apply Forall_inv in FT. destruct FT as [T1 T2]. pose proof (len_nonneg t). unfold ws_from_string, s_from_string. rewrite ws_from_chars_eq by (try (apply reach_room; auto); lia). reflexivity.
  - apply K'. reflexivity.
  - apply K'. cbn [wspec_instr ww_exec wexec] in *. unfold printable in E. destruct (_ && _) eqn:G in E; [|discriminate].
    rewrite w_stream_eq; [reflexivity|apply reach_room; auto; lia|apply A; lia|lia].
  - apply K'. cbn [wspec_instr ww_exec wexec] in *. unfold printable in E. destruct (_ && _) eqn:G in E; [|discriminate].
    destruct (B n s) as [Wn _]; [lia|].
    destruct (C150_same cfg F n false false (fun b _ => b) 0 alnum [] 0 (mag (ms m n (Var s))) (ms m n (Var s)) [] 0 false (mos m)) as (_ & _ & _ & _ & Q); try lia; auto;
      try (apply Wn); try (match goal with X : in_reach F n |- _ => destruct X; lia end).
    destruct (Q ltac:(lia)) as [_ ->]. reflexivity.
  - apply K'. reflexivity.
  - apply K'. reflexivity.
  - apply K'. reflexivity.
Qed.
Lemma ww_test_ok cfg F le up old m w c b : Forall (in_reach F) (cond_widths c) -> stands_for le up old m w -> wspec_cond w c = Some b -> ww_test cfg F m c = Ok b.
Proof.
  intros Fi H E. pose proof H as (A & B & C & _). pose proof (wtest_ok cfg le up old m w c b H E) as K.
  destruct c; cbn [cond_widths] in Fi; repeat match goal with X : Forall _ (_ :: _) |- _ => apply Forall_cons_iff in X as [? ?] end; cbn [wspec_cond ww_test wtest] in *.
  - destruct (Z.leb_spec 1 n); [|discriminate]. apply wu_test_ok with (e := wu w n); auto; [now apply reach_room|intros i; apply A; auto].
  - destruct (Z.leb_spec 1 n); [|discriminate]. apply wsg_test_ok with (e := ws w n); auto; [now apply reach_room|intros i; apply B; auto].
  - destruct (_ && _) eqn:G in E; [|discriminate]. destruct (w_cmp_eq cfg F n m0 (mu m n (Var a)) (mu m m0 (Var b0))) as [-> _]; auto; apply reach_room; auto; lia.
  - destruct (_ && _) eqn:G in E; [|discriminate]. rewrite w_lt_eq by (apply reach_room; auto; lia). exact K.
  - destruct (_ && _) eqn:G in E; [|discriminate]. rewrite ws_eq_eq by (apply reach_room; auto; lia). exact K.
  - destruct (_ && _) eqn:G in E; [|discriminate]. unfold ws_lt. rewrite ws_spaceship_eq by (apply reach_room; auto; lia). exact K.
  - exact K.
Qed.

(** A whole program whose widths the machine can count in, run on machine counters, indices and shifts, computes what
    its integer reading computes. *)
Theorem C158_machine_programs : forall cfg F le wide alnum up old fuel prog m w, alnum_ok alnum ->
  fits F prog -> Forall (text_fits F) (winput w) -> stands_for le up old m w ->
  match wspec_run up alnum fuel prog w with
  | WVal w' => exists m', ww_run cfg F le wide alnum fuel prog m = Ok m' /\ stands_for le up old m' w'
  | WUndef => True
  | WTimeout => ww_run cfg F le wide alnum fuel prog m = Err OutOfFuel
  end.
Proof.
  intros cfg F le wide alnum up old fuel prog m w Ha FP FT HR.
  assert (K : match wspec_run up alnum fuel prog w with
    | WVal w' => exists m', ww_run cfg F le wide alnum fuel prog m = Ok m' /\ stands_for le up old m' w' /\ Forall (text_fits F) (winput w')
    | WUndef => True
    | WTimeout => ww_run cfg F le wide alnum fuel prog m = Err OutOfFuel end).
  { unfold ww_run. revert prog m w FP FT HR. induction fuel as [|f IH]; intros s m w FP FT HR; cbn [wspec_run run]; [reflexivity|].
    destruct s as [|i|s t|c s t|c s]; cbn [fits] in FP.
    - eauto.
    - destruct (wspec_instr up alnum w i) as [w'|] eqn:E; auto. eapply ww_exec_ok; eauto.
    - destruct FP as [F1 F2]. pose proof (IH s m w F1 FT HR) as H. destruct (wspec_run up alnum f s w) as [w'| |]; auto.
      + destruct H as (m' & -> & R' & FT'). cbn [bind]. apply IH; auto.
      + rewrite H. reflexivity.
    - destruct FP as (F0 & F1 & F2). destruct (wspec_cond w c) as [b|] eqn:E; auto. rewrite (ww_test_ok cfg F le up old m w c b) by auto. cbn [bind].
      apply IH; auto. destruct b; auto.
    - destruct FP as (F0 & F1). destruct (wspec_cond w c) as [b|] eqn:E; auto. rewrite (ww_test_ok cfg F le up old m w c b) by auto. cbn [bind]. destruct b.
      + pose proof (IH s m w F1 FT HR) as H. destruct (wspec_run up alnum f s w) as [w'| |]; auto.
        * destruct H as (m' & -> & R' & FT'). cbn [bind]. apply IH; auto. cbn [fits]. auto.
        * rewrite H. reflexivity.
      + exists m. auto. }
  destruct (wspec_run up alnum fuel prog w); auto. destruct K as (m' & E & S & _). exists m'. auto.
Qed.
Print Assumptions C158_machine_programs.

(** From scratch: the one text the integer reading prints, and the bytes of the records not read back; the same as
    when the objects of the program are shared by reference (C146). *)
Theorem C158_from_scratch : forall cfg cfg' F le wide alnum fuel prog texts os w, alnum_ok alnum -> out os = [] -> width os = 0 -> showbase os = false ->
  fits F prog -> Forall (text_fits F) texts ->
  wspec_run (uppercase os) alnum fuel prog (start_world texts (basef os)) = WVal w ->
  exists m, ww_run cfg F le wide alnum fuel prog (start_mem texts os) = Ok m /\
    (forall text, renders (wprinted w) text <-> text = out (mos m)) /\
    mfile m = concat (map (record_bytes le) (wfile w)) /\
    exists m', wrun cfg' le wide alnum fuel prog (start_mem texts os) = Ok m' /\ out (mos m') = out (mos m) /\ mfile m' = mfile m.
Proof.
  intros cfg cfg' F le wide alnum fuel prog texts os w Ha O W S FP FT E.
  pose proof (C158_machine_programs cfg F le wide alnum (uppercase os) [] fuel prog _ (start_world texts (basef os)) Ha FP FT (start_stands le texts os O W S)) as T. rewrite E in T.
  destruct T as (m & T & _ & _ & _ & (_ & _ & _ & _ & t & D5 & D6) & F' & _). exists m. split; [exact T|].
  assert (Q : forall text, renders (wprinted w) text <-> text = out (mos m)).
  { intros text. rewrite D6. cbn [app]. split; [|intros ->; exact D5]. intros R. eapply renders_unique; [eapply run_based; [|exact E]; constructor|eauto|eauto]. }
  split; [exact Q|]. split; [exact F'|].
  destruct (C146_from_scratch cfg' le wide alnum fuel prog texts os w Ha O W S E) as (m' & E' & Q' & G'). exists m'. split; [exact E'|].
  split; [apply Q, Q'; reflexivity|congruence].
Qed.
Print Assumptions C158_from_scratch.

Example C158_example : fits 106 totals /\ Forall (text_fits 106) [ [53]; [45; 50; 51] ] /\
  (match ww_run (mk_config false false true) 106 true false alnum_c 20 totals (start_mem [ [53]; [45; 50; 51] ] example_os) with
   | Ok m => out (mos m) = [45; 49; 50; 32; 49; 99]
   | Err _ => False
   end).
Proof.
  split; [|split].
  - assert (R : forall n, n = 1 \/ n = 3 -> in_reach 106 n) by (intros n [->| ->]; split; [lia|cbn; lia|lia|cbn; lia]).
    cbn [fits totals instr_fits instr_widths cond_widths]. unfold instr_fits. cbn [instr_widths]. repeat match goal with |- _ /\ _ => split end; repeat constructor; apply R; lia.
  - repeat constructor; cbn; lia.
  - vm_compute. reflexivity.
Qed.
