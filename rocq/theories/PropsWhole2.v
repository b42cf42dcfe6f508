(** * PropsWhole2: C146, whole programs cannot fault.

    Stated about [wrun] of [WholeModel.v] with the vocabulary of [WholeSpec.v] and [ProgTotal.v]. *)
From Verif Require Import Lib WholeModel ProgFacts ProgTotal ProgSigned TextOut PropsText PropsAesi PropsAeu PropsBin PropsMix PropsUse2 PropsExact PropsWhole AeuFacts AeuAccess AeuMore AesiFacts.
Open Scope Z_scope.

(** Calls the compiler accepts and that need no care about values: every width is at least one block, literals are
    values of their types, numbers are printed at widths at which every base can be printed, conversions to a
    built-in type are made from at least two blocks, to an unsigned type or to a signed one narrower than [int]. *)
Definition winstr_typed (i : winstr) : Prop :=
  match i with
  | WU n i => 1 <= n /\ uinstr_typed i
  | WS n i => 1 <= n /\ sinstr_typed i
  | WCast n _ m _ | WSCast n _ m _ => 1 <= n /\ 1 <= m
  | WSigned n _ _ | WUnsigned n _ _ | WRead n _ | WSRead n _ | WSave _ n _ | WLoad _ n _ => 1 <= n
  | WTrunc n _ t m _ => 2 <= n /\ 1 <= m /\ isigned t = false /\ ity_ok t = true
  | WSTrunc n _ t m _ => 2 <= n /\ 1 <= m /\ (isigned t = false \/ iwidth t < 32)
  | WPowm n _ _ k _ _ => 1 <= n /\ 1 <= k
  | WPrint n _ | WSPrint n _ => 3 <= n /\ 32 * n < 2 ^ 53
  | WBase _ | WText _ => True
  end.
Definition wcond_typed (c : wcond) : Prop :=
  match c with
  | WUc n c => 1 <= n /\ ucond_typed c
  | WSc n _ => 1 <= n
  | WEq n _ m _ | WLt n _ m _ | WSEq n _ m _ | WSLt n _ m _ => 1 <= n /\ 1 <= m
  | WMore => True
  end.
(** Any state: the objects hold any blocks and any signs, the texts any characters of the basic set, the file any
    bytes; only the stream must not be waiting to pad a field. *)
Definition any_state (m : wmem) : Prop :=
  (forall n i, 1 <= n -> wf n (mu m n (Var i))) /\ (forall n i, 1 <= n -> wf n (mag (ms m n (Var i)))) /\
  Forall (Forall (fun c => 0 <= c)) (minput m) /\ width (mos m) = 0 /\ Forall is_byte (mfile m).

Lemma s_cast_tot cfg n m a : 1 <= n -> 1 <= m -> wf n (mag a) -> stot m (s_precisionCast cfg n m a).
Proof.
  intros Hn Hm Wa. unfold s_precisionCast. destruct (s_isZero a) eqn:Z; cbn [negb].
  - eexists. split; [reflexivity|]. apply wf_zeros; lia.
  - destruct (s_from_int_correct m int32 1 Hm) as (x & Ex & [Wx Cx] & Vx); [reflexivity|reflexivity|cbn; lia|intros _ _; discriminate|].
    rewrite Ex. cbn [bind].
    assert (Bx : bval (mag x) = 1) by (pose proof (bval_bound m _ Wx); unfold sval in Vx; destruct (sgn x); auto; lia).
    destruct (s_precisionCast_loop cfg n m (mag a) (mag x) Wa Wx) as (b & Eb & Wb & Vb).
    { intros j Hj. destruct (Z.ltb_spec j m).
      - rewrite (znth_digit m) by (auto; lia). rewrite Bx. rewrite Z.div_small; [reflexivity|]. split; [lia|]. apply Z.pow_gt_1; lia.
      - apply znth_out. rewrite (wf_len _ _ Wx). lia. }
    rewrite Eb. cbn [bind]. eexists. split; [reflexivity|]. destruct (s_isNegative a); unfold s_inverse, with_sign, with_mag; cbn [mag]; auto.
Qed.
Lemma s_cmp_tot cfg n a b : wf n (mag a) -> wf n (mag b) -> exists c, s_compareTo cfg n a b = Ok c.
Proof.
  intros Wa Wb. unfold s_compareTo. rewrite (compareTo_same cfg n) by auto. cbn [bind].
  destruct (s_isZero b), (s_isNegative b), (sign_eqb (sgn a) SNeg), (sign_eqb (sgn a) SPos); eauto.
Qed.
Lemma print_tot cfg n os a : wf n a -> width os = 0 -> 32 * n < 2 ^ 53 -> 3 <= n -> exists os', stream_insert cfg n os a = Ok os' /\ width os' = 0.
Proof.
  intros W W0 H53 Hn. pose proof (bval_bound n a W).
  destruct (numeral_exists (uppercase os && (os_base os =? 16)) (os_base os) (bval a)) as (s & S); [unfold os_base; destruct (basef os); lia|lia|].
  destruct (stream_state cfg n os a s W W0 H53 Hn S) as (o & E & _ & _ & _ & W1 & _). eauto.
Qed.
Lemma any_put_u m n d x : 1 <= n -> any_state m -> wf n x -> any_state (assign_u m n d x).
Proof.
  intros Hn (A & B & C & D & E) W. unfold any_state, assign_u, put_mu; cbn [mu ms minput mos mfile]. conjs; auto.
  intros k i Hk. destruct (Z.eqb_spec k n) as [->|]; auto. unfold mput. cbn [loc_eqb]. destruct (Nat.eqb i d); auto.
Qed.
Lemma any_put_s m n d x : 1 <= n -> any_state m -> wf n (mag x) -> any_state (assign_s m n d x).
Proof.
  intros Hn (A & B & C & D & E) W. unfold any_state, assign_s, put_ms; cbn [mu ms minput mos mfile]. conjs; auto.
  intros k i Hk. destruct (Z.eqb_spec k n) as [->|]; auto. unfold sput. cbn [loc_eqb]. destruct (Nat.eqb i d); auto.
Qed.

Lemma wexec_tot cfg le wide alnum m i : cfg_unsafe cfg = false -> alnum_ok alnum -> winstr_typed i -> any_state m ->
  exists m', wexec cfg le wide alnum m i = Ok m' /\ any_state m'.
Proof.
  intros U Ha T H. pose proof H as (A & B & C & D & F). destruct i; cbn [winstr_typed wexec] in *.
  - destruct T as (Hn & T). destruct (uexec_tot cfg n (mu m n) i Hn U T) as (x & -> & W); [intros k; auto|]. cbn [bind]. eexists. split; [reflexivity|].
    unfold any_state, put_mu; cbn [mu ms minput mos mfile]. conjs; auto. intros k j Hk. destruct (Z.eqb_spec k n) as [->|]; auto.
  - destruct T as (Hn & T). destruct (sexec_tot cfg n (ms m n) i Hn U T) as (x & -> & W); [intros k; auto|]. cbn [bind]. eexists. split; [reflexivity|].
    unfold any_state, put_ms; cbn [mu ms minput mos mfile]. conjs; auto. intros k j Hk. destruct (Z.eqb_spec k n) as [->|]; auto.
  - destruct T as (Hn & Hm). destruct (precisionCast_spec cfg n m0 _ (A n s Hn)) as (x & -> & W & _); [lia|]. cbn [bind]. eexists. split; [reflexivity|]. apply any_put_u; auto.
  - destruct T as (Hn & Hm). destruct (s_cast_tot cfg n m0 _ Hn Hm (B n s Hn)) as (x & -> & W). cbn [bind]. eexists. split; [reflexivity|]. apply any_put_s; auto.
  - eexists. split; [reflexivity|]. apply any_put_s; auto; exact (A n s T).
  - eexists. split; [reflexivity|]. apply any_put_u; auto; exact (B n s T).
  - destruct T as (Hn & Hm & S & W64). rewrite (integralCast_spec t n) by (auto; apply A; lia). cbn [bind].
    assert (R : 0 <= icast t (bval (mu m n (Var s)) mod 2 ^ 64) < 2 ^ 64).
    { unfold icast. rewrite S. cbn [andb]. assert (WI : 0 < 2 ^ iwidth t <= 2 ^ 64).
      { unfold ity_ok in W64. repeat (apply Bool.orb_prop in W64; destruct W64 as [W64|W64]); apply Z.eqb_eq in W64; rewrite W64; lia. }
      pose proof (Z.mod_pos_bound (bval (mu m n (Var s)) mod 2 ^ 64) (2 ^ iwidth t) (proj1 WI)). lia. }
    destruct (from_unsigned_correct m0 (zeros m0) _ ltac:(lia) (len_zeros m0 ltac:(lia)) R) as (x & -> & W & _). cbn [bind].
    eexists. split; [reflexivity|]. apply any_put_u; auto.
  - destruct T as (Hn & Hm & S).
    assert (K : exists v, s_integralCast t (ms m n (Var s)) = Ok v).
    { unfold s_integralCast. rewrite (integralCast_spec t n) by (auto; apply B; lia). cbn [bind].
      destruct (sgn (ms m n (Var s))); eauto. destruct (isigned t) eqn:I; eauto. unfold imul_m1.
      match goal with |- context [ineg t ?v] => destruct (ProgSigned.ineg_ok t v) as (w & ->); [intros _ L; destruct S; [congruence|lia]|] end. cbn [bind]. eauto. }
    destruct K as (v & ->). cbn [bind].
    destruct (s_from_int_tot m0 t v Hm) as (x & -> & W); [intros I L; destruct S; [congruence|lia]|]. cbn [bind]. eexists. split; [reflexivity|]. apply any_put_s; auto.
  - destruct T as (Hn & Hk). destruct (C101_powm_mixed_residue cfg n k _ _ _ Hn (A n b Hn) (A k p Hk) (A n m0 Hn)) as (x & -> & W & _). cbn [bind].
    eexists. split; [reflexivity|]. apply any_put_u; auto.
  - destruct (minput m) as [|t rest] eqn:EM; [eauto|]. inversion C; subst.
    destruct (C32_string_construction n wide alnum t ltac:(lia) Ha H2) as (x & -> & W & _). cbn [bind]. eexists. split; [reflexivity|]. apply any_put_u; auto.
    unfold any_state, put_input; cbn [mu ms minput mos mfile]. auto.
  - destruct (minput m) as [|t rest] eqn:EM; [eauto|]. inversion C; subst.
    destruct (C57_signed_string_construction n wide alnum t ltac:(lia) Ha H2) as (x & -> & (W & _) & _). cbn [bind]. eexists. split; [reflexivity|]. apply any_put_s; auto.
    unfold any_state, put_input; cbn [mu ms minput mos mfile]. auto.
  - eexists. split; [reflexivity|]. unfold any_state, put_os, os_setbase; cbn [mu ms minput mos mfile width]. auto.
  - destruct T as (Hn & H53). destruct (print_tot cfg n (mos m) _ (A n s ltac:(lia)) D H53 Hn) as (o & -> & W). cbn [bind]. eexists. split; [reflexivity|].
    unfold any_state, put_os; cbn [mu ms minput mos mfile]. auto.
  - destruct T as (Hn & H53).
    assert (K : exists o, s_stream_insert cfg n (mos m) (ms m n (Var s)) = Ok o /\ width o = 0).
    { unfold s_stream_insert. destruct (sgn (ms m n (Var s))); [eexists; split; [reflexivity|]; reflexivity| |]; apply print_tot; auto; apply B; lia. }
    destruct K as (o & -> & W). cbn [bind]. eexists. split; [reflexivity|]. unfold any_state, put_os; cbn [mu ms minput mos mfile]. auto.
  - eexists. split; [reflexivity|]. unfold any_state, put_os; cbn [mu ms minput mos mfile]. conjs; auto.
  - rewrite written by (auto; lia). cbn [bind obytes]. eexists. split; [reflexivity|]. unfold any_state, put_file; cbn [mu ms minput mos mfile]. conjs; auto.
    apply Forall_app. split; [exact F|apply record_is_bytes].
  - destruct (C40_short_read le n (mfile m) be ltac:(lia) F) as (x & -> & W & _). cbn [bind ibytes]. eexists. split; [reflexivity|]. apply any_put_u; auto.
    unfold any_state, put_file; cbn [mu ms minput mos mfile]. conjs; auto. rewrite <- (firstn_skipn (Z.to_nat (4 * n)) (mfile m)) in F. apply Forall_app in F. tauto.
Qed.
Lemma wtest_tot cfg m c : cfg_unsafe cfg = false -> wcond_typed c -> any_state m -> exists b, wtest cfg m c = Ok b.
Proof.
  intros U T (A & B & C & D & F).
  assert (K : forall n k a b, 1 <= n -> 1 <= k -> exists c, s_compareTo_x cfg n k (ms m n (Var a)) (ms m k (Var b)) = Ok c).
  { intros n k a b Hn Hk. unfold s_compareTo_x. destruct (Z.eqb_spec n k) as [<-|]; [apply s_cmp_tot; auto|].
    destruct (s_cast_tot cfg n k _ Hn Hk (B n a Hn)) as (x & -> & W). cbn [bind]. apply s_cmp_tot; auto. }
  destruct c; cbn [wcond_typed wtest] in *.
  - apply utest_tot; auto; try tauto. intros i. apply A. tauto.
  - apply stest_tot; auto. intros i. apply B. auto.
  - rewrite op_eq_cross by (apply A; tauto). eauto.
  - destruct T as (Hn & Hm). rewrite (proj1 (cross_order_exact cfg n m0 _ _ (A n a Hn) (A m0 b Hm))). eauto.
  - destruct T as (Hn & Hm). destruct (K n m0 a b Hn Hm) as (c & E). unfold s_compareTo_x in E. unfold s_eq. destruct (n =? m0).
    + rewrite E. cbn [bind]. eauto.
    + destruct (s_precisionCast cfg n m0 (ms m n (Var a))); cbn [bind] in *; [|discriminate]. rewrite E. cbn [bind]. eauto.
  - destruct T as (Hn & Hm). destruct (K n m0 a b Hn Hm) as (c & E). unfold s_lt, s_spaceship. rewrite E. cbn [bind]. eauto.
  - eauto.
Qed.

(** ** C146: such a program cannot fault, whatever the variables, the texts and the file hold: it ends, or it loops *)
Theorem C146_never_fault : forall cfg le wide alnum fuel prog m, cfg_unsafe cfg = false -> alnum_ok alnum ->
  typed winstr_typed wcond_typed prog -> any_state m ->
  match wrun cfg le wide alnum fuel prog m with
  | Ok m' => any_state m'
  | Err f => f = OutOfFuel
  end.
Proof.
  intros cfg le wide alnum fuel prog m U Ha T H. unfold wrun. apply (run_tot (wexec cfg le wide alnum) (wtest cfg) winstr_typed wcond_typed any_state); auto.
  - intros x i Ti Hx. apply wexec_tot; auto.
  - intros x c Tc Hx. apply wtest_tot; auto.
Qed.
Print Assumptions C146_never_fault.
Example C146_never_fault_example : typed winstr_typed wcond_typed totals /\ any_state (start_mem [ [53]; [45; 50; 51] ] example_os) /\
  any_state (mk_wmem (fun n _ => zeros n) (fun n _ => mk_aesi SNeg (zeros n)) [ [120] ] example_os [7]).
Proof.
  split; [cbn [typed totals winstr_typed wcond_typed uinstr_typed sinstr_typed]; conjs; auto; try lia; reflexivity|].
  split; unfold any_state, start_mem; cbn [mu ms minput mos mfile s_default mag]; conjs; try (intros; apply wf_zeros; lia); try reflexivity; repeat constructor; lia.
Qed.
