(** * PropsCfg: C111-C112, the build configurations AESI_UNSAFE and NDEBUG. *)
From Coq Require Import ZifyBool.
From Verif Require Import Spec Lib AeuModel AesiModel AesiArith AesiFacts AeuAccess TextModel AliasModel ProgSpec ProgModel ProgTotal ProgSigned CfgFacts.
Open Scope Z_scope.
Ltac conjs := repeat match goal with |- _ /\ _ => split end.
Ltac wfc := apply wfb_wf; vm_compute; reflexivity.
(** The four builds: checks on or off, asserts on or off. *)
Definition checked : config := mk_config false false true.
Definition unsafe_debug : config := mk_config true false true.
Definition unsafe_release : config := mk_config true true true.

(** ** C111 *)
(** Inside the number the six accessors (and power2) do exactly the same in every build. *)
Theorem C111_accessors_in_range : forall cfg cfg' n a s i b v, wf n a -> wf n (mag s) ->
  (0 <= i < 32 * n ->
     getBit cfg n a i = getBit cfg' n a i /\ setBit cfg n a i b = setBit cfg' n a i b /\
     s_getBit cfg n s i = s_getBit cfg' n s i /\ s_setBit cfg n s i b = s_setBit cfg' n s i b /\
     power2 cfg n i = power2 cfg' n i /\ s_power2 cfg n i = s_power2 cfg' n i) /\
  (0 <= i < 4 * n ->
     getByte cfg n a i = getByte cfg' n a i /\ setByte cfg n a i v = setByte cfg' n a i v /\
     s_getByte cfg n s i = s_getByte cfg' n s i /\ s_setByte cfg n s i v = s_setByte cfg' n s i v) /\
  (0 <= i < n ->
     getBlock cfg n a i = getBlock cfg' n a i /\ setBlock cfg n a i v = setBlock cfg' n a i v /\
     s_getBlock cfg n s i = s_getBlock cfg' n s i /\ s_setBlock cfg n s i v = s_setBlock cfg' n s i v).
Proof.
  intros cfg cfg' n a s i b v W Ws. pose proof (wf_nonneg _ _ W) as Hn. assert (W0 : wf n (aeu_zero n)) by (apply wf_zeros; lia).
  unfold s_getBit, s_setBit, s_getByte, s_setByte, s_getBlock, s_setBlock, s_power2, power2. conjs; intros H; conjs;
    rewrite ?(getBit_cfg cfg cfg'), ?(setBit_cfg cfg cfg'), ?(getByte_cfg cfg cfg'), ?(setByte_cfg cfg cfg'), ?(getBlock_cfg cfg cfg'), ?(setBlock_cfg cfg cfg') by (auto; lia); reflexivity.
Qed.
Print Assumptions C111_accessors_in_range.

(** What an index outside the number does in a build with AESI_UNSAFE: a failing assert, or (NDEBUG) an access
    outside the object.  Block indices are not even asserted. *)
Definition out_of_range_fault (cfg : config) : fault := if cfg_ndebug cfg then OutOfBounds else AssertFailed.
Theorem C111_accessors_out_of_range : forall cfg n a s i b v, cfg_unsafe cfg = true -> wf n a -> wf n (mag s) ->
  (32 * n <= i ->
     getBit cfg n a i = Err (out_of_range_fault cfg) /\ setBit cfg n a i b = Err (out_of_range_fault cfg) /\
     s_getBit cfg n s i = Err (out_of_range_fault cfg) /\ s_setBit cfg n s i b = Err (out_of_range_fault cfg) /\
     power2 cfg n i = Err (out_of_range_fault cfg) /\ s_power2 cfg n i = Err (out_of_range_fault cfg)) /\
  (4 * n <= i ->
     getByte cfg n a i = Err (out_of_range_fault cfg) /\ setByte cfg n a i v = Err (out_of_range_fault cfg) /\
     s_getByte cfg n s i = Err (out_of_range_fault cfg) /\ s_setByte cfg n s i v = Err (out_of_range_fault cfg)) /\
  (n <= i ->
     getBlock cfg n a i = Err OutOfBounds /\ setBlock cfg n a i v = Err OutOfBounds /\
     s_getBlock cfg n s i = Err OutOfBounds /\ s_setBlock cfg n s i v = Err OutOfBounds).
Proof.
  intros cfg n a s i b v U W Ws. pose proof (wf_nonneg _ _ W) as Hn. assert (W0 : wf n (aeu_zero n)) by (apply wf_zeros; lia).
  pose proof (wf_len _ _ W) as L. pose proof (wf_len _ _ Ws) as Ls. pose proof (wf_len _ _ W0) as L0.
  unfold s_getBit, s_setBit, s_getByte, s_setByte, s_getBlock, s_setBlock, s_power2, power2. conjs; intros H; conjs;
    rewrite ?getBit_unsafe, ?setBit_unsafe, ?getByte_unsafe, ?setByte_unsafe, ?getBlock_unsafe, ?setBlock_unsafe by auto; reflexivity.
Qed.
Print Assumptions C111_accessors_out_of_range.
Example C111_example : wf 2 [5; 7] /\ getBit unsafe_debug 2 [5; 7] 32 = getBit checked 2 [5; 7] 32 /\ getBit unsafe_debug 2 [5; 7] 32 = Ok true /\
  setByte unsafe_release 2 [5; 7] 4 255 = Ok [5; 255] /\ setByte checked 2 [5; 7] 4 255 = Ok [5; 255] /\
  getBit unsafe_debug 2 [5; 7] 64 = Err AssertFailed /\ setBit unsafe_release 2 [5; 7] 64 true = Err OutOfBounds /\ getBit checked 2 [5; 7] 64 = Ok false /\
  getBlock unsafe_debug 2 [5; 7] 2 = Err OutOfBounds /\ power2 unsafe_debug 2 64 = Err AssertFailed.
Proof. conjs; [wfc|vm_compute; reflexivity..]. Qed.

(** ** C112 *)
(** Everything that takes no index is the same in every build (same platform: [cfg_ull_distinct]). *)
Theorem C112_functions_ignore_the_build : forall cfg cfg' fuel n k a b c p, 1 <= n -> 0 <= k -> wf n a -> wf n b -> wf n c -> wf k p ->
  64 * n + 2 <= Z.of_nat fuel ->
  compareTo cfg n k a p = compareTo cfg' n k a p /\
  op_eq cfg n k a p = op_eq cfg' n k a p /\ op_lt cfg n k a p = op_lt cfg' n k a p /\
  divide cfg n a b = divide cfg' n a b /\ gcd cfg fuel n a b = gcd cfg' fuel n a b /\
  lcm cfg fuel n a b = lcm cfg' fuel n a b /\ gcd_ext cfg fuel n a b = gcd_ext cfg' fuel n a b /\
  powm cfg n a b c = powm cfg' n a b c /\ powm_x cfg n k a p c = powm_x cfg' n k a p c /\
  squareRoot cfg fuel n a = squareRoot cfg' fuel n a /\ precisionCast cfg n k a = precisionCast cfg' n k a /\
  (forall wide upper wfail base buffer bufferSize showBase, 0 <= base < 2 ^ 64 ->
     getString cfg n wide upper wfail base a buffer bufferSize showBase = getString cfg' n wide upper wfail base a buffer bufferSize showBase) /\
  (forall os, stream_insert cfg n os a = stream_insert cfg' n os a).
Proof.
  intros cfg cfg' fuel n k a b c p Hn Hk Wa Wb Wc Wp Hf. unfold op_eq, op_lt, op_spaceship. rewrite (compareTo_cfg cfg cfg') by lia. conjs; try reflexivity.
  - apply divide_cfg; auto.
  - apply gcd_cfg; auto.
  - apply lcm_cfg; auto.
  - apply gcd_ext_cfg; auto.
  - apply powm_cfg; auto.
  - apply powm_x_cfg; auto.
  - apply squareRoot_cfg; auto; lia.
  - apply precisionCast_cfg; auto.
  - intros. apply getString_cfg; auto.
  - intros. apply stream_insert_cfg; auto.
Qed.
Print Assumptions C112_functions_ignore_the_build.

(** Whole programs.  If all bit indices and powers of two in the program lie inside the numbers, every build
    runs it identically, step by step, to the same store (or to the same time-out): defining AESI_UNSAFE and
    NDEBUG is then invisible, and the unsafe build never faults. *)
Theorem C112_programs_in_range : forall cfg cfg' n fuel prog m, 1 <= n ->
  typed (fun i => uinstr_typed i /\ uinstr_in_range n i) (fun c => ucond_in_range n c) prog -> (forall i, wf n (m (Var i))) ->
  urun cfg n fuel prog m = urun cfg' n fuel prog m /\ (forall f, urun cfg n fuel prog m = Err f -> f = OutOfFuel).
Proof.
  intros cfg cfg' n fuel prog m Hn T A.
  assert (TT : forall s, typed (fun i => uinstr_typed i /\ uinstr_in_range n i) (fun c => ucond_in_range n c) s -> typed uinstr_typed ucond_typed s).
  { assert (CC : forall c, ucond_in_range n c -> ucond_typed c) by (intros [ | | | | | | | | ]; cbn; auto; lia).
    induction s as [|i|s1 IH1 s2 IH2|c s1 IH1 s2 IH2|c s1 IH1]; cbn [typed]; try tauto; intros H; pose proof (CC c); tauto. }
  assert (S : forall c1 c2, urun c1 n fuel prog m = urun c2 n fuel prog m).
  { intros c1 c2. apply (run_same (uexec c1 n) (uexec c2 n) (utest c1 n) (utest c2 n) (fun i => uinstr_typed i /\ uinstr_in_range n i) (fun c => ucond_in_range n c) (all_wf n)); auto.
    - intros s i [Ti Ri] As. split; [apply uexec_cfg; auto|]. intros s' E. rewrite (uexec_cfg c1 checked) in E by auto.
      destruct (uexec_tot checked n s i Hn eq_refl Ti As) as (s1 & E1 & A1). rewrite E1 in E. injection E as <-. auto.
    - intros s c Rc As. apply utest_cfg; auto. }
  split; [apply S|]. intros f E. rewrite (S cfg checked) in E.
  pose proof (run_tot (uexec checked n) (utest checked n) uinstr_typed ucond_typed (all_wf n)) as R.
  specialize (R ltac:(intros; apply uexec_tot; auto) ltac:(intros; eapply utest_tot; eauto) fuel prog m (TT prog T) A).
  unfold urun in E. rewrite E in R. exact R.
Qed.
Print Assumptions C112_programs_in_range.
(** Any program at all: the unsafe build either faults (or is still running) or ends in the very store the
    checked build ends in; it never silently computes something else. *)
Theorem C112_unsafe_programs : forall cfg cfg' n fuel prog m m', 1 <= n -> cfg_unsafe cfg = false -> cfg_unsafe cfg' = true ->
  typed uinstr_typed ucond_typed prog -> (forall i, wf n (m (Var i))) ->
  urun cfg' n fuel prog m = Ok m' -> urun cfg n fuel prog m = Ok m'.
Proof.
  intros cfg cfg' n fuel prog m m' Hn U U' T A E.
  eapply (run_refines (uexec cfg n) (uexec cfg' n) (utest cfg n) (utest cfg' n) uinstr_typed ucond_typed (all_wf n)); eauto.
  - intros s i s' Ti As Es. pose proof (uexec_unsafe cfg cfg' n s i s' Hn U' Ti As Es) as Ec. split; auto.
    destruct (uexec_tot cfg n s i Hn U Ti As) as (s1 & E1 & A1). rewrite E1 in Ec. injection Ec as <-. auto.
  - intros s c b Tc As Es. eapply utest_unsafe; eauto.
Qed.
Print Assumptions C112_unsafe_programs.
(** The same for the signed class. *)
Theorem C112_signed_programs : forall cfg cfg' n fuel prog m m', 1 <= n -> cfg_unsafe cfg = false ->
  cfg_unsafe cfg' = true -> cfg_ull_distinct cfg = cfg_ull_distinct cfg' ->
  typed sinstr_typed (fun _ => True) prog -> (forall i, wf n (mag (m (Var i)))) ->
  srun cfg' n fuel prog m = Ok m' -> srun cfg n fuel prog m = Ok m'.
Proof.
  intros cfg cfg' n fuel prog m m' Hn U U' UL T A E.
  eapply (run_refines (sexec cfg n) (sexec cfg' n) (stest cfg n) (stest cfg' n) sinstr_typed (fun _ => True) (all_swf n)); eauto.
  - intros s i s' Ti As Es. pose proof (sexec_unsafe cfg cfg' n s i s' Hn U' UL Ti As Es) as Ec. split; auto.
    destruct (sexec_tot cfg n s i Hn U Ti As) as (s1 & E1 & A1). rewrite E1 in Ec. injection Ec as <-. auto.
  - intros s c b _ As Es. now rewrite (stest_cfg cfg cfg').
Qed.
Print Assumptions C112_signed_programs.
Theorem C112_signed_programs_in_range : forall cfg cfg' n fuel prog m, 1 <= n -> cfg_ull_distinct cfg = cfg_ull_distinct cfg' ->
  typed (fun i => sinstr_typed i /\ sinstr_in_range n i) (fun _ => True) prog -> (forall i, wf n (mag (m (Var i)))) ->
  srun cfg n fuel prog m = srun cfg' n fuel prog m.
Proof.
  intros cfg cfg' n fuel prog m Hn UL T A.
  apply (run_same (sexec cfg n) (sexec cfg' n) (stest cfg n) (stest cfg' n) (fun i => sinstr_typed i /\ sinstr_in_range n i) (fun _ => True) (all_swf n)); auto.
  - intros s i [Ti Ri] As. split; [apply sexec_cfg; auto|]. intros s' E.
    rewrite (sexec_cfg cfg (mk_config false false (cfg_ull_distinct cfg))) in E by auto.
    destruct (sexec_tot (mk_config false false (cfg_ull_distinct cfg)) n s i Hn eq_refl Ti As) as (s1 & E1 & A1). rewrite E1 in E. injection E as <-. auto.
  - intros s c _ As. apply stest_cfg; auto.
Qed.
Print Assumptions C112_signed_programs_in_range.
(** x = 2^40; while bit 0 of x is clear, x >>= 1 *)
Definition shift_down : stmt uinstr ucond := Seq (Do (UPow2 0 40)) (While (CEq 0 0) (If (CBit 0 0) (Do (USetBit 0 64 true)) (Do (UShr 0 1)))).
Example C112_example :
  typed uinstr_typed ucond_typed shift_down /\
  match urun unsafe_debug 2 60 shift_down (fun _ => [0; 0]) with Ok _ => False | Err f => f = AssertFailed end /\
  match urun checked 2 60 shift_down (fun _ => [0; 0]) with Ok _ => False | Err f => f = OutOfFuel end /\
  match urun unsafe_debug 2 60 (Seq (Do (UPow2 0 40)) (While (CGt 0 1) (Do (UShr 0 3)))) (fun _ => [0; 0]) with Ok m => m (Var 0) = [0; 0] | Err _ => False end.
Proof. split; [cbn; repeat split; lia|]. conjs; vm_compute; reflexivity. Qed.
