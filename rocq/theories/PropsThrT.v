(** * PropsThrT: which operations touch the same blocks whatever the numbers, C170.

    What an observer sees: [ThrTrace.v]; the operations: [TraceSpec.v]. *)
From Verif Require Import Spec Lib AeuModel AliasModel AliasFacts ProgSpec ProgModel ProgTotal PropsProg ThrMonad ThrModel ThrSpec ThrSafe ThrTrace TraceSpec ThrSteady.
From Coq Require Import ZifyBool.
Open Scope Z_scope.

(** ** C170 *)
(** Alone: two runs of such a program, on any two stores, load and store the same blocks of the same objects in the same order. *)
Theorem C170_same_accesses : forall cfg n fuel p m m', 1 <= n -> cfg_unsafe cfg = false -> typed uinstr_typed ucond_typed p ->
  steady_prog p -> (depth p <= fuel)%nat -> (forall x, wf n (m x)) -> (forall x, wf n (m' x)) ->
  accesses (trun cfg n fuel p) m = accesses (trun cfg n fuel p) m'.
Proof.
  intros cfg n fuel p m m' Hn U T S D W W'. destruct (o_run n Hn cfg U fuel p T S D) as [tr H].
  assert (St : straight p).
  { clear - S. induction p as [|i| | |]; cbn [steady_prog straight] in *; try tauto. destruct i; cbn [steady] in S; tauto. }
  pose proof (s_run False n Hn cfg U fuel p T (or_intror (conj St D))) as SF.
  rewrite (obl_alone False n (fun _ => True) (fun _ => True) _ tr m W SF H).
  now rewrite (obl_alone False n (fun _ => True) (fun _ => True) _ tr m' W' SF H).
Qed.
Print Assumptions C170_same_accesses.
(** Among other threads: the same, whatever the loads find that other threads have left there. *)
Theorem C170_same_among_threads : forall cfg n fuel p found found', 1 <= n -> cfg_unsafe cfg = false -> typed uinstr_typed ucond_typed p ->
  steady_prog p -> (depth p <= fuel)%nat -> (forall j, 0 <= found j < 2 ^ 32) -> (forall j, 0 <= found' j < 2 ^ 32) ->
  accesses_among (trun cfg n fuel p) found = accesses_among (trun cfg n fuel p) found'.
Proof.
  intros cfg n fuel p f f' Hn U T S D B B'. destruct (o_run n Hn cfg U fuel p T S D) as [tr H].
  rewrite (obl_among (fun _ => True) _ tr f B H). now rewrite (obl_among (fun _ => True) _ tr f' B' H).
Qed.
Print Assumptions C170_same_among_threads.
(** The tests of a single bit, too. *)
Theorem C170_bit_tests : forall cfg n a k m m', 1 <= n -> cfg_unsafe cfg = false -> 0 <= k -> (forall x, wf n (m x)) -> (forall x, wf n (m' x)) ->
  accesses (ttest cfg n (COdd a)) m = accesses (ttest cfg n (COdd a)) m' /\
  accesses (ttest cfg n (CBit a k)) m = accesses (ttest cfg n (CBit a k)) m'.
Proof.
  intros cfg n a k m m' Hn U Hk W W'.
  assert (A : forall i, 0 <= i < n -> forall q, wf n (q (Var a)) -> aget (q (Var a)) i = Ok (znth (q (Var a)) i)).
  { intros i Hi q Wq. apply aget_ok. pose proof (wf_len _ _ Wq). lia. }
  split.
  - cbn [ttest]. unfold v_isOdd, at_. cbn [abind accesses]. unfold mget. rewrite (A 0), (A 0) by (auto; lia). reflexivity.
  - cbn [ttest]. unfold v_getBit. rewrite U. cbn [negb andb]. destruct (Z.geb_spec k (32 * n)); [reflexivity|]. cbv zeta. unfold blockBitLength.
    assert (0 <= k / 32 < n) by (split; [apply Z.div_pos; lia|apply Z.div_lt_upper_bound; lia]).
    destruct (assert_ cfg _); [|reflexivity]. unfold at_. cbn [pure abind accesses]. unfold mget. rewrite (A (k / 32)), (A (k / 32)) by auto. reflexivity.
Qed.
Print Assumptions C170_bit_tests.
(** Of all other operations, and of comparing, the accesses do depend on the numbers: for each there are two stores that an
    observer can tell apart. *)
Theorem C170_others : forall i,
  In i [UInc 0; UDec 0; UOp OMul 0 1; UOp ODiv 0 1; UOp OMod 0 1; UBin OMul 2 0 1; UBin ODiv 2 0 1; UBin OMod 2 0 1;
        UMulLit 0 U64 5; UDivide 0 1 2 3; UGcd 2 0 1; ULcm 2 0 1; USqrt 2 0; UPowm 2 0 1 1]%nat ->
  exists m m', (forall x, wf 2 (m x)) /\ (forall x, wf 2 (m' x)) /\ accesses (texec cfg0 2 i) m <> accesses (texec cfg0 2 i) m'.
Proof.
  assert (O : forall v w, len v = 2 -> len w = 2 -> Forall (fun b => 0 <= b < 2 ^ 32) v -> Forall (fun b => 0 <= b < 2 ^ 32) w ->
    forall x, wf 2 ((fun x => match x with Var O => v | _ => w end) x)).
  { intros v w Lv Lw Fv Fw [ [|x]|x]; split; auto. }
  assert (W1 : forall x, wf 2 ((fun x => match x with Var O => [1; 0] | _ => [1; 0] end) x)) by (apply O; repeat constructor; lia).
  assert (W2 : forall x, wf 2 ((fun x => match x with Var O => [0; 7] | _ => [1; 0] end) x)) by (apply O; repeat constructor; lia).
  assert (W3 : forall x, wf 2 ((fun x => match x with Var O => [4294967295; 0] | _ => [1; 0] end) x)) by (apply O; repeat constructor; lia).
  assert (W4 : forall x, wf 2 ((fun x => match x with Var O => [0; 0] | _ => [1; 0] end) x)) by (apply O; repeat constructor; lia).
  clear O.
  intros i H. exists (fun x => match x with Var O => [1; 0] | _ => [1; 0] end).
  cbn [In] in H. destruct H as [<-|H].
  { exists (fun x => match x with Var O => [4294967295; 0] | _ => [1; 0] end). split; [exact W1|]. split; [exact W3|].
    intros E. apply (f_equal (@length access)) in E. vm_compute in E. discriminate E. }
  do 7 (destruct H as [<-|H]; [
    exists (fun x => match x with Var O => [0; 7] | _ => [1; 0] end); split; [exact W1|]; split; [exact W2|];
    intros E; apply (f_equal (@length access)) in E; vm_compute in E; discriminate E|]).
  destruct H as [<-|H].
  { exists (fun x => match x with Var O => [0; 0] | _ => [1; 0] end). split; [exact W1|]. split; [exact W4|].
    intros E. apply (f_equal (@length access)) in E. vm_compute in E. discriminate E. }
  do 5 (destruct H as [<-|H]; [
    exists (fun x => match x with Var O => [0; 7] | _ => [1; 0] end); split; [exact W1|]; split; [exact W2|];
    intros E; apply (f_equal (@length access)) in E; vm_compute in E; discriminate E|]).
  contradiction.
Qed.
Print Assumptions C170_others.
Theorem C170_comparing : forall c, In c [CEq 0 1; CNe 0 1; CLt 0 1; CLe 0 1; CGt 0 1; CGe 0 1; CIsZero 0]%nat ->
  exists m m', (forall x, wf 2 (m x)) /\ (forall x, wf 2 (m' x)) /\ accesses (ttest cfg0 2 c) m <> accesses (ttest cfg0 2 c) m'.
Proof.
  intros c H.
  exists (fun _ => [1; 0]), (fun x => match x with Var O => [0; 7] | _ => [1; 0] end).
  split; [intros x; split; [reflexivity|repeat constructor; lia]|]. split; [intros [ [|x]|x]; (split; [reflexivity|repeat constructor; lia])|].
  cbn [In] in H. do 7 (destruct H as [<-|H]; [intros E; apply (f_equal (@length access)) in E; vm_compute in E; discriminate E|]). contradiction.
Qed.
Print Assumptions C170_comparing.

(** x2 = x0 + x1; x2 <<= 33; x2 ^= x0 *)
Example C170_example :
  let p := Seq (Do (UBin OAdd 2 0 1)) (Seq (Do (UShl 2 33)) (Do (UOp OXor 2 0))) in
  steady_prog p /\ typed uinstr_typed ucond_typed p /\ length (accesses (trun cfg0 2 5 p) (fun _ => [1; 0])) = 23%nat.
Proof. cbv zeta. split; [cbn; tauto|]. split; [cbn; lia|]. vm_compute. reflexivity. Qed.
