(** * PropsThrS3: how often signed operations access their operands, and which of them always access the same, C172 and C173.

    As [PropsThrT.v] and [PropsThrC.v].  What an observer sees: [ThrTrace.v]; the operations and the numbers: [STraceSpec.v]. *)
From Verif Require Import Spec Lib AeuModel AesiModel AliasModel AliasFacts ProgSpec ProgModel ProgSigned ProgTotal PropsProg ThrMonad ThrModel ThrSpec ThrFoot ThrSafe PropsThr PropsThr2
  SThrModel SThrSpec SThrSafe ThrTrace ThrSteady ThrCount PropsThrC STraceSpec SThrCount.
From Coq Require Import ZifyBool.
Open Scope Z_scope.

(** ** C172 *)
(** Alone: two runs of such a program, on any two stores, access the same signs and blocks of the same objects in the same order. *)
Theorem C172_same_accesses : forall cfg n fuel p m m', 1 <= n -> cfg_unsafe cfg = false -> typed sinstr_typed (fun _ => True) p ->
  ssteady_prog p -> (sdepth p <= fuel)%nat -> (forall x, wf n (m x)) -> (forall x, wf n (m' x)) ->
  accesses (strun cfg n fuel p) m = accesses (strun cfg n fuel p) m'.
Proof.
  intros cfg n fuel p m m' Hn U T S D W W'. destruct (o_srun n Hn cfg U fuel p T S D) as [tr H].
  assert (St : sstraight p).
  { clear - S. induction p as [|i| | |]; cbn [ssteady_prog sstraight] in *; try tauto. destruct i; cbn [ssteady] in S; tauto. }
  pose proof (s_srun False n Hn cfg U fuel p T (or_intror (conj St D))) as SF.
  rewrite (obl_alone False n (fun _ => True) (fun _ => True) _ tr m W SF H).
  now rewrite (obl_alone False n (fun _ => True) (fun _ => True) _ tr m' W' SF H).
Qed.
Print Assumptions C172_same_accesses.
(** Among other threads: the same, whatever the loads find that other threads have left there. *)
Theorem C172_same_among_threads : forall cfg n fuel p found found', 1 <= n -> cfg_unsafe cfg = false -> typed sinstr_typed (fun _ => True) p ->
  ssteady_prog p -> (sdepth p <= fuel)%nat -> (forall j, 0 <= found j < 2 ^ 32) -> (forall j, 0 <= found' j < 2 ^ 32) ->
  accesses_among (strun cfg n fuel p) found = accesses_among (strun cfg n fuel p) found'.
Proof.
  intros cfg n fuel p f f' Hn U T S D B B'. destruct (o_srun n Hn cfg U fuel p T S D) as [tr H].
  rewrite (obl_among (fun _ => True) _ tr f B H). now rewrite (obl_among (fun _ => True) _ tr f' B' H).
Qed.
Print Assumptions C172_same_among_threads.
(** The tests of the sign read the sign and nothing else. *)
Theorem C172_sign_tests : forall cfg n a m, 1 <= n -> (forall x, wf n (m x)) ->
  let sign := [Load (Var (2 * a + 1)) 0] in
  accesses (sttest cfg n (SCZero a)) m = sign /\ accesses (sttest cfg n (SCPos a)) m = sign /\ accesses (sttest cfg n (SCNeg a)) m = sign.
Proof.
  intros cfg n a m Hn W. assert (A : aget (m (Var (2 * a + 1)%nat)) 0 = Ok (znth (m (Var (2 * a + 1)%nat)) 0)).
  { apply aget_ok. pose proof (wf_len _ _ (W (Var (2 * a + 1)%nat))). lia. }
  cbv zeta. cbn [sttest]. unfold v_sign, sign_at, at_. cbn [abind accesses]. unfold mget. rewrite A. auto.
Qed.
Print Assumptions C172_sign_tests.
(** Of all other operations, and of comparing, the accesses do depend on the numbers: there are two stores that an observer can
    tell apart, one with only zeros, one with 7 * 2^32 and 1. *)
Definition zeros2 : mem := fun _ => [0; 0].
Definition seven2 : mem := fun x => match x with Var O => [0; 7] | Var 1%nat => [1; 0] | Var 2%nat => [1; 0] | Var 3%nat => [1; 0] | _ => [0; 0] end.
Lemma zeros2_wf x : wf 2 (zeros2 x).
Proof. split; [reflexivity|repeat constructor; lia]. Qed.
Lemma seven2_wf x : wf 2 (seven2 x).
Proof. destruct x as [ [|[|[|[|x] ] ] ]|x]; (split; [reflexivity|repeat constructor; lia]). Qed.
Theorem C172_others : forall i,
  In i [SOp SOAdd 0 1; SOp SOSub 0 1; SOp SOMul 0 1; SOp SODiv 0 1; SOp SOMod 0 1;
        SBin SOAdd 2 0 1; SBin SOSub 2 0 1; SBin SOMul 2 0 1; SBin SODiv 2 0 1; SBin SOMod 2 0 1;
        SInc 0; SDec 0; SInverse 0; SMulLit 0 int32 (-5); SDivLit 0 int32 5; SDivLit 0 int32 (-5); SDivide 0 1 2 3; SSqrt 2 0]%nat ->
  exists m m', (forall x, wf 2 (m x)) /\ (forall x, wf 2 (m' x)) /\ accesses (stexec cfg0 2 i) m <> accesses (stexec cfg0 2 i) m'.
Proof.
  intros i H. exists zeros2, seven2. split; [exact zeros2_wf|]. split; [exact seven2_wf|]. cbn [In] in H.
  do 18 (destruct H as [<-|H]; [intros E; apply (f_equal (@length access)) in E; vm_compute in E; discriminate E|]). contradiction.
Qed.
Print Assumptions C172_others.
Theorem C172_comparing : forall c, In c [SCEq 0 1; SCNe 0 1; SCLt 0 1; SCLe 0 1; SCGt 0 1; SCGe 0 1]%nat ->
  exists m m', (forall x, wf 2 (m x)) /\ (forall x, wf 2 (m' x)) /\ accesses (sttest cfg0 2 c) m <> accesses (sttest cfg0 2 c) m'.
Proof.
  intros c H. exists zeros2, seven2. split; [exact zeros2_wf|]. split; [exact seven2_wf|]. cbn [In] in H.
  do 6 (destruct H as [<-|H]; [intros E; apply (f_equal (@length access)) in E; vm_compute in E; discriminate E|]). contradiction.
Qed.
Print Assumptions C172_comparing.
(** Multiplying by a positive number of a built-in type: always the same accesses where [unsigned long long] is another type than
    [uint64_t] (as with most compilers for Linux), not where it is the same. *)
Theorem C172_products : forall cfg n d t v m m', 1 <= n -> cfg_unsafe cfg = false -> sinstr_typed (SMulLit d t v) -> 0 < v ->
  cfg_ull_distinct cfg = true -> (forall x, wf n (m x)) -> (forall x, wf n (m' x)) ->
  accesses (stexec cfg n (SMulLit d t v)) m = accesses (stexec cfg n (SMulLit d t v)) m'.
Proof.
  intros cfg n d t v m m' Hn U T V L W W'. destruct (o_smul_pos n cfg d t v) as [tr H]; auto; [unfold ull_ty; rewrite L; discriminate|].
  pose proof (s_stexec False n Hn cfg (SMulLit d t v) U T (or_intror I)) as SF.
  rewrite (obl_alone False n (fun _ => True) (fun _ => True) _ tr m W SF H).
  now rewrite (obl_alone False n (fun _ => True) (fun _ => True) _ tr m' W' SF H).
Qed.
Print Assumptions C172_products.
Theorem C172_products_elsewhere : let cfg := mk_config false false false in let i := SMulLit 0 int32 5 in
  accesses (stexec cfg 2 i) zeros2 <> accesses (stexec cfg 2 i) seven2.
Proof. cbv zeta. intros E. apply (f_equal (@length access)) in E. vm_compute in E. discriminate E. Qed.
Print Assumptions C172_products_elsewhere.
(** x2 = -x0; swap x2, x1; x0 = x1 *)
Example C172_example :
  let p := Seq (Do (SNegate 2 0)) (Seq (Do (SSwap 2 1)) (Do (SCopy 0 1))) in
  ssteady_prog p /\ typed sinstr_typed (fun _ => True) p /\ length (accesses (strun cfg0 2 5 p) zeros2) = 28%nat.
Proof. cbv zeta. split; [cbn; tauto|]. split; [cbn; tauto|]. vm_compute. reflexivity. Qed.

(** ** C173 *)
(** Alone: on every store, one operation or comparison. *)
Theorem C173_alone : forall cfg n i m, 1 <= n -> Z.of_nat (length (accesses (stexec cfg n i) m)) <= smost_accesses n i.
Proof. intros cfg n i m Hn. eapply upto_length, k_stexec; auto. Qed.
Print Assumptions C173_alone.
Theorem C173_comparing : forall cfg n c m, 1 <= n -> Z.of_nat (length (accesses (sttest cfg n c) m)) <= smost_tests n c.
Proof. intros cfg n c m Hn. eapply upto_length, k_sttest; auto. Qed.
Print Assumptions C173_comparing.
(** A program without loops and square roots. *)
Theorem C173_programs : forall cfg n fuel p m, 1 <= n -> sstraight p ->
  Z.of_nat (length (accesses (strun cfg n fuel p) m)) <= smost_prog n p.
Proof. intros cfg n fuel p m Hn S. eapply upto_length, k_srun; auto. Qed.
Print Assumptions C173_programs.
(** Among other threads, whatever they do to the objects it uses and however they are scheduled: once it has had that many turns,
    it has finished. *)
Theorem C173_turns : forall cfg n fuel progs shared schedule t p tmp, 1 <= n -> cfg_unsafe cfg = false ->
  (forall c, wf n (shared c)) -> (forall p tmp k, In (p, tmp) progs -> wf n (tmp k)) ->
  (forall p tmp, In (p, tmp) progs -> typed sinstr_typed (fun _ => True) p) ->
  nth_error progs t = Some (p, tmp) -> sstraight p -> (sdepth p <= fuel)%nat ->
  smost_prog n p <= Z.of_nat (count_occ Nat.eq_dec schedule t) ->
  exists th, nth_error (snd (world_run (sstart cfg n fuel shared progs) schedule)) t = Some th /\ th_act th = Ret tt.
Proof.
  intros cfg n fuel progs shared s t p tmp Hn U Wf WT T E S D M.
  destruct (turn_by_turn t s (sstart cfg n fuel shared progs) (mk_thread (strun cfg n fuel p) tmp) (smost_prog n p)) as (th & E1 & H).
  { unfold sstart. cbn [snd]. now rewrite nth_error_map, E. }
  { left. cbn [th_act]. now apply k_srun. }
  exists th. split; [exact E1|].
  destruct (world_inv_at (fun sh => forall x, wf n (sh x)) (fun u th => (forall k, wf n (th_tmp th k)) /\ safe (u <> t) n (fun _ => True) (th_act th)))
    with (s := s) (w := sstart cfg n fuel shared progs) as [_ B].
  - intros u sh thu HS [HT HA]. destruct (safe_step (u <> t) n sh thu HS HT HA) as (? & ? & ?). auto.
  - exact Wf.
  - intros u thu. unfold sstart. cbn [snd]. rewrite nth_error_map. destruct (nth_error progs u) as [[q tq]|] eqn:EQ; [|discriminate].
    cbn. intros [= <-]. cbn [th_act th_tmp]. split; [intros j; eapply WT, nth_error_In, EQ|].
    apply s_srun; auto; [eapply T, nth_error_In, EQ|]. destruct (Nat.eq_dec u t) as [->|]; [right|left; auto].
    rewrite E in EQ. injection EQ as <- <-. auto.
  - destruct (B t th E1) as [_ SF]. destruct (th_act th) as [[]|e|x i k|x i v k] eqn:EA.
    + reflexivity.
    + destruct SF as [SF _]. now destruct SF.
    + exfalso. destruct H as [H|O]; [cbn [upto] in H; destruct H; lia|]. unfold over in O. now rewrite EA in O.
    + exfalso. destruct H as [H|O]; [cbn [upto] in H; destruct H; lia|]. unfold over in O. now rewrite EA in O.
Qed.
Print Assumptions C173_turns.

(** Some of these numbers are reached: copying, swapping, negating in place a number, comparing a number with itself. *)
Example C173_example :
  Z.of_nat (length (accesses (stexec cfg0 2 (SCopy 0 1)) seven2)) = smost_accesses 2 (SCopy 0 1) /\
  Z.of_nat (length (accesses (stexec cfg0 2 (SSwap 0 1)) seven2)) = smost_accesses 2 (SSwap 0 1) /\
  Z.of_nat (length (accesses (stexec cfg0 2 (SInverse 0)) seven2)) = smost_accesses 2 (SInverse 0) /\
  Z.of_nat (length (accesses (sttest cfg0 2 (SCEq 0 0)) seven2)) = smost_tests 2 (SCEq 0 0).
Proof. split; [vm_compute; reflexivity|]. split; [vm_compute; reflexivity|]. split; vm_compute; reflexivity. Qed.
