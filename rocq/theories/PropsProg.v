(** * PropsProg: whole programs, C61 and C62.

    Syntax and integer meaning of programs: [ProgSpec.v]; their execution with the library: [ProgModel.v]. *)
From Verif Require Import Spec Lib AliasModel ProgSpec ProgModel ProgFacts ProgTotal ProgSigned.
Open Scope Z_scope.

Ltac conjs := repeat match goal with |- _ /\ _ => split end.
Ltac wfc := apply wfb_wf; vm_compute; reflexivity.
Definition cfg0 := mk_config false false true.

(** ** C61 *)
(** If every variable [i] starts as a valid N-bit number equal to [e i], the program ends the way it ends on
    integers modulo 2^N: with every variable equal to what the integers say, or not within [fuel] steps. *)
Theorem C61_unsigned_programs : forall cfg n fuel prog m e, 1 <= n ->
  (forall i, represents n (m (Var i)) (e i)) ->
  match uspec_run n fuel prog e with
  | RVal e' => exists m', urun cfg n fuel prog m = Ok m' /\ forall i, represents n (m' (Var i)) (e' i)
  | RUndef => True
  | RTimeout => urun cfg n fuel prog m = Err OutOfFuel
  end.
Proof.
  intros cfg n fuel prog m e Hn R. unfold uspec_run, urun.
  apply (run_ok (uexec cfg n) (utest cfg n) (uspec_instr n) (uspec_cond n) (urel n)); auto.
  - intros; eapply uexec_ok; eauto.
  - intros; eapply utest_ok; eauto.
Qed.
Print Assumptions C61_unsigned_programs.
(** Any program, also one that divides by zero, shifts or indexes too far, or lets outputs share objects with
    inputs: no fault ever, and every variable stays a valid N-bit number. *)
Theorem C61_unsigned_programs_never_fault : forall cfg n fuel prog m, 1 <= n -> cfg_unsafe cfg = false ->
  typed uinstr_typed ucond_typed prog -> (forall i, wf n (m (Var i))) ->
  match urun cfg n fuel prog m with
  | Ok m' => forall i, wf n (m' (Var i))
  | Err f => f = OutOfFuel
  end.
Proof.
  intros cfg n fuel prog m Hn U T A. unfold urun.
  apply (run_tot (uexec cfg n) (utest cfg n) uinstr_typed ucond_typed (all_wf n)); auto.
  - intros; apply uexec_tot; auto.
  - intros; eapply utest_tot; eauto.
Qed.
Print Assumptions C61_unsigned_programs_never_fault.

(** A program: r = b^p mod q by square and multiply, with variables b=0, p=1, q=2, r=3, zero=4. *)
Definition modexp : stmt uinstr ucond :=
  Seq (Do (ULit 3 1))
      (While (CNe 1 4)
         (Seq (If (COdd 1) (Seq (Do (UOp OMul 3 0)) (Do (UOp OMod 3 2))) Skip)
         (Seq (Do (UOp OMul 0 0)) (Seq (Do (UOp OMod 0 2)) (Do (UShr 1 1)))))).
Definition modexp_env : env := fun i => match i with 0%nat => 3 | 1%nat => 1000 | 2%nat => 4294967291 | _ => 0 end.
Definition modexp_mem : mem :=
  fun l => match l with Var 0 => [3; 0] | Var 1 => [1000; 0] | Var 2 => [4294967291; 0] | _ => [0; 0] end.
Example C61_example :
  (forall i, represents 2 (modexp_mem (Var i)) (modexp_env i)) /\ typed uinstr_typed ucond_typed modexp /\
  match uspec_run 2 100 modexp modexp_env with RVal e' => e' 3%nat = 3 ^ 1000 mod 4294967291 | _ => False end /\
  match urun cfg0 2 100 modexp modexp_mem with Ok m' => bval (m' (Var 3)) = 3 ^ 1000 mod 4294967291 | Err _ => False end.
Proof.
  split. { intros i. destruct i as [|[|[|i] ] ]; (split; [wfc|vm_compute; reflexivity]). }
  split. { cbn. repeat split; try exact I; try lia; discriminate. }
  split; vm_compute; reflexivity.
Qed.

(** ** C62 *)
(** A signed program computes in Z as long as it does not overflow (an overflow makes the specification
    [RUndef]).  [swf] and [sval]: the object's sign and magnitude stand for the integer. *)
Theorem C62_signed_programs : forall cfg n fuel prog m e, 1 <= n ->
  (forall i, swf n (m (Var i)) /\ sval (m (Var i)) = e i) ->
  match sspec_run n fuel prog e with
  | RVal e' => exists m', srun cfg n fuel prog m = Ok m' /\ forall i, swf n (m' (Var i)) /\ sval (m' (Var i)) = e' i
  | RUndef => True
  | RTimeout => srun cfg n fuel prog m = Err OutOfFuel
  end.
Proof.
  intros cfg n fuel prog m e Hn R. unfold sspec_run, srun.
  apply (run_ok (sexec cfg n) (stest cfg n) (sspec_instr n) (sspec_cond n) (srelE n)); auto.
  - intros; eapply sexec_ok; eauto.
  - intros; eapply stest_ok; eauto.
Qed.
Print Assumptions C62_signed_programs.
(** Overflowing or not, no signed program faults, and magnitudes stay valid. *)
Theorem C62_signed_programs_never_fault : forall cfg n fuel prog m, 1 <= n -> cfg_unsafe cfg = false ->
  typed sinstr_typed (fun _ => True) prog -> (forall i, wf n (mag (m (Var i)))) ->
  match srun cfg n fuel prog m with
  | Ok m' => forall i, wf n (mag (m' (Var i)))
  | Err f => f = OutOfFuel
  end.
Proof.
  intros cfg n fuel prog m Hn U T A. unfold srun.
  apply (run_tot (sexec cfg n) (stest cfg n) sinstr_typed (fun _ => True) (all_swf n)); auto.
  - intros; apply sexec_tot; auto.
  - intros; eapply stest_tot; eauto.
Qed.
Print Assumptions C62_signed_programs_never_fault.

(** Extended Euclid on signed numbers: a=0, b=1, x=2, y=3 (coefficients of a), u=4, v=5 (of b), q=6, r=7,
    scratch 8, zero 9. *)
Notation "s ;;; t" := (Seq s t) (at level 62, right associativity).
Definition sgcdext : stmt sinstr scond :=
  Do (SLit 2 int32 1) ;;; Do (SLit 4 int32 0) ;;; Do (SLit 3 int32 0) ;;; Do (SLit 5 int32 1) ;;;
  While (SCNe 1 9)
    (Do (SDivide 0 1 6 7) ;;;
     Do (SCopy 0 1) ;;;
     Do (SCopy 1 7) ;;;
     Do (SBin SOMul 8 6 4) ;;;
     Do (SBin SOSub 8 2 8) ;;;
     Do (SCopy 2 4) ;;;
     Do (SCopy 4 8) ;;;
     Do (SBin SOMul 8 6 5) ;;;
     Do (SBin SOSub 8 3 8) ;;;
     Do (SCopy 3 5) ;;;
     Do (SCopy 5 8)).
Definition sgcd_env : env := fun i => match i with 0%nat => -240 | 1%nat => 46 | _ => 0 end.
Definition sgcd_mem : smem :=
  fun l => match l with Var 0 => mk_aesi SNeg [240; 0] | Var 1 => mk_aesi SPos [46; 0] | _ => mk_aesi SZero [5; 0] end.
Example C62_example :
  (forall i, swf 2 (sgcd_mem (Var i)) /\ sval (sgcd_mem (Var i)) = sgcd_env i) /\
  typed sinstr_typed (fun _ => True) sgcdext /\
  match sspec_run 2 100 sgcdext sgcd_env with RVal e' => e' 0%nat = 2 /\ e' 2%nat = 9 /\ e' 3%nat = 47 | _ => False end /\
  match srun cfg0 2 100 sgcdext sgcd_mem with
  | Ok m' => sval (m' (Var 0)) = 2 /\ -240 * sval (m' (Var 2)) + 46 * sval (m' (Var 3)) = 2 | Err _ => False end.
Proof.
  split. { intros i. destruct i as [|[|i] ]; (split; [split; [wfc|vm_compute; congruence]|vm_compute; reflexivity]). }
  split. { cbn. repeat split; try exact I; try discriminate. }
  split; vm_compute; conjs; reflexivity.
Qed.
