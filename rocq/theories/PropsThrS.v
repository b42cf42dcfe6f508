(** * PropsThrS: threads over signed objects, C166.

    Programs and what they mean on integers: [ProgSpec.v]; what they read and assign: [SThrSpec.v]; the calls one block access
    at a time: [SThrModel.v]; the scheduler: [ThrModel.v].  A signed object [x] is two cells of the shared store: its
    magnitude, cell [2 x], and its sign, cell [2 x + 1]; each is accessed on its own. *)
From Verif Require Import Spec Lib AeuModel AesiModel AliasModel AliasFacts AliasSigned ProgSpec ProgModel ProgFacts ProgSigned ProgTotal IniProgSpec PropsProg
  ThrMonad ThrModel ThrSpec ThrFacts ThrStore ThrExec ThrFoot SThrModel SThrSpec SThrFacts SThrExec SThrFoot.
From Coq Require Import ZifyBool.
Open Scope Z_scope.

(** the cells thread [t] accesses, and those it stores into *)
Definition stouched (progs : list (stmt sinstr scond * (nat -> list Z))) (t c : nat) : Prop :=
  match nth_error progs t with Some (p, _) => cells (fun x => In x (sprog_reads p) \/ In x (sprog_writes p)) c | None => False end.
Definition sassigned (progs : list (stmt sinstr scond * (nat -> list Z))) (t c : nat) : Prop :=
  match nth_error progs t with Some (p, _) => cells (fun x => In x (sprog_writes p)) c | None => False end.
Lemma sassigned_touched progs t c : sassigned progs t c -> stouched progs t c.
Proof. unfold sassigned, stouched, cells. destruct (nth_error progs t) as [[p tmp]|]; auto. Qed.
Lemma sseparate_touched progs t u c : sseparate (map fst progs) -> t <> u -> sassigned progs t c -> ~ stouched progs u c.
Proof.
  unfold sassigned, stouched, cells. intros S N HA HT.
  destruct (nth_error progs t) as [[p tp]|] eqn:ET; [|contradiction]. destruct (nth_error progs u) as [[q tq]|] eqn:EU; [|contradiction].
  destruct (S t u p q (Nat.div2 c) N) as [A B]; auto.
  - now rewrite nth_error_map, ET.
  - now rewrite nth_error_map, EU.
  - tauto.
Qed.
(** Where everything is after a schedule: [interleave] for the threads of [sstart]. *)
Lemma sinterleaved cfg n fuel progs shared s : sseparate (map fst progs) ->
  let w := world_run (sstart cfg n fuel shared progs) s in
  length (snd w) = length progs /\
  (forall t p tmp, nth_error progs t = Some (p, tmp) ->
     let e := solo (count_occ Nat.eq_dec s t) (shared, mk_thread (strun cfg n fuel p) tmp) in
     nth_error (snd w) t = Some (snd e) /\ foot (stouched progs t) (sassigned progs t) (th_act (snd e)) /\
     forall c, stouched progs t c -> fst w c = fst e c) /\
  (forall c, (forall t, ~ sassigned progs t c) -> fst w c = shared c).
Proof.
  intros S. pose proof (interleave (stouched progs) (sassigned progs) shared
    (map (fun '(p, tmp) => mk_thread (strun cfg n fuel p) tmp) progs) (sassigned_touched progs)) as H.
  specialize (H (fun t u x N HA => sseparate_touched progs t u x S N HA)).
  assert (F : forall t th, nth_error (map (fun '(p, tmp) => mk_thread (strun cfg n fuel p) tmp) progs) t = Some th ->
    foot (stouched progs t) (sassigned progs t) (th_act th)).
  { intros t th. rewrite nth_error_map. destruct (nth_error progs t) as [[p tmp]|] eqn:E; [|discriminate]. intros [= <-]. cbn [th_act].
    pose proof (f_srun cfg n fuel p (fun x => In x (sprog_reads p) \/ In x (sprog_writes p)) (fun x => In x (sprog_writes p))) as FS.
    eapply foot_mono; [ | |apply FS; auto]; unfold stouched, sassigned; rewrite E; auto. }
  specialize (H F s). cbv zeta in H. fold (sstart cfg n fuel shared progs) in H. cbv zeta. destruct H as (H1 & H2 & H3). split; [etransitivity; [exact H1|apply map_length]|]. split; [|exact H3].
  intros t p tmp E. apply H2. now rewrite nth_error_map, E.
Qed.

(** What one thread's program comes to when it runs alone. *)
Lemma salone cfg n fuel p e shared tmp : 1 <= n -> (forall x, swf n (signed_at shared x) /\ sval (signed_at shared x) = e x) ->
  (forall c, len (shared c) = n) -> (forall k, len (tmp k) = n) ->
  match sspec_run n fuel p e with
  | RVal e' => exists k sh' tmp', solo k (shared, mk_thread (strun cfg n fuel p) tmp) = (sh', mk_thread (Ret tt) tmp') /\
                 forall x, swf n (signed_at sh' x) /\ sval (signed_at sh' x) = e' x
  | RUndef => True
  | RTimeout => exists k sh' tmp', solo k (shared, mk_thread (strun cfg n fuel p) tmp) = (sh', mk_thread (Stop OutOfFuel) tmp')
  end.
Proof.
  intros Hn R LS T. set (m := seen shared tmp). set (sm := fun l => sobj m l).
  pose proof (C62_signed_programs cfg n fuel p sm e Hn R) as H.
  assert (L : lens n m). { intros [x|x]; cbn [m seen]; [apply LS|apply T]. }
  pose proof (strun_alike n ltac:(lia) cfg fuel p m sm (fun i => eq_refl) L) as A.
  pose proof (solo_run (strun cfg n fuel p) shared tmp) as S. fold m in S. unfold salike in A.
  destruct (sspec_run n fuel p e) as [e'| |]; auto.
  - destruct H as (m' & E & V). rewrite E in A. destruct (run_act (strun cfg n fuel p) m) as [[[] m1]|]; cbn [osim snd] in A; [|contradiction].
    destruct S as (k & sh' & tmp' & S1 & S2). exists k, sh', tmp'. split; auto. intros x. destruct A as [A _]. specialize (A x). specialize (V x).
    rewrite <- A in V.
    replace (signed_at sh' x) with (sobj m1 (Var x)); [exact V|]. unfold sobj, signed_at, mag_at, sign_at. rewrite !S2. reflexivity.
  - rewrite H in A. destruct (run_act (strun cfg n fuel p) m) as [[[] m1]|f]; cbn [osim] in A; [contradiction|]. subst f. exact S.
Qed.

(** ** C166 *)
(** Whatever the schedule: a thread whose program is defined on the integers never comes to a fault, and once it has finished,
    every object it reads or assigns has the value the program alone gives it.  Objects nobody assigns never change. *)
Theorem C166_every_schedule : forall cfg n fuel progs shared e schedule, 1 <= n ->
  (forall x, swf n (signed_at shared x) /\ sval (signed_at shared x) = e x) -> (forall c, len (shared c) = n) ->
  (forall p tmp k, In (p, tmp) progs -> len (tmp k) = n) -> sseparate (map fst progs) ->
  let w := world_run (sstart cfg n fuel shared progs) schedule in
  (forall t p tmp e', nth_error progs t = Some (p, tmp) -> sspec_run n fuel p e = RVal e' ->
     exists th, nth_error (snd w) t = Some th /\ (forall f, th_act th <> Stop f) /\
       (th_act th = Ret tt -> forall x, In x (sprog_reads p) \/ In x (sprog_writes p) ->
          swf n (signed_at (fst w) x) /\ sval (signed_at (fst w) x) = e' x)) /\
  (forall x, (forall p tmp, In (p, tmp) progs -> ~ In x (sprog_writes p)) -> signed_at (fst w) x = signed_at shared x).
Proof.
  intros cfg n fuel progs shared e s Hn R LS T S w. destruct (sinterleaved cfg n fuel progs shared s S) as (HL & HT & HX). fold w in HL, HT, HX.
  split.
  - intros t p tmp e' E U. destruct (HT t p tmp E) as (H1 & _ & H3). exists (snd (solo (count_occ Nat.eq_dec s t) (shared, mk_thread (strun cfg n fuel p) tmp))).
    pose proof (salone cfg n fuel p e shared tmp Hn R LS (fun k => T p tmp k (nth_error_In _ _ E))) as A. rewrite U in A.
    destruct A as (k & sh' & tmp' & A1 & A2). split; [exact H1|].
    assert (OK : over (snd (solo k (shared, mk_thread (strun cfg n fuel p) tmp)))) by (rewrite A1; exact I).
    split.
    + intros f F. assert (O2 : over (snd (solo (count_occ Nat.eq_dec s t) (shared, mk_thread (strun cfg n fuel p) tmp)))) by (unfold over; now rewrite F).
      rewrite (solo_unique _ _ _ O2 OK), A1 in F. discriminate.
    + intros F x Hx. assert (O2 : over (snd (solo (count_occ Nat.eq_dec s t) (shared, mk_thread (strun cfg n fuel p) tmp)))) by (unfold over; now rewrite F).
      replace (signed_at (fst w) x) with (signed_at sh' x); [apply A2|]. unfold signed_at.
      assert (T0 : stouched progs t (2 * x)) by (unfold stouched; rewrite E; exact (proj2 (cells_0 _ x) Hx)).
      assert (T1 : stouched progs t (2 * x + 1)) by (unfold stouched; rewrite E; exact (proj2 (cells_1 _ x) Hx)).
      rewrite (H3 _ T0), (H3 _ T1), (solo_unique _ _ _ O2 OK), A1. reflexivity.
  - intros x Hx. unfold signed_at.
    assert (N0 : forall t, ~ sassigned progs t (2 * x)).
    { intros t. unfold sassigned. destruct (nth_error progs t) as [[p tmp]|] eqn:E; auto. intros C.
      exact (Hx p tmp (nth_error_In _ _ E) (proj1 (cells_0 _ x) C)). }
    assert (N1 : forall t, ~ sassigned progs t (2 * x + 1)).
    { intros t. unfold sassigned. destruct (nth_error progs t) as [[p tmp]|] eqn:E; auto. intros C.
      exact (Hx p tmp (nth_error_In _ _ E) (proj1 (cells_1 _ x) C)). }
    rewrite (HX _ N0), (HX _ N1). reflexivity.
Qed.
Print Assumptions C166_every_schedule.

(** If all programs are defined, then after enough turns for everybody, in whatever order, all have finished, and every object
    has the value that the one program assigning it gives it, or its old one. *)
Theorem C166_all_finish : forall cfg n fuel progs shared e, 1 <= n ->
  (forall x, swf n (signed_at shared x) /\ sval (signed_at shared x) = e x) -> (forall c, len (shared c) = n) ->
  (forall p tmp k, In (p, tmp) progs -> len (tmp k) = n) ->
  sseparate (map fst progs) -> (forall p tmp, In (p, tmp) progs -> exists e', sspec_run n fuel p e = RVal e') ->
  exists k, forall schedule, fair_for (length progs) k schedule ->
    let w := world_run (sstart cfg n fuel shared progs) schedule in
    (forall th, In th (snd w) -> th_act th = Ret tt) /\
    forall x, (exists p tmp e', In (p, tmp) progs /\ In x (sprog_writes p) /\ sspec_run n fuel p e = RVal e' /\
                 swf n (signed_at (fst w) x) /\ sval (signed_at (fst w) x) = e' x) \/
              ((forall p tmp, In (p, tmp) progs -> ~ In x (sprog_writes p)) /\ signed_at (fst w) x = signed_at shared x).
Proof.
  intros cfg n fuel progs shared e Hn R LS T S D.
  assert (K : exists k, forall p tmp, In (p, tmp) progs -> exists th, snd (solo k (shared, mk_thread (strun cfg n fuel p) tmp)) = th /\ th_act th = Ret tt).
  { clear S. induction progs as [|[p tmp] rest IH]; [exists O; intros ? ? []|].
    destruct IH as [k1 K1]; [intros; eapply T; right; eauto|intros; eapply D; right; eauto|].
    destruct (D p tmp (or_introl eq_refl)) as [e' U].
    pose proof (salone cfg n fuel p e shared tmp Hn R LS (fun k => T p tmp k (or_introl eq_refl))) as A. rewrite U in A.
    destruct A as (k2 & sh' & tmp' & A1 & _). exists (k1 + k2)%nat. intros q tq [H|H].
    - injection H as <- <-. rewrite Nat.add_comm, solo_add, A1. rewrite solo_over by exact I. eauto.
    - destruct (K1 q tq H) as (th & E1 & E2). rewrite solo_add, solo_over; [eauto|]. unfold over. now rewrite E1, E2. }
  destruct K as [k K]. exists k. intros s F w.
  destruct (sinterleaved cfg n fuel progs shared s S) as (HL & HT & HX). fold w in HL, HT, HX.
  assert (DONE : forall t p tmp, nth_error progs t = Some (p, tmp) -> exists th, nth_error (snd w) t = Some th /\ th_act th = Ret tt).
  { intros t p tmp E. destruct (HT t p tmp E) as (H1 & _ & _). eexists. split; [exact H1|].
    assert (Lt : (t < length progs)%nat) by (apply nth_error_Some; congruence). specialize (F t Lt).
    replace (count_occ Nat.eq_dec s t) with (k + (count_occ Nat.eq_dec s t - k))%nat by lia. rewrite solo_add.
    destruct (K p tmp (nth_error_In _ _ E)) as (th & E1 & E2). rewrite solo_over; [now rewrite E1|]. unfold over. now rewrite E1, E2. }
  split.
  - intros th H. apply In_nth_error in H. destruct H as [t H].
    destruct (nth_error progs t) as [[p tmp]|] eqn:E.
    + destruct (DONE t p tmp E) as (th' & H1 & H2). congruence.
    + apply nth_error_None in E. rewrite <- HL in E. apply nth_error_None in E. congruence.
  - intros x.
    assert (Dec : (exists t p tmp, nth_error progs t = Some (p, tmp) /\ In x (sprog_writes p)) \/ (forall p tmp, In (p, tmp) progs -> ~ In x (sprog_writes p))).
    { clear. induction progs as [|[p tmp] rest IH]; [right; intros ? ? []|].
      destruct (in_dec Nat.eq_dec x (sprog_writes p)) as [I|N]; [left; exists O, p, tmp; auto|].
      destruct IH as [(t & q & tq & H)|H]; [left; exists (S t), q, tq; exact H|].
      right. intros q tq [E|E]; [injection E as <- <-; exact N|eauto]. }
    destruct (C166_every_schedule cfg n fuel progs shared e s Hn R LS T S) as [V V']. fold w in V, V'.
    destruct Dec as [(t & p & tmp & E & I)|N].
    + left. destruct (D p tmp (nth_error_In _ _ E)) as [e' U]. exists p, tmp, e'.
      split; [eapply nth_error_In, E|]. split; [exact I|]. split; [exact U|].
      destruct (V t p tmp e' E U) as (th & H1 & _ & H3). apply H3; auto. destruct (DONE t p tmp E) as (th' & G1 & G2). congruence.
    + right. split; [exact N|]. now apply V'.
Qed.
Print Assumptions C166_all_finish.

(** No data race: at no moment are two threads about to access the same cell (an object's sign or its magnitude), one of them
    storing. *)
Theorem C166_no_race : forall cfg n fuel progs shared schedule t u c, sseparate (map fst progs) -> t <> u ->
  let w := world_run (sstart cfg n fuel shared progs) schedule in
  forall tht thu i v k, nth_error (snd w) t = Some tht -> nth_error (snd w) u = Some thu -> th_act tht = Put (Var c) i v k ->
    (forall j l, th_act thu <> Get (Var c) j l) /\ (forall j v' l, th_act thu <> Put (Var c) j v' l).
Proof.
  intros cfg n fuel progs shared s t u c S N w tht thu i v k Et Eu Ht.
  destruct (sinterleaved cfg n fuel progs shared s S) as (HL & HT & HX). fold w in HL, HT, HX.
  assert (G : forall t th, nth_error (snd w) t = Some th -> foot (stouched progs t) (sassigned progs t) (th_act th)).
  { clear - HL HT. intros t th E. destruct (nth_error progs t) as [[p tmp]|] eqn:EP.
    - destruct (HT t p tmp EP) as (H1 & H2 & _). congruence.
    - apply nth_error_None in EP. rewrite <- HL in EP. apply nth_error_None in EP. congruence. }
  pose proof (G t tht Et) as Ft. rewrite Ht in Ft. cbn [foot] in Ft. destruct Ft as [At _]. pose proof (G u thu Eu) as Fu.
  pose proof (sseparate_touched progs t u c S N At) as NT. split; intros; intros E; rewrite E in Fu; cbn [foot] in Fu; destruct Fu as [Fu _]; apply NT; auto.
  now apply sassigned_touched.
Qed.
Print Assumptions C166_no_race.

(** Separate programs of any kind, also ones that divide by zero or overflow: no thread ever comes to a fault. *)
Theorem C166_never_fault : forall cfg n fuel progs shared schedule t th f, 1 <= n -> cfg_unsafe cfg = false ->
  (forall x, wf n (mag (signed_at shared x))) -> (forall c, len (shared c) = n) ->
  (forall p tmp k, In (p, tmp) progs -> len (tmp k) = n) ->
  (forall p tmp, In (p, tmp) progs -> typed sinstr_typed (fun _ => True) p) -> sseparate (map fst progs) ->
  nth_error (snd (world_run (sstart cfg n fuel shared progs) schedule)) t = Some th -> th_act th = Stop f -> f = OutOfFuel.
Proof.
  intros cfg n fuel progs shared s t th f Hn U Wf LS T Ty S E F.
  destruct (sinterleaved cfg n fuel progs shared s S) as (HL & HT & HX).
  destruct (nth_error progs t) as [[p tmp]|] eqn:EP.
  2: { apply nth_error_None in EP. rewrite <- HL in EP. apply nth_error_None in EP. congruence. }
  destruct (HT t p tmp EP) as (H1 & _ & _). rewrite E in H1. injection H1 as H1.
  set (m := seen shared tmp). set (sm := fun l => sobj m l).
  pose proof (C62_signed_programs_never_fault cfg n fuel p sm Hn U (Ty p tmp (nth_error_In _ _ EP)) Wf) as NF.
  assert (L : lens n m). { intros [x|x]; cbn [m seen]; [apply LS|apply (T p tmp x (nth_error_In _ _ EP))]. }
  pose proof (strun_alike n ltac:(lia) cfg fuel p m sm (fun i => eq_refl) L) as A.
  pose proof (solo_run (strun cfg n fuel p) shared tmp) as SR. fold m in SR. unfold salike in A.
  assert (O2 : over (snd (solo (count_occ Nat.eq_dec s t) (shared, mk_thread (strun cfg n fuel p) tmp)))) by (rewrite <- H1; unfold over; now rewrite F).
  rewrite H1 in F.
  destruct (run_act (strun cfg n fuel p) m) as [[a m1]|g].
  - destruct SR as (k & sh' & tmp' & S1 & _). rewrite (solo_unique _ k _ O2), S1 in F by (rewrite S1; exact I). discriminate.
  - destruct SR as (k & sh' & tmp' & S1). rewrite (solo_unique _ k _ O2), S1 in F by (rewrite S1; exact I). cbn in F. injection F as <-.
    destruct (srun cfg n fuel p sm); cbn [osim] in A; [contradiction|]. congruence.
Qed.
Print Assumptions C166_never_fault.

(** The order makes no difference: two schedules after which all threads are done leave the same objects. *)
Theorem C166_same_result : forall cfg n fuel progs shared s1 s2, sseparate (map fst progs) ->
  let w1 := world_run (sstart cfg n fuel shared progs) s1 in
  let w2 := world_run (sstart cfg n fuel shared progs) s2 in
  (forall th, In th (snd w1) -> th_act th = Ret tt) -> (forall th, In th (snd w2) -> th_act th = Ret tt) ->
  forall x, signed_at (fst w1) x = signed_at (fst w2) x.
Proof.
  intros cfg n fuel progs shared s1 s2 S w1 w2 D1 D2.
  assert (G : forall c, fst w1 c = fst w2 c); [intros c|intros x; unfold signed_at; now rewrite !G].
  destruct (sinterleaved cfg n fuel progs shared s1 S) as (_ & HT1 & HX1). destruct (sinterleaved cfg n fuel progs shared s2 S) as (_ & HT2 & HX2).
  fold w1 in HT1, HX1. fold w2 in HT2, HX2.
  assert (Dec : (exists t p tmp, nth_error progs t = Some (p, tmp) /\ In (Nat.div2 c) (sprog_writes p)) \/ (forall t, ~ sassigned progs t c)).
  { clear. unfold sassigned, cells. induction progs as [|[p tmp] rest IH]; [right; intros [|t] []|].
    destruct (in_dec Nat.eq_dec (Nat.div2 c) (sprog_writes p)) as [I|N]; [left; exists O, p, tmp; auto|].
    destruct IH as [(t & q & tq & H)|H]; [left; exists (S t), q, tq; exact H|].
    right. intros [|t]; [exact N|exact (H t)]. }
  destruct Dec as [(t & p & tmp & E & I)|N].
  - assert (TT : stouched progs t c) by (unfold stouched, cells; rewrite E; auto).
    destruct (HT1 t p tmp E) as (A1 & _ & A2). destruct (HT2 t p tmp E) as (B1 & _ & B2). rewrite A2, B2 by exact TT.
    rewrite (solo_unique (count_occ Nat.eq_dec s1 t) (count_occ Nat.eq_dec s2 t)); [reflexivity| |]; unfold over;
      [rewrite (D1 _ (nth_error_In _ _ A1))|rewrite (D2 _ (nth_error_In _ _ B1))]; exact Logic.I.
  - rewrite HX1, HX2; auto.
Qed.
Print Assumptions C166_same_result.

(** Three threads that share their operands 0 and 1 (5 and -7): sum into 2, product into 3, and the lesser of the two into 4. *)
Definition sthreads0 : list (stmt sinstr scond * (nat -> list Z)) :=
  [(Do (SBin SOAdd 2 0 1), fun _ => [7; 7]); (Do (SBin SOMul 3 0 1), fun _ => [8; 8]);
   (If (SCLt 0 1) (Do (SCopy 4 0)) (Do (SCopy 4 1)), fun _ => [9; 9])].
Definition sobjects0 : nat -> list Z := fun c => match c with O => [5; 0] | 1%nat => [1; 0] | 2%nat => [7; 0] | 3%nat => [4294967295; 0] | _ => [1; 0] end.
Definition snumbers0 : env := fun i => match i with O => 5 | 1%nat => -7 | _ => 1 end.
Example C166_example :
  (forall x, swf 2 (signed_at sobjects0 x) /\ sval (signed_at sobjects0 x) = snumbers0 x) /\ sseparate (map fst sthreads0) /\
  let w := world_run (sstart cfg0 2 5 sobjects0 sthreads0) (concat (repeat [0%nat; 1%nat; 2%nat] 60)) in
  map (fun x => sval (signed_at (fst w) x)) [0; 1; 2; 3; 4]%nat = [5; -7; -2; -35; -7].
Proof.
  split. { intros [|[|x] ].
    - split; [split; [wfc|vm_compute; discriminate]|vm_compute; reflexivity].
    - split; [split; [wfc|vm_compute; discriminate]|vm_compute; reflexivity].
    - assert (E : signed_at sobjects0 (S (S x)) = mk_aesi SPos [1; 0]).
      { unfold signed_at. replace (2 * S (S x) + 1)%nat with (S (S (S (S (S (2 * x)))))) by lia. replace (2 * S (S x))%nat with (S (S (S (S (2 * x))))) by lia. reflexivity. }
      rewrite E. split; [split; [wfc|vm_compute; discriminate]|vm_compute; reflexivity]. }
  split; [|vm_compute; reflexivity].
  intros t u p q x N Ht Hu Hx. destruct t as [|[|[|[|t] ] ] ]; cbn in Ht; try discriminate; injection Ht as <-;
    destruct u as [|[|[|[|u] ] ] ]; cbn in Hu; try discriminate; try congruence; injection Hu as <-; cbn in Hx |- *; lia.
Qed.
