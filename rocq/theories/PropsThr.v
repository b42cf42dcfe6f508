(** * PropsThr: threads, C163 and C164.

    Programs and what they mean on integers: [ProgSpec.v]; what they read and assign, and when they are [separate]:
    [ThrSpec.v]; the calls one block access at a time, and the scheduler: [ThrModel.v]. *)
From Verif Require Import Spec Lib AeuModel AliasModel AliasFacts ProgSpec ProgModel ProgFacts ProgTotal IniProgSpec PropsProg
  ThrMonad ThrModel ThrSpec ThrFacts ThrStore ThrExec ThrFoot.
From Coq Require Import ZifyBool.
Open Scope Z_scope.

Definition touched (progs : list (stmt uinstr ucond * (nat -> list Z))) (t x : nat) : Prop :=
  match nth_error progs t with Some (p, _) => In x (prog_reads p) \/ In x (prog_writes p) | None => False end.
Definition assigned (progs : list (stmt uinstr ucond * (nat -> list Z))) (t x : nat) : Prop :=
  match nth_error progs t with Some (p, _) => In x (prog_writes p) | None => False end.
Lemma assigned_touched progs t x : assigned progs t x -> touched progs t x.
Proof. unfold assigned, touched. destruct (nth_error progs t) as [[p tmp]|]; auto. Qed.
Lemma separate_touched progs t u x : separate (map fst progs) -> t <> u -> assigned progs t x -> ~ touched progs u x.
Proof.
  unfold assigned, touched. intros S N HA HT.
  destruct (nth_error progs t) as [[p tp]|] eqn:ET; [|contradiction]. destruct (nth_error progs u) as [[q tq]|] eqn:EU; [|contradiction].
  destruct (S t u p q x N) as [A B]; auto.
  - now rewrite nth_error_map, ET.
  - now rewrite nth_error_map, EU.
  - tauto.
Qed.
(** Where everything is after a schedule: [interleave] for the threads of [start]. *)
Lemma interleaved cfg n fuel progs shared s : separate (map fst progs) ->
  let w := world_run (start cfg n fuel shared progs) s in
  length (snd w) = length progs /\
  (forall t p tmp, nth_error progs t = Some (p, tmp) ->
     let e := solo (count_occ Nat.eq_dec s t) (shared, mk_thread (trun cfg n fuel p) tmp) in
     nth_error (snd w) t = Some (snd e) /\ foot (touched progs t) (assigned progs t) (th_act (snd e)) /\
     forall x, touched progs t x -> fst w x = fst e x) /\
  (forall x, (forall t, ~ assigned progs t x) -> fst w x = shared x).
Proof.
  intros S. pose proof (interleave (touched progs) (assigned progs) shared
    (map (fun '(p, tmp) => mk_thread (trun cfg n fuel p) tmp) progs) (assigned_touched progs)) as H.
  specialize (H (fun t u x N HA => separate_touched progs t u x S N HA)).
  assert (F : forall t th, nth_error (map (fun '(p, tmp) => mk_thread (trun cfg n fuel p) tmp) progs) t = Some th ->
    foot (touched progs t) (assigned progs t) (th_act th)).
  { intros t th. rewrite nth_error_map. destruct (nth_error progs t) as [[p tmp]|] eqn:E; [|discriminate]. intros [= <-]. cbn [th_act].
    apply f_run; unfold touched, assigned; rewrite E; auto. }
  specialize (H F s). cbv zeta in H. fold (start cfg n fuel shared progs) in H. cbv zeta. destruct H as (H1 & H2 & H3). split; [etransitivity; [exact H1|apply map_length]|]. split; [|exact H3].
  intros t p tmp E. apply H2. now rewrite nth_error_map, E.
Qed.

(** What one thread's program comes to when it runs alone. *)
Lemma alone cfg n fuel p e shared tmp : 1 <= n -> (forall x, represents n (shared x) (e x)) -> (forall k, len (tmp k) = n) ->
  match uspec_run n fuel p e with
  | RVal e' => exists k sh' tmp', solo k (shared, mk_thread (trun cfg n fuel p) tmp) = (sh', mk_thread (Ret tt) tmp') /\
                 forall x, represents n (sh' x) (e' x)
  | RUndef => True
  | RTimeout => exists k sh' tmp', solo k (shared, mk_thread (trun cfg n fuel p) tmp) = (sh', mk_thread (Stop OutOfFuel) tmp')
  end.
Proof.
  intros Hn R T. pose proof (C61_unsigned_programs cfg n fuel p (seen shared tmp) e Hn R) as H.
  pose proof (trun_alike cfg n ltac:(lia) fuel p (seen shared tmp) (seen shared tmp) (fun i => eq_refl)) as A.
  assert (L : lens n (seen shared tmp)). { intros [x|x]; cbn [seen]; [apply (R x)|apply T]. }
  specialize (A L). pose proof (solo_run (trun cfg n fuel p) shared tmp) as S. unfold alike in A.
  destruct (uspec_run n fuel p e) as [e'| |]; auto.
  - destruct H as (m' & E & V). rewrite E in A. destruct (run_act (trun cfg n fuel p) (seen shared tmp)) as [[[] m1]|]; cbn [osim snd] in A; [|contradiction].
    destruct S as (k & sh' & tmp' & S1 & S2). exists k, sh', tmp'. split; auto. intros x. specialize (S2 (Var x)). cbn [seen] in S2. rewrite <- S2.
    destruct A as [A _]. rewrite A. apply V.
  - rewrite H in A. destruct (run_act (trun cfg n fuel p) (seen shared tmp)) as [[[] m1]|f]; cbn [osim] in A; [contradiction|]. subst f. exact S.
Qed.

(** ** C163 *)
(** Whatever the schedule: a thread whose program is defined on the integers never comes to a fault, and once it has finished,
    every object it reads or assigns has the value the program alone gives it.  Objects nobody assigns never change. *)
Theorem C163_every_schedule : forall cfg n fuel progs shared e schedule, 1 <= n ->
  (forall x, represents n (shared x) (e x)) -> (forall p tmp k, In (p, tmp) progs -> len (tmp k) = n) ->
  separate (map fst progs) ->
  let w := world_run (start cfg n fuel shared progs) schedule in
  (forall t p tmp e', nth_error progs t = Some (p, tmp) -> uspec_run n fuel p e = RVal e' ->
     exists th, nth_error (snd w) t = Some th /\ (forall f, th_act th <> Stop f) /\
       (th_act th = Ret tt -> forall x, In x (prog_reads p) \/ In x (prog_writes p) -> represents n (fst w x) (e' x))) /\
  (forall x, (forall p tmp, In (p, tmp) progs -> ~ In x (prog_writes p)) -> fst w x = shared x).
Proof.
  intros cfg n fuel progs shared e s Hn R T S w. destruct (interleaved cfg n fuel progs shared s S) as (HL & HT & HX). fold w in HL, HT, HX.
  split.
  - intros t p tmp e' E U. destruct (HT t p tmp E) as (H1 & _ & H3). exists (snd (solo (count_occ Nat.eq_dec s t) (shared, mk_thread (trun cfg n fuel p) tmp))).
    pose proof (alone cfg n fuel p e shared tmp Hn R (fun k => T p tmp k (nth_error_In _ _ E))) as A. rewrite U in A.
    destruct A as (k & sh' & tmp' & A1 & A2). split; [exact H1|].
    assert (OK : over (snd (solo k (shared, mk_thread (trun cfg n fuel p) tmp)))) by (rewrite A1; exact I).
    split.
    + intros f F. assert (O2 : over (snd (solo (count_occ Nat.eq_dec s t) (shared, mk_thread (trun cfg n fuel p) tmp)))) by (unfold over; now rewrite F).
      rewrite (solo_unique _ _ _ O2 OK), A1 in F. discriminate.
    + intros F x Hx. assert (O2 : over (snd (solo (count_occ Nat.eq_dec s t) (shared, mk_thread (trun cfg n fuel p) tmp)))) by (unfold over; now rewrite F).
      rewrite H3 by (unfold touched; rewrite E; exact Hx). rewrite (solo_unique _ _ _ O2 OK), A1. apply A2.
  - intros x Hx. apply HX. intros t. unfold assigned. destruct (nth_error progs t) as [[p tmp]|] eqn:E; [|auto]. apply Hx with tmp. eapply nth_error_In, E.
Qed.
Print Assumptions C163_every_schedule.

(** If all programs are defined, then after enough turns for everybody, in whatever order, all have finished, and every object
    has the value that the one program assigning it gives it, or its old one. *)
Theorem C163_all_finish : forall cfg n fuel progs shared e, 1 <= n ->
  (forall x, represents n (shared x) (e x)) -> (forall p tmp k, In (p, tmp) progs -> len (tmp k) = n) ->
  separate (map fst progs) -> (forall p tmp, In (p, tmp) progs -> exists e', uspec_run n fuel p e = RVal e') ->
  exists k, forall schedule, fair_for (length progs) k schedule ->
    let w := world_run (start cfg n fuel shared progs) schedule in
    (forall th, In th (snd w) -> th_act th = Ret tt) /\
    forall x, (exists p tmp e', In (p, tmp) progs /\ In x (prog_writes p) /\ uspec_run n fuel p e = RVal e' /\ represents n (fst w x) (e' x)) \/
              ((forall p tmp, In (p, tmp) progs -> ~ In x (prog_writes p)) /\ fst w x = shared x).
Proof.
  intros cfg n fuel progs shared e Hn R T S D.
  assert (K : exists k, forall p tmp, In (p, tmp) progs -> exists th, snd (solo k (shared, mk_thread (trun cfg n fuel p) tmp)) = th /\ th_act th = Ret tt).
  { clear S. induction progs as [|[p tmp] rest IH]; [exists O; intros ? ? []|].
    destruct IH as [k1 K1]; [intros; eapply T; right; eauto|intros; eapply D; right; eauto|].
    destruct (D p tmp (or_introl eq_refl)) as [e' U].
    pose proof (alone cfg n fuel p e shared tmp Hn R (fun k => T p tmp k (or_introl eq_refl))) as A. rewrite U in A.
    destruct A as (k2 & sh' & tmp' & A1 & _). exists (k1 + k2)%nat. intros q tq [H|H].
    - injection H as <- <-. rewrite Nat.add_comm, solo_add, A1. rewrite solo_over by exact I. eauto.
    - destruct (K1 q tq H) as (th & E1 & E2). rewrite solo_add, solo_over; [eauto|]. unfold over. now rewrite E1, E2. }
  destruct K as [k K]. exists k. intros s F w.
  destruct (interleaved cfg n fuel progs shared s S) as (HL & HT & HX). fold w in HL, HT, HX.
  assert (DONE : forall t p tmp, nth_error progs t = Some (p, tmp) -> exists th, nth_error (snd w) t = Some th /\ th_act th = Ret tt).
  { intros t p tmp E. destruct (HT t p tmp E) as (H1 & _ & _). eexists. split; [exact H1|].
    assert (Lt : (t < length progs)%nat) by (apply nth_error_Some; congruence). specialize (F t Lt).
    replace (count_occ Nat.eq_dec s t) with (k + (count_occ Nat.eq_dec s t - k))%nat by lia. rewrite solo_add.
    destruct (K p tmp (nth_error_In _ _ E)) as (th & E1 & E2). rewrite solo_over; [now rewrite E1|]. unfold over. now rewrite E1, E2. }
  split.
  - intros th H. apply In_nth_error in H. destruct H as [t H].
    destruct (nth_error progs t) as [[p tmp]|] eqn:E.
    + destruct (DONE t p tmp E) as (th' & H1 & H2). congruence.
    + apply nth_error_None in E. rewrite <- HL in E. apply nth_error_None in E. congruence.
  - intros x.
    assert (Dec : (exists t p tmp, nth_error progs t = Some (p, tmp) /\ In x (prog_writes p)) \/ (forall p tmp, In (p, tmp) progs -> ~ In x (prog_writes p))).
    { clear. induction progs as [|[p tmp] rest IH]; [right; intros ? ? []|].
      destruct (in_dec Nat.eq_dec x (prog_writes p)) as [I|N]; [left; exists O, p, tmp; auto|].
      destruct IH as [(t & q & tq & H)|H]; [left; exists (S t), q, tq; exact H|].
      right. intros q tq [E|E]; [injection E as <- <-; exact N|eauto]. }
    destruct Dec as [(t & p & tmp & E & I)|N].
    + left. destruct (D p tmp (nth_error_In _ _ E)) as [e' U]. exists p, tmp, e'.
      split; [eapply nth_error_In, E|]. split; [exact I|]. split; [exact U|].
      destruct (C163_every_schedule cfg n fuel progs shared e s Hn R T S) as [V _]. fold w in V.
      destruct (V t p tmp e' E U) as (th & H1 & _ & H3). apply H3; auto. destruct (DONE t p tmp E) as (th' & G1 & G2). congruence.
    + right. split; [exact N|].
      destruct (C163_every_schedule cfg n fuel progs shared e s Hn R T S) as [_ V]. fold w in V. now apply V.
Qed.
Print Assumptions C163_all_finish.

(** No data race: at no moment are two threads about to access the same object, one of them storing. *)
Theorem C163_no_race : forall cfg n fuel progs shared schedule t u x, separate (map fst progs) -> t <> u ->
  let w := world_run (start cfg n fuel shared progs) schedule in
  forall tht thu i v k, nth_error (snd w) t = Some tht -> nth_error (snd w) u = Some thu -> th_act tht = Put (Var x) i v k ->
    (forall j l, th_act thu <> Get (Var x) j l) /\ (forall j v' l, th_act thu <> Put (Var x) j v' l).
Proof.
  intros cfg n fuel progs shared s t u x S N w tht thu i v k Et Eu Ht.
  destruct (interleaved cfg n fuel progs shared s S) as (HL & HT & HX). fold w in HL, HT, HX.
  assert (G : forall t th, nth_error (snd w) t = Some th -> foot (touched progs t) (assigned progs t) (th_act th)).
  { clear - HL HT. intros t th E. destruct (nth_error progs t) as [[p tmp]|] eqn:EP.
    - destruct (HT t p tmp EP) as (H1 & H2 & _). congruence.
    - apply nth_error_None in EP. rewrite <- HL in EP. apply nth_error_None in EP. congruence. }
  pose proof (G t tht Et) as Ft. rewrite Ht in Ft. cbn [foot] in Ft. destruct Ft as [At _]. pose proof (G u thu Eu) as Fu.
  pose proof (separate_touched progs t u x S N At) as NT. split; intros; intros E; rewrite E in Fu; cbn [foot] in Fu; destruct Fu as [Fu _]; apply NT; auto.
  now apply assigned_touched.
Qed.
Print Assumptions C163_no_race.

(** Separate programs of any kind, also ones that divide by zero or shift too far: no thread ever comes to a fault. *)
Theorem C163_never_fault : forall cfg n fuel progs shared schedule t th f, 1 <= n -> cfg_unsafe cfg = false ->
  (forall x, wf n (shared x)) -> (forall p tmp k, In (p, tmp) progs -> len (tmp k) = n) ->
  (forall p tmp, In (p, tmp) progs -> typed uinstr_typed ucond_typed p) -> separate (map fst progs) ->
  nth_error (snd (world_run (start cfg n fuel shared progs) schedule)) t = Some th -> th_act th = Stop f -> f = OutOfFuel.
Proof.
  intros cfg n fuel progs shared s t th f Hn U Wf T Ty S E F.
  destruct (interleaved cfg n fuel progs shared s S) as (HL & HT & HX).
  destruct (nth_error progs t) as [[p tmp]|] eqn:EP.
  2: { apply nth_error_None in EP. rewrite <- HL in EP. apply nth_error_None in EP. congruence. }
  destruct (HT t p tmp EP) as (H1 & _ & _). rewrite E in H1. injection H1 as H1.
  pose proof (C61_unsigned_programs_never_fault cfg n fuel p (seen shared tmp) Hn U (Ty p tmp (nth_error_In _ _ EP)) Wf) as NF.
  pose proof (trun_alike cfg n ltac:(lia) fuel p (seen shared tmp) (seen shared tmp) (fun i => eq_refl)) as A.
  assert (L : lens n (seen shared tmp)). { intros [x|x]; cbn [seen]; [apply (Wf x)|apply (T p tmp x (nth_error_In _ _ EP))]. }
  specialize (A L). pose proof (solo_run (trun cfg n fuel p) shared tmp) as SR. unfold alike in A.
  assert (O2 : over (snd (solo (count_occ Nat.eq_dec s t) (shared, mk_thread (trun cfg n fuel p) tmp)))) by (rewrite <- H1; unfold over; now rewrite F).
  rewrite H1 in F.
  destruct (run_act (trun cfg n fuel p) (seen shared tmp)) as [[a m1]|g].
  - destruct SR as (k & sh' & tmp' & S1 & _). rewrite (solo_unique _ k _ O2), S1 in F by (rewrite S1; exact I). discriminate.
  - destruct SR as (k & sh' & tmp' & S1). rewrite (solo_unique _ k _ O2), S1 in F by (rewrite S1; exact I). cbn in F. injection F as <-.
    destruct (urun cfg n fuel p (seen shared tmp)); cbn [osim] in A; [contradiction|]. congruence.
Qed.
Print Assumptions C163_never_fault.

(** The order makes no difference: two schedules after which all threads are done leave the same objects. *)
Theorem C163_same_result : forall cfg n fuel progs shared s1 s2, separate (map fst progs) ->
  let w1 := world_run (start cfg n fuel shared progs) s1 in
  let w2 := world_run (start cfg n fuel shared progs) s2 in
  (forall th, In th (snd w1) -> th_act th = Ret tt) -> (forall th, In th (snd w2) -> th_act th = Ret tt) ->
  forall x, fst w1 x = fst w2 x.
Proof.
  intros cfg n fuel progs shared s1 s2 S w1 w2 D1 D2 x.
  destruct (interleaved cfg n fuel progs shared s1 S) as (_ & HT1 & HX1). destruct (interleaved cfg n fuel progs shared s2 S) as (_ & HT2 & HX2).
  fold w1 in HT1, HX1. fold w2 in HT2, HX2.
  assert (Dec : (exists t p tmp, nth_error progs t = Some (p, tmp) /\ In x (prog_writes p)) \/ (forall t, ~ assigned progs t x)).
  { clear. unfold assigned. induction progs as [|[p tmp] rest IH]; [right; intros [|t] []|].
    destruct (in_dec Nat.eq_dec x (prog_writes p)) as [I|N]; [left; exists O, p, tmp; auto|].
    destruct IH as [(t & q & tq & H)|H]; [left; exists (S t), q, tq; exact H|].
    right. intros [|t]; [exact N|exact (H t)]. }
  destruct Dec as [(t & p & tmp & E & I)|N].
  - assert (TT : touched progs t x) by (unfold touched; rewrite E; auto).
    destruct (HT1 t p tmp E) as (A1 & _ & A2). destruct (HT2 t p tmp E) as (B1 & _ & B2). rewrite A2, B2 by exact TT.
    rewrite (solo_unique (count_occ Nat.eq_dec s1 t) (count_occ Nat.eq_dec s2 t)); [reflexivity| |]; unfold over;
      [rewrite (D1 _ (nth_error_In _ _ A1))|rewrite (D2 _ (nth_error_In _ _ B1))]; exact Logic.I.
  - rewrite HX1, HX2; auto.
Qed.
Print Assumptions C163_same_result.

(** Three threads that share their operands 0 and 1: sum into 2, product into 3, and the greater of the two into 4. *)
Definition threads0 : list (stmt uinstr ucond * (nat -> list Z)) :=
  [(Do (UBin OAdd 2 0 1), fun _ => [7; 7]); (Do (UBin OMul 3 0 1), fun _ => [8; 8]);
   (If (CLt 0 1) (Do (UCopy 4 1)) (Do (UCopy 4 0)), fun _ => [9; 9])].
Definition objects0 : nat -> list Z := fun i => match i with O => [4294967295; 0] | 1%nat => [2; 0] | _ => [5; 5] end.
Definition numbers0 : env := fun i => match i with O => 4294967295 | 1%nat => 2 | _ => 5 + 5 * 2 ^ 32 end.
Definition round_robin (k : nat) : list nat := concat (repeat [0%nat; 1%nat; 2%nat] k).
Example C163_example :
  (forall x, represents 2 (objects0 x) (numbers0 x)) /\ separate (map fst threads0) /\
  let w := world_run (start cfg0 2 5 objects0 threads0) (round_robin 40) in
  map (fun x => bval (fst w x)) [2%nat; 3%nat; 4%nat] = [4294967297; 8589934590; 4294967295].
Proof.
  split. { intros [|[|x] ]; (split; [wfc|vm_compute; reflexivity]). }
  split; [|vm_compute; reflexivity].
  intros t u p q x N Ht Hu Hx. destruct t as [|[|[|[|t] ] ] ]; cbn in Ht; try discriminate; injection Ht as <-;
    destruct u as [|[|[|[|u] ] ] ]; cbn in Hu; try discriminate; try congruence; injection Hu as <-; cbn in Hx |- *; lia.
Qed.
