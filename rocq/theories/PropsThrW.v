(** * PropsThrW: threads without races on a machine with a weaker memory, C169.

    The machine: [ThrWeak.v]; programs and what they mean on integers: [ProgSpec.v]; what they read and assign: [ThrSpec.v],
    [SThrSpec.v]. *)
From Verif Require Import Spec Lib AeuModel AesiModel AliasModel AliasFacts ProgSpec ProgModel ProgFacts ProgTotal PropsProg
  ThrMonad ThrModel ThrSpec ThrFacts ThrStore ThrExec ThrFoot SThrModel SThrSpec SThrFacts SThrExec SThrFoot PropsThrS ThrWeak PropsThr.
From Coq Require Import ZifyBool.
Open Scope Z_scope.

Lemma foreign_none log t x : (forall u, In (u, x) log -> u = t) -> foreign log t x = false.
Proof.
  intros H. unfold foreign. induction log as [|[u y] l IH]; [reflexivity|]. cbn [existsb]. rewrite IH by (intros; apply H; right; auto).
  destruct (Nat.eqb_spec u t) as [->|N]; [reflexivity|]. destruct (Nat.eqb_spec y x) as [->|]; [|reflexivity].
  exfalso. apply N, H. left. reflexivity.
Qed.
Lemma step_len sh th x : len (fst (thread_step sh th) x) = len (sh x).
Proof.
  unfold thread_step. destruct (th_act th) as [a|e|y i k|y i v k]; auto.
  - destruct (mget (seen sh (th_tmp th)) y i); auto.
  - destruct (aset (seen sh (th_tmp th) y) i v) as [b|e] eqn:E; auto. destruct y as [y|y]; auto. cbn [fst seen] in *. unfold put_at.
    destruct (Nat.eqb_spec x y) as [->|]; auto. unfold aset in E. destruct (in_range (sh y) i); [|discriminate]. injection E as <-. apply len_upd.
Qed.
Lemma step_unstored sh th x : (forall i v k, th_act th <> Put (Var x) i v k) -> fst (thread_step sh th) x = sh x.
Proof.
  intros N. unfold thread_step. destruct (th_act th) as [a|e|y i k|y i v k]; auto.
  - destruct (mget (seen sh (th_tmp th)) y i); auto.
  - destruct (aset (seen sh (th_tmp th) y) i v) as [b|e] eqn:E; auto. destruct y as [y|y]; auto. cbn [fst]. unfold put_at.
    destruct (Nat.eqb_spec x y) as [->|]; auto. exfalso. eapply N. reflexivity.
Qed.
Definition turns (t : nat) (moves : list (nat * option Z)) : nat := count_occ Nat.eq_dec (map fst moves) t.

(** A thread stays within its objects whatever its loads return. *)
Lemma weak_feet (R W : nat -> nat -> Prop) sh0 ths0 : (forall t x, W t x -> R t x) ->
  (forall t th, nth_error ths0 t = Some th -> foot (R t) (W t) (th_act th)) ->
  forall stores moves, let w := weak_run stores (weakly (sh0, ths0)) moves in
    (forall t x, In (t, x) (snd w) -> W t x) /\
    (forall t mine th, nth_error (fst w) t = Some (mine, th) -> foot (R t) (W t) (th_act th)).
Proof.
  intros WR F stores moves. induction moves as [|[u c] moves IH] using rev_ind; cbv zeta in *.
  { unfold weak_run, weakly. cbn [fold_left fst snd]. split; [intros ? ? []|]. intros t mine th E.
    rewrite nth_error_map in E. destruct (nth_error ths0 t) eqn:E0; [|discriminate]. injection E as _ <-. eauto. }
  unfold weak_run in *. rewrite fold_left_app. cbn [fold_left]. set (w := fold_left (weak_step stores) moves (weakly (sh0, ths0))) in *.
  destruct IH as (HG & HT). unfold weak_step. destruct (nth_error (fst w) u) as [[mine th]|] eqn:EU; [|split; [exact HG|exact HT] ].
  pose proof (HT u mine th EU) as K.
  pose proof (step_local (R u) (W u) mine mine th (WR u) K (fun _ _ => eq_refl)) as (_ & _ & _ & ST).
  assert (N : forall e t m q, foot (R u) (W u) (th_act (snd e)) -> nth_error (replace (fst w) u e) t = Some (m, q) -> foot (R t) (W t) (th_act q)).
  { intros e t m q Fe E. destruct (Nat.eq_dec u t) as [<-|Ne].
    - rewrite (replace_eq _ _ _ _ EU) in E. injection E as E. rewrite E in Fe. exact Fe.
    - rewrite replace_ne in E by auto. eauto. }
  assert (ST' : forall t m q, nth_error (replace (fst w) u (thread_step mine th)) t = Some (m, q) -> foot (R t) (W t) (th_act q)).
  { intros t m q E. exact (N _ t m q ST E). }
  destruct (th_act th) as [a|e|[x|x] i k|[x|x] i v k] eqn:ET, c as [v0|]; cbn [fst snd]; try (split; [exact HG|exact ST']).
  - destruct (foreign stores u x); cbn [fst snd]; split; try exact HG; try exact ST'.
    intros t m q E. refine (N _ t m q _ E). cbn [snd th_act]. cbn [foot] in K. apply K.
  - split; [|exact ST']. intros t y [I|I]; auto. injection I as <- <-. cbn [foot] in K. apply K.
  - split; [|exact ST']. intros t y [I|I]; auto. injection I as <- <-. cbn [foot] in K. apply K.
Qed.
(** Whatever happens, every thread has exactly the picture and the state it would have running alone. *)
Lemma weak_interleave_given (R W : nat -> nat -> Prop) sh0 ths0 : (forall t x, W t x -> R t x) -> (forall t u x, t <> u -> W t x -> ~ R u x) ->
  (forall t th, nth_error ths0 t = Some th -> foot (R t) (W t) (th_act th)) ->
  forall stores, (forall t x, In (t, x) stores -> W t x) -> forall moves, let w := weak_run stores (weakly (sh0, ths0)) moves in
    length (fst w) = length ths0 /\
    (forall t x, In (t, x) (snd w) -> W t x) /\
    (forall t th0, nth_error ths0 t = Some th0 ->
      let e := solo (turns t moves) (sh0, th0) in
      nth_error (fst w) t = Some e /\ foot (R t) (W t) (th_act (snd e)) /\
      forall x, len (fst e x) = len (sh0 x) /\ (~ In (t, x) (snd w) -> fst e x = sh0 x)).
Proof.
  intros WR SEP F stores HS moves. induction moves as [|[u c] moves IH] using rev_ind; cbv zeta in *.
  { unfold weak_run, weakly. cbn [fold_left fst snd]. split; [apply map_length|]. split; [intros ? ? []|]. intros t th0 E.
    rewrite nth_error_map, E. cbn. split; [reflexivity|]. split; [eauto|]. auto. }
  unfold weak_run in *. rewrite fold_left_app. cbn [fold_left]. set (w := fold_left (weak_step stores) moves (weakly (sh0, ths0))) in *.
  destruct IH as (HL & HG & HT).
  assert (TU : forall t, turns t (moves ++ [(u, c)]) = (turns t moves + if Nat.eq_dec u t then 1 else 0)%nat).
  { intros t. unfold turns. rewrite map_app, count_occ_app. cbn [map fst count_occ]. destruct (Nat.eq_dec u t); reflexivity. }
  unfold weak_step. destruct (nth_error (fst w) u) as [[mine th]|] eqn:EU.
  2: { split; [exact HL|]. split; [exact HG|]. intros t th0 H. rewrite TU. destruct (Nat.eq_dec u t) as [->|N]; [|rewrite Nat.add_0_r; auto].
       destruct (HT t th0 H) as [K _]. congruence. }
  assert (U0 : exists th0, nth_error ths0 u = Some th0).
  { destruct (nth_error ths0 u) eqn:E0; [eauto|]. apply nth_error_None in E0. rewrite <- HL in E0. apply nth_error_None in E0. congruence. }
  destruct U0 as [thu0 EU0]. destruct (HT u thu0 EU0) as (K1 & K2 & K3). rewrite EU in K1. injection K1 as K1.
  rewrite <- K1 in K2, K3. cbn [fst snd] in K2, K3.
  (* the step is the thread's own step *)
  set (log' := match th_act th with Put (Var x) _ _ _ => (u, x) :: snd w | _ => snd w end).
  match goal with |- context [fst ?X] => assert (EW : X = (replace (fst w) u (thread_step mine th), log')) end.
  { unfold log'. destruct (th_act th) as [a|e|[x|x] i k|[x|x] i v k], c; try reflexivity.
    rewrite foreign_none; [reflexivity|]. intros t It. destruct (Nat.eq_dec t u) as [|N]; auto. exfalso.
    cbn [foot] in K2. apply (SEP t u x N (HS t x It)). apply K2. }
  rewrite EW. cbn [fst snd]. clear EW.
  pose proof (step_local (R u) (W u) mine mine th (WR u) K2 (fun _ _ => eq_refl)) as (_ & _ & _ & ST).
  assert (LG : forall t x, In (t, x) (snd w) -> In (t, x) log').
  { intros t x I. unfold log'. destruct (th_act th) as [a|e|[y|y] i k|[y|y] i v k]; auto. right. exact I. }
  split; [rewrite replace_len; exact HL|]. split.
  - intros t x I. unfold log' in I. destruct (th_act th) as [a|e|[y|y] i k|[y|y] i v k]; auto. destruct I as [I|I]; auto.
    injection I as <- <-. cbn [foot] in K2. apply K2.
  - intros t th0 H. rewrite TU. destruct (Nat.eq_dec u t) as [<-|N].
    + rewrite EU0 in H. injection H as <-. rewrite Nat.add_comm. change (1 + ?k)%nat with (S k). rewrite solo_S.
      unfold solo_step. rewrite <- K1. cbn [fst snd]. split; [eapply replace_eq, EU|]. split; [exact ST|]. intros x. rewrite step_len. split; [apply K3|].
      intros NI. rewrite step_unstored; [apply K3; auto|]. intros i v k E. apply NI. unfold log'. rewrite E. left. reflexivity.
    + rewrite Nat.add_0_r. rewrite replace_ne by auto. destruct (HT t th0 H) as (L1 & L2 & L3). split; [exact L1|]. split; [exact L2|].
      intros x. split; [apply L3|]. intros NI. apply L3. auto.
Qed.
Lemma weak_interleave (R W : nat -> nat -> Prop) sh0 ths0 : (forall t x, W t x -> R t x) -> (forall t u x, t <> u -> W t x -> ~ R u x) ->
  (forall t th, nth_error ths0 t = Some th -> foot (R t) (W t) (th_act th)) ->
  forall moves w, weak_execution (sh0, ths0) moves w ->
    length (fst w) = length ths0 /\
    (forall t x, In (t, x) (snd w) -> W t x) /\
    (forall t th0, nth_error ths0 t = Some th0 ->
      let e := solo (turns t moves) (sh0, th0) in
      nth_error (fst w) t = Some e /\ foot (R t) (W t) (th_act (snd e)) /\
      forall x, len (fst e x) = len (sh0 x) /\ (~ In (t, x) (snd w) -> fst e x = sh0 x)).
Proof.
  intros WR SEP F moves w E. unfold weak_execution in E.
  destruct (weak_feet R W sh0 ths0 WR F (snd w) moves) as [HS _]. rewrite <- E in HS.
  pose proof (weak_interleave_given R W sh0 ths0 WR SEP F (snd w) HS moves) as H. rewrite <- E in H. exact H.
Qed.
(** After joining them, an object has the content the thread that owns it sees, or the old one. *)
Lemma weak_joined (R W : nat -> nat -> Prop) sh0 ths0 : (forall t x, W t x -> R t x) -> (forall t u x, t <> u -> W t x -> ~ R u x) ->
  (forall t th, nth_error ths0 t = Some th -> foot (R t) (W t) (th_act th)) ->
  forall moves w final, weak_execution (sh0, ths0) moves w -> weak_final sh0 w final ->
    (forall t th0 x, nth_error ths0 t = Some th0 -> W t x -> final x = fst (solo (turns t moves) (sh0, th0)) x) /\
    (forall x, (forall t, ~ W t x) -> final x = sh0 x).
Proof.
  intros WR SEP F moves w final HE HF. destruct (weak_interleave R W sh0 ths0 WR SEP F moves w HE) as (HL & HG & HT). split.
  - intros t th0 x E Wx. destruct (HT t th0 E) as (K1 & _ & K3). destruct (K3 x) as [KL KN]. destruct (HF x) as [FL FI].
    apply list_ext_znth; [lia|]. rewrite FL. intros i Hi. destruct (FI i Hi) as [(u & mine & th & Eu & Iu & V)|[NI V] ].
    + assert (u = t) as -> by (destruct (Nat.eq_dec u t) as [|N]; auto; exfalso; apply (SEP t u x); auto).
      rewrite K1 in Eu. injection Eu as Eu. rewrite Eu. cbn [fst]. exact V.
    + rewrite V. now rewrite (KN (NI t)).
  - intros x N. destruct (HF x) as [FL FI]. apply list_ext_znth; [exact FL|]. rewrite FL. intros i Hi.
    destruct (FI i Hi) as [(u & mine & th & Eu & Iu & V)|[NI V] ]; [|exact V]. exfalso. exact (N u (HG u x Iu)).
Qed.

(** ** C169 *)
Lemma u_feet cfg n fuel progs shared t th : nth_error (snd (start cfg n fuel shared progs)) t = Some th ->
  foot (touched progs t) (assigned progs t) (th_act th).
Proof.
  unfold start. cbn [snd]. rewrite nth_error_map. destruct (nth_error progs t) as [[p tmp]|] eqn:E; [|discriminate]. intros [= <-]. cbn [th_act].
  apply f_run; unfold touched, assigned; rewrite E; auto.
Qed.
Lemma u_start cfg n fuel progs shared t p tmp : nth_error progs t = Some (p, tmp) ->
  nth_error (snd (start cfg n fuel shared progs)) t = Some (mk_thread (trun cfg n fuel p) tmp).
Proof. intros E. unfold start. cbn [snd]. now rewrite nth_error_map, E. Qed.

(** Unsigned objects: a thread whose program is defined on the integers never comes to a fault, and once it has finished, what
    it sees of every object it reads or assigns has the value the program alone gives it. *)
Theorem C169_unsigned : forall cfg n fuel progs shared e moves w, 1 <= n ->
  (forall x, represents n (shared x) (e x)) ->
  (forall p tmp k, In (p, tmp) progs -> len (tmp k) = n) -> separate (map fst progs) ->
  weak_execution (start cfg n fuel shared progs) moves w ->
  forall t p tmp e', nth_error progs t = Some (p, tmp) -> uspec_run n fuel p e = RVal e' ->
    exists mine th, nth_error (fst w) t = Some (mine, th) /\ (forall f, th_act th <> Stop f) /\
      (th_act th = Ret tt -> forall x, In x (prog_reads p) \/ In x (prog_writes p) -> represents n (mine x) (e' x)).
Proof.
  intros cfg n fuel progs shared e moves w Hn R T S HW t p tmp e' E U.
  destruct (weak_interleave (touched progs) (assigned progs) shared (snd (start cfg n fuel shared progs)) (assigned_touched progs)
    (fun t u x N HA => separate_touched progs t u x S N HA) (u_feet cfg n fuel progs shared) moves w HW) as (_ & _ & HT).
  destruct (HT t _ (u_start cfg n fuel progs shared t p tmp E)) as (H1 & _ & _). cbv zeta in H1.
  pose proof (alone cfg n fuel p e shared tmp Hn R (fun k => T p tmp k (nth_error_In _ _ E))) as A. rewrite U in A.
  destruct A as (k & sh' & tmp' & A1 & A2).
  destruct (solo (turns t moves) (shared, mk_thread (trun cfg n fuel p) tmp)) as [mine th] eqn:ES. exists mine, th. split; [exact H1|].
  assert (OK : over (snd (solo k (shared, mk_thread (trun cfg n fuel p) tmp)))) by (rewrite A1; exact I).
  assert (UN : over th -> (mine, th) = (sh', mk_thread (Ret tt) tmp')).
  { intros O. rewrite <- A1, <- ES. apply solo_unique; auto. rewrite ES. exact O. }
  split.
  - intros f F. assert (O : over th) by (unfold over; now rewrite F). specialize (UN O). injection UN as _ UN. rewrite UN in F. discriminate.
  - intros F x _. assert (O : over th) by (unfold over; now rewrite F). specialize (UN O). injection UN as -> _. apply A2.
Qed.
Print Assumptions C169_unsigned.
(** If all programs are defined, then after enough turns for everybody all have finished, and when they have been joined
    every object has the value that the one program assigning it gives it, or its old one. *)
Theorem C169_unsigned_joined : forall cfg n fuel progs shared e, 1 <= n ->
  (forall x, represents n (shared x) (e x)) ->
  (forall p tmp k, In (p, tmp) progs -> len (tmp k) = n) -> separate (map fst progs) ->
  (forall p tmp, In (p, tmp) progs -> exists e', uspec_run n fuel p e = RVal e') ->
  exists k, forall moves w, fair_for (length progs) k (map fst moves) -> weak_execution (start cfg n fuel shared progs) moves w ->
    (forall mine th, In (mine, th) (fst w) -> th_act th = Ret tt) /\
    forall final, weak_final shared w final -> forall x,
      (exists p tmp e', In (p, tmp) progs /\ In x (prog_writes p) /\ uspec_run n fuel p e = RVal e' /\ represents n (final x) (e' x)) \/
      ((forall p tmp, In (p, tmp) progs -> ~ In x (prog_writes p)) /\ final x = shared x).
Proof.
  intros cfg n fuel progs shared e Hn R T S D.
  assert (K : exists k, forall p tmp, In (p, tmp) progs -> exists th, snd (solo k (shared, mk_thread (trun cfg n fuel p) tmp)) = th /\ th_act th = Ret tt).
  { clear S. induction progs as [|[p tmp] rest IH]; [exists O; intros ? ? []|].
    destruct IH as [k1 K1]; [intros; eapply T; right; eauto|intros; eapply D; right; eauto|].
    destruct (D p tmp (or_introl eq_refl)) as [e' U].
    pose proof (alone cfg n fuel p e shared tmp Hn R (fun k => T p tmp k (or_introl eq_refl))) as A. rewrite U in A.
    destruct A as (k2 & sh' & tmp' & A1 & _). exists (k1 + k2)%nat. intros q tq [H|H].
    - injection H as <- <-. rewrite Nat.add_comm, solo_add, A1. rewrite solo_over by exact I. eauto.
    - destruct (K1 q tq H) as (th & E1 & E2). rewrite solo_add, solo_over; [eauto|]. unfold over. now rewrite E1, E2. }
  destruct K as [k K]. exists k. intros moves w F HW.
  destruct (weak_interleave (touched progs) (assigned progs) shared (snd (start cfg n fuel shared progs)) (assigned_touched progs)
    (fun t u x N HA => separate_touched progs t u x S N HA) (u_feet cfg n fuel progs shared) moves w HW) as (HL & _ & HT).
  pose proof (weak_joined (touched progs) (assigned progs) shared (snd (start cfg n fuel shared progs)) (assigned_touched progs)
    (fun t u x N HA => separate_touched progs t u x S N HA) (u_feet cfg n fuel progs shared) moves w) as HJ.
  specialize (fun final => HJ final HW).
  assert (DONE : forall t p tmp, nth_error progs t = Some (p, tmp) ->
    th_act (snd (solo (turns t moves) (shared, mk_thread (trun cfg n fuel p) tmp))) = Ret tt).
  { intros t p tmp E. assert (Lt : (t < length progs)%nat) by (apply nth_error_Some; congruence). specialize (F t Lt). fold (turns t moves) in F.
    replace (turns t moves) with (k + (turns t moves - k))%nat by lia. rewrite solo_add.
    destruct (K p tmp (nth_error_In _ _ E)) as (th & E1 & E2). rewrite solo_over; [now rewrite E1|]. unfold over. now rewrite E1, E2. }
  split.
  - intros mine th H. apply In_nth_error in H. destruct H as [t H]. destruct (nth_error progs t) as [[p tmp]|] eqn:E.
    + destruct (HT t _ (u_start cfg n fuel progs shared t p tmp E)) as (H1 & _). rewrite H in H1. injection H1 as H1.
      pose proof (DONE t p tmp E) as DN. rewrite <- H1 in DN. exact DN.
    + exfalso. apply nth_error_None in E. assert (X : (length (fst w) <= t)%nat) by (rewrite HL; unfold start; cbn [snd]; rewrite map_length; exact E).
      apply nth_error_None in X. congruence.
  - intros final HF x. destruct (HJ final HF) as [J1 J2].
    assert (Dec : (exists t p tmp, nth_error progs t = Some (p, tmp) /\ In x (prog_writes p)) \/ (forall p tmp, In (p, tmp) progs -> ~ In x (prog_writes p))).
    { clear. induction progs as [|[p tmp] rest IH]; [right; intros ? ? []|].
      destruct (in_dec Nat.eq_dec x (prog_writes p)) as [I|N]; [left; exists O, p, tmp; auto|].
      destruct IH as [(t & q & tq & H)|H]; [left; exists (Datatypes.S t), q, tq; exact H|].
      right. intros q tq [E|E]; [injection E as <- <-; exact N|eauto]. }
    destruct Dec as [(t & p & tmp & E & Ix)|N].
    + left. destruct (D p tmp (nth_error_In _ _ E)) as [e' U]. exists p, tmp, e'. split; [eapply nth_error_In, E|]. split; [exact Ix|]. split; [exact U|].
      pose proof (alone cfg n fuel p e shared tmp Hn R (fun k => T p tmp k (nth_error_In _ _ E))) as A. rewrite U in A.
      destruct A as (k2 & sh' & tmp' & A1 & A2).
      assert (UN : solo (turns t moves) (shared, mk_thread (trun cfg n fuel p) tmp) = solo k2 (shared, mk_thread (trun cfg n fuel p) tmp)).
      { apply solo_unique; [|rewrite A1; exact I]. unfold over. rewrite (DONE t p tmp E). exact I. }
      rewrite (J1 t _ x (u_start cfg n fuel progs shared t p tmp E)); [|unfold assigned; rewrite E; exact Ix].
      rewrite UN, A1. apply A2.
    + right. split; [exact N|]. apply J2. intros t. unfold assigned. destruct (nth_error progs t) as [[p tmp]|] eqn:E; [|auto]. apply N with tmp. eapply nth_error_In, E.
Qed.
Print Assumptions C169_unsigned_joined.

Lemma s_feet cfg n fuel progs shared t th : nth_error (snd (sstart cfg n fuel shared progs)) t = Some th ->
  foot (stouched progs t) (sassigned progs t) (th_act th).
Proof.
  unfold sstart. cbn [snd]. rewrite nth_error_map. destruct (nth_error progs t) as [[p tmp]|] eqn:E; [|discriminate]. intros [= <-]. cbn [th_act].
  pose proof (f_srun cfg n fuel p (fun x => In x (sprog_reads p) \/ In x (sprog_writes p)) (fun x => In x (sprog_writes p))) as FS.
  eapply foot_mono; [ | |apply FS; auto]; unfold stouched, sassigned; rewrite E; auto.
Qed.
Lemma s_start cfg n fuel progs shared t p tmp : nth_error progs t = Some (p, tmp) ->
  nth_error (snd (sstart cfg n fuel shared progs)) t = Some (mk_thread (strun cfg n fuel p) tmp).
Proof. intros E. unfold sstart. cbn [snd]. now rewrite nth_error_map, E. Qed.

(** Signed objects: a thread whose program is defined on the integers never comes to a fault, and once it has finished, what
    it sees of every object it reads or assigns has the value the program alone gives it. *)
Theorem C169_signed : forall cfg n fuel progs shared e moves w, 1 <= n ->
  (forall x, swf n (signed_at shared x) /\ sval (signed_at shared x) = e x) -> (forall c, len (shared c) = n) ->
  (forall p tmp k, In (p, tmp) progs -> len (tmp k) = n) -> sseparate (map fst progs) ->
  weak_execution (sstart cfg n fuel shared progs) moves w ->
  forall t p tmp e', nth_error progs t = Some (p, tmp) -> sspec_run n fuel p e = RVal e' ->
    exists mine th, nth_error (fst w) t = Some (mine, th) /\ (forall f, th_act th <> Stop f) /\
      (th_act th = Ret tt -> forall x, In x (sprog_reads p) \/ In x (sprog_writes p) -> swf n (signed_at mine x) /\ sval (signed_at mine x) = e' x).
Proof.
  intros cfg n fuel progs shared e moves w Hn R LS T S HW t p tmp e' E U.
  destruct (weak_interleave (stouched progs) (sassigned progs) shared (snd (sstart cfg n fuel shared progs)) (sassigned_touched progs)
    (fun t u x N HA => sseparate_touched progs t u x S N HA) (s_feet cfg n fuel progs shared) moves w HW) as (_ & _ & HT).
  destruct (HT t _ (s_start cfg n fuel progs shared t p tmp E)) as (H1 & _ & _). cbv zeta in H1.
  pose proof (salone cfg n fuel p e shared tmp Hn R LS (fun k => T p tmp k (nth_error_In _ _ E))) as A. rewrite U in A.
  destruct A as (k & sh' & tmp' & A1 & A2).
  destruct (solo (turns t moves) (shared, mk_thread (strun cfg n fuel p) tmp)) as [mine th] eqn:ES. exists mine, th. split; [exact H1|].
  assert (OK : over (snd (solo k (shared, mk_thread (strun cfg n fuel p) tmp)))) by (rewrite A1; exact I).
  assert (UN : over th -> (mine, th) = (sh', mk_thread (Ret tt) tmp')).
  { intros O. rewrite <- A1, <- ES. apply solo_unique; auto. rewrite ES. exact O. }
  split.
  - intros f F. assert (O : over th) by (unfold over; now rewrite F). specialize (UN O). injection UN as _ UN. rewrite UN in F. discriminate.
  - intros F x _. assert (O : over th) by (unfold over; now rewrite F). specialize (UN O). injection UN as -> _. apply A2.
Qed.
Print Assumptions C169_signed.
(** If all programs are defined, then after enough turns for everybody all have finished, and when they have been joined
    every object has the value that the one program assigning it gives it, or its old one. *)
Theorem C169_signed_joined : forall cfg n fuel progs shared e, 1 <= n ->
  (forall x, swf n (signed_at shared x) /\ sval (signed_at shared x) = e x) -> (forall c, len (shared c) = n) ->
  (forall p tmp k, In (p, tmp) progs -> len (tmp k) = n) -> sseparate (map fst progs) ->
  (forall p tmp, In (p, tmp) progs -> exists e', sspec_run n fuel p e = RVal e') ->
  exists k, forall moves w, fair_for (length progs) k (map fst moves) -> weak_execution (sstart cfg n fuel shared progs) moves w ->
    (forall mine th, In (mine, th) (fst w) -> th_act th = Ret tt) /\
    forall final, weak_final shared w final -> forall x,
      (exists p tmp e', In (p, tmp) progs /\ In x (sprog_writes p) /\ sspec_run n fuel p e = RVal e' /\ swf n (signed_at final x) /\ sval (signed_at final x) = e' x) \/
      ((forall p tmp, In (p, tmp) progs -> ~ In x (sprog_writes p)) /\ signed_at final x = signed_at shared x).
Proof.
  intros cfg n fuel progs shared e Hn R LS T S D.
  assert (K : exists k, forall p tmp, In (p, tmp) progs -> exists th, snd (solo k (shared, mk_thread (strun cfg n fuel p) tmp)) = th /\ th_act th = Ret tt).
  { clear S. induction progs as [|[p tmp] rest IH]; [exists O; intros ? ? []|].
    destruct IH as [k1 K1]; [intros; eapply T; right; eauto|intros; eapply D; right; eauto|].
    destruct (D p tmp (or_introl eq_refl)) as [e' U].
    pose proof (salone cfg n fuel p e shared tmp Hn R LS (fun k => T p tmp k (or_introl eq_refl))) as A. rewrite U in A.
    destruct A as (k2 & sh' & tmp' & A1 & _). exists (k1 + k2)%nat. intros q tq [H|H].
    - injection H as <- <-. rewrite Nat.add_comm, solo_add, A1. rewrite solo_over by exact I. eauto.
    - destruct (K1 q tq H) as (th & E1 & E2). rewrite solo_add, solo_over; [eauto|]. unfold over. now rewrite E1, E2. }
  destruct K as [k K]. exists k. intros moves w F HW.
  destruct (weak_interleave (stouched progs) (sassigned progs) shared (snd (sstart cfg n fuel shared progs)) (sassigned_touched progs)
    (fun t u x N HA => sseparate_touched progs t u x S N HA) (s_feet cfg n fuel progs shared) moves w HW) as (HL & _ & HT).
  pose proof (weak_joined (stouched progs) (sassigned progs) shared (snd (sstart cfg n fuel shared progs)) (sassigned_touched progs)
    (fun t u x N HA => sseparate_touched progs t u x S N HA) (s_feet cfg n fuel progs shared) moves w) as HJ.
  specialize (fun final => HJ final HW).
  assert (DONE : forall t p tmp, nth_error progs t = Some (p, tmp) ->
    th_act (snd (solo (turns t moves) (shared, mk_thread (strun cfg n fuel p) tmp))) = Ret tt).
  { intros t p tmp E. assert (Lt : (t < length progs)%nat) by (apply nth_error_Some; congruence). specialize (F t Lt). fold (turns t moves) in F.
    replace (turns t moves) with (k + (turns t moves - k))%nat by lia. rewrite solo_add.
    destruct (K p tmp (nth_error_In _ _ E)) as (th & E1 & E2). rewrite solo_over; [now rewrite E1|]. unfold over. now rewrite E1, E2. }
  split.
  - intros mine th H. apply In_nth_error in H. destruct H as [t H]. destruct (nth_error progs t) as [[p tmp]|] eqn:E.
    + destruct (HT t _ (s_start cfg n fuel progs shared t p tmp E)) as (H1 & _). rewrite H in H1. injection H1 as H1.
      pose proof (DONE t p tmp E) as DN. rewrite <- H1 in DN. exact DN.
    + exfalso. apply nth_error_None in E. assert (X : (length (fst w) <= t)%nat) by (rewrite HL; unfold sstart; cbn [snd]; rewrite map_length; exact E).
      apply nth_error_None in X. congruence.
  - intros final HF x. destruct (HJ final HF) as [J1 J2].
    assert (Dec : (exists t p tmp, nth_error progs t = Some (p, tmp) /\ In x (sprog_writes p)) \/ (forall p tmp, In (p, tmp) progs -> ~ In x (sprog_writes p))).
    { clear. induction progs as [|[p tmp] rest IH]; [right; intros ? ? []|].
      destruct (in_dec Nat.eq_dec x (sprog_writes p)) as [I|N]; [left; exists O, p, tmp; auto|].
      destruct IH as [(t & q & tq & H)|H]; [left; exists (Datatypes.S t), q, tq; exact H|].
      right. intros q tq [E|E]; [injection E as <- <-; exact N|eauto]. }
    destruct Dec as [(t & p & tmp & E & Ix)|N].
    + left. destruct (D p tmp (nth_error_In _ _ E)) as [e' U]. exists p, tmp, e'. split; [eapply nth_error_In, E|]. split; [exact Ix|]. split; [exact U|].
      pose proof (salone cfg n fuel p e shared tmp Hn R LS (fun k => T p tmp k (nth_error_In _ _ E))) as A. rewrite U in A.
      destruct A as (k2 & sh' & tmp' & A1 & A2).
      assert (UN : solo (turns t moves) (shared, mk_thread (strun cfg n fuel p) tmp) = solo k2 (shared, mk_thread (strun cfg n fuel p) tmp)).
      { apply solo_unique; [|rewrite A1; exact I]. unfold over. rewrite (DONE t p tmp E). exact I. }
      assert (C0 : sassigned progs t (2 * x)) by (unfold sassigned; rewrite E; exact (proj2 (cells_0 _ x) Ix)).
      assert (C1 : sassigned progs t (2 * x + 1)) by (unfold sassigned; rewrite E; exact (proj2 (cells_1 _ x) Ix)).
      replace (signed_at final x) with (signed_at sh' x); [apply A2|]. unfold signed_at.
      rewrite (J1 t _ _ (s_start cfg n fuel progs shared t p tmp E) C0), (J1 t _ _ (s_start cfg n fuel progs shared t p tmp E) C1), UN, A1. reflexivity.
    + right. split; [exact N|]. unfold signed_at. rewrite (J2 (2 * x)%nat), (J2 (2 * x + 1)%nat); [reflexivity| |]; intros t; unfold sassigned;
      destruct (nth_error progs t) as [[p tmp]|] eqn:E; auto; intros C; apply (N p tmp (nth_error_In _ _ E)); [exact (proj1 (cells_1 _ x) C)|exact (proj1 (cells_0 _ x) C)].
Qed.
Print Assumptions C169_signed_joined.

(** The condition is needed: of an object that another thread assigns, a copy may end up as any number whatever. *)
Theorem C169_racing : forall v, exists moves w mine th,
  weak_execution (start cfg0 1 1 (fun _ => [3]) [(Do (UCopy 1 0), fun _ => [0]); (Do (UCopy 0 2), fun _ => [0])]) moves w /\
  nth_error (fst w) 0 = Some (mine, th) /\ th_act th = Ret tt /\ mine 1%nat = [v].
Proof.
  intros v. exists [(0%nat, Some v); (0%nat, None); (1%nat, None); (1%nat, None)].
  exists (weak_run [(1%nat, 0%nat); (0%nat, 1%nat)] (weakly (start cfg0 1 1 (fun _ => [3]) [(Do (UCopy 1 0), fun _ => [0]); (Do (UCopy 0 2), fun _ => [0])]))
    [(0%nat, Some v); (0%nat, None); (1%nat, None); (1%nat, None)]).
  eexists. eexists. split; [|split; [|split] ].
  - unfold weak_execution. assert (E : forall a b c d, a = b -> weak_run a c d = weak_run b c d) by (intros; congruence). apply E. vm_compute. reflexivity.
  - vm_compute. reflexivity.
  - vm_compute. reflexivity.
  - vm_compute. reflexivity.
Qed.
Print Assumptions C169_racing.

(** The three threads of [PropsThr.v], each with its own picture, and nothing a move may choose makes a difference. *)
Example C169_example : forall v, let moves := map (fun t => (t, Some v)) (round_robin 40) in
  let w := weak_run [] (weakly (start cfg0 2 5 objects0 threads0)) moves in
  let w' := weak_run (snd w) (weakly (start cfg0 2 5 objects0 threads0)) moves in
  weak_execution (start cfg0 2 5 objects0 threads0) moves w' /\
  map (fun '(mine, th) => map (fun x => bval (mine x)) [2%nat; 3%nat; 4%nat]) (fst w') =
    [[4294967297; 21474836485; 21474836485]; [21474836485; 8589934590; 21474836485]; [21474836485; 21474836485; 4294967295] ].
Proof.
  intros v moves w w'. split.
  - unfold weak_execution, w', w. assert (E : forall a b c d, a = b -> weak_run a c d = weak_run b c d) by (intros; congruence). apply E. vm_compute. reflexivity.
  - vm_compute. reflexivity.
Qed.
