(** * PropsThrC: how many accesses the operations make at most, and after how many turns a thread has finished, C171.

    The numbers: [most_accesses], [most_tests], [most_prog] of [TraceSpec.v]. *)
From Verif Require Import Spec Lib AeuModel AliasModel AliasFacts ProgSpec ProgModel ProgTotal PropsProg ThrMonad ThrModel ThrSpec ThrFoot ThrSafe PropsThr PropsThr2
  ThrTrace TraceSpec ThrCount.
From Coq Require Import ZifyBool.
Open Scope Z_scope.

(** ** C171 *)
(** Alone: on every store, one operation or comparison. *)
Theorem C171_alone : forall cfg n i m, 1 <= n -> uinstr_typed i -> Z.of_nat (length (accesses (texec cfg n i) m)) <= most_accesses n i.
Proof. intros cfg n i m Hn T. eapply upto_length, k_exec; auto. destruct i; auto. Qed.
Print Assumptions C171_alone.
Theorem C171_comparing : forall cfg n c m, 1 <= n -> Z.of_nat (length (accesses (ttest cfg n c) m)) <= most_tests n c.
Proof. intros cfg n c m Hn. eapply upto_length, k_test; auto. Qed.
Print Assumptions C171_comparing.
(** A program without loops and square roots. *)
Theorem C171_programs : forall cfg n fuel p m, 1 <= n -> typed uinstr_typed ucond_typed p -> straight p ->
  Z.of_nat (length (accesses (trun cfg n fuel p) m)) <= most_prog n p.
Proof. intros cfg n fuel p m Hn T S. eapply upto_length, k_run; auto. Qed.
Print Assumptions C171_programs.

Lemma turn_by_turn t : forall s w th k, nth_error (snd w) t = Some th -> upto (fun _ => True) k (th_act th) \/ over th ->
  exists th', nth_error (snd (world_run w s)) t = Some th' /\
    (upto (fun _ => True) (k - Z.of_nat (count_occ Nat.eq_dec s t)) (th_act th') \/ over th').
Proof.
  induction s as [|u s IH]; intros w th k E H.
  { exists th. split; [exact E|]. cbn. replace (k - 0) with k by lia. exact H. }
  unfold world_run in *. cbn [fold_left count_occ]. destruct (Nat.eq_dec u t) as [->|N].
  - unfold world_step at 2. rewrite E. pose proof (upto_step k (fst w) th) as ST. destruct (thread_step (fst w) th) as [sh' th'] eqn:ES. cbn [snd] in ST.
    destruct (IH (sh', replace (snd w) t th') th' (k - 1)) as (th2 & E2 & H2).
    + exact (replace_eq _ _ _ _ E).
    + destruct H as [H|O]; [exact (ST H)|]. right. unfold over, thread_step in *. destruct (th_act th) eqn:EA; try contradiction; injection ES as <- <-; rewrite EA; exact I.
    + exists th2. split; [exact E2|]. replace (k - Z.of_nat (S (count_occ Nat.eq_dec s t))) with (k - 1 - Z.of_nat (count_occ Nat.eq_dec s t)) by lia. exact H2.
  - apply IH with (th := th); auto. unfold world_step. destruct (nth_error (snd w) u) as [thu|] eqn:EU; auto.
    destruct (thread_step (fst w) thu) as [sh' th']. cbn [snd]. rewrite replace_ne by auto. exact E.
Qed.
(** Among other threads, whatever they do to the objects it uses and however they are scheduled: once it has had that many turns,
    it has finished. *)
Theorem C171_turns : forall cfg n fuel progs shared schedule t p tmp, 1 <= n -> cfg_unsafe cfg = false ->
  (forall x, wf n (shared x)) -> (forall p tmp k, In (p, tmp) progs -> wf n (tmp k)) ->
  (forall p tmp, In (p, tmp) progs -> typed uinstr_typed ucond_typed p) ->
  nth_error progs t = Some (p, tmp) -> straight p -> (depth p <= fuel)%nat ->
  most_prog n p <= Z.of_nat (count_occ Nat.eq_dec schedule t) ->
  exists th, nth_error (snd (world_run (start cfg n fuel shared progs) schedule)) t = Some th /\ th_act th = Ret tt.
Proof.
  intros cfg n fuel progs shared s t p tmp Hn U Wf WT T E S D M.
  destruct (turn_by_turn t s (start cfg n fuel shared progs) (mk_thread (trun cfg n fuel p) tmp) (most_prog n p)) as (th & E1 & H).
  { unfold start. cbn [snd]. now rewrite nth_error_map, E. }
  { left. cbn [th_act]. apply k_run; auto. eapply T, nth_error_In, E. }
  exists th. split; [exact E1|].
  destruct (world_inv_at (fun sh => forall x, wf n (sh x)) (fun u th => (forall k, wf n (th_tmp th k)) /\ safe (u <> t) n (fun _ => True) (th_act th)))
    with (s := s) (w := start cfg n fuel shared progs) as [_ B].
  - intros u sh thu HS [HT HA]. destruct (safe_step (u <> t) n sh thu HS HT HA) as (? & ? & ?). auto.
  - exact Wf.
  - intros u thu. unfold start. cbn [snd]. rewrite nth_error_map. destruct (nth_error progs u) as [[q tq]|] eqn:EQ; [|discriminate].
    cbn. intros [= <-]. cbn [th_act th_tmp]. split; [intros j; eapply WT, nth_error_In, EQ|].
    apply s_run; auto; [eapply T, nth_error_In, EQ|]. destruct (Nat.eq_dec u t) as [->|]; [right|left; auto].
    rewrite E in EQ. injection EQ as <- <-. auto.
  - destruct (B t th E1) as [_ SF]. destruct (th_act th) as [[]|e|x i k|x i v k] eqn:EA.
    + reflexivity.
    + destruct SF as [SF _]. now destruct SF.
    + exfalso. destruct H as [H|O]; [cbn [upto] in H; destruct H; lia|]. unfold over in O. now rewrite EA in O.
    + exfalso. destruct H as [H|O]; [cbn [upto] in H; destruct H; lia|]. unfold over in O. now rewrite EA in O.
Qed.
Print Assumptions C171_turns.

(** Some of these numbers are reached: copying, adding, comparing equal numbers. *)
Example C171_example : let m : mem := fun _ => [1; 2; 3; 4] in
  Z.of_nat (length (accesses (texec cfg0 4 (UCopy 0 1)) m)) = most_accesses 4 (UCopy 0 1) /\
  Z.of_nat (length (accesses (texec cfg0 4 (UOp OAdd 0 1)) m)) = most_accesses 4 (UOp OAdd 0 1) /\
  Z.of_nat (length (accesses (texec cfg0 4 (UOp OMul 0 1)) m)) = 20 /\ most_accesses 4 (UOp OMul 0 1) = 32 /\
  Z.of_nat (length (accesses (ttest cfg0 4 (CEq 0 1)) m)) = most_tests 4 (CEq 0 1).
Proof. cbv zeta. split; [vm_compute; reflexivity|]. split; [vm_compute; reflexivity|]. split; [vm_compute; reflexivity|]. split; vm_compute; reflexivity. Qed.
