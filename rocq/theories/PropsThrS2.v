(** * PropsThrS2: signed objects that several threads use at once while some assign them, C167 and C168.

    Programs: [ProgSpec.v]; what the programs contain: [SThrSpec.v]; the calls, one access to a sign or a block at a time:
    [SThrModel.v]; the scheduler: [ThrModel.v]. *)
From Verif Require Import Spec Lib AeuModel AesiModel AliasModel AliasFacts ProgSpec ProgModel ProgFacts ProgSigned ProgTotal IniProgSpec PropsProg
  ThrMonad ThrModel ThrSpec ThrFacts ThrStore ThrExec ThrFoot ThrSafe PropsThr PropsThr2 SThrModel SThrSpec SThrFacts SThrExec SThrFoot SThrSafe SThrSign PropsThrS.
From Coq Require Import ZifyBool.
Open Scope Z_scope.

Lemma decode_coded v : coded v -> exists s, v = code s /\ decode v = s.
Proof. intros [s ->]. exists s. split; auto. apply decode_code. Qed.
(** ** C167 *)
(** Any programs side by side, also ones that assign objects others are using, under any schedule: no thread ever accesses a
    block that does not exist or trips an assertion, every magnitude always consists of [n] blocks below 2^32, and every sign
    stored is always one of the three. *)
Theorem C167_in_bounds : forall cfg n fuel progs shared schedule, 1 <= n -> cfg_unsafe cfg = false ->
  (forall c, wf n (shared c)) -> (forall x, exists s, znth (shared (2 * x + 1)%nat) 0 = code s) ->
  (forall p tmp k, In (p, tmp) progs -> wf n (tmp k)) ->
  (forall p tmp, In (p, tmp) progs -> typed sinstr_typed (fun _ => True) p) ->
  let w := world_run (sstart cfg n fuel shared progs) schedule in
  (forall x, wf n (mag (signed_at (fst w) x)) /\ exists s, znth (fst w (2 * x + 1)%nat) 0 = code s) /\
  forall th f, In th (snd w) -> th_act th = Stop f -> f = OutOfFuel.
Proof.
  intros cfg n fuel progs shared s Hn U Wf WS WT T w.
  destruct (world_inv (fun sh => (forall c, wf n (sh c)) /\ forall x, coded (znth (sh (2 * x + 1)%nat) 0))
      (fun th => (forall k, wf n (th_tmp th k)) /\ safe True n (fun _ => True) (th_act th) /\ signs (th_act th)))
    with (s := s) (w := sstart cfg n fuel shared progs) as [A B].
  - intros sh th [HS HC] (HT & HA & HG). destruct (safe_step True n sh th HS HT HA) as (? & ? & ?). destruct (signs_step sh th HC HG). auto.
  - split; [exact Wf|exact WS].
  - intros th. unfold sstart. cbn [snd]. rewrite in_map_iff. intros ([p tmp] & <- & H). cbn [th_act th_tmp]. split; [intros k; eapply WT, H|].
    split; [|apply n_srun]. apply s_srun; auto. eapply T, H.
  - fold w in A, B. destruct A as [A1 A2]. split; [intros x; split; [apply A1|apply A2]|]. intros th f I E.
    destruct (B th I) as (_ & S & _). rewrite E in S. apply S.
Qed.
Print Assumptions C167_in_bounds.

(** No thread waits for another one. *)
Lemma any_ends (w0 : world) sigma t : (t < length (snd w0))%nat -> (forall m, exists k, (m <= k)%nat /\ sigma k = t) ->
  exists k th, nth_error (snd (world_run w0 (prefix sigma k))) t = Some th /\ (th_act th = Ret tt \/ exists f, th_act th = Stop f).
Proof.
  intros Ht F.
  assert (G : forall (c : act unit) m tmp, nth_error (snd (world_run w0 (prefix sigma m))) t = Some (mk_thread c tmp) ->
    exists k th, nth_error (snd (world_run w0 (prefix sigma k))) t = Some th /\ (th_act th = Ret tt \/ exists f, th_act th = Stop f)).
  { set (W := fun m => world_run w0 (prefix sigma m)).
    assert (WS : forall m, W (S m) = world_step (W m) (sigma m)).
    { intros m. unfold W, prefix. rewrite seq_S, map_app. unfold world_run. rewrite fold_left_app. reflexivity. }
    assert (NEXT : forall m th, nth_error (snd (W m)) t = Some th -> exists j, nth_error (snd (W j)) t = Some th /\ sigma j = t).
    { intros m th E. destruct (F m) as (k & L & K). revert m th E L.
      assert (forall d m th, nth_error (snd (W m)) t = Some th -> (m + d = k)%nat -> exists j, nth_error (snd (W j)) t = Some th /\ sigma j = t) as X.
      { induction d as [|d IH]; intros m th E L; [exists m; split; auto; replace m with k by lia; exact K|].
        destruct (Nat.eq_dec (sigma m) t) as [|N]; [eauto|]. apply (IH (S m)); [|lia]. rewrite WS. unfold world_step.
        destruct (nth_error (snd (W m)) (sigma m)); auto. destruct (thread_step (fst (W m)) t0). cbn [snd]. now rewrite replace_ne by auto. }
      intros m th E L. apply (X (k - m)%nat m); auto. lia. }
    assert (STEP : forall m th, nth_error (snd (W m)) t = Some th -> exists j sh, nth_error (snd (W j)) t = Some (snd (thread_step sh th))).
    { intros m th E. destruct (NEXT m th E) as (j & Ej & Sj). exists (S j), (fst (W j)). rewrite WS. unfold world_step. rewrite Sj, Ej.
      destruct (thread_step (fst (W j)) th) as [sh' th'] eqn:ES. cbn [snd]. exact (replace_eq _ _ _ _ Ej). }
    induction c as [[]|e|x i k IH|x i v k IH]; intros m tmp E.
    - exists m. eexists. split; [exact E|]. left. reflexivity.
    - exists m. eexists. split; [exact E|]. right. exists e. reflexivity.
    - destruct (STEP m _ E) as (j & sh & Ej). unfold thread_step in Ej. cbn [th_act th_tmp] in Ej. destruct (mget (seen sh tmp) x i) as [v|e]; cbn [snd] in Ej.
      + exact (IH v j tmp Ej).
      + exists j. eexists. split; [exact Ej|]. right. exists e. reflexivity.
    - destruct (STEP m _ E) as (j & sh & Ej). unfold thread_step in Ej. cbn [th_act th_tmp] in Ej. destruct (aset (seen sh tmp x) i v) as [b|e]; [destruct x|]; cbn [snd] in Ej.
      + exact (IH j tmp Ej).
      + exact (IH j _ Ej).
      + exists j. eexists. split; [exact Ej|]. right. exists e. reflexivity. }
  destruct (nth_error (snd w0) t) as [[c tmp]|] eqn:E; [|apply nth_error_None in E; lia].
  apply (G c O tmp). cbn. exact E.
Qed.
(** On every infinite schedule that keeps giving thread [t] its turn, it comes to the end of its loop-free program, whatever
    the others do to the objects it works on. *)
Theorem C167_finishes : forall cfg n fuel progs shared sigma t p tmp, 1 <= n -> cfg_unsafe cfg = false ->
  (forall c, wf n (shared c)) -> (forall p tmp k, In (p, tmp) progs -> wf n (tmp k)) ->
  (forall p tmp, In (p, tmp) progs -> typed sinstr_typed (fun _ => True) p) ->
  nth_error progs t = Some (p, tmp) -> sstraight p -> (sdepth p <= fuel)%nat ->
  (forall m, exists k, (m <= k)%nat /\ sigma k = t) ->
  exists k th, nth_error (snd (world_run (sstart cfg n fuel shared progs) (prefix sigma k))) t = Some th /\ th_act th = Ret tt.
Proof.
  intros cfg n fuel progs shared sigma t p tmp Hn U Wf WT T E S D F.
  destruct (any_ends (sstart cfg n fuel shared progs) sigma t) as (k & th & Ek & [R|[f R] ]); auto; [|eauto|].
  { unfold sstart. cbn [snd]. rewrite map_length. apply nth_error_Some. congruence. }
  exfalso.
  destruct (world_inv_at (fun sh => forall x, wf n (sh x)) (fun u th => (forall k, wf n (th_tmp th k)) /\ safe (u <> t) n (fun _ => True) (th_act th)))
    with (s := prefix sigma k) (w := sstart cfg n fuel shared progs) as [_ B].
  - intros u sh thu HS [HT HA]. destruct (safe_step (u <> t) n sh thu HS HT HA) as (? & ? & ?). auto.
  - exact Wf.
  - intros u thu. unfold sstart. cbn [snd]. rewrite nth_error_map. destruct (nth_error progs u) as [[q tq]|] eqn:EQ; [|discriminate].
    cbn. intros [= <-]. cbn [th_act th_tmp]. split; [intros j; eapply WT, nth_error_In, EQ|].
    apply s_srun; auto; [eapply T, nth_error_In, EQ|]. destruct (Nat.eq_dec u t) as [->|]; [right|left; auto].
    rewrite E in EQ. injection EQ as <- <-. auto.
  - destruct (B t th Ek) as [_ H]. rewrite R in H. destruct H as [H _]. now apply H.
Qed.
Print Assumptions C167_finishes.

(** ** C168 *)
(** Where the value of block [i] of cell [c] may come from. *)
Definition scomes (progs : list (stmt sinstr scond * (nat -> list Z))) (shared : nat -> list Z) (c : nat) (i v : Z) : Prop :=
  exists x, sflows (map fst progs) x (Nat.div2 c) /\
    if Nat.odd c then i = 0 -> decode v = decode (znth (shared (2 * x + 1)%nat) 0) else v = znth (shared (2 * x)%nat) i.
Lemma odd_0 x : Nat.odd (2 * x) = false.
Proof. rewrite Nat.odd_mul. reflexivity. Qed.
Lemma odd_1 x : Nat.odd (2 * x + 1) = true.
Proof. rewrite Nat.add_1_r, Nat.odd_succ, Nat.even_mul. reflexivity. Qed.
Lemma half_0 x : Nat.div2 (2 * x) = x.
Proof. apply Nat.div2_double. Qed.
Lemma half_1 x : Nat.div2 (2 * x + 1) = x.
Proof. rewrite Nat.add_1_r. apply Nat.div2_succ_double. Qed.
Lemma scomes_0 progs shared x i v : scomes progs shared (2 * x) i v <-> exists z, sflows (map fst progs) z x /\ v = znth (shared (2 * z)%nat) i.
Proof. unfold scomes. rewrite odd_0, half_0. tauto. Qed.
Lemma scomes_1 progs shared x i v : scomes progs shared (2 * x + 1) i v <->
  exists z, sflows (map fst progs) z x /\ (i = 0 -> decode v = decode (znth (shared (2 * z + 1)%nat) 0)).
Proof. unfold scomes. rewrite odd_1, half_1. tauto. Qed.
Lemma slooks_compare cfg n a b : looks (v_scompareTo cfg n (Var a) (Var b)).
Proof.
  assert (V : forall x (A : Type) (f : sign_t -> act A), (forall s, looks (f s)) -> looks (abind (v_sign (Var x)) f)).
  { intros x A f H. unfold v_sign. cbn. intros v. apply H. }
  assert (C : looks (v_compareTo cfg n (base_ (Var a)) (base_ (Var b)))) by apply looks_compare.
  unfold v_scompareTo. apply V. intros s1. destruct (sign_eqb s1 SZero); [apply V; intros; exact I|].
  apply V. intros s2. destruct (sign_eqb s2 SNeg); apply V; intros s3.
  - destruct (sign_eqb s3 SNeg); [|exact I]. apply looks_bind; [exact C|intros; exact I].
  - destruct (sign_eqb s3 SPos); [exact C|exact I].
Qed.
Lemma slooks_test cfg n c : looks (sttest cfg n c).
Proof.
  assert (V : forall x (A : Type) (f : sign_t -> act A), (forall s, looks (f s)) -> looks (abind (v_sign (Var x)) f)).
  { intros x A f H. unfold v_sign. cbn. intros v. apply H. }
  assert (Q : forall a b (A : Type) (f : comparison_t -> act A), (forall c, looks (f c)) -> looks (abind (v_scompareTo cfg n (Var a) (Var b)) f)).
  { intros a b A f H. apply looks_bind; [apply slooks_compare|exact H]. }
  destruct c; cbn [sttest]; unfold v_seq, v_srel; try (apply Q; intros; exact I); try (apply V; intros; exact I).
  apply looks_bind; [apply Q; intros; exact I|intros; exact I].
Qed.
Lemma scarries_run progs shared cfg n : forall fuel p, sonly_copies p -> (forall s d, scopies_in p s d -> exists q, In q (map fst progs) /\ scopies_in q s d) ->
  carries (scomes progs shared) (strun cfg n fuel p).
Proof.
  induction fuel as [|f IH]; intros p C H; cbn [strun]; [exact I|]. destruct p as [|i|s t|c s t|c s]; cbn [sonly_copies scopies_in] in *.
  - exact I.
  - destruct i as [d s| | | | | | | | | | | | |]; try contradiction. destruct (H s d (conj eq_refl eq_refl)) as (q & Q1 & Q2).
    cbn [stexec]. unfold t_scopy, v_sign, t_sign. cbn [at_ abind aput carries sign_at]. intros v V. split.
    + apply scomes_1. apply scomes_1 in V. destruct V as (z & V1 & V2). exists z. split; [econstructor; eauto|]. intros _. rewrite decode_code. auto.
    + unfold t_assign. apply carries_forU. intros j u. cbn [at_ abind aput carries base_ mag_at]. unfold base_. cbn [at_ abind aput carries mag_at]. intros b B.
      split; [|exact I]. apply scomes_0. apply scomes_0 in B. destruct B as (z & B1 & B2). exists z. split; [econstructor; eauto|exact B2].
  - destruct C. apply carries_bind; [|intros _]; apply IH; auto; intros; apply H; tauto.
  - destruct C. apply carries_bind; [apply looks_carries, slooks_test|]. intros []; apply IH; auto; intros; apply H; tauto.
  - apply carries_bind; [apply looks_carries, slooks_test|]. intros []; [|exact I]. apply carries_bind; [apply IH; auto|]. intros _. apply IH; auto.
Qed.
(** Threads whose programs only copy signed objects, any number of them assigning and reading the same objects at once: at
    every moment the sign of every object is the sign some object had at the start, and every block of its magnitude the same
    block of some object at the start, each one from which there is a chain of copies. *)
Theorem C168_parts_partial : forall cfg n fuel progs shared schedule, (forall p tmp, In (p, tmp) progs -> sonly_copies p) ->
  let w := world_run (sstart cfg n fuel shared progs) schedule in
  forall y, (exists x, sflows (map fst progs) x y /\ sgn (signed_at (fst w) y) = sgn (signed_at shared x)) /\
    len (mag (signed_at (fst w) y)) = len (mag (signed_at shared y)) /\
    forall i, 0 <= i < len (mag (signed_at shared y)) ->
      exists x, sflows (map fst progs) x y /\ znth (mag (signed_at (fst w) y)) i = znth (mag (signed_at shared x)) i.
Proof.
  intros cfg n fuel progs shared s C w y.
  destruct (world_inv (settled (scomes progs shared) shared) (fun th => carries (scomes progs shared) (th_act th)))
    with (s := s) (w := sstart cfg n fuel shared progs) as [A _].
  - intros sh th. apply carries_step.
  - intros c. split; [reflexivity|]. intros i. unfold sstart. cbn [fst]. exists (Nat.div2 c). split; [constructor|].
    destruct (Nat.odd c) eqn:O.
    + intros ->. do 2 f_equal. f_equal. pose proof (Nat.div2_odd c) as D. rewrite O in D. cbn [Nat.b2n] in D. exact D.
    + f_equal. f_equal. pose proof (Nat.div2_odd c) as D. rewrite O in D. cbn [Nat.b2n] in D. lia.
  - intros th. unfold sstart. cbn [snd]. rewrite in_map_iff. intros ([p tmp] & <- & H). cbn [th_act]. apply scarries_run; [eapply C, H|].
    intros a b K. exists p. split; [|exact K]. change p with (fst (p, tmp)). now apply in_map.
  - fold w in A. unfold signed_at. cbn [sgn mag]. split; [|split].
    + destruct (A (2 * y + 1)%nat) as [_ A1]. specialize (A1 0). apply scomes_1 in A1. destruct A1 as (x & F & D). exists x. split; auto.
    + apply A.
    + intros i Hi. destruct (A (2 * y)%nat) as [_ A0]. specialize (A0 i). apply scomes_0 in A0. exact A0.
Qed.
Print Assumptions C168_parts_partial.

(** Sign and magnitude need not come from the same object, not even when the magnitude is a single block: one thread assigns
    -7 to an object that holds 5, another one copies it, and the copy is -5. *)
Definition storn0 : list (stmt sinstr scond * (nat -> list Z)) :=
  [(Do (SCopy 0 1), fun _ => [0]); (Do (SCopy 2 0), fun _ => [0])].
Definition storn_cells : nat -> list Z := fun c => match c with O => [5] | 2%nat => [7] | 3%nat => [4294967295] | _ => [1] end.
Lemma storn_typed p tmp : In (p, tmp) storn0 -> sonly_copies p.
Proof. intros [K|[K|[] ] ]; injection K as <- <-; exact I. Qed.
Theorem C168_torn_refuted : ~ (forall cfg fuel progs shared schedule t x y tmp,
  (forall z, swf 1 (signed_at shared z)) -> (forall p tmp, In (p, tmp) progs -> sonly_copies p) ->
  nth_error progs t = Some (Do (SCopy y x), tmp) ->
  (forall u p tmp, u <> t -> nth_error progs u = Some (p, tmp) -> ~ In y (sprog_writes p)) ->
  let w := world_run (sstart cfg 1 fuel shared progs) schedule in
  forall th, nth_error (snd w) t = Some th -> th_act th = Ret tt ->
  exists z, sflows (map fst progs) z x /\ sval (signed_at (fst w) y) = sval (signed_at shared z)).
Proof.
  intros H.
  destruct (H cfg0 1%nat storn0 storn_cells [0; 0; 1; 1; 1; 1]%nat 1%nat 0%nat 2%nat (fun _ => [0])) with (th := mk_thread (Ret tt) (fun _ : nat => [0]))
    as (z & _ & E).
  - intros [|[|z] ].
    + split; [wfc|vm_compute; discriminate].
    + split; [wfc|vm_compute; discriminate].
    + replace (signed_at storn_cells (S (S z))) with (mk_aesi SPos [1]); [split; [wfc|vm_compute; discriminate]|].
      unfold signed_at. replace (2 * S (S z) + 1)%nat with (S (S (S (S (S (2 * z)))))) by lia. replace (2 * S (S z))%nat with (S (S (S (S (2 * z))))) by lia. reflexivity.
  - exact storn_typed.
  - reflexivity.
  - intros [|[|[|u] ] ] p tmp N K; cbn in K; try discriminate; injection K as <- <-; cbn; lia.
  - vm_compute. reflexivity.
  - reflexivity.
  - revert E. replace (sval (signed_at (fst (world_run (sstart cfg0 1 1 storn_cells storn0) [0; 0; 1; 1; 1; 1]%nat)) 2)) with (-5) by (vm_compute; reflexivity).
    destruct z as [|[|z] ]; [vm_compute; discriminate|vm_compute; discriminate|].
    replace (signed_at storn_cells (S (S z))) with (mk_aesi SPos [1]); [vm_compute; discriminate|].
    unfold signed_at. replace (2 * S (S z) + 1)%nat with (S (S (S (S (S (2 * z)))))) by lia. replace (2 * S (S z))%nat with (S (S (S (S (2 * z))))) by lia. reflexivity.
Qed.
Print Assumptions C168_torn_refuted.
(** The copy may even be an object no single thread could make, a zero with the sign Negative: valid objects do not stay valid. *)
Definition szero_cells : nat -> list Z := fun c => match c with O => [0] | 1%nat => [0] | 2%nat => [7] | 3%nat => [4294967295] | _ => [1] end.
Theorem C168_valid_refuted : ~ (forall cfg fuel progs shared schedule,
  (forall z, swf 1 (signed_at shared z)) -> (forall p tmp, In (p, tmp) progs -> sonly_copies p) ->
  let w := world_run (sstart cfg 1 fuel shared progs) schedule in
  (forall th, In th (snd w) -> th_act th = Ret tt) -> forall y, swf 1 (signed_at (fst w) y)).
Proof.
  intros H.
  assert (X : map th_act (snd (world_run (sstart cfg0 1 1 szero_cells storn0) [0; 0; 1; 1; 1; 1; 0; 0]%nat)) = [Ret tt; Ret tt]) by (vm_compute; reflexivity).
  assert (E : signed_at (fst (world_run (sstart cfg0 1 1 szero_cells storn0) [0; 0; 1; 1; 1; 1; 0; 0]%nat)) 2 = mk_aesi SNeg [0]) by (vm_compute; reflexivity).
  destruct (H cfg0 1%nat storn0 szero_cells [0; 0; 1; 1; 1; 1; 0; 0]%nat) with (y := 2%nat) as [_ B].
  - intros [|[|z] ].
    + split; [wfc|vm_compute; congruence].
    + split; [wfc|vm_compute; discriminate].
    + replace (signed_at szero_cells (S (S z))) with (mk_aesi SPos [1]); [split; [wfc|vm_compute; discriminate]|].
      unfold signed_at. replace (2 * S (S z) + 1)%nat with (S (S (S (S (S (2 * z)))))) by lia. replace (2 * S (S z))%nat with (S (S (S (S (2 * z))))) by lia. reflexivity.
  - exact storn_typed.
  - intros th K. apply (in_map th_act) in K. rewrite X in K. destruct K as [K|[K|[] ] ]; symmetry; exact K.
  - rewrite E in B. cbn [sgn mag] in B. apply B; [discriminate|vm_compute; reflexivity].
Qed.
Print Assumptions C168_valid_refuted.
(** What [C168_parts_partial] says of that run: sign of object 1, magnitude of object 0. *)
Example C168_example :
  let w := world_run (sstart cfg0 1 1 storn_cells storn0) [0; 0; 1; 1; 1; 1]%nat in
  signed_at (fst w) 2 = mk_aesi (sgn (signed_at storn_cells 1)) (mag (signed_at storn_cells 0)) /\
  sflows (map fst storn0) 1 2 /\ sflows (map fst storn0) 0 2.
Proof.
  assert (F02 : forall z, sflows (map fst storn0) z 0 -> sflows (map fst storn0) z 2).
  { intros z H. apply sflows_on with (Do (SCopy 2 0)) 0%nat; [exact H|right; left; reflexivity|split; reflexivity]. }
  split; [vm_compute; reflexivity|]. split; apply F02; [|constructor].
  apply sflows_on with (Do (SCopy 0 1)) 1%nat; [constructor|left; reflexivity|split; reflexivity].
Qed.
(** A race for C167: one thread computes 9 / -2 while another one assigns 0 to the divisor, after its sign has been read but
    before its magnitude is.  The quotient is none of anything, but every access is inside the arrays. *)
Definition srace0 : list (stmt sinstr scond * (nat -> list Z)) :=
  [(Do (SBin SODiv 2 0 1), fun _ => [0]); (Do (SCopy 1 3), fun _ => [0])].
Definition srace_cells : nat -> list Z := fun c => match c with O => [9] | 2%nat => [2] | 3%nat => [4294967295] | 6%nat => [0] | 7%nat => [0] | _ => [1] end.
Example C167_example :
  (forall c, wf 1 (srace_cells c)) /\ (forall x, exists s, znth (srace_cells (2 * x + 1)%nat) 0 = code s) /\
  (forall p tmp, In (p, tmp) srace0 -> typed sinstr_typed (fun _ => True) p) /\ ~ sseparate (map fst srace0) /\
  (let w := world_run (sstart cfg0 1 3 srace_cells srace0) (repeat 0%nat 7 ++ repeat 1%nat 4 ++ repeat 0%nat 1000) in sval (signed_at (fst w) 2) = - (2 ^ 32 - 1)) /\
  (let w := world_run (sstart cfg0 1 3 srace_cells srace0) (repeat 0%nat 1000) in sval (signed_at (fst w) 2) = -4).
Proof.
  split; [intros [|[|[|[|[|[|[|[|c] ] ] ] ] ] ] ]; wfc|].
  split. { intros [|[|[|[|x] ] ] ]; try (exists SPos; vm_compute; reflexivity).
    - exists SNeg. vm_compute. reflexivity.
    - exists SZero. vm_compute. reflexivity.
    - exists SPos. replace (2 * S (S (S (S x))) + 1)%nat with (S (S (S (S (S (S (S (S (S (2 * x)))))))))) by lia. reflexivity. }
  split; [intros p tmp [K|[K|[] ] ]; injection K as <- <-; exact I|].
  split. { intros S. destruct (S 1%nat 0%nat (Do (SCopy 1 3)) (Do (SBin SODiv 2 0 1)) 1%nat) as [A _]; try reflexivity; [lia|cbn; auto|]. apply A. cbn. auto. }
  split; vm_compute; reflexivity.
Qed.
