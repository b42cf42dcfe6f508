(** * AtomicFacts: an abstract machine of threads writing cells in order, and the two models as instances. *)
From Verif Require Import Spec Lib AesiModel AtomicSpec AtomicModel.
Open Scope Z_scope.

Lemma steps_app t a b : steps_of t (a ++ b) = steps_of t a + steps_of t b.
Proof. induction a; cbn; lia. Qed.
Lemma steps_nonneg t s : 0 <= steps_of t s.
Proof. induction s as [|x s IH]; cbn; [lia|]. destruct (Nat.eqb x t); lia. Qed.

Lemma takes_app_old s x i t pos : (pos < length s)%nat -> takes_step (s ++ [x]) i t pos <-> takes_step s i t pos.
Proof.
  intros H. unfold takes_step. rewrite nth_error_app1 by auto. rewrite firstn_app.
  replace (pos - length s)%nat with 0%nat by lia. cbn [firstn]. rewrite app_nil_r. tauto.
Qed.
Lemma takes_app_new s x i t : takes_step (s ++ [x]) i t (length s) <-> t = x /\ steps_of x s = i.
Proof.
  unfold takes_step. rewrite nth_error_app2, Nat.sub_diag by lia. cbn. rewrite firstn_app, firstn_all, Nat.sub_diag. cbn. rewrite app_nil_r.
  split; [intros [ [= ->] E]; auto|intros [-> E]; auto].
Qed.
Lemma takes_lt s i t pos : takes_step s i t pos -> (pos < length s)%nat.
Proof. intros [H _]. apply nth_error_Some. congruence. Qed.

(** Cell [i] after schedule [s]: untouched if no thread got to step [i], else written by the last that did. *)
Definition cell_ok {V} (k : nat) (src : nat -> Z -> V) (init : Z -> V) (s : list nat) (i : Z) (v : V) : Prop :=
  ((forall t pos, (t < k)%nat -> ~ takes_step s i t pos) /\ v = init i) \/ (exists t, last_to_step k s i t /\ v = src t i).

Lemma cell_ok_same {V} k (src : nat -> Z -> V) init s x i v :
  ((k <= x)%nat \/ steps_of x s <> i) -> cell_ok k src init s i v -> cell_ok k src init (s ++ [x]) i v.
Proof.
  intros HX H.
  assert (K : forall t pos, (t < k)%nat -> takes_step (s ++ [x]) i t pos -> takes_step s i t pos).
  { intros t pos Ht HT. pose proof (takes_lt _ _ _ _ HT) as L. rewrite app_length in L. cbn in L.
    destruct (Nat.eq_dec pos (length s)) as [->|]; [apply takes_app_new in HT; destruct HT as [-> ?]; lia|].
    apply takes_app_old in HT; auto. lia. }
  destruct H as [[N E]|(t & (Ht & pos & HT & HM) & E)].
  - left. split; auto. intros t pos Ht HT. apply (N t pos Ht). auto.
  - right. exists t. split; auto. split; auto. exists pos. split.
    + apply takes_app_old; auto. eapply takes_lt; eauto.
    + intros t' pos' Ht' HT'. apply (HM t' pos' Ht'). auto.
Qed.
Lemma cell_ok_write {V} k (src : nat -> Z -> V) init s x i :
  (x < k)%nat -> steps_of x s = i -> cell_ok k src init (s ++ [x]) i (src x i).
Proof.
  intros Hx E. right. exists x. split; auto. split; auto. exists (length s). split.
  - apply takes_app_new; auto.
  - intros t' pos' _ HT'. apply takes_lt in HT'. rewrite app_length in HT'. cbn in HT'. lia.
Qed.
Lemma cell_ok_nil {V} k (src : nat -> Z -> V) init i : cell_ok k src init [] i (init i).
Proof. left. split; auto. intros t pos _ [H _]. destruct pos; discriminate. Qed.

Lemma run_snoc {S} (step : S -> nat -> outcome S) s x st :
  run_schedule step (s ++ [x]) st = (st' <- run_schedule step s st ;; step st' x).
Proof.
  revert st. induction s as [|y s IH]; intros st; cbn.
  - destruct (step st x); reflexivity.
  - destruct (step st y) as [st'|]; cbn; auto.
Qed.

(** If every step preserves a schedule-indexed invariant then so does the run. *)
Lemma run_inv {S} (step : S -> nat -> outcome S) (Inv : list nat -> S -> Prop) st :
  Inv [] st -> (forall s x st, Inv s st -> exists st', step st x = Ok st' /\ Inv (s ++ [x]) st') ->
  forall s, exists st', run_schedule step s st = Ok st' /\ Inv s st'.
Proof.
  intros H0 HS s. induction s as [|x s IH] using rev_ind; [cbn; eauto|].
  destruct IH as (st' & E & I). rewrite run_snoc, E. cbn [bind]. apply HS; auto.
Qed.

Lemma set_nth_length {A} (l : list A) k x : (k < length l)%nat -> length (set_nth l k x) = length l.
Proof. intros H. unfold set_nth. rewrite app_length, firstn_length. cbn [length]. rewrite skipn_length. lia. Qed.
Lemma set_nth_eq {A} (l : list A) k x : (k < length l)%nat -> nth_error (set_nth l k x) k = Some x.
Proof. intros H. unfold set_nth. rewrite nth_error_app2; rewrite firstn_length; [|lia]. replace (k - Nat.min k (length l))%nat with 0%nat by lia. reflexivity. Qed.
Lemma set_nth_ne {A} (l : list A) k x j : (k < length l)%nat -> j <> k -> nth_error (set_nth l k x) j = nth_error l j.
Proof.
  intros H N. revert k j H N. induction l as [|y l IH]; intros k j H N; [cbn in H; lia|].
  destruct k as [|k], j as [|j]; try lia; cbn in *; auto. apply IH; lia.
Qed.

(** ** Aeu *)
Definition aeu_src (values : list (list Z)) (t : nat) (i : Z) : Z := znth (nth t values []) i.
Definition aeu_inv (n : Z) (target : list Z) (values : list (list Z)) (s : list nat) (st : list Z * list athread) : Prop :=
  wf n (fst st) /\ length (snd st) = length values /\
  (forall t th, nth_error (snd st) t = Some th -> nth_error values t = Some (at_val th) /\ at_pc th = Z.min (steps_of t s) n) /\
  forall i, 0 <= i < n -> cell_ok (length values) (aeu_src values) (znth target) s i (znth (fst st) i).

Lemma aeu_inv_step n target values s x st : 0 <= n -> Forall (wf n) values -> aeu_inv n target values s st ->
  exists st', aeu_step n st x = Ok st' /\ aeu_inv n target values (s ++ [x]) st'.
Proof.
  intros Hn HV (W & L & P & C). destruct st as [tg ths]. cbn [fst snd] in *. unfold aeu_step.
  pose proof (steps_nonneg x s) as SN.
  destruct (nth_error ths x) as [th|] eqn:E.
  - assert (Hx : (x < length ths)%nat) by (apply nth_error_Some; congruence).
    destruct (P x th E) as [EV PC]. assert (Wv : wf n (at_val th)).
    { eapply Forall_forall; [exact HV|]. eapply nth_error_In; eauto. }
    pose proof (wf_len _ _ W) as LT. pose proof (wf_len _ _ Wv) as LV.
    assert (ST : steps_of x (s ++ [x]) = steps_of x s + 1) by (rewrite steps_app; cbn; rewrite Nat.eqb_refl; lia).
    assert (SO : forall t, t <> x -> steps_of t (s ++ [x]) = steps_of t s).
    { intros t Ht. rewrite steps_app. cbn. destruct (Nat.eqb_spec x t); [congruence|lia]. }
    destruct (Z.ltb_spec (at_pc th) n) as [Hlt|Hge].
    + assert (PCE : at_pc th = steps_of x s) by lia.
      rewrite aget_ok by lia. cbn [bind]. rewrite aset_ok by lia. cbn [bind]. eexists. split; [reflexivity|].
      split; [|split; [|split] ]; cbn [fst snd].
      * apply wf_upd; auto. pose proof (wf_znth n (at_val th) (at_pc th) Wv). lia.
      * now rewrite set_nth_length.
      * intros t th' Et. destruct (Nat.eq_dec t x) as [->|N].
        -- rewrite set_nth_eq in Et by auto. injection Et as <-. cbn. split; auto. lia.
        -- rewrite set_nth_ne in Et by auto. destruct (P t th' Et) as [? ?]. split; auto. rewrite SO by auto. auto.
      * intros i Hi. destruct (Z.eq_dec i (at_pc th)) as [->|N].
        -- rewrite znth_upd_eq by lia. replace (znth (at_val th) (at_pc th)) with (aeu_src values x (at_pc th)).
           ++ apply cell_ok_write; [lia|auto].
           ++ unfold aeu_src. erewrite nth_error_nth by exact EV. reflexivity.
        -- rewrite znth_upd_ne by lia. apply cell_ok_same; auto. right. lia.
    + eexists. split; [reflexivity|]. split; [|split; [|split] ]; cbn [fst snd]; auto.
      * intros t th' Et. destruct (P t th' Et) as [? EP]. split; auto. destruct (Nat.eq_dec t x) as [->|N]; [|rewrite SO by auto; auto].
        rewrite E in Et. injection Et as <-. lia.
      * intros i Hi. apply cell_ok_same; auto. right. lia.
  - assert (Hx : (length ths <= x)%nat) by (apply nth_error_None; auto).
    eexists. split; [reflexivity|]. split; [|split; [|split] ]; cbn [fst snd]; auto.
    + intros t th' Et. destruct (P t th' Et) as [? EP]. split; auto. rewrite steps_app. cbn.
      assert (t < length ths)%nat by (apply nth_error_Some; congruence). destruct (Nat.eqb_spec x t); [lia|]. rewrite Z.add_0_r. auto.
    + intros i Hi. apply cell_ok_same; auto. left. lia.
Qed.

Lemma aeu_run n target values s : 0 <= n -> wf n target -> Forall (wf n) values ->
  exists r, aeu_try_atomic_set n target values s = Ok r /\ wf n r /\
    forall i, 0 <= i < n -> cell_ok (length values) (aeu_src values) (znth target) s i (znth r i).
Proof.
  intros Hn W HV. unfold aeu_try_atomic_set.
  destruct (run_inv (aeu_step n) (aeu_inv n target values) (target, map (fun v => mk_athread v 0) values)) with (s := s) as ([r ths] & E & I).
  - split; [|split; [|split] ]; cbn [fst snd]; auto.
    + now rewrite map_length.
    + intros t th Et. rewrite nth_error_map in Et. destruct (nth_error values t) eqn:Ev; [|discriminate]. injection Et as <-. cbn. split; auto. lia.
    + intros. apply cell_ok_nil.
  - intros. now apply aeu_inv_step.
  - rewrite E. cbn [bind]. exists r. split; auto. destruct I as (Wr & _ & _ & C). auto.
Qed.

(** Everybody finished and there is somebody: every step has a last taker. *)
Lemma takes_exists t s i : 0 <= i < steps_of t s -> exists pos, takes_step s i t pos.
Proof.
  induction s as [|x s IH] using rev_ind; intros H; [cbn in H; lia|].
  rewrite steps_app in H. cbn in H. destruct (Z.ltb_spec i (steps_of t s)).
  - destruct IH as (pos & HT); [lia|]. exists pos. apply takes_app_old; auto. eapply takes_lt; eauto.
  - destruct (Nat.eqb_spec x t) as [->|]; [|lia]. exists (length s). apply takes_app_new. split; auto. lia.
Qed.
Lemma cell_ok_finished {V} k (src : nat -> Z -> V) init s i v n : (0 < k)%nat -> all_finish k n s -> 0 <= i < n ->
  cell_ok k src init s i v -> exists t, last_to_step k s i t /\ v = src t i.
Proof.
  intros Hk F Hi [[N _]|H]; auto. exfalso. specialize (F 0%nat Hk).
  destruct (takes_exists 0%nat s i ltac:(lia)) as (pos & HT). exact (N _ _ Hk HT).
Qed.

(** ** Aesi: cells 0..n-1 are the blocks, cell n the sign. *)
Definition aesi_src (values : list aesi) (t : nat) (i : Z) : Z := znth (mag (nth t values (mk_aesi SZero []))) i.
Definition aesi_sgn (values : list aesi) (t : nat) (_ : Z) : sign_t := sgn (nth t values (mk_aesi SZero [])).
Definition aesi_inv (n : Z) (target : aesi) (values : list aesi) (s : list nat) (st : aesi * list sthread) : Prop :=
  wf n (mag (fst st)) /\ length (snd st) = length values /\
  (forall t th, nth_error (snd st) t = Some th -> nth_error values t = Some (st_val th) /\ st_pc th = Z.min (steps_of t s) (n + 1)) /\
  (forall i, 0 <= i < n -> cell_ok (length values) (aesi_src values) (znth (mag target)) s i (znth (mag (fst st)) i)) /\
  cell_ok (length values) (aesi_sgn values) (fun _ => sgn target) s n (sgn (fst st)).

Lemma aesi_inv_step n target values s x st : 0 <= n -> Forall (fun v => wf n (mag v)) values -> aesi_inv n target values s st ->
  exists st', aesi_step n st x = Ok st' /\ aesi_inv n target values (s ++ [x]) st'.
Proof.
  intros Hn HV (W & L & P & C & CS). destruct st as [tg ths]. cbn [fst snd] in *. unfold aesi_step.
  pose proof (steps_nonneg x s) as SN.
  destruct (nth_error ths x) as [th|] eqn:E.
  - assert (Hx : (x < length ths)%nat) by (apply nth_error_Some; congruence).
    destruct (P x th E) as [EV PC]. assert (Wv : wf n (mag (st_val th))).
    { pose proof (proj1 (Forall_forall _ _) HV (st_val th)) as K. cbv beta in K. apply K. eapply nth_error_In; eauto. }
    pose proof (wf_len _ _ W) as LT. pose proof (wf_len _ _ Wv) as LV.
    assert (ST : steps_of x (s ++ [x]) = steps_of x s + 1) by (rewrite steps_app; cbn; rewrite Nat.eqb_refl; lia).
    assert (SO : forall t, t <> x -> steps_of t (s ++ [x]) = steps_of t s).
    { intros t Ht. rewrite steps_app. cbn. destruct (Nat.eqb_spec x t); [congruence|lia]. }
    assert (PN : forall t th', st_pc th <= n -> nth_error (set_nth ths x (mk_sthread (st_val th) (st_pc th + 1))) t = Some th' ->
      nth_error values t = Some (st_val th') /\ st_pc th' = Z.min (steps_of t (s ++ [x])) (n + 1)).
    { intros t th' Hle Et. destruct (Nat.eq_dec t x) as [->|N].
      - rewrite set_nth_eq in Et by auto. injection Et as <-. cbn. split; auto. lia.
      - rewrite set_nth_ne in Et by auto. destruct (P t th' Et) as [? ?]. split; auto. rewrite SO by auto. auto. }
    destruct (Z.ltb_spec (st_pc th) n) as [Hlt|Hge].
    + assert (PCE : st_pc th = steps_of x s) by lia.
      rewrite aget_ok by lia. cbn [bind]. rewrite aset_ok by lia. cbn [bind]. eexists. split; [reflexivity|].
      split; [|split; [|split; [|split] ] ]; cbn [fst snd mag sgn with_mag].
      * apply wf_upd; auto. pose proof (wf_znth n (mag (st_val th)) (st_pc th) Wv). lia.
      * now rewrite set_nth_length.
      * intros. apply PN; auto. lia.
      * intros i Hi. destruct (Z.eq_dec i (st_pc th)) as [->|N].
        -- rewrite znth_upd_eq by lia. replace (znth (mag (st_val th)) (st_pc th)) with (aesi_src values x (st_pc th)).
           ++ apply cell_ok_write; [lia|auto].
           ++ unfold aesi_src. erewrite nth_error_nth by exact EV. reflexivity.
        -- rewrite znth_upd_ne by lia. apply cell_ok_same; auto. right. lia.
      * apply cell_ok_same; auto. right. lia.
    + destruct (Z.eqb_spec (st_pc th) n) as [He|Hne].
      * eexists. split; [reflexivity|]. split; [|split; [|split; [|split] ] ]; cbn [fst snd mag sgn with_sign]; auto.
        -- now rewrite set_nth_length.
        -- intros. apply PN; auto. lia.
        -- intros i Hi. apply cell_ok_same; auto. right. lia.
        -- replace (sgn (st_val th)) with (aesi_sgn values x n).
           ++ apply cell_ok_write; [lia|]. lia.
           ++ unfold aesi_sgn. erewrite nth_error_nth by exact EV. reflexivity.
      * eexists. split; [reflexivity|]. split; [|split; [|split; [|split] ] ]; cbn [fst snd]; auto.
        -- intros t th' Et. destruct (P t th' Et) as [? EP]. split; auto. destruct (Nat.eq_dec t x) as [->|N]; [|rewrite SO by auto; auto].
           rewrite E in Et. injection Et as <-. lia.
        -- intros i Hi. apply cell_ok_same; auto. right. lia.
        -- apply cell_ok_same; auto. right. lia.
  - assert (Hx : (length ths <= x)%nat) by (apply nth_error_None; auto).
    eexists. split; [reflexivity|]. split; [|split; [|split; [|split] ] ]; cbn [fst snd]; auto.
    + intros t th' Et. destruct (P t th' Et) as [? EP]. split; auto. rewrite steps_app. cbn.
      assert (t < length ths)%nat by (apply nth_error_Some; congruence). destruct (Nat.eqb_spec x t); [lia|]. rewrite Z.add_0_r. auto.
    + intros i Hi. apply cell_ok_same; auto. left. lia.
    + apply cell_ok_same; auto. left. lia.
Qed.

Lemma aesi_run n target values s : 0 <= n -> wf n (mag target) -> Forall (fun v => wf n (mag v)) values ->
  exists r, aesi_try_atomic_set n target values s = Ok r /\ wf n (mag r) /\
    (forall i, 0 <= i < n -> cell_ok (length values) (aesi_src values) (znth (mag target)) s i (znth (mag r) i)) /\
    cell_ok (length values) (aesi_sgn values) (fun _ => sgn target) s n (sgn r).
Proof.
  intros Hn W HV. unfold aesi_try_atomic_set.
  destruct (run_inv (aesi_step n) (aesi_inv n target values) (target, map (fun v => mk_sthread v 0) values)) with (s := s) as ([r ths] & E & I).
  - split; [|split; [|split; [|split] ] ]; cbn [fst snd]; auto.
    + now rewrite map_length.
    + intros t th Et. rewrite nth_error_map in Et. destruct (nth_error values t) eqn:Ev; [|discriminate]. injection Et as <-. cbn. split; auto. lia.
    + intros. apply cell_ok_nil.
    + apply (cell_ok_nil _ _ (fun _ => sgn target)).
  - intros. now apply aesi_inv_step.
  - rewrite E. cbn [bind]. exists r. split; auto. destruct I as (Wr & _ & _ & C & D). auto.
Qed.

(** Somebody takes step [i] last, given only that somebody takes it. *)
Lemma last_unique k s i t t' : last_to_step k s i t -> last_to_step k s i t' -> t = t'.
Proof.
  intros (H & p & T & M) (H' & p' & T' & M').
  pose proof (M _ _ H' T'). pose proof (M' _ _ H T). assert (p = p') by lia. subst p'.
  destruct T as [T _], T' as [T' _]. congruence.
Qed.
