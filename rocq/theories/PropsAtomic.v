(** * PropsAtomic: C65, concurrent tryAtomicSet calls.

    [aeu_try_atomic_set n target values s]: thread number [t] runs [target.tryAtomicSet(values[t])]; the threads take
    their atomic steps in the order [s] (any list of thread numbers).  Returns what [target] holds afterwards. *)
From Verif Require Import Spec Lib AeuFacts AesiModel AtomicSpec AtomicModel AtomicFacts.
Open Scope Z_scope.

Ltac conjs := repeat match goal with |- _ /\ _ => split end.
Ltac wfc := apply wfb_wf; vm_compute; reflexivity.

(** Under every interleaving, finished or not, nothing faults, and every block is either untouched (no thread
    has got to it) or the block of the value whose thread wrote it last. *)
Theorem C65_every_interleaving : forall n target values s, 1 <= n -> wf n target -> Forall (wf n) values ->
  exists r, aeu_try_atomic_set n target values s = Ok r /\ wf n r /\
    forall i, 0 <= i < n ->
      ((forall t pos, (t < length values)%nat -> ~ takes_step s i t pos) /\ znth r i = znth target i) \/
      (exists t, last_to_step (length values) s i t /\ znth r i = znth (nth t values []) i).
Proof. intros n target values s Hn W F. apply (aeu_run n target values s); auto. lia. Qed.
Print Assumptions C65_every_interleaving.

(** Once every thread has finished: every block is the block of one of the written values, the one whose thread
    wrote it last. *)
Theorem C65_finished : forall n target values s, 1 <= n -> wf n target -> Forall (wf n) values ->
  values <> [] -> all_finish (length values) n s ->
  exists r, aeu_try_atomic_set n target values s = Ok r /\ wf n r /\
    forall i, 0 <= i < n -> exists t, last_to_step (length values) s i t /\ znth r i = znth (nth t values []) i.
Proof.
  intros n target values s Hn W F NE AF. destruct (aeu_run n target values s ltac:(lia) W F) as (r & E & Wr & C).
  exists r. split; auto. split; auto. intros i Hi.
  apply (cell_ok_finished (length values) (aeu_src values) (znth target) s i (znth r i) n); auto.
  destruct values; [congruence|cbn; lia].
Qed.
Print Assumptions C65_finished.

(** One writer stores its value exactly; so do any number of writers of the same value. *)
Theorem C65_same_value : forall n target v k s, 1 <= n -> wf n target -> wf n v -> (1 <= k)%nat -> all_finish k n s ->
  aeu_try_atomic_set n target (repeat v k) s = Ok v.
Proof.
  intros n target v k s Hn W Wv Hk AF.
  destruct (C65_finished n target (repeat v k) s) as (r & E & Wr & C); auto.
  - apply Forall_forall. intros x Hx. apply repeat_spec in Hx. now subst.
  - destruct k; [lia|discriminate].
  - now rewrite repeat_length.
  - rewrite E. f_equal. apply list_ext_znth.
    + destruct Wr as [L _], Wv as [L' _]. unfold len in *. lia.
    + intros i Hi. destruct Wr as [L _]. destruct (C i ltac:(lia)) as (t & (Ht & _) & Ei). rewrite repeat_length in Ht.
      rewrite Ei. f_equal. eapply repeat_spec. apply nth_In. rewrite repeat_length. exact Ht.
Qed.
Print Assumptions C65_same_value.

(** A thread that starts when the others have already done whatever they do, and runs its whole call: its value. *)
Theorem C65_last_alone : forall n target values s t, 1 <= n -> wf n target -> Forall (wf n) values ->
  (t < length values)%nat -> steps_of t s = 0 ->
  aeu_try_atomic_set n target values (s ++ repeat t (Z.to_nat n)) = Ok (nth t values []).
Proof.
  intros n target values s t Hn W F Ht S0.
  assert (SR : forall k, steps_of t (repeat t k) = Z.of_nat k).
  { clear. induction k; cbn [repeat steps_of]; [reflexivity|]. rewrite Nat.eqb_refl. lia. }
  set (s' := s ++ repeat t (Z.to_nat n)) in *.
  destruct (aeu_run n target values s' ltac:(lia) W F) as (r & E & Wr & C). rewrite E. f_equal.
  assert (Wt : wf n (nth t values [])). { eapply Forall_forall; [exact F|]. apply nth_In; auto. }
  destruct Wr as [L Wr], Wt as [L' Wt].
  apply list_ext_znth; [unfold len in *; lia|]. intros i Hi. rewrite L in Hi.
  assert (TT : takes_step s' i t (length s + Z.to_nat i)).
  { unfold takes_step, s'. rewrite nth_error_app2 by lia. rewrite firstn_app, firstn_all2 by lia.
    replace (length s + Z.to_nat i - length s)%nat with (Z.to_nat i) by lia. split.
    - rewrite nth_error_repeat; auto. lia.
    - rewrite steps_app, S0. replace (firstn (Z.to_nat i) (repeat t (Z.to_nat n))) with (repeat t (Z.to_nat i)).
      + rewrite SR. lia.
      + replace (Z.to_nat n) with (Z.to_nat i + (Z.to_nat n - Z.to_nat i))%nat by lia.
        rewrite repeat_app, firstn_app, repeat_length, Nat.sub_diag, firstn_all2 by (rewrite repeat_length; lia). now rewrite app_nil_r. }
  destruct (C i Hi) as [[N _]|(t' & (Ht' & pos & T' & M) & Ei)]; [exfalso; exact (N t _ Ht TT)|].
  rewrite Ei. unfold aeu_src. destruct (Nat.eq_dec t' t) as [->|NE]; auto.
  exfalso. pose proof (M t _ Ht TT) as B. destruct T' as [T' _]. unfold s' in T'.
  rewrite nth_error_app2 in T' by lia. apply nth_error_In in T'. apply repeat_spec in T'. auto.
Qed.
Print Assumptions C65_last_alone.

(** The number as a whole need not be any of the written values (nor the old one): at every width of two blocks or
    more, two threads can leave a mix. *)
Theorem C65_whole_value_refuted : forall n, 2 <= n -> exists target v0 v1 s r,
  wf n target /\ wf n v0 /\ wf n v1 /\ all_finish 2 n s /\ aeu_try_atomic_set n target [v0; v1] s = Ok r /\
  r <> v0 /\ r <> v1 /\ r <> target.
Proof.
  intros n Hn. set (a k := upd (upd (zeros n) (Z.to_nat 0) k) (Z.to_nat 1) k).
  assert (Wa : forall k, 0 <= k < 2 ^ 32 -> wf n (a k)).
  { intros k Hk. unfold a. apply wf_upd; auto. apply wf_upd; auto. apply wf_zeros. lia. }
  assert (La : forall k, len (a k) = n) by (intros; unfold a; rewrite !len_upd, len_zeros; lia).
  (* thread 0 writes block 0, thread 1 writes everything, thread 0 writes the rest: block 0 from 1, block 1 from 0 *)
  set (s := [0%nat] ++ repeat 1%nat (Z.to_nat n) ++ repeat 0%nat (Z.to_nat n)).
  assert (SR : forall t u k, steps_of t (repeat u k) = if Nat.eqb u t then Z.of_nat k else 0).
  { clear. intros t u. induction k; cbn [repeat steps_of]; [destruct (Nat.eqb u t); reflexivity|]. rewrite IHk. destruct (Nat.eqb u t); lia. }
  exists (zeros n), (a 1), (a 2), s.
  destruct (aeu_run n (zeros n) [a 1; a 2] s) as (r & E & Wr & C).
  { lia. } { apply wf_zeros; lia. } { repeat constructor; apply Wa; lia. }
  assert (AF : all_finish 2 n s).
  { intros t Ht. unfold s. rewrite !steps_app, !SR. cbn [steps_of]. destruct t as [|[|t] ]; cbn [Nat.eqb]; lia. }
  exists r. split; [apply wf_zeros; lia|]. split; [apply Wa; lia|]. split; [apply Wa; lia|]. split; [exact AF|]. split; [exact E|].
  assert (T00 : takes_step s 0 0%nat 0%nat) by (split; reflexivity).
  assert (T10 : takes_step s 0 1%nat 1%nat).
  { split; [|reflexivity]. unfold s. destruct (Z.to_nat n) as [|k] eqn:Ek; [lia|]. reflexivity. }
  assert (TAIL : takes_step s 1 0%nat (1 + Z.to_nat n)).
  { split.
    - unfold s. cbn [app nth_error Nat.add]. rewrite nth_error_app2; rewrite repeat_length; [|lia]. rewrite Nat.sub_diag.
      destruct (Z.to_nat n) eqn:Ek; [lia|]. reflexivity.
    - unfold s. cbn [Nat.add app firstn steps_of]. rewrite firstn_app, repeat_length, Nat.sub_diag, firstn_all2 by (rewrite repeat_length; lia).
      rewrite steps_app, SR. reflexivity. }
  assert (UQ : forall i t p q, takes_step s i t p -> takes_step s i t q -> (p <= q)%nat).
  { intros i t p q [A B] [A' B']. destruct (Nat.le_gt_cases p q) as [|G]; auto. exfalso.
    assert (L : steps_of t (firstn p s) = steps_of t (firstn q s) + steps_of t (firstn (p - q) (skipn q s))).
    { rewrite <- (firstn_skipn q (firstn p s)). rewrite steps_app, firstn_firstn, Nat.min_l by lia. f_equal. now rewrite skipn_firstn_comm. }
    assert (Z1 : exists rest, skipn q s = t :: rest).
    { clear -A'. revert q A'. induction s as [|x l IH]; intros q A'; destruct q; cbn in *; try discriminate; [injection A' as ->; eauto|]. eauto. }
    destruct Z1 as (rest & Z1). rewrite Z1 in L. destruct (p - q)%nat eqn:D; [lia|]. cbn [firstn steps_of] in L. rewrite Nat.eqb_refl in L.
    pose proof (steps_nonneg t (firstn n0 rest)). lia. }
  assert (A0 : forall k, znth (a k) 0 = k). { intros k. unfold a. rewrite znth_upd_ne by (rewrite ?len_upd, ?len_zeros by lia; lia). apply znth_upd_eq. rewrite len_zeros; lia. }
  assert (A1 : forall k, znth (a k) 1 = k). { intros k. unfold a. apply znth_upd_eq. rewrite len_upd, len_zeros; lia. }
  (* block 0 is 2, block 1 is 1 *)
  assert (B0 : znth r 0 = 2).
  { destruct (C 0 ltac:(lia)) as [[N _]|(t & (Ht & p & T & M) & Ev)]; [exfalso; exact (N 0%nat 0%nat ltac:(cbn; lia) T00)|].
    cbn [length] in Ht. destruct t as [|[|t] ]; [|clear Ht|lia].
    - exfalso. pose proof (UQ _ _ _ _ T T00). pose proof (M 1%nat 1%nat ltac:(cbn; lia) T10). lia.
    - rewrite Ev. unfold aeu_src. cbn [nth]. apply A0. }
  assert (B1 : znth r 1 = 1).
  { destruct (C 1 ltac:(lia)) as [[N _]|(t & (Ht & p & T & M) & Ev)]; [exfalso; exact (N 0%nat _ ltac:(cbn; lia) TAIL)|].
    cbn [length] in Ht. destruct t as [|[|t] ]; [clear Ht| |lia].
    - rewrite Ev. unfold aeu_src. cbn [nth]. apply A1.
    - exfalso. pose proof (M 0%nat _ ltac:(cbn; lia) TAIL) as B.
      destruct T as [T _]. unfold s in T. cbn [app] in T. destruct p; [discriminate|]. cbn [nth_error] in T.
      rewrite nth_error_app2 in T by (rewrite repeat_length; lia). apply nth_error_In, repeat_spec in T. discriminate. }
  split; [|split]; intros ->.
  - rewrite A0 in B0. discriminate.
  - rewrite A1 in B1. discriminate.
  - rewrite znth_zeros in B0. discriminate.
Qed.
Print Assumptions C65_whole_value_refuted.

(** Signed numbers: the blocks as above, and the sign is the sign of the value whose thread stored its sign last. *)
Theorem C65_signed_finished : forall n target values s, 1 <= n -> wf n (mag target) -> Forall (fun v => wf n (mag v)) values ->
  values <> [] -> all_finish (length values) (n + 1) s ->
  exists r, aesi_try_atomic_set n target values s = Ok r /\ wf n (mag r) /\
    (forall i, 0 <= i < n -> exists t, last_to_step (length values) s i t /\
       znth (mag r) i = znth (mag (nth t values (mk_aesi SZero []))) i) /\
    exists t, last_to_step (length values) s n t /\ sgn r = sgn (nth t values (mk_aesi SZero [])).
Proof.
  intros n target values s Hn W F NE AF. destruct (aesi_run n target values s ltac:(lia) W F) as (r & E & Wr & C & D).
  assert (Hk : (0 < length values)%nat) by (destruct values; [congruence|cbn; lia]).
  exists r. split; auto. split; auto. split.
  - intros i Hi. apply (cell_ok_finished (length values) (aesi_src values) (znth (mag target)) s i (znth (mag r) i) (n + 1)); auto. lia.
  - apply (cell_ok_finished (length values) (aesi_sgn values) (fun _ => sgn target) s n (sgn r) (n + 1)); auto. lia.
Qed.
Print Assumptions C65_signed_finished.
Theorem C65_signed_same_value : forall n target v k s, 1 <= n -> wf n (mag target) -> wf n (mag v) -> (1 <= k)%nat ->
  all_finish k (n + 1) s -> aesi_try_atomic_set n target (repeat v k) s = Ok v.
Proof.
  intros n target v k s Hn W Wv Hk AF.
  destruct (C65_signed_finished n target (repeat v k) s) as (r & E & Wr & C & (t & (Ht & _) & D)); auto.
  - apply Forall_forall. intros x Hx. apply repeat_spec in Hx. now subst.
  - destruct k; [lia|discriminate].
  - now rewrite repeat_length.
  - assert (RN : forall t, (t < k)%nat -> nth t (repeat v k) (mk_aesi SZero []) = v).
    { intros u Hu. eapply repeat_spec. apply nth_In. rewrite repeat_length. exact Hu. }
    rewrite repeat_length in Ht. rewrite RN in D by auto.
    rewrite E. f_equal. destruct r as [sr br], v as [sv bv]. cbn [sgn mag] in *. subst sr. f_equal. apply list_ext_znth.
    + destruct Wr as [L _], Wv as [L' _]. unfold len in *. lia.
    + intros i Hi. destruct Wr as [L _]. destruct (C i ltac:(lia)) as (u & (Hu & _) & Ei). rewrite repeat_length in Hu.
      rewrite Ei, RN by auto. reflexivity.
Qed.
Print Assumptions C65_signed_same_value.
(** Two threads setting well-formed numbers can leave an ill-formed one: sign positive, magnitude zero. *)
Theorem C65_signed_wellformed_refuted : exists target v0 v1 s r,
  canon 1 target /\ canon 1 v0 /\ canon 1 v1 /\ all_finish 2 2 s /\ aesi_try_atomic_set 1 target [v0; v1] s = Ok r /\ ~ swf 1 r.
Proof.
  exists (mk_aesi SZero [0]), (mk_aesi SPos [5]), (mk_aesi SZero [0]), [0%nat; 1%nat; 1%nat; 0%nat], (mk_aesi SPos [0]).
  assert (K : forall sg x, 0 <= x < 2 ^ 32 -> (sg = SZero <-> x = 0) -> canon 1 (mk_aesi sg [x])).
  { intros sg x Hx E. split; [split; [reflexivity|cbn [mag]; constructor; [lia|constructor] ]|]. cbn [sgn mag bval]. rewrite E. lia. }
  split; [apply K; [lia|tauto]|]. split; [apply K; [lia|split; discriminate]|]. split; [apply K; [lia|tauto]|].
  split; [intros t Ht; destruct t as [|[|t] ]; cbn; lia|]. split; [vm_compute; reflexivity|].
  intros [_ H]. apply H; [discriminate|reflexivity].
Qed.
Print Assumptions C65_signed_wellformed_refuted.

(** Three threads, two blocks: block 0 ends with thread 2, block 1 with thread 0. *)
Example C65_example :
  let s := [0%nat; 1%nat; 1%nat; 2%nat; 2%nat; 0%nat] in
  Forall (wf 2) [ [1; 2]; [3; 4]; [5; 6] ] /\ all_finish 3 2 s /\
  aeu_try_atomic_set 2 [0; 0] [ [1; 2]; [3; 4]; [5; 6] ] s = Ok [5; 2] /\
  last_to_step 3 s 0 2%nat /\ last_to_step 3 s 1 0%nat.
Proof.
  intros s. subst s. split; [repeat (apply Forall_cons; [wfc|]); constructor|]. split; [intros t Ht; destruct t as [|[|[|t] ] ]; cbn; lia|].
  split; [vm_compute; reflexivity|].
  assert (K : forall t pos i, takes_step [0%nat; 1%nat; 1%nat; 2%nat; 2%nat; 0%nat] i t pos -> (pos <= 5)%nat).
  { intros t pos i [H _]. destruct pos as [|[|[|[|[|[|pos] ] ] ] ] ]; try lia. destruct pos; discriminate. }
  split; (split; [lia|]).
  - exists 3%nat. split; [split; reflexivity|]. intros t' pos' Ht' [H1 H2].
    destruct pos' as [|[|[|[|[|[|pos] ] ] ] ] ]; try lia; cbn in H1; try (injection H1 as <-); cbn in H2; try discriminate. destruct pos; discriminate.
  - exists 5%nat. split; [split; reflexivity|]. intros t' pos' Ht' H. eapply K; eauto.
Qed.
Example C65_signed_example :
  let s := [0%nat; 0%nat; 1%nat; 1%nat; 0%nat; 1%nat] in
  aesi_try_atomic_set 2 (mk_aesi SZero [0; 0]) [mk_aesi SNeg [1; 2]; mk_aesi SPos [3; 4] ] s = Ok (mk_aesi SPos [3; 4]).
Proof. vm_compute. reflexivity. Qed.
