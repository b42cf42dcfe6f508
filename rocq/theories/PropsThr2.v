(** * PropsThr2: objects that several threads use at once while some assign them, C164 and C165.

    Programs: [ProgSpec.v]; [only_copies] and [flows]: [ThrSpec.v]; calls and scheduler: [ThrModel.v]. *)
From Verif Require Import Spec Lib AeuModel AliasModel AliasFacts ProgSpec ProgModel ProgFacts ProgTotal IniProgSpec PropsProg
  ThrMonad ThrModel ThrSpec ThrFacts ThrStore ThrExec ThrFoot ThrSafe.
From Coq Require Import ZifyBool.
Open Scope Z_scope.

(** Every value stored into block [i] of [x] is in [Src x i], if those loaded are. *)
Fixpoint carries (Src : nat -> Z -> Z -> Prop) {A} (c : act A) : Prop :=
  match c with
  | Ret _ | Stop _ => True
  | Get (Var x) i k => forall v, Src x i v -> carries Src (k v)
  | Put (Var x) i v k => Src x i v /\ carries Src k
  | Get (Tmp _) _ _ | Put (Tmp _) _ _ _ => False
  end.
Lemma carries_bind Src {A B} (c : act A) (f : A -> act B) : carries Src c -> (forall a, carries Src (f a)) -> carries Src (abind c f).
Proof.
  intros H K. induction c as [a|e|[x|x] i k IH|[x|x] i v k IH]; cbn [abind carries] in *; auto.
  destruct H. auto.
Qed.
(** A tree that only reads objects of the program. *)
Fixpoint looks {A} (c : act A) : Prop :=
  match c with Ret _ | Stop _ => True | Get (Var _) _ k => forall v, looks (k v) | _ => False end.
Lemma looks_carries Src {A} (c : act A) : looks c -> carries Src c.
Proof. induction c as [a|e|[x|x] i k IH|[x|x] i v k IH]; cbn [looks carries]; auto; contradiction. Qed.
Lemma looks_bind {A B} (c : act A) (f : A -> act B) : looks c -> (forall a, looks (f a)) -> looks (abind c f).
Proof. intros H K. induction c as [a|e|[x|x] i k IH|[x|x] i v k IH]; cbn [abind looks] in *; auto. Qed.
Lemma looks_forDx {S Q} lo hi (b : Z -> S -> act (step S Q)) s : (forall i s, looks (b i s)) -> looks (aforDx hi lo b s).
Proof.
  intros H. unfold aforDx. generalize hi at 2, s. induction (Z.to_nat (hi - lo)); intros; cbn [aloopDx]; [exact I|].
  apply looks_bind; auto. intros []; auto. exact I.
Qed.
Lemma looks_pure {A} (o : outcome A) : looks (pure o).
Proof. destruct o; exact I. Qed.
Lemma looks_compare cfg n x y : looks (v_compareTo cfg n (at_ (Var x)) (at_ (Var y))).
Proof.
  unfold v_compareTo, v_getBlock. apply looks_bind.
  - apply looks_forDx. intros i s. cbn. intros v. destruct (negb _ && _); cbn; intros; destruct (negb _); exact I.
  - intros []; exact I.
Qed.
Ltac lk := repeat (cbv beta zeta; first
  [ lazymatch goal with |- forall _, _ => intro end
  | exact I
  | apply looks_compare
  | apply looks_pure
  | apply looks_bind
  | apply looks_forDx
  | lazymatch goal with |- looks (match ?x with _ => _ end) => destruct x end
  | progress cbn [looks at_] ]).
Lemma looks_test cfg n c : looks (ttest cfg n c).
Proof.
  destruct c; cbn [ttest]; unfold v_eq, v_lt, v_gt, v_le, v_ge, v_rel, v_isZero, v_isOdd, v_filledBlocksNumber, v_getBit; lk.
Qed.
Lemma carries_forU Src {S} lo hi (b : Z -> S -> act S) s : (forall i s, carries Src (b i s)) -> carries Src (aforU lo hi b s).
Proof. intros H. unfold aforU. generalize lo at 2, s. induction (Z.to_nat (hi - lo)); intros; cbn [aloopU]; [exact I|]. apply carries_bind; auto. Qed.
Lemma carries_run (Src : nat -> Z -> Z -> Prop) cfg n : forall fuel p, only_copies p -> (forall s d i v, copies_in p s d -> Src s i v -> Src d i v) ->
  carries Src (trun cfg n fuel p).
Proof.
  induction fuel as [|f IH]; intros p C H; cbn [trun]; [exact I|]. destruct p as [|i|s t|c s t|c s]; cbn [only_copies copies_in] in *.
  - exact I.
  - destruct i; try contradiction. cbn [texec]. unfold t_assign. apply carries_forU. intros j u. cbn. intros v V. split; [|exact I].
    eapply H; [|exact V]. auto.
  - destruct C. apply carries_bind; [|intros _]; apply IH; auto; intros s0 d0 i0 v0 X; apply H; auto.
  - destruct C. apply carries_bind; [apply looks_carries, looks_test|]. intros []; apply IH; auto; intros s0 d0 i0 v0 X; apply H; auto.
  - apply carries_bind; [apply looks_carries, looks_test|]. intros []; [|exact I]. apply carries_bind; [apply IH; auto|]. intros _. apply IH; auto.
Qed.

(** What every thread preserves, every schedule preserves. *)
Lemma world_inv (I : (nat -> list Z) -> Prop) (T : thread -> Prop) :
  (forall sh th, I sh -> T th -> I (fst (thread_step sh th)) /\ T (snd (thread_step sh th))) ->
  forall s w, I (fst w) -> (forall th, In th (snd w) -> T th) ->
  I (fst (world_run w s)) /\ forall th, In th (snd (world_run w s)) -> T th.
Proof.
  intros H s. induction s as [|t s IH]; intros w W1 W2; [split; auto|]. unfold world_run in *. cbn [fold_left].
  apply IH; unfold world_step; destruct (nth_error (snd w) t) as [th|] eqn:E; auto;
    destruct (H (fst w) th W1 (W2 _ (nth_error_In _ _ E))) as [A B]; destruct (thread_step (fst w) th) as [sh' th']; cbn [fst snd] in *; auto.
  clear - W2 B. intros u. revert t W2. induction (snd w) as [|a l IH]; intros [|t] W2; cbn; auto; intros [<-|K].
  - exact B.
  - apply W2; right; auto.
  - apply W2; left; auto.
  - eapply IH; [|exact K]. intros; apply W2; right; auto.
Qed.

(** Where the value of block [i] of [y] may come from. *)
Definition comes_from (progs : list (stmt uinstr ucond * (nat -> list Z))) (shared : nat -> list Z) (y : nat) (i v : Z) : Prop :=
  exists x, flows (map fst progs) x y /\ v = znth (shared x) i.
Definition settled (Src : nat -> Z -> Z -> Prop) (shared sh : nat -> list Z) : Prop :=
  forall y, len (sh y) = len (shared y) /\ forall i, Src y i (znth (sh y) i).
Lemma carries_step (Src : nat -> Z -> Z -> Prop) shared sh th : settled Src shared sh -> carries Src (th_act th) ->
  settled Src shared (fst (thread_step sh th)) /\ carries Src (th_act (snd (thread_step sh th))).
Proof.
  destruct th as [c tmp]. intros HI HT. unfold thread_step. cbn [th_act th_tmp] in *. destruct c as [a|e|[x|x] j k|[x|x] j v k]; cbn [carries] in HT; try contradiction.
  - auto.
  - auto.
  - unfold mget. cbn [seen]. destruct (Z_lt_dec j 0) as [|]; [rewrite aget_err by lia; cbn; auto|].
    destruct (Z_lt_dec j (len (sh x))); [|rewrite aget_err by lia; cbn; auto]. rewrite aget_ok by lia. cbn [fst snd th_act]. split; auto. apply HT. apply HI.
  - cbn [seen]. destruct HT as [H1 H2]. destruct (Z_lt_dec j 0) as [|]; [rewrite aset_err by lia; cbn; auto|].
    destruct (Z_lt_dec j (len (sh x))); [|rewrite aset_err by lia; cbn; auto]. rewrite aset_ok by lia. cbn [fst snd th_act]. split; auto.
    intros z. unfold put_at. destruct (Nat.eqb_spec z x) as [->|]; [|apply HI]. rewrite len_upd. split; [apply HI|]. intros q.
    destruct (Z.eq_dec q j) as [->|N]; [rewrite znth_upd_eq by lia; exact H1|]. rewrite znth_upd_ne by lia. apply HI.
Qed.
Lemma carries_start cfg n fuel progs shared p tmp : In (p, tmp) progs -> only_copies p ->
  carries (comes_from progs shared) (trun cfg n fuel p).
Proof.
  intros H C. apply carries_run; auto. intros s0 d0 j v X (z & F & ->). exists z. split; [|reflexivity]. econstructor; [exact F| |exact X].
  change p with (fst (p, tmp)). now apply in_map.
Qed.
Lemma settled_start progs shared : settled (comes_from progs shared) shared shared.
Proof. intros z. split; [reflexivity|]. intros j. exists z. split; [constructor|reflexivity]. Qed.

(** ** C164 *)
(** Threads whose programs only copy objects, with whatever control flow, any number of them assigning and reading the same
    objects at once: at every moment every block of every object is the same block of some object at the start, one from
    which there is a chain of copies. *)
Theorem C164_blocks_partial : forall cfg n fuel progs shared schedule, (forall p tmp, In (p, tmp) progs -> only_copies p) ->
  let w := world_run (start cfg n fuel shared progs) schedule in
  forall y i, 0 <= i < len (shared y) ->
    len (fst w y) = len (shared y) /\ exists x, flows (map fst progs) x y /\ znth (fst w y) i = znth (shared x) i.
Proof.
  intros cfg n fuel progs shared s C w y i Hi.
  destruct (world_inv (settled (comes_from progs shared) shared) (fun th => carries (comes_from progs shared) (th_act th)))
    with (s := s) (w := start cfg n fuel shared progs) as [A _].
  - intros sh th. apply carries_step.
  - apply settled_start.
  - intros th. unfold start. cbn [snd]. rewrite in_map_iff. intros ([p tmp] & <- & H). cbn [th_act]. apply carries_start with tmp; eauto.
  - destruct (A y) as [A1 A2]. split; [exact A1|]. apply A2.
Qed.
Print Assumptions C164_blocks_partial.

(** A thread in the middle of [y = x]: the blocks below [k] are done. *)
Definition copying (Src : Z -> Z -> Prop) (n : Z) (x y : nat) (sh : nat -> list Z) (th : thread) : Prop :=
  exists k, 0 <= k <= n /\ (forall i, 0 <= i < k -> Src i (znth (sh y) i)) /\
    let rest k := aloopU (Z.to_nat (n - k)) k (fun i (_ : unit) => b <~ at_ (Var x) i ;; aput (Var y) i b) tt in
    (th_act th = rest k \/ (k < n /\ exists v, Src k v /\ th_act th = Put (Var y) k v (rest (k + 1)))).
Lemma copying_step (Src : Z -> Z -> Prop) n x y sh th : len (sh x) = n -> len (sh y) = n -> (forall i, 0 <= i < n -> Src i (znth (sh x) i)) ->
  copying Src n x y sh th -> copying Src n x y (fst (thread_step sh th)) (snd (thread_step sh th)).
Proof.
  intros Lx Ly HS (k & Hk & D & H). cbv zeta in H. destruct th as [c tmp]. cbn [th_act] in H. destruct H as [H|(Kn & v & V & H)]; subst c.
  - destruct (Z.to_nat (n - k)) as [|c] eqn:C.
    + cbn [aloopU thread_step th_act fst snd]. exists k. split; [lia|]. split; [exact D|]. cbv zeta. left. rewrite C. reflexivity.
    + cbn [aloopU at_ abind aput]. unfold thread_step. cbn [th_act th_tmp]. unfold mget. cbn [seen]. rewrite aget_ok by lia. cbn [fst snd].
      exists k. split; [lia|]. split; [exact D|]. cbv zeta. right. split; [lia|]. exists (znth (sh x) k). split; [apply HS; lia|].
      cbn [th_act]. replace (Z.to_nat (n - (k + 1))) with c by lia. reflexivity.
  - unfold thread_step. cbn [th_act th_tmp]. cbn [seen]. rewrite aset_ok by lia. cbn [fst snd]. exists (k + 1). split; [lia|]. split.
    + intros i Hi. unfold put_at. rewrite Nat.eqb_refl. destruct (Z.eq_dec i k) as [->|N]; [rewrite znth_upd_eq by lia; exact V|].
      rewrite znth_upd_ne by lia. apply D. lia.
    + cbv zeta. left. reflexivity.
Qed.
Lemma copying_other (Src : Z -> Z -> Prop) n x y sh sh' th : sh' y = sh y -> copying Src n x y sh th -> copying Src n x y sh' th.
Proof. intros E (k & Hk & D & H). exists k. rewrite E. auto. Qed.
Lemma copying_done (Src : Z -> Z -> Prop) n x y sh th : copying Src n x y sh th -> th_act th = Ret tt -> forall i, 0 <= i < n -> Src i (znth (sh y) i).
Proof.
  intros (k & Hk & D & H) R i Hi. cbv zeta in H. destruct H as [H|(_ & v & _ & H)]; rewrite H in R; [|discriminate].
  destruct (Z.to_nat (n - k)) eqn:C; [|discriminate]. apply D. lia.
Qed.
(** [y = x] in one thread while others assign [x]: every block of the finished copy is the same block of one of the values
    [x] may have had, the original one or one that flows into [x]. *)
Theorem C164_copy_partial : forall cfg n fuel progs shared schedule t x y tmp, 0 <= n ->
  (forall z, len (shared z) = n) -> (forall p tmp, In (p, tmp) progs -> only_copies p) ->
  nth_error progs t = Some (Do (UCopy y x), tmp) ->
  (forall u p tmp, u <> t -> nth_error progs u = Some (p, tmp) -> ~ In y (prog_writes p)) ->
  let w := world_run (start cfg n fuel shared progs) schedule in
  forall th, nth_error (snd w) t = Some th -> th_act th = Ret tt ->
  forall i, 0 <= i < n -> exists z, flows (map fst progs) z x /\ znth (fst w y) i = znth (shared z) i.
Proof.
  intros cfg n fuel progs shared s t x y tmp Hn L C Et Ny w.
  set (Src := comes_from progs shared).
  set (J := fun w : world => settled Src shared (fst w) /\ forall u th, nth_error (snd w) u = Some th ->
    carries Src (th_act th) /\ (u <> t -> foot (fun _ => True) (fun z => z <> y) (th_act th)) /\
    (u = t -> copying (Src x) n x y (fst w) th \/ exists f, th_act th = Stop f)).
  assert (J0 : J (start cfg n fuel shared progs)).
  { split; [apply settled_start|]. intros u th. unfold start. cbn [fst snd]. rewrite nth_error_map.
    destruct (nth_error progs u) as [[p tp]|] eqn:E; [|discriminate]. cbn. intros [= <-]. cbn [th_act].
    split; [apply carries_start with tp; [|eapply C]; eapply nth_error_In, E|]. split.
    - intros N. apply f_run; auto. intros z Hz. split; auto. intros ->. exact (Ny u p tp N E Hz).
    - intros ->. rewrite E in Et. injection Et as -> ->. destruct fuel as [|f]; [right; eexists; reflexivity|]. left.
      exists 0. split; [lia|]. split; [lia|]. cbv zeta. left. cbn [trun texec th_act]. unfold t_assign, aforU. reflexivity. }
  assert (JS : forall w u, J w -> J (world_step w u)).
  { clear w. intros w u HJ. unfold world_step. destruct (nth_error (snd w) u) as [thu|] eqn:EU; [|exact HJ]. destruct HJ as [HS HT].
    destruct (HT u thu EU) as (C1 & C2 & C3). destruct (carries_step Src shared (fst w) thu HS C1) as [D1 D2].
    pose proof (step_local (fun _ => True) (fun z => z <> y) (fst w) (fst w) thu) as SL.
    pose proof (copying_step (Src x) n x y (fst w) thu) as CS.
    destruct (thread_step (fst w) thu) as [sh' th'] eqn:ES. cbn [fst snd] in *.
    assert (Stopped : forall f, th_act thu = Stop f -> sh' = fst w /\ th' = thu).
    { intros f F. unfold thread_step in ES. rewrite F in ES. injection ES as <- <-. auto. }
    split; [exact D1|]. cbn [fst snd]. intros v thv Ev. destruct (Nat.eq_dec v u) as [->|N].
    - rewrite (replace_eq _ _ _ _ EU) in Ev. injection Ev as <-. split; [exact D2|]. split.
      + intros N. apply SL; auto.
      + intros E. destruct (C3 E) as [K|[f K]].
        * left. apply CS; auto; [rewrite (proj1 (HS x)); auto|rewrite (proj1 (HS y)); auto|]. intros i _. apply HS.
        * right. exists f. now rewrite (proj2 (Stopped f K)).
    - rewrite replace_ne in Ev by auto. destruct (HT v thv Ev) as (K1 & K2 & K3). split; [exact K1|]. split; [exact K2|]. intros ->.
      destruct (K3 eq_refl) as [K|K]; [left|right; exact K]. apply (copying_other _ _ _ _ (fst w)); auto. apply SL; auto. }
  assert (JW : J w).
  { unfold w, world_run. clear w. revert J0. generalize (start cfg n fuel shared progs). induction s as [|u s IH]; intros w0 J0; cbn [fold_left]; auto. }
  intros th E R i Hi. destruct JW as [_ JT]. destruct (JT t th E) as (_ & _ & K). destruct (K eq_refl) as [K1|[f K1]]; [|congruence].
  exact (copying_done _ _ _ _ _ _ K1 R i Hi).
Qed.
Print Assumptions C164_copy_partial.
(** With a single block the copy is one of those values as a whole. *)
Theorem C164_one_block_partial : forall cfg fuel progs shared schedule t x y tmp,
  (forall z, len (shared z) = 1) -> (forall p tmp, In (p, tmp) progs -> only_copies p) ->
  nth_error progs t = Some (Do (UCopy y x), tmp) ->
  (forall u p tmp, u <> t -> nth_error progs u = Some (p, tmp) -> ~ In y (prog_writes p)) ->
  let w := world_run (start cfg 1 fuel shared progs) schedule in
  forall th, nth_error (snd w) t = Some th -> th_act th = Ret tt ->
  exists z, flows (map fst progs) z x /\ fst w y = shared z.
Proof.
  intros cfg fuel progs shared s t x y tmp L C Et Ny w th E R.
  destruct (C164_copy_partial cfg 1 fuel progs shared s t x y tmp ltac:(lia) L C Et Ny th E R 0 ltac:(lia)) as (z & F & Z).
  exists z. split; [exact F|]. destruct (C164_blocks_partial cfg 1 fuel progs shared s C y 0) as [LY _]; [rewrite L; lia|].
  apply list_ext_znth; fold w in LY, Z |- *; [rewrite LY, !L; reflexivity|]. rewrite LY, L. intros i Hi. replace i with 0 by lia. exact Z.
Qed.
Print Assumptions C164_one_block_partial.

(** With two blocks it need not be: one thread assigns 0x2_00000002 to an object that holds 0x1_00000001, another one copies
    it, and the copy is 0x2_00000001. *)
Definition torn0 : list (stmt uinstr ucond * (nat -> list Z)) :=
  [(Do (UCopy 0 1), fun _ => [0; 0]); (Do (UCopy 2 0), fun _ => [0; 0])].
Definition torn_objects : nat -> list Z := fun i => match i with O => [1; 1] | 1%nat => [2; 2] | _ => [5; 5] end.
Theorem C164_torn_refuted : ~ (forall cfg n fuel progs shared schedule t x y tmp, 1 <= n ->
  (forall z, wf n (shared z)) -> (forall p tmp, In (p, tmp) progs -> only_copies p) ->
  nth_error progs t = Some (Do (UCopy y x), tmp) ->
  (forall u p tmp, u <> t -> nth_error progs u = Some (p, tmp) -> ~ In y (prog_writes p)) ->
  let w := world_run (start cfg n fuel shared progs) schedule in
  forall th, nth_error (snd w) t = Some th -> th_act th = Ret tt ->
  exists z, flows (map fst progs) z x /\ bval (fst w y) = bval (shared z)).
Proof.
  intros H.
  destruct (H cfg0 2 1%nat torn0 torn_objects [1; 1; 0; 0; 0; 0; 1; 1]%nat 1%nat 0%nat 2%nat (fun _ => [0; 0]) ltac:(lia)) with (th := mk_thread (Ret tt) (fun _ : nat => [0; 0]))
    as (z & _ & E).
  - intros [|[|z] ]; wfc.
  - intros p tmp [K|[K|[] ] ]; injection K as <- <-; exact I.
  - reflexivity.
  - intros [|[|[|u] ] ] p tmp N K; cbn in K; try discriminate; injection K as <- <-; cbn; lia.
  - vm_compute. reflexivity.
  - reflexivity.
  - revert E. destruct z as [|[|z] ]; vm_compute; discriminate.
Qed.
Print Assumptions C164_torn_refuted.

(** Two threads that both increment an object, one block wide: one increment is lost. *)
Definition twice0 : list (stmt uinstr ucond * (nat -> list Z)) := [(Do (UInc 0), fun _ => [0]); (Do (UInc 0), fun _ => [0])].
Theorem C164_lost_update_refuted : ~ (forall cfg fuel shared schedule,
  (forall z, wf 1 (shared z)) -> bval (shared O) < 2 ^ 32 - 2 ->
  let w := world_run (start cfg 1 fuel shared twice0) schedule in
  (forall th, In th (snd w) -> th_act th = Ret tt) -> bval (fst w O) = bval (shared O) + 2).
Proof.
  intros H. specialize (H cfg0 1%nat (fun _ => [7]) [0; 1; 0; 1]%nat).
  assert (E : bval (fst (world_run (start cfg0 1 1 (fun _ => [7]) twice0) [0; 1; 0; 1]%nat) O) = 8) by (vm_compute; reflexivity).
  cbv zeta in H. rewrite H in E; [discriminate| | |].
  - intros; wfc.
  - vm_compute; reflexivity.
  - intros th K. assert (X : map th_act (snd (world_run (start cfg0 1 1 (fun _ => [7]) twice0) [0; 1; 0; 1]%nat)) = [Ret tt; Ret tt]) by (vm_compute; reflexivity).
    apply (in_map th_act) in K. rewrite X in K. destruct K as [K|[K|[] ] ]; symmetry; exact K.
Qed.
Print Assumptions C164_lost_update_refuted.

(** How many threads have finished. *)
Definition finished (ths : list thread) : Z := Z.of_nat (length (filter (fun th => match th_act th with Ret _ => true | _ => false end) ths)).
Lemma finished_replace ths t th th' : nth_error ths t = Some th ->
  finished (replace ths t th') = finished ths - (if match th_act th with Ret _ => true | _ => false end then 1 else 0)
    + (if match th_act th' with Ret _ => true | _ => false end then 1 else 0).
Proof.
  unfold finished. revert t. induction ths as [|a l IH]; intros [|t] E; cbn in E; try discriminate; cbn [replace filter].
  - injection E as ->. destruct (th_act th), (th_act th'); cbn [length]; lia.
  - specialize (IH t E). destruct (th_act a); cbn [length]; lia.
Qed.
(** Several threads that all do [++x], one block wide: at least one increment and at most all of them take effect. *)
Theorem C164_increments_partial : forall cfg fuel progs x shared schedule, wf 1 (shared x) -> progs <> [] -> fuel <> O ->
  (forall p tmp, In (p, tmp) progs -> p = Do (UInc x)) ->
  let w := world_run (start cfg 1 fuel shared progs) schedule in
  (forall th, In th (snd w) -> th_act th = Ret tt) ->
  exists j, 1 <= j <= len progs /\ represents 1 (fst w x) ((bval (shared x) + j) mod 2 ^ 32).
Proof.
  intros cfg fuel progs x shared s W NE FU P w D. set (v0 := bval (shared x)).
  set (J := fun w : world => length (snd w) = length progs /\ len (fst w x) = 1 /\
    (exists j, 0 <= j <= finished (snd w) /\ (finished (snd w) <> 0 -> j <> 0) /\ znth (fst w x) 0 = (v0 + j) mod 2 ^ 32) /\
    forall th, In th (snd w) -> th_act th = t_inc 1 (Var x) \/ th_act th = Ret tt \/
      exists j, 1 <= j <= finished (snd w) + 1 /\ th_act th = Put (Var x) 0 ((v0 + j) mod 2 ^ 32) (Ret tt)).
  assert (B1 : forall l, len l = 1 -> bval l = znth l 0).
  { intros [|a [|b l] ] L; unfold len in L; cbn [length] in L; try lia. cbn. unfold znth. cbn. lia. }
  assert (V0 : 0 <= v0 < 2 ^ 32). { pose proof (bval_bound 1 _ W) as B. unfold v0. exact B. }
  assert (J0 : J (start cfg 1 fuel shared progs)).
  { unfold J, start. cbn [fst snd]. rewrite map_length. split; [reflexivity|]. split; [apply W|].
    assert (F0 : finished (map (fun '(p, tmp) => mk_thread (trun cfg 1 fuel p) tmp) progs) = 0 /\
      forall th, In th (map (fun '(p, tmp) => mk_thread (trun cfg 1 fuel p) tmp) progs) -> th_act th = t_inc 1 (Var x)).
    { destruct fuel as [|f]; [congruence|]. clear - P. induction progs as [|[p tmp] l IH]; [split; [reflexivity|intros ? []]|].
      destruct IH as [I1 I2]; [intros; eapply P; right; eauto|]. rewrite (P p tmp (or_introl eq_refl)). split; [exact I1|].
      intros th [<-|H]; [reflexivity|now apply I2]. }
    destruct F0 as [F0 F1]. split; [|intros th H; left; now apply F1]. exists 0. rewrite F0. repeat split; try lia.
    rewrite Z.add_0_r, Z.mod_small by exact V0. unfold v0. symmetry. apply B1, W. }
  assert (JS : forall w u, J w -> J (world_step w u)).
  { clear w D. intros w u (JL & JX & (j & Hj & Hj0 & Vj) & JT). unfold world_step. destruct (nth_error (snd w) u) as [thu|] eqn:EU.
    2: { unfold J. eauto 8. }
    destruct (JT thu (nth_error_In _ _ EU)) as [A|[A|(j' & Hj' & A)] ].
    - (* the load *)
      assert (ES : exists j, 1 <= j <= finished (snd w) + 1 /\ thread_step (fst w) thu = (fst w, mk_thread (Put (Var x) 0 ((v0 + j) mod 2 ^ 32) (Ret tt)) (th_tmp thu))).
      { exists (j + 1). split; [lia|]. unfold thread_step. rewrite A. unfold t_inc, aforUx. change (Z.to_nat (1 - 0)) with 1%nat. cbn [aloopUx at_ abind].
        unfold mget. cbn [seen]. rewrite aget_ok by lia. rewrite Vj. do 3 f_equal.
        pose proof (Z.mod_pos_bound (v0 + j) (2 ^ 32) ltac:(lia)) as M. set (b := (v0 + j) mod 2 ^ 32) in *.
        assert (NB : (v0 + (j + 1)) mod 2 ^ 32 = (b + 1) mod 2 ^ 32).
        { unfold b. rewrite Zplus_mod_idemp_l. f_equal. lia. }
        rewrite NB. destruct (Z.ltb_spec b blockMax); cbn [abind aput]; [reflexivity|].
        replace ((b + 1) mod 2 ^ 32) with 0; [reflexivity|]. replace (b + 1) with (2 ^ 32) by (unfold blockMax in *; lia). reflexivity. }
      destruct ES as (j2 & Hj2 & ES). rewrite ES. unfold J. cbn [fst snd]. rewrite replace_len.
      assert (FE : finished (replace (snd w) u (mk_thread (Put (Var x) 0 ((v0 + j2) mod 2 ^ 32) (Ret tt)) (th_tmp thu))) = finished (snd w)).
      { rewrite (finished_replace _ _ _ _ EU). rewrite A. cbn [th_act]. replace (match t_inc 1 (Var x) with Ret _ => true | _ => false end) with false by reflexivity. lia. }
      rewrite FE. split; [exact JL|]. split; [exact JX|]. split; [exists j; auto|]. intros th H. apply In_nth_error in H. destruct H as [t H].
      destruct (Nat.eq_dec t u) as [->|N].
      + rewrite (replace_eq _ _ _ _ EU) in H. injection H as <-. right. right. exists j2. auto.
      + rewrite replace_ne in H by auto. apply JT. eapply nth_error_In, H.
    - (* done already *)
      assert (ES : thread_step (fst w) thu = (fst w, thu)) by (unfold thread_step; now rewrite A). rewrite ES. unfold J. cbn [fst snd]. rewrite replace_len.
      assert (FE : finished (replace (snd w) u thu) = finished (snd w)). { rewrite (finished_replace _ _ _ _ EU), A. lia. }
      rewrite FE. split; [exact JL|]. split; [exact JX|]. split; [exists j; auto|]. intros th H. apply In_nth_error in H. destruct H as [t H].
      destruct (Nat.eq_dec t u) as [->|N].
      + rewrite (replace_eq _ _ _ _ EU) in H. injection H as <-. auto.
      + rewrite replace_ne in H by auto. apply JT. eapply nth_error_In, H.
    - (* the store *)
      assert (ES : thread_step (fst w) thu = (put_at (fst w) x (upd (fst w x) (Z.to_nat 0) ((v0 + j') mod 2 ^ 32)), mk_thread (Ret tt) (th_tmp thu))).
      { unfold thread_step. rewrite A. cbn [seen]. rewrite aset_ok by lia. reflexivity. }
      rewrite ES. unfold J. cbn [fst snd]. rewrite replace_len.
      assert (FE : finished (replace (snd w) u (mk_thread (Ret tt) (th_tmp thu))) = finished (snd w) + 1).
      { rewrite (finished_replace _ _ _ _ EU), A. cbn. lia. }
      rewrite FE. unfold put_at. rewrite Nat.eqb_refl, len_upd. split; [exact JL|]. split; [exact JX|]. split.
      + exists j'. split; [lia|]. split; [lia|]. apply znth_upd_eq. lia.
      + intros th H. apply In_nth_error in H. destruct H as [t H]. destruct (Nat.eq_dec t u) as [->|N].
        * rewrite (replace_eq _ _ _ _ EU) in H. injection H as <-. auto.
        * rewrite replace_ne in H by auto. destruct (JT th (nth_error_In _ _ H)) as [K|[K|(j2 & Hj2 & K)] ]; auto. right. right. exists j2. split; [lia|exact K]. }
  assert (JW : J w).
  { unfold w, world_run. clear w D. revert J0. generalize (start cfg 1 fuel shared progs). induction s as [|u s IH]; intros w0 J0; cbn [fold_left]; auto. }
  destruct JW as (JL & JX & (j & Hj & Hj0 & Vj) & _).
  assert (FA : finished (snd w) = len progs).
  { unfold len. rewrite <- JL. clear - D. unfold finished. f_equal. induction (snd w) as [|a l IH]; [reflexivity|]. cbn [filter].
    rewrite (D a (or_introl eq_refl)). cbn [length]. f_equal. apply IH. intros; apply D; right; auto. }
  rewrite FA in *. assert (0 < len progs) by (destruct progs; [congruence|unfold len; cbn [length]; lia]).
  exists j. split; [lia|]. pose proof (Z.mod_pos_bound (v0 + j) (2 ^ 32) ltac:(lia)). split.
  - apply wf_intro; [exact JX|]. intros i Hi. replace i with 0 by lia. rewrite Vj. lia.
  - rewrite B1 by exact JX. exact Vj.
Qed.
Print Assumptions C164_increments_partial.
(** Two blocks wide even that fails: both threads find the low block full and both carry. *)
Theorem C164_overshoot_refuted : ~ (forall cfg fuel shared schedule,
  (forall z, wf 2 (shared z)) -> bval (shared O) < 2 ^ 64 - 2 ->
  let w := world_run (start cfg 2 fuel shared twice0) schedule in
  (forall th, In th (snd w) -> th_act th = Ret tt) -> bval (shared O) + 1 <= bval (fst w O) <= bval (shared O) + 2).
Proof.
  intros H. specialize (H cfg0 1%nat (fun _ => [4294967295; 7]) [0; 1; 0; 1; 0; 0; 1; 1]%nat).
  assert (E : bval (fst (world_run (start cfg0 2 1 (fun _ => [4294967295; 7]) twice0) [0; 1; 0; 1; 0; 0; 1; 1]%nat) O) = 9 * 2 ^ 32) by (vm_compute; reflexivity).
  cbv zeta in H. rewrite E in H. assert (V : bval [4294967295; 7] = 8 * 2 ^ 32 - 1) by (vm_compute; reflexivity). rewrite V in H.
  destruct H as [_ H]; [|lia| |lia].
  - intros; wfc.
  - intros th K.
    assert (X : map th_act (snd (world_run (start cfg0 2 1 (fun _ => [4294967295; 7]) twice0) [0; 1; 0; 1; 0; 0; 1; 1]%nat)) = [Ret tt; Ret tt]) by (vm_compute; reflexivity).
    apply (in_map th_act) in K. rewrite X in K. destruct K as [K|[K|[] ] ]; symmetry; exact K.
Qed.
Print Assumptions C164_overshoot_refuted.

(** ** C165 *)
(** Any programs side by side, also ones that assign objects others are using, under any schedule: no thread ever accesses a
    block that does not exist or trips an assertion, and every object always consists of [n] blocks below 2^32. *)
Theorem C165_in_bounds : forall cfg n fuel progs shared schedule, 1 <= n -> cfg_unsafe cfg = false ->
  (forall x, wf n (shared x)) -> (forall p tmp k, In (p, tmp) progs -> wf n (tmp k)) ->
  (forall p tmp, In (p, tmp) progs -> typed uinstr_typed ucond_typed p) ->
  let w := world_run (start cfg n fuel shared progs) schedule in
  (forall x, wf n (fst w x)) /\ forall th f, In th (snd w) -> th_act th = Stop f -> f = OutOfFuel.
Proof.
  intros cfg n fuel progs shared s Hn U Wf WT T w.
  destruct (world_inv (fun sh => forall x, wf n (sh x)) (fun th => (forall k, wf n (th_tmp th k)) /\ safe True n (fun _ => True) (th_act th)))
    with (s := s) (w := start cfg n fuel shared progs) as [A B].
  - intros sh th HS [HT HA]. destruct (safe_step True n sh th HS HT HA) as (? & ? & ?). auto.
  - exact Wf.
  - intros th. unfold start. cbn [snd]. rewrite in_map_iff. intros ([p tmp] & <- & H). cbn [th_act th_tmp]. split; [intros k; eapply WT, H|].
    apply s_run; auto. eapply T, H.
  - fold w in A, B. split; [exact A|]. intros th f I E. destruct (B th I) as [_ S]. rewrite E in S. apply S.
Qed.
Print Assumptions C165_in_bounds.

(** No thread waits for another one: on every infinite schedule that keeps giving thread [t] its turn, it comes to its end,
    whatever the others do to the objects it works on. *)
Lemma over_stays w s t th : nth_error (snd w) t = Some th -> over th -> nth_error (snd (world_run w s)) t = Some th.
Proof.
  revert w. induction s as [|u s IH]; intros w E O; [exact E|]. unfold world_run in *. cbn [fold_left]. apply IH; auto.
  unfold world_step. destruct (nth_error (snd w) u) as [thu|] eqn:EU; auto. destruct (thread_step (fst w) thu) as [sh' th'] eqn:ES. cbn [snd].
  destruct (Nat.eq_dec t u) as [->|N]; [|now rewrite replace_ne].
  rewrite EU in E. injection E as ->. rewrite (replace_eq _ _ _ _ EU). unfold over, thread_step in *. destruct (th_act th); try contradiction; now injection ES as <- <-.
Qed.
Definition prefix (sigma : nat -> nat) (k : nat) : list nat := map sigma (seq 0 k).
Theorem C165_ends : forall cfg n fuel progs shared sigma t, (t < length progs)%nat ->
  (forall m, exists k, (m <= k)%nat /\ sigma k = t) ->
  exists k th, nth_error (snd (world_run (start cfg n fuel shared progs) (prefix sigma k))) t = Some th /\
    (th_act th = Ret tt \/ exists f, th_act th = Stop f).
Proof.
  intros cfg n fuel progs shared sigma t Ht F.
  assert (G : forall (c : act unit) m tmp, nth_error (snd (world_run (start cfg n fuel shared progs) (prefix sigma m))) t = Some (mk_thread c tmp) ->
    exists k th, nth_error (snd (world_run (start cfg n fuel shared progs) (prefix sigma k))) t = Some th /\ (th_act th = Ret tt \/ exists f, th_act th = Stop f)).
  { set (W := fun m => world_run (start cfg n fuel shared progs) (prefix sigma m)).
    assert (WS : forall m, W (S m) = world_step (W m) (sigma m)).
    { intros m. unfold W, prefix. rewrite seq_S, map_app. unfold world_run. rewrite fold_left_app. reflexivity. }
    (* up to its next turn the thread stays as it is *)
    assert (NEXT : forall m th, nth_error (snd (W m)) t = Some th -> exists j, nth_error (snd (W j)) t = Some th /\ sigma j = t).
    { intros m th E. destruct (F m) as (k & L & K). revert m th E L. 
      assert (forall d m th, nth_error (snd (W m)) t = Some th -> (m + d = k)%nat -> exists j, nth_error (snd (W j)) t = Some th /\ sigma j = t) as X.
      { induction d as [|d IH]; intros m th E L; [exists m; split; auto; replace m with k by lia; exact K|].
        destruct (Nat.eq_dec (sigma m) t) as [|N]; [eauto|]. apply (IH (S m)); [|lia]. rewrite WS. unfold world_step.
        destruct (nth_error (snd (W m)) (sigma m)); auto. destruct (thread_step (fst (W m)) t0). cbn [snd]. now rewrite replace_ne by auto. }
      intros m th E L. apply (X (k - m)%nat m); auto. lia. }
    assert (STEP : forall m th, nth_error (snd (W m)) t = Some th -> exists j sh, nth_error (snd (W j)) t = Some (snd (thread_step sh th))).
    { intros m th E. destruct (NEXT m th E) as (j & Ej & Sj). exists (S j), (fst (W j)). rewrite WS. unfold world_step. rewrite Sj, Ej.
      destruct (thread_step (fst (W j)) th) as [sh' th'] eqn:ES. cbn [snd]. exact (replace_eq _ _ _ _ Ej). }
    induction c as [[]|e|x i k IH|x i v k IH]; intros m tmp E.
    - exists m. eexists. split; [exact E|]. left. reflexivity.
    - exists m. eexists. split; [exact E|]. right. exists e. reflexivity.
    - destruct (STEP m _ E) as (j & sh & Ej). unfold thread_step in Ej. cbn [th_act th_tmp] in Ej. destruct (mget (seen sh tmp) x i) as [v|e]; cbn [snd] in Ej.
      + exact (IH v j tmp Ej).
      + exists j. eexists. split; [exact Ej|]. right. exists e. reflexivity.
    - destruct (STEP m _ E) as (j & sh & Ej). unfold thread_step in Ej. cbn [th_act th_tmp] in Ej. destruct (aset (seen sh tmp x) i v) as [b|e]; [destruct x|]; cbn [snd] in Ej.
      + exact (IH j tmp Ej).
      + exact (IH j _ Ej).
      + exists j. eexists. split; [exact Ej|]. right. exists e. reflexivity. }
  destruct (nth_error progs t) as [[p tmp]|] eqn:E; [|apply nth_error_None in E; lia].
  apply (G (trun cfg n fuel p) O tmp). cbn. rewrite nth_error_map, E. reflexivity.
Qed.
Print Assumptions C165_ends.

(** What every thread preserves for its own place in the list, every schedule preserves. *)
Lemma world_inv_at (I : (nat -> list Z) -> Prop) (T : nat -> thread -> Prop) :
  (forall t sh th, I sh -> T t th -> I (fst (thread_step sh th)) /\ T t (snd (thread_step sh th))) ->
  forall s w, I (fst w) -> (forall t th, nth_error (snd w) t = Some th -> T t th) ->
  I (fst (world_run w s)) /\ forall t th, nth_error (snd (world_run w s)) t = Some th -> T t th.
Proof.
  intros H s. induction s as [|u s IH]; intros w W1 W2; [split; auto|]. unfold world_run in *. cbn [fold_left].
  unfold world_step at 2 4. destruct (nth_error (snd w) u) as [thu|] eqn:EU; [|now apply IH].
  destruct (H u (fst w) thu W1 (W2 _ _ EU)) as [A B]. destruct (thread_step (fst w) thu) as [sh' th'] eqn:ES. cbn [fst snd] in *. apply IH; auto.
  intros t th E. cbn [snd] in E. destruct (Nat.eq_dec t u) as [->|N].
  - rewrite (replace_eq _ _ _ _ EU) in E. now injection E as <-.
  - rewrite replace_ne in E by auto. now apply W2.
Qed.
(** And without loops and square roots it comes to its end by finishing, not for lack of fuel. *)
Theorem C165_finishes : forall cfg n fuel progs shared sigma t p tmp, 1 <= n -> cfg_unsafe cfg = false ->
  (forall x, wf n (shared x)) -> (forall p tmp k, In (p, tmp) progs -> wf n (tmp k)) ->
  (forall p tmp, In (p, tmp) progs -> typed uinstr_typed ucond_typed p) ->
  nth_error progs t = Some (p, tmp) -> straight p -> (depth p <= fuel)%nat ->
  (forall m, exists k, (m <= k)%nat /\ sigma k = t) ->
  exists k th, nth_error (snd (world_run (start cfg n fuel shared progs) (prefix sigma k))) t = Some th /\ th_act th = Ret tt.
Proof.
  intros cfg n fuel progs shared sigma t p tmp Hn U Wf WT T E S D F.
  destruct (C165_ends cfg n fuel progs shared sigma t) as (k & th & Ek & [R|[f R] ]); auto; [apply nth_error_Some; congruence|eauto|].
  exfalso.
  destruct (world_inv_at (fun sh => forall x, wf n (sh x)) (fun u th => (forall k, wf n (th_tmp th k)) /\ safe (u <> t) n (fun _ => True) (th_act th)))
    with (s := prefix sigma k) (w := start cfg n fuel shared progs) as [_ B].
  - intros u sh thu HS [HT HA]. destruct (safe_step (u <> t) n sh thu HS HT HA) as (? & ? & ?). auto.
  - exact Wf.
  - intros u thu. unfold start. cbn [snd]. rewrite nth_error_map. destruct (nth_error progs u) as [[q tq]|] eqn:EQ; [|discriminate].
    cbn. intros [= <-]. cbn [th_act th_tmp]. split; [intros j; eapply WT, nth_error_In, EQ|].
    apply s_run; auto; [eapply T, nth_error_In, EQ|]. destruct (Nat.eq_dec u t) as [->|]; [right|left; auto].
    rewrite E in EQ. injection EQ as <- <-. auto.
  - destruct (B t th Ek) as [_ H]. rewrite R in H. destruct H as [H _]. now apply H.
Qed.
Print Assumptions C165_finishes.

(** A race: one thread divides object 0 by object 1 while another one assigns 0 to the divisor.  The quotient may be no
    quotient of any two of the values, but nothing is accessed out of bounds. *)
Definition race0 : list (stmt uinstr ucond * (nat -> list Z)) :=
  [(Do (UBin ODiv 2 0 1), fun _ => [0; 0]); (Do (UCopy 1 3), fun _ => [0; 0])].
Definition race_objects : nat -> list Z := fun i => match i with O => [9; 0] | 1%nat => [2; 0] | 3%nat => [0; 0] | _ => [5; 5] end.
Example C165_example :
  (forall x, wf 2 (race_objects x)) /\ (forall p tmp, In (p, tmp) race0 -> typed uinstr_typed ucond_typed p) /\
  ~ separate (map fst race0) /\
  (let w := world_run (start cfg0 2 3 race_objects race0) (repeat 1%nat 4 ++ repeat 0%nat 2000) in bval (fst w 2%nat) = 2 ^ 32 - 1) /\
  (let w := world_run (start cfg0 2 3 race_objects race0) (repeat 0%nat 2000) in bval (fst w 2%nat) = 4).
Proof.
  split; [intros [|[|[|[|x] ] ] ]; wfc|]. split; [intros p tmp [K|[K|[] ] ]; injection K as <- <-; exact I|].
  split; [|split; vm_compute; reflexivity].
  intros S. destruct (S 1%nat 0%nat (Do (UCopy 1 3)) (Do (UBin ODiv 2 0 1)) 1%nat) as [A _]; try reflexivity; [lia|cbn; auto|].
  apply A. cbn. auto.
Qed.
