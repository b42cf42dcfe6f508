(** * PropsMixAtomic: C145, sets and exchanges at the same time. *)
From Coq Require Import Permutation.
From Verif Require Import Lib Spec MixAtomicModel AtomicFacts PropsExch.
Open Scope Z_scope.

(** How many steps a call needs: an exchange takes three accesses per block, a set one. *)
Definition steps_needed (n : Z) (c : bool * list Z) : Z := if fst c then 3 * n else n.
Definition all_done (n : Z) (calls : list (bool * list Z)) (s : list nat) : Prop :=
  forall t c, nth_error calls t = Some c -> steps_needed n c <= steps_of t s.
(** the arguments, after the run ([vs]), of the calls that exchange *)
Fixpoint exchanged (calls : list (bool * list Z)) (vs : list (list Z)) : list (list Z) :=
  match calls, vs with
  | (true, _) :: cs, v :: vs' => v :: exchanged cs vs'
  | (false, _) :: cs, _ :: vs' => exchanged cs vs'
  | _, _ => []
  end.
Definition sets (calls : list (bool * list Z)) : Z := len (filter (fun c => negb (fst c)) calls).

(** ** Simulation: a set is an exchange whose old blocks are dropped *)
Definition is_set (calls : list (bool * list Z)) (t : nat) : bool := match nth_error calls t with Some (false, _) => true | _ => false end.
Definition expand (calls : list (bool * list Z)) (s : list nat) : list nat := flat_map (fun t => if is_set calls t then [t; t; t] else [t]) s.
Lemma expand_snoc calls s x : expand calls (s ++ [x]) = expand calls s ++ (if is_set calls x then [x; x; x] else [x]).
Proof. unfold expand. rewrite flat_map_app. cbn [flat_map]. rewrite app_nil_r. reflexivity. Qed.
Lemma expand_steps calls t s : steps_of t (expand calls s) = (if is_set calls t then 3 else 1) * steps_of t s.
Proof.
  induction s as [|x s IH]; [cbn; lia|]. unfold expand in *. cbn [flat_map steps_of]. rewrite steps_app, IH.
  destruct (Nat.eqb_spec x t) as [-> |N].
  - destruct (is_set calls t); cbn [steps_of]; rewrite Nat.eqb_refl; lia.
  - apply Nat.eqb_neq in N. destruct (is_set calls x); cbn [steps_of]; rewrite N; lia.
Qed.
Definition th_sim (n : Z) (c : bool * list Z) (m : mthread) (x : xthread) : Prop :=
  match m with
  | MExch x' => fst c = true /\ x' = x
  | MSet a => fst c = false /\ at_val a = snd c /\ x_pc x = at_pc a /\ x_ph x = XRead /\ 0 <= at_pc a /\ len (x_val x) = n /\
      forall i, at_pc a <= i < n -> znth (x_val x) i = znth (snd c) i
  end.
Definition sim (n : Z) (calls : list (bool * list Z)) (ms : list mthread) (xs : list xthread) : Prop :=
  length ms = length calls /\ length xs = length calls /\
  forall t c m x, nth_error calls t = Some c -> nth_error ms t = Some m -> nth_error xs t = Some x -> th_sim n c m x.

Lemma exch_one n tg x (ths : list xthread) t : nth_error ths t = Some x ->
  exch_step n (tg, ths) t = ('(tg', l) <- exch_step n (tg, [x]) 0 ;; match l with [x'] => Ok (tg', set_nth ths t x') | _ => Err OutOfBounds end).
Proof.
  intros E. assert (LT : (t < length ths)%nat) by (apply nth_error_Some; congruence). assert (ID : set_nth ths t x = ths).
  { destruct (nth_error_split ths t E) as (l1 & l2 & -> & L). subst t. apply set_nth_mid. }
  unfold exch_step. rewrite E. cbn [nth_error]. destruct (x_pc x <? n); [|cbn [bind]; rewrite ID; reflexivity].
  destruct (x_ph x).
  - destruct (aget (x_val x) (x_pc x)); cbn [bind]; reflexivity.
  - destruct (aget tg (x_pc x)); cbn [bind]; [|reflexivity]. destruct (aset tg (x_pc x) b); cbn [bind]; reflexivity.
  - destruct (aset (x_val x) (x_pc x) old); cbn [bind]; reflexivity.
Qed.
Lemma sim_set n calls ms xs t m x c : sim n calls ms xs -> nth_error calls t = Some c -> th_sim n c m x -> sim n calls (set_nth ms t m) (set_nth xs t x).
Proof.
  intros (L1 & L2 & R) Ec T. assert (LT : (t < length calls)%nat) by (apply nth_error_Some; congruence). split; [rewrite set_nth_length; lia|]. split; [rewrite set_nth_length; lia|].
  intros t' c' m' x' E1 E2 E3. destruct (Nat.eq_dec t' t) as [-> |N].
  - rewrite set_nth_eq in E2 by lia. rewrite set_nth_eq in E3 by lia. congruence.
  - rewrite set_nth_ne in E2 by lia. rewrite set_nth_ne in E3 by lia. eauto.
Qed.
Lemma set_one {A} (x y : A) : set_nth [x] 0 y = [y].
Proof. reflexivity. Qed.
Lemma set_twice {A} (l : list A) k u w : (k < length l)%nat -> set_nth (set_nth l k u) k w = set_nth l k w.
Proof.
  intros H. destruct (nth_error l k) as [x|] eqn:E; [|apply nth_error_None in E; lia].
  destruct (nth_error_split l k E) as (l1 & l2 & -> & L). subst k. rewrite !set_nth_mid. reflexivity.
Qed.

Lemma mixed_sim n target calls s : 1 <= n -> wf n target -> Forall (fun c => wf n (snd c)) calls ->
  exists tg ms xs, run_schedule (mixed_step n) s (target, map mixed_start calls) = Ok (tg, ms) /\
    run_schedule (exch_step n) (expand calls s) (target, map (fun v => mk_xthread v 0 XRead) (map snd calls)) = Ok (tg, xs) /\
    sim n calls ms xs /\ x_inv n target (map snd calls) (expand calls s) (tg, xs) /\
    forall t a, nth_error ms t = Some (MSet a) -> at_pc a = Z.min (steps_of t s) n.
Proof.
  intros Hn W F. assert (F' : Forall (wf n) (map snd calls)) by (apply Forall_map; exact F).
  set (init := (target, map (fun v => mk_xthread v 0 XRead) (map snd calls))).
  destruct (run_inv (mixed_step n)
    (fun s st => exists xs, run_schedule (exch_step n) (expand calls s) init = Ok (fst st, xs) /\ sim n calls (snd st) xs /\
       forall t a, nth_error (snd st) t = Some (MSet a) -> at_pc a = Z.min (steps_of t s) n) (target, map mixed_start calls)) with (s := s) as ([tg ms] & E & xs & X & SI & PC).
  - exists (map (fun v => mk_xthread v 0 XRead) (map snd calls)). cbn [fst snd]. conjs; [reflexivity| |].
    + split; [apply map_length|]. split; [rewrite !map_length; reflexivity|]. intros t c m x E1 E2 E3.
      rewrite nth_error_map, E1 in E2. rewrite map_map, nth_error_map, E1 in E3. injection E2 as <-. injection E3 as <-. unfold mixed_start.
      assert (Wc : wf n (snd c)) by (rewrite Forall_forall in F; apply F; eapply nth_error_In; eauto).
      destruct c as [k v]. cbn [fst snd] in *. destruct k; cbn [th_sim fst snd]; [auto|]. conjs; auto; cbn; try lia. apply wf_len; auto.
    + intros t a E. rewrite nth_error_map in E. destruct (nth_error calls t) as [ [k v]|]; [|discriminate]. injection E as E. unfold mixed_start in E. cbn [fst snd] in E. destruct k; [discriminate|].
      injection E as <-. cbn. lia.
  - clear s. intros s x [tg ms] (xs & X & SI & PC). cbn [fst snd] in *. pose proof SI as (L1 & L2 & R).
    destruct (x_run n target (map snd calls) (expand calls s) ltac:(lia) W F') as ([tg2 xs2] & X2 & I). fold init in X2. rewrite X in X2. injection X2 as <- <-.
    destruct I as (Wt & _ & T & _). cbn [fst snd] in *.
    assert (PCO : forall y m t a, nth_error (set_nth ms y m) t = Some (MSet a) -> (y < length ms)%nat -> y <> t -> at_pc a = Z.min (steps_of t (s ++ [y])) n).
    { intros y m t a E LY NE. rewrite set_nth_ne in E by auto. rewrite (PC t a E), steps_snoc. destruct (Nat.eqb_spec y t); [congruence|]. rewrite Z.add_0_r. reflexivity. }
    unfold mixed_step. destruct (nth_error ms x) as [m|] eqn:EM.
    2:{ exists (tg, ms). split; [reflexivity|]. exists xs. cbn [fst snd]. conjs; auto.
        - rewrite expand_snoc. assert (NX : nth_error xs x = None) by (apply nth_error_None; apply nth_error_None in EM; lia).
          assert (NC : nth_error calls x = None) by (apply nth_error_None; apply nth_error_None in EM; lia).
          unfold is_set. rewrite NC, run_snoc, X. cbn [bind]. unfold exch_step. rewrite NX. reflexivity.
        - intros t a E. rewrite (PC t a E), steps_snoc. destruct (Nat.eqb_spec x t); [congruence|]. rewrite Z.add_0_r. reflexivity. }
    assert (LX : (x < length calls)%nat) by (rewrite <- L1; apply nth_error_Some; congruence).
    destruct (nth_error calls x) as [c|] eqn:EC; [|apply nth_error_None in EC; lia].
    destruct (nth_error xs x) as [y|] eqn:EX; [|apply nth_error_None in EX; lia].
    assert (Wc : wf n (snd c)) by (rewrite Forall_forall in F; apply F; eapply nth_error_In; eauto).
    pose proof (R x c m y EC EM EX) as TS. pose proof (T x y EX) as TY.
    assert (LT : len tg = n) by (apply wf_len; auto).
    assert (IDS : set_nth ms x m = ms). { destruct (nth_error_split ms x EM) as (l1 & l2 & -> & L). subst x. apply set_nth_mid. }
    assert (IDX : set_nth xs x y = xs). { destruct (nth_error_split xs x EX) as (l1 & l2 & -> & L). subst x. apply set_nth_mid. }
    destruct m as [a|z]; cbn [th_sim] in TS.
    + (* a set: three steps of the exchange *)
      destruct TS as (K & V & P & PH & P0 & LV & EQ). destruct c as [k v]. cbn [fst snd] in *. subst k.
      assert (IS : is_set calls x = true) by (unfold is_set; rewrite EC; reflexivity).
      unfold aeu_step. cbn [nth_error]. destruct (Z.ltb_spec (at_pc a) n) as [LTN|GE].
      * rewrite V, (aget_ok v) by (rewrite (wf_len _ _ Wc); lia). cbn [bind]. rewrite aset_ok by lia. cbn [bind]. rewrite set_one.
        eexists. split; [reflexivity|]. cbn [fst snd].
        exists (set_nth xs x (mk_xthread (upd (x_val y) (Z.to_nat (at_pc a)) (znth tg (at_pc a))) (at_pc a + 1) XRead)). conjs.
        -- rewrite expand_snoc, IS. change [x; x; x] with ([x] ++ [x] ++ [x]). rewrite !app_assoc, run_snoc, run_snoc, run_snoc, X. cbn [bind].
           assert (LXS : (x < length xs)%nat) by lia.
           rewrite (exch_one n tg y xs x EX). unfold exch_step at 1. cbn [nth_error]. rewrite P, PH. replace (at_pc a <? n) with true by (symmetry; apply Z.ltb_lt; lia).
           rewrite aget_ok by lia. cbn [bind]. rewrite set_one. cbn [bind].
           set (y1 := mk_xthread (x_val y) (at_pc a) (XSwap (znth (x_val y) (at_pc a)))).
           rewrite (exch_one n tg y1 (set_nth xs x y1) x) by (apply set_nth_eq; auto). unfold exch_step at 1. cbn [nth_error y1 x_pc x_ph x_val].
           replace (at_pc a <? n) with true by (symmetry; apply Z.ltb_lt; lia). rewrite aget_ok, aset_ok by lia. cbn [bind]. rewrite set_one. cbn [bind].
           set (y2 := mk_xthread (x_val y) (at_pc a) (XPut (znth tg (at_pc a)))). rewrite set_twice by auto.
           rewrite (exch_one n _ y2 (set_nth xs x y2) x) by (apply set_nth_eq; auto). unfold exch_step at 1. cbn [nth_error y2 x_pc x_ph x_val].
           replace (at_pc a <? n) with true by (symmetry; apply Z.ltb_lt; lia). rewrite aset_ok by lia. cbn [bind]. rewrite set_one, set_twice by auto.
           rewrite (EQ (at_pc a)) by lia. reflexivity.
        -- eapply sim_set; eauto. cbn [th_sim fst snd at_val at_pc x_pc x_ph x_val]. conjs; auto; try lia.
           ++ rewrite len_upd. auto.
           ++ intros i Hi. rewrite znth_upd_ne by lia. apply EQ. lia.
        -- intros t a' E. destruct (Nat.eq_dec x t) as [<- |NE].
           ++ rewrite set_nth_eq in E by lia. injection E as <-. cbn [at_pc]. rewrite steps_snoc, Nat.eqb_refl. pose proof (PC x a EM). lia.
           ++ eapply PCO; eauto. lia.
      * cbn [bind]. exists (tg, set_nth ms x (MSet a)). split; [reflexivity|]. rewrite IDS. exists xs. cbn [fst snd]. conjs; auto.
        -- rewrite expand_snoc, IS. change [x; x; x] with ([x] ++ [x] ++ [x]). rewrite !app_assoc, run_snoc, run_snoc, run_snoc, X. cbn [bind].
           assert (NS : exch_step n (tg, xs) x = Ok (tg, xs)). { unfold exch_step. rewrite EX. replace (x_pc y <? n) with false by (symmetry; apply Z.ltb_ge; lia). reflexivity. }
           rewrite NS. cbn [bind]. rewrite NS. cbn [bind]. exact NS.
        -- intros t a' E. rewrite (PC t a' E), steps_snoc. destruct (Nat.eqb_spec x t) as [<- |NE]; [|rewrite Z.add_0_r; reflexivity].
           rewrite EM in E. injection E as <-. pose proof (PC x a EM). lia.
    + destruct TS as (K & ->). destruct c as [k v]. cbn [fst snd] in *. subst k.
      assert (IS : is_set calls x = false) by (unfold is_set; rewrite EC; reflexivity).
      destruct (x_step n target (map snd calls) (expand calls s) x (tg, xs) ltac:(lia)) as ([tg' xs'] & ES & _).
      { destruct (x_run n target (map snd calls) (expand calls s) ltac:(lia) W F') as (st & X2 & I). fold init in X2. rewrite X in X2. injection X2 as <-. exact I. }
      pose proof ES as ES'. rewrite (exch_one n tg y xs x EX) in ES. destruct (exch_step n (tg, [y]) 0) as [ [tg1 l]|]; cbn [bind] in *; [|discriminate].
      destruct l as [|y' [|? ?] ]; try discriminate. injection ES as <- <-.
      exists (tg1, set_nth ms x (MExch y')). split; [reflexivity|]. cbn [fst snd]. exists (set_nth xs x y'). conjs.
      * rewrite expand_snoc, IS, run_snoc, X. cbn [bind]. exact ES'.
      * eapply sim_set; eauto. cbn [th_sim fst]. auto.
      * intros t a E. destruct (Nat.eq_dec x t) as [<- |NE]; [rewrite set_nth_eq in E by lia; discriminate|]. eapply PCO; eauto. lia.
  - exists tg, ms, xs. cbn [fst snd] in *. conjs; auto.
    destruct (x_run n target (map snd calls) (expand calls s) ltac:(lia) W F') as (st & X2 & I). fold init in X2. rewrite X in X2. injection X2 as <-. exact I.
Qed.

Lemma sim_cons n c cs m ms x xs : sim n (c :: cs) (m :: ms) (x :: xs) -> th_sim n c m x /\ sim n cs ms xs.
Proof.
  intros (L1 & L2 & R). cbn [length] in *. split; [apply (R 0%nat c m x); reflexivity|]. split; [lia|]. split; [lia|]. intros t c' m' x' E1 E2 E3. apply (R (S t)); auto.
Qed.
Lemma sim_lost n i : forall calls ms xs, sim n calls ms xs -> exists lost, len lost = sets calls /\
  Permutation (map (fun x => znth (x_val x) i) xs) (map (fun v => znth v i) (exchanged calls (map m_val ms)) ++ lost).
Proof.
  induction calls as [|c cs IH]; intros ms xs S.
  - destruct S as (L1 & L2 & _). destruct ms; [|discriminate]. destruct xs; [|discriminate]. exists []. split; [reflexivity|]. cbn. constructor.
  - destruct ms as [|m ms]; [destruct S; discriminate|]. destruct xs as [|x xs]; [destruct S as (_ & ? & _); discriminate|].
    apply sim_cons in S as [T S]. destruct (IH ms xs S) as (lost & L & P). destruct c as [k v]. unfold sets in *. cbn [filter fst negb]. destruct m as [a|y]; cbn [th_sim] in T; destruct T as [K T]; cbn [fst snd] in K; subst k; cbn [negb].
    + exists (znth (x_val x) i :: lost). split; [unfold len in *; cbn [length]; lia|]. cbn [map exchanged]. etransitivity; [apply perm_skip; exact P|]. apply Permutation_middle.
    + subst y. exists lost. split; [exact L|]. cbn [map exchanged m_val app]. apply perm_skip. exact P.
Qed.
(** thread [t] is done with its blocks exactly when it has taken the steps its call needs *)
Lemma mixed_pc n target calls s tg ms xs t c m : 1 <= n -> sim n calls ms xs -> x_inv n target (map snd calls) (expand calls s) (tg, xs) ->
  (forall t a, nth_error ms t = Some (MSet a) -> at_pc a = Z.min (steps_of t s) n) -> nth_error calls t = Some c -> nth_error ms t = Some m ->
  (m_pc m < n <-> steps_of t s < steps_needed n c) /\ m_pc m <= n.
Proof.
  intros Hn (L1 & L2 & R) (_ & _ & T & _) PC EC EM. cbn [fst snd] in *.
  destruct (nth_error xs t) as [x|] eqn:EX. 2:{ apply nth_error_None in EX. assert (t < length calls)%nat by (apply nth_error_Some; congruence). lia. }
  pose proof (R t c m x EC EM EX) as TS. destruct c as [k v]. unfold steps_needed. cbn [fst]. destruct m as [a|y]; cbn [th_sim m_pc] in *.
  - destruct TS as [K _]. cbn [fst] in K. rewrite K, (PC t a EM). lia.
  - destruct TS as [K ->]. cbn [fst] in K. subst k. destruct (T t x EX) as (_ & A2 & A3 & A4 & _). rewrite expand_steps in A4. unfold is_set in A4. rewrite EC in A4. cbn [fst] in A4.
    destruct (Z.eq_dec (x_pc x) n) as [E|N]; [rewrite (A3 E) in A4; cbn [ph_idx] in A4; lia|]. destruct (x_ph x); cbn [ph_idx] in A4; lia.
Qed.

(** ** C145.  Any number of threads, each in a set or an exchange, under any schedule that lets all finish: the set
    arguments are unchanged; at every block position the blocks of the target and of the exchanged arguments, together
    with one overwritten block per set, are a rearrangement of what the target and all arguments held. *)
Theorem C145_nothing_lost : forall n target calls s, 1 <= n -> wf n target -> Forall (fun c => wf n (snd c)) calls -> all_done n calls s ->
  exists r vs, try_mixed n target calls s = Ok (r, vs) /\ wf n r /\ Forall (wf n) vs /\ length vs = length calls /\
    (forall t v, nth_error calls t = Some (false, v) -> nth_error vs t = Some v) /\
    forall i, 0 <= i < n -> exists lost, len lost = sets calls /\
      Permutation (znth r i :: map (fun v => znth v i) (exchanged calls vs) ++ lost) (znth target i :: map (fun c => znth (snd c) i) calls).
Proof.
  intros n target calls s Hn W F AD. destruct (mixed_sim n target calls s Hn W F) as (tg & ms & xs & E & X & SI & I & PC).
  pose proof SI as (L1 & L2 & R). pose proof I as (Wt & _ & T & P). cbn [fst snd] in *. unfold try_mixed. rewrite E. cbn [bind].
  assert (GET : forall t c, nth_error calls t = Some c -> exists m x, nth_error ms t = Some m /\ nth_error xs t = Some x).
  { intros t c Ec. assert (t < length calls)%nat by (apply nth_error_Some; congruence).
    destruct (nth_error ms t) as [m|] eqn:EM; [|apply nth_error_None in EM; lia]. destruct (nth_error xs t) as [x|] eqn:EX; [|apply nth_error_None in EX; lia]. eauto. }
  exists tg, (map m_val ms). conjs; auto.
  - apply Forall_forall. intros v Hv. apply in_map_iff in Hv as (m & <- & HI). apply In_nth_error in HI as (t & EM).
    destruct (nth_error calls t) as [c|] eqn:EC. 2:{ apply nth_error_None in EC. assert (t < length ms)%nat by (apply nth_error_Some; congruence). lia. }
    destruct (GET t c EC) as (m' & x & EM' & EX). rewrite EM in EM'. injection EM' as <-. pose proof (R t c m x EC EM EX) as TS.
    destruct m as [a|y]; cbn [th_sim m_val] in *.
    + destruct TS as (_ & -> & _). rewrite Forall_forall in F. apply F. eapply nth_error_In; eauto.
    + destruct TS as (_ & ->). apply (T t x EX).
  - rewrite map_length. auto.
  - intros t v Ec. destruct (GET t _ Ec) as (m & x & EM & EX). pose proof (R t _ m x Ec EM EX) as TS. rewrite nth_error_map, EM. destruct m as [a|y]; cbn [th_sim] in TS; cbn [option_map m_val].
    + destruct TS as (_ & -> & _). reflexivity.
    + destruct TS as (K & _). discriminate.
  - intros i Hi. specialize (P i Hi). destruct (sim_lost n i calls ms xs SI) as (lost & L & Q). exists lost. split; auto.
    rewrite map_map in P. etransitivity; [|exact P]. apply perm_skip. etransitivity; [apply Permutation_sym; exact Q|].
    erewrite map_ext_in; [apply Permutation_refl|]. intros x HI. apply In_nth_error in HI as (t & EX).
    assert (LT : (t < length calls)%nat) by (rewrite <- L2; apply nth_error_Some; congruence). destruct (nth_error calls t) as [c|] eqn:EC; [|apply nth_error_None in EC; lia].
    destruct (GET t c EC) as (m & x' & EM & EX'). rewrite EX in EX'. injection EX' as <-. pose proof (mixed_pc n target calls s tg ms xs t c m Hn SI I PC EC EM) as [Q1 Q2].
    specialize (AD t c EC). assert (PN : m_pc m = n) by lia. pose proof (R t c m x EC EM EX) as TS. destruct (T t x EX) as (_ & _ & A3 & _). unfold token.
    assert (x_ph x = XRead) as ->; [|reflexivity]. apply A3. destruct m as [a|y]; cbn [th_sim m_pc] in *; [destruct TS as (_ & _ & -> & _); auto|destruct TS as (_ & <-); auto].
Qed.
Print Assumptions C145_nothing_lost.

(** Finished or not, nothing faults, and every block of the target is the one it had at that place or one of an argument at that place. *)
Theorem C145_nothing_invented : forall n target calls s, 1 <= n -> wf n target -> Forall (fun c => wf n (snd c)) calls ->
  exists r vs, try_mixed n target calls s = Ok (r, vs) /\ wf n r /\
    forall i, 0 <= i < n -> znth r i = znth target i \/ exists t c, nth_error calls t = Some c /\ znth r i = znth (snd c) i.
Proof.
  intros n target calls s Hn W F. destruct (mixed_sim n target calls s Hn W F) as (tg & ms & xs & E & X & SI & I & PC).
  destruct I as (Wt & _ & T & P). cbn [fst snd] in *. unfold try_mixed. rewrite E. cbn [bind]. exists tg, (map m_val ms). conjs; auto.
  intros i Hi. specialize (P i Hi). assert (IN : In (znth tg i) (znth target i :: map (fun v => znth v i) (map snd calls))) by (eapply Permutation_in; [exact P|left; reflexivity]).
  destruct IN as [<- |IN]; [auto|]. right. rewrite map_map in IN. apply in_map_iff in IN as (c & <- & IC). apply In_nth_error in IC as (t & EC). eauto.
Qed.
Print Assumptions C145_nothing_invented.

(** ** A call that runs alone, whatever the others are in the middle of, is an assignment or a swap *)
Lemma run_app {S} (step : S -> nat -> outcome S) a b st : run_schedule step (a ++ b) st = (st' <- run_schedule step a st ;; run_schedule step b st').
Proof. revert st. induction a as [|x a IH]; intros st; cbn [app run_schedule bind]; [reflexivity|]. destruct (step st x); cbn [bind]; auto. Qed.
Lemma mixed_one n tg m ms t : nth_error ms t = Some m ->
  mixed_step n (tg, ms) t = ('(tg', l) <- mixed_step n (tg, [m]) 0 ;; match l with [m'] => Ok (tg', set_nth ms t m') | _ => Err OutOfBounds end).
Proof.
  intros E. unfold mixed_step. rewrite E. cbn [nth_error]. destruct m as [a|x].
  - destruct (aeu_step n (tg, [a]) 0) as [ [tg' l]|]; cbn [bind]; [|reflexivity]. destruct l as [|a' [|? ?] ]; reflexivity.
  - destruct (exch_step n (tg, [x]) 0) as [ [tg' l]|]; cbn [bind]; [|reflexivity]. destruct l as [|a' [|? ?] ]; reflexivity.
Qed.
Lemma mixed_other n st x st' t : mixed_step n st x = Ok st' -> x <> t -> nth_error (snd st') t = nth_error (snd st) t.
Proof.
  destruct st as [tg ms]. intros H NE. cbn [snd]. destruct (nth_error ms x) as [m|] eqn:E.
  2:{ unfold mixed_step in H. rewrite E in H. injection H as <-. reflexivity. }
  assert (LX : (x < length ms)%nat) by (apply nth_error_Some; congruence).
  rewrite (mixed_one n tg m ms x E) in H. destruct (mixed_step n (tg, [m]) 0) as [ [tg' l]|]; cbn [bind] in H; [|discriminate]. destruct l as [|m' [|? ?] ]; try discriminate.
  injection H as <-. cbn [snd]. apply set_nth_ne; auto.
Qed.
Lemma mixed_untouched n s st st' t : run_schedule (mixed_step n) s st = Ok st' -> steps_of t s = 0 -> nth_error (snd st') t = nth_error (snd st) t.
Proof.
  revert st. induction s as [|x s IH]; intros st H S0; cbn [run_schedule steps_of] in *; [injection H as <-; reflexivity|].
  pose proof (steps_nonneg t s). destruct (Nat.eqb_spec x t) as [|NE]; [lia|]. destruct (mixed_step n st x) as [st1|] eqn:E; cbn [bind] in H; [|discriminate].
  rewrite (IH st1 H ltac:(lia)). eapply mixed_other; eauto.
Qed.
Lemma mixed_alone n t k : forall tg ms m, nth_error ms t = Some m ->
  run_schedule (mixed_step n) (repeat t k) (tg, ms) =
  ('(tg', l) <- run_schedule (mixed_step n) (repeat 0%nat k) (tg, [m]) ;; match l with [m'] => Ok (tg', set_nth ms t m') | _ => Err OutOfBounds end).
Proof.
  induction k as [|k IH]; intros tg ms m E.
  - cbn [repeat run_schedule bind]. destruct (nth_error_split ms t E) as (l1 & l2 & -> & L). subst t. rewrite set_nth_mid. reflexivity.
  - cbn [repeat run_schedule]. rewrite (mixed_one n tg m ms t E). rewrite (mixed_one n tg m [m] 0 eq_refl).
    destruct (mixed_step n (tg, [m]) 0) as [ [tg' l]|]; cbn [bind]; [|reflexivity]. destruct l as [|m' [|? ?] ]; try reflexivity.
    assert (LT : (t < length ms)%nat) by (apply nth_error_Some; congruence). cbn [bind]. rewrite set_one. cbn [bind].
    rewrite (IH tg' (set_nth ms t m') m') by (apply set_nth_eq; auto). destruct (run_schedule (mixed_step n) (repeat 0%nat k) (tg', [m'])) as [ [tg2 l]|]; cbn [bind]; [|reflexivity].
    destruct l as [|m2 [|? ?] ]; try reflexivity. rewrite set_twice by auto. reflexivity.
Qed.
Lemma lift_exch n k : forall tg x, run_schedule (mixed_step n) (repeat 0%nat k) (tg, [MExch x]) =
  ('(tg', l) <- run_schedule (exch_step n) (repeat 0%nat k) (tg, [x]) ;; Ok (tg', map MExch l)).
Proof.
  induction k as [|k IH]; intros tg x; cbn [repeat run_schedule bind]; [reflexivity|]. rewrite (exch_one n tg x [x] 0 eq_refl). unfold mixed_step at 1. cbn [nth_error].
  destruct (exch_step n (tg, [x]) 0) as [ [tg' l]|]; cbn [bind]; [|reflexivity]. destruct l as [|x' [|? ?] ]; try reflexivity. cbn [bind]. rewrite !set_one. apply IH.
Qed.
Lemma aeu_one n tg a ths t : nth_error ths t = Some a ->
  aeu_step n (tg, ths) t = ('(tg', l) <- aeu_step n (tg, [a]) 0 ;; match l with [a'] => Ok (tg', set_nth ths t a') | _ => Err OutOfBounds end).
Proof.
  intros E. unfold aeu_step. rewrite E. cbn [nth_error]. destruct (at_pc a <? n).
  - destruct (aget (at_val a) (at_pc a)); cbn [bind]; [|reflexivity]. destruct (aset tg (at_pc a) a0); cbn [bind]; reflexivity.
  - cbn [bind]. destruct (nth_error_split ths t E) as (l1 & l2 & -> & L). subst t. rewrite set_nth_mid. reflexivity.
Qed.
Lemma lift_set n k : forall tg x, run_schedule (mixed_step n) (repeat 0%nat k) (tg, [MSet x]) =
  ('(tg', l) <- run_schedule (aeu_step n) (repeat 0%nat k) (tg, [x]) ;; Ok (tg', map MSet l)).
Proof.
  induction k as [|k IH]; intros tg x; cbn [repeat run_schedule bind]; [reflexivity|]. rewrite (aeu_one n tg x [x] 0 eq_refl). unfold mixed_step at 1. cbn [nth_error].
  destruct (aeu_step n (tg, [x]) 0) as [ [tg' l]|]; cbn [bind]; [|reflexivity]. destruct l as [|x' [|? ?] ]; try reflexivity. cbn [bind]. rewrite !set_one. apply IH.
Qed.
Lemma map_set_nth {A B} (f : A -> B) l k x : map f (set_nth l k x) = set_nth (map f l) k (f x).
Proof. unfold set_nth. rewrite map_app, firstn_map. cbn [map]. rewrite skipn_map. reflexivity. Qed.
Lemma steps_repeat t k : steps_of t (repeat t k) = Z.of_nat k.
Proof. induction k; cbn [repeat steps_of]; [reflexivity|]. rewrite Nat.eqb_refl. lia. Qed.

Theorem C145_isolated : forall n target calls s t c, 1 <= n -> wf n target -> Forall (fun c => wf n (snd c)) calls -> nth_error calls t = Some c -> steps_of t s = 0 ->
  exists r vs, try_mixed n target calls s = Ok (r, vs) /\
    try_mixed n target calls (s ++ repeat t (Z.to_nat (steps_needed n c))) = Ok (snd c, set_nth vs t (if fst c then r else snd c)).
Proof.
  intros n target calls s t c Hn W F EC S0. destruct (mixed_sim n target calls s Hn W F) as (tg & ms & xs & E & X & SI & I & PC).
  destruct I as (Wt & _ & T & P). cbn [fst snd] in *. unfold try_mixed. rewrite run_app, E. cbn [bind]. exists tg, (map m_val ms). split; [reflexivity|].
  assert (EM : nth_error ms t = Some (mixed_start c)).
  { pose proof (mixed_untouched n s _ _ t E S0) as U. cbn [snd] in U. rewrite U, nth_error_map, EC. reflexivity. }
  assert (Wc : wf n (snd c)) by (rewrite Forall_forall in F; apply F; eapply nth_error_In; eauto).
  rewrite (mixed_alone n t _ tg ms _ EM). unfold mixed_start, steps_needed in *. destruct c as [k v]. cbn [fst snd] in *. destruct k.
  - rewrite lift_exch. pose proof (C122_alone n tg v (repeat 0%nat (Z.to_nat (3 * n))) Hn Wt Wc) as A. rewrite steps_repeat in A. specialize (A ltac:(lia)).
    unfold try_atomic_exchange in A. cbn [map] in A. destruct (run_schedule (exch_step n) (repeat 0%nat (Z.to_nat (3 * n))) (tg, [mk_xthread v 0 XRead])) as [ [tg' l]|]; cbn [bind] in *; [|discriminate].
    injection A as -> A. destruct l as [|x' [|? ?] ]; try discriminate. cbn [map] in *. injection A as A. cbn [bind]. rewrite map_set_nth. cbn [m_val]. rewrite A. reflexivity.
  - rewrite lift_set. destruct (aeu_run n tg [v] (repeat 0%nat (Z.to_nat n)) ltac:(lia) Wt ltac:(constructor; auto)) as (r & A & Wr & C).
    assert (r = v) as ->.
    { apply list_ext_znth; [pose proof (wf_len _ _ Wr); pose proof (wf_len _ _ Wc); unfold len in *; lia|]. intros i Hi. assert (HI : 0 <= i < n) by (rewrite <- (wf_len _ _ Wr); exact Hi). specialize (C i HI).
      destruct (cell_ok_finished 1 (aeu_src [v]) (znth tg) (repeat 0%nat (Z.to_nat n)) i (znth r i) n) as (t0 & [L0 _] & ->); auto.
      - intros t0 H0. assert (t0 = 0%nat) as -> by lia. rewrite steps_repeat. lia.
      - assert (t0 = 0%nat) as -> by (cbn in L0; lia). reflexivity. }
    unfold aeu_try_atomic_set in A. cbn [map] in A.
    assert (V : forall k tg a st, run_schedule (aeu_step n) (repeat 0%nat k) (tg, [a]) = Ok st -> exists a', snd st = [a'] /\ at_val a' = at_val a).
    { clear. induction k as [|k IH]; intros tg a st H; cbn [repeat run_schedule] in H; [injection H as <-; cbn; eauto|].
      unfold aeu_step at 1 in H. cbn [nth_error] in H. destruct (at_pc a <? n); [|cbn [bind] in H; eapply IH; eauto].
      destruct (aget (at_val a) (at_pc a)); cbn [bind] in H; [|discriminate]. destruct (aset tg (at_pc a) a0); cbn [bind] in H; [|discriminate]. rewrite set_one in H.
      destruct (IH _ _ _ H) as (a' & -> & V). eauto. }
    destruct (run_schedule (aeu_step n) (repeat 0%nat (Z.to_nat n)) (tg, [mk_athread v 0])) as [ [tg' l]|] eqn:Q; cbn [bind] in *; [|discriminate].
    destruct (V _ _ _ _ Q) as (a' & V1 & V2). cbn [snd at_val] in *. subst l. injection A as ->. cbn [map bind]. rewrite map_set_nth. cbn [m_val]. rewrite V2. reflexivity.
Qed.
Print Assumptions C145_isolated.

(** ** Signed numbers: the magnitudes behave as unsigned numbers under some schedule; the sign is some caller's *)
Definition mags (calls : list (bool * aesi)) : list (bool * list Z) := map (fun c => (fst c, mag (snd c))) calls.
(** a signed call takes one more step, the store of the sign *)
Definition s_all_done (n : Z) (calls : list (bool * aesi)) (s : list nat) : Prop :=
  forall t c, nth_error (mags calls) t = Some c -> steps_needed n c + 1 <= steps_of t s.
Definition sm_inv (n : Z) (target : aesi) (calls : list (bool * aesi)) (s : list nat) (st : aesi * list smthread) : Prop :=
  length (snd st) = length calls /\ map sm_sign (snd st) = map (fun c => sgn (snd c)) calls /\
  (exists s0, run_schedule (mixed_step n) s0 (mag target, map mixed_start (mags calls)) = Ok (mag (fst st), map sm_blocks (snd st)) /\
     forall t c, nth_error (mags calls) t = Some c -> steps_of t s0 = Z.min (steps_of t s) (steps_needed n c)) /\
  (forall t c th, nth_error (mags calls) t = Some c -> nth_error (snd st) t = Some th -> sm_stored th = (steps_needed n c <? steps_of t s)) /\
  ((forall th, In th (snd st) -> sm_stored th = false) \/ exists t c, nth_error calls t = Some c /\ sgn (fst st) = sgn (snd c)).

Lemma nth_In_set {A} (l : list A) k x y : (k < length l)%nat -> In y (set_nth l k x) -> y = x \/ In y l.
Proof.
  intros L H. apply In_nth_error in H as (j & E). destruct (Nat.eq_dec j k) as [-> |N].
  - rewrite set_nth_eq in E by auto. injection E as <-. auto.
  - rewrite set_nth_ne in E by auto. right. eapply nth_error_In; eauto.
Qed.
Lemma s_mixed_inv n target calls s x st : 1 <= n -> wf n (mag target) -> Forall (fun c => wf n (mag (snd c))) calls -> sm_inv n target calls s st ->
  exists st', s_mixed_step n st x = Ok st' /\ sm_inv n target calls (s ++ [x]) st'.
Proof.
  intros Hn W F (L & SG & (s0 & E0 & ST0) & STO & SIG). destruct st as [r ths]. cbn [fst snd] in *.
  assert (F' : Forall (fun c => wf n (snd c)) (mags calls)) by (unfold mags; apply Forall_map; exact F).
  assert (LM : length (mags calls) = length calls) by apply map_length.
  unfold s_mixed_step. destruct (nth_error ths x) as [th|] eqn:EX.
  2:{ exists (r, ths). split; auto. assert (NE : forall t c, nth_error (mags calls) t = Some c -> x <> t).
      { intros t c E ->. apply nth_error_None in EX. assert (t < length (mags calls))%nat by (apply nth_error_Some; congruence). lia. }
      split; [exact L|]. split; [exact SG|]. cbn [fst snd]. split; [|split; [|exact SIG] ].
      - exists s0. split; [exact E0|]. intros t c E. rewrite steps_snoc. destruct (Nat.eqb_spec x t); [exfalso; eapply NE; eauto|]. rewrite Z.add_0_r. auto.
      - intros t c th E E'. rewrite steps_snoc. destruct (Nat.eqb_spec x t); [exfalso; eapply NE; eauto|]. rewrite Z.add_0_r. eauto. }
  assert (LX : (x < length ths)%nat) by (apply nth_error_Some; congruence).
  destruct (nth_error (mags calls) x) as [c|] eqn:EC; [|apply nth_error_None in EC; lia].
  destruct (mixed_sim n (mag target) (mags calls) s0 Hn W F') as (tg & ms & xs & E & X & SI & I & PC). rewrite E0 in E. injection E as <- <-.
  assert (EM : nth_error (map sm_blocks ths) x = Some (sm_blocks th)) by (rewrite nth_error_map, EX; reflexivity).
  pose proof (mixed_pc n (mag target) (mags calls) s0 _ _ xs x c _ Hn SI I PC EC EM) as [PN _]. pose proof (ST0 x c EC) as S0. pose proof (STO x c th EC EX) as SX.
  assert (SM : forall b, map sm_sign (set_nth ths x (mk_smthread b (sm_sign th) true)) = map sm_sign ths /\ map sm_sign (set_nth ths x (mk_smthread b (sm_sign th) (sm_stored th))) = map sm_sign ths).
  { intros b. rewrite !map_set_nth. cbn [sm_sign]. split; destruct (nth_error_split ths x EX) as (l1 & l2 & -> & Q); rewrite map_app, <- Q; cbn [map]; rewrite <- (map_length sm_sign l1); apply set_nth_mid. }
  destruct (Z.ltb_spec (m_pc (sm_blocks th)) n) as [LT|GE].
  - (* a step on the blocks *)
    assert (NB : steps_of x s < steps_needed n c) by lia.
    destruct (mixed_sim n (mag target) (mags calls) (s0 ++ [x]) Hn W F') as (tg' & ms' & xs' & E' & _). rewrite run_snoc, E0 in E'. cbn [bind] in E'.
    rewrite (mixed_one n _ _ _ _ EM) in E'. destruct (mixed_step n (mag r, [sm_blocks th]) 0) as [ [b' l]|] eqn:ES; cbn [bind] in *; [|discriminate].
    destruct l as [|m' [|? ?] ]; try discriminate. injection E' as <- <-.
    exists (with_mag r b', set_nth ths x (mk_smthread m' (sm_sign th) (sm_stored th))). split; [reflexivity|].
    split; [cbn [snd]; rewrite set_nth_length; auto|]. split; [cbn [snd]; rewrite (proj2 (SM m')); exact SG|]. cbn [fst snd]. split; [|split].
    + exists (s0 ++ [x]). split.
      * rewrite run_snoc, E0. cbn [bind]. rewrite (mixed_one n _ _ _ _ EM), ES. cbn [bind]. rewrite map_set_nth. reflexivity.
      * intros t c' Ec. rewrite !steps_snoc. destruct (Nat.eqb_spec x t) as [<- |NE]; [|rewrite !Z.add_0_r; auto]. rewrite EC in Ec. injection Ec as <-. lia.
    + intros t c' th' Ec Eth. rewrite steps_snoc. destruct (Nat.eq_dec t x) as [-> |NE].
      * rewrite set_nth_eq in Eth by auto. injection Eth as <-. cbn [sm_stored]. rewrite EC in Ec. injection Ec as <-. rewrite SX, Nat.eqb_refl.
        destruct (Z.ltb_spec (steps_needed n c) (steps_of x s)), (Z.ltb_spec (steps_needed n c) (steps_of x s + 1)); lia || reflexivity.
      * rewrite set_nth_ne in Eth by auto. destruct (Nat.eqb_spec x t); [congruence|]. rewrite Z.add_0_r. eauto.
    + destruct SIG as [N|(t & c' & Ec & SS)]; [left|right; exists t, c'; auto]. intros th' HI. apply nth_In_set in HI as [-> |HI]; auto. cbn [sm_stored]. apply N. eapply nth_error_In; eauto.
  - assert (NB : steps_needed n c <= steps_of x s) by lia. destruct (sm_stored th) eqn:ST.
    + (* done *)
      exists (r, ths). split; [reflexivity|]. split; [exact L|]. split; [exact SG|]. cbn [fst snd]. split; [|split; [|exact SIG] ].
      * exists s0. split; [exact E0|]. intros t c' Ec. rewrite steps_snoc. destruct (Nat.eqb_spec x t) as [<- |NE]; [|rewrite Z.add_0_r; auto]. rewrite EC in Ec. injection Ec as <-. lia.
      * intros t c' th' Ec Eth. rewrite steps_snoc. destruct (Nat.eqb_spec x t) as [<- |NE]; [|rewrite Z.add_0_r; eauto].
        rewrite EC in Ec. injection Ec as <-. rewrite EX in Eth. injection Eth as <-. rewrite ST. destruct (Z.ltb_spec (steps_needed n c) (steps_of x s + 1)); [reflexivity|]. lia.
    + (* the sign *)
      assert (EQ : steps_of x s = steps_needed n c) by (destruct (Z.ltb_spec (steps_needed n c) (steps_of x s)); [discriminate|lia]).
      exists (with_sign r (sm_sign th), set_nth ths x (mk_smthread (sm_blocks th) (sm_sign th) true)). split; [reflexivity|].
      split; [cbn [snd]; rewrite set_nth_length; auto|]. split; [cbn [snd]; rewrite (proj1 (SM _)); exact SG|]. cbn [fst snd]. split; [|split].
      * exists s0. split.
        -- rewrite map_set_nth. cbn [sm_blocks]. replace (set_nth (map sm_blocks ths) x (sm_blocks th)) with (map sm_blocks ths); [exact E0|].
           destruct (nth_error_split ths x EX) as (l1 & l2 & -> & Q). rewrite map_app, <- Q. cbn [map]. rewrite <- (map_length sm_blocks l1). symmetry. apply set_nth_mid.
        -- intros t c' Ec. rewrite steps_snoc. destruct (Nat.eqb_spec x t) as [<- |NE]; [|rewrite Z.add_0_r; auto]. rewrite EC in Ec. injection Ec as <-. lia.
      * intros t c' th' Ec Eth. rewrite steps_snoc. destruct (Nat.eq_dec t x) as [-> |NE].
        -- rewrite set_nth_eq in Eth by auto. injection Eth as <-. cbn [sm_stored]. rewrite EC in Ec. injection Ec as <-. rewrite Nat.eqb_refl. symmetry. apply Z.ltb_lt. lia.
        -- rewrite set_nth_ne in Eth by auto. destruct (Nat.eqb_spec x t); [congruence|]. rewrite Z.add_0_r. eauto.
      * right. assert (EG : nth_error (map sm_sign ths) x = Some (sm_sign th)) by (rewrite nth_error_map, EX; reflexivity). rewrite SG, nth_error_map in EG.
        destruct (nth_error calls x) as [c0|] eqn:E1; [|discriminate]. injection EG as EG. exists x, c0. split; auto.
Qed.
Theorem C145_signed : forall n target calls s, 1 <= n -> wf n (mag target) -> Forall (fun c => wf n (mag (snd c))) calls -> calls <> [] -> s_all_done n calls s ->
  exists r vs, s_try_mixed n target calls s = Ok (r, vs) /\ wf n (mag r) /\ Forall (fun v => wf n (mag v)) vs /\
    map sgn vs = map (fun c => sgn (snd c)) calls /\ (exists t c, nth_error calls t = Some c /\ sgn r = sgn (snd c)) /\
    (forall t v, nth_error (mags calls) t = Some (false, v) -> nth_error (map mag vs) t = Some v) /\
    forall i, 0 <= i < n -> exists lost, len lost = sets (mags calls) /\
      Permutation (znth (mag r) i :: map (fun v => znth v i) (exchanged (mags calls) (map mag vs)) ++ lost) (znth (mag target) i :: map (fun c => znth (snd c) i) (mags calls)).
Proof.
  intros n target calls s Hn W F NE AD.
  assert (F' : Forall (fun c => wf n (snd c)) (mags calls)) by (unfold mags; apply Forall_map; exact F).
  assert (LM : length (mags calls) = length calls) by apply map_length.
  destruct (run_inv (s_mixed_step n) (sm_inv n target calls) (target, map s_mixed_start calls)) with (s := s) as ([r ths] & E & L & SG & (s0 & E0 & ST0) & STO & SIG).
  - split; [apply map_length|]. split; [cbn [snd]; rewrite map_map; apply map_ext; intros c; reflexivity|]. cbn [fst snd]. split; [|split].
    + exists []. split; [cbn [run_schedule]; unfold mags; rewrite !map_map; reflexivity|]. intros t c _. cbn [steps_of]. unfold steps_needed. destruct (fst c); lia.
    + intros t c th E1 E2. rewrite nth_error_map in E2. destruct (nth_error calls t); [|discriminate]. injection E2 as <-. cbn [s_mixed_start sm_stored steps_of]. symmetry. apply Z.ltb_ge. unfold steps_needed. destruct (fst c); lia.
    + left. intros th HI. apply in_map_iff in HI as (c & <- & _). reflexivity.
  - intros s1 x st I. apply s_mixed_inv; auto.
  - cbn [fst snd] in *. unfold s_try_mixed. rewrite E. cbn [bind].
    assert (AD0 : all_done n (mags calls) s0) by (intros t c Ec; rewrite (ST0 t c Ec); specialize (AD t c Ec); lia).
    destruct (C145_nothing_lost n (mag target) (mags calls) s0 Hn W F' AD0) as (r' & vs & T & Wr & Fv & Lv & SV & PV).
    unfold try_mixed in T. rewrite E0 in T. cbn [bind] in T. injection T as <- <-.
    exists r, (map (fun th => mk_aesi (sm_sign th) (m_val (sm_blocks th))) ths).
    assert (MM : map mag (map (fun th => mk_aesi (sm_sign th) (m_val (sm_blocks th))) ths) = map m_val (map sm_blocks ths)) by (rewrite !map_map; apply map_ext; reflexivity).
    rewrite MM. conjs; auto.
    + apply Forall_forall. intros v HI. rewrite Forall_forall in Fv. apply Fv. rewrite <- MM. apply in_map. exact HI.
    + rewrite map_map. cbn [sgn]. exact SG.
    + destruct SIG as [N|S]; [|exact S]. exfalso. destruct calls as [|c cs]; [congruence|]. destruct ths as [|th ths]; [discriminate|].
      pose proof (STO 0%nat (fst c, mag (snd c)) th eq_refl eq_refl) as Q. rewrite (N th) in Q by (left; reflexivity). symmetry in Q. apply Z.ltb_ge in Q.
      specialize (AD 0%nat (fst c, mag (snd c)) eq_refl). lia.
Qed.
Print Assumptions C145_signed.

(** A set of [2;2] overtaking an exchange of [1;1] with [5;6] in the middle: the set overwrites 1 at block 0 and 6 at block 1. *)
Example C145_example : all_done 2 [(true, [1; 1]); (false, [2; 2])] ([0; 0; 0; 1; 1; 0; 0; 0]%nat) /\
  try_mixed 2 [5; 6] [(true, [1; 1]); (false, [2; 2])] ([0; 0; 0; 1; 1; 0; 0; 0]%nat) = Ok ([2; 1], [ [5; 2]; [2; 2] ]).
Proof.
  split; [|vm_compute; reflexivity]. intros t c E. destruct t as [|[|t] ]; [injection E as <-; vm_compute; discriminate|injection E as <-; vm_compute; discriminate|destruct t; discriminate].
Qed.
(** an exchange of -5 running alone on +7 leaves -5 in the target; the argument keeps its sign, so it holds -7 *)
Example C145_signed_example : s_try_mixed 1 (mk_aesi SPos [7]) [(true, mk_aesi SNeg [5])] (repeat 0%nat 4) = Ok (mk_aesi SNeg [5], [mk_aesi SNeg [7] ]).
Proof. vm_compute. reflexivity. Qed.
