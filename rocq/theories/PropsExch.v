(** * PropsExch: C122, concurrent exchanges. *)
From Coq Require Import Permutation.
From Verif Require Import Lib Spec ExchModel AtomicFacts.
Open Scope Z_scope.

Ltac conjs := repeat match goal with |- _ /\ _ => split end.
Definition ph_idx (p : xphase) : Z := match p with XRead => 0 | XSwap _ => 1 | XPut _ => 2 end.
(** What thread [th] holds of block [i]: its argument's block, or the old target block it is about to store there. *)
Definition token (i : Z) (th : xthread) : Z :=
  match x_ph th with XPut old => if x_pc th =? i then old else znth (x_val th) i | _ => znth (x_val th) i end.
Lemma set_nth_mid {A} (l1 l2 : list A) x y : set_nth (l1 ++ x :: l2) (length l1) y = l1 ++ y :: l2.
Proof. unfold set_nth. induction l1 as [|z l1 IH]; cbn [length app firstn skipn]; [reflexivity|]. cbn [app]. f_equal. exact IH. Qed.
Lemma perm_set {A} (f : A -> Z) l k x y a b : nth_error l k = Some x -> f x = b -> f y = a -> Permutation (b :: map f (set_nth l k y)) (a :: map f l).
Proof.
  intros E <- <-. destruct (nth_error_split l k E) as (l1 & l2 & -> & L). subst k. rewrite set_nth_mid, !map_app. cbn [map app].
  etransitivity; [apply perm_skip, Permutation_sym, Permutation_middle|]. etransitivity; [|apply perm_skip, Permutation_middle]. apply perm_swap.
Qed.
Lemma map_set {A B} (f : A -> B) l k x y : nth_error l k = Some x -> f y = f x -> map f (set_nth l k y) = map f l.
Proof.
  intros E F. destruct (nth_error_split l k E) as (l1 & l2 & -> & L). subst k. rewrite set_nth_mid, !map_app. cbn [map]. rewrite F. reflexivity.
Qed.
Definition th_ok (n : Z) (s : list nat) (t : nat) (th : xthread) : Prop :=
  wf n (x_val th) /\ 0 <= x_pc th <= n /\ (x_pc th = n -> x_ph th = XRead) /\ 3 * x_pc th + ph_idx (x_ph th) = Z.min (steps_of t s) (3 * n) /\
  (forall b, x_ph th = XSwap b -> b = znth (x_val th) (x_pc th)) /\ (forall b, x_ph th = XPut b -> 0 <= b < 2 ^ 32).
Definition x_inv (n : Z) (target : list Z) (values : list (list Z)) (s : list nat) (st : list Z * list xthread) : Prop :=
  wf n (fst st) /\ length (snd st) = length values /\ (forall t th, nth_error (snd st) t = Some th -> th_ok n s t th) /\
  forall i, 0 <= i < n -> Permutation (znth (fst st) i :: map (token i) (snd st)) (znth target i :: map (fun v => znth v i) values).

Lemma steps_snoc t s x : steps_of t (s ++ [x]) = steps_of t s + (if Nat.eqb x t then 1 else 0).
Proof. rewrite steps_app. cbn [steps_of]. lia. Qed.

Lemma x_step n target values s x st : 0 <= n -> x_inv n target values s st -> exists st', exch_step n st x = Ok st' /\ x_inv n target values (s ++ [x]) st'.
Proof.
  intros Hn (W & L & T & P). destruct st as [tg ths]. cbn [fst snd] in *. unfold exch_step.
  destruct (nth_error ths x) as [th|] eqn:EX.
  2:{ exists (tg, ths). split; auto. split; [exact W|]. split; [exact L|]. split; [|exact P]. cbn [fst snd]. intros t th E.
      assert (NE : x <> t) by congruence. destruct (T t th E) as (A1 & A2 & A3 & A4 & A5). split; [auto|]. split; [auto|]. split; [auto|]. split; [|auto].
      rewrite steps_snoc. destruct (Nat.eqb_spec x t); [congruence|]. rewrite Z.add_0_r. auto. }
  assert (LX : (x < length ths)%nat) by (apply nth_error_Some; congruence).
  destruct (T x th EX) as (Wv & PC & PE & ST & SW & PT).
  assert (OTH : forall y t th', nth_error (set_nth ths x y) t = Some th' -> x <> t -> th_ok n (s ++ [x]) t th').
  { intros y t th' E NE. rewrite set_nth_ne in E by auto. destruct (T t th' E) as (A1 & A2 & A3 & A4 & A5). split; [auto|]. split; [auto|]. split; [auto|]. split; [|auto].
    rewrite steps_snoc. destruct (Nat.eqb_spec x t); [congruence|]. rewrite Z.add_0_r. auto. }
  destruct (Z.ltb_spec (x_pc th) n) as [LT|GE].
  2:{ assert (E0 : x_pc th = n) by lia. exists (tg, ths). split; auto. split; [exact W|]. split; [exact L|]. split; [|exact P]. cbn [fst snd]. intros t th' E.
      destruct (Nat.eq_dec x t) as [<-|NE].
      - assert (th' = th) by congruence. subst th'. split; [auto|]. split; [auto|]. split; [auto|]. split; [|auto]. rewrite steps_snoc, Nat.eqb_refl.
        specialize (PE E0). rewrite PE in *. cbn [ph_idx] in *. lia.
      - destruct (T t th' E) as (A1 & A2 & A3 & A4 & A5). split; [auto|]. split; [auto|]. split; [auto|]. split; [|auto].
        rewrite steps_snoc. destruct (Nat.eqb_spec x t); [congruence|]. rewrite Z.add_0_r. auto. }
  assert (LENV : len (x_val th) = n) by (apply wf_len; auto). assert (LENT : len tg = n) by (apply wf_len; auto).
  pose proof (wf_znth n (x_val th) (x_pc th) Wv) as Rv. pose proof (wf_znth n tg (x_pc th) W) as Rt.
  assert (STL : steps_of x s < 3 * n) by (destruct (x_ph th); cbn [ph_idx] in ST; lia).
  destruct (x_ph th) as [|b|old] eqn:EP; cbn [ph_idx] in ST.
  - rewrite aget_ok by lia. cbn [bind]. eexists. split; [reflexivity|]. split; [exact W|]. split; [cbn [snd]; rewrite set_nth_length; auto|]. cbn [fst snd]. split.
    + intros t th' E. destruct (Nat.eq_dec x t) as [<-|NE]; [|eauto]. rewrite set_nth_eq in E by auto. injection E as <-. split; [exact Wv|]. cbn [x_pc x_ph x_val].
      split; [lia|]. split; [lia|]. split; [rewrite steps_snoc, Nat.eqb_refl; cbn [ph_idx]; lia|]. split; [congruence|discriminate].
    + intros i Hi. rewrite (map_set (token i) ths x th) by (auto; unfold token; rewrite EP; reflexivity). auto.
  - specialize (SW b eq_refl). rewrite aget_ok, aset_ok by lia. cbn [bind]. eexists. split; [reflexivity|]. split; [apply wf_upd; auto; rewrite SW; auto|].
    split; [cbn [snd]; rewrite set_nth_length; auto|]. cbn [fst snd]. split.
    + intros t th' E. destruct (Nat.eq_dec x t) as [<-|NE]; [|eauto]. rewrite set_nth_eq in E by auto. injection E as <-. split; [exact Wv|]. cbn [x_pc x_ph x_val].
      split; [lia|]. split; [lia|]. split; [rewrite steps_snoc, Nat.eqb_refl; cbn [ph_idx]; lia|]. split; [discriminate|]. intros b' [= <-]. auto.
    + intros i Hi. destruct (Z.eq_dec i (x_pc th)) as [-> |NI].
      * rewrite znth_upd_eq by lia. etransitivity; [|apply P; exact Hi]. apply (perm_set (token (x_pc th)) ths x th); auto.
        -- unfold token. rewrite EP. auto.
        -- unfold token. cbn [x_ph x_pc]. rewrite Z.eqb_refl. reflexivity.
      * rewrite znth_upd_ne by lia. rewrite (map_set (token i) ths x th); auto. unfold token. cbn [x_ph x_pc x_val]. rewrite EP. replace (x_pc th =? i) with false by (symmetry; apply Z.eqb_neq; auto). reflexivity.
  - specialize (PT old eq_refl). rewrite aset_ok by lia. cbn [bind]. eexists. split; [reflexivity|]. split; [exact W|]. split; [cbn [snd]; rewrite set_nth_length; auto|]. cbn [fst snd]. split.
    + intros t th' E. destruct (Nat.eq_dec x t) as [<-|NE]; [|eauto]. rewrite set_nth_eq in E by auto. injection E as <-. split; [apply wf_upd; auto|]. cbn [x_pc x_ph x_val].
      split; [lia|]. split; [auto|]. split; [rewrite steps_snoc, Nat.eqb_refl; cbn [ph_idx]; lia|]. split; discriminate.
    + intros i Hi. rewrite (map_set (token i) ths x th); auto. unfold token. cbn [x_ph x_val]. rewrite EP. destruct (Z.eqb_spec (x_pc th) i) as [<-|NI]; [rewrite znth_upd_eq by lia; auto|rewrite znth_upd_ne by lia; auto].
Qed.
Lemma x_run n target values s : 0 <= n -> wf n target -> Forall (wf n) values ->
  exists st, run_schedule (exch_step n) s (target, map (fun v => mk_xthread v 0 XRead) values) = Ok st /\ x_inv n target values s st.
Proof.
  intros Hn W F. apply run_inv; [|intros; apply x_step; auto].
  split; [exact W|]. split; [cbn [snd]; apply map_length|]. cbn [fst snd]. split.
  - intros t th E. apply nth_error_In in E. apply in_map_iff in E. destruct E as (v & <- & Hv). rewrite Forall_forall in F. split; [apply F; auto|]. cbn [x_pc x_ph x_val steps_of ph_idx].
    split; [lia|]. split; [auto|]. split; [lia|]. split; discriminate.
  - intros i Hi. rewrite map_map. apply Permutation_refl.
Qed.

(** ** C122.  Any number of threads, any schedule that lets all of them finish: at every block position, the blocks of the
    target and of the arguments are afterwards a rearrangement of what they were: nothing is lost or duplicated. *)
Theorem C122_nothing_lost : forall n target values s, 1 <= n -> wf n target -> Forall (wf n) values -> all_finish (length values) (3 * n) s ->
  exists r vs, try_atomic_exchange n target values s = Ok (r, vs) /\ wf n r /\ Forall (wf n) vs /\ length vs = length values /\
    forall i, 0 <= i < n -> Permutation (znth r i :: map (fun v => znth v i) vs) (znth target i :: map (fun v => znth v i) values).
Proof.
  intros n target values s Hn W F AF. destruct (x_run n target values s ltac:(lia) W F) as ([r ths] & E & Wr & L & T & P). cbn [fst snd] in *.
  unfold try_atomic_exchange. rewrite E. cbn [bind]. exists r, (map x_val ths). split; [reflexivity|]. split; [exact Wr|].
  assert (D : forall th, In th ths -> x_ph th = XRead /\ wf n (x_val th)).
  { intros th HI. apply In_nth_error in HI. destruct HI as (t & Et). destruct (T t th Et) as (A1 & A2 & A3 & A4 & _). split; auto. apply A3.
    assert (t < length values)%nat by (rewrite <- L; apply nth_error_Some; congruence). specialize (AF t ltac:(auto)). destruct (x_ph th); cbn [ph_idx] in A4; lia. }
  conjs.
  - apply Forall_forall. intros v Hv. apply in_map_iff in Hv. destruct Hv as (th & <- & Hth). apply D; auto.
  - rewrite map_length. auto.
  - intros i Hi. specialize (P i Hi). rewrite map_map. erewrite map_ext_in; [exact P|]. intros th Hth. unfold token. rewrite (proj1 (D th Hth)). reflexivity.
Qed.
Print Assumptions C122_nothing_lost.
(** Alone, a call exchanges the two numbers. *)
Theorem C122_alone : forall n target value s, 1 <= n -> wf n target -> wf n value -> 3 * n <= steps_of 0 s ->
  try_atomic_exchange n target [value] s = Ok (value, [target]).
Proof.
  intros n target value s Hn W Wv HS.
  (* one thread: the invariant says which blocks are exchanged already *)
  set (Q := fun (s : list nat) (st : list Z * list xthread) => wf n (fst st) /\ exists th, snd st = [th] /\ th_ok n s 0 th /\
     (forall i, 0 <= i < n -> (i < x_pc th -> znth (fst st) i = znth value i /\ znth (x_val th) i = znth target i) /\
        (x_pc th < i -> znth (fst st) i = znth target i /\ znth (x_val th) i = znth value i)) /\
     (x_pc th < n -> match x_ph th with XRead => znth (fst st) (x_pc th) = znth target (x_pc th) /\ znth (x_val th) (x_pc th) = znth value (x_pc th)
        | XSwap b => znth (fst st) (x_pc th) = znth target (x_pc th) /\ b = znth value (x_pc th) /\ znth (x_val th) (x_pc th) = znth value (x_pc th)
        | XPut o => znth (fst st) (x_pc th) = znth value (x_pc th) /\ o = znth target (x_pc th) end)).
  assert (ST : forall s x st, Q s st -> exists st', exch_step n st x = Ok st' /\ Q (s ++ [x]) st').
  { clear s HS. intros s x [tg ths] (Wt & th & Eth & TH & BL & PH). cbn [fst snd] in *. subst ths.
    unfold exch_step. destruct x as [|x].
    2:{ replace (nth_error [th] (S x)) with (@None xthread) by (destruct x; reflexivity). exists (tg, [th]). split; auto. split; [exact Wt|]. exists th. split; [reflexivity|].
        destruct TH as (A1 & A2 & A3 & A4 & A5). split; [|auto]. split; [auto|]. split; [auto|]. split; [auto|]. split; [|auto]. rewrite steps_snoc. cbn [Nat.eqb]. rewrite Z.add_0_r. auto. }
    cbn [nth_error]. destruct TH as (Wx & PC & PE & SN & SW & PT). destruct (Z.ltb_spec (x_pc th) n) as [LT|GE].
    2:{ exists (tg, [th]). split; auto. split; [exact Wt|]. exists th. split; [reflexivity|]. split; [|auto]. split; [auto|]. split; [auto|]. split; [auto|]. split; [|auto].
        rewrite steps_snoc. cbn [Nat.eqb]. rewrite (PE ltac:(lia)) in *. cbn [ph_idx] in *. lia. }
    specialize (PH LT). assert (LENV : len (x_val th) = n) by (apply wf_len; auto). assert (LENT : len tg = n) by (apply wf_len; auto).
    pose proof (wf_znth n target (x_pc th) W) as Rt. pose proof (wf_znth n value (x_pc th) Wv) as Rv.
    assert (STL : steps_of 0 s < 3 * n) by (destruct (x_ph th); cbn [ph_idx] in SN; lia).
    assert (SS : steps_of 0 (s ++ [0%nat]) = steps_of 0 s + 1) by (rewrite steps_snoc; reflexivity).
    destruct (x_ph th) as [|b|old] eqn:EP; cbn [ph_idx] in SN.
    - rewrite aget_ok by lia. cbn [bind]. eexists. split; [reflexivity|]. split; [exact Wt|]. eexists. split; [reflexivity|]. cbn [fst x_pc x_ph x_val]. split; [|split; [exact BL|]].
      + split; [exact Wx|]. cbn [x_pc x_ph x_val ph_idx]. split; [lia|]. split; [lia|]. split; [lia|]. split; [congruence|discriminate].
      + intros _. destruct PH as [P1 P2]. auto.
    - destruct PH as (P1 & P2 & P3). rewrite aget_ok, aset_ok by lia. cbn [bind]. eexists. split; [reflexivity|]. split; [apply wf_upd; auto; rewrite P2; auto|]. eexists. split; [reflexivity|]. cbn [fst x_pc x_ph x_val]. split; [|split].
      + split; [exact Wx|]. cbn [x_pc x_ph x_val ph_idx]. split; [lia|]. split; [lia|]. split; [lia|]. split; [discriminate|]. intros b' [= <-]. rewrite P1. auto.
      + intros i Hi. destruct (Z.eq_dec i (x_pc th)) as [-> |NI]; [split; lia|]. rewrite !znth_upd_ne by lia. apply BL; auto.
      + intros _. rewrite znth_upd_eq by lia. split; [exact P2|exact P1].
    - destruct PH as (P1 & P2). rewrite aset_ok by lia. cbn [bind]. eexists. split; [reflexivity|]. split; [exact Wt|]. eexists. split; [reflexivity|]. cbn [fst x_pc x_ph x_val]. split; [|split].
      + split; [apply wf_upd; auto; rewrite P2; auto|]. cbn [x_pc x_ph x_val ph_idx]. split; [lia|]. split; [auto|]. split; [lia|]. split; discriminate.
      + intros i Hi. destruct (Z.eq_dec i (x_pc th)) as [-> |NI]; [rewrite znth_upd_eq by lia; split; [auto|lia]|]. rewrite znth_upd_ne by lia. destruct (BL i Hi) as [B1 B2]. split; intros; [apply B1; lia|apply B2; lia].
      + intros LT1. rewrite znth_upd_ne by lia. apply BL; lia. }
  destruct (run_inv (exch_step n) Q (target, map (fun v => mk_xthread v 0 XRead) [value])) with (s := s) as (st & E & Wt & th & Eth & TH & BL & _); [|exact ST|].
  { split; [exact W|]. eexists. split; [reflexivity|]. cbn [fst x_pc x_ph x_val]. split; [|split].
    - split; [exact Wv|]. cbn [x_pc x_ph x_val steps_of ph_idx]. split; [lia|]. split; [auto|]. split; [lia|]. split; discriminate.
    - intros i Hi. split; [lia|auto].
    - auto. }
  unfold try_atomic_exchange. rewrite E. cbn [bind]. destruct st as [tg ths]. cbn [fst snd] in *. subst ths. cbn [map].
  destruct TH as (Wx & PC & _ & SN & _). assert (x_pc th = n) by (destruct (x_ph th); cbn [ph_idx] in SN; lia).
  assert (LENV : len (x_val th) = n) by (apply wf_len; auto). assert (LENT : len tg = n) by (apply wf_len; auto). pose proof (wf_len _ _ W). pose proof (wf_len _ _ Wv).
  f_equal. f_equal; [|f_equal]; (apply list_ext_znth; [unfold len in *; lia|]; intros i Hi; apply BL; lia).
Qed.
Print Assumptions C122_alone.
(** The claim that a call exchanges two signed numbers: true of the values whenever the signs are equal, false otherwise
    (the argument keeps its sign). *)
Theorem C122_signed_partial : forall n target value, 1 <= n -> wf n (mag target) -> wf n (mag value) ->
  s_try_exchange_alone n target value = Ok (value, mk_aesi (sgn value) (mag target)) /\
  (mk_aesi (sgn value) (mag target) = target <-> sgn target = sgn value).
Proof.
  intros n target value Hn W Wv. unfold s_try_exchange_alone. rewrite C122_alone; auto.
  - cbn [bind]. destruct value as [sv mv], target as [st mt]; cbn [sgn mag]. split; [reflexivity|]. split; [intros [= ->]; auto|intros ->; auto].
  - assert (forall k, steps_of 0 (repeat 0%nat k) = Z.of_nat k) as ->; [|lia]. induction k; cbn [repeat steps_of Nat.eqb]; [reflexivity|]. lia.
Qed.
Print Assumptions C122_signed_partial.
Theorem C122_signed_refuted : exists target value r, sval target = -5 /\ sval value = 7 /\ s_try_exchange_alone 2 target value = Ok (value, r) /\ sval r = 5.
Proof. exists (mk_aesi SNeg [5; 0]), (mk_aesi SPos [7; 0]), (mk_aesi SPos [5; 0]). conjs; vm_compute; reflexivity. Qed.
Print Assumptions C122_signed_refuted.
(** Two threads exchanging [1;1] and [2;2] with [0;0], the second overtaking in the middle: blocks are mixed, none is lost. *)
Example C122_example : wf 2 [0; 0] /\ all_finish 2 6 ([0; 0]%nat ++ repeat 1%nat 6 ++ repeat 0%nat 4) /\
  try_atomic_exchange 2 [0; 0] [ [1; 1]; [2; 2] ] ([0; 0]%nat ++ repeat 1%nat 6 ++ repeat 0%nat 4) = Ok ([2; 1], [ [0; 2]; [1; 0] ]).
Proof.
  split; [apply wfb_wf; vm_compute; reflexivity|]. split; [|vm_compute; reflexivity].
  intros t Ht. destruct t as [|[|t]]; [vm_compute; discriminate|vm_compute; discriminate|lia].
Qed.
