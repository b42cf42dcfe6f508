(** * SThrExec: signed programs, one access at a time: swap, divide, whole programs; run alone they agree with [ProgModel.v]. *)
From Verif Require Import Lib AeuModel AesiModel AliasModel AliasFacts AliasSigned ProgSpec ProgModel ProgSigned ThrMonad ThrModel ThrFacts ThrStore ThrExec SThrModel SThrFacts.
From Coq Require Import ZifyBool.
Open Scope Z_scope.

Lemma var_ne i j : i <> j -> Var i <> Var j.
Proof. congruence. Qed.
(** [m_divide] on two stores whose objects have different names. *)
Section Rename.
Context (f : nat -> nat) (finj : forall i j, f i = f j -> i = j) (c0 : mem).
Definition ren (m bs : mem) : Prop := (forall i, m (Var (f i)) = bs (Var i)) /\ forall l, (forall i, l <> f i) -> m (Var l) = c0 (Var l).
Lemma ren_lock m bs d x y v : ren m bs -> refines m (Var (f d)) x v -> refines bs (Var d) y v -> osim ren x y.
Proof.
  unfold refines. intros [V O] H K. destruct x as [m1|], y as [b1|], v as [v|]; cbn [osim] in *; try contradiction; try congruence.
  destruct H as [E1 O1], K as [E2 O2]. split.
  - intros i. destruct (Nat.eq_dec i d) as [->|N]; [congruence|]. rewrite O1 by (intros E; injection E; auto). rewrite O2 by congruence. apply V.
  - intros l Hl. rewrite O1; auto. intros E. injection E. apply Hl.
Qed.
Lemma ren_update m bs d g : ren m bs -> osim ren (m_update m (Var (f d)) g) (m_update bs (Var d) g).
Proof.
  intros R. eapply ren_lock; [exact R|apply refines_update|]. rewrite (proj1 R). apply refines_update.
Qed.
Lemma ren_put m bs d v : ren m bs -> ren (mput m (Var (f d)) v) (mput bs (Var d) v).
Proof.
  intros R. assert (H : osim ren (Ok (mput m (Var (f d)) v)) (Ok (mput bs (Var d) v))); [|exact H].
  eapply ren_lock with (v := Ok v); [exact R| |]; (cbn; split; [apply mput_eq|intros; now apply mput_ne]).
Qed.
Lemma ren_same {A} (R : mem -> mem -> Prop) (x : outcome A) k1 k2 : (forall a, osim R (k1 a) (k2 a)) -> osim R (bind x k1) (bind x k2).
Proof. intros K. destruct x; cbn [bind osim]; auto. Qed.
Lemma ren_divide cfg n m bs nu de q r : 0 <= n -> ren m bs ->
  osim ren (m_divide cfg n m (Var (f nu)) (Var (f de)) (Var (f q)) (Var (f r))) (m_divide cfg n bs (Var nu) (Var de) (Var q) (Var r)).
Proof.
  intros Hn R. unfold m_divide. rewrite !(proj1 R). apply ren_same. intros c. cbv zeta.
  assert (R1 : ren (mput (mput m (Var (f q)) (aeu_zero n)) (Var (f r)) (aeu_zero n)) (mput (mput bs (Var q) (aeu_zero n)) (Var r) (aeu_zero n)))
    by (now apply ren_put, ren_put).
  set (m1 := mput (mput m _ _) _ _) in *. set (b1 := mput (mput bs _ _) _ _) in *. clearbody m1 b1. clear m bs R.
  assert (ONE : osim ren (one <- from_unsigned n (m1 (Var (f q))) 1 ;; Ok (mput m1 (Var (f q)) one)) (one <- from_unsigned n (b1 (Var q)) 1 ;; Ok (mput b1 (Var q) one))).
  { rewrite (proj1 R1). apply ren_same. intros one. now apply ren_put. }
  destruct c; auto.
  - unfold m_copy. rewrite (proj1 R1). now apply ren_put.
  - rewrite (proj1 R1). apply ren_same. intros k. unfold forD. apply simD with (P := ren); auto.
    clear m1 b1 R1 ONE. intros i m b R. eapply osim_bind; [apply (ren_update m b r (fun x => shl_assign n x 1)), R|].
    clear m b R. intros m b R. rewrite (proj1 R). apply ren_same. intros bit.
    eapply osim_bind; [apply (ren_update m b r (fun x => setBit cfg n x 0 bit)), R|].
    clear m b R. intros m b R. rewrite !(proj1 R). apply ren_same. intros []; [|exact R].
    eapply osim_bind.
    { eapply ren_lock; [exact R|exact (aeu_assign_refines cfg OSub n m (Var (f r)) (f de) Hn ltac:(discriminate))|].
      rewrite !(proj1 R). exact (aeu_assign_refines cfg OSub n b (Var r) de Hn ltac:(discriminate)). }
    clear m b R. intros m b R. apply (ren_update m b q (fun x => setBit cfg n x i true)), R.
Qed.
End Rename.

Section Ex.
Context (n : Z) (Hn : 1 <= n).
Definition ssame (m : mem) (sm : smem) : Prop := forall i, sobj m (Var i) = sm (Var i).
Definition salike {A} (x : outcome (A * mem)) (y : outcome smem) : Prop :=
  osim (fun r sm' => ssame (snd r) sm' /\ lens n (snd r)) x y.

Lemma slock {A} m sm d (c : act A) x y : gives n m (Var d) c m x ->
  osim (fun sm' v => sm' (Var d) = v /\ forall i, i <> d -> sm' (Var i) = sm (Var i)) y x -> ssame m sm -> salike (run_act c m) y.
Proof.
  unfold gives, salike. intros H K V. destruct (run_act c m) as [[a m1]|], y as [s2|], x as [v|]; cbn [osim snd] in *; try contradiction; try congruence.
  destruct H as (E1 & O1 & L1), K as [E2 O2]. split; auto. intros i. destruct (Nat.eq_dec i d) as [->|N]; [congruence|].
  rewrite O1 by congruence. rewrite O2 by auto. apply V.
Qed.
Lemma srel_var sm d y x : osim (srel sm (Var d)) y x -> osim (fun sm' v => sm' (Var d) = v /\ forall i, i <> d -> sm' (Var i) = sm (Var i)) y x.
Proof. intros H. eapply osim_mono; [exact H|]. intros s v [E O]. split; auto. intros. apply O; congruence. Qed.
Lemma sput_var (sm : smem) d x : osim (fun sm' v => sm' (Var d) = v /\ forall i, i <> d -> sm' (Var i) = sm (Var i)) (r <- x ;; Ok (sput sm (Var d) r)) x.
Proof. destruct x; cbn [bind osim]; auto. split; [apply sput_eq|]. intros. apply sput_ne. congruence. Qed.
Lemma salike_vg {A} m (c : act A) x (f : A -> act unit) (k : A -> outcome smem) :
  vgives m c x -> (forall a, x = Ok a -> salike (run_act (f a) m) (k a)) -> salike (run_act (abind c f) m) (bind x k).
Proof. intros H K. unfold salike. rewrite run_bind, H. destruct x; cbn [bind osim]; auto. now apply K. Qed.
Lemma salike_read {A} m (c : act A) r (f : A -> act unit) y : vgives m c (Ok r) -> salike (run_act (f r) m) y -> salike (run_act (abind c f) m) y.
Proof. intros H K. unfold salike. rewrite run_bind, H. exact K. Qed.
Lemma salike_bind {A} (c : act A) m y (f : A -> act unit) k : salike (run_act c m) y ->
  (forall a m1 s1, ssame m1 s1 -> lens n m1 -> salike (run_act (f a) m1) (k s1)) ->
  salike (run_act (abind c f) m) (bind y k).
Proof. unfold salike. intros H K. rewrite run_bind. eapply osim_bind; [exact H|]. intros [a m1] m2 [V L]. now apply K. Qed.
Lemma salike_eq {A} (x : outcome (A * mem)) y z : salike x y -> y = z -> salike x z.
Proof. now intros H <-. Qed.

Lemma salike_sign m sm x s : ssame m sm -> lens n m -> salike (run_act (t_sign (Var x) s) m) (Ok (sput_sign sm (Var x) s)).
Proof.
  intros V L. eapply slock; [apply (g_sign n Hn), (on_self n _ _ L)| |exact V]. rewrite V. apply srel_var. cbn. apply srel_sign.
Qed.
Lemma salike_fix m sm x : ssame m sm -> lens n m -> salike (run_act (t_fix_zero n (Var x)) m) (ms_fix_zero n sm (Var x)).
Proof.
  intros V L. eapply slock; [apply (g_fix_zero n Hn), (on_self n _ _ L)| |exact V]. rewrite V. apply srel_var, ms_fix_zero_frame, srel_refl.
Qed.
Lemma salike_swap m sm a b : ssame m sm -> lens n m -> salike (run_act (t_sswap n (Var a) (Var b)) m) (Ok (ms_swap sm (Var a) (Var b))).
Proof.
  intros V L. unfold t_sswap, ms_swap.
  match goal with |- salike ?x ?y => change (salike x (bind (Ok (sgn (sm (Var a)))) (fun t => bind (Ok (sgn (sm (Var b)))) (fun s =>
     bind (Ok (sput_sign sm (Var a) s)) (fun m => bind (Ok (sput_sign m (Var b) t)) (fun m => Ok (put_bases m (m_swap (bases m) (Var a) (Var b)))))))) ) end.
  apply salike_vg; [rewrite <- V; now apply (sign_gives n Hn)|]. intros t _.
  apply salike_vg; [rewrite <- V; now apply (sign_gives n Hn)|]. intros s _.
  apply salike_bind; [now apply salike_sign|]. clear m sm V L. intros _ m sm V L.
  apply salike_bind; [now apply salike_sign|]. clear m sm V L. intros _ m sm V L.
  pose proof (t_swap_gives n m m (2 * a)%nat (2 * b)%nat ltac:(lia) L (fun i => eq_refl)) as H. unfold alike in H. unfold salike.
  cbn [mag_at]. destruct (run_act (t_swap _ _ _) m) as [[[] m1]|] eqn:E; cbn [osim snd] in *; [|contradiction]. destruct H as [H L1].
  split; auto. intros i. unfold put_bases.
  destruct (m_swap_spec m (Var (2 * a)) (Var (2 * b))) as (S1 & S2 & S3); try discriminate.
  destruct (m_swap_spec (bases sm) (Var a) (Var b)) as (B1 & B2 & B3); try discriminate.
  assert (G : forall j, bases sm (Var j) = m (Var (2 * j))) by (intros j; unfold bases; rewrite <- V; reflexivity).
  rewrite <- V. unfold sobj. cbn [sign_at mag_at sgn]. rewrite !H. rewrite (S3 (Var (2 * i + 1))) by (discriminate || (apply var_ne; lia)). f_equal.
  destruct (Nat.eq_dec i a) as [->|Na]; [rewrite S1, B1; now rewrite G|].
  destruct (Nat.eq_dec i b) as [->|Nb]; [rewrite S2, B2; now rewrite G|].
  rewrite S3 by (discriminate || (apply var_ne; lia)). rewrite B3 by congruence. now rewrite G.
Qed.
Lemma salike_divide cfg m sm nu de q r : ssame m sm -> lens n m ->
  salike (run_act (t_divide cfg n (mag_at (Var nu)) (mag_at (Var de)) (mag_at (Var q)) (mag_at (Var r))) m)
    (on_bases sm (fun bs => m_divide cfg n bs (Var nu) (Var de) (Var q) (Var r))).
Proof.
  intros V L. cbn [mag_at]. unfold on_bases, salike.
  pose proof (t_divide_gives cfg n m m (2 * nu) (2 * de) (2 * q) (2 * r) ltac:(lia) (fun i => eq_refl) L) as H. unfold alike in H.
  pose proof (ren_divide (fun i => 2 * i)%nat ltac:(cbv beta; lia) m cfg n m (bases sm) nu de q r ltac:(lia)) as K. cbv beta in K.
  assert (R : ren (fun i => 2 * i)%nat m m (bases sm)). { split; auto. intros i. unfold bases. rewrite <- V. reflexivity. }
  specialize (K R). clear R.
  destruct (run_act _ m) as [[[] m1]|], (m_divide cfg n m _ _ _ _) as [m2|], (m_divide cfg n (bases sm) _ _ _ _) as [b2|];
    cbn [osim snd bind] in *; try contradiction; try congruence.
  destruct H as [H1 L1], K as [K1 K2]. split; auto. intros i. unfold put_bases. rewrite <- V. unfold sobj. cbn [sign_at mag_at sgn]. rewrite !H1.
  rewrite (K2 (2 * i + 1)%nat) by (intros j; lia). rewrite <- K1. reflexivity.
Qed.
Lemma salike_sdivide cfg m sm nu de q r : ssame m sm -> lens n m ->
  salike (run_act (t_sdivide cfg n (Var nu) (Var de) (Var q) (Var r)) m) (ms_divide cfg n sm (Var nu) (Var de) (Var q) (Var r)).
Proof.
  intros V L. unfold t_sdivide, ms_divide.
  assert (SG : forall x, vgives m (v_sign (Var x)) (Ok (sgn (sm (Var x))))) by (intros x; rewrite <- V; now apply (sign_gives n Hn)).
  assert (Z1 : vgives m (if sign_eqb (sgn (sm (Var nu))) SZero then Ret true else ds <~ v_sign (Var de) ;; Ret (sign_eqb ds SZero))
     (Ok (sign_eqb (sgn (sm (Var nu))) SZero || sign_eqb (sgn (sm (Var de))) SZero))).
  { destruct (sign_eqb (sgn (sm (Var nu))) SZero); [apply vg_ret|]. cbn [orb].
    apply (vg_bind m (v_sign (Var de)) (Ok (sgn (sm (Var de)))) (fun ds => Ret (sign_eqb ds SZero)) (fun ds => Ok (sign_eqb ds SZero))); [apply SG|].
    intros. apply vg_ret. }
  eapply salike_read; [apply SG|]. eapply salike_read; [exact Z1|]. clear Z1.
  destruct (sign_eqb (sgn (sm (Var nu))) SZero || sign_eqb (sgn (sm (Var de))) SZero).
  - eapply salike_eq; [apply salike_bind; [now apply salike_sign|]|].
    + intros _ m1 s1 V1 L1. apply salike_sign; eauto.
    + reflexivity.
  - apply salike_bind; [now apply salike_divide|]. clear m sm V L SG. intros _ m sm V L.
    assert (SG : forall x, vgives m (v_sign (Var x)) (Ok (sgn (sm (Var x))))) by (intros x; rewrite <- V; now apply (sign_gives n Hn)).
    set (ns := sgn (sm (Var nu))) in *. set (ds := sgn (sm (Var de))) in *.
    fold ns ds.
    match goal with |- salike ?x _ => apply (salike_eq x (bind (Ok (sput_sign (sput_sign sm (Var q)
        (if sign_eqb ns SPos then (if sign_eqb ds SPos then SPos else SNeg) else (if sign_eqb ds SPos then SNeg else SPos)))
        (Var r) (if sign_eqb ns SPos then SPos else SNeg))) (fun m => m <- ms_fix_zero n m (Var q) ;; ms_fix_zero n m (Var r)))); [|destruct ns, ds; reflexivity] end.
    cbn [bind].
    eapply salike_read; [apply SG|]. eapply salike_read; [apply SG|].
    eapply salike_eq; [apply salike_bind; [now apply salike_sign|]|].
    + intros _ m1 s1 V1 L1. eapply salike_eq; [apply salike_bind; [now apply salike_sign|]|].
      * intros _ m2 s2 V2 L2. apply salike_bind; [now apply salike_fix|]. intros _ m3 s3 V3 L3. now apply salike_fix.
      * reflexivity.
    + reflexivity.
Qed.

Theorem stexec_alike cfg m sm i : ssame m sm -> lens n m -> salike (run_act (stexec cfg n i) m) (sexec cfg n sm i).
Proof.
  intros V L.
  assert (UP : forall d c (f : aesi -> outcome aesi), gives n m (Var d) c m (f (sobj m (Var d))) -> salike (run_act (c : act unit) m) (ms_update sm (Var d) f)).
  { intros d c f H. eapply slock; [exact H| |exact V]. rewrite V. apply srel_var, ms_update_frame. }
  assert (PUT : forall d c x, gives n m (Var d) c m x -> salike (run_act (c : act unit) m) (r <- x ;; Ok (sput sm (Var d) r))).
  { intros d c x H. eapply slock; [exact H| |exact V]. apply sput_var. }
  destruct i; cbn [stexec sexec].
  - eapply slock; [eapply (g_scopy n Hn), (on_self n _ _ L)| |exact V]. rewrite V. apply srel_var. cbn. apply srel_put.
  - apply UP. apply (g_put_val n Hn); auto. apply (s_from_int_len n Hn).
  - eapply slock; [apply (g_sop n Hn cfg o m (Var d) (Var s)), L| |exact V]. rewrite !V. apply srel_var.
    apply aesi_assign_frame; try discriminate. lia.
  - eapply slock; [apply (g_sbinary n Hn cfg o m d a b), L| |exact V]. rewrite !V.
    apply aesi_binary_frame. lia.
  - apply UP. now apply (g_sinc n Hn).
  - apply UP. now apply (g_sdec n Hn).
  - rewrite <- (V s). apply PUT. now apply (g_snegate n Hn).
  - eapply slock; [apply (g_inverse n Hn), (on_self n _ _ L)| |exact V]. rewrite V. apply srel_var. cbn. apply srel_sign.
  - apply (UP d _ (fun x => s_mul_assign_int cfg n t x v)). now apply (g_smul_int n Hn).
  - apply (UP d _ (fun x => s_div_assign_int cfg n t x v)). now apply (g_sdiv_int n Hn).
  - now apply salike_swap.
  - now apply salike_sdivide.
  - rewrite <- (V a). apply PUT. now apply (g_ssqrt n Hn).
  - apply PUT. apply (g_put_val n Hn); auto. apply (s_power2_len n Hn).
Qed.
Lemma v_scompareTo_gives cfg m sm a b : ssame m sm -> lens n m ->
  vgives m (v_scompareTo cfg n (Var a) (Var b)) (s_compareTo cfg n (sm (Var a)) (sm (Var b))).
Proof.
  intros V L. rewrite <- !V. unfold v_scompareTo, s_compareTo, s_isZero, s_isNegative.
  assert (SG : forall x, vgives m (v_sign x) (Ok (sgn (sobj m x)))) by (intros x; now apply (sign_gives n Hn)).
  assert (RD : forall (B : Type) x (k : sign_t -> act B) y, vgives m (k (sgn (sobj m x))) y -> vgives m (abind (v_sign x) k) y).
  { intros B x k y H. unfold vgives. rewrite run_bind, SG. cbn [bind]. exact H. }
  assert (CMP : vgives m (v_compareTo cfg n (base_ (Var a)) (base_ (Var b))) (compareTo cfg n n (mag (sobj m (Var a))) (mag (sobj m (Var b)))))
    by (apply v_compareTo_gives; apply base_reads).
  apply RD. destruct (sign_eqb (sgn (sobj m (Var b))) SZero); [apply RD, vg_ret|].
  apply RD. destruct (sign_eqb (sgn (sobj m (Var b))) SNeg); apply RD.
  - destruct (sign_eqb (sgn (sobj m (Var a))) SNeg); [|apply vg_ret]. apply vg_bind; [exact CMP|]. intros. apply vg_ret.
  - destruct (sign_eqb (sgn (sobj m (Var a))) SPos); [exact CMP|apply vg_ret].
Qed.
Theorem sttest_gives cfg m sm c : ssame m sm -> lens n m -> vgives m (sttest cfg n c) (stest cfg n sm c).
Proof.
  intros V L.
  assert (EQ : forall a b, vgives m (v_seq cfg n (Var a) (Var b)) (s_eq cfg n n (sm (Var a)) (sm (Var b)))).
  { intros a b. unfold v_seq, s_eq. rewrite Z.eqb_refl. apply vg_bind; [now apply v_scompareTo_gives|]. intros. apply vg_ret. }
  assert (REL : forall a b f, vgives m (v_srel cfg n (Var a) (Var b) f) (o <- s_spaceship cfg n n (sm (Var a)) (sm (Var b)) ;; Ok (f o))).
  { intros a b f. unfold v_srel, s_spaceship, s_compareTo_x. rewrite Z.eqb_refl. unfold vgives. rewrite run_bind, (v_scompareTo_gives cfg m sm a b V L).
    destruct (s_compareTo _ _ _ _); reflexivity. }
  assert (SG : forall a t, vgives m (s <~ v_sign (Var a) ;; Ret (sign_eqb s t)) (Ok (sign_eqb (sgn (sm (Var a))) t))).
  { intros a t. unfold vgives. rewrite run_bind, (sign_gives n Hn m (Var a) L). rewrite V. reflexivity. }
  destruct c; cbn [sttest stest]; try apply REL; try apply SG; auto.
  unfold s_ne. apply vg_bind; [apply EQ|]. intros. apply vg_ret.
Qed.
Theorem strun_alike cfg : forall fuel p m sm, ssame m sm -> lens n m -> salike (run_act (strun cfg n fuel p) m) (srun cfg n fuel p sm).
Proof.
  unfold srun. induction fuel as [|f IH]; intros p m sm V L; cbn [strun run]; [reflexivity|].
  destruct p as [|i|s t|c s t|c s].
  - now split.
  - now apply stexec_alike.
  - apply salike_bind; [now apply IH|]. intros _ m1 m2 V1 L1. now apply IH.
  - apply salike_vg; [now apply sttest_gives|]. intros [] _; now apply IH.
  - apply salike_vg; [now apply sttest_gives|]. intros [] _; [|now split].
    apply salike_bind; [now apply IH|]. intros _ m1 m2 V1 L1. now apply IH.
Qed.
End Ex.
