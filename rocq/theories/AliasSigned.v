(** * AliasSigned: the store model of [Aesi] refines the by-value model for every sharing of operands. *)
From Verif Require Import Spec Lib AeuModel AeuArith AeuBits AeuAccess AeuDiv AeuFacts AesiModel AesiArith AesiFacts AliasModel AliasFacts.
Open Scope Z_scope.

Lemma aesi_eta x : mk_aesi (sgn x) (mag x) = x.
Proof. destruct x; reflexivity. Qed.

(** New contents of [a], every other variable untouched. *)
Definition srel (m : smem) (a : loc) (m' : smem) (d : aesi) : Prop :=
  m' a = d /\ forall l, l <> a -> (forall k, l <> Tmp k) -> m' l = m l.

Lemma on_bases_frame m a f y :
  osim (fun b' d => b' a = d /\ forall l, l <> a -> l <> Tmp 0 -> b' l = bases m l) (f (bases m)) y ->
  osim (srel m a) (on_bases m f) (d <- y ;; Ok (mk_aesi (sgn (m a)) d)).
Proof.
  unfold on_bases. intros H. eapply osim_bind. exact H. intros b' d [E O]. cbn. split.
  - unfold put_bases. now rewrite E.
  - intros l H1 H2. unfold put_bases. rewrite O by auto. apply aesi_eta.
Qed.

Lemma srel_refl m a : srel m a m (m a).
Proof. split; auto. Qed.
Lemma srel_sign m a s : srel m a (sput_sign m a s) (with_sign (m a) s).
Proof. unfold sput_sign. split; [apply sput_eq | intros; now apply sput_ne]. Qed.
Lemma srel_put m a v : srel m a (sput m a v) v.
Proof. split; [apply sput_eq | intros; now apply sput_ne]. Qed.

Lemma ms_rsub_frame n m a b s : 0 <= n -> (forall k, (k <= 3)%nat -> a <> Tmp k) -> (forall k, (k <= 3)%nat -> b <> Tmp k) ->
  osim (srel m a) (ms_rsub n m a b s) (r <- op_sub n (mag (m b)) (mag (m a)) ;; Ok (mk_aesi s r)).
Proof.
  intros Hn Ha Hb. unfold ms_rsub, on_bases. cbv beta.
  pose proof (m_sub_assign_frame n (m_copy (bases m) (Tmp 3) b) (Tmp 3) a Hn ltac:(discriminate)) as H.
  unfold m_copy in H at 1 3. rewrite mput_eq in H.
  assert (E : m_copy (bases m) (Tmp 3) b a = mag (m a)) by (unfold m_copy; rewrite mput_ne by auto; reflexivity).
  rewrite E in H. unfold op_sub. unfold bases in *.
  destruct (m_sub_assign _ _ _ _) as [m'|], (sub_assign _ _ _) as [d|]; cbn in *; auto.
  destruct H as [H _]. unfold sput_sign, sput_base. split.
  - rewrite !sput_eq. cbn. now rewrite H.
  - intros l N T. now rewrite !sput_ne by auto.
Qed.

Lemma sign_eqb_spec a b : reflect (a = b) (sign_eqb a b).
Proof. destruct a, b; cbn; constructor; congruence. Qed.

Lemma ms_add_assign_frame cfg n m a b : 0 <= n -> (forall k, (k <= 3)%nat -> a <> Tmp k) -> (forall k, (k <= 3)%nat -> b <> Tmp k) ->
  osim (srel m a) (ms_add_assign cfg n m a b) (s_add_assign cfg n (m a) (m b)).
Proof.
  intros Hn Ha Hb. unfold ms_add_assign, s_add_assign.
  assert (AD : osim (srel m a) (on_bases m (fun bs => m_add_assign n bs a b))
                 (r <- add_assign n (mag (m a)) (mag (m b)) ;; Ok (with_mag (m a) r))).
  { apply on_bases_frame. eapply osim_mono. apply m_add_assign_frame; auto. intros ? ? [? O]. auto. }
  assert (SU : osim (srel m a) (on_bases m (fun bs => m_sub_assign n bs a b))
                 (r <- sub_assign n (mag (m a)) (mag (m b)) ;; Ok (with_mag (m a) r))).
  { apply on_bases_frame. eapply osim_mono. apply m_sub_assign_frame; auto. auto. }
  destruct (sgn (m b)) eqn:Sb; cbn [sign_eqb]; [apply srel_refl| | ]; destruct (sgn (m a)) eqn:Sa; cbn [sign_eqb];
    try (unfold ms_copy; apply srel_put); auto.
  - eapply osim_bind. apply osim_refl. intros c ? <-. destruct c; cbn [osim]; auto using srel_sign.
    now apply ms_rsub_frame.
  - eapply osim_bind. apply osim_refl. intros c ? <-. destruct c; cbn [osim]; auto using srel_sign.
    now apply ms_rsub_frame.
Qed.

Lemma ms_sub_assign_frame cfg n m a b : 0 <= n -> (forall k, (k <= 3)%nat -> a <> Tmp k) -> (forall k, (k <= 3)%nat -> b <> Tmp k) ->
  osim (srel m a) (ms_sub_assign cfg n m a b) (s_sub_assign cfg n (m a) (m b)).
Proof.
  intros Hn Ha Hb. unfold ms_sub_assign, s_sub_assign.
  assert (AD : osim (srel m a) (on_bases m (fun bs => m_add_assign n bs a b))
                 (r <- add_assign n (mag (m a)) (mag (m b)) ;; Ok (with_mag (m a) r))).
  { apply on_bases_frame. eapply osim_mono. apply m_add_assign_frame; auto. intros ? ? [? O]. auto. }
  assert (SU : osim (srel m a) (on_bases m (fun bs => m_sub_assign n bs a b))
                 (r <- sub_assign n (mag (m a)) (mag (m b)) ;; Ok (with_mag (m a) r))).
  { apply on_bases_frame. eapply osim_mono. apply m_sub_assign_frame; auto. auto. }
  assert (IN : srel m a (ms_inverse (ms_copy m a b) a) (s_inverse (m b))).
  { unfold ms_inverse, ms_copy, sput_sign. split.
    - rewrite !sput_eq. reflexivity.
    - intros. now rewrite !sput_ne by auto. }
  destruct (sgn (m b)) eqn:Sb; cbn [sign_eqb]; [apply srel_refl| | ]; destruct (sgn (m a)) eqn:Sa; cbn [sign_eqb];
    auto.
  - eapply osim_bind. apply osim_refl. intros c ? <-. destruct c; cbn [osim]; auto using srel_sign.
    now apply ms_rsub_frame.
  - eapply osim_bind. apply osim_refl. intros c ? <-. destruct c; cbn [osim]; auto using srel_sign.
    now apply ms_rsub_frame.
Qed.

(** The effect of [if (factor.isNegative()) a.inverse();] *)
Lemma ms_neg_frame m a (neg : bool) :
  let m1 := if neg then ms_inverse m a else m in
  srel m a m1 (if neg then s_inverse (m a) else m a) /\ forall l, mag (m1 l) = mag (m l).
Proof.
  destruct neg; cbv zeta; split; auto using srel_refl.
  - unfold ms_inverse. apply srel_sign.
  - intros l. unfold ms_inverse, sput_sign, sput. destruct (loc_eqb_spec l a) as [->|]; reflexivity.
Qed.

Lemma mag_inverse x : mag (s_inverse x) = mag x. Proof. destruct x; reflexivity. Qed.

Lemma mag_cond (neg : bool) x : mag (if neg then s_inverse x else x) = mag x.
Proof. destruct neg; auto using mag_inverse. Qed.
Lemma on_bases_frame1 m0 m a x f y :
  srel m0 a m x ->
  osim (fun b' d => b' a = d /\ forall l, l <> a -> l <> Tmp 0 -> b' l = bases m l) (f (bases m)) y ->
  osim (srel m0 a) (on_bases m f) (d <- y ;; Ok (with_mag x d)).
Proof.
  intros [E O] H. unfold with_mag. rewrite <- E. eapply osim_mono. apply on_bases_frame; eauto.
  intros m1 d [E1 O1]. split; auto. intros. rewrite O1 by auto. auto.
Qed.

Lemma ms_mul_assign_frame n m a b :
  osim (srel m a) (ms_mul_assign n m a b) (s_mul_assign n (m a) (m b)).
Proof.
  unfold ms_mul_assign, s_mul_assign. destruct (s_isZero (m b)). apply srel_sign. cbv zeta.
  destruct (ms_neg_frame m a (s_isNegative (m b))) as [H1 H2].
  apply on_bases_frame1; auto.
  rewrite mag_cond, <- !H2. eapply osim_mono. apply m_mul_assign_frame. intros ? ? [? O]. auto.
Qed.

Lemma ms_fix_zero_frame n m0 m a x : srel m0 a m x -> osim (srel m0 a) (ms_fix_zero n m a) (s_fix_zero n x).
Proof.
  intros [E O]. unfold ms_fix_zero, s_fix_zero. rewrite E. eapply osim_bind. apply osim_refl. intros z ? <-.
  cbn. destruct z; [|split; auto]. destruct (srel_sign m a SZero) as [E1 O1]. split.
  - rewrite E1, E. reflexivity.
  - intros. rewrite O1 by auto. auto.
Qed.

Lemma ms_div_assign_frame cfg n m a b : 0 <= n -> (forall k, (k <= 3)%nat -> a <> Tmp k) -> (forall k, (k <= 3)%nat -> b <> Tmp k) ->
  osim (srel m a) (ms_div_assign cfg n m a b) (s_div_assign cfg n (m a) (m b)).
Proof.
  intros Hn Ha Hb. unfold ms_div_assign, s_div_assign. destruct (s_isZero (m b)). apply srel_sign. cbv zeta.
  destruct (ms_neg_frame m a (s_isNegative (m b))) as [H1 H2].
  rewrite mag_cond.
  set (m1 := if s_isNegative (m b) then ms_inverse m a else m) in *. set (x := if s_isNegative (m b) then s_inverse (m a) else m a) in *.
  pose proof (on_bases_frame1 m m1 a x (fun bs => m_div_assign cfg n bs a b) (div_assign cfg n (mag (m a)) (mag (m b))) H1) as H.
  cbv beta in H.
  assert (HH : osim (srel m a) (on_bases m1 (fun bs => m_div_assign cfg n bs a b))
    (d <- div_assign cfg n (mag (m a)) (mag (m b)) ;; Ok (with_mag x d))).
  { apply H. rewrite <- !H2. eapply osim_mono. apply m_div_assign_frame; auto. intros ? ? [? O]. auto. }
  destruct (div_assign _ _ _ _) as [q|]; cbn [bind] in *; destruct (on_bases _ _); cbn [bind osim] in *; auto; try tauto.
  now apply ms_fix_zero_frame.
Qed.

Lemma ms_mod_assign_frame cfg n m a b : 0 <= n -> (forall k, (k <= 3)%nat -> a <> Tmp k) -> (forall k, (k <= 3)%nat -> b <> Tmp k) ->
  osim (srel m a) (ms_mod_assign cfg n m a b) (s_mod_assign cfg n (m a) (m b)).
Proof.
  intros Hn Ha Hb. unfold ms_mod_assign, s_mod_assign. destruct (s_isZero (m b)). apply srel_refl. cbv zeta.
  destruct (ms_neg_frame m a (s_isNegative (m b))) as [H1 H2].
  rewrite mag_cond.
  set (m1 := if s_isNegative (m b) then ms_inverse m a else m) in *. set (x := if s_isNegative (m b) then s_inverse (m a) else m a) in *.
  pose proof (on_bases_frame1 m m1 a x (fun bs => m_mod_assign cfg n bs a b) (mod_assign cfg n (mag (m a)) (mag (m b))) H1) as H.
  cbv beta in H.
  assert (HH : osim (srel m a) (on_bases m1 (fun bs => m_mod_assign cfg n bs a b))
    (d <- mod_assign cfg n (mag (m a)) (mag (m b)) ;; Ok (with_mag x d))).
  { apply H. rewrite <- !H2. eapply osim_mono. apply m_mod_assign_frame; auto. intros ? ? [? O]. auto. }
  destruct (mod_assign _ _ _ _) as [q|]; cbn [bind] in *; destruct (on_bases _ _); cbn [bind osim] in *; auto; try tauto.
  now apply ms_fix_zero_frame.
Qed.

Lemma ms_update_frame m a f : osim (srel m a) (ms_update m a f) (f (m a)).
Proof. unfold ms_update. destruct (f (m a)); cbn; auto. apply srel_put. Qed.

Lemma ms_swap_spec m a b : (forall k, (k <= 3)%nat -> a <> Tmp k) -> (forall k, (k <= 3)%nat -> b <> Tmp k) ->
  ms_swap m a b a = m b /\ ms_swap m a b b = m a /\
  (forall l, l <> a -> l <> b -> (forall k, l <> Tmp k) -> ms_swap m a b l = m l).
Proof.
  intros Ha Hb. unfold ms_swap. set (m2 := sput_sign _ b _).
  destruct (m_swap_spec (bases m2) a b (Ha 0%nat ltac:(lia)) (Hb 0%nat ltac:(lia))) as (S1 & S2 & S3).
  assert (B : forall l, mag (m2 l) = mag (m l)).
  { intros l. subst m2. unfold sput_sign, sput. destruct (loc_eqb_spec l b) as [->|].
    - cbn. destruct (loc_eqb_spec b a) as [->|]; reflexivity.
    - destruct (loc_eqb_spec l a) as [->|]; reflexivity. }
  unfold put_bases. rewrite S1, S2. unfold bases. rewrite !B.
  assert (E1 : sgn (m2 b) = sgn (m a)) by (subst m2; unfold sput_sign; now rewrite sput_eq).
  assert (E2 : sgn (m2 a) = sgn (m b)).
  { destruct (loc_eqb_spec a b) as [->|N]. auto.
    subst m2. unfold sput_sign. rewrite sput_ne by auto. now rewrite sput_eq. }
  rewrite E1, E2, !aesi_eta. split; auto. split; auto. intros l N1 N2 T. rewrite S3 by auto.
  unfold bases. rewrite B. replace (sgn (m2 l)) with (sgn (m l)). apply aesi_eta.
  subst m2. unfold sput_sign. now rewrite !sput_ne by auto.
Qed.

(** divide with outputs distinct from the inputs and from each other *)
Lemma ms_divide_distinct cfg n m nu de q r : 0 <= n ->
  q <> nu -> q <> de -> r <> nu -> r <> de -> q <> r ->
  (forall k, (k <= 3)%nat -> nu <> Tmp k) -> (forall k, (k <= 3)%nat -> de <> Tmp k) -> (forall k, (k <= 3)%nat -> q <> Tmp k) -> (forall k, (k <= 3)%nat -> r <> Tmp k) ->
  osim (fun m' d => m' q = fst d /\ m' r = snd d /\
          forall l, l <> q -> l <> r -> (forall k, l <> Tmp k) -> m' l = m l)
       (ms_divide cfg n m nu de q r) (s_divide cfg n (m nu) (m de) (m q) (m r)).
Proof.
  intros Hn H1 H2 H3 H4 H5 T1 T2 T3 T4. unfold ms_divide, s_divide, s_isZero.
  assert (nu <> q /\ de <> q /\ nu <> r /\ de <> r /\ r <> q) as (S1 & S2 & S3 & S4 & S5) by auto.
  destruct (sign_eqb (sgn (m nu)) SZero || sign_eqb (sgn (m de)) SZero) eqn:Z0.
  { cbn. unfold sput_sign. split; [|split].
    - rewrite sput_ne by auto. rewrite sput_eq. reflexivity.
    - rewrite sput_eq. now rewrite sput_ne by auto.
    - intros. now rewrite !sput_ne by auto. }
  unfold on_bases.
  pose proof (m_divide_distinct cfg n (bases m) nu de q r Hn H1 H2 H3 H4 H5 (T1 0%nat ltac:(lia)) (T2 0%nat ltac:(lia)) (T3 0%nat ltac:(lia)) (T4 0%nat ltac:(lia))) as HD.
  unfold bases at 3 4 in HD.
  destruct (m_divide _ _ _ _ _ _ _) as [b'|], (divide _ _ _ _) as [ [qv rv]|]; cbn [bind osim] in *; auto; try tauto.
  destruct HD as (Eq & Er & O). cbn [fst snd] in *.
  replace (sgn (put_bases m b' nu)) with (sgn (m nu)) by reflexivity.
  replace (sgn (put_bases m b' de)) with (sgn (m de)) by reflexivity.
  set (qs := match sgn (m nu) with SPos => match sgn (m de) with SPos => SPos | _ => SNeg end
                        | _ => match sgn (m de) with SPos => SNeg | _ => SPos end end).
  set (rs := match sgn (m nu) with SPos => SPos | _ => SNeg end).
  match goal with |- osim _ (bind (ms_fix_zero n ?M q) _) _ => set (mm := M) end.
  assert (EM : mm = sput_sign (sput_sign (put_bases m b') q qs) r rs).
  { subst mm qs rs. destruct (sgn (m nu)), (sgn (m de)); reflexivity. }
  match goal with |- osim _ _ (let '(a, b) := ?P in _) => replace P with (qs, rs) end.
  2:{ subst qs rs. destruct (sgn (m nu)), (sgn (m de)); reflexivity. }
  rewrite EM. clearbody qs rs. clear EM mm.
  set (mm := sput_sign (sput_sign (put_bases m b') q qs) r rs).
  assert (Mq : mm q = mk_aesi qs qv).
  { subst mm. unfold sput_sign. rewrite sput_ne by auto. rewrite sput_eq. cbn. now rewrite Eq. }
  assert (Mr : mm r = mk_aesi rs rv).
  { subst mm. unfold sput_sign. rewrite sput_eq, sput_ne by auto. cbn. now rewrite Er. }
  assert (Mo : forall l, l <> q -> l <> r -> (forall k, l <> Tmp k) -> mm l = m l).
  { intros l N1 N2 T. subst mm. unfold sput_sign. rewrite !sput_ne by auto. unfold put_bases. rewrite O by auto. apply aesi_eta. }
  clearbody mm. unfold ms_fix_zero. rewrite Mq. cbn [mag].
  destruct (isZero n qv) as [qz|]; cbn [bind osim]; auto.
  assert (EE : (if qz then sput_sign mm q SZero else mm) r = mk_aesi rs rv).
  { destruct qz; auto. unfold sput_sign. now rewrite sput_ne by auto. }
  rewrite EE. cbn [mag]. destruct (isZero n rv) as [rz|]; cbn [bind osim fst snd]; auto.
  split; [|split].
  - destruct rz, qz; unfold sput_sign; rewrite ?(sput_ne _ r _ q) by auto; rewrite ?sput_eq, ?Mq; reflexivity.
  - destruct rz, qz; unfold sput_sign; rewrite ?sput_eq, ?(sput_ne _ q _ r) by auto; rewrite ?Mr; reflexivity.
  - intros l N1 N2 T. destruct rz, qz; unfold sput_sign; rewrite ?sput_ne by auto; auto.
Qed.
