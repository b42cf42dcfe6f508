(** * AliasFacts: the store models refine the by-value models for every sharing of operands. *)
From Verif Require Import Spec Lib AeuModel AeuArith AeuBits AeuAccess AeuDiv AeuFacts AesiModel AesiArith AesiFacts AliasModel.
Open Scope Z_scope.

Lemma loc_eqb_spec a b : reflect (a = b) (loc_eqb a b).
Proof.
  destruct a as [i|i], b as [j|j]; cbn; try (constructor; discriminate).
  all: destruct (Nat.eqb_spec i j); constructor; congruence.
Qed.
Lemma loc_eqb_refl a : loc_eqb a a = true.
Proof. destruct (loc_eqb_spec a a); congruence. Qed.
Lemma mput_eq m x v : mput m x v x = v.
Proof. unfold mput. now rewrite loc_eqb_refl. Qed.
Lemma mput_ne m x v y : y <> x -> mput m x v y = m y.
Proof. unfold mput. destruct (loc_eqb_spec y x); congruence. Qed.
Lemma sput_eq m x v : sput m x v x = v.
Proof. unfold sput. now rewrite loc_eqb_refl. Qed.
Lemma sput_ne m x v y : y <> x -> sput m x v y = m y.
Proof. unfold sput. destruct (loc_eqb_spec y x); congruence. Qed.

(** ** Loop simulation *)
Definition osim {A B} (R : A -> B -> Prop) (x : outcome A) (y : outcome B) : Prop :=
  match x, y with
  | Ok a, Ok b => R a b
  | Err f, Err g => f = g
  | _, _ => False
  end.
Lemma osim_bind {A B C D} (R : A -> B -> Prop) (Q : C -> D -> Prop) x y k l :
  osim R x y -> (forall a b, R a b -> osim Q (k a) (l b)) -> osim Q (bind x k) (bind y l).
Proof. destruct x, y; cbn; intros H K; try tauto. now apply K. Qed.
Lemma osim_mono {A B} (R Q : A -> B -> Prop) x y : osim R x y -> (forall a b, R a b -> Q a b) -> osim Q x y.
Proof. destruct x, y; cbn; auto. Qed.

Lemma loopU_sim {S T} (R : Z -> S -> T -> Prop) hi (f : Z -> S -> outcome S) (g : Z -> T -> outcome T) :
  forall cnt i s t, i + Z.of_nat cnt <= hi -> R i s t ->
  (forall j s t, i <= j < hi -> R j s t -> osim (R (j + 1)) (f j s) (g j t)) ->
  osim (R (i + Z.of_nat cnt)) (loopU cnt i f s) (loopU cnt i g t).
Proof.
  induction cnt as [|c IH]; intros i s t Hi HR HB.
  - cbn. now rewrite Z.add_0_r.
  - cbn [loopU]. eapply osim_bind. apply HB; eauto; lia.
    intros a b Hab. replace (i + Z.of_nat (Datatypes.S c)) with (i + 1 + Z.of_nat c) by lia.
    apply IH; auto; try lia. intros. apply HB; auto. lia.
Qed.
Lemma forU_sim {S T} (R : Z -> S -> T -> Prop) lo hi (f : Z -> S -> outcome S) (g : Z -> T -> outcome T) s t :
  lo <= hi -> R lo s t ->
  (forall j s t, lo <= j < hi -> R j s t -> osim (R (j + 1)) (f j s) (g j t)) ->
  osim (R hi) (forU lo hi f s) (forU lo hi g t).
Proof.
  intros H HR HB. unfold forU. replace hi with (lo + Z.of_nat (Z.to_nat (hi - lo))) at 1 by lia.
  apply loopU_sim with (hi := hi); auto. lia.
Qed.
Lemma loopD_sim {S T} (R : Z -> S -> T -> Prop) lo (f : Z -> S -> outcome S) (g : Z -> T -> outcome T) :
  forall cnt i s t, lo <= i - Z.of_nat cnt -> R i s t ->
  (forall j s t, lo <= j < i -> R (j + 1) s t -> osim (R j) (f j s) (g j t)) ->
  osim (R (i - Z.of_nat cnt)) (loopD cnt i f s) (loopD cnt i g t).
Proof.
  induction cnt as [|c IH]; intros i s t Hi HR HB.
  - cbn. now rewrite Z.sub_0_r.
  - cbn [loopD]. eapply osim_bind. apply HB; eauto; try lia. now replace (i - 1 + 1) with i by lia.
    intros a b Hab. replace (i - Z.of_nat (Datatypes.S c)) with (i - 1 - Z.of_nat c) by lia.
    apply IH; auto; try lia. intros. apply HB; auto. lia.
Qed.
Lemma forD_sim {S T} (R : Z -> S -> T -> Prop) lo hi (f : Z -> S -> outcome S) (g : Z -> T -> outcome T) s t :
  lo <= hi -> R hi s t ->
  (forall j s t, lo <= j < hi -> R (j + 1) s t -> osim (R j) (f j s) (g j t)) ->
  osim (R lo) (forD hi lo f s) (forD hi lo g t).
Proof.
  intros H HR HB. unfold forD. replace lo with (hi - Z.of_nat (Z.to_nat (hi - lo))) at 1 by lia.
  apply loopD_sim with (lo := lo); auto. lia.
Qed.

(** ** The in-place loops *)

(** In iteration [i] the store agrees with the by-value run on the destination, and the source is still
    intact from index [i] on; nothing else changed. *)
Definition inplace (m0 : mem) (a b : loc) (i : Z) (m : mem) (d : list Z) : Prop :=
  m a = d /\ len (m b) = len (m0 b) /\ (forall j, i <= j -> znth (m b) j = znth (m0 b) j) /\
  (forall l, l <> a -> m l = m0 l).

Lemma inplace_step m0 a b i m d v : 0 <= i -> inplace m0 a b i m d ->
  osim (fun m' d' => inplace m0 a b (i + 1) m' d') (mset m a i v) (aset d i v).
Proof.
  intros Hi (E & L & Z & O). unfold mset. rewrite E. unfold aset. destruct (in_range d i) eqn:R; cbn; auto.
  assert (0 <= i < len d) by (unfold in_range in R; lia).
  split; [|split; [|split] ].
  - apply mput_eq.
  - unfold mput. destruct (loc_eqb_spec b a) as [->|N]; auto. rewrite len_upd. congruence.
  - intros j Hj. unfold mput. destruct (loc_eqb_spec b a) as [->|N]; [|apply Z; lia].
    rewrite znth_upd_ne by lia. rewrite <- E. apply Z. lia.
  - intros l Hl. rewrite mput_ne by auto. auto.
Qed.
Lemma inplace_get m0 a b i m d : inplace m0 a b i m d -> mget m b i = aget (m0 b) i.
Proof.
  intros (E & L & Z & O). unfold mget, aget, in_range. rewrite L. destruct ((0 <=? i) && (i <? len (m0 b))); auto.
  now rewrite Z by lia.
Qed.
Lemma inplace_get_a m0 a b i m d : inplace m0 a b i m d -> mget m a i = aget d i.
Proof. intros (E & _). unfold mget. now rewrite E. Qed.

Lemma osim_refl {A} (x : outcome A) : osim eq x x.
Proof. destruct x; cbn; auto. Qed.

(** What "the store operation [x] does to location [a] what the by-value operation [y] computes" means. *)
Definition refines (m : mem) (a : loc) (x : outcome mem) (y : outcome (list Z)) : Prop :=
  osim (fun m' d => m' a = d /\ forall i, Var i <> a -> m' (Var i) = m (Var i)) x y.

Lemma m_addLine_refines n m a b : 0 <= n ->
  osim (fun mc dc => inplace m a b n (fst mc) (fst dc) /\ snd mc = snd dc) (m_addLine n m a b) (addLine n (m a) (m b)).
Proof.
  intros Hn. unfold m_addLine, addLine.
  apply forU_sim with (R := fun i mc dc => inplace m a b i (fst mc) (fst dc) /\ snd mc = snd dc); auto.
  - cbn. split; auto. split; auto.
  - intros i [m1 c1] [d1 c2] Hi [HI Hc]. cbn [fst snd] in *. subst c2.
    rewrite (inplace_get_a _ _ _ _ _ _ HI), (inplace_get _ _ _ _ _ _ HI).
    eapply osim_bind. apply osim_refl. intros x ? <-.
    eapply osim_bind. apply osim_refl. intros y ? <-. cbv zeta.
    eapply osim_bind. apply inplace_step; eauto; lia. intros m2 d2 H2. cbn. auto.
Qed.

Lemma m_add_assign_frame n m a b : 0 <= n ->
  osim (fun m' d => m' a = d /\ forall l, l <> a -> m' l = m l) (m_add_assign n m a b) (add_assign n (m a) (m b)).
Proof.
  intros Hn. unfold m_add_assign, add_assign. eapply osim_bind. apply m_addLine_refines; auto.
  intros [m1 c1] [d1 c2] [(E & _ & _ & O) _]. cbn in *. auto.
Qed.

Lemma m_bitwise_assign_frame op n m a b : 0 <= n ->
  osim (fun m' d => m' a = d /\ forall l, l <> a -> m' l = m l)
       (m_bitwise_assign op n m a b) (bitwise_assign op n (m a) (m b)).
Proof.
  intros Hn. unfold m_bitwise_assign, bitwise_assign.
  assert (H : osim (inplace m a b n)
    (forU 0 n (fun i m0 => x <- mget m0 a i ;; y <- mget m0 b i ;; mset m0 a i (op x y)) m)
    (forU 0 n (fun i left => x <- aget left i ;; y <- aget (m b) i ;; aset left i (op x y)) (m a))).
  { apply forU_sim with (R := fun i mc dc => inplace m a b i mc dc); auto.
    - split; auto.
    - intros i m1 d1 Hi HI.
      rewrite (inplace_get_a _ _ _ _ _ _ HI), (inplace_get _ _ _ _ _ _ HI).
      eapply osim_bind. apply osim_refl. intros x ? <-.
      eapply osim_bind. apply osim_refl. intros y ? <-.
      apply inplace_step; auto; lia. }
  eapply osim_mono. exact H. intros m' d' (E & _ & _ & O). auto.
Qed.

Lemma m_sub_assign_frame n m a b : 0 <= n -> a <> Tmp 0 ->
  osim (fun m' d => m' a = d /\ forall l, l <> a -> l <> Tmp 0 -> m' l = m l)
       (m_sub_assign n m a b) (sub_assign n (m a) (m b)).
Proof.
  intros Hn Ha. unfold m_sub_assign, sub_assign. eapply osim_bind. apply osim_refl. intros nb ? <-.
  pose proof (m_add_assign_frame n (mput m (Tmp 0) nb) a (Tmp 0) Hn) as H.
  rewrite mput_eq in H. rewrite mput_ne in H by auto.
  destruct (m_add_assign _ _ _ _) as [m'|], (add_assign _ _ _) as [d'|]; cbn in *; auto.
  destruct H as [E O]. split; auto. intros l Hl Ht. rewrite O by auto. now apply mput_ne.
Qed.

Lemma m_mul_assign_frame n m a b :
  osim (fun m' d => m' a = d /\ forall l, l <> a -> m' l = m l) (m_mul_assign n m a b) (mul_assign n (m a) (m b)).
Proof.
  unfold m_mul_assign, mul_assign.
  eapply osim_bind. apply osim_refl. intros x ? <-. eapply osim_bind. apply osim_refl. intros y ? <-.
  destruct (x >? y); destruct (multiplyLines _ _ _ _ _); cbn; auto; split; intros; try apply mput_eq; now apply mput_ne.
Qed.

Lemma m_update_frame m a f :
  osim (fun m' d => m' a = d /\ forall l, l <> a -> m' l = m l) (m_update m a f) (f (m a)).
Proof. unfold m_update. destruct (f (m a)); cbn; auto. split; intros; [apply mput_eq | now apply mput_ne]. Qed.

Lemma m_swap_spec m a b : a <> Tmp 0 -> b <> Tmp 0 ->
  m_swap m a b a = m b /\ m_swap m a b b = m a /\ (forall l, l <> a -> l <> b -> l <> Tmp 0 -> m_swap m a b l = m l).
Proof.
  intros Ha Hb. unfold m_swap, m_copy. split; [|split].
  - rewrite mput_eq. rewrite (mput_ne _ b _ (Tmp 0)) by congruence. apply mput_eq.
  - unfold mput. rewrite !loc_eqb_refl.
    destruct (loc_eqb_spec b a) as [->|N]; [|destruct (loc_eqb_spec a (Tmp 0)); congruence].
    destruct (loc_eqb_spec (Tmp 0) a); [congruence|]. auto.
  - intros l H1 H2 H3. now rewrite !mput_ne by auto.
Qed.

(** ** divide with outputs that share nothing with the inputs or each other *)
Definition clear_of (x : loc) (ys : list loc) : Prop := Forall (fun y => x <> y) ys.

Lemma m_divide_distinct cfg n m nu de q r : 0 <= n ->
  q <> nu -> q <> de -> r <> nu -> r <> de -> q <> r -> nu <> Tmp 0 -> de <> Tmp 0 -> q <> Tmp 0 -> r <> Tmp 0 ->
  osim (fun m' d => m' q = fst d /\ m' r = snd d /\ forall l, l <> q -> l <> r -> l <> Tmp 0 -> m' l = m l)
       (m_divide cfg n m nu de q r) (divide cfg n (m nu) (m de)).
Proof.
  intros Hn H1 H2 H3 H4 H5 T1 T2 T3 T4. unfold m_divide, divide.
  assert (nu <> q /\ de <> q /\ nu <> r /\ de <> r /\ r <> q) as (S1 & S2 & S3 & S4 & S5) by auto.
  eapply osim_bind. apply osim_refl. intros c ? <-. cbv zeta.
  assert (E0 : forall l, l <> q -> l <> r -> mput (mput m q (aeu_zero n)) r (aeu_zero n) l = m l)
    by (intros; now rewrite !mput_ne by auto).
  destruct c.
  - (* equal *) rewrite mput_ne by auto. rewrite mput_eq. change (from_unsigned n (aeu_zero n) 1) with (from_unsigned n (zeros n) 1).
    destruct (from_unsigned n (zeros n) 1) as [one|]; cbn [osim bind fst snd]; auto. split; [apply mput_eq|split].
    + rewrite mput_ne by auto. apply mput_eq.
    + intros. rewrite mput_ne by auto. now apply E0.
  - (* less *) cbn [osim fst snd]. unfold m_copy. split; [|split].
    + rewrite !(mput_ne _ r _ q) by auto. apply mput_eq.
    + rewrite mput_eq. now apply E0.
    + intros. now rewrite !mput_ne by auto.
  - (* greater *) rewrite !(mput_ne _ _ _ nu) by auto.
    eapply osim_bind. apply osim_refl. intros f ? <-.
    destruct (Z.le_gt_cases 0 (f * blockBitLength)) as [Hf|Hf].
    2:{ unfold forD. replace (Z.to_nat (f * blockBitLength - 0)) with O by lia. cbn.
        rewrite mput_ne, !mput_eq by auto. split; auto. }
    apply forD_sim with (R := fun _ m' d => m' q = fst d /\ m' r = snd d /\
       forall l, l <> q -> l <> r -> l <> Tmp 0 -> m' l = m l); auto.
    { cbn. rewrite mput_ne, !mput_eq by auto. split; auto. }
    intros i m1 [q1 r1] Hi (Eq & Er & O). cbn [fst snd] in *. subst q1 r1.
    eapply osim_bind. apply m_update_frame. intros m2 r2 [E2 O2].
    rewrite (O2 nu) by auto. rewrite (O nu) by auto.
    eapply osim_bind. apply osim_refl. intros bit ? <-.
    rewrite <- E2.
    eapply osim_bind. apply m_update_frame. intros m3 r3 [E3 O3].
    rewrite (O3 de), (O2 de), (O de) by auto. rewrite E3.
    eapply osim_bind. apply osim_refl. intros ge ? <-. destruct ge.
    + rewrite <- E3.
      pose proof (m_sub_assign_frame n m3 r de Hn T4) as HS.
      rewrite (O3 de), (O2 de), (O de) in HS by auto.
      eapply osim_bind. apply HS. intros m4 r4 [E4 O4].
      replace (m1 q) with (m4 q) by (rewrite O4, O3, O2 by auto; auto).
      pose proof (m_update_frame m4 q (fun q => setBit cfg n q i true)) as HU. cbv beta in HU.
      destruct (m_update m4 q _) as [m5|], (setBit cfg n (m4 q) i true) as [q5|]; cbn in *; auto.
      destruct HU as [E5 O5]. split; auto. split. rewrite O5 by auto. auto.
      intros l N1 N2 N3. rewrite O5, O4, O3, O2 by auto. now apply O.
    + cbn. split. rewrite O3, O2 by auto. auto. split; auto.
      intros l N1 N2 N3. rewrite O3, O2 by auto. now apply O.
  - (* equivalent: as equal *) rewrite mput_ne by auto. rewrite mput_eq. change (from_unsigned n (aeu_zero n) 1) with (from_unsigned n (zeros n) 1).
    destruct (from_unsigned n (zeros n) 1) as [one|]; cbn [osim bind fst snd]; auto. split; [apply mput_eq|split].
    + rewrite mput_ne by auto. apply mput_eq.
    + intros. rewrite mput_ne by auto. now apply E0.
Qed.

Lemma m_op_div_eq cfg n m a b : 0 <= n -> (forall k, (k <= 3)%nat -> a <> Tmp k) -> (forall k, (k <= 3)%nat -> b <> Tmp k) ->
  m_op_div cfg n m a b = op_div cfg n (m a) (m b).
Proof.
  intros Hn Ha Hb. unfold m_op_div, op_div.
  pose proof (m_divide_distinct cfg n m a b (Tmp 1) (Tmp 2) Hn) as H.
  assert (HH : osim (fun m' d => m' (Tmp 1%nat) = fst d /\ m' (Tmp 2%nat) = snd d /\
     forall l, l <> Tmp 1 -> l <> Tmp 2 -> l <> Tmp 0 -> m' l = m l)
     (m_divide cfg n m a b (Tmp 1) (Tmp 2)) (divide cfg n (m a) (m b))).
  { pose proof (Ha 0%nat ltac:(lia)). pose proof (Ha 1%nat ltac:(lia)). pose proof (Ha 2%nat ltac:(lia)).
    pose proof (Hb 0%nat ltac:(lia)). pose proof (Hb 1%nat ltac:(lia)). pose proof (Hb 2%nat ltac:(lia)).
    apply H; auto; congruence. }
  destruct (m_divide _ _ _ _ _ _ _) as [m'|], (divide _ _ _ _) as [ [q r]|]; cbn in *; try tauto.
  - f_equal. tauto.
  - congruence.
Qed.
Lemma m_op_mod_eq cfg n m a b : 0 <= n -> (forall k, (k <= 3)%nat -> a <> Tmp k) -> (forall k, (k <= 3)%nat -> b <> Tmp k) ->
  m_op_mod cfg n m a b = op_mod cfg n (m a) (m b).
Proof.
  intros Hn Ha Hb. unfold m_op_mod, op_mod.
  pose proof (m_divide_distinct cfg n m a b (Tmp 1) (Tmp 2) Hn) as H.
  assert (HH : osim (fun m' d => m' (Tmp 1%nat) = fst d /\ m' (Tmp 2%nat) = snd d /\
     forall l, l <> Tmp 1 -> l <> Tmp 2 -> l <> Tmp 0 -> m' l = m l)
     (m_divide cfg n m a b (Tmp 1) (Tmp 2)) (divide cfg n (m a) (m b))).
  { pose proof (Ha 0%nat ltac:(lia)). pose proof (Ha 1%nat ltac:(lia)). pose proof (Ha 2%nat ltac:(lia)).
    pose proof (Hb 0%nat ltac:(lia)). pose proof (Hb 1%nat ltac:(lia)). pose proof (Hb 2%nat ltac:(lia)).
    apply H; auto; congruence. }
  destruct (m_divide _ _ _ _ _ _ _) as [m'|], (divide _ _ _ _) as [ [q r]|]; cbn in *; try tauto.
  - f_equal. tauto.
  - congruence.
Qed.
Lemma m_div_assign_frame cfg n m a b : 0 <= n -> (forall k, (k <= 3)%nat -> a <> Tmp k) -> (forall k, (k <= 3)%nat -> b <> Tmp k) ->
  osim (fun m' d => m' a = d /\ forall l, l <> a -> m' l = m l) (m_div_assign cfg n m a b) (div_assign cfg n (m a) (m b)).
Proof.
  intros. unfold m_div_assign. rewrite m_op_div_eq by auto. unfold div_assign.
  destruct (op_div _ _ _ _); cbn; auto. split; intros; [apply mput_eq | now apply mput_ne].
Qed.
Lemma m_mod_assign_frame cfg n m a b : 0 <= n -> (forall k, (k <= 3)%nat -> a <> Tmp k) -> (forall k, (k <= 3)%nat -> b <> Tmp k) ->
  osim (fun m' d => m' a = d /\ forall l, l <> a -> m' l = m l) (m_mod_assign cfg n m a b) (mod_assign cfg n (m a) (m b)).
Proof.
  intros. unfold m_mod_assign. rewrite m_op_mod_eq by auto. unfold mod_assign.
  destruct (op_mod _ _ _ _); cbn; auto. split; intros; [apply mput_eq | now apply mput_ne].
Qed.
