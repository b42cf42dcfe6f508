(** * ThrExec: a program of [ThrModel.v], run alone, does to the objects what [ProgModel.v] says. *)
From Verif Require Import Lib AeuModel AliasModel AliasFacts ProgSpec ProgModel ThrMonad ThrModel ThrFacts ThrStore.
From Coq Require Import ZifyBool.
Open Scope Z_scope.

Definition vsame (m m0 : mem) : Prop := forall i, m (Var i) = m0 (Var i).
Definition lens (n : Z) (m : mem) : Prop := forall l, lenp n (m l).
(** The two runs end alike: same fault, or the same contents of every variable. *)
Definition alike (n : Z) {A} (x : outcome (A * mem)) (y : outcome mem) : Prop :=
  osim (fun r m' => vsame (snd r) m' /\ lens n (snd r)) x y.

Lemma run_lens {A} n (c : act A) m a m' : lens n m -> run_act c m = Ok (a, m') -> lens n m'.
Proof. intros H E l. unfold lenp. rewrite (run_len _ _ _ _ E). apply H. Qed.

(** [c] changes the variable [d] and no other, to what [x] says; the library's local objects may change. *)
Definition modV {A} (m : mem) (d : nat) (c : act A) (x : outcome (list Z)) : Prop :=
  osim (fun r v => snd r (Var d) = v /\ forall i, i <> d -> snd r (Var i) = m (Var i)) (run_act c m) x.
Lemma modifies_V {A} m d (c : act A) x : modifies m (Var d) c x -> modV m d c x.
Proof. intros H. eapply osim_mono; [exact H|]. intros r v [E O]. split; auto. intros i Hi. apply O. congruence. Qed.
Lemma lock {A} n m m0 d (c : act A) x y : modV m d c x -> refines m0 (Var d) y x -> vsame m m0 -> lens n m -> alike n (run_act c m) y.
Proof.
  unfold modV, refines, alike. intros H K V L. destruct (run_act c m) as [[a m1]|] eqn:E, y as [m2|], x as [v|]; cbn [osim] in *; try contradiction; try congruence.
  destruct H as [E1 O1], K as [E2 O2]. cbn [snd] in *. split; [|exact (run_lens _ _ _ _ _ L E)].
  intros i. destruct (Nat.eq_dec i d) as [->|N]; [congruence|]. rewrite O1 by auto. rewrite O2 by congruence. apply V.
Qed.
Lemma refines_update m a f : refines m a (m_update m a f) (f (m a)).
Proof. eapply osim_mono; [apply m_update_frame|]. intros m' d [E O]. split; auto. Qed.
Lemma refines_ret m a x : refines m a (r <- x ;; Ok (mput m a r)) x.
Proof. unfold refines. destruct x; cbn [bind osim]; auto. split; [apply mput_eq|]. intros. now apply mput_ne. Qed.
Lemma refines_eq m a x y z : refines m a x y -> y = z -> refines m a x z.
Proof. now intros H <-. Qed.

Lemma aeu_assign_refines cfg o n m a b : 0 <= n -> (forall k, (k <= 3)%nat -> a <> Tmp k) ->
  refines m a (aeu_assign cfg o n m a (Var b)) (assign_value cfg o n (m a) (m (Var b))).
Proof.
  intros Hn Ha. assert (A0 : a <> Tmp 0) by (apply Ha; lia).
  assert (F : forall x y, osim (fun m' (d : list Z) => m' a = d /\ forall l, l <> a -> m' l = m l) x y -> refines m a x y).
  { intros x y H. eapply osim_mono; [exact H|]. intros m' d [E O]. split; auto. }
  destruct o; cbn [aeu_assign assign_value].
  - now apply F, m_add_assign_frame.
  - eapply osim_mono; [now apply m_sub_assign_frame|]. intros m' d [E O]. split; auto. intros i Hi. apply O; congruence.
  - now apply F, m_mul_assign_frame.
  - apply F, m_div_assign_frame; auto. congruence.
  - apply F, m_mod_assign_frame; auto. congruence.
  - now apply F, m_bitwise_assign_frame.
  - now apply F, m_bitwise_assign_frame.
  - now apply F, m_bitwise_assign_frame.
Qed.
Lemma aeu_binary_refines cfg o n m d a b : 0 <= n ->
  refines m (Var d) (aeu_binary cfg o n m (Var d) (Var a) (Var b)) (assign_value cfg o n (m (Var a)) (m (Var b))).
Proof.
  intros Hn.
  assert (K : refines m (Var d) (m1 <- aeu_assign cfg o n (m_copy m (Tmp 5) (Var a)) (Tmp 5) (Var b) ;; Ok (m_copy m1 (Var d) (Tmp 5)))
     (assign_value cfg o n (m (Var a)) (m (Var b)))).
  { unfold refines. rewrite <- (bind_ok_r (assign_value cfg o n (m (Var a)) (m (Var b)))).
    pose proof (aeu_assign_refines cfg o n (m_copy m (Tmp 5) (Var a)) (Tmp 5) b Hn) as H.
    unfold m_copy in H at 3 4. rewrite mput_eq, mput_ne in H by discriminate.
    eapply osim_bind; [apply H; intros k Hk [= <-]; lia|]. intros m1 v [E O]. cbn [osim]. unfold m_copy. split; [now rewrite mput_eq|].
    intros i Hi. rewrite mput_ne by auto. rewrite O by discriminate. unfold m_copy. now rewrite mput_ne by discriminate. }
  destruct o; auto; cbn [aeu_binary assign_value]; unfold div_assign, mod_assign.
  - rewrite m_op_div_eq by (auto; discriminate). apply refines_ret.
  - rewrite m_op_mod_eq by (auto; discriminate). apply refines_ret.
Qed.
Lemma t_binary_gives cfg o n m d a b : 0 <= n -> lens n m ->
  modV m d (t_binary cfg o n (Var d) (Var a) (Var b)) (assign_value cfg o n (m (Var a)) (m (Var b))).
Proof.
  intros Hn L.
  assert (K : modV m d (_ <~ t_assign n (Tmp 5) (at_ (Var a)) ;; _ <~ t_op_assign cfg o n (Tmp 5) (at_ (Var b)) ;; t_assign n (Var d) (at_ (Tmp 5)))
     (assign_value cfg o n (m (Var a)) (m (Var b)))).
  { unfold modV. rewrite run_bind. pose proof (t_assign_gives n m (Tmp 5) (at_ (Var a)) (m (Var a)) Hn (L _) (L _) (srcs_at _ _ _)) as H.
    unfold modifies in H. destruct (run_act _ m) as [[[] m1]|] eqn:E1; cbn [osim snd] in H; [|contradiction]. destruct H as [Ea O1]. cbn [bind].
    pose proof (run_lens _ _ _ _ _ L E1) as L1. rewrite run_bind.
    pose proof (t_op_assign_gives cfg o n m1 (Tmp 5) (at_ (Var b)) (m1 (Var b)) Hn (L1 _) (L1 _) (srcs_at _ _ _)) as H.
    rewrite Ea, (O1 (Var b)) in H by discriminate. unfold modifies in H.
    rewrite <- (bind_ok_r (assign_value cfg o n (m (Var a)) (m (Var b)))).
    destruct (run_act (t_op_assign _ _ _ _ _) m1) as [[[] m2]|] eqn:E2, (assign_value cfg o n (m (Var a)) (m (Var b))) as [v|]; cbn [osim snd bind] in *; try contradiction; auto.
    destruct H as [Ev O2]. pose proof (run_lens _ _ _ _ _ L1 E2) as L2.
    pose proof (t_assign_gives n m2 (Var d) (at_ (Tmp 5)) (m2 (Tmp 5)) Hn (L2 _) (L2 _) (srcs_at _ _ _)) as H. unfold modifies in H.
    destruct (run_act _ m2) as [[[] m3]|] eqn:E3; cbn [osim snd] in *; [|contradiction]. destruct H as [Ed O3]. split; [congruence|].
    intros i Hi. rewrite O3 by congruence. rewrite O2, O1 by discriminate. reflexivity. }
  destruct o; auto; cbn [t_binary assign_value]; apply modifies_V; unfold div_assign, mod_assign.
  - apply t_div_store; auto; apply reads_at.
  - apply t_mod_store; auto; apply reads_at.
Qed.
Lemma t_swap_gives n m m0 a b : 0 <= n -> lens n m -> vsame m m0 -> alike n (run_act (t_swap n (Var a) (Var b)) m) (Ok (m_swap m0 (Var a) (Var b))).
Proof.
  intros Hn L V. unfold t_swap, alike.
  pose proof (t_assign_gives n m (Tmp 0) (at_ (Var b)) (m (Var b)) Hn (L _) (L _) (srcs_at _ _ _)) as H. unfold modifies in H.
  rewrite run_bind. destruct (run_act _ m) as [[[] m1]|] eqn:E1; cbn [osim snd bind] in *; [|contradiction]. destruct H as [T1 O1].
  pose proof (run_lens _ _ _ _ _ L E1) as L1.
  pose proof (t_assign_gives n m1 (Var b) (at_ (Var a)) (m1 (Var a)) Hn (L1 _) (L1 _) (srcs_at _ _ _)) as H. unfold modifies in H.
  rewrite run_bind. destruct (run_act _ m1) as [[[] m2]|] eqn:E2; cbn [osim snd bind] in *; [|contradiction]. destruct H as [T2 O2].
  pose proof (run_lens _ _ _ _ _ L1 E2) as L2.
  pose proof (t_assign_gives n m2 (Var a) (at_ (Tmp 0)) (m2 (Tmp 0)) Hn (L2 _) (L2 _) (srcs_at _ _ _)) as H. unfold modifies in H.
  destruct (run_act _ m2) as [[[] m3]|] eqn:E3; cbn [osim snd bind] in *; [|contradiction]. destruct H as [T3 O3].
  split; [|exact (run_lens _ _ _ _ _ L2 E3)].
  destruct (m_swap_spec m0 (Var a) (Var b)) as (S1 & S2 & S3); try discriminate.
  intros i. destruct (Nat.eq_dec i a) as [->|Na].
  - rewrite T3, O2, T1 by discriminate. rewrite S1. apply V.
  - destruct (Nat.eq_dec i b) as [->|Nb].
    + rewrite O3 by congruence. rewrite T2, O1 by discriminate. rewrite S2. apply V.
    + rewrite O3, O2, O1 by congruence. rewrite S3 by congruence. apply V.
Qed.

Lemma reads_same n m m0 a : vsame m m0 -> lens n m -> reads m (at_ (Var a)) (m0 (Var a)) /\ lenp n (m0 (Var a)).
Proof. intros V L. rewrite <- V. split; [apply reads_at|apply L]. Qed.
Lemma alike_vg {A} n m (c : act A) x (f : A -> act unit) (k : A -> outcome mem) :
  vgives m c x -> (forall a, x = Ok a -> alike n (run_act (f a) m) (k a)) -> alike n (run_act (abind c f) m) (bind x k).
Proof. intros H K. unfold alike. rewrite run_bind, H. destruct x; cbn [bind osim]; auto. now apply K. Qed.
Lemma alike_bind n {A} (c : act A) m y (f : A -> act unit) k : alike n (run_act c m) y ->
  (forall a m1 m2, vsame m1 m2 -> lens n m1 -> alike n (run_act (f a) m1) (k m2)) ->
  alike n (run_act (abind c f) m) (bind y k).
Proof.
  unfold alike. intros H K. rewrite run_bind. eapply osim_bind; [exact H|]. intros [a m1] m2 [V L]. now apply K.
Qed.
Lemma lock_update n m m0 d (c : act unit) (f : list Z -> outcome (list Z)) : modifies m (Var d) c (f (m (Var d))) -> vsame m m0 -> lens n m ->
  alike n (run_act c m) (m_update m0 (Var d) f).
Proof.
  intros H V L. eapply lock; [apply modifies_V, H| |exact V|exact L]. eapply refines_eq; [apply refines_update|]. now rewrite V.
Qed.
Lemma lock_put n m m0 d (c : act unit) v : modifies m (Var d) c (Ok v) -> vsame m m0 -> lens n m -> alike n (run_act c m) (Ok (mput m0 (Var d) v)).
Proof.
  intros H V L. eapply lock; [apply modifies_V, H| |exact V|exact L]. cbn. split; [apply mput_eq|]. intros. now apply mput_ne.
Qed.
Lemma simDa n (B : Z -> unit -> act unit) g : (forall i m m0, vsame m m0 -> lens n m -> alike n (run_act (B i tt) m) (g i m0)) ->
  forall hi lo m m0, vsame m m0 -> lens n m -> alike n (run_act (aforD hi lo B tt) m) (forD hi lo g m0).
Proof.
  intros H hi lo m m0 V L. unfold alike. rewrite run_forD.
  apply simD with (P := fun (s : unit * mem) m' => vsame (snd s) m' /\ lens n (snd s)); [|auto].
  intros i [[] m1] m2 [V1 L1]. now apply H.
Qed.
Lemma op_ge_eq cfg n a b : op_ge cfg n n a b = (o <- op_spaceship cfg n n a b ;; Ok (match o with OLess => false | _ => true end)).
Proof. reflexivity. Qed.
Lemma t_divide_gives cfg n m m0 nu de q r : 0 <= n -> vsame m m0 -> lens n m ->
  alike n (run_act (t_divide cfg n (Var nu) (Var de) (Var q) (Var r)) m) (m_divide cfg n m0 (Var nu) (Var de) (Var q) (Var r)).
Proof.
  intros Hn V L. unfold t_divide, m_divide. apply alike_vg.
  { apply v_compareTo_gives; apply reads_same with n; auto. }
  intros c _. cbv zeta.
  assert (Z0 : lenp n (aeu_zero n)) by now apply lenp_zeros.
  match goal with |- alike ?a1 ?a2 _ => change (alike a1 a2
    (m1 <- Ok (mput m0 (Var q) (aeu_zero n)) ;; m1 <- Ok (mput m1 (Var r) (aeu_zero n)) ;;
     match c with
     | CGreater =>
         f <- filledBlocksNumber n (m1 (Var nu)) ;;
         forD (f * blockBitLength) 0 (fun i m =>
           m <- m_update m (Var r) (fun r => shl_assign n r 1) ;;
           bit <- getBit cfg n (m (Var nu)) i ;;
           m <- m_update m (Var r) (fun r => setBit cfg n r 0 bit) ;;
           ge <- op_ge cfg n n (m (Var r)) (m (Var de)) ;;
           if ge then
             m <- m_sub_assign n m (Var r) (Var de) ;;
             m_update m (Var q) (fun q => setBit cfg n q i true)
           else Ok m) m1
     | CLess => Ok (m_copy m1 (Var r) (Var nu))
     | _ => one <- from_unsigned n (m1 (Var q)) 1 ;; Ok (mput m1 (Var q) one)
     end)) end.
  apply alike_bind. { apply lock_put; auto. apply t_assign_gives; auto. apply srcs_local. }
  clear m m0 V L. intros _ m m0 V L.
  apply alike_bind. { apply lock_put; auto. apply t_assign_gives; auto. apply srcs_local. }
  clear m m0 V L. intros _ m m0 V L.
  assert (ONE : alike n (run_act (one <~ pure (from_unsigned n (zeros n) 1) ;; t_assign n (Var q) (local one)) m)
     (one <- from_unsigned n (m0 (Var q)) 1 ;; Ok (mput m0 (Var q) one))).
  { eapply lock; [apply modifies_V, modifies_store; auto; [apply vg_pure|now apply from_unsigned_len]| |exact V|exact L].
    replace (from_unsigned n (m0 (Var q)) 1) with (from_unsigned n (zeros n) 1); [apply refines_ret|].
    assert (LQ : lenp n (m0 (Var q))) by (rewrite <- V; apply L). clear - Hn LQ.
    assert (K : forall b, lenp n b -> from_unsigned n b 1 = from_unsigned n (zeros n) 1); [|symmetry; now apply K].
    intros b Hb. unfold from_unsigned. cbn [Z.eqb negb].
    assert (G : osim (fun x y => fst x = fst y) (forU 0 n (fun i '(blocks, tValue) =>
        blocks' <- aset blocks i (u32 (tValue mod blockBase)) ;; Ok (blocks', tValue / blockBase)) (b, u64 1))
      (forU 0 n (fun i '(blocks, tValue) =>
        blocks' <- aset blocks i (u32 (tValue mod blockBase)) ;; Ok (blocks', tValue / blockBase)) (zeros n, u64 1))).
    { eapply osim_mono; [apply forU_sim with (R := fun i (x y : list Z * Z) => snd x = snd y /\ lenp n (fst x) /\ lenp n (fst y) /\
         forall j, 0 <= j < i -> znth (fst x) j = znth (fst y) j)|]; auto.
      - cbn [fst snd]. split; [reflexivity|]. split; [exact Hb|]. split; [now apply lenp_zeros|]. lia.
      - intros i [x t] [y t'] Hi (E & L1 & L2 & D). cbn [fst snd] in *. subst t'. unfold lenp in *. rewrite !aset_ok by lia. cbn [bind osim fst snd].
        rewrite !len_upd. split; auto. split; auto. split; auto. intros j Hj. rewrite !znth_upd by lia. destruct (Z.eqb_spec i j); auto. apply D. lia.
      - intros [x t] [y t'] (E & L1 & L2 & D). cbn [fst snd] in *. unfold lenp in *. apply list_ext_znth; [lia|]. intros i Hi. apply D. lia. }
    destruct (forU _ _ _ (b, _)) as [[x t]|], (forU _ _ _ (zeros n, _)) as [[y t']|]; cbn [osim fst bind] in *; try contradiction; congruence. }
  destruct c; auto.
  - apply lock_put; auto. rewrite <- V. apply t_assign_gives; auto. apply srcs_at.
  - apply alike_vg. { apply v_filled_gives. now apply reads_same with n. } intros f _. apply simDa; auto.
    clear m m0 V L ONE. intros i m m0 V L.
    apply alike_bind. { apply lock_update; auto. apply (t_shl_assign_gives n m (Var r) 1). }
    clear m m0 V L. intros _ m m0 V L.
    apply alike_vg. { apply v_getBit_gives. now apply reads_same with n. } intros bit _.
    apply alike_bind. { apply (lock_update n m m0 r _ (fun x => setBit cfg n x 0 bit)); auto. apply t_setBit_gives. }
    clear m m0 V L. intros _ m m0 V L.
    apply alike_vg. { rewrite op_ge_eq. apply v_rel_gives; apply reads_same with n; auto. } intros ge _. destruct ge; [|now split].
    apply alike_bind.
    { eapply lock; [apply modifies_V, t_sub_assign_gives; auto; apply srcs_at| |exact V|exact L]. rewrite !V.
      exact (aeu_assign_refines cfg OSub n m0 (Var r) de Hn ltac:(discriminate)). }
    clear m m0 V L. intros _ m m0 V L.
    apply (lock_update n m m0 q _ (fun x => setBit cfg n x i true)); auto. apply t_setBit_gives.
Qed.

Lemma store_gives n m m0 d c x : 0 <= n -> vsame m m0 -> lens n m -> vgives m c x -> okp (lenp n) x ->
  alike n (run_act (t_store n d c) m) (r <- x ;; Ok (mput m0 (Var d) r)).
Proof.
  intros Hn V L H K. eapply lock; [apply modifies_V, modifies_store; eauto| |exact V|exact L]. apply refines_ret.
Qed.
Theorem texec_alike cfg n m m0 i : 0 <= n -> vsame m m0 -> lens n m -> alike n (run_act (texec cfg n i) m) (uexec cfg n m0 i).
Proof.
  intros Hn V L.
  assert (R : forall a, reads m (at_ (Var a)) (m0 (Var a))) by (intros a; apply (reads_same n m m0 a V L)).
  assert (LL : forall a, lenp n (m0 (Var a))) by (intros a; apply (reads_same n m m0 a V L)).
  destruct i; cbn [texec uexec].
  - apply lock_put; auto. rewrite <- V. apply t_assign_gives; auto. apply srcs_at.
  - apply store_gives; auto. apply vg_pure. now apply from_unsigned_len.
  - eapply lock; [apply modifies_V, t_op_assign_gives; auto; apply srcs_at| |exact V|exact L]. rewrite !V.
    apply aeu_assign_refines; auto. discriminate.
  - eapply lock; [now apply t_binary_gives| |exact V|exact L]. rewrite !V. now apply aeu_binary_refines.
  - apply lock_update; auto. apply t_inc_gives.
  - apply lock_update; auto. apply t_dec_gives.
  - apply store_gives; auto. now apply v_neg_gives. now apply op_neg_len.
  - apply store_gives; auto. now apply v_not_gives. now apply op_not_len.
  - apply (lock_update n m m0 d _ (fun x => shl_assign n x k)); auto. apply t_shl_assign_gives.
  - apply (lock_update n m m0 d _ (fun x => shr_assign n x k)); auto. apply t_shr_assign_gives.
  - apply (lock_update n m m0 d _ (fun x => setBit cfg n x i b)); auto. apply t_setBit_gives.
  - apply (lock_update n m m0 d _ (fun x => add_assign_u n t x v)); auto. apply t_add_assign_u_gives.
  - apply (lock_update n m m0 d _ (fun x => mul_assign_u n t x v)); auto. now apply t_mul_assign_u_gives.
  - now apply t_swap_gives.
  - now apply t_divide_gives.
  - apply store_gives; auto. now apply v_gcd_gives. now apply gcd_len.
  - apply store_gives; auto. now apply v_lcm_gives. now apply lcm_len.
  - apply store_gives; auto. now apply v_squareRoot_gives. now apply squareRoot_len.
  - apply store_gives; auto. apply vg_pure. now apply power2_len.
  - apply store_gives; auto. now apply v_powm_gives. now apply powm_len.
Qed.
Theorem ttest_gives cfg n m m0 c : vsame m m0 -> vgives m (ttest cfg n c) (utest cfg n m0 c).
Proof.
  intros V. assert (R : forall a, reads m (at_ (Var a)) (m0 (Var a))) by (intros; rewrite <- V; apply reads_at).
  destruct c; cbn [ttest utest].
  - now apply v_eq_gives.
  - unfold op_ne. apply vg_bind; [now apply v_eq_gives|]. intros. apply vg_ret.
  - now apply v_rel_gives.
  - now apply v_rel_gives.
  - now apply v_rel_gives.
  - now apply v_rel_gives.
  - now apply v_isOdd_gives.
  - now apply v_isZero_gives.
  - now apply v_getBit_gives.
Qed.
Theorem trun_alike cfg n : 0 <= n -> forall fuel p m m0, vsame m m0 -> lens n m ->
  alike n (run_act (trun cfg n fuel p) m) (urun cfg n fuel p m0).
Proof.
  intros Hn. unfold urun. induction fuel as [|f IH]; intros p m m0 V L; cbn [trun run]; [reflexivity|].
  destruct p as [|i|s t|c s t|c s].
  - now split.
  - now apply texec_alike.
  - apply alike_bind; [now apply IH|]. intros _ m1 m2 V1 L1. now apply IH.
  - apply alike_vg; [now apply ttest_gives|]. intros [] _; now apply IH.
  - apply alike_vg; [now apply ttest_gives|]. intros [] _; [|now split].
    apply alike_bind; [now apply IH|]. intros _ m1 m2 V1 L1. now apply IH.
Qed.
