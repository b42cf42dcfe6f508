(** * ThrStore: the functions of [ThrModel.v] that assign to an object, and whole programs, run alone. *)
From Verif Require Import Lib AeuModel AliasModel AliasFacts ProgSpec ProgModel ThrMonad ThrModel ThrFacts.
From Coq Require Import ZifyBool.
Open Scope Z_scope.

Lemma bind_ok_r {A} (x : outcome A) : bind x Ok = x.
Proof. destruct x; reflexivity. Qed.
(** In iteration [i] the object [a] holds [d], from block [i] on still as in [m0]; nothing else has changed. *)
Definition inpl (m0 : mem) (a : loc) (i : Z) (m : mem) (d : list Z) : Prop :=
  m a = d /\ len d = len (m0 a) /\ (forall j, i <= j -> znth d j = znth (m0 a) j) /\ (forall l, l <> a -> m l = m0 l).
(** The source of the loop: whatever has been stored before [i], block [i] is as [l] says. *)
Definition srcs (m0 : mem) (a : loc) (v : view) (l : list Z) : Prop :=
  forall i m d, inpl m0 a i m d -> vgives m (v i) (aget l i).
Lemma inpl_0 m a i : inpl m a i m (m a).
Proof. now split; [|split]. Qed.
Lemma srcs_at m0 a y : srcs m0 a (at_ y) (m0 y).
Proof.
  intros i m d (E & L & Z & O). unfold vgives, at_. cbn [run_act]. unfold mget.
  destruct (loc_eqb_spec y a) as [->|N].
  - rewrite E. unfold aget, in_range. rewrite L. destruct ((0 <=? i) && (i <? len (m0 a))); [|reflexivity]. cbn [bind]. now rewrite Z by lia.
  - rewrite (O y N). destruct (aget (m0 y) i); reflexivity.
Qed.
Lemma srcs_local m0 a r : srcs m0 a (local r) r.
Proof. intros i m d _. apply reads_local. Qed.
Lemma srcs_reads m a v l : srcs m a v l -> reads m v l.
Proof. intros H i. apply H with (m a). apply inpl_0. Qed.

Lemma run_at {A} x i (k : Z -> act A) m : run_act (abind (at_ x i) k) m = (v <- mget m x i ;; run_act (k v) m).
Proof. reflexivity. Qed.
Lemma run_aput {A} x i v (k : unit -> act A) m : run_act (abind (aput x i v) k) m = (m' <- mset m x i v ;; run_act (k tt) m').
Proof. reflexivity. Qed.
Lemma inpl_get m0 a i m d j : inpl m0 a i m d -> mget m a j = aget d j.
Proof. intros (E & _). unfold mget. now rewrite E. Qed.
Lemma inpl_put m0 a i m d v : 0 <= i -> inpl m0 a i m d ->
  osim (fun m' d' => inpl m0 a (i + 1) m' d') (mset m a i v) (aset d i v).
Proof.
  intros Hi (E & L & Z & O). unfold mset. rewrite E. unfold aset. destruct (in_range d i) eqn:R; cbn [bind osim]; auto.
  assert (0 <= i < len d) by (unfold in_range in R; lia). split; [apply mput_eq|]. split; [rewrite len_upd; auto|]. split.
  - intros j Hj. rewrite znth_upd_ne by lia. apply Z. lia.
  - intros l Hl. rewrite mput_ne by auto. auto.
Qed.
Lemma osim_vg {A B C} (R : (B * mem) -> C -> Prop) m (c : act A) x (f : A -> act B) (k : A -> outcome C) :
  vgives m c x -> (forall a, osim R (run_act (f a) m) (k a)) -> osim R (run_act (abind c f) m) (bind x k).
Proof. intros H K. rewrite run_bind, H. destruct x; cbn [bind osim]; auto. Qed.
Lemma osim_get {A} (R : A -> A -> Prop) : forall x y : outcome A, x = y -> (forall a, R a a) -> osim R x y.
Proof. intros x ? <- H. destruct x; cbn; auto. Qed.

(** [c] changes the object [a] and nothing else, to what [x] says. *)
Definition modifies {A} (m : mem) (a : loc) (c : act A) (x : outcome (list Z)) : Prop :=
  osim (fun r d => snd r a = d /\ forall l, l <> a -> snd r l = m l) (run_act c m) x.

Lemma t_assign_gives n m a v l : 0 <= n -> lenp n (m a) -> lenp n l -> srcs m a v l -> modifies m a (t_assign n a v) (Ok l).
Proof.
  intros Hn La Ll H. unfold modifies, t_assign. rewrite run_forU. cbv beta.
  match goal with |- osim _ (forU _ _ ?f _) _ =>
    destruct (forU_spec (fun i '((_, m1) : unit * mem) => exists d, inpl m a i m1 d /\ forall j, 0 <= j < i -> znth d j = znth l j) 0 n
     f (tt, m)) as ([[] m'] & E & d & (E1 & L & Z & O) & D); auto end.
  - exists (m a). split; [apply inpl_0|]. lia.
  - intros i [[] m1] Hi (d & HI & D). rewrite run_bind, (H i m1 d HI). unfold lenp in *. rewrite aget_ok by lia. cbn [bind].
    pose proof HI as (E & L & _ & _). unfold aput. cbn [run_act]. unfold mset. rewrite E. rewrite aset_ok by lia. cbn [bind].
    eexists. split; [reflexivity|]. exists (upd d (Z.to_nat i) (znth l i)). split.
    + destruct HI as (_ & _ & Z & O). split; [apply mput_eq|]. split; [rewrite len_upd; auto|]. split.
      * intros j Hj. rewrite znth_upd_ne by lia. apply Z. lia.
      * intros x Hx. rewrite mput_ne by auto. auto.
    + intros j Hj. rewrite znth_upd by lia. destruct (Z.eqb_spec i j); [subst; auto|]. apply D. lia.
  - match type of E with ?X = _ => match goal with |- osim ?R ?Y ?Z => change (osim R X Z) end end. rewrite E. cbn [osim snd]. split; auto. rewrite E1. unfold lenp in *. apply list_ext_znth; [lia|]. intros i Hi. apply D. lia.
Qed.
Lemma t_add_assign_gives n m a v l : 0 <= n -> srcs m a v l -> modifies m a (t_add_assign n a v) (add_assign n (m a) l).
Proof.
  intros Hn H. unfold modifies, t_add_assign, add_assign. rewrite run_bind, run_forU.
  eapply osim_bind with (R := fun (s : Z * mem) t => fst s = snd t /\ inpl m a n (snd s) (fst t)).
  - unfold addLine. apply forU_sim with (R := fun i (s : Z * mem) t => fst s = snd t /\ inpl m a i (snd s) (fst t)); auto.
    + split; [reflexivity|]. apply inpl_0.
    + intros i [c m1] [d c'] Hi [Ec HI]. cbn [fst snd] in *. subst c'. rewrite run_at, (inpl_get _ _ _ _ _ _ HI).
      eapply osim_bind; [apply osim_refl|]. intros x ? <-. apply osim_vg; [now apply H with d|]. intros y. cbv zeta. rewrite run_aput.
      eapply osim_bind; [apply inpl_put; [lia|exact HI]|]. intros m2 d2 HI2. cbn. auto.
  - intros [c m1] [d c'] [_ (E & _ & _ & O)]. cbn in *. auto.
Qed.
Lemma t_bitwise_assign_gives op n m a v l : 0 <= n -> srcs m a v l ->
  modifies m a (t_bitwise_assign op n a v) (bitwise_assign op n (m a) l).
Proof.
  intros Hn H. unfold modifies, t_bitwise_assign, bitwise_assign. rewrite run_forU.
  eapply osim_mono; [apply forU_sim with (R := fun i (s : unit * mem) t => inpl m a i (snd s) t); auto|].
  - apply inpl_0.
  - intros i [[] m1] d Hi HI. cbn [snd] in *. rewrite run_at, (inpl_get _ _ _ _ _ _ HI).
    eapply osim_bind; [apply osim_refl|]. intros x ? <-. apply osim_vg; [now apply H with d|]. intros y. cbv beta.
    unfold aput. cbn [run_act].
    rewrite <- (bind_ok_r (aset d i (op x y))). eapply osim_bind; [apply inpl_put; [lia|exact HI]|]. intros m2 d2 HI2. cbn. auto.
  - intros [[] m1] d (E & _ & _ & O). cbn in *. auto.
Qed.
Lemma modifies_then {A B} m a (c : act A) x (k : A -> act B) y :
  vgives m c x -> (forall r, x = Ok r -> modifies m a (k r) (y r)) -> modifies m a (abind c k) (bind x y).
Proof. unfold modifies. intros H K. rewrite run_bind, H. destruct x; cbn [bind osim]; auto. Qed.
(** A computation of a value, then the assignment of it. *)
Lemma modifies_store n m a c x : 0 <= n -> lenp n (m a) -> vgives m c x -> okp (lenp n) x ->
  modifies m a (r <~ c ;; t_assign n a (local r)) x.
Proof.
  intros Hn La H L. rewrite <- (bind_ok_r x). apply modifies_then; auto. intros r E.
  apply t_assign_gives; [exact Hn|exact La|exact (L r E)|apply srcs_local].
Qed.
Lemma t_sub_assign_gives n m a v l : 0 <= n -> lenp n l -> srcs m a v l -> modifies m a (t_sub_assign n a v) (sub_assign n (m a) l).
Proof.
  intros Hn L H. unfold t_sub_assign, sub_assign. apply modifies_then.
  - apply v_neg_gives; auto. now apply srcs_reads with a.
  - intros nb _. apply t_add_assign_gives; auto. apply srcs_local.
Qed.
Lemma t_mul_assign_gives n m a v l : 0 <= n -> lenp n (m a) -> srcs m a v l -> modifies m a (t_mul_assign n a v) (mul_assign n (m a) l).
Proof.
  intros Hn La H. apply modifies_store; auto. apply v_mul_gives. apply reads_at. now apply srcs_reads with a. now apply mul_assign_len.
Qed.
Lemma t_div_store cfg n m d v w a b : 0 <= n -> lenp n (m d) -> lenp n a -> lenp n b -> reads m v a -> reads m w b ->
  modifies m d ('(q, _) <~ v_divide cfg n v w ;; t_assign n d (local q)) (op_div cfg n a b).
Proof.
  intros Hn Ld La Lb Ha Hb. unfold op_div. apply modifies_then; [now apply v_divide_gives|]. intros [q r] E.
  apply t_assign_gives; auto; [|apply srcs_local]. eapply okp_use in E; [|now apply divide_len]. apply E.
Qed.
Lemma t_mod_store cfg n m d v w a b : 0 <= n -> lenp n (m d) -> lenp n a -> lenp n b -> reads m v a -> reads m w b ->
  modifies m d ('(_, r) <~ v_divide cfg n v w ;; t_assign n d (local r)) (op_mod cfg n a b).
Proof.
  intros Hn Ld La Lb Ha Hb. unfold op_mod. apply modifies_then; [now apply v_divide_gives|]. intros [q r] E.
  apply t_assign_gives; auto; [|apply srcs_local]. eapply okp_use in E; [|now apply divide_len]. apply E.
Qed.

(** The value a compound assignment gives, operands by value. *)
Definition assign_value (cfg : config) (o : cop) (n : Z) (a b : list Z) : outcome (list Z) :=
  match o with
  | OAdd => add_assign n a b | OSub => sub_assign n a b | OMul => mul_assign n a b
  | ODiv => div_assign cfg n a b | OMod => mod_assign cfg n a b
  | OXor => xor_assign n a b | OAnd => and_assign n a b | OOr => or_assign n a b
  end.
Lemma t_op_assign_gives cfg o n m a v l : 0 <= n -> lenp n (m a) -> lenp n l -> srcs m a v l ->
  modifies m a (t_op_assign cfg o n a v) (assign_value cfg o n (m a) l).
Proof.
  intros Hn La Ll H. pose proof (srcs_reads _ _ _ _ H) as HR. destruct o; cbn [t_op_assign assign_value].
  - now apply t_add_assign_gives.
  - now apply t_sub_assign_gives.
  - now apply t_mul_assign_gives.
  - apply t_div_store; auto. apply reads_at.
  - apply t_mod_store; auto. apply reads_at.
  - now apply t_bitwise_assign_gives.
  - now apply t_bitwise_assign_gives.
  - now apply t_bitwise_assign_gives.
Qed.

(** ** One object, changed in place *)
(** As [inpl], without what is still to come. *)
Definition onl (m0 : mem) (a : loc) (m : mem) (d : list Z) : Prop := m a = d /\ (forall l, l <> a -> m l = m0 l).
Lemma onl_get m0 a m d j : onl m0 a m d -> mget m a j = aget d j.
Proof. intros (E & _). unfold mget. now rewrite E. Qed.
Lemma onl_put m0 a m d i v : onl m0 a m d -> osim (fun m' d' => onl m0 a m' d') (mset m a i v) (aset d i v).
Proof.
  intros (E & O). unfold mset. rewrite E. unfold aset. destruct (in_range d i) eqn:R; cbn [bind osim]; auto.
  split; [apply mput_eq|]. intros l Hl. rewrite mput_ne by auto. auto.
Qed.
Lemma onl_self m a : onl m a m (m a).
Proof. now split. Qed.
Definition steprel {A B} (P : A -> B -> Prop) (x : step A A) (y : step B B) : Prop :=
  match x, y with Next a, Next b => P a b | Exit a, Exit b => P a b | _, _ => False end.
Lemma simU {S T} (P : S -> T -> Prop) f g : (forall i s t, P s t -> osim P (f i s) (g i t)) ->
  forall cnt i s t, P s t -> osim P (loopU cnt i f s) (loopU cnt i g t).
Proof.
  intros H. induction cnt as [|c IH]; intros i s t HP; cbn [loopU]; [exact HP|]. eapply osim_bind; [apply H, HP|]. intros. now apply IH.
Qed.
Lemma simD {S T} (P : S -> T -> Prop) f g : (forall i s t, P s t -> osim P (f i s) (g i t)) ->
  forall cnt i s t, P s t -> osim P (loopD cnt i f s) (loopD cnt i g t).
Proof.
  intros H. induction cnt as [|c IH]; intros i s t HP; cbn [loopD]; [exact HP|]. eapply osim_bind; [apply H, HP|]. intros. now apply IH.
Qed.
Lemma run_loopUx {S R} (body : Z -> S -> act (step S R)) (T Q : Type) (P : S -> mem -> T -> Prop) (E : R -> mem -> Q -> Prop)
    (g : Z -> T -> outcome (step T Q)) :
  (forall i s m t, P s m t -> osim (fun r y => match fst r, y with Next s', Next t' => P s' (snd r) t' | Exit e, Exit q => E e (snd r) q | _, _ => False end)
     (run_act (body i s) m) (g i t)) ->
  forall cnt i s m t, P s m t ->
  osim (fun r y => match fst r, y with Next s', Next t' => P s' (snd r) t' | Exit e, Exit q => E e (snd r) q | _, _ => False end)
    (run_act (aloopUx cnt i body s) m) (loopUx cnt i g t).
Proof.
  intros H. induction cnt as [|c IH]; intros i s m t HP; cbn [aloopUx loopUx]; [exact HP|]. rewrite run_bind.
  eapply osim_bind; [apply H, HP|]. intros [[s'|e] m'] [t'|q]; cbn [fst snd]; try contradiction; auto.
Qed.

Lemma t_inc_gives n m a : modifies m a (t_inc n a) (op_inc n (m a)).
Proof.
  unfold modifies, t_inc, op_inc. rewrite run_bind. eapply osim_bind.
  - apply (run_loopUx _ _ _ (fun _ m1 d => onl m a m1 d) (fun _ m1 d => onl m a m1 d)); [|apply onl_self].
    intros i [] m1 d HI. rewrite run_at, (onl_get _ _ _ _ _ HI). eapply osim_bind; [apply osim_refl|]. intros b ? <-.
    destruct (b <? blockMax); rewrite run_aput; (eapply osim_bind; [apply onl_put, HI|]; intros m2 d2 HI2; exact HI2).
  - intros [[x|x] m1] [d|d]; cbn [fst snd]; intros HI; try contradiction; exact HI.
Qed.
Lemma t_dec_gives n m a : modifies m a (t_dec n a) (op_dec n (m a)).
Proof.
  unfold modifies, t_dec, op_dec. rewrite run_bind. eapply osim_bind.
  - apply (run_loopUx _ _ _ (fun _ m1 d => onl m a m1 d) (fun _ m1 d => onl m a m1 d)); [|apply onl_self].
    intros i [] m1 d HI. rewrite run_at, (onl_get _ _ _ _ _ HI). eapply osim_bind; [apply osim_refl|]. intros b ? <-.
    destruct (b >? 0); rewrite run_aput; (eapply osim_bind; [apply onl_put, HI|]; intros m2 d2 HI2; exact HI2).
  - intros [[x|x] m1] [d|d]; cbn [fst snd]; intros HI; try contradiction; exact HI.
Qed.
Definition onc {S} (m0 : mem) (a : loc) (s : S * mem) (t : list Z * S) : Prop := fst s = snd t /\ onl m0 a (snd s) (fst t).
Definition onu (m0 : mem) (a : loc) (s : unit * mem) (t : list Z) : Prop := onl m0 a (snd s) t.
Lemma t_add_assign_u_gives n t m a v : modifies m a (t_add_assign_u n t a v) (add_assign_u n t (m a) v).
Proof.
  unfold modifies, t_add_assign_u, add_assign_u. rewrite run_bind, run_forU.
  eapply osim_bind; [apply simU with (P := onc m a)|].
  - intros i [c m1] [d c'] [Ec HI]. cbn [fst snd] in *. subst c'. rewrite run_at, (onl_get _ _ _ _ _ HI).
    eapply osim_bind; [apply osim_refl|]. intros x ? <-. cbv zeta. rewrite run_aput.
    eapply osim_bind; [apply onl_put, HI|]. intros m2 d2 HI2. cbn. split; auto.
  - split; [reflexivity|apply onl_self].
  - intros [c m1] [d c'] [_ HI]. exact HI.
Qed.
Lemma t_mul_assign_u_gives n t m a v : 0 <= n -> lenp n (m a) -> modifies m a (t_mul_assign_u n t a v) (mul_assign_u n t (m a) v).
Proof.
  intros Hn La. unfold t_mul_assign_u, mul_assign_u. destruct (is_uint64_t t).
  - apply modifies_then; [apply v_filled_gives, reads_at|]. intros ll _. cbv zeta. apply modifies_store; auto; [|now apply mul_lines_len].
    apply (v_mul_lines_gives m n true); [apply reads_at|]. intros j. apply vg_ret.
  - unfold modifies. rewrite run_bind, run_forU. eapply osim_bind; [apply simU with (P := onc m a)|].
    + intros i [c m1] [d c'] [Ec HI]. cbn [fst snd] in *. subst c'. rewrite run_at, (onl_get _ _ _ _ _ HI).
      eapply osim_bind; [apply osim_refl|]. intros x ? <-. cbv zeta. rewrite run_aput.
      eapply osim_bind; [apply onl_put, HI|]. intros m2 d2 HI2. cbn. split; auto.
    + split; [reflexivity|apply onl_self].
    + intros [c m1] [d c'] [_ HI]. exact HI.
Qed.
Lemma onu_put m0 a s d i v : onl m0 a s d -> osim (onu m0 a) (run_act (aput a i v) s) (aset d i v).
Proof.
  intros H. unfold aput. cbn [run_act]. rewrite <- (bind_ok_r (aset d i v)). eapply osim_bind; [apply onl_put, H|]. intros m2 d2 HI2. exact HI2.
Qed.
Lemma t_shl_assign_gives n m a k : modifies m a (t_shl_assign n a k) (shl_assign n (m a) k).
Proof.
  unfold modifies, t_shl_assign, shl_assign. destruct ((k >=? 32 * n) || (k =? 0)); [cbn; auto|]. cbv zeta.
  rewrite run_bind, run_forD. eapply osim_bind; [apply simD with (P := onu m a)|].
  - intros i [[] m1] d HI. unfold onu in HI. cbn [snd] in HI. rewrite run_at, (onl_get _ _ _ _ _ HI). eapply osim_bind; [apply osim_refl|]. intros x ? <-.
    rewrite run_at, (onl_get _ _ _ _ _ HI). eapply osim_bind; [apply osim_refl|]. intros y ? <-. now apply onu_put.
  - apply onl_self.
  - intros [[] m1] d HI. unfold onu in HI. cbn [snd] in HI. rewrite run_at, (onl_get _ _ _ _ _ HI). eapply osim_bind; [apply osim_refl|]. intros x ? <-.
    rewrite run_aput. eapply osim_bind; [apply onl_put, HI|]. intros m2 d2 HI2. rewrite run_forU.
    apply simU with (P := onu m a); [|exact HI2]. intros i [[] m3] d3 HI3. now apply onu_put.
Qed.
Lemma t_shr_assign_gives n m a k : modifies m a (t_shr_assign n a k) (shr_assign n (m a) k).
Proof.
  unfold modifies, t_shr_assign, shr_assign. destruct ((k >=? 32 * n) || (k =? 0)); [cbn; auto|]. cbv zeta.
  rewrite run_bind, run_forU. eapply osim_bind; [apply simU with (P := onu m a)|].
  - intros i [[] m1] d HI. unfold onu in HI. cbn [snd] in HI. rewrite run_at, (onl_get _ _ _ _ _ HI). eapply osim_bind; [apply osim_refl|]. intros x ? <-.
    rewrite run_at, (onl_get _ _ _ _ _ HI). eapply osim_bind; [apply osim_refl|]. intros y ? <-. now apply onu_put.
  - apply onl_self.
  - intros [[] m1] d HI. unfold onu in HI. cbn [snd] in HI. rewrite run_at, (onl_get _ _ _ _ _ HI). eapply osim_bind; [apply osim_refl|]. intros x ? <-.
    rewrite run_aput. eapply osim_bind; [apply onl_put, HI|]. intros m2 d2 HI2. rewrite run_forU.
    apply simU with (P := onu m a); [|exact HI2]. intros i [[] m3] d3 HI3. now apply onu_put.
Qed.
Lemma t_setBit_gives cfg n m a i b : modifies m a (t_setBit cfg n a i b) (setBit cfg n (m a) i b).
Proof.
  unfold t_setBit, setBit. destruct (negb (cfg_unsafe cfg) && (i >=? 32 * n)); [cbn; auto|]. cbv zeta.
  apply modifies_then; [apply vg_pure|]. intros _ _. unfold modifies. rewrite run_at, (onl_get m a m (m a)) by apply onl_self.
  eapply osim_bind; [apply osim_refl|]. intros x ? <-. destruct b; apply onu_put, onl_self.
Qed.
