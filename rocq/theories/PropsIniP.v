(** * PropsIniP: programs that assign before they use never read memory nobody wrote (C156, C157). *)
From Verif Require Import Base Spec Lib AeuModel AeuFacts AeuArith AeuBits AeuAccess AeuDiv AeuMore AesiModel AesiArith AesiFacts
  ProgSpec ProgModel ProgFacts ProgTotal ProgSigned IniSpec IniModel IniFacts IniSigned PropsIni PropsAesi PropsIniS IniProgSpec IniProgModel.
From Coq Require Import Lia ZifyBool.
Open Scope Z_scope.

Ltac conjs := repeat match goal with |- _ /\ _ => split end.

Lemma within_In a b x : within a b = true -> In x a -> In x b.
Proof.
  unfold within. intros H Hx. rewrite forallb_forall in H. specialize (H x Hx). apply existsb_exists in H.
  destruct H as (y & Hy & E). apply Nat.eqb_eq in E. subst. exact Hy.
Qed.
Lemma assigned_grows {I C} (rd wr : I -> list nat) (cr : C -> list nat) s : forall V W, assigned rd wr cr V s = Some W -> incl V W.
Proof.
  induction s as [|i|s IHs t IHt|c s IHs t IHt|c s IHs]; intros V W H; cbn [assigned] in H.
  - injection H as <-. apply incl_refl.
  - destruct (within (rd i) V); [|discriminate]. injection H as <-. apply incl_appr, incl_refl.
  - destruct (assigned rd wr cr V s) as [X|] eqn:E; [|discriminate]. eapply incl_tran; [apply IHs; exact E|apply IHt; exact H].
  - destruct (within (cr c) V); [|discriminate]. destruct (assigned rd wr cr V s) as [A|] eqn:EA; [|discriminate].
    destruct (assigned rd wr cr V t) as [B|] eqn:EB; [|discriminate]. injection H as <-.
    intros x Hx. apply filter_In. split; [apply (IHs V A EA x Hx)|]. apply existsb_exists. exists x. split; [apply (IHt V B EB x Hx)|apply Nat.eqb_refl].
  - destruct (within (cr c) V); [|discriminate]. destruct (assigned rd wr cr V s); [|discriminate]. injection H as <-. apply incl_refl.
Qed.
Lemma filter_incl_l (f : nat -> bool) A : incl (filter f A) A.
Proof. intros x Hx. apply filter_In in Hx. tauto. Qed.
Lemma filter_incl_r A B : incl (filter (fun x => existsb (Nat.eqb x) B) A) B.
Proof. intros x Hx. apply filter_In in Hx. destruct Hx as [_ H]. apply existsb_exists in H. destruct H as (y & Hy & E). apply Nat.eqb_eq in E. subst. exact Hy. Qed.

(** Lifting to programs, for any instruction set: with the meaning on integers, and without. *)
Lemma run_da {M I C} (exec : M -> I -> outcome M) (test : M -> C -> outcome bool) si sc rd wr cr (R : list nat -> M -> env -> Prop) :
  (forall V W m e, incl W V -> R V m e -> R W m e) ->
  (forall V m e i e', R V m e -> within (rd i) V = true -> si e i = Some e' -> exists m', exec m i = Ok m' /\ R (wr i ++ V) m' e') ->
  (forall V m e c b, R V m e -> within (cr c) V = true -> sc e c = Some b -> test m c = Ok b) ->
  forall fuel s V W m e, assigned rd wr cr V s = Some W -> R V m e ->
  match spec_run si sc fuel s e with
  | RVal e' => exists m', run exec test fuel s m = Ok m' /\ R W m' e'
  | RUndef => True
  | RTimeout => run exec test fuel s m = Err OutOfFuel
  end.
Proof.
  intros HM HI HC. induction fuel as [|f IH]; intros s V W m e HA HR; cbn [spec_run run]; [reflexivity|].
  pose proof (assigned_grows rd wr cr s V W HA) as GR.
  destruct s as [|i|s t|c s t|c s]; cbn [assigned] in HA.
  - injection HA as <-. eauto.
  - destruct (within (rd i) V) eqn:Wi; [|discriminate]. injection HA as <-. destruct (si e i) as [e'|] eqn:E; auto. eauto.
  - destruct (assigned rd wr cr V s) as [X|] eqn:EX; [|discriminate].
    pose proof (IH s V X m e EX HR) as H. destruct (spec_run si sc f s e) as [e'| |]; auto.
    + destruct H as (m' & -> & R'). cbn [bind]. apply (IH t X W); auto.
    + rewrite H. reflexivity.
  - destruct (within (cr c) V) eqn:Wc; [|discriminate]. destruct (assigned rd wr cr V s) as [A|] eqn:EA; [|discriminate].
    destruct (assigned rd wr cr V t) as [B|] eqn:EB; [|discriminate]. injection HA as <-.
    destruct (sc e c) as [b|] eqn:E; auto. rewrite (HC _ _ _ _ _ HR Wc E). cbn [bind]. destruct b.
    + pose proof (IH s V A m e EA HR) as H. destruct (spec_run si sc f s e); auto. destruct H as (m' & Em & R').
      exists m'. split; auto. eapply HM; [|exact R']. apply filter_incl_l.
    + pose proof (IH t V B m e EB HR) as H. destruct (spec_run si sc f t e); auto. destruct H as (m' & Em & R').
      exists m'. split; auto. eapply HM; [|exact R']. apply filter_incl_r.
  - destruct (within (cr c) V) eqn:Wc; [|discriminate]. destruct (assigned rd wr cr V s) as [A|] eqn:EA; [|discriminate]. injection HA as <-.
    destruct (sc e c) as [b|] eqn:E; auto. rewrite (HC _ _ _ _ _ HR Wc E). cbn [bind]. destruct b; [|eauto].
    pose proof (IH s V A m e EA HR) as H. destruct (spec_run si sc f s e) as [e'| |]; auto.
    + destruct H as (m' & -> & R'). cbn [bind]. apply (IH (While c s) V V).
      * cbn [assigned]. rewrite Wc, EA. reflexivity.
      * eapply HM; [|exact R']. apply (assigned_grows rd wr cr s V A EA).
    + rewrite H. reflexivity.
Qed.
Lemma run_da_tot {M I C} (exec : M -> I -> outcome M) (test : M -> C -> outcome bool) (ti : I -> Prop) (tc : C -> Prop) rd wr cr (R : list nat -> M -> Prop) :
  (forall V W m, incl W V -> R V m -> R W m) ->
  (forall V m i, R V m -> within (rd i) V = true -> ti i -> exists m', exec m i = Ok m' /\ R (wr i ++ V) m') ->
  (forall V m c, R V m -> within (cr c) V = true -> tc c -> exists b, test m c = Ok b) ->
  forall fuel s V W m, assigned rd wr cr V s = Some W -> typed ti tc s -> R V m ->
  match run exec test fuel s m with Ok m' => R W m' | Err f => f = OutOfFuel end.
Proof.
  intros HM HI HC. induction fuel as [|f IH]; intros s V W m HA HT HR; cbn [run]; [reflexivity|].
  destruct s as [|i|s t|c s t|c s]; cbn [assigned typed] in HA, HT.
  - injection HA as <-. auto.
  - destruct (within (rd i) V) eqn:Wi; [|discriminate]. injection HA as <-. destruct (HI V m i HR Wi HT) as (m' & -> & ?). auto.
  - destruct (assigned rd wr cr V s) as [X|] eqn:EX; [|discriminate].
    pose proof (IH s V X m EX (proj1 HT) HR) as H. destruct (run exec test f s m) as [m'|]; cbn [bind]; auto. apply (IH t X W); tauto.
  - destruct (within (cr c) V) eqn:Wc; [|discriminate]. destruct (assigned rd wr cr V s) as [A|] eqn:EA; [|discriminate].
    destruct (assigned rd wr cr V t) as [B|] eqn:EB; [|discriminate]. injection HA as <-. destruct HT as (T1 & T2 & T3).
    destruct (HC V m c HR Wc T1) as (b & ->). cbn [bind]. destruct b.
    + pose proof (IH s V A m EA T2 HR) as H. destruct (run exec test f s m); auto. eapply HM; [|exact H]. apply filter_incl_l.
    + pose proof (IH t V B m EB T3 HR) as H. destruct (run exec test f t m); auto. eapply HM; [|exact H]. apply filter_incl_r.
  - destruct (within (cr c) V) eqn:Wc; [|discriminate]. destruct (assigned rd wr cr V s) as [A|] eqn:EA; [|discriminate]. injection HA as <-.
    destruct HT as (T1 & T2). destruct (HC V m c HR Wc T1) as (b & ->). cbn [bind]. destruct b; auto.
    pose proof (IH s V A m EA T2 HR) as H. destruct (run exec test f s m) as [m'|]; cbn [bind]; auto. apply (IH (While c s) V V).
    + cbn [assigned]. rewrite Wc, EA. reflexivity.
    + cbn [typed]. auto.
    + eapply HM; [|exact H]. apply (assigned_grows rd wr cr s V A EA).
Qed.

(** ** Unsigned programs *)
Definition urelV (n : Z) (V : list nat) (m : cmem) (e : env) : Prop := forall v, In v V -> holds n (m v) (e v).
Definition uallV (n : Z) (V : list nat) (m : cmem) : Prop := forall v, In v V -> exists x, holds n (m v) x.

Lemma cput_eq {A} (m : nat -> A) d x : cput m d x d = x.
Proof. unfold cput. now rewrite Nat.eqb_refl. Qed.
Lemma cput_ne {A} (m : nat -> A) d x k : k <> d -> cput m d x k = m k.
Proof. unfold cput. intros H. destruct (Nat.eqb_spec k d); congruence. Qed.
Lemma urelV_put n V m e d x v : urelV n V m e -> holds n x v -> urelV n (d :: V) (cput m d x) (eput e d v).
Proof.
  intros R H k [<-|Hk]; [rewrite cput_eq, eput_eq; exact H|]. destruct (Nat.eq_dec k d) as [->|N].
  - rewrite cput_eq, eput_eq. exact H.
  - rewrite cput_ne, eput_ne by auto. apply R, Hk.
Qed.
Lemma uallV_put n V m d x v : uallV n V m -> holds n x v -> uallV n (d :: V) (cput m d x).
Proof.
  intros R H k [<-|Hk]; [rewrite cput_eq; eauto|]. destruct (Nat.eq_dec k d) as [->|N]; [rewrite cput_eq; eauto|].
  rewrite cput_ne by auto. apply R, Hk.
Qed.
Lemma holds_copy n x v : holds n x v -> copy x = Ok x.
Proof. intros (a & -> & _). apply copy_init. Qed.
Lemma urel_store n V m e d call v : urelV n V m e -> gives n call v -> exists m', c_store m d call = Ok m' /\ urelV n (d :: V) m' (eput e d v).
Proof.
  intros R (c & -> & H). unfold c_store. cbn [bind]. rewrite (holds_copy n c v H). cbn [bind]. eexists. split; [reflexivity|]. now apply urelV_put.
Qed.
Lemma urel_inplace n V m e d call v : urelV n V m e -> gives n call v -> exists m', c_inplace m d call = Ok m' /\ urelV n (d :: V) m' (eput e d v).
Proof. intros R (c & -> & H). unfold c_inplace. cbn [bind]. eexists. split; [reflexivity|]. now apply urelV_put. Qed.
Lemma uall_store n V m d call v : uallV n V m -> gives n call v -> exists m', c_store m d call = Ok m' /\ uallV n (d :: V) m'.
Proof.
  intros R (c & -> & H). unfold c_store. cbn [bind]. rewrite (holds_copy n c v H). cbn [bind]. eexists. split; [reflexivity|]. eapply uallV_put; eauto.
Qed.
Lemma uall_inplace n V m d call v : uallV n V m -> gives n call v -> exists m', c_inplace m d call = Ok m' /\ uallV n (d :: V) m'.
Proof. intros R (c & -> & H). unfold c_inplace. cbn [bind]. eexists. split; [reflexivity|]. eapply uallV_put; eauto. Qed.
Lemma gives_tot n call x : call = lift init x -> tot n x -> exists v, gives n call v.
Proof. intros -> (r & -> & W). exists (bval r), (init r). split; [reflexivity|]. exists r. auto. Qed.

(** The compound assignments and the binary operators are the same function of completely written operands. *)
Definition u_val (cfg : config) (o : cop) (n : Z) (a b : list Z) : outcome (list Z) :=
  match o with
  | OAdd => add_assign n a b | OSub => sub_assign n a b | OMul => mul_assign n a b
  | ODiv => div_assign cfg n a b | OMod => mod_assign cfg n a b
  | OXor => xor_assign n a b | OAnd => and_assign n a b | OOr => or_assign n a b
  end.
Lemma c_assign_i cfg o n a b : 0 <= n -> c_assign cfg o n (init a) (init b) = lift init (u_val cfg o n a b).
Proof.
  intros Hn. destruct o; cbn [c_assign u_val].
  - apply add_assign_i. - apply sub_assign_i. - apply mul_assign_i. - apply div_assign_i, Hn. - apply mod_assign_i, Hn.
  - apply bitwise_i. - apply bitwise_i. - apply bitwise_i.
Qed.
Lemma c_binary_i cfg o n a b : 0 <= n -> c_binary cfg o n (init a) (init b) = lift init (u_val cfg o n a b).
Proof.
  intros Hn. destruct o; cbn [c_binary u_val].
  - apply op_add_i. - apply op_sub_i. - apply op_mul_i. - apply op_div_i, Hn. - apply op_mod_i, Hn.
  - apply op_xor_i. - apply op_and_i. - apply op_or_i.
Qed.
Lemma u_val_ok cfg o n a b : 1 <= n -> wf n a -> wf n b -> cop_defined o (bval b) = true -> yields n (u_val cfg o n a b) (cop_value o n (bval a) (bval b)).
Proof.
  intros Hn Wa Wb D. destruct o; cbn [u_val cop_value cop_defined] in *.
  - apply add_assign_correct; auto. - apply sub_assign_correct; auto. - apply mul_assign_correct; auto.
  - destruct (divide_pos cfg n a b Hn Wa Wb ltac:(lia)) as (q & r & E & Q & R). unfold div_assign, op_div. rewrite E. exists q. auto.
  - destruct (divide_pos cfg n a b Hn Wa Wb ltac:(lia)) as (q & r & E & Q & R). unfold mod_assign, op_mod. rewrite E. exists r. auto.
  - apply xor_correct; auto. - apply and_correct; auto. - apply or_correct; auto.
Qed.
Lemma u_val_tot cfg o n a b : 1 <= n -> wf n a -> wf n b -> tot n (u_val cfg o n a b).
Proof.
  intros Hn Wa Wb. destruct (div_tot cfg n a b Hn Wa Wb) as (q & r & E & Wq & Wr).
  destruct o; cbn [u_val].
  - eapply yields_tot, add_assign_correct; auto. - eapply yields_tot, sub_assign_correct; auto. - eapply yields_tot, mul_assign_correct; auto.
  - unfold div_assign, op_div. rewrite E. exists q. auto.
  - unfold mod_assign, op_mod. rewrite E. exists r. auto.
  - eapply yields_tot, xor_correct; auto. - eapply yields_tot, and_correct; auto. - eapply yields_tot, or_correct; auto.
Qed.

Ltac rdin H := let x := fresh in match type of H with within ?l _ = true => (assert (x := fun v => within_In _ _ v H)) end.

Lemma cexec_ok cfg n V m e i e' : 1 <= n -> urelV n V m e -> within (ureads i) V = true -> uspec_instr n e i = Some e' ->
  exists m', cexec cfg n m i = Ok m' /\ urelV n (uwrites i ++ V) m' e'.
Proof.
  intros Hn R Rd H. pose proof (gfuel_enough n Hn) as GF.
  assert (G : forall k, In k (ureads i) -> exists a, m k = init a /\ wf n a /\ e k = bval a).
  { intros k Hk. destruct (R k (within_In _ _ k Rd Hk)) as (a & E & W & Vv). exists a. auto. }
  clear Rd. destruct i; cbn [uspec_instr cexec ureads uwrites app] in *.
  - destruct (G s) as (a & E & W & Es); [now left|]. injection H as <-. apply urel_store; auto. rewrite E, Es. exists (init a). split; [reflexivity|]. exists a. auto.
  - apply guard_some in H. destruct H as [Gd ->]. apply urel_store; auto. eapply gives_lift; [apply from_unsigned_i; lia|].
    apply from_unsigned_correct; try lia. apply len_zeros; lia.
  - apply guard_some in H. destruct H as [Gd ->]. destruct (G d) as (a & E & W & Ed); [now left|]. destruct (G s) as (b & E2 & W2 & Es); [right; now left|].
    apply urel_inplace; auto. rewrite E, E2, Ed, Es in *. eapply gives_lift; [apply c_assign_i; lia|]. apply u_val_ok; auto.
  - apply guard_some in H. destruct H as [Gd ->]. destruct (G a) as (x & E & W & Ed); [now left|]. destruct (G b) as (y & E2 & W2 & Es); [right; now left|].
    apply urel_store; auto. rewrite E, E2, Ed, Es in *. eapply gives_lift; [apply c_binary_i; lia|]. apply u_val_ok; auto.
  - injection H as <-. destruct (G d) as (a & E & W & Ed); [now left|]. apply urel_inplace; auto. rewrite E, Ed. eapply gives_lift; [apply op_inc_i|]. now apply op_inc_correct.
  - injection H as <-. destruct (G d) as (a & E & W & Ed); [now left|]. apply urel_inplace; auto. rewrite E, Ed. eapply gives_lift; [apply op_dec_i|]. now apply op_dec_correct.
  - injection H as <-. destruct (G s) as (a & E & W & Ed); [now left|]. apply urel_store; auto. rewrite E, Ed. eapply gives_lift; [apply op_neg_i|]. now apply op_neg_correct.
  - injection H as <-. destruct (G s) as (a & E & W & Ed); [now left|]. apply urel_store; auto. rewrite E, Ed. eapply gives_lift; [apply op_not_i; lia|].
    apply op_not_correct; auto. apply len_zeros; lia.
  - apply guard_some in H. destruct H as [Gd ->]. destruct (G d) as (a & E & W & Ed); [now left|]. apply urel_inplace; auto. rewrite E, Ed. eapply gives_lift; [apply shl_assign_i|].
    apply shl_assign_correct; auto. lia.
  - apply guard_some in H. destruct H as [Gd ->]. destruct (G d) as (a & E & W & Ed); [now left|]. apply urel_inplace; auto. rewrite E, Ed. eapply gives_lift; [apply shr_assign_i|].
    apply shr_assign_correct; auto. lia.
  - apply guard_some in H. destruct H as [Gd ->]. destruct (G d) as (a & E & W & Ed); [now left|]. apply urel_inplace; auto. rewrite E, Ed. eapply gives_lift; [apply setBit_i|].
    apply setBit_spec; auto. lia.
  - apply guard_some in H. destruct H as [Gd ->]. destruct (G d) as (a & E & W & Ed); [now left|]. apply urel_inplace; auto. rewrite E, Ed. eapply gives_lift; [apply add_assign_u_i|].
    apply add_assign_u_correct; auto; lia.
  - apply guard_some in H. destruct H as [Gd ->]. destruct (G d) as (a & E & W & Ed); [now left|]. apply urel_inplace; auto. rewrite E, Ed. eapply gives_lift; [apply mul_assign_u_i|].
    destruct t; try (apply mul_assign_u_correct; auto; cbn in *; [lia|discriminate]). apply mul_assign_u_small; auto. lia.
  - injection H as <-. destruct (G a) as (x & E & W & Ea); [now left|]. destruct (G b) as (y & E2 & W2 & Eb); [right; now left|].
    rewrite E, E2, swap_i. cbn [bind]. eexists. split; [reflexivity|]. intros k Hk. unfold cput, eput.
    destruct (Nat.eqb_spec k b) as [->|Nb]; [exists x; auto|]. destruct (Nat.eqb_spec k a) as [->|Na]; [exists y; auto|].
    destruct Hk as [<-|[<-|Hk]]; try congruence. apply R, Hk.
  - match type of H with (if ?g then _ else _) = _ => destruct g eqn:Gd; [|discriminate] end. injection H as <-.
    destruct (G nu) as (x & E & W & Ea); [now left|]. destruct (G de) as (y & E2 & W2 & Eb); [right; now left|].
    assert (D : bval y <> 0) by (rewrite <- Eb; lia).
    destruct (divide_pos cfg n x y Hn W W2 D) as (q0 & r0 & E3 & [Wq Vq] & [Wr Vr]).
    rewrite E, E2, divide_i by lia. rewrite E3. cbn [lift bind init2 fst snd]. eexists. split; [reflexivity|].
    rewrite Ea, Eb. intros k Hk.
    assert (Hk' : In k (r :: q :: V)) by (destruct Hk as [<-|[<-|Hk]]; [right; now left|now left|right; now right]).
    apply (urelV_put n (q :: V) (cput m q (init q0)) (eput e q (bval x / bval y)) r (init r0)); auto.
    + apply urelV_put; auto. exists q0. auto.
    + exists r0. auto.
  - injection H as <-. destruct (G a) as (x & E & W & Ea); [now left|]. destruct (G b) as (y & E2 & W2 & Eb); [right; now left|].
    apply urel_store; auto. rewrite E, E2, Ea, Eb. eapply gives_lift; [apply gcd_i; lia|]. apply gcd_correct; auto.
  - injection H as <-. destruct (G a) as (x & E & W & Ea); [now left|]. destruct (G b) as (y & E2 & W2 & Eb); [right; now left|].
    apply urel_store; auto. rewrite E, E2, Ea, Eb. eapply gives_lift; [apply lcm_i; lia|]. apply lcm_correct; auto.
  - injection H as <-. destruct (G a) as (x & E & W & Ea); [now left|].
    apply urel_store; auto. rewrite E, Ea. eapply gives_lift; [apply squareRoot_i; lia|]. apply squareRoot_correct; auto. lia.
  - apply guard_some in H. destruct H as [Gd ->]. apply urel_store; auto. eapply gives_lift; [apply power2_i|].
    pose proof (setBit_spec cfg n (zeros n) k true (wf_zeros n ltac:(lia)) ltac:(lia)) as S. rewrite bval_zeros in S.
    unfold power2, aeu_zero. unfold put_bit in S. rewrite Z.setbit_spec' in S. rewrite Z.lor_0_l in S. exact S.
  - apply guard_some in H. destruct H as [Gd ->]. destruct (G b) as (x & E & W & Eb); [now left|]. destruct (G p) as (y & E2 & W2 & Ep); [right; now left|].
    destruct (G m0) as (z & E3 & W3 & Em); [right; right; now left|].
    apply urel_store; auto. rewrite E, E2, E3, Eb, Ep, Em in *. eapply gives_lift; [apply powm_i; lia|].
    pose proof (powm_spec cfg n _ _ _ Hn W W2 W3 ltac:(lia) ltac:(lia)) as S.
    destruct (Z.eqb_spec (bval y) 0) as [E0|]; [|exact S]. rewrite E0. rewrite Z.mod_small by lia. exact S.
Qed.
Lemma ctest_ok cfg n V m e c b : 1 <= n -> urelV n V m e -> within (ucreads c) V = true -> uspec_cond n e c = Some b -> ctest cfg n m c = Ok b.
Proof.
  intros Hn R Rd H.
  assert (G : forall k, In k (ucreads c) -> exists a, m k = init a /\ wf n a /\ e k = bval a).
  { intros k Hk. destruct (R k (within_In _ _ k Rd Hk)) as (a & E & W & Vv). exists a. auto. }
  destruct c; cbn [uspec_cond ctest ucreads] in *;
    (destruct (G a) as (x & E & W & Ea); [now left|]); try (destruct (G b0) as (y & E2 & W2 & Eb); [right; now left|]);
    rewrite ?E, ?E2, ?Ea, ?Eb in *;
    try (rewrite ?op_eq_i, ?op_ne_i, ?op_lt_i, ?op_le_i, ?op_gt_i, ?op_ge_i, ?isOdd_i, ?isZero_i;
         unfold op_ne; rewrite ?op_eq_cross, ?op_lt_same, ?op_le_same, ?op_gt_same, ?op_ge_same, ?(isOdd_spec n), ?isZero_spec by auto;
         cbn [bind]; congruence).
  destruct ((0 <=? i) && (i <? 32 * n)) eqn:Gd; [|discriminate]. rewrite getBit_i, getBit_spec by (auto || lia). congruence.
Qed.

(** ** C156 *)

(** Variables in [V] start completely written, the others in any state.  A program that passes the compiler's check
    ends the way it ends on integers modulo 2^N, and every variable the check says is assigned is completely written
    and holds the right value. *)
Theorem C156_assigned_programs : forall cfg n fuel prog V W (m : nat -> list (option Z)) e, 1 <= n ->
  assigned ureads uwrites ucreads V prog = Some W -> (forall v, In v V -> holds n (m v) (e v)) ->
  match uspec_run n fuel prog e with
  | RVal e' => exists m', crun cfg n fuel prog m = Ok m' /\ forall v, In v W -> holds n (m' v) (e' v)
  | RUndef => True
  | RTimeout => crun cfg n fuel prog m = Err OutOfFuel
  end.
Proof.
  intros cfg n fuel prog V W m e Hn A R. unfold uspec_run, crun.
  apply (run_da (cexec cfg n) (ctest cfg n) (uspec_instr n) (uspec_cond n) ureads uwrites ucreads (urelV n)) with (V := V); auto.
  - intros V0 W0 m0 e0 HI HR v Hv. apply HR, HI, Hv.
  - intros; eapply cexec_ok; eauto.
  - intros; eapply ctest_ok; eauto.
Qed.

Lemma cexec_tot cfg n V m i : 1 <= n -> cfg_unsafe cfg = false -> uallV n V m -> within (ureads i) V = true -> uinstr_typed i /\ uown i ->
  exists m', cexec cfg n m i = Ok m' /\ uallV n (uwrites i ++ V) m'.
Proof.
  intros Hn U R Rd [T O]. pose proof (gfuel_enough n Hn) as GF.
  assert (LZ : len (zeros n) = n) by (apply len_zeros; lia).
  assert (G : forall k, In k (ureads i) -> exists a, m k = init a /\ wf n a).
  { intros k Hk. destruct (R k (within_In _ _ k Rd Hk)) as (v & a & E & W & Vv). exists a. auto. }
  assert (ST : forall d call x, call = lift init x -> tot n x -> exists m', c_store m d call = Ok m' /\ uallV n (d :: V) m').
  { intros d call x E Tx. destruct (gives_tot n call x E Tx) as (v & Gv). eapply uall_store; eauto. }
  assert (IP : forall d call x, call = lift init x -> tot n x -> exists m', c_inplace m d call = Ok m' /\ uallV n (d :: V) m').
  { intros d call x E Tx. destruct (gives_tot n call x E Tx) as (v & Gv). eapply uall_inplace; eauto. }
  clear Rd. destruct i; cbn [uinstr_typed uown cexec ureads uwrites app] in *.
  - destruct (G s) as (a & E & W); [now left|]. rewrite E. apply (ST d (Ok (init a)) (Ok a)); [reflexivity|]. exists a. auto.
  - eapply ST; [apply from_unsigned_i; lia|]. eapply yields_tot, from_unsigned_correct; auto; lia.
  - destruct (G d) as (a & E & W); [now left|]. destruct (G s) as (b & E2 & W2); [right; now left|]. rewrite E, E2.
    eapply IP; [apply c_assign_i; lia|]. apply u_val_tot; auto.
  - destruct (G a) as (x & E & W); [now left|]. destruct (G b) as (y & E2 & W2); [right; now left|]. rewrite E, E2.
    eapply ST; [apply c_binary_i; lia|]. apply u_val_tot; auto.
  - destruct (G d) as (a & E & W); [now left|]. rewrite E. eapply IP; [apply op_inc_i|]. eapply yields_tot, op_inc_correct; auto.
  - destruct (G d) as (a & E & W); [now left|]. rewrite E. eapply IP; [apply op_dec_i|]. eapply yields_tot, op_dec_correct; auto.
  - destruct (G s) as (a & E & W); [now left|]. rewrite E. eapply ST; [apply op_neg_i|]. eapply yields_tot, op_neg_correct; auto.
  - destruct (G s) as (a & E & W); [now left|]. rewrite E. eapply ST; [apply op_not_i; lia|]. eapply yields_tot, op_not_correct; auto.
  - destruct (G d) as (a & E & W); [now left|]. rewrite E. eapply IP; [apply shl_assign_i|]. eapply yields_tot, shl_total; auto.
  - destruct (G d) as (a & E & W); [now left|]. rewrite E. eapply IP; [apply shr_assign_i|]. eapply yields_tot, shr_total; auto.
  - destruct (G d) as (a & E & W); [now left|]. rewrite E. eapply IP; [apply setBit_i|]. apply setBit_tot; auto.
  - destruct (G d) as (a & E & W); [now left|]. rewrite E. eapply IP; [apply add_assign_u_i|]. eapply yields_tot, add_assign_u_gen; auto.
  - destruct (G d) as (a & E & W); [now left|]. rewrite E. eapply IP; [apply mul_assign_u_i|]. apply mul_assign_u_tot; auto.
  - destruct (G a) as (x & E & W); [now left|]. destruct (G b) as (y & E2 & W2); [right; now left|]. rewrite E, E2, swap_i. cbn [bind].
    eexists. split; [reflexivity|]. intros k Hk. unfold cput.
    destruct (Nat.eqb_spec k b) as [->|Nb]; [exists (bval x), x; auto|]. destruct (Nat.eqb_spec k a) as [->|Na]; [exists (bval y), y; auto|].
    destruct Hk as [<-|[<-|Hk]]; try congruence. apply R, Hk.
  - destruct (G nu) as (x & E & W); [now left|]. destruct (G de) as (y & E2 & W2); [right; now left|].
    destruct (div_tot cfg n x y Hn W W2) as (q0 & r0 & E3 & Wq & Wr).
    rewrite E, E2, divide_i by lia. rewrite E3. cbn [lift bind init2 fst snd]. eexists. split; [reflexivity|].
    intros k Hk.
    assert (Hk' : In k (r :: q :: V)) by (destruct Hk as [<-|[<-|Hk]]; [right; now left|now left|right; now right]).
    apply (uallV_put n (q :: V) (cput m q (init q0)) r (init r0) (bval r0)); auto.
    + apply (uallV_put n V m q (init q0) (bval q0)); auto. exists q0. auto.
    + exists r0. auto.
  - destruct (G a) as (x & E & W); [now left|]. destruct (G b) as (y & E2 & W2); [right; now left|]. rewrite E, E2.
    eapply ST; [apply gcd_i; lia|]. eapply yields_tot, gcd_correct; auto.
  - destruct (G a) as (x & E & W); [now left|]. destruct (G b) as (y & E2 & W2); [right; now left|]. rewrite E, E2.
    eapply ST; [apply lcm_i; lia|]. eapply yields_tot, lcm_correct; auto.
  - destruct (G a) as (x & E & W); [now left|]. rewrite E. eapply ST; [apply squareRoot_i; lia|]. eapply yields_tot, squareRoot_correct; auto; lia.
  - eapply ST; [apply power2_i|]. eapply yields_tot, power2_total; auto; lia.
  - destruct (G b) as (x & E & W); [now left|]. destruct (G p) as (y & E2 & W2); [right; now left|].
    destruct (G m0) as (z & E3 & W3); [right; right; now left|]. rewrite E, E2, E3. eapply ST; [apply powm_i; lia|]. apply powm_tot; auto.
Qed.
Lemma ctest_tot cfg n V m c : 1 <= n -> cfg_unsafe cfg = false -> uallV n V m -> within (ucreads c) V = true -> ucond_typed c -> exists b, ctest cfg n m c = Ok b.
Proof.
  intros Hn U R Rd T.
  assert (G : forall k, In k (ucreads c) -> exists a, m k = init a /\ wf n a).
  { intros k Hk. destruct (R k (within_In _ _ k Rd Hk)) as (v & a & E & W & Vv). exists a. auto. }
  destruct c; cbn [ucond_typed ctest ucreads] in *;
    (destruct (G a) as (x & E & W); [now left|]); try (destruct (G b) as (y & E2 & W2); [right; now left|]);
    rewrite ?E, ?E2 in *;
    try (rewrite ?op_eq_i, ?op_ne_i, ?op_lt_i, ?op_le_i, ?op_gt_i, ?op_ge_i, ?isOdd_i, ?isZero_i;
         unfold op_ne; rewrite ?op_eq_cross, ?op_lt_same, ?op_le_same, ?op_gt_same, ?op_ge_same, ?(isOdd_spec n), ?isZero_spec by auto;
         cbn [bind]; eauto; fail).
  rewrite getBit_i. destruct (Z.ltb_spec i (32 * n)); [rewrite getBit_spec by (auto || lia); eauto|rewrite getBit_over by auto; eauto].
Qed.

(** Also where the integers promise nothing (division by zero, shifts and indices too large): no read of unwritten
    memory and no other fault. *)
Theorem C156_assigned_programs_never_fault : forall cfg n fuel prog V W (m : nat -> list (option Z)), 1 <= n -> cfg_unsafe cfg = false ->
  assigned ureads uwrites ucreads V prog = Some W -> typed (fun i => uinstr_typed i /\ uown i) ucond_typed prog ->
  (forall v, In v V -> exists x, holds n (m v) x) ->
  match crun cfg n fuel prog m with
  | Ok m' => forall v, In v W -> exists x, holds n (m' v) x
  | Err f => f = OutOfFuel
  end.
Proof.
  intros cfg n fuel prog V W m Hn U A T R. unfold crun.
  apply (run_da_tot (cexec cfg n) (ctest cfg n) (fun i => uinstr_typed i /\ uown i) ucond_typed ureads uwrites ucreads (uallV n)) with (V := V); auto.
  - intros V0 W0 m0 HI HR v Hv. apply HR, HI, Hv.
  - intros; eapply cexec_tot; eauto.
  - intros; eapply ctest_tot; eauto.
Qed.

(** The modular exponentiation of C61 with the literal zero made explicit and all but its inputs uninitialised:
    variables b=0, p=1, q=2 are inputs, r=3 and zero=4 are declared without initialiser. *)
Definition modexp2 : stmt uinstr ucond :=
  Seq (Do (ULit 4 0)) (Seq (Do (ULit 3 1))
      (While (CNe 1 4)
         (Seq (If (COdd 1) (Seq (Do (UOp OMul 3 0)) (Do (UOp OMod 3 2))) Skip)
         (Seq (Do (UOp OMul 0 0)) (Seq (Do (UDivide 0 2 5 6)) (Seq (Do (UCopy 0 6)) (Do (UShr 1 1)))))))).
Definition ex_in : cmem := fun i => match i with 0%nat => [Some 3; Some 0] | 1%nat => [Some 1000; Some 0] | 2%nat => [Some 4294967291; Some 0] | _ => fresh 2 end.
Definition ex_inE : env := fun i => match i with 0%nat => 3 | 1%nat => 1000 | 2%nat => 4294967291 | _ => 77 end.
Example C156_example :
  assigned ureads uwrites ucreads [0; 1; 2]%nat modexp2 = Some [3; 4; 0; 1; 2]%nat /\
  (forall v, In v [0; 1; 2]%nat -> holds 2 (ex_in v) (ex_inE v)) /\
  match uspec_run 2 100 modexp2 ex_inE with RVal e' => e' 3%nat = 3 ^ 1000 mod 4294967291 | _ => False end /\
  (* without the literal assigned to variable 4 the check fails, and so does the run *)
  assigned ureads uwrites ucreads [0; 1; 2]%nat (While (CNe 1 4) Skip) = None /\
  crun (mk_config false false true) 2 100 (While (CNe 1 4) Skip) ex_in = Err Indeterminate.
Proof.
  split; [vm_compute; reflexivity|]. split.
  { intros v [<-|[<-|[<-|[]]]]; [exists [3; 0]|exists [1000; 0]|exists [4294967291; 0]]; (split; [reflexivity|]; split; [apply wfb_wf; vm_compute; reflexivity|vm_compute; reflexivity]). }
  conjs; vm_compute; reflexivity.
Qed.
Print Assumptions C156_assigned_programs.
Print Assumptions C156_assigned_programs_never_fault.

(** ** Signed programs *)
Definition srelV (n : Z) (V : list nat) (m : csmem) (e : env) : Prop := forall v, In v V -> sholds n (m v) (e v).

Lemma srelV_put n V m e d x v : srelV n V m e -> sholds n x v -> srelV n (d :: V) (cput m d x) (eput e d v).
Proof.
  intros R H k [<-|Hk]; [rewrite cput_eq, eput_eq; exact H|]. destruct (Nat.eq_dec k d) as [->|N].
  - rewrite cput_eq, eput_eq. exact H.
  - rewrite cput_ne, eput_ne by auto. apply R, Hk.
Qed.
Lemma sholds_copy n x v : sholds n x v -> scopy x = Ok x.
Proof. intros (a & -> & _). apply scopy_i. Qed.
Lemma srel_store n V m e d call v : srelV n V m e -> sgives n call v -> exists m', cs_store m d call = Ok m' /\ srelV n (d :: V) m' (eput e d v).
Proof.
  intros R (c & -> & H). unfold cs_store. cbn [bind]. rewrite (sholds_copy n c v H). cbn [bind]. eexists. split; [reflexivity|]. now apply srelV_put.
Qed.
Lemma srel_inplace n V m e d call v : srelV n V m e -> sgives n call v -> exists m', cs_inplace m d call = Ok m' /\ srelV n (d :: V) m' (eput e d v).
Proof. intros R (c & -> & H). unfold cs_inplace. cbn [bind]. eexists. split; [reflexivity|]. now apply srelV_put. Qed.
Lemma cs_binary_i cfg o n a b : 0 <= n -> cs_binary cfg o n (sinit a) (sinit b) = lift sinit (s_assign_val cfg o n a b).
Proof.
  intros Hn. destruct o; cbn [cs_binary s_assign_val].
  - apply sadd_i. - apply ssub_i. - apply smul_i. - apply sdiv_i, Hn. - apply smod_i, Hn.
Qed.
Lemma cs_assign_i cfg o n a b : 0 <= n -> cs_assign cfg o n (sinit a) (sinit b) = lift sinit (s_assign_val cfg o n a b).
Proof.
  intros Hn. rewrite <- cs_binary_i by exact Hn.
  destruct o; cbn [cs_assign cs_binary]; unfold cs_add, cs_sub, cs_mul, cs_div, cs_mod; rewrite scopy_i; reflexivity.
Qed.

Lemma csexec_ok cfg n V m e i e' : 1 <= n -> srelV n V m e -> within (sreads_strict i) V = true -> sspec_instr n e i = Some e' ->
  exists m', csexec cfg n m i = Ok m' /\ srelV n (swrites i ++ V) m' e'.
Proof.
  intros Hn R Rd H. pose proof (gfuel_enough n Hn) as GF.
  assert (G : forall k, In k (sreads_strict i) -> exists a, m k = sinit a /\ swf n a /\ e k = sval a).
  { intros k Hk. destruct (R k (within_In _ _ k Rd Hk)) as (a & E & W & Vv). exists a. auto. }
  assert (L : forall t v, lit_ok t v = true -> ity_ok t = true /\ in_ity t v = true /\ (v <> ity_min t \/ v = 0)).
  { intros t v HL. unfold lit_ok in HL. repeat (apply andb_prop in HL; destruct HL as [HL ?]). lia. }
  clear Rd. destruct i; cbn [sspec_instr csexec sreads_strict sreads swrites app] in *.
  - destruct (G s) as (a & E & W & Es); [now left|]. injection H as <-. apply srel_store; auto. rewrite E, Es. exists (sinit a). split; [reflexivity|]. exists a. auto.
  - destruct (lit_ok t v && _) eqn:Gd; [|discriminate]. destruct (Z.abs v <? modulus n) eqn:B; [|discriminate]. injection H as <-.
    apply andb_prop in Gd. destruct Gd as [Gd Hw]. destruct (L _ _ Gd) as (L1 & L2 & L3).
    apply srel_store; auto. unfold cs_assign_int. eapply sgives_lift; [apply from_int_i; lia|].
    destruct (s_from_int_correct n t v Hn L1 L2) as (r & E & C & Vr).
    + lia.
    + intros HS HT Ev. destruct L3 as [?|Z0]; [auto|]. rewrite Z0 in Ev.
      unfold ity_min in Ev. rewrite HS in Ev. assert (0 < 2 ^ (iwidth t - 1)) by (apply Z.pow_pos_nonneg; unfold ity_ok in L1; lia). lia.
    + exists r. split; auto. split; auto. now apply canon_swf.
  - destruct (G d) as (a & E & W & Ea); [now left|]. destruct (G s) as (b & E2 & W2 & Eb); [right; now left|].
    destruct (scop_result o (e d) (e s)) as [v|] eqn:ER; [|discriminate].
    destruct (Z.abs v <? modulus n) eqn:B; [|discriminate]. injection H as <-. rewrite Ea, Eb in ER.
    apply srel_inplace; auto. rewrite E, E2. eapply sgives_lift; [apply cs_assign_i; lia|]. apply s_assign_val_ok; auto. lia.
  - destruct (G a) as (x & E & W & Ea); [now left|]. destruct (G b) as (y & E2 & W2 & Eb); [right; now left|].
    destruct (scop_result o (e a) (e b)) as [v|] eqn:ER; [|discriminate].
    destruct (Z.abs v <? modulus n) eqn:B; [|discriminate]. injection H as <-. rewrite Ea, Eb in ER.
    apply srel_store; auto. rewrite E, E2. eapply sgives_lift; [apply cs_binary_i; lia|]. apply s_assign_val_ok; auto. lia.
  - destruct (G d) as (a & E & W & Ea); [now left|]. destruct (Z.abs (e d + 1) <? modulus n) eqn:B; [|discriminate]. injection H as <-.
    apply srel_inplace; auto. rewrite E, Ea in *. eapply sgives_lift; [apply inc_i; lia|]. apply s_inc_correct; auto. lia.
  - destruct (G d) as (a & E & W & Ea); [now left|]. destruct (Z.abs (e d - 1) <? modulus n) eqn:B; [|discriminate]. injection H as <-.
    apply srel_inplace; auto. rewrite E, Ea in *. eapply sgives_lift; [apply dec_i; lia|]. apply s_dec_correct; auto. lia.
  - destruct (G s) as (a & E & W & Ea); [now left|]. injection H as <-. apply srel_store; auto. rewrite E, Ea. eapply sgives_lift; [apply neg_i|].
    exists (s_inverse a). split; [reflexivity|]. split; [apply s_inverse_swf; auto|]. apply s_inverse_val.
  - destruct (G d) as (a & E & W & Ea); [now left|]. injection H as <-. apply srel_inplace; auto. rewrite E, Ea, inverse_i.
    exists (sinit (s_inverse a)). split; [reflexivity|]. exists (s_inverse a). split; [reflexivity|]. split; [apply s_inverse_swf; auto|]. apply s_inverse_val.
  - destruct (G d) as (a & E & W & Ea); [now left|].
    destruct (lit_ok t v && _) eqn:Gd; [|discriminate]. destruct (Z.abs (e d * v) <? modulus n) eqn:B; [|discriminate]. injection H as <-.
    apply andb_prop in Gd. destruct Gd as [Gd Hw]. destruct (L _ _ Gd) as (L1 & L2 & L3).
    apply srel_inplace; auto. rewrite E, Ea in *.
    assert (P31 : 2 ^ (iwidth t - 1) <= 2 ^ 31 /\ 2 ^ iwidth t <= 2 ^ 32 /\ 0 < 2 ^ (iwidth t - 1)).
    { unfold ity_ok in L1. split; [apply Z.pow_le_mono_r; lia|]. split; [apply Z.pow_le_mono_r; lia|]. apply Z.pow_pos_nonneg; lia. }
    apply (sgives_lift n _ (s_mul_int cfg n t a v)). { rewrite <- smul_int_i. unfold cs_mul_int. rewrite scopy_i. reflexivity. }
    apply s_mul_int_correct; auto.
    + intros HS Ev. destruct L3 as [?|Z0]; [auto|]. unfold ity_min in Ev. rewrite HS in Ev. lia.
    + right. unfold in_ity, ity_min, ity_max in L2. destruct (isigned t); lia.
    + lia.
  - destruct (G d) as (a & E & W & Ea); [now left|].
    destruct (lit_ok t v && _ && _) eqn:Gd; [|discriminate]. destruct (Z.abs (Z.quot (e d) v) <? modulus n) eqn:B; [|discriminate]. injection H as <-.
    apply andb_prop in Gd. destruct Gd as [Gd Hw]. apply andb_prop in Gd. destruct Gd as [Gd G0]. destruct (L _ _ Gd) as (L1 & L2 & L3).
    apply srel_inplace; auto. rewrite E, Ea in *.
    apply (sgives_lift n _ (s_div_int cfg n t a v)). { rewrite <- sdiv_int_i by lia. unfold cs_div_int. rewrite scopy_i. reflexivity. }
    apply s_div_int_correct; auto; try lia.
  - injection H as <-. destruct (G a) as (x & E & W & Ea); [now left|]. destruct (G b) as (y & E2 & W2 & Eb); [right; now left|].
    assert (SW : cs_swap (sinit x) (sinit y) = Ok (sinit y, sinit x)).
    { unfold cs_swap, sget. destruct x as [sa ma], y as [sb mb]. red_s. rewrite swap_i. reflexivity. }
    rewrite E, E2, SW. cbn [bind]. eexists. split; [reflexivity|]. intros k Hk. unfold cput, eput.
    destruct (Nat.eqb_spec k b) as [->|Nb]; [exists x; auto|]. destruct (Nat.eqb_spec k a) as [->|Na]; [exists y; auto|].
    destruct Hk as [<-|[<-|Hk]]; try congruence. apply R, Hk.
  - match type of H with (if ?g then _ else _) = _ => destruct g eqn:Gd; [|discriminate] end. injection H as <-.
    destruct (G nu) as (x & E & W & Ea); [now left|]. destruct (G de) as (y & E2 & W2 & Eb); [right; now left|].
    destruct (G q) as (q0 & E3 & W3 & Eq); [right; right; now left|]. destruct (G r) as (r0 & E4 & W4 & Er); [right; right; right; now left|].
    assert (D : sval y <> 0) by (rewrite <- Eb; lia).
    assert (DV : exists qq rr, cs_divide cfg n (sinit x) (sinit y) (sinit q0) (sinit r0) = Ok (qq, rr) /\
        sholds n qq (Z.quot (sval x) (sval y)) /\ sholds n rr (Z.rem (sval x) (sval y))).
    { destruct (Z.eq_dec (sval x) 0) as [X0|X0].
      - rewrite X0, Z.quot_0_l, Z.rem_0_l by exact D.
        destruct (C155_written_outputs_stay cfg n (sinit x) (sinit y) (sval x) (sval y) (sinit q0) (sinit r0) (sval q0) (sval r0)) as (qq & rr & E5 & Hq & Hr);
          auto; try (eexists; split; [reflexivity|split; [assumption|reflexivity]]).
        exists qq, rr. auto.
      - destruct (s_divide_correct cfg n x y q0 r0 Hn W W2 (proj1 W3) (proj1 W4) D) as (qq & rr & E5 & Wq & Wr & Vq & Vr).
        assert (ZX : s_isZero x = false) by (unfold s_isZero; pose proof (swf_sign_ne n x W X0); destruct (sgn x); [congruence|reflexivity|reflexivity]).
        assert (ZY : s_isZero y = false) by (unfold s_isZero; pose proof (swf_sign_ne n y W2 D); destruct (sgn y); [congruence|reflexivity|reflexivity]).
        rewrite (sdivide_i cfg n x y q0 r0 (sinit q0) (sinit r0) ltac:(lia) ZX ZY).
        rewrite E5. exists (sinit qq), (sinit rr). split; [reflexivity|]. split; [exists qq|exists rr]; auto. }
    destruct DV as (qq & rr & E5 & Hq & Hr). rewrite E, E2, E3, E4, E5. cbn [bind]. eexists. split; [reflexivity|].
    rewrite Ea, Eb. intros k Hk.
    assert (Hk' : In k (r :: q :: V)) by (destruct Hk as [<-|[<-|Hk]]; [right; now left|now left|right; now right]).
    apply (srelV_put n (q :: V) (cput m q qq) (eput e q (Z.quot (sval x) (sval y))) r rr); auto. apply srelV_put; auto.
  - injection H as <-. destruct (G a) as (x & E & W & Ea); [now left|]. apply srel_store; auto. rewrite E, Ea.
    eapply sgives_lift; [apply ssquareRoot_i; lia|].
    destruct (s_squareRoot_correct cfg n (gfuel n) x Hn W ltac:(lia)) as (r & Er & C & Vr). exists r. split; auto.
    split; [now apply canon_swf|]. rewrite Vr. destruct (sval x >? 0) eqn:Q; auto.
    destruct (Z.eq_dec (sval x) 0) as [->|]; [reflexivity|]. symmetry. apply Z.sqrt_neg. lia.
  - destruct ((0 <=? k) && (k <? 32 * n)) eqn:Gd; [|discriminate]. injection H as <-. apply srel_store; auto. eapply sgives_lift; [apply spower2_i|].
    unfold s_power2. pose proof (setBit_spec cfg n (zeros n) k true (wf_zeros n ltac:(lia)) ltac:(lia)) as S. rewrite bval_zeros in S.
    unfold put_bit in S. rewrite Z.setbit_spec' in S. rewrite Z.lor_0_l in S. destruct S as (b & E & Wb & Vb).
    unfold power2, aeu_zero. rewrite E. cbn [bind].
    destruct (s_fix_zero_spec n (mk_aesi SPos b) Wb) as (r & Er & Sr & Vr & _). exists r. split; auto. split; auto. rewrite Vr. exact Vb.
Qed.
Lemma cstest_ok cfg n V m e c b : 1 <= n -> srelV n V m e -> within (screads c) V = true -> sspec_cond n e c = Some b -> cstest cfg n m c = Ok b.
Proof.
  intros Hn R Rd H.
  assert (G : forall k, In k (screads c) -> exists a, m k = sinit a /\ swf n a /\ e k = sval a).
  { intros k Hk. destruct (R k (within_In _ _ k Rd Hk)) as (a & E & W & Vv). exists a. auto. }
  assert (K : forall x y, In x (screads c) -> In y (screads c) -> exists a b, m x = sinit a /\ m y = sinit b /\ swf n a /\ swf n b /\ e x = sval a /\ e y = sval b).
  { intros x y Hx Hy. destruct (G x Hx) as (a & ? & ? & ?), (G y Hy) as (b' & ? & ? & ?). exists a, b'. auto 10. }
  destruct c; cbn [sspec_cond cstest screads] in *; injection H as <-;
  try (destruct (K a b0) as (x & y & E1 & E2 & W1 & W2 & V1 & V2); [now left|right; now left|]; rewrite E1, E2, V1, V2;
    destruct (C154_same_rest cfg n n x y int32 0 ltac:(lia) ltac:(lia)) as (_ & (_ & Q1 & Q2 & _ & _ & Q3 & Q4 & Q5 & Q6) & _);
    destruct (C47_signed_comparison cfg n x y Hn W1 W2) as (_ & _ & P1 & P2 & P3 & P4 & P5 & P6); congruence);
  (destruct (G a) as (x & E1 & W1 & V1); [now left|]; rewrite E1, V1;
   destruct (C154_same_rest cfg n n x x int32 0 ltac:(lia) ltac:(lia)) as (_ & _ & _ & _ & _ & _ & _ & _ & Q1 & Q2 & Q3 & _); rewrite ?Q1, ?Q2, ?Q3; f_equal;
   destruct W1 as [Wk Nk]; pose proof (bval_bound n _ Wk); unfold s_isZero, s_isPositive, s_isNegative, sval;
   destruct (sgn x) eqn:S; cbn [sign_eqb]; [lia| |]; specialize (Nk ltac:(discriminate)); lia).
Qed.

(** ** C157 *)

(** The same for signed programs, if the outputs of [divide] count as variables that must be assigned before. *)
Theorem C157_assigned_signed_programs_partial : forall cfg n fuel prog V W (m : csmem) e, 1 <= n ->
  assigned sreads_strict swrites screads V prog = Some W -> (forall v, In v V -> sholds n (m v) (e v)) ->
  match sspec_run n fuel prog e with
  | RVal e' => exists m', csrun cfg n fuel prog m = Ok m' /\ forall v, In v W -> sholds n (m' v) (e' v)
  | RUndef => True
  | RTimeout => csrun cfg n fuel prog m = Err OutOfFuel
  end.
Proof.
  intros cfg n fuel prog V W m e Hn A R. unfold sspec_run, csrun.
  apply (run_da (csexec cfg n) (cstest cfg n) (sspec_instr n) (sspec_cond n) sreads_strict swrites screads (srelV n)) with (V := V); auto.
  - intros V0 W0 m0 e0 HI HR v Hv. apply HR, HI, Hv.
  - intros; eapply csexec_ok; eauto.
  - intros; eapply cstest_ok; eauto.
Qed.

(** Without that: a = 0; b = 5; divide(a, b, q, r); c = q passes the check and means c = 0 on the integers, but
    reads memory nobody wrote - at every width, in every build. *)
Definition zero_div : stmt sinstr scond :=
  Seq (Do (SLit 0 int32 0)) (Seq (Do (SLit 1 int32 5)) (Seq (Do (SDivide 0 1 2 3)) (Do (SCopy 4 2)))).
Theorem C157_assigned_signed_programs_refuted : forall cfg n fuel e, 1 <= n -> (4 <= fuel)%nat ->
  assigned sreads swrites screads [] zero_div = Some [4; 2; 3; 1; 0]%nat /\
  (exists e', sspec_run n fuel zero_div e = RVal e' /\ e' 4%nat = 0 /\ e' 2%nat = 0) /\
  reads_garbage (csrun cfg n fuel zero_div (fun _ => sfresh n)).
Proof.
  intros cfg n fuel e Hn Hf. destruct fuel as [|[|[|[|f]]]]; try lia. clear Hf.
  assert (M : 5 < modulus n). { unfold modulus. apply Z.lt_le_trans with (2 ^ 32); [lia|apply Z.pow_le_mono_r; lia]. }
  assert (F0 : cs_from_int n int32 0 = Ok (sinit (mk_aesi SZero (zeros n)))).
  { unfold cs_from_int. cbn [Z.ltb Z.gtb Z.compare]. unfold czeros. rewrite copy_init. reflexivity. }
  assert (F5 : exists b, cs_from_int n int32 5 = Ok (sinit (mk_aesi SPos b))).
  { rewrite from_int_i by lia. unfold s_from_int. cbn [Z.ltb Z.gtb Z.compare].
    destruct (from_unsigned_correct n (zeros n) (u64 5) ltac:(lia) (len_zeros n ltac:(lia)) ltac:(apply Z.mod_pos_bound; lia)) as (r & -> & _).
    exists r. reflexivity. }
  destruct F5 as (b & F5). split; [vm_compute; reflexivity|]. split.
  - unfold sspec_run, zero_div. cbn [spec_run sspec_instr]. change (lit_ok int32 0) with true. change (lit_ok int32 5) with true.
    change ((iwidth int32 <=? 32)) with true. cbn [orb andb Z.abs].
    rewrite (proj2 (Z.ltb_lt 0 (modulus n))), (proj2 (Z.ltb_lt 5 (modulus n))) by lia. cbn. eexists. split; [reflexivity|]. split; reflexivity.
  - unfold reads_garbage, csrun, zero_div. cbn [run csexec]. unfold cs_assign_int, cs_store. rewrite F0, F5.
    cbn [bind]. rewrite !scopy_i. cbn [bind cput Nat.eqb].
    rewrite sdivide_zero by (left; reflexivity). cbn [bind cput Nat.eqb].
    change (cwith_sign (sfresh n) SZero) with (half n). rewrite half_copy by exact Hn. reflexivity.
Qed.

Definition fixed_div : stmt sinstr scond :=
  Seq (Do (SLit 2 int32 0)) (Seq (Do (SLit 3 int32 0)) zero_div).
Example C157_example : assigned sreads_strict swrites screads [] fixed_div = Some [4; 2; 3; 1; 0; 3; 2]%nat /\
  assigned sreads_strict swrites screads [] zero_div = None /\
  (exists m', csrun (mk_config false false true) 2 9 fixed_div (fun _ => sfresh 2) = Ok m' /\ m' 4%nat = cs_default 2) /\
  csrun (mk_config false false true) 2 9 zero_div (fun _ => sfresh 2) = Err Indeterminate.
Proof.
  split; [vm_compute; reflexivity|]. split; [vm_compute; reflexivity|]. split; [|vm_compute; reflexivity].
  destruct (csrun (mk_config false false true) 2 9 fixed_div (fun _ => sfresh 2)) as [m'|] eqn:E; [|vm_compute in E; discriminate].
  exists m'. split; [reflexivity|]. vm_compute in E. injection E as <-. reflexivity.
Qed.
Print Assumptions C157_assigned_signed_programs_partial.
Print Assumptions C157_assigned_signed_programs_refuted.

(** *** No fault, also where the integers promise nothing *)

(** Sign and all [n] blocks have been written (the number may be badly signed). *)
Definition swhole (n : Z) (c : caesi) : Prop := exists s a, c = mk_caesi (Some s) (map Some a) /\ wf n a.
Definition sallV (n : Z) (V : list nat) (m : csmem) : Prop := forall v, In v V -> swhole n (m v).
Lemma swhole_i n a : wf n (mag a) -> swhole n (sinit a).
Proof. destruct a as [s l]. intros W. exists s, l. auto. Qed.
Lemma sallV_put n V m d x : sallV n V m -> swhole n x -> sallV n (d :: V) (cput m d x).
Proof.
  intros R H k [<-|Hk]; [rewrite cput_eq; exact H|]. destruct (Nat.eq_dec k d) as [->|N].
  - rewrite cput_eq. exact H.
  - rewrite cput_ne by auto. apply R, Hk.
Qed.
Lemma sdivide_tot cfg n a b q r : 1 <= n -> wf n (mag a) -> wf n (mag b) -> wf n (mag q) -> wf n (mag r) ->
  exists x y, cs_divide cfg n (sinit a) (sinit b) (sinit q) (sinit r) = Ok (x, y) /\ swhole n x /\ swhole n y.
Proof.
  intros Hn Wa Wb Wq Wr. destruct (s_isZero a) eqn:ZA; [|destruct (s_isZero b) eqn:ZB].
  - rewrite sdivide_zero by (left; exact ZA). eexists _, _. split; [reflexivity|]. destruct q as [sq mq], r as [sr mr].
    split; (eexists _, _; split; [reflexivity|assumption]).
  - rewrite sdivide_zero by (right; exact ZB). eexists _, _. split; [reflexivity|]. destruct q as [sq mq], r as [sr mr].
    split; (eexists _, _; split; [reflexivity|assumption]).
  - rewrite (sdivide_i cfg n a b q r (sinit q) (sinit r) ltac:(lia) ZA ZB). unfold s_divide. rewrite ZA, ZB. cbn [orb].
    destruct (div_tot cfg n (mag a) (mag b) Hn Wa Wb) as (q0 & r0 & -> & Wq0 & Wr0). cbn [bind].
    match goal with |- context [let '(_, _) := ?p in _] => destruct p as [qs rs] end.
    rewrite !isZero_spec by auto. cbn [bind lift sinit2 fst snd]. eexists _, _. split; [reflexivity|]. split; apply swhole_i; assumption.
Qed.
Lemma csexec_tot cfg n V m i : 1 <= n -> cfg_unsafe cfg = false -> sallV n V m -> within (sreads_strict i) V = true -> sinstr_typed i ->
  exists m', csexec cfg n m i = Ok m' /\ sallV n (swrites i ++ V) m'.
Proof.
  intros Hn U R Rd T. pose proof (gfuel_enough n Hn) as GF.
  assert (G : forall k, In k (sreads_strict i) -> exists a, m k = sinit a /\ wf n (mag a)).
  { intros k Hk. destruct (R k (within_In _ _ k Rd Hk)) as (s & a & E & W). exists (mk_aesi s a). auto. }
  assert (ST : forall d call x, call = lift sinit x -> stot n x -> exists m', cs_store m d call = Ok m' /\ sallV n (d :: V) m').
  { intros d call x -> (r & -> & W). unfold cs_store. cbn [lift bind]. rewrite scopy_i. cbn [bind]. eexists. split; [reflexivity|].
    apply sallV_put; auto. now apply swhole_i. }
  assert (IP : forall d call x, call = lift sinit x -> stot n x -> exists m', cs_inplace m d call = Ok m' /\ sallV n (d :: V) m').
  { intros d call x -> (r & -> & W). unfold cs_inplace. cbn [lift bind]. eexists. split; [reflexivity|].
    apply sallV_put; auto. now apply swhole_i. }
  clear Rd. destruct i; cbn [sinstr_typed csexec sreads_strict sreads swrites app] in *.
  - destruct (G s) as (a & E & W); [now left|]. rewrite E. apply (ST d (Ok (sinit a)) (Ok a)); [reflexivity|]. exists a. auto.
  - eapply ST; [apply from_int_i; lia|]. apply s_from_int_tot; tauto.
  - destruct (G d) as (a & E & W); [now left|]. destruct (G s) as (b & E2 & W2); [right; now left|]. rewrite E, E2.
    eapply IP; [apply cs_assign_i; lia|]. apply s_assign_val_tot; auto.
  - destruct (G a) as (x & E & W); [now left|]. destruct (G b) as (y & E2 & W2); [right; now left|]. rewrite E, E2.
    eapply ST; [apply cs_binary_i; lia|]. apply s_assign_val_tot; auto.
  - destruct (G d) as (a & E & W); [now left|]. rewrite E. eapply IP; [apply inc_i; lia|]. apply s_inc_tot; auto.
  - destruct (G d) as (a & E & W); [now left|]. rewrite E. eapply IP; [apply dec_i; lia|]. apply s_dec_tot; auto.
  - destruct (G s) as (a & E & W); [now left|]. rewrite E. eapply ST; [apply neg_i|]. exists (s_inverse a). split; [reflexivity|exact W].
  - destruct (G d) as (a & E & W); [now left|]. rewrite E, inverse_i. apply (IP d _ (Ok (s_inverse a))); [reflexivity|]. exists (s_inverse a). split; [reflexivity|exact W].
  - destruct (G d) as (a & E & W); [now left|]. rewrite E.
    apply (IP d _ (s_mul_int cfg n t a v)). { rewrite <- smul_int_i. unfold cs_mul_int. rewrite scopy_i. reflexivity. }
    apply s_mul_int_tot; tauto.
  - destruct (G d) as (a & E & W); [now left|]. rewrite E.
    apply (IP d _ (s_div_int cfg n t a v)). { rewrite <- sdiv_int_i by lia. unfold cs_div_int. rewrite scopy_i. reflexivity. }
    apply s_div_int_tot; tauto.
  - destruct (G a) as (x & E & W); [now left|]. destruct (G b) as (y & E2 & W2); [right; now left|].
    assert (SW : cs_swap (sinit x) (sinit y) = Ok (sinit y, sinit x)).
    { unfold cs_swap, sget. destruct x as [sa ma], y as [sb mb]. red_s. rewrite swap_i. reflexivity. }
    rewrite E, E2, SW. cbn [bind]. eexists. split; [reflexivity|]. intros k Hk. unfold cput.
    destruct (Nat.eqb_spec k b) as [->|Nb]; [now apply swhole_i|]. destruct (Nat.eqb_spec k a) as [->|Na]; [now apply swhole_i|].
    destruct Hk as [<-|[<-|Hk]]; try congruence. apply R, Hk.
  - destruct (G nu) as (x & E & W); [now left|]. destruct (G de) as (y & E2 & W2); [right; now left|].
    destruct (G q) as (q0 & E3 & W3); [right; right; now left|]. destruct (G r) as (r0 & E4 & W4); [right; right; right; now left|].
    destruct (sdivide_tot cfg n x y q0 r0 Hn W W2 W3 W4) as (qq & rr & E5 & Hq & Hr). rewrite E, E2, E3, E4, E5. cbn [bind]. eexists. split; [reflexivity|].
    intros k Hk.
    assert (Hk' : In k (r :: q :: V)) by (destruct Hk as [<-|[<-|Hk]]; [right; now left|now left|right; now right]).
    apply (sallV_put n (q :: V) (cput m q qq) r rr); auto. apply sallV_put; auto.
  - destruct (G a) as (x & E & W); [now left|]. rewrite E. eapply ST; [apply ssquareRoot_i; lia|]. unfold s_squareRoot.
    destruct (sgn x); try (apply s_from_int_tot; [auto|discriminate]).
    apply stot_mk; auto. eapply yields_tot, squareRoot_correct; auto; lia.
  - eapply ST; [apply spower2_i|]. unfold s_power2. destruct (yields_tot _ _ _ (power2_total cfg n k U ltac:(lia) T)) as (b & -> & Wb). cbn [bind]. now apply fix_zero_tot.
Qed.
Lemma cstest_tot cfg n V m c : 1 <= n -> sallV n V m -> within (screads c) V = true -> exists b, cstest cfg n m c = Ok b.
Proof.
  intros Hn R Rd.
  assert (G : forall k, In k (screads c) -> exists a, m k = sinit a /\ wf n (mag a)).
  { intros k Hk. destruct (R k (within_In _ _ k Rd Hk)) as (s & a & E & W). exists (mk_aesi s a). auto. }
  assert (K : forall x y, wf n (mag x) -> wf n (mag y) -> exists c, s_compareTo cfg n x y = Ok c).
  { intros x y Wx Wy. unfold s_compareTo. rewrite (compareTo_same cfg n) by assumption. cbn [bind].
    destruct (s_isZero y), (s_isNegative y), (sign_eqb (sgn x) SNeg), (sign_eqb (sgn x) SPos); eauto. }
  destruct c; cbn [cstest screads] in *;
  try (destruct (G a) as (x & E1 & W1); [now left|]; destruct (G b) as (y & E2 & W2); [right; now left|]; rewrite E1, E2;
    destruct (C154_same_rest cfg n n x y int32 0 ltac:(lia) ltac:(lia)) as (_ & (_ & Q1 & Q2 & _ & _ & Q3 & Q4 & Q5 & Q6) & _);
    destruct (K x y W1 W2) as (c & E); rewrite ?Q1, ?Q2, ?Q3, ?Q4, ?Q5, ?Q6;
    unfold s_ne, s_lt, s_le, s_gt, s_ge, s_spaceship, s_compareTo_x, s_eq; rewrite ?Z.eqb_refl, ?E; cbn [bind]; eauto; fail);
  (destruct (G a) as (x & E1 & W1); [now left|]; rewrite E1;
   destruct (C154_same_rest cfg n n x x int32 0 ltac:(lia) ltac:(lia)) as (_ & _ & _ & _ & _ & _ & _ & _ & Q1 & Q2 & Q3 & _); rewrite ?Q1, ?Q2, ?Q3; eauto).
Qed.
(** Whatever the values: a signed program that assigns before use, the outputs of [divide] included, reads no
    unwritten memory and meets no other fault. *)
Theorem C157_written_programs_never_fault : forall cfg n fuel prog V W (m : csmem), 1 <= n -> cfg_unsafe cfg = false ->
  assigned sreads_strict swrites screads V prog = Some W -> typed sinstr_typed (fun _ => True) prog ->
  (forall v, In v V -> swhole n (m v)) ->
  match csrun cfg n fuel prog m with
  | Ok m' => forall v, In v W -> swhole n (m' v)
  | Err f => f = OutOfFuel
  end.
Proof.
  intros cfg n fuel prog V W m Hn U A T R. unfold csrun.
  apply (run_da_tot (csexec cfg n) (cstest cfg n) sinstr_typed (fun _ => True) sreads_strict swrites screads (sallV n)) with (V := V); auto.
  - intros V0 W0 m0 HI HR v Hv. apply HR, HI, Hv.
  - intros; eapply csexec_tot; eauto.
  - intros; eapply cstest_tot; eauto.
Qed.
Print Assumptions C157_written_programs_never_fault.
