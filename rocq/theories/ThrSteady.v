(** * ThrSteady: calls whose accesses are the same whatever their loads return. *)
From Verif Require Import Spec Lib AeuModel AeuArith AeuBits AeuAccess AeuDiv AeuFacts AliasModel AliasFacts ProgSpec ProgModel ProgFacts ProgTotal
  ThrMonad ThrModel ThrSpec ThrSafe ThrTrace TraceSpec.
From Coq Require Import ZifyBool.
Open Scope Z_scope.

Fixpoint obl {A} (P : A -> Prop) (tr : list access) (c : act A) : Prop :=
  match c with
  | Ret a => tr = [] /\ P a
  | Stop _ => False
  | Get x i k => exists t, tr = Load x i :: t /\ forall v, block v -> obl P t (k v)
  | Put x i v k => exists t, tr = Store x i :: t /\ obl P t k
  end.
Lemma obl_bind {A B} (Q : A -> Prop) (P : B -> Prop) (c : act A) (f : A -> act B) t2 : forall t1,
  obl Q t1 c -> (forall a, Q a -> obl P t2 (f a)) -> obl P (t1 ++ t2) (abind c f).
Proof.
  induction c as [a|e|x i k IH|x i v k IH]; intros t1 H K; cbn [abind obl] in *.
  - destruct H as [-> H]. apply K, H.
  - destruct H.
  - destruct H as (t & -> & H). exists (t ++ t2). split; [reflexivity|]. auto.
  - destruct H as (t & -> & H). exists (t ++ t2). split; [reflexivity|]. auto.
Qed.
Lemma obl_ret {A} (P : A -> Prop) a : P a -> obl P [] (Ret a).
Proof. cbn. auto. Qed.
Lemma obl_ok {A} (P : A -> Prop) x r : x = Ok r -> P r -> obl P [] (pure x).
Proof. intros -> H. cbn. auto. Qed.
Lemma obl_tot n x : tot n x -> obl (wf n) [] (pure x).
Proof. intros (r & -> & W). cbn. auto. Qed.
Lemma obl_mono {A} (Q P : A -> Prop) (c : act A) : (forall a, Q a -> P a) -> forall t, obl Q t c -> obl P t c.
Proof.
  intros H. induction c as [a|e|x i k IH|x i v k IH]; cbn [obl]; intros t; auto.
  - intros [? ?]. auto.
  - intros (u & ? & K). exists u. split; auto.
  - intros (u & ? & K). exists u. split; auto.
Qed.
Fixpoint ups (T : Z -> list access) (cnt : nat) (i : Z) : list access := match cnt with O => [] | S c => T i ++ ups T c (i + 1) end.
Fixpoint downs (T : Z -> list access) (cnt : nat) (i : Z) : list access := match cnt with O => [] | S c => T (i - 1) ++ downs T c (i - 1) end.
Lemma obl_forU {S} (Inv : S -> Prop) T lo hi (b : Z -> S -> act S) s :
  (forall i s, lo <= i < hi -> Inv s -> obl Inv (T i) (b i s)) -> Inv s -> obl Inv (ups T (Z.to_nat (hi - lo)) lo) (aforU lo hi b s).
Proof.
  unfold aforU. intros H. assert (G : forall cnt i s, lo <= i -> i + Z.of_nat cnt <= Z.max lo hi -> Inv s -> obl Inv (ups T cnt i) (aloopU cnt i b s)).
  { induction cnt as [|c IH]; intros i s0 L1 L2 I; cbn [aloopU ups]; [now apply obl_ret|]. eapply obl_bind; [apply H; auto; lia|].
    intros s' I'. apply IH; auto; lia. }
  intros I. apply G; auto; lia.
Qed.
Lemma obl_forD {S} (Inv : S -> Prop) T lo hi (b : Z -> S -> act S) s :
  (forall i s, lo <= i < hi -> Inv s -> obl Inv (T i) (b i s)) -> Inv s -> obl Inv (downs T (Z.to_nat (hi - lo)) hi) (aforD hi lo b s).
Proof.
  unfold aforD. intros H. assert (G : forall cnt i s, i <= hi -> Z.min lo hi <= i - Z.of_nat cnt -> Inv s -> obl Inv (downs T cnt i) (aloopD cnt i b s)).
  { induction cnt as [|c IH]; intros i s0 L1 L2 I; cbn [aloopD downs]; [now apply obl_ret|]. eapply obl_bind; [apply H; auto; lia|].
    intros s' I'. apply IH; auto; lia. }
  intros I. apply G; auto; lia.
Qed.
Lemma obl_at x i : obl block [Load x i] (at_ x i).
Proof. exists []. split; [reflexivity|]. intros v B. now apply obl_ret. Qed.
Lemma obl_aput x i v : obl (fun _ => True) [Store x i] (aput x i v).
Proof. exists []. split; [reflexivity|]. now apply obl_ret. Qed.
Definition vobl (n : Z) (T : Z -> list access) (v : view) : Prop := forall i, 0 <= i < n -> obl block (T i) (v i).
Lemma vobl_at n x : vobl n (fun i => [Load x i]) (at_ x).
Proof. intros i _. apply obl_at. Qed.
Lemma vobl_local n l : wf n l -> vobl n (fun _ => []) (local l).
Proof. intros W i Hi. unfold local. pose proof (wf_len _ _ W). eapply obl_ok; [apply aget_ok; lia|]. apply (wf_znth n), W. Qed.

Section Steady.
Context (n : Z) (Hn : 1 <= n).
Notation same c := (exists tr, obl (fun _ => True) tr c).
Lemma o_aset a i v : wf n a -> 0 <= i < n -> block v -> obl (wf n) [] (pure (aset a i v)).
Proof. intros W Hi Hv. pose proof (wf_len _ _ W). eapply obl_ok; [apply aset_ok; lia|]. now apply wf_upd. Qed.
Lemma o_copy T v : vobl n T v -> exists tr, obl (wf n) tr (v_copy n v).
Proof.
  intros H. unfold v_copy. eexists. apply obl_forU; [|apply wf_zeros; lia]. intros i r Hi W. eapply obl_bind; [now apply H|]. intros b B. now apply o_aset.
Qed.
Lemma o_neg T v : vobl n T v -> exists tr, obl (wf n) tr (v_neg n v).
Proof.
  intros H. destruct (o_copy T v H) as [tr C]. unfold v_neg. eexists. eapply obl_bind; [exact C|]. intros r W. apply obl_tot. eapply yields_tot, op_neg_correct, W.
Qed.
Lemma o_not T v : vobl n T v -> exists tr, obl (wf n) tr (v_not n v).
Proof.
  intros H. unfold v_not. eexists. apply obl_forU; [|apply wf_zeros; lia]. intros i r Hi W. eapply obl_bind; [now apply H|]. intros b B.
  apply o_aset; auto. apply not32_range.
Qed.
Lemma o_assign T d v : vobl n T v -> exists tr, obl (fun _ => True) tr (t_assign n d v).
Proof. intros H. unfold t_assign. eexists. apply obl_forU; auto. intros i s Hi _. eapply obl_bind; [now apply H|]. intros b B. apply obl_aput. Qed.
Lemma o_local d : exists tr, forall l, wf n l -> obl (fun _ => True) tr (t_assign n d (local l)).
Proof.
  unfold t_assign. eexists. intros l W. apply obl_forU; auto. intros i s Hi _. eapply obl_bind; [apply (vobl_local n l W i Hi)|]. intros b B. apply obl_aput.
Qed.
Lemma o_add T a v : vobl n T v -> same (t_add_assign n a v).
Proof.
  intros H. unfold t_add_assign. eexists. eapply obl_bind; [|intros; now apply obl_ret]. apply obl_forU with (Inv := fun _ => True); auto. intros i s Hi _.
  eapply obl_bind; [apply obl_at|]. intros d _. eapply obl_bind; [now apply H|]. intros b _. cbv zeta.
  eapply obl_bind; [apply obl_aput|]. intros _ _. now apply obl_ret.
Qed.
Lemma o_add_local a : exists tr, forall l, wf n l -> obl (fun _ => True) tr (t_add_assign n a (local l)).
Proof.
  unfold t_add_assign. eexists. intros l W. eapply obl_bind; [|intros; now apply obl_ret]. apply obl_forU with (Inv := fun _ => True); auto. intros i s Hi _.
  eapply obl_bind; [apply obl_at|]. intros d _. eapply obl_bind; [apply (vobl_local n l W i Hi)|]. intros b _. cbv zeta.
  eapply obl_bind; [apply obl_aput|]. intros _ _. now apply obl_ret.
Qed.
Lemma o_sub T a v : vobl n T v -> same (t_sub_assign n a v).
Proof.
  intros H. destruct (o_neg T v H) as [t1 H1]. destruct (o_add_local a) as [t2 H2]. unfold t_sub_assign. exists (t1 ++ t2).
  eapply obl_bind; [exact H1|]. exact H2.
Qed.
Lemma o_bitwise f T a v : vobl n T v -> same (t_bitwise_assign f n a v).
Proof.
  intros H. unfold t_bitwise_assign. eexists. apply obl_forU; auto. intros i s Hi _. eapply obl_bind; [apply obl_at|]. intros x _.
  eapply obl_bind; [now apply H|]. intros y _. apply obl_aput.
Qed.
Definition light (o : cop) : Prop := match o with OAdd | OSub | OXor | OAnd | OOr => True | OMul | ODiv | OMod => False end.
Lemma o_op cfg o T a v : light o -> vobl n T v -> same (t_op_assign cfg o n a v).
Proof. intros L H. destruct o; cbn [light t_op_assign] in *; try tauto; eauto using o_add, o_sub, o_bitwise. Qed.
Lemma o_seq (c : act unit) (d : act unit) : same c -> same d -> same (abind c (fun _ => d)).
Proof. intros [t1 H1] [t2 H2]. exists (t1 ++ t2). eapply obl_bind; [exact H1|]. auto. Qed.
Lemma o_binary cfg o d a b : light o -> same (t_binary cfg o n d a b).
Proof.
  intros L. assert (E : t_binary cfg o n d a b = abind (t_assign n (Tmp 5) (at_ a)) (fun _ => abind (t_op_assign cfg o n (Tmp 5) (at_ b)) (fun _ => t_assign n d (at_ (Tmp 5))))).
  { destruct o; cbn [light] in L; try tauto; reflexivity. }
  rewrite E. apply o_seq; [eapply o_assign, vobl_at|]. apply o_seq; [eapply o_op, vobl_at; auto|]. eapply o_assign, vobl_at.
Qed.
Lemma o_add_u t a v : same (t_add_assign_u n t a v).
Proof.
  unfold t_add_assign_u. eexists. eapply obl_bind; [|intros; now apply obl_ret]. apply obl_forU with (Inv := fun _ => True); auto. intros i s Hi _.
  eapply obl_bind; [apply obl_at|]. intros b _. cbv zeta. eapply obl_bind; [apply obl_aput|]. intros _ _. now apply obl_ret.
Qed.
Lemma o_mul_u t a v : t <> U64 -> same (t_mul_assign_u n t a v).
Proof.
  intros N. unfold t_mul_assign_u. assert (E : is_uint64_t t = false) by (destruct t; auto; congruence). rewrite E. eexists.
  eapply obl_bind; [|intros; now apply obl_ret]. apply obl_forU with (Inv := fun _ => True); auto. intros i s Hi _.
  eapply obl_bind; [apply obl_at|]. intros b _. cbv zeta. eapply obl_bind; [apply obl_aput|]. intros _ _. now apply obl_ret.
Qed.
Lemma o_shl a k : same (t_shl_assign n a k).
Proof.
  unfold t_shl_assign. destruct (_ || _); [exists []; now apply obl_ret|]. cbv zeta. eexists.
  eapply obl_bind.
  { apply obl_forD with (Inv := fun _ => True); auto. intros i s Hi _. eapply obl_bind; [apply obl_at|]. intros x _. eapply obl_bind; [apply obl_at|]. intros y _.
    apply obl_aput. }
  intros _ _. eapply obl_bind; [apply obl_at|]. intros x _. eapply obl_bind; [apply obl_aput|]. intros _ _.
  apply obl_forU with (Inv := fun _ => True); auto. intros i s Hi _. apply obl_aput.
Qed.
Lemma o_shr a k : same (t_shr_assign n a k).
Proof.
  unfold t_shr_assign. destruct (_ || _); [exists []; now apply obl_ret|]. cbv zeta. eexists.
  eapply obl_bind.
  { apply obl_forU with (Inv := fun _ => True); auto. intros i s Hi _. eapply obl_bind; [apply obl_at|]. intros x _. eapply obl_bind; [apply obl_at|]. intros y _.
    apply obl_aput. }
  intros _ _. eapply obl_bind; [apply obl_at|]. intros x _. eapply obl_bind; [apply obl_aput|]. intros _ _.
  apply obl_forU with (Inv := fun _ => True); auto. intros i s Hi _. apply obl_aput.
Qed.
Lemma o_setBit cfg a i b : cfg_unsafe cfg = false -> 0 <= i -> same (t_setBit cfg n a i b).
Proof.
  intros U Hi. unfold t_setBit. rewrite U. cbn [negb andb]. destruct (Z.geb_spec i (32 * n)); [exists []; now apply obl_ret|]. cbv zeta. unfold blockBitLength.
  assert (0 <= i / 32 < n) by (split; [apply Z.div_pos; lia|apply Z.div_lt_upper_bound; lia]).
  pose proof (Z.mod_pos_bound i 32 ltac:(lia)).
  assert (E : assert_ cfg ((i / 32 <? n) && (i mod 32 <? 32)) = Ok tt).
  { unfold assert_. destruct (cfg_ndebug cfg); [reflexivity|]. destruct (Z.ltb_spec (i / 32) n); [|lia]. destruct (Z.ltb_spec (i mod 32) 32); [reflexivity|lia]. }
  rewrite E. cbn [pure abind]. destruct b; eexists; (eapply obl_bind; [apply obl_at|]; intros x _; apply obl_aput).
Qed.
Lemma o_store d c : (exists tr, obl (wf n) tr c) -> same (t_store n d c).
Proof. intros [t1 H1]. destruct (o_local (Var d)) as [t2 H2]. exists (t1 ++ t2). unfold t_store. eapply obl_bind; [exact H1|]. exact H2. Qed.
Lemma o_swap a b : same (t_swap n a b).
Proof. unfold t_swap. apply o_seq; [eapply o_assign, vobl_at|]. apply o_seq; eapply o_assign, vobl_at. Qed.
Lemma o_exec cfg i : cfg_unsafe cfg = false -> uinstr_typed i -> steady i -> same (texec cfg n i).
Proof.
  intros U T S. destruct i; cbn [texec uinstr_typed steady] in *; try contradiction.
  - eapply o_assign, vobl_at.
  - apply o_store. eexists. apply obl_tot. eapply yields_tot, from_unsigned_correct; auto; [lia|apply len_zeros; lia].
  - eapply o_op, vobl_at. exact S.
  - now apply o_binary.
  - apply o_store. eapply o_neg, vobl_at.
  - apply o_store. eapply o_not, vobl_at.
  - apply o_shl.
  - apply o_shr.
  - now apply o_setBit.
  - apply o_add_u.
  - now apply o_mul_u.
  - apply o_swap.
  - apply o_store. eexists. apply obl_tot. eapply yields_tot, power2_total; auto; lia.
Qed.
Lemma o_run cfg : cfg_unsafe cfg = false -> forall fuel p, typed uinstr_typed ucond_typed p -> steady_prog p -> (depth p <= fuel)%nat ->
  same (trun cfg n fuel p).
Proof.
  intros U. induction fuel as [|f IH]; intros p T S D; [destruct p; cbn [depth] in D; lia|]. cbn [trun].
  destruct p as [|i|s t|c s t|c s]; cbn [typed steady_prog depth] in *; try contradiction.
  - exists []. now apply obl_ret.
  - now apply o_exec.
  - destruct T, S. apply o_seq; apply IH; auto; lia.
Qed.
End Steady.

(** What an observer sees of such a tree. *)
Lemma obl_among {A} (P : A -> Prop) (c : act A) : forall tr answers, (forall j, block (answers j)) -> obl P tr c -> accesses_among c answers = tr.
Proof.
  induction c as [a|e|x i k IH|x i v k IH]; intros tr answers B H; cbn [accesses_among obl] in *.
  - destruct H. congruence.
  - destruct H.
  - destruct H as (t & -> & H). f_equal. apply IH; auto.
  - destruct H as (t & -> & H). f_equal. apply IH; auto.
Qed.
Lemma obl_alone {A} F n (P Q : A -> Prop) (c : act A) : forall tr m, (forall x, wf n (m x)) -> safe F n Q c -> obl P tr c -> accesses c m = tr.
Proof.
  induction c as [a|e|x i k IH|x i v k IH]; intros tr m W S H; cbn [accesses obl safe] in *.
  - destruct H. congruence.
  - destruct H.
  - destruct H as (t & -> & H). destruct S as [Hi S]. f_equal. unfold mget. pose proof (wf_len _ _ (W x)). rewrite aget_ok by lia.
    assert (block (znth (m x) i)) by (apply (wf_znth n); auto). apply IH; auto.
  - destruct H as (t & -> & H). destruct S as (Hi & Bv & S). f_equal. unfold mset. pose proof (wf_len _ _ (W x)). rewrite aset_ok by lia. cbn [bind].
    apply IH; auto. intros y. unfold mput. destruct (loc_eqb y x); auto. apply wf_upd; auto.
Qed.
