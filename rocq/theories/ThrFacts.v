(** * ThrFacts: the block-by-block functions of [ThrModel.v], run alone, compute what [AeuModel.v] says. *)
From Verif Require Import Lib AeuModel AliasModel AliasFacts ProgModel ThrMonad ThrModel.
From Coq Require Import ZifyBool.
Open Scope Z_scope.

(** ** Running *)
Lemma run_bind {A B} (c : act A) (f : A -> act B) : forall m,
  run_act (abind c f) m = ('(a, m') <- run_act c m ;; run_act (f a) m').
Proof.
  induction c as [a|e|x i k IH|x i v k IH]; intros m; cbn [abind run_act bind]; auto.
  - destruct (mget m x i); cbn [bind]; auto.
  - destruct (mset m x i v); cbn [bind]; auto.
Qed.
Lemma run_pure {A} (x : outcome A) m : run_act (pure x) m = (a <- x ;; Ok (a, m)).
Proof. destruct x; reflexivity. Qed.
Lemma run_len {A} (c : act A) : forall m a m', run_act c m = Ok (a, m') -> forall l, len (m' l) = len (m l).
Proof.
  induction c as [a0|e|x i k IH|x i v k IH]; intros m a m'; cbn [run_act].
  - intros [= _ ->]. auto.
  - discriminate.
  - destruct (mget m x i); cbn [bind]; [|discriminate]. apply IH.
  - unfold mset, aset. destruct (in_range (m x) i); cbn [bind]; [|discriminate]. intros H l.
    rewrite (IH _ _ _ H). unfold mput. destruct (loc_eqb_spec l x) as [->|]; [apply len_upd|auto].
Qed.
Lemma run_loopU {S} (body : Z -> S -> act S) : forall cnt i s m,
  run_act (aloopU cnt i body s) m = loopU cnt i (fun i '(s, m) => run_act (body i s) m) (s, m).
Proof.
  induction cnt as [|c IH]; intros i s m; [reflexivity|]. cbn [aloopU loopU]. rewrite run_bind.
  destruct (run_act (body i s) m) as [[s' m']|]; cbn [bind]; auto.
Qed.
Lemma run_forU {S} lo hi (body : Z -> S -> act S) s m :
  run_act (aforU lo hi body s) m = forU lo hi (fun i '(s, m) => run_act (body i s) m) (s, m).
Proof. apply run_loopU. Qed.
Lemma run_loopD {S} (body : Z -> S -> act S) : forall cnt i s m,
  run_act (aloopD cnt i body s) m = loopD cnt i (fun i '(s, m) => run_act (body i s) m) (s, m).
Proof.
  induction cnt as [|c IH]; intros i s m; [reflexivity|]. cbn [aloopD loopD]. rewrite run_bind.
  destruct (run_act (body (i - 1) s) m) as [[s' m']|]; cbn [bind]; auto.
Qed.
Lemma run_forD {S} hi lo (body : Z -> S -> act S) s m :
  run_act (aforD hi lo body s) m = forD hi lo (fun i '(s, m) => run_act (body i s) m) (s, m).
Proof. apply run_loopD. Qed.

(** ** Computations that leave the store alone *)
Definition vgives {A} (m : mem) (c : act A) (x : outcome A) : Prop := run_act c m = (r <- x ;; Ok (r, m)).
Definition reads (m : mem) (v : view) (a : list Z) : Prop := forall i, vgives m (v i) (aget a i).

Lemma reads_at m x : reads m (at_ x) (m x).
Proof. intros i. unfold vgives, at_. cbn [run_act]. unfold mget. destruct (aget (m x) i); reflexivity. Qed.
Lemma reads_local m a : reads m (local a) a.
Proof. intros i. unfold vgives, local. apply run_pure. Qed.
Lemma vg_bind {A B} m (c : act A) x (f : A -> act B) k :
  vgives m c x -> (forall r, x = Ok r -> vgives m (f r) (k r)) -> vgives m (abind c f) (bind x k).
Proof. unfold vgives. intros H K. rewrite run_bind, H. destruct x; cbn [bind]; auto. Qed.
Lemma vg_pure {A} m (x : outcome A) : vgives m (pure x) x.
Proof. apply run_pure. Qed.
Lemma vg_ret {A} m (a : A) : vgives m (Ret a) (Ok a).
Proof. reflexivity. Qed.
Lemma vg_eq {A} m (c : act A) x y : vgives m c x -> x = y -> vgives m c y.
Proof. now intros H <-. Qed.
Lemma vg_loopU {S} m (I : S -> Prop) (body : Z -> S -> act S) B :
  (forall i s, I s -> vgives m (body i s) (B i s)) -> (forall i s s', I s -> B i s = Ok s' -> I s') ->
  forall cnt i s, I s -> vgives m (aloopU cnt i body s) (loopU cnt i B s).
Proof.
  intros H P. induction cnt as [|c IH]; intros i s HI; [reflexivity|]. cbn [aloopU loopU].
  apply vg_bind; auto. intros s' E. apply IH. eauto.
Qed.
Lemma vg_forU {S} m (I : S -> Prop) lo hi (body : Z -> S -> act S) B s :
  (forall i s, I s -> vgives m (body i s) (B i s)) -> (forall i s s', I s -> B i s = Ok s' -> I s') -> I s ->
  vgives m (aforU lo hi body s) (forU lo hi B s).
Proof. intros. now apply vg_loopU with (I := I). Qed.
Lemma vg_forU' {S} m lo hi (body : Z -> S -> act S) B s :
  (forall i s, vgives m (body i s) (B i s)) -> vgives m (aforU lo hi body s) (forU lo hi B s).
Proof. intros. apply vg_forU with (I := fun _ => True); auto. Qed.
Lemma vg_loopD {S} m (I : S -> Prop) (body : Z -> S -> act S) B :
  (forall i s, I s -> vgives m (body i s) (B i s)) -> (forall i s s', I s -> B i s = Ok s' -> I s') ->
  forall cnt i s, I s -> vgives m (aloopD cnt i body s) (loopD cnt i B s).
Proof.
  intros H P. induction cnt as [|c IH]; intros i s HI; [reflexivity|]. cbn [aloopD loopD].
  apply vg_bind; auto. intros s' E. apply IH. eauto.
Qed.
Lemma vg_forD {S} m (I : S -> Prop) hi lo (body : Z -> S -> act S) B s :
  (forall i s, I s -> vgives m (body i s) (B i s)) -> (forall i s s', I s -> B i s = Ok s' -> I s') -> I s ->
  vgives m (aforD hi lo body s) (forD hi lo B s).
Proof. intros. now apply vg_loopD with (I := I). Qed.
Lemma vg_loopDx {S R} m (body : Z -> S -> act (step S R)) B :
  (forall i s, vgives m (body i s) (B i s)) -> forall cnt i s, vgives m (aloopDx cnt i body s) (loopDx cnt i B s).
Proof.
  intros H. induction cnt as [|c IH]; intros i s; [reflexivity|]. cbn [aloopDx loopDx].
  apply vg_bind; auto. intros [s'|r] _; auto. reflexivity.
Qed.
Lemma vg_forDx {S R} m hi lo (body : Z -> S -> act (step S R)) B s :
  (forall i s, vgives m (body i s) (B i s)) -> vgives m (aforDx hi lo body s) (forDx hi lo B s).
Proof. intros. now apply vg_loopDx. Qed.
Lemma vg_while {S R} m (I : S -> Prop) (body : S -> act (step S R)) B :
  (forall s, I s -> vgives m (body s) (B s)) -> (forall s s', I s -> B s = Ok (Next s') -> I s') ->
  forall fuel s, I s -> vgives m (awhileF fuel body s) (whileF fuel B s).
Proof.
  intros H P. induction fuel as [|f IH]; intros s HI; [reflexivity|]. cbn [awhileF whileF].
  apply vg_bind; auto. intros [s'|r] E; [|reflexivity]. apply IH. eauto.
Qed.

(** One step of a syntax-directed proof that a [v_] function does what its model does. *)
Ltac vg1 :=
  lazymatch goal with
  | |- vgives _ (abind _ _) (bind _ _) => apply vg_bind; [|intros ? _]
  | |- vgives _ (pure _) _ => apply vg_pure
  | |- vgives _ (Ret _) (Ok _) => apply vg_ret
  | |- vgives _ (if ?c then _ else _) (if ?c then _ else _) => destruct c
  | |- vgives _ (match ?x with _ => _ end) (match ?x with _ => _ end) => destruct x
  | |- vgives _ (aforDx _ _ _ _) (forDx _ _ _ _) => apply vg_forDx; intros
  | |- vgives _ (aforU _ _ _ _) (forU _ _ _ _) => apply vg_forU'; intros
  | |- vgives _ (?v _) (aget _ _) => match goal with H : reads _ v _ |- _ => apply H end
  end.
Ltac vg := repeat (cbv beta zeta; vg1).

(** ** What the results look like *)
Definition okp {A} (P : A -> Prop) (x : outcome A) : Prop := forall r, x = Ok r -> P r.
Lemma okp_use {A} (P : A -> Prop) x r : x = Ok r -> okp P x -> P r.
Proof. intros E H. exact (H r E). Qed.
Lemma okp_ok {A} (P : A -> Prop) a : P a -> okp P (Ok a).
Proof. intros H r [= <-]. auto. Qed.
Lemma okp_err {A} (P : A -> Prop) e : okp P (Err e).
Proof. intros r; discriminate. Qed.
Lemma okp_bind {A B} (Q : A -> Prop) (P : B -> Prop) x k : okp Q x -> (forall a, Q a -> okp P (k a)) -> okp P (bind x k).
Proof. intros H K r. destruct x as [a|]; cbn [bind]; [|discriminate]. intros E. exact (K a (H a eq_refl) r E). Qed.
Lemma okp_any {A B} (P : B -> Prop) (x : outcome A) k : (forall a, okp P (k a)) -> okp P (bind x k).
Proof. intros K. apply okp_bind with (Q := fun _ => True); auto. intros ? ?; auto. Qed.
Lemma okp_loopU {S} (P : S -> Prop) B : (forall i s, P s -> okp P (B i s)) -> forall cnt i s, P s -> okp P (loopU cnt i B s).
Proof. intros H. induction cnt as [|c IH]; intros i s HI; cbn [loopU]. now apply okp_ok. apply okp_bind with (Q := P); auto. Qed.
Lemma okp_forU {S} (P : S -> Prop) lo hi B s : (forall i s, P s -> okp P (B i s)) -> P s -> okp P (forU lo hi B s).
Proof. intros. now apply okp_loopU. Qed.
Lemma okp_loopD {S} (P : S -> Prop) B : (forall i s, P s -> okp P (B i s)) -> forall cnt i s, P s -> okp P (loopD cnt i B s).
Proof. intros H. induction cnt as [|c IH]; intros i s HI; cbn [loopD]. now apply okp_ok. apply okp_bind with (Q := P); auto. Qed.
Lemma okp_forD {S} (P : S -> Prop) hi lo B s : (forall i s, P s -> okp P (B i s)) -> P s -> okp P (forD hi lo B s).
Proof. intros. now apply okp_loopD. Qed.
Lemma okp_while {S R} (P : S -> Prop) (Q : R -> Prop) B :
  (forall s, P s -> okp (fun x => match x with Next s' => P s' | Exit r => Q r end) (B s)) ->
  forall fuel s, P s -> okp Q (whileF fuel B s).
Proof.
  intros H. induction fuel as [|f IH]; intros s HI; cbn [whileF]; [apply okp_err|].
  eapply okp_bind; [apply H, HI|]. intros [s'|r] HP; [auto|now apply okp_ok].
Qed.
Definition lenp (n : Z) (l : list Z) : Prop := len l = n.
Lemma okp_aset n a i v : lenp n a -> okp (lenp n) (aset a i v).
Proof.
  intros H. unfold aset. destruct (in_range a i); [apply okp_ok|apply okp_err]. unfold lenp. now rewrite len_upd.
Qed.
Lemma lenp_zeros n : 0 <= n -> lenp n (zeros n).
Proof. apply len_zeros. Qed.

Lemma makeComplement_len n a : lenp n a -> okp (fun r => lenp n (fst r)) (makeComplement n a).
Proof.
  intros H. unfold makeComplement. apply okp_forU; auto. intros i [l c] Hl. apply okp_any. intros x. cbv zeta.
  eapply okp_bind; [apply okp_aset, Hl|]. intros l' H'. now apply okp_ok.
Qed.
Lemma op_neg_len n a : lenp n a -> okp (lenp n) (op_neg n a).
Proof. intros H. unfold op_neg. eapply okp_bind; [apply makeComplement_len, H|]. intros [r c] Hr. now apply okp_ok. Qed.
Lemma op_not_len n a : 0 <= n -> okp (lenp n) (op_not n (zeros n) a).
Proof.
  intros H. unfold op_not. apply okp_forU; [|now apply lenp_zeros]. intros i r Hr. apply okp_any. intros b. now apply okp_aset.
Qed.
Lemma add_assign_len n a b : lenp n a -> okp (lenp n) (add_assign n a b).
Proof.
  intros H. unfold add_assign. eapply okp_bind with (Q := fun r => lenp n (fst r)).
  - unfold addLine. apply okp_forU; auto. intros i [l c] Hl. apply okp_any. intros x. apply okp_any. intros y. cbv zeta.
    eapply okp_bind; [apply okp_aset, Hl|]. intros l' H'. now apply okp_ok.
  - intros [r c] Hr. now apply okp_ok.
Qed.
Lemma sub_assign_len n a b : lenp n a -> okp (lenp n) (sub_assign n a b).
Proof. intros H. unfold sub_assign. apply okp_any. intros. now apply add_assign_len. Qed.
Lemma mul_inner_len n i t d sl b : lenp n b -> okp (fun r => lenp n (fst r)) (mul_inner n i t d sl b).
Proof.
  intros H. unfold mul_inner. apply okp_forU; auto. intros j [l c] Hl. apply okp_any. intros f. cbv zeta. apply okp_any. intros x.
  eapply okp_bind; [apply okp_aset, Hl|]. intros l' H'. now apply okp_ok.
Qed.
Lemma mul_lines_len n g a al d sl : 0 <= n -> okp (lenp n) (mul_lines n g a al d sl).
Proof.
  intros Hn. unfold mul_lines. apply okp_forU; [|now apply lenp_zeros]. intros i b Hb. apply okp_any. intros t.
  eapply okp_bind; [apply mul_inner_len, Hb|]. intros [b' c] Hb'. cbn [fst] in Hb'. destruct (g && (sl + i <? n)); [|now apply okp_ok].
  apply okp_any. intros x. now apply okp_aset.
Qed.
Lemma mul_assign_len n a b : 0 <= n -> okp (lenp n) (mul_assign n a b).
Proof.
  intros Hn. unfold mul_assign, multiplyLines. apply okp_any. intros x. apply okp_any. intros y.
  destruct (x >? y); now apply mul_lines_len.
Qed.
Lemma setBit_len cfg n a i b : lenp n a -> okp (lenp n) (setBit cfg n a i b).
Proof.
  intros H. unfold setBit. destruct (negb (cfg_unsafe cfg) && (i >=? 32 * n)); [now apply okp_ok|]. cbv zeta.
  apply okp_any. intros _. apply okp_any. intros x. destruct b; now apply okp_aset.
Qed.
Lemma shl_assign_len n a k : lenp n a -> okp (lenp n) (shl_assign n a k).
Proof.
  intros H. unfold shl_assign. destruct ((k >=? 32 * n) || (k =? 0)); [now apply okp_ok|]. cbv zeta.
  eapply okp_bind with (Q := lenp n).
  { apply okp_forD; auto. intros i v Hv. apply okp_any. intros x. apply okp_any. intros y. now apply okp_aset. }
  intros v Hv. apply okp_any. intros x0. eapply okp_bind; [apply okp_aset, Hv|]. intros v' Hv'.
  apply okp_forU; auto. intros. now apply okp_aset.
Qed.
Lemma shr_assign_len n a k : lenp n a -> okp (lenp n) (shr_assign n a k).
Proof.
  intros H. unfold shr_assign. destruct ((k >=? 32 * n) || (k =? 0)); [now apply okp_ok|]. cbv zeta.
  eapply okp_bind with (Q := lenp n).
  { apply okp_forU; auto. intros i v Hv. apply okp_any. intros x. apply okp_any. intros y. now apply okp_aset. }
  intros v Hv. apply okp_any. intros x0. eapply okp_bind; [apply okp_aset, Hv|]. intros v' Hv'.
  apply okp_forU; auto. intros. now apply okp_aset.
Qed.
Lemma from_unsigned_len n v : 0 <= n -> okp (lenp n) (from_unsigned n (zeros n) v).
Proof.
  intros Hn. unfold from_unsigned. destruct (negb (v =? 0)); [|apply okp_ok; now apply lenp_zeros].
  eapply okp_bind with (Q := fun r => lenp n (fst r)).
  - apply okp_forU; [|now apply lenp_zeros]. intros i [b t] Hb. eapply okp_bind; [apply okp_aset, Hb|]. intros b' Hb'. now apply okp_ok.
  - intros [b t] Hb. now apply okp_ok.
Qed.
Lemma divide_len cfg n a b : 0 <= n -> lenp n a -> okp (fun r => lenp n (fst r) /\ lenp n (snd r)) (divide cfg n a b).
Proof.
  intros Hn H. unfold divide. apply okp_any. intros c. cbv zeta. destruct c.
  - eapply okp_bind; [now apply from_unsigned_len|]. intros o Ho. apply okp_ok. split; auto. now apply lenp_zeros.
  - apply okp_ok. split; auto. now apply lenp_zeros.
  - apply okp_any. intros f. apply okp_forD; [|split; now apply lenp_zeros]. intros i [q r] [Hq Hr]. cbn [fst snd] in Hq, Hr.
    eapply okp_bind; [apply shl_assign_len, Hr|]. intros r1 H1. apply okp_any. intros bit.
    eapply okp_bind; [apply setBit_len, H1|]. intros r2 H2. apply okp_any. intros ge. destruct ge; [|now apply okp_ok].
    eapply okp_bind; [apply sub_assign_len, H2|]. intros r3 H3. eapply okp_bind; [apply setBit_len, Hq|]. intros q' Hq'. now apply okp_ok.
  - eapply okp_bind; [now apply from_unsigned_len|]. intros o Ho. apply okp_ok. split; auto. now apply lenp_zeros.
Qed.
Lemma op_div_len cfg n a b : 0 <= n -> lenp n a -> okp (lenp n) (op_div cfg n a b).
Proof. intros Hn H. unfold op_div. eapply okp_bind; [now apply divide_len|]. intros [q r] [Hq _]. now apply okp_ok. Qed.
Lemma op_mod_len cfg n a b : 0 <= n -> lenp n a -> okp (lenp n) (op_mod cfg n a b).
Proof. intros Hn H. unfold op_mod. eapply okp_bind; [now apply divide_len|]. intros [q r] [_ Hr]. now apply okp_ok. Qed.
Lemma gcd_loop_len cfg n fuel st : 0 <= n -> lenp n (fst st) -> lenp n (snd st) -> okp (lenp n) (gcd_loop cfg n fuel st).
Proof.
  intros Hn H1 H2. unfold gcd_loop. apply okp_while with (P := fun s => lenp n (fst s) /\ lenp n (snd s)); auto.
  intros [g r] [Hg Hr]. cbn [fst snd] in *. apply okp_any. intros z. destruct z; [now apply okp_ok|]. cbv zeta.
  eapply okp_bind; [now apply divide_len|]. intros [q r'] [_ Hr']. now apply okp_ok.
Qed.
Lemma gcd_len cfg fuel n a b : 0 <= n -> lenp n a -> lenp n b -> okp (lenp n) (gcd cfg fuel n a b).
Proof.
  intros Hn Ha Hb. unfold gcd. apply okp_any. intros c. eapply okp_bind with (Q := fun st => lenp n (fst st) /\ lenp n (snd st)).
  - destruct c; (eapply okp_bind; [now apply divide_len|]; intros [q r] [_ Hr]; now apply okp_ok).
  - intros st [H1 H2]. now apply gcd_loop_len.
Qed.
Lemma lcm_len cfg fuel n a b : 0 <= n -> okp (lenp n) (lcm cfg fuel n a b).
Proof. intros Hn. unfold lcm, op_mul. apply okp_any. intros g. apply okp_any. intros q. now apply mul_assign_len. Qed.
Lemma powm_len cfg n b p m : 0 <= n -> okp (lenp n) (powm cfg n b p m).
Proof.
  intros Hn. unfold powm. eapply okp_bind; [now apply from_unsigned_len|]. intros o Ho. apply okp_any. intros [q r].
  eapply okp_bind with (Q := fun s => lenp n (fst s)).
  - unfold powm_loop. apply okp_any. intros f. apply okp_forU; auto. intros i [o1 b1] H1. cbn [fst] in H1. apply okp_any. intros bit.
    eapply okp_bind with (Q := lenp n).
    + destruct bit; [|now apply okp_ok]. unfold op_mul. eapply okp_bind; [now apply mul_assign_len|]. intros p1 Hp.
      eapply okp_bind; [now apply divide_len|]. intros [q1 r1] [_ Hr]. now apply okp_ok.
    + intros o2 H2. apply okp_any. intros p2. apply okp_any. intros [q2 r2]. now apply okp_ok.
  - intros [o1 b1] H1. now apply okp_ok.
Qed.
Lemma power2_len cfg n k : 0 <= n -> okp (lenp n) (power2 cfg n k).
Proof. intros Hn. unfold power2. apply setBit_len. now apply lenp_zeros. Qed.
Lemma squareRoot_len cfg fuel n a : 0 <= n -> okp (lenp n) (squareRoot cfg fuel n a).
Proof.
  intros Hn. unfold squareRoot. apply okp_any. intros c. eapply okp_bind; [now apply power2_len|]. intros y Hy.
  apply okp_while with (P := lenp n); auto. intros x Hx. cbv zeta. apply okp_any. intros q.
  unfold op_add, op_shr. eapply okp_bind; [apply add_assign_len, Hx|]. intros s Hs. eapply okp_bind; [apply shr_assign_len, Hs|]. intros y' Hy'.
  apply okp_any. intros lt. destruct lt; now apply okp_ok.
Qed.

(** ** The functions that only read *)
Lemma v_copy_gives m n v a : 0 <= n -> reads m v a -> lenp n a -> vgives m (v_copy n v) (Ok a).
Proof.
  intros Hn H L. apply vg_eq with (x := forU 0 n (fun i r => b <- aget a i ;; aset r i b) (zeros n)).
  - unfold v_copy. vg.
  - destruct (forU_spec (fun i r => len r = n /\ forall j, 0 <= j < i -> znth r j = znth a j) 0 n
      (fun i r => b <- aget a i ;; aset r i b) (zeros n)) as (r & E & Hr & Z); auto.
    + split; [now apply len_zeros|]. lia.
    + intros i r Hi [Hr Z]. rewrite aget_ok by (unfold lenp in L; lia). cbn [bind]. rewrite aset_ok by lia. eexists. split; [reflexivity|].
      rewrite len_upd. split; auto. intros j Hj. rewrite znth_upd by lia. destruct (Z.eqb_spec i j); [subst; auto|]. apply Z. lia.
    + rewrite E. f_equal. apply list_ext_znth; unfold lenp in L; [lia|]. intros i Hi. apply Z. lia.
Qed.
Lemma v_filled_gives m n v a : reads m v a -> vgives m (v_filledBlocksNumber n v) (filledBlocksNumber n a).
Proof. intros H. unfold v_filledBlocksNumber, filledBlocksNumber. vg. Qed.
Lemma v_isZero_gives m n v a : reads m v a -> vgives m (v_isZero n v) (isZero n a).
Proof. intros H. unfold v_isZero, isZero. vg1. now apply v_filled_gives. vg. Qed.
Lemma v_isOdd_gives m v a : reads m v a -> vgives m (v_isOdd v) (isOdd a).
Proof. intros H. unfold v_isOdd, isOdd. vg. Qed.
Lemma v_getBit_gives m cfg n v a i : reads m v a -> vgives m (v_getBit cfg n v i) (getBit cfg n a i).
Proof. intros H. unfold v_getBit, getBit. vg. Qed.
Lemma v_compareTo_gives m cfg n v w a b : reads m v a -> reads m w b -> vgives m (v_compareTo cfg n v w) (compareTo cfg n n a b).
Proof.
  intros Ha Hb. unfold v_compareTo, compareTo. rewrite Z.ltb_irrefl. cbv zeta.
  unfold blockBitLength. replace (32 * n =? n * 32) with true by (symmetry; apply Z.eqb_eq; ring). cbn [negb].
  apply vg_bind; [|intros [?|?] _; apply vg_ret]. apply vg_forDx. intros i s. vg1. apply Ha. vg1; [|vg].
  unfold v_getBlock, getBlock. vg.
Qed.
Lemma v_eq_gives m cfg n v w a b : reads m v a -> reads m w b -> vgives m (v_eq cfg n v w) (op_eq cfg n n a b).
Proof. intros. unfold v_eq, op_eq. vg1. now apply v_compareTo_gives. vg. Qed.
Lemma v_rel_gives m cfg n v w a b f : reads m v a -> reads m w b ->
  vgives m (v_rel cfg n v w f) (o <- op_spaceship cfg n n a b ;; Ok (f o)).
Proof.
  intros. unfold v_rel, op_spaceship.
  apply vg_eq with (x := c <- compareTo cfg n n a b ;; Ok (f (to_ordering c))).
  - vg1. now apply v_compareTo_gives. vg.
  - destruct (compareTo cfg n n a b); reflexivity.
Qed.
Lemma v_neg_gives m n v a : 0 <= n -> reads m v a -> lenp n a -> vgives m (v_neg n v) (op_neg n a).
Proof.
  intros. unfold v_neg. change (op_neg n a) with (r <- Ok a ;; op_neg n r). vg1. now apply v_copy_gives. vg.
Qed.
Lemma v_not_gives m n v a : reads m v a -> vgives m (v_not n v) (op_not n (zeros n) a).
Proof. intros. unfold v_not, op_not. vg. Qed.
Lemma v_sub_local_gives m n r v b : 0 <= n -> reads m v b -> lenp n b -> vgives m (v_sub_local n r v) (sub_assign n r b).
Proof. intros. unfold v_sub_local, sub_assign. vg1. now apply v_neg_gives. vg. Qed.
Lemma v_mul_inner_gives m n i t dv d sl buf : (forall j, vgives m (dv j) (d j)) ->
  vgives m (v_mul_inner n i t dv sl buf) (mul_inner n i t d sl buf).
Proof.
  intros H. unfold v_mul_inner, mul_inner. apply vg_forU'. intros j [b c]. vg1; [apply H|]. vg.
Qed.
Lemma v_mul_lines_gives m n (g : bool) lv l ll dv d sl : reads m lv l -> (forall j, vgives m (dv j) (d j)) ->
  vgives m (aforU 0 ll (fun i buffer =>
    tBlock <~ lv i ;;
    '(buffer, carryOut) <~ v_mul_inner n i tBlock dv sl buffer ;;
    if g && (sl + i <? n) then
      b <~ pure (aget buffer (sl + i)) ;;
      pure (aset buffer (sl + i) (u32 (b + u32 carryOut)))
    else Ret buffer) (zeros n)) (mul_lines n g l ll d sl).
Proof.
  intros H K. unfold mul_lines. apply vg_forU'. intros i b. vg1; [apply H|]. vg1; [now apply v_mul_inner_gives|]. vg.
Qed.
Lemma v_multiplyLines_gives m n v a la w b lb : reads m v a -> reads m w b ->
  vgives m (v_multiplyLines n v la w lb) (multiplyLines n a la b lb).
Proof. intros. now apply v_mul_lines_gives. Qed.
Lemma v_mul_gives m n v w a b : reads m v a -> reads m w b -> vgives m (v_mul n v w) (mul_assign n a b).
Proof.
  intros. unfold v_mul, mul_assign. vg1. now apply v_filled_gives. vg1. now apply v_filled_gives.
  destruct (_ >? _); now apply v_multiplyLines_gives.
Qed.
Lemma v_divide_gives m cfg n v w a b : 0 <= n -> reads m v a -> reads m w b -> lenp n a -> lenp n b ->
  vgives m (v_divide cfg n v w) (divide cfg n a b).
Proof.
  intros Hn Ha Hb La Lb. unfold v_divide, divide. vg1. now apply v_compareTo_gives. cbv zeta.
  match goal with |- vgives _ (match ?c with _ => _ end) _ => destruct c end; [vg| |vg1|vg].
  - change (Ok (aeu_zero n, a)) with (r <- Ok a ;; Ok (aeu_zero n, r)). vg1. now apply v_copy_gives. vg.
  - now apply v_filled_gives.
  - apply vg_forD with (I := fun _ => True); auto. intros i [q1 r1] _. vg1. vg. vg1. now apply v_getBit_gives. vg1. vg.
    vg1. apply v_rel_gives; auto. apply reads_local.
    match goal with |- vgives _ (if ?c then _ else _) _ => destruct c end; [|vg].
    vg1. now apply v_sub_local_gives. vg.
Qed.
Lemma v_gcd_gives m cfg fuel n v w a b : 0 <= n -> reads m v a -> reads m w b -> lenp n a -> lenp n b ->
  vgives m (v_gcd cfg fuel n v w) (gcd cfg fuel n a b).
Proof.
  intros Hn Ha Hb La Lb. unfold v_gcd, gcd. vg1. now apply v_compareTo_gives. vg1; [|vg].
  assert (K : forall v w a b, reads m v a -> reads m w b -> lenp n a -> lenp n b ->
    vgives m (g <~ v_copy n w ;; '(_, r) <~ v_divide cfg n v w ;; Ret (g, r)) ('(_, r) <- divide cfg n a b ;; Ok (b, r))).
  { clear. intros v w a b. intros.
    apply vg_eq with (x := g <- Ok b ;; '(_, r) <- divide cfg n a b ;; Ok (g, r)); [|reflexivity].
    destruct (Z.leb_spec 0 n); [|unfold lenp, len in *; lia].
    vg1. now apply v_copy_gives. vg1. now apply v_divide_gives. vg. }
  match goal with |- vgives _ (match ?c with _ => _ end) _ => destruct c end; now apply K.
Qed.
Lemma v_lcm_gives m cfg fuel n v w a b : 0 <= n -> reads m v a -> reads m w b -> lenp n a -> lenp n b ->
  vgives m (v_lcm cfg fuel n v w) (lcm cfg fuel n a b).
Proof.
  intros Hn Ha Hb La Lb. unfold v_lcm, lcm. apply vg_bind; [now apply v_gcd_gives|]. intros g E.
  assert (lenp n g) by (eapply okp_use; [exact E|now apply gcd_len]).
  unfold op_div. apply vg_eq with (x := '(q, _) <- divide cfg n a g ;; mul_assign n q b).
  - vg1. apply v_divide_gives; auto. apply reads_local. destruct r. apply v_mul_gives; auto. apply reads_local.
  - destruct (divide cfg n a g) as [[q r]|]; reflexivity.
Qed.
Lemma v_powm_gives m cfg n v w u b p md : 0 <= n -> reads m v b -> reads m w p -> reads m u md -> lenp n b -> lenp n p -> lenp n md ->
  vgives m (v_powm cfg n v w u) (powm cfg n b p md).
Proof.
  intros Hn Hb Hp Hm Lb Lp Lm. unfold v_powm, powm. vg1. vg. vg1. now apply v_divide_gives.
  match goal with |- vgives _ (match ?c with _ => _ end) _ => destruct c as [q r0] end. unfold powm_loop.
  assert (D : forall l, lenp n l -> vgives m (v_divide cfg n (local l) u) (divide cfg n l md)).
  { intros. apply v_divide_gives; auto. apply reads_local. }
  match goal with |- vgives m (f <~ ?c ;; @?k f) (bind (bind ?c1 ?c2) ?c3) =>
    apply vg_eq with (x := bind c1 (fun f => bind (c2 f) c3)); [|destruct c1; reflexivity] end.
  vg1. now apply v_filled_gives. vg1; [|vg].
  apply vg_forU'. intros i [o b1]. vg1. now apply v_getBit_gives. vg1.
  - match goal with |- vgives _ (if ?c then _ else _) _ => destruct c end; [|vg].
    apply vg_bind; [vg|]. intros p1 E1. assert (lenp n p1) by (eapply okp_use; [exact E1|now apply mul_assign_len]). vg1. now apply D. vg.
  - apply vg_bind; [vg|]. intros p1 E1. assert (lenp n p1) by (eapply okp_use; [exact E1|now apply mul_assign_len]). vg1. now apply D. vg.
Qed.
Lemma v_bitCount_gives m n v a : reads m v a -> vgives m (v_bitCount n v) (bitCount n a).
Proof.
  intros H. unfold v_bitCount, bitCount, v_lastBlockIndex, lastBlockIndex. vg.
Qed.
Lemma v_squareRoot_gives m cfg fuel n v a : 0 <= n -> reads m v a -> lenp n a ->
  vgives m (v_squareRoot cfg fuel n v) (squareRoot cfg fuel n a).
Proof.
  intros Hn H L. unfold v_squareRoot, squareRoot. vg1. now apply v_bitCount_gives. apply vg_bind; [vg|]. intros y Ey.
  assert (lenp n y) by (eapply okp_use; [exact Ey|now apply power2_len]).
  assert (SQ : forall x, lenp n x -> vgives m (v_divide cfg n v (local x)) (divide cfg n a x)).
  { intros. apply v_divide_gives; auto. apply reads_local. }
  apply vg_while with (I := lenp n); auto.
  - intros x Hx. cbv zeta. unfold op_div.
    match goal with |- vgives m _ (bind (bind ?c1 ?c2) ?c3) =>
      apply vg_eq with (x := bind c1 (fun f => bind (c2 f) c3)); [|destruct c1; reflexivity] end.
    vg1. now apply SQ. match goal with r : (list Z * list Z)%type |- _ => destruct r end. cbn [bind]. vg.
  - intros x x' Hx. cbv zeta.
    assert (K : okp (fun s => match s with Next s' => lenp n s' | Exit _ => True end)
      (q <- op_div cfg n a x ;; s <- op_add n x q ;; y0 <- op_shr n s 1 ;; lt <- op_lt cfg n n y0 x ;;
       if lt then Ok (Next y0) else Ok (Exit x))).
    { apply okp_any. intros q. unfold op_add, op_shr. eapply okp_bind; [apply add_assign_len, Hx|]. intros s Hs.
      eapply okp_bind; [apply shr_assign_len, Hs|]. intros y' Hy'. apply okp_any. intros lt. destruct lt; now apply okp_ok. }
    intros E. exact (K _ E).
Qed.
