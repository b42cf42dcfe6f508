(** * Lib: loop rules, array lemmas, positional values and bits.  Proof infrastructure only. *)
From Verif Require Export Base Spec.
From Coq Require Import ZifyBool.
Open Scope Z_scope.

(** ** Loop rules *)
Lemma loopU_spec {S} (Inv : Z -> S -> Prop) body cnt : forall i s,
  Inv i s ->
  (forall j s, i <= j < i + Z.of_nat cnt -> Inv j s -> exists s', body j s = Ok s' /\ Inv (j + 1) s') ->
  exists s', loopU cnt i body s = Ok s' /\ Inv (i + Z.of_nat cnt) s'.
Proof.
  induction cnt as [|c IH]; intros i s Hi Hb.
  - exists s. cbn. rewrite Z.add_0_r. auto.
  - destruct (Hb i s) as (s1 & E1 & I1); [lia|auto|].
    cbn [loopU]. rewrite E1. cbn [bind].
    destruct (IH (i + 1) s1 I1) as (s2 & E2 & I2).
    + intros j s0 Hj. apply Hb. lia.
    + exists s2. split; auto. replace (i + Z.of_nat (Datatypes.S c)) with (i + 1 + Z.of_nat c) by lia. auto.
Qed.

Lemma forU_spec {S} (Inv : Z -> S -> Prop) lo hi body s :
  lo <= hi -> Inv lo s ->
  (forall j s, lo <= j < hi -> Inv j s -> exists s', body j s = Ok s' /\ Inv (j + 1) s') ->
  exists s', forU lo hi body s = Ok s' /\ Inv hi s'.
Proof.
  intros Hle H0 Hb. unfold forU.
  destruct (loopU_spec Inv body (Z.to_nat (hi - lo)) lo s H0) as (s' & E & I).
  - intros j s0 Hj. apply Hb. lia.
  - exists s'. split; auto. replace hi with (lo + Z.of_nat (Z.to_nat (hi - lo))) by lia. auto.
Qed.

Lemma forU_empty {S} lo hi (body : Z -> S -> outcome S) s : hi <= lo -> forU lo hi body s = Ok s.
Proof. intros H. unfold forU. replace (Z.to_nat (hi - lo)) with O by lia. reflexivity. Qed.

Lemma forU_step {S} lo hi (body : Z -> S -> outcome S) s : lo < hi ->
  forU lo hi body s = (s' <- body lo s ;; forU (lo + 1) hi body s').
Proof.
  intros H. unfold forU. replace (Z.to_nat (hi - lo)) with (Datatypes.S (Z.to_nat (hi - (lo + 1)))) by lia.
  reflexivity.
Qed.

Lemma loopD_spec {S} (Inv : Z -> S -> Prop) body cnt : forall i s,
  Inv i s ->
  (forall j s, i - Z.of_nat cnt <= j < i -> Inv (j + 1) s -> exists s', body j s = Ok s' /\ Inv j s') ->
  exists s', loopD cnt i body s = Ok s' /\ Inv (i - Z.of_nat cnt) s'.
Proof.
  induction cnt as [|c IH]; intros i s Hi Hb.
  - exists s. cbn. rewrite Z.sub_0_r. auto.
  - destruct (Hb (i - 1) s) as (s1 & E1 & I1); [lia| |].
    { replace (i - 1 + 1) with i by lia. auto. }
    cbn [loopD]. rewrite E1. cbn [bind].
    destruct (IH (i - 1) s1 I1) as (s2 & E2 & I2).
    + intros j s0 Hj. apply Hb. lia.
    + exists s2. split; auto. replace (i - Z.of_nat (Datatypes.S c)) with (i - 1 - Z.of_nat c) by lia. auto.
Qed.

Lemma forD_spec {S} (Inv : Z -> S -> Prop) hi lo body s :
  lo <= hi -> Inv hi s ->
  (forall j s, lo <= j < hi -> Inv (j + 1) s -> exists s', body j s = Ok s' /\ Inv j s') ->
  exists s', forD hi lo body s = Ok s' /\ Inv lo s'.
Proof.
  intros Hle H0 Hb. unfold forD.
  destruct (loopD_spec Inv body (Z.to_nat (hi - lo)) hi s H0) as (s' & E & I).
  - intros j s0 Hj. apply Hb. lia.
  - exists s'. split; auto. replace lo with (hi - Z.of_nat (Z.to_nat (hi - lo))) by lia. auto.
Qed.

Definition step_post {S R} (x : step S R) (P : S -> Prop) (Q : R -> Prop) : Prop :=
  match x with Next s => P s | Exit r => Q r end.

Lemma loopUx_spec {S R} (Inv : Z -> S -> Prop) (Post : R -> Prop) body cnt : forall i s,
  Inv i s ->
  (forall j s, i <= j < i + Z.of_nat cnt -> Inv j s ->
     exists x, body j s = Ok x /\ step_post x (Inv (j + 1)) Post) ->
  exists x, loopUx cnt i body s = Ok x /\ step_post x (Inv (i + Z.of_nat cnt)) Post.
Proof.
  induction cnt as [|c IH]; intros i s Hi Hb.
  - exists (Next s). cbn. rewrite Z.add_0_r. auto.
  - destruct (Hb i s) as (x & E1 & I1); [lia|auto|].
    cbn [loopUx]. rewrite E1. cbn [bind]. destruct x as [s1|r]; cbn [step_post] in *.
    + destruct (IH (i + 1) s1 I1) as (s2 & E2 & I2).
      * intros j s0 Hj. apply Hb. lia.
      * exists s2. split; auto. replace (i + Z.of_nat (Datatypes.S c)) with (i + 1 + Z.of_nat c) by lia. auto.
    + exists (Exit r). auto.
Qed.

Lemma forUx_spec {S R} (Inv : Z -> S -> Prop) (Post : R -> Prop) lo hi body s :
  lo <= hi -> Inv lo s ->
  (forall j s, lo <= j < hi -> Inv j s -> exists x, body j s = Ok x /\ step_post x (Inv (j + 1)) Post) ->
  exists x, forUx lo hi body s = Ok x /\ step_post x (Inv hi) Post.
Proof.
  intros Hle H0 Hb. unfold forUx.
  destruct (loopUx_spec Inv Post body (Z.to_nat (hi - lo)) lo s H0) as (s' & E & I).
  - intros j s0 Hj. apply Hb. lia.
  - exists s'. split; auto. replace (lo + Z.of_nat (Z.to_nat (hi - lo))) with hi in I by lia. auto.
Qed.

Lemma loopDx_spec {S R} (Inv : Z -> S -> Prop) (Post : R -> Prop) body cnt : forall i s,
  Inv i s ->
  (forall j s, i - Z.of_nat cnt <= j < i -> Inv (j + 1) s ->
     exists x, body j s = Ok x /\ step_post x (Inv j) Post) ->
  exists x, loopDx cnt i body s = Ok x /\ step_post x (Inv (i - Z.of_nat cnt)) Post.
Proof.
  induction cnt as [|c IH]; intros i s Hi Hb.
  - exists (Next s). cbn. rewrite Z.sub_0_r. auto.
  - destruct (Hb (i - 1) s) as (x & E1 & I1); [lia| |].
    { replace (i - 1 + 1) with i by lia. auto. }
    cbn [loopDx]. rewrite E1. cbn [bind]. destruct x as [s1|r]; cbn [step_post] in *.
    + destruct (IH (i - 1) s1 I1) as (s2 & E2 & I2).
      * intros j s0 Hj. apply Hb. lia.
      * exists s2. split; auto. replace (i - Z.of_nat (Datatypes.S c)) with (i - 1 - Z.of_nat c) by lia. auto.
    + exists (Exit r). auto.
Qed.

Lemma forDx_spec {S R} (Inv : Z -> S -> Prop) (Post : R -> Prop) hi lo body s :
  lo <= hi -> Inv hi s ->
  (forall j s, lo <= j < hi -> Inv (j + 1) s -> exists x, body j s = Ok x /\ step_post x (Inv j) Post) ->
  exists x, forDx hi lo body s = Ok x /\ step_post x (Inv lo) Post.
Proof.
  intros Hle H0 Hb. unfold forDx.
  destruct (loopDx_spec Inv Post body (Z.to_nat (hi - lo)) hi s H0) as (s' & E & I).
  - intros j s0 Hj. apply Hb. lia.
  - exists s'. split; auto. replace (hi - Z.of_nat (Z.to_nat (hi - lo))) with lo in I by lia. auto.
Qed.

Lemma whileF_spec {S R} (Inv : S -> Prop) (mu : S -> Z) (Post : R -> Prop) body fuel : forall s,
  Inv s -> mu s < Z.of_nat fuel ->
  (forall s, Inv s -> 0 <= mu s) ->
  (forall s, Inv s -> exists x, body s = Ok x /\
      step_post x (fun s' => Inv s' /\ mu s' < mu s) Post) ->
  exists r, whileF fuel body s = Ok r /\ Post r.
Proof.
  induction fuel as [|f IH]; intros s Hs Hm Hpos Hb.
  - specialize (Hpos s Hs). lia.
  - destruct (Hb s Hs) as (x & E & P). cbn [whileF]. rewrite E. cbn [bind].
    destruct x as [s'|r]; cbn [step_post] in P.
    + destruct P as [P1 P2]. apply IH; auto. lia.
    + eauto.
Qed.

(** ** Arrays *)
Lemma len_nonneg {A} (a : list A) : 0 <= len a.
Proof. unfold len. lia. Qed.

Lemma upd_length a i v : length (upd a i v) = length a.
Proof. revert i. induction a as [|x a IH]; intros [|i]; cbn; auto. Qed.

Lemma len_upd a i v : len (upd a i v) = len a.
Proof. unfold len. rewrite upd_length. auto. Qed.

Lemma nth_upd a : forall i j v d, nth j (upd a i v) d = if (Nat.eqb i j && Nat.ltb i (length a))%bool then v else nth j a d.
Proof.
  induction a as [|x a IH]; intros i j v d; cbn [upd].
  - cbn [length]. destruct i, j; cbn; try reflexivity. rewrite andb_false_r. auto.
  - destruct i as [|i], j as [|j]; cbn; auto. apply IH.
Qed.

Lemma znth_upd a i j v : 0 <= i < len a ->
  znth (upd a (Z.to_nat i) v) j = if i =? j then v else znth a j.
Proof.
  intros Hi. unfold znth, len in *. destruct (Z.ltb_spec j 0).
  - destruct (Z.eqb_spec i j); [lia|auto].
  - rewrite nth_upd. destruct (Z.eqb_spec i j).
    + subst. rewrite Nat.eqb_refl. cbn [andb]. destruct (Nat.ltb_spec (Z.to_nat j) (length a)); [auto|lia].
    + destruct (Nat.eqb_spec (Z.to_nat i) (Z.to_nat j)); [lia|]. auto.
Qed.

Lemma znth_upd_eq a i v : 0 <= i < len a -> znth (upd a (Z.to_nat i) v) i = v.
Proof. intros. rewrite znth_upd by auto. rewrite Z.eqb_refl. auto. Qed.
Lemma znth_upd_ne a i j v : 0 <= i < len a -> i <> j -> znth (upd a (Z.to_nat i) v) j = znth a j.
Proof. intros. rewrite znth_upd by auto. destruct (Z.eqb_spec i j); [lia|auto]. Qed.

Lemma znth_out a i : ~ 0 <= i < len a -> znth a i = 0.
Proof.
  intros H. unfold znth, len in *. destruct (Z.ltb_spec i 0); auto.
  apply nth_overflow. lia.
Qed.

Lemma znth_cons_0 x a : znth (x :: a) 0 = x.
Proof. reflexivity. Qed.
Lemma znth_cons_S x a i : 0 < i -> znth (x :: a) i = znth a (i - 1).
Proof.
  intros H. unfold znth. destruct (Z.ltb_spec i 0); [lia|]. destruct (Z.ltb_spec (i - 1) 0); [lia|].
  replace (Z.to_nat i) with (Datatypes.S (Z.to_nat (i - 1))) by lia. reflexivity.
Qed.

Lemma len_zeros n : 0 <= n -> len (zeros n) = n.
Proof. intros. unfold len, zeros. rewrite repeat_length. lia. Qed.

Lemma znth_zeros n i : znth (zeros n) i = 0.
Proof.
  unfold znth, zeros. destruct (Z.ltb_spec i 0); auto.
  destruct (Nat.lt_ge_cases (Z.to_nat i) (Z.to_nat n)).
  - rewrite nth_repeat. auto.
  - rewrite nth_overflow; auto. rewrite repeat_length. auto.
Qed.

Lemma list_ext_znth a b : len a = len b -> (forall i, 0 <= i < len a -> znth a i = znth b i) -> a = b.
Proof.
  intros Hl H. unfold len in *. apply nth_ext with (d := 0) (d' := 0); [lia|].
  intros k Hk. specialize (H (Z.of_nat k)). unfold znth in H.
  destruct (Z.ltb_spec (Z.of_nat k) 0); [lia|]. rewrite Nat2Z.id in H. apply H. lia.
Qed.

(** ** Well-formed numbers *)
Lemma wf_len n a : wf n a -> len a = n.
Proof. intros [H _]. auto. Qed.

Lemma wf_nonneg n a : wf n a -> 0 <= n.
Proof. intros [H _]. rewrite <- H. apply len_nonneg. Qed.

Lemma wf_znth n a i : wf n a -> 0 <= znth a i < 2 ^ 32.
Proof.
  intros [Hl Hf]. destruct (Z.ltb_spec i 0) as [?|Hi]; [rewrite znth_out by lia; lia|].
  destruct (Z.ltb_spec i (len a)); [|rewrite znth_out by lia; lia].
  rewrite Forall_forall in Hf. unfold znth. destruct (Z.ltb_spec i 0); [lia|]. apply Hf. apply nth_In. unfold len in *. lia.
Qed.

Lemma wf_intro n a : len a = n -> (forall i, 0 <= i < n -> 0 <= znth a i < 2 ^ 32) -> wf n a.
Proof.
  intros Hl H. split; auto. apply Forall_forall. intros x Hx.
  apply In_nth with (d := 0) in Hx. destruct Hx as (k & Hk & <-).
  specialize (H (Z.of_nat k)). unfold znth in H. destruct (Z.ltb_spec (Z.of_nat k) 0); [lia|].
  rewrite Nat2Z.id in H. apply H. unfold len in *. lia.
Qed.

Lemma wf_zeros n : 0 <= n -> wf n (zeros n).
Proof. intros. apply wf_intro; [apply len_zeros; auto|]. intros. rewrite znth_zeros. lia. Qed.

Lemma wf_upd n a i v : wf n a -> 0 <= v < 2 ^ 32 -> wf n (upd a (Z.to_nat i) v).
Proof.
  intros H Hv. assert (L := wf_len _ _ H). apply wf_intro; [rewrite len_upd; auto|].
  intros j Hj. unfold znth. destruct (Z.ltb_spec j 0); [lia|]. rewrite nth_upd. destruct (_ && _)%bool; auto.
  pose proof (wf_znth n a j H) as W. unfold znth in W. destruct (Z.ltb_spec j 0); [lia|auto].
Qed.

Lemma aget_ok a i : 0 <= i < len a -> aget a i = Ok (znth a i).
Proof. intros H. unfold aget, in_range. destruct (Z.leb_spec 0 i), (Z.ltb_spec i (len a)); cbn; auto; lia. Qed.
Lemma aset_ok a i v : 0 <= i < len a -> aset a i v = Ok (upd a (Z.to_nat i) v).
Proof. intros H. unfold aset, in_range. destruct (Z.leb_spec 0 i), (Z.ltb_spec i (len a)); cbn; auto; lia. Qed.
Lemma aget_err a i : ~ 0 <= i < len a -> aget a i = Err OutOfBounds.
Proof. intros H. unfold aget, in_range. destruct (Z.leb_spec 0 i), (Z.ltb_spec i (len a)); cbn; auto; lia. Qed.
Lemma aset_err a i v : ~ 0 <= i < len a -> aset a i v = Err OutOfBounds.
Proof. intros H. unfold aset, in_range. destruct (Z.leb_spec 0 i), (Z.ltb_spec i (len a)); cbn; auto; lia. Qed.

(** ** Positional values *)
Definition pval (a : list Z) (k : Z) : Z := bval (firstn (Z.to_nat k) a).

Lemma pow32_pos k : 0 <= k -> 0 < 2 ^ (32 * k).
Proof. intros. apply Z.pow_pos_nonneg; lia. Qed.
Lemma pow32_succ k : 0 <= k -> 2 ^ (32 * (k + 1)) = 2 ^ (32 * k) * 2 ^ 32.
Proof. intros. rewrite <- Z.pow_add_r by lia. f_equal. lia. Qed.

Lemma modulus_pos n : 0 <= n -> 0 < modulus n.
Proof. apply pow32_pos. Qed.

Lemma bval_app a b : bval (a ++ b) = bval a + 2 ^ (32 * len a) * bval b.
Proof.
  induction a as [|x a IH]; cbn [app bval].
  - unfold len. cbn [length]. change (2 ^ (32 * Z.of_nat 0)) with 1. lia.
  - rewrite IH. unfold len. cbn [length].
    replace (32 * Z.of_nat (S (length a))) with (32 + 32 * Z.of_nat (length a)) by lia.
    rewrite (Z.pow_add_r 2 32) by lia. ring.
Qed.

Lemma pval_0 a : pval a 0 = 0.
Proof. reflexivity. Qed.

Lemma firstn_S_nth {A} (a : list A) k d : (k < length a)%nat -> firstn (S k) a = firstn k a ++ [nth k a d].
Proof.
  revert k. induction a as [|x a IH]; intros k Hk; cbn [length] in Hk; [lia|].
  destruct k as [|k]; [reflexivity|]. cbn [firstn nth app]. f_equal. apply (IH k). lia.
Qed.

Lemma pval_succ a k : 0 <= k < len a -> pval a (k + 1) = pval a k + 2 ^ (32 * k) * znth a k.
Proof.
  intros Hk. unfold pval, znth, len in *. destruct (Z.ltb_spec k 0); [lia|].
  replace (Z.to_nat (k + 1)) with (S (Z.to_nat k)) by lia.
  rewrite firstn_S_nth with (d := 0) by lia. rewrite bval_app. cbn [bval].
  unfold len. rewrite firstn_length_le by lia. rewrite Z2Nat.id by lia. ring.
Qed.

Lemma pval_over a k : len a <= k -> pval a k = bval a.
Proof. intros. unfold pval, len in *. rewrite firstn_all2 by lia. auto. Qed.

Lemma pval_len a : pval a (len a) = bval a.
Proof. apply pval_over. lia. Qed.

Lemma pval_wf n a : wf n a -> pval a n = bval a.
Proof. intros [<- _]. apply pval_len. Qed.

Lemma pval_bound n a k : wf n a -> 0 <= k <= n -> 0 <= pval a k < 2 ^ (32 * k).
Proof.
  intros H Hk. pose proof (wf_len _ _ H) as L.
  destruct Hk as [Hk1 Hk2]. revert Hk2. pattern k. apply natlike_ind; auto.
  - intros _. rewrite pval_0. cbn. lia.
  - intros x Hx IH Hx2. unfold Z.succ in *. rewrite pval_succ by lia. rewrite pow32_succ by lia.
    pose proof (wf_znth n a x H). specialize (IH ltac:(lia)). nia.
Qed.

Lemma bval_bound n a : wf n a -> 0 <= bval a < modulus n.
Proof. intros H. pose proof (wf_nonneg _ _ H). rewrite <- (pval_wf n a H). apply (pval_bound n); auto. lia. Qed.

Lemma pval_ext a b k : len a = len b -> 0 <= k -> (forall i, 0 <= i < k -> znth a i = znth b i) -> pval a k = pval b k.
Proof.
  intros L Hk. pattern k. apply natlike_ind; auto.
  intros x Hx IH H. unfold Z.succ in *.
  destruct (Z.ltb_spec x (len a)).
  - rewrite !pval_succ by lia. rewrite IH, H; auto; try lia. intros; apply H; lia.
  - rewrite !pval_over by lia. rewrite !pval_over in IH by lia. apply IH. intros; apply H; lia.
Qed.

Lemma pval_upd_ge a i v k : 0 <= i < len a -> 0 <= k <= i -> pval (upd a (Z.to_nat i) v) k = pval a k.
Proof.
  intros Hi Hk. apply pval_ext; [apply len_upd|lia|]. intros j Hj. apply znth_upd_ne; auto; lia.
Qed.

Lemma bval_upd a i v : 0 <= i < len a ->
  bval (upd a (Z.to_nat i) v) = bval a + 2 ^ (32 * i) * (v - znth a i).
Proof.
  intros Hi. assert (G : forall k, 0 <= k -> i < k <= len a ->
    pval (upd a (Z.to_nat i) v) k = pval a k + 2 ^ (32 * i) * (v - znth a i)).
  { intros k Hk. pattern k. apply natlike_ind; auto; [lia|].
    intros x Hx IH Hx2. unfold Z.succ in *. rewrite !pval_succ by (rewrite ?len_upd; lia).
    destruct (Z.eq_dec x i) as [->|Hne].
    - rewrite znth_upd_eq by auto. rewrite pval_upd_ge by lia. ring.
    - rewrite znth_upd_ne by lia. rewrite IH by lia. ring. }
  rewrite <- (pval_len (upd _ _ _)), <- (pval_len a), len_upd. apply G; lia.
Qed.

Lemma bval_zeros n : bval (zeros n) = 0.
Proof. unfold zeros. induction (Z.to_nat n) as [|k IH]; cbn [repeat bval]; auto. rewrite IH. reflexivity. Qed.

Lemma pval_zeros n k : pval (zeros n) k = 0.
Proof.
  unfold pval, zeros. generalize (Z.to_nat n) (Z.to_nat k). clear. intros p q. revert q.
  induction p as [|p IH]; intros [|q]; cbn [repeat firstn bval]; auto. rewrite IH. reflexivity.
Qed.

Lemma bval_inj n a b : wf n a -> wf n b -> bval a = bval b -> a = b.
Proof.
  intros [La Fa] [Lb Fb]. assert (L : length a = length b) by (unfold len in *; lia). clear La Lb n.
  revert b L Fb. induction a as [|x a IH]; intros [|y b] L Fb E; cbn in L; try lia; auto.
  inversion Fa; inversion Fb; subst. cbn [bval] in E.
  assert (x = y /\ bval a = bval b) as [-> E'] by lia. f_equal. apply IH; auto.
Qed.

(** [bval] splits at a block boundary: everything below block k / block k and above. *)
Lemma bval_split n a k : wf n a -> 0 <= k <= n ->
  exists h, bval a = pval a k + 2 ^ (32 * k) * h /\ 0 <= h < 2 ^ (32 * (n - k)).
Proof.
  intros H Hk. exists (bval (skipn (Z.to_nat k) a)). pose proof (wf_len _ _ H) as L.
  assert (E : bval a = pval a k + 2 ^ (32 * k) * bval (skipn (Z.to_nat k) a)).
  { rewrite <- (firstn_skipn (Z.to_nat k) a) at 1. rewrite bval_app. unfold pval. f_equal. f_equal. f_equal. f_equal.
    unfold len in *. rewrite firstn_length_le; lia. }
  split; auto. apply (bval_bound (n - k)). destruct H as [_ F]. split.
  - unfold len in *. rewrite skipn_length. lia.
  - apply Forall_forall. intros x Hx. rewrite Forall_forall in F. apply F. rewrite <- (firstn_skipn (Z.to_nat k) a). apply in_or_app. auto.
Qed.

Lemma pval_mod n a k : wf n a -> 0 <= k <= n -> pval a k = bval a mod 2 ^ (32 * k).
Proof.
  intros H Hk. destruct (bval_split n a k H Hk) as (h & E & Hh). rewrite E.
  rewrite Z.mul_comm, Z_mod_plus_full. rewrite Z.mod_small; auto. apply (pval_bound n); auto.
Qed.

Lemma znth_digit n a k : wf n a -> 0 <= k < n -> znth a k = (bval a / 2 ^ (32 * k)) mod 2 ^ 32.
Proof.
  intros H Hk. pose proof (wf_len _ _ H).
  destruct (bval_split n a (k + 1) H ltac:(lia)) as (h & E & _). rewrite E, pval_succ, pow32_succ by lia.
  pose proof (pval_bound n a k H ltac:(lia)). pose proof (wf_znth n a k H). pose proof (pow32_pos k ltac:(lia)).
  replace (pval a k + 2 ^ (32 * k) * znth a k + 2 ^ (32 * k) * 2 ^ 32 * h)
    with (pval a k + (znth a k + h * 2 ^ 32) * 2 ^ (32 * k)) by ring.
  rewrite Z.div_add by lia. rewrite (Z.div_small (pval a k)) by lia. rewrite Z.add_0_l.
  rewrite Z_mod_plus_full. rewrite Z.mod_small; auto.
Qed.

(** ** Bits *)
Lemma testbit_block x i : 0 <= x < 2 ^ 32 -> 32 <= i -> Z.testbit x i = false.
Proof.
  intros Hx Hi. destruct (Z.eq_dec x 0) as [->|]; [apply Z.testbit_0_l|].
  apply Z.bits_above_log2; [lia|]. apply Z.lt_le_trans with 32; auto. apply Z.log2_lt_pow2; lia.
Qed.

Lemma testbit_lt_pow2 x k i : 0 <= x < 2 ^ k -> k <= i -> Z.testbit x i = false.
Proof.
  intros Hx Hi. destruct (Z.eq_dec x 0) as [->|]; [apply Z.testbit_0_l|].
  apply Z.bits_above_log2; [lia|]. apply Z.lt_le_trans with k; auto. apply Z.log2_lt_pow2; lia.
Qed.

Lemma bval_testbit n a i : wf n a -> 0 <= i ->
  Z.testbit (bval a) i = Z.testbit (znth a (i / 32)) (i mod 32).
Proof.
  intros H Hi. pose proof (wf_nonneg _ _ H) as Hn.
  assert (0 <= i mod 32 < 32) by (apply Z.mod_pos_bound; lia).
  assert (0 <= i / 32) by (apply Z.div_pos; lia).
  assert (Ei : i = 32 * (i / 32) + i mod 32) by (apply Z.div_mod; lia).
  destruct (Z.ltb_spec (i / 32) n) as [Hlt|Hge].
  - rewrite (znth_digit n) by (auto; lia). rewrite Z.mod_pow2_bits_low by lia.
    rewrite Z.div_pow2_bits by lia. f_equal. lia.
  - rewrite znth_out by (rewrite (wf_len _ _ H); lia). rewrite Z.testbit_0_l.
    apply (testbit_lt_pow2 _ (32 * n)); [apply (bval_bound n); auto|]. lia.
Qed.

Lemma u32_range x : 0 <= u32 x < 2 ^ 32.
Proof. apply Z.mod_pos_bound. lia. Qed.
Lemma u64_range x : 0 <= u64 x < 2 ^ 64.
Proof. apply Z.mod_pos_bound. lia. Qed.
Lemma u32_small x : 0 <= x < 2 ^ 32 -> u32 x = x.
Proof. apply Z.mod_small. Qed.
Lemma u64_small x : 0 <= x < 2 ^ 64 -> u64 x = x.
Proof. apply Z.mod_small. Qed.
Lemma u8_small x : 0 <= x < 2 ^ 8 -> u8 x = x.
Proof. apply Z.mod_small. Qed.

Lemma u32_testbit x i : 0 <= i -> Z.testbit (u32 x) i = ((i <? 32) && Z.testbit x i)%bool.
Proof.
  intros. unfold u32. destruct (Z.ltb_spec i 32); cbn [andb].
  - apply Z.mod_pow2_bits_low; lia.
  - apply Z.mod_pow2_bits_high; lia.
Qed.
Lemma u64_testbit x i : 0 <= i -> Z.testbit (u64 x) i = ((i <? 64) && Z.testbit x i)%bool.
Proof.
  intros. unfold u64. destruct (Z.ltb_spec i 64); cbn [andb].
  - apply Z.mod_pow2_bits_low; lia.
  - apply Z.mod_pow2_bits_high; lia.
Qed.

Lemma not32_testbit x i : 0 <= i -> Z.testbit (not32 x) i = ((i <? 32) && negb (Z.testbit x i))%bool.
Proof. intros. unfold not32. rewrite u32_testbit by auto. rewrite Z.lnot_spec by auto. auto. Qed.

Lemma not32_range x : 0 <= not32 x < 2 ^ 32.
Proof. apply u32_range. Qed.

Lemma ones_testbit k i : 0 <= k -> 0 <= i -> Z.testbit (2 ^ k - 1) i = (i <? k).
Proof.
  intros. replace (2 ^ k - 1) with (Z.ones k) by (rewrite Z.ones_equiv; lia).
  rewrite Z.testbit_ones_nonneg by lia. auto.
Qed.

Lemma bits_range x k : 0 <= k -> (forall i, k <= i -> Z.testbit x i = false) -> 0 <= x < 2 ^ k.
Proof.
  intros Hk H. assert (x = x mod 2 ^ k) as ->; [|apply Z.mod_pos_bound; apply Z.pow_pos_nonneg; lia].
  apply Z.bits_inj'. intros i Hi. destruct (Z.ltb_spec i k).
  - rewrite Z.mod_pow2_bits_low; auto.
  - rewrite Z.mod_pow2_bits_high by lia. apply H. auto.
Qed.

Lemma lor_range x y : 0 <= x < 2 ^ 32 -> 0 <= y < 2 ^ 32 -> 0 <= Z.lor x y < 2 ^ 32.
Proof.
  intros Hx Hy. apply bits_range; [lia|]. intros i Hi. rewrite Z.lor_spec.
  rewrite !testbit_block by auto. auto.
Qed.
Lemma land_range x y : 0 <= x < 2 ^ 32 -> 0 <= Z.land x y < 2 ^ 32.
Proof.
  intros Hx. apply bits_range; [lia|]. intros i Hi. rewrite Z.land_spec. rewrite testbit_block by auto. auto.
Qed.
Lemma lxor_range x y : 0 <= x < 2 ^ 32 -> 0 <= y < 2 ^ 32 -> 0 <= Z.lxor x y < 2 ^ 32.
Proof.
  intros Hx Hy. apply bits_range; [lia|]. intros i Hi. rewrite Z.lxor_spec.
  rewrite !testbit_block by auto. auto.
Qed.
Lemma shiftr_range x k : 0 <= k -> 0 <= x < 2 ^ 32 -> 0 <= Z.shiftr x k < 2 ^ 32.
Proof.
  intros Hk Hx. apply bits_range; [lia|]. intros i Hi. rewrite Z.shiftr_spec by lia. apply testbit_block; lia.
Qed.

Lemma testbit_one i : 0 <= i -> Z.testbit 1 i = (i =? 0).
Proof. intros. change 1 with (2 ^ 0). rewrite Z.pow2_bits_eqb by lia. apply Z.eqb_sym. Qed.

(** ** Canonical representation *)
Lemma yields_inv n x z : yields n x z -> exists r, x = Ok r /\ wf n r /\ bval r = z.
Proof. intros (r & E & W & B). eauto. Qed.

Lemma yields_ok n r z : wf n r -> bval r = z -> yields n (Ok r) z.
Proof. intros. exists r. split; auto. split; auto. Qed.

Lemma yields_bind n x z k w : yields n x z ->
  (forall r, wf n r -> bval r = z -> yields n (k r) w) -> yields n (bind x k) w.
Proof. intros (r & -> & W & B) H. cbn [bind]. auto. Qed.

Lemma lor_add x y : Z.land x y = 0 -> Z.lor x y = x + y.
Proof. intros H. rewrite Z.add_nocarry_lxor by auto. symmetry. apply Z.lxor_lor. auto. Qed.

Lemma lor_shift_add x y k : 0 <= k -> 0 <= y < 2 ^ k -> Z.lor (x * 2 ^ k) y = x * 2 ^ k + y.
Proof.
  intros Hk Hy. apply lor_add. apply Z.bits_inj'. intros i Hi. rewrite Z.land_spec, Z.testbit_0_l.
  destruct (Z.ltb_spec i k).
  - rewrite Z.mul_pow2_bits_low by lia. auto.
  - rewrite (testbit_lt_pow2 y k) by lia. apply andb_false_r.
Qed.
