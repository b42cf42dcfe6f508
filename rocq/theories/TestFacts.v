(** * TestFacts: lemmas about TestModel. *)
From Coq Require Import ZifyBool.
From Verif Require Import Spec Lib AeuModel AeuArith AeuBits AeuAccess AeuDiv AeuFacts AeuMore AesiModel AesiArith AesiFacts
  MixModel MixFacts BinModel BinFacts TestModel.
Open Scope Z_scope.

Ltac conjs := repeat match goal with |- _ /\ _ => split end.

(** ** Suites *)
Lemma loopU_and cnt : forall i trial ok,
  loopU cnt i (fun i ok => e <- trial i ;; Ok (ok && e)) ok = Ok true <-> ok = true /\ forall j, i <= j < i + Z.of_nat cnt -> trial j = Ok true.
Proof.
  induction cnt as [|cnt IH]; intros i trial ok.
  - cbn [loopU]. split; [intros [= ->]; split; auto; lia|intros [-> _]; auto].
  - cbn [loopU]. split.
    + intros H. destruct (trial i) as [e|f] eqn:E; cbn [bind] in H; [|discriminate]. apply IH in H. destruct H as [H1 H2].
      destruct ok, e; cbn in H1; try discriminate. split; auto. intros j Hj. destruct (Z.eq_dec j i) as [->|]; auto. apply H2. lia.
    + intros [-> H]. rewrite (H i) by lia. cbn [bind]. apply IH. split; auto. intros j Hj. apply H. lia.
Qed.
Lemma trials_iff N trial : trials N trial = Ok true <-> forall i, 0 <= i < N -> trial i = Ok true.
Proof.
  unfold trials, forU. rewrite loopU_and. replace (N - 0) with N by lia. split.
  - intros [_ H] i Hi. apply H. lia.
  - intros H. split; auto. intros j Hj. apply H. lia.
Qed.

(** ** Aeu *)
Lemma modulus_gt n : 0 <= n -> 0 < modulus n.
Proof. apply modulus_pos. Qed.
Lemma u_from cfg n z : cfg_unsafe cfg = false -> 0 <= n -> exists a, from_mpz cfg true n z = Ok a /\ wf n a /\ bval a = Z.abs z mod modulus n.
Proof. intros U Hn. destruct (from_mpz_spec cfg n z Hn (or_introl U)) as (a & E & W & V). exists a. auto. Qed.
Lemma u_eq cfg n a z : cfg_unsafe cfg = false -> wf n a -> op_eq_mpz cfg true n a z = Ok (bval a =? Z.abs z mod modulus n).
Proof.
  intros U W. pose proof (wf_nonneg _ _ W) as Hn. unfold op_eq_mpz. destruct (u_from cfg n z U Hn) as (b & -> & Wb & Vb). cbn [bind].
  rewrite op_eq_cross by auto. rewrite Vb. auto.
Qed.
Lemma composite_u cfg n op aop gop l r f g : cfg_unsafe cfg = false -> 0 <= n -> gop l r = Ok g ->
  (forall a b, wf n a -> wf n b -> bval a = Z.abs l mod modulus n -> bval b = Z.abs r mod modulus n -> yields n (op a b) f /\ yields n (aop a b) f) ->
  composite (onAeu cfg n) op aop gop l r = Ok (f =? Z.abs g mod modulus n).
Proof.
  intros U Hn G H. unfold composite, onAeu. cbn [t_from t_eq].
  destruct (u_from cfg n l U Hn) as (a & -> & Wa & Va). cbn [bind]. destruct (u_from cfg n r U Hn) as (b & -> & Wb & Vb). cbn [bind].
  destruct (H a b Wa Wb Va Vb) as [(x & -> & Wx & Vx) (y & Ey & Wy & Vy)]. cbn [bind]. rewrite G. cbn [bind].
  rewrite u_eq by auto. cbn [bind]. rewrite Ey. cbn [bind]. rewrite u_eq by auto. cbn [bind]. rewrite Vx, Vy, andb_diag. auto.
Qed.
Lemma builtin_u cfg n op aop gop v k f g : cfg_unsafe cfg = false -> 0 <= n -> gop v k = Ok g ->
  (forall a, wf n a -> bval a = Z.abs v mod modulus n -> yields n (op a k) f /\ yields n (aop a k) f) ->
  builtin (onAeu cfg n) op aop gop v k = Ok (f =? Z.abs g mod modulus n).
Proof.
  intros U Hn G H. unfold builtin, onAeu. cbn [t_from t_eq].
  destruct (u_from cfg n v U Hn) as (a & -> & Wa & Va). cbn [bind].
  destruct (H a Wa Va) as [(x & -> & Wx & Vx) (y & Ey & Wy & Vy)]. cbn [bind]. rewrite G. cbn [bind].
  rewrite u_eq by auto. cbn [bind]. rewrite Ey. cbn [bind]. rewrite u_eq by auto. cbn [bind]. rewrite Vx, Vy, andb_diag. auto.
Qed.
(** A difference that wraps, compared with the absolute value of the exact difference. *)
Lemma sub_abs M l r : 0 < M -> 0 <= l < M -> 0 <= r < M -> ((l - r) mod M =? Z.abs (l - r) mod M) = ((r <=? l) || (2 * (r - l) =? M)).
Proof.
  intros HM Hl Hr. destruct (Z.leb_spec r l).
  - rewrite Z.abs_eq by lia. cbn [orb]. apply Z.eqb_refl.
  - rewrite Z.abs_neq by lia. cbn [orb]. replace ((l - r) mod M) with (l - r + M).
    + rewrite (Z.mod_small (- (l - r))) by lia. lia.
    + rewrite <- (Z_mod_plus_full (l - r) 1). rewrite Z.mod_small; lia.
Qed.

(** ** Aesi *)
Lemma s_from cfg n z : 0 <= n -> Z.abs z < modulus n -> exists a, s_from_mpz cfg true n z = Ok a /\ canon n a /\ sval a = z.
Proof.
  intros Hn H. unfold s_from_mpz. destruct (Z.eqb_spec z 0) as [-> |Hz].
  - eexists. split; [reflexivity|]. unfold canon, sval. cbn. conjs; [apply wf_zeros; auto|rewrite bval_zeros; tauto|auto].
  - destruct (from_mpz_spec cfg n z Hn (or_intror H)) as (r & -> & W & V). cbn [bind]. rewrite Z.mod_small in V by lia. eexists. split; [reflexivity|].
    unfold canon, sval. cbn [mag sgn]. destruct (Z.ltb_spec z 0); (split; [split; [auto|split; [congruence|lia] ]|lia]).
Qed.
Lemma s_eq_z cfg n a z : 0 <= n -> swf n a -> Z.abs z < modulus n -> s_eq_mpz cfg true n a z = Ok (sval a =? z).
Proof.
  intros Hn W H. unfold s_eq_mpz. destruct (s_from cfg n z Hn H) as (b & -> & C & V). cbn [bind].
  unfold s_eq. rewrite Z.eqb_refl. rewrite s_compareTo_correct; [|auto|apply canon_swf; auto]. cbn [bind]. rewrite V.
  unfold zcmp. destruct (Z.gtb_spec (sval a) z), (Z.ltb_spec (sval a) z), (Z.eqb_spec (sval a) z); cbn; auto; lia.
Qed.
Lemma composite_s cfg n op aop gop l r f g : 0 <= n -> Z.abs l < modulus n -> Z.abs r < modulus n -> Z.abs g < modulus n -> gop l r = Ok g ->
  (forall a b, swf n a -> swf n b -> sval a = l -> sval b = r -> syields n (op a b) f /\ syields n (aop a b) f) ->
  composite (onAesi cfg n) op aop gop l r = Ok (f =? g).
Proof.
  intros Hn Hl Hr Hg G H. unfold composite, onAesi. cbn [t_from t_eq].
  destruct (s_from cfg n l Hn Hl) as (a & -> & Ca & Va). cbn [bind]. destruct (s_from cfg n r Hn Hr) as (b & -> & Cb & Vb). cbn [bind].
  destruct (H a b (canon_swf _ _ Ca) (canon_swf _ _ Cb) Va Vb) as [(x & -> & Wx & Vx) (y & Ey & Wy & Vy)]. cbn [bind]. rewrite G. cbn [bind].
  rewrite s_eq_z by auto. cbn [bind]. rewrite Ey. cbn [bind]. rewrite s_eq_z by auto. cbn [bind]. rewrite Vx, Vy, andb_diag. auto.
Qed.
Lemma builtin_s cfg n op aop gop v k f g : 0 <= n -> Z.abs v < modulus n -> Z.abs g < modulus n -> gop v k = Ok g ->
  (forall a, swf n a -> sval a = v -> syields n (op a k) f /\ syields n (aop a k) f) ->
  builtin (onAesi cfg n) op aop gop v k = Ok (f =? g).
Proof.
  intros Hn Hv Hg G H. unfold builtin, onAesi. cbn [t_from t_eq].
  destruct (s_from cfg n v Hn Hv) as (a & -> & Ca & Va). cbn [bind].
  destruct (H a (canon_swf _ _ Ca) Va) as [(x & -> & Wx & Vx) (y & Ey & Wy & Vy)]. cbn [bind]. rewrite G. cbn [bind].
  rewrite s_eq_z by auto. cbn [bind]. rewrite Ey. cbn [bind]. rewrite s_eq_z by auto. cbn [bind]. rewrite Vx, Vy, andb_diag. auto.
Qed.
Lemma builtin2_s cfg n op aop gop v k f1 f g1 g : 0 <= n -> Z.abs v < modulus n -> Z.abs g < modulus n -> gop v k = Ok g1 -> gop g1 k = Ok g ->
  (forall a, swf n a -> sval a = v -> syields n (op a k) f1 /\ syields n (aop a k) f1) ->
  (forall a, swf n a -> sval a = f1 -> syields n (op a k) f /\ syields n (aop a k) f) ->
  builtin2 (onAesi cfg n) op aop gop v k = Ok (f =? g).
Proof.
  intros Hn Hv Hg G1 G H1 H. unfold builtin2, onAesi. cbn [t_from t_eq].
  destruct (s_from cfg n v Hn Hv) as (a & -> & Ca & Va). cbn [bind].
  destruct (H1 a (canon_swf _ _ Ca) Va) as [(x & -> & Wx & Vx) (y & Ey & Wy & Vy)]. cbn [bind].
  destruct (H x Wx Vx) as [(x2 & -> & Wx2 & Vx2) _]. cbn [bind]. rewrite G1. cbn [bind]. rewrite G. cbn [bind].
  rewrite s_eq_z by auto. cbn [bind]. rewrite Ey. cbn [bind]. destruct (H y Wy Vy) as [_ (y2 & -> & Wy2 & Vy2)]. cbn [bind].
  rewrite s_eq_z by auto. cbn [bind]. rewrite Vx2, Vy2, andb_diag. auto.
Qed.
(** Powers that bound the draws. *)
Lemma pow_le_modulus b n : 0 <= b <= 32 * n -> 2 ^ b <= modulus n.
Proof. intros. unfold modulus. apply Z.pow_le_mono_r; lia. Qed.
Lemma sgn_first i : sign_first i = 1 \/ sign_first i = -1.
Proof. unfold sign_first. destruct (i mod 4 =? 0), (i mod 4 =? 1), (i mod 4 =? 2); auto. Qed.
Lemma sgn_second i : sign_second i = 1 \/ sign_second i = -1.
Proof. unfold sign_second. destruct (i mod 4 =? 0), (i mod 4 =? 1), (i mod 4 =? 2); auto. Qed.
