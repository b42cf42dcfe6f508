(** * AeuFacts: the remaining lemmas behind the unsigned property theorems, and refutation witnesses. *)
From Verif Require Export AeuDiv.
From Coq Require Import ZifyBool.
Open Scope Z_scope.

Ltac iffs := repeat split; intros; try discriminate; try lia; auto.

Definition ordering_correct (o : ordering_t) (x y : Z) : Prop :=
  (o = OLess <-> x < y) /\ (o = OEqual <-> x = y) /\ (o = OGreater <-> x > y).

Lemma to_ordering_zcmp x y : ordering_correct (to_ordering (zcmp x y)) x y.
Proof.
  unfold ordering_correct, zcmp. destruct (Z.gtb_spec x y); [|destruct (Z.ltb_spec x y)]; cbn [to_ordering]; iffs.
Qed.

Lemma spaceship_same cfg n a b : wf n a -> wf n b ->
  exists o, op_spaceship cfg n n a b = Ok o /\ ordering_correct o (bval a) (bval b).
Proof. intros. unfold op_spaceship. rewrite compareTo_same by auto. cbn [bind]. eexists. split; [reflexivity|]. apply to_ordering_zcmp. Qed.

Lemma all_compare_same cfg n a b : wf n a -> wf n b ->
  (exists c, compareTo cfg n n a b = Ok c /\
     (c = CLess <-> bval a < bval b) /\ (c = CEqual <-> bval a = bval b) /\ (c = CGreater <-> bval a > bval b)) /\
  (exists o, op_spaceship cfg n n a b = Ok o /\
     (o = OLess <-> bval a < bval b) /\ (o = OEqual <-> bval a = bval b) /\ (o = OGreater <-> bval a > bval b)) /\
  op_eq cfg n n a b = Ok (bval a =? bval b) /\ op_ne cfg n n a b = Ok (negb (bval a =? bval b)) /\
  op_lt cfg n n a b = Ok (bval a <? bval b) /\ op_le cfg n n a b = Ok (bval a <=? bval b) /\
  op_gt cfg n n a b = Ok (bval a >? bval b) /\ op_ge cfg n n a b = Ok (bval a >=? bval b).
Proof.
  intros Wa Wb. split; [|split; [apply spaceship_same; auto|]].
  - rewrite compareTo_same by auto. eexists. split; [reflexivity|]. unfold zcmp.
    destruct (Z.gtb_spec (bval a) (bval b)); [|destruct (Z.ltb_spec (bval a) (bval b))]; iffs.
  - unfold op_ne. rewrite op_eq_cross, op_lt_same, op_le_same, op_gt_same, op_ge_same by auto. repeat split; auto.
Qed.

Lemma compare_builtin n a v : wf n a ->
  (1 <= n -> 0 <= v < 2 ^ 32 ->
     op_eq_u32 n a v = Ok (bval a =? v) /\
     exists o, op_spaceship_u32 n a v = Ok o /\ ordering_correct o (bval a) v) /\
  (2 <= n -> 0 <= v < 2 ^ 64 ->
     op_eq_u64 n a v = Ok (bval a =? v) /\
     exists o, op_spaceship_u64 n a v = Ok o /\ ordering_correct o (bval a) v).
Proof.
  intros Wa. split; intros Hn Hv; split.
  - apply op_eq_u32_spec; auto.
  - unfold op_spaceship_u32. rewrite compareTo_u32_spec by auto. cbn [bind]. eexists; split; [reflexivity|apply to_ordering_zcmp].
  - apply op_eq_u64_spec; auto.
  - unfold op_spaceship_u64. rewrite compareTo_u64_spec by auto. cbn [bind]. eexists; split; [reflexivity|apply to_ordering_zcmp].
Qed.

(** Cross-precision ordering: right when the wider number's extra blocks are zero or the common low part is equal. *)
Lemma cross_order cfg n m a b : wf n a -> wf m b ->
  (bval a < 2 ^ (32 * m) /\ bval b < 2 ^ (32 * n)) \/
  bval a mod 2 ^ (32 * Z.min n m) = bval b mod 2 ^ (32 * Z.min n m) ->
  op_lt cfg n m a b = Ok (bval a <? bval b) /\ op_le cfg n m a b = Ok (bval a <=? bval b) /\
  op_gt cfg n m a b = Ok (bval a >? bval b) /\ op_ge cfg n m a b = Ok (bval a >=? bval b).
Proof.
  intros Wa Wb H. assert (E : compareTo cfg n m a b = Ok (zcmp (bval a) (bval b))).
  { rewrite compareTo_spec by auto. f_equal. unfold low_first.
    pose proof (bval_bound n a Wa). pose proof (bval_bound m b Wb). unfold modulus in *.
    destruct H as [[Hx1 Hx2]|H].
    - rewrite !Z.mod_small by (destruct (Z.min_spec n m) as [[_ ->]|[_ ->]]; lia).
      destruct (zcmp (bval a) (bval b)); auto.
    - rewrite H, zcmp_refl. auto. }
  unfold op_lt, op_le, op_gt, op_ge, op_spaceship. rewrite E. cbn [bind]. unfold zcmp.
  destruct (Z.gtb_spec (bval a) (bval b)), (Z.ltb_spec (bval a) (bval b)), (Z.leb_spec (bval a) (bval b)), (Z.geb_spec (bval a) (bval b)); cbn; auto; lia.
Qed.

Lemma icast_unsigned t z : isigned t = false -> icast t z = z mod 2 ^ iwidth t.
Proof. intros H. unfold icast. rewrite H. auto. Qed.

Lemma ity_ok_width t : ity_ok t = true -> iwidth t = 8 \/ iwidth t = 16 \/ iwidth t = 32 \/ iwidth t = 64.
Proof. unfold ity_ok. lia. Qed.

Lemma icast_signed t z : ity_ok t = true -> isigned t = true ->
  ity_min t <= icast t z <= ity_max t /\ (icast t z - z) mod 2 ^ iwidth t = 0.
Proof.
  intros Hok Hs. apply ity_ok_width in Hok. unfold icast, ity_min, ity_max. rewrite Hs. cbn [andb]. cbv zeta.
  set (w := iwidth t) in *. assert (Hw : 0 < w) by lia. assert (P : 2 ^ w = 2 * 2 ^ (w - 1)).
  { rewrite <- Z.pow_succ_r by lia. f_equal. lia. }
  assert (0 < 2 ^ (w - 1)) by (apply Z.pow_pos_nonneg; lia).
  pose proof (Z.mod_pos_bound z (2 ^ w) ltac:(lia)). pose proof (Z.div_mod z (2 ^ w) ltac:(lia)).
  destruct (Z.leb_spec (2 ^ (w - 1)) (z mod 2 ^ w)); split; try lia.
  - replace (z mod 2 ^ w - 2 ^ w - z) with ((- (z / 2 ^ w) - 1) * 2 ^ w) by lia. apply Z.mod_mul. lia.
  - replace (z mod 2 ^ w - z) with ((- (z / 2 ^ w)) * 2 ^ w) by lia. apply Z.mod_mul. lia.
Qed.

Lemma icast_mod64 t z : ity_ok t = true -> icast t (z mod 2 ^ 64) = icast t z.
Proof.
  intros H. apply ity_ok_width in H. unfold icast. replace ((z mod 2 ^ 64) mod 2 ^ iwidth t) with (z mod 2 ^ iwidth t); auto.
  replace (2 ^ 64) with (2 ^ iwidth t * 2 ^ (64 - iwidth t)) by (rewrite <- Z.pow_add_r by lia; f_equal; lia).
  rewrite Z.rem_mul_r by (try apply Z.pow_nonzero; try apply Z.pow_pos_nonneg; lia).
  rewrite (Z.mul_comm (2 ^ iwidth t)). rewrite Z_mod_plus_full. rewrite Z.mod_mod by (apply Z.pow_nonzero; lia). auto.
Qed.

Lemma integralCast_facts t n a : wf n a -> 2 <= n -> ity_ok t = true ->
  exists v, integralCast t a = Ok v /\
    (isigned t = false -> v = bval a mod 2 ^ iwidth t) /\
    (isigned t = true -> ity_min t <= v <= ity_max t /\ (v - bval a) mod 2 ^ iwidth t = 0).
Proof.
  intros Wa Hn Ht. rewrite (integralCast_spec t n) by auto. rewrite icast_mod64 by auto. eexists. split; [reflexivity|].
  split; intros Hs; [apply icast_unsigned; auto|apply icast_signed; auto].
Qed.

Lemma precisionCast_roundtrip cfg n m a : wf n a -> n <= m ->
  exists b, precisionCast cfg n m a = Ok b /\ wf m b /\ bval b = bval a /\ precisionCast cfg m n b = Ok a.
Proof.
  intros Wa Hnm. pose proof (wf_nonneg _ _ Wa) as Hn. destruct (precisionCast_spec cfg n m a Wa ltac:(lia)) as (b & E & Wb & Vb).
  pose proof (bval_bound n a Wa) as Ba. assert (modulus n <= modulus m) by (apply Z.pow_le_mono_r; lia).
  rewrite Z.mod_small in Vb by lia. exists b. split; auto. split; auto. split; auto.
  destruct (precisionCast_spec cfg m n b Wb Hn) as (c & E2 & Wc & Vc). rewrite E2. f_equal.
  apply (bval_inj n); auto. rewrite Vc, Vb. apply Z.mod_small. auto.
Qed.

Lemma shl_total n a s : wf n a -> 0 <= s ->
  yields n (shl_assign n a s) (if s <? 32 * n then (bval a * 2 ^ s) mod modulus n else bval a).
Proof.
  intros Wa Hs. destruct (Z.ltb_spec s (32 * n)); [apply shl_assign_correct; auto|].
  rewrite shl_assign_over by auto. apply yields_ok; auto.
Qed.
Lemma shr_total n a s : wf n a -> 0 <= s ->
  yields n (shr_assign n a s) (if s <? 32 * n then bval a / 2 ^ s else bval a).
Proof.
  intros Wa Hs. destruct (Z.ltb_spec s (32 * n)); [apply shr_assign_correct; auto|].
  rewrite shr_assign_over by auto. apply yields_ok; auto.
Qed.

Lemma power2_total cfg n k : cfg_unsafe cfg = false -> 0 <= n -> 0 <= k ->
  yields n (power2 cfg n k) (if k <? 32 * n then 2 ^ k else 0).
Proof. intros. destruct (Z.ltb_spec k (32 * n)); [apply power2_spec; auto|apply power2_over; auto]. Qed.

Lemma add_u64_iff n t a v : 1 <= n -> wf n a -> 0 <= v < 2 ^ uwidth t ->
  (yields n (add_assign_u n t a v) ((bval a + v) mod modulus n) <->
   (bval a mod 2 ^ 32 + v < 2 ^ 64 \/ n <= 2)).
Proof.
  intros Hn Wa Hv. pose proof (modulus_pos n ltac:(lia)) as PM.
  assert (Z0 : bval a mod 2 ^ 32 = znth a 0).
  { rewrite (znth_digit n a 0) by (auto; lia). change (2 ^ (32 * 0)) with 1. rewrite Z.div_1_r. auto. }
  rewrite Z0. pose proof (add_assign_u_gen n t a v Wa Hv) as G. destruct (Z.eqb_spec n 0); [lia|].
  assert (M64 : n <= 2 -> exists k, 2 ^ 64 = k * modulus n).
  { intros. exists (2 ^ (64 - 32 * n)). unfold modulus. rewrite <- Z.pow_add_r by lia. f_equal. lia. }
  split.
  - intros (r & E & W & V). destruct G as (r' & E' & W' & V'). rewrite E in E'. injection E' as <-.
    unfold lost64 in V'. destruct (Z.ltb_spec (znth a 0 + v) (2 ^ 64)); [auto|]. right.
    destruct (Z.leb_spec n 2); auto. exfalso. rewrite V' in V.
    assert (B : 2 ^ 96 <= modulus n) by (apply Z.pow_le_mono_r; lia).
    assert (exists k, 2 ^ 64 = k * modulus n) as (k & Ek).
    { apply eqm_elim in V; [|lia]. destruct V as (k & Ek). exists (- k). lia. }
    assert (2 ^ 64 < 2 ^ 96) by reflexivity. destruct (Z.lt_trichotomy k 0) as [|[->|]]; nia.
  - intros H. destruct G as (r' & E' & W' & V'). exists r'. split; auto. split; auto. rewrite V'.
    unfold lost64. destruct (Z.ltb_spec (znth a 0 + v) (2 ^ 64)); [f_equal; lia|].
    destruct H as [|H]; [lia|]. destruct (M64 H) as (k & ->).
    replace (bval a + v - k * modulus n) with (bval a + v + (- k) * modulus n) by ring. apply Z_mod_plus_full.
Qed.
