(** * AesiFacts: constructors, built-in operands, comparison, casts, roots of the signed class. *)
From Verif Require Export AesiArith.
From Coq Require Import ZifyBool.
Open Scope Z_scope.

(** [-v] of a built-in is defined and exact after the cast back to the type. *)
Definition neg_ok (t : ity) (v : Z) : Prop := isigned t = true -> 32 <= iwidth t -> v <> ity_min t.

Lemma in_ity_range t v : in_ity t v = true -> ity_min t <= v <= ity_max t.
Proof. unfold in_ity. lia. Qed.
Lemma in_ity_neg t v : in_ity t v = true -> v < 0 -> isigned t = true.
Proof. intros H. apply in_ity_range in H. unfold ity_min in H. destruct (isigned t); auto. lia. Qed.

Lemma ity_bound t v : ity_ok t = true -> in_ity t v = true -> Z.abs v < 2 ^ iwidth t /\ 0 < iwidth t <= 64.
Proof.
  intros Ht H. apply in_ity_range in H. apply ity_ok_width in Ht. unfold ity_min, ity_max in H.
  destruct Ht as [E|[E|[E|E]]]; rewrite E in *; destruct (isigned t); cbn in *; lia.
Qed.

Lemma ineg_ok t v : ity_ok t = true -> in_ity t v = true -> v < 0 -> neg_ok t v -> ineg t v = Ok (- v).
Proof.
  intros Ht H Hv Hn. pose proof (in_ity_neg t v H Hv) as S. unfold ineg. rewrite S.
  destruct (Z.leb_spec 32 (iwidth t)), (Z.eqb_spec v (ity_min t)); cbn [andb]; auto. exfalso. apply Hn; auto.
Qed.

Lemma pow_le64 t : ity_ok t = true -> 2 ^ iwidth t <= 2 ^ 64.
Proof. intros Ht. apply ity_ok_width in Ht. apply Z.pow_le_mono_r; lia. Qed.

Lemma small_fits n w v : 1 <= n -> w <= 32 \/ 2 <= n -> w <= 64 -> Z.abs v < 2 ^ w -> Z.abs v < modulus n.
Proof.
  intros Hn Hw Hw2 H. apply Z.lt_le_trans with (2 ^ w); auto. unfold modulus. apply Z.pow_le_mono_r; lia.
Qed.

Lemma from_unsigned_exact n v : 1 <= n -> 0 <= v < 2 ^ 64 -> v < modulus n -> yields n (from_unsigned n (zeros n) v) v.
Proof.
  intros Hn Hv H. apply yields_small; [lia|]. apply from_unsigned_correct; [lia|apply len_zeros; lia|auto].
Qed.

Lemma s_from_int_correct n t v : 1 <= n -> ity_ok t = true -> in_ity t v = true -> iwidth t <= 32 \/ 2 <= n -> neg_ok t v ->
  exists r, s_from_int n t v = Ok r /\ canon n r /\ sval r = v.
Proof.
  intros Hn Ht Hv Hw Hm. destruct (ity_bound t v Ht Hv) as [B W]. pose proof (pow_le64 t Ht) as P.
  pose proof (small_fits n _ v Hn Hw ltac:(lia) B) as F.
  unfold s_from_int. destruct (Z.ltb_spec v 0).
  - rewrite ineg_ok by auto. cbn [bind]. rewrite u64_small by lia.
    destruct (from_unsigned_exact n (- v) Hn) as (r & E & Wr & V); [lia|lia|]. rewrite E. cbn [bind].
    eexists. split; [reflexivity|]. split; [split; [exact Wr|]|]; unfold sval; cbn [sgn mag]; [|lia].
    split; [discriminate|lia].
  - destruct (Z.gtb_spec v 0).
    + rewrite u64_small by lia. destruct (from_unsigned_exact n v Hn) as (r & E & Wr & V); [lia|lia|]. rewrite E. cbn [bind].
      eexists. split; [reflexivity|]. split; [split; [exact Wr|]|]; unfold sval; cbn [sgn mag]; [|lia].
      split; [discriminate|lia].
    + eexists. split; [reflexivity|]. split; [split; [apply wf_zeros; lia|]|]; unfold sval; cbn [sgn mag]; [|lia].
      rewrite bval_zeros. tauto.
Qed.

Lemma s_from_int_min n t v : isigned t = true -> 32 <= iwidth t -> v = ity_min t ->
  s_from_int n t v = Err SignedOverflow.
Proof.
  intros S W ->. unfold s_from_int. assert (N : ity_min t < 0).
  { unfold ity_min. rewrite S. assert (0 < 2 ^ (iwidth t - 1)) by (apply Z.pow_pos_nonneg; lia). lia. }
  destruct (Z.ltb_spec (ity_min t) 0); [|lia]. unfold ineg. rewrite S.
  destruct (Z.leb_spec 32 (iwidth t)); [|lia]. rewrite Z.eqb_refl. reflexivity.
Qed.

(** ** Built-in operands of *=, /=, %= *)
(** After stripping the sign the operand is |k|, unless k is the minimum of its type. *)
Lemma icast_small t v : ity_ok t = true -> 0 <= v <= ity_max t -> icast t v = v.
Proof.
  intros Ht H. apply ity_ok_width in Ht. unfold icast, ity_max in *.
  destruct Ht as [E|[E|[E|E]]]; rewrite E in *; destruct (isigned t); cbn [andb]; cbv zeta; rewrite Z.mod_small by (cbn in *; lia);
    try reflexivity; match goal with |- context [?a <=? ?b] => destruct (Z.leb_spec a b); [cbn in *; lia|reflexivity] end.
Qed.

Lemma strip_ok t x k : ity_ok t = true -> in_ity t k = true -> (isigned t = true -> k <> ity_min t) ->
  s_strip_sign t x k = Ok (if k <? 0 then s_inverse x else x, Z.abs k) /\ Z.abs k < 2 ^ iwidth t.
Proof.
  intros Ht Hk Hm. split; [|apply ity_bound; auto]. unfold s_strip_sign. destruct (Z.ltb_spec k 0).
  - rewrite ineg_ok; auto; [|intros ? ?; apply Hm; auto]. cbn [bind].
    pose proof (in_ity_neg t k Hk ltac:(lia)) as S. pose proof (in_ity_range t k Hk) as R.
    rewrite icast_small; auto; [f_equal; f_equal; lia|]. specialize (Hm S). unfold ity_min, ity_max in *. rewrite S in *. lia.
  - f_equal. f_equal. lia.
Qed.

Definition flip (k : Z) (x : aesi) : aesi := if k <? 0 then s_inverse x else x.
Lemma flip_ssgn k x : k <> 0 -> ssgn (flip k x) = ssgn x * Z.sgn k.
Proof. intros. unfold flip. destruct (Z.ltb_spec k 0); rewrite ?ssgn_inverse; lia. Qed.
Lemma flip_mag k x : mag (flip k x) = mag x.
Proof. unfold flip. destruct (k <? 0); auto. Qed.

Lemma s_mul_int_correct cfg n t a k : swf n a -> ity_ok t = true -> in_ity t k = true ->
  (isigned t = true -> k <> ity_min t) -> (cfg_ull_distinct cfg = false \/ Z.abs k <= 2 ^ 32) ->
  Z.abs (sval a * k) < modulus n ->
  syields n (s_mul_assign_int cfg n t a k) (sval a * k).
Proof.
  intros [Wa Na] Ht Hk Hm HU H. pose proof (bval_bound n _ Wa) as Ba. unfold s_mul_assign_int.
  destruct (Z.eqb_spec k 0) as [->|K0].
  { eapply syields_intro; [reflexivity|exact Wa|cbn; congruence|]. unfold sval at 1; cbn. lia. }
  destruct (strip_ok t a k Ht Hk Hm) as [E B]. rewrite E. cbn [bind]. fold (flip k a). pose proof (pow_le64 t Ht).
  rewrite u64_small by lia. rewrite flip_mag.
  assert (M : yields n (mul_assign_u n (ull_ty cfg) (mag a) (Z.abs k)) ((bval (mag a) * Z.abs k) mod modulus n)).
  { unfold ull_ty. destruct (cfg_ull_distinct cfg).
    - destruct HU as [HU|HU]; [discriminate|]. apply mul_assign_u_small; auto. lia.
    - apply mul_assign_u_correct; auto; [cbn [uwidth]; lia|discriminate]. }
  destruct M as (r & Er & Wr & Vr). rewrite Er. cbn [bind]. rewrite sval_ssgn in *.
  assert (0 <= bval (mag a) * Z.abs k) by (apply Z.mul_nonneg_nonneg; lia).
  assert (SM : ssgn a <> 0 -> bval r = bval (mag a) * Z.abs k).
  { intros N. rewrite Vr. apply Z.mod_small. split; auto. rewrite Z.abs_mul, Z.abs_mul in H.
    destruct (ssgn3 a) as [S|[S|S]]; rewrite S in *; lia. }
  eapply syields_intro; [reflexivity|exact Wr|unfold with_mag; cbn [sgn mag]|unfold with_mag; rewrite sval_with; fold (ssgn (flip k a)); rewrite flip_ssgn by auto].
  - intros S. assert (N : ssgn a <> 0).
    { intros Z0. destruct (ssgn_cases a) as [[_ E2]|[[E1 _]|[E1 _]]]; try lia. unfold flip in S. destruct (k <? 0); cbn in S; rewrite E2 in S; congruence. }
    rewrite SM by auto. apply Z.neq_mul_0. split; [|lia]. apply Na. unfold ssgn in N. destruct (sgn a); congruence.
  - destruct (Z.eq_dec (ssgn a) 0) as [->|N]; [lia|]. rewrite SM by auto. transitivity (ssgn a * bval (mag a) * (Z.abs k * Z.sgn k)); [ring|]. rewrite Z.abs_sgn. reflexivity.
Qed.

Lemma to_aeu_divisor n t k : 1 <= n -> ity_ok t = true -> in_ity t k = true -> iwidth t <= 32 \/ 2 <= n -> Z.abs k < 2 ^ iwidth t ->
  yields n (from_unsigned n (zeros n) (u64 (Z.abs k))) (Z.abs k).
Proof.
  intros Hn Ht Hk Hw B. pose proof (pow_le64 t Ht). destruct (ity_bound t k Ht Hk) as [_ W].
  pose proof (small_fits n (iwidth t) k Hn Hw ltac:(lia) B). rewrite u64_small by lia. apply from_unsigned_exact; lia.
Qed.

Lemma quot_signs_k s x k : (s = 0 \/ s = 1 \/ s = -1) -> 0 <= x -> k <> 0 ->
  Z.quot (s * x) k = s * Z.sgn k * (x / Z.abs k) /\ Z.rem (s * x) k = s * (x mod Z.abs k).
Proof.
  intros Hs Hx Hk. destruct (quot_signs s (Z.sgn k) x (Z.abs k) Hs ltac:(lia) Hx ltac:(lia)) as [Q R].
  rewrite (Z.mul_comm (Z.sgn k)), Z.abs_sgn in Q, R. auto.
Qed.

Lemma s_div_int_correct cfg n t a k : 1 <= n -> swf n a -> ity_ok t = true -> in_ity t k = true -> iwidth t <= 32 \/ 2 <= n ->
  (isigned t = true -> k <> ity_min t) -> k <> 0 ->
  syields n (s_div_assign_int cfg n t a k) (Z.quot (sval a) k).
Proof.
  intros Hn [Wa Na] Ht Hk Hw Hm K0. pose proof (bval_bound n _ Wa) as Ba. unfold s_div_assign_int.
  destruct (Z.eqb_spec k 0); [lia|].
  destruct (strip_ok t a k Ht Hk Hm) as [E B]. rewrite E. cbn [bind]. fold (flip k a). rewrite flip_mag.
  destruct (to_aeu_divisor n t k Hn Ht Hk Hw B) as (d & Ed & Wd & Vd). rewrite Ed. cbn [bind].
  destruct (divide_pos cfg n (mag a) d Hn Wa Wd ltac:(lia)) as (q & r & Eq & [Wq Vq] & _).
  unfold div_assign, op_div. rewrite Eq. cbn [bind].
  destruct (s_fix_zero_spec n (with_mag (flip k a) q) Wq) as (x & Ex & Sx & Vx & _). exists x. rewrite Ex. split; auto. split; auto.
  rewrite Vx. unfold with_mag. rewrite sval_with. fold (ssgn (flip k a)). rewrite flip_ssgn by auto.
  rewrite sval_ssgn. destruct (quot_signs_k (ssgn a) (bval (mag a)) k (ssgn3 a) ltac:(lia) K0) as [-> _]. rewrite Vq, Vd. lia.
Qed.

Lemma s_mod_int_correct cfg n t a k : 1 <= n -> swf n a -> ity_ok t = true -> in_ity t k = true -> iwidth t <= 32 \/ 2 <= n ->
  (isigned t = true -> k <> ity_min t) -> k <> 0 ->
  exists r, s_mod_assign_int cfg n t a k = Ok r /\ wf n (mag r) /\ sval r = Z.sgn k * Z.rem (sval a) k /\
    bval (mag r) = bval (mag a) mod Z.abs k /\ sgn r = sgn (flip k a).
Proof.
  intros Hn [Wa Na] Ht Hk Hw Hm K0. pose proof (bval_bound n _ Wa) as Ba. unfold s_mod_assign_int.
  destruct (Z.eqb_spec k 0); [lia|].
  destruct (strip_ok t a k Ht Hk Hm) as [E B]. rewrite E. cbn [bind]. fold (flip k a). rewrite flip_mag.
  destruct (to_aeu_divisor n t k Hn Ht Hk Hw B) as (d & Ed & Wd & Vd). rewrite Ed. cbn [bind].
  destruct (divide_pos cfg n (mag a) d Hn Wa Wd ltac:(lia)) as (q & r & Eq & _ & [Wr Vr]).
  unfold mod_assign, op_mod. rewrite Eq. cbn [bind]. eexists. split; [reflexivity|]. split; [exact Wr|].
  unfold with_mag. cbn [sgn mag]. rewrite Vd in Vr. split; [|auto]. rewrite sval_with. fold (ssgn (flip k a)). rewrite flip_ssgn by auto.
  rewrite sval_ssgn. destruct (quot_signs_k (ssgn a) (bval (mag a)) k (ssgn3 a) ltac:(lia) K0) as [_ ->]. rewrite Vr. lia.
Qed.

(** ** Comparison *)
Lemma s_compareTo_correct cfg n a b : swf n a -> swf n b -> s_compareTo cfg n a b = Ok (zcmp (sval a) (sval b)).
Proof.
  destruct a as [sa ma], b as [sb mb]. intros [Wa Na] [Wb Nb]. pose proof (bval_bound n _ Wa). pose proof (bval_bound n _ Wb).
  unfold s_compareTo, s_isZero, s_isNegative, sval. cbn [sgn mag] in *.
  assert (Na' : sa <> SZero -> 0 < bval ma) by (intros; specialize (Na H1); lia).
  assert (Nb' : sb <> SZero -> 0 < bval mb) by (intros; specialize (Nb H1); lia).
  destruct sb; cbn [sign_eqb].
  - destruct sa; cbn [s_cmp_zero]; f_equal; unfold zcmp; try specialize (Na' ltac:(discriminate));
    repeat match goal with |- context [?x >? ?y] => destruct (Z.gtb_spec x y) | |- context [?x <? ?y] => destruct (Z.ltb_spec x y) end; auto; lia.
  - specialize (Nb' ltac:(discriminate)). destruct sa; cbn [sign_eqb]; rewrite ?compareTo_same by auto; try specialize (Na' ltac:(discriminate)); f_equal; unfold zcmp;
    repeat match goal with |- context [?x >? ?y] => destruct (Z.gtb_spec x y) | |- context [?x <? ?y] => destruct (Z.ltb_spec x y) end; auto; lia.
  - specialize (Nb' ltac:(discriminate)). destruct sa; cbn [sign_eqb]; rewrite ?compareTo_same by auto; cbn [bind]; try specialize (Na' ltac:(discriminate)); f_equal; unfold zcmp;
    repeat match goal with |- context [?x >? ?y] => destruct (Z.gtb_spec x y) | |- context [?x <? ?y] => destruct (Z.ltb_spec x y) end; cbn [s_cmp_flip]; auto; lia.
Qed.

(** [compareTo(Integral)] for an operand of any built-in type except the most negative 64-bit value. *)
Lemma s_compareTo_int_correct n a k : 2 <= n -> swf n a -> - 2 ^ 63 < k < 2 ^ 64 ->
  s_compareTo_int n a k = Ok (zcmp (sval a) k).
Proof.
  destruct a as [sa ma]. intros Hn [Wa Na] Hk. pose proof (bval_bound n _ Wa). unfold s_compareTo_int, sval. cbn [sgn mag] in *.
  assert (Na' : sa <> SZero -> 0 < bval ma) by (intros Q; specialize (Na Q); lia).
  destruct (Z.eqb_spec k 0) as [->|K0]; [|destruct (Z.ltb_spec k 0)].
  - destruct sa; cbn [s_cmp_zero]; f_equal; unfold zcmp; try specialize (Na' ltac:(discriminate));
    repeat match goal with |- context [?x >? ?y] => destruct (Z.gtb_spec x y) | |- context [?x <? ?y] => destruct (Z.ltb_spec x y) end; auto; lia.
  - assert (NI : neg_i64 k = Ok (- k)).
    { unfold neg_i64. assert (icast int64 k = k) as ->.
      { unfold icast, int64. cbn [isigned iwidth andb]. cbv zeta.
        assert (k mod 2 ^ 64 = k + 2 ^ 64) as ->.
        { replace k with (k + 2 ^ 64 + (-1) * 2 ^ 64) at 1 by lia. rewrite Z_mod_plus_full. apply Z.mod_small. lia. }
        destruct (Z.leb_spec (2 ^ (64 - 1)) (k + 2 ^ 64)); [lia|]. cbn in *; lia. }
      unfold ineg, int64. cbn [isigned iwidth]. unfold ity_min. cbn [isigned iwidth].
      destruct (Z.eqb_spec k (- 2 ^ (64 - 1))); [cbn in *; lia|]. rewrite andb_false_r. auto. }
    destruct sa; cbn [sign_eqb]; [| |rewrite NI; cbn [bind]; rewrite u64_small by lia; rewrite compareTo_u64_spec by (auto; lia); cbn [bind]];
    try specialize (Na' ltac:(discriminate)); f_equal; unfold zcmp;
    repeat match goal with |- context [?x >? ?y] => destruct (Z.gtb_spec x y) | |- context [?x <? ?y] => destruct (Z.ltb_spec x y) end; cbn [s_cmp_flip]; auto; lia.
  - assert (UI : u64 (icast int64 k) = k).
    { unfold u64, icast, int64. cbn [isigned iwidth andb]. cbv zeta. rewrite (Z.mod_small k) by lia.
      destruct (Z.leb_spec (2 ^ (64 - 1)) k); [|apply Z.mod_small; lia].
      replace (k - 2 ^ 64) with (k + (-1) * 2 ^ 64) by lia. rewrite Z_mod_plus_full. apply Z.mod_small; lia. }
    destruct sa; cbn [sign_eqb]; rewrite ?UI, ?compareTo_u64_spec by (auto; lia);
    try specialize (Na' ltac:(discriminate)); f_equal; unfold zcmp;
    repeat match goal with |- context [?x >? ?y] => destruct (Z.gtb_spec x y) | |- context [?x <? ?y] => destruct (Z.ltb_spec x y) end; auto; lia.
Qed.

(** ** Precision cast *)
Lemma s_precisionCast_loop cfg n m a d0 : wf n a -> wf m d0 -> (forall j, Z.min n m <= j -> znth d0 j = 0) ->
  yields m (forU 0 (if 32 * m >? 32 * n then n else m) (fun blockIdx base =>
      x <- getBlock cfg n a blockIdx ;; setBlock cfg m base blockIdx x) d0) (bval a mod modulus m).
Proof.
  intros Wa Wd0 T0. pose proof (wf_len _ _ Wa) as La. pose proof (wf_nonneg _ _ Wa) as Hn. pose proof (wf_nonneg _ _ Wd0) as Hm.
  replace (if 32 * m >? 32 * n then n else m) with (Z.min n m) by (destruct (Z.gtb_spec (32 * m) (32 * n)); lia).
  set (k := Z.min n m) in *.
  match goal with |- context [forU 0 k ?B _] =>
  destruct (forU_spec (fun i d => wf m d /\ (forall j, 0 <= j < i -> znth d j = znth a j) /\
    forall j, k <= j -> znth d j = 0) 0 k B d0) as (r & E & W & P & T) end.
  - lia.
  - split; [auto|]. split; [lia|]. auto.
  - intros i d Hi (Wd & P & T). pose proof (wf_len _ _ Wd). rewrite getBlock_znth by (auto; lia). cbn [bind].
    rewrite setBlock_upd by (auto; lia). eexists. split; [reflexivity|].
    split; [apply wf_upd; auto; apply (wf_znth n); auto|]. split.
    + intros j Hj. rewrite znth_upd by lia. destruct (Z.eqb_spec i j); [subst; auto|]. apply P. lia.
    + intros j Hj. rewrite znth_upd_ne by lia. apply T. lia.
  - rewrite E. apply yields_ok; auto. rewrite (bval_filled m r k) by (auto; lia).
    rewrite (pval_eq_blocks m r n a k) by (auto; lia).
    destruct (Z.leb_spec m n).
    + replace k with m by lia. rewrite (pval_mod n) by (auto; lia). auto.
    + replace k with n by lia. rewrite (pval_wf n) by auto. symmetry. apply Z.mod_small.
      pose proof (bval_bound n a Wa). assert (modulus n <= modulus m) by (apply Z.pow_le_mono_r; lia). lia.
Qed.

Lemma s_precisionCast_correct cfg n m a : 1 <= n -> 1 <= m -> swf n a ->
  exists r, s_precisionCast cfg n m a = Ok r /\ wf m (mag r) /\ sgn r = sgn a /\
    bval (mag r) = (if s_isZero a then 0 else bval (mag a) mod modulus m).
Proof.
  intros Hn Hm [Wa Na]. unfold s_precisionCast. destruct (s_isZero a) eqn:Z; cbn [negb].
  - exists (s_default m). split; [reflexivity|]. split; [apply wf_zeros; lia|]. split.
    + unfold s_isZero in Z. destruct (sgn a); cbn in *; auto; discriminate.
    + apply bval_zeros.
  - destruct (s_from_int_correct m int32 1 Hm) as (x & Ex & [Wx Cx] & Vx); [reflexivity|reflexivity|cbn; lia|intros _ _; discriminate|].
    rewrite Ex. cbn [bind].
    assert (Px : sgn x = SPos /\ bval (mag x) = 1).
    { pose proof (bval_bound m _ Wx). unfold sval in Vx. destruct (sgn x); auto; lia. }
    destruct Px as [Sx Bx].
    destruct (s_precisionCast_loop cfg n m (mag a) (mag x) Wa Wx) as (b & Eb & Wb & Vb).
    { intros j Hj. destruct (Z.ltb_spec j m).
      - rewrite (znth_digit m) by (auto; lia). rewrite Bx. rewrite Z.div_small; [reflexivity|]. split; [lia|]. apply Z.pow_gt_1; lia.
      - apply znth_out. rewrite (wf_len _ _ Wx). lia. }
    rewrite Eb. cbn [bind]. eexists. split; [reflexivity|]. unfold s_isNegative, s_isZero in *.
    destruct (sgn a) eqn:Sa; cbn [sign_eqb] in *; try discriminate; unfold s_inverse, with_sign, with_mag; cbn [sgn mag]; rewrite ?Sx; auto.
Qed.

Lemma s_precisionCast_fits cfg n m a : 1 <= n -> 1 <= m -> swf n a -> Z.abs (sval a) < modulus m ->
  exists r, s_precisionCast cfg n m a = Ok r /\ canon m r /\ sval r = sval a.
Proof.
  intros Hn Hm Wa H. pose proof (bval_bound n _ (proj1 Wa)).
  destruct (s_precisionCast_correct cfg n m a Hn Hm Wa) as (r & E & W & S & V). exists r. split; auto.
  destruct Wa as [Wa Na]. unfold s_isZero in V.
  destruct (sgn a) eqn:Sa; cbn [sign_eqb] in V; unfold sval in *; rewrite ?S, ?Sa in *.
  - split; [split; auto; tauto|reflexivity].
  - rewrite Z.mod_small in V by lia. specialize (Na ltac:(discriminate)). split; [split; auto; rewrite S; split; [discriminate|lia]|lia].
  - rewrite Z.mod_small in V by lia. specialize (Na ltac:(discriminate)). split; [split; auto; rewrite S; split; [discriminate|lia]|lia].
Qed.

Lemma s_compareTo_x_correct cfg n m a b : 1 <= n -> 1 <= m -> swf n a -> swf m b -> Z.abs (sval a) < modulus m ->
  s_compareTo_x cfg n m a b = Ok (zcmp (sval a) (sval b)) /\ s_eq cfg n m a b = Ok (sval a =? sval b).
Proof.
  intros Hn Hm Wa Wb H. unfold s_compareTo_x, s_eq.
  assert (Q : forall x, Ok (cmp_eqb (zcmp x (sval b)) CEqual) = Ok (x =? sval b)).
  { intros x. f_equal. destruct (zcmp_cases x (sval b)) as [[-> C]|[[-> C]|[-> C]]]; cbn; lia. }
  destruct (Z.eqb_spec n m) as [->|].
  - rewrite s_compareTo_correct by auto. cbn [bind]. rewrite Q. auto.
  - destruct (s_precisionCast_fits cfg n m a Hn Hm Wa H) as (r & E & W & V). rewrite E. cbn [bind].
    rewrite s_compareTo_correct by (auto using canon_swf). cbn [bind]. rewrite Q, V. auto.
Qed.

(** ** Roots and powers *)
Lemma s_squareRoot_correct cfg n fuel a : 1 <= n -> swf n a -> 16 * n + 3 <= Z.of_nat fuel ->
  exists r, s_squareRoot cfg fuel n a = Ok r /\ canon n r /\ sval r = (if sval a >? 0 then Z.sqrt (sval a) else 0).
Proof.
  intros Hn [Wa Na] Hf. pose proof (bval_bound n _ Wa) as Ba. unfold s_squareRoot.
  destruct (sgn a) eqn:S; unfold sval at 2 3; rewrite S.
  - destruct (s_from_int_correct n int32 0 Hn) as (r & E & C & V); [reflexivity|reflexivity|cbn; lia|intros _ _; discriminate|]. exists r. auto.
  - specialize (Na ltac:(discriminate)). destruct (squareRoot_correct cfg n fuel (mag a) Hn Wa Hf) as (r & E & W & V). rewrite E. cbn [bind].
    eexists. split; [reflexivity|]. destruct (Z.gtb_spec (bval (mag a)) 0); [|lia]. split; [|unfold sval; cbn; auto].
    split; [exact W|]. cbn [sgn mag]. split; [discriminate|]. intros Z0. rewrite Z0 in V.
    pose proof (Z.sqrt_le_mono 1 (bval (mag a)) ltac:(lia)). change (Z.sqrt 1) with 1 in *. lia.
  - destruct (s_from_int_correct n int32 0 Hn) as (r & E & C & V); [reflexivity|reflexivity|cbn; lia|intros _ _; discriminate|].
    exists r. split; auto. split; auto. rewrite V. destruct (Z.gtb_spec (- bval (mag a)) 0); auto. lia.
Qed.

Lemma s_power2_correct cfg n k : cfg_unsafe cfg = false -> 0 <= n -> 0 <= k ->
  exists r, s_power2 cfg n k = Ok r /\ canon n r /\ sval r = (if k <? 32 * n then 2 ^ k else 0).
Proof.
  intros U Hn Hk. unfold s_power2. destruct (power2_total cfg n k U Hn Hk) as (b & E & W & V). rewrite E. cbn [bind].
  destruct (s_fix_zero_spec n (mk_aesi SPos b) W) as (r & Er & Sr & Vr & _). exists r. rewrite Er. split; auto.
  split; [apply (fix_zero_canon n (mk_aesi SPos b)); auto; discriminate|]. rewrite Vr. unfold sval; cbn. auto.
Qed.

(** ** integralCast *)
Lemma icast_congr t z : ity_ok t = true -> (icast t z - z) mod 2 ^ iwidth t = 0.
Proof.
  intros Ht. destruct (isigned t) eqn:S; [apply icast_signed; auto|]. rewrite icast_unsigned by auto.
  apply ity_ok_width in Ht. assert (0 < 2 ^ iwidth t) by (apply Z.pow_pos_nonneg; lia).
  rewrite Zminus_mod, Z.mod_mod by lia. rewrite Z.sub_diag. apply Z.mod_0_l. lia.
Qed.

(** Two integers of the same type that are congruent modulo the type's range are equal. *)
Lemma ity_unique t x y : ity_ok t = true -> ity_min t <= x <= ity_max t -> ity_min t <= y <= ity_max t ->
  (x - y) mod 2 ^ iwidth t = 0 -> x = y.
Proof.
  intros Ht Hx Hy H. apply ity_ok_width in Ht. assert (P : 0 < 2 ^ iwidth t) by (apply Z.pow_pos_nonneg; lia).
  assert (E : ity_max t - ity_min t = 2 ^ iwidth t - 1).
  { unfold ity_max, ity_min. destruct (isigned t); [|lia]. assert (2 ^ iwidth t = 2 * 2 ^ (iwidth t - 1)); [|lia].
    rewrite <- Z.pow_succ_r by lia. f_equal. lia. }
  apply Z.mod_divide in H; [|lia]. destruct H as [q Hq]. assert (q = 0) by nia. subst. lia.
Qed.

Lemma icast_range t z : ity_ok t = true -> ity_min t <= icast t z <= ity_max t.
Proof.
  intros Ht. destruct (isigned t) eqn:S; [apply icast_signed; auto|]. rewrite icast_unsigned by auto. unfold ity_min, ity_max. rewrite S.
  apply ity_ok_width in Ht. pose proof (Z.mod_pos_bound z (2 ^ iwidth t) ltac:(apply Z.pow_pos_nonneg; lia)). lia.
Qed.

Lemma s_integralCast_correct t n a : 2 <= n -> swf n a -> ity_ok t = true -> isigned t = true ->
  (iwidth t < 32 \/ 0 <= sval a \/ icast t (bval (mag a)) <> ity_min t) ->
  exists v, s_integralCast t a = Ok v /\ ity_min t <= v <= ity_max t /\ (v - sval a) mod 2 ^ iwidth t = 0.
Proof.
  intros Hn [Wa Na] Ht Hs HM. pose proof (bval_bound n _ Wa) as Ba. unfold s_integralCast.
  assert (P : 0 < 2 ^ iwidth t) by (pose proof (ity_ok_width t Ht); apply Z.pow_pos_nonneg; lia).
  assert (Z0 : ity_min t <= 0 <= ity_max t).
  { unfold ity_min, ity_max. rewrite Hs. assert (0 < 2 ^ (iwidth t - 1)) by (pose proof (ity_ok_width t Ht); apply Z.pow_pos_nonneg; lia). lia. }
  destruct (sgn a) eqn:S; unfold sval in *; rewrite S in *.
  - exists 0. split; [reflexivity|]. split; [exact Z0|]. apply Z.mod_0_l. lia.
  - rewrite (integralCast_spec t n) by auto. rewrite icast_mod64 by auto. eexists. split; [reflexivity|].
    split; [apply icast_range; auto|apply icast_congr; auto].
  - specialize (Na ltac:(discriminate)). rewrite (integralCast_spec t n) by auto. rewrite icast_mod64 by auto. cbn [bind]. rewrite Hs.
    assert (imul_m1 t (icast t (bval (mag a))) = Ok (- icast t (bval (mag a)))) as ->.
    { unfold imul_m1, ineg. rewrite Hs. destruct (Z.leb_spec 32 (iwidth t)), (Z.eqb_spec (icast t (bval (mag a))) (ity_min t)); cbn [andb]; auto.
      exfalso. destruct HM as [|[|]]; lia. }
    cbn [bind]. eexists. split; [reflexivity|]. split; [apply icast_range; auto|].
    pose proof (icast_congr t (- icast t (bval (mag a))) Ht) as C1. pose proof (icast_congr t (bval (mag a)) Ht) as C2.
    set (v := icast t (- icast t (bval (mag a)))) in *. set (w := icast t (bval (mag a))) in *.
    apply Z.mod_divide in C1, C2; try lia. apply Z.mod_divide; [lia|]. destruct C1 as [x X], C2 as [y Y]. exists (x - y). lia.
Qed.

Lemma s_integralCast_min t n a : 2 <= n -> wf n (mag a) -> ity_ok t = true -> isigned t = true -> 32 <= iwidth t ->
  sgn a = SNeg -> bval (mag a) mod 2 ^ iwidth t = 2 ^ (iwidth t - 1) -> s_integralCast t a = Err SignedOverflow.
Proof.
  intros Hn Wa Ht Hs Hw S H. unfold s_integralCast. rewrite S. rewrite (integralCast_spec t n) by auto. rewrite icast_mod64 by auto.
  cbn [bind]. rewrite Hs. unfold imul_m1, ineg, icast. rewrite Hs, H. cbn [andb]. cbv zeta. rewrite Z.leb_refl.
  destruct (Z.leb_spec 32 (iwidth t)); [|lia]. cbn [andb]. unfold ity_min. rewrite Hs.
  assert (2 ^ iwidth t = 2 * 2 ^ (iwidth t - 1)) by (rewrite <- Z.pow_succ_r by lia; f_equal; lia).
  destruct (Z.eqb_spec (2 ^ (iwidth t - 1) - 2 ^ iwidth t) (- 2 ^ (iwidth t - 1))); [reflexivity|lia].
Qed.

(** ** Canonical results *)
Lemma fix_zero_canon2 n a : wf n (mag a) -> (sgn a = SZero -> bval (mag a) = 0) -> exists r, s_fix_zero n a = Ok r /\ canon n r /\ sval r = sval a.
Proof.
  intros W N. destruct (s_fix_zero_spec n a W) as (r & E & [Wr Nr] & V & M & Z0). exists r. split; auto. split; auto.
  split; auto. rewrite M in *. split; auto. intros S. destruct (Z.eq_dec (bval (mag a)) 0); auto.
  destruct (sgn a) eqn:Sa; auto; unfold s_fix_zero in E; rewrite isZero_val in E by auto; cbn [bind] in E;
  destruct (Z.eqb_spec (bval (mag a)) 0); try lia; injection E as <-; congruence.
Qed.

Lemma swf_canon n r : swf n r -> (sgn r = SZero -> bval (mag r) = 0) -> canon n r.
Proof. intros [W N] H. split; auto. split; auto. intros B. destruct (sgn r) eqn:S; auto; exfalso; apply N; congruence. Qed.

Lemma canon_swf2 n a : canon n a -> swf n a /\ (sgn a = SZero -> bval (mag a) = 0).
Proof. intros C. split; [apply canon_swf; auto|]. destruct C as [_ H]. apply H. Qed.

Lemma s_div_canon cfg n a b : 1 <= n -> canon n a -> swf n b -> sval b <> 0 ->
  exists r, s_div_assign cfg n a b = Ok r /\ canon n r /\ sval r = Z.quot (sval a) (sval b).
Proof.
  intros Hn Ca Wb Hb. destruct (canon_swf2 n a Ca) as [Wa Za].
  destruct (s_div_correct cfg n a b Hn Wa Wb Hb) as (r & E & _ & V). exists r. split; auto. split; auto.
  unfold s_div_assign, div_assign, op_div in E. destruct Wb as [Wb Nb]. destruct Wa as [Wa Na].
  assert (s_isZero b = false) as Zb by (unfold s_isZero, sval in *; destruct (sgn b); cbn; auto; lia). rewrite Zb in E.
  rewrite sval_ssgn in Hb. destruct (nz_parts n b Wb Hb) as [_ Pb].
  assert (M : mag (if s_isNegative b then s_inverse a else a) = mag a) by (destruct (s_isNegative b); auto). rewrite M in E.
  destruct (divide_pos cfg n (mag a) (mag b) Hn Wa Wb ltac:(lia)) as (q & r' & Ed & [Wq Vq] & _). rewrite Ed in E. cbn [bind] in E.
  destruct (fix_zero_canon2 n (with_mag (if s_isNegative b then s_inverse a else a) q) Wq) as (x & Ex & Cx & _).
  { cbn [mag with_mag]. intros S. rewrite Vq, Za; [apply Z.div_0_l; lia|]. unfold with_mag in S. cbn [sgn] in S.
    destruct (s_isNegative b); auto. unfold s_inverse, with_sign in S. cbn in S. destruct (sgn a); auto; discriminate. }
  rewrite Ex in E. injection E as <-. auto.
Qed.

Lemma s_mod_canon cfg n a b : 1 <= n -> canon n a -> swf n b -> sval b <> 0 ->
  exists r, s_mod_assign cfg n a b = Ok r /\ canon n r /\ sval r = Z.sgn (sval b) * Z.rem (sval a) (sval b).
Proof.
  intros Hn Ca Wb Hb. destruct (canon_swf2 n a Ca) as [Wa Za].
  destruct (s_mod_correct cfg n a b Hn Wa Wb Hb) as (r & E & _ & V). exists r. split; auto. split; auto.
  unfold s_mod_assign, mod_assign, op_mod in E. destruct Wb as [Wb Nb]. destruct Wa as [Wa Na].
  assert (s_isZero b = false) as Zb by (unfold s_isZero, sval in *; destruct (sgn b); cbn; auto; lia). rewrite Zb in E.
  rewrite sval_ssgn in Hb. destruct (nz_parts n b Wb Hb) as [_ Pb].
  assert (M : mag (if s_isNegative b then s_inverse a else a) = mag a) by (destruct (s_isNegative b); auto). rewrite M in E.
  destruct (divide_pos cfg n (mag a) (mag b) Hn Wa Wb ltac:(lia)) as (q & r' & Ed & _ & [Wr Vr]). rewrite Ed in E. cbn [bind] in E.
  destruct (fix_zero_canon2 n (with_mag (if s_isNegative b then s_inverse a else a) r') Wr) as (x & Ex & Cx & _).
  { cbn [mag with_mag]. intros S. rewrite Vr, Za; [apply Z.mod_0_l; lia|]. unfold with_mag in S. cbn [sgn] in S.
    destruct (s_isNegative b); auto. unfold s_inverse, with_sign in S. cbn in S. destruct (sgn a); auto; discriminate. }
  rewrite Ex in E. injection E as <-. auto.
Qed.

Lemma s_inc_canon n a : 1 <= n -> canon n a -> Z.abs (sval a + 1) < modulus n -> exists r, s_inc n a = Ok r /\ canon n r /\ sval r = sval a + 1.
Proof.
  intros Hn Ca H. destruct (s_inc_correct n a Hn (canon_swf n a Ca) H) as (r & E & WN & V). exists r. split; [exact E|]. split; [|exact V].
  apply swf_canon; [exact WN|]. intros S. destruct Ca as [Wa Ca]. unfold s_inc in E. destruct (sgn a) eqn:Sa.
  - destruct (one_spec n Hn) as (o & Eo & _). rewrite Eo in E. injection E as <-. discriminate S.
  - destruct (op_inc n (mag a)); [|discriminate]. injection E as <-. discriminate S.
  - destruct (op_dec_correct n _ Wa) as (o & Eo & Wo & _). rewrite Eo in E. cbn [bind] in E. rewrite isZero_val in E by auto. cbn [bind] in E. injection E as <-.
    cbn [sgn mag] in *. destruct (Z.eqb_spec (bval o) 0); [auto|discriminate].
Qed.
Lemma s_dec_canon n a : 1 <= n -> canon n a -> Z.abs (sval a - 1) < modulus n -> exists r, s_dec n a = Ok r /\ canon n r /\ sval r = sval a - 1.
Proof.
  intros Hn Ca H. destruct (s_dec_correct n a Hn (canon_swf n a Ca) H) as (r & E & WN & V). exists r. split; [exact E|]. split; [|exact V].
  apply swf_canon; [exact WN|]. intros S. destruct Ca as [Wa Ca]. unfold s_dec in E. destruct (sgn a) eqn:Sa.
  - destruct (one_spec n Hn) as (o & Eo & _). rewrite Eo in E. injection E as <-. discriminate S.
  - destruct (op_dec_correct n _ Wa) as (o & Eo & Wo & _). rewrite Eo in E. cbn [bind] in E. rewrite isZero_val in E by auto. cbn [bind] in E. injection E as <-.
    cbn [sgn mag] in *. destruct (Z.eqb_spec (bval o) 0); [auto|discriminate].
  - destruct (op_inc n (mag a)); [|discriminate]. injection E as <-. discriminate S.
Qed.

Lemma s_divide_canon cfg n a b q0 r0 : 1 <= n -> swf n a -> swf n b -> wf n (mag q0) -> wf n (mag r0) -> sval a <> 0 -> sval b <> 0 ->
  exists q r, s_divide cfg n a b q0 r0 = Ok (q, r) /\ canon n q /\ canon n r.
Proof.
  intros Hn Wa Wb Wq0 Wr0 Ha Hb. destruct (s_divide_correct cfg n a b q0 r0 Hn Wa Wb Wq0 Wr0 Hb) as (q & r & E & [Wq Nq] & [Wr Nr] & _).
  exists q, r. split; auto. unfold s_divide in E. destruct Wb as [Wb Nb]. destruct Wa as [Wa Na].
  assert (s_isZero b = false) as Zb by (unfold s_isZero, sval in *; destruct (sgn b); cbn; auto; lia). rewrite Zb in E.
  assert (s_isZero a = false) as Za by (unfold s_isZero, sval in *; destruct (sgn a); cbn; auto; lia). rewrite Za in E.
  rewrite sval_ssgn in Hb. destruct (nz_parts n b Wb Hb) as [_ Pb]. cbn [orb] in E.
  destruct (divide_pos cfg n (mag a) (mag b) Hn Wa Wb ltac:(lia)) as (q' & r' & Ed & [Wq' Vq] & [Wr' Vr]). rewrite Ed in E. cbn [bind] in E.
  rewrite !isZero_val in E by auto.
  assert (forall s m, s <> SZero -> wf n m -> canon n (mk_aesi (if bval m =? 0 then SZero else s) m)) as K.
  { intros s m Hs W. split; auto. cbn [sgn mag]. destruct (Z.eqb_spec (bval m) 0); split; intros; auto; congruence. }
  destruct (sgn a), (sgn b); cbn [bind] in E; injection E as <- <-; split; apply K; auto; discriminate.
Qed.
