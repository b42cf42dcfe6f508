(** * AeuDiv: proofs about division, gcd, lcm, powm and squareRoot of [Aeu]. *)
From Verif Require Export AeuAccess.
From Coq Require Import ZifyBool Znumtheory.
Open Scope Z_scope.

Lemma put_bit_low b x : put_bit b (2 * x) 0 = 2 * x + Z.b2z b.
Proof.
  apply Z.bits_inj'. intros k Hk. rewrite put_bit_spec by lia. destruct (Z.eqb_spec k 0) as [->|Hk0].
  - rewrite Z.testbit_0_r. auto.
  - replace k with (Z.succ (k - 1)) by lia. rewrite Z.double_bits_succ. rewrite Z.testbit_succ_r by lia. auto.
Qed.

Lemma put_bit_high j h : 0 <= j -> put_bit true (2 ^ (j + 1) * h) j = 2 ^ (j + 1) * h + 2 ^ j.
Proof.
  intros Hj. rewrite <- (lor_add (2 ^ (j + 1) * h) (2 ^ j)).
  - apply Z.bits_inj'. intros k Hk. rewrite put_bit_spec, Z.lor_spec, Z.pow2_bits_eqb by lia. rewrite (Z.eqb_sym k).
    destruct (j =? k); [rewrite orb_true_r|rewrite orb_false_r]; auto.
  - apply Z.bits_inj'. intros k Hk. rewrite Z.land_spec, Z.testbit_0_l, Z.pow2_bits_eqb by lia.
    destruct (Z.eqb_spec j k); [|apply andb_false_r]. subst. rewrite Z.mul_comm, Z.mul_pow2_bits_low by lia. auto.
Qed.

Lemma div_pow2_step N j : 0 <= j -> N / 2 ^ j = 2 * (N / 2 ^ (j + 1)) + Z.b2z (Z.testbit N j).
Proof.
  intros Hj. rewrite Z.testbit_spec' by lia. rewrite Z.pow_add_r by lia. change (2 ^ 1) with 2.
  assert (0 < 2 ^ j) by (apply Z.pow_pos_nonneg; lia).
  rewrite <- Z.div_div by lia. apply Z.div_mod. lia.
Qed.

(** ** Division *)
Lemma divide_spec cfg n number divisor : 1 <= n -> wf n number -> wf n divisor ->
  exists q r, divide cfg n number divisor = Ok (q, r) /\ wf n q /\ wf n r /\
    bval number = bval q * bval divisor + bval r /\
    (bval divisor <> 0 -> bval r < bval divisor) /\
    (bval divisor = 0 -> bval r = bval number /\
       bval q = (if bval number =? 0 then 1 else 2 ^ (32 * ((bit_length (bval number) + 31) / 32)) - 1)).
Proof.
  intros Hn WN WD. pose proof (bval_bound n _ WN) as BN. pose proof (bval_bound n _ WD) as BD.
  unfold divide. rewrite compareTo_same by auto. cbn [bind]. cbv zeta. unfold aeu_zero.
  set (N := bval number) in *. set (D := bval divisor) in *. unfold zcmp.
  destruct (Z.gtb_spec N D) as [HG|HG].
  - rewrite filledBlocksNumber_value by auto. cbn [bind]. fold N. unfold blockBitLength.
    set (f := (bit_length N + 31) / 32).
    destruct (bit_length_bounds N ltac:(lia)) as (BL1 & BL2 & BL3).
    assert (Hf : 0 <= f <= n /\ N < 2 ^ (32 * f)).
    { assert (HB : bit_length N <= 32 * n) by (apply bit_length_le; [lia|exact BN]).
      pose proof (Z.div_mod (bit_length N + 31) 32 ltac:(lia)) as Dm. pose proof (Z.mod_pos_bound (bit_length N + 31) 32 ltac:(lia)) as Mm.
      fold f in Dm. assert (HBf : bit_length N <= 32 * f) by lia. assert (0 <= f) by lia. assert (f <= n) by lia.
      split; [lia|]. apply Z.lt_le_trans with (2 ^ bit_length N); auto. apply Z.pow_le_mono_r; lia. }
    match goal with |- context [forD (f * 32) 0 ?B _] =>
    destruct (forD_spec (fun i '(Q, R) => wf n Q /\ wf n R /\
       exists h, bval Q = 2 ^ i * h /\ N / 2 ^ i = h * D + bval R /\ 0 <= h /\
         (D <> 0 -> bval R < D) /\ (D = 0 -> h = 2 ^ (32 * f - i) - 1)) (f * 32) 0 B (zeros n, zeros n))
       as ([Q R] & E & WQ & WR & h & EQ & EN & Hh & HD & HD0) end.
    + lia.
    + rewrite bval_zeros. split; [apply wf_zeros; lia|]. split; [apply wf_zeros; lia|].
      exists 0. rewrite (Z.mul_comm f 32). rewrite Z.sub_diag. rewrite (Z.div_small N) by lia.
      repeat split; try lia.
    + intros j [Q R] Hj (WQ & WR & h & EQ & EN & Hh & HD & HD0).
      pose proof (bval_bound n _ WR) as BR. pose proof (div_pow2_step N j ltac:(lia)) as ES.
      assert (HNj : 0 <= N / 2 ^ j <= N).
      { assert (0 < 2 ^ j) by (apply Z.pow_pos_nonneg; lia). split; [apply Z.div_pos; lia|]. apply Z.div_le_upper_bound; nia. }
      assert (Hb : 0 <= Z.b2z (Z.testbit N j) <= 1) by (destruct (Z.testbit N j); cbn; lia).
      assert (H2R : 2 * bval R + Z.b2z (Z.testbit N j) <= N).
      { rewrite EN in ES. assert (0 <= h * D) by nia. lia. }
      destruct (shl_assign_correct n R 1 WR ltac:(lia)) as (R1 & E1 & W1 & V1).
      rewrite E1. cbn [bind]. change (2 ^ 1) with 2 in V1. rewrite Z.mod_small in V1 by lia.
      rewrite getBit_spec by (auto; lia). cbn [bind]. fold N.
      destruct (setBit_spec cfg n R1 0 (Z.testbit N j) W1 ltac:(lia)) as (R2 & E2 & W2 & V2).
      rewrite E2. cbn [bind]. rewrite V1 in V2. replace (bval R * 2) with (2 * bval R) in V2 by lia. rewrite put_bit_low in V2.
      rewrite op_ge_same by auto. cbn [bind]. fold D.
      destruct (Z.geb_spec (bval R2) D) as [HGE|HLT].
      * destruct (sub_assign_correct n R2 divisor W2 WD) as (R3 & E3 & W3 & V3). rewrite E3. cbn [bind].
        fold D in V3. rewrite Z.mod_small in V3 by lia.
        destruct (setBit_spec cfg n Q j true WQ ltac:(lia)) as (Q2 & E4 & W4 & V4). rewrite E4. cbn [bind].
        eexists. split; [reflexivity|]. split; auto. split; auto. exists (2 * h + 1).
        rewrite EQ, put_bit_high in V4 by lia. rewrite Z.pow_add_r in V4 by lia. change (2 ^ 1) with 2 in V4.
        split; [lia|]. split; [rewrite ES, EN; lia|]. split; [lia|]. split; [lia|].
        intros HD1. rewrite HD0 by auto. replace (32 * f - j) with (32 * f - (j + 1) + 1) by lia.
        rewrite (Z.pow_add_r 2 (32 * f - (j + 1)) 1) by lia. lia.
      * eexists. split; [reflexivity|]. split; auto. split; auto. exists (2 * h).
        rewrite Z.pow_add_r in EQ by lia. change (2 ^ 1) with 2 in EQ.
        split; [lia|]. split; [rewrite ES, EN; lia|]. split; [lia|]. split; [lia|].
        intros HD1. lia.
    + exists Q, R. rewrite E. split; auto. split; auto. split; auto.
      change (2 ^ 0) with 1 in *. rewrite Z.div_1_r in EN. split; [nia|]. split; auto.
      intros HD1. specialize (HD0 HD1). destruct (Z.eqb_spec N 0); [lia|]. rewrite Z.sub_0_r in HD0. nia.
  - destruct (Z.ltb_spec N D) as [HL|HL].
    + exists (zeros n), number. split; auto. split; [apply wf_zeros; lia|]. split; auto. rewrite bval_zeros.
      fold N. split; [lia|]. split; [lia|]. lia.
    + assert (HND : N = D) by lia.
      assert (W1M : 1 < modulus n) by (apply Z.lt_le_trans with (2 ^ 32); [lia|apply Z.pow_le_mono_r; lia]).
      destruct (from_unsigned_correct n (zeros n) 1 ltac:(lia) (len_zeros n ltac:(lia)) ltac:(lia)) as (o & Eo & Wo & Vo).
      rewrite Z.mod_small in Vo by lia. rewrite Eo. cbn [bind]. exists o, (zeros n). split; auto. split; auto.
      split; [apply wf_zeros; lia|]. rewrite bval_zeros, Vo. split; [lia|]. split; [lia|].
      intros HD0. destruct (Z.eqb_spec N 0); lia.
Qed.

Lemma divide_pos cfg n number divisor : 1 <= n -> wf n number -> wf n divisor -> bval divisor <> 0 ->
  exists q r, divide cfg n number divisor = Ok (q, r) /\ represents n q (bval number / bval divisor) /\
    represents n r (bval number mod bval divisor).
Proof.
  intros Hn WN WD Hd. destruct (divide_spec cfg n number divisor Hn WN WD) as (q & r & E & Wq & Wr & EQ & HR & _).
  pose proof (bval_bound n _ WD). pose proof (bval_bound n _ Wr).
  exists q, r. split; auto. split; split; auto.
  - apply Z.div_unique with (bval r); lia.
  - apply Z.mod_unique with (bval q); lia.
Qed.

(** ** gcd *)
Lemma gcd_step q d r : Z.gcd d r = Z.gcd (q * d + r) d.
Proof. rewrite (Z.gcd_comm (q * d + r)). rewrite Z.add_comm. rewrite Z.gcd_add_mult_diag_r. auto. Qed.

Lemma bit_length_half x y : 0 <= x -> 0 < y -> 2 * x <= y -> bit_length x < bit_length y.
Proof.
  intros Hx Hy H. destruct (bit_length_bounds x Hx) as (A1 & A2 & A3). destruct (bit_length_bounds y ltac:(lia)) as (B1 & B2 & B3).
  destruct (Z.ltb_spec (bit_length x) (bit_length y)); auto. exfalso.
  destruct A3 as [A3|A3].
  - replace (bit_length y) with 0 in * by lia. cbn in B2. lia.
  - destruct (Z.eq_dec (bit_length x) 0) as [E|Nx].
    { replace (bit_length y) with 0 in * by lia. cbn in B2. lia. }
    assert (2 ^ bit_length y <= 2 ^ bit_length x) by (apply Z.pow_le_mono_r; lia).
    assert (2 ^ bit_length x = 2 ^ (bit_length x - 1) * 2) by (rewrite Z.mul_comm, <- Z.pow_succ_r by lia; f_equal; lia). lia.
Qed.

Definition gcd_mu (g r : Z) : Z := if g =? 0 then 1 else bit_length (g * r).

Lemma gcd_mu_step g r r' : 0 <= g -> 0 < r -> (g = 0 \/ r < g) -> 0 <= r' < r -> (exists q, g = q * r + r') ->
  gcd_mu r r' < gcd_mu g r.
Proof.
  intros Hg Hr Hgr Hr' (q & Eq). unfold gcd_mu. destruct (Z.eqb_spec r 0); [lia|].
  destruct (Z.eqb_spec g 0) as [->|Hg0].
  - assert (r' = 0) by (destruct (Z.lt_trichotomy q 0) as [|[->|]]; nia). subst. rewrite Z.mul_0_r. unfold bit_length. cbn. lia.
  - destruct Hgr as [|Hgr]; [lia|]. apply bit_length_half; try nia.
    assert (1 <= q) by nia. assert (2 * r' < g) by nia. nia.
Qed.

Lemma gcd_mu_bound n g r : 0 <= n -> 0 <= g < modulus n -> 0 <= r < modulus n -> gcd_mu g r <= 64 * n + 1 /\ 0 <= gcd_mu g r.
Proof.
  intros Hn Hg Hr. unfold gcd_mu. destruct (Z.eqb_spec g 0); [lia|]. split.
  - assert (bit_length (g * r) <= 64 * n); [|lia]. apply bit_length_le; [lia|].
    replace (64 * n) with (32 * n + 32 * n) by lia. rewrite Z.pow_add_r by lia. fold (modulus n). nia.
  - apply bit_length_bounds. nia.
Qed.

Lemma gcd_loop_spec cfg n G fuel g r : 1 <= n -> wf n g -> wf n r -> (bval g = 0 \/ bval r < bval g) ->
  Z.gcd (bval g) (bval r) = G -> 64 * n + 2 <= Z.of_nat fuel ->
  exists x, gcd_loop cfg n fuel (g, r) = Ok x /\ represents n x G.
Proof.
  intros Hn Wg Wr Hgr HG Hf. unfold gcd_loop.
  match goal with |- context [whileF fuel ?B _] =>
  destruct (whileF_spec (fun '(g, r) => wf n g /\ wf n r /\ (bval g = 0 \/ bval r < bval g) /\ Z.gcd (bval g) (bval r) = G)
     (fun '(g, r) => gcd_mu (bval g) (bval r)) (fun x => represents n x G) B fuel (g, r)) as (x & E & P) end.
  - auto.
  - pose proof (bval_bound n _ Wg). pose proof (bval_bound n _ Wr). pose proof (gcd_mu_bound n (bval g) (bval r)). lia.
  - intros [g0 r0] (W1 & W2 & _). pose proof (bval_bound n _ W1). pose proof (bval_bound n _ W2). apply (gcd_mu_bound n); auto; lia.
  - intros [g0 r0] (W1 & W2 & H3 & H4). pose proof (bval_bound n _ W1). pose proof (bval_bound n _ W2) as B2.
    rewrite op_eq_u32_spec by (auto; lia). cbn [bind]. destruct (Z.eqb_spec (bval r0) 0) as [E0|E0].
    + eexists. split; [reflexivity|]. cbn [step_post]. rewrite E0, Z.gcd_0_r in H4. split; auto. lia.
    + cbv zeta. destruct (divide_spec cfg n g0 r0 Hn W1 W2) as (q & r' & E & Wq & Wr' & EQ & HR & _).
      rewrite E. cbn [bind]. eexists. split; [reflexivity|]. cbn [step_post]. specialize (HR E0).
      pose proof (bval_bound n _ Wr') as B3. pose proof (bval_bound n _ Wq) as B4.
      split.
      * split; auto. split; auto. split; [lia|]. rewrite (gcd_step (bval q)). rewrite <- EQ. auto.
      * apply gcd_mu_step; try lia. eauto.
  - eauto.
Qed.

Lemma gcd_correct cfg n fuel a b : 1 <= n -> wf n a -> wf n b -> 64 * n + 2 <= Z.of_nat fuel ->
  yields n (gcd cfg fuel n a b) (Z.gcd (bval a) (bval b)).
Proof.
  intros Hn Wa Wb Hf. unfold gcd. rewrite compareTo_same by auto. cbn [bind].
  assert (Main : forall x y, wf n x -> wf n y ->
     exists r, (st <- ('(_, r) <- divide cfg n x y ;; Ok (y, r)) ;; gcd_loop cfg n fuel st) = Ok r /\ represents n r (Z.gcd (bval x) (bval y))).
  { intros x y Wx Wy. destruct (divide_spec cfg n x y Hn Wx Wy) as (q & r & E & Wq & Wr & EQ & HR & H0).
    rewrite E. cbn [bind]. pose proof (bval_bound n _ Wr). apply gcd_loop_spec; auto.
    - destruct (Z.eq_dec (bval y) 0); auto.
    - rewrite (gcd_step (bval q)). rewrite <- EQ. auto. }
  destruct (zcmp (bval a) (bval b)).
  - rewrite Z.gcd_comm. exact (Main b a Wb Wa).
  - rewrite Z.gcd_comm. exact (Main b a Wb Wa).
  - exact (Main a b Wa Wb).
  - rewrite Z.gcd_comm. exact (Main b a Wb Wa).
Qed.

(** ** Extended gcd *)
Definition eqm (M x y : Z) : Prop := x mod M = y mod M.

Lemma eqm_sub M x y : M <> 0 -> (exists k, x = y + k * M) -> eqm M x y.
Proof. intros HM (k & ->). unfold eqm. apply Z_mod_plus_full. Qed.
Lemma eqm_elim M x y : M <> 0 -> eqm M x y -> exists k, x = y + k * M.
Proof.
  intros HM H. unfold eqm in H. exists (x / M - y / M). pose proof (Z.div_mod x M HM). pose proof (Z.div_mod y M HM).
  rewrite H in *. lia.
Qed.

Lemma egcd_correct cfg n fuel a b : 1 <= n -> wf n a -> wf n b -> 64 * n + 2 <= Z.of_nat fuel ->
  exists g x y, gcd_ext cfg fuel n a b = Ok (g, x, y) /\ represents n g (Z.gcd (bval a) (bval b)) /\ wf n x /\ wf n y /\
    (bval a * bval x + bval b * bval y) mod modulus n = Z.gcd (bval a) (bval b) mod modulus n.
Proof.
  intros Hn Wa Wb Hf. unfold gcd_ext. rewrite compareTo_same by auto. cbn [bind].
  assert (HM : modulus n <> 0) by (pose proof (modulus_pos n); lia).
  assert (H1M : 1 < modulus n) by (apply Z.lt_le_trans with (2 ^ 32); [lia|apply Z.pow_le_mono_r; lia]).
  destruct (from_unsigned_correct n (zeros n) 0 ltac:(lia) (len_zeros n ltac:(lia)) ltac:(lia)) as (o0 & Eo0 & Wo0 & Vo0).
  destruct (from_unsigned_correct n (zeros n) 1 ltac:(lia) (len_zeros n ltac:(lia)) ltac:(lia)) as (o1 & Eo1 & Wo1 & Vo1).
  rewrite Z.mod_small in Vo0, Vo1 by lia.
  assert (Main : forall A B, wf n A -> wf n B ->
     exists q r s, divide cfg n A B = Ok (q, r) /\
       whileF fuel (egcd_body cfg n) (mk_egcd B q r o0 o1 o1 o0) = Ok s /\
       represents n (eg_gcd s) (Z.gcd (bval A) (bval B)) /\ wf n (eg_x s) /\ wf n (eg_y s) /\
       eqm (modulus n) (bval A * bval (eg_x s) + bval B * bval (eg_y s)) (Z.gcd (bval A) (bval B))).
  { intros A B WA WB. destruct (divide_spec cfg n A B Hn WA WB) as (q & r & E & Wq & Wr & EQ & HR & H0).
    pose proof (bval_bound n _ WA) as BA. pose proof (bval_bound n _ WB) as BB.
    pose proof (bval_bound n _ Wr) as Br.
    exists q, r. set (G := Z.gcd (bval A) (bval B)).
    destruct (whileF_spec (fun s => wf n (eg_gcd s) /\ wf n (eg_q s) /\ wf n (eg_r s) /\ wf n (eg_x s) /\ wf n (eg_y s) /\
        wf n (eg_tx s) /\ wf n (eg_ty s) /\
        (bval (eg_gcd s) = 0 \/ bval (eg_r s) < bval (eg_gcd s)) /\
        Z.gcd (bval (eg_gcd s)) (bval (eg_r s)) = G /\
        eqm (modulus n) (bval A * bval (eg_x s) + bval B * bval (eg_y s)) (bval (eg_gcd s)) /\
        eqm (modulus n) (bval A * (bval (eg_tx s) - bval (eg_q s) * bval (eg_x s)) + bval B * (bval (eg_ty s) - bval (eg_q s) * bval (eg_y s))) (bval (eg_r s)))
      (fun s => gcd_mu (bval (eg_gcd s)) (bval (eg_r s)))
      (fun s => represents n (eg_gcd s) G /\ wf n (eg_x s) /\ wf n (eg_y s) /\
        eqm (modulus n) (bval A * bval (eg_x s) + bval B * bval (eg_y s)) G)
      (egcd_body cfg n) fuel (mk_egcd B q r o0 o1 o1 o0)) as (s & Es & Ps).
    - cbn [eg_gcd eg_q eg_r eg_x eg_y eg_tx eg_ty].
      do 7 (split; [auto|]). split; [destruct (Z.eq_dec (bval B) 0); auto|].
      split; [rewrite (gcd_step (bval q)), <- EQ; auto|]. rewrite Vo0, Vo1.
      split; [unfold eqm; f_equal; lia|unfold eqm; f_equal; lia].
    - cbn [eg_gcd eg_r]. pose proof (gcd_mu_bound n (bval B) (bval r)). lia.
    - intros s (W1 & _ & W2 & _). apply (gcd_mu_bound n); try (apply bval_bound; auto). lia.
    - intros s (Wg & Wq0 & Wr0 & Wx & Wy & Wtx & Wty & Hlt & HG & E1 & E2). unfold egcd_body.
      pose proof (bval_bound n _ Wg) as Bg. pose proof (bval_bound n _ Wr0) as Br0.
      rewrite op_eq_u32_spec by (auto; lia). cbn [bind]. destruct (Z.eqb_spec (bval (eg_r s)) 0) as [Z0|Z0].
      + eexists. split; [reflexivity|]. cbn [step_post]. rewrite Z0, Z.gcd_0_r in HG.
        assert (bval (eg_gcd s) = G) by lia. repeat split; auto; try apply Wg; try apply Wx; try apply Wy. rewrite <- H. auto.
      + cbv zeta.
        destruct (mul_assign_correct n (eg_q s) (eg_x s) Wq0 Wx) as (p & Ep & Wp & Vp). unfold op_mul. rewrite Ep. cbn [bind].
        destruct (sub_assign_correct n (eg_tx s) p Wtx Wp) as (x' & Ex & Wx' & Vx). unfold op_sub. rewrite Ex. cbn [bind].
        destruct (mul_assign_correct n (eg_q s) (eg_y s) Wq0 Wy) as (p2 & Ep2 & Wp2 & Vp2). rewrite Ep2. cbn [bind].
        destruct (sub_assign_correct n (eg_ty s) p2 Wty Wp2) as (y' & Ey & Wy' & Vy). rewrite Ey. cbn [bind].
        destruct (divide_spec cfg n (eg_gcd s) (eg_r s) Hn Wg Wr0) as (q' & r' & Ed & Wq' & Wr' & EQ' & HR' & _).
        rewrite Ed. cbn [bind]. eexists. split; [reflexivity|]. cbn [step_post eg_gcd eg_q eg_r eg_x eg_y eg_tx eg_ty].
        specialize (HR' Z0). pose proof (bval_bound n _ Wr') as Br'. pose proof (bval_bound n _ Wq') as Bq'.
        (* x' = tx - q x, y' = ty - q y  (mod M) *)
        assert (X : eqm (modulus n) (bval x') (bval (eg_tx s) - bval (eg_q s) * bval (eg_x s))).
        { unfold eqm. rewrite Vx, Vp. rewrite Z.mod_mod by auto. rewrite Zminus_mod_idemp_r. auto. }
        assert (Y : eqm (modulus n) (bval y') (bval (eg_ty s) - bval (eg_q s) * bval (eg_y s))).
        { unfold eqm. rewrite Vy, Vp2. rewrite Z.mod_mod by auto. rewrite Zminus_mod_idemp_r. auto. }
        apply eqm_elim in X; auto. destruct X as (kx & X). apply eqm_elim in Y; auto. destruct Y as (ky & Y).
        apply eqm_elim in E1; auto. destruct E1 as (k1 & E1). apply eqm_elim in E2; auto. destruct E2 as (k2 & E2).
        assert (E3 : bval A * bval x' + bval B * bval y' = bval (eg_r s) + (k2 + bval A * kx + bval B * ky) * modulus n).
        { rewrite X, Y. replace (bval A * (bval (eg_tx s) - bval (eg_q s) * bval (eg_x s) + kx * modulus n) + bval B * (bval (eg_ty s) - bval (eg_q s) * bval (eg_y s) + ky * modulus n))
            with (bval A * (bval (eg_tx s) - bval (eg_q s) * bval (eg_x s)) + bval B * (bval (eg_ty s) - bval (eg_q s) * bval (eg_y s)) + (bval A * kx + bval B * ky) * modulus n) by ring.
          rewrite E2. ring. }
        split.
        * do 7 (split; [auto|]). split; [lia|]. split; [rewrite (gcd_step (bval q')), <- EQ'; auto|]. split.
          -- apply eqm_sub; auto. eauto.
          -- apply eqm_sub; auto. exists (k1 - bval q' * (k2 + bval A * kx + bval B * ky)).
             replace (bval A * (bval (eg_x s) - bval q' * bval x') + bval B * (bval (eg_y s) - bval q' * bval y'))
               with ((bval A * bval (eg_x s) + bval B * bval (eg_y s)) - bval q' * (bval A * bval x' + bval B * bval y')) by ring.
             rewrite E1, E3. replace (bval r') with (bval (eg_gcd s) - bval q' * bval (eg_r s)) by lia. ring.
        * apply gcd_mu_step; try lia. eauto.
    - exists s. split; auto. }
  assert (Bd : forall x y, wf n x -> wf n y -> 0 <= Z.gcd (bval x) (bval y)) by (intros; apply Z.gcd_nonneg).
  destruct (Z.ltb_spec (bval b) (bval a)) as [Hgt|Hle].
  - rewrite zcmp_gt by auto. destruct (Main a b Wa Wb) as (q & r & s & Ed & Es & Pg & Px & Py & Pe).
    rewrite Ed. cbn [bind]. rewrite Eo0. cbn [bind]. rewrite Eo1. cbn [bind]. rewrite Es. cbn [bind cmp_eqb negb].
    exists (eg_gcd s), (eg_x s), (eg_y s). auto.
  - destruct (Main b a Wb Wa) as (q & r & s & Ed & Es & Pg & Px & Py & Pe).
    assert (Hc : zcmp (bval a) (bval b) = CEqual \/ zcmp (bval a) (bval b) = CLess).
    { unfold zcmp. destruct (Z.gtb_spec (bval a) (bval b)); [lia|]. destruct (bval a <? bval b); auto. }
    rewrite (Z.gcd_comm (bval a)). exists (eg_gcd s), (eg_y s), (eg_x s).
    destruct Hc as [-> | ->]; rewrite Ed; cbn [bind]; rewrite Eo0; cbn [bind]; rewrite Eo1; cbn [bind]; rewrite Es; cbn [bind cmp_eqb negb];
      (split; [auto|]); (split; [auto|]); (split; [auto|]); (split; [auto|]); rewrite Z.add_comm; exact Pe.
Qed.

(** ** lcm *)
Lemma lcm_correct cfg n fuel a b : 1 <= n -> wf n a -> wf n b -> 64 * n + 2 <= Z.of_nat fuel ->
  yields n (lcm cfg fuel n a b) (Z.lcm (bval a) (bval b) mod modulus n).
Proof.
  intros Hn Wa Wb Hf. unfold lcm. pose proof (bval_bound n _ Wa) as Ba. pose proof (bval_bound n _ Wb) as Bb.
  destruct (gcd_correct cfg n fuel a b Hn Wa Wb Hf) as (g & Eg & Wg & Vg). rewrite Eg. cbn [bind].
  unfold op_div. destruct (divide_spec cfg n a g Hn Wa Wg) as (q & r & Ed & Wq & Wr & EQ & HR & H0). rewrite Ed. cbn [bind].
  unfold op_mul. destruct (mul_assign_correct n q b Wq Wb) as (p & Ep & Wp & Vp). rewrite Ep. apply yields_ok; auto.
  rewrite Vp. f_equal. pose proof (bval_bound n _ Wr) as Br. pose proof (Z.gcd_nonneg (bval a) (bval b)) as Gn.
  destruct (Z.eq_dec (bval g) 0) as [Z0|Z0].
  - rewrite Vg in Z0. apply Z.gcd_eq_0 in Z0. destruct Z0 as [-> ->]. rewrite Z.mul_0_r. reflexivity.
  - specialize (HR Z0). destruct (Z.gcd_divide_l (bval a) (bval b)) as (u & Hu). destruct (Z.gcd_divide_r (bval a) (bval b)) as (v & Hv).
    rewrite <- Vg in *. assert (Eq : bval q = u).
    { assert (bval a mod bval g = bval r) by (symmetry; apply Z.mod_unique with (bval q); lia).
      rewrite Hu, Z.mod_mul in H by lia. nia. }
    unfold Z.lcm. rewrite <- Vg. rewrite Eq. assert (Ev : bval b / bval g = v) by (rewrite Hv; apply Z.div_mul; auto).
    rewrite Ev. rewrite Z.abs_eq by nia. rewrite Hu, Hv at 1. ring.
Qed.

(** ** powm *)
Lemma pow_mod_step x p i m : 0 <= i -> 0 <= p -> m <> 0 ->
  x ^ (p mod 2 ^ (i + 1)) mod m =
  if Z.testbit p i then (x ^ (p mod 2 ^ i) mod m * (x ^ (2 ^ i) mod m)) mod m else x ^ (p mod 2 ^ i) mod m.
Proof.
  intros Hi Hp Hm. assert (P : 0 < 2 ^ i) by (apply Z.pow_pos_nonneg; lia).
  assert (E : p mod 2 ^ (i + 1) = p mod 2 ^ i + 2 ^ i * Z.b2z (Z.testbit p i)).
  { rewrite Z.testbit_spec' by lia. rewrite Z.pow_add_r by lia. change (2 ^ 1) with 2. rewrite Z.rem_mul_r by lia. auto. }
  rewrite E. pose proof (Z.mod_pos_bound p (2 ^ i) P). destruct (Z.testbit p i); cbn [Z.b2z].
  - rewrite Z.mul_1_r. rewrite Z.pow_add_r by lia. rewrite Z.mul_mod by auto. auto.
  - rewrite Z.mul_0_r, Z.add_0_r. auto.
Qed.

Lemma pow_sq x i m : 0 <= i -> m <> 0 -> x ^ (2 ^ (i + 1)) mod m = (x ^ (2 ^ i) mod m * (x ^ (2 ^ i) mod m)) mod m.
Proof.
  intros Hi Hm. rewrite Z.pow_add_r by lia. change (2 ^ 1) with 2. rewrite Z.pow_mul_r by (try apply Z.pow_nonneg; lia).
  rewrite Z.pow_2_r. rewrite Z.mul_mod by auto. auto.
Qed.

(** One modular product, when the plain product fits. *)
Lemma mulmod cfg n x y m : 1 <= n -> wf n x -> wf n y -> wf n m -> bval m <> 0 -> bval x * bval y < modulus n ->
  exists r, (p <- op_mul n x y ;; '(_, r) <- divide cfg n p m ;; Ok r) = Ok r /\ represents n r ((bval x * bval y) mod bval m).
Proof.
  intros Hn Wx Wy Wm Hm Hp. pose proof (bval_bound n _ Wx). pose proof (bval_bound n _ Wy).
  unfold op_mul. destruct (mul_assign_correct n x y Wx Wy) as (p & Ep & Wp & Vp). rewrite Z.mod_small in Vp by nia.
  rewrite Ep. cbn [bind]. destruct (divide_pos cfg n p m Hn Wp Wm Hm) as (q & r & Ed & _ & Rr). rewrite Ed. cbn [bind].
  exists r. rewrite <- Vp. auto.
Qed.

Lemma powm_loop_spec cfg n k power m base out b : 1 <= n -> wf k power -> wf n m -> bval m <> 0 ->
  (bval m - 1) * (bval m - 1) < modulus n ->
  wf n out -> wf n b -> bval out = 1 -> bval b = base mod bval m ->
  exists out' b', powm_loop cfg n k power m (out, b) = Ok (out', b') /\ wf n out' /\
    bval out' = (if bval power =? 0 then 1 else base ^ bval power mod bval m).
Proof.
  intros Hn Wp Wm Hm Hsq Wo Wb Vo Vb. pose proof (bval_bound n _ Wm) as Bm. pose proof (bval_bound k _ Wp) as Bp.
  unfold powm_loop. rewrite filledBlocksNumber_value by auto. cbn [bind]. unfold blockBitLength.
  set (P := bval power) in *. set (M := bval m) in *. set (f := (bit_length P + 31) / 32).
  destruct (bit_length_bounds P ltac:(lia)) as (BL1 & BL2 & BL3).
  pose proof (wf_nonneg _ _ Wp) as Hk.
  assert (Hf : 0 <= f <= k /\ P < 2 ^ (32 * f)).
  { assert (HB : bit_length P <= 32 * k) by (apply bit_length_le; [lia|exact Bp]).
    pose proof (Z.div_mod (bit_length P + 31) 32 ltac:(lia)) as Dm. pose proof (Z.mod_pos_bound (bit_length P + 31) 32 ltac:(lia)) as Mm.
    fold f in Dm. assert (HBf : bit_length P <= 32 * f) by lia. assert (0 <= f) by lia. assert (f <= k) by lia.
    split; [lia|]. apply Z.lt_le_trans with (2 ^ bit_length P); auto. apply Z.pow_le_mono_r; lia. }
  match goal with |- context [forU 0 (f * 32) ?B _] =>
  destruct (forU_spec (fun i '(o, b) => wf n o /\ wf n b /\
     bval b = base ^ (2 ^ i) mod M /\
     (if P mod 2 ^ i =? 0 then bval o = 1 else bval o = base ^ (P mod 2 ^ i) mod M)) 0 (f * 32) B (out, b))
     as ([o' b'] & E & Wo' & Wb' & Vb' & Vo') end.
  - lia.
  - split; auto. split; auto. change (2 ^ 0) with 1. rewrite Z.pow_1_r, Z.mod_1_r. auto.
  - intros i [o c] Hi (Wo1 & Wc & Vc & Vo1). rewrite getBit_spec by (auto; lia). cbn [bind]. fold P.
    assert (HM : 0 < M) by lia.
    assert (Bc : 0 <= bval c < M) by (rewrite Vc; apply Z.mod_pos_bound; lia).
    assert (Bo : 0 <= bval o /\ (bval o < M \/ bval o = 1)).
    { destruct (P mod 2 ^ i =? 0); [lia|]. rewrite Vo1. pose proof (Z.mod_pos_bound (base ^ (P mod 2 ^ i)) M HM). lia. }
    destruct (mulmod cfg n c c m Hn Wc Wc Wm Hm ltac:(nia)) as (c2 & Ec & Wc2 & Vc2). fold M in Vc2.
    assert (HP : exists o2, (if Z.testbit P i then p <- op_mul n o c ;; '(_, r) <- divide cfg n p m ;; Ok r else Ok o) = Ok o2 /\ wf n o2 /\
        (if P mod 2 ^ (i + 1) =? 0 then bval o2 = 1 else bval o2 = base ^ (P mod 2 ^ (i + 1)) mod M)).
    { pose proof (pow_mod_step base P i M ltac:(lia) ltac:(lia) ltac:(lia)) as PS.
      assert (Pi : 0 < 2 ^ i) by (apply Z.pow_pos_nonneg; lia).
      assert (EE : P mod 2 ^ (i + 1) = P mod 2 ^ i + 2 ^ i * Z.b2z (Z.testbit P i)).
      { rewrite Z.testbit_spec' by lia. rewrite Z.pow_add_r by lia. change (2 ^ 1) with 2. rewrite Z.rem_mul_r by lia. auto. }
      pose proof (Z.mod_pos_bound P (2 ^ i) Pi) as Bi.
      destruct (Z.testbit P i) eqn:TB.
      - destruct (mulmod cfg n o c m Hn Wo1 Wc Wm Hm ltac:(nia)) as (o2 & Eo & Wo2 & Vo2). fold M in Vo2.
        exists o2. split; auto. split; auto. cbn [Z.b2z] in EE. destruct (Z.eqb_spec (P mod 2 ^ (i + 1)) 0); [lia|].
        rewrite PS, Vo2, <- Vc. destruct (Z.eqb_spec (P mod 2 ^ i) 0) as [Z0|Z0].
        + rewrite Z0, Vo1. rewrite Z.pow_0_r. rewrite Zmult_mod_idemp_l. auto.
        + rewrite Vo1. auto.
      - exists o. split; auto. split; auto. cbn [Z.b2z] in EE. rewrite Z.mul_0_r, Z.add_0_r in EE. rewrite EE. auto. }
    destruct HP as (o2 & Eo2 & Wo2 & Vo2). rewrite Eo2. cbn [bind].
    (* the squaring *)
    unfold op_mul in *. destruct (mul_assign n c c) as [p|] eqn:Em; cbn [bind] in Ec; [|discriminate].
    cbn [bind]. destruct (divide cfg n p m) as [[q r]|] eqn:Ed; cbn [bind] in Ec; [|discriminate].
    cbn [bind]. eexists. split; [reflexivity|]. split; auto. injection Ec as ->. split; auto. split; auto.
    rewrite Vc2, Vc. rewrite <- pow_sq by lia. auto.
  - exists o', b'. rewrite E. split; auto. split; auto. rewrite (Z.mul_comm f 32) in Vo'. rewrite (Z.mod_small P) in Vo' by lia.
    destruct (P =? 0); auto.
Qed.

Lemma one_spec n : 1 <= n -> exists o, from_unsigned n (zeros n) 1 = Ok o /\ wf n o /\ bval o = 1.
Proof.
  intros Hn. assert (1 < modulus n) by (apply Z.lt_le_trans with (2 ^ 32); [lia|apply Z.pow_le_mono_r; lia]).
  destruct (from_unsigned_correct n (zeros n) 1 ltac:(lia) (len_zeros n ltac:(lia)) ltac:(lia)) as (o & E & W & V).
  rewrite Z.mod_small in V by lia. eauto.
Qed.

Lemma powm_spec cfg n base power m : 1 <= n -> wf n base -> wf n power -> wf n m -> bval m <> 0 ->
  (bval m - 1) * (bval m - 1) < modulus n ->
  yields n (powm cfg n base power m) (if bval power =? 0 then 1 else bval base ^ bval power mod bval m).
Proof.
  intros Hn Wb Wp Wm Hm Hsq. unfold powm. destruct (one_spec n Hn) as (o & Eo & Wo & Vo). rewrite Eo. cbn [bind].
  destruct (divide_pos cfg n base m Hn Wb Wm Hm) as (q & r & Ed & _ & Wr & Vr). rewrite Ed. cbn [bind].
  destruct (powm_loop_spec cfg n n power m (bval base) o r Hn Wp Wm Hm Hsq Wo Wr Vo Vr) as (o' & b' & E & W' & V').
  rewrite E. cbn [bind]. apply yields_ok; auto.
Qed.

Lemma powm_x_spec cfg n k base power m : 1 <= n -> wf n base -> wf k power -> wf n m -> bval m <> 0 ->
  (bval m - 1) * (bval m - 1) < modulus n -> bval base <> 0 -> bval base <> 1 ->
  yields n (powm_x cfg n k base power m) (if bval power =? 0 then 1 else bval base ^ bval power mod bval m).
Proof.
  intros Hn Wb Wp Wm Hm Hsq H0 H1. unfold powm_x. rewrite !op_eq_u32_spec by (auto; lia). cbn [bind].
  destruct (Z.eqb_spec (bval base) 1); [lia|]. destruct (Z.eqb_spec (bval base) 0); [lia|].
  destruct (one_spec n Hn) as (o & Eo & Wo & Vo). rewrite Eo. cbn [bind].
  destruct (divide_pos cfg n base m Hn Wb Wm Hm) as (q & r & Ed & _ & Wr & Vr). rewrite Ed. cbn [bind].
  destruct (powm_loop_spec cfg n k power m (bval base) o r Hn Wp Wm Hm Hsq Wo Wr Vo Vr) as (o' & b' & E & W' & V').
  rewrite E. cbn [bind]. apply yields_ok; auto.
Qed.
Lemma powm_x_base1 cfg n k base power m : 1 <= n -> wf n base -> bval base = 1 -> yields n (powm_x cfg n k base power m) 1.
Proof.
  intros Hn Wb H1. unfold powm_x. rewrite !op_eq_u32_spec by (auto; lia). cbn [bind].
  destruct (Z.eqb_spec (bval base) 1); [|lia]. apply yields_ok; auto.
Qed.
Lemma powm_x_base0 cfg n k base power m : 1 <= n -> wf n base -> bval base = 0 -> yields n (powm_x cfg n k base power m) 1.
Proof.
  intros Hn Wb H1. unfold powm_x. rewrite !op_eq_u32_spec by (auto; lia). cbn [bind].
  destruct (Z.eqb_spec (bval base) 1); [lia|]. destruct (Z.eqb_spec (bval base) 0); [|lia].
  destruct (one_spec n Hn) as (o & Eo & Wo & Vo). rewrite Eo. apply yields_ok; auto.
Qed.

(** ** squareRoot *)
Lemma newton_low A x s : 0 <= A -> 0 < x -> s * s <= A -> 2 * s <= x + A / x.
Proof.
  intros HA Hx Hs. destruct (Z.leb_spec (2 * s) (x + A / x)); auto. exfalso.
  pose proof (Z.div_mod A x ltac:(lia)). pose proof (Z.mod_pos_bound A x Hx).
  assert (A < x * (2 * s - x)) by nia. pose proof (Z.square_nonneg (x - s)). lia.
Qed.
Lemma newton_high A x s : 0 <= A -> 0 <= s -> s < x -> A < (s + 1) * (s + 1) -> A / x <= s.
Proof.
  intros HA Hs Hx H. assert (A / x < s + 1); [|lia]. apply Z.div_lt_upper_bound; [lia|]. nia.
Qed.

Lemma squareRoot_correct cfg n fuel a : 1 <= n -> wf n a -> 16 * n + 3 <= Z.of_nat fuel ->
  yields n (squareRoot cfg fuel n a) (Z.sqrt (bval a)).
Proof.
  intros Hn Wa Hf. pose proof (bval_bound n _ Wa) as Ba. unfold squareRoot. rewrite bitCount_spec by auto. cbn [bind].
  set (A := bval a) in *. set (c := bit_length A).
  destruct (bit_length_bounds A ltac:(lia)) as (C1 & C2 & C3). fold c in C1, C2, C3.
  assert (Hc : c <= 32 * n) by (apply bit_length_le; [lia|exact Ba]).
  pose proof (Z.div_mod (c + 1) 2 ltac:(lia)) as Dc. pose proof (Z.mod_pos_bound (c + 1) 2 ltac:(lia)) as Mc.
  set (h := (c + 1) / 2) in *.
  destruct (power2_spec cfg n h ltac:(lia) ltac:(lia)) as (y0 & E0 & W0 & V0). rewrite E0. cbn [bind].
  set (s := Z.sqrt A). pose proof (Z.sqrt_spec A ltac:(lia)) as Ss. fold s in Ss. cbv zeta in Ss.
  pose proof (Z.sqrt_nonneg A) as Sn. fold s in Sn. unfold Z.succ in Ss.
  assert (P0 : 0 < 2 ^ h) by (apply Z.pow_pos_nonneg; lia).
  assert (Hy0 : A < 2 ^ h * 2 ^ h).
  { rewrite <- Z.pow_add_r by lia. apply Z.lt_le_trans with (2 ^ c); auto. apply Z.pow_le_mono_r; lia. }
  assert (Hs0 : s < 2 ^ h) by nia.
  assert (Hh : 2 ^ h <= 2 ^ (16 * n)) by (apply Z.pow_le_mono_r; lia).
  assert (HMM : 4 * 2 ^ (16 * n) <= modulus n).
  { unfold modulus. replace (32 * n) with (16 * n + 16 * n) by lia. rewrite Z.pow_add_r by lia.
    assert (2 ^ 16 <= 2 ^ (16 * n)) by (apply Z.pow_le_mono_r; lia). nia. }
  match goal with |- context [whileF fuel ?B _] =>
  destruct (whileF_spec (fun y => wf n y /\ s <= bval y <= 2 ^ h) (fun y => bit_length (bval y - s))
     (fun r => represents n r s) B fuel y0) as (r & E & Wr & Vr) end.
  - split; auto. lia.
  - assert (bit_length (bval y0 - s) <= h + 1).
    { apply bit_length_le; [lia|]. rewrite Z.pow_add_r by lia. change (2 ^ 1) with 2. lia. }
    lia.
  - intros y (Wy & Hy). apply bit_length_bounds. lia.
  - intros x (Wx & Hx). cbv zeta. set (X := bval x) in *.
    unfold op_div. destruct (divide_spec cfg n a x Hn Wa Wx) as (q & r & Ed & Wq & Wr & EQ & HR & H0).
    rewrite Ed. cbn [bind]. fold A X in EQ, HR, H0. pose proof (bval_bound n _ Wr) as Br. pose proof (bval_bound n _ Wq) as Bq.
    (* bounds on the quotient *)
    assert (HQ : (X = 0 /\ bval q = 1 /\ A = 0 /\ s = 0) \/ (0 < X /\ bval q = A / X)).
    { destruct (Z.eq_dec X 0) as [EX|NX].
      - left. assert (s = 0) by lia. assert (A = 0) by nia. destruct (H0 EX) as [_ Hq]. rewrite H1 in Hq. cbn in Hq. auto.
      - right. specialize (HR NX). split; [lia|]. apply Z.div_unique with (bval r); [left; lia|]. rewrite EQ at 1. ring. }
    assert (HQb : bval q <= 2 ^ (16 * n) + 2).
    { destruct HQ as [(_ & -> & _)|(HX & ->)]; [lia|].
      destruct (Z.eq_dec X s) as [EX|NX].
      - assert (A / X < s + 3); [|nia]. apply Z.div_lt_upper_bound; [lia|]. rewrite EX in *. nia.
      - pose proof (newton_high A X s ltac:(lia) ltac:(lia) ltac:(lia) ltac:(lia)). nia. }
    unfold op_add. destruct (add_assign_correct n x q Wx Wq) as (z & Ez & Wz & Vz). rewrite Ez. cbn [bind]. fold X in Vz.
    assert (2 ^ 16 <= 2 ^ (16 * n)) by (apply Z.pow_le_mono_r; lia).
    rewrite Z.mod_small in Vz by lia.
    unfold op_shr. destruct (shr_assign_correct n z 1 Wz ltac:(lia)) as (y & Ey & Wy & Vy). rewrite Ey. cbn [bind].
    change (2 ^ 1) with 2 in Vy. rewrite Vz in Vy.
    rewrite op_lt_same by auto. cbn [bind]. fold X.
    pose proof (Z.div_mod (X + bval q) 2 ltac:(lia)) as D2. pose proof (Z.mod_pos_bound (X + bval q) 2 ltac:(lia)) as M2. rewrite <- Vy in D2.
    destruct (Z.ltb_spec (bval y) X) as [Hlt|Hge].
    + eexists. split; [reflexivity|]. cbn [step_post]. destruct HQ as [(EX & Eq & _ & _)|(HX & Eq)]; [lia|].
      pose proof (newton_low A X s ltac:(lia) ltac:(lia) ltac:(lia)) as NL.
      assert (HsX : s < X) by lia.
      pose proof (newton_high A X s ltac:(lia) ltac:(lia) HsX ltac:(lia)) as NH.
      split; [split; [auto|lia]|]. apply bit_length_half; try lia.
    + eexists. split; [reflexivity|]. cbn [step_post]. split; auto. fold X. destruct HQ as [(EX & Eq & _ & Es)|(HX & Eq)]; [lia|].
      destruct (Z.eq_dec X s); auto. pose proof (newton_high A X s ltac:(lia) ltac:(lia) ltac:(lia) ltac:(lia)). lia.
  - rewrite E. apply yields_ok; auto.
Qed.
