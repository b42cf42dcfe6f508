(** * PropsExact: C101 ff., exact results where the plain claim has exceptions. *)
From Coq Require Import ZifyBool.
From Verif Require Import Spec Lib AeuModel AeuArith AeuBits AeuAccess AeuDiv AeuFacts AeuMore ProgTotal.
Open Scope Z_scope.

Ltac conjs := repeat match goal with |- _ /\ _ => split end.
Ltac wfc := apply wfb_wf; vm_compute; reflexivity.
Definition cfg0 : config := mk_config false false true.

(** ** C101: powm for every operand. *)
Lemma powm_loop_residue cfg n k power m o r : 1 <= n -> wf k power -> wf n m -> wf n o -> wf n r -> (bval m <> 0 -> bval o < bval m) ->
  exists o' r', powm_loop cfg n k power m (o, r) = Ok (o', r') /\ wf n o' /\ (bval m <> 0 -> bval o' < bval m).
Proof.
  intros Hn Wp Wm Wo Wr Vo. unfold powm_loop. rewrite (filledBlocksNumber_value k power Wp). cbn [bind].
  pose proof (bval_bound k power Wp) as Bp. pose proof (wf_nonneg _ _ Wp) as Hk.
  assert (HF : 0 <= (bit_length (bval power) + 31) / 32 <= k).
  { destruct (bit_length_bounds (bval power) ltac:(lia)) as [L0 _]. pose proof (bit_length_le (bval power) (32 * k) ltac:(lia) Bp) as L1.
    split; [apply Z.div_pos; lia|]. apply Z.lt_succ_r, Z.div_lt_upper_bound; lia. }
  assert (DV : forall x, wf n x -> exists q1 r1, divide cfg n x m = Ok (q1, r1) /\ wf n r1 /\ (bval m <> 0 -> bval r1 < bval m)).
  { intros x Wx. destruct (Z.eq_dec (bval m) 0) as [Z0|Z0].
    - destruct (div_tot cfg n x m Hn Wx Wm) as (q1 & r1 & E1 & _ & W1). exists q1, r1. conjs; auto. lia.
    - destruct (divide_pos cfg n x m Hn Wx Wm Z0) as (q1 & r1 & E1 & _ & W1 & V1). exists q1, r1. conjs; auto. intros _. rewrite V1.
      pose proof (bval_bound n m Wm). apply Z.mod_pos_bound. lia. }
  match goal with |- context [forU 0 ?h ?B _] =>
  destruct (forU_spec (fun i (s : list Z * list Z) => wf n (fst s) /\ wf n (snd s) /\ (bval m <> 0 -> bval (fst s) < bval m)) 0 h B (o, r)) as ([o' b'] & E' & W' & _ & R') end; auto.
  - unfold blockBitLength. lia.
  - unfold blockBitLength. intros i [x y] Hi (Wx & Wy & Vx). cbn [fst snd] in *.
    rewrite getBit_spec by (auto || lia). cbn [bind].
    assert (exists x', (if Z.testbit (bval power) i then p0 <- op_mul n x y;; '(_, r0) <- divide cfg n p0 m;; Ok r0 else Ok x) = Ok x' /\ wf n x' /\ (bval m <> 0 -> bval x' < bval m)) as (x' & Ex & Wx' & Vx').
    { destruct (Z.testbit (bval power) i); [|eauto]. destruct (mul_assign_correct n x y Wx Wy) as (pr & Ep & Wpr & _). unfold op_mul. rewrite Ep. cbn [bind].
      destruct (DV pr Wpr) as (q1 & r1 & E1 & W1 & V1). rewrite E1. cbn [bind]. eauto. }
    rewrite Ex. cbn [bind]. destruct (mul_assign_correct n y y Wy Wy) as (pr & Ep & Wpr & _). unfold op_mul. rewrite Ep. cbn [bind].
    destruct (DV pr Wpr) as (q1 & r1 & E1 & W1 & V1). rewrite E1. cbn [bind]. eauto.
  - exists o', b'. auto.
Qed.

(** The value the single-precision overload computes: [power = 0] is tested by no one, so the accumulator stays 1. *)
Definition powm_value (base power m : Z) : Z := if power =? 0 then 1 else base ^ power mod m.
(** The other overload returns early for the bases 0 and 1. *)
Definition powm_mixed_value (base power m : Z) : Z := if (base =? 0) || (base =? 1) then 1 else powm_value base power m.

Theorem C101_powm_exact : forall cfg n base power m, 1 <= n -> wf n base -> wf n power -> wf n m ->
  1 <= bval m -> (bval m - 1) * (bval m - 1) < modulus n ->
  yields n (powm cfg n base power m) (powm_value (bval base) (bval power) (bval m)).
Proof. intros. apply powm_spec; auto; lia. Qed.
Print Assumptions C101_powm_exact.
Theorem C101_powm_mixed_exact : forall cfg n k base power m, 1 <= n -> wf n base -> wf k power -> wf n m ->
  1 <= bval m -> (bval m - 1) * (bval m - 1) < modulus n ->
  yields n (powm_x cfg n k base power m) (powm_mixed_value (bval base) (bval power) (bval m)).
Proof.
  intros cfg n k base power m Hn Wb Wp Wm Hm Hsq. unfold powm_mixed_value.
  destruct (Z.eqb_spec (bval base) 0) as [E|E]; [apply powm_x_base0; auto|]. destruct (Z.eqb_spec (bval base) 1) as [E1|E1]; [apply powm_x_base1; auto|].
  apply powm_x_spec; auto. lia.
Qed.
Print Assumptions C101_powm_mixed_exact.
(** For every operand, a zero modulus and overflowing products included. *)
Theorem C101_powm_residue : forall cfg n base power m, 1 <= n -> wf n base -> wf n power -> wf n m ->
  exists r, powm cfg n base power m = Ok r /\ wf n r /\ (2 <= bval m -> bval r < bval m).
Proof.
  intros cfg n base power m Hn Wb Wp Wm. unfold powm. destruct (one_spec n Hn) as (o & Eo & Wo & Vo). rewrite Eo. cbn [bind].
  destruct (div_tot cfg n base m Hn Wb Wm) as (q & r & E & _ & Wr). rewrite E. cbn [bind]. pose proof (bval_bound n m Wm).
  destruct (Z.eq_dec (bval m) 1) as [M1|M1].
  - pose proof (powm_spec cfg n base power m Hn Wb Wp Wm ltac:(lia)) as P. rewrite M1 in P. destruct P as (z & Ez & Wz & Vz); [change ((1 - 1) * (1 - 1)) with 0; lia|].
    unfold powm in Ez. rewrite Eo in Ez. cbn [bind] in Ez. rewrite E in Ez. cbn [bind] in Ez. exists z. conjs; auto. lia.
  - destruct (powm_loop_residue cfg n n power m o r Hn Wp Wm Wo Wr ltac:(lia)) as (o' & r' & El & Wo' & Vo'). rewrite El. cbn [bind]. exists o'. conjs; auto. lia.
Qed.
Print Assumptions C101_powm_residue.
Theorem C101_powm_mixed_residue : forall cfg n k base power m, 1 <= n -> wf n base -> wf k power -> wf n m ->
  exists r, powm_x cfg n k base power m = Ok r /\ wf n r /\ (2 <= bval m -> bval r < bval m).
Proof.
  intros cfg n k base power m Hn Wb Wp Wm. pose proof (bval_bound n m Wm).
  destruct (Z.eq_dec (bval base) 0) as [B0|B0]; [destruct (powm_x_base0 cfg n k base power m Hn Wb B0) as (r & E & W & V); exists r; conjs; auto; lia|].
  destruct (Z.eq_dec (bval base) 1) as [B1|B1]; [destruct (powm_x_base1 cfg n k base power m Hn Wb B1) as (r & E & W & V); exists r; conjs; auto; lia|].
  destruct (Z.eq_dec (bval m) 1) as [M1|M1].
  - pose proof (powm_x_spec cfg n k base power m Hn Wb Wp Wm ltac:(lia)) as P. rewrite M1 in P. destruct P as (z & Ez & Wz & Vz); [change ((1 - 1) * (1 - 1)) with 0; lia|auto|auto|].
    exists z. conjs; auto. lia.
  - unfold powm_x. rewrite !op_eq_u32_spec by (auto; lia). cbn [bind]. replace (bval base =? 1) with false by lia. replace (bval base =? 0) with false by lia.
    destruct (one_spec n Hn) as (o & Eo & Wo & Vo). rewrite Eo. cbn [bind].
    destruct (div_tot cfg n base m Hn Wb Wm) as (q & r & E & _ & Wr). rewrite E. cbn [bind].
    destruct (powm_loop_residue cfg n k power m o r Hn Wp Wm Wo Wr ltac:(lia)) as (o' & r' & El & Wo' & Vo'). rewrite El. cbn [bind]. exists o'. conjs; auto. lia.
Qed.
Print Assumptions C101_powm_mixed_residue.
(** Moduli that divide 2^N (powers of two), and the modulus 0, which acts as 2^N: wrapping products do no harm. *)
Definition eff_modulus (n m : Z) : Z := if m =? 0 then modulus n else m.
Lemma divide_eff cfg n x m : 1 <= n -> wf n x -> wf n m ->
  exists q r, divide cfg n x m = Ok (q, r) /\ wf n r /\ bval r = bval x mod eff_modulus n (bval m).
Proof.
  intros Hn Wx Wm. unfold eff_modulus. destruct (Z.eqb_spec (bval m) 0) as [Z0|Z0].
  - destruct (divide_spec cfg n x m Hn Wx Wm) as (q & r & E & _ & Wr & _ & _ & H0). exists q, r. conjs; auto. rewrite Z.mod_small by (apply bval_bound; auto). apply H0; auto.
  - destruct (divide_pos cfg n x m Hn Wx Wm Z0) as (q & r & E & _ & W & V). exists q, r. auto.
Qed.
Lemma mod_mod_divide x a b : 0 < b -> (b | a) -> x mod a mod b = x mod b.
Proof.
  intros Hb [c Hc]. destruct (Z.eq_dec a 0) as [->|Ha]; [rewrite Zmod_0_r; reflexivity|].
  pose proof (Z.div_mod x a Ha) as D. replace (x mod b) with ((x mod a + (c * (x / a)) * b) mod b); [rewrite Z_mod_plus_full; reflexivity|]. f_equal. rewrite D at 3. rewrite Hc at 3. ring.
Qed.
Lemma mulmod_wrap cfg n x y m : 1 <= n -> wf n x -> wf n y -> wf n m -> (eff_modulus n (bval m) | modulus n) ->
  exists r, (p <- op_mul n x y ;; '(_, r) <- divide cfg n p m ;; Ok r) = Ok r /\ wf n r /\ bval r = (bval x * bval y) mod eff_modulus n (bval m).
Proof.
  intros Hn Wx Wy Wm HD. pose proof (bval_bound n _ Wm). pose proof (modulus_pos n ltac:(lia)) as MP.
  unfold op_mul. destruct (mul_assign_correct n x y Wx Wy) as (p & Ep & Wp & Vp). rewrite Ep. cbn [bind].
  destruct (divide_eff cfg n p m Hn Wp Wm) as (q & r & Ed & Wr & Vr). rewrite Ed. cbn [bind]. exists r. conjs; auto.
  rewrite Vr, Vp. apply mod_mod_divide; auto. unfold eff_modulus. destruct (Z.eqb_spec (bval m) 0); lia.
Qed.
Lemma powm_loop_wrap cfg n k power m base out b : 1 <= n -> wf k power -> wf n m -> (eff_modulus n (bval m) | modulus n) ->
  wf n out -> wf n b -> bval out = 1 -> bval b = base mod eff_modulus n (bval m) ->
  exists out' b', powm_loop cfg n k power m (out, b) = Ok (out', b') /\ wf n out' /\
    bval out' = powm_value base (bval power) (eff_modulus n (bval m)).
Proof.
  intros Hn Wp Wm HD Wo Wb Vo Vb. pose proof (bval_bound n _ Wm) as Bm. pose proof (bval_bound k _ Wp) as Bp. pose proof (modulus_pos n ltac:(lia)) as MP.
  unfold powm_loop, powm_value. rewrite filledBlocksNumber_value by auto. cbn [bind]. unfold blockBitLength.
  set (P := bval power) in *. set (M := eff_modulus n (bval m)) in *. set (f := (bit_length P + 31) / 32).
  assert (HM : 0 < M) by (unfold M, eff_modulus; destruct (Z.eqb_spec (bval m) 0); lia).
  destruct (bit_length_bounds P ltac:(lia)) as (BL1 & BL2 & BL3).
  pose proof (wf_nonneg _ _ Wp) as Hk.
  assert (Hf : 0 <= f <= k /\ P < 2 ^ (32 * f)).
  { assert (HB : bit_length P <= 32 * k) by (apply bit_length_le; [lia|exact Bp]).
    pose proof (Z.div_mod (bit_length P + 31) 32 ltac:(lia)) as Dm. pose proof (Z.mod_pos_bound (bit_length P + 31) 32 ltac:(lia)) as Mm.
    fold f in Dm. assert (HBf : bit_length P <= 32 * f) by lia. assert (0 <= f) by lia. assert (f <= k) by lia.
    split; [lia|]. apply Z.lt_le_trans with (2 ^ bit_length P); auto. apply Z.pow_le_mono_r; lia. }
  match goal with |- context [forU 0 (f * 32) ?B _] =>
  destruct (forU_spec (fun i '(o, b) => wf n o /\ wf n b /\
     bval b = base ^ (2 ^ i) mod M /\
     (if P mod 2 ^ i =? 0 then bval o = 1 else bval o = base ^ (P mod 2 ^ i) mod M)) 0 (f * 32) B (out, b))
     as ([o' b'] & E & Wo' & Wb' & Vb' & Vo') end.
  - lia.
  - split; auto. split; auto. change (2 ^ 0) with 1. rewrite Z.pow_1_r, Z.mod_1_r. auto.
  - intros i [o c] Hi (Wo1 & Wc & Vc & Vo1). rewrite getBit_spec by (auto; lia). cbn [bind]. fold P.
    destruct (mulmod_wrap cfg n c c m Hn Wc Wc Wm HD) as (c2 & Ec & Wc2 & Vc2). fold M in Vc2.
    assert (HP : exists o2, (if Z.testbit P i then p <- op_mul n o c ;; '(_, r) <- divide cfg n p m ;; Ok r else Ok o) = Ok o2 /\ wf n o2 /\
        (if P mod 2 ^ (i + 1) =? 0 then bval o2 = 1 else bval o2 = base ^ (P mod 2 ^ (i + 1)) mod M)).
    { pose proof (pow_mod_step base P i M ltac:(lia) ltac:(lia) ltac:(lia)) as PS.
      assert (Pi : 0 < 2 ^ i) by (apply Z.pow_pos_nonneg; lia).
      assert (EE : P mod 2 ^ (i + 1) = P mod 2 ^ i + 2 ^ i * Z.b2z (Z.testbit P i)).
      { rewrite Z.testbit_spec' by lia. rewrite Z.pow_add_r by lia. change (2 ^ 1) with 2. rewrite Z.rem_mul_r by lia. auto. }
      pose proof (Z.mod_pos_bound P (2 ^ i) Pi) as Bi.
      destruct (Z.testbit P i) eqn:TB.
      - destruct (mulmod_wrap cfg n o c m Hn Wo1 Wc Wm HD) as (o2 & Eo & Wo2 & Vo2). fold M in Vo2.
        exists o2. split; auto. split; auto. cbn [Z.b2z] in EE. destruct (Z.eqb_spec (P mod 2 ^ (i + 1)) 0); [lia|].
        rewrite PS, Vo2, <- Vc. destruct (Z.eqb_spec (P mod 2 ^ i) 0) as [Z0|Z0].
        + rewrite Z0, Vo1. rewrite Z.pow_0_r. rewrite Zmult_mod_idemp_l. auto.
        + rewrite Vo1. auto.
      - exists o. split; auto. split; auto. cbn [Z.b2z] in EE. rewrite Z.mul_0_r, Z.add_0_r in EE. rewrite EE. auto. }
    destruct HP as (o2 & Eo2 & Wo2 & Vo2). rewrite Eo2. cbn [bind].
    unfold op_mul in *. destruct (mul_assign n c c) as [p|] eqn:Em; cbn [bind] in Ec; [|discriminate].
    cbn [bind]. destruct (divide cfg n p m) as [[q r]|] eqn:Ed; cbn [bind] in Ec; [|discriminate].
    cbn [bind]. eexists. split; [reflexivity|]. split; auto. injection Ec as ->. split; auto. split; auto.
    rewrite Vc2, Vc. rewrite <- pow_sq by lia. auto.
  - exists o', b'. rewrite E. split; auto. split; auto. rewrite (Z.mul_comm f 32) in Vo'. rewrite (Z.mod_small P) in Vo' by lia.
    destruct (P =? 0); auto.
Qed.

Theorem C101_powm_wrapping_moduli : forall cfg n k base power m, 1 <= n -> wf n base -> wf k power -> wf n m ->
  bval m = 0 \/ (exists j, 0 <= j /\ bval m = 2 ^ j) ->
  let M := if bval m =? 0 then modulus n else bval m in
  yields n (powm_x cfg n k base power m) (powm_mixed_value (bval base) (bval power) M) /\
  (k = n -> yields n (powm cfg n base power m) (powm_value (bval base) (bval power) M)).
Proof.
  intros cfg n k base power m Hn Wb Wp Wm HM M. change M with (eff_modulus n (bval m)). clear M. pose proof (bval_bound n m Wm) as Bm.
  assert (HD : (eff_modulus n (bval m) | modulus n)).
  { unfold eff_modulus. destruct (Z.eqb_spec (bval m) 0) as [E|E]; [apply Z.divide_refl|]. destruct HM as [?|(j & Hj & Ej)]; [lia|]. rewrite Ej in Bm |- *.
    unfold modulus in *. exists (2 ^ (32 * n - j)). rewrite <- Z.pow_add_r; [f_equal; lia| |lia]. assert (j < 32 * n) by (apply (Z.pow_lt_mono_r_iff 2); lia). lia. }
  assert (Y : forall o r, wf n o -> bval o = 1 -> wf n r -> bval r = bval base mod eff_modulus n (bval m) ->
    yields n ('(output, _) <- powm_loop cfg n k power m (o, r) ;; Ok output) (powm_value (bval base) (bval power) (eff_modulus n (bval m)))).
  { intros o r Wo Vo Wr Vr. destruct (powm_loop_wrap cfg n k power m (bval base) o r Hn Wp Wm HD Wo Wr Vo Vr) as (o' & b' & E & W' & V'). rewrite E. cbn [bind]. apply yields_ok; auto. }
  destruct (one_spec n Hn) as (o & Eo & Wo & Vo). destruct (divide_eff cfg n base m Hn Wb Wm) as (q & r & E & Wr & Vr). split.
  - unfold powm_mixed_value. destruct (Z.eqb_spec (bval base) 0) as [E0|E0]; [apply powm_x_base0; auto|]. destruct (Z.eqb_spec (bval base) 1) as [E1|E1]; [apply powm_x_base1; auto|].
    unfold powm_x. rewrite !op_eq_u32_spec by (auto; lia). cbn [bind]. replace (bval base =? 1) with false by lia. replace (bval base =? 0) with false by lia.
    rewrite Eo. cbn [bind orb]. rewrite E. cbn [bind]. auto.
  - intros ->. unfold powm. rewrite Eo. cbn [bind]. rewrite E. cbn [bind]. auto.
Qed.
Print Assumptions C101_powm_wrapping_moduli.
(** Hypotheses met, the corner cases and an overflowing product (4294967291^2 does not fit one block). *)
Example C101_example : wf 1 [4294967291] /\ modulus 1 <= (bval [4294967291] - 1) * (bval [4294967291] - 1) /\
  powm cfg0 1 [4294967290] [2] [4294967291] = Ok [36] /\ 4294967290 ^ 2 mod 4294967291 = 1 /\
  powm_x cfg0 2 1 [0; 0] [5] [7; 0] = Ok [1; 0] /\ powm cfg0 2 [0; 0] [5; 0] [7; 0] = Ok [0; 0] /\ powm cfg0 2 [9; 0] [0; 0] [1; 0] = Ok [1; 0] /\
  powm cfg0 2 [9; 0] [3; 0] [0; 0] = Ok [729; 0].
Proof. split; [wfc|]. conjs; vm_compute; try reflexivity; try congruence. Qed.

(** ** C102: 64-bit built-in operands, for every operand. *)
Theorem C102_add_u64_exact : forall n t a u, 1 <= n -> wf n a -> (t = U64 \/ t = ULL) -> 0 <= u < 2 ^ 64 ->
  yields n (add_assign_u n t a u) ((bval a + u - (if bval a mod 2 ^ 32 + u <? 2 ^ 64 then 0 else 2 ^ 64)) mod modulus n).
Proof.
  intros n t a u Hn Wa Ht Hu. pose proof (add_assign_u_gen n t a u Wa) as G. unfold lost64 in G.
  replace (n =? 0) with false in G by lia. replace (znth a 0) with (bval a mod 2 ^ 32) in G.
  - apply G. destruct Ht as [-> | ->]; exact Hu.
  - rewrite (znth_digit n a 0) by (auto; lia). change (2 ^ (32 * 0)) with 1. rewrite Z.div_1_r. auto.
Qed.
Print Assumptions C102_add_u64_exact.

Definition fits64 (A u i : Z) : Prop := A mod 2 ^ (32 * (i + 1)) * u < 2 ^ (32 * i + 64).
Lemma mul_ull_loss n a u : wf n a -> 0 <= u < 2 ^ 64 ->
  exists r c S, mul_assign_u n ULL a u = Ok r /\ wf n r /\ bval r + modulus n * c + S = bval a * u /\
    ((S = 0 /\ forall j, 0 <= j < n -> fits64 (bval a) u j) \/
     exists k q w, 0 <= k < n /\ 1 <= q < 2 ^ 32 /\ S = 2 ^ (32 * k + 64) * (q + 2 ^ 32 * w) /\ ~ fits64 (bval a) u k /\ forall j, 0 <= j < k -> fits64 (bval a) u j).
Proof.
  intros Wa Hu. pose proof (wf_nonneg _ _ Wa) as Hn. pose proof (wf_len _ _ Wa) as La.
  unfold mul_assign_u. cbn [is_uint64_t].
  match goal with |- context [forU 0 n ?B _] =>
  destruct (forU_spec (fun i '(d, c) => wf n d /\ 0 <= c < 2 ^ 32 /\ (forall j, i <= j -> znth d j = znth a j) /\
      exists S, pval d i + 2 ^ (32 * i) * c + S = pval a i * u /\
    ((S = 0 /\ forall j, 0 <= j < i -> fits64 (bval a) u j) \/
     exists k q w, 0 <= k < i /\ 1 <= q < 2 ^ 32 /\ S = 2 ^ (32 * k + 64) * (q + 2 ^ 32 * w) /\ ~ fits64 (bval a) u k /\ forall j, 0 <= j < k -> fits64 (bval a) u j)) 0 n B (a, 0)) as ([r c] & E & W & C & _ & S & P & D) end.
  - lia.
  - split; auto. split; [lia|]. split; auto. exists 0. rewrite !pval_0. split; [lia|]. left. split; auto. lia.
  - intros i [d c] Hi (Wd & Hc & T & S & P & D). pose proof (wf_len _ _ Wd) as Ld.
    rewrite !aget_ok by lia. cbn [bind]. cbv zeta.
    pose proof (wf_znth n d i Wd) as Z1.
    set (x := u * znth d i + c). assert (Hx : 0 <= x < 2 ^ 96). { unfold x. split; [nia|]. assert (u * znth d i <= (2 ^ 64 - 1) * (2 ^ 32 - 1)) by (apply Z.mul_le_mono_nonneg; lia). lia. }
    rewrite (u64_small u) by lia. replace (u64 (u64 (u * znth d i) + c)) with (x mod 2 ^ 64) by (unfold u64, x; rewrite Zplus_mod_idemp_l; reflexivity).
    set (s := x mod 2 ^ 64). assert (Hs : 0 <= s < 2 ^ 64) by (apply Z.mod_pos_bound; lia). unfold blockBase.
    assert (Hm : 0 <= s mod 2 ^ 32 < 2 ^ 32) by (apply Z.mod_pos_bound; lia).
    rewrite u32_small by auto. rewrite aset_ok by lia. cbn [bind]. eexists. split; [reflexivity|].
    split; [apply wf_upd; auto|]. split; [split; [apply Z.div_pos; lia| apply Z.div_lt_upper_bound; lia]|].
    split; [intros j Hj; rewrite znth_upd_ne by lia; apply T; lia|].
    set (q := x / 2 ^ 64). assert (Hq : 0 <= q < 2 ^ 32) by (unfold q; split; [apply Z.div_pos; lia|apply Z.div_lt_upper_bound; lia]).
    pose proof (Z.div_mod x (2 ^ 64) ltac:(lia)) as Dx. fold q s in Dx. pose proof (Z.div_mod s (2 ^ 32) ltac:(lia)) as Ds.
    assert (Ex : x = u * znth a i + c) by (unfold x; rewrite T by lia; auto).
    assert (Pi : 0 < 2 ^ (32 * i)) by (apply Z.pow_pos_nonneg; lia).
    assert (P64 : 2 ^ (32 * i + 64) = 2 ^ (32 * i) * 2 ^ 64) by (apply Z.pow_add_r; lia).
    assert (PA : pval a (i + 1) * u = pval d i + 2 ^ (32 * i) * x + S). { rewrite !pval_succ by lenlia. rewrite Ex. lia. }
    exists (S + 2 ^ (32 * i + 64) * q). split.
    + rewrite PA. rewrite pval_succ by lenlia. rewrite pow32_succ by lia. rewrite pval_upd_ge by lia. rewrite znth_upd_eq by lia. rewrite P64, Dx.
      replace s with (2 ^ 32 * (s / 2 ^ 32) + s mod 2 ^ 32) at 3 by lia. ring.
    + assert (Bd : 0 <= pval d i < 2 ^ (32 * i)). { rewrite (pval_mod n) by (auto; lia). apply Z.mod_pos_bound. lia. }
      destruct D as [ [S0 D]|(k & q0 & w & Hk & Hq0 & ES & NF & D)].
      * subst S. rewrite Z.add_0_r in PA. rewrite (pval_mod n) in PA by (auto; lia). destruct (Z.eq_dec q 0) as [Q0|Q0].
        -- left. split; [rewrite Q0; lia|]. intros j Hj. destruct (Z.eq_dec j i) as [->|]; [|apply D; lia]. unfold fits64. rewrite PA, P64. nia.
        -- right. exists i, q, 0. split; [lia|]. split; [lia|]. split; [ring|]. split; [|exact D]. unfold fits64. rewrite PA, P64. nia.
      * right. exists k, q0, (w + 2 ^ (32 * (i - k - 1)) * q). split; [lia|]. split; [lia|]. split; [|auto]. rewrite ES.
        replace (32 * i + 64) with (32 * k + 64 + (32 + 32 * (i - k - 1))) by lia. rewrite (Z.pow_add_r 2 (32 * k + 64)) by lia. rewrite (Z.pow_add_r 2 32) by lia. ring.
  - rewrite E. cbn [bind]. rewrite !(pval_wf n) in P by auto. fold (modulus n) in P. exists r, c, S. auto.
Qed.
(** Right exactly when no partial product overflows 64 bits below the two top blocks. *)
Theorem C102_mul_ull_iff : forall n a u, wf n a -> 0 <= u < 2 ^ 64 ->
  (exists r, mul_assign_u n ULL a u = Ok r /\ wf n r) /\
  (yields n (mul_assign_u n ULL a u) ((bval a * u) mod modulus n) <->
   forall i, 0 <= i < n - 2 -> bval a mod 2 ^ (32 * (i + 1)) * u < 2 ^ (32 * (i + 2))).
Proof.
  intros n a u Wa Hu. destruct (mul_ull_loss n a u Wa Hu) as (r & c & S & E & W & P & D). pose proof (wf_nonneg _ _ Wa) as Hn. pose proof (modulus_pos n Hn) as MP.
  split; [eauto|]. assert (FE : forall i, fits64 (bval a) u i <-> bval a mod 2 ^ (32 * (i + 1)) * u < 2 ^ (32 * (i + 2))) by (intros i; unfold fits64; replace (32 * (i + 2)) with (32 * i + 64) by lia; tauto).
  assert (OK : (exists v, S = modulus n * v) -> yields n (mul_assign_u n ULL a u) ((bval a * u) mod modulus n)).
  { intros (v & ->). exists r. split; auto. split; auto. apply Z.mod_unique with (c + v); [left; apply bval_bound; auto|]. rewrite <- P. ring. }
  destruct D as [ [-> D]|(k & q & w & Hk & Hq & -> & NF & D)].
  - split; [intros _ i Hi; apply FE, D; lia|]. intros _. apply OK. exists 0. ring.
  - destruct (Z_lt_le_dec k (n - 2)) as [K|K].
    + split; [|intros H; exfalso; apply NF, FE, H; lia]. intros (r' & E' & _ & V'). rewrite E in E'. injection E' as <-. exfalso.
      assert (M : modulus n = 2 ^ (32 * k + 64) * 2 ^ 32 * 2 ^ (32 * (n - k - 3))).
      { unfold modulus. rewrite <- !Z.pow_add_r by lia. f_equal. lia. }
      pose proof (Z.div_mod (bval a * u) (modulus n) ltac:(lia)) as DM. rewrite <- V' in DM.
      assert (X : 2 ^ (32 * k + 64) * (q + 2 ^ 32 * w) = 2 ^ (32 * k + 64) * (2 ^ 32 * (2 ^ (32 * (n - k - 3)) * (bval a * u / modulus n - c)))).
      { replace (2 ^ (32 * k + 64) * (2 ^ 32 * (2 ^ (32 * (n - k - 3)) * (bval a * u / modulus n - c)))) with (modulus n * (bval a * u / modulus n - c)) by (rewrite M at 1; ring). lia. }
      apply Z.mul_cancel_l in X; [|apply Z.pow_nonzero; lia].
      assert (q mod 2 ^ 32 = 0) as Q0 by (apply Z.mod_divide; [lia|]; exists (2 ^ (32 * (n - k - 3)) * (bval a * u / modulus n - c) - w); lia).
      rewrite Z.mod_small in Q0; lia.
    + split; [|intros _]. * intros _ i Hi. apply FE, D. lia.
      * apply OK. exists (2 ^ (32 * (k + 2 - n)) * (q + 2 ^ 32 * w)). unfold modulus. rewrite Z.mul_assoc, <- Z.pow_add_r by lia. do 2 f_equal. lia.
Qed.
Print Assumptions C102_mul_ull_iff.
(** The losses at work: 2^32 - 1 times 2^64 - 1 at 96 bits is wrong; at 64 bits, and with a small low block, right. *)
Example C102_example : wf 3 [4294967295; 0; 0] /\ ~ (bval [4294967295; 0; 0] mod 2 ^ (32 * (0 + 1)) * 18446744073709551615 < 2 ^ (32 * (0 + 2))) /\
  mul_assign_u 3 ULL [4294967295; 0; 0] 18446744073709551615 = Ok [1; 4294967295; 0] /\
  (4294967295 * 18446744073709551615) mod modulus 3 = bval [1; 4294967295; 4294967294] /\
  mul_assign_u 3 ULL [1; 4294967295; 0] 18446744073709551615 = Ok [4294967295; 0; 0] /\
  (bval [1; 4294967295; 0] * 18446744073709551615) mod modulus 3 = bval [4294967295; 0; 0] /\
  add_assign_u 3 U64 [4294967295; 0; 0] 18446744073709551615 = Ok [4294967294; 0; 0].
Proof. split; [wfc|]. conjs; vm_compute; try reflexivity; intros; discriminate. Qed.
