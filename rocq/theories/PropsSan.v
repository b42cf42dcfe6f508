(** * PropsSan: C97 - C100, the programs of /repo/sanitize and RSA on top of the interface. *)
From Coq Require Import Znumtheory Zpow_facts.
From Verif Require Import SanModel UseModel MixFacts AeuMore AesiArith AesiFacts ProgTotal Fermat.
Open Scope Z_scope.

Ltac conjs := repeat match goal with |- _ /\ _ => split end.
Ltac wfc := apply wfb_wf; vm_compute; reflexivity.
Definition cfg0 : config := mk_config false false true.

(** ** C97: Pollard's p-1 factorisation (sanitize/unsigned/main.cpp). *)
Lemma powm_x_tot cfg n k b p m : 1 <= n -> wf n b -> wf k p -> wf n m -> tot n (powm_x cfg n k b p m).
Proof.
  intros Hn Wb Wp Wm. unfold powm_x. rewrite !op_eq_u32_spec by (auto; lia). cbn [bind].
  destruct (bval b =? 1); [exists b; auto|]. destruct (one_spec n Hn) as (o & Eo & Wo & _). destruct (bval b =? 0); [exists o; auto|]. rewrite Eo. cbn [bind].
  destruct (div_tot cfg n b m Hn Wb Wm) as (q & r & E & _ & Wr). rewrite E. cbn [bind].
  unfold powm_loop. rewrite (filledBlocksNumber_value k p Wp). cbn [bind].
  pose proof (bval_bound k p Wp) as Bp. pose proof (wf_nonneg _ _ Wp) as Hk.
  assert (HF : 0 <= (bit_length (bval p) + 31) / 32 <= k).
  { destruct (bit_length_bounds (bval p) ltac:(lia)) as [L0 _]. pose proof (bit_length_le (bval p) (32 * k) ltac:(lia) Bp) as L1.
    split; [apply Z.div_pos; lia|]. apply Z.lt_succ_r, Z.div_lt_upper_bound; lia. }
  match goal with |- context [forU 0 ?h ?B _] =>
  destruct (forU_spec (fun i (s : list Z * list Z) => wf n (fst s) /\ wf n (snd s)) 0 h B (o, r)) as ([o' b'] & E' & W' & _) end; auto.
  - unfold blockBitLength. lia.
  - unfold blockBitLength. intros i [x y] Hi [Wx Wy]. cbn [fst snd] in *.
    rewrite getBit_spec by (auto || lia). cbn [bind].
    assert (exists x', (if Z.testbit (bval p) i then p0 <- op_mul n x y;; '(_, r0) <- divide cfg n p0 m;; Ok r0 else Ok x) = Ok x' /\ wf n x') as (x' & Ex & Wx').
    { destruct (Z.testbit (bval p) i); [|eauto]. destruct (mul_assign_correct n x y Wx Wy) as (pr & Ep & Wpr & _). unfold op_mul. rewrite Ep. cbn [bind].
      destruct (div_tot cfg n pr m Hn Wpr Wm) as (q1 & r1 & E1 & _ & W1). rewrite E1. cbn [bind]. eauto. }
    rewrite Ex. cbn [bind]. destruct (mul_assign_correct n y y Wy Wy) as (pr & Ep & Wpr & _). unfold op_mul. rewrite Ep. cbn [bind].
    destruct (div_tot cfg n pr m Hn Wpr Wm) as (q1 & r1 & E1 & _ & W1). rewrite E1. cbn [bind]. eauto.
  - rewrite E'. cbn [bind]. exists o'; auto.
Qed.

(** One round after a flush: the candidate is the gcd of (base - 1 mod 2^N) and the number. *)
Lemma candidate_ok cfg fuel n junkn number base : 2 <= n -> len junkn = n -> wf n number -> wf n base -> 64 * n + 2 <= Z.of_nat fuel ->
  exists d, (b1 <- u_sub_int n junkn base 1 ;; gcd cfg fuel n b1 number) = Ok d /\
    wf n d /\ bval d = Z.gcd ((bval base - 1) mod modulus n) (bval number) /\
    op_spaceship_u32 n d 1 = Ok (if 1 <? bval d then OGreater else if bval d <? 1 then OLess else OEqual).
Proof.
  intros Hn Lj Wn Wb Hf. unfold u_sub_int. destruct (u_temp n junkn 1 Hn Lj ltac:(lia)) as (o & -> & Wo & Vo). cbn [bind].
  destruct (sub_assign_correct n base o Wb Wo) as (s & Es & Ws & Vs). unfold op_sub. rewrite Es. cbn [bind].
  destruct (gcd_correct cfg n fuel s number ltac:(lia) Ws Wn Hf) as (d & Ed & Wd & Vd). exists d. split; [exact Ed|]. split; [exact Wd|].
  split; [rewrite Vd, Vs, Vo; reflexivity|]. unfold op_spaceship_u32. rewrite compareTo_u32_spec by (auto; lia). cbn [bind]. f_equal.
  unfold zcmp. rewrite Z.gtb_ltb. destruct (Z.ltb_spec 1 (bval d)); [reflexivity|]. destruct (Z.ltb_spec (bval d) 1); reflexivity.
Qed.

Theorem C97_factorize_sound : forall cfg fuel n m limit junkn junkm number factors, 2 <= n -> 2 <= m ->
  len junkn = n -> len junkm = m -> wf n number -> Forall (fun f => 0 <= f < 2 ^ 64) factors -> 64 * n + 2 <= Z.of_nat fuel ->
  exists r, factorize cfg fuel n m limit junkn junkm number factors = Ok r /\
    match r with None => True | Some d => wf n d /\ 1 < bval d /\ (bval d | bval number) end.
Proof.
  intros cfg fuel n m limit junkn junkm number factors Hn Hm Ln Lm Wn F Hf. unfold factorize.
  destruct (u_temp n junkn 2 Hn Ln ltac:(lia)) as (base & -> & Wb & _). cbn [bind].
  destruct (u_temp m junkm 1 Hm Lm ltac:(lia)) as (power & EP & Wp & _). rewrite EP. cbn [bind]. clear EP.
  revert base power Wb Wp. induction F as [|f rest Hf0 F IH]; intros base power Wb Wp; cbn [factorize_loop].
  { exists None. auto. }
  destruct (mul_assign_u64_correct m power f Wp Hf0) as (p & -> & Wp1 & _). cbn [bind]. rewrite bitCount_spec by (auto; lia). cbn [bind].
  destruct (bit_length (bval p) >? limit); [|apply IH; auto].
  destruct (powm_x_tot cfg n m base p number ltac:(lia) Wb Wp1 Wn) as (b & -> & Wb1). cbn [bind].
  destruct (u_temp m junkm 1 Hm Lm ltac:(lia)) as (p1 & -> & Wp2 & _). cbn [bind].
  destruct (candidate_ok cfg fuel n junkn number b Hn Ln Wn Wb1 Hf) as (d & Ed & Wd & Vd & Eo).
  destruct (u_sub_int n junkn b 1) as [b1|]; cbn [bind] in *; [|discriminate]. rewrite Ed. cbn [bind]. rewrite Eo. cbn [bind].
  destruct (Z.ltb_spec 1 (bval d)) as [D|D]; [|destruct (bval d <? 1); apply IH; auto].
  exists (Some d). split; [reflexivity|]. split; [exact Wd|]. split; [exact D|]. rewrite Vd. apply Z.gcd_divide_r.
Qed.
Print Assumptions C97_factorize_sound.

(** The exponents accumulated between two flushes: the products of consecutive factors, cut when they have more
    than [limit] bits. *)
Fixpoint groups (limit power : Z) (factors : list Z) : list Z :=
  match factors with
  | [] => []
  | f :: rest => if bit_length (power * f) >? limit then (power * f) :: groups limit 1 rest else groups limit (power * f) rest
  end.
Definition product (l : list Z) : Z := fold_right Z.mul 1 l.

Theorem C97_factorize_finds_smooth_factors : forall cfg fuel n m limit junkn junkm number factors p, 2 <= n -> 2 <= m ->
  len junkn = n -> len junkm = m -> wf n number -> Forall (fun f => 0 <= f < 2 ^ 64) factors -> 64 * n + 2 <= Z.of_nat fuel ->
  1 <= limit -> limit + 64 <= 32 * m ->
  1 < bval number -> (bval number - 1) * (bval number - 1) < modulus n ->
  prime p -> p <> 2 -> (p | bval number) -> (p - 1 | product (groups limit 1 factors)) ->
  exists d, factorize cfg fuel n m limit junkn junkm number factors = Ok (Some d) /\ wf n d /\ 1 < bval d /\ (bval d | bval number).
Proof.
  intros cfg fuel n m limit junkn junkm number factors p Hn Hm Ln Lm Wn F Hf HL HLm N1 NN Pp P2 PN PD.
  destruct (C97_factorize_sound cfg fuel n m limit junkn junkm number factors Hn Hm Ln Lm Wn F Hf) as (r & Er & Hr).
  enough (X : exists d, factorize cfg fuel n m limit junkn junkm number factors = Ok (Some d)).
  { destruct X as (d & Ed). exists d. split; [exact Ed|]. rewrite Ed in Er. injection Er as <-. exact Hr. }
  clear r Er Hr. pose proof (prime_ge_2 p Pp) as GP. unfold factorize.
  destruct (u_temp n junkn 2 Hn Ln ltac:(lia)) as (base & -> & Wb & Vb). cbn [bind].
  destruct (u_temp m junkm 1 Hm Lm ltac:(lia)) as (power & EP & Wp & Vp). rewrite EP. cbn [bind]. clear EP.
  assert (ND : ~ (p | 2)). { intros D. apply prime_divisors in D; [|apply prime_2]. lia. }
  assert (H : forall factors, Forall (fun f => 0 <= f < 2 ^ 64) factors -> forall base power E pw, wf n base -> wf m power -> 0 <= E -> ~ (p - 1 | E) ->
    bval base mod p = 2 ^ E mod p -> bval power = pw -> 0 <= pw < 2 ^ limit -> (p - 1 | E * product (groups limit pw factors)) ->
    exists d, factorize_loop cfg fuel n m limit junkn junkm number base power factors = Ok (Some d)).
  2:{ eapply H with (E := 1) (pw := 1); eauto; try lia.
      - intros D. apply Z.divide_1_r in D. lia.
      - rewrite Vb. reflexivity.
      - assert (2 ^ 1 <= 2 ^ limit) by (apply Z.pow_le_mono_r; lia). lia.
      - rewrite Z.mul_1_l. exact PD. }
  clear base power Wb Wp Vb Vp F PD factors. intros factors F.
  induction F as [|f rest Hf0 F IH]; intros base power E pw Wb Wp HE NE VB VP HP HD; cbn [factorize_loop groups] in *.
  { exfalso. apply NE. unfold product in HD. cbn [fold_right] in HD. rewrite Z.mul_1_r in HD. exact HD. }
  destruct (mul_assign_u64_correct m power f Wp Hf0) as (q & -> & Wq & Vq). cbn [bind]. rewrite bitCount_spec by (auto; lia). cbn [bind].
  assert (FIT : 0 <= pw * f < modulus m).
  { split; [apply Z.mul_nonneg_nonneg; lia|]. unfold modulus. apply Z.lt_le_trans with (2 ^ limit * 2 ^ 64).
    - apply Z.mul_lt_mono_nonneg; lia.
    - rewrite <- Z.pow_add_r by lia. apply Z.pow_le_mono_r; lia. }
  rewrite VP, Z.mod_small in Vq by exact FIT. rewrite Vq. rewrite Z.gtb_ltb in *.
  destruct (Z.ltb_spec limit (bit_length (pw * f))) as [G|G].
  2:{ apply (IH base q E (pw * f)); auto. split; [lia|]. destruct (bit_length_bounds (pw * f) ltac:(lia)) as (_ & BB & _). 
      eapply Z.lt_le_trans; [exact BB|]. apply Z.pow_le_mono_r; lia. }
  assert (Q0 : pw * f <> 0). { intros Q. rewrite Q in G. change (bit_length 0) with 0 in G. lia. }
  assert (B0 : bval base <> 0). { intros Q. rewrite Q, Z.mod_0_l in VB by lia. symmetry in VB. apply Z.mod_divide in VB; [|lia]. apply P2. apply (prime_power_prime p 2 E); auto using prime_2. }
  assert (PB : yields n (powm_x cfg n m base q number) (bval base ^ (pw * f) mod bval number)).
  { destruct (Z.eq_dec (bval base) 1) as [B1|B1].
    - rewrite B1, Z.pow_1_l, Z.mod_small by lia. apply powm_x_base1; auto. lia.
    - pose proof (powm_x_spec cfg n m base q number ltac:(lia) Wb Wq Wn ltac:(lia) NN B0 B1) as Y. rewrite Vq in Y.
      replace (pw * f =? 0) with false in Y by (symmetry; apply Z.eqb_neq; exact Q0). exact Y. }
  destruct PB as (b & -> & Wb1 & Vb1). cbn [bind].
  destruct (u_temp m junkm 1 Hm Lm ltac:(lia)) as (p1 & -> & Wp1 & Vp1). cbn [bind].
  destruct (candidate_ok cfg fuel n junkn number b Hn Ln Wn Wb1 Hf) as (d & Ed & Wd & Vd & Eo).
  destruct (u_sub_int n junkn b 1) as [b1|]; cbn [bind] in *; [|discriminate]. rewrite Ed. cbn [bind]. rewrite Eo. cbn [bind].
  assert (VB' : bval b mod p = 2 ^ (E * (pw * f)) mod p).
  { destruct PN as [c PN]. rewrite Vb1. rewrite PN. rewrite (Z.mul_comm c p). assert (C0 : 0 < c) by nia.
    rewrite Z.rem_mul_r by lia. rewrite (Z.mul_comm p), Z_mod_plus_full, Z.mod_mod by lia.
    rewrite Zpower_mod, VB by lia. rewrite <- Zpower_mod by lia. rewrite <- Z.pow_mul_r by lia. reflexivity. }
  destruct (Z.ltb_spec 1 (bval d)) as [D|D]; [eauto|].
  assert (NE' : ~ (p - 1 | E * (pw * f))).
  { intros DV. apply (Z.lt_irrefl 1). apply Z.lt_le_trans with (bval d); [|exact D]. pose proof (bval_bound n b Wb1) as BB.
    assert (B1 : bval b mod p = 1). { rewrite VB'. apply fermat_unit; auto; [lia|]. apply Z.mul_nonneg_nonneg; lia. }
    assert (Bp : 1 <= bval b). { destruct (Z.eq_dec (bval b) 0) as [Q|Q]; [rewrite Q, Z.mod_0_l in B1; lia|lia]. }
    rewrite Z.mod_small in Vd by lia.
    assert (PG : (p | bval d)). { rewrite Vd. apply Z.gcd_greatest; [|exact PN]. apply Z.mod_divide; [lia|]. rewrite Zminus_mod, B1, (Z.mod_small 1) by lia. reflexivity. }
    assert (bval d <> 0). { rewrite Vd. intros Q. apply Z.gcd_eq_0_r in Q. lia. }
    pose proof (bval_bound n d Wd). apply Z.divide_pos_le in PG; lia. }
  unfold product in HD. cbn [fold_right] in HD. rewrite Z.mul_assoc in HD.
  assert (R : exists d, factorize_loop cfg fuel n m limit junkn junkm number b p1 rest = Ok (Some d)).
  { apply (IH b p1 (E * (pw * f)) 1); auto; [apply Z.mul_nonneg_nonneg; lia|]. assert (2 ^ 1 <= 2 ^ limit) by (apply Z.pow_le_mono_r; lia). lia. }
  destruct (bval d <? 1); exact R.
Qed.
Print Assumptions C97_factorize_finds_smooth_factors.
(** 299 = 13 * 23; the factors 4 and 3 give the exponent 12 = 13 - 1. *)
Example C97_example : wf 2 [299; 0] /\ groups 3 1 [4; 3] = [12] /\ (13 | bval [299; 0]) /\ (13 - 1 | product (groups 3 1 [4; 3])) /\
  factorize cfg0 130 2 3 3 [7; 7] [7; 7; 7] [299; 0] [4; 3] = Ok (Some [13; 0]) /\
  factorize cfg0 130 2 3 3 [7; 7] [7; 7; 7] [299; 0] [4] = Ok None.
Proof.
  split; [wfc|]. split; [vm_compute; reflexivity|]. split; [exists 23; vm_compute; reflexivity|]. split; [exists 1; vm_compute; reflexivity|]. split; vm_compute; reflexivity.
Qed.

(** ** C98: the extended Euclidean algorithm on signed numbers (sanitize/signed/main.cpp). *)
Lemma syields_ok n x z : syields n x z -> exists r, x = Ok r /\ swf n r /\ sval r = z. Proof. auto. Qed.
Lemma swf_abs n x : swf n x -> Z.abs (sval x) < modulus n.
Proof. intros [W _]. pose proof (bval_bound n _ W). unfold sval. destruct (sgn x); lia. Qed.

Lemma egcd_step : forall a b q r x1 y1 g, 0 <= a -> 0 < b -> a = b * q + r -> 0 <= r < b -> 0 <= q -> 0 <= g ->
  b * x1 + r * y1 = g -> x1 * y1 <= 0 -> Z.abs x1 * g <= Z.max g r -> Z.abs y1 * g <= Z.max g b -> (r = 0 -> x1 = 1 /\ y1 = 0 /\ g = b) -> (0 < r -> g <= r) -> g <= b ->
  a * y1 + b * (x1 - q * y1) = g /\ y1 * (x1 - q * y1) <= 0 /\ Z.abs y1 * g <= Z.max g b /\ Z.abs (x1 - q * y1) * g <= Z.max g a /\ Z.abs (q * y1) * g <= a.
Proof.
  intros a b q r x1 y1 g Ha Hb -> Hr Hq Hg HB HS HX HY H0 HR HG.
  split; [lia|]. split; [nia|]. split; [exact HY|].
  destruct (Z.eq_dec r 0) as [R0|R0].
  - destruct (H0 R0) as (-> & -> & ->). subst r. rewrite Z.mul_0_r. cbn [Z.abs]. split; [lia|]. nia.
  - specialize (HR ltac:(lia)). rewrite Z.max_r in HX by lia. rewrite Z.max_r in HY by lia.
    assert (QY : Z.abs (q * y1) * g <= b * q). { rewrite Z.abs_mul, (Z.abs_eq q) by lia. nia. }
    assert (T : Z.abs (x1 - q * y1) <= Z.abs x1 + Z.abs (q * y1)) by lia. split; [|lia].
    assert (g <= b * q + r) by nia. rewrite Z.max_r by lia.
    apply Z.le_trans with ((Z.abs x1 + Z.abs (q * y1)) * g); [apply Z.mul_le_mono_nonneg_r; [exact Hg|exact T]|]. rewrite Z.mul_add_distr_r. lia.
Qed.

Lemma mul_ge_le t g a : 0 <= t -> 0 < g -> t * g <= a -> t <= a.
Proof. intros. nia. Qed.
Lemma extendedGcd_spec cfg n : 2 <= n -> forall fuel a b, swf n a -> swf n b -> 0 <= sval a -> 0 <= sval b ->
  (exists k, sval a * sval b < 2 ^ k /\ 0 <= k /\ k + (if sval b <=? sval a then 2 else 3) <= Z.of_nat fuel) ->
  exists g x y, extendedGcd cfg n fuel a b = Ok (g, x, y) /\ swf n g /\ swf n x /\ swf n y /\
    sval g = Z.gcd (sval a) (sval b) /\ sval a * sval x + sval b * sval y = sval g /\ sval x * sval y <= 0 /\
    Z.abs (sval x) * sval g <= Z.max (sval g) (sval b) /\ Z.abs (sval y) * sval g <= Z.max (sval g) (sval a) /\
    (sval b = 0 -> sval x = 1 /\ sval y = 0).
Proof.
  intros Hn. induction fuel as [|fuel IH]; intros a b Wa Wb Ha Hb (k & Hk & Hk0 & Hf); [destruct (sval b <=? sval a); lia|].
  cbn [extendedGcd]. unfold s_eq_int. rewrite s_compareTo_int_correct by (auto; lia). cbn [bind].
  assert (PM : 2 ^ 64 <= modulus n) by (apply Z.pow_le_mono_r; lia).
  destruct (Z.eq_dec (sval b) 0) as [B0|B0].
  - replace (cmp_eqb (zcmp (sval b) 0) CEqual) with true by (rewrite B0; reflexivity).
    unfold s_assign_int.
    destruct (s_from_int_correct n int32 1 ltac:(lia)) as (x & -> & Cx & Vx); [reflexivity|reflexivity|cbn; lia|intros _ _; discriminate|]. cbn [bind].
    destruct (s_from_int_correct n int32 0 ltac:(lia)) as (y & -> & Cy & Vy); [reflexivity|reflexivity|cbn; lia|intros _ _; discriminate|]. cbn [bind].
    exists a, x, y. rewrite Vx, Vy, B0, Z.gcd_0_r. split; [reflexivity|]. split; [exact Wa|]. split; [apply canon_swf; exact Cx|]. split; [apply canon_swf; exact Cy|].
    cbn [Z.abs]. lia.
  - replace (cmp_eqb (zcmp (sval b) 0) CEqual) with false by (unfold zcmp; destruct (Z.gtb_spec (sval b) 0); [reflexivity|lia]).
    pose proof (swf_abs n a Wa) as Ba. pose proof (swf_abs n b Wb) as Bb.
    destruct (s_mod_correct cfg n a b ltac:(lia) Wa Wb B0) as (r & Er & Wr & Vr). change (s_mod cfg n a b) with (s_mod_assign cfg n a b). rewrite Er. cbn [bind].
    rewrite Z.sgn_pos, Z.mul_1_l, Z.rem_mod_nonneg in Vr by lia.
    assert (R : 0 <= sval r < sval b) by (rewrite Vr; apply Z.mod_pos_bound; lia).
    pose proof (Z.div_mod (sval a) (sval b) B0) as DM. rewrite <- Vr in DM. pose proof (Z.div_pos (sval a) (sval b) ltac:(lia) ltac:(lia)) as Q0.
    destruct (IH b r Wb Wr ltac:(lia) ltac:(lia)) as (g & x1 & y1 & E & Wg & Wx & Wy & Vg & BZ & SG & BX & BY & Z0).
    { replace (sval r <=? sval b) with true by (symmetry; apply Z.leb_le; lia). destruct (Z.leb_spec (sval b) (sval a)) as [Hab|Hab].
      - assert (Q1 : 1 <= sval a / sval b) by (apply Z.div_le_lower_bound; lia).
        assert (K1 : 1 <= k). { destruct (Z.eq_dec k 0) as [->|]; [|lia]. rewrite Z.pow_0_r in Hk. clear - Hk Hab Hb B0. nia. }
        exists (k - 1). split; [|lia]. apply Z.mul_lt_mono_pos_l with 2; [lia|]. rewrite <- Z.pow_succ_r by lia. replace (Z.succ (k - 1)) with k by lia.
        clear - Hk R DM Q1. nia.
      - exists k. split; [|lia]. rewrite Z.mod_small in Vr by lia. rewrite Vr, Z.mul_comm. exact Hk. }
    rewrite E. cbn [bind].
    destruct (s_div_correct cfg n a b ltac:(lia) Wa Wb B0) as (q & Eq & Wq & Vq). change (s_div cfg n a b) with (s_div_assign cfg n a b). rewrite Eq. cbn [bind].
    rewrite Z.quot_div_nonneg in Vq by lia.
    assert (G0 : 0 <= sval g) by (rewrite Vg; apply Z.gcd_nonneg).
    assert (Gb : sval g <= sval b) by (rewrite Vg; apply Z.divide_pos_le; [lia|apply Z.gcd_divide_l]).
    assert (Gp : 0 < sval g). { rewrite Vg. pose proof (Z.gcd_nonneg (sval b) (sval r)). destruct (Z.eq_dec (Z.gcd (sval b) (sval r)) 0) as [X|X]; [apply Z.gcd_eq_0_l in X; lia|lia]. }
    destruct (egcd_step (sval a) (sval b) (sval a / sval b) (sval r) (sval x1) (sval y1) (sval g)) as (S1 & S2 & S3 & S4 & S5); auto; try lia.
    { intros R0. rewrite Vg. apply Z.divide_pos_le; [lia|apply Z.gcd_divide_r]. }
    assert (FQ : Z.abs (sval q * sval y1) < modulus n). { rewrite Vq. apply Z.le_lt_trans with (sval a); [|lia]. apply mul_ge_le with (sval g); auto. apply Z.abs_nonneg. }
    destruct (s_mul_correct n q y1 Wq Wy FQ) as (p & Ep & Wp & Vp). change (s_mul n q y1) with (s_mul_assign n q y1). rewrite Ep. cbn [bind].
    assert (FS : Z.abs (sval x1 - sval p) < modulus n).
    { rewrite Vp, Vq. apply Z.le_lt_trans with (Z.max (sval g) (sval a)); [|clear - Gb Ba Bb Ha Hb; lia]. apply mul_ge_le with (sval g); auto. apply Z.abs_nonneg. }
    destruct (s_sub_correct cfg n x1 p Wx Wp FS) as (y & Ey & Wy' & Vy). change (s_sub cfg n x1 p) with (s_sub_assign cfg n x1 p). rewrite Ey. cbn [bind].
    exists g, y1, y. rewrite Vp, Vq in Vy. rewrite Vy. split; [reflexivity|]. split; [exact Wg|]. split; [exact Wy|]. split; [exact Wy'|].
    split; [rewrite Vg, Vr, Z.gcd_comm, Z.gcd_mod by lia; apply Z.gcd_comm|]. split; [exact S1|]. split; [exact S2|]. split; [exact S3|]. split; [exact S4|]. intros X; lia.
Qed.


Theorem C98_extended_gcd : forall cfg n fuel a b, 2 <= n -> swf n a -> swf n b -> 0 <= sval a -> 0 <= sval b -> 64 * n + 3 <= Z.of_nat fuel ->
  exists g x y, extendedGcd cfg n fuel a b = Ok (g, x, y) /\ swf n g /\ swf n x /\ swf n y /\
    sval g = Z.gcd (sval a) (sval b) /\ sval a * sval x + sval b * sval y = sval g /\
    Z.abs (sval x) * sval g <= Z.max (sval g) (sval b) /\ Z.abs (sval y) * sval g <= Z.max (sval g) (sval a).
Proof.
  intros cfg n fuel a b Hn Wa Wb Ha Hb Hf.
  destruct (extendedGcd_spec cfg n Hn fuel a b Wa Wb Ha Hb) as (g & x & y & E & Wg & Wx & Wy & Vg & BZ & _ & BX & BY & _).
  - exists (64 * n). pose proof (swf_abs n a Wa). pose proof (swf_abs n b Wb). split; [|split; [lia|destruct (sval b <=? sval a); lia] ].
    replace (64 * n) with (32 * n + 32 * n) by lia. rewrite Z.pow_add_r by lia. unfold modulus in *. apply Z.mul_lt_mono_nonneg; lia.
  - exists g, x, y. auto 10.
Qed.
Print Assumptions C98_extended_gcd.

Lemma s_ne_ok cfg n a b : 1 <= n -> swf n a -> swf n b -> s_ne cfg n n a b = Ok (negb (sval a =? sval b)).
Proof.
  intros Hn Wa Wb. unfold s_ne, s_eq. rewrite Z.eqb_refl, s_compareTo_correct by auto. cbn [bind]. do 2 f_equal.
  destruct (zcmp_cases (sval a) (sval b)) as [[-> C]|[[-> C]|[-> C]]]; cbn; lia.
Qed.
Lemma neg_if n (x : aesi) (b : bool) : swf n x -> exists y, (if b then s_neg x else Ok x) = Ok y /\ swf n y /\ sval y = (if b then - sval x else sval x).
Proof.
  intros W. destruct b; [|exists x; auto]. exists (s_inverse x). split; [reflexivity|]. split; [apply s_inverse_swf; auto|apply s_inverse_val].
Qed.
Lemma isNegative_ok n x : swf n x -> s_isNegative x = (sval x <? 0).
Proof. intros [W N]. pose proof (bval_bound n _ W). unfold s_isNegative, sval. destruct (sgn x) eqn:S; cbn [sign_eqb]; symmetry; try (apply Z.ltb_ge; lia). apply Z.ltb_lt. specialize (N ltac:(discriminate)). lia. Qed.
(** The program's own check never fails, for operands of any signs, whenever their least common multiple fits. *)
Theorem C98_bezout_check_passes : forall cfg n fuel a b, 2 <= n -> swf n a -> swf n b -> 64 * n + 3 <= Z.of_nat fuel ->
  Z.lcm (sval a) (sval b) < modulus n -> checkBezout cfg n fuel a b = Ok true.
Proof.
  intros cfg n fuel a b Hn Wa Wb Hf HL. unfold checkBezout. rewrite !(isNegative_ok n) by auto.
  destruct (neg_if n a (sval a <? 0) Wa) as (A & -> & WA & VA). cbn [bind]. destruct (neg_if n b (sval b <? 0) Wb) as (B & -> & WB & VB). cbn [bind].
  assert (AA : sval A = Z.abs (sval a)) by (rewrite VA; destruct (Z.ltb_spec (sval a) 0); lia).
  assert (BB : sval B = Z.abs (sval b)) by (rewrite VB; destruct (Z.ltb_spec (sval b) 0); lia).
  destruct (C98_extended_gcd cfg n fuel A B Hn WA WB ltac:(lia) ltac:(lia) Hf) as (g & x & y & -> & Wg & Wx & Wy & Vg & BZ & BX & BY). cbn [bind].
  destruct (neg_if n x (sval a <? 0) Wx) as (X & -> & WX & VX). cbn [bind]. destruct (neg_if n y (sval b <? 0) Wy) as (Y & -> & WY & VY). cbn [bind].
  assert (PX : sval a * sval X = sval A * sval x) by (rewrite VX, VA; destruct (sval a <? 0); lia).
  assert (PY : sval b * sval Y = sval B * sval y) by (rewrite VY, VB; destruct (sval b <? 0); lia).
  rewrite AA, BB in *. rewrite Z.gcd_abs_l, Z.gcd_abs_r in Vg. pose proof (swf_abs n a Wa) as Ba. pose proof (swf_abs n b Wb) as Bb. pose proof (swf_abs n g Wg) as Bg.
  assert (G0 : 0 <= sval g) by (rewrite Vg; apply Z.gcd_nonneg).
  assert (LG : Z.lcm (sval a) (sval b) * sval g = Z.abs (sval a) * Z.abs (sval b)).
  { rewrite <- Z.abs_mul. unfold Z.lcm. rewrite Vg. rewrite <- (Z.abs_eq (Z.gcd (sval a) (sval b))) at 2 by apply Z.gcd_nonneg. rewrite <- Z.abs_mul.
    destruct (Z.eq_dec (Z.gcd (sval a) (sval b)) 0) as [Q|Q]; [apply Z.gcd_eq_0 in Q; destruct Q as [-> ->]; reflexivity|].
    rewrite <- Z.mul_assoc. f_equal. f_equal. rewrite Z.mul_comm. symmetry. apply Z_div_exact_full_2; auto. apply Z.mod_divide; auto. apply Z.gcd_divide_r. }
  assert (FX : Z.abs (sval a * sval X) < modulus n).
  { rewrite PX, Z.abs_mul, Z.abs_involutive. destruct (Z.eq_dec (sval g) 0) as [Q|Q].
    - rewrite Q in Vg. symmetry in Vg. apply Z.gcd_eq_0_l in Vg. rewrite Vg. cbn. lia.
    - apply Z.mul_lt_mono_pos_r with (sval g); [lia|]. rewrite <- Z.mul_assoc. apply Z.le_lt_trans with (Z.abs (sval a) * Z.max (sval g) (Z.abs (sval b))); [apply Z.mul_le_mono_nonneg_l; lia|].
      destruct (Z.max_spec (sval g) (Z.abs (sval b))) as [[_ ->]|[_ ->]]; [rewrite <- LG|]; apply Z.mul_lt_mono_pos_r; lia. }
  assert (FY : Z.abs (sval b * sval Y) < modulus n).
  { rewrite PY, Z.abs_mul, Z.abs_involutive. destruct (Z.eq_dec (sval g) 0) as [Q|Q].
    - rewrite Q in Vg. symmetry in Vg. apply Z.gcd_eq_0_r in Vg. rewrite Vg. cbn. lia.
    - apply Z.mul_lt_mono_pos_r with (sval g); [lia|]. rewrite <- Z.mul_assoc. apply Z.le_lt_trans with (Z.abs (sval b) * Z.max (sval g) (Z.abs (sval a))); [apply Z.mul_le_mono_nonneg_l; lia|].
      destruct (Z.max_spec (sval g) (Z.abs (sval a))) as [[_ ->]|[_ ->]]; [rewrite (Z.mul_comm (Z.abs (sval b))), <- LG|]; apply Z.mul_lt_mono_pos_r; lia. }
  destruct (s_mul_correct n a X Wa WX FX) as (p & Ep & Wp & Vp). change (s_mul n a X) with (s_mul_assign n a X). rewrite Ep. cbn [bind].
  destruct (s_mul_correct n b Y Wb WY FY) as (q & Eq & Wq & Vq). change (s_mul n b Y) with (s_mul_assign n b Y). rewrite Eq. cbn [bind].
  assert (S : sval p + sval q = sval g) by (rewrite Vp, Vq, PX, PY; exact BZ).
  destruct (s_add_correct cfg n p q Wp Wq) as (s & Es & Ws & Vs); [rewrite S; exact Bg|]. change (s_add cfg n p q) with (s_add_assign cfg n p q). rewrite Es. cbn [bind].
  rewrite s_ne_ok by (auto; lia). cbn [bind]. rewrite Vs, S, Z.eqb_refl. reflexivity.
Qed.
Print Assumptions C98_bezout_check_passes.
(** Without the condition on the least common multiple the check does fail: a = 2^32 + 1, b = 2^33 in 64 bits
    (b * y = 2^64 wraps to zero). *)
Theorem C98_lcm_condition_needed : swf 2 (mk_aesi SPos [1; 1]) /\ swf 2 (mk_aesi SPos [0; 2]) /\
  checkBezout cfg0 2 131 (mk_aesi SPos [1; 1]) (mk_aesi SPos [0; 2]) = Ok false.
Proof. split; [split; [wfc|intros _; vm_compute; discriminate]|]. split; [split; [wfc|intros _; vm_compute; discriminate]|]. vm_compute. reflexivity. Qed.
Print Assumptions C98_lcm_condition_needed.
Example C98_example : swf 2 (mk_aesi SNeg [240; 0]) /\ swf 2 (mk_aesi SPos [46; 0]) /\ Z.lcm (-240) 46 < modulus 2 /\
  checkBezout cfg0 2 131 (mk_aesi SNeg [240; 0]) (mk_aesi SPos [46; 0]) = Ok true /\
  extendedGcd cfg0 2 131 (mk_aesi SPos [240; 0]) (mk_aesi SPos [46; 0]) = Ok (mk_aesi SPos [2; 0], mk_aesi SNeg [9; 0], mk_aesi SPos [47; 0]).
Proof. split; [split; [wfc|intros _; vm_compute; discriminate]|]. split; [split; [wfc|intros _; vm_compute; discriminate]|]. split; [vm_compute; reflexivity|]. split; vm_compute; reflexivity. Qed.

(** ** C99: the other self-checks of sanitize/signed/main.cpp never fail. *)
Lemma s_power2_in cfg n k : 1 <= n -> 0 <= k < 32 * n -> exists r, s_power2 cfg n k = Ok r /\ canon n r /\ sval r = 2 ^ k.
Proof.
  intros Hn Hk. unfold s_power2. pose proof (setBit_spec cfg n (zeros n) k true (wf_zeros n ltac:(lia)) ltac:(lia)) as S. rewrite bval_zeros in S.
  destruct S as (b & E & W & V). unfold power2, aeu_zero. rewrite E. cbn [bind]. unfold put_bit in V. rewrite Z.setbit_spec', Z.lor_0_l in V.
  destruct (s_fix_zero_spec n (mk_aesi SPos b) W) as (r & Er & Sr & Vr & _). exists r. rewrite Er. split; auto.
  split; [apply (fix_zero_canon n (mk_aesi SPos b)); auto; discriminate|]. rewrite Vr. unfold sval; cbn. auto.
Qed.
Theorem C99_square_root_check : forall cfg n fuel p, 1 <= n -> 0 <= p < 32 * n -> 16 * n + 3 <= Z.of_nat fuel ->
  checkRoot cfg n fuel p = Ok (Z.even p).
Proof.
  intros cfg n fuel p Hn Hp Hf. unfold checkRoot. destruct (s_power2_in cfg n p Hn Hp) as (r & -> & Cr & Vr). cbn [bind].
  destruct (s_squareRoot_correct cfg n fuel r Hn (canon_swf n r Cr) Hf) as (t & -> & Ct & Vt). cbn [bind]. rewrite Vr in Vt.
  assert (P0 : 0 < 2 ^ p) by (apply Z.pow_pos_nonneg; lia). rewrite Z.gtb_ltb in Vt. replace (0 <? 2 ^ p) with true in Vt by (symmetry; apply Z.ltb_lt; lia).
  pose proof (Z.sqrt_spec (2 ^ p) ltac:(lia)) as [S1 S2]. pose proof (Z.sqrt_nonneg (2 ^ p)) as S0. assert (PM : 2 ^ p < modulus n) by (apply Z.pow_lt_mono_r; lia).
  destruct (s_mul_correct n t t (canon_swf n t Ct) (canon_swf n t Ct)) as (s & Es & Ws & Vs); [rewrite Vt; lia|].
  change (s_mul n t t) with (s_mul_assign n t t). rewrite Es. cbn [bind]. rewrite s_ne_ok by (auto using canon_swf). cbn [bind]. rewrite negb_involutive. f_equal.
  rewrite Vs, Vt, Vr. destruct (Z.even p) eqn:EV.
  - apply Z.eqb_eq. apply Z.even_spec in EV. destruct EV as [h ->]. replace (2 ^ (2 * h)) with (2 ^ h * 2 ^ h) by (rewrite <- Z.pow_add_r by lia; f_equal; lia).
    rewrite Z.sqrt_square by (apply Z.pow_nonneg; lia). reflexivity.
  - apply Z.eqb_neq. intros Q. assert (OD : Z.odd p = true) by (rewrite <- Z.negb_even, EV; reflexivity). apply Z.odd_spec in OD. destruct OD as [h ->].
    set (s0 := Z.sqrt (2 ^ (2 * h + 1))) in *. assert (H2 : 2 ^ (2 * h + 1) = 2 * (2 ^ h * 2 ^ h)) by (rewrite <- Z.pow_add_r, <- Z.pow_succ_r by lia; f_equal; lia).
    rewrite H2 in Q. assert (I : forall k, 0 <= k -> forall s, 0 <= s -> s * s <> 2 * (2 ^ k * 2 ^ k)).
    { clear. intros k Hk. pattern k. apply natlike_ind; [| |exact Hk]; clear k Hk.
      - intros s Hs. rewrite Z.pow_0_r. intros X. assert (s = 0 \/ s = 1 \/ 2 <= s) as [->|[->|T]] by lia; [discriminate X|discriminate X|].
        assert (2 * 2 <= s * s) by (apply Z.mul_le_mono_nonneg; lia). lia.
      - intros k Hk IH s Hs X. rewrite Z.pow_succ_r in X by lia. destruct (Z.Even_or_Odd s) as [[j ->]|[j ->]].
        + apply (IH j); [lia|]. apply Z.mul_reg_l with 4; [lia|]. replace (4 * (j * j)) with (2 * j * (2 * j)) by ring. rewrite X. ring.
        + apply (f_equal Z.odd) in X. rewrite !Z.odd_mul, Z.odd_add, Z.odd_mul in X. cbn in X. discriminate. }
    apply (I h ltac:(lia) s0); auto.
Qed.
Print Assumptions C99_square_root_check.
Theorem C99_divide_check : forall cfg n a b, 1 <= n -> swf n a -> swf n b -> sval b <> 0 -> checkDivide cfg n a b = Ok true.
Proof.
  intros cfg n a b Hn Wa Wb B0. unfold checkDivide. pose proof (swf_abs n a Wa) as Ba. pose proof (swf_abs n b Wb) as Bb.
  destruct (s_divide_correct cfg n a b (s_default n) (s_default n) Hn Wa Wb) as (q & r & -> & Wq & Wr & Vq & Vr); auto; try (apply wf_zeros; lia). cbn [bind].
  pose proof (Z.quot_rem' (sval a) (sval b)) as QR. pose proof (Z.quot_abs (sval a) (sval b) B0) as QA. pose proof (Z.mul_quot_le (Z.abs (sval a)) (Z.abs (sval b)) ltac:(lia) ltac:(lia)) as ML.
  assert (FQ : Z.abs (sval q * sval b) < modulus n) by (rewrite Z.abs_mul, Vq, <- QA, Z.mul_comm; eapply Z.le_lt_trans; [apply ML|auto]).
  destruct (s_mul_correct n q b Wq Wb FQ) as (p & Ep & Wp & Vp). change (s_mul n q b) with (s_mul_assign n q b). rewrite Ep. cbn [bind].
  assert (S : sval p + sval r = sval a) by (rewrite Vp, Vr, Vq; lia).
  destruct (s_add_correct cfg n p r Wp Wr) as (s & Es & Ws & Vs); [rewrite S; exact Ba|]. change (s_add cfg n p r) with (s_add_assign cfg n p r). rewrite Es. cbn [bind].
  rewrite s_ne_ok by auto. cbn [bind]. rewrite Vs, S, Z.eqb_refl. reflexivity.
Qed.
Print Assumptions C99_divide_check.
Theorem C99_across_zero_check : forall n, 2 <= n -> checkAcrossZero n = Ok true.
Proof.
  intros n Hn. unfold checkAcrossZero. assert (PM : 2 ^ 64 <= modulus n) by (apply Z.pow_le_mono_r; lia).
  destruct (s_from_int_correct n int32 (-1) ltac:(lia)) as (v & -> & Cv & Vv); [reflexivity|reflexivity|cbn; lia|intros _ _; discriminate|]. cbn [bind].
  destruct (s_inc_correct n v ltac:(lia) (canon_swf n v Cv)) as (w & -> & Ww & Vw); [rewrite Vv; cbn; lia|]. cbn [bind]. rewrite Vv in Vw. unfold s_eq_int. rewrite s_compareTo_int_correct by (auto; lia). cbn [bind]. rewrite Vw.
  destruct (s_dec_correct n w ltac:(lia) Ww) as (u & -> & Wu & Vu); [rewrite Vw; cbn; lia|]. cbn [bind]. rewrite s_compareTo_int_correct by (auto; lia). cbn [bind]. rewrite Vu, Vw. reflexivity.
Qed.
Print Assumptions C99_across_zero_check.
Theorem C99_prime_product : forall cfg n slice, 2 <= n -> Forall (fun p => 0 < p < 2 ^ 32) slice -> product slice < modulus n ->
  syields n (primeProduct cfg n slice) (product slice).
Proof.
  intros cfg n slice Hn F H. unfold primeProduct.
  destruct (s_from_int_correct n int32 1 ltac:(lia)) as (v & -> & Cv & Vv); [reflexivity|reflexivity|cbn; lia|intros _ _; discriminate|]. cbn [bind].
  assert (PP : forall l, Forall (fun p => 0 < p < 2 ^ 32) l -> 1 <= product l). { unfold product. induction 1; cbn [fold_right]; nia. }
  enough (G : forall l acc, Forall (fun p => 0 < p < 2 ^ 32) l -> swf n acc -> 1 <= sval acc -> sval acc * product l < modulus n ->
    syields n (fold_left (fun r p => r0 <- r ;; s_mul_int cfg n uint32 r0 p) l (Ok acc)) (sval acc * product l)).
  { specialize (G slice v F (canon_swf n v Cv)). rewrite Vv, Z.mul_1_l in G. apply G; lia. }
  clear F H Cv Vv v slice. induction l as [|p l IH]; intros acc F Wa A1 H; cbn [fold_left].
  - exists acc. split; [reflexivity|]. split; [exact Wa|]. unfold product. cbn [fold_right]. lia.
  - inversion F as [|? ? Hp F']; subst. specialize (PP l F'). assert (E : product (p :: l) = p * product l) by reflexivity. rewrite E in *. cbn [bind].
    assert (K : 1 <= sval acc * p) by nia.
    destruct (s_mul_int_correct cfg n uint32 acc p Wa) as (r & Er & Wr & Vr); try reflexivity.
    + unfold in_ity, ity_min, ity_max. cbn. apply andb_true_intro. split; apply Z.leb_le; lia.
    + discriminate.
    + right. lia.
    + rewrite Z.abs_eq by lia. clear - H K PP. nia.
    + unfold s_mul_int. rewrite Er. replace (sval acc * (p * product l)) with (sval r * product l) by (rewrite Vr; ring). apply IH; auto; [lia|]. rewrite Vr. lia.
Qed.
Print Assumptions C99_prime_product.
Example C99_example : checkRoot cfg0 2 40 20 = Ok true /\ checkRoot cfg0 2 40 21 = Ok false /\ checkDivide cfg0 2 (mk_aesi SPos [1000; 0]) (mk_aesi SNeg [337; 0]) = Ok true /\
  primeProduct cfg0 3 [4294967291; 4294967279; 7] = Ok (mk_aesi SPos [595; 4294967142; 6]).
Proof. conjs; vm_compute; reflexivity. Qed.

(** ** C100: RSA. *)
Lemma rsa_prime p x k : prime p -> 0 <= x -> 0 <= k -> x ^ (1 + k * (p - 1)) mod p = x mod p.
Proof.
  intros Pp Hx Hk. pose proof (prime_ge_2 p Pp). rewrite Z.pow_add_r, Z.pow_1_r by nia. destruct (Zdivide_dec p x) as [D|D].
  - rewrite Z.mul_mod by lia. apply Z.mod_divide in D; [|lia]. rewrite D, Z.mul_0_l, Z.mod_0_l by lia. reflexivity.
  - rewrite Z.mul_mod, fermat_unit, Z.mul_1_r, Z.mod_mod by (auto; try lia; try nia; exists k; reflexivity). reflexivity.
Qed.
Lemma rsa_number p q x k : prime p -> prime q -> p <> q -> 0 <= x < p * q -> 0 <= k -> x ^ (1 + k * ((p - 1) * (q - 1))) mod (p * q) = x.
Proof.
  intros Pp Pq N Hx Hk. pose proof (prime_ge_2 p Pp). pose proof (prime_ge_2 q Pq).
  assert (Dp : (p | x ^ (1 + k * ((p - 1) * (q - 1))) - x)).
  { apply Z.mod_divide; [lia|]. replace (k * ((p - 1) * (q - 1))) with (k * (q - 1) * (p - 1)) by ring. rewrite Zminus_mod, rsa_prime, Z.sub_diag, Z.mod_0_l by (auto; nia). reflexivity. }
  assert (Dq : (q | x ^ (1 + k * ((p - 1) * (q - 1))) - x)).
  { apply Z.mod_divide; [lia|]. rewrite Z.mul_assoc. rewrite Zminus_mod, rsa_prime, Z.sub_diag, Z.mod_0_l by (auto; nia). reflexivity. }
  assert (D : (p * q | x ^ (1 + k * ((p - 1) * (q - 1))) - x)).
  { destruct Dp as [c Dp]. rewrite Dp in Dq |- *. rewrite Z.mul_comm in Dq. apply Gauss in Dq.
    - destruct Dq as [c' ->]. exists c'. ring.
    - apply prime_rel_prime; auto. intros DD. apply prime_divisors in DD; auto. lia. }
  destruct D as [c D]. replace (x ^ (1 + k * ((p - 1) * (q - 1)))) with (x + c * (p * q)) by lia. rewrite Z_mod_plus_full. apply Z.mod_small. lia.
Qed.
(** With distinct primes p and q, m = p q, phi = (p-1)(q-1) and e coprime to phi, the private exponent computed from the
    extended gcd decrypts every message, as long as (m-1)^2 fits. *)
Theorem C100_rsa : forall cfg fuel n p q e phi m msg, 1 <= n -> wf n e -> wf n phi -> wf n m -> wf n msg ->
  prime p -> prime q -> p <> q -> bval m = p * q -> bval phi = (p - 1) * (q - 1) -> Z.gcd (bval e) (bval phi) = 1 ->
  bval msg < bval m -> (bval m - 1) * (bval m - 1) < modulus n -> 64 * n + 2 <= Z.of_nat fuel ->
  rsa_roundtrip cfg fuel n e phi m msg = Ok msg.
Proof.
  intros cfg fuel n p q e phi m msg Hn We Wphi Wm Wmsg Pp Pq N Vm Vphi G LM MM Hf.
  pose proof (prime_ge_2 p Pp) as P2. pose proof (prime_ge_2 q Pq) as Q2. unfold rsa_roundtrip, rsa_private.
  pose proof (bval_bound n e We) as Be. pose proof (bval_bound n msg Wmsg) as Bmsg.
  assert (PH : 1 < bval phi < bval m) by (rewrite Vphi, Vm; clear - P2 Q2 N; nia).
  assert (HALF : bval phi < 2 ^ (32 * n - 1)).
  { destruct (Z_lt_le_dec (bval phi) (2 ^ (32 * n - 1))) as [|GE]; auto. exfalso. assert (T : 2 ^ (32 * n - 1) <= bval m - 1) by lia.
    assert (SQ : 2 ^ (32 * n - 1) * 2 ^ (32 * n - 1) <= (bval m - 1) * (bval m - 1)) by (apply Z.mul_le_mono_nonneg; auto; apply Z.pow_nonneg; lia).
    rewrite <- Z.pow_add_r in SQ by lia. assert (modulus n <= 2 ^ (32 * n - 1 + (32 * n - 1))) by (apply Z.pow_le_mono_r; lia). lia. }
  assert (M2 : modulus n = 2 * 2 ^ (32 * n - 1)) by (unfold modulus; rewrite <- Z.pow_succ_r by lia; f_equal; lia).
  destruct (egcd_exact cfg n fuel e phi Hn We Wphi Hf) as (g & x & y & X & Y & -> & _ & [Wx Vx] & _ & BZ & BD). cbn [bind]. rewrite G in *.
  assert (E0 : bval e <> 0) by (intros Q; rewrite Q, Z.gcd_0_l in G; lia). destruct (BD E0 ltac:(lia)) as [BX _]. rewrite Z.mul_1_r in BX. clear BD.
  rewrite getBit_spec by (auto; lia). cbn [bind].
  assert (TB : Z.testbit (bval x) (32 * n - 1) = (X <? 0)).
  { pose proof (bval_bound n x Wx) as Bx. rewrite Z.testbit_odd, Z.shiftr_div_pow2 by lia. destruct (Z.ltb_spec X 0) as [NX|NX].
    - assert (Vx' : bval x = modulus n + X) by (rewrite Vx; rewrite <- (Z_mod_plus_full X 1), Z.mod_small; lia).
      rewrite Vx'. replace ((modulus n + X) / 2 ^ (32 * n - 1)) with 1; [reflexivity|]. apply Z.div_unique with (modulus n + X - 2 ^ (32 * n - 1)); lia.
    - rewrite Z.mod_small in Vx by lia. rewrite Vx, Z.div_small by lia. reflexivity. }
  rewrite TB. set (d0 := if X <? 0 then X + bval phi else X).
  assert (D : exists d, (if X <? 0 then op_add n x phi else Ok x) = Ok d /\ wf n d /\ bval d = d0).
  { subst d0. destruct (Z.ltb_spec X 0) as [NX|NX].
    - destruct (add_assign_correct n x phi Wx Wphi) as (d & Ed & Wd & Vd). exists d. split; [exact Ed|]. split; [exact Wd|].
      rewrite Vd, Vx, Zplus_mod_idemp_l. apply Z.mod_small. lia.
    - exists x. split; [reflexivity|]. split; [exact Wx|]. rewrite Vx. apply Z.mod_small. lia. }
  destruct D as (d & -> & Wd & Vd). cbn [bind].
  assert (D0 : 0 <= d0) by (subst d0; destruct (Z.ltb_spec X 0); lia).
  assert (K : exists k, 0 <= k /\ bval e * d0 = 1 + k * bval phi).
  { assert (KX : exists k, bval e * d0 = 1 + k * bval phi).
    { subst d0. destruct (X <? 0); [exists (bval e - Y)|exists (- Y)]; lia. }
    destruct KX as [k KX]. exists k. split; [|exact KX]. assert (0 <= bval e * d0) by (apply Z.mul_nonneg_nonneg; lia). clear - KX H PH. nia. }
  destruct K as (k & K0 & K).
  pose proof (powm_spec cfg n msg e m Hn Wmsg We Wm ltac:(lia) MM) as Y1. replace (bval e =? 0) with false in Y1 by (symmetry; apply Z.eqb_neq; exact E0).
  destruct Y1 as (c & -> & Wc & Vc). cbn [bind].
  pose proof (powm_spec cfg n c d m Hn Wc Wd Wm ltac:(lia) MM) as Y2. rewrite Vd in Y2.
  assert (DN : d0 <> 0). { intros Q. rewrite Q, Z.mul_0_r in K. clear - K K0 PH. nia. }
  replace (d0 =? 0) with false in Y2 by (symmetry; apply Z.eqb_neq; exact DN).
  destruct Y2 as (r & -> & Wr & Vr). f_equal. apply (bval_inj n); auto. rewrite Vr, Vc.
  rewrite <- Zpower_mod by lia. rewrite <- Z.pow_mul_r by lia. rewrite K, Vphi, Vm. apply rsa_number; auto. lia.
Qed.
Print Assumptions C100_rsa.
(** p = 61, q = 53, e = 17: the private exponent is 2753. *)
Example C100_example : wf 2 [3233; 0] /\ bval [3233; 0] = 61 * 53 /\ bval [3120; 0] = (61 - 1) * (53 - 1) /\ Z.gcd 17 3120 = 1 /\
  rsa_private cfg0 130 2 [17; 0] [3120; 0] = Ok [2753; 0] /\ powm cfg0 2 [65; 0] [17; 0] [3233; 0] = Ok [2790; 0] /\
  rsa_roundtrip cfg0 130 2 [17; 0] [3120; 0] [3233; 0] [65; 0] = Ok [65; 0].
Proof. split; [wfc|]. conjs; vm_compute; reflexivity. Qed.
