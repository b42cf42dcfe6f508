(** * PropsUse4: C174 to C176, squares, Fermat's factorisation, Chinese remainders and RSA by halves, with the public interface. *)
From Coq Require Import Znumtheory ZifyBool.
From Verif Require Import Spec Lib UseModel3 AeuModel AeuArith AeuAccess AeuDiv AeuFacts MixFacts Fermat PropsUse3.
Open Scope Z_scope.


Lemma sqrt_is_square v : 0 <= v -> (Z.sqrt v * Z.sqrt v = v <-> exists r, r * r = v).
Proof.
  intros H. split; [intros E; eauto|]. intros [r E]. assert (v = Z.abs r * Z.abs r) as -> by (rewrite <- Z.abs_mul; lia).
  rewrite Z.sqrt_square by lia. reflexivity.
Qed.
Lemma sqrt_square_below v : 0 <= v -> 0 <= Z.sqrt v * Z.sqrt v <= v.
Proof. intros H. pose proof (Z.sqrt_spec v H). cbv zeta in *. pose proof (Z.sqrt_nonneg v). nia. Qed.
Lemma sqrt_test cfg n fuel x : 1 <= n -> wf n x -> 16 * n + 3 <= Z.of_nat fuel ->
  exists r q e, squareRoot cfg fuel n x = Ok r /\ op_mul n r r = Ok q /\ op_eq cfg n n q x = Ok e /\ wf n r /\ bval r = Z.sqrt (bval x) /\
    (e = true <-> bval r * bval r = bval x).
Proof.
  intros Hn Wx Hf. pose proof (bval_bound n x Wx) as Bx. destruct (squareRoot_correct cfg n fuel x Hn Wx Hf) as (r & E1 & Wr & Vr).
  destruct (mul_assign_correct n r r Wr Wr) as (q & E2 & Wq & Vq). exists r, q. rewrite op_eq_cross by auto. eexists. conjs; eauto.
  pose proof (sqrt_square_below (bval x) ltac:(lia)) as SB. rewrite Vr in Vq |- *. rewrite Z.mod_small in Vq by lia. rewrite Vq. apply Z.eqb_eq.
Qed.

(** ** C174 *)
(** The test answers whether the number is a square. *)
Theorem C174_square : forall cfg n fuel x, 1 <= n -> wf n x -> 16 * n + 3 <= Z.of_nat fuel ->
  exists b, is_square cfg fuel n x = Ok b /\ (b = true <-> exists r, r * r = bval x).
Proof.
  intros cfg n fuel x Hn Wx Hf. destruct (sqrt_test cfg n fuel x Hn Wx Hf) as (r & q & e & E1 & E2 & E3 & Wr & Vr & H).
  exists e. unfold is_square. rewrite E1. cbn [bind]. rewrite E2. cbn [bind]. split; [exact E3|]. rewrite H, Vr. apply sqrt_is_square.
  pose proof (bval_bound n x Wx). lia.
Qed.
Print Assumptions C174_square.

Lemma halves d e x : Z.odd x = true -> d * e = x -> exists h k, d = h - k /\ e = h + k.
Proof.
  intros O E. assert (OD : Z.odd d = true /\ Z.odd e = true). { rewrite <- E, Z.odd_mul in O. apply andb_prop in O. exact O. }
  destruct OD as [Od Oe]. apply Z.odd_spec in Od, Oe. destruct Od as [s Od], Oe as [t Oe]. exists (s + t + 1), (t - s). lia.
Qed.
(** The factors found are the two divisors closest to each other; the search ends for every odd number for which the square of
    (x + 1) / 2 fits the width. *)
Theorem C174_fermat : forall cfg n fuel x, 1 <= n -> wf n x -> Z.odd (bval x) = true ->
  ((bval x + 1) / 2) * ((bval x + 1) / 2) < 2 ^ (32 * n) -> 16 * n + 3 <= Z.of_nat fuel -> (bval x + 1) / 2 <= Z.of_nat fuel ->
  exists p q, fermat cfg fuel n x = Ok (p, q) /\ wf n p /\ wf n q /\ bval p * bval q = bval x /\ 0 < bval p <= bval q /\
    forall d e, 0 < d <= e -> d * e = bval x -> d <= bval p.
Proof.
  intros cfg n fuel x Hn Wx O SQ F1 F2. pose proof (bval_bound n x Wx) as Bx. change (2 ^ (32 * n)) with (modulus n) in SQ.
  set (X := bval x) in *. set (M := (X + 1) / 2) in *. assert (X1 : 1 <= X) by (destruct (Z.eq_dec X 0) as [E|]; [rewrite E in O; discriminate|lia]).
  assert (M2 : 2 * M = X + 1). { destruct (proj1 (Z.odd_spec X) O) as [k K]. unfold M. rewrite K. replace (2 * k + 1 + 1) with ((k + 1) * 2) by ring. rewrite Z.div_mul by lia. lia. }
  destruct (sqrt_test cfg n fuel x Hn Wx F1) as (a0 & q0 & e0 & E1 & E2 & E3 & Wa0 & Va0 & H0). fold X in Va0, H0.
  unfold fermat. rewrite E1. cbn [bind]. rewrite E2. cbn [bind]. rewrite E3. cbn [bind].
  pose proof (Z.sqrt_spec X ltac:(lia)) as SS. cbv zeta in SS. pose proof (Z.sqrt_nonneg X) as S0. rewrite <- Va0 in SS, S0.
  assert (XM : X <= M * M) by (clear - M2; nia).
  set (I := fun a => wf n a /\ X <= bval a * bval a /\ 1 <= bval a /\ forall d e, 0 < d <= e -> d * e = X -> 2 * bval a <= d + e).
  assert (ID : I a0 -> bval a0 <= M).
  { intros (_ & _ & _ & K). specialize (K 1 X ltac:(lia) ltac:(lia)). lia. }
  assert (IM : forall a, I a -> bval a <= M). { intros a (_ & _ & _ & K). specialize (K 1 X ltac:(lia) ltac:(lia)). lia. }
  assert (ST : exists a, (if negb e0 then op_inc n a0 else Ok a0) = Ok a /\ I a).
  { assert (LB : forall A, (forall h, 0 <= h -> X <= h * h -> A <= h) -> forall d e, 0 < d <= e -> d * e = X -> 2 * A <= d + e).
    { intros A K d e D DE. destruct (halves d e X O DE) as (h & k & -> & ->). specialize (K h ltac:(lia)). assert (X <= h * h) by (clear - DE; nia). lia. }
    destruct e0; cbn [negb].
    - assert (S1 : bval a0 * bval a0 = X) by (apply H0; reflexivity). exists a0. split; [reflexivity|]. unfold I. split; [exact Wa0|]. split; [lia|].
      split; [clear - S1 X1 S0; nia|]. apply LB. intros h Hh Q. rewrite <- S1 in Q. apply Z.square_le_simpl_nonneg; lia.
    - assert (S1 : bval a0 * bval a0 <> X) by (intros Q; apply H0 in Q; discriminate Q).
      assert (B1 : bval a0 + 1 < modulus n).
      { assert (bval a0 < M) by (apply Z.square_lt_simpl_nonneg; lia). assert (1 <= M) by lia. clear - SQ H H1 S0. nia. }
      destruct (op_inc_correct n a0 Wa0) as (a & EA & Wa & Va). rewrite Z.mod_small in Va by lia. exists a. split; [exact EA|]. unfold I. rewrite Va.
      split; [exact Wa|]. split; [lia|]. split; [lia|]. apply LB. intros h Hh Q. assert (bval a0 < h) by (apply Z.square_lt_simpl_nonneg; lia). lia. }
  destruct ST as (a & -> & IA). cbn [bind].
  match goal with |- context [whileF fuel ?B _] =>
  destruct (whileF_spec I (fun a => M - bval a)
    (fun '(p, q) => wf n p /\ wf n q /\ bval p * bval q = X /\ 0 < bval p <= bval q /\ forall d e, 0 < d <= e -> d * e = X -> d <= bval p) B fuel a IA) as ([p q] & E & P) end.
  - pose proof (proj1 (proj2 (proj2 IA))). lia.
  - intros s Is. specialize (IM s Is). lia.
  - clear a IA ID. intros a IA. pose proof (IM a IA) as AM. destruct IA as (Wa & XA & A1 & LA). set (A := bval a) in *.
    assert (AA : A * A < modulus n) by (clear - AM A1 SQ; nia).
    destruct (mul_assign_correct n a a Wa Wa) as (q & Eq & Wq & Vq). unfold op_mul at 1. rewrite Eq. cbn [bind]. fold A in Vq. rewrite Z.mod_small in Vq by (clear - A1 AA; nia).
    destruct (sub_assign_correct n q x Wq Wx) as (d & Ed & Wd & Vd). unfold op_sub at 1. rewrite Ed. cbn [bind]. fold X in Vd. rewrite Vq in Vd.
    rewrite Z.mod_small in Vd by lia.
    destruct (sqrt_test cfg n fuel d Hn Wd F1) as (b & b2 & e & Eb & Eb2 & Ee & Wb & Vb & He). rewrite Eb. cbn [bind]. rewrite Eb2. cbn [bind]. rewrite Ee. cbn [bind].
    pose proof (bval_bound n b Wb) as Bb. set (B := bval b) in *.
    destruct e.
    + assert (BB : B * B = A * A - X) by (rewrite <- Vd; apply He; reflexivity).
      assert (BA : B < A) by (apply Z.square_lt_simpl_nonneg; lia).
      destruct (sub_assign_correct n a b Wa Wb) as (p & Ep & Wp & Vp). unfold op_sub. rewrite Ep. cbn [bind]. fold A B in Vp.
      pose proof (bval_bound n a Wa) as Ba. fold A in Ba. rewrite Z.mod_small in Vp by lia.
      destruct (add_assign_correct n a b Wa Wb) as (r & Er & Wr & Vr). unfold op_add. rewrite Er. cbn [bind]. fold A B in Vr.
      assert (PQ : (A - B) * (A + B) = X) by (clear - BB; nia). assert (A + B <= X) by (clear - PQ BA Bb; nia). rewrite Z.mod_small in Vr by lia.
      eexists. split; [reflexivity|]. cbn [step_post]. rewrite Vp, Vr. split; [exact Wp|]. split; [exact Wr|]. split; [exact PQ|]. split; [lia|].
      intros d' e' D DE. specialize (LA d' e' D DE). clear - LA DE PQ D BA Bb. nia.
    + assert (BB : B * B <> A * A - X) by (rewrite <- Vd; intros Q; apply He in Q; discriminate Q).
      assert (LA' : forall d e, 0 < d <= e -> d * e = X -> 2 * (A + 1) <= d + e).
      { intros d' e' D DE. specialize (LA d' e' D DE). destruct (halves d' e' X O DE) as (h & k & -> & ->). assert (A <= h) by lia.
        destruct (Z.eq_dec h A) as [->|]; [|lia]. exfalso. apply BB. rewrite <- Vd, Vb. apply sqrt_is_square; [lia|]. exists k. rewrite Vd. clear - DE. nia. }
      assert (AM' : A + 1 <= M). { specialize (LA' 1 X ltac:(lia) ltac:(lia)). lia. }
      destruct (op_inc_correct n a Wa) as (a' & Ea & Wa' & Va'). rewrite Ea. cbn [bind]. fold A in Va'.
      assert (A + 1 < modulus n) by (clear - AM' SQ A1; nia). rewrite Z.mod_small in Va' by lia.
      eexists. split; [reflexivity|]. cbn [step_post]. rewrite Va'. split; [|lia]. unfold I. rewrite Va'. split; [exact Wa'|]. split; [clear - XA A1; nia|]. split; [lia|exact LA'].
  - exists p, q. split; [exact E|]. exact P.
Qed.
Print Assumptions C174_fermat.
(** So it finds the trivial divisor 1 exactly for primes. *)
Corollary C174_primes : forall cfg n fuel x, 1 <= n -> wf n x -> Z.odd (bval x) = true -> 1 < bval x ->
  ((bval x + 1) / 2) * ((bval x + 1) / 2) < 2 ^ (32 * n) -> 16 * n + 3 <= Z.of_nat fuel -> (bval x + 1) / 2 <= Z.of_nat fuel ->
  exists p q, fermat cfg fuel n x = Ok (p, q) /\ (bval p = 1 <-> prime (bval x)).
Proof.
  intros cfg n fuel x Hn Wx O X1 SQ F1 F2. destruct (C174_fermat cfg n fuel x Hn Wx O SQ F1 F2) as (p & q & E & _ & _ & PQ & P & MAX).
  exists p, q. split; [exact E|]. split.
  - intros P1. apply prime_alt. split; [exact X1|]. intros d D [e DE].
    assert (1 < e) by (clear - D DE; nia). destruct (Z.le_gt_cases d e) as [L|L].
    + specialize (MAX d e ltac:(lia) ltac:(lia)). lia.
    + specialize (MAX e d ltac:(lia) ltac:(lia)). lia.
  - intros PR. assert (D : (bval p | bval x)) by (exists (bval q); lia). apply prime_divisors in D; auto.
    destruct D as [D|[D|[D|D] ] ]; try lia. exfalso. clear - D P PQ X1. nia.
Qed.
Print Assumptions C174_primes.

(** 5959 = 59 * 101; 17 is prime; the test of 77^2. *)
Example C174_example : let cfg := mk_config false false true in
  wf 2 [5959; 0] /\ Z.odd (bval [5959; 0]) = true /\ fermat cfg 40 2 [5959; 0] = Ok ([59; 0], [101; 0]) /\
  is_square cfg 40 2 [5929; 0] = Ok true /\ fermat cfg 40 2 [17; 0] = Ok ([1; 0], [17; 0]).
Proof. cbv zeta. split; [wfc|]. conjs; vm_compute; reflexivity. Qed.

(** ** C175 *)
(** Two remainders for coprime moduli are put together to the one number below the product that has both. *)
Theorem C175_crt : forall cfg n fuel a1 m1 a2 m2, 1 <= n -> wf n a1 -> wf n m1 -> wf n a2 -> wf n m2 -> 64 * n + 2 <= Z.of_nat fuel ->
  Z.gcd (bval m1) (bval m2) = 1 -> bval a1 < bval m1 -> 1 < bval m2 < 2 ^ (32 * n - 1) ->
  bval m1 * bval m2 <= 2 ^ (32 * n) -> bval m2 * bval m2 <= 2 ^ (32 * n) ->
  exists r, crt cfg fuel n a1 m1 a2 m2 = Ok r /\ wf n r /\ bval r < bval m1 * bval m2 /\
    bval r mod bval m1 = bval a1 /\ bval r mod bval m2 = bval a2 mod bval m2 /\
    forall z, 0 <= z < bval m1 * bval m2 -> z mod bval m1 = bval a1 -> z mod bval m2 = bval a2 mod bval m2 -> z = bval r.
Proof.
  intros cfg n fuel a1 m1 a2 m2 Hn Wa1 Wm1 Wa2 Wm2 Hf G A1 M2 MM MS.
  destruct (C139_inverse_by_sign cfg n fuel m1 m2 Hn Wm1 Wm2 Hf M2 G) as (i & Ei & Wi & Bi & Vi). unfold crt. rewrite Ei. cbn [bind].
  destruct (op_div_total cfg n a1 m2 Hn Wa1 Wm2 ltac:(lia)) as [_ (r1 & -> & Wr1 & Vr1)]. cbn [bind].
  destruct (op_div_total cfg n a2 m2 Hn Wa2 Wm2 ltac:(lia)) as [_ (r2 & -> & Wr2 & Vr2)]. cbn [bind].
  rewrite op_lt_same by auto. cbn [bind].
  assert (HM : modulus n = 2 * 2 ^ (32 * n - 1)) by (unfold modulus; rewrite <- Z.pow_succ_r by lia; f_equal; lia).
  change (2 ^ (32 * n)) with (modulus n) in MM, MS.
  pose proof (bval_bound n a1 Wa1) as Ba1. pose proof (bval_bound n a2 Wa2) as Ba2.
  pose proof (Z.mod_pos_bound (bval a1) (bval m2) ltac:(lia)) as B1. pose proof (Z.mod_pos_bound (bval a2) (bval m2) ltac:(lia)) as B2.
  rewrite <- Vr1 in B1. rewrite <- Vr2 in B2.
  assert (D : exists r2' k, (if bval r2 <? bval r1 then op_add n r2 m2 else Ok r2) = Ok r2' /\ wf n r2' /\ bval r2' = bval r2 + bval m2 * k /\ 0 <= bval r2' - bval r1 < bval m2).
  { destruct (Z.ltb_spec (bval r2) (bval r1)).
    - destruct (add_assign_correct n r2 m2 Wr2 Wm2) as (s & Es & Ws & Vs). unfold op_add. rewrite Z.mod_small in Vs by lia. exists s, 1. conjs; auto; lia.
    - exists r2, 0. conjs; auto; lia. }
  destruct D as (r2' & k & -> & Wr2' & Vr2' & Dr). cbn [bind]. pose proof (bval_bound n r2' Wr2').
  destruct (sub_assign_correct n r2' r1 Wr2' Wr1) as (d & Ed & Wd & Vd). unfold op_sub. rewrite Ed. cbn [bind]. rewrite Z.mod_small in Vd by lia. rewrite <- Vd in Dr.
  assert (DI : bval d * bval i < modulus n) by (clear - Dr Bi MS; nia).
  destruct (mul_assign_correct n d i Wd Wi) as (t & Et & Wt & Vt). unfold op_mul at 1. rewrite Et. cbn [bind]. rewrite Z.mod_small in Vt by (clear - Dr Bi DI; nia).
  destruct (op_div_total cfg n t m2 Hn Wt Wm2 ltac:(lia)) as [_ (t' & -> & Wt' & Vt')]. cbn [bind].
  pose proof (Z.mod_pos_bound (bval t) (bval m2) ltac:(lia)) as Bt. rewrite <- Vt' in Bt.
  assert (P1 : bval m1 * bval t' <= bval m1 * bval m2 - bval m1) by (clear - Bt A1 Ba1; nia).
  assert (P0 : 0 <= bval m1 * bval t') by (apply Z.mul_nonneg_nonneg; lia).
  destruct (mul_assign_correct n m1 t' Wm1 Wt') as (u & Eu & Wu & Vu). unfold op_mul. rewrite Eu. cbn [bind]. rewrite Z.mod_small in Vu by lia.
  destruct (add_assign_correct n a1 u Wa1 Wu) as (r & Er & Wr & Vr). unfold op_add. rewrite Vu, Z.mod_small in Vr by lia.
  exists r. split; [exact Er|]. split; [exact Wr|]. split; [lia|].
  assert (C1 : bval r mod bval m1 = bval a1).
  { rewrite Vr, (Z.mul_comm (bval m1)), Z_mod_plus_full. apply Z.mod_small. lia. }
  assert (C2 : bval r mod bval m2 = bval a2 mod bval m2).
  { pose proof (Z.div_mod (bval t) (bval m2) ltac:(lia)) as D1. rewrite <- Vt' in D1. pose proof (Z.div_mod (bval m1 * bval i) (bval m2) ltac:(lia)) as D2. rewrite Vi in D2.
    pose proof (Z.div_mod (bval a1) (bval m2) ltac:(lia)) as D3. rewrite <- Vr1 in D3. pose proof (Z.div_mod (bval a2) (bval m2) ltac:(lia)) as D4. rewrite <- Vr2 in D4.
    set (k1 := bval t / bval m2) in *. set (k2 := bval m1 * bval i / bval m2) in *. set (k3 := bval a1 / bval m2) in *. set (k4 := bval a2 / bval m2) in *.
    assert (E : bval r = bval a2 + (k + k3 - k4 + bval d * k2 - bval m1 * k1) * bval m2).
    { rewrite Vr. replace (bval t') with (bval d * bval i - bval m2 * k1) by lia.
      replace (bval m1 * (bval d * bval i - bval m2 * k1)) with (bval d * (bval m1 * bval i) - bval m1 * bval m2 * k1) by ring. rewrite D2.
      replace (bval a2) with (bval m2 * k4 + bval r2) by lia. replace (bval d * (bval m2 * k2 + 1)) with (bval d * k2 * bval m2 + bval d) by ring. rewrite Vd, Vr2'.
      rewrite D3. ring. }
    rewrite E. apply Z_mod_plus_full. }
  split; [exact C1|]. split; [exact C2|]. intros z Hz Z1 Z2.
  assert (Q1 : (bval m1 | z - bval r)). { apply Z.mod_divide; [lia|]. rewrite Zminus_mod, Z1, C1, Z.sub_diag. apply Z.mod_0_l. lia. }
  assert (Q2 : (bval m2 | z - bval r)). { apply Z.mod_divide; [lia|]. rewrite Zminus_mod, Z2, C2, Z.sub_diag. apply Z.mod_0_l. lia. }
  destruct Q1 as [j Q1]. rewrite Q1, Z.mul_comm in Q2. apply Gauss in Q2; [|apply Zgcd_1_rel_prime; rewrite Z.gcd_comm; exact G].
  destruct Q2 as [l ->]. pose proof (bval_bound n r Wr). assert (l = 0); [|subst l; lia].
  assert (-1 < l < 1); [|lia]. clear - Q1 Hz H0 Vr P0 P1 Ba1 A1. assert (0 < bval m1 * bval m2) by lia. split; nia.
Qed.
Print Assumptions C175_crt.
(** 2 mod 3 and 3 mod 5; 4 mod 7 and 1 mod 5 *)
Example C175_example : let cfg := mk_config false false true in
  crt cfg 130 2 [2; 0] [3; 0] [3; 0] [5; 0] = Ok [8; 0] /\ crt cfg 130 2 [4; 0] [7; 0] [1; 0] [5; 0] = Ok [11; 0].
Proof. cbv zeta. split; vm_compute; reflexivity. Qed.

(** ** C176 *)
Lemma fermat_reduce p m d : prime p -> 0 <= m -> 0 < d -> 0 < d mod (p - 1) -> m ^ d mod p = m ^ (d mod (p - 1)) mod p.
Proof.
  intros P M D R. pose proof (prime_ge_2 p P) as P2.
  destruct (Zdivide_dec p m) as [Y|N].
  - assert (Z0 : forall k, 0 < k -> m ^ k mod p = 0).
    { intros k K. apply Z.mod_divide; [lia|]. replace k with (1 + (k - 1)) by ring. rewrite Z.pow_add_r, Z.pow_1_r by lia. now apply Z.divide_mul_l. }
    rewrite !Z0 by lia. reflexivity.
  - assert (N1 : p - 1 <> 0). { intros Q. rewrite Q, Zmod_0_r in R. assert (p = 1) by lia. lia. }
    pose proof (fermat_one p m P N) as F. pose proof (Z.div_mod d (p - 1) N1) as E. pose proof (Z.div_pos d (p - 1) ltac:(lia) ltac:(lia)).
    rewrite E at 1. rewrite Z.pow_add_r by (try apply Z.mul_nonneg_nonneg; lia). rewrite Z.pow_mul_r by lia. rewrite Z.mul_mod by lia.
    assert (G : forall k, 0 <= k -> (m ^ (p - 1)) ^ k mod p = 1).
    { intros k Hk. pattern k. apply natlike_ind; auto.
      - rewrite Z.pow_0_r. apply Z.mod_1_l. lia.
      - intros j Hj IH. rewrite Z.pow_succ_r by lia. rewrite Z.mul_mod, F, IH by lia. apply Z.mod_1_l. lia. }
    rewrite G by lia. rewrite Z.mul_1_l. apply Z.mod_mod. lia.
Qed.
Lemma half_bound n q : 1 <= n -> 0 <= q -> q * q <= 2 ^ (32 * n) -> q < 2 ^ (32 * n - 1).
Proof.
  intros Hn Hq L. destruct (Z.lt_ge_cases q (2 ^ (32 * n - 1))) as [|G]; auto. exfalso.
  assert (2 ^ (32 * n - 1) * 2 ^ (32 * n - 1) <= q * q) by (apply Z.mul_le_mono_nonneg; auto; apply Z.pow_nonneg; lia).
  rewrite <- Z.pow_add_r in H by lia. assert (2 ^ (32 * n) < 2 ^ (32 * n - 1 + (32 * n - 1))) by (apply Z.pow_lt_mono_r; lia). lia.
Qed.
(** The two halves give the power modulo the product, without any intermediate value above the width that p * p, q * q and p * q need. *)
Theorem C176_rsa_halves : forall cfg n fuel m d p q, 1 <= n -> wf n m -> wf n d -> wf n p -> wf n q -> 64 * n + 2 <= Z.of_nat fuel ->
  prime (bval p) -> prime (bval q) -> bval p <> bval q -> bval d mod (bval p - 1) <> 0 -> bval d mod (bval q - 1) <> 0 ->
  bval p * bval p <= 2 ^ (32 * n) -> bval q * bval q <= 2 ^ (32 * n) -> bval p * bval q <= 2 ^ (32 * n) ->
  exists r, rsa_halves cfg fuel n m d p q = Ok r /\ wf n r /\ bval r = bval m ^ bval d mod (bval p * bval q).
Proof.
  intros cfg n fuel m d p q Hn Wm Wd Wp Wq Hf P Q PQ DP DQ SP SQ SPQ.
  pose proof (prime_ge_2 _ P) as P2. pose proof (prime_ge_2 _ Q) as Q2. pose proof (bval_bound n m Wm) as Bm. pose proof (bval_bound n d Wd) as Bd.
  pose proof (bval_bound n p Wp) as Bp. pose proof (bval_bound n q Wq) as Bq. unfold rsa_halves.
  destruct (one_spec n Hn) as (o & -> & Wo & Vo). cbn [bind].
  assert (NP : bval p - 1 <> 0) by lia. assert (NQ : bval q - 1 <> 0) by lia.
  assert (D0 : bval d <> 0) by (intros E; rewrite E in DP; apply DP; apply Z.mod_0_l; lia).
  assert (HALF : forall x, wf n x -> prime (bval x) -> bval x * bval x <= 2 ^ (32 * n) -> bval d mod (bval x - 1) <> 0 ->
    exists x1 dx mx, op_sub n x o = Ok x1 /\ op_mod cfg n d x1 = Ok dx /\ powm cfg n m dx x = Ok mx /\ wf n mx /\ bval mx = bval m ^ bval d mod bval x).
  { intros x Wx X SX DX. pose proof (prime_ge_2 _ X) as X2. pose proof (bval_bound n x Wx) as Bx.
    destruct (sub_assign_correct n x o Wx Wo) as (x1 & E1 & W1 & V1). rewrite Vo, Z.mod_small in V1 by lia.
    destruct (op_div_total cfg n d x1 Hn Wd W1 ltac:(lia)) as [_ (dx & E2 & Wdx & Vdx)]. rewrite V1 in Vdx.
    pose proof (Z.mod_pos_bound (bval d) (bval x - 1) ltac:(lia)).
    pose proof (powm_spec cfg n m dx x Hn Wm Wdx Wx ltac:(lia)) as PW. destruct (Z.eqb_spec (bval dx) 0); [congruence|].
    destruct PW as (mx & E3 & Wmx & Vmx). { unfold modulus. clear - SX X2. nia. }
    exists x1, dx, mx. conjs; auto. rewrite Vmx, Vdx. symmetry. apply fermat_reduce; auto; lia. }
  destruct (HALF p Wp P SP DP) as (p1 & dp & mp & -> & E1 & E2 & Wmp & Vmp). cbn [bind]. rewrite E1. cbn [bind]. rewrite E2. cbn [bind].
  destruct (HALF q Wq Q SQ DQ) as (q1 & dq & mq & -> & E3 & E4 & Wmq & Vmq). cbn [bind]. rewrite E3. cbn [bind]. rewrite E4. cbn [bind].
  pose proof (Z.mod_pos_bound (bval m ^ bval d) (bval p) ltac:(lia)) as RP.
  destruct (C175_crt cfg n fuel mp p mq q Hn Wmp Wp Wmq Wq Hf) as (r & Er & Wr & _ & _ & _ & U); auto.
  - apply Zgcd_1_rel_prime, prime_rel_prime; auto. intros D. apply PQ. now apply prime_div_prime.
  - lia.
  - split; [lia|]. apply half_bound; auto. lia.
  - exists r. split; [exact Er|]. split; [exact Wr|]. symmetry. assert (0 < bval p * bval q) by (clear - P2 Q2; nia). apply U.
    + now apply Z.mod_pos_bound.
    + rewrite Vmp. symmetry. apply Zmod_div_mod; auto; try lia. exists (bval q). ring.
    + rewrite Vmq, Z.mod_mod by lia. symmetry. apply Zmod_div_mod; auto; try lia. exists (bval p). ring.
Qed.
Print Assumptions C176_rsa_halves.
(** p = 61, q = 53, d = 2753: as in C100, decrypting *)
Example C176_example : rsa_halves (mk_config false false true) 66 1 [2790] [2753] [61] [53] = Ok [65].
Proof. vm_compute; reflexivity. Qed.
