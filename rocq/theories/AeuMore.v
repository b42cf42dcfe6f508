(** * AeuMore: stronger facts about the unsigned class (exact Bezout coefficients, the exact result of the
    comparison across precisions, division by zero). *)
From Verif Require Import AeuFacts.
Open Scope Z_scope.

(** ** The exact result of comparing numbers of different precisions *)
Definition low_lt (k x y : Z) : bool :=
  if x mod 2 ^ (32 * k) =? y mod 2 ^ (32 * k) then x <? y else x mod 2 ^ (32 * k) <? y mod 2 ^ (32 * k).

Lemma low_first_cases k x y :
  (low_first k x y = CLess /\ low_lt k x y = true /\ low_lt k y x = false) \/
  (low_first k x y = CGreater /\ low_lt k x y = false /\ low_lt k y x = true) \/
  (low_first k x y = CEqual /\ low_lt k x y = false /\ low_lt k y x = false).
Proof.
  unfold low_first, low_lt. set (u := x mod _). set (v := y mod _). unfold zcmp. rewrite (Z.eqb_sym v u).
  destruct (Z.eqb_spec u v) as [->|N].
  - rewrite Z.gtb_ltb, Z.ltb_irrefl. cbn [cmp_eqb].
    destruct (Z.gtb_spec x y), (Z.ltb_spec x y), (Z.ltb_spec y x); auto; lia.
  - destruct (Z.gtb_spec u v), (Z.ltb_spec u v), (Z.ltb_spec v u); cbn [cmp_eqb]; auto; lia.
Qed.

Lemma cross_order_exact cfg n m a b : wf n a -> wf m b ->
  let L := low_lt (Z.min n m) (bval a) (bval b) in let G := low_lt (Z.min n m) (bval b) (bval a) in
  op_lt cfg n m a b = Ok L /\ op_le cfg n m a b = Ok (negb G) /\
  op_gt cfg n m a b = Ok G /\ op_ge cfg n m a b = Ok (negb L).
Proof.
  intros Wa Wb L G. unfold op_lt, op_le, op_gt, op_ge, op_spaceship. rewrite compareTo_spec by auto. cbn [bind].
  destruct (low_first_cases (Z.min n m) (bval a) (bval b)) as [(-> & HL & HG)|[(-> & HL & HG)|(-> & HL & HG)]];
    unfold L, G; rewrite HL, HG; cbn; auto.
Qed.

(** ** The coefficients of the extended gcd as integers *)
Lemma sub_mul_mod M tx q x TX X p x' : M <> 0 -> tx = TX mod M -> x = X mod M ->
  p = (q * x) mod M -> x' = (tx - p) mod M -> x' = (TX - q * X) mod M.
Proof.
  intros HM -> -> -> ->. rewrite Zmult_mod_idemp_r, <- Zminus_mod. reflexivity.
Qed.

Lemma egcd_exact cfg n fuel a b : 1 <= n -> wf n a -> wf n b -> 64 * n + 2 <= Z.of_nat fuel ->
  exists g x y X Y, gcd_ext cfg fuel n a b = Ok (g, x, y) /\ represents n g (Z.gcd (bval a) (bval b)) /\
    represents n x (X mod modulus n) /\ represents n y (Y mod modulus n) /\
    bval a * X + bval b * Y = Z.gcd (bval a) (bval b) /\
    (bval a <> 0 -> bval b <> 0 ->
       Z.abs X * Z.gcd (bval a) (bval b) <= bval b /\ Z.abs Y * Z.gcd (bval a) (bval b) <= bval a).
Proof.
  intros Hn Wa Wb Hf. unfold gcd_ext. rewrite compareTo_same by auto. cbn [bind].
  assert (HM : modulus n <> 0) by (pose proof (modulus_pos n); lia).
  assert (H1M : 1 < modulus n) by (apply Z.lt_le_trans with (2 ^ 32); [lia|apply Z.pow_le_mono_r; lia]).
  destruct (from_unsigned_correct n (zeros n) 0 ltac:(lia) (len_zeros n ltac:(lia)) ltac:(lia)) as (o0 & Eo0 & Wo0 & Vo0).
  destruct (from_unsigned_correct n (zeros n) 1 ltac:(lia) (len_zeros n ltac:(lia)) ltac:(lia)) as (o1 & Eo1 & Wo1 & Vo1).
  assert (Main : forall A B, wf n A -> wf n B -> bval B <= bval A ->
     exists q r s X Y, divide cfg n A B = Ok (q, r) /\
       whileF fuel (egcd_body cfg n) (mk_egcd B q r o0 o1 o1 o0) = Ok s /\
       represents n (eg_gcd s) (Z.gcd (bval A) (bval B)) /\
       represents n (eg_x s) (X mod modulus n) /\ represents n (eg_y s) (Y mod modulus n) /\
       bval A * X + bval B * Y = Z.gcd (bval A) (bval B) /\
       (bval B <> 0 -> Z.abs X * Z.gcd (bval A) (bval B) <= bval B /\ Z.abs Y * Z.gcd (bval A) (bval B) <= bval A)).
  { intros A B WA WB HAB. destruct (divide_spec cfg n A B Hn WA WB) as (q & r & E & Wq & Wr & EQ & HR & H0).
    pose proof (bval_bound n _ WA) as BA. pose proof (bval_bound n _ WB) as BB.
    pose proof (bval_bound n _ Wr) as Br. pose proof (bval_bound n _ Wq) as Bq.
    set (G := Z.gcd (bval A) (bval B)).
    destruct (whileF_spec (fun s => wf n (eg_gcd s) /\ wf n (eg_q s) /\ wf n (eg_r s) /\
        (bval (eg_gcd s) = 0 \/ bval (eg_r s) < bval (eg_gcd s)) /\
        Z.gcd (bval (eg_gcd s)) (bval (eg_r s)) = G /\
        (bval B <> 0 -> bval (eg_gcd s) <> 0 /\ 1 <= bval (eg_q s)) /\
        exists e u t v w, (e = 1 \/ e = -1) /\ 0 <= u /\ 0 <= t /\ 0 <= v /\ 0 <= w /\
          represents n (eg_x s) ((- e * u) mod modulus n) /\ represents n (eg_tx s) ((e * t) mod modulus n) /\
          represents n (eg_y s) ((e * v) mod modulus n) /\ represents n (eg_ty s) ((- e * w) mod modulus n) /\
          bval A * (- e * u) + bval B * (e * v) = bval (eg_gcd s) /\
          bval A * (e * t) + bval B * (- e * w) = bval (eg_q s) * bval (eg_gcd s) + bval (eg_r s) /\
          u * (bval (eg_q s) * bval (eg_gcd s) + bval (eg_r s)) + t * bval (eg_gcd s) = bval B /\
          v * (bval (eg_q s) * bval (eg_gcd s) + bval (eg_r s)) + w * bval (eg_gcd s) = bval A)
      (fun s => gcd_mu (bval (eg_gcd s)) (bval (eg_r s)))
      (fun s => represents n (eg_gcd s) G /\ exists X Y,
        represents n (eg_x s) (X mod modulus n) /\ represents n (eg_y s) (Y mod modulus n) /\
        bval A * X + bval B * Y = G /\
        (bval B <> 0 -> Z.abs X * G <= bval B /\ Z.abs Y * G <= bval A))
      (egcd_body cfg n) fuel (mk_egcd B q r o0 o1 o1 o0)) as (s & Es & Rg & X & Y & Ps).
    - cbn [eg_gcd eg_q eg_r eg_x eg_y eg_tx eg_ty].
      do 3 (split; [auto|]). split; [destruct (Z.eq_dec (bval B) 0); auto|].
      split; [rewrite (gcd_step (bval q)), <- EQ; auto|].
      split. { intros NB. specialize (HR NB). split; [exact NB|]. clear - EQ HR Br Bq HAB BB NB. nia. }
      exists 1, 0, 1, 1, 0. split; [auto|]. do 4 (split; [lia|]).
      split; [split; auto|]. split; [split; auto|]. split; [split; auto|]. split; [split; auto|].
      rewrite <- EQ. repeat split; lia.
    - cbn [eg_gcd eg_r]. pose proof (gcd_mu_bound n (bval B) (bval r)). lia.
    - intros s (W1 & _ & W2 & _). apply (gcd_mu_bound n); try (apply bval_bound; auto). lia.
    - intros s (Wg & Wq0 & Wr0 & Hlt & HG & HB & e & u & t & v & w & He & Hu & Ht & Hv & Hw & [Wx Vx] & [Wtx Vtx] & [Wy Vy] & [Wty Vty] & E1 & E2 & E3 & E4).
      unfold egcd_body.
      pose proof (bval_bound n _ Wg) as Bg. pose proof (bval_bound n _ Wr0) as Br0. pose proof (bval_bound n _ Wq0) as Bq0.
      rewrite op_eq_u32_spec by (auto; lia). cbn [bind]. destruct (Z.eqb_spec (bval (eg_r s)) 0) as [Z0|Z0].
      + eexists. split; [reflexivity|]. cbn [step_post]. rewrite Z0, Z.gcd_0_r in HG.
        assert (EG : bval (eg_gcd s) = G) by lia. split; [split; auto|].
        exists (- e * u), (e * v). split; [split; auto|]. split; [split; auto|]. split; [lia|].
        intros NB. destruct (HB NB) as [G0 Q1]. rewrite Z0, EG in E3, E4.
        assert (0 <= G) by apply Z.gcd_nonneg.
        replace (Z.abs (- e * u)) with u by (destruct He as [-> | ->]; lia).
        replace (Z.abs (e * v)) with v by (destruct He as [-> | ->]; lia). clear - E3 E4 Q1 Hu Ht Hv Hw H.
        rewrite Z.add_0_r in E3, E4. assert (0 <= t * G) by nia. assert (0 <= w * G) by nia. assert (G <= bval (eg_q s) * G) by nia. split; nia.
      + cbv zeta.
        destruct (mul_assign_correct n (eg_q s) (eg_x s) Wq0 Wx) as (p & Ep & Wp & Vp). unfold op_mul. rewrite Ep. cbn [bind].
        destruct (sub_assign_correct n (eg_tx s) p Wtx Wp) as (x' & Ex & Wx' & Vx'). unfold op_sub. rewrite Ex. cbn [bind].
        destruct (mul_assign_correct n (eg_q s) (eg_y s) Wq0 Wy) as (p2 & Ep2 & Wp2 & Vp2). rewrite Ep2. cbn [bind].
        destruct (sub_assign_correct n (eg_ty s) p2 Wty Wp2) as (y' & Ey & Wy' & Vy'). rewrite Ey. cbn [bind].
        destruct (divide_spec cfg n (eg_gcd s) (eg_r s) Hn Wg Wr0) as (q' & r' & Ed & Wq' & Wr' & EQ' & HR' & _).
        rewrite Ed. cbn [bind]. eexists. split; [reflexivity|]. cbn [step_post eg_gcd eg_q eg_r eg_x eg_y eg_tx eg_ty].
        specialize (HR' Z0). pose proof (bval_bound n _ Wr') as Br'. pose proof (bval_bound n _ Wq') as Bq'.
        assert (X : bval x' = (e * t - bval (eg_q s) * (- e * u)) mod modulus n) by (eapply sub_mul_mod; eauto).
        assert (Y : bval y' = (- e * w - bval (eg_q s) * (e * v)) mod modulus n) by (eapply sub_mul_mod; eauto).
        split.
        * do 3 (split; [auto|]). split; [lia|]. split; [rewrite (gcd_step (bval q')), <- EQ'; auto|].
          split. { intros NB. destruct (HB NB) as [G0 Q1]. split; [lia|]. destruct Hlt as [|Hlt]; [lia|].
                   clear - EQ' HR' Br' Bq' Hlt Br0 Z0. nia. }
          exists (- e), (t + bval (eg_q s) * u), u, (w + bval (eg_q s) * v), v.
          split; [lia|]. split; [clear - Ht Hu Bq0; nia|]. split; [lia|]. split; [clear - Hw Hv Bq0; nia|]. split; [lia|].
          split; [split; [auto|]; rewrite X; f_equal; ring|].
          split; [split; [auto|]; rewrite Vx; f_equal; ring|].
          split; [split; [auto|]; rewrite Y; f_equal; ring|].
          split; [split; [auto|]; rewrite Vy; f_equal; ring|].
          rewrite <- EQ'.
          split; [|split; [|split]].
          -- transitivity ((bval A * (e * t) + bval B * (- e * w)) - bval (eg_q s) * (bval A * (- e * u) + bval B * (e * v))); [ring|].
             rewrite E1, E2. ring.
          -- rewrite <- E1. ring.
          -- rewrite <- E3. ring.
          -- rewrite <- E4. ring.
        * apply gcd_mu_step; try lia. eauto.
    - exists q, r, s, X, Y. split; auto. }
  destruct (Z.ltb_spec (bval b) (bval a)) as [Hgt|Hle].
  - rewrite zcmp_gt by auto. destruct (Main a b Wa Wb ltac:(lia)) as (q & r & s & X & Y & Ed & Es & Pg & Px & Py & Pe & Pb).
    rewrite Ed. cbn [bind]. rewrite Eo0. cbn [bind]. rewrite Eo1. cbn [bind]. rewrite Es. cbn [bind cmp_eqb negb].
    exists (eg_gcd s), (eg_x s), (eg_y s), X, Y. auto 10.
  - destruct (Main b a Wb Wa ltac:(lia)) as (q & r & s & X & Y & Ed & Es & Pg & Px & Py & Pe & Pb).
    assert (Hc : zcmp (bval a) (bval b) = CEqual \/ zcmp (bval a) (bval b) = CLess).
    { unfold zcmp. destruct (Z.gtb_spec (bval a) (bval b)); [lia|]. destruct (bval a <? bval b); auto. }
    rewrite (Z.gcd_comm (bval a)). exists (eg_gcd s), (eg_y s), (eg_x s), Y, X.
    destruct Hc as [-> | ->]; rewrite Ed; cbn [bind]; rewrite Eo0; cbn [bind]; rewrite Eo1; cbn [bind]; rewrite Es; cbn [bind cmp_eqb negb];
      (split; [auto|]); (split; [auto|]); (split; [auto|]); (split; [auto|]); (split; [lia|]); intros; destruct (Pb ltac:(auto)); auto.
Qed.
