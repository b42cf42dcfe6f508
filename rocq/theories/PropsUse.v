(** * PropsUse: C85 - C96, complete uses of the library: the programs of the README, text-in text-out programs,
    containers, chained output, key agreement.

    Stated about the functions of [UseModel.v] (and the models it calls) with the vocabulary of [Spec.v],
    [TextSpec.v] and [ProgSpec.v]. *)
From Coq Require Import Factorial String Ascii.
From Verif Require Import UseModel MixFacts TextMore ProgFacts ProgSigned PropsText PropsProg PropsAesi PropsAeu.
Open Scope Z_scope.

Ltac conjs := repeat match goal with |- _ /\ _ => split end.
Ltac wfc := apply wfb_wf; vm_compute; reflexivity.

(** ** C85: the README's factorial program *)
Theorem C85_factorial : forall n junk k, 1 <= n -> len junk = n -> Z.of_nat k + 1 < 2 ^ 32 ->
  yields n (readme_factorial n junk (Z.of_nat k)) (Z.of_nat (fact k) mod modulus n).
Proof.
  intros n junk k Hn Lj Hk. unfold readme_factorial.
  eapply yields_bind; [apply from_unsigned_correct; [lia|exact Lj|lia]|]. intros f Wf Vf.
  destruct k as [|k].
  { replace (Z.of_nat 0 + 1) with 1 by lia. unfold forU. cbn. apply yields_ok; auto. }
  destruct (forU_spec (fun i r => wf n r /\ bval r = Z.of_nat (fact (Z.to_nat (i - 1))) mod modulus n) 2 (Z.of_nat (S k) + 1) (fun i f => mul_assign_u n U32 f i) f) as (r & E & W & V).
  - lia.
  - split; [exact Wf|]. exact Vf.
  - intros i r Hi [Wr Vr]. destruct (mul_assign_u_correct n U32 r i Wr) as (r' & E & W & V); [cbn [uwidth]; lia|discriminate|].
    exists r'. split; [exact E|]. split; [exact W|]. rewrite V, Vr, Zmult_mod_idemp_l. f_equal.
    replace (Z.to_nat (i + 1 - 1)) with (S (Z.to_nat (i - 1))) by lia. change (fact (S (Z.to_nat (i - 1)))) with (S (Z.to_nat (i - 1)) * fact (Z.to_nat (i - 1)))%nat.
    rewrite Nat2Z.inj_mul. replace (Z.of_nat (S (Z.to_nat (i - 1)))) with i by lia. lia.
  - exists r. split; [exact E|]. split; [exact W|]. rewrite V. do 3 f_equal. lia.
Qed.
Print Assumptions C85_factorial.
Theorem C85_factorial_program_prints : forall cfg n junk k cout s, 1 <= n -> 32 * n < 2 ^ 53 -> len junk = n -> Z.of_nat k + 1 < 2 ^ 32 ->
  width cout = 0 -> numeral (uppercase cout) 16 (Z.of_nat (fact k) mod modulus n) s ->
  exists os', readme_main cfg n junk (Z.of_nat k) cout = Ok os' /\ out os' = out cout ++ [48; 120] ++ s.
Proof.
  intros cfg n junk k cout s Hn H53 Lj Hk W0 HS. unfold readme_main.
  destruct (C85_factorial n junk k Hn Lj Hk) as (f & -> & Wf & Vf). cbn [bind].
  apply (C37_stream_insertion cfg n (os_hex (os_showbase cout)) f s Wf W0 H53).
  - right. right. split; [exact Hn|reflexivity].
  - cbn. rewrite Vf, Bool.andb_true_r. exact HS.
Qed.
Print Assumptions C85_factorial_program_prints.
(** The README's own instance: 50! at 512 bits, and the text the README shows. *)
Definition cout0 : ostream := mk_os [] BDec false false 32 0 AdjNone.
Definition text (s : string) : list Z := map (fun c => Z.of_nat (nat_of_ascii c)) (list_ascii_of_string s).
Fixpoint zfact (k : nat) : Z := match k with O => 1 | S k => Z.of_nat (S k) * zfact k end.
Lemma zfact_eq : forall k, Z.of_nat (fact k) = zfact k.
Proof. induction k as [|k IH]; [reflexivity|]. change (fact (S k)) with (S k * fact k)%nat. cbn [zfact]. rewrite Nat2Z.inj_mul, IH. reflexivity. Qed.
Lemma numeral_text : forall upper base v s ds, s = map (digit_char upper) ds -> forallb (fun d => (0 <=? d) && (d <? base)) ds = true ->
  dvalue base ds = v -> (match ds with [] => false | d :: _ => negb (d =? 0) end) = true -> numeral upper base v s.
Proof.
  intros upper base v s ds Hs Hd Hv Hl. exists ds. split; [exact Hs|]. split; [|split; [exact Hv|]].
  - apply Forall_forall. intros d Hin. rewrite forallb_forall in Hd. specialize (Hd d Hin). apply andb_prop in Hd. destruct Hd as [H1 H2].
    apply Z.leb_le in H1. apply Z.ltb_lt in H2. lia.
  - right. destruct ds as [|d t]; [discriminate|]. exists d, t. split; [reflexivity|]. apply Bool.negb_true_iff in Hl. apply Z.eqb_neq in Hl. exact Hl.
Qed.
(** the digits of a text, for building numerals from the strings shown in the README *)
Definition digits (s : string) : list Z := map (fun c => match digit_of c with Some d => d | None => 0 end) (text s).
Ltac numeral_of s := apply (numeral_text _ _ _ _ (digits s)); vm_compute; reflexivity.
Example C85_example : exists os', readme_main cfg0 16 (repeat 7 16) (Z.of_nat 50) cout0 = Ok os' /\
  out os' = text "0x49eebc961ed279b02b1ef4f28d19a84f5973a1d2c7800000000000"%string.
Proof.
  apply (C85_factorial_program_prints cfg0 16 (repeat 7 16) 50 cout0 (text "49eebc961ed279b02b1ef4f28d19a84f5973a1d2c7800000000000"%string)); [lia|lia|reflexivity|lia|reflexivity|].
  rewrite zfact_eq. numeral_of "49eebc961ed279b02b1ef4f28d19a84f5973a1d2c7800000000000"%string.
Qed.

(** ** C86: powm computed in at least doubled precision (README l.108) is exact for all operands. *)
Theorem C86_powm_doubled_precision : forall cfg n k m base power modulo, 1 <= n -> n <= m -> k <= m ->
  wf n base -> wf k power -> wf m modulo -> 1 < bval modulo -> (bval modulo - 1) * (bval modulo - 1) < modulus m ->
  yields m (readme_powm cfg n k m base power modulo) (bval base ^ bval power mod bval modulo).
Proof.
  intros cfg n k m base power modulo Hn Hm Hk Wb Wp Wm M1 MM. unfold readme_powm.
  assert (S : forall j x, wf j x -> j <= m -> bval x mod modulus m = bval x).
  { intros j x Wx Hj. pose proof (bval_bound j x Wx) as B. unfold modulus in *. apply Z.mod_small. split; [lia|]. apply Z.lt_le_trans with (2 ^ (32 * j)); [lia|].
    apply Z.pow_le_mono_r; [lia|lia]. }
  destruct (precisionCast_spec cfg n m base Wb ltac:(lia)) as (b & -> & Wb' & Vb). cbn [bind]. rewrite (S n) in Vb by auto.
  destruct (precisionCast_spec cfg k m power Wp ltac:(lia)) as (p & -> & Wp' & Vp). cbn [bind]. rewrite (S k) in Vp by auto.
  pose proof (powm_spec cfg m b p modulo ltac:(lia) Wb' Wp' Wm ltac:(lia) MM) as H. rewrite Vb, Vp in H.
  destruct (Z.eqb_spec (bval power) 0) as [->|]; [|exact H]. rewrite Z.pow_0_r, Z.mod_1_l by lia. exact H.
Qed.
Print Assumptions C86_powm_doubled_precision.
(** For a modulus of N bits, M = 2N bits always suffice. *)
Corollary C86_double_width_suffices : forall cfg n k m base power modulo q, 1 <= n -> 2 * n <= m -> k <= m ->
  wf n base -> wf k power -> wf n modulo -> 1 < bval modulo -> precisionCast cfg n m modulo = Ok q ->
  yields m (readme_powm cfg n k m base power q) (bval base ^ bval power mod bval modulo).
Proof.
  intros cfg n k m base power modulo q Hn Hm Hk Wb Wp Wm M1 Eq. destruct (precisionCast_spec cfg n m modulo Wm ltac:(lia)) as (q' & E & Wq & Vq).
  rewrite E in Eq. injection Eq as ->. pose proof (bval_bound n modulo Wm) as B. pose proof (modulus_pos n ltac:(lia)) as PN. fold (modulus n) in B.
  assert (MM : modulus n * modulus n <= modulus m) by (unfold modulus; rewrite <- Z.pow_add_r by lia; apply Z.pow_le_mono_r; lia).
  assert (L : modulus n <= modulus n * modulus n) by nia.
  rewrite Z.mod_small in Vq by lia. rewrite <- Vq. apply C86_powm_doubled_precision; auto; try lia. nia.
Qed.
Print Assumptions C86_double_width_suffices.
(** README l.104-109, with the numbers given there, from the text of the literals to the printed result. *)
(** modular power by repeated squaring, to evaluate the specification *)
Fixpoint pmod (b : Z) (p : positive) (m : Z) : Z :=
  match p with xH => b mod m | xO p => let t := pmod b p m in (t * t) mod m | xI p => let t := pmod b p m in ((t * t) mod m * b) mod m end.
Lemma pmod_eq : forall p b m, m <> 0 -> pmod b p m = b ^ Z.pos p mod m.
Proof.
  induction p as [p IH|p IH|]; intros b m Hm; cbn [pmod].
  - rewrite IH by exact Hm. rewrite <- Zmult_mod, Z.mul_mod_idemp_l by exact Hm. f_equal.
    rewrite Pos2Z.inj_xI, Z.pow_add_r, Z.pow_1_r by lia. f_equal. rewrite <- Z.pow_add_r by lia. f_equal. lia.
  - rewrite IH by exact Hm. rewrite Pos2Z.inj_xO, <- Zmult_mod. f_equal. rewrite <- Z.pow_2_r, <- Z.pow_mul_r by lia. f_equal. lia.
  - rewrite Z.pow_1_r. reflexivity.
Qed.
Lemma literal_is : forall n s v, 0 <= n -> string_value ascii_alnum (text s) = v -> 0 <= v < modulus n -> forallb (fun c => 0 <=? c) (text s) = true ->
  yields n (from_literal n false ascii_alnum (text s)) v.
Proof.
  intros n s v Hn <- Hv Hp. rewrite <- (Z.mod_small (string_value ascii_alnum (text s)) (modulus n)) by exact Hv.
  apply C32_literal_construction; [exact Hn| | |].
  - intros c H. unfold ascii_alnum. destruct H as [H|[H|H]]; repeat (match goal with |- context [?a <=? ?b] => destruct (Z.leb_spec a b) end; try lia; cbn; auto).
  - reflexivity.
  - apply Forall_forall. intros c Hin. rewrite forallb_forall in Hp. specialize (Hp c Hin). apply Z.leb_le in Hp. exact Hp.
Qed.
Ltac lit v := apply (literal_is _ _ v); [lia|vm_compute; reflexivity|unfold modulus; lia|vm_compute; reflexivity].
Example C86_example : exists b p m r os,
  from_literal 4 false ascii_alnum (text "10888869450418352160768000001"%string) = Ok b /\
  from_literal 3 false ascii_alnum (text "99990001"%string) = Ok p /\
  from_literal 8 false ascii_alnum (text "8683317618811886495518194401279999999"%string) = Ok m /\
  readme_powm cfg0 4 3 8 b p m = Ok r /\ stream_insert cfg0 8 cout0 r = Ok os /\
  out os = text "6680141832773294447513292887050873529"%string.
Proof.
  assert (H1 : yields 4 (from_literal 4 false ascii_alnum (text "10888869450418352160768000001"%string)) 10888869450418352160768000001) by lit 10888869450418352160768000001.
  assert (H2 : yields 3 (from_literal 3 false ascii_alnum (text "99990001"%string)) 99990001) by lit 99990001.
  assert (H3 : yields 8 (from_literal 8 false ascii_alnum (text "8683317618811886495518194401279999999"%string)) 8683317618811886495518194401279999999) by lit 8683317618811886495518194401279999999.
  destruct H1 as (b & E1 & W1 & V1). destruct H2 as (p & E2 & W2 & V2). destruct H3 as (m & E3 & W3 & V3).
  destruct (C86_powm_doubled_precision cfg0 4 3 8 b p m) as (r & E4 & W4 & V4); auto; try lia; [rewrite V3; unfold modulus; lia|].
  assert (V : bval r = 6680141832773294447513292887050873529).
  { rewrite V4, V1, V2, V3, <- pmod_eq by lia. vm_compute. reflexivity. }
  destruct (C37_stream_insertion cfg0 8 cout0 r (text "6680141832773294447513292887050873529"%string) W4) as (os & E5 & O5); [reflexivity|lia|left; lia| |].
  { rewrite V. numeral_of "6680141832773294447513292887050873529"%string. }
  exists b, p, m, r, os. split; [exact E1|]. split; [exact E2|]. split; [exact E3|]. split; [exact E4|]. split; [exact E5|]. exact O5.
Qed.

(** ** C87: the README's second form (l.119-120), with an exponent of another precision.  Missing (false, see
    C26): base 0, for which the result is 1, and modulus 1. *)
Theorem C87_powm_mixed_doubled_partial : forall cfg n m base power modulo, 1 <= n -> 2 * n <= m ->
  wf n base -> wf n power -> wf n modulo -> 1 < bval modulo -> bval base <> 0 ->
  yields m (readme_powm2 cfg n m base power modulo) (bval base ^ bval power mod bval modulo).
Proof.
  intros cfg n m base power modulo Hn Hm Wb Wp Wm M1 B0. unfold readme_powm2.
  assert (MM : modulus n * modulus n <= modulus m) by (unfold modulus; rewrite <- Z.pow_add_r by lia; apply Z.pow_le_mono_r; lia).
  pose proof (modulus_pos n ltac:(lia)) as PN. assert (L : modulus n <= modulus n * modulus n) by (clear - PN; nia).
  pose proof (bval_bound n base Wb) as Bb. pose proof (bval_bound n modulo Wm) as Bm.
  destruct (precisionCast_spec cfg n m base Wb ltac:(lia)) as (b & -> & Wb' & Vb). cbn [bind]. rewrite Z.mod_small in Vb by lia.
  destruct (precisionCast_spec cfg n m modulo Wm ltac:(lia)) as (q & -> & Wq & Vq). cbn [bind]. rewrite Z.mod_small in Vq by lia.
  destruct (Z.eqb_spec (bval base) 1) as [E1|N1].
  - rewrite E1, Z.pow_1_l, Z.mod_1_l by (pose proof (bval_bound n power Wp); lia). apply powm_x_base1; auto; lia.
  - assert (H : yields m (powm_x cfg m n b power q) (if bval power =? 0 then 1 else bval b ^ bval power mod bval q)).
    { apply powm_x_spec; auto; try lia. rewrite Vq. clear - MM Bm M1. nia. }
    rewrite Vb, Vq in H. destruct (Z.eqb_spec (bval power) 0) as [->|]; [|exact H]. rewrite Z.pow_0_r, Z.mod_1_l by lia. exact H.
Qed.
Print Assumptions C87_powm_mixed_doubled_partial.
Theorem C87_powm_mixed_doubled_refuted : forall cfg n m base power modulo, 1 <= n -> 2 * n <= m ->
  wf n base -> wf n power -> wf n modulo -> 1 < bval modulo -> bval base = 0 -> 0 < bval power ->
  yields m (readme_powm2 cfg n m base power modulo) 1 /\ 1 <> bval base ^ bval power mod bval modulo.
Proof.
  intros cfg n m base power modulo Hn Hm Wb Wp Wm M1 B0 P0. split; [|rewrite B0, Z.pow_0_l, Z.mod_0_l by lia; lia]. unfold readme_powm2.
  destruct (precisionCast_spec cfg n m base Wb ltac:(lia)) as (b & -> & Wb' & Vb). cbn [bind]. rewrite B0, Z.mod_0_l in Vb by (pose proof (modulus_pos m); lia).
  destruct (precisionCast_spec cfg n m modulo Wm ltac:(lia)) as (q & -> & Wq & Vq). cbn [bind]. unfold powm_x.
  rewrite !op_eq_u32_spec by (auto; lia). cbn [bind]. rewrite Vb. cbn [Z.eqb].
  replace 1 with (1 mod modulus m) at 2; [apply from_unsigned_correct; [lia|apply len_zeros; lia|lia]|].
  apply Z.mod_1_l. apply Z.lt_le_trans with (2 ^ 32); [lia|]. apply Z.pow_le_mono_r; lia.
Qed.
Print Assumptions C87_powm_mixed_doubled_refuted.
Example C87_refuted_example : wf 2 [0; 0] /\ wf 2 [5; 0] /\ wf 2 [7; 0] /\ readme_powm2 cfg0 2 4 [0; 0] [5; 0] [7; 0] = Ok [1; 0; 0; 0].
Proof. split; [wfc|]. split; [wfc|]. split; [wfc|]. vm_compute; reflexivity. Qed.
(** README l.113-120 with its numbers: at 256 bits the result is the one shown. *)
Example C87_example : exists b p m r os,
  from_literal 4 false ascii_alnum (text "340199290171201906239764863559915798527"%string) = Ok b /\
  from_literal 4 false ascii_alnum (text "340282366920937859000464800151540596704"%string) = Ok p /\
  from_literal 4 false ascii_alnum (text "338953138925230918806032648491249958912"%string) = Ok m /\
  readme_powm2 cfg0 4 8 b p m = Ok r /\ stream_insert cfg0 8 cout0 r = Ok os /\
  out os = text "201007033690655614485250957754150944769"%string.
Proof.
  assert (H1 : yields 4 (from_literal 4 false ascii_alnum (text "340199290171201906239764863559915798527"%string)) 340199290171201906239764863559915798527) by lit 340199290171201906239764863559915798527.
  assert (H2 : yields 4 (from_literal 4 false ascii_alnum (text "340282366920937859000464800151540596704"%string)) 340282366920937859000464800151540596704) by lit 340282366920937859000464800151540596704.
  assert (H3 : yields 4 (from_literal 4 false ascii_alnum (text "338953138925230918806032648491249958912"%string)) 338953138925230918806032648491249958912) by lit 338953138925230918806032648491249958912.
  destruct H1 as (b & E1 & W1 & V1). destruct H2 as (p & E2 & W2 & V2). destruct H3 as (m & E3 & W3 & V3).
  destruct (C87_powm_mixed_doubled_partial cfg0 4 8 b p m) as (r & E4 & W4 & V4); auto; try lia.
  assert (V : bval r = 201007033690655614485250957754150944769).
  { rewrite V4, V1, V2, V3, <- pmod_eq by lia. vm_compute. reflexivity. }
  destruct (C37_stream_insertion cfg0 8 cout0 r (text "201007033690655614485250957754150944769"%string) W4) as (os & E5 & O5); [reflexivity|lia|left; lia| |].
  { rewrite V. numeral_of "201007033690655614485250957754150944769"%string. }
  exists b, p, m, r, os. split; [exact E1|]. split; [exact E2|]. split; [exact E3|]. split; [exact E4|]. split; [exact E5|]. exact O5.
Qed.
(** ... while without the doubled precision the products of l.113-116 overflow: the same happens at 32 bits. *)
Example C87_overflow_example : powm cfg0 1 [65537 * 3] [5] [4294967291] = Ok [79626483] /\ (65537 * 3) ^ 5 mod 4294967291 <> 79626483.
Proof. split; vm_compute; [reflexivity|discriminate]. Qed.
