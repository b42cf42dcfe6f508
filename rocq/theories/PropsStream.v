(** * PropsStream: C120 (sinks that refuse characters) and C121 (locales with digit grouping). *)
From Verif Require Import StreamFacts PropsText.
Open Scope Z_scope.

Ltac conjs := repeat match goal with |- _ /\ _ => split end.
Lemma orel_ok {A B} (R : A -> B -> Prop) x y a : orel R x y -> x = Ok a -> exists b, y = Ok b /\ R a b.
Proof. intros H ->. destruct y; cbn in H; [eauto|tauto]. Qed.
Lemma behind_signed cfg grp n base r u b a : 0 <= r -> behind base r u b ->
  orel (behind base r) (ss_insert_signed cfg grp n u a) (ss_insert_signed cfg grp n b a).
Proof.
  intros Hr H. unfold ss_insert_signed. destruct (sgn a).
  - cbn [orel]. apply behind_put; auto.
  - apply behind_insert; auto.
  - apply behind_insert; auto. apply behind_put; auto.
Qed.

(** ** C120.  Whatever the locale, width and flags: a sink with room for [r] characters gets the first [r] characters of
    what an unlimited sink would get, for any sequence of numbers inserted, and the stream reports the loss. *)
Theorem C120_prefix : forall cfg grp n os xs r u, 0 <= r -> ss_insert_all cfg grp n (mk_ss os None true) xs = Ok u ->
  exists t b, out (sos u) = out os ++ t /\ ss_insert_all cfg grp n (mk_ss os (Some r) true) xs = Ok b /\
    out (sos b) = out os ++ firstn (Z.to_nat r) t /\ (sgood b = true <-> len t <= r).
Proof.
  intros cfg grp n os xs r u Hr E.
  assert (G : forall xs s b, behind (out os) r s b -> orel (behind (out os) r) (ss_insert_all cfg grp n s xs) (ss_insert_all cfg grp n b xs)).
  { clear - Hr. induction xs as [|x xs IH]; intros s b H; cbn [ss_insert_all]; [exact H|].
    eapply orel_bind; [apply behind_signed; eauto|]. intros; apply IH; auto. }
  destruct (orel_ok _ _ _ _ (G xs _ _ (behind_start os r Hr)) E) as (b & Eb & _ & _ & _ & t & O & O' & GB & _).
  exists t, b. conjs; auto. rewrite GB. apply Z.leb_le.
Qed.
Print Assumptions C120_prefix.

(** In the classic locale, without a field width: exactly what is on the sink. *)
Theorem C120_failing_sink : forall cfg grp n os a s r, 0 <= r -> (forall t, grp t = t) -> wf n a -> width os = 0 -> 32 * n < 2 ^ 53 ->
  (3 <= n \/ (n = 2 /\ os_base os = 10) \/ (1 <= n /\ os_base os = 16)) ->
  numeral (uppercase os && (os_base os =? 16)) (os_base os) (bval a) s ->
  let text := os_shown os ++ s in
  exists b, ss_insert cfg grp n (mk_ss os (Some r) true) a = Ok b /\ out (sos b) = out os ++ firstn (Z.to_nat r) text /\
    (sgood b = true <-> len text <= r).
Proof.
  intros cfg grp n os a s r Hr HG W W0 H53 Hn HS text. destruct (C37_stream_insertion cfg n os a s W W0 H53 Hn HS) as (os' & E & O).
  pose proof (ss_insert_c cfg grp n os a HG) as RC. rewrite E in RC. destruct (ss_insert cfg grp n (mk_ss os None true) a) as [u|] eqn:EU; cbn in RC; [|tauto]. subst u.
  destruct (orel_ok _ _ _ _ (behind_insert cfg grp n (out os) r _ _ a Hr (behind_start os r Hr)) EU) as (b & Eb & _ & _ & _ & t & O1 & O2 & GB & _).
  cbn [sos] in O1. rewrite O in O1. apply app_inv_head in O1. subst t. exists b. fold text in O2, GB. conjs; auto. rewrite GB. apply Z.leb_le.
Qed.
Print Assumptions C120_failing_sink.
Theorem C120_failing_sink_signed : forall cfg grp n os a s r, 0 <= r -> (forall t, grp t = t) -> canon n a -> width os = 0 -> 32 * n < 2 ^ 53 ->
  (3 <= n \/ (n = 2 /\ os_base os = 10) \/ (1 <= n /\ os_base os = 16)) ->
  numeral (uppercase os && (os_base os =? 16)) (os_base os) (Z.abs (sval a)) s ->
  let text := (if sval a <? 0 then [45] else []) ++ (if sval a =? 0 then [] else os_shown os) ++ s in
  exists b, ss_insert_signed cfg grp n (mk_ss os (Some r) true) a = Ok b /\ out (sos b) = out os ++ firstn (Z.to_nat r) text /\
    (sgood b = true <-> len text <= r).
Proof.
  intros cfg grp n os a s r Hr HG W W0 H53 Hn HS text. destruct (C56_signed_stream cfg n os a s W W0 H53 Hn HS) as (os' & E & O).
  assert (EU : ss_insert_signed cfg grp n (mk_ss os None true) a = Ok (mk_ss os' None true)).
  { unfold ss_insert_signed, s_stream_insert in *.
    assert (P : forall o x, ss_put (mk_ss o None true) x = mk_ss (os_put o x) None true).
    { intros o x. unfold ss_put, ss_write, os_put, field. cbn [sgood sroom sos]. rewrite firstn_all. reflexivity. }
    destruct (sgn a).
    - rewrite P. congruence.
    - pose proof (ss_insert_c cfg grp n os (mag a) HG) as RC. rewrite E in RC. destruct (ss_insert cfg grp n _ _); cbn in RC; [congruence|tauto].
    - rewrite P. pose proof (ss_insert_c cfg grp n (os_put os [45]) (mag a) HG) as RC. rewrite E in RC. destruct (ss_insert cfg grp n _ _); cbn in RC; [congruence|tauto]. }
  destruct (orel_ok _ _ _ _ (behind_signed cfg grp n (out os) r _ _ a Hr (behind_start os r Hr)) EU) as (b & Eb & _ & _ & _ & t & O1 & O2 & GB & _).
  cbn [sos] in O1. rewrite O in O1. apply app_inv_head in O1. subst t. exists b. fold text in O2, GB. conjs; auto. rewrite GB. apply Z.leb_le.
Qed.
Print Assumptions C120_failing_sink_signed.
(** A stream that has already failed gets nothing, whatever is inserted. *)
Theorem C120_broken_stream : forall cfg grp n s xs s', sgood s = false -> ss_insert_all cfg grp n s xs = Ok s' ->
  out (sos s') = out (sos s) /\ sgood s' = false.
Proof.
  intros cfg grp n s xs s' B E. set (o := out (sos s)).
  set (R := fun u v : sstream => u = v /\ out (sos v) = o /\ sgood v = false).
  assert (P : forall u v x, R u v -> R (ss_put u x) (ss_put v x)).
  { intros u v x (-> & O & G). unfold ss_put. rewrite G. repeat split; auto. }
  assert (F : forall u v f, R u v -> keeps_case f -> R (ss_on f u) (ss_on f v)).
  { intros u v f (-> & O & G) K. unfold ss_on. destruct (keeps_out f (sos v) K) as (O' & _). repeat split; auto. cbn [sos]. congruence. }
  assert (I : forall u v a, R u v -> orel R (ss_insert cfg grp n u a) (ss_insert cfg grp n v a)).
  { intros u v a H. pose proof H as [-> _]. apply insert_rel; auto; [split; auto|]. intros x y [-> _]. reflexivity. }
  assert (G : forall xs u v, R u v -> orel R (ss_insert_all cfg grp n u xs) (ss_insert_all cfg grp n v xs)).
  { induction xs0 as [|x xs0 IH]; intros u v H; cbn [ss_insert_all]; [exact H|]. eapply orel_bind; [|intros; apply IH; eauto].
    unfold ss_insert_signed. destruct (sgn x); [cbn [orel]; auto|auto|auto]. }
  destruct (orel_ok _ _ _ _ (G xs s s ltac:(repeat split; auto)) E) as (b & Eb & -> & O & Gb). auto.
Qed.
Print Assumptions C120_broken_stream.
(** 2^64 + 2^32 - 1 in hexadecimal with base on a sink with room for five characters: "0x100"; then badbit. *)
Example C120_example :
  wf 3 exA /\ numeral false 16 (bval exA) [49; 48; 48; 48; 48; 48; 48; 48; 48; 102; 102; 102; 102; 102; 102; 102; 102] /\
  exists b, ss_insert cfg0 (fun t => t) 3 (mk_ss (mk_os [62] BHex true false 32 0 AdjNone) (Some 5) true) exA = Ok b /\
    out (sos b) = [62; 48; 120; 49; 48; 48] /\ sgood b = false /\ out (sos b) = [62] ++ firstn 5 ([48; 120] ++ [49; 48; 48; 48; 48; 48; 48; 48; 48; 102; 102; 102; 102; 102; 102; 102; 102]).
Proof.
  split; [wfc|]. split; [numc [1; 0; 0; 0; 0; 0; 0; 0; 0; 15; 15; 15; 15; 15; 15; 15; 15]|].
  eexists. split; [vm_compute; reflexivity|]. conjs; reflexivity.
Qed.

Lemma fmt_x_numeral up x : 0 <= x < 2 ^ 32 -> numeral up 16 x (fmt_x up x).
Proof.
  intros Hx. destruct (Z.eq_dec x 0) as [-> |N].
  { exists [0]. split; [reflexivity|]. split; [constructor; [lia|constructor]|]. split; [reflexivity|left; reflexivity]. }
  assert (W : wf 1 [x]) by (split; [reflexivity|constructor; auto]).
  assert (B : bval [x] = x) by (cbn; lia).
  pose proof (hex_numeral 1 [x] 0 up W ltac:(lia) ltac:(lia)) as H. rewrite B in H. unfold hex_digits in H. cbn [Z.to_nat low_hex] in H. rewrite app_nil_r in H.
  apply H; auto. intros j Hj. apply znth_out. cbn. lia.
Qed.

(** ** C121: the text does not depend on the digit grouping of the stream's locale.  False in hexadecimal, where the
    blocks are inserted as integers. *)
Theorem C121_locale_partial : forall cfg grp n s a,
  (os_base (sos s) <> 16 \/ (forall x, 0 <= x < 2 ^ 32 -> forall up t, numeral up 16 x t -> grp t = t)) -> wf n a ->
  ss_insert cfg grp n s a = ss_insert cfg (fun t => t) n s a.
Proof.
  intros cfg grp n s a H W. unfold ss_insert. fold (os_base (sos s)). cbv zeta. destruct (isZero n a) as [z|]; [cbn [bind]|reflexivity]. destruct z; [reflexivity|].
  destruct (Z.eqb_spec (os_base (sos s)) 16) as [B16|N16]; [|reflexivity]. destruct H as [N|G]; [congruence|].
  assert (FX : forall up x, 0 <= x < 2 ^ 32 -> grp (fmt_x up x) = fmt_x up x).
  { intros up x Hx. apply (G x Hx up). apply fmt_x_numeral; auto. }
  destruct (top_block n a) as [i|]; [cbn [bind]|reflexivity]. destruct (aget a i) as [x|] eqn:EX; [cbn [bind]|reflexivity].
  assert (R : forall j y, aget a j = Ok y -> 0 <= y < 2 ^ 32).
  { intros j y E. destruct (Z_le_gt_dec 0 j), (Z_lt_le_dec j (len a)); try (rewrite aget_err in E by lia; discriminate). rewrite aget_ok in E by lia. injection E as <-. apply (wf_znth n); auto. }
  unfold ss_put_int. rewrite FX by (eapply R; eauto).
  set (s0 := ss_put _ _). clearbody s0. unfold forD. generalize (Z.to_nat (i - 0)). intros c. generalize i s0.
  induction c as [|c IH]; intros k t; cbn [loopD]; [reflexivity|]. destruct (aget a (k - 1)) as [y|] eqn:EY; [cbn [bind]|reflexivity]. rewrite FX by (eapply R; eauto). apply IH.
Qed.
Print Assumptions C121_locale_partial.
(** f (j - 1) ++ ... ++ f 0 *)
Fixpoint below (f : Z -> list Z) (j : nat) : list Z := match j with O => [] | S j => f (Z.of_nat j) ++ below f j end.
(** In hexadecimal, exactly what is printed: the 32-bit blocks from the highest non-zero one down, each grouped on its own;
    all but the first padded with zeros to eight characters. *)
Theorem C121_hexadecimal : forall cfg grp n os a txt, 1 <= n -> wf n a -> bval a <> 0 -> basef os = BHex -> width os = 0 ->
  (forall x, 0 <= x < 2 ^ 32 -> numeral (uppercase os) 16 x (txt x)) ->
  let top := Z.log2 (bval a) / 32 in
  let block i := bval a / 2 ^ (32 * i) mod 2 ^ 32 in
  exists s', ss_insert cfg grp n (mk_ss os None true) a = Ok s' /\ sgood s' = true /\
    out (sos s') = out os ++ os_shown os ++ grp (txt (block top)) ++
      below (fun i => repeat 48 (Z.to_nat (8 - len (grp (txt (block i))))) ++ grp (txt (block i))) (Z.to_nat top).
Proof.
  intros cfg grp n os a txt Hn W V BH W0 HT top block. pose proof (bval_bound n a W) as BV.
  assert (FX : forall x, 0 <= x < 2 ^ 32 -> fmt_x (uppercase os) x = txt x).
  { intros x Hx. apply (numeral_unique (uppercase os) 16 x); auto; [lia|apply fmt_x_numeral; auto]. }
  assert (P : forall o x, ss_put (mk_ss o None true) x = mk_ss (os_put o x) None true).
  { intros o x. unfold ss_put, ss_write, os_put, field. cbn [sgood sroom sos]. rewrite firstn_all. reflexivity. }
  unfold ss_insert. cbn [sos]. fold (os_base os). cbv zeta.
  match goal with |- context [if showbase os && ?c then ss_on os_noshowbase (ss_put ?s0 ?x0) else ?s0] =>
    replace (if showbase os && c then ss_on os_noshowbase (ss_put s0 x0) else s0) with (mk_ss (if showbase os && c then os_noshowbase (os_put os x0) else os) None true)
      by (destruct (showbase os && c); [rewrite P|]; reflexivity) end.
  rewrite stream_prefix by auto. rewrite isZero_spec by auto. replace (bval a =? 0) with false by (symmetry; apply Z.eqb_neq; auto). cbn [bind].
  assert (B16 : os_base os = 16) by (unfold os_base; rewrite BH; reflexivity). rewrite B16. cbn [Z.eqb Pos.eqb].
  destruct (top_block_spec n a W Hn) as (L & -> & HLn & Hz & HTp). cbn [bind]. rewrite aget_ok by (rewrite (wf_len _ _ W); lia). cbn [bind].
  assert (BL : forall i, 0 <= i < n -> znth a i = block i) by (intros i Hi; apply (znth_digit n); auto).
  assert (NZ : znth a L <> 0).
  { destruct HTp as [-> |]; auto. intros Z0. destruct (filled_bounds n a 0 W ltac:(lia)) as [FB _]; [|auto|change (2 ^ (32 * 0)) with 1 in FB; lia].
    intros j Hj. destruct (Z.eq_dec j 0) as [-> |]; auto. apply Hz. lia. }
  destruct (filled_bounds n a (L + 1) W ltac:(lia)) as [FB [F0|FL] ]; [intros; apply Hz; lia|right; replace (L + 1 - 1) with L by lia; auto|lia|].
  replace (L + 1 - 1) with L in FL by lia.
  assert (TL : top = L).
  { unfold top. pose proof (Z.log2_le_mono _ _ FL) as G1. rewrite Z.log2_pow2 in G1 by lia.
    assert (G2 : Z.log2 (bval a) < 32 * (L + 1)) by (apply Z.log2_lt_pow2; lia).
    symmetry. apply (Z.div_unique_pos _ 32 L (Z.log2 (bval a) - 32 * L)); lia. }
  rewrite TL. unfold ss_put_int. rewrite P. cbn [uppercase sos]. rewrite (BL L), FX by (try lia; apply Z.mod_pos_bound; lia).
  set (F := fun i => repeat 48 (Z.to_nat (8 - len (grp (txt (block i))))) ++ grp (txt (block i))).
  assert (LOOP : forall j o, Z.of_nat j <= n -> uppercase o = uppercase os -> width o = 0 ->
    exists o', loopD j (Z.of_nat j) (fun i s => x <- aget a i ;; Ok (ss_put (ss_on (fun os => os_right (os_width (os_fill os 48) 8)) s) (grp (fmt_x (uppercase (sos (ss_on (fun os => os_right (os_width (os_fill os 48) 8)) s))) x))))
        (mk_ss o None true) = Ok (mk_ss o' None true) /\ out o' = out o ++ below F j).
  { induction j as [|j IH]; intros o Hj U Wo; cbn [loopD below].
    - exists o. split; auto. rewrite app_nil_r. auto.
    - replace (Z.of_nat (S j) - 1) with (Z.of_nat j) by lia. rewrite aget_ok by (rewrite (wf_len _ _ W); lia). cbn [bind].
      change (ss_on (fun os => os_right (os_width (os_fill os 48) 8)) (mk_ss o None true)) with (mk_ss (os_right (os_width (os_fill o 48) 8)) None true).
      cbn [sos]. rewrite P. change (uppercase (os_right (os_width (os_fill o 48) 8))) with (uppercase o). rewrite U.
      rewrite (BL (Z.of_nat j)), FX by (try lia; apply Z.mod_pos_bound; lia).
      destruct (IH (os_put (os_right (os_width (os_fill o 48) 8)) (grp (txt (block (Z.of_nat j)))))) as (o' & E & O); [lia|exact U|reflexivity|].
      exists o'. split; [exact E|]. rewrite O. cbn [os_put out os_right os_width os_fill adj width fillc]. rewrite <- app_assoc. reflexivity. }
  unfold forD. rewrite Z.sub_0_r.
  match goal with |- context [loopD _ _ _ (mk_ss ?o None true)] => destruct (LOOP (Z.to_nat L) o) as (o' & E & O); [lia|reflexivity|reflexivity|] end.
  rewrite Z2Nat.id in E by lia. eexists. split; [exact E|]. split; [reflexivity|]. cbn [sos]. rewrite O. rewrite os_put0 by reflexivity. cbn [out]. rewrite <- !app_assoc. reflexivity.
Qed.
Print Assumptions C121_hexadecimal.
(** So every locale that groups the hexadecimal digits of some 32-bit number prints that number differently. *)
Theorem C121_locale_refuted : forall cfg grp n os a t, 1 <= n -> wf n a -> 0 < bval a < 2 ^ 32 -> basef os = BHex -> width os = 0 ->
  numeral (uppercase os) 16 (bval a) t -> grp t <> t ->
  exists s', ss_insert cfg grp n (mk_ss os None true) a = Ok s' /\ out (sos s') = out os ++ os_shown os ++ grp t /\
    out (sos s') <> out os ++ os_shown os ++ t.
Proof.
  intros cfg grp n os a t Hn W BV BH W0 HT HG.
  destruct (C121_hexadecimal cfg grp n os a (fmt_x (uppercase os)) Hn W ltac:(lia) BH W0 (fun x Hx => fmt_x_numeral (uppercase os) x Hx)) as (s' & E & _ & O).
  exists s'. split; [exact E|].
  assert (T0 : Z.log2 (bval a) / 32 = 0).
  { apply Z.div_small. split; [apply Z.log2_nonneg|]. apply Z.log2_lt_pow2; lia. }
  rewrite T0 in O. change (2 ^ (32 * 0)) with 1 in O. rewrite Z.div_1_r, Z.mod_small in O by lia. cbn [Z.to_nat below] in O. rewrite app_nil_r in O.
  rewrite (numeral_unique (uppercase os) 16 (bval a) _ t ltac:(lia) (fmt_x_numeral (uppercase os) (bval a) ltac:(lia)) HT) in O.
  split; [exact O|]. rewrite O. intros C. apply app_inv_head in C. apply app_inv_head in C. auto.
Qed.
Print Assumptions C121_locale_refuted.
(** Groups of three: 0x12345678 comes out as 12,345,678. *)
Definition group3 (t : list Z) : list Z :=
  let fix go (l : list Z) (k : nat) := match l with [] => [] | c :: r => match k with 3%nat => 44 :: c :: go r 1%nat | _ => c :: go r (S k) end end in rev (go (rev t) 0%nat).
Example C121_example :
  (exists s', ss_insert cfg0 group3 3 (mk_ss (mk_os [] BHex false false 32 0 AdjNone) None true) [305419896; 0; 0] = Ok s' /\ out (sos s') = [49; 50; 44; 51; 52; 53; 44; 54; 55; 56]) /\
  group3 [49; 50; 51; 52; 53; 54; 55; 56] <> [49; 50; 51; 52; 53; 54; 55; 56] /\
  (exists s', ss_insert cfg0 group3 3 (mk_ss (mk_os [] BDec false false 32 0 AdjNone) None true) [305419896; 0; 0] = Ok s' /\ out (sos s') = [51; 48; 53; 52; 49; 57; 56; 57; 54]).
Proof. split; [eexists; split; [vm_compute; reflexivity|reflexivity]|]. split; [vm_compute; discriminate|]. eexists; split; [vm_compute; reflexivity|reflexivity]. Qed.
