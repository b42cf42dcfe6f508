(** * TextShort: getString told a buffer size smaller than the text, inside an array that is large enough. *)
From Coq Require Import ZifyBool.
From Verif Require Export TextMore.
Open Scope Z_scope.

Lemma znth_app_l (a b : list Z) q : q < len a -> znth (a ++ b) q = znth a q.
Proof.
  revert q. induction a as [|x a IH]; intros q H; [change (len (@nil Z)) with 0 in H; rewrite !znth_out by (change (len (@nil Z)) with 0; lia); auto|].
  rewrite len_cons in H. cbn [app]. destruct (Z.lt_trichotomy q 0) as [N|[->|P] ]; [rewrite !znth_out by lia; auto|now rewrite !znth_cons_0|].
  rewrite !znth_cons_S by lia. apply IH. lia.
Qed.
Lemma znth_app_r (a b : list Z) q : len a <= q -> znth (a ++ b) q = znth b (q - len a).
Proof.
  revert q. induction a as [|x a IH]; intros q H; [change (len (@nil Z)) with 0; rewrite Z.sub_0_r; auto|].
  rewrite len_cons in *. pose proof (len_nonneg a). cbn [app]. rewrite znth_cons_S by lia. rewrite IH by lia. f_equal. lia.
Qed.
Lemma znth_firstn (l : list Z) k q : q < k -> znth (firstn (Z.to_nat k) l) q = znth l q.
Proof.
  intros H. destruct (Z.lt_ge_cases q 0); [rewrite !znth_out by lia; auto|].
  rewrite <- (firstn_skipn (Z.to_nat k) l) at 2. destruct (Z.lt_ge_cases q (len (firstn (Z.to_nat k) l))) as [L|L]; [now rewrite znth_app_l|].
  rewrite (znth_out (firstn _ l)) by lia. symmetry. rewrite znth_out; auto.
  rewrite len_app. unfold len in *. rewrite firstn_length in *. rewrite skipn_length. lia.
Qed.
Lemma len_firstn (l : list Z) k : 0 <= k <= len l -> len (firstn (Z.to_nat k) l) = k.
Proof. intros H. unfold len in *. rewrite firstn_length. lia. Qed.

Lemma set_chars_at cs : forall b pos, 0 <= pos -> pos + len cs <= len b -> exists b', set_chars b pos cs = Ok b' /\ len b' = len b /\
  forall q, znth b' q = if (pos <=? q) && (q <? pos + len cs) then znth cs (q - pos) else znth b q.
Proof.
  induction cs as [|c cs IH]; intros b pos H0 H.
  - exists b. conjs; auto. intros q. change (len (@nil Z)) with 0. replace ((pos <=? q) && (q <? pos + 0)) with false by lia. auto.
  - rewrite len_cons in H. pose proof (len_nonneg cs). cbn [set_chars]. rewrite aset_ok by lia. cbn [bind].
    destruct (IH (upd b (Z.to_nat pos) c) (pos + 1)) as (b' & E & L & V); [lia|rewrite len_upd; lia|]. exists b'. rewrite len_upd in L. conjs; auto.
    intros q. rewrite V, len_cons, znth_upd by lia.
    destruct (Z.eq_dec q pos) as [->|N].
    + replace ((pos + 1 <=? pos) && (pos <? pos + 1 + len cs)) with false by lia. replace ((pos <=? pos) && (pos <? pos + (1 + len cs))) with true by lia.
      rewrite Z.eqb_refl, Z.sub_diag, znth_cons_0. auto.
    + replace (pos =? q) with false by lia.
      destruct ((pos <=? q) && (q <? pos + (1 + len cs))) eqn:G.
      * replace ((pos + 1 <=? q) && (q <? pos + 1 + len cs)) with true by lia. rewrite znth_cons_S by lia. f_equal. lia.
      * replace ((pos + 1 <=? q) && (q <? pos + 1 + len cs)) with false by lia. auto.
Qed.

Lemma print_short wfail B text buffer p : 2 <= B < 2 ^ 62 -> 0 <= p -> 1 <= len text <= 8 -> p + len text + 1 <= len buffer -> len buffer < 2 ^ 62 ->
  exists b, print_block false wfail B text (buffer, p) = Ok (b, p + len text) /\ len b = len buffer /\
    (forall q, q <> p + len text ->
      znth b q = if (p <=? q) && (q <? p + len text) then short_cell B p (p + len text) q (znth text (q - p)) (znth buffer q) else znth buffer q)
    /\ (p + len text = B -> znth b B = znth buffer B).
Proof.
  intros HB Hp Ht HL HL2. unfold print_block. cbv zeta. rewrite (u64_small (p + len text)) by lia. unfold short_cell.
  destruct (Z.lt_trichotomy p B) as [LT|[->|GT] ].
  - rewrite (u64_small (B - p)) by lia. replace (B - p =? 0) with false by lia.
    destruct (Z.ltb_spec (p + len text) B) as [F|F].
    + rewrite firstn_all2 by (unfold len in *; lia).
      destruct (set_chars_at (text ++ [0]) buffer p Hp) as (b & E & L & V); [rewrite len_app; change (len [0]) with 1; lia|]. rewrite E. cbn [bind]. exists b. conjs; auto; [|lia].
      intros q Nq. rewrite V, len_app. change (len [0]) with 1. destruct ((p <=? q) && (q <? p + len text)) eqn:G.
      * replace ((p <=? q) && (q <? p + (len text + 1))) with true by lia. apply znth_app_l. lia.
      * replace ((p <=? q) && (q <? p + (len text + 1))) with false by lia. auto.
    + assert (LF : len (firstn (Z.to_nat (B - p - 1)) text) = B - p - 1) by (apply len_firstn; lia).
      destruct (set_chars_at (firstn (Z.to_nat (B - p - 1)) text ++ [0]) buffer p Hp) as (b & E & L & V); [rewrite len_app, LF; change (len [0]) with 1; lia|]. rewrite E. cbn [bind]. exists b. conjs; auto.
      2: { intros Q. rewrite V, len_app, LF. change (len [0]) with 1. replace ((p <=? B) && (B <? p + (B - p - 1 + 1))) with false by lia. auto. }
      intros q Nq. rewrite V, len_app, LF. change (len [0]) with 1. replace (p <? B) with true by lia.
      destruct ((p <=? q) && (q <? p + (B - p - 1 + 1))) eqn:G.
      * replace ((p <=? q) && (q <? p + len text)) with true by lia. destruct (Z.ltb_spec q (B - 1)).
        -- rewrite znth_app_l by lia. apply znth_firstn. lia.
        -- replace (q =? B - 1) with true by lia. rewrite znth_app_r by lia. rewrite LF. replace (q - p - (B - p - 1)) with 0 by lia. reflexivity.
      * replace (q <? B - 1) with (q <? p) by lia. destruct ((p <=? q) && (q <? p + len text)) eqn:G2; auto. replace (q <? p) with false by lia. replace (q =? B - 1) with false by lia. auto.
  - rewrite Z.sub_diag. change (u64 0 =? 0) with true. cbv iota. exists buffer. conjs; auto. intros q Nq. replace (B + len text <? B) with false by lia. rewrite Z.ltb_irrefl, Z.eqb_refl.
    destruct (_ && _); auto.
  - assert (U : u64 (B - p) = 2 ^ 64 + (B - p)).
    { unfold u64. symmetry. apply Z.mod_unique with (-1); lia. }
    rewrite U. replace (2 ^ 64 + (B - p) =? 0) with false by lia. rewrite firstn_all2 by (unfold len in *; lia).
    destruct (set_chars_at (text ++ [0]) buffer p Hp) as (b & E & L & V); [rewrite len_app; change (len [0]) with 1; lia|]. rewrite E. cbn [bind]. exists b. conjs; auto; [|lia].
    intros q Nq. rewrite V, len_app. change (len [0]) with 1. replace (p + len text <? B) with false by lia. replace (p <? B) with false by lia. replace (p =? B) with false by lia.
    destruct ((p <=? q) && (q <? p + len text)) eqn:G.
    + replace ((p <=? q) && (q <? p + (len text + 1))) with true by lia. apply znth_app_l. lia.
    + replace ((p <=? q) && (q <? p + (len text + 1))) with false by lia. auto.
Qed.

Lemma low_hex_at a : forall J i r, (i < J)%nat -> 0 <= r < 8 -> znth (low_hex a J) (8 * (Z.of_nat J - 1 - Z.of_nat i) + r) = znth (hex8 (znth a (Z.of_nat i))) r.
Proof.
  induction J as [|J IH]; intros i r Hi Hr; [lia|]. cbn [low_hex]. destruct (Nat.eq_dec i J) as [->|N].
  - rewrite znth_app_l by (rewrite hex8_len; lia). f_equal. lia.
  - rewrite znth_app_r by (rewrite hex8_len; lia). rewrite hex8_len. rewrite <- IH by lia. f_equal. lia.
Qed.
Lemma znth_map_chr upper l q : 0 <= q < len l -> znth (map (digit_char upper) l) q = digit_char upper (znth l q).
Proof.
  revert q. induction l as [|x l IH]; intros q H; [change (len (@nil Z)) with 0 in H; lia|]. rewrite len_cons in H. cbn [map].
  destruct (Z.eq_dec q 0) as [->|]; [now rewrite !znth_cons_0|]. rewrite !znth_cons_S by lia. apply IH. lia.
Qed.
(** [pos] is a block boundary of the text [s] placed at [P]: what a run has written when it gets there. *)
Definition short_inv (B P : Z) (s o b : list Z) (pos : Z) : Prop :=
  len b = len o /\ (forall q, P <= q < pos -> znth b q = short_at B P s q (znth o q)) /\
  (forall q, q < P \/ pos < q -> znth b q = znth o q) /\ (pos = B -> znth b B = znth o B).
Lemma short_step wfail B P s o b text pos : 2 <= B < 2 ^ 62 -> 0 <= P <= pos -> 1 <= len text <= 8 ->
  pos + len text <= P + len s -> P + len s + 1 <= len o -> len o < 2 ^ 62 ->
  (exists k, 0 <= k /\ pos + len text = P + len s - 8 * k) -> (pos = P \/ len text = 8) -> (forall r, 0 <= r < len text -> znth s (pos - P + r) = znth text r) ->
  short_inv B P s o b pos ->
  exists b', print_block false wfail B text (b, pos) = Ok (b', pos + len text) /\ short_inv B P s o b' (pos + len text).
Proof.
  intros HB HP Ht HE HL HL2 (k & Hk & Ek) H8 HS (Lb & V1 & V2 & V3).
  destruct (print_short wfail B text b pos) as (b' & E & L & V & VB); [lia|lia|lia|lia|lia|]. exists b'. split; auto. unfold short_inv. conjs.
  - lia.
  - intros q Hq. rewrite V by lia. destruct ((pos <=? q) && (q <? pos + len text)) eqn:G.
    + unfold short_at. assert (KQ : (P + len s - 1 - q) / 8 = k) by (symmetry; apply Z.div_unique with (P + len s - 1 - q - 8 * k); lia).
      rewrite KQ. rewrite <- Ek. replace (Z.max P (pos + len text - 8)) with pos by lia. replace (q - P) with (pos - P + (q - pos)) by lia. rewrite HS by lia.
      destruct (Z.eq_dec q pos) as [->|]; [|rewrite (V2 q) by lia; auto].
      unfold short_cell. destruct (pos + len text <? B) eqn:G1; auto. destruct (pos <? B) eqn:G2; [destruct (pos <? B - 1) eqn:G3; auto; destruct (pos =? B - 1) eqn:G4; auto; lia|].
      destruct (Z.eqb_spec pos B) as [->|]; auto.
    + apply V1. lia.
  - intros q Hq. pose proof (len_nonneg text). destruct (Z.eq_dec q (pos + len text)) as [->|]; [lia|]. rewrite V by lia. replace ((pos <=? q) && (q <? pos + len text)) with false by lia. apply V2. lia.
  - intros Q. rewrite (VB Q). apply V2. lia.
Qed.
Lemma hex_loop_short n upper wfail B a P s o J : wf n a -> 2 <= B < 2 ^ 62 -> 0 <= P -> P + len s + 1 <= len o -> len o < 2 ^ 62 ->
  (forall i r, (i < J)%nat -> 0 <= r < 8 -> znth s (len s - 8 * (Z.of_nat i + 1) + r) = znth (fmt_08x upper (znth a (Z.of_nat i))) r) ->
  8 * Z.of_nat J <= len s ->
  forall j, (j <= J)%nat -> Z.of_nat j <= n -> forall b, short_inv B P s o b (P + len s - 8 * Z.of_nat j) ->
  exists b', loopD j (Z.of_nat j) (fun i st => x <- aget a i ;; print_block false wfail B (fmt_08x upper x) st) (b, P + len s - 8 * Z.of_nat j) = Ok (b', P + len s) /\
    short_inv B P s o b' (P + len s).
Proof.
  intros W HB HP HL HL2 HS HJ. induction j as [|j IH]; intros Hj Hn b I.
  - cbn [loopD]. exists b. change (Z.of_nat 0) with 0 in *. rewrite Z.mul_0_r, Z.sub_0_r in *. auto.
  - cbn [loopD]. replace (Z.of_nat (S j) - 1) with (Z.of_nat j) by lia. rewrite aget_ok by (rewrite (wf_len _ _ W); lia). cbn [bind].
    assert (L8 : len (fmt_08x upper (znth a (Z.of_nat j))) = 8) by (unfold fmt_08x; rewrite len_map; apply hex8_len).
    destruct (short_step wfail B P s o b (fmt_08x upper (znth a (Z.of_nat j))) (P + len s - 8 * Z.of_nat (S j))) as (b1 & E1 & I1); auto; try lia.
    { exists (Z.of_nat j). lia. }
    { rewrite L8. intros r Hr. rewrite <- HS by lia. f_equal. lia. }
    rewrite E1. cbn [bind]. rewrite L8 in *. replace (P + len s - 8 * Z.of_nat (S j) + 8) with (P + len s - 8 * Z.of_nat j) in * by lia. apply IH; auto; lia.
Qed.

Lemma getString_short_hex cfg n upper wfail a buffer B showBase s : wf n a -> bval a <> 0 -> 1 <= n -> 2 <= B <= len buffer ->
  len buffer < 2 ^ 62 -> numeral upper 16 (bval a) s -> len (shown_in B showBase 16) + len s + 1 <= len buffer ->
  exists r, getString cfg n false upper wfail 16 a buffer B showBase = Ok (r, len (shown_in B showBase 16) + len s + 1) /\ len r = len buffer /\
    forall q, 0 <= q < len buffer -> znth r q =
      let P := len (shown_in B showBase 16) in
      if q <? P then znth (shown_in B showBase 16) q
      else if q <? P + len s then short_at B P s q (znth buffer q)
      else if q =? P + len s then 0 else znth buffer q.
Proof.
  intros W Hv Hn HB HL2 HS HL. pose proof (bval_bound n _ W) as Bv. cbv zeta.
  destruct (prefix_step B showBase 16 buffer) as (o & r & Eb & Lo & E); [lia|]. unfold getString. change gs_prefix with prefix_text.
  replace (B <? 2) with false by lia. rewrite E. cbn [bind]. rewrite isZero_spec by auto. replace (bval a =? 0) with false by lia. cbn [bind].
  change (16 =? 16) with true. cbv iota. set (pre := shown_in B showBase 16) in *. pose proof (len_nonneg pre) as LP.
  destruct (top_block_spec n a W ltac:(lia)) as (L & -> & HLn & Hz & HT). cbn [bind]. rewrite aget_ok by (rewrite (wf_len _ _ W); lia). cbn [bind].
  pose proof (hex_numeral n a L upper W ltac:(lia) HLn Hz HT Hv) as HN. pose proof (numeral_unique upper 16 (bval a) _ _ ltac:(lia) HS HN) as Es.
  set (t := fmt_x upper (znth a L)) in *.
  assert (Es2 : s = t ++ map (digit_char upper) (low_hex a (Z.to_nat L))) by (rewrite Es; unfold hex_digits; now rewrite map_app).
  assert (Ls : len s = len t + 8 * L). { rewrite Es2, len_app, len_map, low_hex_len. lia. }
  assert (LT : 1 <= len t <= 8).
  { unfold t, fmt_x. rewrite len_map. pose proof (strip0_len (hex8 (znth a L))). rewrite hex8_len in *. split; [|lia].
    destruct (strip0 (hex8 (znth a L))) as [|d0 l] eqn:S0; [|rewrite len_cons; pose proof (len_nonneg l); lia].
    exfalso.
    destruct (strip0_head (hex8 (znth a L))) as (d & u & S2 & _); [|congruence].
    rewrite hex8_value by (apply (wf_znth n); auto). destruct HT as [-> |]; auto. intros Q. apply Hv.
    rewrite <- hi_0, hi_step by (rewrite (wf_len _ _ W); lia). rewrite Q. rewrite (hi_zero n a (0 + 1)); auto; try lia; intros i Hi; apply Hz; lia. }
  assert (LB : len (pre ++ r) = len buffer) by (rewrite Eb, !len_app; lia).
  destruct (short_step wfail B (len pre) s (pre ++ r) (pre ++ r) t (len pre)) as (b1 & E1 & I1); auto; try lia.
  { exists L. lia. }
  { intros q Hq. rewrite Es2, znth_app_l by lia. f_equal. lia. }
  { unfold short_inv. conjs; auto. intros; lia. }
  rewrite E1. cbn [bind]. unfold forD. rewrite Z.sub_0_r.
  replace (len pre + len t) with (len pre + len s - 8 * Z.of_nat (Z.to_nat L)) in * by lia.
  destruct (hex_loop_short n upper wfail B a (len pre) s (pre ++ r) (Z.to_nat L)) with (j := Z.to_nat L) (b := b1) as (b2 & E2 & I2); auto; try lia.
  { intros i q Hi Hq. unfold fmt_08x. rewrite znth_map_chr by (rewrite hex8_len; lia). rewrite Es2 at 1. rewrite znth_app_r by lia.
    rewrite znth_map_chr by (rewrite low_hex_len; lia). f_equal. rewrite <- (low_hex_at a (Z.to_nat L) i q) by lia. f_equal. lia. }
  rewrite (Z2Nat.id L) in E2 at 1 by lia. rewrite (Z2Nat.id L) by lia. rewrite (Z2Nat.id L) in E2 by lia. rewrite E2. cbn [bind]. destruct I2 as (L2 & V1 & V2 & _). rewrite aset_ok by lia. cbn [bind].
  eexists. split; [f_equal; f_equal; apply u64_small; lia|]. rewrite len_upd. split; [lia|]. intros q Hq. rewrite znth_upd by lia.
  assert (OLD : len pre <= q -> znth (pre ++ r) q = znth buffer q).
  { intros. rewrite Eb, !znth_app_r by lia. f_equal. lia. }
  destruct (Z.ltb_spec q (len pre)).
  - replace (len pre + len s =? q) with false by lia. rewrite V2 by lia. apply znth_app_l. lia.
  - destruct (Z.ltb_spec q (len pre + len s)).
    + replace (len pre + len s =? q) with false by lia. rewrite V1 by lia. now rewrite OLD by lia.
    + rewrite (Z.eqb_sym q). destruct (Z.eqb_spec (len pre + len s) q); auto. rewrite V2 by lia. apply OLD. lia.
Qed.

(** Bases 2, 8 and 10: the low-order digits that fit, and the NUL one past the stated end. *)
Lemma led_app base : 2 <= base -> forall k j v, led base v (k + j) = led base v k ++ led base (v / base ^ Z.of_nat k) j.
Proof.
  intros Hb. induction k as [|k IH]; intros j v; cbn [led Nat.add app]; [now rewrite Z.pow_0_r, Z.div_1_r|]. f_equal. rewrite IH. f_equal. f_equal.
  rewrite Nat2Z.inj_succ, Z.pow_succ_r by lia. assert (0 < base ^ Z.of_nat k) by (apply Z.pow_pos_nonneg; lia). apply Z.div_div; lia.
Qed.
Lemma getString_short_digits cfg n wide upper wfail base a buffer B showBase s : wf n a -> bval a <> 0 -> base = 2 \/ base = 8 \/ base = 10 ->
  2 <= n -> 2 <= B < len buffer -> len buffer < 2 ^ 64 -> numeral false base (bval a) s ->
  B <= len (shown_in B showBase base) + len s ->
  getString cfg n wide upper wfail base a buffer B showBase =
    Ok (shown_in B showBase base ++ skipn (Z.to_nat (len (shown_in B showBase base) + len s - B)) s ++ 0 :: skipn (Z.to_nat (B + 1)) buffer, B + 1).
Proof.
  intros W Hv Hb Hn HB HL2 HS Hover. pose proof (bval_bound n _ W) as Bv.
  destruct (prefix_step B showBase base buffer) as (o & r & Eb & Lo & E); [lia|]. unfold getString. change gs_prefix with prefix_text.
  replace (B <? 2) with false by lia. rewrite E. cbn [bind]. rewrite isZero_spec by auto. replace (bval a =? 0) with false by lia. cbn [bind].
  replace (base =? 16) with false by lia. set (pre := shown_in B showBase base) in *.
  assert (LP : 0 <= len pre <= 2) by (subst pre; unfold shown_in; destruct (showBase && (B >? 3)); [apply prefix_text_len|cbn; lia]).
  assert (LB : len pre + len r = len buffer) by (rewrite Eb, len_app; lia).
  destruct (digit_loop_spec cfg n base B pre r a) as (k & od & rs & Er & Lod & -> & NZ & Hk & HE); [lia|lia|auto|rewrite len_app; lia|].
  cbn [bind]. replace (len pre + Z.of_nat k - len pre) with (len (map (fun d => 48 + d) (led base (bval a) k))) by (rewrite len_map, led_len; lia).
  rewrite reverse_spec. cbn [bind].
  destruct (digits_exist base (bval a) ltac:(lia) ltac:(lia)) as (K & ZK & NK).
  assert (Es : s = map (digit_char false) (rev (led base (bval a) K))).
  { apply (numeral_unique false base (bval a)); [lia|auto|]. apply led_numeral; auto; lia. }
  assert (LK : len s = Z.of_nat K) by (rewrite Es, len_map, len_rev, led_len; auto).
  assert (HkK : len pre + Z.of_nat k = B /\ (k <= K)%nat).
  { split.
    - destruct HE as [Z0|]; auto. assert (Z.of_nat K <= Z.of_nat k). { destruct (Z.le_gt_cases (Z.of_nat K) (Z.of_nat k)); auto. exfalso. apply (NK (Z.of_nat k)); auto. lia. } lia.
    - destruct (Nat.le_gt_cases k K); auto. exfalso. apply (NZ (Z.of_nat K)); [lia|auto]. }
  destruct HkK as [EB HkK]. pose proof (len_nonneg rs) as LR.
  assert (LR1 : 1 <= len rs). { rewrite Er, len_app in LB. lia. }
  destruct rs as [|y rs]; [change (len (@nil Z)) with 0 in LR1; lia|].
  replace (pre ++ rev (map (fun d => 48 + d) (led base (bval a) k)) ++ y :: rs) with ((pre ++ rev (map (fun d => 48 + d) (led base (bval a) k))) ++ y :: rs) by (now rewrite <- app_assoc).
  replace (len pre + Z.of_nat k) with (len (pre ++ rev (map (fun d => 48 + d) (led base (bval a) k)))) at 1 by (rewrite len_app, len_rev, len_map, led_len; lia).
  rewrite aset_mid. cbn [bind]. rewrite u64_small by lia. rewrite <- app_assoc. do 2 f_equal; [|lia].
  f_equal. f_equal.
  - replace (Z.to_nat (len pre + len s - B)) with (K - k)%nat by lia. rewrite Es. replace K with (k + (K - k))%nat at 2 by lia. rewrite led_app by lia. rewrite rev_app_distr, map_app.
    rewrite skipn_app, skipn_all2, !map_length, !rev_length, !led_length.
    2: { rewrite map_length, rev_length, led_length. lia. }
    rewrite Nat.sub_diag. cbn [app skipn]. rewrite <- map_rev. apply map_chr with base; [lia|].
    apply Forall_rev, led_range. lia.
  - f_equal. replace buffer with ((o ++ od ++ [y]) ++ rs) by (rewrite Eb, Er, <- !app_assoc; reflexivity).
    rewrite skipn_app, skipn_all2. 2: { unfold len in *. rewrite !app_length. cbn [length]. lia. }
    replace (Z.to_nat (B + 1) - length (o ++ od ++ [y]))%nat with O; [reflexivity|]. unfold len in *. rewrite !app_length. cbn [length]. lia.
Qed.
