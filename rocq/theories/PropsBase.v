(** * PropsBase: getString for every base the template accepts (C123). *)
From Verif Require Import AnyBaseModel TextMore TextHex TextOut AeuDiv AeuArith AeuAccess Lib.
Open Scope Z_scope.

(** ** Specification.  The digits of [v]: below the base, positional value [v], the first one not zero. *)
Definition digits_of (base v : Z) (ds : list Z) : Prop :=
  Forall (fun d => 0 <= d < base) ds /\ dvalue base ds = v /\ exists d t, ds = d :: t /\ d <> 0.
(** The character the code uses for digit [d]: the one [d] places after '0', as a signed char. *)
Definition code (d : Z) : Z := if d <? 80 then 48 + d else d - 208.

Definition digit_body_any (cfg : config) (n base : Z) : Z -> list Z * list Z -> outcome (step (list Z * list Z) (list Z * Z)) :=
  fun position '(buffer, copy) =>
    z <- isZero n copy ;;
    if z : bool then Ok (Exit (buffer, position)) else
    d <- from_unsigned n (zeros n) base ;;
    '(quotient, remainder) <- divide cfg n copy d ;;
    r <- integralCast uint8 remainder ;;
    b <- aset buffer position (icast int8 (48 + r)) ;;
    Ok (Next (b, quotient)).
Lemma icast_code d : 0 <= d < 255 -> icast int8 (48 + d) = code d.
Proof.
  intros H. unfold icast, code. cbn [isigned iwidth int8 andb]. change (2 ^ (8 - 1)) with 128. change (2 ^ 8) with 256.
  destruct (Z.ltb_spec d 80).
  - rewrite (Z.mod_small (48 + d)) by lia. destruct (Z.leb_spec 128 (48 + d)); lia.
  - destruct (Z_lt_le_dec d 208).
    + rewrite (Z.mod_small (48 + d)) by lia. destruct (Z.leb_spec 128 (48 + d)); lia.
    + replace ((48 + d) mod 256) with (d - 208) by (apply Z.mod_unique_pos with 1; lia). destruct (Z.leb_spec 128 (d - 208)); lia.
Qed.

Lemma any_step cfg n base copy : 2 <= n -> 2 <= base <= 255 -> wf n copy ->
  exists q, wf n q /\ bval q = bval copy / base /\ forall buffer position,
  digit_body_any cfg n base position (buffer, copy) =
  if bval copy =? 0 then Ok (Exit (buffer, position)) else b <- aset buffer position (code (bval copy mod base)) ;; Ok (Next (b, q)).
Proof.
  intros Hn Hb W. pose proof (bval_bound n _ W) as B.
  assert (M : 2 ^ 64 <= modulus n). { unfold modulus. apply Z.pow_le_mono_r; lia. }
  destruct (from_unsigned_exact n base) as (d & Ed & Wd & Bd); [lia|lia|lia|].
  destruct (divide_pos cfg n copy d) as (q & r & Eq & (Wq & Bq) & (Wr & Br)); [lia|auto|auto|lia|].
  exists q. conjs; auto; [congruence|]. intros buffer position. unfold digit_body_any. rewrite isZero_spec by auto. cbn [bind].
  destruct (bval copy =? 0); auto. rewrite Ed. cbn [bind]. rewrite Eq. cbn [bind].
  rewrite (integralCast_spec _ n) by (auto; lia). cbn [bind]. rewrite Br, Bd.
  pose proof (Z.mod_pos_bound (bval copy) base ltac:(lia)).
  rewrite (Z.mod_small (bval copy mod base) (2 ^ 64)) by lia.
  replace (icast uint8 (bval copy mod base)) with (bval copy mod base).
  2:{ unfold icast. cbn [isigned iwidth uint8 andb]. rewrite (Z.mod_small (bval copy mod base) (2 ^ 8)); lia. }
  rewrite icast_code by lia. reflexivity.
Qed.

Lemma any_loop cfg n base bufferSize pre suf a : 2 <= n -> 2 <= base <= 255 -> wf n a -> len pre <= bufferSize <= len (pre ++ suf) ->
  exists (k : nat) old rest, suf = old ++ rest /\ len old = Z.of_nat k /\
    digit_loop_any cfg n base bufferSize (pre ++ suf) (len pre) a = Ok (pre ++ map code (led base (bval a) k) ++ rest, len pre + Z.of_nat k) /\
    (forall j, 0 <= j < Z.of_nat k -> bval a / base ^ j <> 0) /\ len pre + Z.of_nat k <= bufferSize /\
    (bval a / base ^ Z.of_nat k = 0 \/ len pre + Z.of_nat k = bufferSize).
Proof.
  intros Hn Hb W Hs. pose proof (bval_bound n _ W) as Bv. unfold digit_loop_any.
  change (fun position '(buffer, copy) => z <- isZero n copy ;;
    if z : bool then Ok (Exit (buffer, position)) else
    d <- from_unsigned n (zeros n) base ;;
    '(quotient, remainder) <- divide cfg n copy d ;;
    r <- integralCast uint8 remainder ;;
    b <- aset buffer position (icast int8 (48 + r)) ;;
    Ok (Next (b, quotient))) with (digit_body_any cfg n base).
  destruct (forUx_spec (fun i '(b, copy) => exists (k : nat) old rest, suf = old ++ rest /\ len old = Z.of_nat k /\ i = len pre + Z.of_nat k /\
       b = pre ++ map code (led base (bval a) k) ++ rest /\ wf n copy /\ bval copy = bval a / base ^ Z.of_nat k /\
       (forall j, 0 <= j < Z.of_nat k -> bval a / base ^ j <> 0))
     (fun '(b, i) => exists (k : nat) old rest, suf = old ++ rest /\ len old = Z.of_nat k /\ i = len pre + Z.of_nat k /\
       b = pre ++ map code (led base (bval a) k) ++ rest /\ bval a / base ^ Z.of_nat k = 0 /\ i <= bufferSize /\
       (forall j, 0 <= j < Z.of_nat k -> bval a / base ^ j <> 0))
     (len pre) bufferSize (digit_body_any cfg n base) (pre ++ suf, a)) as (x & E & P).
  - lia.
  - exists O, [], suf. change (Z.of_nat 0) with 0. rewrite Z.pow_0_r, Z.div_1_r. cbn [led map app]. conjs; auto; try (intros; lia).
  - intros i (b & copy) Hi (k & old & rest & -> & Lo & -> & -> & Wc & Vc & NZ).
    destruct (any_step cfg n base copy Hn Hb Wc) as (q & Wq & Vq & ->).
    destruct (Z.eqb_spec (bval copy) 0) as [Z0|Hne].
    + eexists. split; [reflexivity|]. cbn [step_post]. exists k, old, rest. conjs; auto; [congruence|lia].
    + destruct rest as [|y rest]. { exfalso. rewrite app_nil_r, len_app in Hs. lia. }
      rewrite app_assoc. replace (len pre + Z.of_nat k) with (len (pre ++ map code (led base (bval a) k))) by (rewrite len_app, len_map, led_len; auto).
      rewrite aset_mid. cbn [bind]. eexists. split; [reflexivity|]. cbn [step_post].
      exists (S k), (old ++ [y]), rest. rewrite led_snoc by lia.
      assert (Pk : 0 < base ^ Z.of_nat k) by (apply Z.pow_pos_nonneg; lia).
      conjs.
      * rewrite <- app_assoc. reflexivity.
      * rewrite len_app, len_cons, Lo. change (len (@nil Z)) with 0. lia.
      * try (rewrite len_app, len_map, led_len). lia.
      * rewrite map_app. cbn [map]. rewrite <- !app_assoc. cbn [app]. rewrite Vc. reflexivity.
      * auto.
      * rewrite Vq, Vc. rewrite Nat2Z.inj_succ, Z.pow_succ_r, Z.mul_comm by lia. apply Z.div_div; lia.
      * intros j Hj. destruct (Z.eq_dec j (Z.of_nat k)) as [-> | ]; [congruence|]. apply NZ. lia.
  - rewrite E. cbn [bind]. destruct x as [ [b copy] | [b i] ]; cbn [step_post] in P.
    + destruct P as (k & old & rest & -> & Lo & Ei & -> & Wc & Vc & NZ). exists k, old, rest. conjs; auto; [|lia].
      do 2 f_equal. lia.
    + destruct P as (k & old & rest & -> & Lo & Ei & -> & Vc & Hi & NZ). exists k, old, rest. conjs; auto; [|lia].
      do 2 f_equal. lia.
Qed.

(** [led] and the digits *)
Lemma digits_unique base v ds es : 2 <= base -> digits_of base v ds -> digits_of base v es -> ds = es.
Proof.
  intros Hb (F1 & V1 & H1) (F2 & V2 & H2).
  assert (N1 : numeral false base v (map (digit_char false) ds)) by (exists ds; conjs; auto).
  assert (N2 : numeral false base v (map (digit_char false) es)) by (exists es; conjs; auto).
  pose proof (numeral_unique false base v _ _ Hb N1 N2) as E.
  clear - E F1 F2. revert es E F2. induction ds as [|d t IH]; intros [|e u] E F2; cbn [map] in E; try discriminate; auto.
  inversion F1; inversion F2; subst. injection E as E1 E2. f_equal; [|apply IH; auto].
  unfold digit_char in E1. destruct (Z.ltb_spec d 10), (Z.ltb_spec e 10); lia.
Qed.
Lemma digits_len base v ds : 2 <= base -> digits_of base v ds -> 0 < v /\ v / base ^ len ds = 0 /\ (forall j, 0 <= j < len ds -> v / base ^ j <> 0).
Proof.
  intros Hb (F & V & d & t & -> & Hd). pose proof (numeral_low base d t Hb F Hd) as L. rewrite V in L. pose proof (len_nonneg t).
  assert (0 < base ^ len t) by (apply Z.pow_pos_nonneg; lia). rewrite len_cons.
  assert (U : v < base ^ (len t + 1)).
  { rewrite <- V. replace (len t + 1) with (len (d :: t)) by (rewrite len_cons; lia). apply (dvalue_bound base (d :: t) ltac:(lia) F). }
  conjs; [lia|apply Z.div_small; split; [lia|]; replace (1 + len t) with (len t + 1) by lia; auto|].
  intros j Hj E. assert (0 < base ^ j) by (apply Z.pow_pos_nonneg; lia). apply Z.div_small_iff in E; [|lia].
  assert (base ^ j <= base ^ len t) by (apply Z.pow_le_mono_r; lia). lia.
Qed.

Lemma led_low base : 2 <= base -> forall k ds, Forall (fun d => 0 <= d < base) ds -> Z.of_nat k <= len ds ->
  rev (led base (dvalue base ds) k) = skipn (Z.to_nat (len ds - Z.of_nat k)) ds.
Proof.
  intros Hb. induction k as [|k IH]; intros ds F Hk.
  - cbn [led rev]. rewrite Z.sub_0_r. unfold len. rewrite Nat2Z.id, skipn_all. reflexivity.
  - destruct (exists_last (l := ds)) as (l & d & ->). { intros ->. change (len (@nil Z)) with 0 in Hk. lia. }
    apply Forall_app in F. destruct F as [F1 F2]. inversion F2 as [|? ? Hd _]; subst. clear F2.
    rewrite len_app in *. change (len [d]) with 1 in *. rewrite dvalue_app, dvalue_one. change (len [d]) with 1. rewrite Z.pow_1_r.
    cbn [led rev]. rewrite (Z.div_add_l (dvalue base l) base d) by lia. rewrite (Z.div_small d base) by lia. rewrite Z.add_0_r.
    replace ((dvalue base l * base + d) mod base) with d. 2:{ rewrite Z.add_comm, Z.mod_add by lia. symmetry. apply Z.mod_small. lia. }
    rewrite IH by (auto; lia). rewrite skipn_app.
    replace (Z.to_nat (len l + 1 - Z.of_nat (S k))) with (Z.to_nat (len l - Z.of_nat k)) by lia.
    replace (Z.to_nat (len l - Z.of_nat k) - length l)%nat with O by (unfold len; lia). reflexivity.
Qed.

(** ** C123 *)
(** Every base from 2 to 255 other than 16, every buffer and stated size from 2 up to the array's: the prefix (bases
    2 and 8), then one character per digit, as many low digits as fit the stated size, then NUL - which is outside the
    array exactly when the digits fill it.  [L] digits, [P] prefix characters, [k] digits written. *)
Theorem C123_any_base_partial : forall cfg n upper base a ds buffer bufferSize showBase, 2 <= n -> wf n a ->
  2 <= base <= 255 -> base <> 16 -> digits_of base (bval a) ds -> 2 <= bufferSize <= len buffer -> len buffer < 2 ^ 63 ->
  let P := len (shown_in bufferSize showBase base) in
  let k := Z.min (len ds) (bufferSize - P) in
  getString_any cfg n upper base a buffer bufferSize showBase =
    if P + k <? len buffer
    then Ok (shown_in bufferSize showBase base ++ map code (skipn (Z.to_nat (len ds - k)) ds) ++
             0 :: skipn (Z.to_nat (P + k + 1)) buffer, P + k + 1)
    else Err OutOfBounds.
Proof.
  intros cfg n upper base a ds buffer bufferSize showBase Hn W Hb N16 HD HB H63 P k.
  destruct (digits_len base (bval a) ds ltac:(lia) HD) as (Vpos & V0 & VN). destruct HD as (F & V & _).
  destruct (prefix_step bufferSize showBase base buffer) as (o & r & -> & Lo & E); [lia|]. unfold getString_any. change gs_prefix with prefix_text.
  replace (base =? 16) with false by (symmetry; apply Z.eqb_neq; auto).
  replace (bufferSize <? 2) with false by (symmetry; apply Z.ltb_ge; lia). rewrite E. cbn [bind]. rewrite isZero_spec by auto.
  replace (bval a =? 0) with false by (symmetry; apply Z.eqb_neq; lia). cbn [bind].
  set (pre := shown_in bufferSize showBase base) in *. fold P in Lo.
  assert (LP : 0 <= P <= 2) by (subst P pre; unfold shown_in; destruct (showBase && (bufferSize >? 3)); [apply prefix_text_len|cbn; lia]).
  rewrite len_app in *. pose proof (len_nonneg r). pose proof (len_nonneg ds).
  destruct (any_loop cfg n base bufferSize pre r a) as (j & od & rs & -> & Lod & -> & NZ & Hk & HE); [lia|auto|auto|fold P; rewrite len_app; fold P; lia|].
  fold P in Hk, HE |- *. cbn [bind].
  assert (Kj : Z.of_nat j = k).
  { subst k. destruct (Z_lt_le_dec (len ds) (Z.of_nat j)) as [Hc|Hc]. { exfalso. apply (NZ (len ds)); [lia|auto]. }
    destruct HE as [Z0|E1]; [|lia]. destruct (Z_lt_le_dec (Z.of_nat j) (len ds)) as [Hc2|Hc2]; [exfalso; apply (VN (Z.of_nat j)); [lia|auto]|lia]. }
  replace (P + Z.of_nat j - P) with (len (map code (led base (bval a) j))) by (rewrite len_map, led_len; lia).
  subst P. rewrite reverse_spec. cbn [bind]. set (P := len pre) in *.
  rewrite <- map_rev. rewrite <- V, led_low by (auto; lia). rewrite Kj. rewrite len_app in *.
  set (t := map code (skipn (Z.to_nat (len ds - k)) ds)).
  assert (Lt : len t = k). { subst t. rewrite len_map. unfold len in *. rewrite skipn_length. lia. }
  destruct (Z.ltb_spec (P + k) (len o + (len od + len rs))) as [Hf|Hf].
  - destruct rs as [|y rs]. { exfalso. change (len (@nil Z)) with 0 in *. lia. }
    rewrite app_assoc. replace (P + k) with (len (pre ++ t)) at 1 by (rewrite len_app, Lt; auto). rewrite aset_mid. cbn [bind].
    unfold u64. rewrite (Z.mod_small (P + k + 1) (2 ^ 64)) by lia. rewrite <- app_assoc. do 5 f_equal.
    replace (o ++ od ++ y :: rs) with ((o ++ od ++ [y]) ++ rs) by (rewrite <- !app_assoc; reflexivity).
    apply skipn_old. rewrite !len_app. change (len [y]) with 1. lia.
  - assert (rs = []) as ->. { destruct rs; auto. rewrite len_cons in *. pose proof (len_nonneg rs). lia. }
    rewrite aset_err; [reflexivity|]. rewrite !len_app, Lt. change (len (@nil Z)) with 0 in *. lia.
Qed.
Print Assumptions C123_any_base_partial.
(** Bases up to 10: when the text fits, it is the numeral. *)
Theorem C123_small_bases : forall cfg n upper base a s buffer bufferSize showBase, 2 <= n -> wf n a -> bval a <> 0 ->
  2 <= base <= 10 -> numeral false base (bval a) s -> len buffer < 2 ^ 63 ->
  let text := shown_in bufferSize showBase base ++ s in 2 <= bufferSize -> len text + 1 <= bufferSize <= len buffer ->
  getString_any cfg n upper base a buffer bufferSize showBase =
    Ok ((text ++ [0]) ++ skipn (Z.to_nat (len text + 1)) buffer, len text + 1).
Proof.
  intros cfg n upper base a s buffer bufferSize showBase Hn W Hv Hb (ds & -> & F & V & H) H63 text H2 HB. subst text.
  assert (HD : digits_of base (bval a) ds).
  { split; [auto|]. split; [auto|]. destruct H as [-> |]; [|auto]. exfalso. apply Hv. rewrite <- V. reflexivity. }
  rewrite (C123_any_base_partial cfg n upper base a ds buffer bufferSize showBase) by (auto; lia).
  rewrite len_app, len_map in *. pose proof (len_nonneg ds).
  set (P := len (shown_in bufferSize showBase base)) in *.
  replace (Z.min (len ds) (bufferSize - P)) with (len ds) by lia.
  replace (P + len ds <? len buffer) with true by (symmetry; apply Z.ltb_lt; lia).
  rewrite Z.sub_diag. cbn [skipn Z.to_nat]. do 2 f_equal. rewrite <- !app_assoc. cbn [app]. do 2 f_equal.
  apply map_ext_in. intros d Hd. rewrite Forall_forall in F. specialize (F d Hd). unfold code, digit_char.
  replace (d <? 80) with true by (symmetry; apply Z.ltb_lt; lia). replace (d <? 10) with true by (symmetry; apply Z.ltb_lt; lia). reflexivity.
Qed.
Print Assumptions C123_small_bases.

(** Bases 11 to 36 other than 16: a number with a digit of ten or more is not printed as its numeral (0-9, then
    letters of either case). *)
Theorem C123_any_base_refuted : forall cfg n upper base a ds buffer bufferSize showBase, 2 <= n -> wf n a ->
  11 <= base <= 36 -> base <> 16 -> digits_of base (bval a) ds -> (exists d, In d ds /\ 10 <= d) ->
  2 <= bufferSize <= len buffer -> len ds < bufferSize -> len buffer < 2 ^ 63 ->
  exists text rest, getString_any cfg n upper base a buffer bufferSize showBase = Ok (text ++ 0 :: rest, len ds + 1) /\
    len text = len ds /\ ~ numeral false base (bval a) text /\ ~ numeral true base (bval a) text.
Proof.
  intros cfg n upper base a ds buffer bufferSize showBase Hn W Hb N16 HD (d & Hin & Hd) HB HL H63.
  rewrite (C123_any_base_partial cfg n upper base a ds buffer bufferSize showBase) by (auto; lia).
  assert (S0 : shown_in bufferSize showBase base = []).
  { unfold shown_in, prefix_text. replace (base =? 2) with false by (symmetry; apply Z.eqb_neq; lia). replace (base =? 8) with false by (symmetry; apply Z.eqb_neq; lia).
    replace (base =? 16) with false by (symmetry; apply Z.eqb_neq; lia). destruct (showBase && (bufferSize >? 3)); reflexivity. }
  rewrite S0. cbn [app]. change (len (@nil Z)) with 0. pose proof (len_nonneg ds).
  replace (Z.min (len ds) (bufferSize - 0)) with (len ds) by lia.
  replace (0 + len ds <? len buffer) with true by (symmetry; apply Z.ltb_lt; lia). rewrite Z.sub_diag. cbn [skipn Z.to_nat Z.add].
  exists (map code ds). eexists. split; [reflexivity|]. split; [apply len_map|].
  assert (G : forall up, ~ numeral up base (bval a) (map code ds)).
  { intros up (es & Em & F & V & HH). assert (HE : digits_of base (bval a) es).
    { split; [auto|]. split; [auto|]. destruct HH as [-> |]; [|auto]. destruct (digits_len base _ ds ltac:(lia) HD) as (Vp & _). exfalso. rewrite <- V in Vp. change (dvalue base [0]) with 0 in Vp. lia. }
    rewrite <- (digits_unique base (bval a) ds es ltac:(lia) HD HE) in *. clear - Em Hin Hd F Hb.
    assert (A : forall x, In x ds -> code x = digit_char up x). { apply map_ext_in_iff. exact Em. }
    specialize (A d Hin). rewrite Forall_forall in F. specialize (F d Hin). unfold code, digit_char in A.
    destruct (Z.ltb_spec d 80), (Z.ltb_spec d 10), up; lia. }
  split; apply G.
Qed.
Print Assumptions C123_any_base_refuted.

(** Bases 0 and 1 compile too: the digit loop never reaches zero, and the terminator lands outside the buffer. *)
Theorem C123_degenerate : forall cfg n upper base a buffer showBase, 2 <= n -> wf n a -> bval a <> 0 ->
  base = 0 \/ base = 1 -> 2 <= len buffer ->
  getString_any cfg n upper base a buffer (len buffer) showBase = Err OutOfBounds.
Proof.
  intros cfg n upper base a buffer showBase Hn W Hv Hb HB.
  assert (P0 : (if showBase && (len buffer >? 3) then b <- set_chars buffer 0 (gs_prefix base) ;; Ok (b, len (gs_prefix base)) else Ok (buffer, 0)) = Ok (buffer, 0)).
  { destruct Hb as [-> | ->]; destruct (showBase && (len buffer >? 3)); reflexivity. }
  unfold getString_any. rewrite P0.
  replace (base =? 16) with false by (symmetry; apply Z.eqb_neq; lia). replace (len buffer <? 2) with false by (symmetry; apply Z.ltb_ge; lia).
  cbn [bind]. rewrite isZero_spec by auto. replace (bval a =? 0) with false by (symmetry; apply Z.eqb_neq; lia). cbn [bind].
  assert (L : exists b, digit_loop_any cfg n base (len buffer) buffer 0 a = Ok (b, len buffer) /\ len b = len buffer).
  { unfold digit_loop_any.
    match goal with |- exists b, (_ <- forUx 0 ?h ?B ?s ;; _) = _ /\ _ =>
    destruct (forUx_spec (fun i '(b, copy) => len b = len buffer /\ wf n copy /\ bval copy <> 0) (fun _ => False) 0 h B s) as (x & E & Q) end.
    - lia.
    - auto.
    - intros i (b & copy) Hi (Lb & Wc & Vc). rewrite isZero_spec by auto. replace (bval copy =? 0) with false by (symmetry; apply Z.eqb_neq; lia). cbn [bind].
      destruct (from_unsigned_exact n base) as (d & Ed & Wd & Bd); [lia|lia| |].
      { unfold modulus. assert (2 ^ 1 <= 2 ^ (32 * n)) by (apply Z.pow_le_mono_r; lia). lia. }
      rewrite Ed. cbn [bind]. destruct (divide_spec cfg n copy d ltac:(lia) Wc Wd) as (q & r & Eq & Wq & Wr & EQ & LT & H0). rewrite Eq. cbn [bind].
      rewrite (integralCast_spec _ n) by (auto; lia). cbn [bind]. rewrite aset_ok by lia. cbn [bind].
      eexists. split; [reflexivity|]. cbn [step_post]. rewrite len_upd. conjs; auto.
      pose proof (bval_bound n _ Wc) as Bc. pose proof (bval_bound n _ Wr) as Br.
      destruct Hb as [-> | ->].
      + destruct (H0 Bd) as (_ & ->). replace (bval copy =? 0) with false by (symmetry; apply Z.eqb_neq; lia).
        assert (1 <= bit_length (bval copy)) by (destruct (bit_length_bounds (bval copy) ltac:(lia)) as (? & ? & _); destruct (Z.eq_dec (bit_length (bval copy)) 0) as [E0|]; [rewrite E0 in *; change (2 ^ 0) with 1 in *; lia|lia]).
        assert (1 <= (bit_length (bval copy) + 31) / 32) by (apply Z.div_le_lower_bound; lia).
        assert (2 ^ 32 <= 2 ^ (32 * ((bit_length (bval copy) + 31) / 32))) by (apply Z.pow_le_mono_r; lia). lia.
      + rewrite Bd in *. specialize (LT ltac:(lia)). lia.
    - rewrite E. cbn [bind]. destruct x as [ [b copy] | [b i] ]; cbn [step_post] in Q; [|tauto].
      exists b. split; [|tauto]. do 2 f_equal. lia. }
  destruct L as (b & -> & Lb). cbn [bind]. rewrite Z.sub_0_r.
  pose proof (reverse_spec [] b []) as R. cbn [app] in R. change (len (@nil Z)) with 0 in R. rewrite !app_nil_r in R. rewrite Lb in R. rewrite R. cbn [bind].
  rewrite aset_err; [reflexivity|]. rewrite len_rev. lia.
Qed.
Print Assumptions C123_degenerate.

Lemma loops_agree cfg n base bufferSize pre suf a : 2 <= n -> 2 <= base <= 10 -> wf n a -> len pre <= bufferSize <= len (pre ++ suf) ->
  digit_loop_any cfg n base bufferSize (pre ++ suf) (len pre) a = digit_loop cfg n base bufferSize (pre ++ suf) (len pre) a.
Proof.
  intros Hn Hb W Hs.
  destruct (any_loop cfg n base bufferSize pre suf a) as (k & o & r & E1 & L1 & -> & NZ1 & H1 & D1); auto; [lia|].
  destruct (digit_loop_spec cfg n base bufferSize pre suf a) as (j & o' & r' & E2 & L2 & -> & NZ2 & H2 & D2); auto.
  assert (k = j) as <-.
  { destruct (lt_eq_lt_dec k j) as [ [Hlt|] | Hlt]; auto; exfalso.
    - destruct D1 as [Z0|]; [|lia]. apply (NZ2 (Z.of_nat k)); [lia|auto].
    - destruct D2 as [Z0|]; [|lia]. apply (NZ1 (Z.of_nat j)); [lia|auto]. }
  rewrite E1 in E2. assert (o = o' /\ r = r') as [<- <-]. { assert (LL : length o = length o') by (unfold len in *; lia). clear - E2 LL. revert o' E2 LL. induction o as [|x o IH]; intros [|y o'] E LL; cbn [length app] in *; try discriminate; auto. injection E as -> E. destruct (IH o' E ltac:(lia)) as [-> ->]. auto. }
  do 4 f_equal. apply map_ext_in. intros d Hd. pose proof (led_range base k ltac:(lia) (bval a)) as F. rewrite Forall_forall in F. specialize (F d Hd).
  unfold code. replace (d <? 80) with true by (symmetry; apply Z.ltb_lt; lia). reflexivity.
Qed.
(** For the documented bases this is the getString of C33-C35. *)
Theorem C123_documented_bases : forall cfg n upper base a buffer bufferSize showBase, 2 <= n -> wf n a -> base_ok base ->
  bufferSize <= len buffer ->
  getString_any cfg n upper base a buffer bufferSize showBase =
  getString cfg n false upper (fun b _ => b) base a buffer bufferSize showBase.
Proof.
  intros cfg n upper base a buffer bufferSize showBase Hn W Hb HB. unfold getString_any.
  destruct (Z.eqb_spec base 16) as [-> | N16]; [reflexivity|]. unfold getString.
  destruct (Z.ltb_spec bufferSize 2) as [|H2]; [reflexivity|]. change gs_prefix with prefix_text.
  destruct (prefix_step bufferSize showBase base buffer) as (o & r & -> & Lo & E); [lia|]. rewrite E. cbn [bind].
  replace (base =? 16) with false by (symmetry; apply Z.eqb_neq; auto).
  destruct (isZero n a) as [ [|] |]; cbn [bind]; try reflexivity.
  rewrite loops_agree; [|lia|destruct Hb as [-> |[-> |[-> | ->] ] ]; lia|auto|].
  2:{ rewrite !len_app in *. pose proof (len_nonneg r).
      assert (LP : 0 <= len (shown_in bufferSize showBase base) <= 2) by (unfold shown_in; destruct (showBase && (bufferSize >? 3)); [apply prefix_text_len|cbn; lia]). lia. }
  destruct (digit_loop _ _ _ _ _ _ _) as [ [b p] |]; cbn [bind]; [|reflexivity].
  destruct (reverse_digits _ _ _) as [b' |]; cbn [bind]; reflexivity.
Qed.
Print Assumptions C123_documented_bases.

(** A negative number: '-', then the magnitude as above in one character less; the returned amount leaves out the '-'. *)
Theorem C123_signed : forall cfg n upper base a ds buffer bufferSize showBase, 2 <= n -> wf n (mag a) -> sgn a = SNeg ->
  2 <= base <= 255 -> base <> 16 -> digits_of base (bval (mag a)) ds -> 3 <= bufferSize <= len buffer -> len buffer < 2 ^ 63 ->
  let pre := shown_in (bufferSize - 1) showBase base in
  len pre + len ds + 2 <= bufferSize ->
  s_getString_any cfg n upper base a buffer bufferSize showBase =
    Ok (45 :: pre ++ map code ds ++ 0 :: skipn (Z.to_nat (len pre + len ds + 2)) buffer, len pre + len ds + 1).
Proof.
  intros cfg n upper base [s m] ds buffer bufferSize showBase Hn W Hs Hb N16 HD HB H63 pre HF. cbn [sgn mag] in *. subst s.
  unfold s_getString_any. cbn [sgn mag]. replace (bufferSize >? 0) with true by (symmetry; rewrite Z.gtb_ltb; apply Z.ltb_lt; lia).
  destruct buffer as [|c buffer]. { change (len (@nil Z)) with 0 in HB. lia. }
  rewrite len_cons in *. pose proof (len_nonneg pre). pose proof (len_nonneg ds). pose proof (len_nonneg buffer).
  rewrite aset_ok by (rewrite len_cons; lia). cbn [bind Z.to_nat upd tl].
  rewrite (C123_any_base_partial cfg n upper base m ds buffer (bufferSize - 1) showBase) by (auto; lia). fold pre.
  replace (Z.min (len ds) (bufferSize - 1 - len pre)) with (len ds) by lia.
  replace (len pre + len ds <? len buffer) with true by (symmetry; apply Z.ltb_lt; lia). rewrite Z.sub_diag. cbn [skipn Z.to_nat bind firstn app].
  do 4 f_equal. f_equal. f_equal. replace (Z.to_nat (len pre + len ds + 2)) with (S (Z.to_nat (len pre + len ds + 1))) by lia. reflexivity.
Qed.
Print Assumptions C123_signed.

(** A positive number is written as the unsigned one; a negative one with an empty buffer too (the '-' is left out). *)
Theorem C123_signed_positive : forall cfg n upper base a buffer bufferSize showBase,
  sgn a = SPos \/ (sgn a = SNeg /\ bufferSize <= 0) ->
  s_getString_any cfg n upper base a buffer bufferSize showBase = getString_any cfg n upper base (mag a) buffer bufferSize showBase.
Proof.
  intros cfg n upper base [s m] buffer bufferSize showBase H. cbn [sgn mag] in H. unfold s_getString_any. cbn [sgn mag].
  destruct H as [-> |[-> H] ]; [reflexivity|]. replace (bufferSize >? 0) with false by lia. reflexivity.
Qed.
Print Assumptions C123_signed_positive.
(** Zero: "0" and no terminator, with the base shown "0b0", "0o0", "0x0" in bases 2, 8, 16; the rest of the buffer
    unchanged, the amount returned is the length of that text.  If the base is shown and the text does not fit nothing
    is written; without the base shown the size is not looked at, the '0' goes out of an empty buffer. *)
Theorem C123_signed_zero : forall cfg n upper base a buffer bufferSize (showBase : bool), sgn a = SZero -> bufferSize <= len buffer ->
  let text := (if showBase then if base =? 2 then [48; 98] else if base =? 8 then [48; 111] else if base =? 16 then [48; 120] else [] else []) ++ [48] in
  s_getString_any cfg n upper base a buffer bufferSize showBase =
    if showBase && (bufferSize <? len text) then Ok (buffer, 0)
    else if len buffer =? 0 then Err OutOfBounds
    else Ok (text ++ skipn (length text) buffer, len text).
Proof.
  intros cfg n upper base [s m] buffer bufferSize showBase Hs HB text. cbn [sgn] in Hs. subst s. unfold s_getString_any. cbn [sgn mag].
  assert (Z0 : aset buffer 0 48 = if len buffer =? 0 then Err OutOfBounds else Ok (48 :: skipn 1 buffer)).
  { destruct buffer as [|c buffer]; [reflexivity|]. pose proof (len_nonneg buffer). rewrite aset_ok by (rewrite len_cons; lia). rewrite len_cons. replace (1 + len buffer =? 0) with false by lia. replace (len buffer + 1 =? 0) with false by lia. reflexivity. }
  assert (L1 : len [48] = 1) by reflexivity.
  destruct showBase; cbn [andb].
  2:{ subst text. cbn [app]. rewrite Z0. destruct (len buffer =? 0); reflexivity. }
  assert (TH : forall c, let t := [48; c; 48] in 3 <= len buffer -> set_chars buffer 0 t = Ok (t ++ skipn 3 buffer)).
  { intros c t H. destruct buffer as [|x [|y [|z b] ] ]; try (cbn in H; lia). unfold t. cbn [set_chars]. pose proof (len_nonneg b).
    rewrite aset_ok by (rewrite !len_cons; lia). cbn [bind]. change (0 + 1) with 1. change (Z.to_nat 0) with 0%nat. cbn [upd].
    rewrite aset_ok by (rewrite !len_cons; lia). cbn [bind]. change (1 + 1) with 2. change (Z.to_nat 1) with 1%nat. cbn [upd].
    rewrite aset_ok by (rewrite !len_cons; lia). reflexivity. }
  subst text. destruct (Z.eqb_spec base 2) as [-> |N2]; [|destruct (Z.eqb_spec base 8) as [-> |N8]; [|destruct (Z.eqb_spec base 16) as [-> |N16] ] ]; cbn [orb app].
  4:{ rewrite Z0, L1. destruct (Z.ltb_spec bufferSize 1); [reflexivity|]. destruct (Z.eqb_spec (len buffer) 0); [lia|]. reflexivity. }
  all: (change (gs_prefix 2) with [48; 98] || change (gs_prefix 8) with [48; 111] || change (gs_prefix 16) with [48; 120]); cbn [app];
    match goal with |- context [len [?x; ?y; ?z] ] => change (len [x; y; z]) with 3 end;
    destruct (Z.ltb_spec bufferSize 3); [reflexivity|]; rewrite TH by lia; cbn [bind]; replace (len buffer =? 0) with false by lia; reflexivity.
Qed.
Print Assumptions C123_signed_zero.
(** For the documented bases this is the signed getString of C56. *)
Theorem C123_signed_documented : forall cfg n upper base a buffer bufferSize showBase, 2 <= n -> wf n (mag a) -> base_ok base ->
  bufferSize <= len buffer ->
  s_getString_any cfg n upper base a buffer bufferSize showBase =
  s_getString cfg n false upper (fun b _ => b) base a buffer bufferSize showBase.
Proof.
  intros cfg n upper base [s m] buffer bufferSize showBase Hn W Hb HB. cbn [mag] in W. unfold s_getString_any, s_getString. cbn [sgn mag].
  destruct s; [reflexivity| |]; try (apply C123_documented_bases; auto; fail).
  destruct (Z.ltb_spec 0 bufferSize) as [P|P]; rewrite Z.gtb_ltb; [replace (0 <? bufferSize) with true by lia|replace (0 <? bufferSize) with false by lia; apply C123_documented_bases; auto].
  destruct buffer as [|c buffer]. { change (len (@nil Z)) with 0 in HB. lia. }
  rewrite len_cons in HB. pose proof (len_nonneg buffer). rewrite aset_ok by (rewrite len_cons; lia). cbn [bind Z.to_nat upd tl].
  rewrite C123_documented_bases by (auto; lia). reflexivity.
Qed.
Print Assumptions C123_signed_documented.

(** 41 in base 3 and in base 12 ("35"), 131 in base 12 (":;" instead of "ab"), 255 in base 200 in a buffer of 2
    (one digit, then the terminator outside), -41 in base 7, 5 in base 1. *)
Definition cfg0 := mk_config false false true.
Example C123_example :
  digits_of 3 41 [1; 1; 1; 2] /\ digits_of 12 131 [10; 11] /\ wf 2 [41; 0] /\
  getString_any cfg0 2 false 3 [41; 0] (repeat 7 6) 6 true = Ok ([49; 49; 49; 50; 0; 7], 5) /\
  getString_any cfg0 2 false 12 [41; 0] (repeat 7 4) 4 false = Ok ([51; 53; 0; 7], 3) /\
  getString_any cfg0 2 false 12 [131; 0] (repeat 7 3) 3 false = Ok ([58; 59; 0], 3) /\
  getString_any cfg0 2 false 200 [255; 0] (repeat 7 2) 2 false = Err OutOfBounds /\
  getString_any cfg0 2 false 200 [199; 0] (repeat 7 2) 2 false = Ok ([-9; 0], 2) /\
  s_getString_any cfg0 2 false 7 (mk_aesi SNeg [41; 0]) (repeat 7 5) 5 false = Ok ([45; 53; 54; 0; 7], 3) /\
  s_getString_any cfg0 2 false 8 (mk_aesi SZero [0; 0]) (repeat 7 5) 5 true = Ok ([48; 111; 48; 7; 7], 3) /\
  s_getString_any cfg0 2 false 7 (mk_aesi SZero [0; 0]) [] 0 false = Err OutOfBounds /\
  getString_any cfg0 2 false 1 [5; 0] (repeat 7 3) 3 false = Err OutOfBounds.
Proof.
  split. { split; [repeat constructor; lia|]. split; [reflexivity|]. eexists _, _. split; [reflexivity|lia]. }
  split. { split; [repeat constructor; lia|]. split; [reflexivity|]. eexists _, _. split; [reflexivity|lia]. }
  split; [apply wfb_wf; vm_compute; reflexivity|]. conjs; vm_compute; reflexivity.
Qed.
