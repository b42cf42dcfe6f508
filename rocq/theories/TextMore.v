(** * TextMore: getString corner cases, round trips, streams, signed text *)
From Verif Require Export TextHex.
Open Scope Z_scope.

(** ** zero and tiny buffers *)
Lemma getString_tiny cfg n wide upper wfail base a buffer bufferSize showBase : bufferSize < 2 ->
  getString cfg n wide upper wfail base a buffer bufferSize showBase = Ok (buffer, 0).
Proof. intros H. unfold getString. change gs_prefix with prefix_text. replace (bufferSize <? 2) with true by (symmetry; apply Z.ltb_lt; lia). reflexivity. Qed.

Lemma prefix_step bufferSize showBase base buffer : 2 <= bufferSize <= len buffer ->
  exists old rest, buffer = old ++ rest /\ len old = len (shown_in bufferSize showBase base) /\
  (if showBase && (bufferSize >? 3) then b <- set_chars buffer 0 (prefix_text base) ;; Ok (b, len (prefix_text base)) else Ok (buffer, 0))
  = Ok (shown_in bufferSize showBase base ++ rest, len (shown_in bufferSize showBase base)).
Proof.
  intros H. pose proof (prefix_text_len base). unfold shown_in. destruct (showBase && (bufferSize >? 3)).
  - destruct (split_len buffer (len (prefix_text base))) as (o & r & -> & L); [lia|]. exists o, r. conjs; auto.
    pose proof (set_chars_app (prefix_text base) [] o r L) as SC. cbn [app] in SC. change (len (@nil Z)) with 0 in SC. rewrite SC. reflexivity.
  - exists [], buffer. conjs; auto.
Qed.

Lemma getString_zero cfg n wide upper wfail base a buffer bufferSize showBase : wf n a -> bval a = 0 -> 2 <= bufferSize <= len buffer ->
  let text := shown_in bufferSize showBase base ++ [48] in
  exists old rest, buffer = old ++ rest /\ len old = len text /\
  getString cfg n wide upper wfail base a buffer bufferSize showBase = Ok (text ++ rest, len text).
Proof.
  intros W V H text. destruct (prefix_step bufferSize showBase base buffer H) as (o & r & -> & Lo & E).
  assert (R : exists y r', r = y :: r').
  { destruct r as [|y r']; eauto. exfalso. rewrite app_nil_r in H. rewrite Lo in H. unfold shown_in in H. destruct (showBase && (bufferSize >? 3)) eqn:S.
    - apply andb_prop in S. destruct S as [_ S]. rewrite Z.gtb_ltb in S. apply Z.ltb_lt in S. pose proof (prefix_text_len base). lia.
    - change (len (@nil Z)) with 0 in H. lia. }
  destruct R as (y & r' & ->). exists (o ++ [y]), r'. unfold text. rewrite !len_app. change (len [y]) with 1. change (len [48]) with 1.
  conjs; [rewrite <- app_assoc; reflexivity|lia|]. unfold getString. change gs_prefix with prefix_text. replace (bufferSize <? 2) with false by (symmetry; apply Z.ltb_ge; lia).
  rewrite E. cbn [bind]. rewrite isZero_spec, V by auto. cbn [bind Z.eqb]. rewrite aset_mid. cbn [bind]. rewrite <- app_assoc. reflexivity.
Qed.

(** ** buffers that are too small *)
Lemma set_chars_total cs : forall buffer pos, set_chars buffer pos cs = Err OutOfBounds \/ exists b, set_chars buffer pos cs = Ok b /\ len b = len buffer.
Proof.
  induction cs as [|c cs IH]; intros buffer pos; cbn [set_chars]; [right; eauto|].
  unfold aset. destruct (in_range buffer pos); cbn [bind]; auto.
  destruct (IH (upd buffer (Z.to_nat pos) c) (pos + 1)) as [E|(b & E & L)]; [left; auto|right]. exists b. split; auto. rewrite L. apply len_upd.
Qed.
Lemma print_narrow_total wfail bufferSize text buffer position : 0 <= position -> position + len text < 2 ^ 64 ->
  print_block false wfail bufferSize text (buffer, position) = Err OutOfBounds \/
  exists b, print_block false wfail bufferSize text (buffer, position) = Ok (b, position + len text) /\ len b = len buffer.
Proof.
  intros H0 H. pose proof (len_nonneg text). unfold print_block. cbv zeta. rewrite (u64_small (position + len text)) by lia.
  destruct (u64 (bufferSize - position) =? 0); [right; eauto|].
  match goal with |- context [set_chars buffer position ?t] => destruct (set_chars_total t buffer position) as [-> |(b & -> & L)] end; [left; reflexivity|right].
  exists b. auto.
Qed.
Lemma hex_loop_narrow n upper wfail bufferSize a j : wf n a -> Z.of_nat j <= n -> forall buffer position,
  0 <= position -> position + 8 * Z.of_nat j < 2 ^ 64 ->
  loopD j (Z.of_nat j) (fun i st => x <- aget a i ;; print_block false wfail bufferSize (fmt_08x upper x) st) (buffer, position) = Err OutOfBounds \/
  exists b, loopD j (Z.of_nat j) (fun i st => x <- aget a i ;; print_block false wfail bufferSize (fmt_08x upper x) st) (buffer, position) = Ok (b, position + 8 * Z.of_nat j) /\ len b = len buffer.
Proof.
  intros W. induction j as [|j IH]; intros Hj buffer position H0 H.
  - cbn [loopD]. right. exists buffer. split; auto. do 2 f_equal. lia.
  - cbn [loopD]. replace (Z.of_nat (S j) - 1) with (Z.of_nat j) by lia. rewrite aget_ok by (rewrite (wf_len _ _ W); lia). cbn [bind].
    assert (L8 : len (fmt_08x upper (znth a (Z.of_nat j))) = 8) by (unfold fmt_08x; rewrite len_map; apply hex8_len).
    destruct (print_narrow_total wfail bufferSize (fmt_08x upper (znth a (Z.of_nat j))) buffer position) as [-> |(b & -> & L)]; [lia|lia|left; reflexivity|].
    cbn [bind]. rewrite L8. destruct (IH ltac:(lia) b (position + 8) ltac:(lia) ltac:(lia)) as [-> |(b' & -> & L')]; [left; auto|right].
    exists b'. split; [do 2 f_equal; lia|congruence].
Qed.

Lemma getString_overflow cfg n wide upper wfail base a buffer bufferSize showBase s : wf n a -> bval a <> 0 -> base_ok base ->
  2 <= n \/ base = 16 -> 1 <= n < 2 ^ 59 -> wide = false \/ base <> 16 -> 2 <= bufferSize -> bufferSize = len buffer ->
  numeral (upper && (base =? 16)) base (bval a) s ->
  bufferSize < len (shown_in bufferSize showBase base ++ s) + 1 ->
  getString cfg n wide upper wfail base a buffer bufferSize showBase = Err OutOfBounds.
Proof.
  intros W Hv Hb Hnb Hn Hw HB HL HS Hover. pose proof (bval_bound n _ W) as Bv. rewrite len_app in Hover.
  destruct (prefix_step bufferSize showBase base buffer) as (o & r & -> & Lo & E); [lia|]. unfold getString. change gs_prefix with prefix_text.
  replace (bufferSize <? 2) with false by (symmetry; apply Z.ltb_ge; lia). rewrite E. cbn [bind]. rewrite isZero_spec by auto.
  replace (bval a =? 0) with false by (symmetry; apply Z.eqb_neq; auto). cbn [bind].
  set (pre := shown_in bufferSize showBase base) in *.
  assert (LP : 0 <= len pre <= 2) by (subst pre; unfold shown_in; destruct (showBase && (bufferSize >? 3)); [apply prefix_text_len|cbn; lia]).
  rewrite len_app in HL. pose proof (len_nonneg r).
  destruct (Z.eqb_spec base 16) as [-> | Hne].
  - rewrite andb_true_r in HS. assert (wide = false) as -> by tauto.
    destruct (top_block_spec n a W ltac:(lia)) as (L & -> & HLn & Hz & HT). cbn [bind].
    rewrite aget_ok by (rewrite (wf_len _ _ W); lia). cbn [bind].
    pose proof (hex_numeral n a L upper W ltac:(lia) HLn Hz HT Hv) as HN. pose proof (numeral_unique upper 16 (bval a) _ _ ltac:(lia) HS HN) as Es.
    assert (Ls : len s = len (fmt_x upper (znth a L)) + 8 * L).
    { rewrite Es. unfold hex_digits, fmt_x. rewrite map_app, len_app, !len_map, low_hex_len. lia. }
    assert (L8 : len (fmt_x upper (znth a L)) <= 8). { unfold fmt_x. rewrite len_map. pose proof (strip0_len (hex8 (znth a L))). rewrite hex8_len in *. lia. }
    pose proof (len_nonneg (fmt_x upper (znth a L))).
    destruct (print_narrow_total wfail bufferSize (fmt_x upper (znth a L)) (pre ++ r) (len pre)) as [-> |(b & -> & Lb)]; [lia|lia|reflexivity|].
    cbn [bind]. unfold forD. rewrite Z.sub_0_r. replace L with (Z.of_nat (Z.to_nat L)) at 2 by lia.
    match goal with |- bind ?x _ = _ => destruct (hex_loop_narrow n upper wfail bufferSize a (Z.to_nat L) W ltac:(lia) b (len pre + len (fmt_x upper (znth a L))) ltac:(lia) ltac:(lia)) as [-> |(b' & -> & Lb')] end; [reflexivity|].
    cbn [bind]. rewrite aset_err; [reflexivity|]. rewrite Lb', Lb, len_app. lia.
  - assert (Hb10 : 2 <= base <= 10) by (destruct Hb as [-> |[-> |[-> | ->] ] ]; lia). rewrite andb_false_r in HS.
    destruct (digit_loop_spec cfg n base bufferSize pre r a) as (k & od & rs & -> & Lod & -> & NZ & Hk & HE); [lia|auto|auto|rewrite len_app; lia|].
    cbn [bind]. replace (len pre + Z.of_nat k - len pre) with (len (map (fun d => 48 + d) (led base (bval a) k))) by (rewrite len_map, led_len; lia).
    rewrite reverse_spec. cbn [bind].
    assert (K : len pre + Z.of_nat k = bufferSize).
    { destruct HE as [Z0|]; auto. pose proof (led_numeral base (bval a) k ltac:(lia) ltac:(lia) Z0 NZ) as HN.
      pose proof (numeral_unique false base (bval a) _ _ ltac:(lia) HS HN) as Es. rewrite Es, len_map, len_rev, led_len in Hover. lia. }
    rewrite aset_err; [reflexivity|]. rewrite !len_app, len_rev, len_map, led_len. rewrite len_app in HL. lia.
Qed.

(** ** parsing what was printed *)
Lemma digit_of_char upper d : 0 <= d < 16 -> digit_of (digit_char upper d) = Some d.
Proof.
  intros H. assert (C : d = 0 \/ d = 1 \/ d = 2 \/ d = 3 \/ d = 4 \/ d = 5 \/ d = 6 \/ d = 7 \/ d = 8 \/ d = 9 \/ d = 10 \/ d = 11 \/ d = 12 \/ d = 13 \/ d = 14 \/ d = 15) by lia.
  repeat (destruct C as [-> |C]; [destruct upper; reflexivity|]). subst. destruct upper; reflexivity.
Qed.
Lemma digits_in_numeral upper base ds : base <= 16 -> Forall (fun d => 0 <= d < base) ds -> digits_in base (map (digit_char upper) ds) = ds.
Proof.
  intros Hb F. induction F as [|d t Hd F IH]; auto. unfold digits_in in *. cbn [map flat_map]. rewrite digit_of_char by lia.
  replace (d <? base) with true by (symmetry; apply Z.ltb_lt; lia). rewrite IH. reflexivity.
Qed.
Lemma digits_in_nul base s : digits_in base (s ++ [0]) = digits_in base s.
Proof. rewrite digits_in_app. change (digits_in base [0]) with (@nil Z). apply app_nil_r. Qed.
Lemma digit_char_range upper d : 0 <= d < 10 -> 48 <= digit_char upper d <= 57.
Proof. intros H. unfold digit_char. replace (d <? 10) with true by (symmetry; apply Z.ltb_lt; lia). lia. Qed.

Lemma parse_decimal n wide alnum upper v s tl : 0 <= n -> alnum_ok alnum -> numeral upper 10 v s -> 0 <= v < modulus n -> tl = [] \/ tl = [0] ->
  yields n (from_string n wide alnum (s ++ tl)) v.
Proof.
  intros Hn Ha (ds & -> & F & V & H) Hv Htl. unfold from_string.
  assert (D : digits_in 10 (map (digit_char upper) ds ++ tl) = ds).
  { destruct Htl as [-> | ->]; [rewrite app_nil_r|rewrite digits_in_nul]; apply digits_in_numeral; auto; lia. }
  assert (N0 : exists d t, ds = d :: t /\ (d = 0 -> t = [])).
  { destruct H as [-> |(d & t & -> & Hd)]; [exists 0, []|exists d, t]; auto. split; auto. congruence. }
  destruct N0 as (d & t & -> & Hdt). inversion F as [|? ? Hd Ft]; subst. cbn [map app] in *.
  pose proof (digit_char_range upper d Hd).
  pose proof (from_string_decimal n wide alnum [] (digit_char upper d) (map (digit_char upper) t ++ tl) Hn (Forall_nil _) ltac:(lia)) as P.
  cbn [app] in P. rewrite D, (Z.mod_small (dvalue 10 (d :: t))) in P by auto. apply P; [apply Ha; lia|].
  intros E c rest Ec. assert (d = 0). { unfold digit_char in E. replace (d <? 10) with true in E by (symmetry; apply Z.ltb_lt; lia). lia. }
  rewrite (Hdt H1) in Ec. cbn [map app] in Ec. destruct Htl as [-> | ->]; inversion Ec. reflexivity.
Qed.
Lemma parse_prefixed n wide alnum upper base v s tl : 0 <= n -> alnum_ok alnum -> base = 2 \/ base = 8 \/ base = 16 ->
  numeral upper base v s -> 0 <= v < modulus n -> tl = [] \/ tl = [0] ->
  yields n (from_string n wide alnum (prefix_text base ++ s ++ tl)) v.
Proof.
  intros Hn Ha Hb (ds & -> & F & V & H) Hv Htl. unfold from_string.
  assert (D : digits_in base (map (digit_char upper) ds ++ tl) = ds).
  { destruct Htl as [-> | ->]; [rewrite app_nil_r|rewrite digits_in_nul]; apply digits_in_numeral; auto; lia. }
  assert (P : exists d, prefix_text base = [48; d] /\ prefix_base d = Some base) by (destruct Hb as [-> |[-> | ->] ]; eexists; split; reflexivity).
  destruct P as (d & -> & P). cbn [app].
  pose proof (from_string_prefixed n wide alnum [] d base (map (digit_char upper) ds ++ tl) Hn (Forall_nil _) Ha P) as Q. cbn [app] in Q.
  rewrite D, V, Z.mod_small in Q; auto.
Qed.

(** ** streams *)
Lemma d295_bs n : 3 <= n -> 32 * n < 2 ^ 53 -> 32 * n <= 3 * stream_buffer_size n.
Proof.
  intros H3 Hn. destruct (Z.eq_dec n 3) as [-> | N3]; [vm_compute; congruence|]. destruct (Z.eq_dec n 4) as [-> | N4]; [vm_compute; congruence|].
  destruct (Z.eq_dec n 5) as [-> | N5]; [vm_compute; congruence|]. unfold stream_buffer_size. cbv zeta.
  set (num := 32 * n * 2 ^ 50). set (e := Z.log2 (num / d295)).
  assert (E : 0 <= e <= 52).
  { subst e. split; [apply Z.log2_nonneg|]. assert (num / d295 < 2 ^ 53).
    - apply Z.div_lt_upper_bound; [reflexivity|]. subst num. unfold d295. change (2 ^ 53) with 9007199254740992 in *. change (2 ^ 50) with 1125899906842624. lia.
    - destruct (Z_le_gt_dec (num / d295) 0). { rewrite Z.log2_nonpos; lia. } apply Z.log2_lt_pow2 in H; lia. }
  set (p := num * 2 ^ (52 - e)). set (t := 2 ^ (52 - e)) in *. assert (Tp : 0 < t) by (subst t; apply Z.pow_pos_nonneg; lia).
  assert (R : 2 * p - d295 <= 2 * d295 * rne_div p d295).
  { unfold rne_div. cbv zeta. pose proof (Z.mod_pos_bound p d295 ltac:(reflexivity)). pose proof (Z.div_mod p d295 ltac:(discriminate)).
    set (f := p / d295) in *. set (d := d295) in *. assert (0 < d) by reflexivity.
    destruct (Z.ltb_spec (2 * (p - f * d)) d); [nia|]. destruct (Z.ltb_spec d (2 * (p - f * d))); [nia|]. destruct (Z.even f); nia. }
  set (x := rne_div p d295) in *. pose proof (Z.div_mod x t ltac:(lia)). pose proof (Z.mod_pos_bound x t Tp). set (b := x / t) in *.
  assert (B1 : x <= t * b + t - 1) by lia.
  assert (P : p = num * t) by reflexivity.
  assert (D : 0 < d295) by reflexivity.
  assert (B2 : 2 * (num * t) - d295 <= 2 * d295 * (t * b + t - 1)) by nia.
  assert (B3 : num < d295 * (b + 1)).
  { apply Z.mul_lt_mono_pos_l with (p := 2 * t); [lia|]. replace (2 * t * (d295 * (b + 1))) with (2 * d295 * (t * b + t - 1) + 2 * d295) by ring. lia. }
  subst num. unfold d295 in B3. change (2 ^ 50) with 1125899906842624 in B3. lia.
Qed.

Lemma os_put0 os s : width os = 0 -> os_put os s = mk_os (out os ++ s) (basef os) (showbase os) (uppercase os) (fillc os) 0 (adj os).
Proof.
  intros H. unfold os_put. rewrite H. replace (Z.to_nat (0 - len s)) with O by (pose proof (len_nonneg s); lia). cbn [repeat].
  destruct (adj os); cbn [app]; rewrite ?app_nil_r; reflexivity.
Qed.

Lemma put_digits_rev os : width os = 0 -> forall ds, loopD (length ds) (len ds) (fun i os => c <- aget ds i ;; Ok (os_put os [c])) os =
  Ok (mk_os (out os ++ rev ds) (basef os) (showbase os) (uppercase os) (fillc os) 0 (adj os)).
Proof.
  intros W0 ds.
  assert (G : forall k, (k <= length ds)%nat -> forall os, width os = 0 -> loopD k (Z.of_nat k) (fun i os => c <- aget ds i ;; Ok (os_put os [c])) os =
     Ok (mk_os (out os ++ rev (firstn k ds)) (basef os) (showbase os) (uppercase os) (fillc os) 0 (adj os))).
  { induction k as [|k IH]; intros Hk os0 W.
    - cbn [loopD firstn rev]. rewrite app_nil_r. destruct os0; cbn in *; subst; reflexivity.
    - cbn [loopD]. replace (Z.of_nat (S k) - 1) with (Z.of_nat k) by lia.
      destruct (split_at ds (Z.of_nat k)) as (p & x & t & E & L); [unfold len; lia|].
      assert (Lp : length p = k) by (unfold len in L; lia).
      rewrite E at 1. rewrite <- L at 1. rewrite aget_mid. cbn [bind]. rewrite os_put0 by auto. rewrite IH by (auto; lia). cbn [out basef showbase uppercase fillc width adj].
      replace (firstn (S k) ds) with (firstn k ds ++ [x]).
      2:{ rewrite E. rewrite <- Lp. rewrite !firstn_app, firstn_all, Nat.sub_diag. replace (S (length p) - length p)%nat with 1%nat by lia.
          rewrite (firstn_all2 p (n := S (length p))) by lia. cbn [firstn]. rewrite app_nil_r. reflexivity. }
      rewrite rev_app_distr. cbn [rev app]. rewrite <- app_assoc. reflexivity. }
  specialize (G (length ds) (Nat.le_refl _) os W0). rewrite firstn_all in G. exact G.
Qed.

Lemma stream_prefix os : width os = 0 ->
  (if showbase os && negb (os_base os =? 10) then os_noshowbase (os_put os (if os_base os =? 8 then [48; 111] else [48; 120])) else os) =
  mk_os (out os ++ os_shown os) (basef os) (showbase os && (os_base os =? 10)) (uppercase os) (fillc os) 0 (adj os).
Proof.
  intros W. unfold os_shown, shown, os_base, os_noshowbase. rewrite !os_put0 by auto.
  destruct os as [o bf sb up fc w ad]. cbn in *. subst w. destruct bf, sb; cbn; rewrite ?app_nil_r; reflexivity.
Qed.

Lemma stream_digits cfg n os a s : wf n a -> bval a <> 0 -> 2 <= n -> os_base os <> 16 -> width os = 0 -> bval a < os_base os ^ stream_buffer_size n ->
  numeral false (os_base os) (bval a) s ->
  stream_insert cfg n os a = Ok (mk_os (out os ++ os_shown os ++ s) (basef os) (showbase os && (os_base os =? 10)) (uppercase os) (fillc os) 0 (adj os)).
Proof.
  intros W Hv Hn Hb W0 Hbs HS. pose proof (bval_bound n _ W) as Bv. unfold stream_insert. fold (os_base os). rewrite stream_prefix by auto. cbv zeta.
  rewrite isZero_spec by auto. replace (bval a =? 0) with false by (symmetry; apply Z.eqb_neq; auto). cbn [bind].
  replace (os_base os =? 16) with false by (symmetry; apply Z.eqb_neq; auto).
  set (bs := stream_buffer_size n) in *. set (base := os_base os) in *.
  assert (Hb10 : 2 <= base <= 10) by (subst base; unfold os_base in *; destruct (basef os); lia).
  assert (Hbs0 : 0 <= bs). { destruct (Z_lt_le_dec bs 0); auto. rewrite Z.pow_neg_r in Hbs by lia. lia. }
  pose proof (len_zeros bs Hbs0) as LZ.
  destruct (digit_loop_spec cfg n base bs [] (zeros bs) a) as (k & od & rs & ES & Lod & E & NZ & Hk & HE); [lia|lia|auto|cbn [app]; change (len (@nil Z)) with 0; lia|].
  cbn [app] in E. change (len (@nil Z)) with 0 in *. rewrite E. cbn [bind].
  assert (Z0 : bval a / base ^ Z.of_nat k = 0). { destruct HE as [|HE]; auto. rewrite Z.add_0_l in HE. rewrite HE. apply Z.div_small. lia. }
  pose proof (led_numeral base (bval a) k ltac:(lia) ltac:(lia) Z0 NZ) as HN.
  pose proof (numeral_unique false base (bval a) _ _ ltac:(lia) HS HN) as Es.
  unfold forD. rewrite Z.add_0_l, Z.sub_0_r, Nat2Z.id.
  set (os1 := mk_os (out os ++ os_shown os) (basef os) (showbase os && (base =? 10)) (uppercase os) (fillc os) 0 (adj os)).
  set (ds := map (fun d => 48 + d) (led base (bval a) k)).
  assert (Lk : length ds = k) by (subst ds; rewrite map_length; apply led_length).
  assert (EXT : forall j os0, (j <= k)%nat -> loopD j (Z.of_nat j) (fun i os => c <- aget (ds ++ rs) i ;; Ok (os_put os [c])) os0 = loopD j (Z.of_nat j) (fun i os => c <- aget ds i ;; Ok (os_put os [c])) os0).
  { induction j as [|j IH]; intros os0 Hj; [reflexivity|]. cbn [loopD]. replace (Z.of_nat (S j) - 1) with (Z.of_nat j) by lia.
    rewrite !aget_ok by (unfold len; rewrite ?app_length; lia). cbn [bind].
    replace (znth (ds ++ rs) (Z.of_nat j)) with (znth ds (Z.of_nat j)). apply IH; lia.
    unfold znth. destruct (Z.of_nat j <? 0); auto. rewrite app_nth1 by lia. reflexivity. }
  rewrite EXT by lia. replace k with (length ds) at 1 2 by auto. change (Z.of_nat (length ds)) with (len ds). rewrite put_digits_rev by reflexivity.
  subst os1. cbn [out basef showbase uppercase fillc width adj]. subst ds. rewrite <- map_rev. rewrite (map_chr base) by (try lia; apply Forall_rev, led_range; lia). rewrite <- Es, <- app_assoc. reflexivity.
Qed.

Lemma stream_zero cfg n os a : wf n a -> bval a = 0 -> width os = 0 ->
  stream_insert cfg n os a = Ok (mk_os (out os ++ os_shown os ++ [48]) (basef os) (showbase os && (os_base os =? 10)) (uppercase os) (fillc os) 0 (adj os)).
Proof.
  intros W Hv W0. unfold stream_insert. fold (os_base os). rewrite stream_prefix by auto. cbv zeta.
  rewrite isZero_spec, Hv by auto. cbn [bind Z.eqb]. rewrite os_put0 by reflexivity. cbn [out basef showbase uppercase fillc width adj]. rewrite <- app_assoc. reflexivity.
Qed.

Lemma pad_hex upper x : repeat 48 (Z.to_nat (8 - len (fmt_x upper x))) ++ fmt_x upper x = fmt_08x upper x.
Proof.
  unfold fmt_x, fmt_08x. rewrite len_map. destruct (strip0_spec (hex8 x)) as (k & E); [discriminate|].
  assert (K : Z.to_nat (8 - len (strip0 (hex8 x))) = k). { pose proof (hex8_len x) as L. rewrite E, len_app in L. unfold len in L at 1. rewrite repeat_length in L. lia. }
  rewrite K. rewrite E at 2. rewrite map_app. f_equal. clear. induction k; cbn [repeat map]; auto. rewrite <- IHk. reflexivity.
Qed.

Lemma os_put_hex os up x : os_put (os_right (os_width (os_fill os 48) 8)) (fmt_x up x) =
  mk_os (out os ++ fmt_08x up x) (basef os) (showbase os) (uppercase os) 48 0 AdjRight.
Proof. unfold os_put, os_right, os_width, os_fill. cbn [out basef showbase uppercase fillc width adj]. rewrite pad_hex. reflexivity. Qed.

Lemma stream_hex_loop n a j : wf n a -> Z.of_nat j <= n -> forall os, width os = 0 ->
  loopD j (Z.of_nat j) (fun i os => x <- aget a i ;; Ok (os_put (os_right (os_width (os_fill os 48) 8)) (fmt_x (uppercase (os_right (os_width (os_fill os 48) 8))) x))) os =
  Ok (mk_os (out os ++ map (digit_char (uppercase os)) (low_hex a j)) (basef os) (showbase os) (uppercase os)
        (match j with O => fillc os | _ => 48 end) 0 (match j with O => adj os | _ => AdjRight end)).
Proof.
  intros W. induction j as [|j IH]; intros Hj os W0.
  - cbn [loopD low_hex map]. rewrite app_nil_r. destruct os; cbn in *; subst; reflexivity.
  - cbn [loopD low_hex]. replace (Z.of_nat (S j) - 1) with (Z.of_nat j) by lia. rewrite aget_ok by (rewrite (wf_len _ _ W); lia). cbn [bind]. cbv zeta.
    change (uppercase (os_right (os_width (os_fill os 48) 8))) with (uppercase os). rewrite os_put_hex. rewrite IH by (auto; lia). cbn [out basef showbase uppercase fillc width adj]. rewrite map_app, <- app_assoc. destruct j; reflexivity.
Qed.

Lemma stream_hex cfg n os a s : wf n a -> bval a <> 0 -> 1 <= n -> basef os = BHex -> width os = 0 -> numeral (uppercase os) 16 (bval a) s ->
  exists fill' adj', stream_insert cfg n os a = Ok (mk_os (out os ++ os_shown os ++ s) BHex false (uppercase os) fill' 0 adj') /\
   (bval a < 2 ^ 32 -> fill' = fillc os /\ adj' = adj os) /\ (2 ^ 32 <= bval a -> fill' = 48 /\ adj' = AdjRight).
Proof.
  intros W Hv Hn Hb W0 HS. pose proof (bval_bound n _ W) as Bv. unfold stream_insert. fold (os_base os). rewrite stream_prefix by auto. cbv zeta.
  rewrite isZero_spec by auto. replace (bval a =? 0) with false by (symmetry; apply Z.eqb_neq; auto). cbn [bind].
  assert (B16 : os_base os = 16) by (unfold os_base; rewrite Hb; reflexivity). rewrite B16. cbn [Z.eqb Pos.eqb].
  destruct (top_block_spec n a W Hn) as (L & -> & HLn & Hz & HT). cbn [bind]. rewrite aget_ok by (rewrite (wf_len _ _ W); lia). cbn [bind].
  pose proof (hex_numeral n a L (uppercase os) W Hn HLn Hz HT Hv) as HN. pose proof (numeral_unique _ 16 (bval a) _ _ ltac:(lia) HS HN) as Es.
  rewrite os_put0 by reflexivity. cbn [out basef showbase uppercase fillc width adj]. unfold forD. rewrite Z.sub_0_r.
  pose proof (stream_hex_loop n a (Z.to_nat L) W ltac:(lia)) as SL. rewrite Z2Nat.id in SL by lia. rewrite SL by reflexivity. clear SL. cbn [out basef showbase uppercase fillc width adj]. rewrite Hb, andb_false_r.
  eexists _, _. split; [|].
  - rewrite Es. unfold hex_digits, fmt_x. rewrite map_app, <- !app_assoc. reflexivity.
  - assert (V : hi a (L + 1) = 0). { apply (hi_zero n); auto; [lia|]. intros i Hi. apply Hz. lia. }
    split; intros Hsz.
    + assert (L = 0). { destruct HT as [|HT]; auto. destruct (Z.eq_dec L 0); auto. exfalso.
        pose proof (hi_step a L ltac:(rewrite (wf_len _ _ W); lia)) as S1. rewrite V in S1.
        assert (P : forall i : nat, Z.of_nat i <= L -> 2 ^ (32 * Z.of_nat i) * hi a (Z.of_nat i) <= bval a).
        { induction i as [|i IHi]; intros Hi; [change (Z.of_nat 0) with 0; rewrite Z.mul_0_r, Z.pow_0_r, hi_0; lia|].
          specialize (IHi ltac:(lia)). rewrite hi_step in IHi by (rewrite (wf_len _ _ W); lia). pose proof (wf_znth n a (Z.of_nat i) W).
          replace (Z.of_nat (S i)) with (Z.of_nat i + 1) by lia. replace (32 * (Z.of_nat i + 1)) with (32 * Z.of_nat i + 32) by lia. rewrite Z.pow_add_r by lia.
          assert (0 < 2 ^ (32 * Z.of_nat i)) by (apply Z.pow_pos_nonneg; lia). nia. }
        specialize (P (Z.to_nat L) ltac:(lia)). rewrite Z2Nat.id in P by lia.
        assert (2 ^ 32 <= 2 ^ (32 * L)) by (apply Z.pow_le_mono_r; lia). pose proof (wf_znth n a L W). nia. }
      subst L. split; reflexivity.
    + destruct (Z.to_nat L) eqn:EL; [|split; reflexivity]. exfalso. assert (L = 0) by lia. subst L.
      rewrite <- hi_0, hi_step in Hsz by (rewrite (wf_len _ _ W); lia). change (0 + 1) with 1 in *. rewrite V in Hsz. pose proof (wf_znth n a 0 W). lia.
Qed.

(** ** signed text *)
Lemma traverse_spec s : traverseDashes s (len s) = Ok (if odd_dashes s then SNeg else SPos).
Proof.
  unfold traverseDashes. pose proof (len_nonneg s).
  match goal with |- context [forU 0 ?h ?B ?s0] =>
  destruct (forU_spec (fun i p => exists c r, s = c ++ r /\ len c = i /\ p = (if odd_dashes c then 0 else 1)) 0 h B s0) as (p & E & c & r & Es & L & P) end.
  - lia.
  - exists [], s. auto.
  - intros j p Hj (c & r & -> & L & ->). destruct r as [|x r]; [rewrite app_nil_r in Hj; lia|]. rewrite <- L, aget_mid. cbn [bind].
    eexists. split; [reflexivity|]. exists (c ++ [x]), r. rewrite <- app_assoc, len_app. conjs; auto.
    unfold odd_dashes. rewrite count_occ_app, Nat.odd_add. cbn [count_occ]. destruct (Z.eq_dec x 45) as [-> | N].
    + cbn [Z.eqb Pos.eqb]. destruct (Nat.odd (count_occ Z.eq_dec c 45)); reflexivity.
    + replace (x =? 45) with false by (symmetry; apply Z.eqb_neq; auto). destruct (Nat.odd (count_occ Z.eq_dec c 45)); reflexivity.
  - rewrite E. cbn [bind]. assert (r = []). { rewrite Es, len_app in L. destruct r; auto. rewrite len_cons in L. pose proof (len_nonneg r). lia. }
    subst r. rewrite app_nil_r in Es. subst c. subst p. destruct (odd_dashes s); reflexivity.
Qed.

Lemma s_from_chars_lift n wide alnum s v : yields n (from_chars n wide alnum s (len s)) v ->
  exists r, s_from_chars n wide alnum s (len s) = Ok r /\ canon n r /\ sval r = (if odd_dashes s then - v else v).
Proof.
  intros (b & E & W & B). unfold s_from_chars. rewrite E. cbn [bind]. rewrite isZero_spec, B by auto. cbn [bind].
  destruct (Z.eqb_spec v 0) as [-> | Hne]; cbn [negb].
  - exists (mk_aesi SZero b). unfold canon, sval. cbn [sgn mag]. conjs; auto; [tauto|]. destruct (odd_dashes s); reflexivity.
  - rewrite traverse_spec. cbn [bind]. eexists. split; [reflexivity|]. unfold canon, sval. cbn [sgn mag]. rewrite B.
    destruct (odd_dashes s); conjs; auto; split; congruence.
Qed.

(** ** summary forms *)
Lemma numeral_nonempty upper base v s : numeral upper base v s -> 1 <= len s.
Proof.
  intros (ds & -> & _ & _ & H). rewrite len_map. destruct H as [-> |(d & t & -> & _)]; [cbn; lia|]. rewrite len_cons. pose proof (len_nonneg t). lia.
Qed.
Lemma numeral_len_bound n upper base v s : 0 <= n -> 2 <= base -> 0 <= v < modulus n -> numeral upper base v s -> len s <= Z.max 1 (32 * n).
Proof.
  intros Hn Hb Hv (ds & -> & F & V & H). rewrite len_map. destruct H as [-> |(d & t & -> & Hd)]; [change (len [0]) with 1; lia|].
  pose proof (numeral_low base d t Hb F Hd) as L. rewrite V in L. rewrite len_cons. pose proof (len_nonneg t).
  destruct (Z_lt_le_dec (len t) (32 * n)) as [|Hge]; [lia|]. exfalso. unfold modulus in Hv.
  assert (2 ^ (32 * n) <= 2 ^ len t) by (apply Z.pow_le_mono_r; lia). assert (2 ^ len t <= base ^ len t) by (apply Z.pow_le_mono_l; lia). lia.
Qed.
Lemma skipn_old {A} (old rest : list A) k : len old = k -> rest = skipn (Z.to_nat k) (old ++ rest).
Proof. intros <-. unfold len. rewrite Nat2Z.id, skipn_app, skipn_all, Nat.sub_diag. reflexivity. Qed.
Lemma getString_ok cfg n wide upper wfail base a buffer bufferSize showBase s : wf n a -> bval a <> 0 -> base_ok base ->
  2 <= n \/ base = 16 -> 1 <= n -> bufferSize < 2 ^ 64 -> bufferSize <= len buffer ->
  numeral (upper && (base =? 16)) base (bval a) s ->
  len (shown showBase base ++ s) + 1 <= bufferSize ->
  getString cfg n wide upper wfail base a buffer bufferSize showBase =
    Ok ((shown showBase base ++ s ++ [0]) ++ skipn (Z.to_nat (len (shown showBase base ++ s) + 1)) buffer, len (shown showBase base ++ s) + 1).
Proof.
  intros W Hv Hb Hnb Hn H64 HL HS Hfit. pose proof (len_nonneg (shown showBase base ++ s)).
  destruct (getString_fit cfg n wide upper wfail base a buffer bufferSize showBase s) as (old & rest & -> & Lo & ->); auto; [lia|].
  rewrite <- (skipn_old old rest) by auto. rewrite <- !app_assoc. reflexivity.
Qed.
Lemma getString_zero_ok cfg n wide upper wfail base a buffer bufferSize showBase : wf n a -> bval a = 0 -> 2 <= bufferSize <= len buffer ->
  let text := shown_in bufferSize showBase base ++ [48] in
  getString cfg n wide upper wfail base a buffer bufferSize showBase = Ok (text ++ skipn (Z.to_nat (len text)) buffer, len text).
Proof.
  intros W V H text. destruct (getString_zero cfg n wide upper wfail base a buffer bufferSize showBase W V H) as (old & rest & -> & Lo & ->). fold text.
  rewrite <- (skipn_old old rest) by auto. reflexivity.
Qed.
Lemma getString_nobase cfg n wide upper wfail base a buffer bufferSize showBase : bufferSize <= 3 ->
  getString cfg n wide upper wfail base a buffer bufferSize showBase = getString cfg n wide upper wfail base a buffer bufferSize false.
Proof.
  intros H. unfold getString. replace (bufferSize >? 3) with false by (symmetry; rewrite Z.gtb_ltb; apply Z.ltb_ge; lia). rewrite andb_false_r. reflexivity.
Qed.
Lemma getString_safe_iff cfg n wide upper wfail base a buffer bufferSize showBase s : wf n a -> base_ok base ->
  2 <= n \/ base = 16 -> 1 <= n < 2 ^ 59 -> wide = false \/ base <> 16 -> bufferSize < 2 ^ 64 -> bufferSize = len buffer ->
  numeral (upper && (base =? 16)) base (bval a) s ->
  ((exists r, getString cfg n wide upper wfail base a buffer bufferSize showBase = Ok r) <->
   (bufferSize < 2 \/ bval a = 0 \/ len (shown_in bufferSize showBase base ++ s) + 1 <= bufferSize)) /\
  ((exists r, getString cfg n wide upper wfail base a buffer bufferSize showBase = Ok r) \/
   getString cfg n wide upper wfail base a buffer bufferSize showBase = Err OutOfBounds).
Proof.
  intros W Hb Hnb Hn Hw H64 HL HS.
  destruct (Z_lt_le_dec bufferSize 2) as [H2|H2].
  { rewrite getString_tiny by auto. split; [|left; eauto]. split; eauto. }
  destruct (Z.eq_dec (bval a) 0) as [V|V].
  { rewrite getString_zero_ok by (auto; lia). split; [|left; eauto]. split; eauto. }
  destruct (Z_le_gt_dec (len (shown_in bufferSize showBase base ++ s) + 1) bufferSize) as [F|F].
  - assert (E : exists r, getString cfg n wide upper wfail base a buffer bufferSize showBase = Ok r); [|split; [split; auto|left; auto] ].
    unfold shown_in in F. destruct showBase; cbn [andb] in F.
    + destruct (bufferSize >? 3) eqn:G.
      * rewrite (getString_ok cfg n wide upper wfail base a buffer bufferSize true s) by (auto; lia). eauto.
      * rewrite Z.gtb_ltb in G. apply Z.ltb_ge in G. rewrite getString_nobase by lia.
        rewrite (getString_ok cfg n wide upper wfail base a buffer bufferSize false s) by (auto; lia). eauto.
    + rewrite (getString_ok cfg n wide upper wfail base a buffer bufferSize false s) by (auto; lia). eauto.
  - rewrite (getString_overflow cfg n wide upper wfail base a buffer bufferSize showBase s) by (auto; lia). split; [|auto]. split.
    + intros (r & E). discriminate.
    + intros [|[|] ]; try lia; congruence.
Qed.

Lemma firstn_app_len {A} (a b : list A) k : len a = k -> firstn (Z.to_nat k) (a ++ b) = a.
Proof. intros <-. unfold len. rewrite Nat2Z.id, firstn_app, firstn_all, Nat.sub_diag. cbn [firstn]. apply app_nil_r. Qed.

Lemma roundtrip cfg n wide wide' upper wfail base alnum a buffer bufferSize showBase : wf n a -> base_ok base ->
  2 <= n \/ base = 16 -> 1 <= n -> base = 10 \/ showBase = true -> alnum_ok alnum -> 32 * n + 3 <= bufferSize <= len buffer -> bufferSize < 2 ^ 64 ->
  exists b k, getString cfg n wide upper wfail base a buffer bufferSize showBase = Ok (b, k) /\
   yields n (from_string n wide' alnum (firstn (Z.to_nat k) b)) (bval a).
Proof.
  intros W Hb Hnb Hn Hs Ha HB H64. pose proof (bval_bound n _ W) as Bv.
  destruct (numeral_exists (upper && (base =? 16)) base (bval a)) as (s & HS); [destruct Hb as [-> |[-> |[-> | ->] ] ]; lia|lia|].
  assert (SB : shown showBase base = prefix_text base).
  { destruct Hs as [-> | ->]; [destruct showBase|]; reflexivity. }
  assert (P : forall tl, tl = [] \/ tl = [0] -> yields n (from_string n wide' alnum (prefix_text base ++ s ++ tl)) (bval a)).
  { intros tl Htl. destruct (Z.eq_dec base 10) as [-> | N10].
    - change (prefix_text 10) with (@nil Z). cbn [app]. eapply parse_decimal; eauto; lia.
    - eapply parse_prefixed; eauto; [lia|]. destruct Hb as [|[|[|] ] ]; auto. congruence. }
  assert (2 <= base) by (destruct Hb as [-> |[-> |[-> | ->] ] ]; lia).
  pose proof (numeral_len_bound n _ base (bval a) s ltac:(lia) ltac:(lia) Bv HS) as LS. pose proof (prefix_text_len base).
  destruct (Z.eq_dec (bval a) 0) as [V|V].
  - rewrite getString_zero_ok by (auto; lia). eexists _, _. split; [reflexivity|].
    assert (SH : shown_in bufferSize showBase base = prefix_text base).
    { rewrite <- SB. unfold shown_in, shown. replace (bufferSize >? 3) with true by (symmetry; rewrite Z.gtb_ltb; apply Z.ltb_lt; lia). rewrite andb_true_r. reflexivity. }
    rewrite SH. rewrite firstn_app_len by auto.
    assert (s = [48]). { apply (numeral_unique (upper && (base =? 16)) base (bval a)); auto. exists [0]. rewrite V. conjs; auto. constructor; [lia|auto]. }
    subst s. specialize (P [] (or_introl eq_refl)). rewrite app_nil_r in P. exact P.
  - rewrite (getString_ok cfg n wide upper wfail base a buffer bufferSize showBase s) by (auto; try lia; rewrite SB, len_app; lia).
    eexists _, _. split; [reflexivity|]. rewrite firstn_app_len. 2:{ rewrite !len_app. change (len [0]) with 1. lia. }
    rewrite SB. apply P. auto.
Qed.
