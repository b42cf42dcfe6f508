(** * TextWide: exactly when the wide hexadecimal getString stays inside its buffer. *)
From Verif Require Export TextMore.
Open Scope Z_scope.

(** The call succeeded, leaving a buffer of [B] characters and position [p]. *)
Definition inside (B : Z) (r : outcome (list Z * Z)) (p : Z) : Prop := exists b, r = Ok (b, p) /\ len b = B.

Lemma set_chars_in cs : forall buffer pos, 0 <= pos -> pos + len cs <= len buffer -> exists b, set_chars buffer pos cs = Ok b /\ len b = len buffer.
Proof.
  induction cs as [|c cs IH]; intros buffer pos H0 H; cbn [set_chars]; [eauto|]. rewrite len_cons in H. pose proof (len_nonneg cs).
  rewrite aset_ok by lia. cbn [bind]. destruct (IH (upd buffer (Z.to_nat pos) c) (pos + 1)) as (b & E & L); [lia|rewrite len_upd; lia|]. exists b. rewrite L, len_upd. auto.
Qed.

(** One swprintf with a position inside the buffer. *)
Lemma wide_fits wfail B text buffer p : 2 <= B < 2 ^ 64 -> len buffer = B -> 0 <= p -> p + len text + 1 <= B ->
  inside B (print_block true wfail B text (buffer, p)) (p + len text).
Proof.
  intros HB L H0 H. pose proof (len_nonneg text). unfold print_block. cbv zeta. rewrite (u64_small (B - p)), (u64_small (p + len text)) by lia.
  replace (len text + 1 <=? B - p) with true by (symmetry; apply Z.leb_le; lia).
  destruct (set_chars_in (text ++ [0]) buffer p) as (b & E & Lb); [lia|rewrite len_app; change (len [0]) with 1; lia|]. rewrite E. cbn [bind]. exists b. split; [reflexivity|congruence].
Qed.
Lemma wide_fails wfail B text buffer p : (forall b q, len (wfail b q) = len b) -> 2 <= B < 2 ^ 64 -> len buffer = B -> 0 <= p <= B -> B < p + len text + 1 ->
  inside B (print_block true wfail B text (buffer, p)) (u64 (p - 1)).
Proof.
  intros Wf HB L H0 H. unfold print_block. cbv zeta. rewrite (u64_small (B - p)) by lia.
  replace (len text + 1 <=? B - p) with false by (symmetry; apply Z.leb_gt; lia). replace (p + (B - p) <=? len buffer) with true by (symmetry; apply Z.leb_le; lia).
  exists (wfail buffer p). rewrite Wf. auto.
Qed.
(** One swprintf of eight digits after the position has gone below zero. *)
Lemma wide_wrapped wfail B text buffer : 2 <= B < 9 -> len buffer = B -> len text = 8 -> print_block true wfail B text (buffer, 2 ^ 64 - 1) = Err OutOfBounds.
Proof.
  intros HB L Ht. unfold print_block. cbv zeta. replace (u64 (B - (2 ^ 64 - 1))) with (B + 1) by (unfold u64; apply Z.mod_unique with (-1); lia).
  assert (S : set_chars buffer (2 ^ 64 - 1) (text ++ [0]) = Err OutOfBounds).
  { destruct text as [|c t]; [change (len (@nil Z)) with 0 in Ht; lia|]. cbn [app set_chars]. rewrite aset_err by lia. reflexivity. }
  rewrite S. cbn [bind]. destruct (len text + 1 <=? B + 1); [reflexivity|].
  replace (2 ^ 64 - 1 + (B + 1) <=? len buffer) with false; [reflexivity|]. symmetry. apply Z.leb_gt. lia.
Qed.

(** The lower blocks.  Position stays inside for buffers of at least 9 characters ... *)
Lemma wide_loop_big n upper wfail B a j : wf n a -> (forall b q, len (wfail b q) = len b) -> 9 <= B < 2 ^ 64 -> Z.of_nat j <= n -> forall buffer p,
  len buffer = B -> 0 <= p < B ->
  exists p', 0 <= p' < B /\
   inside B (loopD j (Z.of_nat j) (fun i st => x <- aget a i ;; print_block true wfail B (fmt_08x upper x) st) (buffer, p)) p'.
Proof.
  intros W Wf HB. induction j as [|j IH]; intros Hj buffer p L Hp.
  - exists p. split; auto. exists buffer. auto.
  - cbn [loopD]. replace (Z.of_nat (S j) - 1) with (Z.of_nat j) by lia. rewrite aget_ok by (rewrite (wf_len _ _ W); lia). cbn [bind].
    assert (L8 : len (fmt_08x upper (znth a (Z.of_nat j))) = 8) by (unfold fmt_08x; rewrite len_map; apply hex8_len).
    set (t := fmt_08x upper (znth a (Z.of_nat j))) in *. destruct (Z_le_gt_dec (p + 9) B) as [F|F].
    + destruct (wide_fits wfail B t buffer p ltac:(lia) L ltac:(lia) ltac:(lia)) as (b & -> & Lb). cbn [bind]. apply IH; auto; lia.
    + destruct (wide_fails wfail B t buffer p Wf ltac:(lia) L ltac:(lia) ltac:(lia)) as (b & -> & Lb). cbn [bind]. rewrite u64_small by lia. apply IH; auto; lia.
Qed.
(** ... and for smaller ones goes down by one per block, until it wraps. *)
Lemma wide_loop_small n upper wfail B a j : wf n a -> (forall b q, len (wfail b q) = len b) -> 2 <= B < 9 -> Z.of_nat j <= n -> forall buffer p,
  len buffer = B -> 0 <= p < B ->
  let r := loopD j (Z.of_nat j) (fun i st => x <- aget a i ;; print_block true wfail B (fmt_08x upper x) st) (buffer, p) in
  (Z.of_nat j <= p -> inside B r (p - Z.of_nat j)) /\
  (p < Z.of_nat j -> r = Err OutOfBounds \/ inside B r (2 ^ 64 - 1)).
Proof.
  intros W Wf HB. induction j as [|j IH]; intros Hj buffer p L Hp r; subst r.
  - split; [|lia]. intros _. exists buffer. cbn [loopD Z.of_nat]. rewrite Z.sub_0_r. auto.
  - cbn [loopD]. replace (Z.of_nat (S j) - 1) with (Z.of_nat j) by lia. rewrite aget_ok by (rewrite (wf_len _ _ W); lia). cbn [bind].
    assert (L8 : len (fmt_08x upper (znth a (Z.of_nat j))) = 8) by (unfold fmt_08x; rewrite len_map; apply hex8_len).
    set (t := fmt_08x upper (znth a (Z.of_nat j))) in *.
    destruct (wide_fails wfail B t buffer p Wf ltac:(lia) L ltac:(lia) ltac:(lia)) as (b & -> & Lb). cbn [bind].
    destruct (Z.eq_dec p 0) as [->|P0].
    + split; [lia|]. intros _. change (u64 (0 - 1)) with (2 ^ 64 - 1). destruct j as [|j].
      * right. exists b. auto.
      * left. cbn [loopD]. replace (Z.of_nat (S j) - 1) with (Z.of_nat j) by lia. rewrite aget_ok by (rewrite (wf_len _ _ W); lia). cbn [bind].
        rewrite wide_wrapped by (auto; unfold fmt_08x; rewrite len_map; apply hex8_len). reflexivity.
    + rewrite u64_small by lia. destruct (IH ltac:(lia) b (p - 1) Lb ltac:(lia)) as [I1 I2]. split; intros H.
      * replace (p - Z.of_nat (S j)) with (p - 1 - Z.of_nat j) by lia. apply I1. lia.
      * apply I2. lia.
Qed.

Lemma wide_hex_iff cfg n upper wfail a buffer showBase s : wf n a -> bval a <> 0 -> 1 <= n -> (forall b q, len (wfail b q) = len b) ->
  2 <= len buffer < 2 ^ 64 -> numeral upper 16 (bval a) s ->
  ((exists r, getString cfg n true upper wfail 16 a buffer (len buffer) showBase = Ok r) <->
   wide_hex_safe (len buffer) (len (shown_in (len buffer) showBase 16)) (len s)) /\
  ((exists r, getString cfg n true upper wfail 16 a buffer (len buffer) showBase = Ok r) \/
   getString cfg n true upper wfail 16 a buffer (len buffer) showBase = Err OutOfBounds).
Proof.
  intros W Hv Hn Wf HB HS. set (B := len buffer) in *. pose proof (bval_bound n _ W) as Bv.
  destruct (prefix_step B showBase 16 buffer) as (o & r & Eb & Lo & E); [lia|].
  set (pre := shown_in B showBase 16) in *. set (buf1 := pre ++ r) in *. assert (L1 : len buf1 = B) by (unfold buf1, B; rewrite Eb, !len_app; lia).
  assert (LP : 0 <= len pre <= 2 /\ (3 < B \/ len pre = 0)).
  { subst pre. unfold shown_in. destruct showBase; cbn [andb]; [|change (len (@nil Z)) with 0; lia]. rewrite Z.gtb_ltb. destruct (Z.ltb_spec 3 B); [pose proof (prefix_text_len 16); lia|change (len (@nil Z)) with 0; lia]. }
  destruct (top_block_spec n a W ltac:(lia)) as (L & ET & HLn & Hz & HT).
  pose proof (hex_numeral n a L upper W ltac:(lia) HLn Hz HT Hv) as HN. pose proof (numeral_unique upper 16 (bval a) _ _ ltac:(lia) HS HN) as Es.
  set (top := fmt_x upper (znth a L)) in *.
  assert (Ls : len s = len top + 8 * L).
  { unfold top. rewrite Es. unfold hex_digits, fmt_x. rewrite map_app, len_app, !len_map, low_hex_len. lia. }
  assert (L8 : 1 <= len top <= 8).
  { unfold top, fmt_x. rewrite len_map. pose proof (strip0_len (hex8 (znth a L))). rewrite hex8_len in *. split; [|lia].
    destruct (strip0 (hex8 (znth a L))) as [|d t] eqn:E0; [|rewrite len_cons; pose proof (len_nonneg t); lia]. exfalso.
    assert (X : forall d t, strip0 (d :: t) <> []) by (intros d t; revert d; induction t as [|e t IH]; intros d; rewrite strip0_cons; [discriminate|destruct (d =? 0); [apply IH|discriminate] ]).
    unfold hex8 in E0. cbn [map] in E0. exact (X _ _ E0). }
  assert (HK : (len s - 1) / 8 = L) by (symmetry; apply Z.div_unique with (len top - 1); lia).
  unfold wide_hex_safe. cbv zeta. rewrite HK. replace (len s - 8 * L) with (len top) by lia.
  unfold getString. change gs_prefix with prefix_text. replace (B <? 2) with false by (symmetry; apply Z.ltb_ge; lia). rewrite E. cbn [bind]. rewrite isZero_spec by auto.
  replace (bval a =? 0) with false by (symmetry; apply Z.eqb_neq; auto). cbn [bind]. change (16 =? 16) with true. cbv iota. rewrite ET. cbn [bind].
  rewrite aget_ok by (rewrite (wf_len _ _ W); lia). cbn [bind]. fold top.
  unfold forD. rewrite Z.sub_0_r. replace L with (Z.of_nat (Z.to_nat L)) by lia. rewrite Nat2Z.id. set (j := Z.to_nat L) in *.
  assert (Hj : Z.of_nat j = L) by lia.
  (* the final NUL *)
  assert (FIN : forall x p, inside B x p -> 0 <= p < B ->
     exists res, ('(buffer, position) <- x ;; b <- aset buffer position 0 ;; Ok (b, u64 (position + 1))) = Ok res).
  { intros x p (b & -> & Lb) Hp. cbn [bind]. rewrite aset_ok by lia. cbn [bind]. eauto. }
  assert (BAD : forall x, x = Err OutOfBounds \/ inside B x (2 ^ 64 - 1) -> B < 9 ->
     ('(buffer, position) <- x ;; b <- aset buffer position 0 ;; Ok (b, u64 (position + 1))) = Err OutOfBounds).
  { intros x [-> |(b & -> & Lb)] Hp; cbn [bind]; [reflexivity|]. rewrite aset_err by lia. reflexivity. }
  match goal with |- ((exists _, bind ?y _ = _) <-> _) /\ _ => set (X := y) in * end.
  set (S1 := 9 <= B \/ len pre + len top < B /\ Z.of_nat j <= len pre + len top \/ B <= len pre + len top /\ Z.of_nat j < len pre).
  assert (MAIN : (S1 -> exists p, inside B X p /\ 0 <= p < B) /\ (~ S1 -> B < 9 /\ (X = Err OutOfBounds \/ inside B X (2 ^ 64 - 1)))).
  { unfold S1, X. destruct (Z_lt_le_dec (len pre + len top) B) as [F|F].
    - destruct (wide_fits wfail B top buf1 (len pre) ltac:(lia) L1 ltac:(lia) ltac:(lia)) as (b & -> & Lb). cbn [bind].
      destruct (Z_le_gt_dec 9 B) as [B9|B9].
      + split; [intros _|lia]. destruct (wide_loop_big n upper wfail B a j W Wf ltac:(lia) ltac:(lia) b (len pre + len top) Lb ltac:(lia)) as (p' & Hp & I). eauto.
      + destruct (wide_loop_small n upper wfail B a j W Wf ltac:(lia) ltac:(lia) b (len pre + len top) Lb ltac:(lia)) as [I1 I2].
        split; intros H; [exists (len pre + len top - Z.of_nat j); split; [apply I1|]; lia|split; [lia|apply I2; lia] ].
    - destruct (wide_fails wfail B top buf1 (len pre) Wf ltac:(lia) L1 ltac:(lia) ltac:(lia)) as (b & -> & Lb). cbn [bind].
      destruct (Z.eq_dec (len pre) 0) as [P0|P0].
      + rewrite P0. change (u64 (0 - 1)) with (2 ^ 64 - 1). split; [lia|]. intros _. split; [lia|]. destruct j as [|j'].
        * right. exists b. auto.
        * left. cbn [loopD]. replace (Z.of_nat (S j') - 1) with (Z.of_nat j') by lia. rewrite aget_ok by (rewrite (wf_len _ _ W); lia). cbn [bind].
          rewrite wide_wrapped by (try lia; unfold fmt_08x; rewrite len_map; apply hex8_len). reflexivity.
      + rewrite u64_small by lia. destruct (Z_le_gt_dec 9 B) as [B9|B9].
        * split; [intros _|lia]. destruct (wide_loop_big n upper wfail B a j W Wf ltac:(lia) ltac:(lia) b (len pre - 1) Lb ltac:(lia)) as (p' & Hp & I). eauto.
        * destruct (wide_loop_small n upper wfail B a j W Wf ltac:(lia) ltac:(lia) b (len pre - 1) Lb ltac:(lia)) as [I1 I2].
          split; intros H; [exists (len pre - 1 - Z.of_nat j); split; [apply I1|]; lia|split; [lia|apply I2; lia] ]. }
  destruct MAIN as [M1 M2]. assert (D : S1 \/ ~ S1) by (unfold S1; lia). destruct D as [D|D].
  - destruct (M1 D) as (p & I & Hp). destruct (FIN X p I Hp) as (res & ER). split; [split; [auto|eauto]|]. left. eauto.
  - destruct (M2 D) as (B9 & I). pose proof (BAD X I B9) as ER. split; [|right; exact ER]. split; [|tauto]. intros (res & ER'). rewrite ER in ER'. discriminate.
Qed.
