(** * PropsMachT: C150, texts with machine counters and sizes.

    Stated about the functions of [MachText.v]; [F] bounds the iterations of every loop, [bitness = 32 * n] has to be a
    [std::size_t]. *)
From Verif Require Import Lib Spec TextSpec TextModel TextFacts TextOut TextMore AeuAccess AeuArith AeuDiv ProgTotal MachModel MachFacts MachSigned MachText PropsMachS PropsText.
Open Scope Z_scope.

Ltac conjs := repeat match goal with |- _ /\ _ => split end.
Ltac wfc := apply wfb_wf; vm_compute; reflexivity.

Lemma w_skip_eq wide alnum data size : 0 <= size < 2 ^ 64 -> forall F, (Z.to_nat size < F)%nat ->
  w_skip_leading F wide alnum data size = skip_leading wide alnum data size.
Proof.
  intros Hs F HF. unfold w_skip_leading, skip_leading, forUx.
  assert (K : forall k F i, 0 <= i <= size -> k = Z.to_nat (size - i) -> (k < F)%nat ->
    w_while F (fun position => if position <? size then c <- aget data position ;; b <- is_alnum wide alnum c ;; Ok (negb b) else Ok false)
      (fun position => Ok (u64 (position + 1))) i =
    (x <- loopUx k i (fun position (_ : unit) => c <- aget data position ;; b <- is_alnum wide alnum c ;; if b : bool then Ok (Exit position) else Ok (Next tt)) tt ;;
     match x with Exit p => Ok p | Next _ => Ok size end)).
  { clear F HF. induction k as [|k IH]; intros F i Hi K HF; (destruct F as [|F]; [lia|]); cbn [w_while loopUx].
    - replace (i <? size) with false by lia. cbn [bind]. f_equal. lia.
    - replace (i <? size) with true by lia. destruct (aget data i) as [c|]; cbn [bind]; auto. destruct (is_alnum wide alnum c) as [ [|]|]; cbn [bind negb]; auto.
      rewrite u64s by lia. apply IH; lia. }
  apply K; lia.
Qed.
Lemma skip_range wide alnum data size p : 0 <= size -> skip_leading wide alnum data size = Ok p -> 0 <= p <= size.
Proof.
  intros Hs. unfold skip_leading, forUx.
  assert (K : forall k i x, 0 <= i -> i + Z.of_nat k <= size -> 
    loopUx k i (fun position (_ : unit) => c <- aget data position ;; b <- is_alnum wide alnum c ;; if b : bool then Ok (Exit position) else Ok (Next tt)) tt = Ok x ->
    match x with Exit p => 0 <= p <= size | Next _ => True end).
  { induction k as [|k IH]; intros i x Hi Hk E; cbn [loopUx] in E; [injection E as <-; auto|].
    destruct (aget data i) as [c|]; cbn [bind] in E; [|discriminate]. destruct (is_alnum wide alnum c) as [ [|]|]; cbn [bind] in E; [|apply (IH (i + 1)); [lia|lia|exact E]|discriminate].
    injection E as <-. lia. }
  destruct (loopUx _ _ _ _) as [x|] eqn:E; cbn [bind]; [|discriminate]. apply K in E; [|lia..]. destruct x; intros [= <-]; lia.
Qed.
Lemma w_detect_eq data size position : 0 <= position -> position < size < 2 ^ 64 -> w_detect_base data size position = detect_base data size position.
Proof.
  intros H1 H2. unfold w_detect_base, detect_base. apply bind_ext; auto. intros c _. rewrite (u64s (position + 1)) by lia.
  destruct (Z.gtb_spec size (position + 1)); [|rewrite !andb_false_r; auto]. rewrite (u64s (position + 2)) by lia. reflexivity.
Qed.
Lemma detect_range data size position base p : 0 <= position -> position < size -> detect_base data size position = Ok (base, p) -> position <= p <= size /\ 0 <= base < 2 ^ 32.
Proof.
  intros H1 H2. unfold detect_base. destruct (aget data position) as [c|]; cbn [bind]; [|discriminate].
  destruct ((c =? 48) && (size >? position + 1)) eqn:E; [|intros [= <- <-]; lia]. apply andb_true_iff in E. destruct E as [_ E]. apply Z.gtb_lt in E.
  destruct (aget data (position + 1)) as [d|]; cbn [bind]; [|discriminate].
  destruct ((d =? 98) || (d =? 66)); [intros [= <- <-]; lia|]. destruct ((d =? 111) || (d =? 79)); [intros [= <- <-]; lia|]. destruct ((d =? 120) || (d =? 88)); intros [= <- <-]; lia.
Qed.
Lemma w_char_digit_eq c : w_char_digit c = char_digit c.
Proof.
  unfold w_char_digit, char_digit.
  destruct (Z.leb_spec 48 c), (Z.leb_spec c 57); cbn [andb]; [unfold u32; rewrite (Z.mod_small c), (Z.mod_small 48), Z.mod_small by lia; auto| | |];
  (destruct (Z.leb_spec 97 c), (Z.leb_spec c 102); cbn [andb]; [unfold u32; rewrite (Z.mod_small c), (Z.mod_small 97), (Z.mod_small (c - 97)), Z.mod_small by lia; auto| | |]);
  (destruct (Z.leb_spec 65 c), (Z.leb_spec c 70); cbn [andb]; [unfold u32; rewrite (Z.mod_small c), (Z.mod_small 65), (Z.mod_small (c - 65)), Z.mod_small by lia; auto|auto..]).
Qed.
Lemma w_from_chars_eq F n wide alnum data size : room F n -> 0 <= size < 2 ^ 64 -> (Z.to_nat size < F)%nat ->
  w_from_chars F n wide alnum data size = from_chars n wide alnum data size.
Proof.
  intros R Hs HF. unfold w_from_chars, from_chars. destruct (Z.eqb_spec size 0); auto. rewrite w_skip_eq by auto. apply bind_ext; auto.
  intros p E. apply skip_range in E; [|lia]. destruct (Z.eqb_spec p size); auto. rewrite w_detect_eq by lia. apply bind_ext; auto.
  intros [base q] D. apply detect_range in D; [|lia..]. destruct D as [D _]. unfold forU.
  match goal with |- context [w_while F ?C ?B _] =>
  assert (K : forall k F2 i s, 0 <= i <= size -> k = Z.to_nat (size - i) -> (k < F2)%nat ->
    w_while F2 C B (i, s) =
    (x <- loopU k i (fun i blocks => c <- aget data i ;; let digit := char_digit c in if digit <? base then b <- mul_assign_u n U32 blocks base ;; add_assign_u n U32 b digit else Ok blocks) s ;; Ok (size, x))) end.
  { clear - R Hs. induction k as [|k IH]; intros F2 i s Hi K HF; (destruct F2 as [|F2]; [lia|]); cbn [w_while loopU bind].
    - replace (i <? size) with false by lia. repeat f_equal. lia.
    - replace (i <? size) with true by lia. destruct (aget data i) as [c|]; cbn [bind]; auto. cbv zeta. rewrite w_char_digit_eq.
      assert (E : (if char_digit c <? base then b <- w_mul_u F n U32 s base ;; w_add_u F n U32 b (char_digit c) else Ok s) =
                  (if char_digit c <? base then b <- mul_assign_u n U32 s base ;; add_assign_u n U32 b (char_digit c) else Ok s)).
      { destruct (char_digit c <? base); auto. rewrite w_mul_u_eq by auto. apply bind_ext; auto. intros b _. apply w_add_u_eq; auto. }
      rewrite E. clear E. match goal with |- context [if char_digit c <? base then ?p else Ok s] => destruct (if char_digit c <? base then p else Ok s) as [b|] end; cbn [bind]; auto. rewrite u64s by lia. apply IH; lia. }
  rewrite (K (Z.to_nat (size - q)) F q) by lia. match goal with |- (x <- (y <- ?L ;; _) ;; _) = _ => destruct L end; reflexivity.
Qed.

(** The digit loop *)
Lemma w_digit_loop_eq F cfg n base bufferSize buffer position a : room F n -> wf n a -> 0 <= base < 2 ^ 64 ->
  0 <= position -> bufferSize < 2 ^ 64 -> (Z.to_nat bufferSize < F)%nat ->
  w_digit_loop F cfg n base bufferSize buffer position a = digit_loop cfg n base bufferSize buffer position a.
Proof.
  intros R Wa Hb Hp HB HF. pose proof R as (R1 & R2 & R3). unfold w_digit_loop, digit_loop, forUx.
  assert (Z0 : forall x, wf n x -> exists z, isZero n x = Ok z). { intros x Wx. unfold isZero. rewrite (filledBlocksNumber_value n x Wx). cbn [bind]. eauto. }
  rewrite w_from_unsigned_eq by auto. destruct (from_unsigned_correct n (zeros n) base ltac:(lia) (len_zeros n ltac:(lia)) Hb) as (d & Ed & Wd & _). rewrite Ed. cbn [bind].
  match goal with |- context [w_while F ?C ?B _] => match goal with |- context [loopUx _ _ ?B2 _] =>
  assert (K : forall k F2 i s x, wf n x -> 0 <= i -> i < 2 ^ 64 \/ k = 0%nat -> k = Z.to_nat (bufferSize - i) -> (k < F2)%nat ->
    ('(p, b, _) <- w_while F2 C B (i, s, x) ;; Ok (b, p)) =
    (y <- loopUx k i B2 (s, x) ;; match y with Exit (b, p) => Ok (b, p) | Next (b, _) => Ok (b, Z.max i bufferSize) end)) end end.
  { clear - R R1 Z0 Wd HB. induction k as [|k IH]; intros F2 i s x Wx Hi Hi2 K HF; (destruct F2 as [|F2]; [lia|]); cbn [w_while loopUx]; rewrite w_isZero_eq by auto;
      destruct (Z0 x Wx) as (z & Ez); rewrite Ez; cbn [bind].
    - replace (i <? bufferSize) with false by lia. destruct z; cbn [bind negb]; repeat f_equal; lia.
    - replace (i <? bufferSize) with true by lia. destruct z; cbn [bind negb]; auto.
      rewrite w_divide_eq by auto. destruct (div_tot cfg n x d R1 Wx Wd) as (q & r & E & Wq & Wr). rewrite E. cbn [bind].
      rewrite w_integralCast_eq. destruct (integralCast uint8 r) as [v|]; cbn [bind]; auto. destruct (aset s i (48 + v)) as [b|]; cbn [bind]; auto.
      rewrite u64s by lia. rewrite IH; auto; try lia. destruct (loopUx _ _ _ _) as [ [[b' x']|[b' p']]|]; cbn [bind]; auto. f_equal. f_equal. lia. }
  destruct (Z.ltb_spec position (2 ^ 64)); apply K; auto; lia.
Qed.
Lemma digit_loop_range cfg n base bufferSize buffer position a b p : 0 <= position ->
  digit_loop cfg n base bufferSize buffer position a = Ok (b, p) -> position <= p <= Z.max position bufferSize.
Proof.
  intros Hp. unfold digit_loop, forUx.
  match goal with |- context [loopUx _ _ ?B _] =>
  assert (K : forall k i s y, i + Z.of_nat k <= Z.max position bufferSize -> position <= i -> loopUx k i B s = Ok y -> match y with Exit (_, p) => position <= p <= Z.max position bufferSize | Next _ => True end) end.
  { induction k as [|k IH]; intros i [s x] y Hi Hk E; cbn [loopUx] in E; [injection E as <-; auto|].
    destruct (isZero n x) as [ [|]|]; cbn [bind] in E; try discriminate; [injection E as <-; lia|].
    destruct (from_unsigned n (zeros n) base) as [d|]; cbn [bind] in E; try discriminate. destruct (divide cfg n x d) as [ [q r]|]; cbn [bind] in E; try discriminate.
    destruct (integralCast uint8 r) as [v|]; cbn [bind] in E; try discriminate. destruct (aset s i (48 + v)) as [b'|]; cbn [bind] in E; try discriminate.
    apply (IH (i + 1) (b', q)); auto; lia. }
  destruct (loopUx _ _ _ _) as [y|] eqn:E; cbn [bind]; [|discriminate]. apply K in E; [|lia..]. destruct y as [ [b' x]|[b' p'] ]; intros [= <- <-]; lia.
Qed.
Lemma w_reverse_eq F buffer st dt : 0 <= st -> 0 <= dt -> st + dt < 2 ^ 64 - 1 -> (Z.to_nat dt < F)%nat ->
  w_reverse_digits F buffer st dt = reverse_digits buffer st dt.
Proof.
  intros H1 H2 H3 HF. unfold w_reverse_digits, reverse_digits, forU.
  assert (Hh : 0 <= (dt + 1) / 2 <= dt /\ 2 * ((dt + 1) / 2) <= dt + 1 /\ dt <= 2 * ((dt + 1) / 2)).
  { clear - H2. pose proof (Z.div_mod (dt + 1) 2 ltac:(lia)). pose proof (Z.mod_pos_bound (dt + 1) 2 ltac:(lia)). lia. }
  rewrite (w_for_loop 64 _ _ ((dt + 1) / 2) (Z.to_nat ((dt + 1) / 2 - 0))); try lia.
  - rewrite loopUx_go. match goal with |- (x <- (y <- loopU ?k 0 ?ff ?s ;; _) ;; _) = loopU ?k 0 ?g ?s => rewrite (loopU_ext ff g) end.
    + destruct (loopU _ _ _ _); reflexivity.
    + intros j s Hj. cbv zeta. rewrite (u64s (st + j)), (u64s (st + dt)), (u64s (st + dt - 1)), u64s by lia. reflexivity.
  - intros j Hj. rewrite u64s by lia. f_equal. destruct (Z.ltb_spec (j * 2) dt), (Z.ltb_spec j ((dt + 1) / 2)); auto; lia.
Qed.
Lemma gs_len base : len (gs_prefix base) = 0 \/ len (gs_prefix base) = 2.
Proof. unfold gs_prefix. destruct (base =? 2); auto. destruct (base =? 8); auto. destruct (base =? 16); auto. Qed.
Lemma w_getString_eq F cfg n wide upper wfail base a buffer bufferSize showBase : room F n -> wf n a -> 0 <= base < 2 ^ 64 ->
  bufferSize < 2 ^ 64 - 1 -> (Z.to_nat bufferSize < F)%nat ->
  w_getString F cfg n wide upper wfail base a buffer bufferSize showBase = getString cfg n wide upper wfail base a buffer bufferSize showBase.
Proof.
  intros R Wa Hb HB HF. unfold w_getString, getString. destruct (Z.ltb_spec bufferSize 2); auto. rewrite w_isZero_eq, w_last_eq by auto.
  apply bind_ext; auto. intros [buf pos] E.
  assert (HP : pos = 0 \/ pos = 2).
  { destruct (showBase && (bufferSize >? 3)); [|injection E as _ <-; auto]. destruct (set_chars _ _ _) in E; cbn [bind] in E; [|discriminate]. injection E as _ <-. apply gs_len. }
  apply bind_ext; auto. intros [|] _.
  - apply bind_ext; auto. intros b _. rewrite u64s by lia. reflexivity.
  - apply bind_ext; [|intros [b p] _; reflexivity]. destruct (base =? 16).
    + unfold top_block. fold (lastBlockIndex n a). apply bind_ext; auto. intros iter El. apply lastBlock_range in El; [|destruct R; auto].
      apply bind_ext; auto. intros x _. apply bind_ext; auto. intros st _. apply w_forD_eq; auto; unfold room in R; lia.
    + rewrite w_digit_loop_eq by (auto; lia). apply bind_ext; auto. intros [b p] D. apply digit_loop_range in D; [|lia].
      rewrite u64s by lia. rewrite w_reverse_eq by lia. reflexivity.
Qed.

(** Streams *)
Lemma sbs_le n : 1 <= n -> 32 * n < 2 ^ 53 -> 0 <= stream_buffer_size n <= 32 * n.
Proof.
  intros H1 Hn. unfold stream_buffer_size. cbv zeta.
  set (num := 32 * n * 2 ^ 50). set (e := Z.log2 (num / d295)).
  assert (E : 0 <= e <= 52).
  { subst e. split; [apply Z.log2_nonneg|]. assert (num / d295 < 2 ^ 53).
    - apply Z.div_lt_upper_bound; [reflexivity|]. subst num. unfold d295. change (2 ^ 53) with 9007199254740992 in *. change (2 ^ 50) with 1125899906842624. lia.
    - destruct (Z_le_gt_dec (num / d295) 0). { rewrite Z.log2_nonpos; lia. } apply Z.log2_lt_pow2 in H; lia. }
  set (p := num * 2 ^ (52 - e)). set (t := 2 ^ (52 - e)) in *. assert (Tp : 0 < t) by (subst t; apply Z.pow_pos_nonneg; lia).
  assert (D : 2 ^ 51 < d295) by reflexivity. assert (N0 : 0 <= num) by (subst num; lia).
  assert (R : 2 * d295 * rne_div p d295 <= 2 * p + d295 /\ 0 <= rne_div p d295).
  { assert (P0 : 0 <= p) by (subst p; nia). clearbody p. clear - P0 D. unfold rne_div. cbv zeta.
    pose proof (Z.mod_pos_bound p d295 ltac:(reflexivity)). pose proof (Z.div_mod p d295 ltac:(discriminate)).
    set (f := p / d295) in *. set (d := d295) in *. assert (0 <= f) by (apply Z.div_pos; [lia|reflexivity]). clearbody f d. clear P0.
    destruct (Z.ltb_spec (2 * (p - f * d)) d); [nia|]. destruct (Z.ltb_spec d (2 * (p - f * d))); [nia|]. destruct (Z.even f); nia. }
  destruct R as [R R0]. assert (Pe : p = num * t) by reflexivity. clearbody p. set (x := rne_div p d295) in *. clearbody x. set (d := d295) in *. clearbody d.
  assert (Hnum : num = 32 * n * 2 ^ 50) by reflexivity. clearbody num t. clear E e.
  split; [apply Z.div_pos; lia|]. pose proof (Z.mul_div_le x t Tp) as B. set (b := x / t) in *. clearbody b.
  destruct (Z_le_gt_dec b (32 * n)) as [|G]; auto. exfalso. subst num p.
  assert (2 * d * (t * (32 * n + 1)) <= 2 * d * x) by (apply Z.mul_le_mono_nonneg_l; [lia|]; apply Z.le_trans with (t * b); [apply Z.mul_le_mono_nonneg_l; lia|exact B]).
  assert (2 * d * (32 * n + 1) * t <= (2 * (32 * n * 2 ^ 50) + d) * t) by nia.
  apply Z.mul_le_mono_pos_r in H0; [|exact Tp]. nia.
Qed.
Lemma w_stream_eq F cfg n os a : room F n -> wf n a -> 32 * n < 2 ^ 53 -> w_stream_insert F cfg n os a = stream_insert cfg n os a.
Proof.
  intros R Wa HB. pose proof R as (R1 & R2 & R3). pose proof (sbs_le n R1 HB) as SB. unfold w_stream_insert, stream_insert. cbv zeta. rewrite w_isZero_eq, w_last_eq by auto.
  apply bind_ext; auto. intros [|] _; auto. set (base := match basef os with BHex => 16 | BOct => 8 | _ => 10 end).
  assert (Hb : 0 <= base < 2 ^ 64) by (subst base; destruct (basef os); lia). clearbody base.
  match goal with |- context [if showbase os && _ then ?x else _] => set (os' := if showbase os && negb (base =? 10) then x else os) end. clearbody os'.
  destruct (base =? 16).
  - unfold top_block. fold (lastBlockIndex n a). apply bind_ext; auto. intros iter El. apply lastBlock_range in El; auto.
    apply bind_ext; auto. intros x _. apply w_forD_eq; auto; lia.
  - rewrite w_digit_loop_eq by (auto; lia). apply bind_ext; auto. intros [b p] D. apply digit_loop_range in D; [|lia]. unfold forD.
    match goal with |- context [w_while F ?C ?B _] =>
    assert (K : forall k F2 i s, 0 <= i < 2 ^ 64 -> k = Z.to_nat i -> (k < F2)%nat ->
      w_while F2 C B (i, s) = (x <- loopD k i (fun i os => c <- aget b i ;; Ok (os_put os [c])) s ;; Ok (0, x))) end.
    { clear. induction k as [|k IH]; intros F2 i s Hi K HF; (destruct F2 as [|F2]; [lia|]); cbn [w_while loopD bind].
      - replace (i >? 0) with false by lia. repeat f_equal. lia.
      - replace (i >? 0) with true by lia. rewrite u64s by lia. destruct (aget b (i - 1)) as [c|]; cbn [bind]; auto. apply IH; lia. }
    rewrite (K (Z.to_nat p)) by lia. replace (p - 0) with p by lia. destruct (loopD _ _ _ _); reflexivity.
Qed.
Lemma w_dashes_eq F ptr size : 0 <= size < 2 ^ 64 -> (Z.to_nat size < F)%nat -> w_traverseDashes F ptr size = traverseDashes ptr size.
Proof. intros H HF. unfold w_traverseDashes, traverseDashes. apply bind_ext; auto. apply w_forU_eq; auto; lia. Qed.
Lemma ws_from_chars_eq F n wide alnum data size : room F n -> 0 <= size < 2 ^ 64 -> (Z.to_nat size < F)%nat ->
  ws_from_chars F n wide alnum data size = s_from_chars n wide alnum data size.
Proof.
  intros R Hs HF. unfold ws_from_chars, s_from_chars. rewrite w_from_chars_eq by auto. apply bind_ext; auto. intros b _. rewrite w_isZero_eq by auto.
  apply bind_ext; auto. intros [|] _; auto. cbn [negb]. rewrite w_dashes_eq by auto. reflexivity.
Qed.
Lemma ws_getString_eq F cfg n wide upper wfail base a buffer bufferSize showBase : room F n -> wf n (mag a) -> 0 <= base < 2 ^ 64 ->
  bufferSize < 2 ^ 64 - 1 -> (Z.to_nat bufferSize < F)%nat ->
  ws_getString F cfg n wide upper wfail base a buffer bufferSize showBase = s_getString cfg n wide upper wfail base a buffer bufferSize showBase.
Proof.
  intros R Wa Hb HB HF. unfold ws_getString, s_getString. destruct (sgn a); auto using w_getString_eq.
  destruct (Z.gtb_spec bufferSize 0); [|apply w_getString_eq; auto]. apply bind_ext; auto. intros b _. rewrite u64s by lia. rewrite w_getString_eq by (auto; lia). reflexivity.
Qed.

(** ** The two models are the same function *)
Theorem C150_same : forall cfg F n wide upper wfail base alnum data size a x buffer bufferSize showBase os,
  1 <= n -> 32 * n < 2 ^ 64 -> (Z.to_nat (32 * n) + 9 < F)%nat -> wf n a -> wf n (mag x) -> 0 <= base < 2 ^ 8 ->
  0 <= size < 2 ^ 64 -> (Z.to_nat size < F)%nat -> 0 <= bufferSize < 2 ^ 64 - 1 -> (Z.to_nat bufferSize < F)%nat ->
  w_from_chars F n wide alnum data size = from_chars n wide alnum data size /\
  ws_from_chars F n wide alnum data size = s_from_chars n wide alnum data size /\
  w_getString F cfg n wide upper wfail base a buffer bufferSize showBase = getString cfg n wide upper wfail base a buffer bufferSize showBase /\
  ws_getString F cfg n wide upper wfail base x buffer bufferSize showBase = s_getString cfg n wide upper wfail base x buffer bufferSize showBase /\
  (32 * n < 2 ^ 53 -> w_stream_insert F cfg n os a = stream_insert cfg n os a /\ ws_stream_insert F cfg n os x = s_stream_insert cfg n os x).
Proof.
  intros cfg F n wide upper wfail base alnum data size a x buffer bufferSize showBase os H1 H2 H3 Wa Wx Hb Hs HF HB HF2.
  assert (R : room F n) by (unfold room; auto). assert (Hb2 : 0 <= base < 2 ^ 64) by lia. assert (HB2 : bufferSize < 2 ^ 64 - 1) by lia.
  conjs; auto using w_from_chars_eq, ws_from_chars_eq, w_getString_eq, ws_getString_eq.
  intros H53. split; [apply w_stream_eq; auto|]. unfold ws_stream_insert, s_stream_insert. destruct (sgn x); auto using w_stream_eq.
Qed.
Print Assumptions C150_same.

(** ** What the user sees, at machine level *)
Theorem C150_read : forall F n wide alnum s, 1 <= n -> 32 * n < 2 ^ 64 -> (Z.to_nat (32 * n) + 9 < F)%nat -> len s < 2 ^ 64 - 1 -> (Z.to_nat (len s) + 1 < F)%nat ->
  alnum_ok alnum -> Forall (fun c => 0 <= c) s ->
  yields n (w_from_string F n wide alnum s) (string_value alnum s mod modulus n) /\
  (alnum 0 = false -> yields n (w_from_literal F n wide alnum s) (string_value alnum s mod modulus n)) /\
  (exists r, ws_from_string F n wide alnum s = Ok r /\ canon n r /\
    sval r = (if odd_dashes s then - (string_value alnum s mod modulus n) else string_value alnum s mod modulus n)) /\
  (alnum 0 = false -> exists r, ws_from_literal F n wide alnum s = Ok r /\ canon n r /\
    sval r = (if odd_dashes s then - (string_value alnum s mod modulus n) else string_value alnum s mod modulus n)).
Proof.
  intros F n wide alnum s H1 H2 H3 HL HF Ha Hs. assert (R : room F n) by (unfold room; auto). pose proof (len_nonneg s).
  unfold w_from_string, w_from_literal, ws_from_string, ws_from_literal. rewrite !w_from_chars_eq, !ws_from_chars_eq by (auto; lia). conjs.
  - apply C32_string_construction; auto; lia.
  - intros H0. apply C32_literal_construction; auto; lia.
  - apply C57_signed_string_construction; auto.
  - intros H0. apply C57_signed_literal_construction; auto.
Qed.
Print Assumptions C150_read.

Theorem C150_write : forall cfg F n wide upper wfail base a buffer bufferSize showBase s,
  2 <= n -> 32 * n < 2 ^ 64 -> (Z.to_nat (32 * n) + 9 < F)%nat -> wf n a -> bval a <> 0 ->
  base = 2 \/ base = 8 \/ base = 10 \/ base = 16 -> numeral (upper && (base =? 16)) base (bval a) s ->
  len (shown showBase base ++ s) + 1 <= bufferSize -> bufferSize <= len buffer -> bufferSize < 2 ^ 64 - 1 -> (Z.to_nat bufferSize < F)%nat ->
  w_getString F cfg n wide upper wfail base a buffer bufferSize showBase =
    Ok ((shown showBase base ++ s ++ [0]) ++ skipn (Z.to_nat (len (shown showBase base ++ s) + 1)) buffer, len (shown showBase base ++ s) + 1).
Proof.
  intros cfg F n wide upper wfail base a buffer bufferSize showBase s H1 H2 H3 Wa Na Hb Hs HL HB1 HB2 HF. assert (R : room F n) by (unfold room; lia).
  rewrite w_getString_eq by (auto; lia). destruct (Z.eqb_spec base 16) as [->|N16].
  - rewrite andb_true_r in Hs. apply C34_getString_hex; auto; lia.
  - rewrite andb_false_r in Hs. apply C33_getString_digits; auto; lia.
Qed.
Print Assumptions C150_write.

Theorem C150_stream : forall cfg F n os a s, 1 <= n -> 32 * n < 2 ^ 53 -> (Z.to_nat (32 * n) + 9 < F)%nat -> wf n a -> width os = 0 ->
  3 <= n \/ (n = 2 /\ os_base os = 10) \/ os_base os = 16 ->
  numeral (uppercase os && (os_base os =? 16)) (os_base os) (bval a) s ->
  exists os', w_stream_insert F cfg n os a = Ok os' /\ out os' = out os ++ os_shown os ++ s.
Proof.
  intros cfg F n os a s H1 H2 H3 Wa Hw Hc Hs. assert (R : room F n) by (unfold room; lia). rewrite w_stream_eq by auto. apply C37_stream_insertion; auto. lia.
Qed.
Print Assumptions C150_stream.

Example C150_example : (Z.to_nat (32 * 2) + 9 < 74)%nat /\ wf 2 [255; 1] /\
  w_from_string 74 2 false ascii_alnum [48; 120; 49; 70] = Ok [31; 0] /\
  w_getString 74 cfg0 2 false false (fun b _ => b) 16 [255; 1] (zeros 20) 20 true = Ok ([48; 120; 49; 48; 48; 48; 48; 48; 48; 102; 102] ++ zeros 9, 12) /\
  w_getString 74 cfg0 2 false false (fun b _ => b) 10 [31; 0] (zeros 5) 5 false = Ok ([51; 49] ++ zeros 3, 3).
Proof. split; [vm_compute; repeat constructor|]. split; [wfc|]. conjs; vm_compute; reflexivity. Qed.
