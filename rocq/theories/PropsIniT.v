(** * PropsIniT: text input and output on memory nobody has initialised (C159, C160). *)
From Verif Require Import Base Spec Lib AeuModel AeuFacts AeuArith AeuBits AeuAccess AeuDiv AeuMore AesiModel AesiArith AesiFacts ProgTotal
  TextSpec TextModel TextFacts TextHex TextMore PropsText IniSpec IniTextSpec IniModel IniFacts IniSigned PropsIni PropsIniS IniText IniTextFacts.
From Coq Require Import Lia ZifyBool.
Open Scope Z_scope.

Ltac conjs := repeat match goal with |- _ /\ _ => split end.

Lemma wrote_follows c0 b0 c b : wrote c0 b0 c b <-> follows c0 b0 c b.
Proof.
  assert (N : forall i c, cnth c (Z.of_nat i) = nth i c None).
  { intros i x. unfold cnth. replace (Z.of_nat i <? 0) with false by (symmetry; apply Z.ltb_ge; lia). rewrite Nat2Z.id. reflexivity. }
  assert (M : forall i l, znth l (Z.of_nat i) = nth i l 0).
  { intros i l. unfold znth. replace (Z.of_nat i <? 0) with false by (symmetry; apply Z.ltb_ge; lia). rewrite Nat2Z.id. reflexivity. }
  unfold wrote, follows, len. split.
  - intros ((L & L0) & H). conjs; [lia|lia|]. intros i Hi. specialize (H (Z.of_nat i) ltac:(lia)). rewrite !N, !M in H. exact H.
  - intros (L & L0 & H). split; [split; lia|]. intros i Hi. specialize (H (Z.to_nat i) ltac:(lia)). rewrite <- !N, <- !M, Z2Nat.id in H by lia. exact H.
Qed.

(** ** The same call *)
Lemma getString_same cfg n wide upper wc wb base a c b bs show : 0 <= n -> length c = length b -> same_failure wc wb ->
  same_call c b (c_getString cfg n wide upper wc base (init a) c bs show) (getString cfg n wide upper wb base a b bs show).
Proof.
  intros Hn L F.
  assert (F' : forall c1 b1 p, wrote c b c1 b1 -> wrote c b (wc c1 p) (wb b1 p)).
  { intros c1 b1 p W. apply wrote_follows, F, wrote_follows, W. }
  pose proof (getString_rel c b cfg n wide upper wc wb base a c b bs show Hn (wrote_start c b ltac:(unfold len; lia)) F') as R.
  unfold same_call. destruct (c_getString _ _ _ _ _ _ _ _ _ _) as [ [c1 k]|e], (getString _ _ _ _ _ _ _ _ _ _) as [ [b1 l]|f]; cbn [orel fst snd] in R; auto.
  split; [tauto|]. apply wrote_follows. tauto.
Qed.

Lemma sgetString_same cfg n wide upper wc wb base a c b bs show : 0 <= n -> length c = length b -> same_failure wc wb ->
  same_call c b (cs_getString cfg n wide upper wc base (sinit a) c bs show) (s_getString cfg n wide upper wb base a b bs show).
Proof.
  intros Hn L F. pose proof (wrote_start c b ltac:(unfold len; lia)) as W0.
  unfold cs_getString, s_getString, sget, sinit. cbn [csgn cmag bind]. destruct (sgn a).
  - assert (Z1 : same_call c b (x <- cset c 0 48 ;; Ok (x, 1)) (x <- aset b 0 48 ;; Ok (x, 1))).
    { pose proof (cset_rel c b c b 0 48 W0) as R. destruct (cset c 0 48), (aset b 0 48); cbn [orel bind same_call] in *; auto.
      split; auto. apply wrote_follows. tauto. }
    destruct show; auto. destruct ((base =? 2) || (base =? 8) || (base =? 16)) eqn:B.
    + destruct (bs <? 3); [cbn [same_call]; split; auto; apply wrote_follows; auto|].
      assert (P : exists d, gs_prefix base = [48; d]).
      { unfold gs_prefix. destruct (base =? 2); [eexists; reflexivity|]. destruct (base =? 8); [eexists; reflexivity|].
        destruct (base =? 16); [eexists; reflexivity|discriminate]. }
      destruct P as (d & ->). cbn [c_set_chars set_chars app]. change (0 + 1) with 1. change (1 + 1) with 2.
      pose proof (cset_rel c b c b 0 48 W0) as R. destruct (cset c 0 48) as [c1|], (aset b 0 48) as [b1|]; cbn [orel bind same_call] in *; try contradiction; auto.
      destruct R as (W1 & C1 & B1 & L1 & F1 & G1).
      pose proof (cset_rel c b c1 b1 1 d W1) as R. destruct (cset c1 1 d) as [c2|], (aset b1 1 d) as [b2|]; cbn [orel bind same_call] in *; try contradiction; auto.
      destruct R as (W2 & C2 & B2 & L2 & F2 & G2).
      assert (G : cnth c2 0 = Some (znth b2 0)). { apply (F2 0 1); [|lia]. intros i Hi. replace i with 0 by lia. congruence. }
      assert (E0 : znth b2 0 = 48) by (destruct (G2 0 ltac:(lia)) as (_ & ->); exact B1).
      rewrite (cget_some _ _ _ G), E0. cbn [bind].
      pose proof (cset_rel c b c2 b2 2 48 W2) as R. destruct (cset c2 2 48), (aset b2 2 48); cbn [orel bind same_call] in *; auto.
      split; auto. apply wrote_follows. tauto.
    + destruct (bs <? 1); [cbn [same_call]; split; auto; apply wrote_follows; auto|auto].
  - apply getString_same; auto.
  - destruct (bs >? 0); [|apply getString_same; auto].
    pose proof (cset_rel c b c b 0 45 W0) as R. destruct (cset c 0 45) as [c1|], (aset b 0 45) as [b1|]; cbn [orel bind same_call] in *; try contradiction; auto.
    destruct R as (W1 & C1 & B1 & L1 & F1 & G1). 
    assert (L1' : length c1 = length b1) by (destruct W1 as ((H & _) & _); unfold len in H; lia).
    pose proof (cnth_range _ _ _ C1) as Hr.
    destruct c1 as [|o c1]; [unfold len in Hr; cbn in Hr; lia|]. destruct b1 as [|z b1]; [discriminate|]. cbn [tl firstn].
    assert (Eo : o = Some 45) by exact C1. assert (Ez : z = 45) by exact B1. subst o z.
    pose proof (getString_same cfg n wide upper wc wb base (mag a) c1 b1 (bs - 1) show Hn ltac:(cbn [length] in L1'; lia) F) as S.
    destruct (c_getString _ _ _ _ _ _ _ c1 _ _) as [ [c2 k]|e], (getString _ _ _ _ _ _ _ b1 _ _) as [ [b2 l]|f]; cbn [same_call bind] in *; auto.
    destruct S as (-> & Fo). split; auto. destruct Fo as (L2 & L3 & Q). apply wrote_follows in W1. destruct W1 as (_ & W2 & W1). cbn [app length] in *. split; [unfold cells in *; cbn [length] in *; lia|]. split; [cbn [length] in *; lia|].
    intros [|i] Hi; cbn [nth app]; [auto|]. cbn [length app] in Hi. specialize (Q i ltac:(lia)). destruct Q as [Q|(Q1 & Q2)]; auto.
    rewrite Q1, Q2. specialize (W1 (S i)). cbn [nth] in W1. apply W1. lia.
Qed.

(** ** Calls whose text fits: what a failing swprintf leaves behind does not matter *)
Definition poison : list Z -> Z -> list Z := fun _ _ => [].
Lemma set_chars_ok c0 b0 cs c b p b' : wrote c0 b0 c b -> set_chars b p cs = Ok b' -> exists c', c_set_chars c p cs = Ok c' /\ wrote c0 b0 c' b'.
Proof.
  intros W E. pose proof (set_chars_rel c0 b0 cs c b p W) as R. rewrite E in R. destruct (c_set_chars c p cs); cbn [orel] in R; [eauto|contradiction].
Qed.
Lemma set_chars_nil cs p : set_chars [] p (cs ++ [0]) = Err OutOfBounds.
Proof. destruct cs; cbn [app set_chars]; rewrite aset_err by (unfold len; cbn [length]; lia); reflexivity. Qed.
Lemma print_nil wide bs text p b' p' : print_block wide poison bs text ([], p) = Ok (b', p') -> b' = [].
Proof.
  unfold print_block. cbv zeta. rewrite !set_chars_nil. cbn [bind]. unfold poison.
  destruct wide; [destruct (_ <=? _); [discriminate|]; destruct (_ <=? _); [|discriminate]|destruct (_ =? 0); [|discriminate] ]; intros H; injection H; auto.
Qed.
Lemma print_ok c0 b0 wide wc bs text b p b' p' c : wrote c0 b0 c b -> print_block wide poison bs text (b, p) = Ok (b', p') -> b' <> [] ->
  exists c', c_print_block wide wc bs text (c, p) = Ok (c', p') /\ wrote c0 b0 c' b'.
Proof.
  intros W. unfold print_block, c_print_block, poison. cbv zeta. destruct wide.
  - destruct (_ <=? _).
    + destruct (set_chars b p (text ++ [0])) as [b1|] eqn:E; [|discriminate]. cbn [bind]. intros H _. injection H as <- <-.
      destruct (set_chars_ok c0 b0 _ c b p b1 W E) as (c1 & -> & W1). cbn [bind]. eauto.
    + destruct (p + u64 (bs - p) <=? len b); [|discriminate]. intros H N. injection H as <- _. contradiction.
  - destruct (_ =? 0).
    + intros H _. injection H as <- <-. eauto.
    + destruct (set_chars b p _) as [b1|] eqn:E; [|discriminate]. cbn [bind]. intros H _. injection H as <- <-.
      destruct (set_chars_ok c0 b0 _ c b p b1 W E) as (c1 & -> & W1). cbn [bind]. eauto.
Qed.
Lemma print_loop_ok c0 b0 wide wc bs a (txt : Z -> list Z) cnt : forall i b p b' p',
  loopD cnt i (fun i st => x <- aget a i ;; print_block wide poison bs (txt x) st) (b, p) = Ok (b', p') ->
  (b = [] -> b' = []) /\
  (b' <> [] -> forall c, wrote c0 b0 c b ->
   exists c', loopD cnt i (fun i st => x <- cget (init a) i ;; c_print_block wide wc bs (txt x) st) (c, p) = Ok (c', p') /\ wrote c0 b0 c' b').
Proof.
  induction cnt as [|cnt IH]; intros i b p b' p'; cbn [loopD].
  - intros H. injection H as <- <-. split; auto. eauto.
  - destruct (aget a (i - 1)) as [x|] eqn:Ex; [|discriminate]. cbn [bind]. destruct (print_block wide poison bs (txt x) (b, p)) as [ [b1 p1]|] eqn:E; [|discriminate].
    cbn [bind]. intros H. destruct (IH _ _ _ _ _ H) as [N K]. split.
    + intros ->. apply N. eapply print_nil, E.
    + intros B c W. assert (B1 : b1 <> []) by (intros X; apply B, N, X).
      destruct (print_ok c0 b0 wide wc bs (txt x) b p b1 p1 c W E B1) as (c1 & E1 & W1). rewrite cget_init, Ex. cbn [bind]. rewrite E1. cbn [bind].
      apply K; auto.
Qed.
Lemma aset_nil p v : aset [] p v = Err OutOfBounds.
Proof. apply aset_err. unfold len. cbn [length]. lia. Qed.

Lemma getString_follow c0 b0 cfg n wide upper wc base a c b bs show b' k : 0 <= n -> wrote c0 b0 c b ->
  getString cfg n wide upper poison base a b bs show = Ok (b', k) -> 
  exists c', c_getString cfg n wide upper wc base (init a) c bs show = Ok (c', k) /\ wrote c0 b0 c' b'.
Proof.
  intros Hn W. destruct (base =? 16) eqn:B16.
  - unfold c_getString, getString. rewrite B16. destruct (bs <? 2); [intros H; injection H as <- <-; eauto|].
    assert (P : orel (fun x y => wrote c0 b0 (fst x) (fst y) /\ snd x = snd y)
      (if show && (bs >? 3) then b <- c_set_chars c 0 (gs_prefix base) ;; Ok (b, len (gs_prefix base)) else Ok (c, 0))
      (if show && (bs >? 3) then b <- set_chars b 0 (gs_prefix base) ;; Ok (b, len (gs_prefix base)) else Ok (b, 0))).
    { destruct (show && (bs >? 3)); [|cbn [orel fst snd]; auto]. eapply orel_bind; [apply set_chars_rel, W|]. intros c' b1 W'. cbn [orel fst snd]. auto. }
    match type of P with orel _ ?x ?y => destruct x as [ [c1 p1]|], y as [ [b1 p]|] end; cbn [orel fst snd bind] in *; try contradiction; [|discriminate].
    destruct P as (W1 & ->). rewrite isZero_i. destruct (isZero n a) as [z|]; cbn [bind]; [|discriminate]. destruct z.
    { pose proof (cset_rel c0 b0 c1 b1 p 48 W1) as R. destruct (cset c1 p 48), (aset b1 p 48); cbn [orel bind] in *; try contradiction; [|discriminate].
      intros H. injection H as <- <-. eexists. split; [reflexivity|tauto]. }
    rewrite top_block_i. destruct (top_block n a) as [iter|]; cbn [bind]; [|discriminate]. rewrite cget_init. destruct (aget a iter) as [x|]; cbn [bind]; [|discriminate].
    destruct (print_block wide poison bs (fmt_x upper x) (b1, p)) as [ [b2 p2]|] eqn:E1; cbn [bind]; [|discriminate].
    unfold forD. destruct (loopD _ iter _ (b2, p2)) as [ [b3 p3]|] eqn:E2; cbn [bind]; [|discriminate].
    destruct (aset b3 p3 0) as [b4|] eqn:E3; cbn [bind]; [|discriminate]. intros H. injection H as <- <-.
    assert (N3 : b3 <> []) by (intros ->; rewrite aset_nil in E3; discriminate).
    destruct (print_loop_ok c0 b0 wide wc bs a (fmt_08x upper) _ _ _ _ _ _ E2) as [N K].
    assert (N2 : b2 <> []) by (intros X; apply N3, N, X).
    destruct (print_ok c0 b0 wide wc bs _ b1 p b2 p2 c1 W1 E1 N2) as (c2 & -> & W2). cbn [bind].
    destruct (K N3 c2 W2) as (c3 & -> & W3). cbn [bind]. pose proof (cset_rel c0 b0 c3 b3 p3 0 W3) as R. rewrite E3 in R.
    destruct (cset c3 p3 0); cbn [orel bind] in *; [|contradiction]. eexists. split; [reflexivity|tauto].
  - intros E. pose proof (getString_rel c0 b0 cfg n wide upper (fun c _ => c) (fun b _ => b) base a c b bs show Hn W ltac:(auto)) as R.
    assert (E1 : getString cfg n wide upper (fun b _ => b) base a b bs show = Ok (b', k)) by (rewrite <- E; unfold getString; rewrite B16; reflexivity).
    assert (E2 : c_getString cfg n wide upper wc base (init a) c bs show = c_getString cfg n wide upper (fun c _ => c) base (init a) c bs show)
      by (unfold c_getString; rewrite B16; reflexivity).
    rewrite E2. rewrite E1 in R. destruct (c_getString _ _ _ _ _ _ _ _ _ _) as [ [c1 k1]|]; cbn [orel fst snd] in R; [|contradiction]. destruct R as (W1 & ->). eauto.
Qed.

(** Any content of the definite buffer: the memory is the text followed by what was there. *)
Lemma outside (T : list Z) : exists v, ~ In v T.
Proof.
  assert (H : exists M, forall x, In x T -> x < M).
  { induction T as [|t T (M & H)]; [exists 0; intros x []|]. exists (Z.max (t + 1) M). intros x [->|I]; [lia|]. specialize (H x I). lia. }
  destruct H as (M & H). exists M. intros I. specialize (H M I). lia.
Qed.
Lemma nth_rep (v d : Z) m : forall i, (i < m)%nat -> nth i (repeat v m) d = v.
Proof. induction m as [|m IH]; intros [|i] H; cbn [repeat nth]; try lia; auto. apply IH. lia. Qed.
Lemma splice (T : list Z) (c c' : cells) : (length T <= length c)%nat ->
  (forall v, follows c (repeat v (length c)) c' (T ++ skipn (length T) (repeat v (length c)))) ->
  c' = map Some T ++ skipn (length T) c.
Proof.
  intros L H. destruct (outside T) as (v1 & N1). destruct (outside (v1 :: T)) as (v2 & N2).
  assert (LB : forall v, length (T ++ skipn (length T) (repeat v (length c))) = length c) by (intros v; rewrite app_length, skipn_length, repeat_length; lia).
  pose proof (H v1) as (L1 & _ & H1). pose proof (H v2) as (L2 & _ & H2). rewrite LB in *.
  assert (LR : length (map Some T ++ skipn (length T) c) = length c) by (rewrite app_length, map_length, skipn_length; lia).
  apply (nth_ext _ _ None None); [lia|]. intros i Hi. specialize (H1 i ltac:(lia)). specialize (H2 i ltac:(lia)).
  rewrite nth_rep in H1, H2 by lia. destruct (Nat.lt_ge_cases i (length T)) as [Hl|Hl].
  - rewrite app_nth1 in H1 by lia. rewrite app_nth1 by (rewrite map_length; lia). rewrite (nth_indep (map Some T) None (Some 0)) by (rewrite map_length; lia). rewrite (map_nth (@Some Z) T 0).
    destruct H1 as [H1|(_ & H1)]; [exact H1|]. exfalso. apply N1. rewrite <- H1. apply nth_In. lia.
  - rewrite app_nth2 in H1, H2 by lia. rewrite app_nth2 by (rewrite map_length; lia). rewrite map_length.
    assert (S1 : forall (X : Type) (l : list X) d, nth (i - length T) (skipn (length T) l) d = nth i l d).
    { intros X l d. rewrite <- (firstn_skipn (length T) l) at 2. destruct (Nat.lt_ge_cases (length l) (length T)) as [Q|Q].
      - rewrite skipn_all2 by lia. rewrite firstn_all2 by lia. rewrite app_nil_r, !nth_overflow by (cbn; lia). reflexivity.
      - rewrite app_nth2; rewrite firstn_length_le by lia; [reflexivity|lia]. }
    rewrite S1 in *. rewrite nth_rep in H1, H2 by lia. destruct H1 as [H1|(H1 & _)]; [|exact H1]. destruct H2 as [H2|(H2 & _)]; [|exact H2].
    exfalso. apply N2. left. congruence.
Qed.

(** ** C159: text output *)
Lemma getString_any cfg n wide upper wc base a c bs show T k : 0 <= n -> (length T <= length c)%nat ->
  (forall b, length b = length c -> getString cfg n wide upper poison base a b bs show = Ok (T ++ skipn (length T) b, k)) ->
  c_getString cfg n wide upper wc base (init a) c bs show = Ok (map Some T ++ skipn (length T) c, k).
Proof.
  intros Hn L H.
  assert (K : forall v, exists c', c_getString cfg n wide upper wc base (init a) c bs show = Ok (c', k) /\ follows c (repeat v (length c)) c' (T ++ skipn (length T) (repeat v (length c)))).
  { intros v. destruct (getString_follow c (repeat v (length c)) cfg n wide upper wc base a c (repeat v (length c)) bs show _ k Hn
      (wrote_start c (repeat v (length c)) ltac:(unfold len; rewrite repeat_length; reflexivity)) (H _ (repeat_length _ _))) as (c' & E & W). exists c'. split; auto. apply wrote_follows, W. }
  destruct (K 0) as (c' & E & _). rewrite E. do 2 f_equal. apply splice; auto. intros v. destruct (K v) as (c2 & E2 & F). rewrite E in E2. injection E2 as <-. exact F.
Qed.

Theorem C159_getString : forall cfg n wide upper wfail base A x buffer bufferSize showBase s,
  1 <= n -> 2 <= n \/ base = 16 -> holds n A x -> x <> 0 -> base_ok base -> numeral (upper && (base =? 16)) base x s ->
  len (shown showBase base ++ s) + 1 <= bufferSize -> bufferSize <= len buffer -> bufferSize < 2 ^ 64 ->
  c_getString cfg n wide upper wfail base A buffer bufferSize showBase =
    Ok (map Some (shown showBase base ++ s ++ [0]) ++ skipn (Z.to_nat (len (shown showBase base ++ s) + 1)) buffer, len (shown showBase base ++ s) + 1).
Proof.
  intros cfg n wide upper wfail base A x buffer bufferSize showBase s Hn Hb (a & -> & W & V) V0 HB HS Hf HL H64.
  assert (LT : length (shown showBase base ++ s ++ [0]) = Z.to_nat (len (shown showBase base ++ s) + 1)) by (rewrite app_assoc, app_length; unfold len; cbn [length]; lia).
  rewrite <- LT. apply getString_any; [lia| |].
  - rewrite LT. unfold len in *. lia.
  - intros b Lb. rewrite LT. subst x. apply getString_ok; auto. unfold len in *. lia.
Qed.
Print Assumptions C159_getString.
Theorem C159_getString_zero : forall cfg n wide upper wfail base A buffer bufferSize showBase, holds n A 0 -> 1 <= n -> 2 <= bufferSize <= len buffer ->
  let text := shown_in bufferSize showBase base ++ [48] in
  c_getString cfg n wide upper wfail base A buffer bufferSize showBase = Ok (map Some text ++ skipn (Z.to_nat (len text)) buffer, len text).
Proof.
  intros cfg n wide upper wfail base A buffer bufferSize showBase (a & -> & W & V) Hn HL text.
  assert (LT : Z.to_nat (len text) = length text) by (unfold len; lia). rewrite LT. 
  apply getString_any; [lia| |].
  - subst text. unfold shown_in. rewrite app_length. cbn [length]. destruct (showBase && (bufferSize >? 3)) eqn:E; cbn [length]; [|unfold len in HL; lia].
    apply andb_true_iff in E. destruct E as [_ E]. pose proof (prefix_text_len base). unfold len in *. lia.
  - intros b Lb. subst text. rewrite (C33_getString_zero cfg n wide upper poison base a b bufferSize showBase W V ltac:(unfold len in *; lia)). rewrite LT. reflexivity.
Qed.
Print Assumptions C159_getString_zero.

(** Signed numbers: the sign in front; the returned amount does not count it (C56). *)
Theorem C159_signed_getString : forall cfg n wide upper wfail base A x buffer bufferSize showBase s,
  1 <= n -> 2 <= n \/ base = 16 -> sholds n A x -> x <> 0 -> base_ok base -> numeral (upper && (base =? 16)) base (Z.abs x) s ->
  let sign := if x <? 0 then [45] else [] in
  len (sign ++ shown showBase base ++ s) + 1 <= bufferSize -> bufferSize <= len buffer -> bufferSize < 2 ^ 64 ->
  cs_getString cfg n wide upper wfail base A buffer bufferSize showBase =
    Ok (map Some (sign ++ shown showBase base ++ s ++ [0]) ++ skipn (Z.to_nat (len (sign ++ shown showBase base ++ s) + 1)) buffer,
        len (shown showBase base ++ s) + 1).
Proof.
  intros cfg n wide upper wfail base A x buffer bufferSize showBase s Hn Hnb ([sg m] & -> & (W & C) & V) V0 Hb HS sign Hf HL H64.
  pose proof (bval_bound n _ W) as Bv. unfold sval in V. cbn [sgn mag] in *. unfold cs_getString, sget, sinit. cbn [csgn cmag sgn mag bind].
  destruct sg; [congruence| |].
  - assert (G : x <? 0 = false) by (apply Z.ltb_ge; lia). subst sign. rewrite G in *. cbn [app] in *.
    apply (C159_getString _ _ _ _ _ _ _ x); auto; [exists m; auto|]. rewrite Z.abs_eq in HS by lia. exact HS.
  - assert (G : x <? 0 = true) by (apply Z.ltb_lt; specialize (C ltac:(discriminate)); lia). subst sign. rewrite G in *. rewrite len_app in *. change (len [45]) with 1 in *.
    pose proof (len_nonneg (shown showBase base ++ s)). replace (bufferSize >? 0) with true by (symmetry; rewrite Z.gtb_ltb; apply Z.ltb_lt; lia).
    destruct buffer as [|b0 buffer]; [change (len (@nil (option Z))) with 0 in HL; lia|]. rewrite len_cons in HL.
    assert (E : cset (b0 :: buffer) 0 45 = Ok (Some 45 :: buffer)).
    { unfold cset, cin. replace (0 <? len (b0 :: buffer)) with true by (symmetry; apply Z.ltb_lt; rewrite len_cons; lia). reflexivity. }
    rewrite E. cbn [bind app tl firstn].
    rewrite (C159_getString cfg n wide upper wfail base (init m) (- x) buffer (bufferSize - 1) showBase s); auto; try lia.
    + cbn [bind app map]. do 3 f_equal. replace (Z.to_nat (1 + len (shown showBase base ++ s) + 1)) with (S (Z.to_nat (len (shown showBase base ++ s) + 1))) by lia. reflexivity.
    + exists m. conjs; auto. lia.
    + rewrite Z.abs_neq in HS by lia. exact HS.
Qed.
Print Assumptions C159_signed_getString.
(** A sign that says zero: "0", also when the magnitude was never written (the outputs of a division by zero, C155). *)
Theorem C159_signed_zero : forall cfg n wide upper wfail base A buffer bufferSize showBase, csgn A = Some SZero -> base_ok base -> 3 <= bufferSize <= len buffer ->
  let text := shown showBase base ++ [48] in
  cs_getString cfg n wide upper wfail base A buffer bufferSize showBase = Ok (map Some text ++ skipn (Z.to_nat (len text)) buffer, len text) /\
  forall os, cs_stream_insert cfg n os A = Ok (os_put os [48]).
Proof.
  intros cfg n wide upper wfail base A buffer bufferSize showBase S Hb HL text. split.
  2:{ intros os. unfold cs_stream_insert, sget. rewrite S. reflexivity. }
  unfold cs_getString, sget. rewrite S. cbn [bind]. subst text. unfold shown.
  destruct buffer as [|b0 [|b1 [|b2 buffer] ] ]; unfold len in HL; cbn [length] in HL; try lia.
  replace (bufferSize <? 3) with false by (symmetry; apply Z.ltb_ge; lia). replace (bufferSize <? 1) with false by (symmetry; apply Z.ltb_ge; lia).
  assert (CI : forall (x y z : option Z) i, 0 <= i < 3 -> cin (x :: y :: z :: buffer) i = true).
  { intros x y z i Hi. unfold cin. rewrite !len_cons. pose proof (len_nonneg buffer). apply andb_true_intro. split; [apply Z.leb_le|apply Z.ltb_lt]; lia. }
  assert (A0 : cset (b0 :: b1 :: b2 :: buffer) 0 48 = Ok (Some 48 :: b1 :: b2 :: buffer)) by (unfold cset; rewrite CI by lia; reflexivity).
  destruct showBase; [|rewrite A0; reflexivity].
  assert (P : forall d, (b <- c_set_chars (b0 :: b1 :: b2 :: buffer) 0 [48; d] ;; c <- cget b 0 ;; b <- cset b 2 c ;; Ok (b, 3)) = Ok (Some 48 :: Some d :: Some 48 :: buffer, 3)).
  { intros d. cbn [c_set_chars]. rewrite A0. cbn [bind]. change (0 + 1) with 1. unfold cset at 1. rewrite CI by lia. change (Z.to_nat 1) with 1%nat. cbn [cupd bind].
    unfold cget. rewrite CI by lia. cbn [cnth Z.ltb Z.compare Z.to_nat nth bind]. unfold cset. rewrite CI by lia. reflexivity. }
  destruct Hb as [-> |[-> |[-> | ->] ] ]; cbn [Z.eqb Pos.eqb orb gs_prefix]; try (rewrite P; reflexivity). rewrite A0. reflexivity.
Qed.
Print Assumptions C159_signed_zero.

(** Whatever the sizes, and whatever a failing swprintf leaves behind: never a read of memory nobody wrote. *)
Definition only_oob {A} (x : outcome A) : Prop := match x with Ok _ => True | Err e => e = OutOfBounds end.
Lemma oob_bind {A B} (P : A -> Prop) (x : outcome A) (k : A -> outcome B) : only_oob x -> (forall a, x = Ok a -> P a) -> (forall a, P a -> only_oob (k a)) -> only_oob (bind x k).
Proof. destruct x; cbn [only_oob bind]; auto. Qed.
Lemma oob_bind0 {A B} (x : outcome A) (k : A -> outcome B) : only_oob x -> (forall a, only_oob (k a)) -> only_oob (bind x k).
Proof. destruct x; cbn [only_oob bind]; auto. Qed.
Lemma cset_oob c i v : only_oob (cset c i v).
Proof. unfold cset. destruct (cin c i); cbn; auto. Qed.
Lemma aset_oob c i v : only_oob (aset c i v).
Proof. unfold aset. destruct (in_range c i); cbn; auto. Qed.
Lemma aget_oob c i : only_oob (aget c i).
Proof. unfold aget. destruct (in_range c i); cbn; auto. Qed.
Lemma c_set_chars_oob cs : forall c p, only_oob (c_set_chars c p cs).
Proof. induction cs as [|x cs IH]; intros c p; cbn [c_set_chars]; [exact I|]. apply oob_bind0; [apply cset_oob|]. intros b. apply IH. Qed.
Lemma set_chars_oob cs : forall c p, only_oob (set_chars c p cs).
Proof. induction cs as [|x cs IH]; intros c p; cbn [set_chars]; [exact I|]. apply oob_bind0; [apply aset_oob|]. intros b. apply IH. Qed.
Lemma c_print_oob wide wc bs t st : only_oob (c_print_block wide wc bs t st).
Proof.
  destruct st as [c p]. unfold c_print_block. cbv zeta. destruct wide.
  - destruct (_ <=? _); [apply oob_bind0; [apply c_set_chars_oob|intros; exact I]|]. destruct (_ <=? _); [exact I|reflexivity].
  - destruct (_ =? 0); [exact I|]. apply oob_bind0; [apply c_set_chars_oob|intros; exact I].
Qed.
Lemma loopD_oob {S} (B : Z -> S -> outcome S) : (forall i s, only_oob (B i s)) -> forall cnt i s, only_oob (loopD cnt i B s).
Proof. intros H. induction cnt as [|cnt IH]; intros i s; cbn [loopD]; [exact I|]. apply oob_bind0; auto. Qed.
Lemma loopU_oob {S} (B : Z -> S -> outcome S) : (forall i s, only_oob (B i s)) -> forall cnt i s, only_oob (loopU cnt i B s).
Proof. intros H. induction cnt as [|cnt IH]; intros i s; cbn [loopU]; [exact I|]. apply oob_bind0; auto. Qed.
Lemma digit_loop_oob cfg n base bs b p a : 1 <= n -> wf n a -> 0 <= base < 2 ^ 64 -> only_oob (digit_loop cfg n base bs b p a).
Proof.
  intros Hn W Hb. unfold digit_loop, forUx. apply oob_bind0; [|intros [ [? ?]|[? ?] ]; exact I].
  match goal with |- context [loopUx _ _ ?B _] => set (body := B) end.
  assert (S1 : forall i b a, wf n a -> body i (b, a) = Err OutOfBounds \/ (exists r, body i (b, a) = Ok (Exit r)) \/ (exists b' q, body i (b, a) = Ok (Next (b', q)) /\ wf n q)).
  { clear - Hn Hb. intros i b a W. unfold body. rewrite isZero_spec by auto. cbn [bind].
    destruct (bval a =? 0); cbn [bind]; [eauto|].
    destruct (from_unsigned_correct n (zeros n) base ltac:(lia) (len_zeros n ltac:(lia)) Hb) as (d & -> & Wd & _). cbn [bind].
    destruct (div_tot cfg n a d Hn W Wd) as (q & r & -> & Wq & Wr). cbn [bind].
    destruct (Z.eq_dec n 1) as [->|]; [rewrite integralCast_n1 by auto; auto|]. rewrite (integralCast_spec uint8 n r) by (auto; lia). cbn [bind].
    pose proof (aset_oob b i (48 + icast uint8 (bval r mod 2 ^ 64))) as Q. destruct (aset b i _); cbn [bind only_oob] in *; [eauto 6|left; congruence]. }
  clearbody body. revert b a W. generalize (Z.to_nat (bs - p)) as cnt. generalize p as i. intros i cnt. revert i.
  induction cnt as [|cnt IH]; intros i b a W; cbn [loopUx]; [exact I|].
  destruct (S1 i b a W) as [->|[(r & ->)|(b' & q & -> & Wq)] ]; cbn [bind only_oob]; auto.
Qed.
Lemma digits_oob cfg n wide upper base a b bs show : 1 <= n -> wf n a -> 0 <= base < 2 ^ 64 -> base <> 16 ->
  only_oob (getString cfg n wide upper (fun b _ => b) base a b bs show).
Proof.
  intros Hn W Hb N. unfold getString. destruct (bs <? 2); [exact I|]. apply oob_bind0.
  { destruct (show && (bs >? 3)); [|exact I]. apply oob_bind0; [apply set_chars_oob|intros; exact I]. }
  intros [c p]. rewrite isZero_spec by auto. cbn [bind]. destruct (bval a =? 0); [apply oob_bind0; [apply aset_oob|intros; exact I]|].
  replace (base =? 16) with false by (symmetry; apply Z.eqb_neq; auto).
  apply oob_bind0; [|intros [b2 p2]; apply oob_bind0; [apply aset_oob|intros; exact I] ].
  apply oob_bind0; [apply digit_loop_oob; auto|]. intros [b2 p2]. apply oob_bind0; [|intros; exact I].
  unfold reverse_digits, forU. apply loopU_oob. intros i s. apply oob_bind0; [apply aget_oob|]. intros t. apply oob_bind0; [apply aget_oob|]. intros u.
  apply oob_bind0; [apply aset_oob|]. intros x. apply aset_oob.
Qed.
Lemma top_block_oob n a : only_oob (top_block n a).
Proof.
  unfold top_block, forDx. apply oob_bind0; [|intros [?|?]; exact I]. generalize tt. generalize n at 2. generalize (Z.to_nat (n - 1)).
  induction n0 as [|c IH]; intros i u; cbn [loopDx]; [exact I|]. pose proof (aget_oob a (i - 1)) as Q.
  destruct (aget a (i - 1)) as [b|]; cbn [bind]; [|exact Q]. destruct (b =? 0); cbn [bind]; [apply IH|exact I].
Qed.
Lemma c_getString_oob cfg n wide upper wc base a c bs show : 1 <= n -> wf n a -> 0 <= base < 2 ^ 64 ->
  only_oob (c_getString cfg n wide upper wc base (init a) c bs show).
Proof.
  intros Hn W Hb. destruct (Z.eq_dec base 16) as [->|N].
  - unfold c_getString. destruct (bs <? 2); [exact I|]. apply oob_bind0.
    { destruct (show && (bs >? 3)); [|exact I]. apply oob_bind0; [apply c_set_chars_oob|intros; exact I]. }
    intros [c1 p]. rewrite isZero_i, isZero_spec by auto. cbn [bind]. destruct (bval a =? 0); [apply oob_bind0; [apply cset_oob|intros; exact I]|].
    cbn [Z.eqb Pos.eqb]. apply oob_bind0; [|intros [b2 p2]; apply oob_bind0; [apply cset_oob|intros; exact I] ].
    rewrite top_block_i. apply oob_bind0; [apply top_block_oob|]. intros iter. rewrite cget_init. apply oob_bind0; [apply aget_oob|]. intros x.
    apply oob_bind0; [apply c_print_oob|]. intros st. unfold forD. apply loopD_oob. intros i s. rewrite cget_init. apply oob_bind0; [apply aget_oob|]. intros y. apply c_print_oob.
  - assert (E : c_getString cfg n wide upper wc base (init a) c bs show = c_getString cfg n wide upper (fun c _ => c) base (init a) c bs show).
    { unfold c_getString. replace (base =? 16) with false by (symmetry; apply Z.eqb_neq; auto). reflexivity. }
    rewrite E. clear E. pose proof (digits_oob cfg n wide upper base a (repeat 0 (length c)) bs show Hn W Hb N) as D.
    pose proof (getString_same cfg n wide upper (fun c _ => c) (fun b _ => b) base a c (repeat 0 (length c)) bs show ltac:(lia) ltac:(rewrite repeat_length; auto) ltac:(intros c0 b0 c1 b1 p H; exact H)) as S.
    destruct (c_getString _ _ _ _ _ _ _ _ _ _) as [ [? ?]|e], (getString _ _ _ _ _ _ _ _ _ _) as [ [? ?]|f]; cbn [same_call only_oob] in *; auto; try contradiction. congruence.
Qed.
Theorem C159_no_garbage : forall cfg n wide upper wfail base A x buffer bufferSize showBase, 1 <= n -> holds n A x -> base_ok base ->
  let call := c_getString cfg n wide upper wfail base A buffer bufferSize showBase in
  ~ reads_garbage call /\ ((exists r, call = Ok r) \/ call = Err OutOfBounds).
Proof.
  intros cfg n wide upper wfail base A x buffer bufferSize showBase Hn (a & -> & W & _) Hb call.
  assert (B : 0 <= base < 2 ^ 64) by (destruct Hb as [-> |[-> |[-> | ->] ] ]; lia).
  pose proof (c_getString_oob cfg n wide upper wfail base a buffer bufferSize showBase Hn W B) as Q. fold (init a) in *. unfold reads_garbage.
  change (c_getString cfg n wide upper wfail base (init a) buffer bufferSize showBase) with call in Q.
  destruct call; cbn [only_oob] in Q; [split; [discriminate|eauto]|]. subst. split; [discriminate|auto].
Qed.
Print Assumptions C159_no_garbage.
Theorem C159_signed_no_garbage : forall cfg n wide upper wfail base A x buffer bufferSize showBase, 1 <= n -> sholds n A x -> base_ok base ->
  let call := cs_getString cfg n wide upper wfail base A buffer bufferSize showBase in
  ~ reads_garbage call /\ ((exists r, call = Ok r) \/ call = Err OutOfBounds).
Proof.
  intros cfg n wide upper wfail base A x buffer bufferSize showBase Hn (a & -> & (W & _) & _) Hb call.
  assert (B : 0 <= base < 2 ^ 64) by (destruct Hb as [-> |[-> |[-> | ->] ] ]; lia).
  assert (Q : only_oob call).
  { subst call. unfold cs_getString, sget, sinit. cbn [csgn cmag bind]. destruct (sgn a).
    - assert (X : only_oob (b <- cset buffer 0 48 ;; Ok (b, 1))) by (apply oob_bind0; [apply cset_oob|intros; exact I]).
      destruct showBase; auto. destruct (_ || _) eqn:E; [|destruct (_ <? 1); [exact I|exact X] ]. destruct (_ <? 3); [exact I|].
      assert (P : exists d, gs_prefix base = [48; d]).
      { unfold gs_prefix. destruct (base =? 2); [eexists; reflexivity|]. destruct (base =? 8); [eexists; reflexivity|].
        destruct (base =? 16); [eexists; reflexivity|discriminate]. }
      destruct P as (d & ->). cbn [c_set_chars]. change (0 + 1) with 1. 
      unfold cset at 1. destruct (cin buffer 0) eqn:R0; [|reflexivity]. cbn [bind].
      unfold cset at 1. destruct (cin (cupd buffer (Z.to_nat 0) 48) 1) eqn:R1; [|reflexivity]. cbn [bind].
      assert (H0 : 0 < len buffer) by (unfold cin in R0; lia).
      assert (C : cnth (cupd (cupd buffer (Z.to_nat 0) 48) (Z.to_nat 1) d) 0 = Some 48).
      { rewrite cnth_cupd by (unfold cin in R1; lia). cbn [Z.eqb]. rewrite cnth_cupd by lia. reflexivity. }
      rewrite (cget_some _ _ _ C). cbn [bind]. apply oob_bind0; [apply cset_oob|intros; exact I].
    - apply c_getString_oob; auto.
    - destruct (bufferSize >? 0); [|apply c_getString_oob; auto]. apply oob_bind0; [apply cset_oob|]. intros b.
      apply oob_bind0; [apply c_getString_oob; auto|]. intros [? ?]. exact I. }
  unfold reads_garbage. destruct call; cbn [only_oob] in Q; [split; [discriminate|eauto]|]. subst. split; [discriminate|auto].
Qed.
Print Assumptions C159_signed_no_garbage.

(** Call by call, faults included: any two buffers of the same length. *)
Theorem C159_same : forall cfg n wide upper wc wb base a x buffer text bufferSize showBase, 0 <= n -> length buffer = length text -> same_failure wc wb ->
  same_call buffer text (c_getString cfg n wide upper wc base (init a) buffer bufferSize showBase) (getString cfg n wide upper wb base a text bufferSize showBase) /\
  same_call buffer text (cs_getString cfg n wide upper wc base (sinit x) buffer bufferSize showBase) (s_getString cfg n wide upper wb base x text bufferSize showBase) /\
  (forall wide alnum s size, c_from_chars n wide alnum (init s) size = lift init (from_chars n wide alnum s size) /\
                             cs_from_chars n wide alnum (init s) size = lift sinit (s_from_chars n wide alnum s size)) /\
  (forall os, c_stream_insert cfg n os (init a) = stream_insert cfg n os a /\ cs_stream_insert cfg n os (sinit x) = s_stream_insert cfg n os x).
Proof.
  intros. conjs; [apply getString_same; auto|apply sgetString_same; auto| |].
  - intros. split; [apply from_chars_i|apply sfrom_chars_i].
  - intros. split; [apply stream_insert_i|apply sstream_insert_i]; auto.
Qed.
Print Assumptions C159_same.

Theorem C159_streams : forall cfg n os A B x y s t, width os = 0 -> 32 * n < 2 ^ 53 ->
  (3 <= n \/ (n = 2 /\ os_base os = 10) \/ (1 <= n /\ os_base os = 16)) ->
  holds n A x -> sholds n B y ->
  numeral (uppercase os && (os_base os =? 16)) (os_base os) x s -> numeral (uppercase os && (os_base os =? 16)) (os_base os) (Z.abs y) t ->
  (exists os', c_stream_insert cfg n os A = Ok os' /\ out os' = out os ++ os_shown os ++ s) /\
  (exists os', cs_stream_insert cfg n os B = Ok os' /\ out os' = out os ++ (if y <? 0 then [45] else []) ++ (if y =? 0 then [] else os_shown os) ++ t).
Proof.
  intros cfg n os A B x y s t W0 H53 Hn (a & -> & W & V) (b & -> & (Wb & Cb) & Vb) HS HT. fold (init a).
  rewrite stream_insert_i, sstream_insert_i by lia. split.
  - subst x. apply C37_stream_insertion; auto.
  - destruct (Z.eq_dec y 0) as [->|Ny].
    + assert (Z0 : sgn b = SZero) by (unfold sval in Vb; destruct (sgn b); auto; specialize (Cb ltac:(discriminate)); lia).
      unfold s_stream_insert. rewrite Z0. eexists. split; [reflexivity|]. unfold os_put. cbn [out Z.ltb Z.eqb Z.compare app]. rewrite W0.
      change (0 - len [48]) with (-1). change (Z.to_nat (-1)) with 0%nat. cbn [repeat app].
      assert (E : t = [48]).
      { apply (numeral_unique (uppercase os && (os_base os =? 16)) (os_base os) 0); auto; [unfold os_base; destruct (basef os); lia|].
        exists [0]. conjs; auto. constructor; [unfold os_base; destruct (basef os); lia|constructor]. }
      subst t. destruct (adj os); reflexivity.
    + assert (CN : canon n b).
      { split; auto. split; [intros E; unfold sval in Vb; rewrite E in Vb; congruence|]. intros E. destruct (sgn b) eqn:G; auto; exfalso; apply Cb; auto; discriminate. }
      subst y. apply C56_signed_stream; auto.
Qed.
Print Assumptions C159_streams.

(** ** C159: text input *)
Lemma cget_app s rest i : i < len s -> cget (init s ++ rest) i = cget (init s) i.
Proof.
  intros H. unfold cget, cin. rewrite len_app, len_init. pose proof (len_nonneg rest).
  destruct (Z.leb_spec 0 i) as [P|P]; cbn [andb]; [|reflexivity].
  replace (i <? len s + len rest) with true by (symmetry; apply Z.ltb_lt; lia). replace (i <? len s) with true by (symmetry; apply Z.ltb_lt; lia).
  unfold cnth. replace (i <? 0) with false by (symmetry; apply Z.ltb_ge; lia). rewrite app_nth1; [reflexivity|]. unfold init, len in *. rewrite map_length. lia.
Qed.
Lemma orel_same {A} (x y : outcome A) : orel eq x y -> x = y.
Proof. destruct x, y; cbn [orel]; intros H; try contradiction; congruence. Qed.
Lemma orel_refl {A} (x : outcome A) : orel eq x x.
Proof. destruct x; reflexivity. Qed.
Lemma from_chars_prefix n wide alnum s rest : c_from_chars n wide alnum (init s ++ rest) (len s) = c_from_chars n wide alnum (init s) (len s).
Proof.
  apply orel_same. unfold c_from_chars. destruct (len s =? 0); [reflexivity|].
  apply (orel_bind (fun p q => p = q /\ (p = len s \/ p < len s))).
  { unfold c_skip_leading. apply (orel_bind (steprel eq (fun p q => p = q /\ p < len s))).
    - apply (orel_mono (steprel eq (fun p q => p = q /\ p < len s))); [auto|].
      apply (forUx_rel (fun _ => eq)); [reflexivity|]. intros i u v Hi ->. rewrite cget_app by lia.
      apply orel_eq; [reflexivity|]. intros c. apply orel_eq; [reflexivity|]. intros [|]; cbn [orel steprel]; auto. split; auto. lia.
    - intros [u|p] [v|q]; cbn [steprel orel]; try tauto. }
  intros p q (-> & Hp). destruct (Z.eqb_spec q (len s)) as [->|Nq]; [reflexivity|].
  apply (orel_bind eq).
  { unfold c_detect_base. rewrite cget_app by lia. apply orel_eq; [reflexivity|]. intros c. destruct (c =? 48); cbn [andb]; [|reflexivity].
    destruct (Z.gtb_spec (len s) (q + 1)) as [G|G]; [|reflexivity]. rewrite cget_app by lia. apply orel_refl. }
  intros [b1 q1] [b2 q2] H. injection H as -> ->.
  apply (forU_rel (fun _ => eq)); [reflexivity|]. intros i u v Hi ->. rewrite cget_app by lia. apply orel_refl.
Qed.
Lemma sfrom_chars_prefix n wide alnum s rest : cs_from_chars n wide alnum (init s ++ rest) (len s) = cs_from_chars n wide alnum (init s) (len s).
Proof.
  unfold cs_from_chars. rewrite from_chars_prefix. apply bind_eq; [reflexivity|]. intros b. apply bind_eq; [reflexivity|]. intros [|]; [reflexivity|]. cbn [negb].
  apply bind_eq; [|reflexivity]. unfold c_traverseDashes. apply bind_eq; [|reflexivity]. apply orel_same.
  apply (forU_rel (fun _ => eq)); [reflexivity|]. intros i u v Hi ->. rewrite cget_app by lia. apply orel_refl.
Qed.

(** The characters that follow the ones announced, written or not, are never looked at; the new object is completely written. *)
Theorem C159_construction : forall n wide alnum s rest, 1 <= n -> alnum_ok alnum -> Forall (fun c => 0 <= c) s ->
  gives n (c_from_chars n wide alnum (map Some s ++ rest) (len s)) (string_value alnum s mod modulus n) /\
  sgives n (cs_from_chars n wide alnum (map Some s ++ rest) (len s))
    (if odd_dashes s then - (string_value alnum s mod modulus n) else string_value alnum s mod modulus n).
Proof.
  intros n wide alnum s rest Hn Ha F. fold (init s). rewrite from_chars_prefix, sfrom_chars_prefix, from_chars_i, sfrom_chars_i.
  pose proof (from_string_value n wide alnum s ltac:(lia) Ha F) as Y. split.
  - eapply gives_lift; [reflexivity|exact Y].
  - eapply sgives_lift; [reflexivity|]. destruct (s_from_chars_lift n wide alnum s _ Y) as (r & E & C & V). exists r. conjs; auto. apply canon_swf, C.
Qed.
Print Assumptions C159_construction.

Lemma init_firstn T rest k : k = length T -> firstn k (map (@Some Z) T ++ rest) = map Some T.
Proof. intros ->. rewrite firstn_app, map_length, Nat.sub_diag. cbn [firstn]. rewrite app_nil_r. rewrite <- (map_length Some T) at 1. apply firstn_all. Qed.

(** Out and back in, through a buffer that is not initialised. *)
Theorem C159_round_trip : forall cfg n wide upper wfail base alnum A x buffer bufferSize showBase s,
  1 <= n -> 2 <= n \/ base = 16 -> holds n A x -> base_ok base -> base = 10 \/ showBase = true -> alnum_ok alnum ->
  numeral (upper && (base =? 16)) base x s -> 4 <= bufferSize -> len (shown showBase base ++ s) + 1 <= bufferSize -> bufferSize <= len buffer -> bufferSize < 2 ^ 64 ->
  exists c k, c_getString cfg n wide upper wfail base A buffer bufferSize showBase = Ok (c, k) /\
    gives n (c_from_chars n wide alnum c k) x.
Proof.
  intros cfg n wide upper wfail base alnum A x buffer bufferSize showBase s Hn Hnb H Hb Hs Ha HS H4 Hf HL H64.
  assert (Bx : 0 <= x < modulus n) by (destruct H as (a & _ & W & <-); apply bval_bound; auto).
  assert (Y : forall tl, tl = [] \/ tl = [0] -> yields n (from_string n wide alnum (shown showBase base ++ s ++ tl)) x).
  { intros tl Ht. destruct Hs as [-> | ->].
    - replace (shown showBase 10) with (@nil Z) by (destruct showBase; reflexivity). cbn [app]. apply (parse_decimal n wide alnum (upper && (10 =? 16))); auto; lia.
    - unfold shown. destruct Hb as [-> |[-> |[-> | ->] ] ].
      + eapply (parse_prefixed n wide alnum _ 2); eauto; lia.
      + eapply (parse_prefixed n wide alnum _ 8); eauto; lia.
      + cbn [prefix_text Z.eqb Pos.eqb app]. eapply (parse_decimal n wide alnum); eauto; lia.
      + eapply (parse_prefixed n wide alnum _ 16); eauto; lia. }
  assert (Z0 : forall T rest k, k = len T -> yields n (from_string n wide alnum T) x -> gives n (c_from_chars n wide alnum (map Some T ++ rest) k) x).
  { intros T rest k -> YT. change (map Some T) with (init T). rewrite from_chars_prefix, from_chars_i. eapply gives_lift; [reflexivity|exact YT]. }
  destruct (Z.eq_dec x 0) as [->|Nx].
  - rewrite (C159_getString_zero cfg n wide upper wfail base A buffer bufferSize showBase H Hn ltac:(lia)). eexists _, _. split; [reflexivity|].
    apply Z0; [reflexivity|].
    assert (s = [48]).
    { apply (numeral_unique (upper && (base =? 16)) base 0); auto; [destruct Hb as [-> |[-> |[-> | ->] ] ]; lia|]. exists [0]. conjs; auto.
      constructor; [destruct Hb as [-> |[-> |[-> | ->] ] ]; lia|constructor]. }
    subst s. replace (shown_in bufferSize showBase base) with (shown showBase base). { specialize (Y [] (or_introl eq_refl)). rewrite app_nil_r in Y. exact Y. }
    unfold shown_in, shown. replace (bufferSize >? 3) with true by (symmetry; rewrite Z.gtb_ltb; apply Z.ltb_lt; lia). rewrite andb_true_r. reflexivity.
  - rewrite (C159_getString cfg n wide upper wfail base A x buffer bufferSize showBase s) by auto. eexists _, _. split; [reflexivity|].
    apply Z0; [|apply Y; auto]. rewrite app_assoc, !len_app. reflexivity.
Qed.
Print Assumptions C159_round_trip.

(** A number that was never assigned cannot be printed: its blocks (Aesi: its sign) are read. *)
Theorem C159_unassigned : forall cfg n wide upper wfail base buffer bufferSize showBase os, 1 <= n -> 2 <= bufferSize <= len buffer ->
  reads_garbage (c_getString cfg n wide upper wfail base (fresh n) buffer bufferSize showBase) /\
  reads_garbage (c_stream_insert cfg n os (fresh n)) /\
  (forall size, reads_garbage (cs_getString cfg n wide upper wfail base (sfresh n) buffer size showBase)) /\
  reads_garbage (cs_stream_insert cfg n os (sfresh n)).
Proof.
  intros cfg n wide upper wfail base buffer bufferSize showBase os Hn HB. unfold reads_garbage.
  assert (Z0 : c_isZero n (fresh n) = Err Indeterminate) by (unfold c_isZero; rewrite filled_fresh by auto; reflexivity).
  conjs; try reflexivity.
  - unfold c_getString. replace (bufferSize <? 2) with false by (symmetry; apply Z.ltb_ge; lia).
    destruct (showBase && (bufferSize >? 3)) eqn:E; cbn [bind]; [|rewrite Z0; reflexivity].
    apply andb_true_iff in E. destruct E as [_ E].
    assert (X : exists b, c_set_chars buffer 0 (gs_prefix base) = Ok b).
    { assert (X : gs_prefix base = [] \/ exists d, gs_prefix base = [48; d]).
      { unfold gs_prefix. destruct (base =? 2); [right; eexists; reflexivity|]. destruct (base =? 8); [right; eexists; reflexivity|].
        destruct (base =? 16); [right; eexists; reflexivity|left; reflexivity]. }
      destruct X as [->|(d & ->)]; [eexists; reflexivity|]. cbn [c_set_chars]. change (0 + 1) with 1. unfold cset, cin.
      replace (0 <? len buffer) with true by (symmetry; apply Z.ltb_lt; lia). cbn [Z.leb Z.compare andb bind]. rewrite len_cupd.
      replace (1 <? len buffer) with true by (symmetry; apply Z.ltb_lt; lia). cbn [bind]. eexists. reflexivity. }
    destruct X as (b & ->). cbn [bind]. rewrite Z0. reflexivity.
  - unfold c_stream_insert. cbv zeta. rewrite Z0. reflexivity.
Qed.
Print Assumptions C159_unassigned.

(** ** C160: the array constructor on a buffer getString has filled *)
Lemma forU_until {S} (I : S -> Prop) (B : Z -> S -> outcome S) e m hi : m < hi -> (forall s, I s -> B m s = Err e) -> forall lo s, lo <= m -> I s ->
  (forall i s, lo <= i < m -> I s -> exists s', B i s = Ok s' /\ I s') -> forU lo hi B s = Err e.
Proof.
  unfold forU. intros Hm HE lo s Hlo H0 HB. remember (Z.to_nat (m - lo)) as d eqn:Ed. revert lo s Hlo H0 HB Ed.
  induction d as [|d IH]; intros lo s Hlo H0 HB Ed; replace (Z.to_nat (hi - lo)) with (Datatypes.S (Z.to_nat (hi - (lo + 1)))) by lia; cbn [loopU].
  - replace lo with m by lia. rewrite HE by auto. reflexivity.
  - destruct (HB lo s ltac:(lia) H0) as (s' & -> & H1). cbn [bind]. apply IH; auto; try lia. intros i t Hi. apply HB. lia.
Qed.
Lemma forUx_until {R} (B : Z -> unit -> outcome (step unit R)) m hi r : m < hi -> (forall u, B m u = r) -> 
  (forall u, r <> Ok (Next u)) -> forall lo, lo <= m -> (forall i u, lo <= i < m -> B i u = Ok (Next tt)) -> forUx lo hi B tt = r.
Proof.
  unfold forUx. intros Hm HE NN lo Hlo HB. remember (Z.to_nat (m - lo)) as d eqn:Ed. revert lo Hlo HB Ed.
  induction d as [|d IH]; intros lo Hlo HB Ed; replace (Z.to_nat (hi - lo)) with (S (Z.to_nat (hi - (lo + 1)))) by lia; cbn [loopUx].
  - replace lo with m by lia. rewrite HE. destruct r as [ [u|x]|]; cbn [bind]; auto. exfalso. apply (NN u). reflexivity.
  - rewrite HB by lia. cbn [bind]. apply IH; auto; try lia. intros i t Hi. apply HB. lia.
Qed.
Lemma cget_none T rest : cget (init T ++ None :: rest) (len T) = Err Indeterminate.
Proof.
  unfold cget, cin. rewrite len_app, len_init, len_cons. pose proof (len_nonneg T). pose proof (len_nonneg rest).
  replace (0 <=? len T) with true by (symmetry; apply Z.leb_le; lia). replace (len T <? len T + (1 + len rest)) with true by (symmetry; apply Z.ltb_lt; lia).
  cbn [andb]. unfold cnth. replace (len T <? 0) with false by (symmetry; apply Z.ltb_ge; lia).
  replace (Z.to_nat (len T)) with (length (init T)) by (unfold init, len; rewrite map_length; lia). rewrite nth_middle. reflexivity.
Qed.
Lemma from_array_garbage n wide alnum T rest : 0 <= n -> Forall (fun c => 0 <= c) T ->
  c_from_array n wide alnum (init T ++ None :: rest) = Err Indeterminate.
Proof.
  intros Hn F. unfold c_from_array. set (D := init T ++ None :: rest) in *.
  assert (LD : len T < len D) by (subst D; rewrite len_app, len_init, len_cons; pose proof (len_nonneg rest); lia). pose proof (len_nonneg T) as LT.
  assert (GD : forall i, 0 <= i < len T -> cget D i = Ok (znth T i)) by (intros i Hi; subst D; rewrite cget_app, cget_init, aget_ok by lia; reflexivity).
  assert (GN : cget D (len T) = Err Indeterminate) by apply cget_none.
  assert (AL : forall c, 0 <= c -> is_alnum wide alnum c = Ok (alnum c)).
  { intros c Hc. unfold is_alnum. destruct wide; auto. replace (c <? -1) with false by (symmetry; apply Z.ltb_ge; lia). replace (c =? -1) with false by (symmetry; apply Z.eqb_neq; lia). reflexivity. }
  assert (FN : forall i, 0 <= znth T i).
  { intros i. destruct (Z_lt_dec i 0) as [X|X]; [rewrite znth_out by lia; lia|]. destruct (Z_lt_dec i (len T)) as [Y|Y]; [|rewrite znth_out by lia; lia].
    rewrite Forall_forall in F. apply F. unfold znth. replace (i <? 0) with false by (symmetry; apply Z.ltb_ge; lia). apply nth_In. unfold len in Y. lia. }
  clearbody D. unfold c_from_chars. replace (len D =? 0) with false by (symmetry; apply Z.eqb_neq; lia).
  destruct (numeral_part_split alnum T) as (pre & ET & Fp & HB).
  assert (LP : len pre <= len T) by (rewrite ET at 1; rewrite len_app; pose proof (len_nonneg (numeral_part alnum T)); lia).
  assert (PR : forall i (u : unit), 0 <= i < len pre -> (c <- cget D i ;; b <- is_alnum wide alnum c ;; if b then Ok (Exit i) else Ok (Next tt)) = Ok (Next (R := Z) tt)).
  { intros i u Hi. rewrite GD by lia. cbn [bind]. rewrite AL by auto. cbn [bind]. 
    replace (alnum (znth T i)) with false; [reflexivity|]. symmetry. rewrite Forall_forall in Fp. apply Fp. rewrite ET. unfold znth. replace (i <? 0) with false by (symmetry; apply Z.ltb_ge; lia).
    rewrite app_nth1 by (unfold len in Hi; lia). apply nth_In. unfold len in Hi. lia. }
  destruct HB as [E|(c & t & E & Ac)].
  - assert (EL : len pre = len T) by (rewrite ET at 1; rewrite E, app_nil_r; reflexivity).
    unfold c_skip_leading. rewrite (forUx_until _ (len T) (len D) (Err Indeterminate)); [reflexivity|lia| |discriminate|lia|].
    + intros u. rewrite GN. reflexivity.
    + intros i u Hi. apply PR; auto. lia.
  - assert (LE : len pre < len T) by (rewrite ET at 1; rewrite E, len_app, len_cons; pose proof (len_nonneg t); lia).
    assert (ZC : znth T (len pre) = c).
    { rewrite ET, E. unfold znth. pose proof (len_nonneg pre). replace (len pre <? 0) with false by (symmetry; apply Z.ltb_ge; lia).
      replace (Z.to_nat (len pre)) with (length pre) by (unfold len; lia). apply nth_middle. }
    pose proof (len_nonneg pre) as LP0.
    unfold c_skip_leading. rewrite (forUx_until _ (len pre) (len D) (Ok (Exit (len pre)))); [|lia| |discriminate|lia|].
    2:{ intros u. rewrite GD by lia. cbn [bind]. rewrite AL by auto. cbn [bind]. rewrite ZC, Ac. reflexivity. }
    2:{ intros i u Hi. apply PR; auto. }
    cbn [bind]. replace (len pre =? len D) with false by (symmetry; apply Z.eqb_neq; lia).
    assert (LOOP : forall base p, 0 <= p <= len T -> forU p (len D) (fun i blocks => c <- cget D i ;; let digit := char_digit c in
      if digit <? base then b <- c_mul_assign_u n U32 blocks base ;; c_add_assign_u n U32 b digit else Ok blocks) (czeros n) = Err Indeterminate \/ base < 0 \/ 2 ^ 32 <= base).
    { intros base p Hp. destruct (Z_lt_dec base 0); [auto|]. destruct (Z_lt_dec base (2 ^ 32)); [|right; right; lia]. left.
      apply (forU_until (fun s => exists a, s = init a /\ wf n a) _ _ (len T)); [lia| |lia| |].
      - intros s _. rewrite GN. reflexivity.
      - exists (zeros n). split; [reflexivity|apply wf_zeros; auto].
      - intros i s Hi (a & -> & W). rewrite GD by lia. cbn [bind]. cbv zeta. destruct (Z.ltb_spec (char_digit (znth T i)) base) as [LB|LB]; [|eauto].
        rewrite mul_assign_u_i.
        assert (CD : 0 <= char_digit (znth T i)) by (unfold char_digit; repeat match goal with |- context [if ?b then _ else _] => destruct b eqn:? end; lia).
        destruct (mul_assign_u_tot n U32 a base W ltac:(cbn [uwidth]; lia)) as (b & Eb & Wb). rewrite Eb. cbn [lift bind].
        rewrite add_assign_u_i. destruct (add_assign_u_correct n U32 b (char_digit (znth T i)) Wb ltac:(cbn [uwidth]; lia) ltac:(cbn [uwidth]; lia)) as (b2 & -> & W2 & _). cbn [lift]. eauto. }
    assert (L2 : forall base p, base = 2 \/ base = 8 \/ base = 10 \/ base = 16 -> 0 <= p <= len T -> forU p (len D) (fun i blocks => c <- cget D i ;; let digit := char_digit c in
      if digit <? base then b <- c_mul_assign_u n U32 blocks base ;; c_add_assign_u n U32 b digit else Ok blocks) (czeros n) = Err Indeterminate).
    { intros base p Hb Hp. destruct (LOOP base p Hp) as [X|[X|X] ]; [exact X| |]; exfalso; lia. }
    clear LOOP PR. unfold c_detect_base. rewrite GD by lia. cbn [bind]. rewrite ZC.
    destruct (c =? 48); cbn [andb]; [|cbn [bind]; apply L2; lia]. destruct (Z.gtb_spec (len D) (len pre + 1)); [|cbn [bind]; apply L2; lia].
    destruct (Z.eq_dec (len pre + 1) (len T)) as [->|NE]; [rewrite GN; reflexivity|]. rewrite GD by lia. cbn [bind].
    destruct (_ || _); [cbn [bind]; apply L2; lia|]. destruct (_ || _); [cbn [bind]; apply L2; lia|]. destruct (_ || _); cbn [bind]; apply L2; lia.
Qed.
Lemma sfrom_array_garbage n wide alnum T rest : 0 <= n -> Forall (fun c => 0 <= c) T ->
  cs_from_array n wide alnum (init T ++ None :: rest) = Err Indeterminate.
Proof.
  intros Hn F. pose proof (from_array_garbage n wide alnum T rest Hn F) as G. unfold c_from_array in G. unfold cs_from_array, cs_from_chars. rewrite G. reflexivity.
Qed.

(** The array constructor reads the whole array.  Every array with a character nobody wrote: undefined behaviour. *)
Theorem C160_array_constructor_refuted : forall n wide alnum T rest, 0 <= n -> Forall (fun c => 0 <= c) T ->
  reads_garbage (c_from_array n wide alnum (map Some T ++ None :: rest)) /\
  reads_garbage (cs_from_array n wide alnum (map Some T ++ None :: rest)).
Proof. intros. split; [apply from_array_garbage|apply sfrom_array_garbage]; auto. Qed.
Print Assumptions C160_array_constructor_refuted.

Lemma numeral_chars upper base v s : base_ok base -> numeral upper base v s -> Forall (fun c => 48 <= c) s.
Proof.
  intros Hb (ds & -> & F & _). assert (B : base <= 16) by (destruct Hb as [-> |[-> |[-> | ->] ] ]; lia). clear Hb.
  induction F as [|d t Hd F IH]; cbn [map]; constructor; auto.
  unfold digit_char. destruct (d <? 10) eqn:E; [lia|]. destruct upper; lia.
Qed.
Lemma shown_chars show base : Forall (fun c => 48 <= c) (shown show base).
Proof.
  unfold shown, prefix_text. destruct show; [|constructor]. destruct (base =? 2); [repeat constructor; lia|]. destruct (base =? 8); [repeat constructor; lia|].
  destruct (base =? 16); [repeat constructor; lia|constructor].
Qed.

(** In particular: a number printed into an uninitialised array with room to spare cannot be read back from that array. *)
Theorem C160_printed_array_refuted : forall cfg n wide upper wfail base alnum A x m showBase s,
  1 <= n -> 2 <= n \/ base = 16 -> holds n A x -> x <> 0 -> base_ok base -> numeral (upper && (base =? 16)) base x s ->
  len (shown showBase base ++ s) + 1 < m -> m < 2 ^ 64 ->
  exists c k, c_getString cfg n wide upper wfail base A (fresh m) m showBase = Ok (c, k) /\
    reads_garbage (c_from_array n wide alnum c) /\ reads_garbage (cs_from_array n wide alnum c).
Proof.
  intros cfg n wide upper wfail base alnum A x m showBase s Hn Hnb H Nx Hb HS Hf H64. pose proof (len_nonneg (shown showBase base ++ s)) as L0.
  rewrite (C159_getString cfg n wide upper wfail base A x (fresh m) m showBase s) by (auto; try rewrite len_fresh; lia).
  eexists _, _. split; [reflexivity|].
  assert (E : skipn (Z.to_nat (len (shown showBase base ++ s) + 1)) (fresh m) = None :: repeat None (Z.to_nat m - Z.to_nat (len (shown showBase base ++ s) + 1) - 1)).
  { unfold fresh. assert (SK : forall k j, (k <= j)%nat -> skipn k (repeat (@None Z) j) = repeat None (j - k)).
    { induction k as [|k IH]; intros j Hj; [rewrite Nat.sub_0_r; reflexivity|]. destruct j as [|j]; [lia|]. cbn [repeat skipn]. rewrite IH by lia. f_equal. }
    rewrite SK by lia. change (None :: repeat (@None Z) (Z.to_nat m - Z.to_nat (len (shown showBase base ++ s) + 1) - 1)) with (repeat (@None Z) (S (Z.to_nat m - Z.to_nat (len (shown showBase base ++ s) + 1) - 1))). f_equal. lia. }
  rewrite E. apply C160_array_constructor_refuted; [lia|]. rewrite !Forall_app. conjs.
  - eapply Forall_impl; [|apply shown_chars]. cbn. lia.
  - eapply Forall_impl; [|eapply numeral_chars; eauto]. cbn. lia.
  - constructor; [lia|constructor].
Qed.
Print Assumptions C160_printed_array_refuted.

Lemma first_not_0 c t : c <> 48 -> match c :: t with
    | 48 :: c0 :: rest => match prefix_base c0 with Some base => dvalue base (digits_in base rest) | None => dvalue 10 (digits_in 10 (48 :: c0 :: rest)) end
    | body => dvalue 10 (digits_in 10 body) end = dvalue 10 (digits_in 10 (c :: t)).
Proof. intros N. destruct c as [|p|p]; try reflexivity. do 6 (destruct p as [p|p|]; try reflexivity). congruence. Qed.
Lemma tail_value alnum upper base show x s t : alnum_ok alnum -> base_ok base -> base = 10 \/ show = true -> x <> 0 -> numeral upper base x s ->
  string_value alnum (shown show base ++ s ++ 0 :: t) = x * base ^ len (digits_in base t) + dvalue base (digits_in base t).
Proof.
  intros Ha Hb Hs Nx (ds & -> & F & V & H0).
  assert (B : 2 <= base <= 16) by (destruct Hb as [-> |[-> |[-> | ->] ] ]; lia).
  assert (D : digits_in base (map (digit_char upper) ds ++ 0 :: t) = ds ++ digits_in base t).
  { rewrite digits_in_app. change (0 :: t) with ([0] ++ t). rewrite (digits_in_app base [0] t). change (digits_in base [0]) with (@nil Z). cbn [app]. f_equal. apply digits_in_numeral; auto. lia. }
  rewrite <- V, <- dvalue_app, <- D.
  assert (HP : show = true -> base = 2 \/ base = 8 \/ base = 16 -> string_value alnum (shown show base ++ map (digit_char upper) ds ++ 0 :: t) = dvalue base (digits_in base (map (digit_char upper) ds ++ 0 :: t))).
  { intros -> HB. unfold shown.
    assert (P : exists d, prefix_text base = [48; d] /\ prefix_base d = Some base) by (destruct HB as [-> |[-> | ->] ]; eexists; split; reflexivity).
    destruct P as (d & -> & P). cbn [app]. unfold string_value. cbn [numeral_part]. rewrite Ha by lia. rewrite P. reflexivity. }
  destruct (Z.eq_dec base 10) as [->|N10].
  2:{ destruct Hs as [|Hs]; [congruence|]. apply HP; auto. destruct Hb as [-> |[-> |[-> | ->] ] ]; try lia; auto. }
  replace (shown show 10) with (@nil Z) by (destruct show; reflexivity). cbn [app].
  destruct H0 as [-> |(d & t' & -> & Nd)]; [exfalso; apply Nx; rewrite <- V; reflexivity|]. cbn [map app]. inversion F as [|? ? Hd Ft]; subst.
  assert (C : digit_char upper d = 48 + d) by (unfold digit_char; replace (d <? 10) with true by (symmetry; apply Z.ltb_lt; lia); reflexivity).
  unfold string_value. cbn [numeral_part]. rewrite Ha by (rewrite C; lia). apply first_not_0. rewrite C. lia.
Qed.

(** What holds: if the rest of the array is written, the digits found there are appended to the number; so the number
    comes back if the rest contains no digits of the base (an array initialised with zeros, for example). *)
Theorem C160_array_constructor_partial : forall cfg n wide upper wfail base alnum A x buffer showBase s t,
  1 <= n -> 2 <= n \/ base = 16 -> holds n A x -> x <> 0 -> base_ok base -> base = 10 \/ showBase = true -> alnum_ok alnum ->
  numeral (upper && (base =? 16)) base x s -> len (shown showBase base ++ s) + 1 <= len buffer < 2 ^ 64 ->
  skipn (Z.to_nat (len (shown showBase base ++ s) + 1)) buffer = map Some t -> Forall (fun c => 0 <= c) t ->
  exists c k, c_getString cfg n wide upper wfail base A buffer (len buffer) showBase = Ok (c, k) /\
    gives n (c_from_array n wide alnum c) ((x * base ^ len (digits_in base t) + dvalue base (digits_in base t)) mod modulus n) /\
    (digits_in base t = [] -> gives n (c_from_array n wide alnum c) x).
Proof.
  intros cfg n wide upper wfail base alnum A x buffer showBase s t Hn Hnb H Nx Hb Hs Ha HS HL HT Ft.
  rewrite (C159_getString cfg n wide upper wfail base A x buffer (len buffer) showBase s) by (auto; lia). rewrite HT. eexists _, _. split; [reflexivity|].
  rewrite <- map_app. set (W := (shown showBase base ++ s ++ [0]) ++ t).
  assert (FW : Forall (fun c => 0 <= c) W).
  { unfold W. rewrite !Forall_app. conjs; auto.
    - eapply Forall_impl; [|apply shown_chars]. cbn. lia.
    - eapply Forall_impl; [|eapply numeral_chars; eauto]. cbn. lia.
    - constructor; [lia|constructor]. }
  assert (V : string_value alnum W = x * base ^ len (digits_in base t) + dvalue base (digits_in base t)).
  { unfold W. replace ((shown showBase base ++ s ++ [0]) ++ t) with (shown showBase base ++ s ++ 0 :: t) by (rewrite <- !app_assoc; reflexivity). eapply tail_value; eauto. }
  assert (G : gives n (c_from_array n wide alnum (map Some W)) (string_value alnum W mod modulus n)).
  { unfold c_from_array. replace (len (map Some W)) with (len W) by (unfold len; rewrite map_length; reflexivity).
    rewrite <- (app_nil_r (map Some W)). apply (C159_construction n wide alnum W []); auto. }
  rewrite V in G. split; [exact G|]. intros E. rewrite E in G. change (len (@nil Z)) with 0 in G. rewrite Z.pow_0_r, Z.mul_1_r in G.
  change (dvalue base []) with 0 in G. rewrite Z.add_0_r in G. destruct H as (a & _ & Wa & Va). pose proof (bval_bound n a Wa). rewrite Z.mod_small in G by lia. exact G.
Qed.
Print Assumptions C160_array_constructor_partial.

(** ** Examples *)
Example C159_example :
  holds 2 (map Some [12345; 0]) 12345 /\ numeral false 10 12345 [49; 50; 51; 52; 53] /\
  c_getString (mk_config false false true) 2 false false (fun c _ => c) 10 (init [12345; 0]) (fresh 8) 8 false =
    Ok ([Some 49; Some 50; Some 51; Some 52; Some 53; Some 0; None; None], 6) /\
  c_getString (mk_config false false true) 2 true true (fun c _ => c) 16 (init [43981; 0]) (fresh 8) 8 true =
    Ok ([Some 48; Some 120; Some 65; Some 66; Some 67; Some 68; Some 0; None], 7) /\
  cs_getString (mk_config false false true) 2 false false (fun c _ => c) 8 (mk_caesi (Some SZero) (fresh 2)) (fresh 4) 4 true = Ok ([Some 48; Some 111; Some 48; None], 3) /\
  cs_getString (mk_config false false true) 2 false false (fun c _ => c) 10 (sinit (mk_aesi SNeg [42; 0])) (fresh 5) 5 false = Ok ([Some 45; Some 52; Some 50; Some 0; None], 3) /\
  c_from_chars 2 false (fun c => (48 <=? c) && (c <=? 122)) ([Some 52; Some 50] ++ fresh 3) 2 = Ok (init [42; 0]) /\
  same_failure (fun c _ => c) (fun b _ => b).
Proof.
  split; [|split].
  - exists [12345; 0]. conjs; [reflexivity| |vm_compute; reflexivity]. split; [reflexivity|]. repeat constructor; lia.
  - exists [1; 2; 3; 4; 5]. conjs; [reflexivity|repeat constructor; lia|reflexivity|]. right. exists 1, [2; 3; 4; 5]. split; [reflexivity|lia].
  - conjs; [vm_compute; reflexivity|vm_compute; reflexivity|vm_compute; reflexivity|vm_compute; reflexivity|vm_compute; reflexivity|].
    intros c0 b0 c b p H. exact H.
Qed.
(** "42" in an array of five characters: uninitialised, initialised with zeros, with a leftover '7'. *)
Example C160_example :
  c_from_array 2 false (fun c => (48 <=? c) && (c <=? 122)) [Some 52; Some 50; Some 0; None; None] = Err Indeterminate /\
  c_from_array 2 false (fun c => (48 <=? c) && (c <=? 122)) [Some 52; Some 50; Some 0; Some 0; Some 0] = Ok (init [42; 0]) /\
  c_from_array 2 false (fun c => (48 <=? c) && (c <=? 122)) [Some 52; Some 50; Some 0; Some 55; Some 33] = Ok (init [427; 0]) /\
  42 * 10 ^ len (digits_in 10 [55; 33]) + dvalue 10 (digits_in 10 [55; 33]) = 427.
Proof. conjs; vm_compute; reflexivity. Qed.
