(** * IniTextFacts: the text functions on partly written memory follow the ones on definite memory. *)
From Verif Require Import Lib IniFacts PropsIni PropsIniS.
From Verif Require Export IniText.
Open Scope Z_scope.

(** Two outcomes are related: the same fault, or related results. *)
Definition orel {A B} (R : A -> B -> Prop) (x : outcome A) (y : outcome B) : Prop :=
  match x, y with Ok a, Ok b => R a b | Err e, Err f => e = f | _, _ => False end.
Definition steprel {S S' R R'} (I : S' -> S -> Prop) (E : R' -> R -> Prop) (x : step S' R') (y : step S R) : Prop :=
  match x, y with Next a, Next b => I a b | Exit a, Exit b => E a b | _, _ => False end.

Lemma orel_bind {A A' B B'} (R : A' -> A -> Prop) (Q : B' -> B -> Prop) x' x k' k :
  orel R x' x -> (forall a' a, R a' a -> orel Q (k' a') (k a)) -> orel Q (bind x' k') (bind x k).
Proof. destruct x', x; cbn [orel bind]; intros H K; auto; contradiction. Qed.
Lemma orel_eq {A B B'} (Q : B' -> B -> Prop) (x' x : outcome A) k' k :
  x' = x -> (forall a, orel Q (k' a) (k a)) -> orel Q (bind x' k') (bind x k).
Proof. intros ->. destruct x; cbn [orel bind]; auto. Qed.
Lemma orel_lift {A B B' C} (f : A -> C) (Q : B' -> B -> Prop) (x' : outcome C) (x : outcome A) k' k :
  x' = lift f x -> (forall a, orel Q (k' (f a)) (k a)) -> orel Q (bind x' k') (bind x k).
Proof. intros ->. destruct x; cbn [orel bind lift]; auto. Qed.
Lemma orel_mono {A B} (R Q : A -> B -> Prop) x y : (forall a b, R a b -> Q a b) -> orel R x y -> orel Q x y.
Proof. destruct x, y; cbn [orel]; auto. Qed.

Lemma forU_rel {S S'} (I : Z -> S' -> S -> Prop) hi B' B : forall lo s' s, I lo s' s ->
  (forall i s' s, lo <= i < hi -> I i s' s -> orel (I (i + 1)) (B' i s') (B i s)) ->
  orel (I (Z.max lo hi)) (forU lo hi B' s') (forU lo hi B s).
Proof.
  unfold forU. intros lo s' s H0 HB. remember (Z.to_nat (hi - lo)) as c eqn:E. revert lo s' s H0 HB E.
  induction c as [|c IH]; intros lo s' s H0 HB E; cbn [loopU].
  - cbn [orel]. destruct (Z.eq_dec lo hi) as [->|]; [rewrite Z.max_id; auto|]. rewrite Z.max_l by lia. auto.
  - apply (orel_bind (I (lo + 1))); [apply HB; auto; lia|]. intros a' a Ha.
    replace (Z.max lo hi) with (Z.max (lo + 1) hi) by lia. apply IH; auto; [|lia]. intros i t' t Hi. apply HB. lia.
Qed.
Lemma forD_rel {S S'} (I : S' -> S -> Prop) lo B' B : forall hi s' s, I s' s ->
  (forall i s' s, lo <= i < hi -> I s' s -> orel I (B' i s') (B i s)) ->
  orel I (forD hi lo B' s') (forD hi lo B s).
Proof.
  unfold forD. intros hi s' s H0 HB. remember (Z.to_nat (hi - lo)) as c eqn:E. revert hi s' s H0 HB E.
  induction c as [|c IH]; intros hi s' s H0 HB E; cbn [loopD].
  - auto.
  - apply (orel_bind I); [apply HB; auto; lia|]. intros a' a Ha. apply IH; auto; [|lia]. intros i t' t Hi. apply HB. lia.
Qed.
Lemma forUx_rel {S S' R R'} (I : Z -> S' -> S -> Prop) (E : R' -> R -> Prop) hi B' B : forall lo s' s, I lo s' s ->
  (forall i s' s, lo <= i < hi -> I i s' s -> orel (steprel (I (i + 1)) E) (B' i s') (B i s)) ->
  orel (steprel (I (Z.max lo hi)) E) (forUx lo hi B' s') (forUx lo hi B s).
Proof.
  unfold forUx. intros lo s' s H0 HB. remember (Z.to_nat (hi - lo)) as c eqn:Ec. revert lo s' s H0 HB Ec.
  induction c as [|c IH]; intros lo s' s H0 HB Ec; cbn [loopUx].
  - cbn [orel steprel]. destruct (Z.eq_dec lo hi) as [->|]; [rewrite Z.max_id; auto|]. rewrite Z.max_l by lia. auto.
  - apply (orel_bind (steprel (I (lo + 1)) E)); [apply HB; auto; lia|]. intros [a'|a'] [a|a] Ha; cbn [steprel] in Ha; try contradiction.
    + replace (Z.max lo hi) with (Z.max (lo + 1) hi) by lia. apply IH; auto; [|lia]. intros i t' t Hi. apply HB. lia.
    + exact Ha.
Qed.

(** ** Memory that started as [c0] while the definite memory started as [b0] *)
Definition wrote (c0 : cells) (b0 : list Z) (c : cells) (b : list Z) : Prop :=
  (len c = len b /\ len b = len b0) /\
  forall i, 0 <= i < len b -> cnth c i = Some (znth b i) \/ (cnth c i = cnth c0 i /\ znth b i = znth b0 i).
(** The characters at [lo, hi) are written. *)
Definition full (lo hi : Z) (c : cells) (b : list Z) : Prop := forall i, lo <= i < hi -> cnth c i = Some (znth b i).

Lemma wrote_start c b : len c = len b -> wrote c b c b.
Proof. intros L. split; [split|]; auto. Qed.

Lemma cupd_length v : forall c i, length (cupd c i v) = length c.
Proof. induction c as [|x c IH]; intros [|i]; cbn; auto. Qed.
Lemma nth_cupd v : forall c i j, (i < length c)%nat -> nth j (cupd c i v) None = if Nat.eqb i j then Some v else nth j c None.
Proof.
  induction c as [|x c IH]; intros [|i] [|j] H; cbn [cupd nth length] in *; try lia; auto. rewrite IH by lia. reflexivity.
Qed.
Lemma cnth_cupd c i j v : 0 <= i < len c -> cnth (cupd c (Z.to_nat i) v) j = if i =? j then Some v else cnth c j.
Proof.
  intros H. unfold cnth, len in *. destruct (Z.ltb_spec j 0).
  - destruct (Z.eqb_spec i j); [lia|auto].
  - rewrite nth_cupd by lia. destruct (Nat.eqb_spec (Z.to_nat i) (Z.to_nat j)), (Z.eqb_spec i j); auto; lia.
Qed.
Lemma len_cupd c i v : len (cupd c i v) = len c.
Proof. unfold len. rewrite cupd_length. auto. Qed.
Lemma cnth_range c i v : cnth c i = Some v -> 0 <= i < len c.
Proof.
  unfold cnth, len. destruct (Z.ltb_spec i 0); [discriminate|]. intros H1.
  destruct (Z.lt_ge_cases i (Z.of_nat (length c))); [lia|]. rewrite nth_overflow in H1 by lia. discriminate.
Qed.
Lemma cget_some c i v : cnth c i = Some v -> cget c i = Ok v.
Proof.
  intros H. pose proof (cnth_range _ _ _ H). unfold cget, cin. rewrite H.
  replace (0 <=? i) with true by (symmetry; apply Z.leb_le; lia). replace (i <? len c) with true by (symmetry; apply Z.ltb_lt; lia). reflexivity.
Qed.

Lemma cset_rel c0 b0 c b i v : wrote c0 b0 c b ->
  orel (fun c' b' => wrote c0 b0 c' b' /\ cnth c' i = Some v /\ znth b' i = v /\ len b' = len b /\
                     (forall lo hi, full lo hi c b -> full lo hi c' b') /\
                     forall j, j <> i -> cnth c' j = cnth c j /\ znth b' j = znth b j)
       (cset c i v) (aset b i v).
Proof.
  intros ((L & L0) & H). unfold cset, aset, cin, in_range. rewrite L.
  destruct (Z.leb_spec 0 i); cbn [andb orel]; auto. destruct (Z.ltb_spec i (len b)); cbn [orel]; auto.
  assert (K : forall j, 0 <= j < len b -> cnth c j = Some (znth b j) -> cnth (cupd c (Z.to_nat i) v) j = Some (znth (upd b (Z.to_nat i) v) j)).
  { intros j Hj E. rewrite cnth_cupd, znth_upd by lia. destruct (Z.eqb_spec i j); auto. }
  split; [|split; [|split; [|split; [|split] ] ] ].
  - split; [rewrite len_cupd, len_upd; auto|]. rewrite len_upd. intros j Hj. rewrite cnth_cupd, znth_upd by lia.
    destruct (Z.eqb_spec i j); auto.
  - rewrite cnth_cupd by lia. rewrite Z.eqb_refl. auto.
  - apply znth_upd_eq. lia.
  - apply len_upd.
  - intros lo hi F j Hj. apply K; auto. pose proof (cnth_range _ _ _ (F j Hj)). lia.
  - intros j Hj. rewrite cnth_cupd, znth_upd by lia. destruct (Z.eqb_spec i j); auto. congruence.
Qed.

Lemma set_chars_rel c0 b0 cs : forall c b p, wrote c0 b0 c b ->
  orel (wrote c0 b0) (c_set_chars c p cs) (set_chars b p cs).
Proof.
  induction cs as [|x cs IH]; intros c b p W; cbn [c_set_chars set_chars]; [exact W|].
  eapply orel_bind; [apply cset_rel, W|]. cbv beta. intros c' b' (W' & _). apply IH, W'.
Qed.

Lemma print_block_rel c0 b0 wide wc wb bs text c b p : wrote c0 b0 c b ->
  (forall c b p, wrote c0 b0 c b -> wrote c0 b0 (wc c p) (wb b p)) ->
  orel (fun x y => wrote c0 b0 (fst x) (fst y) /\ snd x = snd y) (c_print_block wide wc bs text (c, p)) (print_block wide wb bs text (b, p)).
Proof.
  intros W F. unfold c_print_block, print_block. cbv zeta. destruct wide.
  - destruct (len text + 1 <=? u64 (bs - p)).
    + eapply orel_bind; [apply set_chars_rel, W|]. intros c' b' W'. cbn [orel fst snd]. auto.
    + rewrite (proj1 (proj1 W)). destruct (p + u64 (bs - p) <=? len b); cbn [orel fst snd]; auto.
  - destruct (u64 (bs - p) =? 0); [cbn [orel fst snd]; auto|].
    eapply orel_bind; [apply set_chars_rel, W|]. intros c' b' W'. cbn [orel fst snd]. auto.
Qed.

Lemma top_block_i n a : c_top_block n (init a) = top_block n a.
Proof.
  unfold c_top_block, top_block. apply bind_eq; [|reflexivity]. apply forDx_same. intros i s. rewrite cget_init. reflexivity.
Qed.

Lemma digit_loop_rel cfg n base bs c0 b0 p a c b : 0 <= n -> 0 <= p -> wrote c0 b0 c b ->
  orel (fun x y => wrote c0 b0 (fst x) (fst y) /\ snd x = snd y /\ p <= snd y /\ full p (snd y) (fst x) (fst y))
       (c_digit_loop cfg n base bs c p (init a)) (digit_loop cfg n base bs b p a).
Proof.
  intros Hn Hp W. unfold c_digit_loop, digit_loop. rewrite copy_init. cbn [bind].
  eapply (orel_bind (steprel (fun x y => wrote c0 b0 (fst x) (fst y) /\ full p (Z.max p bs) (fst x) (fst y))
    (fun x y => wrote c0 b0 (fst x) (fst y) /\ snd x = snd y /\ p <= snd y /\ full p (snd y) (fst x) (fst y)))).
  - apply (orel_mono (steprel (fun x y => wrote c0 b0 (fst x) (fst y) /\ full p (Z.max p bs) (fst x) (fst y) /\ snd x = init (snd y))
      (fun x y => wrote c0 b0 (fst x) (fst y) /\ snd x = snd y /\ p <= snd y /\ full p (snd y) (fst x) (fst y)))).
    { intros [x|x] [y|y]; cbn [steprel]; tauto. }
    apply (forUx_rel (fun i x y => wrote c0 b0 (fst x) (fst y) /\ full p i (fst x) (fst y) /\ snd x = init (snd y))).
    + cbn [fst snd]. split; auto. split; auto. intros i Hi. lia.
    + intros i [c1 q1] [b1 q2] Hi (W1 & F1 & E). cbn [fst snd] in *. subst q1. rewrite isZero_i.
      apply orel_eq; [reflexivity|]. intros [|]; [cbn [orel steprel fst snd]; conjs; auto; lia|].
      apply (orel_lift init); [apply from_unsigned_i; auto|]. intros d.
      apply (orel_lift init2); [apply divide_pair_i; auto|]. intros [q r]. cbn [init2 fst snd]. rewrite integralCast_i.
      apply orel_eq; [reflexivity|]. intros v. eapply orel_bind; [apply cset_rel, W1|]. cbv beta.
      intros c2 b2 (W2 & C2 & B2 & L2 & F2 & _). rewrite copy_init. cbn [bind orel steprel fst snd]. conjs; auto.
      intros j Hj. destruct (Z.eq_dec j i) as [->|]; [congruence|]. apply (F2 p i F1). lia.
  - intros [ [x1 x2] | [x1 x2] ] [ [y1 y2] | [y1 y2] ]; cbn [steprel fst snd orel]; try tauto.
    intros (H1 & H2). conjs; auto. lia.
Qed.

Lemma reverse_rel c0 b0 p total c b : wrote c0 b0 c b -> full p (p + total) c b ->
  orel (fun c' b' => wrote c0 b0 c' b' /\ full p (p + total) c' b') (c_reverse_digits c p total) (reverse_digits b p total).
Proof.
  intros W F. unfold c_reverse_digits, reverse_digits.
  apply (forU_rel (fun _ c' b' => wrote c0 b0 c' b' /\ full p (p + total) c' b')); auto.
  intros i c1 b1 Hi (W1 & F1). assert (i < (total + 1) / 2) by lia.
  assert (2 * ((total + 1) / 2) <= total + 1) by (apply Z.mul_div_le; lia).
  assert (E1 : cnth c1 (p + i) = Some (znth b1 (p + i))) by (apply F1; lia).
  assert (E2 : cnth c1 (p + total - 1 - i) = Some (znth b1 (p + total - 1 - i))) by (apply F1; lia).
  rewrite (cget_some _ _ _ E1), (cget_some _ _ _ E2). apply cnth_range in E1, E2. rewrite (proj1 (proj1 W1)) in E1, E2.
  rewrite !aget_ok by lia. cbn [bind]. eapply orel_bind; [apply cset_rel, W1|]. cbv beta.
  intros c2 b2 (W2 & _ & _ & L2 & F2 & _). eapply orel_mono; [|apply cset_rel, W2]. cbv beta. intros c3 b3 (W3 & _ & _ & _ & F3 & _). auto.
Qed.

(** getString: same count, same fault, and the memory differs only where nothing was written. *)
Lemma getString_rel c0 b0 cfg n wide upper wc wb base a c b bs show : 0 <= n -> wrote c0 b0 c b ->
  (forall c b p, wrote c0 b0 c b -> wrote c0 b0 (wc c p) (wb b p)) ->
  orel (fun x y => wrote c0 b0 (fst x) (fst y) /\ snd x = snd y)
    (c_getString cfg n wide upper wc base (init a) c bs show) (getString cfg n wide upper wb base a b bs show).
Proof.
  intros Hn W F. unfold c_getString, getString. destruct (bs <? 2); [cbn [orel fst snd]; auto|].
  eapply (orel_bind (fun x y => wrote c0 b0 (fst x) (fst y) /\ snd x = snd y /\ 0 <= snd y)).
  { destruct (show && (bs >? 3)); [|cbn [orel fst snd]; conjs; auto; lia].
    eapply orel_bind; [apply set_chars_rel, W|]. intros c' b' W'. cbn [orel fst snd]. conjs; auto. apply len_nonneg. }
  intros [c1 p1] [b1 p] (W1 & E & Hp). cbn [fst snd] in *. subst p1. rewrite isZero_i. apply orel_eq; [reflexivity|].
  intros [|].
  { eapply orel_bind; [apply cset_rel, W1|]. cbv beta. intros c2 b2 (W2 & _). cbn [orel fst snd]. auto. }
  eapply (orel_bind (fun x y => wrote c0 b0 (fst x) (fst y) /\ snd x = snd y)).
  - destruct (base =? 16).
    + rewrite top_block_i. apply orel_eq; [reflexivity|]. intros iter. rewrite cget_init. apply orel_eq; [reflexivity|]. intros x.
      eapply orel_bind; [apply print_block_rel; eassumption|]. cbv beta. intros st' st H. apply forD_rel; [exact H|].
      intros i [c2 p2] [b2 q2] _ (W2 & E2). cbn [fst snd] in *. subst p2. rewrite cget_init. apply orel_eq; [reflexivity|]. intros y.
      apply print_block_rel; auto.
    + eapply orel_bind; [apply digit_loop_rel; auto; eassumption|]. cbv beta. intros [c2 p2] [b2 q2] (W2 & E2 & Hq & F2). cbn [fst snd] in *. subst p2.
      eapply orel_bind; [apply reverse_rel; [eassumption|]; intros i Hi; apply F2; lia|]. cbv beta. intros c3 b3 (W3 & _). cbn [orel fst snd]. auto.
  - intros [c2 p2] [b2 q2] (W2 & E2). cbn [fst snd] in *. subst p2. eapply orel_bind; [apply cset_rel, W2|]. cbv beta.
    intros c3 b3 (W3 & _). cbn [orel fst snd]. auto.
Qed.

(** ** The constructors *)
Lemma skip_leading_i wide alnum s size : c_skip_leading wide alnum (init s) size = skip_leading wide alnum s size.
Proof.
  unfold c_skip_leading, skip_leading. apply bind_eq; [|reflexivity].
  assert (H : forall cnt i t, loopUx cnt i (fun position (_ : unit) => c <- cget (init s) position ;; b <- is_alnum wide alnum c ;; if b then Ok (Exit position) else Ok (Next tt)) t =
    loopUx cnt i (fun position (_ : unit) => c <- aget s position ;; b <- is_alnum wide alnum c ;; if b then Ok (Exit position) else Ok (Next tt)) t).
  { induction cnt as [|cnt IH]; intros i t; cbn [loopUx]; [reflexivity|]. rewrite cget_init. apply bind_eq; [reflexivity|]. intros [u|u]; auto. }
  apply H.
Qed.
Lemma detect_base_i s size p : c_detect_base (init s) size p = detect_base s size p.
Proof.
  unfold c_detect_base, detect_base. rewrite cget_init. apply bind_eq; [reflexivity|]. intros c.
  destruct ((c =? 48) && (size >? p + 1)); [|reflexivity]. rewrite cget_init. reflexivity.
Qed.
Lemma from_chars_i n wide alnum s size : c_from_chars n wide alnum (init s) size = lift init (from_chars n wide alnum s size).
Proof.
  unfold c_from_chars, from_chars, czeros. destruct (size =? 0); [reflexivity|]. rewrite skip_leading_i. apply bind_same; [reflexivity|].
  intros p. destruct (p =? size); [reflexivity|]. rewrite detect_base_i. apply bind_same; [reflexivity|]. intros [base q].
  apply forU_sim. intros i blocks. rewrite cget_init. apply bind_same; [reflexivity|]. intros c. cbv zeta.
  destruct (char_digit c <? base); [|reflexivity]. rewrite mul_assign_u_i. apply (bind_sim init); [reflexivity|]. intros b. apply add_assign_u_i.
Qed.
Lemma traverse_i s size : c_traverseDashes (init s) size = traverseDashes s size.
Proof.
  unfold c_traverseDashes, traverseDashes. apply bind_eq; [|reflexivity]. apply loopU_ext. intros i p. rewrite cget_init. reflexivity.
Qed.
Lemma sfrom_chars_i n wide alnum s size : cs_from_chars n wide alnum (init s) size = lift sinit (s_from_chars n wide alnum s size).
Proof.
  unfold cs_from_chars, s_from_chars. rewrite from_chars_i. apply (bind_sim init); [reflexivity|]. intros b. rewrite isZero_i.
  apply bind_same; [reflexivity|]. intros [|]; cbn [negb]; [reflexivity|]. rewrite traverse_i. apply bind_same; [reflexivity|]. reflexivity.
Qed.

(** ** The stream *)
Lemma digit_loop_i cfg n base bs b p a : 0 <= n -> 
  c_digit_loop cfg n base bs (init b) p (init a) = lift init1 (digit_loop cfg n base bs b p a).
Proof.
  intros Hn. unfold c_digit_loop, digit_loop. rewrite copy_init. cbn [bind].
  apply (bind_sim (stepf init2 init1)).
  - change (init b, init a) with (init2 (b, a)). apply forUx_sim. intros i [c q]. cbn [init2 fst snd]. rewrite isZero_i.
    apply bind_same; [reflexivity|]. intros [|]; [reflexivity|]. rewrite from_unsigned_i by auto. apply (bind_sim init); [reflexivity|]. intros d.
    rewrite divide_pair_i by auto. apply (bind_sim init2); [reflexivity|]. intros [q2 r]. cbn [init2 fst snd]. rewrite integralCast_i.
    apply bind_same; [reflexivity|]. intros v. rewrite cset_init. apply (bind_sim init); [reflexivity|]. intros b2. rewrite copy_init. reflexivity.
  - intros [ [c q] | [c q] ]; reflexivity.
Qed.
Lemma stream_insert_i cfg n os a : 0 <= n -> c_stream_insert cfg n os (init a) = stream_insert cfg n os a.
Proof.
  intros Hn. unfold c_stream_insert, stream_insert, czeros. cbv zeta. rewrite isZero_i. apply bind_eq; [reflexivity|]. intros [|]; [reflexivity|].
  destruct (_ =? 16).
  - rewrite top_block_i. apply bind_eq; [reflexivity|]. intros iter. rewrite cget_init. apply bind_eq; [reflexivity|]. intros x.
    assert (G : forall cnt i s, loopD cnt i (fun i os => x <- cget (init a) i ;; Ok (os_put (os_right (os_width (os_fill os 48) 8)) (fmt_x (uppercase (os_right (os_width (os_fill os 48) 8))) x))) s =
      loopD cnt i (fun i os => x <- aget a i ;; Ok (os_put (os_right (os_width (os_fill os 48) 8)) (fmt_x (uppercase (os_right (os_width (os_fill os 48) 8))) x))) s).
    { induction cnt as [|cnt IH]; intros i s; cbn [loopD]; [reflexivity|]. rewrite cget_init. apply bind_eq; [reflexivity|]. intros y. apply IH. }
    apply G.
  - rewrite digit_loop_i by auto. apply (bind_plain init1); [reflexivity|]. intros [b f]. cbn [init1 fst snd].
    assert (G : forall cnt i s, loopD cnt i (fun i os => c <- cget (init b) i ;; Ok (os_put os [c])) s =
      loopD cnt i (fun i os => c <- aget b i ;; Ok (os_put os [c])) s).
    { induction cnt as [|cnt IH]; intros i s; cbn [loopD]; [reflexivity|]. rewrite cget_init. apply bind_eq; [reflexivity|]. intros y. apply IH. }
    apply G.
Qed.
Lemma sstream_insert_i cfg n os a : 0 <= n -> cs_stream_insert cfg n os (sinit a) = s_stream_insert cfg n os a.
Proof.
  intros Hn. unfold cs_stream_insert, s_stream_insert, sget, sinit. cbn [csgn cmag bind]. destruct (sgn a); auto; apply stream_insert_i, Hn.
Qed.
