(** * TextFacts: proofs about TextModel *)
From Verif Require Export TextModel AesiFacts.
Open Scope Z_scope.

Ltac conjs := repeat match goal with |- _ /\ _ => split end.

(** ** digit values *)
Lemma dvalue_acc base ds : forall acc, fold_left (fun a d => a * base + d) ds acc = acc * base ^ len ds + dvalue base ds.
Proof.
  unfold dvalue. induction ds as [|d t IH]; intros acc; cbn [fold_left].
  - unfold len. cbn [length]. change (Z.of_nat 0) with 0. rewrite Z.pow_0_r. lia.
  - rewrite IH. rewrite (IH (0 * base + d)). unfold len. cbn [length]. rewrite Nat2Z.inj_succ, Z.pow_succ_r by lia. ring.
Qed.
Lemma dvalue_app base a b : dvalue base (a ++ b) = dvalue base a * base ^ len b + dvalue base b.
Proof. unfold dvalue at 1. rewrite fold_left_app. rewrite dvalue_acc. reflexivity. Qed.
Lemma dvalue_nil base : dvalue base [] = 0. Proof. reflexivity. Qed.
Lemma dvalue_one base d : dvalue base [d] = d. Proof. unfold dvalue. cbn [fold_left]. lia. Qed.
Lemma dvalue_cons base d t : dvalue base (d :: t) = d * base ^ len t + dvalue base t.
Proof. change (d :: t) with ([d] ++ t). rewrite dvalue_app, dvalue_one. reflexivity. Qed.
Lemma len_app {A} (a b : list A) : len (a ++ b) = len a + len b.
Proof. unfold len. rewrite app_length. lia. Qed.
Lemma len_cons {A} (x : A) t : len (x :: t) = 1 + len t.
Proof. unfold len. cbn [length]. lia. Qed.
Lemma len_nil {A} : len (@nil A) = 0. Proof. reflexivity. Qed.
Lemma len_nonneg {A} (a : list A) : 0 <= len a. Proof. unfold len. lia. Qed.
Lemma len_map {A B} (f : A -> B) l : len (map f l) = len l.
Proof. unfold len. rewrite map_length. reflexivity. Qed.
Lemma dvalue_bound base ds : 0 < base -> Forall (fun d => 0 <= d < base) ds -> 0 <= dvalue base ds < base ^ len ds.
Proof.
  intros Hb. induction ds as [|d t IH]; intros F.
  - change (0 <= 0 < base ^ 0). rewrite Z.pow_0_r. lia.
  - inversion F; subst. specialize (IH H2). rewrite dvalue_cons, len_cons.
    rewrite Z.pow_add_r by (pose proof (len_nonneg t); lia). rewrite Z.pow_1_r. nia.
Qed.

(** ** list positions *)
Lemma upd_app_mid (p : list Z) x t v : upd (p ++ x :: t) (length p) v = p ++ v :: t.
Proof. induction p; cbn; auto. rewrite IHp. reflexivity. Qed.
Lemma aset_mid p x t v : aset (p ++ x :: t) (len p) v = Ok (p ++ v :: t).
Proof.
  unfold aset, in_range. rewrite len_app, len_cons. pose proof (len_nonneg p). pose proof (len_nonneg t).
  replace (0 <=? len p) with true by (symmetry; apply Z.leb_le; lia).
  replace (len p <? len p + (1 + len t)) with true by (symmetry; apply Z.ltb_lt; lia). cbn [andb].
  unfold len. rewrite Nat2Z.id. rewrite upd_app_mid. reflexivity.
Qed.
Lemma aget_mid p x t : aget (p ++ x :: t) (len p) = Ok x.
Proof.
  unfold aget, in_range. rewrite len_app, len_cons. pose proof (len_nonneg p). pose proof (len_nonneg t).
  replace (0 <=? len p) with true by (symmetry; apply Z.leb_le; lia).
  replace (len p <? len p + (1 + len t)) with true by (symmetry; apply Z.ltb_lt; lia). cbn [andb].
  unfold znth. replace (len p <? 0) with false by (symmetry; apply Z.ltb_ge; lia).
  unfold len. rewrite Nat2Z.id. rewrite app_nth2 by lia. rewrite Nat.sub_diag. reflexivity.
Qed.
Lemma split_at {A} (l : list A) i : 0 <= i < len l -> exists p x t, l = p ++ x :: t /\ len p = i.
Proof.
  unfold len. intros H. assert (L : (Z.to_nat i < length l)%nat) by lia.
  destruct (skipn (Z.to_nat i) l) as [|x t] eqn:E.
  - exfalso. assert (length (skipn (Z.to_nat i) l) = 0%nat) by (rewrite E; reflexivity). rewrite skipn_length in H0. lia.
  - exists (firstn (Z.to_nat i) l), x, t. split.
    + rewrite <- E. symmetry. apply firstn_skipn.
    + rewrite firstn_length. lia.
Qed.
Lemma app_len_inv {A} (a b c d : list A) : len a = len c -> a ++ b = c ++ d -> a = c /\ b = d.
Proof.
  unfold len. intros H E. assert (L : length a = length c) by lia. clear H. revert c L E.
  induction a as [|x a IH]; intros [|y c] L E; cbn in *; try lia; auto.
  inversion E; subst. destruct (IH c) as [-> ->]; auto.
Qed.

(** Writing a text into a buffer that has room for it. *)
Lemma set_chars_app cs : forall p old t, len old = len cs ->
  set_chars (p ++ old ++ t) (len p) cs = Ok (p ++ cs ++ t).
Proof.
  induction cs as [|c cs IH]; intros p old t L.
  - destruct old; [reflexivity|]. exfalso. rewrite len_cons, len_nil in L. pose proof (len_nonneg old). lia.
  - destruct old as [|o old]; [exfalso; rewrite len_cons, len_nil in L; pose proof (len_nonneg cs); lia|].
    rewrite !len_cons in L. cbn [set_chars]. change ((o :: old) ++ t) with (o :: (old ++ t)). rewrite aset_mid. cbn [bind].
    replace (p ++ c :: old ++ t) with ((p ++ [c]) ++ old ++ t) by (rewrite <- app_assoc; reflexivity).
    replace (len p + 1) with (len (p ++ [c])) by (rewrite len_app, len_cons, len_nil; lia).
    rewrite IH by lia. rewrite <- app_assoc. reflexivity.
Qed.
Lemma split_len {A} (l : list A) k : 0 <= k <= len l -> exists a b, l = a ++ b /\ len a = k.
Proof.
  intros H. exists (firstn (Z.to_nat k) l), (skipn (Z.to_nat k) l). split; [symmetry; apply firstn_skipn|].
  unfold len in *. rewrite firstn_length. lia.
Qed.
Lemma set_chars_fit buffer pos cs : 0 <= pos -> pos + len cs <= len buffer ->
  exists p old t, buffer = p ++ old ++ t /\ len p = pos /\ len old = len cs /\ set_chars buffer pos cs = Ok (p ++ cs ++ t).
Proof.
  intros H1 H2. pose proof (len_nonneg cs). destruct (split_len buffer pos) as (p & r & -> & Lp); [lia|].
  rewrite len_app in H2. destruct (split_len r (len cs)) as (old & t & -> & Lo); [lia|].
  exists p, old, t. conjs. all: auto. subst pos. apply set_chars_app. auto.
Qed.
Lemma set_chars_overflow cs : forall buffer pos, 0 <= pos -> cs <> [] -> len buffer < pos + len cs ->
  set_chars buffer pos cs = Err OutOfBounds.
Proof.
  induction cs as [|c cs IH]; intros buffer pos Hp Hne L; [congruence|]. rewrite len_cons in L. cbn [set_chars].
  destruct (Z_lt_le_dec pos (len buffer)) as [Hlt|Hge].
  - rewrite aset_ok by lia. cbn [bind]. apply IH; [lia| |rewrite len_upd; lia].
    intros ->. rewrite len_nil in L. lia.
  - rewrite aset_err by lia. reflexivity.
Qed.

(** ** parsing *)
Lemma char_digit_spec base c : base <= 16 -> (char_digit c <? base) = true ->
  digit_of c = Some (char_digit c) /\ 0 <= char_digit c < base.
Proof.
  intros Hb. unfold char_digit, digit_of.
  destruct ((48 <=? c) && (c <=? 57)) eqn:E1; [|destruct ((97 <=? c) && (c <=? 102)) eqn:E2; [|destruct ((65 <=? c) && (c <=? 70)) eqn:E3]];
  repeat match goal with H : _ && _ = true |- _ => apply andb_prop in H; destruct H as [?H ?H]; apply Z.leb_le in H; apply Z.leb_le in H0 end;
  intros H; apply Z.ltb_lt in H; split; try lia; f_equal; lia.
Qed.
Lemma char_digit_none base c : base <= 16 -> (char_digit c <? base) = false ->
  match digit_of c with Some d => if d <? base then [d] else [] | None => [] end = [].
Proof.
  intros Hb. unfold char_digit, digit_of.
  destruct ((48 <=? c) && (c <=? 57)) eqn:E1; [intros ->; reflexivity|destruct ((97 <=? c) && (c <=? 102)) eqn:E2; [|destruct ((65 <=? c) && (c <=? 70)) eqn:E3]]; auto;
  intros H. all: replace (c - 87) with (c - 97 + 10) by lia; replace (c - 55) with (c - 65 + 10) by lia; rewrite H; reflexivity.
Qed.
Lemma digits_in_app base a b : digits_in base (a ++ b) = digits_in base a ++ digits_in base b.
Proof. apply flat_map_app. Qed.

Definition parse_body (n base : Z) (data : list Z) : Z -> list Z -> outcome (list Z) := fun i blocks =>
    c <- aget data i ;;
    let digit := char_digit c in
    if digit <? base then
      b <- mul_assign_u n U32 blocks base ;;
      add_assign_u n U32 b digit
    else Ok blocks.

Lemma parse_step n base blocks d : wf n blocks -> 0 <= base < 2 ^ 32 -> 0 <= d < 2 ^ 32 ->
  yields n (b <- mul_assign_u n U32 blocks base ;; add_assign_u n U32 b d) ((bval blocks * base + d) mod modulus n).
Proof.
  intros W Hb Hd. pose proof (modulus_pos n (wf_nonneg _ _ W)) as Mp.
  eapply yields_bind; [apply mul_assign_u_correct; [auto|cbn [uwidth]; lia|congruence]|].
  intros r Wr Br. replace ((bval blocks * base + d) mod modulus n) with ((bval r + d) mod modulus n).
  - apply add_assign_u_correct; [auto|cbn [uwidth]; lia|cbn [uwidth]; lia].
  - rewrite Br. rewrite Zplus_mod_idemp_l. reflexivity.
Qed.

Lemma parse_loop n base pre body : 0 <= n -> 2 <= base <= 16 ->
  yields n (forU (len pre) (len (pre ++ body)) (parse_body n base (pre ++ body)) (zeros n))
    (dvalue base (digits_in base body) mod modulus n).
Proof.
  intros Hn Hb. pose proof (modulus_pos n Hn) as Mp.
  destruct (forU_spec (fun i blocks => exists c r, body = c ++ r /\ len pre + len c = i /\ wf n blocks /\
      bval blocks = dvalue base (digits_in base c) mod modulus n) (len pre) (len (pre ++ body)) (parse_body n base (pre ++ body)) (zeros n))
    as (r & E & c & t & B & L & W & V).
  - rewrite len_app. pose proof (len_nonneg body). lia.
  - exists [], body. rewrite len_nil. conjs; [reflexivity|lia|apply wf_zeros; auto|]. rewrite bval_zeros. change (0 = 0 mod modulus n). rewrite Z.mod_0_l; lia.
  - intros j s Hj (c & r & B & L & W & V). rewrite B, !len_app in Hj.
    destruct r as [|x r]; [rewrite len_nil in Hj; lia|]. unfold parse_body.
    assert (G : aget (pre ++ body) j = Ok x). { rewrite B, app_assoc, <- L, <- len_app. apply aget_mid. }
    rewrite G. cbn [bind]. cbv zeta.
    assert (DI : forall q, q = match digit_of x with Some d => if d <? base then [d] else [] | None => [] end -> digits_in base (c ++ [x]) = digits_in base c ++ q).
    { intros q ->. rewrite digits_in_app. f_equal. unfold digits_in. cbn [flat_map]. apply app_nil_r. }
    destruct (char_digit x <? base) eqn:D.
    + destruct (char_digit_spec base x) as (D1 & D2); [lia|auto|].
      destruct (parse_step n base s (char_digit x) W) as (s' & E' & W' & V'); [lia|lia|]. exists s'. split; [exact E'|].
      exists (c ++ [x]), r. conjs; [rewrite <- app_assoc; auto|rewrite len_app, len_cons, len_nil; lia|auto|].
      rewrite (DI [char_digit x]); [|rewrite D1, D; reflexivity]. rewrite dvalue_app, dvalue_one, len_cons, len_nil. change (1 + 0) with 1. rewrite Z.pow_1_r.
      rewrite V', V. rewrite <- Zplus_mod_idemp_l, Zmult_mod_idemp_l, Zplus_mod_idemp_l. reflexivity.
    + exists s. split; auto. exists (c ++ [x]), r. conjs; [rewrite <- app_assoc; auto|rewrite len_app, len_cons, len_nil; lia|auto|].
      rewrite (DI []); [rewrite app_nil_r; auto|]. symmetry. apply char_digit_none; [lia|auto].
  - exists r. split; auto. split; auto.
    assert (t = []). { rewrite B in L. rewrite !len_app in L. destruct t; auto. rewrite len_cons in L. pose proof (len_nonneg t). lia. }
    subst t. rewrite app_nil_r in B. subst c. auto.
Qed.

Lemma is_alnum_skip wide alnum c : skippable wide alnum c -> is_alnum wide alnum c = Ok false.
Proof.
  unfold skippable, is_alnum. destruct wide; [intros ->; reflexivity|]. intros [-> | [H1 H2] ]; [reflexivity|].
  replace (c <? -1) with false by (symmetry; apply Z.ltb_ge; lia).
  replace (c =? -1) with false by (symmetry; apply Z.eqb_neq; lia). rewrite H2. reflexivity.
Qed.
Lemma skip_leading_spec wide alnum pre body : Forall (skippable wide alnum) pre ->
  (body = [] \/ exists c t, body = c :: t /\ 0 <= c /\ alnum c = true) ->
  skip_leading wide alnum (pre ++ body) (len (pre ++ body)) = Ok (len pre).
Proof.
  intros F HB. unfold skip_leading. pose proof (len_nonneg pre). pose proof (len_nonneg body).
  match goal with |- context [forUx 0 ?h ?B ?s] =>
  destruct (forUx_spec (fun i (_ : unit) => i <= len pre) (fun p => p = len pre) 0 h B s) as (x & E & P) end.
  - rewrite len_app; lia.
  - lia.
  - intros j [] Hj Hi. rewrite len_app in Hj. destruct (Z.eq_dec j (len pre)) as [-> | Hne].
    + destruct HB as [-> | (c & t & -> & Hc & Ha)]; [change (len (@nil Z)) with 0 in *; lia|]. rewrite aget_mid. cbn [bind].
      exists (Exit (len pre)). split; [|cbn; auto]. unfold is_alnum. destruct wide; [rewrite Ha; reflexivity|].
      replace (c <? -1) with false by (symmetry; apply Z.ltb_ge; lia).
      replace (c =? -1) with false by (symmetry; apply Z.eqb_neq; lia). rewrite Ha. reflexivity.
    + destruct (split_at pre j) as (p & y & t & -> & L); [lia|]. exists (Next tt).
      rewrite <- app_assoc. change ((y :: t) ++ body) with (y :: (t ++ body)). rewrite <- L, aget_mid. cbn [bind].
      rewrite is_alnum_skip; [cbn [bind]; split; [reflexivity|cbn [step_post]; rewrite len_app, len_cons; pose proof (len_nonneg t); lia]|].
      apply Forall_app in F. destruct F as [_ F]. inversion F; auto.
  - rewrite E. cbn [bind]. destruct x as [ [] |p]; cbn [step_post] in P.
    + rewrite len_app in *. f_equal. lia.
    + subst. reflexivity.
Qed.

(** The base announced by the first characters of the numeral, and the rest of the string. *)
Lemma detect_base_spec pre body : body <> [] ->
  (exists base c rest, body = 48 :: c :: rest /\ prefix_base c = Some base /\ detect_base (pre ++ body) (len (pre ++ body)) (len pre) = Ok (base, len pre + 2)) \/
  ((forall c rest, body = 48 :: c :: rest -> prefix_base c = None) /\ detect_base (pre ++ body) (len (pre ++ body)) (len pre) = Ok (10, len pre)).
Proof.
  intros Hne. destruct body as [|b0 body]; [congruence|]. clear Hne. unfold detect_base. rewrite aget_mid. cbn [bind].
  destruct (Z.eqb_spec b0 48) as [-> | Hb]; cbn [andb].
  2:{ right. split; auto. intros c rest E. inversion E; subst. congruence. }
  rewrite len_app, !len_cons. destruct body as [|c rest].
  - right. rewrite len_nil. replace (len pre + (1 + 0) >? len pre + 1) with false by (symmetry; rewrite Z.gtb_ltb; apply Z.ltb_ge; lia).
    split; auto. intros c rest E. inversion E.
  - rewrite len_cons. pose proof (len_nonneg rest). replace (len pre + (1 + (1 + len rest)) >? len pre + 1) with true by (symmetry; rewrite Z.gtb_ltb; apply Z.ltb_lt; lia).
    replace (aget (pre ++ 48 :: c :: rest) (len pre + 1)) with (Ok c : outcome Z).
    2:{ replace (pre ++ 48 :: c :: rest) with ((pre ++ [48]) ++ c :: rest) by (rewrite <- app_assoc; reflexivity).
        replace (len pre + 1) with (len (pre ++ [48])) by (rewrite len_app, len_cons, len_nil; lia). symmetry. apply aget_mid. }
    cbn [bind].
    destruct ((c =? 98) || (c =? 66)) eqn:E1; [left; exists 2, c, rest; unfold prefix_base; rewrite E1; auto|].
    destruct ((c =? 111) || (c =? 79)) eqn:E2; [left; exists 8, c, rest; unfold prefix_base; rewrite E1, E2; auto|].
    destruct ((c =? 120) || (c =? 88)) eqn:E3; [left; exists 16, c, rest; unfold prefix_base; rewrite E1, E2, E3; auto|].
    right. split; auto. intros c' rest' E. inversion E; subst. unfold prefix_base. rewrite E1, E2, E3. auto.
Qed.

Lemma from_chars_pos n wide alnum data position : skip_leading wide alnum data (len data) = Ok position -> position < len data -> 0 <= position ->
  from_chars n wide alnum data (len data) =
  ('(base, position) <- detect_base data (len data) position ;; forU position (len data) (parse_body n base data) (zeros n)).
Proof.
  intros E H H0. unfold from_chars. replace (len data =? 0) with false by (symmetry; apply Z.eqb_neq; lia).
  rewrite E. cbn [bind]. replace (position =? len data) with false by (symmetry; apply Z.eqb_neq; lia). reflexivity.
Qed.

Lemma alnum_zero_char alnum : alnum_ok alnum -> alnum 48 = true. Proof. intros H. apply H. lia. Qed.

Lemma from_string_blank n wide alnum s : Forall (skippable wide alnum) s -> from_chars n wide alnum s (len s) = Ok (zeros n).
Proof.
  intros F. unfold from_chars. destruct (Z.eqb_spec (len s) 0); auto.
  pose proof (skip_leading_spec wide alnum s [] F (or_introl eq_refl)) as E. rewrite app_nil_r in E. rewrite E. cbn [bind].
  rewrite Z.eqb_refl. reflexivity.
Qed.
Lemma from_string_decimal n wide alnum pre c body : 0 <= n -> Forall (skippable wide alnum) pre -> 0 <= c -> alnum c = true ->
  (c = 48 -> forall d rest, body = d :: rest -> prefix_base d = None) ->
  yields n (from_chars n wide alnum (pre ++ c :: body) (len (pre ++ c :: body))) (dvalue 10 (digits_in 10 (c :: body)) mod modulus n).
Proof.
  intros Hn F Hc Ha Hp. pose proof (len_nonneg pre). pose proof (len_nonneg body).
  rewrite (from_chars_pos n wide alnum (pre ++ c :: body) (len pre)); [|apply skip_leading_spec; [auto|right; exists c, body; auto]|rewrite len_app, len_cons; lia|lia].
  destruct (detect_base_spec pre (c :: body) ltac:(congruence)) as [(b & d & rest & E & P & _) | (_ & ->)].
  - inversion E; subst. rewrite (Hp eq_refl d rest eq_refl) in P. congruence.
  - cbn [bind]. apply parse_loop; lia.
Qed.
Lemma from_string_prefixed n wide alnum pre d base body : 0 <= n -> Forall (skippable wide alnum) pre -> alnum_ok alnum ->
  prefix_base d = Some base ->
  yields n (from_chars n wide alnum (pre ++ 48 :: d :: body) (len (pre ++ 48 :: d :: body))) (dvalue base (digits_in base body) mod modulus n).
Proof.
  intros Hn F Ha Hp. pose proof (len_nonneg pre). pose proof (len_nonneg body).
  rewrite (from_chars_pos n wide alnum (pre ++ 48 :: d :: body) (len pre)); [|apply skip_leading_spec; auto; right; exists 48, (d :: body); split; [auto|split; [lia|apply Ha; lia]]|rewrite len_app, !len_cons; lia|lia].
  destruct (detect_base_spec pre (48 :: d :: body) ltac:(congruence)) as [(b & d' & rest & E & P & ->) | (N & _)].
  - inversion E; subst. assert (b = base) by congruence. subst b. cbn [bind].
    replace (pre ++ 48 :: d' :: rest) with ((pre ++ [48; d']) ++ rest) by (rewrite <- app_assoc; reflexivity).
    replace (len pre + 2) with (len (pre ++ [48; d'])) by (rewrite len_app, !len_cons, len_nil; lia).
    apply parse_loop; auto. unfold prefix_base in P.
    repeat match goal with H : (if ?b then _ else _) = _ |- _ => destruct b end; inversion P; lia.
  - rewrite (N d body eq_refl) in Hp. congruence.
Qed.
Lemma from_chars_ub n alnum pre c body : Forall (skippable false alnum) pre -> c < -1 ->
  from_chars n false alnum (pre ++ c :: body) (len (pre ++ c :: body)) = Err CtypeRange.
Proof.
  intros F Hc. unfold from_chars. pose proof (len_nonneg pre). pose proof (len_nonneg body). rewrite len_app, len_cons.
  replace (len pre + (1 + len body) =? 0) with false by (symmetry; apply Z.eqb_neq; lia).
  assert (E : skip_leading false alnum (pre ++ c :: body) (len pre + (1 + len body)) = Err CtypeRange); [|rewrite E; reflexivity].
  unfold skip_leading, forUx. rewrite Z.sub_0_r.
  assert (G : forall p q, pre = p ++ q -> forall cnt, (length q < cnt)%nat ->
     loopUx cnt (len p) (fun position (_ : unit) =>
    c <- aget (pre ++ c :: body) position ;;
    b <- is_alnum false alnum c ;;
    if b then Ok (@Exit unit Z position) else Ok (Next tt)) tt = Err CtypeRange).
  { intros p q. revert p. induction q as [|y q IH]; intros p EQ cnt Hcnt; (destruct cnt; [cbn in Hcnt; lia|]); cbn [loopUx].
    - rewrite app_nil_r in EQ. rewrite EQ, aget_mid. cbn [bind]. unfold is_alnum. replace (c <? -1) with true by (symmetry; apply Z.ltb_lt; lia). reflexivity.
    - rewrite EQ at 1. rewrite <- app_assoc. change ((y :: q) ++ c :: body) with (y :: (q ++ c :: body)). rewrite aget_mid. cbn [bind].
      rewrite is_alnum_skip. 2:{ rewrite EQ in F. apply Forall_app in F. destruct F as [_ F]. inversion F; auto. }
      cbn [bind]. replace (len p + 1) with (len (p ++ [y])) by (rewrite len_app, len_cons, len_nil; lia).
      apply IH; [rewrite <- app_assoc; auto|cbn in Hcnt; lia]. }
  change 0 with (len (@nil Z)). rewrite (G [] pre); auto. unfold len. lia.
Qed.

Lemma numeral_part_split alnum s : exists pre, s = pre ++ numeral_part alnum s /\ Forall (fun c => alnum c = false) pre /\
  (numeral_part alnum s = [] \/ exists c t, numeral_part alnum s = c :: t /\ alnum c = true).
Proof.
  induction s as [|c t (pre & E & F & H)]; cbn [numeral_part].
  - exists []. auto.
  - destruct (alnum c) eqn:A.
    + exists []. split; auto. split; auto. right. eauto.
    + exists (c :: pre). cbn [app]. rewrite <- E. split; auto.
Qed.
Lemma from_string_value n wide alnum s : 0 <= n -> alnum_ok alnum -> Forall (fun c => 0 <= c) s ->
  yields n (from_chars n wide alnum s (len s)) (string_value alnum s mod modulus n).
Proof.
  intros Hn Ha F. pose proof (modulus_pos n Hn) as Mp.
  destruct (numeral_part_split alnum s) as (pre & E & Fp & H). unfold string_value.
  set (body := numeral_part alnum s) in *. clearbody body. subst s. apply Forall_app in F. destruct F as [F1 F2].
  assert (SK : Forall (skippable wide alnum) pre).
  { apply Forall_forall. intros c Hc. rewrite Forall_forall in F1, Fp. specialize (F1 c Hc). specialize (Fp c Hc). unfold skippable. destruct wide; auto. }
  destruct H as [-> |(c & t & -> & Hc)].
  - rewrite app_nil_r. rewrite from_string_blank by auto. apply yields_ok; [apply wf_zeros; auto|]. rewrite bval_zeros. change (0 = 0 mod modulus n). rewrite Z.mod_0_l; lia.
  - inversion F2; subst. destruct (Z.eq_dec c 48) as [-> | N].
    + destruct t as [|d rest]; [apply from_string_decimal; auto; intros _ d rest E; inversion E|].
      destruct (prefix_base d) as [b|] eqn:P; [apply from_string_prefixed; auto|].
      apply from_string_decimal; auto. intros _ d' rest' E. inversion E; subst. auto.
    + assert (M : match c :: t with
        | 48 :: c0 :: rest => match prefix_base c0 with Some base => dvalue base (digits_in base rest) | None => dvalue 10 (digits_in 10 (48 :: c0 :: rest)) end
        | body => dvalue 10 (digits_in 10 body) end = dvalue 10 (digits_in 10 (c :: t))).
      { destruct c as [|p|p]; try reflexivity. do 6 (destruct p as [p|p|]; try reflexivity). congruence. }
      rewrite M. apply from_string_decimal; auto. congruence.
Qed.
Lemma string_value_nul alnum s : alnum 0 = false -> string_value alnum (s ++ [0]) = string_value alnum s.
Proof.
  intros A0. assert (NP : numeral_part alnum (s ++ [0]) = match numeral_part alnum s with [] => [] | b => b ++ [0] end).
  { induction s as [|c t IH]; cbn [numeral_part app]; [rewrite A0; reflexivity|]. destruct (alnum c); auto. }
  unfold string_value. rewrite NP. destruct (numeral_part alnum s) as [|c t]; auto. cbn [app].
  assert (DN : forall base s, digits_in base (s ++ [0]) = digits_in base s).
  { intros b l. rewrite digits_in_app. change (digits_in b [0]) with (@nil Z). apply app_nil_r. }
  destruct (Z.eq_dec c 48) as [-> | N].
  - destruct t as [|d rest]; [reflexivity|]. cbn [app]. destruct (prefix_base d); [rewrite DN; reflexivity|].
    change (48 :: d :: rest ++ [0]) with ((48 :: d :: rest) ++ [0]). rewrite DN. reflexivity.
  - assert (M : forall t, match c :: t with
        | 48 :: c0 :: rest => match prefix_base c0 with Some base => dvalue base (digits_in base rest) | None => dvalue 10 (digits_in 10 (48 :: c0 :: rest)) end
        | body => dvalue 10 (digits_in 10 body) end = dvalue 10 (digits_in 10 (c :: t))).
      { intros u. destruct c as [|p|p]; try reflexivity. do 6 (destruct p as [p|p|]; try reflexivity). congruence. }
    rewrite !M. change (c :: t ++ [0]) with ((c :: t) ++ [0]). rewrite DN. reflexivity.
Qed.
Lemma from_literal_value n wide alnum s : 0 <= n -> alnum_ok alnum -> alnum 0 = false -> Forall (fun c => 0 <= c) s ->
  yields n (from_literal n wide alnum s) (string_value alnum s mod modulus n).
Proof.
  intros Hn Ha A0 F. unfold from_literal. rewrite <- (string_value_nul alnum s A0).
  replace (len s + 1) with (len (s ++ [0])) by (rewrite len_app; reflexivity). apply from_string_value; auto.
  apply Forall_app. split; auto. constructor; [lia|constructor].
Qed.
