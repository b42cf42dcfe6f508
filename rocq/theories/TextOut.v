(** * TextOut: proofs about getString and operator<< of TextModel *)
From Verif Require Export TextFacts.
Open Scope Z_scope.

(** ** numerals *)
Lemma numeral_lens base ds es : 2 <= base -> Forall (fun d => 0 <= d < base) ds -> Forall (fun d => 0 <= d < base) es ->
  len ds = len es -> dvalue base ds = dvalue base es -> ds = es.
Proof.
  intros Hb. revert es. induction ds as [|d ds IH]; intros [|e es] Fd Fe L V; auto.
  - exfalso. rewrite len_cons in L. change (len (@nil Z)) with 0 in L. pose proof (len_nonneg es). lia.
  - exfalso. rewrite len_cons in L. change (len (@nil Z)) with 0 in L. pose proof (len_nonneg ds). lia.
  - rewrite !len_cons in L. inversion Fd; inversion Fe; subst.
    pose proof (dvalue_bound base ds ltac:(lia) H2). pose proof (dvalue_bound base es ltac:(lia) H6).
    rewrite !dvalue_cons in V. assert (L' : len ds = len es) by lia. rewrite L' in *.
    assert (d = e) by nia. subst. f_equal. apply IH; auto. lia.
Qed.
Lemma numeral_low base d t : 2 <= base -> Forall (fun d => 0 <= d < base) (d :: t) -> d <> 0 -> base ^ len t <= dvalue base (d :: t).
Proof.
  intros Hb F Hd. inversion F; subst. rewrite dvalue_cons. pose proof (dvalue_bound base t ltac:(lia) H2).
  assert (0 < base ^ len t) by (apply Z.pow_pos_nonneg; [lia|apply len_nonneg]). nia.
Qed.
Lemma numeral_unique upper base v s t : 2 <= base -> numeral upper base v s -> numeral upper base v t -> s = t.
Proof.
  intros Hb (ds & -> & Fd & Vd & Ld) (es & -> & Fe & Ve & Le). f_equal.
  assert (X : forall d t, Forall (fun d => 0 <= d < base) (d :: t) -> d <> 0 -> 0 < dvalue base (d :: t)).
  { intros d t F N. pose proof (numeral_low base d t Hb F N). assert (0 < base ^ len t) by (apply Z.pow_pos_nonneg; [lia|apply len_nonneg]). lia. }
  destruct Ld as [-> | (d & t & -> & Nd)], Le as [-> | (e & u & -> & Ne)]; auto.
  - specialize (X e u Fe Ne). change (dvalue base [0]) with 0 in Vd. lia.
  - specialize (X d t Fd Nd). change (dvalue base [0]) with 0 in Ve. lia.
  - apply (numeral_lens base); auto; [|lia]. rewrite !len_cons.
    pose proof (numeral_low base d t Hb Fd Nd). pose proof (numeral_low base e u Hb Fe Ne).
    pose proof (dvalue_bound base (d :: t) ltac:(lia) Fd) as B1. pose proof (dvalue_bound base (e :: u) ltac:(lia) Fe) as B2. rewrite len_cons in B1, B2.
    pose proof (len_nonneg t). pose proof (len_nonneg u).
    destruct (Z.lt_trichotomy (len t) (len u)) as [T|[T|T] ]; [|lia|].
    + assert (base ^ (1 + len t) <= base ^ len u) by (apply Z.pow_le_mono_r; lia). lia.
    + assert (base ^ (1 + len u) <= base ^ len t) by (apply Z.pow_le_mono_r; lia). lia.
Qed.

(** Little-endian digits. *)
Fixpoint led (base v : Z) (k : nat) : list Z :=
  match k with O => [] | S k => v mod base :: led base (v / base) k end.
Lemma led_length base k : forall v, length (led base v k) = k.
Proof. induction k; intros; cbn; auto. Qed.
Lemma led_len base v k : len (led base v k) = Z.of_nat k.
Proof. unfold len. rewrite led_length. reflexivity. Qed.
Lemma led_snoc base k : 2 <= base -> forall v, led base v (S k) = led base v k ++ [v / base ^ Z.of_nat k mod base].
Proof.
  intros Hb. induction k as [|k IH]; intros v.
  - cbn [led app]. change (Z.of_nat 0) with 0. rewrite Z.pow_0_r, Z.div_1_r. reflexivity.
  - change (led base v (S (S k))) with (v mod base :: led base (v / base) (S k)). rewrite IH.
    change (led base v (S k)) with (v mod base :: led base (v / base) k). cbn [app]. do 4 f_equal.
    rewrite Nat2Z.inj_succ, Z.pow_succ_r by lia. apply Z.div_div; [lia|apply Z.pow_pos_nonneg; lia].
Qed.
Lemma led_range base k : 2 <= base -> forall v, Forall (fun d => 0 <= d < base) (led base v k).
Proof. intros Hb. induction k; intros v; cbn [led]; constructor; auto. apply Z.mod_pos_bound; lia. Qed.
Lemma led_value base k : 2 <= base -> forall v, dvalue base (rev (led base v k)) = v mod base ^ Z.of_nat k.
Proof.
  intros Hb. induction k as [|k IH]; intros v.
  - cbn [led rev]. change (Z.of_nat 0) with 0. rewrite Z.pow_0_r, Z.mod_1_r. reflexivity.
  - cbn [led rev]. rewrite dvalue_app, dvalue_one, IH. change (len [v mod base]) with 1. rewrite Z.pow_1_r.
    rewrite Nat2Z.inj_succ, Z.pow_succ_r by lia. assert (0 < base ^ Z.of_nat k) by (apply Z.pow_pos_nonneg; lia).
    rewrite Z.rem_mul_r by lia. lia.
Qed.
Lemma led_numeral base v k : 2 <= base -> 0 < v -> v / base ^ Z.of_nat k = 0 -> (forall j, 0 <= j < Z.of_nat k -> v / base ^ j <> 0) ->
  numeral false base v (map (digit_char false) (rev (led base v k))).
Proof.
  intros Hb Hv Z0 NZ. exists (rev (led base v k)). conjs; auto.
  - apply Forall_rev. apply led_range; auto.
  - rewrite led_value by auto. apply Z.mod_small. split; [lia|]. apply Z.div_small_iff in Z0; [lia|]. assert (0 < base ^ Z.of_nat k) by (apply Z.pow_pos_nonneg; lia). lia.
  - right. destruct k as [|k]. { change (Z.of_nat 0) with 0 in Z0. rewrite Z.pow_0_r, Z.div_1_r in Z0. lia. }
    rewrite led_snoc by auto. rewrite rev_app_distr. cbn [rev app]. eexists _, _. split; [reflexivity|].
    specialize (NZ (Z.of_nat k) ltac:(lia)). rewrite Nat2Z.inj_succ, Z.pow_succ_r in Z0 by lia. rewrite Z.mul_comm in Z0.
    rewrite <- Z.div_div in Z0; [|apply Z.pow_nonzero; lia|lia].
    rewrite Z.mod_small; auto. split; [apply Z.div_pos; [lia|apply Z.pow_pos_nonneg; lia]|].
    apply Z.div_small_iff in Z0; lia.
Qed.
Lemma digits_exist base v : 2 <= base -> 0 <= v -> exists k : nat, v / base ^ Z.of_nat k = 0 /\ (forall j, 0 <= j < Z.of_nat k -> v / base ^ j <> 0).
Proof.
  intros Hb Hv. assert (E : exists k : nat, v / base ^ Z.of_nat k = 0).
  { exists (Z.to_nat (v + 1)). apply Z.div_small. split; auto. rewrite Z2Nat.id by lia. pose proof (Z.pow_gt_lin_r base (v + 1) ltac:(lia) ltac:(lia)). lia. }
  destruct E as (m & E). assert (G : forall j, (j <= m)%nat -> (exists k : nat, v / base ^ Z.of_nat k = 0 /\ (forall j, 0 <= j < Z.of_nat k -> v / base ^ j <> 0)) \/ forall i, 0 <= i < Z.of_nat j -> v / base ^ i <> 0).
  { induction j; intros Hj; [right; intros; lia|]. destruct IHj as [H|H]; [lia|auto|].
    destruct (Z.eq_dec (v / base ^ Z.of_nat j) 0); [left; exists j; auto|]. right. intros i Hi.
    destruct (Z.eq_dec i (Z.of_nat j)) as [-> | ]; auto. apply H. lia. }
  destruct (G m (Nat.le_refl m)); auto. exists m. auto.
Qed.
Lemma numeral_exists upper base v : 2 <= base -> 0 <= v -> exists s, numeral upper base v s.
Proof.
  intros Hb Hv. destruct (Z.eq_dec v 0) as [-> | Hne].
  - exists (map (digit_char upper) [0]), [0]. conjs; auto. constructor; auto. lia.
  - destruct (digits_exist base v Hb Hv) as (k & Z0 & NZ).
    destruct (led_numeral base v k Hb ltac:(lia) Z0 NZ) as (ds & _ & H). exists (map (digit_char upper) ds), ds. auto.
Qed.
Lemma map_chr base l : base <= 10 -> Forall (fun d => 0 <= d < base) l -> map (fun d => 48 + d) l = map (digit_char false) l.
Proof.
  intros Hb F. apply map_ext_in. intros d Hd. rewrite Forall_forall in F. specialize (F d Hd). unfold digit_char.
  replace (d <? 10) with true by (symmetry; apply Z.ltb_lt; lia). reflexivity.
Qed.

(** ** the digit loop *)
Definition digit_body (cfg : config) (n base : Z) : Z -> list Z * list Z -> outcome (step (list Z * list Z) (list Z * Z)) :=
  fun position '(buffer, copy) =>
    z <- isZero n copy ;;
    if z : bool then Ok (Exit (buffer, position)) else
    d <- from_unsigned n (zeros n) base ;;
    '(quotient, remainder) <- divide cfg n copy d ;;
    r <- integralCast uint8 remainder ;;
    b <- aset buffer position (48 + r) ;;
    Ok (Next (b, quotient)).

Lemma digit_step cfg n base copy : 2 <= n -> 2 <= base <= 10 -> wf n copy ->
  exists q, wf n q /\ bval q = bval copy / base /\ forall buffer position, 
  digit_body cfg n base position (buffer, copy) =
  if bval copy =? 0 then Ok (Exit (buffer, position)) else b <- aset buffer position (48 + bval copy mod base) ;; Ok (Next (b, q)).
Proof.
  intros Hn Hb W. pose proof (bval_bound n _ W) as B.
  assert (M : 2 ^ 64 <= modulus n). { unfold modulus. apply Z.pow_le_mono_r; lia. }
  destruct (from_unsigned_exact n base) as (d & Ed & Wd & Bd); [lia|lia|lia|].
  destruct (divide_pos cfg n copy d) as (q & r & Eq & (Wq & Bq) & (Wr & Br)); [lia|auto|auto|lia|].
  exists q. conjs; auto; [congruence|]. intros buffer position. unfold digit_body. rewrite isZero_spec by auto. cbn [bind].
  destruct (bval copy =? 0); auto. rewrite Ed. cbn [bind]. rewrite Eq. cbn [bind].
  rewrite (integralCast_spec _ n) by (auto; lia). cbn [bind]. rewrite Br, Bd.
  pose proof (Z.mod_pos_bound (bval copy) base ltac:(lia)).
  rewrite (Z.mod_small (bval copy mod base) (2 ^ 64)) by lia.
  replace (icast uint8 (bval copy mod base)) with (bval copy mod base); auto.
  unfold icast. cbn [isigned iwidth uint8 andb]. rewrite (Z.mod_small (bval copy mod base) (2 ^ 8)); lia.
Qed.

Lemma digit_loop_spec cfg n base bufferSize pre suf a : 2 <= n -> 2 <= base <= 10 -> wf n a -> len pre <= bufferSize <= len (pre ++ suf) ->
  exists (k : nat) old rest, suf = old ++ rest /\ len old = Z.of_nat k /\
    digit_loop cfg n base bufferSize (pre ++ suf) (len pre) a = Ok (pre ++ map (fun d => 48 + d) (led base (bval a) k) ++ rest, len pre + Z.of_nat k) /\
    (forall j, 0 <= j < Z.of_nat k -> bval a / base ^ j <> 0) /\ len pre + Z.of_nat k <= bufferSize /\
    (bval a / base ^ Z.of_nat k = 0 \/ len pre + Z.of_nat k = bufferSize).
Proof.
  intros Hn Hb W Hs. pose proof (bval_bound n _ W) as Bv. unfold digit_loop.
  change (fun position '(buffer, copy) => z <- isZero n copy ;;
    if z : bool then Ok (Exit (buffer, position)) else
    d <- from_unsigned n (zeros n) base ;;
    '(quotient, remainder) <- divide cfg n copy d ;;
    r <- integralCast uint8 remainder ;;
    b <- aset buffer position (48 + r) ;;
    Ok (Next (b, quotient))) with (digit_body cfg n base).
  destruct (forUx_spec (fun i '(b, copy) => exists (k : nat) old rest, suf = old ++ rest /\ len old = Z.of_nat k /\ i = len pre + Z.of_nat k /\
       b = pre ++ map (fun d => 48 + d) (led base (bval a) k) ++ rest /\ wf n copy /\ bval copy = bval a / base ^ Z.of_nat k /\
       (forall j, 0 <= j < Z.of_nat k -> bval a / base ^ j <> 0))
     (fun '(b, i) => exists (k : nat) old rest, suf = old ++ rest /\ len old = Z.of_nat k /\ i = len pre + Z.of_nat k /\
       b = pre ++ map (fun d => 48 + d) (led base (bval a) k) ++ rest /\ bval a / base ^ Z.of_nat k = 0 /\ i <= bufferSize /\
       (forall j, 0 <= j < Z.of_nat k -> bval a / base ^ j <> 0))
     (len pre) bufferSize (digit_body cfg n base) (pre ++ suf, a)) as (x & E & P).
  - lia.
  - exists O, [], suf. change (Z.of_nat 0) with 0. rewrite Z.pow_0_r, Z.div_1_r. cbn [led map app]. conjs; auto; try (intros; lia).
  - intros i (b & copy) Hi (k & old & rest & -> & Lo & -> & -> & Wc & Vc & NZ).
    destruct (digit_step cfg n base copy Hn Hb Wc) as (q & Wq & Vq & ->).
    destruct (Z.eqb_spec (bval copy) 0) as [Z0|Hne].
    + eexists. split; [reflexivity|]. cbn [step_post]. exists k, old, rest. conjs; auto; [congruence|lia].
    + destruct rest as [|y rest]. { exfalso. rewrite app_nil_r, len_app in Hs. lia. }
      rewrite app_assoc. replace (len pre + Z.of_nat k) with (len (pre ++ map (fun d => 48 + d) (led base (bval a) k))) by (rewrite len_app, len_map, led_len; auto).
      rewrite aset_mid. cbn [bind]. eexists. split; [reflexivity|]. cbn [step_post].
      exists (S k), (old ++ [y]), rest. rewrite led_snoc by lia.
      assert (Pk : 0 < base ^ Z.of_nat k) by (apply Z.pow_pos_nonneg; lia).
      conjs.
      * rewrite <- app_assoc. reflexivity.
      * rewrite len_app, len_cons, Lo. change (len (@nil Z)) with 0. lia.
      * try (rewrite len_app, len_map, led_len). lia.
      * rewrite map_app. cbn [map]. rewrite <- !app_assoc. cbn [app]. rewrite Vc. reflexivity.
      * auto.
      * rewrite Vq, Vc. rewrite Nat2Z.inj_succ, Z.pow_succ_r, Z.mul_comm by lia. apply Z.div_div; lia.
      * intros j Hj. destruct (Z.eq_dec j (Z.of_nat k)) as [-> | ]; [congruence|]. apply NZ. lia.
  - rewrite E. cbn [bind]. destruct x as [ [b copy] | [b i] ]; cbn [step_post] in P.
    + destruct P as (k & old & rest & -> & Lo & Ei & -> & Wc & Vc & NZ). exists k, old, rest. conjs; auto; [|lia].
      do 2 f_equal. lia.
    + destruct P as (k & old & rest & -> & Lo & Ei & -> & Vc & Hi & NZ). exists k, old, rest. conjs; auto; [|lia].
      do 2 f_equal. lia.
Qed.

(** ** reversing *)
Lemma reverse_spec pre ds suf : reverse_digits (pre ++ ds ++ suf) (len pre) (len ds) = Ok (pre ++ rev ds ++ suf).
Proof.
  unfold reverse_digits. pose proof (len_nonneg ds).
  match goal with |- forU 0 ?h ?B ?s = _ =>
  destruct (forU_spec (fun i b => (exists L m R, ds = L ++ m ++ R /\ len L = i /\ len R = i /\ b = pre ++ rev R ++ m ++ rev L ++ suf) \/
      (2 * i > len ds /\ b = pre ++ rev ds ++ suf)) 0 h B s) as (r & E & P) end.
  - apply Z.div_pos; lia.
  - left. exists [], ds, []. rewrite app_nil_r. conjs; auto.
  - intros i b Hi [(L & m & R & -> & LL & LR & ->) | (H2 & ->)].
    2:{ exfalso. assert (2 * ((len ds + 1) / 2) <= len ds + 1) by (apply Z.mul_div_le; lia). lia. }
    rewrite !len_app in *. assert (2 * ((len L + (len m + len R) + 1) / 2) <= len L + (len m + len R) + 1) by (apply Z.mul_div_le; lia).
    destruct m as [|x m]. { exfalso. change (len (@nil Z)) with 0 in *. lia. }
    destruct (exists_last (l := x :: m)) as (m' & y & Em); [congruence|].
    assert (G1 : aget (pre ++ rev R ++ (x :: m) ++ rev L ++ suf) (len pre + i) = Ok x).
    { rewrite app_assoc. replace (len pre + i) with (len (pre ++ rev R)) by (rewrite len_app; unfold len in *; rewrite rev_length; lia).
      cbn [app]. apply aget_mid. }
    rewrite G1. cbn [bind].
    assert (G2 : aget (pre ++ rev R ++ (x :: m) ++ rev L ++ suf) (len pre + (len L + (len (x :: m) + len R)) - 1 - i) = Ok y).
    { rewrite Em. replace (pre ++ rev R ++ (m' ++ [y]) ++ rev L ++ suf) with (((pre ++ rev R) ++ m') ++ y :: (rev L ++ suf)) by (rewrite <- !app_assoc; reflexivity).
      replace (len pre + (len L + (len (m' ++ [y]) + len R)) - 1 - i) with (len ((pre ++ rev R) ++ m')); [apply aget_mid|].
      rewrite !len_app. change (len [y]) with 1. unfold len in *. rewrite rev_length. lia. }
    rewrite G2. cbn [bind].
    assert (S1 : aset (pre ++ rev R ++ (x :: m) ++ rev L ++ suf) (len pre + i) y = Ok (pre ++ rev R ++ (y :: m) ++ rev L ++ suf)).
    { rewrite app_assoc. replace (len pre + i) with (len (pre ++ rev R)) by (rewrite len_app; unfold len in *; rewrite rev_length; lia).
      cbn [app]. rewrite aset_mid. rewrite <- app_assoc. reflexivity. }
    rewrite S1. cbn [bind].
    destruct m' as [|z m'].
    + (* single middle element *)
      cbn [app] in Em. inversion Em; subst x m. exists (pre ++ rev R ++ [y] ++ rev L ++ suf). split.
      * change (len [y]) with 1. replace (len pre + (len L + (1 + len R)) - 1 - i) with (len (pre ++ rev R)) by (rewrite len_app; unfold len in *; rewrite rev_length; lia).
        rewrite app_assoc. cbn [app]. rewrite aset_mid. rewrite <- app_assoc. reflexivity.
      * right. split; [change (len [y]) with 1; lia|]. rewrite !rev_app_distr. cbn [rev app]. rewrite <- !app_assoc. reflexivity.
    + cbn [app] in Em. inversion Em; subst z m. exists (pre ++ rev R ++ (y :: m' ++ [x]) ++ rev L ++ suf). split.
      * replace (pre ++ rev R ++ (y :: m' ++ [y]) ++ rev L ++ suf) with ((pre ++ rev R ++ y :: m') ++ y :: (rev L ++ suf)).
        2:{ rewrite <- !app_assoc. cbn [app]. rewrite <- !app_assoc. reflexivity. }
        replace (len pre + (len L + (len (x :: m' ++ [y]) + len R)) - 1 - i) with (len (pre ++ rev R ++ y :: m')).
        2:{ rewrite !len_app, !len_cons, len_app. unfold len in *. rewrite rev_length. cbn [length]. lia. }
        rewrite aset_mid. f_equal. rewrite <- !app_assoc. cbn [app]. rewrite <- !app_assoc. reflexivity.
      * left. exists (L ++ [x]), m', (y :: R). conjs.
        -- rewrite <- !app_assoc. cbn [app]. rewrite <- !app_assoc. reflexivity.
        -- rewrite len_app. change (len [x]) with 1. lia.
        -- rewrite len_cons. lia.
        -- rewrite rev_app_distr. cbn [rev app]. rewrite <- !app_assoc. cbn [app]. reflexivity.
  - rewrite E. f_equal. destruct P as [(L & m & R & -> & LL & LR & ->) | (H2 & ->)]; auto.
    rewrite !len_app in *. assert (2 * ((len L + (len m + len R) + 1) / 2) >= len L + (len m + len R)).
    { pose proof (Z.div_mod (len L + (len m + len R) + 1) 2 ltac:(lia)). pose proof (Z.mod_pos_bound (len L + (len m + len R) + 1) 2 ltac:(lia)). lia. }
    destruct m as [|x m]; [|exfalso; rewrite len_cons in *; pose proof (len_nonneg m); lia].
    cbn [app]. rewrite rev_app_distr, <- app_assoc. reflexivity.
Qed.
