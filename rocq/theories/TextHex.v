(** * TextHex: hexadecimal output; getString as a whole *)
From Verif Require Export TextOut.
Open Scope Z_scope.

(** ** digits of a block *)
Lemma hex8_range x : Forall (fun d => 0 <= d < 16) (hex8 x).
Proof. unfold hex8. cbn [map]. repeat constructor; apply Z.mod_pos_bound; lia. Qed.
Lemma hex8_value x : 0 <= x < 2 ^ 32 -> dvalue 16 (hex8 x) = x.
Proof.
  intros H. unfold hex8, dvalue. cbn [map fold_left].
  repeat match goal with |- context [?b ^ ?e] => let r := eval compute in (b ^ e) in change (b ^ e) with r end.
  Z.div_mod_to_equations. lia.
Qed.
Lemma hex8_len x : len (hex8 x) = 8. Proof. reflexivity. Qed.
Lemma strip0_cons d t : strip0 (d :: t) = match t with [] => [d] | _ => if d =? 0 then strip0 t else d :: t end.
Proof. destruct t; reflexivity. Qed.
Lemma strip0_spec ds : ds <> [] -> exists k : nat, ds = repeat 0 k ++ strip0 ds.
Proof.
  induction ds as [|d t IH]; [congruence|]. intros _. rewrite strip0_cons. destruct t as [|e t]; [exists O; reflexivity|].
  destruct (Z.eqb_spec d 0) as [-> | ]; [|exists O; reflexivity]. destruct IH as (k & E); [congruence|].
  exists (S k). cbn [repeat app]. f_equal. exact E.
Qed.
Lemma strip0_value base ds : dvalue base (strip0 ds) = dvalue base ds.
Proof.
  induction ds as [|d t IH]; auto. rewrite strip0_cons. destruct t as [|e t]; auto.
  destruct (Z.eqb_spec d 0) as [-> | ]; [|reflexivity]. rewrite IH. rewrite (dvalue_cons base 0). lia.
Qed.
Lemma strip0_Forall P ds : Forall P ds -> Forall P (strip0 ds).
Proof.
  induction ds as [|d t IH]; auto. intros F. rewrite strip0_cons. destruct t as [|e t]; auto.
  destruct (d =? 0); auto. apply IH. inversion F; auto.
Qed.
Lemma strip0_head ds : dvalue 16 ds <> 0 -> exists d t, strip0 ds = d :: t /\ d <> 0.
Proof.
  induction ds as [|d t IH]; intros H; [change (dvalue 16 []) with 0 in H; lia|]. rewrite strip0_cons. destruct t as [|e t].
  - exists d, []. split; [reflexivity|]. intros ->. apply H. reflexivity.
  - destruct (Z.eqb_spec d 0) as [-> | ]; [|eauto]. apply IH. rewrite (dvalue_cons 16 0) in H. lia.
Qed.
Lemma strip0_len ds : len (strip0 ds) <= len ds.
Proof.
  induction ds as [|d t IH]; [cbn; lia|]. rewrite strip0_cons. destruct t as [|e t]; [lia|].
  destruct (d =? 0); [|lia]. rewrite len_cons. lia.
Qed.

(** ** top block *)
Lemma top_block_spec n a : wf n a -> 1 <= n ->
  exists L, top_block n a = Ok L /\ 0 <= L < n /\ (forall j, L < j -> znth a j = 0) /\ (L = 0 \/ znth a L <> 0).
Proof.
  intros Wa Hn. pose proof (wf_len _ _ Wa) as La. unfold top_block.
  match goal with |- context [forDx n 1 ?B _] =>
  destruct (forDx_spec (fun i (_ : unit) => forall j, i <= j -> znth a j = 0)
     (fun L => 0 <= L < n /\ (forall j, L < j -> znth a j = 0) /\ (L = 0 \/ znth a L <> 0)) n 1 B tt) as (x & E & P) end.
  - lia.
  - intros j Hj. apply znth_out. lia.
  - intros j [] Hj Hz. rewrite aget_ok by lia. cbn [bind]. destruct (Z.eqb_spec (znth a j) 0) as [Z0|Hne].
    + eexists; split; [reflexivity|]. cbn [step_post]. intros i Hi. destruct (Z.eq_dec i j) as [-> | ]; auto. apply Hz. lia.
    + eexists; split; [reflexivity|]. cbn [step_post]. conjs; try lia; auto. intros i Hi. apply Hz. lia.
  - rewrite E. cbn [bind]. destruct x as [ [] |L]; cbn [step_post] in P.
    + exists 0. conjs; auto; try lia. intros j Hj. apply P. lia.
    + exists L. auto.
Qed.

Definition hi (a : list Z) (j : Z) : Z := bval (skipn (Z.to_nat j) a).
Lemma hi_0 a : hi a 0 = bval a. Proof. reflexivity. Qed.
Lemma hi_step a j : 0 <= j < len a -> hi a j = znth a j + 2 ^ 32 * hi a (j + 1).
Proof.
  intros H. destruct (split_at a j H) as (p & x & t & -> & L). unfold hi. subst j.
  replace (Z.to_nat (len p + 1)) with (S (length p)) by (unfold len; lia). replace (Z.to_nat (len p)) with (length p) by (unfold len; lia).
  replace (skipn (S (length p)) (p ++ x :: t)) with t by (clear; induction p; cbn; auto).
  replace (skipn (length p) (p ++ x :: t)) with (x :: t) by (clear; induction p; cbn; auto). cbn [bval].
  pose proof (aget_mid p x t) as G. unfold aget in G. destruct in_range; [|congruence]. injection G as G. rewrite G. reflexivity.
Qed.
Lemma hi_zero n a j : wf n a -> 0 <= j -> (forall i, j <= i -> znth a i = 0) -> hi a j = 0.
Proof.
  intros W Hj Hz. unfold hi. destruct (Z_lt_le_dec j (len a)) as [H|H].
  2:{ rewrite skipn_all2; [reflexivity|unfold len in H; lia]. }
  destruct (split_len a j) as (p & t & -> & L); [lia|]. replace (Z.to_nat j) with (length p) by (unfold len in L; lia).
  rewrite skipn_app, skipn_all, Nat.sub_diag. cbn [skipn app].
  assert (F : Forall (fun x => x = 0) t).
  { apply Forall_forall. intros x Hx. apply In_nth with (d := 0) in Hx. destruct Hx as (i & Hi & <-).
    specialize (Hz (j + Z.of_nat i) ltac:(lia)). unfold znth in Hz. replace (j + Z.of_nat i <? 0) with false in Hz by (symmetry; apply Z.ltb_ge; lia).
    rewrite app_nth2 in Hz by (unfold len in L; lia). etransitivity; [|exact Hz]. f_equal. unfold len in L. lia. }
  clear -F. induction F; cbn [bval]; auto. subst. lia.
Qed.

(** The hexadecimal digits that the two hexadecimal printing loops produce. *)
Fixpoint low_hex (a : list Z) (j : nat) : list Z :=   (* blocks j-1 .. 0, eight digits each *)
  match j with O => [] | S j => hex8 (znth a (Z.of_nat j)) ++ low_hex a j end.
Lemma low_hex_len a j : len (low_hex a j) = 8 * Z.of_nat j.
Proof. induction j; cbn [low_hex]; [reflexivity|]. rewrite len_app, hex8_len, IHj. lia. Qed.
Definition hex_digits (a : list Z) (L : Z) : list Z := strip0 (hex8 (znth a L)) ++ low_hex a (Z.to_nat L).
Lemma low_hex_value n a j ds : wf n a -> (Z.of_nat j <= n) -> dvalue 16 ds = hi a (Z.of_nat j) -> dvalue 16 (ds ++ low_hex a j) = bval a.
Proof.
  intros W. revert ds. induction j as [|j IH]; intros ds Hj V; cbn [low_hex].
  - rewrite app_nil_r, V. apply hi_0.
  - rewrite app_assoc. apply IH; [lia|]. rewrite dvalue_app, hex8_len, hex8_value, V by (apply (wf_znth n); auto).
    rewrite (hi_step a (Z.of_nat j)) by (rewrite (wf_len _ _ W); lia).
    replace (Z.of_nat (S j)) with (Z.of_nat j + 1) by lia. change (16 ^ 8) with (2 ^ 32). lia.
Qed.
Lemma hex_numeral n a L upper : wf n a -> 1 <= n -> 0 <= L < n -> (forall j, L < j -> znth a j = 0) -> (L = 0 \/ znth a L <> 0) -> bval a <> 0 ->
  numeral upper 16 (bval a) (map (digit_char upper) (hex_digits a L)).
Proof.
  intros W Hn HL Hz HT Hv. exists (hex_digits a L).
  assert (V : dvalue 16 (strip0 (hex8 (znth a L))) = hi a L).
  { rewrite strip0_value, hex8_value by (apply (wf_znth n); auto). rewrite hi_step by (rewrite (wf_len _ _ W); lia).
    rewrite (hi_zero n a (L + 1)); auto; [lia|lia|]. intros i Hi. apply Hz. lia. }
  conjs; auto.
  - unfold hex_digits. apply Forall_app. split; [apply strip0_Forall, hex8_range|]. clear.
    induction (Z.to_nat L); cbn [low_hex]; auto. apply Forall_app. split; auto. apply hex8_range.
  - unfold hex_digits. apply (low_hex_value n); auto; [lia|]. rewrite Z2Nat.id by lia. auto.
  - right. unfold hex_digits. destruct (strip0_head (hex8 (znth a L))) as (d & t & E & Hd).
    + rewrite hex8_value by (apply (wf_znth n); auto). destruct HT as [-> | ]; auto.
      intros E. apply Hv. rewrite <- hi_0, hi_step by (rewrite (wf_len _ _ W); lia). rewrite E.
      rewrite (hi_zero n a (0 + 1)); auto; [lia|]. intros i Hi. apply Hz. lia.
    + rewrite E. exists d, (t ++ low_hex a (Z.to_nat L)). auto.
Qed.

(** ** printing blocks into a buffer with room *)
Definition u64_small z : 0 <= z < 2 ^ 64 -> u64 z = z. Proof. intros. unfold u64. apply Z.mod_small. auto. Qed.
Lemma print_block_fit wide wfail bufferSize text p old rest : 0 <= bufferSize < 2 ^ 64 -> len p + len text + 1 <= bufferSize ->
  len old = len text + 1 ->
  print_block wide wfail bufferSize text (p ++ old ++ rest, len p) = Ok (p ++ text ++ 0 :: rest, len p + len text).
Proof.
  intros HB Hfit Lo. pose proof (len_nonneg p). pose proof (len_nonneg text). unfold print_block. cbv zeta.
  rewrite (u64_small (bufferSize - len p)) by lia. rewrite (u64_small (len p + len text)) by lia.
  assert (S : set_chars (p ++ old ++ rest) (len p) (text ++ [0]) = Ok (p ++ text ++ 0 :: rest)).
  { rewrite set_chars_app by (rewrite len_app; change (len [0]) with 1; lia). rewrite <- (app_assoc text). reflexivity. }
  destruct wide.
  - replace (len text + 1 <=? bufferSize - len p) with true by (symmetry; apply Z.leb_le; lia). rewrite S. reflexivity.
  - replace (bufferSize - len p =? 0) with false by (symmetry; apply Z.eqb_neq; lia).
    rewrite firstn_all2 by (unfold len in *; lia). rewrite S. reflexivity.
Qed.

Lemma hex_loop_fit n wide upper wfail bufferSize a j : wf n a -> 0 <= bufferSize < 2 ^ 64 ->
  Z.of_nat j <= n -> forall p chars old rest, len old = 8 * Z.of_nat j -> len p + len chars + 8 * Z.of_nat j + 1 <= bufferSize ->
  loopD j (Z.of_nat j) (fun i st => x <- aget a i ;; print_block wide wfail bufferSize (fmt_08x upper x) st)
     (p ++ chars ++ 0 :: old ++ rest, len p + len chars) =
  Ok (p ++ (chars ++ map (digit_char upper) (low_hex a j)) ++ 0 :: rest, len p + len chars + 8 * Z.of_nat j).
Proof.
  intros W HB. induction j as [|j IH]; intros Hj p chars old rest Lo Hfit.
  - change (Z.of_nat 0) with 0 in *. destruct old; [|rewrite len_cons in Lo; pose proof (len_nonneg old); lia].
    cbn [loopD low_hex map app]. rewrite app_nil_r. do 2 f_equal. lia.
  - cbn [loopD low_hex]. replace (Z.of_nat (S j) - 1) with (Z.of_nat j) by lia. rewrite aget_ok by (rewrite (wf_len _ _ W); lia). cbn [bind].
    destruct (split_len old 8) as (o1 & o2 & -> & L1); [lia|]. rewrite len_app in Lo.
    (* the eight digits go over the NUL and the first seven of o1; the NUL over the eighth *)
    destruct (exists_last (l := o1)) as (o1' & y & ->); [intros ->; change (len (@nil Z)) with 0 in L1; lia|].
    replace (p ++ chars ++ 0 :: ((o1' ++ [y]) ++ o2) ++ rest) with ((p ++ chars) ++ (0 :: o1' ++ [y]) ++ (o2 ++ rest)).
    2:{ rewrite <- !app_assoc. cbn [app]. rewrite <- !app_assoc. reflexivity. }
    rewrite <- len_app. rewrite print_block_fit; auto.
    + cbn [bind]. unfold fmt_08x. replace (len (p ++ chars) + len (map (digit_char upper) (hex8 (znth a (Z.of_nat j))))) with (len p + len (chars ++ map (digit_char upper) (hex8 (znth a (Z.of_nat j))))).
      2:{ rewrite !len_app. lia. }
      replace ((p ++ chars) ++ map (digit_char upper) (hex8 (znth a (Z.of_nat j))) ++ 0 :: o2 ++ rest) with (p ++ (chars ++ map (digit_char upper) (hex8 (znth a (Z.of_nat j)))) ++ 0 :: o2 ++ rest).
      2:{ rewrite <- !app_assoc. reflexivity. }
      rewrite IH; [|lia|lia|rewrite len_app, len_map, hex8_len; lia].
      rewrite map_app, len_app, len_map, hex8_len. rewrite <- !app_assoc. f_equal. f_equal. rewrite len_app. lia.
    + rewrite len_app. unfold fmt_08x. rewrite len_map, hex8_len. lia.
    + unfold fmt_08x. rewrite len_map, hex8_len, len_cons. lia.
Qed.

Lemma len_rev {A} (l : list A) : len (rev l) = len l.
Proof. unfold len. rewrite rev_length. reflexivity. Qed.
Lemma prefix_text_len base : 0 <= len (prefix_text base) <= 2.
Proof. unfold prefix_text. repeat match goal with |- context [if ?b then _ else _] => destruct b end; unfold len; cbn; lia. Qed.

Lemma getString_fit cfg n wide upper wfail base a buffer bufferSize showBase s : wf n a -> bval a <> 0 -> base_ok base ->
  2 <= n \/ base = 16 -> 1 <= n -> 0 <= bufferSize < 2 ^ 64 -> bufferSize <= len buffer ->
  numeral (upper && (base =? 16)) base (bval a) s ->
  len (shown showBase base ++ s) + 1 <= bufferSize ->
  exists old rest, buffer = old ++ rest /\ len old = len (shown showBase base ++ s) + 1 /\
  getString cfg n wide upper wfail base a buffer bufferSize showBase =
    Ok (shown showBase base ++ s ++ 0 :: rest, len (shown showBase base ++ s) + 1).
Proof.
  intros W Hv Hb Hnb Hn HB HL HS Hfit. pose proof (bval_bound n _ W) as Bv.
  destruct (split_len buffer (len (shown showBase base ++ s) + 1)) as (old & rest & -> & Lo).
  { pose proof (len_nonneg (shown showBase base ++ s)). lia. }
  exists old, rest. conjs; auto. unfold getString. change gs_prefix with prefix_text.
  assert (HS' := HS). destruct HS' as (ds0 & Es & Fs & Vs & Ls).
  assert (1 <= len s). { subst s. rewrite len_map. destruct Ls as [-> | (d & t & -> & _)]; rewrite len_cons; match goal with |- context [len ?t] => pose proof (len_nonneg t) end; lia. }
  rewrite len_app in *. pose proof (len_nonneg (shown showBase base)).
  replace (bufferSize <? 2) with false by (symmetry; apply Z.ltb_ge; lia).
  set (pre := shown showBase base) in *.
  assert (exists o1 o2, old = o1 ++ o2 /\ len o1 = len pre /\ len o2 = len s + 1) as (o1 & o2 & -> & Lo1 & Lo2).
  { destruct (split_len old (len pre)) as (o1 & o2 & -> & L); [lia|]. exists o1, o2. rewrite len_app in Lo. conjs; auto; lia. }
  rewrite <- app_assoc in *.
  assert (PRE : (if showBase && (bufferSize >? 3) then b <- set_chars (o1 ++ o2 ++ rest) 0 (prefix_text base) ;; Ok (b, len (prefix_text base))
     else Ok (o1 ++ o2 ++ rest, 0)) = Ok (pre ++ o2 ++ rest, len pre)).
  { subst pre. unfold shown in *. destruct showBase; cbn [andb].
    - destruct (bufferSize >? 3) eqn:G.
      + pose proof (set_chars_app (prefix_text base) [] o1 (o2 ++ rest) Lo1) as SC. cbn [app] in SC. change (len (@nil Z)) with 0 in SC. rewrite SC. reflexivity.
      + rewrite Z.gtb_ltb in G. apply Z.ltb_ge in G.
        assert (P0 : prefix_text base = []).
        { destruct Hb as [-> |[-> |[-> | ->] ] ]; try reflexivity; exfalso; change (len (prefix_text 2)) with 2 in *; change (len (prefix_text 8)) with 2 in *; change (len (prefix_text 16)) with 2 in *; lia. }
        rewrite P0 in *. destruct o1; [reflexivity|]. rewrite len_cons in Lo1. change (len (@nil Z)) with 0 in Lo1. pose proof (len_nonneg o1). lia.
    - destruct o1; [reflexivity|]. rewrite len_cons in Lo1. change (len (@nil Z)) with 0 in Lo1. pose proof (len_nonneg o1). lia. }
  rewrite PRE. cbn [bind]. rewrite isZero_spec by auto. replace (bval a =? 0) with false by (symmetry; apply Z.eqb_neq; auto). cbn [bind].
  match goal with |- bind ?x _ = _ => assert (MID : x = Ok (match base =? 16 with true => pre ++ s ++ 0 :: rest | false => pre ++ s ++ [last o2 0] ++ rest end, len pre + len s)) end.
  { destruct (Z.eqb_spec base 16) as [-> | Hne].
    - destruct (top_block_spec n a W Hn) as (L & -> & HLn & Hz & HT). cbn [bind].
      rewrite aget_ok by (rewrite (wf_len _ _ W); lia). cbn [bind]. rewrite andb_true_r in HS.
      pose proof (hex_numeral n a L upper W Hn HLn Hz HT Hv) as HN. pose proof (numeral_unique upper 16 (bval a) _ _ ltac:(lia) HS HN) as ->.
      unfold hex_digits in *. rewrite map_app in *. rewrite len_app, !len_map, low_hex_len in *.
      set (t1 := strip0 (hex8 (znth a L))) in *. rewrite !Z2Nat.id in * by lia.
      pose proof (len_nonneg t1).
      destruct (split_len o2 (len t1 + 1)) as (q1 & q2 & -> & Lq1); [lia|]. rewrite len_app in Lo2.
      rewrite <- (app_assoc q1). rewrite print_block_fit; [|auto|unfold fmt_x; rewrite len_map; fold t1; lia|unfold fmt_x; rewrite len_map; fold t1; lia].
      cbn [bind]. unfold fmt_x. fold t1. rewrite len_map. unfold forD. rewrite Z.sub_0_r.
      replace L with (Z.of_nat (Z.to_nat L)) at 2 by lia.
      replace (len t1) with (len (map (digit_char upper) t1)) by apply len_map.
      rewrite (hex_loop_fit n wide upper wfail bufferSize a (Z.to_nat L) W HB ltac:(lia) pre (map (digit_char upper) t1) q2 rest).
      + rewrite len_map, Z2Nat.id by lia. f_equal. f_equal. lia.
      + lia.
      + rewrite len_map, Z2Nat.id by lia. lia.
    - assert (Hb10 : 2 <= base <= 10) by (destruct Hb as [-> |[-> |[-> | ->] ] ]; lia).
      rewrite andb_false_r in HS.
      destruct (digit_loop_spec cfg n base bufferSize pre (o2 ++ rest) a) as (k & od & rs & ES & Lod & -> & NZ & Hk & HE); [lia|auto|auto|rewrite !len_app in *; lia|].
      cbn [bind]. 
      assert (K : Z.of_nat k = len s).
      { destruct HE as [Z0|Full].
        - pose proof (led_numeral base (bval a) k ltac:(lia) ltac:(lia) Z0 NZ) as HN. rewrite (numeral_unique false base (bval a) _ _ ltac:(lia) HS HN). rewrite len_map, len_rev, led_len. auto.
        - exfalso. (* the numeral has fewer digits than the room *)
          destruct (digits_exist base (bval a) ltac:(lia) ltac:(lia)) as (k' & Z0' & NZ').
          pose proof (led_numeral base (bval a) k' ltac:(lia) ltac:(lia) Z0' NZ') as HN. pose proof (numeral_unique false base (bval a) _ _ ltac:(lia) HS HN) as E.
          assert (Z.of_nat k' = len s) by (rewrite E, len_map, len_rev, led_len; auto).
          apply (NZ (Z.of_nat k')); [lia|auto]. }
      assert (Z0 : bval a / base ^ Z.of_nat k = 0).
      { destruct HE as [Z0|Full]; auto. exfalso. lia. }
      pose proof (led_numeral base (bval a) k ltac:(lia) ltac:(lia) Z0 NZ) as HN. pose proof (numeral_unique false base (bval a) _ _ ltac:(lia) HS HN) as Es'.
      replace (len pre + Z.of_nat k - len pre) with (len (map (fun d => 48 + d) (led base (bval a) k))) by (rewrite len_map, led_len; lia).
      rewrite reverse_spec. cbn [bind]. rewrite <- map_rev. rewrite (map_chr base) by (try lia; apply Forall_rev, led_range; lia). rewrite <- Es'.
      rewrite K. f_equal. f_equal. f_equal. f_equal.
      (* the rest: o2 ++ rest = od ++ rs with len od = len s, len o2 = len s + 1 *)
      destruct (exists_last (l := o2)) as (o2' & y & ->); [intros ->; change (len (@nil Z)) with 0 in Lo2; lia|].
      rewrite last_last. rewrite <- app_assoc in ES. apply app_len_inv in ES; [destruct ES as [_ ES]; auto|]. rewrite len_app in Lo2. change (len [y]) with 1 in Lo2. lia. }
  rewrite MID. cbn [bind].
  replace (len pre + len s) with (len (pre ++ s)) by apply len_app.
  assert (FIN : exists y, (if base =? 16 then pre ++ s ++ 0 :: rest else pre ++ s ++ [last o2 0] ++ rest) = (pre ++ s) ++ y :: rest).
  { destruct (base =? 16); [exists 0|exists (last o2 0)]; rewrite <- !app_assoc; reflexivity. }
  destruct FIN as (y & ->). rewrite aset_mid. cbn [bind]. rewrite <- app_assoc. rewrite len_app.
  rewrite u64_small by lia. reflexivity.
Qed.
