(** * MachFacts: the machine-level functions of MachModel.v compute the same as those of AeuModel.v *)
From Verif Require Import Lib AeuModel MachModel AeuAccess.
Open Scope Z_scope.

Lemma u64s z : 0 <= z < 2 ^ 64 -> u64 z = z.
Proof. intros. unfold u64. apply Z.mod_small. auto. Qed.
Lemma count_ok w k : 0 <= k < w -> w_count w k = Ok tt.
Proof. intros. unfold w_count. replace (0 <=? k) with true by lia. replace (k <? w) with true by lia. reflexivity. Qed.

Lemma bind_ext {A B} (x y : outcome A) (f g : A -> outcome B) : x = y -> (forall a, y = Ok a -> f a = g a) -> bind x f = bind y g.
Proof. intros -> H. destruct y; cbn [bind]; auto. Qed.

Lemma loopUx_ext {S R} (f g : Z -> S -> outcome (step S R)) k : forall i s, (forall j s, i <= j < i + Z.of_nat k -> f j s = g j s) -> loopUx k i f s = loopUx k i g s.
Proof.
  induction k as [|k IH]; intros i s H; cbn [loopUx]; auto. rewrite H by lia. apply bind_ext; auto. intros [s'|r] _; auto. apply IH. intros. apply H. lia.
Qed.
Lemma loopDx_ext {S R} (f g : Z -> S -> outcome (step S R)) k : forall i s, (forall j s, i - Z.of_nat k <= j < i -> f j s = g j s) -> loopDx k i f s = loopDx k i g s.
Proof.
  induction k as [|k IH]; intros i s H; cbn [loopDx]; auto. rewrite H by lia. apply bind_ext; auto. intros [s'|r] _; auto. apply IH. intros. apply H. lia.
Qed.
Lemma forUx_ext {S R} (f g : Z -> S -> outcome (step S R)) lo hi s : (forall j s, lo <= j < hi -> f j s = g j s) -> forUx lo hi f s = forUx lo hi g s.
Proof. intros H. apply loopUx_ext. intros. apply H. lia. Qed.
Lemma forDx_ext {S R} (f g : Z -> S -> outcome (step S R)) hi lo s : (forall j s, lo <= j < hi -> f j s = g j s) -> forDx hi lo f s = forDx hi lo g s.
Proof. intros H. apply loopDx_ext. intros. apply H. lia. Qed.
Lemma loopU_ext {S} (f g : Z -> S -> outcome S) k : forall i s, (forall j s, i <= j < i + Z.of_nat k -> f j s = g j s) -> loopU k i f s = loopU k i g s.
Proof. induction k as [|k IH]; intros i s H; cbn [loopU]; auto. rewrite H by lia. apply bind_ext; auto. intros s' _. apply IH. intros. apply H. lia. Qed.
Lemma loopD_ext {S} (f g : Z -> S -> outcome S) k : forall i s, (forall j s, i - Z.of_nat k <= j < i -> f j s = g j s) -> loopD k i f s = loopD k i g s.
Proof. induction k as [|k IH]; intros i s H; cbn [loopD]; auto. rewrite H by lia. apply bind_ext; auto. intros s' _. apply IH. intros. apply H. lia. Qed.
Lemma whileF_ext {S R} (f g : S -> outcome (step S R)) k : forall s, (forall s, f s = g s) -> whileF k f s = whileF k g s.
Proof. induction k as [|k IH]; intros s H; cbn [whileF]; auto. rewrite H. apply bind_ext; auto. intros [s'|r] _; auto. Qed.

(** ** The loops *)
Lemma w_for_loop {S R} w cond (body : Z -> S -> outcome (step S R)) hi k : forall F i s, 0 <= i -> hi < 2 ^ w ->
  (forall j, i <= j <= Z.max i hi -> cond j = Ok (j <? hi)) -> k = Z.to_nat (hi - i) -> (k < F)%nat ->
  w_for F w cond body i s = loopUx k i body s.
Proof.
  induction k as [|k IH]; intros F i s Hi Hw C K HF; (destruct F as [|F]; [lia|]); cbn [w_for loopUx]; rewrite C by lia; cbn [bind].
  - replace (i <? hi) with false by lia. reflexivity.
  - replace (i <? hi) with true by lia. apply bind_ext; auto. intros [s'|r] _; auto. rewrite Z.mod_small by lia. apply IH; try lia. intros. apply C. lia.
Qed.
Lemma w_down_loop {S R} lo (body : Z -> S -> outcome (step S R)) k : forall F i s, 0 <= lo -> i < 2 ^ 64 ->
  k = Z.to_nat (i - lo) -> (k < F)%nat -> w_down F lo body i s = loopDx k i body s.
Proof.
  induction k as [|k IH]; intros F i s Hi Hw K HF; (destruct F as [|F]; [lia|]); cbn [w_down loopDx].
  - replace (i >? lo) with false by lia. reflexivity.
  - replace (i >? lo) with true by lia. rewrite u64s by lia. apply bind_ext; auto. intros [s'|r] _; auto. apply IH; lia.
Qed.
Lemma loopUx_go {S R} (body : Z -> S -> outcome S) k : forall i s, loopUx k i (w_go (R := R) body) s = (x <- loopU k i body s ;; Ok (Next x)).
Proof. induction k as [|k IH]; intros i s; cbn [loopUx loopU]; auto. unfold w_go at 1. destruct (body i s); cbn [bind]; auto. Qed.
Lemma loopDx_go {S R} (body : Z -> S -> outcome S) k : forall i s, loopDx k i (w_go (R := R) body) s = (x <- loopD k i body s ;; Ok (Next x)).
Proof. induction k as [|k IH]; intros i s; cbn [loopDx loopD]; auto. unfold w_go at 1. destruct (body (i - 1) s); cbn [bind]; auto. Qed.

Lemma w_forU_eq {S} F lo hi (f g : Z -> S -> outcome S) s : 0 <= lo -> hi < 2 ^ 64 -> (Z.to_nat (hi - lo) < F)%nat ->
  (forall i s, lo <= i < hi -> f i s = g i s) -> w_forU F lo hi f s = forU lo hi g s.
Proof.
  intros H1 H2 H3 E. unfold w_forU, forU. rewrite (w_for_loop 64 _ _ hi (Z.to_nat (hi - lo))) by auto. rewrite loopUx_go.
  rewrite (loopU_ext f g) by (intros; apply E; lia). destruct (loopU _ _ _ _); reflexivity.
Qed.
Lemma w_forD_eq {S} F hi lo (f g : Z -> S -> outcome S) s : 0 <= lo -> hi < 2 ^ 64 -> (Z.to_nat (hi - lo) < F)%nat ->
  (forall i s, lo <= i < hi -> f i s = g i s) -> w_forD F hi lo f s = forD hi lo g s.
Proof.
  intros H1 H2 H3 E. unfold w_forD, forD. rewrite (w_down_loop lo _ (Z.to_nat (hi - lo))) by auto. rewrite loopDx_go.
  rewrite (loopD_ext f g) by (intros; apply E; lia). destruct (loopD _ _ _ _); reflexivity.
Qed.
Lemma w_forUx_eq {S R} F lo hi (f g : Z -> S -> outcome (step S R)) s : 0 <= lo -> hi < 2 ^ 64 -> (Z.to_nat (hi - lo) < F)%nat ->
  (forall i s, lo <= i < hi -> f i s = g i s) -> w_for F 64 (fun i => Ok (i <? hi)) f lo s = forUx lo hi g s.
Proof.
  intros H1 H2 H3 E. unfold forUx. rewrite (w_for_loop 64 _ _ hi (Z.to_nat (hi - lo))) by auto. apply loopUx_ext. intros. apply E. lia.
Qed.
Lemma w_forDx_eq {S R} F hi lo (f g : Z -> S -> outcome (step S R)) s : 0 <= lo -> hi < 2 ^ 64 -> (Z.to_nat (hi - lo) < F)%nat ->
  (forall i s, lo <= i < hi -> f i s = g i s) -> w_down F lo f hi s = forDx hi lo g s.
Proof.
  intros H1 H2 H3 E. unfold forDx. rewrite (w_down_loop lo _ (Z.to_nat (hi - lo))) by auto. apply loopDx_ext. intros. apply E. lia.
Qed.

(** The widths of C++ programs, and enough iterations for every counted loop. *)
Definition room (F : nat) (n : Z) : Prop := 1 <= n /\ 32 * n < 2 ^ 64 /\ (Z.to_nat (32 * n) + 9 < F)%nat.

Ltac lp := first [apply w_forU_eq | apply w_forD_eq | apply w_forUx_eq | apply w_forDx_eq]; try (unfold room in *; lia).

(** ** Function by function *)
Lemma w_addLine_eq F n a b : room F n -> w_addLine F n a b = addLine n a b.
Proof. intros H. unfold w_addLine, addLine. lp. auto. Qed.
Lemma w_makeComplement_eq F n a : room F n -> w_makeComplement F n a = makeComplement n a.
Proof. intros H. unfold w_makeComplement, makeComplement. lp. auto. Qed.
Lemma w_from_unsigned_eq F n j v : room F n -> w_from_unsigned F n j v = from_unsigned n j v.
Proof.
  intros H. unfold w_from_unsigned, from_unsigned. destruct (negb (v =? 0)); auto. apply bind_ext; auto. lp. auto.
Qed.
Lemma w_neg_eq F n a : room F n -> w_neg F n a = op_neg n a.
Proof. intros H. unfold w_neg, op_neg. now rewrite w_makeComplement_eq. Qed.
Lemma w_inc_eq F n a : room F n -> w_inc F n a = op_inc n a.
Proof. intros H. unfold w_inc, op_inc. apply bind_ext; [lp; auto|]. intros [x|x] _; reflexivity. Qed.
Lemma w_dec_eq F n a : room F n -> w_dec F n a = op_dec n a.
Proof. intros H. unfold w_dec, op_dec. apply bind_ext; [lp; auto|]. intros [x|x] _; reflexivity. Qed.
Lemma w_add_u_eq F n t a v : room F n -> w_add_u F n t a v = add_assign_u n t a v.
Proof. intros H. unfold w_add_u, add_assign_u. apply bind_ext; auto. lp; auto. Qed.
Lemma w_add_eq F n a b : room F n -> w_add F n a b = add_assign n a b.
Proof. intros H. unfold w_add, add_assign. now rewrite w_addLine_eq. Qed.
Lemma w_sub_eq F n a b : room F n -> w_sub F n a b = sub_assign n a b.
Proof. intros H. unfold w_sub, sub_assign. rewrite w_neg_eq by auto. apply bind_ext; auto. intros. apply w_add_eq; auto. Qed.
Lemma filled_range n a f : filledBlocksNumber n a = Ok f -> 0 <= f /\ (0 <= n -> f <= n).
Proof.
  unfold filledBlocksNumber, forDx. intros H.
  assert (K : forall k i x, Z.of_nat k <= i -> loopDx k i (fun i (_ : unit) => b <- aget a i ;; (if negb (b =? 0) then Ok (Exit (i + 1)) else Ok (Next tt))) tt = Ok x ->
              match x with Exit r => 0 < r <= i | Next _ => True end).
  { induction k as [|k IH]; intros i x Hi E; cbn [loopDx] in E; [injection E as <-; auto|].
    destruct (aget a (i - 1)) as [b|]; cbn [bind] in E; [|discriminate]. destruct (negb (b =? 0)); cbn [bind] in E.
    - injection E as <-. lia.
    - specialize (IH (i - 1) x ltac:(lia) E). destruct x; auto. lia. }
  destruct (loopDx _ _ _ _) as [x|] eqn:E; cbn [bind] in H; [|discriminate]. destruct (Z.ltb_spec n 0).
  - replace (Z.to_nat (n - 0)) with 0%nat in E by lia. cbn [loopDx] in E. injection E as <-. injection H as <-. lia.
  - apply K in E; [|lia]. destruct x; injection H as <-; lia.
Qed.
Lemma w_filled_eq F n a : room F n -> w_filled F n a = filledBlocksNumber n a.
Proof.
  intros H. unfold w_filled, filledBlocksNumber. apply bind_ext; [|intros [x|x] _; reflexivity]. lp.
  intros i s Hi. rewrite u64s by (unfold room in *; lia). reflexivity.
Qed.
Lemma w_last_eq F n a : room F n -> w_last F n a = lastBlockIndex n a.
Proof.
  intros (H1 & H2 & H3). unfold w_last, lastBlockIndex, forDx. rewrite u64s by lia.
  assert (K : forall k F i, 0 <= i < 2 ^ 64 -> k = Z.to_nat i -> (k < F)%nat ->
     w_last_loop F a i = (x <- loopDx k (i + 1) (fun i (_ : unit) => b <- aget a i ;; (if b =? 0 then Ok (Next tt) else Ok (Exit i))) tt ;; match x with Exit i => Ok i | Next _ => Ok 0 end)).
  { clear. induction k as [|k IH]; intros F i Hi K HF; (destruct F as [|F]; [lia|]); cbn [w_last_loop loopDx].
    - replace (i >? 0) with false by lia. cbn [bind]. f_equal. lia.
    - replace (i >? 0) with true by lia. replace (i + 1 - 1) with i by lia. destruct (aget a i) as [b|]; cbn [bind]; auto.
      destruct (b =? 0); cbn [bind]; auto. rewrite u64s by lia. rewrite IH by lia. replace (i - 1 + 1) with i by lia. reflexivity. }
  rewrite (K (Z.to_nat (n - 1))) by lia. replace (n - 1 + 1) with n by lia. reflexivity.
Qed.
Lemma lastBlock_range n a i : 1 <= n -> lastBlockIndex n a = Ok i -> 0 <= i < n.
Proof.
  unfold lastBlockIndex, forDx. intros Hn H.
  assert (K : forall k i x, Z.of_nat k < i -> loopDx k i (fun i (_ : unit) => b <- aget a i ;; (if b =? 0 then Ok (Next tt) else Ok (Exit i))) tt = Ok x ->
              match x with Exit r => 0 < r < i | Next _ => True end).
  { induction k as [|k IH]; intros j x Hi E; cbn [loopDx] in E; [injection E as <-; auto|].
    destruct (aget a (j - 1)) as [b|]; cbn [bind] in E; [|discriminate]. destruct (b =? 0); cbn [bind] in E.
    - specialize (IH (j - 1) x ltac:(lia) E). destruct x; auto. lia.
    - injection E as <-. lia. }
  destruct (loopDx _ _ _ _) as [x|] eqn:E; cbn [bind] in H; [|discriminate]. apply K in E; [|lia]. destruct x; injection H as <-; lia.
Qed.
Lemma w_byteOf_eq b k : 0 <= k < 4 -> w_byteOf b k = Ok (byteOf b k).
Proof.
  intros H. unfold w_byteOf, byteOf, bitsInByte, w_shl32, w_shr32. rewrite u64s by lia. rewrite count_ok by lia. cbn [bind]. reflexivity.
Qed.
Lemma w_byteCount_eq F n a : room F n -> w_byteCount F n a = byteCount n a.
Proof.
  intros H. unfold w_byteCount, byteCount. rewrite w_last_eq by auto. apply bind_ext; auto. intros l E. apply lastBlock_range in E; [|apply H]. pose proof H as (H1 & H2 & H3).
  unfold blockBytes in *. apply bind_ext; [|intros [x|x] _; [rewrite u64s by lia|]; reflexivity].
  lp. intros i s Hi. destruct (aget a l); cbn [bind]; auto. rewrite w_byteOf_eq by auto. cbn [bind]. rewrite (u64s (l * 4)) by lia. rewrite (u64s (l * 4 + i)) by lia. rewrite u64s by lia. reflexivity.
Qed.
Lemma small_pow k : 0 <= k < 32 -> u32 (Z.shiftl 1 k) = Z.shiftl 1 k.
Proof.
  intros H. unfold u32. rewrite Z.shiftl_1_l. apply Z.mod_small. split; [apply Z.pow_nonneg; lia|]. apply Z.pow_lt_mono_r; lia.
Qed.
Lemma w_bit_eq k : 0 <= k < 32 -> w_shl32 1 k = Ok (Z.shiftl 1 k).
Proof. intros H. unfold w_shl32. rewrite count_ok by lia. cbn [bind]. now rewrite small_pow. Qed.
Lemma byteOf_range b k : 0 <= k < 4 -> 0 <= byteOf b k < 256.
Proof.
  intros H. unfold byteOf, bitsInByte. rewrite Z.shiftr_land.
  assert (E : Z.shiftr (u32 (Z.shiftl 255 (k * 8))) (k * 8) = 255) by (assert (k = 0 \/ k = 1 \/ k = 2 \/ k = 3) as [->|[->|[->| ->] ] ] by lia; reflexivity).
  rewrite E. change 255 with (Z.ones 8). rewrite Z.land_ones by lia. change (2 ^ 8) with 256. apply Z.mod_pos_bound. lia.
Qed.
Lemma bit_found (g : Z -> Z) byte : 0 < byte < 256 ->
  exists k, 0 <= k < 8 /\ forDx 8 0 (fun bitN (_ : unit) => if negb (Z.shiftr (Z.land byte (Z.shiftl 1 bitN)) bitN =? 0) then Ok (Exit (g bitN)) else Ok (Next tt)) tt = Ok (Exit (g k)).
Proof.
  intros H. pose proof (Z.log2_spec byte (proj1 H)) as L. exists (Z.log2 byte).
  assert (Z.log2 byte < 8) by (apply Z.log2_lt_pow2; lia). pose proof (Z.log2_nonneg byte). split; [lia|].
  assert (T : forall k, 0 <= k -> negb (Z.shiftr (Z.land byte (Z.shiftl 1 k)) k =? 0) = Z.testbit byte k).
  { intros k Hk. rewrite Z.shiftr_land, Z.shiftr_shiftl_l, Z.sub_diag by lia. rewrite Z.shiftl_0_r. change 1 with (Z.ones 1). rewrite Z.land_ones by lia.
    rewrite Z.testbit_eqb, Z.shiftr_div_pow2 by lia. change (2 ^ 1) with 2. pose proof (Z.mod_pos_bound (byte / 2 ^ k) 2 ltac:(lia)).
    destruct (Z.eqb_spec ((byte / 2 ^ k) mod 2) 0), (Z.eqb_spec ((byte / 2 ^ k) mod 2) 1); auto; lia. }
  unfold forDx. change (Z.to_nat (8 - 0)) with 8%nat.
  assert (K : forall j i, i = Z.of_nat j -> Z.log2 byte < i -> loopDx j i (fun bitN (_ : unit) => if negb (Z.shiftr (Z.land byte (Z.shiftl 1 bitN)) bitN =? 0) then Ok (Exit (g bitN)) else Ok (Next tt)) tt = Ok (Exit (g (Z.log2 byte)))).
  { induction j as [|j IH]; intros i Hi Hl; [lia|]. cbn [loopDx]. rewrite T by lia. destruct (Z.eq_dec (i - 1) (Z.log2 byte)) as [->|N].
    - rewrite Z.bit_log2 by lia. reflexivity.
    - rewrite Z.bits_above_log2 by lia. cbn [bind]. apply IH; lia. }
  apply K; lia.
Qed.
Lemma w_bitCount_eq F n a : room F n -> w_bitCount F n a = bitCount n a.
Proof.
  intros H. unfold w_bitCount, bitCount. rewrite w_last_eq by auto. apply bind_ext; auto. intros l E. apply lastBlock_range in E; [|apply H]. pose proof H as (H1 & H2 & H3).
  unfold blockBytes, bitsInByte in *. apply bind_ext; [|intros [x|x] _; [rewrite u64s by lia|]; reflexivity].
  lp. intros i s Hi. destruct (aget a l) as [b|]; cbn [bind]; auto. rewrite w_byteOf_eq by auto. cbn [bind].
  pose proof (byteOf_range b i Hi). destruct (Z.eqb_spec (byteOf b i) 0); auto.
  rewrite (u64s (l * 4)) by lia. rewrite (u64s (l * 4 + i)) by lia. rewrite (u64s ((l * 4 + i) * 8)) by lia.
  destruct (bit_found (fun k => (l * 4 + i) * 8 + k + 1) (byteOf b i)) as (k & Hk & EK); [lia|].
  rewrite EK. cbn [bind]. match goal with |- context [w_down F 0 ?f 8 tt] => assert (W : w_down F 0 f 8 tt = Ok (Exit ((l * 4 + i) * 8 + k + 1))) end.
  { rewrite <- EK. lp. intros j u Hj. rewrite w_bit_eq by lia. cbn [bind]. unfold w_shr32. rewrite count_ok by lia. cbn [bind].
    rewrite (u64s ((l * 4 + i) * 8 + j)) by lia. rewrite u64s by lia. reflexivity. }
  rewrite W. reflexivity.
Qed.
Lemma mul_inner_eq F n i t d d' sl b : room F n -> 0 <= i < n -> 0 <= sl <= n \/ 0 <= sl <= 2 -> (forall j, 0 <= j < sl -> d j = d' j) ->
  w_mul_inner F n i t d sl b = mul_inner n i t d' sl b.
Proof.
  intros H Hi Hs D. pose proof H as (H1 & H2 & H3). unfold w_mul_inner, mul_inner, forU. rewrite (u64s (n - i)) by lia.
  rewrite (w_for_loop 64 _ _ (Z.min sl (n - i)) (Z.to_nat (Z.min sl (n - i) - 0))); try lia.
  - rewrite loopUx_go. match goal with |- (x <- (y <- loopU ?k 0 ?f ?s ;; _) ;; _) = loopU ?k 0 ?g ?s => rewrite (loopU_ext f g) end.
    + destruct (loopU _ _ _ _); reflexivity.
    + intros j [buf c] Hj. rewrite D by lia. destruct (d' j) as [f|]; cbn [bind]; auto. rewrite u64s by lia.
      replace (u64 (u64 (t * f) + c)) with (u64 (t * f + c)) by (unfold u64; rewrite Zplus_mod_idemp_l; reflexivity). reflexivity.
  - intros j Hj. f_equal. destruct (Z.ltb_spec j sl), (Z.ltb_spec j (n - i)), (Z.ltb_spec j (Z.min sl (n - i))); auto; lia.
Qed.
Lemma mul_lines_eq F n g lo ll d d' sl : room F n -> 0 <= ll <= n -> 0 <= sl <= n \/ 0 <= sl <= 2 -> (forall j, 0 <= j < sl -> d j = d' j) ->
  w_mul_lines F n g lo ll d sl = mul_lines n g lo ll d' sl.
Proof.
  intros H Hl Hs D. pose proof H as (H1 & H2 & H3). unfold w_mul_lines, mul_lines. lp. intros i s Hi. destruct (aget lo i) as [t|]; cbn [bind]; auto.
  rewrite (mul_inner_eq F n i t d d' sl s) by (auto; lia). destruct (mul_inner n i t d' sl s) as [ [b c]|]; cbn [bind]; auto. rewrite u64s by lia. reflexivity.
Qed.
Lemma w_mul_u_eq F n t a v : room F n -> w_mul_u F n t a v = mul_assign_u n t a v.
Proof.
  intros H. unfold w_mul_u, mul_assign_u. destruct (is_uint64_t t).
  - rewrite w_filled_eq by auto. apply bind_ext; auto. intros f E. apply filled_range in E. pose proof H as (H1 & H2 & H3).
    apply mul_lines_eq; auto; [lia|destruct (v >? blockMax); lia|]. intros j Hj. unfold w_shr64, blockBitLength. rewrite u64s, count_ok by (destruct (v >? blockMax); lia). reflexivity.
  - apply bind_ext; auto. lp. auto.
Qed.
Lemma w_mul_eq F n a b : room F n -> w_mul F n a b = mul_assign n a b.
Proof.
  intros H. unfold w_mul, mul_assign. rewrite !w_filled_eq by auto. apply bind_ext; auto. intros f E. apply filled_range in E. apply bind_ext; auto. intros f' E'. apply filled_range in E'.
  pose proof H as (H1 & H2 & H3). destruct (f >? f'); apply mul_lines_eq; auto; lia.
Qed.
Lemma w_not_eq F n j a : room F n -> w_not F n j a = op_not n j a.
Proof. intros H. unfold w_not, op_not. lp. auto. Qed.
Lemma w_bitwise_eq op F n a b : room F n -> w_bitwise op F n a b = bitwise_assign op n a b.
Proof. intros H. unfold w_bitwise, bitwise_assign. lp. auto. Qed.
Lemma w_shl_eq F n a k : room F n -> 0 <= k -> w_shl F n a k = shl_assign n a k.
Proof.
  intros H Hk. pose proof H as (H1 & H2 & H3). unfold w_shl, shl_assign. destruct (Z.geb_spec k (32 * n)), (Z.eqb_spec k 0); cbn [orb]; auto.
  unfold blockBitLength. pose proof (Z.mod_pos_bound k 32 ltac:(lia)) as R. assert (Q : 0 <= k / 32 < n) by (split; [apply Z.div_pos; lia|apply Z.div_lt_upper_bound; lia]).
  set (q := k / 32) in *. set (r := k mod 32) in *. assert (B : 0 <= b2z (negb (r =? 0)) <= 1) by (destruct (r =? 0); cbn; lia).
  assert (BR : b2z (negb (r =? 0)) = if r =? 0 then 0 else 1) by (destruct (r =? 0); reflexivity). set (r1 := b2z (negb (r =? 0))) in *.
  unfold w_shl64. rewrite (u64s (32 - r)) by lia. rewrite count_ok by lia. cbn [bind]. cbv zeta. rewrite (u64s (q + r1)) by lia.
  assert (ST : u32 (u64 (u64 (Z.shiftl 1 (32 - r)) - 1)) = u32 (u64 (Z.shiftl 1 (32 - r)) - 1)).
  { f_equal. assert (P : 1 <= Z.shiftl 1 (32 - r) <= 2 ^ 32) by (rewrite Z.shiftl_1_l; split; [pose proof (Z.pow_pos_nonneg 2 (32 - r)); lia|apply Z.pow_le_mono_r; lia]).
    rewrite (u64s (Z.shiftl 1 (32 - r))) by lia. apply u64s. lia. }
  rewrite ST. set (st := u32 (u64 (Z.shiftl 1 (32 - r)) - 1)).
  assert (M : 0 <= (32 - r) mod 32 < 32) by (apply Z.mod_pos_bound; lia).
  apply bind_ext.
  - lp. intros i s Hi. rewrite (u64s (i - q)) by lia. destruct (aget s (i - q)) as [x|]; cbn [bind]; auto. unfold w_shl32. rewrite count_ok by lia. cbn [bind].
    rewrite (u64s (i - q - r1)) by lia. destruct (aget s (i - q - r1)) as [y|]; cbn [bind]; auto. unfold w_shr32. rewrite count_ok by lia. reflexivity.
  - intros v _. destruct (aget v 0) as [x|]; cbn [bind]; auto. unfold w_shl32. rewrite count_ok by lia. cbn [bind]. apply bind_ext; auto. intros u _. lp. auto.
Qed.
Lemma w_shr_eq F n a k : room F n -> 0 <= k -> w_shr F n a k = shr_assign n a k.
Proof.
  intros H Hk. pose proof H as (H1 & H2 & H3). unfold w_shr, shr_assign. destruct (Z.geb_spec k (32 * n)), (Z.eqb_spec k 0); cbn [orb]; auto.
  unfold blockBitLength. pose proof (Z.mod_pos_bound k 32 ltac:(lia)) as R. assert (Q : 0 <= k / 32 < n) by (split; [apply Z.div_pos; lia|apply Z.div_lt_upper_bound; lia]).
  set (q := k / 32) in *. set (r := k mod 32) in *. assert (B : 0 <= b2z (negb (r =? 0)) <= 1) by (destruct (r =? 0); cbn; lia). set (r1 := b2z (negb (r =? 0))) in *.
  unfold w_shl64. rewrite count_ok by lia. cbn [bind]. cbv zeta. rewrite (u64s (q + r1)), (u64s (n - (q + r1))) by lia.
  assert (ST : u32 (u64 (u64 (Z.shiftl 1 r) - 1)) = u32 (Z.shiftl 1 r - 1)).
  { f_equal. assert (P : 1 <= Z.shiftl 1 r <= 2 ^ 32) by (rewrite Z.shiftl_1_l; split; [pose proof (Z.pow_pos_nonneg 2 r); lia|apply Z.pow_le_mono_r; lia]).
    rewrite (u64s (Z.shiftl 1 r)) by lia. apply u64s. lia. }
  rewrite ST. set (st := u32 (Z.shiftl 1 r - 1)).
  assert (M : 0 <= (32 - r) mod 32 < 32) by (apply Z.mod_pos_bound; lia). rewrite (u64s (32 - r)), (u64s (n - 1)), (u64s (n - 1 - q)), (u64s (n - q)) by lia.
  apply bind_ext.
  - lp. intros i s Hi. rewrite (u64s (i + q)) by lia. rewrite (u64s (i + q + r1)) by lia. destruct (aget s (i + q + r1)) as [x|]; cbn [bind]; auto. unfold w_shl32. rewrite count_ok by lia. cbn [bind].
    destruct (aget s (i + q)) as [y|]; cbn [bind]; auto. unfold w_shr32. rewrite count_ok by lia. reflexivity.
  - intros v _. destruct (aget v (n - 1)) as [x|]; cbn [bind]; auto. unfold w_shr32. rewrite count_ok by lia. cbn [bind]. apply bind_ext; auto. intros u _. lp. auto.
Qed.
Lemma w_setBit_eq cfg n a i b : w_setBit cfg n a i b = setBit cfg n a i b.
Proof.
  unfold w_setBit, setBit, blockBitLength. destruct (_ && _); auto. apply bind_ext; auto. intros _ _. destruct (aget a (i / 32)); cbn [bind]; auto.
  rewrite w_bit_eq by (apply Z.mod_pos_bound; lia). reflexivity.
Qed.
Lemma w_getBit_eq cfg n a i : w_getBit cfg n a i = getBit cfg n a i.
Proof.
  unfold w_getBit, getBit, blockBitLength. destruct (_ && _); auto. apply bind_ext; auto. intros _ _. destruct (aget a (i / 32)); cbn [bind]; auto.
  rewrite w_bit_eq by (apply Z.mod_pos_bound; lia). reflexivity.
Qed.
Lemma w_setByte_eq cfg n a i b : 1 <= n -> 32 * n < 2 ^ 64 -> w_setByte cfg n a i b = setByte cfg n a i b.
Proof.
  intros H1 H2. unfold w_setByte, setByte, blockBytes, bitsInByte. rewrite (u64s (n * 4)) by lia. destruct (_ && _); auto. apply bind_ext; auto. intros _ _. destruct (aget a (i / 4)); cbn [bind]; auto.
  pose proof (Z.mod_pos_bound i 4 ltac:(lia)). rewrite (u64s (i mod 4 * 8)) by lia. unfold w_shl32. rewrite !count_ok by lia. cbn [bind]. reflexivity.
Qed.
Lemma w_getByte_eq cfg n a i : 1 <= n -> 32 * n < 2 ^ 64 -> w_getByte cfg n a i = getByte cfg n a i.
Proof.
  intros H1 H2. unfold w_getByte, getByte, blockBytes, bitsInByte. rewrite (u64s (n * 4)) by lia. destruct (_ && _); auto. apply bind_ext; auto. intros _ _. destruct (aget a (i / 4)); cbn [bind]; auto.
  pose proof (Z.mod_pos_bound i 4 ltac:(lia)). rewrite (u64s (i mod 4 * 8)) by lia. unfold w_shl32, w_shr32. rewrite !count_ok by lia. cbn [bind]. reflexivity.
Qed.
Lemma w_compareTo_eq cfg F n m a b : room F n -> room F m -> w_compareTo cfg F n m a b = compareTo cfg n m a b.
Proof.
  intros H K. pose proof H as (H1 & H2 & H3). pose proof K as (K1 & K2 & K3). unfold w_compareTo, compareTo, blockBitLength. rewrite (u64s (n * 32)) by lia. cbv zeta.
  assert (L : 0 <= (if n <? m then n else m) <= n /\ (if n <? m then n else m) <= m) by (destruct (Z.ltb_spec n m); lia). set (l := if n <? m then n else m) in *.
  apply bind_ext; [lp; auto|]. intros [x|x] _; auto. destruct (negb (32 * m =? n * 32)); auto. apply bind_ext; auto. destruct (Z.gtb_spec m n); [lp; auto|]. destruct (Z.gtb_spec n m); [lp; auto|]. auto.
Qed.
Lemma w_compareTo_u32_eq F n a v : room F n -> w_compareTo_u32 F n a v = compareTo_u32 n a v.
Proof. intros H. unfold w_compareTo_u32, compareTo_u32. rewrite w_filled_eq by auto. reflexivity. Qed.
Lemma shl32_64 x : w_shl64 x blockBitLength = Ok (u64 (Z.shiftl x blockBitLength)).
Proof. reflexivity. Qed.
Lemma w_compareTo_u64_eq F n a v : room F n -> w_compareTo_u64 F n a v = compareTo_u64 n a v.
Proof.
  intros H. unfold w_compareTo_u64, compareTo_u64. rewrite w_filled_eq by auto. apply bind_ext; auto.
Qed.
Lemma w_eq_u32_eq F n a v : room F n -> w_eq_u32 F n a v = op_eq_u32 n a v.
Proof. intros H. unfold w_eq_u32, op_eq_u32. rewrite w_filled_eq by auto. reflexivity. Qed.
Lemma w_eq_u64_eq F n a v : room F n -> w_eq_u64 F n a v = op_eq_u64 n a v.
Proof.
  intros H. unfold w_eq_u64, op_eq_u64. rewrite w_filled_eq by auto. apply bind_ext; auto.
Qed.
Lemma w_ge_eq cfg F n m a b : room F n -> room F m -> w_ge cfg F n m a b = op_ge cfg n m a b.
Proof. intros H K. unfold w_ge, op_ge, op_spaceship. rewrite w_compareTo_eq by auto. destruct (compareTo cfg n m a b); reflexivity. Qed.
Lemma w_lt_eq cfg F n m a b : room F n -> room F m -> w_lt cfg F n m a b = op_lt cfg n m a b.
Proof. intros H K. unfold w_lt, op_lt, op_spaceship. rewrite w_compareTo_eq by auto. destruct (compareTo cfg n m a b); reflexivity. Qed.
Lemma w_divide_eq cfg F n a b : room F n -> w_divide cfg F n a b = divide cfg n a b.
Proof.
  intros H. pose proof H as (H1 & H2 & H3). unfold w_divide, divide, blockBitLength. rewrite w_compareTo_eq by auto. apply bind_ext; auto. intros c _. cbv zeta.
  destruct c; try reflexivity; try (rewrite w_from_unsigned_eq by auto; reflexivity). rewrite w_filled_eq by auto. apply bind_ext; auto. intros f E. apply filled_range in E. rewrite (u64s (f * 32)) by lia.
  lp. intros i [q r] Hi. rewrite w_shl_eq by (auto; lia). apply bind_ext; auto. intros r' _. rewrite w_getBit_eq. apply bind_ext; auto. intros bit _. rewrite w_setBit_eq. apply bind_ext; auto. intros r2 _.
  rewrite w_ge_eq by auto. apply bind_ext; auto. intros ge _. destruct ge; auto. rewrite w_sub_eq by auto. apply bind_ext; auto. intros r3 _. rewrite w_setBit_eq. reflexivity.
Qed.
Lemma w_div_eq cfg F n a b : room F n -> w_div cfg F n a b = op_div cfg n a b.
Proof. intros H. unfold w_div, op_div. now rewrite w_divide_eq. Qed.
Lemma w_mod_eq cfg F n a b : room F n -> w_mod cfg F n a b = op_mod cfg n a b.
Proof. intros H. unfold w_mod, op_mod. now rewrite w_divide_eq. Qed.
Lemma w_gcd_eq cfg F fuel n a b : room F n -> w_gcd cfg F fuel n a b = gcd cfg fuel n a b.
Proof.
  intros H. unfold w_gcd, gcd, gcd_loop. rewrite w_compareTo_eq by auto. apply bind_ext; auto. intros c _. rewrite !w_divide_eq by auto. apply bind_ext; auto. intros st _.
  apply whileF_ext. intros [g r]. rewrite w_eq_u32_eq by auto. apply bind_ext; auto. intros z _. destruct z; auto. rewrite w_divide_eq by auto. reflexivity.
Qed.
Lemma w_lcm_eq cfg F fuel n a b : room F n -> w_lcm cfg F fuel n a b = lcm cfg fuel n a b.
Proof.
  intros H. unfold w_lcm, lcm. rewrite w_gcd_eq by auto. apply bind_ext; auto. intros g _. rewrite w_div_eq by auto. apply bind_ext; auto. intros q _. apply w_mul_eq; auto.
Qed.
Lemma w_egcd_body_eq cfg F n s : room F n -> w_egcd_body cfg F n s = egcd_body cfg n s.
Proof.
  intros H. unfold w_egcd_body, egcd_body, op_mul, op_sub. rewrite w_eq_u32_eq by auto. apply bind_ext; auto. intros z _. destruct z; auto. cbv zeta.
  rewrite w_mul_eq by auto. apply bind_ext; auto. intros p _. rewrite w_sub_eq by auto. apply bind_ext; auto. intros x _.
  rewrite w_mul_eq by auto. apply bind_ext; auto. intros p' _. rewrite w_sub_eq by auto. apply bind_ext; auto. intros y _. rewrite w_divide_eq by auto. reflexivity.
Qed.
Lemma w_gcd_ext_eq cfg F fuel n a b : room F n -> w_gcd_ext cfg F fuel n a b = gcd_ext cfg fuel n a b.
Proof.
  intros H. unfold w_gcd_ext, gcd_ext. rewrite w_compareTo_eq by auto. apply bind_ext; auto. intros c _. rewrite !w_divide_eq by auto. apply bind_ext; auto. intros [ [g q] r] _.
  rewrite !w_from_unsigned_eq by auto. do 4 (apply bind_ext; auto; intros ? _). apply bind_ext; auto. apply whileF_ext. intros s. apply w_egcd_body_eq; auto.
Qed.
Lemma w_powm_body_eq cfg F n m p mo i o b : room F n ->
  (bit <- w_getBit cfg m p i ;;
   output <- (if bit then p <- w_mul F n o b ;; '(_, r) <- w_divide cfg F n p mo ;; Ok r else Ok o) ;;
   p <- w_mul F n b b ;; '(_, r) <- w_divide cfg F n p mo ;; Ok (output, r)) =
  (bit <- getBit cfg m p i ;;
   output <- (if bit then p <- op_mul n o b ;; '(_, r) <- divide cfg n p mo ;; Ok r else Ok o) ;;
   p <- op_mul n b b ;; '(_, r) <- divide cfg n p mo ;; Ok (output, r)).
Proof.
  intros H. rewrite w_getBit_eq. apply bind_ext; auto. intros bit _. unfold op_mul. apply bind_ext.
  - destruct bit; auto. rewrite w_mul_eq by auto. apply bind_ext; auto. intros x _. rewrite w_divide_eq by auto. reflexivity.
  - intros o' _. rewrite w_mul_eq by auto. apply bind_ext; auto. intros x _. rewrite w_divide_eq by auto. reflexivity.
Qed.
Lemma w_powm_loop_eq cfg F w n m p mo st : room F n -> room F m -> w = 64 \/ w = 32 /\ (forall f, filledBlocksNumber m p = Ok f -> 32 * f < 2 ^ 32) -> w_powm_loop cfg F w n m p mo st = powm_loop cfg n m p mo st.
Proof.
  intros H K W. pose proof K as (K1 & K2 & K3). unfold w_powm_loop, powm_loop. destruct (filledBlocksNumber m p) as [f|] eqn:E; cbn [bind].
  - pose proof E as EF. apply filled_range in E. unfold blockBitLength, forU. rewrite (w_for_loop w _ _ (f * 32) (Z.to_nat (f * 32 - 0))); try lia.
    + rewrite loopUx_go. match goal with |- (x <- (y <- loopU ?k 0 ?ff ?s ;; _) ;; _) = loopU ?k 0 ?g ?s => rewrite (loopU_ext ff g) end.
      * destruct (loopU _ _ _ _); reflexivity.
      * intros j [o b] Hj. apply w_powm_body_eq; auto.
    + destruct W as [->|[-> W] ]; [lia|specialize (W _ eq_refl); lia].
    + intros j Hj. rewrite w_filled_eq, EF by auto. cbn [bind]. rewrite u64s by lia. f_equal. destruct (Z.eqb_spec (f * 32) j), (Z.ltb_spec j (f * 32)); cbn [negb]; auto; lia.
  - destruct F as [|F']; [lia|]. cbn [w_for]. rewrite w_filled_eq by auto. rewrite E. reflexivity.
Qed.
Lemma w_powm_eq cfg F n b p mo : room F n -> w_powm cfg F n b p mo = powm cfg n b p mo.
Proof.
  intros H. unfold w_powm, powm. rewrite w_from_unsigned_eq, w_divide_eq by auto. apply bind_ext; auto. intros o _. apply bind_ext; auto. intros [q r] _. rewrite w_powm_loop_eq by auto. reflexivity.
Qed.
Lemma w_powm_x_eq cfg F n m b p mo : room F n -> room F m -> (forall f, filledBlocksNumber m p = Ok f -> 32 * f < 2 ^ 32) -> w_powm_x cfg F n m b p mo = powm_x cfg n m b p mo.
Proof.
  intros H K L. unfold w_powm_x, powm_x. rewrite !w_eq_u32_eq, w_from_unsigned_eq, w_divide_eq by auto. apply bind_ext; auto. intros z _. destruct z; auto. apply bind_ext; auto. intros z _. destruct z; auto.
  apply bind_ext; auto. intros o _. apply bind_ext; auto. intros [q r] _. rewrite w_powm_loop_eq by auto. reflexivity.
Qed.
Lemma w_power2_eq cfg n k : w_power2 cfg n k = power2 cfg n k.
Proof. apply w_setBit_eq. Qed.
Lemma bitCount_range n a c : 1 <= n -> bitCount n a = Ok c -> 0 <= c <= 32 * n.
Proof.
  intros Hn. unfold bitCount. destruct (lastBlockIndex n a) as [l|] eqn:E; cbn [bind]; [|discriminate]. apply lastBlock_range in E; auto. unfold blockBytes, bitsInByte, forDx. intros H.
  assert (K : forall k i x, Z.of_nat k <= i -> i <= 4 -> loopDx k i (fun byteN (_ : unit) => b <- aget a l ;; (let byte := byteOf b byteN in
     if byte =? 0 then Ok (Next tt) else y <- loopDx (Z.to_nat (8 - 0)) 8 (fun bitN (_ : unit) => if negb (Z.shiftr (Z.land byte (Z.shiftl 1 bitN)) bitN =? 0) then Ok (Exit ((l * 4 + byteN) * 8 + bitN + 1)) else Ok (Next tt)) tt ;;
       match y with Exit r => Ok (Exit r) | Next _ => Ok (Exit (((l - 1) * 4 + byteN) * 8)) end)) tt = Ok x ->
     match x with Exit r => 0 <= r <= 32 * n | Next _ => True end).
  { induction k as [|k IH]; intros i x Hi Hi4 EE; cbn [loopDx] in EE; [injection EE as <-; auto|]. destruct (aget a l) as [b|]; cbn [bind] in EE; [|discriminate]. cbv zeta in EE.
    pose proof (byteOf_range b (i - 1) ltac:(lia)). destruct (Z.eqb_spec (byteOf b (i - 1)) 0) as [B0|B0]; cbn [bind] in EE.
    - apply IH in EE; try lia. exact EE.
    - destruct (bit_found (fun k => (l * 4 + (i - 1)) * 8 + k + 1) (byteOf b (i - 1)) ltac:(lia)) as (j & Hj & EJ). unfold forDx in EJ. rewrite EJ in EE. cbn [bind] in EE. injection EE as <-. lia. }
  change (Z.to_nat (4 - 0)) with 4%nat in H. destruct (loopDx 4 4 _ tt) as [x|] eqn:EE; cbn [bind] in H; [|discriminate]. apply K in EE; try lia. destruct x; injection H as <-; lia.
Qed.
Lemma w_squareRoot_eq cfg F fuel n a : room F n -> w_squareRoot cfg F fuel n a = squareRoot cfg fuel n a.
Proof.
  intros H. pose proof H as (H1 & H2 & H3). unfold w_squareRoot, squareRoot. rewrite w_bitCount_eq by auto. apply bind_ext; auto. intros c E. apply bitCount_range in E; auto. rewrite (u64s (c + 1)) by lia.
  rewrite w_power2_eq. apply bind_ext; auto. intros y _. apply whileF_ext. intros x. rewrite w_div_eq by auto. apply bind_ext; auto. intros q _. unfold op_add, op_shr.
  rewrite w_add_eq by auto. apply bind_ext; auto. intros s _. rewrite w_shr_eq by (auto; lia). apply bind_ext; auto. intros z _. rewrite w_lt_eq by auto. reflexivity.
Qed.
Lemma w_integralCast_eq t a : w_integralCast t a = integralCast t a.
Proof. unfold w_integralCast, integralCast. destruct (aget a 1); cbn [bind]; auto. Qed.
Lemma w_precisionCast_eq cfg F n m a : room F n -> room F m -> w_precisionCast cfg F n m a = precisionCast cfg n m a.
Proof.
  intros H K. pose proof H as (H1 & H2 & H3). pose proof K as (K1 & K2 & K3). unfold w_precisionCast, precisionCast. destruct (Z.gtb_spec (32 * m) (32 * n)); lp; auto.
Qed.
