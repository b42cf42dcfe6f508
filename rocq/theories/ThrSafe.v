(** * ThrSafe: every access of the calls in [ThrModel.v] is inside the arrays, whatever the loads return. *)
From Verif Require Import Spec Lib AeuModel AeuArith AeuBits AeuAccess AeuDiv AeuFacts AliasModel AliasFacts ProgSpec ProgModel ProgFacts ProgTotal
  ThrMonad ThrModel ThrSpec.
From Coq Require Import ZifyBool.
Open Scope Z_scope.

Definition block (v : Z) : Prop := 0 <= v < 2 ^ 32.
(** Whatever block-sized values its loads return, the tree stays within [n] blocks, stores block-sized values, and ends with a
    result in [P] or, if [F] holds, because its fuel is used up. *)
Fixpoint safe (F : Prop) (n : Z) {A} (P : A -> Prop) (c : act A) : Prop :=
  match c with
  | Ret a => P a
  | Stop e => F /\ e = OutOfFuel
  | Get _ i k => 0 <= i < n /\ forall v, block v -> safe F n P (k v)
  | Put _ i v k => 0 <= i < n /\ block v /\ safe F n P k
  end.
Definition vsafe (n : Z) (v : view) : Prop := forall F i, 0 <= i < n -> safe F n block (v i).
Definition okf (F : Prop) {A} (P : A -> Prop) (x : outcome A) : Prop := match x with Ok a => P a | Err e => F /\ e = OutOfFuel end.

Section Safe.
Context (F : Prop) (n : Z).
Lemma safe_bind {A B} (Q : A -> Prop) (P : B -> Prop) (c : act A) (f : A -> act B) :
  safe F n Q c -> (forall a, Q a -> safe F n P (f a)) -> safe F n P (abind c f).
Proof.
  intros H K. induction c as [a|e|x i k IH|x i v k IH]; cbn [abind safe] in *; auto.
  - destruct H. split; auto.
  - destruct H as (? & ? & ?). auto.
Qed.
Lemma safe_pure {A} (P : A -> Prop) x : okf F P x -> safe F n P (pure x).
Proof. destruct x; auto. Qed.
Lemma safe_ok {A} (P : A -> Prop) x r : x = Ok r -> P r -> safe F n P (pure x).
Proof. intros -> H. exact H. Qed.
Lemma safe_mono {A} (Q P : A -> Prop) (c : act A) : (forall a, Q a -> P a) -> safe F n Q c -> safe F n P c.
Proof.
  intros H. induction c as [a|e|x i k IH|x i v k IH]; cbn [safe]; auto.
  - intros [? ?]. auto.
  - intros (? & ? & ?). auto.
Qed.
Lemma safe_loopU {S} (Inv : S -> Prop) (b : Z -> S -> act S) : forall cnt lo s,
  (forall i s, lo <= i < lo + Z.of_nat cnt -> Inv s -> safe F n Inv (b i s)) -> Inv s -> safe F n Inv (aloopU cnt lo b s).
Proof.
  induction cnt as [|c IH]; intros lo s H I; cbn [aloopU]; [exact I|]. eapply safe_bind; [apply H; auto; lia|].
  intros s' I'. apply IH; auto. intros. apply H; auto; lia.
Qed.
Lemma safe_forU {S} (Inv : S -> Prop) lo hi (b : Z -> S -> act S) s :
  (forall i s, lo <= i < hi -> Inv s -> safe F n Inv (b i s)) -> Inv s -> safe F n Inv (aforU lo hi b s).
Proof. intros. apply safe_loopU; auto. intros. apply H; auto; lia. Qed.
Lemma safe_loopD {S} (Inv : S -> Prop) (b : Z -> S -> act S) : forall cnt hi s,
  (forall i s, hi - Z.of_nat cnt <= i < hi -> Inv s -> safe F n Inv (b i s)) -> Inv s -> safe F n Inv (aloopD cnt hi b s).
Proof.
  induction cnt as [|c IH]; intros hi s H I; cbn [aloopD]; [exact I|]. eapply safe_bind; [apply H; auto; lia|].
  intros s' I'. apply IH; auto. intros. apply H; auto; lia.
Qed.
Lemma safe_forD {S} (Inv : S -> Prop) lo hi (b : Z -> S -> act S) s :
  (forall i s, lo <= i < hi -> Inv s -> safe F n Inv (b i s)) -> Inv s -> safe F n Inv (aforD hi lo b s).
Proof. intros. apply safe_loopD; auto. intros. apply H; auto; lia. Qed.
Definition either {S R} (Inv : S -> Prop) (Post : R -> Prop) (x : step S R) : Prop := match x with Next s => Inv s | Exit r => Post r end.
Lemma safe_forUx {S R} (Inv : S -> Prop) (Post : R -> Prop) lo hi (b : Z -> S -> act (step S R)) s :
  (forall i s, lo <= i < hi -> Inv s -> safe F n (either Inv Post) (b i s)) -> Inv s -> safe F n (either Inv Post) (aforUx lo hi b s).
Proof.
  intros H I. unfold aforUx.
  assert (G : forall cnt i s, lo <= i -> i + Z.of_nat cnt <= Z.max lo hi -> Inv s -> safe F n (either Inv Post) (aloopUx cnt i b s)).
  { induction cnt as [|c IH]; intros i s0 L1 L2 I0; cbn [aloopUx]; [exact I0|]. eapply safe_bind; [apply H; auto; lia|].
    intros [s'|r] K; [apply IH; auto; lia|exact K]. }
  apply G; auto; lia.
Qed.
Lemma safe_forDx {S R} (Inv : S -> Prop) (Post : R -> Prop) lo hi (b : Z -> S -> act (step S R)) s :
  (forall i s, lo <= i < hi -> Inv s -> safe F n (either Inv Post) (b i s)) -> Inv s -> safe F n (either Inv Post) (aforDx hi lo b s).
Proof.
  intros H I. unfold aforDx.
  assert (G : forall cnt i s, i <= hi -> Z.min lo hi <= i - Z.of_nat cnt -> Inv s -> safe F n (either Inv Post) (aloopDx cnt i b s)).
  { induction cnt as [|c IH]; intros i s0 L1 L2 I0; cbn [aloopDx]; [exact I0|]. eapply safe_bind; [apply H; auto; lia|].
    intros [s'|r] K; [apply IH; auto; lia|exact K]. }
  apply G; auto; lia.
Qed.
Lemma safe_while {S R} (HF : F) (Inv : S -> Prop) (Post : R -> Prop) (b : S -> act (step S R)) :
  (forall s, Inv s -> safe F n (either Inv Post) (b s)) -> forall fuel s, Inv s -> safe F n Post (awhileF fuel b s).
Proof.
  intros H. induction fuel as [|f IH]; intros s I; cbn [awhileF]; [now split|]. eapply safe_bind; [apply H, I|].
  intros [s'|r] K; [now apply IH|exact K].
Qed.
Lemma okf_while {S R} (HF : F) (Inv : S -> Prop) (Post : R -> Prop) (b : S -> outcome (step S R)) :
  (forall s, Inv s -> okf F (either Inv Post) (b s)) -> forall fuel s, Inv s -> okf F Post (whileF fuel b s).
Proof.
  intros H. induction fuel as [|f IH]; intros s I; cbn [whileF]; [now split|]. specialize (H s I). destruct (b s) as [[s'|r]|e]; cbn in *; auto.
Qed.
Lemma vsafe_at x : vsafe n (at_ x).
Proof. intros G i Hi. cbn. auto. Qed.
Lemma vsafe_local l : wf n l -> vsafe n (local l).
Proof. intros W G i Hi. unfold local. pose proof (wf_len _ _ W). rewrite aget_ok by lia. apply (wf_znth n), W. Qed.
Lemma safe_at x i : 0 <= i < n -> safe F n block (at_ x i).
Proof. apply vsafe_at. Qed.
Lemma safe_aput x i v : 0 <= i < n -> block v -> safe F n (fun _ => True) (aput x i v).
Proof. intros. cbn. auto. Qed.
Lemma safe_aset a i v : wf n a -> 0 <= i < n -> block v -> safe F n (wf n) (pure (aset a i v)).
Proof. intros W Hi Hv. pose proof (wf_len _ _ W). rewrite aset_ok by lia. now apply wf_upd. Qed.
Lemma safe_aget a i : wf n a -> 0 <= i < n -> safe F n block (pure (aget a i)).
Proof. intros. now apply vsafe_local. Qed.
Lemma tot_ok x : tot n x -> safe F n (wf n) (pure x).
Proof. intros (r & -> & W). exact W. Qed.
Lemma safe_any {A} (P : A -> Prop) (c : act A) : safe F n P c -> safe F n (fun _ => True) c.
Proof. apply safe_mono. auto. Qed.

Context (Hn : 1 <= n).
Lemma s_copy v : vsafe n v -> safe F n (wf n) (v_copy n v).
Proof.
  intros H. unfold v_copy. apply safe_forU; [|apply wf_zeros; lia]. intros i r Hi W. eapply safe_bind; [now apply H|]. intros b B. now apply safe_aset.
Qed.
Lemma s_filled v : vsafe n v -> safe F n (fun f => 0 <= f <= n) (v_filledBlocksNumber n v).
Proof.
  intros H. unfold v_filledBlocksNumber. eapply safe_bind.
  - apply (safe_forDx (fun _ => True) (fun f => 0 <= f <= n)); auto. intros i s Hi _. eapply safe_bind; [now apply H|]. intros b B.
    destruct (negb (b =? 0)); cbn; auto. lia.
  - intros [?|?]; cbn; auto. lia.
Qed.
Lemma s_isZero v : vsafe n v -> safe F n (fun _ => True) (v_isZero n v).
Proof. intros H. unfold v_isZero. eapply safe_bind; [now apply s_filled|]. cbn. auto. Qed.
Lemma s_isOdd v : vsafe n v -> safe F n (fun _ => True) (v_isOdd v).
Proof. intros H. unfold v_isOdd. eapply safe_bind; [apply H; lia|]. cbn. auto. Qed.
Lemma s_getBit cfg v i : cfg_unsafe cfg = false -> vsafe n v -> 0 <= i -> safe F n (fun _ => True) (v_getBit cfg n v i).
Proof.
  intros U H Hi. unfold v_getBit. rewrite U. cbn [negb andb]. destruct (Z.geb_spec i (32 * n)); [exact I|]. cbv zeta. unfold blockBitLength.
  assert (0 <= i / 32 < n) by (split; [apply Z.div_pos; lia|apply Z.div_lt_upper_bound; lia]).
  pose proof (Z.mod_pos_bound i 32 ltac:(lia)).
  eapply safe_bind with (Q := fun _ => True).
  - unfold assert_. destruct (cfg_ndebug cfg); [exact I|]. destruct (Z.ltb_spec (i / 32) n); [|lia]. destruct (Z.ltb_spec (i mod 32) 32); [exact I|lia].
  - intros _ _. eapply safe_bind; [now apply H|]. cbn. auto.
Qed.
Lemma s_compareTo cfg v w : cfg_unsafe cfg = false -> vsafe n v -> vsafe n w -> safe F n (fun _ => True) (v_compareTo cfg n v w).
Proof.
  intros U H K. unfold v_compareTo. eapply safe_bind.
  - apply (safe_forDx (fun _ => True) (fun _ => True)); auto. intros i s Hi _. eapply safe_bind; [now apply H|]. intros b B.
    unfold v_getBlock. rewrite U. cbn [negb andb]. destruct (Z.geb_spec i n); [lia|]. eapply safe_bind; [now apply K|]. intros b' B'.
    destruct (negb (b =? b')); cbn; auto.
  - intros [?|?]; cbn; auto.
Qed.
Lemma s_eq cfg v w : cfg_unsafe cfg = false -> vsafe n v -> vsafe n w -> safe F n (fun _ => True) (v_eq cfg n v w).
Proof. intros. unfold v_eq. eapply safe_bind; [now apply s_compareTo|]. cbn. auto. Qed.
Lemma s_rel cfg v w f : cfg_unsafe cfg = false -> vsafe n v -> vsafe n w -> safe F n (fun _ => True) (v_rel cfg n v w f).
Proof. intros. unfold v_rel. eapply safe_bind; [now apply s_compareTo|]. cbn. auto. Qed.
Lemma s_neg v : vsafe n v -> safe F n (wf n) (v_neg n v).
Proof. intros H. unfold v_neg. eapply safe_bind; [now apply s_copy|]. intros r W. apply tot_ok. eapply yields_tot, op_neg_correct, W. Qed.
Lemma s_not v : vsafe n v -> safe F n (wf n) (v_not n v).
Proof.
  intros H. unfold v_not. apply safe_forU; [|apply wf_zeros; lia]. intros i r Hi W. eapply safe_bind; [now apply H|]. intros b B.
  apply safe_aset; auto. apply not32_range.
Qed.
Lemma s_sub_local r v : wf n r -> vsafe n v -> safe F n (wf n) (v_sub_local n r v).
Proof.
  intros W H. unfold v_sub_local. eapply safe_bind; [now apply s_neg|]. intros nb Wb. apply tot_ok. eapply yields_tot, add_assign_correct; auto.
Qed.
Lemma s_mul_inner i t d sl b : 0 <= i < n -> (forall j, 0 <= j < sl -> safe F n (fun _ => True) (d j)) -> wf n b ->
  safe F n (fun r => wf n (fst r)) (v_mul_inner n i t d sl b).
Proof.
  intros Hi H W. unfold v_mul_inner. apply safe_forU; [|exact W]. intros j [b1 c1] Hj W1. cbn [fst] in W1. eapply safe_bind; [apply H; lia|].
  intros f _. cbv zeta. eapply safe_bind; [apply safe_aget; auto; lia|]. intros x _. eapply safe_bind; [apply safe_aset; auto; [lia|apply u32_range]|].
  intros b' W'. exact W'.
Qed.
Lemma s_multiplyLines v vl w wl : vsafe n v -> vsafe n w -> 0 <= vl <= n -> 0 <= wl <= n -> safe F n (wf n) (v_multiplyLines n v vl w wl).
Proof.
  intros H K Hv Hw. unfold v_multiplyLines. apply safe_forU; [|apply wf_zeros; lia]. intros i b Hi W. eapply safe_bind; [apply H; lia|]. intros t _.
  eapply safe_bind; [apply s_mul_inner; auto; [lia|intros; apply safe_any with block, K; lia]|]. intros [b' c] W'. cbn [fst] in W'.
  destruct (wl <? n) eqn:?, (wl + i <? n) eqn:?; cbn [andb]; try exact W'. eapply safe_bind; [apply safe_aget; auto; lia|]. intros x _.
  apply safe_aset; auto; [lia|apply u32_range].
Qed.
Lemma s_mul v w : vsafe n v -> vsafe n w -> safe F n (wf n) (v_mul n v w).
Proof.
  intros H K. unfold v_mul. eapply safe_bind; [now apply s_filled|]. intros f Ff. eapply safe_bind; [now apply s_filled|]. intros g G.
  destruct (f >? g); now apply s_multiplyLines.
Qed.
Lemma s_one : safe F n (wf n) (pure (from_unsigned n (zeros n) 1)).
Proof. destruct (one_spec n Hn) as (o & E & W & _). now apply safe_ok with o. Qed.
Definition pairwf (qr : list Z * list Z) : Prop := wf n (fst qr) /\ wf n (snd qr).
Lemma s_divide cfg v w : cfg_unsafe cfg = false -> vsafe n v -> vsafe n w -> safe F n pairwf (v_divide cfg n v w).
Proof.
  intros U H K. assert (W0 : wf n (aeu_zero n)) by (apply wf_zeros; lia). unfold v_divide.
  eapply safe_bind; [now apply s_compareTo|]. intros c _. cbv zeta. destruct c.
  - eapply safe_bind; [apply s_one|]. intros o Wo. now split.
  - eapply safe_bind; [now apply s_copy|]. intros r Wr. now split.
  - eapply safe_bind; [now apply s_filled|]. intros f Ff. apply safe_forD; [|now split]. unfold blockBitLength. intros i [q r] Hi [Wq Wr]. cbn [fst snd] in *.
    eapply safe_bind; [apply tot_ok; eapply yields_tot, shl_total; auto; lia|]. intros r1 W1.
    eapply safe_bind; [apply s_getBit; auto; lia|]. intros bit _.
    eapply safe_bind; [apply tot_ok, setBit_tot; auto; lia|]. intros r2 W2.
    eapply safe_bind; [apply s_rel; auto; now apply vsafe_local|]. intros ge _. destruct ge; [|now split].
    eapply safe_bind; [now apply s_sub_local|]. intros r3 W3. eapply safe_bind; [apply tot_ok, setBit_tot; auto; lia|]. intros q' Wq'. now split.
  - eapply safe_bind; [apply s_one|]. intros o Wo. now split.
Qed.
Lemma gcd_loop_any cfg fuel g r : wf n g -> wf n r -> 64 * n + 3 <= Z.of_nat fuel -> tot n (gcd_loop cfg n fuel (g, r)).
Proof.
  intros Wg Wr Hf. destruct fuel as [|f]; [lia|]. unfold gcd_loop. cbn [whileF]. rewrite op_eq_u32_spec by (auto || lia). cbn [bind].
  destruct (Z.eqb_spec (bval r) 0); [cbn [bind]; exists g; auto|]. cbv zeta.
  destruct (divide_spec cfg n g r Hn Wg Wr) as (q & r' & E & Wq & Wr' & EQ & HR & _). rewrite E. cbn [bind].
  destruct (gcd_loop_spec cfg n (Z.gcd (bval r) (bval r')) f r r' Hn Wr Wr') as (x & Ex & [Wx _]); auto; [lia|]. exists x. split; auto.
Qed.
Lemma s_gcd cfg fuel v w : 64 * n + 3 <= Z.of_nat fuel -> cfg_unsafe cfg = false -> vsafe n v -> vsafe n w -> safe F n (wf n) (v_gcd cfg fuel n v w).
Proof.
  intros Hf U H K. unfold v_gcd. eapply safe_bind; [now apply s_compareTo|]. intros c _. eapply safe_bind with (Q := pairwf).
  - destruct c; (eapply safe_bind; [apply s_copy; auto|]; intros g Wg; eapply safe_bind; [apply s_divide; auto|]; intros [q r] [_ Wr]; now split).
  - intros [g r] [Wg Wr]. apply tot_ok. now apply gcd_loop_any.
Qed.
Lemma s_lcm cfg fuel v w : 64 * n + 3 <= Z.of_nat fuel -> cfg_unsafe cfg = false -> vsafe n v -> vsafe n w -> safe F n (wf n) (v_lcm cfg fuel n v w).
Proof.
  intros Hf U H K. unfold v_lcm. eapply safe_bind; [now apply s_gcd|]. intros g Wg.
  eapply safe_bind; [apply s_divide; auto; now apply vsafe_local|]. intros [q r] [Wq _]. apply s_mul; auto. now apply vsafe_local.
Qed.
Lemma tot_mul a b : wf n a -> wf n b -> safe F n (wf n) (pure (op_mul n a b)).
Proof. intros. apply tot_ok. unfold op_mul. eapply yields_tot, mul_assign_correct; auto. Qed.
Lemma s_powm cfg v w u : cfg_unsafe cfg = false -> vsafe n v -> vsafe n w -> vsafe n u -> safe F n (wf n) (v_powm cfg n v w u).
Proof.
  intros U Hv Hw Hu. unfold v_powm. eapply safe_bind; [apply s_one|]. intros o Wo. eapply safe_bind; [now apply s_divide|]. intros [q b] [_ Wb].
  cbn [snd] in Wb. eapply safe_bind; [now apply s_filled|]. intros f Ff. eapply safe_bind with (Q := pairwf).
  - apply safe_forU; [|now split]. unfold blockBitLength. intros i [o1 b1] Hi [W1 W2]. cbn [fst snd] in *. eapply safe_bind; [apply s_getBit; auto; lia|].
    intros bit _. eapply safe_bind with (Q := wf n).
    + destruct bit; [|exact W1]. eapply safe_bind; [now apply tot_mul|]. intros p Wp.
      eapply safe_bind; [apply s_divide; auto; now apply vsafe_local|]. intros [q1 r1] [_ Wr]. exact Wr.
    + intros o2 W3. eapply safe_bind; [now apply tot_mul|]. intros p Wp. eapply safe_bind; [apply s_divide; auto; now apply vsafe_local|].
      intros [q2 r2] [_ Wr]. now split.
  - intros [o1 b1] [W1 _]. exact W1.
Qed.
(** One byte that is not 0 has a highest bit (Aeu.h l.1013-1015). *)
Lemma byte_scan byte (r : Z -> Z) : 0 <= byte < 256 -> byte <> 0 -> (forall b, 0 <= b -> 0 <= r b) ->
  exists x, forDx bitsInByte 0 (fun bitN (_ : unit) =>
    if negb (Z.shiftr (Z.land byte (Z.shiftl 1 bitN)) bitN =? 0) then Ok (Exit (r bitN)) else Ok (Next tt)) tt = Ok (Exit x) /\ 0 <= x.
Proof.
  intros B N R. unfold bitsInByte.
  match goal with |- context [forDx ?h ?l ?bd ?s] =>
    destruct (forDx_spec (fun i (_ : unit) => forall j, i <= j < 8 -> Z.testbit byte j = false) (fun x => 0 <= x) h l bd s) as (y & E & P) end; try lia.
  - intros j [] Hj IH. destruct (Z.eqb_spec (Z.shiftr (Z.land byte (Z.shiftl 1 j)) j) 0) as [Z0|]; cbn [negb].
    + eexists. split; [reflexivity|]. cbn. intros k Hk. destruct (Z.eq_dec k j) as [->|]; [|apply IH; lia].
      apply (f_equal (fun z => Z.testbit z 0)) in Z0. rewrite Z.shiftr_spec, Z.land_spec, Z.shiftl_spec, Z.testbit_0_l in Z0 by lia.
      replace (0 + j - j) with 0 in Z0 by lia. replace (0 + j) with j in Z0 by lia. rewrite andb_true_r in Z0. exact Z0.
    + eexists. split; [reflexivity|]. cbn. apply R. lia.
  - rewrite E. destruct y as [[]|x]; cbn in P; [|eauto]. exfalso. apply N. apply Z.bits_inj'. intros k Hk. rewrite Z.testbit_0_l.
    destruct (Z.lt_ge_cases k 8); [apply P; lia|]. destruct (Z.eq_dec byte 0) as [->|]; [apply Z.testbit_0_l|].
    apply Z.bits_above_log2; [lia|]. apply Z.log2_lt_pow2; [lia|]. apply Z.lt_le_trans with (2 ^ 8); [change (2 ^ 8) with 256; lia|].
    apply Z.pow_le_mono_r; lia.
Qed.
Lemma s_bitCount v : vsafe n v -> safe F n (fun c => 0 <= c) (v_bitCount n v).
Proof.
  intros H. unfold v_bitCount. eapply safe_bind with (Q := fun l => 0 <= l < n).
  { unfold v_lastBlockIndex. eapply safe_bind.
    - apply (safe_forDx (fun _ => True) (fun l => 0 <= l < n)); auto. intros i s Hi _. eapply safe_bind; [apply H; lia|]. intros b _.
      destruct (b =? 0); cbn; auto. lia.
    - intros [?|?]; cbn; auto. lia. }
  intros l L. eapply safe_bind.
  - apply (safe_forDx (fun _ => True) (fun c => 0 <= c)); auto. unfold blockBytes. intros i s Hi _. eapply safe_bind; [apply H; lia|]. intros b _. cbv zeta.
    pose proof (byteOf_spec b i ltac:(lia)) as E. assert (B : 0 <= byteOf b i < 256) by (rewrite E; apply (Z.mod_pos_bound _ (2 ^ 8)); lia).
    destruct (Z.eqb_spec (byteOf b i) 0) as [|N]; [cbn; auto|].
    destruct (byte_scan (byteOf b i) (fun bitN => (l * 4 + i) * bitsInByte + bitN + 1) B N) as (x & Ex & Px); [unfold bitsInByte; lia|].
    rewrite Ex. cbn. exact Px.
  - intros [?|?]; cbn; auto. intros _. unfold blockBytes. lia.
Qed.
Lemma s_squareRoot cfg fuel v (HF : F) : cfg_unsafe cfg = false -> vsafe n v -> safe F n (wf n) (v_squareRoot cfg fuel n v).
Proof.
  intros U H. unfold v_squareRoot. eapply safe_bind; [now apply s_bitCount|]. intros c C. cbv beta in C.
  eapply safe_bind; [apply tot_ok; eapply yields_tot, power2_total; auto; [lia|apply Z.div_pos; lia]|]. intros y Wy.
  apply (safe_while HF) with (Inv := wf n); auto. intros x Wx. cbv zeta. eapply safe_bind; [apply s_divide; auto; now apply vsafe_local|].
  intros [q r] [Wq _]. cbn [fst] in Wq. eapply safe_bind; [apply tot_ok; unfold op_add; eapply yields_tot, add_assign_correct; auto|]. intros s Ws.
  eapply safe_bind; [apply tot_ok; unfold op_shr; eapply yields_tot, shr_total; auto; lia|]. intros y' Wy'.
  rewrite op_lt_same by auto. cbn [pure abind]. destruct (bval y' <? bval x); cbn; auto.
Qed.

(** ** Functions that assign *)
Notation done c := (safe F n (fun _ => True) c).
Lemma s_assign d v : vsafe n v -> done (t_assign n d v).
Proof. intros H. unfold t_assign. apply safe_forU; auto. intros i s Hi _. eapply safe_bind; [now apply H|]. intros b B. now apply safe_aput. Qed.
Lemma s_add a v : vsafe n v -> done (t_add_assign n a v).
Proof.
  intros H. unfold t_add_assign. eapply safe_bind; [|cbn; auto]. apply safe_forU with (Inv := fun _ => True); auto. intros i s Hi _.
  eapply safe_bind; [now apply safe_at|]. intros d _. eapply safe_bind; [now apply H|]. intros b _. cbv zeta.
  eapply safe_bind; [apply safe_aput; auto; apply u32_range|]. cbn. auto.
Qed.
Lemma s_sub a v : vsafe n v -> done (t_sub_assign n a v).
Proof. intros H. unfold t_sub_assign. eapply safe_bind; [now apply s_neg|]. intros nb W. apply s_add. now apply vsafe_local. Qed.
Lemma s_op cfg o a v : cfg_unsafe cfg = false -> vsafe n v -> done (t_op_assign cfg o n a v).
Proof.
  intros U H. pose proof (vsafe_at a) as Ha.
  assert (BW : forall op, (forall x y, block x -> block y -> block (op x y)) -> done (t_bitwise_assign op n a v)).
  { intros op K. unfold t_bitwise_assign. apply safe_forU; auto. intros i s Hi _. eapply safe_bind; [now apply safe_at|]. intros x X.
    eapply safe_bind; [now apply H|]. intros y Y. apply safe_aput; auto. }
  destruct o; cbn [t_op_assign].
  - now apply s_add.
  - now apply s_sub.
  - unfold t_mul_assign. eapply safe_bind; [now apply s_mul|]. intros b W. apply s_assign. now apply vsafe_local.
  - unfold t_div_assign. eapply safe_bind; [now apply s_divide|]. intros [q r] [Wq Wr]. apply s_assign. now apply vsafe_local.
  - unfold t_mod_assign. eapply safe_bind; [now apply s_divide|]. intros [q r] [Wq Wr]. apply s_assign. now apply vsafe_local.
  - apply BW. apply lxor_range.
  - apply BW. intros. now apply land_range.
  - apply BW. apply lor_range.
Qed.
Lemma s_binary cfg o d a b : cfg_unsafe cfg = false -> done (t_binary cfg o n d a b).
Proof.
  intros U. pose proof (vsafe_at a) as Ha. pose proof (vsafe_at b) as Hb.
  assert (G : done (_ <~ t_assign n (Tmp 5) (at_ a) ;; _ <~ t_op_assign cfg o n (Tmp 5) (at_ b) ;; t_assign n d (at_ (Tmp 5)))).
  { eapply safe_bind; [now apply s_assign|]. intros _ _. eapply safe_bind; [now apply s_op|]. intros _ _. apply s_assign, vsafe_at. }
  destruct o; cbn [t_binary]; try exact G;
    (eapply safe_bind; [now apply s_divide|]; intros [q r] [Wq Wr]; apply s_assign; now apply vsafe_local).
Qed.
Lemma s_inc a : done (t_inc n a).
Proof.
  unfold t_inc. eapply safe_bind; [|cbn; auto]. apply safe_any with (either (fun _ => True) (fun _ => True)).
  apply safe_forUx; auto. intros i s Hi _. eapply safe_bind; [now apply safe_at|]. intros b _.
  destruct (b <? blockMax); (eapply safe_bind; [apply safe_aput; [exact Hi|first [apply u32_range | unfold block; lia] ]|cbn; auto]).
Qed.
Lemma s_dec a : done (t_dec n a).
Proof.
  unfold t_dec. eapply safe_bind; [|cbn; auto]. apply safe_any with (either (fun _ => True) (fun _ => True)).
  apply safe_forUx; auto. intros i s Hi _. eapply safe_bind; [now apply safe_at|]. intros b _.
  destruct (b >? 0); (eapply safe_bind; [apply safe_aput; [exact Hi|first [apply u32_range | unfold block, blockMax; lia] ]|cbn; auto]).
Qed.
Lemma s_add_u t a v : done (t_add_assign_u n t a v).
Proof.
  unfold t_add_assign_u. eapply safe_bind; [|cbn; auto]. apply safe_forU with (Inv := fun _ => True); auto. intros i s Hi _.
  eapply safe_bind; [now apply safe_at|]. intros b _. cbv zeta. eapply safe_bind; [apply safe_aput; auto; apply u32_range|]. cbn. auto.
Qed.
Lemma s_mul_u t a v : done (t_mul_assign_u n t a v).
Proof.
  unfold t_mul_assign_u. destruct (is_uint64_t t).
  - eapply safe_bind; [apply s_filled, vsafe_at|]. intros l L. cbv beta in L. cbv zeta. set (sl := if v >? blockMax then 2 else 1).
    assert (S : 1 <= sl) by (unfold sl; destruct (v >? blockMax); lia).
    eapply safe_bind with (Q := wf n); [|intros; apply s_assign; now apply vsafe_local].
    apply safe_forU; [|apply wf_zeros; lia]. intros i b Hi W. eapply safe_bind; [apply safe_at; lia|]. intros x _.
    eapply safe_bind; [apply s_mul_inner; auto; [lia|intros; exact I]|]. intros [b' c] W'. cbn [fst] in W'. destruct (Z.ltb_spec (sl + i) n); [|exact W'].
    eapply safe_bind; [apply safe_aget; auto; lia|]. intros y _. apply safe_aset; auto; [lia|apply u32_range].
  - eapply safe_bind; [|cbn; auto]. apply safe_forU with (Inv := fun _ => True); auto. intros i s Hi _.
    eapply safe_bind; [now apply safe_at|]. intros b _. cbv zeta. eapply safe_bind; [apply safe_aput; auto; apply u32_range|]. cbn. auto.
Qed.
Lemma s_shl a k : 0 <= k -> done (t_shl_assign n a k).
Proof.
  intros Hk. unfold t_shl_assign. destruct (Z.geb_spec k (32 * n)); [exact I|]. destruct (Z.eqb_spec k 0); [exact I|]. cbn [orb]. cbv zeta. unfold blockBitLength.
  assert (0 <= k / 32 < n) by (split; [apply Z.div_pos; lia|apply Z.div_lt_upper_bound; lia]).
  pose proof (Z.mod_pos_bound k 32 ltac:(lia)) as M. set (q := k / 32) in *. set (r := k mod 32) in *.
  assert (R1 : 0 <= b2z (negb (r =? 0)) <= 1) by (unfold b2z; destruct (negb _); lia). set (r1 := b2z (negb (r =? 0))) in *.
  eapply safe_bind with (Q := fun _ => True).
  { apply safe_forD; auto. intros i s Hi _. eapply safe_bind; [apply safe_at; lia|]. intros x X. eapply safe_bind; [apply safe_at; lia|]. intros y Y.
    apply safe_aput; [lia|]. apply lor_range; [apply u32_range|]. apply shiftr_range; [apply Z.mod_pos_bound; lia|]. now apply land_range. }
  intros _ _. eapply safe_bind; [apply safe_at; lia|]. intros x X. eapply safe_bind; [apply safe_aput; [lia|apply u32_range]|]. intros _ _.
  apply safe_forU; auto. intros i s Hi _. apply safe_aput; [lia|unfold block; lia].
Qed.
Lemma s_shr a k : 0 <= k -> done (t_shr_assign n a k).
Proof.
  intros Hk. unfold t_shr_assign. destruct (Z.geb_spec k (32 * n)); [exact I|]. destruct (Z.eqb_spec k 0); [exact I|]. cbn [orb]. cbv zeta. unfold blockBitLength.
  assert (0 <= k / 32 < n) by (split; [apply Z.div_pos; lia|apply Z.div_lt_upper_bound; lia]).
  pose proof (Z.mod_pos_bound k 32 ltac:(lia)) as M. set (q := k / 32) in *. set (r := k mod 32) in *.
  assert (R1 : 0 <= b2z (negb (r =? 0)) <= 1) by (unfold b2z; destruct (negb _); lia). set (r1 := b2z (negb (r =? 0))) in *.
  eapply safe_bind with (Q := fun _ => True).
  { apply safe_forU; auto. intros i s Hi _. eapply safe_bind; [apply safe_at; lia|]. intros x X. eapply safe_bind; [apply safe_at; lia|]. intros y Y.
    apply safe_aput; [lia|]. apply lor_range; [apply u32_range|]. apply shiftr_range; [lia|]. now apply land_range. }
  intros _ _. eapply safe_bind; [apply safe_at; lia|]. intros x X.
  eapply safe_bind; [apply safe_aput; [lia|apply shiftr_range; [lia|now apply land_range] ]|]. intros _ _.
  apply safe_forU; auto. intros i s Hi _. apply safe_aput; [lia|unfold block; lia].
Qed.
Lemma s_setBit cfg a i b : cfg_unsafe cfg = false -> 0 <= i -> done (t_setBit cfg n a i b).
Proof.
  intros U Hi. unfold t_setBit. rewrite U. cbn [negb andb]. destruct (Z.geb_spec i (32 * n)); [exact I|]. cbv zeta. unfold blockBitLength.
  assert (0 <= i / 32 < n) by (split; [apply Z.div_pos; lia|apply Z.div_lt_upper_bound; lia]).
  pose proof (Z.mod_pos_bound i 32 ltac:(lia)).
  eapply safe_bind with (Q := fun _ => True).
  - unfold assert_. destruct (cfg_ndebug cfg); [exact I|]. destruct (Z.ltb_spec (i / 32) n); [|lia]. destruct (Z.ltb_spec (i mod 32) 32); [exact I|lia].
  - intros _ _. eapply safe_bind; [now apply safe_at|]. intros x X. destruct b; apply safe_aput; auto.
    + apply lor_range; auto. rewrite Z.shiftl_1_l. split; [apply Z.pow_nonneg; lia|apply Z.pow_lt_mono_r; lia].
    + now apply land_range.
Qed.
Lemma s_swap a b : done (t_swap n a b).
Proof. unfold t_swap. eapply safe_bind; [apply s_assign, vsafe_at|]. intros _ _. eapply safe_bind; [apply s_assign, vsafe_at|]. intros _ _. apply s_assign, vsafe_at. Qed.
Lemma s_tdivide cfg nu de q r : cfg_unsafe cfg = false -> done (t_divide cfg n nu de q r).
Proof.
  intros U. assert (W0 : wf n (aeu_zero n)) by (apply wf_zeros; lia). unfold t_divide.
  eapply safe_bind; [apply s_compareTo; auto; apply vsafe_at|]. intros c _.
  eapply safe_bind; [apply s_assign; now apply vsafe_local|]. intros _ _. eapply safe_bind; [apply s_assign; now apply vsafe_local|]. intros _ _.
  destruct c.
  - eapply safe_bind; [apply s_one|]. intros o Wo. apply s_assign. now apply vsafe_local.
  - apply s_assign, vsafe_at.
  - eapply safe_bind; [apply s_filled, vsafe_at|]. intros f Ff. cbv beta in Ff. apply safe_forD; auto. unfold blockBitLength. intros i s Hi _.
    eapply safe_bind; [apply s_shl; lia|]. intros _ _. eapply safe_bind; [apply s_getBit; auto; [apply vsafe_at|lia]|]. intros bit _.
    eapply safe_bind; [apply s_setBit; auto; lia|]. intros _ _. eapply safe_bind; [apply s_rel; auto; apply vsafe_at|]. intros ge _. destruct ge; [|exact I].
    eapply safe_bind; [apply s_sub, vsafe_at|]. intros _ _. apply s_setBit; auto; lia.
  - eapply safe_bind; [apply s_one|]. intros o Wo. apply s_assign. now apply vsafe_local.
Qed.
Lemma s_store d c : safe F n (wf n) c -> done (t_store n d c).
Proof. intros H. unfold t_store. eapply safe_bind; [exact H|]. intros r W. apply s_assign. now apply vsafe_local. Qed.

Lemma s_exec cfg i : cfg_unsafe cfg = false -> uinstr_typed i -> F \/ straight (Do i) -> done (texec cfg n i).
Proof.
  intros U T SF. assert (AT : forall x, vsafe n (at_ x)) by apply vsafe_at. assert (GF : 64 * n + 3 <= Z.of_nat (gfuel n)) by (unfold gfuel; lia).
  destruct i; cbn [texec uinstr_typed] in *.
  - apply s_assign, AT.
  - apply s_store, tot_ok. eapply yields_tot, from_unsigned_correct; auto; [lia|apply len_zeros; lia].
  - now apply s_op.
  - now apply s_binary.
  - apply s_inc.
  - apply s_dec.
  - apply s_store, s_neg, AT.
  - apply s_store, s_not, AT.
  - now apply s_shl.
  - now apply s_shr.
  - now apply s_setBit.
  - apply s_add_u.
  - apply s_mul_u.
  - apply s_swap.
  - now apply s_tdivide.
  - apply s_store. now apply s_gcd.
  - apply s_store. now apply s_lcm.
  - apply s_store. destruct SF as [HF|[] ]. now apply s_squareRoot.
  - apply s_store, tot_ok. eapply yields_tot, power2_total; auto; lia.
  - apply s_store. now apply s_powm.
Qed.
Lemma s_test cfg c : cfg_unsafe cfg = false -> ucond_typed c -> done (ttest cfg n c).
Proof.
  intros U T. assert (AT : forall x, vsafe n (at_ x)) by apply vsafe_at. destruct c; cbn [ttest ucond_typed] in *.
  - now apply s_eq.
  - eapply safe_bind; [now apply s_eq|]. cbn. auto.
  - now apply s_rel.
  - now apply s_rel.
  - now apply s_rel.
  - now apply s_rel.
  - now apply s_isOdd.
  - now apply s_isZero.
  - now apply s_getBit.
Qed.
Lemma s_run cfg : cfg_unsafe cfg = false -> forall fuel p, typed uinstr_typed ucond_typed p ->
  F \/ (straight p /\ (depth p <= fuel)%nat) -> done (trun cfg n fuel p).
Proof.
  intros U. induction fuel as [|f IH]; intros p T SF; cbn [trun].
  { cbn [safe]. destruct SF as [HF|[_ D] ]; [now split|]. destruct p; cbn [depth] in D; lia. }
  destruct p as [|i|s t|c s t|c s]; cbn [typed straight depth] in *.
  - exact I.
  - apply s_exec; auto. destruct SF as [HF|[S _] ]; auto.
  - destruct T. eapply safe_bind; [apply IH; auto|intros _ _; apply IH; auto]; (destruct SF as [HF|[ [? ?] ?] ]; [left; exact HF|right; split; auto; lia]).
  - destruct T as (? & ? & ?). eapply safe_bind; [now apply s_test|].
    intros [] _; apply IH; auto; (destruct SF as [HF|[ [? ?] ?] ]; [left; exact HF|right; split; auto; lia]).
  - destruct T. destruct SF as [HF|[ [] _] ]. eapply safe_bind; [now apply s_test|]. intros [] _; [|exact I].
    eapply safe_bind; [apply IH; auto|]. intros _ _. apply IH; cbn [typed]; auto.
Qed.
End Safe.
(** One step of a thread. *)
Lemma safe_step F n sh th : (forall x, wf n (sh x)) -> (forall k, wf n (th_tmp th k)) -> safe F n (fun _ => True) (th_act th) ->
  (forall x, wf n (fst (thread_step sh th) x)) /\ (forall k, wf n (th_tmp (snd (thread_step sh th)) k)) /\
  safe F n (fun _ => True) (th_act (snd (thread_step sh th))).
Proof.
  intros HS HT H. destruct th as [c tmp]. unfold thread_step. cbn [th_act th_tmp] in *.
  assert (W : forall l, wf n (seen sh tmp l)) by (intros [l|l]; cbn [seen]; auto).
  destruct c as [a|e|x i k|x i v k]; cbn [safe] in H.
  - auto.
  - auto.
  - destruct H as [Hi H]. unfold mget. pose proof (wf_len _ _ (W x)). rewrite aget_ok by lia. cbn [fst snd th_act th_tmp]. repeat split; auto; try apply HS; try apply HT.
    apply H. apply (wf_znth n), W.
  - destruct H as (Hi & Hv & H). pose proof (wf_len _ _ (W x)). rewrite aset_ok by lia.
    assert (WU : wf n (upd (seen sh tmp x) (Z.to_nat i) v)) by (apply wf_upd; auto).
    destruct x as [x|x]; cbn [fst snd th_act th_tmp seen] in *; (split; [|split; [|exact H] ]); auto; intros y; unfold put_at; destruct (Nat.eqb y x); auto.
Qed.
