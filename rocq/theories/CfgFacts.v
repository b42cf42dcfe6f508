(** * CfgFacts: what AESI_UNSAFE and NDEBUG change.

    Outside the six accessors the configuration never matters: for operands of the right size every function
    computes the same result, object for object, in all build configurations. *)
From Coq Require Import ZifyBool.
From Verif Require Import Spec Lib AeuModel AeuArith AeuBits AeuAccess AeuDiv AeuFacts AeuMore
  AesiModel TextModel TextFacts AliasModel AliasFacts AliasDiv AliasSigned ProgSpec ProgModel ProgFacts ProgTotal ProgSigned.
Open Scope Z_scope.

(** Two outcomes that are the same value, satisfying [P]. *)
Definition agree {A} (P : A -> Prop) (x y : outcome A) : Prop := exists r, x = Ok r /\ y = Ok r /\ P r.
Lemma agree_eq {A} P (x y : outcome A) : agree P x y -> x = y.
Proof. intros (r & -> & -> & _). auto. Qed.
Lemma agree_refl {A} (P : A -> Prop) x r : x = Ok r -> P r -> agree P x x.
Proof. intros -> H. exists r; auto. Qed.
Lemma agree_bind {A B} (P : A -> Prop) (Q : B -> Prop) x y k l :
  agree P x y -> (forall r, P r -> agree Q (k r) (l r)) -> agree Q (bind x k) (bind y l).
Proof. intros (r & -> & -> & H) K. apply K, H. Qed.
Lemma agree_loopD {S} (I : S -> Prop) (f g : Z -> S -> outcome S) : forall c i s, I s ->
  (forall j s, i - Z.of_nat c <= j < i -> I s -> agree I (f j s) (g j s)) -> agree I (loopD c i f s) (loopD c i g s).
Proof.
  induction c as [|c IH]; intros i s H B; cbn [loopD]; [exists s; auto|].
  eapply agree_bind; [apply B; auto; lia|]. intros s' H'. apply IH; auto. intros. apply B; auto. lia.
Qed.
Lemma agree_forD {S} (I : S -> Prop) (f g : Z -> S -> outcome S) hi lo s : lo <= hi -> I s ->
  (forall j s, lo <= j < hi -> I s -> agree I (f j s) (g j s)) -> agree I (forD hi lo f s) (forD hi lo g s).
Proof. intros L H B. apply agree_loopD; auto. intros. apply B; auto. lia. Qed.
Lemma agree_loopU {S} (I : S -> Prop) (f g : Z -> S -> outcome S) : forall c i s, I s ->
  (forall j s, i <= j < i + Z.of_nat c -> I s -> agree I (f j s) (g j s)) -> agree I (loopU c i f s) (loopU c i g s).
Proof.
  induction c as [|c IH]; intros i s H B; cbn [loopU]; [exists s; auto|].
  eapply agree_bind; [apply B; auto; lia|]. intros s' H'. apply IH; auto. intros. apply B; auto. lia.
Qed.
Lemma agree_forU {S} (I : S -> Prop) (f g : Z -> S -> outcome S) hi lo s : lo <= hi -> I s ->
  (forall j s, lo <= j < hi -> I s -> agree I (f j s) (g j s)) -> agree I (forU lo hi f s) (forU lo hi g s).
Proof. intros L H B. apply agree_loopU; auto. intros. apply B; auto. lia. Qed.

Lemma yields_unique n x y z : yields n x z -> yields n y z -> x = y.
Proof. intros (a & -> & Wa & Va) (b & -> & Wb & Vb). f_equal. apply (bval_inj n); auto. congruence. Qed.

(** ** Accessors in range *)
Lemma getBit_cfg cfg cfg' n a i : wf n a -> 0 <= i < 32 * n -> getBit cfg n a i = getBit cfg' n a i.
Proof. intros. now rewrite !getBit_spec. Qed.
Lemma setBit_cfg cfg cfg' n a i b : wf n a -> 0 <= i < 32 * n -> setBit cfg n a i b = setBit cfg' n a i b.
Proof.
  intros Wa Hi. destruct (setBit_spec cfg n a i b Wa Hi) as (r & E & W & V). destruct (setBit_spec cfg' n a i b Wa Hi) as (r' & E' & W' & V').
  rewrite E, E'. f_equal. apply (bval_inj n); auto. congruence.
Qed.
Lemma setBit_agree cfg cfg' n a i b : wf n a -> 0 <= i < 32 * n -> agree (wf n) (setBit cfg n a i b) (setBit cfg' n a i b).
Proof. intros Wa Hi. rewrite (setBit_cfg cfg' cfg) by auto. destruct (setBit_spec cfg n a i b Wa Hi) as (r & E & W & V). eapply agree_refl; eauto. Qed.
Lemma in_range_false cfg b : b = false -> negb (cfg_unsafe cfg) && b = false.
Proof. intros ->. apply andb_false_r. Qed.
Lemma assert_cfg cfg cfg' b : b = true -> assert_ cfg b = assert_ cfg' b.
Proof. intros ->. unfold assert_. destruct (cfg_ndebug cfg), (cfg_ndebug cfg'); auto. Qed.
Lemma getByte_cfg cfg cfg' n a i : wf n a -> 0 <= i < 4 * n -> getByte cfg n a i = getByte cfg' n a i.
Proof. intros. now rewrite !getByte_spec. Qed.
Lemma setByte_cfg cfg cfg' n a i v : 0 <= i < 4 * n -> setByte cfg n a i v = setByte cfg' n a i v.
Proof.
  intros Hi. unfold setByte, blockBytes. rewrite !in_range_false by lia. cbv zeta.
  rewrite (assert_cfg cfg cfg'); auto. apply andb_true_intro. split; [|pose proof (Z.mod_pos_bound i 4); lia].
  assert (i / 4 < n) by (apply Z.div_lt_upper_bound; lia). lia.
Qed.
Lemma getBlock_cfg cfg cfg' n a i : i < n -> getBlock cfg n a i = getBlock cfg' n a i.
Proof. intros Hi. unfold getBlock. now rewrite !in_range_false by lia. Qed.
Lemma setBlock_cfg cfg cfg' n a i v : i < n -> setBlock cfg n a i v = setBlock cfg' n a i v.
Proof. intros Hi. unfold setBlock. now rewrite !in_range_false by lia. Qed.

(** ** Accessors out of range, AESI_UNSAFE *)
Definition unsafe_fault (cfg : config) : fault := if cfg_ndebug cfg then OutOfBounds else AssertFailed.
Lemma bits_over n i : 32 * n <= i -> n <= i / 32. Proof. intros. apply Z.div_le_lower_bound; lia. Qed.
Lemma bytes_over n i : 4 * n <= i -> n <= i / 4. Proof. intros. apply Z.div_le_lower_bound; lia. Qed.
Lemma getBit_unsafe cfg n a i : cfg_unsafe cfg = true -> len a = n -> 32 * n <= i -> getBit cfg n a i = Err (unsafe_fault cfg).
Proof.
  intros U L H. pose proof (bits_over n i H). unfold getBit, assert_, blockBitLength, unsafe_fault. rewrite U. cbn [negb andb]. cbv zeta.
  replace (i / 32 <? n) with false by lia. cbn [andb]. destruct (cfg_ndebug cfg); cbn [bind]; auto. rewrite aget_err by lia. auto.
Qed.
Lemma setBit_unsafe cfg n a i b : cfg_unsafe cfg = true -> len a = n -> 32 * n <= i -> setBit cfg n a i b = Err (unsafe_fault cfg).
Proof.
  intros U L H. pose proof (bits_over n i H). unfold setBit, assert_, blockBitLength, unsafe_fault. rewrite U. cbn [negb andb]. cbv zeta.
  replace (i / 32 <? n) with false by lia. cbn [andb]. destruct (cfg_ndebug cfg); cbn [bind]; auto. rewrite aget_err by lia. auto.
Qed.
Lemma getByte_unsafe cfg n a i : cfg_unsafe cfg = true -> len a = n -> 4 * n <= i -> getByte cfg n a i = Err (unsafe_fault cfg).
Proof.
  intros U L H. pose proof (bytes_over n i H). unfold getByte, assert_, blockBytes, unsafe_fault. rewrite U. cbn [negb andb]. cbv zeta.
  replace (i / 4 <? n) with false by lia. cbn [andb]. destruct (cfg_ndebug cfg); cbn [bind]; auto. rewrite aget_err by lia. auto.
Qed.
Lemma setByte_unsafe cfg n a i v : cfg_unsafe cfg = true -> len a = n -> 4 * n <= i -> setByte cfg n a i v = Err (unsafe_fault cfg).
Proof.
  intros U L H. pose proof (bytes_over n i H). unfold setByte, assert_, blockBytes, unsafe_fault. rewrite U. cbn [negb andb]. cbv zeta.
  replace (i / 4 <? n) with false by lia. cbn [andb]. destruct (cfg_ndebug cfg); cbn [bind]; auto. rewrite aget_err by lia. auto.
Qed.
Lemma getBlock_unsafe cfg n a i : cfg_unsafe cfg = true -> len a = n -> n <= i -> getBlock cfg n a i = Err OutOfBounds.
Proof. intros U L H. unfold getBlock. rewrite U. cbn [negb andb]. apply aget_err. lia. Qed.
Lemma setBlock_unsafe cfg n a i v : cfg_unsafe cfg = true -> len a = n -> n <= i -> setBlock cfg n a i v = Err OutOfBounds.
Proof. intros U L H. unfold setBlock. rewrite U. cbn [negb andb]. apply aset_err. lia. Qed.

(** ** Comparison and division *)
Lemma compareTo_cfg cfg cfg' n m a b : 0 <= n -> 0 <= m -> compareTo cfg n m a b = compareTo cfg' n m a b.
Proof.
  intros Hn Hm. unfold compareTo.
  assert (E : forall hi lo (f g : Z -> unit -> outcome (step unit comparison_t)), (forall i s, lo <= i < hi -> f i s = g i s) -> forDx hi lo f tt = forDx hi lo g tt).
  { intros hi lo f g H. unfold forDx. assert (K : forall c i s, i - Z.of_nat c >= lo -> i <= hi -> loopDx c i f s = loopDx c i g s).
    { induction c as [|c IH]; intros i s A B; cbn [loopDx]; auto. rewrite H by lia. destruct (g (i - 1) s) as [ [|]|]; cbn [bind]; auto. apply IH; lia. }
    destruct (Z.le_gt_cases lo hi); [apply K; lia|]. replace (Z.to_nat (hi - lo)) with O by lia. auto. }
  set (lb := if n <? m then n else m). assert (lb <= m) by (unfold lb; destruct (Z.ltb_spec n m); lia).
  rewrite (E lb 0 _ (fun i (_ : unit) =>
    thisBlock <- aget a i ;; otherBlock <- getBlock cfg' m b i ;;
    if negb (thisBlock =? otherBlock)
    then Ok (Exit (if thisBlock >? otherBlock then CGreater else CLess))
    else Ok (Next tt))).
  2: { intros i s Hi. destruct (aget a i); cbn [bind]; auto. rewrite (getBlock_cfg cfg cfg') by lia. auto. }
  destruct (forDx lb 0 _ tt) as [ [u|c]|e]; cbn [bind]; auto.
  destruct (negb _); auto. destruct (m >? n); auto.
  rewrite (E m lb _ (fun i (_ : unit) =>
                  o <- getBlock cfg' m b i ;;
                  if negb (o =? 0) then Ok (Exit CLess) else Ok (Next tt))); auto.
  intros i s Hi. rewrite (getBlock_cfg cfg cfg') by lia. auto.
Qed.
Lemma spaceship_cfg cfg cfg' n m a b : 0 <= n -> 0 <= m -> op_spaceship cfg n m a b = op_spaceship cfg' n m a b.
Proof. intros. unfold op_spaceship. now rewrite (compareTo_cfg cfg cfg'). Qed.
Lemma op_ge_cfg cfg cfg' n m a b : 0 <= n -> 0 <= m -> op_ge cfg n m a b = op_ge cfg' n m a b.
Proof. intros. unfold op_ge. now rewrite (spaceship_cfg cfg cfg'). Qed.

Lemma filled_bits n a : wf n a -> exists f, filledBlocksNumber n a = Ok f /\ 0 <= f <= n.
Proof.
  intros W. rewrite (filledBlocksNumber_value n a W). eexists. split; [reflexivity|].
  pose proof (bval_bound n a W) as B. pose proof (wf_nonneg _ _ W). destruct (bit_length_bounds (bval a) ltac:(lia)) as [L0 _].
  pose proof (bit_length_le (bval a) (32 * n) ltac:(lia) B) as L1.
  split; [apply Z.div_pos; lia|]. apply Z.lt_succ_r, Z.div_lt_upper_bound; lia.
Qed.

Lemma divide_cfg cfg cfg' n a b : 1 <= n -> wf n a -> wf n b -> divide cfg n a b = divide cfg' n a b.
Proof.
  intros Hn Wa Wb. unfold divide. rewrite (compareTo_cfg cfg' cfg) by lia. destruct (compareTo cfg n n a b) as [c|]; cbn [bind]; auto.
  destruct c; auto. destruct (filled_bits n a Wa) as (f & Ef & Hf). rewrite Ef. cbn [bind].
  apply (agree_eq (fun qr => wf n (fst qr) /\ wf n (snd qr))). unfold blockBitLength.
  assert (W0 : wf n (aeu_zero n)) by (apply wf_zeros; lia).
  apply agree_forD; [lia|cbn [fst snd]; auto|]. intros i [q r] Hi [Wq Wr]. cbn [fst snd] in *.
  destruct (shl_assign_correct n r 1 Wr ltac:(lia)) as (r1 & E1 & W1 & _). rewrite E1. cbn [bind].
  rewrite (getBit_cfg cfg' cfg) by (auto; lia). rewrite getBit_spec by (auto; lia). cbn [bind].
  eapply agree_bind; [apply setBit_agree; auto; lia|]. intros r2 W2. cbv beta.
  rewrite (op_ge_cfg cfg' cfg) by lia. rewrite op_ge_same by auto. cbn [bind]. destruct (bval r2 >=? bval b).
  - destruct (sub_assign_correct n r2 b W2 Wb) as (r3 & E3 & W3 & _). rewrite E3. cbn [bind].
    eapply agree_bind; [apply setBit_agree; auto; lia|]. intros q2 W4. exists (q2, r3). cbn [fst snd]. auto.
  - exists (q, r2). cbn [fst snd]. auto.
Qed.
Lemma m_divide_cfg cfg cfg' n m nu de q r : 1 <= n -> wf n (m nu) -> wf n (m de) -> r <> Tmp 0 -> nu <> Tmp 0 -> de <> Tmp 0 -> q <> Tmp 0 ->
  m_divide cfg n m nu de q r = m_divide cfg' n m nu de q r.
Proof.
  intros Hn Wa Wb R0 N0 D0 Q0. unfold m_divide. rewrite (compareTo_cfg cfg' cfg) by lia.
  destruct (compareTo cfg n n (m nu) (m de)) as [c|]; cbn [bind]; auto. destruct c; auto.
  set (m0 := mput (mput m q (aeu_zero n)) r (aeu_zero n)).
  assert (W0 : wf n (aeu_zero n)) by (apply wf_zeros; lia).
  pose (ok := fun s : mem => wf n (s nu) /\ wf n (s de) /\ wf n (s q) /\ wf n (s r)).
  assert (PUT : forall s x v, ok s -> wf n v -> ok (mput s x v)).
  { intros s x v (A & B & C & D) Wv. unfold ok, mput. destruct (loc_eqb nu x), (loc_eqb de x), (loc_eqb q x), (loc_eqb r x); auto. }
  assert (O0 : ok m0).
  { unfold ok, m0, mput. rewrite (loc_eqb_refl r). destruct (loc_eqb nu q), (loc_eqb de q), (loc_eqb nu r), (loc_eqb de r), (loc_eqb q r); rewrite ?loc_eqb_refl; auto. }
  destruct (filled_bits n (m0 nu)) as (f & Ef & Hf); [apply O0|]. rewrite Ef. cbn [bind].
  apply (agree_eq ok). unfold blockBitLength. apply agree_forD; [lia|auto|]. intros i s Hi Os.
  assert (UPD : forall s x f g, ok s -> agree (wf n) (f (s x)) (g (s x)) -> agree ok (m_update s x f) (m_update s x g)).
  { intros s1 x f1 g1 Os1 (v & E & E' & Wv). exists (mput s1 x v). unfold m_update. rewrite E, E'. cbn [bind]. auto. }
  apply (agree_bind ok).
  { apply UPD; auto. destruct (shl_assign_correct n (s r) 1) as (r1 & E1 & W1 & _); [apply Os|lia|]. eapply agree_refl; eauto. }
  intros s1 O1. cbv beta. rewrite (getBit_cfg cfg' cfg) by (apply O1 || lia). rewrite getBit_spec by (apply O1 || lia). cbn [bind].
  apply (agree_bind ok).
  { apply UPD; auto. apply setBit_agree; [apply O1|lia]. }
  intros s2 O2. cbv beta. rewrite (op_ge_cfg cfg' cfg) by lia. rewrite op_ge_same by apply O2. cbn [bind]. destruct (_ >=? _).
  2: exists s2; auto.
  destruct (m_sub_yields n s2 r de ltac:(lia) R0) as (s3 & E3 & [W3 _] & O3); [apply O2|apply O2|]. rewrite E3. cbn [bind].
  assert (ok s3).
  { destruct O2 as (A & B & C & D). assert (K : forall x, x <> Tmp 0 -> wf n (s2 x) -> wf n (s3 x)).
    { intros x X0 Wx. destruct (loc_eqb_spec x r) as [->|Nx]; auto. rewrite O3 by auto. auto. }
    unfold ok. auto 10. }
  apply UPD; auto. apply setBit_agree; [unfold ok in *; tauto|lia].
Qed.

(** ** Number theory *)
Lemma divide_agree cfg cfg' n a b : 1 <= n -> wf n a -> wf n b ->
  agree (fun qr => wf n (fst qr) /\ wf n (snd qr)) (divide cfg n a b) (divide cfg' n a b).
Proof.
  intros Hn Wa Wb. rewrite (divide_cfg cfg' cfg) by auto. destruct (div_tot cfg n a b Hn Wa Wb) as (q & r & E & Wq & Wr).
  eapply agree_refl; eauto.
Qed.
Lemma agree_whileF {S R} (I : S -> Prop) (J : R -> Prop) (f g : S -> outcome (step S R)) :
  (forall s, I s -> agree (fun x => match x with Next s' => I s' | Exit r => J r end) (f s) (g s)) ->
  forall fuel s, I s -> whileF fuel f s = whileF fuel g s.
Proof.
  intros B. induction fuel as [|k IH]; intros s H; cbn [whileF]; auto. destruct (B s H) as (x & -> & -> & P). cbn [bind]. destruct x; auto.
Qed.
Lemma powm_loop_cfg cfg cfg' n k p md o b : 1 <= n -> wf k p -> wf n md -> wf n o -> wf n b ->
  powm_loop cfg n k p md (o, b) = powm_loop cfg' n k p md (o, b).
Proof.
  intros Hn Wp Wm Wo Wb. unfold powm_loop. destruct (filled_bits k p Wp) as (f & -> & Hf). cbn [bind]. unfold blockBitLength.
  apply (agree_eq (fun s => wf n (fst s) /\ wf n (snd s))). apply agree_forU; [lia|auto|]. intros i [x y] Hi [Wx Wy]. cbn [fst snd] in *.
  rewrite (getBit_cfg cfg' cfg) by (auto; lia). rewrite getBit_spec by (auto; lia). cbn [bind].
  apply (agree_bind (wf n)).
  { destruct (Z.testbit _ i); [|exists x; auto]. destruct (mul_assign_correct n x y Wx Wy) as (pr & Ep & Wpr & _). unfold op_mul. rewrite Ep. cbn [bind].
    eapply agree_bind; [apply divide_agree; auto|]. intros [q r] [_ Wr]. cbn [snd] in Wr. exists r; auto. }
  intros x' Wx'. destruct (mul_assign_correct n y y Wy Wy) as (pr & Ep & Wpr & _). unfold op_mul. rewrite Ep. cbn [bind].
  eapply agree_bind; [apply divide_agree; auto|]. intros [q r] [_ Wr]. cbn [snd] in Wr. exists (x', r); auto.
Qed.
Lemma powm_cfg cfg cfg' n b p md : 1 <= n -> wf n b -> wf n p -> wf n md -> powm cfg n b p md = powm cfg' n b p md.
Proof.
  intros Hn Wb Wp Wm. unfold powm. destruct (one_spec n Hn) as (o & Eo & Wo & _). rewrite Eo. cbn [bind].
  destruct (divide_agree cfg cfg' n b md Hn Wb Wm) as ([q r] & -> & -> & _ & Wr). cbn [snd bind] in *.
  now rewrite (powm_loop_cfg cfg cfg') by auto.
Qed.
Lemma powm_x_cfg cfg cfg' n k b p md : 1 <= n -> wf n b -> wf k p -> wf n md -> powm_x cfg n k b p md = powm_x cfg' n k b p md.
Proof.
  intros Hn Wb Wp Wm. unfold powm_x. destruct (op_eq_u32 n b 1) as [ [|]|]; cbn [bind]; auto. destruct (op_eq_u32 n b 0) as [ [|]|]; cbn [bind]; auto.
  destruct (one_spec n Hn) as (o & Eo & Wo & _). rewrite Eo. cbn [bind].
  destruct (divide_agree cfg cfg' n b md Hn Wb Wm) as ([q r] & -> & -> & _ & Wr). cbn [snd bind] in *.
  now rewrite (powm_loop_cfg cfg cfg') by auto.
Qed.
Lemma gcd_cfg cfg cfg' fuel n a b : 1 <= n -> wf n a -> wf n b -> gcd cfg fuel n a b = gcd cfg' fuel n a b.
Proof.
  intros Hn Wa Wb. unfold gcd. rewrite (compareTo_cfg cfg' cfg) by lia. destruct (compareTo cfg n n a b) as [c|]; cbn [bind]; auto.
  assert (L : forall x y, wf n x -> wf n y -> gcd_loop cfg n fuel (x, y) = gcd_loop cfg' n fuel (x, y)).
  { intros x y Wx Wy. unfold gcd_loop.
    match goal with |- whileF _ ?f _ = whileF _ ?g _ => apply (agree_whileF (fun s => wf n (fst s) /\ wf n (snd s)) (fun r => wf n r) f g); [|cbn [fst snd]; auto] end.
    intros [g r] [Wg Wr]. cbn [fst snd] in *. rewrite op_eq_u32_spec by (auto; lia). cbn [bind]. destruct (bval r =? 0); [eexists; eauto|].
    cbv zeta. eapply agree_bind; [apply divide_agree; auto|]. intros [q' r'] [_ Wr']. eexists. split; [reflexivity|]. cbn [fst snd] in *. auto. }
  destruct (divide_agree cfg cfg' n a b Hn Wa Wb) as ([q r] & E1 & E2 & _ & Wr). destruct (divide_agree cfg cfg' n b a Hn Wb Wa) as ([q1 r1] & E3 & E4 & _ & Wr1).
  rewrite E1, E2, E3, E4. cbn [bind snd] in *. destruct c; apply L; auto.
Qed.
Lemma op_div_cfg cfg cfg' n a b : 1 <= n -> wf n a -> wf n b -> op_div cfg n a b = op_div cfg' n a b.
Proof. intros. unfold op_div. now rewrite (divide_cfg cfg cfg'). Qed.
Lemma op_mod_cfg cfg cfg' n a b : 1 <= n -> wf n a -> wf n b -> op_mod cfg n a b = op_mod cfg' n a b.
Proof. intros. unfold op_mod. now rewrite (divide_cfg cfg cfg'). Qed.
Lemma op_div_wf cfg n a b r : 1 <= n -> wf n a -> wf n b -> op_div cfg n a b = Ok r -> wf n r.
Proof. intros Hn Wa Wb. unfold op_div. destruct (div_tot cfg n a b Hn Wa Wb) as (q & r' & -> & Wq & _). cbn [bind]. now intros [= <-]. Qed.
Lemma lcm_cfg cfg cfg' fuel n a b : 1 <= n -> wf n a -> wf n b -> 64 * n + 2 <= Z.of_nat fuel -> lcm cfg fuel n a b = lcm cfg' fuel n a b.
Proof. intros. eapply yields_unique; apply lcm_correct; auto. Qed.
Lemma squareRoot_cfg cfg cfg' fuel n a : 1 <= n -> wf n a -> 16 * n + 3 <= Z.of_nat fuel -> squareRoot cfg fuel n a = squareRoot cfg' fuel n a.
Proof. intros. eapply yields_unique; apply squareRoot_correct; auto. Qed.
Lemma gcd_ext_cfg cfg cfg' fuel n a b : 1 <= n -> wf n a -> wf n b -> gcd_ext cfg fuel n a b = gcd_ext cfg' fuel n a b.
Proof.
  intros Hn Wa Wb. unfold gcd_ext. rewrite (compareTo_cfg cfg' cfg) by lia. destruct (compareTo cfg n n a b) as [c|]; cbn [bind]; auto.
  assert (Z1 : wf n (zeros n)) by (apply wf_zeros; lia). assert (LZ : len (zeros n) = n) by (apply len_zeros; lia).
  destruct (from_unsigned_correct n (zeros n) 0 ltac:(lia) LZ ltac:(lia)) as (u0 & E0 & W0 & _).
  destruct (one_spec n Hn) as (u1 & E1 & W1 & _).
  pose (ok := fun s => wf n (eg_gcd s) /\ wf n (eg_q s) /\ wf n (eg_r s) /\ wf n (eg_x s) /\ wf n (eg_y s) /\ wf n (eg_tx s) /\ wf n (eg_ty s)).
  assert (L : forall g q r, wf n g -> wf n q -> wf n r -> whileF fuel (egcd_body cfg n) (mk_egcd g q r u0 u1 u1 u0) = whileF fuel (egcd_body cfg' n) (mk_egcd g q r u0 u1 u1 u0)).
  { intros g q r Wg Wq Wr. apply (agree_whileF ok ok); [|unfold ok; cbn; auto 10].
    intros s (S1 & S2 & S3 & S4 & S5 & S6 & S7). unfold egcd_body. rewrite op_eq_u32_spec by (auto; lia). cbn [bind].
    destruct (bval (eg_r s) =? 0); [eexists; split; [reflexivity|]; unfold ok; auto 10|]. cbv zeta.
    destruct (mul_assign_correct n _ _ S2 S4) as (p & Ep & Wp & _). destruct (sub_assign_correct n _ _ S6 Wp) as (x' & Ex & Wx & _).
    destruct (mul_assign_correct n _ _ S2 S5) as (p2 & Ep2 & Wp2 & _). destruct (sub_assign_correct n _ _ S7 Wp2) as (y' & Ey & Wy & _).
    unfold op_mul, op_sub. rewrite Ep. cbn [bind]. rewrite Ex. cbn [bind]. rewrite Ep2. cbn [bind]. rewrite Ey. cbn [bind].
    eapply agree_bind; [apply divide_agree; auto|]. intros [q' r'] [Wq' Wr']. cbn [fst snd] in *. eexists. split; [reflexivity|]. split; [reflexivity|]. unfold ok; cbn; auto 10. }
  destruct (divide_agree cfg cfg' n a b Hn Wa Wb) as ([q r] & D1 & D2 & Wq & Wr). destruct (divide_agree cfg cfg' n b a Hn Wb Wa) as ([q1 r1] & D3 & D4 & Wq1 & Wr1).
  rewrite D1, D2, D3, D4. cbn [bind fst snd] in *. rewrite E0, E1. cbn [bind]. destruct c; cbn [bind]; rewrite L by auto; reflexivity.
Qed.
Lemma precisionCast_cfg cfg cfg' n m a : wf n a -> 0 <= m -> precisionCast cfg n m a = precisionCast cfg' n m a.
Proof. intros. eapply yields_unique; apply precisionCast_spec; auto. Qed.

(** ** Programs *)
Lemma m_op_div_cfg cfg cfg' n m a b : 1 <= n -> wf n (m (Var a)) -> wf n (m (Var b)) -> m_op_div cfg n m (Var a) (Var b) = m_op_div cfg' n m (Var a) (Var b).
Proof. intros. unfold m_op_div. rewrite (m_divide_cfg cfg cfg'); auto; discriminate. Qed.
Lemma m_op_mod_cfg cfg cfg' n m a b : 1 <= n -> wf n (m (Var a)) -> wf n (m (Var b)) -> m_op_mod cfg n m (Var a) (Var b) = m_op_mod cfg' n m (Var a) (Var b).
Proof. intros. unfold m_op_mod. rewrite (m_divide_cfg cfg cfg'); auto; discriminate. Qed.

(** Index operands inside the number: the instructions and conditions AESI_UNSAFE does not affect. *)
Definition uinstr_in_range (n : Z) (i : uinstr) : Prop :=
  match i with USetBit _ i _ => 0 <= i < 32 * n | UPow2 _ k => 0 <= k < 32 * n | _ => True end.
Definition ucond_in_range (n : Z) (c : ucond) : Prop := match c with CBit _ i => 0 <= i < 32 * n | _ => True end.
Definition sinstr_in_range (n : Z) (i : sinstr) : Prop := match i with SPow2 _ k => 0 <= k < 32 * n | _ => True end.

Lemma uexec_cfg cfg cfg' n m i : 1 <= n -> all_wf n m -> uinstr_in_range n i -> uexec cfg n m i = uexec cfg' n m i.
Proof.
  intros Hn A R. pose proof (gfuel_enough n Hn) as GF. assert (W0 : wf n (aeu_zero n)) by (apply wf_zeros; lia).
  destruct i; cbn [uexec uinstr_in_range] in *; auto.
  - destruct o; cbn [aeu_assign]; auto; unfold m_div_assign, m_mod_assign; [rewrite (m_op_div_cfg cfg cfg')|rewrite (m_op_mod_cfg cfg cfg')]; auto.
  - destruct o; cbn [aeu_binary aeu_assign]; auto; [rewrite (m_op_div_cfg cfg cfg')|rewrite (m_op_mod_cfg cfg cfg')]; auto.
  - unfold m_update. rewrite (setBit_cfg cfg cfg'); auto.
  - apply m_divide_cfg; auto; discriminate.
  - rewrite (gcd_cfg cfg cfg'); auto.
  - rewrite (lcm_cfg cfg cfg'); auto.
  - rewrite (squareRoot_cfg cfg cfg'); auto. lia.
  - unfold power2. rewrite (setBit_cfg cfg cfg'); auto.
  - rewrite (powm_cfg cfg cfg'); auto.
Qed.
Lemma utest_cfg cfg cfg' n m c : 1 <= n -> all_wf n m -> ucond_in_range n c -> utest cfg n m c = utest cfg' n m c.
Proof.
  intros Hn A R. destruct c; cbn [utest ucond_in_range] in *; auto; unfold op_ne, op_eq, op_lt, op_le, op_gt, op_ge, op_spaceship;
    rewrite ?(compareTo_cfg cfg cfg') by lia; auto. apply getBit_cfg; auto.
Qed.
(** One instruction of the unsafe build: the same as the safe one or a fault. *)
Lemma uexec_unsafe cfg cfg' n m i m' : 1 <= n -> cfg_unsafe cfg' = true -> uinstr_typed i -> all_wf n m ->
  uexec cfg' n m i = Ok m' -> uexec cfg n m i = Ok m'.
Proof.
  intros Hn U T A E.
  assert (uinstr_in_range n i \/ ~ uinstr_in_range n i) as [R|R].
  { destruct i; cbn [uinstr_in_range]; auto; lia. }
  - now rewrite (uexec_cfg cfg cfg').
  - exfalso. destruct i; cbn [uinstr_in_range uexec uinstr_typed] in *; try tauto.
    + unfold m_update in E. rewrite setBit_unsafe in E; [discriminate|auto|apply wf_len, A|lia].
    + unfold power2 in E. rewrite setBit_unsafe in E; [discriminate|auto|unfold aeu_zero; apply len_zeros; lia|lia].
Qed.
Lemma utest_unsafe cfg cfg' n m c b : 1 <= n -> cfg_unsafe cfg' = true -> ucond_typed c -> all_wf n m ->
  utest cfg' n m c = Ok b -> utest cfg n m c = Ok b.
Proof.
  intros Hn U T A E. assert (ucond_in_range n c \/ ~ ucond_in_range n c) as [R|R]. { destruct c; cbn [ucond_in_range]; auto; lia. }
  - now rewrite (utest_cfg cfg cfg').
  - exfalso. destruct c; cbn [ucond_in_range utest ucond_typed] in *; try tauto.
    rewrite getBit_unsafe in E; [discriminate|auto|apply wf_len, A|lia].
Qed.

(** Runs: if every step of the first machine is a step of the second, so is every run. *)
Lemma run_refines {M I C} (exec exec' : M -> I -> outcome M) (test test' : M -> C -> outcome bool) (ti : I -> Prop) (tc : C -> Prop) (A : M -> Prop) :
  (forall m i m', ti i -> A m -> exec' m i = Ok m' -> exec m i = Ok m' /\ A m') ->
  (forall m c b, tc c -> A m -> test' m c = Ok b -> test m c = Ok b) ->
  forall fuel s m m', typed ti tc s -> A m -> run exec' test' fuel s m = Ok m' -> run exec test fuel s m = Ok m' /\ A m'.
Proof.
  intros HI HC. induction fuel as [|f IH]; intros s m m' T Am; cbn [run]; [discriminate|].
  destruct s as [|i|s t|c s t|c s]; cbn [typed] in T.
  - intros [= <-]. auto.
  - apply HI; auto.
  - destruct (run exec' test' f s m) as [m1|] eqn:E; cbn [bind]; [|discriminate]. destruct (IH s m m1 (proj1 T) Am E) as [-> A1]. cbn [bind]. apply IH; tauto.
  - destruct (test' m c) as [b|] eqn:E; cbn [bind]; [|discriminate]. rewrite (HC m c b) by tauto. cbn [bind]. apply IH; auto. destruct b; tauto.
  - destruct (test' m c) as [b|] eqn:E; cbn [bind]; [|discriminate]. rewrite (HC m c b) by tauto. cbn [bind]. destruct b; [|intros [= <-]; auto].
    destruct (run exec' test' f s m) as [m1|] eqn:E1; cbn [bind]; [|discriminate]. destruct (IH s m m1 (proj2 T) Am E1) as [-> A1]. cbn [bind]. apply IH; cbn [typed]; tauto.
Qed.
Lemma run_same {M I C} (exec exec' : M -> I -> outcome M) (test test' : M -> C -> outcome bool) (ti : I -> Prop) (tc : C -> Prop) (A : M -> Prop) :
  (forall m i, ti i -> A m -> exec m i = exec' m i /\ forall m', exec m i = Ok m' -> A m') ->
  (forall m c, tc c -> A m -> test m c = test' m c) ->
  forall fuel s m, typed ti tc s -> A m -> run exec test fuel s m = run exec' test' fuel s m /\ forall m', run exec test fuel s m = Ok m' -> A m'.
Proof.
  intros HI HC. induction fuel as [|f IH]; intros s m T Am; cbn [run]; [split; [auto|discriminate]|].
  destruct s as [|i|s t|c s t|c s]; cbn [typed] in T.
  - split; auto. now intros m' [= <-].
  - apply HI; auto.
  - destruct (IH s m (proj1 T) Am) as [<- K]. destruct (run exec test f s m) as [m1|] eqn:E; cbn [bind]; [|split; [auto|discriminate] ]. apply IH; [tauto|auto].
  - rewrite <- HC by tauto. destruct (test m c) as [b|] eqn:E; cbn [bind]; [|split; [auto|discriminate] ]. apply IH; auto. destruct b; tauto.
  - rewrite <- HC by tauto. destruct (test m c) as [b|] eqn:E; cbn [bind]; [|split; [auto|discriminate] ]. destruct b; [|split; [auto|now intros m' [= <-] ] ].
    destruct (IH s m (proj2 T) Am) as [<- K]. destruct (run exec test f s m) as [m1|] eqn:E1; cbn [bind]; [|split; [auto|discriminate] ]. apply IH; cbn [typed]; auto.
Qed.

(** ** Signed *)
Lemma bases_at m x : bases m x = mag (m x). Proof. reflexivity. Qed.
Lemma mag_inverse_at m x y : mag (ms_inverse m x y) = mag (m y).
Proof. unfold ms_inverse, sput_sign, sput. destruct (loc_eqb_spec y x) as [->|]; auto. Qed.
Lemma s_compareTo_cfg cfg cfg' n a b : 0 <= n -> s_compareTo cfg n a b = s_compareTo cfg' n a b.
Proof. intros. unfold s_compareTo. now rewrite !(compareTo_cfg cfg cfg') by lia. Qed.
Lemma ms_div_assign_cfg cfg cfg' n m a b : 1 <= n -> a <> Tmp 0 -> b <> Tmp 0 -> wf n (mag (m a)) -> wf n (mag (m b)) ->
  ms_div_assign cfg n m a b = ms_div_assign cfg' n m a b /\ ms_mod_assign cfg n m a b = ms_mod_assign cfg' n m a b.
Proof.
  intros Hn A0 B0 Wa Wb. unfold ms_div_assign, ms_mod_assign, on_bases, m_div_assign, m_mod_assign, m_op_div, m_op_mod.
  split; destruct (s_isZero (m b)); auto; cbv zeta; rewrite (m_divide_cfg cfg cfg'); auto; try discriminate;
    rewrite bases_at; destruct (s_isNegative (m b)); rewrite ?mag_inverse_at; auto.
Qed.
Lemma aesi_assign_cfg cfg cfg' o n m a b : 1 <= n -> a <> Tmp 0 -> b <> Tmp 0 -> wf n (mag (m a)) -> wf n (mag (m b)) ->
  aesi_assign cfg o n m a b = aesi_assign cfg' o n m a b.
Proof.
  intros Hn A0 B0 Wa Wb. destruct o; cbn [aesi_assign]; auto.
  - unfold ms_add_assign. now rewrite !(compareTo_cfg cfg cfg') by lia.
  - unfold ms_sub_assign. now rewrite !(compareTo_cfg cfg cfg') by lia.
  - apply ms_div_assign_cfg; auto.
  - apply ms_div_assign_cfg; auto.
Qed.
Lemma s_div_int_cfg cfg cfg' n t a k : 1 <= n -> wf n (mag a) -> s_div_assign_int cfg n t a k = s_div_assign_int cfg' n t a k.
Proof.
  intros Hn W. unfold s_div_assign_int, div_assign. destruct (k =? 0); auto. destruct (s_strip_sign t a k) as [ [a' k']|] eqn:E; cbn [bind]; auto.
  assert (Wa : wf n (mag a')).
  { unfold s_strip_sign in E. destruct (k <? 0); [|injection E as <- <-; auto]. destruct (ineg t k); [|discriminate]. cbn [bind] in E. injection E as <- _. now rewrite mag_inverse. }
  destruct (from_unsigned_correct n (zeros n) (u64 k') ltac:(lia) ltac:(apply len_zeros; lia)) as (d & -> & Wd & _).
  { unfold u64. pose proof (Z.mod_pos_bound k' (2 ^ 64)). lia. }
  cbn [bind]. now rewrite (op_div_cfg cfg cfg').
Qed.
Lemma sexec_cfg cfg cfg' n m i : 1 <= n -> cfg_ull_distinct cfg = cfg_ull_distinct cfg' -> all_swf n m -> sinstr_in_range n i ->
  sexec cfg n m i = sexec cfg' n m i.
Proof.
  intros Hn UL A R. pose proof (gfuel_enough n Hn) as GF. assert (W0 : wf n (aeu_zero n)) by (apply wf_zeros; lia).
  destruct i; cbn [sexec sinstr_in_range] in *; auto.
  - apply aesi_assign_cfg; auto; discriminate.
  - unfold aesi_binary. rewrite (aesi_assign_cfg cfg cfg'); auto; try discriminate; unfold ms_copy; rewrite ?sput_eq, ?sput_ne by discriminate; auto.
  - unfold ms_update, s_mul_assign_int, ull_ty. now rewrite UL.
  - unfold ms_update. rewrite (s_div_int_cfg cfg cfg'); auto.
  - unfold ms_divide, on_bases. rewrite (m_divide_cfg cfg cfg'); auto; try discriminate; apply A.
  - unfold s_squareRoot. rewrite (squareRoot_cfg cfg cfg'); auto. lia.
  - unfold s_power2, power2. rewrite (setBit_cfg cfg cfg'); auto.
Qed.
Lemma stest_cfg cfg cfg' n m c : 1 <= n -> stest cfg n m c = stest cfg' n m c.
Proof.
  intros Hn. destruct c; cbn [stest]; auto; unfold s_ne, s_lt, s_le, s_gt, s_ge, s_spaceship, s_compareTo_x, s_eq; rewrite Z.eqb_refl;
    rewrite (s_compareTo_cfg cfg cfg') by lia; auto.
Qed.
Lemma sexec_unsafe cfg cfg' n m i m' : 1 <= n -> cfg_unsafe cfg' = true -> cfg_ull_distinct cfg = cfg_ull_distinct cfg' -> sinstr_typed i -> all_swf n m ->
  sexec cfg' n m i = Ok m' -> sexec cfg n m i = Ok m'.
Proof.
  intros Hn U UL T A E. assert (sinstr_in_range n i \/ ~ sinstr_in_range n i) as [R|R]. { destruct i; cbn [sinstr_in_range]; auto; lia. }
  - now rewrite (sexec_cfg cfg cfg').
  - exfalso. destruct i; cbn [sinstr_in_range sexec sinstr_typed] in *; try tauto.
    unfold s_power2, power2 in E. rewrite setBit_unsafe in E; [discriminate|auto|unfold aeu_zero; apply len_zeros; lia|lia].
Qed.

(** ** Text *)
Lemma loopUx_same {S R} (I : S -> Prop) (f g : Z -> S -> outcome (step S R)) :
  (forall p s, I s -> f p s = g p s /\ forall s', f p s = Ok (Next s') -> I s') ->
  forall c p s, I s -> loopUx c p f s = loopUx c p g s.
Proof.
  intros B. induction c as [|c IH]; intros p s H; cbn [loopUx]; auto. destruct (B p s H) as [<- K].
  destruct (f p s) as [ [s'|r]|]; cbn [bind]; auto.
Qed.
Lemma digit_loop_cfg cfg cfg' n base bufferSize buffer position a : 1 <= n -> wf n a -> 0 <= base < 2 ^ 64 ->
  digit_loop cfg n base bufferSize buffer position a = digit_loop cfg' n base bufferSize buffer position a.
Proof.
  intros Hn Wa Hb. unfold digit_loop.
  match goal with |- bind ?x _ = bind ?y _ => assert (E : x = y); [|now rewrite E] end.
  unfold forUx. apply (loopUx_same (fun s => wf n (snd s))); auto. intros p [b x] Wx. cbn [snd] in Wx.
  rewrite (isZero_spec n x Wx). cbn [bind]. destruct (bval x =? 0); [split; [auto|discriminate]|].
  destruct (from_unsigned_correct n (zeros n) base ltac:(lia) ltac:(apply len_zeros; lia) Hb) as (d & -> & Wd & _). cbn [bind].
  destruct (divide_agree cfg cfg' n x d Hn Wx Wd) as ([q r] & -> & -> & Wq & Wr). cbn [bind fst] in *. split; auto.
  destruct (integralCast _ r); cbn [bind]; [|discriminate]. destruct (aset b p _); cbn [bind]; [|discriminate]. intros s' [= <-]. auto.
Qed.
Lemma getString_cfg cfg cfg' n wide upper wfail base a buffer bufferSize showBase : 1 <= n -> wf n a -> 0 <= base < 2 ^ 64 ->
  getString cfg n wide upper wfail base a buffer bufferSize showBase = getString cfg' n wide upper wfail base a buffer bufferSize showBase.
Proof.
  intros Hn Wa Hb. unfold getString. destruct (bufferSize <? 2); auto.
  match goal with |- bind ?x _ = bind ?x _ => destruct x as [ [b p]|]; cbn [bind]; auto end.
  destruct (isZero n a) as [ [|]|]; cbn [bind]; auto. destruct (base =? 16); auto. now rewrite (digit_loop_cfg cfg cfg').
Qed.
Lemma stream_insert_cfg cfg cfg' n os a : 1 <= n -> wf n a -> stream_insert cfg n os a = stream_insert cfg' n os a.
Proof.
  intros Hn Wa. unfold stream_insert. destruct (isZero n a) as [ [|]|]; cbn [bind]; auto.
  destruct (basef os); auto; rewrite (digit_loop_cfg cfg cfg') by (auto; lia); reflexivity.
Qed.
