(** * ProgTotal: the unsigned operations never fault, whatever the (well-formed) operands and their sharing. *)
From Verif Require Import Spec Lib AeuModel AeuArith AeuBits AeuAccess AeuDiv AeuFacts
  AliasModel AliasFacts AliasSigned AliasDiv ProgSpec ProgModel ProgFacts.
From Coq Require Import ZifyBool.
Open Scope Z_scope.

Definition all_wf (n : Z) (m : mem) : Prop := forall i, wf n (m (Var i)).
Definition tot (n : Z) (x : outcome (list Z)) : Prop := exists r, x = Ok r /\ wf n r.
Lemma yields_tot n x z : yields n x z -> tot n x.
Proof. intros (r & E & W & _). exists r; auto. Qed.

Lemma allwf_upd n m m' d : all_wf n m -> wf n (m' (Var d)) -> (forall k, k <> d -> m' (Var k) = m (Var k)) -> all_wf n m'.
Proof. intros A W O k. destruct (Nat.eq_dec k d) as [->|N]; auto. rewrite O by auto. apply A. Qed.
Lemma allwf_put n m d x : all_wf n m -> wf n x -> all_wf n (mput m (Var d) x).
Proof. intros A W. apply allwf_upd with m d; auto. now rewrite mput_eq. intros. apply mput_ne. congruence. Qed.
Lemma allwf_ret n m d x : all_wf n m -> tot n x -> exists m', (r <- x ;; Ok (mput m (Var d) r)) = Ok m' /\ all_wf n m'.
Proof. intros A (r & -> & W). eexists. split; [reflexivity|]. now apply allwf_put. Qed.
Lemma allwf_update n m d f : all_wf n m -> tot n (f (m (Var d))) -> exists m', m_update m (Var d) f = Ok m' /\ all_wf n m'.
Proof. intros A W. unfold m_update. now apply allwf_ret. Qed.

Lemma setBit_tot cfg n a i b : cfg_unsafe cfg = false -> wf n a -> 0 <= i -> tot n (setBit cfg n a i b).
Proof.
  intros U W Hi. destruct (Z.ltb_spec i (32 * n)).
  - eapply yields_tot, setBit_spec; auto.
  - rewrite setBit_over by auto. exists a; auto.
Qed.

(** The single-pass multiplication always finishes. *)
Lemma mul_assign_u_tot n t a v : wf n a -> 0 <= v < 2 ^ uwidth t -> tot n (mul_assign_u n t a v).
Proof.
  intros Wa Hv. destruct t; try (eapply yields_tot, mul_assign_u_correct; auto; discriminate).
  pose proof (wf_nonneg _ _ Wa). unfold mul_assign_u, is_uint64_t. cbn iota.
  match goal with |- context [forU 0 n ?B _] =>
  destruct (forU_spec (fun i (s : list Z * Z) => wf n (fst s)) 0 n B (a, 0)) as ([r c] & E & W) end; auto.
  - intros i [d c] Hi Wd. cbn [fst] in Wd. pose proof (wf_len _ _ Wd). rewrite aget_ok by lia. cbn [bind]. cbv zeta.
    rewrite aset_ok by lia. cbn [bind]. eexists. split; [reflexivity|]. cbn [fst]. apply wf_upd; auto.
    apply Z.mod_pos_bound. lia.
  - rewrite E. exists r; auto.
Qed.

Lemma div_tot cfg n a b : 1 <= n -> wf n a -> wf n b -> exists q r, divide cfg n a b = Ok (q, r) /\ wf n q /\ wf n r.
Proof. intros Hn Wa Wb. destruct (divide_spec cfg n a b Hn Wa Wb) as (q & r & E & Wq & Wr & _). exists q, r; auto. Qed.

Lemma powm_tot cfg n b p m : 1 <= n -> wf n b -> wf n p -> wf n m -> tot n (powm cfg n b p m).
Proof.
  intros Hn Wb Wp Wm. unfold powm. destruct (one_spec n Hn) as (o & Eo & Wo & _). rewrite Eo. cbn [bind].
  destruct (div_tot cfg n b m Hn Wb Wm) as (q & r & E & _ & Wr). rewrite E. cbn [bind].
  unfold powm_loop. rewrite (filledBlocksNumber_value n p Wp). cbn [bind].
  pose proof (bval_bound n p Wp) as Bp.
  assert (HF : 0 <= (bit_length (bval p) + 31) / 32 <= n).
  { destruct (bit_length_bounds (bval p) ltac:(lia)) as [L0 _]. pose proof (bit_length_le (bval p) (32 * n) ltac:(lia) Bp) as L1.
    split; [apply Z.div_pos; lia|]. apply Z.lt_succ_r, Z.div_lt_upper_bound; lia. }
  match goal with |- context [forU 0 ?h ?B _] =>
  destruct (forU_spec (fun i (s : list Z * list Z) => wf n (fst s) /\ wf n (snd s)) 0 h B (o, r)) as ([o' b'] & E' & W' & _) end; auto.
  - unfold blockBitLength. lia.
  - unfold blockBitLength. intros i [x y] Hi [Wx Wy]. cbn [fst snd] in *.
    rewrite getBit_spec by (auto || lia). cbn [bind].
    assert (exists x', (if Z.testbit (bval p) i then p0 <- op_mul n x y;; '(_, r0) <- divide cfg n p0 m;; Ok r0 else Ok x) = Ok x' /\ wf n x') as (x' & Ex & Wx').
    { destruct (Z.testbit (bval p) i); [|eauto]. destruct (mul_assign_correct n x y Wx Wy) as (pr & Ep & Wpr & _). unfold op_mul. rewrite Ep. cbn [bind].
      destruct (div_tot cfg n pr m Hn Wpr Wm) as (q1 & r1 & E1 & _ & W1). rewrite E1. cbn [bind]. eauto. }
    rewrite Ex. cbn [bind]. destruct (mul_assign_correct n y y Wy Wy) as (pr & Ep & Wpr & _). unfold op_mul. rewrite Ep. cbn [bind].
    destruct (div_tot cfg n pr m Hn Wpr Wm) as (q1 & r1 & E1 & _ & W1). rewrite E1. cbn [bind]. eauto.
  - rewrite E'. cbn [bind]. exists o'; auto.
Qed.

(** divide on the store, any sharing of its four operands. *)
Lemma m_divide_tot cfg n m nu de q r : 1 <= n -> all_wf n m ->
  exists m', m_divide cfg n m (Var nu) (Var de) (Var q) (Var r) = Ok m' /\ all_wf n m'.
Proof.
  intros Hn A. unfold m_divide. rewrite (compareTo_same cfg n) by apply A. cbn [bind].
  set (m0 := mput (mput m (Var q) (aeu_zero n)) (Var r) (aeu_zero n)).
  assert (W0 : wf n (aeu_zero n)) by (apply wf_zeros; lia).
  assert (A0 : all_wf n m0) by (apply allwf_put; auto; apply allwf_put; auto).
  destruct (zcmp (bval (m (Var nu))) (bval (m (Var de)))).
  - destruct (from_unsigned_correct n (m0 (Var q)) 1 ltac:(lia) (wf_len _ _ (A0 q)) ltac:(lia)) as (x & E & Wx & _).
    rewrite E. cbn [bind]. eexists. split; [reflexivity|]. now apply allwf_put.
  - eexists. split; [reflexivity|]. apply allwf_put; auto.
  - rewrite (filledBlocksNumber_value n) by apply A0. cbn [bind].
    set (B := bval (m0 (Var nu))). pose proof (bval_bound n _ (A0 nu)) as BB. fold B in BB.
    assert (HF : 0 <= (bit_length B + 31) / 32 <= n).
    { destruct (bit_length_bounds B ltac:(lia)) as [L0 _]. pose proof (bit_length_le B (32 * n) ltac:(lia) BB) as L1.
      split; [apply Z.div_pos; lia|]. apply Z.lt_succ_r, Z.div_lt_upper_bound; lia. }
    match goal with |- context [forD ?h 0 ?Bd _] =>
    destruct (forD_spec (fun i (s : mem) => all_wf n s) h 0 Bd m0) as (m' & E & A') end; auto.
    + unfold blockBitLength. lia.
    + unfold blockBitLength. intros i s Hi As.
      destruct (allwf_update n s r (fun x => shl_assign n x 1) As) as (s1 & E1 & A1).
      { eapply yields_tot, shl_assign_correct; auto; lia. }
      change (exists s', (@bind mem mem (m_update s (Var r) (fun x => shl_assign n x 1)) (fun m1 =>
        bit <- getBit cfg n (m1 (Var nu)) i ;; m2 <- m_update m1 (Var r) (fun x => setBit cfg n x 0 bit) ;;
        ge <- op_ge cfg n n (m2 (Var r)) (m2 (Var de)) ;;
        if ge then m3 <- m_sub_assign n m2 (Var r) (Var de) ;; m_update m3 (Var q) (fun x => setBit cfg n x i true) else Ok m2)) = Ok s' /\ all_wf n s').
      rewrite E1. cbn [bind]. rewrite getBit_spec by (apply A1 || lia). cbn [bind].
      destruct (allwf_update n s1 r (fun x => setBit cfg n x 0 (Z.testbit (bval (s1 (Var nu))) i)) A1) as (s2 & E2 & A2).
      { eapply yields_tot, setBit_spec; auto; lia. }
      rewrite E2. cbn [bind]. rewrite op_ge_same by apply A2. cbn [bind].
      destruct (bval (s2 (Var r)) >=? bval (s2 (Var de))); [|eauto].
      destruct (m_sub_yields n s2 (Var r) (Var de) ltac:(lia) ltac:(discriminate) (A2 r) (A2 de)) as (s3 & E3 & [W3 _] & O3).
      assert (A3 : all_wf n s3). { apply allwf_upd with s2 r; auto. intros. apply O3; congruence. }
      rewrite E3. cbn [bind].
      destruct (allwf_update n s3 q (fun x => setBit cfg n x i true) A3) as (s4 & E4 & A4); [|eauto].
      eapply yields_tot, setBit_spec; auto; lia.
    + exists m'. split; [exact E|auto].
  - destruct (from_unsigned_correct n (m0 (Var q)) 1 ltac:(lia) (wf_len _ _ (A0 q)) ltac:(lia)) as (x & E & Wx & _).
    rewrite E. cbn [bind]. eexists. split; [reflexivity|]. now apply allwf_put.
Qed.

Lemma aeu_assign_tot cfg o n m a b : 1 <= n -> a <> Tmp 0 -> (forall k, b <> Tmp k) -> wf n (m a) -> wf n (m b) ->
  (o = ODiv \/ o = OMod -> forall k, a <> Tmp k) ->
  exists m', aeu_assign cfg o n m a b = Ok m' /\ wf n (m' a) /\ forall l, l <> a -> l <> Tmp 0 -> m' l = m l.
Proof.
  intros Hn A0 B0 Wa Wb H.
  destruct (Z.eq_dec (bval (m b)) 0) as [Z0|Z0].
  - assert (K : forall x y, osim (fun m' (d : list Z) => m' a = d /\ forall l, l <> a -> m' l = m l) x y -> tot n y ->
       exists m', x = Ok m' /\ wf n (m' a) /\ forall l, l <> a -> l <> Tmp 0 -> m' l = m l).
    { intros x y HS (d & -> & Wd). destruct x as [m'|]; cbn in HS; [|tauto]. destruct HS as [-> O] || destruct HS as [E1 O].
      exists m'. rewrite ?E1. auto. }
    assert (o = ODiv \/ o = OMod \/ (o <> ODiv /\ o <> OMod)) as [-> | [-> | [N1 N2] ] ] by (destruct o; intuition discriminate).
    + cbn [aeu_assign]. eapply K. apply m_div_assign_frame; auto; lia. unfold div_assign, op_div.
      destruct (div_tot cfg n _ _ Hn Wa Wb) as (q & r & E & Wq & Wr). rewrite E. exists q; auto.
    + cbn [aeu_assign]. eapply K. apply m_mod_assign_frame; auto; lia. unfold mod_assign, op_mod.
      destruct (div_tot cfg n _ _ Hn Wa Wb) as (q & r & E & Wq & Wr). rewrite E. exists r; auto.
    + destruct (aeu_assign_loc cfg o n m a b) as (m' & E & [W _] & O); auto. { intros [?|?]; congruence. } eauto.
  - destruct (aeu_assign_loc cfg o n m a b) as (m' & E & [W _] & O); eauto.
Qed.

(** Operands a C++ caller can pass at all: values of the stated unsigned types. *)
Definition uinstr_typed (i : uinstr) : Prop :=
  match i with
  | ULit _ v => 0 <= v < 2 ^ 64
  | UShl _ k | UShr _ k | UPow2 _ k => 0 <= k
  | USetBit _ i _ => 0 <= i
  | UAddLit _ t v | UMulLit _ t v => 0 <= v < 2 ^ uwidth t
  | _ => True
  end.
Definition ucond_typed (c : ucond) : Prop := match c with CBit _ i => 0 <= i | _ => True end.

Lemma uexec_tot cfg n m i : 1 <= n -> cfg_unsafe cfg = false -> uinstr_typed i -> all_wf n m ->
  exists m', uexec cfg n m i = Ok m' /\ all_wf n m'.
Proof.
  intros Hn U T A. pose proof (gfuel_enough n Hn) as GF.
  assert (V : forall x k, Var x <> Tmp k) by discriminate.
  assert (LZ : len (zeros n) = n) by (apply len_zeros; lia).
  destruct i; cbn [uexec uinstr_typed] in *.
  - eexists. split; [reflexivity|]. apply allwf_put; auto.
  - apply allwf_ret; auto. eapply yields_tot, from_unsigned_correct; auto; lia.
  - destruct (aeu_assign_tot cfg o n m (Var d) (Var s)) as (m' & E & W & O); auto.
    exists m'. split; auto. apply allwf_upd with m d; auto. intros. apply O; congruence.
  - assert (G : o <> ODiv -> o <> OMod -> exists m', aeu_binary cfg o n m (Var d) (Var a) (Var b) = Ok m' /\ all_wf n m').
    { intros N1 N2. destruct (aeu_binary_ok cfg o n m d a b) as (m' & E & [W _] & O); auto. { intros [?|?]; congruence. }
      exists m'. split; auto. apply allwf_upd with m d; auto. }
    destruct (div_tot cfg n _ _ Hn (A a) (A b)) as (q & r & E & Wq & Wr).
    destruct o; try (apply G; discriminate); cbn [aeu_binary].
    + rewrite m_op_div_eq by (auto || lia). unfold op_div. rewrite E. cbn [bind]. eexists. split; [reflexivity|]. now apply allwf_put.
    + rewrite m_op_mod_eq by (auto || lia). unfold op_mod. rewrite E. cbn [bind]. eexists. split; [reflexivity|]. now apply allwf_put.
  - apply allwf_update; auto. eapply yields_tot, op_inc_correct; auto.
  - apply allwf_update; auto. eapply yields_tot, op_dec_correct; auto.
  - apply allwf_ret; auto. eapply yields_tot, op_neg_correct; auto.
  - apply allwf_ret; auto. eapply yields_tot, op_not_correct; auto.
  - apply allwf_update; auto. eapply yields_tot, shl_total; auto.
  - apply allwf_update; auto. eapply yields_tot, shr_total; auto.
  - apply allwf_update; auto. apply setBit_tot; auto.
  - apply allwf_update; auto. eapply yields_tot, add_assign_u_gen; auto.
  - apply allwf_update; auto. apply mul_assign_u_tot; auto.
  - eexists. split; [reflexivity|]. destruct (m_swap_spec m (Var a) (Var b)) as (X & Y & Z'); try discriminate.
    intros k. destruct (Nat.eq_dec k a) as [->|]; [rewrite X; apply A|]. destruct (Nat.eq_dec k b) as [->|]; [rewrite Y; apply A|].
    rewrite Z' by (discriminate || congruence). apply A.
  - apply m_divide_tot; auto.
  - apply allwf_ret; auto. eapply yields_tot, gcd_correct; auto.
  - apply allwf_ret; auto. eapply yields_tot, lcm_correct; auto.
  - apply allwf_ret; auto. eapply yields_tot, squareRoot_correct; auto; lia.
  - apply allwf_ret; auto. eapply yields_tot, power2_total; auto; lia.
  - apply allwf_ret; auto. apply powm_tot; auto.
Qed.
Lemma utest_tot cfg n m c : 1 <= n -> cfg_unsafe cfg = false -> ucond_typed c -> all_wf n m -> exists b, utest cfg n m c = Ok b.
Proof.
  intros Hn U T A. destruct c; cbn [utest ucond_typed] in *; unfold op_ne;
    rewrite ?op_eq_cross, ?op_lt_same, ?op_le_same, ?op_gt_same, ?op_ge_same, ?(isOdd_spec n), ?isZero_spec by auto; cbn [bind]; eauto.
  destruct (Z.ltb_spec i (32 * n)); [rewrite getBit_spec by (auto || lia); eauto|rewrite getBit_over by auto; eauto].
Qed.

(** Every instruction and condition of a program satisfies the given predicates. *)
Fixpoint typed {I C} (ti : I -> Prop) (tc : C -> Prop) (s : stmt I C) : Prop :=
  match s with
  | Skip => True
  | Do i => ti i
  | Seq s t => typed ti tc s /\ typed ti tc t
  | If c s t => tc c /\ typed ti tc s /\ typed ti tc t
  | While c s => tc c /\ typed ti tc s
  end.
Lemma run_tot {M I C} (exec : M -> I -> outcome M) (test : M -> C -> outcome bool) (ti : I -> Prop) (tc : C -> Prop) (A : M -> Prop) :
  (forall m i, ti i -> A m -> exists m', exec m i = Ok m' /\ A m') ->
  (forall m c, tc c -> A m -> exists b, test m c = Ok b) ->
  forall fuel s m, typed ti tc s -> A m ->
  match run exec test fuel s m with Ok m' => A m' | Err f => f = OutOfFuel end.
Proof.
  intros HI HC. induction fuel as [|f IH]; intros s m T Am; cbn [run]; [reflexivity|].
  destruct s as [|i|s t|c s t|c s]; cbn [typed] in T.
  - auto.
  - destruct (HI m i T Am) as (m' & -> & ?). auto.
  - pose proof (IH s m (proj1 T) Am) as H. destruct (run exec test f s m) as [m'|]; cbn [bind]; auto. apply IH; tauto.
  - destruct (HC m c) as (b & ->); [tauto|auto|]. cbn [bind]. destruct b; apply IH; tauto.
  - destruct (HC m c) as (b & ->); [tauto|auto|]. cbn [bind]. destruct b; auto.
    pose proof (IH s m (proj2 T) Am) as H. destruct (run exec test f s m) as [m'|]; cbn [bind]; auto. apply IH; auto.
Qed.
