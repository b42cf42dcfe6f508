(** * PropsWhole: C146, programs that use both classes at several widths, conversions, texts, a stream and a file.

    Stated about [wrun] of [WholeModel.v] with the vocabulary of [WholeSpec.v]. *)
From Verif Require Import Lib WholeModel ProgFacts ProgSigned TextOut PropsText PropsAesi PropsAeu PropsBin PropsMix PropsUse2 PropsMore PropsExact PropsExact2 AeuFacts.
Open Scope Z_scope.

Ltac conjs := repeat match goal with |- _ /\ _ => split end.
Ltac wfc := apply wfb_wf; vm_compute; reflexivity.

(** The program's state stands for the world [w]: every variable for its integer, the stream has printed the pieces
    after what it held at first ([old]), the file holds the bytes of the records. *)
Definition stands_for (le up : bool) (old : list Z) (m : wmem) (w : world) : Prop :=
  (forall n i, 1 <= n -> represents n (mu m n (Var i)) (wu w n i)) /\
  (forall n i, 1 <= n -> swf n (ms m n (Var i)) /\ sval (ms m n (Var i)) = ws w n i) /\
  minput m = winput w /\
  (width (mos m) = 0 /\ showbase (mos m) = false /\ uppercase (mos m) = up /\ basef (mos m) = wbase w /\
   exists t, renders (wprinted w) t /\ out (mos m) = old ++ t) /\
  mfile m = concat (map (record_bytes le) (wfile w)) /\
  Forall (fun '(_, n, v) => 0 <= v < modulus n) (wfile w).

Lemma renders_snoc ps t p x : renders ps t -> piece_text p x -> renders (ps ++ [p]) (t ++ x).
Proof.
  intros (ts & F & ->) H. exists (ts ++ [x]). split; [apply Forall2_app; auto|]. rewrite concat_app. cbn [concat]. now rewrite app_nil_r.
Qed.
Lemma stands_u le up old m w n x e : 1 <= n -> stands_for le up old m w -> urel n x e -> stands_for le up old (put_mu m n x) (set_u w n e).
Proof.
  intros Hn (A & B & C & D & E & E') R. unfold stands_for, put_mu, set_u, at_width; cbn [mu ms minput mos mfile wu ws winput wbase wprinted wfile].
  conjs; auto; try apply D. intros k i Hk. destruct (Z.eqb_spec k n) as [->|]; auto.
Qed.
Lemma stands_s le up old m w n x e : 1 <= n -> stands_for le up old m w -> srelE n x e -> stands_for le up old (put_ms m n x) (set_s w n e).
Proof.
  intros Hn (A & B & C & D & E & E') R. unfold stands_for, put_ms, set_s, at_width; cbn [mu ms minput mos mfile wu ws winput wbase wprinted wfile].
  conjs; auto; try apply D. intros k i Hk. destruct (Z.eqb_spec k n) as [->|]; auto.
Qed.
Lemma stands_put_u le up old m w n d x v : 1 <= n -> stands_for le up old m w -> represents n x v -> stands_for le up old (assign_u m n d x) (put_u w n d v).
Proof.
  intros Hn H R. apply stands_u; auto. intros i. unfold mput, eput. cbn [loc_eqb]. destruct (Nat.eqb i d); auto. apply H. auto.
Qed.
Lemma stands_put_s le up old m w n d x v : 1 <= n -> stands_for le up old m w -> swf n x -> sval x = v -> stands_for le up old (assign_s m n d x) (put_s w n d v).
Proof.
  intros Hn H R V. apply stands_s; auto. intros i. unfold sput, eput. cbn [loc_eqb]. destruct (Nat.eqb i d); auto. apply H. auto.
Qed.
Lemma stands_input le up old m w l : stands_for le up old m w -> stands_for le up old (put_input m l) (set_input w l).
Proof. intros (A & B & C & D & E & E'). unfold stands_for, put_input, set_input; cbn [mu ms minput mos mfile wu ws winput wbase wprinted wfile]. conjs; auto; apply D. Qed.
Lemma stands_file le up old m w f l : f = concat (map (record_bytes le) l) -> Forall (fun '(_, n, v) => 0 <= v < modulus n) l -> stands_for le up old m w -> stands_for le up old (put_file m f) (set_file w l).
Proof. intros F FF (A & B & C & D & E & E'). unfold stands_for, put_file, set_file; cbn [mu ms minput mos mfile wu ws winput wbase wprinted wfile]. conjs; auto; apply D. Qed.
Lemma stands_print le up old m w os p x : stands_for le up old m w -> width os = 0 -> showbase os = false -> uppercase os = up -> basef os = wbase w ->
  out os = out (mos m) ++ x -> piece_text p x -> stands_for le up old (put_os m os) (print_piece w p).
Proof.
  intros (A & B & C & (D1 & D2 & D3 & D4 & t & D5 & D6) & E & E') H1 H2 H3 H4 H5 H6. unfold stands_for, put_os, print_piece; cbn [mu ms minput mos mfile wu ws winput wbase wprinted wfile].
  conjs; auto. exists (t ++ x). split; [apply renders_snoc; auto|]. rewrite H5, D6, <- app_assoc. reflexivity.
Qed.

(** One signed insertion, with the state it leaves. *)
Lemma s_print cfg n os a s : swf n a -> width os = 0 -> showbase os = false -> 32 * n < 2 ^ 53 -> 3 <= n ->
  numeral (uppercase os && (os_base os =? 16)) (os_base os) (Z.abs (sval a)) s ->
  exists os', s_stream_insert cfg n os a = Ok os' /\ out os' = out os ++ (if sval a <? 0 then [45] else []) ++ s /\
    basef os' = basef os /\ uppercase os' = uppercase os /\ width os' = 0 /\ showbase os' = false.
Proof.
  intros Wa W0 S0 H53 Hn Ha. assert (SH : forall o, showbase o = false -> os_shown o = []) by (intros o E; unfold os_shown; rewrite E; reflexivity).
  assert (PB : forall c, os_base (os_put os c) = os_base os) by reflexivity.
  pose proof Wa as (W & C). unfold s_stream_insert. unfold sval in Ha. unfold sval. destruct (sgn a) eqn:G.
  - cbn [Z.ltb Z.compare app]. cbn [Z.abs] in Ha. assert (s = [48]).
    { apply (numeral_unique (uppercase os && (os_base os =? 16)) (os_base os) 0); [unfold os_base; destruct (basef os); lia|exact Ha|].
      exists [0]. split; [reflexivity|]. split; [constructor; [unfold os_base; destruct (basef os); lia|constructor]|]. split; [reflexivity|left; reflexivity]. }
    subst s. eexists. split; [reflexivity|]. unfold os_put; cbn [width showbase out basef uppercase]. rewrite W0. destruct (adj os); auto 10.
  - pose proof (bval_bound n _ W) as B. destruct (Z.ltb_spec (bval (mag a)) 0); [lia|]. rewrite Z.abs_eq in Ha by lia.
    destruct (stream_state cfg n os (mag a) s W W0 H53 Hn Ha) as (o & E & O & B1 & U1 & W1 & SB). exists o. rewrite SH, app_nil_l in O by exact S0. cbn [app].
    rewrite SB, S0. auto 10.
  - pose proof (bval_bound n _ W) as B. assert (NZ : bval (mag a) <> 0) by (intros X; apply C in X; congruence). destruct (Z.ltb_spec (- bval (mag a)) 0); [|lia]. rewrite Z.abs_opp, Z.abs_eq in Ha by lia.
    assert (PO : width (os_put os [45]) = 0 /\ showbase (os_put os [45]) = false /\ out (os_put os [45]) = out os ++ [45] /\ basef (os_put os [45]) = basef os /\ uppercase (os_put os [45]) = uppercase os).
    { unfold os_put; cbn [width showbase out basef uppercase]. rewrite W0. destruct (adj os); auto. }
    destruct PO as (P1 & P2 & P3 & P4 & P5).
    destruct (stream_state cfg n (os_put os [45]) (mag a) s W P1 H53 Hn) as (o & E & O & B1 & U1 & W1 & SB); [rewrite P5, PB; exact Ha|].
    exists o. rewrite SH, app_nil_l, P3 in O by exact P2. rewrite <- app_assoc in O. rewrite SB, P2, B1, P4, U1, P5. auto 10.
Qed.
(** The bytes written are those of the record. *)
Lemma written le n a be os : 0 <= n -> wf n a -> ogood os = true -> oroom os = None ->
  writeBinary le n a os be = Ok (mk_bos (obytes os ++ record_bytes le (be, n, bval a)) None true).
Proof.
  intros Hn W G R. destruct (C72_byte_order_partial le n a be os W G R) as (w & E & L & B & _). rewrite E. do 3 f_equal.
  unfold record_bytes. apply nth_ext with (d := 0) (d' := 0).
  - rewrite map_length, seq_length. unfold len in L. lia.
  - intros k Hk. unfold len in L. specialize (B (Z.of_nat k) ltac:(lia)). rewrite Nat2Z.id in B. rewrite B.
    rewrite (nth_indep _ 0 ((fun k => byte_at (bval a) (place le be n (Z.of_nat k))) 0%nat)) by (rewrite map_length, seq_length; lia).
    rewrite (map_nth (fun k => byte_at (bval a) (place le be n (Z.of_nat k))) (seq 0 (Z.to_nat (4 * n))) 0%nat k), seq_nth by lia. reflexivity.
Qed.
Lemma record_is_bytes le r : Forall is_byte (record_bytes le r).
Proof.
  destruct r as [ [be n] v]. apply Forall_forall. intros x H. apply in_map_iff in H as (k & <- & _). unfold byte_at, is_byte. apply Z.mod_pos_bound. lia.
Qed.

Ltac bools := repeat match goal with
  | H : _ && _ = true |- _ => apply andb_prop in H as [? ?]
  | H : (_ <=? _) = true |- _ => apply Z.leb_le in H
  | H : (_ <? _) = true |- _ => apply Z.ltb_lt in H
  | H : negb _ = true |- _ => apply Bool.negb_true_iff in H
  | H : (_ =? _) = false |- _ => apply Z.eqb_neq in H
  end.

Lemma wexec_ok cfg le wide alnum up old m w i w' : alnum_ok alnum -> stands_for le up old m w -> wspec_instr up alnum w i = Some w' ->
  exists m', wexec cfg le wide alnum m i = Ok m' /\ stands_for le up old m' w'.
Proof.
  intros Ha H E. pose proof H as (A & B & C & (D1 & D2 & D3 & D4 & t0 & D5 & D6) & F & F').
  assert (NUM : forall v, exists s, numeral (uppercase (mos m) && (os_base (mos m) =? 16)) (os_base (mos m)) (Z.abs v) s).
  { intros v. apply numeral_exists; [unfold os_base; destruct (basef (mos m)); lia|lia]. }
  assert (BO : os_base (mos m) = base_of (wbase w)) by (unfold os_base, base_of; rewrite D4; reflexivity).
  destruct i; cbn [wspec_instr wexec] in *.
  - destruct (Z.leb_spec 1 n); [|discriminate]. destruct (uspec_instr n (wu w n) i) as [e|] eqn:EI; [|discriminate]. injection E as <-.
    destruct (uexec_ok cfg n (mu m n) (wu w n) i e) as (x & -> & R); auto; [intros k; apply A; auto|]. cbn [bind]. eexists. split; [reflexivity|]. apply stands_u; auto.
  - destruct (Z.leb_spec 1 n); [|discriminate]. destruct (sspec_instr n (ws w n) i) as [e|] eqn:EI; [|discriminate]. injection E as <-.
    destruct (sexec_ok cfg n (ms m n) (ws w n) i e) as (x & -> & R); auto; [intros k; apply B; auto|]. cbn [bind]. eexists. split; [reflexivity|]. apply stands_s; auto.
  - destruct (_ && _) eqn:G in E; [|discriminate]. injection E as <-. bools. destruct (A n s) as (W & V); auto.
    destruct (precisionCast_spec cfg n m0 _ W) as (x & -> & R); [lia|]. cbn [bind]. eexists. split; [reflexivity|]. apply stands_put_u; auto. rewrite <- V. exact R.
  - destruct (_ && _) eqn:G in E; [|discriminate]. injection E as <-. bools. destruct (B n s) as (W & V); auto.
    destruct (C59_signed_precision_cast_partial cfg n m0 _ H0 H2 W) as [P _]. rewrite V in P. destruct P as (x & -> & Cx & Vx); auto. cbn [bind].
    eexists. split; [reflexivity|]. apply stands_put_s; auto. apply canon_swf; auto.
  - destruct (_ && _) eqn:G in E; [|discriminate]. injection E as <-. bools. destruct (A n s) as (W & V); auto.
    eexists. split; [reflexivity|]. destruct (C58_unsigned_signed_conversion_partial n _ W) as (P1 & P2 & _). apply stands_put_s; auto; try congruence; apply P2; congruence.
  - destruct (_ && _) eqn:G in E; [|discriminate]. injection E as <-. bools. destruct (B n s) as (W & V); auto.
    eexists. split; [reflexivity|]. destruct (C58_unsigned_signed_conversion_partial n _ (proj1 W)) as (_ & _ & P). destruct (P _ W) as (P1 & P2). apply stands_put_u; auto.
    split; [auto|]. rewrite P2, V; [reflexivity|congruence].
  - destruct (_ && _) eqn:G in E; [|discriminate]. injection E as <-. bools. destruct (A n s) as (W & V); [lia|].
    destruct (C29_integral_cast t n _ W) as (v & -> & P & _); auto. cbn [bind]. rewrite P, V by assumption.
    assert (WI : 0 < 2 ^ iwidth t <= 2 ^ 64).
    { unfold ity_ok in H2. repeat (apply Bool.orb_prop in H2; destruct H2 as [H2|H2]); apply Z.eqb_eq in H2; rewrite H2; lia. }
    pose proof (Z.mod_pos_bound (wu w n s) (2 ^ iwidth t) (proj1 WI)).
    destruct (C31_construct_unsigned m0 (zeros m0) (wu w n s mod 2 ^ iwidth t)) as ((x & -> & R) & _); [lia|apply len_zeros; lia|lia|]. cbn [bind].
    eexists. split; [reflexivity|]. apply stands_put_u; auto.
  - destruct (_ && _) eqn:G in E; [|discriminate]. injection E as <-. bools. unfold builtin_ok in *. bools. destruct (B n s) as (W & V); [lia|].
    rename H1 into IK, H6 into IN, H5 into MI, H4 into WD, H2 into SI.
    assert (MIN : isigned t = true -> 32 <= iwidth t -> ws w n s <> ity_min t).
    { intros _ W32 X. apply Bool.orb_prop in MI as [K|K]; bools; [congruence|]. apply Z.eqb_eq in K. unfold ity_min in X. rewrite SI in X.
      pose proof (Z.pow_pos_nonneg 2 (iwidth t - 1)). lia. }
    assert (CA : s_integralCast t (ms m n (Var s)) = Ok (ws w n s)).
    { rewrite (C135_signed_integral_cast t n _ H0 W IK), SI, V. cbn [negb].
      assert (WI : iwidth t = 8 \/ iwidth t = 16 \/ iwidth t = 32 \/ iwidth t = 64).
      { unfold ity_ok in IK. repeat (apply Bool.orb_prop in IK; destruct IK as [IK|IK]); apply Z.eqb_eq in IK; lia. }
      unfold in_ity, ity_min, ity_max in *. rewrite SI in *. bools.
      assert (P2 : 2 ^ iwidth t = 2 * 2 ^ (iwidth t - 1)) by (rewrite <- Z.pow_succ_r by lia; f_equal; lia).
      assert (PP : 0 < 2 ^ (iwidth t - 1)) by (apply Z.pow_pos_nonneg; lia). set (h := 2 ^ (iwidth t - 1)) in *.
      assert (IC : icast t (ws w n s) = ws w n s).
      { unfold icast. rewrite SI. cbn [andb]. fold h. rewrite P2. destruct (Z.ltb_spec (ws w n s) 0).
        - replace (ws w n s mod (2 * h)) with (ws w n s + 2 * h) by (apply Z.mod_unique_pos with (-1); lia). destruct (Z.leb_spec h (ws w n s + 2 * h)); lia.
        - rewrite Z.mod_small by lia. destruct (Z.leb_spec h (ws w n s)); lia. }
      rewrite IC. destruct ((32 <=? iwidth t) && (ws w n s <? 0) && _) eqn:K; [|reflexivity]. bools. exfalso.
      match goal with K : (_ =? _) = true |- _ => apply Z.eqb_eq in K; rewrite P2 in K end.
      assert (XX : ws w n s mod (2 * h) = ws w n s + 2 * h) by (symmetry; apply Z.mod_unique_pos with (-1); lia). apply MIN; auto; lia. }
    rewrite CA. cbn [bind].
    destruct (C52_signed_construct_partial m0 t (ws w n s) (s_default m0)) as ((x & -> & Wx & Vx) & _); auto.
    { apply Bool.orb_prop in WD as [K|K]; bools; auto. }
    cbn [bind]. eexists. split; [reflexivity|]. apply stands_put_s; auto.
  - destruct (_ && _) eqn:G in E; [|discriminate]. injection E as <-. bools.
    destruct (A n b) as (Wb & Vb); auto. destruct (A k p) as (Wp & Vp); auto. destruct (A n m0) as (Wm & Vm); auto.
    destruct (C26_powm_mixed_partial cfg n k _ _ _ H0 Wb Wp Wm) as (x & -> & R); [lia|rewrite Vm; lia|congruence|right; lia|]. cbn [bind]. rewrite Vb, Vp, Vm in R.
    eexists. split; [reflexivity|]. apply stands_put_u; auto.
  - rewrite C. destruct (winput w) as [|t rest]; [discriminate|]. destruct (_ && _) eqn:G in E; [|discriminate]. injection E as <-. bools.
    destruct (C32_string_construction n wide alnum t) as (x & -> & R); [lia|auto| |].
    { apply Forall_forall. intros c Hc. rewrite forallb_forall in H1. specialize (H1 c Hc). bools. auto. }
    cbn [bind]. eexists. split; [reflexivity|]. apply stands_put_u; auto. apply stands_input; auto.
  - rewrite C. destruct (winput w) as [|t rest]; [discriminate|]. destruct (_ && _) eqn:G in E; [|discriminate]. injection E as <-. bools.
    destruct (C57_signed_string_construction n wide alnum t) as (x & -> & Cx & Vx); [lia|auto| |].
    { apply Forall_forall. intros c Hc. rewrite forallb_forall in H1. specialize (H1 c Hc). bools. auto. }
    cbn [bind]. eexists. split; [reflexivity|]. apply stands_put_s; auto; [apply stands_input; auto|apply canon_swf; auto].
  - injection E as <-. eexists. split; [reflexivity|]. unfold stands_for, put_os, os_setbase; cbn [mu ms minput mos mfile wu ws winput wbase wprinted wfile width showbase uppercase basef out].
    conjs; auto. exists t0. auto.
  - unfold printable in E. destruct (_ && _) eqn:G in E; [|discriminate]. injection E as <-. bools. destruct (A n s) as (W & V); [lia|].
    pose proof (bval_bound n _ W) as BB. destruct (NUM (wu w n s)) as (x & X). pose proof X as X'. rewrite Z.abs_eq in X' by lia. rewrite <- V in X'.
    destruct (stream_state cfg n (mos m) _ x W D1 H1 H0 X') as (o & -> & O & B1 & U1 & W1 & SB). cbn [bind]. eexists. split; [reflexivity|].
    eapply (stands_print _ _ _ _ _ _ _ x); [exact H|exact W1|rewrite SB, D2; reflexivity|congruence|congruence| |].
    + rewrite O. unfold os_shown. rewrite D2. cbn [shown app]. reflexivity.
    + cbn [piece_text]. exists x. rewrite <- BO, <- D3. split; [exact X|]. replace (wu w n s <? 0) with false by (symmetry; apply Z.ltb_ge; lia). reflexivity.
  - unfold printable in E. destruct (_ && _) eqn:G in E; [|discriminate]. injection E as <-. bools. destruct (B n s) as (W & V); [lia|].
    destruct (NUM (ws w n s)) as (x & X). destruct (s_print cfg n (mos m) _ x W D1 D2 H1 H0) as (o & -> & O & B1 & U1 & W1 & SB); [rewrite V; exact X|]. cbn [bind].
    eexists. split; [reflexivity|]. eapply stands_print; eauto; try congruence. cbn [piece_text]. exists x. rewrite <- BO, <- D3, V. auto.
  - injection E as <-. eexists. split; [reflexivity|]. eapply stands_print with (x := t); eauto; try reflexivity.
    unfold os_put; cbn [out]. rewrite D1. replace (Z.to_nat (0 - len t)) with 0%nat by (unfold len; lia). cbn [repeat app]. rewrite app_nil_r. destruct (adj (mos m)); reflexivity.
  - destruct (Z.leb_spec 1 n); [|discriminate]. injection E as <-. destruct (A n s) as (W & V); auto.
    rewrite written by (auto; lia). cbn [bind obytes]. eexists. split; [reflexivity|]. pose proof (bval_bound n _ W) as BB. apply stands_file; auto.
    + rewrite map_app, concat_app, F. cbn [map concat]. rewrite app_nil_r, V. reflexivity.
    + apply Forall_app. split; auto. constructor; auto. rewrite <- V. exact BB.
  - destruct (wfile w) as [|[ [be' n'] v] rest] eqn:WF; [discriminate|]. destruct (_ && _) eqn:G in E; [|discriminate]. injection E as <-. bools.
    apply Z.eqb_eq in H1. subst n'. apply Bool.eqb_prop in H2. subst be'. cbn [map concat] in F.
    apply Forall_inv in F' as VB. apply Forall_inv_tail in F' as FT. rename H0 into Hn.
    destruct (numeral_exists false 10 v ltac:(lia) ltac:(lia)) as (tx & TX).
    destruct (proj1 (C32_numerals n false alnum false 10 v tx ltac:(lia) Ha VB) eq_refl TX) as (a & _ & Wa & Va).
    assert (RB : Forall is_byte (concat (map (record_bytes le) rest))).
    { clear. induction rest as [|r rest IH]; [constructor|]. cbn [map concat]. apply Forall_app. split; [apply record_is_bytes|exact IH]. }
    destruct (C39_binary_roundtrip le n a be (mk_bos [] None true) _ Wa eq_refl eq_refl RB) as (x & E1 & _ & _ & E2).
    rewrite (written le n a be (mk_bos [] None true) ltac:(lia) Wa eq_refl eq_refl), Va in E1. cbn [obytes app] in E1. assert (x = record_bytes le (be, n, v)) as -> by congruence.
    rewrite F, E2. cbn [bind ibytes]. eexists. split; [reflexivity|]. apply stands_put_u; auto; [|split; auto]. apply stands_file; auto.
Qed.

Lemma wtest_ok cfg le up old m w c b : stands_for le up old m w -> wspec_cond w c = Some b -> wtest cfg m c = Ok b.
Proof.
  intros (A & B & C & _) E. destruct c; cbn [wspec_cond wtest] in *.
  - destruct (Z.leb_spec 1 n); [|discriminate]. apply utest_ok with (e := wu w n); auto. intros i; apply A; auto.
  - destruct (Z.leb_spec 1 n); [|discriminate]. apply stest_ok with (e := ws w n); auto. intros i; apply B; auto.
  - destruct (_ && _) eqn:G in E; [|discriminate]. injection E as <-. bools. destruct (A n a) as (W1 & V1), (A m0 b0) as (W2 & V2); auto.
    rewrite (proj1 (C16_equality_across_precisions cfg n m0 _ _ W1 W2)), V1, V2. reflexivity.
  - destruct (_ && _) eqn:G in E; [|discriminate]. injection E as <-. bools. destruct (A n a) as (W1 & V1), (A m0 b0) as (W2 & V2); auto.
    rewrite (proj1 (C17_ordering_across_precisions_partial cfg n m0 _ _ W1 W2 ltac:(left; rewrite V1, V2; split; assumption))), V1, V2. reflexivity.
  - destruct (_ && _) eqn:G in E; [|discriminate]. injection E as <-. bools. destruct (B n a) as (W1 & V1), (B m0 b0) as (W2 & V2); auto.
    rewrite <- V1 in H0. destruct (C48_signed_comparison_across_precisions_partial cfg n m0 _ _ H H1 W1 W2 H0) as (E1 & _). rewrite E1, V1, V2. reflexivity.
  - destruct (_ && _) eqn:G in E; [|discriminate]. injection E as <-. bools. destruct (B n a) as (W1 & V1), (B m0 b0) as (W2 & V2); auto.
    rewrite <- V1 in H0. destruct (C48_signed_comparison_across_precisions_partial cfg n m0 _ _ H H1 W1 W2 H0) as (_ & _ & E1 & _). rewrite E1, V1, V2. reflexivity.
  - injection E as <-. rewrite C. reflexivity.
Qed.

(** ** C146: whole programs compute what their integer reading computes *)
Theorem C146_whole_programs : forall cfg le wide alnum up old fuel prog m w, alnum_ok alnum -> stands_for le up old m w ->
  match wspec_run up alnum fuel prog w with
  | WVal w' => exists m', wrun cfg le wide alnum fuel prog m = Ok m' /\ stands_for le up old m' w'
  | WUndef => True
  | WTimeout => wrun cfg le wide alnum fuel prog m = Err OutOfFuel
  end.
Proof.
  intros cfg le wide alnum up old fuel prog m w Ha. unfold wrun. revert prog m w. induction fuel as [|f IH]; intros s m w HR; cbn [wspec_run run]; [reflexivity|].
  destruct s as [|i|s t|c s t|c s].
  - eauto.
  - destruct (wspec_instr up alnum w i) as [w'|] eqn:E; auto. eapply wexec_ok; eauto.
  - pose proof (IH s m w HR) as H. destruct (wspec_run up alnum f s w) as [w'| |]; auto.
    + destruct H as (m' & -> & R'). cbn [bind]. apply IH; auto.
    + rewrite H. reflexivity.
  - destruct (wspec_cond w c) as [b|] eqn:E; auto. rewrite (wtest_ok cfg le up old m w c b HR E). cbn [bind]. apply IH; auto.
  - destruct (wspec_cond w c) as [b|] eqn:E; auto. rewrite (wtest_ok cfg le up old m w c b HR E). cbn [bind]. destruct b; [|eauto].
    pose proof (IH s m w HR) as H. destruct (wspec_run up alnum f s w) as [w'| |]; auto.
    + destruct H as (m' & -> & R'). cbn [bind]. apply IH; auto.
    + rewrite H. reflexivity.
Qed.
Print Assumptions C146_whole_programs.

(** The text of a list of pieces is unique. *)
Definition based (p : piece) : Prop := match p with PNum _ base _ => 2 <= base | PText _ => True end.
Lemma renders_unique ps t t' : Forall based ps -> renders ps t -> renders ps t' -> t = t'.
Proof.
  intros B (ts & F & ->) (ts' & F' & ->). f_equal. revert ts ts' F F'. induction B as [|p ps Bp B IH]; intros ts ts' F F'; inversion F; subst; inversion F'; subst; [reflexivity|].
  f_equal; [|apply IH; auto]. destruct p as [up base v|s]; cbn [piece_text based] in *; [|congruence].
  destruct H1 as (s & N & ->), H2 as (s' & N' & ->). f_equal. eapply numeral_unique; eauto.
Qed.
Lemma instr_based up alnum w i w' : Forall based (wprinted w) -> wspec_instr up alnum w i = Some w' -> Forall based (wprinted w').
Proof.
  assert (BB : forall b, 2 <= base_of b) by (intros []; cbn; lia).
  intros B E. destruct i; cbn [wspec_instr] in E;
    repeat match type of E with
           | (if ?b then _ else _) = _ => destruct b
           | (match ?x with _ => _ end) = _ => destruct x
           end; try discriminate; injection E as <-; cbn [set_u set_s put_u put_s set_input set_file print_piece wprinted]; auto;
    apply Forall_app; split; auto; constructor; cbn [based]; auto.
Qed.
Lemma run_based up alnum fuel prog w w' : Forall based (wprinted w) -> wspec_run up alnum fuel prog w = WVal w' -> Forall based (wprinted w').
Proof.
  revert prog w w'. induction fuel as [|f IH]; intros s w w' B E; cbn [wspec_run] in E; [discriminate|]. destruct s as [|i|s t|c s t|c s].
  - congruence.
  - destruct (wspec_instr up alnum w i) eqn:EI; [|discriminate]. injection E as <-. eapply instr_based; eauto.
  - destruct (wspec_run up alnum f s w) as [w1| |] eqn:E1; try discriminate. eauto.
  - destruct (wspec_cond w c) as [b|]; [|discriminate]. eauto.
  - destruct (wspec_cond w c) as [ [|]|]; try discriminate; [|congruence]. destruct (wspec_run up alnum f s w) as [w1| |] eqn:E1; try discriminate. eauto.
Qed.

(** A program started with all variables zero (in either class), some texts to read, an empty file and a stream that
    holds nothing yet. *)
Definition start_mem (texts : list (list Z)) (os : ostream) : wmem := mk_wmem (fun n _ => zeros n) (fun n _ => s_default n) texts os [].
Definition start_world (texts : list (list Z)) (b : basefield) : world := mk_world (fun _ _ => 0) (fun _ _ => 0) texts b [] [].
Lemma start_stands le texts os : out os = [] -> width os = 0 -> showbase os = false -> stands_for le (uppercase os) [] (start_mem texts os) (start_world texts (basef os)).
Proof.
  intros O W S. unfold stands_for, start_mem, start_world; cbn [mu ms minput mos mfile wu ws winput wbase wprinted wfile]. conjs; auto.
  - intros n i Hn. split; [apply wf_zeros; lia|apply bval_zeros].
  - intros n i Hn. split; [|reflexivity]. split; cbn [s_default mag sgn]; [apply wf_zeros; lia|congruence].
  - exists []. split; [exists []; split; [constructor|reflexivity]|]. rewrite O. reflexivity.
Qed.
(** It prints the one text its integer reading prints, and leaves the bytes of the records it has not read back. *)
Theorem C146_from_scratch : forall cfg le wide alnum fuel prog texts os w, alnum_ok alnum -> out os = [] -> width os = 0 -> showbase os = false ->
  wspec_run (uppercase os) alnum fuel prog (start_world texts (basef os)) = WVal w ->
  exists m, wrun cfg le wide alnum fuel prog (start_mem texts os) = Ok m /\
    (forall text, renders (wprinted w) text <-> text = out (mos m)) /\
    mfile m = concat (map (record_bytes le) (wfile w)).
Proof.
  intros cfg le wide alnum fuel prog texts os w Ha O W S E.
  pose proof (C146_whole_programs cfg le wide alnum (uppercase os) [] fuel prog _ _ Ha (start_stands le texts os O W S)) as T. rewrite E in T.
  destruct T as (m & T & A & B & C & (D1 & D2 & D3 & D4 & t & D5 & D6) & F & _). exists m. split; [exact T|]. split; [|exact F]. intros text. rewrite D6. cbn [app]. split.
  - intros R. eapply renders_unique; [eapply run_based; [|exact E]; constructor|eauto|eauto].
  - intros ->. exact D5.
Qed.
Print Assumptions C146_from_scratch.
(** What it prints does not depend on the build, the host, the character type or what else the stream's format holds. *)
Theorem C146_portable : forall cfg le wide cfg' le' wide' alnum fuel prog texts os os' w, alnum_ok alnum ->
  out os = [] -> width os = 0 -> showbase os = false -> out os' = [] -> width os' = 0 -> showbase os' = false -> basef os' = basef os -> uppercase os' = uppercase os ->
  wspec_run (uppercase os) alnum fuel prog (start_world texts (basef os)) = WVal w ->
  exists m m', wrun cfg le wide alnum fuel prog (start_mem texts os) = Ok m /\ wrun cfg' le' wide' alnum fuel prog (start_mem texts os') = Ok m' /\
    out (mos m) = out (mos m') /\
    (forall n i, 1 <= n -> mu m n (Var i) = mu m' n (Var i)) /\
    (forall n i, 1 <= n -> sval (ms m n (Var i)) = sval (ms m' n (Var i))).
Proof.
  intros cfg le wide cfg' le' wide' alnum fuel prog texts os os' w Ha O W S O' W' S' BF UP E.
  pose proof (C146_whole_programs cfg le wide alnum (uppercase os) [] fuel prog _ _ Ha (start_stands le texts os O W S)) as T. rewrite E in T.
  pose proof (start_stands le' texts os' O' W' S') as ST. rewrite BF, UP in ST.
  pose proof (C146_whole_programs cfg' le' wide' alnum (uppercase os) [] fuel prog _ _ Ha ST) as T'. rewrite E in T'.
  destruct T as (m & T & A & B & C & (D1 & D2 & D3 & D4 & t & D5 & D6) & F & _), T' as (m' & T' & A' & B' & C' & (D1' & D2' & D3' & D4' & t' & D5' & D6') & F' & _).
  exists m, m'. conjs; auto.
  - rewrite D6, D6'. f_equal. eapply renders_unique; [eapply run_based; [|exact E]; constructor|eauto|eauto].
  - intros n i Hn. destruct (A n i Hn) as (W1 & V1), (A' n i Hn) as (W2 & V2). eapply bval_inj; eauto. congruence.
  - intros n i Hn. destruct (B n i Hn) as (_ & V1), (B' n i Hn) as (_ & V2). congruence.
Qed.
Print Assumptions C146_portable.

(** Adds up the texts at 96 bits, signed; keeps the sum of their magnitudes at 32 bits unsigned; sends the latter
    through the file; prints both in hexadecimal with a space between them. *)
Definition totals : stmt winstr wcond :=
  Seq (While WMore (Seq (Do (WSRead 3 0)) (Seq (Do (WS 3 (SOp SOAdd 1 0)))
        (Seq (Do (WUnsigned 3 0 0)) (Seq (Do (WCast 3 0 1 0)) (Do (WU 1 (UOp OAdd 1 0))))))))
  (Seq (Do (WSave true 1 1)) (Seq (Do (WLoad true 1 2)) (Seq (Do (WCast 1 2 3 5))
  (Seq (Do (WBase BHex)) (Seq (Do (WSPrint 3 1)) (Seq (Do (WText [32])) (Do (WPrint 3 5)))))))).
Definition alnum_c (c : Z) : bool := (48 <=? c) && (c <=? 57) || (65 <=? c) && (c <=? 90) || (97 <=? c) && (c <=? 122).
(** "5" and "-23": prints "-12 1c" *)
Definition example_os := mk_os [] BDec false false 32 0 AdjNone.
Example C146_example : alnum_ok alnum_c /\
  (match wspec_run false alnum_c 20 totals (start_world [ [53]; [45; 50; 51] ] BDec) with
   | WVal w => wprinted w = [PNum false 16 (-18); PText [32]; PNum false 16 28] /\ wfile w = []
   | _ => False
   end) /\
  (match wrun (mk_config false false true) true false alnum_c 20 totals (start_mem [ [53]; [45; 50; 51] ] example_os) with
   | Ok m => out (mos m) = [45; 49; 50; 32; 49; 99]
   | Err _ => False
   end).
Proof.
  split.
  { intros c H. unfold alnum_c. destruct (Z.leb_spec 48 c), (Z.leb_spec c 57), (Z.leb_spec 65 c), (Z.leb_spec c 90), (Z.leb_spec 97 c), (Z.leb_spec c 122); cbn [andb orb]; auto; lia. }
  split; vm_compute; auto.
Qed.
