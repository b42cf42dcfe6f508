(** * PropsIniW: whole programs that assign before they use never read memory nobody wrote (C162). *)
From Verif Require Import Base Spec Lib AeuModel AeuFacts AeuArith AeuAccess AeuMore AesiModel AesiArith AesiFacts TextSpec TextModel TextOut BinSpec BinModel
  ProgSpec ProgModel ProgFacts ProgSigned PropsText PropsAesi PropsAeu PropsBin PropsMix PropsUse2 PropsMore PropsExact PropsExact2
  WholeSpec WholeModel PropsWhole IniSpec IniModel IniFacts IniSigned PropsIni PropsIniS IniProgSpec IniProgModel PropsIniP
  IniText IniTextFacts PropsIniT IniBin PropsIniB IniWholeSpec IniWhole.
From Coq Require Import Lia ZifyBool.
Open Scope Z_scope.

Ltac conjs := repeat match goal with |- _ /\ _ => split end.

(** The program's state stands for the world [w] as far as the assigned variables [V] go; the other variables may
    hold anything or nothing. *)
Definition stands_in (le up : bool) (old : list Z) (V : list wvar) (m : cwmem) (w : world) : Prop :=
  (forall n i, 1 <= n -> In (UV n i) V -> holds n (cwu m n i) (wu w n i)) /\
  (forall n i, 1 <= n -> In (SV n i) V -> sholds n (cws m n i) (ws w n i)) /\
  cwinput m = winput w /\
  (width (cwos m) = 0 /\ showbase (cwos m) = false /\ uppercase (cwos m) = up /\ basef (cwos m) = wbase w /\
   exists t, renders (wprinted w) t /\ out (cwos m) = old ++ t) /\
  cwfile m = concat (map (record_bytes le) (wfile w)) /\
  Forall (fun '(_, n, v) => 0 <= v < modulus n) (wfile w).

Lemma wvar_eqb_eq a b : wvar_eqb a b = true <-> a = b.
Proof.
  destruct a as [n i|n i], b as [k j|k j]; cbn [wvar_eqb]; split; intros H; try discriminate;
    try (apply andb_prop in H as [H1 H2]; apply Z.eqb_eq in H1; apply Nat.eqb_eq in H2; congruence);
    injection H as -> ->; rewrite Z.eqb_refl, Nat.eqb_refl; reflexivity.
Qed.
Lemma wmem_In x b : existsb (wvar_eqb x) b = true <-> In x b.
Proof.
  rewrite existsb_exists. split.
  - intros (y & Hy & E). apply wvar_eqb_eq in E. congruence.
  - intros H. exists x. split; auto. now apply wvar_eqb_eq.
Qed.
Lemma wwithin_In a b x : wwithin a b = true -> In x a -> In x b.
Proof. unfold wwithin. intros H Hx. rewrite forallb_forall in H. apply wmem_In, H, Hx. Qed.
Lemma wassigned_grows s : forall V W, wassigned V s = Some W -> incl V W.
Proof.
  induction s as [|i|s IHs t IHt|c s IHs t IHt|c s IHs]; intros V W H; cbn [wassigned] in H.
  - injection H as <-. apply incl_refl.
  - destruct (wwithin _ V); [|discriminate]. injection H as <-. apply incl_appr, incl_refl.
  - destruct (wassigned V s) as [X|] eqn:E; [|discriminate]. eapply incl_tran; [apply IHs; exact E|apply IHt; exact H].
  - destruct (wwithin _ V); [|discriminate]. destruct (wassigned V s) as [A|] eqn:EA; [|discriminate].
    destruct (wassigned V t) as [B|] eqn:EB; [|discriminate]. injection H as <-.
    intros x Hx. apply filter_In. split; [apply (IHs V A EA x Hx)|]. apply wmem_In, (IHt V B EB x Hx).
  - destruct (wwithin _ V); [|discriminate]. destruct (wassigned V s); [|discriminate]. injection H as <-. apply incl_refl.
Qed.

(** The assigned variables of one class and width. *)
Definition Vu (n : Z) (V : list wvar) : list nat := flat_map (fun v => match v with UV k i => if k =? n then [i] else [] | SV _ _ => [] end) V.
Definition Vs (n : Z) (V : list wvar) : list nat := flat_map (fun v => match v with SV k i => if k =? n then [i] else [] | UV _ _ => [] end) V.
Lemma Vu_In n V i : In i (Vu n V) <-> In (UV n i) V.
Proof.
  unfold Vu. rewrite in_flat_map. split.
  - intros ([k j|k j] & H & E); [|destruct E]. destruct (Z.eqb_spec k n) as [->|]; [|destruct E]. destruct E as [<-|[]]. exact H.
  - intros H. exists (UV n i). split; auto. rewrite Z.eqb_refl. now left.
Qed.
Lemma Vs_In n V i : In i (Vs n V) <-> In (SV n i) V.
Proof.
  unfold Vs. rewrite in_flat_map. split.
  - intros ([k j|k j] & H & E); [destruct E|]. destruct (Z.eqb_spec k n) as [->|]; [|destruct E]. destruct E as [<-|[]]. exact H.
  - intros H. exists (SV n i). split; auto. rewrite Z.eqb_refl. now left.
Qed.
Lemma Vu_within n l V : wwithin (map (UV n) l) V = true -> within l (Vu n V) = true.
Proof.
  intros H. unfold within. apply forallb_forall. intros x Hx. apply existsb_exists. exists x. split; [|apply Nat.eqb_refl].
  apply Vu_In. eapply wwithin_In; eauto. now apply in_map.
Qed.
Lemma Vs_within n l V : wwithin (map (SV n) l) V = true -> within l (Vs n V) = true.
Proof.
  intros H. unfold within. apply forallb_forall. intros x Hx. apply existsb_exists. exists x. split; [|apply Nat.eqb_refl].
  apply Vs_In. eapply wwithin_In; eauto. now apply in_map.
Qed.

Ltac flds := cbn [cwu cws cwinput cwos cwfile wu ws winput wbase wprinted wfile].
Lemma stands_in_mono le up old V W m w : incl W V -> stands_in le up old V m w -> stands_in le up old W m w.
Proof. intros I (A & B & R). split; [intros; apply A; auto|]. split; [intros; apply B; auto|exact R]. Qed.
Lemma stands_in_u le up old V m w n l x e : stands_in le up old V m w -> urelV n (l ++ Vu n V) x e ->
  stands_in le up old (map (UV n) l ++ V) (put_cu m n x) (set_u w n e).
Proof.
  intros (A & B & C & D & E & E') R. unfold stands_in, put_cu, set_u, at_width; flds. conjs; auto; try apply D.
  - intros k i Hk H. destruct (Z.eqb_spec k n) as [->|N].
    + apply R. apply in_app_iff. apply in_app_iff in H as [H|H]; [left|right; now apply Vu_In]. apply in_map_iff in H as (j & Ej & Hj). congruence.
    + apply A; auto. apply in_app_iff in H as [H|H]; auto. apply in_map_iff in H as (j & Ej & Hj). congruence.
  - intros k i Hk H. apply B; auto. apply in_app_iff in H as [H|H]; auto. apply in_map_iff in H as (j & Ej & Hj). congruence.
Qed.
Lemma stands_in_s le up old V m w n l x e : stands_in le up old V m w -> srelV n (l ++ Vs n V) x e ->
  stands_in le up old (map (SV n) l ++ V) (put_cs m n x) (set_s w n e).
Proof.
  intros (A & B & C & D & E & E') R. unfold stands_in, put_cs, set_s, at_width; flds. conjs; auto; try apply D.
  - intros k i Hk H. apply A; auto. apply in_app_iff in H as [H|H]; auto. apply in_map_iff in H as (j & Ej & Hj). congruence.
  - intros k i Hk H. destruct (Z.eqb_spec k n) as [->|N].
    + apply R. apply in_app_iff. apply in_app_iff in H as [H|H]; [left|right; now apply Vs_In]. apply in_map_iff in H as (j & Ej & Hj). congruence.
    + apply B; auto. apply in_app_iff in H as [H|H]; auto. apply in_map_iff in H as (j & Ej & Hj). congruence.
Qed.
Lemma stands_relV le up old V m w n : 1 <= n -> stands_in le up old V m w -> urelV n (Vu n V) (cwu m n) (wu w n).
Proof. intros Hn (A & _) v Hv. apply A; auto. now apply Vu_In. Qed.
Lemma stands_srelV le up old V m w n : 1 <= n -> stands_in le up old V m w -> srelV n (Vs n V) (cws m n) (ws w n).
Proof. intros Hn (_ & B & _) v Hv. apply B; auto. now apply Vs_In. Qed.
Lemma give_u le up old V m w n d call v : 1 <= n -> stands_in le up old V m w -> gives n call v ->
  exists m', cw_assign_u m n d call = Ok m' /\ stands_in le up old (UV n d :: V) m' (put_u w n d v).
Proof.
  intros Hn H G. unfold cw_assign_u. destruct (urel_store n (Vu n V) (cwu m n) (wu w n) d call v (stands_relV _ _ _ _ _ _ _ Hn H) G) as (x & -> & R). cbn [bind].
  eexists. split; [reflexivity|]. apply (stands_in_u le up old V m w n [d]); auto.
Qed.
Lemma give_s le up old V m w n d call v : 1 <= n -> stands_in le up old V m w -> sgives n call v ->
  exists m', cw_assign_s m n d call = Ok m' /\ stands_in le up old (SV n d :: V) m' (put_s w n d v).
Proof.
  intros Hn H G. unfold cw_assign_s. destruct (srel_store n (Vs n V) (cws m n) (ws w n) d call v (stands_srelV _ _ _ _ _ _ _ Hn H) G) as (x & -> & R). cbn [bind].
  eexists. split; [reflexivity|]. apply (stands_in_s le up old V m w n [d]); auto.
Qed.
Lemma stands_in_input le up old V m w l : stands_in le up old V m w -> stands_in le up old V (put_cinput m l) (set_input w l).
Proof. intros (A & B & C & D & E & E'). unfold stands_in, put_cinput, set_input; flds. conjs; auto; apply D. Qed.
Lemma stands_in_file le up old V m w f l : f = concat (map (record_bytes le) l) -> Forall (fun '(_, n, v) => 0 <= v < modulus n) l ->
  stands_in le up old V m w -> stands_in le up old V (put_cfile m f) (set_file w l).
Proof. intros F FF (A & B & C & D & E & E'). unfold stands_in, put_cfile, set_file; flds. conjs; auto; apply D. Qed.
Lemma stands_in_print le up old V m w os p x : stands_in le up old V m w -> width os = 0 -> showbase os = false -> uppercase os = up -> basef os = wbase w ->
  out os = out (cwos m) ++ x -> piece_text p x -> stands_in le up old V (put_cos m os) (print_piece w p).
Proof.
  intros (A & B & C & (D1 & D2 & D3 & D4 & t & D5 & D6) & E & E') H1 H2 H3 H4 H5 H6. unfold stands_in, put_cos, print_piece; flds.
  conjs; auto. exists (t ++ x). split; [apply renders_snoc; auto|]. rewrite H5, D6, <- app_assoc. reflexivity.
Qed.

(** A built-in value that fits is cast to itself. *)
Lemma s_trunc t n a k : 2 <= n -> swf n a -> isigned t = true -> builtin_ok t k (sval a) = true ->
  s_integralCast t a = Ok (sval a) /\ (1 <= k -> syields k (s_from_int k t (sval a)) (sval a)).
Proof.
  intros Hn W SI BO. unfold builtin_ok in BO. bools. rename H into IK, H2 into IN, H1 into MI, H0 into WD.
  assert (MIN : isigned t = true -> 32 <= iwidth t -> sval a <> ity_min t).
  { intros _ W32 X. apply Bool.orb_prop in MI as [K|K]; bools; [congruence|]. apply Z.eqb_eq in K. unfold ity_min in X. rewrite SI in X.
    pose proof (Z.pow_pos_nonneg 2 (iwidth t - 1)). lia. }
  split.
  - rewrite (C135_signed_integral_cast t n _ Hn W IK), SI. cbn [negb].
    assert (WI : iwidth t = 8 \/ iwidth t = 16 \/ iwidth t = 32 \/ iwidth t = 64).
    { unfold ity_ok in IK. repeat (apply Bool.orb_prop in IK; destruct IK as [IK|IK]); apply Z.eqb_eq in IK; lia. }
    unfold in_ity, ity_min, ity_max in *. rewrite SI in *. bools.
    assert (P2 : 2 ^ iwidth t = 2 * 2 ^ (iwidth t - 1)) by (rewrite <- Z.pow_succ_r by lia; f_equal; lia).
    assert (PP : 0 < 2 ^ (iwidth t - 1)) by (apply Z.pow_pos_nonneg; lia). set (h := 2 ^ (iwidth t - 1)) in *.
    assert (IC : icast t (sval a) = sval a).
    { unfold icast. rewrite SI. cbn [andb]. fold h. rewrite P2. destruct (Z.ltb_spec (sval a) 0).
      - replace (sval a mod (2 * h)) with (sval a + 2 * h) by (apply Z.mod_unique_pos with (-1); lia). destruct (Z.leb_spec h (sval a + 2 * h)); lia.
      - rewrite Z.mod_small by lia. destruct (Z.leb_spec h (sval a)); lia. }
    rewrite IC. destruct ((32 <=? iwidth t) && (sval a <? 0) && _) eqn:K; [|reflexivity]. bools. exfalso.
    match goal with K : (_ =? _) = true |- _ => apply Z.eqb_eq in K; rewrite P2 in K end.
    assert (XX : sval a mod (2 * h) = sval a + 2 * h) by (symmetry; apply Z.mod_unique_pos with (-1); lia). apply MIN; auto; lia.
  - intros Hk. destruct (C52_signed_construct_partial k t (sval a) (s_default k)) as ((x & E & Wx & Vx) & _); auto.
    { apply Bool.orb_prop in WD as [K|K]; bools; auto. }
    exists x. auto.
Qed.

Lemma cwexec_ok cfg le wide alnum up old V m w i w' : alnum_ok alnum -> stands_in le up old V m w -> wwithin (wreads i) V = true ->
  wspec_instr up alnum w i = Some w' -> exists m', cwexec cfg le wide alnum m i = Ok m' /\ stands_in le up old (wwrites i ++ V) m' w'.
Proof.
  intros Ha H RD E. pose proof H as (A0 & B0 & C & (D1 & D2 & D3 & D4 & t0 & D5 & D6) & F & F').
  assert (A : forall n k, 1 <= n -> In (UV n k) (wreads i) -> exists a, cwu m n k = init a /\ wf n a /\ bval a = wu w n k).
  { intros n k Hn Hk. destruct (A0 n k Hn (wwithin_In _ _ _ RD Hk)) as (a & Ea & Wa & Va). exists a. auto. }
  assert (B : forall n k, 1 <= n -> In (SV n k) (wreads i) -> exists a, cws m n k = sinit a /\ swf n a /\ sval a = ws w n k).
  { intros n k Hn Hk. destruct (B0 n k Hn (wwithin_In _ _ _ RD Hk)) as (a & Ea & Wa & Va). exists a. auto. }
  assert (NUM : forall v, exists s, numeral (uppercase (cwos m) && (os_base (cwos m) =? 16)) (os_base (cwos m)) (Z.abs v) s).
  { intros v. apply numeral_exists; [unfold os_base; destruct (basef (cwos m)); lia|lia]. }
  assert (BO : os_base (cwos m) = base_of (wbase w)) by (unfold os_base, base_of; rewrite D4; reflexivity).
  destruct i; cbn [wspec_instr cwexec wreads wwrites] in *; try (cbn [app]).
  - destruct (Z.leb_spec 1 n); [|discriminate]. destruct (uspec_instr n (wu w n) i) as [e|] eqn:EI; [|discriminate]. injection E as <-.
    destruct (cexec_ok cfg n (Vu n V) (cwu m n) (wu w n) i e) as (x & -> & R); auto; [eapply stands_relV; eauto|now apply Vu_within|]. cbn [bind].
    eexists. split; [reflexivity|]. apply stands_in_u; auto.
  - destruct (Z.leb_spec 1 n); [|discriminate]. destruct (sspec_instr n (ws w n) i) as [e|] eqn:EI; [|discriminate]. injection E as <-.
    destruct (csexec_ok cfg n (Vs n V) (cws m n) (ws w n) i e) as (x & -> & R); auto; [eapply stands_srelV; eauto|now apply Vs_within|]. cbn [bind].
    eexists. split; [reflexivity|]. apply stands_in_s; auto.
  - destruct (_ && _) eqn:G in E; [|discriminate]. injection E as <-. bools. destruct (A n s) as (a & -> & W & Va); [auto|now left|].
    apply give_u; auto. rewrite <- Va. eapply gives_lift; [apply precisionCast_i|]. destruct (precisionCast_spec cfg n m0 a W) as (x & Ex & R); [lia|]. exists x. auto.
  - destruct (_ && _) eqn:G in E; [|discriminate]. injection E as <-. bools. destruct (B n s) as (a & -> & W & Va); [auto|now left|].
    apply give_s; auto. eapply sgives_lift; [apply sprecisionCast_i; lia|].
    destruct (C59_signed_precision_cast_partial cfg n m0 _ H0 H2 W) as [P _]. rewrite Va in P. destruct P as (x & Ex & Cx & Vx); auto.
    exists x. conjs; auto. now apply canon_swf.
  - destruct (_ && _) eqn:G in E; [|discriminate]. injection E as <-. bools. destruct (A n s) as (a & -> & W & Va); [auto|now left|].
    apply give_s; auto. unfold cs_from_aeu. rewrite copy_init. cbn [bind]. eexists. split; [reflexivity|]. exists (s_from_aeu a). split; [reflexivity|].
    destruct (C58_unsigned_signed_conversion_partial n _ W) as (P1 & P2 & _). split; [apply P2; congruence|congruence].
  - destruct (_ && _) eqn:G in E; [|discriminate]. injection E as <-. bools. destruct (B n s) as (a & -> & W & Va); [auto|now left|].
    apply give_u; auto. unfold cs_unsignedCast, sinit. cbn [cmag]. rewrite copy_init. eexists. split; [reflexivity|]. exists (mag a). split; [reflexivity|].
    destruct (C58_unsigned_signed_conversion_partial n _ (proj1 W)) as (_ & _ & P). destruct (P _ W) as (P1 & P2). unfold s_unsignedCast in *. split; auto. rewrite P2, Va; [reflexivity|congruence].
  - destruct (_ && _) eqn:G in E; [|discriminate]. injection E as <-. bools. destruct (A n s) as (a & -> & W & Va); [lia|now left|].
    rewrite integralCast_i. destruct (C29_integral_cast t n _ W) as (v & -> & P & _); auto. cbn [bind]. rewrite P, Va by assumption.
    assert (WI : 0 < 2 ^ iwidth t <= 2 ^ 64).
    { unfold ity_ok in H2. repeat (apply Bool.orb_prop in H2; destruct H2 as [H2|H2]); apply Z.eqb_eq in H2; rewrite H2; lia. }
    pose proof (Z.mod_pos_bound (wu w n s) (2 ^ iwidth t) (proj1 WI)).
    apply give_u; auto. eapply gives_lift; [apply from_unsigned_i; lia|].
    destruct (C31_construct_unsigned m0 (zeros m0) (wu w n s mod 2 ^ iwidth t)) as ((x & Ex & R) & _); [lia|apply len_zeros; lia|lia|]. exists x. auto.
  - destruct (_ && _) eqn:G in E; [|discriminate]. injection E as <-. bools. destruct (B n s) as (a & -> & W & Va); [lia|now left|].
    rewrite <- Va in *. destruct (s_trunc t n a m0 ltac:(lia) W ltac:(assumption) ltac:(assumption)) as [T1 T2]. rewrite sintegralCast_i, T1. cbn [bind].
    apply give_s; auto. eapply sgives_lift; [apply from_int_i; lia|]. auto.
  - destruct (_ && _) eqn:G in E; [|discriminate]. injection E as <-. bools.
    destruct (A n b) as (xb & -> & Wb & Vb); [auto|now left|]. destruct (A k p) as (xp & -> & Wp & Vp); [auto|right; now left|].
    destruct (A n m0) as (xm & -> & Wm & Vm); [auto|right; right; now left|].
    apply give_u; auto. eapply gives_lift; [apply powm_x_i; lia|].
    destruct (C26_powm_mixed_partial cfg n k _ _ _ H0 Wb Wp Wm) as (x & Ex & R); [lia|rewrite Vm; lia|congruence|right; lia|]. rewrite Vb, Vp, Vm in R. exists x. auto.
  - rewrite C. destruct (winput w) as [|t rest]; [discriminate|]. destruct (_ && _) eqn:G in E; [|discriminate]. injection E as <-. bools.
    apply give_u; auto; [apply stands_in_input; auto|]. eapply gives_lift; [apply from_chars_i|].
    destruct (C32_string_construction n wide alnum t) as (x & Ex & R); [lia|auto| |].
    { apply Forall_forall. intros c Hc. rewrite forallb_forall in H1. specialize (H1 c Hc). bools. auto. }
    exists x. auto.
  - rewrite C. destruct (winput w) as [|t rest]; [discriminate|]. destruct (_ && _) eqn:G in E; [|discriminate]. injection E as <-. bools.
    apply give_s; auto; [apply stands_in_input; auto|]. eapply sgives_lift; [apply sfrom_chars_i|].
    destruct (C57_signed_string_construction n wide alnum t) as (x & Ex & Cx & Vx); [lia|auto| |].
    { apply Forall_forall. intros c Hc. rewrite forallb_forall in H1. specialize (H1 c Hc). bools. auto. }
    exists x. conjs; auto. now apply canon_swf.
  - injection E as <-. eexists. split; [reflexivity|]. unfold stands_in, put_cos, os_setbase; flds; cbn [width showbase uppercase basef out].
    conjs; auto. exists t0. auto.
  - unfold printable in E. destruct (_ && _) eqn:G in E; [|discriminate]. injection E as <-. bools. destruct (A n s) as (a & -> & W & Va); [lia|now left|].
    pose proof (bval_bound n _ W) as BB. destruct (NUM (wu w n s)) as (x & X). pose proof X as X'. rewrite Z.abs_eq in X' by lia. rewrite <- Va in X'.
    rewrite stream_insert_i by lia.
    destruct (stream_state cfg n (cwos m) _ x W D1 H1 H0 X') as (o & -> & O & B1 & U1 & W1 & SB). cbn [bind]. eexists. split; [reflexivity|].
    eapply (stands_in_print _ _ _ _ _ _ _ _ x); [exact H|exact W1|rewrite SB, D2; reflexivity|congruence|congruence| |].
    + rewrite O. unfold os_shown. rewrite D2. cbn [shown app]. reflexivity.
    + cbn [piece_text]. exists x. rewrite <- BO, <- D3. split; [exact X|]. replace (wu w n s <? 0) with false by (symmetry; apply Z.ltb_ge; lia). reflexivity.
  - unfold printable in E. destruct (_ && _) eqn:G in E; [|discriminate]. injection E as <-. bools. destruct (B n s) as (a & -> & W & Va); [lia|now left|].
    rewrite sstream_insert_i by lia.
    destruct (NUM (ws w n s)) as (x & X). destruct (s_print cfg n (cwos m) _ x W D1 D2 H1 H0) as (o & -> & O & B1 & U1 & W1 & SB); [rewrite Va; exact X|]. cbn [bind].
    eexists. split; [reflexivity|]. eapply stands_in_print; eauto; try congruence. cbn [piece_text]. exists x. rewrite <- BO, <- D3, Va. auto.
  - injection E as <-. eexists. split; [reflexivity|]. eapply stands_in_print with (x := t); eauto; try reflexivity.
    unfold os_put; cbn [out]. rewrite D1. replace (Z.to_nat (0 - len t)) with 0%nat by (unfold len; lia). cbn [repeat app]. rewrite app_nil_r. destruct (adj (cwos m)); reflexivity.
  - destruct (Z.leb_spec 1 n); [|discriminate]. injection E as <-. destruct (A n s) as (a & -> & W & Va); [auto|now left|].
    rewrite writeBinary_i by auto. rewrite written by (auto; lia). cbn [bind obytes]. eexists. split; [reflexivity|]. pose proof (bval_bound n _ W) as BB. apply stands_in_file; auto.
    + rewrite map_app, concat_app, F. cbn [map concat]. rewrite app_nil_r, Va. reflexivity.
    + apply Forall_app. split; auto. constructor; auto. rewrite <- Va. exact BB.
  - destruct (wfile w) as [|[ [be' n'] v] rest] eqn:WF; [discriminate|]. destruct (_ && _) eqn:G in E; [|discriminate]. injection E as <-. bools.
    apply Z.eqb_eq in H1. subst n'. apply Bool.eqb_prop in H2. subst be'. cbn [map concat] in F.
    apply Forall_inv in F' as VB. apply Forall_inv_tail in F' as FT. rename H0 into Hn.
    destruct (numeral_exists false 10 v ltac:(lia) ltac:(lia)) as (tx & TX).
    destruct (proj1 (C32_numerals n false alnum false 10 v tx ltac:(lia) Ha VB) eq_refl TX) as (a & _ & Wa & Va).
    assert (RB : Forall is_byte (concat (map (record_bytes le) rest))).
    { clear. induction rest as [|r rest IH]; [constructor|]. cbn [map concat]. apply Forall_app. split; [apply record_is_bytes|exact IH]. }
    destruct (C39_binary_roundtrip le n a be (mk_bos [] None true) _ Wa eq_refl eq_refl RB) as (x & E1 & _ & _ & E2).
    rewrite (written le n a be (mk_bos [] None true) ltac:(lia) Wa eq_refl eq_refl), Va in E1. cbn [obytes app] in E1. assert (x = record_bytes le (be, n, v)) as -> by congruence.
    rewrite readBinary_i, F, E2. cbn [lift init1 fst snd bind ibytes]. eexists. split; [reflexivity|].
    change (UV n d :: V) with (map (UV n) [d] ++ V). change (put_u (set_file w rest) n d v) with (set_u (set_file w rest) n (eput (wu w n) d v)).
    apply stands_in_u; [apply stands_in_file; auto|]. apply urelV_put; [eapply stands_relV; eauto|]. exists a. auto.
Qed.

Lemma cwtest_ok cfg le up old V m w c b : stands_in le up old V m w -> wwithin (wcreads c) V = true -> wspec_cond w c = Some b -> cwtest cfg m c = Ok b.
Proof.
  intros H RD E. pose proof H as (A0 & B0 & C & _).
  assert (A : forall n k, 1 <= n -> In (UV n k) (wcreads c) -> exists a, cwu m n k = init a /\ wf n a /\ bval a = wu w n k).
  { intros n k Hn Hk. destruct (A0 n k Hn (wwithin_In _ _ _ RD Hk)) as (a & Ea & Wa & Va). exists a. auto. }
  assert (B : forall n k, 1 <= n -> In (SV n k) (wcreads c) -> exists a, cws m n k = sinit a /\ swf n a /\ sval a = ws w n k).
  { intros n k Hn Hk. destruct (B0 n k Hn (wwithin_In _ _ _ RD Hk)) as (a & Ea & Wa & Va). exists a. auto. }
  destruct c; cbn [wspec_cond cwtest wcreads] in *.
  - destruct (Z.leb_spec 1 n); [|discriminate]. eapply ctest_ok with (e := wu w n); eauto; [eapply stands_relV; eauto|now apply Vu_within].
  - destruct (Z.leb_spec 1 n); [|discriminate]. eapply cstest_ok with (e := ws w n); eauto; [eapply stands_srelV; eauto|now apply Vs_within].
  - destruct (_ && _) eqn:G in E; [|discriminate]. injection E as <-. bools.
    destruct (A n a) as (x & -> & W1 & V1); [auto|now left|]. destruct (A m0 b0) as (y & -> & W2 & V2); [auto|right; now left|].
    rewrite op_eq_i, (proj1 (C16_equality_across_precisions cfg n m0 _ _ W1 W2)), V1, V2. reflexivity.
  - destruct (_ && _) eqn:G in E; [|discriminate]. injection E as <-. bools.
    destruct (A n a) as (x & -> & W1 & V1); [auto|now left|]. destruct (A m0 b0) as (y & -> & W2 & V2); [auto|right; now left|].
    rewrite op_lt_i, (proj1 (C17_ordering_across_precisions_partial cfg n m0 _ _ W1 W2 ltac:(left; rewrite V1, V2; split; assumption))), V1, V2. reflexivity.
  - destruct (_ && _) eqn:G in E; [|discriminate]. injection E as <-. bools.
    destruct (B n a) as (x & -> & W1 & V1); [auto|now left|]. destruct (B m0 b0) as (y & -> & W2 & V2); [auto|right; now left|].
    destruct (C154_same_rest cfg n m0 x y int32 0 ltac:(lia) ltac:(lia)) as (_ & (_ & -> & _) & _). rewrite <- V1 in H1.
    destruct (C48_signed_comparison_across_precisions_partial cfg n m0 _ _ ltac:(assumption) ltac:(assumption) W1 W2 H1) as (E1 & _). rewrite E1, V1, V2. reflexivity.
  - destruct (_ && _) eqn:G in E; [|discriminate]. injection E as <-. bools.
    destruct (B n a) as (x & -> & W1 & V1); [auto|now left|]. destruct (B m0 b0) as (y & -> & W2 & V2); [auto|right; now left|].
    destruct (C154_same_rest cfg n m0 x y int32 0 ltac:(lia) ltac:(lia)) as (_ & (_ & _ & _ & _ & _ & -> & _) & _). rewrite <- V1 in H1.
    destruct (C48_signed_comparison_across_precisions_partial cfg n m0 _ _ ltac:(assumption) ltac:(assumption) W1 W2 H1) as (_ & _ & E1 & _). rewrite E1, V1, V2. reflexivity.
  - injection E as <-. rewrite C. reflexivity.
Qed.

(** ** C162 *)

(** A whole program that passes the check computes what its integer reading says - values, printed text and file -
    whatever the variables not yet assigned hold, and reads none of them. *)
Theorem C162_assigned_whole_programs : forall cfg le wide alnum up old fuel prog V W m w, alnum_ok alnum ->
  wassigned V prog = Some W -> stands_in le up old V m w ->
  match wspec_run up alnum fuel prog w with
  | WVal w' => exists m', cwrun cfg le wide alnum fuel prog m = Ok m' /\ stands_in le up old W m' w'
  | WUndef => True
  | WTimeout => cwrun cfg le wide alnum fuel prog m = Err OutOfFuel
  end.
Proof.
  intros cfg le wide alnum up old fuel prog V W m w Ha. unfold cwrun. revert prog V W m w.
  induction fuel as [|f IH]; intros s V W m w HA HR; cbn [wspec_run run]; [reflexivity|].
  destruct s as [|i|s t|c s t|c s]; cbn [wassigned] in HA.
  - injection HA as <-. eauto.
  - destruct (wwithin (wreads i) V) eqn:Wi; [|discriminate]. injection HA as <-. destruct (wspec_instr up alnum w i) as [w'|] eqn:E; auto. eapply cwexec_ok; eauto.
  - destruct (wassigned V s) as [X|] eqn:EX; [|discriminate]. pose proof (IH s V X m w EX HR) as H. destruct (wspec_run up alnum f s w) as [w'| |]; auto.
    + destruct H as (m' & -> & R'). cbn [bind]. apply (IH t X W); auto.
    + rewrite H. reflexivity.
  - destruct (wwithin (wcreads c) V) eqn:Wc; [|discriminate]. destruct (wassigned V s) as [A|] eqn:EA; [|discriminate].
    destruct (wassigned V t) as [B|] eqn:EB; [|discriminate]. injection HA as <-.
    destruct (wspec_cond w c) as [b|] eqn:E; auto. rewrite (cwtest_ok cfg le up old V m w c b HR Wc E). cbn [bind]. destruct b.
    + pose proof (IH s V A m w EA HR) as H. destruct (wspec_run up alnum f s w); auto. destruct H as (m' & Em & R').
      exists m'. split; auto. eapply stands_in_mono; [|exact R']. intros x Hx. apply filter_In in Hx. tauto.
    + pose proof (IH t V B m w EB HR) as H. destruct (wspec_run up alnum f t w); auto. destruct H as (m' & Em & R').
      exists m'. split; auto. eapply stands_in_mono; [|exact R']. intros x Hx. apply filter_In in Hx as [_ Hx]. now apply wmem_In.
  - destruct (wwithin (wcreads c) V) eqn:Wc; [|discriminate]. destruct (wassigned V s) as [A|] eqn:EA; [|discriminate]. injection HA as <-.
    destruct (wspec_cond w c) as [b|] eqn:E; auto. rewrite (cwtest_ok cfg le up old V m w c b HR Wc E). cbn [bind]. destruct b; [|eauto].
    pose proof (IH s V A m w EA HR) as H. destruct (wspec_run up alnum f s w) as [w'| |]; auto.
    + destruct H as (m' & -> & R'). cbn [bind]. apply (IH (While c s) V V).
      * cbn [wassigned]. rewrite Wc, EA. reflexivity.
      * eapply stands_in_mono; [|exact R']. apply (wassigned_grows s V A EA).
    + rewrite H. reflexivity.
Qed.
Print Assumptions C162_assigned_whole_programs.

(** A program started with no variable assigned at all. *)
Definition bare_mem (cu : Z -> nat -> cells) (cs : Z -> nat -> caesi) (texts : list (list Z)) (os : ostream) : cwmem := mk_cwmem cu cs texts os [].
(** It prints the one text its integer reading prints, whatever the memory of its variables held at the start and
    whatever integers they are taken to be. *)
Theorem C162_from_bare_memory : forall cfg le wide alnum fuel prog W cu cs texts os eu es w, alnum_ok alnum ->
  out os = [] -> width os = 0 -> showbase os = false -> wassigned [] prog = Some W ->
  wspec_run (uppercase os) alnum fuel prog (mk_world eu es texts (basef os) [] []) = WVal w ->
  exists m, cwrun cfg le wide alnum fuel prog (bare_mem cu cs texts os) = Ok m /\
    (forall text, renders (wprinted w) text <-> text = out (cwos m)) /\
    cwfile m = concat (map (record_bytes le) (wfile w)) /\
    (forall n i, 1 <= n -> In (UV n i) W -> holds n (cwu m n i) (wu w n i)) /\
    (forall n i, 1 <= n -> In (SV n i) W -> sholds n (cws m n i) (ws w n i)).
Proof.
  intros cfg le wide alnum fuel prog W cu cs texts os eu es w Ha O Wd S A E.
  assert (ST : stands_in le (uppercase os) [] [] (bare_mem cu cs texts os) (mk_world eu es texts (basef os) [] [])).
  { unfold stands_in, bare_mem; flds. conjs; auto; try (intros n i _ []). exists []. split; [exists []; split; [constructor|reflexivity]|]. rewrite O. reflexivity. }
  pose proof (C162_assigned_whole_programs cfg le wide alnum _ _ fuel prog _ _ _ _ Ha A ST) as T. rewrite E in T.
  destruct T as (m & T & A1 & B & C & (D1 & D2 & D3 & D4 & t & D5 & D6) & F & _). exists m. split; [exact T|]. conjs; auto. intros text. rewrite D6. cbn [app]. split.
  - intros R. eapply renders_unique; [eapply run_based; [|exact E]; constructor|eauto|eauto].
  - intros ->. exact D5.
Qed.
Print Assumptions C162_from_bare_memory.

(** The check is not stricter than it must be: printing, saving or converting a variable never assigned reads
    unwritten memory, at every width and in every build. *)
Theorem C162_unassigned : forall cfg le wide alnum n k s d t be m, 1 <= n -> 1 <= k ->
  (cwu m n s = fresh n ->
    Forall (fun i => reads_garbage (cwexec cfg le wide alnum m i))
      [WPrint n s; WSave be n s; WCast n s k d; WSigned n s d] /\
    (2 <= n -> reads_garbage (cwexec cfg le wide alnum m (WTrunc n s t k d)))) /\
  (cws m n s = sfresh n ->
    Forall (fun i => reads_garbage (cwexec cfg le wide alnum m i))
      [WSPrint n s; WSCast n s k d; WUnsigned n s d; WSTrunc n s t k d]).
Proof.
  intros cfg le wide alnum n k s d t be m Hn Hk. split; intros E; [split|]; [|intros N2|]; repeat constructor; unfold reads_garbage; cbn [cwexec]; rewrite E.
  - unfold c_stream_insert. cbv zeta. unfold c_isZero. rewrite filled_fresh by exact Hn. reflexivity.
  - rewrite (C161_unassigned le n (fresh n) be (mk_bos (cwfile m) None true)); auto.
    + unfold len, fresh. rewrite repeat_length. lia.
    + unfold fresh. destruct (Z.to_nat n) eqn:Q; [lia|]. reflexivity.
  - unfold cw_assign_u, c_store, c_precisionCast. cbn zeta. rewrite (forU_first 0 _ _ _ Indeterminate); [reflexivity| |].
    + destruct (_ >? _); lia.
    + rewrite getBlock_fresh by lia. reflexivity.
  - unfold cw_assign_s, cs_store, cs_from_aeu. rewrite copy_fresh by exact Hn. reflexivity.
  - unfold c_integralCast. rewrite cget_fresh by lia. reflexivity.
  - reflexivity.
  - reflexivity.
  - unfold cw_assign_u, c_store, cs_unsignedCast, sfresh. cbn [cmag]. rewrite copy_fresh by exact Hn. reflexivity.
  - reflexivity.
Qed.
Print Assumptions C162_unassigned.

(** The program of C146 starts its two sums from variables nobody has assigned: the check rejects it and on bare memory
    it reads garbage; with the two sums set to zero first it prints "-12 1c" from bare memory. *)
Definition totals0 : stmt winstr wcond := Seq (Do (WS 3 (SLit 1 int32 0))) (Seq (Do (WU 1 (ULit 1 0))) totals).
Definition ex_cfg := mk_config false false true.
Example C162_example : wassigned [] totals = None /\
  wassigned [] totals0 = Some [UV 3 5; UV 1 2; UV 1 1; SV 3 1] /\
  cwrun ex_cfg true false alnum_c 20 totals (bare_mem (fun n _ => fresh n) (fun n _ => sfresh n) [ [53]; [45; 50; 51] ] example_os) = Err Indeterminate /\
  (match wspec_run false alnum_c 22 totals0 (mk_world (fun _ _ => 77) (fun _ _ => -3) [ [53]; [45; 50; 51] ] BDec [] []) with
   | WVal w => wprinted w = [PNum false 16 (-18); PText [32]; PNum false 16 28] /\ wfile w = []
   | _ => False
   end) /\
  (match cwrun ex_cfg true false alnum_c 22 totals0 (bare_mem (fun n _ => fresh n) (fun n _ => sfresh n) [ [53]; [45; 50; 51] ] example_os) with
   | Ok m => out (cwos m) = [45; 49; 50; 32; 49; 99]
   | Err _ => False
   end).
Proof. conjs; vm_compute; auto. Qed.
