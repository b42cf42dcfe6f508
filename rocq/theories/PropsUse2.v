(** * PropsUse2: C88 - C96, complete uses of the library, continued: round trips through built-in types, text-in
    text-out programs, containers, chained output, key agreement, build configurations. *)
From Coq Require Import Zpow_facts.
From Verif Require Import UseModel MixFacts TextMore ProgFacts ProgSigned PropsText PropsProg PropsAesi PropsAeu.
Open Scope Z_scope.

Ltac conjs := repeat match goal with |- _ /\ _ => split end.
Ltac wfc := apply wfb_wf; vm_compute; reflexivity.

(** ** C88: a built-in value survives the way through the library (README l.88-89).  Missing (false, see C52):
    the minimum of the signed types of 32 and 64 bits. *)
Lemma icast_in t v : ity_ok t = true -> in_ity t v = true -> 0 <= v -> icast t (v mod 2 ^ 64) = v.
Proof.
  intros Ht Hv H0. unfold in_ity in Hv. apply andb_prop in Hv. destruct Hv as [_ Hv]. apply Z.leb_le in Hv. unfold ity_max in Hv.
  assert (W : iwidth t = 8 \/ iwidth t = 16 \/ iwidth t = 32 \/ iwidth t = 64).
  { unfold ity_ok in Ht. repeat (apply Bool.orb_prop in Ht; destruct Ht as [Ht|Ht]); apply Z.eqb_eq in Ht; lia. }
  unfold icast. destruct W as [W|[W|[W|W] ] ]; rewrite W in *; destruct (isigned t); cbn [andb];
    rewrite (Z.mod_small v (2 ^ 64)) by lia; rewrite Z.mod_small by lia;
    try reflexivity; match goal with |- context [?a <=? v] => destruct (Z.leb_spec a v) end; lia.
Qed.
Theorem C88_builtin_roundtrip_partial : forall n t v, 2 <= n -> ity_ok t = true -> in_ity t v = true ->
  (isigned t = true -> 32 <= iwidth t -> v <> ity_min t) -> readme_kernel n t v = Ok v.
Proof.
  intros n t v Hn Ht Hv Hm. unfold readme_kernel.
  destruct (s_from_int_correct n t v ltac:(lia) Ht Hv ltac:(lia) Hm) as (r & -> & C & V). cbn [bind].
  pose proof (canon_swf n r C) as S. destruct (Z.ltb_spec v 0) as [Neg|Pos].
  - assert (Si : isigned t = true). { unfold in_ity, ity_min in Hv. destruct (isigned t); auto. apply andb_prop in Hv. destruct Hv as [Hv _]. apply Z.leb_le in Hv. lia. }
    destruct (C54_signed_integral_cast_partial t n r Hn S Ht Si) as (v' & E & _ & _ & F).
    + destruct (Z.ltb_spec (iwidth t) 32) as [|G]; [left; lia|right; right]. rewrite V. intros X. apply (Hm Si G).
      unfold in_ity, ity_min, ity_max in *. rewrite Si in *. apply andb_prop in Hv. destruct Hv as [Hv _]. apply Z.leb_le in Hv.
      assert (P2 : 2 ^ iwidth t = 2 * 2 ^ (iwidth t - 1)) by (rewrite <- Z.pow_succ_r by lia; f_equal; lia).
      rewrite P2 in X. assert (PP : 0 < 2 ^ (iwidth t - 1)) by (apply Z.pow_pos_nonneg; lia).
      rewrite <- (Z_mod_plus_full v 1) in X. rewrite Z.mod_small in X by lia. lia.
    + rewrite E, F; [rewrite V; reflexivity|]. rewrite V. unfold in_ity in Hv. apply andb_prop in Hv. destruct Hv as [A B]. apply Z.leb_le in A, B. lia.
  - unfold s_integralCast. destruct C as [W C]. unfold sval in V. destruct (sgn r) eqn:Sg.
    + congruence.
    + rewrite (integralCast_spec t n (mag r) W Hn), V, icast_in by auto. reflexivity.
    + pose proof (bval_bound n _ W). assert (bval (mag r) = 0) by lia. apply C in H0. congruence.
Qed.
Print Assumptions C88_builtin_roundtrip_partial.
Theorem C88_builtin_roundtrip_refuted : forall n t, isigned t = true -> 32 <= iwidth t -> readme_kernel n t (ity_min t) = Err SignedOverflow.
Proof. intros n t S W. unfold readme_kernel. rewrite (s_from_int_min n t _ S W eq_refl). reflexivity. Qed.
Print Assumptions C88_builtin_roundtrip_refuted.
Theorem C88_unsigned_roundtrip : forall n junk t v, 2 <= n -> len junk = n -> ity_ok t = true -> isigned t = false -> in_ity t v = true ->
  through_aeu n junk t v = Ok v.
Proof.
  intros n junk t v Hn Lj Ht Su Hv. unfold through_aeu.
  assert (B : 0 <= v < 2 ^ 64).
  { unfold in_ity, ity_min, ity_max in Hv. rewrite Su in Hv. apply andb_prop in Hv. destruct Hv as [A B]. apply Z.leb_le in A, B.
    split; [exact A|]. apply Z.le_lt_trans with (2 ^ iwidth t - 1); [exact B|]. assert (2 ^ iwidth t <= 2 ^ 64); [|lia]. apply Z.pow_le_mono_r; [lia|].
    unfold ity_ok in Ht. repeat (apply Bool.orb_prop in Ht; destruct Ht as [Ht|Ht]); apply Z.eqb_eq in Ht; lia. }
  destruct (u_temp n junk v Hn Lj B) as (x & -> & W & V). cbn [bind]. rewrite (integralCast_spec t n x W Hn), V, icast_in by (auto; lia). reflexivity.
Qed.
Print Assumptions C88_unsigned_roundtrip.
(** README l.88-89: 1562144106091796071UL in an Aesi<128>. *)
Example C88_example : readme_kernel 4 uint64 1562144106091796071 = Ok 1562144106091796071 /\ readme_kernel 4 int8 (-128) = Ok (-128) /\ in_ity uint64 1562144106091796071 = true /\ readme_kernel 4 int64 (-5) = Ok (-5).
Proof. conjs; vm_compute; reflexivity. Qed.

(** ** C89: read operands from text, run any program on them, print a result: the text printed is the numeral of
    the program's meaning on N-bit integers. *)
Definition text_env (n : Z) (alnum : Z -> bool) (texts : list (list Z)) : env :=
  fun i => string_value alnum (nth i texts []) mod modulus n.
Lemma parse_all_ok n wide alnum : 1 <= n -> alnum_ok alnum -> forall texts i m, Forall (Forall (fun c => 0 <= c)) texts ->
  exists m', parse_all n wide alnum texts i m = Ok m' /\
    (forall j, (j < length texts)%nat -> represents n (m' (Var (i + j))) (string_value alnum (nth j texts []) mod modulus n)) /\
    (forall j, (j < i \/ i + length texts <= j)%nat -> m' (Var j) = m (Var j)).
Proof.
  intros Hn Ha. induction texts as [|t ts IH]; intros i m F; cbn [parse_all length].
  - exists m. split; [reflexivity|]. split; [intros j Hj; lia|auto].
  - inversion F as [|? ? Ft Fts]; subst. destruct (C32_string_construction n wide alnum t ltac:(lia) Ha Ft) as (x & E & W & V). rewrite E. cbn [bind].
    destruct (IH (S i) (mput m (Var i) x) Fts) as (m' & E' & P & Q). exists m'. split; [exact E'|]. split.
    + intros [|j] Hj.
      * rewrite Nat.add_0_r. cbn [nth]. rewrite Q by lia. unfold mput. cbn [loc_eqb]. rewrite Nat.eqb_refl. split; auto.
      * replace (i + S j)%nat with (S i + j)%nat by lia. cbn [nth]. apply P. lia.
    + intros j Hj. rewrite Q by lia. unfold mput. cbn [loc_eqb]. destruct (Nat.eqb_spec j i); [lia|reflexivity].
Qed.
Lemma string_value_nil alnum : string_value alnum [] = 0.
Proof. reflexivity. Qed.
Theorem C89_calculator : forall cfg n wide alnum fuel texts prog result os e' s, 3 <= n -> 32 * n < 2 ^ 53 -> alnum_ok alnum ->
  Forall (Forall (fun c => 0 <= c)) texts -> width os = 0 ->
  uspec_run n fuel prog (text_env n alnum texts) = RVal e' ->
  numeral (uppercase os && (os_base os =? 16)) (os_base os) (e' result) s ->
  exists os', calculator cfg n wide alnum fuel texts prog result os = Ok os' /\ out os' = out os ++ os_shown os ++ s.
Proof.
  intros cfg n wide alnum fuel texts prog result os e' s Hn H53 Ha F W0 R HS. unfold calculator.
  destruct (parse_all_ok n wide alnum ltac:(lia) Ha texts 0 (fun _ => zeros n) F) as (m & -> & P & Q). cbn [bind].
  pose proof (C61_unsigned_programs cfg n fuel prog m (text_env n alnum texts) ltac:(lia)) as U. rewrite R in U.
  destruct U as (m' & -> & RP).
  - intros i. unfold text_env. destruct (Nat.ltb_spec i (length texts)) as [L|G].
    + exact (P i L).
    + rewrite Q by lia. rewrite (nth_overflow _ _ G), string_value_nil, Z.mod_0_l by (pose proof (modulus_pos n); lia). split; [apply wf_zeros; lia|apply bval_zeros].
  - cbn [bind]. destruct (RP result) as [W V]. apply C37_stream_insertion; auto. rewrite V. exact HS.
Qed.
Print Assumptions C89_calculator.

Definition cout_dec : ostream := mk_os [] BDec false false 32 0 AdjNone.
(** The texts "0x10" and "7"; v0 = v0 * v1; v0 -= v1; while (v1 < v0) v0 = v0 / v1 : 105 / 7 = 15 / 7 = 2; "2". *)
Definition ex_texts : list (list Z) := [ [48; 120; 49; 48]; [55] ].
Definition ex_prog : stmt uinstr ucond :=
  Seq (Do (UOp OMul 0 1)) (Seq (Do (UOp OSub 0 1)) (While (CLt 1 0) (Do (UOp ODiv 0 1)))).
Example C89_example : Forall (Forall (fun c => 0 <= c)) ex_texts /\
  match uspec_run 3 9 ex_prog (text_env 3 ascii_alnum ex_texts) with RVal e' => e' 0%nat = 2 | _ => False end /\
  match calculator cfg0 3 false ascii_alnum 9 ex_texts ex_prog 0 cout_dec with Ok os' => out os' = [50] | _ => False end.
Proof.
  split; [repeat constructor; lia|]. conjs; vm_compute; reflexivity.
Qed.

(** ** C90: the same for the signed class. *)
Definition s_text_env (n : Z) (alnum : Z -> bool) (texts : list (list Z)) : env :=
  fun i => let t := nth i texts [] in
           if odd_dashes t then - (string_value alnum t mod modulus n) else string_value alnum t mod modulus n.
Lemma s_parse_all_ok n wide alnum : 1 <= n -> alnum_ok alnum -> forall texts i m, Forall (Forall (fun c => 0 <= c)) texts ->
  exists m', s_parse_all n wide alnum texts i m = Ok m' /\
    (forall j, (j < length texts)%nat -> canon n (m' (Var (i + j))) /\ sval (m' (Var (i + j))) = s_text_env n alnum texts j) /\
    (forall j, (j < i \/ i + length texts <= j)%nat -> m' (Var j) = m (Var j)).
Proof.
  intros Hn Ha. induction texts as [|t ts IH]; intros i m F; cbn [s_parse_all length].
  - exists m. split; [reflexivity|]. split; [intros j Hj; lia|auto].
  - inversion F as [|? ? Ft Fts]; subst. destruct (C57_signed_string_construction n wide alnum t Hn Ha Ft) as (x & E & W & V). rewrite E. cbn [bind].
    destruct (IH (S i) (sput m (Var i) x) Fts) as (m' & E' & P & Q). exists m'. split; [exact E'|]. split.
    + intros [|j] Hj.
      * rewrite Nat.add_0_r. unfold s_text_env. cbn [nth]. rewrite Q by lia. unfold sput. cbn [loc_eqb]. rewrite Nat.eqb_refl. split; auto.
      * replace (i + S j)%nat with (S i + j)%nat by lia. unfold s_text_env in *. cbn [nth]. apply P. lia.
    + intros j Hj. rewrite Q by lia. unfold sput. cbn [loc_eqb]. destruct (Nat.eqb_spec j i); [lia|reflexivity].
Qed.
Lemma s_stream_swf cfg n os a s : swf n a -> width os = 0 -> 32 * n < 2 ^ 53 -> 3 <= n ->
  numeral (uppercase os && (os_base os =? 16)) (os_base os) (Z.abs (sval a)) s ->
  exists os', s_stream_insert cfg n os a = Ok os' /\
    out os' = out os ++ (if sval a <? 0 then [45] else []) ++ (if sval a =? 0 then [] else os_shown os) ++ s.
Proof.
  intros [W C] W0 H53 Hn HS. destruct (sgn a) eqn:G.
  - assert (X : s_stream_insert cfg n os a = s_stream_insert cfg n os (mk_aesi SZero (zeros n))) by (unfold s_stream_insert; rewrite G; reflexivity).
    assert (V : sval a = sval (mk_aesi SZero (zeros n))) by (unfold sval; rewrite G; reflexivity). rewrite X, V in *.
    apply C56_signed_stream; auto. split; cbn [mag sgn]; [apply wf_zeros; lia|]. rewrite bval_zeros. tauto.
  - apply C56_signed_stream; auto. split; auto. rewrite G. split; [discriminate|]. intros X. exfalso. apply C; auto. congruence.
  - apply C56_signed_stream; auto. split; auto. rewrite G. split; [discriminate|]. intros X. exfalso. apply C; auto. congruence.
Qed.
Theorem C90_signed_calculator : forall cfg n wide alnum fuel texts prog result os e' s, 3 <= n -> 32 * n < 2 ^ 53 -> alnum_ok alnum ->
  Forall (Forall (fun c => 0 <= c)) texts -> width os = 0 ->
  sspec_run n fuel prog (s_text_env n alnum texts) = RVal e' ->
  numeral (uppercase os && (os_base os =? 16)) (os_base os) (Z.abs (e' result)) s ->
  exists os', s_calculator cfg n wide alnum fuel texts prog result os = Ok os' /\
    out os' = out os ++ (if e' result <? 0 then [45] else []) ++ (if e' result =? 0 then [] else os_shown os) ++ s.
Proof.
  intros cfg n wide alnum fuel texts prog result os e' s Hn H53 Ha F W0 R HS. unfold s_calculator.
  destruct (s_parse_all_ok n wide alnum ltac:(lia) Ha texts 0 (fun _ => s_default n) F) as (m & -> & P & Q). cbn [bind].
  pose proof (C62_signed_programs cfg n fuel prog m (s_text_env n alnum texts) ltac:(lia)) as U. rewrite R in U.
  destruct U as (m' & -> & RP).
  - intros i. destruct (Nat.ltb_spec i (length texts)) as [L|G].
    + destruct (P i L) as [X Y]. split; [apply canon_swf; exact X|exact Y].
    + rewrite Q by lia. unfold s_text_env. rewrite (nth_overflow _ _ G). split; [|].
      * split; cbn [s_default mag sgn]; [apply wf_zeros; lia|congruence].
      * cbn [odd_dashes]. rewrite string_value_nil, Z.mod_0_l by (pose proof (modulus_pos n); lia). reflexivity.
  - cbn [bind]. destruct (RP result) as [W V]. destruct (s_stream_swf cfg n os (m' (Var result)) s W W0 H53 Hn) as (os' & E & O); [rewrite V; exact HS|].
    exists os'. rewrite V in O. auto.
Qed.
Print Assumptions C90_signed_calculator.
(** "-0x10", "7": v0 * v1 - v1 = -119, printed in octal with base: "-0o167" *)
Example C90_example :
  match sspec_run 3 9 (Seq (Do (SOp SOMul 0 1)) (Do (SOp SOSub 0 1))) (s_text_env 3 ascii_alnum [ [45; 48; 120; 49; 48]; [55] ]) with
  | RVal e' => e' 0%nat = -119 | _ => False end /\
  match s_calculator cfg0 3 false ascii_alnum 9 [ [45; 48; 120; 49; 48]; [55] ] (Seq (Do (SOp SOMul 0 1)) (Do (SOp SOSub 0 1))) 0
     (mk_os [] BOct true false 32 0 AdjNone) with
  | Ok os' => out os' = [45; 48; 111; 49; 54; 55] | _ => False end.
Proof. conjs; vm_compute; reflexivity. Qed.

(** ** C91: comparison is a strict total order whose equivalence is equality, so numbers can be container keys. *)
Theorem C91_unsigned_keys : forall cfg n a b c, wf n a -> wf n b -> wf n c ->
  (exists l e g, op_lt cfg n n a b = Ok l /\ op_eq cfg n n a b = Ok e /\ op_gt cfg n n a b = Ok g /\
     ((l, e, g) = (true, false, false) \/ (l, e, g) = (false, true, false) \/ (l, e, g) = (false, false, true))) /\
  (op_eq cfg n n a b = Ok true <-> a = b) /\
  op_lt cfg n n a a = Ok false /\
  (op_lt cfg n n a b = Ok true -> op_lt cfg n n b c = Ok true -> op_lt cfg n n a c = Ok true) /\
  op_lt cfg n n a b = op_gt cfg n n b a /\
  (op_lt cfg n n a b = Ok false -> op_lt cfg n n b a = Ok false -> op_eq cfg n n a b = Ok true).
Proof.
  intros cfg n a b c Wa Wb Wc. rewrite !op_lt_same, !op_gt_same, !op_eq_cross by auto.
  assert (E : forall x y : bool, Ok x = Ok y -> x = y) by congruence.
  split; [|split; [|split; [|split; [|split] ] ] ].
  - eexists _, _, _. split; [reflexivity|]. split; [reflexivity|]. split; [reflexivity|].
    destruct (Z.ltb_spec (bval a) (bval b)), (Z.eqb_spec (bval a) (bval b)), (Z.gtb_spec (bval a) (bval b)); try lia; auto.
  - split; [|intros ->; rewrite Z.eqb_refl; reflexivity]. intros H. apply E, Z.eqb_eq in H. apply (bval_inj n); auto.
  - rewrite Z.ltb_irrefl. reflexivity.
  - intros H K. apply E, Z.ltb_lt in H. apply E, Z.ltb_lt in K. replace (bval a <? bval c) with true; [reflexivity|]. symmetry. apply Z.ltb_lt. lia.
  - rewrite Z.gtb_ltb. reflexivity.
  - intros H K. apply E, Z.ltb_ge in H. apply E, Z.ltb_ge in K. replace (bval a =? bval b) with true; [reflexivity|]. symmetry. apply Z.eqb_eq. lia.
Qed.
Print Assumptions C91_unsigned_keys.
Lemma s_cmp_all cfg n a b : 1 <= n -> swf n a -> swf n b ->
  s_lt cfg n n a b = Ok (sval a <? sval b) /\ s_gt cfg n n a b = Ok (sval a >? sval b) /\ s_eq cfg n n a b = Ok (sval a =? sval b).
Proof.
  intros Hn Wa Wb. unfold s_lt, s_gt, s_eq, s_spaceship, s_compareTo_x. rewrite Z.eqb_refl, s_compareTo_correct by auto. cbn [bind].
  unfold zcmp. rewrite Z.gtb_ltb. destruct (Z.ltb_spec (sval b) (sval a)), (Z.ltb_spec (sval a) (sval b)), (Z.eqb_spec (sval a) (sval b)); cbn; auto; lia.
Qed.
Theorem C91_signed_keys : forall cfg n a b c, 1 <= n -> swf n a -> swf n b -> swf n c ->
  (exists l e g, s_lt cfg n n a b = Ok l /\ s_eq cfg n n a b = Ok e /\ s_gt cfg n n a b = Ok g /\
     ((l, e, g) = (true, false, false) \/ (l, e, g) = (false, true, false) \/ (l, e, g) = (false, false, true))) /\
  (s_eq cfg n n a b = Ok true <-> sval a = sval b) /\
  s_lt cfg n n a a = Ok false /\
  (s_lt cfg n n a b = Ok true -> s_lt cfg n n b c = Ok true -> s_lt cfg n n a c = Ok true) /\
  s_lt cfg n n a b = s_gt cfg n n b a /\
  (s_lt cfg n n a b = Ok false -> s_lt cfg n n b a = Ok false -> s_eq cfg n n a b = Ok true).
Proof.
  intros cfg n a b c Hn Wa Wb Wc.
  assert (L : forall x y, swf n x -> swf n y -> s_lt cfg n n x y = Ok (sval x <? sval y)) by (intros; apply s_cmp_all; auto).
  assert (G : forall x y, swf n x -> swf n y -> s_gt cfg n n x y = Ok (sval x >? sval y)) by (intros; apply s_cmp_all; auto).
  assert (Q : forall x y, swf n x -> swf n y -> s_eq cfg n n x y = Ok (sval x =? sval y)) by (intros; apply s_cmp_all; auto).
  rewrite !L, !G, !Q by auto.
  assert (E : forall x y : bool, Ok x = Ok y -> x = y) by congruence.
  split; [|split; [|split; [|split; [|split] ] ] ].
  - eexists _, _, _. split; [reflexivity|]. split; [reflexivity|]. split; [reflexivity|].
    destruct (Z.ltb_spec (sval a) (sval b)), (Z.eqb_spec (sval a) (sval b)), (Z.gtb_spec (sval a) (sval b)); try lia; auto.
  - split; [|intros ->; rewrite Z.eqb_refl; reflexivity]. intros H. apply E, Z.eqb_eq in H. exact H.
  - rewrite Z.ltb_irrefl. reflexivity.
  - intros H K. apply E, Z.ltb_lt in H. apply E, Z.ltb_lt in K. replace (sval a <? sval c) with true; [reflexivity|]. symmetry. apply Z.ltb_lt. lia.
  - rewrite Z.gtb_ltb. reflexivity.
  - intros H K. apply E, Z.ltb_ge in H. apply E, Z.ltb_ge in K. replace (sval a =? sval b) with true; [reflexivity|]. symmetry. apply Z.eqb_eq. lia.
Qed.
Print Assumptions C91_signed_keys.
Example C91_example : swf 2 (mk_aesi SNeg [5; 0]) /\ swf 2 (mk_aesi SZero [9; 0]) /\
  s_lt cfg0 2 2 (mk_aesi SNeg [5; 0]) (mk_aesi SZero [9; 0]) = Ok true /\ s_eq cfg0 2 2 (mk_aesi SZero [9; 0]) (mk_aesi SZero [0; 0]) = Ok true /\
  wf 2 [0; 1] /\ op_lt cfg0 2 2 [4294967295; 0] [0; 1] = Ok true.
Proof.
  split; [split; [wfc|intros _; vm_compute; discriminate]|]. split; [split; [wfc|cbn; congruence]|]. split; [vm_compute; reflexivity|]. split; [vm_compute; reflexivity|]. split; [wfc|vm_compute; reflexivity].
Qed.

(** ** C92: results do not depend on the build configuration (AESI_UNSAFE, NDEBUG, whether
    unsigned long long is uint64_t): a program
    that stays in the promised domain leaves the same objects in every build. *)
Theorem C92_configuration_independent : forall cfg cfg' n fuel prog m e e', 1 <= n ->
  (forall i, represents n (m (Var i)) (e i)) -> uspec_run n fuel prog e = RVal e' ->
  exists m1 m2, urun cfg n fuel prog m = Ok m1 /\ urun cfg' n fuel prog m = Ok m2 /\ forall i, m1 (Var i) = m2 (Var i).
Proof.
  intros cfg cfg' n fuel prog m e e' Hn R S.
  pose proof (C61_unsigned_programs cfg n fuel prog m e Hn R) as A. pose proof (C61_unsigned_programs cfg' n fuel prog m e Hn R) as B.
  rewrite S in A, B. destruct A as (m1 & E1 & R1), B as (m2 & E2 & R2). exists m1, m2. split; [exact E1|]. split; [exact E2|].
  intros i. destruct (R1 i) as [W1 V1], (R2 i) as [W2 V2]. apply (bval_inj n); auto. congruence.
Qed.
Print Assumptions C92_configuration_independent.
Theorem C92_signed_configuration_independent : forall cfg cfg' n fuel prog m e e', 1 <= n ->
  (forall i, swf n (m (Var i)) /\ sval (m (Var i)) = e i) -> sspec_run n fuel prog e = RVal e' ->
  exists m1 m2, srun cfg n fuel prog m = Ok m1 /\ srun cfg' n fuel prog m = Ok m2 /\
    forall i, sval (m1 (Var i)) = sval (m2 (Var i)) /\ sgn (m1 (Var i)) = sgn (m2 (Var i)).
Proof.
  intros cfg cfg' n fuel prog m e e' Hn R S.
  pose proof (C62_signed_programs cfg n fuel prog m e Hn R) as A. pose proof (C62_signed_programs cfg' n fuel prog m e Hn R) as B.
  rewrite S in A, B. destruct A as (m1 & E1 & R1), B as (m2 & E2 & R2). exists m1, m2. split; [exact E1|]. split; [exact E2|].
  intros i. destruct (R1 i) as [W1 V1], (R2 i) as [W2 V2]. split; [congruence|].
  destruct W1 as [W1 N1], W2 as [W2 N2]. pose proof (bval_bound n _ W1). pose proof (bval_bound n _ W2).
  assert (V : sval (m1 (Var i)) = sval (m2 (Var i))) by congruence. unfold sval in V.
  destruct (sgn (m1 (Var i))), (sgn (m2 (Var i))); auto; try (specialize (N1 ltac:(discriminate))); try (specialize (N2 ltac:(discriminate))); lia.
Qed.
Print Assumptions C92_signed_configuration_independent.
Example C92_example : (forall i, represents 3 ((fun _ => [7; 1; 0]) (Var i)) (7 + 2 ^ 32)) /\
  (match uspec_run 3 5 (Seq (Do (ULit 0 3)) (Do (UBin ODiv 1 1 0))) (fun _ => 7 + 2 ^ 32) with RVal e' => e' 1%nat = 1431655767 | _ => False end) /\
  (match urun (mk_config true true true) 3 5 (Seq (Do (ULit 0 3)) (Do (UBin ODiv 1 1 0))) (fun _ => [7; 1; 0]) with
   | Ok m => m (Var 1) = [1431655767; 0; 0] | _ => False end).
Proof. split; [intros i; split; [wfc|vm_compute; reflexivity]|]. split; vm_compute; reflexivity. Qed.

(** ** C94: several insertions in a row print the numbers one after the other.  The claim is false with
    [std::showbase] in hexadecimal and octal, because the first insertion switches [showbase] off (see C38). *)
Definition numerals (upper : bool) (base : Z) (n : Z) (l : list (list Z)) (texts : list (list Z)) : Prop :=
  Forall2 (fun a t => wf n a /\ numeral upper base (bval a) t) l texts.
Lemma stream_state cfg n os a s : wf n a -> width os = 0 -> 32 * n < 2 ^ 53 -> 3 <= n ->
  numeral (uppercase os && (os_base os =? 16)) (os_base os) (bval a) s ->
  exists os', stream_insert cfg n os a = Ok os' /\ out os' = out os ++ os_shown os ++ s /\ basef os' = basef os /\
    uppercase os' = uppercase os /\ width os' = 0 /\ showbase os' = (showbase os && (os_base os =? 10))%bool.
Proof.
  intros W W0 H53 Hn HS. pose proof (bval_bound n _ W) as Bv.
  assert (B2 : 2 <= os_base os <= 16) by (unfold os_base; destruct (basef os); lia).
  destruct (C37_stream_insertion cfg n os a s W W0 H53 ltac:(auto) HS) as (os' & E & O). exists os'. split; [exact E|]. split; [exact O|].
  destruct (Z.eq_dec (bval a) 0) as [V|V].
  { rewrite stream_zero in E by auto. injection E as <-. cbn. auto. }
  destruct (Z.eq_dec (os_base os) 16) as [B16|N16].
  - rewrite B16 in HS. cbn [Z.eqb Pos.eqb] in HS. rewrite andb_true_r in HS.
    assert (BH : basef os = BHex) by (unfold os_base in B16; destruct (basef os); congruence || lia).
    destruct (stream_hex cfg n os a s) as (f & ad & E' & _); auto; [lia|]. rewrite E' in E. injection E as <-. cbn. rewrite BH, B16, andb_false_r. auto.
  - replace (os_base os =? 16) with false in HS by (symmetry; apply Z.eqb_neq; auto). rewrite andb_false_r in HS.
    rewrite (stream_digits cfg n os a s) in E; auto; [injection E as <-; cbn; auto|lia|].
    pose proof (d295_bs n Hn H53) as D. unfold modulus in Bv. assert (8 <= os_base os) by (unfold os_base in *; destruct (basef os); lia).
    assert (2 ^ (32 * n) <= 2 ^ (3 * stream_buffer_size n)) by (apply Z.pow_le_mono_r; lia). rewrite (Z.pow_mul_r 2 3) in H0 by lia. change (2 ^ 3) with 8 in H0.
    assert (8 ^ stream_buffer_size n <= os_base os ^ stream_buffer_size n) by (apply Z.pow_le_mono_l; lia). lia.
Qed.
Theorem C94_chained_insertion_partial : forall cfg n l texts os, 3 <= n -> 32 * n < 2 ^ 53 -> width os = 0 ->
  numerals (uppercase os && (os_base os =? 16)) (os_base os) n l texts ->
  exists os', stream_all cfg n os l = Ok os' /\
    out os' = out os ++ (match l with [] => [] | _ => os_shown os end) ++ concat texts.
Proof.
  intros cfg n l texts os Hn H53 W0 F. unfold numerals in F.
  assert (G : forall l texts os, width os = 0 -> os_shown os = [] -> Forall2 (fun a t => wf n a /\ numeral (uppercase os && (os_base os =? 16)) (os_base os) (bval a) t) l texts ->
    exists os', stream_all cfg n os l = Ok os' /\ out os' = out os ++ concat texts).
  { clear - Hn H53. intros l texts os W0 S0 F. revert os W0 S0 F. intros os W0 S0 F. remember (uppercase os) as up eqn:EU. remember (os_base os) as ba eqn:EB.
    revert os W0 S0 EU EB. induction F as [|a t l texts [Wa Ha] F IH]; intros os W0 S0 EU EB; cbn [stream_all concat].
    - exists os. rewrite app_nil_r. auto.
    - subst up ba. destruct (stream_state cfg n os a t Wa W0 H53 Hn Ha) as (os1 & E1 & O1 & B1 & U1 & W1 & SB1). rewrite E1. cbn [bind].
      assert (EB1 : os_base os1 = os_base os) by (unfold os_base; rewrite B1; reflexivity).
      destruct (IH os1) as (os' & E' & O'); auto; [|exists os'; split; [exact E'|]; rewrite O', O1, S0; cbn [app]; rewrite <- app_assoc; reflexivity].
      unfold os_shown in *. rewrite EB1, SB1. destruct (showbase os); cbn [andb]; auto. destruct (Z.eqb_spec (os_base os) 10) as [->|]; auto. }
  destruct F as [|a t l texts [Wa Ha] F]; cbn [stream_all concat].
  - exists os. rewrite app_nil_r. auto.
  - destruct (stream_state cfg n os a t Wa W0 H53 Hn Ha) as (os1 & E1 & O1 & B1 & U1 & W1 & SB1). rewrite E1. cbn [bind].
    assert (EB1 : os_base os1 = os_base os) by (unfold os_base; rewrite B1; reflexivity).
    destruct (G l texts os1) as (os' & E' & O'); auto.
    + unfold os_shown in *. rewrite EB1, SB1. destruct (showbase os); cbn [andb]; auto. destruct (Z.eqb_spec (os_base os) 10) as [->|]; auto.
    + rewrite U1, EB1. exact F.
    + exists os'. split; [exact E'|]. rewrite O', O1, <- !app_assoc. reflexivity.
Qed.
Print Assumptions C94_chained_insertion_partial.
(** Signed numbers, when no prefix is shown: every number appears with its own sign. *)
Theorem C94_signed_chained_insertion_partial : forall cfg n l texts os, 3 <= n -> 32 * n < 2 ^ 53 -> width os = 0 -> showbase os = false ->
  Forall2 (fun a t => swf n a /\ exists s, numeral (uppercase os && (os_base os =? 16)) (os_base os) (Z.abs (sval a)) s /\
                      t = (if sval a <? 0 then [45] else []) ++ s) l texts ->
  exists os', s_stream_all cfg n os l = Ok os' /\ out os' = out os ++ concat texts.
Proof.
  intros cfg n l texts os Hn H53 W0 S0 F. remember (uppercase os) as up eqn:EU. remember (os_base os) as ba eqn:EB.
  revert os W0 S0 EU EB. induction F as [|a t l texts (Wa & s & Ha & ->) F IH]; intros os W0 S0 EU EB; cbn [s_stream_all concat].
  { exists os. rewrite app_nil_r. auto. }
  assert (ST : exists os1, s_stream_insert cfg n os a = Ok os1 /\ out os1 = out os ++ ((if sval a <? 0 then [45] else []) ++ s) /\ basef os1 = basef os /\ uppercase os1 = uppercase os /\ width os1 = 0 /\ showbase os1 = false).
  { subst up ba. assert (SH : forall o, showbase o = false -> os_shown o = []) by (intros o E; unfold os_shown; rewrite E; reflexivity).
    assert (PB : forall c, os_base (os_put os c) = os_base os) by reflexivity.
    pose proof Wa as (W & C). unfold s_stream_insert. unfold sval in Ha. unfold sval. destruct (sgn a) eqn:G.
    - cbn [Z.ltb Z.compare app]. cbn [Z.abs] in Ha. assert (s = [48]).
      { apply (numeral_unique (uppercase os && (os_base os =? 16)) (os_base os) 0); [unfold os_base; destruct (basef os); lia|exact Ha|].
        exists [0]. split; [reflexivity|]. split; [constructor; [unfold os_base; destruct (basef os); lia|constructor]|]. split; [reflexivity|left; reflexivity]. }
      subst s. eexists. split; [reflexivity|]. unfold os_put; cbn [width showbase out basef uppercase]. rewrite W0. destruct (adj os); auto 10.
    - pose proof (bval_bound n _ W) as B. destruct (Z.ltb_spec (bval (mag a)) 0); [lia|]. rewrite Z.abs_eq in Ha by lia.
      destruct (stream_state cfg n os (mag a) s W W0 H53 Hn Ha) as (o & E & O & B1 & U1 & W1 & SB). exists o. rewrite SH, app_nil_l in O by exact S0. cbn [app].
      rewrite SB, S0. auto 10.
    - pose proof (bval_bound n _ W) as B. assert (NZ : bval (mag a) <> 0) by (intros X; apply C in X; congruence). destruct (Z.ltb_spec (- bval (mag a)) 0); [|lia]. rewrite Z.abs_opp, Z.abs_eq in Ha by lia.
      assert (PO : width (os_put os [45]) = 0 /\ showbase (os_put os [45]) = false /\ out (os_put os [45]) = out os ++ [45] /\ basef (os_put os [45]) = basef os /\ uppercase (os_put os [45]) = uppercase os).
      { unfold os_put; cbn [width showbase out basef uppercase]. rewrite W0. destruct (adj os); auto. }
      destruct PO as (P1 & P2 & P3 & P4 & P5).
      destruct (stream_state cfg n (os_put os [45]) (mag a) s W P1 H53 Hn) as (o & E & O & B1 & U1 & W1 & SB); [rewrite P5, PB; exact Ha|].
      exists o. rewrite SH, app_nil_l, P3 in O by exact P2. rewrite <- app_assoc in O. rewrite SB, P2, B1, P4, U1, P5. auto 10. }
  destruct ST as (os1 & E1 & O1 & B1 & U1 & W1 & SB1). rewrite E1. cbn [bind].
  destruct (IH os1) as (os' & E' & O'); auto; [congruence|unfold os_base in *; rewrite B1; exact EB|].
  exists os'. split; [exact E'|]. rewrite O', O1, <- !app_assoc. reflexivity.
Qed.
Print Assumptions C94_signed_chained_insertion_partial.
Example C94_signed_example : exists os', s_stream_all cfg0 3 (mk_os [] BDec false false 32 0 AdjNone)
    [mk_aesi SNeg [12; 0; 0]; mk_aesi SZero [0; 0; 0]; mk_aesi SPos [7; 0; 0] ] = Ok os' /\ out os' = [45; 49; 50; 48; 55].
Proof. eexists. split; vm_compute; reflexivity. Qed.
Theorem C94_chained_insertion_refuted : wf 3 [255; 0; 0] /\ numeral false 16 (bval [255; 0; 0]) [102; 102] /\
  exists os', stream_all cfg0 3 (mk_os [] BHex true false 32 0 AdjNone) [ [255; 0; 0]; [255; 0; 0] ] = Ok os' /\
    out os' = [48; 120; 102; 102] ++ [102; 102] /\ out os' <> [48; 120; 102; 102] ++ [48; 120; 102; 102].
Proof.
  split; [wfc|]. split; [exists [15; 15]; split; [reflexivity|]; split; [constructor; [lia|constructor; [lia|constructor] ]|]; split; [vm_compute; reflexivity|right; exists 15, [15]; split; [reflexivity|lia] ]|].
  eexists. split; [vm_compute; reflexivity|]. cbn [out]. split; [reflexivity|discriminate].
Qed.
Print Assumptions C94_chained_insertion_refuted.

(** ** C93: laws of signed arithmetic: both sides finish, and the library's [==] says they are equal, whenever the
    exact intermediate results fit. *)
Definition s_agree (cfg : config) (n : Z) (x y : outcome aesi) : Prop :=
  exists r s, x = Ok r /\ y = Ok s /\ s_eq cfg n n r s = Ok true.
Lemma syields_agree cfg n x y z : 1 <= n -> syields n x z -> syields n y z -> s_agree cfg n x y.
Proof.
  intros Hn (r & -> & Wr & Vr) (s & -> & Ws & Vs). exists r, s. split; [reflexivity|]. split; [reflexivity|].
  destruct (s_cmp_all cfg n r s Hn Wr Ws) as (_ & _ & ->). rewrite Vr, Vs, Z.eqb_refl. reflexivity.
Qed.
Lemma syields_bind n x (f : aesi -> outcome aesi) z z' : syields n x z -> (forall r, swf n r -> sval r = z -> syields n (f r) z') -> syields n (bind x f) z'.
Proof. intros (r & -> & Wr & Vr) H. cbn [bind]. auto. Qed.
Theorem C93_signed_laws : forall cfg n a b c, 1 <= n -> swf n a -> swf n b -> swf n c ->
  let fits v := Z.abs v < modulus n in
  (fits (sval a + sval b) -> s_agree cfg n (s_add cfg n a b) (s_add cfg n b a)) /\
  (fits (sval a + sval b) -> fits (sval b + sval c) -> fits (sval a + sval b + sval c) ->
     s_agree cfg n (x <- s_add cfg n a b ;; s_add cfg n x c) (x <- s_add cfg n b c ;; s_add cfg n a x)) /\
  (fits (sval a * sval b) -> s_agree cfg n (s_mul n a b) (s_mul n b a)) /\
  (fits (sval a * sval b) -> fits (sval b * sval c) -> fits (sval a * sval b * sval c) ->
     s_agree cfg n (x <- s_mul n a b ;; s_mul n x c) (x <- s_mul n b c ;; s_mul n a x)) /\
  (fits (sval b + sval c) -> fits (sval a * sval b) -> fits (sval a * sval c) -> fits (sval a * (sval b + sval c)) ->
     s_agree cfg n (x <- s_add cfg n b c ;; s_mul n a x) (x <- s_mul n a b ;; y <- s_mul n a c ;; s_add cfg n x y)) /\
  (fits (sval a - sval b) -> s_agree cfg n (s_sub cfg n a b) (x <- s_neg b ;; s_add cfg n a x)) /\
  (fits (sval a - sval b) -> s_agree cfg n (x <- s_sub cfg n a b ;; s_neg x) (s_sub cfg n b a)) /\
  s_agree cfg n (x <- s_neg a ;; s_neg x) (Ok a) /\
  s_agree cfg n (s_sub cfg n a a) (Ok (s_default n)) /\
  s_agree cfg n (s_add cfg n a (s_default n)) (Ok a) /\
  (sval b <> 0 -> s_agree cfg n (x <- s_neg a ;; s_div cfg n x b) (x <- s_div cfg n a b ;; s_neg x)) /\
  (0 < sval b -> s_agree cfg n (q <- s_div cfg n a b ;; r <- s_mod cfg n a b ;; p <- s_mul n q b ;; s_add cfg n p r) (Ok a)).
Proof.
  intros cfg n a b c Hn Wa Wb Wc fits.
  assert (BD : forall x, swf n x -> Z.abs (sval x) < modulus n).
  { intros x [W _]. pose proof (bval_bound n _ W). unfold sval. destruct (sgn x); lia. }
  assert (ADD : forall x y z, swf n x -> swf n y -> sval x + sval y = z -> fits z -> syields n (s_add cfg n x y) z) by (intros x y z Wx Wy <- F; apply s_add_correct; auto).
  assert (SUB : forall x y z, swf n x -> swf n y -> sval x - sval y = z -> fits z -> syields n (s_sub cfg n x y) z) by (intros x y z Wx Wy <- F; apply s_sub_correct; auto).
  assert (MUL : forall x y z, swf n x -> swf n y -> sval x * sval y = z -> fits z -> syields n (s_mul n x y) z) by (intros x y z Wx Wy <- F; apply s_mul_correct; auto).
  assert (NEG : forall x z, swf n x -> - sval x = z -> syields n (s_neg x) z).
  { intros x z Wx <-. exists (s_inverse x). split; [reflexivity|]. split; [apply s_inverse_swf; auto|apply s_inverse_val]. }
  assert (ID : forall x z, swf n x -> sval x = z -> syields n (Ok x) z) by (intros x z Wx <-; exists x; auto).
  assert (W0 : swf n (s_default n)) by (split; cbn [s_default mag sgn]; [apply wf_zeros; lia|congruence]).
  assert (V0 : sval (s_default n) = 0) by reflexivity.
  pose proof (BD a Wa) as Ba. pose proof (BD b Wb) as Bb. pose proof (BD c Wc) as Bc. assert (PM : 0 < modulus n) by lia.
  conjs; intros.
  - eapply syields_agree; [auto|apply ADD; eauto|apply ADD; auto; lia].
  - apply syields_agree with (sval a + sval b + sval c); auto.
    + eapply syields_bind; [apply ADD; eauto|]. intros r Wr Vr. apply ADD; auto; lia.
    + eapply syields_bind; [apply ADD; eauto|]. intros r Wr Vr. apply ADD; auto; lia.
  - eapply syields_agree; [auto|apply MUL; eauto|apply MUL; auto; lia].
  - apply syields_agree with (sval a * sval b * sval c); auto.
    + eapply syields_bind; [apply MUL; eauto|]. intros r Wr Vr. apply MUL; auto. rewrite Vr. lia.
    + eapply syields_bind; [apply MUL; eauto|]. intros r Wr Vr. apply MUL; auto. rewrite Vr. lia.
  - apply syields_agree with (sval a * (sval b + sval c)); auto.
    + eapply syields_bind; [apply ADD; eauto|]. intros r Wr Vr. apply MUL; auto. rewrite Vr. lia.
    + eapply syields_bind; [apply MUL; eauto|]. intros r Wr Vr. eapply syields_bind; [apply MUL; eauto|]. intros r' Wr' Vr'. apply ADD; auto. rewrite Vr, Vr'. lia.
  - eapply syields_agree; [auto|apply SUB; eauto|]. eapply syields_bind; [apply NEG; eauto|]. intros r Wr Vr. apply ADD; auto. lia.
  - apply syields_agree with (sval b - sval a); auto.
    + eapply syields_bind; [apply SUB; eauto|]. intros r Wr Vr. apply NEG; auto. lia.
    + apply SUB; auto. unfold fits in *. lia.
  - apply syields_agree with (sval a); auto. eapply syields_bind; [apply NEG; eauto|]. intros r Wr Vr. apply NEG; auto. lia.
  - apply syields_agree with 0; auto. apply SUB; auto; unfold fits; lia.
  - apply syields_agree with (sval a); auto. apply ADD; auto; rewrite ?V0; lia.
  - apply syields_agree with (- Z.quot (sval a) (sval b)); auto.
    + eapply syields_bind; [apply NEG; eauto|]. intros r Wr Vr. rewrite <- Z.quot_opp_l by auto. rewrite <- Vr. apply s_div_correct; auto.
    + eapply syields_bind; [apply s_div_correct; auto|]. intros r Wr Vr. apply NEG; auto. lia.
  - apply syields_agree with (sval a); auto. pose proof (Z.quot_rem' (sval a) (sval b)) as QR.
    eapply syields_bind; [apply s_div_correct; auto; lia|]. intros q Wq Vq. eapply syields_bind; [apply s_mod_correct; auto; lia|]. intros r Wr Vr.
    assert (S1 : Z.sgn (sval b) = 1) by lia. rewrite S1, Z.mul_1_l in Vr. pose proof (Z.rem_bound_abs (sval a) (sval b) ltac:(lia)) as RB.
    assert (Q0 : Z.abs (sval q * sval b) < modulus n).
    { pose proof (Z.quot_abs (sval a) (sval b) ltac:(lia)) as QA. pose proof (Z.mul_quot_le (Z.abs (sval a)) (Z.abs (sval b)) ltac:(lia) ltac:(lia)) as ML.
      rewrite Z.abs_mul, Vq, <- QA. rewrite Z.mul_comm. eapply Z.le_lt_trans; [apply ML|]. auto. }
    eapply syields_bind; [apply MUL; eauto|]. intros p Wp Vp. apply ADD; auto. rewrite Vp, Vq, Vr. lia.
Qed.
Print Assumptions C93_signed_laws.
Example C93_example : s_agree cfg0 2 (q <- s_div cfg0 2 (mk_aesi SNeg [7; 3]) (mk_aesi SPos [5; 0]) ;; r <- s_mod cfg0 2 (mk_aesi SNeg [7; 3]) (mk_aesi SPos [5; 0]) ;;
    p <- s_mul 2 q (mk_aesi SPos [5; 0]) ;; s_add cfg0 2 p r) (Ok (mk_aesi SNeg [7; 3])) /\ swf 2 (mk_aesi SNeg [7; 3]) /\ swf 2 (mk_aesi SPos [5; 0]).
Proof.
  split; [eexists _, _; split; [vm_compute; reflexivity|]; split; [vm_compute; reflexivity|]; vm_compute; reflexivity|].
  split; (split; [wfc|intros _; vm_compute; discriminate]).
Qed.

(** ** C95: Diffie-Hellman key agreement: both sides compute the same object, g^(xy) mod p. *)
Lemma pow_mod_pow b x y m : 0 <= x -> 0 <= y -> 0 < m -> (b ^ x mod m) ^ y mod m = b ^ (x * y) mod m.
Proof. intros. rewrite <- Zpow_facts.Zpower_mod by lia. rewrite <- Z.pow_mul_r by lia. reflexivity. Qed.
Theorem C95_key_agreement : forall cfg n g x y p, 1 <= n -> wf n g -> wf n x -> wf n y -> wf n p ->
  1 < bval p -> (bval p - 1) * (bval p - 1) < modulus n ->
  yields n (dh_shared cfg n g x y p) (bval g ^ (bval x * bval y) mod bval p) /\
  dh_shared cfg n g x y p = dh_shared cfg n g y x p.
Proof.
  intros cfg n g x y p Hn Wg Wx Wy Wp P1 PP.
  assert (D : forall u v, wf n u -> wf n v -> yields n (dh_shared cfg n g u v p) (bval g ^ (bval u * bval v) mod bval p)).
  { intros u v Wu Wv. unfold dh_shared. pose proof (bval_bound n u Wu). pose proof (bval_bound n v Wv).
    eapply yields_bind; [apply C25_powm_partial; auto; lia|]. intros h Wh Vh. rewrite <- pow_mod_pow by lia. rewrite <- Vh. apply C25_powm_partial; auto; lia. }
  split; [apply D; auto|]. destruct (D x y Wx Wy) as (r & -> & Wr & Vr). destruct (D y x Wy Wx) as (s & -> & Ws & Vs).
  f_equal. apply (bval_inj n); auto. rewrite Vr, Vs, Z.mul_comm. reflexivity.
Qed.
Print Assumptions C95_key_agreement.
(** The modulus 2^31 - 1 in 64-bit numbers. *)
Example C95_example : wf 2 [2147483647; 0] /\ 1 < bval [2147483647; 0] /\ (bval [2147483647; 0] - 1) * (bval [2147483647; 0] - 1) < modulus 2 /\
  dh_shared cfg0 2 [7; 0] [123456; 0] [98765; 1] [2147483647; 0] = dh_shared cfg0 2 [7; 0] [98765; 1] [123456; 0] [2147483647; 0] /\
  dh_shared cfg0 2 [7; 0] [123456; 0] [98765; 1] [2147483647; 0] <> Ok [1; 0].
Proof. split; [wfc|]. split; [vm_compute; reflexivity|]. split; [vm_compute; reflexivity|]. split; [vm_compute; reflexivity|]. vm_compute. discriminate. Qed.

(** ** C96: radix conversion. *)
Theorem C96_radix_conversion : forall cfg n wide alnum upper base v text os s, 3 <= n -> 32 * n < 2 ^ 53 -> alnum_ok alnum ->
  0 <= v < modulus n -> base_ok base -> numeral upper base v text -> width os = 0 ->
  numeral (uppercase os && (os_base os =? 16)) (os_base os) v s ->
  exists os', convert cfg n wide alnum (shown true base ++ text) os = Ok os' /\ out os' = out os ++ os_shown os ++ s.
Proof.
  intros cfg n wide alnum upper base v text os s Hn H53 Ha Hv Hb HT W0 HS. unfold convert.
  assert (Y : yields n (from_string n wide alnum (shown true base ++ text)) v).
  { destruct (C32_numerals n wide alnum upper base v text ltac:(lia) Ha Hv) as [A B]. destruct (Z.eq_dec base 10) as [->|N10].
    - change (shown true 10) with (@nil Z). cbn [app]. apply A; auto.
    - unfold shown. apply B; auto. unfold base_ok in Hb. lia. }
  destruct Y as (a & -> & Wa & Va). cbn [bind]. apply C37_stream_insertion; auto. rewrite Va. exact HS.
Qed.
Print Assumptions C96_radix_conversion.
(** "0xff" -> "255", "255" -> "0o377" *)
Example C96_example : base_ok 16 /\
  (match convert cfg0 3 false ascii_alnum [48; 120; 102; 102] cout_dec with Ok os' => out os' = [50; 53; 53] | _ => False end) /\
  (match convert cfg0 3 false ascii_alnum [50; 53; 53] (mk_os [] BOct true false 32 0 AdjNone) with Ok os' => out os' = [48; 111; 51; 55; 55] | _ => False end).
Proof. split; [unfold base_ok; tauto|]. split; vm_compute; reflexivity. Qed.
