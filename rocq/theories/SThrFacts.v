(** * SThrFacts: a program of [SThrModel.v], run alone, does to the objects what [ProgModel.v] says. *)
From Verif Require Import Lib AeuModel AesiModel AliasModel AliasFacts AliasSigned ProgSpec ProgModel ThrMonad ThrModel ThrFacts ThrStore ThrExec SThrModel.
From Coq Require Import ZifyBool.
Open Scope Z_scope.

Lemma decode_code s : decode (code s) = s.
Proof. destruct s; reflexivity. Qed.
Lemma mag_sign a b : mag_at a <> sign_at b.
Proof. destruct a, b; cbn; intros H; try discriminate; injection H; lia. Qed.
Lemma mag_inj a b : mag_at a = mag_at b -> a = b.
Proof. destruct a, b; cbn; intros H; try discriminate; injection H; intros; f_equal; lia. Qed.
Lemma sign_inj a b : sign_at a = sign_at b -> a = b.
Proof. destruct a, b; cbn; intros H; try discriminate; injection H; intros; f_equal; lia. Qed.
(** The signed object in the cells of [x]. *)
Definition sobj (m : mem) (x : loc) : aesi := mk_aesi (decode (znth (m (sign_at x)) 0)) (m (mag_at x)).
Lemma sobj_same m m' x : m' (mag_at x) = m (mag_at x) -> m' (sign_at x) = m (sign_at x) -> sobj m' x = sobj m x.
Proof. unfold sobj. now intros -> ->. Qed.

Section W.
Context (n : Z) (Hn : 1 <= n).
(** [a] now holds [v], all other variables are as in [m0]. *)
Definition on (m0 : mem) (a : loc) (v : aesi) (m : mem) : Prop :=
  sobj m a = v /\ (forall i, Var i <> a -> sobj m (Var i) = sobj m0 (Var i)) /\ lens n m.
Definition gives {A} (m0 : mem) (a : loc) (c : act A) (m : mem) (x : outcome aesi) : Prop :=
  osim (fun r v => on m0 a v (snd r)) (run_act c m) x.

Lemma on_self m a : lens n m -> on m a (sobj m a) m.
Proof. split; [|split]; auto. Qed.
Lemma g_ret {A} m0 a v m (r : A) : on m0 a v m -> gives m0 a (Ret r) m (Ok v).
Proof. auto. Qed.
Lemma g_eq {A} m0 a (c : act A) m x y : gives m0 a c m x -> x = y -> gives m0 a c m y.
Proof. now intros H <-. Qed.
Lemma g_vg {A B} m0 a m (c : act A) (k : A -> act B) y x : vgives m c y -> (forall r, y = Ok r -> gives m0 a (k r) m (x r)) ->
  gives m0 a (abind c k) m (bind y x).
Proof. unfold gives. intros H K. rewrite run_bind, H. destruct y; cbn [bind osim]; auto. Qed.
Lemma g_read {A B} m0 a m (c : act A) (k : A -> act B) r x : vgives m c (Ok r) -> gives m0 a (k r) m x -> gives m0 a (abind c k) m x.
Proof. unfold gives. intros H K. rewrite run_bind, H. exact K. Qed.
Lemma g_seq {A B} m0 a m (c : act A) (k : A -> act B) x y : gives m0 a c m x -> (forall r m' v, on m0 a v m' -> gives m0 a (k r) m' (y v)) ->
  gives m0 a (abind c k) m (bind x y).
Proof. unfold gives. intros H K. rewrite run_bind. eapply osim_bind; [exact H|]. intros [r m'] v O. now apply K. Qed.

Lemma sign_gives m x : lens n m -> vgives m (v_sign x) (Ok (sgn (sobj m x))).
Proof.
  intros L. unfold vgives, v_sign, at_. cbn [abind run_act]. unfold mget. rewrite aget_ok by (rewrite (L (sign_at x)); lia). reflexivity.
Qed.
Lemma on_lens m0 a v m : on m0 a v m -> lens n m.
Proof. intros H. apply H. Qed.
Lemma on_sign_read m0 a v m : on m0 a v m -> vgives m (v_sign a) (Ok (sgn v)).
Proof. intros (E & _ & L). rewrite <- E. now apply sign_gives. Qed.

Lemma run_sign m x s : lens n m -> exists m', run_act (t_sign x s) m = Ok (tt, m') /\ lens n m' /\
  sobj m' x = with_sign (sobj m x) s /\ (forall y, y <> x -> sobj m' y = sobj m y) /\ (forall y, m' (mag_at y) = m (mag_at y)).
Proof.
  intros L. unfold t_sign, aput. cbn [run_act]. unfold mset. rewrite aset_ok by (rewrite (L (sign_at x)); lia). cbn [bind].
  eexists. split; [reflexivity|].
  assert (M : forall y, mput m (sign_at x) (upd (m (sign_at x)) (Z.to_nat 0) (code s)) (mag_at y) = m (mag_at y)) by (intros; apply mput_ne, mag_sign).
  split; [|split; [|split; [|exact M]]].
  - intros l. unfold lenp, mput. destruct (loc_eqb_spec l (sign_at x)) as [->|]; [rewrite len_upd; apply L|apply L].
  - unfold sobj, with_sign. cbn [mag]. rewrite M, mput_eq. change (upd (m (sign_at x)) (Z.to_nat 0) (code s)) with (upd (m (sign_at x)) 0%nat (code s)).
    pose proof (L (sign_at x)) as Lx. unfold lenp in Lx. destruct (m (sign_at x)) as [|c r]; [unfold len in Lx; cbn in Lx; lia|].
    f_equal. destruct s; reflexivity.
  - intros y Hy. apply sobj_same; [apply M|]. apply mput_ne. intros E. apply Hy. now apply sign_inj.
Qed.
Lemma g_sign m0 a v m s : on m0 a v m -> gives m0 a (t_sign a s) m (Ok (with_sign v s)).
Proof.
  intros (E & O & L). destruct (run_sign m a s L) as (m' & R & L' & E' & O' & _). unfold gives. rewrite R. cbn [osim snd].
  split; [now rewrite E', E|]. split; auto. intros i Hi. rewrite O' by auto. auto.
Qed.
Lemma run_inverse m a : lens n m -> exists m', run_act (t_inverse a) m = Ok (tt, m') /\ lens n m' /\
  sobj m' a = s_inverse (sobj m a) /\ (forall y, y <> a -> sobj m' y = sobj m y) /\ (forall y, m' (mag_at y) = m (mag_at y)).
Proof.
  intros L. unfold t_inverse. rewrite run_bind, (sign_gives m a L). cbn [bind]. unfold s_inverse.
  destruct (sgn (sobj m a)) eqn:S; cbn [sign_eqb].
  - apply (run_sign m a SZero L).
  - rewrite run_bind, (sign_gives m a L). cbn [bind]. rewrite S. cbn [sign_eqb]. apply (run_sign m a SNeg L).
  - rewrite run_bind, (sign_gives m a L). cbn [bind]. rewrite S. cbn [sign_eqb]. apply (run_sign m a SPos L).
Qed.
Lemma g_inverse m0 a v m : on m0 a v m -> gives m0 a (t_inverse a) m (Ok (s_inverse v)).
Proof.
  intros (E & O & L). destruct (run_inverse m a L) as (m' & R & L' & E' & O' & _). unfold gives. rewrite R. cbn [osim snd].
  split; [now rewrite E', E|]. split; auto. intros i Hi. rewrite O' by auto. auto.
Qed.
Lemma g_mag {A} m0 a v m (c : act A) x : on m0 a v m -> modifies m (mag_at a) c x -> gives m0 a c m (b <- x ;; Ok (with_mag v b)).
Proof.
  intros (E & O & L) H. unfold gives, modifies in *. destruct (run_act c m) as [[r m']|] eqn:R, x as [b|]; cbn [osim bind snd] in *; auto; try contradiction.
  destruct H as [E1 O1]. split; [|split; [|exact (run_lens _ _ _ _ _ L R)]].
  - rewrite <- E. unfold sobj, with_mag. cbn [sgn]. rewrite E1, O1 by (apply not_eq_sym, mag_sign). reflexivity.
  - intros i Hi. rewrite <- O by auto. apply sobj_same; apply O1; [|apply not_eq_sym, mag_sign]. intros K. apply Hi. now apply mag_inj.
Qed.
Lemma base_reads m x : reads m (base_ x) (mag (sobj m x)).
Proof. apply reads_at. Qed.
Lemma base_lenp m x : lens n m -> lenp n (mag (sobj m x)).
Proof. intros L. apply L. Qed.
Lemma base_srcs m a x : srcs m (mag_at a) (base_ x) (mag (sobj m x)).
Proof. apply srcs_at. Qed.

Lemma g_fix_zero m0 a v m : on m0 a v m -> gives m0 a (t_fix_zero n a) m (s_fix_zero n v).
Proof.
  intros O. unfold t_fix_zero, s_fix_zero. apply g_vg.
  - rewrite <- (proj1 O). apply v_isZero_gives, base_reads.
  - intros [] _; [now apply g_sign|now apply g_ret].
Qed.
Lemma g_assign m0 a v m w l : on m0 a v m -> lenp n l -> srcs m (mag_at a) w l -> gives m0 a (t_assign n (mag_at a) w) m (Ok (with_mag v l)).
Proof.
  intros O Ll S. apply (g_mag m0 a v m _ (Ok l)); auto. apply t_assign_gives; auto; [lia|]. apply (on_lens _ _ _ _ O).
Qed.
Lemma g_sput m0 a v m r : on m0 a v m -> lenp n (mag r) -> gives m0 a (t_sput n a r) m (Ok r).
Proof.
  intros O L. unfold t_sput. eapply g_eq; [eapply g_seq; [apply g_sign, O|]|].
  - intros _ m' v' O'. apply g_assign; [exact O'|exact L|apply srcs_local].
  - cbn [bind]. unfold with_mag. cbn. destruct r; reflexivity.
Qed.
Lemma g_scopy m0 a v m b : on m0 a v m -> gives m0 a (t_scopy n a b) m (Ok (sobj m b)).
Proof.
  intros O. pose proof (on_lens _ _ _ _ O) as L. unfold t_scopy. apply (g_read _ _ _ _ _ (sgn (sobj m b))); [now apply sign_gives|].
  destruct O as (E & O & _). destruct (run_sign m a (sgn (sobj m b)) L) as (m1 & R & L1 & E1 & O1 & M1).
  unfold gives. rewrite run_bind, R. cbn [bind].
  assert (X : on m0 a (with_sign v (sgn (sobj m b))) m1).
  { split; [now rewrite E1, E|]. split; auto. intros i Hi. rewrite O1 by auto. auto. }
  pose proof (g_assign m0 a _ m1 (base_ b) (mag (sobj m1 b)) X (base_lenp m1 b L1) (base_srcs m1 a b)) as G.
  eapply g_eq in G; [exact G|]. unfold with_mag, with_sign, sobj. cbn. now rewrite M1.
Qed.
Lemma g_rsub m0 a v m b s : on m0 a v m ->
  gives m0 a (t_rsub n a b s) m (r <- op_sub n (mag (sobj m b)) (mag v) ;; Ok (mk_aesi s r)).
Proof.
  intros O. pose proof (on_lens _ _ _ _ O) as L. unfold t_rsub. apply (g_read _ _ _ _ _ (mag (sobj m b))).
  { apply v_copy_gives; [lia|apply base_reads|now apply base_lenp]. }
  unfold op_sub. apply g_vg.
  { rewrite <- (proj1 O). apply v_sub_local_gives; [lia|apply base_reads|now apply base_lenp]. }
  intros r E. eapply g_eq; [eapply g_seq; [apply g_assign; [exact O| |apply srcs_local]|]|].
  - eapply okp_use in E; [exact E|]. apply sub_assign_len. now apply base_lenp.
  - intros _ m' v' O'. apply g_sign, O'.
  - reflexivity.
Qed.
Lemma g_difference cfg m0 a v m b s : on m0 a v m ->
  gives m0 a (t_difference cfg n a b s) m
    (ratio <- compareTo cfg n n (mag v) (mag (sobj m b)) ;;
     match ratio with
     | CGreater => r <- sub_assign n (mag v) (mag (sobj m b)) ;; Ok (with_mag v r)
     | CLess => r <- op_sub n (mag (sobj m b)) (mag v) ;; Ok (mk_aesi s r)
     | _ => Ok (with_sign v SZero)
     end).
Proof.
  intros O. pose proof (on_lens _ _ _ _ O) as L. unfold t_difference. apply g_vg.
  { rewrite <- (proj1 O). apply v_compareTo_gives; apply base_reads. }
  intros [] _.
  - now apply g_sign.
  - now apply g_rsub.
  - apply g_mag; auto. rewrite <- (proj1 O). apply t_sub_assign_gives; [lia|now apply base_lenp|apply base_srcs].
  - now apply g_sign.
Qed.
Lemma g_add m0 a v m b : on m0 a v m ->
  gives m0 a (t_add_assign n (mag_at a) (base_ b)) m (r <- add_assign n (mag v) (mag (sobj m b)) ;; Ok (with_mag v r)).
Proof. intros O. apply g_mag; auto. rewrite <- (proj1 O). apply t_add_assign_gives; [lia|apply base_srcs]. Qed.

Lemma g_sadd cfg m a b : lens n m -> gives m a (t_sadd_assign cfg n a b) m (s_add_assign cfg n (sobj m a) (sobj m b)).
Proof.
  intros L. pose proof (on_self m a L) as O. pose proof (sign_gives m a L) as Sa. pose proof (sign_gives m b L) as Sb.
  unfold t_sadd_assign, s_add_assign. eapply g_read; [exact Sb|].
  destruct (sgn (sobj m b)) eqn:EB; cbn [sign_eqb]; [now apply g_ret| |].
  - eapply g_read; [exact Sa|]. destruct (sgn (sobj m a)) eqn:EA; cbn [sign_eqb]; [eapply g_scopy, O| |];
      (eapply g_read; [exact Sa|]); (eapply g_read; [exact Sb|]); cbn [sign_eqb]; [now apply g_add|].
    eapply g_read; [exact Sa|]. cbn [sign_eqb]. now apply g_difference.
  - eapply g_read; [exact Sa|]. destruct (sgn (sobj m a)) eqn:EA; cbn [sign_eqb]; [eapply g_scopy, O| |];
      (eapply g_read; [exact Sa|]); (eapply g_read; [exact Sb|]); cbn [sign_eqb]; [|now apply g_add].
    eapply g_read; [exact Sa|]. cbn [sign_eqb]. now apply g_difference.
Qed.
Lemma g_ssub cfg m a b : lens n m -> gives m a (t_ssub_assign cfg n a b) m (s_sub_assign cfg n (sobj m a) (sobj m b)).
Proof.
  intros L. pose proof (on_self m a L) as O. pose proof (sign_gives m a L) as Sa. pose proof (sign_gives m b L) as Sb.
  unfold t_ssub_assign, s_sub_assign. eapply g_read; [exact Sb|].
  assert (INV : gives m a (_ <~ t_scopy n a b ;; t_inverse a) m (Ok (s_inverse (sobj m b)))).
  { eapply g_eq; [eapply g_seq; [eapply g_scopy, O|intros _ m' v' O'; apply g_inverse, O']|reflexivity]. }
  destruct (sgn (sobj m b)) eqn:EB; cbn [sign_eqb]; [now apply g_ret| |].
  - eapply g_read; [exact Sa|]. destruct (sgn (sobj m a)) eqn:EA; cbn [sign_eqb]; [exact INV| |];
      (eapply g_read; [exact Sa|]); cbn [sign_eqb]; (eapply g_read; [exact Sb|]); cbn [sign_eqb]; [now apply g_difference|now apply g_add].
  - eapply g_read; [exact Sa|]. destruct (sgn (sobj m a)) eqn:EA; cbn [sign_eqb]; [exact INV| |];
      (eapply g_read; [exact Sa|]); cbn [sign_eqb]; (eapply g_read; [exact Sb|]); cbn [sign_eqb]; [now apply g_add|now apply g_difference].
Qed.
(** After the sign of [a] may have been inverted. *)
Lemma g_flip {B} m a b (k : unit -> act B) x : lens n m ->
  (forall m', on m a (if s_isNegative (sobj m b) then s_inverse (sobj m a) else sobj m a) m' -> mag (sobj m' b) = mag (sobj m b) -> gives m a (k tt) m' x) ->
  gives m a (abind (t_flip a b) k) m x.
Proof.
  intros L K. unfold t_flip. unfold gives. rewrite run_bind. rewrite run_bind, (sign_gives m b L). cbn [bind].
  unfold s_isNegative in K. destruct (sign_eqb (sgn (sobj m b)) SNeg).
  - destruct (run_inverse m a L) as (m1 & R & L1 & E1 & O1 & M1). rewrite R. cbn [bind]. apply K; [|apply M1].
    split; [exact E1|]. split; auto.
  - cbn [run_act bind]. apply K; auto. now apply on_self.
Qed.
Lemma g_smul m a b : lens n m -> gives m a (t_smul_assign n a b) m (s_mul_assign n (sobj m a) (sobj m b)).
Proof.
  intros L. pose proof (on_self m a L) as O. unfold t_smul_assign, s_mul_assign. eapply g_read; [apply sign_gives, L|]. unfold s_isZero.
  destruct (sign_eqb (sgn (sobj m b)) SZero); [now apply g_sign|]. apply g_flip; auto. intros m' O' B. cbv zeta.
  apply g_mag; auto. rewrite <- B, <- (proj1 O'). apply t_mul_assign_gives; [lia|now apply (on_lens _ _ _ _ O')|apply base_srcs].
Qed.
Lemma g_then_fix m0 a v m (c : act unit) x : on m0 a v m -> modifies m (mag_at a) c x ->
  gives m0 a (_ <~ c ;; t_fix_zero n a) m (b <- x ;; s_fix_zero n (with_mag v b)).
Proof.
  intros O H. eapply g_eq; [eapply g_seq; [apply g_mag; [exact O|exact H]|intros _ m' v' O'; apply g_fix_zero, O']|].
  destruct x; reflexivity.
Qed.
Lemma g_sdiv cfg m a b : lens n m -> gives m a (t_sdiv_assign cfg n a b) m (s_div_assign cfg n (sobj m a) (sobj m b)).
Proof.
  intros L. pose proof (on_self m a L) as O. unfold t_sdiv_assign, s_div_assign. eapply g_read; [apply sign_gives, L|]. unfold s_isZero.
  destruct (sign_eqb (sgn (sobj m b)) SZero); [now apply g_sign|]. apply g_flip; auto. intros m' O' B. cbv zeta.
  pose proof (on_lens _ _ _ _ O') as L'. apply g_then_fix; auto. rewrite <- B, <- (proj1 O').
  apply t_div_store; [lia|apply L'|apply L'|now apply base_lenp|apply reads_at|apply base_reads].
Qed.
Lemma g_smod cfg m a b : lens n m -> gives m a (t_smod_assign cfg n a b) m (s_mod_assign cfg n (sobj m a) (sobj m b)).
Proof.
  intros L. pose proof (on_self m a L) as O. unfold t_smod_assign, s_mod_assign. eapply g_read; [apply sign_gives, L|]. unfold s_isZero.
  destruct (sign_eqb (sgn (sobj m b)) SZero); [now apply g_ret|]. apply g_flip; auto. intros m' O' B. cbv zeta.
  pose proof (on_lens _ _ _ _ O') as L'. apply g_then_fix; auto. rewrite <- B, <- (proj1 O').
  apply t_mod_store; [lia|apply L'|apply L'|now apply base_lenp|apply reads_at|apply base_reads].
Qed.
(** The value of a compound assignment, operands by value. *)
Definition sassign_value (cfg : config) (o : scop) (a b : aesi) : outcome aesi :=
  match o with
  | SOAdd => s_add_assign cfg n a b | SOSub => s_sub_assign cfg n a b | SOMul => s_mul_assign n a b
  | SODiv => s_div_assign cfg n a b | SOMod => s_mod_assign cfg n a b
  end.
Lemma g_sop cfg o m a b : lens n m -> gives m a (t_sop_assign cfg o n a b) m (sassign_value cfg o (sobj m a) (sobj m b)).
Proof. intros L. destruct o; cbn [t_sop_assign sassign_value]; [apply g_sadd|apply g_ssub|apply g_smul|apply g_sdiv|apply g_smod]; auto. Qed.
Lemma g_sbinary cfg o m d a b : lens n m ->
  gives m (Var d) (t_sbinary cfg o n (Var d) (Var a) (Var b)) m (sassign_value cfg o (sobj m (Var a)) (sobj m (Var b))).
Proof.
  intros L. unfold t_sbinary, gives. rewrite run_bind.
  pose proof (g_scopy m (Tmp 5) _ m (Var a) (on_self m (Tmp 5) L)) as H. unfold gives in H.
  destruct (run_act (t_scopy _ _ _) m) as [[[] m1]|]; cbn [osim snd bind] in *; [|contradiction]. destruct H as (E1 & O1 & L1).
  rewrite run_bind. pose proof (g_sop cfg o m1 (Tmp 5) (Var b) L1) as H. rewrite E1, (O1 b) in H by discriminate. unfold gives in H.
  destruct (run_act (t_sop_assign _ _ _ _ _) m1) as [[[] m2]|], (sassign_value cfg o _ _) as [v|]; cbn [osim snd bind] in *; auto; try contradiction.
  destruct H as (E2 & O2 & L2).
  pose proof (g_scopy m2 (Var d) _ m2 (Tmp 5) (on_self m2 (Var d) L2)) as H. unfold gives in H.
  destruct (run_act (t_scopy _ _ _) m2) as [[[] m3]|]; cbn [osim snd] in *; [|contradiction]. destruct H as (E3 & O3 & L3).
  split; [congruence|]. split; auto. intros i Hi. rewrite O3, O2, O1 by (auto; discriminate). reflexivity.
Qed.
Lemma with_mag_sobj x l : with_mag x l = mk_aesi (sgn x) l. Proof. reflexivity. Qed.
Lemma g_one m0 a v m s : on m0 a v m -> gives m0 a (t_one n a s) m (b <- from_unsigned n (zeros n) 1 ;; Ok (mk_aesi s b)).
Proof.
  intros O. unfold t_one. apply g_vg; [apply vg_pure|]. intros one E.
  eapply g_eq; [eapply g_seq; [apply g_assign; [exact O| |apply srcs_local]|]|].
  - eapply okp_use in E; [exact E|]. apply from_unsigned_len. lia.
  - intros _ m' v' O'. apply g_sign, O'.
  - reflexivity.
Qed.
Lemma g_sinc m a : lens n m -> gives m a (t_sinc n a) m (s_inc n (sobj m a)).
Proof.
  intros L. pose proof (on_self m a L) as O. pose proof (sign_gives m a L) as Sa. unfold t_sinc, s_inc. eapply g_read; [exact Sa|].
  destruct (sgn (sobj m a)) eqn:E; cbn [sign_eqb]; [| |].
  - eapply g_read; [exact Sa|]. cbn [sign_eqb]. eapply g_one, O.
  - eapply g_read; [exact Sa|]. cbn [sign_eqb]. eapply g_eq; [apply g_mag; [exact O|apply t_inc_gives]|].
    change (m (mag_at a)) with (mag (sobj m a)). destruct (op_inc n (mag (sobj m a))); cbn [bind]; auto. unfold with_mag. now rewrite E.
  - eapply g_eq; [apply g_then_fix; [exact O|apply t_dec_gives]|].
    change (m (mag_at a)) with (mag (sobj m a)). destruct (op_dec n (mag (sobj m a))); cbn [bind]; auto. unfold s_fix_zero. cbn [mag with_mag].
    destruct (isZero n a0) as [[]|]; cbn [bind]; auto. unfold with_mag. now rewrite E.
Qed.
Lemma g_sdec m a : lens n m -> gives m a (t_sdec n a) m (s_dec n (sobj m a)).
Proof.
  intros L. pose proof (on_self m a L) as O. pose proof (sign_gives m a L) as Sa. unfold t_sdec, s_dec. eapply g_read; [exact Sa|].
  destruct (sgn (sobj m a)) eqn:E; cbn [sign_eqb]; [| |].
  - eapply g_read; [exact Sa|]. cbn [sign_eqb]. eapply g_one, O.
  - eapply g_read; [exact Sa|]. cbn [sign_eqb]. eapply g_eq; [apply g_then_fix; [exact O|apply t_dec_gives]|].
    change (m (mag_at a)) with (mag (sobj m a)). destruct (op_dec n (mag (sobj m a))); cbn [bind]; auto. unfold s_fix_zero. cbn [mag with_mag].
    destruct (isZero n a0) as [[]|]; cbn [bind]; auto. unfold with_mag. now rewrite E.
  - eapply g_eq; [apply g_mag; [exact O|apply t_inc_gives]|].
    change (m (mag_at a)) with (mag (sobj m a)). destruct (op_inc n (mag (sobj m a))); cbn [bind]; auto. unfold with_mag. now rewrite E.
Qed.
Lemma g_strip {B} t m a k (f : Z -> act B) (g : aesi * Z -> outcome aesi) : lens n m ->
  (forall m' v k', on m a v m' -> gives m a (f k') m' (g (v, k'))) ->
  gives m a (abind (t_strip t a k) f) m (bind (s_strip_sign t (sobj m a) k) g).
Proof.
  intros L K. unfold t_strip, s_strip_sign. destruct (k <? 0).
  - destruct (run_inverse m a L) as (m1 & R & L1 & E1 & O1 & _). unfold gives. rewrite !run_bind, R. cbn [bind]. rewrite run_bind, run_pure.
    destruct (ineg t k) as [nk|]; cbn [bind osim]; auto. cbn [run_act bind]. apply K. split; auto.
  - unfold gives. rewrite run_bind. cbn [run_act bind]. apply K. now apply on_self.
Qed.
Lemma g_smul_int cfg t m a k : lens n m -> gives m a (t_smul_int cfg n t a k) m (s_mul_assign_int cfg n t (sobj m a) k).
Proof.
  intros L. pose proof (on_self m a L) as O. unfold t_smul_int, s_mul_assign_int. destruct (k =? 0); [now apply g_sign|].
  apply g_strip; auto. intros m' v k' O'. apply g_mag; auto. rewrite <- (proj1 O'). apply t_mul_assign_u_gives; [lia|apply (on_lens _ _ _ _ O')].
Qed.
Lemma g_sdiv_int cfg t m a k : lens n m -> gives m a (t_sdiv_int cfg n t a k) m (s_div_assign_int cfg n t (sobj m a) k).
Proof.
  intros L. pose proof (on_self m a L) as O. unfold t_sdiv_int, s_div_assign_int. destruct (k =? 0); [now apply g_sign|].
  apply g_strip; auto. intros m' v k' O'. apply g_vg; [apply vg_pure|]. intros d E. pose proof (on_lens _ _ _ _ O') as L'.
  apply g_then_fix; auto. rewrite <- (proj1 O').
  apply t_div_store; [lia|apply L'|apply L'| |apply reads_at|apply reads_local]. eapply okp_use in E; [exact E|]. apply from_unsigned_len. lia.
Qed.
Lemma g_put_val m a x : lens n m -> okp (fun r => lenp n (mag r)) x -> gives m a (r <~ pure x ;; t_sput n a r) m x.
Proof.
  intros L K. rewrite <- (bind_ok_r x) at 2. apply g_vg; [apply vg_pure|]. intros r E. eapply g_sput; [apply on_self, L|]. now apply K.
Qed.
Lemma s_from_int_len t v : okp (fun r => lenp n (mag r)) (s_from_int n t v).
Proof.
  unfold s_from_int. destruct (v <? 0); [|destruct (v >? 0)].
  - apply okp_any. intros nv. eapply okp_bind; [apply from_unsigned_len; lia|]. intros b Hb. now apply okp_ok.
  - eapply okp_bind; [apply from_unsigned_len; lia|]. intros b Hb. now apply okp_ok.
  - apply okp_ok. apply lenp_zeros. lia.
Qed.
Lemma s_power2_len cfg k : okp (fun r => lenp n (mag r)) (s_power2 cfg n k).
Proof.
  unfold s_power2. eapply okp_bind; [apply power2_len; lia|]. intros b Hb. unfold s_fix_zero. apply okp_any. intros [];
    apply okp_ok; exact Hb.
Qed.
Lemma g_snegate m d s : lens n m -> gives m d (t_snegate n d s) m (s_neg (sobj m s)).
Proof.
  intros L. unfold t_snegate, s_neg. eapply g_read; [apply sign_gives, L|].
  eapply g_read; [apply v_copy_gives; [lia|apply base_reads|now apply base_lenp]|].
  eapply g_eq; [eapply g_sput; [apply on_self, L|]|]; [|now rewrite aesi_eta].
  rewrite aesi_eta, mag_inverse. now apply base_lenp.
Qed.
Lemma g_ssqrt cfg m d a : lens n m -> gives m d (t_ssqrt cfg n d a) m (s_squareRoot cfg (gfuel n) n (sobj m a)).
Proof.
  intros L. unfold t_ssqrt, s_squareRoot. eapply g_read; [apply sign_gives, L|].
  destruct (sgn (sobj m a)); cbn [sign_eqb]; try (apply g_put_val; [exact L|apply s_from_int_len]).
  apply g_vg; [apply v_squareRoot_gives; [lia|apply base_reads|now apply base_lenp]|].
  intros r E. eapply g_sput; [apply on_self, L|]. cbn [mag]. eapply okp_use in E; [exact E|]. apply squareRoot_len. lia.
Qed.
End W.
