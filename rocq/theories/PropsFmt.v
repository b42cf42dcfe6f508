(** * PropsFmt: C131 - the stream's format state after insertion, for every stream, locale, sink and field width. *)
From Verif Require Import StreamFacts PropsText PropsStream.
Open Scope Z_scope.

Ltac conjs := repeat match goal with |- _ /\ _ => split end.

(** Format state, apart from the width. *)
Definition same_fmt (s t : sstream) : Prop := basef (sos t) = basef (sos s) /\ uppercase (sos t) = uppercase (sos s) /\
  showbase (sos t) = showbase (sos s) /\ fillc (sos t) = fillc (sos s) /\ adj (sos t) = adj (sos s).
Lemma same_refl s : same_fmt s s. Proof. unfold same_fmt; auto. Qed.
Lemma same_trans s t u : same_fmt s t -> same_fmt t u -> same_fmt s u.
Proof. unfold same_fmt. intros (A1 & A2 & A3 & A4 & A5) (B1 & B2 & B3 & B4 & B5). conjs; congruence. Qed.
(** [t] comes after [s]: a failed stream stays failed; [w]: something has been inserted, so a good stream has width 0. *)
Definition later (s t : sstream) : Prop := sgood t = true -> sgood s = true.
Lemma later_refl s : later s s. Proof. unfold later; auto. Qed.
Definition w0 (t : sstream) : Prop := sgood t = true -> width (sos t) = 0.
Lemma put_fmt s x : same_fmt s (ss_put s x) /\ later s (ss_put s x) /\ w0 (ss_put s x).
Proof.
  unfold ss_put, later, w0. destruct (sgood s) eqn:G; [|rewrite G; conjs; [apply same_refl|discriminate|discriminate] ].
  unfold ss_write. destruct (sroom s); cbv zeta; unfold same_fmt; cbn [sos basef uppercase showbase fillc adj width os_width sgood]; conjs; auto.
Qed.

Lemma loopD_keep {S} (P : S -> Prop) f : forall c i s s', (forall i s s', P s -> f i s = Ok s' -> P s') -> P s -> loopD c i f s = Ok s' -> P s'.
Proof.
  induction c as [|c IH]; intros i s s' H Ps E; cbn [loopD] in E; [injection E as <-; auto|].
  destruct (f (i - 1) s) as [s1|] eqn:E1; cbn [bind] in E; [|discriminate]. exact (IH (i - 1) s1 s' H (H _ _ _ Ps E1) E).
Qed.
Lemma loopD_sets {S} (P Q : S -> Prop) f c i s s' : (0 < c)%nat -> (forall i s s', P s -> f i s = Ok s' -> P s' /\ Q s') -> P s -> loopD c i f s = Ok s' -> P s' /\ Q s'.
Proof.
  destruct c as [|c]; [lia|]. intros _ H Ps E. cbn [loopD] in E. destruct (f (i - 1) s) as [s1|] eqn:E1; cbn [bind] in E; [|discriminate].
  revert E. apply (loopD_keep (fun s => P s /\ Q s)); [|eauto]. intros j t t' [] ?. eauto.
Qed.

Lemma sbs_pos n : 1 <= n -> 32 * n < 2 ^ 53 -> 1 <= stream_buffer_size n.
Proof.
  intros H1 H. destruct (Z.eq_dec n 1) as [->|]; [vm_compute; discriminate|]. destruct (Z.eq_dec n 2) as [->|]; [vm_compute; discriminate|].
  pose proof (d295_bs n ltac:(lia) H). lia.
Qed.
Lemma loopUx_exit {S R} (Q : R -> Prop) (f : Z -> S -> outcome (step S R)) : forall c i s r,
  (forall j s r, i <= j -> f j s = Ok (Exit r) -> Q r) -> loopUx c i f s = Ok (Exit r) -> Q r.
Proof.
  induction c as [|c IH]; intros i s r H E; cbn [loopUx] in E; [discriminate|].
  destruct (f i s) as [x|] eqn:F; cbn [bind] in E; [|discriminate]. destruct x as [s1|q].
  - refine (IH (i + 1) s1 r _ E). intros j t q L. apply H. lia.
  - injection E as <-. apply (H i s q); [lia|exact F].
Qed.
Lemma digit_loop_pos cfg n base sz buffer a r : wf n a -> bval a <> 0 -> 1 <= sz -> digit_loop cfg n base sz buffer 0 a = Ok r -> 1 <= snd r.
Proof.
  intros W V S E. unfold digit_loop, forUx in E.
  match type of E with bind (loopUx _ _ ?F _) _ = _ => set (f := F) in E end.
  replace (Z.to_nat (sz - 0)) with (Datatypes.S (Z.to_nat (sz - 1))) in E by lia. cbn [loopUx] in E.
  assert (XE : forall j s b p, f j s = Ok (Exit (b, p)) -> p = j /\ (j = 0 -> bval (snd s) = 0 \/ ~ wf n (snd s))).
  { intros j [b0 c] b p H. unfold f in H. destruct (isZero n c) as [z|] eqn:Z0; cbn [bind] in H; [|discriminate]. destruct z.
    - injection H as <- <-. split; [auto|]. intros _. cbn [snd]. destruct (Z.eq_dec (bval c) 0) as [|N]; [auto|right]. intros Wc.
      rewrite isZero_spec in Z0 by auto. injection Z0 as Z0. apply Z.eqb_eq in Z0. contradiction.
    - destruct (from_unsigned n (zeros n) base) as [l|]; cbn [bind] in H; [|discriminate]. destruct (divide cfg n c l) as [ [q m]|]; cbn [bind] in H; [|discriminate].
      destruct (integralCast uint8 m) as [d|]; cbn [bind] in H; [|discriminate]. destruct (aset b0 j (48 + d)); cbn [bind] in H; discriminate. }
  destruct (f 0 (buffer, a)) as [x|] eqn:F; cbn [bind] in E; [|discriminate]. destruct x as [s1|[b p] ].
  - destruct (loopUx (Z.to_nat (sz - 1)) (0 + 1) f s1) as [y|] eqn:L; cbn [bind] in E; [|discriminate]. destruct y as [ [b c]|[b p] ]; injection E as <-; cbn [snd]; [lia|].
    change (1 <= snd (b, p)). revert L. apply (loopUx_exit (fun r => 1 <= snd r)). intros j s [b' p'] Hj H. destruct (XE j s b' p' H) as [-> _]. cbn [snd]. lia.
  - destruct (XE _ _ _ _ F) as [_ H]. destruct (H eq_refl) as [H0|H0]; cbn [snd] in H0; [contradiction|tauto].
Qed.

(** ** C131.  Everything but the text, after one insertion of an unsigned number. *)
Theorem C131_format : forall cfg grp n s a s', wf n a -> 32 * n < 2 ^ 53 -> ss_insert cfg grp n s a = Ok s' ->
  let o := sos s in let o' := sos s' in
  let big := (os_base o =? 16) && (2 ^ 32 <=? bval a) in
  basef o' = basef o /\ uppercase o' = uppercase o /\ showbase o' = (showbase o && (os_base o =? 10)) /\
  fillc o' = (if big then 48 else fillc o) /\ adj o' = (if big then AdjRight else adj o) /\
  (sgood s' = true -> sgood s = true /\ width o' = 0).
Proof.
  intros cfg grp n s a s' W H53 E. cbv zeta. pose proof (bval_bound n _ W) as Bv. unfold ss_insert in E. fold (os_base (sos s)) in E. cbv zeta in E.
  set (c := showbase (sos s) && negb (os_base (sos s) =? 10)) in E.
  set (s1 := if c then ss_on os_noshowbase (ss_put s (if os_base (sos s) =? 8 then [48; 111] else [48; 120])) else s) in E.
  assert (H1 : basef (sos s1) = basef (sos s) /\ uppercase (sos s1) = uppercase (sos s) /\ showbase (sos s1) = (showbase (sos s) && (os_base (sos s) =? 10)) /\
    fillc (sos s1) = fillc (sos s) /\ adj (sos s1) = adj (sos s) /\ later s s1).
  { subst s1. unfold c. destruct (showbase (sos s)) eqn:SB, (os_base (sos s) =? 10) eqn:B; cbn [andb negb]; try (conjs; auto using later_refl; congruence).
    pose proof (put_fmt s (if os_base (sos s) =? 8 then [48; 111] else [48; 120])) as ((A1 & A2 & A3 & A4 & A5) & L & _).
    unfold later in *. cbn [ss_on sos os_noshowbase basef uppercase showbase fillc adj sgood]. conjs; auto. }
  clearbody s1. clear c. destruct H1 as (A1 & A2 & A3 & A4 & A5 & A6).
  rewrite isZero_spec in E by auto. cbn [bind] in E. destruct (Z.eqb_spec (bval a) 0) as [V|V].
  { injection E as <-. replace (2 ^ 32 <=? bval a) with false by (symmetry; apply Z.leb_gt; lia). rewrite andb_false_r.
    destruct (put_fmt s1 [48]) as ((B1 & B2 & B3 & B4 & B5) & L & Z). conjs; try congruence. auto. }
  assert (N1 : 1 <= n). { pose proof (wf_nonneg _ _ W). destruct (Z.eq_dec n 0) as [->|]; [|lia]. unfold modulus in Bv. cbn in Bv. lia. }
  destruct (Z.eqb_spec (os_base (sos s)) 16) as [B16|B16]; cbn [andb].
  - destruct (top_block_spec n a W N1) as (L & EL & RL & HT & HL). rewrite EL in E. cbn [bind] in E. rewrite (aget_ok a L) in E by (rewrite (wf_len _ _ W); lia). cbn [bind] in E.
    set (s2 := ss_put_int grp s1 (fmt_x (uppercase (sos s1)) (znth a L))) in E.
    destruct (put_fmt s1 (grp (fmt_x (uppercase (sos s1)) (znth a L)))) as ((B1 & B2 & B3 & B4 & B5) & L2 & Z2).
    change (ss_put s1 _) with s2 in B1, B2, B3, B4, B5, L2, Z2. clearbody s2.
    assert (BIG : (2 ^ 32 <=? bval a) = (0 <? L)).
    { pose proof (bval_filled n a (L + 1) W ltac:(lia) ltac:(intros; apply HT; lia)) as EV. rewrite pval_succ in EV by (rewrite (wf_len _ _ W); lia).
      pose proof (pval_bound n a L W ltac:(lia)) as PB. pose proof (wf_znth n a L W) as HZ.
      destruct (Z.ltb_spec 0 L) as [P|P].
      - apply Z.leb_le. destruct HL as [HL|HL]; [lia|]. assert (2 ^ 32 <= 2 ^ (32 * L)) by (apply Z.pow_le_mono_r; lia). rewrite EV. clear - PB HZ HL H. nia.
      - assert (L = 0) by lia. subst L. apply Z.leb_gt. rewrite EV, pval_0. change (2 ^ (32 * 0)) with 1. lia. }
    rewrite BIG. unfold forD in E. destruct (Z.ltb_spec 0 L) as [P|P].
    + set (G := fun t : sstream => basef (sos t) = basef (sos s2) /\ uppercase (sos t) = uppercase (sos s2) /\ showbase (sos t) = showbase (sos s2) /\ later s2 t).
      set (Q := fun t : sstream => fillc (sos t) = 48 /\ adj (sos t) = AdjRight /\ w0 t).
      assert (R : G s' /\ Q s').
      { revert E. apply (loopD_sets G Q); [lia| |unfold G; conjs; auto using later_refl].
        intros i t t' (G1 & G2 & G3 & G4) F. destruct (aget a i) as [x|]; cbn [bind] in F; [|discriminate]. injection F as <-. unfold ss_put_int.
        match goal with |- G (ss_put ?u ?v) /\ _ => destruct (put_fmt u v) as ((C1 & C2 & C3 & C4 & C5) & L3 & Z3) end.
        unfold G, Q, later in *. cbn [ss_on sos os_right os_width os_fill basef uppercase showbase fillc adj sgood] in *. conjs; auto; congruence. }
      destruct R as ((G1 & G2 & G3 & G4) & Q1 & Q2 & Q3). unfold later, w0 in *. conjs; try congruence. auto.
    + replace (Z.to_nat (L - 0)) with 0%nat in E by lia. cbn [loopD] in E. injection E as <-. unfold later, w0 in *. conjs; try congruence; auto.
  - destruct (digit_loop cfg n (os_base (sos s)) (stream_buffer_size n) (zeros (stream_buffer_size n)) 0 a) as [ [buffer filled]|] eqn:D; cbn [bind] in E; [|discriminate].
    apply digit_loop_pos in D; auto using sbs_pos. cbn [snd] in D. unfold forD in E.
    assert (R : (same_fmt s1 s' /\ later s1 s') /\ w0 s').
    { revert E. apply (loopD_sets (fun t => same_fmt s1 t /\ later s1 t) w0); [lia| |auto using same_refl, later_refl].
      intros i t t' [G1 G2] F. destruct (aget buffer i) as [x|]; cbn [bind] in F; [|discriminate]. injection F as <-.
      destruct (put_fmt t [x]) as (C1 & L3 & Z3). conjs; auto; [eapply same_trans; eauto|unfold later in *; auto]. }
    destruct R as (((C1 & C2 & C3 & C4 & C5) & R2) & R3). unfold later, w0 in *. conjs; try congruence. auto.
Qed.
Print Assumptions C131_format.

Lemma signed_format cfg grp n s x s' : swf n x -> 32 * n < 2 ^ 53 -> ss_insert_signed cfg grp n s x = Ok s' ->
  let o := sos s in let o' := sos s' in
  let big := (os_base o =? 16) && (2 ^ 32 <=? Z.abs (sval x)) in
  basef o' = basef o /\ uppercase o' = uppercase o /\ showbase o' = (showbase o && ((os_base o =? 10) || (sval x =? 0))) /\
  fillc o' = (if big then 48 else fillc o) /\ adj o' = (if big then AdjRight else adj o) /\
  (sgood s' = true -> sgood s = true /\ width o' = 0).
Proof.
  intros [W C] H53 E. cbv zeta. pose proof (bval_bound n _ W) as Bv. destruct x as [sg m]. cbn [mag sgn] in *. unfold ss_insert_signed in E. cbn [sgn mag] in E.
  destruct sg; cbn [sval sgn mag].
  - injection E as <-. destruct (put_fmt s [48]) as ((B1 & B2 & B3 & B4 & B5) & L & Z). unfold later, w0 in *.
    change (0 =? 0) with true. rewrite orb_true_r, andb_true_r. change (2 ^ 32 <=? Z.abs 0) with false. rewrite andb_false_r. conjs; auto.
  - assert (V : bval m <> 0) by (apply C; discriminate). destruct (C131_format cfg grp n s m s' W H53 E) as (A1 & A2 & A3 & A4 & A5 & A6).
    change (sval (mk_aesi SPos m)) with (bval m). rewrite Z.abs_eq by lia. replace (bval m =? 0) with false by (symmetry; apply Z.eqb_neq; auto). rewrite orb_false_r. conjs; auto; tauto.
  - assert (V : bval m <> 0) by (apply C; discriminate). destruct (C131_format cfg grp n _ m s' W H53 E) as (A1 & A2 & A3 & A4 & A5 & A6).
    destruct (put_fmt s [45]) as ((B1 & B2 & B3 & B4 & B5) & L & Z). unfold later, w0 in *.
    change (sval (mk_aesi SNeg m)) with (- bval m). rewrite Z.abs_neq, Z.opp_involutive by lia. replace (- bval m =? 0) with false by (symmetry; apply Z.eqb_neq; lia). rewrite orb_false_r.
    replace (os_base (sos (ss_put s [45]))) with (os_base (sos s)) in * by (unfold os_base; rewrite B1; reflexivity).
    conjs; try congruence; [rewrite A4, B4; reflexivity|rewrite A5, B5; reflexivity|]. intros G. destruct (A6 G). auto.
Qed.

(** [os << x1 << x2 << ...]: only std::showbase and, in hexadecimal, the fill character and the adjustment can change, and
    exactly when the numbers inserted are such. *)
Theorem C131_format_sequence : forall cfg grp n xs s s', Forall (swf n) xs -> 32 * n < 2 ^ 53 -> ss_insert_all cfg grp n s xs = Ok s' ->
  let o := sos s in let o' := sos s' in
  let big := (os_base o =? 16) && existsb (fun x => 2 ^ 32 <=? Z.abs (sval x)) xs in
  basef o' = basef o /\ uppercase o' = uppercase o /\
  showbase o' = (showbase o && ((os_base o =? 10) || forallb (fun x => sval x =? 0) xs)) /\
  fillc o' = (if big then 48 else fillc o) /\ adj o' = (if big then AdjRight else adj o) /\
  (sgood s' = true -> sgood s = true /\ (xs <> [] \/ width o = 0 -> width o' = 0)).
Proof.
  intros cfg grp n. induction xs as [|x xs IH]; intros s s' F H53 E; cbv zeta; cbn [ss_insert_all] in E; cbn [existsb forallb].
  - injection E as <-. rewrite orb_true_r, andb_true_r, andb_false_r. conjs; auto. intros G. split; [auto|]. intros [N|W]; [congruence|auto].
  - inversion F as [|? ? Hx Fx]; subst. destruct (ss_insert_signed cfg grp n s x) as [s1|] eqn:E1; cbn [bind] in E; [|discriminate].
    destruct (signed_format cfg grp n s x s1 Hx H53 E1) as (A1 & A2 & A3 & A4 & A5 & A6).
    destruct (IH s1 s' Fx H53 E) as (B1 & B2 & B3 & B4 & B5 & B6). clear IH E.
    assert (OB : os_base (sos s1) = os_base (sos s)) by (unfold os_base; rewrite A1; reflexivity). rewrite OB in *.
    conjs; try congruence.
    + rewrite B3, A3. destruct (showbase (sos s)), (os_base (sos s) =? 10), (sval x =? 0); reflexivity.
    + rewrite B4, A4. destruct (os_base (sos s) =? 16), (2 ^ 32 <=? Z.abs (sval x)); cbn [andb orb]; auto. destruct (existsb _ xs); auto.
    + rewrite B5, A5. destruct (os_base (sos s) =? 16), (2 ^ 32 <=? Z.abs (sval x)); cbn [andb orb]; auto. destruct (existsb _ xs); auto.
    + intros G. destruct (B6 G) as [G1 W1]. destruct (A6 G1) as [G2 W2]. auto.
Qed.
Print Assumptions C131_format_sequence.

(** The hypotheses are met: 0, then 5, then -2^40 on a stream with std::hex, std::showbase, a width of 6 and left
    adjustment; the second number clears showbase, the third changes fill and adjustment. *)
Example C131_nonvacuous :
  let s := mk_ss (mk_os [] BHex true false 46 6 AdjLeft) None true in
  let z := mk_aesi SZero [0; 0] in let p := mk_aesi SPos [5; 0] in let q := mk_aesi SNeg [0; 256] in
  Forall (swf 2) [z; p; q] /\
  ss_insert_all cfg0 (fun t => t) 2 s [z] = Ok (mk_ss (mk_os [48; 46; 46; 46; 46; 46] BHex true false 46 0 AdjLeft) None true) /\
  ss_insert_all cfg0 (fun t => t) 2 s [z; p] = Ok (mk_ss (mk_os [48; 46; 46; 46; 46; 46; 48; 120; 53] BHex false false 46 0 AdjLeft) None true) /\
  ss_insert_all cfg0 (fun t => t) 2 s [z; p; q] =
    Ok (mk_ss (mk_os [48; 46; 46; 46; 46; 46; 48; 120; 53; 45; 49; 48; 48; 48; 48; 48; 48; 48; 48; 48; 48] BHex false false 48 0 AdjRight) None true).
Proof.
  cbv zeta. split.
  - repeat constructor; cbn; try congruence; try lia; intros; discriminate.
  - conjs; vm_compute; reflexivity.
Qed.
