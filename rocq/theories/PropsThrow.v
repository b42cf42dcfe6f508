(** * PropsThrow: C132 - operator<< on a stream that throws. *)
From Verif Require Import XStreamModel StreamFacts PropsText PropsStream PropsFmt.
Open Scope Z_scope.

Ltac conjs := repeat match goal with |- _ /\ _ => split end.

(** The throwing run [x] against the run without exceptions, which ends in [u]. *)
Definition against (u : sstream) (x : step sstream sstream) : Prop :=
  match x with Next s => s = u /\ sgood u = true | Exit e => sgood u = false /\ out (sos u) = out (sos e) end.
(** A run without exceptions that starts in a failed stream: nothing reaches the sink any more. *)
Definition dead (s u : sstream) : Prop := sgood s = false -> sgood u = false /\ out (sos u) = out (sos s).
Lemma dead_refl s : dead s s. Proof. unfold dead; auto. Qed.
Lemma dead_trans s t u : dead s t -> dead t u -> dead s u.
Proof. unfold dead. intros H1 H2 G. destruct (H1 G) as [G1 O1]. destruct (H2 G1) as [G2 O2]. split; congruence. Qed.
Lemma dead_put s t : dead s (ss_put s t).
Proof. unfold dead, ss_put. intros G. rewrite G. auto. Qed.
Lemma dead_on f s : out (f (sos s)) = out (sos s) -> dead s (ss_on f s).
Proof. unfold dead, ss_on. cbn. auto. Qed.
Lemma dead_insert cfg grp n s a u : ss_insert cfg grp n s a = Ok u -> dead s u.
Proof.
  unfold ss_insert. set (base := match basef (sos s) with BHex => 16 | BOct => 8 | _ => 10 end). cbv zeta.
  set (s1 := if showbase (sos s) && negb (base =? 10) then _ else s).
  assert (D : dead s s1) by (subst s1; destruct (showbase (sos s) && negb (base =? 10)); [eapply dead_trans; [apply dead_put|apply dead_on; reflexivity]|apply dead_refl]).
  clearbody s1. intros E. apply (dead_trans _ _ _ D). clear D.
  destruct (isZero n a) as [z|]; cbn [bind] in E; [|discriminate]. destruct z; [injection E as <-; apply dead_put|]. destruct (base =? 16).
  - destruct (top_block n a) as [it|]; cbn [bind] in E; [|discriminate]. destruct (aget a it) as [x|]; cbn [bind] in E; [|discriminate].
    eapply dead_trans; [apply (dead_put s1 (grp (fmt_x (uppercase (sos s1)) x)))|]. revert E. unfold forD, ss_put_int. apply (loopD_keep (dead (ss_put s1 (grp (fmt_x (uppercase (sos s1)) x))))); [|apply dead_refl].
    intros i t t' D F. destruct (aget a i) as [y|]; cbn [bind] in F; [|discriminate]. injection F as <-. eapply dead_trans; [exact D|].
    eapply dead_trans; [|apply dead_put]. apply dead_on. reflexivity.
  - destruct (digit_loop _ _ _ _ _ _ _) as [ [b f]|]; cbn [bind] in E; [|discriminate]. revert E. unfold forD. apply (loopD_keep (dead s1)); [|apply dead_refl].
    intros i t t' D F. destruct (aget b i) as [y|]; cbn [bind] in F; [|discriminate]. injection F as <-. eapply dead_trans; [exact D|apply dead_put].
Qed.
Lemma dead_signed cfg grp n s a u : ss_insert_signed cfg grp n s a = Ok u -> dead s u.
Proof.
  unfold ss_insert_signed. destruct (sgn a); intros E; [injection E as <-; apply dead_put|eapply dead_insert; eauto|].
  eapply dead_trans; [apply dead_put|eapply dead_insert; eauto].
Qed.
Lemma dead_all cfg grp n : forall xs s u, ss_insert_all cfg grp n s xs = Ok u -> dead s u.
Proof.
  induction xs as [|x xs IH]; intros s u E; cbn [ss_insert_all] in E; [injection E as <-; apply dead_refl|].
  destruct (ss_insert_signed cfg grp n s x) as [s1|] eqn:E1; cbn [bind] in E; [|discriminate]. eapply dead_trans; [eapply dead_signed; eauto|eauto].
Qed.

Lemma x_put_against s t : against (ss_put s t) (x_put s t).
Proof. unfold x_put. cbv zeta. destruct (sgood (ss_put s t)) eqn:G; cbn [against]; auto. Qed.

Lemma loop_against (f : Z -> sstream -> outcome sstream) (g : Z -> sstream -> outcome (step sstream sstream)) :
  (forall i s u, f i s = Ok u -> dead s u) -> (forall i s u, f i s = Ok u -> sgood s = true -> exists x, g i s = Ok x /\ against u x) ->
  forall c i s u, sgood s = true -> loopD c i f s = Ok u -> exists x, loopDx c i g s = Ok x /\ against u x.
Proof.
  intros FD FG. induction c as [|c IH]; intros i s u G E; cbn [loopD loopDx] in *.
  - injection E as <-. exists (Next s). cbn. auto.
  - destruct (f (i - 1) s) as [s1|] eqn:F; cbn [bind] in E; [|discriminate]. destruct (FG _ _ _ F G) as (x & -> & A). cbn [bind]. destruct x as [s2|e]; cbn [against] in A.
    + destruct A as [-> G1]. apply IH; auto.
    + exists (Exit e). split; [reflexivity|]. cbn [against]. destruct A as [G1 O1].
      assert (D : dead s1 u) by (revert E; apply (loopD_keep (dead s1)); [|apply dead_refl]; intros j t t' D F'; eapply dead_trans; eauto).
      destruct (D G1). split; congruence.
Qed.

(** With std::showbase and base 8 or 16: the prefix goes first, the rest is as without std::showbase. *)
Definition shows (s : sstream) : bool := showbase (sos s) && negb (os_base (sos s) =? 10).
Definition pre (s : sstream) : list Z := if os_base (sos s) =? 8 then [48; 111] else [48; 120].
Lemma put_flags s t : basef (sos (ss_put s t)) = basef (sos s) /\ showbase (sos (ss_put s t)) = showbase (sos s).
Proof. destruct (put_fmt s t) as ((A & _ & B & _) & _). auto. Qed.
Lemma ss_prefix cfg grp n s a : shows s = true -> ss_insert cfg grp n s a = ss_insert cfg grp n (ss_on os_noshowbase (ss_put s (pre s))) a.
Proof.
  intros C. unfold ss_insert at 1. fold (os_base (sos s)). fold (shows s). rewrite C. fold (pre s). unfold ss_insert.
  set (s1 := ss_on os_noshowbase (ss_put s (pre s))). assert (B : basef (sos s1) = basef (sos s)) by apply put_flags.
  assert (S : showbase (sos s1) = false) by reflexivity. rewrite B, S. cbn [andb]. fold (os_base (sos s)). reflexivity.
Qed.
Lemma x_prefix cfg grp n s a : shows s = true ->
  x_insert cfg grp n s a = match x_put s (pre s) with Exit e => Ok (Exit e) | Next s' => x_insert cfg grp n (ss_on os_noshowbase s') a end.
Proof.
  intros C. unfold x_insert at 1. fold (os_base (sos s)). fold (shows s). rewrite C. fold (pre s). cbv zeta.
  assert (X : x_put s (pre s) = if sgood (ss_put s (pre s)) then Next (ss_put s (pre s)) else Exit (ss_put s (pre s))) by reflexivity.
  rewrite X. clear X. destruct (sgood (ss_put s (pre s))); [|reflexivity]. unfold x_insert.
  set (s1 := ss_on os_noshowbase (ss_put s (pre s))). assert (B : basef (sos s1) = basef (sos s)) by apply put_flags.
  assert (S : showbase (sos s1) = false) by reflexivity. rewrite B, S. cbn [andb]. fold (os_base (sos s)). reflexivity.
Qed.

Lemma insert_against0 cfg grp n s a u : shows s = false -> sgood s = true -> ss_insert cfg grp n s a = Ok u ->
  exists x, x_insert cfg grp n s a = Ok x /\ against u x.
Proof.
  intros C G E. unfold ss_insert in E. unfold x_insert. fold (os_base (sos s)) in *. fold (shows s) in *. rewrite C in *. cbv zeta in *.
  destruct (isZero n a) as [z|]; cbn [bind] in E |- *; [|discriminate]. destruct z.
  { injection E as <-. eexists. split; [reflexivity|apply x_put_against]. }
  destruct (os_base (sos s) =? 16).
  - destruct (top_block n a) as [it|]; cbn [bind] in E |- *; [|discriminate]. destruct (aget a it) as [x|]; cbn [bind] in E |- *; [|discriminate]. unfold ss_put_int in E.
    set (t := grp (fmt_x (uppercase (sos s)) x)) in *.
    assert (FD : forall i w v, (y <- aget a i ;; Ok (ss_put (ss_on (fun os => os_right (os_width (os_fill os 48) 8)) w) (grp (fmt_x (uppercase (sos (ss_on (fun os => os_right (os_width (os_fill os 48) 8)) w))) y)))) = Ok v -> dead w v).
    { intros i w v F. destruct (aget a i) as [y|]; cbn [bind] in F; [|discriminate]. injection F as <-. eapply dead_trans; [|apply dead_put]. apply dead_on. reflexivity. }
    pose proof (x_put_against s t) as A. destruct (x_put s t) as [s1|e]; cbn [against] in A.
    + destruct A as [-> G1]. unfold forD in E. unfold forDx. eapply (loop_against _ _ FD); [|exact G1|exact E].
      intros i w v F Gw. destruct (aget a i) as [y|]; cbn [bind] in F |- *; [|discriminate]. injection F as <-. eexists. split; [reflexivity|apply x_put_against].
    + exists (Exit e). split; [reflexivity|]. cbn [against]. destruct A as [G1 O1].
      assert (D : dead (ss_put s t) u). { revert E. unfold forD. apply (loopD_keep (dead (ss_put s t))); [|apply dead_refl]. intros i w v D F. eapply dead_trans; [exact D|eapply FD; exact F]. }
      destruct (D G1). split; congruence.
  - destruct (digit_loop _ _ _ _ _ _ _) as [ [b f]|]; cbn [bind] in E |- *; [|discriminate]. unfold forD in E. unfold forDx.
    eapply (loop_against (fun i s => c <- aget b i ;; Ok (ss_put s [c]))); [| |exact G|exact E].
    + intros i w v F. destruct (aget b i) as [y|]; cbn [bind] in F; [|discriminate]. injection F as <-. apply dead_put.
    + intros i w v F Gw. destruct (aget b i) as [y|]; cbn [bind] in F |- *; [|discriminate]. injection F as <-. eexists. split; [reflexivity|apply x_put_against].
Qed.
Lemma insert_against cfg grp n s a u : sgood s = true -> ss_insert cfg grp n s a = Ok u -> exists x, x_insert cfg grp n s a = Ok x /\ against u x.
Proof.
  intros G E. destruct (shows s) eqn:C; [|apply insert_against0; auto]. rewrite ss_prefix in E by auto. rewrite x_prefix by auto.
  pose proof (x_put_against s (pre s)) as A. destruct (x_put s (pre s)) as [s1|e]; cbn [against] in A.
  - destruct A as [-> G1]. apply insert_against0; auto.
  - exists (Exit e). split; [reflexivity|]. cbn [against]. destruct A as [G1 O1]. apply dead_insert in E. destruct (E G1) as [G2 O2]. split; [auto|]. rewrite O2. exact O1.
Qed.
Lemma signed_against cfg grp n s a u : sgood s = true -> ss_insert_signed cfg grp n s a = Ok u -> exists x, x_insert_signed cfg grp n s a = Ok x /\ against u x.
Proof.
  intros G E. unfold ss_insert_signed in E. unfold x_insert_signed. destruct (sgn a).
  - injection E as <-. eexists. split; [reflexivity|apply x_put_against].
  - apply insert_against; auto.
  - pose proof (x_put_against s [45]) as A. destruct (x_put s [45]) as [s1|e]; cbn [against] in A.
    + destruct A as [-> G1]. apply insert_against; auto.
    + exists (Exit e). split; [reflexivity|]. cbn [against]. destruct A as [G1 O1]. apply dead_insert in E. destruct (E G1) as [G2 O2]. split; [auto|congruence].
Qed.

(** ** C132.  Any sequence of insertions, any sink, locale, width and flags: with exceptions enabled the program sees an
    exception exactly when without them the stream would end up failed, and the sink holds the same text in both cases;
    without a failure the two streams end in the same state. *)
Theorem C132_throwing : forall cfg grp n xs s u, sgood s = true -> ss_insert_all cfg grp n s xs = Ok u ->
  exists x, x_insert_all cfg grp n s xs = Ok x /\
    match x with Next s' => sgood u = true /\ s' = u | Exit e => sgood u = false /\ out (sos e) = out (sos u) end.
Proof.
  intros cfg grp n xs s u G E. assert (H : exists x, x_insert_all cfg grp n s xs = Ok x /\ against u x).
  { revert s u G E. induction xs as [|x xs IH]; intros s u G E; cbn [ss_insert_all x_insert_all] in *.
    - injection E as <-. eexists. split; [reflexivity|]. cbn. auto.
    - destruct (ss_insert_signed cfg grp n s x) as [s1|] eqn:E1; cbn [bind] in E; [|discriminate].
      destruct (signed_against _ _ _ _ _ _ G E1) as (y & -> & A). cbn [bind]. destruct y as [s2|e]; cbn [against] in A.
      + destruct A as [-> G1]. auto.
      + exists (Exit e). split; [reflexivity|]. destruct A as [G1 O1]. apply dead_all in E. destruct (E G1). cbn [against]. split; congruence. }
  destruct H as (x & -> & A). exists x. split; [reflexivity|]. destruct x; cbn [against] in A; intuition congruence.
Qed.
Print Assumptions C132_throwing.

(** The sink of a stream that throws: a prefix of what a stream with enough room gets; an exception exactly when the text
    is longer than the room. *)
Theorem C132_prefix : forall cfg grp n os xs r u, 0 <= r -> ss_insert_all cfg grp n (mk_ss os None true) xs = Ok u ->
  exists t x, out (sos u) = out os ++ t /\ x_insert_all cfg grp n (mk_ss os (Some r) true) xs = Ok x /\
    match x with Next s' => len t <= r /\ out (sos s') = out os ++ t
               | Exit e => r < len t /\ out (sos e) = out os ++ firstn (Z.to_nat r) t end.
Proof.
  intros cfg grp n os xs r u Hr E. destruct (C120_prefix cfg grp n os xs r u Hr E) as (t & b & O & Eb & Ob & Gb).
  destruct (C132_throwing cfg grp n xs (mk_ss os (Some r) true) b eq_refl Eb) as (x & Ex & A). exists t, x. conjs; auto. destruct x as [s'|e].
  - destruct A as [G ->]. apply Gb in G. split; [auto|]. rewrite Ob. rewrite firstn_all2 by (unfold len in G; lia). reflexivity.
  - destruct A as [G O']. split; [|congruence]. destruct (Z_lt_ge_dec r (len t)); [auto|]. assert (sgood b = true) by (apply Gb; lia). congruence.
Qed.
Print Assumptions C132_prefix.

Lemma room_good s t : sgood s = true -> sgood (ss_put s t) = match sroom s with None => true | Some r => len (field (sos s) t) <=? r end.
Proof. intros G. unfold ss_put. rewrite G. unfold ss_write. destruct (sroom s); reflexivity. Qed.
Lemma loopDx_exit {S R} (P : S -> Prop) (Q : R -> Prop) (f : Z -> S -> outcome (step S R)) :
  (forall i s s', P s -> f i s = Ok (Next s') -> P s') -> (forall i s r, P s -> f i s = Ok (Exit r) -> Q r) ->
  forall c i s r, P s -> loopDx c i f s = Ok (Exit r) -> Q r.
Proof.
  intros FN FE. induction c as [|c IH]; intros i s r Ps E; cbn [loopDx] in E; [discriminate|].
  destruct (f (i - 1) s) as [x|] eqn:F; cbn [bind] in E; [|discriminate]. destruct x as [s1|q]; [eauto|]. injection E as <-. eauto.
Qed.
Lemma x_put_show s t x : x_put s t = x -> showbase (sos (match x with Next u => u | Exit u => u end)) = showbase (sos s).
Proof. intros <-. unfold x_put. cbv zeta. destruct (sgood (ss_put s t)); apply put_flags. Qed.
Lemma x_exit_show cfg grp n s a e : shows s = false -> x_insert cfg grp n s a = Ok (Exit e) -> showbase (sos e) = showbase (sos s).
Proof.
  intros C E. unfold x_insert in E. fold (os_base (sos s)) in E. fold (shows s) in E. rewrite C in E. cbv zeta in E.
  destruct (isZero n a) as [z|]; cbn [bind] in E; [|discriminate]. destruct z.
  { injection E as E. exact (x_put_show _ _ _ E). }
  destruct (os_base (sos s) =? 16).
  - destruct (top_block n a) as [it|]; cbn [bind] in E; [|discriminate]. destruct (aget a it) as [x|]; cbn [bind] in E; [|discriminate].
    destruct (x_put s (grp (fmt_x (uppercase (sos s)) x))) as [s1|e1] eqn:X; pose proof (x_put_show _ _ _ X) as S1; cbn in S1; [|injection E as <-; auto].
    unfold forDx in E. revert E. apply (loopDx_exit (fun w => showbase (sos w) = showbase (sos s)) (fun w => showbase (sos w) = showbase (sos s))); [| |exact S1];
      intros i w v Sw F; (destruct (aget a i) as [y|]; cbn [bind] in F; [|discriminate]); injection F as F; apply x_put_show in F; rewrite F; exact Sw.
  - destruct (digit_loop _ _ _ _ _ _ _) as [ [b f]|]; cbn [bind] in E; [|discriminate].
    unfold forDx in E. revert E. apply (loopDx_exit (fun w => showbase (sos w) = showbase (sos s)) (fun w => showbase (sos w) = showbase (sos s))); [| |reflexivity];
      intros i w v Sw F; (destruct (aget b i) as [y|]; cbn [bind] in F; [|discriminate]); injection F as F; apply x_put_show in F; rewrite F; exact Sw.
Qed.
(** The format the handler finds: std::showbase is still set if the exception came from the base prefix, and is cleared
    if it came later (octal and hexadecimal); in decimal it is untouched. *)
Theorem C132_showbase : forall cfg grp n s a e, sgood s = true -> x_insert cfg grp n s a = Ok (Exit e) ->
  (os_base (sos s) = 10 -> showbase (sos e) = showbase (sos s)) /\
  (os_base (sos s) <> 10 -> showbase (sos s) = true ->
     (showbase (sos e) = true <-> exists r, sroom s = Some r /\ r < len (field (sos s) (os_shown (sos s))))).
Proof.
  intros cfg grp n s a e G E. split.
  - intros B. apply (x_exit_show cfg grp n s a); auto. unfold shows. rewrite B. apply andb_false_r.
  - intros B S. assert (C : shows s = true) by (unfold shows; rewrite S; apply negb_true_iff, Z.eqb_neq; auto). rewrite x_prefix in E by auto.
    assert (P : os_shown (sos s) = pre s). { unfold os_shown, shown, pre. rewrite S. unfold os_base in *. destruct (basef (sos s)); cbn in *; congruence. }
    rewrite P. unfold x_put in E. cbv zeta in E. rewrite room_good in E by auto. destruct (sroom s) as [r|] eqn:R.
    + destruct (Z.leb_spec (len (field (sos s) (pre s))) r) as [L|L].
      * apply x_exit_show in E; [|reflexivity]. cbn in E. rewrite E. split; [discriminate|]. intros (q & Q & H). injection Q as <-. lia.
      * injection E as <-. destruct (put_flags s (pre s)) as [_ ->]. rewrite S. split; eauto.
    + apply x_exit_show in E; [|reflexivity]. cbn in E. rewrite E. split; [discriminate|]. intros (q & Q & _). discriminate.
Qed.
Print Assumptions C132_showbase.

(** The hypotheses are met: 0x1000000005 (37 bits) and -3 on a sink with room for 1, 5 and 20 characters. *)
Example C132_nonvacuous :
  let s r := mk_ss (mk_os [62] BHex true false 32 0 AdjNone) (Some r) true in
  let p := mk_aesi SPos [5; 16] in let q := mk_aesi SNeg [3; 0] in
  x_insert_all cfg0 (fun t => t) 2 (s 1) [p; q] = Ok (Exit (mk_ss (mk_os [62; 48] BHex true false 32 0 AdjNone) (Some 0) false)) /\
  x_insert_all cfg0 (fun t => t) 2 (s 5) [p; q] = Ok (Exit (mk_ss (mk_os [62; 48; 120; 49; 48; 48] BHex false false 48 0 AdjRight) (Some 0) false)) /\
  x_insert_all cfg0 (fun t => t) 2 (s 20) [p; q] =
    Ok (Next (mk_ss (mk_os [62; 48; 120; 49; 48; 48; 48; 48; 48; 48; 48; 48; 53; 45; 51] BHex false false 48 0 AdjRight) (Some 6) true)).
Proof. cbv zeta. conjs; vm_compute; reflexivity. Qed.
