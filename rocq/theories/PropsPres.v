(** * PropsPres: C138, the programs of the README as the integration tests run them, from literals to the checks.

    Stated about [PresModel.v] with [TextSpec.v]'s [string_value] (what a literal denotes) and [numeral]. *)
From Coq Require Import String Ascii.
From Verif Require Import PresModel MixFacts TextMore ProgFacts ProgTotal Lib AeuArith AeuDiv PropsText PropsUse PropsExact.
Open Scope Z_scope.

(** ** regular expressions of literal characters, and with a leading word *)
Lemma starts_self : forall p s, starts p (p ++ s) = true.
Proof. induction p as [|x p IH]; intros s; [reflexivity|]. cbn. rewrite Z.eqb_refl. apply IH. Qed.
Lemma starts_iff : forall p s, starts p s = true <-> exists t, s = p ++ t.
Proof.
  induction p as [|x p IH]; intros s; cbn.
  - split; [intros _; exists s; reflexivity|reflexivity].
  - destruct s as [|y s].
    + split; [discriminate|intros [t E]; discriminate].
    + rewrite andb_true_iff, Z.eqb_eq, IH. split; [intros [-> [t ->] ]; exists t; reflexivity|intros [t E]; injection E as -> ->; split; eauto].
Qed.
Lemma search_unfold p s : search p s = starts p s || match s with [] => false | _ :: s => search p s end.
Proof. destruct s; reflexivity. Qed.
Theorem C138_search : forall p s, search p s = true <-> exists a b, s = a ++ p ++ b.
Proof.
  intros p s. induction s as [|c s IH]; rewrite search_unfold, orb_true_iff, starts_iff.
  - split; [intros [ [t E]|H]; [exists [], t; exact E|discriminate] |].
    intros (a & b & E). destruct a; [left; exists b; exact E|discriminate].
  - rewrite IH. split.
    + intros [ [t E]|(a & b & E)]; [exists [], t; exact E|exists (c :: a), b; rewrite E; reflexivity].
    + intros (a & b & E). destruct a as [|x a]; [left; exists b; exact E|]. injection E as -> E. right. exists a, b. exact E.
Qed.
Print Assumptions C138_search.
Lemma word_then_iff p s : word_then p s = true <-> exists w b, s = w ++ p ++ b /\ w <> [] /\ forallb word_char w = true.
Proof.
  induction s as [|c s IH]; cbn [word_then].
  - split; [discriminate|]. intros (w & b & E & N & _). destruct w; [congruence|discriminate].
  - rewrite andb_true_iff, orb_true_iff, starts_iff, IH. split.
    + intros [C [ [t ->]|(w & b & -> & N & F)] ].
      * exists [c], t. conjs; [reflexivity|discriminate|]. cbn. rewrite C. reflexivity.
      * exists (c :: w), b. conjs; [reflexivity|discriminate|]. cbn. rewrite C. exact F.
    + intros (w & b & E & N & F). destruct w as [|x w]; [congruence|]. injection E as -> E. cbn in F. apply andb_prop in F. destruct F as [F1 F2].
      split; [exact F1|]. destruct w as [|y w]; [left; exists b; exact E|]. right. exists (y :: w), b. conjs; auto. discriminate.
Qed.
(** A word character: a digit, a letter or an underscore. *)
Theorem C138_word : forall c, word_char c = true <-> 48 <= c <= 57 \/ 65 <= c <= 90 \/ c = 95 \/ 97 <= c <= 122.
Proof. intros c. unfold word_char. lia. Qed.
Print Assumptions C138_word.
Theorem C138_search_word : forall p s, search_word p s = true <->
  exists a w b, s = a ++ w ++ p ++ b /\ w <> [] /\ Forall (fun c => 48 <= c <= 57 \/ 65 <= c <= 90 \/ c = 95 \/ 97 <= c <= 122) w.
Proof.
  assert (FW : forall w, Forall (fun c => 48 <= c <= 57 \/ 65 <= c <= 90 \/ c = 95 \/ 97 <= c <= 122) w <-> forallb word_char w = true).
  { intros w. rewrite forallb_forall, Forall_forall. split; intros H x I; apply C138_word, H, I. }
  intros p s. enough (G : search_word p s = true <-> exists a w b, s = a ++ w ++ p ++ b /\ w <> [] /\ forallb word_char w = true).
  { rewrite G. split; intros (a & w & b & E & N & F); exists a, w, b; (split; [exact E|split; [exact N|apply FW, F] ]). }
  clear FW. induction s as [|c s IH].
  - cbn. split; [discriminate|]. intros (a & w & b & E & N & _). destruct a; [destruct w; [congruence|discriminate]|discriminate].
  - change (search_word p (c :: s)) with (word_then p (c :: s) || search_word p s). rewrite orb_true_iff, word_then_iff, IH. split.
    + intros [(w & b & E & N & F)|(a & w & b & E & N & F)]; [exists [], w, b; auto|exists (c :: a), w, b; rewrite E; auto].
    + intros (a & w & b & E & N & F). destruct a as [|x a]; [left; exists w, b; auto|]. injection E as -> E. right. exists a, w, b. auto.
Qed.
Print Assumptions C138_search_word.

(** A decimal numeral is a word. *)
Lemma digit_word d : 0 <= d < 10 -> word_char (digit_char false d) = true.
Proof.
  intros H. assert (C : d = 0 \/ d = 1 \/ d = 2 \/ d = 3 \/ d = 4 \/ d = 5 \/ d = 6 \/ d = 7 \/ d = 8 \/ d = 9) by lia.
  repeat (destruct C as [-> |C]; [reflexivity|]). subst d. reflexivity.
Qed.
Lemma numeral_word v s : numeral false 10 v s -> s <> [] /\ forallb word_char s = true.
Proof.
  intros (ds & -> & F & V & L). split.
  - destruct L as [-> |(d & t & -> & _)]; discriminate.
  - apply forallb_forall. intros c Hin. apply in_map_iff in Hin. destruct Hin as (d & <- & Hd). rewrite Forall_forall in F. apply digit_word, F, Hd.
Qed.

(** One line of decimal output *)
Lemma line cfg n l a s : wf n a -> 2 <= n -> 32 * n < 2 ^ 53 -> numeral false 10 (bval a) s ->
  stream_insert cfg n (mk_os l BDec false false 32 0 AdjNone) a = Ok (mk_os (l ++ s) BDec false false 32 0 AdjNone).
Proof.
  intros W Hn H53 HS. set (os := mk_os l BDec false false 32 0 AdjNone). pose proof (bval_bound n _ W) as Bv.
  destruct (Z.eq_dec (bval a) 0) as [V|V].
  { rewrite stream_zero by auto. cbn. f_equal. f_equal. f_equal. apply (numeral_unique false 10 (bval a)); auto; [lia|]. exists [0]. rewrite V. conjs; auto. constructor; [lia|auto]. }
  rewrite (stream_digits cfg n os a s); auto; [cbn; discriminate|]. change (os_base os) with 10.
  destruct (Z.eq_dec n 2) as [-> |N2].
  + eapply Z.lt_trans; [apply Bv|]. vm_compute. reflexivity.
  + pose proof (d295_bs n ltac:(lia) H53) as D. unfold modulus in Bv.
    assert (H0 : 2 ^ (32 * n) <= 2 ^ (3 * stream_buffer_size n)) by (apply Z.pow_le_mono_r; lia). rewrite (Z.pow_mul_r 2 3) in H0 by lia. change (2 ^ 3) with 8 in H0.
    assert (8 ^ stream_buffer_size n <= 10 ^ stream_buffer_size n) by (apply Z.pow_le_mono_l; lia). lia.
Qed.

(** ** C138: the two programs print exactly the exact values, for every choice of literals and widths. *)
Theorem C138_precision_cast_program : forall cfg alnum nb np nm na nc base power modulo m128 m192 r x,
  1 <= nb <= nm -> 1 <= np <= nm -> 2 <= nm -> 1 <= na <= nc -> 2 <= nc -> 32 * nm < 2 ^ 53 -> 32 * nc < 2 ^ 53 ->
  alnum_ok alnum -> alnum 0 = false ->
  Forall (fun c => 0 <= c) base -> Forall (fun c => 0 <= c) power -> Forall (fun c => 0 <= c) modulo ->
  Forall (fun c => 0 <= c) m128 -> Forall (fun c => 0 <= c) m192 ->
  let B := string_value alnum base mod 2 ^ (32 * nb) in
  let P := string_value alnum power mod 2 ^ (32 * np) in
  let M := string_value alnum modulo mod 2 ^ (32 * nm) in
  let X := string_value alnum m128 mod 2 ^ (32 * na) in
  let Y := string_value alnum m192 mod 2 ^ (32 * nc) in
  1 < M -> (M - 1) * (M - 1) < 2 ^ (32 * nm) ->
  numeral false 10 (B ^ P mod M) r -> numeral false 10 ((X * Y) mod 2 ^ (32 * nc)) x ->
  pres_cast cfg alnum nb np nm na nc base power modulo m128 m192 = Ok (r ++ [10] ++ x ++ [10]).
Proof.
  intros cfg alnum nb np nm na nc base power modulo m128 m192 r x Hb Hp Hm Ha Hc F1 F2 AO A0 C1 C2 C3 C4 C5 B P M X Y M1 MM NR NX.
  unfold pres_cast, stringstream.
  destruct (C32_literal_construction nb false alnum base ltac:(lia) AO A0 C1) as (b & -> & Wb & Vb). cbn [bind].
  destruct (C32_literal_construction np false alnum power ltac:(lia) AO A0 C2) as (p & -> & Wp & Vp). cbn [bind].
  destruct (C32_literal_construction nm false alnum modulo ltac:(lia) AO A0 C3) as (m & -> & Wm & Vm). cbn [bind].
  change (bval b = B) in Vb. change (bval p = P) in Vp. change (bval m = M) in Vm.
  destruct (C86_powm_doubled_precision cfg nb np nm b p m) as (q & -> & Wq & Vq); auto; try lia; [rewrite Vm; exact MM|].
  cbn [bind]. rewrite Vb, Vp, Vm in Vq.
  rewrite (line cfg nm [] q r Wq ltac:(lia) F1) by (rewrite Vq; exact NR). cbn [bind].
  destruct (C32_literal_construction na false alnum m128 ltac:(lia) AO A0 C4) as (u & -> & Wu & Vu). cbn [bind].
  destruct (C32_literal_construction nc false alnum m192 ltac:(lia) AO A0 C5) as (v & -> & Wv & Vv). cbn [bind].
  change (bval u = X) in Vu. change (bval v = Y) in Vv.
  destruct (precisionCast_spec cfg na nc u Wu ltac:(lia)) as (w & -> & Ww & Vw). cbn [bind].
  unfold op_mul. destruct (mul_assign_correct nc w v Ww Wv) as (z & -> & Wz & Vz). cbn [bind].
  rewrite Vw, Z.mul_mod_idemp_l, Vu, Vv in Vz by (pose proof (modulus_pos nc); lia).
  unfold os_endl at 1. cbn [out basef showbase uppercase fillc width adj].
  rewrite (line cfg nc _ z x Wz ltac:(lia) F2) by (rewrite Vz; exact NX). cbn [bind]. unfold os_endl. cbn [out].
  f_equal. rewrite <- !app_assoc. reflexivity.
Qed.
Print Assumptions C138_precision_cast_program.
Theorem C138_precision_cast2_program : forall cfg alnum n m base power modulo r,
  2 <= n -> 2 * n <= m -> 32 * m < 2 ^ 53 -> alnum_ok alnum -> alnum 0 = false ->
  Forall (fun c => 0 <= c) base -> Forall (fun c => 0 <= c) power -> Forall (fun c => 0 <= c) modulo ->
  let B := string_value alnum base mod 2 ^ (32 * n) in
  let P := string_value alnum power mod 2 ^ (32 * n) in
  let M := string_value alnum modulo mod 2 ^ (32 * n) in
  1 < M -> B <> 0 -> numeral false 10 (B ^ P mod M) r ->
  exists w v, pres_cast2 cfg alnum n m base power modulo = Ok (w ++ [10] ++ r ++ [10]) /\ numeral false 10 v w /\ 0 <= v < M.
Proof.
  intros cfg alnum n m base power modulo r Hn Hm F1 AO A0 C1 C2 C3 B P M M1 B0 NR.
  unfold pres_cast2, stringstream.
  destruct (C32_literal_construction n false alnum base ltac:(lia) AO A0 C1) as (b & -> & Wb & Vb). cbn [bind].
  destruct (C32_literal_construction n false alnum power ltac:(lia) AO A0 C2) as (p & -> & Wp & Vp). cbn [bind].
  destruct (C32_literal_construction n false alnum modulo ltac:(lia) AO A0 C3) as (d & -> & Wd & Vd). cbn [bind].
  change (bval b = B) in Vb. change (bval p = P) in Vp. change (bval d = M) in Vd.
  destruct (C101_powm_residue cfg n b p d ltac:(lia) Wb Wp Wd) as (q & -> & Wq & Hq). cbn [bind].
  pose proof (bval_bound n q Wq) as Bq. destruct (numeral_exists false 10 (bval q)) as (w & NW); [lia|lia|].
  rewrite (line cfg n [] q w Wq ltac:(lia) ltac:(lia) NW). cbn [bind].
  destruct (C87_powm_mixed_doubled_partial cfg n m b p d) as (z & -> & Wz & Vz); auto; try lia. cbn [bind]. rewrite Vb, Vp, Vd in Vz.
  unfold os_endl at 1. cbn [out basef showbase uppercase fillc width adj].
  rewrite (line cfg m _ z r Wz ltac:(lia) F1) by (rewrite Vz; exact NR). cbn [bind]. unfold os_endl. cbn [out].
  exists w, (bval q). conjs; auto; [|lia|rewrite <- Vd; apply Hq; lia]. f_equal. rewrite <- !app_assoc. reflexivity.
Qed.
Print Assumptions C138_precision_cast2_program.

(** ** so both checks of the test suite succeed, whatever the literals, against the exact results ... *)
Theorem C138_checks_pass : forall cfg alnum n m base power modulo r,
  2 <= n -> 2 * n <= m -> 32 * m < 2 ^ 53 -> alnum_ok alnum -> alnum 0 = false ->
  Forall (fun c => 0 <= c) base -> Forall (fun c => 0 <= c) power -> Forall (fun c => 0 <= c) modulo ->
  let B := string_value alnum base mod 2 ^ (32 * n) in
  let P := string_value alnum power mod 2 ^ (32 * n) in
  let M := string_value alnum modulo mod 2 ^ (32 * n) in
  1 < M -> B <> 0 -> numeral false 10 (B ^ P mod M) r ->
  exists o, pres_cast2 cfg alnum n m base power modulo = Ok o /\ search_word ([10] ++ r ++ [10]) o = true.
Proof.
  intros cfg alnum n m base power modulo r Hn Hm F1 AO A0 C1 C2 C3 B P M M1 B0 NR.
  destruct (C138_precision_cast2_program cfg alnum n m base power modulo r Hn Hm F1 AO A0 C1 C2 C3 M1 B0 NR) as (w & v & E & NW & _).
  eexists. split; [exact E|]. apply C138_search_word. exists [], w, []. destruct (numeral_word v w NW) as [N F]. conjs; auto.
  { rewrite app_nil_r. reflexivity. }
  rewrite Forall_forall. intros x I. apply C138_word. rewrite forallb_forall in F. apply F, I.
Qed.
Print Assumptions C138_checks_pass.

(** ** ... and with the test's own literals, expressions and widths. *)
Lemma pos_text s : forallb (fun c => 0 <=? c) (text s) = true -> Forall (fun c => 0 <= c) (text s).
Proof. intros H. apply Forall_forall. intros c Hin. rewrite forallb_forall in H. apply Z.leb_le, H, Hin. Qed.
Lemma ascii_ok : alnum_ok ascii_alnum.
Proof.
  intros c H. unfold ascii_alnum. destruct H as [H|[H|H]]; repeat (match goal with |- context [?a <=? ?b] => destruct (Z.leb_spec a b) end; try lia; cbn; auto).
Qed.
Lemma val s w v : string_value ascii_alnum (text s) = v -> 0 <= v < 2 ^ w -> string_value ascii_alnum (text s) mod 2 ^ w = v.
Proof. intros -> H. apply Z.mod_small, H. Qed.
Ltac vl v := apply (val _ _ v); [vm_compute; reflexivity|lia].
Example C138_example :
  pres_cast cfg0 ascii_alnum 4 3 8 4 6 (text "10888869450418352160768000001") (text "99990001") (text "8683317618811886495518194401279999999")
    (text "127958277599458332250117") (text "279256103987149586783914830") =
  Ok (text "6680141832773294447513292887050873529" ++ [10] ++ text "35733130075330889632933652650476631619495985535110" ++ [10]).
Proof.
  assert (E1 : string_value ascii_alnum (text "10888869450418352160768000001") mod 2 ^ (32 * 4) = 10888869450418352160768000001) by vl 10888869450418352160768000001.
  assert (E2 : string_value ascii_alnum (text "99990001") mod 2 ^ (32 * 3) = 99990001) by vl 99990001.
  assert (E3 : string_value ascii_alnum (text "8683317618811886495518194401279999999") mod 2 ^ (32 * 8) = 8683317618811886495518194401279999999) by vl 8683317618811886495518194401279999999.
  assert (E4 : string_value ascii_alnum (text "127958277599458332250117") mod 2 ^ (32 * 4) = 127958277599458332250117) by vl 127958277599458332250117.
  assert (E5 : string_value ascii_alnum (text "279256103987149586783914830") mod 2 ^ (32 * 6) = 279256103987149586783914830) by vl 279256103987149586783914830.
  apply C138_precision_cast_program; try lia; try apply ascii_ok; try reflexivity; try (apply pos_text; vm_compute; reflexivity).
  - rewrite E1, E2, E3. rewrite <- pmod_eq by lia. numeral_of "6680141832773294447513292887050873529"%string.
  - rewrite E4, E5. numeral_of "35733130075330889632933652650476631619495985535110"%string.
Qed.
Example C138_example_check : exists o,
  pres_cast2 cfg0 ascii_alnum 4 8 (text "340199290171201906239764863559915798527") (text "340282366920937859000464800151540596704") (text "338953138925230918806032648491249958912") = Ok o /\
  search_word ([10] ++ text "201007033690655614485250957754150944769" ++ [10]) o = true.
Proof.
  assert (E1 : string_value ascii_alnum (text "340199290171201906239764863559915798527") mod 2 ^ (32 * 4) = 340199290171201906239764863559915798527) by vl 340199290171201906239764863559915798527.
  assert (E2 : string_value ascii_alnum (text "340282366920937859000464800151540596704") mod 2 ^ (32 * 4) = 340282366920937859000464800151540596704) by vl 340282366920937859000464800151540596704.
  assert (E3 : string_value ascii_alnum (text "338953138925230918806032648491249958912") mod 2 ^ (32 * 4) = 338953138925230918806032648491249958912) by vl 338953138925230918806032648491249958912.
  apply C138_checks_pass; try lia; try apply ascii_ok; try reflexivity; try (apply pos_text; vm_compute; reflexivity).
  rewrite E1, E2, E3. rewrite <- pmod_eq by lia. numeral_of "201007033690655614485250957754150944769"%string.
Qed.
