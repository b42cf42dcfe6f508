(** * PropsCi: the smoke, integration and benchmark programs (C114, C115, C116). *)
From Verif Require Import Lib AeuFacts AeuArith AeuDiv TextFacts TextMore PropsText PropsAeu CiModel ProgFacts ProgSigned PropsUse2 PropsExact.
Open Scope Z_scope.

(** ** C114 *)
Theorem C114_unsigned_kernel : forall cfg n m a b out, 1 <= n -> (forall i, wf n (m (Var i))) ->
  let A := bval (m (Var a)) in let B := bval (m (Var b)) in
  exists m', unsigned_kernel cfg n m (Var a) (Var b) (Var out) = Ok m' /\
    represents n (m' (Var out)) ((A + B) * (if Nat.eqb out b then A + B else B) mod modulus n) /\
    forall k, k <> out -> m' (Var k) = m (Var k).
Proof.
  intros cfg n m a b out Hn W A B. unfold unsigned_kernel.
  destruct (aeu_binary_ok cfg OAdd n m out a b Hn (W a) (W b)) as (m1 & -> & [W1 V1] & O1); [intros [?|?]; discriminate|]. cbn [bind].
  assert (Wb : wf n (m1 (Var b))) by (destruct (Nat.eq_dec b out) as [->|N]; [auto|rewrite O1; auto]).
  destruct (aeu_assign_loc cfg OMul n m1 (Var out) (Var b) Hn ltac:(discriminate) ltac:(discriminate) W1 Wb) as (m2 & E2 & [W2 V2] & O2); [intros [?|?]; discriminate|].
  exists m2. conjs; [exact E2| |intros k Hk; rewrite O2 by congruence; auto].
  split; [exact W2|]. rewrite V2. cbn [cop_value] in *. rewrite V1. pose proof (modulus_pos n). fold A B.
  destruct (Nat.eqb_spec out b) as [<-|N].
  - rewrite V1. fold A B. rewrite <- Z.mul_mod by lia. reflexivity.
  - rewrite O1 by auto. fold B. rewrite Z.mul_mod_idemp_l by lia. reflexivity.
Qed.
Print Assumptions C114_unsigned_kernel.
Theorem C114_signed_kernel : forall cfg n m a b out, 1 <= n -> (forall i, swf n (m (Var i))) ->
  let A := sval (m (Var a)) in let B := sval (m (Var b)) in let R := (A + B) * (if Nat.eqb out b then A + B else B) in
  Z.abs (A + B) < modulus n -> Z.abs R < modulus n ->
  exists m', signed_kernel cfg n m (Var a) (Var b) (Var out) = Ok m' /\ swf n (m' (Var out)) /\ sval (m' (Var out)) = R /\
    forall k, k <> out -> m' (Var k) = m (Var k).
Proof.
  intros cfg n m a b out Hn W A B R H1 H2. unfold signed_kernel.
  destruct (s_assign_val_ok cfg SOAdd n (m (Var a)) (m (Var b)) (A + B) Hn (W a) (W b) eq_refl H1) as (r & Er & Wr & Vr).
  pose proof (aesi_binary_frame cfg SOAdd n m out a b ltac:(lia)) as F. rewrite Er in F.
  destruct (aesi_binary cfg SOAdd n m (Var out) (Var a) (Var b)) as [m1|] eqn:E1; cbn in F; [|contradiction]. destruct F as [F1 F2]. cbn [bind].
  assert (Wb : swf n (m1 (Var b)) /\ sval (m1 (Var b)) = if Nat.eqb out b then A + B else B).
  { destruct (Nat.eqb_spec out b) as [<-|N]; [rewrite F1; auto|rewrite F2 by auto; auto]. }
  destruct Wb as [Wb Vb].
  destruct (s_assign_val_ok cfg SOMul n (m1 (Var out)) (m1 (Var b)) R Hn) as (r2 & Er2 & Wr2 & Vr2); [rewrite F1; auto|auto|cbn [scop_result]; rewrite Vb, F1, Vr; reflexivity|auto|].
  pose proof (aesi_assign_frame cfg SOMul n m1 (Var out) (Var b) ltac:(lia) ltac:(discriminate) ltac:(discriminate)) as G. rewrite Er2 in G.
  destruct (aesi_assign cfg SOMul n m1 (Var out) (Var b)) as [m2|] eqn:E2; cbn in G; [|contradiction]. destruct G as [G1 G2].
  exists m2. conjs; [reflexivity|rewrite G1; auto|rewrite G1; auto|].
  intros k Hk. rewrite <- F2 by auto. apply G2; congruence.
Qed.
Print Assumptions C114_signed_kernel.
(** smoke.cu's values, and out = b: (100 + 200) * 200, (100 + 200)^2, (-50 + 75) * 75 *)
Definition smoke_mem : mem := fun l => match l with Var 0 => [100; 0; 0; 0] | Var 1 => [200; 0; 0; 0] | _ => [0; 0; 0; 0] end.
Example C114_example :
  (forall i, wf 4 (smoke_mem (Var i))) /\
  (m' <- unsigned_kernel (mk_config false true true) 4 smoke_mem (Var 0) (Var 1) (Var 2) ;; Ok (m' (Var 2%nat))) = Ok [60000; 0; 0; 0] /\
  (m' <- unsigned_kernel (mk_config false true true) 4 smoke_mem (Var 0) (Var 1) (Var 1) ;; Ok (m' (Var 1%nat))) = Ok [90000; 0; 0; 0].
Proof.
  conjs; [|vm_compute; reflexivity|vm_compute; reflexivity].
  intros i. assert (W : forall x, 0 <= x < 2 ^ 32 -> wf 4 [x; 0; 0; 0]) by (intros x Hx; split; [reflexivity|repeat (constructor; [cbv beta; unfold blockBase; lia|]); constructor]).
  destruct i as [|[|i]]; apply W; lia.
Qed.

(** ** C115 *)
Lemma alnum0 alnum : alnum_ok alnum -> alnum 48 = true.
Proof. intros A. apply A. lia. Qed.
Lemma hex_string_value alnum body : alnum_ok alnum -> string_value alnum ([48; 120] ++ body) = dvalue 16 (digits_in 16 body).
Proof. intros A. unfold string_value. cbn [app numeral_part]. rewrite (alnum0 _ A). reflexivity. Qed.
Theorem C115_integration_program : forall cfg n wide alnum body cout s, 1 <= n -> 32 * n < 2 ^ 53 -> alnum_ok alnum -> alnum 0 = false ->
  Forall (fun c => 0 <= c) body -> width cout = 0 ->
  numeral (uppercase cout) 16 (dvalue 16 (digits_in 16 body) mod modulus n) s ->
  exists os', integration_main cfg n wide alnum ([48; 120] ++ body) cout = Ok os' /\ out os' = out cout ++ [48; 120] ++ s ++ [10].
Proof.
  intros cfg n wide alnum body cout s Hn H53 Ha A0 F W0 HS. unfold integration_main.
  destruct (from_literal_value n wide alnum ([48; 120] ++ body) ltac:(lia) Ha A0) as (a & -> & Wa & Va); [repeat (constructor; [lia|]); exact F|]. cbn [bind].
  rewrite hex_string_value in Va by auto.
  destruct (C37_stream_insertion cfg n (os_showbase (os_hex cout)) a s Wa W0 H53) as (os' & -> & E).
  - right. right. split; [exact Hn|reflexivity].
  - cbn. rewrite Va, Bool.andb_true_r. exact HS.
  - cbn [bind]. eexists. split; [reflexivity|]. cbn [out] in *. rewrite E. change (os_shown (os_showbase (os_hex cout))) with [48; 120]. rewrite <- !app_assoc. reflexivity.
Qed.
Print Assumptions C115_integration_program.
Lemma digits_in_sep base s : digits_in base (filter (fun c => negb (c =? 39)) s) = digits_in base s.
Proof.
  induction s as [|c t IH]; auto. cbn [filter]. destruct (Z.eqb_spec c 39) as [->|N]; cbn [negb].
  - rewrite IH. reflexivity.
  - unfold digits_in in *. cbn [flat_map]. now rewrite IH.
Qed.
(** The digit separators of the literal (character ') do not matter: the numeral is printed back without them. *)
Theorem C115_literal_printed_back : forall cfg n wide alnum upper body numeral_text v cout s, 1 <= n -> 32 * n < 2 ^ 53 -> alnum_ok alnum -> alnum 0 = false ->
  filter (fun c => negb (c =? 39)) body = numeral_text -> numeral upper 16 v numeral_text -> 0 <= v < modulus n -> width cout = 0 ->
  numeral (uppercase cout) 16 v s ->
  exists os', integration_main cfg n wide alnum ([48; 120] ++ body) cout = Ok os' /\ out os' = out cout ++ [48; 120] ++ s ++ [10].
Proof.
  intros cfg n wide alnum upper body nt v cout s Hn H53 Ha A0 Hf HN Hv W0 HS. destruct HN as (ds & E & Fd & Dv & _).
  assert (F : Forall (fun c => 0 <= c) body).
  { apply Forall_forall. intros c I. destruct (Z.eq_dec c 39) as [->|N]; [lia|]. assert (J : In c nt) by (rewrite <- Hf; apply filter_In; split; [exact I|lia]).
    rewrite E in J. apply in_map_iff in J. destruct J as (d & <- & Id). rewrite Forall_forall in Fd. specialize (Fd d Id). unfold digit_char. destruct (d <? 10), upper; lia. }
  apply C115_integration_program; auto. rewrite <- (digits_in_sep 16 body), Hf, E, digits_in_numeral, Dv, Z.mod_small by (auto; lia). exact HS.
Qed.
Print Assumptions C115_literal_printed_back.
(** main.cpp's own literal *)
Definition cout0 : ostream := mk_os [] BDec false false 32 0 AdjNone.
Example C115_example :
  filter (fun c => negb (c =? 39)) main_literal = repeat 102 40 /\ numeral false 16 (2 ^ 160 - 1) (repeat 102 40) /\
  (os <- integration_main (mk_config false true true) 16 false (fun c => (48 <=? c) && (c <=? 57)) ([48; 120] ++ main_literal) cout0 ;; Ok (out os))
    = Ok ([48; 120] ++ repeat 102 40 ++ [10]).
Proof.
  conjs; [vm_compute; reflexivity| |vm_compute; reflexivity].
  exists (repeat 15 40). conjs; [vm_compute; reflexivity|apply Forall_forall; intros d I; apply repeat_spec in I; lia|vm_compute; reflexivity|].
  right. exists 15, (repeat 15 39). split; [reflexivity|lia].
Qed.

(** ** C116 *)
Lemma forU_const n k (x : outcome (list Z)) v : 1 <= k -> yields n x v -> wf n (zeros n) -> yields n (forU 0 k (fun _ _ => x) (zeros n)) v.
Proof.
  intros Hk (r & -> & Wr & Vr) Wz.
  destruct (forU_spec (fun i s => wf n s /\ (0 < i -> bval s = v)) 0 k (fun _ _ => Ok r) (zeros n)) as (s & E & W & V); [lia|split; [auto|lia]| |].
  - intros i s Hi _. exists r. conjs; auto.
  - exists s. split; [exact E|]. split; [exact W|]. apply V. lia.
Qed.
Definition lit_value (n : Z) (alnum : Z -> bool) (s : list Z) : Z := string_value alnum s mod modulus n.
Lemma bench_ok op n alnum left right k v : 1 <= n -> alnum_ok alnum -> alnum 0 = false -> Forall (fun c => 0 <= c) left -> Forall (fun c => 0 <= c) right -> 1 <= k ->
  (forall a b, wf n a -> wf n b -> bval a = lit_value n alnum left -> bval b = lit_value n alnum right -> yields n (op a b) v) ->
  yields n (bench_binary op n alnum left right k) v.
Proof.
  intros Hn Ha A0 FL FR Hk H. unfold bench_binary.
  destruct (from_literal_value n false alnum left ltac:(lia) Ha A0 FL) as (a & -> & Wa & Va). cbn [bind].
  destruct (from_literal_value n false alnum right ltac:(lia) Ha A0 FR) as (b & -> & Wb & Vb). cbn [bind].
  apply forU_const; auto. apply wf_zeros. lia.
Qed.
(** Each benchmark computes its operation on the two numerals, however many iterations are run. *)
Theorem C116_benchmarks : forall cfg n alnum left right k, 1 <= n -> alnum_ok alnum -> alnum 0 = false ->
  Forall (fun c => 0 <= c) left -> Forall (fun c => 0 <= c) right -> 1 <= k ->
  let L := string_value alnum left mod modulus n in let R := string_value alnum right mod modulus n in
  yields n (addition_Aesi n alnum left right k) ((L + R) mod modulus n) /\
  yields n (subtraction_Aesi n alnum left right k) ((L - R) mod modulus n) /\
  yields n (multiplication_Aesi n alnum left right k) ((L * R) mod modulus n) /\
  yields n (gcd_Aesi cfg n alnum left right k) (Z.gcd L R) /\
  (R <> 0 -> yields n (division_Aesi cfg n alnum left right k) (L / R) /\ yields n (modulo_Aesi cfg n alnum left right k) (L mod R)).
Proof.
  intros cfg n alnum left right k Hn Ha A0 FL FR Hk L R.
  assert (G : forall op v, (forall a b, wf n a -> wf n b -> bval a = L -> bval b = R -> yields n (op a b) v) -> yields n (bench_binary op n alnum left right k) v)
    by (intros; apply bench_ok; auto).
  conjs; [apply G| apply G| apply G| apply G|intros HR; split; apply G]; intros a b Wa Wb <- Vb; rewrite <- Vb in *.
  - now apply add_assign_correct.
  - now apply sub_assign_correct.
  - now apply mul_assign_correct.
  - apply gcd_correct; auto. unfold gfuel. lia.
  - destruct (C09_division_euclidean cfg n a b Hn Wa Wb HR) as (q & r & _ & Q & _ & _ & _ & E & _). exists q. split; auto.
  - destruct (C09_division_euclidean cfg n a b Hn Wa Wb HR) as (q & r & _ & _ & Q & _ & _ & _ & E & _). exists r. split; auto.
Qed.
Print Assumptions C116_benchmarks.
Theorem C116_powm_benchmark : forall cfg n alnum base power modulo k, 1 <= n -> alnum_ok alnum -> alnum 0 = false ->
  Forall (fun c => 0 <= c) base -> Forall (fun c => 0 <= c) power -> Forall (fun c => 0 <= c) modulo -> 1 <= k ->
  let B := string_value alnum base mod modulus n in let P := string_value alnum power mod modulus n in let M := string_value alnum modulo mod modulus n in
  (1 < M -> (M - 1) * (M - 1) < modulus n -> yields n (powm_Aesi cfg n alnum base power modulo k) (B ^ P mod M)) /\
  exists r, powm_Aesi cfg n alnum base power modulo k = Ok r /\ wf n r /\ (2 <= M -> bval r < M).
Proof.
  intros cfg n alnum base power modulo k Hn Ha A0 FB FP FM Hk B P M. unfold powm_Aesi.
  destruct (from_literal_value n false alnum base ltac:(lia) Ha A0 FB) as (b & -> & Wb & Vb). cbn [bind].
  destruct (from_literal_value n false alnum power ltac:(lia) Ha A0 FP) as (p & -> & Wp & Vp). cbn [bind].
  destruct (from_literal_value n false alnum modulo ltac:(lia) Ha A0 FM) as (m & -> & Wm & Vm). cbn [bind].
  fold B in Vb. fold P in Vp. fold M in Vm. rewrite <- Vb, <- Vp, <- Vm. pose proof (wf_zeros n ltac:(lia)) as Wz. split.
  - intros H1 H2. apply forU_const; auto.
    destruct (C101_powm_exact cfg n b p m Hn Wb Wp Wm ltac:(lia) H2) as (r & E & W & V). exists r. split; [exact E|]. split; [exact W|]. rewrite V. unfold powm_value.
    destruct (Z.eqb_spec (bval p) 0) as [->|]; [|reflexivity]. rewrite Z.pow_0_r, Z.mod_small by lia. reflexivity.
  - destruct (C101_powm_residue cfg n b p m Hn Wb Wp Wm) as (r & E & W & V).
    destruct (forU_const n k (powm cfg n b p m) (bval r) Hk) as (s & Es & Ws & Vs); [exists r; split; [exact E|split; auto]|auto|]. exists s. conjs; auto. rewrite Vs. exact V.
Qed.
Print Assumptions C116_powm_benchmark.

(** The literals of the source.  The addition benchmark computes the true sum; the product of the multiplication
    benchmark needs 5999 bits and does not fit its 4192; the modulus of the powm benchmark has 494 of its 512 bits, so
    the squares of residues do not fit and [C116_powm_benchmark]'s first part does not apply. *)
Lemma dvalue_lower base d t : 1 < base -> Forall (fun d => 0 <= d < base) (d :: t) -> d <> 0 -> base ^ len t <= dvalue base (d :: t).
Proof.
  intros Hb F Hd. inversion F as [|? ? H1 H2]; subst. pose proof (dvalue_bound base t ltac:(lia) H2). rewrite dvalue_cons.
  pose proof (Z.pow_pos_nonneg base (len t) ltac:(lia) (len_nonneg t)). nia.
Qed.
Lemma digits_range base s : Forall (fun d => 0 <= d < base) (digits_in base s).
Proof.
  unfold digits_in. induction s as [|c t IH]; cbn [flat_map]; [constructor|]. apply Forall_app. split; [|exact IH].
  unfold digit_of. repeat match goal with |- context [if ?b then _ else _] => destruct b eqn:? end; repeat constructor; lia.
Qed.
Lemma literal_lower alnum s body k : alnum_ok alnum -> s = [48; 120] ++ body -> len (digits_in 16 body) = k + 1 -> znth (digits_in 16 body) 0 <> 0 ->
  16 ^ k <= string_value alnum s < 16 ^ (k + 1).
Proof.
  intros Ha -> HL H0. rewrite hex_string_value by auto. pose proof (digits_range 16 body) as F. rewrite <- HL.
  destruct (digits_in 16 body) as [|d t] eqn:E; [exfalso; apply H0; reflexivity|]. rewrite len_cons in HL. replace k with (len t) by lia.
  split; [apply dvalue_lower; auto; lia|apply dvalue_bound; auto; lia].
Qed.
Theorem C116_addition_literal : forall alnum k, alnum_ok alnum -> alnum 0 = false -> 1 <= k ->
  yields 64 (addition_Aesi 64 alnum addition_data addition_data k) (2 * string_value alnum addition_data).
Proof.
  intros alnum k Ha A0 Hk.
  destruct (literal_lower alnum addition_data (skipn 2 addition_data) 255 Ha) as [_ U]; [vm_compute; reflexivity|vm_compute; reflexivity|vm_compute; discriminate|].
  assert (F : Forall (fun c => 0 <= c) addition_data) by (apply Forall_forall; intros c I; apply (proj1 (Z.leb_le 0 c)); revert c I; apply forallb_forall; vm_compute; reflexivity).
  destruct (C116_benchmarks (mk_config false false true) 64 alnum addition_data addition_data k ltac:(lia) Ha A0 F F Hk) as (Y & _).
  assert (P : 0 <= string_value alnum addition_data).
  { change addition_data with ([48; 120] ++ skipn 2 addition_data). rewrite hex_string_value by auto. apply dvalue_bound; [lia|apply digits_range]. }
  assert (M : 2 * 16 ^ (255 + 1) <= modulus 64) by (vm_compute; discriminate).
  rewrite (Z.mod_small (string_value alnum addition_data) (modulus 64)) in Y by lia. rewrite Z.mod_small in Y by lia.
  replace (2 * string_value alnum addition_data) with (string_value alnum addition_data + string_value alnum addition_data) by lia. exact Y.
Qed.
Print Assumptions C116_addition_literal.
Theorem C116_multiplication_literal : forall alnum k, alnum_ok alnum -> alnum 0 = false -> 1 <= k ->
  let L := string_value alnum multiplication_left in let R := string_value alnum multiplication_right in
  exists r, multiplication_Aesi 131 alnum multiplication_left multiplication_right k = Ok r /\
    bval r = (L * R) mod modulus 131 /\ bval r < L * R.
Proof.
  intros alnum k Ha A0 Hk L R.
  destruct (literal_lower alnum multiplication_left (skipn 2 multiplication_left) 749 Ha) as [LL _]; [vm_compute; reflexivity|vm_compute; reflexivity|vm_compute; discriminate|]. fold L in LL.
  destruct (literal_lower alnum multiplication_right (skipn 2 multiplication_right) 749 Ha) as [LR _]; [vm_compute; reflexivity|vm_compute; reflexivity|vm_compute; discriminate|]. fold R in LR.
  assert (F1 : Forall (fun c => 0 <= c) multiplication_left) by (apply Forall_forall; intros c I; apply (proj1 (Z.leb_le 0 c)); revert c I; apply forallb_forall; vm_compute; reflexivity).
  assert (F2 : Forall (fun c => 0 <= c) multiplication_right) by (apply Forall_forall; intros c I; apply (proj1 (Z.leb_le 0 c)); revert c I; apply forallb_forall; vm_compute; reflexivity).
  destruct (C116_benchmarks (mk_config false false true) 131 alnum multiplication_left multiplication_right k ltac:(lia) Ha A0 F1 F2 Hk) as (_ & _ & (r & E & W & V) & _).
  exists r. split; [exact E|]. fold L R in V. pose proof (modulus_pos 131). rewrite <- Z.mul_mod in V by lia. split; [exact V|].
  pose proof (bval_bound 131 r W) as B. assert (M : modulus 131 <= 16 ^ 749 * 16 ^ 749).
  { unfold modulus. change 16 with (2 ^ 4). rewrite <- Z.pow_mul_r, <- Z.pow_add_r by lia. apply Z.pow_le_mono_r; lia. }
  assert (0 < 16 ^ 749) by (apply Z.pow_pos_nonneg; lia). clear - B M LL LR H0. nia.
Qed.
Print Assumptions C116_multiplication_literal.
Theorem C116_powm_literal : forall alnum, alnum_ok alnum ->
  let M := string_value alnum powm_modulo in 1 < M < modulus 16 /\ modulus 16 < (M - 1) * (M - 1).
Proof.
  intros alnum Ha M.
  destruct (literal_lower alnum powm_modulo (skipn 2 powm_modulo) 123 Ha) as [LL UL]; [vm_compute; reflexivity|vm_compute; reflexivity|vm_compute; discriminate|]. fold M in LL, UL.
  assert (A : 16 ^ (123 + 1) <= modulus 16) by (vm_compute; discriminate). assert (B : modulus 16 < (16 ^ 123 - 1) * (16 ^ 123 - 1)) by (vm_compute; reflexivity).
  assert (1 < 16 ^ 123) by (vm_compute; reflexivity). split; [lia|]. apply Z.lt_le_trans with (1 := B). apply Z.mul_le_mono_nonneg; lia.
Qed.
Print Assumptions C116_powm_literal.
Example C116_example : (* "0x10" and "3": 19, 13, 48, 5, 1, 1; "3"^"5" mod "7" *)
  let alnum := fun c => (48 <=? c) && (c <=? 57) in let cfg := mk_config false true true in
  addition_Aesi 2 alnum [48; 120; 49; 48] [51] 5 = Ok [19; 0] /\ subtraction_Aesi 2 alnum [48; 120; 49; 48] [51] 5 = Ok [13; 0] /\
  multiplication_Aesi 2 alnum [48; 120; 49; 48] [51] 5 = Ok [48; 0] /\ division_Aesi cfg 2 alnum [48; 120; 49; 48] [51] 5 = Ok [5; 0] /\
  modulo_Aesi cfg 2 alnum [48; 120; 49; 48] [51] 5 = Ok [1; 0] /\ gcd_Aesi cfg 2 alnum [48; 120; 49; 48] [51] 5 = Ok [1; 0] /\
  powm_Aesi cfg 2 alnum [51] [53] [55] 5 = Ok [5; 0].
Proof. intros alnum cfg; conjs; vm_compute; reflexivity. Qed.
