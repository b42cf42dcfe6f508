(** * PropsCast: bool (C125), 128-bit built-in integers (C126), streams that throw (C127). *)
From Verif Require Import CastModel BinFacts AesiArith AeuAccess AeuArith Lib PropsExact.
Open Scope Z_scope.
Ltac conjs := repeat match goal with |- _ /\ _ => split end.
Definition cfg0 := mk_config false false true.

(** ** C125 *)
Lemma cast_bool_value n a : wf n a -> 2 <= n -> integralCast_bool a = Ok (negb (bval a mod 2 ^ 64 =? 0)).
Proof.
  intros Wa Hn. pose proof (wf_len _ _ Wa). unfold integralCast_bool. rewrite !aget_ok by lia. cbn [bind]. cbv zeta.
  rewrite <- (low2_value n) by auto. rewrite (pval_mod n) by (auto; lia). reflexivity.
Qed.
(** A bool becomes 0 or 1; a number becomes true exactly when its low 64 bits are not all zero. *)
Theorem C125_bool_partial : forall n a v junk, 2 <= n -> wf n a -> len junk = n ->
  yields n (from_bool n junk v) (if v : bool then 1 else 0) /\
  (exists r, s_from_bool n v = Ok r /\ canon n r /\ sval r = if v : bool then 1 else 0) /\
  (exists b, integralCast_bool a = Ok b /\ (b = true <-> bval a mod 2 ^ 64 <> 0) /\
     (b = negb (bval a =? 0) <-> bval a = 0 \/ bval a mod 2 ^ 64 <> 0)) /\
  (forall s, canon n (mk_aesi s a) -> exists b, s_integralCast_bool (mk_aesi s a) = Ok b /\ (b = true <-> bval a mod 2 ^ 64 <> 0)).
Proof.
  intros n a v junk Hn W Lj. assert (M : 2 ^ 64 <= modulus n) by (unfold modulus; apply Z.pow_le_mono_r; lia). conjs.
  - destruct (from_unsigned_correct n junk (Z.b2z v)) as (r & E & Wr & Vr); [lia|auto|destruct v; cbn; lia|].
    exists r. split; [exact E|]. split; [auto|]. rewrite Vr. destruct v; cbn [Z.b2z]; rewrite Z.mod_small; lia.
  - unfold s_from_bool. destruct v; cbn [Z.b2z Z.ltb Z.gtb Z.compare Pos.compare Pos.compare_cont].
    + destruct (from_unsigned_correct n (zeros n) (u64 1)) as (r & E & Wr & Vr); [lia|apply len_zeros; lia|cbv; split; congruence|].
      rewrite E. cbn [bind]. eexists. split; [reflexivity|]. change (u64 1) with 1 in Vr. rewrite Z.mod_small in Vr by lia.
      unfold canon, sval. cbn [sgn mag]. rewrite Vr. split; [|reflexivity]. split; [auto|]. split; [congruence|lia].
    + eexists. split; [reflexivity|]. unfold canon, sval, s_default. cbn [sgn mag]. rewrite bval_zeros. split; [|reflexivity]. split; [apply wf_zeros; lia|tauto].
  - rewrite (cast_bool_value n) by auto. eexists. split; [reflexivity|].
    destruct (Z.eqb_spec (bval a mod 2 ^ 64) 0) as [Z0|NZ]; cbn [negb].
    + split; [split; congruence|]. destruct (Z.eqb_spec (bval a) 0); cbn [negb]; intuition congruence.
    + split; [tauto|]. assert (bval a <> 0) by (intros Z0; rewrite Z0 in NZ; apply NZ; reflexivity).
      replace (bval a =? 0) with false by (symmetry; apply Z.eqb_neq; auto). cbn [negb]. tauto.
  - intros s (_ & C). cbn [sgn mag] in C. unfold s_integralCast_bool. cbn [sgn mag].
    destruct s; [|rewrite (cast_bool_value n) by auto..].
    + eexists. split; [reflexivity|]. rewrite (proj1 C eq_refl). split; [congruence|]. intros H. exfalso. apply H. reflexivity.
    + eexists. split; [reflexivity|]. destruct (Z.eqb_spec (bval a mod 2 ^ 64) 0); cbn [negb]; split; congruence.
    + eexists. split; [reflexivity|]. destruct (Z.eqb_spec (bval a mod 2 ^ 64) 0); cbn [negb]; split; congruence.
Qed.
Print Assumptions C125_bool_partial.
(** So every non-zero multiple of 2^64 converts to false. *)
Theorem C125_bool_refuted : forall n a, 3 <= n -> wf n a -> bval a <> 0 -> bval a mod 2 ^ 64 = 0 -> integralCast_bool a = Ok false.
Proof. intros n a Hn W _ H. rewrite (cast_bool_value n) by (auto; lia). rewrite H. reflexivity. Qed.
Print Assumptions C125_bool_refuted.
Example C125_example : integralCast_bool [0; 0; 5] = Ok false /\ bval [0; 0; 5] = 5 * 2 ^ 64 /\ integralCast_bool [0; 7; 5] = Ok true /\
  from_bool 3 [9; 9; 9] true = Ok [1; 0; 0] /\ s_integralCast_bool (mk_aesi SNeg [3; 0]) = Ok true.
Proof. conjs; vm_compute; reflexivity. Qed.

(** ** C126 *)
Lemma u64_idem v : u64 (u64 v) = u64 v. Proof. unfold u64. apply Z.mod_mod. lia. Qed.
Lemma from_u128_value n junk v : 0 <= n -> len junk = n -> 0 <= v -> yields n (from_u128 n junk v) (v mod 2 ^ 64 mod modulus n).
Proof.
  intros Hn Lj Hv. assert (0 <= v mod 2 ^ 64 < 2 ^ 64) by (apply Z.mod_pos_bound; lia).
  destruct (Z.eq_dec (u64 v) 0) as [Z0|NZ].
  - fold (u64 v). rewrite Z0. rewrite Z.mod_0_l by (pose proof (modulus_pos n Hn); lia). unfold from_u128, from_unsigned. destruct (negb (v =? 0)).
    2:{ apply yields_ok; [apply wf_zeros; auto|apply bval_zeros]. }
    rewrite Z0. match goal with |- yields _ (bind (forU 0 n ?B ?s) _) _ =>
    destruct (forU_spec (fun i '(b, t) => t = 0 /\ len b = n /\ forall j, 0 <= j < i -> znth b j = 0) 0 n B s) as ((r & t) & E & P) end.
    + lia.
    + split; [auto|]. split; [auto|]. intros; lia.
    + intros i (b & t) Hi (-> & Lb & Q). rewrite aset_ok by lia. cbn [bind]. eexists. split; [reflexivity|]. split; [reflexivity|]. rewrite len_upd. split; [auto|].
      intros j Hj. rewrite znth_upd by lia. destruct (Z.eqb_spec i j); [reflexivity|]. apply Q. lia.
    + rewrite E. cbn [bind]. destruct P as (_ & Lr & Q). assert (r = zeros n) as ->.
      { apply list_ext_znth; [unfold len in *; rewrite Lr; symmetry; apply len_zeros; auto|]. intros i Hi. rewrite znth_zeros. apply Q. lia. }
      apply yields_ok; [apply wf_zeros; auto|apply bval_zeros].
  - replace (from_u128 n junk v) with (from_unsigned n junk (u64 v)).
    + apply from_unsigned_correct; auto.
    + unfold from_u128, from_unsigned. rewrite u64_idem. assert (v <> 0) by (intros ->; apply NZ; reflexivity).
      replace (u64 v =? 0) with false by (symmetry; apply Z.eqb_neq; auto). replace (v =? 0) with false by (symmetry; apply Z.eqb_neq; auto). reflexivity.
Qed.

Lemma loopU_ext {S} (f g : Z -> S -> outcome S) : (forall i s, f i s = g i s) -> forall k i s, loopU k i f s = loopU k i g s.
Proof. intros H. induction k as [|k IH]; intros i s; cbn [loopU]; [auto|]. rewrite H. destruct (g i s); cbn [bind]; auto. Qed.
Lemma add_u128_u64 n a v : 1 <= n -> add_assign_u128 n a v = add_assign_u n ULL a (u64 v).
Proof.
  intros Hn. unfold add_assign_u128, add_assign_u, forU. rewrite Z.sub_0_r. replace (Z.to_nat n) with (S (Z.to_nat (n - 1))) by lia. cbn [loopU].
  assert (C : forall x, ucast ULL (u64 x / blockBase) = u64 x / blockBase).
  { intros x. unfold ucast, uwidth, u64, blockBase. pose proof (Z.mod_pos_bound x (2 ^ 64) ltac:(lia)). apply Z.mod_small.
    split; [apply Z.div_pos; lia|]. apply Z.div_lt_upper_bound; lia. }
  rewrite u64_idem. destruct (aget a 0) as [b|]; cbn [bind]; [|reflexivity].
  destruct (aset a 0 _) as [c|]; cbn [bind]; [|reflexivity]. rewrite C.
  f_equal. apply loopU_ext. intros i (bl & ad). destruct (aget bl i); cbn [bind]; [|reflexivity].
  destruct (aset bl i _); cbn [bind]; [|reflexivity]. rewrite C. reflexivity.
Qed.
Lemma mul_u128_u64 n a v : mul_assign_u128 n a v = mul_assign_u n ULL a (u64 v).
Proof. unfold mul_assign_u128, mul_assign_u. cbn [is_uint64_t]. rewrite u64_idem. reflexivity. Qed.

(** Only the low 64 bits of an unsigned 128-bit operand count; below 2^64 everything is as for unsigned long long. *)
Theorem C126_u128_partial : forall n a v junk, 2 <= n -> wf n a -> len junk = n -> 0 <= v < 2 ^ 128 ->
  yields n (from_u128 n junk v) (v mod 2 ^ 64 mod modulus n) /\
  add_assign_u128 n a v = add_assign_u n ULL a (v mod 2 ^ 64) /\
  mul_assign_u128 n a v = mul_assign_u n ULL a (v mod 2 ^ 64) /\
  integralCast uint128 a = Ok (bval a mod 2 ^ 64) /\ integralCast int128 a = Ok (bval a mod 2 ^ 64).
Proof.
  intros n a v junk Hn W Lj Hv. conjs.
  - apply from_u128_value; auto; lia.
  - apply add_u128_u64. lia.
  - apply mul_u128_u64.
  - rewrite (integralCast_spec _ n) by auto. pose proof (Z.mod_pos_bound (bval a) (2 ^ 64) ltac:(lia)). unfold icast, uint128. cbn [isigned iwidth andb].
    rewrite (Z.mod_small _ (2 ^ 128)); [reflexivity|]. assert (2 ^ 64 < 2 ^ 128) by (apply Z.pow_lt_mono_r; lia). lia.
  - rewrite (integralCast_spec _ n) by auto. pose proof (Z.mod_pos_bound (bval a) (2 ^ 64) ltac:(lia)). unfold icast, int128. cbn [isigned iwidth andb].
    assert (2 ^ 64 < 2 ^ (128 - 1)) by (apply Z.pow_lt_mono_r; lia). assert (2 ^ (128 - 1) < 2 ^ 128) by (apply Z.pow_lt_mono_r; lia).
    rewrite (Z.mod_small _ (2 ^ 128)) by lia. replace (2 ^ (128 - 1) <=? bval a mod 2 ^ 64) with false by (symmetry; apply Z.leb_gt; lia). reflexivity.
Qed.
Print Assumptions C126_u128_partial.
(** A signed 128-bit operand: the sign is right, the magnitude is taken modulo 2^64; the minimum overflows. *)
Theorem C126_signed_partial : forall n v, 2 <= n -> - 2 ^ 127 <= v < 2 ^ 127 ->
  if v =? - 2 ^ 127 then s_from_int n int128 v = Err SignedOverflow
  else exists r, s_from_int n int128 v = Ok r /\ wf n (mag r) /\ bval (mag r) = Z.abs v mod 2 ^ 64 /\
         sgn r = (if v <? 0 then SNeg else if v >? 0 then SPos else SZero) /\ (Z.abs v < 2 ^ 64 -> canon n r /\ sval r = v).
Proof.
  intros n v Hn Hv. assert (M : 2 ^ 64 <= modulus n) by (unfold modulus; apply Z.pow_le_mono_r; lia).
  assert (Lz : len (zeros n) = n) by (apply len_zeros; lia).
  destruct (Z.eqb_spec v (- 2 ^ 127)) as [-> | Hm].
  - reflexivity.
  - unfold s_from_int. destruct (Z.ltb_spec v 0) as [L|L].
    + unfold ineg. cbn [isigned iwidth int128 ity_min]. change (32 <=? 128) with true. change (128 - 1) with 127.
      replace (v =? - 2 ^ 127) with false by (symmetry; apply Z.eqb_neq; auto). cbn [andb bind].
      assert (B : 0 <= u64 (- v) < 2 ^ 64) by (apply Z.mod_pos_bound; lia).
      destruct (from_unsigned_correct n (zeros n) (u64 (- v))) as (r & E & Wr & Vr); [lia|auto|auto|]. rewrite Z.mod_small in Vr by lia.
      rewrite E. cbn [bind]. eexists. split; [reflexivity|]. cbn [sgn mag]. rewrite Z.abs_neq by lia. conjs; auto.
      intros Hs. unfold canon, sval. cbn [sgn mag]. rewrite Vr. unfold u64. rewrite (Z.mod_small (- v) (2 ^ 64)) by lia. split; [|lia]. split; [auto|]. split; [congruence|lia].
    + destruct (Z.gtb_spec v 0) as [G|G].
      * assert (B : 0 <= u64 v < 2 ^ 64) by (apply Z.mod_pos_bound; lia).
        destruct (from_unsigned_correct n (zeros n) (u64 v)) as (r & E & Wr & Vr); [lia|auto|auto|]. rewrite Z.mod_small in Vr by lia.
        rewrite E. cbn [bind]. eexists. split; [reflexivity|]. cbn [sgn mag]. rewrite Z.abs_eq by lia. conjs; auto.
        intros Hs. unfold canon, sval. cbn [sgn mag]. rewrite Vr. unfold u64. rewrite (Z.mod_small v (2 ^ 64)) by lia. split; [|lia]. split; [auto|]. split; [congruence|lia].
      * assert (v = 0) as -> by lia. eexists. split; [reflexivity|]. cbn [sgn mag]. rewrite bval_zeros. conjs; auto; [apply wf_zeros; lia|].
        intros _. unfold canon, sval. cbn [sgn mag]. rewrite bval_zeros. split; [|reflexivity]. split; [apply wf_zeros; lia|tauto].
Qed.
Print Assumptions C126_signed_partial.
(** So at 128 bits and more every value of 2^64 or more is lost, in both directions. *)
Theorem C126_u128_refuted : forall n junk v a, 4 <= n -> len junk = n -> 2 ^ 64 <= v < 2 ^ 128 -> wf n a -> 2 ^ 64 <= bval a < 2 ^ 128 ->
  (exists r, from_u128 n junk v = Ok r /\ wf n r /\ bval r <> v) /\ (exists k, integralCast uint128 a = Ok k /\ k <> bval a).
Proof.
  intros n junk v a Hn Lj Hv W Ha. destruct (C126_u128_partial n a v junk ltac:(lia) W Lj ltac:(lia)) as ((r & E & Wr & Vr) & _ & _ & I & _). split.
  - exists r. conjs; auto. rewrite Vr. pose proof (Z.mod_pos_bound v (2 ^ 64) ltac:(lia)).
    assert (2 ^ 64 <= modulus n) by (unfold modulus; apply Z.pow_le_mono_r; lia). rewrite Z.mod_small by lia. lia.
  - eexists. split; [exact I|]. pose proof (Z.mod_pos_bound (bval a) (2 ^ 64) ltac:(lia)). lia.
Qed.
Print Assumptions C126_u128_refuted.
Example C126_example : from_u128 4 (repeat 7 4) (2 ^ 64 + 5) = Ok [5; 0; 0; 0] /\ from_u128 4 (repeat 7 4) (2 ^ 40 + 5) = Ok [5; 256; 0; 0] /\
  integralCast uint128 [1; 0; 1; 0] = Ok 1 /\ add_assign_u128 4 [1; 0; 0; 0] (2 ^ 64 + 5) = Ok [6; 0; 0; 0] /\
  s_from_int 4 int128 (- 2 ^ 64) = Ok (mk_aesi SNeg [0; 0; 0; 0]) /\ s_from_int 4 int128 (-7) = Ok (mk_aesi SNeg [7; 0; 0; 0]).
Proof. conjs; vm_compute; reflexivity. Qed.

(** ** C127 *)
Lemma xloop_U {S R} (good : S -> bool) (h : S -> R) (f : Z -> S -> outcome (step S S)) (g : Z -> S -> outcome (step S R)) :
  (forall i s, match f i s with Ok (Next s') => good s' = true /\ g i s = Ok (Next s')
                              | Ok (Exit r) => good r = false /\ g i s = Ok (Exit (h r)) | Err x => g i s = Err x end) ->
  forall k i s, (1 <= k)%nat \/ good s = true ->
  match loopUx k i f s with Ok (Next s') => good s' = true /\ loopUx k i g s = Ok (Next s')
                          | Ok (Exit r) => good r = false /\ loopUx k i g s = Ok (Exit (h r)) | Err x => loopUx k i g s = Err x end.
Proof.
  intros H. induction k as [|k IH]; intros i s D; cbn [loopUx]; [split; [destruct D; [lia|auto]|auto]|].
  specialize (H i s). destruct (f i s) as [ [s'|r]|x]; cbn [bind].
  - destruct H as [G ->]. cbn [bind]. apply IH. auto.
  - destruct H as [G ->]. auto.
  - rewrite H. reflexivity.
Qed.
Lemma xloop_D {S R} (good : S -> bool) (h : S -> R) (f : Z -> S -> outcome (step S S)) (g : Z -> S -> outcome (step S R)) :
  (forall i s, match f i s with Ok (Next s') => good s' = true /\ g i s = Ok (Next s')
                              | Ok (Exit r) => good r = false /\ g i s = Ok (Exit (h r)) | Err x => g i s = Err x end) ->
  forall k i s, (1 <= k)%nat \/ good s = true ->
  match loopDx k i f s with Ok (Next s') => good s' = true /\ loopDx k i g s = Ok (Next s')
                          | Ok (Exit r) => good r = false /\ loopDx k i g s = Ok (Exit (h r)) | Err x => loopDx k i g s = Err x end.
Proof.
  intros H. induction k as [|k IH]; intros i s D; cbn [loopDx]; [split; [destruct D; [lia|auto]|auto]|].
  specialize (H (i - 1) s). destruct (f (i - 1) s) as [ [s'|r]|x]; cbn [bind].
  - destruct H as [G ->]. cbn [bind]. apply IH. auto.
  - destruct H as [G ->]. auto.
  - rewrite H. reflexivity.
Qed.

Lemma read_x_of le exc n is be : 1 <= n -> forall r is', readBinary le n is be = Ok (r, is') ->
  readBinary_x le exc n is be = Ok (if exc && negb (igood is') then Throws (r, is') else Returns (r, is')).
Proof.
  intros Hn r is' E. unfold readBinary in E. unfold readBinary_x.
  match type of E with context [if be then forDx n 0 ?F1 ?S0 else forUx 0 n ?F2 ?S0] => set (f := F2) in E; set (s0 := S0) in * end.
  match goal with |- context [if be then forDx n 0 ?F1 ?S0 else forUx 0 n ?F2 ?S0] => set (g := F2) end.
  assert (H : forall i s, match f i s with Ok (Next s') => igood (snd s') = true /\ g i s = Ok (Next s')
     | Ok (Exit r) => igood (snd r) = false /\ g i s = Ok (Exit ((fun r => if exc : bool then Throws r else Returns r) r)) | Err x => g i s = Err x end).
  { intros i (bl & st). unfold f, g. destruct (read_block le bl st i) as [ [bl' st']|x]; cbn [bind]; [|reflexivity].
    destruct (igood st') eqn:G; cbn [snd]; [auto|]. destruct exc; auto. }
  assert (D : (1 <= Z.to_nat (n - 0))%nat \/ igood (snd s0) = true) by (left; lia).
  pose proof (xloop_U (fun s => igood (snd s)) _ f g H (Z.to_nat (n - 0)) 0 s0 D) as U.
  pose proof (xloop_D (fun s => igood (snd s)) _ f g H (Z.to_nat (n - 0)) n s0 D) as V. unfold forDx, forUx in *.
  destruct be.
  - destruct (loopDx _ n f s0) as [ [s'|q]|]; cbn [bind] in *; try discriminate; injection E as ->; cbn [snd] in *; destruct V as [G ->]; cbn [bind]; rewrite G; cbn [negb]; rewrite ?andb_false_r, ?andb_true_r; [reflexivity|destruct exc; reflexivity].
  - destruct (loopUx _ 0 f s0) as [ [s'|q]|]; cbn [bind] in *; try discriminate; injection E as ->; cbn [snd] in *; destruct U as [G ->]; cbn [bind]; rewrite G; cbn [negb]; rewrite ?andb_false_r, ?andb_true_r; [reflexivity|destruct exc; reflexivity].
Qed.
Lemma write_x_of le exc n a os be : 1 <= n -> forall os', writeBinary le n a os be = Ok os' ->
  writeBinary_x le exc n a os be = Ok (if exc && negb (ogood os') then Terminates else Returns os').
Proof.
  intros Hn os' E. unfold writeBinary in E. unfold writeBinary_x.
  match type of E with context [if be then forDx n 0 ?F1 os else forUx 0 n ?F2 os] => set (f := F2) in E end.
  match goal with |- context [if be then forDx n 0 ?F1 os else forUx 0 n ?F2 os] => set (g := F2) end.
  assert (H : forall i s, match f i s with Ok (Next s') => ogood s' = true /\ g i s = Ok (Next s')
     | Ok (Exit r) => ogood r = false /\ g i s = Ok (Exit ((fun r => if exc : bool then Terminates else Returns r) r)) | Err x => g i s = Err x end).
  { intros i st. unfold f, g. destruct (aget a i) as [b|x]; cbn [bind]; [|reflexivity]. cbv zeta.
    destruct (ogood (os_write st (block_bytes le b))) eqn:G; [auto|]. destruct exc; auto. }
  assert (D : (1 <= Z.to_nat (n - 0))%nat \/ ogood os = true) by (left; lia).
  pose proof (xloop_U ogood _ f g H (Z.to_nat (n - 0)) 0 os D) as U.
  pose proof (xloop_D ogood _ f g H (Z.to_nat (n - 0)) n os D) as V. unfold forDx, forUx in *.
  destruct be.
  - destruct (loopDx _ n f os) as [ [s'|q]|]; cbn [bind] in *; try discriminate; injection E as ->; destruct V as [G ->]; cbn [bind]; rewrite G; cbn [negb]; rewrite ?andb_false_r, ?andb_true_r; [reflexivity|destruct exc; reflexivity].
  - destruct (loopUx _ 0 f os) as [ [s'|q]|]; cbn [bind] in *; try discriminate; injection E as ->; destruct U as [G ->]; cbn [bind]; rewrite G; cbn [negb]; rewrite ?andb_false_r, ?andb_true_r; [reflexivity|destruct exc; reflexivity].
Qed.

(** readBinary on a stream that throws: a short file makes it throw, with the bytes that were there in the number and
    zeros elsewhere, exactly as without exceptions. *)
Theorem C127_read_partial : forall le exc n s be, 1 <= n -> Forall is_byte s ->
  exists r, readBinary_x le exc n (mk_is s true) be =
      Ok ((if exc && (len s <? 4 * n) then Throws else Returns) (r, mk_is (skipn (Z.to_nat (4 * n)) s) (4 * n <=? len s))) /\
    wf n r /\ forall k, 0 <= k < 4 * n -> byte_at (bval r) (place le be n k) = (if k <? len s then nth (Z.to_nat k) s 0 else 0).
Proof.
  intros le exc n s be Hn F. destruct (readBinary_spec le n s be ltac:(lia) F) as (r & E & W & Q). exists r. conjs; auto.
  - rewrite (read_x_of le exc n (mk_is s true) be Hn _ _ E). cbn [igood]. destruct (Z.leb_spec (4 * n) (len s)), (Z.ltb_spec (len s) (4 * n)); try lia; destruct exc; reflexivity.
  - intros k Hk. rewrite Q by auto. unfold znth. destruct (Z.ltb_spec k 0); [lia|]. destruct (Z.ltb_spec k (len s)); [auto|]. apply nth_overflow. unfold len in *. lia.
Qed.
Print Assumptions C127_read_partial.
(** writeBinary returns whenever the sink takes all 4n bytes, and always when the stream does not throw. *)
Theorem C127_write_partial : forall le exc n a be o r, 1 <= n -> wf n a -> 0 <= r -> exc = false \/ 4 * n <= r ->
  exists w, len w = 4 * n /\ writeBinary le n a (mk_bos o None true) be = Ok (mk_bos (o ++ w) None true) /\
   writeBinary_x le exc n a (mk_bos o (Some r) true) be =
     Ok (Returns (mk_bos (o ++ firstn (Z.to_nat r) w) (Some (Z.max 0 (r - 4 * n))) (4 * n <=? r))).
Proof.
  intros le exc n a be o r Hn W Hr D. exists (file_bytes le be n a). rewrite file_bytes_len by lia. conjs; auto.
  - rewrite writeBinary_spec by (auto; discriminate). reflexivity.
  - erewrite write_x_of; [|auto|rewrite writeBinary_spec; [reflexivity|auto|cbn [oroom]; intros x Hx; injection Hx as <-; auto] ].
    unfold os_write. cbn [ogood oroom obytes]. rewrite file_bytes_len by lia.
    destruct D as [-> | D]; [reflexivity|]. replace (4 * n <=? r) with true by (symmetry; apply Z.leb_le; lia). rewrite andb_false_r. reflexivity.
Qed.
Print Assumptions C127_write_partial.
(** But writeBinary is noexcept: with exceptions enabled, a sink that refuses any of the bytes ends the program. *)
Theorem C127_write_refuted : forall le n a be o r, 1 <= n -> wf n a -> 0 <= r < 4 * n ->
  writeBinary_x le true n a (mk_bos o (Some r) true) be = Ok Terminates.
Proof.
  intros le n a be o r Hn W Hr. erewrite write_x_of; [|auto|rewrite writeBinary_spec; [reflexivity|auto|cbn [oroom]; intros x Hx; injection Hx as <-; lia] ].
  unfold os_write. cbn [ogood oroom obytes]. rewrite file_bytes_len by lia. replace (4 * n <=? r) with false by (symmetry; apply Z.leb_gt; lia). reflexivity.
Qed.
Print Assumptions C127_write_refuted.
Example C127_example :
  readBinary_x true true 2 (mk_is [1; 2; 3; 4; 5] true) false = Ok (Throws ([67305985; 5], mk_is [] false)) /\
  readBinary_x true false 2 (mk_is [1; 2; 3; 4; 5] true) false = Ok (Returns ([67305985; 5], mk_is [] false)) /\
  writeBinary_x true true 2 [67305985; 5] (mk_bos [] (Some 6) true) false = Ok Terminates /\
  writeBinary_x true false 2 [67305985; 5] (mk_bos [] (Some 6) true) false = Ok (Returns (mk_bos [1; 2; 3; 4; 5; 0] (Some 0) false)).
Proof. conjs; vm_compute; reflexivity. Qed.
