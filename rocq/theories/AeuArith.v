(** * AeuArith: proofs about addition, negation, increments, multiplication and construction of [Aeu]. *)
From Verif Require Export Lib AeuModel.
From Coq Require Import ZifyBool.
Open Scope Z_scope.

Ltac szu := repeat match goal with |- context [len (upd _ _ _)] => rewrite len_upd end.
Ltac lenlia := szu; lia.

Lemma modulus_eq n : modulus n = 2 ^ (32 * n). Proof. reflexivity. Qed.

(** ** addLine *)
Lemma addLine_spec n a b : wf n a -> wf n b ->
  exists r c, addLine n a b = Ok (r, c) /\ wf n r /\ 0 <= c <= 1 /\
    bval r + modulus n * c = bval a + bval b.
Proof.
  intros Ha Hb. pose proof (wf_nonneg _ _ Ha) as Hn.
  pose proof (wf_len _ _ Ha) as La. pose proof (wf_len _ _ Hb) as Lb.
  unfold addLine.
  match goal with |- context [forU 0 n ?B _] =>
  destruct (forU_spec (fun i '(d, c) => wf n d /\ 0 <= c <= 1 /\
      pval d i + 2 ^ (32 * i) * c = pval a i + pval b i /\
      forall j, i <= j -> znth d j = znth a j) 0 n B (a, 0)) as ([r c] & E & W & C & P & _) end.
  - lia.
  - rewrite !pval_0. repeat split; auto; try apply Ha; lia.
  - intros i [d c] Hi (Wd & Hc & P & T). pose proof (wf_len _ _ Wd) as Ld.
    rewrite !aget_ok by lia. cbn [bind]. cbv zeta.
    pose proof (wf_znth n d i Wd) as Z1. pose proof (wf_znth n b i Hb) as Z2.
    rewrite u64_small by lia. unfold blockBase.
    set (sum := znth d i + znth b i + c).
    assert (Hm : 0 <= sum mod 2 ^ 32 < 2 ^ 32) by (apply Z.mod_pos_bound; lia).
    rewrite u32_small by auto.
    rewrite aset_ok by lia. cbn [bind]. eexists. split; [reflexivity|].
    split; [apply wf_upd; auto|]. split; [subst sum; split; [apply Z.div_pos; lia| ]|].
    { assert ((znth d i + znth b i + c) / 2 ^ 32 < 2) by (apply Z.div_lt_upper_bound; lia). lia. }
    split.
    + rewrite !pval_succ by lenlia. rewrite pow32_succ by lia. rewrite pval_upd_ge by lia.
      rewrite znth_upd_eq by lia.
      pose proof (Z.div_mod sum (2 ^ 32) ltac:(lia)) as D.
      assert (E2 : 2 ^ (32 * i) * sum = 2 ^ (32 * i) * (2 ^ 32 * (sum / 2 ^ 32) + sum mod 2 ^ 32)) by (f_equal; exact D).
      assert (E3 : sum = znth a i + znth b i + c) by (subst sum; rewrite T by lia; auto).
      rewrite E3 in E2 at 1. lia.
    + intros j Hj. rewrite znth_upd_ne by lia. apply T. lia.
  - exists r, c. unfold modulus. rewrite E. rewrite !(pval_wf n) in P by auto. auto.
Qed.

Lemma mod_from_eq M z r q : 0 <= r < M -> r + M * q = z -> r = z mod M.
Proof. intros Hr E. rewrite <- E. rewrite Z.mul_comm, Z_mod_plus_full. rewrite Z.mod_small; auto. Qed.

Lemma add_assign_correct n a b : wf n a -> wf n b ->
  yields n (add_assign n a b) ((bval a + bval b) mod modulus n).
Proof.
  intros Ha Hb. destruct (addLine_spec n a b Ha Hb) as (r & c & E & W & C & P).
  unfold add_assign. rewrite E. cbn [bind]. apply yields_ok; auto.
  apply mod_from_eq with c; auto. apply bval_bound; auto.
Qed.

(** ** makeComplement *)
Lemma makeComplement_spec n a : wf n a ->
  exists r c, makeComplement n a = Ok (r, c) /\ wf n r /\ 0 <= c <= 1 /\
    bval r + modulus n * c = modulus n - bval a.
Proof.
  intros Ha. pose proof (wf_nonneg _ _ Ha) as Hn. pose proof (wf_len _ _ Ha) as La.
  unfold makeComplement.
  match goal with |- context [forU 0 n ?B _] =>
  destruct (forU_spec (fun i '(d, c) => wf n d /\ 0 <= c <= 1 /\
      pval d i + 2 ^ (32 * i) * c = 2 ^ (32 * i) - pval a i /\
      forall j, i <= j -> znth d j = znth a j) 0 n B (a, 1)) as ([r c] & E & W & C & P & _) end.
  - lia.
  - rewrite !pval_0. cbn [Z.mul]. repeat split; auto; try apply Ha; lia.
  - intros i [d c] Hi (Wd & Hc & P & T). pose proof (wf_len _ _ Wd) as Ld.
    rewrite !aget_ok by lia. cbn [bind]. cbv zeta.
    pose proof (wf_znth n d i Wd) as Z1. unfold blockBase.
    rewrite u64_small by lia.
    set (sum := 2 ^ 32 - 1 - znth d i + c).
    assert (Hm : 0 <= sum mod 2 ^ 32 < 2 ^ 32) by (apply Z.mod_pos_bound; lia).
    rewrite u32_small by auto.
    rewrite aset_ok by lia. cbn [bind]. eexists. split; [reflexivity|].
    split; [apply wf_upd; auto|]. split; [subst sum; split; [apply Z.div_pos; lia| ]|].
    { assert ((2 ^ 32 - 1 - znth d i + c) / 2 ^ 32 < 2) by (apply Z.div_lt_upper_bound; lia). lia. }
    split.
    + rewrite !pval_succ by lenlia. rewrite pow32_succ by lia. rewrite pval_upd_ge by lia.
      rewrite znth_upd_eq by lia.
      pose proof (Z.div_mod sum (2 ^ 32) ltac:(lia)) as D.
      assert (E2 : 2 ^ (32 * i) * sum = 2 ^ (32 * i) * (2 ^ 32 * (sum / 2 ^ 32) + sum mod 2 ^ 32)) by (f_equal; exact D).
      assert (E3 : sum = 2 ^ 32 - 1 - znth a i + c) by (subst sum; rewrite T by lia; auto).
      rewrite E3 in E2 at 1. lia.
    + intros j Hj. rewrite znth_upd_ne by lia. apply T. lia.
  - exists r, c. unfold modulus. rewrite E. rewrite !(pval_wf n) in P by auto. auto.
Qed.

Lemma op_neg_correct n a : wf n a -> yields n (op_neg n a) ((- bval a) mod modulus n).
Proof.
  intros Ha. destruct (makeComplement_spec n a Ha) as (r & c & E & W & C & P).
  unfold op_neg. rewrite E. cbn [bind]. apply yields_ok; auto.
  apply mod_from_eq with (c - 1); [apply bval_bound; auto|]. lia.
Qed.

Lemma sub_assign_correct n a b : wf n a -> wf n b ->
  yields n (sub_assign n a b) ((bval a - bval b) mod modulus n).
Proof.
  intros Ha Hb. unfold sub_assign. eapply yields_bind; [apply op_neg_correct; auto|].
  intros r Wr Er. destruct (add_assign_correct n a r Ha Wr) as (s & E & Ws & Es).
  rewrite E. apply yields_ok; auto. rewrite Es, Er. rewrite Zplus_mod_idemp_r. f_equal.
Qed.

(** ** Increments *)
Lemma op_inc_correct n a : wf n a -> yields n (op_inc n a) ((bval a + 1) mod modulus n).
Proof.
  intros Ha. pose proof (wf_nonneg _ _ Ha) as Hn. pose proof (wf_len _ _ Ha) as La.
  unfold op_inc.
  match goal with |- context [forUx 0 n ?B _] =>
  destruct (forUx_spec (fun i d => wf n d /\ bval d + 2 ^ (32 * i) = bval a + 1) (fun r => wf n r /\ bval r = bval a + 1) 0 n B a) as (x & E & P) end.
  - lia.
  - cbn [Z.mul]. split; auto; lia.
  - intros i d Hi (Wd & P). pose proof (wf_len _ _ Wd) as Ld.
    rewrite aget_ok by lia. cbn [bind]. unfold blockMax. pose proof (wf_znth n d i Wd) as Z1.
    destruct (Z.ltb_spec (znth d i) (2 ^ 32 - 1)).
    + rewrite u32_small by lia. rewrite aset_ok by lia. cbn [bind]. eexists; split; [reflexivity|].
      cbn [step_post]. split; [apply wf_upd; auto; lia|]. rewrite bval_upd by lia.
      replace (znth d i + 1 - znth d i) with 1 by lia. lia.
    + rewrite aset_ok by lia. cbn [bind]. eexists; split; [reflexivity|].
      cbn [step_post]. split; [apply wf_upd; auto; lia|]. rewrite bval_upd by lia.
      rewrite pow32_succ by lia. replace (znth d i) with (2 ^ 32 - 1) by lia. lia.
  - rewrite E. cbn [bind]. destruct x as [d|d]; cbn [step_post] in P; destruct P as [W P]; apply yields_ok; auto.
    + pose proof (bval_bound n d W). fold (modulus n) in P. apply mod_from_eq with 1; auto; lia.
    + rewrite <- P. symmetry. apply Z.mod_small. apply bval_bound; auto.
Qed.

Lemma op_dec_correct n a : wf n a -> yields n (op_dec n a) ((bval a - 1) mod modulus n).
Proof.
  intros Ha. pose proof (wf_nonneg _ _ Ha) as Hn. pose proof (wf_len _ _ Ha) as La.
  unfold op_dec.
  match goal with |- context [forUx 0 n ?B _] =>
  destruct (forUx_spec (fun i d => wf n d /\ bval d - 2 ^ (32 * i) = bval a - 1) (fun r => wf n r /\ bval r = bval a - 1) 0 n B a) as (x & E & P) end.
  - lia.
  - cbn [Z.mul]. split; auto; lia.
  - intros i d Hi (Wd & P). pose proof (wf_len _ _ Wd) as Ld.
    rewrite aget_ok by lia. cbn [bind]. unfold blockMax. pose proof (wf_znth n d i Wd) as Z1.
    destruct (Z.gtb_spec (znth d i) 0).
    + rewrite u32_small by lia. rewrite aset_ok by lia. cbn [bind]. eexists; split; [reflexivity|].
      cbn [step_post]. split; [apply wf_upd; auto; lia|]. rewrite bval_upd by lia.
      replace (znth d i - 1 - znth d i) with (-1) by lia. lia.
    + rewrite aset_ok by lia. cbn [bind]. eexists; split; [reflexivity|].
      cbn [step_post]. split; [apply wf_upd; auto; lia|]. rewrite bval_upd by lia.
      rewrite pow32_succ by lia. replace (znth d i) with 0 by lia. lia.
  - rewrite E. cbn [bind]. destruct x as [d|d]; cbn [step_post] in P; destruct P as [W P]; apply yields_ok; auto.
    + pose proof (bval_bound n d W). fold (modulus n) in P. apply mod_from_eq with (-1); auto; lia.
    + rewrite <- P. symmetry. apply Z.mod_small. apply bval_bound; auto.
Qed.

(** ** Built-in addends *)
Lemma u64_idem_small t v : 0 <= v < 2 ^ uwidth t -> 0 <= v < 2 ^ 64.
Proof. destruct t; cbn [uwidth]; lia. Qed.

Lemma ucast_bit t v : 0 <= v <= 1 -> ucast t v = v.
Proof.
  intros H. assert (v = 0 \/ v = 1) as [-> | ->] by lia; destruct t; reflexivity.
Qed.

(** What a 64-bit wrap of the very first addition (block 0 + addend) loses. *)
Definition lost64 (a : list Z) (v : Z) : Z := if znth a 0 + v <? 2 ^ 64 then 0 else 2 ^ 64.

Lemma add_assign_u_gen n t a v : wf n a -> 0 <= v < 2 ^ uwidth t ->
  yields n (add_assign_u n t a v) ((bval a + v - (if n =? 0 then 0 else lost64 a v)) mod modulus n).
Proof.
  intros Ha Hv. pose proof (wf_nonneg _ _ Ha) as Hn. pose proof (wf_len _ _ Ha) as La.
  pose proof (u64_idem_small _ _ Hv) as Hv64.
  unfold add_assign_u.
  match goal with |- context [forU 0 n ?B _] =>
  destruct (forU_spec (fun i '(d, c) => wf n d /\ 0 <= c < 2 ^ 64 /\
      (i = 0 -> c = v) /\ (0 < i -> c < 2 ^ 32) /\
      pval d i + 2 ^ (32 * i) * c = pval a i + v - (if i =? 0 then 0 else lost64 a v) /\
      forall j, i <= j -> znth d j = znth a j) 0 n B (a, v)) as ([r c] & E & W & C & _ & _ & P & _) end.
  - lia.
  - rewrite !pval_0. change (2 ^ (32 * 0)) with 1. cbn [Z.eqb]. repeat split; auto; try apply Ha; try lia.
  - intros i [d c] Hi (Wd & Hc & C0 & C1 & P & T). pose proof (wf_len _ _ Wd) as Ld.
    rewrite !aget_ok by lia. cbn [bind]. cbv zeta.
    pose proof (wf_znth n d i Wd) as Z1.
    rewrite (u64_small c) by lia. unfold blockBase.
    set (sum := u64 (znth d i + c)) in *.
    assert (Hsum : 0 <= sum < 2 ^ 64) by apply u64_range.
    assert (Hw : sum = znth d i + c - (if i =? 0 then lost64 a v else 0)).
    { subst sum. unfold lost64. destruct (Z.eqb_spec i 0) as [->|Hi0].
      - rewrite C0 by auto. rewrite T by lia. pose proof (wf_znth n a 0 Ha). unfold u64.
        destruct (Z.ltb_spec (znth a 0 + v) (2 ^ 64)); [rewrite Z.mod_small; lia|].
        symmetry. apply mod_from_eq with 1; lia.
      - specialize (C1 ltac:(lia)). rewrite u64_small; lia. }
    assert (Hm : 0 <= sum mod 2 ^ 32 < 2 ^ 32) by (apply Z.mod_pos_bound; lia).
    rewrite u32_small by auto.
    assert (Hq : 0 <= sum / 2 ^ 32 < 2 ^ 32).
    { split; [apply Z.div_pos; lia|]. apply Z.div_lt_upper_bound; lia. }
    assert (Hk : ucast t (sum / 2 ^ 32) = sum / 2 ^ 32).
    { destruct (uwidth t <=? 32) eqn:Ht.
      - apply ucast_bit. assert (c < 2 ^ 32) as Hcc.
        { destruct (Z.eq_dec i 0) as [->|]; [rewrite C0 by auto|]; [|apply C1; lia].
          apply Z.lt_le_trans with (2 ^ uwidth t); [lia|]. apply Z.pow_le_mono_r; lia. }
        assert (sum <= znth d i + c) by (rewrite Hw; unfold lost64; destruct (i =? 0); try destruct (_ <? _); lia).
        assert (sum / 2 ^ 32 < 2) by (apply Z.div_lt_upper_bound; lia). lia.
      - destruct t; cbn in Ht; try discriminate; unfold ucast, uwidth; apply Z.mod_small; lia. }
    rewrite Hk. rewrite aset_ok by lia. cbn [bind]. eexists. split; [reflexivity|].
    split; [apply wf_upd; auto|]. split; [lia|]. split; [lia|]. split; [lia|]. split.
    + rewrite !pval_succ by lenlia. rewrite pow32_succ by lia. rewrite pval_upd_ge by lia.
      rewrite znth_upd_eq by lia.
      pose proof (Z.div_mod sum (2 ^ 32) ltac:(lia)) as D.
      assert (E2 : 2 ^ (32 * i) * sum = 2 ^ (32 * i) * (2 ^ 32 * (sum / 2 ^ 32) + sum mod 2 ^ 32)) by (f_equal; exact D).
      rewrite Hw in E2 at 1. rewrite T in E2 by lia.
      destruct (Z.eqb_spec (i + 1) 0); [lia|]. destruct (Z.eqb_spec i 0) as [->|].
      * change (2 ^ (32 * 0)) with 1 in *. lia.
      * lia.
    + intros j Hj. rewrite znth_upd_ne by lia. apply T. lia.
  - rewrite E. cbn [bind]. apply yields_ok; auto. rewrite !(pval_wf n) in P by auto. fold (modulus n) in P.
    apply mod_from_eq with c; auto. apply bval_bound; auto.
Qed.

Lemma add_assign_u_nowrap n t a v : wf n a -> 0 <= v < 2 ^ uwidth t -> znth a 0 + v < 2 ^ 64 ->
  yields n (add_assign_u n t a v) ((bval a + v) mod modulus n).
Proof.
  intros Ha Hv H. replace (bval a + v) with (bval a + v - (if n =? 0 then 0 else lost64 a v)).
  - apply add_assign_u_gen; auto.
  - unfold lost64. destruct (Z.ltb_spec (znth a 0 + v) (2 ^ 64)); [|lia]. destruct (n =? 0); lia.
Qed.

Lemma add_assign_u_correct n t a v : wf n a -> 0 <= v < 2 ^ uwidth t -> uwidth t <= 32 ->
  yields n (add_assign_u n t a v) ((bval a + v) mod modulus n).
Proof.
  intros Ha Hv Ht. apply add_assign_u_nowrap; auto. pose proof (wf_znth n a 0 Ha).
  assert (2 ^ uwidth t <= 2 ^ 32) by (apply Z.pow_le_mono_r; lia). lia.
Qed.

(** ** Construction from built-in unsigned *)
Lemma from_unsigned_correct n junk v : 0 <= n -> len junk = n -> 0 <= v < 2 ^ 64 ->
  yields n (from_unsigned n junk v) (v mod modulus n).
Proof.
  intros Hn Lj Hv. unfold from_unsigned. destruct (Z.eqb_spec v 0) as [->|Hne]; cbn [negb].
  - apply yields_ok; [apply wf_zeros; auto|]. rewrite bval_zeros. rewrite Z.mod_0_l; auto. pose proof (modulus_pos n Hn). lia.
  - match goal with |- context [forU 0 n ?B _] =>
  destruct (forU_spec (fun i '(d, c) => len d = n /\ (forall j, 0 <= j < i -> 0 <= znth d j < 2 ^ 32) /\ 0 <= c < 2 ^ 64 /\
      pval d i + 2 ^ (32 * i) * c = v) 0 n B (junk, u64 v)) as ([r c] & E & L & W & C & P) end.
    + lia.
    + rewrite pval_0. rewrite u64_small by lia. change (2 ^ (32 * 0)) with 1. repeat split; auto; lia.
    + intros i [d c] Hi (Ld & Wd & Hc & P). unfold blockBase.
      assert (Hm : 0 <= c mod 2 ^ 32 < 2 ^ 32) by (apply Z.mod_pos_bound; lia).
      rewrite u32_small by auto. rewrite aset_ok by lia. cbn [bind]. eexists. split; [reflexivity|].
      split; [lenlia|]. split.
      * intros j Hj. rewrite znth_upd by lia. destruct (Z.eqb_spec i j); auto. apply Wd. lia.
      * split; [split; [apply Z.div_pos; lia|apply Z.div_lt_upper_bound; lia]|].
        rewrite pval_succ by lenlia. rewrite pow32_succ by lia. rewrite pval_upd_ge by lia. rewrite znth_upd_eq by lia.
        pose proof (Z.div_mod c (2 ^ 32) ltac:(lia)) as D.
        assert (E2 : 2 ^ (32 * i) * c = 2 ^ (32 * i) * (2 ^ 32 * (c / 2 ^ 32) + c mod 2 ^ 32)) by (f_equal; exact D).
        lia.
    + rewrite E. cbn [bind]. assert (wf n r) as Wr by (apply wf_intro; auto).
      apply yields_ok; auto. rewrite (pval_wf n) in P by auto. fold (modulus n) in P.
      apply mod_from_eq with c; auto. apply bval_bound; auto.
Qed.

(** ** filledBlocksNumber *)
Lemma filledBlocksNumber_spec n a : wf n a ->
  exists f, filledBlocksNumber n a = Ok f /\ 0 <= f <= n /\
    (forall j, f <= j -> znth a j = 0) /\ (f = 0 \/ znth a (f - 1) <> 0).
Proof.
  intros Ha. pose proof (wf_nonneg _ _ Ha) as Hn. pose proof (wf_len _ _ Ha) as La.
  unfold filledBlocksNumber.
  match goal with |- context [forDx n 0 ?B _] =>
  destruct (forDx_spec (fun i (_ : unit) => forall j, i <= j -> znth a j = 0) (fun f => 0 < f <= n /\ (forall j, f <= j -> znth a j = 0) /\ znth a (f - 1) <> 0) n 0 B tt) as (x & E & P) end.
  - lia.
  - intros j Hj. apply znth_out. lia.
  - intros i _ Hi T. rewrite aget_ok by lia. cbn [bind]. destruct (Z.eqb_spec (znth a i) 0); cbn [negb].
    + eexists. split; [reflexivity|]. cbn. intros j Hj. destruct (Z.eq_dec j i) as [->|]; auto. apply T. lia.
    + eexists. split; [reflexivity|]. cbn [step_post]. split; [lia|]. split; auto. replace (i + 1 - 1) with i by lia. auto.
  - rewrite E. cbn [bind]. destruct x as [[]|f]; cbn [step_post] in P.
    + exists 0. repeat split; auto; lia.
    + exists f. destruct P as (? & ? & ?). repeat split; auto; lia.
Qed.

Lemma pval_const_above n a f k : wf n a -> (forall j, f <= j -> znth a j = 0) -> 0 <= f <= k -> k <= n ->
  pval a k = pval a f.
Proof.
  intros Ha T Hf. pose proof (wf_len _ _ Ha). assert (G : forall d, 0 <= d -> f + d <= n -> pval a (f + d) = pval a f).
  { intros d Hd. pattern d. apply natlike_ind; auto.
    - intros. f_equal. lia.
    - intros x Hx IH Hx2. unfold Z.succ in *. rewrite Z.add_assoc. rewrite pval_succ by lia. rewrite T by lia. rewrite IH by lia. ring. }
  intros. replace k with (f + (k - f)) by lia. apply G; lia.
Qed.

Lemma bval_filled n a f : wf n a -> 0 <= f <= n -> (forall j, f <= j -> znth a j = 0) -> bval a = pval a f.
Proof. intros. rewrite <- (pval_wf n) by auto. apply (pval_const_above n); auto; lia. Qed.

Lemma filled_bounds n a f : wf n a -> 0 <= f <= n -> (forall j, f <= j -> znth a j = 0) ->
  (f = 0 \/ znth a (f - 1) <> 0) ->
  0 <= bval a < 2 ^ (32 * f) /\ (f = 0 \/ 2 ^ (32 * (f - 1)) <= bval a).
Proof.
  intros Ha Hf T N. pose proof (wf_len _ _ Ha). rewrite (bval_filled n a f) by auto. split; [apply (pval_bound n); auto|].
  destruct N as [->|N]; auto. destruct (Z.eq_dec f 0); auto. right.
  replace f with (f - 1 + 1) at 2 by lia. rewrite pval_succ by lia.
  pose proof (wf_znth n a (f - 1) Ha). pose proof (pval_bound n a (f - 1) Ha ltac:(lia)).
  pose proof (pow32_pos (f - 1) ltac:(lia)). nia.
Qed.

Lemma isZero_spec n a : wf n a -> isZero n a = Ok (bval a =? 0).
Proof.
  intros Ha. destruct (filledBlocksNumber_spec n a Ha) as (f & E & Hf & T & N).
  unfold isZero. rewrite E. cbn [bind]. f_equal.
  destruct (filled_bounds n a f Ha Hf T N) as [B1 B2].
  destruct (Z.eqb_spec f 0) as [->|Hf0].
  - cbn in B1. symmetry. apply Z.eqb_eq. lia.
  - symmetry. apply Z.eqb_neq. pose proof (pow32_pos (f - 1) ltac:(lia)). lia.
Qed.

(** ** Multiplication *)

(** The schoolbook loop.  [b] is the smaller factor as a number with [m] digits. *)
Lemma pow2_mul_bound x y : 0 <= x < 2 ^ 32 -> 0 <= y < 2 ^ 32 -> 0 <= x * y <= (2 ^ 32 - 1) * (2 ^ 32 - 1).
Proof. intros. split; [nia|]. apply Z.mul_le_mono_nonneg; lia. Qed.

Fixpoint dsum (digit : Z -> Z) (k : nat) : Z :=
  match k with O => 0 | S k' => dsum digit k' + 2 ^ (32 * Z.of_nat k') * digit (Z.of_nat k') end.
Definition dval (digit : Z -> Z) (k : Z) : Z := dsum digit (Z.to_nat k).
Lemma dval_0 d : dval d 0 = 0. Proof. reflexivity. Qed.
Lemma dval_succ d k : 0 <= k -> dval d (k + 1) = dval d k + 2 ^ (32 * k) * d k.
Proof. intros. unfold dval. replace (Z.to_nat (k + 1)) with (S (Z.to_nat k)) by lia. cbn [dsum]. rewrite Z2Nat.id by lia. auto. Qed.
Lemma dval_bound d k : 0 <= k -> (forall j, 0 <= j < k -> 0 <= d j < 2 ^ 32) -> 0 <= dval d k < 2 ^ (32 * k).
Proof.
  intros Hk. pattern k. apply natlike_ind; auto.
  - intros _. rewrite dval_0. cbn. lia.
  - intros x Hx IH H. unfold Z.succ in *. rewrite dval_succ by auto. rewrite pow32_succ by auto.
    assert (0 <= dval d x < 2 ^ (32 * x)) by (apply IH; intros; apply H; lia). specialize (H x ltac:(lia)). nia.
Qed.
Lemma dval_znth a k : 0 <= k <= len a -> dval (znth a) k = pval a k.
Proof.
  intros [Hk Hk2]. revert Hk2. pattern k. apply natlike_ind; auto.
  intros x Hx IH Hx2. unfold Z.succ in *. rewrite dval_succ, pval_succ by lia. rewrite IH by lia. auto.
Qed.

Lemma inner_mul n m i t buf (digit : Z -> Z) dig :
  wf n buf -> 0 <= i < n -> 0 <= m -> 0 <= t < 2 ^ 32 ->
  (forall j, 0 <= j < m -> dig j = Ok (digit j) /\ 0 <= digit j < 2 ^ 32) ->
  exists buf' c,
    mul_inner n i t dig m buf = Ok (buf', c) /\
    wf n buf' /\ 0 <= c < 2 ^ 32 /\
    bval buf' + 2 ^ (32 * (i + Z.min m (n - i))) * c = bval buf + 2 ^ (32 * i) * t * dval digit (Z.min m (n - i)) /\
    (forall k, i + Z.min m (n - i) <= k -> znth buf' k = znth buf k).
Proof.
  intros Wb Hi Hm Ht Hd. set (K := Z.min m (n - i)). assert (HK : 0 <= K <= m /\ i + K <= n) by lia.
  unfold mul_inner. fold K. match goal with |- exists buf' c, forU 0 K ?B _ = _ /\ _ =>
  destruct (forU_spec (fun j '(d, c) => wf n d /\ 0 <= c < 2 ^ 32 /\
     bval d + 2 ^ (32 * (i + j)) * c = bval buf + 2 ^ (32 * i) * t * dval digit j /\
     (forall k, i + j <= k -> znth d k = znth buf k)) 0 K B (buf, 0)) as ([d c] & E & W & C & P & T) end.
  - lia.
  - rewrite dval_0. repeat split; auto; try apply Wb; try lia.
  - intros j [d c] Hj (Wd & Hc & P & T). destruct (Hd j ltac:(lia)) as [Ed Hdj].
    pose proof (wf_len _ _ Wd) as Ld. pose proof (wf_znth n d (i + j) Wd) as Z1.
    rewrite Ed. cbn [bind]. cbv zeta. rewrite aget_ok by lia. cbn [bind].
    pose proof (pow2_mul_bound t (digit j) Ht Hdj) as Hp.
    rewrite (u64_small (t * digit j + c)) by lia. unfold blockBase.
    set (pr := t * digit j + c) in *.
    assert (Hm1 : 0 <= pr mod 2 ^ 32 < 2 ^ 32) by (apply Z.mod_pos_bound; lia).
    pose proof (Z.div_mod pr (2 ^ 32) ltac:(lia)) as D1.
    rewrite (u64_small (znth d (i + j) + _)) by lia.
    set (pa := znth d (i + j) + pr mod 2 ^ 32) in *.
    assert (Hm2 : 0 <= pa mod 2 ^ 32 < 2 ^ 32) by (apply Z.mod_pos_bound; lia).
    pose proof (Z.div_mod pa (2 ^ 32) ltac:(lia)) as D2.
    assert (0 <= pr / 2 ^ 32) by (apply Z.div_pos; lia). assert (0 <= pa / 2 ^ 32) by (apply Z.div_pos; lia).
    assert (Hc' : 0 <= pr / 2 ^ 32 + pa / 2 ^ 32 < 2 ^ 32).
    { split; [lia|]. subst pr pa. lia. }
    rewrite u64_small by lia. rewrite u32_small by lia. rewrite aset_ok by lia. cbn [bind].
    eexists. split; [reflexivity|]. split; [apply wf_upd; auto|]. split; [auto|]. split.
    + rewrite bval_upd by lia. rewrite dval_succ by lia.
      replace (i + (j + 1)) with (i + j + 1) by lia. rewrite pow32_succ by lia.
      assert (E2 : 2 ^ (32 * (i + j)) = 2 ^ (32 * i) * 2 ^ (32 * j)) by (rewrite <- Z.pow_add_r by lia; f_equal; lia).
      assert (E1 : 2 ^ 32 * (pr / 2 ^ 32 + pa / 2 ^ 32) + (pa mod 2 ^ 32 - znth d (i + j)) = t * digit j + c) by (subst pa pr; lia).
      assert (E3 : 2 ^ (32 * (i + j)) * (2 ^ 32 * (pr / 2 ^ 32 + pa / 2 ^ 32) + (pa mod 2 ^ 32 - znth d (i + j))) = 2 ^ (32 * (i + j)) * (t * digit j + c)) by (f_equal; exact E1).
      assert (E4 : 2 ^ (32 * (i + j)) * (t * digit j) = 2 ^ (32 * i) * t * (2 ^ (32 * j) * digit j)) by (rewrite E2; ring).
      lia.
    + intros k Hk. rewrite znth_upd_ne by lia. apply T. lia.
  - exists d, c. auto.
Qed.

(** The whole multiplication. [guard] is on whenever there is room for the final carry. *)
Lemma mul_lines_spec n a L m (digit : Z -> Z) dig guard :
  wf n a -> 0 <= L <= n -> 0 <= m ->
  (forall j, L <= j -> znth a j = 0) ->
  (forall j, 0 <= j < m -> dig j = Ok (digit j) /\ 0 <= digit j < 2 ^ 32) ->
  (m < n -> guard = true) ->
  yields n (mul_lines n guard a L dig m) ((bval a * dval digit m) mod modulus n).
Proof.
  intros Wa HL Hm Ta Hd Hg. pose proof (wf_nonneg _ _ Wa) as Hn. pose proof (wf_len _ _ Wa) as La.
  pose proof (dval_bound digit m Hm (fun j Hj => proj2 (Hd j Hj))) as HD.
  unfold mul_lines.
  match goal with |- context [forU 0 L ?B _] =>
  destruct (forU_spec (fun i buf => wf n buf /\
      (exists q, bval buf + modulus n * q = pval a i * dval digit m) /\
      (forall k, m + i <= k -> znth buf k = 0)) 0 L B (zeros n)) as (r & E & W & (q & P) & _) end.
  - lia.
  - rewrite bval_zeros, pval_0. split; [apply wf_zeros; auto|]. split; [exists 0; lia|]. intros. apply znth_zeros.
  - intros i buf Hi (Wb & (q & P) & T).
    rewrite aget_ok by lia. cbn [bind]. pose proof (wf_znth n a i Wa) as Zt.
    destruct (inner_mul n m i (znth a i) buf digit dig Wb ltac:(lia) Hm Zt Hd) as (buf' & c & E & W' & Hc & P' & T').
    rewrite E. cbn [bind]. pose proof (wf_len _ _ W') as L'.
    rewrite (pval_succ a i) by lia.
    destruct (Z.ltb_spec (m + i) n) as [Hroom|Hroom].
    + (* there is room for the carry block *)
      rewrite Hg by lia. cbn [andb]. rewrite Z.min_l in * by lia.
      rewrite aget_ok by lia. cbn [bind]. rewrite T' by lia. rewrite T by lia.
      rewrite (u32_small c) by lia. rewrite Z.add_0_l. rewrite u32_small by lia.
      rewrite aset_ok by lia. eexists. split; [reflexivity|]. split; [apply wf_upd; auto|]. split.
      * exists q. rewrite bval_upd by lia. rewrite T' by lia. rewrite T by lia. rewrite Z.sub_0_r.
        replace (m + i) with (i + m) by lia. lia.
      * intros k Hk. rewrite znth_upd_ne by lia. rewrite T' by lia. apply T. lia.
    + (* the top of the product is cut off *)
      replace (guard && false)%bool with false by (destruct guard; auto).
      eexists. split; [reflexivity|]. split; [auto|]. rewrite Z.min_r in * by lia. split.
      * (* dval digit m = dval digit (n-i) + 2^(32(n-i)) * h *)
        assert (G : forall d, 0 <= d -> exists h, dval digit (n - i + d) = dval digit (n - i) + 2 ^ (32 * (n - i)) * h).
        { intros d Hd0. pattern d. apply natlike_ind; auto.
          - exists 0. rewrite Z.add_0_r. lia.
          - intros x Hx (h & Eh). unfold Z.succ. rewrite Z.add_assoc. rewrite dval_succ by lia. rewrite Eh.
            exists (h + 2 ^ (32 * x) * digit (n - i + x)).
            replace (32 * (n - i + x)) with (32 * (n - i) + 32 * x) by lia. rewrite Z.pow_add_r by lia. ring. }
        destruct (G (m - (n - i)) ltac:(lia)) as (h & Eh). replace (n - i + (m - (n - i))) with m in Eh by lia.
        exists (q + c + znth a i * h).
        assert (E2 : modulus n = 2 ^ (32 * i) * 2 ^ (32 * (n - i))) by (unfold modulus; rewrite <- Z.pow_add_r by lia; f_equal; lia).
        replace (i + (n - i)) with n in P' by lia. fold (modulus n) in P'.
        rewrite Z.mul_add_distr_r. rewrite <- P.
        replace (2 ^ (32 * i) * znth a i * dval digit m) with
          (2 ^ (32 * i) * znth a i * dval digit (n - i) + modulus n * (znth a i * h)) by (rewrite Eh, E2; ring).
        lia.
      * intros k Hk. rewrite T' by lia. apply T. lia.
  - rewrite E. apply yields_ok; auto. apply mod_from_eq with q; [apply bval_bound; auto|].
    rewrite P. rewrite (bval_filled n a L) by auto. auto.
Qed.

Lemma mul_assign_correct n a b : wf n a -> wf n b ->
  yields n (mul_assign n a b) ((bval a * bval b) mod modulus n).
Proof.
  intros Wa Wb. pose proof (wf_len _ _ Wa) as La. pose proof (wf_len _ _ Wb) as Lb.
  destruct (filledBlocksNumber_spec n a Wa) as (fa & Ea & Ha & Ta & Na).
  destruct (filledBlocksNumber_spec n b Wb) as (fb & Eb & Hb & Tb & Nb).
  unfold mul_assign, multiplyLines. rewrite Ea. cbn [bind]. rewrite Eb. cbn [bind].
  destruct (fa >? fb) eqn:C.
  - rewrite (bval_filled n b fb) by auto. rewrite <- dval_znth by lia.
    apply mul_lines_spec; auto; try lia.
    intros j Hj. split; [apply aget_ok; lia|]. apply (wf_znth n); auto.
  - rewrite (Z.mul_comm (bval a)). rewrite (bval_filled n a fa) by auto. rewrite <- dval_znth by lia.
    apply mul_lines_spec; auto; try lia.
    intros j Hj. split; [apply aget_ok; lia|]. apply (wf_znth n); auto.
Qed.

(** Built-in factors, uint64_t branch. *)
Lemma mul_assign_u64_correct n a v : wf n a -> 0 <= v < 2 ^ 64 ->
  yields n (mul_assign_u n U64 a v) ((bval a * v) mod modulus n).
Proof.
  intros Wa Hv. destruct (filledBlocksNumber_spec n a Wa) as (fa & Ea & Ha & Ta & Na).
  unfold mul_assign_u. cbn [is_uint64_t]. rewrite Ea. cbn [bind]. cbv zeta.
  set (m := if v >? blockMax then 2 else 1).
  set (digit := fun j => Z.land (Z.shiftr v (blockBitLength * j)) (2 ^ 32 - 1)).
  assert (Ed : forall j, 0 <= j -> digit j = (v / 2 ^ (32 * j)) mod 2 ^ 32).
  { intros j Hj. unfold digit, blockBitLength. rewrite Z.shiftr_div_pow2 by lia. change (2 ^ 32 - 1) with (Z.ones 32). apply Z.land_ones. lia. }
  assert (D : dval digit m = v).
  { subst m. unfold blockMax. pose proof (Z.div_mod v (2 ^ 32) ltac:(lia)).
    destruct (v >? 2 ^ 32 - 1) eqn:C.
    - replace 2 with (0 + 1 + 1) by lia. rewrite !dval_succ, dval_0 by lia. rewrite !Ed by lia.
      change (32 * (0 + 1)) with 32. change (32 * 0) with 0. rewrite Z.pow_0_r, Z.div_1_r.
      rewrite (Z.mod_small (v / 2 ^ 32)) by (split; [apply Z.div_pos; lia | apply Z.div_lt_upper_bound; lia]). lia.
    - replace 1 with (0 + 1) by lia. rewrite !dval_succ, dval_0 by lia. rewrite !Ed by lia.
      change (32 * 0) with 0. rewrite Z.pow_0_r, Z.div_1_r. rewrite Z.mod_small by lia. lia. }
  replace (bval a * v) with (bval a * dval digit m) by (rewrite D; auto). apply mul_lines_spec; auto; try lia.
  - subst m. destruct (v >? blockMax); lia.
  - intros j Hj. split; auto. rewrite Ed by lia. apply Z.mod_pos_bound. lia.
Qed.

(** Built-in factors, the single-pass branch: right as long as the factor is at most 2^32. *)
Lemma mul_assign_u_small n t a v : wf n a -> is_uint64_t t = false -> 0 <= v <= 2 ^ 32 ->
  yields n (mul_assign_u n t a v) ((bval a * v) mod modulus n).
Proof.
  intros Wa Ht Hv. pose proof (wf_nonneg _ _ Wa) as Hn. pose proof (wf_len _ _ Wa) as La.
  unfold mul_assign_u. rewrite Ht.
  match goal with |- context [forU 0 n ?B _] =>
  destruct (forU_spec (fun i '(d, c) => wf n d /\ 0 <= c < 2 ^ 32 /\
      pval d i + 2 ^ (32 * i) * c = pval a i * v /\
      forall j, i <= j -> znth d j = znth a j) 0 n B (a, 0)) as ([r c] & E & W & C & P & _) end.
  - lia.
  - rewrite !pval_0. repeat split; auto; try apply Wa; lia.
  - intros i [d c] Hi (Wd & Hc & P & T). pose proof (wf_len _ _ Wd) as Ld.
    rewrite !aget_ok by lia. cbn [bind]. cbv zeta.
    pose proof (wf_znth n d i Wd) as Z1.
    assert (Hp : 0 <= v * znth d i <= 2 ^ 32 * (2 ^ 32 - 1)) by (split; [nia|apply Z.mul_le_mono_nonneg; lia]).
    rewrite (u64_small v) by lia. rewrite (u64_small (v * _)) by lia. rewrite u64_small by lia. unfold blockBase.
    set (sum := v * znth d i + c) in *.
    assert (Hm : 0 <= sum mod 2 ^ 32 < 2 ^ 32) by (apply Z.mod_pos_bound; lia).
    rewrite u32_small by auto.
    rewrite aset_ok by lia. cbn [bind]. eexists. split; [reflexivity|].
    split; [apply wf_upd; auto|]. split; [split; [apply Z.div_pos; lia| apply Z.div_lt_upper_bound; lia]|].
    split.
    + rewrite !pval_succ by lenlia. rewrite pow32_succ by lia. rewrite pval_upd_ge by lia.
      rewrite znth_upd_eq by lia.
      pose proof (Z.div_mod sum (2 ^ 32) ltac:(lia)) as D.
      assert (E2 : 2 ^ (32 * i) * sum = 2 ^ (32 * i) * (2 ^ 32 * (sum / 2 ^ 32) + sum mod 2 ^ 32)) by (f_equal; exact D).
      assert (E3 : sum = v * znth a i + c) by (subst sum; rewrite T by lia; auto).
      rewrite E3 in E2 at 1. lia.
    + intros j Hj. rewrite znth_upd_ne by lia. apply T. lia.
  - rewrite E. cbn [bind]. apply yields_ok; auto. rewrite !(pval_wf n) in P by auto. fold (modulus n) in P.
    apply mod_from_eq with c; auto. apply bval_bound; auto.
Qed.

Lemma mul_assign_u_correct n t a v : wf n a -> 0 <= v < 2 ^ uwidth t -> t <> ULL ->
  yields n (mul_assign_u n t a v) ((bval a * v) mod modulus n).
Proof.
  intros Wa Hv Ht. destruct t; try congruence; cbn [uwidth] in Hv;
    try (apply mul_assign_u_small; auto; lia).
  apply mul_assign_u64_correct; auto.
Qed.
