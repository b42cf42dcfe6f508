(** * PropsTest7: the arithmetic tests on fixed values hold for all values (C144). *)
From Coq Require Import ZifyBool.
From Verif Require Import Spec Lib AeuModel AeuArith AeuBits AeuAccess AeuDiv AeuFacts AeuMore AesiModel AesiArith AesiFacts
  MixModel MixFacts BinModel BinFacts TestModel TestFacts PropsMix PropsTest PropsExact PropsTest2 PropsUse2 PropsAesi
  TextSpec TextModel TextFacts TextMore TextOut PropsText TestModel2 PropsTest3 PropsExact2 PropsAeu PropsEdge TestModel5.
Open Scope Z_scope.

(** ** The tests decide exactly the conjunction of their checks, whatever the number type does *)
(** [EXPECT_EQ(x, k)] holds: the expression has a result, which compares equal to [k]. *)
Definition passes {T} (o : number T) (k : Z) (x : outcome T) : Prop := exists r, x = Ok r /\ o_eq o r k = Ok true.
(** the same for an object [x] already computed *)
Definition is {T} (o : number T) (k : Z) (x : T) : Prop := o_eq o x k = Ok true.

Lemma expect_all_iff {T} (o : number T) k xs : expect_all o k xs = Ok true <-> Forall (passes o k) xs.
Proof.
  induction xs as [|x t IH]; cbn [expect_all].
  - split; [constructor|reflexivity].
  - unfold expect. split.
    + intros H. destruct x as [r|]; cbn [bind] in H; [|discriminate]. destruct (o_eq o r k) as [e|] eqn:E; cbn [bind] in H; [|discriminate].
      destruct (expect_all o k t) as [f|] eqn:F; cbn [bind] in H; [|discriminate]. injection H as H. apply andb_true_iff in H as [-> ->].
      constructor; [exists r; auto|]. apply IH. reflexivity.
    + intros H. inversion H as [|? ? (r & -> & E) F]; subst. cbn [bind]. rewrite E. cbn [bind]. apply IH in F. rewrite F. reflexivity.
Qed.
Ltac opens H := repeat
  match type of H with
  | bind ?x _ = Ok _ => let E := fresh "E" in destruct x eqn:E; cbn [bind] in H; [|discriminate H]
  end.
Ltac ands H := repeat match type of H with _ && _ = true => let E := fresh "T" in apply andb_true_iff in H as [H E] end.

Theorem C144_additionZero_checks : forall T (o : number T) v, additionZero o v = Ok true <->
  exists zero m0 pz pm m1 m2, o_lit o 0 = Ok zero /\ o_lit o v = Ok m0 /\ o_plus o zero = Ok pz /\ o_plus o m0 = Ok pm /\
    Forall (passes o v) [o_add o zero m0; o_add o m0 zero; o_add o zero pm; o_add o m0 pz; o_add o pz m0; o_add o pm zero; o_add o pz pm; o_add o pm pz] /\
    o_add_assign o m0 zero = Ok m1 /\ is o v m1 /\ o_add_assign o m1 pz = Ok m2 /\ is o v m2.
Proof.
  intros T o v. unfold additionZero, is. split.
  - intros H. opens H. injection H as H. ands H. subst. eexists _, _, _, _, _, _. conjs; eauto. apply expect_all_iff; auto.
  - intros (zero & m0 & pz & pm & m1 & m2 & -> & -> & E1 & E2 & F & E3 & E4 & E5 & E6). cbn [bind]. rewrite E1. cbn [bind]. rewrite E2. cbn [bind].
    apply expect_all_iff in F. rewrite F. cbn [bind]. rewrite E3. cbn [bind]. rewrite E4. cbn [bind]. rewrite E5. cbn [bind]. rewrite E6. reflexivity.
Qed.
Theorem C144_additionLiteral_checks : forall T (o : number T) v, additionLiteral o v = Ok true <->
  exists zero m1 pz m2 m3 m4, o_lit o 0 = Ok zero /\ o_lit o v = Ok m1 /\ o_plus o zero = Ok pz /\
    Forall (passes o v) [o_add_lit o m1 0; o_lit_add o 0 m1; o_add o m1 zero; o_add o m1 pz; o_add o zero m1; o_add o pz m1] /\
    o_add_assign_lit o m1 0 = Ok m2 /\ is o v m2 /\ o_add_assign o m2 zero = Ok m3 /\ is o v m3 /\ o_add_assign o m3 pz = Ok m4 /\ is o v m4.
Proof.
  intros T o v. unfold additionLiteral, is. split.
  - intros H. opens H. injection H as H. ands H. subst. eexists _, _, _, _, _, _. conjs; eauto.
    match goal with E : expect_all _ _ _ = Ok true |- _ => apply expect_all_iff in E; rename E into F end.
    repeat match goal with F : Forall _ (_ :: _) |- _ => inversion F; subst; clear F end. repeat constructor; auto.
  - intros (zero & m1 & pz & m2 & m3 & m4 & -> & -> & E1 & F & E3 & E4 & E5 & E6 & E7 & E8). cbn [bind]. rewrite E1. cbn [bind].
    assert (F' : Forall (passes o v) [o_add_lit o m1 0; o_lit_add o 0 m1; o_add o m1 zero; o_add o m1 pz; o_add o m1 pz; o_add o zero m1; o_add o pz m1]).
    { repeat match goal with F : Forall _ (_ :: _) |- _ => inversion F; subst; clear F end. repeat constructor; auto. }
    apply expect_all_iff in F'. rewrite F'. cbn [bind]. rewrite E3. cbn [bind]. rewrite E4. cbn [bind]. rewrite E5. cbn [bind]. rewrite E6. cbn [bind]. rewrite E7. cbn [bind]. rewrite E8. reflexivity.
Qed.
Theorem C144_subtractionBasic_checks : forall T (o : number T) lit minus v, subtractionBasic o lit minus v = Ok true <->
  exists zero m0 pz m1 m2 m3 m4, lit 0 = Ok zero /\ lit v = Ok m0 /\ o_plus o zero = Ok pz /\
    Forall (passes o v) [o_sub_lit o m0 0; o_add_lit o m0 0; o_add o m0 zero; o_sub o m0 zero; o_add o m0 pz; o_sub o m0 pz] /\
    o_sub_assign_lit o m0 0 = Ok m1 /\ is o v m1 /\ o_sub_assign o m1 zero = Ok m2 /\ is o v m2 /\
    (if minus then exists mz, o_minus o zero = Ok mz /\ o_sub_assign o m2 mz = Ok m3 /\ is o v m3 else m3 = m2) /\
    o_sub_assign o m3 pz = Ok m4 /\ is o v m4.
Proof.
  intros T o lit minus v. unfold subtractionBasic, is. split.
  - intros H. opens H. match type of H with context [let '(_, _) := ?p in _] => destruct p as [m0' e4] end. opens H. injection H as H. ands H. subst. eexists _, _, _, _, _, m0', _. conjs; eauto.
    + apply expect_all_iff; auto.
    + destruct minus.
      * match goal with E : bind (o_minus o _) _ = Ok _ |- _ => rename E into Q end. opens Q. injection Q as -> ->. eexists. eauto.
      * match goal with E : Ok _ = Ok (m0', _) |- _ => injection E as <- end. reflexivity.
  - intros (zero & m0 & pz & m1 & m2 & m3 & m4 & -> & -> & E1 & F & E3 & E4 & E5 & E6 & E7 & E8 & E9). cbn [bind]. rewrite E1. cbn [bind].
    apply expect_all_iff in F. rewrite F. cbn [bind]. rewrite E3. cbn [bind]. rewrite E4. cbn [bind]. rewrite E5. cbn [bind]. rewrite E6. cbn [bind].
    destruct minus.
    + destruct E7 as (mz & -> & Q1 & Q2). cbn [bind]. rewrite Q1. cbn [bind]. rewrite Q2. cbn [bind]. rewrite E8. cbn [bind]. rewrite E9. reflexivity.
    + subst m3. cbn [bind]. rewrite E8. cbn [bind]. rewrite E9. reflexivity.
Qed.
Theorem C144_multiplicationBasic_checks : forall T (o : number T) v, multiplicationBasic o v = Ok true <->
  exists zero one m0 pz p1 pm a0 a1 a2 z1 z2 b0 b1 b2 pb u1 u2,
    o_lit o 0 = Ok zero /\ o_lit o 1 = Ok one /\ o_lit o v = Ok m0 /\ o_plus o zero = Ok pz /\ o_plus o one = Ok p1 /\ o_plus o m0 = Ok pm /\
    Forall (passes o 0) [o_mul_lit o m0 0; o_lit_mul o 0 m0; o_mul o m0 zero; o_mul o m0 pz; o_mul o zero m0; o_mul o zero pm; o_mul o pz m0; o_mul o pz pm] /\
    Forall (passes o v) [o_mul_lit o m0 1; o_lit_mul o 1 m0; o_mul o m0 one; o_mul o m0 p1; o_mul o one m0; o_mul o one pm; o_mul o p1 m0; o_mul o p1 pm] /\
    o_mul_assign_lit o m0 0 = Ok a0 /\ is o 0 a0 /\ o_mul_assign o m0 zero = Ok a1 /\ is o 0 a1 /\ o_mul_assign o m0 pz = Ok a2 /\ is o 0 a2 /\
    o_mul_assign o zero m0 = Ok z1 /\ is o 0 z1 /\ o_mul_assign o z1 pm = Ok z2 /\ is o 0 z2 /\
    o_mul_assign_lit o m0 1 = Ok b0 /\ is o v b0 /\ o_mul_assign o b0 one = Ok b1 /\ is o v b1 /\ o_mul_assign o b1 p1 = Ok b2 /\ is o v b2 /\
    o_mul_assign o one b2 = Ok u1 /\ is o v u1 /\ o_plus o b2 = Ok pb /\ o_mul_assign o one pb = Ok u2 /\ is o v u2.
Proof.
  intros T o v. unfold multiplicationBasic, is. split.
  - intros H. opens H. injection H as H. ands H. subst.
    repeat match goal with
    | A : ?x = Ok ?a, B : ?x = Ok ?b |- _ => rewrite A in B; first [injection B as <-|injection B as B; subst b|injection B as B]
    end.
    exists a, a0, a1, a2, a3, a4, a7, a9, a11, a13, a15, a17, a19, a21, a25, a23, a26.
    conjs; try assumption; try reflexivity; apply expect_all_iff; assumption.
  - intros (zero & one & m0 & pz & p1 & pm & a0 & a1 & a2 & z1 & z2 & b0 & b1 & b2 & pb & u1 & u2 & H).
    repeat match goal with H : _ /\ _ |- _ => destruct H end.
    repeat match goal with F : Forall _ _ |- _ => apply expect_all_iff in F end.
    repeat match goal with E : ?x = Ok _ |- context [bind ?x _] => rewrite E; cbn [bind] end. reflexivity.
Qed.

(** ** A number type that computes correctly passes *)
Definition gives {T} (rep : T -> Z -> Prop) (x : outcome T) (z : Z) : Prop := exists r, x = Ok r /\ rep r z.
(** [rep x z]: the object [x] has the value [z]; [val z]: [z] is within the range of literals and comparisons;
    [fits z]: within the range of results *)
Record correct {T} (o : number T) (rep : T -> Z -> Prop) (val fits : Z -> Prop) : Prop := {
  c_lit : forall k, 0 <= k < 2 ^ 64 -> gives rep (o_lit o k) k;
  c_eq : forall x z k, rep x z -> val k -> o_eq o x k = Ok (z =? k);
  c_plus : forall x z, rep x z -> gives rep (o_plus o x) z;
  c_minus : forall x, rep x 0 -> gives rep (o_minus o x) 0;
  c_add : forall x y a b, rep x a -> rep y b -> fits (a + b) -> gives rep (o_add o x y) (a + b) /\ gives rep (o_add_assign o x y) (a + b);
  c_sub : forall x y a b, rep x a -> rep y b -> fits (a - b) -> gives rep (o_sub o x y) (a - b) /\ gives rep (o_sub_assign o x y) (a - b);
  c_mul : forall x y a b, rep x a -> rep y b -> fits (a * b) -> gives rep (o_mul o x y) (a * b) /\ gives rep (o_mul_assign o x y) (a * b);
  c_add_l : forall x a k, rep x a -> 0 <= k < 2 ^ 32 -> fits (a + k) ->
    gives rep (o_add_lit o x k) (a + k) /\ gives rep (o_add_assign_lit o x k) (a + k) /\ gives rep (o_lit_add o k x) (a + k);
  c_sub_l : forall x a k, rep x a -> 0 <= k < 2 ^ 32 -> fits (a - k) -> gives rep (o_sub_lit o x k) (a - k) /\ gives rep (o_sub_assign_lit o x k) (a - k);
  c_mul_l : forall x a k, rep x a -> 0 <= k < 2 ^ 32 -> fits (a * k) ->
    gives rep (o_mul_lit o x k) (a * k) /\ gives rep (o_mul_assign_lit o x k) (a * k) /\ gives rep (o_lit_mul o k x) (a * k) }.

Lemma gives_passes {T} (o : number T) rep val fits x z k : correct o rep val fits -> gives rep x z -> val k -> z = k -> passes o k x.
Proof. intros C (r & -> & R) V ->. exists r. split; auto. rewrite (c_eq _ _ _ _ C _ _ _ R V), Z.eqb_refl. reflexivity. Qed.
Lemma rep_is {T} (o : number T) rep val fits x z k : correct o rep val fits -> rep x z -> val k -> z = k -> is o k x.
Proof. intros C R V ->. unfold is. rewrite (c_eq _ _ _ _ C _ _ _ R V), Z.eqb_refl. reflexivity. Qed.
Ltac give H := let x := fresh "x" in let E := fresh "E" in let R := fresh "R" in destruct H as (x & E & R).
Ltac val_is := lia.

Lemma additionZero_true {T} (o : number T) rep val fits v : correct o rep val fits -> 0 <= v < 2 ^ 64 -> val v -> fits v -> additionZero o v = Ok true.
Proof.
  intros C Hv V F. apply C144_additionZero_checks.
  assert (A0 : fits (0 + v)) by (rewrite Z.add_0_l; auto). assert (A1 : fits (v + 0)) by (rewrite Z.add_0_r; auto).
  destruct (c_lit _ _ _ _ C 0 ltac:(lia)) as (zero & E0 & R0). destruct (c_lit _ _ _ _ C v Hv) as (m0 & E1 & R1).
  destruct (c_plus _ _ _ _ C _ _ R0) as (pz & E2 & R2). destruct (c_plus _ _ _ _ C _ _ R1) as (pm & E3 & R3).
  destruct (proj2 (c_add _ _ _ _ C _ _ _ _ R1 R0 A1)) as (m1 & E4 & R4). rewrite Z.add_0_r in R4.
  destruct (proj2 (c_add _ _ _ _ C _ _ _ _ R4 R2 A1)) as (m2 & E5 & R5).
  exists zero, m0, pz, pm, m1, m2. conjs; auto.
  - repeat constructor; (eapply gives_passes; [exact C|eapply proj1; eapply (c_add _ _ _ _ C); eauto|exact V|lia]).
  - eapply rep_is; eauto.
  - eapply rep_is; eauto. lia.
Qed.
Lemma additionLiteral_true {T} (o : number T) rep val fits v : correct o rep val fits -> 0 <= v < 2 ^ 64 -> val v -> fits v -> additionLiteral o v = Ok true.
Proof.
  intros C Hv V F. apply C144_additionLiteral_checks.
  assert (A0 : fits (0 + v)) by (rewrite Z.add_0_l; auto). assert (A1 : fits (v + 0)) by (rewrite Z.add_0_r; auto).
  destruct (c_lit _ _ _ _ C 0 ltac:(lia)) as (zero & E0 & R0). destruct (c_lit _ _ _ _ C v Hv) as (m0 & E1 & R1).
  destruct (c_plus _ _ _ _ C _ _ R0) as (pz & E2 & R2). pose proof (c_add_l _ _ _ _ C _ _ 0 R1 ltac:(lia) A1) as (L1 & L2 & L3).
  destruct L2 as (m1 & E3 & R3). rewrite Z.add_0_r in R3.
  destruct (proj2 (c_add _ _ _ _ C _ _ _ _ R3 R0 A1)) as (m2 & E4 & R4). rewrite Z.add_0_r in R4.
  destruct (proj2 (c_add _ _ _ _ C _ _ _ _ R4 R2 A1)) as (m3 & E5 & R5).
  exists zero, m0, pz, m1, m2, m3. conjs; auto.
  - repeat constructor; (eapply gives_passes; [exact C| |exact V|]); try exact L1; try exact L3;
      try (eapply proj1; eapply (c_add _ _ _ _ C); eauto); lia.
  - eapply rep_is; eauto.
  - eapply rep_is; eauto.
  - eapply rep_is; eauto. lia.
Qed.
Lemma additionPair_exact {T} (o : number T) rep val fits s t w : correct o rep val fits -> 0 <= s < 2 ^ 64 -> 0 <= t < 2 ^ 64 -> fits (s + t) -> val w ->
  additionPair o s t w = Ok (s + t =? w).
Proof.
  intros C Hs Ht F V. unfold additionPair, expect.
  destruct (c_lit _ _ _ _ C s Hs) as (a & E0 & R0). destruct (c_lit _ _ _ _ C t Ht) as (b & E1 & R1).
  destruct (proj1 (c_add _ _ _ _ C _ _ _ _ R0 R1 F)) as (r & E2 & R2). rewrite E0. cbn [bind]. rewrite E1. cbn [bind]. rewrite E2. cbn [bind].
  apply (c_eq _ _ _ _ C _ _ _ R2 V).
Qed.
Lemma subtractionBasic_true {T} (o : number T) rep val fits lit minus v : correct o rep val fits -> gives rep (lit 0) 0 -> gives rep (lit v) v -> val v -> fits v ->
  subtractionBasic o lit minus v = Ok true.
Proof.
  intros C (zero & E0 & R0) (m0 & E1 & R1) V F. apply C144_subtractionBasic_checks.
  assert (A1 : fits (v + 0)) by (rewrite Z.add_0_r; auto). assert (A2 : fits (v - 0)) by (rewrite Z.sub_0_r; auto).
  destruct (c_plus _ _ _ _ C _ _ R0) as (pz & E2 & R2). destruct (c_minus _ _ _ _ C _ R0) as (mz & E3 & R3).
  pose proof (c_sub_l _ _ _ _ C _ _ 0 R1 ltac:(lia) A2) as (L1 & L2). pose proof (c_add_l _ _ _ _ C _ _ 0 R1 ltac:(lia) A1) as (L3 & _ & _).
  destruct L2 as (m1 & E4 & R4). rewrite Z.sub_0_r in R4.
  destruct (proj2 (c_sub _ _ _ _ C _ _ _ _ R4 R0 A2)) as (m2 & E5 & R5). rewrite Z.sub_0_r in R5.
  destruct (proj2 (c_sub _ _ _ _ C _ _ _ _ R5 R3 A2)) as (m3 & E6 & R6). rewrite Z.sub_0_r in R6.
  assert (exists m3', (if minus then exists mz, o_minus o zero = Ok mz /\ o_sub_assign o m2 mz = Ok m3' /\ is o v m3' else m3' = m2) /\ rep m3' v) as (m3' & E7 & R7).
  { destruct minus; [exists m3|exists m2]; split; auto. exists mz. conjs; auto. eapply rep_is; eauto. }
  destruct (proj2 (c_sub _ _ _ _ C _ _ _ _ R7 R2 A2)) as (m4 & E8 & R8).
  exists zero, m0, pz, m1, m2, m3', m4. conjs; auto.
  - repeat constructor; (eapply gives_passes; [exact C| |exact V|]); try exact L1; try exact L3;
      try (eapply proj1; eapply (c_add _ _ _ _ C); eauto; fail); try (eapply proj1; eapply (c_sub _ _ _ _ C); eauto; fail); lia.
  - eapply rep_is; eauto.
  - eapply rep_is; eauto.
  - eapply rep_is; eauto. lia.
Qed.
Lemma multiplicationBasic_true {T} (o : number T) rep val fits v : correct o rep val fits -> 0 <= v < 2 ^ 64 -> val v -> fits v -> val 0 -> fits 0 ->
  multiplicationBasic o v = Ok true.
Proof.
  intros C Hv V F V0 F0. apply C144_multiplicationBasic_checks.
  assert (A0 : fits (0 * v)) by (rewrite Z.mul_0_l; auto). assert (A1 : fits (v * 0)) by (rewrite Z.mul_0_r; auto).
  assert (A2 : fits (1 * v)) by (rewrite Z.mul_1_l; auto). assert (A3 : fits (v * 1)) by (rewrite Z.mul_1_r; auto).
  destruct (c_lit _ _ _ _ C 0 ltac:(lia)) as (zero & E0 & R0). destruct (c_lit _ _ _ _ C 1 ltac:(lia)) as (one & E1 & R1).
  destruct (c_lit _ _ _ _ C v Hv) as (m0 & E2 & R2).
  destruct (c_plus _ _ _ _ C _ _ R0) as (pz & E3 & R3). destruct (c_plus _ _ _ _ C _ _ R1) as (p1 & E4 & R4). destruct (c_plus _ _ _ _ C _ _ R2) as (pm & E5 & R5).
  pose proof (c_mul_l _ _ _ _ C _ _ 0 R2 ltac:(lia) A1) as (L1 & L2 & L3). destruct L2 as (a0 & E6 & R6). rewrite Z.mul_0_r in R6.
  destruct (proj2 (c_mul _ _ _ _ C _ _ _ _ R2 R0 A1)) as (a1 & E7 & R7). destruct (proj2 (c_mul _ _ _ _ C _ _ _ _ R2 R3 A1)) as (a2 & E8 & R8).
  destruct (proj2 (c_mul _ _ _ _ C _ _ _ _ R0 R2 A0)) as (z1 & E9 & R9). rewrite Z.mul_0_l in R9.
  destruct (proj2 (c_mul _ _ _ _ C _ _ _ _ R9 R5 A0)) as (z2 & E10 & R10).
  pose proof (c_mul_l _ _ _ _ C _ _ 1 R2 ltac:(lia) A3) as (M1 & M2 & M3). destruct M2 as (b0 & E11 & R11). rewrite Z.mul_1_r in R11.
  destruct (proj2 (c_mul _ _ _ _ C _ _ _ _ R11 R1 A3)) as (b1 & E12 & R12). rewrite Z.mul_1_r in R12.
  destruct (proj2 (c_mul _ _ _ _ C _ _ _ _ R12 R4 A3)) as (b2 & E13 & R13). rewrite Z.mul_1_r in R13.
  destruct (proj2 (c_mul _ _ _ _ C _ _ _ _ R1 R13 A2)) as (u1 & E14 & R14).
  destruct (c_plus _ _ _ _ C _ _ R13) as (pb & E15 & R15). destruct (proj2 (c_mul _ _ _ _ C _ _ _ _ R1 R15 A2)) as (u2 & E16 & R16).
  exists zero, one, m0, pz, p1, pm, a0, a1, a2, z1, z2, b0, b1, b2, pb, u1, u2. conjs; auto.
  - repeat constructor; (eapply gives_passes; [exact C| |exact V0|]); try exact L1; try exact L3; try (eapply proj1; eapply (c_mul _ _ _ _ C); eauto; fail); lia.
  - repeat constructor; (eapply gives_passes; [exact C| |exact V|]); try exact M1; try exact M3; try (eapply proj1; eapply (c_mul _ _ _ _ C); eauto; fail); lia.
  - eapply rep_is; eauto.
  - eapply rep_is; eauto. lia.
  - eapply rep_is; eauto. lia.
  - eapply rep_is; eauto.
  - eapply rep_is; eauto; lia.
  - eapply rep_is; eauto.
  - eapply rep_is; eauto.
  - eapply rep_is; eauto.
  - eapply rep_is; eauto; lia.
  - eapply rep_is; eauto; lia.
Qed.

(** ** The two number types *)
Definition u_rep (n : Z) (x : list Z) (z : Z) : Prop := wf n x /\ bval x = z.
Definition s_rep (n : Z) (x : aesi) (z : Z) : Prop := swf n x /\ sval x = z.
Lemma modulus_64 n : 2 <= n -> 2 ^ 64 <= modulus n.
Proof. intros. unfold modulus. apply Z.pow_le_mono_r; lia. Qed.
Lemma yields_gives n x z : 0 <= z < modulus n -> yields n x (z mod modulus n) -> gives (u_rep n) x z.
Proof. intros Hz (r & -> & W & V). rewrite (Z.mod_small z) in V by lia. exists r. split; auto. split; auto. Qed.
Lemma syields_gives n x z : syields n x z -> gives (s_rep n) x z.
Proof. intros (r & -> & W & V). exists r. split; auto. split; auto. Qed.
Lemma lit_gives n junk k : 2 <= n -> len junk = n -> 0 <= k < 2 ^ 64 -> gives (u_rep n) (from_unsigned n junk k) k.
Proof. intros Hn J K. destruct (u_temp n junk k Hn J K) as (x & E & W & V). exists x. split; auto. split; auto. Qed.
Lemma bind_gives {T} (rep : T -> Z -> Prop) x k (f : T -> outcome T) z : gives rep x k -> (forall r, rep r k -> gives rep (f r) z) -> gives rep (r <- x ;; f r) z.
Proof. intros (r & -> & R) H. cbn [bind]. auto. Qed.

Lemma aeu_correct n junk : 2 <= n -> len junk = n ->
  correct (aeu_number n junk) (u_rep n) (fun k => 0 <= k < 2 ^ 64) (fun z => 0 <= z < modulus n).
Proof.
  intros Hn J. pose proof (modulus_64 n Hn) as M.
  assert (L : forall k, 0 <= k < 2 ^ 64 -> gives (u_rep n) (from_unsigned n junk k) k) by (intros; apply lit_gives; auto).
  assert (U : forall k, 0 <= k < 2 ^ 32 -> lit_uty k = U32). { intros k K. unfold lit_uty. destruct (Z.ltb_spec k (2 ^ 32)); [auto|lia]. }
  constructor; cbn [aeu_number o_lit o_eq o_plus o_minus o_add o_add_assign o_sub o_sub_assign o_mul o_mul_assign o_add_lit o_add_assign_lit
    o_sub_lit o_sub_assign_lit o_mul_lit o_mul_assign_lit o_lit_add o_lit_mul].
  - auto.
  - intros x z k [W V] K. rewrite <- V. destruct (Z.ltb_spec k (2 ^ 32)); [apply op_eq_u32_spec|apply op_eq_u64_spec]; auto; lia.
  - intros x z R. exists x. auto.
  - intros x [W V]. pose proof (op_neg_correct n x W) as H. rewrite V in H. apply yields_gives; auto. lia.
  - intros x y a b [W V] [W' V'] F. pose proof (add_assign_correct n x y W W') as H. rewrite V, V' in H. split; apply yields_gives; auto.
  - intros x y a b [W V] [W' V'] F. pose proof (sub_assign_correct n x y W W') as H. rewrite V, V' in H. split; apply yields_gives; auto.
  - intros x y a b [W V] [W' V'] F. pose proof (mul_assign_correct n x y W W') as H. rewrite V, V' in H. split; apply yields_gives; auto.
  - intros x a k [W V] K F. rewrite U by auto. destruct (C05_add_small_builtin n U32 x k W ltac:(auto) K) as [H1 H2]. rewrite V in H1, H2.
    conjs; try (apply yields_gives; auto; fail). eapply bind_gives; [apply L; lia|]. intros r [W' V'].
    pose proof (add_assign_correct n r x W' W) as H. rewrite V, V', Z.add_comm in H. apply yields_gives; auto.
  - intros x a k [W V] K F. split; (eapply bind_gives; [apply L; lia|]; intros r [W' V']; pose proof (sub_assign_correct n x r W W') as H; rewrite V, V' in H; apply yields_gives; auto).
  - intros x a k [W V] K F. rewrite U by auto. destruct (C07_mul_builtin_exact n U32 x k W ltac:(auto) K) as [H1 H2]. rewrite V in H1, H2.
    conjs; try (apply yields_gives; auto; fail). eapply bind_gives; [apply L; lia|]. intros r [W' V'].
    pose proof (mul_assign_correct n r x W' W) as H. rewrite V, V', Z.mul_comm in H. apply yields_gives; auto.
Qed.
Lemma lit_ity_ok k : 0 <= k < 2 ^ 64 -> ity_ok (lit_ity k) = true /\ in_ity (lit_ity k) k = true /\ isigned (lit_ity k) = false.
Proof.
  intros K. unfold lit_ity. destruct (Z.ltb_spec k (2 ^ 32)); (split; [reflexivity|split; [|reflexivity]]); unfold in_ity, ity_min, ity_max; cbn [isigned iwidth uint32 uint64]; lia.
Qed.
Lemma s_lit_gives n t k : 2 <= n -> ity_ok t = true -> in_ity t k = true -> neg_ok t k -> gives (s_rep n) (s_from_int n t k) k.
Proof.
  intros Hn T I N. destruct (s_from_int_correct n t k ltac:(lia) T I ltac:(lia) N) as (r & E & C & V). exists r. split; auto. split; auto. apply canon_swf; auto.
Qed.
Lemma aesi_correct cfg n : 2 <= n ->
  correct (aesi_number cfg n) (s_rep n) (fun k => - 2 ^ 63 < k < 2 ^ 64) (fun z => Z.abs z < modulus n).
Proof.
  intros Hn. pose proof (modulus_64 n Hn) as M.
  assert (L : forall k, 0 <= k < 2 ^ 64 -> gives (s_rep n) (s_from_int n (lit_ity k) k) k).
  { intros k K. destruct (lit_ity_ok k K) as (T & I & S). apply s_lit_gives; auto. unfold neg_ok. rewrite S. discriminate. }
  constructor; cbn [aesi_number o_lit o_eq o_plus o_minus o_add o_add_assign o_sub o_sub_assign o_mul o_mul_assign o_add_lit o_add_assign_lit
    o_sub_lit o_sub_assign_lit o_mul_lit o_mul_assign_lit o_lit_add o_lit_mul].
  - auto.
  - intros x z k [W V] K. rewrite <- V. apply C49_signed_comparison_builtin; auto.
  - intros x z R. exists x. auto.
  - intros x [W V]. exists (s_inverse x). split; [reflexivity|]. split; [apply s_inverse_swf; auto|]. rewrite s_inverse_val, V. reflexivity.
  - intros x y a b [W V] [W' V'] F. pose proof (s_add_correct cfg n x y W W') as H. rewrite V, V' in H. split; apply syields_gives; auto.
  - intros x y a b [W V] [W' V'] F. pose proof (s_sub_correct cfg n x y W W') as H. rewrite V, V' in H. split; apply syields_gives; auto.
  - intros x y a b [W V] [W' V'] F. pose proof (s_mul_correct n x y W W') as H. rewrite V, V' in H. split; apply syields_gives; auto.
  - intros x a k [W V] K F. conjs; (eapply bind_gives; [apply L; lia|]; intros r [W' V']).
    1,2: pose proof (s_add_correct cfg n x r W W') as H; rewrite V, V' in H; apply syields_gives; auto.
    pose proof (s_add_correct cfg n r x W' W) as H. rewrite V, V', Z.add_comm in H. apply syields_gives; auto.
  - intros x a k [W V] K F. split; (eapply bind_gives; [apply L; lia|]; intros r [W' V']; pose proof (s_sub_correct cfg n x r W W') as H; rewrite V, V' in H; apply syields_gives; auto).
  - intros x a k [W V] K F. destruct (lit_ity_ok k ltac:(lia)) as (T & I & S).
    destruct (C53_signed_mul_div_builtin_partial cfg n (lit_ity k) x k ltac:(lia) W T I ltac:(rewrite S; discriminate)) as (H & _).
    specialize (H ltac:(right; lia)). rewrite V in H. destruct (H F) as [H1 H2]. conjs; try (apply syields_gives; auto; fail).
    eapply bind_gives; [apply L; lia|]. intros r [W' V']. pose proof (s_mul_correct n r x W' W) as Q. rewrite V, V', Z.mul_comm in Q. apply syields_gives; auto.
Qed.

(** ** C144: the tests hold for every value of the literals, at every width *)
Theorem C144_unsigned_basic : forall n junk v, 2 <= n -> len junk = n -> 0 <= v < 2 ^ 64 ->
  additionZero (aeu_number n junk) v = Ok true /\
  additionLiteral (aeu_number n junk) v = Ok true /\
  (forall minus, subtractionBasic (aeu_number n junk) (from_unsigned n junk) minus v = Ok true) /\
  multiplicationBasic (aeu_number n junk) v = Ok true.
Proof.
  intros n junk v Hn J K. pose proof (modulus_64 n Hn) as M. pose proof (aeu_correct n junk Hn J) as C. conjs.
  - eapply additionZero_true; try exact C; cbv beta; lia.
  - eapply additionLiteral_true; try exact C; cbv beta; lia.
  - intros minus. eapply subtractionBasic_true; try exact C; try (apply lit_gives; auto; lia); cbv beta; lia.
  - eapply multiplicationBasic_true; try exact C; cbv beta; lia.
Qed.
Print Assumptions C144_unsigned_basic.
Theorem C144_signed_basic : forall cfg n v, 2 <= n -> 0 <= v < 2 ^ 64 ->
  additionZero (aesi_number cfg n) v = Ok true /\
  additionLiteral (aesi_number cfg n) v = Ok true /\
  multiplicationBasic (aesi_number cfg n) v = Ok true.
Proof.
  intros cfg n v Hn K. pose proof (modulus_64 n Hn) as M. pose proof (aesi_correct cfg n Hn) as C. conjs.
  - eapply additionZero_true; try exact C; cbv beta; lia.
  - eapply additionLiteral_true; try exact C; cbv beta; lia.
  - eapply multiplicationBasic_true; try exact C; cbv beta; lia.
Qed.
Print Assumptions C144_signed_basic.
(** the literals are of type long here, and may be negative *)
Theorem C144_signed_subtraction : forall cfg n v minus, 2 <= n -> - 2 ^ 63 < v < 2 ^ 63 ->
  subtractionBasic (aesi_number cfg n) (s_from_int n int64) minus v = Ok true.
Proof.
  intros cfg n v minus Hn K. pose proof (modulus_64 n Hn) as M. pose proof (aesi_correct cfg n Hn) as C.
  assert (G : forall k, - 2 ^ 63 < k < 2 ^ 63 -> gives (s_rep n) (s_from_int n int64 k) k).
  { intros k K'. apply s_lit_gives; auto.
    - unfold in_ity, ity_min, ity_max; cbn [isigned iwidth int64]; lia.
    - unfold neg_ok, ity_min; cbn [isigned iwidth int64]; lia. }
  eapply subtractionBasic_true; try exact C; try (apply G; lia); cbv beta; lia.
Qed.
Print Assumptions C144_signed_subtraction.
Theorem C144_addition_lines : forall cfg n junk s t w, 2 <= n -> len junk = n -> 0 <= s < 2 ^ 64 -> 0 <= t < 2 ^ 64 -> s + t < modulus n -> 0 <= w < 2 ^ 64 ->
  additionPair (aeu_number n junk) s t w = Ok (s + t =? w) /\ additionPair (aesi_number cfg n) s t w = Ok (s + t =? w).
Proof.
  intros cfg n junk s t w Hn J Hs Ht F Hw. split.
  - eapply additionPair_exact; [apply aeu_correct; auto|..]; cbv beta; lia.
  - eapply additionPair_exact; [apply aesi_correct; auto|..]; cbv beta; lia.
Qed.
Print Assumptions C144_addition_lines.

(** [op] stands for the operators of division.cpp and modulo.cpp; unsigned operands *)
Theorem C144_unsigned_division_lines : forall cfg n junk a b w, 2 <= n -> len junk = n -> 0 <= a < 2 ^ 32 -> 0 < b < 2 ^ 32 -> 0 <= w < 2 ^ 32 ->
  divisionLine n junk (op_div cfg n) a b w = Ok (a / b =? w) /\
  divisionLine n junk (op_mod cfg n) a b w = Ok (a mod b =? w) /\
  divisionLineNumber cfg n junk (op_div cfg n) a b w = Ok (a / b =? w) /\
  divisionLineNumber cfg n junk (op_mod cfg n) a b w = Ok (a mod b =? w).
Proof.
  intros cfg n junk a b w Hn J Ha Hb Hw. unfold divisionLine, divisionLineNumber.
  destruct (u_temp n junk a Hn J ltac:(lia)) as (x & -> & Wx & Vx). destruct (u_temp n junk b Hn J ltac:(lia)) as (y & -> & Wy & Vy).
  destruct (u_temp n junk w Hn J ltac:(lia)) as (z & -> & Wz & Vz). cbn [bind].
  destruct (op_div_total cfg n x y ltac:(lia) Wx Wy ltac:(lia)) as [(q & -> & Wq & Vq) (r & -> & Wr & Vr)]. cbn [bind]. rewrite Vx, Vy in Vq, Vr.
  conjs.
  - rewrite op_eq_u32_spec, Vq by (auto; lia). reflexivity.
  - rewrite op_eq_u32_spec, Vr by (auto; lia). reflexivity.
  - rewrite op_eq_cross, Vq, Vz by auto. reflexivity.
  - rewrite op_eq_cross, Vr, Vz by auto. reflexivity.
Qed.
Print Assumptions C144_unsigned_division_lines.
(** signed: by zero the tests expect the quotient 0 and the dividend as remainder, and so it is; a remainder by a
    negative number has its sign inverted, which no line of the tests sees (all their remainders by -1 are 0) *)
Definition cpp_rem (a b : Z) : Z := if b =? 0 then a else Z.rem a b.
Definition cpp_quot (a b : Z) : Z := if b =? 0 then 0 else Z.quot a b.
Theorem C144_signed_division_lines : forall cfg n ta tb a b w, 2 <= n ->
  ity_ok ta = true -> in_ity ta a = true -> neg_ok ta a -> ity_ok tb = true -> in_ity tb b = true -> neg_ok tb b -> - 2 ^ 63 < w < 2 ^ 64 ->
  s_divisionLine n ta tb (s_div cfg n) a b w = Ok (cpp_quot a b =? w) /\
  s_divisionLine n ta tb (s_mod cfg n) a b w = Ok ((if b <? 0 then - cpp_rem a b else cpp_rem a b) =? w) /\
  (s_divisionLine n ta tb (s_mod cfg n) a b (cpp_rem a b) = Ok true <-> 0 <= b \/ Z.rem a b = 0).
Proof.
  intros cfg n ta tb a b w Hn Ta Ia Na Tb Ib Nb Hw. unfold s_divisionLine.
  destruct (s_lit_gives n ta a Hn Ta Ia Na) as (x & -> & Wx & Vx). destruct (s_lit_gives n tb b Hn Tb Ib Nb) as (y & -> & Wy & Vy). cbn [bind].
  assert (R64 : forall t k, ity_ok t = true -> in_ity t k = true -> neg_ok t k -> - 2 ^ 63 < k < 2 ^ 64).
  { clear. intros [s b] k T I N. unfold ity_ok, in_ity, neg_ok, ity_min, ity_max in *. cbn [isigned iwidth] in *.
    assert (b = 8 \/ b = 16 \/ b = 32 \/ b = 64) as [-> |[-> |[-> | ->] ] ] by lia; destruct s; cbn in *; lia. }
  pose proof (R64 ta a Ta Ia Na) as Ra. pose proof (R64 tb b Tb Ib Nb) as Rb. clear R64.
  assert (Q : exists q, s_div cfg n x y = Ok q /\ swf n q /\ sval q = cpp_quot a b).
  { unfold cpp_quot. destruct (Z.eqb_spec b 0) as [Z0|N0].
    - pose proof (C117_by_zero_partial cfg n ta x y x x ltac:(lia) Wx Wy Wx Wx ltac:(lia)) as ((q & E & W & V & _) & _). eauto.
    - destruct (s_div_correct cfg n x y ltac:(lia) Wx Wy ltac:(lia)) as (q & E & W & V). rewrite Vx, Vy in V. eauto. }
  assert (M : exists r, s_mod cfg n x y = Ok r /\ swf n r /\ sval r = (if b <? 0 then - cpp_rem a b else cpp_rem a b)).
  { unfold cpp_rem. destruct (Z.eqb_spec b 0) as [Z0|N0].
    - pose proof (C117_by_zero_partial cfg n ta x y x x ltac:(lia) Wx Wy Wx Wx ltac:(lia)) as (_ & _ & _ & _ & E). exists x. conjs; auto.
      subst b. rewrite Z0. cbn. lia.
    - destruct (s_mod_correct cfg n x y ltac:(lia) Wx Wy ltac:(lia)) as (q & E & W & V). rewrite Vx, Vy in V. exists q. conjs; auto. rewrite V.
      destruct (Z.ltb_spec b 0); [rewrite (Z.sgn_neg b) by lia|rewrite (Z.sgn_pos b) by lia]; lia. }
  destruct Q as (q & -> & Wq & Vq). destruct M as (r & -> & Wr & Vr). cbn [bind].
  assert (B : - 2 ^ 63 < cpp_rem a b < 2 ^ 64).
  { unfold cpp_rem. destruct (Z.eqb_spec b 0); auto. pose proof (Z.rem_bound_abs a b ltac:(auto)) as B1.
    pose proof (Z.rem_le a b) as B2. pose proof (Z.quot_rem a b ltac:(auto)) as B3.
    destruct (Z.le_gt_cases 0 a).
    - pose proof (Z.rem_nonneg a b ltac:(auto) ltac:(auto)). pose proof (Z.rem_le a b). destruct (Z.le_gt_cases 0 b).
      + specialize (B2 ltac:(lia) ltac:(lia)). lia.
      + rewrite <- (Z.rem_opp_r a b) in * by auto. pose proof (Z.rem_le a (- b) ltac:(lia) ltac:(lia)). lia.
    - pose proof (Z.rem_nonpos a b ltac:(auto) ltac:(lia)). assert (a <= Z.rem a b).
      { rewrite <- (Z.opp_involutive a), Z.rem_opp_l by auto. destruct (Z.le_gt_cases 0 b).
        + pose proof (Z.rem_le (- a) b ltac:(lia) ltac:(lia)). lia.
        + rewrite <- (Z.rem_opp_r (- a) b) by auto. pose proof (Z.rem_le (- a) (- b) ltac:(lia) ltac:(lia)). lia. }
      lia. }
  conjs.
  - rewrite <- Vq. apply C49_signed_comparison_builtin; auto.
  - rewrite <- Vr. apply C49_signed_comparison_builtin; auto.
  - destruct (C49_signed_comparison_builtin n r (cpp_rem a b) Hn Wr B) as (E & _). rewrite E, Vr. unfold cpp_rem. clear.
    destruct (Z.eqb_spec b 0) as [-> |N]; [cbn; rewrite Z.eqb_refl; intuition lia|].
    destruct (Z.ltb_spec b 0).
    + split; [intros [= H']; right; lia|intros [H'|H']; [lia|rewrite H'; reflexivity]].
    + rewrite Z.eqb_refl. split; auto.
Qed.
Print Assumptions C144_signed_division_lines.

(** increments and decrements: the lines pass exactly when they state the arithmetic *)
Lemma gt_lt_flag o (x k : Z) (greater : bool) : (o = OLess <-> x < k) -> (o = OEqual <-> x = k) -> (o = OGreater <-> x > k) ->
  match o with OGreater => greater | OLess => negb greater | _ => false end = (if greater then k <? x else x <? k).
Proof.
  intros A B C. destruct (Z.lt_total x k) as [H|[H|H] ].
  - pose proof (proj2 A H) as ->. clear - H. destruct greater; cbn; lia.
  - pose proof (proj2 B H) as ->. clear - H. destruct greater; cbn; lia.
  - pose proof (proj2 C ltac:(lia)) as ->. clear - H. destruct greater; cbn; lia.
Qed.
(** the check of a step from [k] to [v] *)
Definition step_check (k v k1 : Z) (z greater : bool) : bool := (v =? k1) && Bool.eqb (v =? 0) z && (if greater then k <? v else v <? k).
Lemma stepLines_exact n junk op k k1 z greater v : 2 <= n -> len junk = n -> 0 <= k < 2 ^ 32 -> 0 <= k1 < 2 ^ 32 ->
  (forall x, wf n x -> bval x = k -> yields n (op x) v) -> stepLines n junk op k k1 z greater = Ok (step_check k v k1 z greater).
Proof.
  intros Hn J K K1 Hop. unfold stepLines, step_check. destruct (u_temp n junk k Hn J ltac:(lia)) as (x & -> & W & V). cbn [bind].
  destruct (Hop x W V) as (y & -> & Wy & Vy). cbn [bind]. rewrite op_eq_u32_spec, isZero_val by (auto; lia). cbn [bind].
  destruct (C15_comparison_builtin n y k Hn Wy) as [Q _]. destruct (Q K) as (_ & o & -> & Q1 & Q2 & Q3). cbn [bind]. rewrite (gt_lt_flag o _ _ _ Q1 Q2 Q3), Vy. reflexivity.
Qed.
Lemma s_isZero_spec n y : canon n y -> s_isZero y = (sval y =? 0).
Proof.
  intros [W C]. unfold s_isZero, sval. destruct y as [s m]. cbn [sgn mag] in *. pose proof (bval_bound n m W) as B. destruct s; cbn.
  - reflexivity.
  - destruct (Z.eqb_spec (bval m) 0) as [E|E]; [apply C in E; discriminate|reflexivity].
  - destruct (Z.eqb_spec (- bval m) 0) as [E|E]; [assert (bval m = 0) as F by lia; apply C in F; discriminate|reflexivity].
Qed.
Theorem C144_unsigned_steps : forall n junk k k1 z greater, 2 <= n -> len junk = n -> 0 <= k < 2 ^ 32 -> 0 <= k1 < 2 ^ 32 ->
  let up := k + 1 in let down := if k =? 0 then modulus n - 1 else k - 1 in
  stepLines n junk (op_inc n) k k1 z greater = Ok (step_check k up k1 z greater) /\
  stepLines n junk (fun x => '(_, y) <- op_post_inc n x ;; Ok y) k k1 z greater = Ok (step_check k up k1 z greater) /\
  stepLines n junk (op_dec n) k k1 z greater = Ok (step_check k down k1 z greater) /\
  stepLines n junk (fun x => '(_, y) <- op_post_dec n x ;; Ok y) k k1 z greater = Ok (step_check k down k1 z greater).
Proof.
  intros n junk k k1 z greater Hn J K K1 up down. pose proof (modulus_64 n Hn) as M.
  assert (I : forall x, wf n x -> bval x = k -> yields n (op_inc n x) up).
  { intros x W V. pose proof (op_inc_correct n x W) as H. rewrite V, (Z.mod_small (k + 1)) in H by lia. exact H. }
  assert (D : forall x, wf n x -> bval x = k -> yields n (op_dec n x) down).
  { intros x W V. pose proof (op_dec_correct n x W) as H. rewrite V in H. unfold down. destruct (Z.eqb_spec k 0) as [-> |N].
    - replace ((0 - 1) mod modulus n) with (modulus n - 1) in H; [exact H|]. apply (Z.mod_unique_pos _ _ (-1)); lia.
    - rewrite (Z.mod_small (k - 1)) in H by lia. exact H. }
  assert (P : forall f g : list Z -> outcome (list Z), (forall x, g x = f x) -> forall v, (forall x, wf n x -> bval x = k -> yields n (f x) v) ->
    forall x, wf n x -> bval x = k -> yields n (g x) v).
  { intros f g E v H x W V. rewrite E. auto. }
  conjs; apply stepLines_exact; auto.
  - apply (P (op_inc n)); auto. intros x. unfold op_post_inc. destruct (op_inc n x); reflexivity.
  - apply (P (op_dec n)); auto. intros x. unfold op_post_dec. destruct (op_dec n x); reflexivity.
Qed.
Print Assumptions C144_unsigned_steps.
Lemma s_stepLines_exact n op k k1 z greater v : 2 <= n -> - 2 ^ 31 < k < 2 ^ 31 -> - 2 ^ 31 < k1 < 2 ^ 31 ->
  (forall x, canon n x -> sval x = k -> exists y, op x = Ok y /\ canon n y /\ sval y = v) -> s_stepLines n op k k1 z greater = Ok (step_check k v k1 z greater).
Proof.
  intros Hn K K1 Hop. unfold s_stepLines, step_check.
  destruct (s_from_int_correct n int32 k ltac:(lia) eq_refl ltac:(unfold in_ity, ity_min, ity_max; cbn [isigned iwidth int32]; lia) ltac:(lia)
    ltac:(unfold neg_ok, ity_min; cbn [isigned iwidth int32]; lia)) as (x & -> & C & V). cbn [bind].
  destruct (Hop x C V) as (y & -> & Cy & Vy). cbn [bind]. pose proof (canon_swf n y Cy) as Wy.
  destruct (C49_signed_comparison_builtin n y k1 Hn Wy ltac:(lia)) as (-> & _). cbn [bind].
  destruct (C49_signed_comparison_builtin n y k Hn Wy ltac:(lia)) as (_ & _ & o & -> & Q1 & Q2 & Q3). cbn [bind].
  rewrite (gt_lt_flag o _ _ _ Q1 Q2 Q3), (s_isZero_spec n y Cy), Vy. reflexivity.
Qed.
Theorem C144_signed_steps : forall n k k1 z greater, 2 <= n -> - 2 ^ 31 < k < 2 ^ 31 -> - 2 ^ 31 < k1 < 2 ^ 31 ->
  s_stepLines n (s_inc n) k k1 z greater = Ok (step_check k (k + 1) k1 z greater) /\
  s_stepLines n (fun x => '(_, y) <- s_post_inc n x ;; Ok y) k k1 z greater = Ok (step_check k (k + 1) k1 z greater) /\
  s_stepLines n (s_dec n) k k1 z greater = Ok (step_check k (k - 1) k1 z greater) /\
  s_stepLines n (fun x => '(_, y) <- s_post_dec n x ;; Ok y) k k1 z greater = Ok (step_check k (k - 1) k1 z greater).
Proof.
  intros n k k1 z greater Hn K K1. pose proof (modulus_64 n Hn) as M. conjs; apply s_stepLines_exact; auto; intros x C V.
  - destruct (s_inc_canon n x ltac:(lia) C ltac:(lia)) as (r & E & Q & W). rewrite V in W. eauto.
  - destruct (s_inc_canon n x ltac:(lia) C ltac:(lia)) as (r & E & Q & W). rewrite V in W. unfold s_post_inc. rewrite E. exists r. auto.
  - destruct (s_dec_canon n x ltac:(lia) C ltac:(lia)) as (r & E & Q & W). rewrite V in W. eauto.
  - destruct (s_dec_canon n x ltac:(lia) C ltac:(lia)) as (r & E & Q & W). rewrite V in W. unfold s_post_dec. rewrite E. exists r. auto.
Qed.
Print Assumptions C144_signed_steps.
(** the textual step: passes exactly when the second text denotes the successor (predecessor) of the first, modulo 2^N *)
Theorem C144_text_steps : forall cfg n alnum s t, 0 <= n -> alnum_ok alnum -> alnum 0 = false ->
  Forall (fun c => 0 <= c) s -> Forall (fun c => 0 <= c) t ->
  stepText cfg n alnum (op_inc n) s t = Ok ((string_value alnum s + 1) mod modulus n =? string_value alnum t mod modulus n) /\
  stepText cfg n alnum (op_dec n) s t = Ok ((string_value alnum s - 1) mod modulus n =? string_value alnum t mod modulus n).
Proof.
  intros cfg n alnum s t Hn A A0 Hs Ht. unfold stepText. pose proof (modulus_pos n Hn) as MP.
  destruct (C32_literal_construction n false alnum s Hn A A0 Hs) as (x & -> & Wx & Vx).
  destruct (C32_literal_construction n false alnum t Hn A A0 Ht) as (y & -> & Wy & Vy). cbn [bind].
  destruct (op_inc_correct n x Wx) as (u & -> & Wu & Vu). destruct (op_dec_correct n x Wx) as (v & -> & Wv & Vv). cbn [bind].
  rewrite !op_eq_cross, Vu, Vv, Vx, Vy by auto. rewrite Zplus_mod_idemp_l, Zminus_mod_idemp_l. auto.
Qed.
Print Assumptions C144_text_steps.

(** ** The literals of the tests (numbers of 128 bits), by the theorems *)
Definition j4 : list Z := [7; 7; 7; 7].
Example C144_literals : forall cfg,
  additionZero (aeu_number 4 j4) 14377898 = Ok true /\ additionLiteral (aesi_number cfg 4) 42824647 = Ok true /\
  subtractionBasic (aesi_number cfg 4) (s_from_int 4 int64) true (-42824647) = Ok true /\ multiplicationBasic (aeu_number 4 j4) 14377898 = Ok true /\
  s_divisionLine 4 int32 int32 (s_div cfg 4) 10 (-1) (-10) = Ok true /\ s_divisionLine 4 int32 int32 (s_div cfg 4) (-1) 0 0 = Ok true /\
  s_divisionLine 4 int32 uint32 (s_mod cfg 4) (-1) 10 (-1) = Ok true /\ s_divisionLine 4 uint32 int32 (s_mod cfg 4) 10 0 10 = Ok true /\
  s_stepLines 32 (s_inc 32) (-1) 0 true true = Ok true /\ stepLines 32 (zeros 32) (op_dec 32) 1 0 true false = Ok true /\
  (* and what the test does not see: 10 % -3 = 1 in C++, -1 here *)
  s_divisionLine 4 uint32 int32 (s_mod cfg 4) 10 (-3) 1 = Ok false /\ s_divisionLine 4 uint32 int32 (s_mod cfg 4) 10 (-3) (-1) = Ok true.
Proof.
  intros cfg. assert (J : len j4 = 4) by reflexivity. assert (N : forall k t, k <> -2147483648 -> t = int32 \/ t = uint32 -> neg_ok t k).
  { intros k t H [-> | ->]; unfold neg_ok, ity_min; cbn; lia. }
  conjs.
  - exact (proj1 (C144_unsigned_basic 4 j4 14377898 ltac:(lia) J ltac:(lia))).
  - exact (proj1 (proj2 (C144_signed_basic cfg 4 42824647 ltac:(lia) ltac:(lia)))).
  - exact (C144_signed_subtraction cfg 4 (-42824647) true ltac:(lia) ltac:(lia)).
  - exact (proj2 (proj2 (proj2 (C144_unsigned_basic 4 j4 14377898 ltac:(lia) J ltac:(lia))))).
  - rewrite (proj1 (C144_signed_division_lines cfg 4 int32 int32 10 (-1) (-10) ltac:(lia) eq_refl eq_refl ltac:(apply N; [lia|tauto]) eq_refl eq_refl ltac:(apply N; [lia|tauto]) ltac:(lia))). reflexivity.
  - rewrite (proj1 (C144_signed_division_lines cfg 4 int32 int32 (-1) 0 0 ltac:(lia) eq_refl eq_refl ltac:(apply N; [lia|tauto]) eq_refl eq_refl ltac:(apply N; [lia|tauto]) ltac:(lia))). reflexivity.
  - rewrite (proj1 (proj2 (C144_signed_division_lines cfg 4 int32 uint32 (-1) 10 (-1) ltac:(lia) eq_refl eq_refl ltac:(apply N; [lia|tauto]) eq_refl eq_refl ltac:(apply N; [lia|tauto]) ltac:(lia)))). reflexivity.
  - rewrite (proj1 (proj2 (C144_signed_division_lines cfg 4 uint32 int32 10 0 10 ltac:(lia) eq_refl eq_refl ltac:(apply N; [lia|tauto]) eq_refl eq_refl ltac:(apply N; [lia|tauto]) ltac:(lia)))). reflexivity.
  - rewrite (proj1 (C144_signed_steps 32 (-1) 0 true true ltac:(lia) ltac:(lia) ltac:(lia))). reflexivity.
  - rewrite (proj1 (proj2 (proj2 (C144_unsigned_steps 32 (zeros 32) 1 0 true false ltac:(lia) eq_refl ltac:(lia) ltac:(lia))))). reflexivity.
  - rewrite (proj1 (proj2 (C144_signed_division_lines cfg 4 uint32 int32 10 (-3) 1 ltac:(lia) eq_refl eq_refl ltac:(apply N; [lia|tauto]) eq_refl eq_refl ltac:(apply N; [lia|tauto]) ltac:(lia)))). reflexivity.
  - rewrite (proj1 (proj2 (C144_signed_division_lines cfg 4 uint32 int32 10 (-3) (-1) ltac:(lia) eq_refl eq_refl ltac:(apply N; [lia|tauto]) eq_refl eq_refl ltac:(apply N; [lia|tauto]) ltac:(lia)))). reflexivity.
Qed.
