(** * PropsAlias: properties about shared operands, C41, C63, C64, C76.

    The theorems are about the store model ([AliasModel.v]): operands taken by reference are locations, and
    [Var i], [Var j] may be the same object.  [m (Var i)] is the contents of variable [i] before the call. *)
From Verif Require Import Spec Lib AeuModel AeuArith AeuBits AeuAccess AeuDiv AeuFacts AesiModel AesiArith AesiFacts
  AliasModel AliasFacts AliasSigned AliasDiv ProgSpec ProgModel.
From Coq Require Import ZifyBool.
Open Scope Z_scope.

Ltac conjs := repeat match goal with |- _ /\ _ => split end.
Ltac wfc := apply wfb_wf; vm_compute; reflexivity.
Definition cfg0 := mk_config false false true.
(** A concrete store of 64-bit variables: 0 holds [a], 1 holds [b], every other variable 0. *)
Definition st2 (a b : list Z) : mem :=
  fun l => match l with Var 0 => a | Var 1 => b | _ => [0; 0] end.
Definition sst2 (a b : aesi) : smem :=
  fun l => match l with Var 0 => a | Var 1 => b | _ => mk_aesi SZero [0; 0] end.
(** Contents of variable [k] after a call; [None] if the call faulted. *)
Definition after (x : outcome mem) (k : nat) : option (list Z) := match x with Ok m => Some (m (Var k)) | Err _ => None end.
Definition safter (x : outcome smem) (k : nat) : option aesi := match x with Ok m => Some (m (Var k)) | Err _ => None end.

(** ** C41 *)
Theorem C41_swap : forall (m : mem) (ms : smem) i j,
  (m_swap m (Var i) (Var j) (Var i) = m (Var j) /\ m_swap m (Var i) (Var j) (Var j) = m (Var i) /\
   forall k, k <> i -> k <> j -> m_swap m (Var i) (Var j) (Var k) = m (Var k)) /\
  (ms_swap ms (Var i) (Var j) (Var i) = ms (Var j) /\ ms_swap ms (Var i) (Var j) (Var j) = ms (Var i) /\
   forall k, k <> i -> k <> j -> ms_swap ms (Var i) (Var j) (Var k) = ms (Var k)).
Proof.
  intros m ms i j. split.
  - destruct (m_swap_spec m (Var i) (Var j)) as (A & B & C); try discriminate. split; auto. split; auto.
    intros k H1 H2. apply C; congruence.
  - destruct (ms_swap_spec ms (Var i) (Var j)) as (A & B & C); try discriminate. split; auto. split; auto.
    intros k H1 H2. apply C; congruence.
Qed.
Print Assumptions C41_swap.
(** [a.swap(a)] *)
Corollary C41_self_swap : forall (m : mem) (ms : smem) i k,
  m_swap m (Var i) (Var i) (Var k) = m (Var k) /\ ms_swap ms (Var i) (Var i) (Var k) = ms (Var k).
Proof.
  intros m ms i k. destruct (C41_swap m ms i i) as [(A & _ & B) (C & _ & D)].
  destruct (Nat.eq_dec k i) as [-> | N]; auto.
Qed.
Print Assumptions C41_self_swap.
Example C41_example : m_swap (st2 [1; 2] [3; 4]) (Var 0) (Var 1) (Var 0) = [3; 4] /\
  m_swap (st2 [1; 2] [3; 4]) (Var 0) (Var 1) (Var 1) = [1; 2] /\
  ms_swap (sst2 (mk_aesi SNeg [1; 2]) (mk_aesi SPos [3; 4])) (Var 1) (Var 0) (Var 1) = mk_aesi SNeg [1; 2].
Proof. conjs; reflexivity. Qed.

(** ** C63 *)
Lemma assign_ok n (m : mem) i x y z :
  osim (fun m' d => m' (Var i) = d /\ forall l, l <> Var i -> l <> Tmp 0 -> m' l = m l) x y -> yields n y z ->
  exists m', x = Ok m' /\ represents n (m' (Var i)) z /\ forall k, k <> i -> m' (Var k) = m (Var k).
Proof.
  intros H HY. destruct (osim_yields H HY) as (m' & d & E & [E1 O] & P). subst d.
  exists m'. split; auto. split; auto. intros. apply O; congruence.
Qed.
Lemma frame_weaken (m : mem) a x y :
  osim (fun m' (d : list Z) => m' a = d /\ forall l, l <> a -> m' l = m l) x y ->
  osim (fun m' d => m' a = d /\ forall l, l <> a -> l <> Tmp 0 -> m' l = m l) x y.
Proof. intros H. eapply osim_mono. exact H. intros ? ? [? O]. auto. Qed.

(** Every compound operator, for all variables [i] and [j], equal or not: variable [i] gets the value of the
    operation on the old values of [i] and [j], every other variable keeps its value. *)
Theorem C63_compound_any_sharing : forall cfg o n m i j, 1 <= n -> wf n (m (Var i)) -> wf n (m (Var j)) ->
  (o = ODiv \/ o = OMod -> bval (m (Var j)) <> 0) ->
  exists m', aeu_assign cfg o n m (Var i) (Var j) = Ok m' /\
    represents n (m' (Var i)) (cop_value o n (bval (m (Var i))) (bval (m (Var j)))) /\
    forall k, k <> i -> m' (Var k) = m (Var k).
Proof.
  intros cfg o n m i j Hn Wi Wj H.
  assert (T : forall x k, Var x <> Tmp k) by discriminate. destruct o; cbn [aeu_assign cop_value].
  - eapply assign_ok. apply frame_weaken, m_add_assign_frame. lia. now apply add_assign_correct.
  - eapply assign_ok. apply m_sub_assign_frame; auto. lia. now apply sub_assign_correct.
  - eapply assign_ok. apply frame_weaken, m_mul_assign_frame. now apply mul_assign_correct.
  - eapply assign_ok. apply frame_weaken, m_div_assign_frame; auto. lia.
    unfold div_assign, op_div. destruct (divide_pos cfg n _ _ Hn Wi Wj (H (or_introl eq_refl))) as (q & r & E & Q & R).
    rewrite E. exists q. auto.
  - eapply assign_ok. apply frame_weaken, m_mod_assign_frame; auto. lia.
    unfold mod_assign, op_mod. destruct (divide_pos cfg n _ _ Hn Wi Wj (H (or_intror eq_refl))) as (q & r & E & Q & R).
    rewrite E. exists r. auto.
  - eapply assign_ok. apply frame_weaken, m_bitwise_assign_frame. lia. now apply xor_correct.
  - eapply assign_ok. apply frame_weaken, m_bitwise_assign_frame. lia. now apply and_correct.
  - eapply assign_ok. apply frame_weaken, m_bitwise_assign_frame. lia. now apply or_correct.
Qed.
Print Assumptions C63_compound_any_sharing.
Example C63_example :
  let m := st2 [4294967295; 5] [7; 0] in
  after (m_add_assign 2 m (Var 0) (Var 0)) 0 = Some [4294967294; 11] /\
  after (m_sub_assign 2 m (Var 0) (Var 0)) 0 = Some [0; 0] /\
  after (m_mul_assign 2 m (Var 1) (Var 1)) 1 = Some [49; 0] /\
  after (m_div_assign cfg0 2 m (Var 0) (Var 0)) 0 = Some [1; 0] /\
  after (m_mod_assign cfg0 2 m (Var 0) (Var 1)) 1 = Some [7; 0] /\
  wf 2 (m (Var 0)) /\ wf 2 (m (Var 1)) /\ bval (m (Var 0)) <> 0.
Proof.
  intros m; subst m. do 5 (split; [vm_compute; reflexivity|]). do 2 (split; [wfc|]). vm_compute; discriminate.
Qed.

(** The two runs end alike: both fault alike, or both finish with the same contents in variable [i]. *)
Definition same_result {A} (i : nat) (x y : outcome (loc -> A)) : Prop :=
  match x, y with
  | Ok m1, Ok m2 => m1 (Var i) = m2 (Var i)
  | Err f, Err g => f = g
  | _, _ => False
  end.
(** [a op= a] against [a op= b] where [b] is another variable holding a copy of [a]; every contents, division
    by zero included. *)
Theorem C63_self_like_copy : forall cfg o n m i j, 0 <= n -> m (Var j) = m (Var i) ->
  same_result i (aeu_assign cfg o n m (Var i) (Var i)) (aeu_assign cfg o n m (Var i) (Var j)).
Proof.
  intros cfg o n m i j Hn E.
  assert (T : forall x k, Var x <> Tmp k) by discriminate.
  assert (K : forall b, osim (fun m' d => m' (Var i) = d) (aeu_assign cfg o n m (Var i) (Var b))
                (match o with OAdd => add_assign n (m (Var i)) (m (Var b)) | OSub => sub_assign n (m (Var i)) (m (Var b))
                 | OMul => mul_assign n (m (Var i)) (m (Var b))
                 | ODiv => div_assign cfg n (m (Var i)) (m (Var b)) | OMod => mod_assign cfg n (m (Var i)) (m (Var b))
                 | OXor => xor_assign n (m (Var i)) (m (Var b)) | OAnd => and_assign n (m (Var i)) (m (Var b))
                 | OOr => or_assign n (m (Var i)) (m (Var b)) end)).
  { intros b. destruct o; cbn [aeu_assign]; eapply osim_mono.
    - apply m_add_assign_frame; lia.
    - cbn; tauto.
    - apply m_sub_assign_frame; auto; lia.
    - cbn; tauto.
    - apply m_mul_assign_frame.
    - cbn; tauto.
    - apply m_div_assign_frame; auto; lia.
    - cbn; tauto.
    - apply m_mod_assign_frame; auto; lia.
    - cbn; tauto.
    - apply m_bitwise_assign_frame; lia.
    - cbn; tauto.
    - apply m_bitwise_assign_frame; lia.
    - cbn; tauto.
    - apply m_bitwise_assign_frame; lia.
    - cbn; tauto.
  }
  pose proof (K i) as H1. pose proof (K j) as H2. rewrite E in H2.
  match type of H1 with osim _ _ ?y => set (Y := y) in *; clearbody Y end.
  unfold same_result. destruct (aeu_assign cfg o n m (Var i) (Var i)), (aeu_assign cfg o n m (Var i) (Var j)), Y;
    cbn in *; try tauto; try congruence.
Qed.
Print Assumptions C63_self_like_copy.

(** Values: the remainder's sign is what the code gives (see C46). *)
Definition scop_value (o : scop) (x y : Z) : Z :=
  match o with
  | SOAdd => x + y | SOSub => x - y | SOMul => x * y | SODiv => Z.quot x y | SOMod => Z.sgn y * Z.rem x y
  end.
Theorem C63_signed_any_sharing : forall cfg o n m i j, 1 <= n -> swf n (m (Var i)) -> swf n (m (Var j)) ->
  Z.abs (scop_value o (sval (m (Var i))) (sval (m (Var j)))) < modulus n ->
  (o = SODiv \/ o = SOMod -> sval (m (Var j)) <> 0) ->
  exists m', aesi_assign cfg o n m (Var i) (Var j) = Ok m' /\
    swf n (m' (Var i)) /\ sval (m' (Var i)) = scop_value o (sval (m (Var i))) (sval (m (Var j))) /\
    forall k, k <> i -> m' (Var k) = m (Var k).
Proof.
  intros cfg o n m i j Hn Wi Wj B H.
  assert (T : forall x k, Var x <> Tmp k) by discriminate.
  assert (K : forall x y z, osim (srel m (Var i)) x y -> syields n y z ->
     exists m', x = Ok m' /\ swf n (m' (Var i)) /\ sval (m' (Var i)) = z /\ forall k, k <> i -> m' (Var k) = m (Var k)).
  { intros x y z HS (d & -> & W & V). destruct x as [m'|]; cbn in HS; [|tauto]. destruct HS as [E O]. exists m'. rewrite E.
    split; auto. split; auto. split; auto. intros k Hk. apply O; auto. congruence. }
  destruct o; cbn [aesi_assign scop_value] in *.
  - eapply K. apply ms_add_assign_frame; auto; lia. now apply s_add_correct.
  - eapply K. apply ms_sub_assign_frame; auto; lia. now apply s_sub_correct.
  - eapply K. apply ms_mul_assign_frame; auto; lia. now apply s_mul_correct.
  - eapply K. apply ms_div_assign_frame; auto; lia. apply s_div_correct; auto.
  - eapply K. apply ms_mod_assign_frame; auto; lia. apply s_mod_correct; auto.
Qed.
Print Assumptions C63_signed_any_sharing.
Theorem C63_signed_self_like_copy : forall cfg o n m i j, 0 <= n -> m (Var j) = m (Var i) ->
  same_result i (aesi_assign cfg o n m (Var i) (Var i)) (aesi_assign cfg o n m (Var i) (Var j)).
Proof.
  intros cfg o n m i j Hn E.
  assert (T : forall x k, Var x <> Tmp k) by discriminate.
  assert (K : forall b, osim (srel m (Var i)) (aesi_assign cfg o n m (Var i) (Var b))
                (match o with SOAdd => s_add_assign cfg n (m (Var i)) (m (Var b)) | SOSub => s_sub_assign cfg n (m (Var i)) (m (Var b))
                 | SOMul => s_mul_assign n (m (Var i)) (m (Var b)) | SODiv => s_div_assign cfg n (m (Var i)) (m (Var b))
                 | SOMod => s_mod_assign cfg n (m (Var i)) (m (Var b)) end)).
  { intros b. destruct o; cbn [aesi_assign].
    - apply ms_add_assign_frame; auto; lia.
    - apply ms_sub_assign_frame; auto; lia.
    - apply ms_mul_assign_frame.
    - apply ms_div_assign_frame; auto; lia.
    - apply ms_mod_assign_frame; auto; lia. }
  pose proof (K i) as H1. pose proof (K j) as H2. rewrite E in H2.
  match type of H1 with osim _ _ ?y => set (Y := y) in *; clearbody Y end.
  unfold same_result. destruct (aesi_assign cfg o n m (Var i) (Var i)), (aesi_assign cfg o n m (Var i) (Var j)), Y;
    cbn in *; try tauto; try congruence.
  destruct H1 as [-> _], H2 as [-> _]. reflexivity.
Qed.
Print Assumptions C63_signed_self_like_copy.
Example C63_signed_example :
  let m := sst2 (mk_aesi SNeg [7; 0]) (mk_aesi SPos [2; 0]) in
  safter (ms_sub_assign cfg0 2 m (Var 0) (Var 0)) 0 = Some (mk_aesi SZero [7; 0]) /\
  safter (ms_mul_assign 2 m (Var 0) (Var 0)) 0 = Some (mk_aesi SPos [49; 0]) /\
  safter (ms_div_assign cfg0 2 m (Var 0) (Var 0)) 0 = Some (mk_aesi SPos [1; 0]) /\
  safter (ms_add_assign cfg0 2 m (Var 0) (Var 0)) 0 = Some (mk_aesi SNeg [14; 0]) /\
  swf 2 (m (Var 0)) /\ swf 2 (m (Var 1)) /\ Z.abs (scop_value SOMul (sval (m (Var 0))) (sval (m (Var 0)))) < modulus 2.
Proof.
  intros m; subst m. do 4 (split; [vm_compute; reflexivity|]).
  do 2 (split; [split; [wfc|intros _; vm_compute; discriminate]|]). vm_compute; reflexivity.
Qed.

(** ** C64.  Fails: l.1090 overwrites the outputs before the inputs are read.  Proved: correct whenever the
    outputs are distinct from the inputs (which may be one object), and the exact set of values for which each
    way of sharing gives the right answer. *)
Definition quot_rem_stored (n : Z) (m' : mem) (q r : nat) (N D : Z) : Prop :=
  represents n (m' (Var q)) (N / D) /\ represents n (m' (Var r)) (N mod D).

Theorem C64_divide_distinct_partial : forall cfg n m nu de q r, 1 <= n ->
  wf n (m (Var nu)) -> wf n (m (Var de)) -> bval (m (Var de)) <> 0 ->
  q <> nu -> q <> de -> r <> nu -> r <> de -> q <> r ->
  exists m', m_divide cfg n m (Var nu) (Var de) (Var q) (Var r) = Ok m' /\
    quot_rem_stored n m' q r (bval (m (Var nu))) (bval (m (Var de))) /\
    forall k, k <> q -> k <> r -> m' (Var k) = m (Var k).
Proof.
  intros cfg n m nu de q r Hn W1 W2 H0 H1 H2 H3 H4 H5.
  assert (V : forall x y, x <> y -> Var x <> Var y) by congruence.
  pose proof (m_divide_distinct cfg n m (Var nu) (Var de) (Var q) (Var r) ltac:(lia) (V _ _ H1) (V _ _ H2) (V _ _ H3) (V _ _ H4)
    (V _ _ H5) ltac:(discriminate) ltac:(discriminate) ltac:(discriminate) ltac:(discriminate)) as HS.
  destruct (divide_pos cfg n _ _ Hn W1 W2 H0) as (a & b & E & A & B). rewrite E in HS.
  destruct (m_divide cfg n m (Var nu) (Var de) (Var q) (Var r)) as [m'|]; cbn in HS; [|tauto].
  destruct HS as (-> & -> & O) || destruct HS as (E1 & E2 & O).
  exists m'. split; [reflexivity|]. unfold quot_rem_stored. rewrite E1, E2. split; [split; auto|].
  intros k K1 K2. apply O; auto; congruence.
Qed.
Print Assumptions C64_divide_distinct_partial.

Lemma represents_fun n a x y : represents n a x -> represents n a y -> x = y.
Proof. intros [_ A] [_ B]. congruence. Qed.

(** An output that is the dividend's object: right only if the dividend is zero or equals the divisor. *)
Theorem C64_output_is_number : forall cfg n m nu de q r, 1 <= n -> wf n (m (Var nu)) -> wf n (m (Var de)) ->
  bval (m (Var de)) <> 0 -> q <> r -> nu = q \/ nu = r ->
  exists m', m_divide cfg n m (Var nu) (Var de) (Var q) (Var r) = Ok m' /\
    (quot_rem_stored n m' q r (bval (m (Var nu))) (bval (m (Var de))) <->
     bval (m (Var nu)) = 0 \/ bval (m (Var nu)) = bval (m (Var de))).
Proof.
  intros cfg n m nu de q r Hn W1 W2 H0 Hqr Hs.
  destruct (m_divide_number_shared cfg n m (Var nu) (Var de) (Var q) (Var r) Hn W1 W2 ltac:(congruence)
    ltac:(destruct Hs; [left|right]; congruence)) as (m' & E & Q & R).
  exists m'. split; [exact E|]. pose proof (bval_bound n _ W1) as B1. pose proof (bval_bound n _ W2) as B2.
  set (N := bval (m (Var nu))) in *. set (D := bval (m (Var de))) in *. clearbody N D.
  assert (0 < D) by lia. split.
  - intros [Q' R']. pose proof (represents_fun _ _ _ _ Q Q') as X. pose proof (represents_fun _ _ _ _ R R') as Y.
    destruct (Z.eqb_spec N D); [auto|]. left. pose proof (Z.div_mod N D ltac:(lia)). rewrite <- X, <- Y in *. lia.
  - intros [E0 | E0]; rewrite E0 in *.
    + destruct (Z.eqb_spec 0 D); [lia|]. split; [rewrite Z.div_0_l by lia|rewrite Z.mod_0_l by lia]; auto.
    + rewrite Z.eqb_refl in *. split; [rewrite Z.div_same by lia|rewrite Z.mod_same by lia]; auto.
Qed.
Print Assumptions C64_output_is_number.

(** The remainder object is the divisor object. *)
Theorem C64_remainder_is_divisor : forall cfg n m nu de q, 1 <= n -> wf n (m (Var nu)) -> wf n (m (Var de)) ->
  bval (m (Var de)) <> 0 -> q <> nu -> q <> de -> nu <> de ->
  exists m', m_divide cfg n m (Var nu) (Var de) (Var q) (Var de) = Ok m' /\
    (quot_rem_stored n m' q de (bval (m (Var nu))) (bval (m (Var de))) <->
     bval (m (Var nu)) <= bval (m (Var de)) \/
     (bval (m (Var de)) = 1 /\ bval (m (Var nu)) = 2 ^ (32 * ((bit_length (bval (m (Var nu))) + 31) / 32)) - 1)).
Proof.
  intros cfg n m nu de q Hn W1 W2 H0 H1 H2 H3.
  destruct (m_divide_rem_is_divisor cfg n m (Var nu) (Var de) (Var q) Hn W1 W2 ltac:(congruence) ltac:(congruence) ltac:(congruence)
    ltac:(discriminate) ltac:(discriminate) ltac:(discriminate)) as (m' & E & P).
  exists m'. split; [exact E|]. pose proof (bval_bound n _ W1) as B1. pose proof (bval_bound n _ W2) as B2.
  fold (bitsUsed_of (bval (m (Var nu)))).
  set (N := bval (m (Var nu))) in *. set (D := bval (m (Var de))) in *. clearbody N D.
  assert (0 < D) by lia. destruct (Z.leb_spec N D).
  - split; [intros _; left; lia|]. intros _. destruct P as [Q R]. unfold quot_rem_stored. destruct (Z.eqb_spec N D) as [EQ|]; [rewrite EQ|].
    + rewrite Z.div_same, Z.mod_same by lia. auto.
    + rewrite Z.div_small, Z.mod_small by lia. auto.
  - destruct P as [Q R]. destruct (bitsUsed_bounds n N Hn ltac:(unfold modulus in *; lia)) as [BB LB]. split.
    + intros [Q' R']. pose proof (represents_fun _ _ _ _ Q Q') as X. pose proof (represents_fun _ _ _ _ R R') as Y.
      right. pose proof (Z.div_mod N D ltac:(lia)) as DM. rewrite <- X, <- Y in DM.
      assert (D = 1).
      { destruct (Z.eq_dec D 1); auto. exfalso. assert (2 <= D) by lia.
        assert (2 ^ 32 <= 2 ^ bitsUsed_of N) by (apply Z.pow_le_mono_r; lia). nia. }
      subst D. lia.
    + intros [?|[D1 N1]]; [lia|]. subst D. unfold quot_rem_stored. rewrite Z.div_1_r, Z.mod_1_r, N1 at 1. auto.
Qed.
Print Assumptions C64_remainder_is_divisor.

(** The quotient object is the divisor object. *)
Theorem C64_quotient_is_divisor : forall cfg n m nu de r, 1 <= n -> wf n (m (Var nu)) -> wf n (m (Var de)) ->
  bval (m (Var de)) <> 0 -> r <> nu -> r <> de -> nu <> de ->
  exists m', m_divide cfg n m (Var nu) (Var de) (Var de) (Var r) = Ok m' /\
    (quot_rem_stored n m' de r (bval (m (Var nu))) (bval (m (Var de))) <-> bval (m (Var nu)) <= bval (m (Var de))).
Proof.
  intros cfg n m nu de r Hn W1 W2 H0 H1 H2 H3.
  destruct (m_divide_quot_is_divisor cfg n m (Var nu) (Var de) (Var r) Hn W1 W2 ltac:(congruence) ltac:(congruence) ltac:(congruence)
    ltac:(discriminate) ltac:(discriminate) ltac:(discriminate)) as (m' & E & P).
  exists m'. split; [exact E|]. pose proof (bval_bound n _ W1) as B1. pose proof (bval_bound n _ W2) as B2.
  set (N := bval (m (Var nu))) in *. set (D := bval (m (Var de))) in *. clearbody N D.
  assert (0 < D) by lia. destruct (Z.leb_spec N D).
  - split; [auto|]. intros _. destruct P as [Q R]. unfold quot_rem_stored. destruct (Z.eqb_spec N D) as [EQ|]; [rewrite EQ|].
    + rewrite Z.div_same, Z.mod_same by lia. auto.
    + rewrite Z.div_small, Z.mod_small by lia. auto.
  - split; [|lia]. intros [Q' R']. exfalso. cbv zeta in P.
    destruct (bitsUsed_bounds n N Hn ltac:(fold (modulus n) in B1; lia)) as [BB LB].
    pose proof (Z.div_mod N D ltac:(lia)) as DM. pose proof (Z.mod_pos_bound N D ltac:(lia)) as MB.
    destruct (N <? 2 ^ (bitsUsed_of N - 1)) eqn:EL; destruct P as [Q R];
      pose proof (represents_fun _ _ _ _ Q Q') as X; pose proof (represents_fun _ _ _ _ R R') as Y.
    + lia.
    + rewrite <- X, <- Y in DM.
      assert (1 <= 2 ^ (bitsUsed_of N - 1)) by (apply Z.lt_pred_le, Z.pow_pos_nonneg; lia). nia.
Qed.
Print Assumptions C64_quotient_is_divisor.

(** The full property as first stated is false: dividing 10 by 3 with each way of sharing. *)
Theorem C64_aliased_divide_refuted :
  let m := st2 [10; 0] [3; 0] in
  wf 2 (m (Var 0)) /\ wf 2 (m (Var 1)) /\ bval (m (Var 0)) = 10 /\ bval (m (Var 1)) = 3 /\
  (* quotient is the dividend's object *)
  after (m_divide cfg0 2 m (Var 0) (Var 1) (Var 0) (Var 2)) 0 = Some [0; 0] /\
  (* remainder is the dividend's object *)
  after (m_divide cfg0 2 m (Var 0) (Var 1) (Var 2) (Var 0)) 2 = Some [0; 0] /\
  (* quotient is the divisor's object *)
  after (m_divide cfg0 2 m (Var 0) (Var 1) (Var 1) (Var 2)) 1 = Some [2147483648; 0] /\
  (* remainder is the divisor's object *)
  after (m_divide cfg0 2 m (Var 0) (Var 1) (Var 2) (Var 1)) 2 = Some [4294967295; 0].
Proof.
  intros m; subst m. do 2 (split; [wfc|]). do 5 (split; [vm_compute; reflexivity|]). vm_compute; reflexivity.
Qed.
Print Assumptions C64_aliased_divide_refuted.

(** Signed: same situation. *)
Theorem C64_signed_divide_distinct_partial : forall cfg n m nu de q r, 1 <= n ->
  swf n (m (Var nu)) -> swf n (m (Var de)) -> swf n (m (Var q)) -> swf n (m (Var r)) -> sval (m (Var de)) <> 0 ->
  q <> nu -> q <> de -> r <> nu -> r <> de -> q <> r ->
  exists m', ms_divide cfg n m (Var nu) (Var de) (Var q) (Var r) = Ok m' /\
    swf n (m' (Var q)) /\ sval (m' (Var q)) = Z.quot (sval (m (Var nu))) (sval (m (Var de))) /\
    swf n (m' (Var r)) /\ sval (m' (Var r)) = Z.rem (sval (m (Var nu))) (sval (m (Var de))) /\
    forall k, k <> q -> k <> r -> m' (Var k) = m (Var k).
Proof.
  intros cfg n m nu de q r Hn W1 W2 W3 W4 H0 H1 H2 H3 H4 H5.
  assert (V : forall x y, x <> y -> Var x <> Var y) by congruence.
  assert (T : forall x k, (k <= 3)%nat -> Var x <> Tmp k) by (intros; discriminate).
  pose proof (ms_divide_distinct cfg n m (Var nu) (Var de) (Var q) (Var r) ltac:(lia) (V _ _ H1) (V _ _ H2) (V _ _ H3) (V _ _ H4)
    (V _ _ H5) (T _) (T _) (T _) (T _)) as HS.
  destruct (s_divide_correct cfg n _ _ _ _ Hn W1 W2 (proj1 W3) (proj1 W4) H0) as (a & b & E & A & B & VA & VB). rewrite E in HS.
  destruct (ms_divide cfg n m (Var nu) (Var de) (Var q) (Var r)) as [m'|]; cbn in HS; [|tauto].
  destruct HS as (E1 & E2 & O).
  exists m'. split; [reflexivity|]. rewrite E1, E2.
  assert (forall k, k <> q -> k <> r -> m' (Var k) = m (Var k)) by (intros; apply O; auto; congruence).
  conjs; auto.
Qed.
Print Assumptions C64_signed_divide_distinct_partial.
Theorem C64_signed_aliased_divide_refuted :
  let m := sst2 (mk_aesi SNeg [10; 0]) (mk_aesi SPos [3; 0]) in
  swf 2 (m (Var 0)) /\ swf 2 (m (Var 1)) /\ sval (m (Var 0)) = -10 /\ sval (m (Var 1)) = 3 /\
  safter (ms_divide cfg0 2 m (Var 0) (Var 1) (Var 0) (Var 2)) 0 = Some (mk_aesi SZero [0; 0]) /\
  safter (ms_divide cfg0 2 m (Var 0) (Var 1) (Var 2) (Var 0)) 2 = Some (mk_aesi SZero [0; 0]) /\
  safter (ms_divide cfg0 2 m (Var 0) (Var 1) (Var 1) (Var 2)) 1 = Some (mk_aesi SNeg [2147483648; 0]) /\
  safter (ms_divide cfg0 2 m (Var 0) (Var 1) (Var 2) (Var 1)) 2 = Some (mk_aesi SNeg [4294967295; 0]).
Proof.
  intros m; subst m. do 2 (split; [split; [wfc|intros _; vm_compute; discriminate]|]).
  do 5 (split; [vm_compute; reflexivity|]). vm_compute; reflexivity.
Qed.
Print Assumptions C64_signed_aliased_divide_refuted.
Example C64_example :
  let m := st2 [10; 0] [3; 0] in
  after (m_divide cfg0 2 m (Var 0) (Var 1) (Var 2) (Var 3)) 2 = Some [3; 0] /\
  after (m_divide cfg0 2 m (Var 0) (Var 1) (Var 2) (Var 3)) 3 = Some [1; 0] /\
  after (m_divide cfg0 2 m (Var 0) (Var 0) (Var 2) (Var 3)) 2 = Some [1; 0].
Proof. intros m; subst m. do 2 (split; [vm_compute; reflexivity|]). vm_compute; reflexivity. Qed.

(** ** C76.  The Bezout outputs of the extended gcd may be the very objects passed as inputs. *)
Theorem C76_egcd_any_sharing : forall cfg fuel n m a b x y, 1 <= n -> 64 * n + 2 <= Z.of_nat fuel ->
  wf n (m (Var a)) -> wf n (m (Var b)) -> x <> y ->
  exists g m', m_gcd_ext cfg fuel n m (Var a) (Var b) (Var x) (Var y) = Ok (g, m') /\
    represents n g (Z.gcd (bval (m (Var a))) (bval (m (Var b)))) /\
    wf n (m' (Var x)) /\ wf n (m' (Var y)) /\
    (bval (m (Var a)) * bval (m' (Var x)) + bval (m (Var b)) * bval (m' (Var y))) mod modulus n =
      Z.gcd (bval (m (Var a))) (bval (m (Var b))) mod modulus n /\
    forall k, k <> x -> k <> y -> m' (Var k) = m (Var k).
Proof.
  intros cfg fuel n m a b x y Hn Hf Wa Wb N.
  pose proof (m_gcd_ext_frame cfg fuel n m (Var a) (Var b) (Var x) (Var y) ltac:(congruence) ltac:(discriminate) ltac:(discriminate)) as HS.
  destruct (egcd_correct cfg n fuel _ _ Hn Wa Wb Hf) as (g & u & v & E & G & Wu & Wv & B). rewrite E in HS.
  destruct (m_gcd_ext cfg fuel n m (Var a) (Var b) (Var x) (Var y)) as [ [g' m']|]; cbn in HS; [|tauto].
  destruct HS as (-> & E1 & E2 & O). exists g, m'. split; [reflexivity|]. rewrite E1, E2.
  split; [exact G|]. split; [exact Wu|]. split; [exact Wv|]. split; [exact B|].
  intros k K1 K2. apply O; congruence.
Qed.
Print Assumptions C76_egcd_any_sharing.
Example C76_example :
  let m := st2 [240; 0] [46; 0] in
  wf 2 (m (Var 0)) /\ wf 2 (m (Var 1)) /\
  match m_gcd_ext cfg0 130 2 m (Var 0) (Var 1) (Var 1) (Var 0) with
  | Ok (g, m') => g = [2; 0] /\ m' (Var 1%nat) = [4294967287; 4294967295] /\ m' (Var 0%nat) = [47; 0]
  | Err _ => False
  end.
Proof. intros m; subst m. do 2 (split; [wfc|]). vm_compute. conjs; reflexivity. Qed.
