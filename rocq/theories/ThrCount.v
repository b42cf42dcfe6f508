(** * ThrCount: how many accesses a call makes at most, whatever its loads return. *)
From Verif Require Import Spec Lib AeuModel AliasModel ProgSpec ProgModel ProgTotal ThrMonad ThrModel ThrSpec ThrTrace TraceSpec.
From Coq Require Import ZifyBool.
Open Scope Z_scope.

(** [c] makes at most [k] accesses and its result, if it has one, is in [P]. *)
Fixpoint upto {A} (P : A -> Prop) (k : Z) (c : act A) : Prop :=
  match c with
  | Ret a => 0 <= k /\ P a
  | Stop _ => 0 <= k
  | Get _ _ f => 1 <= k /\ forall v, upto P (k - 1) (f v)
  | Put _ _ _ c => 1 <= k /\ upto P (k - 1) c
  end.
Notation any := (fun _ => True).
Lemma upto_more {A} (P Q : A -> Prop) (c : act A) : (forall a, P a -> Q a) -> forall k l, k <= l -> upto P k c -> upto Q l c.
Proof.
  intros PQ. induction c as [a|e|x i f IH|x i v c IH]; intros k l L H; cbn [upto] in *.
  - destruct H. split; [lia|auto].
  - lia.
  - destruct H as [H1 H2]. split; [lia|]. intros v. apply IH with (k := k - 1); [lia|auto].
  - destruct H as [H1 H2]. split; [lia|]. apply IH with (k := k - 1); [lia|auto].
Qed.
Lemma upto_nonneg {A} (P : A -> Prop) (c : act A) : forall k, upto P k c -> 0 <= k.
Proof. destruct c as [a|e|x i f|x i v c]; cbn [upto]; intros k H; try lia; destruct H; lia. Qed.
Lemma upto_bind {A B} (Q : A -> Prop) (P : B -> Prop) k1 k2 k (c : act A) (f : A -> act B) :
  upto Q k1 c -> 0 <= k2 -> (forall a, Q a -> upto P k2 (f a)) -> k1 + k2 <= k -> upto P k (abind c f).
Proof.
  intros H N K. revert k1 k H. induction c as [a|e|x i g IH|x i v c IH]; intros k1 k H L; cbn [abind upto] in *.
  - destruct H as [H Qa]. apply upto_more with (P := P) (k := k2); auto. lia.
  - lia.
  - destruct H as [H1 H2]. split; [lia|]. intros v. apply IH with (k1 := k1 - 1); auto. lia.
  - destruct H as [H1 H2]. split; [lia|]. apply IH with (k1 := k1 - 1); auto. lia.
Qed.
Lemma upto_ret {A} (P : A -> Prop) k a : 0 <= k -> P a -> upto P k (Ret a).
Proof. cbn. auto. Qed.
Lemma upto_pure {A} (x : outcome A) : upto any 0 (pure x).
Proof. destruct x; cbn; [split; [lia|exact I]|lia]. Qed.
Lemma upto_forU {S} m k lo hi (b : Z -> S -> act S) s : hi - lo <= m -> 0 <= m -> 0 <= k ->
  (forall i s, lo <= i < hi -> upto any k (b i s)) -> upto any (m * k) (aforU lo hi b s).
Proof.
  intros L Hm Hk H. unfold aforU.
  assert (G : forall cnt i s, lo <= i -> i + Z.of_nat cnt <= Z.max lo hi -> upto any (Z.of_nat cnt * k) (aloopU cnt i b s)).
  { induction cnt as [|c IH]; intros i s0 L1 L2; cbn [aloopU]; [apply upto_ret; auto; lia|].
    apply upto_bind with (Q := any) (k1 := k) (k2 := Z.of_nat c * k); [apply H; lia|nia|intros; apply IH; lia|nia]. }
  apply upto_more with (P := any) (k := Z.of_nat (Z.to_nat (hi - lo)) * k); auto; [nia|]. apply G; lia.
Qed.
Lemma upto_forD {S} m k lo hi (b : Z -> S -> act S) s : hi - lo <= m -> 0 <= m -> 0 <= k ->
  (forall i s, lo <= i < hi -> upto any k (b i s)) -> upto any (m * k) (aforD hi lo b s).
Proof.
  intros L Hm Hk H. unfold aforD.
  assert (G : forall cnt i s, i <= hi -> Z.min lo hi <= i - Z.of_nat cnt -> upto any (Z.of_nat cnt * k) (aloopD cnt i b s)).
  { induction cnt as [|c IH]; intros i s0 L1 L2; cbn [aloopD]; [apply upto_ret; auto; lia|].
    apply upto_bind with (Q := any) (k1 := k) (k2 := Z.of_nat c * k); [apply H; lia|nia|intros; apply IH; lia|nia]. }
  apply upto_more with (P := any) (k := Z.of_nat (Z.to_nat (hi - lo)) * k); auto; [nia|]. apply G; lia.
Qed.
Definition exit_in {S R} (Post : R -> Prop) (x : step S R) : Prop := match x with Next _ => True | Exit r => Post r end.
Lemma upto_forUx {S R} (Post : R -> Prop) m k lo hi (b : Z -> S -> act (step S R)) s : hi - lo <= m -> 0 <= m -> 0 <= k ->
  (forall i s, lo <= i < hi -> upto (exit_in Post) k (b i s)) -> upto (exit_in Post) (m * k) (aforUx lo hi b s).
Proof.
  intros L Hm Hk H. unfold aforUx.
  assert (G : forall cnt i s, lo <= i -> i + Z.of_nat cnt <= Z.max lo hi -> upto (exit_in Post) (Z.of_nat cnt * k) (aloopUx cnt i b s)).
  { induction cnt as [|c IH]; intros i s0 L1 L2; cbn [aloopUx]; [apply upto_ret; [lia|exact I]|].
    apply upto_bind with (Q := exit_in Post) (k1 := k) (k2 := Z.of_nat c * k); [apply H; lia|nia| |nia].
    intros [s'|r] K; [apply IH; lia|apply upto_ret; [nia|exact K] ]. }
  apply upto_more with (P := exit_in Post) (k := Z.of_nat (Z.to_nat (hi - lo)) * k); auto; [nia|]. apply G; lia.
Qed.
Lemma upto_forDx {S R} (Post : R -> Prop) m k lo hi (b : Z -> S -> act (step S R)) s : hi - lo <= m -> 0 <= m -> 0 <= k ->
  (forall i s, lo <= i < hi -> upto (exit_in Post) k (b i s)) -> upto (exit_in Post) (m * k) (aforDx hi lo b s).
Proof.
  intros L Hm Hk H. unfold aforDx.
  assert (G : forall cnt i s, i <= hi -> Z.min lo hi <= i - Z.of_nat cnt -> upto (exit_in Post) (Z.of_nat cnt * k) (aloopDx cnt i b s)).
  { induction cnt as [|c IH]; intros i s0 L1 L2; cbn [aloopDx]; [apply upto_ret; [lia|exact I]|].
    apply upto_bind with (Q := exit_in Post) (k1 := k) (k2 := Z.of_nat c * k); [apply H; lia|nia| |nia].
    intros [s'|r] K; [apply IH; lia|apply upto_ret; [nia|exact K] ]. }
  apply upto_more with (P := exit_in Post) (k := Z.of_nat (Z.to_nat (hi - lo)) * k); auto; [nia|]. apply G; lia.
Qed.
Lemma upto_while {S R} k (b : S -> act (step S R)) : 0 <= k -> (forall s, upto any k (b s)) -> forall fuel s, upto any (Z.of_nat fuel * k) (awhileF fuel b s).
Proof.
  intros Hk H. induction fuel as [|f IH]; intros s; cbn [awhileF]; [cbn; lia|].
  apply upto_bind with (Q := any) (k1 := k) (k2 := Z.of_nat f * k); [apply H|nia| |nia]. intros [s'|r] _; [apply IH|apply upto_ret; auto; nia].
Qed.
Lemma upto_at x i : upto any 1 (at_ x i).
Proof. cbn. split; [lia|]. split; [lia|auto]. Qed.
Lemma upto_aput x i v : upto any 1 (aput x i v).
Proof. cbn. split; [lia|]. split; [lia|auto]. Qed.
(** a view of which every block costs at most [c] accesses *)
Definition costs (c : Z) (v : view) : Prop := 0 <= c /\ forall i, upto any c (v i).
Lemma costs_at x : costs 1 (at_ x).
Proof. split; [lia|apply upto_at]. Qed.
Lemma costs_local a : costs 0 (local a).
Proof. split; [lia|]. intros i. apply upto_pure. Qed.

Section Count.
Context (n : Z) (Hn : 1 <= n).
Ltac bnd k1 k2 := apply (upto_bind any _ k1 k2); [ | nia | | nia].
Lemma k_copy c v : costs c v -> upto any (n * c) (v_copy n v).
Proof. intros [C H]. unfold v_copy. apply upto_forU; try lia. intros i s _. bnd c 0; [apply H|]. intros b _. apply upto_pure. Qed.
Lemma k_filled c v : costs c v -> upto (fun f => 0 <= f <= n) (n * c) (v_filledBlocksNumber n v).
Proof.
  intros [C H]. unfold v_filledBlocksNumber. apply (upto_bind (exit_in (fun f => 0 <= f <= n)) _ (n * c) 0); [|lia| |lia].
  - apply upto_forDx; try lia. intros i s Hi. apply (upto_bind any _ c 0); [apply H|lia| |lia]. intros b _.
    destruct (negb (b =? 0)); apply upto_ret; cbn; auto; lia.
  - intros [?|?] K; apply upto_ret; cbn in K |- *; auto; lia.
Qed.
Lemma k_getBit cfg c v i : costs c v -> upto any c (v_getBit cfg n v i).
Proof.
  intros [C H]. unfold v_getBit. destruct (_ && _); [apply upto_ret; auto|]. cbv zeta. bnd 0 c; [apply upto_pure|]. intros _ _.
  bnd c 0; [apply H|]. intros b _. apply upto_ret; auto; lia.
Qed.
Lemma k_compare cfg c d v w : costs c v -> costs d w -> upto any (n * (c + d)) (v_compareTo cfg n v w).
Proof.
  intros [C H] [D K]. unfold v_compareTo. apply (upto_bind (exit_in any) _ (n * (c + d)) 0); [|lia| |lia].
  - apply upto_forDx; try lia. intros i s _. apply (upto_bind any _ c d); [apply H|lia| |lia]. intros b _. apply (upto_bind any _ d 0); [|lia| |lia].
    + unfold v_getBlock. destruct (_ && _); [apply upto_ret; auto|apply K].
    + intros b' _. destruct (negb (b =? b')); apply upto_ret; cbn; auto; lia.
  - intros [?|?] _; apply upto_ret; auto; lia.
Qed.
Lemma k_rel cfg c d v w f : costs c v -> costs d w -> upto any (n * (c + d)) (v_rel cfg n v w f).
Proof. intros H K. unfold v_rel. assert (0 <= c /\ 0 <= d) as [? ?] by (split; [apply H|apply K]). bnd (n * (c + d)) 0; [now apply k_compare|]. intros; apply upto_ret; auto; lia. Qed.
Lemma k_neg c v : costs c v -> upto any (n * c) (v_neg n v).
Proof. intros H. unfold v_neg. assert (0 <= c) by apply H. bnd (n * c) 0; [now apply k_copy|]. intros r _. apply upto_pure. Qed.
Lemma k_not c v : costs c v -> upto any (n * c) (v_not n v).
Proof. intros [C H]. unfold v_not. apply upto_forU; try lia. intros i s _. bnd c 0; [apply H|]. intros b _. apply upto_pure. Qed.
Lemma k_sub_local c r v : costs c v -> upto any (n * c) (v_sub_local n r v).
Proof. intros H. unfold v_sub_local. assert (0 <= c) by apply H. bnd (n * c) 0; [now apply k_neg|]. intros nb _. apply upto_pure. Qed.
Lemma k_mul_inner c i t d sl b : 0 <= c -> 0 <= i -> (forall j, upto any c (d j)) -> upto any (n * c) (v_mul_inner n i t d sl b).
Proof.
  intros C Hi H. unfold v_mul_inner. apply upto_forU; try lia. intros j [b1 c1] _. bnd c 0; [apply H|]. intros f _. cbv zeta.
  bnd 0 0; [apply upto_pure|]. intros x _. bnd 0 0; [apply upto_pure|]. intros b' _. apply upto_ret; auto; lia.
Qed.
Lemma k_lines c d v vl w wl : costs c v -> costs d w -> vl <= n -> upto any (n * (c + n * d)) (v_multiplyLines n v vl w wl).
Proof.
  intros [C H] [D K] L. unfold v_multiplyLines. apply upto_forU; try nia. intros i b Hi. bnd c (n * d); [apply H|]. intros t _.
  bnd (n * d) 0; [now apply k_mul_inner|]. intros [b' cy] _. destruct (_ && _); [|apply upto_ret; auto; lia].
  bnd 0 0; [apply upto_pure|]. intros x _. apply upto_pure.
Qed.
Lemma k_mul c d v w : 0 <= c <= 1 -> 0 <= d <= 1 -> costs c v -> costs d w -> upto any (n * n + 3 * n) (v_mul n v w).
Proof.
  intros LC LD H K. unfold v_mul. apply (upto_bind (fun f => 0 <= f <= n) _ (n * c) (n * n + 2 * n)); [now apply k_filled|nia| |nia]. intros f Hf.
  apply (upto_bind (fun f => 0 <= f <= n) _ (n * d) (n * n + n)); [now apply k_filled|nia| |nia]. intros g Hg.
  destruct (f >? g).
  - apply upto_more with (P := any) (k := n * (c + n * d)); auto; [nia|]. apply k_lines; auto; lia.
  - apply upto_more with (P := any) (k := n * (d + n * c)); auto; [nia|]. apply k_lines; auto; lia.
Qed.
Lemma k_divide cfg c d v w : costs c v -> costs d w ->
  upto any (n * (c + d) + (n * c + 32 * n * (c + 2 * (n * d)))) (v_divide cfg n v w).
Proof.
  intros H K. assert (0 <= c /\ 0 <= d) as [? ?] by (split; [apply H|apply K]). unfold v_divide.
  bnd (n * (c + d)) (n * c + 32 * n * (c + 2 * (n * d))); [now apply k_compare|]. intros x _. cbv zeta. destruct x.
  - bnd 0 0; [apply upto_pure|]. intros; apply upto_ret; auto; lia.
  - bnd (n * c) 0; [now apply k_copy|]. intros; apply upto_ret; auto; lia.
  - apply (upto_bind (fun f => 0 <= f <= n) _ (n * c) (32 * n * (c + 2 * (n * d)))); [now apply k_filled|nia| |nia]. intros f Hf. unfold blockBitLength.
    apply upto_forD; try nia. intros i [q r] Hi.
    bnd 0 (c + 2 * (n * d)); [apply upto_pure|]. intros r1 _. bnd c (2 * (n * d)); [now apply k_getBit|]. intros bit _.
    bnd 0 (2 * (n * d)); [apply upto_pure|]. intros r2 _. bnd (n * (0 + d)) (n * d); [apply k_rel; auto; apply costs_local|]. intros ge _.
    destruct ge; [|apply upto_ret; auto; nia]. bnd (n * d) 0; [now apply k_sub_local|]. intros r3 _. bnd 0 0; [apply upto_pure|].
    intros; apply upto_ret; auto; lia.
  - bnd 0 0; [apply upto_pure|]. intros; apply upto_ret; auto; lia.
Qed.
Lemma k_gcd cfg fuel v w : costs 1 v -> costs 1 w -> upto any (64 * (n * n) + 38 * n) (v_gcd cfg fuel n v w).
Proof.
  intros H K. unfold v_gcd. bnd (n * (1 + 1)) (64 * (n * n) + 36 * n); [now apply k_compare|]. intros x _.
  bnd (64 * (n * n) + 36 * n) 0; [|intros; apply upto_pure].
  destruct x; (bnd (n * 1) (64 * (n * n) + 35 * n); [now apply k_copy|]; intros g _;
    bnd (n * (1 + 1) + (n * 1 + 32 * n * (1 + 2 * (n * 1)))) 0; [now apply k_divide|]; intros [q r] _; apply upto_ret; auto; lia).
Qed.
Lemma k_lcm cfg fuel v w : costs 1 v -> costs 1 w -> upto any (65 * (n * n) + 76 * n) (v_lcm cfg fuel n v w).
Proof.
  intros H K. unfold v_lcm. bnd (64 * (n * n) + 38 * n) (n * n + 38 * n); [now apply k_gcd|]. intros g _.
  bnd (n * (1 + 0) + (n * 1 + 32 * n * (1 + 2 * (n * 0)))) (n * n + 3 * n); [apply k_divide; auto; apply costs_local|]. intros [q r] _.
  apply (k_mul 0 1); auto; try lia. apply costs_local.
Qed.
Lemma k_powm cfg v w u : costs 1 v -> costs 1 w -> costs 1 u -> upto any (4096 * (n * n * n) + 128 * (n * n) + 68 * n) (v_powm cfg n v w u).
Proof.
  intros Hv Hw Hu. unfold v_powm. bnd 0 (4096 * (n * n * n) + 128 * (n * n) + 68 * n); [apply upto_pure|]. intros o _.
  bnd (64 * (n * n) + 35 * n) (4096 * (n * n * n) + 64 * (n * n) + 33 * n).
  { apply upto_more with (P := any) (k := n * (1 + 1) + (n * 1 + 32 * n * (1 + 2 * (n * 1)))); auto; [nia|]. now apply k_divide. }
  intros [q b] _. apply (upto_bind (fun f => 0 <= f <= n) _ (n * 1) (4096 * (n * n * n) + 64 * (n * n) + 32 * n)); [now apply k_filled|nia| |nia]. intros f Hf.
  bnd (32 * n * (1 + 2 * (n + 64 * (n * n)))) 0; [|intros [o1 b1] _; apply upto_ret; auto; lia].
  unfold blockBitLength. apply upto_forU; try nia. intros i [o1 b1] _. bnd 1 (2 * (n + 64 * (n * n))); [now apply k_getBit|]. intros bit _.
  assert (DV : forall p, upto any (n + 64 * (n * n)) (v_divide cfg n (local p) u)).
  { intros p. apply upto_more with (P := any) (k := n * (0 + 1) + (n * 0 + 32 * n * (0 + 2 * (n * 1)))); auto; [nia|]. apply k_divide; auto; apply costs_local. }
  bnd (n + 64 * (n * n)) (n + 64 * (n * n)).
  - destruct bit; [|apply upto_ret; auto; nia]. bnd 0 (n + 64 * (n * n)); [apply upto_pure|]. intros p _. bnd (n + 64 * (n * n)) 0; [apply DV|].
    intros [q1 r1] _; apply upto_ret; auto; lia.
  - intros o2 _. bnd 0 (n + 64 * (n * n)); [apply upto_pure|]. intros p _. bnd (n + 64 * (n * n)) 0; [apply DV|].
    intros [q1 r1] _; apply upto_ret; auto; lia.
Qed.
Lemma k_bitCount v : costs 1 v -> upto any (n + 4) (v_bitCount n v).
Proof.
  intros [_ H]. unfold v_bitCount. bnd n 4.
  - unfold v_lastBlockIndex. apply (upto_bind (exit_in any) _ (n * 1) 0); [|lia| |lia].
    + apply upto_forDx; try lia. intros i s _. apply (upto_bind any _ 1 0); [apply H|lia| |lia]. intros b _. destruct (b =? 0); apply upto_ret; cbn; auto; lia.
    + intros [?|?] _; apply upto_ret; auto; lia.
  - intros l _. apply (upto_bind (exit_in any) _ (4 * 1) 0); [|lia| |lia].
    + unfold blockBytes. apply upto_forDx; try lia. intros i s _. apply (upto_bind any _ 1 0); [apply H|lia| |lia]. intros b _. cbv zeta.
      destruct (byteOf b i =? 0); [apply upto_ret; cbn; auto; lia|]. apply (upto_bind any _ 0 0); [apply upto_pure|lia| |lia].
      intros [?|?] _; apply upto_ret; cbn; auto; lia.
    + intros [?|?] _; apply upto_ret; auto; lia.
Qed.
Lemma k_squareRoot cfg v : costs 1 v -> upto any (2176 * (n * n) + 103 * n + 4) (v_squareRoot cfg (gfuel n) n v).
Proof.
  intros H. unfold v_squareRoot. bnd (n + 4) (2176 * (n * n) + 102 * n); [now apply k_bitCount|]. intros c _.
  bnd 0 (2176 * (n * n) + 102 * n); [apply upto_pure|]. intros y _.
  apply upto_more with (P := any) (k := Z.of_nat (gfuel n) * (34 * n)); auto; [unfold gfuel; nia|].
  apply upto_while; [lia|]. intros x. cbv zeta. bnd (n * (1 + 0) + (n * 1 + 32 * n * (1 + 2 * (n * 0)))) 0; [apply k_divide; auto; apply costs_local|].
  intros [q r] _. bnd 0 0; [apply upto_pure|]. intros s _. bnd 0 0; [apply upto_pure|]. intros y' _. bnd 0 0; [apply upto_pure|]. intros lt _.
  destruct lt; apply upto_ret; auto; lia.
Qed.

Lemma k_assign c d v : costs c v -> upto any (n * (c + 1)) (t_assign n d v).
Proof. intros [C H]. unfold t_assign. apply upto_forU; try lia. intros i s _. bnd c 1; [apply H|]. intros b _. apply upto_aput. Qed.
Lemma k_add c a v : costs c v -> upto any (n * (c + 2)) (t_add_assign n a v).
Proof.
  intros [C H]. unfold t_add_assign. bnd (n * (c + 2)) 0; [|intros; apply upto_ret; auto; lia]. apply upto_forU; try lia. intros i s _.
  bnd 1 (c + 1); [apply upto_at|]. intros d _. bnd c 1; [apply H|]. intros b _. cbv zeta. bnd 1 0; [apply upto_aput|]. intros; apply upto_ret; auto; lia.
Qed.
Lemma k_sub a v : costs 1 v -> upto any (3 * n) (t_sub_assign n a v).
Proof. intros H. unfold t_sub_assign. bnd (n * 1) (n * (0 + 2)); [now apply k_neg|]. intros nb _. apply k_add, costs_local. Qed.
Lemma k_bitwise f a v : costs 1 v -> upto any (3 * n) (t_bitwise_assign f n a v).
Proof.
  intros [_ H]. unfold t_bitwise_assign. replace (3 * n) with (n * 3) by lia. apply upto_forU; try lia. intros i s _. bnd 1 2; [apply upto_at|]. intros x _.
  bnd 1 1; [apply H|]. intros y _. apply upto_aput.
Qed.
Lemma k_op cfg o a v : costs 1 v -> upto any (match o with OMul => n * n + 4 * n | ODiv | OMod => 64 * (n * n) + 36 * n | _ => 3 * n end) (t_op_assign cfg o n a v).
Proof.
  intros H. pose proof (costs_at a) as HA. destruct o; cbn [t_op_assign].
  - apply upto_more with (P := any) (k := n * (1 + 2)); auto; [lia|]. now apply k_add.
  - now apply k_sub.
  - unfold t_mul_assign. bnd (n * n + 3 * n) (n * (0 + 1)); [apply (k_mul 1 1); auto; lia|]. intros b _. apply k_assign, costs_local.
  - unfold t_div_assign. bnd (n * (1 + 1) + (n * 1 + 32 * n * (1 + 2 * (n * 1)))) (n * (0 + 1)); [now apply k_divide|]. intros [q r] _. apply k_assign, costs_local.
  - unfold t_mod_assign. bnd (n * (1 + 1) + (n * 1 + 32 * n * (1 + 2 * (n * 1)))) (n * (0 + 1)); [now apply k_divide|]. intros [q r] _. apply k_assign, costs_local.
  - now apply k_bitwise.
  - now apply k_bitwise.
  - now apply k_bitwise.
Qed.
Lemma k_copy_to d x : upto any (n * (1 + 1)) (t_assign n d (at_ x)).
Proof. apply k_assign, costs_at. Qed.
Lemma k_tmp cfg o d a b k : 0 <= k -> upto any k (t_op_assign cfg o n (Tmp 5) (at_ b)) ->
  upto any (k + 4 * n) (abind (t_assign n (Tmp 5) (at_ a)) (fun _ => abind (t_op_assign cfg o n (Tmp 5) (at_ b)) (fun _ => t_assign n d (at_ (Tmp 5))))).
Proof. intros Hk H. bnd (n * (1 + 1)) (k + 2 * n); [apply k_copy_to|]. intros _ _. bnd k (n * (1 + 1)); [exact H|]. intros _ _. apply k_copy_to. Qed.
Lemma k_binary cfg o d a b : upto any (match o with OMul => n * n + 8 * n | ODiv | OMod => 64 * (n * n) + 36 * n | _ => 7 * n end) (t_binary cfg o n d a b).
Proof.
  pose proof (costs_at a) as HA. pose proof (costs_at b) as HB. pose proof (k_op cfg o (Tmp 5) (at_ b) HB) as KO. destruct o; cbn [t_binary].
  4, 5: bnd (n * (1 + 1) + (n * 1 + 32 * n * (1 + 2 * (n * 1)))) (n * (0 + 1)); [now apply k_divide|]; intros [q r] _; apply k_assign, costs_local.
  all: eapply upto_more; [intros x X; exact X| |eapply k_tmp; [|exact KO] ]; nia.
Qed.
Lemma k_inc a : upto any (2 * n) (t_inc n a).
Proof.
  unfold t_inc. apply (upto_bind (exit_in any) _ (n * 2) 0); [|lia|intros; apply upto_ret; auto; lia|lia]. apply upto_forUx; try lia. intros i s _.
  apply (upto_bind any _ 1 1); [apply upto_at|lia| |lia]. intros b _. destruct (b <? blockMax); (apply (upto_bind any _ 1 0); [apply upto_aput|lia| |lia]; intros; apply upto_ret; cbn; auto; lia).
Qed.
Lemma k_dec a : upto any (2 * n) (t_dec n a).
Proof.
  unfold t_dec. apply (upto_bind (exit_in any) _ (n * 2) 0); [|lia|intros; apply upto_ret; auto; lia|lia]. apply upto_forUx; try lia. intros i s _.
  apply (upto_bind any _ 1 1); [apply upto_at|lia| |lia]. intros b _. destruct (b >? 0); (apply (upto_bind any _ 1 0); [apply upto_aput|lia| |lia]; intros; apply upto_ret; cbn; auto; lia).
Qed.
Lemma k_add_u t a v : upto any (2 * n) (t_add_assign_u n t a v).
Proof.
  unfold t_add_assign_u. bnd (n * 2) 0; [|intros; apply upto_ret; auto; lia]. apply upto_forU; try lia. intros i s _. bnd 1 1; [apply upto_at|]. intros b _. cbv zeta.
  bnd 1 0; [apply upto_aput|]. intros; apply upto_ret; auto; lia.
Qed.
Lemma k_mul_u t a v : upto any (3 * n) (t_mul_assign_u n t a v).
Proof.
  unfold t_mul_assign_u. destruct (is_uint64_t t).
  - apply (upto_bind (fun f => 0 <= f <= n) _ (n * 1) (2 * n)); [apply k_filled, costs_at|lia| |lia]. intros l L. cbv zeta.
    bnd (n * 1) (n * (0 + 1)); [|intros; apply k_assign, costs_local]. apply upto_forU; try lia. intros i b Hi. bnd 1 0; [apply upto_at|]. intros x _.
    bnd (n * 0) 0; [apply k_mul_inner; try lia; intros; apply upto_ret; auto; lia|]. intros [b' cy] _. destruct (_ <? n); [|apply upto_ret; auto; lia].
    bnd 0 0; [apply upto_pure|]. intros; apply upto_pure.
  - bnd (n * 2) 0; [|intros; apply upto_ret; auto; lia]. apply upto_forU; try lia. intros i s _. bnd 1 1; [apply upto_at|]. intros b _. cbv zeta.
    bnd 1 0; [apply upto_aput|]. intros; apply upto_ret; auto; lia.
Qed.
Lemma k_shl a k : 0 <= k -> upto any (4 * n + 2) (t_shl_assign n a k).
Proof.
  intros Hk. unfold t_shl_assign. destruct (Z.geb_spec k (32 * n)); cbn [orb]; [apply upto_ret; auto; lia|]. destruct (k =? 0); [apply upto_ret; auto; lia|]. cbv zeta.
  unfold blockBitLength. assert (Q : 0 <= k / 32 < n) by (split; [apply Z.div_pos; lia|apply Z.div_lt_upper_bound; lia]).
  set (r1 := b2z _). assert (R : 0 <= r1) by (unfold r1, b2z; destruct (negb _); lia).
  bnd ((n - k / 32) * 3) (n + k / 32 + 2).
  { apply upto_forD; try lia. intros i s _. bnd 1 2; [apply upto_at|]. intros x _. bnd 1 1; [apply upto_at|]. intros y _. apply upto_aput. }
  intros _ _. bnd 1 (k / 32 + 1); [apply upto_at|]. intros x _. bnd 1 (k / 32 * 1); [apply upto_aput|]. intros _ _.
  apply upto_forU; try lia. intros i s _. apply upto_aput.
Qed.
Lemma k_shr a k : 0 <= k -> upto any (4 * n + 2) (t_shr_assign n a k).
Proof.
  intros Hk. unfold t_shr_assign. destruct (Z.geb_spec k (32 * n)); cbn [orb]; [apply upto_ret; auto; lia|]. destruct (k =? 0); [apply upto_ret; auto; lia|]. cbv zeta.
  unfold blockBitLength. assert (Q : 0 <= k / 32 < n) by (split; [apply Z.div_pos; lia|apply Z.div_lt_upper_bound; lia]).
  set (r1 := b2z _). assert (R : 0 <= r1) by (unfold r1, b2z; destruct (negb _); lia).
  bnd ((n - k / 32) * 3) (n + k / 32 + 2).
  { apply upto_forU; try lia. intros i s _. bnd 1 2; [apply upto_at|]. intros x _. bnd 1 1; [apply upto_at|]. intros y _. apply upto_aput. }
  intros _ _. bnd 1 (k / 32 + 1); [apply upto_at|]. intros x _. bnd 1 (k / 32 * 1); [apply upto_aput|]. intros _ _.
  apply upto_forU; try lia. intros i s _. apply upto_aput.
Qed.
Lemma k_setBit cfg a i b : upto any 2 (t_setBit cfg n a i b).
Proof.
  unfold t_setBit. destruct (_ && _); [apply upto_ret; auto; lia|]. cbv zeta. bnd 0 2; [apply upto_pure|]. intros _ _. bnd 1 1; [apply upto_at|]. intros x _.
  destruct b; apply upto_aput.
Qed.
Lemma k_swap a b : upto any (6 * n) (t_swap n a b).
Proof. unfold t_swap. bnd (n * (1 + 1)) (4 * n); [apply k_copy_to|]. intros _ _. bnd (n * (1 + 1)) (n * (1 + 1)); [apply k_copy_to|]. intros _ _. apply k_copy_to. Qed.
Lemma k_tdivide cfg nu de q r : upto any (288 * (n * n) + 229 * n) (t_divide cfg n nu de q r).
Proof.
  pose proof (costs_at nu) as HA. pose proof (costs_at de) as HB. unfold t_divide.
  bnd (n * (1 + 1)) (288 * (n * n) + 227 * n); [now apply k_compare|]. intros c _.
  bnd (n * (0 + 1)) (288 * (n * n) + 226 * n); [apply k_assign, costs_local|]. intros _ _.
  bnd (n * (0 + 1)) (288 * (n * n) + 225 * n); [apply k_assign, costs_local|]. intros _ _.
  destruct c.
  - bnd 0 (n * (0 + 1)); [apply upto_pure|]. intros o _. apply k_assign, costs_local.
  - apply upto_more with (P := any) (k := n * (1 + 1)); auto; [nia|]. apply k_copy_to.
  - apply (upto_bind (fun f => 0 <= f <= n) _ (n * 1) (32 * n * (9 * n + 7))); [now apply k_filled|nia| |nia]. intros f Hf. unfold blockBitLength.
    apply upto_forD; try nia. intros i s _. bnd (4 * n + 2) (5 * n + 5); [apply k_shl; lia|]. intros _ _. bnd 1 (5 * n + 4); [now apply k_getBit|]. intros bit _.
    bnd 2 (5 * n + 2); [apply k_setBit|]. intros _ _. bnd (n * (1 + 1)) (3 * n + 2); [apply k_rel; auto; apply costs_at|]. intros ge _.
    destruct ge; [|apply upto_ret; auto; lia]. bnd (3 * n) 2; [apply k_sub; auto|]. intros _ _. apply k_setBit.
  - bnd 0 (n * (0 + 1)); [apply upto_pure|]. intros o _. apply k_assign, costs_local.
Qed.
Lemma k_store d c k : 0 <= k -> upto any k c -> upto any (k + n) (t_store n d c).
Proof. intros Hk H. unfold t_store. bnd k (n * (0 + 1)); [exact H|]. intros r _. apply k_assign, costs_local. Qed.
Ltac store k := apply (upto_more any any _ (fun _ _ => I) (k + n)); [nia|]; apply k_store; [nia|].
Lemma k_exec cfg i : match i with UShl _ k | UShr _ k => 0 <= k | _ => True end -> upto any (most_accesses n i) (texec cfg n i).
Proof.
  intros T. assert (AT : forall x, costs 1 (at_ x)) by apply costs_at. destruct i; cbn [texec most_accesses] in *.
  - replace (2 * n) with (n * (1 + 1)) by lia. apply k_assign, AT.
  - store 0. apply upto_pure.
  - apply k_op, AT.
  - apply k_binary.
  - apply k_inc.
  - apply k_dec.
  - store (n * 1). apply k_neg, AT.
  - store (n * 1). apply k_not, AT.
  - now apply k_shl.
  - now apply k_shr.
  - apply k_setBit.
  - apply k_add_u.
  - apply k_mul_u.
  - apply k_swap.
  - apply k_tdivide.
  - store (64 * (n * n) + 38 * n). apply k_gcd; apply AT.
  - store (65 * (n * n) + 76 * n). apply k_lcm; apply AT.
  - store (2176 * (n * n) + 103 * n + 4). apply k_squareRoot, AT.
  - store 0. apply upto_pure.
  - store (4096 * (n * n * n) + 128 * (n * n) + 68 * n). apply k_powm; apply AT.
Qed.
Lemma k_test cfg c : upto any (most_tests n c) (ttest cfg n c).
Proof.
  assert (AT : forall x, costs 1 (at_ x)) by apply costs_at. assert (E : n * (1 + 1) = 2 * n) by lia. destruct c; cbn [ttest most_tests].
  - unfold v_eq. bnd (n * (1 + 1)) 0; [apply k_compare; apply AT|]. intros; apply upto_ret; auto; lia.
  - unfold v_eq. bnd (2 * n) 0; [|intros; apply upto_ret; auto; lia]. bnd (n * (1 + 1)) 0; [apply k_compare; apply AT|]. intros; apply upto_ret; auto; lia.
  - rewrite <- E. apply k_rel; apply AT.
  - rewrite <- E. apply k_rel; apply AT.
  - rewrite <- E. apply k_rel; apply AT.
  - rewrite <- E. apply k_rel; apply AT.
  - unfold v_isOdd. bnd 1 0; [apply upto_at|]. intros; apply upto_ret; auto; lia.
  - unfold v_isZero. apply (upto_bind (fun f => 0 <= f <= n) _ (n * 1) 0); [apply k_filled, AT|lia| |lia]. intros; apply upto_ret; auto; lia.
  - apply k_getBit, AT.
Qed.
Lemma most_nonneg p : 0 <= most_prog n p.
Proof.
  induction p as [|i|s IHs t IHt|c s IHs t IHt|c s IHs]; cbn [most_prog]; try lia.
  - destruct i; cbn [most_accesses]; try (destruct o); nia.
  - destruct c; cbn [most_tests]; lia.
Qed.
Lemma k_run cfg : forall fuel p, typed uinstr_typed ucond_typed p -> straight p -> upto any (most_prog n p) (trun cfg n fuel p).
Proof.
  induction fuel as [|f IH]; intros p T S; cbn [trun]; [cbn; apply most_nonneg|]. destruct p as [|i|s t|c s t|c s]; cbn [typed straight most_prog] in *.
  - apply upto_ret; auto; lia.
  - apply k_exec. destruct i; auto.
  - pose proof (most_nonneg s). pose proof (most_nonneg t). destruct T, S. bnd (most_prog n s) (most_prog n t); [now apply IH|]. intros _ _. now apply IH.
  - pose proof (most_nonneg s). pose proof (most_nonneg t). destruct T as (T0 & T1 & T2), S. bnd (most_tests n c) (Z.max (most_prog n s) (most_prog n t)); [apply k_test|].
    intros b _. destruct b.
    + apply upto_more with (P := any) (k := most_prog n s); auto; lia.
    + apply upto_more with (P := any) (k := most_prog n t); auto; lia.
  - contradiction.
Qed.
End Count.

(** The observer's list is no longer than that. *)
Lemma upto_length {A} (P : A -> Prop) (c : act A) : forall k m, upto P k c -> Z.of_nat (length (accesses c m)) <= k.
Proof.
  induction c as [a|e|x i f IH|x i v c IH]; intros k m H; cbn [upto accesses length] in *; try lia.
  - destruct H as [H1 H2]. destruct (mget m x i) as [v|e]; [specialize (IH v (k - 1) m (H2 v))|cbn [length]]; lia.
  - destruct H as [H1 H2]. destruct (mset m x i v) as [m'|e]; [specialize (IH (k - 1) m' H2)|cbn [length]]; lia.
Qed.
(** One step of a thread uses up one access, unless it has come to its end. *)
Lemma upto_step k sh th : upto any k (th_act th) ->
  upto any (k - 1) (th_act (snd (thread_step sh th))) \/ match th_act (snd (thread_step sh th)) with Ret _ | Stop _ => True | _ => False end.
Proof.
  unfold thread_step. destruct (th_act th) as [a|e|x i f|x i v c] eqn:E; cbn [upto]; intros H.
  - right. cbn [snd]. rewrite E. exact I.
  - right. cbn [snd]. rewrite E. exact I.
  - destruct H as [H1 H2]. destruct (mget _ x i) as [v|e]; cbn [snd th_act]; [left; apply H2|right; exact I].
  - destruct H as [H1 H2]. destruct (aset _ i v) as [b|e]; [|right; exact I]. destruct x; left; exact H2.
Qed.
