(** * BinFacts: proofs about binary input/output and the GMP constructors. *)
From Verif Require Import Lib AeuArith AeuAccess AeuFacts TextFacts.
From Verif Require Export BinModel.
From Coq Require Import ZifyBool.
Open Scope Z_scope.

(** ** Descending loops as ascending ones *)
Lemma loopDx_U {S R} (body : Z -> S -> outcome (step S R)) cnt : forall i j s,
  loopDx cnt i body s = loopUx cnt j (fun q => body (i + j - 1 - q)) s.
Proof.
  induction cnt as [|c IH]; intros i j s; [reflexivity|]. cbn [loopDx loopUx].
  replace (i + j - 1 - j) with (i - 1) by lia. destruct (body (i - 1) s) as [[s'|r]|f]; cbn [bind]; auto.
  rewrite (IH (i - 1) (j + 1)). replace (i - 1 + (j + 1) - 1) with (i + j - 1) by lia. reflexivity.
Qed.
Lemma forDx_U {S R} (body : Z -> S -> outcome (step S R)) n s :
  forDx n 0 body s = forUx 0 n (fun q => body (n - 1 - q)) s.
Proof. unfold forDx, forUx. rewrite (loopDx_U body _ n 0). replace (n + 0 - 1) with (n - 1) by lia. reflexivity. Qed.

(** ** Bytes of a block *)
Lemma byte_at_range v i : is_byte (byte_at v i).
Proof. unfold is_byte, byte_at. apply Z.mod_pos_bound. lia. Qed.

Definition bytes_in (a : list Z) := Forall is_byte a.

Lemma len4 {A} (l : list A) : len l = 4 -> exists a b c d, l = [a; b; c; d].
Proof.
  destruct l as [|a [|b [|c [|d [|e l] ] ] ] ]; unfold len; cbn [length]; try lia. intros _. eauto.
Qed.

Ltac dm := Z.to_euclidean_division_equations; lia.

Lemma le_block_bytes a b c d m : is_byte a -> is_byte b -> is_byte c -> is_byte d -> 0 <= m < 4 ->
  byte_at (le_block [a; b; c; d]) m = znth [a; b; c; d] m.
Proof.
  unfold is_byte, byte_at, le_block. intros Ha Hb Hc Hd Hm. change (znth [a; b; c; d] 0) with a.
  change (znth [a; b; c; d] 1) with b. change (znth [a; b; c; d] 2) with c. change (znth [a; b; c; d] 3) with d.
  assert (C : m = 0 \/ m = 1 \/ m = 2 \/ m = 3) by lia. destruct C as [-> |[-> |[-> | ->] ] ].
  - change (znth [a; b; c; d] 0) with a. change (256 ^ 0) with 1. dm.
  - change (znth [a; b; c; d] 1) with b. change (256 ^ 1) with 256. dm.
  - change (znth [a; b; c; d] 2) with c. change (256 ^ 2) with 65536. dm.
  - change (znth [a; b; c; d] 3) with d. change (256 ^ 3) with 16777216. dm.
Qed.

Lemma le_block_range l : len l = 4 -> bytes_in l -> 0 <= le_block l < 2 ^ 32.
Proof.
  intros L F. destruct (len4 l L) as (a & b & c & d & ->). unfold bytes_in in F.
  repeat match goal with H : Forall _ (_ :: _) |- _ => inversion H; clear H; subst end. unfold is_byte in *.
  unfold le_block. change (znth [a; b; c; d] 0) with a.
  change (znth [a; b; c; d] 1) with b. change (znth [a; b; c; d] 2) with c. change (znth [a; b; c; d] 3) with d. lia.
Qed.

Lemma rev_len {A} (l : list A) : len (rev l) = len l.
Proof. unfold len. rewrite rev_length. auto. Qed.

Lemma bytes_block_range le l : len l = 4 -> bytes_in l -> 0 <= bytes_block le l < 2 ^ 32.
Proof.
  intros L F. unfold bytes_block. destruct le; apply le_block_range; auto; [rewrite rev_len; auto|apply Forall_rev; auto].
Qed.

Lemma bytes_block_byte le l m : len l = 4 -> bytes_in l -> 0 <= m < 4 ->
  byte_at (bytes_block le l) m = znth l (if le then m else 3 - m).
Proof.
  intros L F Hm. destruct (len4 l L) as (a & b & c & d & ->). unfold bytes_in in F.
  repeat match goal with H : Forall _ (_ :: _) |- _ => inversion H; clear H; subst end.
  unfold bytes_block. destruct le; [apply le_block_bytes; auto|].
  cbn [rev app]. rewrite le_block_bytes by auto.
  assert (C : m = 0 \/ m = 1 \/ m = 2 \/ m = 3) by lia. destruct C as [-> |[-> |[-> | ->] ] ]; reflexivity.
Qed.

Lemma block_bytes_len le x : len (block_bytes le x) = 4.
Proof. unfold block_bytes. destruct le; reflexivity. Qed.

Lemma block_bytes_nth le x i : 0 <= i < 4 -> znth (block_bytes le x) i = byte_at x (if le then i else 3 - i).
Proof.
  intros Hi. unfold block_bytes, byte_at, le_bytes.
  assert (C : i = 0 \/ i = 1 \/ i = 2 \/ i = 3) by lia.
  destruct C as [-> |[-> |[-> | ->] ] ]; destruct le; cbn [rev app]; unfold znth; cbn -[Z.div Z.modulo Z.pow]; rewrite ?Z.pow_0_r, ?Z.div_1_r; reflexivity.
Qed.

Lemma byte_at_block n a j m : wf n a -> 0 <= j < n -> 0 <= m < 4 -> byte_at (bval a) (4 * j + m) = byte_at (znth a j) m.
Proof.
  intros W Hj Hm. unfold byte_at. rewrite (znth_digit n a j W Hj).
  change 256 with (2 ^ 8). rewrite <- !Z.pow_mul_r by lia.
  replace (8 * (4 * j + m)) with (32 * j + 8 * m) by lia. rewrite Z.pow_add_r, <- Z.div_div by (lia || (apply Z.pow_nonzero; lia) || (apply Z.pow_pos_nonneg; lia)).
  set (v := bval a / 2 ^ (32 * j)).
  apply Z.bits_inj'. intros i Hi. destruct (Z.ltb_spec i 8).
  - rewrite !Z.mod_pow2_bits_low, !Z.div_pow2_bits, Z.mod_pow2_bits_low by lia. reflexivity.
  - rewrite !Z.mod_pow2_bits_high by lia. reflexivity.
Qed.

(** Two numbers with the same bytes are the same. *)
Lemma bytes_ext n a b : wf n a -> wf n b -> (forall i, 0 <= i < 4 * n -> byte_at (bval a) i = byte_at (bval b) i) -> a = b.
Proof.
  intros Wa Wb H. pose proof (wf_len _ _ Wa) as La. pose proof (wf_len _ _ Wb) as Lb.
  apply list_ext_znth; [lia|]. intros j Hj.
  pose proof (wf_znth n a j Wa) as Ra. pose proof (wf_znth n b j Wb) as Rb.
  assert (E : forall m, 0 <= m < 4 -> byte_at (znth a j) m = byte_at (znth b j) m).
  { intros m Hm. rewrite <- (byte_at_block n a), <- (byte_at_block n b) by (auto; lia). apply H. lia. }
  pose proof (E 0 ltac:(lia)) as E0. pose proof (E 1 ltac:(lia)) as E1. pose proof (E 2 ltac:(lia)) as E2. pose proof (E 3 ltac:(lia)) as E3.
  unfold byte_at in *. change (256 ^ 0) with 1 in *. change (256 ^ 1) with 256 in *. change (256 ^ 2) with 65536 in *. change (256 ^ 3) with 16777216 in *.
  generalize dependent (znth a j). generalize dependent (znth b j). intros y Ry x Rx. intros. clear H. dm.
Qed.

(** The places of the file's bytes are a permutation. *)
Lemma place_range le be n k : 0 <= k < 4 * n -> 0 <= place le be n k < 4 * n.
Proof. unfold place. intros. destruct le, be; dm. Qed.
Lemma place_inv le be n k : 0 <= k < 4 * n -> place le be n (place le be n k) = k \/ True.
Proof. auto. Qed.
Lemma place_onto le be n i : 0 <= i < 4 * n -> exists k, 0 <= k < 4 * n /\ place le be n k = i.
Proof.
  intros H. exists (4 * (if be then n - 1 - i / 4 else i / 4) + (if le then i mod 4 else 3 - i mod 4)).
  unfold place. destruct le, be; dm.
Qed.

(** ** Writing *)
Lemma os_write_app os l1 l2 : os_write (os_write os l1) l2 = os_write os (l1 ++ l2).
Proof.
  unfold os_write. destruct (ogood os) eqn:G; [|rewrite G; auto]. destruct (oroom os) as [r|]; cbn [ogood oroom obytes].
  - destruct (Z.leb_spec (len l1) r) as [H|H]; cbn [ogood oroom obytes].
    + rewrite <- app_assoc. rewrite firstn_app, len_app. unfold len in *. f_equal; [|f_equal; lia|lia].
      do 3 f_equal. lia.
    + rewrite len_app. unfold len in *. f_equal; [|f_equal; lia|lia]. f_equal.
      rewrite firstn_app. replace (Z.to_nat r - length l1)%nat with O by lia. cbn. rewrite app_nil_r. auto.
  - rewrite app_assoc. auto.
Qed.
Lemma os_write_nil os : (forall r, oroom os = Some r -> 0 <= r) -> os_write os [] = os.
Proof.
  intros H. unfold os_write. destruct (ogood os) eqn:G; auto. destruct os as [o [r|] g]; cbn in *; subst g.
  - specialize (H r eq_refl). rewrite firstn_nil, app_nil_r. unfold len; cbn. f_equal; [f_equal; lia|lia].
  - rewrite app_nil_r. auto.
Qed.

(** The bytes of the file, block by block. *)
Definition file_bytes (le be : bool) (n : Z) (a : list Z) : list Z :=
  flat_map (fun q => block_bytes le (znth a (if be then n - 1 - Z.of_nat q else Z.of_nat q))) (seq 0 (Z.to_nat n)).

Lemma writeBinary_spec le n a os be : wf n a -> (forall r, oroom os = Some r -> 0 <= r) ->
  writeBinary le n a os be = Ok (os_write os (file_bytes le be n a)).
Proof.
  intros W R. pose proof (wf_nonneg _ _ W) as Hn. pose proof (wf_len _ _ W) as L. unfold writeBinary. rewrite forDx_U.
  set (g := fun q => if be then n - 1 - q else q).
  set (pre := fun i : Z => flat_map (fun q => block_bytes le (znth a (g (Z.of_nat q)))) (seq 0 (Z.to_nat i))).
  match goal with |- context [if be then forUx 0 n ?B1 ?S else forUx 0 n ?B2 ?S] => set (body := B2) end.
  match goal with |- context [if be then forUx 0 n ?B1 ?S else forUx 0 n ?B2 ?S] =>
    replace (if be then forUx 0 n B1 S else forUx 0 n B2 S) with (forUx 0 n (fun q => body (g q)) S) by (unfold g, body; destruct be; reflexivity) end.
  destruct (forUx_spec (fun i st => st = os_write os (pre i)) (fun st => st = os_write os (pre n)) 0 n (fun q => body (g q)) os) as (x & -> & P); auto.
  - unfold pre. cbn. rewrite os_write_nil; auto.
  - intros j st Hj ->. unfold body. assert (0 <= g j < n) by (unfold g; destruct be; lia).
    rewrite aget_ok by lia. cbn [bind]. rewrite os_write_app.
    assert (S : pre j ++ block_bytes le (znth a (g j)) = pre (j + 1)).
    { unfold pre. replace (Z.to_nat (j + 1)) with (Z.to_nat j + 1)%nat by lia. rewrite seq_app, flat_map_app. f_equal. cbn. rewrite Z2Nat.id, app_nil_r by lia. auto. }
    rewrite S. destruct (ogood (os_write os (pre (j + 1)))) eqn:G; eexists; (split; [reflexivity|]); cbn [step_post]; auto.
    (* bad: nothing more is written *)
    assert (PP : exists t, pre n = pre (j + 1) ++ t).
    { unfold pre. replace (Z.to_nat n) with (Z.to_nat (j + 1) + (Z.to_nat n - Z.to_nat (j + 1)))%nat by lia. rewrite seq_app, flat_map_app. eauto. }
    destruct PP as (t & ->). rewrite <- os_write_app. unfold os_write at 2. rewrite G. auto.
  - destruct x; cbn [step_post] in P; subst; cbn [bind]; reflexivity.
Qed.

Lemma flat_map_len {A} (f : A -> list Z) l : (forall x, len (f x) = 4) -> len (flat_map f l) = 4 * len l.
Proof. intros H. induction l as [|x l IH]; cbn [flat_map]; [reflexivity|]. rewrite len_app, H, IH. unfold len. cbn [length]. lia. Qed.

Lemma file_bytes_len le be n a : 0 <= n -> len (file_bytes le be n a) = 4 * n.
Proof. intros H. unfold file_bytes. rewrite flat_map_len by (intros; apply block_bytes_len). unfold len. rewrite seq_length. lia. Qed.

Lemma znth_app_l a b i : 0 <= i < len a -> znth (a ++ b) i = znth a i.
Proof. intros H. unfold znth, len in *. destruct (Z.ltb_spec i 0); [lia|]. apply app_nth1. lia. Qed.
Lemma znth_app_r a b i : len a <= i -> znth (a ++ b) i = znth b (i - len a).
Proof.
  intros H. unfold znth, len in *. destruct (Z.ltb_spec i 0); [lia|]. destruct (Z.ltb_spec (i - Z.of_nat (length a)) 0); [lia|].
  rewrite app_nth2 by lia. f_equal. lia.
Qed.

Lemma flat_map_nth (f : nat -> list Z) m s k : (forall x, len (f x) = 4) -> 0 <= k < 4 * Z.of_nat m ->
  znth (flat_map f (seq s m)) k = znth (f (s + Z.to_nat (k / 4))%nat) (k mod 4).
Proof.
  intros H. revert s k. induction m as [|m IH]; intros s k Hk; [lia|]. cbn [seq flat_map].
  destruct (Z.ltb_spec k 4).
  - rewrite znth_app_l by (rewrite H; lia). replace (k / 4) with 0 by dm. replace (k mod 4) with k by dm. cbn. rewrite Nat.add_0_r. auto.
  - rewrite znth_app_r by (rewrite H; lia). rewrite H. rewrite IH by lia.
    replace ((k - 4) mod 4) with (k mod 4) by dm. f_equal. f_equal. assert ((k - 4) / 4 = k / 4 - 1) by dm. assert (1 <= k / 4) by dm. lia.
Qed.

Lemma file_bytes_nth le be n a k : wf n a -> 0 <= k < 4 * n -> znth (file_bytes le be n a) k = byte_at (bval a) (place le be n k).
Proof.
  intros W Hk. unfold file_bytes. rewrite flat_map_nth; [|intros; apply block_bytes_len|lia]. rewrite Nat.add_0_l.
  assert (0 <= k mod 4 < 4) by dm. assert (0 <= k / 4 < n) by dm.
  rewrite block_bytes_nth by lia. rewrite Z2Nat.id by lia. unfold place.
  rewrite (byte_at_block n a); auto; [destruct be; lia|destruct le; lia].
Qed.

Lemma file_bytes_bytes le be n a : wf n a -> bytes_in (file_bytes le be n a).
Proof.
  intros W. pose proof (wf_nonneg _ _ W). apply Forall_nth. intros i d Hi. pose proof (file_bytes_len le be n a ltac:(lia)) as L. unfold len in L.
  pose proof (file_bytes_nth le be n a (Z.of_nat i) W ltac:(lia)) as E. unfold znth in E. destruct (Z.ltb_spec (Z.of_nat i) 0); [lia|]. rewrite Nat2Z.id in E.
  rewrite (nth_indep _ d 0) by lia. rewrite E. apply byte_at_range.
Qed.

(** ** Reading *)
Definition pad4 (l : list Z) : list Z := firstn 4 (l ++ [0; 0; 0; 0]).
Definition chunk (le : bool) (s : list Z) (q : Z) : Z := bytes_block le (pad4 (firstn 4 (skipn (Z.to_nat (4 * q)) s))).

Lemma pad4_len l : len (pad4 l) = 4.
Proof. unfold pad4, len. rewrite firstn_length, app_length. cbn [length]. lia. Qed.
Lemma znth_firstn l m i : 0 <= i < Z.of_nat m -> znth (firstn m l) i = znth l i.
Proof.
  intros H. unfold znth. destruct (Z.ltb_spec i 0); [lia|].
  assert (K : (Z.to_nat i < m)%nat) by lia. revert K. generalize (Z.to_nat i). clear. revert l. induction m; intros l k K; [lia|].
  destruct l; [destruct k; reflexivity|]. destruct k; cbn; auto. apply IHm. lia.
Qed.
Lemma znth_skipn l m i : 0 <= i -> znth (skipn m l) i = znth l (Z.of_nat m + i).
Proof.
  intros H. unfold znth. destruct (Z.ltb_spec i 0); [lia|]. destruct (Z.ltb_spec (Z.of_nat m + i) 0); [lia|].
  replace (Z.to_nat (Z.of_nat m + i)) with (m + Z.to_nat i)%nat by lia. generalize (Z.to_nat i). clear. revert l. induction m; intros l k; [reflexivity|].
  destruct l; [destruct k; reflexivity|]. cbn. apply IHm.
Qed.
Lemma pad4_nth l i : 0 <= i < 4 -> znth (pad4 l) i = znth l i.
Proof.
  intros H. unfold pad4. rewrite znth_firstn by lia. destruct (Z.ltb_spec i (len l)).
  - rewrite znth_app_l by lia. auto.
  - rewrite znth_app_r by lia. rewrite (znth_out l) by lia. assert (0 <= len l) by (unfold len; lia).
    assert (C : i - len l = 0 \/ i - len l = 1 \/ i - len l = 2 \/ i - len l = 3) by lia. destruct C as [-> |[-> |[-> | ->] ] ]; reflexivity.
Qed.
Lemma pad4_eq l : len l <= 4 -> l ++ skipn (length l) [0; 0; 0; 0] = pad4 l.
Proof.
  intros H. apply list_ext_znth.
  - rewrite pad4_len, len_app. unfold len in *. rewrite skipn_length. cbn [length]. lia.
  - intros i Hi. rewrite len_app in Hi. unfold len in Hi at 2. rewrite skipn_length in Hi. cbn [length] in Hi. unfold len in Hi.
    unfold len in H. rewrite pad4_nth by lia. destruct (Z.ltb_spec i (len l)).
    + apply znth_app_l. lia.
    + rewrite znth_app_r, (znth_out l) by lia. rewrite znth_skipn by lia. unfold len in *.
      assert (C : Z.of_nat (length l) + (i - Z.of_nat (length l)) = i) by lia. rewrite C. assert (C2 : i = 0 \/ i = 1 \/ i = 2 \/ i = 3) by lia. destruct C2 as [-> |[-> |[-> | ->] ] ]; reflexivity.
Qed.
Lemma Forall_skipn' {A} (P : A -> Prop) m l : Forall P l -> Forall P (skipn m l).
Proof. intros H. rewrite <- (firstn_skipn m l) in H. apply Forall_app in H. tauto. Qed.
Lemma Forall_firstn' {A} (P : A -> Prop) m l : Forall P l -> Forall P (firstn m l).
Proof. intros H. rewrite <- (firstn_skipn m l) in H. apply Forall_app in H. tauto. Qed.
Lemma pad4_bytes l : bytes_in l -> bytes_in (pad4 l).
Proof.
  intros H. unfold pad4, bytes_in. apply Forall_firstn'. apply Forall_app. split; auto. unfold is_byte. repeat constructor; lia.
Qed.
Lemma block_bytes_zero le : block_bytes le 0 = [0; 0; 0; 0].
Proof. destruct le; reflexivity. Qed.
Lemma chunk_range le s q : bytes_in s -> 0 <= chunk le s q < 2 ^ 32.
Proof. intros H. apply bytes_block_range; [apply pad4_len|]. apply pad4_bytes. apply Forall_firstn', Forall_skipn'. auto. Qed.
Lemma chunk_byte le s q m : bytes_in s -> 0 <= q -> 0 <= m < 4 -> byte_at (chunk le s q) m = znth s (4 * q + (if le then m else 3 - m)).
Proof.
  intros H Hq Hm. unfold chunk. rewrite bytes_block_byte; auto; [|apply pad4_len|apply pad4_bytes; apply Forall_firstn', Forall_skipn'; auto].
  set (m' := if le then m else 3 - m). assert (0 <= m' < 4) by (subst m'; destruct le; lia).
  rewrite pad4_nth, znth_firstn, znth_skipn by lia. f_equal. lia.
Qed.
Lemma chunk_out le s q : len s <= 4 * q -> chunk le s q = 0.
Proof.
  intros H. unfold chunk. rewrite skipn_all2 by (unfold len in H; lia). destruct le; reflexivity.
Qed.

Lemma skipn_skipn' {A} x y (l : list A) : skipn x (skipn y l) = skipn (x + y) l.
Proof. revert l. induction y as [|y IH]; intros l; [rewrite Nat.add_0_r; reflexivity|]. rewrite Nat.add_succ_r. destruct l; [rewrite !skipn_nil; reflexivity|]. cbn. apply IH. Qed.

Lemma readBinary_loop le n s be : 0 <= n -> bytes_in s ->
  exists r, readBinary le n (mk_is s true) be = Ok (r, mk_is (skipn (Z.to_nat (4 * n)) s) (4 * n <=? len s)) /\
    wf n r /\ forall q, 0 <= q < n -> znth r (if be then n - 1 - q else q) = chunk le s q.
Proof.
  intros Hn Fb. unfold readBinary. rewrite forDx_U.
  set (g := fun q => if be then n - 1 - q else q).
  match goal with |- context [if be then forUx 0 n ?B1 ?S else forUx 0 n ?B2 ?S] => set (body := B2) end.
  match goal with |- context [if be then forUx 0 n ?B1 ?S else forUx 0 n ?B2 ?S] =>
    replace (if be then forUx 0 n B1 S else forUx 0 n B2 S) with (forUx 0 n (fun q => body (g q)) S) by (unfold g, body; destruct be; reflexivity) end.
  destruct (forUx_spec (fun i st => 4 * i <= len s /\ wf n (fst st) /\ snd st = mk_is (skipn (Z.to_nat (4 * i)) s) true /\
       forall q, 0 <= q < n -> znth (fst st) (g q) = if q <? i then chunk le s q else 0)
     (fun st => wf n (fst st) /\ snd st = mk_is (skipn (Z.to_nat (4 * n)) s) (4 * n <=? len s) /\
       forall q, 0 <= q < n -> znth (fst st) (g q) = chunk le s q)
     0 n (fun q => body (g q)) (zeros n, mk_is s true)) as (x & -> & P); auto.
  - cbn [fst snd]. split; [unfold len; lia|]. split; [apply wf_zeros; auto|]. split; [reflexivity|].
    intros q Hq. destruct (Z.ltb_spec q 0); [lia|]. unfold znth, zeros. destruct (g q <? 0); auto. apply nth_repeat.
  - intros j [st is] Hj (HL & W & E & Q). cbn [fst snd] in *. subst is.
    assert (Hg : 0 <= g j < n) by (unfold g; destruct be; lia). pose proof (wf_len _ _ W) as L.
    unfold body, read_block. rewrite aget_ok by lia. cbn [bind is_read igood ibytes].
    rewrite Q by lia. replace (j <? j) with false by lia. rewrite block_bytes_zero.
    change (Z.to_nat 4) with 4%nat. rewrite skipn_skipn'.
    set (got := firstn 4 (skipn (Z.to_nat (4 * j)) s)).
    assert (GL : len got <= 4) by (unfold got, len; rewrite firstn_length; lia).
    rewrite pad4_eq by auto. change (bytes_block le (pad4 got)) with (chunk le s j).
    rewrite aset_ok by lia. cbn [bind].
    assert (W' : wf n (upd st (Z.to_nat (g j)) (chunk le s j))) by (apply wf_upd; auto; apply chunk_range; auto).
    assert (Q' : forall q, 0 <= q < n -> znth (upd st (Z.to_nat (g j)) (chunk le s j)) (g q) = if q <? j + 1 then chunk le s q else 0).
    { intros q Hq. assert (0 <= g q < n) by (unfold g; destruct be; lia). destruct (Z.eq_dec q j) as [-> |Hne].
      - rewrite znth_upd_eq by lia. replace (j <? j + 1) with true by lia. auto.
      - rewrite znth_upd_ne by (try lia; unfold g; destruct be; lia). rewrite Q by auto. destruct (Z.ltb_spec q j), (Z.ltb_spec q (j + 1)); auto; lia. }
    assert (LS : len (skipn (Z.to_nat (4 * j)) s) = len s - 4 * j) by (unfold len in *; rewrite skipn_length; lia). rewrite LS.
    destruct (Z.leb_spec 4 (len s - 4 * j)); eexists; (split; [reflexivity|]); cbn [step_post fst snd].
    + split; [lia|]. split; auto. split; [|auto]. do 2 f_equal. lia.
    + split; auto. split.
      * f_equal; [|lia]. rewrite !skipn_all2 by (unfold len in *; lia). auto.
      * intros q Hq. rewrite Q' by auto. destruct (Z.ltb_spec q (j + 1)); auto. symmetry. apply chunk_out. lia.
  - destruct x as [[r is]|[r is] ]; cbn [step_post fst snd bind] in *.
    + destruct P as (HL & W & -> & Q). exists r. split; [f_equal; f_equal; f_equal; lia|]. split; auto. intros q Hq. change (if be then n - 1 - q else q) with (g q). rewrite Q by auto. replace (q <? n) with true by lia. auto.
    + destruct P as (W & -> & Q). exists r. auto.
Qed.

Lemma readBinary_spec le n s be : 0 <= n -> bytes_in s ->
  exists r, readBinary le n (mk_is s true) be = Ok (r, mk_is (skipn (Z.to_nat (4 * n)) s) (4 * n <=? len s)) /\
    wf n r /\ forall k, 0 <= k < 4 * n -> byte_at (bval r) (place le be n k) = znth s k.
Proof.
  intros Hn Fb. destruct (readBinary_loop le n s be Hn Fb) as (r & E & W & Q). exists r. split; auto. split; auto.
  intros k Hk. assert (0 <= k mod 4 < 4) by dm. assert (0 <= k / 4 < n) by dm. unfold place.
  rewrite (byte_at_block n r); auto; [|destruct be; lia|destruct le; lia]. rewrite (Q (k / 4)) by auto.
  rewrite chunk_byte by (auto; destruct le; lia). f_equal. destruct le; dm.
Qed.

Lemma readBinary_bad le n s be : 1 <= n -> readBinary le n (mk_is s false) be = Ok (zeros n, mk_is s false).
Proof.
  intros Hn. unfold readBinary. rewrite forDx_U.
  pose proof (len_zeros n ltac:(lia)) as LZ.
  assert (U : forall j, 0 <= j < n -> upd (zeros n) (Z.to_nat j) 0 = zeros n).
  { intros j Hj. apply list_ext_znth; [apply len_upd|]. intros i Hi. rewrite znth_upd by lia. rewrite znth_zeros. destruct (j =? i); auto. }
  assert (B : forall j, 0 <= j < n -> read_block le (zeros n) (mk_is s false) j = Ok (zeros n, mk_is s false)).
  { intros j Hj. unfold read_block. rewrite aget_ok by (rewrite len_zeros; lia). cbn [bind is_read igood app length skipn].
    rewrite znth_zeros.
    rewrite block_bytes_zero. replace (bytes_block le [0; 0; 0; 0]) with 0 by (destruct le; reflexivity).
    rewrite aset_ok by (rewrite len_zeros; lia). cbn [bind]. rewrite U by auto. auto. }
  unfold forUx. rewrite Z.sub_0_r. destruct (Z.to_nat n) eqn:E; [lia|].
  destruct be; cbn [loopUx]; rewrite B by lia; cbn [bind igood]; reflexivity.
Qed.

Lemma roundtrip_bin le n a be rest : wf n a -> bytes_in rest ->
  readBinary le n (mk_is (file_bytes le be n a ++ rest) true) be = Ok (a, mk_is rest true).
Proof.
  intros W Fr. pose proof (wf_nonneg _ _ W) as Hn. pose proof (file_bytes_len le be n a Hn) as FL.
  destruct (readBinary_spec le n (file_bytes le be n a ++ rest) be Hn) as (r & -> & Wr & Q).
  { apply Forall_app. split; auto. apply file_bytes_bytes. auto. }
  assert (R : r = a).
  { apply (bytes_ext n); auto. intros i Hi. destruct (place_onto le be n i Hi) as (k & Hk & <-).
    rewrite Q by auto. rewrite znth_app_l by lia. apply file_bytes_nth; auto. }
  subst r. f_equal. f_equal. f_equal.
  - rewrite skipn_app, skipn_all2 by (unfold len in FL; lia). unfold len in FL. replace (Z.to_nat (4 * n) - length (file_bytes le be n a))%nat with O by lia. reflexivity.
  - rewrite len_app. assert (0 <= len rest) by (unfold len; lia). lia.
Qed.

(** ** GMP *)
Lemma le_bytes_block x : 0 <= x < 2 ^ 32 -> le_block (le_bytes x) = x.
Proof.
  intros H. unfold le_block, le_bytes. set (a := x mod 256). set (b := x / 256 mod 256). set (c := x / 65536 mod 256). set (d := x / 16777216 mod 256).
  change (znth [a; b; c; d] 0) with a. change (znth [a; b; c; d] 1) with b. change (znth [a; b; c; d] 2) with c. change (znth [a; b; c; d] 3) with d.
  subst a b c d. change (2 ^ 32) with 4294967296 in H. dm.
Qed.

Lemma log2_words z : z <> 0 -> Z.abs z < 2 ^ (32 * word_count z) /\ word_count z <= 1 + (mpz_sizeinbase2 z - 1) / 4 * 8 /\ 1 <= word_count z.
Proof.
  intros H. unfold word_count, mpz_sizeinbase2. destruct (Z.eqb_spec z 0); [lia|].
  pose proof (Z.log2_spec (Z.abs z) ltac:(lia)) as [L1 L2]. pose proof (Z.log2_nonneg (Z.abs z)). set (l := Z.log2 (Z.abs z)) in *.
  split; [|split]; [|dm|dm]. eapply Z.lt_le_trans; [exact L2|]. apply Z.pow_le_mono_r; [lia|]. dm.
Qed.

Lemma sizeinbase_pos z : 1 <= mpz_sizeinbase2 z.
Proof. unfold mpz_sizeinbase2. destruct (z =? 0); [lia|]. pose proof (Z.log2_nonneg (Z.abs z)). lia. Qed.

Lemma word_count_nonneg z : 0 <= word_count z.
Proof. unfold word_count. destruct (z =? 0); [lia|]. pose proof (Z.log2_nonneg (Z.abs z)). dm. Qed.

Lemma word_count_fits n z : 0 <= n -> Z.abs z < modulus n -> word_count z <= n.
Proof.
  intros Hn H. unfold word_count. destruct (Z.eqb_spec z 0); [lia|]. unfold modulus in H.
  assert (0 < 32 * n). { destruct (Z.eq_dec n 0) as [-> |]; [|lia]. change (2 ^ (32 * 0)) with 1 in H. lia. }
  assert (Z.log2 (Z.abs z) < 32 * n) by (apply Z.log2_lt_pow2; lia). dm.
Qed.

Lemma mpz_export_spec buffer z : word_count z <= len buffer ->
  exists b, mpz_export true buffer z = Ok (b, word_count z) /\ len b = len buffer /\ forall i, 0 <= i < word_count z -> znth b i = Z.abs z / 2 ^ (32 * i) mod 2 ^ 32.
Proof.
  intros H. unfold mpz_export. pose proof (word_count_nonneg z).
  match goal with |- context [forU 0 _ ?B buffer] => destruct (forU_spec (fun i b => len b = len buffer /\ forall j, 0 <= j < i -> znth b j = Z.abs z / 2 ^ (32 * j) mod 2 ^ 32) 0 (word_count z) B buffer) as (b & -> & L & Q) end; auto.
  - split; auto. intros. lia.
  - intros j b Hj (L & Q). rewrite aset_ok by lia. eexists. split; [reflexivity|]. split; [rewrite len_upd; auto|].
    intros i Hi. rewrite znth_upd by lia. destruct (Z.eqb_spec j i) as [-> |]; [|apply Q; lia].
    unfold bytes_block. apply le_bytes_block. apply Z.mod_pos_bound. lia.
  - cbn [bind]. eauto.
Qed.

Lemma from_mpz_spec cfg n z : 0 <= n -> cfg_unsafe cfg = false \/ Z.abs z < modulus n -> yields n (from_mpz cfg true n z) (Z.abs z mod modulus n).
Proof.
  intros Hn HU. unfold from_mpz. pose proof (word_count_nonneg z) as WC. pose proof (sizeinbase_pos z) as SB.
  destruct (mpz_export_spec (zeros (1 + (mpz_sizeinbase2 z - 1) / 4 * 8)) z) as (b & -> & L & Q).
  { rewrite len_zeros by dm. destruct (Z.eq_dec z 0) as [-> |Hz]; [|apply log2_words; auto]. unfold word_count. cbn [Z.eqb]. dm. }
  rewrite len_zeros in L by dm. cbn [bind].
  assert (WL : word_count z <= len b).
  { rewrite L. destruct (Z.eq_dec z 0) as [-> |Hz]; [|apply log2_words; auto]. unfold word_count. cbn [Z.eqb]. dm. }
  match goal with |- context [forU 0 _ ?B (zeros n)] => destruct (forU_spec (fun i a => wf n a /\ forall j, 0 <= j < n -> znth a j = if j <? i then Z.abs z / 2 ^ (32 * j) mod 2 ^ 32 else 0) 0 (word_count z) B (zeros n)) as (a & -> & W & Qa) end; auto.
  - split; [apply wf_zeros; auto|]. intros j Hj. rewrite znth_zeros. destruct (Z.ltb_spec j 0); [lia|auto].
  - intros j a Hj (W & Qa). rewrite aget_ok by lia. cbn [bind]. unfold setBlock. rewrite Q by lia.
    destruct (Z.geb_spec j n) as [G|G].
    + assert (U : cfg_unsafe cfg = false). { destruct HU as [U|U]; auto. pose proof (word_count_fits n z Hn U). lia. }
      rewrite U. cbn [negb andb]. eexists. split; [reflexivity|]. split; auto. intros i Hi. rewrite Qa by auto. destruct (Z.ltb_spec i j), (Z.ltb_spec i (j + 1)); auto; lia.
    + rewrite andb_false_r. pose proof (wf_len _ _ W). rewrite aset_ok by lia. eexists. split; [reflexivity|]. split.
      * apply wf_upd; auto. apply Z.mod_pos_bound. lia.
      * intros i Hi. rewrite znth_upd by lia. destruct (Z.eqb_spec j i) as [-> |].
        -- replace (i <? i + 1) with true by lia. auto.
        -- rewrite Qa by auto. destruct (Z.ltb_spec i j), (Z.ltb_spec i (j + 1)); auto; lia.
  - exists a. split; auto. split; auto.
    pose proof (modulus_pos n Hn) as MP.
    assert (exists c, represents n c (Z.abs z mod modulus n)) as (c & Wc & Vc).
    { clear -Hn MP. assert (X : forall m v, 0 <= v < 2 ^ (32 * Z.of_nat m) -> exists c, wf (Z.of_nat m) c /\ bval c = v).
      { induction m as [|m IH]; intros v Hv.
        - exists []. split; [split; [reflexivity|constructor]|]. cbn. change (2 ^ (32 * Z.of_nat 0)) with 1 in Hv. lia.
        - destruct (IH (v / 2 ^ 32)) as (c & [Lc Fc] & Vc).
          { split; [apply Z.div_pos; lia|]. apply Z.div_lt_upper_bound; [lia|]. rewrite <- Z.pow_add_r by lia. replace (32 + 32 * Z.of_nat m) with (32 * Z.of_nat (S m)) by lia. lia. }
          exists (v mod 2 ^ 32 :: c). split.
          + split; [unfold len in *; cbn [length]; lia|]. constructor; auto. apply Z.mod_pos_bound. lia.
          + cbn [bval]. rewrite Vc. pose proof (Z.div_mod v (2 ^ 32)). lia. }
      destruct (X (Z.to_nat n) (Z.abs z mod modulus n)) as (c & Wc & Vc).
      { rewrite Z2Nat.id by lia. apply Z.mod_pos_bound. auto. }
      rewrite Z2Nat.id in Wc by lia. exists c. split; auto. }
    rewrite <- Vc. f_equal. pose proof (wf_len _ _ W). pose proof (wf_len _ _ Wc). apply list_ext_znth; [lia|]. intros i Hi.
    rewrite (znth_digit n c i Wc) by lia. rewrite Vc, Qa by lia. unfold modulus.
    assert (E : (Z.abs z mod 2 ^ (32 * n)) / 2 ^ (32 * i) mod 2 ^ 32 = Z.abs z / 2 ^ (32 * i) mod 2 ^ 32).
    { apply Z.bits_inj'. intros k Hk. destruct (Z.ltb_spec k 32).
      - rewrite !Z.mod_pow2_bits_low, !Z.div_pow2_bits, Z.mod_pow2_bits_low by lia. reflexivity.
      - rewrite !Z.mod_pow2_bits_high by lia. reflexivity. }
    rewrite E. destruct (Z.ltb_spec i (word_count z)) as [B|B]; auto.
    rewrite Z.div_small; [reflexivity|]. split; [lia|]. destruct (Z.eq_dec z 0) as [-> |Hz]; [apply Z.pow_pos_nonneg; lia|].
    destruct (log2_words z Hz) as (B1 & _). eapply Z.lt_le_trans; [exact B1|]. apply Z.pow_le_mono_r; lia.
Qed.
