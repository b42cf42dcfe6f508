(** * PropsIniB: binary files, GMP and memory nobody has written yet (C161). *)
From Verif Require Import Base Spec Lib AeuModel AeuFacts AesiModel AesiArith AesiFacts BinSpec BinModel BinFacts PropsBin IniSpec IniModel IniFacts IniSigned IniBin PropsIni PropsIniS WholeSpec PropsWhole.
From Coq Require Import Lia ZifyBool.
Open Scope Z_scope.

Ltac conjs := repeat match goal with |- _ /\ _ => split end.

Definition init1 (p : list Z * istream) : cells * istream := (init (fst p), snd p).
Lemma block_bytes_len le x : length (block_bytes le x) = 4%nat.
Proof. unfold block_bytes. destruct le; [reflexivity|]. rewrite rev_length. reflexivity. Qed.
Lemma read_block_i le a is j : c_read_block le (init a) is j = lift init1 (read_block le a is j).
Proof.
  unfold c_read_block, read_block. destruct (is_read is 4) as [got is'] eqn:E. destruct (Z.eqb_spec (len got) 4) as [L|L].
  - cbn [bind]. assert (X : forall o, got ++ skipn (length got) (block_bytes le o) = got).
    { intros o. rewrite skipn_all2 by (rewrite block_bytes_len; unfold len in L; lia). apply app_nil_r. }
    rewrite X. unfold aget. rewrite cset_init. unfold aset. destruct (in_range a j) eqn:R; [|reflexivity]. cbn [lift bind]. rewrite X. reflexivity.
  - rewrite cget_init. apply bind_same; [reflexivity|]. intros old. rewrite cset_init. apply (bind_sim init); reflexivity.
Qed.
Lemma loopDx_sim {S S' R R'} (f : S -> S') (g : R -> R') B' B : (forall i s, B' i (f s) = lift (stepf f g) (B i s)) ->
  forall cnt i s, loopDx cnt i B' (f s) = lift (stepf f g) (loopDx cnt i B s).
Proof.
  intros H. induction cnt as [|c IH]; intros i s; cbn [loopDx]; [reflexivity|]. rewrite H. destruct (B (i - 1) s) as [ [s'|r]|]; cbn [lift bind stepf]; [apply IH|reflexivity|reflexivity].
Qed.
Lemma readBinary_i le n c is be : c_readBinary le n c is be = lift init1 (readBinary le n is be).
Proof.
  unfold c_readBinary, readBinary, czeros. cbv zeta.
  set (B' := fun i '(blocks, is) => _). set (B := fun i '(blocks, is) => _).
  assert (H : forall i s, B' i (init1 s) = lift (stepf init1 init1) (B i s)).
  { intros i [a s]. unfold B', B, init1 at 1. cbn [fst snd]. apply (bind_sim init1); [apply read_block_i|]. intros [a' s']. cbn [init1 fst snd].
    destruct (igood s'); reflexivity. }
  apply (bind_sim (stepf init1 init1)).
  - change (init (zeros n), is) with (init1 (zeros n, is)). destruct be; [apply loopDx_sim, H|apply forUx_sim, H].
  - intros [r|r]; reflexivity.
Qed.
(** For completely written objects the write is the one of C39, whatever the stream. *)
Lemma loopUx_same {S R} (B' B : Z -> S -> outcome (step S R)) : forall cnt i s, (forall j s, i <= j < i + Z.of_nat cnt -> B' j s = B j s) -> loopUx cnt i B' s = loopUx cnt i B s.
Proof.
  induction cnt as [|c IH]; intros i s H; cbn [loopUx]; [reflexivity|]. rewrite H by lia. apply bind_eq; [reflexivity|]. intros [s'|r]; [|reflexivity]. apply IH. intros; apply H; lia.
Qed.
Lemma loopDx_same {S R} (B' B : Z -> S -> outcome (step S R)) : forall cnt i s, (forall j s, i - Z.of_nat cnt <= j < i -> B' j s = B j s) -> loopDx cnt i B' s = loopDx cnt i B s.
Proof.
  induction cnt as [|c IH]; intros i s H; cbn [loopDx]; [reflexivity|]. rewrite H by lia. apply bind_eq; [reflexivity|]. intros [s'|r]; [|reflexivity]. apply IH. intros; apply H; lia.
Qed.
Lemma writeBinary_i le n a os be : wf n a -> c_writeBinary le n (init a) os be = writeBinary le n a os be.
Proof.
  intros W. pose proof (wf_nonneg _ _ W) as Hn. destruct W as [L _]. unfold c_writeBinary, writeBinary. cbv zeta.
  assert (H : forall j s, 0 <= j < n ->
    (os' <- (if ogood s then b <- cget (init a) j ;; Ok (os_write s (block_bytes le b)) else Ok s) ;; (if ogood os' then Ok (Next os') else Ok (Exit os'))) =
    (b <- aget a j ;; let os' := os_write s (block_bytes le b) in if ogood os' then Ok (@Next bostream bostream os') else Ok (Exit os'))).
  { intros j s Hj. rewrite cget_init, aget_ok by lia. cbn [bind]. destruct (ogood s) eqn:G; [reflexivity|]. cbn [bind]. cbv zeta. unfold os_write. rewrite G, G. reflexivity. }
  apply bind_eq; [|reflexivity]. destruct be.
  - apply loopDx_same. intros j s Hj. apply H. lia.
  - apply loopUx_same. intros j s Hj. apply H. lia.
Qed.

(** ** C161 *)

(** readBinary into an object with any memory (also one never assigned) leaves a completely written number whose
    bytes are those of the stream; what does not arrive is zero. *)
Theorem C161_read : forall le n (c : cells) s be, 0 <= n -> Forall is_byte s ->
  exists r v, c_readBinary le n c (mk_is s true) be = Ok (r, mk_is (skipn (Z.to_nat (4 * n)) s) (4 * n <=? len s)) /\ holds n r v /\
    forall k, 0 <= k < 4 * n -> byte_at v (place le be n k) = (if k <? len s then nth (Z.to_nat k) s 0 else 0).
Proof.
  intros le n c s be Hn F. destruct (C40_short_read le n s be Hn F) as (r & E & W & Q). exists (init r), (bval r).
  rewrite readBinary_i, E. conjs; auto. exists r. auto.
Qed.
Print Assumptions C161_read.
(** From a stream that has already failed: zero, completely written. *)
Theorem C161_read_bad_stream : forall le n (c : cells) s be, 1 <= n ->
  exists r, c_readBinary le n c (mk_is s false) be = Ok (r, mk_is s false) /\ holds n r 0.
Proof.
  intros le n c s be Hn. exists (init (zeros n)). rewrite readBinary_i, (C40_bad_stream le n s be Hn). split; [reflexivity|].
  exists (zeros n). conjs; [reflexivity|apply wf_zeros; lia|apply bval_zeros].
Qed.
Print Assumptions C161_read_bad_stream.
(** Nothing of the old memory survives the read. *)
Theorem C161_read_forgets : forall le n (c c' : cells) is be, c_readBinary le n c is be = c_readBinary le n c' is be.
Proof. intros. rewrite !readBinary_i. reflexivity. Qed.
Print Assumptions C161_read_forgets.

(** writeBinary of a completely written object: its bytes, in the order of C72. *)
Theorem C161_write : forall le n (c : cells) v be os, holds n c v -> ogood os = true -> oroom os = None ->
  exists w, c_writeBinary le n c os be = Ok (mk_bos (obytes os ++ w) None true) /\ len w = 4 * n /\
    forall k, 0 <= k < 4 * n -> nth (Z.to_nat k) w 0 = byte_at v (place le be n k).
Proof.
  intros le n c v be os (a & -> & W & <-) G R. change (map Some a) with (init a). rewrite writeBinary_i by auto.
  destruct (C72_byte_order_partial le n a be os W G R) as (w & E & L & Q & _). exists w. auto.
Qed.
Print Assumptions C161_write.
(** Written and read back into an object never assigned before: the same number. *)
Theorem C161_round_trip : forall le n (c d : cells) v be rest, holds n c v -> Forall is_byte rest ->
  exists o, c_writeBinary le n c (mk_bos [] None true) be = Ok o /\
    exists r, c_readBinary le n d (mk_is (obytes o ++ rest) true) be = Ok (r, mk_is rest true) /\ holds n r v.
Proof.
  intros le n c d v be rest (a & -> & W & <-) F. change (map Some a) with (init a). rewrite writeBinary_i by auto.
  destruct (C39_binary_roundtrip le n a be (mk_bos [] None true) rest W eq_refl eq_refl F) as (w & E & _ & _ & Q). rewrite E. eexists. split; [reflexivity|].
  cbn [obytes app]. rewrite readBinary_i, Q. eexists. split; [reflexivity|]. exists a. auto.
Qed.
Print Assumptions C161_round_trip.

Lemma cnth_none_in (c : cells) : determinate c = false -> exists j, 0 <= j < len c /\ cnth c j = None.
Proof.
  induction c as [|x c IH]; intros H; cbn in H; [discriminate|]. destruct x as [x|].
  - destruct (IH H) as (j & Hj & E). exists (j + 1). unfold len in *. cbn [length]. split; [lia|]. unfold cnth in *. destruct (Z.ltb_spec j 0); [lia|].
    destruct (Z.ltb_spec (j + 1) 0); [lia|]. replace (Z.to_nat (j + 1)) with (S (Z.to_nat j)) by lia. exact E.
  - exists 0. unfold len. cbn [length]. split; [lia|]. reflexivity.
Qed.
(** One unwritten block is enough: writing the object to a good stream reads it. *)
Theorem C161_unassigned : forall le n (c : cells) be os, len c = n -> determinate c = false -> ogood os = true -> oroom os = None ->
  reads_garbage (c_writeBinary le n c os be).
Proof.
  intros le n c be os L D G R. destruct (cnth_none_in c D) as (j & Hj & N). rewrite L in Hj. unfold c_writeBinary, reads_garbage. cbv zeta.
  set (B := fun i os => _).
  assert (STEP : forall i s, 0 <= i < n -> ogood s = true -> oroom s = None ->
    (cnth c i = None -> B i s = Err Indeterminate) /\
    (cnth c i <> None -> exists s', B i s = Ok (Next s') /\ ogood s' = true /\ oroom s' = None)).
  { intros i s Hi Gs Rs. unfold B. rewrite Gs. unfold cget, cin. rewrite L. destruct ((0 <=? i) && (i <? n)) eqn:Q; [|lia]. destruct (cnth c i) as [b|]; split; intros H; try congruence.
    - cbn [bind]. unfold os_write. rewrite Gs, Rs. cbn [ogood]. eexists. split; [reflexivity|]. auto.
    - reflexivity. }
  assert (UP : forall cnt i s, 0 <= i -> i + Z.of_nat cnt <= n -> i <= j < i + Z.of_nat cnt -> ogood s = true -> oroom s = None -> loopUx cnt i B s = Err Indeterminate).
  { induction cnt as [|k IH]; intros i s H0 H1 H2 Gs Rs; [lia|]. cbn [loopUx]. destruct (STEP i s ltac:(lia) Gs Rs) as [S1 S2]. destruct (cnth c i) eqn:Q.
    - destruct S2 as (s' & -> & G' & R'); [discriminate|]. cbn [bind]. apply IH; try lia; auto. assert (i <> j) by congruence. lia.
    - rewrite S1 by reflexivity. reflexivity. }
  assert (DN : forall cnt i s, i <= n -> 0 <= i - Z.of_nat cnt -> i - Z.of_nat cnt <= j < i -> ogood s = true -> oroom s = None -> loopDx cnt i B s = Err Indeterminate).
  { induction cnt as [|k IH]; intros i s H0 H1 H2 Gs Rs; [lia|]. cbn [loopDx]. destruct (STEP (i - 1) s ltac:(lia) Gs Rs) as [S1 S2]. destruct (cnth c (i - 1)) eqn:Q.
    - destruct S2 as (s' & -> & G' & R'); [discriminate|]. cbn [bind]. apply IH; try lia; auto. assert (i - 1 <> j) by congruence. lia.
    - rewrite S1 by reflexivity. reflexivity. }
  destruct be; unfold forDx, forUx; [rewrite DN|rewrite UP]; auto; lia.
Qed.
Print Assumptions C161_unassigned.
(** To a stream that has already failed nothing is written and nothing is read. *)
Theorem C161_write_bad_stream : forall le n (c : cells) be os, ogood os = false -> c_writeBinary le n c os be = Ok os.
Proof.
  intros le n c be os G. unfold c_writeBinary. cbv zeta. destruct be.
  - unfold forDx. destruct (Z.to_nat (n - 0)); cbn [loopDx bind]; [reflexivity|]. rewrite G. cbn [bind]. rewrite G. reflexivity.
  - unfold forUx. destruct (Z.to_nat (n - 0)); cbn [loopUx bind]; [reflexivity|]. rewrite G. cbn [bind]. rewrite G. reflexivity.
Qed.
Print Assumptions C161_write_bad_stream.

(** The GMP constructors read only what they have written: the object is completely written. *)
Lemma from_mpz_i cfg le n z : c_from_mpz cfg le n z = lift init (from_mpz cfg le n z).
Proof.
  unfold c_from_mpz, from_mpz, c_mpz_export, mpz_export, czeros. cbv zeta. apply (bind_sim (fun p : list Z * Z => (init (fst p), snd p))).
  - apply (bind_sim init); [|reflexivity]. apply forU_sim. intros i s. apply cset_init.
  - intros [b k]. cbn [fst snd]. apply forU_sim. intros i s. rewrite cget_init. apply bind_same; [reflexivity|]. intros x. apply setBlock_i.
Qed.
Theorem C161_gmp : forall cfg n z, 0 <= n -> cfg_unsafe cfg = false \/ Z.abs z < modulus n ->
  gives n (c_from_mpz cfg true n z) (Z.abs z mod modulus n).
Proof. intros cfg n z Hn H. eapply gives_lift; [apply from_mpz_i|]. apply (C73_gmp_any_host_partial cfg true n z Hn eq_refl H). Qed.
Print Assumptions C161_gmp.
Theorem C161_signed_gmp : forall cfg n z, 0 <= n -> Z.abs z < modulus n -> sgives n (cs_from_mpz cfg true n z) z.
Proof.
  intros cfg n z Hn H. destruct (C42_signed_from_gmp cfg n z Hn H) as (r & E & C & V).
  eapply (sgives_lift n _ (s_from_mpz cfg true n z)).
  - unfold cs_from_mpz, s_from_mpz, cs_default, czeros. destruct (z =? 0); [reflexivity|]. rewrite from_mpz_i. destruct (from_mpz cfg true n z); reflexivity.
  - exists r. conjs; auto. now apply canon_swf.
Qed.
Print Assumptions C161_signed_gmp.

(** 96 bits: six bytes into an object never assigned; writing an object with one unwritten block. *)
Example C161_example : c_readBinary true 3 (fresh 3) (mk_is [1; 2; 3; 4; 5; 6] true) true = Ok ([Some 0; Some 1541; Some 67305985], mk_is [] false) /\
  c_writeBinary true 3 [Some 1; None; Some 2] (mk_bos [] None true) false = Err Indeterminate /\
  c_writeBinary true 3 [Some 1; None; Some 2] (mk_bos [] None false) false = Ok (mk_bos [] None false) /\
  (exists c, c_from_mpz (mk_config false false true) true 2 (2 ^ 33) = Ok c /\ c = [Some 0; Some 2]) /\
  holds 2 [Some 7; Some 1] (2 ^ 32 + 7).
Proof.
  conjs; [vm_compute; reflexivity|vm_compute; reflexivity|vm_compute; reflexivity|exists [Some 0; Some 2]; split; [vm_compute; reflexivity|reflexivity]|].
  exists [7; 1]. conjs; [reflexivity|apply wfb_wf; vm_compute; reflexivity|vm_compute; reflexivity].
Qed.
