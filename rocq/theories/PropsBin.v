(** * PropsBin: binary input/output and GMP: C39, C40, C42, C72-C75. *)
From Verif Require Import Lib AeuAccess AeuFacts AesiFacts BinFacts.
Open Scope Z_scope.

Definition cfg0 := mk_config false false true.
Definition cfg_u := mk_config true false true.
Definition exA : list Z := [4294967295; 0; 305419896].
Ltac wfc := apply wfb_wf; vm_compute; reflexivity.
Ltac conjs := repeat match goal with |- _ /\ _ => split end.

(** ** C39: a number written and read back, whatever follows in the file *)
Theorem C39_binary_roundtrip : forall le n a be os rest, wf n a -> ogood os = true -> oroom os = None -> Forall is_byte rest ->
  exists w, writeBinary le n a os be = Ok (mk_bos (obytes os ++ w) None true) /\ len w = 4 * n /\ Forall is_byte w /\
    readBinary le n (mk_is (w ++ rest) true) be = Ok (a, mk_is rest true).
Proof.
  intros le n a be os rest W G R F. exists (file_bytes le be n a). conjs.
  - rewrite writeBinary_spec by (auto; congruence). unfold os_write. rewrite G, R. reflexivity.
  - apply file_bytes_len. apply (wf_nonneg _ _ W).
  - apply file_bytes_bytes. auto.
  - apply roundtrip_bin; auto.
Qed.
Print Assumptions C39_binary_roundtrip.

(** Several numbers, one after the other: [os] written in turn, then all read in turn. *)
Fixpoint write_each (le : bool) (n : Z) (l : list (list Z)) (os : bostream) (be : bool) : outcome bostream :=
  match l with [] => Ok os | a :: l => os <- writeBinary le n a os be ;; write_each le n l os be end.
Fixpoint read_each (le : bool) (n : Z) (m : nat) (is : istream) (be : bool) : outcome (list (list Z) * istream) :=
  match m with O => Ok ([], is) | S m => '(a, is) <- readBinary le n is be ;; '(l, is) <- read_each le n m is be ;; Ok (a :: l, is) end.

Theorem C39_concatenation : forall le n l be, Forall (wf n) l -> 0 <= n ->
  exists w, write_each le n l (mk_bos [] None true) be = Ok (mk_bos w None true) /\ len w = 4 * n * len l /\
    forall rest, Forall is_byte rest -> read_each le n (length l) (mk_is (w ++ rest) true) be = Ok (l, mk_is rest true).
Proof.
  intros le n l be F Hn.
  assert (X : forall o, exists w, write_each le n l (mk_bos o None true) be = Ok (mk_bos (o ++ w) None true) /\ len w = 4 * n * len l /\ Forall is_byte w /\
    forall rest, Forall is_byte rest -> read_each le n (length l) (mk_is (w ++ rest) true) be = Ok (l, mk_is rest true)).
  { induction F as [|a l Wa F IH]; intros o.
    - exists []. rewrite app_nil_r. conjs; auto. unfold len. cbn. lia.
    - cbn [write_each]. destruct (C39_binary_roundtrip le n a be (mk_bos o None true) [] Wa eq_refl eq_refl (Forall_nil _)) as (w1 & E1 & L1 & F1 & _).
      cbn [obytes] in E1. rewrite E1. cbn [bind]. destruct (IH (o ++ w1)) as (w2 & E2 & L2 & F2 & R2). exists (w1 ++ w2). rewrite app_assoc. conjs.
      + auto.
      + unfold len in *. rewrite app_length. cbn [length]. lia.
      + apply Forall_app; auto.
      + intros rest Fr. cbn [read_each length]. rewrite <- app_assoc.
        destruct (C39_binary_roundtrip le n a be (mk_bos o None true) (w2 ++ rest) Wa eq_refl eq_refl) as (w1' & E1' & _ & _ & R1); [apply Forall_app; auto|].
        cbn [obytes] in E1'. rewrite E1 in E1'. injection E1' as E1'. apply app_inv_head in E1'. subst w1'. rewrite R1. cbn [bind]. rewrite R2 by auto. reflexivity. }
  destruct (X []) as (w & E & L & _ & R). exists w. auto.
Qed.
Print Assumptions C39_concatenation.
Example C39_example : wf 3 exA /\
  writeBinary true 3 exA (mk_bos [9] None true) true = Ok (mk_bos [9; 120; 86; 52; 18; 0; 0; 0; 0; 255; 255; 255; 255] None true) /\
  writeBinary false 3 exA (mk_bos [9] None true) true = Ok (mk_bos [9; 18; 52; 86; 120; 0; 0; 0; 0; 255; 255; 255; 255] None true) /\
  readBinary true 3 (mk_is [120; 86; 52; 18; 0; 0; 0; 0; 255; 255; 255; 255; 1; 2] true) true = Ok (exA, mk_is [1; 2] true).
Proof. split; [wfc|]. conjs; vm_compute; reflexivity. Qed.

(** ** C40: reading a stream of any length: the bytes available are used in order, missing ones count as zero. *)
Theorem C40_short_read : forall le n s be, 0 <= n -> Forall is_byte s ->
  exists r, readBinary le n (mk_is s true) be = Ok (r, mk_is (skipn (Z.to_nat (4 * n)) s) (4 * n <=? len s)) /\
    wf n r /\ forall k, 0 <= k < 4 * n -> byte_at (bval r) (place le be n k) = (if k <? len s then nth (Z.to_nat k) s 0 else 0).
Proof.
  intros le n s be Hn F. destruct (readBinary_spec le n s be Hn F) as (r & E & W & Q). exists r. conjs; auto.
  intros k Hk. rewrite Q by auto. destruct (Z.ltb_spec k (len s)).
  - unfold znth. destruct (Z.ltb_spec k 0); [lia|auto].
  - apply znth_out. lia.
Qed.
Print Assumptions C40_short_read.
(** A stream that has already failed delivers nothing: the number becomes zero. *)
Theorem C40_bad_stream : forall le n s be, 1 <= n -> readBinary le n (mk_is s false) be = Ok (zeros n, mk_is s false).
Proof. exact readBinary_bad. Qed.
Print Assumptions C40_bad_stream.
(** The specification determines the number: two numbers with the same bytes at every place are equal. *)
Theorem C40_bytes_determine : forall le be n a b, wf n a -> wf n b ->
  (forall k, 0 <= k < 4 * n -> byte_at (bval a) (place le be n k) = byte_at (bval b) (place le be n k)) -> bval a = bval b.
Proof.
  intros le be n a b Wa Wb H. f_equal. apply (bytes_ext n); auto. intros i Hi. destruct (place_onto le be n i Hi) as (k & Hk & <-). auto.
Qed.
Print Assumptions C40_bytes_determine.
(** 6 bytes into a 96-bit number, most significant block first, little-endian host: 0x04030201 then 0x00000605. *)
Example C40_example : readBinary true 3 (mk_is [1; 2; 3; 4; 5; 6] true) true = Ok ([0; 1541; 67305985], mk_is [] false) /\
  readBinary false 3 (mk_is [1; 2; 3; 4; 5; 6] true) true = Ok ([0; 84279296; 16909060], mk_is [] false) /\
  readBinary true 3 (mk_is [] true) false = Ok ([0; 0; 0], mk_is [] false).
Proof. conjs; vm_compute; reflexivity. Qed.

(** ** C72: the byte order in the file.  Each 4-byte block is in host order, only the order of blocks follows [bigEndian]. *)
Theorem C72_byte_order_partial : forall le n a be os, wf n a -> ogood os = true -> oroom os = None ->
  exists w, writeBinary le n a os be = Ok (mk_bos (obytes os ++ w) None true) /\ len w = 4 * n /\
   (forall k, 0 <= k < 4 * n -> nth (Z.to_nat k) w 0 = byte_at (bval a) (place le be n k)) /\
   (le = negb be -> forall k, 0 <= k < 4 * n -> nth (Z.to_nat k) w 0 = byte_at (bval a) (if be then 4 * n - 1 - k else k)).
Proof.
  intros le n a be os W G R. exists (file_bytes le be n a).
  assert (N : forall k, 0 <= k < 4 * n -> nth (Z.to_nat k) (file_bytes le be n a) 0 = byte_at (bval a) (place le be n k)).
  { intros k Hk. pose proof (file_bytes_nth le be n a k W Hk) as E. unfold znth in E. destruct (Z.ltb_spec k 0); [lia|auto]. }
  conjs; auto.
  - rewrite writeBinary_spec by (auto; congruence). unfold os_write. rewrite G, R. reflexivity.
  - apply file_bytes_len. apply (wf_nonneg _ _ W).
  - intros -> k Hk. rewrite N by auto. f_equal. unfold place. destruct be; cbn [negb]; Z.to_euclidean_division_equations; lia.
Qed.
Print Assumptions C72_byte_order_partial.
(** On a little-endian host (every CUDA host) bigEndian = true does not write the most significant byte first:
    the file of 0x12345678_00000000_ffffffff starts 78 56 34 12. *)
Theorem C72_byte_order_refuted : wf 3 exA /\
  writeBinary true 3 exA (mk_bos [] None true) true = Ok (mk_bos [120; 86; 52; 18; 0; 0; 0; 0; 255; 255; 255; 255] None true) /\
  byte_at (bval exA) 11 = 18 /\ byte_at (bval exA) 8 = 120.
Proof. split; [wfc|]. conjs; vm_compute; reflexivity. Qed.
Print Assumptions C72_byte_order_refuted.

(** ** C75: a sink that refuses bytes after the first [r] (disk full, crash): exactly the first [r] bytes of the
    complete file are there, the stream reports the failure, and reading what is there gives back the leading part. *)
Theorem C75_write_prefix : forall le n a be o r, wf n a -> 0 <= r ->
  exists w, len w = 4 * n /\ Forall is_byte w /\
   writeBinary le n a (mk_bos o None true) be = Ok (mk_bos (o ++ w) None true) /\
   writeBinary le n a (mk_bos o (Some r) true) be = Ok (mk_bos (o ++ firstn (Z.to_nat r) w) (Some (Z.max 0 (r - 4 * n))) (4 * n <=? r)) /\
   exists b is', readBinary le n (mk_is (firstn (Z.to_nat r) w) true) be = Ok (b, is') /\ wf n b /\ igood is' = (4 * n <=? r) /\
     forall k, 0 <= k < 4 * n -> byte_at (bval b) (place le be n k) = if k <? r then byte_at (bval a) (place le be n k) else 0.
Proof.
  intros le n a be o r W Hr. pose proof (wf_nonneg _ _ W) as Hn. pose proof (file_bytes_len le be n a Hn) as L. pose proof (file_bytes_bytes le be n a W) as FB.
  exists (file_bytes le be n a). conjs; auto.
  - rewrite writeBinary_spec by (auto; cbn; congruence). reflexivity.
  - rewrite writeBinary_spec by (auto; cbn; intros ? [= <-]; auto). unfold os_write. cbn [ogood oroom obytes]. rewrite L. reflexivity.
  - assert (FP : bytes_in (firstn (Z.to_nat r) (file_bytes le be n a))) by (apply Forall_firstn'; auto).
    destruct (readBinary_spec le n _ be Hn FP) as (b & E & Wb & Q). exists b. eexists. split; [exact E|]. conjs; auto.
    + cbn [igood]. unfold len in *. rewrite firstn_length. destruct (Z.leb_spec (4 * n) r), (Z.leb_spec (4 * n) (Z.of_nat (Nat.min (Z.to_nat r) (length (file_bytes le be n a))))); auto; lia.
    + intros k Hk. rewrite Q by auto. destruct (Z.ltb_spec k r).
      * rewrite znth_firstn by lia. apply file_bytes_nth; auto.
      * apply znth_out. unfold len. rewrite firstn_length. lia.
Qed.
Print Assumptions C75_write_prefix.
Example C75_example : writeBinary true 3 exA (mk_bos [] (Some 6) true) true = Ok (mk_bos [120; 86; 52; 18; 0; 0] (Some 0) false) /\
  readBinary true 3 (mk_is [120; 86; 52; 18; 0; 0] true) true = Ok ([0; 0; 305419896], mk_is [] false).
Proof. conjs; vm_compute; reflexivity. Qed.

(** ** C42: GMP constructors (little-endian host; index checks on, or the value fits) *)
Theorem C42_from_gmp : forall cfg n z, 0 <= n -> cfg_unsafe cfg = false \/ Z.abs z < modulus n ->
  yields n (from_mpz cfg true n z) (Z.abs z mod modulus n).
Proof. intros. apply from_mpz_spec; auto. Qed.
Print Assumptions C42_from_gmp.
Theorem C42_signed_from_gmp : forall cfg n z, 0 <= n -> Z.abs z < modulus n ->
  exists r, s_from_mpz cfg true n z = Ok r /\ canon n r /\ sval r = z.
Proof.
  intros cfg n z Hn H. unfold s_from_mpz. destruct (Z.eqb_spec z 0) as [-> |Hz].
  - eexists. split; [reflexivity|]. unfold canon, sval. cbn. conjs; [apply wf_zeros; auto|rewrite bval_zeros; tauto|auto].
  - destruct (from_mpz_spec cfg n z Hn (or_intror H)) as (r & -> & W & V). cbn [bind]. rewrite Z.mod_small in V by lia. eexists. split; [reflexivity|].
    unfold canon, sval. cbn [mag sgn]. destruct (Z.ltb_spec z 0); (split; [split; [auto|split; [congruence|lia] ]|lia]).
Qed.
Print Assumptions C42_signed_from_gmp.
Example C42_example : from_mpz cfg0 true 2 (- (2 ^ 64 + 5)) = Ok [5; 0] /\ s_from_mpz cfg0 true 2 (- (2 ^ 32 + 5)) = Ok (mk_aesi SNeg [5; 1]) /\
  from_mpz cfg0 true 2 0 = Ok [0; 0].
Proof. conjs; vm_compute; reflexivity. Qed.

(** ** C73: GMP construction, host byte order and AESI_UNSAFE.  mpz_export is called with endian = -1 (each word least
    significant byte first), so on a big-endian host every block comes out byte-swapped; with AESI_UNSAFE a value that
    does not fit is written outside the object. *)
Theorem C73_gmp_any_host_partial : forall cfg le n z, 0 <= n -> le = true -> cfg_unsafe cfg = false \/ Z.abs z < modulus n ->
  yields n (from_mpz cfg le n z) (Z.abs z mod modulus n).
Proof. intros cfg le n z Hn -> H. apply from_mpz_spec; auto. Qed.
Print Assumptions C73_gmp_any_host_partial.
Theorem C73_gmp_any_host_refuted : from_mpz cfg0 false 2 1 = Ok [16777216; 0] /\ from_mpz cfg_u true 2 (2 ^ 64) = Err OutOfBounds.
Proof. conjs; vm_compute; reflexivity. Qed.
Print Assumptions C73_gmp_any_host_refuted.

(** ** C74: comparing with a GMP integer.  The integer is first reduced modulo 2^N (and to its absolute value for Aeu). *)
Theorem C74_equals_gmp_partial : forall cfg n a z, wf n a -> cfg_unsafe cfg = false ->
  op_eq_mpz cfg true n a z = Ok (bval a =? Z.abs z mod modulus n) /\
  (0 <= z < modulus n -> op_eq_mpz cfg true n a z = Ok (bval a =? z)).
Proof.
  intros cfg n a z W U. pose proof (wf_nonneg _ _ W) as Hn. unfold op_eq_mpz.
  destruct (from_mpz_spec cfg n z Hn (or_introl U)) as (r & -> & Wr & V). cbn [bind]. rewrite op_eq_cross by auto. rewrite V.
  split; auto. intros H. rewrite Z.abs_eq, Z.mod_small by lia. auto.
Qed.
Print Assumptions C74_equals_gmp_partial.
Theorem C74_signed_equals_gmp_partial : forall cfg n a z, 1 <= n -> swf n a -> Z.abs z < modulus n ->
  s_eq_mpz cfg true n a z = Ok (sval a =? z).
Proof.
  intros cfg n a z Hn W H. unfold s_eq_mpz. destruct (C42_signed_from_gmp cfg n z ltac:(lia) H) as (r & -> & C & V). cbn [bind].
  unfold s_eq. rewrite Z.eqb_refl. rewrite s_compareTo_correct; [|auto|apply canon_swf; auto]. cbn [bind]. rewrite V.
  unfold zcmp. destruct (Z.gtb_spec (sval a) z), (Z.ltb_spec (sval a) z), (Z.eqb_spec (sval a) z); cbn; auto; lia.
Qed.
Print Assumptions C74_signed_equals_gmp_partial.
(** 5 == -5, and 5 == 2^64 + 5 for 64-bit numbers; the signed -5 == -(2^64 + 5). *)
Theorem C74_equals_gmp_refuted : op_eq_mpz cfg0 true 2 [5; 0] (-5) = Ok true /\ op_eq_mpz cfg0 true 2 [5; 0] (2 ^ 64 + 5) = Ok true /\
  s_eq_mpz cfg0 true 2 (mk_aesi SNeg [5; 0]) (- (2 ^ 64 + 5)) = Ok true.
Proof. conjs; vm_compute; reflexivity. Qed.
Print Assumptions C74_equals_gmp_refuted.
