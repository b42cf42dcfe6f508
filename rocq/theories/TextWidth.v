(** * TextWidth: stream insertion with a field width set. *)
From Verif Require Export TextMore.
Open Scope Z_scope.

Lemma field0 os s : width os <= len s -> field os s = s.
Proof.
  intros H. unfold field. replace (Z.to_nat (width os - len s)) with O by lia. cbn [repeat].
  destruct (adj os); cbn [app]; rewrite ?app_nil_r; reflexivity.
Qed.
Lemma os_put_field os s : os_put os s = mk_os (out os ++ field os s) (basef os) (showbase os) (uppercase os) (fillc os) 0 (adj os).
Proof. reflexivity. Qed.

Definition puts (os : ostream) (s : list Z) : ostream := fold_left (fun os c => os_put os [c]) s os.
Lemma puts0 s : forall os, width os = 0 -> puts os s = mk_os (out os ++ s) (basef os) (showbase os) (uppercase os) (fillc os) 0 (adj os).
Proof.
  induction s as [|c s IH]; intros os H; cbn [puts fold_left].
  - rewrite app_nil_r. destruct os; cbn in *; subst; reflexivity.
  - fold (puts (os_put os [c]) s). rewrite IH by reflexivity. rewrite os_put0 by auto. cbn [out basef showbase uppercase fillc width adj]. rewrite <- app_assoc. reflexivity.
Qed.
Lemma puts_field os c s : puts os (c :: s) = mk_os (out os ++ field os [c] ++ s) (basef os) (showbase os) (uppercase os) (fillc os) 0 (adj os).
Proof.
  cbn [puts fold_left]. fold (puts (os_put os [c]) s). rewrite puts0 by reflexivity. rewrite os_put_field. cbn [out basef showbase uppercase fillc width adj].
  rewrite <- app_assoc. reflexivity.
Qed.

Lemma put_digits_fold ds : forall os, loopD (length ds) (len ds) (fun i os => c <- aget ds i ;; Ok (os_put os [c])) os = Ok (puts os (rev ds)).
Proof.
  induction ds as [|d ds IH] using rev_ind; intros os; [reflexivity|].
  rewrite app_length, len_app, rev_app_distr. cbn [length rev app]. rewrite Nat.add_1_r. cbn [loopD].
  replace (len ds + len [d] - 1) with (len ds) by (unfold len; cbn [length]; lia).
  rewrite aget_mid. cbn [bind puts fold_left]. fold (puts (os_put os [d]) (rev ds)). rewrite <- IH.
  assert (EXT : forall j os0, (j <= length ds)%nat -> loopD j (Z.of_nat j) (fun i os => c <- aget (ds ++ [d]) i ;; Ok (os_put os [c])) os0 = loopD j (Z.of_nat j) (fun i os => c <- aget ds i ;; Ok (os_put os [c])) os0).
  { induction j as [|j IHj]; intros os0 Hj; [reflexivity|]. cbn [loopD]. replace (Z.of_nat (S j) - 1) with (Z.of_nat j) by lia.
    rewrite !aget_ok by (unfold len; rewrite ?app_length; lia). cbn [bind].
    replace (znth (ds ++ [d]) (Z.of_nat j)) with (znth ds (Z.of_nat j)). apply IHj; lia.
    unfold znth. destruct (Z.of_nat j <? 0); auto. rewrite app_nth1 by lia. reflexivity. }
  apply EXT. lia.
Qed.

Lemma stream_digits_w cfg n os a s : wf n a -> bval a <> 0 -> 2 <= n -> os_base os <> 16 -> showbase os = false \/ os_base os = 10 ->
  bval a < os_base os ^ stream_buffer_size n -> numeral false (os_base os) (bval a) s ->
  stream_insert cfg n os a = Ok (puts os s).
Proof.
  intros W Hv Hn Hb SB Hbs HS. pose proof (bval_bound n _ W) as Bv. unfold stream_insert. fold (os_base os).
  replace (showbase os && negb (os_base os =? 10)) with false by (symmetry; destruct SB as [-> | ->]; [reflexivity|apply andb_false_r]).
  cbv zeta. rewrite isZero_spec by auto. replace (bval a =? 0) with false by (symmetry; apply Z.eqb_neq; auto). cbn [bind].
  replace (os_base os =? 16) with false by (symmetry; apply Z.eqb_neq; auto).
  set (bs := stream_buffer_size n) in *. set (base := os_base os) in *.
  assert (Hb10 : 2 <= base <= 10) by (subst base; unfold os_base in *; destruct (basef os); lia).
  assert (Hbs0 : 0 <= bs). { destruct (Z_lt_le_dec bs 0); auto. rewrite Z.pow_neg_r in Hbs by lia. lia. }
  pose proof (len_zeros bs Hbs0) as LZ.
  destruct (digit_loop_spec cfg n base bs [] (zeros bs) a) as (k & od & rs & ES & Lod & E & NZ & Hk & HE); [lia|lia|auto|cbn [app]; change (len (@nil Z)) with 0; lia|].
  cbn [app] in E. change (len (@nil Z)) with 0 in *. rewrite E. cbn [bind].
  assert (Z0 : bval a / base ^ Z.of_nat k = 0). { destruct HE as [|HE]; auto. rewrite Z.add_0_l in HE. rewrite HE. apply Z.div_small. lia. }
  pose proof (led_numeral base (bval a) k ltac:(lia) ltac:(lia) Z0 NZ) as HN.
  pose proof (numeral_unique false base (bval a) _ _ ltac:(lia) HS HN) as Es.
  unfold forD. rewrite Z.add_0_l, Z.sub_0_r, Nat2Z.id.
  set (ds := map (fun d => 48 + d) (led base (bval a) k)).
  assert (Lk : length ds = k) by (subst ds; rewrite map_length; apply led_length).
  assert (EXT : forall j os0, (j <= k)%nat -> loopD j (Z.of_nat j) (fun i os => c <- aget (ds ++ rs) i ;; Ok (os_put os [c])) os0 = loopD j (Z.of_nat j) (fun i os => c <- aget ds i ;; Ok (os_put os [c])) os0).
  { induction j as [|j IH]; intros os0 Hj; [reflexivity|]. cbn [loopD]. replace (Z.of_nat (S j) - 1) with (Z.of_nat j) by lia.
    rewrite !aget_ok by (unfold len; rewrite ?app_length; lia). cbn [bind].
    replace (znth (ds ++ rs) (Z.of_nat j)) with (znth ds (Z.of_nat j)). apply IH; lia.
    unfold znth. destruct (Z.of_nat j <? 0); auto. rewrite app_nth1 by lia. reflexivity. }
  rewrite EXT by lia. replace k with (length ds) at 1 2 by auto. change (Z.of_nat (length ds)) with (len ds). rewrite put_digits_fold.
  subst ds. rewrite <- map_rev. rewrite (map_chr base) by (try lia; apply Forall_rev, led_range; lia). rewrite <- Es. reflexivity.
Qed.

Lemma strip0_ne ds : ds <> [] -> strip0 ds <> [].
Proof.
  induction ds as [|d t IH]; intros H; [congruence|]. rewrite strip0_cons. destruct t; [discriminate|].
  destruct (d =? 0); [apply IH; discriminate|discriminate].
Qed.

Lemma stream_hex_w cfg n os a s : wf n a -> bval a <> 0 -> 1 <= n -> basef os = BHex -> showbase os = false -> numeral (uppercase os) 16 (bval a) s ->
  exists os', stream_insert cfg n os a = Ok os' /\ width os' = 0 /\
   out os' = out os ++ field os (firstn (Z.to_nat ((len s - 1) mod 8 + 1)) s) ++ skipn (Z.to_nat ((len s - 1) mod 8 + 1)) s.
Proof.
  intros W Hv Hn Hb SB HS. pose proof (bval_bound n _ W) as Bv. unfold stream_insert. fold (os_base os). rewrite SB. cbn [andb]. cbv zeta.
  rewrite isZero_spec by auto. replace (bval a =? 0) with false by (symmetry; apply Z.eqb_neq; auto). cbn [bind].
  assert (B16 : os_base os = 16) by (unfold os_base; rewrite Hb; reflexivity). rewrite B16. cbn [Z.eqb Pos.eqb].
  destruct (top_block_spec n a W Hn) as (L & -> & HLn & Hz & HT). cbn [bind]. rewrite aget_ok by (rewrite (wf_len _ _ W); lia). cbn [bind].
  pose proof (hex_numeral n a L (uppercase os) W Hn HLn Hz HT Hv) as HN. pose proof (numeral_unique _ 16 (bval a) _ _ ltac:(lia) HS HN) as Es.
  rewrite os_put_field. unfold forD. rewrite Z.sub_0_r.
  pose proof (stream_hex_loop n a (Z.to_nat L) W ltac:(lia)) as SL. rewrite Z2Nat.id in SL by lia. rewrite SL by reflexivity. clear SL. cbn [out basef showbase uppercase fillc width adj].
  eexists. split; [reflexivity|]. split; [reflexivity|]. cbn [out]. rewrite <- app_assoc. f_equal.
  unfold hex_digits in Es. rewrite map_app in Es. fold (fmt_x (uppercase os) (znth a L)) in Es.
  set (t := fmt_x (uppercase os) (znth a L)) in *. set (r := map (digit_char (uppercase os)) (low_hex a (Z.to_nat L))) in *.
  assert (Lr : len r = 8 * L) by (subst r; rewrite len_map, low_hex_len; lia).
  assert (Lt : 1 <= len t <= 8).
  { subst t. unfold fmt_x. rewrite len_map. pose proof (strip0_len (hex8 (znth a L))) as SLn. rewrite hex8_len in SLn. split; [|auto].
    pose proof (strip0_ne (hex8 (znth a L)) ltac:(discriminate)) as NE.
    destruct (strip0 (hex8 (znth a L))); [congruence|]. rewrite len_cons. pose proof (len_nonneg l). lia. }
  rewrite Es, len_app, Lr.
  assert (M : (len t + 8 * L - 1) mod 8 + 1 = len t).
  { replace (len t + 8 * L - 1) with (len t - 1 + L * 8) by lia. rewrite Z.mod_add by lia. rewrite Z.mod_small by lia. lia. }
  rewrite M. rewrite firstn_app_len by auto. rewrite skipn_app, skipn_all2 by (unfold len; lia). unfold len. rewrite Nat2Z.id, Nat.sub_diag. reflexivity.
Qed.

Lemma os_base_eq os os' : basef os = basef os' -> os_base os = os_base os'.
Proof. unfold os_base. intros ->. reflexivity. Qed.

Lemma stream_zero_w cfg n os a : wf n a -> bval a = 0 -> showbase os = false \/ os_base os = 10 ->
  stream_insert cfg n os a = Ok (os_put os [48]).
Proof.
  intros W Hv SB. unfold stream_insert. fold (os_base os).
  replace (showbase os && negb (os_base os =? 10)) with false by (symmetry; destruct SB as [-> | ->]; [reflexivity|apply andb_false_r]).
  cbv zeta. rewrite isZero_spec, Hv by auto. reflexivity.
Qed.

(** A shown prefix is one insertion; the number follows as without showbase. *)
Lemma stream_prefix_w cfg n os a : showbase os = true -> os_base os <> 10 ->
  stream_insert cfg n os a = stream_insert cfg n (os_noshowbase (os_put os (os_shown os))) a.
Proof.
  intros SB Hb. unfold stream_insert. rewrite SB. destruct os as [o bf sb up fc w ad]. cbn in SB. subst sb. unfold os_base in Hb. cbn in Hb.
  destruct bf; try congruence; reflexivity.
Qed.

Lemma stream_width cfg n os a s : wf n a -> 32 * n < 2 ^ 53 ->
  (3 <= n \/ (n = 2 /\ os_base os = 10) \/ (1 <= n /\ os_base os = 16)) ->
  numeral (uppercase os && (os_base os =? 16)) (os_base os) (bval a) s ->
  exists os', stream_insert cfg n os a = Ok os' /\ width os' = 0 /\
    out os' = out os ++ field os (first_piece os s) ++ skipn (length (first_piece os s)) (os_shown os ++ s).
Proof.
  intros W H53 HW HS. pose proof (bval_bound n _ W) as Bv.
  assert (B2 : 2 <= os_base os <= 16) by (unfold os_base; destruct (basef os); lia).
  (* the number without prefix *)
  assert (X : forall os, (3 <= n \/ (n = 2 /\ os_base os = 10) \/ (1 <= n /\ os_base os = 16)) -> showbase os = false \/ os_base os = 10 ->
     numeral (uppercase os && (os_base os =? 16)) (os_base os) (bval a) s ->
     exists os', stream_insert cfg n os a = Ok os' /\ width os' = 0 /\
       let p := if os_base os =? 16 then firstn (Z.to_nat ((len s - 1) mod 8 + 1)) s else firstn 1 s in
       out os' = out os ++ field os p ++ skipn (length p) s).
  { clear os HW HS B2. intros os HW SB HS.
    assert (B2 : 2 <= os_base os <= 16) by (unfold os_base; destruct (basef os); lia).
    assert (NE : exists c t, s = c :: t). { pose proof (numeral_nonempty _ _ _ _ HS) as NN. destruct s as [|c t]; [change (len (@nil Z)) with 0 in NN; lia|eauto]. }
    destruct NE as (c & t & ES).
    destruct (Z.eq_dec (bval a) 0) as [V|V].
    { assert (Es : s = [48]). { apply (numeral_unique (uppercase os && (os_base os =? 16)) (os_base os) (bval a)); auto; [lia|]. exists [0]. rewrite V. conjs; auto. constructor; [lia|auto]. }
      rewrite stream_zero_w by auto. eexists. split; [reflexivity|]. split; [reflexivity|]. cbv zeta. rewrite Es. change ((len [48] - 1) mod 8 + 1) with 1. change (Z.to_nat 1) with 1%nat.
      destruct (os_base os =? 16); cbn [firstn length skipn]; rewrite app_nil_r; reflexivity. }
    destruct (Z.eq_dec (os_base os) 16) as [B16|N16].
    - assert (BH : basef os = BHex) by (unfold os_base in B16; destruct (basef os); congruence || lia). rewrite B16 in HS. cbn [Z.eqb Pos.eqb] in HS. rewrite andb_true_r in HS.
      destruct (stream_hex_w cfg n os a s) as (os' & E & W0 & O); auto; [lia|destruct SB as [|SB]; [auto|lia]|].
      exists os'. split; auto. split; auto. cbv zeta. rewrite B16. cbn [Z.eqb Pos.eqb]. rewrite O. do 2 f_equal. f_equal.
      pose proof (numeral_nonempty _ _ _ _ HS) as NN. assert (K : 0 <= (len s - 1) mod 8 <= len s - 1). { split; [apply Z.mod_pos_bound; lia|apply Z.mod_le; lia]. }
      rewrite firstn_length. unfold len in *. lia.
    - replace (os_base os =? 16) with false in * by (symmetry; apply Z.eqb_neq; auto). rewrite andb_false_r in HS.
      assert (BS : bval a < os_base os ^ stream_buffer_size n).
      { destruct HW as [HW|[ [-> E10]|[_ E16] ] ]; [| |congruence].
        + pose proof (d295_bs n HW H53) as D. unfold modulus in Bv. assert (8 <= os_base os) by (unfold os_base in *; destruct (basef os); lia).
          assert (Q : 2 ^ (32 * n) <= 2 ^ (3 * stream_buffer_size n)) by (apply Z.pow_le_mono_r; lia). rewrite (Z.pow_mul_r 2 3) in Q by lia. change (2 ^ 3) with 8 in Q.
          assert (8 ^ stream_buffer_size n <= os_base os ^ stream_buffer_size n) by (apply Z.pow_le_mono_l; lia). lia.
        + rewrite E10. eapply Z.lt_trans; [apply Bv|]. vm_compute. reflexivity. }
      rewrite (stream_digits_w cfg n os a s) by (auto; lia). eexists. split; [reflexivity|]. rewrite ES, puts_field. cbn [width out firstn length skipn]. auto. }
  destruct (showbase os) eqn:SB; [destruct (Z.eq_dec (os_base os) 10) as [B10|N10]|].
  - destruct (X os HW (or_intror B10) HS) as (os' & E & W0 & O). exists os'. split; auto. split; auto. rewrite O. unfold first_piece, os_shown, shown. rewrite SB, B10. reflexivity.
  - rewrite stream_prefix_w by auto. set (os1 := os_noshowbase (os_put os (os_shown os))).
    assert (EB : os_base os1 = os_base os) by reflexivity.
    destruct (X os1) as (os' & E & W0 & O); [rewrite EB; auto|left; reflexivity|exact HS|]. exists os'. split; auto. split; auto.
    rewrite O. rewrite field0 by (change (width os1) with 0; apply len_nonneg).
    assert (F1 : forall p : list Z, (exists k, p = firstn k s) -> p ++ skipn (length p) s = s).
    { intros p (k & ->). rewrite firstn_length. destruct (Nat.le_ge_cases k (length s)).
      - rewrite Nat.min_l by auto. apply firstn_skipn.
      - rewrite Nat.min_r by auto. rewrite firstn_all2, skipn_all by auto. apply app_nil_r. }
    rewrite F1 by (destruct (os_base os1 =? 16); eauto).
    unfold first_piece. replace (0 <? len (os_shown os)) with true.
    2:{ symmetry. apply Z.ltb_lt. unfold os_shown, shown. rewrite SB. unfold os_base in *. destruct (basef os); try congruence; reflexivity. }
    rewrite skipn_app, skipn_all, Nat.sub_diag. cbn [app skipn].
    change (out os1) with (out os ++ field os (os_shown os)). rewrite <- app_assoc. reflexivity.
  - destruct (X os HW (or_introl SB) HS) as (os' & E & W0 & O). exists os'. split; auto. split; auto. rewrite O. unfold first_piece, os_shown, shown. rewrite SB. reflexivity.
Qed.
