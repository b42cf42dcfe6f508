(** * PropsIni: C152 (no operation on written objects reads memory nobody wrote) and C153 (objects declared without
    an initialiser). *)
From Verif Require Import Base Spec Lib AeuModel AeuFacts AeuArith AeuBits AeuAccess AeuDiv AeuMore PropsAeu IniSpec IniModel IniFacts.
From Coq Require Import Lia.
Open Scope Z_scope.

Ltac conjs := repeat match goal with |- _ /\ _ => split end.

Lemma gives_lift n call x v : call = lift init x -> yields n x v -> gives n call v.
Proof. intros -> (r & -> & W & V). exists (init r). split; [reflexivity|]. exists r. auto. Qed.

(** ** C152 *)

Theorem C152_arithmetic : forall n A B x y, 1 <= n -> holds n A x -> holds n B y ->
  gives n (c_op_add n A B) ((x + y) mod modulus n) /\
  gives n (c_op_sub n A B) ((x - y) mod modulus n) /\
  gives n (c_op_mul n A B) ((x * y) mod modulus n) /\
  gives n (c_op_neg n A) ((- x) mod modulus n) /\
  gives n (c_op_inc n A) ((x + 1) mod modulus n) /\
  gives n (c_op_dec n A) ((x - 1) mod modulus n) /\
  (forall t v, 0 <= v < 2 ^ uwidth t -> uwidth t <= 32 -> gives n (c_op_add_u n t A v) ((x + v) mod modulus n)) /\
  (forall t v, 0 <= v < 2 ^ uwidth t -> t <> ULL -> gives n (c_op_mul_u n t A v) ((x * v) mod modulus n)) /\
  (* the constructor and operator~, whose objects start without initialiser *)
  (forall v, 0 <= v < 2 ^ 64 -> gives n (c_from_unsigned n v) (v mod modulus n)) /\
  gives n (c_op_not n A) (modulus n - 1 - x) /\
  gives n (c_op_xor n A B) (Z.lxor x y) /\ gives n (c_op_and n A B) (Z.land x y) /\ gives n (c_op_or n A B) (Z.lor x y) /\
  (forall k, 0 <= k ->
     gives n (c_op_shl n A k) (if k <? 32 * n then (x * 2 ^ k) mod modulus n else x) /\
     gives n (c_op_shr n A k) (if k <? 32 * n then x / 2 ^ k else x)).
Proof.
  intros n A B x y Hn (a & -> & Wa & <-) (b & -> & Wb & <-). conjs.
  - eapply gives_lift; [apply op_add_i|]. apply add_assign_correct; auto.
  - eapply gives_lift; [apply op_sub_i|]. apply sub_assign_correct; auto.
  - eapply gives_lift; [apply op_mul_i|]. apply mul_assign_correct; auto.
  - eapply gives_lift; [apply op_neg_i|]. apply op_neg_correct; auto.
  - eapply gives_lift; [apply op_inc_i|]. apply op_inc_correct; auto.
  - eapply gives_lift; [apply op_dec_i|]. apply op_dec_correct; auto.
  - intros t v H1 H2. eapply gives_lift; [apply op_add_u_i|]. apply add_assign_u_correct; auto.
  - intros t v H1 H2. eapply gives_lift; [apply op_mul_u_i|]. apply mul_assign_u_correct; auto.
  - intros v Hv. eapply gives_lift; [apply from_unsigned_i; lia|]. apply from_unsigned_correct; auto; [lia|apply len_zeros; lia].
  - eapply gives_lift; [apply op_not_i; lia|]. apply (op_not_correct n (zeros n) a (len_zeros n ltac:(lia)) Wa).
  - eapply gives_lift; [apply op_xor_i|]. apply xor_correct; auto.
  - eapply gives_lift; [apply op_and_i|]. apply and_correct; auto.
  - eapply gives_lift; [apply op_or_i|]. apply or_correct; auto.
  - intros k Hk. split; (eapply gives_lift; [apply op_shl_i || apply op_shr_i|]); [apply shl_total|apply shr_total]; auto.
Qed.

Theorem C152_observe : forall cfg n m A B x y, 1 <= n -> 1 <= m -> holds n A x -> holds n B y ->
  c_op_eq cfg n n A B = Ok (x =? y) /\ c_op_lt cfg n n A B = Ok (x <? y) /\ c_op_ge cfg n n A B = Ok (y <=? x) /\
  c_compareTo cfg n n A B = Ok (if x <? y then CLess else if y <? x then CGreater else CEqual) /\
  c_isZero n A = Ok (x =? 0) /\ c_isOdd A = Ok (Z.odd x) /\ c_isEven A = Ok (Z.even x) /\
  c_bitCount n A = Ok (bit_length x) /\ c_byteCount n A = Ok ((bit_length x + 7) / 8) /\
  c_filledBlocksNumber n A = Ok ((bit_length x + 31) / 32) /\
  (forall v, 0 <= v < 2 ^ 32 -> c_op_eq_u32 n A v = Ok (x =? v)) /\
  (forall v, 2 <= n -> 0 <= v < 2 ^ 64 -> c_op_eq_u64 n A v = Ok (x =? v)) /\
  (forall i, 0 <= i < 32 * n -> c_getBit cfg n A i = Ok (Z.testbit x i)) /\
  (forall i, 0 <= i < 4 * n -> c_getByte cfg n A i = Ok ((x / 2 ^ (8 * i)) mod 2 ^ 8)) /\
  gives m (c_precisionCast cfg n m A) (x mod modulus m).
Proof.
  intros cfg n m A B x y Hn Hm (a & -> & Wa & <-) (b & -> & Wb & <-).
  change (map Some a) with (init a). change (map Some b) with (init b).
  destruct (C21_observers n a Hn Wa) as (A1 & A2 & A3 & A4 & A5 & A6).
  conjs; intros; rewrite ?op_eq_i, ?op_lt_i, ?op_ge_i, ?compareTo_i, ?isZero_i, ?isOdd_i, ?isEven_i, ?bitCount_i, ?byteCount_i, ?filled_i, ?op_eq_u32_i, ?op_eq_u64_i, ?getBit_i, ?getByte_i; auto.
  - apply op_eq_cross; auto.
  - apply op_lt_same; auto.
  - rewrite op_ge_same by auto. f_equal. destruct (Z.geb_spec (bval a) (bval b)), (Z.leb_spec (bval b) (bval a)); auto; lia.
  - rewrite compareTo_same by auto. f_equal. unfold zcmp.
    destruct (Z.ltb_spec (bval a) (bval b)), (Z.ltb_spec (bval b) (bval a)), (Z.gtb_spec (bval a) (bval b)); auto; lia.
  - apply op_eq_u32_spec; auto.
  - apply op_eq_u64_spec; auto.
  - apply getBit_spec; auto.
  - apply (proj1 (C19_byte_access_partial cfg n a i 0 Wa ltac:(lia) ltac:(lia))); lia.
  - eapply gives_lift; [apply precisionCast_i|]. apply precisionCast_spec; auto. lia.
Qed.

(** [q0], [r0], [x0], [y0]: the output objects, in any state - also never written. *)
Theorem C152_number_theory : forall cfg fuel n A B x y, 1 <= n -> 64 * n + 2 <= Z.of_nat fuel ->
  holds n A x -> holds n B y ->
  (forall q0 r0, y <> 0 -> exists Q R, c_divide cfg n A B q0 r0 = Ok (Q, R) /\ holds n Q (x / y) /\ holds n R (x mod y)) /\
  (forall q0 r0, exists Q R, c_divide cfg n A B q0 r0 = Ok (Q, R) /\ (exists q, holds n Q q) /\ exists r, holds n R r) /\
  (y <> 0 -> gives n (c_op_div cfg n A B) (x / y) /\ gives n (c_op_mod cfg n A B) (x mod y)) /\
  gives n (c_gcd cfg fuel n A B) (Z.gcd x y) /\
  (forall x0 y0, exists G X Y u v, c_gcd_ext cfg fuel n A B x0 y0 = Ok (G, X, Y) /\ holds n G (Z.gcd x y) /\
     holds n X u /\ holds n Y v /\ (x * u + y * v) mod modulus n = Z.gcd x y mod modulus n) /\
  gives n (c_lcm cfg fuel n A B) (Z.lcm x y mod modulus n) /\
  gives n (c_squareRoot cfg fuel n A) (Z.sqrt x) /\
  (forall M m, holds n M m -> 1 <= m -> (m - 1) * (m - 1) < modulus n -> y <> 0 \/ m <> 1 ->
     gives n (c_powm cfg n A B M) (x ^ y mod m)) /\
  (forall k, cfg_unsafe cfg = false -> 0 <= k -> exists v, gives n (c_power2 cfg n k) v).
Proof.
  intros cfg fuel n A B x y Hn Hf (a & -> & Wa & <-) (b & -> & Wb & <-).
  change (map Some a) with (init a). change (map Some b) with (init b).
  assert (DP : bval b <> 0 -> exists q r, divide cfg n a b = Ok (q, r) /\ represents n q (bval a / bval b) /\ represents n r (bval a mod bval b))
    by (intros Hb; apply divide_pos; auto).
  conjs.
  - intros q0 r0 Hb. rewrite divide_i by lia. destruct (DP Hb) as (q & r & -> & [Wq Vq] & [Wr Vr]).
    exists (init q), (init r). split; [reflexivity|]. split; [exists q|exists r]; auto.
  - intros q0 r0. rewrite divide_i by lia.
    assert (E : exists q r, divide cfg n a b = Ok (q, r) /\ wf n q /\ wf n r).
    { destruct (Z.eq_dec (bval b) 0) as [E|E].
      - destruct (C10_division_by_zero cfg n a b Hn Wa Wb E) as (q & r & E1 & H1). exists q, r. destruct H1 as (Wq & [Wr _] & _). auto.
      - destruct (DP E) as (q & r & E1 & [Wq _] & [Wr _]). exists q, r. auto. }
    destruct E as (q & r & -> & Wq & Wr). exists (init q), (init r). split; [reflexivity|].
    split; [exists (bval q), q|exists (bval r), r]; auto.
  - intros Hb. destruct (DP Hb) as (q & r & E & [Wq Vq] & [Wr Vr]). split.
    + eapply gives_lift; [apply op_div_i; lia|]. unfold op_div. rewrite E. exists q. split; [reflexivity|]. split; auto.
    + eapply gives_lift; [apply op_mod_i; lia|]. unfold op_mod. rewrite E. exists r. split; [reflexivity|]. split; auto.
  - eapply gives_lift; [apply gcd_i; lia|]. apply gcd_correct; auto.
  - intros x0 y0. rewrite gcd_ext_i by lia. destruct (egcd_correct cfg n fuel a b) as (g & u & v & E & [Wg Vg] & Wu & Wv & HB); auto.
    rewrite E. exists (init g), (init u), (init v), (bval u), (bval v). split; [reflexivity|].
    split; [exists g; auto|]. split; [exists u; auto|]. split; [exists v; auto|]. exact HB.
  - eapply gives_lift; [apply lcm_i; lia|]. apply lcm_correct; auto.
  - eapply gives_lift; [apply squareRoot_i; lia|]. apply squareRoot_correct; auto. lia.
  - intros M m (mm & -> & Wm & <-) H1 H2 H3. eapply gives_lift; [apply powm_i; lia|]. apply C25_powm_partial; auto.
  - intros k Hc Hk. eexists. eapply gives_lift; [apply power2_i|]. apply C27_power2; auto. lia.
Qed.

(** The cell model and the plain model never disagree on written objects, whatever the plain model returns. *)
Theorem C152_same : forall cfg fuel n a b, 0 <= n ->
  c_op_add n (map Some a) (map Some b) = lift (map Some) (op_add n a b) /\
  c_op_mul n (map Some a) (map Some b) = lift (map Some) (op_mul n a b) /\
  c_op_div cfg n (map Some a) (map Some b) = lift (map Some) (op_div cfg n a b) /\
  c_op_mod cfg n (map Some a) (map Some b) = lift (map Some) (op_mod cfg n a b) /\
  c_gcd cfg fuel n (map Some a) (map Some b) = lift (map Some) (gcd cfg fuel n a b) /\
  (forall m c, c_powm_x cfg n m (map Some a) (map Some c) (map Some b) = lift (map Some) (powm_x cfg n m a c b)) /\
  (forall i v, c_setBit cfg n (map Some a) i v = lift (map Some) (setBit cfg n a i v)) /\
  (forall i v, c_setByte cfg n (map Some a) i v = lift (map Some) (setByte cfg n a i v)) /\
  (forall i v, c_setBlock cfg n (map Some a) i v = lift (map Some) (setBlock cfg n a i v)) /\
  (forall m c, c_compareTo cfg n m (map Some a) (map Some c) = compareTo cfg n m a c) /\
  (forall t, c_integralCast t (map Some a) = integralCast t a).
Proof.
  intros cfg fuel n a b Hn. conjs; intros.
  - apply op_add_i. - apply op_mul_i. - apply op_div_i, Hn. - apply op_mod_i, Hn. - apply gcd_i, Hn.
  - apply powm_x_i, Hn. - apply setBit_i. - apply setByte_i. - apply setBlock_i. - apply compareTo_i. - apply integralCast_i.
Qed.

Theorem C152_same_rest : forall cfg n a b t v, 0 <= n ->
  c_op_sub n (map Some a) (map Some b) = lift (map Some) (op_sub n a b) /\
  c_op_add_u n t (map Some a) v = lift (map Some) (op_add_u n t a v) /\ c_op_mul_u n t (map Some a) v = lift (map Some) (op_mul_u n t a v) /\
  c_op_plus (map Some a) = Ok (map Some a) /\ c_op_neg n (map Some a) = lift (map Some) (op_neg n a) /\
  (forall r, op_inc n a = Ok r -> c_op_post_inc n (map Some a) = Ok (map Some a, map Some r)) /\
  (forall r, op_dec n a = Ok r -> c_op_post_dec n (map Some a) = Ok (map Some a, map Some r)) /\
  c_op_xor n (map Some a) (map Some b) = lift (map Some) (op_xor n a b) /\ c_op_and n (map Some a) (map Some b) = lift (map Some) (op_and n a b) /\
  c_op_or n (map Some a) (map Some b) = lift (map Some) (op_or n a b) /\
  (forall s, c_op_shl n (map Some a) s = lift (map Some) (op_shl n a s)) /\ (forall s, c_op_shr n (map Some a) s = lift (map Some) (op_shr n a s)) /\
  c_swap (map Some a) (map Some b) = Ok (map Some b, map Some a) /\
  (forall m, c_op_eq cfg n m (map Some a) (map Some b) = op_eq cfg n m a b) /\ (forall m, c_op_ne cfg n m (map Some a) (map Some b) = op_ne cfg n m a b) /\
  (forall m, c_op_lt cfg n m (map Some a) (map Some b) = op_lt cfg n m a b) /\ (forall m, c_op_gt cfg n m (map Some a) (map Some b) = op_gt cfg n m a b) /\
  (forall m, c_op_le cfg n m (map Some a) (map Some b) = op_le cfg n m a b) /\ (forall m, c_op_ge cfg n m (map Some a) (map Some b) = op_ge cfg n m a b) /\
  (forall k, c_compareTo_u32 n (map Some a) k = compareTo_u32 n a k) /\ (forall k, c_compareTo_u64 n (map Some a) k = compareTo_u64 n a k) /\
  (forall k, c_op_spaceship_u32 n (map Some a) k = op_spaceship_u32 n a k) /\ (forall k, c_op_spaceship_u64 n (map Some a) k = op_spaceship_u64 n a k) /\
  (forall k, c_op_eq_u32 n (map Some a) k = op_eq_u32 n a k) /\ (forall k, c_op_eq_u64 n (map Some a) k = op_eq_u64 n a k).
Proof.
  intros cfg n a b t v Hn. conjs; intros.
  - apply op_sub_i. - apply op_add_u_i. - apply op_mul_u_i. - apply copy_init. - apply op_neg_i.
  - unfold c_op_post_inc. change (map Some a) with (init a). rewrite copy_init, op_inc_i, H. reflexivity.
  - unfold c_op_post_dec. change (map Some a) with (init a). rewrite copy_init, op_dec_i, H. reflexivity.
  - apply op_xor_i. - apply op_and_i. - apply op_or_i. - apply op_shl_i. - apply op_shr_i. - apply swap_i.
  - apply op_eq_i. - apply op_ne_i. - apply op_lt_i. - apply op_gt_i. - apply op_le_i. - apply op_ge_i.
  - apply compareTo_u32_i. - apply compareTo_u64_i. - apply op_spaceship_u32_i. - apply op_spaceship_u64_i. - apply op_eq_u32_i. - apply op_eq_u64_i.
Qed.

Definition exO : cells := [Some 5; Some 0; Some 7].
Definition exP : cells := [Some 3; Some 1; Some 0].
Example C152_example : holds 3 exO (5 + 7 * 2 ^ 64) /\ holds 3 exP (3 + 2 ^ 32) /\
  c_from_unsigned 3 9 = Ok [Some 9; Some 0; Some 0] /\ c_op_not 3 exP = Ok [Some (2 ^ 32 - 4); Some (2 ^ 32 - 2); Some (2 ^ 32 - 1)] /\
  fresh 3 = [None; None; None] /\ c_op_add 3 exO exP = Ok [Some 8; Some 1; Some 7].
Proof.
  assert (W : forall l, length l = 3%nat -> Forall (fun b => 0 <= b < 2 ^ 32) l -> wf 3 l) by (intros l L F; split; [unfold len; rewrite L; reflexivity|exact F]).
  split; [exists [5; 0; 7]|split; [exists [3; 1; 0]|conjs; vm_compute; reflexivity]];
    (split; [reflexivity|split; [apply W; [reflexivity|repeat constructor; lia]|vm_compute; reflexivity]]).
Qed.

(** ** C153 *)

Lemma cget_fresh n i : 0 <= i < n -> cget (fresh n) i = Err Indeterminate.
Proof.
  intros H. unfold cget, cin. rewrite len_fresh by lia. rewrite (proj2 (Z.leb_le 0 i)), (proj2 (Z.ltb_lt i n)) by lia.
  cbn [andb]. unfold cnth. destruct (Z.ltb_spec i 0); [reflexivity|]. unfold fresh. rewrite nth_repeat. reflexivity.
Qed.
Lemma copy_fresh n : 1 <= n -> copy (fresh n) = Err Indeterminate.
Proof. intros H. unfold copy, fresh. destruct (Z.to_nat n) eqn:E; [lia|]. reflexivity. Qed.
Lemma forU_first {S} lo hi (B : Z -> S -> outcome S) s e : lo < hi -> B lo s = Err e -> forU lo hi B s = Err e.
Proof. intros H E. unfold forU. destruct (Z.to_nat (hi - lo)) eqn:K; [lia|]. cbn [loopU]. rewrite E. reflexivity. Qed.
Lemma forUx_first {S R} lo hi (B : Z -> S -> outcome (step S R)) s e : lo < hi -> B lo s = Err e -> forUx lo hi B s = Err e.
Proof. intros H E. unfold forUx. destruct (Z.to_nat (hi - lo)) eqn:K; [lia|]. cbn [loopUx]. rewrite E. reflexivity. Qed.
Lemma forD_first {S} hi lo (B : Z -> S -> outcome S) s e : lo < hi -> B (hi - 1) s = Err e -> forD hi lo B s = Err e.
Proof. intros H E. unfold forD. destruct (Z.to_nat (hi - lo)) eqn:K; [lia|]. cbn [loopD]. rewrite E. reflexivity. Qed.
Lemma forDx_first {S R} hi lo (B : Z -> S -> outcome (step S R)) s e : lo < hi -> B (hi - 1) s = Err e -> forDx hi lo B s = Err e.
Proof. intros H E. unfold forDx. destruct (Z.to_nat (hi - lo)) eqn:K; [lia|]. cbn [loopDx]. rewrite E. reflexivity. Qed.

Lemma filled_fresh n : 1 <= n -> c_filledBlocksNumber n (fresh n) = Err Indeterminate.
Proof. intros H. unfold c_filledBlocksNumber. rewrite (forDx_first _ _ _ _ Indeterminate); [reflexivity|lia|]. rewrite cget_fresh by lia. reflexivity. Qed.
Lemma lastBlock_fresh n : 1 <= n -> c_bitCount n (fresh n) = Err Indeterminate.
Proof.
  intros H. unfold c_bitCount, c_lastBlockIndex. destruct (Z.eq_dec n 1) as [->|E].
  - reflexivity.
  - rewrite (forDx_first n 1 _ _ Indeterminate); [reflexivity|lia|]. rewrite cget_fresh by lia. reflexivity.
Qed.
Lemma compareTo_fresh cfg n m B : 1 <= n -> 1 <= m -> c_compareTo cfg n m (fresh n) B = Err Indeterminate.
Proof.
  intros Hn Hm. unfold c_compareTo. cbn zeta. rewrite (forDx_first _ _ _ _ Indeterminate); [reflexivity| |].
  - destruct (n <? m); lia.
  - rewrite cget_fresh; [reflexivity|]. destruct (Z.ltb_spec n m); lia.
Qed.
Lemma getBlock_fresh cfg n i : 0 <= i < n -> c_getBlock cfg n (fresh n) i = Err Indeterminate.
Proof. intros H. unfold c_getBlock. rewrite Z.geb_leb, (proj2 (Z.leb_gt n i)) by lia. rewrite andb_false_r. apply cget_fresh, H. Qed.
Lemma compareTo_fresh_r cfg n a : 1 <= n -> wf n a -> c_compareTo cfg n n (init a) (fresh n) = Err Indeterminate.
Proof.
  intros Hn Wa. pose proof (wf_len _ _ Wa). unfold c_compareTo. cbn zeta. rewrite Z.ltb_irrefl.
  rewrite (forDx_first _ _ _ _ Indeterminate); [reflexivity|lia|].
  rewrite cget_init, aget_ok, getBlock_fresh by lia. reflexivity.
Qed.
Lemma compl_fresh n : 1 <= n -> c_makeComplement n (fresh n) = Err Indeterminate.
Proof. intros H. unfold c_makeComplement. apply forU_first; [lia|]. rewrite cget_fresh by lia. reflexivity. Qed.
Lemma block_index k i n : 0 < k -> 0 <= i < k * n -> 0 <= i / k < n.
Proof. intros Hk H. split; [apply Z.div_pos; lia|apply Z.div_lt_upper_bound; lia]. Qed.


(** Declared with [{}] an object is zero; declared without initialiser it is usable once something has been
    assigned to it as a whole (C152: [divide] and [gcd] accept it as an output) or block by block. *)
Theorem C153_declared_objects_usable_partial : forall cfg n, 1 <= n ->
  holds n (czeros n) 0 /\
  (forall A x, holds n A x -> gives n (copy A) x) /\
  (forall v : Z -> Z, (forall i, 0 <= i < n -> 0 <= v i < 2 ^ 32) ->
     exists C x, forU 0 n (fun i c => c_setBlock cfg n c i (v i)) (fresh n) = Ok C /\ holds n C x /\
       forall i, 0 <= i < n -> c_getBlock cfg n C i = Ok (v i)).
Proof.
  intros cfg n Hn. conjs.
  - exists (zeros n). split; [reflexivity|]. split; [apply wf_zeros; lia|apply bval_zeros].
  - intros A x (a & -> & W & V). exists (init a). split; [apply copy_init|]. exists a. auto.
  - intros v Hv.
    assert (E := fill_loop (fun i (_ : unit) => Ok (v i, tt)) n ltac:(lia) tt). cbv zeta beta in E.
    assert (Z0 : forall i, (i >=? n) = negb (i <? n)) by (intros i; rewrite Z.geb_leb, Z.leb_antisym; reflexivity).
    assert (G : exists r, forU 0 n (fun i '(c, s) => '(v0, s') <- Ok (v i, tt) ;; c' <- aset c i v0 ;; Ok (c', s')) (zeros n, tt) = Ok (r, tt)
       /\ len r = n /\ forall i, 0 <= i < n -> znth r i = v i).
    { destruct (forU_spec (fun i '(c, _) => len c = n /\ forall j, 0 <= j < i -> znth c j = v j) 0 n
        (fun i '(c, s) => '(v0, s') <- Ok (v i, tt) ;; c' <- aset c i v0 ;; Ok (c', s')) (zeros n, tt)) as ([r []] & E1 & L & P).
      - lia.
      - split; [apply len_zeros; lia|]. intros j Hj. lia.
      - intros i [c []] Hi [L P]. cbn [bind]. rewrite aset_ok by lia. cbn [bind]. eexists. split; [reflexivity|].
        split; [rewrite len_upd; exact L|]. intros j Hj. destruct (Z.eq_dec j i) as [->|D].
        + apply znth_upd_eq. lia.
        + rewrite znth_upd_ne by lia. apply P. lia.
      - exists r. auto. }
    destruct G as (r & E1 & L & P). rewrite E1 in E. cbn [lift init1 fst snd] in E.
    assert (W : wf n r). { apply wf_intro; auto. intros i Hi. rewrite P by lia. apply Hv. lia. }
    exists (init r), (bval r). split; [|split; [exists r; auto|]].
    + assert (M : lift fst (Ok (init r, tt)) = Ok (init r)) by reflexivity. rewrite <- M. unfold init1 in E. cbn [fst snd] in E. rewrite <- E. unfold forU.
      symmetry. apply (loopU_range fst). intros i [c []] Hi. cbn [fst bind]. unfold c_setBlock. rewrite Z0.
      rewrite (proj2 (Z.ltb_lt i n)) by lia. cbn [negb]. rewrite andb_false_r. destruct (cset c i (v i)); reflexivity.
    + intros i Hi. rewrite getBlock_i. unfold getBlock. rewrite Z0, (proj2 (Z.ltb_lt i n)) by lia. cbn [negb].
      rewrite andb_false_r, aget_ok by lia. f_equal. apply P. lia.
Qed.

(** Without initialiser, every operation that looks at the object reads memory nobody wrote - also [setBit] and
    [setByte], which only mean to write. *)
Theorem C153_declared_objects_usable_refuted : forall cfg n A x, 1 <= n -> holds n A x ->
  let U := fresh n in
  reads_garbage (copy U) /\ reads_garbage (c_op_inc n U) /\ reads_garbage (c_op_dec n U) /\ reads_garbage (c_op_neg n U) /\
  reads_garbage (c_op_not n U) /\
  (forall B, reads_garbage (c_add_assign n U B)) /\ reads_garbage (c_op_add n A U) /\ reads_garbage (c_op_sub n A U) /\
  (forall B, reads_garbage (c_mul_assign n U B)) /\ reads_garbage (c_op_mul n A U) /\
  (forall B, reads_garbage (c_op_xor n U B)) /\
  reads_garbage (c_isZero n U) /\ reads_garbage (c_isOdd U) /\ reads_garbage (c_bitCount n U) /\ reads_garbage (c_filledBlocksNumber n U) /\
  (forall m B, 1 <= m -> reads_garbage (c_compareTo cfg n m U B)) /\ reads_garbage (c_op_eq cfg n n A U) /\
  (forall i b, 0 <= i < 32 * n -> reads_garbage (c_getBit cfg n U i) /\ reads_garbage (c_setBit cfg n U i b)) /\
  (forall i b, 0 <= i < 4 * n -> reads_garbage (c_getByte cfg n U i) /\ reads_garbage (c_setByte cfg n U i b)) /\
  (forall i, 0 <= i < n -> reads_garbage (c_getBlock cfg n U i)) /\
  (forall q r, reads_garbage (c_divide cfg n A U q r) /\ reads_garbage (c_divide cfg n U A q r)) /\
  (forall f, reads_garbage (c_gcd cfg f n U A) /\ reads_garbage (c_squareRoot cfg f n U)) /\
  (forall k, 0 < k < 32 * n -> reads_garbage (c_shl_assign n U k) /\ reads_garbage (c_shr_assign n U k)).
Proof.
  intros cfg n A x Hn (a & -> & Wa & <-) U. subst U. change (map Some a) with (init a).
  pose proof (wf_len _ _ Wa) as La. unfold reads_garbage.
  assert (F0 : cget (fresh n) 0 = Err Indeterminate) by (apply cget_fresh; lia).
  assert (A0 : cget (init a) 0 = Ok (znth a 0)) by (rewrite cget_init; apply aget_ok; lia).
  assert (AL : c_addLine n (init a) (fresh n) = Err Indeterminate).
  { unfold c_addLine. apply forU_first; [lia|]. rewrite A0, F0. reflexivity. }
  conjs; intros.
  - apply copy_fresh; lia.
  - unfold c_op_inc. rewrite (forUx_first _ _ _ _ Indeterminate); [reflexivity|lia|]. rewrite F0. reflexivity.
  - unfold c_op_dec. rewrite (forUx_first _ _ _ _ Indeterminate); [reflexivity|lia|]. rewrite F0. reflexivity.
  - unfold c_op_neg. rewrite copy_fresh by lia. reflexivity.
  - unfold c_op_not. apply forU_first; [lia|]. rewrite F0. reflexivity.
  - unfold c_add_assign, c_addLine. rewrite (forU_first _ _ _ _ Indeterminate); [reflexivity|lia|]. rewrite F0. reflexivity.
  - unfold c_op_add, c_add_assign. rewrite copy_init. cbn [bind]. rewrite AL. reflexivity.
  - unfold c_op_sub, c_sub_assign, c_op_neg. rewrite copy_init. cbn [bind]. rewrite copy_fresh by lia. reflexivity.
  - unfold c_mul_assign. rewrite filled_fresh by lia. reflexivity.
  - unfold c_op_mul, c_mul_assign. rewrite copy_init. cbn [bind]. rewrite filled_i, filled_fresh by lia.
    destruct (C21_observers n a Hn Wa) as (_ & _ & -> & _). reflexivity.
  - unfold c_op_xor. rewrite copy_fresh by lia. reflexivity.
  - unfold c_isZero. rewrite filled_fresh by lia. reflexivity.
  - unfold c_isOdd. rewrite F0. reflexivity.
  - apply lastBlock_fresh; lia.
  - apply filled_fresh; lia.
  - apply compareTo_fresh; lia.
  - unfold c_op_eq. rewrite compareTo_fresh_r by (auto; lia). reflexivity.
  - pose proof (block_index 32 i n ltac:(lia) ltac:(lia)) as Hi.
    pose proof (Z.mod_pos_bound i 32 ltac:(lia)) as Hm.
    unfold c_getBit, c_setBit. rewrite Z.geb_leb, (proj2 (Z.leb_gt (32 * n) i)) by lia. rewrite andb_false_r. cbn zeta.
    unfold blockBitLength. rewrite (proj2 (Z.ltb_lt (i / 32) n)), (proj2 (Z.ltb_lt (i mod 32) 32)) by lia.
    cbn [andb]. unfold assert_. rewrite cget_fresh by lia.
    destruct (cfg_ndebug cfg); split; reflexivity.
  - pose proof (block_index 4 i n ltac:(lia) ltac:(lia)) as Hi.
    pose proof (Z.mod_pos_bound i 4 ltac:(lia)) as Hm.
    unfold c_getByte, c_setByte, blockBytes. rewrite Z.gtb_ltb, (proj2 (Z.ltb_ge (n * 4) i)) by lia. rewrite andb_false_r. cbn zeta.
    rewrite (proj2 (Z.ltb_lt (i / 4) n)), (proj2 (Z.ltb_lt (i mod 4) 4)) by lia.
    cbn [andb]. unfold assert_. rewrite cget_fresh by lia.
    destruct (cfg_ndebug cfg); split; reflexivity.
  - apply getBlock_fresh; lia.
  - unfold c_divide. rewrite compareTo_fresh, compareTo_fresh_r by (auto; lia). split; reflexivity.
  - unfold c_gcd, c_squareRoot. cbn zeta. rewrite compareTo_fresh, lastBlock_fresh by (auto; lia). split; reflexivity.
  - pose proof (block_index 32 k n ltac:(lia) ltac:(lia)) as Hi. pose proof (Z.mod_pos_bound k 32 ltac:(lia)) as Hm.
    pose proof (Z.div_mod k 32 ltac:(lia)) as HD.
    assert (Hr : 0 <= b2z (negb (k mod 32 =? 0)) <= 1) by (destruct (negb _); cbn; lia).
    unfold c_shl_assign, c_shr_assign. rewrite Z.geb_leb, (proj2 (Z.leb_gt (32 * n) k)), (proj2 (Z.eqb_neq k 0)) by lia.
    cbn [orb]. cbn zeta. unfold blockBitLength.
    set (q := k / 32) in *. set (r1 := b2z (negb (k mod 32 =? 0))) in *. split.
    + destruct (Z.eq_dec n (q + r1)) as [E|E].
      * replace (forD n (q + r1)) with (fun (B : Z -> cells -> outcome cells) (s : cells) => Ok s).
        2:{ unfold forD. rewrite <- E, Z.sub_diag. reflexivity. }
        cbn [bind]. rewrite F0. reflexivity.
      * rewrite (forD_first n _ _ _ Indeterminate); [reflexivity|lia|]. rewrite cget_fresh by lia. reflexivity.
    + destruct (Z.eq_dec n (q + r1)) as [E|E].
      * replace (forU 0 (n - (q + r1))) with (fun (B : Z -> cells -> outcome cells) (s : cells) => Ok s).
        2:{ unfold forU. rewrite <- E, Z.sub_diag. reflexivity. }
        cbn [bind]. rewrite cget_fresh by lia. reflexivity.
      * rewrite (forU_first 0 _ _ _ Indeterminate); [reflexivity|lia|]. rewrite cget_fresh by lia. reflexivity.
Qed.

Example C153_example : holds 3 exO (5 + 7 * 2 ^ 64) /\ reads_garbage (c_op_add 3 exO (fresh 3)) /\
  c_setBlock cfg0 3 (fresh 3) 1 6 = Ok [None; Some 6; None] /\
  c_setBit cfg0 3 [None; Some 6; None] 32 true = Ok [None; Some 7; None] /\
  reads_garbage (c_setBit cfg0 3 [None; Some 6; None] 31 true).
Proof. split; [exact (proj1 C152_example)|]. unfold reads_garbage. conjs; vm_compute; reflexivity. Qed.
Print Assumptions C152_arithmetic.
Print Assumptions C152_observe.
Print Assumptions C152_number_theory.
Print Assumptions C153_declared_objects_usable_partial.
Print Assumptions C153_declared_objects_usable_refuted.
Print Assumptions C152_same.
Print Assumptions C152_same_rest.
