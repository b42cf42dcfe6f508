(** * IniFacts: on fully written memory the cell model runs exactly as AeuModel.v, and the local objects the
    code declares without initialiser are written before they are read. *)
From Verif Require Import Base Spec Lib AeuModel IniModel.
From Coq Require Import Lia.
Open Scope Z_scope.

Definition lift {A B} (f : A -> B) (x : outcome A) : outcome B :=
  match x with Ok a => Ok (f a) | Err e => Err e end.

Definition stepf {S S' R R'} (f : S -> S') (g : R -> R') (x : step S R) : step S' R' :=
  match x with Next s => Next (f s) | Exit r => Exit (g r) end.

Lemma len_init a : len (init a) = len a.
Proof. unfold len, init. rewrite map_length. reflexivity. Qed.

Lemma cin_init a i : cin (init a) i = in_range a i.
Proof. unfold cin, in_range. rewrite len_init. reflexivity. Qed.

Lemma cnth_init a i : in_range a i = true -> cnth (init a) i = Some (znth a i).
Proof.
  unfold in_range, cnth, znth, len, init. intros H. apply andb_prop in H as [H1 H2].
  apply Z.leb_le in H1. apply Z.ltb_lt in H2. destruct (Z.ltb_spec i 0); [lia|].
  rewrite (nth_indep (map Some a) None (Some 0)) by (rewrite map_length; lia).
  apply (map_nth Some).
Qed.

Lemma cget_init a i : cget (init a) i = aget a i.
Proof.
  unfold cget, aget. rewrite cin_init. destruct (in_range a i) eqn:E; [|reflexivity].
  rewrite cnth_init by exact E. reflexivity.
Qed.

Lemma cupd_init a i v : cupd (init a) i v = init (upd a i v).
Proof.
  revert i. induction a as [|x a IH]; intros [|i]; cbn; try reflexivity.
  f_equal. apply IH.
Qed.

Lemma cset_init a i v : cset (init a) i v = lift init (aset a i v).
Proof. unfold cset, aset. rewrite cin_init, cupd_init. destruct (in_range a i); reflexivity. Qed.

Lemma copy_init a : copy (init a) = Ok (init a).
Proof.
  unfold copy. enough (determinate (init a) = true) as -> by reflexivity.
  induction a; [reflexivity|]. exact IHa.
Qed.

Lemma bind_sim {A A' B B'} (f : A -> A') (g : B -> B') x' x k' k :
  x' = lift f x -> (forall a, k' (f a) = lift g (k a)) -> bind x' k' = lift g (bind x k).
Proof. intros -> H. destruct x; cbn; [apply H|reflexivity]. Qed.

Lemma bind_plain {A A' B} (f : A -> A') x' x (k' : A' -> outcome B) k :
  x' = lift f x -> (forall a, k' (f a) = k a) -> bind x' k' = bind x k.
Proof. intros -> H. destruct x; cbn; [apply H|reflexivity]. Qed.

Lemma bind_same {A B B'} (g : B -> B') (x' x : outcome A) k' k :
  x' = x -> (forall a, k' a = lift g (k a)) -> bind x' k' = lift g (bind x k).
Proof. intros -> H. destruct x; cbn; [apply H|reflexivity]. Qed.

Lemma bind_eq {A B} (x' x : outcome A) (k' k : A -> outcome B) :
  x' = x -> (forall a, k' a = k a) -> bind x' k' = bind x k.
Proof. intros -> H. destruct x; cbn; [apply H|reflexivity]. Qed.

Lemma loopU_sim {S S'} (f : S -> S') B' B : (forall i s, B' i (f s) = lift f (B i s)) ->
  forall c i s, loopU c i B' (f s) = lift f (loopU c i B s).
Proof.
  intros H. induction c as [|c IH]; intros i s; cbn [loopU]; [reflexivity|].
  apply bind_sim with (f := f); [apply H|]. intros a. apply IH.
Qed.
Lemma forU_sim {S S'} (f : S -> S') lo hi B' B s : (forall i s, B' i (f s) = lift f (B i s)) ->
  forU lo hi B' (f s) = lift f (forU lo hi B s).
Proof. intros H. apply loopU_sim, H. Qed.

Lemma loopD_sim {S S'} (f : S -> S') B' B : (forall i s, B' i (f s) = lift f (B i s)) ->
  forall c i s, loopD c i B' (f s) = lift f (loopD c i B s).
Proof.
  intros H. induction c as [|c IH]; intros i s; cbn [loopD]; [reflexivity|].
  apply bind_sim with (f := f); [apply H|]. intros a. apply IH.
Qed.
Lemma forD_sim {S S'} (f : S -> S') hi lo B' B s : (forall i s, B' i (f s) = lift f (B i s)) ->
  forD hi lo B' (f s) = lift f (forD hi lo B s).
Proof. intros H. apply loopD_sim, H. Qed.

Lemma loopUx_sim {S S' R R'} (f : S -> S') (g : R -> R') B' B :
  (forall i s, B' i (f s) = lift (stepf f g) (B i s)) ->
  forall c i s, loopUx c i B' (f s) = lift (stepf f g) (loopUx c i B s).
Proof.
  intros H. induction c as [|c IH]; intros i s; cbn [loopUx]; [reflexivity|].
  apply bind_sim with (f := stepf f g); [apply H|]. intros [a|r]; cbn [stepf]; [apply IH|reflexivity].
Qed.
Lemma forUx_sim {S S' R R'} (f : S -> S') (g : R -> R') lo hi B' B s :
  (forall i s, B' i (f s) = lift (stepf f g) (B i s)) ->
  forUx lo hi B' (f s) = lift (stepf f g) (forUx lo hi B s).
Proof. intros H. apply loopUx_sim, H. Qed.

Lemma loopDx_same {S R} (B' B : Z -> S -> outcome (step S R)) : (forall i s, B' i s = B i s) ->
  forall c i s, loopDx c i B' s = loopDx c i B s.
Proof.
  intros H. induction c as [|c IH]; intros i s; cbn [loopDx]; [reflexivity|].
  apply bind_eq; [apply H|]. intros [a|r]; [apply IH|reflexivity].
Qed.
Lemma forDx_same {S R} hi lo (B' B : Z -> S -> outcome (step S R)) s : (forall i s, B' i s = B i s) ->
  forDx hi lo B' s = forDx hi lo B s.
Proof. intros H. apply loopDx_same, H. Qed.

Lemma whileF_sim {S S' R R'} (f : S -> S') (g : R -> R') B' B :
  (forall s, B' (f s) = lift (stepf f g) (B s)) ->
  forall fuel s, whileF fuel B' (f s) = lift g (whileF fuel B s).
Proof.
  intros H. induction fuel as [|c IH]; intros s; cbn [whileF]; [reflexivity|].
  apply bind_sim with (f := stepf f g); [apply H|]. intros [a|r]; cbn [stepf]; [apply IH|reflexivity].
Qed.

Definition init1 {A} (x : list Z * A) : cells * A := (init (fst x), snd x).
Definition init2 (x : list Z * list Z) : cells * cells := (init (fst x), init (snd x)).
Definition init3 (x : list Z * list Z * list Z) : cells * cells * cells :=
  (init (fst (fst x)), init (snd (fst x)), init (snd x)).

Ltac sim1 :=
  cbv beta; cbn [fst snd init1 init2 init3 stepf lift];
  rewrite ?cget_init, ?copy_init, ?cset_init.
Ltac sstep :=
  match goal with
  | |- bind (lift ?f _) _ = lift ?g (bind _ _) => apply (bind_sim f g); [reflexivity|intros ?; sim1]
  | |- bind (lift ?f _) _ = bind _ _ => apply (bind_plain f); [reflexivity|intros ?; sim1]
  | |- bind ?x _ = lift ?g (bind ?x _) => apply (bind_same g); [reflexivity|intros ?; sim1]
  | |- bind ?x _ = bind ?x _ => apply bind_eq; [reflexivity|intros ?; sim1]
  | |- bind (Ok _) _ = _ => cbn [bind]; sim1
  | |- (if ?b then _ else _) = _ => destruct b; sim1
  | |- lift _ _ = lift _ _ => reflexivity
  | |- _ => reflexivity
  end.
Ltac sims := sim1; repeat sstep.

Lemma addLine_i n a b : c_addLine n (init a) (init b) = lift init1 (addLine n a b).
Proof.
  unfold c_addLine, addLine. change (init a, 0) with (init1 (a, 0)). apply forU_sim. intros i [d c]. sims.
Qed.
Lemma makeComplement_i n a : c_makeComplement n (init a) = lift init1 (makeComplement n a).
Proof.
  unfold c_makeComplement, makeComplement. change (init a, 1) with (init1 (a, 1)). apply forU_sim. intros i [d c]. sims.
Qed.

(** The objects declared without initialiser.  [part i junk a]: the first [i] blocks are written, with [a]. *)
Lemma len_fresh n : 0 <= n -> len (fresh n) = n.
Proof. intros H. unfold len, fresh. rewrite repeat_length. lia. Qed.

Lemma cupd_app a v i : i = length a -> forall n,
  cupd (init a ++ repeat None (S n)) i v = init (a ++ [v]) ++ repeat None n.
Proof.
  intros ->. induction a as [|x a IH]; intros n; cbn; [reflexivity|].
  f_equal. exact (IH n).
Qed.

Lemma cset_part a n v : len a < n -> 
  cset (init a ++ repeat None (Z.to_nat (n - len a))) (len a) v =
  Ok (init (a ++ [v]) ++ repeat None (Z.to_nat (n - len (a ++ [v])))).
Proof.
  intros H. unfold cset.
  assert (L : len (init a ++ repeat (@None Z) (Z.to_nat (n - len a))) = n).
  { unfold len in *. rewrite app_length, repeat_length. unfold init. rewrite map_length. lia. }
  unfold cin. rewrite L. replace ((0 <=? len a) && (len a <? n)) with true.
  2:{ symmetry. apply andb_true_intro. split; [apply Z.leb_le; apply len_nonneg|apply Z.ltb_lt; exact H]. }
  f_equal. replace (Z.to_nat (n - len a)) with (S (Z.to_nat (n - len (a ++ [v])))).
  - apply cupd_app. unfold len. lia.
  - unfold len in *. rewrite app_length. cbn [length]. lia.
Qed.

Lemma aset_part a n v : len a < n ->
  aset (a ++ repeat 0 (Z.to_nat (n - len a))) (len a) v =
  Ok ((a ++ [v]) ++ repeat 0 (Z.to_nat (n - len (a ++ [v])))).
Proof.
  intros H. unfold aset.
  assert (L : len (a ++ repeat 0 (Z.to_nat (n - len a))) = n).
  { unfold len in *. rewrite app_length, repeat_length. lia. }
  unfold in_range. rewrite L. replace ((0 <=? len a) && (len a <? n)) with true.
  2:{ symmetry. apply andb_true_intro. split; [apply Z.leb_le; apply len_nonneg|apply Z.ltb_lt; exact H]. }
  f_equal. replace (Z.to_nat (n - len a)) with (S (Z.to_nat (n - len (a ++ [v])))).
  - assert (E : forall (b : list Z) m, upd (b ++ repeat 0 (S m)) (length b) v = (b ++ [v]) ++ repeat 0 m).
    { induction b as [|x b IH]; intros m; cbn; [reflexivity|]. f_equal. exact (IH m). }
    replace (Z.to_nat (len a)) with (length a) by (unfold len; lia). apply E.
  - unfold len in *. rewrite app_length. cbn [length]. lia.
Qed.

(** A loop that writes the blocks 0, 1, .. of an uninitialised object in turn never reads one: it runs as on
    zeros and leaves every block written. *)
Lemma fill_loop {S} (val : Z -> S -> outcome (Z * S)) n : 0 <= n ->
  let B' := fun i '(c, s) => '(v, s') <- val i s ;; c' <- cset c i v ;; Ok (c', s') in
  let B := fun i '(c, s) => '(v, s') <- val i s ;; c' <- aset c i v ;; Ok (c', s') in
  forall s, forU 0 n B' (fresh n, s) = lift init1 (forU 0 n B (zeros n, s)).
Proof.
  intros Hn B' B s. unfold forU.
  enough (G : forall k (a : list Z) s, Z.of_nat k = n - len a ->
    loopU k (len a) B' (init a ++ repeat None (Z.to_nat (n - len a)), s) =
    lift init1 (loopU k (len a) B (a ++ repeat 0 (Z.to_nat (n - len a)), s))).
  { specialize (G (Z.to_nat (n - 0)) [] s). unfold len in G. cbn [length] in G.
    change (Z.of_nat 0) with 0 in G. rewrite Z.sub_0_r in *. apply G. lia. }
  clear s. induction k as [|k IH]; intros a s Hk.
  - cbn [loopU lift]. replace (Z.to_nat (n - len a)) with O by lia. cbn [repeat]. rewrite !app_nil_r. reflexivity.
  - cbn [loopU]. unfold B' at 1, B at 1. destruct (val (len a) s) as [[v s']|e]; cbn [bind]; [|reflexivity].
    rewrite cset_part, aset_part by lia. cbn [bind].
    replace (len a + 1) with (len (a ++ [v])) by (unfold len; rewrite app_length; cbn [length]; lia).
    apply IH. unfold len in *. rewrite app_length. cbn [length]. lia.
Qed.

Lemma loopU_map {S T} (h : S -> T) B B' : (forall i s, lift h (B i s) = B' i (h s)) ->
  forall c i s, lift h (loopU c i B s) = loopU c i B' (h s).
Proof.
  intros H. induction c as [|c IH]; intros i s; cbn [loopU]; [reflexivity|].
  rewrite <- H. destruct (B i s); cbn [bind lift]; [apply IH|reflexivity].
Qed.

Lemma loopU_ext {S} (B B' : Z -> S -> outcome S) : (forall i s, B i s = B' i s) ->
  forall c i s, loopU c i B s = loopU c i B' s.
Proof.
  intros H. induction c as [|c IH]; intros i s; cbn [loopU]; [reflexivity|].
  rewrite H. destruct (B' i s); cbn [bind]; [apply IH|reflexivity].
Qed.

Lemma from_unsigned_i n v : 0 <= n -> c_from_unsigned n v = lift init (from_unsigned n (zeros n) v).
Proof.
  intros Hn. unfold c_from_unsigned, from_unsigned. destruct (negb (v =? 0)); [|reflexivity].
  assert (E := fill_loop (fun _ t => Ok (u32 (t mod blockBase), t / blockBase)) n Hn (u64 v)). cbn zeta in E.
  apply (bind_sim init1).
  - unfold forU in *. etransitivity; [|etransitivity; [exact E|]].
    + apply loopU_ext. intros i [c s]. reflexivity.
    + f_equal.
  - intros [r c]. reflexivity.
Qed.

Lemma op_not_i n a : 0 <= n -> c_op_not n (init a) = lift init (op_not n (zeros n) a).
Proof.
  intros Hn. unfold c_op_not, op_not.
  assert (E := fill_loop (fun i (_ : unit) => b <- aget a i ;; Ok (not32 b, tt)) n Hn tt). cbn zeta in E.
  unfold forU in *.
  assert (P : forall S (x y : outcome (S * unit)), x = y -> lift fst x = lift fst y) by (intros; subst; reflexivity).
  apply P in E.
  rewrite (loopU_map fst _ (fun i c => b <- cget (init a) i ;; cset c i (not32 b))) in E.
  - cbn [fst] in E. rewrite E.
    match goal with |- lift fst (lift init1 ?x) = _ => transitivity (lift init (lift fst x)) end.
    + match goal with |- lift fst (lift init1 ?x) = _ => destruct x; reflexivity end.
    + f_equal. rewrite (loopU_map fst _ (fun i c => b <- aget a i ;; aset c i (not32 b))).
      * reflexivity.
      * intros i [c []]. cbn [fst]. destruct (aget a i) as [b|]; cbn [bind lift]; [|reflexivity].
        destruct (aset c i (not32 b)); reflexivity.
  - intros i [c []]. cbn [fst]. rewrite cget_init. destruct (aget a i) as [b|]; cbn [bind lift]; [|reflexivity].
    destruct (cset c i (not32 b)); reflexivity.
Qed.

Lemma op_neg_i n a : c_op_neg n (init a) = lift init (op_neg n a).
Proof. unfold c_op_neg, op_neg. rewrite copy_init. cbn [bind]. rewrite makeComplement_i. sims. destruct a0. reflexivity. Qed.

Lemma op_inc_i n a : c_op_inc n (init a) = lift init (op_inc n a).
Proof.
  unfold c_op_inc, op_inc. apply (bind_sim (stepf init init)).
  - apply forUx_sim. intros i s. sims.
  - intros [r|r]; reflexivity.
Qed.
Lemma op_dec_i n a : c_op_dec n (init a) = lift init (op_dec n a).
Proof.
  unfold c_op_dec, op_dec. apply (bind_sim (stepf init init)).
  - apply forUx_sim. intros i s. sims.
  - intros [r|r]; reflexivity.
Qed.
Lemma op_post_inc_i n a : c_op_post_inc n (init a) = lift init2 (op_post_inc n a).
Proof. unfold c_op_post_inc, op_post_inc. rewrite op_inc_i. sims. Qed.
Lemma op_post_dec_i n a : c_op_post_dec n (init a) = lift init2 (op_post_dec n a).
Proof. unfold c_op_post_dec, op_post_dec. rewrite op_dec_i. sims. Qed.

Lemma add_assign_u_i n t a v : c_add_assign_u n t (init a) v = lift init (add_assign_u n t a v).
Proof.
  unfold c_add_assign_u, add_assign_u. apply (bind_sim init1).
  - change (init a, v) with (init1 (a, v)). apply forU_sim. intros i [d c]. sims.
  - intros [r c]. reflexivity.
Qed.
Lemma op_add_u_i n t a v : c_op_add_u n t (init a) v = lift init (op_add_u n t a v).
Proof. unfold c_op_add_u, op_add_u. rewrite copy_init. apply add_assign_u_i. Qed.
Lemma add_assign_i n a b : c_add_assign n (init a) (init b) = lift init (add_assign n a b).
Proof. unfold c_add_assign, add_assign. rewrite addLine_i. apply (bind_sim init1); [reflexivity|]. intros [r c]. reflexivity. Qed.
Lemma op_add_i n a b : c_op_add n (init a) (init b) = lift init (op_add n a b).
Proof. unfold c_op_add, op_add. rewrite copy_init. apply add_assign_i. Qed.
Lemma sub_assign_i n a b : c_sub_assign n (init a) (init b) = lift init (sub_assign n a b).
Proof. unfold c_sub_assign, sub_assign. rewrite op_neg_i. apply (bind_sim init); [reflexivity|]. intros r. apply add_assign_i. Qed.
Lemma op_sub_i n a b : c_op_sub n (init a) (init b) = lift init (op_sub n a b).
Proof. unfold c_op_sub, op_sub. rewrite copy_init. apply sub_assign_i. Qed.

Lemma filled_i n a : c_filledBlocksNumber n (init a) = filledBlocksNumber n a.
Proof.
  unfold c_filledBlocksNumber, filledBlocksNumber. apply bind_eq; [|intros; reflexivity].
  apply forDx_same. intros i []. sims.
Qed.
Lemma isZero_i n a : c_isZero n (init a) = isZero n a.
Proof. unfold c_isZero, isZero. rewrite filled_i. reflexivity. Qed.
Lemma isOdd_i a : c_isOdd (init a) = isOdd a.
Proof. unfold c_isOdd, isOdd. sims. Qed.
Lemma isEven_i a : c_isEven (init a) = isEven a.
Proof. unfold c_isEven, isEven. sims. Qed.

Lemma mul_inner_i n i t d' d l buf : (forall j, d' j = d j) ->
  c_mul_inner n i t d' l (init buf) = lift init1 (mul_inner n i t d l buf).
Proof.
  intros H. unfold c_mul_inner, mul_inner. change (init buf, 0) with (init1 (buf, 0)).
  apply forU_sim. intros j [b c]. cbn [init1 fst snd]. rewrite H. sims.
Qed.
Lemma mul_lines_i n g a l d' d l2 : (forall j, d' j = d j) ->
  c_mul_lines n g (init a) l d' l2 = lift init (mul_lines n g a l d l2).
Proof.
  intros H. unfold c_mul_lines, mul_lines, czeros. apply forU_sim. intros i buf. rewrite cget_init.
  apply bind_same; [reflexivity|]. intros t. rewrite (mul_inner_i _ _ _ d' d) by exact H.
  apply (bind_sim init1); [reflexivity|]. intros [b c]. cbn [init1 fst snd].
  destruct (g && _); sims.
Qed.
Lemma mul_assign_u_i n t a v : c_mul_assign_u n t (init a) v = lift init (mul_assign_u n t a v).
Proof.
  unfold c_mul_assign_u, mul_assign_u. destruct (is_uint64_t t).
  - rewrite filled_i. apply bind_same; [reflexivity|]. intros l. apply mul_lines_i. reflexivity.
  - apply (bind_sim init1).
    + change (init a, 0) with (init1 (a, 0)). apply forU_sim. intros i [d c]. sims.
    + intros [r c]. reflexivity.
Qed.
Lemma op_mul_u_i n t a v : c_op_mul_u n t (init a) v = lift init (op_mul_u n t a v).
Proof. unfold c_op_mul_u, op_mul_u. rewrite copy_init. apply mul_assign_u_i. Qed.
Lemma multiplyLines_i n a l b m : c_multiplyLines n (init a) l (init b) m = lift init (multiplyLines n a l b m).
Proof. unfold c_multiplyLines, multiplyLines. apply mul_lines_i. intros j. apply cget_init. Qed.
Lemma mul_assign_i n a b : c_mul_assign n (init a) (init b) = lift init (mul_assign n a b).
Proof.
  unfold c_mul_assign, mul_assign. rewrite !filled_i. apply bind_same; [reflexivity|]. intros l.
  apply bind_same; [reflexivity|]. intros m. rewrite !multiplyLines_i. destruct (l >? m); reflexivity.
Qed.
Lemma op_mul_i n a b : c_op_mul n (init a) (init b) = lift init (op_mul n a b).
Proof. unfold c_op_mul, op_mul. rewrite copy_init. apply mul_assign_i. Qed.

Lemma bitwise_i f n a b : c_bitwise_assign f n (init a) (init b) = lift init (bitwise_assign f n a b).
Proof. unfold c_bitwise_assign, bitwise_assign. apply forU_sim. intros i s. sims. Qed.
Lemma op_xor_i n a b : c_op_xor n (init a) (init b) = lift init (op_xor n a b).
Proof. unfold c_op_xor, op_xor. rewrite copy_init. apply bitwise_i. Qed.
Lemma op_and_i n a b : c_op_and n (init a) (init b) = lift init (op_and n a b).
Proof. unfold c_op_and, op_and. rewrite copy_init. apply bitwise_i. Qed.
Lemma op_or_i n a b : c_op_or n (init a) (init b) = lift init (op_or n a b).
Proof. unfold c_op_or, op_or. rewrite copy_init. apply bitwise_i. Qed.

Lemma shl_assign_i n a s : c_shl_assign n (init a) s = lift init (shl_assign n a s).
Proof.
  unfold c_shl_assign, shl_assign. destruct ((s >=? 32 * n) || (s =? 0)); [reflexivity|]. cbn zeta.
  apply (bind_sim init). { apply forD_sim. intros i v. sims. } intros v. sim1.
  sstep. sstep. apply forU_sim. intros i w. sims.
Qed.
Lemma op_shl_i n a s : c_op_shl n (init a) s = lift init (op_shl n a s).
Proof. unfold c_op_shl, op_shl. rewrite copy_init. apply shl_assign_i. Qed.
Lemma shr_assign_i n a s : c_shr_assign n (init a) s = lift init (shr_assign n a s).
Proof.
  unfold c_shr_assign, shr_assign. destruct ((s >=? 32 * n) || (s =? 0)); [reflexivity|]. cbn zeta.
  apply (bind_sim init). { apply forU_sim. intros i v. sims. } intros v. sim1.
  sstep. sstep. apply forU_sim. intros i w. sims.
Qed.
Lemma op_shr_i n a s : c_op_shr n (init a) s = lift init (op_shr n a s).
Proof. unfold c_op_shr, op_shr. rewrite copy_init. apply shr_assign_i. Qed.

Lemma setBit_i cfg n a i v : c_setBit cfg n (init a) i v = lift init (setBit cfg n a i v).
Proof. unfold c_setBit, setBit. destruct (negb _ && _); [reflexivity|]. cbn zeta. sims. Qed.
Lemma getBit_i cfg n a i : c_getBit cfg n (init a) i = getBit cfg n a i.
Proof. unfold c_getBit, getBit. destruct (negb _ && _); [reflexivity|]. cbn zeta. sims. Qed.
Lemma setByte_i cfg n a i v : c_setByte cfg n (init a) i v = lift init (setByte cfg n a i v).
Proof. unfold c_setByte, setByte. destruct (negb _ && _); [reflexivity|]. cbn zeta. sims. Qed.
Lemma getByte_i cfg n a i : c_getByte cfg n (init a) i = getByte cfg n a i.
Proof. unfold c_getByte, getByte. destruct (negb _ && _); [reflexivity|]. cbn zeta. sims. Qed.
Lemma setBlock_i cfg n a i v : c_setBlock cfg n (init a) i v = lift init (setBlock cfg n a i v).
Proof. unfold c_setBlock, setBlock. destruct (negb _ && _); [reflexivity|]. apply cset_init. Qed.
Lemma getBlock_i cfg n a i : c_getBlock cfg n (init a) i = getBlock cfg n a i.
Proof. unfold c_getBlock, getBlock. destruct (negb _ && _); [reflexivity|]. apply cget_init. Qed.

Lemma lastBlockIndex_i n a : c_lastBlockIndex n (init a) = lastBlockIndex n a.
Proof.
  unfold c_lastBlockIndex, lastBlockIndex. apply bind_eq; [|intros; reflexivity].
  apply forDx_same. intros i []. sims.
Qed.
Lemma byteCount_i n a : c_byteCount n (init a) = byteCount n a.
Proof.
  unfold c_byteCount, byteCount. rewrite lastBlockIndex_i. apply bind_eq; [reflexivity|]. intros l.
  apply bind_eq; [|intros; reflexivity]. apply forDx_same. intros i []. sims.
Qed.
Lemma bitCount_i n a : c_bitCount n (init a) = bitCount n a.
Proof.
  unfold c_bitCount, bitCount. rewrite lastBlockIndex_i. apply bind_eq; [reflexivity|]. intros l.
  apply bind_eq; [|intros; reflexivity]. apply forDx_same. intros i []. rewrite cget_init. reflexivity.
Qed.

Lemma compareTo_i cfg n m a b : c_compareTo cfg n m (init a) (init b) = compareTo cfg n m a b.
Proof.
  unfold c_compareTo, compareTo. cbn zeta. apply bind_eq.
  - apply forDx_same. intros i []. rewrite cget_init, getBlock_i. reflexivity.
  - intros [ [] |c]; [|reflexivity]. destruct (negb _); [|reflexivity]. apply bind_eq; [|intros; reflexivity].
    destruct (m >? n); [|destruct (n >? m); [|reflexivity]]; apply forDx_same; intros i [];
      rewrite ?cget_init, ?getBlock_i; reflexivity.
Qed.
Lemma compareTo_u32_i n a k : c_compareTo_u32 n (init a) k = compareTo_u32 n a k.
Proof.
  unfold c_compareTo_u32, compareTo_u32. rewrite filled_i. apply bind_eq; [reflexivity|]. intros f.
  destruct (f >? 1); [reflexivity|]. rewrite cget_init. reflexivity.
Qed.
Lemma compareTo_u64_i n a k : c_compareTo_u64 n (init a) k = compareTo_u64 n a k.
Proof.
  unfold c_compareTo_u64, compareTo_u64. rewrite filled_i. apply bind_eq; [reflexivity|]. intros f.
  destruct (f >? 2); [reflexivity|]. rewrite !cget_init. reflexivity.
Qed.
Lemma op_eq_i cfg n m a b : c_op_eq cfg n m (init a) (init b) = op_eq cfg n m a b.
Proof. unfold c_op_eq, op_eq. rewrite compareTo_i. reflexivity. Qed.
Lemma op_eq_u32_i n a k : c_op_eq_u32 n (init a) k = op_eq_u32 n a k.
Proof. unfold c_op_eq_u32, op_eq_u32. rewrite filled_i, cget_init. reflexivity. Qed.
Lemma op_eq_u64_i n a k : c_op_eq_u64 n (init a) k = op_eq_u64 n a k.
Proof. unfold c_op_eq_u64, op_eq_u64. rewrite filled_i, !cget_init. reflexivity. Qed.
Lemma op_spaceship_i cfg n m a b : c_op_spaceship cfg n m (init a) (init b) = op_spaceship cfg n m a b.
Proof. unfold c_op_spaceship, op_spaceship. rewrite compareTo_i. reflexivity. Qed.
Lemma op_lt_i cfg n m a b : c_op_lt cfg n m (init a) (init b) = op_lt cfg n m a b.
Proof. unfold c_op_lt, op_lt. rewrite op_spaceship_i. reflexivity. Qed.
Lemma op_gt_i cfg n m a b : c_op_gt cfg n m (init a) (init b) = op_gt cfg n m a b.
Proof. unfold c_op_gt, op_gt. rewrite op_spaceship_i. reflexivity. Qed.
Lemma op_le_i cfg n m a b : c_op_le cfg n m (init a) (init b) = op_le cfg n m a b.
Proof. unfold c_op_le, op_le. rewrite op_spaceship_i. reflexivity. Qed.
Lemma op_ge_i cfg n m a b : c_op_ge cfg n m (init a) (init b) = op_ge cfg n m a b.
Proof. unfold c_op_ge, op_ge. rewrite op_spaceship_i. reflexivity. Qed.
Lemma op_ne_i cfg n m a b : c_op_ne cfg n m (init a) (init b) = op_ne cfg n m a b.
Proof. unfold c_op_ne, op_ne. rewrite op_eq_i. reflexivity. Qed.
Lemma op_spaceship_u32_i n a k : c_op_spaceship_u32 n (init a) k = op_spaceship_u32 n a k.
Proof. unfold c_op_spaceship_u32, op_spaceship_u32. rewrite compareTo_u32_i. reflexivity. Qed.
Lemma op_spaceship_u64_i n a k : c_op_spaceship_u64 n (init a) k = op_spaceship_u64 n a k.
Proof. unfold c_op_spaceship_u64, op_spaceship_u64. rewrite compareTo_u64_i. reflexivity. Qed.

(** Division and number theory; [q], [r], [x], [y]: any memory, written or not. *)
Lemma divide_i cfg n a b q r : 0 <= n ->
  c_divide cfg n (init a) (init b) q r = lift init2 (divide cfg n a b).
Proof.
  intros Hn. unfold c_divide, divide, c_aeu_zero, aeu_zero, czeros. rewrite compareTo_i, copy_init.
  apply bind_same; [reflexivity|]. intros ratio. cbn [bind].
  assert (E1 : (one <- c_from_unsigned n 1 ;; q <- copy one ;; Ok (q, init (zeros n))) =
    lift init2 (one <- from_unsigned n (zeros n) 1 ;; Ok (one, zeros n))).
  { rewrite from_unsigned_i by exact Hn. sims. }
  destruct ratio; try exact E1.
  - rewrite copy_init. reflexivity.
  - rewrite filled_i. apply bind_same; [reflexivity|]. intros f. cbn zeta.
    change (init (zeros n), init (zeros n)) with (init2 (zeros n, zeros n)). apply forD_sim.
    intros i [q1 r1]. cbn [init2 fst snd]. rewrite shl_assign_i. apply (bind_sim init); [reflexivity|]. intros r2.
    rewrite getBit_i. apply bind_same; [reflexivity|]. intros bit. rewrite setBit_i.
    apply (bind_sim init); [reflexivity|]. intros r3. rewrite op_ge_i. apply bind_same; [reflexivity|]. intros [|].
    + rewrite sub_assign_i. apply (bind_sim init); [reflexivity|]. intros r4. rewrite setBit_i. sims.
    + reflexivity.
Qed.
Lemma divide_pair_i cfg n a b : 0 <= n -> c_divide_pair cfg n (init a) (init b) = lift init2 (divide cfg n a b).
Proof. apply divide_i. Qed.
Lemma op_div_i cfg n a b : 0 <= n -> c_op_div cfg n (init a) (init b) = lift init (op_div cfg n a b).
Proof. intros Hn. unfold c_op_div, op_div. rewrite divide_i by exact Hn. apply (bind_sim init2); [reflexivity|]. intros [q r]. reflexivity. Qed.
Lemma op_mod_i cfg n a b : 0 <= n -> c_op_mod cfg n (init a) (init b) = lift init (op_mod cfg n a b).
Proof. intros Hn. unfold c_op_mod, op_mod. rewrite divide_i by exact Hn. apply (bind_sim init2); [reflexivity|]. intros [q r]. reflexivity. Qed.
Lemma lift_copy x : (r <- lift init x ;; copy r) = lift init x.
Proof. destruct x; cbn [lift bind]; [apply copy_init|reflexivity]. Qed.
Lemma div_assign_i cfg n a b : 0 <= n -> c_div_assign cfg n (init a) (init b) = lift init (div_assign cfg n a b).
Proof. intros Hn. unfold c_div_assign, div_assign. rewrite op_div_i by exact Hn. apply lift_copy. Qed.
Lemma mod_assign_i cfg n a b : 0 <= n -> c_mod_assign cfg n (init a) (init b) = lift init (mod_assign cfg n a b).
Proof. intros Hn. unfold c_mod_assign, mod_assign. rewrite op_mod_i by exact Hn. apply lift_copy. Qed.

(** The loop of gcd: the memory of [quotient] never matters. *)
Lemma gcd_loop_i cfg n : 0 <= n -> forall fuel g q r,
  c_gcd_loop cfg n fuel (init g, q, init r) = lift init (gcd_loop cfg n fuel (g, r)).
Proof.
  intros Hn. unfold c_gcd_loop, gcd_loop. induction fuel as [|fuel IH]; intros g q r; cbn [whileF]; [reflexivity|].
  rewrite op_eq_u32_i. destruct (op_eq_u32 n r 0) as [z|]; cbn [bind]; [|reflexivity].
  destruct z; cbn [bind]; [reflexivity|]. rewrite !copy_init. cbn [bind].
  rewrite divide_i by exact Hn. destruct (divide cfg n g r) as [[q1 r1]|]; cbn [bind lift init2 fst snd]; [|reflexivity].
  apply IH.
Qed.
Lemma gcd_i cfg fuel n a b : 0 <= n -> c_gcd cfg fuel n (init a) (init b) = lift init (gcd cfg fuel n a b).
Proof.
  intros Hn. unfold c_gcd, gcd. cbn zeta. rewrite compareTo_i. apply bind_same; [reflexivity|]. intros ratio.
  rewrite !copy_init. cbn [bind]. rewrite !divide_i by exact Hn.
  destruct ratio; match goal with |- context[divide cfg n ?x ?y] => destruct (divide cfg n x y) as [[q r]|] end;
    cbn [bind lift init2 fst snd]; try reflexivity; apply gcd_loop_i; exact Hn.
Qed.

Definition initE (s : egcd_st) : cegcd :=
  mk_cegcd (init (eg_gcd s)) (init (eg_q s)) (init (eg_r s)) (init (eg_x s)) (init (eg_y s))
    (init (eg_tx s)) (init (eg_ty s)).
Lemma egcd_body_i cfg n s : 0 <= n -> c_egcd_body cfg n (initE s) = lift (stepf initE initE) (egcd_body cfg n s).
Proof.
  intros Hn. destruct s as [g q r x y tx ty]. unfold c_egcd_body, egcd_body, initE.
  cbn [cg_gcd cg_q cg_r cg_x cg_y cg_tx cg_ty eg_gcd eg_q eg_r eg_x eg_y eg_tx eg_ty].
  rewrite op_eq_u32_i. apply bind_same; [reflexivity|]. intros [|]; [reflexivity|]. cbn zeta.
  rewrite !copy_init. cbn [bind].
  rewrite op_mul_i. apply (bind_sim init); [reflexivity|]. intros p. rewrite op_sub_i.
  apply (bind_sim init); [reflexivity|]. intros x'. rewrite !copy_init. cbn [bind].
  rewrite op_mul_i. apply (bind_sim init); [reflexivity|]. intros p'. rewrite op_sub_i.
  apply (bind_sim init); [reflexivity|]. intros y'. rewrite !copy_init. cbn [bind].
  rewrite divide_i by exact Hn. apply (bind_sim init2); [reflexivity|]. intros [q' r']. reflexivity.
Qed.
Lemma swap_i a b : c_swap (init a) (init b) = Ok (init b, init a).
Proof. unfold c_swap. rewrite !copy_init. cbn [bind]. rewrite copy_init. reflexivity. Qed.
Lemma gcd_ext_i cfg fuel n a b x y : 0 <= n ->
  c_gcd_ext cfg fuel n (init a) (init b) x y = lift init3 (gcd_ext cfg fuel n a b).
Proof.
  intros Hn. unfold c_gcd_ext, gcd_ext. cbn zeta. rewrite compareTo_i. apply bind_same; [reflexivity|]. intros ratio.
  rewrite !copy_init. cbn [bind]. rewrite !divide_i by exact Hn.
  assert (E : (match ratio with
     | CGreater => ('(q, r) <- lift init2 (divide cfg n a b) ;; Ok (init b, q, r))
     | _ => ('(q, r) <- lift init2 (divide cfg n b a) ;; Ok (init a, q, r)) end) =
     lift init3 (match ratio with
     | CGreater => ('(q, r) <- divide cfg n a b ;; Ok (b, q, r))
     | _ => ('(q, r) <- divide cfg n b a ;; Ok (a, q, r)) end)).
  { destruct ratio; match goal with |- context[divide cfg n ?x ?y] => destruct (divide cfg n x y) as [[q r]|] end; reflexivity. }
  apply (bind_sim init3 init3).
  - rewrite <- E. destruct ratio; reflexivity.
  - intros [[g q] r]. cbn [init3 fst snd]. rewrite !from_unsigned_i by exact Hn.
    apply (bind_sim init); [reflexivity|]. intros bx. rewrite copy_init. cbn [bind].
    apply (bind_sim init); [reflexivity|]. intros by_. rewrite copy_init. cbn [bind].
    apply (bind_sim init); [reflexivity|]. intros tx. apply (bind_sim init); [reflexivity|]. intros ty.
    change (mk_cegcd (init g) (init q) (init r) (init bx) (init by_) (init tx) (init ty))
      with (initE (mk_egcd g q r bx by_ tx ty)).
    apply (bind_sim initE).
    + apply whileF_sim. intros s. apply egcd_body_i. exact Hn.
    + intros s. destruct (negb _); [|reflexivity]. destruct s as [g1 q1 r1 x1 y1 tx1 ty1]. unfold initE. cbn [cg_x cg_y cg_gcd eg_gcd eg_x eg_y].
      rewrite swap_i. reflexivity.
Qed.
Lemma lcm_i cfg fuel n a b : 0 <= n -> c_lcm cfg fuel n (init a) (init b) = lift init (lcm cfg fuel n a b).
Proof.
  intros Hn. unfold c_lcm, lcm. rewrite gcd_i by exact Hn. apply (bind_sim init); [reflexivity|]. intros g.
  rewrite op_div_i by exact Hn. apply (bind_sim init); [reflexivity|]. intros q. apply op_mul_i.
Qed.
Lemma powm_loop_i cfg n m p d st : 0 <= n ->
  c_powm_loop cfg n m (init p) (init d) (init2 st) = lift init2 (powm_loop cfg n m p d st).
Proof.
  intros Hn. unfold c_powm_loop, powm_loop. rewrite filled_i. apply bind_same; [reflexivity|]. intros f.
  apply forU_sim. intros i [o b]. cbn [init2 fst snd]. rewrite getBit_i. apply bind_same; [reflexivity|]. intros bit.
  apply (bind_sim init).
  - destruct bit; [|reflexivity]. rewrite op_mul_i. apply (bind_sim init); [reflexivity|]. intros q.
    rewrite divide_pair_i by exact Hn. apply (bind_sim init2); [reflexivity|]. intros [q1 r1]. cbn [init2 fst snd].
    apply copy_init.
  - intros o'. rewrite op_mul_i. apply (bind_sim init); [reflexivity|]. intros q.
    rewrite divide_pair_i by exact Hn. apply (bind_sim init2); [reflexivity|]. intros [q1 r1]. cbn [init2 fst snd].
    rewrite copy_init. reflexivity.
Qed.
Lemma powm_i cfg n b p d : 0 <= n -> c_powm cfg n (init b) (init p) (init d) = lift init (powm cfg n b p d).
Proof.
  intros Hn. unfold c_powm, powm. rewrite from_unsigned_i by exact Hn. apply (bind_sim init); [reflexivity|]. intros o.
  rewrite divide_pair_i by exact Hn. apply (bind_sim init2); [reflexivity|]. intros [q r]. cbn [init2 fst snd].
  change (init o, init r) with (init2 (o, r)). rewrite powm_loop_i by exact Hn.
  apply (bind_sim init2); [reflexivity|]. intros [x y]. reflexivity.
Qed.
Lemma powm_x_i cfg n m b p d : 0 <= n -> c_powm_x cfg n m (init b) (init p) (init d) = lift init (powm_x cfg n m b p d).
Proof.
  intros Hn. unfold c_powm_x, powm_x. rewrite !op_eq_u32_i. apply bind_same; [reflexivity|]. intros [|]; [apply copy_init|].
  apply bind_same; [reflexivity|]. rewrite !from_unsigned_i by exact Hn. intros [|]; [reflexivity|].
  apply (bind_sim init); [reflexivity|]. intros o.
  rewrite divide_pair_i by exact Hn. apply (bind_sim init2); [reflexivity|]. intros [q r]. cbn [init2 fst snd].
  change (init o, init r) with (init2 (o, r)). rewrite powm_loop_i by exact Hn.
  apply (bind_sim init2); [reflexivity|]. intros [x y]. reflexivity.
Qed.
Lemma power2_i cfg n k : c_power2 cfg n k = lift init (power2 cfg n k).
Proof. unfold c_power2, power2, c_aeu_zero, czeros. apply setBit_i. Qed.
Lemma squareRoot_i cfg fuel n a : 0 <= n -> c_squareRoot cfg fuel n (init a) = lift init (squareRoot cfg fuel n a).
Proof.
  intros Hn. unfold c_squareRoot, squareRoot. rewrite bitCount_i. apply bind_same; [reflexivity|]. intros c.
  rewrite power2_i. apply (bind_sim init); [reflexivity|]. intros y.
  generalize (fresh n) as x. revert y. induction fuel as [|fuel IH]; intros y x; cbn [whileF]; [reflexivity|].
  rewrite copy_init. cbn [bind]. rewrite op_div_i by exact Hn.
  destruct (op_div cfg n a y) as [q|]; cbn [bind lift]; [|reflexivity]. rewrite op_add_i.
  destruct (op_add n y q) as [s|]; cbn [bind lift]; [|reflexivity]. rewrite op_shr_i.
  destruct (op_shr n s 1) as [t|]; cbn [bind lift]; [|reflexivity]. rewrite copy_init. cbn [bind]. rewrite op_lt_i.
  destruct (op_lt cfg n n t y) as [[|]|]; cbn [bind lift]; try reflexivity. apply IH.
Qed.
Lemma integralCast_i t a : c_integralCast t (init a) = integralCast t a.
Proof. unfold c_integralCast, integralCast. rewrite !cget_init. reflexivity. Qed.
Lemma precisionCast_i cfg n m a : c_precisionCast cfg n m (init a) = lift init (precisionCast cfg n m a).
Proof.
  unfold c_precisionCast, precisionCast, czeros. cbn zeta. apply forU_sim. intros i s. rewrite getBlock_i.
  apply bind_same; [reflexivity|]. intros b. apply setBlock_i.
Qed.

Lemma loopU_range {S T} (h : S -> T) (B : Z -> S -> outcome S) B' lo n :
  (forall i s, lo <= i < n -> lift h (B i s) = B' i (h s)) ->
  forall s, lift h (loopU (Z.to_nat (n - lo)) lo B s) = loopU (Z.to_nat (n - lo)) lo B' (h s).
Proof.
  intros H.
  enough (G : forall c i s, lo <= i -> i + Z.of_nat c <= n -> lift h (loopU c i B s) = loopU c i B' (h s)).
  { intros s. destruct (Z.le_gt_cases lo n); [apply G; lia|].
    replace (Z.to_nat (n - lo)) with O by lia. reflexivity. }
  induction c as [|c IH]; intros i s H1 H2; cbn [loopU]; [reflexivity|].
  rewrite <- H by lia. destruct (B i s); cbn [bind lift]; [apply IH; lia|reflexivity].
Qed.
