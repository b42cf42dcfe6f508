(** * PropsSummary: C141, the benchmark summary table (ci/benchmarking/make_summary.py). *)
From Coq Require Import ZArith List String Lia Bool.
From Verif Require Import SummaryModel.
Import ListNotations.
Open Scope Z_scope.

Ltac conjs := repeat match goal with |- _ /\ _ => split end.

(** ** Specification *)
(** [x] is at place [i] of [l] without repetitions: the distinct members of [l] in the order of their first appearance. *)
Definition in_order_of_appearance {A : Type} (l distinct : list A) : Prop :=
  NoDup distinct /\ (forall x, In x distinct <-> In x l) /\
  forall i j x y, (i < j)%nat -> nth_error distinct i = Some x -> nth_error distinct j = Some y ->
    exists before after, l = before ++ x :: after /\ ~ In y before.
(** The last entry of the list with this operation and library. *)
Definition is_last_time (l : list (list Z * list Z * Z)) (op lib : list Z) (t : Z) : Prop :=
  exists before after, l = before ++ (op, lib, t) :: after /\ ~ (exists t', In (op, lib, t') after).
(** What a cell must show. *)
Definition cell_shows (py_str : Z -> list Z) (l : list (list Z * list Z * Z)) (op lib cell : list Z) : Prop :=
  (exists t, is_last_time l op lib t /\ cell = py_str t) \/ ((forall t, ~ In (op, lib, t) l) /\ cell = [8212]).
(** The name of a benchmark is op, "_", lib, and op has no "_". *)
Definition named (name op lib : list Z) : Prop := name = op ++ 95 :: lib /\ ~ In 95 op.

Lemma same_iff a b : same a b = true <-> a = b. Proof. unfold same. destruct (list_eq_dec Z.eq_dec a b); split; congruence. Qed.
Lemma same_refl a : same a a = true. Proof. apply same_iff. reflexivity. Qed.
Lemma same_ne a b : a <> b -> same a b = false. Proof. intros N. destruct (same a b) eqn:E; auto. apply same_iff in E. congruence. Qed.
Lemma split_iff name op lib : split_name name = Some (op, lib) <-> named name op lib.
Proof.
  unfold named. revert op. induction name as [|c t IH]; intros op; cbn [split_name].
  - split; [discriminate|]. intros [E _]. destruct op; discriminate.
  - destruct (Z.eqb_spec c 95) as [->|N].
    + split; [intros [= <- <-]; split; auto|]. intros [E I]. destruct op as [|x op]; [injection E as ->; reflexivity|].
      injection E as <- E. elim I. left. reflexivity.
    + split.
      * destruct (split_name t) as [ [o l]|]; [|discriminate]. intros [= <- <-]. destruct (IH o) as [H _]. destruct (H eq_refl) as [-> I].
        split; [reflexivity|]. intros [Q|Q]; auto.
      * intros [E I]. destruct op as [|x op]; [injection E as -> _; congruence|]. injection E as <- E.
        destruct (IH op) as [_ H]. rewrite H; [reflexivity|]. split; [exact E|]. intros Q. apply I. right. exact Q.
Qed.
Lemma split_none name : split_name name = None <-> ~ In 95 name.
Proof.
  induction name as [|c t IH]; cbn [split_name In]; [tauto|]. destruct (Z.eqb_spec c 95) as [->|N]; [split; [discriminate|intros H; elim H; auto]|].
  destruct (split_name t) as [ [o l]|]; [split; [discriminate|]|]; intros.
  - exfalso. assert (X : Some (o, l) = None) by (apply IH; intros Q; apply H; auto). discriminate.
  - split; auto. intros _ [Q|Q]; [congruence|]. apply IH in Q; auto.
Qed.
(** *** Dictionaries *)
Lemma get_set {V} (d : list (list Z * V)) k v k' : dict_get (dict_set d k v) k' = if same k' k then Some v else dict_get d k'.
Proof.
  induction d as [|[a b] t IH]; cbn [dict_set dict_get]; [reflexivity|]. destruct (same k a) eqn:E; cbn [dict_get].
  - apply same_iff in E. subst a. destruct (same k' k); reflexivity.
  - rewrite IH. destruct (same k' a) eqn:F; [|reflexivity]. apply same_iff in F. subst a. destruct (same k' k) eqn:G; [|reflexivity].
    apply same_iff in G. subst k'. rewrite same_refl in E. discriminate.
Qed.
Lemma keys_set {V} (d : list (list Z * V)) k v : map fst (dict_set d k v) = if member k (map fst d) then map fst d else map fst d ++ [k].
Proof.
  induction d as [|[a b] t IH]; cbn [dict_set map fst member existsb]; [reflexivity|]. fold (member k (map fst t)).
  destruct (same k a); cbn [map fst orb]; [reflexivity|]. rewrite IH. destruct (member k (map fst t)); reflexivity.
Qed.
Lemma member_iff x l : member x l = true <-> In x l.
Proof. unfold member. rewrite existsb_exists. split; [intros (y & I & E); apply same_iff in E; subst; auto|intros I; exists x; split; [auto|apply same_refl] ]. Qed.
Lemma get_some {V} (d : list (list Z * V)) k : dict_get d k <> None <-> In k (map fst d).
Proof.
  induction d as [|[a b] t IH]; cbn [dict_get map fst In]; [tauto|]. destruct (same k a) eqn:E; [apply same_iff in E; subst; split; [auto|discriminate]|].
  rewrite IH. split; [auto|]. intros [->|]; [rewrite same_refl in E; discriminate|auto].
Qed.
Lemma in_get {V} (d : list (list Z * V)) k v : NoDup (map fst d) -> In (k, v) d -> dict_get d k = Some v.
Proof.
  induction d as [|[a b] t IH]; cbn [dict_get map fst]; intros N I; [destruct I|]. inversion N as [|? ? N1 N2]; subst. destruct I as [ [= <- <-]|I]; [rewrite same_refl; reflexivity|].
  destruct (same k a) eqn:E; [|auto]. apply same_iff in E. subst a. elim N1. apply in_map_iff. exists (k, v). auto.
Qed.
(** *** Order of appearance *)
Lemma order_snoc l d x : in_order_of_appearance l d -> in_order_of_appearance (l ++ [x]) (if member x d then d else d ++ [x]).
Proof.
  intros (N & S & O). destruct (member x d) eqn:M.
  - apply member_iff in M. split; [exact N|]. split.
    + intros y. rewrite S, in_app_iff. cbn [In]. split; [auto|]. intros [?|[<-|[] ] ]; auto. apply S; auto.
    + intros i j a b H A B. destruct (O i j a b H A B) as (be & af & -> & NI). exists be, (af ++ [x]). rewrite <- app_assoc. auto.
  - assert (NI : ~ In x d) by (intros I; apply member_iff in I; congruence). split; [|split].
    + apply NoDup_rev in N. rewrite <- (rev_involutive (d ++ [x])). apply NoDup_rev. rewrite rev_app_distr. cbn [rev app]. constructor; auto. rewrite <- in_rev. auto.
    + intros y. rewrite !in_app_iff, S. tauto.
    + intros i j a b H A B. assert (LJ : (j < List.length (d ++ [x]))%nat) by (apply nth_error_Some; congruence). rewrite app_length in LJ. cbn [List.length] in LJ.
      rewrite nth_error_app1 in A by lia. destruct (Nat.eq_dec j (List.length d)) as [->|NJ].
      * rewrite nth_error_app2, Nat.sub_diag in B by lia. injection B as <-.
        assert (IA : In a l) by (apply S; eapply nth_error_In; eauto). apply in_split in IA. destruct IA as (be & af & ->). exists be, (af ++ [x]). rewrite <- app_assoc. split; [reflexivity|].
        intros Q. apply NI, S. apply in_app_iff. auto.
      * rewrite nth_error_app1 in B by lia. destruct (O i j a b H A B) as (be & af & -> & Q). exists be, (af ++ [x]). rewrite <- app_assoc. auto.
Qed.
Definition ops (l : list (list Z * list Z * Z)) := map (fun b => fst (fst b)) l.
Definition libs (l : list (list Z * list Z * Z)) := map (fun b => snd (fst b)) l.
Definition shows (l : list (list Z * list Z * Z)) (op lib : list Z) (v : option Z) : Prop :=
  match v with Some t => is_last_time l op lib t | None => forall t, ~ In (op, lib, t) l end.
Definition lookup (data : list (list Z * list (list Z * Z))) (op lib : list Z) : option Z := match dict_get data op with Some vals => dict_get vals lib | None => None end.
Lemma shows_snoc l op lib t v o k : shows l o k v -> shows (l ++ [(op, lib, t)]) o k (if same o op && same k lib then Some t else v).
Proof.
  intros H. destruct (same o op && same k lib) eqn:E.
  - apply andb_prop in E. destruct E as [E1 E2]. apply same_iff in E1, E2. subst. exists l, []. split; [reflexivity|]. intros [? [] ].
  - assert (NE : forall s, (o, k, s) <> (op, lib, t)) by (intros s Q; injection Q as <- <- _; rewrite !same_refl in E; discriminate).
    destruct v as [s|]; cbn [shows] in *.
    + destruct H as (be & af & -> & NI). exists be, (af ++ [(op, lib, t)]). rewrite <- app_assoc. split; [reflexivity|].
      intros [t' I]. apply in_app_iff in I. destruct I as [I|[I|[] ] ]; [apply NI; eauto|]. elim (NE t'). congruence.
    + intros s I. apply in_app_iff in I. destruct I as [I|[I|[] ] ]; [elim (H s I)|]. elim (NE s). congruence.
Qed.
Lemma record_all (bs : list (list Z * Z)) (l : list (list Z * list Z * Z)) :
  Forall2 (fun b e => named (fst b) (fst (fst e)) (snd (fst e)) /\ snd b = snd e) bs l ->
  exists data libraries, fold_left record_one bs (Some ([], [])) = Some (data, libraries) /\
    in_order_of_appearance (ops l) (map fst data) /\ in_order_of_appearance (libs l) libraries /\
    forall op lib, shows l op lib (lookup data op lib).
Proof.
  revert l. induction bs as [|b bs IH] using rev_ind; intros l F.
  - inversion F; subst. exists [], []. conjs; [reflexivity| | |intros; intros ? []]; (split; [constructor|split; [tauto|intros [|i] j x y _ E; discriminate] ]).
  - apply Forall2_app_inv_l in F. destruct F as (l1 & l2 & F1 & F2 & ->). inversion F2 as [|? e ? ? [N T] F3]; subst. inversion F3; subst.
    destruct e as [ [op lib] t]. cbn [fst snd] in N, T. destruct b as [nm tm]. cbn [fst snd] in N, T. subst tm.
    destruct (IH l1 F1) as (data & libraries & E & O1 & O2 & S). rewrite fold_left_app, E. cbn [fold_left record_one fst snd].
    rewrite (proj2 (split_iff nm op lib) N). cbv zeta.
    set (d1 := match dict_get data op with Some _ => data | None => dict_set data op [] end).
    assert (K1 : map fst d1 = if member op (map fst data) then map fst data else map fst data ++ [op]).
    { unfold d1. destruct (dict_get data op) eqn:G.
      - assert (I : In op (map fst data)) by (apply get_some; congruence). apply member_iff in I. rewrite I. reflexivity.
      - rewrite keys_set. reflexivity. }
    assert (G1 : exists vals, dict_get d1 op = Some vals /\ (forall k, dict_get vals k = lookup data op k) /\ forall o, o <> op -> dict_get d1 o = dict_get data o).
    { unfold d1, lookup. destruct (dict_get data op) as [vals|] eqn:G.
      - exists vals. auto.
      - exists []. rewrite get_set, same_refl. split; [reflexivity|]. split; [reflexivity|]. intros o N'. rewrite get_set, (same_ne o op N'). reflexivity. }
    destruct G1 as (vals & -> & GV & GO). eexists _, _. split; [reflexivity|].
    unfold ops, libs. rewrite !map_app. cbn [map fst snd]. conjs.
    + rewrite keys_set, K1. assert (M : member op (if member op (map fst data) then map fst data else map fst data ++ [op]) = true).
      { destruct (member op (map fst data)) eqn:Q; [exact Q|]. apply member_iff, in_app_iff. right. left. reflexivity. }
      rewrite M. apply order_snoc. exact O1.
    + apply order_snoc. exact O2.
    + intros o k. replace (lookup (dict_set d1 op (dict_set vals lib t)) o k) with (if same o op && same k lib then Some t else lookup data o k); [apply shows_snoc; apply S|].
      unfold lookup at 2. rewrite get_set. destruct (same o op) eqn:Q; cbn [andb].
      * apply same_iff in Q. subst o. rewrite get_set, GV. reflexivity.
      * unfold lookup. rewrite GO; [reflexivity|]. intros ->. rewrite same_refl in Q. discriminate.
Qed.
(** The text: a header with the libraries and one row per operation, each once and in the order of first appearance;
    every cell shows the last time recorded for its operation and library, or a dash. *)
Theorem C141_summary : forall py_str benchmarks l,
  Forall2 (fun b e => named (fst b) (fst (fst e)) (snd (fst e)) /\ snd b = snd e) benchmarks l ->
  exists operations libraries cells, in_order_of_appearance (ops l) operations /\ in_order_of_appearance (libs l) libraries /\
    Forall2 (fun op line => Forall2 (cell_shows py_str l op) libraries line) operations cells /\
    make_summary py_str benchmarks = Some (join [10] (
      (txt "| Operation | " ++ join (txt " | ") (map (fun lib => lib ++ txt " (ns)") libraries) ++ txt " |")%list ::
      (txt "|-----------|" ++ join (txt "|") (repeat (txt "-----------:") (List.length libraries)) ++ txt "|")%list ::
      map (fun r => (txt "| " ++ fst r ++ txt " | " ++ join (txt " | ") (snd r) ++ txt " |")%list) (combine operations cells))).
Proof.
  intros py_str bs l F. destruct (record_all bs l F) as (data & libraries & E & O1 & O2 & S).
  exists (map fst data), libraries, (map (fun entry => map (fun lib => match dict_get (snd entry) lib with Some v => py_str v | None => [8212] end) libraries) data).
  split; [exact O1|]. split; [exact O2|]. destruct O1 as (ND & _ & _). split.
  - assert (K : forall e, In e data -> dict_get data (fst e) = Some (snd e)) by (intros [k v] I; apply in_get; auto).
    clear - K S. assert (K' : forall e, In e data -> Forall2 (cell_shows py_str l (fst e)) libraries (map (fun lib => match dict_get (snd e) lib with Some v => py_str v | None => [8212] end) libraries)).
    { intros e I. induction libraries as [|k t IH]; cbn [map]; constructor; auto. specialize (S (fst e) k). unfold lookup in S. rewrite (K e I) in S.
      destruct (dict_get (snd e) k) as [v|]; cbn [shows] in S; [left; eauto|right; auto]. }
    clear K S. induction data as [|e t IH]; cbn [map]; constructor; [apply K'; left; reflexivity|]. apply IH. intros x I. apply K'. right. exact I.
  - unfold make_summary. rewrite E. unfold header, separator, row.
    assert (R : map (fun _ : list Z => txt "-----------:") libraries = repeat (txt "-----------:") (List.length libraries)) by (clear; induction libraries as [|k t IH]; [reflexivity|]; cbn [map List.length repeat]; f_equal; exact IH).
    rewrite R. do 4 f_equal. clear. induction data as [|e t IH]; [reflexivity|]. cbn [map combine fst snd]. f_equal. exact IH.
Qed.
Print Assumptions C141_summary.
(** A name without "_" raises an exception: there is no summary at all. *)
Theorem C141_no_summary : forall py_str benchmarks, make_summary py_str benchmarks = None <-> exists b, In b benchmarks /\ ~ In 95 (fst b).
Proof.
  intros py_str bs. unfold make_summary.
  assert (H : forall st, fold_left record_one bs st = None <-> st = None \/ exists b, In b bs /\ ~ In 95 (fst b)).
  { induction bs as [|b t IH]; intros st; cbn [fold_left In].
    - split; [auto|]. intros [?|(? & [] & _)]; auto.
    - rewrite IH. destruct st as [ [d k]|]; cbn [record_one].
      + destruct (split_name (fst b)) as [ [o q]|] eqn:E.
        * split; [intros [?|(x & I & N)]; [discriminate|right; eauto]|]. intros [?|(x & [<-|I] & N)]; [discriminate| |eauto].
          apply split_none in N. congruence.
        * apply split_none in E. split; [right; eauto|auto].
      + split; auto. }
  specialize (H (Some ([], []))). destruct (fold_left record_one bs (Some ([], []))) as [ [d k]|].
  - split; [discriminate|]. intros X. assert (Q : Some (d, k) = None) by (apply H; auto). discriminate.
  - split; [|reflexivity]. intros _. destruct (proj1 H eq_refl) as [Q|Q]; [discriminate|exact Q].
Qed.
Print Assumptions C141_no_summary.
Example C141_example : make_summary (fun v => [48 + v])
  [(txt "gcd_GMP", 7); (txt "gcd_Aesi", 9); (txt "powm_Aesi", 3); (txt "gcd_GMP", 5)] =
  Some (txt "| Operation | GMP (ns) | Aesi (ns) |" ++ [10] ++ txt "|-----------|-----------:|-----------:|" ++ [10] ++
        txt "| gcd | 5 | 9 |" ++ [10] ++ txt "| powm | " ++ [8212] ++ txt " | 3 |")%list /\
  make_summary (fun _ => []) [(txt "gcd", 1)] = None /\ named (txt "gcd_big_GMP") (txt "gcd") (txt "big_GMP").
Proof. conjs; try (vm_compute; reflexivity). split; [reflexivity|]. intros H. vm_compute in H. intuition discriminate. Qed.
