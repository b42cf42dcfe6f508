(** * StreamFacts: lemmas about StreamModel. *)
From Verif Require Export StreamModel Lib TextFacts TextMore TextHex TextWidth.
Open Scope Z_scope.

Definition orel {A B} (R : A -> B -> Prop) (x : outcome A) (y : outcome B) : Prop :=
  match x, y with Ok a, Ok b => R a b | Err f, Err g => f = g | _, _ => False end.
Lemma orel_bind {A B C D} (R : A -> B -> Prop) (Q : C -> D -> Prop) x y k l :
  orel R x y -> (forall a b, R a b -> orel Q (k a) (l b)) -> orel Q (bind x k) (bind y l).
Proof. destruct x, y; cbn; auto; try tauto. Qed.
Lemma orel_same {A C D} (Q : C -> D -> Prop) (x : outcome A) k l :
  (forall a, orel Q (k a) (l a)) -> orel Q (bind x k) (bind x l).
Proof. destruct x; cbn; auto. Qed.
Lemma orel_loopD {S T} (R : S -> T -> Prop) f g : (forall i s t, R s t -> orel R (f i s) (g i t)) ->
  forall c i s t, R s t -> orel R (loopD c i f s) (loopD c i g t).
Proof.
  intros B. induction c as [|c IH]; intros i s t H; cbn [loopD]; [exact H|]. eapply orel_bind; [apply B; exact H|]. intros; apply IH; auto.
Qed.
Lemma orel_forD {S T} (R : S -> T -> Prop) f g hi lo s t : (forall i s t, R s t -> orel R (f i s) (g i t)) -> R s t ->
  orel R (forD hi lo f s) (forD hi lo g t).
Proof. intros B H. apply orel_loopD; auto. Qed.

(** ** Two streams in step: [R] relates the states, insertion of the same text and changes of the format preserve it. *)
Definition keeps_case (f : ostream -> ostream) : Prop := (f = os_noshowbase) \/ (f = fun os => os_right (os_width (os_fill os 48) 8)).
Lemma keeps_out f o : keeps_case f -> out (f o) = out o /\ uppercase (f o) = uppercase o /\ basef (f o) = basef o.
Proof. intros [-> | ->]; auto. Qed.
Lemma keeps_show f o o' : keeps_case f -> showbase o = showbase o' -> showbase (f o) = showbase (f o').
Proof. intros [-> | ->]; auto. Qed.
Definition step_ok (R : sstream -> sstream -> Prop) : Prop :=
  (forall s t x, R s t -> R (ss_put s x) (ss_put t x)) /\ (forall s t f, R s t -> keeps_case f -> R (ss_on f s) (ss_on f t)).
(** The only texts that depend on the state are integers, formatted with [uppercase]. *)
Definition same_flags (s t : sstream) : Prop := uppercase (sos s) = uppercase (sos t).

Lemma insert_rel cfg grp n (R : sstream -> sstream -> Prop) s t a : step_ok R -> (forall s t, R s t -> same_flags s t) ->
  R s t -> basef (sos s) = basef (sos t) -> showbase (sos s) = showbase (sos t) ->
  orel R (ss_insert cfg grp n s a) (ss_insert cfg grp n t a).
Proof.
  intros [P F] U H EB ES. unfold ss_insert. rewrite EB, ES. set (base := match basef (sos t) with BHex => 16 | BOct => 8 | _ => 10 end). cbv zeta.
  set (c := showbase (sos t) && negb (base =? 10)).
  match goal with |- context [bind (isZero n a) ?k] => set (k1 := k) end.
  match goal with |- orel R _ (bind _ ?k) => set (k2 := k) end. subst k1 k2.
  set (s' := if c then ss_on os_noshowbase (ss_put s (if base =? 8 then [48; 111] else [48; 120])) else s).
  set (t' := if c then ss_on os_noshowbase (ss_put t (if base =? 8 then [48; 111] else [48; 120])) else t).
  assert (H' : R s' t') by (subst s' t'; destruct c; auto; apply F; [auto|left; reflexivity]). clearbody s' t'.
  apply orel_same. intros z. destruct z; [cbn [orel]; auto|]. destruct (base =? 16).
  - apply orel_same. intros iter. apply orel_same. intros x. apply orel_forD.
    + intros i u v Hu. apply orel_same. intros y. cbn [orel]. unfold ss_put_int. pose proof (F u v (fun os => os_right (os_width (os_fill os 48) 8)) Hu (or_intror eq_refl)) as G.
      rewrite (U _ _ G). apply P, G.
    + unfold ss_put_int. rewrite (U _ _ H'). apply P, H'.
  - apply orel_same. intros [buffer filled]. apply orel_forD; auto. intros i u v Hu. apply orel_same. intros y. cbn. auto.
Qed.

(** ** A bounded sink against an unbounded one. *)
Definition behind (base : list Z) (r : Z) (u b : sstream) : Prop :=
  sroom u = None /\ sgood u = true /\
  (uppercase (sos b) = uppercase (sos u) /\ basef (sos b) = basef (sos u) /\ showbase (sos b) = showbase (sos u)) /\
  exists t, out (sos u) = base ++ t /\ out (sos b) = base ++ firstn (Z.to_nat r) t /\ sgood b = (len t <=? r) /\
    (sgood b = true -> sroom b = Some (r - len t) /\ sos b = sos u).
Lemma behind_put base r u b x : 0 <= r -> behind base r u b -> behind base r (ss_put u x) (ss_put b x).
Proof.
  intros Hr (N & G & UP & t & O & O' & GB & E). unfold ss_put. rewrite G. unfold ss_write. rewrite N. cbv zeta.
  destruct (sgood b) eqn:B.
  - symmetry in GB. apply Z.leb_le in GB. destruct (E eq_refl) as [Er Es]. rewrite Er, Es. set (w := field (sos u) x). rewrite firstn_all.
    split; [reflexivity|]. split; [reflexivity|]. split; [auto|]. cbn [sos out os_width sgood sroom].
    exists (t ++ w). rewrite O, app_assoc. split; [reflexivity|]. split; [|split].
    + rewrite firstn_app. rewrite (firstn_all2 t) by (unfold len in GB; lia). rewrite <- app_assoc. do 3 f_equal. unfold len. lia.
    + rewrite len_app. destruct (Z.leb_spec (len w) (r - len t)), (Z.leb_spec (len t + len w) r); auto; lia.
    + intros L. apply Z.leb_le in L. rewrite len_app. split; [f_equal; lia|]. rewrite firstn_all2 by (unfold len in *; lia). reflexivity.
  - split; [reflexivity|]. split; [reflexivity|]. split; [exact UP|]. symmetry in GB. apply Z.leb_gt in GB.
    exists (t ++ field (sos u) x). cbn [sos out]. rewrite firstn_all, O, <- app_assoc. split; [reflexivity|]. split; [|split].
    + rewrite O'. f_equal. rewrite firstn_app. replace (Z.to_nat r - length t)%nat with 0%nat by (unfold len in GB; lia). cbn [firstn]. rewrite app_nil_r. reflexivity.
    + rewrite B. symmetry. apply Z.leb_gt. rewrite len_app. pose proof (len_nonneg (field (sos u) x)). lia.
    + congruence.
Qed.
Lemma behind_on base r u b f : behind base r u b -> keeps_case f -> behind base r (ss_on f u) (ss_on f b).
Proof.
  intros (N & G & UP & t & O & O' & GB & E) K. unfold ss_on. split; [exact N|]. split; [exact G|]. cbn [sos].
  destruct (keeps_out f (sos u) K) as (-> & -> & ->), (keeps_out f (sos b) K) as (-> & -> & ->).
  split; [destruct UP as (-> & -> & UP); auto using keeps_show|]. exists t. split; [exact O|]. split; [exact O'|]. split; [exact GB|].
  cbn [sgood sroom]. intros B. destruct (E B) as [-> ->]. auto.
Qed.
Lemma behind_step base r : 0 <= r -> step_ok (behind base r).
Proof. intros Hr. split; [intros; apply behind_put; auto|intros; apply behind_on; auto]. Qed.
Lemma behind_start os r : 0 <= r -> behind (out os) r (mk_ss os None true) (mk_ss os (Some r) true).
Proof.
  intros Hr. split; [reflexivity|]. split; [reflexivity|]. split; [auto|]. exists []. cbn [sos sgood sroom]. rewrite firstn_nil, app_nil_r.
  split; [reflexivity|]. split; [reflexivity|]. split; [symmetry; apply Z.leb_le; exact Hr|]. intros _. rewrite Z.sub_0_r. auto.
Qed.
Lemma behind_insert cfg grp n base r u b a : 0 <= r -> behind base r u b ->
  orel (behind base r) (ss_insert cfg grp n u a) (ss_insert cfg grp n b a).
Proof. intros Hr H. pose proof H as (_ & _ & (U1 & U2 & U3) & _). apply insert_rel; auto; [apply behind_step; auto|]. intros s t (_ & _ & (UP & _) & _). symmetry. exact UP. Qed.
Lemma ss_insert_c cfg grp n os a : (forall t, grp t = t) ->
  orel (fun s o => s = mk_ss o None true) (ss_insert cfg grp n (mk_ss os None true) a) (stream_insert cfg n os a).
Proof.
  intros G. assert (P : forall o x, ss_put (mk_ss o None true) x = mk_ss (os_put o x) None true).
  { intros o x. unfold ss_put, ss_write, os_put, field. cbn [sgood sroom sos]. rewrite firstn_all. reflexivity. }
  unfold ss_insert, stream_insert. cbn [sos]. set (base := match basef os with BHex => 16 | BOct => 8 | _ => 10 end). cbv zeta.
  set (c := showbase os && negb (base =? 10)).
  set (s' := if c then ss_on os_noshowbase (ss_put (mk_ss os None true) (if base =? 8 then [48; 111] else [48; 120])) else mk_ss os None true).
  set (o' := if c then os_noshowbase (os_put os (if base =? 8 then [48; 111] else [48; 120])) else os).
  assert (E : s' = mk_ss o' None true) by (subst s' o'; destruct c; [rewrite P; reflexivity|reflexivity]). rewrite E. clearbody o'. clear s' E.
  apply orel_same. intros z. destruct z; [cbn [orel]; apply P|]. destruct (base =? 16).
  - apply orel_same. intros iter. apply orel_same. intros x. apply orel_forD.
    + intros i u v ->. apply orel_same. intros y. cbn [orel]. unfold ss_put_int, ss_on. cbn [sos sroom sgood]. rewrite G. apply P.
    + unfold ss_put_int. rewrite G. apply P.
  - apply orel_same. intros [buffer filled]. apply orel_forD; auto. intros i u v ->. apply orel_same. intros y. cbn [orel]. apply P.
Qed.
