(** * Spec: what block arrays, signed pairs and strings mean.  Refers to no function of the model. *)
From Verif Require Export Base.
Open Scope Z_scope.

(** The integer represented by a block array, least significant block first. *)
Fixpoint bval (a : list Z) : Z :=
  match a with
  | [] => 0
  | x :: t => x + 2 ^ 32 * bval t
  end.

(** [wf n a]: [a] is the block array of an N-bit number, N = 32 n: n blocks, each a 32-bit value. *)
Definition wf (n : Z) (a : list Z) : Prop :=
  len a = n /\ Forall (fun x => 0 <= x < 2 ^ 32) a.

(** 2^N *)
Definition modulus (n : Z) : Z := 2 ^ (32 * n).

(** [r] is a valid N-bit number representing [z]. *)
Definition represents (n : Z) (r : list Z) (z : Z) : Prop := wf n r /\ bval r = z.

(** The call finished without a fault and produced the N-bit number [z]. *)
Definition yields (n : Z) (x : outcome (list Z)) (z : Z) : Prop :=
  exists r, x = Ok r /\ represents n r z.

(** Number of significant binary digits. *)
Definition bit_length (z : Z) : Z := if z =? 0 then 0 else Z.log2 z + 1.

(** Decision procedure for [wf], used by the concrete examples beside the theorems. *)
Definition wfb (n : Z) (a : list Z) : bool :=
  (len a =? n) && forallb (fun x => (0 <=? x) && (x <? 2 ^ 32)) a.
Lemma wfb_wf n a : wfb n a = true -> wf n a.
Proof.
  unfold wfb, wf. intros H. apply andb_prop in H. destruct H as [H1 H2]. apply Z.eqb_eq in H1. split; auto.
  apply Forall_forall. intros x Hx. rewrite forallb_forall in H2. specialize (H2 x Hx). apply andb_prop in H2.
  destruct H2 as [H2 H3]. apply Z.leb_le in H2. apply Z.ltb_lt in H3. auto.
Qed.

(** ** Signed numbers *)

(** The integer a signed object stands for: what its sign and magnitude say. *)
Definition sval (x : aesi) : Z :=
  match sgn x with SZero => 0 | SPos => bval (mag x) | SNeg => - bval (mag x) end.

(** Well-formed signed object: valid magnitude, and a number whose sign is not zero has a non-zero magnitude. *)
Definition swf (n : Z) (x : aesi) : Prop :=
  wf n (mag x) /\ (sgn x <> SZero -> bval (mag x) <> 0).

(** Canonical: in addition a zero has magnitude zero. *)
Definition canon (n : Z) (x : aesi) : Prop :=
  wf n (mag x) /\ (sgn x = SZero <-> bval (mag x) = 0).

(** The call finished without a fault and produced a well-formed N-bit signed number equal to [z]. *)
Definition syields (n : Z) (x : outcome aesi) (z : Z) : Prop :=
  exists r, x = Ok r /\ swf n r /\ sval r = z.
