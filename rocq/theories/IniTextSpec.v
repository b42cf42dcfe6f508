(** * IniTextSpec: comparing a call on partly written memory with the same call on definite memory.
    Refers to no modelled function. *)
From Verif Require Export IniSpec TextSpec.
Open Scope Z_scope.

(** Memory [c] (which started as [c0]) follows the definite memory [b] (which started as [b0]): same length, and each
    element either is written in [c] with the value it has in [b], or is untouched in both. *)
Definition follows (c0 : list (option Z)) (b0 : list Z) (c : list (option Z)) (b : list Z) : Prop :=
  length c = length b /\ length b = length b0 /\
  forall i, (i < length b)%nat ->
    nth i c None = Some (nth i b 0) \/ (nth i c None = nth i c0 None /\ nth i b 0 = nth i b0 0).

(** The two calls end in the same fault, or return the same number and memories that follow each other. *)
Definition same_call (c0 : list (option Z)) (b0 : list Z) (x : outcome (list (option Z) * Z)) (y : outcome (list Z * Z)) : Prop :=
  match x, y with
  | Ok (c, k), Ok (b, l) => k = l /\ follows c0 b0 c b
  | Err e, Err f => e = f
  | _, _ => False
  end.

(** What a failing swprintf leaves behind is the same in both. *)
Definition same_failure (wc : list (option Z) -> Z -> list (option Z)) (wb : list Z -> Z -> list Z) : Prop :=
  forall c0 b0 c b p, follows c0 b0 c b -> follows c0 b0 (wc c p) (wb b p).
