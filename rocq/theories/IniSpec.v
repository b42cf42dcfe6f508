(** * IniSpec: what it means for an object's memory to be completely written.  Refers to no modelled function. *)
From Verif Require Export Spec.
Open Scope Z_scope.

(** The memory [c] (a block is [Some b], or [None] if nobody has written it) is completely written and the object
    is the [n]-block number [v]. *)
Definition holds (n : Z) (c : list (option Z)) (v : Z) : Prop :=
  exists a, c = map Some a /\ wf n a /\ bval a = v.

(** The call returns a completely written object with value [v]. *)
Definition gives (n : Z) (call : outcome (list (option Z))) (v : Z) : Prop :=
  exists c, call = Ok c /\ holds n c v.

(** The call reads a block nobody has written. *)
Definition reads_garbage {A} (call : outcome A) : Prop := call = Err Indeterminate.
