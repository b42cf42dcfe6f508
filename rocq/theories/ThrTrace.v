(** * ThrTrace: which blocks of which objects a call loads and stores, in order.

    No code of the repository: an observer of the trees of [ThrModel.v], who sees every address but no value, as somebody who
    watches a cache or a memory bus. *)
From Verif Require Export ThrModel.
Open Scope Z_scope.

(** no code *)
Inductive access := Load (x : loc) (i : Z) | Store (x : loc) (i : Z).
(** no code: the accesses of a tree that runs alone on a store, up to its end or its first fault *)
Fixpoint accesses {A} (c : act A) (m : mem) : list access :=
  match c with
  | Ret _ | Stop _ => []
  | Get x i k => Load x i :: match mget m x i with Ok v => accesses (k v) m | Err _ => [] end
  | Put x i v k => Store x i :: match mset m x i v with Ok m' => accesses k m' | Err _ => [] end
  end.
(** no code: its accesses if its loads, one after the other, return [answers], whoever may have stored those numbers *)
Fixpoint accesses_among {A} (c : act A) (answers : nat -> Z) : list access :=
  match c with
  | Ret _ | Stop _ => []
  | Get x i k => Load x i :: accesses_among (k (answers O)) (fun j => answers (S j))
  | Put x i v k => Store x i :: accesses_among k answers
  end.
