(** * SummaryModel: /repo/ci/benchmarking/make_summary.py.  A Python string is its list of code points; a dict is the
    list of its entries in insertion order.  [json.load] is the caller's business: the benchmarks are given as the
    list of their names and of [int(b["real_time"])]; [py_str] is Python's [str] on int.  [None]: an exception. *)
From Coq Require Import ZArith List String Ascii.
Import ListNotations.
Open Scope Z_scope.

(** the characters of a literal; e.g. make_summary.py l.19 *)
Fixpoint txt (s : string) : list Z := match s with EmptyString => [] | String c t => Z.of_nat (nat_of_ascii c) :: txt t end.
(** == on str; e.g. l.13 *)
Definition same (a b : list Z) : bool := if list_eq_dec Z.eq_dec a b then true else false.
(** l.12 [op, lib = name.split("_", 1)]: without "_" the unpacking raises ValueError *)
Fixpoint split_name (name : list Z) : option (list Z * list Z) :=
  match name with
  | [] => None
  | c :: t => if c =? 95 then Some ([], t) else match split_name t with Some (op, lib) => Some (c :: op, lib) | None => None end
  end.
(** [d.get(k)]; l.24 *)
Fixpoint dict_get {V : Type} (d : list (list Z * V)) (k : list Z) : option V :=
  match d with [] => None | (k', v) :: t => if same k k' then Some v else dict_get t k end.
(** [d[k] = v]: an existing key keeps its place; l.14-15 *)
Fixpoint dict_set {V : Type} (d : list (list Z * V)) (k : list Z) (v : V) : list (list Z * V) :=
  match d with [] => [(k, v)] | (k', v') :: t => if same k k' then (k', v) :: t else (k', v') :: dict_set t k v end.
(** [x in libraries]; l.16 *)
Definition member (x : list Z) (l : list (list Z)) : bool := existsb (same x) l.
(** l.9-17: [data] and [libraries] *)
Definition table : Type := list (list Z * list (list Z * Z)) * list (list Z).
(** l.11-17: one iteration *)
Definition record_one (st : option table) (b : list Z * Z) : option table :=
  match st with
  | None => None
  | Some (data, libraries) =>
      match split_name (fst b) with
      | None => None
      | Some (op, lib) =>
          let data := match dict_get data op with Some _ => data | None => dict_set data op [] end in        (* l.13-14 *)
          let data := match dict_get data op with Some vals => dict_set data op (dict_set vals lib (snd b)) | None => data end in  (* l.15 *)
          Some (data, if member lib libraries then libraries else libraries ++ [lib])                            (* l.16-17 *)
      end
  end.
(** [sep.join(l)]; e.g. l.19 *)
Fixpoint join (sep : list Z) (l : list (list Z)) : list Z :=
  match l with [] => [] | [x] => x | x :: t => x ++ sep ++ join sep t end.
(** l.19 *)
Definition header (libraries : list (list Z)) : list Z :=
  txt "| Operation | " ++ join (txt " | ") (map (fun lib => lib ++ txt " (ns)") libraries) ++ txt " |".
(** l.20 *)
Definition separator (libraries : list (list Z)) : list Z :=
  txt "|-----------|" ++ join (txt "|") (map (fun _ => txt "-----------:") libraries) ++ txt "|".
(** l.21-24; 8212 is the em dash *)
Definition row (py_str : Z -> list Z) (libraries : list (list Z)) (entry : list Z * list (list Z * Z)) : list Z :=
  txt "| " ++ fst entry ++ txt " | " ++
  join (txt " | ") (map (fun lib => match dict_get (snd entry) lib with Some v => py_str v | None => [8212] end) libraries) ++ txt " |".
(** l.5-26 *)
Definition make_summary (py_str : Z -> list Z) (benchmarks : list (list Z * Z)) : option (list Z) :=
  match fold_left record_one benchmarks (Some ([], [])) with
  | None => None
  | Some (data, libraries) => Some (join [10] (header libraries :: separator libraries :: map (row py_str libraries) data))
  end.
