(** * IniWholeSpec: definite assignment of whole programs (syntax: [WholeSpec.v]).  Refers to no modelled function.

    A variable is named by its class, its width and a number. *)
From Verif Require Export IniProgSpec WholeSpec.
Open Scope Z_scope.

Inductive wvar := UV (n : Z) (i : nat) | SV (n : Z) (i : nat).
Definition wvar_eqb (a b : wvar) : bool :=
  match a, b with
  | UV n i, UV k j | SV n i, SV k j => (n =? k) && Nat.eqb i j
  | _, _ => false
  end.

(** The variables an instruction needs.  The outputs of the signed [divide] count as needed, because it may leave
    them as they are (C157). *)
Definition wreads (i : winstr) : list wvar :=
  match i with
  | WU n i => map (UV n) (ureads i)
  | WS n i => map (SV n) (sreads_strict i)
  | WCast n s _ _ | WSigned n s _ | WTrunc n s _ _ _ | WPrint n s | WSave _ n s => [UV n s]
  | WSCast n s _ _ | WUnsigned n s _ | WSTrunc n s _ _ _ | WSPrint n s => [SV n s]
  | WPowm n _ b k p m => [UV n b; UV k p; UV n m]
  | WRead _ _ | WSRead _ _ | WLoad _ _ _ | WBase _ | WText _ => []
  end.
(** Those it assigns as a whole. *)
Definition wwrites (i : winstr) : list wvar :=
  match i with
  | WU n i => map (UV n) (uwrites i)
  | WS n i => map (SV n) (swrites i)
  | WCast _ _ m d | WTrunc _ _ _ m d => [UV m d]
  | WSCast _ _ m d | WSTrunc _ _ _ m d => [SV m d]
  | WSigned n _ d | WSRead n d => [SV n d]
  | WUnsigned n _ d | WPowm n d _ _ _ _ | WRead n d | WLoad _ n d => [UV n d]
  | WBase _ | WPrint _ _ | WSPrint _ _ | WText _ | WSave _ _ _ => []
  end.
Definition wcreads (c : wcond) : list wvar :=
  match c with
  | WUc n c => map (UV n) (ucreads c)
  | WSc n c => map (SV n) (screads c)
  | WEq n a m b | WLt n a m b => [UV n a; UV m b]
  | WSEq n a m b | WSLt n a m b => [SV n a; SV m b]
  | WMore => []
  end.
Definition wwithin (a b : list wvar) : bool := forallb (fun x => existsb (wvar_eqb x) b) a.

(** The compiler's check: with the variables [V] assigned before [s], no instruction of [s] needs a variable that
    may be unassigned; the result lists variables assigned after [s] on every path. *)
Fixpoint wassigned (V : list wvar) (s : stmt winstr wcond) : option (list wvar) :=
  match s with
  | Skip => Some V
  | Do i => if wwithin (wreads i) V then Some (wwrites i ++ V) else None
  | Seq s t => match wassigned V s with Some W => wassigned W t | None => None end
  | If c s t =>
      if wwithin (wcreads c) V then
        match wassigned V s, wassigned V t with
        | Some A, Some B => Some (filter (fun x => existsb (wvar_eqb x) B) A)
        | _, _ => None
        end
      else None
  | While c s =>
      if wwithin (wcreads c) V then match wassigned V s with Some _ => Some V | None => None end else None
  end.
