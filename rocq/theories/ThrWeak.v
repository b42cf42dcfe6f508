(** * ThrWeak: threads on a machine that promises nothing about racing accesses.

    No code of the repository: another scheduler for the trees of [ThrModel.v] and [SThrModel.v].  There, all loads and
    stores form one sequence.  Here every thread has a picture of the shared objects of its own, the objects as they were
    when the threads started and its own stores, and need not see the stores of others, at once or ever; a load of an
    object into which another thread stores at any time, before or after, returns any number at all, even one that only
    comes about because of that load.  Processors with store buffers or caches of any kind, and compilers that reorder
    accesses to memory no other thread may be using, stay within this.  When the threads
    have been joined, each block that only one thread has stored into holds what that thread stored; what a block holds that
    two threads have stored into is left open between them. *)
From Verif Require Export ThrModel.
Open Scope Z_scope.

(** no code: for each thread its picture of the objects and how far it has got; who has stored into which object *)
Definition weak_world := (list ((nat -> list Z) * thread) * list (nat * nat))%type.
(** no code: in the list [log] of stores, one of somebody other than [t] into [x] *)
Definition foreign (log : list (nat * nat)) (t x : nat) : bool := existsb (fun '(u, y) => negb (u =? t)%nat && (y =? x)%nat) log.
(** no code: thread [t] makes its next access; [choice]: the number a racing load returns; [stores]: all stores of the execution *)
Definition weak_step (stores : list (nat * nat)) (w : weak_world) (move : nat * option Z) : weak_world :=
  let '(t, choice) := move in
  match nth_error (fst w) t with
  | None => w
  | Some (mine, th) =>
      let normal := replace (fst w) t (thread_step mine th) in
      match th_act th, choice with
      | Get (Var x) _ k, Some v =>
          if foreign stores t x then (replace (fst w) t (mine, mk_thread (k v) (th_tmp th)), snd w) else (normal, snd w)
      | Put (Var x) _ _ _, _ => (normal, (t, x) :: snd w)
      | _, _ => (normal, snd w)
      end
  end.
(** no code *)
Definition weak_run (stores : list (nat * nat)) (w : weak_world) (moves : list (nat * option Z)) : weak_world :=
  fold_left (weak_step stores) moves w.
(** no code: the same threads at the start *)
Definition weakly (w : world) : weak_world := (map (fun th => (fst w, th)) (snd w), []).
(** no code: from the world [w0] the moves [moves] may lead to [w]; the stores that loads race with are those of the execution itself *)
Definition weak_execution (w0 : world) (moves : list (nat * option Z)) (w : weak_world) : Prop :=
  w = weak_run (snd w) (weakly w0) moves.
(** no code: a possible content of the objects after all threads have been joined *)
Definition weak_final (shared : nat -> list Z) (w : weak_world) (final : nat -> list Z) : Prop :=
  forall x, len (final x) = len (shared x) /\ forall i, 0 <= i < len (shared x) ->
    (exists t mine th, nth_error (fst w) t = Some (mine, th) /\ In (t, x) (snd w) /\ znth (final x) i = znth (mine x) i) \/
    ((forall t, ~ In (t, x) (snd w)) /\ znth (final x) i = znth (shared x) i).
