(** * LossSpec: calls whose Redis commands can fail (C103). *)
From Verif Require Export LossDefs ConcSpec.

(** a call, its commands exposed to failure *)
Definition ffmap {A B} (f : A -> B) (m : FM A) : FM B := fbind m (fun x => fhere (ret (f x))).
Definition risked (a : aid) (c : call) : FM reply :=
  match c with
  | KAdd r => ffmap (fun _ => RUnit) (f_add a r)
  | KUpdate r => ffmap (fun _ => RUnit) (f_update a r)
  | KRemove fuel r b => ffmap (fun _ => RUnit) (f_remove fuel a r b)
  | KRemoveItem t u => ffmap (fun _ => RUnit) (f_remove_item a t u)
  | KGet m i => ffmap RRef (f_get a m i)
  | KGetOrNone m i => ffmap ROpt (f_get_or_none a m i)
  | KGetAll m => ffmap RRefs (f_get_all a m)
  | KByUids us m => ffmap RRefs (f_get_by_uids a us m)
  | KNames => ffmap RNames (f_get_all_model_names a)
  | KCount m => ffmap RNat (f_count a m)
  | KGetOrInstantiate c ids attrs => ffmap RNew (f_get_or_instantiate a c ids attrs)
  | KGetOrAdd r => ffmap RNew (f_get_or_add_model_instance a r)
  | KUpdateOrInstantiate c ids attrs => ffmap RNew (f_update_or_instantiate a c ids attrs)
  | KUpdateOrAdd r => ffmap RNew (f_update_or_add_model_instance a r)
  | KNew o => ffmap RRef (fhere (halloc o))
  | KAssign r o => ffmap (fun _ => RUnit) (fhere (hset r o))
  | KDiff fuel src dc flags cb => ffmap RDiff (f_diff_from fuel a src dc flags cb)
  | KSync fuel h src dc flags cb given => ffmap RDiff (f_sync_from fuel (unseeing h) a src dc flags cb given)
  end.

(** What becomes of a command: it is served, it never reaches the server, or it is carried out and the reply is lost;
    in the last two cases the client raises an exception. *)
Inductive cfate := Served | NotSent (x : exn) | NoReply (x : exn).
(** The exceptions of the client are none of diffsync's: not caught by its handlers *)
Definition foreign (x : exn) : Prop := is_not_found x = false /\ is_crud x = false.
Definition sane (net : nat -> cfate) : Prop := forall i, match net i with Served => True | NotSent x | NoReply x => foreign x end.
Definition served (net : nat -> cfate) (i n : nat) : Prop := forall j, i <= j < n -> net j = Served.

(** What the client returns *)
Definition replied {A} (f : cfate) (x : A) : result A := match f with Served => Ok x | NotSent e | NoReply e => Err e end.
(** What is on the server after a command that would change it from [d] to [d'] *)
Definition carried (f : cfate) (d d' : dict obj) : dict obj := match f with NotSent _ => d | _ => d' end.

(** A run: [net i] is what becomes of command number [i].  The number of commands issued, the server and the result. *)
Fixpoint risk {A} (net : nat -> cfate) (i : nat) (d : dict obj) (p : fprog A) : nat * dict obj * A :=
  match p with
  | FDone x => (i, d, x)
  | FGet k f => risk net (S i) d (f (replied (net i) (dget d k)))
  | FSet k o f => risk net (S i) (carried (net i) d (dset d k o)) (f (replied (net i) tt))
  | FExists k f => risk net (S i) d (f (replied (net i) (match dget d k with Some _ => true | None => false end)))
  | FDelete k f => risk net (S i) (carried (net i) d (ddel d k)) (f (replied (net i) tt))
  | FScan pat f => risk net (S i) d (f (replied (net i) (filter (glob pat) (dkeys d))))
  end.

(** [n] steps *)
Inductive times {T} (R : T -> T -> Prop) : nat -> T -> T -> Prop :=
| times_0 s : times R 0 s s
| times_S n s s' s'' : R s s' -> times R n s' s'' -> times R (S n) s s''.
