(** * IndepSpec: what can be done to adapters, one adapter at a time, and adapters that share nothing (C102). *)
From Verif Require Export SyncSpec.

(** One thing done to an adapter, [who]; however it ends, the program goes on:
    an object that the program has just made is added or passed to [update]; the object under a name is
    fetched and replaced by any other data; it is fetched and removed, with its children or without; the
    adapter is synchronised from another one, with any hooks and with or without a given diff; it is
    compared with another one. *)
Inductive deed :=
| DoAdd (a : aid) (o : obj)
| DoUpdate (a : aid) (o : obj)
| DoEdit (a : aid) (t u : string) (o : obj)
| DoRemove (fuel : nat) (a : aid) (t u : string) (children : bool)
| DoDiff (fuel : nat) (dst src : aid) (dc : diffclass) (flags : N) (cb : bool)
| DoSync (fuel : nat) (h : hooks) (dst src : aid) (dc : diffclass) (flags : N) (cb : bool) (given : option diff).
Definition who (x : deed) : aid :=
  match x with
  | DoAdd a _ | DoUpdate a _ | DoEdit a _ _ _ | DoRemove _ a _ _ _ | DoDiff _ a _ _ _ _ | DoSync _ _ a _ _ _ _ _ => a
  end.
Definition do_one (x : deed) (w : world) : world :=
  match x with
  | DoAdd a o => fst ((r <- halloc o ;; st_add a r) w)
  | DoUpdate a o => fst ((r <- halloc o ;; st_update a r) w)
  | DoEdit a t u o => fst ((r <- st_get a (MName t) (IdStr u) ;; hset r o) w)
  | DoRemove fuel a t u b => fst ((r <- st_get a (MName t) (IdStr u) ;; st_remove fuel a r b) w)
  | DoDiff fuel dst src dc flags cb => fst (diff_from fuel dst src dc flags cb w)
  | DoSync fuel h dst src dc flags cb given => fst (sync_from fuel h dst src dc flags cb given w)
  end.
Fixpoint do_deeds (l : list deed) (w : world) : world :=
  match l with [] => w | x :: l' => do_deeds l' (do_one x w) end.

(** no two adapters share an object or can share a Redis key *)
Definition strangers (w : world) : Prop := forall a b, a <> b -> share_nothing w a b.
