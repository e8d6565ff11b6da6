(** * ForetellSpec: the calls of each kind among the events of a synchronisation.

    Vocabulary for C99. *)
From Verif Require Export CallSpec.

(** a call of create, update or delete *)
Definition is_call (a : action) (ev : event) : bool :=
  match ev with EvHook b _ _ _ => action_eqb a b | _ => false end.
Definition calls_of (a : action) (evs : list event) : nat := how_many (is_call a) evs.
(** what diff.summary() says about the action *)
Definition summary_of (a : action) (d : diff) : nat :=
  match a with
  | ACreate => n_create (diff_counts d)
  | AUpdate => n_update (diff_counts d)
  | ADelete => n_delete (diff_counts d)
  end.
