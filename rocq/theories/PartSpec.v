(** * PartSpec: a diff that is applied in parts. *)
From Verif Require Export ObsSpec.

(** the elements at the top of a diff, in the order in which they are applied *)
Definition in_turn (d : diff) : list elem := ordered (dc_order (d_class d)) (fun e => e) (d_groups d).
(** one [sync_from] after the other, each with a diff; an exception ends the sequence *)
Fixpoint sync_parts (fuel : nat) (h : hooks) (dst src : aid) (dc : diffclass) (flags : N) (cb : bool) (ds : list diff) (w : world) : world * result unit :=
  match ds with
  | [] => (w, Ok tt)
  | d :: ds' => match sync_from fuel h dst src dc flags cb (Some d) w with
                | (w1, Ok _) => sync_parts fuel h dst src dc flags cb ds' w1
                | (w1, Err x) => (w1, Err x)
                end
  end.
(** everything but progress callbacks, debug records and the calls of [sync_complete] *)
Definition said (ev : event) : bool := match ev with EvSyncComplete _ _ => false | _ => notable ev end.
(** how many times [sync_complete] was called *)
Definition completions (l : list event) : nat := length (filter (fun ev => match ev with EvSyncComplete _ _ => true | _ => false end) l).
