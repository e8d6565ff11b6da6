(** * ScanSpec: what a server may answer to SCAN.

    Redis promises that a full SCAN returns every key that is there, in any order and possibly more than once.
    [cstep] (ConcSpec.v) answers with each key once, in order of insertion; [rstep] is any answer Redis may give. *)
From Verif Require Export ConcSpec.

Definition listing (l ks : list string) : Prop := forall k, In k l <-> In k ks.
Inductive rstep {A} : dict obj * cprog A -> dict obj * cprog A -> Prop :=
| as_before s s' : cstep s s' -> rstep s s'
| any_listing d pat f l : listing l (filter (glob pat) (dkeys d)) -> rstep (d, CScan pat f) (d, f l).
(** several processes *)
Inductive rsys_step {A} : dict obj * list (cprog A) -> dict obj * list (cprog A) -> Prop :=
| one_moves_any d d' ps n p p' : nth_error ps n = Some p -> rstep (d, p) (d', p') -> rsys_step (d, ps) (d', list_set ps n p').

(** the calls that do not hand on a list of keys *)
Definition no_listing (c : call) : Prop :=
  match c with
  | KGetAll _ | KNames | KCount _ | KDiff _ _ _ _ _ => False
  | KSync _ _ _ _ _ _ given => match given with Some d => diff_len d <> 0 | None => False end
  | _ => True
  end.
