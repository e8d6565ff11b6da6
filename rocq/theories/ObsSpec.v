(** * ObsSpec: what is only reported.

    Vocabulary for C62 and C101. *)
From Verif Require Export SyncSpec.

(** everything but calls of the progress callback and debug records *)
Definition notable (ev : event) : bool :=
  match ev with
  | EvCallback _ _ _ => false
  | EvLog LDebug _ _ _ => false
  | _ => true
  end.
(** two worlds that differ at most in events other than these *)
Definition same_save (keep : event -> bool) (w w' : world) : Prop :=
  w_heap w' = w_heap w /\ w_ads w' = w_ads w /\ w_redis w' = w_redis w /\
  filter keep (w_trace w') = filter keep (w_trace w).
Definition same_otherwise : world -> world -> Prop := same_save notable.
(** hooks that take no notice of the others *)
Definition deaf (keep : event -> bool) (h : hooks) : Prop := forall w w' c, same_save keep w w' -> h w' c = h w c.
Definition inattentive : hooks -> Prop := deaf notable.
(** flags that differ at most in LOG_UNCHANGED_RECORDS (bit 3, enum.py:82) *)
Definition same_but_logging (f f' : N) : Prop := forall i, i <> 3%N -> N.testbit f' i = N.testbit f i.
