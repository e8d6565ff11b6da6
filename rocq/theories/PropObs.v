(** * PropObs: reporting does not influence the result (C62).

    [same_otherwise], [inattentive], [same_but_logging] are defined in ObsSpec.v. *)
From Verif Require Import ObsSpec ObsFacts SyncSample.

(** C62.  Whether a progress callback is given and whether LOG_UNCHANGED_RECORDS is set makes no difference: diffs
    and errors are the same, and so are afterwards all objects, stores, hook calls and log records but the
    debug ones. *)
Theorem C62_diff : forall fuel dst src dc flags flags' cb cb' w, same_but_logging flags flags' ->
  same_otherwise (fst (diff_from fuel dst src dc flags cb w)) (fst (diff_from fuel dst src dc flags' cb' w)) /\
  snd (diff_from fuel dst src dc flags' cb' w) = snd (diff_from fuel dst src dc flags cb w).
Proof. exact (fun fuel dst src dc f f' cb cb' w F => par_diff notable (fun _ _ _ => eq_refl) fuel dst src dc f f' cb cb' F w w (so_refl notable w)). Qed.
Print Assumptions C62_diff.

Theorem C62_sync : forall fuel h dst src dc flags flags' cb cb' given w, inattentive h -> same_but_logging flags flags' ->
  same_otherwise (fst (sync_from fuel h dst src dc flags cb given w)) (fst (sync_from fuel h dst src dc flags' cb' given w)) /\
  snd (sync_from fuel h dst src dc flags' cb' given w) = snd (sync_from fuel h dst src dc flags cb given w).
Proof. exact (fun fuel h dst src dc f f' cb cb' given w I F => par_sync notable (fun _ _ _ => eq_refl) (fun _ _ _ => eq_refl) fuel h dst src dc f f' cb cb' given I F w w (so_refl notable w)). Qed.
Print Assumptions C62_sync.

(** hooks that fail for objects on the heap, and succeed in creating *)
Definition odd_hooks : hooks := fun w c =>
  match c with
  | HUpdate r _ => match nth_error (w_heap w) r with Some o => mkOut false (Some (StFailure, "no")) [("note", VStr "no")] HReturnNone | None => default_outcome end
  | HDelete r => if Nat.even (length (w_heap w)) then mkOut false None [] (HRaise ObjectNotDeleted) else default_outcome
  | _ => default_outcome
  end.
Example C62_example : inattentive odd_hooks /\ same_but_logging 1 9 /\
  let w1 := fst (sync_from 20 odd_hooks 1 0 base_class 1 false None w0) in
  let w2 := fst (sync_from 20 odd_hooks 1 0 base_class 9 true None w0) in
  length (w_trace w1) = 13 /\ length (w_trace w2) = 28 /\ length (w_heap w1) = 15 /\
  (exists d, snd (sync_from 20 odd_hooks 1 0 base_class 9 true None w0) = Ok d).
Proof.
  split; [|split].
  - intros w w' c (E & _). unfold odd_hooks. now rewrite E.
  - intros i N. destruct i as [|[[[i|i|]|[i|i|]|]|[[i|i|]|[i|i|]|]|]]; try reflexivity; congruence.
  - cbv zeta. split; [vm_compute; reflexivity|]. split; [vm_compute; reflexivity|]. split; [vm_compute; reflexivity|]. eexists. vm_compute. reflexivity.
Qed.
