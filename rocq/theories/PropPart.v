(** * PropPart: a diff that is applied in parts (C101).

    [in_turn], [sync_parts] and [said] are defined in PartSpec.v, [same_save] (differing in other events only) and [deaf] (taking no notice of those) in ObsSpec.v. *)
From Verif Require Import PartFacts CallSpec ConvSample.

(** C101.  A diff that is split into parts, none of them empty, which are applied one after the other: the world, the hook calls,
    the log records and the exception are those of the whole.  The progress that is reported differs, and
    [sync_complete] is called for each part. *)
Theorem C101_parts : forall fuel h dst src dc flags flags' cb cb' ds d w,
  deaf said h -> same_but_logging flags flags' -> isinstance d dc = true ->
  (forall d', In d' ds -> d_class d' = d_class d /\ diff_len d' <> 0) -> in_turn d = concat (map in_turn ds) -> diff_len d <> 0 ->
  let t := sync_parts fuel h dst src dc flags cb ds w in let r := sync_from fuel h dst src dc flags' cb' (Some d) w in
  same_save said (fst t) (fst r) /\ snd r = match snd t with Ok _ => Ok d | Err x => Err x end.
Proof.
  intros fuel h dst src dc flags flags' cb cb' ds d w UN SL IS D T NZ.
  exact (parts_whole said (fun _ _ _ => eq_refl) (fun _ _ _ => eq_refl) fuel h dst src dc flags flags' cb cb' (d_class d) (diff_len d) UN (fun _ _ => eq_refl) SL ds d w D IS NZ eq_refl eq_refl T).
Qed.
Print Assumptions C101_parts.

(** the site nyc with what is below it, and the other sites *)
Definition groups_if (f : string -> bool) (gs : dict (dict elem)) : dict (dict elem) := map (fun g => (fst g, filter (fun kv => f (fst kv)) (snd g))) gs.
Definition d_nyc : diff := mkDiff base_class (groups_if (String.eqb "nyc") (d_groups d0)) 0.
Definition d_others : diff := mkDiff base_class (groups_if (fun n => negb (String.eqb "nyc" n)) (d_groups d0)) 0.
(** hooks that fail for the site lon *)
Definition lon_hooks : hooks := fun w hc =>
  match hc with
  | HDelete r => match nth_error (w_heap w) r with
                 | Some o => match get_unique_id o with Ok "lon" => mkOut false None [] (HRaise ObjectNotDeleted) | _ => default_outcome end
                 | None => default_outcome
                 end
  | _ => default_outcome
  end.
Example C101_example : let two h := sync_parts 20 h 1 0 base_class 0 false [d_nyc; d_others] w0 in let one h := sync_from 20 h 1 0 base_class 0 false (Some d0) w0 in
  deaf said lon_hooks /\ in_turn d0 = concat (map in_turn [d_nyc; d_others]) /\ diff_len d_nyc = 8 /\ diff_len d_others = 2 /\
  snd (two default_hooks) = Ok tt /\ snd (two lon_hooks) = Err ObjectNotDeleted /\ snd (one lon_hooks) = Err ObjectNotDeleted /\
  length (hook_calls (new_events w0 (fst (two lon_hooks)))) = 9 /\
  completions (new_events w0 (fst (two default_hooks))) = 2 /\ completions (new_events w0 (fst (one default_hooks))) = 1.
Proof.
  cbv zeta. split; [|vm_compute; repeat split]. intros w w' hc (H & _). unfold lon_hooks. now rewrite H.
Qed.
Print Assumptions C101_example.
(** Not so if a part is empty: an empty diff counts as none, so the differences are calculated again and all of them applied. *)
Definition d_sfo : diff := mkDiff base_class (groups_if (String.eqb "sfo") (d_groups d0)) 0.
Definition d_none : diff := mkDiff base_class [] 0.
Theorem C101_empty_refuted : ~ (forall fuel h dst src dc flags cb ds d w,
  deaf said h -> isinstance d dc = true -> ds <> [] -> (forall d', In d' ds -> d_class d' = d_class d) -> in_turn d = concat (map in_turn ds) -> diff_len d <> 0 ->
  same_save said (fst (sync_parts fuel h dst src dc flags cb ds w)) (fst (sync_from fuel h dst src dc flags cb (Some d) w))).
Proof.
  intros H. specialize (H 20 default_hooks 1 0 base_class 0%N false [d_sfo; d_none] d_sfo w0).
  assert (X : same_save said (fst (sync_parts 20 default_hooks 1 0 base_class 0 false [d_sfo; d_none] w0)) (fst (sync_from 20 default_hooks 1 0 base_class 0 false (Some d_sfo) w0))).
  { apply H; [intros w w' hc _; reflexivity|reflexivity|discriminate|intros d' [<-|[<-|[]]]; reflexivity|vm_compute; reflexivity|vm_compute; discriminate]. }
  destruct X as (X & _). apply (f_equal (@length obj)) in X. vm_compute in X. discriminate X.
Qed.
Print Assumptions C101_empty_refuted.
