(** * PropForetell: the summary of a diff and the synchronisation that applies it (C99).

    [calls_of] and [summary_of] are defined in ForetellSpec.v, [uses] in SyncSpec.v. *)
From Verif Require Import ForetellFacts PropRun ConvSample PropFail.

(** C99.  Whatever the hooks do and however the synchronisation ends, create, update and delete are
    called at most as often as the summary of the diff says. *)
Theorem C99_at_most : forall fuel h dst src dc flags cb given w d a,
  (forall d0, given = Some d0 -> deletes_whole (d_groups d0)) -> uses fuel dst src dc flags cb given w d ->
  calls_of a (new_events w (fst (sync_from fuel h dst src dc flags cb given w))) <= summary_of a d.
Proof. exact from_at_most. Qed.
Print Assumptions C99_at_most.
(** Exactly as often, if the hooks succeed and no deleted object is marked SKIP_CHILDREN_ON_DELETE. *)
Theorem C99_exactly : forall fuel h dst src dc flags cb given w w' d a,
  (forall d0, given = Some d0 -> deletes_whole (d_groups d0)) ->
  hooks_succeed h -> N.testbit flags 0 = false -> proper_dst w dst -> well_posed w dst (d_groups d) ->
  (forall e o, occurs e (d_groups d) -> e_action e = Some ADelete -> dst_obj w dst e o -> ~ skips_children (o_flags o)) ->
  sync_from fuel h dst src dc flags cb given w = (w', Ok d) ->
  calls_of a (new_events w w') = summary_of a d.
Proof.
  intros fuel h dst src dc flags cb given w w' d a HG HS H0 HP HC NS E.
  pose proof (from_success fuel h dst src dc flags cb given w HG w' d HS H0 HP HC E) as K.
  apply (calls_all_due _ a w dst (d_groups d) NS) in K. rewrite calls_of_hooks in K. rewrite K. symmetry. now apply due_diff.
Qed.
Print Assumptions C99_exactly.
(** The number of objects in the destination grows by what the summary says is created, less what it says
    is deleted. *)
Theorem C99_len : forall fuel h dst src dcd dc flags fl cbd cb given w d sa da,
  alike w fuel src dst sa da -> hooks_succeed h -> snd (diff_from fuel dst src dcd flags cbd w) = Ok d -> yields_once (dc_order (d_class d)) ->
  uses fuel dst src dc fl cb given w d ->
  (forall e o, occurs e (d_groups d) -> e_action e = Some ADelete -> dst_obj w dst e o -> ~ skips_children (o_flags o)) ->
  count_all (fst (sync_from fuel h dst src dc fl cb given w)) dst + summary_of ADelete d = count_all w dst + summary_of ACreate d.
Proof. intros. eapply len_after; eauto. Qed.
Print Assumptions C99_len.

Definition acts : list action := [ACreate; AUpdate; ADelete].
Definition end99 (h : hooks) (w : world) : world := fst (sync_from 20 h 1 0 base_class 0 false None w).
(** hooks that fail to create a device *)
Definition stuck_hooks : hooks := fun _ hc =>
  match hc with HCreate c _ _ => if String.eqb (c_modelname c) "device" then mkOut false None [] (HRaise ObjectNotCreated) else default_outcome | _ => default_outcome end.
Example C99_example :
  alike w0 20 0 1 sa0 da0 /\ hooks_succeed default_hooks /\ proper_dst w0 1 /\ well_posed w0 1 (d_groups d0) /\ yields_once (dc_order (d_class d0)) /\
  snd (diff_from 20 1 0 base_class 0 false w0) = Ok d0 /\ uses 20 1 0 base_class 0 false None w0 d0 /\
  (forall e o, occurs e (d_groups d0) -> e_action e = Some ADelete -> dst_obj w0 1 e o -> ~ skips_children (o_flags o)) /\
  snd (sync_from 20 default_hooks 1 0 base_class 0 false None w0) = Ok d0 /\
  map (fun a => summary_of a d0) acts = [3; 2; 4] /\
  map (fun a => calls_of a (new_events w0 (end99 default_hooks w0))) acts = [3; 2; 4] /\
  count_all w0 1 = 7 /\ count_all (end99 default_hooks w0) 1 = 6 /\
  (* a hook that raises ends the synchronisation *)
  snd (sync_from 20 stuck_hooks 1 0 base_class 0 false None w0) = Err ObjectNotCreated /\
  map (fun a => calls_of a (new_events w0 (end99 stuck_hooks w0))) acts = [2; 2; 1].
Proof.
  split; [exact w0_alike|]. split; [exact default_succeed|]. split; [exact w0_proper|]. split; [exact d0_posed|]. split; [exact order_default_once|].
  split; [vm_compute; reflexivity|]. split; [right; split; [left; reflexivity|vm_compute; reflexivity]|]. split.
  { intros e o O A D. assert (P : plain_deletesb w0 1 (d_groups d0) [1%N; 4%N] = true) by (vm_compute; reflexivity).
    apply (plain_deletesb_ok _ _ _ _ P e o O A D); simpl; auto. }
  repeat (split; [vm_compute; reflexivity|]). vm_compute; reflexivity.
Qed.

(** An object marked SKIP_CHILDREN_ON_DELETE: delete is called less often than the summary says, though hooks succeed. *)
Definition w99s : world :=
  mkWorld [mk_site "lon" "uk" ["r9"] 2 1; mk_device "r9" "core" [] 0 1] [mk_ad "src" (SLocal []); mk_ad "dst" (SLocal [("site", [("lon", 0)]); ("device", [("r9", 1)])])] [] [].
Theorem C99_skip_refuted : exists w w' d, hooks_succeed default_hooks /\ proper_dst w 1 /\ well_posed w 1 (d_groups d) /\
  sync_from 20 default_hooks 1 0 base_class 0 false None w = (w', Ok d) /\ calls_of ADelete (new_events w w') < summary_of ADelete d.
Proof.
  exists w99s, (end99 default_hooks w99s), (d_of w99s). split; [exact default_succeed|]. split; [apply properb_ok; reflexivity|].
  split; [apply well_posedb_ok; vm_compute; reflexivity|]. split; [vm_compute; reflexivity|]. apply Nat.ltb_lt. vm_compute. reflexivity.
Qed.
Print Assumptions C99_skip_refuted.
(** If a child of such an object is marked IGNORE, it is not in the summary and removed all the same. *)
Definition w99 : world := mkWorld (list_set (w_heap (w_flag 2)) 11 (mk_intf "r3" "eth9" 1500 1 1)) (w_ads w0) [] [].
Theorem C99_ignore_refuted : exists w d, alike w 20 0 1 sa0 da0 /\ hooks_succeed default_hooks /\ snd (diff_from 20 1 0 base_class 0 false w) = Ok d /\
  snd (sync_from 20 default_hooks 1 0 base_class 0 false None w) = Ok d /\
  count_all (fst (sync_from 20 default_hooks 1 0 base_class 0 false None w)) 1 + summary_of ADelete d < count_all w 1 + summary_of ACreate d.
Proof.
  exists w99, (d_of w99). split; [apply (alikeb_ok _ _ _ _ _ _ rank); vm_compute; reflexivity|]. split; [exact default_succeed|].
  split; [vm_compute; reflexivity|]. split; [vm_compute; reflexivity|]. apply Nat.ltb_lt. vm_compute. reflexivity.
Qed.
Print Assumptions C99_ignore_refuted.
