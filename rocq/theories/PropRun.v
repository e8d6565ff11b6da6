(** * PropRun: the calls, callbacks, records and failures of a synchronisation (C36-C39, C41, C42, C46, C47).

    [calls_all], [about], [told], [is_reached], [well_posed], [raises_at], ... are defined in CallSpec.v. *)
From Verif Require Import RunSample.

(** C36.  When all hooks succeed, the calls are exactly those the diff asks for, in its order.
    ([calls_all] prescribes one call per element with an action, before those of its
    children, but after them for an object deleted in natural order, and none below an object
    deleted with its children.) *)
Theorem C36_calls : forall fuel h dst src dc flags cb given w w' d,
  (forall d0, given = Some d0 -> deletes_whole (d_groups d0)) ->
  hooks_succeed h -> N.testbit flags 0 = false -> proper_dst w dst -> well_posed w dst (d_groups d) ->
  sync_from fuel h dst src dc flags cb given w = (w', Ok d) ->
  calls_all w dst (dc_order (d_class d)) (fun _ => True) (fun _ => False) False
    (ordered (dc_order (d_class d)) (fun e => e) (d_groups d)) (hook_calls (new_events w w')).
Proof. intros fuel h dst src dc flags cb given w w' d HG. exact (from_success fuel h dst src dc flags cb given w HG w' d). Qed.
Print Assumptions C36_calls.
(** Without those flags on deleted objects: one call per element with an action, parents first. *)
Theorem C36_one_each : forall fuel h dst src dc flags cb given w w' d,
  (forall d0, given = Some d0 -> deletes_whole (d_groups d0)) ->
  hooks_succeed h -> N.testbit flags 0 = false -> proper_dst w dst -> well_posed w dst (d_groups d) ->
  (forall e o, occurs e (d_groups d) -> e_action e = Some ADelete -> dst_obj w dst e o -> ~ naturally o /\ ~ skips_children (o_flags o)) ->
  sync_from fuel h dst src dc flags cb given w = (w', Ok d) ->
  Forall2 (about w dst) (filter acted (diff_walk d)) (hook_calls (new_events w w')).
Proof. intros fuel h dst src dc flags cb given w w' d HG. exact (from_flat fuel h dst src dc flags cb given w HG w' d). Qed.
Print Assumptions C36_one_each.
(** Every diff that diff_from computes deletes whole subtrees. *)
Theorem C36_computed : forall fuel dst src dc flags cb w d, snd (diff_from fuel dst src dc flags cb w) = Ok d -> deletes_whole (d_groups d).
Proof. intros. eapply computed_whole; eauto. Qed.
Print Assumptions C36_computed.

Example C36_example : hooks_succeed default_hooks /\ proper_dst w0 1 /\ well_posed w0 1 (d_groups d0) /\
  (forall e o, occurs e (d_groups d0) -> e_action e = Some ADelete -> dst_obj w0 1 e o -> ~ naturally o /\ ~ skips_children (o_flags o)) /\
  snd (sync_from 20 default_hooks 1 0 base_class 0 false None w0) = Ok d0 /\
  length (hook_calls (new_events w0 (fst (sync_from 20 default_hooks 1 0 base_class 0 false None w0)))) = 9 /\
  map e_name (filter acted (diff_walk d0)) = ["r1"; "eth0"; "eth1"; "lo"; "r2"; "r3"; "eth9"; "sfo"; "lon"].
Proof.
  split; [exact default_succeed|]. split; [exact w0_proper|]. split; [exact d0_posed|]. split.
  { intros e o O A D. assert (P : plain_deletesb w0 1 (d_groups d0) [1%N; 4%N] = true) by (vm_compute; reflexivity).
    split; apply (plain_deletesb_ok _ _ _ _ P e o O A D); simpl; auto. }
  split; [vm_compute; reflexivity|]. split; vm_compute; reflexivity.
Qed.

(** C37.  The call for a deleted object comes after those of its children if it is marked
    NATURAL_DELETION_ORDER (bit 4), before them otherwise; marked SKIP_CHILDREN_ON_DELETE (bit 1)
    there is none for its children. *)
Theorem C37_order : forall fuel h dst src dc flags cb given w w' d e o,
  (forall d0, given = Some d0 -> deletes_whole (d_groups d0)) ->
  hooks_succeed h -> N.testbit flags 0 = false -> proper_dst w dst -> well_posed w dst (d_groups d) ->
  sync_from fuel h dst src dc flags cb given w = (w', Ok d) ->
  is_reached w dst (dc_order (d_class d)) (d_groups d) e -> e_action e = Some ADelete -> dst_obj w dst e o ->
  exists l1 call below l2, about w dst e call /\
    (if N.testbit (o_flags o) 1 then below = [] else
     calls_all w dst (dc_order (d_class d)) (fun _ => True) (fun _ => False) False (kids_in_order (dc_order (d_class d)) e) below) /\
    hook_calls (new_events w w') =
      if N.testbit (o_flags o) 4 then l1 ++ (below ++ [call]) ++ l2 else l1 ++ (call :: below) ++ l2.
Proof. intros fuel h dst src dc flags cb given w w' d e o HG. exact (from_order fuel h dst src dc flags cb given w HG w' d e o). Qed.
Print Assumptions C37_order.

(** the destination's r3 with other flags *)
Definition w_flag (fl : N) : world := mkWorld (list_set heap0 8 (mk_device "r3" "core" ["r3__eth9"] fl 1)) (w_ads w0) [] [].
Definition deleted_names (evs : list event) : list string :=
  flat_map (fun ev => match ev with EvHook ADelete _ ids _ => match dget ids "name" with Some (VStr n) => [n] | _ => [] end | _ => [] end) evs.
Definition d_of (w : world) : diff := match snd (diff_from 20 1 0 base_class 0 false w) with Ok d => d | Err _ => empty_diff base_class end.
Example C37_example :
  (forall fl, fl = 0%N \/ fl = 16%N -> proper_dst (w_flag fl) 1 /\ well_posed (w_flag fl) 1 (d_groups (d_of (w_flag fl)))) /\
  (forall fl l, In (fl, l) [(0%N, ["lo"; "r3"; "eth9"; "lon"]); (16%N, ["lo"; "eth9"; "r3"; "lon"]); (2%N, ["lo"; "r3"; "lon"]); (18%N, ["lo"; "r3"; "lon"])] ->
    snd (sync_from 20 default_hooks 1 0 base_class 0 false None (w_flag fl)) = Ok (d_of (w_flag fl)) /\
    deleted_names (new_events (w_flag fl) (fst (sync_from 20 default_hooks 1 0 base_class 0 false None (w_flag fl)))) = l).
Proof.
  split.
  - intros fl [E|E]; subst fl; (split; [apply properb_ok; reflexivity|apply well_posedb_ok; vm_compute; reflexivity]).
  - intros fl l [E|[E|[E|[E|[]]]]]; injection E as <- <-; split; vm_compute; reflexivity.
Qed.

(** C38.  With CONTINUE_ON_FAILURE no exception of a CRUD class escapes, whatever the diff, stores and hooks ... *)
Theorem C38_contained : forall fuel h dst src dc flags cb given w x,
  N.testbit flags 0 = true -> snd (sync_from fuel h dst src dc flags cb given w) = Err x -> ~ crud_exception x.
Proof. exact from_contained_list. Qed.
Print Assumptions C38_contained.
(** ... and every call asked for is made, except below calls that fail. *)
Theorem C38_skips_below : forall fuel h dst src dc flags cb given w w' d,
  (forall d0, given = Some d0 -> deletes_whole (d_groups d0)) ->
  proper_dst w dst -> well_posed w dst (d_groups d) ->
  sync_from fuel h dst src dc flags cb given w = (w', Ok d) ->
  calls_all w dst (dc_order (d_class d)) (fun ev => may_end h ev CModel) (tolerated h flags) (N.testbit flags 0 = true)
    (ordered (dc_order (d_class d)) (fun e => e) (d_groups d)) (hook_calls (new_events w w')).
Proof.
  intros fuel h dst src dc flags cb given w w' d HG HP HC E.
  exact (from_calls fuel h dst src dc flags cb given w d (from_ok fuel h dst src dc flags cb given w w' d E) HG HP HC w' d E).
Qed.
Print Assumptions C38_skips_below.
(** hooks that fail for the device r1 *)
Definition no_r1 : hooks := fun w c =>
  match c with
  | HUpdate r _ => match nth_error (w_heap w) r with
                   | Some o => match dget (o_vals o) "name" with Some (VStr n) => if String.eqb n "r1" then mkOut true None [("note", VStr "tried")] (HRaise ObjectNotUpdated) else default_outcome
                                                                | _ => default_outcome end
                   | None => default_outcome end
  | _ => default_outcome
  end.
Definition called_names (evs : list event) : list string :=
  flat_map (fun ev => match ev with EvHook _ _ ids _ => match dget ids "name" with Some (VStr n) => [n] | _ => [] end | _ => [] end) evs.
Example C38_example : N.testbit 1 0 = true /\ proper_dst w0 1 /\ well_posed w0 1 (d_groups d0) /\
  snd (sync_from 20 no_r1 1 0 base_class 1 false None w0) = Ok d0 /\
  called_names (new_events w0 (fst (sync_from 20 no_r1 1 0 base_class 1 false None w0))) = ["r1"; "r2"; "r3"; "eth9"; "sfo"; "lon"] /\
  snd (sync_from 20 no_r1 1 0 base_class 0 false None w0) = Err ObjectNotUpdated.
Proof.
  split; [reflexivity|]. split; [exact w0_proper|]. split; [exact d0_posed|]. split; [vm_compute; reflexivity|]. split; vm_compute; reflexivity.
Qed.

(** C39.  Otherwise the first exception ends the synchronisation: if call number n raises x, then a run
    that gets that far makes no further call and ends with x; likewise with CONTINUE_ON_FAILURE if x is not
    a CRUD exception. *)
Theorem C39_first_failure : forall fuel h dst src dc flags cb given w n x,
  raises_at h w n x -> N.testbit flags 0 = false \/ ~ crud_exception x ->
  let (w', r) := sync_from fuel h dst src dc flags cb given w in
  made w' <= made w + n \/ (made w' = S (made w + n) /\ r = Err x).
Proof. exact from_stops_list. Qed.
Print Assumptions C39_first_failure.
(** A failing synchronisation does not call sync_complete. *)
Theorem C39_not_complete : forall fuel h dst src dc flags cb given w,
  let (w', r) := sync_from fuel h dst src dc flags cb given w in
  exists evs, match r with
  | Ok d => exists b, w_trace w' = w_trace w ++ evs ++ closing src dst b
  | Err _ => w_trace w' = w_trace w ++ evs
  end /\ Forall (fun ev => completeb ev = false) evs.
Proof. exact from_no_complete. Qed.
Print Assumptions C39_not_complete.
(** hooks whose third call fails *)
Definition third (x : exn) : hooks := fun w _ => if Nat.eqb (made w) 2 then mkOut false None [] (HRaise x) else default_outcome.
Example C39_example :
  (forall x, raises_at (third x) w0 2 x) /\ crud_exception ObjectNotCreated /\ ~ crud_exception ExnValueError /\
  (let (w', r) := sync_from 20 (third ObjectNotCreated) 1 0 base_class 0 false None w0 in made w' = 3 /\ r = Err ObjectNotCreated) /\
  (let (w', r) := sync_from 20 (third ExnValueError) 1 0 base_class 1 false None w0 in made w' = 3 /\ r = Err ExnValueError) /\
  (let (w', r) := sync_from 20 (third ObjectNotCreated) 1 0 base_class 1 false None w0 in made w' = 9 /\ r = Ok d0).
Proof.
  split. { intros x w1 hc E. unfold third. rewrite E. split; reflexivity. }
  split; [unfold crud_exception; cbn; auto|]. split; [unfold crud_exception; cbn; intuition discriminate|]. split; [vm_compute; auto|]. split; vm_compute; auto.
Qed.

(** C41.  A second synchronisation need not repair a first one that failed: deleting nyc succeeds, deleting its
    child r1 fails, and then r1 is stored but nobody's child, so creating it below sfo fails for good. *)
Definition rev_class : diffclass := mkDiffClass "Diff" ["Diff"] order_reverse.
Definition w_orphan : world :=
  mkWorld [mk_site "sfo" "west" ["r1"] 0 0; mk_device "r1" "edge" [] 0 0; mk_site "nyc" "east" ["r1"] 0 1; mk_device "r1" "edge" [] 0 1]
          [mk_ad "src" (SLocal [("site", [("sfo", 0)]); ("device", [("r1", 1)])]);
           mk_ad "dst" (SLocal [("site", [("nyc", 2)]); ("device", [("r1", 3)])])] [] [].
Definition second (x : exn) : hooks := fun w _ => if Nat.eqb (made w) 1 then mkOut false None [] (HRaise x) else default_outcome.
Theorem C41_retry_refuted : exists w h, w_ok w /\ proper_dst w 1 /\ share_nothing w 0 1 /\
  (* undisturbed, one synchronisation is enough *)
  (let w1 := fst (sync_from 20 default_hooks 1 0 rev_class 0 false None w) in
   exists d, snd (diff_from 20 1 0 rev_class 0 false w1) = Ok d /\ diff_has_diffs d = false) /\
  (* after one that failed, another with hooks that succeed fails *)
  (let w1 := fst (sync_from 20 h 1 0 rev_class 0 false None w) in
   snd (sync_from 20 h 1 0 rev_class 0 false None w) = Err ObjectNotDeleted /\
   snd (sync_from 20 default_hooks 1 0 rev_class 0 false None w1) = Err ObjectNotCreated) /\
  (* and so after one that went on after the failure *)
  (let w1 := fst (sync_from 20 h 1 0 rev_class 1 false None w) in
   exists d, snd (sync_from 20 h 1 0 rev_class 1 false None w) = Ok d /\
   snd (sync_from 20 default_hooks 1 0 rev_class 0 false None w1) = Err ObjectNotCreated).
Proof.
  exists w_orphan, (second ObjectNotDeleted). split; [apply w_okb_ok; reflexivity|]. split; [apply properb_ok; reflexivity|]. split; [apply shareb_ok; reflexivity|].
  split; [eexists; split; vm_compute; reflexivity|]. split; [split; vm_compute; reflexivity|]. eexists. split; vm_compute; reflexivity.
Qed.
Print Assumptions C41_retry_refuted.

(** C42.  A synchronisation that returns calls sync_complete once, at the end, if something was attempted, and
    otherwise not at all. *)
Theorem C42_complete : forall fuel h dst src dc flags cb given w w' d,
  (forall d0, given = Some d0 -> deletes_whole (d_groups d0)) ->
  sync_from fuel h dst src dc flags cb given w = (w', Ok d) ->
  exists evs (b : bool), new_events w w' = evs ++ (if b then [EvSyncComplete src dst] else []) /\ (forall ev, In ev evs -> completeb ev = false) /\
    (b = true <-> exists ev, In ev evs /\ attempted ev).
Proof. intros fuel h dst src dc flags cb given w w' d HG. exact (from_complete fuel h dst src dc flags cb given w HG w' d). Qed.
Print Assumptions C42_complete.
(** Without differences: no calls, and nothing but the statuses of objects changes. *)
Theorem C42_nothing_to_do : forall fuel h dst src dc flags cb given w,
  (forall d e, uses fuel dst src dc flags cb given w d -> occurs e (d_groups d) -> e_action e = None) ->
  let w' := fst (sync_from fuel h dst src dc flags cb given w) in
  undisturbed w w' /\ exists evs, w_trace w' = w_trace w ++ evs /\ forall ev, In ev evs -> hookb ev = false /\ completeb ev = false.
Proof. exact from_idle. Qed.
Print Assumptions C42_nothing_to_do.
Definition ev0 : list event := new_events w0 (fst (sync_from 20 default_hooks 1 0 base_class 0 false None w0)).
Example C42_example :
  (ev0 = removelast ev0 ++ [EvSyncComplete 0 1] /\ exists ev, In ev (removelast ev0) /\ attempted ev) /\
  (forall d e, uses 20 1 1 base_class 0 false None w0 d -> occurs e (d_groups d) -> e_action e = None) /\
  (exists d, snd (sync_from 20 default_hooks 1 1 base_class 0 false None w0) = Ok d /\ diff_len d = 7).
Proof.
  split; [|split].
  - split; [vm_compute; reflexivity|]. eexists. split; [vm_compute; left; reflexivity|exact Logic.I].
  - intros d e [(X & _)|(_ & E)] O; [discriminate|].
    assert (F : forallb (fun x => match e_action x with None => true | Some _ => false end)
                  (match snd (diff_from 20 1 1 base_class 0 false w0) with Ok x => tree_all (d_groups x) | Err _ => [] end) = true) by (vm_compute; reflexivity).
    rewrite E, forallb_forall in F. specialize (F e (In_tree _ _ O)). destruct (e_action e); [discriminate|reflexivity].
  - eexists. split; vm_compute; reflexivity.
Qed.

(** C46.  The callback is told 1, 2, ..., m of len(diff), with m at most len(diff) ... *)
Theorem C46_counts : forall fuel h dst src dc flags cb given w d,
  (forall d0, given = Some d0 -> deletes_whole (d_groups d0)) ->
  uses fuel dst src dc flags cb given w d ->
  let w' := fst (sync_from fuel h dst src dc flags cb given w) in
  exists m, m <= diff_len d /\
    filter sync_callback (new_events w w') = if cb then map (fun i => EvCallback "sync" i (diff_len d)) (seq 1 m) else [].
Proof. intros fuel h dst src dc flags cb given w d HG. exact (from_counts fuel h dst src dc flags cb given w HG d). Qed.
Print Assumptions C46_counts.
(** ... and m = len(diff) when everything succeeds and no object is deleted with its children. *)
Theorem C46_reaches_total : forall fuel h dst src dc flags cb given w w' d d',
  uses fuel dst src dc flags cb given w d ->
  (forall d0, given = Some d0 -> deletes_whole (d_groups d0)) ->
  proper_dst w dst -> well_posed w dst (d_groups d) ->
  hooks_succeed h -> N.testbit flags 0 = false ->
  (forall e o, occurs e (d_groups d) -> e_action e = Some ADelete -> dst_obj w dst e o -> ~ skips_children (o_flags o)) ->
  sync_from fuel h dst src dc flags cb given w = (w', Ok d') ->
  filter sync_callback (new_events w w') = if cb then map (fun i => EvCallback "sync" i (diff_len d)) (seq 1 (diff_len d)) else [].
Proof. intros fuel h dst src dc flags cb given w w' d d' HU HG HP HC. exact (from_reaches fuel h dst src dc flags cb given w d HU HG HP HC w' d'). Qed.
Print Assumptions C46_reaches_total.
(** Deleted with their children, neither the object nor the elements below it are counted. *)
Theorem C46_skip_refuted : exists w, w_ok w /\ proper_dst w 1 /\
  (exists d, snd (sync_from 20 default_hooks 1 0 base_class 0 true None w) = Ok d /\ diff_len d = 10) /\
  filter sync_callback (new_events w (fst (sync_from 20 default_hooks 1 0 base_class 0 true None w))) =
    map (fun i => EvCallback "sync" i 10) (seq 1 8).
Proof.
  exists (w_flag 2). split; [apply w_okb_ok; reflexivity|]. split; [apply properb_ok; reflexivity|].
  split; [eexists; split; vm_compute; reflexivity|vm_compute; reflexivity].
Qed.
Print Assumptions C46_skip_refuted.
Example C46_example : uses 20 1 0 base_class 0 true None w0 d0 /\ proper_dst w0 1 /\ well_posed w0 1 (d_groups d0) /\
  (forall e o, occurs e (d_groups d0) -> e_action e = Some ADelete -> dst_obj w0 1 e o -> ~ skips_children (o_flags o)) /\
  snd (sync_from 20 default_hooks 1 0 base_class 0 true None w0) = Ok d0 /\ diff_len d0 = 10 /\
  filter sync_callback (new_events w0 (fst (sync_from 20 bad_hooks 1 0 base_class 1 true None w0))) = map (fun i => EvCallback "sync" i 10) (seq 1 3).
Proof.
  split; [right; split; [now left|vm_compute; reflexivity]|]. split; [exact w0_proper|]. split; [exact d0_posed|]. split.
  { intros e o O A D. assert (P : plain_deletesb w0 1 (d_groups d0) [1%N] = true) by (vm_compute; reflexivity).
    apply (plain_deletesb_ok _ _ _ _ P e o O A D). simpl. auto. }
  split; [vm_compute; reflexivity|]. split; vm_compute; reflexivity.
Qed.

(** C47.  As long as no deleted object is marked NATURAL_DELETION_ORDER, every status record carries action, type
    and unique id of an element of the diff, that of the call just before it if there is one; and every call is
    followed by its record, unless it ends the synchronisation.  Level, status and message ([reported], [uncalled] in
    CallSpec.v) are those of the object the hook returned, of a failure if it returned None, of an error if it raised. *)
Theorem C47_records : forall fuel h dst src dc flags cb given w d,
  uses fuel dst src dc flags cb given w d ->
  (forall d0, given = Some d0 -> deletes_whole (d_groups d0)) ->
  proper_dst w dst -> well_posed w dst (d_groups d) ->
  (forall e o, occurs e (d_groups d) -> e_action e = Some ADelete -> dst_obj w dst e o -> ~ naturally o) ->
  let (w', r) := sync_from fuel h dst src dc flags cb given w in
  told (may_end h) flags w dst (d_groups d) (match r with Ok _ => false | Err _ => true end) (new_events w w').
Proof. intros fuel h dst src dc flags cb given w d HU HG HP HC. exact (from_told fuel h dst src dc flags cb given w d HU HG HP HC). Qed.
Print Assumptions C47_records.
(** In natural order the record of the parent is that of its last child. *)
Theorem C47_natural_refuted : exists w, w_ok w /\ proper_dst w 1 /\ well_posed w 1 (d_groups (d_of w)) /\
  snd (sync_from 20 default_hooks 1 0 base_class 0 false None w) = Ok (d_of w) /\
  exists l1 lvl st msg l2, new_events w (fst (sync_from 20 default_hooks 1 0 base_class 0 false None w)) =
    l1 ++ EvHook ADelete "device" [("name", VStr "r3")] [] ::
          EvLog lvl (Some (mkCtx (Some ADelete) "interface" "r3__eth9")) (Some st) msg :: l2.
Proof.
  exists (w_flag 16). split; [apply w_okb_ok; reflexivity|]. split; [apply properb_ok; reflexivity|].
  split; [apply well_posedb_ok; vm_compute; reflexivity|]. split; [vm_compute; reflexivity|].
  set (evs := new_events _ _). exists (firstn 12 evs), LInfo, StSuccess, "Deleted successfully", (skipn 14 evs). vm_compute. reflexivity.
Qed.
Print Assumptions C47_natural_refuted.
Example C47_example : uses 20 1 0 base_class 0 false None w0 d0 /\ proper_dst w0 1 /\ well_posed w0 1 (d_groups d0) /\
  (forall e o, occurs e (d_groups d0) -> e_action e = Some ADelete -> dst_obj w0 1 e o -> ~ naturally o) /\
  firstn 2 ev0 = [EvHook AUpdate "device" [("name", VStr "r1")] [("role", VStr "edge")];
                  EvLog LInfo (Some (mkCtx (Some AUpdate) "device" "r1")) (Some StSuccess) "Updated successfully"] /\
  firstn 2 (new_events w0 (fst (sync_from 20 (fun _ _ => mkOut true None [] HReturnNone) 1 0 base_class 0 false None w0))) =
    [EvHook AUpdate "device" [("name", VStr "r1")] [("role", VStr "edge")];
     EvLog LWarning (Some (mkCtx (Some AUpdate) "device" "r1")) (Some StFailure) "device update did not return the model object."] /\
  firstn 2 (new_events w0 (fst (sync_from 20 (fun _ _ => mkOut true (Some (StFailure, "half done"%string)) [] HReturn) 1 0 base_class 0 false None w0))) =
    [EvHook AUpdate "device" [("name", VStr "r1")] [("role", VStr "edge")];
     EvLog LWarning (Some (mkCtx (Some AUpdate) "device" "r1")) (Some StFailure) "half done"].
Proof.
  split; [right; split; [now left|vm_compute; reflexivity]|]. split; [exact w0_proper|]. split; [exact d0_posed|]. split.
  { intros e o O A D. assert (P : plain_deletesb w0 1 (d_groups d0) [4%N] = true) by (vm_compute; reflexivity).
    apply (plain_deletesb_ok _ _ _ _ P e o O A D). simpl. auto. }
  split; [|split]; vm_compute; reflexivity.
Qed.
