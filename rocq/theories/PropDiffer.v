(** * PropDiffer: properties of diff_from/diff_to (C05-C17).

    [w_ok w]: LocalStores hold references to existing objects (always so in Python).
    [faithful_diff], [shown], [describes], [suppressed], ... are defined in DifferSpec.v. *)
From Coq Require Import Sorted.
From Verif Require Import DifferLast.

(** C05.  The skip count is the number of models left out of the tree: it is never negative. *)
Theorem C05_skip_count : forall fuel dst src dc flags cb w sa da d,
  w_ok w -> nth_error (w_ads w) src = Some sa -> nth_error (w_ads w) dst = Some da ->
  yields_once (dc_order dc) ->
  snd (diff_from fuel dst src dc flags cb w) = Ok d ->
  exists skipped,
    faithful_diff flags fuel w src dst sa da (d_groups d) skipped /\ diff_skip d = Z.of_nat skipped.
Proof. exact diff_skip_spec. Qed.
Print Assumptions C05_skip_count.

Theorem C05_processed : forall fuel dst src dc flags cb w sa da d,
  w_ok w -> nth_error (w_ads w) src = Some sa -> nth_error (w_ads w) dst = Some da ->
  yields_once (dc_order dc) ->
  snd (diff_from fuel dst src dc flags cb w) = Ok d ->
  (0 <= diff_skip d)%Z /\ Z.of_nat (d_processed d) = (Z.of_nat (tree_sides (d_groups d)) + diff_skip d)%Z.
Proof. exact skip_nonneg. Qed.
Print Assumptions C05_processed.

Example C05_example :
  (exists d, snd (diff_from 20 1 0 base_class 2 false w0) = Ok d /\ diff_skip d = 3%Z /\ d_processed d = 13) /\
  yields_once order_default /\ w_ok w0.
Proof. split; [eexists; split; [vm_compute; reflexivity|split; vm_compute; reflexivity]|split; [exact order_default_once|exact w0_ok]]. Qed.

(** C06.  Computed diffs hold no two siblings of the same type and name, at any depth. *)
Theorem C06_computed_unique : forall w src dst sa da fuel dc flags cb,
  w_ok w -> nth_error (w_ads w) src = Some sa -> nth_error (w_ads w) dst = Some da ->
  forall d, snd (diff_from fuel dst src dc flags cb w) = Ok d -> tree_ok (d_groups d).
Proof. exact run_tree_ok. Qed.
Print Assumptions C06_computed_unique.

(** C07.  An adapter does not differ from itself, nor from one holding the same objects. *)
Theorem C07_self : forall w src dst sa da fuel dc flags cb,
  w_ok w -> nth_error (w_ads w) src = Some sa -> nth_error (w_ads w) dst = Some da ->
  forall d, same_content w src dst ->
  (forall o, exists_in w o -> forall f v, dget (get_attrs o) f = Some v -> py_eq v v = true) ->
  snd (diff_from fuel dst src dc flags cb w) = Ok d -> diff_has_diffs d = false.
Proof. exact run_same. Qed.
Print Assumptions C07_self.
Theorem C07_same_adapter : forall w a, same_content w a a.
Proof. exact same_content_refl. Qed.
Print Assumptions C07_same_adapter.

(** Without the condition on the values it is false: a NaN attribute. *)
Definition w_nan : world :=
  mkWorld [mkObj c_device [("name", VStr "r1"); ("role", VNaN); ("serial", VNone)] [("interfaces", [])] 0 (Some 0) StSuccess ""]
          [mkAdapter "src" "Sample" ["device"] s_classes (SLocal [("device", [("r1", 0)])])] [] [].
Theorem C07_nan_refuted : exists w a d, w_ok w /\ snd (diff_from 20 a a base_class 0 false w) = Ok d /\ diff_has_diffs d = true.
Proof. exists w_nan, 0. eexists. split; [apply w_okb_ok; reflexivity|]. split; [vm_compute; reflexivity|vm_compute; reflexivity]. Qed.
Print Assumptions C07_nan_refuted.

Example C07_example : exists d, snd (diff_from 20 1 1 base_class 0 false w0) = Ok d /\ diff_len d = 7 /\ diff_has_diffs d = false.
Proof. eexists. split; [vm_compute; reflexivity|split; vm_compute; reflexivity]. Qed.

(** C08.  Only reading happens, whatever the outcome; the only events are callbacks. *)
Theorem C08_read_only : forall fuel dst src dc flags cb w,
  let w' := fst (diff_from fuel dst src dc flags cb w) in
  read_only w w' /\ exists evs, w_trace w' = w_trace w ++ evs /\ Forall is_callback evs.
Proof. exact diff_from_quiet. Qed.
Print Assumptions C08_read_only.

Example C08_example :
  snd (diff_from 2 1 0 base_class 0 true w0) = Err ExnRecursionError /\
  w_trace (fst (diff_from 2 1 0 base_class 0 true w0)) <> [] /\
  w_heap (fst (diff_from 2 1 0 base_class 0 true w0)) = heap0.
Proof. split; [vm_compute; reflexivity|]. split; [vm_compute; discriminate|vm_compute; reflexivity]. Qed.

(** C09.  The returned diff is exactly a faithful description of both adapters ... *)
Theorem C09_exact : forall fuel dst src dc flags cb w sa da,
  w_ok w -> nth_error (w_ads w) src = Some sa -> nth_error (w_ads w) dst = Some da ->
  forall d, snd (diff_from fuel dst src dc flags cb w) = Ok d <->
    exists skipped, faithful_diff flags fuel w src dst sa da (d_groups d) skipped /\
      d_class d = dc /\ d_processed d = tree_sides (d_groups d) + skipped.
Proof. exact (fun fuel dst src dc flags cb w sa da OK HS HD => diff_from_iff fuel dst src dc flags cb w sa da OK HS HD). Qed.
Print Assumptions C09_exact.

(** ... so every element stands for a pair that is to be shown, with its current
    attributes, and every such pair has an element. *)
Theorem C09_sound : forall w src dst sa da fuel dc flags cb,
  w_ok w -> nth_error (w_ads w) src = Some sa -> nth_error (w_ads w) dst = Some da ->
  forall d x, snd (diff_from fuel dst src dc flags cb w) = Ok d -> occurs x (d_groups d) ->
  exists so do, shown flags w src dst sa da so do /\ describes (ad_name sa) (ad_name da) x so do /\ ~ suppressed flags so do.
Proof. exact run_sound. Qed.
Print Assumptions C09_sound.
Theorem C09_complete : forall w src dst sa da fuel dc flags cb,
  w_ok w -> nth_error (w_ads w) src = Some sa -> nth_error (w_ads w) dst = Some da ->
  forall d so do, snd (diff_from fuel dst src dc flags cb w) = Ok d -> shown flags w src dst sa da so do ->
  exists x, occurs x (d_groups d) /\ describes (ad_name sa) (ad_name da) x so do.
Proof. exact run_complete. Qed.
Print Assumptions C09_complete.

Example C09_example :
  snd (diff_from 20 1 0 base_class 0 false w0) = Ok d0 /\
  map (fun e => (e_type e, e_name e, e_action e)) (tree_all (d_groups d0)) =
    [("site", "nyc", None); ("device", "r1", Some AUpdate);
     ("interface", "eth0", Some AUpdate); ("interface", "eth1", Some ACreate); ("interface", "lo", Some ADelete);
     ("device", "r2", Some ACreate); ("device", "r3", Some ADelete); ("interface", "eth9", Some ADelete);
     ("site", "sfo", Some ACreate); ("site", "lon", Some ADelete)].
Proof. split; vm_compute; reflexivity. Qed.

(** C10.  The global flags leave out exactly the unmatched elements. *)
Theorem C10_no_unmatched : forall n dst src dc flags cb w sa da d,
  w_ok w -> nth_error (w_ads w) src = Some sa -> nth_error (w_ads w) dst = Some da ->
  snd (diff_from n dst src dc flags cb w) = Ok d ->
  (N.testbit flags 1 = true -> forall x, occurs x (d_groups d) -> e_action x <> Some ACreate) /\
  (N.testbit flags 2 = true -> forall x, occurs x (d_groups d) -> e_action x <> Some ADelete).
Proof. exact diff_from_no_unmatched. Qed.
Print Assumptions C10_no_unmatched.
Theorem C10_otherwise_same : forall n dst src dc f0 f1 cb w sa da d,
  w_ok w -> nth_error (w_ads w) src = Some sa -> nth_error (w_ads w) dst = Some da ->
  N.testbit f0 1 = false -> N.testbit f0 2 = false ->
  snd (diff_from n dst src dc f0 cb w) = Ok d ->
  exists d', snd (diff_from n dst src dc f1 cb w) = Ok d' /\
    forall t, Forall2 (pruned f1) (filter (keeps f1) (dvals (group_of (d_groups d) t))) (dvals (group_of (d_groups d') t)).
Proof. exact diff_from_prune. Qed.
Print Assumptions C10_otherwise_same.

Example C10_example : exists d,
  snd (diff_from 20 1 0 base_class 2 false w0) = Ok d /\
  map (fun e => (e_name e, e_action e)) (tree_all (d_groups d)) =
    [("nyc", None); ("r1", Some AUpdate); ("eth0", Some AUpdate); ("lo", Some ADelete);
     ("r3", Some ADelete); ("eth9", Some ADelete); ("lon", Some ADelete)].
Proof. eexists. split; vm_compute; reflexivity. Qed.

(** C11.  Model flags: the elements of a list, at every depth, are those of the pairs
    that are not suppressed, and [suppressed] spells out the flags. *)
Theorem C11_suppressed_absent : forall w src dst sa da fuel dc flags cb,
  w_ok w -> nth_error (w_ads w) src = Some sa -> nth_error (w_ads w) dst = Some da ->
  forall d, filed w src (ad_top sa) -> filed w dst (ad_top da) -> NoDup (ad_top da) ->
  snd (diff_from fuel dst src dc flags cb w) = Ok d ->
  sublist (dkeys (d_groups d)) (filter (fun t => smem t (ad_top sa)) (ad_top da)) /\
  (forall t ss dd, top_lists w src dst sa da t ss dd ->
     in_order flags (ad_name sa) (ad_name da) ss dd (dvals (group_of (d_groups d) t))) /\
  (forall x, occurs x (d_groups d) -> exists so do,
     shown flags w src dst sa da so do /\ describes (ad_name sa) (ad_name da) x so do /\
     forall mapping sk t f ss' dd', child_types so do mapping sk -> NoDup (dkeys mapping) -> In (t, f) mapping ->
       kids_of (objs_by w src) so f t = Ok ss' -> kids_of (objs_by w dst) do f t = Ok dd' ->
       in_order flags (ad_name sa) (ad_name da) ss' dd' (dvals (group_of (e_kids x) t))).
Proof. exact run_order. Qed.
Print Assumptions C11_suppressed_absent.

(** r1 of the source carries IGNORE, r3 of the destination SKIP_UNMATCHED_DST, r2 SKIP_UNMATCHED_DST *)
Definition w_flags : world :=
  mkWorld (mk_site "nyc" "east" ["r1"; "r2"] 0 0 :: mk_device "r1" "edge" ["r1__eth0"; "r1__eth1"] 1 0 ::
           mk_device "r2" "core" [] 8 0 :: firstn 5 (skipn 3 heap0) ++ mk_device "r3" "core" ["r3__eth9"] 8 1 :: skipn 9 heap0)
          (w_ads w0) [] [].
Example C11_example : exists d,
  w_ok w_flags /\ snd (diff_from 20 1 0 base_class 0 false w_flags) = Ok d /\
  map (fun e => (e_name e, e_action e)) (tree_all (d_groups d)) =
    [("nyc", None); ("r2", Some ACreate); ("sfo", Some ACreate); ("lon", Some ADelete)].
Proof. eexists. split; [apply w_okb_ok; reflexivity|]. split; vm_compute; reflexivity. Qed.

(** C12.  Exchanging the two sides mirrors the diff ([diff_to] is [diff_from] with the
    roles exchanged). *)
Theorem C12_mirror : forall n w src dst sa da dc flags cb d,
  w_ok w -> nth_error (w_ads w) src = Some sa -> nth_error (w_ads w) dst = Some da ->
  shared_classes w -> symmetric_flags w -> proper_dicts w ->
  N.testbit flags 1 = N.testbit flags 2 -> NoDup (ad_top sa) -> NoDup (ad_top da) ->
  snd (diff_from n dst src dc flags cb w) = Ok d ->
  exists d', snd (diff_from n src dst dc flags cb w) = Ok d' /\
    mirrored (d_groups d) (d_groups d') /\ d_processed d' = d_processed d.
Proof. exact diff_from_mirror. Qed.
Print Assumptions C12_mirror.
Theorem C12_diff_to : forall fuel src target dc flags cb w,
  diff_to fuel src target dc flags cb w = diff_from fuel target src dc flags cb w.
Proof. reflexivity. Qed.
Print Assumptions C12_diff_to.

Example C12_example :
  shared_classes w0 /\ symmetric_flags w0 /\ proper_dicts w0 /\
  exists d, snd (diff_to 20 1 0 base_class 0 false w0) = Ok d /\
    map (fun e => (e_name e, e_action e)) (tree_all (d_groups d)) =
    [("nyc", None); ("r1", Some AUpdate); ("eth0", Some AUpdate); ("lo", Some ACreate); ("eth1", Some ADelete);
     ("r3", Some ACreate); ("eth9", Some ACreate); ("r2", Some ADelete); ("lon", Some ACreate); ("sfo", Some ADelete)].
Proof. split; [exact w0_classes|]. split; [exact w0_flags|]. split; [exact w0_dicts|]. eexists. split; vm_compute; reflexivity. Qed.

(** C13.  If the diff returns, any two objects paired in any compared list correspond ... *)
Theorem C13_pairs_correspond : forall w src dst sa da fuel dc flags cb,
  w_ok w -> nth_error (w_ads w) src = Some sa -> nth_error (w_ads w) dst = Some da ->
  forall t ss dd ss' dd' d s d2, snd (diff_from fuel dst src dc flags cb w) = Ok d ->
  top_lists w src dst sa da t ss dd ->
  compared flags (objs_by w src) (objs_by w dst) ss dd ss' dd' ->
  pair_at ss' dd' (Some s) (Some d2) -> corresponding s d2.
Proof. exact run_corresponding. Qed.
Print Assumptions C13_pairs_correspond.

(** ... and a list with a pair that does not is rejected with TypeError or ValueError. *)
Theorem C13_mismatch_raises : forall n env ss dd us vs st u s d,
  map get_unique_id ss = map Ok us -> map get_unique_id dd = map Ok vs ->
  (forall o, In o ss \/ In o dd -> exists n, get_shortname o = Ok n) ->
  with_uid u ss = Some s -> with_uid u dd = Some d -> ~ corresponding s d ->
  let r := snd (diff_object_list (S n) env ss dd st) in r = Err ExnTypeError \/ r = Err ExnValueError.
Proof. exact list_mismatch. Qed.
Print Assumptions C13_mismatch_raises.

(** two interfaces with the same unique id "a__b__c" and different identifiers *)
Definition w_collide : world :=
  mkWorld [mk_intf "a" "b__c" 1500 0 0; mk_intf "a__b" "c" 1500 0 1]
          [mkAdapter "src" "Sample" ["interface"] s_classes (SLocal [("interface", [("a__b__c", 0)])]);
           mkAdapter "dst" "Sample" ["interface"] s_classes (SLocal [("interface", [("a__b__c", 1)])])] [] [].
Example C13_example : snd (diff_from 20 1 0 base_class 0 false w_collide) = Err ExnValueError.
Proof. vm_compute. reflexivity. Qed.

(** C14.  The recursion is no deeper than the longest chain of children ... *)
Theorem C14_depth : forall w src dst sa da fuel dc flags cb,
  w_ok w -> nth_error (w_ads w) src = Some sa -> nth_error (w_ads w) dst = Some da ->
  forall n, same_fields w ->
  (forall t l u o, In t (ad_top sa) -> objs_all w src t = Ok l -> with_uid u l = Some o -> ~ generations (objs_by w src) n o) ->
  (forall t l u o, In t (ad_top da) -> objs_all w dst t = Ok l -> with_uid u l = Some o -> ~ generations (objs_by w dst) n o) ->
  n < fuel -> snd (diff_from fuel dst src dc flags cb w) <> Err ExnRecursionError.
Proof. exact run_depth. Qed.
Print Assumptions C14_depth.

(** ... in general (whatever flags and fields) it fails only on nested pairs that deep,
    and on those it cannot return ... *)
Theorem C14_exceeded : forall fuel dst src dc flags cb w sa da,
  w_ok w -> nth_error (w_ads w) src = Some sa -> nth_error (w_ads w) dst = Some da ->
  snd (diff_from fuel dst src dc flags cb w) = Err ExnRecursionError ->
  exists t ss dd, top_lists w src dst sa da t ss dd /\ nested flags (objs_by w src) (objs_by w dst) fuel ss dd.
Proof. exact diff_from_rec. Qed.
Print Assumptions C14_exceeded.
Theorem C14_too_deep : forall fuel dst src dc flags cb w sa da d t ss dd,
  w_ok w -> nth_error (w_ads w) src = Some sa -> nth_error (w_ads w) dst = Some da ->
  top_lists w src dst sa da t ss dd -> nested flags (objs_by w src) (objs_by w dst) fuel ss dd ->
  snd (diff_from fuel dst src dc flags cb w) <> Ok d.
Proof. exact diff_from_deep. Qed.
Print Assumptions C14_too_deep.

(** ... more stack does not change a result ... *)
Theorem C14_stable : forall n m dst src dc flags cb w sa da d,
  w_ok w -> nth_error (w_ads w) src = Some sa -> nth_error (w_ads w) dst = Some da -> n <= m ->
  snd (diff_from n dst src dc flags cb w) = Ok d -> snd (diff_from m dst src dc flags cb w) = Ok d.
Proof. exact diff_from_mono. Qed.
Print Assumptions C14_stable.

(** ... and a cycle never gives one. *)
Theorem C14_cycle : forall w src dst sa da fuel dc flags cb,
  w_ok w -> nth_error (w_ads w) src = Some sa -> nth_error (w_ads w) dst = Some da ->
  forall d t ss dd u o, shared_classes w -> no_skip_flags w flags -> top_lists w src dst sa da t ss dd ->
  (with_uid u ss = Some o /\ endless (objs_by w src) o) \/ (with_uid u dd = Some o /\ endless (objs_by w dst) o) ->
  snd (diff_from fuel dst src dc flags cb w) <> Ok d.
Proof. exact run_cycle. Qed.
Print Assumptions C14_cycle.

(** two nodes, each the other's child *)
Definition c_node : cls := mkCls "node" ["name"] [] [] [("node", "nodes")] [("name", None)] ["nodes"] 0.
Definition mk_node (name : string) (kids : list string) (a : aid) : obj :=
  mkObj c_node [("name", VStr name)] [("nodes", kids)] 0 (Some a) StSuccess "".
Definition w_cycle : world :=
  mkWorld [mk_node "a" ["b"] 0; mk_node "b" ["a"] 0]
          [mkAdapter "src" "Sample" ["node"] [("node", c_node)] (SLocal [("node", [("a", 0); ("b", 1)])]);
           mkAdapter "dst" "Sample" ["node"] [("node", c_node)] (SLocal [])] [] [].
Example C14_example :
  snd (diff_from 50 1 0 base_class 0 false w_cycle) = Err ExnRecursionError /\
  with_uid "a" [mk_node "a" ["b"] 0; mk_node "b" ["a"] 0] = Some (mk_node "a" ["b"] 0) /\
  endless (objs_by w_cycle 0) (mk_node "a" ["b"] 0) /\
  snd (diff_from 2 1 0 base_class 0 false w0) = Err ExnRecursionError /\
  snd (diff_from 3 1 0 base_class 0 false w0) = Ok d0.
Proof.
  split; [vm_compute; reflexivity|]. split; [vm_compute; reflexivity|]. split; [|split; vm_compute; reflexivity].
  exists (fun o => o = mk_node "a" ["b"] 0 \/ o = mk_node "b" ["a"] 0). split; [now left|]. intros x [E|E]; subst x.
  - exists (mk_node "b" ["a"] 0). split; [|now right]. exists "node", "nodes", ["b"], [mk_node "b" ["a"] 0], "b".
    split; [now left|]. split; [reflexivity|]. split; reflexivity.
  - exists (mk_node "a" ["b"] 0). split; [|now left]. exists "node", "nodes", ["a"], [mk_node "a" ["b"] 0], "a".
    split; [now left|]. split; [reflexivity|]. split; reflexivity.
Qed.

(** C15.  The callbacks: strictly increasing, with a fixed total, ending at the processed count ... *)
Theorem C15_progress : forall fuel dst src dc flags w sa da,
  w_ok w -> nth_error (w_ads w) src = Some sa -> nth_error (w_ads w) dst = Some da ->
  exists cs, w_trace (fst (diff_from fuel dst src dc flags true w)) =
      w_trace w ++ map (fun c => EvCallback "diff" c (count_all w src + count_all w dst)) cs /\
    StronglySorted lt cs /\ (forall c, In c cs -> 0 < c) /\
    (forall d, snd (diff_from fuel dst src dc flags true w) = Ok d -> last cs 0 = d_processed d).
Proof. exact diff_from_progress. Qed.
Print Assumptions C15_progress.

(** ... which stays within the total when nothing is reached twice and everything reached
    is stored, and is the total when also everything stored is reached and nothing skipped. *)
Theorem C15_bound : forall fuel dst src dc flags cb w sa da d ds dd A B,
  w_ok w -> nth_error (w_ads w) src = Some sa -> nth_error (w_ads w) dst = Some da ->
  ad_store sa = SLocal ds -> ad_store da = SLocal dd ->
  snd (diff_from fuel dst src dc flags cb w) = Ok d ->
  reached_diff flags fuel w src dst sa da A B ->
  NoDup A -> NoDup B -> incl A (stored_keys ds) -> incl B (stored_keys dd) ->
  d_processed d <= count_all w src + count_all w dst /\
  (NoDup (stored_keys ds) -> NoDup (stored_keys dd) -> incl (stored_keys ds) A -> incl (stored_keys dd) B ->
   d_processed d = tree_sides (d_groups d) -> d_processed d = count_all w src + count_all w dst).
Proof. exact progress_bound. Qed.
Print Assumptions C15_bound.

Example C15_example :
  map (fun e => match e with EvCallback _ c t => (c, t) | _ => (0, 0) end) (w_trace (fst (diff_from 20 1 0 base_class 0 true w0))) =
    [(2, 13); (4, 13); (6, 13); (7, 13); (8, 13); (9, 13); (10, 13); (11, 13); (12, 13); (13, 13)] /\
  exists sa da A B, nth_error (w_ads w0) 0 = Some sa /\ nth_error (w_ads w0) 1 = Some da /\
    reached_diff 0 20 w0 0 1 sa da A B /\ Permutation A (stored_keys src_data) /\ Permutation B (stored_keys dst_data).
Proof. split; [vm_compute; reflexivity|exact w0_reached]. Qed.

(** C16.  Types and order: stated in C11_suppressed_absent, where [in_order] fixes the order of
    every list and the first conjunct the order of the groups; here in one piece for the top. *)
Theorem C16_order : forall w src dst sa da fuel dc flags cb,
  w_ok w -> nth_error (w_ads w) src = Some sa -> nth_error (w_ads w) dst = Some da ->
  forall d, filed w src (ad_top sa) -> filed w dst (ad_top da) -> NoDup (ad_top da) ->
  snd (diff_from fuel dst src dc flags cb w) = Ok d ->
  sublist (groups d) (filter (fun t => smem t (ad_top sa)) (ad_top da)) /\
  (forall t e, In e (dvals (group_of (d_groups d) t)) -> In t (ad_top sa) /\ In t (ad_top da)) /\
  (forall t ss dd, top_lists w src dst sa da t ss dd ->
     in_order flags (ad_name sa) (ad_name da) ss dd (dvals (group_of (d_groups d) t))).
Proof. exact run_order_top. Qed.
Print Assumptions C16_order.

(** top_level of the source: device, site, interface; of the destination: site, device *)
Definition w_tops : world :=
  mkWorld heap0 [mkAdapter "src" "Sample" ["device"; "site"; "interface"] s_classes (SLocal src_data);
                 mkAdapter "dst" "Sample" ["site"; "device"] s_classes (SLocal dst_data)] [] [].
Example C16_example :
  filed w_tops 0 ["device"; "site"; "interface"] /\ filed w_tops 1 ["site"; "device"] /\
  exists d, snd (diff_from 20 1 0 base_class 0 false w_tops) = Ok d /\ groups d = ["site"; "device"] /\
    map e_name (dvals (group_of (d_groups d) "site")) = ["nyc"; "sfo"; "lon"] /\
    map e_name (dvals (group_of (d_groups d) "device")) = ["r1"; "r2"; "r3"].
Proof. split; [eapply w_sample_src_filed; reflexivity|]. split; [eapply w_sample_dst_filed; reflexivity|]. eexists. split; [vm_compute; reflexivity|]. split; [vm_compute; reflexivity|]. split; vm_compute; reflexivity. Qed.

(** C17.  Only listed fields, child lists and flags matter. *)
Theorem C17_irrelevant_fields : forall w w' n dst src dc flags cb sa da,
  w_ok w -> agrees_world w w' -> nth_error (w_ads w) src = Some sa -> nth_error (w_ads w) dst = Some da ->
  snd (diff_from n dst src dc flags cb w') = snd (diff_from n dst src dc flags cb w).
Proof. exact diff_from_rel. Qed.
Print Assumptions C17_irrelevant_fields.

(** the site's note (no identifier, attribute or child field) and status change *)
Definition w_note : world :=
  mkWorld (mkObj c_site [("name", VStr "nyc"); ("region", VStr "east"); ("note", VInt 42)] [("devices", ["r1"; "r2"])] 0 (Some 0) StFailure "x"
           :: skipn 1 heap0) (w_ads w0) [] [].
Example C17_example : agrees_world w0 w_note /\ w_note <> w0 /\ snd (diff_from 20 1 0 base_class 0 false w_note) = Ok d0.
Proof.
  split; [|split; [discriminate|vm_compute; reflexivity]]. split; [|split; [constructor|reflexivity]].
  constructor; [|apply agrees_all]. repeat split. constructor; [split; reflexivity|]. constructor; [split; reflexivity|].
  constructor; [|constructor]. split; [reflexivity|]. simpl. intuition discriminate.
Qed.
