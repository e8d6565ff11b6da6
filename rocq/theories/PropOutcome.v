(** * PropOutcome: what a synchronisation leaves in the destination (C63, C64).

    [fate], [like] and [same_contents] are defined in OutcomeSpec.v, [alike] in ConvergeSpec.v. *)
From Verif Require Import OutcomeFacts ConvSample.

(** C63.  Every element of the diff has the outcome that its action says. *)
Theorem C63_each : forall X fuel h dst src dcd dc flags fl cbd cb given w d sa da,
  alike w fuel src dst sa da -> hooks_succeed h -> hooks_write X h -> snd (diff_from fuel dst src dcd flags cbd w) = Ok d -> yields_once (dc_order (d_class d)) ->
  uses fuel dst src dc fl cb given w d ->
  exists w', sync_from fuel h dst src dc fl cb given w = (w', Ok d) /\
    forall e k, occurs e (d_groups d) -> names w dst e k -> fate X w dst e k w'.
Proof.
  intros X fuel h dst src dcd dc flags fl cbd cb given w d sa da AL HK HW DF YO US.
  destruct (leaves_as fuel h dst src dcd dc flags fl cbd cb given w d sa da AL HK X HW d DF eq_refl YO US) as (E & F & _).
  exists (fst (sync_from fuel h dst src dc fl cb given w)). split; [now rewrite <- E, <- surjective_pairing|exact F].
Qed.
Print Assumptions C63_each.
(** The keys stored afterwards: those of elements that are not deleted, and those the diff does not
    concern. *)
Theorem C63_which : forall fuel h dst src dcd dc flags fl cbd cb given w d sa da,
  alike w fuel src dst sa da -> hooks_succeed h -> snd (diff_from fuel dst src dcd flags cbd w) = Ok d -> yields_once (dc_order (d_class d)) ->
  uses fuel dst src dc fl cb given w d ->
  let w' := fst (sync_from fuel h dst src dc fl cb given w) in
  forall k, lookup w' dst (fst k) (snd k) <> None <->
    mentioned w dst (d_groups d) not_delete_act k \/
    (lookup w dst (fst k) (snd k) <> None /\ ~ mentioned w dst (d_groups d) any_act k /\ ~ doomed w dst (d_groups d) k).
Proof.
  intros fuel h dst src dcd dc flags fl cbd cb given w d sa da AL HK DF YO US.
  exact (proj1 (proj2 (proj2 (leaves_as fuel h dst src dcd dc flags fl cbd cb given w d sa da AL HK anyf (write_anyf h) d DF eq_refl YO US)))).
Qed.
Print Assumptions C63_which.
(** The objects the diff does not concern are the same as before. *)
Theorem C63_rest : forall fuel h dst src dcd dc flags fl cbd cb given w d sa da,
  alike w fuel src dst sa da -> hooks_succeed h -> snd (diff_from fuel dst src dcd flags cbd w) = Ok d -> yields_once (dc_order (d_class d)) ->
  uses fuel dst src dc fl cb given w d ->
  let w' := fst (sync_from fuel h dst src dc fl cb given w) in
  forall k r o, ~ mentioned w dst (d_groups d) any_act k -> ~ doomed w dst (d_groups d) k ->
    lookup w dst (fst k) (snd k) = Some r -> nth_error (w_heap w) r = Some o ->
    lookup w' dst (fst k) (snd k) = Some r /\ exists o', nth_error (w_heap w') r = Some o' /\ same_data o o'.
Proof.
  intros fuel h dst src dcd dc flags fl cbd cb given w d sa da AL HK DF YO US.
  exact (proj2 (proj2 (proj2 (leaves_as fuel h dst src dcd dc flags fl cbd cb given w d sa da AL HK anyf (write_anyf h) d DF eq_refl YO US)))).
Qed.
Print Assumptions C63_rest.
(** the elements of the sample with their actions, and what is stored before and after *)
Definition w63 : world := fst (sync_from 20 default_hooks 1 0 base_class 0 false (Some d0) w0).
Definition w63n : world := fst (sync_from 20 note_hooks 1 0 base_class 0 false (Some d0) w0).
Definition data (w : world) (k : string * string) : option (dict val * dict (list string)) :=
  match lookup w 1 (fst k) (snd k) with Some r => option_map (fun o => (o_vals o, o_kids o)) (nth_error (w_heap w) r) | None => None end.
Example C63_example :
  alike w0 20 0 1 sa0 da0 /\ hooks_succeed default_hooks /\ snd (diff_from 20 1 0 base_class 0 false w0) = Ok d0 /\
  yields_once (dc_order (d_class d0)) /\ uses 20 1 0 base_class 0 false (Some d0) w0 d0 /\
  map (fun e => (e_name e, e_action e)) (tree_all (d_groups d0)) =
    [("nyc", None); ("r1", Some AUpdate); ("eth0", Some AUpdate); ("eth1", Some ACreate); ("lo", Some ADelete);
     ("r2", Some ACreate); ("r3", Some ADelete); ("eth9", Some ADelete); ("sfo", Some ACreate); ("lon", Some ADelete)] /\
  (* nyc, without a difference of its own, loses r3 and gains r2 *)
  map (data w0) [("site", "nyc"); ("device", "r1"); ("device", "r2"); ("site", "lon")] =
    [Some ([("name", VStr "nyc"); ("region", VStr "east"); ("note", VNone)], [("devices", ["r1"; "r3"])]);
     Some ([("name", VStr "r1"); ("role", VStr "leaf"); ("serial", VNone)], [("interfaces", ["r1__eth0"; "r1__lo"])]); None;
     Some ([("name", VStr "lon"); ("region", VStr "uk"); ("note", VNone)], [("devices", [])])] /\
  map (data w63) [("site", "nyc"); ("device", "r1"); ("device", "r2"); ("site", "lon")] =
    [Some ([("name", VStr "nyc"); ("region", VStr "east"); ("note", VNone)], [("devices", ["r1"; "r2"])]);
     Some ([("name", VStr "r1"); ("role", VStr "edge"); ("serial", VNone)], [("interfaces", ["r1__eth0"; "r1__eth1"])]);
     Some ([("name", VStr "r2"); ("role", VStr "core"); ("serial", VNone)], [("interfaces", [])]); None] /\
  (* hooks that write a note: that of sfo, which is created, is theirs, while nyc has no hook called for it *)
  hooks_succeed note_hooks /\ hooks_write (fun k => k = "note") note_hooks /\
  map (data w63n) [("site", "nyc"); ("device", "r1"); ("site", "sfo")] =
    [Some ([("name", VStr "nyc"); ("region", VStr "east"); ("note", VNone)], [("devices", ["r1"; "r2"])]);
     Some ([("name", VStr "r1"); ("role", VStr "edge"); ("serial", VNone)], [("interfaces", ["r1__eth0"; "r1__eth1"])]);
     Some ([("name", VStr "sfo"); ("region", VStr "west"); ("note", VStr "touched")], [("devices", [])])] /\
  (* with SKIP_UNMATCHED_DST the diff does not concern lon *)
  (let w' := fst (sync_from 20 default_hooks 1 0 base_class 4 false None w0) in data w' ("site", "lon") = data w0 ("site", "lon")).
Proof.
  split; [exact w0_alike|]. split; [exact default_succeed|]. split; [vm_compute; reflexivity|]. split; [exact order_default_once|].
  split; [left; split; [reflexivity|]; split; [vm_compute; discriminate|vm_compute; reflexivity]|].
  split; [vm_compute; reflexivity|]. split; [vm_compute; reflexivity|]. split; [vm_compute; reflexivity|].
  split; [exact note_succeed|]. split; [exact note_writes|]. split; vm_compute; reflexivity.
Qed.

(** C64.  Two synchronisations by diffs with the same elements leave the same in the destination, whatever the
    orders of their classes, their hooks (if they succeed), flags and callbacks. *)
Theorem C64_order : forall X fuel dst src w sa da dcd flags cbd d d1 d2 h1 h2 dc1 dc2 fl1 fl2 cb1 cb2 g1 g2,
  alike w fuel src dst sa da -> snd (diff_from fuel dst src dcd flags cbd w) = Ok d ->
  d_groups d1 = d_groups d -> d_groups d2 = d_groups d -> hooks_succeed h1 -> hooks_succeed h2 -> hooks_write X h1 -> hooks_write X h2 ->
  yields_once (dc_order (d_class d1)) -> yields_once (dc_order (d_class d2)) ->
  uses fuel dst src dc1 fl1 cb1 g1 w d1 -> uses fuel dst src dc2 fl2 cb2 g2 w d2 ->
  same_contents X (fst (sync_from fuel h1 dst src dc1 fl1 cb1 g1 w)) (fst (sync_from fuel h2 dst src dc2 fl2 cb2 g2 w)) dst.
Proof. intros X fuel dst src w sa da dcd flags cbd d d1 d2 h1 h2 dc1 dc2 fl1 fl2 cb1 cb2 g1 g2. exact (same_either_way fuel dst src w sa da dcd flags cbd d d1 d2 X h1 h2 dc1 dc2 fl1 fl2 cb1 cb2 g1 g2). Qed.
Print Assumptions C64_order.
(** a subclass of Diff with another order *)
Definition back_class : diffclass := mkDiffClass "Backwards" ["Backwards"; "Diff"] order_reverse.
Definition d0_back : diff := mkDiff back_class (d_groups d0) 0.
Definition w64 : world := fst (sync_from 20 default_hooks 1 0 base_class 1 true (Some d0_back) w0).
Example C64_example :
  alike w0 20 0 1 sa0 da0 /\ snd (diff_from 20 1 0 base_class 0 false w0) = Ok d0 /\
  uses 20 1 0 base_class 0 false (Some d0) w0 d0 /\ uses 20 1 0 base_class 1 true (Some d0_back) w0 d0_back /\
  yields_once (dc_order back_class) /\
  (* called in another order, the new objects are others *)
  length (hook_calls (new_events w0 w63)) = 9 /\ length (hook_calls (new_events w0 w64)) = 9 /\
  hd_error (hook_calls (new_events w0 w63)) <> hd_error (hook_calls (new_events w0 w64)) /\
  lookup w63 1 "site" "sfo" <> lookup w64 1 "site" "sfo" /\
  (* and the same is stored *)
  data w64 ("device", "r1") = data w63 ("device", "r1") /\ data w64 ("site", "sfo") = data w63 ("site", "sfo").
Proof.
  split; [exact w0_alike|]. split; [vm_compute; reflexivity|].
  split; [left; split; [reflexivity|]; split; [vm_compute; discriminate|vm_compute; reflexivity]|].
  split; [left; split; [reflexivity|]; split; [vm_compute; discriminate|vm_compute; reflexivity]|].
  split; [intros t l; unfold order_reverse; symmetry; apply Permutation_rev|].
  split; [vm_compute; reflexivity|]. split; [vm_compute; reflexivity|]. split; [vm_compute; discriminate|]. split; [vm_compute; discriminate|]. split; vm_compute; reflexivity.
Qed.
