(** * PropServer: synchronising into a RedisStore (C70). *)
From Verif Require Import ServerSample Samples PropRedis WholeFacts ConvSample.

(** C70.  What a successful synchronisation leaves on the server. *)
Theorem C70_left : forall X fuel h dst src dc flags cb given w da i d,
  server_dst w dst da i -> hooks_succeed h -> hooks_write X h -> N.testbit flags 0 = false ->
  snd (sync_from fuel h dst src dc flags cb given w) = Ok d ->
  yields_once (dc_order (d_class d)) -> deletes_whole (d_groups d) -> no_moves w dst (d_groups d) -> unchanged_on_server w dst i (d_groups d) ->
  server_left X w dst da i (d_groups d) (fst (sync_from fuel h dst src dc flags cb given w)).
Proof. intros. now apply sync_left. Qed.
Print Assumptions C70_left.

(** the source in memory: nyc with r2, lon with r3, ber; the destination on the server: nyc with r1, par, ber *)
Definition w_serve : world :=
  fst (rexec_all [(1, SAdd 5); (1, SAdd 6); (1, SAdd 7); (1, SAdd 8)]
    (mkWorld [mk_site "nyc" "east" ["r2"] 0 0; mk_device "r2" "core" [] 0 0; mk_site "lon" "uk" ["r3"] 0 0; mk_device "r3" "edge" [] 0 0; mk_site "ber" "de" [] 0 0;
              mk_site "nyc" "west" ["r1"] 0 1; mk_device "r1" "edge" [] 0 1; mk_site "par" "fr" [] 0 1; mk_site "ber" "de" [] 0 1]
       [mk_ad "src" (SLocal [("site", [("nyc", 0); ("lon", 2); ("ber", 4)]); ("device", [("r2", 1); ("r3", 3)])]); mk_ad "dst" (SRedis "green")] [] [])).
Definition d_serve : diff :=
  match snd (diff_from 20 1 0 base_class 0 false w_serve) with Ok d => d | Err _ => empty_diff base_class end.
Definition w_served : world := fst (sync_from 20 note_hooks 1 0 base_class 0 false None w_serve).
Definition shown (w : world) (t u : string) := option_map (fun o => (o_vals o, o_kids o)) (on_server w "green" t u).
Example C70_example :
  (exists da, server_dst w_serve 1 da "green") /\ hooks_succeed note_hooks /\ hooks_write (fun k => k = "note") note_hooks /\
  snd (sync_from 20 note_hooks 1 0 base_class 0 false None w_serve) = Ok d_serve /\
  yields_once (dc_order (d_class d_serve)) /\ deletes_whole (d_groups d_serve) /\
  no_moves w_serve 1 (d_groups d_serve) /\ unchanged_on_server w_serve 1 "green" (d_groups d_serve) /\
  (* nyc: to be updated, and its devices changed; lon: created with a device *)
  map (fun e => (e_name e, e_action e)) (tree_all (d_groups d_serve)) =
    [("nyc", Some AUpdate); ("r2", Some ACreate); ("r1", Some ADelete); ("lon", Some ACreate); ("r3", Some ACreate); ("ber", None); ("par", Some ADelete)] /\
  (* on the server: nyc as it was; lon without its device *)
  shown w_served "site" "nyc" = Some ([("name", VStr "nyc"); ("region", VStr "west"); ("note", VNone)], [("devices", ["r1"])]) /\
  shown w_served "site" "lon" = Some ([("name", VStr "lon"); ("region", VStr "uk"); ("note", VStr "touched")], [("devices", [])]) /\
  shown w_served "device" "r3" = Some ([("name", VStr "r3"); ("role", VStr "edge"); ("serial", VNone)], [("interfaces", [])]) /\
  shown w_served "device" "r2" <> None /\ shown w_served "device" "r1" = None /\ shown w_served "site" "par" = None.
Proof.
  split; [apply serverb_ok; vm_compute; reflexivity|]. split; [exact note_succeed|]. split; [exact note_writes|]. split; [vm_compute; reflexivity|].
  split; [exact order_default_once|]. split; [apply (computed_whole 20 1 0 base_class 0 false w_serve); vm_compute; reflexivity|].
  assert (X : no_moves w_serve 1 (d_groups d_serve) /\ unchanged_on_server w_serve 1 "green" (d_groups d_serve)) by (apply server_posedb_ok; vm_compute; reflexivity).
  split; [apply X|]. split; [apply X|]. repeat (split; [vm_compute; reflexivity || discriminate|]). vm_compute. reflexivity.
Qed.

(** So a copy of a tree is not its copy: afterwards the destination can no longer be compared, as the
    device list of nyc names a deleted device ... *)
Theorem C70_compare_refuted : exists w da i d,
  server_dst w 1 da i /\ snd (sync_from 20 default_hooks 1 0 base_class 0 false None w) = Ok d /\
  deletes_whole (d_groups d) /\ no_moves w 1 (d_groups d) /\ unchanged_on_server w 1 i (d_groups d) /\
  snd (diff_from 20 1 0 base_class 0 false (fst (sync_from 20 default_hooks 1 0 base_class 0 false None w))) = Err ObjectNotFound.
Proof.
  assert (S : exists da, server_dst w_serve 1 da "green") by (apply serverb_ok; vm_compute; reflexivity). destruct S as [da S].
  assert (X : no_moves w_serve 1 (d_groups d_serve) /\ unchanged_on_server w_serve 1 "green" (d_groups d_serve)) by (apply server_posedb_ok; vm_compute; reflexivity).
  exists w_serve, da, "green", d_serve. split; [exact S|]. split; [vm_compute; reflexivity|].
  split; [apply (computed_whole 20 1 0 base_class 0 false w_serve); vm_compute; reflexivity|]. split; [apply X|]. split; [apply X|]. vm_compute. reflexivity.
Qed.
Print Assumptions C70_compare_refuted.
(** ... and into an empty store, the copy of a site with a device can be compared but not completed: the
    device is to be created once more, and that fails. *)
Definition w_fresh : world :=
  mkWorld [mk_site "lon" "uk" ["r3"] 0 0; mk_device "r3" "edge" [] 0 0]
    [mk_ad "src" (SLocal [("site", [("lon", 0)]); ("device", [("r3", 1)])]); mk_ad "dst" (SRedis "green")] [] [].
Theorem C70_repeat_refuted : exists w da i d d',
  server_dst w 1 da i /\ w_redis w = [] /\ snd (sync_from 20 default_hooks 1 0 base_class 0 false None w) = Ok d /\
  deletes_whole (d_groups d) /\ no_moves w 1 (d_groups d) /\ unchanged_on_server w 1 i (d_groups d) /\
  let w' := fst (sync_from 20 default_hooks 1 0 base_class 0 false None w) in
  snd (diff_from 20 1 0 base_class 0 false w') = Ok d' /\ diff_has_diffs d' = true /\
  snd (sync_from 20 default_hooks 1 0 base_class 0 false None w') = Err ObjectNotCreated.
Proof.
  assert (S : exists da, server_dst w_fresh 1 da "green") by (apply serverb_ok; vm_compute; reflexivity). destruct S as [da S].
  exists w_fresh, da, "green". eexists. eexists. split; [exact S|]. split; [reflexivity|]. split; [vm_compute; reflexivity|].
  match goal with |- deletes_whole (d_groups ?d) /\ _ => set (d1 := d) end.
  assert (X : no_moves w_fresh 1 (d_groups d1) /\ unchanged_on_server w_fresh 1 "green" (d_groups d1)) by (apply server_posedb_ok; vm_compute; reflexivity).
  split; [apply (computed_whole 20 1 0 base_class 0 false w_fresh); vm_compute; reflexivity|]. split; [apply X|]. split; [apply X|].
  cbn zeta. split; [vm_compute; reflexivity|]. split; vm_compute; reflexivity.
Qed.
Print Assumptions C70_repeat_refuted.
