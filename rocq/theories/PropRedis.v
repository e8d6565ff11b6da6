(** * PropRedis: RedisStore (C25 on Redis, C28-C31). *)
From Coq Require Import Lia.
From Verif Require Import RedisMore Samples GlobFacts.

(** C25 on a RedisStore, for any contents of the server and any names.  The
    objects returned are copies of the snapshots, attached to the reader. *)
Theorem C25_get_by_uids_redis : forall (a : aid) (us : list string) (m : mspec) (w : world), has_redis w a ->
  (forall os, (exists rs, snd (st_get_by_uids a us m w) = Ok rs /\
                 map (nth_error (w_heap (fst (st_get_by_uids a us m w)))) rs = map Some os) <->
              Forall2 (fun u o => option_map (given_to a) (stored w a (spec_name m) u) = Some o) us os) /\
  (forall e, snd (st_get_by_uids a us m w) = Err e <->
             e = ObjectNotFound /\ exists u, In u us /\ stored w a (spec_name m) u = None).
Proof. exact by_uids_redis. Qed.
Print Assumptions C25_get_by_uids_redis.

(** A server shared by adapters 0 ("blue"), 1 ("green") and 2 (again "blue") *)
Definition w_redis0 : world :=
  mkWorld heap0 [mk_ad "x" (SRedis "blue"); mk_ad "y" (SRedis "green"); mk_ad "z" (SRedis "blue")] [] [].
Definition w_redis1 : world :=
  fst (rexec_all [(0, SAdd 0); (0, SAdd 5); (0, SAdd 1); (1, SAdd 6); (1, SAdd 12)] w_redis0).
Example C25_redis_example : has_redis w_redis1 2 /\
  map (fun r => option_map (fun o => (o_vals o, o_adapter o)) (nth_error (w_heap (fst (st_get_by_uids 2 ["sfo"; "nyc"; "sfo"] (MName "site") w_redis1))) r)) [13; 14; 15] =
    [Some ([("name", VStr "sfo"); ("region", VStr "west"); ("note", VNone)], Some 2);
     Some ([("name", VStr "nyc"); ("region", VStr "east"); ("note", VNone)], Some 2);
     Some ([("name", VStr "sfo"); ("region", VStr "west"); ("note", VNone)], Some 2)] /\
  snd (st_get_by_uids 2 ["sfo"; "nyc"; "sfo"] (MName "site") w_redis1) = Ok [13; 14; 15] /\
  snd (st_get_by_uids 2 ["sfo"; "lon"] (MName "site") w_redis1) = Err ObjectNotFound.
Proof. split; [eexists; eexists; split; reflexivity|]. repeat split. Qed.

(** C28.  After any history of calls of any number of adapters on a shared
    server, whatever it holds to begin with, every call answers what the
    register of (store id, type, uid, snapshot) entries says; uids are
    unrestricted, store ids and type names are free of ':' and glob characters. *)
Theorem C28_redis_is_a_map : forall (ops : list (aid * sop)) (w : world) (l : rreg),
  server_holds w l -> plain_objects w ->
  Forall (fun x => on_plain_redis w (fst x) /\ op_plain (snd x)) ops ->
  snd (rexec_all ops w) = snd (rspec_all ops w l) /\
  server_holds (fst (rexec_all ops w)) (fst (rspec_all ops w l)).
Proof.
  intros ops w l H O F. destruct (redis_history ops w l (Inv_holds w l H O) F) as (A & B & _).
  split; [exact A|exact (Inv_server _ _ B)].
Qed.
Print Assumptions C28_redis_is_a_map.

(** What the register means: the last write to a key decides. *)
Theorem C28_register : forall (l : rreg) (i t u i' t' u' : string) (o : obj), NoDup (map fst l) ->
  rfind (rput l i t u o) i t u = Some o /\
  rfind (rdel l i t u) i t u = None /\
  ((i', t', u') <> (i, t, u) ->
     rfind (rput l i t u o) i' t' u' = rfind l i' t' u' /\ rfind (rdel l i t u) i' t' u' = rfind l i' t' u').
Proof. exact redis_register. Qed.
Print Assumptions C28_register.

(** Isolation: no history of calls on other store ids changes what an adapter reads. *)
Theorem C28_isolated : forall (w : world) (l : rreg) (ops : list (aid * sop)) (b : aid) (q : sop),
  server_holds w l -> plain_objects w ->
  Forall (fun x => on_plain_redis w (fst x) /\ op_plain (snd x) /\ store_id w (fst x) <> store_id w b) ops ->
  on_plain_redis w b -> op_plain q -> reads q ->
  snd (rexec b q (fst (rexec_all ops w))) = snd (rexec b q w).
Proof. exact isolated. Qed.
Print Assumptions C28_isolated.

(** get_all_model_names: exactly the types with an object in this store *)
Theorem C28_model_names : forall (w : world) (l : rreg) (a : aid) (ad : adapter) (i : string),
  server_holds w l -> nth_error (w_ads w) a = Some ad -> ad_store ad = SRedis i -> plain i = true ->
  exists names, st_get_all_model_names a w = (w, Ok names) /\ NoDup names /\
    forall t, In t names <-> rtype l i t <> [].
Proof. exact redis_names. Qed.
Print Assumptions C28_model_names.

(** Adding what is there already is refused unless it is the same object, all fields, children and
    flags included; which adapter it belongs to and its status do not matter. *)
Theorem C28_same : forall (x o : obj), dict_ok x -> dict_ok o ->
  dump_eq x o = true <->
  (forall k, match dget (o_vals x) k, dget (o_vals o) k with
             | Some v, Some v' => py_eq v v' = true
             | None, None => True
             | _, _ => False
             end) /\
  (forall k, dget (o_kids x) k = dget (o_kids o) k) /\ o_flags x = o_flags o.
Proof. exact dump_same. Qed.
Print Assumptions C28_same.

Definition rhist0 : list (aid * sop) :=
  [(0, SAdd 0); (1, SAdd 6); (2, SGet "site" "nyc"); (2, SAdd 6); (2, SUpdate 6); (0, SCount); (1, SCount);
   (0, SAdd 1); (1, SRemove 0); (1, SGetOrNone "site" "nyc"); (0, SGet "site" "a:b"); (0, SGetAll "site")].
Lemma w_redis0_ok : server_holds w_redis0 [] /\ plain_objects w_redis0 /\
  Forall (fun x => on_plain_redis w_redis0 (fst x) /\ op_plain (snd x)) rhist0.
Proof.
  split; [split; [reflexivity|split; constructor]|]. split; [repeat constructor|].
  assert (forall a, a < 3 -> on_plain_redis w_redis0 a) as H.
  { intros [|[|[|a]]] L; [eexists; eexists; repeat split|eexists; eexists; repeat split|eexists; eexists; repeat split|].
    lia. }
  repeat constructor; apply H; repeat constructor.
Qed.
Example C28_example :
  (server_holds w_redis0 [] /\ plain_objects w_redis0 /\
   Forall (fun x => on_plain_redis w_redis0 (fst x) /\ op_plain (snd x)) rhist0) /\
  snd (rexec_all rhist0 w_redis0) =
    [Ok VUnit; Ok VUnit; Ok (VObj (Some (mk_site "nyc" "east" ["r1"; "r2"] 0 2))); Err ObjectAlreadyExists; Ok VUnit;
     Ok (VNat 1); Ok (VNat 1); Ok VUnit; Ok VUnit; Ok (VOpt None); Err ObjectNotFound;
     Ok (VObjs [Some (mk_site "nyc" "east" ["r1"; "r3"] 0 0)])] /\
  store_id w_redis0 0 <> store_id w_redis0 1 /\
  snd (st_get_all_model_names 0 (fst (rexec_all rhist0 w_redis0))) = Ok ["site"; "device"] /\
  snd (st_get_all_model_names 1 (fst (rexec_all rhist0 w_redis0))) = Ok [].
Proof. split; [exact w_redis0_ok|]. split; [reflexivity|]. split; [discriminate|]. split; reflexivity. Qed.
Example C28_same_example :
  dict_ok (mk_site "nyc" "east" ["r1"; "r2"] 0 2) /\ dict_ok (mk_site "nyc" "east" ["r1"; "r2"] 4 0) /\
  dump_eq (mk_site "nyc" "east" ["r1"; "r2"] 0 2) (mk_site "nyc" "east" ["r1"; "r2"] 0 0) = true /\
  dump_eq (mk_site "nyc" "east" ["r1"; "r2"] 0 2) (mk_site "nyc" "east" ["r1"; "r2"] 4 0) = false.
Proof. split; [split; repeat constructor; simpl; intuition discriminate|]. split; [split; repeat constructor; simpl; intuition discriminate|]. split; reflexivity. Qed.

(** With a ':' in a type name two different objects share a key ... *)
Definition c_colon (n : string) : cls := mkCls n ["name"] [] [] [] [("name", None)] [] 0.
Definition mk_colon (n u : string) : obj := mkObj (c_colon n) [("name", VStr u)] [] 0 None StSuccess "".
Definition w_colon : world :=
  mkWorld [mk_colon "a" "b:c"; mk_colon "a:b" "c"]
    [mk_ad "x" (SRedis "blue"); mk_ad "y" (SRedis "blue:a"); mk_ad "z" (SRedis "*")] [] [].
Theorem C28_colon_in_type_refuted :
  exists w a r1 r2 o1 o2 u1 u2, has_redis w a /\
    nth_error (w_heap w) r1 = Some o1 /\ nth_error (w_heap w) r2 = Some o2 /\
    get_unique_id o1 = Ok u1 /\ get_unique_id o2 = Ok u2 /\ get_type o1 <> get_type o2 /\
    stored w a (get_type o2) u2 = None /\
    snd (rexec_all [(a, SAdd r1); (a, SGet (get_type o2) u2)] w) = [Ok VUnit; Ok (VObj (Some (given_to a o1)))].
Proof.
  exists w_colon, 0, 0, 1. do 4 eexists. split; [eexists; eexists; split; reflexivity|].
  do 4 (split; [reflexivity|]). split; [discriminate|]. split; reflexivity.
Qed.
Print Assumptions C28_colon_in_type_refuted.

(** ... with a ':' in a store id two stores share keys ... *)
Theorem C28_colon_in_id_refuted :
  exists w a b r t u, store_id w a <> store_id w b /\ has_redis w a /\ has_redis w b /\
    snd (rexec b (SGet t u) w) = Err ObjectNotFound /\
    exists o, snd (rexec b (SGet t u) (fst (rexec a (SAdd r) w))) = Ok (VObj (Some o)).
Proof.
  exists w_colon, 0, 1, 1, "b", "c". split; [discriminate|].
  split; [eexists; eexists; split; reflexivity|]. split; [eexists; eexists; split; reflexivity|].
  split; [reflexivity|]. eexists. reflexivity.
Qed.
Print Assumptions C28_colon_in_id_refuted.

(** ... and a store id that is a glob pattern sees the other stores. *)
Theorem C28_glob_in_id_refuted :
  exists w a b r, store_id w a <> store_id w b /\ has_redis w a /\ has_redis w b /\
    snd (rexec b SCount w) = Ok (VNat 0) /\
    snd (rexec b SCount (fst (rexec a (SAdd r) w))) = Ok (VNat 1).
Proof.
  exists w_colon, 0, 2, 0. split; [discriminate|].
  split; [eexists; eexists; split; reflexivity|]. split; [eexists; eexists; split; reflexivity|]. split; reflexivity.
Qed.
Print Assumptions C28_glob_in_id_refuted.

(** C29, lower-case names *)
Theorem C29_count_agrees : forall (w : world) (a : aid) (m : mspec), has_redis w a ->
  lower (spec_name m) = spec_name m ->
  exists rs, snd (st_get_all a m w) = Ok rs /\ snd (st_count a (Some m) w) = Ok (length rs).
Proof. exact redis_count. Qed.
Print Assumptions C29_count_agrees.

(** Which keys of the server are counted and loaded, whatever the names: those that match a pattern. *)
Theorem C29_patterns : forall (w : world) (a : aid) (ad : adapter) (i : string), nth_error (w_ads w) a = Some ad -> ad_store ad = SRedis i ->
  (exists l, selected ("diffsync:" ++ i ++ ":*") (map fst (w_redis w)) l /\ snd (st_count a None w) = Ok (length l)) /\
  (forall m, exists n l, lower_text (spec_name m) n /\ selected ("diffsync:" ++ i ++ ":" ++ n ++ ":*") (map fst (w_redis w)) l /\ snd (st_count a (Some m) w) = Ok (length l)) /\
  (forall m, exists l w' rs, selected ("diffsync:" ++ i ++ ":" ++ spec_name m ++ ":*") (map fst (w_redis w)) l /\ st_get_all a m w = (w', Ok rs) /\
     Forall2 (fun k r => exists o, dget (w_redis w) k = Some o /\ nth_error (w_heap w') r = Some (given_to a o)) l rs).
Proof. exact redis_reads. Qed.
Print Assumptions C29_patterns.
Example C29_patterns_example :
  pattern_matches "diffsync:*:s?te:\*" "diffsync:blue:site:*" /\ ~ pattern_matches "diffsync:*:s?te:\*" "diffsync:blue:site:x" /\
  pattern_matches "diffsync:[a-c]*:[^s]ite" "diffsync:blue:kite" /\ ~ pattern_matches "diffsync:[a-c]*:[^s]ite" "diffsync:blue:site" /\ pattern_matches "[x-a\-" "b" /\ ~ pattern_matches "[]b" "b" /\ lower_text "Site-Ä" "site-Ä".
Proof.
  split; [apply glob_iff; vm_compute; reflexivity|]. split; [rewrite <- glob_iff; vm_compute; discriminate|].
  split; [apply glob_iff; vm_compute; reflexivity|]. split; [rewrite <- glob_iff; vm_compute; discriminate|].
  split; [apply glob_iff; vm_compute; reflexivity|]. split; [rewrite <- glob_iff; vm_compute; discriminate|]. exact (lower_ok "Site-Ä").
Qed.

Example C29_example : lower "site" = "site" /\
  snd (st_get_all 0 (MName "site") w_redis1) = Ok [13; 14] /\ snd (st_count 0 (Some (MName "site")) w_redis1) = Ok 2.
Proof. repeat split. Qed.

Theorem C29_upper_case_refuted :
  exists w a m rs, has_redis w a /\ snd (st_get_all a m w) = Ok rs /\ snd (st_count a (Some m) w) <> Ok (length rs).
Proof.
  exists (fst (rexec 0 (SAdd 0) (mkWorld [mk_colon "Device" "r1"] [mk_ad "x" (SRedis "blue")] [] []))), 0, (MName "Device"), [1].
  split; [eexists; eexists; split; reflexivity|]. split; [reflexivity|]. vm_compute. discriminate.
Qed.
Print Assumptions C29_upper_case_refuted.

(** C30: durable on a LocalStore ... *)
Theorem C30_local_durable : forall (a : aid) (w : world) (r : ref) (u : string) (stored : obj),
  nth_error (w_heap w) r = Some stored ->
  (forall c ids attrs, create_unique_id c ids = Ok u -> lookup w a (c_modelname c) u = Some r ->
     NoDup (dkeys attrs) -> incl (dkeys attrs) (dkeys (o_vals stored)) ->
     exists w' o, st_update_or_instantiate a c ids attrs w = (w', Ok (r, false)) /\
       lookup w' a (c_modelname c) u = Some r /\ nth_error (w_heap w') r = Some o /\
       forall k v, dget attrs k = Some v -> exists v', dget (o_vals o) k = Some v' /\ (v' = v \/ py_eq v' v = true)) /\
  (forall q o0, nth_error (w_heap w) q = Some o0 -> get_unique_id o0 = Ok u -> lookup w a (get_type o0) u = Some r ->
     NoDup (dkeys (o_vals o0)) -> incl (dkeys (get_attrs o0)) (dkeys (o_vals stored)) ->
     exists w' o, st_update_or_add_model_instance a q w = (w', Ok (r, false)) /\
       lookup w' a (get_type o0) u = Some r /\ nth_error (w_heap w') r = Some o /\
       forall k v, dget (get_attrs o0) k = Some v -> exists v', dget (o_vals o) k = Some v' /\ (v' = v \/ py_eq v' v = true)).
Proof. exact local_durable. Qed.
Print Assumptions C30_local_durable.

(** ... and never on a RedisStore: on a key that is there, neither call changes the server. *)
Theorem C30_redis_never_written : forall (a : aid) (w : world) (u : string), has_redis w a ->
  (forall c ids attrs o, create_unique_id c ids = Ok u -> stored w a (c_modelname c) u = Some o ->
     w_redis (fst (st_update_or_instantiate a c ids attrs w)) = w_redis w) /\
  (forall r q o, nth_error (w_heap w) r = Some q -> get_unique_id q = Ok u -> stored w a (get_type q) u = Some o ->
     w_redis (fst (st_update_or_add_model_instance a r w)) = w_redis w).
Proof. intros a w u H. split; [intros c ids attrs o; now apply uoi_redis|intros r q o; now apply uoa_redis]. Qed.
Print Assumptions C30_redis_never_written.

(** update_or_instantiate returns an object with the new value; get then returns the old one *)
Definition value_of (f : string) (w : world) (x : result ref) : option val :=
  match x with Ok r => match nth_error (w_heap w) r with Some o => dget (o_vals o) f | None => None end | Err _ => None end.
Theorem C30_update_refuted :
  exists w a r, has_redis w a /\
    let w' := fst (st_update_or_instantiate a c_site [("name", VStr "nyc")] [("region", VStr "north")] w) in
    snd (st_update_or_instantiate a c_site [("name", VStr "nyc")] [("region", VStr "north")] w) = Ok (r, false) /\
    value_of "region" w' (Ok r) = Some (VStr "north") /\
    value_of "region" (fst (st_get a (MName "site") (IdStr "nyc") w')) (snd (st_get a (MName "site") (IdStr "nyc") w')) = Some (VStr "east").
Proof. exists w_redis1, 0, 13. split; [eexists; eexists; split; reflexivity|]. repeat split. Qed.
Print Assumptions C30_update_refuted.

(** a synchronisation between Redis-backed adapters reports success; the update
    it made is not there and the next comparison shows the same difference *)
Definition w_rsync : world :=
  fst (rexec_all [(0, SNew (mk_site "nyc" "east" [] 0 0)); (0, SAdd 13); (1, SNew (mk_site "nyc" "west" [] 0 1)); (1, SAdd 14)] w_redis0).
Theorem C30_sync_refuted :
  exists w d, has_redis w 0 /\ has_redis w 1 /\
    let w' := fst (sync_from 20 default_hooks 1 0 base_class 0 false None w) in
    snd (sync_from 20 default_hooks 1 0 base_class 0 false None w) = Ok d /\
    diff_has_diffs d = true /\ w_redis w' = w_redis w /\
    exists d', snd (diff_from 20 1 0 base_class 0 false w') = Ok d' /\ diff_has_diffs d' = true.
Proof.
  exists w_rsync. eexists. split; [eexists; eexists; split; reflexivity|]. split; [eexists; eexists; split; reflexivity|].
  cbn zeta. split; [vm_compute; reflexivity|]. split; [vm_compute; reflexivity|]. split; [vm_compute; reflexivity|].
  eexists. split; [vm_compute; reflexivity|vm_compute; reflexivity].
Qed.
Print Assumptions C30_sync_refuted.

(** C31.  [add_prog] issues the commands of [add], one after the other ... *)
Theorem C31_program : forall (a : aid) (r : ref) (w : world) (ad : adapter) (i : string) (o : obj) (u : string),
  nth_error (w_ads w) a = Some ad -> ad_store ad = SRedis i ->
  nth_error (w_heap w) r = Some o -> get_unique_id o = Ok u ->
  exists d, pruns (w_redis w, add_prog (redis_key i (get_type o) u) o) (d, PEnd (snd (st_add a r w))) /\
    w_redis (fst (st_add a r w)) = d.
Proof. exact add_prog_is_add. Qed.
Print Assumptions C31_program.

(** ... of two calls that do not overlap, with different objects, one is refused ... *)
Theorem C31_serial : forall (d d1 d2 : dict obj) (key : string) (o1 o2 : obj) (r1 r2 : result unit),
  dict_ok o1 -> dict_ok o2 -> (forall x, dget d key = Some x -> dict_ok x) -> dump_eq o1 o2 = false ->
  pruns (d, add_prog key o1) (d1, PEnd r1) -> pruns (d1, add_prog key o2) (d2, PEnd r2) ->
  r1 = Err ObjectAlreadyExists \/ r2 = Err ObjectAlreadyExists.
Proof. exact serial_adds. Qed.
Print Assumptions C31_serial.

Example C31_example :
  let o1 := mk_site "nyc" "east" [] 0 0 in let o2 := mk_site "nyc" "west" [] 0 1 in
  dict_ok o1 /\ dict_ok o2 /\ dump_eq o1 o2 = false /\
  pruns ([], add_prog "k" o1) ([("k", snapshot o1)], PEnd (Ok tt)) /\
  pruns ([("k", snapshot o1)], add_prog "k" o2) ([("k", snapshot o1)], PEnd (Err ObjectAlreadyExists)).
Proof.
  split; [split; repeat constructor; simpl; intuition discriminate|].
  split; [split; repeat constructor; simpl; intuition discriminate|]. split; [reflexivity|]. split.
  - eapply run_step; [constructor|]. eapply run_step; [constructor|]. apply run_none.
  - eapply run_step; [constructor|]. apply run_none.
Qed.

(** ... but of two overlapping calls both may succeed, one object being lost. *)
Theorem C31_overlap_refuted :
  exists d o1 o2 key d', dict_ok o1 /\ dict_ok o2 /\ dump_eq o1 o2 = false /\ dget d key = None /\
    pruns2 (d, add_prog key o1, add_prog key o2) (d', PEnd (Ok tt), PEnd (Ok tt)) /\
    dget d' key = Some (snapshot o2).
Proof.
  exists [], (mk_site "nyc" "east" [] 0 0), (mk_site "nyc" "west" [] 0 1), "k", [("k", snapshot (mk_site "nyc" "west" [] 0 1))].
  split; [split; repeat constructor; simpl; intuition discriminate|].
  split; [split; repeat constructor; simpl; intuition discriminate|]. split; [reflexivity|]. split; [reflexivity|]. split.
  - eapply runs_step; [apply step_left, step_get|]. eapply runs_step; [apply step_right, step_get|].
    eapply runs_step; [apply step_left, step_set|]. eapply runs_step; [apply step_right, step_set|]. apply runs_none.
  - reflexivity.
Qed.
Print Assumptions C31_overlap_refuted.
