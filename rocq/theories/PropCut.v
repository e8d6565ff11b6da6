(** * PropCut: calls on a RedisStore that are cut short (C71).

    A call is a sequence of commands (ConcDefs.v).  A lost connection, or the death of the process, stops it between two
    commands; the server is left in the state reached by then: [many cstep (d, issued a c w) (d1, _)]. *)
From Verif Require Import CutFacts Samples.

(** C71.  Of a call other than remove(remove_children=True) and sync_from, everything or nothing has reached the
    server. *)
Theorem C71_once : forall a c w d d1 q, w_redis w = [] -> at_once c ->
  many cstep (d, issued a c w) (d1, q) ->
  d1 = d \/ d1 = w_redis (fst (made a c (set_redis w d))).
Proof. exact cut_once. Qed.
Print Assumptions C71_once.
(** A removal that is cut short has removed some of the entries that it was to remove, and has changed nothing else. *)
Theorem C71_remove : forall a fuel r b w d d1 q, w_redis w = [] -> many cstep (d, issued a (KRemove fuel r b) w) (d1, q) ->
  incl (w_redis (fst (made a (KRemove fuel r b) (set_redis w d)))) d1 /\ incl d1 d.
Proof. exact cut_remove. Qed.
Print Assumptions C71_remove.
(** A process that stops at any point of its history leaves the server as after some number of its calls, or in the
    middle of a removal with children, or of a synchronisation (for which see C82). *)
Theorem C71_history : forall l w d d1 q, w_redis w = [] -> many cstep (d, issued_all l w) (d1, q) ->
  exists n, let w1 := fst (made_all (firstn n l) (set_redis w d)) in
    d1 = w_redis w1 \/
    (exists a fuel r, nth_error l n = Some (a, KRemove fuel r true) /\
      incl (w_redis (fst (made a (KRemove fuel r true) w1))) d1 /\ incl d1 (w_redis w1)) \/
    (exists a fuel h src dc flags cb given q', let c := KSync fuel h src dc flags cb given in
      nth_error l n = Some (a, c) /\ many cstep (w_redis w1, issued a c (set_redis w1 [])) (d1, q')).
Proof.
  intros l w d d1 q E R. apply cut_history in R as (n & R); [|exact E]. exists n. cbv zeta in *. destruct R as [R|(a & c & q' & N & X & R)]; [now left|]. right.
  destruct c; try (now destruct X).
  - left. destruct children; [|now destruct X]. apply cut_remove in R as R'; [|reflexivity]. rewrite redis_twice, redis_eta in R'. eauto 6.
  - right. exists a, fuel, h, src, dc, flags, cb, given, q'. now split.
Qed.
Print Assumptions C71_history.
(** add and update can be repeated after an interruption: the outcome is that of a call that was not interrupted.
    ([dump_eq o o]: the object has no NaN, see C71_nan_refuted.) *)
Theorem C71_retry : forall a w d d1 q c ad i r o u, w_redis w = [] -> nth_error (w_ads w) a = Some ad -> ad_store ad = SRedis i ->
  nth_error (w_heap w) r = Some o -> get_unique_id o = Ok u -> dump_eq o o = true -> c = KAdd r \/ c = KUpdate r ->
  many cstep (d, issued a c w) (d1, q) -> made a c (set_redis w d1) = made a c (set_redis w d).
Proof. exact cut_retry. Qed.
Print Assumptions C71_retry.

(** A site with two devices on the server, and a process that holds the site *)
Definition cut_site : obj := mkObj c_site [("name", VStr "nyc"); ("region", VStr "east"); ("note", VNone)] [("devices", ["r1"; "r2"])] 0 None StSuccess "".
Definition cut_device (n : string) : obj := mkObj c_device [("name", VStr n); ("role", VStr "leaf"); ("serial", VNone)] [("interfaces", [])] 0 None StSuccess "".
Definition cut_server : dict obj :=
  [("diffsync:one:site:nyc", cut_site); ("diffsync:one:device:r1", cut_device "r1"); ("diffsync:one:device:r2", cut_device "r2"); ("diffsync:two:site:nyc", cut_site)].
Definition cut_world : world :=
  mkWorld [cut_site; cut_device "r3"] [mkAdapter "r" "R" ["site"] [("site", c_site); ("device", c_device)] (SRedis "one")] [] [].
Fixpoint turns {A} (n : nat) (d : dict obj) (p : cprog A) : option (dict obj * cprog A) :=
  match n with 0 => Some (d, p) | S n' => match turn d p with Some (d', p') => turns n' d' p' | None => None end end.
Definition running {A} (p : cprog A) : bool := match p with Done _ => false | _ => true end.
Lemma run_cut {A} n (p : cprog A) d d1 b : option_map (fun x => (fst x, running (snd x))) (turns n d p) = Some (d1, b) ->
  exists q, many cstep (d, p) (d1, q) /\ (b = true -> forall x, q <> Done x).
Proof.
  destruct (turns n d p) as [[d' q]|] eqn:E; [|discriminate]. cbn. intros H. injection H as <- <-. exists q. split.
  - revert d p E. induction n as [|n IH]; intros d p H; cbn [turns] in H.
    + injection H as <- <-. apply many_none.
    + destruct p; cbn [turn] in H; try discriminate; (eapply many_more; [constructor|]; apply IH; exact H).
  - intros R x ->. discriminate.
Qed.
(** cut after four commands the removal has removed the site and one device; the addition can be cut before its SET *)
Example C71_example :
  w_redis cut_world = [] /\
  (exists d1 q, many cstep (cut_server, issued 0 (KRemove 5 0 true) cut_world) (d1, q) /\ dkeys d1 = ["diffsync:one:device:r2"; "diffsync:two:site:nyc"]) /\
  dkeys (w_redis (fst (made 0 (KRemove 5 0 true) (set_redis cut_world cut_server)))) = ["diffsync:two:site:nyc"] /\
  (exists q, many cstep (cut_server, issued 0 (KAdd 1) cut_world) (cut_server, q) /\ q <> Done (cut_world, Ok RUnit)) /\
  dump_eq (cut_device "r3") (cut_device "r3") = true /\
  dkeys (w_redis (fst (made 0 (KAdd 1) (set_redis cut_world cut_server)))) = dkeys cut_server ++ ["diffsync:one:device:r3"%string].
Proof.
  split; [reflexivity|]. split; [|split; [reflexivity|split; [|split; reflexivity]]].
  - destruct (run_cut 5 (issued 0 (KRemove 5 0 true) cut_world) cut_server [("diffsync:one:device:r2", cut_device "r2"); ("diffsync:two:site:nyc", cut_site)] true) as (q & M & _); [vm_compute; reflexivity|].
    eexists. exists q. split; [exact M|reflexivity].
  - destruct (run_cut 1 (issued 0 (KAdd 1) cut_world) cut_server cut_server true) as (q & M & N); [vm_compute; reflexivity|]. exists q. split; [exact M|now apply N].
Qed.

(** A removal that was cut short cannot be completed by repeating it: the object itself goes first, so that the call is
    then refused, and its children stay. *)
Theorem C71_remove_refuted : exists d1 q,
  many cstep (cut_server, issued 0 (KRemove 5 0 true) cut_world) (d1, q) /\
  snd (made 0 (KRemove 5 0 true) (set_redis cut_world cut_server)) = Ok RUnit /\
  snd (made 0 (KRemove 5 0 true) (set_redis cut_world d1)) = Err ObjectNotFound /\
  w_redis (fst (made 0 (KRemove 5 0 true) (set_redis cut_world d1))) = d1 /\
  dkeys d1 = ["diffsync:one:device:r1"; "diffsync:one:device:r2"; "diffsync:two:site:nyc"].
Proof.
  destruct (run_cut 2 (issued 0 (KRemove 5 0 true) cut_world) cut_server (tl cut_server) true) as (q & M & _); [vm_compute; reflexivity|].
  exists (tl cut_server), q. split; [exact M|]. repeat split; vm_compute; reflexivity.
Qed.
Print Assumptions C71_remove_refuted.
(** With NaN among its attributes an object cannot be added again. *)
Definition nan_world : world :=
  mkWorld [mkObj c_device [("name", VStr "r3"); ("role", VNaN); ("serial", VNone)] [("interfaces", [])] 0 None StSuccess ""]
          [mkAdapter "r" "R" ["site"] [("site", c_site); ("device", c_device)] (SRedis "one")] [] [].
Theorem C71_nan_refuted : exists d1 q,
  many cstep (cut_server, issued 0 (KAdd 0) nan_world) (d1, q) /\
  snd (made 0 (KAdd 0) (set_redis nan_world cut_server)) = Ok RUnit /\
  snd (made 0 (KAdd 0) (set_redis nan_world d1)) = Err ObjectAlreadyExists.
Proof.
  destruct (run_cut 2 (issued 0 (KAdd 0) nan_world) cut_server (cut_server ++ [("diffsync:one:device:r3", set_o_adapter (hd cut_site (w_heap nan_world)) None)]) false) as (q & M & _); [vm_compute; reflexivity|].
  eexists. exists q. split; [exact M|]. split; vm_compute; reflexivity.
Qed.
Print Assumptions C71_nan_refuted.
