(** * PropCutSync: synchronisations and other processes, commands one by one (C82). *)
From Verif Require Import CutSync Samples ServerSample PropServer PropCut WholeFacts ConvSample.

(** C82.  Comparing changes nothing on the server, at no point. *)
Theorem C82_diff : forall a fuel src dc flags cb w d d1 q,
  many cstep (d, issued a (KDiff fuel src dc flags cb) w) (d1, q) -> d1 = d.
Proof. intros a fuel src dc flags cb w d d1 q R. now apply (silent_cut _ (silent_call a (KDiff fuel src dc flags cb) w I)) in R. Qed.
Print Assumptions C82_diff.
(** Nor does a synchronisation that comes to no diff: one that is refused, or whose comparison fails. *)
Theorem C82_nothing : forall fuel h dst src dc flags cb given w d0 d1 q, w_redis w = [] ->
  (forall dd, ~ uses fuel dst src dc flags cb given (set_redis w d0) dd) ->
  many cstep (d0, issued dst (KSync fuel h src dc flags cb given) w) (d1, q) -> d1 = d0.
Proof. exact cut_nothing. Qed.
Print Assumptions C82_nothing.
(** A synchronisation into a RedisStore that is cut short between two commands, whatever its hooks do and whatever its
    flags: each entry is as it was before the call, or as the whole call would have left it; the latter only if it is to
    be created and was not there, or is to be deleted and is gone. *)
Theorem C82_cut : forall fuel h dst src dc flags cb given w d0 da i dd d1 q k, w_redis w = [] -> server_dst (set_redis w d0) dst da i ->
  uses fuel dst src dc flags cb given (set_redis w d0) dd -> deletes_whole (d_groups dd) -> no_moves (set_redis w d0) dst (d_groups dd) ->
  many cstep (d0, issued dst (KSync fuel h src dc flags cb given) w) (d1, q) ->
  let w2 := fst (ConcSpec.made dst (KSync fuel h src dc flags cb given) (set_redis w d0)) in
  dget d1 k = dget d0 k \/
  (dget d1 k = dget (w_redis w2) k /\ exists t u, k = redis_key i t u /\
    ((mentioned w dst (d_groups dd) is_create_act (t, u) /\ dget d0 k = None) \/ (mentioned w dst (d_groups dd) is_delete_act (t, u) /\ dget d1 k = None))).
Proof. exact cut_sync. Qed.
Print Assumptions C82_cut.
(** In particular for the diff that the call computes itself. *)
Theorem C82_computed : forall fuel h dst src dc flags cb w d0 da i dd d1 q k, w_redis w = [] -> server_dst (set_redis w d0) dst da i ->
  snd (diff_from fuel dst src dc flags cb (set_redis w d0)) = Ok dd -> no_moves (set_redis w d0) dst (d_groups dd) ->
  many cstep (d0, issued dst (KSync fuel h src dc flags cb None) w) (d1, q) ->
  dget d1 k = dget d0 k \/ dget d1 k = dget (w_redis (fst (ConcSpec.made dst (KSync fuel h src dc flags cb None) (set_redis w d0)))) k.
Proof.
  intros fuel h dst src dc flags cb w d0 da i dd d1 q k E SD DF NM R. assert (U : uses fuel dst src dc flags cb None (set_redis w d0) dd) by (right; split; [now left|exact DF]).
  destruct (cut_sync fuel h dst src dc flags cb None w d0 da i dd d1 q k E SD U (computed_whole _ _ _ _ _ _ _ _ DF) NM R) as [X|(X & _)]; [now left|now right].
Qed.
Print Assumptions C82_computed.
(** While other processes only read, from the same store or others, a process gets the results it gets alone, and what
    is on the server at any time is what is there at some time when it runs alone. *)
Theorem C82_readers : forall ps d d' qs n p, many sys_step (d, map started ps) (d', qs) -> nth_error ps n = Some p -> w_redis (pr_world p) = [] ->
  (forall m p', m <> n -> nth_error ps m = Some p' -> Forall (fun ac => only_reads (snd ac)) (pr_calls p')) ->
  (exists q, nth_error qs n = Some q /\ many cstep (d, started p) (d', q)) /\
  forall w' rs, nth_error qs n = Some (Done (w', rs)) ->
    let run := made_all (pr_calls p) (set_redis (pr_world p) d) in rs = snd run /\ w' = set_redis (fst run) [] /\ d' = w_redis (fst run).
Proof.
  intros ps d d' qs n p R N E S. split; [exact (readers _ _ _ _ _ _ R N S)|]. intros w' rs Q. exact (readers_done _ _ _ _ _ _ _ _ R N E S Q).
Qed.
Print Assumptions C82_readers.

(** The synchronisation of C70_example, stopped in the middle *)
Definition w_cut : world := set_redis w_serve [].
Definition d_cut : dict obj := w_redis w_serve.
Definition to_serve : call := KSync 20 note_hooks 0 base_class 0 false None.
Definition at_turn (n : nat) : dict obj := match turns n d_cut (issued 1 to_serve w_cut) with Some (d, _) => d | None => [] end.
Lemma cut_at n : option_map (fun x => running (snd x)) (turns n d_cut (issued 1 to_serve w_cut)) = Some true ->
  exists q, many cstep (d_cut, issued 1 to_serve w_cut) (at_turn n, q) /\ (forall x, q <> Done x).
Proof.
  unfold at_turn. intros H. destruct (turns n d_cut (issued 1 to_serve w_cut)) as [[d q]|] eqn:E; [|discriminate]. injection H as H.
  destruct (run_cut n (issued 1 to_serve w_cut) d_cut d true) as (q' & M & N); [rewrite E; cbn; now rewrite H|]. exists q'. split; [exact M|now apply N].
Qed.
Definition whole_run : world := fst (ConcSpec.made 1 to_serve (set_redis w_cut d_cut)).
(** after 20 of its 25 commands: r1 is gone, r2, lon and r3 are there, par is still there *)
Example C82_example :
  w_redis w_cut = [] /\ (exists da, server_dst (set_redis w_cut d_cut) 1 da "green") /\
  uses 20 1 0 base_class 0 false None (set_redis w_cut d_cut) d_serve /\ deletes_whole (d_groups d_serve) /\ no_moves (set_redis w_cut d_cut) 1 (d_groups d_serve) /\
  snd (ConcSpec.made 1 to_serve (set_redis w_cut d_cut)) = Ok (RDiff d_serve) /\
  (exists q, many cstep (d_cut, issued 1 to_serve w_cut) (at_turn 20, q) /\ (forall x, q <> Done x)) /\
  dkeys d_cut = map (fun x => append "diffsync:green:" x) ["site:nyc"; "device:r1"; "site:par"; "site:ber"] /\
  dkeys (at_turn 20) = map (fun x => append "diffsync:green:" x) ["site:nyc"; "site:par"; "site:ber"; "device:r2"; "site:lon"; "device:r3"] /\
  dkeys (w_redis whole_run) = map (fun x => append "diffsync:green:" x) ["site:nyc"; "site:ber"; "device:r2"; "site:lon"; "device:r3"] /\
  dget (at_turn 20) "diffsync:green:site:lon" = dget (w_redis whole_run) "diffsync:green:site:lon".
Proof.
  split; [reflexivity|]. split; [apply serverb_ok; vm_compute; reflexivity|]. split; [right; split; [now left|vm_compute; reflexivity]|].
  split; [apply (computed_whole 20 1 0 base_class 0 false w_serve); vm_compute; reflexivity|].
  split; [apply (server_posedb_ok w_serve 1 "green"); vm_compute; reflexivity|]. split; [vm_compute; reflexivity|].
  split; [apply cut_at; vm_compute; reflexivity|]. do 3 (split; [vm_compute; reflexivity|]). vm_compute. reflexivity.
Qed.
(** when it has run to its end, the next one comes to no diff, see C70_compare_refuted *)
Example C82_nothing_example :
  (forall dd, ~ uses 20 1 0 base_class 0 false None (set_redis w_cut (w_redis whole_run)) dd) /\ dkeys (w_redis whole_run) <> [] /\
  option_map fst (turns 4 (w_redis whole_run) (issued 1 to_serve w_cut)) = Some (w_redis whole_run).
Proof.
  split; [|split; [vm_compute; discriminate|vm_compute; reflexivity]]. intros dd [(H & _)|(_ & H)]; [discriminate|]. vm_compute in H. discriminate.
Qed.
(** one process synchronises, another compares with the same store and reads from it all the while *)
Definition watcher : process := mkProcess ["green"] w_cut [(0, KDiff 20 1 base_class 0 false); (1, KGetAll (MName "device")); (1, KNames)].
Example C82_readers_example : let ps := [mkProcess ["green"] w_cut [(1, to_serve)]; watcher] in
  Forall (fun ac => only_reads (snd ac)) (pr_calls watcher) /\
  exists d' xs, many sys_step (d_cut, map started ps) (d', map Done xs) /\
    map (fun x => map (fun r => match r with Ok (RDiff d) => Ok (RNat (length (tree_all (d_groups d)))) | _ => r end) (snd x)) xs = [[Ok (RNat 7)]; [Ok (RNat 7); Ok (RRefs [13]); Ok (RNames ["device"; "site"])]] /\
    dkeys d' = map (fun x => append "diffsync:green:" x) ["site:nyc"; "site:ber"; "device:r2"; "site:lon"; "device:r3"].
Proof.
  split; [repeat constructor|].
  match goal with |- exists _ _, many _ ?s _ /\ _ => pose proof (schedule_runs (concat (repeat [0; 1] 60))%list s) as R end.
  remember (schedule _ _) as s eqn:E. vm_compute in E. subst s. eexists. eexists [_; _]. split; [exact R|]. split; vm_compute; reflexivity.
Qed.

(** A synchronisation that was cut short cannot be completed by repeating it: the repetition fails as soon as a stored
    object names a child that is gone, and what was to be deleted after that stays. *)
Theorem C82_repeat_refuted : exists w d0 c d1 q, w_redis w = [] /\ (exists da, server_dst (set_redis w d0) 1 da "green") /\
  snd (ConcSpec.made 1 c (set_redis w d0)) = Ok (RDiff d_serve) /\ many cstep (d0, issued 1 c w) (d1, q) /\
  snd (ConcSpec.made 1 c (set_redis w d1)) = Err ObjectNotFound /\
  let k := redis_key "green" "site" "par" in
  dget (w_redis (fst (ConcSpec.made 1 c (set_redis w d0)))) k = None /\ dget (w_redis (fst (ConcSpec.made 1 c (set_redis w d1)))) k <> None.
Proof.
  destruct (cut_at 20) as (q & R & _); [vm_compute; reflexivity|]. exists w_cut, d_cut, to_serve, (at_turn 20), q. split; [reflexivity|].
  split; [apply serverb_ok; vm_compute; reflexivity|]. split; [vm_compute; reflexivity|]. split; [exact R|]. split; [vm_compute; reflexivity|].
  cbv zeta. split; [vm_compute; reflexivity|]. vm_compute. discriminate.
Qed.
Print Assumptions C82_repeat_refuted.
(** Two processes that synchronise the same source into one store: one after the other, both succeed; at the same time,
    one of them can fail, although it only creates what the other has created. *)
Definition twin : process :=
  mkProcess ["green"] (mkWorld [mk_site "lon" "uk" [] 0 0] [mk_ad "src" (SLocal [("site", [("lon", 0)])]); mk_ad "dst" (SRedis "green")] [] [])
    [(1, KSync 20 default_hooks 0 base_class 0 false None)].
Definition went (r : result reply) : option exn := match r with Ok _ => None | Err e => Some e end.
Theorem C82_writers_refuted : exists ps d1 xs d2 ys, Forall sound_process ps /\
  (many sys_step ([], map started ps) (d1, map Done xs) /\ map (fun x => map went (snd x)) xs = [[None]; [None]]) /\
  (many sys_step ([], map started ps) (d2, map Done ys) /\ map (fun x => map went (snd x)) ys = [[None]; [Some ObjectNotCreated]]).
Proof.
  exists [twin; twin].
  pose proof (schedule_runs (repeat 0 20 ++ repeat 1 20)%list ([], map started [twin; twin])) as R1. remember (schedule _ _) as s1 eqn:E1. vm_compute in E1. subst s1.
  pose proof (schedule_runs (repeat 1 2 ++ repeat 0 20 ++ repeat 1 20)%list ([], map started [twin; twin])) as R2. remember (schedule _ _) as s2 eqn:E2. vm_compute in E2. subst s2.
  eexists _, [_; _], _, [_; _]. split; [|split; [split; [exact R1|reflexivity]|split; [exact R2|reflexivity]]].
  assert (Q : sound_process twin) by (split; [reflexivity|]; intros ad j [<-|[<-|[]]] H; [discriminate|injection H as <-; now left]).
  constructor; [exact Q|]. constructor; [exact Q|]. constructor.
Qed.
Print Assumptions C82_writers_refuted.
