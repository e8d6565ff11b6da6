(** * PropConc: several processes and one Redis server (C68, C69).

    Processes, commands and their interleavings are defined in ConcSpec.v. *)
From Verif Require Import ConcTop Samples.

(** C68.  The commands of a history of calls, issued without interruption, do what the calls do in the model. *)
Theorem C68_alone : forall l w d, w_redis w = [] ->
  let run := made_all l (set_redis w d) in
  many cstep (d, issued_all l w) (w_redis (fst run), Done (set_redis (fst run) [], snd run)).
Proof.
  intros l w d E run. pose proof (solo_is (issued_all l w) d) as H. rewrite (history_alone l w d E) in H. exact H.
Qed.
Print Assumptions C68_alone.
(** Processes with different store ids do not influence each other, whatever their calls, diff_from and sync_from
    included: however their commands are interleaved, each gets the results it gets alone, and leaves the entries of its
    stores as it leaves them alone; other entries stay. *)
Theorem C68_isolated : forall ps d d' qs, NoDup (concat (map pr_ids ps)) ->
  Forall (fun p => (forall i, In i (pr_ids p) -> plain i = true) /\ sound_process p) ps ->
  many sys_step (d, map started ps) (d', qs) ->
  (forall n p w' rs, nth_error ps n = Some p -> nth_error qs n = Some (Done (w', rs)) ->
     let run := made_all (pr_calls p) (set_redis (pr_world p) d) in
     rs = snd run /\ w' = set_redis (fst run) [] /\ share (pr_ids p) d' = share (pr_ids p) (w_redis (fst run))) /\
  unshared (concat (map pr_ids ps)) d' = unshared (concat (map pr_ids ps)) d.
Proof. exact isolation. Qed.
Print Assumptions C68_isolated.
(** Every interleaving ends, and until it does some process can go on. *)
Theorem C68_ends : forall d (ps : list (cprog (world * list (result reply)))),
  Acc (fun s' s => sys_step s s') (d, ps) /\ ((exists xs, all_done ps xs) \/ exists s, sys_step (d, ps) s).
Proof. exact (fun d ps => conj (sys_ends (d, ps)) (sys_moves d ps)). Qed.
Print Assumptions C68_ends.

(** Two processes, one of them with two stores between which it synchronises, and an entry of a fourth store *)
Definition site_world (i region : string) : world :=
  mkWorld [mkObj c_site [("name", VStr "nyc"); ("region", VStr region); ("note", VNone)] [("devices", [])] 0 None StSuccess "";
           mkObj c_device [("name", VStr "r1"); ("role", VStr "leaf"); ("serial", VNone)] [("interfaces", [])] 0 None StSuccess ""]
          [mkAdapter "r" "R" ["site"] [("site", c_site)] (SRedis i)] [] [].
Definition site_in (region : string) : obj := mkObj c_site [("name", VStr "nyc"); ("region", VStr region); ("note", VNone)] [("devices", [])] 0 None StSuccess "".
Definition both_world : world :=
  let w := site_world "two" "west" in mkWorld (w_heap w) (w_ads w ++ [mkAdapter "s" "S" ["site"] [("site", c_site)] (SRedis "four")]) [] [].
Definition two_stores : list process :=
  [mkProcess ["one"] (site_world "one" "east") [(0, KAdd 0); (0, KGetAll (MName "site")); (0, KRemove 5 2 true); (0, KNames)];
   mkProcess ["two"; "four"] both_world [(0, KAdd 0); (1, KSync 20 default_hooks 0 base_class 0 false None); (1, KCount None); (1, KDiff 20 0 base_class 0 false)]].
Definition server0 : dict obj := [("diffsync:three:site:nyc", site_in "north")].
Definition brief (x : result reply) : result reply :=
  match x with Ok (RDiff d) => Ok (RNames (map (fun e => match e_action e with Some ACreate => "create" | Some _ => "other" | None => "same" end) (tree_all (d_groups d)))) | _ => x end.
Example C68_example :
  NoDup (concat (map pr_ids two_stores)) /\ Forall (fun p => (forall i, In i (pr_ids p) -> plain i = true) /\ sound_process p) two_stores /\
  exists d' xs, many sys_step (server0, map started two_stores) (d', map Done xs) /\
    map (fun x => map brief (snd x)) xs =
      [[Ok RUnit; Ok (RRefs [2]); Ok RUnit; Ok (RNames [])]; [Ok RUnit; Ok (RNames ["create"]); Ok (RNat 1); Ok (RNames ["same"])]] /\
    dkeys d' = ["diffsync:three:site:nyc"; "diffsync:two:site:nyc"; "diffsync:four:site:nyc"].
Proof.
  split; [repeat constructor; cbn; intuition discriminate|]. split.
  - constructor; [|constructor; [|constructor]]; (split; [intros i I; cbn in I; intuition (subst; reflexivity)|]; split; [reflexivity|]; intros ad j I E; cbn in I; intuition (subst; cbn in E; injection E as <-; cbn; auto)).
  - pose proof (schedule_runs [0; 1; 1; 0; 0; 1; 0; 1; 1; 0; 0; 1; 0; 0; 1; 0; 1; 0; 1; 1; 1; 1; 1; 1; 1; 1; 1; 1; 1; 1; 1; 1; 1; 1; 1; 1] (server0, map started two_stores)) as R.
    remember (schedule _ _) as s eqn:E. vm_compute in E. subst s. eexists. eexists [_; _]. split; [exact R|]. split; reflexivity.
Qed.

(** C69.  On one store, additions of objects that agree wherever they have the same key all succeed, in any
    interleaving, and each key holds one of the objects. *)
Theorem C69_adds : forall ps d d' xs, Forall (fun p => exists k o, adds_one p k o) ps ->
  (forall n m p q k o o', n <> m -> nth_error ps n = Some p -> nth_error ps m = Some q -> adds_one p k o -> adds_one q k o' -> dump_eq o o' = true) ->
  (forall p k o x, In p ps -> adds_one p k o -> dget d k = Some x -> dump_eq x o = true) ->
  many sys_step (d, map started ps) (d', map Done xs) ->
  xs = map (fun p => (pr_world p, [Ok RUnit])) ps /\
  forall k, match dget d k with
            | Some x => dget d' k = Some x
            | None => (exists p o, In p ps /\ adds_one p k o /\ dget d' k = Some (set_o_adapter o None)) \/
                      (dget d' k = None /\ forall p o, In p ps -> ~ adds_one p k o)
            end.
Proof. exact concurrent_adds. Qed.
Print Assumptions C69_adds.
Definition adder_of (r : ref) : process := mkProcess ["one"] (site_world "one" "east") [(0, KAdd r)].
Lemma adder_adds r k o : adds_one (adder_of r) k o ->
  (r = 0 /\ k = "diffsync:one:site:nyc"%string /\ o = site_in "east") \/ (r = 1 /\ k = "diffsync:one:device:r1"%string).
Proof.
  intros (a & r' & ad & i & u & C & NA & S & NO & U & ->). cbn in C. injection C as <- <-. cbn in NA. injection NA as <-. cbn in S. injection S as <-.
  destruct r as [|[|r]]; cbn in NO; [injection NO as <-; vm_compute in U; injection U as <-; left; auto|injection NO as <-; vm_compute in U; injection U as <-; right; auto|destruct r; discriminate].
Qed.
Example C69_example : let ps := [adder_of 0; adder_of 1; adder_of 0] in
  Forall (fun p => exists k o, adds_one p k o) ps /\
  (forall n m p q k o o', n <> m -> nth_error ps n = Some p -> nth_error ps m = Some q -> adds_one p k o -> adds_one q k o' -> dump_eq o o' = true) /\
  (forall p k o x, In p ps -> adds_one p k o -> dget server0 k = Some x -> dump_eq x o = true) /\
  exists d' xs, many sys_step (server0, map started ps) (d', map Done xs) /\
    dkeys d' = ["diffsync:three:site:nyc"; "diffsync:one:site:nyc"; "diffsync:one:device:r1"].
Proof.
  intros ps. split; [|split; [|split]].
  - repeat constructor; eexists; eexists; exists 0; do 4 eexists; repeat split; reflexivity.
  - intros n m p q k o o' NE N M A B.
    assert (X : forall n p, nth_error ps n = Some p -> p = adder_of 0 \/ (n = 1 /\ p = adder_of 1)) by (intros [|[|[|[|j]]]] x H; cbn in H; try discriminate; injection H as <-; auto).
    apply X in N as [->|(-> & ->)]; apply X in M as [->|(-> & ->)]; try congruence;
      apply adder_adds in A as [(R & -> & ->)|(R & ->)]; try discriminate R; apply adder_adds in B as [(R' & E & ->)|(R' & E)]; try discriminate; reflexivity.
  - intros p k o x I A G. destruct I as [<-|[<-|[<-|[]]]]; apply adder_adds in A as [(_ & -> & _)|(_ & ->)]; discriminate G.
  - pose proof (schedule_runs [0; 1; 2; 2; 1; 0] (server0, map started ps)) as R.
    remember (schedule _ _) as s eqn:E. vm_compute in E. subst s. eexists. eexists [_; _; _]. split; [exact R|]. reflexivity.
Qed.

(** With other calls the processes of one store do influence each other: of two removals of one object both may
    succeed, whereas one after the other the second fails ... *)
Definition holder (c : call) : process := mkProcess ["one"] (site_world "one" "east") [(0, c)].
Definition server1 : dict obj := [("diffsync:one:site:nyc", site_in "east")].
Theorem C69_remove_refuted : exists d' xs d'' ys,
  many sys_step (server1, map started [holder (KRemove 1 0 false); holder (KRemove 1 0 false)]) (d', map Done xs) /\
  map snd xs = [[Ok RUnit]; [Ok RUnit]] /\
  many sys_step (server1, map started [holder (KRemove 1 0 false); holder (KRemove 1 0 false)]) (d'', map Done ys) /\
  map snd ys = [[Ok RUnit]; [Err ObjectNotFound]].
Proof.
  pose proof (schedule_runs [0; 1; 0; 1] (server1, map started [holder (KRemove 1 0 false); holder (KRemove 1 0 false)])) as R.
  pose proof (schedule_runs [0; 0; 1] (server1, map started [holder (KRemove 1 0 false); holder (KRemove 1 0 false)])) as R'.
  remember (schedule [0; 1; 0; 1] _) as s eqn:E. vm_compute in E. subst s. remember (schedule [0; 0; 1] _) as s' eqn:E'. vm_compute in E'. subst s'.
  eexists. exists [(site_world "one" "east", [Ok RUnit]); (site_world "one" "east", [Ok RUnit])]. eexists. eexists [_; _]. split; [exact R|]. split; [reflexivity|]. split; [exact R'|]. reflexivity.
Qed.
Print Assumptions C69_remove_refuted.
(** ... get_all fails when an object is removed in the meantime, although it never fails alone ... *)
Theorem C69_get_all_refuted : exists d' xs,
  many sys_step (server1, map started [holder (KGetAll (MName "site")); holder (KRemoveItem "site" "nyc")]) (d', map Done xs) /\
  map snd xs = [[Err ObjectNotFound]; [Ok RUnit]].
Proof.
  pose proof (schedule_runs [0; 1; 1; 0] (server1, map started [holder (KGetAll (MName "site")); holder (KRemoveItem "site" "nyc")])) as R.
  remember (schedule _ _) as s eqn:E. vm_compute in E. subst s. eexists. eexists [_; _]. split; [exact R|]. reflexivity.
Qed.
Print Assumptions C69_get_all_refuted.
(** ... and get_or_instantiate may be refused, although alone it either finds the object or creates it. *)
Theorem C69_instantiate_refuted : exists d' xs,
  let k region := holder (KGetOrInstantiate c_site [("name", VStr "nyc")] [("region", VStr region)]) in
  many sys_step ([], map started [k "east"%string; k "west"%string]) (d', map Done xs) /\
  map snd xs = [[Ok (RNew (2, true))]; [Err ObjectAlreadyExists]].
Proof.
  pose proof (schedule_runs [0; 1; 0; 0; 1] ([], map started [holder (KGetOrInstantiate c_site [("name", VStr "nyc")] [("region", VStr "east")]); holder (KGetOrInstantiate c_site [("name", VStr "nyc")] [("region", VStr "west")])])) as R.
  remember (schedule _ _) as s eqn:E. vm_compute in E. subst s. eexists. eexists [_; _]. cbv zeta. split; [exact R|]. reflexivity.
Qed.
Print Assumptions C69_instantiate_refuted.
