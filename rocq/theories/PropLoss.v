(** * PropLoss: Redis commands that fail (C103).

    [risked a c w] are the commands of a call, each with what follows its reply or the exception of the client
    (LossDefs.v); [risk net 0 d] runs them with a server holding [d] and a network that loses commands or replies as
    [net] says (LossSpec.v).  [made] is the call on a server that always answers, [issued] its commands (ConcSpec.v). *)
From Verif Require Import LossFacts PropCut PropCutSync PropServer Samples ServerSample.

(** C103.  Any call, synchronisations included, while any commands fail with any exceptions other than diffsync's own:
    either nothing failed and the call did what it always does; or the first command that failed was its last, its
    exception is raised, and the server is as after that many commands of the call: [n] if the command was lost,
    one more if only the reply was. *)
Theorem C103_stops : forall net a c w d, w_redis w = [] -> sane net ->
  let '(m, d', (w', r)) := risk net 0 d (risked a c w) in
  (served net 0 m /\ (set_redis w' d', r) = ConcSpec.made a c (set_redis w d) /\ w_redis w' = []) \/
  (exists n x, m = 1 + n /\ served net 0 n /\ r = Err x /\
     ((net n = NotSent x /\ exists q, times cstep n (d, issued a c w) (d', q)) \/
      (net n = NoReply x /\ exists q, times cstep (1 + n) (d, issued a c w) (d', q)))).
Proof. exact call_fails. Qed.
Print Assumptions C103_stops.

(** Hence a call other than remove(remove_children=True) and sync_from did to the server all that it should or nothing, *)
Theorem C103_once : forall net a c w d, w_redis w = [] -> sane net -> at_once c ->
  let d' := snd (fst (risk net 0 d (risked a c w))) in
  d' = d \/ d' = w_redis (fst (ConcSpec.made a c (set_redis w d))).
Proof.
  intros net a c w d E SN O. cbv zeta. pose proof (call_cut net a c w d E SN) as H. destruct (risk net 0 d (risked a c w)) as [[m d'] y].
  destruct H as (q & H). exact (cut_once a c w d d' q E O H).
Qed.
Print Assumptions C103_once.
(** ... a comparison did nothing to it, *)
Theorem C103_diff : forall net a fuel src dc flags cb w d, w_redis w = [] -> sane net ->
  snd (fst (risk net 0 d (risked a (KDiff fuel src dc flags cb) w))) = d.
Proof.
  intros net a fuel src dc flags cb w d E SN. pose proof (call_cut net a (KDiff fuel src dc flags cb) w d E SN) as H.
  destruct (risk net 0 d _) as [[m d'] y]. destruct H as (q & H). exact (C82_diff a fuel src dc flags cb w d d' q H).
Qed.
Print Assumptions C103_diff.
(** ... and a synchronisation into a RedisStore left each entry as it was or as the whole call leaves it. *)
Theorem C103_sync : forall net fuel h dst src dc flags cb given w d0 da i dd k, w_redis w = [] -> sane net ->
  server_dst (set_redis w d0) dst da i -> uses fuel dst src dc flags cb given (set_redis w d0) dd -> deletes_whole (d_groups dd) ->
  no_moves (set_redis w d0) dst (d_groups dd) ->
  let c := KSync fuel h src dc flags cb given in
  let d' := snd (fst (risk net 0 d0 (risked dst c w))) in
  dget d' k = dget d0 k \/ dget d' k = dget (w_redis (fst (ConcSpec.made dst c (set_redis w d0)))) k.
Proof.
  intros net fuel h dst src dc flags cb given w d0 da i dd k E SN SD U DW NM. cbv zeta.
  pose proof (call_cut net dst (KSync fuel h src dc flags cb given) w d0 E SN) as H. destruct (risk net 0 d0 _) as [[m d'] y]. destruct H as (q & H). cbn [fst snd].
  destruct (C82_cut fuel h dst src dc flags cb given w d0 da i dd d' q k E SD U DW NM H) as [X|(X & _)]; [now left|now right].
Qed.
Print Assumptions C103_sync.
(** add and update on a RedisStore can be tried again, also when the reply to an earlier attempt was lost: the outcome is
    that of a call at which nothing fails. *)
Theorem C103_retry : forall net a c w d ad i r o u, w_redis w = [] -> sane net -> nth_error (w_ads w) a = Some ad -> ad_store ad = SRedis i ->
  nth_error (w_heap w) r = Some o -> get_unique_id o = Ok u -> dump_eq o o = true -> c = KAdd r \/ c = KUpdate r ->
  let '(_, d', (w', _)) := risk net 0 d (risked a c w) in
  ConcSpec.made a c (set_redis w' d') = ConcSpec.made a c (set_redis w d).
Proof.
  intros net a c w d ad i r o u E SN EA ES EO EU DE C. pose proof (call_cut net a c w d E SN) as H. pose proof (risk_still net a c w d r ad i EA ES C) as M.
  destruct (risk net 0 d (risked a c w)) as [[m d'] [w' y]]. cbn [fst snd] in M. subst w'. destruct H as (q & H).
  exact (cut_retry a w d d' q c ad i r o u E EA ES EO EU DE C H).
Qed.
Print Assumptions C103_retry.

(** the synchronisation of C82_example: its command number 19 is lost, or its reply *)
Definition fails_at (n : nat) (f : cfate) (i : nat) : cfate := if Nat.eqb i n then f else Served.
Lemma fails_sane n f : match f with Served => True | NotSent x | NoReply x => foreign x end -> sane (fails_at n f).
Proof. intros H i. unfold fails_at. destruct (Nat.eqb i n); [exact H|exact I]. Qed.
Example C103_example : let lost := fails_at 19 (NotSent (UserExn 7)) in let mute := fails_at 19 (NoReply (UserExn 7)) in
  sane lost /\ sane mute /\ w_redis w_cut = [] /\
  (let '(m, d', (_, r)) := risk lost 0 d_cut (risked 1 to_serve w_cut) in (m, dkeys d', r)) =
    (20, dkeys (at_turn 19), Err (UserExn 7)) /\
  (let '(m, d', (_, r)) := risk mute 0 d_cut (risked 1 to_serve w_cut) in (m, dkeys d', r)) =
    (20, dkeys (at_turn 20), Err (UserExn 7)) /\
  (let '(m, d', (_, r)) := risk (fun _ => Served) 0 d_cut (risked 1 to_serve w_cut) in (m, d', r)) =
    (25, w_redis whole_run, Ok (RDiff d_serve)) /\
  (* an addition whose reply is lost, and the second attempt *)
  (let '(m, d', (w', r)) := risk (fails_at 1 (NoReply (UserExn 7))) 0 cut_server (risked 0 (KAdd 1) cut_world) in
   (m, r, length d', snd (ConcSpec.made 0 (KAdd 1) (set_redis w' d')))) = (2, Err (UserExn 7), 1 + length cut_server, Ok RUnit).
Proof.
  cbv zeta. split; [now apply fails_sane|]. split; [now apply fails_sane|]. split; [reflexivity|]. do 3 (split; [vm_compute; reflexivity|]). vm_compute. reflexivity.
Qed.
Print Assumptions C103_example.

(** Not claimed for exceptions of diffsync's own, as a client that is wrapped could raise them: a lost lookup is then
    taken for the absence of the object, and the call succeeds. *)
Theorem C103_foreign_refuted : ~ (forall net a c w d, w_redis w = [] -> let '(m, _, (_, r)) := risk net 0 d (risked a c w) in
  served net 0 m \/ exists x, r = Err x).
Proof.
  intros H. specialize (H (fails_at 0 (NotSent ObjectNotFound)) 0 (KGetOrNone (MName "site") (IdStr "nyc")) cut_world cut_server eq_refl).
  vm_compute in H. destruct H as [H|(x & H)]; [|discriminate H]. specialize (H 0 ltac:(lia)). discriminate H.
Qed.
Print Assumptions C103_foreign_refuted.
(** Nor can a removal with children be completed after a failure: the second attempt is refused. *)
Theorem C103_remove_refuted : exists net, sane net /\
  let '(m, d', (w', r)) := risk net 0 cut_server (risked 0 (KRemove 5 0 true) cut_world) in
  snd (ConcSpec.made 0 (KRemove 5 0 true) (set_redis cut_world cut_server)) = Ok RUnit /\ r = Err (UserExn 7) /\
  ConcSpec.made 0 (KRemove 5 0 true) (set_redis w' d') = (set_redis w' d', Err ObjectNotFound) /\ dkeys d' <> dkeys cut_server.
Proof.
  exists (fails_at 2 (NotSent (UserExn 7))). split; [now apply fails_sane|]. vm_compute. repeat split; discriminate.
Qed.
Print Assumptions C103_remove_refuted.
