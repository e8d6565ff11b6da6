(** * PropFail: what a synchronisation leaves in the destination when hooks fail (C72).

    [went], [breaks_off] and [unchanged_at] are defined in FailSpec.v, [alike] in ConvergeSpec.v. *)
From Verif Require Import FailTop ConvSample.

(** C72.  Each element was carried out, or its hook failed and it and what is below it was given up, or the
    synchronisation was broken off before; the latter not if it returned. *)
Theorem C72_each : forall X fuel h dst src dcd dc flags fl cbd cb given w d sa da,
  alike w fuel src dst sa da -> hooks_honest h -> hooks_write X h -> snd (diff_from fuel dst src dcd flags cbd w) = Ok d -> yields_once (dc_order (d_class d)) ->
  uses fuel dst src dc fl cb given w d ->
  let (w', r) := sync_from fuel h dst src dc fl cb given w in
  forall t g n e, In (t, g) (d_groups d) -> In (n, e) g -> exists fin, (r = Ok d -> fin = true) /\ went X h w dst w' fin e.
Proof.
  intros X fuel h dst src dcd dc flags fl cbd cb given w d sa da AL HH HW DF YO US.
  pose proof (failing_leaves fuel h dst src dcd dc flags fl cbd cb given w d sa da AL X HH HW DF YO US) as (A & _).
  destruct (sync_from fuel h dst src dc fl cb given w) as [w' r]. exact A.
Qed.
Print Assumptions C72_each.
(** It is broken off by an exception that a hook raised, and by an ObjectCrudException only without
    CONTINUE_ON_FAILURE. *)
Theorem C72_error : forall X fuel h dst src dcd dc flags fl cbd cb given w d sa da,
  alike w fuel src dst sa da -> hooks_honest h -> hooks_write X h -> snd (diff_from fuel dst src dcd flags cbd w) = Ok d -> yields_once (dc_order (d_class d)) ->
  uses fuel dst src dc fl cb given w d ->
  let r := snd (sync_from fuel h dst src dc fl cb given w) in r = Ok d \/ exists x, r = Err x /\ breaks_off h fl x.
Proof.
  intros X fuel h dst src dcd dc flags fl cbd cb given w d sa da AL HH HW DF YO US.
  exact (proj1 (proj2 (failing_leaves fuel h dst src dcd dc flags fl cbd cb given w d sa da AL X HH HW DF YO US))).
Qed.
Print Assumptions C72_error.
(** Objects that the diff does not concern are the same as before. *)
Theorem C72_rest : forall X fuel h dst src dcd dc flags fl cbd cb given w d sa da,
  alike w fuel src dst sa da -> hooks_honest h -> hooks_write X h -> snd (diff_from fuel dst src dcd flags cbd w) = Ok d -> yields_once (dc_order (d_class d)) ->
  uses fuel dst src dc fl cb given w d ->
  forall k, ~ mentioned w dst (d_groups d) any_act k -> ~ doomed w dst (d_groups d) k -> unchanged_at w (fst (sync_from fuel h dst src dc fl cb given w)) dst k.
Proof.
  intros X fuel h dst src dcd dc flags fl cbd cb given w d sa da AL HH HW DF YO US.
  exact (proj2 (proj2 (failing_leaves fuel h dst src dcd dc flags fl cbd cb given w d sa da AL X HH HW DF YO US))).
Qed.
Print Assumptions C72_rest.

(** hooks that cannot update r1, cannot create sfo, and return None for the deletion of r3 *)
Definition id_of (w : world) (r : ref) : option val := match nth_error (w_heap w) r with Some o => dget (o_vals o) "name" | None => None end.
Definition says (v : option val) (s : string) : bool := match v with Some (VStr x) => String.eqb x s | _ => false end.
Definition bad_hooks : hooks := fun w hc => match hc with
  | HCreate _ ids _ => if says (dget ids "name") "sfo" then mkOut false None [] (HRaise ObjectNotCreated) else default_outcome
  | HUpdate r _ => if says (id_of w r) "r1" then mkOut true None [] (HRaise ObjectNotUpdated) else default_outcome
  | HDelete r => if says (id_of w r) "r3" then mkOut false None [] HReturnNone else default_outcome
  end.
Lemma bad_honest : hooks_honest bad_hooks.
Proof. intros w [c ids a|r a|r]; cbn [bad_hooks]; match goal with |- context [if ?b then _ else _] => destruct b end; cbn; congruence. Qed.
Lemma bad_writes : hooks_write (fun _ => False) bad_hooks.
Proof. intros w [c ids a|r a|r] k; cbn [bad_hooks]; match goal with |- context [if ?b then _ else _] => destruct b end; cbn; tauto. Qed.
Definition data (w : world) (k : string * string) : option (dict val * dict (list string)) :=
  match lookup w 1 (fst k) (snd k) with Some r => option_map (fun o => (o_vals o, o_kids o)) (nth_error (w_heap w) r) | None => None end.
Definition w72 : world := fst (sync_from 20 bad_hooks 1 0 base_class 1 false (Some d0) w0).
Definition w72' : world := fst (sync_from 20 bad_hooks 1 0 base_class 0 false (Some d0) w0).
Example C72_example :
  alike w0 20 0 1 sa0 da0 /\ hooks_honest bad_hooks /\ hooks_write (fun _ => False) bad_hooks /\ snd (diff_from 20 1 0 base_class 0 false w0) = Ok d0 /\
  yields_once (dc_order (d_class d0)) /\ (forall fl, uses 20 1 0 base_class fl false (Some d0) w0 d0) /\
  map (fun e => (e_name e, e_action e)) (tree_all (d_groups d0)) =
    [("nyc", None); ("r1", Some AUpdate); ("eth0", Some AUpdate); ("eth1", Some ACreate); ("lo", Some ADelete);
     ("r2", Some ACreate); ("r3", Some ADelete); ("eth9", Some ADelete); ("sfo", Some ACreate); ("lon", Some ADelete)] /\
  (* with CONTINUE_ON_FAILURE: r1 has its new role, but its children are as they were; r2 is created and lon deleted *)
  snd (sync_from 20 bad_hooks 1 0 base_class 1 false (Some d0) w0) = Ok d0 /\
  map (data w72) [("site", "nyc"); ("device", "r1"); ("site", "sfo"); ("site", "lon")] =
    [Some ([("name", VStr "nyc"); ("region", VStr "east"); ("note", VNone)], [("devices", ["r1"; "r3"; "r2"])]);
     Some ([("name", VStr "r1"); ("role", VStr "edge"); ("serial", VNone)], [("interfaces", ["r1__eth0"; "r1__lo"])]); None; None] /\
  data w72 ("interface", "r1__lo") = data w0 ("interface", "r1__lo") /\ data w72 ("interface", "r3__eth9") = data w0 ("interface", "r3__eth9") /\
  (* without: r1 is the first and nothing follows *)
  snd (sync_from 20 bad_hooks 1 0 base_class 0 false (Some d0) w0) = Err ObjectNotUpdated /\
  map (data w72') [("site", "nyc"); ("site", "lon"); ("device", "r2")] = map (data w0) [("site", "nyc"); ("site", "lon"); ("device", "r2")] /\
  breaks_off bad_hooks 0 ObjectNotUpdated.
Proof.
  split; [exact w0_alike|]. split; [exact bad_honest|]. split; [exact bad_writes|]. split; [vm_compute; reflexivity|]. split; [exact order_default_once|].
  split; [intros fl; left; split; [reflexivity|]; split; [vm_compute; discriminate|vm_compute; reflexivity]|].
  split; [vm_compute; reflexivity|]. split; [vm_compute; reflexivity|]. split; [vm_compute; reflexivity|]. split; [vm_compute; reflexivity|]. split; [vm_compute; reflexivity|].
  split; [vm_compute; reflexivity|]. split; [vm_compute; reflexivity|].
  split; [|reflexivity]. assert (U : exists r, lookup w0 1 "device" "r1" = Some r) by (eexists; vm_compute; reflexivity). destruct U as (r & U).
  exists w0, (HUpdate r []). vm_compute in U. injection U as <-. vm_compute. reflexivity.
Qed.
