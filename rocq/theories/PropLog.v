(** * PropLog: what is written to the console (C84). *)
From Verif Require Import RunSample LogFacts.

Lemma quiet_console evs : written (enable_console_logging 0 log_fresh) Stderr evs = [] <-> silent evs.
Proof.
  change 0%Z with (Z.of_nat 0). rewrite (proj1 (console_shows 0 evs)). unfold silent. induction evs as [|ev evs IH]; simpl.
  - split; [intros _ ev []|reflexivity].
  - assert (E : promised 0 ev = grave ev) by (destruct ev as [|[]| |]; reflexivity). rewrite E. destruct (grave ev) eqn:G.
    + split; [discriminate|]. intros H. specialize (H ev (or_introl eq_refl)). congruence.
    + rewrite IH. split; [intros H x [<-|I]; auto|intros H x I; apply H; now right].
Qed.

(** C84.  In a fresh interpreter, enable_console_logging(verbosity) shows what it promises, in order, on stderr; ... *)
Theorem C84_levels : forall n evs,
  written (enable_console_logging (Z.of_nat n) log_fresh) Stderr evs = filter (promised n) evs /\
  written (enable_console_logging (Z.of_nat n) log_fresh) Stdout evs = [].
Proof. exact console_shows. Qed.
Print Assumptions C84_levels.
(** ... before, everything is printed. *)
Theorem C84_before : forall d evs, written log_fresh d evs = match d with Stdout => filter is_record evs | _ => [] end.
Proof. exact console_unset. Qed.
Print Assumptions C84_before.
(** A negative verbosity shows everything. *)
Theorem C84_more_refuted : exists v v' evs ev, (v <= v')%Z /\ In ev (written (enable_console_logging v log_fresh) Stderr evs) /\
  ~ In ev (written (enable_console_logging v' log_fresh) Stderr evs).
Proof.
  exists (-1)%Z, 1%Z, [EvLog LDebug None None "x"], (EvLog LDebug None None "x"). split; [lia|]. split; [now left|]. vm_compute. tauto.
Qed.
Print Assumptions C84_more_refuted.
(** Only the first call decides, and none if the root logger has handlers already; ... *)
Theorem C84_first : forall v v' lc, (lc_handlers lc <> [] -> enable_console_logging v lc = enable_console_logging v' lc) /\
  enable_console_logging v' (enable_console_logging v lc) = enable_console_logging v lc.
Proof. exact console_first. Qed.
Print Assumptions C84_first.
(** ... the verbosity cannot be raised later. *)
Theorem C84_last_refuted : exists evs, let lc := enable_console_logging 2 (enable_console_logging 0 log_fresh) in
  written lc Stderr evs = [] /\ written (enable_console_logging 2 log_fresh) Stderr evs = evs /\ evs <> [].
Proof. exists [EvLog LInfo None (Some StSuccess) "Created successfully"]. split; [reflexivity|]. split; [reflexivity|discriminate]. Qed.
Print Assumptions C84_last_refuted.
(** After initialize_logging the records reach stderr from that level on, whatever the verbosity; the file, if its name is not
    empty, gets all of them; nothing goes to stdout. *)
Theorem C84_config : forall level f v lc lc' evs, In (upper level) ["DEBUG"; "INFO"; "WARNING"; "ERROR"]%string ->
  initialize_logging level f lc = (lc', Ok tt) ->
  written (enable_console_logging v lc') Stderr evs = filter (at_least (upper level)) evs /\
  written (enable_console_logging v lc') Stdout evs = [] /\
  forall n, written (enable_console_logging v lc') (ToFile n) evs =
    if match f with Some m => negb (String.eqb n "") && String.eqb n m | None => false end then filter is_record evs else [].
Proof. exact config_levels. Qed.
Print Assumptions C84_config.

(** If a synchronisation returns and nothing is shown at verbosity 0, then every call the diff asks for was made, in its order,
    none was left out below a failure, and each may have returned its object with status SUCCESS. *)
Theorem C84_silence : forall fuel h dst src dc flags cb given w w' d,
  (forall d0, given = Some d0 -> deletes_whole (d_groups d0)) ->
  proper_dst w dst -> well_posed w dst (d_groups d) ->
  sync_from fuel h dst src dc flags cb given w = (w', Ok d) ->
  written (enable_console_logging 0 log_fresh) Stderr (new_events w w') = [] ->
  calls_all w dst (dc_order (d_class d)) (succeeds h) (fun _ => False) False
    (ordered (dc_order (d_class d)) (fun e => e) (d_groups d)) (hook_calls (new_events w w')) /\
  Forall (succeeds h) (hook_calls (new_events w w')).
Proof.
  intros fuel h dst src dc flags cb given w w' d HG HP HC HE S. apply quiet_console in S.
  exact (silence fuel h dst src dc flags cb given w w' d HG HP HC HE S).
Qed.
Print Assumptions C84_silence.
(** If all hooks succeed, nothing is shown but records of children that are not there when they are removed with their parent, ... *)
Theorem C84_success : forall fuel h dst src dc flags cb given w w' d,
  (forall d0, given = Some d0 -> deletes_whole (d_groups d0)) ->
  proper_dst w dst -> well_posed w dst (d_groups d) ->
  sync_from fuel h dst src dc flags cb given w = (w', Ok d) ->
  hooks_succeed h -> hooks_report_success h -> N.testbit flags 0 = false ->
  (forall ev, In ev (written (enable_console_logging 0 log_fresh) Stderr (new_events w w')) -> missing_child ev) /\
  ((forall e o, occurs e (d_groups d) -> e_action e = Some ADelete -> dst_obj w dst e o -> ~ skips_children (o_flags o)) ->
   written (enable_console_logging 0 log_fresh) Stderr (new_events w w') = []).
Proof.
  intros fuel h dst src dc flags cb given w w' d HG HP HC HE HS HR H0.
  destruct (success_silent fuel h dst src dc flags cb given w w' d HG HP HC HE HS HR H0) as [A B].
  split.
  - intros ev I. change 0%Z with (Z.of_nat 0) in I. rewrite (proj1 (console_shows 0 _)) in I. apply filter_In in I as [I G].
    apply A; [exact I|]. destruct ev as [|[]| |]; try discriminate; reflexivity.
  - intros T. apply quiet_console. auto.
Qed.
Print Assumptions C84_success.
(** A synchronisation that raises may be silent. *)
Theorem C84_raise_refuted : exists h w w' x, proper_dst w 1 /\ well_posed w 1 (d_groups d0) /\
  sync_from 20 h 1 0 base_class 0 false None w = (w', Err x) /\ hook_calls (new_events w w') <> [] /\
  written (enable_console_logging 0 log_fresh) Stderr (new_events w w') = [].
Proof.
  set (h := fun (_ : world) (_ : hookcall) => mkOut false None [] (HRaise ExnTypeError)).
  exists h, w0, (fst (sync_from 20 h 1 0 base_class 0 false None w0)), ExnTypeError.
  split; [exact w0_proper|]. split; [exact d0_posed|]. split; [|split].
  - assert (E : snd (sync_from 20 h 1 0 base_class 0 false None w0) = Err ExnTypeError) by (vm_compute; reflexivity).
    destruct (sync_from 20 h 1 0 base_class 0 false None w0) as [w' r]. cbn [fst snd] in *. now subst r.
  - intros H. vm_compute in H. discriminate.
  - vm_compute. reflexivity.
Qed.
Print Assumptions C84_raise_refuted.
(** The exception formatter is used before structlog 21.2, and after it if neither package is there. *)
Theorem C84_formatter : forall major minor rest rich better,
  exception_formatter_required (major :: minor :: rest) rich better = true <->
  major < 21 \/ (major = 21 /\ minor < 2) \/ (rich = false /\ better = false).
Proof. exact formatter_iff. Qed.
Print Assumptions C84_formatter.

(** In the sample nothing is shown at verbosity 0; at verbosity 1 one record per call; with hooks that fail, warnings. *)
Example C84_example : let w' h fl := fst (sync_from 20 h 1 0 base_class fl false None w0) in
  snd (sync_from 20 default_hooks 1 0 base_class 0 false None w0) = Ok d0 /\ proper_dst w0 1 /\ well_posed w0 1 (d_groups d0) /\
  hooks_report_success default_hooks /\
  written (enable_console_logging 0 log_fresh) Stderr (new_events w0 (w' default_hooks 0%N)) = [] /\
  length (written (enable_console_logging 1 log_fresh) Stderr (new_events w0 (w' default_hooks 0%N))) =
    length (hook_calls (new_events w0 (w' default_hooks 0%N))) /\
  length (hook_calls (new_events w0 (w' default_hooks 0%N))) = 9 /\
  length (written (enable_console_logging 2 log_fresh) Stderr (new_events w0 (w' default_hooks 8%N))) = 10 /\
  firstn 2 (written (enable_console_logging 0 log_fresh) Stderr (new_events w0 (w' (fun _ _ => mkOut true None [] HReturnNone) 0%N))) =
    [EvLog LWarning (Some (mkCtx (Some AUpdate) "device" "r1")) (Some StFailure) "device update did not return the model object.";
     EvLog LWarning (Some (mkCtx (Some AUpdate) "device" "r1")) None "No object resulted from sync, will not process child objects."] /\
  snd (initialize_logging "verbose" None log_fresh) = Err ExnValueError /\
  (let lc := enable_console_logging 0 (fst (initialize_logging "info" (Some "run.log") log_fresh)) in
   map (delivered lc) [LDebug; LInfo; LError] = [[ToFile "run.log"]; [Stderr; ToFile "run.log"]; [Stderr; ToFile "run.log"]]) /\
  map (fun v => exception_formatter_required v true false) [[20; 2; 0]; [21; 1; 9]; [21; 2]; [25; 1; 0]] = [true; true; false; false].
Proof.
  cbv zeta. split; [vm_compute; reflexivity|]. split; [exact w0_proper|]. split; [exact d0_posed|].
  split; [intros w hc st msg H; discriminate|]. do 7 (split; [vm_compute; reflexivity|]). vm_compute; reflexivity.
Qed.
