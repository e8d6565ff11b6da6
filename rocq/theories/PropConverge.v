(** * PropConverge: what a synchronisation leads to (C32, C33, C37).

    [alike] and [comparable] are defined in ConvergeSpec.v. *)
From Verif Require Import ConvCascade ConvSample.

(** C32.  Synchronising adapters that are alike and comparable returns a diff, and comparing them
    again with the same flags shows no differences. *)
Theorem C32_converges : forall fuel h dst src dc flags cb w sa da,
  alike w fuel src dst sa da -> comparable w fuel src dst sa da -> hooks_succeed h -> spares_attributes da h -> yields_once (dc_order dc) ->
  exists w' d, sync_from fuel h dst src dc flags cb None w = (w', Ok d) /\
    forall dc' cb', exists d', snd (diff_from fuel dst src dc' flags cb' w') = Ok d' /\
      diff_has_diffs d' = false /\ forall x, occurs x (d_groups d') -> e_action x = None.
Proof.
  intros fuel h dst src dc flags cb w sa da AL CM HK SP YO. destruct (converges_all fuel h dst src dc flags cb w sa da AL CM HK SP YO) as (w' & d & E & H).
  exists w', d. split; [exact E|]. intros dc' cb'. destruct (H dc' cb') as (d' & D & N). exists d'. split; [exact D|]. split; [now apply has_diffs_none|exact N].
Qed.
Print Assumptions C32_converges.
(** [comparable] is only needed to obtain the diff: with one computed before, with any flags
    [flags], the same is true for it. *)
Theorem C32_given : forall fuel h dst src dcd dc flags fl cbd cb given w d sa da,
  alike w fuel src dst sa da -> hooks_succeed h -> spares_attributes da h -> snd (diff_from fuel dst src dcd flags cbd w) = Ok d -> yields_once (dc_order (d_class d)) ->
  uses fuel dst src dc fl cb given w d ->
  exists w', sync_from fuel h dst src dc fl cb given w = (w', Ok d) /\
    forall dc' cb', exists d', snd (diff_from fuel dst src dc' flags cb' w') = Ok d' /\
      diff_has_diffs d' = false /\ forall x, occurs x (d_groups d') -> e_action x = None.
Proof.
  intros fuel h dst src dcd dc flags fl cbd cb given w d sa da AL HK SP DF YO US.
  destruct (converges fuel h dst src dcd dc flags fl cbd cb given w d sa da AL HK SP DF YO US) as (w' & E & H).
  exists w'. split; [exact E|]. intros dc' cb'. destruct (H dc' cb') as (d' & D & N). exists d'. split; [exact D|]. split; [now apply has_diffs_none|exact N].
Qed.
Print Assumptions C32_given.
(** Comparing such adapters does not fail. *)
Theorem C32_comparable : forall fuel dst src dc flags cb w sa da, alike w fuel src dst sa da -> comparable w fuel src dst sa da ->
  exists d, snd (diff_from fuel dst src dc flags cb w) = Ok d.
Proof. exact compares. Qed.
Print Assumptions C32_comparable.

Definition w0' : world := fst (sync_from 20 default_hooks 1 0 base_class 0 false None w0).
Example C32_example : alike w0 20 0 1 sa0 da0 /\ comparable w0 20 0 1 sa0 da0 /\ hooks_succeed default_hooks /\ spares_attributes da0 default_hooks /\ yields_once (dc_order base_class) /\
  diff_has_diffs d0 = true /\ uses 20 1 0 base_class 0 false (Some d0) w0 d0 /\
  map (fun k => match lookup w0' 1 (fst k) (snd k) with Some _ => true | None => false end)
    [("site", "nyc"); ("site", "sfo"); ("site", "lon"); ("device", "r2"); ("device", "r3"); ("interface", "r1__eth1"); ("interface", "r1__lo")]
  = [true; true; false; true; false; true; false].
Proof.
  split; [exact w0_alike|]. split; [exact w0_comparable|]. split; [exact default_succeed|]. split; [apply default_spares|]. split; [exact order_default_once|]. split; [vm_compute; reflexivity|]. split; [|vm_compute; reflexivity].
  left. split; [reflexivity|]. split; [vm_compute; discriminate|vm_compute; reflexivity].
Qed.

(** hooks that write a note, no attribute of sites: the adapters agree, notes or not *)
Definition w0n : world := fst (sync_from 20 note_hooks 1 0 base_class 0 false None w0).
Example C32_hooks_example : hooks_succeed note_hooks /\ spares_attributes da0 note_hooks /\
  (exists r o, lookup w0n 1 "site" "sfo" = Some r /\ nth_error (w_heap w0n) r = Some o /\ dget (o_vals o) "note" = Some (VStr "touched")) /\
  (exists r o, lookup w0n 1 "site" "nyc" = Some r /\ nth_error (w_heap w0n) r = Some o /\ dget (o_vals o) "note" = Some VNone) /\
  match snd (diff_from 20 1 0 base_class 0 false w0n) with Ok d' => diff_has_diffs d' = false | Err _ => False end.
Proof.
  split; [exact note_succeed|]. split; [exact note_spares|]. split; [|split; [|vm_compute; reflexivity]];
    eexists; eexists; (split; [vm_compute; reflexivity|]); (split; [vm_compute; reflexivity|]); vm_compute; reflexivity.
Qed.
(** Not so for hooks that write an attribute. *)
Definition region_hooks : hooks := fun _ _ => mkOut true None [("region", VStr "moon")] HReturn.
Theorem C32_hooks_refuted : exists w sa da h w' d d', alike w 20 0 1 sa da /\ comparable w 20 0 1 sa da /\ hooks_succeed h /\
  sync_from 20 h 1 0 base_class 0 false None w = (w', Ok d) /\ snd (diff_from 20 1 0 base_class 0 false w') = Ok d' /\ diff_has_diffs d' = true.
Proof.
  exists w0, sa0, da0, region_hooks. do 3 eexists. split; [exact w0_alike|]. split; [exact w0_comparable|]. split; [intros w hc; split; reflexivity|].
  split; [vm_compute; reflexivity|]. split; vm_compute; reflexivity.
Qed.
Print Assumptions C32_hooks_refuted.

(** The conditions matter: an attribute that is NaN is updated again and again. *)
Definition w_nan2 : world :=
  mkWorld [mkObj c_device [("name", VStr "r1"); ("role", VNaN); ("serial", VNone)] [("interfaces", [])] 0 (Some 0) StSuccess ""]
          [mkAdapter "src" "Sample" ["device"] s_classes (SLocal [("device", [("r1", 0)])]);
           mkAdapter "dst" "Sample" ["device"] s_classes (SLocal [])] [] [].
Theorem C32_nan_refuted : exists w w' d d', w_ok w /\ sync_from 20 default_hooks 1 0 base_class 0 false None w = (w', Ok d) /\
  snd (diff_from 20 1 0 base_class 0 false w') = Ok d' /\ diff_has_diffs d' = true.
Proof.
  exists w_nan2. do 3 eexists. split; [apply w_okb_ok; reflexivity|]. split; [vm_compute; reflexivity|]. split; vm_compute; reflexivity.
Qed.
Print Assumptions C32_nan_refuted.

(** C33.  A second synchronisation calls no hook and not sync_complete; nothing but the
    statuses of objects changes. *)
Theorem C33_second : forall fuel h dst src dc flags cb w sa da,
  alike w fuel src dst sa da -> comparable w fuel src dst sa da -> hooks_succeed h -> spares_attributes da h -> yields_once (dc_order dc) ->
  let w1 := fst (sync_from fuel h dst src dc flags cb None w) in
  forall h' dc' cb', let w2 := fst (sync_from fuel h' dst src dc' flags cb' None w1) in
  undisturbed w1 w2 /\ exists evs, w_trace w2 = w_trace w1 ++ evs /\ forall ev, In ev evs -> hookb ev = false /\ completeb ev = false.
Proof.
  intros fuel h dst src dc flags cb w sa da AL CM HK SP YO. destruct (converges_all fuel h dst src dc flags cb w sa da AL CM HK SP YO) as (w1 & d & E & H).
  rewrite E. cbn [fst]. intros h' dc' cb'. apply from_idle. intros d1 e [(X & _)|(_ & U)] O; [discriminate|].
  destruct (H dc' cb') as (d' & D & N). rewrite D in U. injection U as <-. now apply N.
Qed.
Print Assumptions C33_second.
Example C33_example : alike w0 20 0 1 sa0 da0 /\ comparable w0 20 0 1 sa0 da0 /\
  let w2 := fst (sync_from 20 default_hooks 1 0 base_class 0 true None w0') in
  length (hook_calls (new_events w0 w0')) = 9 /\ hook_calls (new_events w0' w2) = [] /\ length (new_events w0' w2) = 12 /\ w_ads w2 = w_ads w0'.
Proof. split; [exact w0_alike|]. split; [exact w0_comparable|]. vm_compute. auto. Qed.

(** C37.  A deleted object is gone afterwards; one marked SKIP_CHILDREN_ON_DELETE (bit 1) with
    everything that could be reached from it. *)
Theorem C37_cascade : forall fuel h dst src dcd dc flags fl cbd cb given w d sa da e k r o,
  alike w fuel src dst sa da -> hooks_succeed h -> snd (diff_from fuel dst src dcd flags cbd w) = Ok d -> yields_once (dc_order (d_class d)) ->
  uses fuel dst src dc fl cb given w d ->
  occurs e (d_groups d) -> e_action e = Some ADelete -> names w dst e k -> lookup w dst (fst k) (snd k) = Some r -> nth_error (w_heap w) r = Some o ->
  let w' := fst (sync_from fuel h dst src dc fl cb given w) in
  lookup w' dst (fst k) (snd k) = None /\
  (N.testbit (o_flags o) 1 = true -> forall k', reaches w dst k k' -> lookup w' dst (fst k') (snd k') = None).
Proof. exact cascades. Qed.
Print Assumptions C37_cascade.
(** the destination's r3, marked, and its interface *)
Definition w_r3 : world := mkWorld (list_set heap0 8 (mk_device "r3" "core" ["r3__eth9"] 2 1)) (w_ads w0) [] [].
Definition d_r3 : diff := match snd (diff_from 20 1 0 base_class 0 false w_r3) with Ok d => d | Err _ => empty_diff base_class end.
Example C37_cascade_example : alike w_r3 20 0 1 sa0 da0 /\
  (exists e, occurs e (d_groups d_r3) /\ e_action e = Some ADelete /\ names w_r3 1 e ("device", "r3")) /\
  reaches w_r3 1 ("device", "r3") ("interface", "r3__eth9") /\
  let w' := fst (sync_from 20 default_hooks 1 0 base_class 0 false None w_r3) in
  lookup w_r3 1 "interface" "r3__eth9" = Some 11 /\ lookup w' 1 "device" "r3" = None /\ lookup w' 1 "interface" "r3__eth9" = None /\
  existsb (fun ev => match ev with EvHook ADelete _ ids _ => match dget ids "name" with Some (VStr n) => String.eqb n "eth9" | _ => false end | _ => false end) (new_events w_r3 w') = false.
Proof.
  split; [apply (alikeb_ok _ _ _ _ _ _ rank); vm_compute; reflexivity|]. split; [|split; [|vm_compute; auto]].
  - apply delete_named. vm_compute. reflexivity.
  - eapply reach_step; [|apply reach_self]. exists 8, (mk_device "r3" "core" ["r3__eth9"] 2 1), "interfaces", ["r3__eth9"]. simpl. repeat split; auto. vm_compute. discriminate.
Qed.
