(** * PropRound: synchronisations that are repeated while hooks write attributes (C93).

    [differs_only], [updates_write], [updates_spare] and [rounds] are defined in RoundSpec.v, [hooks_write] and
    [hooks_succeed] in CallSpec.v, [alike] and [comparable] in ConvergeSpec.v, [children_deletable] in FailSpec.v. *)
From Verif Require Import RoundFacts PropRetry.

(** C93.  Whatever the hooks write besides: after a synchronisation the destination has exactly the objects it should
    have, and they differ from the source's in no attribute but those that hooks write. *)
Theorem C93_only_written : forall X fuel h dst src dc flags cb w sa da,
  alike w fuel src dst sa da -> comparable w fuel src dst sa da -> hooks_succeed h -> hooks_write X h -> yields_once (dc_order dc) ->
  exists w' d, sync_from fuel h dst src dc flags cb None w = (w', Ok d) /\
    forall dc' cb', exists d', snd (diff_from fuel dst src dc' flags cb' w') = Ok d' /\ differs_only X d'.
Proof.
  intros X fuel h dst src dc flags cb w sa da AL CM HK HW YO.
  destruct (only_written X fuel h dst src dc flags cb w sa da AL CM HK HW YO) as (w' & d & E & _ & _ & H). exists w', d. split; [exact E|].
  intros dc' cb'. destruct (H dc' cb') as (d' & D & B). exists d'. split; [exact D|]. exact (but_only da X d' B).
Qed.
Print Assumptions C93_only_written.

(** What create and delete hooks write the next synchronisation repairs: after that only what update hooks write can
    differ.  The hooks may be others each time. *)
Theorem C93_second : forall Y fuel h1 h2 dst src dc1 dc2 flags cb1 cb2 w sa da,
  alike w fuel src dst sa da -> comparable w fuel src dst sa da -> children_deletable w dst da ->
  hooks_succeed h1 -> hooks_succeed h2 -> updates_write Y h2 -> yields_once (dc_order dc1) -> yields_once (dc_order dc2) ->
  exists w1 d1 w2 d2, sync_from fuel h1 dst src dc1 flags cb1 None w = (w1, Ok d1) /\
    sync_from fuel h2 dst src dc2 flags cb2 None w1 = (w2, Ok d2) /\
    forall dc' cb', exists d', snd (diff_from fuel dst src dc' flags cb' w2) = Ok d' /\ differs_only Y d'.
Proof.
  intros Y fuel h1 h2 dst src dc1 dc2 flags cb1 cb2 w sa da AL CM CD H1 H2 UW Y1 Y2.
  destruct (only_written (fun _ => True) fuel h1 dst src dc1 flags cb1 w sa da AL CM H1 (fun _ _ _ _ => I) Y1) as (w1 & d1 & E1 & _).
  destruct (after_one fuel h1 dst src dc1 flags cb1 w sa da AL CM CD H1 Y1) as (s & s' & R). rewrite E1 in R. cbn [fst] in R.
  destruct (after_two Y fuel h2 dst src dc2 flags cb2 w1 _ _ R H2 UW Y2) as (w2 & d2 & E2 & H). exists w1, d1, w2, d2.
  split; [exact E1|]. split; [exact E2|]. intros dc' cb'. destruct (H dc' cb') as (d' & D & B). exists d'. split; [exact D|]. exact (but_only _ Y d' B).
Qed.
Print Assumptions C93_second.

(** So it stays, for however many synchronisations. *)
Theorem C93_rounds : forall Y fuel h dst src dc flags w sa da n,
  alike w fuel src dst sa da -> comparable w fuel src dst sa da -> children_deletable w dst da ->
  hooks_succeed h -> updates_write Y h -> yields_once (dc_order dc) -> 2 <= n ->
  forall dc' cb', exists d', snd (diff_from fuel dst src dc' flags cb' (rounds fuel h dst src dc flags n w)) = Ok d' /\ differs_only Y d'.
Proof.
  intros Y fuel h dst src dc flags w sa da n AL CM CD HK UW YO N dc' cb'. destruct n as [|[|n]]; try lia.
  destruct (after_rounds Y fuel h dst src dc flags w sa da n AL CM CD HK UW YO dc' cb') as (d' & D & B). exists d'. split; [exact D|]. exact (but_only _ Y d' B).
Qed.
Print Assumptions C93_rounds.

(** If update hooks write no attribute the adapters agree after two synchronisations, and a third calls no hook. *)
Theorem C93_agree : forall fuel h dst src dc flags w sa da,
  alike w fuel src dst sa da -> comparable w fuel src dst sa da -> children_deletable w dst da ->
  hooks_succeed h -> updates_spare da h -> yields_once (dc_order dc) -> let w2 := rounds fuel h dst src dc flags 2 w in
  (forall dc' cb', exists d', snd (diff_from fuel dst src dc' flags cb' w2) = Ok d' /\
     diff_has_diffs d' = false /\ forall x, occurs x (d_groups d') -> e_action x = None) /\
  let w3 := rounds fuel h dst src dc flags 3 w in
  undisturbed w2 w3 /\ exists evs, w_trace w3 = w_trace w2 ++ evs /\ forall ev, In ev evs -> hookb ev = false /\ completeb ev = false.
Proof.
  intros fuel h dst src dc flags w sa da AL CM CD HK SP YO w2.
  assert (A : forall dc' cb', exists d', snd (diff_from fuel dst src dc' flags cb' w2) = Ok d' /\ forall x, occurs x (d_groups d') -> e_action x = None).
  { intros dc' cb'.
    destruct (after_rounds (fun k => exists w r attrs, In k (dkeys (ho_fields (h w (HUpdate r attrs))))) fuel h dst src dc flags w sa da 0 AL CM CD HK) with (dc' := dc') (cb' := cb')
      as (d' & D & B); [intros w1 r attrs k I; eauto|exact YO|]. exists d'. split; [exact D|]. refine (but_none da _ d' _ B).
    intros k t c (w1 & r & attrs & I) C. eapply SP; eauto. }
  split.
  - intros dc' cb'. destruct (A dc' cb') as (d' & D & N). exists d'. split; [exact D|]. split; [now apply has_diffs_none|exact N].
  - cbv zeta. rewrite rounds_last. apply from_idle. intros d e [(X & _)|(_ & D)] O; [discriminate|].
    destruct (A dc false) as (d' & D' & N). fold w2 in D. rewrite D in D'. injection D' as <-. now apply N.
Qed.
Print Assumptions C93_agree.

(** Two are needed, as here where the creations write a region (C32_hooks_refuted), ... *)
Definition moon_create : hooks := fun _ hc => match hc with
  | HCreate c _ _ => if String.eqb (c_modelname c) "site" then mkOut true None [("region", VStr "moon")] HReturn else default_outcome
  | _ => default_outcome end.
Lemma moon_succeed : hooks_succeed moon_create.
Proof. intros w hc. unfold moon_create. destruct hc as [c ids attrs| |]; [destruct (String.eqb _ _)| |]; split; reflexivity. Qed.
Lemma moon_spare : updates_spare da0 moon_create.
Proof. intros w r attrs k t c []. Qed.
Definition region_of (w : world) (n : string) : option val :=
  match lookup w 1 "site" n with Some r => match nth_error (w_heap w) r with Some o => dget (o_vals o) "region" | None => None end | None => None end.
Definition diffs_after (n : nat) : bool :=
  match snd (diff_from 20 1 0 base_class 0 false (rounds 20 moon_create 1 0 base_class 0 n w0)) with Ok d => diff_has_diffs d | Err _ => true end.
Example C93_example :
  alike w0 20 0 1 sa0 da0 /\ comparable w0 20 0 1 sa0 da0 /\ children_deletable w0 1 da0 /\ hooks_succeed moon_create /\ hooks_write (fun k => k = "region") moon_create /\
  updates_write (fun _ => False) moon_create /\ updates_spare da0 moon_create /\ yields_once (dc_order base_class) /\
  map (fun n => region_of (rounds 20 moon_create 1 0 base_class 0 n w0) "sfo") [0; 1; 2; 3] = [None; Some (VStr "moon"); Some (VStr "west"); Some (VStr "west")] /\
  map diffs_after [0; 1; 2; 3] = [true; true; false; false].
Proof.
  split; [exact w0_alike|]. split; [exact w0_comparable|]. split; [exact w0_deletable|]. split; [exact moon_succeed|].
  split. { intros w hc k. unfold moon_create. destruct hc as [c ids attrs| |]; [destruct (String.eqb _ _)| |]; cbn; intuition congruence. }
  split. { intros w r attrs k []. }
  split; [exact moon_spare|]. split; [exact order_default_once|]. split; vm_compute; reflexivity.
Qed.

(** ... and if update hooks write an attribute no number of synchronisations is enough. *)
Definition w_moon : world :=
  mkWorld [mk_site "sfo" "west" [] 0 0; mkObj c_site [("name", VStr "sfo"); ("region", VStr "moon"); ("note", VNone)] [("devices", [])] 0 (Some 1) StSuccess "Updated successfully"]
          [mk_ad "src" (SLocal [("site", [("sfo", 0)]); ("device", [])]); mk_ad "dst" (SLocal [("site", [("sfo", 1)]); ("device", [])])] [] [].
Definition moon_hooks : hooks := fun _ _ => mkOut true None [("region", VStr "moon")] HReturn.
Definition traced (t : list event) : world := mkWorld (w_heap w_moon) (w_ads w_moon) [] t.
Lemma rounds_first fuel h dst src dc flags n w : rounds fuel h dst src dc flags (S n) w = rounds fuel h dst src dc flags n (fst (sync_from fuel h dst src dc flags false None w)).
Proof. reflexivity. Qed.
Definition moon_trace (t : list event) : list event := w_trace (fst (sync_from 20 moon_hooks 1 0 base_class 0 false None (traced t))).
Definition moon_d : diff := match snd (diff_from 20 1 0 base_class 0 false w_moon) with Ok d => d | Err _ => d0 end.
Lemma moon_round t : sync_from 20 moon_hooks 1 0 base_class 0 false None (traced t) = (traced (moon_trace t), Ok moon_d).
Proof. vm_cast_no_check (eq_refl (traced (moon_trace t), Ok moon_d)). Qed.
Lemma moon_rounds n : forall t, exists t', rounds 20 moon_hooks 1 0 base_class 0 n (traced t) = traced t'.
Proof.
  induction n as [|n IH]; intros t; [now exists t|]. destruct (IH (moon_trace t)) as (t' & E). exists t'. rewrite rounds_first, moon_round. exact E.
Qed.
Lemma moon_diff t : exists d, snd (diff_from 20 1 0 base_class 0 false (traced t)) = Ok d /\ diff_has_diffs d = true.
Proof.
  exists (match snd (diff_from 20 1 0 base_class 0 false (traced t)) with Ok d => d | Err _ => d0 end). split; vm_compute; reflexivity.
Qed.
Theorem C93_update_refuted : exists w sa da h, alike w 20 0 1 sa da /\ comparable w 20 0 1 sa da /\ children_deletable w 1 da /\ hooks_succeed h /\
  hooks_write (fun k => k = "region") h /\ forall n, exists d, snd (diff_from 20 1 0 base_class 0 false (rounds 20 h 1 0 base_class 0 n w)) = Ok d /\ diff_has_diffs d = true.
Proof.
  exists w_moon, (mk_ad "src" (SLocal [("site", [("sfo", 0)]); ("device", [])])), (mk_ad "dst" (SLocal [("site", [("sfo", 1)]); ("device", [])])), moon_hooks.
  assert (AL : alike w_moon 20 0 1 (mk_ad "src" (SLocal [("site", [("sfo", 0)]); ("device", [])])) (mk_ad "dst" (SLocal [("site", [("sfo", 1)]); ("device", [])]))).
  { apply (alikeb_ok _ _ _ _ _ _ rank); vm_compute; reflexivity. }
  split; [exact AL|]. split; [apply (comparableb_ok _ _ _ _ _ _ rank); vm_compute; reflexivity|].
  split; [apply children_deletable_ok; [apply (al_local _ _ _ _ _ _ AL)|apply (al_keyed _ _ _ _ _ _ AL)|reflexivity|reflexivity]|].
  split; [intros w hc; split; reflexivity|]. split; [intros w hc k [<-|[]]; reflexivity|].
  intros n. destruct (moon_rounds n []) as (t & E). change w_moon with (traced []). rewrite E. apply moon_diff.
Qed.
Print Assumptions C93_update_refuted.
