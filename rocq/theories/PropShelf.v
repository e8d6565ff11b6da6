(** * PropShelf: a RedisStore that is filled from records (C86).

    [load] and the conditions on records are those of C75 (RowSpec.v); [load_keeping], [fresh_store] and
    [shelved] are defined in ShelfSpec.v. *)
From Verif Require Import ShelfEnd RowSample PropRow ConvCascade.

(** C86.  Loading records as the documentation shows, into a RedisStore without entries, succeeds.  The server
    then has a snapshot for each record, but none of them has children: [add_child] is called on copies
    that are not put back.  Nothing else on the server changes. *)
Theorem C86_load : forall w a ad i rows,
  fresh_store w a ad i rows -> dataset (ad_classes ad) (ad_top ad) rows ->
  exists w', load a rows w = (w', Ok tt) /\ shelved w i (ad_classes ad) rows [] w' /\
    w_ads w' = w_ads w /\ w_trace w' = w_trace w /\ (forall r, r < length (w_heap w) -> nth_error (w_heap w') r = nth_error (w_heap w) r).
Proof.
  intros w a ad i rows FS DS. destruct (sload_all false w a ad i (ad_top ad) rows FS DS) as (w' & E & A & T & _ & H & SV). exists w'. rewrite <- load_by_false. auto.
Qed.
Print Assumptions C86_load.

(** With [update] for the parent after each [add_child] the snapshots have their children, in the order of the records. *)
Theorem C86_keep : forall w a ad i rows,
  fresh_store w a ad i rows -> dataset (ad_classes ad) (ad_top ad) rows ->
  exists w', load_keeping a rows w = (w', Ok tt) /\ shelved w i (ad_classes ad) rows rows w' /\
    w_ads w' = w_ads w /\ w_trace w' = w_trace w /\ (forall r, r < length (w_heap w) -> nth_error (w_heap w') r = nth_error (w_heap w) r).
Proof.
  intros w a ad i rows FS DS. destruct (sload_all true w a ad i (ad_top ad) rows FS DS) as (w' & E & A & T & _ & H & SV). exists w'. rewrite <- load_by_true. auto.
Qed.
Print Assumptions C86_keep.

(** The adapter [src] has the store id of the RedisStore that [a] fills, and may be another adapter, here or
    elsewhere.  It and a LocalStore filled from records satisfy the conditions under which a synchronisation
    converges (C32) and everything that builds on them. *)
Theorem C86_ready : forall fuel a src dst w la sa da i rows rows',
  src <> dst -> w_ok w -> fresh_store w a la i rows -> nth_error (w_ads w) src = Some sa -> ad_store sa = SRedis i ->
  nth_error (w_ads w) dst = Some da -> ad_store da = SLocal [] -> plain_names (ad_classes la) (ad_top sa) rows ->
  dataset (ad_classes la) (ad_top sa) rows -> dataset (ad_classes da) (ad_top da) rows' -> matching (ad_classes la) (ad_classes da) rows rows' ->
  proper_values (ad_classes la) rows -> NoDup (ad_top da) -> (forall t, In t (ad_top sa) <-> In t (ad_top da)) ->
  2 <= fuel -> shallow (ad_classes la) rows (fuel - 1) -> shallow (ad_classes da) rows' (fuel - 1) ->
  exists w' d, (load_keeping a rows ;;; load dst rows') w = (w', Ok tt) /\ let da' := set_ad_store da (SLocal d) in
    alike w' fuel src dst sa da' /\ comparable w' fuel src dst sa da' /\
    (forall flags, N.testbit flags 1 = false -> N.testbit flags 2 = false -> no_flags (ad_classes la) rows -> no_flags (ad_classes da) rows' ->
      entire w' flags src dst sa da') /\
    forall w'', holds_copy w' src w'' dst -> local_ok w'' dst -> keyed w'' dst -> has_data w'' dst (ad_classes la) rows.
Proof.
  intros fuel a src dst w la sa da i rows rows' NE OK FS SA ES DA ED (PP & PC) DS DS' MA PV TN TT F2 SH SH'.
  destruct (sload_all true w a la i (ad_top sa) rows FS DS) as (w1 & E1 & A1 & T1 & L1 & H1 & SV1). rewrite load_by_true in E1. cbn [kr] in SV1.
  assert (OK1 : w_ok w1). { intros b adb db m bk u r A B Im Iu. rewrite A1 in A. pose proof (OK b adb db m bk u r A B Im Iu). lia. }
  assert (DA1 : nth_error (w_ads w1) dst = Some da) by now rewrite A1.
  destruct (load_all w1 dst da (ad_top da) rows' DA1 DS' ED) as (w2 & E2 & I2). destruct (inv_stands w1 dst da rows' w2 DA1 I2) as (d & ST2 & EA2).
  assert (OK2 : w_ok w2) by exact (inv_refs w1 dst da rows' w2 DA1 I2 OK1).
  pose proof I2 as (d2 & _ & ER2 & _). set (da' := set_ad_store da (SLocal d)) in *.
  assert (SA2 : nth_error (w_ads w2) src = Some sa) by (rewrite EA2, nth_list_set_neq, A1; auto).
  assert (SV2 : shelved w i (ad_classes la) rows rows w2) by (unfold shelved, on_server in *; rewrite ER2; exact SV1).
  assert (SW : shows w2 src la (ad_top sa) rows).
  { apply (shelf_shows w w2 src sa la i (ad_top sa) rows); auto; [apply FS|apply FS|apply FS]. }
  assert (SN : share_nothing w2 src dst).
  { apply (shelf_shares w2 src sa i SA2 ES). exact (st_local w2 dst da' (length (w_heap w1)) rows' ST2). }
  exists w2, d. split; [unfold bind; now rewrite E1|]. cbv zeta. fold da'.
  split; [now apply (shelf_alike w2 fuel src dst sa la da' (length (w_heap w1)) rows rows')|].
  split; [now apply (shelf_comparable w2 fuel src dst sa la da' (length (w_heap w1)) rows rows')|].
  split; [intros flags B1 B2 NF NF'; now apply (shelf_entire w2 src dst sa la da' (length (w_heap w1)) rows rows')|].
  intros w''. now apply (shelf_data w2 src dst sa la rows SW DS PV w'').
Qed.
Print Assumptions C86_ready.

(** Synchronising a LocalStore from the filled RedisStore works and leaves exactly the data of the records.
    Comparing then finds no difference. *)
Theorem C86_sync : forall fuel h a src dst dc flags cb w la sa da i rows rows',
  src <> dst -> w_ok w -> fresh_store w a la i rows -> nth_error (w_ads w) src = Some sa -> ad_store sa = SRedis i ->
  nth_error (w_ads w) dst = Some da -> ad_store da = SLocal [] -> plain_names (ad_classes la) (ad_top sa) rows ->
  dataset (ad_classes la) (ad_top sa) rows -> dataset (ad_classes da) (ad_top da) rows' -> matching (ad_classes la) (ad_classes da) rows rows' ->
  proper_values (ad_classes la) rows -> NoDup (ad_top da) -> (forall t, In t (ad_top sa) <-> In t (ad_top da)) ->
  2 <= fuel -> shallow (ad_classes la) rows (fuel - 1) -> shallow (ad_classes da) rows' (fuel - 1) ->
  no_flags (ad_classes la) rows -> no_flags (ad_classes da) rows' -> N.testbit flags 1 = false -> N.testbit flags 2 = false ->
  hooks_succeed h -> spares_attributes da h -> yields_once (dc_order dc) ->
  exists w' d, (load_keeping a rows ;;; load dst rows' ;;; sync_from fuel h dst src dc flags cb None) w = (w', Ok d) /\
    has_data w' dst (ad_classes la) rows /\
    forall dc' cb', exists d', snd (diff_from fuel dst src dc' flags cb' w') = Ok d' /\ diff_has_diffs d' = false.
Proof.
  intros fuel h a src dst dc flags cb w la sa da i rows rows' NE OK FS SA ES DA ED PN DS DS' MA PV TN TT F2 SH SH' NF NF' B1 B2 HK SP YO.
  destruct (C86_ready fuel a src dst w la sa da i rows rows' NE OK FS SA ES DA ED PN DS DS' MA PV TN TT F2 SH SH') as (w2 & d & E & AL & CM & EN & CD).
  specialize (EN flags B1 B2 NF NF'). set (da' := set_ad_store da (SLocal d)) in *.
  destruct (sync_copies_all fuel h dst src dc flags cb w2 sa da' AL CM HK SP YO EN) as (w3 & df & E3 & HC & LO & KY & _).
  destruct (converges_all fuel h dst src dc flags cb w2 sa da' AL CM HK SP YO) as (w3' & df' & E3' & H). rewrite E3 in E3'. injection E3' as <- <-.
  exists w3, df. split.
  { unfold bind in *. destruct (load_keeping a rows w) as [v [[]|e]]; [|discriminate]. now rewrite E. }
  split; [now apply CD|]. intros dc' cb'. destruct (H dc' cb') as (d' & D & N). exists d'. split; [exact D|]. now apply has_diffs_none.
Qed.
Print Assumptions C86_sync.

(** The records of C75 on the server; adapter 0 writes them, adapter 1 reads them, adapter 2 is synchronised. *)
Definition w86 : world := mkWorld [] [mk_ad "a" (SRedis "inv"); mk_ad "b" (SRedis "inv"); mk_ad "c" (SLocal [])] [("diffsync:other:site:nyc", set_o_adapter (mk_site "nyc" "" [] 0 0) None)]%string [].
Definition end86 (ld : aid -> list row -> M world unit) : world := fst ((ld 0 rows_a ;;; load 2 rows_b ;;; sync_from 20 default_hooks 2 1 base_class 0 false None) w86).
Definition held86 (w : world) : list (option (dict val * dict (list string))) :=
  map (fun k => match lookup w 2 (fst k) (snd k) with
                | Some r => match nth_error (w_heap w) r with Some o => Some (get_attrs o, o_kids o) | None => None end
                | None => None
                end) [("site", "nyc"); ("device", "r2"); ("interface", "r1__eth0"); ("site", "lon"); ("device", "r9")]%string.
Lemma fresh86 : fresh_store w86 0 (mk_ad "a" (SRedis "inv")) "inv" rows_a.
Proof.
  split; try reflexivity.
  - intros x I. repeat (destruct I as [<-|I]; [reflexivity|]). destruct I.
  - repeat constructor. intros [].
Qed.
Lemma names86 : plain_names s_classes ["site"] rows_a.
Proof.
  split.
  - intros t [<-|[]]. reflexivity.
  - intros x c t I D. repeat (destruct I as [<-|I]; [injection D as <-; simpl; intuition (subst; reflexivity)|]). destruct I.
Qed.
Example C86_example :
  fresh_store w86 0 (mk_ad "a" (SRedis "inv")) "inv" rows_a /\ plain_names s_classes ["site"] rows_a /\
  map (fun k => option_map o_kids (on_server (end86 load_keeping) "inv" (fst k) (snd k))) [("site", "nyc"); ("device", "r1"); ("device", "r2")]%string
  = [Some [("devices", ["r1"; "r2"])]; Some [("interfaces", ["r1__eth0"; "r1__eth1"])]; Some [("interfaces", ["r2__eth0"])]]%string /\
  held86 (end86 load_keeping)
  = [Some ([("region", VStr "east")], [("devices", ["r2"; "r1"])]); Some ([("role", VStr "core"); ("serial", VNone)], [("interfaces", ["r2__eth0"])]);
     Some ([("mtu", VInt 9000)], []); None; None]%string.
Proof. split; [exact fresh86|]. split; [exact names86|]. split; vm_compute; reflexivity. Qed.

(** C86_sync with the documentation's [load] instead is refuted: without child lists the synchronisation finds
    nothing below the top-level objects, and deletes it from the destination. *)
Theorem C86_orphans_refuted : exists w la sa da i rows rows',
  w_ok w /\ fresh_store w 0 la i rows /\ nth_error (w_ads w) 1 = Some sa /\ ad_store sa = SRedis i /\
  nth_error (w_ads w) 2 = Some da /\ ad_store da = SLocal [] /\ plain_names (ad_classes la) (ad_top sa) rows /\
  dataset (ad_classes la) (ad_top sa) rows /\ dataset (ad_classes da) (ad_top da) rows' /\ matching (ad_classes la) (ad_classes da) rows rows' /\
  proper_values (ad_classes la) rows /\ NoDup (ad_top da) /\ (forall t, In t (ad_top sa) <-> In t (ad_top da)) /\
  shallow (ad_classes la) rows 19 /\ shallow (ad_classes da) rows' 19 /\ no_flags (ad_classes la) rows /\ no_flags (ad_classes da) rows' /\
  exists w', (load 0 rows ;;; load 2 rows') w = (w', Ok tt) /\ lookup w' 2 "device" "r2" <> None /\
  exists w2 d, sync_from 20 default_hooks 2 1 base_class 0 false None w' = (w2, Ok d) /\
    ~ has_data w2 2 (ad_classes la) rows /\ lookup w2 2 "device" "r2" = None /\ lookup w2 2 "site" "nyc" <> None.
Proof.
  exists w86, (mk_ad "a" (SRedis "inv")), (mk_ad "b" (SRedis "inv")), (mk_ad "c" (SLocal [])), "inv"%string, rows_a, rows_b.
  split; [apply w_okb_ok; reflexivity|]. split; [exact fresh86|]. do 4 (split; [reflexivity|]). split; [exact names86|].
  split; [apply dataset_ok; vm_compute; reflexivity|]. split; [apply dataset_ok; vm_compute; reflexivity|]. split; [apply matching_ok; vm_compute; reflexivity|]. split; [apply proper_ok; vm_compute; reflexivity|].
  split; [repeat constructor; intros []|]. split; [reflexivity|].
  split; [apply (shallow_ok _ level75); vm_compute; reflexivity|]. split; [apply (shallow_ok _ level75); vm_compute; reflexivity|].
  split; [apply no_flags_ok; vm_compute; reflexivity|]. split; [apply no_flags_ok; vm_compute; reflexivity|].
  set (w' := fst ((load 0 rows_a ;;; load 2 rows_b) w86)). exists w'. split; [|split].
  - assert (X : snd ((load 0 rows_a ;;; load 2 rows_b) w86) = Ok tt) by (vm_compute; reflexivity). unfold w'. destruct ((load 0 rows_a ;;; load 2 rows_b) w86) as [v r]. cbn [fst snd] in *. now subst r.
  - vm_compute. discriminate.
  - set (w2 := fst (sync_from 20 default_hooks 2 1 base_class 0 false None w')).
    assert (L : lookup w2 2 "device" "r2" = None) by (vm_compute; reflexivity).
    assert (N : lookup w2 2 "site" "nyc" <> None) by (vm_compute; discriminate).
    assert (X : match snd (sync_from 20 default_hooks 2 1 base_class 0 false None w') with Ok _ => true | Err _ => false end = true) by (vm_compute; reflexivity).
    assert (Y : exists d, sync_from 20 default_hooks 2 1 base_class 0 false None w' = (w2, Ok d)).
    { unfold w2. destruct (sync_from 20 default_hooks 2 1 base_class 0 false None w') as [v [d|e]]; cbn [fst snd] in *; [eauto|discriminate]. }
    destruct Y as (d & Y). exists w2, d. split; [exact Y|]. split; [|auto]. intros (H & _).
    destruct (H (device "nyc" "r2" "core") c_device) as (r & o & L' & _); [simpl; tauto|reflexivity|]. change (lookup w2 2 "device" "r2" = Some r) in L'. congruence.
Qed.
Print Assumptions C86_orphans_refuted.

(** Filling the store a second time is refused when a record names a parent: the parent's snapshot has children
    by then, the new model has none.  The server keeps what it has. *)
Theorem C86_again : forall w a ad i rows,
  fresh_store w a ad i rows -> dataset (ad_classes ad) (ad_top ad) rows -> (exists x, In x rows /\ r_parent x <> None) ->
  exists w1 w2, load_keeping a rows w = (w1, Ok tt) /\ load_keeping a rows w1 = (w2, Err ObjectAlreadyExists) /\
    w_redis w2 = w_redis w1 /\ w_ads w2 = w_ads w1.
Proof.
  intros w a ad i rows FS DS NP. destruct (sload_all true w a ad i (ad_top ad) rows FS DS) as (w1 & E & A & _ & _ & _ & SV). rewrite load_by_true in E. exists w1.
  destruct (again_rest w a ad i rows (ad_top ad) (fs_store _ _ _ _ _ FS) DS w1) with (m := rows) (l := @nil row) (w2 := w1) as (w2 & E2 & R); auto.
  - rewrite A. apply FS.
  - exists w2. auto.
Qed.
Print Assumptions C86_again.
Example C86_again_example :
  snd ((load_keeping 0 rows_a ;;; load_keeping 0 rows_a) w86) = Err ObjectAlreadyExists /\
  snd ((load_keeping 0 [site "nyc" []; site "sfo" []] ;;; load_keeping 0 [site "nyc" []; site "sfo" []]) w86) = Ok tt.
Proof. split; vm_compute; reflexivity. Qed.
