(** * PropRow: adapters that are filled from records and synchronised (C75).

    The conditions ([dataset], [matching], [proper_values], [shallow], [no_flags]) speak of the records and
    classes only; they and [load], [filled] and [has_data] are defined in RowSpec.v. *)
From Verif Require Import RowSample ConvCascade.

(** C75.  Loading records into an empty adapter succeeds; the adapter then has an object for each
    record, with the record's values and the children in the order of the records, and nothing else.
    Nothing besides changes. *)
Theorem C75_load : forall w a ad rows,
  nth_error (w_ads w) a = Some ad -> ad_store ad = SLocal [] -> dataset (ad_classes ad) (ad_top ad) rows ->
  exists w', load a rows w = (w', Ok tt) /\ filled w' a (ad_classes ad) rows /\
    (forall b, b <> a -> nth_error (w_ads w') b = nth_error (w_ads w) b) /\
    (forall r, r < length (w_heap w) -> nth_error (w_heap w') r = nth_error (w_heap w) r) /\
    length (w_heap w') = length (w_heap w) + length rows /\ w_redis w' = w_redis w /\ w_trace w' = w_trace w.
Proof.
  intros w a ad rows AD ES DS. destruct (load_all w a ad (ad_top ad) rows AD DS ES) as (w' & E & IV). exists w'. split; [exact E|].
  split; [destruct (inv_stands w a ad rows w' AD IV) as (d & ST & _); exact (stands_filled _ _ _ _ _ ST)|].
  destruct IV as (d & EA & ER & ET & EL & EH & _). split; [intros b NE; rewrite EA; now apply nth_list_set_neq|]. auto.
Qed.
Print Assumptions C75_load.

(** Two adapters that are filled from records satisfy the conditions under which a synchronisation
    converges (C32) and everything that builds on them. *)
Theorem C75_ready : forall fuel src dst w sa da rows rows',
  src <> dst -> w_ok w -> nth_error (w_ads w) src = Some sa -> nth_error (w_ads w) dst = Some da -> ad_store sa = SLocal [] -> ad_store da = SLocal [] ->
  dataset (ad_classes sa) (ad_top sa) rows -> dataset (ad_classes da) (ad_top da) rows' -> matching (ad_classes sa) (ad_classes da) rows rows' ->
  proper_values (ad_classes sa) rows -> NoDup (ad_top da) -> (forall t, In t (ad_top sa) <-> In t (ad_top da)) ->
  2 <= fuel -> shallow (ad_classes sa) rows (fuel - 1) -> shallow (ad_classes da) rows' (fuel - 1) ->
  exists w' s d, (load src rows ;;; load dst rows') w = (w', Ok tt) /\
    let sa' := set_ad_store sa (SLocal s) in let da' := set_ad_store da (SLocal d) in
    alike w' fuel src dst sa' da' /\ comparable w' fuel src dst sa' da' /\
    filled w' src (ad_classes sa) rows /\ filled w' dst (ad_classes da) rows' /\
    forall flags, N.testbit flags 1 = false -> N.testbit flags 2 = false -> no_flags (ad_classes sa) rows -> no_flags (ad_classes da) rows' ->
      entire w' flags src dst sa' da'.
Proof.
  intros fuel src dst w sa da rows rows' NE OK SA DA ES ED DS DS' MA PV TN TT F2 SH SH'.
  destruct (load_all w src sa (ad_top sa) rows SA DS ES) as (w1 & E1 & I1). destruct (inv_stands w src sa rows w1 SA I1) as (s & ST1 & EA1).
  assert (DA1 : nth_error (w_ads w1) dst = Some da) by (rewrite EA1, nth_list_set_neq; auto).
  destruct (load_all w1 dst da (ad_top da) rows' DA1 DS' ED) as (w2 & E2 & I2). destruct (inv_stands w1 dst da rows' w2 DA1 I2) as (d & ST2 & EA2).
  assert (ST : stands w2 src (set_ad_store sa (SLocal s)) (length (w_heap w)) rows) by (eapply inv_others; eauto).
  assert (OK2 : w_ok w2) by exact (inv_refs w1 dst da rows' w2 DA1 I2 (inv_refs w src sa rows w1 SA I1 OK)).
  assert (AP : length (w_heap w) + length rows <= length (w_heap w1) \/ length (w_heap w1) + length rows' <= length (w_heap w)) by (left; destruct ST1 as (d1 & _ & _ & LE & _); exact LE).
  exists w2, s, d. split; [unfold bind; now rewrite E1|]. cbv zeta. split.
  { now apply (rows_alike w2 fuel src dst (set_ad_store sa (SLocal s)) (set_ad_store da (SLocal d)) (length (w_heap w)) (length (w_heap w1)) rows rows'). }
  split.
  { now apply (rows_comparable w2 fuel src dst (set_ad_store sa (SLocal s)) (set_ad_store da (SLocal d)) (length (w_heap w)) (length (w_heap w1)) rows rows'). }
  split; [exact (stands_filled _ _ _ _ _ ST)|]. split; [exact (stands_filled _ _ _ _ _ ST2)|]. intros flags B1 B2 NF NF'.
  now apply (rows_entire w2 src dst (set_ad_store sa (SLocal s)) (set_ad_store da (SLocal d)) (length (w_heap w)) (length (w_heap w1)) rows rows').
Qed.
Print Assumptions C75_ready.

(** Loading records into two empty adapters and synchronising the second from the first works, and
    leaves in the second exactly the data of the records of the first.  Comparing them then finds no difference. *)
Theorem C75_sync : forall fuel h src dst dc flags cb w sa da rows rows',
  src <> dst -> w_ok w -> nth_error (w_ads w) src = Some sa -> nth_error (w_ads w) dst = Some da -> ad_store sa = SLocal [] -> ad_store da = SLocal [] ->
  dataset (ad_classes sa) (ad_top sa) rows -> dataset (ad_classes da) (ad_top da) rows' -> matching (ad_classes sa) (ad_classes da) rows rows' ->
  proper_values (ad_classes sa) rows -> NoDup (ad_top da) -> (forall t, In t (ad_top sa) <-> In t (ad_top da)) ->
  2 <= fuel -> shallow (ad_classes sa) rows (fuel - 1) -> shallow (ad_classes da) rows' (fuel - 1) ->
  no_flags (ad_classes sa) rows -> no_flags (ad_classes da) rows' -> N.testbit flags 1 = false -> N.testbit flags 2 = false ->
  hooks_succeed h -> spares_attributes da h -> yields_once (dc_order dc) ->
  exists w' d, (load src rows ;;; load dst rows' ;;; sync_from fuel h dst src dc flags cb None) w = (w', Ok d) /\
    has_data w' dst (ad_classes sa) rows /\
    forall dc' cb', exists d', snd (diff_from fuel dst src dc' flags cb' w') = Ok d' /\ diff_has_diffs d' = false.
Proof.
  intros fuel h src dst dc flags cb w sa da rows rows' NE OK SA DA ES ED DS DS' MA PV TN TT F2 SH SH' NF NF' B1 B2 HK SP YO.
  destruct (load_all w src sa (ad_top sa) rows SA DS ES) as (w1 & E1 & I1). destruct (inv_stands w src sa rows w1 SA I1) as (s & ST1 & EA1).
  assert (DA1 : nth_error (w_ads w1) dst = Some da) by (rewrite EA1, nth_list_set_neq; auto).
  destruct (load_all w1 dst da (ad_top da) rows' DA1 DS' ED) as (w2 & E2 & I2). destruct (inv_stands w1 dst da rows' w2 DA1 I2) as (d & ST2 & EA2).
  assert (ST : stands w2 src (set_ad_store sa (SLocal s)) (length (w_heap w)) rows) by (eapply inv_others; eauto).
  assert (OK2 : w_ok w2) by exact (inv_refs w1 dst da rows' w2 DA1 I2 (inv_refs w src sa rows w1 SA I1 OK)).
  assert (AP : length (w_heap w) + length rows <= length (w_heap w1) \/ length (w_heap w1) + length rows' <= length (w_heap w)) by (left; destruct ST1 as (d1 & _ & _ & LE & _); exact LE).
  set (sa' := set_ad_store sa (SLocal s)) in *. set (da' := set_ad_store da (SLocal d)) in *.
  assert (AL : alike w2 fuel src dst sa' da') by now apply (rows_alike w2 fuel src dst sa' da' (length (w_heap w)) (length (w_heap w1)) rows rows').
  assert (CM : comparable w2 fuel src dst sa' da') by now apply (rows_comparable w2 fuel src dst sa' da' (length (w_heap w)) (length (w_heap w1)) rows rows').
  assert (EN : entire w2 flags src dst sa' da') by now apply (rows_entire w2 src dst sa' da' (length (w_heap w)) (length (w_heap w1)) rows rows').
  destruct (sync_copies_all fuel h dst src dc flags cb w2 sa' da' AL CM HK SP YO EN) as (w3 & df & E3 & HC & LO & KY & _).
  destruct (converges_all fuel h dst src dc flags cb w2 sa' da' AL CM HK SP YO) as (w3' & df' & E3' & H). rewrite E3 in E3'. injection E3' as <- <-.
  exists w3, df. split; [unfold bind; now rewrite E1, E2|]. split; [now apply (copy_data w2 src dst sa' (length (w_heap w)) rows ST DS PV w3)|].
  intros dc' cb'. destruct (H dc' cb') as (d' & D & N). exists d'. split; [exact D|]. now apply has_diffs_none.
Qed.
Print Assumptions C75_sync.

(** Two sites with devices and interfaces on one side; on the other side a site too many, a device
    too many, interfaces with other values. *)
Definition site (n : string) (kw : dict val) : row := mkRow "site" (("name", VStr n) :: kw) None.
Definition device (s n role : string) : row := mkRow "device" [("name", VStr n); ("role", VStr role)] (Some ("site", s)%string).
Definition intf (d n : string) (kw : dict val) : row := mkRow "interface" (("device_name", VStr d) :: ("name", VStr n) :: kw) (Some ("device", d)%string).
Definition rows_a : list row :=
  [site "nyc" [("region", VStr "east")]; device "nyc" "r1" "edge"; intf "r1" "eth0" [("mtu", VInt 9000)]; intf "r1" "eth1" [];
   site "sfo" []; device "nyc" "r2" "core"; intf "r2" "eth0" []].
Definition rows_b : list row :=
  [site "lon" []; site "nyc" []; device "lon" "r9" "edge"; intf "r9" "eth0" []; device "nyc" "r2" "spare"; device "nyc" "r1" "edge"; intf "r1" "eth0" []].
Definition w75 : world := mkWorld [] [mk_ad "a" (SLocal []); mk_ad "b" (SLocal [])] [] [].
Definition level75 (t : string) : nat := if String.eqb t "site" then 0 else if String.eqb t "device" then 1 else 2.
Definition end75 : world := fst ((load 0 rows_a ;;; load 1 rows_b ;;; sync_from 20 default_hooks 1 0 base_class 0 false None) w75).
Example C75_example :
  w_ok w75 /\ dataset s_classes ["site"] rows_a /\ dataset s_classes ["site"] rows_b /\ matching s_classes s_classes rows_a rows_b /\
  proper_values s_classes rows_a /\ shallow s_classes rows_a 19 /\ shallow s_classes rows_b 19 /\ no_flags s_classes rows_a /\ no_flags s_classes rows_b /\
  map (fun k => match lookup end75 1 (fst k) (snd k) with
                | Some r => match nth_error (w_heap end75) r with Some o => Some (get_attrs o, o_kids o) | None => None end
                | None => None
                end) [("site", "nyc"); ("device", "r2"); ("interface", "r1__eth0"); ("site", "lon"); ("device", "r9")]%string
  = [Some ([("region", VStr "east")], [("devices", ["r2"; "r1"])]); Some ([("role", VStr "core"); ("serial", VNone)], [("interfaces", ["r2__eth0"])]);
     Some ([("mtu", VInt 9000)], []); None; None]%string.
Proof.
  split; [apply w_okb_ok; reflexivity|]. split; [apply dataset_ok; vm_compute; reflexivity|]. split; [apply dataset_ok; vm_compute; reflexivity|].
  split; [apply matching_ok; vm_compute; reflexivity|]. split; [apply proper_ok; vm_compute; reflexivity|].
  split; [apply (shallow_ok _ level75); vm_compute; reflexivity|]. split; [apply (shallow_ok _ level75); vm_compute; reflexivity|].
  split; [apply no_flags_ok; vm_compute; reflexivity|]. split; [apply no_flags_ok; vm_compute; reflexivity|]. vm_compute. reflexivity.
Qed.

(** The conditions matter.  Two records with the same unique id, whatever their identifiers: the
    second is refused. *)
Theorem C75_clash_refuted : exists w ad rows, nth_error (w_ads w) 0 = Some ad /\ ad_store ad = SLocal [] /\
  NoDup (map r_kw rows) /\ (forall x, In x rows -> exists c, dget (ad_classes ad) (r_type x) = Some c /\ creatable c) /\
  snd (load 0 rows w) = Err ObjectAlreadyExists.
Proof.
  exists w75, (mk_ad "a" (SLocal [])), [site "nyc" []; device "nyc" "a__b" ""; device "nyc" "a" ""; intf "a__b" "c" []; intf "a" "b__c" []].
  split; [reflexivity|]. split; [reflexivity|]. split; [repeat constructor; simpl; intuition discriminate|]. split; [|vm_compute; reflexivity].
  intros x I. assert (C : creatable c_site /\ creatable c_device /\ creatable c_intf) by (split; [|split]; apply creatableb_ok; vm_compute; reflexivity).
  destruct C as (C1 & C2 & C3). repeat (destruct I as [<-|I]; [eexists; split; [reflexivity|assumption]|]). destruct I.
Qed.
Print Assumptions C75_clash_refuted.
