(** * PropServe: records that are synchronised into a RedisStore (C87).

    [load], [load_keeping] and the conditions on records are those of C75 and C86 (RowSpec.v, ShelfSpec.v);
    [redis_adapter] and [served] are defined in ServeSpec.v. *)
From Verif Require Import RowSample PropRow PropShelf ServeTop ServeRead.
From Coq Require Import String List.
Import ListNotations.
Open Scope list_scope.

(** C87.  The source is a LocalStore filled from records, the destination a RedisStore filled with others.  Then the
    synchronisation works, and the server has: the records that were only in the source, without their children
    and without being children of anything; not those that were only in the destination; and of the
    others, and of everything else, the very snapshots from before. *)
Theorem C87_local : forall fuel h src dst dc flags cb w sa da i rows rows',
  src <> dst -> w_ok w -> nth_error (w_ads w) src = Some sa -> ad_store sa = SLocal [] ->
  fresh_store w dst da i rows' -> redis_adapter da i ->
  dataset (ad_classes sa) (ad_top sa) rows -> dataset (ad_classes da) (ad_top da) rows' -> matching (ad_classes sa) (ad_classes da) rows rows' ->
  proper_values (ad_classes sa) rows -> NoDup (ad_top da) -> (forall t, In t (ad_top sa) <-> In t (ad_top da)) ->
  2 <= fuel -> shallow (ad_classes sa) rows (fuel - 1) -> shallow (ad_classes da) rows' (fuel - 1) ->
  no_flags (ad_classes sa) rows -> no_flags (ad_classes da) rows' ->
  N.testbit flags 0 = false -> N.testbit flags 1 = false -> N.testbit flags 2 = false ->
  hooks_succeed h -> spares_attributes da h -> yields_once (dc_order dc) ->
  exists w1 w2 d, (load src rows ;;; load_keeping dst rows') w = (w1, Ok tt) /\
    shelved w i (ad_classes da) rows' rows' w1 /\
    sync_from fuel h dst src dc flags cb None w1 = (w2, Ok d) /\
    served w1 i (ad_classes sa) (ad_classes da) rows rows' w2.
Proof.
  intros fuel h src dst dc flags cb w sa da i rows rows' NE OK SA ES FS RA DS DS' MA PV TN TT F2 SH SH' NF NF' B0 B1 B2 HK SP YO.
  destruct (load_all w src sa (ad_top sa) rows SA DS ES) as (w1 & E1 & I1). destruct (inv_stands w src sa rows w1 SA I1) as (d & ST1 & EA1).
  pose proof (inv_refs w src sa rows w1 SA I1 OK) as OK1. pose proof I1 as (d1 & _ & ER1 & _).
  assert (FS1 : fresh_store w1 dst da i rows').
  { destruct FS as [A B C D E F]. split; auto; [rewrite EA1, nth_list_set_neq; auto|now rewrite ER1|intros s; now rewrite ER1]. }
  destruct (sload_all true w1 dst da i (ad_top da) rows' FS1 DS') as (w2 & E2 & A2 & _ & L2 & H2 & SV2). rewrite load_by_true in E2. cbn [kr] in SV2.
  set (sa' := set_ad_store sa (SLocal d)) in *.
  assert (LE : length (w_heap w1) <= length (w_heap w2)) by lia.
  assert (OK2 : w_ok w2). { intros b adb db m bk u r A B Im Iu. rewrite A2 in A. pose proof (OK1 b adb db m bk u r A B Im Iu). lia. }
  assert (ST2 : stands w2 src sa' (length (w_heap w)) rows).
  { destruct ST1 as (d' & A & B & C & N1 & N2 & IJ & IB). exists d'. rewrite A2. split; [exact A|]. split; [exact B|]. split; [lia|]. split; [exact N1|]. split; [exact N2|]. split; [|exact IB].
    intros j y J. destruct (IJ j y J) as (G & o & Ho & R). split; [exact G|]. exists o. split; [|exact R]. rewrite H2; [exact Ho|]. apply nth_error_Some. congruence. }
  assert (SV : shelved w i (ad_classes da) rows' rows' w2) by (destruct SV2 as (X1 & X2 & X3); split; [exact X1|]; split; [intros k Hk; rewrite X2 by exact Hk; now rewrite ER1|exact X3]).
  destruct (served_all fuel h src dst dc flags cb w w2 sa' sa' da i rows rows') as (w3 & df & E3 & SE); auto.
  - destruct ST2 as (d2 & A & _). exact A.
  - rewrite A2. apply FS1.
  - now apply (stands_shows w2 src sa' (length (w_heap w))).
  - apply FS.
  - exists w2, w3, df. split; [unfold bind; now rewrite E1|]. auto.
Qed.
Print Assumptions C87_local.

(** The same with a source that is a RedisStore too, which the adapter [a] filled and [src] reads. *)
Lemma store_prefix i j s t u : plain i = true -> plain j = true -> i <> j -> ("diffsync:" ++ i ++ ":" ++ s)%string <> redis_key j t u.
Proof.
  intros P Q N E. unfold redis_key, store_label in E. rewrite !append_assoc in E. apply app_inj in E. destruct (colon_inj _ _ _ _ P Q E). contradiction.
Qed.
Lemma dget_filter {A} (P : string -> bool) (d : dict A) k : dget (filter (fun kv => P (fst kv)) d) k = if P k then dget d k else None.
Proof.
  induction d as [|[k' v] d IH]; cbn [filter dget fst]; [now destruct (P k)|]. destruct (P k') eqn:E; cbn [dget]; rewrite IH; destruct (String.eqb_spec k k') as [->|N]; rewrite ?E; try reflexivity; destruct (P k); reflexivity.
Qed.
Theorem C87_redis : forall fuel h a src dst dc flags cb w la sa da j i rows rows',
  src <> dst -> i <> j -> w_ok w -> fresh_store w a la j rows -> nth_error (w_ads w) src = Some sa -> ad_store sa = SRedis j -> plain_names (ad_classes la) (ad_top sa) rows ->
  fresh_store w dst da i rows' -> redis_adapter da i ->
  dataset (ad_classes la) (ad_top sa) rows -> dataset (ad_classes da) (ad_top da) rows' -> matching (ad_classes la) (ad_classes da) rows rows' ->
  proper_values (ad_classes la) rows -> NoDup (ad_top da) -> (forall t, In t (ad_top sa) <-> In t (ad_top da)) ->
  2 <= fuel -> shallow (ad_classes la) rows (fuel - 1) -> shallow (ad_classes da) rows' (fuel - 1) ->
  no_flags (ad_classes la) rows -> no_flags (ad_classes da) rows' ->
  N.testbit flags 0 = false -> N.testbit flags 1 = false -> N.testbit flags 2 = false ->
  hooks_succeed h -> spares_attributes da h -> yields_once (dc_order dc) ->
  exists w1 w2 d, (load_keeping a rows ;;; load_keeping dst rows') w = (w1, Ok tt) /\
    sync_from fuel h dst src dc flags cb None w1 = (w2, Ok d) /\
    served w1 i (ad_classes la) (ad_classes da) rows rows' w2.
Proof.
  intros fuel h a src dst dc flags cb w la sa da j i rows rows' NE NI OK FS SA ES PN FS' RA DS DS' MA PV TN TT F2 SH SH' NF NF' B0 B1 B2 HK SP YO.
  destruct (sload_all true w a la j (ad_top sa) rows FS DS) as (w1 & E1 & A1 & _ & L1 & _ & SV1). rewrite load_by_true in E1. cbn [kr] in SV1.
  pose proof (fs_id _ _ _ _ _ FS) as PJ. pose proof (fs_id _ _ _ _ _ FS') as PI.
  assert (FS1 : fresh_store w1 dst da i rows').
  { destruct FS' as [A B C D E F]. split; auto; [now rewrite A1|apply SV1|]. intros s. destruct SV1 as (_ & X & _). rewrite X; [apply F|]. intros x _. now apply store_prefix. }
  destruct (sload_all true w1 dst da i (ad_top da) rows' FS1 DS') as (w2 & E2 & A2 & _ & L2 & _ & SV2). rewrite load_by_true in E2. cbn [kr] in SV2.
  assert (OK2 : w_ok w2). { intros b adb db m bk u r A B Im Iu. rewrite A2, A1 in A. pose proof (OK b adb db m bk u r A B Im Iu). lia. }
  set (ks := map (fun x => redis_key j (fst (row_key (ad_classes la) x)) (snd (row_key (ad_classes la) x))) rows).
  set (wj := mkWorld [] [] (filter (fun kv => negb (smem (fst kv) ks)) (w_redis w2)) []).
  assert (G : forall k, dget (w_redis wj) k = if negb (smem k ks) then dget (w_redis w2) k else None) by (intros k; exact (dget_filter (fun k => negb (smem k ks)) (w_redis w2) k)).
  assert (SVJ : shelved wj j (ad_classes la) rows rows w2).
  { split; [|split; [|apply SV2]].
    - intros x I. destruct (proj1 SV1 x I) as (o & S1 & R). exists o. split; [|exact R]. unfold on_server in *. rewrite (proj1 (proj2 SV2)); [exact S1|].
      intros y J E. pose proof (fs_types _ _ _ _ _ FS x I) as PX. pose proof (fs_types _ _ _ _ _ FS' y J) as PY. apply (key_inj _ _ _ _ _ _ PJ PX PI PY) in E as (E & _). now apply NI.
    - intros k Hk. rewrite G. destruct (smem k ks) eqn:M; [|reflexivity]. exfalso. apply smem_In in M. apply in_map_iff in M as (x & E & I). exact (Hk x I (eq_sym E)). }
  assert (NJ : forall s, dget (w_redis wj) ("diffsync:" ++ j ++ ":" ++ s)%string = None).
  { intros s. rewrite G. destruct (smem _ ks) eqn:M; cbn [negb]; [reflexivity|]. rewrite (proj1 (proj2 SV2)) by (intros y _; apply store_prefix; auto).
    rewrite (proj1 (proj2 SV1)); [apply FS|]. intros x I E. assert (X : smem ("diffsync:" ++ j ++ ":" ++ s)%string ks = true); [|congruence]. apply smem_In. rewrite E. apply in_map_iff. eauto. }
  assert (SW : shows w2 src la (ad_top sa) rows).
  { apply (shelf_shows wj w2 src sa la j (ad_top sa) rows); auto; [now rewrite A2, A1|apply FS|apply PN|apply PN]. }
  destruct (served_all fuel h src dst dc flags cb w1 w2 sa la da i rows rows') as (w3 & df & E3 & SE); auto.
  - now rewrite A2, A1.
  - rewrite A2. apply FS1.
  - apply FS1.
  - exists w2, w3, df. split; [unfold bind; now rewrite E1|]. auto.
Qed.
Print Assumptions C87_redis.

(** A record of both sides keeps the values and children it had in the destination. *)
Theorem C87_both : forall w w1 w2 i cs cs' rows rows' x y,
  plain i = true -> (forall z, In z rows -> plain (r_type z) = true) -> (forall z, In z rows' -> plain (r_type z) = true) ->
  shelved w i cs' rows' rows' w1 -> served w1 i cs cs' rows rows' w2 -> In x rows -> In y rows' -> row_key cs x = row_key cs' y ->
  exists o, on_server w2 i (fst (row_key cs x)) (snd (row_key cs x)) = Some o /\ made_from cs' rows' y o.
Proof.
  intros w w1 w2 i cs cs' rows rows' x y PI PR PR' SV SE I J E. destruct (proj1 SV y J) as (o & S1 & _ & M). exists o. split; [|exact M].
  unfold on_server in *. rewrite E. rewrite (se_rest _ _ _ _ _ _ _ SE); [exact S1| |].
  - intros z Iz AZ EZ. apply (key_inj _ _ _ _ _ _ PI (PR' y J) PI (PR z Iz)) in EZ as (_ & T & U). apply AZ. assert (EK : row_key cs z = row_key cs' y) by now apply injective_projections. rewrite EK. now apply in_map.
  - intros z Iz AZ EZ. apply (key_inj _ _ _ _ _ _ PI (PR' y J) PI (PR' z Iz)) in EZ as (_ & T & U). apply AZ. assert (EK : row_key cs' z = row_key cs x) by (rewrite E; now apply injective_projections). rewrite EK. now apply in_map.
Qed.
Print Assumptions C87_both.

(** So the parent of a record that was deleted, if it is in both, still names the record as its child. *)
Theorem C87_dangling : forall w w1 w2 i cs cs' rows rows' tops x y z p,
  plain i = true -> (forall z, In z rows -> plain (r_type z) = true) -> (forall z, In z rows' -> plain (r_type z) = true) ->
  dataset cs' tops rows' -> shelved w i cs' rows' rows' w1 -> served w1 i cs cs' rows rows' w2 ->
  In x rows -> In y rows' -> row_key cs x = row_key cs' y -> row_key cs' y = p ->
  In z rows' -> alone cs' cs rows z -> r_parent z = Some p ->
  exists o f l, on_server w2 i (fst p) (snd p) = Some o /\ dget (o_kids o) f = Some l /\ In (snd (row_key cs' z)) l /\
    on_server w2 i (fst (row_key cs' z)) (snd (row_key cs' z)) = None.
Proof.
  intros w w1 w2 i cs cs' rows rows' tops x y z p PI PR PR' DS SV SE I J E EP K AZ RP.
  destruct (C87_both w w1 w2 i cs cs' rows rows' x y PI PR PR' SV SE I J E) as (o & S2 & c & Dc & Oc & _ & _ & _ & _ & KS).
  apply in_split in K as K'. destruct K' as (l & m & ER). pose proof (da_parent _ _ _ DS l z m ER) as DP. rewrite RP in DP. destruct DP as (_ & y' & c' & Iy & EY & DY & TY).
  assert (Y : fst (row_key cs' y') = fst (row_key cs' y)) by congruence. cbn [row_key fst] in Y. assert (c' = c) by (change (r_type y' = r_type y) in Y; congruence). subst c'.
  apply in_map_iff in TY as ((t & f) & ET & IT). cbn [fst] in ET. specialize (KS t f IT). exists o, f, (row_kids cs' rows' (row_key cs' y) t).
  split; [rewrite <- EP, <- E; exact S2|]. split; [exact KS|]. split; [|exact (se_old _ _ _ _ _ _ _ SE z K AZ)].
  unfold row_kids. apply in_map_iff. exists z. split; [reflexivity|]. apply filter_In. split; [exact K|]. 
  unfold is_parent. rewrite RP, EP, ET. destruct p as [pt pu]. cbn. now rewrite !String.eqb_refl.
Qed.
Print Assumptions C87_dangling.

(** The records of C75; adapter 0 is the source with a LocalStore, adapter 1 the destination; adapter 2 has another RedisStore. *)
Definition w87 : world := mkWorld [] [mk_ad "a" (SLocal []); mk_ad "b" (SRedis "inv"); mk_ad "c" (SRedis "old")] [("diffsync:other:site:nyc", set_o_adapter (mk_site "nyc" "" [] 0 0) None)]%string [].
Definition mid87 : world := fst ((load 0 rows_a ;;; load_keeping 1 rows_b) w87).
Definition end87 : world := fst (sync_from 20 default_hooks 1 0 base_class 0 false None mid87).
Definition mid87r : world := fst ((load_keeping 2 rows_a ;;; load_keeping 1 rows_b) w87).
Definition end87r : world := fst (sync_from 20 default_hooks 1 2 base_class 0 false None mid87r).
Definition served87 (w : world) : list (option (dict val * dict (list string))) :=
  map (fun k => match on_server w "inv" (fst k) (snd k) with Some o => Some (get_attrs o, o_kids o) | None => None end)
    [("site", "nyc"); ("site", "lon"); ("site", "sfo"); ("device", "r1"); ("device", "r2"); ("interface", "r1__eth0"); ("interface", "r1__eth1")]%string.
Lemma fresh87 : fresh_store w87 1 (mk_ad "b" (SRedis "inv")) "inv" rows_b.
Proof.
  split; try reflexivity.
  - intros x I. repeat (destruct I as [<-|I]; [reflexivity|]). destruct I.
  - repeat constructor. intros [].
Qed.
Lemma adapter87 : redis_adapter (mk_ad "b" (SRedis "inv")) "inv".
Proof.
  split; try reflexivity.
  - intros t [<-|[]]. reflexivity.
  - intros t c D. apply dget_Some_In in D. repeat (destruct D as [D|D]; [injection D as <- <-; repeat split; try reflexivity; try discriminate; [repeat constructor; simpl; intuition discriminate|simpl; intuition (subst; reflexivity)]|]). destruct D.
Qed.
Example C87_example :
  w_ok w87 /\ fresh_store w87 1 (mk_ad "b" (SRedis "inv")) "inv" rows_b /\ redis_adapter (mk_ad "b" (SRedis "inv")) "inv" /\
  snd ((load 0 rows_a ;;; load_keeping 1 rows_b) w87) = Ok tt /\
  served87 mid87
  = [Some ([("region", VNone)], [("devices", ["r2"; "r1"])]); Some ([("region", VNone)], [("devices", ["r9"])]); None;
     Some ([("role", VStr "edge"); ("serial", VNone)], [("interfaces", ["r1__eth0"])]); Some ([("role", VStr "spare"); ("serial", VNone)], [("interfaces", [])]);
     Some ([("mtu", VInt 1500)], []); None]%string /\
  served87 end87
  = [Some ([("region", VNone)], [("devices", ["r2"; "r1"])]); None; Some ([("region", VNone)], [("devices", [])]);
     Some ([("role", VStr "edge"); ("serial", VNone)], [("interfaces", ["r1__eth0"])]); Some ([("role", VStr "spare"); ("serial", VNone)], [("interfaces", [])]);
     Some ([("mtu", VInt 1500)], []); Some ([("mtu", VInt 1500)], [])]%string /\
  served87 end87r = served87 end87 /\
  dget (w_redis end87) "diffsync:other:site:nyc" = dget (w_redis w87) "diffsync:other:site:nyc".
Proof. split; [apply w_okb_ok; reflexivity|]. split; [exact fresh87|]. split; [exact adapter87|]. vm_compute. repeat split. Qed.

Lemma pick {A B} (x : option A) (f : A -> option B) b : match x with Some o => f o | None => None end = Some b -> exists o, x = Some o /\ f o = Some b.
Proof. destruct x as [o|]; [eauto|discriminate]. Qed.
(** The claim of C75, that afterwards the destination has the data of the source's records, is refuted for a
    RedisStore under the conditions of C87_local: r2 keeps its role, and r1 does not name eth1. *)
Theorem C87_data_refuted : exists w sa da i rows rows',
  w_ok w /\ nth_error (w_ads w) 0 = Some sa /\ ad_store sa = SLocal [] /\ fresh_store w 1 da i rows' /\ redis_adapter da i /\
  dataset (ad_classes sa) (ad_top sa) rows /\ dataset (ad_classes da) (ad_top da) rows' /\ matching (ad_classes sa) (ad_classes da) rows rows' /\
  proper_values (ad_classes sa) rows /\ NoDup (ad_top da) /\ (forall t, In t (ad_top sa) <-> In t (ad_top da)) /\
  shallow (ad_classes sa) rows 19 /\ shallow (ad_classes da) rows' 19 /\ no_flags (ad_classes sa) rows /\ no_flags (ad_classes da) rows' /\
  exists w' w2 d, (load 0 rows ;;; load_keeping 1 rows') w = (w', Ok tt) /\
    sync_from 20 default_hooks 1 0 base_class 0 false None w' = (w2, Ok d) /\
    (exists o, on_server w2 i "device" "r2" = Some o /\ dget (o_vals o) "role" = Some (VStr "spare")) /\
    In (device "nyc" "r2" "core") rows /\
    (exists o, on_server w2 i "device" "r1" = Some o /\ dget (o_kids o) "interfaces" = Some ["r1__eth0"%string]) /\
    (exists o, on_server w2 i "interface" "r1__eth1" = Some o) /\ In (intf "r1" "eth1" []) rows.
Proof.
  exists w87, (mk_ad "a" (SLocal [])), (mk_ad "b" (SRedis "inv")), "inv"%string, rows_a, rows_b.
  split; [apply w_okb_ok; reflexivity|]. do 2 (split; [reflexivity|]). split; [exact fresh87|]. split; [exact adapter87|].
  split; [apply dataset_ok; vm_compute; reflexivity|]. split; [apply dataset_ok; vm_compute; reflexivity|]. split; [apply matching_ok; vm_compute; reflexivity|]. split; [apply proper_ok; vm_compute; reflexivity|].
  split; [repeat constructor; intros []|]. split; [reflexivity|].
  split; [apply (shallow_ok _ level75); vm_compute; reflexivity|]. split; [apply (shallow_ok _ level75); vm_compute; reflexivity|].
  split; [apply no_flags_ok; vm_compute; reflexivity|]. split; [apply no_flags_ok; vm_compute; reflexivity|].
  assert (R : match on_server end87 "inv" "device" "r2" with Some o => dget (o_vals o) "role" | None => None end = Some (VStr "spare")) by (vm_compute; reflexivity).
  assert (K : match on_server end87 "inv" "device" "r1" with Some o => dget (o_kids o) "interfaces" | None => None end = Some ["r1__eth0"%string]) by (vm_compute; reflexivity).
  assert (N : match on_server end87 "inv" "interface" "r1__eth1" with Some o => Some tt | None => None end = Some tt) by (vm_compute; reflexivity).
  assert (X : snd ((load 0 rows_a ;;; load_keeping 1 rows_b) w87) = Ok tt) by (vm_compute; reflexivity).
  assert (Y : match snd (sync_from 20 default_hooks 1 0 base_class 0 false None mid87) with Ok _ => true | Err _ => false end = true) by (vm_compute; reflexivity).
  assert (Z : exists d, sync_from 20 default_hooks 1 0 base_class 0 false None mid87 = (end87, Ok d)).
  { unfold end87. destruct (sync_from 20 default_hooks 1 0 base_class 0 false None mid87) as [v [d|e]]; cbn [fst snd] in *; [eauto|discriminate]. }
  destruct Z as (d & Z). exists mid87, end87, d.
  split. { unfold mid87. destruct ((load 0 rows_a ;;; load_keeping 1 rows_b) w87) as [v r]. cbn [fst snd] in *. now subst r. }
  split; [exact Z|]. clear X Y Z.
  revert R K N. generalize (on_server end87 "inv" "device" "r2") (on_server end87 "inv" "device" "r1") (on_server end87 "inv" "interface" "r1__eth1"). intros o2 o1 oe R K N.
  split; [exact (pick _ (fun o => dget (o_vals o) "role") _ R)|].
  split; [simpl; tauto|].
  split; [exact (pick _ (fun o => dget (o_kids o) "interfaces") _ K)|].
  split; [destruct (pick _ (fun o => Some tt) _ N) as (o & O & _); exists o; exact O|].
  simpl; tauto.
Qed.
Print Assumptions C87_data_refuted.
