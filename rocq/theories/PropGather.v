(** * PropGather: records that are loaded with get_or_instantiate or update_or_instantiate (C88).

    [gather] is the [load] of examples/04-get-update-instantiate; [firsts], [latest] and [gathered], what records with repetitions
    say together, and the conditions are defined in GatherSpec.v, the others in RowSpec.v. *)
From Verif Require Import GatherFacts RowSample PropRow ConvCascade.
From Coq Require Import Permutation.

(** C88.  Records may now repeat a type and unique id.  If the first record of each makes a data set, then loading succeeds with both
    methods, and the adapter has an object for each type and unique id, with the first record's values
    and parent; with update_or_instantiate, the latest values. *)
Theorem C88_load : forall upd w a ad rows,
  nth_error (w_ads w) a = Some ad -> ad_store ad = SLocal [] -> dataset (ad_classes ad) (ad_top ad) (firsts (ad_classes ad) [] rows) ->
  gives_ids (ad_classes ad) rows -> (upd = true -> gives_fields (ad_classes ad) rows) ->
  exists w', gather upd a rows w = (w', Ok tt) /\ filled w' a (ad_classes ad) (gathered upd (ad_classes ad) rows) /\
    (forall b, b <> a -> nth_error (w_ads w') b = nth_error (w_ads w) b) /\
    (forall r, r < length (w_heap w) -> nth_error (w_heap w') r = nth_error (w_heap w) r) /\
    length (w_heap w') = length (w_heap w) + length (firsts (ad_classes ad) [] rows) /\ w_redis w' = w_redis w /\ w_trace w' = w_trace w.
Proof.
  intros upd w a ad rows AD ES DS GI GF. destruct (gather_all upd w a ad (ad_top ad) rows AD DS GI GF ES) as (w' & E & IV). exists w'. split; [exact E|].
  split; [destruct (inv_stands w a ad _ w' AD IV) as (d & ST & _); exact (stands_filled _ _ _ _ _ ST)|].
  destruct IV as (d & EA & ER & ET & EL & EH & _). split; [intros b NE; rewrite EA; now apply nth_list_set_neq|]. split; [exact EH|]. split; [|auto].
  rewrite EL. f_equal. unfold gathered. destruct upd; [apply map_length|reflexivity].
Qed.
Print Assumptions C88_load.

(** What the words mean: [firsts] keeps a record exactly if none before it has its type and unique id ... *)
Theorem C88_firsts : forall cs rows x,
  In x (firsts cs [] rows) <-> exists l m, rows = l ++ x :: m /\ ~ In (row_key cs x) (map (row_key cs) l).
Proof.
  intros cs rows. induction rows as [|y rows IH] using rev_ind; intros x; [split; [intros []|intros ([|? ?] & ? & E & _); discriminate]|]. rewrite firsts_snoc. split.
  - intros I. assert (J : In x (firsts cs [] rows) \/ (x = y /\ existsb (same_key cs y) (firsts cs [] rows) = false)).
    { destruct (existsb (same_key cs y) (firsts cs [] rows)); [auto|]. apply in_app_iff in I as [I|[I|[]]]; auto. }
    destruct J as [J|(-> & J)].
    + apply IH in J as (l & m & -> & N). exists l, (m ++ [y]). split; [now rewrite <- app_assoc|exact N].
    + exists rows, []. split; [reflexivity|]. rewrite <- firsts_keys. now apply seen_no.
  - intros (l & m & E & N). destruct m as [|z m _] using rev_ind.
    + apply app_inj_tail in E as (-> & ->). replace (existsb (same_key cs x) (firsts cs [] l)) with false by (symmetry; apply seen_no; now rewrite firsts_keys). apply in_app_iff. right. now left.
    + rewrite app_comm_cons, app_assoc in E. apply app_inj_tail in E as (-> & ->). assert (I : In x (firsts cs [] (l ++ x :: m))) by (apply IH; eauto).
      destruct (existsb (same_key cs z) (firsts cs [] (l ++ x :: m))); [exact I|]. apply in_app_iff. now left.
Qed.
Print Assumptions C88_firsts.
(** ... and [latest] is, up to equality, what the last record of that type and unique id that gives the field says,
    or what the first one has if none does. *)
Theorem C88_latest : forall cs c rows x f,
  ~ In f (c_identifiers c) ->
  (forall l z m v, rows = l ++ z :: m -> row_key cs z = row_key cs x -> dget (r_kw z) f = Some v -> py_eq v v = true ->
     (forall z', In z' m -> row_key cs z' = row_key cs x -> dget (r_kw z') f = None) ->
     exists v', latest cs c rows x f = Some v' /\ py_eq v' v = true) /\
  ((forall z, In z rows -> row_key cs z = row_key cs x -> dget (r_kw z) f = None) -> latest cs c rows x f = value_in c (r_kw x) f).
Proof.
  intros cs c rows x f NI. assert (SM : smem f (c_identifiers c) = false) by (destruct (smem f (c_identifiers c)) eqn:E; [apply smem_In in E; contradiction|reflexivity]).
  assert (NO : forall l m, (forall z, In z m -> row_key cs z = row_key cs x -> dget (r_kw z) f = None) -> latest cs c (l ++ m) x f = latest cs c l x f).
  { intros l m. induction m as [|z m IH] using rev_ind; intros H; [now rewrite app_nil_r|]. rewrite app_assoc, latest_snoc, IH by (intros; apply H; [apply in_app_iff; now left|assumption]).
    destruct (same_key cs x z) eqn:E; [|reflexivity]. apply same_key_ok in E. unfold renew. rewrite dget_rest, SM. rewrite H; [reflexivity|apply in_app_iff; right; now left|congruence]. }
  split.
  - intros l z m v -> E G R L. replace (l ++ z :: m) with ((l ++ [z]) ++ m) by now rewrite <- app_assoc. rewrite NO by exact L. rewrite latest_snoc.
    replace (same_key cs x z) with true by (symmetry; now apply same_key_ok). unfold renew. rewrite dget_rest, SM, G. destruct (latest cs c l x f) as [v0|]; [|eauto].
    destruct (py_eq v0 v) eqn:P; eauto.
  - intros H. exact (NO [] rows H).
Qed.
Print Assumptions C88_latest.

(** Loading the same records, or some of them, again with get_or_instantiate changes nothing. *)
Theorem C88_again : forall w a ad rows rows',
  nth_error (w_ads w) a = Some ad -> ad_store ad = SLocal [] -> dataset (ad_classes ad) (ad_top ad) (firsts (ad_classes ad) [] rows) ->
  gives_ids (ad_classes ad) rows -> incl rows' rows ->
  exists w', gather false a rows w = (w', Ok tt) /\ gather false a rows' w' = (w', Ok tt).
Proof.
  intros w a ad rows rows' AD ES DS GI IN. destruct (gather_all false w a ad (ad_top ad) rows AD DS GI) as (w' & E & IV); [discriminate|exact ES|]. exists w'. split; [exact E|].
  destruct IV as (d & EA & _ & _ & _ & _ & _ & _ & IJ & _). pose proof (here w a ad AD d w' EA) as (HA & HS). cbn [gathered] in IJ. clear E ES.
  induction rows' as [|x rows' IH]; [reflexivity|]. cbn [gather]. unfold bind at 1. assert (IX : In x rows) by (apply IN; now left).
  assert (X : gather_row false a x w' = (w', Ok tt)); [|rewrite X; apply IH; intros z I; apply IN; now right].
  assert (KX : In (row_key (ad_classes ad) x) (map (row_key (ad_classes ad)) (firsts (ad_classes ad) [] rows))) by (apply firsts_keys; now apply in_map).
  apply in_map_iff in KX as (y & EY & IY). destruct (da_class _ _ _ DS y IY) as (c & D & MN & CR & RQ). assert (T : r_type y = r_type x) by (apply (f_equal fst) in EY; exact EY). rewrite T in D, MN.
  apply In_nth_error in IY as (j & J). destruct (IJ j y J) as (B & _). rewrite EY in B. change (fst (row_key (ad_classes ad) x)) with (r_type x) in B. destruct (GI x c IX D) as (_ & G).
  unfold gather_row. unfold bind at 1, get_adapter. rewrite HA. cbn [ad_classes set_ad_store]. rewrite D. unfold bind at 1, st_get_or_instantiate, try_catch, bind at 1.
  rewrite (st_get_local a (MClass c) (IdDict (ids_of c (r_kw x))) w' _ d (snd (row_key (ad_classes ad) x)) (conj HA HS)) by (cbn [object_class_and_model fst get_uid]; now apply (uid_parts (ad_classes ad))).
  cbn [spec_name]. rewrite MN, B. rewrite touch_known by (eapply bucket_nonempty_known; eauto). cbn [snd]. rewrite (upd_here w a ad AD d d w' EA). unfold ret. f_equal. rewrite <- EA. now destruct w'.
Qed.
Print Assumptions C88_again.

(** Two adapters that are loaded so and synchronised. *)
Theorem C88_sync : forall upd upd' fuel h src dst dc flags cb w sa da rows rows',
  let got := gathered upd (ad_classes sa) rows in let got' := gathered upd' (ad_classes da) rows' in
  src <> dst -> w_ok w -> nth_error (w_ads w) src = Some sa -> nth_error (w_ads w) dst = Some da -> ad_store sa = SLocal [] -> ad_store da = SLocal [] ->
  dataset (ad_classes sa) (ad_top sa) (firsts (ad_classes sa) [] rows) -> dataset (ad_classes da) (ad_top da) (firsts (ad_classes da) [] rows') ->
  gives_ids (ad_classes sa) rows -> (upd = true -> gives_fields (ad_classes sa) rows) -> gives_ids (ad_classes da) rows' -> (upd' = true -> gives_fields (ad_classes da) rows') ->
  matching (ad_classes sa) (ad_classes da) got got' -> proper_values (ad_classes sa) got -> NoDup (ad_top da) -> (forall t, In t (ad_top sa) <-> In t (ad_top da)) ->
  2 <= fuel -> shallow (ad_classes sa) got (fuel - 1) -> shallow (ad_classes da) got' (fuel - 1) ->
  no_flags (ad_classes sa) got -> no_flags (ad_classes da) got' -> N.testbit flags 1 = false -> N.testbit flags 2 = false ->
  hooks_succeed h -> spares_attributes da h -> yields_once (dc_order dc) ->
  exists w' d, (gather upd src rows ;;; gather upd' dst rows' ;;; sync_from fuel h dst src dc flags cb None) w = (w', Ok d) /\
    has_data w' dst (ad_classes sa) got /\
    forall dc' cb', exists d', snd (diff_from fuel dst src dc' flags cb' w') = Ok d' /\ diff_has_diffs d' = false.
Proof.
  intros upd upd' fuel h src dst dc flags cb w sa da rows rows' got got' NE OK SA DA ES ED DF DF' GI GF GI' GF' MA PV TN TT F2 SH SH' NF NF' B1 B2 HK SP YO.
  pose proof (gathered_data upd sa (ad_top sa) rows GF rows DF) as DS. pose proof (gathered_data upd' da (ad_top da) rows' GF' rows' DF') as DS'. fold got in DS. fold got' in DS'.
  destruct (gather_all upd w src sa (ad_top sa) rows SA DF GI GF ES) as (w1 & E1 & I1). fold got in I1. destruct (inv_stands w src sa got w1 SA I1) as (s & ST1 & EA1).
  assert (DA1 : nth_error (w_ads w1) dst = Some da) by (rewrite EA1, nth_list_set_neq; auto).
  destruct (gather_all upd' w1 dst da (ad_top da) rows' DA1 DF' GI' GF' ED) as (w2 & E2 & I2). fold got' in I2. destruct (inv_stands w1 dst da got' w2 DA1 I2) as (d & ST2 & EA2).
  assert (ST : stands w2 src (set_ad_store sa (SLocal s)) (length (w_heap w)) got) by (eapply inv_others; eauto).
  assert (OK2 : w_ok w2) by exact (inv_refs w1 dst da got' w2 DA1 I2 (inv_refs w src sa got w1 SA I1 OK)).
  assert (AP : length (w_heap w) + length got <= length (w_heap w1) \/ length (w_heap w1) + length got' <= length (w_heap w)) by (left; destruct ST1 as (d1 & _ & _ & LE & _); exact LE).
  set (sa' := set_ad_store sa (SLocal s)) in *. set (da' := set_ad_store da (SLocal d)) in *.
  assert (AL : alike w2 fuel src dst sa' da') by now apply (rows_alike w2 fuel src dst sa' da' (length (w_heap w)) (length (w_heap w1)) got got').
  assert (CM : comparable w2 fuel src dst sa' da') by now apply (rows_comparable w2 fuel src dst sa' da' (length (w_heap w)) (length (w_heap w1)) got got').
  assert (EN : entire w2 flags src dst sa' da') by now apply (rows_entire w2 src dst sa' da' (length (w_heap w)) (length (w_heap w1)) got got').
  destruct (sync_copies_all fuel h dst src dc flags cb w2 sa' da' AL CM HK SP YO EN) as (w3 & df & E3 & HC & LO & KY & _).
  destruct (converges_all fuel h dst src dc flags cb w2 sa' da' AL CM HK SP YO) as (w3' & df' & E3' & H). rewrite E3 in E3'. injection E3' as <- <-.
  exists w3, df. split; [unfold bind; now rewrite E1, E2|]. split; [now apply (copy_data w2 src dst sa' (length (w_heap w)) got ST DS PV w3)|].
  intros dc' cb'. destruct (H dc' cb') as (d' & D & N). exists d'. split; [exact D|]. now apply has_diffs_none.
Qed.
Print Assumptions C88_sync.

(** Records with repetitions: nyc is given a region later, r1 another role, and r2 is named under another site the second time. *)
Definition rows88 : list row :=
  [site "nyc" []; device "nyc" "r1" "edge"; site "nyc" [("region", VStr "east")]; site "lon" []; device "nyc" "r2" "core";
   device "nyc" "r1" "spare"; device "lon" "r2" "core"; intf "r1" "eth0" [("mtu", VInt 1)]; intf "r1" "eth0" [("mtu", VBool true)]; site "nyc" []].
Definition seen88 (w : world) : list (option (dict val * dict (list string))) :=
  map (fun k => match lookup w 0 (fst k) (snd k) with
                | Some r => match nth_error (w_heap w) r with Some o => Some (get_attrs o, o_kids o) | None => None end
                | None => None
                end) [("site", "nyc"); ("site", "lon"); ("device", "r1"); ("device", "r2"); ("interface", "r1__eth0")]%string.
Lemma gives88 : gives_ids s_classes rows88 /\ gives_fields s_classes rows88.
Proof.
  split.
  - intros x c I D. repeat (destruct I as [<-|I]; [vm_compute in D; injection D as <-; split; [repeat constructor; simpl; intuition discriminate|intros f F; simpl in F; repeat (destruct F as [<-|F]; [discriminate|]); destruct F]|]). destruct I.
  - intros x c f I D. repeat (destruct I as [<-|I]; [vm_compute in D; injection D as <-; intros F; simpl in F; repeat (destruct F as [<-|F]; [simpl; tauto|]); destruct F|]). destruct I.
Qed.
Example C88_example :
  dataset s_classes ["site"] (firsts s_classes [] rows88) /\ gives_ids s_classes rows88 /\ gives_fields s_classes rows88 /\
  snd (load 0 rows88 w75) = Err ObjectAlreadyExists /\
  firsts s_classes [] rows88 = [site "nyc" []; device "nyc" "r1" "edge"; site "lon" []; device "nyc" "r2" "core"; intf "r1" "eth0" [("mtu", VInt 1)]] /\
  snd (gather false 0 rows88 w75) = Ok tt /\ snd (gather true 0 rows88 w75) = Ok tt /\
  seen88 (fst (gather false 0 rows88 w75))
  = [Some ([("region", VNone)], [("devices", ["r1"; "r2"])]); Some ([("region", VNone)], [("devices", [])]);
     Some ([("role", VStr "edge"); ("serial", VNone)], [("interfaces", ["r1__eth0"])]); Some ([("role", VStr "core"); ("serial", VNone)], [("interfaces", [])]);
     Some ([("mtu", VInt 1)], [])]%string /\
  seen88 (fst (gather true 0 rows88 w75))
  = [Some ([("region", VStr "east")], [("devices", ["r1"; "r2"])]); Some ([("region", VNone)], [("devices", [])]);
     Some ([("role", VStr "spare"); ("serial", VNone)], [("interfaces", ["r1__eth0"])]); Some ([("role", VStr "core"); ("serial", VNone)], [("interfaces", [])]);
     Some ([("mtu", VInt 1)], [])]%string.
Proof.
  split; [apply dataset_ok; vm_compute; reflexivity|]. split; [apply gives88|]. split; [apply gives88|]. split; [vm_compute; reflexivity|]. split; [reflexivity|].
  repeat (split; [vm_compute; reflexivity|]). vm_compute. reflexivity.
Qed.

(** A record is not always a child of the parent it names: the second device r2 of [rows88] is not one of lon's. *)
Theorem C88_parent_refuted : exists w ad rows x p,
  nth_error (w_ads w) 0 = Some ad /\ ad_store ad = SLocal [] /\ dataset (ad_classes ad) (ad_top ad) (firsts (ad_classes ad) [] rows) /\
  gives_ids (ad_classes ad) rows /\ gives_fields (ad_classes ad) rows /\ In x rows /\ r_parent x = Some p /\
  forall upd, exists w' r o, gather upd 0 rows w = (w', Ok tt) /\ lookup w' 0 (fst p) (snd p) = Some r /\ nth_error (w_heap w') r = Some o /\
    forall f l, dget (o_kids o) f = Some l -> ~ In (snd (row_key (ad_classes ad) x)) l.
Proof.
  exists w75, (mk_ad "a" (SLocal [])), rows88, (device "lon" "r2" "core"), ("site", "lon")%string.
  do 2 (split; [reflexivity|]). split; [apply dataset_ok; vm_compute; reflexivity|]. split; [apply gives88|]. split; [apply gives88|]. split; [simpl; tauto|]. split; [reflexivity|].
  assert (X : forall upd, exists w', gather upd 0 rows88 w75 = (w', Ok tt) /\ exists r o, lookup w' 0 "site" "lon" = Some r /\ nth_error (w_heap w') r = Some o /\ o_kids o = [("devices", [])]%string).
  { intros [|]; eexists; (split; [vm_compute; reflexivity|]); eexists; eexists; (split; [vm_compute; reflexivity|]); (split; [vm_compute; reflexivity|]); reflexivity. }
  intros upd. destruct (X upd) as (w' & E & r & o & L & H & K). exists w', r, o. repeat (split; [assumption|]). intros f l D. rewrite K in D. cbn [dget] in D.
  destruct (String.eqb f "devices"); [injection D as <-; intros []|discriminate].
Qed.
Print Assumptions C88_parent_refuted.
(** So the order of the records matters, even if all records of a type and unique id have the same values. *)
Theorem C88_order_refuted : exists w rows rows' sa da,
  Permutation rows rows' /\ nth_error (w_ads w) 0 = Some sa /\ nth_error (w_ads w) 1 = Some da /\ ad_classes sa = ad_classes da /\
  (forall x y, In x rows -> In y rows -> row_key (ad_classes sa) x = row_key (ad_classes sa) y -> r_kw x = r_kw y) /\
  forall upd, exists w' d, (gather upd 0 rows ;;; gather upd 1 rows') w = (w', Ok tt) /\
    snd (diff_from 20 1 0 base_class 0 false w') = Ok d /\ diff_has_diffs d = true.
Proof.
  exists w75, [site "nyc" []; site "lon" []; device "nyc" "r1" "edge"; device "lon" "r1" "edge"], [site "nyc" []; site "lon" []; device "lon" "r1" "edge"; device "nyc" "r1" "edge"], (mk_ad "a" (SLocal [])), (mk_ad "b" (SLocal [])).
  split; [do 2 apply perm_skip; apply perm_swap|]. do 3 (split; [reflexivity|]). split.
  - intros x y I J E. repeat (destruct I as [<-|I]; [repeat (destruct J as [<-|J]; [first [reflexivity|vm_compute in E; discriminate E]|]); destruct J|]). destruct I.
  - intros [|]; eexists; eexists; (split; [vm_compute; reflexivity|]); (split; [vm_compute; reflexivity|]); vm_compute; reflexivity.
Qed.
Print Assumptions C88_order_refuted.
