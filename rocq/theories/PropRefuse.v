(** * PropRefuse: which records an adapter refuses to load (C81).

    [classes_sound], [loadable] and [refused] speak of the records and classes only; they are defined in
    RefuseSpec.v, [load] and [filled] in RowSpec.v. *)
From Verif Require Import RefuseFacts RowSample PropRow.

(** C81.  Whether records can be loaded into an empty adapter depends on the records alone: [load]
    succeeds exactly if each has a class and its required fields, no two have the same type and unique id,
    and each parent is before its child and has children of that type. *)
Theorem C81_iff : forall w a ad rows,
  nth_error (w_ads w) a = Some ad -> ad_store ad = SLocal [] -> classes_sound (ad_classes ad) ->
  (forall x, In x rows -> r_parent x <> Some (row_key (ad_classes ad) x)) ->
  (snd (load a rows w) = Ok tt <-> loadable (ad_classes ad) rows).
Proof.
  intros w a ad rows AD ES CS NS. destruct (load_total w a ad rows AD ES CS NS) as [(LO & w' & E & _)|(l & x & m & e & k & w' & -> & LO & RF & E & _)]; rewrite E; cbn [snd].
  - split; [intros _; exact LO|reflexivity].
  - split; [discriminate|]. intros LA. elim (refused_not _ _ _ _ _ RF). exact (LA l x m eq_refl).
Qed.
Print Assumptions C81_iff.

(** The first record that is not acceptable decides how the load ends: with the exception that belongs to
    what is wrong with it.  What is there then are the objects of the records before it, as if nothing
    else had been loaded, and if only the parent is wrong also its own object, without parent. *)
Theorem C81_refused : forall w a ad l x m e k,
  nth_error (w_ads w) a = Some ad -> ad_store ad = SLocal [] -> classes_sound (ad_classes ad) ->
  (forall y, In y (l ++ [x]) -> r_parent y <> Some (row_key (ad_classes ad) y)) ->
  loadable (ad_classes ad) l -> refused (ad_classes ad) l x e k ->
  exists w', load a (l ++ x :: m) w = (w', Err e) /\ filled w' a (ad_classes ad) k.
Proof. exact load_refused. Qed.
Print Assumptions C81_refused.

(** Nothing else can happen. *)
Theorem C81_cases : forall cs rows, loadable cs rows \/
  exists l x m e k, rows = l ++ x :: m /\ loadable cs l /\ refused cs l x e k /\ forall e' k', refused cs l x e' k' -> e' = e /\ k' = k.
Proof.
  intros cs rows. induction rows as [|x l IH] using rev_ind; [left; apply loadable_nil|]. destruct IH as [LO|(l1 & y & m & e & k & -> & R)].
  - destruct (acceptable_or cs l x LO) as [AC|(e & k & RF)]; [left; now apply loadable_snoc|]. right. exists l, x, [], e, k. split; [reflexivity|]. split; [exact LO|]. split; [exact RF|].
    intros e' k' R'. exact (refused_fun _ _ _ _ _ _ _ R' RF).
  - right. exists l1, y, (m ++ [x]), e, k. split; [now rewrite <- app_assoc|exact R].
Qed.
Print Assumptions C81_cases.

Definition soundb (cs : dict cls) : bool := forallb (fun tc => String.eqb (c_modelname (snd tc)) (fst tc) && creatableb (snd tc)) cs.
Lemma soundb_ok cs : soundb cs = true -> classes_sound cs.
Proof.
  unfold soundb. rewrite forallb_forall. intros H t c D. apply dget_Some_In in D. specialize (H _ D). apply andb_true_iff in H as (A & B). split; [now apply String.eqb_eq|now apply creatableb_ok].
Qed.

(** Each kind of record that is refused, after good ones; the objects that are there in the end. *)
Definition w81 : world := mkWorld [] [mk_ad "a" (SLocal [])] [] [].
Definition start81 : list row := [site "nyc" []; device "nyc" "r1" "edge"; intf "r1" "eth0" []].
Definition found81 (rows : list row) : result unit * list (string * list string) :=
  let (w', r) := load 0 rows w81 in
  (r, match nth_error (w_ads w') 0 with
      | Some ad => match ad_store ad with SLocal d => map (fun tb => (fst tb, dkeys (snd tb))) d | SRedis _ => [] end
      | None => []
      end).
Definition orphan81 : row := device "sfo" "r2" "edge".
Example C81_example :
  classes_sound s_classes /\ loadable s_classes start81 /\ refused s_classes start81 orphan81 ObjectNotFound (start81 ++ [mkRow "device" (r_kw orphan81) None]) /\
  found81 start81 = (Ok tt, [("site", ["nyc"]); ("device", ["r1"]); ("interface", ["r1__eth0"])])%string /\
  found81 (start81 ++ mkRow "rack" [] None :: rows_b) = (Err ExnAttributeError, [("site", ["nyc"]); ("device", ["r1"]); ("interface", ["r1__eth0"])])%string /\
  found81 (start81 ++ mkRow "interface" [("name", VStr "eth1")] (Some ("device", "r1"))%string :: rows_b) =
    (Err ExnValidationError, [("site", ["nyc"]); ("device", ["r1"]); ("interface", ["r1__eth0"])])%string /\
  found81 (start81 ++ device "nyc" "r1" "core" :: rows_b) = (Err ObjectAlreadyExists, [("site", ["nyc"]); ("device", ["r1"]); ("interface", ["r1__eth0"])])%string /\
  found81 (start81 ++ orphan81 :: rows_b) = (Err ObjectNotFound, [("site", ["nyc"]); ("device", ["r1"; "r2"]); ("interface", ["r1__eth0"])])%string /\
  found81 (start81 ++ mkRow "device" [("name", VStr "r2"); ("role", VStr "edge")] (Some ("interface", "r1__eth0"))%string :: rows_b) =
    (Err ObjectStoreWrongType, [("site", ["nyc"]); ("device", ["r1"; "r2"]); ("interface", ["r1__eth0"])])%string.
Proof.
  split; [apply soundb_ok; vm_compute; reflexivity|]. split; [apply (dataset_loadable s_classes ["site"]%string), dataset_ok; vm_compute; reflexivity|].
  split.
  { apply (rf_orphan s_classes start81 orphan81 c_device ("site", "sfo")%string); try reflexivity.
    - intros f [E|[E|[E|[]]]]; [|discriminate|discriminate]. injection E as <-. discriminate.
    - intros I. vm_compute in I. intuition discriminate.
    - intros I. vm_compute in I. intuition discriminate. }
  vm_compute. repeat split.
Qed.

(** A record that is refused may leave its object behind; loading again then fails differently. *)
Theorem C81_trace_refuted : exists w ad rows e, nth_error (w_ads w) 0 = Some ad /\ ad_store ad = SLocal [] /\ classes_sound (ad_classes ad) /\
  snd (load 0 rows w) = Err e /\ e <> ObjectAlreadyExists /\
  (exists x, rows = [x] /\ lookup (fst (load 0 rows w)) 0 (fst (row_key (ad_classes ad) x)) (snd (row_key (ad_classes ad) x)) <> None) /\
  snd (load 0 rows (fst (load 0 rows w))) = Err ObjectAlreadyExists.
Proof.
  exists w81, (mk_ad "a" (SLocal [])), [orphan81], ObjectNotFound. split; [reflexivity|]. split; [reflexivity|]. split; [apply soundb_ok; vm_compute; reflexivity|].
  split; [vm_compute; reflexivity|]. split; [discriminate|]. split; [exists orphan81; split; [reflexivity|vm_compute; discriminate]|vm_compute; reflexivity].
Qed.
Print Assumptions C81_trace_refuted.

(** A record that names itself as its parent is not acceptable, but it is loaded: the object is then
    its own child. *)
Definition c_group : cls := mkCls "group" ["name"] [] [] [("group", "groups")] [("name", None)] ["groups"] 0%N.
Theorem C81_self_refuted : exists w ad x, nth_error (w_ads w) 0 = Some ad /\ ad_store ad = SLocal [] /\ classes_sound (ad_classes ad) /\
  ~ loadable (ad_classes ad) [x] /\ snd (load 0 [x] w) = Ok tt /\
  exists r o, lookup (fst (load 0 [x] w)) 0 "group" "g" = Some r /\ nth_error (w_heap (fst (load 0 [x] w))) r = Some o /\ o_kids o = [("groups", ["g"])]%string.
Proof.
  set (ad := mkAdapter "a" "Sample" ["group"]%string [("group", c_group)]%string (SLocal [])).
  exists (mkWorld [] [ad] [] []), ad, (mkRow "group" [("name", VStr "g")] (Some ("group", "g")))%string. split; [reflexivity|]. split; [reflexivity|]. split; [apply soundb_ok; vm_compute; reflexivity|].
  split; [intros L; destruct (L [] _ [] eq_refl) as (_ & _ & P); destruct (P _ eq_refl) as (c & (y & [] & _) & _)|]. split; [vm_compute; reflexivity|].
  eexists. eexists. split; [vm_compute; reflexivity|]. split; vm_compute; reflexivity.
Qed.
Print Assumptions C81_self_refuted.
