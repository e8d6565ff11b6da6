(** * PropCopy: base methods (C57) and the destination as a copy of the source (C58).

    [alike] and [comparable] are defined in ConvergeSpec.v, [entire] and [holds_copy] in CopySpec.v. *)
From Verif Require Import CopyTop BaseMeth.

(** C57.  create_base: the same name among identifiers and attributes is a TypeError; a required
    field without value is a ValidationError; otherwise there is a new object of the class, which
    belongs to the adapter, has the given values or else the defaults, and no children. *)
Theorem C57_create : forall (c : cls) (a : aid) (ids attrs : dict val), NoDup (map fst (c_fields c)) ->
  ((exists k, In k (map fst ids) /\ In k (map fst attrs)) -> create_base c a ids attrs = Err ExnTypeError) /\
  ((forall k, In k (map fst ids) -> ~ In k (map fst attrs)) ->
     ((exists k, In (k, None) (c_fields c) /\ dget ids k = None /\ dget attrs k = None) -> create_base c a ids attrs = Err ExnValidationError) /\
     ((forall k, In (k, None) (c_fields c) -> dget ids k <> None \/ dget attrs k <> None) ->
        exists o, create_base c a ids attrs = Ok o /\ o_cls o = c /\ o_adapter o = Some a /\ o_flags o = c_flags c /\
          get_status o = (StSuccess, "Created successfully"%string) /\
          map fst (o_vals o) = map fst (c_fields c) /\
          (forall k dv, In (k, dv) (c_fields c) -> dget (o_vals o) k =
             match dget ids k with Some v => Some v | None => match dget attrs k with Some v => Some v | None => dv end end) /\
          map fst (o_kids o) = c_kid_fields c /\ forall f l, In (f, l) (o_kids o) -> l = [])).
Proof. exact create_cases. Qed.
Print Assumptions C57_create.
(** set_status and get_status *)
Theorem C57_status : forall (o : obj) (st : status) (msg : string),
  let o' := set_status o st msg in
  get_status o' = (st, msg) /\ o_cls o' = o_cls o /\ o_vals o' = o_vals o /\ o_kids o' = o_kids o /\ o_flags o' = o_flags o /\ o_adapter o' = o_adapter o.
Proof. intros o st msg. repeat split. Qed.
Print Assumptions C57_status.
(** update_base: sets the given fields and nothing else; at a name that is no field it stops with a
    ValueError, the fields before it being set and the status being the old one. *)
Theorem C57_update : forall (o : obj) (attrs : dict val), NoDup (map fst attrs) ->
  ((forall k, In k (map fst attrs) -> In k (map fst (o_vals o))) ->
     exists o', update_base o attrs = (o', Ok tt) /\
       (o_cls o' = o_cls o /\ o_kids o' = o_kids o /\ o_flags o' = o_flags o /\ o_adapter o' = o_adapter o) /\
       get_status o' = (StSuccess, "Updated successfully"%string) /\
       map fst (o_vals o') = map fst (o_vals o) /\
       forall k, dget (o_vals o') k = match dget attrs k with Some v => Some v | None => dget (o_vals o) k end) /\
  (forall a k v b, attrs = a ++ (k, v) :: b -> (forall k', In k' (map fst a) -> In k' (map fst (o_vals o))) -> ~ In k (map fst (o_vals o)) ->
     exists o', update_base o attrs = (o', Err ExnValueError) /\
       (o_cls o' = o_cls o /\ o_kids o' = o_kids o /\ o_flags o' = o_flags o /\ o_adapter o' = o_adapter o) /\
       get_status o' = get_status o /\
       map fst (o_vals o') = map fst (o_vals o) /\
       forall k', dget (o_vals o') k' = match dget a k' with Some v' => Some v' | None => dget (o_vals o) k' end).
Proof. exact update_cases. Qed.
Print Assumptions C57_update.
(** delete_base: only the status. *)
Theorem C57_delete : forall o : obj,
  get_status (delete_base o) = (StSuccess, "Deleted successfully"%string) /\
  o_cls (delete_base o) = o_cls o /\ o_vals (delete_base o) = o_vals o /\ o_kids (delete_base o) = o_kids o /\
  o_flags (delete_base o) = o_flags o /\ o_adapter (delete_base o) = o_adapter o.
Proof. intros o. repeat split. Qed.
Print Assumptions C57_delete.
Example C57_example :
  let ids := [("device_name", VStr "r1"); ("name", VStr "eth0")] in
  (exists o, create_base c_intf 3 ids [] = Ok o /\ dget (o_vals o) "mtu" = Some (VInt 1500) /\ o_adapter o = Some 3) /\
  create_base c_intf 3 ids [("name", VStr "x")] = Err ExnTypeError /\
  create_base c_intf 3 [("name", VStr "eth0")] [("mtu", VInt 9000)] = Err ExnValidationError /\
  (exists o, update_base (mk_device "r1" "leaf" [] 0 0) [("role", VStr "spine"); ("colour", VNone); ("serial", VStr "x")] = (o, Err ExnValueError) /\
     dget (o_vals o) "role" = Some (VStr "spine") /\ dget (o_vals o) "serial" = Some VNone).
Proof. repeat split; try (eexists; split; [reflexivity|]); try split; reflexivity. Qed.

(** C58.  After a synchronisation in which nothing is left out, the destination holds exactly the
    objects of the source, with the same identifiers, attributes and children, and the source holds
    what it held. *)
Theorem C58_copy : forall fuel h dst src dc flags cb w sa da,
  alike w fuel src dst sa da -> comparable w fuel src dst sa da -> hooks_succeed h -> spares_attributes da h -> yields_once (dc_order dc) ->
  entire w flags src dst sa da ->
  exists w' d, sync_from fuel h dst src dc flags cb None w = (w', Ok d) /\ holds_copy w src w' dst /\ forall o, read w' src o <-> read w src o.
Proof.
  intros fuel h dst src dc flags cb w sa da AL CM HK SP YO EN. destruct (sync_copies_all fuel h dst src dc flags cb w sa da AL CM HK SP YO EN) as (w' & d & E & H & _ & _ & R).
  exists w', d. auto.
Qed.
Print Assumptions C58_copy.
(** The same for a diff computed before. *)
Theorem C58_given : forall fuel h dst src dcd dc flags fl cbd cb given w d sa da,
  alike w fuel src dst sa da -> hooks_succeed h -> spares_attributes da h -> snd (diff_from fuel dst src dcd flags cbd w) = Ok d -> yields_once (dc_order (d_class d)) ->
  uses fuel dst src dc fl cb given w d -> entire w flags src dst sa da ->
  exists w', sync_from fuel h dst src dc fl cb given w = (w', Ok d) /\ holds_copy w src w' dst /\ forall o, read w' src o <-> read w src o.
Proof.
  intros fuel h dst src dcd dc flags fl cbd cb given w d sa da AL HK SP DF YO US EN.
  destruct (sync_copies fuel h dst src dcd dc flags fl cbd cb given w d sa da AL HK SP DF YO US EN) as (w' & E & H & _ & _ & R). exists w'. auto.
Qed.
Print Assumptions C58_given.
(** Both then have the same number of objects. *)
Theorem C58_count : forall fuel h dst src dc flags cb w sa da,
  alike w fuel src dst sa da -> comparable w fuel src dst sa da -> hooks_succeed h -> spares_attributes da h -> yields_once (dc_order dc) ->
  entire w flags src dst sa da -> local_ok w src -> keyed w src ->
  count_all (fst (sync_from fuel h dst src dc flags cb None w)) dst = count_all w src.
Proof.
  intros fuel h dst src dc flags cb w sa da AL CM HK SP YO EN LS KS. destruct (sync_copies_all fuel h dst src dc flags cb w sa da AL CM HK SP YO EN) as (w' & d & E & H & L & K & _).
  rewrite E. cbn [fst]. now apply copy_count.
Qed.
Print Assumptions C58_count.

Lemma w0_entire : entire w0 0 0 1 sa0 da0.
Proof.
  apply (entireb_ok 5); [exact (al_refs _ _ _ _ _ _ w0_alike)|apply localb_ok; vm_compute; reflexivity|apply keyedb_ok; vm_compute; reflexivity|exact (al_local _ _ _ _ _ _ w0_alike)|vm_compute; reflexivity].
Qed.
Definition w0_end : world := fst (sync_from 20 note_hooks 1 0 base_class 0 false None w0).
Example C58_example : alike w0 20 0 1 sa0 da0 /\ comparable w0 20 0 1 sa0 da0 /\ entire w0 0 0 1 sa0 da0 /\ hooks_succeed note_hooks /\ spares_attributes da0 note_hooks /\ yields_once (dc_order base_class) /\
  count_all w0 1 = 7 /\ count_all w0_end 1 = 6 /\
  (exists r o, lookup w0_end 1 "device" "r1" = Some r /\ nth_error (w_heap w0_end) r = Some o /\ dget (o_vals o) "role" = Some (VStr "edge") /\
     dget (o_kids o) "interfaces" = Some ["r1__eth0"; "r1__eth1"]).
Proof.
  split; [exact w0_alike|]. split; [exact w0_comparable|]. split; [exact w0_entire|]. split; [exact note_succeed|]. split; [exact note_spares|]. split; [exact order_default_once|].
  split; [vm_compute; reflexivity|]. split; [vm_compute; reflexivity|]. eexists. eexists. split; [vm_compute; reflexivity|]. split; [vm_compute; reflexivity|]. split; vm_compute; reflexivity.
Qed.

(** Objects of the source that no top-level object leads to are not copied. *)
Definition w_orphan : world :=
  mkWorld (heap0 ++ [mk_device "r9" "edge" [] 0 0])
    [mk_ad "src" (SLocal [("site", [("nyc", 0); ("sfo", 5)]); ("device", [("r1", 1); ("r2", 2); ("r9", 13)]); ("interface", [("r1__eth0", 3); ("r1__eth1", 4)])]);
     mk_ad "dst" (SLocal dst_data)] [] [].
Definition sa_orphan : adapter := match nth_error (w_ads w_orphan) 0 with Some a => a | None => sa0 end.
Theorem C58_orphan_refuted : exists w w' d sa da,
  alike w 20 0 1 sa da /\ comparable w 20 0 1 sa da /\ unflagged w 0 /\ unflagged w 1 /\ ad_top sa = ad_top da /\ attributes_set w 1 /\
  sync_from 20 default_hooks 1 0 base_class 0 false None w = (w', Ok d) /\ ~ holds_copy w 0 w' 1.
Proof.
  exists w_orphan. do 2 eexists. exists sa_orphan, da0.
  split; [apply (alikeb_ok _ _ _ _ _ _ rank); vm_compute; reflexivity|]. split; [apply (comparableb_ok _ _ _ _ _ _ rank); vm_compute; reflexivity|].
  assert (L0 : local_ok w_orphan 0) by (apply localb_ok; vm_compute; reflexivity). assert (L1 : local_ok w_orphan 1) by (apply localb_ok; vm_compute; reflexivity).
  split; [apply unflaggedb_ok; [exact L0|vm_compute; reflexivity]|]. split; [apply unflaggedb_ok; [exact L1|vm_compute; reflexivity]|].
  split; [reflexivity|]. split; [apply attrsb_ok; [exact L1|vm_compute; reflexivity]|]. split; [vm_compute; reflexivity|].
  match goal with |- ~ holds_copy _ _ ?w' _ => set (we := w'); assert (K0 : keyed w_orphan 0) by (apply keyedb_ok; vm_compute; reflexivity);
    assert (L2 : local_ok we 1) by (apply localb_ok; vm_compute; reflexivity); assert (K2 : keyed we 1) by (apply keyedb_ok; vm_compute; reflexivity) end.
  intros H. pose proof (copy_count w_orphan 0 we 1 L0 K0 L2 K2 H) as C. vm_compute in C. discriminate.
Qed.
Print Assumptions C58_orphan_refuted.
(** Nor does the destination lose what it holds of a top-level type of its own. *)
Definition w_more : world :=
  mkWorld (heap0 ++ [mkObj (mkCls "rack" ["name"] [] [] [] [("name", None)] [] 0) [("name", VStr "k1")] [] 0 (Some 1) StSuccess ""])
    [mk_ad "src" (SLocal src_data);
     mkAdapter "dst" "Sample" ["site"; "rack"] (s_classes ++ [("rack", mkCls "rack" ["name"] [] [] [] [("name", None)] [] 0)]) (SLocal (dst_data ++ [("rack", [("k1", 13)])]))] [] [].
Definition da_more : adapter := match nth_error (w_ads w_more) 1 with Some a => a | None => sa0 end.
Theorem C58_types_refuted : exists w w' d sa da,
  alike w 20 0 1 sa da /\ comparable w 20 0 1 sa da /\ unflagged w 0 /\ unflagged w 1 /\ attributes_set w 1 /\
  (forall o k, read w 0 o -> is_key o k -> rooted w 0 (ad_top sa) k) /\
  sync_from 20 default_hooks 1 0 base_class 0 false None w = (w', Ok d) /\ ~ holds_copy w 0 w' 1.
Proof.
  exists w_more. do 2 eexists. exists sa0, da_more.
  split; [apply (alikeb_ok _ _ _ _ _ _ rank); vm_compute; reflexivity|]. split; [apply (comparableb_ok _ _ _ _ _ _ rank); vm_compute; reflexivity|].
  assert (L0 : local_ok w_more 0) by (apply localb_ok; vm_compute; reflexivity). assert (L1 : local_ok w_more 1) by (apply localb_ok; vm_compute; reflexivity).
  assert (K0 : keyed w_more 0) by (apply keyedb_ok; vm_compute; reflexivity).
  split; [apply unflaggedb_ok; [exact L0|vm_compute; reflexivity]|]. split; [apply unflaggedb_ok; [exact L1|vm_compute; reflexivity]|].
  split; [apply attrsb_ok; [exact L1|vm_compute; reflexivity]|]. split.
  { assert (B : forallb (fun ko => rootedb 5 w_more 0 (ad_top sa0) (fst ko)) (stored_objs w_more 0) = true) by (vm_compute; reflexivity).
    rewrite forallb_forall in B. intros o k R K. apply (rootedb_ok 5 w_more 0 (ad_top sa0) L0 K0) with (o := o); auto.
    - apply w_okb_ok. vm_compute. reflexivity.
    - apply (B (k, o)). apply (read_iff w_more 0 L0 K0). auto. }
  split; [vm_compute; reflexivity|].
  match goal with |- ~ holds_copy _ _ ?w' _ => set (we := w');
    assert (L2 : local_ok we 1) by (apply localb_ok; vm_compute; reflexivity); assert (K2 : keyed we 1) by (apply keyedb_ok; vm_compute; reflexivity) end.
  intros H. pose proof (copy_count w_more 0 we 1 L0 K0 L2 K2 H) as C. vm_compute in C. discriminate.
Qed.
Print Assumptions C58_types_refuted.
