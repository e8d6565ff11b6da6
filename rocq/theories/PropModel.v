(** * PropModel: properties of DiffSyncModel and of class declarations (C18-C20). *)
From Verif Require Import ModelFacts Samples.

(** C18.  Same unique id, same rendered identifiers, provided no rendered
    identifier contains the separator or ends with an underscore (a leading
    underscore is harmless) ... *)
Theorem C18_uid_injective : forall (o1 o2 : obj) (u : string),
  o_cls o1 = o_cls o2 ->
  get_unique_id o1 = Ok u -> get_unique_id o2 = Ok u ->
  (forall s, In (Some s) (rendered_ids o1) \/ In (Some s) (rendered_ids o2) ->
     ~ substring_of "__" s /\ ~ ends_with_underscore s) ->
  rendered_ids o1 = rendered_ids o2.
Proof. exact uid_injective. Qed.
Print Assumptions C18_uid_injective.

(** ... and always for classes with a single identifier. *)
Theorem C18_uid_single : forall (o1 o2 : obj) (u k : string),
  o_cls o1 = o_cls o2 -> c_identifiers (o_cls o1) = [k] ->
  get_unique_id o1 = Ok u -> get_unique_id o2 = Ok u -> rendered_ids o1 = rendered_ids o2.
Proof. exact uid_single. Qed.
Print Assumptions C18_uid_single.

(** In general it is false: the separator is not escaped. *)
Theorem C18_uid_injective_refuted :
  exists (o1 o2 : obj) (u : string),
    o_cls o1 = o_cls o2 /\ get_unique_id o1 = Ok u /\ get_unique_id o2 = Ok u /\
    rendered_ids o1 <> rendered_ids o2.
Proof.
  exists (mk_intf "r1" "a__b" 1500 0 0), (mk_intf "r1__a" "b" 1500 0 0), "r1__a__b".
  repeat split. vm_compute. discriminate.
Qed.
Print Assumptions C18_uid_injective_refuted.

(** The condition on the last character is needed too. *)
Theorem C18_trailing_underscore_refuted :
  exists (o1 o2 : obj) (u : string),
    o_cls o1 = o_cls o2 /\ get_unique_id o1 = Ok u /\ get_unique_id o2 = Ok u /\
    rendered_ids o1 = [Some "r_"; Some "a"] /\ rendered_ids o2 = [Some "r"; Some "_a"].
Proof. exists (mk_intf "r_" "a" 1500 0 0), (mk_intf "r" "_a" 1500 0 0), "r___a". repeat split. Qed.
Print Assumptions C18_trailing_underscore_refuted.

Example C18_example :
  get_unique_id (mk_intf "r_1" "_eth0" 9000 0 0) = Ok "r_1___eth0" /\
  rendered_ids (mk_intf "r_1" "_eth0" 9000 0 0) = [Some "r_1"; Some "_eth0"] /\
  (forall s, In (Some s) (rendered_ids (mk_intf "r1" "eth0" 9000 0 0)) ->
     ~ substring_of "__" s /\ ~ ends_with_underscore s).
Proof.
  split; [reflexivity|]. split; [reflexivity|].
  intros s [E|[E|[]]]; injection E as <-.
  all: apply clean_dec; split; reflexivity.
Qed.

(** C19.  A model class declaration is accepted exactly when all names exist
    and the three groups are disjoint; otherwise AttributeError. *)
Theorem C19_model_class : forall (c : cls) (extra : list string),
  let declared := map fst (c_fields c) ++ c_kid_fields c ++ ["model_flags"; "adapter"] in
  (check_model_class c extra = Ok tt <->
    (incl (c_identifiers c) (declared ++ extra) /\
     incl (c_shortname c) declared /\
     incl (c_attributes c) declared /\
     (forall t f, In (t, f) (c_children c) -> In f declared)) /\
    disjoint (c_identifiers c) (c_attributes c) /\
    disjoint (c_identifiers c) (map snd (c_children c)) /\
    disjoint (c_attributes c) (map snd (c_children c))) /\
  (check_model_class c extra = Ok tt \/ check_model_class c extra = Err ExnAttributeError).
Proof. exact (fun c extra => conj (check_model_ok c extra) (check_model_err c extra)). Qed.
Print Assumptions C19_model_class.

Theorem C19_adapter_class : forall (top : list string) (attrs : dict (option cls)),
  NoDup (map fst attrs) ->
  (check_adapter_class top attrs = Ok tt <->
    (forall n c, In (n, Some c) attrs -> c_modelname c = n) /\
    (forall n, In n top -> exists c, In (n, Some c) attrs)) /\
  (check_adapter_class top attrs = Ok tt \/ check_adapter_class top attrs = Err ExnAttributeError).
Proof. exact (fun top attrs ND => conj (check_adapter_ok top attrs ND) (check_adapter_err top attrs)). Qed.
Print Assumptions C19_adapter_class.

Example C19_example :
  check_model_class c_site [] = Ok tt /\ check_model_class c_intf [] = Ok tt /\
  check_model_class (mkCls "x" ["name"; "slug"] [] ["name"] [] [("name", None)] [] 0) ["slug"] = Err ExnAttributeError /\
  check_model_class (mkCls "x" ["name"; "slug"] [] [] [] [("name", None)] [] 0) ["slug"] = Ok tt /\
  check_adapter_class ["site"] [("site", Some c_site); ("device", Some c_device); ("x", None)] = Ok tt /\
  check_adapter_class ["site"; "x"] [("site", Some c_site); ("x", None)] = Err ExnAttributeError /\
  check_adapter_class [] [("sites", Some c_site)] = Err ExnAttributeError.
Proof. repeat split. Qed.

(** C20.  add_child ... *)
Theorem C20_add_child : forall (p c : obj),
  (* declared type, readable field, not yet listed: appended, nothing else changes *)
  (forall f l u, dget (c_children (o_cls p)) (get_type c) = Some f -> dget (o_kids p) f = Some l ->
     get_unique_id c = Ok u -> ~ In u l ->
     exists p', add_child p c = Ok p' /\ dget (o_kids p') f = Some (l ++ [u]) /\
       (forall g, g <> f -> dget (o_kids p') g = dget (o_kids p) g) /\ dkeys (o_kids p') = dkeys (o_kids p) /\
       o_cls p' = o_cls p /\ o_vals p' = o_vals p /\ o_flags p' = o_flags p /\
       o_adapter p' = o_adapter p /\ o_status p' = o_status p /\ o_msg p' = o_msg p) /\
  (* undeclared type *)
  (dget (c_children (o_cls p)) (get_type c) = None -> add_child p c = Err ObjectStoreWrongType) /\
  (* already listed *)
  (forall f l u, dget (c_children (o_cls p)) (get_type c) = Some f -> dget (o_kids p) f = Some l ->
     get_unique_id c = Ok u -> In u l -> add_child p c = Err ObjectAlreadyExists).
Proof. exact C20_add. Qed.
Print Assumptions C20_add_child.

(** ... remove_child ... *)
Theorem C20_remove_child : forall (p c : obj),
  (forall f l u, dget (c_children (o_cls p)) (get_type c) = Some f -> dget (o_kids p) f = Some l ->
     get_unique_id c = Ok u -> In u l ->
     exists p' a b, remove_child p c = Ok p' /\ l = a ++ u :: b /\ ~ In u a /\ dget (o_kids p') f = Some (a ++ b) /\
       (forall g, g <> f -> dget (o_kids p') g = dget (o_kids p) g) /\ dkeys (o_kids p') = dkeys (o_kids p) /\
       o_cls p' = o_cls p /\ o_vals p' = o_vals p /\ o_flags p' = o_flags p /\
       o_adapter p' = o_adapter p /\ o_status p' = o_status p /\ o_msg p' = o_msg p) /\
  (dget (c_children (o_cls p)) (get_type c) = None -> remove_child p c = Err ObjectStoreWrongType) /\
  (forall f l u, dget (c_children (o_cls p)) (get_type c) = Some f -> dget (o_kids p) f = Some l ->
     get_unique_id c = Ok u -> ~ In u l -> remove_child p c = Err ObjectNotFound) /\
  (forall p', add_child p c = Ok p' -> remove_child p' c = Ok p).
Proof. exact C20_remove. Qed.
Print Assumptions C20_remove_child.

(** ... and every sequence of calls keeps all child lists free of duplicates. *)
Theorem C20_no_duplicates : forall (cs : list child_call) (p : obj),
  (forall f l, dget (o_kids p) f = Some l -> NoDup l) ->
  forall f l, dget (o_kids (child_run p cs)) f = Some l -> NoDup l.
Proof. exact child_run_nodup. Qed.
Print Assumptions C20_no_duplicates.

Example C20_example :
  o_kids (child_run (mk_site "nyc" "east" ["r9"] 0 0)
    [CallAdd (mk_device "r1" "x" [] 0 0); CallAdd (mk_device "r1" "y" [] 0 0); CallAdd (mk_intf "a" "b" 1 0 0);
     CallAdd (mk_device "r2" "x" [] 0 0); CallRemove (mk_device "r9" "" [] 0 1); CallRemove (mk_device "r7" "" [] 0 1)])
  = [("devices", ["r1"; "r2"])].
Proof. reflexivity. Qed.
