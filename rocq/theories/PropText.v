(** * PropText: str() of models and adapters (C65), accessors (C66), names of adapters (C67).

    [portrait], [gallery] and [descends] are defined in TextSpec.v. *)
From Verif Require Import TextFacts AccessFacts ConvSample.

(** C65.  DiffSyncModel.str() is the portrait of the object: given enough stack it returns the text, and
    what it returns is that text. *)
Theorem C65_model : forall w r o deep indent, w_ok w -> nth_error (w_heap w) r = Some o ->
  (forall ls, portrait w deep 0 o ls -> exists k, forall fuel, k <= fuel ->
     snd (model_str fuel r deep indent w) = Ok (join newline (map (written indent) ls))) /\
  (forall fuel s, snd (model_str fuel r deep indent w) = Ok s ->
     exists ls, portrait w deep 0 o ls /\ s = join newline (map (written indent) ls)).
Proof. exact model_text. Qed.
Print Assumptions C65_model.
(** Adapter.str() likewise. *)
Theorem C65_adapter : forall w a ad indent, w_ok w -> nth_error (w_ads w) a = Some ad ->
  (forall ls, gallery w a (ad_top ad) ls -> exists k, forall fuel, k <= fuel ->
     snd (adapter_str fuel a indent w) = Ok (join newline (map (written indent) ls))) /\
  (forall fuel s, snd (adapter_str fuel a indent w) = Ok s ->
     exists ls, gallery w a (ad_top ad) ls /\ s = join newline (map (written indent) ls)).
Proof. exact adapter_text. Qed.
Print Assumptions C65_adapter.
(** Every object that can be reached through the child lists is shown, two levels below its parent. *)
Theorem C65_complete : forall w n o ls k o', portrait w true n o ls -> descends w k o o' ->
  exists u, get_unique_id o' = Ok u /\ In (n + 2 * k, summary_of o' u) ls.
Proof. exact (fun w n o ls k o' P D => portrait_shows w n o ls P k o' D). Qed.
Print Assumptions C65_complete.
(** Nothing else is shown: every line is about such an object, one of its child fields, or a child that is
    listed and missing. *)
Theorem C65_sound : forall w deep n o ls l, portrait w deep n o ls -> In l ls -> line_about w deep n o l.
Proof. exact (fun w deep n o ls l P I => portrait_lines w deep n o ls P l I). Qed.
Print Assumptions C65_sound.
(** Neither changes anything but for buckets without entries, and new snapshots in the case of a RedisStore. *)
Theorem C65_reads : forall w fuel, w_ok w ->
  (forall r deep indent, let w' := fst (model_str fuel r deep indent w) in read_only w w' /\ w_trace w' = w_trace w) /\
  (forall a indent, let w' := fst (adapter_str fuel a indent w) in read_only w w' /\ w_trace w' = w_trace w).
Proof. exact text_reads. Qed.
Print Assumptions C65_reads.

Example C65_example :
  w_ok w0 /\ (exists ad, nth_error (w_ads w0) 1 = Some ad /\ ad_top ad = ["site"]) /\
  snd (adapter_str 20 1 0 w0) = Ok (join newline
    ["site"; "  site: nyc: {'region': 'east'}"; "    devices"; "      device: r1: {'role': 'leaf', 'serial': None}"; "        interfaces";
     "          interface: r1__eth0: {'mtu': 1500}"; "          interface: r1__lo: {'mtu': 1500}"; "      device: r3: {'role': 'core', 'serial': None}";
     "        interfaces"; "          interface: r3__eth9: {'mtu': 1500}"; "  site: lon: {'region': 'uk'}"; "    devices: []"]) /\
  snd (model_str 20 6 false 3 w0) = Ok (join newline ["   site: nyc: {'region': 'east'}"; "     devices: ['r1', 'r3']"]).
Proof.
  split; [exact w0_ok|]. split; [eexists; split; reflexivity|]. split; vm_compute; reflexivity.
Qed.

(** An adapter that has all its children can show an error in their place: the site was added to another
    adapter first, and its children are looked up there. *)
Definition w_two : world :=
  mkWorld [mkObj c_site [("name", VStr "nyc"); ("region", VStr "east"); ("note", VNone)] [("devices", ["r1"])] 0 None StSuccess "";
           mkObj c_device [("name", VStr "r1"); ("role", VStr "leaf"); ("serial", VNone)] [("interfaces", [])] 0 None StSuccess ""]
          [mk_ad "one" (SLocal []); mk_ad "two" (SLocal [])] [] [].
Definition added_twice : M world unit := st_add 0 0 ;;; st_add 1 0 ;;; st_add 1 1.
Theorem C65_other_refuted : exists w, w_ok w /\ fst (added_twice w_two) = w /\ snd (added_twice w_two) = Ok tt /\
  keyed w 1 /\ lookup w 1 "site" "nyc" = Some 0 /\ lookup w 1 "device" "r1" = Some 1 /\
  snd (adapter_str 20 1 0 w) = Ok (join newline ["site"; "  site: nyc: {'region': 'east'}"; "    devices"; "      r1 (ERROR: details unavailable)"]).
Proof.
  eexists. split; [|split; [reflexivity|]]; [apply w_okb_ok; reflexivity|]. split; [reflexivity|]. split; [apply keyedb_ok; vm_compute; reflexivity|].
  split; [reflexivity|]. split; vm_compute; reflexivity.
Qed.
Print Assumptions C65_other_refuted.
(** An object that is below itself cannot be shown, however large the stack. *)
Definition c_node : cls := mkCls "node" ["name"] [] [] [("node", "kids")] [("name", None)] ["kids"] 0.
Definition w_cycle : world :=
  mkWorld [mkObj c_node [("name", VStr "n")] [("kids", ["n"])] 0 (Some 0) StSuccess ""]
          [mkAdapter "a" "A" ["node"] [("node", c_node)] (SLocal [("node", [("n", 0)])])] [] [].
Theorem C65_cycle_refuted : exists w, w_ok w /\ keyed w 0 /\ lookup w 0 "node" "n" = Some 0 /\
  forall fuel indent, snd (model_str fuel 0 true indent w) = Err ExnRecursionError.
Proof.
  exists w_cycle. split; [apply w_okb_ok; reflexivity|]. split; [apply keyedb_ok; vm_compute; reflexivity|]. split; [reflexivity|].
  set (o := mkObj c_node [("name", VStr "n")] [("kids", ["n"])] 0 (Some 0) StSuccess "").
  assert (X : forall fuel n, plines fuel w_cycle true o n = Err ExnRecursionError).
  { induction fuel as [|fuel IH]; intros n; [reflexivity|]. rewrite plines_eq. unfold o at 1 3. cbn -[plines o]. unfold pfield. cbn -[plines o].
    unfold pkid. cbn -[plines]. fold o. now rewrite IH. }
  intros fuel indent. assert (OK : w_ok w_cycle) by (apply w_okb_ok; reflexivity).
  pose proof (reads_model w_cycle OK fuel true indent 0 w_cycle 0 o eq_refl (read_only_refl _)) as (_ & _ & E). rewrite Nat.mul_0_r, Nat.add_0_r in E. now rewrite E, X.
Qed.
Print Assumptions C65_cycle_refuted.

(** C66.  get_identifiers() and get_attrs() hold exactly the fields named in [_identifiers] and
    [_attributes], with the values of the object. *)
Theorem C66_parts : forall o k v,
  (dget (get_identifiers o) k = Some v <-> In k (c_identifiers (o_cls o)) /\ dget (o_vals o) k = Some v) /\
  (dget (get_attrs o) k = Some v <-> In k (c_attributes (o_cls o)) /\ dget (o_vals o) k = Some v).
Proof. exact (fun o k v => conj (include_iff o _ k v) (include_iff o _ k v)). Qed.
Print Assumptions C66_parts.
(** No field is in both. *)
Theorem C66_disjoint : forall o extra k, check_model_class (o_cls o) extra = Ok tt ->
  dget (get_identifiers o) k = None \/ dget (get_attrs o) k = None.
Proof.
  intros o extra k C. destruct (dget (get_identifiers o) k) as [x|] eqn:G; [|now left]. destruct (dget (get_attrs o) k) as [y|] eqn:G'; [|now right].
  apply include_iff in G as (I & _). apply include_iff in G' as (J & _). elim (accepted_apart _ _ C k I J).
Qed.
Print Assumptions C66_disjoint.
(** Unique id and short name are made of the values of the declared fields, in the order of declaration; the
    unique id is also the short name if none is declared. *)
Theorem C66_names : forall o,
  (forall vs, Forall2 (fun k v => dget (o_vals o) k = Some v) (c_identifiers (o_cls o)) vs -> get_unique_id o = Ok (join "__" (map py_str vs))) /\
  (forall vs, c_shortname (o_cls o) <> [] -> Forall2 (fun k v => dget (o_vals o) k = Some v) (c_shortname (o_cls o)) vs ->
     get_shortname o = Ok (join "__" (map py_str vs))) /\
  (c_shortname (o_cls o) = [] -> get_shortname o = get_unique_id o).
Proof.
  intros o. split; [exact (uid_joined o)|]. split; [exact (short_joined o)|]. unfold get_shortname. now intros ->.
Qed.
Print Assumptions C66_names.
(** Creating an object from the identifiers and attributes of another gives one with the same identifiers,
    attributes and unique id, provided those are all that is required. *)
Theorem C66_recreate : forall c extra a o, check_model_class c extra = Ok tt -> o_cls o = c ->
  NoDup (map fst (c_fields c)) -> map fst (o_vals o) = map fst (c_fields c) ->
  (forall k, In (k, None) (c_fields c) -> In k (c_identifiers c) \/ In k (c_attributes c)) ->
  exists o', create_base c a (get_identifiers o) (get_attrs o) = Ok o' /\
    get_identifiers o' = get_identifiers o /\ get_attrs o' = get_attrs o /\ get_unique_id o' = get_unique_id o.
Proof. exact recreated. Qed.
Print Assumptions C66_recreate.

Definition c_port : cls :=
  mkCls "port" ["device"; "name"] ["name"] ["speed"; "mode"] []
        [("mode", Some (VStr "access")); ("name", None); ("speed", Some (VInt 10)); ("device", None); ("note", Some VNone)] [] 0.
Definition o_port : obj :=
  mkObj c_port [("mode", VStr "trunk"); ("name", VStr "eth0"); ("speed", VInt 40); ("device", VStr "r1"); ("note", VStr "x")] [] 5 None StSuccess "".
Example C66_example :
  get_identifiers o_port = [("name", VStr "eth0"); ("device", VStr "r1")] /\
  get_attrs o_port = [("mode", VStr "trunk"); ("speed", VInt 40)] /\
  get_unique_id o_port = Ok "r1__eth0"%string /\ get_shortname o_port = Ok "eth0"%string /\
  check_model_class c_port [] = Ok tt /\ NoDup (map fst (c_fields c_port)) /\ map fst (o_vals o_port) = map fst (c_fields c_port) /\
  (forall k, In (k, None) (c_fields c_port) -> In k (c_identifiers c_port) \/ In k (c_attributes c_port)) /\
  Forall2 (fun k v => dget (o_vals o_port) k = Some v) (c_identifiers c_port) [VStr "r1"; VStr "eth0"] /\
  Forall2 (fun k v => dget (o_vals o_port) k = Some v) (c_shortname c_port) [VStr "eth0"] /\
  create_base c_port 0 (get_identifiers o_port) (get_attrs o_port) =
    Ok (mkObj c_port [("mode", VStr "trunk"); ("name", VStr "eth0"); ("speed", VInt 40); ("device", VStr "r1"); ("note", VNone)] [] 0 (Some 0)
              StSuccess "Created successfully").
Proof.
  repeat split; try reflexivity.
  - apply nodupb_ok. reflexivity.
  - intros k I. cbn in I. intuition (try discriminate); match goal with H : (_, _) = _ |- _ => injection H as <- end; cbn; auto.
  - repeat constructor.
  - repeat constructor.
Qed.
(** When some other field is required, an object cannot be made again from its identifiers and attributes. *)
Definition c_strict : cls := mkCls "strict" ["name"] [] ["size"] [] [("name", None); ("size", Some VNone); ("owner", None)] [] 0.
Theorem C66_required_refuted : exists c o, check_model_class c [] = Ok tt /\ o_cls o = c /\ NoDup (map fst (c_fields c)) /\
  map fst (o_vals o) = map fst (c_fields c) /\ create_base c 0 (get_identifiers o) (get_attrs o) = Err ExnValidationError.
Proof.
  exists c_strict, (mkObj c_strict [("name", VStr "a"); ("size", VInt 1); ("owner", VStr "me")] [] 0 None StSuccess "").
  split; [reflexivity|]. split; [reflexivity|]. split; [apply nodupb_ok; reflexivity|]. split; vm_compute; reflexivity.
Qed.
Print Assumptions C66_required_refuted.

(** C67.  The type of an adapter is the declared one or the name of its class, its name the given one or its type. *)
Theorem C67_names : forall cn ct top classes nm st, let ad := adapter_init cn ct top classes nm st in
  (forall t, ct = Some t -> ad_type ad = t) /\ (ct = None -> ad_type ad = cn) /\
  (forall n, nm = Some n -> n <> ""%string -> ad_name ad = n) /\ (nm = None \/ nm = Some ""%string -> ad_name ad = ad_type ad) /\
  ad_top ad = top /\ ad_classes ad = classes /\ ad_store ad = st.
Proof. exact init_names. Qed.
Print Assumptions C67_names.
(** str() is the type, followed by the name in quotes if that is another. *)
Theorem C67_str : forall ad, (ad_name ad = ad_type ad -> ad_str ad = ad_type ad) /\
  (ad_name ad <> ad_type ad -> ad_str ad = (ad_type ad ++ " """ ++ ad_name ad ++ """")%string) /\ ad_repr ad = ("<" ++ ad_str ad ++ ">")%string.
Proof. exact str_names. Qed.
Print Assumptions C67_str.
(** repr() of an object is its type and its unique id in quotes, str() its unique id; ... *)
Theorem C67_objects : forall o, (forall u, get_unique_id o = Ok u -> model_repr o = Ok (get_type o ++ " """ ++ u ++ """")%string /\ model_dunder_str o = Ok u) /\
  (forall e, get_unique_id o = Err e -> model_repr o = Err e /\ model_dunder_str o = Err e).
Proof. exact str_objects. Qed.
Print Assumptions C67_objects.
(** ... repr() tells objects apart by type and unique id if the names of types have no quotes. *)
Theorem C67_tells : forall o o' s, unquoted (get_type o) -> unquoted (get_type o') -> model_repr o = Ok s -> model_repr o' = Ok s ->
  get_type o = get_type o' /\ get_unique_id o = get_unique_id o'.
Proof. exact repr_tells. Qed.
Print Assumptions C67_tells.
(** It does not tell all adapters apart. *)
Theorem C67_same_refuted : exists ad ad', ad_type ad <> ad_type ad' /\ ad_name ad <> ad_name ad' /\ ad_str ad = ad_str ad'.
Proof.
  exists (adapter_init "Net" None [] [] (Some "lab"%string) (SLocal [])), (adapter_init "Net" (Some "Net ""lab"""%string) [] [] None (SLocal [])).
  split; [discriminate|]. split; [discriminate|reflexivity].
Qed.
Print Assumptions C67_same_refuted.
Example C67_example :
  map ad_str [adapter_init "NetBox" None [] [] None (SLocal []); adapter_init "NetBox" None [] [] (Some ""%string) (SLocal []);
              adapter_init "NetBox" (Some "nb"%string) [] [] (Some "lab"%string) (SLocal [])] = ["NetBox"; "NetBox"; "nb ""lab"""]%string /\
  model_repr (mk_device "r1" "edge" [] 0 0) = Ok "device ""r1"""%string /\ unquoted "device" /\
  (exists o, model_repr o = Err ExnKeyError).
Proof.
  split; [reflexivity|]. split; [reflexivity|]. split; [vm_compute; intuition discriminate|].
  exists (mkObj c_intf [("device_name", VStr "r1")] [] 0 None StUnknown ""). reflexivity.
Qed.
