(** * LoadSpec: the vocabulary of the dict / load_from_dict property. *)
From Verif Require Export StoreSpec AdapterDefs.

(** an instance of its class as pydantic builds it: the declared fields, each once *)
Definition well_shaped (o : obj) : Prop :=
  dkeys (o_vals o) = map fst (c_fields (o_cls o)) /\ NoDup (map fst (c_fields (o_cls o))) /\
  dkeys (o_kids o) = c_kid_fields (o_cls o) /\ NoDup (c_kid_fields (o_cls o)).
(** an identifier that equals its default is rendered as the default is *)
Definition ids_as_default (o : obj) : Prop :=
  forall k v d, In k (c_identifiers (o_cls o)) -> dget (o_vals o) k = Some v -> In (k, Some d) (c_fields (o_cls o)) ->
    py_eq v d = true -> py_str v = py_str d.

(** what Adapter.__init_subclass__ checks (__init__.py:459-477), and top_level without repeats *)
Definition adapter_ok (ad : adapter) : Prop :=
  NoDup (ad_top ad) /\ incl (ad_top ad) (dkeys (ad_classes ad)) /\
  forall n c, dget (ad_classes ad) n = Some c -> c_modelname c = n.

(** the copy [o'] of [o]: same class, children and flags, field values that compare equal *)
Definition reloaded (o o' : obj) : Prop :=
  o_cls o' = o_cls o /\ o_kids o' = o_kids o /\ o_flags o' = o_flags o /\
  Forall2 (fun kv kv' => fst kv' = fst kv /\ (snd kv' = snd kv \/ py_eq (snd kv) (snd kv') = true)) (o_vals o) (o_vals o').

(** [du] is what dict() should give for [o]: everything, or with exclude_defaults what is not the default *)
Definition dumps (excl : bool) (o : obj) (du : dump) : Prop :=
  (forall k v, dget (du_vals du) k = Some v <->
     dget (o_vals o) k = Some v /\ (excl = true -> forall d, In (k, Some d) (c_fields (o_cls o)) -> py_eq v d = false)) /\
  (forall f ks, dget (du_kids du) f = Some ks <-> dget (o_kids o) f = Some ks /\ (excl = true -> ks <> [])) /\
  (forall n, du_flags du = Some n <-> n = o_flags o /\ (excl = true -> n <> c_flags (o_cls o))).
