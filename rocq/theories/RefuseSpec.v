(** * RefuseSpec: which records an adapter refuses to load.

    Vocabulary for C81. *)
From Verif Require Export RowSpec.

(** the classes of the adapter are as those of the models in the documentation *)
Definition classes_sound (cs : dict cls) : Prop := forall t c, dget cs t = Some c -> c_modelname c = t /\ creatable c.
Definition required_given (c : cls) (x : row) : Prop := forall f, In (f, None) (c_fields c) -> dget (r_kw x) f <> None.
(** [p] is the key of a record of [l], whose class is [c] *)
Definition parent_in (cs : dict cls) (l : list row) (p : string * string) (c : cls) : Prop :=
  exists y, In y l /\ row_key cs y = p /\ dget cs (r_type y) = Some c.

(** the record can be loaded after those of [l] *)
Definition acceptable (cs : dict cls) (l : list row) (x : row) : Prop :=
  (exists c, dget cs (r_type x) = Some c /\ required_given c x) /\ ~ In (row_key cs x) (map (row_key cs) l) /\
  forall p, r_parent x = Some p -> exists c, parent_in cs l p c /\ In (r_type x) (map fst (c_children c)).
Definition loadable (cs : dict cls) (rows : list row) : Prop := forall l x m, rows = l ++ x :: m -> acceptable cs l x.

(** the record is refused after those of [l], with this exception; the last argument: the records whose
    objects are there nevertheless *)
Inductive refused (cs : dict cls) (l : list row) (x : row) : exn -> list row -> Prop :=
| rf_class : dget cs (r_type x) = None -> refused cs l x ExnAttributeError l
| rf_required c f : dget cs (r_type x) = Some c -> In (f, None) (c_fields c) -> dget (r_kw x) f = None -> refused cs l x ExnValidationError l
| rf_twice c : dget cs (r_type x) = Some c -> required_given c x -> In (row_key cs x) (map (row_key cs) l) -> refused cs l x ObjectAlreadyExists l
| rf_orphan c p : dget cs (r_type x) = Some c -> required_given c x -> ~ In (row_key cs x) (map (row_key cs) l) ->
    r_parent x = Some p -> ~ In p (map (row_key cs) l) -> refused cs l x ObjectNotFound (l ++ [mkRow (r_type x) (r_kw x) None])
| rf_type c p c' : dget cs (r_type x) = Some c -> required_given c x -> ~ In (row_key cs x) (map (row_key cs) l) ->
    r_parent x = Some p -> parent_in cs l p c' -> ~ In (r_type x) (map fst (c_children c')) ->
    refused cs l x ObjectStoreWrongType (l ++ [mkRow (r_type x) (r_kw x) None]).
