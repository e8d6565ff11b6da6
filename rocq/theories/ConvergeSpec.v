(** * ConvergeSpec: when a synchronisation converges.

    Vocabulary for C32 and C33: the conditions on the two adapters. *)
From Verif Require Export SyncSpec.

(** its type and unique id *)
Definition is_key (o : obj) (k : string * string) : Prop := get_type o = fst k /\ get_unique_id o = Ok (snd k).
(** an object [p] of the adapter lists [k] as a child *)
Definition listed (w : world) (a : aid) (p k : string * string) : Prop :=
  exists o, read w a o /\ is_key o p /\ lists o (fst k) (snd k).

(** The objects of the adapter form a forest: what is looked up under a type and unique id
    has them, there is one object per type and unique id, nobody has two parents, and
    objects of a top-level type have none. *)
Record forest (w : world) (a : aid) (tops : list string) : Prop := mkForest {
  fo_filed : filed w a tops;
  fo_ids : forall us t l, asked w a tops t -> objs_by w a us t = Ok l -> map get_unique_id l = map Ok us;
  fo_single : forall o o' k, read w a o -> read w a o' -> is_key o k -> is_key o' k -> o = o';
  fo_parent : forall p p' k, listed w a p k -> listed w a p' k -> p = p';
  fo_top : forall p k, listed w a p k -> ~ In (fst k) tops
}.
(** The forest is complete: children are stored, everything stored is reached from the
    top-level types, and no child list repeats itself. *)
Record complete (w : world) (a : aid) (tops : list string) : Prop := mkComplete {
  cp_closed : forall p k, listed w a p k -> lookup w a (fst k) (snd k) <> None;
  cp_rooted : forall k, lookup w a (fst k) (snd k) <> None -> In (fst k) tops \/ exists p, listed w a p k;
  cp_once : forall o t f l, read w a o -> In (t, f) (c_children (o_cls o)) -> dget (o_kids o) f = Some l -> NoDup l
}.
(** Objects of both adapters have the same parent in both *)
Definition same_places (w : world) (src dst : aid) (dtops : list string) : Prop :=
  (forall p p' k, listed w src p k -> listed w dst p' k -> p = p') /\
  (forall p k, listed w src p k -> ~ In (fst k) dtops).

(** Two classes describe objects in the same way *)
Definition same_shape (c c' : cls) : Prop :=
  c_identifiers c = c_identifiers c' /\ c_shortname c = c_shortname c' /\ c_attributes c = c_attributes c' /\
  c_children c = c_children c'.
(** A class whose objects can be created from identifiers and attributes, and told
    apart by their identifiers *)
Record creatable (c : cls) : Prop := mkCreatable {
  cr_fields : NoDup (dkeys (c_fields c));
  cr_ids : incl (c_identifiers c) (dkeys (c_fields c));
  cr_attrs : incl (c_attributes c) (dkeys (c_fields c));
  cr_apart : forall k, In k (c_identifiers c) -> ~ In k (c_attributes c);
  cr_short : incl (c_shortname c) (c_identifiers c);
  cr_required : forall k, In (k, None) (c_fields c) -> In k (c_identifiers c) \/ In k (c_attributes c);
  cr_own : own_fields c;
  cr_kids : kids_are_fields c;
  cr_types : NoDup (dkeys (c_children c))
}.
(** The destination has a class for each object of both adapters *)
Definition classes_correspond (w : world) (src dst : aid) (da : adapter) : Prop :=
  forall o, read w src o \/ read w dst o ->
    exists c, dget (ad_classes da) (get_type o) = Some c /\ c_modelname c = get_type o /\ same_shape c (o_cls o) /\ creatable c.

(** Identifiers and attributes are there and equal to themselves (no NaN) *)
Definition plain_values (w : world) (a : aid) : Prop :=
  forall o, read w a o -> NoDup (dkeys (o_vals o)) /\
    forall k, In k (c_identifiers (o_cls o) ++ c_attributes (o_cls o)) -> exists v, dget (o_vals o) k = Some v /\ py_eq v v = true.

(** All conditions: the destination is a LocalStore and the recursion limit suffices for it *)
Record alike (w : world) (fuel : nat) (src dst : aid) (sa da : adapter) : Prop := mkAlike {
  al_apart : src <> dst;
  al_refs : w_ok w;
  al_share : share_nothing w src dst;
  al_src : nth_error (w_ads w) src = Some sa;
  al_dst : nth_error (w_ads w) dst = Some da;
  al_local : local_ok w dst;
  al_keyed : keyed w dst;
  al_tops : NoDup (ad_top da);
  al_sforest : forest w src (ad_top sa);
  al_dforest : forest w dst (ad_top da);
  al_dcomplete : complete w dst (ad_top da);
  al_places : same_places w src dst (ad_top da);
  al_classes : classes_correspond w src dst da;
  al_values : plain_values w src;
  al_limit : forall k, ~ deep w dst fuel k
}.

(** a line of ancestors of this length leads to the object *)
Fixpoint line (w : world) (a : aid) (n : nat) (k : string * string) : Prop :=
  match n with O => True | S n' => exists p, listed w a p k /\ line w a n' p end.
(** What comparing the adapters takes besides: objects have names, which distinguish
    siblings; objects of the same type and unique id have the same identifiers and name; objects
    have child lists, whose entries the source has; the recursion limit suffices. *)
Record comparable (w : world) (fuel : nat) (src dst : aid) (sa da : adapter) : Prop := mkComparable {
  cm_named : forall o, read w src o \/ read w dst o -> (exists u, get_unique_id o = Ok u) /\ exists n, get_shortname o = Ok n;
  cm_same : forall s d k, read w src s -> read w dst d -> is_key s k -> is_key d k ->
    get_shortname s = get_shortname d /\ dict_eq (get_identifiers s) (get_identifiers d) = true;
  cm_siblings : forall o o' k k', read w src o \/ read w dst o -> read w src o' \/ read w dst o' -> is_key o k -> is_key o' k' ->
    fst k = fst k' -> get_shortname o = get_shortname o' ->
    (In (fst k) (ad_top sa) /\ In (fst k) (ad_top da)) \/
      (exists p, (listed w src p k \/ listed w dst p k) /\ (listed w src p k' \/ listed w dst p k')) ->
    k = k';
  cm_lists : forall o t f, read w src o \/ read w dst o -> In (t, f) (c_children (o_cls o)) -> dget (o_kids o) f <> None;
  cm_tops : forall t, In t (ad_top sa) -> exists l, objs_all w src t = Ok l;
  cm_kids : forall o t f us, read w src o -> In (t, f) (c_children (o_cls o)) -> dget (o_kids o) f = Some us ->
    exists l, objs_by w src us t = Ok l;
  cm_depth : forall a k, a = src \/ a = dst -> ~ line w a (fuel - 1) k
}.

(** No hook writes a field that is an attribute of one of the adapter's classes *)
Definition spares_attributes (da : adapter) (h : hooks) : Prop :=
  forall w hc k t c, In k (dkeys (ho_fields (h w hc))) -> dget (ad_classes da) t = Some c -> ~ In k (c_attributes c).
