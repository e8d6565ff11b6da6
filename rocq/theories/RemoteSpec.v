(** * RemoteSpec: a remote system that the hooks keep up to date.

    Vocabulary for C89: the hooks of the destination's models pass every call on to
    a remote system, which accepts or refuses it. *)
From Verif Require Export CallSpec ShowSpec CopySpec.

(** a record of the remote system: the attributes it has *)
Definition record := string -> option val.
(** its records, by type and name *)
Definition remote := string -> string -> option record.
Definition put (R : remote) (t u : string) (x : option record) : remote :=
  fun t' u' => if (String.eqb t' t && String.eqb u' u)%bool then x else R t' u'.

Section Remote.
  Variable name : string -> dict val -> string.      (* the name of a record, from its type and identifiers *)
  Variable accepts : list event -> event -> bool.    (* whether a call is accepted, after what happened before *)

  (** what an accepted call does *)
  Definition perform (R : remote) (ev : event) : remote :=
    match ev with
    | EvHook ACreate t ids attrs => put R t (name t ids) (Some (dget attrs))
    | EvHook AUpdate t ids attrs =>
        match R t (name t ids) with
        | Some x => put R t (name t ids) (Some (fun f => match dget attrs f with Some v => Some v | None => x f end))
        | None => R
        end
    | EvHook ADelete t ids _ => put R t (name t ids) None
    | _ => R
    end.
  (** what the events make of the remote system, after those in [past] *)
  Fixpoint driven (past evs : list event) (R : remote) : remote :=
    match evs with
    | [] => R
    | ev :: evs' => driven (past ++ [ev]) evs' (if accepts past ev then perform R ev else R)
    end.
  (** the hooks: if the call is accepted they call the base method and return the object; if it
      is refused they do not call it, and raise an exception or return None *)
  Definition follow_remote (h : hooks) : Prop := forall w hc ev, call_event w hc ev ->
    if accepts (w_trace w) ev
    then ho_base (h w hc) = true /\ ho_end (h w hc) = HReturn
    else ho_base (h w hc) = false /\ ho_end (h w hc) <> HReturn.
End Remote.

(** names are unique ids *)
Definition names_records (name : string -> dict val -> string) (w : world) (dst : aid) : Prop :=
  forall c ids u, dst_class w dst c -> create_unique_id c ids = Ok u -> name (c_modelname c) ids = u.

(** the remote system has the records of the objects that the adapter holds, with their attributes, and no others *)
Definition in_step (R : remote) (w : world) (dst : aid) : Prop :=
  forall t u, match lookup w dst t u with
              | None => R t u = None
              | Some r => exists o x, nth_error (w_heap w) r = Some o /\ R t u = Some x /\
                            forall f, In f (c_attributes (o_cls o)) -> x f = dget (o_vals o) f
              end.

(** the hooks write no attribute of the destination's models *)
Definition not_attribute (w : world) (dst : aid) (f : string) : Prop := forall c, dst_class w dst c -> ~ In f (c_attributes c).
(** no object takes its children with it when it is deleted (bit 1 of model_flags) *)
Definition no_skipping (w : world) (dst : aid) : Prop :=
  (forall t u r o, lookup w dst t u = Some r -> nth_error (w_heap w) r = Some o -> ~ skips_children (o_flags o)) /\
  (forall ad t c, nth_error (w_ads w) dst = Some ad -> dget (ad_classes ad) t = Some c -> ~ skips_children (c_flags c)).
(** the elements of objects to be created have a value for every attribute of the class *)
Definition gives_attributes (w : world) (dst : aid) (gs : dict (dict elem)) : Prop :=
  forall e ad c, occurs e gs -> e_action e = Some ACreate -> nth_error (w_ads w) dst = Some ad -> dget (ad_classes ad) (e_type e) = Some c ->
    NoDup (map fst (c_fields c)) /\
    forall f, In f (c_attributes c) -> In f (map fst (c_fields c)) /\ exists v, gained e f v.

(** one after the other, any number of synchronisations into the destination, each of which succeeds or
    ends with an ObjectCrudException *)
Inductive attempts (h : hooks) (dst : aid) : world -> world -> Prop :=
| attempts_none w : attempts h dst w w
| attempts_one w fuel src dc flags cb given w' :
    (forall d, uses fuel dst src dc flags cb given w d -> sets_no_identifier w dst (d_groups d) /\ gives_attributes w dst (d_groups d)) ->
    (forall x, snd (sync_from fuel h dst src dc flags cb given w) = Err x -> crud_exception x) ->
    attempts h dst (fst (sync_from fuel h dst src dc flags cb given w)) w' -> attempts h dst w w'.

(** in classes of the same name, identifiers are no attributes *)
Definition told_apart (w : world) (dst : aid) : Prop :=
  forall c c' f, dst_class w dst c -> dst_class w dst c' -> c_modelname c = c_modelname c' -> In f (c_attributes c') -> ~ In f (c_identifiers c).
(** the remote system has exactly the objects of the adapter [a], with equal attributes *)
Definition matches (R : remote) (w : world) (a : aid) : Prop :=
  (forall s k, read w a s -> is_key s k ->
     exists x, R (fst k) (snd k) = Some x /\
       forall f, In f (c_attributes (o_cls s)) -> exists v v', dget (o_vals s) f = Some v /\ x f = Some v' /\ py_eq v v' = true) /\
  (forall t u, R t u <> None -> exists s, read w a s /\ is_key s (t, u)).
