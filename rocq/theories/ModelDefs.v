(** * ModelDefs: DiffSyncModel classes and instances, flags, the heap, adapters, the world. *)
From Verif Require Export Base.

(** ** Flags: bit masks exactly as in diffsync/enum.py:21-87
    (NONE is 0 in both). *)
Definition MF_IGNORE : N := 1.                      (* enum.py:26 0b1 *)
Definition MF_SKIP_CHILDREN_ON_DELETE : N := 2.     (* enum.py:32 0b10 *)
Definition MF_SKIP_UNMATCHED_SRC : N := 4.          (* enum.py:38 0b100 *)
Definition MF_SKIP_UNMATCHED_DST : N := 8.          (* enum.py:44 0b1000 *)
Definition MF_NATURAL_DELETION_ORDER : N := 16.     (* enum.py:50 0b10000 *)
Definition MF_SKIP_UNMATCHED_BOTH : N := N.lor MF_SKIP_UNMATCHED_SRC MF_SKIP_UNMATCHED_DST.  (* enum.py:57 *)

Definition SF_CONTINUE_ON_FAILURE : N := 1.         (* enum.py:65 0b1 *)
Definition SF_SKIP_UNMATCHED_SRC : N := 2.          (* enum.py:68 0b10 *)
Definition SF_SKIP_UNMATCHED_DST : N := 4.          (* enum.py:74 0b100 *)
Definition SF_SKIP_UNMATCHED_BOTH : N := N.lor SF_SKIP_UNMATCHED_SRC SF_SKIP_UNMATCHED_DST. (* enum.py:80 *)
Definition SF_LOG_UNCHANGED_RECORDS : N := 8.       (* enum.py:82 0b1000 *)

(** [bool(flags & x)] *)
Definition has_flag (flags x : N) : bool := negb (N.eqb (N.land flags x) 0).

(** diffsync/enum.py:90-96 *)
Inductive status := StUnknown | StSuccess | StFailure | StError.

(** diffsync/enum.py:99-106; [NO_CHANGE = None] is [None : option action];
    "skip" is only a summary key. *)
Inductive action := ACreate | AUpdate | ADelete.
Definition action_eqb (a b : action) : bool :=
  match a, b with
  | ACreate, ACreate | AUpdate, AUpdate | ADelete, ADelete => true
  | _, _ => false
  end.

(** ** Model classes: the ClassVars of DiffSyncModel, diffsync/__init__.py:61-128.

    [c_fields] are the plain pydantic fields in declaration order with their
    default ([None] = required).  [c_kid_fields] are the fields that hold lists
    of child unique ids; simplification: they are lists of strings with default
    [[]] and are kept apart from the plain fields.  Pydantic validation and
    coercion of values is not modelled, only missing required fields. *)
Record cls := mkCls {
  c_modelname : string;
  c_identifiers : list string;
  c_shortname : list string;
  c_attributes : list string;
  c_children : dict string;              (* {child modelname: field name} *)
  c_fields : list (string * option val);
  c_kid_fields : list string;
  c_flags : N                            (* class-level default of model_flags *)
}.

Definition ref := nat.   (* a reference to a Python object: index into the heap *)
Definition aid := nat.   (* an Adapter instance: index into the world's adapters *)

(** Instances of DiffSyncModel subclasses: field values, child lists, model_flags
    (__init__.py:112), adapter (:118), _status (:121), _status_message (:124). *)
Record obj := mkObj {
  o_cls : cls;
  o_vals : dict val;
  o_kids : dict (list string);
  o_flags : N;
  o_adapter : option aid;
  o_status : status;
  o_msg : string
}.

Definition set_o_vals (o : obj) (v : dict val) : obj :=
  mkObj (o_cls o) v (o_kids o) (o_flags o) (o_adapter o) (o_status o) (o_msg o).
Definition set_o_kids (o : obj) (k : dict (list string)) : obj :=
  mkObj (o_cls o) (o_vals o) k (o_flags o) (o_adapter o) (o_status o) (o_msg o).
Definition set_o_flags (o : obj) (f : N) : obj :=
  mkObj (o_cls o) (o_vals o) (o_kids o) f (o_adapter o) (o_status o) (o_msg o).
Definition set_o_adapter (o : obj) (a : option aid) : obj :=
  mkObj (o_cls o) (o_vals o) (o_kids o) (o_flags o) a (o_status o) (o_msg o).
(** __init__.py:203-206 [set_status] *)
Definition set_status (o : obj) (st : status) (msg : string) : obj :=
  mkObj (o_cls o) (o_vals o) (o_kids o) (o_flags o) (o_adapter o) st msg.
(** __init__.py:376-378 *)
Definition get_status (o : obj) : status * string := (o_status o, o_msg o).

(** __init__.py:309-316, :327-330 *)
Definition get_type (o : obj) : string := c_modelname (o_cls o).
Definition get_children_mapping (o : obj) : dict string := c_children (o_cls o).

(** pydantic [model_dump(include=set(names), exclude={"adapter"})]: the named
    plain fields in declaration order (__init__.py:169-173). *)
Definition dump_include (o : obj) (names : list string) : dict val :=
  filter (fun kv => smem (fst kv) names) (o_vals o).

(** __init__.py:332-338 *)
Definition get_identifiers (o : obj) : dict val := dump_include o (c_identifiers (o_cls o)).
(** __init__.py:340-351 *)
Definition get_attrs (o : obj) : dict val := dump_include o (c_attributes (o_cls o)).

(** [d[k]] *)
Definition dict_item {A} (d : dict A) (k : string) : result A :=
  match dget d k with Some v => Ok v | None => Err ExnKeyError end.

(** __init__.py:318-325 [create_unique_id]: "__".join(str(identifiers[key]) ...) *)
Definition create_unique_id (c : cls) (ids : dict val) : result string :=
  rbind (rmapM (fun k => rbind (dict_item ids k) (fun v => Ok (py_str v))) (c_identifiers c))
        (fun l => Ok (join "__" l)).

(** __init__.py:353-361 *)
Definition get_unique_id (o : obj) : result string := create_unique_id (o_cls o) (get_identifiers o).

(** [getattr(self, key)] for a plain field *)
Definition getattr_val (o : obj) (k : string) : result val :=
  match dget (o_vals o) k with Some v => Ok v | None => Err ExnAttributeError end.

(** [getattr(self, key)] for a field holding child unique ids *)
Definition getattr_kids (o : obj) (k : string) : result (list string) :=
  match dget (o_kids o) k with Some v => Ok v | None => Err ExnAttributeError end.

(** [setattr(self, key, v)] on a pydantic model: unknown fields are refused. *)
Definition setattr_val (o : obj) (k : string) (v : val) : result obj :=
  if dmem (o_vals o) k then Ok (set_o_vals o (dset (o_vals o) k v)) else Err ExnValueError.

(** __init__.py:363-374 [get_shortname] *)
Definition get_shortname (o : obj) : result string :=
  match c_shortname (o_cls o) with
  | [] => get_unique_id o
  | ks => rbind (rmapM (fun k => rbind (getattr_val o k) (fun v => Ok (py_str v))) ks)
                (fun l => Ok (join "__" l))
  end.

(** __init__.py:380-405 [add_child]; [self] after the call *)
Definition add_child (self child : obj) : result obj :=
  match dget (c_children (o_cls self)) (get_type child) with
  | None => Err ObjectStoreWrongType
  | Some attr_name =>
      rbind (getattr_kids self attr_name) (fun childs =>
      rbind (get_unique_id child) (fun uid =>
      if smem uid childs then Err ObjectAlreadyExists
      else Ok (set_o_kids self (dset (o_kids self) attr_name (childs ++ [uid])))))
  end.

(** [lst.remove(x)]: removes the first occurrence *)
Fixpoint remove_first (x : string) (l : list string) : list string :=
  match l with
  | [] => []
  | y :: l' => if String.eqb x y then l' else y :: remove_first x l'
  end.

(** __init__.py:407-428 [remove_child]; [self] after the call *)
Definition remove_child (self child : obj) : result obj :=
  match dget (c_children (o_cls self)) (get_type child) with
  | None => Err ObjectStoreWrongType
  | Some attr_name =>
      rbind (getattr_kids self attr_name) (fun childs =>
      rbind (get_unique_id child) (fun uid =>
      if smem uid childs
      then Ok (set_o_kids self (dset (o_kids self) attr_name (remove_first uid childs)))
      else Err ObjectNotFound))
  end.

(** Instantiation [cls( **kw)] by pydantic: every field from the keyword, else
    its default, else a ValidationError; unknown keywords are ignored
    (pydantic's default [extra="ignore"]).  [kids]/[flags] are the keywords for
    child-list fields and model_flags. *)
Definition instantiate (c : cls) (kw : dict val) (kids : dict (list string))
           (flags : option N) (adapter : option aid) : result obj :=
  rbind (rmapM (fun fd => match dget kw (fst fd) with
                          | Some v => Ok (fst fd, v)
                          | None => match snd fd with
                                    | Some d => Ok (fst fd, d)
                                    | None => Err ExnValidationError
                                    end
                          end) (c_fields c))
        (fun vals =>
           Ok (mkObj c vals
                 (map (fun f => (f, match dget kids f with Some l => l | None => [] end)) (c_kid_fields c))
                 (match flags with Some f => f | None => c_flags c end)
                 adapter StSuccess "")).

(** [f( **ids, **attrs)]: the same keyword twice is a TypeError *)
Definition merge_kw (ids attrs : dict val) : result (dict val) :=
  if existsb (fun kv => dmem attrs (fst kv)) ids then Err ExnTypeError else Ok (ids ++ attrs).

(** __init__.py:209-224 [create_base] *)
Definition create_base (c : cls) (adapter : aid) (ids attrs : dict val) : result obj :=
  rbind (merge_kw ids attrs) (fun kw =>
  rbind (instantiate c kw [] None (Some adapter)) (fun o =>
  Ok (set_status o StSuccess "Created successfully"))).

(** [for attr, value in attrs.items(): setattr(self, attr, value)]; the object
    as it stands when the loop ends or raises *)
Fixpoint setattrs (o : obj) (attrs : dict val) : obj * result unit :=
  match attrs with
  | [] => (o, Ok tt)
  | (k, v) :: attrs' =>
      match setattr_val o k v with
      | Ok o' => setattrs o' attrs'
      | Err e => (o, Err e)
      end
  end.

(** __init__.py:247-263 [update_base] *)
Definition update_base (o : obj) (attrs : dict val) : obj * result unit :=
  match setattrs o attrs with
  | (o', Ok _) => (set_status o' StSuccess "Updated successfully", Ok tt)
  | r => r
  end.

(** __init__.py:283-292 [delete_base] *)
Definition delete_base (o : obj) : obj := set_status o StSuccess "Deleted successfully".

(** __init__.py:130-159 [__pydantic_init_subclass__].  [model_fields] are all
    pydantic fields; [extra] are further class attributes found by [hasattr]. *)
Definition model_fields (c : cls) : list string :=
  map fst (c_fields c) ++ c_kid_fields c ++ ["model_flags"; "adapter"].
Definition overlap (a b : list string) : bool := existsb (fun x => smem x b) a.
Definition check_model_class (c : cls) (extra : list string) : result unit :=
  let mf := model_fields c in
  if negb (forallb (fun a => smem a mf || smem a extra) (c_identifiers c)) then Err ExnAttributeError
  else if negb (forallb (fun a => smem a mf) (c_shortname c)) then Err ExnAttributeError
  else if negb (forallb (fun a => smem a mf) (c_attributes c)) then Err ExnAttributeError
  else if negb (forallb (fun a => smem a mf) (dvals (c_children c))) then Err ExnAttributeError
  else if overlap (c_identifiers c) (c_attributes c) then Err ExnAttributeError
  else if overlap (c_identifiers c) (dvals (c_children c)) then Err ExnAttributeError
  else if overlap (c_attributes c) (dvals (c_children c)) then Err ExnAttributeError
  else Ok tt.

(** ** Observable events, in order of occurrence. *)
Inductive loglevel := LDebug | LInfo | LWarning | LError.
(** the structlog context bound in helpers.py:345-350 *)
Record logctx := mkCtx { lc_action : option action; lc_model : string; lc_uid : string }.
Inductive event :=
| EvHook (kind : action) (modelname : string) (ids attrs : dict val)   (* a call of Model.create/update/delete *)
| EvLog (lvl : loglevel) (ctx : option logctx) (st : option status) (msg : string)
| EvCallback (stage : string) (current total : nat)
| EvSyncComplete (source target : aid).

(** ** Stores, adapters, world.

    LocalStore._data (store/local.py:20) is a defaultdict of dicts of references.
    RedisStore holds only its store id; its data live in the shared server.
    Simplification: a store instance belongs to one adapter. *)
Inductive store :=
| SLocal (data : dict (dict ref))
| SRedis (store_id : string).

(** Adapter (__init__.py:431-464): name, type, top_level, the model classes that
    are class attributes, the store. *)
Record adapter := mkAdapter {
  ad_name : string;
  ad_type : string;
  ad_top : list string;
  ad_classes : dict cls;
  ad_store : store
}.
Definition set_ad_store (ad : adapter) (s : store) : adapter :=
  mkAdapter (ad_name ad) (ad_type ad) (ad_top ad) (ad_classes ad) s.

Record world := mkWorld {
  w_heap : list obj;
  w_ads : list adapter;
  w_redis : dict obj;          (* Redis key -> pickled object (pickling is taken to be faithful) *)
  w_trace : list event         (* oldest first *)
}.
Definition set_heap (w : world) (h : list obj) : world := mkWorld h (w_ads w) (w_redis w) (w_trace w).
Definition set_ads (w : world) (l : list adapter) : world := mkWorld (w_heap w) l (w_redis w) (w_trace w).
Definition set_redis (w : world) (r : dict obj) : world := mkWorld (w_heap w) (w_ads w) r (w_trace w).
Definition add_event (w : world) (e : event) : world := mkWorld (w_heap w) (w_ads w) (w_redis w) (w_trace w ++ [e]).

Fixpoint list_set {A} (l : list A) (n : nat) (x : A) : list A :=
  match l, n with
  | [], _ => []
  | _ :: l', O => x :: l'
  | y :: l', S n' => y :: list_set l' n' x
  end.

Definition emit (e : event) : M world unit := modify (fun w => add_event w e).

Definition hget (r : ref) : M world obj :=
  fun w => match nth_error (w_heap w) r with Some o => (w, Ok o) | None => (w, Err DanglingRef) end.
Definition hset (r : ref) (o : obj) : M world unit :=
  modify (fun w => set_heap w (list_set (w_heap w) r o)).
Definition halloc (o : obj) : M world ref :=
  fun w => (set_heap w (w_heap w ++ [o]), Ok (length (w_heap w))).

Definition get_adapter (a : aid) : M world adapter :=
  fun w => match nth_error (w_ads w) a with Some ad => (w, Ok ad) | None => (w, Err DanglingRef) end.
Definition put_store (a : aid) (s : store) : M world unit :=
  modify (fun w => match nth_error (w_ads w) a with
                   | Some ad => set_ads w (list_set (w_ads w) a (set_ad_store ad s))
                   | None => w
                   end).

(** Adapter.__init_subclass__ (__init__.py:466-483).  [attrs] are the class
    attributes: [Some c] a model class, [None] anything else. *)
Definition check_adapter_class (top : list string) (attrs : dict (option cls)) : result unit :=
  if negb (forallb (fun kv => match snd kv with
                              | Some c => String.eqb (c_modelname c) (fst kv)
                              | None => true
                              end) attrs) then Err ExnAttributeError
  else if negb (forallb (fun n => match dget attrs n with Some (Some _) => true | _ => false end) top)
  then Err ExnAttributeError
  else Ok tt.
