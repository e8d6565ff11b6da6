(** * StoreDefs: BaseStore, LocalStore and RedisStore. *)
From Coq Require Import Ascii.
From Verif Require Export ModelDefs.

(** The [model] argument: a modelname string, or a DiffSyncModel class/instance
    (an instance is only used for its classmethods). *)
Inductive mspec := MName (s : string) | MClass (c : cls).
(** The [identifier] argument: a unique id string or a dict of identifiers. *)
Inductive ident := IdStr (s : string) | IdDict (d : dict val).

Definition spec_name (m : mspec) : string :=
  match m with MName s => s | MClass c => c_modelname c end.

(** store/__init__.py:241-254 [_get_object_class_and_model] *)
Definition object_class_and_model (ad : adapter) (m : mspec) : option cls * string :=
  match m with
  | MName s => (dget (ad_classes ad) s, s)
  | MClass c => (Some c, c_modelname c)
  end.

(** store/__init__.py:256-272 [_get_uid] *)
Definition get_uid (oc : option cls) (i : ident) : result string :=
  match i with
  | IdStr s => Ok s
  | IdDict d => match oc with
                | Some c => create_unique_id c d
                | None => Err ExnValueError
                end
  end.

(** [self._data[modelname]] on the defaultdict: the bucket read ... *)
Definition bucket (d : dict (dict ref)) (m : string) : dict ref :=
  match dget d m with Some b => b | None => [] end.
(** ... and the data after the access (an absent name becomes known, empty). *)
Definition touch (d : dict (dict ref)) (m : string) : dict (dict ref) :=
  match dget d m with Some _ => d | None => dset d m [] end.

(** ** Redis *)

(** Redis glob patterns, as the server matches them (stringmatchlen in its util.c; not part of /repo): [*], [?],
    [\] and classes [[a-z]], [[^a-z]].  With [Some (neg, m, d)] the pattern continues inside a class that is
    matched against the character [d]; [m]: one of the characters up to here was [d].  Characters are compared by code. *)
Definition in_span (a b d : ascii) : bool :=
  (Nat.leb (nat_of_ascii a) (nat_of_ascii d) && Nat.leb (nat_of_ascii d) (nat_of_ascii b)) ||
  (Nat.leb (nat_of_ascii b) (nat_of_ascii d) && Nat.leb (nat_of_ascii d) (nat_of_ascii a)).
Fixpoint glob_at (cl : option (bool * bool * ascii)) (p s : string) {struct p} : bool :=
  match cl with
  | Some (neg, m, d) =>
      match p with
      | EmptyString => xorb neg m && match s with EmptyString => true | _ => false end
      | String c p' =>
          if Ascii.eqb c "\"%char then
            match p' with
            | EmptyString => glob_at (Some (neg, m || Ascii.eqb c d, d)) p' s
            | String e p'' => glob_at (Some (neg, m || Ascii.eqb e d, d)) p'' s
            end
          else if Ascii.eqb c "]"%char then xorb neg m && glob_at None p' s
          else match p' with
               | String x (String e p'') =>
                   if Ascii.eqb x "-"%char then glob_at (Some (neg, m || in_span c e d, d)) p'' s
                   else glob_at (Some (neg, m || Ascii.eqb c d, d)) p' s
               | _ => glob_at (Some (neg, m || Ascii.eqb c d, d)) p' s
               end
      end
  | None =>
      match p with
      | EmptyString => match s with EmptyString => true | _ => false end
      | String c p' =>
          if Ascii.eqb c "*"%char then
            (fix star (s : string) : bool :=
               glob_at None p' s || match s with EmptyString => false | String _ s' => star s' end) s
          else if Ascii.eqb c "?"%char then
            match s with EmptyString => false | String _ s' => glob_at None p' s' end
          else if Ascii.eqb c "["%char then
            match s with
            | EmptyString => false
            | String d s' => match p' with
                             | String n p'' => if Ascii.eqb n "^"%char then glob_at (Some (true, false, d)) p'' s'
                                               else glob_at (Some (false, false, d)) p' s'
                             | EmptyString => glob_at (Some (false, false, d)) p' s'
                             end
            end
          else if Ascii.eqb c "\"%char then
            match p' with
            | EmptyString => match s with String d EmptyString => Ascii.eqb d c | _ => false end
            | String c' p'' => match s with
                               | String d s' => Ascii.eqb c' d && glob_at None p'' s'
                               | EmptyString => false
                               end
            end
          else match s with
               | String d s' => Ascii.eqb c d && glob_at None p' s'
               | EmptyString => false
               end
      end
  end.
Definition glob : string -> string -> bool := glob_at None.

(** store/redis.py:58 [_store_label] with REDIS_DIFFSYNC_ROOT_LABEL (:21) *)
Definition store_label (store_id : string) : string := ("diffsync:" ++ store_id)%string.
(** store/redis.py:89-90 [_get_key_for_object] *)
Definition redis_key (store_id modelname uid : string) : string :=
  (store_label store_id ++ ":" ++ modelname ++ ":" ++ uid)%string.

(** [self._store.scan_iter(pattern)].  Simplification: keys in insertion order,
    each once (Redis gives no order and may repeat keys while rehashing). *)
Definition scan (w : world) (pattern : string) : list string :=
  filter (glob pattern) (dkeys (w_redis w)).

(** [item.split(b":")[2]] *)
Fixpoint split_colon (s : string) : list string :=
  match s with
  | EmptyString => [""]
  | String c s' =>
      if Ascii.eqb c ":"%char then "" :: split_colon s'
      else match split_colon s' with
           | [] => [String c ""]
           | x :: l => String c x :: l
           end
  end.
Definition model_name_of_key (key : string) : string := nth 2 (split_colon key) "".

(** store/redis.py:64-71 [_get_object_from_redis_key]: a new object each time,
    attached to the reading adapter. *)
Definition redis_load (a : aid) (key : string) : M world ref :=
  fun w => match dget (w_redis w) key with
           | Some o => halloc (set_o_adapter o (Some a)) w
           | None => (w, Err ObjectNotFound)
           end.

(** [copy.copy(obj)]; [obj_copy.adapter = None]; [set(key, dumps(obj_copy))]:
    store/redis.py:181-184, :196-199. *)
Definition redis_put (key : string) (o : obj) : M world unit :=
  modify (fun w => set_redis w (dset (w_redis w) key (set_o_adapter o None))).

(** [a.dict() == b.dict()] (everything but the adapter, __init__.py:169-173) *)
Definition dump_eq (a b : obj) : bool :=
  dict_eq (o_vals a) (o_vals b) &&
  Nat.eqb (length (o_kids a)) (length (o_kids b)) &&
  forallb (fun kv => match dget (o_kids b) (fst kv) with
                     | Some l => if list_eq_dec string_dec (snd kv) l then true else false
                     | None => false
                     end) (o_kids a) &&
  N.eqb (o_flags a) (o_flags b).

(** ** Store operations; [a] is the adapter owning the store. *)

(** store/local.py:22-28, store/redis.py:73-87; a set, as a list *)
Definition st_get_all_model_names (a : aid) : M world (list string) :=
  ad <- get_adapter a ;;
  w <- get_state ;;
  match ad_store ad with
  | SLocal d => ret (dkeys d)
  | SRedis sid => ret (sdedup (map model_name_of_key (scan w (store_label sid ++ ":*")%string)))
  end.

(** store/local.py:30-49, store/redis.py:92-109 *)
Definition st_get (a : aid) (m : mspec) (i : ident) : M world ref :=
  ad <- get_adapter a ;;
  let oc := fst (object_class_and_model ad m) in
  let modelname := snd (object_class_and_model ad m) in
  uid <- lift (get_uid oc i) ;;
  match ad_store ad with
  | SLocal d =>
      put_store a (SLocal (touch d modelname)) ;;;
      match dget (bucket d modelname) uid with
      | Some r => ret r
      | None => raise ObjectNotFound
      end
  | SRedis sid => redis_load a (redis_key sid modelname uid)
  end.

(** store/local.py:51-65, store/redis.py:111-129 *)
Definition st_get_all (a : aid) (m : mspec) : M world (list ref) :=
  ad <- get_adapter a ;;
  match ad_store ad with
  | SLocal d =>
      put_store a (SLocal (touch d (spec_name m))) ;;;
      ret (dvals (bucket d (spec_name m)))
  | SRedis sid =>
      w <- get_state ;;
      mapM (redis_load a) (scan w (store_label sid ++ ":" ++ spec_name m ++ ":*")%string)
  end.

(** store/local.py:67-89, store/redis.py:131-152 *)
Definition st_get_by_uids (a : aid) (uids : list string) (m : mspec) : M world (list ref) :=
  mapM (fun uid =>
    ad <- get_adapter a ;;
    match ad_store ad with
    | SLocal d =>
        put_store a (SLocal (touch d (spec_name m))) ;;;
        match dget (bucket d (spec_name m)) uid with
        | Some r => ret r
        | None => raise ObjectNotFound
        end
    | SRedis sid => redis_load a (redis_key sid (spec_name m) uid)
    end) uids.

(** store/local.py:136-145 and store/redis.py:210-220 without a model; this is
    also Adapter.__len__ (__init__.py:508-510). *)
Definition count_all (w : world) (a : aid) : nat :=
  match nth_error (w_ads w) a with
  | Some ad => match ad_store ad with
               | SLocal d => list_sum (map (fun kv => length (snd kv)) d)
               | SRedis sid => length (scan w (store_label sid ++ ":*")%string)
               end
  | None => 0
  end.

(** store/local.py:136-145, store/redis.py:210-220 [count] *)
Definition st_count (a : aid) (m : option mspec) : M world nat :=
  ad <- get_adapter a ;;
  w <- get_state ;;
  match ad_store ad with
  | SLocal d =>
      match m with
      | None => ret (count_all w a)
      | Some (MName "") => ret (count_all w a)          (* [if not model] *)
      | Some m' =>
          put_store a (SLocal (touch d (spec_name m'))) ;;;
          ret (length (bucket d (spec_name m')))
      end
  | SRedis sid =>
      match m with
      | None => ret (count_all w a)
      | Some m' => ret (length (scan w (store_label sid ++ ":" ++ lower (spec_name m') ++ ":*")%string))
      end
  end.

(** [bool(obj.adapter)]: an Adapter has [__len__], so an empty one is falsy. *)
Definition adapter_truthy (w : world) (x : option aid) : bool :=
  match x with
  | None => false
  | Some b => negb (Nat.eqb (count_all w b) 0)
  end.

(** store/local.py:91-113, store/redis.py:154-184 [add] *)
Definition st_add (a : aid) (r : ref) : M world unit :=
  o <- hget r ;;
  uid <- lift (get_unique_id o) ;;
  let modelname := get_type o in
  ad <- get_adapter a ;;
  match ad_store ad with
  | SLocal d =>
      put_store a (SLocal (touch d modelname)) ;;;
      match dget (bucket d modelname) uid with
      | Some r' => if Nat.eqb r' r then ret tt else raise ObjectAlreadyExists
      | None =>
          w <- get_state ;;
          (if adapter_truthy w (o_adapter o) then ret tt
           else hset r (set_o_adapter o (Some a))) ;;;
          put_store a (SLocal (dset (touch d modelname) modelname (dset (bucket d modelname) uid r)))
      end
  | SRedis sid =>
      w <- get_state ;;
      match dget (w_redis w) (redis_key sid modelname uid) with
      | Some existing => if dump_eq existing o then ret tt else raise ObjectAlreadyExists
      | None => redis_put (redis_key sid modelname uid) o
      end
  end.

(** store/local.py:115-128, store/redis.py:186-199 [update] *)
Definition st_update (a : aid) (r : ref) : M world unit :=
  o <- hget r ;;
  uid <- lift (get_unique_id o) ;;
  let modelname := get_type o in
  ad <- get_adapter a ;;
  match ad_store ad with
  | SLocal d =>
      put_store a (SLocal (touch d modelname)) ;;;
      match dget (bucket d modelname) uid with
      | Some r' =>
          if Nat.eqb r' r then ret tt
          else put_store a (SLocal (dset (touch d modelname) modelname (dset (bucket d modelname) uid r)))
      | None => put_store a (SLocal (dset (touch d modelname) modelname (dset (bucket d modelname) uid r)))
      end
  | SRedis sid => redis_put (redis_key sid modelname uid) o
  end.

(** store/local.py:130-134, store/redis.py:201-208 [remove_item] *)
Definition st_remove_item (a : aid) (modelname uid : string) : M world unit :=
  ad <- get_adapter a ;;
  match ad_store ad with
  | SLocal d =>
      put_store a (SLocal (touch d modelname)) ;;;
      match dget (bucket d modelname) uid with
      | None => raise ObjectNotFound
      | Some _ => put_store a (SLocal (dset (touch d modelname) modelname (ddel (bucket d modelname) uid)))
      end
  | SRedis sid =>
      w <- get_state ;;
      match dget (w_redis w) (redis_key sid modelname uid) with
      | None => raise ObjectNotFound
      | Some _ => modify (fun w => set_redis w (ddel (w_redis w) (redis_key sid modelname uid)))
      end
  end.

(** [if obj.adapter: obj.adapter = None]: store/__init__.py:99-100 *)
Definition clear_adapter (r : ref) : M world unit :=
  o <- hget r ;;
  w <- get_state ;;
  if adapter_truthy w (o_adapter o) then hset r (set_o_adapter o None) else ret tt.

(** store/__init__.py:84-116 [remove].  Fuel: Python's recursion limit.  The
    child lists are those of [obj] at the start of the call (nothing in the
    loop changes them). *)
Fixpoint st_remove (fuel : nat) (a : aid) (r : ref) (remove_children : bool) : M world unit :=
  match fuel with
  | O => raise ExnRecursionError
  | S fuel' =>
      o <- hget r ;;
      uid <- lift (get_unique_id o) ;;
      st_remove_item a (get_type o) uid ;;;
      clear_adapter r ;;;
      if remove_children then
        forM (get_children_mapping o) (fun tf =>
          child_ids <- lift (getattr_kids o (snd tf)) ;;
          forM child_ids (fun child_id =>
            try_catch
              (c <- st_get a (MName (fst tf)) (IdStr child_id) ;;
               st_remove fuel' a c remove_children)
              is_not_found
              (fun _ => emit (EvLog LError None None "Unable to remove child element as it was not found!"))))
      else ret tt
  end.

(** store/__init__.py:141-165 [get_or_instantiate] ([attrs=None] is the empty dict) *)
Definition st_get_or_instantiate (a : aid) (c : cls) (ids attrs : dict val) : M world (ref * bool) :=
  try_catch
    (r <- st_get a (MClass c) (IdDict ids) ;; ret (r, false))
    is_not_found
    (fun _ =>
       kw <- lift (merge_kw ids attrs) ;;
       o <- lift (instantiate c kw [] None None) ;;
       r <- halloc o ;;
       st_add a r ;;;
       ret (r, true)).

(** store/__init__.py:167-183 [get_or_add_model_instance] *)
Definition st_get_or_add_model_instance (a : aid) (r : ref) : M world (ref * bool) :=
  o <- hget r ;;
  uid <- lift (get_unique_id o) ;;
  try_catch
    (r' <- st_get a (MName (get_type o)) (IdStr uid) ;; ret (r', false))
    is_not_found
    (fun _ => st_add a r ;;; ret (r, true)).

(** [for attr, value in attrs.items(): if getattr(obj, attr) != value: setattr(obj, attr, value)]
    store/__init__.py:208-210 *)
Fixpoint update_changed (o : obj) (attrs : dict val) : obj * result unit :=
  match attrs with
  | [] => (o, Ok tt)
  | (k, v) :: attrs' =>
      match getattr_val o k with
      | Err e => (o, Err e)
      | Ok v0 =>
          if py_eq v0 v then update_changed o attrs'
          else match setattr_val o k v with
               | Ok o' => update_changed o' attrs'
               | Err e => (o, Err e)
               end
      end
  end.

(** run an in-place update of the object at [r] *)
Definition mutate (r : ref) (f : obj -> obj * result unit) : M world unit :=
  o <- hget r ;;
  hset r (fst (f o)) ;;;
  lift (snd (f o)).

(** store/__init__.py:185-212 [update_or_instantiate] *)
Definition st_update_or_instantiate (a : aid) (c : cls) (ids attrs : dict val) : M world (ref * bool) :=
  rb <- try_catch
          (r <- st_get a (MClass c) (IdDict ids) ;; ret (r, false))
          is_not_found
          (fun _ =>
             kw <- lift (merge_kw ids attrs) ;;
             o <- lift (instantiate c kw [] None None) ;;
             r <- halloc o ;;
             st_add a r ;;;
             ret (r, true)) ;;
  mutate (fst rb) (fun o => update_changed o attrs) ;;;
  ret rb.

(** store/__init__.py:214-239 [update_or_add_model_instance] *)
Definition st_update_or_add_model_instance (a : aid) (r : ref) : M world (ref * bool) :=
  o <- hget r ;;
  uid <- lift (get_unique_id o) ;;
  let attrs := get_attrs o in
  rb <- try_catch
          (r' <- st_get a (MName (get_type o)) (IdStr uid) ;; ret (r', false))
          is_not_found
          (fun _ => st_add a r ;;; ret (r, true)) ;;
  mutate (fst rb) (fun o' => setattrs o' attrs) ;;;
  ret rb.

(** __init__.py:745-765 Adapter.get_or_none *)
Definition ad_get_or_none (a : aid) (m : mspec) (i : ident) : M world (option ref) :=
  try_catch (r <- st_get a m i ;; ret (Some r)) is_not_found (fun _ => ret None).
