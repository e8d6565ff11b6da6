(** * ShareDefs: the construction of adapters, and LocalStores that several adapters share.

    In the other files a store belongs to one adapter (ModelDefs.v).  Here a LocalStore is an object of its own
    with a reference to an adapter, as in the code, and adapters have a reference to a store.
    Simplification: only LocalStores; the identifier argument of [get] and [remove] as in StoreDefs.v. *)
From Verif Require Export TextDefs StoreDefs.

(** store/__init__.py:16-27, store/local.py:16-20: [adapter] and [_data] *)
Record lstore := mkLStore { ls_owner : option aid; ls_data : dict (dict ref) }.

(** ** Keyword arguments *)
(** The values given for [internal_storage_engine]: the class LocalStore, the class RedisStore, a LocalStore *)
Inductive engine := ELocalClass | ERedisClass | EInstance (s : nat).
Inductive kval := KName (n : option string) | KEngine (e : engine) | KOther (x : nat).
(** how [deepcopy] of the value ends: with a copy, TypeError or AttributeError, or another exception *)
Inductive copying := CopyOk | CopyRefused | CopyRaises (x : exn).
Record kwarg := mkKw { kw_val : kval; kw_copy : copying }.
(** an entry of [_meta_kwargs]: a copy of the value or the value itself *)
Inductive mval := MCopy (v : kval) | MSame (v : kval).

Record pyad := mkPyad { pa_ad : adapter;    (* the store in this record is not used *)
                        pa_slot : nat;      (* [self.store] *)
                        pa_meta : dict mval }.
Record shop := mkShop { sh_heap : list obj; sh_stores : list lstore; sh_ads : list pyad; sh_trace : list event }.
Definition set_sh_heap (x : shop) (h : list obj) : shop := mkShop h (sh_stores x) (sh_ads x) (sh_trace x).
Definition set_sh_stores (x : shop) (l : list lstore) : shop := mkShop (sh_heap x) l (sh_ads x) (sh_trace x).
Definition set_sh_ads (x : shop) (l : list pyad) : shop := mkShop (sh_heap x) (sh_stores x) l (sh_trace x).

(** __init__.py:485-496 [Adapter.__new__] *)
Fixpoint new_meta (kw : dict kwarg) : result (dict mval) :=
  match kw with
  | [] => Ok []
  | (k, v) :: kw' =>
      match kw_copy v with
      | CopyRaises x => Err x
      | c => rbind (new_meta kw') (fun l => Ok ((k, match c with CopyOk => MCopy (kw_val v) | _ => MSame (kw_val v) end) :: l))
      end
  end.

(** What a class of adapters declares: its name, [type], [top_level], the model classes *)
Record adclass := mkAdClass { ac_name : string; ac_type : option string; ac_top : list string; ac_classes : dict cls }.
Inductive making := Built (a : aid) | BadArguments | NoStore | CopyFailed (x : exn).

(** A call of the class, [positional] being the number of positional arguments: __init__.py:444-464, :485-496.  [__new__] takes no positional arguments,
    [__init__] no keywords but [name] and [internal_storage_engine]; the class RedisStore alone has neither host nor url
    (store/redis.py:48-54).  Simplification: a name is a string or None. *)
Definition make_adapter (c : adclass) (positional : nat) (kw : dict kwarg) (x : shop) : shop * making :=
  match positional with
  | S _ => (x, BadArguments)
  | O =>
      match new_meta kw with
      | Err e => (x, CopyFailed e)
      | Ok meta =>
          if negb (forallb (fun k => String.eqb k "name" || String.eqb k "internal_storage_engine") (dkeys kw)) then (x, BadArguments)
          else
            let a := length (sh_ads x) in
            let name := match dget kw "name" with Some (mkKw (KName n) _) => n | _ => None end in
            let ad := adapter_init (ac_name c) (ac_type c) (ac_top c) (ac_classes c) name (SLocal []) in
            match match dget kw "internal_storage_engine" with Some (mkKw (KEngine e) _) => e | _ => ELocalClass end with
            | ERedisClass => (x, NoStore)
            | ELocalClass =>
                (mkShop (sh_heap x) (sh_stores x ++ [mkLStore (Some a) []]) (sh_ads x ++ [mkPyad ad (length (sh_stores x)) meta]) (sh_trace x), Built a)
            | EInstance s =>
                match nth_error (sh_stores x) s with
                | None => (x, BadArguments)       (* no such store: not reachable *)
                | Some st => (mkShop (sh_heap x) (list_set (sh_stores x) s (mkLStore (Some a) (ls_data st))) (sh_ads x ++ [mkPyad ad s meta]) (sh_trace x), Built a)
                end
            end
      end
  end.
(** [LocalStore()] *)
Definition make_store (x : shop) : shop * nat := (set_sh_stores x (sh_stores x ++ [mkLStore None []]), length (sh_stores x)).

(** ** The methods of a LocalStore; [s] is the store *)
Definition sh_get_obj (r : ref) : M shop obj :=
  fun x => match nth_error (sh_heap x) r with Some o => (x, Ok o) | None => (x, Err DanglingRef) end.
Definition sh_set_obj (r : ref) (o : obj) : M shop unit := modify (fun x => set_sh_heap x (list_set (sh_heap x) r o)).
Definition sh_alloc (o : obj) : M shop ref := fun x => (set_sh_heap x (sh_heap x ++ [o]), Ok (length (sh_heap x))).
Definition sh_store (s : nat) : M shop lstore :=
  fun x => match nth_error (sh_stores x) s with Some l => (x, Ok l) | None => (x, Err DanglingRef) end.
Definition sh_put (s : nat) (d : dict (dict ref)) : M shop unit :=
  modify (fun x => match nth_error (sh_stores x) s with
                   | Some l => set_sh_stores x (list_set (sh_stores x) s (mkLStore (ls_owner l) d))
                   | None => x
                   end).
(** store/__init__.py:241-254 with [self.adapter]; None has no such attribute *)
Definition owner_class (x : shop) (l : lstore) (n : string) : option cls :=
  match ls_owner l with
  | Some a => match nth_error (sh_ads x) a with Some p => dget (ad_classes (pa_ad p)) n | None => None end
  | None => None
  end.
Definition sh_class_and_model (x : shop) (l : lstore) (m : mspec) : option cls * string :=
  match m with
  | MName n => (owner_class x l n, n)
  | MClass c => (Some c, c_modelname c)
  end.
(** store/local.py:30-49 *)
Definition sh_get (s : nat) (m : mspec) (i : ident) : M shop ref :=
  l <- sh_store s ;;
  x <- get_state ;;
  let modelname := snd (sh_class_and_model x l m) in
  uid <- lift (get_uid (fst (sh_class_and_model x l m)) i) ;;
  sh_put s (touch (ls_data l) modelname) ;;;
  match dget (bucket (ls_data l) modelname) uid with
  | Some r => ret r
  | None => raise ObjectNotFound
  end.
(** store/local.py:51-65 *)
Definition sh_get_all (s : nat) (m : mspec) : M shop (list ref) :=
  l <- sh_store s ;;
  sh_put s (touch (ls_data l) (spec_name m)) ;;;
  ret (dvals (bucket (ls_data l) (spec_name m))).
(** store/local.py:67-89 *)
Definition sh_by_uids (s : nat) (uids : list string) (m : mspec) : M shop (list ref) :=
  mapM (fun uid =>
    l <- sh_store s ;;
    sh_put s (touch (ls_data l) (spec_name m)) ;;;
    match dget (bucket (ls_data l) (spec_name m)) uid with
    | Some r => ret r
    | None => raise ObjectNotFound
    end) uids.
(** store/local.py:136-145 without a model; also Adapter.__len__ (__init__.py:508-510) *)
Definition ls_count (l : lstore) : nat := list_sum (map (fun kv => length (snd kv)) (ls_data l)).
Definition sh_count (s : nat) : M shop nat := l <- sh_store s ;; ret (ls_count l).
(** [bool(obj.adapter)] *)
Definition sh_truthy (x : shop) (a : option aid) : bool :=
  match a with
  | None => false
  | Some a => match nth_error (sh_ads x) a with
              | Some p => match nth_error (sh_stores x) (pa_slot p) with Some l => negb (Nat.eqb (ls_count l) 0) | None => false end
              | None => false
              end
  end.
(** store/local.py:91-113 *)
Definition sh_add (s : nat) (r : ref) : M shop unit :=
  o <- sh_get_obj r ;;
  uid <- lift (get_unique_id o) ;;
  let modelname := get_type o in
  l <- sh_store s ;;
  let d := ls_data l in
  sh_put s (touch d modelname) ;;;
  match dget (bucket d modelname) uid with
  | Some r' => if Nat.eqb r' r then ret tt else raise ObjectAlreadyExists
  | None =>
      x <- get_state ;;
      (if sh_truthy x (o_adapter o) then ret tt else sh_set_obj r (set_o_adapter o (ls_owner l))) ;;;
      sh_put s (dset (touch d modelname) modelname (dset (bucket d modelname) uid r))
  end.
(** store/local.py:115-128 *)
Definition sh_update (s : nat) (r : ref) : M shop unit :=
  o <- sh_get_obj r ;;
  uid <- lift (get_unique_id o) ;;
  let modelname := get_type o in
  l <- sh_store s ;;
  let d := ls_data l in
  sh_put s (touch d modelname) ;;;
  match dget (bucket d modelname) uid with
  | Some r' => if Nat.eqb r' r then ret tt else sh_put s (dset (touch d modelname) modelname (dset (bucket d modelname) uid r))
  | None => sh_put s (dset (touch d modelname) modelname (dset (bucket d modelname) uid r))
  end.
(** store/local.py:130-134 *)
Definition sh_remove_item (s : nat) (modelname uid : string) : M shop unit :=
  l <- sh_store s ;;
  let d := ls_data l in
  sh_put s (touch d modelname) ;;;
  match dget (bucket d modelname) uid with
  | None => raise ObjectNotFound
  | Some _ => sh_put s (dset (touch d modelname) modelname (ddel (bucket d modelname) uid))
  end.
Definition sh_clear (r : ref) : M shop unit :=
  o <- sh_get_obj r ;;
  x <- get_state ;;
  if sh_truthy x (o_adapter o) then sh_set_obj r (set_o_adapter o None) else ret tt.
Definition sh_emit (e : event) : M shop unit := modify (fun x => mkShop (sh_heap x) (sh_stores x) (sh_ads x) (sh_trace x ++ [e])).
(** store/__init__.py:84-116; fuel: Python's recursion limit *)
Fixpoint sh_remove (fuel : nat) (s : nat) (r : ref) (remove_children : bool) : M shop unit :=
  match fuel with
  | O => raise ExnRecursionError
  | S fuel' =>
      o <- sh_get_obj r ;;
      uid <- lift (get_unique_id o) ;;
      sh_remove_item s (get_type o) uid ;;;
      sh_clear r ;;;
      if remove_children then
        forM (get_children_mapping o) (fun tf =>
          child_ids <- lift (getattr_kids o (snd tf)) ;;
          forM child_ids (fun child_id =>
            try_catch
              (c <- sh_get s (MName (fst tf)) (IdStr child_id) ;;
               sh_remove fuel' s c remove_children)
              is_not_found
              (fun _ => sh_emit (EvLog LError None None "Unable to remove child element as it was not found!"))))
      else ret tt
  end.

(** Adapter methods go to the store: __init__.py:697-878 *)
Definition by_adapter {A} (a : aid) (f : nat -> M shop A) : M shop A :=
  fun x => match nth_error (sh_ads x) a with Some p => f (pa_slot p) x | None => (x, Err DanglingRef) end.
