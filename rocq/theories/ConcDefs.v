(** * ConcDefs: the store methods as sequences of Redis commands.

    In StoreDefs.v each store method is one step on a world that includes the Redis server.  Several processes
    can share a server; here the same methods (same citations) issue their commands one at a time, so that those of
    different processes can be interleaved.  A process has a world of its own, whose [w_redis] is not used and
    kept empty. *)
From Verif Require Export StoreDefs.

(** The commands of redis-py used in store/redis.py.  SCAN is one step, as in [scan]. *)
Inductive cprog (A : Type) :=
| Done (x : A)
| CGet (k : string) (f : option obj -> cprog A)
| CSet (k : string) (o : obj) (p : cprog A)
| CExists (k : string) (f : bool -> cprog A)
| CDelete (k : string) (p : cprog A)
| CScan (pat : string) (f : list string -> cprog A).
Arguments Done {A}. Arguments CGet {A}. Arguments CSet {A}. Arguments CExists {A}. Arguments CDelete {A}. Arguments CScan {A}.

Fixpoint cthen {A B} (p : cprog A) (g : A -> cprog B) : cprog B :=
  match p with
  | Done x => g x
  | CGet k f => CGet k (fun x => cthen (f x) g)
  | CSet k o p => CSet k o (cthen p g)
  | CExists k f => CExists k (fun x => cthen (f x) g)
  | CDelete k p => CDelete k (cthen p g)
  | CScan pat f => CScan pat (fun x => cthen (f x) g)
  end.

(** A method: the state and exception monad of Base.v, with commands *)
Notation SM S A := (S -> cprog (S * result A)).
Notation CM A := (SM world A).
(** a part that issues no command *)
Definition here {S A} (m : M S A) : SM S A := fun w => Done (m w).
Definition cbind {S A B} (m : SM S A) (k : A -> SM S B) : SM S B :=
  fun w => cthen (m w) (fun wx => match snd wx with Ok x => k x (fst wx) | Err e => Done (fst wx, Err e) end).
Definition ctry {S A} (m : SM S A) (p : exn -> bool) (h : exn -> SM S A) : SM S A :=
  fun w => cthen (m w) (fun wx => match snd wx with
                                  | Ok x => Done (fst wx, Ok x)
                                  | Err e => if p e then h e (fst wx) else Done (fst wx, Err e)
                                  end).
Fixpoint cforM {S A} (l : list A) (f : A -> SM S unit) : SM S unit :=
  match l with
  | [] => here (ret tt)
  | x :: l' => cbind (f x) (fun _ => cforM l' f)
  end.
Fixpoint cmapM {S A B} (f : A -> SM S B) (l : list A) : SM S (list B) :=
  match l with
  | [] => here (ret [])
  | x :: l' => cbind (f x) (fun y => cbind (cmapM f l') (fun ys => here (ret (y :: ys))))
  end.
Definition cget (k : string) : CM (option obj) := fun w => CGet k (fun x => Done (w, Ok x)).
Definition cset (k : string) (o : obj) : CM unit := fun w => CSet k o (Done (w, Ok tt)).
Definition cexists (k : string) : CM bool := fun w => CExists k (fun b => Done (w, Ok b)).
Definition cdelete (k : string) : CM unit := fun w => CDelete k (Done (w, Ok tt)).
Definition cscan (pat : string) : CM (list string) := fun w => CScan pat (fun l => Done (w, Ok l)).

(** store/redis.py:64-71 [_get_object_from_redis_key]: GET *)
Definition c_load (a : aid) (k : string) : CM ref :=
  cbind (cget k) (fun x => match x with
                           | Some o => here (halloc (set_o_adapter o (Some a)))
                           | None => here (raise ObjectNotFound)
                           end).
(** store/redis.py:181-184, :196-199: SET *)
Definition c_put (k : string) (o : obj) : CM unit := cset k (set_o_adapter o None).

(** store/local.py:22-28, store/redis.py:73-87: SCAN *)
Definition c_get_all_model_names (a : aid) : CM (list string) :=
  cbind (here (get_adapter a)) (fun ad =>
  match ad_store ad with
  | SLocal d => here (ret (dkeys d))
  | SRedis sid => cbind (cscan (store_label sid ++ ":*")%string) (fun l => here (ret (sdedup (map model_name_of_key l))))
  end).
(** store/local.py:30-49, store/redis.py:92-109 *)
Definition c_get (a : aid) (m : mspec) (i : ident) : CM ref :=
  cbind (here (get_adapter a)) (fun ad =>
  let oc := fst (object_class_and_model ad m) in
  let modelname := snd (object_class_and_model ad m) in
  cbind (here (lift (get_uid oc i))) (fun uid =>
  match ad_store ad with
  | SLocal d => here (put_store a (SLocal (touch d modelname)) ;;;
                      match dget (bucket d modelname) uid with
                      | Some r => ret r
                      | None => raise ObjectNotFound
                      end)
  | SRedis sid => c_load a (redis_key sid modelname uid)
  end)).
(** store/local.py:51-65, store/redis.py:111-129: SCAN, then GET for each key *)
Definition c_get_all (a : aid) (m : mspec) : CM (list ref) :=
  cbind (here (get_adapter a)) (fun ad =>
  match ad_store ad with
  | SLocal d => here (put_store a (SLocal (touch d (spec_name m))) ;;;
                      ret (dvals (bucket d (spec_name m))))
  | SRedis sid => cbind (cscan (store_label sid ++ ":" ++ spec_name m ++ ":*")%string) (fun l => cmapM (c_load a) l)
  end).
(** store/local.py:67-89, store/redis.py:131-152: GET for each uid *)
Definition c_get_by_uids (a : aid) (uids : list string) (m : mspec) : CM (list ref) :=
  cmapM (fun uid =>
    cbind (here (get_adapter a)) (fun ad =>
    match ad_store ad with
    | SLocal d => here (put_store a (SLocal (touch d (spec_name m))) ;;;
                        match dget (bucket d (spec_name m)) uid with
                        | Some r => ret r
                        | None => raise ObjectNotFound
                        end)
    | SRedis sid => c_load a (redis_key sid (spec_name m) uid)
    end)) uids.
(** store/local.py:136-145, store/redis.py:210-220 [count]: SCAN *)
Definition c_count_all (a : aid) : CM nat := fun w =>
  match nth_error (w_ads w) a with
  | Some ad => match ad_store ad with
               | SLocal d => Done (w, Ok (list_sum (map (fun kv => length (snd kv)) d)))
               | SRedis sid => CScan (store_label sid ++ ":*")%string (fun l => Done (w, Ok (length l)))
               end
  | None => Done (w, Ok 0)
  end.
Definition c_count (a : aid) (m : option mspec) : CM nat :=
  cbind (here (get_adapter a)) (fun ad =>
  match ad_store ad with
  | SLocal d =>
      match m with
      | None => c_count_all a
      | Some (MName "") => c_count_all a
      | Some m' => here (put_store a (SLocal (touch d (spec_name m'))) ;;; ret (length (bucket d (spec_name m'))))
      end
  | SRedis sid =>
      match m with
      | None => c_count_all a
      | Some m' => cbind (cscan (store_label sid ++ ":" ++ lower (spec_name m') ++ ":*")%string) (fun l => here (ret (length l)))
      end
  end).
(** [bool(obj.adapter)]: counts the objects of that adapter *)
Definition c_truthy (x : option aid) : CM bool :=
  match x with
  | None => here (ret false)
  | Some b => cbind (c_count_all b) (fun n => here (ret (negb (Nat.eqb n 0))))
  end.
(** store/local.py:91-113, store/redis.py:154-184 [add]: GET, then SET if there was none *)
Definition c_add (a : aid) (r : ref) : CM unit :=
  cbind (here (hget r)) (fun o =>
  cbind (here (lift (get_unique_id o))) (fun uid =>
  let modelname := get_type o in
  cbind (here (get_adapter a)) (fun ad =>
  match ad_store ad with
  | SLocal d =>
      cbind (here (put_store a (SLocal (touch d modelname)))) (fun _ =>
      match dget (bucket d modelname) uid with
      | Some r' => here (if Nat.eqb r' r then ret tt else raise ObjectAlreadyExists)
      | None =>
          cbind (c_truthy (o_adapter o)) (fun b =>
          cbind (if b then here (ret tt) else here (hset r (set_o_adapter o (Some a)))) (fun _ =>
          here (put_store a (SLocal (dset (touch d modelname) modelname (dset (bucket d modelname) uid r))))))
      end)
  | SRedis sid =>
      cbind (cget (redis_key sid modelname uid)) (fun x =>
      match x with
      | Some existing => here (if dump_eq existing o then ret tt else raise ObjectAlreadyExists)
      | None => c_put (redis_key sid modelname uid) o
      end)
  end))).
(** store/local.py:115-128, store/redis.py:186-199 [update]: SET *)
Definition c_update (a : aid) (r : ref) : CM unit :=
  cbind (here (hget r)) (fun o =>
  cbind (here (lift (get_unique_id o))) (fun uid =>
  let modelname := get_type o in
  cbind (here (get_adapter a)) (fun ad =>
  match ad_store ad with
  | SLocal d =>
      here (put_store a (SLocal (touch d modelname)) ;;;
            match dget (bucket d modelname) uid with
            | Some r' =>
                if Nat.eqb r' r then ret tt
                else put_store a (SLocal (dset (touch d modelname) modelname (dset (bucket d modelname) uid r)))
            | None => put_store a (SLocal (dset (touch d modelname) modelname (dset (bucket d modelname) uid r)))
            end)
  | SRedis sid => c_put (redis_key sid modelname uid) o
  end))).
(** store/local.py:130-134, store/redis.py:201-208 [remove_item]: EXISTS, then DEL *)
Definition c_remove_item (a : aid) (modelname uid : string) : CM unit :=
  cbind (here (get_adapter a)) (fun ad =>
  match ad_store ad with
  | SLocal d =>
      here (put_store a (SLocal (touch d modelname)) ;;;
            match dget (bucket d modelname) uid with
            | None => raise ObjectNotFound
            | Some _ => put_store a (SLocal (dset (touch d modelname) modelname (ddel (bucket d modelname) uid)))
            end)
  | SRedis sid =>
      cbind (cexists (redis_key sid modelname uid)) (fun b =>
      if b then cdelete (redis_key sid modelname uid) else here (raise ObjectNotFound))
  end).
(** store/__init__.py:99-100 *)
Definition c_clear_adapter (r : ref) : CM unit :=
  cbind (here (hget r)) (fun o =>
  cbind (c_truthy (o_adapter o)) (fun b =>
  if b then here (hset r (set_o_adapter o None)) else here (ret tt))).
(** store/__init__.py:84-116 [remove] *)
Fixpoint c_remove (fuel : nat) (a : aid) (r : ref) (remove_children : bool) : CM unit :=
  match fuel with
  | O => here (raise ExnRecursionError)
  | S fuel' =>
      cbind (here (hget r)) (fun o =>
      cbind (here (lift (get_unique_id o))) (fun uid =>
      cbind (c_remove_item a (get_type o) uid) (fun _ =>
      cbind (c_clear_adapter r) (fun _ =>
      if remove_children then
        cforM (get_children_mapping o) (fun tf =>
          cbind (here (lift (getattr_kids o (snd tf)))) (fun child_ids =>
          cforM child_ids (fun child_id =>
            ctry
              (cbind (c_get a (MName (fst tf)) (IdStr child_id)) (fun c =>
               c_remove fuel' a c remove_children))
              is_not_found
              (fun _ => here (emit (EvLog LError None None "Unable to remove child element as it was not found!"))))))
      else here (ret tt)))))
  end.
(** store/__init__.py:141-165 [get_or_instantiate] *)
Definition c_get_or_instantiate (a : aid) (c : cls) (ids attrs : dict val) : CM (ref * bool) :=
  ctry
    (cbind (c_get a (MClass c) (IdDict ids)) (fun r => here (ret (r, false))))
    is_not_found
    (fun _ =>
       cbind (here (lift (merge_kw ids attrs))) (fun kw =>
       cbind (here (lift (instantiate c kw [] None None))) (fun o =>
       cbind (here (halloc o)) (fun r =>
       cbind (c_add a r) (fun _ => here (ret (r, true))))))).
(** store/__init__.py:167-183 [get_or_add_model_instance] *)
Definition c_get_or_add_model_instance (a : aid) (r : ref) : CM (ref * bool) :=
  cbind (here (hget r)) (fun o =>
  cbind (here (lift (get_unique_id o))) (fun uid =>
  ctry
    (cbind (c_get a (MName (get_type o)) (IdStr uid)) (fun r' => here (ret (r', false))))
    is_not_found
    (fun _ => cbind (c_add a r) (fun _ => here (ret (r, true)))))).
(** store/__init__.py:185-212 [update_or_instantiate] *)
Definition c_update_or_instantiate (a : aid) (c : cls) (ids attrs : dict val) : CM (ref * bool) :=
  cbind (c_get_or_instantiate a c ids attrs) (fun rb =>
  cbind (here (mutate (fst rb) (fun o => update_changed o attrs))) (fun _ => here (ret rb))).
(** store/__init__.py:214-239 [update_or_add_model_instance] *)
Definition c_update_or_add_model_instance (a : aid) (r : ref) : CM (ref * bool) :=
  cbind (here (hget r)) (fun o =>
  cbind (c_get_or_add_model_instance a r) (fun rb =>
  cbind (here (mutate (fst rb) (fun o' => setattrs o' (get_attrs o)))) (fun _ => here (ret rb)))).
(** __init__.py:745-765 Adapter.get_or_none *)
Definition c_get_or_none (a : aid) (m : mspec) (i : ident) : CM (option ref) :=
  ctry (cbind (c_get a m i) (fun r => here (ret (Some r)))) is_not_found (fun _ => here (ret None)).
