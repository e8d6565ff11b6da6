(** * LossDefs: store methods, diff_from and sync_from whose Redis commands can fail.

    As ConcDefs.v and SyncConcDefs.v (same citations), but each command can raise an exception of the client
    (redis.exceptions.RedisError: the connection is lost, the server refuses the command) instead of returning its reply.
    Nothing in store/redis.py, store/__init__.py, helpers.py and __init__.py catches it: the handlers there are for
    ObjectNotFound and ObjectCrudException only. *)
From Verif Require Export SyncConcDefs.

(** The commands, each with what follows its reply or its exception *)
Inductive fprog (A : Type) :=
| FDone (x : A)
| FGet (k : string) (f : result (option obj) -> fprog A)
| FSet (k : string) (o : obj) (f : result unit -> fprog A)
| FExists (k : string) (f : result bool -> fprog A)
| FDelete (k : string) (f : result unit -> fprog A)
| FScan (pat : string) (f : result (list string) -> fprog A).
Arguments FDone {A}. Arguments FGet {A}. Arguments FSet {A}. Arguments FExists {A}. Arguments FDelete {A}. Arguments FScan {A}.

Fixpoint fthen {A B} (p : fprog A) (g : A -> fprog B) : fprog B :=
  match p with
  | FDone x => g x
  | FGet k f => FGet k (fun x => fthen (f x) g)
  | FSet k o f => FSet k o (fun x => fthen (f x) g)
  | FExists k f => FExists k (fun x => fthen (f x) g)
  | FDelete k f => FDelete k (fun x => fthen (f x) g)
  | FScan pat f => FScan pat (fun x => fthen (f x) g)
  end.

(** The monad, and its combinators *)
Notation FSM S A := (S -> fprog (S * result A)).
Notation FM A := (FSM world A).
Definition fhere {S A} (m : M S A) : FSM S A := fun w => FDone (m w).
Definition fbind {S A B} (m : FSM S A) (k : A -> FSM S B) : FSM S B :=
  fun w => fthen (m w) (fun wx => match snd wx with Ok x => k x (fst wx) | Err e => FDone (fst wx, Err e) end).
Definition ftry {S A} (m : FSM S A) (p : exn -> bool) (h : exn -> FSM S A) : FSM S A :=
  fun w => fthen (m w) (fun wx => match snd wx with
                                  | Ok x => FDone (fst wx, Ok x)
                                  | Err e => if p e then h e (fst wx) else FDone (fst wx, Err e)
                                  end).
Fixpoint fforM {S A} (l : list A) (f : A -> FSM S unit) : FSM S unit :=
  match l with
  | [] => fhere (ret tt)
  | x :: l' => fbind (f x) (fun _ => fforM l' f)
  end.
Fixpoint fmapM {S A B} (f : A -> FSM S B) (l : list A) : FSM S (list B) :=
  match l with
  | [] => fhere (ret [])
  | x :: l' => fbind (f x) (fun y => fbind (fmapM f l') (fun ys => fhere (ret (y :: ys))))
  end.
(** the reply, or the exception *)
Definition fget (k : string) : FM (option obj) := fun w => FGet k (fun x => FDone (w, x)).
Definition fset (k : string) (o : obj) : FM unit := fun w => FSet k o (fun x => FDone (w, x)).
Definition fexists (k : string) : FM bool := fun w => FExists k (fun x => FDone (w, x)).
Definition fdelete (k : string) : FM unit := fun w => FDelete k (fun x => FDone (w, x)).
Definition fscan (pat : string) : FM (list string) := fun w => FScan pat (fun x => FDone (w, x)).

(** store/redis.py:64-71 [_get_object_from_redis_key]: GET *)
Definition f_load (a : aid) (k : string) : FM ref :=
  fbind (fget k) (fun x => match x with
                           | Some o => fhere (halloc (set_o_adapter o (Some a)))
                           | None => fhere (raise ObjectNotFound)
                           end).
(** store/redis.py:181-184, :196-199: SET *)
Definition f_put (k : string) (o : obj) : FM unit := fset k (set_o_adapter o None).

(** store/local.py:22-28, store/redis.py:73-87: SCAN *)
Definition f_get_all_model_names (a : aid) : FM (list string) :=
  fbind (fhere (get_adapter a)) (fun ad =>
  match ad_store ad with
  | SLocal d => fhere (ret (dkeys d))
  | SRedis sid => fbind (fscan (store_label sid ++ ":*")%string) (fun l => fhere (ret (sdedup (map model_name_of_key l))))
  end).
(** store/local.py:30-49, store/redis.py:92-109 *)
Definition f_get (a : aid) (m : mspec) (i : ident) : FM ref :=
  fbind (fhere (get_adapter a)) (fun ad =>
  let oc := fst (object_class_and_model ad m) in
  let modelname := snd (object_class_and_model ad m) in
  fbind (fhere (lift (get_uid oc i))) (fun uid =>
  match ad_store ad with
  | SLocal d => fhere (put_store a (SLocal (touch d modelname)) ;;;
                      match dget (bucket d modelname) uid with
                      | Some r => ret r
                      | None => raise ObjectNotFound
                      end)
  | SRedis sid => f_load a (redis_key sid modelname uid)
  end)).
(** store/local.py:51-65, store/redis.py:111-129: SCAN, then GET for each key *)
Definition f_get_all (a : aid) (m : mspec) : FM (list ref) :=
  fbind (fhere (get_adapter a)) (fun ad =>
  match ad_store ad with
  | SLocal d => fhere (put_store a (SLocal (touch d (spec_name m))) ;;;
                      ret (dvals (bucket d (spec_name m))))
  | SRedis sid => fbind (fscan (store_label sid ++ ":" ++ spec_name m ++ ":*")%string) (fun l => fmapM (f_load a) l)
  end).
(** store/local.py:67-89, store/redis.py:131-152: GET for each uid *)
Definition f_get_by_uids (a : aid) (uids : list string) (m : mspec) : FM (list ref) :=
  fmapM (fun uid =>
    fbind (fhere (get_adapter a)) (fun ad =>
    match ad_store ad with
    | SLocal d => fhere (put_store a (SLocal (touch d (spec_name m))) ;;;
                        match dget (bucket d (spec_name m)) uid with
                        | Some r => ret r
                        | None => raise ObjectNotFound
                        end)
    | SRedis sid => f_load a (redis_key sid (spec_name m) uid)
    end)) uids.
(** store/local.py:136-145, store/redis.py:210-220 [count]: SCAN *)
Definition f_count_all (a : aid) : FM nat := fun w =>
  match nth_error (w_ads w) a with
  | Some ad => match ad_store ad with
               | SLocal d => FDone (w, Ok (list_sum (map (fun kv => length (snd kv)) d)))
               | SRedis sid => FScan (store_label sid ++ ":*")%string (fun x => FDone (w, match x with Ok l => Ok (length l) | Err e => Err e end))
               end
  | None => FDone (w, Ok 0)
  end.
Definition f_count (a : aid) (m : option mspec) : FM nat :=
  fbind (fhere (get_adapter a)) (fun ad =>
  match ad_store ad with
  | SLocal d =>
      match m with
      | None => f_count_all a
      | Some (MName "") => f_count_all a
      | Some m' => fhere (put_store a (SLocal (touch d (spec_name m'))) ;;; ret (length (bucket d (spec_name m'))))
      end
  | SRedis sid =>
      match m with
      | None => f_count_all a
      | Some m' => fbind (fscan (store_label sid ++ ":" ++ lower (spec_name m') ++ ":*")%string) (fun l => fhere (ret (length l)))
      end
  end).
(** [bool(obj.adapter)]: counts the objects of that adapter *)
Definition f_truthy (x : option aid) : FM bool :=
  match x with
  | None => fhere (ret false)
  | Some b => fbind (f_count_all b) (fun n => fhere (ret (negb (Nat.eqb n 0))))
  end.
(** store/local.py:91-113, store/redis.py:154-184 [add]: GET, then SET if there was none *)
Definition f_add (a : aid) (r : ref) : FM unit :=
  fbind (fhere (hget r)) (fun o =>
  fbind (fhere (lift (get_unique_id o))) (fun uid =>
  let modelname := get_type o in
  fbind (fhere (get_adapter a)) (fun ad =>
  match ad_store ad with
  | SLocal d =>
      fbind (fhere (put_store a (SLocal (touch d modelname)))) (fun _ =>
      match dget (bucket d modelname) uid with
      | Some r' => fhere (if Nat.eqb r' r then ret tt else raise ObjectAlreadyExists)
      | None =>
          fbind (f_truthy (o_adapter o)) (fun b =>
          fbind (if b then fhere (ret tt) else fhere (hset r (set_o_adapter o (Some a)))) (fun _ =>
          fhere (put_store a (SLocal (dset (touch d modelname) modelname (dset (bucket d modelname) uid r))))))
      end)
  | SRedis sid =>
      fbind (fget (redis_key sid modelname uid)) (fun x =>
      match x with
      | Some existing => fhere (if dump_eq existing o then ret tt else raise ObjectAlreadyExists)
      | None => f_put (redis_key sid modelname uid) o
      end)
  end))).
(** store/local.py:115-128, store/redis.py:186-199 [update]: SET *)
Definition f_update (a : aid) (r : ref) : FM unit :=
  fbind (fhere (hget r)) (fun o =>
  fbind (fhere (lift (get_unique_id o))) (fun uid =>
  let modelname := get_type o in
  fbind (fhere (get_adapter a)) (fun ad =>
  match ad_store ad with
  | SLocal d =>
      fhere (put_store a (SLocal (touch d modelname)) ;;;
            match dget (bucket d modelname) uid with
            | Some r' =>
                if Nat.eqb r' r then ret tt
                else put_store a (SLocal (dset (touch d modelname) modelname (dset (bucket d modelname) uid r)))
            | None => put_store a (SLocal (dset (touch d modelname) modelname (dset (bucket d modelname) uid r)))
            end)
  | SRedis sid => f_put (redis_key sid modelname uid) o
  end))).
(** store/local.py:130-134, store/redis.py:201-208 [remove_item]: EXISTS, then DEL *)
Definition f_remove_item (a : aid) (modelname uid : string) : FM unit :=
  fbind (fhere (get_adapter a)) (fun ad =>
  match ad_store ad with
  | SLocal d =>
      fhere (put_store a (SLocal (touch d modelname)) ;;;
            match dget (bucket d modelname) uid with
            | None => raise ObjectNotFound
            | Some _ => put_store a (SLocal (dset (touch d modelname) modelname (ddel (bucket d modelname) uid)))
            end)
  | SRedis sid =>
      fbind (fexists (redis_key sid modelname uid)) (fun b =>
      if b then fdelete (redis_key sid modelname uid) else fhere (raise ObjectNotFound))
  end).
(** store/__init__.py:99-100 *)
Definition f_clear_adapter (r : ref) : FM unit :=
  fbind (fhere (hget r)) (fun o =>
  fbind (f_truthy (o_adapter o)) (fun b =>
  if b then fhere (hset r (set_o_adapter o None)) else fhere (ret tt))).
(** store/__init__.py:84-116 [remove] *)
Fixpoint f_remove (fuel : nat) (a : aid) (r : ref) (remove_children : bool) : FM unit :=
  match fuel with
  | O => fhere (raise ExnRecursionError)
  | S fuel' =>
      fbind (fhere (hget r)) (fun o =>
      fbind (fhere (lift (get_unique_id o))) (fun uid =>
      fbind (f_remove_item a (get_type o) uid) (fun _ =>
      fbind (f_clear_adapter r) (fun _ =>
      if remove_children then
        fforM (get_children_mapping o) (fun tf =>
          fbind (fhere (lift (getattr_kids o (snd tf)))) (fun child_ids =>
          fforM child_ids (fun child_id =>
            ftry
              (fbind (f_get a (MName (fst tf)) (IdStr child_id)) (fun c =>
               f_remove fuel' a c remove_children))
              is_not_found
              (fun _ => fhere (emit (EvLog LError None None "Unable to remove child element as it was not found!"))))))
      else fhere (ret tt)))))
  end.
(** store/__init__.py:141-165 [get_or_instantiate] *)
Definition f_get_or_instantiate (a : aid) (c : cls) (ids attrs : dict val) : FM (ref * bool) :=
  ftry
    (fbind (f_get a (MClass c) (IdDict ids)) (fun r => fhere (ret (r, false))))
    is_not_found
    (fun _ =>
       fbind (fhere (lift (merge_kw ids attrs))) (fun kw =>
       fbind (fhere (lift (instantiate c kw [] None None))) (fun o =>
       fbind (fhere (halloc o)) (fun r =>
       fbind (f_add a r) (fun _ => fhere (ret (r, true))))))).
(** store/__init__.py:167-183 [get_or_add_model_instance] *)
Definition f_get_or_add_model_instance (a : aid) (r : ref) : FM (ref * bool) :=
  fbind (fhere (hget r)) (fun o =>
  fbind (fhere (lift (get_unique_id o))) (fun uid =>
  ftry
    (fbind (f_get a (MName (get_type o)) (IdStr uid)) (fun r' => fhere (ret (r', false))))
    is_not_found
    (fun _ => fbind (f_add a r) (fun _ => fhere (ret (r, true)))))).
(** store/__init__.py:185-212 [update_or_instantiate] *)
Definition f_update_or_instantiate (a : aid) (c : cls) (ids attrs : dict val) : FM (ref * bool) :=
  fbind (f_get_or_instantiate a c ids attrs) (fun rb =>
  fbind (fhere (mutate (fst rb) (fun o => update_changed o attrs))) (fun _ => fhere (ret rb))).
(** store/__init__.py:214-239 [update_or_add_model_instance] *)
Definition f_update_or_add_model_instance (a : aid) (r : ref) : FM (ref * bool) :=
  fbind (fhere (hget r)) (fun o =>
  fbind (f_get_or_add_model_instance a r) (fun rb =>
  fbind (fhere (mutate (fst rb) (fun o' => setattrs o' (get_attrs o)))) (fun _ => fhere (ret rb)))).
(** __init__.py:745-765 Adapter.get_or_none *)
Definition f_get_or_none (a : aid) (m : mspec) (i : ident) : FM (option ref) :=
  ftry (fbind (f_get a m i) (fun r => fhere (ret (Some r)))) is_not_found (fun _ => fhere (ret None)).

(** ** The differ *)
Definition fdlift {A} (c : FM A) : FSM dstate A :=
  fun s => fthen (c (ds_w s)) (fun wx => FDone (mkDS (fst wx) (ds_n s), snd wx)).
Definition f_fetch_all (a : aid) (t : string) : FSM dstate (list obj) :=
  fbind (fdlift (f_get_all a (MName t))) (fun rs => fhere (dlift (mapM hget rs))).
Definition f_fetch_by_uids (a : aid) (uids : list string) (t : string) : FSM dstate (list obj) :=
  fbind (fdlift (f_get_by_uids a uids (MName t))) (fun rs => fhere (dlift (mapM hget rs))).

Section Rec.
  Variable env : denv.
  Variable rec : list obj -> list obj -> FSM dstate (list elem).

  (** helpers.py:275-276 *)
  Definition f_fetch_children (a : aid) (o : option obj) (f t : string) : FSM dstate (list obj) :=
    match o with
    | None => fhere (ret [])
    | Some o' => fbind (fhere (lift (getattr_kids o' f))) (fun uids => f_fetch_by_uids a uids t)
    end.
  (** helpers.py:270-279 *)
  Fixpoint f_diff_child_types (so do : option obj) (mapping : dict string) (gs : dict (dict elem))
    : FSM dstate (dict (dict elem)) :=
    match mapping with
    | [] => fhere (ret gs)
    | (t, f) :: mapping' =>
        fbind (f_fetch_children (en_src env) so f t) (fun ss =>
        fbind (f_fetch_children (en_dst env) do f t) (fun dd =>
        fbind (rec ss dd) (fun es =>
        fbind (fhere (lift (add_elems gs es))) (fun gs' =>
        f_diff_child_types so do mapping' gs'))))
    end.
  (** helpers.py:163-234 [diff_object_pair] with :236-281 [diff_child_objects] *)
  Definition f_diff_object_pair (so do : option obj) : FSM dstate (option elem) :=
    match (match so with Some s => Some s | None => do end) with
    | None => fhere (raise ExnTypeError)
    | Some o =>
        fbind (fhere (lift (get_unique_id o))) (fun _ =>
        fbind (fhere (lift (get_shortname o))) (fun name =>
        if skip_pair (en_flags env) so do then
          fbind (fhere (incr_models_processed env 1)) (fun _ => fhere (ret None))
        else
          fbind (fhere (incr_models_processed env ((if so then 1 else 0) + (if do then 1 else 0)))) (fun _ =>
          fbind (fhere (children_mapping env so do)) (fun mapping =>
          fbind (f_diff_child_types so do mapping []) (fun gs =>
          fhere (ret (Some (mkElem (get_type o) name (get_identifiers o) (en_sname env) (en_dname env)
                                  (option_map get_attrs so) (option_map get_attrs do) gs))))))))
    end.
  (** helpers.py:131-138 *)
  Fixpoint f_diff_pairs (l : dict (option obj * option obj)) : FSM dstate (list elem) :=
    match l with
    | [] => fhere (ret [])
    | (_, (so, do)) :: l' =>
        fbind (f_diff_object_pair so do) (fun e =>
        fbind (f_diff_pairs l') (fun es =>
        fhere (ret (match e with Some e' => e' :: es | None => es end))))
    end.
  (** helpers.py:102-138 [diff_object_list] *)
  Definition f_diff_list_body (src dst : list obj) : FSM dstate (list elem) :=
    fbind (fhere (lift (index_by_uid src []))) (fun ds =>
    fbind (fhere (lift (index_by_uid dst []))) (fun dd =>
    let c := pair_up ds dd in
    fbind (fhere (incr_models_processed env ((length src - length c) + (length dst - length c)))) (fun _ =>
    fbind (fhere (lift (validate_pairs (dvals c)))) (fun _ =>
    f_diff_pairs c)))).
End Rec.
Fixpoint f_diff_object_list (fuel : nat) (env : denv) (src dst : list obj) : FSM dstate (list elem) :=
  match fuel with
  | O => fhere (raise ExnRecursionError)
  | S fuel' => f_diff_list_body env (f_diff_object_list fuel' env) src dst
  end.
(** helpers.py:82-86 *)
Definition f_count_skipped (env : denv) (dtop stop : list string) : FSM dstate unit :=
  fforM (symmetric_difference dtop stop) (fun t =>
    if smem t dtop then
      fbind (f_fetch_all (en_dst env) t) (fun l => fhere (incr_models_processed env (length l)))
    else if smem t stop then
      fbind (f_fetch_all (en_src env) t) (fun l => fhere (incr_models_processed env (length l)))
    else fhere (ret tt)).
(** helpers.py:88-95 *)
Fixpoint f_diff_types (fuel : nat) (env : denv) (types : list string) (gs : dict (dict elem))
  : FSM dstate (dict (dict elem)) :=
  match types with
  | [] => fhere (ret gs)
  | t :: types' =>
      fbind (f_fetch_all (en_src env) t) (fun ss =>
      fbind (f_fetch_all (en_dst env) t) (fun dd =>
      fbind (f_diff_object_list fuel env ss dd) (fun es =>
      fbind (fhere (lift (add_elems gs es))) (fun gs' =>
      f_diff_types fuel env types' gs'))))
  end.
(** helpers.py:69-100 [calculate_diffs] *)
Definition f_calculate_diffs (fuel : nat) (env : denv) (dc : diffclass) (dtop stop : list string) : FSM dstate diff :=
  fbind (f_count_skipped env dtop stop) (fun _ =>
  fbind (f_diff_types fuel env (intersection dtop stop) []) (fun gs =>
  fhere (s <- get_state ;; ret (mkDiff dc gs (ds_n s))))).
(** __init__.py:673-696 [diff_from] with helpers.py:40-60: both adapters are counted first *)
Definition f_diff_from (fuel : nat) (dst src : aid) (dc : diffclass) (flags : N) (cb : bool) : FM diff :=
  fbind (fhere (get_adapter src)) (fun sa =>
  fbind (fhere (get_adapter dst)) (fun da =>
  fbind (f_count_all src) (fun n =>
  fbind (f_count_all dst) (fun m =>
  let env := mkEnv src dst flags (n + m) cb (ad_name sa) (ad_name da) in
  fun w => fthen (f_calculate_diffs fuel env dc (ad_top da) (ad_top sa) (mkDS w 0)) (fun r => FDone (ds_w (fst r), snd r)))))).

(** ** The syncer *)
Definition fslift {A} (c : FM A) : FSM sstate A :=
  fun s => fthen (c (ss_w s)) (fun wx => FDone (set_ss_w s (fst wx), snd wx)).
Fixpoint f_run_kids (kids : list (option ref -> FSM sstate bool)) (parent : option ref) (changed : bool) : FSM sstate bool :=
  match kids with
  | [] => fhere (ret changed)
  | k :: kids' => fbind (k parent) (fun b => f_run_kids kids' parent (changed || b))
  end.
(** helpers.py:360-365 *)
Definition f_get_dst_model (env : senv) (c : cls) (ids : dict val) : FM (option ref) :=
  ftry
    (fbind (f_get (sv_dst env) (MClass c) (IdDict ids)) (fun r =>
     fbind (fhere (mutate r (fun o => (set_status o StUnknown "", Ok tt)))) (fun _ =>
     fhere (ret (Some r)))))
    is_not_found
    (fun _ => fhere (ret None)).
(** helpers.py:388-399 *)
Definition f_apply_to_store (env : senv) (a : option action) (parent : option ref) (r : ref) (skip_children : bool) : FM bool :=
  match a with
  | Some ACreate =>
      fbind (fhere (match parent with Some p => heap_add_child p r | None => ret tt end)) (fun _ =>
      fbind (f_add (sv_dst env) r) (fun _ =>
      fhere (ret false)))
  | Some ADelete =>
      fbind (fhere (match parent with Some p => heap_remove_child p r | None => ret tt end)) (fun _ =>
      fbind (f_remove (sv_fuel env) (sv_dst env) r skip_children) (fun _ =>
      fhere (ret skip_children)))
  | _ => fhere (ret false)
  end.
(** helpers.py:335-407 [sync_diff_element] *)
Definition f_sync_body (env : senv) (e : elem) (parent : option ref)
           (kids : list (option ref -> FSM sstate bool)) : FSM sstate bool :=
  fbind (fhere (slift (get_adapter (sv_dst env)))) (fun ad =>
  fbind (fhere (lift (match dget (ad_classes ad) (e_type e) with
                     | Some c => Ok c
                     | None => Err ExnAttributeError
                     end))) (fun c =>
  fbind (fhere (modify (fun s => mkSS (ss_w s) (ss_n s) (ss_action s) (Some c) (ss_ctx s)))) (fun _ =>
  fbind (fhere (lift (create_unique_id c (e_keys e)))) (fun uid =>
  fbind (fhere (modify (fun s => mkSS (ss_w s) (ss_n s) (e_action e) (ss_class s)
                                     (Some (mkCtx (e_action e) (e_type e) uid))))) (fun _ =>
  let ids := e_keys e in
  let attrs := match ad_plus (e_attrs_diffs e) with Some p => p | None => [] end in
  fbind (fslift (f_get_or_none (sv_src env) (MClass c) (IdDict ids))) (fun _ =>
  fbind (fslift (f_get_dst_model env c ids)) (fun dst_model =>
  fbind (fhere (slift (model_flag dst_model MF_NATURAL_DELETION_ORDER))) (fun natural =>
  fbind (fhere (slift (model_flag dst_model MF_SKIP_CHILDREN_ON_DELETE))) (fun skip_children =>
  fbind (fhere get_state) (fun s =>
  fbind (if natural && is_delete (ss_action s) && negb skip_children
         then f_run_kids kids dst_model false else fhere (ret false)) (fun _ =>
  fbind (fhere (sync_model env dst_model ids attrs)) (fun cm =>
  match snd cm with
  | None =>
      fhere (slog LWarning None "No object resulted from sync, will not process child objects." ;;;
            ret (fst cm))
  | Some r =>
      fbind (fhere get_state) (fun s =>
      fbind (fslift (f_apply_to_store env (ss_action s) parent r skip_children)) (fun stop =>
      if (stop : bool) then fhere (ret (fst cm))
      else
        fbind (fhere (incr_elements_processed env)) (fun _ =>
        if negb natural || negb (is_delete (ss_action s))
        then f_run_kids kids (Some r) (fst cm)
        else fhere (ret (fst cm)))))
  end)))))))))))).
Fixpoint f_sync_elem (ord : order_fn) (env : senv) (e : elem) (parent : option ref) {struct e} : FSM sstate bool :=
  f_sync_body env e parent (ordered ord (f_sync_elem ord env) (e_kids e)).
(** helpers.py:322-333 [perform_sync] *)
Definition f_perform_sync (env : senv) (d : diff) : FSM sstate bool :=
  f_run_kids (ordered (dc_order (d_class d)) (f_sync_elem (dc_order (d_class d)) env) (d_groups d)) None false.
(** __init__.py:609-620 *)
Definition f_run_sync (env : senv) (d : diff) : FM diff :=
  fbind (fun w => fthen (f_perform_sync env d (mkSS w 0 None None None)) (fun r => FDone (ss_w (fst r), snd r))) (fun changed =>
  fhere ((if (changed : bool) then emit (EvSyncComplete (sv_src env) (sv_dst env)) else ret tt) ;;;
        ret d)).
(** __init__.py:577-620 [sync_from] *)
Definition f_sync_from (fuel : nat) (h : hooks) (dst src : aid) (dc : diffclass) (flags : N) (cb : bool)
           (given : option diff) : FM diff :=
  fbind (fhere (match given with
               | Some d0 => if diff_truthy given && negb (isinstance d0 dc) then raise DiffClassMismatch else ret tt
               | None => ret tt
               end)) (fun _ =>
  fbind (match given with
         | Some d0 => if diff_truthy given then fhere (ret d0) else f_diff_from fuel dst src dc flags cb
         | None => f_diff_from fuel dst src dc flags cb
         end) (fun d =>
  f_run_sync (mkSEnv src dst flags (diff_len d) cb h fuel) d)).
