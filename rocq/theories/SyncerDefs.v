(** * SyncerDefs: DiffSyncSyncer (diffsync/helpers.py:284-473), Adapter.sync_from/sync_to. *)
From Verif Require Export DifferDefs.

(** ** User hooks

    A call of Model.create / obj.update / obj.delete (__init__.py:226-307,
    overridable).  The object is [hc_obj] (update, delete). *)
Inductive hookcall :=
| HCreate (c : cls) (ids attrs : dict val)
| HUpdate (r : ref) (attrs : dict val)
| HDelete (r : ref).

Inductive hook_end := HReturn | HReturnNone | HRaise (e : exn).

(** What an implementation does: whether it calls the base method
    (create_base/update_base/delete_base), which status and which fields it then
    sets on the object, and how it ends.  Simplification: hooks do not change the
    identifiers and children of the object and have no effect on other objects and
    on adapters (effects on outside systems are invisible anyway), and
    a create hook that does not call the base method has no object to return. *)
Record outcome := mkOut {
  ho_base : bool;
  ho_status : option (status * string);
  ho_fields : dict val;
  ho_end : hook_end
}.
Definition hooks := world -> hookcall -> outcome.

(** The library's own implementations (__init__.py:245, :281, :307) *)
Definition default_outcome : outcome := mkOut true None [] HReturn.
Definition default_hooks : hooks := fun _ _ => default_outcome.

(** The syncer's mutable state: helpers.py:305-313 *)
Record sstate := mkSS {
  ss_w : world;
  ss_n : nat;                     (* elements_processed *)
  ss_action : option action;      (* self.action *)
  ss_class : option cls;          (* self.model_class *)
  ss_ctx : option logctx          (* self.logger; None = base_logger *)
}.
Definition set_ss_w (s : sstate) (w : world) : sstate :=
  mkSS w (ss_n s) (ss_action s) (ss_class s) (ss_ctx s).

(** helpers.py:290-308 *)
Record senv := mkSEnv {
  sv_src : aid;
  sv_dst : aid;
  sv_flags : N;
  sv_total : nat;
  sv_cb : bool;
  sv_hooks : hooks;
  sv_fuel : nat                   (* recursion limit for BaseStore.remove *)
}.

Definition slift {A} (m : M world A) : M sstate A :=
  fun s => (set_ss_w s (fst (m (ss_w s))), snd (m (ss_w s))).

(** helpers.py:315-320 with delta = 1 *)
Definition incr_elements_processed (env : senv) : M sstate unit :=
  fun s =>
    let n := S (ss_n s) in
    (mkSS (if sv_cb env then add_event (ss_w s) (EvCallback "sync" n (sv_total env)) else ss_w s)
          n (ss_action s) (ss_class s) (ss_ctx s), Ok tt).

(** A record written through self.logger *)
Definition slog (lvl : loglevel) (st : option status) (msg : string) : M sstate unit :=
  s <- get_state ;;
  slift (emit (EvLog lvl (ss_ctx s) st msg)).

(** helpers.py:460-473 [log_sync_status] *)
Definition log_sync_status (env : senv) (a : option action) (st : status) (msg : string) : M sstate unit :=
  match a with
  | None => if has_flag (sv_flags env) SF_LOG_UNCHANGED_RECORDS then slog LDebug (Some st) msg else ret tt
  | Some _ =>
      match st with
      | StSuccess => slog LInfo (Some st) msg
      | StFailure => slog LWarning (Some st) msg
      | _ => slog LError (Some st) msg
      end
  end.

(** enum.py:99-106, the values *)
Definition action_str (a : option action) : string :=
  match a with
  | Some ACreate => "create"
  | Some AUpdate => "update"
  | Some ADelete => "delete"
  | None => "None"
  end.

(** [str(exception)]; simplification: a fixed text per exception class *)
Definition exn_msg (e : exn) : string :=
  match e with
  | ObjectNotCreated => "not created"
  | ObjectNotUpdated => "not updated"
  | ObjectNotDeleted => "not deleted"
  | _ => "error"
  end.

(** The status a hook sets on the object, if any *)
Definition apply_status (x : option (status * string)) (o : obj) : obj :=
  match x with Some (st, msg) => set_status o st msg | None => o end.
(** The fields it sets: those that the object has, other than its identifiers *)
Definition own_field (o : obj) (k : string) : bool :=
  smem k (dkeys (o_vals o)) && negb (smem k (c_identifiers (o_cls o))).
Fixpoint set_fields (l : dict val) (o : obj) : obj :=
  match l with
  | [] => o
  | (k, v) :: l' => set_fields l' (if own_field o k then set_o_vals o (dset (o_vals o) k v) else o)
  end.
Definition apply_hook (out : outcome) (o : obj) : obj := set_fields (ho_fields out) (apply_status (ho_status out) o).

(** A call of the create hook: __init__.py:209-245 *)
Definition call_create (env : senv) (c : cls) (ids attrs : dict val) : M world (option ref) :=
  w <- get_state ;;
  let out := sv_hooks env w (HCreate c ids attrs) in
  emit (EvHook ACreate (c_modelname c) ids attrs) ;;;
  r <- (if ho_base out then
          o <- lift (create_base c (sv_dst env) ids attrs) ;;
          r <- halloc (apply_hook out o) ;;
          ret (Some r)
        else ret None) ;;
  match ho_end out with
  | HReturn => ret r
  | HReturnNone => ret None
  | HRaise e => raise e
  end.

(** A call of the update hook on the object at [r]: __init__.py:247-281 *)
Definition call_update (env : senv) (r : ref) (attrs : dict val) : M world (option ref) :=
  w <- get_state ;;
  let out := sv_hooks env w (HUpdate r attrs) in
  o <- hget r ;;
  emit (EvHook AUpdate (get_type o) (get_identifiers o) attrs) ;;;
  (if ho_base out then mutate r (fun o => update_base o attrs) else ret tt) ;;;
  mutate r (fun o => (apply_hook out o, Ok tt)) ;;;
  match ho_end out with
  | HReturn => ret (Some r)
  | HReturnNone => ret None
  | HRaise e => raise e
  end.

(** A call of the delete hook on the object at [r]: __init__.py:283-307 *)
Definition call_delete (env : senv) (r : ref) : M world (option ref) :=
  w <- get_state ;;
  let out := sv_hooks env w (HDelete r) in
  o <- hget r ;;
  emit (EvHook ADelete (get_type o) (get_identifiers o) []) ;;;
  (if ho_base out then mutate r (fun o => (delete_base o, Ok tt)) else ret tt) ;;;
  mutate r (fun o => (apply_hook out o, Ok tt)) ;;;
  match ho_end out with
  | HReturn => ret (Some r)
  | HReturnNone => ret None
  | HRaise e => raise e
  end.

(** [self.model_class.get_type()] *)
Definition class_name (s : sstate) : string :=
  match ss_class s with Some c => c_modelname c | None => "" end.

(** helpers.py:426-446: the body of the try statement.  Returns the model and
    the status and message to log. *)
Definition sync_model_try (env : senv) (dst_model : option ref) (ids attrs : dict val)
  : M sstate (option ref * (status * string)) :=
  s <- get_state ;;
  m <- match ss_action s with
       | Some ACreate =>
           match dst_model, ss_class s with
           | Some _, _ => raise ObjectNotCreated
           | None, Some c => slift (call_create env c ids attrs)
           | None, None => raise ExnAttributeError      (* model_class is always set here *)
           end
       | Some AUpdate =>
           match dst_model with
           | None => raise ObjectNotUpdated
           | Some r => slift (call_update env r attrs)
           end
       | Some ADelete =>
           match dst_model with
           | None => raise ObjectNotDeleted
           | Some r => slift (call_delete env r)
           end
       | None => raise ObjectCrudException               (* excluded by helpers.py:419 *)
       end ;;
  match m with
  | Some r => o <- slift (hget r) ;; ret (Some r, get_status o)
  | None => ret (None, (StFailure,
              (class_name s ++ " " ++ action_str (ss_action s) ++ " did not return the model object.")%string))
  end.

(** helpers.py:409-458 [sync_model] *)
Definition sync_model (env : senv) (dst_model : option ref) (ids attrs : dict val)
  : M sstate (bool * option ref) :=
  s <- get_state ;;
  match ss_action s with
  | None =>
      log_sync_status env None StSuccess "No changes to apply; no action needed" ;;;
      ret (false, dst_model)
  | Some a =>
      (* inner option: None = the except branch returned *)
      r <- try_catch
             (r <- sync_model_try env dst_model ids attrs ;; ret (Some r))
             is_crud
             (fun e =>
                log_sync_status env (Some a) StError (exn_msg e) ;;;
                if has_flag (sv_flags env) SF_CONTINUE_ON_FAILURE then ret None else raise e) ;;
      match r with
      | None => ret (true, None)
      | Some (m, (st, msg)) =>
          log_sync_status env (Some a) st msg ;;;
          ret (true, m)
      end
  end.

(** [parent.add_child(child)] / [parent.remove_child(child)] on heap objects *)
Definition heap_add_child (p c : ref) : M world unit :=
  po <- hget p ;;
  co <- hget c ;;
  po' <- lift (add_child po co) ;;
  hset p po'.
Definition heap_remove_child (p c : ref) : M world unit :=
  po <- hget p ;;
  co <- hget c ;;
  po' <- lift (remove_child po co) ;;
  hset p po'.

(** [for child in element.get_children(): changed |= self.sync_diff_element(child, parent_model=...)] *)
Fixpoint run_kids (kids : list (option ref -> M sstate bool)) (parent : option ref) (changed : bool)
  : M sstate bool :=
  match kids with
  | [] => ret changed
  | k :: kids' => b <- k parent ;; run_kids kids' parent (changed || b)
  end.

(** helpers.py:360-365 *)
Definition get_dst_model (env : senv) (c : cls) (ids : dict val) : M world (option ref) :=
  try_catch
    (r <- st_get (sv_dst env) (MClass c) (IdDict ids) ;;
     mutate r (fun o => (set_status o StUnknown "", Ok tt)) ;;;
     ret (Some r))
    is_not_found
    (fun _ => ret None).

(** [bool(dst_model.model_flags & f)] if there is one: helpers.py:367-372 *)
Definition model_flag (dst_model : option ref) (f : N) : M world bool :=
  match dst_model with
  | None => ret false
  | Some r => o <- hget r ;; ret (has_flag (o_flags o) f)
  end.

Definition is_delete (a : option action) : bool :=
  match a with Some ADelete => true | _ => false end.
Definition is_create (a : option action) : bool :=
  match a with Some ACreate => true | _ => false end.

(** helpers.py:388-399: the store and the parent after a successful hook.
    Returns true if sync_diff_element returns at line 399. *)
Definition apply_to_store (env : senv) (a : option action) (parent : option ref) (r : ref) (skip_children : bool)
  : M world bool :=
  match a with
  | Some ACreate =>
      match parent with Some p => heap_add_child p r | None => ret tt end ;;;
      st_add (sv_dst env) r ;;;
      ret false
  | Some ADelete =>
      match parent with Some p => heap_remove_child p r | None => ret tt end ;;;
      st_remove (sv_fuel env) (sv_dst env) r skip_children ;;;
      ret skip_children
  | _ => ret false
  end.

(** helpers.py:335-407 [sync_diff_element], given the calls for the children
    in the order of [element.get_children()] *)
Definition sync_body (env : senv) (e : elem) (parent : option ref)
           (kids : list (option ref -> M sstate bool)) : M sstate bool :=
  ad <- slift (get_adapter (sv_dst env)) ;;
  c <- lift (match dget (ad_classes ad) (e_type e) with
             | Some c => Ok c
             | None => Err ExnAttributeError
             end) ;;
  modify (fun s => mkSS (ss_w s) (ss_n s) (ss_action s) (Some c) (ss_ctx s)) ;;;
  uid <- lift (create_unique_id c (e_keys e)) ;;
  modify (fun s => mkSS (ss_w s) (ss_n s) (e_action e) (ss_class s)
                        (Some (mkCtx (e_action e) (e_type e) uid))) ;;;
  let ids := e_keys e in
  let attrs := match ad_plus (e_attrs_diffs e) with Some p => p | None => [] end in
  _ <- slift (ad_get_or_none (sv_src env) (MClass c) (IdDict ids)) ;;
  dst_model <- slift (get_dst_model env c ids) ;;
  natural <- slift (model_flag dst_model MF_NATURAL_DELETION_ORDER) ;;
  skip_children <- slift (model_flag dst_model MF_SKIP_CHILDREN_ON_DELETE) ;;
  s <- get_state ;;
  (if natural && is_delete (ss_action s) && negb skip_children
   then run_kids kids dst_model false else ret false) ;;;
  cm <- sync_model env dst_model ids attrs ;;
  match snd cm with
  | None =>
      slog LWarning None "No object resulted from sync, will not process child objects." ;;;
      ret (fst cm)
  | Some r =>
      s <- get_state ;;
      stop <- slift (apply_to_store env (ss_action s) parent r skip_children) ;;
      if (stop : bool) then ret (fst cm)
      else
        incr_elements_processed env ;;;
        if negb natural || negb (is_delete (ss_action s))
        then run_kids kids (Some r) (fst cm)
        else ret (fst cm)
  end.

(** helpers.py:335-407.  Python's recursion limit is not modelled here: the
    recursion is over a finite diff tree. *)
Fixpoint sync_elem (ord : order_fn) (env : senv) (e : elem) (parent : option ref) {struct e} : M sstate bool :=
  sync_body env e parent (ordered ord (sync_elem ord env) (e_kids e)).

(** helpers.py:322-333 [perform_sync] *)
Definition perform_sync (env : senv) (d : diff) : M sstate bool :=
  run_kids (ordered (dc_order (d_class d)) (sync_elem (dc_order (d_class d)) env) (d_groups d)) None false.

(** [isinstance(diff, diff_class)] *)
Definition isinstance (d : diff) (dc : diffclass) : bool := smem (dc_name dc) (dc_mro (d_class d)).
(** [bool(diff)]: Diff has [__len__] *)
Definition diff_truthy (d : option diff) : bool :=
  match d with Some d' => negb (Nat.eqb (diff_len d') 0) | None => false end.

(** The DiffSyncSyncer part of sync_from: __init__.py:609-620 *)
Definition run_sync (env : senv) (d : diff) : M world diff :=
  changed <- (fun w => let r := perform_sync env d (mkSS w 0 None None None) in
                       (ss_w (fst r), snd r)) ;;
  (if (changed : bool) then emit (EvSyncComplete (sv_src env) (sv_dst env)) else ret tt) ;;;
  ret d.

(** __init__.py:577-620 [sync_from] ([dst] is self).  Simplification: the
    sync_complete hook has no effect besides being called. *)
Definition sync_from (fuel : nat) (h : hooks) (dst src : aid) (dc : diffclass) (flags : N) (cb : bool)
           (given : option diff) : M world diff :=
  match given with
  | Some d0 => if diff_truthy given && negb (isinstance d0 dc) then raise DiffClassMismatch else ret tt
  | None => ret tt
  end ;;;
  d <- (match given with
        | Some d0 => if diff_truthy given then ret d0 else diff_from fuel dst src dc flags cb
        | None => diff_from fuel dst src dc flags cb
        end) ;;
  run_sync (mkSEnv src dst flags (diff_len d) cb h fuel) d.

(** __init__.py:622-645 [sync_to] ([src] is self) *)
Definition sync_to (fuel : nat) (h : hooks) (src target : aid) (dc : diffclass) (flags : N) (cb : bool)
           (given : option diff) : M world diff :=
  sync_from fuel h target src dc flags cb given.
