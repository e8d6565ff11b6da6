(** * WideDefs: DiffSyncSyncer (diffsync/helpers.py:284-473) with user code that may do anything.

    SyncerDefs lets hooks act on their own object only, and progress callbacks and sync_complete not at all.  Here user code
    is any program on the world: it may change any object and adapter and raise anything.  [ws_log] records, for the
    specification only, each call of user code with the world in which it was made and its result. *)
From Verif Require Export SyncerDefs.

(** A call of user code: Model.create (helpers.py:431), obj.update (:435), obj.delete (:439), the callback (:320) and
    Adapter.sync_complete (__init__.py:618).  The identifiers of UUpdate and UDelete are those of the diff element *)
Inductive ucall :=
| UCreate (c : cls) (ids attrs : dict val)
| UUpdate (r : ref) (ids attrs : dict val)
| UDelete (r : ref) (ids : dict val)
| UProgress (n total : nat)
| UComplete.
(** What the code is, and whether a callback was given *)
Record user := mkUser { u_code : ucall -> M world (option ref); u_cb : bool }.
Record uentry := mkUE { ue_world : world; ue_call : ucall; ue_result : result (option ref) }.
Record wstate := mkWS { ws_s : sstate; ws_log : list uentry }.

Definition ulift {A} (m : M sstate A) : M wstate A :=
  fun s => (mkWS (fst (m (ws_s s))) (ws_log s), snd (m (ws_s s))).
Definition call_user (U : user) (c : ucall) : M wstate (option ref) :=
  fun s => let w := ss_w (ws_s s) in let r := u_code U c w in
    (mkWS (set_ss_w (ws_s s) (fst r)) (ws_log s ++ [mkUE w c (snd r)]), snd r).

Section Wide.
  Variables (env : senv) (U : user).      (* [sv_hooks] and [sv_cb] are not used *)

  (** helpers.py:315-320 with delta = 1 *)
  Definition wide_incr : M wstate unit :=
    ulift (modify (fun s => mkSS (ss_w s) (S (ss_n s)) (ss_action s) (ss_class s) (ss_ctx s))) ;;;
    s <- ulift get_state ;;
    if u_cb U then call_user U (UProgress (ss_n s) (sv_total env)) ;;; ret tt else ret tt.

  (** helpers.py:426-446 *)
  Definition wide_try (dst_model : option ref) (ids attrs : dict val) : M wstate (option ref * (status * string)) :=
    s <- ulift get_state ;;
    m <- match ss_action s with
         | Some ACreate =>
             match dst_model, ss_class s with
             | Some _, _ => raise ObjectNotCreated
             | None, Some c => call_user U (UCreate c ids attrs)
             | None, None => raise ExnAttributeError
             end
         | Some AUpdate =>
             match dst_model with
             | None => raise ObjectNotUpdated
             | Some r => call_user U (UUpdate r ids attrs)
             end
         | Some ADelete =>
             match dst_model with
             | None => raise ObjectNotDeleted
             | Some r => call_user U (UDelete r ids)
             end
         | None => raise ObjectCrudException
         end ;;
    match m with
    | Some r => o <- ulift (slift (hget r)) ;; ret (Some r, get_status o)
    | None => ret (None, (StFailure,
                (class_name s ++ " " ++ action_str (ss_action s) ++ " did not return the model object.")%string))
    end.

  (** helpers.py:409-458 [sync_model] *)
  Definition wide_model (dst_model : option ref) (ids attrs : dict val) : M wstate (bool * option ref) :=
    s <- ulift get_state ;;
    match ss_action s with
    | None =>
        ulift (log_sync_status env None StSuccess "No changes to apply; no action needed") ;;;
        ret (false, dst_model)
    | Some a =>
        r <- try_catch
               (r <- wide_try dst_model ids attrs ;; ret (Some r))
               is_crud
               (fun e =>
                  ulift (log_sync_status env (Some a) StError (exn_msg e)) ;;;
                  if has_flag (sv_flags env) SF_CONTINUE_ON_FAILURE then ret None else raise e) ;;
        match r with
        | None => ret (true, None)
        | Some (m, (st, msg)) =>
            ulift (log_sync_status env (Some a) st msg) ;;;
            ret (true, m)
        end
    end.

  Fixpoint wide_kids (kids : list (option ref -> M wstate bool)) (parent : option ref) (changed : bool) : M wstate bool :=
    match kids with
    | [] => ret changed
    | k :: kids' => b <- k parent ;; wide_kids kids' parent (changed || b)
    end.

  (** helpers.py:335-365: up to the destination's object; the local variables are the identifiers, which are those of the
      element, and what is returned: the object and its two flags *)
  Definition wide_start (e : elem) : M sstate (option ref * (bool * bool)) :=
    ad <- slift (get_adapter (sv_dst env)) ;;
    c <- lift (match dget (ad_classes ad) (e_type e) with
               | Some c => Ok c
               | None => Err ExnAttributeError
               end) ;;
    modify (fun s => mkSS (ss_w s) (ss_n s) (ss_action s) (Some c) (ss_ctx s)) ;;;
    uid <- lift (create_unique_id c (e_keys e)) ;;
    modify (fun s => mkSS (ss_w s) (ss_n s) (e_action e) (ss_class s)
                          (Some (mkCtx (e_action e) (e_type e) uid))) ;;;
    _ <- slift (ad_get_or_none (sv_src env) (MClass c) (IdDict (e_keys e))) ;;
    dst_model <- slift (get_dst_model env c (e_keys e)) ;;
    natural <- slift (model_flag dst_model MF_NATURAL_DELETION_ORDER) ;;
    skip_children <- slift (model_flag dst_model MF_SKIP_CHILDREN_ON_DELETE) ;;
    ret (dst_model, (natural, skip_children)).

  (** helpers.py:335-407 [sync_diff_element] *)
  Definition wide_body (e : elem) (parent : option ref) (kids : list (option ref -> M wstate bool)) : M wstate bool :=
    st <- ulift (wide_start e) ;;
    let dst_model := fst st in let natural := fst (snd st) in let skip_children := snd (snd st) in
    s <- ulift get_state ;;
    (if natural && is_delete (ss_action s) && negb skip_children
     then wide_kids kids dst_model false else ret false) ;;;
    cm <- wide_model dst_model (e_keys e) (match ad_plus (e_attrs_diffs e) with Some p => p | None => [] end) ;;
    match snd cm with
    | None =>
        ulift (slog LWarning None "No object resulted from sync, will not process child objects.") ;;;
        ret (fst cm)
    | Some r =>
        s <- ulift get_state ;;
        stop <- ulift (slift (apply_to_store env (ss_action s) parent r skip_children)) ;;
        if (stop : bool) then ret (fst cm)
        else
          wide_incr ;;;
          s <- ulift get_state ;;
          if negb natural || negb (is_delete (ss_action s))
          then wide_kids kids (Some r) (fst cm)
          else ret (fst cm)
    end.
End Wide.

(** helpers.py:335-407.  [limit]: Python's recursion limit *)
Fixpoint wide_elem (ord : order_fn) (env : senv) (U : user) (limit : nat) (e : elem) (parent : option ref) {struct e} : M wstate bool :=
  match limit with
  | O => raise ExnRecursionError
  | S limit' => wide_body env U e parent (ordered ord (wide_elem ord env U limit') (e_kids e))
  end.

(** helpers.py:322-333 [perform_sync] *)
Definition wide_perform (env : senv) (U : user) (limit : nat) (d : diff) : M wstate bool :=
  wide_kids (ordered (dc_order (d_class d)) (wide_elem (dc_order (d_class d)) env U limit) (d_groups d)) None false.

(** __init__.py:609-620: the synchronisation once there is a diff *)
Definition wide_run (env : senv) (U : user) (limit : nat) (d : diff) : M wstate diff :=
  changed <- wide_perform env U limit d ;;
  (if (changed : bool) then call_user U UComplete ;;; ret tt else ret tt) ;;;
  ret d.
Definition wide_init (w : world) : wstate := mkWS (mkSS w 0 None None None) [].
(** Simplification: the calls of the callback while the diff is calculated are only recorded, as in SyncerDefs *)
Definition wide_sync (fuel limit : nat) (U : user) (dst src : aid) (dc : diffclass) (flags : N) (given : option diff) (w : world)
  : world * list uentry * result diff :=
  let pre := (match given with
              | Some d0 => if diff_truthy given && negb (isinstance d0 dc) then raise DiffClassMismatch else ret tt
              | None => ret tt
              end ;;;
              match given with
              | Some d0 => if diff_truthy given then ret d0 else diff_from fuel dst src dc flags (u_cb U)
              | None => diff_from fuel dst src dc flags (u_cb U)
              end) w in
  match snd pre with
  | Err x => (fst pre, [], Err x)
  | Ok d => let r := wide_run (mkSEnv src dst flags (diff_len d) false default_hooks fuel) U limit d (wide_init (fst pre)) in
            (ss_w (ws_s (fst r)), ws_log (fst r), snd r)
  end.

(** the user code of SyncerDefs *)
Definition user_of (src dst : aid) (h : hooks) (cb : bool) : user :=
  let env := mkSEnv src dst 0 0 cb h 0 in
  mkUser (fun c => match c with
                   | UCreate c ids attrs => call_create env c ids attrs
                   | UUpdate r _ attrs => call_update env r attrs
                   | UDelete r _ => call_delete env r
                   | UProgress n t => emit (EvCallback "sync" n t) ;;; ret None
                   | UComplete => emit (EvSyncComplete src dst) ;;; ret None
                   end) cb.
