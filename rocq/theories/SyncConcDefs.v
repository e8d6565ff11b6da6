(** * SyncConcDefs: diff_from and sync_from as sequences of Redis commands.

    As ConcDefs.v for the store methods: the definitions of DifferDefs.v and SyncerDefs.v (same citations), with the
    store methods issuing their commands one at a time.  What issues none is taken from there. *)
From Verif Require Export ConcDefs SyncerDefs.

(** ** The differ *)
Definition cdlift {A} (c : CM A) : SM dstate A :=
  fun s => cthen (c (ds_w s)) (fun wx => Done (mkDS (fst wx) (ds_n s), snd wx)).
Definition c_fetch_all (a : aid) (t : string) : SM dstate (list obj) :=
  cbind (cdlift (c_get_all a (MName t))) (fun rs => here (dlift (mapM hget rs))).
Definition c_fetch_by_uids (a : aid) (uids : list string) (t : string) : SM dstate (list obj) :=
  cbind (cdlift (c_get_by_uids a uids (MName t))) (fun rs => here (dlift (mapM hget rs))).

Section Rec.
  Variable env : denv.
  Variable rec : list obj -> list obj -> SM dstate (list elem).

  (** helpers.py:275-276 *)
  Definition c_fetch_children (a : aid) (o : option obj) (f t : string) : SM dstate (list obj) :=
    match o with
    | None => here (ret [])
    | Some o' => cbind (here (lift (getattr_kids o' f))) (fun uids => c_fetch_by_uids a uids t)
    end.
  (** helpers.py:270-279 *)
  Fixpoint c_diff_child_types (so do : option obj) (mapping : dict string) (gs : dict (dict elem))
    : SM dstate (dict (dict elem)) :=
    match mapping with
    | [] => here (ret gs)
    | (t, f) :: mapping' =>
        cbind (c_fetch_children (en_src env) so f t) (fun ss =>
        cbind (c_fetch_children (en_dst env) do f t) (fun dd =>
        cbind (rec ss dd) (fun es =>
        cbind (here (lift (add_elems gs es))) (fun gs' =>
        c_diff_child_types so do mapping' gs'))))
    end.
  (** helpers.py:163-234 [diff_object_pair] with :236-281 [diff_child_objects] *)
  Definition c_diff_object_pair (so do : option obj) : SM dstate (option elem) :=
    match (match so with Some s => Some s | None => do end) with
    | None => here (raise ExnTypeError)
    | Some o =>
        cbind (here (lift (get_unique_id o))) (fun _ =>
        cbind (here (lift (get_shortname o))) (fun name =>
        if skip_pair (en_flags env) so do then
          cbind (here (incr_models_processed env 1)) (fun _ => here (ret None))
        else
          cbind (here (incr_models_processed env ((if so then 1 else 0) + (if do then 1 else 0)))) (fun _ =>
          cbind (here (children_mapping env so do)) (fun mapping =>
          cbind (c_diff_child_types so do mapping []) (fun gs =>
          here (ret (Some (mkElem (get_type o) name (get_identifiers o) (en_sname env) (en_dname env)
                                  (option_map get_attrs so) (option_map get_attrs do) gs))))))))
    end.
  (** helpers.py:131-138 *)
  Fixpoint c_diff_pairs (l : dict (option obj * option obj)) : SM dstate (list elem) :=
    match l with
    | [] => here (ret [])
    | (_, (so, do)) :: l' =>
        cbind (c_diff_object_pair so do) (fun e =>
        cbind (c_diff_pairs l') (fun es =>
        here (ret (match e with Some e' => e' :: es | None => es end))))
    end.
  (** helpers.py:102-138 [diff_object_list] *)
  Definition c_diff_list_body (src dst : list obj) : SM dstate (list elem) :=
    cbind (here (lift (index_by_uid src []))) (fun ds =>
    cbind (here (lift (index_by_uid dst []))) (fun dd =>
    let c := pair_up ds dd in
    cbind (here (incr_models_processed env ((length src - length c) + (length dst - length c)))) (fun _ =>
    cbind (here (lift (validate_pairs (dvals c)))) (fun _ =>
    c_diff_pairs c)))).
End Rec.
Fixpoint c_diff_object_list (fuel : nat) (env : denv) (src dst : list obj) : SM dstate (list elem) :=
  match fuel with
  | O => here (raise ExnRecursionError)
  | S fuel' => c_diff_list_body env (c_diff_object_list fuel' env) src dst
  end.
(** helpers.py:82-86 *)
Definition c_count_skipped (env : denv) (dtop stop : list string) : SM dstate unit :=
  cforM (symmetric_difference dtop stop) (fun t =>
    if smem t dtop then
      cbind (c_fetch_all (en_dst env) t) (fun l => here (incr_models_processed env (length l)))
    else if smem t stop then
      cbind (c_fetch_all (en_src env) t) (fun l => here (incr_models_processed env (length l)))
    else here (ret tt)).
(** helpers.py:88-95 *)
Fixpoint c_diff_types (fuel : nat) (env : denv) (types : list string) (gs : dict (dict elem))
  : SM dstate (dict (dict elem)) :=
  match types with
  | [] => here (ret gs)
  | t :: types' =>
      cbind (c_fetch_all (en_src env) t) (fun ss =>
      cbind (c_fetch_all (en_dst env) t) (fun dd =>
      cbind (c_diff_object_list fuel env ss dd) (fun es =>
      cbind (here (lift (add_elems gs es))) (fun gs' =>
      c_diff_types fuel env types' gs'))))
  end.
(** helpers.py:69-100 [calculate_diffs] *)
Definition c_calculate_diffs (fuel : nat) (env : denv) (dc : diffclass) (dtop stop : list string) : SM dstate diff :=
  cbind (c_count_skipped env dtop stop) (fun _ =>
  cbind (c_diff_types fuel env (intersection dtop stop) []) (fun gs =>
  here (s <- get_state ;; ret (mkDiff dc gs (ds_n s))))).
(** __init__.py:673-696 [diff_from] with helpers.py:40-60: both adapters are counted first *)
Definition c_diff_from (fuel : nat) (dst src : aid) (dc : diffclass) (flags : N) (cb : bool) : CM diff :=
  cbind (here (get_adapter src)) (fun sa =>
  cbind (here (get_adapter dst)) (fun da =>
  cbind (c_count_all src) (fun n =>
  cbind (c_count_all dst) (fun m =>
  let env := mkEnv src dst flags (n + m) cb (ad_name sa) (ad_name da) in
  fun w => cthen (c_calculate_diffs fuel env dc (ad_top da) (ad_top sa) (mkDS w 0)) (fun r => Done (ds_w (fst r), snd r)))))).

(** ** The syncer *)
Definition cslift {A} (c : CM A) : SM sstate A :=
  fun s => cthen (c (ss_w s)) (fun wx => Done (set_ss_w s (fst wx), snd wx)).
Fixpoint c_run_kids (kids : list (option ref -> SM sstate bool)) (parent : option ref) (changed : bool) : SM sstate bool :=
  match kids with
  | [] => here (ret changed)
  | k :: kids' => cbind (k parent) (fun b => c_run_kids kids' parent (changed || b))
  end.
(** helpers.py:360-365 *)
Definition c_get_dst_model (env : senv) (c : cls) (ids : dict val) : CM (option ref) :=
  ctry
    (cbind (c_get (sv_dst env) (MClass c) (IdDict ids)) (fun r =>
     cbind (here (mutate r (fun o => (set_status o StUnknown "", Ok tt)))) (fun _ =>
     here (ret (Some r)))))
    is_not_found
    (fun _ => here (ret None)).
(** helpers.py:388-399 *)
Definition c_apply_to_store (env : senv) (a : option action) (parent : option ref) (r : ref) (skip_children : bool) : CM bool :=
  match a with
  | Some ACreate =>
      cbind (here (match parent with Some p => heap_add_child p r | None => ret tt end)) (fun _ =>
      cbind (c_add (sv_dst env) r) (fun _ =>
      here (ret false)))
  | Some ADelete =>
      cbind (here (match parent with Some p => heap_remove_child p r | None => ret tt end)) (fun _ =>
      cbind (c_remove (sv_fuel env) (sv_dst env) r skip_children) (fun _ =>
      here (ret skip_children)))
  | _ => here (ret false)
  end.
(** helpers.py:335-407 [sync_diff_element] *)
Definition c_sync_body (env : senv) (e : elem) (parent : option ref)
           (kids : list (option ref -> SM sstate bool)) : SM sstate bool :=
  cbind (here (slift (get_adapter (sv_dst env)))) (fun ad =>
  cbind (here (lift (match dget (ad_classes ad) (e_type e) with
                     | Some c => Ok c
                     | None => Err ExnAttributeError
                     end))) (fun c =>
  cbind (here (modify (fun s => mkSS (ss_w s) (ss_n s) (ss_action s) (Some c) (ss_ctx s)))) (fun _ =>
  cbind (here (lift (create_unique_id c (e_keys e)))) (fun uid =>
  cbind (here (modify (fun s => mkSS (ss_w s) (ss_n s) (e_action e) (ss_class s)
                                     (Some (mkCtx (e_action e) (e_type e) uid))))) (fun _ =>
  let ids := e_keys e in
  let attrs := match ad_plus (e_attrs_diffs e) with Some p => p | None => [] end in
  cbind (cslift (c_get_or_none (sv_src env) (MClass c) (IdDict ids))) (fun _ =>
  cbind (cslift (c_get_dst_model env c ids)) (fun dst_model =>
  cbind (here (slift (model_flag dst_model MF_NATURAL_DELETION_ORDER))) (fun natural =>
  cbind (here (slift (model_flag dst_model MF_SKIP_CHILDREN_ON_DELETE))) (fun skip_children =>
  cbind (here get_state) (fun s =>
  cbind (if natural && is_delete (ss_action s) && negb skip_children
         then c_run_kids kids dst_model false else here (ret false)) (fun _ =>
  cbind (here (sync_model env dst_model ids attrs)) (fun cm =>
  match snd cm with
  | None =>
      here (slog LWarning None "No object resulted from sync, will not process child objects." ;;;
            ret (fst cm))
  | Some r =>
      cbind (here get_state) (fun s =>
      cbind (cslift (c_apply_to_store env (ss_action s) parent r skip_children)) (fun stop =>
      if (stop : bool) then here (ret (fst cm))
      else
        cbind (here (incr_elements_processed env)) (fun _ =>
        if negb natural || negb (is_delete (ss_action s))
        then c_run_kids kids (Some r) (fst cm)
        else here (ret (fst cm)))))
  end)))))))))))).
Fixpoint c_sync_elem (ord : order_fn) (env : senv) (e : elem) (parent : option ref) {struct e} : SM sstate bool :=
  c_sync_body env e parent (ordered ord (c_sync_elem ord env) (e_kids e)).
(** helpers.py:322-333 [perform_sync] *)
Definition c_perform_sync (env : senv) (d : diff) : SM sstate bool :=
  c_run_kids (ordered (dc_order (d_class d)) (c_sync_elem (dc_order (d_class d)) env) (d_groups d)) None false.
(** __init__.py:609-620 *)
Definition c_run_sync (env : senv) (d : diff) : CM diff :=
  cbind (fun w => cthen (c_perform_sync env d (mkSS w 0 None None None)) (fun r => Done (ss_w (fst r), snd r))) (fun changed =>
  here ((if (changed : bool) then emit (EvSyncComplete (sv_src env) (sv_dst env)) else ret tt) ;;;
        ret d)).
(** __init__.py:577-620 [sync_from] *)
Definition c_sync_from (fuel : nat) (h : hooks) (dst src : aid) (dc : diffclass) (flags : N) (cb : bool)
           (given : option diff) : CM diff :=
  cbind (here (match given with
               | Some d0 => if diff_truthy given && negb (isinstance d0 dc) then raise DiffClassMismatch else ret tt
               | None => ret tt
               end)) (fun _ =>
  cbind (match given with
         | Some d0 => if diff_truthy given then here (ret d0) else c_diff_from fuel dst src dc flags cb
         | None => c_diff_from fuel dst src dc flags cb
         end) (fun d =>
  c_run_sync (mkSEnv src dst flags (diff_len d) cb h fuel) d)).
