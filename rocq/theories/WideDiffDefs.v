(** * WideDiffDefs: DiffSyncDiffer (diffsync/helpers.py:34-281) with user code that may do anything.

    DifferDefs reads each object once, when it is fetched, and its callback only leaves an event.  Here the callback and
    Diff.complete are any programs on the world: they may change any object and adapter and raise anything.  So the objects
    and adapters are read at the places where the code reads them.  [dw_log] records, for the specification only, each call
    of user code with the worlds before and after it and how it ended. *)
From Verif Require Export DifferDefs WideDefs.

(** A call of user code: the callback (helpers.py:67) and Diff.complete (helpers.py:99, diff.py:49-54) *)
Inductive dcall :=
| DProgress (n total : nat)
| DComplete (d : diff).
(** What the code is, and whether a callback was given.  [du_complete] gives the diff as complete() leaves it *)
Record duser := mkDU {
  du_progress : nat -> nat -> M world unit;
  du_complete : diff -> M world diff;
  du_cb : bool
}.
Record dentry := mkDE { de_world : world; de_call : dcall; de_after : world; de_result : result unit }.
Record dwstate := mkDW { dw_w : world; dw_n : nat; dw_log : list dentry }.

(** helpers.py:40-60: what does not change *)
Record wdenv := mkWD { wd_src : aid; wd_dst : aid; wd_flags : N; wd_total : nat }.

Definition rlift {A} (m : M world A) : M dwstate A :=
  fun s => (mkDW (fst (m (dw_w s))) (dw_n s) (dw_log s), snd (m (dw_w s))).
Definition call_duser {A} (c : dcall) (code : M world A) : M dwstate A :=
  fun s => let r := code (dw_w s) in
    (mkDW (fst r) (dw_n s) (dw_log s ++ [mkDE (dw_w s) c (fst r) (match snd r with Ok _ => Ok tt | Err x => Err x end)]), snd r).
Definition oget (o : option ref) : M dwstate (option obj) :=
  match o with None => ret None | Some r => x <- rlift (hget r) ;; ret (Some x) end.

(** helpers.py:114-115 *)
Fixpoint wd_index (l : list ref) (acc : dict ref) : M dwstate (dict ref) :=
  match l with
  | [] => ret acc
  | r :: l' => o <- rlift (hget r) ;; uid <- lift (get_unique_id o) ;; wd_index l' (dset acc uid r)
  end.
(** helpers.py:117-121 *)
Definition pair_refs (ds dd : dict ref) : dict (option ref * option ref) :=
  let c1 := fold_left (fun c uid => dset c uid (dget ds uid, dget dd uid)) (dkeys ds) [] in
  fold_left (fun c uid => dset c uid (dget ds uid, dget dd uid)) (dkeys dd) c1.
(** helpers.py:140-161 *)
Fixpoint wd_validate (l : list (option ref * option ref)) : M dwstate unit :=
  match l with
  | [] => ret tt
  | (so, do) :: l' => s <- oget so ;; d <- oget do ;; lift (validate_pair (s, d)) ;;; wd_validate l'
  end.

Section WideDiff.
  Variables (env : wdenv) (D : duser).

  (** helpers.py:62-67 *)
  Definition wd_incr (delta : nat) : M dwstate unit :=
    match delta with
    | O => ret tt
    | _ =>
        modify (fun s => mkDW (dw_w s) (dw_n s + delta) (dw_log s)) ;;;
        s <- get_state ;;
        if du_cb D then call_duser (DProgress (dw_n s) (wd_total env)) (du_progress D (dw_n s) (wd_total env)) else ret tt
    end.

  (** the recursive call of [diff_object_list] *)
  Variable rec : list ref -> list ref -> M dwstate (list elem).

  (** helpers.py:249-268.  The mappings belong to the classes, the lists are read one by one *)
  Definition wd_mapping (so do : option ref) : M dwstate (dict string) :=
    s <- oget so ;; d <- oget do ;;
    match s, d with
    | Some s, Some d =>
        let sm := get_children_mapping s in
        let dm := get_children_mapping d in
        forM sm (fun tf => if dmem dm (fst tf) then ret tt
                           else x <- oget so ;; n <- lift (match x with Some o => kids_len o (snd tf) | None => Ok 0 end) ;; wd_incr n) ;;;
        forM dm (fun tf => if dmem sm (fst tf) then ret tt
                           else x <- oget do ;; n <- lift (match x with Some o => kids_len o (snd tf) | None => Ok 0 end) ;; wd_incr n) ;;;
        ret (filter (fun tf => dmem dm (fst tf)) sm)
    | Some s, None => ret (get_children_mapping s)
    | None, Some d => ret (get_children_mapping d)
    | None, None => raise ExnTypeError    (* RuntimeError, helpers.py:268; unreachable *)
    end.

  (** helpers.py:275-276 *)
  Definition wd_children (a : aid) (o : option ref) (f t : string) : M dwstate (list ref) :=
    x <- oget o ;;
    match x with
    | None => ret []
    | Some o' => uids <- lift (getattr_kids o' f) ;; rlift (st_get_by_uids a uids (MName t))
    end.

  (** helpers.py:270-279 *)
  Fixpoint wd_child_types (so do : option ref) (mapping : dict string) (gs : dict (dict elem)) : M dwstate (dict (dict elem)) :=
    match mapping with
    | [] => ret gs
    | (t, f) :: mapping' =>
        ss <- wd_children (wd_src env) so f t ;;
        dd <- wd_children (wd_dst env) do f t ;;
        es <- rec ss dd ;;
        gs' <- lift (add_elems gs es) ;;
        wd_child_types so do mapping' gs'
    end.

  (** helpers.py:163-234 with :236-281.  The element has its attributes before the callback is called (:219-227), its
      children afterwards *)
  Definition wd_pair (so do : option ref) : M dwstate (option elem) :=
    s <- oget so ;; d <- oget do ;;
    match (match s with Some s => Some s | None => d end) with
    | None => raise ExnTypeError          (* RuntimeError, helpers.py:184; unreachable *)
    | Some o =>
        _ <- lift (get_unique_id o) ;;
        name <- lift (get_shortname o) ;;
        if skip_pair (wd_flags env) s d then
          wd_incr 1 ;;;
          ret None
        else
          sa <- rlift (get_adapter (wd_src env)) ;;
          da <- rlift (get_adapter (wd_dst env)) ;;
          wd_incr ((if so then 1 else 0) + (if do then 1 else 0)) ;;;
          mapping <- wd_mapping so do ;;
          gs <- wd_child_types so do mapping [] ;;
          ret (Some (mkElem (get_type o) name (get_identifiers o) (ad_name sa) (ad_name da)
                            (option_map get_attrs s) (option_map get_attrs d) gs))
    end.

  (** helpers.py:131-138 *)
  Fixpoint wd_pairs (l : dict (option ref * option ref)) : M dwstate (list elem) :=
    match l with
    | [] => ret []
    | (_, (so, do)) :: l' =>
        e <- wd_pair so do ;;
        es <- wd_pairs l' ;;
        ret (match e with Some e' => e' :: es | None => es end)
    end.

  (** helpers.py:102-138 *)
  Definition wd_body (src dst : list ref) : M dwstate (list elem) :=
    ds <- wd_index src [] ;;
    dd <- wd_index dst [] ;;
    let c := pair_refs ds dd in
    wd_incr ((length src - length c) + (length dst - length c)) ;;;
    wd_validate (dvals c) ;;;
    wd_pairs c.
End WideDiff.

(** helpers.py:102-138.  [limit]: Python's recursion limit *)
Fixpoint wd_list (limit : nat) (env : wdenv) (D : duser) (src dst : list ref) : M dwstate (list elem) :=
  match limit with
  | O => raise ExnRecursionError
  | S limit' => wd_body env D (wd_list limit' env D) src dst
  end.

(** helpers.py:79-86: the types are computed once, the lists of types are read again for each *)
Definition wd_skipped (env : wdenv) (D : duser) (types : list string) : M dwstate unit :=
  forM types (fun t =>
    da <- rlift (get_adapter (wd_dst env)) ;;
    if smem t (ad_top da) then
      l <- rlift (st_get_all (wd_dst env) (MName t)) ;; wd_incr env D (length l)
    else
      sa <- rlift (get_adapter (wd_src env)) ;;
      if smem t (ad_top sa) then
        l <- rlift (st_get_all (wd_src env) (MName t)) ;; wd_incr env D (length l)
      else ret tt).

(** helpers.py:88-95 *)
Fixpoint wd_types (limit : nat) (env : wdenv) (D : duser) (types : list string) (gs : dict (dict elem))
  : M dwstate (dict (dict elem)) :=
  match types with
  | [] => ret gs
  | t :: types' =>
      ss <- rlift (st_get_all (wd_src env) (MName t)) ;;
      dd <- rlift (st_get_all (wd_dst env) (MName t)) ;;
      es <- wd_list limit env D ss dd ;;
      gs' <- lift (add_elems gs es) ;;
      wd_types limit env D types' gs'
  end.

(** helpers.py:69-100 (called once per differ) *)
Definition wd_calculate (limit : nat) (env : wdenv) (D : duser) (dc : diffclass) : M dwstate diff :=
  da <- rlift (get_adapter (wd_dst env)) ;;
  sa <- rlift (get_adapter (wd_src env)) ;;
  wd_skipped env D (symmetric_difference (ad_top da) (ad_top sa)) ;;;
  da <- rlift (get_adapter (wd_dst env)) ;;
  sa <- rlift (get_adapter (wd_src env)) ;;
  gs <- wd_types limit env D (intersection (ad_top da) (ad_top sa)) [] ;;
  s <- get_state ;;
  call_duser (DComplete (mkDiff dc gs (dw_n s))) (du_complete D (mkDiff dc gs (dw_n s))).

(** __init__.py:673-696 [diff_from] ([dst] is self) with helpers.py:40-60 *)
Definition wide_diff (limit : nat) (dst src : aid) (dc : diffclass) (flags : N) (D : duser) : M world (list dentry * result diff) :=
  _ <- get_adapter src ;;
  _ <- get_adapter dst ;;
  fun w =>
    let r := wd_calculate limit (mkWD src dst flags (count_all w src + count_all w dst)) D dc (mkDW w 0 []) in
    (dw_w (fst r), Ok (dw_log (fst r), snd r)).

(** __init__.py:578-620 [sync_from] without a given diff.  The user code of both phases is arbitrary *)
Definition wide_both (limit limit' : nat) (D : duser) (U : user) (dst src : aid) (dc : diffclass) (flags : N) (w : world)
  : world * list dentry * list uentry * result diff :=
  match wide_diff limit dst src dc flags D w with
  | (w1, Ok (l, Ok d)) =>
      let r := wide_run (mkSEnv src dst flags (diff_len d) false default_hooks limit') U limit' d (wide_init w1) in
      (ss_w (ws_s (fst r)), l, ws_log (fst r), snd r)
  | (w1, Ok (l, Err x)) => (w1, l, [], Err x)
  | (w1, Err x) => (w1, [], [], Err x)
  end.
