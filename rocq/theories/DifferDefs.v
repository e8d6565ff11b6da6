(** * DifferDefs: DiffSyncDiffer (diffsync/helpers.py:34-281), Adapter.diff_from/diff_to. *)
From Verif Require Export StoreDefs DiffDefs.

(** State of a running calculation: the world and [self.models_processed]
    (helpers.py:58). *)
Record dstate := mkDS { ds_w : world; ds_n : nat }.

(** What does not change during a calculation (helpers.py:40-60).  The adapter
    names (helpers.py:216-217) are read once at the start. *)
Record denv := mkEnv {
  en_src : aid;
  en_dst : aid;
  en_flags : N;
  en_total : nat;
  en_cb : bool;        (* a callback was given *)
  en_sname : string;
  en_dname : string
}.

Definition dlift {A} (m : M world A) : M dstate A :=
  fun s => (mkDS (fst (m (ds_w s))) (ds_n s), snd (m (ds_w s))).

(** helpers.py:62-67.  Simplification: the callback itself does not raise. *)
Definition incr_models_processed (env : denv) (delta : nat) : M dstate unit :=
  fun s =>
    match delta with
    | O => (s, Ok tt)
    | _ =>
        let n := ds_n s + delta in
        (mkDS (if en_cb env then add_event (ds_w s) (EvCallback "diff" n (en_total env)) else ds_w s) n,
         Ok tt)
    end.

(** Objects as they stand when the lists are built; nothing changes them while
    the diff is calculated (theorem C08). *)
Definition fetch_all (a : aid) (t : string) : M dstate (list obj) :=
  rs <- dlift (st_get_all a (MName t)) ;;
  dlift (mapM hget rs).
Definition fetch_by_uids (a : aid) (uids : list string) (t : string) : M dstate (list obj) :=
  rs <- dlift (st_get_by_uids a uids (MName t)) ;;
  dlift (mapM hget rs).

(** helpers.py:114-115 [{item.get_unique_id(): item for item in l}] *)
Fixpoint index_by_uid (l : list obj) (acc : dict obj) : result (dict obj) :=
  match l with
  | [] => Ok acc
  | o :: l' => rbind (get_unique_id o) (fun uid => index_by_uid l' (dset acc uid o))
  end.

(** helpers.py:117-121 [combined_dict] *)
Definition pair_up (ds dd : dict obj) : dict (option obj * option obj) :=
  let c1 := fold_left (fun c uid => dset c uid (dget ds uid, dget dd uid)) (dkeys ds) [] in
  fold_left (fun c uid => dset c uid (dget ds uid, dget dd uid)) (dkeys dd) c1.

(** helpers.py:155-161, one pair *)
Definition validate_pair (p : option obj * option obj) : result unit :=
  match p with
  | (Some s, Some d) =>
      if negb (String.eqb (get_type s) (get_type d)) then Err ExnTypeError
      else rbind (get_shortname s) (fun ns => rbind (get_shortname d) (fun nd =>
           if negb (String.eqb ns nd) then Err ExnValueError
           else if negb (dict_eq (get_identifiers s) (get_identifiers d)) then Err ExnValueError
           else Ok tt))
  | _ => Ok tt
  end.

(** helpers.py:140-161 [validate_objects_for_diff] *)
Fixpoint validate_pairs (l : list (option obj * option obj)) : result unit :=
  match l with
  | [] => Ok tt
  | p :: l' => rbind (validate_pair p) (fun _ => validate_pairs l')
  end.

(** helpers.py:187-210: is the pair skipped because of flags? *)
Definition skip_pair (flags : N) (so do : option obj) : bool :=
  match so, do with
  | Some s, None => has_flag flags SF_SKIP_UNMATCHED_SRC
                    || has_flag (o_flags s) MF_SKIP_UNMATCHED_SRC
                    || has_flag (o_flags s) MF_IGNORE
  | None, Some d => has_flag flags SF_SKIP_UNMATCHED_DST
                    || has_flag (o_flags d) MF_SKIP_UNMATCHED_DST
                    || has_flag (o_flags d) MF_IGNORE
  | Some s, Some d => has_flag (o_flags s) MF_IGNORE || has_flag (o_flags d) MF_IGNORE
  | None, None => false
  end.

(** helpers.py:249-268: the child types to visit with the field name used for
    both objects, and the numbers of children of the types present on one side
    only, in the order in which they are counted. *)
Definition kids_len (o : obj) (f : string) : result nat :=
  rbind (getattr_kids o f) (fun l => Ok (length l)).

Section Rec.
  Variable env : denv.
  (** the recursive call of [diff_object_list] *)
  Variable rec : list obj -> list obj -> M dstate (list elem).

  (** helpers.py:249-268 *)
  Definition children_mapping (so do : option obj) : M dstate (dict string) :=
    match so, do with
    | Some s, Some d =>
        let sm := get_children_mapping s in
        let dm := get_children_mapping d in
        forM sm (fun tf => if dmem dm (fst tf) then ret tt
                           else n <- lift (kids_len s (snd tf)) ;; incr_models_processed env n) ;;;
        forM dm (fun tf => if dmem sm (fst tf) then ret tt
                           else n <- lift (kids_len d (snd tf)) ;; incr_models_processed env n) ;;;
        ret (filter (fun tf => dmem dm (fst tf)) sm)
    | Some s, None => ret (get_children_mapping s)
    | None, Some d => ret (get_children_mapping d)
    | None, None => raise ExnTypeError    (* RuntimeError, helpers.py:268; unreachable *)
    end.

  (** helpers.py:275-276: the children of [o], if any.  Simplification: a field
      that holds no list of child ids counts as missing. *)
  Definition fetch_children (a : aid) (o : option obj) (f t : string) : M dstate (list obj) :=
    match o with
    | None => ret []
    | Some o' => uids <- lift (getattr_kids o' f) ;; fetch_by_uids a uids t
    end.

  (** [for e in elements: diff_element.add_child(e)] *)
  Fixpoint add_elems (gs : dict (dict elem)) (l : list elem) : result (dict (dict elem)) :=
    match l with
    | [] => Ok gs
    | e :: l' => rbind (groups_add gs e) (fun gs' => add_elems gs' l')
    end.

  (** helpers.py:270-279 *)
  Fixpoint diff_child_types (so do : option obj) (mapping : dict string) (gs : dict (dict elem))
    : M dstate (dict (dict elem)) :=
    match mapping with
    | [] => ret gs
    | (t, f) :: mapping' =>
        ss <- fetch_children (en_src env) so f t ;;
        dd <- fetch_children (en_dst env) do f t ;;
        es <- rec ss dd ;;
        gs' <- lift (add_elems gs es) ;;
        diff_child_types so do mapping' gs'
    end.

  (** helpers.py:163-234 [diff_object_pair] with :236-281 [diff_child_objects] *)
  Definition diff_object_pair (so do : option obj) : M dstate (option elem) :=
    match (match so with Some s => Some s | None => do end) with
    | None => raise ExnTypeError          (* RuntimeError, helpers.py:184; unreachable *)
    | Some o =>
        _ <- lift (get_unique_id o) ;;
        name <- lift (get_shortname o) ;;
        if skip_pair (en_flags env) so do then
          incr_models_processed env 1 ;;;
          ret None
        else
          incr_models_processed env ((if so then 1 else 0) + (if do then 1 else 0)) ;;;
          mapping <- children_mapping so do ;;
          gs <- diff_child_types so do mapping [] ;;
          ret (Some (mkElem (get_type o) name (get_identifiers o) (en_sname env) (en_dname env)
                            (option_map get_attrs so) (option_map get_attrs do) gs))
    end.

  (** helpers.py:131-138 *)
  Fixpoint diff_pairs (l : dict (option obj * option obj)) : M dstate (list elem) :=
    match l with
    | [] => ret []
    | (_, (so, do)) :: l' =>
        e <- diff_object_pair so do ;;
        es <- diff_pairs l' ;;
        ret (match e with Some e' => e' :: es | None => es end)
    end.

  (** helpers.py:102-138 [diff_object_list] *)
  Definition diff_list_body (src dst : list obj) : M dstate (list elem) :=
    ds <- lift (index_by_uid src []) ;;
    dd <- lift (index_by_uid dst []) ;;
    let c := pair_up ds dd in
    incr_models_processed env ((length src - length c) + (length dst - length c)) ;;;
    lift (validate_pairs (dvals c)) ;;;
    diff_pairs c.
End Rec.

(** helpers.py:102-138.  Fuel: Python's recursion limit. *)
Fixpoint diff_object_list (fuel : nat) (env : denv) (src dst : list obj) : M dstate (list elem) :=
  match fuel with
  | O => raise ExnRecursionError
  | S fuel' => diff_list_body env (diff_object_list fuel' env) src dst
  end.

(** helpers.py:82-86 *)
Definition count_skipped (env : denv) (dtop stop : list string) : M dstate unit :=
  forM (symmetric_difference dtop stop) (fun t =>
    if smem t dtop then
      l <- fetch_all (en_dst env) t ;; incr_models_processed env (length l)
    else if smem t stop then
      l <- fetch_all (en_src env) t ;; incr_models_processed env (length l)
    else ret tt).

(** helpers.py:88-95 *)
Fixpoint diff_types (fuel : nat) (env : denv) (types : list string) (gs : dict (dict elem))
  : M dstate (dict (dict elem)) :=
  match types with
  | [] => ret gs
  | t :: types' =>
      ss <- fetch_all (en_src env) t ;;
      dd <- fetch_all (en_dst env) t ;;
      es <- diff_object_list fuel env ss dd ;;
      gs' <- lift (add_elems gs es) ;;
      diff_types fuel env types' gs'
  end.

(** helpers.py:69-100 [calculate_diffs] (called once per differ) *)
Definition calculate_diffs (fuel : nat) (env : denv) (dc : diffclass) (dtop stop : list string)
  : M dstate diff :=
  count_skipped env dtop stop ;;;
  gs <- diff_types fuel env (intersection dtop stop) [] ;;
  s <- get_state ;;
  ret (mkDiff dc gs (ds_n s)).

(** __init__.py:673-696 [diff_from] ([dst] is self) with helpers.py:40-60 *)
Definition diff_from (fuel : nat) (dst src : aid) (dc : diffclass) (flags : N) (cb : bool) : M world diff :=
  sa <- get_adapter src ;;
  da <- get_adapter dst ;;
  w <- get_state ;;
  let env := mkEnv src dst flags (count_all w src + count_all w dst) cb (ad_name sa) (ad_name da) in
  fun w => let r := calculate_diffs fuel env dc (ad_top da) (ad_top sa) (mkDS w 0) in
           (ds_w (fst r), snd r).

(** __init__.py:698-714 [diff_to] ([src] is self) *)
Definition diff_to (fuel : nat) (src target : aid) (dc : diffclass) (flags : N) (cb : bool) : M world diff :=
  diff_from fuel target src dc flags cb.
