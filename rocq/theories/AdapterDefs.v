(** * AdapterDefs: Adapter.dict, load_from_dict, tree traversal (diffsync/__init__.py, utils.py). *)
From Verif Require Export StoreDefs.

(** ** dict and load_from_dict *)

(** [obj.dict(exclude_defaults=...)], __init__.py:169-173: one flat Python dict,
    kept in three parts as in [obj] ([du_flags] is the "model_flags" entry). *)
Record dump := mkDump {
  du_vals : dict val;
  du_kids : dict (list string);
  du_flags : option N
}.

(** The default of a plain field *)
Fixpoint field_default (fs : list (string * option val)) (k : string) : option val :=
  match fs with
  | [] => None
  | (k', d) :: fs' => if String.eqb k k' then d else field_default fs' k
  end.

(** pydantic model_dump: exclude_defaults drops the fields equal to their default *)
Definition obj_dump (exclude_defaults : bool) (o : obj) : dump :=
  if exclude_defaults then
    mkDump (filter (fun kv => match field_default (c_fields (o_cls o)) (fst kv) with
                              | Some d => negb (py_eq (snd kv) d)
                              | None => true
                              end) (o_vals o))
           (filter (fun kv => match snd kv with [] => false | _ => true end) (o_kids o))
           (if N.eqb (o_flags o) (c_flags (o_cls o)) then None else Some (o_flags o))
  else mkDump (o_vals o) (o_kids o) (Some (o_flags o)).

(** __init__.py:541-542 *)
Fixpoint dump_objects (excl : bool) (os : list obj) (data : dict (dict dump)) : result (dict (dict dump)) :=
  match os with
  | [] => Ok data
  | o :: os' =>
      rbind (dict_item data (get_type o)) (fun b =>
      rbind (get_unique_id o) (fun uid =>
      dump_objects excl os' (dset data (get_type o) (dset b uid (obj_dump excl o)))))
  end.

(** __init__.py:539-543 *)
Fixpoint dump_names (a : aid) (excl : bool) (names : list string) (data : dict (dict dump))
  : M world (dict (dict dump)) :=
  match names with
  | [] => ret data
  | n :: names' =>
      rs <- st_get_all a (MName n) ;;
      os <- mapM hget rs ;;
      data' <- lift (dump_objects excl os (dset data n [])) ;;
      dump_names a excl names' data'
  end.

(** __init__.py:536-543 [Adapter.dict] *)
Definition ad_dict (a : aid) (excl : bool) : M world (dict (dict dump)) :=
  names <- st_get_all_model_names a ;;
  dump_names a excl names [].

(** __init__.py:512-530 [_get_initial_value_order]: top_level, then the other
    model attributes in the (sorted) order of [dir(cls)] *)
Definition initial_value_order (top : list string) (classes : dict cls) : list string :=
  top ++ filter (fun n => negb (smem n top)) (ssort (sdedup (dkeys classes))).

(** [model_class( **values)] *)
Definition load_obj (c : cls) (d : dump) : result obj :=
  instantiate c (du_vals d) (du_kids d) (du_flags d) None.

(** __init__.py:561-571 [load_from_dict] *)
Definition load_from_dict (a : aid) (data : dict (dict dump)) : M world unit :=
  ad <- get_adapter a ;;
  forM (initial_value_order (ad_top ad) (ad_classes ad)) (fun field_name =>
    c <- lift (match dget (ad_classes ad) field_name with
               | Some c => Ok c
               | None => Err ExnAttributeError
               end) ;;
    forM (dvals (match dget data field_name with Some b => b | None => [] end)) (fun values =>
      o <- lift (load_obj c values) ;;
      r <- halloc o ;;
      st_add a r)).

(** ** Tree traversal *)

(** A nested dictionary whose leaves are empty dictionaries *)
Inductive ntree := NT (kids : dict ntree).
Definition nt_kids (t : ntree) : dict ntree := match t with NT k => k end.

(** utils.py:80-84 [set_key] *)
Fixpoint set_key (data : dict ntree) (keys : list string) : dict ntree :=
  match keys with
  | [] => data
  | k :: keys' =>
      dset data k (NT (set_key (match dget data k with Some t => nt_kids t | None => [] end) keys'))
  end.

(** utils.py:87-96 [get_path] *)
Fixpoint get_path_tree (t : ntree) (v : string) : option (list string) :=
  match t with
  | NT kids =>
      (fix go (l : dict ntree) : option (list string) :=
         match l with
         | [] => None
         | (k, t') :: l' =>
             if String.eqb k v then Some [k]
             else match get_path_tree t' v with
                  | Some p => Some (k :: p)
                  | None => go l'
                  end
         end) kids
  end.
Definition get_path (d : dict ntree) (v : string) : option (list string) := get_path_tree (NT d) v.

(** __init__.py:806-815, one model: first its own key ... *)
Definition traverse_own (out : dict ntree) (key : string) : dict ntree :=
  match get_path out key with Some (_ :: _) => out | _ => set_key out [key] end.
(** ... then its children *)
Definition traverse_child (key : string) (out : dict ntree) (child : string) : dict ntree :=
  set_key out ((match get_path out key with Some (x :: p) => x :: p | _ => [key] end) ++ [child]).
Definition traverse_model (classes : dict cls) (out : dict ntree) (key : string) : dict ntree :=
  let out := traverse_own out key in
  match dget classes key with
  | Some c => fold_left (traverse_child key) (dkeys (c_children c)) out
  | None => out
  end.

(** __init__.py:794-818 [get_tree_traversal(as_dict=True)] *)
Definition tree_traversal (top : list string) (classes : dict cls) : dict ntree :=
  fold_left (traverse_model classes) (initial_value_order top classes) [].

(** utils.py:59-72 [_tree]; TEE/LAST/BRANCH/SPACE are utils.py:21-24 *)
Definition SPACE : string := "    ".
Definition BRANCH : string := "│   ".
Definition TEE : string := "├── ".
Definition LAST : string := "└── ".
Fixpoint tree_lines (t : ntree) (prefix : string) {struct t} : list string :=
  match t with
  | NT kids =>
      (fix go (l : dict ntree) : list string :=
         match l with
         | [] => []
         | (k, t') :: l' =>
             let last := match l' with [] => true | _ => false end in
             (prefix ++ (if last then LAST else TEE) ++ k)%string
             :: tree_lines t' (prefix ++ (if last then SPACE else BRANCH))%string
             ++ go l'
         end) kids
  end.
(** utils.py:75-77 [tree_string]: the lines joined by newlines *)
Definition tree_string (data : dict ntree) (root : string) : string :=
  join newline (root :: tree_lines (NT data) "").
