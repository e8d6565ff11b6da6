(** * GatherSpec: records that are loaded with get_or_instantiate or update_or_instantiate.

    Vocabulary for C88; records are those of RowSpec. *)
From Verif Require Export RowSpec.

(** a record's keywords, divided into identifiers and the rest *)
Definition ids_of (c : cls) (kw : dict val) : dict val := filter (fun kv => smem (fst kv) (c_identifiers c)) kw.
Definition rest_of (c : cls) (kw : dict val) : dict val := filter (fun kv => negb (smem (fst kv) (c_identifiers c))) kw.

(** examples/04-get-update-instantiate/backends.py:89-105, 119-135 [load]: for each record the object is got
    or instantiated, in the one variant also updated; only if it was instantiated it is added to the
    children of its parent.  The example has the parent in a variable; here it is got from the adapter. *)
Definition gather_row (upd : bool) (a : aid) (x : row) : M world unit :=
  ad <- get_adapter a ;;
  match dget (ad_classes ad) (r_type x) with
  | None => raise ExnAttributeError
  | Some c =>
      rb <- (if upd then st_update_or_instantiate else st_get_or_instantiate) a c (ids_of c (r_kw x)) (rest_of c (r_kw x)) ;;
      if snd rb then
        match r_parent x with
        | None => ret tt
        | Some p =>
            pr <- st_get a (MName (fst p)) (IdStr (snd p)) ;;
            parent <- hget pr ;;
            child <- hget (fst rb) ;;
            parent' <- lift (add_child parent child) ;;
            hset pr parent'
        end
      else ret tt
  end.
Fixpoint gather (upd : bool) (a : aid) (rows : list row) : M world unit :=
  match rows with
  | [] => ret tt
  | x :: rows' => gather_row upd a x ;;; gather upd a rows'
  end.

(** ** What the records say together *)

Definition same_key (cs : dict cls) (x y : row) : bool :=
  String.eqb (fst (row_key cs x)) (fst (row_key cs y)) && String.eqb (snd (row_key cs x)) (snd (row_key cs y)).
(** the records without those that have the type and unique id of one before them *)
Fixpoint firsts (cs : dict cls) (seen rows : list row) : list row :=
  match rows with
  | [] => []
  | x :: rows' => if existsb (same_key cs x) seen then firsts cs seen rows' else x :: firsts cs (seen ++ [x]) rows'
  end.
(** the value of a field after the keywords [kw]: a value that is given replaces the one before unless they compare equal *)
Definition renew (c : cls) (kw : dict val) (v : option val) (f : string) : option val :=
  match dget (rest_of c kw) f with
  | None => v
  | Some v' => match v with
               | Some v0 => if py_eq v0 v' then v else Some v'
               | None => Some v'
               end
  end.
(** the value of a field of the object: that of the first record, then those of the records with its type and unique
    id, in their order *)
Definition latest (cs : dict cls) (c : cls) (rows : list row) (x : row) (f : string) : option val :=
  fold_left (fun v y => if same_key cs x y then renew c (r_kw y) v f else v) rows (value_in c (r_kw x) f).

(** the records that [load] would need for the same data: the first of each type and unique id, in the one variant with
    the latest values *)
Definition settle (cs : dict cls) (rows : list row) (x : row) : row :=
  match dget cs (r_type x) with
  | None => x
  | Some c => mkRow (r_type x) (flat_map (fun f => match latest cs c rows x f with Some v => [(f, v)] | None => [] end) (dkeys (c_fields c))) (r_parent x)
  end.
Definition gathered (upd : bool) (cs : dict cls) (rows : list row) : list row :=
  if upd then map (settle cs rows) (firsts cs [] rows) else firsts cs [] rows.

(** ** Conditions on the records *)

(** each record gives all identifiers and no field twice *)
Definition gives_ids (cs : dict cls) (rows : list row) : Prop :=
  forall x c, In x rows -> dget cs (r_type x) = Some c -> NoDup (dkeys (r_kw x)) /\ forall f, In f (c_identifiers c) -> dget (r_kw x) f <> None.
(** ... and nothing but fields *)
Definition gives_fields (cs : dict cls) (rows : list row) : Prop :=
  forall x c f, In x rows -> dget cs (r_type x) = Some c -> In f (dkeys (r_kw x)) -> In f (dkeys (c_fields c)).
