(** * RowSpec: adapters that are filled from records.

    Vocabulary for C75: the data as plain records, the [load] method the documentation shows, and
    conditions that speak of nothing but the records and the classes. *)
From Verif Require Export CopySpec.

(** a record: the type and the keywords of the model, and whose child it is *)
Record row := mkRow { r_type : string; r_kw : dict val; r_parent : option (string * string) }.

(** examples/01-multiple-data-sources/backend_a.py:49-66 [load]: for each record the model is
    instantiated, added to the adapter and added to the children of its parent.  The example has
    the parent in a variable; here it is got from the adapter. *)
Definition load_row (a : aid) (x : row) : M world unit :=
  ad <- get_adapter a ;;
  match dget (ad_classes ad) (r_type x) with
  | None => raise ExnAttributeError
  | Some c =>
      o <- lift (instantiate c (r_kw x) [] None None) ;;
      r <- halloc o ;;
      st_add a r ;;;
      match r_parent x with
      | None => ret tt
      | Some p =>
          pr <- st_get a (MName (fst p)) (IdStr (snd p)) ;;
          parent <- hget pr ;;
          child <- hget r ;;
          parent' <- lift (add_child parent child) ;;
          hset pr parent'
      end
  end.
Fixpoint load (a : aid) (rows : list row) : M world unit :=
  match rows with
  | [] => ret tt
  | x :: rows' => load_row a x ;;; load a rows'
  end.

(** ** What the records say *)

(** the value of a field: the keyword, else the default *)
Definition value_in (c : cls) (kw : dict val) (f : string) : option val :=
  match dget kw f with
  | Some v => Some v
  | None => match dget (c_fields c) f with Some dv => dv | None => None end
  end.
Definition text_in (c : cls) (kw : dict val) (f : string) : string :=
  match value_in c kw f with Some v => py_str v | None => "" end.
(** the type and unique id of the record's object, and its name among its siblings *)
Definition row_key (cs : dict cls) (x : row) : string * string :=
  (r_type x, match dget cs (r_type x) with
             | Some c => join "__" (map (text_in c (r_kw x)) (c_identifiers c))
             | None => ""%string
             end).
Definition row_name (cs : dict cls) (x : row) : string :=
  match dget cs (r_type x) with
  | Some c => match c_shortname c with
              | [] => snd (row_key cs x)
              | ks => join "__" (map (text_in c (r_kw x)) ks)
              end
  | None => ""%string
  end.
(** the unique ids of the records of a type whose parent is [k], in the order of the records *)
Definition is_parent (k : string * string) (x : row) : bool :=
  match r_parent x with Some p => String.eqb (fst p) (fst k) && String.eqb (snd p) (snd k) | None => false end.
Definition row_kids (cs : dict cls) (rows : list row) (k : string * string) (t : string) : list string :=
  map (fun x => snd (row_key cs x)) (filter (fun x => is_parent k x && String.eqb (r_type x) t) rows).

(** ** Conditions on the records *)

(** Records for an adapter with these classes and top-level types: each has a class and its required
    fields, no two have the same type and unique id, and those of a type that is not top-level name a
    record before them as their parent, whose class has children of that type. *)
Record dataset (cs : dict cls) (tops : list string) (rows : list row) : Prop := mkDataset {
  da_class : forall x, In x rows -> exists c, dget cs (r_type x) = Some c /\ c_modelname c = r_type x /\ creatable c /\
    forall f, In (f, None) (c_fields c) -> dget (r_kw x) f <> None;
  da_keys : NoDup (map (row_key cs) rows);
  da_parent : forall l x m, rows = l ++ x :: m ->
    match r_parent x with
    | None => In (r_type x) tops
    | Some p => ~ In (r_type x) tops /\
        exists y c, In y l /\ row_key cs y = p /\ dget cs (r_type y) = Some c /\ In (r_type x) (map fst (c_children c))
    end
}.
(** identifiers and attributes have values, equal to themselves *)
Definition proper_values (cs : dict cls) (rows : list row) : Prop :=
  forall x c f, In x rows -> dget cs (r_type x) = Some c -> In f (c_identifiers c ++ c_attributes c) ->
    exists v, value_in c (r_kw x) f = Some v /\ py_eq v v = true.
(** no record has [n] ancestors *)
Definition shallow (cs : dict cls) (rows : list row) (n : nat) : Prop :=
  exists level : string * string -> nat, forall x, In x rows -> level (row_key cs x) < n /\
    forall p, r_parent x = Some p -> level p < level (row_key cs x).
(** Records of two adapters: the second one has a class of the same shape for each record of the first,
    records with the same type and unique id have the same identifiers and parents, and names
    distinguish siblings. *)
Record matching (cs cs' : dict cls) (rows rows' : list row) : Prop := mkMatching {
  ma_class : forall x c, In x rows -> dget cs (r_type x) = Some c ->
    exists c', dget cs' (r_type x) = Some c' /\ c_modelname c' = r_type x /\ same_shape c' c /\ creatable c';
  ma_same : forall x y c c' f, In x rows -> In y rows' -> row_key cs x = row_key cs' y ->
    dget cs (r_type x) = Some c -> dget cs' (r_type y) = Some c' -> In f (c_identifiers c) ->
    value_in c (r_kw x) f = value_in c' (r_kw y) f;
  ma_place : forall x y, In x rows -> In y rows' -> row_key cs x = row_key cs' y -> r_parent x = r_parent y;
  ma_names : let all := map (fun x => (cs, x)) rows ++ map (fun x => (cs', x)) rows' in
    forall p q, In p all -> In q all -> r_type (snd p) = r_type (snd q) -> r_parent (snd p) = r_parent (snd q) ->
      row_name (fst p) (snd p) = row_name (fst q) (snd q) -> row_key (fst p) (snd p) = row_key (fst q) (snd q)
}.
(** no flags are set on the classes of the records *)
Definition no_flags (cs : dict cls) (rows : list row) : Prop :=
  forall x c, In x rows -> dget cs (r_type x) = Some c -> c_flags c = 0%N.

(** ** What should be there *)

(** the object for a record *)
Definition made_from (cs : dict cls) (rows : list row) (x : row) (o : obj) : Prop :=
  exists c, dget cs (r_type x) = Some c /\ o_cls o = c /\ o_flags o = c_flags c /\ get_status o = (StSuccess, ""%string) /\
    map fst (o_vals o) = map fst (c_fields c) /\
    (forall f, In f (map fst (c_fields c)) -> dget (o_vals o) f = value_in c (r_kw x) f) /\
    forall t f, In (t, f) (c_children c) -> dget (o_kids o) f = Some (row_kids cs rows (row_key cs x) t).
(** the adapter holds an object for each record and nothing else *)
Definition filled (w : world) (a : aid) (cs : dict cls) (rows : list row) : Prop :=
  (forall x, In x rows -> exists r o, lookup w a (fst (row_key cs x)) (snd (row_key cs x)) = Some r /\
     nth_error (w_heap w) r = Some o /\ o_adapter o = Some a /\ made_from cs rows x o) /\
  forall k, lookup w a (fst k) (snd k) <> None -> exists x, In x rows /\ row_key cs x = k.
(** the adapter holds the data of the records: the identifiers and attributes of an object compare equal to
    those of its record, and its children are the records that name it as their parent *)
Definition has_data (w : world) (a : aid) (cs : dict cls) (rows : list row) : Prop :=
  (forall x c, In x rows -> dget cs (r_type x) = Some c ->
     exists r o, lookup w a (fst (row_key cs x)) (snd (row_key cs x)) = Some r /\ nth_error (w_heap w) r = Some o /\
       get_type o = r_type x /\
       (forall f, In f (c_identifiers c ++ c_attributes c) ->
          exists v v', value_in c (r_kw x) f = Some v /\ dget (o_vals o) f = Some v' /\ py_eq v v' = true) /\
       forall t f, In (t, f) (c_children c) ->
          exists l, dget (o_kids o) f = Some l /\ Permutation l (row_kids cs rows (row_key cs x) t)) /\
  forall k, lookup w a (fst k) (snd k) <> None -> exists x, In x rows /\ row_key cs x = k.
