(** * EditSpec: adapters that are edited between synchronisations.

    Vocabulary for C94: the edits, and what the records of each adapter are after each of them.  The latter
    speaks of records only, not of objects, stores or diffs. *)
From Verif Require Export PoolSpec.

(** ** What the program does *)

(** An object is added as [load] in the documentation does; an attribute of a stored object is assigned; an object
    is taken off its parent's children and removed with everything below it; two adapters are synchronised
    (__init__.py:728-742 [get], :820-835 [add], :842-855 [remove], :380-430 [add_child], [remove_child]; user code calls these in
    this way in tests/unit/test_diffsync.py and test_diffsync_model_flags.py:163). *)
Inductive change :=
| Insert (a : aid) (x : row)
| Assign (a : aid) (k : string * string) (f : string) (v : val)
| Drop (a : aid) (p : option (string * string)) (k : string * string)
| Sync (c : sync_call).
Definition assign_to (a : aid) (k : string * string) (f : string) (v : val) : M world unit :=
  r <- st_get a (MName (fst k)) (IdStr (snd k)) ;;
  o <- hget r ;;
  o' <- lift (setattr_val o f v) ;;
  hset r o'.
Definition drop_from (fuel : nat) (a : aid) (p : option (string * string)) (k : string * string) : M world unit :=
  r <- st_get a (MName (fst k)) (IdStr (snd k)) ;;
  match p with
  | None => ret tt
  | Some p =>
      pr <- st_get a (MName (fst p)) (IdStr (snd p)) ;;
      parent <- hget pr ;;
      child <- hget r ;;
      parent' <- lift (remove_child parent child) ;;
      hset pr parent'
  end ;;;
  st_remove fuel a r true.
Definition do_change (fuel : nat) (ch : change) : M world unit :=
  match ch with
  | Insert a x => load_row a x
  | Assign a k f v => assign_to a k f v
  | Drop a p k => drop_from fuel a p k
  | Sync c => sync_from fuel (sy_hooks c) (sy_dst c) (sy_src c) (sy_class c) (sy_flags c) (sy_cb c) None ;;; ret tt
  end.
Fixpoint do_changes (fuel : nat) (l : list change) : M world unit :=
  match l with
  | [] => ret tt
  | ch :: l' => do_change fuel ch ;;; do_changes fuel l'
  end.

(** ** What it does to the records *)
Definition at_key (k k' : string * string) : bool := String.eqb (fst k) (fst k') && String.eqb (snd k) (snd k').
Definition set_row (cs : dict cls) (k : string * string) (f : string) (v : val) (rows : list row) : list row :=
  map (fun x => if at_key (row_key cs x) k then mkRow (r_type x) (dset (r_kw x) f v) (r_parent x) else x) rows.
(** the records that are not in [gone] and have no ancestor there; parents come before their children *)
Fixpoint cut_rows (cs : dict cls) (gone : list (string * string)) (rows : list row) : list row :=
  match rows with
  | [] => []
  | x :: rows' =>
      if existsb (at_key (row_key cs x)) gone || match r_parent x with Some p => existsb (at_key p) gone | None => false end
      then cut_rows cs (row_key cs x :: gone) rows'
      else x :: cut_rows cs gone rows'
  end.
Definition put (D : aid -> list row) (a : aid) (rows : list row) : aid -> list row := fun b => if Nat.eqb b a then rows else D b.
Definition change_rows (cs : dict cls) (D : aid -> list row) (ch : change) : aid -> list row :=
  match ch with
  | Insert a x => put D a (D a ++ [x])
  | Assign a k f v => put D a (set_row cs k f v (D a))
  | Drop a p k => put D a (cut_rows cs [k] (D a))
  | Sync c => pool_call cs D c
  end.
Definition rows_after (cs : dict cls) (l : list change) : aid -> list row := fold_left (change_rows cs) l (fun _ => []).

(** ** Conditions *)

(** The records that are ever added: each has a class, its required fields, proper values and a place in the tree;
    those with the same type and unique id have the same identifiers and parents, and names distinguish siblings. *)
Record realm (fuel : nat) (cs : dict cls) (tops : list string) (U : list row) : Prop := mkRealm {
  rl_class : forall x, In x U -> exists c, dget cs (r_type x) = Some c /\ c_modelname c = r_type x /\ creatable c /\
    forall f, In (f, None) (c_fields c) -> dget (r_kw x) f <> None;
  rl_place : forall x, In x U ->
    match r_parent x with
    | None => In (r_type x) tops
    | Some p => ~ In (r_type x) tops /\ exists c, dget cs (fst p) = Some c /\ In (r_type x) (map fst (c_children c))
    end;
  rl_match : matching cs cs U U;
  rl_proper : proper_values cs U;
  rl_shallow : shallow cs U (fuel - 1);
  rl_flags : no_flags cs U;
  rl_tops : NoDup tops
}.
(** The change can be made: the adapter has no such object yet but the parent; it has the object, and the field is an
    attribute, the value not NaN; it has the object, and this is its parent; the hooks of the synchronisation succeed. *)
Definition can_do (cs : dict cls) (U : list row) (ads : list adapter) (D : aid -> list row) (ch : change) : Prop :=
  match ch with
  | Insert a x => a < length ads /\ In x U /\ (forall y, In y (D a) -> row_key cs y <> row_key cs x) /\
      forall p, r_parent x = Some p -> exists y, In y (D a) /\ row_key cs y = p
  | Assign a k f v => a < length ads /\ py_eq v v = true /\
      exists x c, In x (D a) /\ row_key cs x = k /\ dget cs (r_type x) = Some c /\ In f (c_attributes c)
  | Drop a p k => a < length ads /\ exists x, In x (D a) /\ row_key cs x = k /\ r_parent x = p
  | Sync c => any_call ads c
  end.
Fixpoint can_do_all (cs : dict cls) (U : list row) (ads : list adapter) (D : aid -> list row) (l : list change) : Prop :=
  match l with
  | [] => True
  | ch :: l' => can_do cs U ads D ch /\ can_do_all cs U ads (change_rows cs D ch) l'
  end.
