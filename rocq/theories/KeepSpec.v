(** * KeepSpec: edits that are written back to the store.

    Vocabulary for C96.  The changes are those of EditSpec, but user code calls [update] on an object after it has changed it,
    as a RedisStore needs (store/redis.py:186-199; get and get_all return new objects, store/redis.py:68-152).  The same program
    is made for an adapter with a LocalStore. *)
From Verif Require Export EditSpec ShelfSpec.

(** ** What the program does *)
Definition keep_attr (a : aid) (k : string * string) (f : string) (v : val) : M world unit :=
  r <- st_get a (MName (fst k)) (IdStr (snd k)) ;;
  o <- hget r ;;
  o' <- lift (setattr_val o f v) ;;
  hset r o' ;;;
  st_update a r.
Definition keep_drop (fuel : nat) (a : aid) (p : option (string * string)) (k : string * string) : M world unit :=
  r <- st_get a (MName (fst k)) (IdStr (snd k)) ;;
  match p with
  | None => ret tt
  | Some p =>
      pr <- st_get a (MName (fst p)) (IdStr (snd p)) ;;
      parent <- hget pr ;;
      child <- hget r ;;
      parent' <- lift (remove_child parent child) ;;
      hset pr parent' ;;;
      st_update a pr
  end ;;;
  st_remove fuel a r true.
Definition keep_change (fuel : nat) (ch : change) : M world unit :=
  match ch with
  | Insert a x => keep_row a x
  | Assign a k f v => keep_attr a k f v
  | Drop a p k => keep_drop fuel a p k
  | Sync c => sync_from fuel (sy_hooks c) (sy_dst c) (sy_src c) (sy_class c) (sy_flags c) (sy_cb c) None ;;; ret tt
  end.
Fixpoint keep_changes (fuel : nat) (l : list change) : M world unit :=
  match l with
  | [] => ret tt
  | ch :: l' => keep_change fuel ch ;;; keep_changes fuel l'
  end.

(** ** What it does to the records *)

(** adapters with the same RedisStore id have the same records *)
Definition same_place (ads : list adapter) (a b : aid) : bool :=
  Nat.eqb a b ||
  match nth_error ads a, nth_error ads b with
  | Some x, Some y => match ad_store x, ad_store y with SRedis i, SRedis j => String.eqb i j | _, _ => false end
  | _, _ => false
  end.
Definition put_all (ads : list adapter) (D : aid -> list row) (a : aid) (rows : list row) : aid -> list row :=
  fun b => if same_place ads a b then rows else D b.
Definition keep_rows (cs : dict cls) (ads : list adapter) (D : aid -> list row) (ch : change) : aid -> list row :=
  match ch with
  | Insert a x => put_all ads D a (D a ++ [x])
  | Assign a k f v => put_all ads D a (set_row cs k f v (D a))
  | Drop a p k => put_all ads D a (cut_rows cs [k] (D a))
  | Sync c => pool_call cs D c
  end.
Definition rows_kept (cs : dict cls) (ads : list adapter) (l : list change) : aid -> list row := fold_left (keep_rows cs ads) l (fun _ => []).
(** The RedisStore [i] holds a snapshot for each record, with the record's values and as children those that name it as
    their parent, and nothing else *)
Definition on_shelf (w : world) (i : string) (cs : dict cls) (rows : list row) : Prop :=
  (forall x, In x rows -> exists o, on_server w i (fst (row_key cs x)) (snd (row_key cs x)) = Some o /\
     o_adapter o = None /\ made_from cs rows x o) /\
  (forall s, dget (w_redis w) ("diffsync:" ++ i ++ ":" ++ s)%string <> None ->
     exists x, In x rows /\ redis_key i (fst (row_key cs x)) (snd (row_key cs x)) = ("diffsync:" ++ i ++ ":" ++ s)%string).
Definition stocks (w : world) (a : aid) (ad : adapter) (cs : dict cls) (rows : list row) : Prop :=
  match ad_store ad with
  | SLocal _ => has_data w a cs rows
  | SRedis i => on_shelf w i cs rows
  end.

(** ** Conditions *)

(** The adapters have these classes and top-level types, and stores that are empty; the names of the RedisStores and of the
    types make no trouble in keys *)
Record vacant (w : world) (cs : dict cls) (tops : list string) (U : list row) : Prop := mkVacant {
  va_ads : forall ad, In ad (w_ads w) -> ad_classes ad = cs /\ ad_top ad = tops /\
    match ad_store ad with
    | SLocal d => d = []
    | SRedis i => plain i = true /\ forall s, dget (w_redis w) ("diffsync:" ++ i ++ ":" ++ s)%string = None
    end;
  va_once : NoDup (dkeys (w_redis w));
  va_tops : forall t, In t tops -> plain t = true;
  va_types : forall x, In x U -> plain (r_type x) = true;
  va_kids : forall x c t, In x U -> dget cs (r_type x) = Some c -> In t (map fst (c_children c)) -> plain t = true
}.
(** as [can_do], and what is synchronised into has a LocalStore *)
Definition can_keep (cs : dict cls) (U : list row) (ads : list adapter) (D : aid -> list row) (ch : change) : Prop :=
  can_do cs U ads D ch /\
  match ch with Sync c => exists da d, nth_error ads (sy_dst c) = Some da /\ ad_store da = SLocal d | _ => True end.
Fixpoint can_keep_all (cs : dict cls) (U : list row) (ads : list adapter) (D : aid -> list row) (l : list change) : Prop :=
  match l with
  | [] => True
  | ch :: l' => can_keep cs U ads D ch /\ can_keep_all cs U ads (keep_rows cs ads D ch) l'
  end.
