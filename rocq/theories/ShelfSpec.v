(** * ShelfSpec: filling a RedisStore from records.

    Vocabulary for C86; records, [load] and the conditions on records are those of RowSpec. *)
From Verif Require Export RowSpec ServerSpec.

(** [load] with one more step: the parent, to whose children the model was added, is put back into the
    store with [update] (store/redis.py:186-199). *)
Definition keep_row (a : aid) (x : row) : M world unit :=
  ad <- get_adapter a ;;
  match dget (ad_classes ad) (r_type x) with
  | None => raise ExnAttributeError
  | Some c =>
      o <- lift (instantiate c (r_kw x) [] None None) ;;
      r <- halloc o ;;
      st_add a r ;;;
      match r_parent x with
      | None => ret tt
      | Some p =>
          pr <- st_get a (MName (fst p)) (IdStr (snd p)) ;;
          parent <- hget pr ;;
          child <- hget r ;;
          parent' <- lift (add_child parent child) ;;
          hset pr parent' ;;;
          st_update a pr
      end
  end.
Fixpoint load_keeping (a : aid) (rows : list row) : M world unit :=
  match rows with
  | [] => ret tt
  | x :: rows' => keep_row a x ;;; load_keeping a rows'
  end.

(** The adapter has the RedisStore [i], whose name and those of the records' types make no trouble in keys,
    and which has no entries yet *)
Record fresh_store (w : world) (a : aid) (ad : adapter) (i : string) (rows : list row) : Prop := mkFreshStore {
  fs_ad : nth_error (w_ads w) a = Some ad;
  fs_store : ad_store ad = SRedis i;
  fs_id : plain i = true;
  fs_types : forall x, In x rows -> plain (r_type x) = true;
  fs_once : NoDup (dkeys (w_redis w));
  fs_none : forall s, dget (w_redis w) ("diffsync:" ++ i ++ ":" ++ s)%string = None
}.

(** The server has a snapshot for each record, with the record's values and as children the records of
    [kids] that name it as their parent; all other entries are as before *)
Definition shelved (w : world) (i : string) (cs : dict cls) (rows kids : list row) (w' : world) : Prop :=
  (forall x, In x rows -> exists o, on_server w' i (fst (row_key cs x)) (snd (row_key cs x)) = Some o /\
     o_adapter o = None /\ made_from cs kids x o) /\
  (forall k, (forall x, In x rows -> k <> redis_key i (fst (row_key cs x)) (snd (row_key cs x))) ->
     dget (w_redis w') k = dget (w_redis w) k) /\
  NoDup (dkeys (w_redis w')).
(** the types a comparison asks for make no trouble in keys either *)
Definition plain_names (cs : dict cls) (tops : list string) (rows : list row) : Prop :=
  (forall t, In t tops -> plain t = true) /\
  forall x c t, In x rows -> dget cs (r_type x) = Some c -> In t (map fst (c_children c)) -> plain t = true.
