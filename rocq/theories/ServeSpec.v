(** * ServeSpec: records that are synchronised into a RedisStore.

    Vocabulary for C87; records are those of RowSpec, filling a RedisStore that of ShelfSpec. *)
From Verif Require Export ShelfSpec.

(** An adapter with the RedisStore [i]: the names of its types and of those of their children make no trouble in
    keys, and no class has objects that take their children with them when deleted *)
Record redis_adapter (ad : adapter) (i : string) : Prop := mkRedisAdapter {
  ra_store : ad_store ad = SRedis i;
  ra_id : plain i = true;
  ra_tops : forall t, In t (ad_top ad) -> plain t = true;
  ra_class : forall t c, dget (ad_classes ad) t = Some c ->
    c_modelname c = t /\ plain t = true /\ NoDup (dkeys (c_fields c)) /\ ~ skips_children (c_flags c) /\
    forall t', In t' (map fst (c_children c)) -> plain t' = true
}.

(** a record that has no counterpart *)
Definition alone (cs cs' : dict cls) (rows' : list row) (x : row) : Prop := ~ In (row_key cs x) (map (row_key cs') rows').

(** What a synchronisation of the records [rows] into the RedisStore [i] with the records [rows'] does to the server:
    it gets the records that were only in the source, without children; loses those that were only in the
    destination; every other entry, of a record in both or of something else, is the very one from before *)
Record served (w : world) (i : string) (cs cs' : dict cls) (rows rows' : list row) (w' : world) : Prop := mkServed {
  se_new : forall x c, In x rows -> dget cs (r_type x) = Some c -> alone cs cs' rows' x ->
    exists c' o, dget cs' (r_type x) = Some c' /\ on_server w' i (fst (row_key cs x)) (snd (row_key cs x)) = Some o /\
      o_cls o = c' /\ o_flags o = c_flags c' /\ o_adapter o = None /\ childless o /\
      forall f, In f (c_identifiers c ++ c_attributes c) -> dget (o_vals o) f = value_in c (r_kw x) f;
  se_old : forall x, In x rows' -> alone cs' cs rows x -> on_server w' i (fst (row_key cs' x)) (snd (row_key cs' x)) = None;
  se_rest : forall k,
    (forall x, In x rows -> alone cs cs' rows' x -> k <> redis_key i (fst (row_key cs x)) (snd (row_key cs x))) ->
    (forall x, In x rows' -> alone cs' cs rows x -> k <> redis_key i (fst (row_key cs' x)) (snd (row_key cs' x))) ->
    dget (w_redis w') k = dget (w_redis w) k
}.
