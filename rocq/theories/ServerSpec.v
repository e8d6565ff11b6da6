(** * ServerSpec: synchronising into a RedisStore.

    Vocabulary for C70 and C71. *)
From Verif Require Export OutcomeSpec RedisSpec.

(** the snapshot under a type and unique id in the store [i] *)
Definition on_server (w : world) (i t u : string) : option obj := dget (w_redis w) (redis_key i t u).

(** The destination is the RedisStore [i]: entries are filed under their own type and unique id, the
    names of its types make no trouble in keys, and no object takes its children with it
    when deleted. *)
Record server_dst (w : world) (dst : aid) (da : adapter) (i : string) : Prop := mkServerDst {
  sd_ad : nth_error (w_ads w) dst = Some da;
  sd_store : ad_store da = SRedis i;
  sd_id : plain i = true;
  sd_once : NoDup (dkeys (w_redis w));
  sd_class : forall t c, dget (ad_classes da) t = Some c ->
    c_modelname c = t /\ plain t = true /\ NoDup (dkeys (c_fields c)) /\ ~ skips_children (c_flags c);
  sd_filed : forall t c u o, dget (ad_classes da) t = Some c -> on_server w i t u = Some o ->
    get_type o = t /\ get_unique_id o = Ok u /\ ~ skips_children (o_flags o)
}.

(** the objects of elements without changes are on the server and not about to be removed *)
Definition unchanged_on_server (w : world) (dst : aid) (i : string) (gs : dict (dict elem)) : Prop :=
  forall e k, occurs e gs -> e_action e = None -> names w dst e k ->
    on_server w i (fst k) (snd k) <> None /\ ~ mentioned w dst gs is_delete_act k.

(** a snapshot without children *)
Definition childless (o : obj) : Prop := forall f l, dget (o_kids o) f = Some l -> l = [].

(** what becomes of the entries of the store, up to the fields [X] that hooks may have written *)
Record server_left (X : string -> Prop) (w : world) (dst : aid) (da : adapter) (i : string) (gs : dict (dict elem)) (w' : world) : Prop := mkServerLeft {
  (* what is created was not there and is there afterwards, as its element says, without children *)
  sl_create : forall t u, mentioned w dst gs is_create_act (t, u) ->
    on_server w i t u = None /\
    exists e c o, occurs e gs /\ e_action e = Some ACreate /\ names w dst e (t, u) /\ dget (ad_classes da) t = Some c /\
      on_server w' i t u = Some o /\ built X c e o /\ childless o /\ o_adapter o = None;
  (* what is deleted was there and is gone afterwards *)
  sl_delete : forall t u, mentioned w dst gs is_delete_act (t, u) -> on_server w i t u <> None /\ on_server w' i t u = None;
  (* everything else on the server is as before *)
  sl_rest : forall k, (forall t u, mentioned w dst gs is_create_act (t, u) \/ mentioned w dst gs is_delete_act (t, u) -> k <> redis_key i t u) ->
    dget (w_redis w') k = dget (w_redis w) k
}.
