(** * ConnDefs: the construction of stores. *)
From Coq Require Import Ascii.
From Verif Require Export StoreDefs.

(** What a Redis client is made from: store/redis.py:45 [Redis.from_url], :47 [Redis] *)
Inductive target := ByUrl (url : string) (db : Z) | ByHost (host : string) (port : Z) (db : Z).
(** What becomes of making the client and of [ping()]: its answer, redis' ConnectionError (with subclasses), another exception *)
Inductive ping_reply := Answers (b : bool) | NoConnection | Fails (x : exn).

(** [if url]: neither None nor "" *)
Definition given (s : option string) : option string :=
  match s with Some (String c t) => Some (String c t) | _ => None end.

(** store/__init__.py:16-27 [BaseStore.__init__] *)
Definition store_name (class_name name : string) : string := match name with "" => class_name | _ => name end.

(** A RedisStore: its client, [_store_id], [_store_label], [name] *)
Record rstore := mkRStore { rs_client : target; rs_id : string; rs_label : string; rs_name : string }.

(** How the construction ends: with the store, ValueError, ObjectStoreException, or an exception of the client *)
Inductive opening := Opened (s : rstore) | ValueRefused | StoreUnavailable | Raised (x : exn).

(** store/redis.py:27-58 [RedisStore.__init__]; [net] is the network, [uuid] the text of uuid.uuid4().
    Simplification: [class_name] is the name of the class; further arguments are not modelled. *)
Definition redis_init (net : target -> ping_reply) (uuid class_name name : string) (store_id host : option string) (port : Z)
    (url : option string) (db : Z) : opening :=
  match given url, given host, negb (Z.eqb port 0) with
  | Some _, Some _, true => ValueRefused
  | u, h, _ =>
      match match u, h with
            | Some u, _ => Some (ByUrl u db)
            | None, Some h => Some (ByHost h port db)
            | None, None => None                          (* RedisConnectionError, caught at :53 *)
            end with
      | None => StoreUnavailable
      | Some t =>
          match net t with
          | Answers true =>
              let i := match given store_id with Some i => i | None => uuid end in
              Opened (mkRStore t i (store_label i) (store_name class_name name))
          | Answers false | NoConnection => StoreUnavailable
          | Fails x => Raised x
          end
      end
  end.

(** store/redis.py:60-62 [RedisStore.__str__] *)
Definition rs_str (s : rstore) : string := (rs_name s ++ " (" ++ rs_id s ++ ")")%string.
