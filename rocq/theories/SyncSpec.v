(** * SyncSpec: the vocabulary of the synchronisation properties. *)
From Verif Require Export SyncerDefs DifferSpec.

(** ** Who holds what *)

(** the adapter's LocalStore holds the object at [r] *)
Definition holds (w : world) (a : aid) (r : ref) : Prop :=
  exists ad d t u, (nth_error (w_ads w) a = Some ad /\ ad_store ad = SLocal d) /\ In (u, r) (bucket d t).
Definition on_redis (w : world) (a : aid) (sid : string) : Prop :=
  exists ad, nth_error (w_ads w) a = Some ad /\ ad_store ad = SRedis sid.

(** no Python object is stored in both, and no Redis key can belong to both *)
Definition share_nothing (w : world) (a b : aid) : Prop :=
  (forall r, holds w a r -> ~ holds w b r) /\
  (forall i j, on_redis w a i -> on_redis w b j -> forall m u m' u', redis_key i m u <> redis_key j m' u').

(** everything adapter [a] holds is as it was *)
Definition intact (w w' : world) (a : aid) : Prop :=
  (forall t u, lookup w' a t u = lookup w a t u) /\
  (forall t u r, lookup w a t u = Some r -> nth_error (w_heap w') r = nth_error (w_heap w) r) /\
  (forall i, on_redis w a i -> on_redis w' a i /\
     forall m u, dget (w_redis w') (redis_key i m u) = dget (w_redis w) (redis_key i m u)).

(** ** Keys named in a diff *)

(** the (type, unique id) of the destination's object for the element *)
Definition names (w : world) (dst : aid) (e : elem) (k : string * string) : Prop :=
  exists ad c, nth_error (w_ads w) dst = Some ad /\ dget (ad_classes ad) (e_type e) = Some c /\
    fst k = c_modelname c /\ create_unique_id c (e_keys e) = Ok (snd k).
(** some element of the diff with such an action names the key *)
Definition mentioned (w : world) (dst : aid) (gs : dict (dict elem)) (P : option action -> Prop) (k : string * string) : Prop :=
  exists e, occurs e gs /\ P (e_action e) /\ names w dst e k.

(** the classes of the destination: those of its models and of the objects it holds *)
Definition dst_class (w : world) (dst : aid) (c : cls) : Prop :=
  (exists ad t, nth_error (w_ads w) dst = Some ad /\ dget (ad_classes ad) t = Some c) \/
  (exists t u r o, lookup w dst t u = Some r /\ nth_error (w_heap w) r = Some o /\ o_cls o = c).
(** each child type has its own field *)
Definition own_fields (c : cls) : Prop := NoDup (dvals (c_children c)).
(** the fields of the child types exist: __init__.py:149-153 *)
Definition kids_are_fields (c : cls) : Prop := incl (dvals (c_children c)) (c_kid_fields c).
(** no element sets an identifier of a destination object *)
Definition sets_no_identifier (w : world) (dst : aid) (gs : dict (dict elem)) : Prop :=
  forall e ad ce c s k, occurs e gs -> nth_error (w_ads w) dst = Some ad -> dget (ad_classes ad) (e_type e) = Some ce ->
    dst_class w dst c -> c_modelname c = c_modelname ce -> e_src e = Some s -> In k (dkeys s) -> ~ In k (c_identifiers c).

(** ** What a synchronisation may remove *)

Definition is_create_act (a : option action) : Prop := a = Some ACreate.
Definition is_delete_act (a : option action) : Prop := a = Some ADelete.
Definition not_create_act (a : option action) : Prop := a <> Some ACreate.

(** bit 1 of model_flags (enum.py:32) *)
Definition skips_children (f : N) : Prop := N.testbit f 1 = true.

(** a deleted object, or one below a deleted object that takes its children with it *)
Definition doomed (w : world) (dst : aid) (gs : dict (dict elem)) (k : string * string) : Prop :=
  mentioned w dst gs is_delete_act k \/
  exists kd r o, mentioned w dst gs is_delete_act kd /\ lookup w dst (fst kd) (snd kd) = Some r /\
    nth_error (w_heap w) r = Some o /\ skips_children (o_flags o) /\ reaches w dst kd k.

(** the object's data: everything but status and adapter *)
Definition same_data (o o' : obj) : Prop :=
  o_cls o' = o_cls o /\ o_vals o' = o_vals o /\ o_kids o' = o_kids o /\ o_flags o' = o_flags o.

(** [o] lists (t,u) as a child *)
Definition lists (o : obj) (t u : string) : Prop :=
  exists f l, In (t, f) (c_children (o_cls o)) /\ dget (o_kids o) f = Some l /\ In u l.

(** ** The diff a call of sync_from applies: the given one if it has elements, else a computed one *)
Definition uses (fuel : nat) (dst src : aid) (dc : diffclass) (flags : N) (cb : bool) (given : option diff) (w : world)
           (d : diff) : Prop :=
  (given = Some d /\ diff_len d <> 0 /\ isinstance d dc = true) \/
  ((given = None \/ exists d', given = Some d' /\ diff_len d' = 0) /\
   snd (diff_from fuel dst src dc flags cb w) = Ok d).

(** The destination is a well-formed LocalStore of models of well-formed classes *)
Definition proper_dst (w : world) (dst : aid) : Prop :=
  local_ok w dst /\ keyed w dst /\ (forall c, dst_class w dst c -> own_fields c) /\
  (forall ad t c, nth_error (w_ads w) dst = Some ad -> dget (ad_classes ad) t = Some c -> kids_are_fields c).

(** some deleted object takes its children with it *)
Definition deletes_below (w : world) (dst : aid) (gs : dict (dict elem)) : Prop :=
  exists e k, occurs e gs /\ e_action e = Some ADelete /\ names w dst e k /\
   ((exists r o, lookup w dst (fst k) (snd k) = Some r /\ nth_error (w_heap w) r = Some o /\ skips_children (o_flags o)) \/
    (exists e' ad c, occurs e' gs /\ e_action e' = Some ACreate /\ names w dst e' k /\
       nth_error (w_ads w) dst = Some ad /\ dget (ad_classes ad) (e_type e') = Some c /\ skips_children (c_flags c))).


(** the destination's class of each type uses the identifiers of the objects of that type, and their type name *)
Definition same_ids (w : world) (dst : aid) : Prop :=
  forall ad t c o, nth_error (w_ads w) dst = Some ad -> dget (ad_classes ad) t = Some c -> exists_in w o -> get_type o = t ->
    c_modelname c = t /\ c_identifiers c = c_identifiers (o_cls o).
(** marked IGNORE: bit 0 of model_flags (enum.py:29) *)
Definition ignored (o : obj) : Prop := N.testbit (o_flags o) 0 = true.

(** the adapter stores an object under the key, in either kind of store *)
Definition stored (w : world) (a : aid) (t u : string) : Prop :=
  lookup w a t u <> None \/ exists i, on_redis w a i /\ dget (w_redis w) (redis_key i t u) <> None.
(** a call of such a hook *)
Definition is_hook (a : action) (ev : event) : Prop := match ev with EvHook b _ _ _ => a = b | _ => False end.
