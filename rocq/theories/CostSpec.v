(** * CostSpec: the commands that a call sends, whatever the server replies (C105). *)
From Verif Require Export ConcSpec.

(** A command and its reply *)
Inductive wire := WGet (k : string) (x : option obj) | WSet (k : string) (o : obj) | WExists (k : string) (b : bool) | WDelete (k : string) | WScan (pat : string) (l : list string).
(** [talk p l q]: having sent the commands [l] and received these replies, [q] is left to do.  The replies are arbitrary: other
    processes may have changed anything in between. *)
Inductive talk {A} : cprog A -> list wire -> cprog A -> Prop :=
| talk_none p : talk p [] p
| talk_get k f x l q : talk (f x) l q -> talk (CGet k f) (WGet k x :: l) q
| talk_set k o p l q : talk p l q -> talk (CSet k o p) (WSet k o :: l) q
| talk_exists k f b l q : talk (f b) l q -> talk (CExists k f) (WExists k b :: l) q
| talk_delete k p l q : talk p l q -> talk (CDelete k p) (WDelete k :: l) q
| talk_scan pat f x l q : talk (f x) l q -> talk (CScan pat f) (WScan pat x :: l) q.

(** the children that an object names *)
Definition kids_named (o : obj) : nat :=
  list_sum (map (fun tf => match dget (o_kids o) (snd tf) with Some l => length l | None => 0 end) (c_children (o_cls o))).
(** the children named by the objects that were read; the keys that SCANs listed *)
Definition children_read (l : list wire) : nat := list_sum (map (fun m => match m with WGet _ (Some o) => kids_named o | _ => 0 end) l).
Definition keys_listed (l : list wire) : nat := list_sum (map (fun m => match m with WScan _ ks => length ks | _ => 0 end) l).
(** no object that was read has the flag SKIP_CHILDREN_ON_DELETE (bit 1) or NATURAL_DELETION_ORDER (bit 4) *)
Definition plainly (o : obj) : Prop := N.testbit (o_flags o) 1 = false /\ N.testbit (o_flags o) 4 = false.
Definition read_plainly (l : list wire) : Prop := forall k o, In (WGet k (Some o)) l -> plainly o.

(** The most commands of a call, apart from those that depend on replies, comparisons and synchronisations *)
Definition most (c : call) : nat :=
  match c with
  | KNew _ | KAssign _ _ => 0
  | KUpdate _ | KGet _ _ | KGetOrNone _ _ | KNames | KCount _ | KGetAll _ => 1
  | KAdd _ | KRemoveItem _ _ => 2
  | KRemove _ _ _ | KGetOrInstantiate _ _ _ | KGetOrAdd _ | KUpdateOrInstantiate _ _ _ | KUpdateOrAdd _ => 3
  | KByUids us _ => length us
  | _ => 0
  end.
Definition simple_call (c : call) : Prop :=
  match c with KRemove _ _ children => children = false | KGetAll _ | KDiff _ _ _ _ _ | KSync _ _ _ _ _ _ _ => False | _ => True end.
(** an adapter on a RedisStore *)
Definition to_redis (a : aid) (w : world) : Prop := exists ad i, nth_error (w_ads w) a = Some ad /\ ad_store ad = SRedis i.
(** the store of an adapter: Redis ([true]) or memory *)
Definition store_kind (a : aid) (w : world) (b : bool) : Prop :=
  exists ad, nth_error (w_ads w) a = Some ad /\ (match ad_store ad with SRedis _ => true | SLocal _ => false end) = b.
(** objects of one type have the same kinds of children: one class for each type, as in the declarations of an adapter *)
Definition by_type (kinds : string -> dict string) (o : obj) : Prop := c_children (o_cls o) = kinds (c_modelname (o_cls o)).
