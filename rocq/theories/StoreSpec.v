(** * StoreSpec: the vocabulary of the store properties.

    A LocalStore is specified as a flat register of entries (type, uid, object)
    in order of insertion. *)
From Verif Require Export StoreDefs.

Definition reg := list (string * string * ref).

Definition key_eqb (t u : string) (e : string * string * ref) : bool :=
  String.eqb t (fst (fst e)) && String.eqb u (snd (fst e)).

Definition reg_find (l : reg) (t u : string) : option ref := option_map snd (find (key_eqb t u) l).
(** replace in place, or append *)
Definition reg_put (l : reg) (t u : string) (r : ref) : reg :=
  match find (key_eqb t u) l with
  | Some _ => map (fun e => if key_eqb t u e then (t, u, r) else e) l
  | None => l ++ [(t, u, r)]
  end.
Definition reg_del (l : reg) (t u : string) : reg := filter (fun e => negb (key_eqb t u e)) l.
(** the objects of one type, in order of insertion *)
Definition reg_type (l : reg) (t : string) : list ref :=
  map snd (filter (fun e => String.eqb t (fst (fst e))) l).

(** Program steps: store calls, and what the program does to objects in between *)
Inductive sop :=
| SAdd (r : ref) | SUpdate (r : ref) | SRemove (r : ref) | SRemoveItem (t u : string)
| SGet (t u : string) | SGetOrNone (t u : string) | SGetAll (t : string)
| SByUids (us : list string) (t : string) | SCount
| SNew (o : obj)                  (* create an object (not stored) *)
| SAssign (r : ref) (o : obj).    (* change an object in place, in any way *)

Inductive out := OUnit | ORef (r : ref) | OOpt (r : option ref) | ORefs (l : list ref) | ONat (n : nat).

Definition omap {A} (f : A -> out) (m : M world A) : M world out := x <- m ;; ret (f x).
Definition exec (a : aid) (op : sop) : M world out :=
  match op with
  | SAdd r => omap (fun _ => OUnit) (st_add a r)
  | SUpdate r => omap (fun _ => OUnit) (st_update a r)
  | SRemove r => omap (fun _ => OUnit) (st_remove 1 a r false)
  | SRemoveItem t u => omap (fun _ => OUnit) (st_remove_item a t u)
  | SGet t u => omap ORef (st_get a (MName t) (IdStr u))
  | SGetOrNone t u => omap OOpt (ad_get_or_none a (MName t) (IdStr u))
  | SGetAll t => omap ORefs (st_get_all a (MName t))
  | SByUids us t => omap ORefs (st_get_by_uids a us (MName t))
  | SCount => omap ONat (st_count a None)
  | SNew o => omap ORef (halloc o)
  | SAssign r o => omap (fun _ => OUnit) (hset r o)
  end.
Fixpoint exec_all (a : aid) (ops : list sop) (w : world) : world * list (result out) :=
  match ops with
  | [] => (w, [])
  | op :: ops' => let (w1, o) := exec a op w in let (w2, os) := exec_all a ops' w1 in (w2, o :: os)
  end.

(** What each call does to the register, [h] being the objects at that time *)
Definition with_key (h : list obj) (l : reg) (r : ref) (k : string -> string -> reg * result out) : reg * result out :=
  match nth_error h r with
  | None => (l, Err DanglingRef)
  | Some o => match get_unique_id o with
              | Err e => (l, Err e)
              | Ok u => k (get_type o) u
              end
  end.
Fixpoint find_all (l : reg) (t : string) (us : list string) : result (list ref) :=
  match us with
  | [] => Ok []
  | u :: us' => match reg_find l t u with
                | None => Err ObjectNotFound
                | Some r => rbind (find_all l t us') (fun rs => Ok (r :: rs))
                end
  end.
Definition spec (h : list obj) (l : reg) (op : sop) : reg * result out :=
  match op with
  | SAdd r => with_key h l r (fun t u =>
                match reg_find l t u with
                | None => (l ++ [(t, u, r)], Ok OUnit)
                | Some r' => (l, if Nat.eqb r' r then Ok OUnit else Err ObjectAlreadyExists)
                end)
  | SUpdate r => with_key h l r (fun t u => (reg_put l t u r, Ok OUnit))
  | SRemove r => with_key h l r (fun t u =>
                   match reg_find l t u with
                   | None => (l, Err ObjectNotFound)
                   | Some _ => (reg_del l t u, Ok OUnit)
                   end)
  | SRemoveItem t u => match reg_find l t u with
                       | None => (l, Err ObjectNotFound)
                       | Some _ => (reg_del l t u, Ok OUnit)
                       end
  | SGet t u => (l, match reg_find l t u with Some r => Ok (ORef r) | None => Err ObjectNotFound end)
  | SGetOrNone t u => (l, Ok (OOpt (reg_find l t u)))
  | SGetAll t => (l, Ok (ORefs (reg_type l t)))
  | SByUids us t => (l, rbind (find_all l t us) (fun rs => Ok (ORefs rs)))
  | SCount => (l, Ok (ONat (length l)))
  | SNew o => (l, Ok (ORef (length h)))
  | SAssign r o => (l, Ok OUnit)
  end.
Fixpoint spec_all (a : aid) (ops : list sop) (w : world) (l : reg) : reg * list (result out) :=
  match ops with
  | [] => (l, [])
  | op :: ops' => let (l1, o) := spec (w_heap w) l op in
                  let (l2, os) := spec_all a ops' (fst (exec a op w)) l1 in (l2, o :: os)
  end.

(** The adapter has a new, empty LocalStore *)
Definition fresh_local (w : world) (a : aid) : Prop :=
  exists ad, nth_error (w_ads w) a = Some ad /\ ad_store ad = SLocal [].

(** ** What is stored, and who is below whom *)

(** the object stored under a key (LocalStore) *)
Definition lookup (w : world) (a : aid) (t u : string) : option ref :=
  match nth_error (w_ads w) a with
  | Some ad => match ad_store ad with SLocal d => dget (bucket d t) u | SRedis _ => None end
  | None => None
  end.

(** a LocalStore whose buckets have unique keys, as Python dicts do *)
Definition local_ok (w : world) (a : aid) : Prop :=
  exists ad d, nth_error (w_ads w) a = Some ad /\ ad_store ad = SLocal d /\
    NoDup (dkeys d) /\ forall m b, In (m, b) d -> NoDup (dkeys b).

(** each entry holds an object of that type and unique id, with readable child lists *)
Definition keyed (w : world) (a : aid) : Prop :=
  forall t u r, lookup w a t u = Some r ->
    exists o, nth_error (w_heap w) r = Some o /\ get_type o = t /\ get_unique_id o = Ok u /\
      forall t' f, In (t', f) (c_children (o_cls o)) -> dget (o_kids o) f <> None.

(** the object stored under (t,u) lists the stored (t',u') as a child *)
Definition child_of (w : world) (a : aid) (k k' : string * string) : Prop :=
  exists r o f l, lookup w a (fst k) (snd k) = Some r /\ nth_error (w_heap w) r = Some o /\
    In (fst k', f) (c_children (o_cls o)) /\ dget (o_kids o) f = Some l /\ In (snd k') l /\
    lookup w a (fst k') (snd k') <> None.
Inductive reaches (w : world) (a : aid) : string * string -> string * string -> Prop :=
| reach_self k : reaches w a k k
| reach_step k k' k'' : child_of w a k k' -> reaches w a k' k'' -> reaches w a k k''.

(** [n] generations of stored children below the object stored under [k] *)
Fixpoint deep (w : world) (a : aid) (n : nat) (k : string * string) : Prop :=
  match n with O => True | S n' => exists k', child_of w a k k' /\ deep w a n' k' end.
(** the recursion limit suffices for removing [k] with everything below it *)
Definition limit_ok (w : world) (a : aid) (fuel : nat) (k : string * string) : Prop :=
  count_all w a <= fuel \/ ~ deep w a fuel k.

(** same objects except for which adapter they point at *)
Definition same_but_adapter (h h' : list obj) : Prop :=
  Forall2 (fun o o' => set_o_adapter o None = set_o_adapter o' None) h h'.

(** what a call on adapter [a] leaves alone: the Redis server, the other adapters, and
    everything about [a] but its store *)
Definition framed (a : aid) (w w' : world) : Prop :=
  w_redis w' = w_redis w /\ length (w_ads w') = length (w_ads w) /\
  (forall b, b <> a -> nth_error (w_ads w') b = nth_error (w_ads w) b) /\
  (forall ad, nth_error (w_ads w) a = Some ad -> exists s, nth_error (w_ads w') a = Some (set_ad_store ad s)).
(** every key but [k] holds what it held *)
Definition not_key (k : string * string) (w w' : world) (a : aid) : Prop :=
  forall t u, (t, u) <> k -> lookup w' a t u = lookup w a t u.
Definition has_local (w : world) (a : aid) : Prop :=
  exists ad d, nth_error (w_ads w) a = Some ad /\ ad_store ad = SLocal d.
(** the identifiers are fields of the class: __init__.py:136-139 *)
Definition ids_are_fields (c : cls) : Prop := incl (c_identifiers c) (map fst (c_fields c)).
(** the outcome of creating a new object with content [o] under its key *)
Definition created (a : aid) (w w' : world) (o : obj) (u : string) : Prop :=
  lookup w' a (get_type o) u = Some (length (w_heap w)) /\ not_key (get_type o, u) w w' a /\
  (exists o', nth_error (w_heap w') (length (w_heap w)) = Some o' /\ set_o_adapter o' None = set_o_adapter o None) /\
  length (w_heap w') = S (length (w_heap w)) /\
  (forall r, r < length (w_heap w) -> nth_error (w_heap w') r = nth_error (w_heap w) r) /\ framed a w w'.
(** the existing object [r] is now stored under (t,u) *)
Definition placed (a : aid) (w w' : world) (r : ref) (t u : string) : Prop :=
  lookup w' a t u = Some r /\ not_key (t, u) w w' a /\
  same_but_adapter (w_heap w) (w_heap w') /\
  (forall r', r' <> r -> nth_error (w_heap w') r' = nth_error (w_heap w) r') /\ framed a w w'.
(** the object at [r] now has the given attributes, everything else being as before *)
Definition attrs_set (w w' : world) (r : ref) (attrs : dict val) : Prop :=
  exists o vals, nth_error (w_heap w) r = Some o /\ w' = set_heap w (list_set (w_heap w) r (set_o_vals o vals)) /\
    dkeys vals = dkeys (o_vals o) /\
    (forall k, dget attrs k = None -> dget vals k = dget (o_vals o) k) /\
    (forall k v, dget attrs k = Some v -> exists v', dget vals k = Some v' /\ (v' = v \/ py_eq v' v = true)).
