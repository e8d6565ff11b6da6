(** * ConcSpec: several processes and one Redis server. *)
From Verif Require Export SyncConcDefs.

(** The calls a process can make, and what it does to objects in between *)
Inductive call :=
| KAdd (r : ref) | KUpdate (r : ref) | KRemove (fuel : nat) (r : ref) (children : bool) | KRemoveItem (t u : string)
| KGet (m : mspec) (i : ident) | KGetOrNone (m : mspec) (i : ident) | KGetAll (m : mspec) | KByUids (us : list string) (m : mspec)
| KNames | KCount (m : option mspec)
| KGetOrInstantiate (c : cls) (ids attrs : dict val) | KGetOrAdd (r : ref)
| KUpdateOrInstantiate (c : cls) (ids attrs : dict val) | KUpdateOrAdd (r : ref)
| KNew (o : obj) | KAssign (r : ref) (o : obj)
| KDiff (fuel : nat) (src : aid) (dc : diffclass) (flags : N) (cb : bool)
| KSync (fuel : nat) (h : hooks) (src : aid) (dc : diffclass) (flags : N) (cb : bool) (given : option diff).
Inductive reply :=
| RUnit | RRef (r : ref) | ROpt (r : option ref) | RRefs (l : list ref) | RNames (l : list string) | RNat (n : nat) | RNew (rb : ref * bool) | RDiff (d : diff).
(** the hooks of a process see its memory, not the server *)
Definition unseeing (h : hooks) : hooks := fun w => h (set_redis w []).

(** a call as one step on a world with a server (StoreDefs.v, DifferDefs.v, SyncerDefs.v) ... *)
Definition mfmap {A B} (f : A -> B) (m : M world A) : M world B := x <- m ;; ret (f x).
Definition made (a : aid) (c : call) : M world reply :=
  match c with
  | KAdd r => mfmap (fun _ => RUnit) (st_add a r)
  | KUpdate r => mfmap (fun _ => RUnit) (st_update a r)
  | KRemove fuel r b => mfmap (fun _ => RUnit) (st_remove fuel a r b)
  | KRemoveItem t u => mfmap (fun _ => RUnit) (st_remove_item a t u)
  | KGet m i => mfmap RRef (st_get a m i)
  | KGetOrNone m i => mfmap ROpt (ad_get_or_none a m i)
  | KGetAll m => mfmap RRefs (st_get_all a m)
  | KByUids us m => mfmap RRefs (st_get_by_uids a us m)
  | KNames => mfmap RNames (st_get_all_model_names a)
  | KCount m => mfmap RNat (st_count a m)
  | KGetOrInstantiate c ids attrs => mfmap RNew (st_get_or_instantiate a c ids attrs)
  | KGetOrAdd r => mfmap RNew (st_get_or_add_model_instance a r)
  | KUpdateOrInstantiate c ids attrs => mfmap RNew (st_update_or_instantiate a c ids attrs)
  | KUpdateOrAdd r => mfmap RNew (st_update_or_add_model_instance a r)
  | KNew o => mfmap RRef (halloc o)
  | KAssign r o => mfmap (fun _ => RUnit) (hset r o)
  | KDiff fuel src dc flags cb => mfmap RDiff (diff_from fuel a src dc flags cb)
  | KSync fuel h src dc flags cb given => mfmap RDiff (sync_from fuel (unseeing h) a src dc flags cb given)
  end.
(** ... and as commands (ConcDefs.v, SyncConcDefs.v) *)
Definition cfmap {A B} (f : A -> B) (m : CM A) : CM B := cbind m (fun x => here (ret (f x))).
Definition issued (a : aid) (c : call) : CM reply :=
  match c with
  | KAdd r => cfmap (fun _ => RUnit) (c_add a r)
  | KUpdate r => cfmap (fun _ => RUnit) (c_update a r)
  | KRemove fuel r b => cfmap (fun _ => RUnit) (c_remove fuel a r b)
  | KRemoveItem t u => cfmap (fun _ => RUnit) (c_remove_item a t u)
  | KGet m i => cfmap RRef (c_get a m i)
  | KGetOrNone m i => cfmap ROpt (c_get_or_none a m i)
  | KGetAll m => cfmap RRefs (c_get_all a m)
  | KByUids us m => cfmap RRefs (c_get_by_uids a us m)
  | KNames => cfmap RNames (c_get_all_model_names a)
  | KCount m => cfmap RNat (c_count a m)
  | KGetOrInstantiate c ids attrs => cfmap RNew (c_get_or_instantiate a c ids attrs)
  | KGetOrAdd r => cfmap RNew (c_get_or_add_model_instance a r)
  | KUpdateOrInstantiate c ids attrs => cfmap RNew (c_update_or_instantiate a c ids attrs)
  | KUpdateOrAdd r => cfmap RNew (c_update_or_add_model_instance a r)
  | KNew o => cfmap RRef (here (halloc o))
  | KAssign r o => cfmap (fun _ => RUnit) (here (hset r o))
  | KDiff fuel src dc flags cb => cfmap RDiff (c_diff_from fuel a src dc flags cb)
  | KSync fuel h src dc flags cb given => cfmap RDiff (c_sync_from fuel (unseeing h) a src dc flags cb given)
  end.
(** the calls that change at most one entry of a RedisStore *)
Definition at_once (c : call) : Prop := match c with KRemove _ _ children => children = false | KSync _ _ _ _ _ _ _ => False | _ => True end.
(** the calls that change nothing on the server *)
Definition only_reads (c : call) : Prop :=
  match c with KGet _ _ | KGetOrNone _ _ | KGetAll _ | KByUids _ _ | KNames | KCount _ | KNew _ | KAssign _ _ | KDiff _ _ _ _ _ => True | _ => False end.
(** a history of calls; errors are recorded and do not end it *)
Fixpoint made_all (l : list (aid * call)) (w : world) : world * list (result reply) :=
  match l with
  | [] => (w, [])
  | (a, c) :: l' => let (w1, x) := made a c w in let (w2, xs) := made_all l' w1 in (w2, x :: xs)
  end.
Fixpoint issued_all (l : list (aid * call)) (w : world) : cprog (world * list (result reply)) :=
  match l with
  | [] => Done (w, [])
  | (a, c) :: l' => cthen (issued a c w) (fun wx => cthen (issued_all l' (fst wx)) (fun wxs => Done (fst wxs, snd wx :: snd wxs)))
  end.

(** One command *)
Inductive cstep {A} : dict obj * cprog A -> dict obj * cprog A -> Prop :=
| do_get d k f : cstep (d, CGet k f) (d, f (dget d k))
| do_set d k o p : cstep (d, CSet k o p) (dset d k o, p)
| do_exists d k f : cstep (d, CExists k f) (d, f (match dget d k with Some _ => true | None => false end))
| do_delete d k p : cstep (d, CDelete k p) (ddel d k, p)
| do_scan d pat f : cstep (d, CScan pat f) (d, f (filter (glob pat) (dkeys d))).
(** Several processes: a step is a command of one of them. *)
Inductive sys_step {A} : dict obj * list (cprog A) -> dict obj * list (cprog A) -> Prop :=
| one_moves d d' ps n p p' : nth_error ps n = Some p -> cstep (d, p) (d', p') -> sys_step (d, ps) (d', list_set ps n p').
Inductive many {S} (R : S -> S -> Prop) : S -> S -> Prop :=
| many_none s : many R s s
| many_more s s' s'' : R s s' -> many R s' s'' -> many R s s''.
(** all processes are done *)
Definition all_done {A} (ps : list (cprog A)) (xs : list A) : Prop := ps = map Done xs.

(** The entries of a store, of several stores *)
Definition in_store (i : string) (k : string) : bool := String.prefix (store_label i ++ ":") k.
Definition in_stores (ids : list string) (k : string) : bool := existsb (fun i => in_store i k) ids.
Definition share (ids : list string) (d : dict obj) : dict obj := filter (fun kv => in_stores ids (fst kv)) d.
Definition unshared (ids : list string) (d : dict obj) : dict obj := filter (fun kv => negb (in_stores ids (fst kv))) d.
(** a process: the ids of its Redis stores, its memory, its calls *)
Record process := mkProcess { pr_ids : list string; pr_world : world; pr_calls : list (aid * call) }.
Definition sound_process (p : process) : Prop :=
  w_redis (pr_world p) = [] /\ forall ad j, In ad (w_ads (pr_world p)) -> ad_store ad = SRedis j -> In j (pr_ids p).
Definition started (p : process) : cprog (world * list (result reply)) := issued_all (pr_calls p) (pr_world p).
(** the process makes one call, [add], for the object [o] and the key [k] *)
Definition adds_one (p : process) (k : string) (o : obj) : Prop :=
  exists a r ad i u, pr_calls p = [(a, KAdd r)] /\ nth_error (w_ads (pr_world p)) a = Some ad /\ ad_store ad = SRedis i /\
    nth_error (w_heap (pr_world p)) r = Some o /\ get_unique_id o = Ok u /\ k = redis_key i (get_type o) u.
