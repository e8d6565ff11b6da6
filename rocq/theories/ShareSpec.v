(** * ShareSpec: histories of constructions and calls. *)
From Verif Require Export ShareDefs.

(** What a program asks of an adapter, or does to objects *)
Inductive acall :=
| CGet (m : mspec) (i : ident) | CGetAll (m : mspec) | CByUids (us : list string) (m : mspec) | CLen
| CAdd (r : ref) | CUpdate (r : ref) | CRemove (fuel : nat) (r : ref) (children : bool)
| CNew (o : obj) | CAssign (r : ref) (o : obj).
Inductive reply := RUnit | RRef (r : ref) | RRefs (l : list ref) | RNat (n : nat).
Definition rmap {S A} (f : A -> reply) (m : M S A) : M S reply := bind m (fun y => ret (f y)).
Definition ask (a : aid) (c : acall) : M shop reply :=
  match c with
  | CGet m i => rmap RRef (by_adapter a (fun s => sh_get s m i))
  | CGetAll m => rmap RRefs (by_adapter a (fun s => sh_get_all s m))
  | CByUids us m => rmap RRefs (by_adapter a (fun s => sh_by_uids s us m))
  | CLen => rmap RNat (by_adapter a sh_count)
  | CAdd r => rmap (fun _ => RUnit) (by_adapter a (fun s => sh_add s r))
  | CUpdate r => rmap (fun _ => RUnit) (by_adapter a (fun s => sh_update s r))
  | CRemove n r ch => rmap (fun _ => RUnit) (by_adapter a (fun s => sh_remove n s r ch))
  | CNew o => rmap RRef (sh_alloc o)
  | CAssign r o => rmap (fun _ => RUnit) (sh_set_obj r o)
  end.

Inductive doing := DStore | DMake (c : adclass) (positional : nat) (kw : dict kwarg) | DCall (a : aid) (c : acall).
Inductive done_with := WStore (s : nat) | WMade (m : making) | WReply (r : result reply).
Definition do_one (d : doing) (x : shop) : shop * done_with :=
  match d with
  | DStore => let (x', s) := make_store x in (x', WStore s)
  | DMake c n kw => let (x', m) := make_adapter c n kw x in (x', WMade m)
  | DCall a c => let (x', r) := ask a c x in (x', WReply r)
  end.
Fixpoint do_all (ds : list doing) (x : shop) : shop * list done_with :=
  match ds with
  | [] => (x, [])
  | d :: ds' => let (x1, o) := do_one d x in let (x2, os) := do_all ds' x1 in (x2, o :: os)
  end.
Definition shop0 : shop := mkShop [] [] [] [].

(** the storage engine given *)
Definition engine_of (kw : dict kwarg) : engine :=
  match dget kw "internal_storage_engine" with Some (mkKw (KEngine e) _) => e | _ => ELocalClass end.
(** the construction is given the store *)
Definition takes_store (s : nat) (d : doing) : Prop := match d with DMake _ _ kw => engine_of kw = EInstance s | _ => False end.

(** ** The same history where every adapter has a store of its own: the world of the other files *)
Definition ask_own (a : aid) (c : acall) : M world reply :=
  match c with
  | CGet m i => rmap RRef (st_get a m i)
  | CGetAll m => rmap RRefs (st_get_all a m)
  | CByUids us m => rmap RRefs (st_get_by_uids a us m)
  | CLen => rmap RNat (st_count a None)
  | CAdd r => rmap (fun _ => RUnit) (st_add a r)
  | CUpdate r => rmap (fun _ => RUnit) (st_update a r)
  | CRemove n r ch => rmap (fun _ => RUnit) (st_remove n a r ch)
  | CNew o => rmap RRef (halloc o)
  | CAssign r o => rmap (fun _ => RUnit) (hset r o)
  end.
Definition own_adapter (x : shop) (p : pyad) : adapter :=
  set_ad_store (pa_ad p) (SLocal (match nth_error (sh_stores x) (pa_slot p) with Some l => ls_data l | None => [] end)).
Definition own_world (x : shop) : world := mkWorld (sh_heap x) (map (own_adapter x) (sh_ads x)) [] (sh_trace x).
(** no adapter is given a store that has an adapter already *)
Fixpoint own_stores (ds : list doing) (x : shop) : Prop :=
  match ds with
  | [] => True
  | d :: ds' => (forall s l, takes_store s d -> nth_error (sh_stores x) s = Some l -> ls_owner l = None) /\ own_stores ds' (fst (do_one d x))
  end.
