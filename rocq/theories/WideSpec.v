(** * WideSpec: calls of user code in a synchronisation. *)
From Verif Require Export StoreSpec SyncSpec WideDefs.

Definition hook_call (c : ucall) : bool := match c with UCreate _ _ _ | UUpdate _ _ _ | UDelete _ _ => true | _ => false end.
Definition hook_log (l : list uentry) : list uentry := filter (fun u => hook_call (ue_call u)) l.

(** the destination's class for an element, in a world *)
Definition class_in (w : world) (dst : aid) (e : elem) (c : cls) : Prop :=
  exists ad, nth_error (w_ads w) dst = Some ad /\ dget (ad_classes ad) (e_type e) = Some c.
Definition keeps_local (w : world) (a : aid) : Prop := exists ad d, nth_error (w_ads w) a = Some ad /\ ad_store ad = SLocal d.

(** the values under "+" *)
Definition wanted (e : elem) : dict val := match ad_plus (e_attrs_diffs e) with Some p => p | None => [] end.

(** The call is the one the element asks for.  A LocalStore that is asked to create an object does not have it, and an object
    that is to be updated is the one it has, even if user code changed the destination meanwhile *)
Definition call_for (dst : aid) (e : elem) (u : uentry) : Prop :=
  match ue_call u with
  | UCreate c ids attrs =>
      e_action e = Some ACreate /\ ids = e_keys e /\ attrs = wanted e /\ class_in (ue_world u) dst e c /\
      exists uid, create_unique_id c ids = Ok uid /\ lookup (ue_world u) dst (c_modelname c) uid = None
  | UUpdate r ids attrs =>
      e_action e = Some AUpdate /\ ids = e_keys e /\ attrs = wanted e /\
      (keeps_local (ue_world u) dst ->
       exists c uid, class_in (ue_world u) dst e c /\ create_unique_id c ids = Ok uid /\ lookup (ue_world u) dst (c_modelname c) uid = Some r)
  | UDelete r ids => e_action e = Some ADelete /\ ids = e_keys e
  | _ => False
  end.

(** The hook calls for an element and those below it: its own at most once, before those for its children or, if it is to
    be deleted, perhaps after them; none for the children if it asks for a call that is not made *)
Inductive visit (ord : order_fn) (dst : aid) : elem -> list uentry -> Prop :=
| vis_none e : visit ord dst e []
| vis_own e u l : call_for dst e u -> visits ord dst (ordered ord (fun x => x) (e_kids e)) l -> visit ord dst e (u :: l)
| vis_pass e l : e_action e = None -> visits ord dst (ordered ord (fun x => x) (e_kids e)) l -> visit ord dst e l
| vis_cut e l : e_action e = Some ADelete -> visits ord dst (ordered ord (fun x => x) (e_kids e)) l -> visit ord dst e l
| vis_last e u l : e_action e = Some ADelete -> visits ord dst (ordered ord (fun x => x) (e_kids e)) l -> call_for dst e u -> visit ord dst e (l ++ [u])
with visits (ord : order_fn) (dst : aid) : list elem -> list uentry -> Prop :=
| vis_nil : visits ord dst [] []
| vis_cons e es l l' : visit ord dst e l -> visits ord dst es l' -> visits ord dst (e :: es) (l ++ l').

(** An exception of user code ends the synchronisation, unless it is an ObjectCrudException of a hook and
    CONTINUE_ON_FAILURE (bit 0) is given *)
Definition forgiven (flags : N) (u : uentry) : Prop :=
  match ue_result u with
  | Ok _ => True
  | Err x => hook_call (ue_call u) = true /\ is_crud x = true /\ N.testbit flags 0 = true
  end.
Definition orderly {A} (flags : N) (l : list uentry) (r : result A) : Prop :=
  Forall (forgiven flags) l \/
  exists l0 u x, l = l0 ++ [u] /\ Forall (forgiven flags) l0 /\ ue_result u = Err x /\ r = Err x.

(** the numbers that the callback was given *)
Definition numbers (l : list uentry) : list (nat * nat) :=
  flat_map (fun u => match ue_call u with UProgress n t => [(n, t)] | _ => [] end) l.

(** the objects that may change: those of the destination and new ones *)
Definition may_change (w0 : world) (dst : aid) (r : ref) : Prop := length (w_heap w0) <= r \/ holds w0 dst r.
Definition refs_of (c : ucall) : list ref := match c with UUpdate r _ _ | UDelete r _ => [r] | _ => [] end.
(** Compared with [w0], at most the destination changed: its store now holds such objects only, the other adapters have
    what they had, though perhaps new empty buckets, and the server lost or got keys of the destination only *)
Record only_dst (w0 : world) (dst : aid) (w : world) : Prop := mkOnly {
  od_len : length (w_heap w0) <= length (w_heap w);
  od_heap : forall r, ~ may_change w0 dst r -> nth_error (w_heap w) r = nth_error (w_heap w0) r;
  od_holds : forall r, holds w dst r -> may_change w0 dst r;
  od_ads : forall b, b <> dst ->
    match nth_error (w_ads w0) b, nth_error (w_ads w) b with
    | Some a, Some a' => exists s, a' = set_ad_store a s /\ store_ext (ad_store a) s
    | None, None => True
    | _, _ => False
    end;
  od_dst :
    match nth_error (w_ads w0) dst, nth_error (w_ads w) dst with
    | Some a, Some a' => exists s, a' = set_ad_store a s /\ match ad_store a, s with SLocal _, SLocal _ => True | SRedis i, SRedis j => i = j | _, _ => False end
    | None, None => True
    | _, _ => False
    end;
  od_redis : forall k, (forall ad sid m u, nth_error (w_ads w0) dst = Some ad -> ad_store ad = SRedis sid -> k <> redis_key sid m u) ->
    dget (w_redis w) k = dget (w_redis w0) k
}.
(** user code that keeps to the destination: if that was so before the call it is so after, and what is returned may change *)
Definition keeps_to_dst (w0 : world) (dst : aid) (U : user) : Prop :=
  forall c w, only_dst w0 dst w -> (forall r, In r (refs_of c) -> may_change w0 dst r) ->
    only_dst w0 dst (fst (u_code U c w)) /\ forall r, snd (u_code U c w) = Ok (Some r) -> may_change w0 dst r.
