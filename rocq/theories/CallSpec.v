(** * CallSpec: the vocabulary of the properties about the events of a synchronisation. *)
From Verif Require Export RunSpec.

(** ** Events of a run *)
(** what was recorded between two moments *)
Definition new_events (w w' : world) : list event := skipn (length (w_trace w)) (w_trace w').
Definition hookb (ev : event) : bool := match ev with EvHook _ _ _ _ => true | _ => false end.
Definition hook_calls (evs : list event) : list event := filter hookb evs.
Definition sync_callback (ev : event) : bool := match ev with EvCallback s _ _ => String.eqb s "sync" | _ => false end.
Definition completeb (ev : event) : bool := match ev with EvSyncComplete _ _ => true | _ => false end.
(** something was attempted: a hook call, or the record of a failure *)
Definition attempted (ev : event) : Prop :=
  match ev with EvHook _ _ _ _ => True | EvLog _ _ (Some StError) _ => True | _ => False end.

(** ** What a diff prescribes *)
(** everything below an element to delete is to be deleted *)
Definition deletes_whole (gs : dict (dict elem)) : Prop :=
  forall e k, occurs e gs -> e_action e = Some ADelete -> In k (children (e_kids e)) -> e_action k = Some ADelete.
(** no key is both created and deleted *)
Definition no_moves (w : world) (dst : aid) (gs : dict (dict elem)) : Prop :=
  forall k, mentioned w dst gs is_create_act k -> mentioned w dst gs is_delete_act k -> False.
(** the objects of elements without changes are there and not about to be removed *)
Definition unchanged_stay (w : world) (dst : aid) (gs : dict (dict elem)) : Prop :=
  forall e k, occurs e gs -> e_action e = None -> names w dst e k ->
    lookup w dst (fst k) (snd k) <> None /\ ~ doomed w dst gs k.
(** the diff is well-formed for the destination *)
Definition well_posed (w : world) (dst : aid) (gs : dict (dict elem)) : Prop :=
  sets_no_identifier w dst gs /\ no_moves w dst gs /\ unchanged_stay w dst gs.
(** the elements of a diff, parents first, children in the diff's order *)
Fixpoint walk (ord : order_fn) (e : elem) : list elem := e :: concat (ordered ord (walk ord) (e_kids e)).
Definition diff_walk (d : diff) : list elem := concat (ordered (dc_order (d_class d)) (walk (dc_order (d_class d))) (d_groups d)).
Definition acted (e : elem) : bool := match e_action e with Some _ => true | None => false end.
(** the destination's object for the element *)
Definition dst_obj (w : world) (dst : aid) (e : elem) (o : obj) : Prop :=
  exists k r, names w dst e k /\ lookup w dst (fst k) (snd k) = Some r /\ nth_error (w_heap w) r = Some o.

Section Calls.
  Variables (w : world) (dst : aid) (ord : order_fn).
  Variable Fine : event -> Prop.      (* calls that may return the object *)
  Variable Fails : event -> Prop.     (* calls that may fail *)
  Variable Missed : Prop.             (* whether elements may be left out *)

  (** the call the element asks for *)
  Definition about (e : elem) (ev : event) : Prop :=
    exists k, names w dst e k /\
    match ev with
    | EvHook a t ids attrs =>
        e_action e = Some a /\ t = fst k /\ attrs = plus_attrs e /\
        (a = ACreate -> ids = e_keys e) /\
        (a <> ACreate -> exists o, ids = get_identifiers o /\ get_type o = fst k /\ get_unique_id o = Ok (snd k))
    | _ => False
    end.

  Definition kids_in_order (e : elem) : list elem := ordered ord (fun x => x) (e_kids e).

  Inductive calls : elem -> list event -> Prop :=
  | ca_same e evs : e_action e = None -> calls_all (kids_in_order e) evs -> calls e evs
  | ca_make e call evs : e_action e = Some ACreate \/ e_action e = Some AUpdate ->
      about e call -> Fine call -> calls_all (kids_in_order e) evs -> calls e (call :: evs)
  | ca_delete e o call evs : e_action e = Some ADelete ->
      dst_obj w dst e o -> ~ naturally o -> ~ skips_children (o_flags o) ->
      about e call -> Fine call -> calls_all (kids_in_order e) evs -> calls e (call :: evs)
  | ca_natural e o call evs : e_action e = Some ADelete ->
      dst_obj w dst e o -> naturally o -> ~ skips_children (o_flags o) ->
      calls_all (kids_in_order e) evs -> about e call -> calls e (evs ++ [call])
  | ca_cascade e o call : e_action e = Some ADelete ->
      dst_obj w dst e o -> skips_children (o_flags o) -> about e call -> Fine call -> calls e [call]
  | ca_failed e call : about e call -> Fails call ->
      (e_action e = Some ADelete -> exists o, dst_obj w dst e o /\ (~ naturally o \/ skips_children (o_flags o))) ->
      calls e [call]
  | ca_missed e : Missed -> e_action e <> None -> calls e []
  with calls_all : list elem -> list event -> Prop :=
  | ca_nil : calls_all [] []
  | ca_cons e es evs1 evs2 : calls e evs1 -> calls_all es evs2 -> calls_all (e :: es) (evs1 ++ evs2).
End Calls.

(** ObjectCrudException and its subclasses *)
Definition crud_exception (x : exn) : Prop := In x [ObjectCrudException; ObjectNotCreated; ObjectNotUpdated; ObjectNotDeleted].
(** every status record (a log record with a status) carries action, type and unique id of
    an element, that of the call before it if there is one; every call is followed
    by such a record, unless it is the last event and [cut] *)
Section Told.
  Variables (Ends : event -> callend -> Prop) (flags : N).
  Variables (w : world) (dst : aid) (gs : dict (dict elem)).
  (** level, status and message of the record after a call: those of the object it returned, a
      warning if it returned none, an error if it raised *)
  Definition reported (call : event) (t : string) (a : option action) (lvl : loglevel) (st : status) (msg : string) : Prop :=
    (Ends call (CSays st msg) /\ lvl = level_of st) \/
    (Ends call CNone /\ lvl = LWarning /\ st = StFailure /\ msg = no_object_msg t a) \/
    (exists x, crud_exception x /\ Ends call (CRaise x) /\ lvl = LError /\ st = StError).
  (** those of a record without a call: nothing to do, or nothing that could be done *)
  Definition uncalled (a : option action) (lvl : loglevel) (st : status) (msg : string) : Prop :=
    match a with
    | None => N.testbit flags 3 = true /\ lvl = LDebug /\ st = StSuccess /\ msg = "No changes to apply; no action needed"
    | Some _ => lvl = LError /\ st = StError
    end.
  Inductive told (cut : bool) : list event -> Prop :=
  | td_nil : told cut []
  | td_cut call : cut = true -> hookb call = true -> told cut [call]
  | td_call call lvl e k st msg evs : occurs e gs -> names w dst e k -> about w dst e call ->
      reported call (fst k) (e_action e) lvl st msg -> told cut evs ->
      told cut (call :: EvLog lvl (Some (mkCtx (e_action e) (e_type e) (snd k))) (Some st) msg :: evs)
  | td_record lvl e k st msg evs : occurs e gs -> names w dst e k -> uncalled (e_action e) lvl st msg -> told cut evs ->
      told cut (EvLog lvl (Some (mkCtx (e_action e) (e_type e) (snd k))) (Some st) msg :: evs)
  | td_other ev evs : hookb ev = false -> (forall lvl ctx st msg, ev <> EvLog lvl ctx (Some st) msg) -> told cut evs -> told cut (ev :: evs).
End Told.

(** every hook calls the base method and returns the object *)
Definition hooks_succeed (h : hooks) : Prop := forall w hc, ho_base (h w hc) = true /\ ho_end (h w hc) = HReturn.
(** the hooks write no field outside [X] *)
Definition hooks_write (X : string -> Prop) (h : hooks) : Prop := forall w hc k, In k (dkeys (ho_fields (h w hc))) -> X k.
(** the failures that CONTINUE_ON_FAILURE (bit 0 of the flags) lets pass, and those that always pass *)
Definition tolerated (h : hooks) (flags : N) (call : event) : Prop :=
  may_end h call CNone \/ (N.testbit flags 0 = true /\ exists x, crud_exception x /\ may_end h call (CRaise x)).
(** the number of hook calls made so far *)
Definition made (w : world) : nat := length (hook_calls (w_trace w)).
(** the call number n (from 0) after [w] raises x, whatever it is *)
Definition raises_at (h : hooks) (w : world) (n : nat) (x : exn) : Prop :=
  forall w1 hc, made w1 = made w + n -> ho_base (h w1 hc) = false /\ ho_end (h w1 hc) = HRaise x.
(** nothing changed but the statuses of objects (buckets without entries may have appeared) *)
Definition undisturbed (w w' : world) : Prop :=
  (forall r o, nth_error (w_heap w) r = Some o -> exists st msg, nth_error (w_heap w') r = Some (set_status o st msg)) /\
  w_redis w' = w_redis w /\
  Forall2 (fun ad ad' => exists s', ad' = set_ad_store ad s' /\ store_ext (ad_store ad) s') (w_ads w) (w_ads w').
(** the elements a synchronisation reaches: all but those below objects deleted together with their children *)
Inductive is_reached (w : world) (dst : aid) (ord : order_fn) (gs : dict (dict elem)) : elem -> Prop :=
| re_top e : In e (ordered ord (fun x => x) gs) -> is_reached w dst ord gs e
| re_below p e : is_reached w dst ord gs p -> In e (kids_in_order ord p) ->
    (e_action p = Some ADelete -> forall o, dst_obj w dst p o -> ~ skips_children (o_flags o)) -> is_reached w dst ord gs e.
