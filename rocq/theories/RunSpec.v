(** * RunSpec: the possible courses of a synchronisation.

    A relation between a diff and the events of a run (hook calls, log records,
    progress callbacks), independent of stores and of what the hooks do: it says
    which events can occur, in which order, and how the run ends. *)
From Verif Require Export SyncSpec SyncMaster.

(** what trying to create, update or delete the object of an element led to *)
Inductive verdict := VModel | VNothing | VRaise (x : exn).

Definition acted (e : elem) : bool := match e_action e with Some _ => true | None => false end.
Definition level_of (st : status) : loglevel :=
  match st with StSuccess => LInfo | StFailure => LWarning | _ => LError end.
Definition mismatch (a : action) : exn :=
  match a with ACreate => ObjectNotCreated | AUpdate => ObjectNotUpdated | ADelete => ObjectNotDeleted end.
(** the message about a hook that returned None *)
Definition verb (a : option action) : string :=
  match a with Some ACreate => "create" | Some AUpdate => "update" | Some ADelete => "delete" | None => "None" end.
Definition no_object_msg (t : string) (a : option action) : string := (t ++ " " ++ verb a ++ " did not return the model object.")%string.
Definition naturally (o : obj) : Prop := N.testbit (o_flags o) 4 = true.

(** one course of an element: events, and the number of elements counted as processed *)
Definition course := nat -> list event -> nat -> result bool -> Prop.

(** courses one after the other; [b] tells whether anything was attempted *)
Inductive steps : list course -> nat -> bool -> list event -> nat -> result bool -> Prop :=
| sp_nil n b : steps [] n b [] n (Ok b)
| sp_cons (c : course) cs n b ev1 n1 b1 ev2 n2 r :
    c n ev1 n1 (Ok b1) -> steps cs n1 (b || b1) ev2 n2 r -> steps (c :: cs) n b (ev1 ++ ev2) n2 r
| sp_err (c : course) cs n b ev n1 x : c n ev n1 (Err x) -> steps (c :: cs) n b ev n1 (Err x).

(** ** How a hook call may end: with the object, without one, raising; [CSays]: with an object of that status *)
Inductive callend := CModel | CNone | CRaise (x : exn) | CSays (st : status) (msg : string).
(** the record of a call *)
Definition call_event (w : world) (hc : hookcall) (ev : event) : Prop :=
  match hc with
  | HCreate c ids attrs => ev = EvHook ACreate (c_modelname c) ids attrs
  | HUpdate r attrs => exists o, nth_error (w_heap w) r = Some o /\ ev = EvHook AUpdate (get_type o) (get_identifiers o) attrs
  | HDelete r => exists o, nth_error (w_heap w) r = Some o /\ ev = EvHook ADelete (get_type o) (get_identifiers o) []
  end.
(** the status of the object a call returned: the one the hook set, or else that of the base method, or else the previous one *)
Definition says (w : world) (hc : hookcall) (out : outcome) (st : status) (msg : string) : Prop :=
  match ho_status out with
  | Some x => x = (st, msg)
  | None =>
      if ho_base out
      then st = StSuccess /\ msg = match hc with HCreate _ _ _ => "Created successfully" | HUpdate _ _ => "Updated successfully"
                                                | HDelete _ => "Deleted successfully" end
      else match hc with
           | HCreate _ _ _ => False
           | HUpdate r _ | HDelete r => exists o, nth_error (w_heap w) r = Some o /\ o_status o = st /\ o_msg o = msg
           end
  end.
(** some call with this record ends that way *)
Definition may_end (h : hooks) (ev : event) (r : callend) : Prop :=
  exists w hc, call_event w hc ev /\
    match r with
    | CModel => ho_end (h w hc) = HReturn
    | CNone => ho_end (h w hc) = HReturnNone \/ (ho_end (h w hc) = HReturn /\ ho_base (h w hc) = false)
    | CRaise x => ho_end (h w hc) = HRaise x
    | CSays st msg => ho_end (h w hc) = HReturn /\ says w hc (h w hc) st msg
    end.

Section Course.
  Variables (flags : N) (cb : bool) (total : nat).
  Variable Ends : event -> callend -> Prop.  (* how a call may end *)
  Variable Has : elem -> obj -> Prop.       (* the destination has this object for the element *)
  Variable Lacks : elem -> Prop.            (* the destination has no object for the element *)
  Variable clsof : elem -> option cls.      (* the destination's model class *)

  (** only objects that are not there are created, only those that are there are updated or deleted *)
  Definition call_of (e : elem) (c : cls) (found : bool) (ev : event) : Prop :=
    found = negb (is_create (e_action e)) /\
    match e_action e with
    | Some ACreate => ev = EvHook ACreate (c_modelname c) (e_keys e) (plus_attrs e)
    | Some AUpdate => exists o, Has e o /\ ev = EvHook AUpdate (get_type o) (get_identifiers o) (plus_attrs e)
    | Some ADelete => exists o, Has e o /\ ev = EvHook ADelete (get_type o) (get_identifiers o) []
    | None => False
    end.

  Definition unchanged_log (ctx : option logctx) : list event :=
    if N.testbit flags 3 then [EvLog LDebug ctx (Some StSuccess) "No changes to apply; no action needed"] else [].

  (** the hook call and the record about it; [found]: the destination has an object for the element;
      [lg]: what the records are about, and the type name used in messages *)
  Inductive attempt (e : elem) (c : cls) (lg : option logctx * string) (found : bool) : list event -> verdict -> Prop :=
  | at_same v : e_action e = None -> (v = VModel /\ found = true /\ exists o, Has e o) \/ (v = VNothing /\ found = false /\ Lacks e) ->
      attempt e c lg found (unchanged_log (fst lg)) v
  | at_done call st msg : call_of e c found call -> Ends call CModel -> Ends call (CSays st msg) ->
      attempt e c lg found [call; EvLog (level_of st) (fst lg) (Some st) msg] VModel
  | at_none call msg : call_of e c found call -> Ends call CNone -> msg = no_object_msg (snd lg) (e_action e) ->
      attempt e c lg found [call; EvLog LWarning (fst lg) (Some StFailure) msg] VNothing
  | at_absurd a : e_action e = Some a -> found = is_create (Some a) ->
      (if is_create (Some a) then exists o, Has e o else Lacks e) ->
      attempt e c lg found [EvLog LError (fst lg) (Some StError) (exn_msg (mismatch a))]
              (if N.testbit flags 0 then VNothing else VRaise (mismatch a))
  | at_crud call x : call_of e c found call -> is_crud x = true -> Ends call (CRaise x) ->
      attempt e c lg found [call; EvLog LError (fst lg) (Some StError) (exn_msg x)] (if N.testbit flags 0 then VNothing else VRaise x)
  | at_other call x : call_of e c found call -> is_crud x = false -> attempt e c lg found [call] (VRaise x)
  | at_broken x : is_crud x = false -> attempt e c lg found [] (VRaise x).

  Definition no_object_log (ctx : option logctx) : event :=
    EvLog LWarning ctx None "No object resulted from sync, will not process child objects.".
  (** records of the removal of children that are not there *)
  Definition missing_child (ev : event) : Prop :=
    ev = EvLog LError None None "Unable to remove child element as it was not found!".
  Definition progress (n : nat) : list event := if cb then [EvCallback "sync" n total] else [].

  (** children first: deletions in natural order *)
  Definition before (e : elem) (kids : list course) (n : nat) (found nat1 : bool) (evs : list event) (n' : nat) : Prop :=
    if nat1
    then e_action e = Some ADelete /\ (exists o, Has e o /\ naturally o /\ ~ skips_children (o_flags o)) /\
         exists b, steps kids n false evs n' (Ok b)
    else evs = [] /\ n' = n /\
         (e_action e = Some ADelete -> if found then exists o, Has e o /\ (~ naturally o \/ skips_children (o_flags o)) else Lacks e).

  Inductive after (e : elem) (kids : list course) (nat1 : bool) (n : nat) (ctx : option logctx)
    : verdict -> list event -> nat -> result bool -> Prop :=
  | af_raise x : after e kids nat1 n ctx (VRaise x) [] n (Err x)
  | af_none : after e kids nat1 n ctx VNothing [no_object_log ctx] n (Ok (acted e))
  | af_store evs x : is_crud x = false -> Forall missing_child evs -> e_action e <> None ->
      after e kids nat1 n ctx VModel evs n (Err x)
  | af_cascade evs o : e_action e = Some ADelete -> Has e o -> skips_children (o_flags o) -> Forall missing_child evs ->
      after e kids nat1 n ctx VModel evs n (Ok true)
  | af_kids evs n' r : nat1 = false ->
      (e_action e = Some ADelete -> exists o, Has e o /\ ~ skips_children (o_flags o) /\ ~ naturally o) ->
      steps kids (S n) (acted e) evs n' r ->
      after e kids nat1 n ctx VModel (progress (S n) ++ evs) n' r
  | af_last : nat1 = true -> after e kids nat1 n ctx VModel (progress (S n)) (S n) (Ok true).

  Inductive one (e : elem) (kids : list course) (n : nat) : list event -> nat -> result bool -> Prop :=
  | one_broken x : is_crud x = false -> one e kids n [] n (Err x)
  | one_kids_raise evs n' x : e_action e = Some ADelete ->
      (exists o, Has e o /\ naturally o /\ ~ skips_children (o_flags o)) ->
      steps kids n false evs n' (Err x) -> one e kids n evs n' (Err x)
  | one_main c u found nat1 evk nk lg eva v evr n' r :
      clsof e = Some c -> create_unique_id c (e_keys e) = Ok u ->
      before e kids n found nat1 evk nk ->
      (nat1 = false -> lg = (Some (mkCtx (e_action e) (e_type e) u), c_modelname c)) ->
      (nat1 = true -> found = true) -> attempt e c lg found eva v -> after e kids nat1 nk (fst lg) v evr n' r ->
      one e kids n (evk ++ eva ++ evr) n' r.

  Variable ord : order_fn.
  Fixpoint run_of (e : elem) {struct e} : course := one e (ordered ord run_of (e_kids e)).
  Definition run_of_all (gs : dict (dict elem)) (evs : list event) (n : nat) (r : result bool) : Prop :=
    steps (ordered ord run_of gs) 0 false evs n r.
End Course.
