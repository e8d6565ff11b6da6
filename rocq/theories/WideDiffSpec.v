(** * WideDiffSpec: calls of user code while a diff is calculated. *)
From Verif Require Export DifferSpec SyncSpec WideDiffDefs.

(** what a call does *)
Definition run_dcall (D : duser) (c : dcall) : M world unit :=
  match c with
  | DProgress n t => du_progress D n t
  | DComplete d => fun w => (fst (du_complete D d w), match snd (du_complete D d w) with Ok _ => Ok tt | Err x => Err x end)
  end.
(** user code that only reads, though it may raise *)
Definition reading (D : duser) : Prop := forall c w, read_only w (fst (run_dcall D c w)).

(** From the first world to the last: the logged calls, and otherwise only reading *)
Inductive only_calls (D : duser) : world -> list dentry -> world -> Prop :=
| oc_end w w' : read_only w w' -> only_calls D w [] w'
| oc_call w u l w' : read_only w (de_world u) -> run_dcall D (de_call u) (de_world u) = (de_after u, de_result u) ->
    only_calls D (de_after u) l w' -> only_calls D w (u :: l) w'.

Definition no_raise (u : dentry) : Prop := de_result u = Ok tt.
(** the exception of a call ends the calculation *)
Definition raises_last {A} (l : list dentry) (r : result A) : Prop :=
  Forall no_raise l \/ exists l0 u x, l = l0 ++ [u] /\ Forall no_raise l0 /\ de_result u = Err x /\ r = Err x.

(** the call that belongs to an event of the plain calculation *)
Definition call_of_event (e : event) : list dcall := match e with EvCallback _ n t => [DProgress n t] | _ => [] end.

(** An element shows two objects (or one) as they are in a world, with the names of the adapters *)
Definition object_in (w : world) (o : option ref) : option obj :=
  match o with Some r => nth_error (w_heap w) r | None => None end.
Record pictures (w : world) (src dst : aid) (flags : N) (so do : option ref) (e : elem) : Prop := mkPict {
  pi_there : (so <> None -> object_in w so <> None) /\ (do <> None -> object_in w do <> None) /\ (so <> None \/ do <> None);
  pi_src : e_src e = option_map get_attrs (object_in w so);
  pi_dst : e_dst e = option_map get_attrs (object_in w do);
  pi_about : forall o, (match object_in w so with Some s => Some s | None => object_in w do end) = Some o ->
    e_type e = get_type o /\ e_keys e = get_identifiers o /\ get_shortname o = Ok (e_name e);
  pi_names : exists sa da, nth_error (w_ads w) src = Some sa /\ nth_error (w_ads w) dst = Some da /\
    e_sname e = ad_name sa /\ e_dname e = ad_name da;
  (** none of the two carries IGNORE (bit 0); one that stands alone does not carry SKIP_UNMATCHED_SRC or _DST (bits 2 and 3),
      nor does the call (bits 1 and 2) *)
  pi_ignore : (forall o, object_in w so = Some o -> N.testbit (o_flags o) 0 = false) /\
              (forall o, object_in w do = Some o -> N.testbit (o_flags o) 0 = false);
  pi_create : forall o, object_in w so = Some o -> do = None -> N.testbit (o_flags o) 2 = false /\ N.testbit flags 1 = false;
  pi_delete : forall o, object_in w do = Some o -> so = None -> N.testbit (o_flags o) 3 = false /\ N.testbit flags 2 = false
}.
(** the worlds in which no user code is running: the first one and those after the calls *)
Definition at_rest (w : world) (l : list dentry) (w1 : world) : Prop := w1 = w \/ exists u, In u l /\ w1 = de_after u.
(** At one of these moments the adapter, if it has a LocalStore, held the object *)
Definition was_held (w : world) (l : list dentry) (a : aid) (o : option ref) : Prop :=
  forall r, o = Some r -> exists w1, at_rest w l w1 /\
    forall ad d, nth_error (w_ads w1) a = Some ad -> ad_store ad = SLocal d -> holds w1 a r.
