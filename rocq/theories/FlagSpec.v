(** * FlagSpec: what the flags of the call and of the objects leave out of a synchronisation.

    Vocabulary for C80. *)
From Verif Require Export SkipSpec DifferSpec.

(** the object of the adapter under this type and unique id, if there is one *)
Definition obj_at (w : world) (a : aid) (k : string * string) (so : option obj) : Prop :=
  match so with Some o => read w a o /\ is_key o k | None => ~ there w a k end.
(** The objects of the key are passed over: because of the flags of the call and of the two objects
    ([suppressed]), or because their parent is. *)
Inductive left_out (flags : N) (w : world) (src dst : aid) : string * string -> Prop :=
| lo_self k so do : obj_at w src k so -> obj_at w dst k do -> suppressed flags so do -> left_out flags w src dst k
| lo_below p k : left_out flags w src dst p -> listed w src p k \/ listed w dst p k -> left_out flags w src dst k.
(** The object is below one that is deleted along with everything below it: one that only the destination
    has, that is not passed over and has SKIP_CHILDREN_ON_DELETE (bit 1 of its flags, enum.py:32). *)
Definition swept (flags : N) (w : world) (src dst : aid) (k : string * string) : Prop :=
  exists p z, read w dst z /\ is_key z p /\ ~ there w src p /\ ~ left_out flags w src dst p /\
    N.testbit (o_flags z) 1 = true /\ reaches w dst p k.

(** The destination in [w'], from the two adapters in [w]. *)
Record ruled (flags : N) (w : world) (src dst : aid) (w' : world) : Prop := mkRuled {
  (** it has what the source has, apart from what is passed over; and of its own what is passed over,
      apart from what is deleted along with something else *)
  ru_keys : forall k, there w' dst k <->
    (there w src k /\ ~ left_out flags w src dst k) \/ (there w dst k /\ left_out flags w src dst k /\ ~ swept flags w src dst k);
  (** what it has from the source has the values there; its children are those there that are not passed over,
      and its own that are *)
  ru_values : forall s o k, read w src s -> is_key s k -> ~ left_out flags w src dst k -> read w' dst o -> is_key o k -> values_of s o /\
    forall t f, In (t, f) (c_children (o_cls s)) -> exists l, dget (o_kids o) f = Some l /\ NoDup l /\
      forall u, In u l <-> (has_child s f u /\ ~ left_out flags w src dst (t, u)) \/
        ((exists z, read w dst z /\ is_key z k /\ has_child z f u) /\ left_out flags w src dst (t, u));
  (** what is passed over is as before *)
  ru_rest : forall z o k, read w dst z -> is_key z k -> left_out flags w src dst k -> read w' dst o -> is_key o k -> same_data z o
}.

(** the top-level types agree, nothing in the source is unreachable, the destination's attributes have values *)
Record wired (w : world) (src dst : aid) (sa da : adapter) : Prop := mkWired {
  wi_tops : forall t, In t (ad_top sa) <-> In t (ad_top da);
  wi_rooted : forall o k, read w src o -> is_key o k -> rooted w src (ad_top sa) k;
  wi_attrs : attributes_set w dst
}.
