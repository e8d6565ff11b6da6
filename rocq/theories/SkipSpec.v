(** * SkipSpec: what the flags SKIP_UNMATCHED_SRC and SKIP_UNMATCHED_DST select.

    Vocabulary for C78. *)
From Verif Require Export CopySpec OutcomeSpec.

(** the adapter has an object of this type and unique id *)
Definition there (w : world) (a : aid) (k : string * string) : Prop := exists o, read w a o /\ is_key o k.
(** What should be there afterwards, of what the source has ([s]) and the destination had ([d]): what both
    have, what only the source has unless SKIP_UNMATCHED_SRC (bit 1) is set, and what only the destination has
    if SKIP_UNMATCHED_DST (bit 2) is set. *)
Definition selected (flags : N) (s d : Prop) : Prop :=
  (s /\ d) \/ (s /\ ~ d /\ N.testbit flags 1 = false) \/ (~ s /\ d /\ N.testbit flags 2 = true).
(** [o] has the identifiers and attributes of [s] *)
Definition values_of (s o : obj) : Prop :=
  get_type s = get_type o /\ same_shape (o_cls s) (o_cls o) /\
  dict_eq (get_identifiers s) (get_identifiers o) = true /\
  forall k, In k (c_attributes (o_cls s)) -> exists v v', dget (o_vals s) k = Some v /\ dget (o_vals o) k = Some v' /\ py_eq v v' = true.

(** The destination in [w'] has what is selected of the two adapters in [w]; what the source has too has
    its values, and children as selected; the rest is as before. *)
Record merged (flags : N) (w : world) (src dst : aid) (w' : world) : Prop := mkMerged {
  mg_keys : forall k, there w' dst k <-> selected flags (there w src k) (there w dst k);
  mg_values : forall s o k, read w src s -> is_key s k -> read w' dst o -> is_key o k -> values_of s o /\
    forall t f, In (t, f) (c_children (o_cls s)) -> exists l, dget (o_kids o) f = Some l /\ NoDup l /\
      forall u, In u l <-> selected flags (has_child s f u) (exists z, read w dst z /\ is_key z k /\ has_child z f u);
  mg_rest : forall z o k, read w dst z -> is_key z k -> ~ there w src k -> read w' dst o -> is_key o k -> same_data z o
}.
