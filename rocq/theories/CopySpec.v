(** * CopySpec: what it means that one adapter holds a copy of another's data.

    Vocabulary for C58 and C59. *)
From Verif Require Export ConvergeSpec.

(** reached from the objects of the top-level types through the child lists *)
Inductive rooted (w : world) (a : aid) (tops : list string) : string * string -> Prop :=
| root_top t u l o : In t tops -> objs_all w a t = Ok l -> In o l -> is_key o (t, u) -> rooted w a tops (t, u)
| root_kid p k : rooted w a tops p -> listed w a p k -> rooted w a tops k.

(** neither IGNORE (bit 0) nor SKIP_UNMATCHED_SRC/DST (bits 2 and 3) is set on an object of the adapter *)
Definition unflagged (w : world) (a : aid) : Prop :=
  forall o, read w a o -> N.testbit (o_flags o) 0 = false /\ N.testbit (o_flags o) 2 = false /\ N.testbit (o_flags o) 3 = false.
(** the attributes of the objects have values *)
Definition attributes_set (w : world) (a : aid) : Prop :=
  forall o k, read w a o -> In k (c_attributes (o_cls o)) -> dget (o_vals o) k <> None.

(** [o] has the data of [s]: identifiers, attributes and children *)
Definition copy_of (s o : obj) : Prop :=
  get_type s = get_type o /\ same_shape (o_cls s) (o_cls o) /\
  dict_eq (get_identifiers s) (get_identifiers o) = true /\
  (forall k, In k (c_attributes (o_cls s)) ->
     exists v v', dget (o_vals s) k = Some v /\ dget (o_vals o) k = Some v' /\ py_eq v v' = true) /\
  (forall t f l, In (t, f) (c_children (o_cls s)) -> dget (o_kids s) f = Some l ->
     exists l', dget (o_kids o) f = Some l' /\ NoDup l' /\ forall u, In u l' <-> In u l).

(** the adapter [b] in the world [w'] has exactly what [a] has in [w] *)
Definition holds_copy (w : world) (a : aid) (w' : world) (b : aid) : Prop :=
  (forall s k, read w a s -> is_key s k -> exists o, read w' b o /\ is_key o k /\ copy_of s o) /\
  (forall o k, read w' b o -> is_key o k -> exists s, read w a s /\ is_key s k).

(** Nothing is left out: no flag in the call or on objects, the same top-level types, all objects
    of the source are reached from them, and the destination's objects have their attributes *)
Record entire (w : world) (flags : N) (src dst : aid) (sa da : adapter) : Prop := mkEntire {
  wh_flags : N.testbit flags 1 = false /\ N.testbit flags 2 = false;
  wh_src : unflagged w src;
  wh_dst : unflagged w dst;
  wh_tops : forall t, In t (ad_top sa) <-> In t (ad_top da);
  wh_rooted : forall o k, read w src o -> is_key o k -> rooted w src (ad_top sa) k;
  wh_attrs : attributes_set w dst
}.
