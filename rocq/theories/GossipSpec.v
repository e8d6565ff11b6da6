(** * GossipSpec: adapters that only grow.

    Vocabulary for C97: sequences of additions and of synchronisations that keep what the destination has.  What an adapter
    has come to know is said of the history alone, without records being merged. *)
From Verif Require Export EditSpec.

(** An addition, or a synchronisation with SKIP_UNMATCHED_DST (bit 2) and without SKIP_UNMATCHED_SRC (bit 1) *)
Definition grows (ch : change) : Prop :=
  match ch with
  | Insert _ _ => True
  | Sync c => N.testbit (sy_flags c) 1 = false /\ N.testbit (sy_flags c) 2 = true
  | _ => False
  end.
(** A record is known to an adapter if it was added there, or if the adapter was synchronised from one to which
    it was known at that time. *)
Inductive knows : list change -> aid -> row -> Prop :=
| knows_added l m a x : knows (l ++ Insert a x :: m) a x
| knows_told l m c x : knows l (sy_src c) x -> knows (l ++ Sync c :: m) (sy_dst c) x.

(** Records with the same type and unique id have equal attributes *)
Definition agreeing (cs : dict cls) (U : list row) : Prop :=
  forall x y c f, In x U -> In y U -> row_key cs x = row_key cs y -> dget cs (r_type x) = Some c -> In f (c_attributes c) ->
    exists v v', value_in c (r_kw x) f = Some v /\ value_in c (r_kw y) f = Some v' /\ py_eq v v' = true.

(** [rows] has, in whatever order, one record for each type and unique id of which the adapter knows a record *)
Record sums (cs : dict cls) (l : list change) (a : aid) (rows : list row) : Prop := mkSums {
  su_once : NoDup (map (row_key cs) rows);
  su_known : forall x, In x rows -> knows l a x;
  su_all : forall x, knows l a x -> exists y, In y rows /\ row_key cs y = row_key cs x
}.
(** two adapters, perhaps after different histories, know of the same objects *)
Definition know_alike (cs : dict cls) (l : list change) (a : aid) (l' : list change) (a' : aid) : Prop :=
  (forall x, knows l a x -> exists y, knows l' a' y /\ row_key cs y = row_key cs x) /\
  (forall y, knows l' a' y -> exists x, knows l a x /\ row_key cs x = row_key cs y).
