(** * DataSpec: what an adapter has_entries, whatever the back end.

    Vocabulary for C54 and C55. *)
From Verif Require Export DifferSpec RedisSpec.

(** an object with its type and unique id *)
Definition entry := (string * string * obj)%type.
Definition of_type (t : string) (e : entry) : bool := String.eqb t (fst (fst e)).

(** The adapter has_entries the entries [l]: those of a type in order of insertion.  A
    RedisStore needs a store id without special characters. *)
Definition has_entries (w : world) (a : aid) (ad : adapter) (l : list entry) : Prop :=
  nth_error (w_ads w) a = Some ad /\
  match ad_store ad with
  | SLocal d => forall t, Forall2 (fun (ur : string * ref) (e : entry) =>
                  fst ur = snd (fst e) /\ nth_error (w_heap w) (snd ur) = Some (snd e)) (bucket d t) (filter (of_type t) l)
  | SRedis i => plain i = true /\ exists reg, server_holds w reg /\
                  rstore reg i = map (fun e : entry => (i, fst (fst e), snd (fst e), snd e)) l
  end.

(** the same types and unique ids, and objects that agree on everything that matters *)
Definition same_entry (e e' : entry) : Prop := fst e' = fst e /\ agrees (snd e) (snd e').

(** names of types that make no trouble as parts of a Redis key *)
Definition plain_types (ad : adapter) (l : list entry) : Prop :=
  (forall t, In t (ad_top ad) -> plain t = true) /\
  (forall e t f, In e l -> In (t, f) (c_children (o_cls (snd e))) -> plain t = true).

(** ** The order in which things were put in *)

(** the same object but for the order of its children *)
Definition reordered (o o' : obj) : Prop :=
  o_cls o' = o_cls o /\ o_flags o' = o_flags o /\
  Forall2 (fun kv kv' => fst kv' = fst kv /\
             (In (fst kv) (c_identifiers (o_cls o) ++ c_shortname (o_cls o) ++ c_attributes (o_cls o)) ->
              snd kv' = snd kv)) (o_vals o) (o_vals o') /\
  forall f, match dget (o_kids o) f, dget (o_kids o') f with
            | Some us, Some us' => Permutation us us'
            | None, None => True
            | _, _ => False
            end.
(** the same entries in any order *)
Definition shuffled (l l' : list entry) : Prop :=
  exists m, Permutation l m /\ Forall2 (fun e e' : entry => fst e' = fst e /\ reordered (snd e) (snd e')) m l'.
(** every object under its own unique id, and only once *)
Definition own_keys (l : list entry) : Prop :=
  (forall e, In e l -> get_unique_id (snd e) = Ok (snd (fst e))) /\ NoDup (map fst l).

(** the same element but for the order of the elements below it *)
Inductive resorted : elem -> elem -> Prop :=
| resorted_intro e e' :
    e_type e' = e_type e -> e_name e' = e_name e -> e_keys e' = e_keys e ->
    e_sname e' = e_sname e -> e_dname e' = e_dname e -> e_src e' = e_src e -> e_dst e' = e_dst e ->
    (forall t, exists l, Permutation (dvals (group_of (e_kids e) t)) l /\
                         Forall2 resorted l (dvals (group_of (e_kids e') t))) ->
    resorted e e'.
(** the same tree but for the order of siblings *)
Definition resorted_tree (gs gs' : dict (dict elem)) : Prop :=
  forall t, exists l, Permutation (dvals (group_of gs t)) l /\ Forall2 resorted l (dvals (group_of gs' t)).

(** ** Objects without surprises: no skipping flags, all attributes there *)
Definition unflagged (w : world) : Prop :=
  forall o, exists_in w o -> N.testbit (o_flags o) 0 = false /\ N.testbit (o_flags o) 2 = false /\ N.testbit (o_flags o) 3 = false.
Definition attributes_present (w : world) : Prop :=
  forall o k, exists_in w o -> In k (c_attributes (o_cls o)) -> dget (o_vals o) k <> None.
