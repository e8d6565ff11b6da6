(** * TextSpec: what str() of a model and of an adapter should show.

    Vocabulary for C65.  A line is a depth and a text, written with two spaces per level ([written], ShowSpec.v). *)
From Coq Require Import Ascii.
From Verif Require Export DifferSpec ShowSpec TextDefs.

(** the adapter returns this object for the type and unique id *)
Definition gives (w : world) (b : aid) (t u : string) (o : obj) : Prop := objs_by w b [u] t = Ok [o].
(** it has no such object *)
Definition lacks (w : world) (b : aid) (t u : string) : Prop := objs_by w b [u] t = Err ObjectNotFound.
(** the adapter in which the object's children are looked up: the object's own, if that is not empty *)
Definition asks (w : world) (o : obj) (b : aid) : Prop := o_adapter o = Some b /\ count_all w b <> 0.

(** type, unique id and attributes *)
Definition summary_of (o : obj) (u : string) : string := (get_type o ++ ": " ++ u ++ ": " ++ dict_str (get_attrs o))%string.
Definition listed_ids (us : list string) : string := ("[" ++ join ", " (map repr_str us) ++ "]")%string.

(** The portrait of an object: its summary; one level below it its child fields; another level below
    these its children, with their own portraits. *)
Inductive portrait (w : world) (deep : bool) : nat -> obj -> list line -> Prop :=
| portrait_of n o u ls : get_unique_id o = Ok u -> fields w deep (S n) o (c_children (o_cls o)) ls ->
    portrait w deep n o ((n, summary_of o u) :: ls)
with fields (w : world) (deep : bool) : nat -> obj -> dict string -> list line -> Prop :=
| fields_nil n o : fields w deep n o [] []
| fields_empty n o t f fs ls : dget (o_kids o) f = Some [] -> fields w deep n o fs ls ->
    fields w deep n o ((t, f) :: fs) ((n, f ++ ": []")%string :: ls)
| fields_ids n o t f fs us ls : dget (o_kids o) f = Some us -> us <> [] -> deep = false \/ (forall b, ~ asks w o b) -> fields w deep n o fs ls ->
    fields w deep n o ((t, f) :: fs) ((n, f ++ ": " ++ listed_ids us)%string :: ls)
| fields_kids n o t f fs us b below ls : dget (o_kids o) f = Some us -> us <> [] -> deep = true -> asks w o b ->
    offspring w deep (S n) b t us below -> fields w deep n o fs ls ->
    fields w deep n o ((t, f) :: fs) ((n, f) :: below ++ ls)
with offspring (w : world) (deep : bool) : nat -> aid -> string -> list string -> list line -> Prop :=
| off_nil n b t : offspring w deep n b t [] []
| off_there n b t u us c ls ls' : gives w b t u c -> portrait w deep n c ls -> offspring w deep n b t us ls' ->
    offspring w deep n b t (u :: us) (ls ++ ls')
| off_missing n b t u us ls' : lacks w b t u -> offspring w deep n b t us ls' ->
    offspring w deep n b t (u :: us) ((n, u ++ " (ERROR: details unavailable)")%string :: ls').

(** The portrait of an adapter: its top-level types, below each the portraits of its objects. *)
Inductive portraits (w : world) : nat -> list obj -> list line -> Prop :=
| portraits_nil n : portraits w n [] []
| portraits_cons n o os ls ls' : portrait w true n o ls -> portraits w n os ls' -> portraits w n (o :: os) (ls ++ ls').
Inductive gallery (w : world) (a : aid) : list string -> list line -> Prop :=
| gallery_nil : gallery w a [] []
| gallery_none t ts ls : objs_all w a t = Ok [] -> gallery w a ts ls -> gallery w a (t :: ts) ((0, t ++ ": []")%string :: ls)
| gallery_some t ts os below ls : objs_all w a t = Ok os -> os <> [] -> portraits w 1 os below -> gallery w a ts ls ->
    gallery w a (t :: ts) ((0, t) :: below ++ ls).

(** the objects that can be reached from [o] through the child lists, each asking its own adapter *)
Inductive descends (w : world) : nat -> obj -> obj -> Prop :=
| desc_self o : descends w 0 o o
| desc_child n o b t f us u c o' : asks w o b -> In (t, f) (c_children (o_cls o)) -> dget (o_kids o) f = Some us -> In u us ->
    gives w b t u c -> descends w n c o' -> descends w (S n) o o'.

(** where a line of a portrait comes from *)
Definition line_about (w : world) (deep : bool) (n : nat) (o : obj) (l : line) : Prop :=
  exists k o', descends w k o o' /\
    ((exists u, get_unique_id o' = Ok u /\ l = (n + 2 * k, summary_of o' u)) \/
     (exists t f us, In (t, f) (c_children (o_cls o')) /\ dget (o_kids o') f = Some us /\ fst l = n + 2 * k + 1 /\
        (snd l = f \/ snd l = (f ++ ": " ++ listed_ids us)%string)) \/
     (exists b t f us u, asks w o' b /\ In (t, f) (c_children (o_cls o')) /\ dget (o_kids o') f = Some us /\ In u us /\ lacks w b t u /\
        l = (n + 2 * k + 2, (u ++ " (ERROR: details unavailable)")%string))).

(** no quotation mark in it *)
Definition unquoted (s : string) : Prop := ~ In """"%char (list_ascii_of_string s).
