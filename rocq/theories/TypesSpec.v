(** * TypesSpec: which types an adapter's tree should show, and where.

    Vocabulary for C98: it speaks of top-level names and of the child types that classes declare, not of dictionaries. *)
From Coq Require Import Ascii.
From Verif Require Export TreeFacts.

(** the class of that name declares children of type [t] *)
Definition declares (classes : dict cls) (n t : string) : Prop :=
  exists c, dget classes n = Some c /\ In t (map fst (c_children c)).
(** each one after the first is a child type of the one before *)
Inductive descent (classes : dict cls) : list string -> Prop :=
| descent_one n : descent classes [n]
| descent_more n t p : declares classes n t -> descent classes (t :: p) -> descent classes (n :: t :: p).
(** a type of the adapter, top-level or not, that no class declares as its child *)
Definition stem (top : list string) (classes : dict cls) (n : string) : Prop :=
  (In n top \/ In n (map fst classes)) /\ forall m, ~ declares classes m n.
(** No type is a child of two; a child type is not top-level, and its name comes after that of the type it is a
    child of, unless this one is top-level *)
Record orderly (top : list string) (classes : dict cls) : Prop := mkOrderly {
  or_once : forall m n t, declares classes m t -> declares classes n t -> m = n;
  or_below : forall n t, declares classes n t -> ~ In t top;
  or_names : forall n t, declares classes n t -> In n top \/ String.ltb n t = true
}.
(** names that take one line *)
Definition one_line (s : string) : Prop := ~ In (ascii_of_nat 10) (list_ascii_of_string s).
