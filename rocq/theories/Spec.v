(** * Spec: the vocabulary in which the properties are stated.

    Small definitions that do not mention the model's own algorithms. *)
From Verif Require Export DiffDefs.

(** ** Diff trees *)

(** [x] is one of the elements of a children dictionary, at any depth *)
Inductive occurs (x : elem) : dict (dict elem) -> Prop :=
| occ_here gs t g n : In (t, g) gs -> In (n, x) g -> occurs x gs
| occ_below gs t g n p : In (t, g) gs -> In (n, p) g -> occurs x (e_kids p) -> occurs x gs.

(** All elements, parents before children, groups and siblings as stored *)
Fixpoint elem_all (e : elem) : list elem :=
  e :: flat_map (fun g => flat_map (fun kv => elem_all (snd kv)) (snd g)) (e_kids e).
Definition tree_all (gs : dict (dict elem)) : list elem :=
  flat_map (fun g => flat_map (fun kv => elem_all (snd kv)) (snd g)) gs.

(** How often a property holds in a list *)
Definition how_many {A} (p : A -> bool) (l : list A) : nat := length (filter p l).

(** An ordering hook yields every child / yields every child exactly once *)
Definition yields_all (ord : order_fn) : Prop :=
  forall t l i, i < length l -> In i (ord t l).
Definition yields_once (ord : order_fn) : Prop :=
  forall t l, Permutation (ord t l) (seq 0 (length l)).

(** What the two sides say about one attribute *)
Definition shared_unequal (s d : dict val) (k : string) : Prop :=
  exists x y, dget s k = Some x /\ dget d k = Some y /\ py_eq x y = false.

(** Siblings are stored under their own type and name, without repeats *)
Inductive tree_ok : dict (dict elem) -> Prop :=
| tree_ok_intro gs :
    NoDup (dkeys gs) ->
    (forall t g, In (t, g) gs -> NoDup (dkeys g)) ->
    (forall t g n x, In (t, g) gs -> In (n, x) g -> e_type x = t /\ e_name x = n) ->
    (forall t g n x, In (t, g) gs -> In (n, x) g -> tree_ok (e_kids x)) ->
    tree_ok gs.

(** Adding elements one after the other to a Diff *)
Fixpoint adds (d : diff) (es : list elem) : result diff :=
  match es with
  | [] => Ok d
  | e :: es' => rbind (diff_add d e) (fun d' => adds d' es')
  end.

(** ** Strings and declarations *)

(** [sub] occurs somewhere in [s] *)
Definition substring_of (sub s : string) : Prop := exists a b, s = (a ++ sub ++ b)%string.

(** The strings that a class's identifiers render to, in declaration order *)
Definition rendered_ids (o : obj) : list (option string) :=
  map (fun k => option_map py_str (dget (get_identifiers o) k)) (c_identifiers (o_cls o)).

Definition disjoint {A} (l m : list A) : Prop := forall x, In x l -> ~ In x m.

(** A call of add_child or remove_child on an object, and a sequence of such
    calls; a failing call leaves the object as it was *)
Inductive child_call := CallAdd (child : obj) | CallRemove (child : obj).
Definition child_step (self : obj) (c : child_call) : obj :=
  match (match c with CallAdd x => add_child self x | CallRemove x => remove_child self x end) with
  | Ok self' => self'
  | Err _ => self
  end.
Definition child_run (self : obj) (cs : list child_call) : obj := fold_left child_step cs self.
