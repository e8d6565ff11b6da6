(** * OutcomeSpec: what a synchronisation should leave in the destination.

    Vocabulary for C63: the outcome of each element of the diff that is applied. *)
From Verif Require Export SyncSpec ShowSpec.

(** a child of [e] that names (t,u) and has the action *)
Definition child_with (w : world) (dst : aid) (e : elem) (a : action) (t u : string) : Prop :=
  exists g n x, In (t, g) (e_kids e) /\ In (n, x) g /\ e_action x = Some a /\ names w dst x (t, u).
(** a new object: of the class, with the identifiers and attributes of the element, other fields with
    their defaults; the hooks may have written the fields [X], but no identifiers *)
Definition built (X : string -> Prop) (c : cls) (e : elem) (o' : obj) : Prop :=
  o_cls o' = c /\ o_flags o' = c_flags c /\ map fst (o_vals o') = map fst (c_fields c) /\
  forall f dv, In (f, dv) (c_fields c) -> ~ X f \/ In f (c_identifiers c) ->
    (forall v, dget (e_keys e) f = Some v -> dget (o_vals o') f = Some v) /\
    (dget (e_keys e) f = None -> forall v, gained e f v -> dget (o_vals o') f = Some v) /\
    (dget (e_keys e) f = None -> (forall v, ~ gained e f v) -> dget (o_vals o') f = dv).
(** the object with the differing attributes set, up to the fields [X] that hooks may have written *)
Definition rebuilt (X : string -> Prop) (e : elem) (o o' : obj) : Prop :=
  o_cls o' = o_cls o /\ o_flags o' = o_flags o /\ map fst (o_vals o') = map fst (o_vals o) /\
  (forall f v, gained e f v -> ~ X f \/ In f (c_identifiers (o_cls o)) -> dget (o_vals o') f = Some v) /\
  (forall f, (forall v, ~ gained e f v) -> ~ X f \/ In f (c_identifiers (o_cls o)) -> dget (o_vals o') f = dget (o_vals o) f).
(** its children: those it had ([old f u]) less the deleted and with the created ones *)
Definition children_become (w : world) (dst : aid) (e : elem) (old : string -> string -> Prop) (o' : obj) : Prop :=
  forall t f, In (t, f) (c_children (o_cls o')) ->
    exists l, dget (o_kids o') f = Some l /\ NoDup l /\
      forall u, In u l <-> (old f u /\ ~ child_with w dst e ADelete t u) \/ child_with w dst e ACreate t u.
(** [o] lists [u] in the field *)
Definition has_child (o : obj) (f u : string) : Prop := exists l, dget (o_kids o) f = Some l /\ In u l.

(** what becomes of the object [k] of the element; no hook is called for an element without action *)
Definition fate (X : string -> Prop) (w : world) (dst : aid) (e : elem) (k : string * string) (w' : world) : Prop :=
  match e_action e with
  | Some ADelete => lookup w dst (fst k) (snd k) <> None /\ lookup w' dst (fst k) (snd k) = None
  | Some ACreate =>
      lookup w dst (fst k) (snd k) = None /\
      exists ad c r o', nth_error (w_ads w) dst = Some ad /\ dget (ad_classes ad) (e_type e) = Some c /\
        lookup w' dst (fst k) (snd k) = Some r /\ length (w_heap w) <= r /\ nth_error (w_heap w') r = Some o' /\
        built X c e o' /\ children_become w dst e (fun _ _ => False) o'
  | a =>
      exists r o o', lookup w dst (fst k) (snd k) = Some r /\ nth_error (w_heap w) r = Some o /\
        lookup w' dst (fst k) (snd k) = Some r /\ nth_error (w_heap w') r = Some o' /\
        rebuilt (fun f => a <> None /\ X f) e o o' /\ children_become w dst e (has_child o) o'
  end.

(** some element of the diff names the key *)
Definition any_act (_ : option action) : Prop := True.
Definition not_delete_act (a : option action) : Prop := a <> Some ADelete.

(** the adapter holds the same in both worlds: the same keys, and objects that agree in all but
    identity, status, the order of their children and the fields [X] *)
Definition like (X : string -> Prop) (o1 o2 : obj) : Prop :=
  o_cls o1 = o_cls o2 /\ o_flags o1 = o_flags o2 /\
  (forall f, ~ X f \/ In f (c_identifiers (o_cls o1)) -> dget (o_vals o1) f = dget (o_vals o2) f) /\
  forall t f, In (t, f) (c_children (o_cls o1)) ->
    exists l1 l2, dget (o_kids o1) f = Some l1 /\ dget (o_kids o2) f = Some l2 /\ Permutation l1 l2.
Definition same_contents (X : string -> Prop) (w1 w2 : world) (a : aid) : Prop :=
  forall k, (lookup w1 a (fst k) (snd k) = None /\ lookup w2 a (fst k) (snd k) = None) \/
    exists r1 r2 o1 o2, lookup w1 a (fst k) (snd k) = Some r1 /\ lookup w2 a (fst k) (snd k) = Some r2 /\
      nth_error (w_heap w1) r1 = Some o1 /\ nth_error (w_heap w2) r2 = Some o2 /\ like X o1 o2.
