(** * FailSpec: what a synchronisation should leave when hooks may fail.

    Vocabulary for C72 and C73. *)
From Verif Require Export OutcomeSpec ConvergeSpec CallSpec.

(** a hook that returns an object has called the method that it overrides *)
Definition hooks_honest (h : hooks) : Prop := forall w hc, ho_end (h w hc) = HReturn -> ho_base (h w hc) = true.
(** no delete hook fails *)
Definition deletes_succeed (h : hooks) : Prop := forall w r, ho_base (h w (HDelete r)) = true /\ ho_end (h w (HDelete r)) = HReturn.

(** no child has a flag that spares it from being deleted with its parent, IGNORE (bit 0) or SKIP_UNMATCHED_DST
    (bit 3), and none that is created will *)
Definition deletable (m : N) : Prop := N.testbit m 0 = false /\ N.testbit m 3 = false.
Definition children_deletable (w : world) (a : aid) (ad : adapter) : Prop :=
  (forall p k o, listed w a p k -> read w a o -> is_key o k -> deletable (o_flags o)) /\
  (forall t c t' f c', dget (ad_classes ad) t = Some c -> In (t', f) (c_children c) -> dget (ad_classes ad) t' = Some c' -> deletable (c_flags c')).

(** the hook call that the element asks for may end without an object *)
Definition may_fail (h : hooks) (w : world) (dst : aid) (e : elem) (k : string * string) : Prop :=
  exists w1 hc, ho_end (h w1 hc) <> HReturn /\
    match e_action e, hc with
    | Some ACreate, HCreate c ids attrs =>
        ids = e_keys e /\ (forall f v, dget attrs f = Some v <-> gained e f v) /\
        exists ad, nth_error (w_ads w) dst = Some ad /\ dget (ad_classes ad) (e_type e) = Some c
    | Some AUpdate, HUpdate r attrs =>
        (forall f v, dget attrs f = Some v <-> gained e f v) /\ lookup w dst (fst k) (snd k) = Some r
    | Some ADelete, HDelete r => lookup w dst (fst k) (snd k) = Some r
    | _, _ => False
    end.

(** the children that the object lists: those it had, less those deleted and with those created;
    not every element of the diff below [e] need have been carried out *)
Definition children_kept (w w' : world) (dst : aid) (e : elem) (old : string -> string -> Prop) (o' : obj) : Prop :=
  forall t f, In (t, f) (c_children (o_cls o')) ->
    exists l, dget (o_kids o') f = Some l /\ NoDup l /\
      forall u, In u l <-> (old f u /\ ~ (child_with w dst e ADelete t u /\ lookup w' dst t u = None)) \/
                           (child_with w dst e ACreate t u /\ lookup w' dst t u <> None).

(** the element was carried out *)
Definition achieved (X : string -> Prop) (w : world) (dst : aid) (e : elem) (k : string * string) (w' : world) : Prop :=
  match e_action e with
  | Some ADelete =>
      (exists r o, lookup w dst (fst k) (snd k) = Some r /\ nth_error (w_heap w) r = Some o /\
         (skips_children (o_flags o) -> forall k', reaches w dst k k' -> lookup w' dst (fst k') (snd k') = None)) /\
      lookup w' dst (fst k) (snd k) = None
  | Some ACreate =>
      lookup w dst (fst k) (snd k) = None /\
      exists ad c r o', nth_error (w_ads w) dst = Some ad /\ dget (ad_classes ad) (e_type e) = Some c /\
        lookup w' dst (fst k) (snd k) = Some r /\ length (w_heap w) <= r /\ nth_error (w_heap w') r = Some o' /\
        built X c e o' /\ children_kept w w' dst e (fun _ _ => False) o'
  | a =>
      exists r o o', lookup w dst (fst k) (snd k) = Some r /\ nth_error (w_heap w) r = Some o /\
        lookup w' dst (fst k) (snd k) = Some r /\ nth_error (w_heap w') r = Some o' /\
        rebuilt (fun f => a <> None /\ X f) e o o' /\ children_kept w w' dst e (has_child o) o'
  end.
(** the object has its values, up to the fields [X] *)
Definition as_before (X : string -> Prop) (o o' : obj) : Prop :=
  o_cls o' = o_cls o /\ o_flags o' = o_flags o /\ map fst (o_vals o') = map fst (o_vals o) /\
  forall f, ~ X f \/ In f (c_identifiers (o_cls o)) -> dget (o_vals o') f = dget (o_vals o) f.
(** the hook failed: nothing is created or deleted; a failed update has left the object as it was, or has set the attributes *)
Definition given_up (X : string -> Prop) (w : world) (dst : aid) (e : elem) (k : string * string) (w' : world) : Prop :=
  match e_action e with
  | Some ACreate => lookup w dst (fst k) (snd k) = None /\ lookup w' dst (fst k) (snd k) = None
  | a =>
      exists r o o', lookup w dst (fst k) (snd k) = Some r /\ nth_error (w_heap w) r = Some o /\
        lookup w' dst (fst k) (snd k) = Some r /\ nth_error (w_heap w') r = Some o' /\
        (as_before X o o' \/ (a = Some AUpdate /\ rebuilt X e o o')) /\ children_kept w w' dst e (has_child o) o'
  end.
(** what is stored under the key is as before *)
Definition unchanged_at (w w' : world) (dst : aid) (k : string * string) : Prop :=
  lookup w' dst (fst k) (snd k) = lookup w dst (fst k) (snd k) /\
  forall r o, lookup w dst (fst k) (snd k) = Some r -> nth_error (w_heap w) r = Some o ->
    exists o', nth_error (w_heap w') r = Some o' /\ same_data o o'.
(** the element [x] itself, or one below it, is about the key *)
Inductive in_or_below (x : elem) : elem -> Prop :=
| wi_self : in_or_below x x
| wi_below y : occurs y (e_kids x) -> in_or_below x y.
Definition left_alone (w w' : world) (dst : aid) (x : elem) : Prop :=
  forall y k, in_or_below x y -> names w dst y k ->
    unchanged_at w w' dst k /\
    forall r o k', e_action y = Some ADelete -> lookup w dst (fst k) (snd k) = Some r -> nth_error (w_heap w) r = Some o ->
      skips_children (o_flags o) -> reaches w dst k k' -> unchanged_at w w' dst k'.

(** How an element and those below it went.  [fin]: the synchronisation was not broken off. *)
Inductive went (X : string -> Prop) (h : hooks) (w : world) (dst : aid) (w' : world) : bool -> elem -> Prop :=
(** carried out *)
| went_done fin e k : names w dst e k -> achieved X w dst e k w' ->
    (forall t g n x, In (t, g) (e_kids e) -> In (n, x) g -> exists fin', (fin = true -> fin' = true) /\ went X h w dst w' fin' x) ->
    went X h w dst w' fin e
(** its hook failed: nothing below it is done *)
| went_failed fin e k : names w dst e k -> given_up X w dst e k w' -> may_fail h w dst e k ->
    (forall t g n x, In (t, g) (e_kids e) -> In (n, x) g -> left_alone w w' dst x) ->
    went X h w dst w' fin e
(** its children come first, and its hook failed, or it was not its turn any more *)
| went_late fin e k r o : e_action e = Some ADelete -> names w dst e k -> lookup w dst (fst k) (snd k) = Some r -> nth_error (w_heap w) r = Some o ->
    naturally o -> ~ skips_children (o_flags o) ->
    given_up X w dst e k w' -> (fin = true -> may_fail h w dst e k) ->
    (forall t g n x, In (t, g) (e_kids e) -> In (n, x) g -> exists fin', (fin = true -> fin' = true) /\ went X h w dst w' fin' x) ->
    went X h w dst w' fin e
(** the synchronisation was broken off before its turn *)
| went_not e : left_alone w w' dst e -> went X h w dst w' false e.

(** the exceptions that break off a synchronisation: those that hooks raise, and of these the
    ObjectCrudExceptions only without CONTINUE_ON_FAILURE (bit 0 of the flags) *)
Definition breaks_off (h : hooks) (flags : N) (x : exn) : Prop :=
  (exists w hc, ho_end (h w hc) = HRaise x) /\ (crud_exception x -> N.testbit flags 0 = false).

(** any number of synchronisations from [src] to [dst], of diffs computed before, whose create and update hooks may fail *)
Inductive tried (fuel : nat) (src dst : aid) : world -> world -> Prop :=
| tried_none w : tried fuel src dst w w
| tried_one w dcd flags cbd d h dc fl cb given w' :
    hooks_honest h -> deletes_succeed h -> snd (diff_from fuel dst src dcd flags cbd w) = Ok d -> yields_once (dc_order (d_class d)) ->
    uses fuel dst src dc fl cb given w d -> tried fuel src dst (fst (sync_from fuel h dst src dc fl cb given w)) w' -> tried fuel src dst w w'.
