(** * DifferSpec: what a computed diff should be.

    Vocabulary for C05-C17: what each adapter holds, and a relation saying when
    a list of elements faithfully describes two lists of objects. *)
From Verif Require Export StoreSpec Spec.

(** ** What an adapter holds, as objects *)

Definition deref (w : world) (rs : list ref) : result (list obj) :=
  rmapM (fun r => match nth_error (w_heap w) r with Some o => Ok o | None => Err DanglingRef end) rs.

(** the objects of a type *)
Definition objs_all (w : world) (a : aid) (t : string) : result (list obj) :=
  match nth_error (w_ads w) a with
  | None => Err DanglingRef
  | Some ad =>
      match ad_store ad with
      | SLocal d => deref w (dvals (bucket d t))
      | SRedis sid =>
          rmapM (fun k => match dget (w_redis w) k with
                          | Some o => Ok (set_o_adapter o (Some a))
                          | None => Err ObjectNotFound
                          end)
                (filter (glob (store_label sid ++ ":" ++ t ++ ":*")%string) (dkeys (w_redis w)))
      end
  end.

(** the objects of a type with the given unique ids *)
Definition objs_by (w : world) (a : aid) (us : list string) (t : string) : result (list obj) :=
  match us with
  | [] => Ok []
  | _ =>
  match nth_error (w_ads w) a with
  | None => Err DanglingRef
  | Some ad =>
      match ad_store ad with
      | SLocal d =>
          rbind (rmapM (fun u => match dget (bucket d t) u with Some r => Ok r | None => Err ObjectNotFound end) us)
                (deref w)
      | SRedis sid =>
          rmapM (fun u => match dget (w_redis w) (redis_key sid t u) with
                          | Some o => Ok (set_o_adapter o (Some a))
                          | None => Err ObjectNotFound
                          end) us
      end
  end
  end.

(** Every reference held by a LocalStore is the reference of an object (always so in Python) *)
Definition w_ok (w : world) : Prop :=
  forall a ad d m b u r, nth_error (w_ads w) a = Some ad -> ad_store ad = SLocal d ->
    In (m, b) d -> In (u, r) b -> r < length (w_heap w).

(** ** Nothing but reading happened *)

(** the same buckets, some unknown model names having become known and empty *)
Definition store_ext (s s' : store) : Prop :=
  match s, s' with
  | SLocal d, SLocal d' => exists names, d' = d ++ map (fun m => (m, [])) names /\ (NoDup (dkeys d) -> NoDup (dkeys d'))
  | SRedis i, SRedis i' => i = i'
  | _, _ => False
  end.
(** new objects may have been created (RedisStore unpickles); no existing object, no
    stored entry, nothing on the Redis server changed *)
Definition read_only (w w' : world) : Prop :=
  (exists news, w_heap w' = w_heap w ++ news) /\
  w_redis w' = w_redis w /\
  Forall2 (fun ad ad' => exists s', ad' = set_ad_store ad s' /\ store_ext (ad_store ad) s') (w_ads w) (w_ads w').

(** ** Faithful elements *)

(** without repeats, keeping first occurrences *)
Fixpoint keep_first (l : list string) : list string :=
  match l with
  | [] => []
  | x :: l' => x :: filter (fun y => negb (String.eqb y x)) (keep_first l')
  end.

Definition has_uid (u : string) (o : obj) : bool :=
  match get_unique_id o with Ok u' => String.eqb u u' | Err _ => false end.
(** the object with this unique id (the last one, should there be several) *)
Definition with_uid (u : string) (l : list obj) : option obj := find (has_uid u) (rev l).

(** The pair produces no element (enum.py): bit 0 IGNORE, bits 2/3 SKIP_UNMATCHED_SRC/DST
    of the model, bits 1/2 SKIP_UNMATCHED_SRC/DST of the diff *)
Definition suppressed (flags : N) (so do : option obj) : Prop :=
  match so, do with
  | Some s, None => N.testbit flags 1 = true \/ N.testbit (o_flags s) 2 = true \/ N.testbit (o_flags s) 0 = true
  | None, Some d => N.testbit flags 2 = true \/ N.testbit (o_flags d) 3 = true \/ N.testbit (o_flags d) 0 = true
  | Some s, Some d => N.testbit (o_flags s) 0 = true \/ N.testbit (o_flags d) 0 = true
  | None, None => False
  end.

(** The two objects may be compared *)
Definition corresponding (s d : obj) : Prop :=
  get_type s = get_type d /\
  (exists n, get_shortname s = Ok n /\ get_shortname d = Ok n) /\
  dict_eq (get_identifiers s) (get_identifiers d) = true.

Definition either (so do : option obj) : option obj := match so with Some s => Some s | None => do end.

(** The element's own data are those of the pair *)
Definition describes (sn dn : string) (e : elem) (so do : option obj) : Prop :=
  e_sname e = sn /\ e_dname e = dn /\
  e_src e = option_map get_attrs so /\ e_dst e = option_map get_attrs do /\
  exists o, either so do = Some o /\
    e_type e = get_type o /\ get_shortname o = Ok (e_name e) /\ e_keys e = get_identifiers o.

(** number of child references of [o] in types the other class does not declare *)
Definition one_sided (o : obj) (other : dict string) (n : nat) : Prop :=
  exists ls, Forall2 (fun tf l => dget (o_kids o) (snd tf) = Some l)
                     (filter (fun tf => negb (dmem other (fst tf))) (c_children (o_cls o))) ls /\
             n = list_sum (map (@length string) ls).

(** the child types compared (with the field holding the child ids), and the number of
    child references skipped because only one side's class declares the type *)
Definition child_types (so do : option obj) (mapping : dict string) (skipped : nat) : Prop :=
  match so, do with
  | Some s, Some d =>
      mapping = filter (fun tf => dmem (c_children (o_cls d)) (fst tf)) (c_children (o_cls s)) /\
      exists n m, one_sided s (c_children (o_cls d)) n /\ one_sided d (c_children (o_cls s)) m /\ skipped = n + m
  | Some o, None | None, Some o => mapping = c_children (o_cls o) /\ skipped = 0
  | None, None => False
  end.

(** [gs] holds exactly the elements [es]: grouped by type in order of first
    appearance, in the given order within a group, each under its own name *)
Definition grouped (gs : dict (dict elem)) (es : list elem) : Prop :=
  dkeys gs = keep_first (map e_type es) /\
  (forall t, group_of gs t = map (fun e => (e_name e, e)) (filter (fun e => String.eqb (e_type e) t) es)) /\
  (forall t, NoDup (dkeys (group_of gs t))).

Section Faithful.
  Variable flags : N.
  Variables sn dn : string.                                         (* adapter names *)
  Variables rs rd : list string -> string -> result (list obj).     (* objects by uids and type *)

  (** the children of one side *)
  Definition kids_of (r : list string -> string -> result (list obj)) (o : option obj) (f t : string)
    : result (list obj) :=
    match o with
    | None => Ok []
    | Some o' => match dget (o_kids o') f with Some us => r us t | None => Err ExnAttributeError end
    end.

  Section Pair.
    (** what it means for the children *)
    Variable rec : list obj -> list obj -> list elem -> nat -> Prop.

    (** the outcome for one pair: an element or none, and how many models were skipped *)
    Definition pair_ok (so do : option obj) (out : option elem * nat) : Prop :=
      (exists o n, either so do = Some o /\ get_shortname o = Ok n) /\
      ((suppressed flags so do /\ out = (None, 1)) \/
       (~ suppressed flags so do /\
        exists e mapping skipped kids,
          out = (Some e, skipped + list_sum (map snd kids)) /\
          describes sn dn e so do /\
          child_types so do mapping skipped /\
          Forall2 (fun tf (k : list elem * nat) =>
                     exists ss dd, kids_of rs so (snd tf) (fst tf) = Ok ss /\
                                   kids_of rd do (snd tf) (fst tf) = Ok dd /\
                                   rec ss dd (fst k) (snd k)) mapping kids /\
          grouped (e_kids e) (flat_map fst kids))).
  End Pair.

  Definition somes {A} (l : list (option A * nat)) : list A :=
    flat_map (fun x => match fst x with Some e => [e] | None => [] end) l.

  (** [es] faithfully describes the objects [ss] against [dd], at most [depth]
      levels deep, [skipped] models being left out *)
  Fixpoint faithful (depth : nat) (ss dd : list obj) (es : list elem) (skipped : nat) : Prop :=
    match depth with
    | O => False
    | S depth' =>
        exists us vs outs,
          map get_unique_id ss = map Ok us /\ map get_unique_id dd = map Ok vs /\
          (forall u s d, with_uid u ss = Some s -> with_uid u dd = Some d -> corresponding s d) /\
          Forall2 (fun u out => pair_ok (faithful depth') (with_uid u ss) (with_uid u dd) out)
                  (keep_first (us ++ vs)) outs /\
          es = somes outs /\
          skipped = (length us - length outs) + (length vs - length outs) + list_sum (map snd outs)
    end.
End Faithful.

(** A whole diff: the compared types in the destination's order; the objects of
    the types [lone] that only one adapter declares as top-level are skipped *)
Definition faithful_diff (flags : N) (depth : nat) (w : world) (src dst : aid) (sa da : adapter)
           (gs : dict (dict elem)) (skipped : nat) : Prop :=
  exists lone others per,
    NoDup lone /\
    (forall t, In t lone <-> (In t (ad_top sa) /\ ~ In t (ad_top da)) \/ (In t (ad_top da) /\ ~ In t (ad_top sa))) /\
    Forall2 (fun t n => exists l, n = length l /\
               objs_all w (if smem t (ad_top da) then dst else src) t = Ok l) lone others /\
    Forall2 (fun t (k : list elem * nat) =>
               exists ss dd, objs_all w src t = Ok ss /\ objs_all w dst t = Ok dd /\
                 faithful flags (ad_name sa) (ad_name da) (objs_by w src) (objs_by w dst) depth ss dd (fst k) (snd k))
            (filter (fun t => smem t (ad_top sa)) (ad_top da)) per /\
    grouped gs (flat_map fst per) /\
    skipped = list_sum others + list_sum (map snd per).

(** how many objects an element stands for, and a whole tree *)
Definition sides (e : elem) : nat :=
  (match e_src e with Some _ => 1 | None => 0 end) + (match e_dst e with Some _ => 1 | None => 0 end).
Definition tree_sides (gs : dict (dict elem)) : nat := list_sum (map sides (tree_all gs)).

(** ** Positions

    [visible ss dd so do]: comparing the lists [ss] and [dd], the pair [so]/[do]
    is met, and neither it nor a pair above it is suppressed. *)
Section Positions.
  Variable flags : N.
  Variables rs rd : list string -> string -> result (list obj).

  (** the pair of objects with some unique id *)
  Definition pair_at (ss dd : list obj) (so do : option obj) : Prop :=
    exists u, so = with_uid u ss /\ do = with_uid u dd /\ either so do <> None.
  (** the lists of children of one compared type *)
  Definition child_lists (so do : option obj) (ss dd : list obj) : Prop :=
    exists mapping n t f, child_types so do mapping n /\ In (t, f) mapping /\
      kids_of rs so f t = Ok ss /\ kids_of rd do f t = Ok dd.
  Inductive visible : list obj -> list obj -> option obj -> option obj -> Prop :=
  | vis_here ss dd so do : pair_at ss dd so do -> ~ suppressed flags so do -> visible ss dd so do
  | vis_below ss dd so do ss' dd' so' do' :
      pair_at ss dd so do -> ~ suppressed flags so do -> child_lists so do ss' dd' ->
      visible ss' dd' so' do' -> visible ss dd so' do'.

  (** [n] nested comparisons, each of an unsuppressed pair *)
  Fixpoint nested (n : nat) (ss dd : list obj) : Prop :=
    match n with
    | O => True
    | S n' => exists so do ss' dd', pair_at ss dd so do /\ ~ suppressed flags so do /\
                child_lists so do ss' dd' /\ nested n' ss' dd'
    end.
End Positions.

(** the lists compared at the top *)
Definition top_lists (w : world) (src dst : aid) (sa da : adapter) (t : string) (ss dd : list obj) : Prop :=
  In t (ad_top sa) /\ In t (ad_top da) /\ objs_all w src t = Ok ss /\ objs_all w dst t = Ok dd.

(** what the diff of two adapters has to show *)
Definition shown (flags : N) (w : world) (src dst : aid) (sa da : adapter) (so do : option obj) : Prop :=
  exists t ss dd, top_lists w src dst sa da t ss dd /\
    visible flags (objs_by w src) (objs_by w dst) ss dd so do.

(** all objects there are *)
Definition exists_in (w : world) (o : obj) : Prop := In o (w_heap w) \/ In o (dvals (w_redis w)).

(** ** The same data *)
Definition same_obj (o o' : obj) : Prop := o_cls o = o_cls o' /\ o_vals o = o_vals o' /\ o_kids o = o_kids o'.
Definition same_lists (ss dd : list obj) : Prop :=
  forall u, match with_uid u ss, with_uid u dd with
            | Some s, Some d => same_obj s d
            | None, None => True
            | _, _ => False
            end.
Definition same_content (w : world) (a b : aid) : Prop :=
  (forall t l l', objs_all w a t = Ok l -> objs_all w b t = Ok l' -> same_lists l l') /\
  (forall us t l l', objs_by w a us t = Ok l -> objs_by w b us t = Ok l' -> same_lists l l').

(** ** A diff without the unmatched elements *)
Definition keeps (flags : N) (e : elem) : bool :=
  match e_src e, e_dst e with
  | Some _, None => negb (N.testbit flags 1)
  | None, Some _ => negb (N.testbit flags 2)
  | _, _ => true
  end.
(** [pruned flags e e']: [e'] is [e] without the elements (at any depth below)
    that the flags [flags] leave out *)
Inductive pruned (flags : N) : elem -> elem -> Prop :=
| pruned_intro e e' :
    e_type e' = e_type e -> e_name e' = e_name e -> e_keys e' = e_keys e ->
    e_sname e' = e_sname e -> e_dname e' = e_dname e -> e_src e' = e_src e -> e_dst e' = e_dst e ->
    (forall t, Forall2 (pruned flags) (filter (keeps flags) (dvals (group_of (e_kids e) t)))
                                      (dvals (group_of (e_kids e') t))) ->
    pruned flags e e'.

(** ** Mirror images *)
Inductive mirror : elem -> elem -> Prop :=
| mirror_intro e e' :
    e_type e' = e_type e -> e_name e' = e_name e ->
    (e_keys e' = e_keys e \/ dict_eq (e_keys e) (e_keys e') = true) ->
    e_sname e' = e_dname e -> e_dname e' = e_sname e -> e_src e' = e_dst e -> e_dst e' = e_src e ->
    (forall t, exists l, Permutation (dvals (group_of (e_kids e) t)) l /\
                         Forall2 mirror l (dvals (group_of (e_kids e') t))) ->
    mirror e e'.

(** ** Objects that agree on everything a diff may look at *)
Definition agrees (o o' : obj) : Prop :=
  o_cls o' = o_cls o /\ o_flags o' = o_flags o /\ o_kids o' = o_kids o /\
  Forall2 (fun kv kv' => fst kv' = fst kv /\
             (In (fst kv) (c_identifiers (o_cls o) ++ c_shortname (o_cls o) ++ c_attributes (o_cls o)) ->
              snd kv' = snd kv)) (o_vals o) (o_vals o').
Definition agrees_world (w w' : world) : Prop :=
  Forall2 agrees (w_heap w) (w_heap w') /\
  Forall2 (fun kv kv' => fst kv = fst kv' /\ agrees (snd kv) (snd kv')) (w_redis w) (w_redis w') /\
  w_ads w' = w_ads w.

(** ** Chains of children on one side *)
Definition child_of (r : list string -> string -> result (list obj)) (o o' : obj) : Prop :=
  exists t f us l u, In (t, f) (c_children (o_cls o)) /\ dget (o_kids o) f = Some us /\
    r us t = Ok l /\ with_uid u l = Some o'.
(** [n] generations below [o] *)
Fixpoint generations (r : list string -> string -> result (list obj)) (n : nat) (o : obj) : Prop :=
  match n with O => True | S n' => exists o', child_of r o o' /\ generations r n' o' end.
(** a child type is kept in the same field by all classes *)
Definition same_fields (w : world) : Prop :=
  forall o o' t f f', exists_in w o -> exists_in w o' ->
    In (t, f) (c_children (o_cls o)) -> In (t, f') (c_children (o_cls o')) -> f = f'.

(** ** Order *)
Inductive sublist {A} : list A -> list A -> Prop :=
| sub_nil : sublist [] []
| sub_keep x l m : sublist l m -> sublist (x :: l) (x :: m)
| sub_drop x l m : sublist l m -> sublist l (x :: m).

(** source objects in source order, then destination-only objects in destination
    order, without the suppressed ones *)
Definition in_order (flags : N) (sn dn : string) (ss dd : list obj) (es : list elem) : Prop :=
  exists us vs kept,
    map get_unique_id ss = map Ok us /\ map get_unique_id dd = map Ok vs /\
    sublist kept (keep_first (us ++ vs)) /\
    (forall u, In u kept <-> (In u us \/ In u vs) /\ ~ suppressed flags (with_uid u ss) (with_uid u dd)) /\
    Forall2 (fun u e => describes sn dn e (with_uid u ss) (with_uid u dd)) kept es.

(** the adapter's store returns the object *)
Definition read (w : world) (a : aid) (o : obj) : Prop :=
  exists t l, In o l /\ (objs_all w a t = Ok l \/ exists us, objs_by w a us t = Ok l).
(** the types a comparison asks the adapter for: its top-level types and the child types of its objects.
    (A RedisStore may well return objects for other names, such as "*".) *)
Definition asked (w : world) (a : aid) (tops : list string) (t : string) : Prop :=
  In t tops \/ exists o f, read w a o /\ In (t, f) (c_children (o_cls o)).
(** what is looked up under such a type is of that type *)
Definition filed (w : world) (a : aid) (tops : list string) : Prop :=
  (forall t l o, asked w a tops t -> objs_all w a t = Ok l -> In o l -> get_type o = t) /\
  (forall us t l o, asked w a tops t -> objs_by w a us t = Ok l -> In o l -> get_type o = t).

(** ** Worlds in which the two sides may be exchanged *)
Definition shared_classes (w : world) : Prop :=
  forall o o', exists_in w o -> exists_in w o' -> get_type o = get_type o' -> o_cls o = o_cls o'.
(** no per-model flag treats the two sides differently *)
Definition symmetric_flags (w : world) : Prop :=
  forall o, exists_in w o -> N.testbit (o_flags o) 2 = N.testbit (o_flags o) 3.
Definition proper_dicts (w : world) : Prop := forall o, exists_in w o -> NoDup (dkeys (o_vals o)).
Definition mirrored (gs gs' : dict (dict elem)) : Prop :=
  forall t, exists l, Permutation (dvals (group_of gs t)) l /\ Forall2 mirror l (dvals (group_of gs' t)).

(** ** What the calculation reaches

    [reached t ss dd A B]: comparing [ss] and [dd] (of type [t]) reaches the source
    references [A] and the destination references [B] (type and unique id), the
    children of suppressed pairs not being reached. *)
Section Reach.
  Variable flags : N.
  Variables rs rd : list string -> string -> result (list obj).
  Notation key := (string * string)%type.

  (** references in child types the other class does not declare *)
  Definition lone_refs (so do : option obj) : list key :=
    match so, do with
    | Some s, Some d =>
        flat_map (fun tf => match dget (o_kids s) (snd tf) with Some us => map (pair (fst tf)) us | None => [] end)
                 (filter (fun tf => negb (dmem (c_children (o_cls d)) (fst tf))) (c_children (o_cls s)))
    | _, _ => []
    end.
  Definition reached_below (rec : string -> list obj -> list obj -> list key -> list key -> Prop)
             (so do : option obj) (A B : list key) : Prop :=
    (suppressed flags so do /\ A = [] /\ B = []) \/
    (~ suppressed flags so do /\
     exists mapping n kids,
       child_types so do mapping n /\
       Forall2 (fun tf (k : list key * list key) =>
                  exists ss dd, kids_of rs so (snd tf) (fst tf) = Ok ss /\ kids_of rd do (snd tf) (fst tf) = Ok dd /\
                    rec (fst tf) ss dd (fst k) (snd k)) mapping kids /\
       A = lone_refs so do ++ flat_map fst kids /\ B = lone_refs do so ++ flat_map snd kids).
  Fixpoint reached (depth : nat) (t : string) (ss dd : list obj) (A B : list key) : Prop :=
    match depth with
    | O => False
    | S depth' =>
        exists us vs outs,
          map get_unique_id ss = map Ok us /\ map get_unique_id dd = map Ok vs /\
          Forall2 (fun u (k : list key * list key) =>
                     reached_below (reached depth') (with_uid u ss) (with_uid u dd) (fst k) (snd k))
                  (keep_first (us ++ vs)) outs /\
          A = map (pair t) us ++ flat_map fst outs /\ B = map (pair t) vs ++ flat_map snd outs
    end.
End Reach.
Definition reached_diff (flags : N) (depth : nat) (w : world) (src dst : aid) (sa da : adapter)
           (A B : list (string * string)) : Prop :=
  exists lone lone_keys per,
    NoDup lone /\
    (forall t, In t lone <-> (In t (ad_top sa) /\ ~ In t (ad_top da)) \/ (In t (ad_top da) /\ ~ In t (ad_top sa))) /\
    Forall2 (fun t (k : list (string * string) * list (string * string)) => exists l us, map get_unique_id l = map Ok us /\
               if smem t (ad_top da) then objs_all w dst t = Ok l /\ k = ([], map (pair t) us)
               else objs_all w src t = Ok l /\ k = (map (pair t) us, [])) lone lone_keys /\
    Forall2 (fun t (k : list (string * string) * list (string * string)) =>
               exists ss dd, objs_all w src t = Ok ss /\ objs_all w dst t = Ok dd /\
                 reached flags (objs_by w src) (objs_by w dst) depth t ss dd (fst k) (snd k))
            (filter (fun t => smem t (ad_top sa)) (ad_top da)) per /\
    A = flat_map fst (lone_keys ++ per) /\ B = flat_map snd (lone_keys ++ per).
(** the keys of a LocalStore *)
Definition stored_keys (d : dict (dict ref)) : list (string * string) :=
  flat_map (fun mb => map (pair (fst mb)) (dkeys (snd mb))) d.

(** ** The lists compared at every depth *)
Inductive compared (flags : N) (rs rd : list string -> string -> result (list obj)) (ss dd : list obj) :
  list obj -> list obj -> Prop :=
| cmp_here : compared flags rs rd ss dd ss dd
| cmp_below ss1 dd1 so do ss2 dd2 :
    compared flags rs rd ss dd ss1 dd1 -> pair_at ss1 dd1 so do -> ~ suppressed flags so do ->
    child_lists rs rd so do ss2 dd2 -> compared flags rs rd ss dd ss2 dd2.

(** [o] lies on a cycle of children, or above one *)
Definition endless (r : list string -> string -> result (list obj)) (o : obj) : Prop :=
  exists P : obj -> Prop, P o /\ forall x, P x -> exists y, child_of r x y /\ P y.
(** no flag set that could leave something out of the diff *)
Definition no_skip_flags (w : world) (flags : N) : Prop :=
  (N.testbit flags 1 = false /\ N.testbit flags 2 = false) /\
  forall o, exists_in w o ->
    N.testbit (o_flags o) 0 = false /\ N.testbit (o_flags o) 2 = false /\ N.testbit (o_flags o) 3 = false.
