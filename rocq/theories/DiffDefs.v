(** * DiffDefs: Diff and DiffElement (diffsync/diff.py). *)
From Verif Require Export ModelDefs.

(** DiffElement, diff.py:159-197.  [e_kids] is [child_diff.children] (diff.py:35):
    group (= type) -> name -> element.  [e_src]/[e_dst] are source_attrs and
    dest_attrs ([None] when the object does not exist on that side).  The child
    diff has the class of the diff the element belongs to (diff.py:197,
    helpers.py:218) and its models_processed stays 0, so neither is stored. *)
Inductive elem := mkElem {
  e_type : string;
  e_name : string;
  e_keys : dict val;
  e_sname : string;
  e_dname : string;
  e_src : option (dict val);
  e_dst : option (dict val);
  e_kids : dict (dict elem)
}.

(** An ordering hook [order_children_<group>] / [order_children_default]
    (diff.py:85-108): from the elements of a group to the positions yielded. *)
Definition order_fn := string -> list elem -> list nat.

(** A Diff subclass: its name, the names of the classes it is an instance of
    (itself first), and its ordering hooks. *)
Record diffclass := mkDiffClass {
  dc_name : string;
  dc_mro : list string;
  dc_order : order_fn
}.

(** Diff, diff.py:30-40 *)
Record diff := mkDiff {
  d_class : diffclass;
  d_groups : dict (dict elem);
  d_processed : nat
}.

(** diff.py:33-40 [Diff()] *)
Definition empty_diff (c : diffclass) : diff := mkDiff c [] 0.

(** [children[group]] on the OrderedDefaultDict (utils.py:44-55) *)
Definition group_of {A} (gs : dict (dict A)) (t : string) : dict A :=
  match dget gs t with Some g => g | None => [] end.

(** diff.py:56-66 [Diff.add] on the children dictionary.  The failing lookup
    happens only on an existing non-empty group, so a raise leaves no trace. *)
Definition groups_add (gs : dict (dict elem)) (e : elem) : result (dict (dict elem)) :=
  if dmem (group_of gs (e_type e)) (e_name e) then Err ObjectAlreadyExists
  else Ok (dset gs (e_type e) (dset (group_of gs (e_type e)) (e_name e) e)).

Definition diff_add (d : diff) (e : elem) : result diff :=
  rbind (groups_add (d_groups d) e) (fun gs => Ok (mkDiff (d_class d) gs (d_processed d))).

(** diff.py:307-312 [add_child] *)
Definition elem_add_child (p e : elem) : result elem :=
  rbind (groups_add (e_kids p) e) (fun gs =>
  Ok (mkElem (e_type p) (e_name p) (e_keys p) (e_sname p) (e_dname p) (e_src p) (e_dst p) gs)).

(** diff.py:68-70 *)
Definition groups (d : diff) : list string := dkeys (d_groups d).

(** The elements at the given positions *)
Definition select {A} (l : list A) (idx : list nat) : list A :=
  flat_map (fun i => match nth_error l i with Some x => [x] | None => [] end) idx.

(** diff.py:85-100 [get_children], mapped through [f] *)
Definition ordered {A} (ord : order_fn) (f : elem -> A) (gs : dict (dict elem)) : list A :=
  flat_map (fun g => select (map (fun kv => f (snd kv)) (snd g)) (ord (fst g) (dvals (snd g)))) gs.

(** diff.py:102-108 [order_children_default] *)
Definition order_default : order_fn := fun _ l => seq 0 (length l).
(** The class Diff itself *)
Definition base_class : diffclass := mkDiffClass "Diff" ["Diff"] order_default.

(** diff.py:266-279 [get_attrs_keys] *)
Definition attrs_keys (s d : option (dict val)) : list string :=
  match s, d with
  | Some s, Some d => intersection (dkeys d) (dkeys s)
  | None, Some d => dkeys d
  | Some s, None => dkeys s
  | None, None => []
  end.

(** [s[k] != d[k]] *)
Definition attr_differs (s d : dict val) (k : string) : bool :=
  match dget s k, dget d k with
  | Some x, Some y => negb (py_eq x y)
  | None, None => false
  | _, _ => true
  end.

(** diff.py:236-254 [action] *)
Definition attrs_action (s d : option (dict val)) : option action :=
  match s, d with
  | Some _, None => Some ACreate
  | None, Some _ => Some ADelete
  | Some s', Some d' => if existsb (attr_differs s' d') (attrs_keys s d) then Some AUpdate else None
  | None, None => None
  end.
Definition e_action (e : elem) : option action := attrs_action (e_src e) (e_dst e).

(** [{key: d[key] for key in keys}]; the keys are always keys of [d] *)
Definition pick (d : dict val) (keys : list string) : dict val :=
  fold_left (fun acc k => match dget d k with Some v => dset acc k v | None => acc end) keys [].

(** diff.py:281-305 [get_attrs_diffs]; [None] = the "+" / "-" entry is absent *)
Record attrs_diffs := mkAD { ad_plus : option (dict val); ad_minus : option (dict val) }.
Definition get_attrs_diffs (s d : option (dict val)) : attrs_diffs :=
  match s, d with
  | Some s', Some d' =>
      let ks := filter (attr_differs s' d') (attrs_keys s d) in
      mkAD (Some (pick s' ks)) (Some (pick d' ks))
  | None, Some d' => mkAD None (Some (pick d' (attrs_keys s d)))
  | Some s', None => mkAD (Some (pick s' (attrs_keys s d))) None
  | None, None => mkAD None None
  end.
Definition e_attrs_diffs (e : elem) : attrs_diffs := get_attrs_diffs (e_src e) (e_dst e).

(** diff.py:318-337 without children *)
Definition own_diffs (e : elem) : bool :=
  match e_src e, e_dst e with
  | Some _, None | None, Some _ => true
  | Some s, Some d => existsb (attr_differs s d) (attrs_keys (e_src e) (e_dst e))
  | None, None => false
  end.

(** diff.py:318-337 [DiffElement.has_diffs(include_children=True)] with
    diff.py:72-83 [Diff.has_diffs] for the child diff *)
Fixpoint elem_has_diffs (e : elem) : bool :=
  own_diffs e ||
  existsb (fun g => existsb (fun kv => elem_has_diffs (snd kv)) (snd g)) (e_kids e).
Definition groups_have_diffs (gs : dict (dict elem)) : bool :=
  existsb (fun g => existsb (fun kv => elem_has_diffs (snd kv)) (snd g)) gs.
(** diff.py:72-83 *)
Definition diff_has_diffs (d : diff) : bool := groups_have_diffs (d_groups d).

(** The counters of summary() (diff.py:110-131, :339-354) without "skip" *)
Record counts := mkCounts { n_create : nat; n_update : nat; n_delete : nat; n_nochange : nat }.
Definition counts0 : counts := mkCounts 0 0 0 0.
Definition counts_add (a b : counts) : counts :=
  mkCounts (n_create a + n_create b) (n_update a + n_update b)
           (n_delete a + n_delete b) (n_nochange a + n_nochange b).
Definition counts_of_action (x : option action) : counts :=
  match x with
  | Some ACreate => mkCounts 1 0 0 0
  | Some AUpdate => mkCounts 0 1 0 0
  | Some ADelete => mkCounts 0 0 1 0
  | None => mkCounts 0 0 0 1
  end.

(** Diff.str of a children dictionary: diff.py:133-148, given has_diffs and
    str of each element *)
Definition str_groups (indent : nat) (gs : list (string * list (bool * string))) : string :=
  let out := flat_map (fun g =>
    match map snd (filter (fun hs => fst hs) (snd g)) with
    | [] => []
    | ls => (spaces indent ++ fst g)%string :: ls
    end) gs in
  match join newline out with
  | EmptyString => "(no diffs)"
  | s => s
  end.

(** diff.py:360-372, the attribute lines of DiffElement.str *)
Definition str_attrs (e : elem) (indent : nat) : string :=
  let margin := spaces indent in
  match e_src e, e_dst e with
  | Some _, Some _ =>
      let diffs := e_attrs_diffs e in
      match ad_plus diffs, ad_minus diffs with
      | Some plus, Some minus =>
          String.concat "" (map (fun kv =>
            (newline ++ margin ++ "  " ++ fst kv ++
             "    " ++ e_sname e ++ "(" ++ py_str (snd kv) ++ ")" ++
             "    " ++ e_dname e ++ "(" ++
             py_str (match dget minus (fst kv) with Some v => v | None => VNone end) ++ ")")%string) plus)
      | _, _ => ""
      end
  | None, Some _ => (" MISSING in " ++ e_sname e)%string
  | Some _, None => (" MISSING in " ++ e_dname e)%string
  | None, None => ""
  end.

(** diff.py:356-378 [DiffElement.str] *)
Fixpoint elem_str (e : elem) (indent : nat) {struct e} : string :=
  (spaces indent ++ e_type e ++ ": " ++ e_name e ++ str_attrs e indent ++
   (if groups_have_diffs (e_kids e)
    then newline ++ str_groups (indent + 2)
           (map (fun g => (fst g, map (fun kv => (elem_has_diffs (snd kv), elem_str (snd kv) (indent + 2 + 2))) (snd g)))
                (e_kids e))
    else match e_src e, e_dst e with
         | None, None => " (no diffs)"
         | _, _ => ""
         end))%string.
(** diff.py:133-148 [Diff.str] *)
Definition diff_str (d : diff) (indent : nat) : string :=
  str_groups indent
    (map (fun g => (fst g, map (fun kv => (elem_has_diffs (snd kv), elem_str (snd kv) (indent + 2))) (snd g)))
         (d_groups d)).

(** Nested dictionaries as returned by dict() *)
Inductive pyv := PV (v : val) | PD (d : dict pyv).

(** diff.py:150-156 [Diff.dict], given (type, name, has_diffs, dict()) of each child *)
Definition dict_of_children (l : list (string * string * bool * pyv)) : dict pyv :=
  map (fun kv => (fst kv, PD (snd kv)))
    (fold_left (fun (res : dict (dict pyv)) x =>
       match x with
       | (t, n, h, d) => if h : bool then dset res t (dset (group_of res t) n d) else res
       end) l []).

(** [result.update(other)] *)
Definition dupdate {A} (d other : dict A) : dict A :=
  fold_left (fun acc kv => dset acc (fst kv) (snd kv)) other d.

Definition pv_dict (d : dict val) : pyv := PD (map (fun kv => (fst kv, PV (snd kv))) d).

Section Ordered.
  Variable ord : order_fn.

  (** diff.py:229-234 and :42-47 [__len__] *)
  Fixpoint elem_len (e : elem) : nat := 1 + list_sum (ordered ord elem_len (e_kids e)).
  Definition groups_len (gs : dict (dict elem)) : nat := list_sum (ordered ord elem_len gs).

  (** diff.py:339-354 [DiffElement.summary] *)
  Fixpoint elem_counts (e : elem) : counts :=
    counts_add (counts_of_action (e_action e))
               (fold_left counts_add (ordered ord elem_counts (e_kids e)) counts0).
  Definition groups_counts (gs : dict (dict elem)) : counts :=
    fold_left counts_add (ordered ord elem_counts gs) counts0.

  (** diff.py:380-390 [DiffElement.dict] *)
  Fixpoint elem_dict (e : elem) : pyv :=
    let diffs := e_attrs_diffs e in
    let r0 := match ad_minus diffs with Some m => [("-", pv_dict m)] | None => [] end in
    let r1 := match ad_plus diffs with Some p => dset r0 "+" (pv_dict p) | None => r0 end in
    PD (if groups_have_diffs (e_kids e)
        then dupdate r1 (dict_of_children
               (ordered ord (fun c => (e_type c, e_name c, elem_has_diffs c, elem_dict c)) (e_kids e)))
        else r1).
  Definition groups_dict (gs : dict (dict elem)) : dict pyv :=
    dict_of_children (ordered ord (fun c => (e_type c, e_name c, elem_has_diffs c, elem_dict c)) gs).
End Ordered.

(** diff.py:42-47 *)
Definition diff_len (d : diff) : nat := groups_len (dc_order (d_class d)) (d_groups d).
(** diff.py:110-131 *)
Definition diff_counts (d : diff) : counts := groups_counts (dc_order (d_class d)) (d_groups d).
Definition diff_skip (d : diff) : Z :=
  let s := diff_counts d in
  (Z.of_nat (d_processed d) - Z.of_nat (n_create s) - 2 * Z.of_nat (n_update s)
   - Z.of_nat (n_delete s) - 2 * Z.of_nat (n_nochange s))%Z.
(** diff.py:150-156 *)
Definition diff_dict (d : diff) : dict pyv := groups_dict (dc_order (d_class d)) (d_groups d).

(** diff.py:206-220 [__eq__] and :199-204 [__lt__] of DiffElement *)
Definition opt_dict_eq (a b : option (dict val)) : bool :=
  match a, b with
  | Some x, Some y => dict_eq x y
  | None, None => true
  | _, _ => false
  end.
Definition elem_eqb (a b : elem) : bool :=
  String.eqb (e_type a) (e_type b) && String.eqb (e_name a) (e_name b) &&
  dict_eq (e_keys a) (e_keys b) && opt_dict_eq (e_src a) (e_src b) && opt_dict_eq (e_dst a) (e_dst b).
Definition elem_ltb (a b : elem) : bool :=
  if String.eqb (e_type a) (e_type b) then String.ltb (e_name a) (e_name b)
  else String.ltb (e_type a) (e_type b).
(** [__gt__], [__le__] and [__ge__] as made by functools.total_ordering (diff.py:159) from
    [__lt__] and [__eq__] *)
Definition elem_gtb (a b : elem) : bool := negb (elem_ltb a b) && negb (elem_eqb a b).
Definition elem_leb (a b : elem) : bool := elem_ltb a b || elem_eqb a b.
Definition elem_geb (a b : elem) : bool := negb (elem_ltb a b).
