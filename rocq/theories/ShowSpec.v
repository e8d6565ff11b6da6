(** * ShowSpec: what the presentations of a diff should show.

    Vocabulary for C59-C61. *)
From Verif Require Export Spec.
From Coq Require Import Ascii NArith.

(** ** Differences of one element *)

(** attribute [k] has the value [v] in the source and not in the destination / the other way round *)
Definition gained (x : elem) (k : string) (v : val) : Prop :=
  exists s, e_src x = Some s /\ dget s k = Some v /\
    match e_dst x with
    | None => True
    | Some d => exists v', dget d k = Some v' /\ py_eq v v' = false
    end.
Definition lost (x : elem) (k : string) (v : val) : Prop :=
  exists d, e_dst x = Some d /\ dget d k = Some v /\
    match e_src x with
    | None => True
    | Some s => exists v', dget s k = Some v' /\ py_eq v' v = false
    end.
(** the element itself is to be created, deleted or updated *)
Definition differs (x : elem) : Prop :=
  match e_src x, e_dst x with
  | Some s, Some d => exists k, shared_unequal s d k
  | None, None => False
  | _, _ => True
  end.

(** ** dict() *)

(** what a nested dictionary holds at a path of keys *)
Fixpoint pget (x : pyv) (p : list string) {struct p} : option pyv :=
  match p with
  | [] => Some x
  | k :: p' => match x with
               | PD d => match dget d k with Some y => pget y p' | None => None end
               | PV _ => None
               end
  end.
(** [x] is the element reached by types and names *)
Inductive at_path : dict (dict elem) -> list string -> elem -> Prop :=
| path_here gs t g n x : In (t, g) gs -> In (n, x) g -> at_path gs [t; n] x
| path_below gs t g n y p x : In (t, g) gs -> In (n, y) g -> at_path (e_kids y) p x -> at_path gs (t :: n :: p) x.
(** no element has a type with the name of one of the keys under which attributes are shown *)
Definition signless (gs : dict (dict elem)) : Prop := forall x, occurs x gs -> e_type x <> "+" /\ e_type x <> "-".

(** ** str() *)

(** a line: depth and text *)
Notation line := (nat * string)%type (only parsing).
Definition both_values (x : elem) (k : string) : option (val * val) :=
  match e_src x, e_dst x with
  | Some s, Some d => match dget s k, dget d k with
                      | Some v, Some v' => if py_eq v v' then None else Some (v, v')
                      | _, _ => None
                      end
  | _, _ => None
  end.
(** one line for each differing attribute, in the order in which the destination has them *)
Definition attr_lines (x : elem) (depth : nat) : list line :=
  match e_dst x with
  | None => []
  | Some d => flat_map (fun k => match both_values x k with
                                 | Some (v, v') => [(depth, (k ++ "    " ++ e_sname x ++ "(" ++ py_str v ++ ")" ++ "    " ++ e_dname x ++ "(" ++ py_str v' ++ ")")%string)]
                                 | None => []
                                 end) (dkeys d)
  end.
Definition title (x : elem) : string :=
  (e_type x ++ ": " ++ e_name x ++
   match e_src x, e_dst x with
   | Some _, None => " MISSING in " ++ e_dname x
   | None, Some _ => " MISSING in " ++ e_sname x
   | _, _ => ""
   end)%string.
(** The report on a set of elements: for each type with changed elements a line with its name, below it
    each changed element with its title, its differing attributes and the report on its children. *)
Inductive reports : nat -> dict (dict elem) -> list line -> Prop :=
| rep_nil n : reports n [] []
| rep_quiet n t g gs ls : members (S n) g [] -> reports n gs ls -> reports n ((t, g) :: gs) ls
| rep_group n t g gs l l' ls : members (S n) g (l :: l') -> reports n gs ls -> reports n ((t, g) :: gs) ((n, t) :: l :: l' ++ ls)
with members : nat -> dict elem -> list line -> Prop :=
| mem_nil n : members n [] []
| mem_same n m x g ls : ~ differs x -> (forall y, occurs y (e_kids x) -> ~ differs y) -> members n g ls -> members n ((m, x) :: g) ls
| mem_diff n m x g below ls : differs x \/ (exists y, occurs y (e_kids x) /\ differs y) ->
    reports (S n) (e_kids x) below -> members n g ls ->
    members n ((m, x) :: g) ((n, title x) :: attr_lines x (S n) ++ below ++ ls).

(** lines as text: two spaces per level *)
Definition written (indent : nat) (l : line) : string := (spaces (indent + 2 * fst l) ++ snd l)%string.
(** destination attributes form a dictionary *)
Definition attrs_once (gs : dict (dict elem)) : Prop := forall x d, occurs x gs -> e_dst x = Some d -> NoDup (dkeys d).

(** ** Order of elements *)

(** alphabetical order by character codes *)
Inductive before : string -> string -> Prop :=
| before_end c s : before "" (String c s)
| before_char c s c' s' : (N_of_ascii c < N_of_ascii c')%N -> before (String c s) (String c' s')
| before_tail c s s' : before s s' -> before (String c s) (String c s').
(** by type, then by name *)
Definition precedes (x y : elem) : Prop := before (e_type x) (e_type y) \/ (e_type x = e_type y /\ before (e_name x) (e_name y)).

(** the same keys with values that are equal in the sense of "==" *)
Definition agree (a b : dict val) : Prop :=
  forall k, match dget a k, dget b k with Some v, Some v' => py_eq v v' = true | None, None => True | _, _ => False end.
Definition agree_opt (a b : option (dict val)) : Prop :=
  match a, b with Some x, Some y => agree x y | None, None => True | _, _ => False end.
(** keys and attributes are dictionaries *)
Definition dicts_once (x : elem) : Prop :=
  NoDup (dkeys (e_keys x)) /\ (forall d, e_src x = Some d -> NoDup (dkeys d)) /\ (forall d, e_dst x = Some d -> NoDup (dkeys d)).
(** elements that count as equal: children and names of adapters do not matter *)
Definition alike_elems (x y : elem) : Prop :=
  e_type x = e_type y /\ e_name x = e_name y /\ agree (e_keys x) (e_keys y) /\ agree_opt (e_src x) (e_src y) /\ agree_opt (e_dst x) (e_dst y).
