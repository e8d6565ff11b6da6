(** * Base: Python building blocks used by the model of diffsync.

    Pure stdlib Coq.  Nothing here is specific to diffsync except the list of
    exception classes. *)
From Coq Require Export String List Bool Arith ZArith NArith Lia Permutation.
From Coq Require Import DecimalString Ascii.
Export ListNotations.
Open Scope string_scope.
Open Scope list_scope.
Open Scope nat_scope.

(** ** Insertion-ordered dictionaries with string keys (Python [dict]).

    A Python dict iterates in insertion order; assigning an existing key keeps
    its position; deleting and re-adding moves it to the end. *)
Definition dict (A : Type) := list (string * A).

Section Dict.
  Context {A : Type}.

  (** [d.get(k)] *)
  Fixpoint dget (d : dict A) (k : string) : option A :=
    match d with
    | [] => None
    | (k', v) :: d' => if String.eqb k k' then Some v else dget d' k
    end.

  (** [d[k] = v] *)
  Fixpoint dset (d : dict A) (k : string) (v : A) : dict A :=
    match d with
    | [] => [(k, v)]
    | (k', v') :: d' => if String.eqb k k' then (k', v) :: d' else (k', v') :: dset d' k v
    end.

  (** [del d[k]] (the key is known to be present at every use) *)
  Fixpoint ddel (d : dict A) (k : string) : dict A :=
    match d with
    | [] => []
    | (k', v') :: d' => if String.eqb k k' then d' else (k', v') :: ddel d' k
    end.

  (** [d.keys()], [d.values()], [k in d] *)
  Definition dkeys (d : dict A) : list string := map fst d.
  Definition dvals (d : dict A) : list A := map snd d.
  Definition dmem (d : dict A) (k : string) : bool :=
    match dget d k with Some _ => true | None => false end.
End Dict.

(** [x in lst] for a list of strings *)
Definition smem (x : string) (l : list string) : bool := existsb (String.eqb x) l.

(** ** Exceptions.

    The classes of diffsync/exceptions.py:25-67 that the modelled code raises,
    the builtin exceptions it can raise, and [UserExn] for whatever else user
    code in a hook raises.  [DanglingRef] marks states that do not exist in
    Python (a reference to a non-existing object); it is proved unreachable
    from well-formed states. *)
Inductive exn :=
| ObjectAlreadyExists | ObjectNotFound | ObjectStoreWrongType
| ObjectCrudException | ObjectNotCreated | ObjectNotUpdated | ObjectNotDeleted
| DiffClassMismatch
| ExnKeyError | ExnAttributeError | ExnTypeError | ExnValueError
| ExnValidationError | ExnRecursionError
| UserExn (n : nat)
| DanglingRef.

(** [isinstance(e, ObjectCrudException)]: diffsync/exceptions.py:25-38. *)
Definition is_crud (e : exn) : bool :=
  match e with
  | ObjectCrudException | ObjectNotCreated | ObjectNotUpdated | ObjectNotDeleted => true
  | _ => false
  end.

(** [isinstance(e, ObjectNotFound)] *)
Definition is_not_found (e : exn) : bool :=
  match e with ObjectNotFound => true | _ => false end.

Inductive result (A : Type) :=
| Ok (a : A)
| Err (e : exn).
Arguments Ok {A} a.
Arguments Err {A} e.

Definition rbind {A B} (m : result A) (k : A -> result B) : result B :=
  match m with Ok a => k a | Err e => Err e end.

Fixpoint rmapM {A B} (f : A -> result B) (l : list A) : result (list B) :=
  match l with
  | [] => Ok []
  | x :: l' => rbind (f x) (fun y => rbind (rmapM f l') (fun ys => Ok (y :: ys)))
  end.

(** ** State and exception monad: an exception keeps the state reached so far. *)
Definition M (S A : Type) := S -> S * result A.

Section Monad.
  Context {S : Type}.
  Definition ret {A} (a : A) : M S A := fun s => (s, Ok a).
  Definition raise {A} (e : exn) : M S A := fun s => (s, Err e).
  Definition bind {A B} (m : M S A) (k : A -> M S B) : M S B :=
    fun s => match m s with
             | (s', Ok a) => k a s'
             | (s', Err e) => (s', Err e)
             end.
  Definition get_state : M S S := fun s => (s, Ok s).
  Definition modify (f : S -> S) : M S unit := fun s => (f s, Ok tt).
  Definition lift {A} (r : result A) : M S A := fun s => (s, r).
  (** [try: m except E as e: h e] where [p] says whether [e] is caught *)
  Definition try_catch {A} (m : M S A) (p : exn -> bool) (h : exn -> M S A) : M S A :=
    fun s => match m s with
             | (s', Ok a) => (s', Ok a)
             | (s', Err e) => if p e then h e s' else (s', Err e)
             end.
  (** [for x in l: f(x)] *)
  Fixpoint forM {A} (l : list A) (f : A -> M S unit) : M S unit :=
    match l with
    | [] => ret tt
    | x :: l' => bind (f x) (fun _ => forM l' f)
    end.
  (** [[f(x) for x in l]] *)
  Fixpoint mapM {A B} (f : A -> M S B) (l : list A) : M S (list B) :=
    match l with
    | [] => ret []
    | x :: l' => bind (f x) (fun y => bind (mapM f l') (fun ys => ret (y :: ys)))
    end.
End Monad.

Notation "x <- m ;; k" := (bind m (fun x => k))
  (at level 61, m at next level, right associativity).
Notation "m ;;; k" := (bind m (fun _ => k))
  (at level 61, right associativity).

(** ** Python values of model fields.

    Simplification: values are None, bool, int, str, a float NaN, and lists and
    string-keyed dicts of such; other floats, tuples, sets and arbitrary objects
    are not represented. *)
Inductive val :=
| VNone
| VBool (b : bool)
| VInt (z : Z)
| VNaN
| VStr (s : string)
| VList (l : list val)
| VDict (d : list (string * val)).

(** Python [a == b].  [True == 1], [False == 0]; NaN is not equal to anything,
    itself included.  (CPython's identity shortcut for NaN inside a list is
    not modelled: a list holding NaN is taken to be different from itself.)
    Dicts: every key of one is in the other with an equal value (for keys that
    do not repeat this is [dict_eq] below: lemma [py_eq_dict]). *)
Fixpoint py_eq (a b : val) {struct a} : bool :=
  match a, b with
  | VNone, VNone => true
  | VBool x, VBool y => Bool.eqb x y
  | VInt x, VInt y => Z.eqb x y
  | VBool x, VInt y => Z.eqb (Z.b2z x) y
  | VInt x, VBool y => Z.eqb x (Z.b2z y)
  | VStr x, VStr y => String.eqb x y
  | VList l, VList m =>
      (fix go (l m : list val) : bool :=
         match l, m with
         | [], [] => true
         | x :: l', y :: m' => py_eq x y && go l' m'
         | _, _ => false
         end) l m
  | VDict l, VDict m =>
      (fix fwd (l0 : list (string * val)) : bool :=
         match l0 with
         | [] => true
         | (k, v) :: l' => match dget m k with Some v' => py_eq v v' | None => false end && fwd l'
         end) l &&
      forallb (fun kv => (fix find (l0 : list (string * val)) : bool :=
                            match l0 with
                            | [] => false
                            | (k, v) :: l' => if String.eqb (fst kv) k then py_eq v (snd kv) else find l'
                            end) l) m
  | _, _ => false
  end.

(** Python equality of two dicts with string keys: order does not matter. *)
Definition dict_eq (a b : dict val) : bool :=
  Nat.eqb (length a) (length b) &&
  forallb (fun kv => match dget b (fst kv) with
                     | Some v => py_eq (snd kv) v
                     | None => false
                     end) a.

(** [sep.join(l)] *)
Definition join (sep : string) (l : list string) : string := String.concat sep l.

(** [repr(s)] of a string: quotes, backslashes and control characters are
    escaped.  Simplification: characters outside ASCII are shown as they are. *)
Definition contains_char (c : ascii) (s : string) : bool := existsb (Ascii.eqb c) (list_ascii_of_string s).
Definition hex_digit (n : nat) : ascii := ascii_of_nat (if n <? 10 then 48 + n else 87 + n).
Definition repr_char (q c : ascii) : string :=
  let n := nat_of_ascii c in
  if Ascii.eqb c q || Ascii.eqb c "\"%char then String "\" (String c "")
  else if Nat.eqb n 9 then "\t"
  else if Nat.eqb n 10 then "\n"
  else if Nat.eqb n 13 then "\r"
  else if (n <? 32) || Nat.eqb n 127 then ("\x" ++ String (hex_digit (n / 16)) (String (hex_digit (n mod 16)) ""))%string
  else String c "".
Fixpoint repr_body (q : ascii) (s : string) : string :=
  match s with EmptyString => "" | String c s' => (repr_char q c ++ repr_body q s')%string end.
Definition repr_str (s : string) : string :=
  let q := if contains_char "'" s && negb (contains_char """" s) then """"%char else "'"%char in
  String q (repr_body q s ++ String q "").

(** [repr(v)] and [str(v)] *)
Fixpoint py_repr (v : val) : string :=
  match v with
  | VNone => "None"
  | VBool true => "True"
  | VBool false => "False"
  | VInt z => NilZero.string_of_int (Z.to_int z)
  | VNaN => "nan"
  | VStr s => repr_str s
  | VList l => ("[" ++ join ", " (map py_repr l) ++ "]")%string
  | VDict d => ("{" ++ join ", " (map (fun kv => repr_str (fst kv) ++ ": " ++ py_repr (snd kv)) d) ++ "}")%string
  end.

Definition py_str (v : val) : string :=
  match v with
  | VStr s => s
  | _ => py_repr v
  end.

(** [str(d)] of a dict with string keys *)
Definition dict_str (d : dict val) : string :=
  ("{" ++ join ", " (map (fun kv => (repr_str (fst kv) ++ ": " ++ py_repr (snd kv))%string) d) ++ "}")%string.

(** [" " * n] *)
Fixpoint spaces (n : nat) : string :=
  match n with O => "" | S n' => String " "%char (spaces n') end.

(** [s.lower()] on ASCII *)
Definition lower_ascii (c : ascii) : ascii :=
  let n := nat_of_ascii c in
  if (65 <=? n) && (n <=? 90) then ascii_of_nat (n + 32) else c.
Fixpoint lower (s : string) : string :=
  match s with
  | EmptyString => EmptyString
  | String c s' => String (lower_ascii c) (lower s')
  end.

Definition newline : string := String (ascii_of_nat 10) EmptyString.

(** Python [sorted] on strings (by code unit). *)
Fixpoint sinsert (x : string) (l : list string) : list string :=
  match l with
  | [] => [x]
  | y :: l' => if String.leb x y then x :: l else y :: sinsert x l'
  end.
Definition ssort (l : list string) : list string := fold_right sinsert [] l.

(** [set(l)] as a duplicate-free list *)
Fixpoint sdedup (l : list string) : list string :=
  match l with
  | [] => []
  | x :: l' => if smem x l' then sdedup l' else x :: sdedup l'
  end.

(** diffsync/utils.py:31-34 [intersection]: ordering of the first list, repeats kept. *)
Definition intersection (l1 l2 : list string) : list string :=
  filter (fun x => smem x l2) l1.

(** diffsync/utils.py:37-41 [symmetric_difference]: sorted, without repeats. *)
Definition symmetric_difference (l1 l2 : list string) : list string :=
  ssort (sdedup (filter (fun x => negb (smem x l2)) l1 ++
                 filter (fun x => negb (smem x l1)) l2)).
