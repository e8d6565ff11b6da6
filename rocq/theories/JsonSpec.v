(** * JsonSpec: what a JSON text means.

    Vocabulary for C90: a reader of JSON (RFC 8259), written without regard to the writer.  Numbers with a fraction or an
    exponent and escapes of characters outside ASCII are not read. *)
From Coq Require Import Ascii String List.
From Verif Require Export LoadSpec JsonDefs.
Import ListNotations.
Open Scope string_scope. Open Scope list_scope.

Definition is_space (c : ascii) : bool := existsb (Nat.eqb (nat_of_ascii c)) [9; 10; 13; 32].
Fixpoint skip (s : string) : string :=
  match s with String c r => if is_space c then skip r else s | EmptyString => "" end.

(** the value of a digit *)
Fixpoint index_of (c : ascii) (s : string) : option nat :=
  match s with
  | EmptyString => None
  | String c' r => if Ascii.eqb c c' then Some 0%nat else option_map S (index_of c r)
  end.
Definition digit (c : ascii) : option nat := index_of c "0123456789".
Definition hex (c : ascii) : option nat :=
  match index_of c "0123456789abcdef" with Some n => Some n | None => index_of c "0123456789ABCDEF" end.

(** numbers *)
Fixpoint read_digits (acc : Z) (s : string) : Z * string :=
  match s with
  | String c r => match digit c with Some n => read_digits (10 * acc + Z.of_nat n) r | None => (acc, s) end
  | EmptyString => (acc, s)
  end.
Definition no_fraction (s : string) : bool :=
  match s with String c _ => negb (existsb (Ascii.eqb c) ["."; "e"; "E"]%char) | EmptyString => true end.
Definition no_digit (s : string) : bool :=
  match s with String c _ => match digit c with Some _ => false | None => true end | EmptyString => true end.
Definition read_natural (s : string) : option (Z * string) :=
  match s with
  | String c r =>
      match digit c with
      | Some O => if (no_digit r && no_fraction r)%bool then Some (0%Z, r) else None      (* no leading zeros *)
      | Some n => let (z, r') := read_digits (Z.of_nat n) r in if no_fraction r' then Some (z, r') else None
      | None => None
      end
  | EmptyString => None
  end.

(** the rest of a string after its opening quote *)
Definition escaped (c : ascii) : option ascii :=
  match index_of c """\/bfnrt" with
  | Some 0%nat => Some """"%char | Some 1%nat => Some "\"%char | Some 2%nat => Some "/"%char
  | Some 3%nat => Some (ascii_of_nat 8) | Some 4%nat => Some (ascii_of_nat 12) | Some 5%nat => Some (ascii_of_nat 10)
  | Some 6%nat => Some (ascii_of_nat 13) | Some 7%nat => Some (ascii_of_nat 9)
  | _ => None
  end.
Definition push (c : ascii) (o : option (string * string)) : option (string * string) :=
  match o with Some (s, r) => Some (String c s, r) | None => None end.
Fixpoint read_str (s : string) : option (string * string) :=
  match s with
  | EmptyString => None
  | String c r =>
      if Ascii.eqb c """" then Some ("", r)
      else if Ascii.eqb c "\" then
        match r with
        | String "u" (String a (String b (String c1 (String c2 r')))) =>
            match hex a, hex b, hex c1, hex c2 with
            | Some O, Some O, Some n, Some m => if (16 * n + m <? 128)%nat then push (ascii_of_nat (16 * n + m)) (read_str r') else None
            | _, _, _, _ => None
            end
        | String e r' => match escaped e with Some c' => push c' (read_str r') | None => None end
        | EmptyString => None
        end
      else if (nat_of_ascii c <? 32)%nat then None
      else push c (read_str r)
  end.

(** values; a member that comes again replaces the one before.  [n]: how deep and how far at most *)
Fixpoint read_val (n : nat) (s : string) : option (val * string) :=
  match n with
  | O => None
  | S n' =>
      match skip s with
      | String "n" (String "u" (String "l" (String "l" r))) => Some (VNone, r)
      | String "t" (String "r" (String "u" (String "e" r))) => Some (VBool true, r)
      | String "f" (String "a" (String "l" (String "s" (String "e" r)))) => Some (VBool false, r)
      | String """" r => match read_str r with Some (x, r') => Some (VStr x, r') | None => None end
      | String "-" r => match read_natural r with Some (z, r') => Some (VInt (- z), r') | None => None end
      | String "[" r =>
          match skip r with
          | String "]" r' => Some (VList [], r')
          | r1 => match read_list n' [] r1 with Some (l, r') => Some (VList l, r') | None => None end
          end
      | String "{" r =>
          match skip r with
          | String "}" r' => Some (VDict [], r')
          | r1 => match read_dict n' [] r1 with Some (d, r') => Some (VDict d, r') | None => None end
          end
      | r => match read_natural r with Some (z, r') => Some (VInt z, r') | None => None end
      end
  end
with read_list (n : nat) (l : list val) (s : string) : option (list val * string) :=
  match n with
  | O => None
  | S n' =>
      match read_val n' s with
      | Some (v, r) =>
          match skip r with
          | String "," r' => read_list n' (l ++ [v]) r'
          | String "]" r' => Some (l ++ [v], r')
          | _ => None
          end
      | None => None
      end
  end
with read_dict (n : nat) (d : dict val) (s : string) : option (dict val * string) :=
  match n with
  | O => None
  | S n' =>
      match skip s with
      | String """" r =>
          match read_str r with
          | Some (k, r') =>
              match skip r' with
              | String ":" r2 =>
                  match read_val n' r2 with
                  | Some (v, r3) =>
                      match skip r3 with
                      | String "," r4 => read_dict n' (dset d k v) r4
                      | String "}" r4 => Some (dset d k v, r4)
                      | _ => None
                      end
                  | None => None
                  end
              | _ => None
              end
          | None => None
          end
      | _ => None
      end
  end.
(** [json.loads(s)] *)
Definition json_loads (s : string) : option val :=
  match read_val (S (String.length s)) s with
  | Some (v, r) => match skip r with EmptyString => Some v | _ => None end
  | None => None
  end.

(** a Python value: the keys of a dictionary do not repeat *)
Inductive proper : val -> Prop :=
| pr_none : proper VNone
| pr_bool b : proper (VBool b)
| pr_int z : proper (VInt z)
| pr_nan : proper VNaN
| pr_str s : proper (VStr s)
| pr_list l : (forall v, In v l -> proper v) -> proper (VList l)
| pr_dict d : NoDup (dkeys d) -> (forall k v, In (k, v) d -> proper v) -> proper (VDict d).
(** the same with None for NaN *)
Fixpoint nulled (v : val) : val :=
  match v with
  | VNaN => VNone
  | VList l => VList (map nulled l)
  | VDict d => VDict (map (fun kv => (fst kv, nulled (snd kv))) d)
  | _ => v
  end.

(** no NaN in it *)
Fixpoint has_nan (v : val) : bool :=
  match v with VNaN => true | VList l => existsb has_nan l | VDict d => existsb (fun kv => has_nan (snd kv)) d | _ => false end.

(** fields and child fields have names of their own, model_flags is none of them (it is a field of the base class) *)
Definition own_names (c : cls) : Prop := NoDup ("model_flags" :: map fst (c_fields c) ++ c_kid_fields c).
(** [cls( **values)]: the values are keyword arguments, of which those for child fields are lists of names *)
Definition names_in (v : val) : list string :=
  match v with VList l => flat_map (fun x => match x with VStr s => [s] | _ => [] end) l | _ => [] end.
Definition from_members (c : cls) (d : dict val) : result obj :=
  instantiate c (filter (fun kv => smem (fst kv) (map fst (c_fields c))) d)
    (map (fun kv => (fst kv, names_in (snd kv))) (filter (fun kv => smem (fst kv) (c_kid_fields c)) d))
    (match dget d "model_flags" with Some (VInt z) => Some (Z.to_N z) | _ => None end) None.
