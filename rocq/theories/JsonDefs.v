(** * JsonDefs: the JSON text of a model (diffsync/__init__.py). *)
From Coq Require Import Ascii String List.
From Coq Require Import DecimalString.
From Verif Require Export AdapterDefs.
Import ListNotations.
Open Scope string_scope. Open Scope list_scope.

(** What pydantic's [model_dump_json] writes: compact, control characters escaped, other characters as they are,
    NaN as null *)
Definition json_char (c : ascii) : string :=
  let n := nat_of_ascii c in
  if (Ascii.eqb c """" || Ascii.eqb c "\")%bool then String "\" (String c "")
  else if Nat.eqb n 8 then "\b"
  else if Nat.eqb n 9 then "\t"
  else if Nat.eqb n 10 then "\n"
  else if Nat.eqb n 12 then "\f"
  else if Nat.eqb n 13 then "\r"
  else if (n <? 32)%nat then ("\u00" ++ String (hex_digit (n / 16)) (String (hex_digit (n mod 16)) ""))%string
  else String c "".
Fixpoint json_body (s : string) : string :=
  match s with EmptyString => "" | String c s' => (json_char c ++ json_body s')%string end.
Definition json_str (s : string) : string := String """" (json_body s ++ """").
Fixpoint json_val (v : val) : string :=
  match v with
  | VNone | VNaN => "null"
  | VBool true => "true"
  | VBool false => "false"
  | VInt z => NilZero.string_of_int (Z.to_int z)
  | VStr s => json_str s
  | VList l => ("[" ++ join "," (map json_val l) ++ "]")%string
  | VDict d => ("{" ++ join "," (map (fun kv => json_str (fst kv) ++ ":" ++ json_val (snd kv)) d) ++ "}")%string
  end.

(** the members: model_flags, a field of the base class (__init__.py:112), comes first.  Simplification: the child lists come last *)
Definition dump_members (d : dump) : dict val :=
  (match du_flags d with Some n => [("model_flags", VInt (Z.of_N n))] | None => [] end) ++ du_vals d ++
  map (fun fl => (fst fl, VList (map VStr (snd fl)))) (du_kids d).
(** __init__.py:175-181 [DiffSyncModel.json] without arguments: [exclude] is the adapter, [exclude_defaults] is set *)
Definition model_json (o : obj) : string := json_val (VDict (dump_members (obj_dump true o))).
