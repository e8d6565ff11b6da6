(** * ReprSpec: Python literals.

    Vocabulary for C74: which value a text denotes when Python evaluates it. *)
From Coq Require Import Ascii.
From Verif Require Export Base.

(** the value of a digit, decimal or hexadecimal *)
Definition digits : string := "0123456789".
Definition hex_digits : string := "0123456789abcdef".
Definition digit_in (ds : string) (c : ascii) (n : nat) : Prop := String.get n ds = Some c.

(** non-negative integers *)
Inductive decimal : string -> Z -> Prop :=
| dec_one c n : digit_in digits c n -> decimal (String c "") (Z.of_nat n)
| dec_more s z c n : decimal s z -> digit_in digits c n -> decimal (s ++ String c "") (10 * z + Z.of_nat n).

(** the characters inside a string literal with quotes [q] *)
Inductive char_lit (q : ascii) : string -> ascii -> Prop :=
| ch_plain c : c <> q -> c <> "\"%char -> 32 <= nat_of_ascii c -> nat_of_ascii c <> 127 -> char_lit q (String c "") c
| ch_backslash : char_lit q "\\" "\"
| ch_single : char_lit q "\'" "'"
| ch_double : char_lit q "\""" """"
| ch_tab : char_lit q "\t" (ascii_of_nat 9)
| ch_newline : char_lit q "\n" (ascii_of_nat 10)
| ch_return : char_lit q "\r" (ascii_of_nat 13)
| ch_hex c c' n n' : digit_in hex_digits c n -> digit_in hex_digits c' n' ->
    char_lit q ("\x" ++ String c (String c' "")) (ascii_of_nat (16 * n + n')).
Inductive body_lit (q : ascii) : string -> string -> Prop :=
| body_nil : body_lit q "" ""
| body_cons t c t' s : char_lit q t c -> body_lit q t' s -> body_lit q (t ++ t') (String c s).
Inductive string_lit : string -> string -> Prop :=
| str_lit q t s : q = "'"%char \/ q = """"%char -> body_lit q t s -> string_lit (String q (t ++ String q "")) s.

(** [denotes t v]: the text [t] denotes the value [v].  ("nan" is what Python shows for NaN; it is no literal.) *)
Inductive denotes : string -> val -> Prop :=
| den_none : denotes "None" VNone
| den_true : denotes "True" (VBool true)
| den_false : denotes "False" (VBool false)
| den_nan : denotes "nan" VNaN
| den_int t z : decimal t z -> denotes t (VInt z)
| den_neg t z : decimal t z -> denotes ("-" ++ t) (VInt (- z))
| den_str t s : string_lit t s -> denotes t (VStr s)
| den_list ts l : all_denote ts l -> denotes ("[" ++ String.concat ", " ts ++ "]") (VList l)
| den_dict ts d : items_denote ts d -> denotes ("{" ++ String.concat ", " ts ++ "}") (VDict d)
with all_denote : list string -> list val -> Prop :=
| all_nil : all_denote [] []
| all_cons t v ts l : denotes t v -> all_denote ts l -> all_denote (t :: ts) (v :: l)
with items_denote : list string -> dict val -> Prop :=
| items_nil : items_denote [] []
| items_cons t k t' v ts d : string_lit t k -> denotes t' v -> items_denote ts d -> items_denote ((t ++ ": " ++ t')%string :: ts) ((k, v) :: d).
