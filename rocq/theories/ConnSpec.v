(** * ConnSpec: which client a RedisStore gets.

    Vocabulary for C85. *)
From Coq Require Import Ascii.
From Verif Require Export RedisSpec ConnDefs.

Definition absent_arg (s : option string) : Prop := s = None \/ s = Some "".
(** the client asked for *)
Inductive wants (host url : option string) (port db : Z) : target -> Prop :=
| wants_url u : url = Some u -> u <> "" -> absent_arg host \/ port = 0%Z -> wants host url port db (ByUrl u db)
| wants_host h : host = Some h -> h <> "" -> absent_arg url -> wants host url port db (ByHost h port db).
(** the text of a UUID: 32 digits in five groups *)
Definition hex_digit (c : ascii) : bool := existsb (Ascii.eqb c) (list_ascii_of_string "0123456789abcdef").
Definition uuid_text (s : string) : Prop :=
  exists a b c d e, s = (a ++ "-" ++ b ++ "-" ++ c ++ "-" ++ d ++ "-" ++ e)%string /\
    map String.length [a; b; c; d; e] = [8; 4; 4; 4; 12] /\
    Forall (fun x => forallb hex_digit (list_ascii_of_string x) = true) [a; b; c; d; e].
