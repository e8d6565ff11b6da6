(** * GlobSpec: which keys a Redis pattern selects, and lower case.

    Vocabulary for C29. *)
From Coq Require Import Ascii.
From Verif Require Export ModelDefs.

(** What a class names: a character, or those between two (in either order), by their codes. *)
Inductive item := One (c : ascii) | Span (a b : ascii).
Definition names_char (i : item) (d : ascii) : Prop :=
  match i with
  | One c => d = c
  | Span a b => let n := nat_of_ascii in (n a <= n d <= n b) \/ (n b <= n d <= n a)
  end.
(** [class_text p l r]: a class whose text begins at [p] has the items [l]; the pattern goes on with [r].
    [\] the next character itself, [a-b] a span, [ ] ] the end; a class that is not closed ends with the pattern. *)
Inductive class_text : string -> list item -> string -> Prop :=
| ct_close r : class_text (String "]" r) [] r
| ct_end : class_text "" [] ""
| ct_escape c p l r : class_text p l r -> class_text (String "\" (String c p)) (One c :: l) r
| ct_backslash : class_text "\" [One "\"%char] ""
| ct_span a b p l r : ~ In a ["\"; "]"]%char -> class_text p l r -> class_text (String a (String "-" (String b p))) (Span a b :: l) r
| ct_char c p l r : ~ In c ["\"; "]"]%char -> (forall b q, p <> String "-" (String b q)) -> class_text p l r -> class_text (String c p) (One c :: l) r.

(** Redis patterns: [*] any text, [?] any character, [\] the next character itself (itself at the end),
    a class one of its characters, with [^] any other *)
Inductive pattern_matches : string -> string -> Prop :=
| pm_end : pattern_matches "" ""
| pm_star p s t : pattern_matches p t -> pattern_matches (String "*" p) (s ++ t)
| pm_any c p s : pattern_matches p s -> pattern_matches (String "?" p) (String c s)
| pm_class p l r d s i : (forall q, p <> String "^" q) -> class_text p l r -> In i l -> names_char i d -> pattern_matches r s ->
    pattern_matches (String "[" p) (String d s)
| pm_other p l r d s : class_text p l r -> (forall i, In i l -> ~ names_char i d) -> pattern_matches r s ->
    pattern_matches (String "[" (String "^" p)) (String d s)
| pm_escape c p s : pattern_matches p s -> pattern_matches (String "\" (String c p)) (String c s)
| pm_backslash : pattern_matches "\" "\"
| pm_char c p s : ~ In c ["*"; "?"; "["; "\"]%char -> pattern_matches p s -> pattern_matches (String c p) (String c s).

(** [selected p all l]: those of [all] that match, in their order *)
Inductive selected (p : string) : list string -> list string -> Prop :=
| sel_nil : selected p [] []
| sel_take k all l : pattern_matches p k -> selected p all l -> selected p (k :: all) (k :: l)
| sel_skip k all l : ~ pattern_matches p k -> selected p all l -> selected p (k :: all) l.

(** a letter and its lower case *)
Definition upper_letters : string := "ABCDEFGHIJKLMNOPQRSTUVWXYZ".
Definition lower_letters : string := "abcdefghijklmnopqrstuvwxyz".
Definition lower_char (c c' : ascii) : Prop :=
  (exists n, String.get n upper_letters = Some c /\ String.get n lower_letters = Some c') \/
  ((forall n, String.get n upper_letters <> Some c) /\ c' = c).
Inductive lower_text : string -> string -> Prop :=
| low_nil : lower_text "" ""
| low_cons c c' s s' : lower_char c c' -> lower_text s s' -> lower_text (String c s) (String c' s').
