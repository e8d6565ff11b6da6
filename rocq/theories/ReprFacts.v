(** * ReprFacts: [repr] writes what it was given, and writes different values differently. *)
From Coq Require Import Ascii DecimalString DecimalZ DecimalPos DecimalFacts.
From Verif Require Export ReprSpec ModelFacts.

(** ** All characters *)
Definition all_ascii : list ascii := map ascii_of_nat (seq 0 256).
Lemma all_ascii_in c : In c all_ascii.
Proof.
  unfold all_ascii. apply in_map_iff. exists (nat_of_ascii c). split; [apply ascii_nat_embedding|]. apply in_seq.
  pose proof (nat_ascii_bounded c). lia.
Qed.
Lemma for_all_ascii (P : ascii -> bool) : forallb P all_ascii = true -> forall c, P c = true.
Proof. intros H c. rewrite forallb_forall in H. apply H, all_ascii_in. Qed.

(** ** Integers *)
Lemma append_nil_r (s : string) : (s ++ "" = s)%string.
Proof. induction s; simpl; congruence. Qed.
Lemma append_one pre c r : (pre ++ String c r)%string = ((pre ++ String c "") ++ r)%string.
Proof. now rewrite append_assoc. Qed.
Lemma dec_next pre z c n z' : decimal pre z -> digit_in digits c n -> z' = (10 * z + Z.of_nat n)%Z -> decimal (pre ++ String c "") z'.
Proof. intros D G ->. now apply dec_more. Qed.
Ltac next n H := eapply (dec_next _ _ _ n); [exact H|reflexivity|].
Lemma decimal_uint d : forall pre p, decimal pre (Zpos p) -> decimal (pre ++ NilEmpty.string_of_uint d) (Zpos (Pos.of_uint_acc d p)).
Proof.
  induction d; intros pre p H; cbn [NilEmpty.string_of_uint Pos.of_uint_acc]; [now rewrite append_nil_r|..];
    rewrite append_one; apply IHd; [next 0 H|next 1 H|next 2 H|next 3 H|next 4 H|next 5 H|next 6 H|next 7 H|next 8 H|next 9 H]; lia.
Qed.
Lemma decimal_zero d : forall pre p, decimal pre 0%Z -> Pos.of_uint d = N.pos p -> decimal (pre ++ NilEmpty.string_of_uint d) (Zpos p).
Proof.
  induction d; intros pre p H E; cbn [NilEmpty.string_of_uint Pos.of_uint] in *; [discriminate|..];
    rewrite append_one; [apply IHd; [next 0 H; reflexivity|exact E]|..]; injection E as <-; apply decimal_uint;
    [next 1 H|next 2 H|next 3 H|next 4 H|next 5 H|next 6 H|next 7 H|next 8 H|next 9 H]; reflexivity.
Qed.
Lemma decimal_pos p : decimal (NilZero.string_of_uint (Pos.to_uint p)) (Zpos p).
Proof.
  pose proof (Unsigned.of_to p) as E. destruct (Pos.to_uint p) as [|d|d|d|d|d|d|d|d|d|d]; cbn [Pos.of_uint] in E; [discriminate|..];
    unfold NilZero.string_of_uint; cbn [NilEmpty.string_of_uint];
    match goal with |- decimal (String ?c ?r) _ => change (String c r) with (String c "" ++ r)%string end.
  1: apply decimal_zero; [exact (dec_one "0" 0 eq_refl)|exact E].
  all: injection E as <-; apply decimal_uint.
  - exact (dec_one "1" 1 eq_refl).
  - exact (dec_one "2" 2 eq_refl).
  - exact (dec_one "3" 3 eq_refl).
  - exact (dec_one "4" 4 eq_refl).
  - exact (dec_one "5" 5 eq_refl).
  - exact (dec_one "6" 6 eq_refl).
  - exact (dec_one "7" 7 eq_refl).
  - exact (dec_one "8" 8 eq_refl).
  - exact (dec_one "9" 9 eq_refl).
Qed.
Lemma int_denotes z : denotes (NilZero.string_of_int (Z.to_int z)) (VInt z).
Proof.
  destruct z as [|p|p]; cbn [Z.to_int NilZero.string_of_int].
  - apply den_int. exact (dec_one "0" 0 eq_refl).
  - apply den_int, decimal_pos.
  - exact (den_neg _ _ (decimal_pos p)).
Qed.

(** ** Strings *)
Definition is_quote (q : ascii) : Prop := q = "'"%char \/ q = """"%char.
Definition hex_okb (c : ascii) : bool :=
  let n := nat_of_ascii c in
  match String.get (n / 16) hex_digits, String.get (n mod 16) hex_digits with
  | Some a, Some b => Ascii.eqb a (hex_digit (n / 16)) && Ascii.eqb b (hex_digit (n mod 16))
  | _, _ => false
  end.
Lemma hex_ok c : let n := nat_of_ascii c in digit_in hex_digits (hex_digit (n / 16)) (n / 16) /\ digit_in hex_digits (hex_digit (n mod 16)) (n mod 16).
Proof.
  assert (H : hex_okb c = true) by (revert c; apply for_all_ascii; vm_compute; reflexivity). unfold hex_okb in H. cbv zeta in *. unfold digit_in.
  destruct (String.get (nat_of_ascii c / 16) hex_digits) as [x|], (String.get (nat_of_ascii c mod 16) hex_digits) as [y|]; try discriminate.
  apply andb_true_iff in H as [A B]. apply Ascii.eqb_eq in A, B. now subst.
Qed.
Lemma ascii_at c n : nat_of_ascii c = n -> c = ascii_of_nat n.
Proof. intros <-. symmetry. apply ascii_nat_embedding. Qed.
Lemma char_denotes q c : is_quote q -> char_lit q (repr_char q c) c.
Proof.
  intros Q. unfold repr_char. destruct (Ascii.eqb_spec c q) as [->|N1]; cbn [orb].
  { destruct Q as [->| ->]; [apply ch_single|apply ch_double]. }
  destruct (Ascii.eqb_spec c "\") as [->|N2]; [apply ch_backslash|].
  destruct (Nat.eqb_spec (nat_of_ascii c) 9) as [E|]; [rewrite (ascii_at _ _ E); apply ch_tab|].
  destruct (Nat.eqb_spec (nat_of_ascii c) 10) as [E|]; [rewrite (ascii_at _ _ E); apply ch_newline|].
  destruct (Nat.eqb_spec (nat_of_ascii c) 13) as [E|]; [rewrite (ascii_at _ _ E); apply ch_return|].
  destruct (Nat.ltb_spec (nat_of_ascii c) 32) as [L|L], (Nat.eqb_spec (nat_of_ascii c) 127) as [E|E]; cbn [orb]; [| | |now apply ch_plain];
    destruct (hex_ok c) as [A B]; pose proof (ch_hex q _ _ _ _ A B) as H; rewrite <- Nat.div_mod_eq, ascii_nat_embedding in H; exact H.
Qed.
Lemma body_denotes q s : is_quote q -> body_lit q (repr_body q s) s.
Proof. intros Q. induction s as [|c s IH]; [apply body_nil|]. cbn [repr_body]. apply body_cons; [now apply char_denotes|exact IH]. Qed.
Definition quote_of (s : string) : ascii := if contains_char "'" s && negb (contains_char """" s) then """"%char else "'"%char.
Lemma quote_of_ok s : is_quote (quote_of s).
Proof. unfold quote_of. destruct (_ && _); [now right|now left]. Qed.
Lemma str_denotes s : string_lit (repr_str s) s.
Proof. exact (str_lit (quote_of s) _ _ (quote_of_ok s) (body_denotes _ s (quote_of_ok s))). Qed.

(** ** Values *)
Lemma repr_denotes v : denotes (py_repr v) v.
Proof.
  induction v as [ |b|z| |s|l IH|d IH] using val_ind'.
  - apply den_none.
  - destruct b; [apply den_true|apply den_false].
  - apply int_denotes.
  - apply den_nan.
  - apply den_str, str_denotes.
  - cbn [py_repr]. apply den_list. induction IH as [|v l H _ IH']; [apply all_nil|]. cbn [map]. now apply all_cons.
  - cbn [py_repr]. apply den_dict. induction IH as [|[k v] d H _ IH']; [apply items_nil|]. cbn [map fst snd]. apply items_cons; [apply str_denotes|exact H|exact IH'].
Qed.

(** ** The text determines the value *)
Lemma app_both (p p' x y : string) : (p ++ x = p' ++ y)%string -> prefix p p' = true \/ prefix p' p = true.
Proof.
  revert p'. induction p as [|c p IH]; intros [|c' p'] E; [now left|now left|now right|]. cbn [append] in E. injection E as -> E.
  cbn [prefix]. destruct (ascii_dec c' c') as [_|N]; [|now destruct N]. now apply IH.
Qed.
Lemma app_inj_l (p x y : string) : (p ++ x = p ++ y)%string -> x = y.
Proof. induction p as [|c p IH]; cbn [append]; [auto|]. intros E. injection E as E. auto. Qed.
Definition freeb (q : ascii) : bool :=
  let l := map (fun c => (c, repr_char q c)) all_ascii in
  forallb (fun a => forallb (fun b => Ascii.eqb (fst a) (fst b) || negb (prefix (snd a) (snd b))) l) l.
Definition openb (q : ascii) : bool :=
  forallb (fun c => match repr_char q c with EmptyString => false | String d _ => negb (Ascii.eqb d q) end) all_ascii.
Lemma char_free q c c' x y : is_quote q -> (repr_char q c ++ x = repr_char q c' ++ y)%string -> c = c' /\ x = y.
Proof.
  intros Q E.
  assert (F : freeb q = true) by (destruct Q as [->| ->]; vm_compute; reflexivity). unfold freeb in F. rewrite forallb_forall in F.
  assert (G : forall a b, prefix (repr_char q a) (repr_char q b) = true -> a = b).
  { intros a b P. specialize (F (a, repr_char q a) (in_map (fun c => (c, repr_char q c)) _ _ (all_ascii_in a))). rewrite forallb_forall in F.
    specialize (F (b, repr_char q b) (in_map (fun c => (c, repr_char q c)) _ _ (all_ascii_in b))). cbn [fst snd] in F. rewrite P, orb_false_r in F. now apply Ascii.eqb_eq. }
  assert (H : c = c') by (destruct (app_both _ _ _ _ E) as [P|P]; [exact (G _ _ P)|exact (eq_sym (G _ _ P))]). subst c'. split; [reflexivity|exact (app_inj_l _ _ _ E)].
Qed.
Lemma char_open q c x y : is_quote q -> (String q x = repr_char q c ++ y)%string -> False.
Proof.
  intros Q E. assert (F : openb q = true) by (destruct Q as [->| ->]; vm_compute; reflexivity). unfold openb in F. rewrite forallb_forall in F.
  specialize (F c (all_ascii_in c)). destruct (repr_char q c) as [|d r]; [discriminate|]. cbn [append] in E. injection E as <- _.
  now rewrite Ascii.eqb_refl in F.
Qed.
Lemma body_inj q s : is_quote q -> forall s' a b, (repr_body q s ++ String q a = repr_body q s' ++ String q b)%string -> s = s' /\ a = b.
Proof.
  intros Q. induction s as [|c s IH]; intros [|c' s'] a b E; cbn [repr_body append] in E; rewrite ?append_assoc in E.
  - injection E as ->. auto.
  - destruct (char_open _ _ _ _ Q E).
  - destruct (char_open _ _ _ _ Q (eq_sym E)).
  - destruct (char_free _ _ _ _ _ Q E) as [-> E']. destruct (IH _ _ _ E') as [-> ->]. auto.
Qed.
Lemma repr_str_inj s s' a b : (repr_str s ++ a = repr_str s' ++ b)%string -> s = s' /\ a = b.
Proof.
  unfold repr_str. fold (quote_of s) (quote_of s'). cbn [append]. intros E. injection E as Q E. rewrite !append_assoc in E. cbn [append] in E. rewrite <- Q in E.
  exact (body_inj _ _ (quote_of_ok s) _ _ _ E).
Qed.

(** the texts of atoms *)
Fixpoint allc (P : ascii -> bool) (s : string) : bool := match s with EmptyString => true | String c s' => P c && allc P s' end.
Definition in_text (s : string) (c : ascii) : bool := existsb (Ascii.eqb c) (list_ascii_of_string s).
Definition number_char : ascii -> bool := in_text "-0123456789".
Definition atom_char : ascii -> bool := in_text "-0123456789NoneTrueFalsenan".
Definition stops (s : string) : Prop := match s with EmptyString => True | String c _ => In c [","; "]"; "}"]%char end.
Lemma stop_atom c : In c [","; "]"; "}"]%char -> atom_char c = true -> False.
Proof. intros [<-|[<-|[<-|[]]]]; discriminate. Qed.
Lemma atom_inj t t' a b : allc atom_char t = true -> allc atom_char t' = true -> stops a -> stops b -> (t ++ a = t' ++ b)%string -> t = t' /\ a = b.
Proof.
  revert t'. induction t as [|c t IH]; intros [|c' t'] P P' SA SB E; cbn [append allc] in *; try apply andb_true_iff in P as [P1 P2]; try apply andb_true_iff in P' as [P1' P2'].
  - auto.
  - subst a. destruct (stop_atom _ SA P1').
  - subst b. destruct (stop_atom _ SB P1).
  - injection E as -> E. destruct (IH _ P2 P2' SA SB E) as [-> ->]. auto.
Qed.
Lemma number_atom s : allc number_char s = true -> allc atom_char s = true.
Proof.
  induction s as [|c s IH]; [auto|]. cbn [allc]. rewrite !andb_true_iff. intros [A B]. split; [|auto].
  assert (H : implb (number_char c) (atom_char c) = true) by (revert c A; intros c _; revert c; apply for_all_ascii; vm_compute; reflexivity). now rewrite A in H.
Qed.
Lemma uint_number d : allc number_char (NilEmpty.string_of_uint d) = true.
Proof. induction d; cbn [NilEmpty.string_of_uint allc]; rewrite ?IHd; reflexivity. Qed.
Lemma int_number z : allc number_char (NilZero.string_of_int (Z.to_int z)) = true.
Proof.
  assert (U : forall d, allc number_char (NilZero.string_of_uint d) = true) by (intros []; unfold NilZero.string_of_uint; try apply uint_number; reflexivity).
  destruct z as [|p|p]; cbn [Z.to_int NilZero.string_of_int allc]; [reflexivity|apply U|rewrite U; reflexivity].
Qed.
Lemma to_uint_nil p : Pos.to_uint p <> Decimal.Nil.
Proof. intros E. pose proof (Unsigned.of_to p) as H. now rewrite E in H. Qed.
Lemma int_inj z z' : NilZero.string_of_int (Z.to_int z) = NilZero.string_of_int (Z.to_int z') -> z = z'.
Proof.
  intros E. assert (H : forall y, NilZero.int_of_string (NilZero.string_of_int (Z.to_int y)) = Some (Z.to_int y)).
  { intros y. destruct y as [|p|p]; [reflexivity|..]; apply NilZero.isi; cbn [Z.to_int]; intros X; try discriminate; injection X as X; now apply to_uint_nil in X. }
  pose proof (H z) as A. rewrite E, H in A. injection A as A. rewrite <- (DecimalZ.of_to z), <- (DecimalZ.of_to z'). now rewrite A.
Qed.

(** lists of texts between brackets *)
Definition opens_well (s : string) : Prop := match s with EmptyString => False | String c _ => ~ In c [","; "]"; "}"]%char end.
Section Seq.
  Context {A : Type}.
  Variable f : A -> string.
  Variable close : ascii.
  Hypothesis CL : In close ["]"; "}"]%char.
  Definition tail_of (l : list A) (a : string) : string := match l with [] => String close a | _ => (", " ++ String.concat ", " (map f l) ++ String close a)%string end.
  Lemma seq_cons x l a : (String.concat ", " (map f (x :: l)) ++ String close a = f x ++ tail_of l a)%string.
  Proof. destruct l as [|y l]; cbn [map String.concat tail_of]; [reflexivity|]. now rewrite !append_assoc. Qed.
  Lemma tail_stops l a : stops (tail_of l a).
  Proof. destruct l; cbn; [destruct CL as [<-|[<-|[]]]; auto|auto]. Qed.
  Lemma seq_inj l : (forall x, opens_well (f x)) -> Forall (fun x => forall y a b, stops a -> stops b -> (f x ++ a = f y ++ b)%string -> x = y /\ a = b) l ->
    forall m a b, (String.concat ", " (map f l) ++ String close a = String.concat ", " (map f m) ++ String close b)%string -> l = m /\ a = b.
  Proof.
    intros OP. assert (Z : forall x a b, (String close a = f x ++ b)%string -> False).
    { intros x a b E. specialize (OP x). destruct (f x) as [|c r]; [exact OP|]. cbn [append] in E. injection E as <- _. apply OP. destruct CL as [<-|[<-|[]]]; cbn; auto. }
    induction 1 as [|x l H _ IH]; intros [|y m] a b E.
    - cbn in E. injection E as ->. auto.
    - rewrite seq_cons in E. destruct (Z _ _ _ E).
    - rewrite seq_cons in E. destruct (Z _ _ _ (eq_sym E)).
    - rewrite !seq_cons in E. destruct (H _ _ _ (tail_stops l a) (tail_stops m b) E) as [-> T]. destruct l as [|x' l], m as [|y' m]; cbn [tail_of] in T.
      + injection T as ->. auto.
      + destruct CL as [<-|[<-|[]]]; discriminate T.
      + destruct CL as [<-|[<-|[]]]; discriminate T.
      + apply app_inj_l in T. destruct (IH _ _ _ T) as [-> ->]. auto.
  Qed.
End Seq.

Definition value_char : ascii -> bool := fun c => atom_char c || in_text "'[{""" c.
Lemma repr_first v : exists c r, py_repr v = String c r /\ value_char c = true.
Proof.
  destruct v as [ |b|z| |s|l|d]; cbn [py_repr].
  - eexists; eexists; split; reflexivity.
  - destruct b; eexists; eexists; split; reflexivity.
  - pose proof (int_number z) as H. destruct (NilZero.string_of_int (Z.to_int z)) as [|c r] eqn:E.
    + destruct z as [|p|p]; cbn [Z.to_int NilZero.string_of_int] in E; try discriminate. unfold NilZero.string_of_uint in E.
      pose proof (to_uint_nil p). destruct (Pos.to_uint p); [now idtac|..]; discriminate.
    + exists c, r. split; [reflexivity|]. apply number_atom in H. cbn [allc] in H. apply andb_true_iff in H as [H _]. unfold value_char. now rewrite H.
  - eexists; eexists; split; reflexivity.
  - unfold repr_str. fold (quote_of s). eexists; eexists. split; [reflexivity|]. destruct (quote_of_ok s) as [->| ->]; reflexivity.
  - eexists; eexists; split; reflexivity.
  - eexists; eexists; split; reflexivity.
Qed.
Lemma repr_opens v : opens_well (py_repr v).
Proof. destruct (repr_first v) as (c & r & -> & V). cbn. intros [<-|[<-|[<-|[]]]]; discriminate. Qed.
(** the kind of a value can be seen from its text *)
Definition atomic (v : val) : Prop := match v with VNone | VBool _ | VInt _ | VNaN => True | _ => False end.
Lemma atomic_text v : atomic v -> allc atom_char (py_repr v) = true.
Proof. destruct v as [ |[]|z| | | |]; intros []; try reflexivity. apply number_atom, int_number. Qed.
Lemma atomic_inj v v' : atomic v -> atomic v' -> py_repr v = py_repr v' -> v = v'.
Proof.
  assert (N : forall z s, NilZero.string_of_int (Z.to_int z) = s -> allc number_char s = true) by (intros z s <-; apply int_number).
  destruct v as [ |[]|z| | | |]; intros []; destruct v' as [ |[]|z'| | | |]; intros []; cbn [py_repr]; intros E; try reflexivity; try discriminate;
    try (apply N in E; discriminate); try (symmetry in E; apply N in E; discriminate). f_equal. now apply int_inj.
Qed.
Lemma not_atomic v c r : py_repr v = String c r -> In c ["'"; """"; "["; "{"]%char -> ~ atomic v.
Proof.
  intros E I A. pose proof (atomic_text v A) as H. rewrite E in H. cbn [allc] in H. apply andb_true_iff in H as [H _].
  destruct I as [<-|[<-|[<-|[<-|[]]]]]; discriminate.
Qed.
Lemma repr_inj v : forall v' a b, stops a -> stops b -> (py_repr v ++ a = py_repr v' ++ b)%string -> v = v' /\ a = b.
Proof.
  assert (AT : forall v v' a b, atomic v -> atomic v' -> stops a -> stops b -> (py_repr v ++ a = py_repr v' ++ b)%string -> v = v' /\ a = b).
  { intros x x' a b P P' SA SB E. destruct (atom_inj _ _ _ _ (atomic_text _ P) (atomic_text _ P') SA SB E) as [E1 ->]. split; [now apply atomic_inj|reflexivity]. }
  assert (ST : forall s, exists c r, py_repr (VStr s) = String c r /\ In c ["'"; """"]%char).
  { intros s. cbn [py_repr]. unfold repr_str. fold (quote_of s). eexists; eexists. split; [reflexivity|]. destruct (quote_of_ok s) as [->| ->]; cbn; auto. }
  assert (HD : forall v v' a b, (py_repr v ++ a = py_repr v' ++ b)%string -> exists c r r', py_repr v = String c r /\ py_repr v' = String c r').
  { intros x x' a b E. destruct (repr_first x) as (c & r & E1 & _), (repr_first x') as (c' & r' & E2 & _). rewrite E1, E2 in E. cbn [append] in E. injection E as -> _. eauto. }
  induction v as [ |x|z| |s|l IH|d IH] using val_ind'; intros v' a b SA SB E; destruct (HD _ _ _ _ E) as (c & r & r' & E1 & E2).
  1-4: (assert (P' : atomic v')
    by (destruct v' as [ |?|?| |s'|l'|d']; try exact Logic.I; exfalso; refine (not_atomic _ c r E1 _ Logic.I);
        [destruct (ST s') as (c' & q & E3 & [<-|[<-|[]]]); rewrite E3 in E2; injection E2 as <- _; cbn; auto|injection E2 as <- _; cbn; auto|injection E2 as <- _; cbn; auto])); now apply AT.
  - destruct (ST s) as (q & t & E3 & I). rewrite E3 in E1. injection E1 as -> ->. destruct v' as [ |x|z| |s'|l'|d'];
      try (exfalso; refine (not_atomic _ c r' E2 _ Logic.I); destruct I as [<-|[<-|[]]]; cbn; auto);
      [|injection E2 as <- _; destruct I as [X|[X|[]]]; discriminate|injection E2 as <- _; destruct I as [X|[X|[]]]; discriminate].
    cbn [py_repr] in E. destruct (repr_str_inj _ _ _ _ E) as [-> ->]. auto.
  - injection E1 as <- _. destruct v' as [ |x|z| |s'|l'|d']; try (exfalso; refine (not_atomic _ _ r' E2 _ Logic.I); cbn; auto; fail);
      [destruct (ST s') as (c' & q & E3 & [<-|[<-|[]]]); rewrite E3 in E2; discriminate| |discriminate].
    cbn [py_repr] in E. unfold join in E. cbn [append] in E. injection E as E. rewrite !append_assoc in E. cbn [append] in E.
    destruct (seq_inj py_repr "]" (or_introl eq_refl) l repr_opens IH l' a b E) as [-> ->]. auto.
  - injection E1 as <- _. destruct v' as [ |x|z| |s'|l'|d']; try (exfalso; refine (not_atomic _ _ r' E2 _ Logic.I); cbn; auto; fail);
      [destruct (ST s') as (c' & q & E3 & [<-|[<-|[]]]); rewrite E3 in E2; discriminate|discriminate|].
    cbn [py_repr] in E. unfold join in E. cbn [append] in E. injection E as E. rewrite !append_assoc in E. cbn [append] in E.
    destruct (seq_inj (fun kv => repr_str (fst kv) ++ ": " ++ py_repr (snd kv))%string "}" (or_intror (or_introl eq_refl)) d) with (m := d') (a := a) (b := b) as [-> ->]; auto.
    + intros kv. unfold repr_str. fold (quote_of (fst kv)). cbn. destruct (quote_of_ok (fst kv)) as [->| ->]; intuition discriminate.
    + apply Forall_forall. intros [k x] I [k' x'] a' b' SA' SB' E'. cbn [fst snd] in E'. rewrite !append_assoc in E'. apply repr_str_inj in E' as [-> E']. cbn [append] in E'. injection E' as E'.
      rewrite Forall_forall in IH. specialize (IH _ I). cbn [snd] in IH. destruct (IH _ _ _ SA' SB' E') as [-> ->]. auto.
Qed.
Lemma repr_tells v v' : py_repr v = py_repr v' -> v = v'.
Proof. intros E. destruct (repr_inj v v' "" "" Logic.I Logic.I) as [-> _]; [now rewrite E|reflexivity]. Qed.
Lemma dict_str_repr d : dict_str d = py_repr (VDict d).
Proof. reflexivity. Qed.
Lemma dict_str_tells d d' : dict_str d = dict_str d' -> d = d'.
Proof. rewrite !dict_str_repr. intros E. apply repr_tells in E. now injection E. Qed.
