(** * GlobFacts: [glob] and [lower] do what GlobSpec says. *)
From Coq Require Import Ascii.
From Verif Require Export GlobSpec RedisFacts ReprFacts.

Lemma star_glob p : forall s, glob (String "*" p) s = true <-> exists a b, s = (a ++ b)%string /\ glob p b = true.
Proof.
  intros s. rewrite glob_cons, Ascii.eqb_refl. induction s as [|c s IH].
  - rewrite orb_false_r. split; [intros H; now exists "", ""|]. intros (a & b & E & H). destruct a; [cbn in E; now subst b|discriminate].
  - rewrite orb_true_iff, IH. split.
    + intros [H|(a & b & -> & H)]; [now exists "", (String c s)|now exists (String c a), b].
    + intros (a & b & E & H). destruct a as [|c' a]; [cbn in E; subst b; now left|]. cbn in E. injection E as -> ->. right. now exists a, b.
Qed.

(** ** Classes *)
Definition namesb (d : ascii) (i : item) : bool := match i with One c => Ascii.eqb c d | Span a b => in_span a b d end.
Lemma namesb_ok d i : namesb d i = true <-> names_char i d.
Proof.
  destruct i as [c|a b]; cbn [namesb names_char].
  - rewrite Ascii.eqb_eq. split; congruence.
  - unfold in_span. rewrite orb_true_iff, !andb_true_iff, !Nat.leb_le. reflexivity.
Qed.
Lemma class_end neg m d s : glob_at (Some (neg, m, d)) "" s = xorb neg m && glob "" s.
Proof. reflexivity. Qed.
Lemma class_close neg m d p s : glob_at (Some (neg, m, d)) (String "]" p) s = xorb neg m && glob p s.
Proof. reflexivity. Qed.
Lemma class_escape neg m d c p s : glob_at (Some (neg, m, d)) (String "\" (String c p)) s = glob_at (Some (neg, m || Ascii.eqb c d, d)) p s.
Proof. reflexivity. Qed.
Lemma class_backslash neg m d s : glob_at (Some (neg, m, d)) "\" s = glob_at (Some (neg, m || Ascii.eqb "\" d, d)) "" s.
Proof. reflexivity. Qed.
Lemma class_span neg m d a b p s : Ascii.eqb a "\" = false -> Ascii.eqb a "]" = false ->
  glob_at (Some (neg, m, d)) (String a (String "-" (String b p))) s = glob_at (Some (neg, m || in_span a b d, d)) p s.
Proof. intros E1 E2. cbn [glob_at]. rewrite E1, E2. reflexivity. Qed.
Lemma class_char neg m d c p s : Ascii.eqb c "\" = false -> Ascii.eqb c "]" = false -> (forall b q, p <> String "-" (String b q)) ->
  glob_at (Some (neg, m, d)) (String c p) s = glob_at (Some (neg, m || Ascii.eqb c d, d)) p s.
Proof.
  intros E1 E2 N. cbn [glob_at]. rewrite E1, E2. destruct p as [|x [|e p]]; try reflexivity. destruct (Ascii.eqb_spec x "-") as [->|]; [now elim (N e p)|reflexivity].
Qed.
Lemma not_special c : ~ In c ["\"; "]"]%char -> Ascii.eqb c "\" = false /\ Ascii.eqb c "]" = false.
Proof. intros N. split; apply Ascii.eqb_neq; intros ->; apply N; cbn; auto. Qed.
Lemma special_free c : Ascii.eqb c "\" = false -> Ascii.eqb c "]" = false -> ~ In c ["\"; "]"]%char.
Proof. intros E1 E2. apply Ascii.eqb_neq in E1, E2. intros [X|[X|[]]]; congruence. Qed.
(** what matching a class comes to *)
Lemma class_value neg d p l r s : class_text p l r -> forall m, glob_at (Some (neg, m, d)) p s = xorb neg (m || existsb (namesb d) l) && glob r s.
Proof.
  induction 1 as [r| |c p l r _ IH| |a b p l r N _ IH|c p l r N NS _ IH]; intros m.
  - rewrite class_close. cbn [existsb]. now rewrite orb_false_r.
  - rewrite class_end. cbn [existsb]. now rewrite orb_false_r.
  - rewrite class_escape, IH. cbn [existsb namesb]. now rewrite orb_assoc.
  - rewrite class_backslash, class_end. cbn [existsb namesb]. now rewrite orb_false_r.
  - apply not_special in N as (E1 & E2). rewrite class_span, IH by assumption. cbn [existsb namesb]. now rewrite orb_assoc.
  - apply not_special in N as (E1 & E2). rewrite class_char, IH by assumption. cbn [existsb namesb]. now rewrite orb_assoc.
Qed.
Lemma class_some n : forall p, String.length p <= n -> exists l r, class_text p l r /\ String.length r <= String.length p.
Proof.
  induction n as [|n IH]; intros [|c p] L; cbn [String.length] in L; try lia.
  1, 2: exists [], ""; split; [apply ct_end|cbn; lia].
  destruct (Ascii.eqb c "]") eqn:E2; [apply Ascii.eqb_eq in E2; subst c; exists [], p; split; [apply ct_close|cbn; lia]|].
  destruct (Ascii.eqb c "\") eqn:E1.
  { apply Ascii.eqb_eq in E1. subst c. destruct p as [|e p]; [exists [One "\"%char], ""; split; [apply ct_backslash|cbn; lia]|].
    cbn [String.length] in L. destruct (IH p) as (l & r & C & B); [lia|]. exists (One e :: l), r. split; [now apply ct_escape|cbn [String.length]; lia]. }
  pose proof (special_free c E1 E2) as N.
  assert (D : (exists b q, p = String "-" (String b q)) \/ forall b q, p <> String "-" (String b q)).
  { destruct p as [|x [|e p]]; [right; discriminate|right; discriminate|]. destruct (Ascii.eqb_spec x "-") as [->|NX]; [left; eauto|right; intros b q E; now injection E]. }
  destruct D as [(b & q & ->)|NS].
  - cbn [String.length] in L. destruct (IH q) as (l & r & C & B); [lia|]. exists (Span c b :: l), r. split; [now apply ct_span|cbn [String.length]; lia].
  - destruct (IH p) as (l & r & C & B); [lia|]. exists (One c :: l), r. split; [now apply ct_char|cbn [String.length]; lia].
Qed.

Lemma glob_sound n : forall p, String.length p <= n -> forall s, glob p s = true -> pattern_matches p s.
Proof.
  induction n as [|n IH]; intros [|c p] L s H; cbn [String.length] in L; try lia.
  1, 2: destruct s; [apply pm_end|discriminate].
  destruct (Ascii.eqb_spec c "*") as [->|N1].
  { apply star_glob in H as (a & b & -> & H). apply pm_star. apply IH; [lia|exact H]. }
  destruct (Ascii.eqb_spec c "?") as [->|N2].
  { destruct s as [|d s]; [discriminate|]. apply pm_any. apply IH; [lia|exact H]. }
  destruct (Ascii.eqb_spec c "[") as [->|N4].
  { destruct s as [|d s]; [discriminate|].
    assert (D : (exists q, p = String "^" q) \/ forall q, p <> String "^" q).
    { destruct p as [|x p]; [right; discriminate|]. destruct (Ascii.eqb_spec x "^") as [->|NX]; [left; eauto|right; intros q E; now injection E]. }
    destruct D as [(q & ->)|NX].
    - change (glob_at (Some (true, false, d)) q s = true) in H. destruct (class_some _ q (le_n _)) as (l & r & C & B). rewrite (class_value true d q l r s C) in H.
      cbn [String.length orb] in *. apply andb_true_iff in H as [H1 H2]. apply (pm_other q l r d s C); [|apply IH; [lia|exact H2]].
      intros i I X. apply namesb_ok in X. assert (E : existsb (namesb d) l = true) by (apply existsb_exists; eauto). now rewrite E in H1.
    - assert (H' : glob_at (Some (false, false, d)) p s = true).
      { rewrite glob_cons in H. cbn -[glob_at] in H. destruct p as [|x p]; [exact H|]. destruct (Ascii.eqb_spec x "^") as [->|_]; [now elim (NX p)|exact H]. }
      destruct (class_some _ p (le_n _)) as (l & r & C & B). rewrite (class_value false d p l r s C) in H'. cbn [orb] in H'. apply andb_true_iff in H' as [H1 H2].
      assert (E : existsb (namesb d) l = true) by (destruct (existsb (namesb d) l); [reflexivity|discriminate]). apply existsb_exists in E as (i & I & X).
      apply (pm_class p l r d s i NX C I); [now apply namesb_ok|apply IH; [lia|exact H2]]. }
  destruct (Ascii.eqb_spec c "\") as [->|N3].
  { destruct p as [|c' p].
    - destruct s as [|d [|]]; cbn in H; try discriminate; apply Ascii.eqb_eq in H; subst d; apply pm_backslash.
    - destruct s as [|d s]; [discriminate|]. assert (H' : Ascii.eqb c' d && glob p s = true) by exact H. apply andb_true_iff in H' as [E H']. apply Ascii.eqb_eq in E. subst d.
      apply pm_escape. apply IH; [cbn [String.length] in L; lia|exact H']. }
  rewrite glob_cons in H. apply Ascii.eqb_neq in N1, N2, N3, N4. rewrite N1, N2, N3, N4 in H. destruct s as [|d s]; [discriminate|]. apply andb_true_iff in H as [E H]. apply Ascii.eqb_eq in E. subst d.
  apply pm_char; [|apply IH; [lia|exact H]]. apply Ascii.eqb_neq in N1, N2, N3, N4. intros [X|[X|[X|[X|[]]]]]; congruence.
Qed.
Lemma glob_complete p s : pattern_matches p s -> glob p s = true.
Proof.
  induction 1 as [|p s t _ IH|c p s _ IH|p l r d s i NX C I X _ IH|p l r d s C X _ IH|c p s _ IH| |c p s N _ IH].
  - reflexivity.
  - apply star_glob. eauto.
  - exact IH.
  - assert (E : glob_at (Some (false, false, d)) p s = true).
    { rewrite (class_value false d p l r s C), IH. cbn [orb]. assert (E : existsb (namesb d) l = true) by (apply existsb_exists; exists i; split; [exact I|now apply namesb_ok]). now rewrite E. }
    rewrite glob_cons. cbn -[glob_at]. destruct p as [|x p]; [exact E|]. destruct (Ascii.eqb_spec x "^") as [->|_]; [now elim (NX p)|exact E].
  - change (glob_at (Some (true, false, d)) p s = true). rewrite (class_value true d p l r s C), IH. cbn [orb].
    destruct (existsb (namesb d) l) eqn:E; [|reflexivity]. apply existsb_exists in E as (i & I & Y). apply namesb_ok in Y. now elim (X i I).
  - change (Ascii.eqb c c && glob p s = true). now rewrite Ascii.eqb_refl.
  - reflexivity.
  - rewrite glob_cons. assert (N1 : Ascii.eqb c "*" = false) by (apply Ascii.eqb_neq; intros ->; apply N; cbn; auto).
    assert (N2 : Ascii.eqb c "?" = false) by (apply Ascii.eqb_neq; intros ->; apply N; cbn; auto).
    assert (N4 : Ascii.eqb c "[" = false) by (apply Ascii.eqb_neq; intros ->; apply N; cbn; auto).
    assert (N3 : Ascii.eqb c "\" = false) by (apply Ascii.eqb_neq; intros ->; apply N; cbn; auto). rewrite N1, N2, N4, N3, Ascii.eqb_refl. exact IH.
Qed.
Lemma glob_iff p s : glob p s = true <-> pattern_matches p s.
Proof. split; [apply (glob_sound (String.length p)); lia|apply glob_complete]. Qed.
Lemma scan_selected w p : selected p (dkeys (w_redis w)) (scan w p).
Proof.
  unfold scan. induction (dkeys (w_redis w)) as [|k l IH]; [apply sel_nil|]. cbn [filter]. destruct (glob p k) eqn:G.
  - apply sel_take; [now apply glob_iff|exact IH].
  - apply sel_skip; [|exact IH]. rewrite <- glob_iff. congruence.
Qed.

Definition lower_charb (c c' : ascii) : bool :=
  existsb (fun n => match String.get n upper_letters, String.get n lower_letters with Some x, Some y => Ascii.eqb x c && Ascii.eqb y c' | _, _ => false end) (seq 0 26) ||
  (negb (contains_char c upper_letters) && Ascii.eqb c' c).
Lemma get_contains c s n : String.get n s = Some c -> contains_char c s = true.
Proof.
  unfold contains_char. revert n. induction s as [|d s IH]; intros [|n] H; cbn in *; try discriminate.
  - injection H as ->. now rewrite Ascii.eqb_refl.
  - rewrite (IH n H). apply orb_true_r.
Qed.
Lemma lower_charb_ok c c' : lower_charb c c' = true -> lower_char c c'.
Proof.
  unfold lower_charb. rewrite orb_true_iff, andb_true_iff, negb_true_iff. intros [H|[H1 H2]].
  - left. apply existsb_exists in H as (n & _ & H). exists n. destruct (String.get n upper_letters) as [x|], (String.get n lower_letters) as [y|]; try discriminate.
    apply andb_true_iff in H as [A B]. apply Ascii.eqb_eq in A, B. now subst.
  - right. apply Ascii.eqb_eq in H2. split; [|exact H2]. intros n G. apply get_contains in G. congruence.
Qed.
Lemma lower_ok s : lower_text s (lower s).
Proof.
  induction s as [|c s IH]; [apply low_nil|]. cbn [lower]. apply low_cons; [|exact IH]. apply lower_charb_ok.
  revert c. apply for_all_ascii. vm_compute. reflexivity.
Qed.
Lemma redis_reads w a ad i : nth_error (w_ads w) a = Some ad -> ad_store ad = SRedis i ->
  (exists l, selected ("diffsync:" ++ i ++ ":*") (map fst (w_redis w)) l /\ snd (st_count a None w) = Ok (length l)) /\
  (forall m, exists n l, lower_text (spec_name m) n /\ selected ("diffsync:" ++ i ++ ":" ++ n ++ ":*") (map fst (w_redis w)) l /\ snd (st_count a (Some m) w) = Ok (length l)) /\
  (forall m, exists l w' rs, selected ("diffsync:" ++ i ++ ":" ++ spec_name m ++ ":*") (map fst (w_redis w)) l /\ st_get_all a m w = (w', Ok rs) /\
     Forall2 (fun k r => exists o, dget (w_redis w) k = Some o /\ nth_error (w_heap w') r = Some (given_to a o)) l rs).
Proof.
  intros HA HS. assert (LB : forall x, (store_label i ++ x)%string = ("diffsync:" ++ i ++ x)%string) by (intros x; unfold store_label; now rewrite append_assoc).
  split; [|split].
  - exists (scan w ("diffsync:" ++ i ++ ":*")). split; [apply scan_selected|]. unfold st_count, bind, get_adapter, get_state, count_all. rewrite !HA. cbv beta iota. rewrite !HS. cbv beta iota. rewrite LB. reflexivity.
  - intros m. exists (lower (spec_name m)), (scan w ("diffsync:" ++ i ++ ":" ++ lower (spec_name m) ++ ":*")). split; [apply lower_ok|]. split; [apply scan_selected|].
    unfold st_count, bind, get_adapter, get_state. rewrite HA, HS. cbv beta iota. rewrite LB. reflexivity.
  - intros m. set (p := ("diffsync:" ++ i ++ ":" ++ spec_name m ++ ":*")%string).
    assert (exists os, Forall2 (fun k o => dget (w_redis w) k = Some o) (scan w p) os) as (os & F).
    { unfold scan. assert (forall ks, incl ks (dkeys (w_redis w)) -> exists os, Forall2 (fun k o => dget (w_redis w) k = Some o) (filter (glob p) ks) os) as H.
      { induction ks as [|k ks IH]; intros I; [exists []; constructor|]. destruct IH as (os & F); [intros x H; apply I; now right|].
        cbn [filter]. destruct (glob p k); [|now exists os]. assert (In k (dkeys (w_redis w))) as K by (apply I; now left).
        destruct (dget (w_redis w) k) as [o|] eqn:D; [exists (o :: os); now constructor|]. apply dget_None in D. contradiction. }
      apply H. apply incl_refl. }
    exists (scan w p). unfold st_get_all, bind, get_adapter, get_state. rewrite HA, HS. cbv beta iota. rewrite LB. fold p. rewrite (loads_ok a (scan w p) w os F).
    eexists. eexists. split; [apply scan_selected|]. split; [reflexivity|]. cbn [w_heap set_heap].
    clear LB. revert F. generalize (scan w p), (w_heap w). intros ks hp F. revert hp. induction F as [|k o ks os D F IH]; intros hp; [constructor|].
    cbn [map length seq]. constructor.
    + exists o. split; [exact D|]. rewrite nth_error_app2 by lia. now rewrite Nat.sub_diag.
    + specialize (IH (hp ++ [given_to a o])). rewrite <- app_assoc, app_length, Nat.add_1_r in IH. exact IH.
Qed.
