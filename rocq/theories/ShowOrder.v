(** * ShowOrder: lemmas about the order of diff elements. *)
From Verif Require Export ShowDict.
From Coq Require Import Ascii Sorted Permutation.

Lemma ltb_before a b : String.ltb a b = true <-> before a b.
Proof.
  unfold String.ltb. revert b. induction a as [|c a IH]; intros [|c' b]; simpl.
  - split; [discriminate|inversion 1].
  - split; [constructor|reflexivity].
  - split; [discriminate|inversion 1].
  - destruct (Ascii.compare c c') eqn:C.
    + apply compare_eq_iff in C. subst c'. rewrite IH. split; [apply before_tail|]. inversion 1; subst; [lia|assumption].
    + unfold Ascii.compare in C. apply N.compare_lt_iff in C. split; [now constructor|reflexivity].
    + unfold Ascii.compare in C. apply N.compare_gt_iff in C. split; [discriminate|]. inversion 1; subst; lia.
Qed.
Lemma before_trans a b c : before a b -> before b c -> before a c.
Proof.
  intros H. revert c. induction H as [x s|x s x' s' L|x s s' H IH]; intros c K; inversion K; subst;
    solve [constructor; lia | now constructor | apply before_tail; now apply IH].
Qed.
Lemma before_irrefl a : ~ before a a.
Proof. induction a as [|c a IH]; intros H; inversion H; subst; [lia|auto]. Qed.
Lemma before_total a b : before a b \/ a = b \/ before b a.
Proof.
  revert b. induction a as [|c a IH]; intros [|c' b]; [auto|left; constructor|right; right; constructor|].
  destruct (N.lt_trichotomy (N_of_ascii c) (N_of_ascii c')) as [L|[E|L]]; [left; now constructor| |right; right; now constructor].
  assert (c = c') as ->. { rewrite <- (ascii_N_embedding c), <- (ascii_N_embedding c'). now rewrite E. }
  destruct (IH b) as [H|[->|H]]; [left|auto|right; right]; now constructor.
Qed.

Lemma ltb_precedes x y : elem_ltb x y = true <-> precedes x y.
Proof.
  unfold elem_ltb, precedes. destruct (String.eqb_spec (e_type x) (e_type y)) as [E|N]; rewrite ltb_before.
  - split; [auto|]. intros [H|[_ H]]; [rewrite E in H; now apply before_irrefl in H|exact H].
  - split; [auto|]. intros [H|[H _]]; [exact H|congruence].
Qed.
Lemma precedes_trans x y z : precedes x y -> precedes y z -> precedes x z.
Proof.
  unfold precedes. intros [H|[E H]] [K|[F K]].
  - left. eapply before_trans; eauto. - left. congruence. - left. congruence. - right. split; [congruence|]. eapply before_trans; eauto.
Qed.
Lemma precedes_irrefl x y : e_type x = e_type y -> e_name x = e_name y -> ~ precedes x y.
Proof. intros E F [H|[_ H]]; [rewrite E in H|rewrite F in H]; now apply before_irrefl in H. Qed.
Lemma precedes_total x y : precedes x y \/ (e_type x = e_type y /\ e_name x = e_name y) \/ precedes y x.
Proof.
  unfold precedes. destruct (before_total (e_type x) (e_type y)) as [H|[E|H]]; [auto| |auto].
  destruct (before_total (e_name x) (e_name y)) as [H|[F|H]]; auto.
Qed.
Lemma siblings_apart gs x y : tree_ok gs -> In x (children gs) -> In y (children gs) -> e_type x = e_type y -> e_name x = e_name y -> x = y.
Proof.
  intros OK I J E F. inversion OK as [? N1 N2 FF _]; subst. pose proof (keys_once gs N1 N2 FF) as ND.
  apply (NoDup_map_inj_in _ _ ND x y I J). congruence.
Qed.
Lemma order_siblings gs x y : tree_ok gs -> In x (children gs) -> In y (children gs) -> x <> y ->
  elem_eqb x y = false /\ elem_ltb x y = negb (elem_ltb y x) /\
  elem_gtb x y = elem_ltb y x /\ elem_leb x y = elem_ltb x y /\ elem_geb x y = elem_ltb y x.
Proof.
  intros OK I J N.
  assert (Q : ~ (e_type x = e_type y /\ e_name x = e_name y)) by (intros [E F]; apply N; eapply siblings_apart; eauto).
  assert (EQ : elem_eqb x y = false).
  { unfold elem_eqb. destruct (String.eqb_spec (e_type x) (e_type y)) as [E|]; [|reflexivity]. destruct (String.eqb_spec (e_name x) (e_name y)) as [F|]; [tauto|reflexivity]. }
  assert (LT : elem_ltb x y = negb (elem_ltb y x)).
  { destruct (elem_ltb x y) eqn:A, (elem_ltb y x) eqn:B; try reflexivity.
    - apply ltb_precedes in A, B. exfalso. pose proof (precedes_trans _ _ _ A B) as C. now apply precedes_irrefl in C.
    - exfalso. destruct (precedes_total x y) as [H|[H|H]]; [apply ltb_precedes in H; congruence|tauto|apply ltb_precedes in H; congruence]. }
  unfold elem_gtb, elem_leb, elem_geb. rewrite EQ, LT. destruct (elem_ltb y x); auto.
Qed.
(** sorting has one result *)
Lemma sorted_once (l l' : list elem) : NoDup (map (fun x => (e_type x, e_name x)) l) -> Permutation l l' ->
  StronglySorted (fun x y => elem_ltb y x = false) l -> StronglySorted (fun x y => elem_ltb y x = false) l' -> l = l'.
Proof.
  revert l'. induction l as [|x l IH]; intros l' ND P S1 S2.
  - apply Permutation_nil in P. now subst.
  - destruct l' as [|y l']; [apply Permutation_sym, Permutation_nil in P; discriminate|].
    inversion S1 as [|? ? A1 A2]; subst. inversion S2 as [|? ? B1 B2]; subst.
    assert (x = y).
    { assert (I : In x (y :: l')) by (apply (Permutation_in _ P); now left). assert (J : In y (x :: l)) by (apply (Permutation_in _ (Permutation_sym P)); now left).
      destruct I as [->|I]; [reflexivity|]. destruct J as [->|J]; [reflexivity|].
      rewrite Forall_forall in A2, B2. specialize (A2 y J). specialize (B2 x I). simpl in A2, B2.
      destruct (precedes_total x y) as [H|[[E F]|H]]; [apply ltb_precedes in H; congruence| |apply ltb_precedes in H; congruence].
      apply (NoDup_map_inj_in (fun x => (e_type x, e_name x)) (x :: l) ND x y); [now left|now right|congruence]. }
    subst y. f_equal. simpl in ND. inversion ND; subst. apply IH; auto. now apply Permutation_cons_inv in P.
Qed.
Lemma siblings_sort gs l l' : tree_ok gs -> Permutation (children gs) l -> Permutation (children gs) l' ->
  StronglySorted (fun x y => elem_ltb y x = false) l -> StronglySorted (fun x y => elem_ltb y x = false) l' -> l = l'.
Proof.
  intros OK P Q. apply sorted_once.
  - inversion OK as [? N1 N2 FF _]; subst. eapply Permutation_NoDup; [apply Permutation_map; exact P|]. now apply keys_once.
  - eapply Permutation_trans; [apply Permutation_sym; exact P|exact Q].
Qed.
Lemma tree_ok_nil : tree_ok [].
Proof. constructor; simpl; try tauto. constructor. Qed.
Lemma tree_ok_single t n x : e_type x = t -> e_name x = n -> tree_ok (e_kids x) -> tree_ok [(t, [(n, x)])].
Proof.
  intros E F K. constructor.
  - repeat constructor. simpl. tauto.
  - intros t' g [I|[]]. injection I as <- <-. repeat constructor. simpl. tauto.
  - intros t' g n' y [I|[]] J. injection I as <- <-. destruct J as [J|[]]. injection J as <- <-. auto.
  - intros t' g n' y [I|[]] J. injection I as <- <-. destruct J as [J|[]]. injection J as <- <-. auto.
Qed.

Lemma dict_eq_agree a b : NoDup (dkeys a) -> NoDup (dkeys b) -> dict_eq a b = true <-> agree a b.
Proof.
  intros NA NB. unfold dict_eq. rewrite andb_true_iff, Nat.eqb_eq, forallb_forall.
  assert (LEN : forall d : dict val, length (dkeys d) = length d) by (intros d; apply map_length). split.
  - intros (L & H) k.
    assert (SUB : incl (dkeys a) (dkeys b)).
    { intros k' I. apply in_map_iff in I as ((k1 & v) & E & I). cbn in E. subst k1. specialize (H _ I). cbn [fst] in H.
      destruct (dget b k') as [v'|] eqn:G; [|discriminate]. apply dget_Some_In in G. now apply (in_map fst) in G. }
    assert (BACK : incl (dkeys b) (dkeys a)) by (apply NoDup_length_incl; [exact NA|rewrite !LEN; lia|exact SUB]).
    destruct (dget a k) as [v|] eqn:G.
    + apply dget_Some_In in G. specialize (H _ G). cbn [fst snd] in H. destruct (dget b k); [exact H|discriminate].
    + destruct (dget b k) as [v'|] eqn:G'; [|exact I]. apply dget_Some_In in G'. apply (in_map fst) in G'. apply BACK in G'.
      apply in_map_iff in G' as ((k1 & v) & E & J). cbn in E. subst k1. rewrite (In_dget _ _ _ NA J) in G. discriminate.
  - intros H. split.
    + rewrite <- !LEN. apply Nat.le_antisymm; apply NoDup_incl_length; auto; intros k I; apply in_map_iff in I as ((k1 & v) & E & J); cbn in E; subst k1; specialize (H k).
      * rewrite (In_dget _ _ _ NA J) in H. destruct (dget b k) as [v'|] eqn:G; [|destruct H]. apply dget_Some_In in G. now apply (in_map fst) in G.
      * rewrite (In_dget _ _ _ NB J) in H. destruct (dget a k) as [v'|] eqn:G; [|destruct H]. apply dget_Some_In in G. now apply (in_map fst) in G.
    + intros (k & v) I. cbn [fst snd]. specialize (H k). rewrite (In_dget _ _ _ NA I) in H. destruct (dget b k); [exact H|destruct H].
Qed.
Lemma opt_eq_agree a b : (forall d, a = Some d -> NoDup (dkeys d)) -> (forall d, b = Some d -> NoDup (dkeys d)) -> opt_dict_eq a b = true <-> agree_opt a b.
Proof. intros NA NB. destruct a as [a|], b as [b|]; cbn; [apply dict_eq_agree; auto| | |]; intuition discriminate. Qed.
Lemma eqb_alike x y : dicts_once x -> dicts_once y -> elem_eqb x y = true <-> alike_elems x y.
Proof.
  intros (A1 & A2 & A3) (B1 & B2 & B3). unfold elem_eqb, alike_elems. rewrite !andb_true_iff, !String.eqb_eq, dict_eq_agree, !opt_eq_agree by auto. tauto.
Qed.
Lemma operators x y : dicts_once x -> dicts_once y ->
  (elem_eqb x y = true <-> alike_elems x y) /\ (elem_ltb x y = true <-> precedes x y) /\
  (elem_leb x y = true <-> precedes x y \/ alike_elems x y) /\
  (elem_gtb x y = true <-> ~ precedes x y /\ ~ alike_elems x y) /\ (elem_geb x y = true <-> ~ precedes x y).
Proof.
  intros A B. pose proof (eqb_alike x y A B) as E. pose proof (ltb_precedes x y) as L. split; [exact E|]. split; [exact L|].
  unfold elem_leb, elem_gtb, elem_geb. rewrite orb_true_iff, andb_true_iff, !negb_true_iff, <- E, <- L. destruct (elem_ltb x y), (elem_eqb x y); intuition congruence.
Qed.
