(** * TypesFacts: the tree of an adapter's types. *)
From Coq Require Import Ascii.
From Verif Require Export TypesSpec.

(** ** Sorting *)
Lemma compare_trans_le a : forall b c, String.compare a b <> Gt -> String.compare b c <> Gt -> String.compare a c <> Gt /\ (String.compare a c = Eq -> a = c).
Proof.
  induction a as [|x a IH]; intros [|y b] [|z c] H1 H2; cbn [String.compare] in *; try (split; congruence).
  assert (E : forall p q, Ascii.compare p q = Eq -> p = q) by (intros p q Q; now apply Ascii.compare_eq_iff).
  unfold Ascii.compare in *. destruct (N.compare_spec (N_of_ascii x) (N_of_ascii y)) as [Q|Q|Q]; [| |congruence]; (destruct (N.compare_spec (N_of_ascii y) (N_of_ascii z)) as [R|R|R]; [| |congruence]).
  - rewrite Q, R, N.compare_refl. destruct (IH b c H1 H2) as (A & B). split; [exact A|]. intros X. rewrite (B X). f_equal. apply E. rewrite Q, R. apply N.compare_refl.
  - assert (L : (N_of_ascii x ?= N_of_ascii z)%N = Lt) by (apply N.compare_lt_iff; lia). rewrite L. split; congruence.
  - assert (L : (N_of_ascii x ?= N_of_ascii z)%N = Lt) by (apply N.compare_lt_iff; lia). rewrite L. split; congruence.
  - assert (L : (N_of_ascii x ?= N_of_ascii z)%N = Lt) by (apply N.compare_lt_iff; lia). rewrite L. split; congruence.
Qed.
Lemma leb_compare a b : String.leb a b = true <-> String.compare a b <> Gt.
Proof. unfold String.leb. destruct (String.compare a b); split; congruence. Qed.
Lemma leb_transitive a b c : String.leb a b = true -> String.leb b c = true -> String.leb a c = true.
Proof. rewrite !leb_compare. intros H1 H2. exact (proj1 (compare_trans_le a b c H1 H2)). Qed.
Lemma ltb_leb a b : String.ltb a b = true -> String.leb b a = false.
Proof. unfold String.ltb, String.leb. rewrite (String.compare_antisym b a). destruct (String.compare a b); cbn; congruence. Qed.
Definition ordered (l : list string) : Prop := forall a x b y, l = a ++ x :: b -> In y b -> String.leb x y = true.
Lemma ordered_cons x l : ordered (x :: l) <-> (forall y, In y l -> String.leb x y = true) /\ ordered l.
Proof.
  split.
  - intros O. split; [intros y I; exact (O [] x l y eq_refl I)|]. intros a z b y E I. exact (O (x :: a) z b y (f_equal (cons x) E) I).
  - intros (H & O) a z b y E I. destruct a as [|q a]; injection E as -> E; [subst b; now apply H|exact (O a z b y E I)].
Qed.
Lemma sinsert_ordered x l : ordered l -> ordered (sinsert x l).
Proof.
  induction l as [|y l IH]; intros O; cbn [sinsert]; [apply ordered_cons; split; [intros z []|intros [|? a] ? b ? E; discriminate]|].
  apply ordered_cons in O as (H & O). destruct (String.leb x y) eqn:L.
  - apply ordered_cons. split; [|apply ordered_cons; auto]. intros z [<-|I]; [exact L|]. exact (leb_transitive x y z L (H z I)).
  - apply ordered_cons. split; [|now apply IH]. intros z I. apply (Permutation_in _ (sinsert_perm x l)) in I as [<-|I]; [|now apply H]. destruct (String.leb_total x y); congruence.
Qed.
Lemma ssort_ordered l : ordered (ssort l).
Proof. induction l as [|x l IH]; [intros [|? a] ? b ? E; discriminate|now apply sinsert_ordered]. Qed.
Lemma filter_ordered f l : ordered l -> ordered (filter f l).
Proof.
  induction l as [|x l IH]; intros O; [exact O|]. apply ordered_cons in O as (H & O). cbn [filter]. destruct (f x); [|now apply IH]. apply ordered_cons. split; [|now apply IH]. intros y I. apply filter_In in I as (I & _). now apply H.
Qed.

(** ** Lines of descent *)
Section Descent.
  Variable classes : dict cls.
  Notation dec := (declares classes).
  Notation desc := (descent classes).
  Lemma descent_snoc p n t : desc (p ++ [n]) -> dec n t -> desc (p ++ [n; t]).
  Proof.
    induction p as [|x p IH]; intros D H; [constructor; [exact H|constructor]|]. cbn [app] in *. destruct p as [|y p]; cbn [app] in *; inversion D; subst; constructor; auto.
  Qed.
  Lemma descent_last p n t : desc (p ++ [n; t]) -> desc (p ++ [n]) /\ dec n t.
  Proof.
    induction p as [|x p IH]; cbn [app]; intros D; [inversion D; subst; split; [constructor|assumption]|]. destruct p as [|y p]; cbn [app] in *; inversion D; subst; destruct IH; auto; split; auto; constructor; auto.
  Qed.
  Lemma snoc_cases (p : list string) : p = [] \/ exists q n, p = q ++ [n].
  Proof. destruct p as [|x p]; [auto|]. right. destruct (exists_last (l := x :: p)) as (q & n & E); [discriminate|]. eauto. Qed.
  Lemma descent_nonempty : ~ desc [].
  Proof. intros D. inversion D. Qed.
End Descent.

(** ** Paths *)
Lemma path_nonempty d p : path_in d p -> p <> [].
Proof. intros [|]; discriminate. Qed.
Lemma path_prefix p : forall d q, path_in d (p ++ q) -> p <> [] -> path_in d p.
Proof.
  induction p as [|k p IH]; intros d q P N; [congruence|]. cbn [app] in P. remember (k :: p ++ q) as l eqn:E. destruct P as [d k' t G|d k' t l G P]; injection E as -> E.
  - assert (p = []) by (destruct p; [reflexivity|discriminate]). subst p. now apply (path_one _ _ t).
  - destruct p as [|x p]; [now apply (path_one _ _ t)|]. apply (path_more _ _ t); [exact G|]. apply (IH _ q); [now rewrite <- E|discriminate].
Qed.
Lemma set_key_iff ks d p : ks <> [] -> path_in (set_key d ks) p <-> path_in d p \/ (p <> [] /\ exists q, ks = p ++ q).
Proof.
  intros N. split.
  - intros P. destruct (set_key_only ks d p P) as [H|H]; [auto|]. right. split; [exact (path_nonempty _ _ P)|exact H].
  - intros [P|(NP & q & ->)]; [now apply set_key_keeps|]. apply (path_prefix p _ q); [now apply set_key_path|exact NP].
Qed.
Lemma path_nil p : ~ path_in [] p.
Proof. intros P. remember [] as d eqn:E. destruct P; subst; discriminate. Qed.

(** ** Every edge is declared *)
Section Edges.
  Variables (top : list string) (classes : dict cls).
  Definition sound_tree (d : dict ntree) : Prop := uniq d /\ forall p, path_in d p -> descent classes p /\ exists n q, p = n :: q /\ In n (initial_value_order top classes).
  Lemma child_sound key d child : sound_tree d -> key_in key d -> declares classes key child -> sound_tree (traverse_child key d child).
  Proof.
    intros (U & H) K D. unfold traverse_child. destruct (get_path d key) as [[|x p]|] eqn:E.
    - exfalso. destruct (get_path_some _ _ _ U E) as (_ & [|] & Q); discriminate.
    - destruct (get_path_some _ _ _ U E) as (P & q & Q). rewrite Q in *. clear x p E Q. split; [now apply uniq_set_key|]. intros p0 P0.
      apply set_key_iff in P0 as [P0|(N & r & R)]; [now apply H| |destruct q; discriminate].
      destruct (H _ P) as (DS & n & q' & EN & IN).
      assert (DC : descent classes (q ++ [key; child])) by now apply descent_snoc.
      destruct (snoc_cases r) as [->|(r' & z & ->)].
      + rewrite app_nil_r in R. subst p0. replace ((q ++ [key]) ++ [child]) with (q ++ [key; child]) by now rewrite <- app_assoc. split; [exact DC|]. exists n, (q' ++ [child]). split; [|exact IN]. change (n :: q' ++ [child]) with ((n :: q') ++ [child]). rewrite <- EN. now rewrite <- app_assoc.
      + rewrite app_assoc in R. apply app_inj_tail in R as (R & _). apply H. apply (path_prefix p0 _ r'); [now rewrite <- R|exact N].
    - apply get_path_none in E. contradiction.
  Qed.
  Lemma children_sound key l : forall d, sound_tree d -> key_in key d -> (forall t, In t l -> declares classes key t) -> sound_tree (fold_left (traverse_child key) l d).
  Proof.
    induction l as [|c l IH]; intros d S K H; [exact S|]. cbn [fold_left]. apply IH.
    - apply child_sound; auto. apply H. now left.
    - destruct (traverse_child_ok key d c (proj1 S) K) as (U1 & K1 & _). exact (keeps_key _ _ _ (proj1 S) K1 K).
    - intros t I. apply H. now right.
  Qed.
  Lemma own_sound key d : sound_tree d -> In key (initial_value_order top classes) -> sound_tree (traverse_own d key).
  Proof.
    intros (U & H) I. unfold traverse_own. destruct (get_path d key) as [[|x p]|] eqn:E; try (split; assumption).
    - exfalso. destruct (get_path_some _ _ _ U E) as (_ & [|] & Q); discriminate.
    - split; [now apply uniq_set_key|]. intros p P. apply set_key_iff in P as [P|(N & r & R)]; [now apply H| |discriminate].
      destruct p as [|y p]; [congruence|]. injection R as <- R. assert (p = []) by (destruct p; [reflexivity|discriminate]). subst p. split; [constructor|eauto].
  Qed.
  Lemma all_sound l : forall d, sound_tree d -> incl l (initial_value_order top classes) -> sound_tree (fold_left (traverse_model classes) l d).
  Proof.
    induction l as [|k l IH]; intros d S I; [exact S|]. cbn [fold_left]. apply IH; [|intros x J; apply I; now right].
    assert (S1 : sound_tree (traverse_own d k)) by (apply own_sound; [exact S|apply I; now left]). unfold traverse_model. destruct (dget classes k) as [c|] eqn:D; [|exact S1].
    apply children_sound; [exact S1|now apply traverse_own_ok; apply S|]. intros t J. exists c. auto.
  Qed.
  Lemma traversal_sound : sound_tree (tree_traversal top classes).
  Proof. apply all_sound; [|apply incl_refl]. split; [apply uniq_nil|]. intros p P. now apply path_nil in P. Qed.
End Edges.

(** ** Orderly classes *)
Section Orderly.
  Variables (top : list string) (classes : dict cls).
  Hypothesis OR : orderly top classes.
  Notation dec := (declares classes).
  Notation desc := (descent classes).
  Notation order := (initial_value_order top classes).
  Definition rooted_line (p : list string) : Prop := desc p /\ exists n q, p = n :: q /\ stem top classes n.
  Lemma line_one n : rooted_line [n] <-> stem top classes n.
  Proof. split; [intros (_ & m & q & E & S); injection E as -> _; exact S|]. intros S. split; [constructor|eauto]. Qed.
  Lemma line_snoc q n t : rooted_line (q ++ [n; t]) <-> rooted_line (q ++ [n]) /\ dec n t.
  Proof.
    split.
    - intros (D & m & r & E & S). destruct (descent_last classes q n t D) as (D1 & H). split; [|exact H]. split; [exact D1|]. destruct q as [|x q]; injection E as -> E; [exists m, []|exists m, (q ++ [n])]; auto.
    - intros ((D & m & r & E & S) & H). split; [now apply descent_snoc|]. destruct q as [|x q]; injection E as -> E; [exists m, [t]|exists m, (q ++ [n; t])]; auto.
  Qed.
  Lemma line_unique n : forall q q', rooted_line (q ++ [n]) -> rooted_line (q' ++ [n]) -> q = q'.
  Proof.
    intros q. revert n. induction q as [|m q IH] using rev_ind; intros n q' L L'; destruct (snoc_cases q') as [->|(r & m' & ->)].
    - reflexivity.
    - rewrite <- app_assoc in L'. apply line_snoc in L' as (_ & D). apply line_one in L as (_ & S). elim (S _ D).
    - rewrite <- app_assoc in L. apply line_snoc in L as (_ & D). apply line_one in L' as (_ & S). elim (S _ D).
    - rewrite <- app_assoc in L, L'. apply line_snoc in L as (L & D). apply line_snoc in L' as (L' & D'). assert (m' = m) by exact (or_once _ _ OR _ _ _ D' D). subst m'. now rewrite (IH m r L L').
  Qed.
  (** parents are visited before their children *)
  Lemma visited_before m t d r : dec m t -> order = d ++ t :: r -> In m d.
  Proof.
    intros D E. pose proof (or_below _ _ OR m t D) as NT. unfold initial_value_order in E. set (rest := filter (fun n => negb (smem n top)) (ssort (sdedup (dkeys classes)))) in *.
    assert (X : exists d', d = top ++ d' /\ rest = d' ++ t :: r).
    { clearbody rest. clear - E NT. revert d E. induction top as [|x l IH]; intros d E; [exists d; auto|]. destruct d as [|y d]; cbn [app] in E; injection E as -> E; [elim NT; now left|].
      destruct (IH (fun I => NT (or_intror I)) d E) as (d' & -> & R). exists d'. auto. }
    destruct X as (d' & -> & R). apply in_app_iff. destruct (or_names _ _ OR m t D) as [I|L]; [auto|]. destruct (in_dec string_dec m top) as [I|NM]; [auto|]. right.
    assert (IM : In m rest). { destruct D as (c & G & _). apply filter_In. split; [apply In_ssort, In_sdedup; exact (dget_Some_key _ _ _ G)|]. apply negb_true_iff, smem_false. exact NM. }
    rewrite R in IM. apply in_app_iff in IM as [I|[->|I]]; [exact I| |].
    - apply ltb_leb in L. destruct (String.leb_total m m); congruence.
    - assert (O : ordered rest) by (apply filter_ordered, ssort_ordered). pose proof (O d' t r m R I) as Q. apply ltb_leb in L. congruence.
  Qed.

  (** the tree after some types have been visited *)
  Definition shows_visited (done : list string) (d : dict ntree) : Prop :=
    uniq d /\ (forall v, In v done -> key_in v d) /\
    forall p, path_in d p <-> rooted_line p /\ (exists n q, p = n :: q /\ In n done) /\ forall q n, p = q ++ [n] -> forall x, In x q -> In x done.
  Lemma sv_line done d p : shows_visited done d -> path_in d p -> rooted_line p.
  Proof. intros (_ & _ & H) P. now apply H. Qed.
  Lemma visit done n rest d : order = done ++ n :: rest -> shows_visited done d -> shows_visited (done ++ [n]) (traverse_model classes d n).
  Proof.
    intros EO (U & KD & H).
    assert (ST : In n top \/ In n (map fst classes)) by (apply initial_order_all; rewrite EO; apply in_app_iff; right; now left).
    (* the type is there, or is a stem *)
    assert (KN : ~ key_in n d -> stem top classes n).
    { intros NK. split; [exact ST|]. intros m D. apply NK. assert (IM : In m done) by exact (visited_before m n done rest D EO). destruct (key_in_path _ _ U (KD m IM)) as (q & P). apply (path_key _ (q ++ [m])). rewrite <- app_assoc. cbn [app]. apply H.
      apply H in P as (L & (h & q' & E & I) & R). split; [apply line_snoc; auto|]. split.
      - exists h, (q' ++ [n]). split; [|exact I]. change (h :: q' ++ [n]) with ((h :: q') ++ [n]). rewrite <- E. now rewrite <- app_assoc.
      - intros q0 n0 E0 x Ix. change [m; n] with ([m] ++ [n]) in E0. rewrite app_assoc in E0. apply app_inj_tail in E0 as (<- & _). apply in_app_iff in Ix as [Ix|[<-|[]]]; [exact (R q m eq_refl x Ix)|exact IM]. }
    set (d1 := traverse_own d n).
    assert (U1 : uniq d1 /\ keeps d d1 /\ key_in n d1) by (apply traverse_own_ok; exact U). destruct U1 as (U1 & K1 & KN1).
    assert (H1 : forall p, path_in d1 p <-> rooted_line p /\ (exists h q, p = h :: q /\ In h (done ++ [n])) /\ forall q z, p = q ++ [z] -> forall x, In x q -> In x done).
    { intros p. unfold d1, traverse_own. destruct (get_path d n) as [[|x0 p0]|] eqn:G.
      - exfalso. destruct (get_path_some _ _ _ U G) as (_ & [|] & Q); discriminate.
      - rewrite H. split; [intros (A & (h & q & E & I) & B)|intros (A & (h & q & E & I) & B)]; (split; [exact A|]; split; [|exact B]); exists h, q; (split; [exact E|]); [apply in_app_iff; auto|].
        apply in_app_iff in I as [I|[<-|[]]]; [exact I|]. destruct (get_path_some _ _ _ U G) as (P & q0 & Q). rewrite Q in P. apply H in P as (L & (h' & q' & E' & I') & _). rewrite E in A.
        assert (SN : rooted_line [n]) by (apply line_one; destruct A as (_ & h2 & q2 & E2 & S2); injection E2 as -> _; exact S2). assert (QE : q0 = []) by exact (line_unique n q0 [] L SN). subst q0. injection E' as <- _. exact I'.
      - assert (NK : ~ key_in n d) by (now apply get_path_none). rewrite set_key_iff by discriminate. rewrite H. split.
        + intros [(A & (h & q & E & I) & B)|(N & r & R)].
          * split; [exact A|]. split; [exists h, q; split; [exact E|apply in_app_iff; auto]|exact B].
          * destruct p as [|y p]; [congruence|]. injection R as <- R. assert (p = []) by (destruct p; [reflexivity|discriminate]). subst p. split; [apply line_one; auto|]. split; [exists n, []; split; [reflexivity|apply in_app_iff; right; now left]|].
            intros q z E x Ix. destruct q as [|a q]; [destruct Ix|]. destruct q; discriminate.
        + intros (A & (h & q & E & I) & B). apply in_app_iff in I as [I|[<-|[]]]; [left; split; [exact A|]; split; [eauto|exact B]|].
          subst p. destruct q as [|t q]; [right; split; [discriminate|exists []; reflexivity]|]. left. exfalso. apply NK. apply KD.
          destruct (snoc_cases (n :: t :: q)) as [|(q' & z & E)]; [discriminate|]. apply (B q' z E). destruct q' as [|y q']; [discriminate|]. injection E as <- _. now left. }
    (* its children *)
    destruct (key_in_path _ _ U1 KN1) as (q0 & P0).
    assert (LN : rooted_line (q0 ++ [n])) by now apply H1.
    set (kids := match dget classes n with Some c => dkeys (c_children c) | None => [] end).
    assert (ED : traverse_model classes d n = fold_left (traverse_child n) kids d1) by (unfold traverse_model, kids, d1; destruct (dget classes n); reflexivity).
    assert (KI : forall t, In t kids <-> dec n t).
    { intros t. unfold kids, declares. destruct (dget classes n) as [c|] eqn:G; [|split; [intros []|intros (c & E & _); congruence]]. split; [eauto|]. intros (c' & E & I). injection E as <-. exact I. }
    assert (FOLD : forall l e, uniq e -> keeps d1 e -> (forall p, path_in e p -> rooted_line p) -> incl l kids ->
      uniq (fold_left (traverse_child n) l e) /\ forall p, path_in (fold_left (traverse_child n) l e) p <-> path_in e p \/ exists t, In t l /\ p = q0 ++ [n; t]).
    { induction l as [|t l IH]; intros e UE KE LE IL; [split; [exact UE|]; intros p; split; [auto|intros [P|(t & [] & _)]; exact P]|]. cbn [fold_left].
      assert (GP : get_path e n = Some (q0 ++ [n])).
      { destruct (get_path e n) as [p|] eqn:G; [|apply get_path_none in G; elim G; exact (keeps_key _ _ _ U1 KE KN1)]. destruct (get_path_some _ _ _ UE G) as (P & q & ->). rewrite (line_unique n q q0 (LE _ P) LN). reflexivity. }
      assert (EC : traverse_child n e t = set_key e (q0 ++ [n; t])) by (unfold traverse_child; rewrite GP; destruct q0; cbn [app]; [|rewrite <- app_assoc]; reflexivity).
      assert (NE : q0 ++ [n; t] <> []) by (destruct q0; discriminate).
      assert (PC : forall p, path_in (traverse_child n e t) p <-> path_in e p \/ p = q0 ++ [n; t]).
      { intros p. rewrite EC, set_key_iff by exact NE. split; (intros [P|P]; [now left|]).
        - destruct P as (N & r & R). destruct (snoc_cases r) as [->|(r' & z & ->)]; [right; now rewrite app_nil_r in R|]. left. rewrite app_assoc in R. change [n; t] with ([n] ++ [t]) in R. rewrite app_assoc in R. apply app_inj_tail in R as (R & _).
          apply (path_prefix p _ r'); [rewrite <- R; now apply KE|exact N].
        - right. subst p. split; [exact NE|]. exists []. now rewrite app_nil_r. }
      destruct (IH (traverse_child n e t)) as (A & B).
      - rewrite EC. now apply uniq_set_key.
      - intros p P. apply PC. left. now apply KE.
      - intros p P. apply PC in P as [P| ->]; [now apply LE|]. apply line_snoc. split; [exact LN|]. apply KI. apply IL. now left.
      - intros x I. apply IL. now right.
      - split; [exact A|]. intros p. rewrite B, PC. split.
        + intros [[P|P]|(x & I & E)]; [auto|right; exists t; split; [now left|exact P]|right; exists x; split; [now right|exact E]].
        + intros [P|(x & [<-|I] & E)]; [auto|auto|right; eauto]. }
    destruct (FOLD kids d1 U1 (keeps_refl d1)) as (UF & PF); [intros p P; now apply H1|apply incl_refl|]. rewrite <- ED in UF, PF. split; [exact UF|]. split.
    { intros v I. assert (K : keeps d1 (traverse_model classes d n)) by (intros p P; apply PF; now left). apply (keeps_key d1); auto. apply in_app_iff in I as [I|[<-|[]]]; [|exact KN1]. exact (keeps_key d d1 v U K1 (KD v I)). }
    intros p. rewrite PF, H1. split.
    - intros [(A & B & C)|(t & It & ->)].
      + split; [exact A|]. split; [exact B|]. intros q z E x Ix. apply in_app_iff. left. exact (C q z E x Ix).
      + split; [apply line_snoc; split; [exact LN|now apply KI]|]. apply H1 in P0 as (_ & (h & q & E & I) & C). split.
        * exists h, (q ++ [t]). split; [|exact I]. change (h :: q ++ [t]) with ((h :: q) ++ [t]). rewrite <- E. now rewrite <- app_assoc.
        * intros q' z E' x Ix. change [n; t] with ([n] ++ [t]) in E'. rewrite app_assoc in E'. apply app_inj_tail in E' as (<- & _). apply in_app_iff in Ix as [Ix|Ix]; apply in_app_iff; [left; exact (C q0 n eq_refl x Ix)|now right].
    - intros (A & B & C). destruct (in_dec string_dec n (removelast p)) as [IR|NR].
      + (* the type is on the way: a child of it ends the path *)
        destruct (snoc_cases p) as [->|(q & t & ->)]; [destruct A as (D & _); elim (descent_nonempty classes D)|]. rewrite removelast_last in IR. destruct (in_dec string_dec n done) as [ID|ND].
        * left. split; [exact A|]. split; [exact B|]. intros q' z E x Ix. destruct (in_app_or _ _ _ (C q' z E x Ix)) as [I|[<-|[]]]; [exact I|exact ID].
        * right. apply in_split in IR as (a & b & ->). assert (b = []).
          { destruct b as [|t' b]; [reflexivity|]. exfalso. assert (D : dec n t'). { assert (L2 : rooted_line (a ++ [n; t'])). { clear - A. replace ((a ++ n :: t' :: b) ++ [t]) with ((a ++ [n; t']) ++ b ++ [t]) in A by (rewrite <- !app_assoc; reflexivity). remember (b ++ [t]) as r. clear Heqr b t. revert A. induction r as [|x r IH] using rev_ind; intros A; [now rewrite app_nil_r in A|]. apply IH. rewrite app_assoc in A. destruct (snoc_cases ((a ++ [n; t']) ++ r)) as [E|(s & y & E)]; [destruct a; discriminate|]. rewrite E in *. rewrite <- app_assoc in A. cbn [app] in A. apply line_snoc in A as (A & _). exact A. } now apply line_snoc in L2 as (_ & D). }
            assert (IT : In t' (done ++ [n])) by (apply (C _ t eq_refl); apply in_app_iff; right; right; now left). apply in_app_iff in IT as [IT|[<-|[]]].
            - apply in_split in IT as (x & y & ->). rewrite <- app_assoc in EO. cbn [app] in EO. apply ND. apply in_app_iff. left. exact (visited_before n t' x _ D EO).
            - destruct (or_names _ _ OR n n D) as [I|L]; [exact (or_below _ _ OR n n D I)|]. apply ltb_leb in L. destruct (String.leb_total n n); congruence. }
          subst b. rewrite <- app_assoc in A. cbn [app] in A. apply line_snoc in A as (A & D). exists t. split; [now apply KI|]. rewrite <- (line_unique n a q0 A LN). now rewrite <- app_assoc.
      + left. split; [exact A|]. split; [exact B|]. intros q z E x Ix. subst p. rewrite removelast_last in NR. destruct (in_app_or _ _ _ (C q z eq_refl x Ix)) as [I|[<-|[]]]; [exact I|contradiction].
  Qed.
  Lemma visit_all rest : forall done d, order = done ++ rest -> shows_visited done d -> shows_visited order (fold_left (traverse_model classes) rest d).
  Proof.
    induction rest as [|n rest IH]; intros done d E S; [rewrite E, app_nil_r; exact S|]. cbn [fold_left]. apply (IH (done ++ [n])); [now rewrite <- app_assoc|exact (visit done n rest d E S)].
  Qed.
  Lemma exact_tree p : path_in (tree_traversal top classes) p <-> rooted_line p.
  Proof.
    assert (S0 : shows_visited [] []) by (split; [apply uniq_nil|]; split; [intros v []|]; intros q; split; [intros P; now apply path_nil in P|intros (_ & (n & r & _ & []) & _)]).
    pose proof (visit_all order [] [] eq_refl S0) as (_ & _ & H). unfold tree_traversal. rewrite H. split; [tauto|]. intros L. split; [exact L|]. pose proof L as (D & n & q & E & (IN & _)). split; [exists n, q; split; [exact E|now apply initial_order_all]|].
    intros r z E' x Ix. subst p. rewrite E' in D. apply initial_order_all. right.
    clear - D Ix. apply in_split in Ix as (a & b & ->). rewrite <- app_assoc in D. cbn [app] in D. revert D. induction a as [|y a IH]; cbn [app]; intros D.
    - destruct b as [|y b]; cbn [app] in D; inversion D as [|? ? ? (c & G & _)]; subst; exact (dget_Some_key _ _ _ G).
    - apply IH. inversion D; subst; [destruct a; discriminate|]. assumption.
  Qed.
End Orderly.

(** ** Reading the text *)
Lemma string_app_inv_head a b c : (a ++ b = a ++ c)%string -> b = c.
Proof. induction a as [|x a IH]; cbn; intros E; [exact E|]. injection E as E. now apply IH. Qed.
Lemma one_line_app a b : one_line (a ++ b) <-> one_line a /\ one_line b.
Proof.
  unfold one_line. induction a as [|x a IH]; cbn; tauto.
Qed.
Lemma split_line a : forall a' r r', one_line a -> one_line a' -> (a ++ newline ++ r = a' ++ newline ++ r')%string -> a = a' /\ r = r'.
Proof.
  induction a as [|x a IH]; intros [|x' a'] r r' O O' E; cbn in *.
  - injection E as E. auto.
  - injection E as E1 E2. elim O'. left. now rewrite <- E1.
  - injection E as E1 E2. elim O. left. now rewrite E1.
  - injection E as -> E. destruct (IH a' r r') as (-> & ->); [intros I; apply O; now right|intros I; apply O'; now right|exact E|auto].
Qed.
Lemma join_two a b l : join newline (a :: b :: l) = (a ++ newline ++ join newline (b :: l))%string.
Proof. reflexivity. Qed.
Lemma one_line_no_newline a r : ~ one_line (a ++ newline ++ r).
Proof. intros O. apply one_line_app in O as (_ & O). apply O. now left. Qed.
Lemma join_lines l : forall l', l <> [] -> l' <> [] -> Forall one_line l -> Forall one_line l' -> join newline l = join newline l' -> l = l'.
Proof.
  induction l as [|a l IH]; intros [|a' l'] N N' F F' E; try congruence. inversion F as [|? ? O F1]; inversion F' as [|? ? O' F1']; subst. destruct l as [|b l], l' as [|b' l'].
  - cbn in E. now rewrite E.
  - rewrite join_two in E. cbn in E. rewrite E in O. elim (one_line_no_newline _ _ O).
  - rewrite join_two in E. cbn in E. rewrite <- E in O'. elim (one_line_no_newline _ _ O').
  - rewrite !join_two in E. destruct (split_line _ _ _ _ O O' E) as (-> & E'). f_equal. apply IH; auto; discriminate.
Qed.
Lemma drawn_last b k : drawn ([b], k) = ((if b then "└── " else "├── ") ++ k)%string.
Proof. reflexivity. Qed.
Lemma drawn_inj bs : forall k bs' k', bs <> [] -> bs' <> [] -> drawn (bs, k) = drawn (bs', k') -> bs = bs' /\ k = k'.
Proof.
  induction bs as [|b bs IH]; intros k [|b' bs'] k' N N' E; try congruence.
  destruct bs as [|c bs], bs' as [|c' bs'].
  - rewrite !drawn_last in E. destruct b, b'; cbn in E; injection E as E; try discriminate; auto.
  - rewrite drawn_last in E. pose proof (drawn_below b' (c' :: bs', k')) as Q. cbn [fst snd] in Q. rewrite Q in E by discriminate. destruct b, b'; cbn [append] in E; discriminate.
  - rewrite drawn_last in E. pose proof (drawn_below b (c :: bs, k)) as Q. cbn [fst snd] in Q. rewrite Q in E by discriminate. destruct b, b'; cbn [append] in E; discriminate.
  - pose proof (drawn_below b (c :: bs, k)) as Q. pose proof (drawn_below b' (c' :: bs', k')) as Q'. cbn [fst snd] in Q, Q'. rewrite Q, Q' in E by discriminate. clear Q Q'.
    destruct b, b'; try (cbn [append] in E; discriminate); apply string_app_inv_head in E; destruct (IH k (c' :: bs') k') as (-> & ->); auto; discriminate.
Qed.
Lemma drawn_line x : one_line (snd x) -> one_line (drawn x).
Proof.
  intros O. unfold drawn. apply one_line_app. split; [|apply one_line_app; split; [|exact O]].
  - induction (removelast (fst x)) as [|b l IH]; [intros []|]. cbn [map]. rewrite concat_one. apply one_line_app. split; [|exact IH]. destruct b; unfold one_line; cbn; intuition discriminate.
  - destruct (last (fst x) false); unfold one_line; cbn; intuition discriminate.
Qed.
Lemma walk_cons k t l : walk (NT ((k, t) :: l)) = let b := match l with [] => true | _ => false end in ([b], k) :: map (fun x => (b :: fst x, snd x)) (walk t) ++ walk (NT l).
Proof. reflexivity. Qed.
Lemma app_split {A} (P : A -> Prop) a : forall a' b b', Forall P a -> Forall P a' -> (forall x r, b = x :: r -> ~ P x) -> (forall x r, b' = x :: r -> ~ P x) -> a ++ b = a' ++ b' -> a = a' /\ b = b'.
Proof.
  induction a as [|x a IH]; intros [|y a'] b b' F F' N N' E; cbn in E.
  - auto.
  - inversion F'; subst. elim (N y (a' ++ b') eq_refl). assumption.
  - inversion F; subst. elim (N' x (a ++ b) eq_refl). assumption.
  - injection E as -> E. inversion F; inversion F'; subst. destruct (IH a' b b') as (-> & ->); auto.
Qed.
Lemma walk_inj t : forall t', walk t = walk t' -> t = t'.
Proof.
  induction t as [kids IH] using ntree_ind'. intros [kids'] E. f_equal. revert kids' E. induction kids as [|[k t] kids IHk]; intros [|[k' t'] kids'] E; try discriminate; [reflexivity|].
  inversion IH as [|? ? H1 H2]; subst. cbn [snd] in H1. rewrite !walk_cons in E. cbv zeta in E. injection E as EB EK E. rewrite EB in E.
  set (b := match kids' with [] => true | _ => false end) in *.
  assert (HD : forall l x r, walk (NT l) = x :: r -> ~ (1 < length (fst x))%nat) by (intros [|[k0 t0] l] x r Q; [discriminate|]; rewrite walk_cons in Q; injection Q as <- _; cbn; lia).
  assert (DP : forall u, Forall (fun x : list bool * string => (1 < length (fst x))%nat) (map (fun x => (b :: fst x, snd x)) (walk u))).
  { intros u. apply Forall_forall. intros x I. apply in_map_iff in I as (y & <- & I). apply walk_deep in I. cbn. destruct (fst y); [congruence|cbn; lia]. }
  destruct (app_split (fun x : list bool * string => (1 < length (fst x))%nat) _ _ _ _ (DP t) (DP t') (HD kids) (HD kids') E) as (E1 & E2).
  assert (ET : walk t = walk t').
  { clear - E1. revert E1. generalize (walk t) (walk t'). intros l. induction l as [|[x1 x2] l IH]; intros [|[y1 y2] l'] E; try discriminate; [reflexivity|]. cbn [map fst snd] in E. injection E as -> -> E. f_equal. now apply IH. }
  rewrite EK, (H1 _ ET), (IHk H2 _ E2). reflexivity.
Qed.
Lemma preorder_key t : forall n, In n (preorder t) -> key_in n (nt_kids t).
Proof.
  induction t as [kids IH] using ntree_ind'. intros n I. cbn [preorder nt_kids] in *. apply in_flat_map in I as ([k t] & I & J). cbn [fst snd] in J. destruct J as [<-|J].
  - exact (key_here _ _ t I).
  - rewrite Forall_forall in IH. apply (key_below _ _ k t); [exact I|]. exact (IH (k, t) I n J).
Qed.
Lemma text_inj root d root' d' :
  one_line root -> one_line root' -> (forall n, key_in n d -> one_line n) -> (forall n, key_in n d' -> one_line n) ->
  tree_string d root = tree_string d' root' -> root = root' /\ d = d'.
Proof.
  intros R R' K K' E. unfold tree_string in E. rewrite !tree_lines_drawn in E.
  assert (X : forall e, (forall n, key_in n e -> one_line n) -> Forall one_line (map (fun x => "" ++ drawn x)%string (walk (NT e)))).
  { intros e Ke. apply Forall_forall. intros s I. apply in_map_iff in I as (x & <- & I). change ("" ++ drawn x)%string with (drawn x). apply drawn_line, Ke. apply (preorder_key (NT e)). rewrite <- walk_preorder. now apply in_map. }
  apply join_lines in E; [|discriminate|discriminate|constructor; auto|constructor; auto]. pose proof (f_equal (fun l => hd root l) E) as ER. cbn [hd] in ER. apply (f_equal (@tl string)) in E. cbn [tl] in E. split; [exact ER|].
  cut (NT d = NT d'); [now intros [= ->]|]. apply walk_inj.
  assert (DE : forall x, In x (walk (NT d)) -> fst x <> []) by (intros x; apply walk_deep). assert (DE' : forall x, In x (walk (NT d')) -> fst x <> []) by (intros x; apply walk_deep).
  revert E DE DE'. clear. generalize (walk (NT d)) (walk (NT d')). intros l. induction l as [|[x1 x2] l IH]; intros [|[y1 y2] l'] E D D'; cbn [map] in E; try discriminate E; [reflexivity|]. injection E as E1 E2.
  destruct (drawn_inj x1 x2 y1 y2) as (-> & ->); [apply (D (x1, x2)); now left|apply (D' (y1, y2)); now left|exact E1|]. f_equal. apply IH; [exact E2|intros x I; apply D; now right|intros x I; apply D'; now right].
Qed.
