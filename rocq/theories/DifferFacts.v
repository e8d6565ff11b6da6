(** * DifferFacts: consequences of faithfulness (C05-C09, C11, C13, C15, C16). *)
From Verif Require Export FaithFacts.

Lemma in_elem_all_list x es : In x (flat_map elem_all es) <-> exists e, In e es /\ In x (elem_all e).
Proof. apply in_flat_map. Qed.
Lemma occurs_children x gs : occurs x gs <-> exists e, In e (children gs) /\ In x (elem_all e).
Proof. rewrite <- In_tree_all, tree_all_children, in_flat_map. reflexivity. Qed.
Lemma occurs_grouped x gs es : grouped gs es -> occurs x gs <-> In x (flat_map elem_all es).
Proof.
  intros G. rewrite occurs_children, in_flat_map. apply grouped_children in G. split; intros (e & I & J); exists e; split; auto.
  - now apply (Permutation_in _ G).
  - now apply (Permutation_in _ (Permutation_sym G)).
Qed.
Lemma In_somes {A} (e : A) outs : In e (somes outs) <-> exists k, In (Some e, k) outs.
Proof.
  unfold somes. rewrite in_flat_map. split.
  - intros ([[e'|] k] & I & J); simpl in J; [|destruct J]. destruct J as [->|[]]. eauto.
  - intros (k & I). exists (Some e, k). split; [exact I|now left].
Qed.
Lemma Forall2_in_l {A B} (P : A -> B -> Prop) l m x : Forall2 P l m -> In x l -> exists y, In y m /\ P x y.
Proof. induction 1 as [|a b l m H F IH]; intros []; [subst; exists b; simpl; auto|]. destruct IH as (y & I & Q); auto. exists y; simpl; auto. Qed.
Lemma Forall2_in_r {A B} (P : A -> B -> Prop) l m y : Forall2 P l m -> In y m -> exists x, In x l /\ P x y.
Proof. induction 1 as [|a b l m H F IH]; intros []; [subst; exists a; simpl; auto|]. destruct IH as (x & I & Q); auto. exists x; simpl; auto. Qed.

Section Vis.
  Variable flags : N.
  Variables sn dn : string.
  Variables rs rd : list string -> string -> result (list obj).
  Notation faith := (faithful flags sn dn rs rd).

  Lemma pair_at_In ss dd us vs u : map get_unique_id ss = map Ok us -> map get_unique_id dd = map Ok vs ->
    In u (keep_first (us ++ vs)) <-> either (with_uid u ss) (with_uid u dd) <> None.
  Proof.
    intros E1 E2. split.
    - intros I. destruct (pair_has _ _ _ _ _ E1 E2 I) as (o & O & _). congruence.
    - intros N. apply In_keep_first, in_app_iff.
      destruct (in_dec string_dec u us) as [I|I]; [now left|]. right.
      destruct (in_dec string_dec u vs) as [J|J]; [exact J|]. exfalso. apply N.
      rewrite (proj2 (with_uid_None u ss us E1) I), (proj2 (with_uid_None u dd vs E2) J). reflexivity.
  Qed.

  Lemma faithful_sound n : forall ss dd es k, faith n ss dd es k -> forall x, In x (flat_map elem_all es) ->
    exists so do, visible flags rs rd ss dd so do /\ describes sn dn x so do.
  Proof.
    induction n as [|n IH]; intros ss dd es k H x I; [destruct H|].
    destruct H as (us & vs & outs & E1 & E2 & C & F & -> & _).
    apply in_flat_map in I as (e & I & J). apply In_somes in I as (k1 & I).
    destruct (Forall2_in_r _ _ _ _ F I) as (u & IU & P & [[_ E]|[S (e' & mapping & sk & kids & E & D & CT & FK & G)]]); [discriminate|].
    injection E as <- ->.
    assert (PA : pair_at ss dd (with_uid u ss) (with_uid u dd)).
    { exists u. split; [reflexivity|]. split; [reflexivity|]. now apply (pair_at_In _ _ _ _ _ E1 E2). }
    apply In_elem_all_iff in J as [->|J].
    - exists (with_uid u ss), (with_uid u dd). split; [now apply vis_here|exact D].
    - apply (occurs_grouped _ _ _ G) in J. apply in_flat_map in J as (y & J & Jx). apply in_flat_map in J as ([es' k'] & K & Jy).
      destruct (Forall2_in_r _ _ _ _ FK K) as ([t f] & M & ss' & dd' & K1 & K2 & R). simpl in *.
      destruct (IH _ _ _ _ R x) as (so' & do' & V & D'). { apply in_flat_map. eauto. }
      exists so', do'. split; [|exact D']. eapply vis_below; [exact PA|exact S| |exact V].
      exists mapping, sk, t, f. auto.
  Qed.

  Lemma pair_at_out n ss dd es k so do : faith (S n) ss dd es k -> pair_at ss dd so do ->
    exists out, pair_ok flags sn dn rs rd (faith n) so do out /\ (forall e, fst out = Some e -> In e es).
  Proof.
    intros (us & vs & outs & E1 & E2 & C & F & -> & _) (u & -> & -> & N).
    apply (pair_at_In _ _ _ _ _ E1 E2) in N. destruct (Forall2_in_l _ _ _ _ F N) as ([oe k1] & I & P).
    exists (oe, k1). split; [exact P|]. simpl. intros e ->. apply In_somes. eauto.
  Qed.
  (** the comparison of the children is part of the comparison *)
  Lemma faithful_below n ss dd es k so do ss' dd' : faith (S n) ss dd es k -> pair_at ss dd so do -> ~ suppressed flags so do ->
    child_lists rs rd so do ss' dd' ->
    exists e es' k', In e es /\ describes sn dn e so do /\ faith n ss' dd' es' k' /\ (forall x, In x es' -> In x (children (e_kids e))).
  Proof.
    intros H PA NS (mapping & m & t & f & CT & I & K1 & K2).
    destruct (pair_at_out _ _ _ _ _ _ _ H PA) as (out & (_ & [[S _]|[_ (e & mp & sk & kids & -> & D & CT' & FK & G)]]) & O); [contradiction|].
    assert (mp = mapping) as ->.
    { destruct so, do; simpl in *; try tauto; destruct CT, CT'; congruence. }
    destruct (Forall2_in_l _ _ _ _ FK I) as ([es' k'] & K & ss2 & dd2 & K3 & K4 & R). simpl in *.
    rewrite K1 in K3. rewrite K2 in K4. injection K3 as <-. injection K4 as <-.
    exists e, es', k'. split; [now apply O|]. split; [exact D|]. split; [exact R|]. intros x J.
    apply (Permutation_in _ (Permutation_sym (grouped_children _ _ G))). apply in_flat_map. exists (es', k'). auto.
  Qed.
  Lemma faithful_complete ss dd so do : visible flags rs rd ss dd so do -> forall n es k, faith n ss dd es k ->
    exists x, In x (flat_map elem_all es) /\ describes sn dn x so do.
  Proof.
    induction 1 as [ss dd so do PA NS|ss dd so do ss' dd' so' do' PA NS CL V IH]; intros n es k H; (destruct n as [|n]; [destruct H|]).
    - destruct (pair_at_out _ _ _ _ _ _ _ H PA) as (out & (_ & [[S _]|[_ (e & mp & sk & kids & -> & D & _)]]) & O); [contradiction|].
      exists e. split; [|exact D]. apply in_flat_map. exists e. split; [now apply O|]. rewrite elem_all_eq. now left.
    - destruct (faithful_below _ _ _ _ _ _ _ _ _ H PA NS CL) as (e & es' & k' & I & D & R & Sub).
      destruct (IH _ _ _ R) as (x & J & Dx). exists x. split; [|exact Dx]. apply in_flat_map. exists e. split; [exact I|].
      rewrite elem_all_eq. right. rewrite tree_all_children. apply in_flat_map in J as (y & Jy & Jx). apply in_flat_map.
      exists y. split; [now apply Sub|exact Jx].
  Qed.
  Lemma visible_corresponding ss dd so do : visible flags rs rd ss dd so do -> forall n es k, faith n ss dd es k ->
    forall s d, so = Some s -> do = Some d -> corresponding s d.
  Proof.
    induction 1 as [ss dd so do PA NS|ss dd so do ss' dd' so' do' PA NS CL V IH]; intros n es k H; (destruct n as [|n]; [destruct H|]).
    - intros s d -> ->. destruct PA as (u & S & D & _). destruct H as (us & vs & outs & _ & _ & C & _). eapply C; eauto.
    - destruct (faithful_below _ _ _ _ _ _ _ _ _ H PA NS CL) as (e & es' & k' & I & D & R & Sub). eauto.
  Qed.
  Lemma visible_unsuppressed ss dd so do : visible flags rs rd ss dd so do -> ~ suppressed flags so do.
  Proof. induction 1; auto. Qed.

  (** tree_ok *)
  Lemma grouped_tree_ok gs es : grouped gs es -> (forall e, In e es -> tree_ok (e_kids e)) -> tree_ok gs.
  Proof.
    intros G H. pose proof (grouped_children _ _ G) as P. destruct G as (K & G & ND).
    assert (NK : NoDup (dkeys gs)) by (rewrite K; apply NoDup_keep_first).
    assert (X : forall t g, In (t, g) gs -> g = group_of gs t).
    { intros t g I. unfold group_of. now rewrite (In_dget _ _ _ NK I). }
    constructor.
    - exact NK.
    - intros t g I. rewrite (X _ _ I). apply ND.
    - intros t g n x I J. rewrite (X _ _ I), G in J. apply in_map_iff in J as (e & E & J). injection E as <- <-.
      apply filter_In in J as [_ J]. apply String.eqb_eq in J. auto.
    - intros t g n x I J. apply H. rewrite (X _ _ I), G in J. apply in_map_iff in J as (e & E & J). injection E as <- <-.
      now apply filter_In in J.
  Qed.
  Lemma faithful_tree_ok n : forall ss dd es k, faith n ss dd es k -> forall e, In e es -> tree_ok (e_kids e).
  Proof.
    induction n as [|n IH]; intros ss dd es k H e I; [destruct H|].
    destruct H as (us & vs & outs & E1 & E2 & C & F & -> & _). apply In_somes in I as (k1 & I).
    destruct (Forall2_in_r _ _ _ _ F I) as (u & IU & P & [[_ E]|[S (e' & mapping & sk & kids & E & D & CT & FK & G)]]); [discriminate|].
    injection E as <- ->. apply (grouped_tree_ok _ _ G). intros x J. apply in_flat_map in J as ([es' k'] & K & J).
    destruct (Forall2_in_r _ _ _ _ FK K) as ([t f] & M & ss' & dd' & K1 & K2 & R). simpl in *. eapply IH; eauto.
  Qed.
End Vis.

(** ** whole diffs *)
Section Whole.
  Variables (flags : N) (n : nat) (w : world) (src dst : aid) (sa da : adapter).
  Notation vis := (visible flags (objs_by w src) (objs_by w dst)).
  Notation faith := (faithful flags (ad_name sa) (ad_name da) (objs_by w src) (objs_by w dst)).

  Lemma fd_top gs k t ss dd : faithful_diff flags n w src dst sa da gs k -> top_lists w src dst sa da t ss dd ->
    exists es k', faith n ss dd es k' /\ (forall e, In e es -> In e (children gs)).
  Proof.
    intros (lone & others & per & _ & _ & _ & F & G & _) (I1 & I2 & A1 & A2).
    assert (I : In t (filter (fun t => smem t (ad_top sa)) (ad_top da))) by (apply filter_In; split; [exact I2|now apply smem_In]).
    destruct (Forall2_in_l _ _ _ _ F I) as ([es k'] & K & ss2 & dd2 & B1 & B2 & R). simpl in *.
    rewrite A1 in B1. rewrite A2 in B2. injection B1 as <-. injection B2 as <-. exists es, k'. split; [exact R|].
    intros e J. apply (Permutation_in _ (Permutation_sym (grouped_children _ _ G))). apply in_flat_map. exists (es, k'). auto.
  Qed.
  Lemma fd_inv gs k e : faithful_diff flags n w src dst sa da gs k -> In e (children gs) ->
    exists t ss dd es k', top_lists w src dst sa da t ss dd /\ faith n ss dd es k' /\ In e es.
  Proof.
    intros (lone & others & per & _ & _ & _ & F & G & _) I.
    apply (Permutation_in _ (grouped_children _ _ G)) in I. apply in_flat_map in I as ([es k'] & K & J).
    destruct (Forall2_in_r _ _ _ _ F K) as (t & It & ss & dd & B1 & B2 & R). simpl in *. apply filter_In in It as [I2 I1].
    apply smem_In in I1. exists t, ss, dd, es, k'. repeat split; auto.
  Qed.

  Lemma fd_sound gs k x : faithful_diff flags n w src dst sa da gs k -> occurs x gs ->
    exists so do, shown flags w src dst sa da so do /\ describes (ad_name sa) (ad_name da) x so do.
  Proof.
    intros H O. apply occurs_children in O as (e & I & J). destruct (fd_inv _ _ _ H I) as (t & ss & dd & es & k' & T & R & Ie).
    destruct (faithful_sound _ _ _ _ _ _ _ _ _ _ R x) as (so & do & V & D); [apply in_flat_map; eauto|].
    exists so, do. split; [|exact D]. exists t, ss, dd. auto.
  Qed.
  Lemma fd_complete gs k so do : faithful_diff flags n w src dst sa da gs k -> shown flags w src dst sa da so do ->
    exists x, occurs x gs /\ describes (ad_name sa) (ad_name da) x so do.
  Proof.
    intros H (t & ss & dd & T & V). destruct (fd_top _ _ _ _ _ H T) as (es & k' & R & Sub).
    destruct (faithful_complete _ _ _ _ _ _ _ _ _ V _ _ _ R) as (x & J & D). exists x. split; [|exact D].
    apply in_flat_map in J as (e & Ie & J). apply occurs_children. eauto.
  Qed.
  Lemma fd_corresponding gs k s d : faithful_diff flags n w src dst sa da gs k -> shown flags w src dst sa da (Some s) (Some d) ->
    corresponding s d.
  Proof.
    intros H (t & ss & dd & T & V). destruct (fd_top _ _ _ _ _ H T) as (es & k' & R & Sub).
    eapply visible_corresponding; eauto.
  Qed.
  Lemma shown_unsuppressed so do : shown flags w src dst sa da so do -> ~ suppressed flags so do.
  Proof. intros (t & ss & dd & T & V). eapply visible_unsuppressed; eauto. Qed.
  Lemma fd_tree_ok gs k : faithful_diff flags n w src dst sa da gs k -> tree_ok gs.
  Proof.
    intros H. assert (X : forall e, In e (children gs) -> tree_ok (e_kids e)).
    { intros e I. destruct (fd_inv _ _ _ H I) as (t & ss & dd & es & k' & T & R & Ie). eapply faithful_tree_ok; eauto. }
    destruct H as (lone & others & per & _ & _ & _ & F & G & _). apply (grouped_tree_ok _ _ G). intros e I. apply X.
    now apply (Permutation_in _ (Permutation_sym (grouped_children _ _ G))).
  Qed.
End Whole.

(** ** C05: the skip count *)
Lemma sides_action e : e_src e <> None \/ e_dst e <> None ->
  sides e = match e_action e with Some ACreate | Some ADelete => 1 | _ => 2 end.
Proof.
  unfold sides, e_action, attrs_action. destruct (e_src e), (e_dst e); intros H; try reflexivity; [destruct (existsb _ _); reflexivity|].
  destruct H as [H|H]; congruence.
Qed.
Lemma how_many_cons {A} (p : A -> bool) x l : how_many p (x :: l) = (if p x then 1 else 0) + how_many p l.
Proof. unfold how_many. simpl. now destruct (p x). Qed.
Lemma sides_sum l : (forall e, In e l -> e_src e <> None \/ e_dst e <> None) ->
  list_sum (map sides l) = how_many (is_action (Some ACreate)) l + 2 * how_many (is_action (Some AUpdate)) l +
    how_many (is_action (Some ADelete)) l + 2 * how_many (is_action None) l.
Proof.
  induction l as [|e l IH]; intros H; [reflexivity|]. cbn [map]. rewrite list_sum_cons, !how_many_cons, IH by (intros; apply H; now right).
  rewrite (sides_action e) by (apply H; now left). unfold is_action. destruct (e_action e) as [[]|]; simpl; lia.
Qed.
Lemma describes_sides sn dn x so do : describes sn dn x so do -> e_src x <> None \/ e_dst x <> None.
Proof.
  intros (_ & _ & S & D & o & O & _). rewrite S, D. destruct so; simpl in *; [left; discriminate|]. subst do. right. discriminate.
Qed.
Lemma diff_skip_spec fuel dst src dc flags cb w sa da d : w_ok w ->
  nth_error (w_ads w) src = Some sa -> nth_error (w_ads w) dst = Some da -> yields_once (dc_order dc) ->
  snd (diff_from fuel dst src dc flags cb w) = Ok d ->
  exists skipped, faithful_diff flags fuel w src dst sa da (d_groups d) skipped /\ diff_skip d = Z.of_nat skipped.
Proof.
  intros OK HS HD Y H. apply (diff_from_iff _ _ _ _ _ _ _ _ _ OK HS HD) in H as (k & F & C & N). exists k. split; [exact F|].
  unfold diff_skip. rewrite <- C in Y. destruct (len_summary d Y) as (_ & _ & A1 & A2 & A3 & A4). rewrite A1, A2, A3, A4, N.
  unfold tree_sides. rewrite sides_sum; [lia|]. intros e I. apply In_tree_all in I.
  destruct (fd_sound _ _ _ _ _ _ _ _ _ _ F I) as (so & do & _ & D). eapply describes_sides; eauto.
Qed.
