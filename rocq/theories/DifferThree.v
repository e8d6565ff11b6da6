(** * DifferThree: order (C16), mirror images (C12), depth (C14). *)
From Verif Require Export DifferTwo.

(** ** C16 *)
Lemma faithful_in_order flags sn dn rs rd n ss dd es k : faithful flags sn dn rs rd (S n) ss dd es k -> in_order flags sn dn ss dd es.
Proof.
  intros (us & vs & outs & E1 & E2 & C & F & -> & _).
  assert (X : exists kept, sublist kept (keep_first (us ++ vs)) /\
    (forall u, In u kept <-> In u (keep_first (us ++ vs)) /\ ~ suppressed flags (with_uid u ss) (with_uid u dd)) /\
    Forall2 (fun u e => describes sn dn e (with_uid u ss) (with_uid u dd)) kept (somes outs)).
  { clear E1 E2 C. induction F as [|u out l outs P F IH]; [exists []; split; [constructor|]; split; [intros u; simpl; tauto|constructor]|].
    destruct IH as (kept & SL & IN & FD). destruct P as (_ & [[S ->]|[S (e & mp & sk & kids & -> & D & _)]]).
    - exists kept. split; [now constructor|]. split; [|exact FD]. intros v. rewrite IN. simpl. split; [tauto|].
      intros [[<-|I] NS]; [contradiction|auto].
    - exists (u :: kept). split; [now constructor|]. split; [|rewrite somes_cons; now constructor].
      intros v. simpl. rewrite IN. split; [|tauto]. intros [<-|[I NS]]; auto. }
  destruct X as (kept & SL & IN & FD). exists us, vs, kept. repeat (split; [assumption|]). split; [|exact FD].
  intros u. rewrite IN, In_keep_first, in_app_iff. tauto.
Qed.
Lemma faithful_types flags sn dn rs rd n ss dd es k t : faithful flags sn dn rs rd n ss dd es k ->
  (forall o, In o ss -> get_type o = t) -> (forall o, In o dd -> get_type o = t) -> forall e, In e es -> e_type e = t.
Proof.
  intros H T1 T2 e I. destruct n as [|n]; [destruct H|]. apply faithful_in_order in H as (us & vs & kept & _ & _ & _ & _ & FD).
  destruct (Forall2_in_r _ _ _ _ FD I) as (u & _ & D). destruct D as (_ & _ & _ & _ & o & O & -> & _).
  destruct (with_uid u ss) as [s|] eqn:W; simpl in O.
  - injection O as <-. apply T1. now apply with_uid_Some in W.
  - apply T2. now apply with_uid_Some in O.
Qed.
Lemma filter_none {A} (p : A -> bool) l : (forall x, In x l -> p x = false) -> filter p l = [].
Proof. induction l as [|x l IH]; intros H; simpl; [reflexivity|]. rewrite (H x (or_introl eq_refl)). apply IH. intros y I. apply H. now right. Qed.
Lemma per_group (ts : list string) (per : list (list elem * nat)) t es k : NoDup ts ->
  Forall2 (fun t (k : list elem * nat) => forall e, In e (fst k) -> e_type e = t) ts per ->
  In (t, (es, k)) (combine ts per) -> filter (fun e => String.eqb (e_type e) t) (flat_map fst per) = es.
Proof.
  intros ND F. induction F as [|t1 [es1 k1] ts per T F IH]; intros I; [destruct I|]. simpl in *. inversion ND as [|? ? N1 N2]; subst.
  rewrite filter_app. destruct I as [E|I].
  - injection E as -> -> ->. rewrite filter_all, filter_none, app_nil_r; [reflexivity| |].
    + intros e J. apply in_flat_map in J as ([es2 k2] & J1 & J2). destruct (Forall2_in_r _ _ _ _ F J1) as (t2 & I2 & T2). simpl in *.
      rewrite (T2 _ J2). apply String.eqb_neq. congruence.
    + intros e J. rewrite (T _ J). apply String.eqb_refl.
  - rewrite filter_none; [now apply IH|]. intros e J. rewrite (T _ J). apply String.eqb_neq.
    apply in_combine_l in I. congruence.
Qed.
Lemma Forall2_combine {A B} (P : A -> B -> Prop) l m x : Forall2 P l m -> In x l -> exists y, In (x, y) (combine l m) /\ P x y.
Proof. induction 1 as [|a b l m H F IH]; intros []; [subst; exists b; simpl; auto|]. destruct IH as (y & I & Q); auto. exists y; simpl; auto. Qed.
Lemma keys_in_order (ts : list string) (per : list (list elem * nat)) : NoDup ts ->
  Forall2 (fun t (k : list elem * nat) => forall e, In e (fst k) -> e_type e = t) ts per ->
  sublist (keep_first (map e_type (flat_map fst per))) ts.
Proof.
  intros ND F. induction F as [|t [es k] ts per T F IH]; [constructor|]. simpl in *. inversion ND as [|? ? N1 N2]; subst.
  assert (X : keep_first (map e_type (es ++ flat_map fst per)) =
    match es with [] => [] | _ => [t] end ++ keep_first (map e_type (flat_map fst per))).
  { rewrite map_app, keep_first_app. f_equal.
    - destruct es as [|e es]; [reflexivity|]. simpl. rewrite (T e (or_introl eq_refl)). f_equal. apply filter_none. intros x I.
      rewrite In_keep_first in I. apply in_map_iff in I as (y & <- & I). rewrite (T y (or_intror I)). now rewrite String.eqb_refl.
    - apply filter_all. intros x I. apply negb_true_iff, smem_false. intros J. rewrite In_keep_first in I.
      apply in_map_iff in J as (y & <- & J). rewrite (T _ J) in I. apply in_map_iff in I as (z & E & I).
      apply in_flat_map in I as ([es2 k2] & I1 & I2). destruct (Forall2_in_r _ _ _ _ F I1) as (t2 & I3 & T2). simpl in *. rewrite (T2 _ I2) in E. congruence. }
  rewrite X. destruct es; simpl; constructor; now apply IH.
Qed.
Lemma sublist_incl {A} (l m : list A) : sublist l m -> incl l m.
Proof. induction 1; intros y I; [exact I|destruct I as [->|I]; simpl; auto|simpl; auto]. Qed.

Lemma Forall2_in_if {A B} (P Q : A -> B -> Prop) l m : (forall x y, In x l -> P x y -> Q x y) -> Forall2 P l m -> Forall2 Q l m.
Proof. intros H F. induction F as [|x y l m X F IH]; constructor; [apply H; [now left|exact X]|]. apply IH. intros; apply H; auto. now right. Qed.
Lemma asked_src w a tops s do mapping sk t f : child_types (Some s) do mapping sk -> In (t, f) mapping -> read w a s -> asked w a tops t.
Proof.
  intros CT I R. right. exists s, f. split; [exact R|]. destruct do as [d|]; destruct CT as (-> & _); [now apply filter_In in I|exact I].
Qed.
Lemma asked_dst w a tops so d mapping sk t f : child_types so (Some d) mapping sk -> In (t, f) mapping -> read w a d -> asked w a tops t.
Proof.
  intros CT I R. right. destruct so as [s|]; destruct CT as (-> & _).
  - apply filter_In in I as (_ & I). cbn [fst] in I. unfold dmem in I. destruct (dget (c_children (o_cls d)) t) as [g|] eqn:G; [|discriminate]. exists d, g. split; [exact R|now apply dget_Some_In].
  - exists d, f. auto.
Qed.

Section Order.
  Variables (flags : N) (n : nat) (w : world) (src dst : aid) (sa da : adapter) (gs : dict (dict elem)) (k : nat).
  Hypothesis FS : filed w src (ad_top sa).
  Hypothesis FD : filed w dst (ad_top da).
  Hypothesis ND : NoDup (ad_top da).
  Hypothesis F : faithful_diff flags n w src dst sa da gs k.

  Lemma order_top : sublist (dkeys gs) (filter (fun t => smem t (ad_top sa)) (ad_top da)) /\
    (forall t ss dd, top_lists w src dst sa da t ss dd -> in_order flags (ad_name sa) (ad_name da) ss dd (dvals (group_of gs t))).
  Proof.
    destruct F as (lone & others & per & _ & _ & _ & FP & G & _).
    assert (T : Forall2 (fun t (k : list elem * nat) => forall e, In e (fst k) -> e_type e = t) (filter (fun t => smem t (ad_top sa)) (ad_top da)) per).
    { refine (Forall2_in_if _ _ _ _ _ FP). intros t kk It (ss & dd & B1 & B2 & R). apply filter_In in It as (Id & Is). apply smem_In in Is. eapply faithful_types; [exact R| |].
      - intros o I. destruct FS as [X _]. eapply X; eauto. now left.
      - intros o I. destruct FD as [X _]. eapply X; eauto. now left. }
    pose proof (NoDup_filter (fun t => smem t (ad_top sa)) ND) as ND'. split.
    - rewrite (proj1 G). now apply keys_in_order.
    - intros t ss dd (I1 & I2 & A1 & A2).
      assert (I : In t (filter (fun t => smem t (ad_top sa)) (ad_top da))) by (apply filter_In; split; [exact I2|now apply smem_In]).
      destruct (Forall2_combine _ _ _ _ FP I) as ([es k'] & IC & ss2 & dd2 & B1 & B2 & R). simpl in *.
      rewrite A1 in B1. rewrite A2 in B2. injection B1 as <-. injection B2 as <-.
      rewrite (grouped_group _ _ t G), (per_group _ _ t es k' ND' T IC). destruct n as [|n']; [destruct R|]. eapply faithful_in_order; eauto.
  Qed.

  Lemma order_list m : forall ss dd es k', faithful flags (ad_name sa) (ad_name da) (objs_by w src) (objs_by w dst) m ss dd es k' ->
    (forall o, In o ss -> read w src o) -> (forall o, In o dd -> read w dst o) ->
    forall x, In x (flat_map elem_all es) ->
    exists so do, visible flags (objs_by w src) (objs_by w dst) ss dd so do /\ describes (ad_name sa) (ad_name da) x so do /\
      forall mapping sk t f ss' dd', child_types so do mapping sk -> NoDup (dkeys mapping) -> In (t, f) mapping ->
        kids_of (objs_by w src) so f t = Ok ss' -> kids_of (objs_by w dst) do f t = Ok dd' ->
        in_order flags (ad_name sa) (ad_name da) ss' dd' (dvals (group_of (e_kids x) t)).
  Proof.
    induction m as [|m IH]; intros ss dd es k' H RS RD x I; [destruct H|].
    destruct H as (us & vs & outs & E1 & E2 & C & FP & -> & _).
    apply in_flat_map in I as (e & I & J). apply In_somes in I as (k1 & I).
    destruct (Forall2_in_r _ _ _ _ FP I) as (u & IU & P & [[_ E]|[NS (e' & mapping & sk & kids & E & D & CT & FK & G)]]); [discriminate|].
    injection E as <- ->.
    assert (PA : pair_at ss dd (with_uid u ss) (with_uid u dd)).
    { exists u. split; [reflexivity|]. split; [reflexivity|]. now apply (pair_at_In _ _ _ _ _ E1 E2). }
    apply In_elem_all_iff in J as [->|J].
    - exists (with_uid u ss), (with_uid u dd). split; [now apply vis_here|]. split; [exact D|].
      intros mapping' sk' t f ss' dd' CT' NDm Im K1 K2.
      assert (mapping' = mapping) as ->.
      { destruct (with_uid u ss), (with_uid u dd); simpl in CT, CT'; try tauto; destruct CT, CT'; congruence. }
      assert (T : Forall2 (fun (tf : string * string) (k : list elem * nat) => forall e, In e (fst k) -> e_type e = fst tf) mapping kids).
      { refine (Forall2_in_if _ _ _ _ _ FK). intros [t1 f1] kk It (s1 & d1 & B1 & B2 & R). simpl in *. eapply faithful_types; [exact R| |].
        - intros o Io. destruct (with_uid u ss) as [s|] eqn:WS; simpl in B1; [|injection B1 as <-; destruct Io].
          destruct (dget (o_kids s) f1); [|discriminate]. destruct FS as [_ X]. eapply X; eauto.
          apply (asked_src w src (ad_top sa) s _ _ _ _ _ CT It). apply RS. now apply with_uid_Some in WS.
        - intros o Io. destruct (with_uid u dd) as [d|] eqn:WD; simpl in B2; [|injection B2 as <-; destruct Io].
          destruct (dget (o_kids d) f1); [|discriminate]. destruct FD as [_ X]. eapply X; eauto.
          apply (asked_dst w dst (ad_top da) _ d _ _ _ _ CT It). apply RD. now apply with_uid_Some in WD. }
      assert (T' : Forall2 (fun t (k : list elem * nat) => forall e, In e (fst k) -> e_type e = t) (dkeys mapping) kids).
      { clear - T. induction T; constructor; auto. }
      destruct (Forall2_combine _ _ _ _ FK Im) as ([es2 k2] & IC & s2 & d2 & B1 & B2 & R). simpl in *.
      rewrite K1 in B1. rewrite K2 in B2. injection B1 as <-. injection B2 as <-.
      assert (IC' : In (t, (es2, k2)) (combine (dkeys mapping) kids)).
      { clear - IC. revert kids IC. induction mapping as [|[t1 f1] mapping IH]; intros [|k kids] IC; simpl in *; try tauto.
        destruct IC as [E|IC]; [left; congruence|right; auto]. }
      rewrite (grouped_group _ _ t G), (per_group _ _ t es2 k2 NDm T' IC'). destruct m as [|m']; [destruct R|]. eapply faithful_in_order; eauto.
    - apply (occurs_grouped _ _ _ G) in J. apply in_flat_map in J as (y & J & Jx). apply in_flat_map in J as ([es' k''] & K & Jy).
      destruct (Forall2_in_r _ _ _ _ FK K) as ([t f] & M & ss' & dd' & K1 & K2 & R). simpl in *.
      destruct (IH _ _ _ _ R) with (x := x) as (so' & do' & V & D' & O).
      { intros o Io. destruct (with_uid u ss) as [s|]; simpl in K1; [|injection K1 as <-; destruct Io]. destruct (dget (o_kids s) f) as [us'|]; [|discriminate]. exists t, ss'. eauto. }
      { intros o Io. destruct (with_uid u dd) as [d|]; simpl in K2; [|injection K2 as <-; destruct Io]. destruct (dget (o_kids d) f) as [us'|]; [|discriminate]. exists t, dd'. eauto. }
      { apply in_flat_map. eauto. }
      exists so', do'. split; [|split; [exact D'|exact O]]. eapply vis_below; [exact PA|exact NS| |exact V].
      exists mapping, sk, t, f. auto.
  Qed.
  Lemma order_below x : occurs x gs -> exists so do, shown flags w src dst sa da so do /\ describes (ad_name sa) (ad_name da) x so do /\
      forall mapping sk t f ss' dd', child_types so do mapping sk -> NoDup (dkeys mapping) -> In (t, f) mapping ->
        kids_of (objs_by w src) so f t = Ok ss' -> kids_of (objs_by w dst) do f t = Ok dd' ->
        in_order flags (ad_name sa) (ad_name da) ss' dd' (dvals (group_of (e_kids x) t)).
  Proof.
    intros O. apply occurs_children in O as (e & I & J). destruct (fd_inv _ _ _ _ _ _ _ _ _ _ F I) as (t & ss & dd & es & k' & T & R & Ie).
    destruct (order_list _ _ _ _ _ R) with (x := x) as (so & do & V & D & Q); [|  |apply in_flat_map; eauto|].
    { intros o Io. exists t, ss. destruct T as (_ & _ & A & _). auto. }
    { intros o Io. exists t, dd. destruct T as (_ & _ & _ & A). auto. }
    exists so, do. split; [exists t, ss, dd; auto|]. auto.
  Qed.
End Order.

(** ** C12 *)
Lemma dict_eq_sym a b : NoDup (dkeys a) -> NoDup (dkeys b) -> dict_eq a b = true -> dict_eq b a = true.
Proof.
  unfold dict_eq. rewrite !andb_true_iff, !Nat.eqb_eq, !forallb_forall. intros NA NB [L H]. split; [congruence|].
  assert (I : incl (dkeys a) (dkeys b)).
  { intros k I. unfold dkeys in I. apply in_map_iff in I as ([k' v] & <- & I). specialize (H _ I). simpl in H.
    destruct (dget b k') eqn:G; [|discriminate]. simpl. eapply dget_Some_key; eauto. }
  assert (J : incl (dkeys b) (dkeys a)).
  { apply NoDup_length_incl; [exact NA| |exact I]. unfold dkeys. rewrite !map_length. lia. }
  intros [k v] K. simpl. assert (Kb : In k (dkeys b)) by (apply in_map_iff; exists (k, v); auto).
  apply J in Kb. destruct (dget a k) as [v'|] eqn:G; [|apply dget_None in G; contradiction].
  specialize (H _ (dget_Some_In _ _ _ G)). simpl in H. rewrite (In_dget _ _ _ NB K) in H. now rewrite py_eq_sym.
Qed.
Lemma NoDup_dump o names : NoDup (dkeys (o_vals o)) -> NoDup (dkeys (dump_include o names)).
Proof. intros H. unfold dump_include, dkeys. now apply NoDup_map_filter. Qed.

Lemma Forall2_choice {A B} (P : A -> B -> Prop) l : (forall x, In x l -> exists y, P x y) -> exists m, Forall2 P l m.
Proof.
  induction l as [|x l IH]; intros H; [exists []; constructor|]. destruct (H x (or_introl eq_refl)) as [y Y].
  destruct IH as [m F]; [intros z I; apply H; now right|]. exists (y :: m). now constructor.
Qed.

Section Mirror.
  Variable w : world.
  Variable flags : N.
  Hypothesis SC : shared_classes w.
  Hypothesis SF : symmetric_flags w.
  Hypothesis PD : proper_dicts w.
  Hypothesis FL : N.testbit flags 1 = N.testbit flags 2.
  Variables src dst : aid.
  Variables sn dn : string.
  Notation rs := (objs_by w src).
  Notation rd := (objs_by w dst).
  Notation good := (fun o => held w o).

  Lemma held_dicts o : held w o -> NoDup (dkeys (o_vals o)).
  Proof. intros (o0 & E & [->|[a ->]]); [now apply PD|exact (PD _ E)]. Qed.
  Lemma held_flags o : held w o -> N.testbit (o_flags o) 2 = N.testbit (o_flags o) 3.
  Proof. intros (o0 & E & [->|[a ->]]); [now apply SF|exact (SF _ E)]. Qed.
  Lemma held_cls o o' : held w o -> held w o' -> get_type o = get_type o' -> o_cls o = o_cls o'.
  Proof.
    intros (o0 & E & C) (o1 & E1 & C1) T.
    assert (X : o_cls o = o_cls o0) by (destruct C as [->|[a ->]]; reflexivity).
    assert (X1 : o_cls o' = o_cls o1) by (destruct C1 as [->|[a ->]]; reflexivity).
    rewrite X, X1. apply SC; auto. unfold get_type in *. congruence.
  Qed.
  Lemma suppressed_sym so do : (forall s, so = Some s -> held w s) -> (forall d, do = Some d -> held w d) ->
    suppressed flags so do <-> suppressed flags do so.
  Proof.
    intros HS HD. destruct so as [s|], do as [d|]; simpl; [tauto| | |tauto].
    - now rewrite FL, (held_flags s (HS s eq_refl)).
    - now rewrite FL, (held_flags d (HD d eq_refl)).
  Qed.
  Lemma corresponding_sym s d : held w s -> held w d -> corresponding s d -> corresponding d s.
  Proof.
    intros HS HD (T & (n & N1 & N2) & E). split; [congruence|]. split; [eauto|].
    apply dict_eq_sym; auto; apply NoDup_dump; now apply held_dicts.
  Qed.
  Lemma child_types_sym so do mapping sk : (forall s, so = Some s -> held w s) -> (forall d, do = Some d -> held w d) ->
    (forall s d, so = Some s -> do = Some d -> corresponding s d) ->
    child_types so do mapping sk -> child_types do so mapping sk.
  Proof.
    intros HS HD C. destruct so as [s|], do as [d|]; simpl; auto.
    intros (-> & n & m & N & M & ->). assert (E : o_cls s = o_cls d).
    { apply held_cls; auto. apply C; auto. }
    split; [now rewrite E|]. exists m, n. repeat split; auto. lia.
  Qed.
  Lemma kids_held a so f t l : kids_of (objs_by w a) so f t = Ok l -> forall o, In o l -> held w o.
  Proof.
    destruct so as [s|]; simpl; [|intros H; injection H as <-; intros o []]. destruct (dget (o_kids s) f); [|discriminate].
    intros H o I. eapply objs_by_held; eauto.
  Qed.
  Lemma with_uid_held u l : (forall o, In o l -> held w o) -> forall o, with_uid u l = Some o -> held w o.
  Proof. intros H o E. apply with_uid_Some in E as [I _]. auto. Qed.

  Definition mirrored_list (es es' : list elem) : Prop := exists l, Permutation es l /\ Forall2 mirror l es'.
  Lemma mirrored_app a a' b b' : mirrored_list a a' -> mirrored_list b b' -> mirrored_list (a ++ b) (a' ++ b').
  Proof. intros (l & P & F) (m & Q & G). exists (l ++ m). split; [now apply Permutation_app|now apply Forall2_app]. Qed.
  Lemma mirror_tag e e' : mirror e e' -> tagged e' = tagged e.
  Proof. intros H. inversion H; subst. unfold tagged. congruence. Qed.
  Lemma mirrored_NoDup es es' : mirrored_list es es' -> NoDup (map tagged es) -> NoDup (map tagged es').
  Proof.
    intros (l & P & F) H. assert (E : map tagged es' = map tagged l).
    { clear - F. induction F as [|e e' l es' M F IH]; simpl; [reflexivity|]. rewrite (mirror_tag _ _ M). congruence. }
    rewrite E. eapply Permutation_NoDup; [apply Permutation_map; exact P|exact H].
  Qed.
  Lemma Permutation_filter' {A} (p : A -> bool) l m : Permutation l m -> Permutation (filter p l) (filter p m).
  Proof.
    induction 1 as [|x l m P IH|x y l|l m k P1 IH1 P2 IH2]; simpl; [constructor| | |now transitivity (filter p m)].
    - destruct (p x); [now constructor|exact IH].
    - destruct (p x), (p y); try reflexivity. constructor.
  Qed.
  Lemma mirrored_groups es es' gs gs' : mirrored_list es es' -> grouped gs es -> grouped gs' es' -> mirrored gs gs'.
  Proof.
    intros (l & P & F) G G' t. exists (filter (fun e => String.eqb (e_type e) t) l).
    rewrite (grouped_group _ _ t G), (grouped_group _ _ t G'). split; [now apply Permutation_filter'|].
    clear - F. induction F as [|e e' l es' M F IH]; simpl; [constructor|].
    pose proof (mirror_tag _ _ M) as T. unfold tagged in T. injection T as -> _. destruct (String.eqb (e_type e) t); [now constructor|exact IH].
  Qed.

  Definition out_mirror (out out' : option elem * nat) : Prop :=
    snd out = snd out' /\ out_sides out = out_sides out' /\
    match fst out, fst out' with Some e, Some e' => mirror e e' | None, None => True | _, _ => False end.
  Lemma outs_mirror outs outs' : Forall2 out_mirror outs outs' ->
    Forall2 mirror (somes outs) (somes outs') /\ list_sum (map snd outs) = list_sum (map snd outs') /\ esides (somes outs) = esides (somes outs').
  Proof.
    induction 1 as [|[oe k] [oe' k'] l l' (E & ES & M) F (IH1 & IH2 & IH3)]; [repeat split; constructor|].
    cbn [fst snd] in *. subst k'. rewrite !somes_cons. cbn [map snd]. rewrite !list_sum_cons.
    split; [|split; [lia|]].
    - destruct oe, oe'; try contradiction; simpl; [now constructor|exact IH1].
    - rewrite !esides_app. unfold out_sides in ES. cbn [fst] in ES. destruct oe, oe'; try contradiction; simpl app; lia.
  Qed.
  Lemma esides_perm l m : Permutation l m -> esides l = esides m.
  Proof. intros P. apply list_sum_perm, Permutation_map, Permutation_flat_map, P. Qed.

  Lemma mirror_faithful n : forall ss dd es k, (forall o, In o ss -> held w o) -> (forall o, In o dd -> held w o) ->
    faithful flags sn dn rs rd n ss dd es k ->
    exists es', faithful flags dn sn rd rs n dd ss es' k /\ mirrored_list es es' /\ esides es = esides es'.
  Proof.
    induction n as [|n IH]; intros ss dd es k HS HD H; [destruct H|].
    destruct H as (us & vs & outs & E1 & E2 & C & F & -> & ->).
    assert (PE : Permutation (keep_first (us ++ vs)) (keep_first (vs ++ us))).
    { apply NoDup_Permutation; try apply NoDup_keep_first. intros x. rewrite !In_keep_first, !in_app_iff. tauto. }
    destruct (Forall2_perm _ _ _ _ F PE) as (outs1 & F1 & P1).
    assert (X : exists outs', Forall2 (fun u out => pair_ok flags dn sn rd rs (faithful flags dn sn rd rs n) (with_uid u dd) (with_uid u ss) out)
                  (keep_first (vs ++ us)) outs' /\ Forall2 out_mirror outs1 outs').
    { clear F PE P1. induction F1 as [|u out l outs1 P F1 IHF]; [exists []; split; constructor|]. destruct IHF as (outs' & F' & OM).
      pose proof (with_uid_held u ss HS) as WS. pose proof (with_uid_held u dd HD) as WD.
      assert (CC : forall s d, with_uid u ss = Some s -> with_uid u dd = Some d -> corresponding s d) by (intros; eapply C; eauto).
      set (so := with_uid u ss) in *. set (do := with_uid u dd) in *.
      assert (NM : forall o n, either so do = Some o -> get_shortname o = Ok n -> exists o', either do so = Some o' /\ get_shortname o' = Ok n /\
        get_type o' = get_type o /\ (get_identifiers o' = get_identifiers o \/ dict_eq (get_identifiers o) (get_identifiers o') = true)).
      { intros o m O N. destruct so as [s|], do as [d|]; simpl in *; try discriminate; injection O as <-.
        - destruct (CC s d eq_refl eq_refl) as (T & (m' & N1 & N2) & ID). exists d. repeat split; auto. congruence.
        - exists s. auto.
        - exists d. auto. }
      destruct P as ((o & nm & O & NM0) & P). destruct (NM _ _ O NM0) as (o' & O' & N' & T' & ID').
      destruct P as [[S ->]|[S (e & mp & sk & kids & -> & D & CT & FK & G)]].
      - exists ((None, 1) :: outs'). split; [|constructor; [|exact OM]; repeat split]. constructor; [|exact F'].
        split; [exists o', nm; auto|]. left. split; [|reflexivity]. now apply suppressed_sym.
      - assert (K : exists kids', Forall2 (fun tf (k : list elem * nat) => exists ss' dd', kids_of rd do (snd tf) (fst tf) = Ok ss' /\
              kids_of rs so (snd tf) (fst tf) = Ok dd' /\ faithful flags dn sn rd rs n ss' dd' (fst k) (snd k)) mp kids' /\
              mirrored_list (flat_map fst kids) (flat_map fst kids') /\ list_sum (map snd kids) = list_sum (map snd kids') /\
              esides (flat_map fst kids) = esides (flat_map fst kids')).
        { clear - FK IH. induction FK as [|tf [es k] mp kids (ss' & dd' & K1 & K2 & R) FK IHK].
          - exists []. split; [constructor|]. split; [exists []; split; constructor|]. split; reflexivity.
          - destruct IHK as (kids' & FK' & M & SE & ES). simpl in R.
            destruct (IH ss' dd' es k) as (es' & R' & M' & ES'); [eapply kids_held; eauto|eapply kids_held; eauto|exact R|].
            exists ((es', k) :: kids'). split; [constructor; [|exact FK']; exists dd', ss'; auto|].
            simpl flat_map. split; [now apply mirrored_app|]. cbn [map snd]. rewrite !list_sum_cons, !esides_app. split; lia. }
        destruct K as (kids' & FK' & M & SE & ES).
        destruct (grouped_exists (flat_map fst kids')) as [gs' G']; [eapply mirrored_NoDup; [exact M|now apply grouped_NoDup in G]|].
        destruct D as (D1 & D2 & D3 & D4 & o1 & O1 & D5 & D6 & D7). rewrite O in O1. injection O1 as <-. rewrite NM0 in D6. injection D6 as ->.
        set (e' := mkElem (e_type e) (e_name e) (get_identifiers o') dn sn (e_dst e) (e_src e) gs').
        exists ((Some e', sk + list_sum (map snd kids')) :: outs'). split.
        + constructor; [|exact F']. split; [exists o', (e_name e); auto|]. right. split; [now rewrite <- suppressed_sym|].
          exists e', mp, sk, kids'. split; [reflexivity|]. split; [|split; [now apply child_types_sym|split; [exact FK'|exact G']]].
          repeat split; auto. exists o'. repeat split; auto. simpl. congruence.
        + constructor; [|exact OM]. split; [cbn [snd]; lia|]. split.
          * unfold out_sides. cbn [fst]. rewrite !esides_cons, (tree_sides_grouped _ _ G). change (e_kids e') with gs'.
            rewrite (tree_sides_grouped _ _ G'), ES. unfold sides, e'. cbn [e_src e_dst]. destruct (e_src e), (e_dst e); reflexivity.
          * cbn [fst]. constructor; try reflexivity; auto.
            -- simpl. rewrite D7. exact ID'.
            -- exact (mirrored_groups _ _ _ _ M G G'). }
    destruct X as (outs' & F' & OM). destruct (outs_mirror _ _ OM) as (M1 & M2 & M3).
    assert (PS : Permutation (somes outs) (somes outs1)) by now apply Permutation_flat_map.
    exists (somes outs'). split; [|split].
    - exists vs, us, outs'. split; [exact E2|]. split; [exact E1|]. split.
      + intros u s d S D. apply corresponding_sym; [eapply (with_uid_held u ss); eauto|eapply (with_uid_held u dd); eauto|eauto].
      + split; [exact F'|]. split; [reflexivity|].
        rewrite (list_sum_perm _ _ (Permutation_map snd P1)), M2, (Permutation_length P1), (Forall2_length' _ _ _ OM). lia.
    - exists (somes outs1). auto.
    - rewrite (esides_perm _ _ PS). exact M3.
  Qed.
End Mirror.

Lemma mirror_diff n w src dst sa da flags gs k : shared_classes w -> symmetric_flags w -> proper_dicts w ->
  N.testbit flags 1 = N.testbit flags 2 -> NoDup (ad_top sa) -> NoDup (ad_top da) ->
  faithful_diff flags n w src dst sa da gs k ->
  exists gs', faithful_diff flags n w dst src da sa gs' k /\ mirrored gs gs' /\ tree_sides gs = tree_sides gs'.
Proof.
  intros SC SF PD FL NS ND (lone & others & per & A1 & A2 & A3 & F & G & ->).
  assert (PE : Permutation (filter (fun t => smem t (ad_top sa)) (ad_top da)) (filter (fun t => smem t (ad_top da)) (ad_top sa))).
  { apply NoDup_Permutation; try now apply NoDup_filter. intros x. rewrite !filter_In, !smem_In. tauto. }
  destruct (Forall2_perm _ _ _ _ F PE) as (per1 & F1 & P1).
  assert (X : exists per', Forall2 (fun t (k : list elem * nat) => exists ss dd, objs_all w dst t = Ok ss /\ objs_all w src t = Ok dd /\
      faithful flags (ad_name da) (ad_name sa) (objs_by w dst) (objs_by w src) n ss dd (fst k) (snd k))
      (filter (fun t => smem t (ad_top da)) (ad_top sa)) per' /\ mirrored_list (flat_map fst per1) (flat_map fst per') /\
      list_sum (map snd per1) = list_sum (map snd per') /\ esides (flat_map fst per1) = esides (flat_map fst per')).
  { clear F PE P1. induction F1 as [|t [es k] l per1 (ss & dd & B1 & B2 & R) F1 IH].
    - exists []. split; [constructor|]. split; [exists []; split; constructor|]. split; reflexivity.
    - destruct IH as (per' & F' & M & SE & ES). simpl in R.
      destruct (mirror_faithful w flags SC SF PD FL src dst (ad_name sa) (ad_name da) n ss dd es k) as (es' & R' & M' & ES');
        [intros o I; exact (objs_all_held _ _ _ _ _ B1 I)|intros o I; exact (objs_all_held _ _ _ _ _ B2 I)|exact R|].
      exists ((es', k) :: per'). split; [constructor; [|exact F']; exists dd, ss; auto|].
      simpl flat_map. split; [now apply mirrored_app|]. cbn [map snd]. rewrite !list_sum_cons, !esides_app. split; lia. }
  destruct X as (per' & F' & M & SE & ES).
  assert (M' : mirrored_list (flat_map fst per) (flat_map fst per')).
  { destruct M as (l & P & FM). exists l. split; [|exact FM]. transitivity (flat_map fst per1); [now apply Permutation_flat_map|exact P]. }
  destruct (grouped_exists (flat_map fst per')) as [gs' G']; [eapply mirrored_NoDup; [exact M'|now apply grouped_NoDup in G]|].
  exists gs'. split; [|split].
  - exists lone, others, per'. split; [exact A1|]. split; [intros t; rewrite A2; tauto|]. split.
    + assert (L : forall t, In t lone -> (if smem t (ad_top sa) then src else dst) = (if smem t (ad_top da) then dst else src)).
      { intros t I. apply A2 in I. destruct (smem t (ad_top sa)) eqn:M1, (smem t (ad_top da)) eqn:M2; auto;
        rewrite ?smem_In, ?smem_false in *; tauto. }
      clear - A3 L. induction A3 as [|t m l others (x & -> & E) F IH]; constructor.
      * exists x. split; [reflexivity|]. rewrite (L t (or_introl eq_refl)). exact E.
      * apply IH. intros t' I. apply L. now right.
    + split; [exact F'|]. split; [exact G'|]. rewrite (list_sum_perm _ _ (Permutation_map snd P1)), SE. reflexivity.
  - exact (mirrored_groups _ _ _ _ M' G G').
  - rewrite (tree_sides_grouped _ _ G), (tree_sides_grouped _ _ G'), <- ES. apply esides_perm. now apply Permutation_flat_map.
Qed.
Lemma diff_from_mirror n w src dst sa da dc flags cb d : w_ok w ->
  nth_error (w_ads w) src = Some sa -> nth_error (w_ads w) dst = Some da ->
  shared_classes w -> symmetric_flags w -> proper_dicts w ->
  N.testbit flags 1 = N.testbit flags 2 -> NoDup (ad_top sa) -> NoDup (ad_top da) ->
  snd (diff_from n dst src dc flags cb w) = Ok d ->
  exists d', snd (diff_from n src dst dc flags cb w) = Ok d' /\ mirrored (d_groups d) (d_groups d') /\ d_processed d' = d_processed d.
Proof.
  intros OK HS HD SC SF PD FL NS ND H. apply (diff_from_iff _ _ _ _ _ _ _ _ _ OK HS HD) in H as (k & F & C & N).
  destruct (mirror_diff _ _ _ _ _ _ _ _ _ SC SF PD FL NS ND F) as (gs' & F' & M & T).
  exists (mkDiff dc gs' (tree_sides gs' + k)). split; [|split; [exact M|simpl; lia]].
  apply (diff_from_iff _ _ _ _ _ _ _ _ _ OK HD HS). exists k. auto.
Qed.

(** ** C14 *)
Section Depth.
  Variable w : world.
  Variables src dst : aid.
  Variable flags : N.
  Notation rs := (objs_by w src).
  Notation rd := (objs_by w dst).

  Lemma nested_generations n : same_fields w -> forall ss dd, (forall o, In o ss -> held w o) -> (forall o, In o dd -> held w o) ->
    nested flags rs rd (S n) ss dd ->
    (exists u o, with_uid u ss = Some o /\ generations rs n o) \/ (exists u o, with_uid u dd = Some o /\ generations rd n o).
  Proof.
    intros SFD. assert (SF' : forall o o' t f f', held w o -> held w o' -> In (t, f) (c_children (o_cls o)) -> In (t, f') (c_children (o_cls o')) -> f = f').
    { intros o o' t f f' (o0 & E0 & C0) (o1 & E1 & C1) I I'. apply (SFD o0 o1 t f f' E0 E1).
      - destruct C0 as [->|[a ->]]; exact I.
      - destruct C1 as [->|[a ->]]; exact I'. }
    induction n as [|n IH]; intros ss dd HS HD (so & do & ss' & dd' & PA & NS & CL & N); destruct PA as (u & -> & -> & NN).
    - destruct (with_uid u ss) as [s|] eqn:W; [left; exists u, s; simpl; auto|].
      destruct (with_uid u dd) as [d|] eqn:W'; [right; exists u, d; simpl; auto|]. now simpl in NN.
    - pose proof (with_uid_held w u ss HS) as WS. pose proof (with_uid_held w u dd HD) as WD.
      destruct CL as (mp & k & t & f & CT & I & K1 & K2).
      destruct (IH ss' dd') as [(v & o & W & GN)|(v & o & W & GN)]; [eapply kids_held; eauto|eapply kids_held; eauto|exact N| |].
      + left. destruct (with_uid u ss) as [s|] eqn:WU; [|simpl in K1; injection K1 as <-; discriminate].
        exists u, s. split; [exact WU|]. exists o. split; [|exact GN]. simpl in K1. destruct (dget (o_kids s) f) as [us|] eqn:DK; [|discriminate].
        exists t, f, us, ss', v. split; [|auto]. destruct (with_uid u dd); simpl in CT; destruct CT as [-> _]; [now apply filter_In in I|exact I].
      + right. destruct (with_uid u dd) as [d|] eqn:WU; [|simpl in K2; injection K2 as <-; discriminate].
        exists u, d. split; [exact WU|]. exists o. split; [|exact GN]. simpl in K2. destruct (dget (o_kids d) f) as [us|] eqn:DK; [|discriminate].
        exists t, f, us, dd', v. split; [|auto]. destruct (with_uid u ss) as [s|] eqn:WU'; simpl in CT; destruct CT as [-> CT]; [|exact I].
        apply filter_In in I as [I M]. simpl in M. apply dmem_true in M as [f' M]. apply dget_Some_In in M.
        rewrite (SF' s d t f f'); auto.
  Qed.

  (** with neutral flags and shared classes every chain is followed *)
  Hypothesis SC : shared_classes w.
  Hypothesis NF : forall o, exists_in w o -> N.testbit (o_flags o) 0 = false /\ N.testbit (o_flags o) 2 = false /\ N.testbit (o_flags o) 3 = false.
  Hypothesis FL : N.testbit flags 1 = false /\ N.testbit flags 2 = false.
  Variables sn dn : string.
  Lemma neutral so do : (forall s, so = Some s -> held w s) -> (forall d, do = Some d -> held w d) -> ~ suppressed flags so do.
  Proof.
    assert (NF' : forall o, held w o -> N.testbit (o_flags o) 0 = false /\ N.testbit (o_flags o) 2 = false /\ N.testbit (o_flags o) 3 = false).
    { intros o (o0 & E & [->|[a ->]]); [now apply NF|exact (NF _ E)]. }
    destruct FL as [F1 F2]. intros HS HD. destruct so as [s|], do as [d|]; simpl; try tauto.
    - destruct (NF' s (HS s eq_refl)) as (A & B & C). destruct (NF' d (HD d eq_refl)) as (A' & B' & C'). intuition congruence.
    - destruct (NF' s (HS s eq_refl)) as (A & B & C). intuition congruence.
    - destruct (NF' d (HD d eq_refl)) as (A & B & C). intuition congruence.
  Qed.
  Lemma chain_too_deep n : forall ss dd es k, (forall o, In o ss -> held w o) -> (forall o, In o dd -> held w o) ->
    faithful flags sn dn rs rd n ss dd es k ->
    (forall u o, with_uid u ss = Some o -> ~ generations rs n o) /\ (forall u o, with_uid u dd = Some o -> ~ generations rd n o).
  Proof.
    induction n as [|n IH]; intros ss dd es k HS HD H; [destruct H|].
    assert (STEP : forall u t f, either (with_uid u ss) (with_uid u dd) <> None ->
      (forall o, either (with_uid u ss) (with_uid u dd) = Some o -> In (t, f) (c_children (o_cls o))) ->
      exists ss' dd' es' k', kids_of rs (with_uid u ss) f t = Ok ss' /\ kids_of rd (with_uid u dd) f t = Ok dd' /\
        faithful flags sn dn rs rd n ss' dd' es' k').
    { intros u t f NN IM. assert (PA : pair_at ss dd (with_uid u ss) (with_uid u dd)) by (exists u; auto).
      pose proof (with_uid_held w u ss HS) as WS. pose proof (with_uid_held w u dd HD) as WD.
      pose proof (neutral _ _ WS WD) as NS.
      destruct (pair_at_out _ _ _ _ _ _ _ _ _ _ _ _ H PA) as (out & (_ & [[S _]|[_ (e & mp & sk & kids & -> & D & CT & FK & G)]]) & O); [contradiction|].
      assert (Im : In (t, f) mp).
      { destruct (with_uid u ss) as [s|] eqn:W1, (with_uid u dd) as [d|] eqn:W2; simpl in CT; try contradiction; destruct CT as [-> CT]; simpl in IM; auto.
        apply filter_In. split; [auto|]. simpl. apply dmem_In.
        assert (o_cls s = o_cls d) as <-.
        { apply (held_cls w SC); auto. destruct H as (us & vs & outs & _ & _ & C & _). eapply C; eauto. }
        unfold dkeys. apply in_map_iff. exists (t, f). auto. }
      destruct (Forall2_in_l _ _ _ _ FK Im) as ([es' k'] & _ & ss' & dd' & K1 & K2 & R). simpl in *. eauto 8. }
    assert (CLS : forall u s d, with_uid u ss = Some s -> with_uid u dd = Some d -> o_cls s = o_cls d).
    { intros u s d W1 W2. apply (held_cls w SC); [exact (with_uid_held w u ss HS s W1)|exact (with_uid_held w u dd HD d W2)|].
      destruct H as (us & vs & outs & _ & _ & C & _). exact (proj1 (C u s d W1 W2)). }
    split; intros u o W (o' & (t & f & us & l & v & I & DK & RL & WV) & GN).
    - destruct (STEP u t f) as (ss' & dd' & es' & k' & K1 & K2 & R).
      + rewrite W. simpl. discriminate.
      + rewrite W. simpl. intros x E. injection E as <-. exact I.
      + rewrite W in K1. simpl in K1. rewrite DK, RL in K1. injection K1 as <-.
        destruct (IH l dd' es' k') as [X _]; [intros x Ix; exact (objs_by_held _ _ _ _ _ _ RL Ix)|eapply kids_held; eauto|exact R|]. eapply X; eauto.
    - destruct (STEP u t f) as (ss' & dd' & es' & k' & K1 & K2 & R).
      + rewrite W. destruct (with_uid u ss); discriminate.
      + rewrite W. destruct (with_uid u ss) as [s|] eqn:W1; simpl; intros x E; injection E as <-; [|exact I].
        now rewrite (CLS u s o W1 W).
      + rewrite W in K2. simpl in K2. rewrite DK, RL in K2. injection K2 as <-.
        destruct (IH ss' l es' k') as [_ X]; [eapply kids_held; eauto|intros x Ix; exact (objs_by_held _ _ _ _ _ _ RL Ix)|exact R|]. eapply X; eauto.
  Qed.
End Depth.
