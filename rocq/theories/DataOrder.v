(** * DataOrder: the order of insertion does not matter. *)
From Verif Require Import DataSpec DifferLast RedisFacts DataFacts.

(** ** Near objects *)
Definition vals_rel (c : list string) (v v' : dict val) : Prop :=
  Forall2 (fun kv kv' : string * val => fst kv' = fst kv /\ (In (fst kv) c -> snd kv' = snd kv)) v v'.
Definition kids_rel (k k' : dict (list string)) : Prop :=
  forall f, match dget k f, dget k' f with
            | Some us, Some us' => Permutation us us'
            | None, None => True
            | _, _ => False
            end.
Lemma kids_sym k k' : kids_rel k k' -> kids_rel k' k.
Proof. intros H f. specialize (H f). destruct (dget k f), (dget k' f); auto. now symmetry. Qed.
Lemma kids_trans k k' k'' : kids_rel k k' -> kids_rel k' k'' -> kids_rel k k''.
Proof. intros H G f. specialize (H f). specialize (G f). destruct (dget k f), (dget k' f), (dget k'' f); auto; try contradiction. etransitivity; eauto. Qed.
Lemma kids_refl k : kids_rel k k.
Proof. intros f. destruct (dget k f); auto. Qed.
Lemma near_agrees o o' : reordered o o' <-> agrees o (set_o_kids o' (o_kids o)) /\ kids_rel (o_kids o) (o_kids o').
Proof. unfold reordered, agrees, kids_rel. simpl. tauto. Qed.
Lemma agrees_near o o' : agrees o o' -> reordered o o'.
Proof. intros (C & F & K & V). split; [exact C|]. split; [exact F|]. split; [exact V|]. rewrite K. apply kids_refl. Qed.
Lemma agrees_kids o o' k k' : agrees o o' -> k = k' -> agrees (set_o_kids o k) (set_o_kids o' k').
Proof. unfold agrees. simpl. intuition. Qed.
Lemma near_sym o o' : reordered o o' -> reordered o' o.
Proof.
  rewrite !near_agrees. intros [A K]. split; [|now apply kids_sym]. apply agrees_sym in A. destruct A as (C & F & _ & V).
  split; [exact C|]. split; [exact F|]. split; [reflexivity|exact V].
Qed.
Lemma near_trans a b c : reordered a b -> reordered b c -> reordered a c.
Proof.
  rewrite !near_agrees. intros [A K] [B L]. split; [|eapply kids_trans; eauto].
  eapply agrees_trans; [exact A|]. apply (agrees_kids _ _ (o_kids a) (o_kids a)) in B; [|reflexivity]. exact B.
Qed.
Lemma near_refl o : reordered o o.
Proof. apply agrees_near, agrees_refl. Qed.

(** the functions of an object *)
Lemma near_attrs o o' : reordered o o' -> get_attrs o' = get_attrs o.
Proof. intros H. apply near_agrees in H as [A _]. exact (agrees_attrs _ _ A). Qed.
Lemma near_ids o o' : reordered o o' -> get_identifiers o' = get_identifiers o.
Proof. intros H. apply near_agrees in H as [A _]. exact (agrees_ids _ _ A). Qed.
Lemma near_uid o o' : reordered o o' -> get_unique_id o' = get_unique_id o.
Proof. intros H. apply near_agrees in H as [A _]. exact (agrees_uid _ _ A). Qed.
Lemma near_short o o' : reordered o o' -> get_shortname o' = get_shortname o.
Proof. intros H. apply near_agrees in H as [A _]. exact (agrees_short _ _ A). Qed.
Lemma near_type o o' : reordered o o' -> get_type o' = get_type o.
Proof. intros (C & _). unfold get_type. now rewrite C. Qed.

(** ** Near lists *)
Definition nlist (l l' : list obj) : Prop := exists m, Permutation l m /\ Forall2 reordered m l'.
Lemma Forall2_trans {A B C} (P : A -> B -> Prop) (Q : B -> C -> Prop) (R : A -> C -> Prop) l m n :
  (forall a b c, P a b -> Q b c -> R a c) -> Forall2 P l m -> Forall2 Q m n -> Forall2 R l n.
Proof. intros H F. revert n. induction F as [|x y l m A1 F IH]; intros n G; inversion G; subst; constructor; eauto. Qed.
Lemma Forall2_swap {A B} (P : A -> B -> Prop) l m : Forall2 P l m -> Forall2 (fun b a => P a b) m l.
Proof. induction 1; constructor; auto. Qed.
Lemma Forall2_perm_l {A B} (P : A -> B -> Prop) l m m' : Forall2 P l m -> Permutation m m' -> exists l', Permutation l l' /\ Forall2 P l' m'.
Proof.
  intros F H. apply Forall2_swap in F. destruct (Forall2_perm _ _ _ _ F H) as (l' & F' & P'). exists l'. split; [exact P'|]. now apply Forall2_swap in F'.
Qed.
Lemma nlist_trans a b c : nlist a b -> nlist b c -> nlist a c.
Proof.
  intros (m & P & F) (n & Q & G). destruct (Forall2_perm_l _ _ _ _ F Q) as (m' & P' & F').
  exists m'. split; [now transitivity m|]. eapply Forall2_trans; [exact near_trans|exact F'|exact G].
Qed.
Lemma nlist_agrees l l' : Forall2 agrees l l' -> nlist l l'.
Proof. intros F. exists l. split; [reflexivity|]. eapply Forall2_if; [|exact F]. apply agrees_near. Qed.
Definition distinct (l : list obj) : Prop :=
  forall o o' u, In o l -> In o' l -> get_unique_id o = Ok u -> get_unique_id o' = Ok u -> reordered o o'.
Lemma nlist_in l l' o' : nlist l l' -> In o' l' -> exists o, In o l /\ reordered o o'.
Proof.
  intros (m & P & F) I. destruct (Forall2_in_r _ _ _ _ F I) as (o & J & R). exists o. split; [|exact R].
  eapply Permutation_in; [symmetry; exact P|exact J].
Qed.
Lemma Forall2_in_l {A B} (P : A -> B -> Prop) l m x : Forall2 P l m -> In x l -> exists y, In y m /\ P x y.
Proof. induction 1 as [|a b l m H F IH]; intros []; [subst; exists b; simpl; auto|]. destruct IH as (y & I & Q); auto. exists y; simpl; auto. Qed.
Lemma nlist_in_l l l' o : nlist l l' -> In o l -> exists o', In o' l' /\ reordered o o'.
Proof. intros (m & P & F) I. eapply Permutation_in in I; [|exact P]. exact (Forall2_in_l _ _ _ _ F I). Qed.
Lemma nlist_distinct l l' : nlist l l' -> distinct l -> distinct l'.
Proof.
  intros N D o o' u I J U V. destruct (nlist_in _ _ _ N I) as (x & Ix & R). destruct (nlist_in _ _ _ N J) as (y & Iy & S).
  rewrite (near_uid _ _ R) in U. rewrite (near_uid _ _ S) in V. eapply near_trans; [apply near_sym; exact R|]. eapply near_trans; [|exact S]. eapply D; eauto.
Qed.
Lemma nlist_length l l' : nlist l l' -> length l = length l'.
Proof. intros (m & P & F). rewrite (Permutation_length P). exact (Forall2_length' _ _ _ F). Qed.
Definition onear (o o' : option obj) : Prop :=
  match o, o' with Some x, Some y => reordered x y | None, None => True | _, _ => False end.
Lemma nlist_uids l l' us : nlist l l' -> map get_unique_id l = map Ok us -> exists us', map get_unique_id l' = map Ok us' /\ Permutation us us'.
Proof.
  intros (m & P & F) E. assert (X : map get_unique_id l' = map get_unique_id m).
  { clear - F. induction F as [|x y l m R F IH]; simpl; [reflexivity|]. now rewrite (near_uid _ _ R), IH. }
  assert (Y : Permutation (map Ok us) (map get_unique_id m)) by (rewrite <- E; now apply Permutation_map).
  symmetry in Y. apply Permutation_map_inv in Y as (us' & Z & Q). exists us'. split; [now rewrite X, Z|now symmetry].
Qed.
Lemma nlist_with u l l' us us' : nlist l l' -> distinct l -> map get_unique_id l = map Ok us -> map get_unique_id l' = map Ok us' ->
  Permutation us us' -> onear (with_uid u l) (with_uid u l').
Proof.
  intros N D E E' P. destruct (with_uid u l) as [o|] eqn:W.
  - apply with_uid_Some in W as [I U]. destruct (with_uid u l') as [o'|] eqn:W'.
    + apply with_uid_Some in W' as [I' U']. simpl. destruct (nlist_in _ _ _ N I') as (x & Ix & R).
      eapply near_trans; [|exact R]. eapply D; eauto. now rewrite <- (near_uid _ _ R).
    + apply (with_uid_None u l' us' E') in W'. simpl. apply W'. eapply Permutation_in; [exact P|].
      assert (In (Ok u) (map Ok us)) as J by (rewrite <- E, <- U; now apply in_map). apply in_map_iff in J as (v & [= ->] & J). exact J.
  - apply (with_uid_None u l us E) in W. destruct (with_uid u l') as [o'|] eqn:W'; [|exact I]. simpl. apply W.
    apply with_uid_Some in W' as [I' U']. eapply Permutation_in; [symmetry; exact P|].
    assert (In (Ok u) (map Ok us')) as J by (rewrite <- E', <- U'; now apply in_map). apply in_map_iff in J as (v & [= ->] & J). exact J.
Qed.
Lemma typed_near T o o' : reordered o o' -> typed T o -> typed T o'.
Proof. intros (C & _) H t f I. rewrite C in I. eapply H; eauto. Qed.

(** ** Resorted elements *)
Definition resorted_list (es es' : list elem) : Prop := exists l, Permutation es l /\ Forall2 resorted l es'.
Lemma resorted_app a a' b b' : resorted_list a a' -> resorted_list b b' -> resorted_list (a ++ b) (a' ++ b').
Proof. intros (l & P & F) (m & Q & G). exists (l ++ m). split; [now apply Permutation_app|now apply Forall2_app]. Qed.
Lemma resorted_tag e e' : resorted e e' -> tagged e' = tagged e.
Proof. intros H. inversion H; subst. unfold tagged. congruence. Qed.
Lemma resorted_NoDup es es' : resorted_list es es' -> NoDup (map tagged es) -> NoDup (map tagged es').
Proof.
  intros (l & P & F) H. assert (E : map tagged es' = map tagged l).
  { clear - F. induction F as [|e e' l es' M F IH]; simpl; [reflexivity|]. rewrite (resorted_tag _ _ M). congruence. }
  rewrite E. eapply Permutation_NoDup; [apply Permutation_map; exact P|exact H].
Qed.
Lemma resorted_groups es es' gs gs' : resorted_list es es' -> grouped gs es -> grouped gs' es' -> resorted_tree gs gs'.
Proof.
  intros (l & P & F) G G' t. exists (filter (fun e => String.eqb (e_type e) t) l).
  rewrite (grouped_group _ _ t G), (grouped_group _ _ t G'). split; [now apply Permutation_filter'|].
  clear - F. induction F as [|e e' l es' M F IH]; simpl; [constructor|].
  pose proof (resorted_tag _ _ M) as T. unfold tagged in T. injection T as -> _. destruct (String.eqb (e_type e) t); [now constructor|exact IH].
Qed.
(** both sides of every element of the trees *)
Definition own (e : elem) := (e_src e, e_dst e).
Definition ekern (es : list elem) := map own (flat_map elem_all es).
Lemma ekern_app l m : ekern (l ++ m) = ekern l ++ ekern m.
Proof. unfold ekern. now rewrite flat_map_app, map_app. Qed.
Lemma ekern_perm l m : Permutation l m -> Permutation (ekern l) (ekern m).
Proof. intros P. apply Permutation_map, Permutation_flat_map, P. Qed.
Lemma ekern_tree gs es : grouped gs es -> Permutation (map own (tree_all gs)) (ekern es).
Proof. intros G. unfold ekern. rewrite tree_all_children. apply Permutation_map, Permutation_flat_map. now apply grouped_children. Qed.
Lemma ekern_one e : ekern [e] = own e :: map own (tree_all (e_kids e)).
Proof. unfold ekern. simpl. rewrite app_nil_r. destruct e. reflexivity. Qed.
Definition oelems (oe : option elem) : list elem := match oe with Some e => [e] | None => [] end.
Definition out_near (out out' : option elem * nat) : Prop :=
  snd out = snd out' /\ Permutation (ekern (oelems (fst out))) (ekern (oelems (fst out'))) /\
  match fst out, fst out' with Some e, Some e' => resorted e e' | None, None => True | _, _ => False end.
Lemma outs_near outs outs' : Forall2 out_near outs outs' ->
  Forall2 resorted (somes outs) (somes outs') /\ list_sum (map snd outs) = list_sum (map snd outs') /\ Permutation (ekern (somes outs)) (ekern (somes outs')).
Proof.
  induction 1 as [|[oe k] [oe' k'] l l' (E & ES & M) F (IH1 & IH2 & IH3)]; [repeat split; constructor|].
  cbn [fst snd] in *. subst k'. rewrite !somes_cons. cbn [map snd]. rewrite !list_sum_cons.
  split; [|split; [lia|]].
  - destruct oe, oe'; try contradiction; simpl; [now constructor|exact IH1].
  - fold (oelems oe) (oelems oe'). rewrite !ekern_app. now apply Permutation_app.
Qed.

(** ** The run on the other side *)
Section Reorder.
  Variable T : string -> Prop.
  Variable flags : N.
  Variables sn dn : string.
  Variables rs rd rs' rd' : list string -> string -> result (list obj).
  Definition sound (l : list obj) : Prop := distinct l /\ Forall (typed T) l.
  Definition reads_near (r r' : list string -> string -> result (list obj)) : Prop :=
    forall us us' t l, T t -> Permutation us us' -> r us t = Ok l -> sound l /\ exists l', r' us' t = Ok l' /\ nlist l l'.
  Hypothesis HS : reads_near rs rs'.
  Hypothesis HD : reads_near rd rd'.

  Lemma kids_near r r' o o' f t l : reads_near r r' -> onear o o' -> T t -> kids_of r o f t = Ok l ->
    sound l /\ exists l', kids_of r' o' f t = Ok l' /\ nlist l l'.
  Proof.
    intros H N Tt E. destruct o as [o|], o' as [o'|]; try contradiction; simpl in *.
    - destruct N as (_ & _ & _ & K). specialize (K f). destruct (dget (o_kids o) f) as [us|]; [|discriminate].
      destruct (dget (o_kids o') f) as [us'|]; [|contradiction]. now apply (H us us').
    - injection E as <-. split; [split; [intros x y u []|constructor]|]. exists []. split; [reflexivity|]. exists []. split; constructor.
  Qed.
  Lemma one_sided_near o o' other n : reordered o o' -> one_sided o other n -> one_sided o' other n.
  Proof.
    intros (C & _ & _ & K) (ls & F & ->). unfold one_sided. rewrite C. clear C.
    assert (X : exists ls', Forall2 (fun (tf : string * string) l => dget (o_kids o') (snd tf) = Some l)
                 (filter (fun tf : string * string => negb (dmem other (fst tf))) (c_children (o_cls o))) ls' /\
               list_sum (map (@length string) ls) = list_sum (map (@length string) ls')).
    { induction F as [|tf l m ls E F (ls' & F' & IH)]; [exists []; split; constructor|]. specialize (K (snd tf)). rewrite E in K.
      destruct (dget (o_kids o') (snd tf)) as [l'|] eqn:G; [|contradiction]. exists (l' :: ls'). split; [now constructor|].
      cbn [map]. rewrite !list_sum_cons, (Permutation_length K). lia. }
    destruct X as (ls' & F' & E). exists ls'. auto.
  Qed.
  Lemma child_types_near so so' do do' mp n : onear so so' -> onear do do' -> child_types so do mp n -> child_types so' do' mp n.
  Proof.
    destruct so as [s|], so' as [s'|]; simpl; try tauto; destruct do as [d|], do' as [d'|]; simpl; try tauto.
    - intros A B (-> & n1 & n2 & N1 & N2 & ->). rewrite (proj1 A), (proj1 B). split; [reflexivity|]. exists n1, n2.
      repeat split; eapply one_sided_near; eauto.
    - intros A _ (-> & ->). now rewrite (proj1 A).
    - intros _ B (-> & ->). now rewrite (proj1 B).
  Qed.
  Lemma child_types_typed so do mp n : child_types so do mp n -> otyped T so -> otyped T do -> forall t f, In (t, f) mp -> T t.
  Proof.
    intros C A B t f I. destruct so as [s|], do as [d|]; simpl in C.
    - destruct C as [-> _]. apply filter_In in I as [I _]. eapply A; eauto.
    - destruct C as [-> _]. eapply A; eauto.
    - destruct C as [-> _]. eapply B; eauto.
    - destruct C.
  Qed.
  Lemma suppressed_near so so' do do' : onear so so' -> onear do do' -> suppressed flags so do <-> suppressed flags so' do'.
  Proof.
    destruct so as [s|], so' as [s'|]; simpl; try tauto; destruct do as [d|], do' as [d'|]; simpl; try tauto;
      intros A B; try rewrite (proj1 (proj2 A)); try rewrite (proj1 (proj2 B)); tauto.
  Qed.
  Lemma corresponding_near s s' d d' : reordered s s' -> reordered d d' -> corresponding s d -> corresponding s' d'.
  Proof.
    intros A B (E & (n & N1 & N2) & I). unfold corresponding. rewrite (near_type _ _ A), (near_type _ _ B), (near_short _ _ A), (near_short _ _ B), (near_ids _ _ A), (near_ids _ _ B).
    split; [exact E|]. split; [eauto|exact I].
  Qed.
  Lemma either_near so so' do do' : onear so so' -> onear do do' -> onear (either so do) (either so' do').
  Proof. destruct so as [s|], so' as [s'|]; simpl; tauto. Qed.
  Lemma onear_attrs o o' : onear o o' -> option_map get_attrs o' = option_map get_attrs o.
  Proof. destruct o, o'; simpl; try tauto. intros H. now rewrite (near_attrs _ _ H). Qed.
  Lemma with_uid_typed u l : Forall (typed T) l -> otyped T (with_uid u l).
  Proof. intros F. destruct (with_uid u l) as [o|] eqn:W; [|exact I]. apply with_uid_Some in W as [J _]. exact (proj1 (Forall_forall _ _) F o J). Qed.

  Lemma near_faithful n : forall ss ss' dd dd' es k, nlist ss ss' -> nlist dd dd' -> sound ss -> sound dd ->
    faithful flags sn dn rs rd n ss dd es k ->
    exists es', faithful flags sn dn rs' rd' n ss' dd' es' k /\ resorted_list es es' /\ Permutation (ekern es) (ekern es').
  Proof.
    induction n as [|n IH]; intros ss ss' dd dd' es k NS ND [DS TS] [DD TD] H; [destruct H|].
    destruct H as (us & vs & outs & E1 & E2 & C & F & -> & ->).
    destruct (nlist_uids _ _ _ NS E1) as (us' & E1' & PU). destruct (nlist_uids _ _ _ ND E2) as (vs' & E2' & PV).
    assert (WS : forall u, onear (with_uid u ss) (with_uid u ss')) by (intros u; eapply nlist_with; eauto).
    assert (WD : forall u, onear (with_uid u dd) (with_uid u dd')) by (intros u; eapply nlist_with; eauto).
    assert (PE : Permutation (keep_first (us ++ vs)) (keep_first (us' ++ vs'))).
    { apply NoDup_Permutation; try apply NoDup_keep_first. intros x. rewrite !In_keep_first, !in_app_iff.
      split; (intros [I|I]; [left|right]); (eapply Permutation_in; [|exact I]); auto; now symmetry. }
    destruct (Forall2_perm _ _ _ _ F PE) as (outs1 & F1 & P1).
    assert (X : exists outs', Forall2 (fun u out => pair_ok flags sn dn rs' rd' (faithful flags sn dn rs' rd' n) (with_uid u ss') (with_uid u dd') out)
                  (keep_first (us' ++ vs')) outs' /\ Forall2 out_near outs1 outs').
    { clear F PE P1. induction F1 as [|u out l outs1 P F1 IHF]; [exists []; split; constructor|]. destruct IHF as (outs' & F' & OM).
      specialize (WS u). specialize (WD u). pose proof (with_uid_typed u ss TS) as TSu. pose proof (with_uid_typed u dd TD) as TDu.
      set (so := with_uid u ss) in *. set (do := with_uid u dd) in *. set (so' := with_uid u ss') in *. set (do' := with_uid u dd') in *.
      pose proof (either_near _ _ _ _ WS WD) as EN.
      destruct P as ((o & nm & O & NM0) & P). rewrite O in EN. destruct (either so' do') as [o'|] eqn:O'; [|contradiction]. simpl in EN.
      assert (NM : get_shortname o' = Ok nm) by (now rewrite (near_short _ _ EN)).
      destruct P as [[SU ->]|[SU (e & mp & sk & kids & -> & D & CT & FK & G)]].
      - exists ((None, 1) :: outs'). split; [|constructor; [|exact OM]; repeat split; constructor]. constructor; [|exact F'].
        split; [exists o', nm; auto|]. left. split; [|reflexivity]. apply (suppressed_near _ _ _ _ WS WD); exact SU.
      - assert (TM := child_types_typed _ _ _ _ CT TSu TDu).
        assert (K : exists kids', Forall2 (fun tf (k : list elem * nat) => exists ss' dd', kids_of rs' so' (snd tf) (fst tf) = Ok ss' /\
              kids_of rd' do' (snd tf) (fst tf) = Ok dd' /\ faithful flags sn dn rs' rd' n ss' dd' (fst k) (snd k)) mp kids' /\
              resorted_list (flat_map fst kids) (flat_map fst kids') /\ list_sum (map snd kids) = list_sum (map snd kids') /\
              Permutation (ekern (flat_map fst kids)) (ekern (flat_map fst kids'))).
        { clear - FK IH TM WS WD HS HD. induction FK as [|[t f] [es k] mp kids (s1 & d1 & K1 & K2 & R) FK IHK].
          - exists []. split; [constructor|]. split; [exists []; split; constructor|]. split; [reflexivity|constructor].
          - destruct IHK as (kids' & FK' & M & SE & ES); [intros t' f' I; apply (TM t' f'); now right|]. cbn [fst snd] in *.
            assert (Tt : T t) by (apply (TM t f); now left).
            destruct (kids_near _ _ _ _ _ _ _ HS WS Tt K1) as (S1 & s1' & K1' & N1).
            destruct (kids_near _ _ _ _ _ _ _ HD WD Tt K2) as (S2 & d1' & K2' & N2).
            destruct (IH s1 s1' d1 d1' es k N1 N2 S1 S2 R) as (es' & R' & M' & ES').
            exists ((es', k) :: kids'). split; [constructor; [|exact FK']; exists s1', d1'; auto|].
            simpl flat_map. split; [now apply resorted_app|]. cbn [map snd]. rewrite !list_sum_cons, !ekern_app. split; [lia|now apply Permutation_app]. }
        destruct K as (kids' & FK' & M & SE & ES).
        destruct (grouped_exists (flat_map fst kids')) as [gs' G']; [eapply resorted_NoDup; [exact M|now apply grouped_NoDup in G]|].
        destruct D as (D1 & D2 & D3 & D4 & o1 & O1 & D5 & D6 & D7). rewrite O in O1. injection O1 as <-. rewrite NM0 in D6. injection D6 as ->.
        set (e' := mkElem (e_type e) (e_name e) (e_keys e) sn dn (e_src e) (e_dst e) gs').
        exists ((Some e', sk + list_sum (map snd kids')) :: outs'). split.
        + constructor; [|exact F']. split; [exists o', (e_name e); auto|]. right.
          split; [intros Q; apply SU; apply (suppressed_near _ _ _ _ WS WD); exact Q|].
          exists e', mp, sk, kids'. split; [reflexivity|]. split; [|split; [eapply child_types_near; eauto|split; [exact FK'|exact G']]].
          split; [reflexivity|]. split; [reflexivity|]. split; [exact (eq_trans D3 (eq_sym (onear_attrs _ _ WS)))|]. split; [exact (eq_trans D4 (eq_sym (onear_attrs _ _ WD)))|]. exists o'.
          rewrite (near_type _ _ EN), (near_ids _ _ EN). auto.
        + constructor; [|exact OM]. split; [cbn [snd]; lia|]. split.
          * cbn [fst oelems]. rewrite !ekern_one. change (own e') with (own e). constructor. change (e_kids e') with gs'.
            rewrite (ekern_tree _ _ G), (ekern_tree _ _ G'). exact ES.
          * cbn [fst]. constructor; try reflexivity; auto. exact (resorted_groups _ _ _ _ M G G'). }
    destruct X as (outs' & F' & OM). destruct (outs_near _ _ OM) as (M1 & M2 & M3).
    assert (PS : Permutation (somes outs) (somes outs1)) by now apply Permutation_flat_map.
    exists (somes outs'). split; [|split].
    - exists us', vs', outs'. split; [exact E1'|]. split; [exact E2'|]. split.
      + intros u s d S D. specialize (WS u). specialize (WD u). rewrite S in WS. rewrite D in WD.
        destruct (with_uid u ss) as [s0|] eqn:W1; [|contradiction]. destruct (with_uid u dd) as [d0|] eqn:W2; [|contradiction].
        eapply corresponding_near; [exact WS|exact WD|]. eapply C; eauto.
      + split; [exact F'|]. split; [reflexivity|].
        rewrite (list_sum_perm _ _ (Permutation_map snd P1)), M2, (Permutation_length P1), (Forall2_length' _ _ _ OM), (Permutation_length PU), (Permutation_length PV). reflexivity.
    - exists (somes outs1). auto.
    - transitivity (ekern (somes outs1)); [now apply ekern_perm|exact M3].
  Qed.
End Reorder.

(** ** Shuffled entries *)
Notation near_entry := (fun e e' : entry => fst e' = fst e /\ reordered (snd e) (snd e')).
Lemma near_filter l l' t : Forall2 near_entry l l' -> Forall2 near_entry (filter (of_type t) l) (filter (of_type t) l').
Proof.
  induction 1 as [|e e' l l' [E H] F IH]; [constructor|]. cbn [filter].
  assert (O : of_type t e' = of_type t e) by (unfold of_type; now rewrite E). rewrite O. destruct (of_type t e); [|exact IH]. constructor; [now split|exact IH].
Qed.
Lemma shuffled_all l l' t : shuffled l l' -> nlist (sall l t) (sall l' t).
Proof.
  intros (m & P & F). exists (sall m t). split; [apply Permutation_map; now apply Permutation_filter'|].
  unfold sall. induction (near_filter _ _ t F) as [|e e' x y [_ R] G IH]; constructor; auto.
Qed.
Lemma sall_entry l t o : In o (sall l t) -> exists e, In e l /\ fst (fst e) = t /\ snd e = o.
Proof. intros I. apply in_map_iff in I as (e & <- & I). apply filter_In in I as [I T]. apply String.eqb_eq in T. exists e. auto. Qed.
Lemma NoDup_fst_eq {A B} (l : list (A * B)) x y : NoDup (map fst l) -> In x l -> In y l -> fst x = fst y -> x = y.
Proof.
  induction l as [|z l IH]; intros N I J E; [destruct I|]. simpl in N. inversion N as [|? ? N1 N2]; subst.
  destruct I as [->|I], J as [->|J]; auto.
  - contradiction N1. rewrite E. now apply in_map.
  - contradiction N1. rewrite <- E. now apply in_map.
Qed.
Lemma entries_distinct l t os : own_keys l -> (forall o, In o os -> exists e : entry, In e l /\ fst (fst e) = t /\ snd e = o) -> distinct os.
Proof.
  intros [K N] H o o' u I J U V. destruct (H _ I) as (e & Ie & T & <-). destruct (H _ J) as (e' & Ie' & T' & <-).
  rewrite (K _ Ie) in U. rewrite (K _ Ie') in V. injection U as U. injection V as V.
  assert (e = e') as ->; [|apply near_refl]. apply (NoDup_fst_eq l); auto. destruct e as [[a b] c], e' as [[a' b'] c']. simpl in *. congruence.
Qed.
Lemma sget_entry l t u o : sget l t u = Ok o <-> exists e, find (fun e : entry => String.eqb u (snd (fst e))) (filter (of_type t) l) = Some e /\ snd e = o.
Proof.
  unfold sget, sfind. destruct (find _ _) as [e|]; simpl; split.
  - intros [= <-]. eauto.
  - intros (e' & [= <-] & <-). reflexivity.
  - discriminate.
  - intros (e' & E & _). discriminate.
Qed.
Lemma sget_Ok l t u o : sget l t u = Ok o -> In (t, u, o) l.
Proof.
  intros E. apply sget_entry in E as (e & F & <-). apply find_some in F as [I U]. apply filter_In in I as [I T].
  apply String.eqb_eq in U, T. destruct e as [[a b] c]. simpl in *. now subst.
Qed.
Lemma sget_In l t u o : NoDup (map fst l) -> In (t, u, o) l -> sget l t u = Ok o.
Proof.
  intros N I. unfold sget, sfind. destruct (find _ _) as [e|] eqn:F.
  - assert (E : sget l t u = Ok (snd e)) by (unfold sget, sfind; now rewrite F). apply sget_Ok in E. simpl.
    assert (X : (t, u, snd e) = (t, u, o)) by (apply (NoDup_fst_eq l); auto). now injection X as ->.
  - apply (find_none _ _ F (t, u, o)) in I as H || (assert (H := find_none _ _ F (t, u, o))). 
    assert (J : In (t, u, o) (filter (of_type t) l)) by (apply filter_In; split; [exact I|apply String.eqb_refl]).
    apply (find_none _ _ F) in J. simpl in J. now rewrite String.eqb_refl in J.
Qed.
Lemma shuffled_NoDup l l' : shuffled l l' -> NoDup (map fst l) -> NoDup (map fst l').
Proof.
  intros (m & P & F) N. assert (E : map fst l' = map fst m) by (clear - F; induction F as [|x y m l [E _] F IH]; simpl; congruence).
  rewrite E. eapply Permutation_NoDup; [apply Permutation_map; exact P|exact N].
Qed.
Lemma sget_near l l' t u o : shuffled l l' -> NoDup (map fst l) -> sget l t u = Ok o -> exists o', sget l' t u = Ok o' /\ reordered o o'.
Proof.
  intros S N E. pose proof (shuffled_NoDup _ _ S N) as N'. apply sget_Ok in E. destruct S as (m & P & F).
  eapply Permutation_in in E; [|exact P]. destruct (Forall2_in_l _ _ _ _ F E) as ([k o'] & I & K & R). simpl in *. subst k.
  exists o'. split; [now apply sget_In|exact R].
Qed.
Lemma rmapM_Ok {A B} (f : A -> result B) l : forall m, rmapM f l = Ok m <-> Forall2 (fun x y => f x = Ok y) l m.
Proof.
  induction l as [|x l IH]; intros m; simpl.
  - split; [intros [= <-]; constructor|intros F; inversion F; reflexivity].
  - destruct (f x) as [y|e] eqn:E; simpl; [|split; [discriminate|intros F; inversion F; congruence]].
    destruct (rmapM f l) as [ys|e] eqn:R; simpl.
    + split; [intros [= <-]; constructor; [exact E|now apply IH]|]. intros F. inversion F as [|a b c d G H]; subst. rewrite E in G. injection G as <-.
      apply IH in H. congruence.
    + split; [discriminate|]. intros F. inversion F as [|a b c d G H]; subst. apply IH in H. discriminate.
Qed.
Lemma sby_near l l' us us' t os : shuffled l l' -> NoDup (map fst l) -> Permutation us us' -> sby l us t = Ok os ->
  exists os', sby l' us' t = Ok os' /\ nlist os os'.
Proof.
  intros S N P E. apply rmapM_Ok in E. destruct (Forall2_perm _ _ _ _ E P) as (m & F & Q).
  assert (X : exists os', Forall2 (fun u o => sget l' t u = Ok o) us' os' /\ Forall2 reordered m os').
  { clear - F S N. induction F as [|u o us' m E F (os' & IH1 & IH2)]; [exists []; split; constructor|].
    destruct (sget_near _ _ _ _ _ S N E) as (o' & E' & R). exists (o' :: os'). split; constructor; auto. }
  destruct X as (os' & F' & R). exists os'. split; [now apply rmapM_Ok|]. exists m. auto.
Qed.
Lemma sby_entry l us t os : sby l us t = Ok os -> forall o, In o os -> exists e, In e l /\ fst (fst e) = t /\ snd e = o.
Proof.
  intros E o I. apply rmapM_Ok in E. destruct (Forall2_in_r _ _ _ _ E I) as (u & _ & G). apply sget_Ok in G. exists (t, u, o). auto.
Qed.

Section Two.
  Variables (w w' : world) (a a' : aid) (ad ad' : adapter) (l l' : list entry).
  Hypothesis H : has_entries w a ad l.
  Hypothesis H' : has_entries w' a' ad' l'.
  Hypothesis Sh : shuffled l l'.
  Hypothesis Key : own_keys l.
  Hypothesis Plain : plain_types ad l.
  Lemma near_reads os m t os' : Forall2 agrees os m -> nlist m os' -> (forall o, In o m -> exists e, In e l /\ fst (fst e) = t /\ snd e = o) ->
    forall x, Forall2 agrees x os' -> sound plainT os /\ nlist os x.
  Proof.
    intros A N E x B. split; [split|].
    - apply (nlist_distinct m); [apply nlist_agrees; now apply agrees_list_sym|]. eapply entries_distinct; eauto.
    - apply Forall_forall. intros o I. destruct (Forall2_in_l _ _ _ _ A I) as (o' & I' & G). destruct (E _ I') as (e & Ie & _ & <-).
      eapply typed_agrees; [exact G|]. eapply entries_typed; eauto.
    - eapply nlist_trans; [apply nlist_agrees; exact A|]. eapply nlist_trans; [exact N|]. apply nlist_agrees. now apply agrees_list_sym.
  Qed.
  Lemma near_all t os : plain t = true -> objs_all w a t = Ok os ->
    sound plainT os /\ exists os', objs_all w' a' t = Ok os' /\ nlist os os'.
  Proof.
    intros P E. pose proof (holds_all w a ad l t H P) as A. rewrite E in A. simpl in A.
    pose proof (holds_all w' a' ad' l' t H' P) as B. destruct (objs_all w' a' t) as [os'|]; [|contradiction]. simpl in B.
    destruct (near_reads os _ t _ A (shuffled_all _ _ t Sh) (sall_entry l t) os' B) as [X Y]. split; [exact X|]. exists os'. auto.
  Qed.
  Lemma near_by : reads_near plainT (objs_by w a) (objs_by w' a').
  Proof.
    intros us us' t os P PU E. pose proof (holds_by w a ad l us t H P) as A. rewrite E in A.
    destruct (sby l us t) as [m|] eqn:EM; [|contradiction]. simpl in A.
    destruct (sby_near _ _ _ _ _ _ Sh (proj2 Key) PU EM) as (m' & EM' & N).
    pose proof (holds_by w' a' ad' l' us' t H' P) as B. rewrite EM' in B. destruct (objs_by w' a' us' t) as [os'|]; [|contradiction]. simpl in B.
    destruct (near_reads os _ t _ A N (sby_entry l us t m EM) os' B) as [X Y]. split; [exact X|]. exists os'. auto.
  Qed.
End Two.

Lemma reorder_diff w w' n flags src dst src' dst' sa da sa' da' ls ld ls' ld' gs k :
  has_entries w src sa ls -> has_entries w dst da ld -> has_entries w' src' sa' ls' -> has_entries w' dst' da' ld' ->
  ad_name sa' = ad_name sa -> ad_name da' = ad_name da ->
  NoDup (ad_top sa) -> NoDup (ad_top da) -> Permutation (ad_top sa) (ad_top sa') -> Permutation (ad_top da) (ad_top da') ->
  shuffled ls ls' -> shuffled ld ld' -> own_keys ls -> own_keys ld -> plain_types sa ls -> plain_types da ld ->
  faithful_diff flags n w src dst sa da gs k ->
  exists gs', faithful_diff flags n w' src' dst' sa' da' gs' k /\ resorted_tree gs gs' /\ Permutation (map own (tree_all gs)) (map own (tree_all gs')).
Proof.
  intros HS HD HS' HD' N1 N2 NS ND PT PD SS SD KS KD PS PDD (lone & others & per & A1 & A2 & A3 & F & G & ->).
  assert (TS : forall t, In t (ad_top sa') <-> In t (ad_top sa)) by (intros t; split; apply Permutation_in; auto; now symmetry).
  assert (TD : forall t, In t (ad_top da') <-> In t (ad_top da)) by (intros t; split; apply Permutation_in; auto; now symmetry).
  assert (MD : forall t, smem t (ad_top da') = smem t (ad_top da)) by (intros t; apply eq_true_iff_eq; now rewrite !smem_In).
  assert (PE : Permutation (filter (fun t => smem t (ad_top sa)) (ad_top da)) (filter (fun t => smem t (ad_top sa')) (ad_top da'))).
  { apply NoDup_Permutation; try apply NoDup_filter; auto; [eapply Permutation_NoDup; eauto|]. intros x. rewrite !filter_In, !smem_In. now rewrite TS, TD. }
  destruct (Forall2_perm _ _ _ _ F PE) as (per1 & F1 & P1).
  assert (PL : forall t, In t (filter (fun t => smem t (ad_top sa')) (ad_top da')) -> plain t = true).
  { intros t I. apply filter_In in I as [I _]. apply PDD. now apply TD. }
  assert (X : exists per', Forall2 (fun t (k : list elem * nat) => exists ss dd, objs_all w' src' t = Ok ss /\ objs_all w' dst' t = Ok dd /\
      faithful flags (ad_name sa') (ad_name da') (objs_by w' src') (objs_by w' dst') n ss dd (fst k) (snd k))
      (filter (fun t => smem t (ad_top sa')) (ad_top da')) per' /\ resorted_list (flat_map fst per1) (flat_map fst per') /\
      list_sum (map snd per1) = list_sum (map snd per') /\ Permutation (ekern (flat_map fst per1)) (ekern (flat_map fst per'))).
  { clear F PE P1. revert PL. induction F1 as [|t [es k] l per1 (ss & dd & B1 & B2 & R) F1 IH]; intros PL.
    - exists []. split; [constructor|]. split; [exists []; split; constructor|]. split; [reflexivity|constructor].
    - destruct IH as (per' & F' & M & SE & ES); [intros x I; apply PL; now right|]. simpl in R.
      assert (P : plain t = true) by (apply PL; now left).
      destruct (near_all w w' src src' sa sa' ls ls' HS HS' SS KS PS t ss P B1) as (S1 & ss' & B1' & M1).
      destruct (near_all w w' dst dst' da da' ld ld' HD HD' SD KD PDD t dd P B2) as (S2 & dd' & B2' & M2).
      destruct (near_faithful plainT flags (ad_name sa) (ad_name da) (objs_by w src) (objs_by w dst) (objs_by w' src') (objs_by w' dst')
                  (near_by w w' src src' sa sa' ls ls' HS HS' SS KS PS) (near_by w w' dst dst' da da' ld ld' HD HD' SD KD PDD)
                  n ss ss' dd dd' es k M1 M2 S1 S2 R) as (es' & R' & M' & ES').
      exists ((es', k) :: per'). split; [constructor; [|exact F']; exists ss', dd'; rewrite N1, N2; auto|].
      simpl flat_map. split; [now apply resorted_app|]. cbn [map snd]. rewrite !list_sum_cons, !ekern_app. split; [lia|now apply Permutation_app]. }
  destruct X as (per' & F' & M & SE & ES).
  assert (M' : resorted_list (flat_map fst per) (flat_map fst per')).
  { destruct M as (l & P & FM). exists l. split; [|exact FM]. transitivity (flat_map fst per1); [now apply Permutation_flat_map|exact P]. }
  destruct (grouped_exists (flat_map fst per')) as [gs' G']; [eapply resorted_NoDup; [exact M'|now apply grouped_NoDup in G]|].
  exists gs'. split; [|split].
  - exists lone, others, per'. split; [exact A1|]. split; [intros t; now rewrite A2, TS, TD|]. split.
    + assert (L : forall t, In t lone -> plain t = true).
      { intros t I. apply A2 in I as [[I _]|[I _]]; [now apply PS|now apply PDD]. }
      clear - A3 L MD HS HS' HD HD' SS SD KS KD PS PDD. induction A3 as [|t m l others (x & -> & E) F IH]; constructor.
      * rewrite MD. assert (P : plain t = true) by (apply L; now left). destruct (smem t (ad_top da)).
        -- destruct (near_all w w' dst dst' da da' ld ld' HD HD' SD KD PDD t x P E) as (_ & x' & E' & N). exists x'. split; [now apply nlist_length|exact E'].
        -- destruct (near_all w w' src src' sa sa' ls ls' HS HS' SS KS PS t x P E) as (_ & x' & E' & N). exists x'. split; [now apply nlist_length|exact E'].
      * apply IH. intros t' I. apply L. now right.
    + split; [exact F'|]. split; [exact G'|]. rewrite <- SE, (list_sum_perm _ _ (Permutation_map snd P1)). reflexivity.
  - exact (resorted_groups _ _ _ _ M' G G').
  - rewrite (ekern_tree _ _ G), (ekern_tree _ _ G'), <- ES. apply ekern_perm. now apply Permutation_flat_map.
Qed.
Lemma perm_own {A} (l m : list elem) (g : elem -> A) (h : _ -> A) : (forall e, g e = h (own e)) ->
  Permutation (map own l) (map own m) -> Permutation (map g l) (map g m).
Proof.
  intros E P. assert (X : forall l, map g l = map h (map own l)) by (intros k; rewrite map_map; apply map_ext, E).
  rewrite !X. now apply Permutation_map.
Qed.
Definition own_action (x : option (dict val) * option (dict val)) : option action := attrs_action (fst x) (snd x).
Lemma how_many_own a (l m : list elem) : Permutation (map own l) (map own m) -> how_many (is_action a) l = how_many (is_action a) m.
Proof.
  intros P. apply (perm_own l m (is_action a) (fun x => is_action a (mkElem "" "" [] "" "" (fst x) (snd x) []))) in P; [|intros e; reflexivity].
  assert (X : forall k, how_many (is_action a) k = how_many (fun b : bool => b) (map (is_action a) k)).
  { intros k. unfold how_many. induction k as [|e k IH]; simpl; [reflexivity|]. destruct (is_action a e); simpl; now rewrite IH. }
  rewrite !X. unfold how_many. apply Permutation_length. now apply Permutation_filter'.
Qed.
Lemma same_counts d d' : yields_once (dc_order (d_class d)) -> d_class d' = d_class d -> d_processed d' = d_processed d ->
  Permutation (map own (tree_all (d_groups d))) (map own (tree_all (d_groups d'))) ->
  diff_counts d' = diff_counts d /\ diff_skip d' = diff_skip d /\ diff_has_diffs d' = diff_has_diffs d.
Proof.
  intros Y C P H. destruct (len_summary d Y) as (_ & _ & A1 & A2 & A3 & A4).
  assert (Y' : yields_once (dc_order (d_class d'))) by now rewrite C.
  destruct (len_summary d' Y') as (_ & _ & B1 & B2 & B3 & B4).
  rewrite <- !(how_many_own _ _ _ H) in *.
  assert (X : diff_counts d' = diff_counts d) by (destruct (diff_counts d), (diff_counts d'); simpl in *; congruence).
  split; [exact X|]. split; [unfold diff_skip; now rewrite X, P|].
  destruct (has_diffs_agree d 0 (yields_once_all _ Y)) as (_ & Z & _). destruct (has_diffs_agree d' 0 (yields_once_all _ Y')) as (_ & Z' & _).
  rewrite X in Z'. apply eq_true_iff_eq. tauto.
Qed.
Lemma diff_from_reorder w w' n flags dc cb cb' src dst src' dst' sa da sa' da' ls ld ls' ld' d : w_ok w -> w_ok w' ->
  has_entries w src sa ls -> has_entries w dst da ld -> has_entries w' src' sa' ls' -> has_entries w' dst' da' ld' ->
  ad_name sa' = ad_name sa -> ad_name da' = ad_name da ->
  NoDup (ad_top sa) -> NoDup (ad_top da) -> Permutation (ad_top sa) (ad_top sa') -> Permutation (ad_top da) (ad_top da') ->
  shuffled ls ls' -> shuffled ld ld' -> own_keys ls -> own_keys ld -> plain_types sa ls -> plain_types da ld ->
  snd (diff_from n dst src dc flags cb w) = Ok d ->
  exists d', snd (diff_from n dst' src' dc flags cb' w') = Ok d' /\
    resorted_tree (d_groups d) (d_groups d') /\ d_class d' = d_class d /\ d_processed d' = d_processed d /\
    (yields_once (dc_order dc) -> diff_counts d' = diff_counts d /\ diff_skip d' = diff_skip d /\ diff_has_diffs d' = diff_has_diffs d).
Proof.
  intros OK OK' HS HD HS' HD' N1 N2 NS ND PT PD SS SD KS KD PS PDD E.
  apply (diff_from_iff _ _ _ _ _ _ _ _ _ OK (proj1 HS) (proj1 HD)) in E as (k & F & C & PR).
  destruct (reorder_diff w w' n flags src dst src' dst' sa da sa' da' ls ld ls' ld' _ k HS HD HS' HD' N1 N2 NS ND PT PD SS SD KS KD PS PDD F) as (gs' & F' & R & ES).
  assert (E : snd (diff_from n dst' src' dc flags cb' w') = Ok (mkDiff dc gs' (tree_sides gs' + k))).
  { apply (diff_from_iff _ _ _ _ _ _ _ _ _ OK' (proj1 HS') (proj1 HD')). exists k. auto. }
  assert (SI : tree_sides gs' = tree_sides (d_groups d)) by (unfold tree_sides; symmetry; apply list_sum_perm, (perm_own _ _ sides (fun x => (match fst x with Some _ => 1 | None => 0 end) + (match snd x with Some _ => 1 | None => 0 end))); [reflexivity|exact ES]).
  exists (mkDiff dc gs' (tree_sides gs' + k)). split; [exact E|]. split; [exact R|]. split; [now rewrite C|]. split; [simpl; lia|].
  intros Y. eapply same_counts; simpl; auto; [now rewrite C|lia].
Qed.
