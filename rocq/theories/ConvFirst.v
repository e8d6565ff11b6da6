(** * ConvFirst: comparable adapters can be compared. *)
From Verif Require Export ConvEnd.

Lemma somes_NoDup (P : string -> option elem * nat -> Prop) us outs : Forall2 P us outs -> NoDup us ->
  (forall u u' x x' k k', In u us -> In u' us -> P u (Some x, k) -> P u' (Some x', k') -> tagged x = tagged x' -> u = u') -> NoDup (map tagged (somes outs)).
Proof.
  induction 1 as [|u [ox k] us outs HP F IH]; intros ND INJ; [constructor|]. inversion ND as [|? ? N1 N2]; subst.
  assert (IH' : NoDup (map tagged (somes outs))).
  { apply IH; [exact N2|]. intros u1 u2 x x' k1 k2 I1 I2. apply INJ; now right. }
  destruct ox as [x|]; cbn [somes flat_map fst app map]; [|exact IH']. constructor; [|exact IH'].
  intros I. apply in_map_iff in I as (x' & T & I). apply In_somes in I as (k' & I). destruct (Forall2_in_r _ _ _ _ F I) as (u' & Iu & PU).
  apply N1. rewrite (INJ u u' x x' k k' (or_introl eq_refl) (or_intror Iu) HP PU (eq_sym T)). exact Iu.
Qed.
Lemma keep_first_NoDup l : NoDup (keep_first l).
Proof.
  induction l as [|x l IH]; [constructor|]. cbn [keep_first]. constructor; [|now apply NoDup_filter].
  intros I. apply filter_In in I as (_ & E). now rewrite String.eqb_refl in E.
Qed.
Lemma tagged_types (T : list string) (per : list (list elem * nat)) : NoDup T ->
  Forall2 (fun t k => NoDup (map tagged (fst k)) /\ forall x, In x (fst k) -> e_type x = t) T per -> NoDup (map tagged (flat_map fst per)).
Proof.
  intros ND F. induction F as [|t k T per (N & E) F IH]; [constructor|]. inversion ND as [|? ? N1 N2]; subst. cbn [flat_map]. rewrite map_app.
  specialize (IH N2). assert (DJ : forall y, In y (map tagged (fst k)) -> ~ In y (map tagged (flat_map fst per))).
  { intros y I J. apply in_map_iff in I as (x & <- & I). apply in_map_iff in J as (x' & TX & J). apply in_flat_map in J as (k' & K & J).
    destruct (Forall2_in_r _ _ _ _ F K) as (t' & It & _ & E'). specialize (E x I). specialize (E' x' J). unfold tagged in TX. injection TX as TX _. congruence. }
  clear - N IH DJ. induction (map tagged (fst k)) as [|y l IHl]; [exact IH|]. inversion N; subst. simpl. constructor.
  - intros I. apply in_app_iff in I as [I|I]; [contradiction|]. apply (DJ y); [now left|exact I].
  - apply IHl; [assumption|]. intros z I. apply DJ. now right.
Qed.

Section First.
  Variables (flags : N) (env : senv) (w : world) (sa da : adapter) (sn dn : string).
  Notation src := (sv_src env).
  Notation dst := (sv_dst env).
  Notation fuel := (sv_fuel env).
  Hypothesis AL : alike w fuel src dst sa da.
  Hypothesis CM : comparable w fuel src dst sa da.
  Notation rs := (objs_by w src).
  Notation rd := (objs_by w dst).
  Notation pos := (ConvTree.pos flags env w sa da).
  Notation faith := (faithful flags sn dn rs rd).
  Notation ctx := (ConvFits.ctx flags env w sa da).

  Lemma pos_line n : forall k so do, pos n k so do -> (so <> None -> line w src n k) /\ (do <> None -> line w dst n k).
  Proof.
    induction n as [|n IH]; intros k so do H; [simpl; auto|].
    destruct (pos_parent _ _ _ _ _ AL _ _ _ _ H) as (p & so' & do' & HP & _ & _ & LS & LD & _). destruct (IH _ _ _ HP) as (L1 & L2).
    destruct (pos_key _ _ _ _ _ AL _ _ _ _ HP) as (KS & KD). split; intros N.
    - destruct so as [s|]; [|congruence]. destruct (LS s eq_refl) as (s' & -> & LI). destruct (KS s' eq_refl) as (R & K). exists p.
      split; [exists s'; auto|]. apply L1. discriminate.
    - destruct do as [d|]; [|congruence]. destruct (LD d eq_refl) as (d' & -> & LI). destruct (KD d' eq_refl) as (R & K). exists p.
      split; [exists d'; auto|]. apply L2. discriminate.
  Qed.
  Lemma line_less a n m k : line w a n k -> m <= n -> exists k', line w a m k'.
  Proof.
    revert m k. induction n as [|n IH]; intros m k L LE; [exists k; now replace m with 0 by lia|].
    destruct (Nat.eq_dec m (S n)) as [->|NE]; [eauto|]. destruct L as (p & _ & L). apply (IH m p L). lia.
  Qed.
  Lemma pos_depth n k so do : pos n k so do -> n < fuel - 1.
  Proof.
    intros H. destruct (pos_line _ _ _ _ H) as (L1 & L2). pose proof (pos_some _ _ _ _ _ _ _ _ _ H) as NN.
    destruct (Nat.lt_ge_cases n (fuel - 1)) as [G|G]; [exact G|]. exfalso.
    destruct so as [s|]; [|destruct do as [d|]; [|now elim NN]].
    - destruct (line_less src n (fuel - 1) k) as (k' & L); [apply L1; discriminate|exact G|]. exact (cm_depth _ _ _ _ _ _ CM src k' (or_introl eq_refl) L).
    - destruct (line_less dst n (fuel - 1) k) as (k' & L); [apply L2; discriminate|exact G|]. exact (cm_depth _ _ _ _ _ _ CM dst k' (or_intror eq_refl) L).
  Qed.
  Lemma uids a l : (a = src \/ a = dst) -> (forall o, In o l -> read w a o) -> exists us, map get_unique_id l = map Ok us.
  Proof.
    intros A. induction l as [|o l IH]; intros R; [now exists []|]. destruct IH as (us & E); [intros x I; apply R; now right|].
    destruct (proj1 (cm_named _ _ _ _ _ _ CM o ltac:(destruct A as [->| ->]; [left|right]; apply R; now left))) as (u & U).
    exists (u :: us). simpl. now rewrite U, E.
  Qed.
  Lemma dst_kids o t f us : read w dst o -> In (t, f) (c_children (o_cls o)) -> dget (o_kids o) f = Some us -> exists l, rd us t = Ok l.
  Proof.
    intros R IF G. destruct (pick_F2 (fun u o => exists r, lookup w dst t u = Some r /\ nth_error (w_heap w) r = Some o) us) as (l & F).
    - intros u I. destruct (read_dst env w sa da AL o R) as (p & _ & K & _).
      pose proof (cp_closed _ _ _ (al_dcomplete _ _ _ _ _ _ AL) p (t, u)) as C. cbn [fst snd] in C.
      destruct (lookup w dst t u) as [r|] eqn:L.
      + destruct (al_keyed _ _ _ _ _ _ AL _ _ _ L) as (o' & H' & _). exists o', r. auto.
      + exfalso. apply C; [|reflexivity]. exists o. split; [exact R|]. split; [exact K|]. exists f, us. auto.
    - exists l. apply local_by; [|exact F]. destruct (al_local _ _ _ _ _ _ AL) as (ad & d & A & B & _). eauto.
  Qed.
  Lemma kids_there a o t f : (a = src \/ a = dst) -> (forall x, o = Some x -> read w a x /\ In (t, f) (c_children (o_cls x))) ->
    exists l, kids_of (objs_by w a) o f t = Ok l.
  Proof.
    intros A H. destruct o as [x|]; [|now exists []]. destruct (H x eq_refl) as (R & I). simpl.
    pose proof (cm_lists _ _ _ _ _ _ CM x t f ltac:(destruct A as [->| ->]; auto) I) as N. destruct (dget (o_kids x) f) as [us|] eqn:G; [|congruence].
    destruct A as [->| ->]; [eapply (cm_kids _ _ _ _ _ _ CM); eauto|eapply dst_kids; eauto].
  Qed.

  Definition place (t : string) (ss dd : list obj) : Prop :=
    (In t (ad_top sa) /\ In t (ad_top da)) \/ exists p, forall u, either (with_uid u ss) (with_uid u dd) <> None -> pr env w p (t, u).

  Lemma first m : forall n t ss dd, m + n = fuel -> m <> 0 -> ctx n t ss dd -> (forall o, In o ss -> read w src o) -> (forall o, In o dd -> read w dst o) ->
    place t ss dd -> exists es sk, faith m ss dd es sk /\ NoDup (map tagged es) /\ forall x, In x es -> e_type x = t.
  Proof.
    induction m as [|m IH]; intros n t ss dd EQ NZ CX RS RD PL; [congruence|].
    destruct (uids src ss (or_introl eq_refl) RS) as (us & U1). destruct (uids dst dd (or_intror eq_refl) RD) as (vs & U2).
    destruct (pick_F2 (fun u out => either (with_uid u ss) (with_uid u dd) <> None /\ pair_ok flags sn dn rs rd (faith m) (with_uid u ss) (with_uid u dd) out /\
        forall x, fst out = Some x -> describes sn dn x (with_uid u ss) (with_uid u dd)) (keep_first (us ++ vs))) as (outs & F).
    { intros u I. apply (pair_at_In _ _ _ _ _ U1 U2) in I. pose proof (CX u I) as HP.
      destruct (pos_key _ _ _ _ _ AL _ _ _ _ HP) as (KS & KD). destruct (pos_class _ _ _ _ _ AL _ _ _ _ HP) as (c & C1 & C2 & C3 & C4).
      set (so := with_uid u ss) in *. set (do := with_uid u dd) in *. clearbody so do.
      assert (EO : exists o, either so do = Some o /\ (so = Some o \/ do = Some o)).
      { destruct so as [s|]; [exists s; auto|]. destruct do as [d|]; [exists d; auto|exfalso; apply I; reflexivity]. }
      destruct EO as (o & EO & OO).
      assert (RO : read w src o \/ read w dst o) by (destruct OO as [X|X]; [left; now apply KS|right; now apply KD]).
      destruct (proj2 (cm_named _ _ _ _ _ _ CM o RO)) as (nm & NM).
      destruct (suppressed_dec flags so do) as [SU|NS].
      - exists (None, 1). split; [exact I|]. split; [|discriminate]. split; [exists o, nm; auto|]. left. auto.
      - assert (CT : child_types so do (c_children c) 0).
        { destruct so as [s|], do as [d|]; try (now elim I).
          - apply types_same; apply C4; auto.
          - destruct (C4 s (or_introl eq_refl)) as (_ & _ & _ & ->). split; reflexivity.
          - destruct (C4 d (or_intror eq_refl)) as (_ & _ & _ & ->). split; reflexivity. }
        assert (CC : forall x, so = Some x \/ do = Some x -> c_children (o_cls x) = c_children c).
        { intros x X. now destruct (C4 x X) as (_ & _ & _ & ->). }
        pose proof (pos_depth _ _ _ _ HP) as DP.
        destruct (pick_F2 (fun (tf : string * string) (k : list elem * nat) => (exists ss' dd', kids_of rs so (snd tf) (fst tf) = Ok ss' /\
              kids_of rd do (snd tf) (fst tf) = Ok dd' /\ faith m ss' dd' (fst k) (snd k)) /\ NoDup (map tagged (fst k)) /\ forall x, In x (fst k) -> e_type x = fst tf) (c_children c)) as (kids & FK).
        { intros [t' f] IT. destruct (kids_there src so t' f (or_introl eq_refl)) as (ss' & K1).
          { intros x ->. rewrite CC by auto. split; [now apply KS|exact IT]. }
          destruct (kids_there dst do t' f (or_intror eq_refl)) as (dd' & K2).
          { intros x ->. rewrite CC by auto. split; [now apply KD|exact IT]. }
          destruct (IH (S n) t' ss' dd') as (es' & sk' & A1 & A2 & A3); [lia|lia| | | | |].
          - eapply kid_ctx; eauto.
          - intros x X. eapply (kids_read w src); eauto.
          - intros x X. eapply (kids_read w dst); eauto.
          - right. exists (t, u). intros v NN. eapply (kid_facts _ _ _ _ _ AL); eauto.
          - exists (es', sk'). cbn [fst snd]. split; [|split; assumption]. exists ss', dd'. auto. }
        destruct (grouped_exists (flat_map fst kids)) as (gs & G).
        { apply (tagged_types (dkeys (c_children c))); [apply (cr_types _ C3)|]. unfold dkeys. clear - FK. induction FK as [|tf k l kids (_ & A & B) F IHF]; constructor; auto. }
        set (e := mkElem (get_type o) nm (get_identifiers o) sn dn (option_map get_attrs so) (option_map get_attrs do) gs).
        assert (D : describes sn dn e so do).
        { repeat (split; [reflexivity|]). exists o. split; [exact EO|]. split; [reflexivity|]. split; [exact NM|reflexivity]. }
        exists (Some e, 0 + list_sum (map snd kids)). split; [exact I|]. split.
        + split; [exists o, nm; auto|]. right. split; [exact NS|]. exists e, (c_children c), 0, kids. split; [reflexivity|]. split; [exact D|]. split; [exact CT|]. split; [|exact G].
          eapply Forall2_if; [|exact FK]. cbv beta. intros tf k (X & _). exact X.
        + intros x X. injection X as <-. exact D. }
    exists (somes outs). eexists. split; [|split].
    - exists us, vs, outs. split; [exact U1|]. split; [exact U2|]. split; [|split; [|split; reflexivity]].
      + intros u s d W1 W2. assert (NN : either (with_uid u ss) (with_uid u dd) <> None) by (rewrite W1; discriminate).
        pose proof (CX u NN) as HP. destruct (pos_key _ _ _ _ _ AL _ _ _ _ HP) as (KS & KD). destruct (KS s W1) as (R1 & K1). destruct (KD d W2) as (R2 & K2).
        destruct (cm_same _ _ _ _ _ _ CM s d _ R1 R2 K1 K2) as (SN & ID). destruct (proj2 (cm_named _ _ _ _ _ _ CM s (or_introl R1))) as (nm & NM).
        split; [destruct K1, K2; congruence|]. split; [exists nm; split; congruence|exact ID].
      + eapply Forall2_if; [|exact F]. cbv beta. intros u out (_ & X & _). exact X.
    - eapply somes_NoDup; [exact F|apply keep_first_NoDup|]. cbv beta. intros u u' x x' k k' _ _ (N1 & _ & D1) (N2 & _ & D2) T.
      specialize (D1 x eq_refl). specialize (D2 x' eq_refl). pose proof (CX u N1) as P1. pose proof (CX u' N2) as P2.
      destruct (pos_key _ _ _ _ _ AL _ _ _ _ P1) as (KS & KD). destruct (pos_key _ _ _ _ _ AL _ _ _ _ P2) as (KS' & KD').
      destruct D1 as (_ & _ & _ & _ & o & EO & ET & SN & _). destruct D2 as (_ & _ & _ & _ & o' & EO' & ET' & SN' & _).
      assert (RK : (read w src o \/ read w dst o) /\ is_key o (t, u)).
      { destruct (with_uid u ss) as [s|]; simpl in EO; [injection EO as <-; destruct (KS s eq_refl); auto|destruct (KD o EO); auto]. }
      assert (RK' : (read w src o' \/ read w dst o') /\ is_key o' (t, u')).
      { destruct (with_uid u' ss) as [s|]; simpl in EO'; [injection EO' as <-; destruct (KS' s eq_refl); auto|destruct (KD' o' EO'); auto]. }
      destruct RK as (R & K). destruct RK' as (R' & K'). unfold tagged in T. injection T as T1 T2.
      assert (X : (t, u) = (t, u')); [|congruence].
      apply (cm_siblings _ _ _ _ _ _ CM o o' _ _ R R' K K' eq_refl); [congruence|]. destruct PL as [PL|(p & PL)]; [now left|].
      right. exists p. split; [exact (PL u N1)|exact (PL u' N2)].
    - intros x I. apply In_somes in I as (k & I). destruct (Forall2_in_r _ _ _ _ F I) as (u & _ & N & _ & D). specialize (D x eq_refl).
      pose proof (CX u N) as P1. destruct (pos_key _ _ _ _ _ AL _ _ _ _ P1) as (KS & KD). destruct D as (_ & _ & _ & _ & o & EO & ET & _).
      rewrite ET. destruct (with_uid u ss) as [s|]; simpl in EO; [injection EO as <-; now destruct (KS s eq_refl) as (_ & X & _)|now destruct (KD o EO) as (_ & X & _)].
  Qed.
End First.

(** ** The first comparison *)
Lemma NoDup_keys_lone (l m : list string) : exists lone, NoDup lone /\ forall t, In t lone <-> (In t l /\ ~ In t m) \/ (In t m /\ ~ In t l).
Proof.
  exists (keep_first (filter (fun t => negb (smem t m)) l ++ filter (fun t => negb (smem t l)) m)). split; [apply keep_first_NoDup|].
  intros t. rewrite In_keep_first, in_app_iff, !filter_In.
  assert (X : forall k, negb (smem t k) = true <-> ~ In t k).
  { intros k. rewrite <- (smem_In t k). destruct (smem t k); simpl; intuition congruence. }
  rewrite (X m), (X l). tauto.
Qed.
Lemma compares fuel dst src dc flags cb w sa da : alike w fuel src dst sa da -> comparable w fuel src dst sa da ->
  exists d, snd (diff_from fuel dst src dc flags cb w) = Ok d.
Proof.
  intros AL CM. set (env := mkSEnv src dst 0%N 0 false (fun _ _ => default_outcome) fuel).
  assert (AL' : alike w (sv_fuel env) (sv_src env) (sv_dst env) sa da) by exact AL.
  assert (CM' : comparable w (sv_fuel env) (sv_src env) (sv_dst env) sa da) by exact CM.
  assert (FP : fuel <> 0) by (intros ->; now apply (al_limit _ _ _ _ _ _ AL ("", "")%string)).
  destruct (al_local _ _ _ _ _ _ AL) as (ad & b & A & B & _).
  destruct (NoDup_keys_lone (ad_top sa) (ad_top da)) as (lone & NL & IL).
  destruct (pick_F2 (fun t n => exists l, n = length l /\ objs_all w (if smem t (ad_top da) then dst else src) t = Ok l) lone) as (others & FL).
  { intros t I. destruct (smem t (ad_top da)) eqn:E.
    - destruct (all_reads w dst ad b t (al_refs _ _ _ _ _ _ AL) A B) as (l & R). eauto.
    - apply IL in I as [(I & _)|(I & _)]; [destruct (cm_tops _ _ _ _ _ _ CM t I) as (l & R); eauto|]. apply smem_In in I. congruence. }
  destruct (pick_F2 (fun t (k : list elem * nat) => (exists ss dd, objs_all w src t = Ok ss /\ objs_all w dst t = Ok dd /\
      faithful flags (ad_name sa) (ad_name da) (objs_by w src) (objs_by w dst) fuel ss dd (fst k) (snd k)) /\
      NoDup (map tagged (fst k)) /\ forall x, In x (fst k) -> e_type x = t) (filter (fun t => smem t (ad_top sa)) (ad_top da))) as (per & F).
  { intros t I. apply filter_In in I as (I2 & I1). apply smem_In in I1. destruct (cm_tops _ _ _ _ _ _ CM t I1) as (ss & R1).
    destruct (all_reads w dst ad b t (al_refs _ _ _ _ _ _ AL) A B) as (dd & R2).
    destruct (first flags env w sa da (ad_name sa) (ad_name da) AL' CM' fuel 0 t ss dd) as (es & sk & X1 & X2 & X3); auto.
    - intros u NN. eapply pos_top; eauto. repeat split; assumption.
    - intros o I. exists t, ss. auto.
    - intros o I. exists t, dd. auto.
    - left. auto.
    - exists (es, sk). split; [|auto]. exists ss, dd. auto. }
  destruct (grouped_exists (flat_map fst per)) as (gs & G).
  { apply (tagged_types (filter (fun t => smem t (ad_top sa)) (ad_top da))); [apply NoDup_filter, (al_tops _ _ _ _ _ _ AL)|].
    eapply Forall2_if; [|exact F]. cbv beta. intros t k (_ & X). exact X. }
  exists (mkDiff dc gs (tree_sides gs + (list_sum others + list_sum (map snd per)))).
  apply (diff_from_iff fuel dst src dc flags cb w sa da); [apply AL|apply AL|apply AL|]. eexists. split; [|split; reflexivity]. cbn [d_groups].
  exists lone, others, per. split; [exact NL|]. split; [exact IL|]. split; [exact FL|]. split; [|split; [exact G|reflexivity]].
  eapply Forall2_if; [|exact F]. cbv beta. intros t k (X & _). exact X.
Qed.

Lemma converges_all fuel h dst src dc flags cb w sa da : alike w fuel src dst sa da -> comparable w fuel src dst sa da ->
  hooks_succeed h -> spares_attributes da h -> yields_once (dc_order dc) -> exists w' d, sync_from fuel h dst src dc flags cb None w = (w', Ok d) /\ forall dc' cb',
    exists d', snd (diff_from fuel dst src dc' flags cb' w') = Ok d' /\ forall x, occurs x (d_groups d') -> e_action x = None.
Proof.
  intros AL CM HK SP YO. destruct (compares fuel dst src dc flags cb w sa da AL CM) as (d & D). pose proof D as D'.
  apply (diff_from_iff fuel dst src dc flags cb w sa da) in D' as (_ & _ & DC & _); try apply AL.
  destruct (converges fuel h dst src dc dc flags flags cb cb None w d sa da AL HK SP D) as (w' & E & H).
  - now rewrite DC.
  - right. split; [now left|exact D].
  - exists w', d. auto.
Qed.
