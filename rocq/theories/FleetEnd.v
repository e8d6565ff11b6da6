(** * FleetEnd: sequences of synchronisations. *)
From Verif Require Export FleetFacts AgreeFacts SyncFrom.

Lemma carries_keep w w' a cs rows : local_ok w' a -> (forall t u, lookup w' a t u = lookup w a t u) ->
  (forall t u r, lookup w a t u = Some r -> nth_error (w_heap w') r = nth_error (w_heap w) r) -> carries w a cs rows -> carries w' a cs rows.
Proof.
  intros LO L H [_ R O]. split; [exact LO| |].
  - intros x I. destruct (R x I) as (r & o & A & B & C). exists r, o. rewrite L, (H _ _ _ A). auto.
  - intros k N. apply O. now rewrite <- L.
Qed.
Lemma local_no_redis w a i : local_ok w a -> ~ on_redis w a i.
Proof. intros (ad & d & A & B & _) (ad' & A' & B'). congruence. Qed.
Lemma share_local w a b : local_ok w a -> (forall t u r, lookup w a t u = Some r -> forall t' u', lookup w b t' u' = Some r -> False) -> local_ok w b -> share_nothing w a b.
Proof.
  intros LA H LB. split.
  - intros r HA HB. apply (lookup_holds w a r LA) in HA as (t & u & L). apply (lookup_holds w b r LB) in HB as (t' & u' & L'). eauto.
  - intros i j R _. now apply (local_no_redis w a i) in R.
Qed.
Lemma local_ext w w' a ad s' : local_ok w a -> nth_error (w_ads w) a = Some ad -> nth_error (w_ads w') a = Some (set_ad_store ad s') -> store_ext (ad_store ad) s' -> local_ok w' a.
Proof.
  intros (ad0 & d & A & B & N1 & N2) A0 A' SE. assert (ad0 = ad) by congruence. subst ad0. rewrite B in SE. destruct s' as [d'|]; [|destruct SE]. destruct SE as (nm & -> & N3).
  exists (set_ad_store ad (SLocal (d ++ map (fun m => (m, [])) nm))), (d ++ map (fun m => (m, [])) nm). split; [exact A'|]. split; [reflexivity|]. split; [auto|].
  intros m b I. apply in_app_iff in I as [I|I]; [eauto|]. apply in_map_iff in I as (m' & E & _). injection E as <- <-. constructor.
Qed.
Lemma ok_ref w a t u r : w_ok w -> local_ok w a -> lookup w a t u = Some r -> r < length (w_heap w).
Proof.
  intros OK (ad & d & A & B & N1 & N2) L. unfold lookup in L. rewrite A, B in L. unfold bucket in L. destruct (dget d t) as [b|] eqn:G; [|discriminate].
  apply dget_Some_In in G, L. eapply OK; eauto.
Qed.

(** two adapters that carry the same hold the same *)
Lemma carries_copy w a b cs tops rows : dataset cs tops rows -> proper_values cs rows -> carries w a cs rows -> carries w b cs rows -> holds_copy w a w b.
Proof.
  intros DS PV CA CB. split.
  - intros s k R IK. destruct (ca_read w a cs rows CA s R) as (x & I & M). pose proof (ca_key cs rows tops DS s x k I M IK) as <-.
    destruct (ca_object w b cs rows tops CB DS x I) as (o & R' & M'). exists o. split; [exact R'|]. split; [exact (ca_is cs rows tops DS x o I M')|].
    destruct M as (c & D & T & (SI & SS & SF & SC) & _ & N & VI & VA & MK). destruct M' as (c' & D' & T' & (SI' & SS' & SF' & SC') & _ & N' & VI' & VA' & MK'). rewrite D in D'. injection D' as <-.
    split; [congruence|]. split; [repeat split; congruence|]. split; [|split].
    + apply ids_agree; auto; [congruence| |]; rewrite SI; intros f If; [now rewrite VI, VI'|]. rewrite (VI f If). apply (PV x c f I D). apply in_app_iff. now left.
    + intros f If. rewrite SF in If. destruct (VA f If) as (v & v1 & E & E1 & Q). destruct (VA' f If) as (v' & v2 & E' & E2 & Q'). rewrite E in E'. injection E' as <-. exists v1, v2.
      split; [exact E1|]. split; [exact E2|]. rewrite py_eq_sym in Q. exact (py_eq_trans _ _ _ Q Q').
    + intros t f l If G. rewrite SC in If. destruct (MK t f If) as (l1 & G1 & _ & EL). destruct (MK' t f If) as (l2 & G2 & ND & EL'). assert (l1 = l) by congruence. subst l1.
      exists l2. split; [exact G2|]. split; [exact ND|]. intros u. now rewrite EL, EL'.
  - intros o k R IK. destruct (ca_read w b cs rows CB o R) as (x & I & M). pose proof (ca_key cs rows tops DS o x k I M IK) as <-.
    destruct (ca_object w a cs rows tops CA DS x I) as (s & R' & M'). exists s. split; [exact R'|]. exact (ca_is cs rows tops DS x s I M').
Qed.

(** ** Loading *)
Lemma load_fleet data : forall a w, w_ok w ->
  (forall j rows, nth_error data j = Some rows -> exists ad, nth_error (w_ads w) (a + j) = Some ad /\ ad_store ad = SLocal [] /\ dataset (ad_classes ad) (ad_top ad) rows /\
     proper_values (ad_classes ad) rows /\ no_flags (ad_classes ad) rows) ->
  exists w', load_each a data w = (w', Ok tt) /\ w_ok w' /\ length (w_ads w') = length (w_ads w) /\
    (forall b, b < a \/ a + length data <= b -> nth_error (w_ads w') b = nth_error (w_ads w) b) /\
    length (w_heap w) <= length (w_heap w') /\ (forall r, r < length (w_heap w) -> nth_error (w_heap w') r = nth_error (w_heap w) r) /\
    forall j rows ad, nth_error data j = Some rows -> nth_error (w_ads w) (a + j) = Some ad ->
      (exists s, nth_error (w_ads w') (a + j) = Some (set_ad_store ad s)) /\ carries w' (a + j) (ad_classes ad) rows /\
      (forall t u r, lookup w' (a + j) t u = Some r -> length (w_heap w) <= r) /\
      forall i, i < j -> forall t u r t' u', lookup w' (a + i) t u = Some r -> lookup w' (a + j) t' u' = Some r -> False.
Proof.
  induction data as [|rows data IH]; intros a w OK H.
  - exists w. split; [reflexivity|]. split; [exact OK|]. split; [reflexivity|]. split; [reflexivity|]. split; [lia|]. split; [reflexivity|]. intros [|j] rows ad E; discriminate.
  - destruct (H 0 rows eq_refl) as (ad & AD & ES & DS & PV & NF). rewrite Nat.add_0_r in AD.
    destruct (load_all w a ad (ad_top ad) rows AD DS ES) as (w1 & E1 & I1). destruct (inv_stands w a ad rows w1 AD I1) as (d & ST & EA).
    pose proof (inv_refs w a ad rows w1 AD I1 OK) as OK1. destruct I1 as (d1 & _ & _ & _ & EL & EH & _).
    destruct (IH (S a) w1 OK1) as (w2 & E2 & OK2 & LA2 & AD2 & LE2 & H2 & C2).
    { intros j rows' E. destruct (H (S j) rows' E) as (ad' & A & X). exists ad'. split; [|exact X]. rewrite EA, nth_list_set_neq; [|lia]. now replace (S a + j) with (a + S j) by lia. }
    exists w2. split; [cbn [load_each]; unfold bind; now rewrite E1|]. split; [exact OK2|]. split; [rewrite LA2, EA; apply list_set_length|]. split.
    { intros b B. cbn [length] in B. rewrite AD2 by lia. rewrite EA, nth_list_set_neq; [reflexivity|lia]. }
    split; [lia|]. split; [intros r L; rewrite H2 by lia; now apply EH|].
    assert (AS : nth_error (w_ads w2) a = nth_error (w_ads w1) a) by (apply AD2; lia).
    assert (LK : forall t u, lookup w2 a t u = lookup w1 a t u) by (intros t u; unfold lookup; now rewrite AS).
    assert (LO1 : local_ok w1 a) by exact (st_local w1 a _ _ rows ST).
    assert (LT : forall t u r, lookup w1 a t u = Some r -> length (w_heap w) <= r < length (w_heap w1)).
    { intros t u r L. split; [|exact (ok_ref w1 a t u r OK1 LO1 L)]. destruct (st_lookup w1 a _ _ rows ST t u r L) as (j & y & o & _ & _ & -> & _). lia. }
    assert (LO2 : local_ok w2 a) by (destruct LO1 as (ad1 & dd & A & X); exists ad1, dd; split; [congruence|exact X]).
    intros [|j] rows' ad' E A.
    + injection E as <-. rewrite Nat.add_0_r in *. assert (ad' = ad) by congruence. subst ad'. split; [exists (SLocal d); rewrite AS, EA; eapply nth_list_set_eq; eauto|]. split.
      * apply (carries_keep w1); [exact LO2|exact LK| |apply (stands_carries w1 a (set_ad_store ad (SLocal d)) (length (w_heap w)) rows (ad_top ad) ST DS PV NF)].
        intros t u r L. apply H2. now apply LT in L.
      * split; [|intros i B; lia]. intros t u r L. rewrite LK in L. now apply LT in L.
    + replace (a + S j) with (S a + j) in * by lia. destruct (C2 j rows' ad' E) as (X1 & X2 & X3 & X4); [rewrite EA, nth_list_set_neq; [exact A|lia]|].
      split; [exact X1|]. split; [exact X2|]. split; [intros t u r L; apply X3 in L; lia|]. intros [|i] LI t u r t' u' L L'.
      * rewrite Nat.add_0_r, LK in L. apply LT in L. apply X3 in L'. lia.
      * replace (a + S i) with (S a + i) in L by lia. assert (LI' : i < j) by lia. exact (X4 i LI' t u r t' u' L L').
Qed.

(** ** The invariant *)
Lemma at_ad (ads : list adapter) a : a < length ads -> exists ad, nth_error ads a = Some ad.
Proof. intros L. destruct (nth_error ads a) eqn:E; [eauto|]. apply nth_error_None in E. lia. Qed.
Section Fleet.
  Variables (fuel : nat) (ads : list adapter) (data : list (list row)).
  Hypothesis FL : fleet fuel ads data.
  Record sound (from : aid -> aid) (w : world) : Prop := mkSound {
    so_refs : w_ok w;
    so_ads : forall a ad, nth_error ads a = Some ad -> exists s, nth_error (w_ads w) a = Some (set_ad_store ad s);
    so_apart : forall a b, a < length ads -> b < length ads -> a <> b -> share_nothing w a b;
    so_from : forall a, a < length ads -> from a < length ads;
    so_data : forall a ad rows, a < length ads -> nth_error ads (from a) = Some ad -> nth_error data (from a) = Some rows -> carries w a (ad_classes ad) rows
  }.
  Lemma at_rows a : a < length ads -> exists rows, nth_error data a = Some rows.
  Proof. intros L. destruct (nth_error data a) eqn:E; [eauto|]. apply nth_error_None in E. rewrite (fl_length _ _ _ FL) in E. lia. Qed.
  Hypothesis F2 : 2 <= fuel.
  Lemma same_tops a b ad bd : nth_error ads a = Some ad -> nth_error ads b = Some bd -> forall t, In t (ad_top ad) <-> In t (ad_top bd).
  Proof.
    intros A B. destruct (Nat.eq_dec a b) as [->|NE]; [assert (bd = ad) by congruence; subst; tauto|].
    destruct (at_rows a) as (ra & RA); [apply nth_error_Some; congruence|]. destruct (at_rows b) as (rb & RB); [apply nth_error_Some; congruence|].
    exact (proj2 (fl_pairs _ _ _ FL a b ad bd ra rb NE A B RA RB)).
  Qed.
  Lemma match_any a b ad bd ra rb : (exists c, c < length ads /\ c <> a) -> nth_error ads a = Some ad -> nth_error ads b = Some bd -> nth_error data a = Some ra -> nth_error data b = Some rb ->
    matching (ad_classes ad) (ad_classes bd) ra rb.
  Proof.
    intros (c & LC & NC) A B RA RB. destruct (Nat.eq_dec a b) as [<-|NE].
    - assert (bd = ad) by congruence. assert (rb = ra) by congruence. subst. destruct (at_ad ads c LC) as (cd & C). destruct (at_rows c LC) as (rc & RC).
      destruct (fl_each _ _ _ FL a ad ra A RA) as (DS & _). exact (matching_self _ _ _ _ _ DS (proj1 (fl_pairs _ _ _ FL a c ad cd ra rc (not_eq_sym NC) A C RA RC))).
    - exact (proj1 (fl_pairs _ _ _ FL a b ad bd ra rb NE A B RA RB)).
  Qed.

  Section Step.
    Variables (from : aid -> aid) (w : world).
    Hypothesis SD : sound from w.
    Variables (src dst : aid) (sa da : adapter).
    Hypothesis NE : src <> dst.
    Hypothesis SA : nth_error ads src = Some sa.
    Hypothesis DA : nth_error ads dst = Some da.
    Lemma lt_src : src < length ads. Proof. apply nth_error_Some. congruence. Qed.
    Lemma lt_dst : dst < length ads. Proof. apply nth_error_Some. congruence. Qed.
    Lemma another a : exists c, c < length ads /\ c <> a.
    Proof. pose proof lt_src. pose proof lt_dst. destruct (Nat.eq_dec a src) as [->|]; [exists dst|exists src]; auto. Qed.
    (** what two adapters of the fleet satisfy *)
    Lemma step_two : exists s s' os od rows rows',
      nth_error ads (from src) = Some os /\ nth_error data (from src) = Some rows /\ nth_error ads (from dst) = Some od /\ nth_error data (from dst) = Some rows' /\
      let sa' := set_ad_store sa s in let da' := set_ad_store da s' in
      nth_error (w_ads w) src = Some sa' /\ nth_error (w_ads w) dst = Some da' /\
      alike w fuel src dst sa' da' /\ comparable w fuel src dst sa' da' /\
      (forall flags, N.testbit flags 1 = false -> N.testbit flags 2 = false -> entire w flags src dst sa' da') /\
      forall h dc flags cb, hooks_succeed h -> spares_attributes da h -> yields_once (dc_order dc) -> N.testbit flags 1 = false -> N.testbit flags 2 = false ->
        exists w' d, sync_from fuel h dst src dc flags cb None w = (w', Ok d) /\ carries w' dst (ad_classes os) rows /\ w_ok w' /\
          (exists s, nth_error (w_ads w') dst = Some (set_ad_store da' s)) /\
          (forall b ad, b <> dst -> nth_error (w_ads w) b = Some ad -> exists s', nth_error (w_ads w') b = Some (set_ad_store ad s') /\ store_ext (ad_store ad) s') /\
          (forall t u r, lookup w' dst t u = Some r -> lookup w dst t u = Some r \/ length (w_heap w) <= r).
    Proof.
      pose proof lt_src as LS. pose proof lt_dst as LD.
      destruct (so_ads _ _ SD src sa SA) as (s & WS). destruct (so_ads _ _ SD dst da DA) as (s' & WD).
      pose proof (so_from _ _ SD src LS) as FS. pose proof (so_from _ _ SD dst LD) as FT.
      destruct (at_ad ads _ FS) as (os & OS). destruct (at_rows _ FS) as (rows & RS). destruct (at_ad ads _ FT) as (od & OD). destruct (at_rows _ FT) as (rows' & RD).
      exists s, s', os, od, rows, rows'. do 4 (split; [assumption|]). cbv zeta.
      destruct (fl_each _ _ _ FL _ _ _ OS RS) as (DS & PV & _ & SH). destruct (fl_each _ _ _ FL _ _ _ OD RD) as (DS' & _ & _ & SH').
      assert (MA : matching (ad_classes os) (ad_classes od) rows rows') by (apply (match_any (from src) (from dst)); auto using another).
      assert (CL : forall b bd rb, nth_error ads b = Some bd -> nth_error data b = Some rb -> forall x c, In x rb -> dget (ad_classes bd) (r_type x) = Some c ->
        exists c', dget (ad_classes da) (r_type x) = Some c' /\ c_modelname c' = r_type x /\ same_shape c' c /\ creatable c').
      { intros b bd rb B RB. destruct (at_rows dst LD) as (rd & RDst). apply (ma_class _ _ _ _ (match_any b dst bd da rb rd (another b) B DA RB RDst)). }
      assert (DS1 : dataset (ad_classes os) (ad_top sa) rows) by (eapply dataset_tops; [|exact DS]; exact (same_tops _ _ _ _ OS SA)).
      assert (DS1' : dataset (ad_classes od) (ad_top da) rows') by (eapply dataset_tops; [|exact DS']; exact (same_tops _ _ _ _ OD DA)).
      pose proof (so_data _ _ SD src os rows LS OS RS) as CS. pose proof (so_data _ _ SD dst od rows' LD OD RD) as CD.
      assert (TN : NoDup (ad_top da)) by (destruct (at_rows dst LD) as (rd & RDst); apply (fl_each _ _ _ FL _ _ _ DA RDst)).
      pose proof (same_tops _ _ _ _ SA DA) as TT. pose proof (so_apart _ _ SD src dst LS LD NE) as SN. pose proof (so_refs _ _ SD) as OK.
      pose proof (CL _ _ _ OS RS) as CL1. pose proof (CL _ _ _ OD RD) as CL2. clear CL.
      split; [exact WS|]. split; [exact WD|].
      split; [exact (two_alike w fuel src dst (set_ad_store sa s) (set_ad_store da s') (ad_classes os) (ad_classes od) rows rows' NE OK SN WS WD CS CD DS1 DS1' MA CL1 CL2 PV TN TT F2 SH')|].
      split; [exact (two_comparable w fuel src dst (set_ad_store sa s) (set_ad_store da s') (ad_classes os) (ad_classes od) rows rows' NE OK CS CD DS1 DS1' MA CL1 CL2 PV F2 SH SH')|].
      split; [intros flags B1 B2; exact (two_entire w src dst (set_ad_store sa s) (set_ad_store da s') (ad_classes os) (ad_classes od) rows rows' CS CD DS1 TT flags B1 B2)|].
      intros h dc flags cb HK SP YO B1 B2.
      exact (two_sync w fuel src dst (set_ad_store sa s) (set_ad_store da s') (ad_classes os) (ad_classes od) rows rows' NE OK SN WS WD CS CD DS1 DS1' MA CL1 CL2 PV TN TT F2 SH SH'
        h dc flags cb HK SP YO B1 B2 (fl_flags _ _ _ FL dst (from src) da rows DA RS)).
    Qed.

    Lemma step_sound h dc flags cb : hooks_succeed h -> spares_attributes da h -> yields_once (dc_order dc) -> N.testbit flags 1 = false -> N.testbit flags 2 = false ->
      exists w' d, sync_from fuel h dst src dc flags cb None w = (w', Ok d) /\ sound (fun a => if Nat.eqb a dst then from src else from a) w'.
    Proof.
      intros HK SP YO B1 B2. pose proof lt_src as LS. pose proof lt_dst as LD.
      destruct step_two as (s & s' & os & od & rows & rows' & OS & RS & OD & RD & H). cbv zeta in H. destruct H as (WS & WD & _ & _ & _ & H).
      destruct (H h dc flags cb HK SP YO B1 B2) as (w' & d & E & CA & OK' & (s2 & WD') & OT & FR). exists w', d. split; [exact E|].
      assert (IN : forall a, a < length ads -> a <> dst -> intact w w' a).
      { intros a LA NA. pose proof (sync_others fuel h dst src dc flags cb None w a NA (so_refs _ _ SD) (so_apart _ _ SD a dst LA LD NA)) as X. now rewrite E in X. }
      assert (LW : forall a, a < length ads -> local_ok w a).
      { intros a LA. pose proof (so_from _ _ SD a LA) as FA. destruct (at_ad ads _ FA) as (oa & OA). destruct (at_rows _ FA) as (ra & RA). exact (ca_local _ _ _ _ (so_data _ _ SD a oa ra LA OA RA)). }
      assert (LO : forall a, a < length ads -> local_ok w' a).
      { intros a LA. destruct (Nat.eq_dec a dst) as [->|NA]; [exact (ca_local _ _ _ _ CA)|]. destruct (at_ad ads a LA) as (ad & A). destruct (so_ads _ _ SD a ad A) as (x & WA).
        destruct (OT a _ NA WA) as (y & WA' & SE). exact (local_ext w w' a _ y (LW a LA) WA WA' SE). }
      assert (AP : forall a, a < length ads -> a <> dst -> forall t u r t' u', lookup w' a t u = Some r -> lookup w' dst t' u' = Some r -> False).
      { intros a LA NA t u r t' u' L L'. rewrite (proj1 (IN a LA NA)) in L. destruct (FR _ _ _ L') as [L2|GE].
        - apply (proj1 (so_apart _ _ SD a dst LA LD NA) r); [exact (holds_lookup w a t u r L)|exact (holds_lookup w dst t' u' r L2)].
        - pose proof (ok_ref w a t u r (so_refs _ _ SD) (LW a LA) L). lia. }
      split.
      - exact OK'.
      - intros a ad A. destruct (so_ads _ _ SD a ad A) as (x & WA). destruct (Nat.eq_dec a dst) as [->|NA].
        + exists s2. assert (ad = da) by congruence. subst ad. exact WD'.
        + destruct (OT a _ NA WA) as (y & WA' & _). exists y. exact WA'.
      - intros a b LA LB NB. apply share_local; [now apply LO| |now apply LO]. intros t u r L t' u' L'.
        destruct (Nat.eq_dec a dst) as [->|NA]; [exact (AP b LB (not_eq_sym NB) _ _ _ _ _ L' L)|]. destruct (Nat.eq_dec b dst) as [->|NB']; [exact (AP a LA NB _ _ _ _ _ L L')|].
        rewrite (proj1 (IN a LA NA)) in L. rewrite (proj1 (IN b LB NB')) in L'.
        apply (proj1 (so_apart _ _ SD a b LA LB NB) r); [exact (holds_lookup w a t u r L)|exact (holds_lookup w b t' u' r L')].
      - intros a LA. destruct (Nat.eqb a dst); apply (so_from _ _ SD); assumption.
      - intros a ad ra LA A RA. destruct (Nat.eqb a dst) eqn:Q.
        + apply Nat.eqb_eq in Q. subst a. assert (ad = os) by congruence. assert (ra = rows) by congruence. subst. exact CA.
        + apply Nat.eqb_neq in Q. destruct (IN a LA Q) as (I1 & I2 & _). apply (carries_keep w); auto. exact (so_data _ _ SD a ad ra LA A RA).
    Qed.
  End Step.

  Lemma run_sound l : forall from w, sound from w -> Forall (plain_call ads) l -> exists w', sync_each fuel l w = (w', Ok tt) /\ sound (fold_left assign l from) w'.
  Proof.
    induction l as [|c l IH]; intros from w SD PC; [exists w; now split|]. inversion PC as [|? ? P PC']; subst.
    destruct P as (NE & LS & (da & DA & SP) & HK & YO & B1 & B2). destruct (at_ad ads _ LS) as (sa & SA).
    destruct (step_sound from w SD (sy_src c) (sy_dst c) sa da NE SA DA (sy_hooks c) (sy_class c) (sy_flags c) (sy_cb c) HK SP YO B1 B2) as (w1 & d & E & SD1).
    destruct (IH _ w1 SD1 PC') as (w2 & E2 & SD2). exists w2. split; [cbn [sync_each]; unfold bind; now rewrite E|]. exact SD2.
  Qed.

  Lemma load_sound w : w_ok w -> w_ads w = ads -> (forall ad, In ad ads -> ad_store ad = SLocal []) ->
    exists w', load_each 0 data w = (w', Ok tt) /\ sound (fun a => a) w'.
  Proof.
    intros OK EA ES. destruct (load_fleet data 0 w OK) as (w' & E & OK' & _ & _ & _ & _ & H).
    { intros j rows R. assert (LJ : j < length ads) by (rewrite <- (fl_length _ _ _ FL); apply nth_error_Some; congruence). destruct (at_ad ads j LJ) as (ad & A). exists ad.
      destruct (fl_each _ _ _ FL j ad rows A R) as (DS & PV & _). rewrite EA. split; [exact A|]. split; [apply ES; now apply nth_error_In in A|]. split; [exact DS|]. split; [exact PV|]. exact (fl_flags _ _ _ FL j j ad rows A R). }
    exists w'. split; [exact E|]. rewrite EA in H. cbn [Nat.add] in H.
    assert (LO : forall a, a < length ads -> local_ok w' a).
    { intros a LA. destruct (at_ad ads a LA) as (ad & A). destruct (at_rows a LA) as (ra & R). exact (ca_local _ _ _ _ (proj1 (proj2 (H a ra ad R A)))). }
    split; auto.
    - intros a ad A. destruct (at_rows a) as (ra & R); [apply nth_error_Some; congruence|]. exact (proj1 (H a ra ad R A)).
    - intros a b LA LB NB. apply share_local; auto. intros t u r L t' u' L'.
      destruct (at_ad ads a LA) as (ad & A). destruct (at_rows a LA) as (ra & R). destruct (at_ad ads b LB) as (bd & B). destruct (at_rows b LB) as (rb & R').
      destruct (Nat.lt_total a b) as [LT|[EQ|LT]]; [|contradiction|].
      + exact (proj2 (proj2 (proj2 (H b rb bd R' B))) a LT _ _ _ _ _ L L').
      + exact (proj2 (proj2 (proj2 (H a ra ad R A))) b LT _ _ _ _ _ L' L).
    - intros a ad ra LA A R. exact (proj1 (proj2 (H a ra ad R A))).
  Qed.

  (** what the adapters have at the end *)
  Lemma sound_data from w a ad rows : sound from w -> a < length ads -> nth_error ads (from a) = Some ad -> nth_error data (from a) = Some rows -> has_data w a (ad_classes ad) rows.
  Proof.
    intros SD LA A R. destruct (fl_each _ _ _ FL _ _ _ A R) as (DS & PV & _).
    exact (ca_has_data w a (ad_classes ad) rows (ad_top ad) (so_data _ _ SD a ad rows LA A R) DS PV).
  Qed.
  Lemma sound_ready from w src dst sa da : sound from w -> src <> dst -> nth_error ads src = Some sa -> nth_error ads dst = Some da ->
    exists s s', let sa' := set_ad_store sa s in let da' := set_ad_store da s' in
      alike w fuel src dst sa' da' /\ comparable w fuel src dst sa' da' /\ forall flags, N.testbit flags 1 = false -> N.testbit flags 2 = false -> entire w flags src dst sa' da'.
  Proof.
    intros SD NE SA DA. destruct (step_two from w SD src dst sa da NE SA DA) as (s & s' & os & od & rows & rows' & _ & _ & _ & _ & H). cbv zeta in H.
    destruct H as (_ & _ & AL & CM & EN & _). exists s, s'. cbv zeta. auto.
  Qed.
  Lemma sound_copy from w a b : sound from w -> a < length ads -> b < length ads -> from a = from b -> holds_copy w a w b.
  Proof.
    intros SD LA LB E. pose proof (so_from _ _ SD a LA) as FA. destruct (at_ad ads _ FA) as (ad & A). destruct (at_rows _ FA) as (rows & R). destruct (fl_each _ _ _ FL _ _ _ A R) as (DS & PV & _).
    apply (carries_copy w a b (ad_classes ad) (ad_top ad) rows DS PV); [exact (so_data _ _ SD a ad rows LA A R)|]. rewrite E in A, R. exact (so_data _ _ SD b ad rows LB A R).
  Qed.
End Fleet.
