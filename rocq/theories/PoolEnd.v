(** * PoolEnd: sequences of synchronisations with any flags. *)
From Verif Require Export PoolFacts.

Section Crowd.
  Variables (fuel : nat) (cs : dict cls) (tops : list string) (ads : list adapter) (data : list (list row)).
  Hypothesis CW : crowd fuel cs tops ads data.
  Notation U := (concat data).
  Record steady (D : aid -> list row) (w : world) : Prop := mkSteady {
    sd_refs : w_ok w;
    sd_ads : forall a ad, nth_error ads a = Some ad -> exists s, nth_error (w_ads w) a = Some (set_ad_store ad s);
    sd_apart : forall a b, a < length ads -> b < length ads -> a <> b -> share_nothing w a b;
    sd_incl : forall a, a < length ads -> incl (D a) U;
    sd_set : forall a, a < length ads -> dataset cs tops (D a);
    sd_data : forall a, a < length ads -> carries w a cs (D a)
  }.
  Lemma cw_class a ad : nth_error ads a = Some ad -> ad_classes ad = cs /\ ad_top ad = tops.
  Proof. intros A. apply (cw_ads _ _ _ _ _ CW). now apply nth_error_In in A. Qed.
  Hypothesis F2 : 2 <= fuel.

  Section Step.
    Variables (D : aid -> list row) (w : world).
    Hypothesis SD : steady D w.
    Variables (src dst : aid) (sa da : adapter).
    Hypothesis NE : src <> dst.
    Hypothesis SA : nth_error ads src = Some sa.
    Hypothesis DA : nth_error ads dst = Some da.
    Let LS : src < length ads. Proof. apply nth_error_Some. congruence. Qed.
    Let LD : dst < length ads. Proof. apply nth_error_Some. congruence. Qed.
    Lemma both_in : incl (D src ++ D dst) U.
    Proof. intros x I. apply in_app_iff in I as [I|I]; [exact (sd_incl _ _ SD src LS x I)|exact (sd_incl _ _ SD dst LD x I)]. Qed.
    Lemma step_steady h dc flags cb : hooks_succeed h -> spares_attributes da h -> yields_once (dc_order dc) ->
      exists w' d, sync_from fuel h dst src dc flags cb None w = (w', Ok d) /\ steady (fun a => if Nat.eqb a dst then pool cs flags (D src) (D dst) else D a) w'.
    Proof.
      intros HK SP YO. destruct (sd_ads _ _ SD src sa SA) as (s & WS). destruct (sd_ads _ _ SD dst da DA) as (s' & WD).
      destruct (cw_class _ _ SA) as (SC & STp). destruct (cw_class _ _ DA) as (DC & DTp).
      assert (MA : matching cs cs (D src ++ D dst) (D src ++ D dst)) by (apply (matching_sub cs U); [apply CW| |]; exact both_in).
      assert (DSs : dataset cs (ad_top da) (D src)) by (rewrite DTp; now apply (sd_set _ _ SD)). assert (DSd : dataset cs (ad_top da) (D dst)) by (rewrite DTp; now apply (sd_set _ _ SD)).
      destruct (po_sync w fuel src dst (set_ad_store sa s) (set_ad_store da s') cs (D src) (D dst) NE (sd_refs _ _ SD) (sd_apart _ _ SD src dst LS LD NE) WS WD
        (sd_data _ _ SD src LS) (sd_data _ _ SD dst LD) DC (eq_trans STp (eq_sym DTp)) DSs DSd MA) with (h := h) (dc := dc) (flags := flags) (cb := cb) as (w' & d & E & CA & OK' & (s2 & WD') & OT & FR); auto.
      { intros x c f I. apply (cw_proper _ _ _ _ _ CW). now apply both_in. }
      { change (ad_top (set_ad_store da s')) with (ad_top da). rewrite DTp. apply CW. }
      { exact (shallow_sub cs U _ _ (cw_shallow _ _ _ _ _ CW) both_in). }
      { intros x c I. apply (cw_flags _ _ _ _ _ CW). now apply both_in. }
      exists w', d. split; [exact E|].
      assert (IN : forall a, a < length ads -> a <> dst -> intact w w' a).
      { intros a LA NA. pose proof (sync_others fuel h dst src dc flags cb None w a NA (sd_refs _ _ SD) (sd_apart _ _ SD a dst LA LD NA)) as Y. now rewrite E in Y. }
      assert (LW : forall a, a < length ads -> local_ok w a) by (intros a LA; exact (ca_local _ _ _ _ (sd_data _ _ SD a LA))).
      assert (LO : forall a, a < length ads -> local_ok w' a).
      { intros a LA. destruct (Nat.eq_dec a dst) as [->|NA]; [exact (ca_local _ _ _ _ CA)|]. destruct (at_ad ads a LA) as (ad & A). destruct (sd_ads _ _ SD a ad A) as (x & WA).
        destruct (OT a _ NA WA) as (y & WA' & SE). exact (local_ext w w' a _ y (LW a LA) WA WA' SE). }
      assert (AP : forall a, a < length ads -> a <> dst -> forall t u r t' u', lookup w' a t u = Some r -> lookup w' dst t' u' = Some r -> False).
      { intros a LA NA t u r t' u' L L'. rewrite (proj1 (IN a LA NA)) in L. destruct (FR _ _ _ L') as [L2|GE].
        - apply (proj1 (sd_apart _ _ SD a dst LA LD NA) r); [exact (holds_lookup w a t u r L)|exact (holds_lookup w dst t' u' r L2)].
        - pose proof (ok_ref w a t u r (sd_refs _ _ SD) (LW a LA) L). lia. }
      split.
      - exact OK'.
      - intros a ad A. destruct (sd_ads _ _ SD a ad A) as (x & WA). destruct (Nat.eq_dec a dst) as [->|NA].
        + exists s2. assert (ad = da) by congruence. subst ad. exact WD'.
        + destruct (OT a _ NA WA) as (y & WA' & _). exists y. exact WA'.
      - intros a b LA LB NB. apply share_local; [now apply LO| |now apply LO]. intros t u r L t' u' L'.
        destruct (Nat.eq_dec a dst) as [->|NA]; [exact (AP b LB (not_eq_sym NB) _ _ _ _ _ L' L)|]. destruct (Nat.eq_dec b dst) as [->|NB']; [exact (AP a LA NB _ _ _ _ _ L L')|].
        rewrite (proj1 (IN a LA NA)) in L. rewrite (proj1 (IN b LB NB')) in L'.
        apply (proj1 (sd_apart _ _ SD a b LA LB NB) r); [exact (holds_lookup w a t u r L)|exact (holds_lookup w b t' u' r L')].
      - intros a LA. destruct (Nat.eqb a dst); [|now apply (sd_incl _ _ SD)]. intros x I. apply both_in. exact (pool_incl cs flags (D src) (D dst) x I).
      - intros a LA. destruct (Nat.eqb a dst); [|now apply (sd_set _ _ SD)]. rewrite <- DTp. apply pool_dataset; auto. apply (ma_place _ _ _ _ MA).
      - intros a LA. destruct (Nat.eqb a dst) eqn:Q.
        + apply Nat.eqb_eq in Q. subst a. exact CA.
        + apply Nat.eqb_neq in Q. destruct (IN a LA Q) as (I1 & I2 & _). apply (carries_keep w); auto. exact (sd_data _ _ SD a LA).
    Qed.
  End Step.

  Lemma run_steady l : forall D w, steady D w -> Forall (any_call ads) l -> exists w', sync_each fuel l w = (w', Ok tt) /\ steady (fold_left (pool_call cs) l D) w'.
  Proof.
    induction l as [|c l IH]; intros D w SD PC; [exists w; now split|]. inversion PC as [|? ? P PC']; subst.
    destruct P as (NE & LS & (da & DA & SP) & HK & YO). destruct (at_ad ads _ LS) as (sa & SA).
    destruct (step_steady D w SD (sy_src c) (sy_dst c) sa da NE SA DA (sy_hooks c) (sy_class c) (sy_flags c) (sy_cb c) HK SP YO) as (w1 & d & E & SD1).
    destruct (IH _ w1 SD1 PC') as (w2 & E2 & SD2). exists w2. split; [cbn [sync_each]; unfold bind; now rewrite E|]. exact SD2.
  Qed.
  Lemma given_in a : a < length ads -> nth_error data a = Some (given data a) /\ In (given data a) data.
  Proof.
    intros LA. rewrite <- (cw_length _ _ _ _ _ CW) in LA. unfold given. split; [now apply nth_error_nth'|now apply nth_In].
  Qed.
  Lemma in_union rows : In rows data -> incl rows U.
  Proof. intros I x Ix. apply in_concat. eauto. Qed.
  Lemma load_steady w : w_ok w -> w_ads w = ads -> (forall ad, In ad ads -> ad_store ad = SLocal []) ->
    exists w', load_each 0 data w = (w', Ok tt) /\ steady (given data) w'.
  Proof.
    intros OK EA ES. destruct (load_fleet data 0 w OK) as (w' & E & OK' & _ & _ & _ & _ & H).
    { intros j rows R. assert (LJ : j < length ads) by (rewrite <- (cw_length _ _ _ _ _ CW); apply nth_error_Some; congruence). destruct (at_ad ads j LJ) as (ad & A). exists ad.
      destruct (cw_class j ad A) as (-> & ->). apply nth_error_In in R. rewrite EA. split; [exact A|]. split; [apply ES; now apply nth_error_In in A|]. split; [now apply (cw_each _ _ _ _ _ CW)|].
      split; [intros x c f I; apply (cw_proper _ _ _ _ _ CW)|intros x c I; apply (cw_flags _ _ _ _ _ CW)]; now apply (in_union rows R). }
    exists w'. split; [exact E|]. rewrite EA in H. cbn [Nat.add] in H.
    assert (LO : forall a, a < length ads -> local_ok w' a).
    { intros a LA. destruct (at_ad ads a LA) as (ad & A). destruct (given_in a LA) as (R & _). exact (ca_local _ _ _ _ (proj1 (proj2 (H a _ ad R A)))). }
    split; auto.
    - intros a ad A. assert (LA : a < length ads) by (apply nth_error_Some; congruence). destruct (given_in a LA) as (R & _). exact (proj1 (H a _ ad R A)).
    - intros a b LA LB NB. apply share_local; auto. intros t u r L t' u' L'.
      destruct (at_ad ads a LA) as (ad & A). destruct (given_in a LA) as (R & _). destruct (at_ad ads b LB) as (bd & B). destruct (given_in b LB) as (R' & _).
      destruct (Nat.lt_total a b) as [LT|[EQ|LT]]; [|contradiction|].
      + exact (proj2 (proj2 (proj2 (H b _ bd R' B))) a LT _ _ _ _ _ L L').
      + exact (proj2 (proj2 (proj2 (H a _ ad R A))) b LT _ _ _ _ _ L' L).
    - intros a LA. apply in_union. now apply given_in.
    - intros a LA. apply (cw_each _ _ _ _ _ CW). now apply given_in.
    - intros a LA. destruct (at_ad ads a LA) as (ad & A). destruct (given_in a LA) as (R & _). destruct (cw_class a ad A) as (<- & _). exact (proj1 (proj2 (H a _ ad R A))).
  Qed.
  Lemma steady_data D w a : steady D w -> a < length ads -> has_data w a cs (D a).
  Proof.
    intros SD LA. apply (ca_has_data w a cs (D a) tops (sd_data _ _ SD a LA) (sd_set _ _ SD a LA)).
    intros x c f I. apply (cw_proper _ _ _ _ _ CW). exact (sd_incl _ _ SD a LA x I).
  Qed.
  Lemma steady_copy D w a b : steady D w -> a < length ads -> b < length ads -> D a = D b -> holds_copy w a w b.
  Proof.
    intros SD LA LB E. apply (carries_copy w a b cs tops (D a) (sd_set _ _ SD a LA)); [|exact (sd_data _ _ SD a LA)|rewrite E; exact (sd_data _ _ SD b LB)].
    intros x c f I. apply (cw_proper _ _ _ _ _ CW). exact (sd_incl _ _ SD a LA x I).
  Qed.
End Crowd.

(** ** What the records are after some kinds of sequences *)

(** one adapter collects from others, with SKIP_UNMATCHED_DST *)
Lemma collect_keys cs hub l : forall D, Forall (fun c => sy_dst c = hub /\ sy_src c <> hub /\ N.testbit (sy_flags c) 1 = false /\ N.testbit (sy_flags c) 2 = true) l ->
  (forall k, (exists x, In x (fold_left (pool_call cs) l D hub) /\ row_key cs x = k) <-> exists a x, (a = hub \/ In a (map sy_src l)) /\ In x (D a) /\ row_key cs x = k) /\
  forall a, a <> hub -> fold_left (pool_call cs) l D a = D a.
Proof.
  induction l as [|c l IH]; intros D F.
  - cbn [fold_left map]. split; [|reflexivity]. intros k. split; [intros (x & I & E); exists hub, x; auto|]. intros (a & x & [->|[]] & I & E). eauto.
  - inversion F as [|? ? (HD & HS & B1 & B2) F']; subst. destruct (IH (pool_call cs D c) F') as (H1 & H2). cbn [fold_left map]. split.
    + intros k. rewrite H1. assert (Q : forall a, a <> sy_dst c -> pool_call cs D c a = D a) by (intros a NA; unfold pool_call; apply Nat.eqb_neq in NA; now rewrite NA).
      assert (Q' : pool_call cs D c (sy_dst c) = pool cs (sy_flags c) (D (sy_src c)) (D (sy_dst c))) by (unfold pool_call; now rewrite Nat.eqb_refl). split.
      * intros (a & x & Ia & I & E). destruct (Nat.eq_dec a (sy_dst c)) as [->|NA].
        -- rewrite Q' in I. apply pool_cases in I as [(I & _)|(I & _)]; [exists (sy_src c), x|exists (sy_dst c), x]; split; auto. right. now left.
        -- rewrite (Q a NA) in I. exists a, x. split; [|auto]. destruct Ia; [auto|right; now right].
      * intros (a & x & Ia & I & E). assert (G : (a = sy_dst c \/ a = sy_src c) \/ (a <> sy_dst c /\ In a (map sy_src l))).
        { destruct (Nat.eq_dec a (sy_dst c)); [auto|]. destruct Ia as [|[<-|Ia]]; auto. }
        destruct G as [G|(NA & G)]; [|exists a, x; rewrite (Q a NA); auto].
        assert (Y : exists y, In y (pool cs (sy_flags c) (D (sy_src c)) (D (sy_dst c))) /\ row_key cs y = k).
        { destruct G as [->| ->].
          - destruct (has_row cs (D (sy_src c)) x) eqn:HR; [|exists x; split; [apply pool_cases; auto|exact E]]. apply has_row_ok in HR as (y & Iy & Ey). exists y. split; [apply pool_cases; auto|congruence].
          - exists x. split; [apply pool_cases; auto|exact E]. }
        destruct Y as (y & Iy & Ey). exists (sy_dst c), y. rewrite Q'. auto.
    + intros a NA. rewrite (H2 a NA). unfold pool_call. apply Nat.eqb_neq in NA. now rewrite NA.
Qed.
(** without the flags the source's records are taken over *)
Lemma pool_plain cs flags rows rows' : N.testbit flags 1 = false -> N.testbit flags 2 = false -> pool cs flags rows rows' = rows.
Proof.
  intros B1 B2. unfold pool. rewrite B1, B2, app_nil_r. clear B1 B2. cbn [negb orb]. induction rows as [|x l IH]; [reflexivity|]. cbn [filter]. now f_equal.
Qed.
