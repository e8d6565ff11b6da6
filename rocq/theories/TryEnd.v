(** * TryEnd: sequences of edits and of synchronisations that may fail. *)
From Verif Require Export TryFacts.

Section Group.
  Variables (fuel : nat) (cs : dict cls) (tops : list string) (U : list row) (ads : list adapter).
  Hypothesis RL : realm fuel cs tops U.
  Hypothesis F2 : 2 <= fuel.
  Hypothesis UM : unmarked cs.
  Hypothesis AC : forall a ad, nth_error ads a = Some ad -> ad_classes ad = cs /\ ad_top ad = tops.
  Notation poised := (poised cs tops U ads).

  Section Step.
    Variables (D : aid -> list row) (w : world).
    Hypothesis PD : poised D w.
    Variables (src dst : aid) (sa da : adapter).
    Hypothesis NE : src <> dst.
    Hypothesis SA : nth_error ads src = Some sa.
    Hypothesis DA : nth_error ads dst = Some da.
    Let LS : src < length ads. Proof. apply nth_error_Some. congruence. Qed.
    Let LD : dst < length ads. Proof. apply nth_error_Some. congruence. Qed.
    Lemma try_poised h dc flags cb : hooks_honest h -> deletes_succeed h -> spares_attributes da h -> yields_once (dc_order dc) ->
      exists w' r rest, sync_from fuel h dst src dc flags cb None w = (w', r) /\ partly cs flags (D src) (D dst) rest /\ dataset cs tops rest /\ poised (put D dst rest) w'.
    Proof.
      intros HO DEL SP YO. destruct (pd_ads _ _ _ _ _ _ PD src sa SA) as (s & WS). destruct (pd_ads _ _ _ _ _ _ PD dst da DA) as (s' & WD).
      destruct (AC _ _ SA) as (SC & STp). destruct (AC _ _ DA) as (DC & DTp).
      assert (OB : of_realm cs U (D src ++ D dst)) by (apply of_app; [exact (pd_of _ _ _ _ _ _ PD src LS)|exact (pd_of _ _ _ _ _ _ PD dst LD)]).
      assert (PB : proper_values cs (D src ++ D dst)) by (apply proper_app; [exact (pd_proper _ _ _ _ _ _ PD src LS)|exact (pd_proper _ _ _ _ _ _ PD dst LD)]).
      assert (MA : matching cs cs (D src ++ D dst) (D src ++ D dst)) by exact (re_matching fuel cs tops U RL _ OB).
      assert (DSs : dataset cs (ad_top da) (D src)) by (rewrite DTp; now apply (pd_set _ _ _ _ _ _ PD)). assert (DSd : dataset cs (ad_top da) (D dst)) by (rewrite DTp; now apply (pd_set _ _ _ _ _ _ PD)).
      assert (TN : NoDup (ad_top (set_ad_store da s'))) by (change (NoDup (ad_top da)); rewrite DTp; apply RL).
      destruct (try_rows w fuel src dst (set_ad_store sa s) (set_ad_store da s') cs (D src) (D dst) NE (pd_refs _ _ _ _ _ _ PD) (pd_apart _ _ _ _ _ _ PD src dst LS LD NE) WS WD
        (pd_data _ _ _ _ _ _ PD src LS) (pd_data _ _ _ _ _ _ PD dst LD) DC (eq_trans STp (eq_sym DTp)) DSs DSd MA PB TN F2 (re_shallow fuel cs tops U RL _ OB) UM h dc flags cb HO DEL SP YO)
        as (w' & r & rest & E & PA & DR & CA & OK' & (s2 & WD') & OT & FR).
      change (ad_top (set_ad_store da s')) with (ad_top da) in DR. rewrite DTp in DR.
      exists w', r, rest. split; [exact E|]. split; [exact PA|]. split; [exact DR|].
      assert (IN : forall a, a < length ads -> a <> dst -> intact w w' a).
      { intros a LA NA. pose proof (sync_others fuel h dst src dc flags cb None w a NA (pd_refs _ _ _ _ _ _ PD) (pd_apart _ _ _ _ _ _ PD a dst LA LD NA)) as Y. now rewrite E in Y. }
      assert (LW : forall a, a < length ads -> local_ok w a) by (intros a LA; exact (ca_local _ _ _ _ (pd_data _ _ _ _ _ _ PD a LA))).
      assert (LO : forall a, a < length ads -> local_ok w' a).
      { intros a LA. destruct (Nat.eq_dec a dst) as [->|NA]; [exact (ca_local _ _ _ _ CA)|]. destruct (at_ad ads a LA) as (ad & A). destruct (pd_ads _ _ _ _ _ _ PD a ad A) as (x & WA).
        destruct (OT a _ NA WA) as (y & WA' & SE). exact (local_ext w w' a _ y (LW a LA) WA WA' SE). }
      assert (AP : forall a, a < length ads -> a <> dst -> forall t u r t' u', lookup w' a t u = Some r -> lookup w' dst t' u' = Some r -> False).
      { intros a LA NA t u r0 t' u' L L'. rewrite (proj1 (IN a LA NA)) in L. destruct (FR _ _ _ L') as [L2|GE].
        - apply (proj1 (pd_apart _ _ _ _ _ _ PD a dst LA LD NA) r0); [exact (holds_lookup w a t u r0 L)|exact (holds_lookup w dst t' u' r0 L2)].
        - pose proof (ok_ref w a t u r0 (pd_refs _ _ _ _ _ _ PD) (LW a LA) L). lia. }
      assert (IP : incl rest (D src ++ D dst)) by (intros x I; apply in_app_iff; exact (pa_from _ _ _ _ _ PA x I)).
      assert (AW : forall a ad, nth_error ads a = Some ad -> exists s0, nth_error (w_ads w') a = Some (set_ad_store ad s0)).
      { intros a ad A. destruct (pd_ads _ _ _ _ _ _ PD a ad A) as (x & WA). destruct (Nat.eq_dec a dst) as [->|NA].
        + exists s2. assert (ad = da) by congruence. subst ad. exact WD'.
        + destruct (OT a _ NA WA) as (y & WA' & _). exists y. exact WA'. }
      unfold put. split.
      - exact OK'.
      - exact AW.
      - intros a b LA LB NB. apply share_local; [now apply LO| |now apply LO]. intros t u r0 L t' u' L'.
        destruct (Nat.eq_dec a dst) as [->|NA]; [exact (AP b LB (not_eq_sym NB) _ _ _ _ _ L' L)|]. destruct (Nat.eq_dec b dst) as [->|NB']; [exact (AP a LA NB _ _ _ _ _ L L')|].
        rewrite (proj1 (IN a LA NA)) in L. rewrite (proj1 (IN b LB NB')) in L'.
        apply (proj1 (pd_apart _ _ _ _ _ _ PD a b LA LB NB) r0); [exact (holds_lookup w a t u r0 L)|exact (holds_lookup w b t' u' r0 L')].
      - intros a LA. destruct (Nat.eqb a dst); [|now apply (pd_of _ _ _ _ _ _ PD)]. exact (of_sub cs U _ _ IP OB).
      - intros a LA. destruct (Nat.eqb a dst); [|now apply (pd_proper _ _ _ _ _ _ PD)]. exact (proper_sub cs _ _ IP PB).
      - intros a LA. destruct (Nat.eqb a dst); [exact DR|now apply (pd_set _ _ _ _ _ _ PD)].
      - intros a LA. destruct (Nat.eqb a dst) eqn:Q.
        + apply Nat.eqb_eq in Q. subst a. exact CA.
        + apply Nat.eqb_neq in Q. destruct (IN a LA Q) as (I1 & I2 & _). apply (carries_keep w); auto. exact (pd_data _ _ _ _ _ _ PD a LA).
    Qed.
  End Step.

  Lemma move_poised D w mv : poised D w -> can_move cs U ads D mv -> exists w' D', do_move fuel mv w = (w', Ok tt) /\ may_become cs tops D mv D' /\ poised D' w'.
  Proof.
    intros PD CM. destruct mv as [ch|c]; cbn [can_move do_move may_become] in *.
    - destruct (change_poised fuel cs tops U ads RL F2 AC D w ch PD CM) as (w' & E & P). exists w', (change_rows cs D ch). auto.
    - destruct CM as (NE & LS & (da & DA & SP) & HO & DEL & YO). destruct (at_ad ads _ LS) as (sa & SA).
      destruct (try_poised D w PD (sy_src c) (sy_dst c) sa da NE SA DA (sy_hooks c) (sy_class c) (sy_flags c) (sy_cb c) HO DEL SP YO) as (w' & r & rest & E & PA & DR & P).
      exists w', (put D (sy_dst c) rest). rewrite E. split; [reflexivity|]. split; [|exact P]. exists rest. auto.
  Qed.
  Lemma moves_poised l : forall D w, poised D w -> can_move_all cs tops U ads D l -> exists w' D', do_moves fuel l w = (w', Ok tt) /\ may_be_after cs tops D l D' /\ poised D' w'.
  Proof.
    induction l as [|mv l IH]; intros D w PD CM; [exists w, D; cbn; auto|]. destruct CM as (C1 & C2). destruct (move_poised D w mv PD C1) as (w1 & D1 & E & M & P1).
    destruct (IH D1 w1 P1 (C2 D1 M)) as (w2 & D2 & E2 & M2 & P2). exists w2, D2. split; [cbn [do_moves]; unfold bind; now rewrite E|]. split; [cbn [may_be_after]; eauto|exact P2].
  Qed.
End Group.
