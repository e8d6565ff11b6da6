(** * EditEnd: sequences of edits and synchronisations. *)
From Verif Require Export EditFacts.

Section Group.
  Variables (fuel : nat) (cs : dict cls) (tops : list string) (U : list row) (ads : list adapter).
  Hypothesis RL : realm fuel cs tops U.
  Hypothesis F2 : 2 <= fuel.
  Hypothesis AC : forall a ad, nth_error ads a = Some ad -> ad_classes ad = cs /\ ad_top ad = tops.
  Record poised (D : aid -> list row) (w : world) : Prop := mkPoised {
    pd_refs : w_ok w;
    pd_ads : forall a ad, nth_error ads a = Some ad -> exists s, nth_error (w_ads w) a = Some (set_ad_store ad s);
    pd_apart : forall a b, a < length ads -> b < length ads -> a <> b -> share_nothing w a b;
    pd_of : forall a, a < length ads -> of_realm cs U (D a);
    pd_proper : forall a, a < length ads -> proper_values cs (D a);
    pd_set : forall a, a < length ads -> dataset cs tops (D a);
    pd_data : forall a, a < length ads -> carries w a cs (D a)
  }.
  Lemma proper_app l m : proper_values cs l -> proper_values cs m -> proper_values cs (l ++ m).
  Proof. intros A B x c f I. apply in_app_iff in I as [I|I]; [now apply A|now apply B]. Qed.
  Lemma proper_sub l m : incl m l -> proper_values cs l -> proper_values cs m.
  Proof. intros A B x c f I. apply B. auto. Qed.

  Section Edit.
    Variables (D : aid -> list row) (w : world).
    Hypothesis PD : poised D w.
    Lemma edit_poised a rows' w' : a < length ads -> edited cs a rows' w w' -> of_realm cs U rows' -> proper_values cs rows' -> dataset cs tops rows' -> poised (put D a rows') w'.
    Proof.
      intros LA (FR & LH & OT & BK & CA) OF PV DS. pose proof FR as (FR1 & FR2 & FR3 & FR4). pose proof (pd_refs _ _ PD) as OK.
      assert (LO : forall b, b < length ads -> local_ok w b) by (intros b LB; exact (ca_local _ _ _ _ (pd_data _ _ PD b LB))).
      assert (LO' : forall b, b < length ads -> local_ok w' b).
      { intros b LB. destruct (Nat.eq_dec b a) as [->|NB]; [exact (ca_local _ _ _ _ CA)|]. unfold local_ok. rewrite (FR3 b NB). now apply LO. }
      assert (LK : forall b t u, b <> a -> lookup w' b t u = lookup w b t u) by (intros b t u NB; unfold lookup; now rewrite (FR3 b NB)).
      assert (AP : forall b, b < length ads -> b <> a -> forall t u r t' u', lookup w' b t u = Some r -> lookup w' a t' u' = Some r -> False).
      { intros b LB NB t u r t' u' L L'. rewrite (LK b t u NB) in L. destruct (BK _ _ _ L') as [L2|GE].
        - apply (proj1 (pd_apart _ _ PD b a LB LA NB) r); [exact (holds_lookup w b t u r L)|exact (holds_lookup w a t' u' r L2)].
        - pose proof (ok_ref w b t u r OK (LO b LB) L). lia. }
      assert (PA : put D a rows' a = rows') by (unfold put; now rewrite Nat.eqb_refl).
      assert (PB : forall b, b <> a -> put D a rows' b = D b) by (intros b NB; unfold put; apply Nat.eqb_neq in NB; now rewrite NB).
      split.
      - intros b bd d m bb u r A S I1 I2. destruct (Nat.eq_dec b a) as [->|NB].
        + destruct (ca_local _ _ _ _ CA) as (bd' & d' & A' & S' & N1 & N2). assert (bd' = bd) by congruence. subst bd'. assert (d' = d) by congruence. subst d'.
          assert (L : lookup w' a m u = Some r). { unfold lookup. rewrite A, S. unfold bucket. rewrite (In_dget _ _ _ N1 I1). apply In_dget; [now apply (N2 m bb)|exact I2]. }
          destruct (ca_lookup w' a cs rows' CA m u r L) as (x & o & _ & _ & H & _). apply nth_error_Some. congruence.
        + rewrite (FR3 b NB) in A. pose proof (OK b bd d m bb u r A S I1 I2). lia.
      - intros b bd B. destruct (pd_ads _ _ PD b bd B) as (s & W). destruct (Nat.eq_dec b a) as [->|NB]; [|exists s; now rewrite (FR3 b NB)]. destruct (FR4 _ W) as (s' & W'). exists s'. exact W'.
      - intros b c LB LC NB. apply share_local; [now apply LO'| |now apply LO']. intros t u r L t' u' L'.
        destruct (Nat.eq_dec b a) as [->|NA]; [exact (AP c LC (not_eq_sym NB) _ _ _ _ _ L' L)|]. destruct (Nat.eq_dec c a) as [->|NC]; [exact (AP b LB NB _ _ _ _ _ L L')|].
        rewrite (LK b _ _ NA) in L. rewrite (LK c _ _ NC) in L'. apply (proj1 (pd_apart _ _ PD b c LB LC NB) r); [exact (holds_lookup w b t u r L)|exact (holds_lookup w c t' u' r L')].
      - intros b LB. destruct (Nat.eq_dec b a) as [->|NB]; [now rewrite PA|rewrite (PB b NB); now apply (pd_of _ _ PD)].
      - intros b LB. destruct (Nat.eq_dec b a) as [->|NB]; [now rewrite PA|rewrite (PB b NB); now apply (pd_proper _ _ PD)].
      - intros b LB. destruct (Nat.eq_dec b a) as [->|NB]; [now rewrite PA|rewrite (PB b NB); now apply (pd_set _ _ PD)].
      - intros b LB. destruct (Nat.eq_dec b a) as [->|NB]; [now rewrite PA|]. rewrite (PB b NB). split; [now apply LO'| |].
        + intros x Ix. destruct (ca_rows _ _ _ _ (pd_data _ _ PD b LB) x Ix) as (r & o & L & H & M). rewrite (LK b _ _ NB). destruct (OT r o H) as (o' & H' & Q).
          * intros HA. apply (proj1 (pd_apart _ _ PD b a LB LA NB) r); [exact (holds_lookup w b _ _ r L)|exact HA].
          * exists r, o'. split; [exact L|]. split; [exact H'|]. exact (like_adapter cs _ x o o' M Q).
        + intros k N. rewrite (LK b _ _ NB) in N. exact (ca_only _ _ _ _ (pd_data _ _ PD b LB) k N).
    Qed.
  End Edit.

  Section Step.
    Variables (D : aid -> list row) (w : world).
    Hypothesis PD : poised D w.
    Variables (src dst : aid) (sa da : adapter).
    Hypothesis NE : src <> dst.
    Hypothesis SA : nth_error ads src = Some sa.
    Hypothesis DA : nth_error ads dst = Some da.
    Let LS : src < length ads. Proof. apply nth_error_Some. congruence. Qed.
    Let LD : dst < length ads. Proof. apply nth_error_Some. congruence. Qed.
    Lemma sync_poised h dc flags cb : hooks_succeed h -> spares_attributes da h -> yields_once (dc_order dc) ->
      exists w' d, sync_from fuel h dst src dc flags cb None w = (w', Ok d) /\ poised (fun a => if Nat.eqb a dst then pool cs flags (D src) (D dst) else D a) w'.
    Proof.
      intros HK SP YO. destruct (pd_ads _ _ PD src sa SA) as (s & WS). destruct (pd_ads _ _ PD dst da DA) as (s' & WD).
      destruct (AC _ _ SA) as (SC & STp). destruct (AC _ _ DA) as (DC & DTp).
      assert (OB : of_realm cs U (D src ++ D dst)) by (apply of_app; [exact (pd_of _ _ PD src LS)|exact (pd_of _ _ PD dst LD)]).
      assert (PB : proper_values cs (D src ++ D dst)) by (apply proper_app; [exact (pd_proper _ _ PD src LS)|exact (pd_proper _ _ PD dst LD)]).
      assert (MA : matching cs cs (D src ++ D dst) (D src ++ D dst)) by exact (re_matching fuel cs tops U RL _ OB).
      assert (DSs : dataset cs (ad_top da) (D src)) by (rewrite DTp; now apply (pd_set _ _ PD)). assert (DSd : dataset cs (ad_top da) (D dst)) by (rewrite DTp; now apply (pd_set _ _ PD)).
      destruct (po_sync w fuel src dst (set_ad_store sa s) (set_ad_store da s') cs (D src) (D dst) NE (pd_refs _ _ PD) (pd_apart _ _ PD src dst LS LD NE) WS WD
        (pd_data _ _ PD src LS) (pd_data _ _ PD dst LD) DC (eq_trans STp (eq_sym DTp)) DSs DSd MA PB) with (h := h) (dc := dc) (flags := flags) (cb := cb) as (w' & d & E & CA & OK' & (s2 & WD') & OT & FR); auto.
      { change (ad_top (set_ad_store da s')) with (ad_top da). rewrite DTp. apply RL. }
      { exact (re_shallow fuel cs tops U RL _ OB). }
      { exact (re_flags fuel cs tops U RL _ OB). }
      exists w', d. split; [exact E|].
      assert (IN : forall a, a < length ads -> a <> dst -> intact w w' a).
      { intros a LA NA. pose proof (sync_others fuel h dst src dc flags cb None w a NA (pd_refs _ _ PD) (pd_apart _ _ PD a dst LA LD NA)) as Y. now rewrite E in Y. }
      assert (LW : forall a, a < length ads -> local_ok w a) by (intros a LA; exact (ca_local _ _ _ _ (pd_data _ _ PD a LA))).
      assert (LO : forall a, a < length ads -> local_ok w' a).
      { intros a LA. destruct (Nat.eq_dec a dst) as [->|NA]; [exact (ca_local _ _ _ _ CA)|]. destruct (at_ad ads a LA) as (ad & A). destruct (pd_ads _ _ PD a ad A) as (x & WA).
        destruct (OT a _ NA WA) as (y & WA' & SE). exact (local_ext w w' a _ y (LW a LA) WA WA' SE). }
      assert (AP : forall a, a < length ads -> a <> dst -> forall t u r t' u', lookup w' a t u = Some r -> lookup w' dst t' u' = Some r -> False).
      { intros a LA NA t u r t' u' L L'. rewrite (proj1 (IN a LA NA)) in L. destruct (FR _ _ _ L') as [L2|GE].
        - apply (proj1 (pd_apart _ _ PD a dst LA LD NA) r); [exact (holds_lookup w a t u r L)|exact (holds_lookup w dst t' u' r L2)].
        - pose proof (ok_ref w a t u r (pd_refs _ _ PD) (LW a LA) L). lia. }
      assert (IP : incl (pool cs flags (D src) (D dst)) (D src ++ D dst)) by (intros x I; exact (pool_incl cs flags (D src) (D dst) x I)).
      assert (AW : forall a ad, nth_error ads a = Some ad -> exists s0, nth_error (w_ads w') a = Some (set_ad_store ad s0)).
      { intros a ad A. destruct (pd_ads _ _ PD a ad A) as (x & WA). destruct (Nat.eq_dec a dst) as [->|NA].
        + exists s2. assert (ad = da) by congruence. subst ad. exact WD'.
        + destruct (OT a _ NA WA) as (y & WA' & _). exists y. exact WA'. }
      split.
      - exact OK'.
      - exact AW.
      - intros a b LA LB NB. apply share_local; [now apply LO| |now apply LO]. intros t u r L t' u' L'.
        destruct (Nat.eq_dec a dst) as [->|NA]; [exact (AP b LB (not_eq_sym NB) _ _ _ _ _ L' L)|]. destruct (Nat.eq_dec b dst) as [->|NB']; [exact (AP a LA NB _ _ _ _ _ L L')|].
        rewrite (proj1 (IN a LA NA)) in L. rewrite (proj1 (IN b LB NB')) in L'.
        apply (proj1 (pd_apart _ _ PD a b LA LB NB) r); [exact (holds_lookup w a t u r L)|exact (holds_lookup w b t' u' r L')].
      - intros a LA. destruct (Nat.eqb a dst); [|now apply (pd_of _ _ PD)]. exact (of_sub cs U _ _ IP OB).
      - intros a LA. destruct (Nat.eqb a dst); [|now apply (pd_proper _ _ PD)]. exact (proper_sub _ _ IP PB).
      - intros a LA. destruct (Nat.eqb a dst); [|now apply (pd_set _ _ PD)]. rewrite <- DTp. apply pool_dataset; auto. apply (ma_place _ _ _ _ MA).
      - intros a LA. destruct (Nat.eqb a dst) eqn:Q.
        + apply Nat.eqb_eq in Q. subst a. exact CA.
        + apply Nat.eqb_neq in Q. destruct (IN a LA Q) as (I1 & I2 & _). apply (carries_keep w); auto. exact (pd_data _ _ PD a LA).
    Qed.
  End Step.

  Lemma change_poised D w ch : poised D w -> can_do cs U ads D ch -> exists w', do_change fuel ch w = (w', Ok tt) /\ poised (change_rows cs D ch) w'.
  Proof.
    intros PD CD. destruct ch as [a x|a k f v|a p k|c]; cbn [can_do] in CD; cbn [do_change change_rows].
    - destruct CD as (LA & IU & NEW & PAR). destruct (at_ad ads a LA) as (ad & A). destruct (pd_ads _ _ PD a ad A) as (s & WA). destruct (AC a ad A) as (EC & _).
      destruct (add_step fuel cs tops U RL F2 w a (D a) (pd_data _ _ PD a LA) (pd_set _ _ PD a LA) (pd_of _ _ PD a LA) x (set_ad_store ad s) WA EC IU NEW PAR) as (w' & E & ED). exists w'. split; [exact E|].
      apply (edit_poised D w PD a _ w' LA ED).
      + apply of_app; [exact (pd_of _ _ PD a LA)|]. intros y [<-|[]]. exists x. split; [exact IU|apply version_self].
      + apply proper_app; [exact (pd_proper _ _ PD a LA)|]. intros y c f [<-|[]]. now apply (rl_proper _ _ _ _ RL).
      + exact (add_dataset fuel cs tops U RL (D a) (pd_set _ _ PD a LA) x IU NEW PAR).
    - destruct CD as (LA & VV & x0 & c0 & I0 & K0 & C0 & AT). pose proof (pd_of _ _ PD a LA) as OF. pose proof (pd_set _ _ PD a LA) as DS. pose proof (pd_proper _ _ PD a LA) as PV.
      destruct (assign_step fuel cs tops U RL w a (D a) (pd_data _ _ PD a LA) DS OF k f v x0 c0 I0 K0 C0 AT VV) as (w' & E & ED). exists w'. split; [exact E|].
      apply (edit_poised D w PD a _ w' LA ED); rewrite set_row_eq.
      + exact (nr_of cs U (D a) k f v x0 c0 OF K0 C0 AT).
      + exact (nr_proper cs (D a) k f v PV VV).
      + exact (nr_dataset fuel cs tops U RL (D a) k f v x0 c0 DS OF K0 C0 AT).
    - destruct CD as (LA & x0 & I0 & K0 & P0). pose proof (pd_of _ _ PD a LA) as OF. pose proof (pd_set _ _ PD a LA) as DS. pose proof (pd_proper _ _ PD a LA) as PV.
      destruct (drop_step fuel cs tops U RL F2 w a (D a) (pd_data _ _ PD a LA) DS OF p x0 I0 P0) as (w' & E & ED). rewrite K0 in E, ED. exists w'. split; [exact E|].
      pose proof (proj2 (cut_nodup cs (D a) [k] (da_keys _ _ _ DS))) as IC. apply (edit_poised D w PD a _ w' LA ED).
      + exact (of_sub cs U _ _ IC OF).
      + exact (proper_sub _ _ IC PV).
      + exact (cut_dataset cs tops (D a) k DS).
    - destruct CD as (NE & LS & (da & DA & SP) & HK & YO). destruct (at_ad ads _ LS) as (sa & SA).
      destruct (sync_poised D w PD (sy_src c) (sy_dst c) sa da NE SA DA (sy_hooks c) (sy_class c) (sy_flags c) (sy_cb c) HK SP YO) as (w' & d & E & PD'). exists w'. split; [unfold bind; now rewrite E|exact PD'].
  Qed.
  Lemma changes_poised l : forall D w, poised D w -> can_do_all cs U ads D l -> exists w', do_changes fuel l w = (w', Ok tt) /\ poised (fold_left (change_rows cs) l D) w'.
  Proof.
    induction l as [|ch l IH]; intros D w PD CD; [exists w; now split|]. destruct CD as (C1 & C2). destruct (change_poised D w ch PD C1) as (w1 & E & P1).
    destruct (IH _ w1 P1 C2) as (w2 & E2 & P2). exists w2. split; [cbn [do_changes]; unfold bind; now rewrite E|exact P2].
  Qed.
  Lemma empty_poised w : w_ok w -> w_ads w = ads -> (forall ad, In ad ads -> ad_store ad = SLocal []) -> poised (fun _ => []) w.
  Proof.
    intros OK EA ES. assert (LO : forall a, a < length ads -> exists ad, nth_error (w_ads w) a = Some ad /\ ad_store ad = SLocal []).
    { intros a LA. destruct (at_ad ads a LA) as (ad & A). exists ad. rewrite EA. split; [exact A|]. apply ES. now apply nth_error_In in A. }
    assert (LL : forall a, a < length ads -> local_ok w a).
    { intros a LA. destruct (LO a LA) as (ad & A & S). exists ad, []. split; [exact A|]. split; [exact S|]. split; [constructor|intros m b []]. }
    assert (NL : forall a t u, a < length ads -> lookup w a t u = None).
    { intros a t u LA. destruct (LO a LA) as (ad & A & S). unfold lookup. now rewrite A, S. }
    split.
    - exact OK.
    - intros a ad A. exists (ad_store ad). rewrite EA, A. now destruct ad.
    - intros a b LA LB _. apply share_local; auto. intros t u r L. rewrite NL in L by exact LA. discriminate.
    - intros a LA x [].
    - intros a LA x c f [].
    - intros a LA. split; [intros x []|constructor|]. intros [|y l] x m E; discriminate.
    - intros a LA. split; [now apply LL|intros x []|]. intros k N. elim N. now apply NL.
  Qed.
  Lemma poised_data D w a : poised D w -> a < length ads -> has_data w a cs (D a).
  Proof. intros PD LA. exact (ca_has_data w a cs (D a) tops (pd_data _ _ PD a LA) (pd_set _ _ PD a LA) (pd_proper _ _ PD a LA)). Qed.
  Lemma poised_copy D w a b : poised D w -> a < length ads -> b < length ads -> D a = D b -> holds_copy w a w b.
  Proof.
    intros PD LA LB E. apply (carries_copy w a b cs tops (D a) (pd_set _ _ PD a LA) (pd_proper _ _ PD a LA) (pd_data _ _ PD a LA)). rewrite E. exact (pd_data _ _ PD b LB).
  Qed.
End Group.
