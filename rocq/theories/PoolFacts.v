(** * PoolFacts: the records after a synchronisation. *)
From Verif Require Export PoolSpec FleetEnd SkipFacts.

Lemma has_row_ok cs rows x : has_row cs rows x = true <-> exists y, In y rows /\ row_key cs y = row_key cs x.
Proof.
  unfold has_row. rewrite existsb_exists. split.
  - intros (y & I & B). exists y. split; [exact I|]. apply andb_true_iff in B as (B1 & B2). apply String.eqb_eq in B1, B2. now apply injective_projections.
  - intros (y & I & E). exists y. split; [exact I|]. now rewrite E, !String.eqb_refl.
Qed.
Lemma has_row_no cs rows x : has_row cs rows x = false <-> ~ exists y, In y rows /\ row_key cs y = row_key cs x.
Proof. rewrite <- has_row_ok. destruct (has_row cs rows x); split; congruence. Qed.

Section Pool.
  Variables (cs : dict cls) (flags : N) (rows rows' : list row).
  Notation K := (row_key cs).
  Notation P := (pool cs flags rows rows').
  Lemma pool_cases x : In x P <-> (In x rows /\ (N.testbit flags 1 = false \/ has_row cs rows' x = true)) \/ (In x rows' /\ N.testbit flags 2 = true /\ has_row cs rows x = false).
  Proof.
    unfold pool. rewrite in_app_iff, filter_In. rewrite orb_true_iff, negb_true_iff. destruct (N.testbit flags 2).
    - rewrite filter_In, negb_true_iff. intuition congruence.
    - cbn [In]. intuition congruence.
  Qed.
  Lemma pool_incl : incl P (rows ++ rows').
  Proof. intros x I. apply pool_cases in I. apply in_app_iff. tauto. Qed.
  (** what is said of records by their keys is selected *)
  Lemma pool_selected (R : row -> Prop) : (forall x y, In x (rows ++ rows') -> In y (rows ++ rows') -> K x = K y -> R x -> R y) -> forall k,
    (exists x, In x P /\ K x = k /\ R x) <-> selected flags (exists x, In x rows /\ K x = k /\ R x) (exists x, In x rows' /\ K x = k /\ R x).
  Proof.
    intros RK k. assert (L : forall x, In x rows -> In x (rows ++ rows')) by (intros; apply in_app_iff; auto). assert (L' : forall x, In x rows' -> In x (rows ++ rows')) by (intros; apply in_app_iff; auto). split.
    - intros (x & I & E & H). apply pool_cases in I as [(I & B)|(I & B2 & B)].
      + destruct (has_row cs rows' x) eqn:HR.
        * left. split; [eauto|]. apply has_row_ok in HR as (y & J & Ey). exists y. split; [exact J|]. split; [congruence|]. apply (RK x y); auto.
        * right. left. split; [eauto|]. split; [|destruct B; congruence]. intros (y & J & Ey & _). apply has_row_no in HR. apply HR. exists y. split; [exact J|congruence].
      + right. right. split; [|eauto]. intros (y & J & Ey & _). apply has_row_no in B. apply B. exists y. split; [exact J|congruence].
    - intros [((x & I & E & H) & (y & J & Ey & _))|[((x & I & E & H) & N & B)|(N & (y & J & Ey & H) & B)]].
      + exists x. split; [|auto]. apply pool_cases. left. split; [exact I|]. right. apply has_row_ok. exists y. split; [exact J|congruence].
      + exists x. split; [|auto]. apply pool_cases. left. auto.
      + exists y. split; [|auto]. apply pool_cases. right. split; [exact J|]. split; [exact B|]. apply has_row_no. intros (x & I & E). apply N. exists x. split; [exact I|]. split; [congruence|]. apply (RK y x); auto.
  Qed.
  Variable tops : list string.
  Hypothesis DS : dataset cs tops rows.
  Hypothesis DS' : dataset cs tops rows'.
  Hypothesis PL : forall x y, In x (rows ++ rows') -> In y (rows ++ rows') -> K x = K y -> r_parent x = r_parent y.
  Lemma filter_split A (f : A -> bool) l : forall l1 x l2, filter f l = l1 ++ x :: l2 -> exists m1 m2, l = m1 ++ x :: m2 /\ l1 = filter f m1 /\ f x = true.
  Proof.
    induction l as [|y l IH]; intros l1 x l2 E; [destruct l1; discriminate|]. cbn [filter] in E. destruct (f y) eqn:F.
    - destruct l1 as [|z l1]; injection E as -> E; [exists [], l; auto|]. destruct (IH _ _ _ E) as (m1 & m2 & -> & -> & G). exists (z :: m1), m2. cbn [filter]. rewrite F. auto.
    - destruct (IH _ _ _ E) as (m1 & m2 & -> & -> & G). exists (y :: m1), m2. cbn [filter]. rewrite F. auto.
  Qed.
  Lemma nodup_filter_map (f : row -> bool) l : NoDup (map K l) -> NoDup (map K (filter f l)).
  Proof.
    induction l as [|x l IH]; [auto|]. cbn [map filter]. intros N. inversion N as [|? ? NI N']; subst. destruct (f x); [|auto]. cbn [map]. constructor; [|auto].
    intros I. apply NI. apply in_map_iff in I as (y & E & I). apply filter_In in I as (I & _). apply in_map_iff. eauto.
  Qed.
  Lemma pool_dataset : dataset cs tops P.
  Proof.
    split.
    - intros x I. apply pool_incl, in_app_iff in I as [I|I]; [exact (da_class _ _ _ DS x I)|exact (da_class _ _ _ DS' x I)].
    - unfold pool. rewrite map_app. apply NoDup_app_intro.
      + apply nodup_filter_map. apply DS.
      + destruct (N.testbit flags 2); [apply nodup_filter_map; apply DS'|constructor].
      + intros k I J. destruct (N.testbit flags 2); [|destruct J]. apply in_map_iff in I as (x & E & I). apply filter_In in I as (I & _). apply in_map_iff in J as (y & E' & J).
        apply filter_In in J as (_ & J). apply negb_true_iff, has_row_no in J. apply J. exists x. split; [exact I|congruence].
    - intros l x m E. unfold pool in E. set (F := filter _ rows) in E. apply app_eq_app in E as (l3 & [(E1 & E2)|(E1 & E2)]).
      + destruct l3 as [|x' l3].
        * (* the first of the second part *)
          cbn [app] in E2. rewrite app_nil_r in E1. subst l. destruct (N.testbit flags 2) eqn:B2; [|discriminate]. symmetry in E2. change (x :: m) with ([] ++ x :: m) in E2.
          destruct (filter_split _ _ _ _ _ _ E2) as (m1 & m2 & ER & EL & FX). pose proof (da_parent _ _ _ DS' m1 x m2 ER) as Q. destruct (r_parent x) as [p|] eqn:PX; [|exact Q].
          destruct Q as (NT & y & c & Iy & Ky & Dy & Ch). split; [exact NT|]. destruct (has_row cs rows y) eqn:HR.
          -- apply has_row_ok in HR as (z & Iz & Kz). exists z, c. split; [|split; [congruence|split; [|exact Ch]]].
             ++ apply filter_In. split; [exact Iz|]. apply orb_true_iff. right. apply has_row_ok. exists y. split; [rewrite ER; apply in_app_iff; auto|auto].
             ++ now replace (r_type z) with (r_type y) by (change (r_type y) with (fst (K y)); now rewrite <- Kz).
          -- exfalso. assert (I : In y (filter (fun y => negb (has_row cs rows y)) m1)) by (apply filter_In; split; [exact Iy|now rewrite HR]). rewrite <- EL in I. destruct I.
        * injection E2 as <- E2. unfold F in E1. destruct (filter_split _ _ _ _ _ _ E1) as (m1 & m2 & ER & EL & FX). pose proof (da_parent _ _ _ DS m1 x m2 ER) as Q. destruct (r_parent x) as [p|] eqn:PX; [|exact Q].
          destruct Q as (NT & y & c & Iy & Ky & Dy & Ch). split; [exact NT|]. exists y, c. split; [|auto]. rewrite EL. apply filter_In. split; [exact Iy|]. apply orb_true_iff in FX as [FX|FX]; [now rewrite FX|].
          apply orb_true_iff. right. apply has_row_ok in FX as (x2 & Ix2 & Kx2). apply has_row_ok.
          assert (PX2 : r_parent x2 = Some p) by (rewrite (PL x2 x); [exact PX| | |exact Kx2]; apply in_app_iff; [auto|left; rewrite ER; apply in_app_iff; right; now left]).
          apply in_split in Ix2 as (n1 & n2 & ER2). pose proof (da_parent _ _ _ DS' n1 x2 n2 ER2) as Q2. rewrite PX2 in Q2. destruct Q2 as (_ & y2 & _ & Iy2 & Ky2 & _). exists y2. split; [rewrite ER2; apply in_app_iff; auto|congruence].
      + (* in the second part *)
        subst l. destruct (N.testbit flags 2) eqn:B2; [|destruct l3; discriminate]. destruct (filter_split _ _ _ _ _ _ E2) as (m1 & m2 & ER & EL & FX).
        pose proof (da_parent _ _ _ DS' m1 x m2 ER) as Q. destruct (r_parent x) as [p|] eqn:PX; [|exact Q].
        destruct Q as (NT & y & c & Iy & Ky & Dy & Ch). split; [exact NT|]. destruct (has_row cs rows y) eqn:HR.
        * apply has_row_ok in HR as (z & Iz & Kz). exists z, c. split; [|split; [congruence|split; [|exact Ch]]].
          -- apply in_app_iff. left. apply filter_In. split; [exact Iz|]. apply orb_true_iff. right. apply has_row_ok. exists y. split; [rewrite ER; apply in_app_iff; auto|auto].
          -- now replace (r_type z) with (r_type y) by (change (r_type y) with (fst (K y)); now rewrite <- Kz).
        * exists y, c. split; [|auto]. apply in_app_iff. right. rewrite EL. apply filter_In. split; [exact Iy|now rewrite HR].
  Qed.
End Pool.

(** subsets of consistent records *)
Lemma matching_sub cs U rows rows' : matching cs cs U U -> incl rows U -> incl rows' U -> matching cs cs rows rows'.
Proof.
  intros [A B C D] I I'. split.
  - intros x c Ix. apply A. auto.
  - intros x y c c' f Ix Iy. apply B; auto.
  - intros x y Ix Iy. apply C; auto.
  - intros l p q Ip Iq. assert (X : forall z, In z l -> In z (map (fun x => (cs, x)) U ++ map (fun x => (cs, x)) U)).
    { intros z Iz. apply in_app_iff. left. apply in_app_iff in Iz as [Iz|Iz]; apply in_map_iff in Iz as (x & <- & Ix); apply (in_map (fun x => (cs, x))); auto. }
    apply D; auto.
Qed.
Lemma shallow_sub cs U rows n : shallow cs U n -> incl rows U -> shallow cs rows n.
Proof. intros (lv & H) I. exists lv. intros x Ix. apply H. auto. Qed.

(** ** One synchronisation *)
Section Two.
  Variables (w : world) (fuel : nat) (src dst : aid) (sa da : adapter) (cs : dict cls) (rows rows' : list row).
  Hypothesis NE : src <> dst.
  Hypothesis OK : w_ok w.
  Hypothesis SN : share_nothing w src dst.
  Hypothesis SA : nth_error (w_ads w) src = Some sa.
  Hypothesis DA : nth_error (w_ads w) dst = Some da.
  Hypothesis ST : carries w src cs rows.
  Hypothesis ST' : carries w dst cs rows'.
  Hypothesis DC : ad_classes da = cs.
  Hypothesis TE : ad_top sa = ad_top da.
  Hypothesis DS : dataset cs (ad_top da) rows.
  Hypothesis DS' : dataset cs (ad_top da) rows'.
  Hypothesis MA : matching cs cs (rows ++ rows') (rows ++ rows').
  Hypothesis PV : proper_values cs (rows ++ rows').
  Hypothesis TN : NoDup (ad_top da).
  Hypothesis F2 : 2 <= fuel.
  Hypothesis SH : shallow cs (rows ++ rows') (fuel - 1).
  Hypothesis NF : no_flags cs (rows ++ rows').
  Notation K := (row_key cs).
  Notation P flags := (pool cs flags rows rows').

  Let LL : incl rows (rows ++ rows') := incl_appl rows' (incl_refl rows).
  Let LR : incl rows' (rows ++ rows') := incl_appr rows (incl_refl rows').
  Lemma po_ma : matching cs cs rows rows'.
  Proof. exact (matching_sub cs _ rows rows' MA LL LR). Qed.
  Lemma po_ds : dataset cs (ad_top sa) rows.
  Proof. rewrite TE. exact DS. Qed.
  Lemma po_cl r0 : incl r0 (rows ++ rows') -> forall x c, In x r0 -> dget cs (r_type x) = Some c -> exists c', dget (ad_classes da) (r_type x) = Some c' /\ c_modelname c' = r_type x /\ same_shape c' c /\ creatable c'.
  Proof. intros I x c Ix D. rewrite DC. apply (ma_class _ _ _ _ MA); auto. Qed.
  Lemma po_pv : proper_values cs rows.
  Proof. intros x c f I. apply PV. auto. Qed.
  Lemma po_tt t : In t (ad_top sa) <-> In t (ad_top da).
  Proof. now rewrite TE. Qed.
  Lemma po_alike : alike w fuel src dst sa da.
  Proof. exact (two_alike w fuel src dst sa da cs cs rows rows' NE OK SN SA DA ST ST' po_ds DS' po_ma (po_cl rows LL) (po_cl rows' LR) po_pv TN po_tt F2 (shallow_sub _ _ _ _ SH LR)). Qed.
  Lemma po_comparable : comparable w fuel src dst sa da.
  Proof. exact (two_comparable w fuel src dst sa da cs cs rows rows' NE OK ST ST' po_ds DS' po_ma (po_cl rows LL) (po_cl rows' LR) po_pv F2 (shallow_sub _ _ _ _ SH LL) (shallow_sub _ _ _ _ SH LR)). Qed.
  Lemma po_entire : entire w 0 src dst sa da.
  Proof. exact (two_entire w src dst sa da cs cs rows rows' ST ST' po_ds po_tt 0 eq_refl eq_refl). Qed.
  Lemma po_place x y : In x (rows ++ rows') -> In y (rows ++ rows') -> K x = K y -> r_parent x = r_parent y.
  Proof. apply (ma_place _ _ _ _ MA). Qed.

  Lemma there_rows a r0 tops : carries w a cs r0 -> dataset cs tops r0 -> forall k, there w a k <-> exists x, In x r0 /\ K x = k /\ True.
  Proof.
    intros CA D k. split.
    - intros (o & R & IK). destruct (ca_read w a cs r0 CA o R) as (x & I & M). exists x. split; [exact I|]. split; [|exact Logic.I]. exact (ca_key cs r0 tops D o x k I M IK).
    - intros (x & I & <- & _). destruct (ca_object w a cs r0 tops CA D x I) as (o & R & M). exists o. split; [exact R|]. exact (ca_is cs r0 tops D x o I M).
  Qed.
  (** the children of an object are the records that name it *)
  Lemma kid_rows a r0 x o t f u c : carries w a cs r0 -> like_row cs r0 x o -> dget cs (r_type x) = Some c -> In (t, f) (c_children c) ->
    has_child o f u <-> exists y, In y r0 /\ K y = (t, u) /\ r_parent y = Some (K x).
  Proof.
    intros CA (c' & D' & _ & _ & _ & _ & _ & _ & MK) D If. rewrite D in D'. injection D' as <-. destruct (MK t f If) as (l & G & _ & EL). split.
    - intros (l' & G' & I). assert (l' = l) by congruence. subst l'. apply EL, row_kids_In in I as (y & I & Py & Ky). eauto.
    - intros (y & I & Ky & Py). exists l. split; [exact G|]. apply EL. apply row_kids_In. eauto.
  Qed.
  Lemma po_kids flags k t u : In u (row_kids cs (P flags) k t) <->
    selected flags (exists y, In y rows /\ K y = (t, u) /\ r_parent y = Some k) (exists y, In y rows' /\ K y = (t, u) /\ r_parent y = Some k).
  Proof.
    rewrite row_kids_In. rewrite <- (pool_selected cs flags rows rows' (fun y => r_parent y = Some k)).
    - split; intros (y & A & B & C); eauto.
    - intros x y Ix Iy E H. rewrite <- H. symmetry. now apply po_place.
  Qed.
  Lemma selected_iff flags a b a' b' : (a <-> a') -> (b <-> b') -> selected flags a b <-> selected flags a' b'.
  Proof. unfold selected. tauto. Qed.

  Lemma po_sync h dc flags cb : hooks_succeed h -> spares_attributes da h -> yields_once (dc_order dc) ->
    exists w' d, sync_from fuel h dst src dc flags cb None w = (w', Ok d) /\ carries w' dst cs (P flags) /\ w_ok w' /\
      (exists s, nth_error (w_ads w') dst = Some (set_ad_store da s)) /\
      (forall b ad, b <> dst -> nth_error (w_ads w) b = Some ad -> exists s', nth_error (w_ads w') b = Some (set_ad_store ad s') /\ store_ext (ad_store ad) s') /\
      (forall t u r, lookup w' dst t u = Some r -> lookup w dst t u = Some r \/ length (w_heap w) <= r).
  Proof.
    intros HK SP YO.
    destruct (sync_merged fuel h dst src dc flags cb w sa da po_alike po_comparable HK SP YO po_entire) as (w' & d & E & [MK MV MR] & (LO & KY & AD) & OK' & OT & NW & OR).
    exists w', d. split; [exact E|]. split; [|split; [exact OK'|split; [exact AD|split; [exact OT|exact NW]]]].
    assert (TH : forall k, there w' dst k <-> exists x, In x (P flags) /\ K x = k /\ True).
    { intros k. rewrite MK, (pool_selected cs flags rows rows' (fun _ => True)) by auto. apply selected_iff; [exact (there_rows src rows _ ST po_ds k)|exact (there_rows dst rows' _ ST' DS' k)]. }
    split; [exact LO| |].
    - intros x I. destruct (proj2 (TH (K x))) as (o & R' & IK'); [eauto|].
      assert (X : In (K x, o) (stored_objs w' dst)) by (apply (read_iff w' dst LO KY); auto). apply (stored_iff w' dst LO) in X as (r & L & Hh).
      exists r, o. split; [exact L|]. split; [exact Hh|]. apply pool_cases in I as [(I & _)|(I & B2 & HR)].
      + destruct (ca_object w src cs rows (ad_top sa) ST po_ds x I) as (s & R & M). pose proof (ca_is cs rows (ad_top sa) po_ds x s I M) as IK.
        destruct (MV s o _ R IK R' IK') as ((ET & SS0 & _ & AT) & CH). destruct (OR s _ r o R IK L Hh) as (c' & D' & FR). change (fst (K x)) with (r_type x) in D'. rewrite DC in D'.
        pose proof M as (c & D & T & SS & EF & ND & VI & VA & MKs). rewrite D in D'. injection D' as <-.
        assert (SO : same_shape (o_cls o) c) by (destruct SS0 as (P1 & P2 & P3 & P4), SS as (Q1 & Q2 & Q3 & Q4); repeat split; congruence).
        exists c. split; [exact D|]. split; [exact (proj1 IK')|]. split; [exact SO|].
        assert (FI : o_flags o = 0%N /\ NoDup (dkeys (o_vals o)) /\ forall f, In f (c_identifiers c) -> dget (o_vals o) f = dget (o_vals s) f).
        { destruct FR as [(z & RZ & KZ & ZF & ZK & ZV)|(ZF & ZN & ZV)].
          - destruct (ca_read w dst cs rows' ST' z RZ) as (y & J & cy & _ & _ & _ & YF & YN & _). split; [congruence|]. split; [now rewrite ZK|]. intros f If. rewrite (ZV f If).
            apply (two_ids w src dst sa da cs cs rows rows' ST ST' po_ds DS' po_ma (po_cl rows LL) (po_cl rows' LR) s z _ R RZ IK KZ). destruct SS as (Q1 & _). congruence.
          - split; [rewrite ZF; exact (NF x c (LL x I) D)|]. split; [exact ZN|]. intros f If. now apply ZV. }
        destruct FI as (F0 & FN & FV). split; [exact F0|]. split; [exact FN|]. split; [|split].
        * intros f If. rewrite (FV f If). exact (VI f If).
        * intros f If. destruct (AT f) as (v & v' & G & G' & Q); [destruct SS as (_ & _ & SA3 & _); congruence|]. destruct (VA f If) as (v0 & v1 & V0 & G1 & Q1). exists v0, v'. split; [exact V0|]. split; [exact G'|].
          assert (v1 = v) by congruence. subst v1. exact (py_eq_trans _ _ _ Q1 Q).
        * intros t f If. destruct (CH t f) as (l' & G' & ND' & EQ); [destruct SS as (_ & _ & _ & SC); congruence|].
          exists l'. split; [exact G'|]. split; [exact ND'|]. intros u. rewrite EQ, po_kids. apply selected_iff; [exact (kid_rows src rows x s t f u c ST M D If)|]. split.
          -- intros (z & RZ & KZ & HC). destruct (ca_read w dst cs rows' ST' z RZ) as (y & J & My). pose proof (ca_key cs rows' (ad_top da) DS' z y _ J My KZ) as Ky.
             assert (TY : r_type y = r_type x) by (change (fst (K y) = fst (K x)); now rewrite Ky). assert (Dy : dget cs (r_type y) = Some c) by now rewrite TY.
             apply (kid_rows dst rows' y z t f u c ST' My Dy If) in HC. now rewrite Ky in HC.
          -- intros (y & J & Ky & Py). destruct (ca_before cs rows' (ad_top da) DS' y _ J Py) as (l & y2 & m & c2 & ER & Jy & Ky2 & Dy2 & _). assert (J2 : In y2 rows') by (rewrite ER; apply in_app_iff; auto).
             destruct (ca_object w dst cs rows' (ad_top da) ST' DS' y2 J2) as (z & RZ & Mz). exists z. split; [exact RZ|]. split; [rewrite <- Ky2; exact (ca_is cs rows' (ad_top da) DS' y2 z J2 Mz)|].
             assert (TY : r_type y2 = r_type x) by (change (fst (K y2) = fst (K x)); now rewrite Ky2). assert (Dy : dget cs (r_type y2) = Some c) by now rewrite TY.
             apply (kid_rows dst rows' y2 z t f u c ST' Mz Dy If). rewrite Ky2. eauto.
      + destruct (ca_object w dst cs rows' (ad_top da) ST' DS' x I) as (z & R & M). pose proof (ca_is cs rows' (ad_top da) DS' x z I M) as IK. apply has_row_no in HR.
        assert (NS : ~ there w src (K x)) by (intros T; apply (there_rows src rows _ ST po_ds) in T as (y & J & Ey & _); apply HR; eauto).
        destruct (MR z o _ R IK NS R' IK') as (EC & EV & EK & EF). destruct M as (c & D & T & SS & F0 & ND & VI & VA & MKs).
        exists c. split; [exact D|]. split; [exact (proj1 IK')|]. rewrite EC, EV, EF. split; [exact SS|]. split; [exact F0|]. split; [exact ND|]. split; [exact VI|]. split; [exact VA|].
        intros t f If. rewrite EK. destruct (MKs t f If) as (l & G & NDl & EL). exists l. split; [exact G|]. split; [exact NDl|]. intros u. rewrite EL, po_kids, row_kids_In.
        assert (NO : ~ exists y, In y rows /\ K y = (t, u) /\ r_parent y = Some (K x)).
        { intros (y & J & _ & Py). destruct (ca_before cs rows (ad_top da) DS y _ J Py) as (l1 & y2 & m & c2 & ER & Jy & Ky2 & _). apply HR. exists y2. split; [rewrite ER; apply in_app_iff; auto|exact Ky2]. }
        unfold selected. split; [intros (y & J & Py & Ky); right; right; split; [exact NO|]; split; [eauto|exact B2]|]. intros [(A & _)|[(A & _)|(_ & (y & J & Ky & Py) & _)]]; [contradiction|contradiction|eauto].
    - intros k L. destruct (lookup w' dst (fst k) (snd k)) as [r|] eqn:El; [|congruence]. destruct (KY _ _ _ El) as (o & Hh & T & U & _).
      destruct (proj2 (read_iff w' dst LO KY k o)) as (R & IK); [apply (stored_iff w' dst LO); eauto|]. destruct (proj1 (TH k)) as (x & I & Ex & _); [exists o; auto|]. eauto.
  Qed.
End Two.
