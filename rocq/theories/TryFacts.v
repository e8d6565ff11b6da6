(** * TryFacts: the records after a synchronisation that may have failed. *)
From Verif Require Import FailAlike.
From Verif Require Export TrySpec EditEnd FailRows.

Lemma pick_list {A B} (P : A -> B -> Prop) l : (forall x, In x l -> exists y, P x y) -> exists l', Forall2 P l l'.
Proof.
  induction l as [|x l IH]; intros H; [exists []; constructor|]. destruct (H x (or_introl eq_refl)) as (y & Y). destruct IH as (l' & F); [intros z I; apply H; now right|]. exists (y :: l'). now constructor.
Qed.
Section Sub.
  Variables (cs : dict cls) (tops : list string).
  Notation K := (row_key cs).
  Lemma sub_dataset (keep : row -> bool) L : dataset cs tops L -> (forall x y, In x L -> In y L -> keep x = true -> r_parent x = Some (K y) -> keep y = true) -> dataset cs tops (filter keep L).
  Proof.
    intros DS UP. split.
    - intros x I. apply filter_In in I as (I & _). exact (da_class _ _ _ DS x I).
    - apply nodup_filter_map. apply DS.
    - intros l x m E. destruct (filter_split _ _ _ _ _ _ E) as (m1 & m2 & EL & -> & KX). pose proof (da_parent _ _ _ DS m1 x m2 EL) as Q. destruct (r_parent x) as [p|] eqn:PX; [|exact Q].
      destruct Q as (NT & y & c & Iy & Ky & Dy & Ch). split; [exact NT|]. exists y, c. split; [|auto]. apply filter_In. split; [exact Iy|]. apply (UP x y); auto.
      + rewrite EL. apply in_app_iff. right. now left.
      + rewrite EL. apply in_app_iff. now left.
      + congruence.
  Qed.
  Lemma pick_dataset L L' : dataset cs tops L -> Forall2 (fun x y => K y = K x /\ r_parent y = r_parent x) L L' ->
    (forall x, In x L' -> exists c, dget cs (r_type x) = Some c /\ c_modelname c = r_type x /\ creatable c /\ forall f, In (f, None) (c_fields c) -> dget (r_kw x) f <> None) -> dataset cs tops L'.
  Proof.
    intros DS F CL. split.
    - exact CL.
    - assert (E : map K L' = map K L) by (clear DS CL; induction F as [|x y L L' (E & _) F IH]; cbn [map]; congruence). rewrite E. apply DS.
    - intros l y m E. subst L'. apply Forall2_app_inv_r in F as (l1 & l2 & F1 & F2 & EL). inversion F2 as [|x y' l2' m' (Ky & Py) F2' E2 E3]; subst.
      assert (TY : r_type y = r_type x) by (change (fst (K y) = fst (K x)); now rewrite Ky).
      pose proof (da_parent _ _ _ DS l1 x l2' eq_refl) as Q. rewrite Py, TY. destruct (r_parent x) as [p|]; [|exact Q]. destruct Q as (NT & z & c & Iz & Kz & Dz & Ch). split; [exact NT|].
      assert (X : exists z', In z' l /\ K z' = K z). { clear - F1 Iz. induction F1 as [|a b l1 l (A & _) F IH]; [destruct Iz|]. destruct Iz as [->|Iz]; [exists b; split; [now left|exact A]|]. destruct (IH Iz) as (z' & I & Y). exists z'. split; [now right|exact Y]. }
      destruct X as (z' & Iz' & Kz'). exists z', c. split; [exact Iz'|]. split; [congruence|]. split; [|exact Ch]. now replace (r_type z') with (r_type z) by (change (fst (K z) = fst (K z')); now rewrite Kz').
  Qed.
End Sub.

(** ** One synchronisation *)
Section Two.
  Variables (w : world) (fuel : nat) (src dst : aid) (sa da : adapter) (cs : dict cls) (rows rows' : list row).
  Hypothesis NE : src <> dst.
  Hypothesis OK : w_ok w.
  Hypothesis SN : share_nothing w src dst.
  Hypothesis SA : nth_error (w_ads w) src = Some sa.
  Hypothesis DA : nth_error (w_ads w) dst = Some da.
  Hypothesis ST : carries w src cs rows.
  Hypothesis ST' : carries w dst cs rows'.
  Hypothesis DC : ad_classes da = cs.
  Hypothesis TE : ad_top sa = ad_top da.
  Hypothesis DS : dataset cs (ad_top da) rows.
  Hypothesis DS' : dataset cs (ad_top da) rows'.
  Hypothesis MA : matching cs cs (rows ++ rows') (rows ++ rows').
  Hypothesis PV : proper_values cs (rows ++ rows').
  Hypothesis TN : NoDup (ad_top da).
  Hypothesis F2 : 2 <= fuel.
  Hypothesis SH : shallow cs (rows ++ rows') (fuel - 1).
  Hypothesis NF : unmarked cs.
  Notation K := (row_key cs).

  Let LL : incl rows (rows ++ rows') := incl_appl rows' (incl_refl rows).
  Let LR : incl rows' (rows ++ rows') := incl_appr rows (incl_refl rows').
  Let PL : forall x y, In x (rows ++ rows') -> In y (rows ++ rows') -> K x = K y -> r_parent x = r_parent y := ma_place _ _ _ _ MA.
  Lemma tr_deletable : children_deletable w dst da.
  Proof.
    split.
    - intros p k o _ R _. destruct (ca_read w dst cs rows' ST' o R) as (x & _ & c & _ & _ & _ & -> & _). now split.
    - intros t c t' f c' _ _ E. rewrite DC in E. rewrite (NF _ _ E). now split.
  Qed.

  Section After.
    Variables (flags : N) (w' : world).
    Hypothesis LV : leaves flags fuel w src dst sa da w'.
    Let LO' : local_ok w' dst := proj1 (lv_good _ _ _ _ _ _ _ _ LV).
    Let KY' : keyed w' dst := proj1 (proj2 (lv_good _ _ _ _ _ _ _ _ LV)).
    Notation Q := (pool cs 4 rows rows').
    Definition present (x : row) : bool := match look w' dst (K x) with Some _ => true | None => false end.
    Lemma q_in x : In x Q <-> In x rows \/ (In x rows' /\ has_row cs rows x = false).
    Proof. rewrite pool_cases. replace (N.testbit 4 1) with false by reflexivity. replace (N.testbit 4 2) with true by reflexivity. tauto. Qed.
    Lemma q_key k : (exists x, In x Q /\ K x = k) <-> exists x, In x (rows ++ rows') /\ K x = k.
    Proof.
      split.
      - intros (x & I & E). exists x. split; [|exact E]. apply q_in in I as [I|(I & _)]; auto.
      - intros (x & I & E). apply in_app_iff in I as [I|I]; [exists x; rewrite q_in; auto|]. destruct (has_row cs rows x) eqn:HR; [|exists x; rewrite q_in; auto].
        apply has_row_ok in HR as (y & J & Ey). exists y. rewrite q_in. split; [auto|congruence].
    Qed.
    Lemma q_all x : In x Q -> In x (rows ++ rows').
    Proof. rewrite q_in. intros [I|(I & _)]; auto. Qed.
    Lemma tr_parent p k : listed w' dst p k -> exists x, In x (rows ++ rows') /\ K x = k /\ r_parent x = Some p.
    Proof.
      intros L. apply (lv_listed _ _ _ _ _ _ _ _ LV) in L as [L|L].
      - apply (ca_listed w src cs rows (ad_top da) ST DS) in L as (x & I & Px & Kx). eauto.
      - apply (ca_listed w dst cs rows' (ad_top da) ST' DS') in L as (x & I & Px & Kx). eauto.
    Qed.
    Lemma tr_top x : In x (rows ++ rows') -> r_parent x <> None -> ~ In (r_type x) (ad_top da).
    Proof.
      intros I P. apply in_app_iff in I as [I|I]; apply in_split in I as (l & m & E); [pose proof (da_parent _ _ _ DS l x m E) as X|pose proof (da_parent _ _ _ DS' l x m E) as X]; destruct (r_parent x); try congruence; apply X.
    Qed.
    (** what is there has its parent there *)
    Lemma tr_listed x p : In x (rows ++ rows') -> look w' dst (K x) <> None -> r_parent x = Some p -> listed w' dst p (K x).
    Proof.
      intros I N P. destruct (lv_alike _ _ _ _ _ _ _ _ LV) as (s & s' & AL). destruct (cp_rooted _ _ _ (al_dcomplete _ _ _ _ _ _ AL) (K x) N) as [T|(p' & L)].
      - elim (tr_top x I); [congruence|exact T].
      - destruct (tr_parent p' (K x) L) as (y & J & Ey & Py). rewrite (PL y x J I Ey), P in Py. injection Py as ->. exact L.
    Qed.
    Lemma tr_up x y : In x Q -> In y Q -> present x = true -> r_parent x = Some (K y) -> present y = true.
    Proof.
      intros I J PX P. unfold present in *. assert (L : listed w' dst (K y) (K x)) by (apply tr_listed; auto using q_all; destruct (look w' dst (K x)); congruence).
      apply (local_listed w' dst _ _ LO' KY') in L as (r & o & L & _). now rewrite L.
    Qed.
    Definition fits_row (x y : row) : Prop := K y = K x /\ r_parent y = r_parent x /\ In y (rows ++ rows') /\
      forall r o c f, look w' dst (K x) = Some r -> nth_error (w_heap w') r = Some o -> dget cs (r_type x) = Some c -> In f (c_attributes c) ->
        exists v v', value_in c (r_kw y) f = Some v /\ dget (o_vals o) f = Some v' /\ py_eq v v' = true.
    Lemma tr_pick x : In x (filter present Q) -> exists y, fits_row x y.
    Proof.
      intros I. apply filter_In in I as (I & PX). unfold present in PX. destruct (look w' dst (K x)) as [r|] eqn:L; [|discriminate]. destruct (KY' _ _ _ L) as (o & Hh & _).
      destruct (lv_valued _ _ _ _ _ _ _ _ LV (K x) r o L Hh) as (c & D & [(s & R & IK & CO)|(z & R & IK & RE)]); change (fst (K x)) with (r_type x) in D; rewrite DC in D.
      - destruct (ca_read w src cs rows ST s R) as (y & J & M). pose proof (ca_key cs rows (ad_top da) DS s y _ J M IK) as Ky. exists y. split; [exact Ky|]. split; [apply PL; auto using q_all|]. split; [auto|].
        intros r' o' c' f L' H' D' If. assert (r' = r) by congruence. subst r'. assert (o' = o) by congruence. subst o'. assert (c' = c) by congruence. subst c'.
        destruct M as (c2 & D2 & _ & _ & _ & _ & _ & VA & _). assert (c2 = c) by (replace (r_type y) with (r_type x) in D2 by (change (fst (K x) = fst (K y)); now rewrite Ky); congruence). subst c2.
        destruct (VA f If) as (v & v1 & G & G1 & E1). destruct (CO f If) as (v2 & v' & G2 & G' & E2). assert (v2 = v1) by congruence. subst v2. exists v, v'. split; [exact G|]. split; [exact G'|]. exact (py_eq_trans _ _ _ E1 E2).
      - destruct (ca_read w dst cs rows' ST' z R) as (y & J & M). pose proof (ca_key cs rows' (ad_top da) DS' z y _ J M IK) as Ky. exists y. split; [exact Ky|]. split; [apply PL; auto using q_all|]. split; [auto|].
        intros r' o' c' f L' H' D' If. assert (r' = r) by congruence. subst r'. assert (o' = o) by congruence. subst o'. assert (c' = c) by congruence. subst c'.
        destruct M as (c2 & D2 & _ & _ & _ & _ & _ & VA & _). assert (c2 = c) by (replace (r_type y) with (r_type x) in D2 by (change (fst (K x) = fst (K y)); now rewrite Ky); congruence). subst c2.
        destruct (VA f If) as (v & v1 & G & G1 & E1). exists v, v1. split; [exact G|]. split; [now rewrite (RE f If)|exact E1].
    Qed.
    Lemma tr_there k : look w' dst k <> None -> exists x, In x (rows ++ rows') /\ K x = k.
    Proof.
      intros N. destruct (look w dst k) as [r0|] eqn:L0.
      - destruct (ca_only _ _ _ _ ST' k) as (x & I & E); [unfold look in L0; congruence|]. eauto.
      - destruct (lv_new _ _ _ _ _ _ _ _ LV k L0 N) as (T & _). apply (there_rows w cs src rows _ ST DS) in T as (x & I & E & _). eauto.
    Qed.
    Lemma tr_rows : exists rest, partly cs flags rows rows' rest /\ dataset cs (ad_top da) rest /\ carries w' dst cs rest.
    Proof.
      destruct (pick_list fits_row (filter present Q) tr_pick) as (rest & FF). exists rest.
      assert (DQ : dataset cs (ad_top da) Q) by (apply pool_dataset; auto).
      assert (DP : dataset cs (ad_top da) (filter present Q)) by (apply sub_dataset; [exact DQ|exact tr_up]).
      assert (FW : forall x, In x (filter present Q) -> exists y, In y rest /\ fits_row x y) by (intros x I; destruct (Forall2_in_l _ _ _ _ FF I) as (y & J & F); eauto).
      assert (BW : forall y, In y rest -> exists x, In x (filter present Q) /\ fits_row x y) by (intros y I; destruct (Forall2_in_r _ _ _ _ FF I) as (x & J & F); eauto).
      assert (AL : forall y, In y rest -> In y (rows ++ rows') /\ look w' dst (K y) <> None).
      { intros y I. destruct (BW y I) as (x & J & E & _ & J' & _). split; [exact J'|]. apply filter_In in J as (_ & J). unfold present in J. rewrite E. destruct (look w' dst (K x)); congruence. }
      assert (HAS : forall k, look w' dst k <> None -> exists y, In y rest /\ K y = k).
      { intros k N. destruct (proj2 (q_key k) (tr_there k N)) as (x & I & E). destruct (FW x) as (y & J & Ey & _); [apply filter_In; split; [exact I|]; unfold present; rewrite E; destruct (look w' dst k); congruence|]. exists y. split; [exact J|congruence]. }
      assert (CL : forall x, In x (rows ++ rows') -> exists c, dget cs (r_type x) = Some c /\ c_modelname c = r_type x /\ creatable c /\ forall f, In (f, None) (c_fields c) -> dget (r_kw x) f <> None).
      { intros x I. apply in_app_iff in I as [I|I]; [exact (da_class _ _ _ DS x I)|exact (da_class _ _ _ DS' x I)]. }
      split; [|split].
      - split.
        + intros x I. apply AL in I as (I & _). now apply in_app_iff in I.
        + intros y I C. apply has_row_ok. apply HAS. intros N. destruct (ca_rows _ _ _ _ ST' y I) as (r & o & L & _). assert (N0 : look w dst (K y) <> None) by (unfold look; congruence).
          destruct (lv_left _ _ _ _ _ _ _ _ LV (K y) N0 N) as (NT & B2). destruct C as [C|C]; [|congruence]. apply NT. apply has_row_ok in C as (x & J & E). apply (there_rows w cs src rows _ ST DS). eauto.
        + intros x I. destruct (AL x I) as (_ & N). destruct (look w dst (K x)) as [r|] eqn:L0.
          * left. apply has_row_ok. apply (ca_only _ _ _ _ ST'). unfold look in L0. congruence.
          * right. now apply (lv_new _ _ _ _ _ _ _ _ LV (K x)).
      - apply (pick_dataset cs (ad_top da) _ rest DP); [|intros x I; apply CL; now apply AL]. eapply Forall2_if; [|exact FF]. intros x y (A & B & _). now split.
      - split; [exact LO'| |].
        + intros y I. destruct (BW y I) as (x & J & Ky & Py & Iy & VA). destruct (AL y I) as (_ & N). destruct (look w' dst (K y)) as [r|] eqn:L; [|congruence]. destruct (KY' _ _ _ L) as (o & Hh & T & U & HK).
          exists r, o. split; [exact L|]. split; [exact Hh|]. destruct (CL y Iy) as (c & D & MN & CR & _).
          destruct (lv_twin _ _ _ _ _ _ _ _ LV (K y) r o L Hh) as (c1 & o1 & C1 & _ & _ & S1 & S2 & IK1 & VI1 & WH). change (fst (K y)) with (r_type y) in C1. rewrite DC in C1. assert (c1 = c) by congruence. subst c1.
          exists c. split; [exact D|]. split; [exact T|]. split; [destruct S1 as (X1 & X2 & X3 & X4); repeat split; congruence|].
          assert (TW : o_flags o = 0%N /\ NoDup (dkeys (o_vals o)) /\ exists z, In z (rows ++ rows') /\ K z = K y /\ forall f, In f (c_identifiers c) -> dget (o_vals o) f = value_in c (r_kw z) f).
          { assert (RZ : forall r0 (z : row), like_row cs r0 z o1 -> K z = K y -> forall f, In f (c_identifiers c) -> dget (o_vals o) f = value_in c (r_kw z) f).
            { intros r0 z (cz & Dz & _ & _ & _ & _ & VI & _) Kz f If. assert (cz = c) by (replace (r_type z) with (r_type y) in Dz by (change (fst (K y) = fst (K z)); now rewrite Kz); congruence). subst cz. rewrite (VI1 f If). exact (VI f If). }
            destruct WH as [(R & EF & EK)|(R & EF & EN)].
            - destruct (ca_read w dst cs rows' ST' o1 R) as (z & J1 & M). pose proof (ca_key cs rows' (ad_top da) DS' o1 z _ J1 M IK1) as Kz. pose proof M as (cz & _ & _ & _ & Z0 & ZN & _).
              split; [congruence|]. split; [now rewrite EK|]. exists z. split; [auto|]. split; [exact Kz|]. exact (RZ rows' z M Kz).
            - destruct (ca_read w src cs rows ST o1 R) as (z & J1 & M). pose proof (ca_key cs rows (ad_top da) DS o1 z _ J1 M IK1) as Kz.
              split; [rewrite EF; exact (NF _ _ D)|]. split; [exact EN|]. exists z. split; [auto|]. split; [exact Kz|]. exact (RZ rows z M Kz). }
          destruct TW as (F0 & FN & z & Jz & Kz & VZ). split; [exact F0|]. split; [exact FN|]. assert (TX : r_type x = r_type y) by (change (fst (K x) = fst (K y)); now rewrite Ky). split; [|split].
          * intros f If. rewrite (VZ f If). apply (ma_same _ _ _ _ MA z y c c f); auto. now replace (r_type z) with (r_type y) by (change (fst (K y) = fst (K z)); now rewrite Kz).
          * intros f If. apply (VA r o c f); auto; congruence.
          * intros t f If. assert (If' : In (t, f) (c_children (o_cls o))) by (destruct S1 as (_ & _ & _ & X4); congruence). destruct (dget (o_kids o) f) as [l|] eqn:G; [|now elim (HK t f If')]. exists l. split; [reflexivity|].
            destruct (lv_alike _ _ _ _ _ _ _ _ LV) as (s & s' & AK). destruct (proj2 (local_read w' dst o (K y) LO' KY')) as (RO & IKO); [eauto|].
            split; [exact (cp_once _ _ _ (al_dcomplete _ _ _ _ _ _ AK) o t f l RO If' G)|]. intros u. rewrite row_kids_In. split.
            -- intros Iu. assert (LI : listed w' dst (K y) (t, u)) by (apply (local_listed w' dst _ _ LO' KY'); exists r, o; split; [exact L|]; split; [exact Hh|]; exists f, l; auto).
               destruct (tr_parent _ _ LI) as (a & Ja & Ka & Pa). destruct (HAS (t, u)) as (b & Jb & Kb); [exact (cp_closed _ _ _ (al_dcomplete _ _ _ _ _ _ AK) _ _ LI)|]. exists b. split; [exact Jb|]. split; [|exact Kb].
               rewrite <- Pa. apply PL; [now apply AL|exact Ja|congruence].
            -- intros (b & Jb & Pb & Kb). destruct (AL b Jb) as (Ib & Nb). pose proof (tr_listed b (K y) Ib Nb Pb) as LI. apply (local_listed w' dst _ _ LO' KY') in LI as (r2 & o2 & L2 & H2 & f2 & l2 & I2 & G2 & U2).
               assert (r2 = r) by congruence. subst r2. assert (o2 = o) by congruence. subst o2. rewrite Kb in I2, U2. cbn [fst snd] in I2, U2.
               assert (f2 = f). { destruct S1 as (_ & _ & _ & X4). rewrite <- X4 in I2. pose proof (In_dget _ _ _ (cr_types _ CR) I2). pose proof (In_dget _ _ _ (cr_types _ CR) If). congruence. }
               subst f2. congruence.
        + intros k N. exact (HAS k N).
    Qed.
  End After.
  Lemma try_rows h dc flags cb : hooks_honest h -> deletes_succeed h -> spares_attributes da h -> yields_once (dc_order dc) ->
    exists w' r rest, sync_from fuel h dst src dc flags cb None w = (w', r) /\ partly cs flags rows rows' rest /\ dataset cs (ad_top da) rest /\ carries w' dst cs rest /\ w_ok w' /\
      (exists s, nth_error (w_ads w') dst = Some (set_ad_store da s)) /\
      (forall b ad, b <> dst -> nth_error (w_ads w) b = Some ad -> exists s', nth_error (w_ads w') b = Some (set_ad_store ad s') /\ store_ext (ad_store ad) s') /\
      (forall t u r, lookup w' dst t u = Some r -> lookup w dst t u = Some r \/ length (w_heap w) <= r).
  Proof.
    intros HO DEL SP YO.
    assert (AL : alike w fuel src dst sa da) by (eapply po_alike; eauto). assert (CM : comparable w fuel src dst sa da) by (eapply po_comparable; eauto).
    assert (EN : entire w 0 src dst sa da) by (eapply po_entire; eauto).
    destruct (sync_leaves fuel h dst src dc flags cb w sa da AL CM tr_deletable HO DEL SP YO EN) as (w' & r & E & LV).
    - intros o R. destruct (ca_read w dst cs rows' ST' o R) as (x & _ & c & _ & _ & _ & -> & _). reflexivity.
    - intros k (o & R & IK). exact (ca_rooted w dst cs rows' (ad_top da) ST' DS' k o R IK).
    - destruct (tr_rows flags w' LV) as (rest & PA & DR & CA). exists w', r, rest. split; [exact E|]. split; [exact PA|]. split; [exact DR|]. split; [exact CA|]. split; [apply LV|]. split; [apply LV|]. split; apply LV.
  Qed.
End Two.
