(** * GiveFacts: any adapter that gives the objects of records is a source for a LocalStore.

    As the two sections on two adapters in FleetFacts and PoolFacts, for sources in whatever store. *)
From Verif Require Export EditEnd ShelfEnd.
From Coq Require Import String List.
Import ListNotations.
Open Scope list_scope.

(** What the adapter reads are the objects of the records *)
Record gives (w : world) (a : aid) (cs : dict cls) (rows : list row) (tops : list string) : Prop := mkGives {
  gi_read : forall o, read w a o -> exists x, In x rows /\ like_row cs rows x o;
  gi_object : forall x, In x rows -> exists o, read w a o /\ like_row cs rows x o;
  gi_forest : forest w a tops;
  gi_rooted : forall k o, read w a o -> is_key o k -> rooted w a tops k;
  gi_all : forall t, In t tops -> exists l, objs_all w a t = Ok l;
  gi_by : forall t us, (forall u, In u us -> exists x, In x rows /\ row_key cs x = (t, u)) -> exists l, objs_by w a us t = Ok l
}.
Lemma carries_gives w a cs rows tops : w_ok w -> carries w a cs rows -> dataset cs tops rows -> gives w a cs rows tops.
Proof.
  intros OK CA DS. split.
  - exact (ca_read w a cs rows CA).
  - exact (ca_object w a cs rows tops CA DS).
  - exact (ca_forest w a cs rows tops CA DS).
  - exact (ca_rooted w a cs rows tops CA DS).
  - intros t _. pose proof (ca_local _ _ _ _ CA) as (ad & d & A & B & _). now apply (all_reads w a ad d t).
  - exact (ca_by w a cs rows CA).
Qed.
Lemma made_like la tops rows x o : dataset (ad_classes la) tops rows -> proper_values (ad_classes la) rows -> no_flags (ad_classes la) rows -> In x rows ->
  made_from (ad_classes la) rows x o -> like_row (ad_classes la) rows x o.
Proof.
  intros DS PV NF I M. pose proof (made_type (ad_classes la) rows x o (good_of la rows tops DS x I) M) as T. pose proof (st_vals la rows tops DS o x) as SV.
  pose proof M as (c & D & EC & EF & _ & EV & _ & MK). exists c. split; [exact D|]. split; [exact T|]. split; [rewrite EC; repeat split|].
  destruct (good_of la rows tops DS x I) as (c1 & D1 & _ & CR & _). rewrite D in D1. injection D1 as <-.
  split; [rewrite EF; exact (NF x c I D)|]. split; [unfold dkeys; rewrite EV; exact (cr_fields c CR)|]. split; [|split].
  - intros f If. apply (SV c f I M D). apply in_app_iff. now left.
  - intros f If. assert (If' : In f (c_identifiers c ++ c_attributes c)) by (apply in_app_iff; now right). destruct (PV x c f I D If') as (v & E & Q). exists v, v. rewrite (SV c f I M D If'). auto.
  - intros t f If. exists (row_kids (ad_classes la) rows (row_key (ad_classes la) x) t). split; [now apply MK|]. split; [|tauto]. apply (kids_once (ad_classes la) rows tops DS).
Qed.
Lemma shows_gives w a la tops rows : shows w a la tops rows -> dataset (ad_classes la) tops rows -> proper_values (ad_classes la) rows -> no_flags (ad_classes la) rows ->
  gives w a (ad_classes la) rows tops.
Proof.
  intros SW DS PV NF. split.
  - intros o R. destruct (sw_read _ _ _ _ _ SW o R) as (x & I & M). exists x. split; [exact I|]. now apply (made_like la tops).
  - intros x I. destruct (sw_object _ _ _ _ _ SW x I) as (o & R & M). exists o. split; [exact R|]. now apply (made_like la tops).
  - exact (sh_forest w a la tops rows SW DS).
  - exact (sh_rooted w a la tops rows SW DS).
  - intros t It. destruct (sw_all _ _ _ _ _ SW t It) as (l & E & _). eauto.
  - exact (sw_by _ _ _ _ _ SW).
Qed.

Section One.
  Variables (w : world) (a : aid) (cs : dict cls) (rows : list row) (tops : list string).
  Hypothesis ST : gives w a cs rows tops.
  Notation K := (row_key cs).
  Hypothesis DS : dataset cs tops rows.
  Lemma gi_listed p k : listed w a p k <-> exists x, In x rows /\ r_parent x = Some p /\ K x = k.
  Proof.
    split.
    - intros (o & R & IK & f & l & If & G & IL). destruct (gi_read _ _ _ _ _ ST o R) as (y & Iy & M). pose proof (ca_key cs rows tops DS o y p Iy M IK) as Ky.
      destruct M as (c & D & _ & (_ & _ & _ & SC) & _ & _ & _ & _ & MK). rewrite SC in If. destruct (MK _ _ If) as (l' & G' & _ & EL). assert (l' = l) by congruence. subst l'. apply EL in IL.
      apply row_kids_In in IL as (x & Ix & Px & Kx). exists x. split; [exact Ix|]. split; [congruence|]. now destruct k.
    - intros (x & Ix & Px & Kx). destruct (ca_before cs rows tops DS x p Ix Px) as (l & y & m & c & ER & Iy & Ky & Dy & Ch). assert (Iy' : In y rows) by (rewrite ER; apply in_app_iff; now left).
      destruct (gi_object _ _ _ _ _ ST y Iy') as (o & R & M). exists o. split; [exact R|]. split; [rewrite <- Ky; now apply (ca_is cs rows tops DS)|]. destruct M as (c' & D' & _ & (_ & _ & _ & SC) & _ & _ & _ & _ & MK). rewrite Dy in D'. injection D' as <-.
      apply in_map_iff in Ch as ([t f] & Et & Ch). cbn [fst] in Et. subst t. destruct (MK _ _ Ch) as (l' & G & _ & EL). exists f, l'. rewrite <- Kx. cbn [fst row_key]. rewrite SC.
      split; [exact Ch|]. split; [exact G|]. apply EL. apply row_kids_In. exists x. rewrite Ky. auto.
  Qed.
  Lemma gi_unflagged : unflagged w a.
  Proof. intros o R. destruct (gi_read _ _ _ _ _ ST o R) as (x & I & c & _ & _ & _ & EF & _). rewrite EF. auto. Qed.
  Lemma gi_nodup o : read w a o -> NoDup (dkeys (o_vals o)).
  Proof. intros R. now destruct (gi_read _ _ _ _ _ ST o R) as (x & I & c & _ & _ & _ & _ & ND & _). Qed.
  Lemma gi_plain : proper_values cs rows -> plain_values w a.
  Proof.
    intros PV o R. split; [now apply gi_nodup|]. intros k Ik. destruct (gi_read _ _ _ _ _ ST o R) as (x & I & c & D & _ & (SI & _ & SA & _) & _ & _ & VI & VA & _). rewrite SI, SA in Ik.
    pose proof Ik as Ik'. apply in_app_iff in Ik as [Ik|Ik].
    - rewrite (VI k Ik). exact (PV x c k I D Ik').
    - destruct (VA k Ik) as (v & v' & _ & G & Q). exists v'. split; [exact G|]. apply (py_eq_trans v' v v'); [now rewrite py_eq_sym|exact Q].
  Qed.
  Lemma gi_line N : shallow cs rows N -> forall m k, line w a m k -> m = 0 \/ m < N.
  Proof.
    intros (lv & LV) m k D. assert (X : forall m k, line w a m k -> m = 0 \/ (m <= lv k /\ lv k < N)).
    { clear m k D. induction m as [|m IH]; intros k D; [now left|]. right. destruct D as (p & L & D). apply gi_listed in L as (x & I & P & <-). destruct (LV x I) as (LT & PR). specialize (PR p P).
      destruct (IH _ D) as [->|[]]; lia. }
    destruct (X m k D) as [|[]]; [now left|right; lia].
  Qed.
End One.

(** ** Two adapters *)
Section Two.
  Variables (w : world) (fuel : nat) (src dst : aid) (sa da : adapter) (cs cs' : dict cls) (rows rows' : list row).
  Hypothesis NE : src <> dst.
  Hypothesis OK : w_ok w.
  Hypothesis SN : share_nothing w src dst.
  Hypothesis SA : nth_error (w_ads w) src = Some sa.
  Hypothesis DA : nth_error (w_ads w) dst = Some da.
  Hypothesis ST : gives w src cs rows (ad_top sa).
  Hypothesis ST' : carries w dst cs' rows'.
  Hypothesis DS : dataset cs (ad_top sa) rows.
  Hypothesis DS' : dataset cs' (ad_top da) rows'.
  Hypothesis MA : matching cs cs' rows rows'.
  Hypothesis CL : forall x c, In x rows -> dget cs (r_type x) = Some c -> exists c', dget (ad_classes da) (r_type x) = Some c' /\ c_modelname c' = r_type x /\ same_shape c' c /\ creatable c'.
  Hypothesis CL' : forall x c, In x rows' -> dget cs' (r_type x) = Some c -> exists c', dget (ad_classes da) (r_type x) = Some c' /\ c_modelname c' = r_type x /\ same_shape c' c /\ creatable c'.
  Hypothesis PV : proper_values cs rows.
  Hypothesis TN : NoDup (ad_top da).
  Hypothesis TT : forall t, In t (ad_top sa) <-> In t (ad_top da).
  Hypothesis F2 : 2 <= fuel.
  Hypothesis SH : shallow cs rows (fuel - 1).
  Hypothesis SH' : shallow cs' rows' (fuel - 1).

  Lemma shape_via c1 c2 c3 : same_shape c1 c2 -> same_shape c3 c2 -> same_shape c1 c3.
  Proof. intros (A & B & C & D) (A' & B' & C' & D'). repeat split; congruence. Qed.
  Lemma gv_alike : alike w fuel src dst sa da.
  Proof.
    split; [exact NE|exact OK|exact SN|exact SA|exact DA|exact (ca_local _ _ _ _ ST')|exact (ca_keyed w dst cs' rows' (ad_top da) ST' DS')|exact TN|exact (gi_forest _ _ _ _ _ ST)|exact (ca_forest w dst cs' rows' (ad_top da) ST' DS')|exact (ca_complete w dst cs' rows' (ad_top da) ST' DS')| | | |].
    - split.
      + intros p p' k L L'. apply (gi_listed w src cs rows (ad_top sa) ST DS) in L as (x & I & P & E). apply (ca_listed w dst cs' rows' (ad_top da) ST' DS') in L' as (y & J & P' & E').
        assert (r_parent x = r_parent y) by (apply (ma_place _ _ _ _ MA); congruence). congruence.
      + intros p k L I. apply (fo_top _ _ _ (gi_forest _ _ _ _ _ ST) p k L). now apply TT.
    - intros o [R|R].
      + destruct (gi_read _ _ _ _ _ ST o R) as (x & I & c & D & T & SS & _). destruct (CL x c I D) as (c' & D' & N & SS' & CR). rewrite T. exists c'. split; [exact D'|]. split; [exact N|]. split; [eapply shape_via; eauto|exact CR].
      + destruct (ca_read w dst cs' rows' ST' o R) as (x & I & c & D & T & SS & _). destruct (CL' x c I D) as (c' & D' & N & SS' & CR). rewrite T. exists c'. split; [exact D'|]. split; [exact N|]. split; [eapply shape_via; eauto|exact CR].
    - exact (gi_plain w src cs rows (ad_top sa) ST PV).
    - intros k D. destruct (ca_deep w dst cs' rows' (ad_top da) ST' DS' _ SH' _ _ D); lia.
  Qed.

  Notation ALL := (map (fun x => (cs, x)) rows ++ map (fun x => (cs', x)) rows').
  Lemma gv_either o : read w src o \/ read w dst o -> exists q, In q ALL /\ is_key o (row_key (fst q) (snd q)) /\ get_shortname o = Ok (row_name (fst q) (snd q)).
  Proof.
    intros [R|R].
    - destruct (gi_read _ _ _ _ _ ST o R) as (x & I & M). exists (cs, x). split; [apply in_app_iff; left; now apply (in_map (fun x => (cs, x)))|]. cbn [fst snd].
      split; [now apply (like_key cs rows), M; apply (row_good cs rows (ad_top sa))|]. apply (like_name cs rows); [now apply (row_good cs rows (ad_top sa))|exact M].
    - destruct (ca_read w dst cs' rows' ST' o R) as (x & I & M). exists (cs', x). split; [apply in_app_iff; right; now apply (in_map (fun x => (cs', x)))|]. cbn [fst snd].
      split; [now apply (like_key cs' rows'), M; apply (row_good cs' rows' (ad_top da))|]. apply (like_name cs' rows'); [now apply (row_good cs' rows' (ad_top da))|exact M].
  Qed.
  Lemma gv_in q : In q ALL -> (In (snd q) rows /\ fst q = cs) \/ (In (snd q) rows' /\ fst q = cs').
  Proof. intros I. apply in_app_iff in I as [I|I]; apply in_map_iff in I as (x & <- & I); auto. Qed.
  Lemma gv_parent q q' : In q ALL -> In q' ALL -> row_key (fst q) (snd q) = row_key (fst q') (snd q') -> r_parent (snd q) = r_parent (snd q').
  Proof.
    intros I I' E. destruct (gv_in q I) as [(J & Eq)|(J & Eq)], (gv_in q' I') as [(J' & Eq')|(J' & Eq')]; rewrite Eq, Eq' in E.
    - f_equal. now apply (row_fun cs rows (ad_top sa) DS).
    - now apply (ma_place _ _ _ _ MA).
    - symmetry. now apply (ma_place _ _ _ _ MA).
    - f_equal. now apply (row_fun cs' rows' (ad_top da) DS').
  Qed.
  Lemma gv_listed p k : listed w src p k \/ listed w dst p k -> exists q, In q ALL /\ r_parent (snd q) = Some p /\ row_key (fst q) (snd q) = k.
  Proof.
    intros [L|L].
    - apply (gi_listed w src cs rows (ad_top sa) ST DS) in L as (x & I & P & E). exists (cs, x). split; [apply in_app_iff; left; now apply (in_map (fun x => (cs, x)))|auto].
    - apply (ca_listed w dst cs' rows' (ad_top da) ST' DS') in L as (x & I & P & E). exists (cs', x). split; [apply in_app_iff; right; now apply (in_map (fun x => (cs', x)))|auto].
  Qed.
  Lemma gv_top q : In q ALL -> In (r_type (snd q)) (ad_top sa) -> In (r_type (snd q)) (ad_top da) -> r_parent (snd q) = None.
  Proof.
    intros I T T'. destruct (r_parent (snd q)) as [p|] eqn:P; [|reflexivity]. exfalso. destruct (gv_in q I) as [(J & _)|(J & _)]; apply in_split in J as (l & m & ER).
    - pose proof (da_parent _ _ _ DS l _ m ER) as Q. rewrite P in Q. now apply (proj1 Q).
    - pose proof (da_parent _ _ _ DS' l _ m ER) as Q. rewrite P in Q. now apply (proj1 Q).
  Qed.
  (** the identifiers of an object with the same key in both *)
  Lemma gv_ids s d k : read w src s -> read w dst d -> is_key s k -> is_key d k -> forall f, In f (c_identifiers (o_cls s)) -> dget (o_vals d) f = dget (o_vals s) f.
  Proof.
    intros R R' IK IK' f If. destruct (gi_read _ _ _ _ _ ST s R) as (x & I & M). destruct (ca_read w dst cs' rows' ST' d R') as (y & J & M').
    pose proof (ca_key cs rows (ad_top sa) DS s x k I M IK) as Kx. pose proof (ca_key cs' rows' (ad_top da) DS' d y k J M' IK') as Ky.
    destruct M as (c & D & _ & (SI & _) & _ & _ & VI & _). destruct M' as (c' & D' & _ & (SI' & _) & _ & _ & VI' & _). assert (TE : r_type x = r_type y) by (rewrite <- Ky in Kx; now injection Kx).
    destruct (CL x c I D) as (c2 & D2 & _ & (X & _) & _). destruct (CL' y c' J D') as (c3 & D3 & _ & (Y & _) & _). rewrite TE in D2. assert (c3 = c2) by congruence. subst c3.
    rewrite SI in If. rewrite (VI f If). rewrite (VI' f) by congruence. symmetry. apply (ma_same _ _ _ _ MA x y c c' f); auto. congruence.
  Qed.
  Lemma gv_comparable : comparable w fuel src dst sa da.
  Proof.
    split.
    - intros o R. destruct (gv_either o R) as (q & _ & (_ & U) & N). eauto.
    - intros s d k R R' IK IK'. pose proof (gv_ids s d k R R' IK IK') as EV.
      destruct (gi_read _ _ _ _ _ ST s R) as (x & I & M). destruct (ca_read w dst cs' rows' ST' d R') as (y & J & M').
      pose proof (ca_key cs rows (ad_top sa) DS s x k I M IK) as Kx. pose proof (ca_key cs' rows' (ad_top da) DS' d y k J M' IK') as Ky.
      destruct M as (c & D & _ & (SI & SS & _) & _ & _ & VI & _). destruct M' as (c' & D' & _ & (SI' & SS' & _) & _ & _ & VI' & _). assert (TE : r_type x = r_type y) by (rewrite <- Ky in Kx; now injection Kx).
      destruct (CL x c I D) as (c2 & D2 & _ & (X1 & X2 & _) & CR2). destruct (CL' y c' J D') as (c3 & D3 & _ & (Y1 & Y2 & _) & _). rewrite TE in D2. assert (c3 = c2) by congruence. subst c3.
      split.
      + symmetry. apply shortname_agree; [congruence|congruence| |exact EV]. rewrite SS, SI, <- X1, <- X2. apply (cr_short c2 CR2).
      + apply ids_agree; [now apply (gi_nodup w src cs rows (ad_top sa) ST)|now apply (ca_nodup w dst cs' rows')|congruence|exact EV|].
        intros f If. rewrite SI in If. rewrite (VI f If). apply (PV x c f I D). apply in_app_iff. now left.
    - intros o o' k k' R R' IK IK' ET EN H. destruct (gv_either o R) as (q & Iq & Kq & Nq). destruct (gv_either o' R') as (q' & Iq' & Kq' & Nq').
      assert (E1 : row_key (fst q) (snd q) = k) by (eapply key_same; eauto). assert (E2 : row_key (fst q') (snd q') = k') by (eapply key_same; eauto).
      rewrite <- E1, <- E2. assert (ET' : r_type (snd q) = r_type (snd q')) by (rewrite <- E1, <- E2 in ET; exact ET). apply (ma_names _ _ _ _ MA); auto; [|congruence].
      destruct H as [(T & T')|(p & L & L')].
      + rewrite <- E1 in T, T'. cbn [row_key fst] in T, T'. rewrite (gv_top q Iq T T'). symmetry. apply (gv_top q' Iq'); rewrite <- ET'; auto.
      + destruct (gv_listed p k L) as (z & Iz & Pz & Kz). destruct (gv_listed p k' L') as (z' & Iz' & Pz' & Kz').
        rewrite (gv_parent q z Iq Iz) by congruence. rewrite (gv_parent q' z' Iq' Iz') by congruence. congruence.
    - intros o t f [R|R] If.
      + destruct (gi_read _ _ _ _ _ ST o R) as (x & I & c & D & _ & (_ & _ & _ & SC) & _ & _ & _ & _ & MK). rewrite SC in If. destruct (MK _ _ If) as (l & -> & _). discriminate.
      + destruct (ca_read w dst cs' rows' ST' o R) as (x & I & c & D & _ & (_ & _ & _ & SC) & _ & _ & _ & _ & MK). rewrite SC in If. destruct (MK _ _ If) as (l & -> & _). discriminate.
    - intros t It. exact (gi_all _ _ _ _ _ ST t It).
    - intros o t f us R If G. destruct (gi_read _ _ _ _ _ ST o R) as (x & I & c & D & _ & (_ & _ & _ & SC) & _ & _ & _ & _ & MK). rewrite SC in If. destruct (MK _ _ If) as (l & G' & _ & EL).
      assert (l = us) by congruence. subst l. apply (gi_by _ _ _ _ _ ST). intros u Iu. apply EL, row_kids_In in Iu as (z & Iz & _ & Kz). eauto.
    - intros a k [->| ->] L.
      + destruct (gi_line w src cs rows (ad_top sa) ST DS _ SH _ _ L); lia.
      + destruct (ca_line w dst cs' rows' (ad_top da) ST' DS' _ SH' _ _ L); lia.
  Qed.
  Lemma gv_entire flags : N.testbit flags 1 = false -> N.testbit flags 2 = false -> entire w flags src dst sa da.
  Proof.
    intros B1 B2. split; [auto|exact (gi_unflagged w src cs rows (ad_top sa) ST)|exact (ca_unflagged w dst cs' rows' ST')|exact TT| |exact (ca_attrs w dst cs' rows' ST')].
    intros o k R IK. exact (gi_rooted _ _ _ _ _ ST k o R IK).
  Qed.
End Two.

(** ** One synchronisation *)
Section Three.
  Variables (w : world) (fuel : nat) (src dst : aid) (sa da : adapter) (cs : dict cls) (rows rows' : list row).
  Hypothesis NE : src <> dst.
  Hypothesis OK : w_ok w.
  Hypothesis SN : share_nothing w src dst.
  Hypothesis SA : nth_error (w_ads w) src = Some sa.
  Hypothesis DA : nth_error (w_ads w) dst = Some da.
  Hypothesis ST : gives w src cs rows (ad_top sa).
  Hypothesis ST' : carries w dst cs rows'.
  Hypothesis DC : ad_classes da = cs.
  Hypothesis TE : ad_top sa = ad_top da.
  Hypothesis DS : dataset cs (ad_top da) rows.
  Hypothesis DS' : dataset cs (ad_top da) rows'.
  Hypothesis MA : matching cs cs (rows ++ rows') (rows ++ rows').
  Hypothesis PV : proper_values cs (rows ++ rows').
  Hypothesis TN : NoDup (ad_top da).
  Hypothesis F2 : 2 <= fuel.
  Hypothesis SH : shallow cs (rows ++ rows') (fuel - 1).
  Hypothesis NF : no_flags cs (rows ++ rows').
  Notation K := (row_key cs).
  Notation P flags := (pool cs flags rows rows').

  Let LL : incl rows (rows ++ rows') := incl_appl rows' (incl_refl rows).
  Let LR : incl rows' (rows ++ rows') := incl_appr rows (incl_refl rows').
  Lemma gp_ma : matching cs cs rows rows'.
  Proof. exact (matching_sub cs _ rows rows' MA LL LR). Qed.
  Lemma gp_ds : dataset cs (ad_top sa) rows.
  Proof. rewrite TE. exact DS. Qed.
  Lemma gp_cl r0 : incl r0 (rows ++ rows') -> forall x c, In x r0 -> dget cs (r_type x) = Some c -> exists c', dget (ad_classes da) (r_type x) = Some c' /\ c_modelname c' = r_type x /\ same_shape c' c /\ creatable c'.
  Proof. intros I x c Ix D. rewrite DC. apply (ma_class _ _ _ _ MA); auto. Qed.
  Lemma gp_pv : proper_values cs rows.
  Proof. intros x c f I. apply PV. auto. Qed.
  Lemma gp_tt t : In t (ad_top sa) <-> In t (ad_top da).
  Proof. now rewrite TE. Qed.
  Lemma gp_alike : alike w fuel src dst sa da.
  Proof. exact (gv_alike w fuel src dst sa da cs cs rows rows' NE OK SN SA DA ST ST' gp_ds DS' gp_ma (gp_cl rows LL) (gp_cl rows' LR) gp_pv TN gp_tt F2 (shallow_sub _ _ _ _ SH LR)). Qed.
  Lemma gp_comparable : comparable w fuel src dst sa da.
  Proof. exact (gv_comparable w fuel src dst sa da cs cs rows rows' NE ST ST' gp_ds DS' gp_ma (gp_cl rows LL) (gp_cl rows' LR) gp_pv F2 (shallow_sub _ _ _ _ SH LL) (shallow_sub _ _ _ _ SH LR)). Qed.
  Lemma gp_entire : entire w 0 src dst sa da.
  Proof. exact (gv_entire w src dst sa da cs cs rows rows' ST ST' gp_tt 0 eq_refl eq_refl). Qed.
  Lemma gp_place x y : In x (rows ++ rows') -> In y (rows ++ rows') -> K x = K y -> r_parent x = r_parent y.
  Proof. apply (ma_place _ _ _ _ MA). Qed.

  Lemma src_rows k : there w src k <-> exists x, In x rows /\ K x = k /\ True.
  Proof.
    split.
    - intros (o & R & IK). destruct (gi_read _ _ _ _ _ ST o R) as (x & I & M). exists x. split; [exact I|]. split; [|exact Logic.I]. exact (ca_key cs rows (ad_top sa) gp_ds o x k I M IK).
    - intros (x & I & <- & _). destruct (gi_object _ _ _ _ _ ST x I) as (o & R & M). exists o. split; [exact R|]. exact (ca_is cs rows (ad_top sa) gp_ds x o I M).
  Qed.
  Lemma kid_of r0 x o t f u c : like_row cs r0 x o -> dget cs (r_type x) = Some c -> In (t, f) (c_children c) ->
    has_child o f u <-> exists y, In y r0 /\ K y = (t, u) /\ r_parent y = Some (K x).
  Proof.
    intros (c' & D' & _ & _ & _ & _ & _ & _ & MK) D If. rewrite D in D'. injection D' as <-. destruct (MK t f If) as (l & G & _ & EL). split.
    - intros (l' & G' & I). assert (l' = l) by congruence. subst l'. apply EL, row_kids_In in I as (y & I & Py & Ky). eauto.
    - intros (y & I & Ky & Py). exists l. split; [exact G|]. apply EL. apply row_kids_In. eauto.
  Qed.
  Lemma gp_kids flags k t u : In u (row_kids cs (P flags) k t) <->
    selected flags (exists y, In y rows /\ K y = (t, u) /\ r_parent y = Some k) (exists y, In y rows' /\ K y = (t, u) /\ r_parent y = Some k).
  Proof.
    rewrite row_kids_In. rewrite <- (pool_selected cs flags rows rows' (fun y => r_parent y = Some k)).
    - split; intros (y & A & B & C); eauto.
    - intros x y Ix Iy E H. rewrite <- H. symmetry. now apply gp_place.
  Qed.
  Lemma selected_iff flags a b a' b' : (a <-> a') -> (b <-> b') -> selected flags a b <-> selected flags a' b'.
  Proof. unfold selected. tauto. Qed.

  Lemma gp_sync h dc flags cb : hooks_succeed h -> spares_attributes da h -> yields_once (dc_order dc) ->
    exists w' d, sync_from fuel h dst src dc flags cb None w = (w', Ok d) /\ carries w' dst cs (P flags) /\ w_ok w' /\
      (exists s, nth_error (w_ads w') dst = Some (set_ad_store da s)) /\
      (forall b ad, b <> dst -> nth_error (w_ads w) b = Some ad -> exists s', nth_error (w_ads w') b = Some (set_ad_store ad s') /\ store_ext (ad_store ad) s') /\
      (forall t u r, lookup w' dst t u = Some r -> lookup w dst t u = Some r \/ length (w_heap w) <= r).
  Proof.
    intros HK SP YO.
    destruct (sync_merged fuel h dst src dc flags cb w sa da gp_alike gp_comparable HK SP YO gp_entire) as (w' & d & E & [MK MV MR] & (LO & KY & AD) & OK' & OT & NW & OR).
    exists w', d. split; [exact E|]. split; [|split; [exact OK'|split; [exact AD|split; [exact OT|exact NW]]]].
    assert (TH : forall k, there w' dst k <-> exists x, In x (P flags) /\ K x = k /\ True).
    { intros k. rewrite MK, (pool_selected cs flags rows rows' (fun _ => True)) by auto. apply selected_iff; [exact (src_rows k)|exact (there_rows w cs dst rows' _ ST' DS' k)]. }
    split; [exact LO| |].
    - intros x I. destruct (proj2 (TH (K x))) as (o & R' & IK'); [eauto|].
      assert (X : In (K x, o) (stored_objs w' dst)) by (apply (read_iff w' dst LO KY); auto). apply (stored_iff w' dst LO) in X as (r & L & Hh).
      exists r, o. split; [exact L|]. split; [exact Hh|]. apply pool_cases in I as [(I & _)|(I & B2 & HR)].
      + destruct (gi_object _ _ _ _ _ ST x I) as (s & R & M). pose proof (ca_is cs rows (ad_top sa) gp_ds x s I M) as IK.
        destruct (MV s o _ R IK R' IK') as ((ET & SS0 & _ & AT) & CH). destruct (OR s _ r o R IK L Hh) as (c' & D' & FR). change (fst (K x)) with (r_type x) in D'. rewrite DC in D'.
        pose proof M as (c & D & T & SS & EF & ND & VI & VA & MKs). rewrite D in D'. injection D' as <-.
        assert (SO : same_shape (o_cls o) c) by (destruct SS0 as (P1 & P2 & P3 & P4), SS as (Q1 & Q2 & Q3 & Q4); repeat split; congruence).
        exists c. split; [exact D|]. split; [exact (proj1 IK')|]. split; [exact SO|].
        assert (FI : o_flags o = 0%N /\ NoDup (dkeys (o_vals o)) /\ forall f, In f (c_identifiers c) -> dget (o_vals o) f = dget (o_vals s) f).
        { destruct FR as [(z & RZ & KZ & ZF & ZK & ZV)|(ZF & ZN & ZV)].
          - destruct (ca_read w dst cs rows' ST' z RZ) as (y & J & cy & _ & _ & _ & YF & YN & _). split; [congruence|]. split; [now rewrite ZK|]. intros f If. rewrite (ZV f If).
            apply (gv_ids w src dst sa da cs cs rows rows' ST ST' gp_ds DS' gp_ma (gp_cl rows LL) (gp_cl rows' LR) s z _ R RZ IK KZ). destruct SS as (Q1 & _). congruence.
          - split; [rewrite ZF; exact (NF x c (LL x I) D)|]. split; [exact ZN|]. intros f If. now apply ZV. }
        destruct FI as (F0 & FN & FV). split; [exact F0|]. split; [exact FN|]. split; [|split].
        * intros f If. rewrite (FV f If). exact (VI f If).
        * intros f If. destruct (AT f) as (v & v' & G & G' & Q); [destruct SS as (_ & _ & SA3 & _); congruence|]. destruct (VA f If) as (v0 & v1 & V0 & G1 & Q1). exists v0, v'. split; [exact V0|]. split; [exact G'|].
          assert (v1 = v) by congruence. subst v1. exact (py_eq_trans _ _ _ Q1 Q).
        * intros t f If. destruct (CH t f) as (l' & G' & ND' & EQ); [destruct SS as (_ & _ & _ & SC); congruence|].
          exists l'. split; [exact G'|]. split; [exact ND'|]. intros u. rewrite EQ, gp_kids. apply selected_iff; [exact (kid_of rows x s t f u c M D If)|]. split.
          -- intros (z & RZ & KZ & HC). destruct (ca_read w dst cs rows' ST' z RZ) as (y & J & My). pose proof (ca_key cs rows' (ad_top da) DS' z y _ J My KZ) as Ky.
             assert (TY : r_type y = r_type x) by (change (fst (K y) = fst (K x)); now rewrite Ky). assert (Dy : dget cs (r_type y) = Some c) by now rewrite TY.
             apply (kid_of rows' y z t f u c My Dy If) in HC. now rewrite Ky in HC.
          -- intros (y & J & Ky & Py). destruct (ca_before cs rows' (ad_top da) DS' y _ J Py) as (l & y2 & m & c2 & ER & Jy & Ky2 & Dy2 & _). assert (J2 : In y2 rows') by (rewrite ER; apply in_app_iff; auto).
             destruct (ca_object w dst cs rows' (ad_top da) ST' DS' y2 J2) as (z & RZ & Mz). exists z. split; [exact RZ|]. split; [rewrite <- Ky2; exact (ca_is cs rows' (ad_top da) DS' y2 z J2 Mz)|].
             assert (TY : r_type y2 = r_type x) by (change (fst (K y2) = fst (K x)); now rewrite Ky2). assert (Dy : dget cs (r_type y2) = Some c) by now rewrite TY.
             apply (kid_of rows' y2 z t f u c Mz Dy If). rewrite Ky2. eauto.
      + destruct (ca_object w dst cs rows' (ad_top da) ST' DS' x I) as (z & R & M). pose proof (ca_is cs rows' (ad_top da) DS' x z I M) as IK. apply has_row_no in HR.
        assert (NS : ~ there w src (K x)) by (intros T; apply src_rows in T as (y & J & Ey & _); apply HR; eauto).
        destruct (MR z o _ R IK NS R' IK') as (EC & EV & EK & EF). destruct M as (c & D & T & SS & F0 & ND & VI & VA & MKs).
        exists c. split; [exact D|]. split; [exact (proj1 IK')|]. rewrite EC, EV, EF. split; [exact SS|]. split; [exact F0|]. split; [exact ND|]. split; [exact VI|]. split; [exact VA|].
        intros t f If. rewrite EK. destruct (MKs t f If) as (l & G & NDl & EL). exists l. split; [exact G|]. split; [exact NDl|]. intros u. rewrite EL, gp_kids, row_kids_In.
        assert (NO : ~ exists y, In y rows /\ K y = (t, u) /\ r_parent y = Some (K x)).
        { intros (y & J & _ & Py). destruct (ca_before cs rows (ad_top da) DS y _ J Py) as (l1 & y2 & m & c2 & ER & Jy & Ky2 & _). apply HR. exists y2. split; [rewrite ER; apply in_app_iff; auto|exact Ky2]. }
        unfold selected. split; [intros (y & J & Py & Ky); right; right; split; [exact NO|]; split; [eauto|exact B2]|]. intros [(A & _)|[(A & _)|(_ & (y & J & Ky & Py) & _)]]; [contradiction|contradiction|eauto].
    - intros k L. destruct (lookup w' dst (fst k) (snd k)) as [r|] eqn:El; [|congruence]. destruct (KY _ _ _ El) as (o & Hh & T & U & _).
      destruct (proj2 (read_iff w' dst LO KY k o)) as (R & IK); [apply (stored_iff w' dst LO); eauto|]. destruct (proj1 (TH k)) as (x & I & Ex & _); [exists o; auto|]. eauto.
  Qed.
  Lemma gp_redis h dc flags cb : hooks_succeed h -> spares_attributes da h -> yields_once (dc_order dc) ->
    w_redis (fst (sync_from fuel h dst src dc flags cb None w)) = w_redis w.
  Proof.
    intros HK SP YO. destruct (compares fuel dst src dc flags cb w sa da gp_alike gp_comparable) as (d & D).
    assert (US : uses fuel dst src dc flags cb None w d) by (right; split; [now left|exact D]).
    apply (diff_from_iff fuel dst src dc flags cb w sa da) in D as (sk & FD & DCL & _); try apply gp_alike. rewrite <- DCL in YO.
    destruct (sync_ends fuel h dst src dc flags flags cb None w d sa da gp_alike (ConvTop.spared da) HK (write_spared da h SP) YO sk FD US) as (w' & E & GD & MV & _).
    rewrite E. exact (mv_redis _ _ _ _ _ MV).
  Qed.
End Three.
