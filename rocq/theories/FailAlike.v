(** * FailAlike: what a synchronisation with failing hooks leaves can be synchronised again. *)
From Verif Require Export FailTop ConvSample.

Lemma exists_dec {A} (P : A -> Prop) l : (forall x, In x l -> P x \/ ~ P x) -> (exists x, In x l /\ P x) \/ ~ exists x, In x l /\ P x.
Proof.
  induction l as [|x l IH]; intros H; [right; intros (x & [] & _)|].
  destruct (H x (or_introl eq_refl)) as [Y|N]; [left; exists x; split; [now left|exact Y]|].
  destruct IH as [(y & I & Y)|N']; [intros y I; apply H; now right|left; exists y; split; [now right|exact Y]|].
  right. intros (y & [->|I] & Y); [exact (N Y)|]. apply N'. eauto.
Qed.
Lemma line_le w a m : forall n k, m <= n -> line w a n k -> line w a m k.
Proof.
  induction m as [|m IH]; intros n k LE; [exact (fun _ => Logic.I)|]. destruct n as [|n]; [lia|]. intros (p & L & H). exists p. split; [exact L|]. apply (IH n); [lia|exact H].
Qed.
Lemma keyed_one w a k k' r : keyed w a -> look w a k = Some r -> look w a k' = Some r -> k = k'.
Proof.
  intros KY L L'. destruct (KY _ _ _ L) as (o & H & T & U & _). destruct (KY _ _ _ L') as (o' & H' & T' & U' & _). assert (o' = o) by congruence. subst o'.
  rewrite (surjective_pairing k), (surjective_pairing k'). congruence.
Qed.

(** ** Reading *)
Lemma local_read w a o k : local_ok w a -> keyed w a -> read w a o /\ is_key o k <-> exists r, look w a k = Some r /\ nth_error (w_heap w) r = Some o.
Proof. intros LO KY. rewrite (read_iff w a LO KY). apply (stored_iff w a LO). Qed.
Lemma local_listed w a p k : local_ok w a -> keyed w a ->
  listed w a p k <-> exists r o, look w a p = Some r /\ nth_error (w_heap w) r = Some o /\ lists o (fst k) (snd k).
Proof.
  intros LO KY. split.
  - intros (o & R & K & LI). destruct (proj1 (local_read w a o p LO KY) (conj R K)) as (r & L & H). eauto.
  - intros (r & o & L & H & LI). destruct (proj2 (local_read w a o p LO KY)) as (R & K); [eauto|]. exists o. auto.
Qed.
Lemma lists_same o o' t u : same_data o o' -> lists o' t u <-> lists o t u.
Proof. intros (E1 & _ & E3 & _). unfold lists. now rewrite E1, E3. Qed.
Section Reads.
  Variables (w w' : world) (a : aid).
  Hypothesis RA : forall t, objs_all w' a t = objs_all w a t.
  Hypothesis RB : forall us t, objs_by w' a us t = objs_by w a us t.
  Lemma reads_same o : read w' a o <-> read w a o.
  Proof. split; intros (t & l & I & [E|(us & E)]); exists t, l; (split; [exact I|]); [left|right; exists us|left|right; exists us]; congruence. Qed.
  Lemma lists_reads p k : listed w' a p k <-> listed w a p k.
  Proof. split; intros (o & R & K & LI); exists o; (split; [now apply reads_same|auto]). Qed.
  Lemma line_reads n : forall k, line w' a n k <-> line w a n k.
  Proof. induction n as [|n IH]; intros k; [reflexivity|]. simpl. split; intros (p & L & H); exists p; (split; [now apply lists_reads|now apply IH]). Qed.
  Lemma asked_reads tops t : asked w' a tops t -> asked w a tops t.
  Proof. intros [I|(o & f & R & I)]; [now left|right; exists o, f; split; [now apply reads_same|exact I]]. Qed.
  Hint Resolve asked_reads : core.
  Lemma forest_reads tops : forest w a tops -> forest w' a tops.
  Proof.
    intros [(F1 & F1') F2 F3 F4 F5]. split; [split| | | |].
    - intros t l o K E. rewrite RA in E. apply F1; auto.
    - intros us t l o K E. rewrite RB in E. apply F1' with us; auto.
    - intros us t l K E. rewrite RB in E. apply (F2 us t l); auto.
    - intros o o' k R R'. apply reads_same in R, R'. now apply F3.
    - intros p p' k L L'. apply lists_reads in L, L'. eapply F4; eauto.
    - intros p k L. apply lists_reads in L. eapply F5; eauto.
  Qed.
  Lemma plain_reads : plain_values w a -> plain_values w' a.
  Proof. intros P o R. apply reads_same in R. now apply P. Qed.
End Reads.

Section Alike.
  Variables (fuel : nat) (h : hooks) (dst src : aid) (dc : diffclass) (flags fl : N) (cb : bool) (given : option diff) (w : world) (d : diff).
  Variables (sa da : adapter).
  Hypothesis AL : alike w fuel src dst sa da.
  Variable WX : string -> Prop.
  Variable sk : nat.
  Hypothesis FD : faithful_diff flags fuel w src dst sa da (d_groups d) sk.
  Hypothesis US : uses fuel dst src dc fl cb given w d.
  Notation env := (env0 fuel h dst src fl cb d).
  Notation feet := (ConvTop.feet fuel h dst src fl cb w d da).
  Notation elem_ok := (ConvFits.elem_ok flags env w sa da (ad_name sa) (ad_name da)).
  Notation akey := (ConvRun.akey da).
  Notation pr := (ConvTree.pr env w).
  Notation level := (ConvTree.level env w).
  Let AL' : alike w (sv_fuel env) (sv_src env) (sv_dst env) sa da := AL.
  Variables w' wd : world.
  Hypothesis GD : good dst da w'.
  Hypothesis MV : moved dst feet None w w'.
  Hypothesis RO : read_only w wd.
  Hypothesis AP : SyncFacts.apart wd dst w'.
  Notation won := (FailRun.won env da w WX w').
  Notation lost := (FailRun.lost env da w WX w').
  Notation untouched := (FailRun.untouched env da w w').
  Notation fared := (FailRun.fared env da w WX w').
  Hypothesis FR : forall x, In x (children (d_groups d)) -> exists b, fared b x.
  Hypothesis DELS : dels env.

  (** ** Each element *)
  Definition state (y : elem) : Prop := won y \/ (lost y /\ e_action y <> Some ADelete) \/ untouched y.
  Definition state_kids (y : elem) : Prop := forall x, In x (children (e_kids y)) -> (untouched x \/ won y) /\ (e_action y = Some ADelete -> won y -> won x).

  Lemma kid_ok n m e so do x : elem_ok n m e so do -> In x (children (e_kids e)) -> exists m' so' do', elem_ok (S n) m' x so' do' /\ (so = None -> so' = None).
  Proof.
    intros OK I. destruct (ConvFits.ok_kids _ _ _ _ _ _ _ AL' _ _ _ _ _ _ OK I) as (m1 & c1 & t1 & f1 & ss1 & dd1 & u1 & _ & _ & _ & _ & _ & _ & OK1).
    do 3 eexists. split; [exact OK1|]. destruct (kid_entry _ _ _ _ _ _ _ AL' _ _ _ _ _ _ _ _ _ OK I OK1) as (c & f & l & _ & _ & _ & _ & _ & HS). exact HS.
  Qed.
  Lemma kid_delete n m e so do x : elem_ok n m e so do -> In x (children (e_kids e)) -> e_action e = Some ADelete -> e_action x = Some ADelete.
  Proof.
    intros OK I EA. destruct (kid_ok _ _ _ _ _ _ OK I) as (m' & so' & do' & OK' & N). pose proof OK as (_ & _ & D & _). pose proof OK' as (P' & _ & D' & _).
    apply (ok_action _ _ _ _ _ D) in EA as (-> & _). apply (ok_action _ _ _ _ _ D'). rewrite N in * by reflexivity. split; [reflexivity|].
    intros ->. apply pos_some in P'. now apply P'.
  Qed.
  Lemma untouched_won n m e so do : elem_ok n m e so do -> e_action e = Some ADelete -> untouched e -> ~ won e.
  Proof.
    intros OK EA U W. unfold FailRun.won in W. rewrite EA in W. destruct W as (W & _).
    destruct (elem_facts fuel h dst src flags fl cb w d sa da AL _ _ _ _ _ OK) as (c & o & _ & _ & _ & _ & _ & _ & DE & _ & AD). apply AD in EA as (_ & ND).
    destruct do as [z|]; [|congruence]. destruct (DE z eq_refl) as (r & L & _).
    destruct (U (akey e)) as (E & _); [exists e; split; [destruct e; now left|now left]|]. change (look w' dst (akey e) = look w dst (akey e)) in E.
    change (look w' dst (akey e) = None) in W. congruence.
  Qed.
  Lemma untouched_below e y : untouched e -> In y (elem_all e) -> untouched y.
  Proof. intros U I k (x & Ix & X). apply U. exists x. split; [eapply elem_all_trans; eauto|exact X]. Qed.
  Lemma untouched_all n m e so do : elem_ok n m e so do -> untouched e -> forall y, In y (elem_all e) -> state y /\ state_kids y.
  Proof.
    intros OK U y I. pose proof (untouched_below _ _ U I) as UY. split; [right; now right|]. intros x Ix.
    split; [left; eapply untouched_below; [exact UY|]; now apply kid_all|]. intros EA W.
    destruct (below _ _ _ _ _ _ _ AL' _ _ _ _ _ _ OK I) as (j & m' & so' & do' & _ & OKY & _). now elim (untouched_won _ _ _ _ _ OKY EA UY).
  Qed.
  Lemma fared_all e : forall b n m so do, elem_ok n m e so do -> fared b e -> forall y, In y (elem_all e) -> state y /\ state_kids y.
  Proof.
    induction e as [e IH] using elem_ind'. intros b n m so do OK F y I.
    assert (IHK : forall x, In x (children (e_kids e)) -> forall b, fared b x -> forall y, In y (elem_all x) -> state y /\ state_kids y).
    { intros x Ix b' F' y' I'. destruct (kid_ok _ _ _ _ _ _ OK Ix) as (m' & so' & do' & OK' & _). pose proof Ix as Ix'. apply In_children in Ix' as (t & g & nm & I1 & I2). eapply IH; eauto. }
    inversion F as [b' e' W K|b' e' L FA K|b' e' L N FA K|e' U]; subst b' || idtac; subst e'.
    - apply elem_all_kids in I as [->|(x & Ix & I)].
      + split; [now left|]. intros x Ix. split; [now right|]. intros EA _. destruct (K x Ix) as (b' & B & FX).
        assert (b' = true) by (apply B; right; auto). subst b'. pose proof (kid_delete _ _ _ _ _ _ OK Ix EA) as EX.
        inversion FX as [b' e' W' K'|b' e' L' FA' K'|b' e' L' N' FA' K'|e' U']; subst; [exact W'| |].
        * now elim (dels_fails env da w x DELS EX).
        * elim (dels_fails env da w x DELS EX). apply FA'. now left.
      + destruct (K x Ix) as (b' & _ & FX). exact (IHK x Ix b' FX y I).
    - assert (ND : e_action e <> Some ADelete) by (intros EA; now elim (dels_fails env da w e DELS EA)).
      apply elem_all_kids in I as [->|(x & Ix & I)].
      + split; [right; left; auto|]. intros x Ix. split; [left; now apply K|congruence].
      + destruct (kid_ok _ _ _ _ _ _ OK Ix) as (m' & so' & do' & OK' & _). exact (untouched_all _ _ _ _ _ OK' (K x Ix) y I).
    - destruct N as (EA & _). elim (dels_fails env da w e DELS EA). apply FA. right. auto.
    - exact (untouched_all _ _ _ _ _ OK U y I).
  Qed.

  (** ** The elements of the diff *)
  Definition el (y : elem) : Prop := exists x, In x (children (d_groups d)) /\ In y (elem_all x).
  Lemma el_top x : In x (children (d_groups d)) -> el x.
  Proof. intros I. exists x. split; [exact I|]. destruct x; now left. Qed.
  Lemma el_kid x y : el x -> In y (children (e_kids x)) -> el y.
  Proof. intros (t & It & I) K. exists t. split; [exact It|]. eapply elem_all_trans; [|exact I]. now apply kid_all. Qed.
  Lemma el_ok y : el y -> exists n m so do, elem_ok n m y so do.
  Proof.
    intros (x & Ix & I). destruct (top_ok fuel h dst src dc flags fl cb given w d sa da AL sk FD US x Ix) as (m & so & do & _ & OK).
    destruct (below _ _ _ _ _ _ _ AL' _ _ _ _ _ _ OK I) as (j & m' & so' & do' & _ & OKY & _). eauto.
  Qed.
  Lemma el_state y : el y -> state y /\ state_kids y.
  Proof.
    intros (x & Ix & I). destruct (top_ok fuel h dst src dc flags fl cb given w d sa da AL sk FD US x Ix) as (m & so & do & _ & OK).
    destruct (FR x Ix) as (b & F). exact (fared_all x b _ _ _ _ OK F y I).
  Qed.
  Lemma all_up x : forall y, In y (elem_all x) -> y = x \/ exists z, In z (elem_all x) /\ In y (children (e_kids z)).
  Proof.
    induction x as [x IH] using elem_ind'. intros y I. apply elem_all_kids in I as [->|(k & Ik & I)]; [now left|right].
    pose proof Ik as Ik'. apply In_children in Ik' as (t & g & nm & I1 & I2). destruct (IH t g nm k I1 I2 y I) as [->|(z & Iz & Jz)].
    - exists x. split; [destruct x; now left|exact Ik].
    - exists z. split; [|exact Jz]. eapply elem_all_trans; [exact Iz|]. now apply kid_all.
  Qed.
  Lemma el_up y : el y -> In y (children (d_groups d)) \/ exists x, el x /\ In y (children (e_kids x)).
  Proof.
    intros (x & Ix & I). destruct (all_up x y I) as [->|(z & Iz & J)]; [now left|right]. exists z. split; [|exact J]. exists x. auto.
  Qed.
  Lemma top_level x p : In x (children (d_groups d)) -> ~ pr p (akey x).
  Proof.
    intros I. destruct (top_ok fuel h dst src dc flags fl cb given w d sa da AL sk FD US x I) as (m & so & do & _ & P & _).
    exact (pos_level _ _ _ _ _ AL' _ _ _ _ P p).
  Qed.
  Lemma el_pr x y : el x -> In y (children (e_kids x)) -> pr (akey x) (akey y).
  Proof.
    intros E I. destruct (el_ok x E) as (n & m & so & do & OK). destruct (kid_ok _ _ _ _ _ _ OK I) as (m' & so' & do' & OK' & _).
    exact (kid_pr _ _ _ _ _ _ _ AL' _ _ _ _ _ _ _ _ _ OK I OK').
  Qed.
  Lemma el_parent y p : el y -> pr p (akey y) -> exists x, el x /\ In y (children (e_kids x)) /\ akey x = p.
  Proof.
    intros E P. destruct (el_up y E) as [I|(x & Ex & I)]; [now elim (top_level y p I)|]. exists x. split; [exact Ex|]. split; [exact I|].
    exact (pr_fun _ _ _ _ AL' _ _ _ (el_pr x y Ex I) P).
  Qed.
  Lemma el_uniq : forall x y, el x -> el y -> akey x = akey y -> x = y.
  Proof.
    assert (H : forall n x y, level n (akey x) -> el x -> el y -> akey x = akey y -> x = y).
    { induction n as [|n IH]; intros x y LV Ex Ey E.
      - assert (T : forall z, el z -> akey z = akey x -> In z (children (d_groups d))).
        { intros z Ez EZ. destruct (el_up z Ez) as [I|(q & Eq & I)]; [exact I|]. elim (LV (akey q)). rewrite <- EZ. now apply el_pr. }
        pose proof (T x Ex eq_refl) as Ix. pose proof (T y Ey (eq_sym E)) as Iy.
        destruct (el_ok x Ex) as (n1 & m1 & so1 & do1 & OK1). destruct (el_ok y Ey) as (n2 & m2 & so2 & do2 & OK2).
        apply (tagged_inj (children (d_groups d))); [eapply top_NoDup; eauto|exact Ix|exact Iy|].
        exact (same_tag _ _ _ _ _ _ _ AL' _ _ _ _ _ _ _ _ _ _ OK1 OK2 E).
      - destruct LV as (p & P & LP). destruct (el_parent x p Ex P) as (x0 & Ex0 & Ix & Kx). pose proof P as Py. rewrite E in Py. destruct (el_parent y p Ey Py) as (y0 & Ey0 & Iy & Ky).
        assert (x0 = y0) by (apply IH; [now rewrite Kx|exact Ex0|exact Ey0|congruence]). subst y0.
        destruct (el_ok x Ex) as (n1 & m1 & so1 & do1 & OK1). destruct (el_ok y Ey) as (n2 & m2 & so2 & do2 & OK2). destruct (el_ok x0 Ex0) as (n0 & m0 & so0 & do0 & OK0).
        apply (tagged_inj (children (e_kids x0))); [eapply kids_NoDup; eauto|exact Ix|exact Iy|].
        exact (same_tag _ _ _ _ _ _ _ AL' _ _ _ _ _ _ _ _ _ _ OK1 OK2 E). }
    intros x y Ex Ey E. destruct (el_ok x Ex) as (n & m & so & do & P & _). exact (H n x y (pos_level _ _ _ _ _ AL' _ _ _ _ P) Ex Ey E).
  Qed.

  (** ** The object of an element *)
  Lemma elem_obj n m e so do r o' : elem_ok n m e so do -> state e -> look w' dst (akey e) = Some r -> nth_error (w_heap w') r = Some o' ->
    exists c, dget (ad_classes da) (e_type e) = Some c /\ c_modelname c = e_type e /\ creatable c /\ same_shape c (o_cls o') /\
      (forall z, do = Some z -> o_cls o' = o_cls z /\ o_flags o' = o_flags z /\ dkeys (o_vals o') = dkeys (o_vals z) /\
         forall f, In f (c_identifiers c) -> dget (o_vals o') f = dget (o_vals z) f) /\
      (do = None -> exists s, so = Some s /\ o_flags o' = c_flags c /\ NoDup (dkeys (o_vals o')) /\
         forall f, In f (c_identifiers c) -> dget (o_vals o') f = dget (o_vals s) f) /\
      children_kept w w' dst e (fun f u => match do with Some z => has_child z f u | None => False end) o'.
  Proof.
    intros OK ST L H. destruct (elem_facts fuel h dst src flags fl cb w d sa da AL _ _ _ _ _ OK) as (c & o & C1 & BA & SH & KB & CR & AB & DE & AC & AD).
    destruct (ok_base _ _ _ _ _ _ _ AL' _ _ _ _ _ OK) as (c2 & o2 & C1' & BA' & SH' & KB' & VS & VD & VN & _). assert (c2 = c) by congruence. subst c2.
    assert (o2 = o) by (eapply base_fun; eauto). subst o2. pose proof OK as (P & _ & D & _).
    destruct (describes_key _ _ _ _ _ _ _ AL' _ _ _ _ _ P D) as (c2 & C1'' & MN & _ & _ & _ & _). assert (c2 = c) by congruence. subst c2.
    exists c. split; [exact C1|]. split; [exact MN|]. split; [exact CR|].
    assert (IDS : forall o1 o2, o_cls o2 = o_cls o1 -> same_shape c (o_cls o1) -> get_identifiers o2 = get_identifiers o1 -> forall f, In f (c_identifiers c) -> dget (o_vals o2) f = dget (o_vals o1) f).
    { intros o1 o2 OC S1 OI f I. apply (f_equal (fun v => dget v f)) in OI. unfold get_identifiers in OI. rewrite !dget_dump, OC in OI. destruct S1 as (SI & _). rewrite SI in I.
      apply smem_In in I. rewrite I in OI. exact OI. }
    destruct ST as [W|[(LS & ND)|U]].
    - assert (MO : made_of env da w WX w' e o').
      { unfold FailRun.won in W. change (look w' (sv_dst env) (akey e)) with (look w' dst (akey e)) in W.
        destruct (e_action e) as [[| |]|]; [|destruct W as (r1 & o1 & L1 & H1 & MO & _); congruence|destruct W as (W & _); congruence|]; destruct W as (r1 & o1 & L1 & H1 & MO & _); congruence. }
      destruct MO as (o2 & G & BA2 & OC & OV & OI & OF & PM & KE). assert (o2 = o) by (eapply base_fun; eauto). subst o2. pose proof (vals_but_keys _ _ _ OV) as OVK.
      split; [now rewrite OC|]. split; [|split].
      + intros z E. destruct (VD z E) as (E1 & E2 & E3 & E4). repeat split; try congruence. intros f I. rewrite (IDS o o' OC SH OI f I). apply E4. exact (cr_apart _ CR f I).
      + intros E. destruct (VN E) as (E1 & E2 & E3 & E4). destruct so as [s|]; [|subst do; apply pos_some in P; now elim P]. exists s. split; [reflexivity|]. split; [congruence|].
        split; [now rewrite OVK|]. intros f I. rewrite (IDS o o' OC SH OI f I). now apply (VS s eq_refl).
      + exact (kids_kept fuel h dst src flags fl cb w d sa da AL w' n m e so do c o o' G OK C1 SH KB PM OC KE).
    - unfold FailRun.lost in LS. change (look w' (sv_dst env) (akey e)) with (look w' dst (akey e)) in LS. change (look w (sv_dst env) (akey e)) with (look w dst (akey e)) in LS.
      assert (LS' : exists r o0 o', look w dst (akey e) = Some r /\ nth_error (w_heap w) r = Some o0 /\ look w' dst (akey e) = Some r /\ nth_error (w_heap w') r = Some o' /\ left_of env da w WX w' e o0 o').
      { destruct (e_action e) as [[| |]|]; auto; congruence. }
      clear LS. destruct LS' as (r1 & o0 & o1 & L0 & H0 & L1 & H1 & ob & G & OB & OC & OV & OI & OF & PM & KE). assert (r1 = r) by congruence. subst r1. assert (o1 = o') by congruence. subst o1.
      destruct do as [z|]; [|rewrite (AB eq_refl) in L0; discriminate]. destruct (DE z eq_refl) as (r' & L0' & H0' & SHZ). assert (r' = r) by congruence. subst r'. assert (z = o0) by congruence. subst z.
      split; [now rewrite OC|]. split; [|split; [discriminate|]].
      + intros z E. injection E as <-. split; [exact OC|]. split; [exact OF|]. split; [|exact (IDS o0 o' OC SHZ OI)].
        rewrite (vals_but_keys _ _ _ OV). destruct OB as [->|OB]; [reflexivity|]. assert (ob = o) by (eapply base_fun; eauto). subst ob. destruct (VD o0 eq_refl) as (_ & _ & E3 & _). exact E3.
      + exact (kids_kept fuel h dst src flags fl cb w d sa da AL w' n m e so (Some o0) c o0 o' G OK C1 SHZ eq_refl PM OC KE).
    - destruct (U (akey e)) as (E & EO); [exists e; split; [destruct e; now left|now left]|]. change (look w' dst (akey e) = look w dst (akey e)) in E.
      destruct do as [z|]; [|rewrite (AB eq_refl) in E; congruence]. destruct (DE z eq_refl) as (r' & L0 & H0 & SHZ). assert (r' = r) by congruence. subst r'.
      destruct (EO r z L0 H0) as (o1 & H1 & S1 & S2 & S3 & S4). assert (o1 = o') by congruence. subst o1.
      split; [now rewrite S1|]. split; [|split; [discriminate|]].
      + intros z' E'. injection E' as <-. repeat split; congruence.
      + apply (kids_kept fuel h dst src flags fl cb w d sa da AL w' n m e so (Some z) c z o' [] OK C1 SHZ eq_refl); [|exact S1|now rewrite S3].
        apply those_none. intros x Ix. destruct (kid_ok _ _ _ _ _ _ OK Ix) as (m' & so' & do' & OK' & _).
        eapply untouched_not_took; [eapply fits_not_took; eapply elem_fits; [exact AL'|exact OK']|]. eapply untouched_below; [exact U|]. now apply kid_all.
  Qed.

  (** ** Cells *)
  Hypothesis CM : comparable w fuel src dst sa da.
  Hypothesis CD : children_deletable w dst da.
  Notation same_cell := (ConvRun.same_cell env w w').
  Let LO : local_ok w dst := al_local _ _ _ _ _ _ AL.
  Let KY : keyed w dst := al_keyed _ _ _ _ _ _ AL.
  Let LO' : local_ok w' dst := proj1 GD.
  Let KY' : keyed w' dst := proj1 (proj2 GD).

  Lemma reach_dec a : forall n k, ~ line w dst n k -> reaches w dst a k \/ ~ reaches w dst a k.
  Proof.
    assert (KD : forall k k' : key, k = k' \/ k <> k').
    { intros [a1 a2] [b1 b2]. destruct (string_dec a1 b1), (string_dec a2 b2); try (right; congruence). left. congruence. }
    induction n as [|n IH]; intros k NL; [now elim NL|]. destruct (KD a k) as [->|NE]; [left; constructor|].
    destruct (look w dst k) as [r|] eqn:L.
    - assert (NN : lookup w dst (fst k) (snd k) <> None) by (unfold look in L; rewrite L; discriminate).
      destruct (cp_rooted _ _ _ (al_dcomplete _ _ _ _ _ _ AL) k NN) as [T|(p & P)].
      + right. intros R. destruct (reaches_last env w a k R) as [E|(p & _ & C)]; [now elim NE|].
        apply (child_listed _ _ _ _ AL') in C. exact (fo_top _ _ _ (al_dforest _ _ _ _ _ _ AL) _ _ C T).
      + destruct (IH p) as [R|R]; [intros X; apply NL; exists p; auto| |].
        * left. clear - R P NN AL' KY LO. induction R as [k0|k0 k1 k2 C R IHR].
          -- apply (local_listed w dst k0 k LO KY) in P as (r & o & L & H & f & l & I1 & I2 & I3).
             eapply reach_step; [|constructor]. exists r, o, f, l. repeat (split; [assumption|]). exact NN.
          -- eapply reach_step; [exact C|]. now apply IHR.
        * right. intros X. destruct (reaches_last env w a k X) as [E|(p' & R' & C)]; [now elim NE|].
          apply (child_listed _ _ _ _ AL') in C. rewrite (fo_parent _ _ _ (al_dforest _ _ _ _ _ _ AL) _ _ _ C P) in R'. exact (R R').
    - right. intros R. destruct (reaches_last env w a k R) as [E|(p & _ & C)]; [now elim NE|]. destruct C as (r & o & f & l & _ & _ & _ & _ & _ & NN). now apply NN.
  Qed.

  Definition gone (k : key) : Prop := exists y, el y /\ won y /\ takes env da w y /\ reaches w dst (akey y) k.
  Lemma gone_look k : gone k -> look w' dst k = None.
  Proof.
    intros (y & E & W & (EA & r & o & L & H & SK) & R). unfold FailRun.won in W. rewrite EA in W. destruct W as (_ & W). exact (W r o L H SK k R).
  Qed.
  Lemma reaches_more k0 p k : reaches w dst k0 p -> StoreSpec.child_of w dst p k -> reaches w dst k0 k.
  Proof. induction 1 as [k0|k0 k1 k2 C R IH]; intros X; [eapply reach_step; [exact X|constructor]|]. eapply reach_step; [exact C|auto]. Qed.
  Lemma gone_child p k : gone p -> StoreSpec.child_of w dst p k -> gone k.
  Proof. intros (y & E & W & T & R) C. exists y. repeat (split; [assumption|]). eapply reaches_more; eauto. Qed.
  Lemma gone_parent k : gone k -> (forall y, el y -> akey y <> k) -> exists p, gone p /\ StoreSpec.child_of w dst p k.
  Proof.
    intros (y & E & W & T & R) N. destruct (reaches_last env w _ _ R) as [X|(p & R' & C)]; [now elim (N y E)|]. exists p. split; [|exact C]. exists y. auto.
  Qed.
  Lemma cell k : (exists y, el y /\ akey y = k) \/ ((forall y, el y -> akey y <> k) /\ (same_cell k \/ gone k)).
  Proof.
    assert (DEC : forall P : elem -> Prop, (forall y, P y \/ ~ P y) -> (exists y, el y /\ P y) \/ ~ exists y, el y /\ P y).
    { intros P HP. destruct (exists_dec (fun x => exists y, In y (elem_all x) /\ P y) (children (d_groups d))) as [(x & Ix & y & Iy & Y)|N].
      - intros x _. apply exists_dec. intros y _. apply HP.
      - left. exists y. split; [exists x; auto|exact Y].
      - right. intros (y & (x & Ix & Iy) & Y). apply N. exists x. split; [exact Ix|]. exists y. auto. }
    assert (KD : forall k k' : key, k = k' \/ k <> k').
    { intros [a1 a2] [b1 b2]. destruct (string_dec a1 b1), (string_dec a2 b2); try (right; congruence). left. congruence. }
    destruct (DEC (fun y => akey y = k)) as [Y|N]; [intros y; apply KD|now left|]. right.
    assert (N' : forall y, el y -> akey y <> k) by (intros y E X; apply N; eauto). split; [exact N'|].
    destruct (DEC (fun y => takes env da w y /\ reaches w dst (akey y) k)) as [(y & E & T & R)|NT].
    - intros y. destruct (reach_dec (akey y) (fuel - 1) k) as [R|R]; [apply (cm_depth _ _ _ _ _ _ CM); now right| |right; tauto].
      unfold takes. destruct (e_action y) as [[| |]|]; try (right; intros ((X & _) & _); discriminate).
      change (look w (sv_dst env) (akey y)) with (look w dst (akey y)). destruct (look w dst (akey y)) as [r|] eqn:L; [|right; intros ((_ & r & o & X & _) & _); discriminate].
      destruct (nth_error (w_heap w) r) as [o|] eqn:H; [|right; intros ((_ & r' & o & X & X' & _) & _); congruence].
      destruct (has_flag (o_flags o) MF_SKIP_CHILDREN_ON_DELETE) eqn:F; [|right; intros ((_ & r' & o' & X & X' & X'') & _); congruence].
      left. split; [|exact R]. split; [reflexivity|]. eauto.
    - destruct (proj1 (el_state y E)) as [W|[(_ & ND)|U]].
      + right. exists y. auto.
      + destruct T as (T & _). congruence.
      + left. apply U. exists y. split; [destruct y; now left|]. right. auto.
    - left. assert (NF : ~ feet k).
      { intros (x & Ix & y & Iy & [X|X]); [now elim (N' y); [exists x; auto|]|]. apply NT. exists y. split; [exists x; auto|exact X]. }
      split; [exact (mv_look _ _ _ _ _ MV k NF)|]. intros r o L H. apply (mv_heap _ _ _ _ _ MV r o H); [|discriminate].
      intros k' F' L'. apply NF. now rewrite (keyed_one w dst k k' r KY L L').
  Qed.
  Lemma same_obj k r o' : same_cell k -> look w' dst k = Some r -> nth_error (w_heap w') r = Some o' ->
    exists o, look w dst k = Some r /\ nth_error (w_heap w) r = Some o /\ same_data o o'.
  Proof.
    intros (E & EO) L H. change (look w' dst k = look w dst k) in E. rewrite L in E. symmetry in E. destruct (KY _ _ _ E) as (o & Ho & _).
    destruct (EO r o E Ho) as (o1 & H1 & SD). assert (o1 = o') by congruence. subst o1. eauto.
  Qed.

  (** ** The child lists *)
  Lemma elem_lists y n m so do r o' t u : el y -> elem_ok n m y so do -> look w' dst (akey y) = Some r -> nth_error (w_heap w') r = Some o' ->
    lists o' t u <-> ((exists z, do = Some z /\ lists z t u) /\ ~ (exists x, In x (children (e_kids y)) /\ akey x = (t, u) /\ e_action x = Some ADelete /\ look w' dst (t, u) = None)) \/
      (exists x, In x (children (e_kids y)) /\ akey x = (t, u) /\ e_action x = Some ACreate /\ look w' dst (t, u) <> None).
  Proof.
    intros E OK L H. destruct (elem_obj _ _ _ _ _ _ _ OK (proj1 (el_state y E)) L H) as (c & C1 & C2 & CR & SH & VD & VN & CK).
    assert (KC : forall a, child_with w dst y a t u <-> exists x, In x (children (e_kids y)) /\ akey x = (t, u) /\ e_action x = Some a).
    { intros a. exact (kid_child fuel h dst src flags fl cb w d sa da AL _ _ _ _ _ a t u OK). }
    assert (IFF : forall f, In (t, f) (c_children (o_cls o')) -> exists l, dget (o_kids o') f = Some l /\ (In u l <->
      (match do with Some z => has_child z f u | None => False end /\ ~ (exists x, In x (children (e_kids y)) /\ akey x = (t, u) /\ e_action x = Some ADelete /\ look w' dst (t, u) = None)) \/
      (exists x, In x (children (e_kids y)) /\ akey x = (t, u) /\ e_action x = Some ACreate /\ look w' dst (t, u) <> None))).
    { intros f I. destruct (CK t f I) as (l & G & _ & IN). exists l. split; [exact G|]. rewrite (IN u), !KC. change (lookup w' dst t u) with (look w' dst (t, u)).
      split; (intros [(A & B)|(A & B)]; [left; split; [exact A|]|right]).
      - intros (x & X1 & X2 & X3 & X4). apply B. split; [eauto|exact X4].
      - destruct A as (x & X1 & X2 & X3). exists x. auto.
      - intros ((x & X1 & X2 & X3) & X4). apply B. exists x. auto.
      - destruct B as (X1 & X2 & X3 & X4). split; [exists A; auto|exact X4]. }
    assert (SHZ : forall z, do = Some z -> c_children (o_cls z) = c_children (o_cls o')) by (intros z Z; destruct (VD z Z) as (-> & _); reflexivity).
    split.
    - intros (f & l & I & G & IL). destruct (IFF f I) as (l' & G' & IN). assert (l' = l) by congruence. subst l'. apply IN in IL as [(A & B)|A]; [left|now right].
      split; [|exact B]. destruct do as [z|]; [|destruct A]. exists z. split; [reflexivity|]. destruct A as (l0 & G0 & I0). exists f, l0. rewrite (SHZ z eq_refl). auto.
    - intros [((z & -> & f & l & I & G & IL) & B)|X].
      + rewrite (SHZ z eq_refl) in I. destruct (IFF f I) as (l' & G' & IN). exists f, l'. split; [exact I|]. split; [exact G'|]. apply IN. left. split; [|exact B]. exists l. auto.
      + pose proof X as (x & Ix & KX & _). destruct (kid_ok _ _ _ _ _ _ OK Ix) as (m' & so' & do' & OK' & _).
        destruct (kid_entry _ _ _ _ _ _ _ AL' _ _ _ _ _ _ _ _ _ OK Ix OK') as (c1 & f & l & X1 & X2 & _). assert (c1 = c) by congruence. subst c1.
        assert (ET : e_type x = t) by (change (fst (akey x) = t); now rewrite KX). rewrite ET in X2.
        assert (I : In (t, f) (c_children (o_cls o'))) by (destruct SH as (_ & _ & _ & <-); now apply dget_Some_In).
        destruct (IFF f I) as (l' & G' & IN). exists f, l'. split; [exact I|]. split; [exact G'|]. apply IN. now right.
  Qed.
  Lemma listed_then p k : listed w' dst p k ->
    (listed w dst p k /\ look w' dst p <> None) \/ exists y x, el y /\ In x (children (e_kids y)) /\ akey y = p /\ akey x = k /\ e_action x = Some ACreate.
  Proof.
    intros LI. apply (local_listed w' dst p k LO' KY') in LI as (r & o' & L & H & LI). destruct (cell p) as [(y & E & <-)|(N & [SC|G])].
    - destruct (el_ok y E) as (n & m & so & do & OK). apply (elem_lists y n m so do r o' _ _ E OK L H) in LI as [((z & -> & LI) & _)|(x & Ix & KX & EA & _)].
      + left. split; [|congruence]. pose proof OK as (P & _). destruct (pos_key _ _ _ _ _ AL' _ _ _ _ P) as (_ & KD). destruct (KD z eq_refl) as (RD & ID). exists z. auto.
      + right. exists y, x. repeat (split; [assumption || reflexivity|]). split; [|exact EA]. rewrite KX. now destruct k.
    - left. split; [|congruence]. destruct (same_obj p r o' SC L H) as (o & L0 & H0 & SD). apply (local_listed w dst p k LO KY). exists r, o. split; [exact L0|]. split; [exact H0|].
      now apply (lists_same o o' _ _ SD).
    - rewrite (gone_look p G) in L. discriminate.
  Qed.
  Lemma listed_pr p k : listed w' dst p k -> pr p k.
  Proof.
    intros LI. destruct (listed_then p k LI) as [(A & _)|(y & x & E & I & <- & <- & _)]; [now right|]. now apply el_pr.
  Qed.
  Lemma gone_delete x : el x -> look w dst (akey x) <> None -> look w' dst (akey x) = None -> e_action x = Some ADelete.
  Proof.
    intros E N0 N1. destruct (el_ok x E) as (n & m & so & do & OK).
    destruct (elem_facts fuel h dst src flags fl cb w d sa da AL _ _ _ _ _ OK) as (c & o & _ & _ & _ & _ & _ & AB & _ & AC & _).
    destruct (proj1 (el_state x E)) as [W|[(LS & _)|U]].
    - unfold FailRun.won in W. change (look w' (sv_dst env) (akey x)) with (look w' dst (akey x)) in W.
      destruct (e_action x) as [[| |]|]; [|destruct W as (r & o1 & X & _); congruence|reflexivity|]; destruct W as (r & o1 & X & _); congruence.
    - unfold FailRun.lost in LS. change (look w' (sv_dst env) (akey x)) with (look w' dst (akey x)) in LS.
      destruct (e_action x) as [[| |]|]; [|destruct LS as (r & o1 & o2 & _ & _ & X & _); congruence|reflexivity|destruct LS as (r & o1 & o2 & _ & _ & X & _); congruence].
      elim N0. apply AB. now apply AC.
    - destruct (U (akey x)) as (X & _); [exists x; split; [destruct x; now left|now left]|]. change (look w' dst (akey x) = look w dst (akey x)) in X. congruence.
  Qed.

  (** ** Children are stored *)
  Lemma closed_then p k : listed w' dst p k -> look w' dst k <> None.
  Proof.
    intros LI NK. pose proof (proj1 (local_listed w' dst p k LO' KY') LI) as (r & o' & L & H & LL).
    assert (OLD : listed w dst p k -> (forall x, el x -> akey x = k -> e_action x = Some ADelete -> False) -> False).
    { intros A B. pose proof (cp_closed _ _ _ (al_dcomplete _ _ _ _ _ _ AL) p k A) as C. change (look w dst k <> None) in C.
      destruct (cell k) as [(x & E & KX)|(N & [(SC & _)|G])].
      - apply (B x E KX). apply (gone_delete x E); congruence.
      - change (look w' dst k = look w dst k) in SC. congruence.
      - destruct (gone_parent k G N) as (p0 & G0 & CH). apply (child_listed _ _ _ _ AL') in CH.
        rewrite (fo_parent _ _ _ (al_dforest _ _ _ _ _ _ AL) _ _ _ CH A) in G0. rewrite (gone_look p G0) in L. discriminate. }
    destruct (cell p) as [(y & E & KP)|(N & [SC|G])].
    - subst p. destruct (el_ok y E) as (n & m & so & do & OK). apply (elem_lists y n m so do r o' _ _ E OK L H) in LL as [((z & -> & LZ) & ND)|(x & _ & _ & _ & X)].
      + apply OLD.
        * pose proof OK as (P & _). destruct (pos_key _ _ _ _ _ AL' _ _ _ _ P) as (_ & KD). destruct (KD z eq_refl) as (RD & ID). exists z. auto.
        * intros x Ex KX EA. assert (PK : pr (akey y) (akey x)) by (rewrite KX; now apply listed_pr).
          destruct (el_parent x (akey y) Ex PK) as (y0 & Ey & Ix & KY0). assert (y0 = y) by now apply el_uniq. subst y0.
          apply ND. exists x. split; [exact Ix|]. rewrite <- surjective_pairing. auto.
      + apply X. now rewrite <- surjective_pairing.
    - apply OLD.
      + destruct (same_obj p r o' SC L H) as (o & L0 & H0 & SD). apply (local_listed w dst p k LO KY). exists r, o. split; [exact L0|]. split; [exact H0|]. now apply (lists_same o o' _ _ SD).
      + intros x Ex KX EA. assert (PK : pr p (akey x)) by (rewrite KX; now apply listed_pr).
        destruct (el_parent x p Ex PK) as (y0 & Ey & Ix & KY0). exact (N y0 Ey KY0).
    - rewrite (gone_look p G) in L. discriminate.
  Qed.

  (** ** Everything is reached *)
  Lemma kid_exists y n m z t u : el y -> elem_ok n m y None (Some z) -> lists z t u -> exists x, In x (children (e_kids y)) /\ akey x = (t, u).
  Proof.
    intros E (P & NS & D & c & kids & HC & F & G & CT) (f & l & I & GL & IL).
    destruct (describes_key _ _ _ _ _ _ _ AL' _ _ _ _ _ P D) as (c' & C1 & _ & _ & _ & CR & SHD). assert (c' = c) by congruence. subst c'.
    pose proof (SHD z (or_intror eq_refl)) as (_ & _ & _ & SC). rewrite <- SC in I.
    destruct (Forall2_in_l _ _ _ _ F I) as ([es k0] & Ik & ss & dd & K1 & K2 & FA). cbn [fst snd] in *. destruct m as [|m]; [destruct FA|].
    assert (CX : ctx flags env w sa da (S n) t ss dd) by (eapply kid_ctx; eauto).
    pose proof (kids_uids _ dst _ z f t dd l (al_dforest _ _ _ _ _ _ AL) (proj2 (pos_asked _ _ _ _ _ AL' _ _ _ _ _ _ _ P C1 I) z eq_refl) K2 GL) as U. destruct (with_uid_In u dd l U IL) as (o & EO).
    pose proof K1 as K1'. simpl in K1'. injection K1' as <-.
    assert (NN : either (with_uid u []) (with_uid u dd) <> None) by (rewrite EO; discriminate).
    pose proof (CX u NN) as PU. destruct (pos_key _ _ _ _ _ AL' _ _ _ _ PU) as (_ & KD). destruct (KD o EO) as (RD & ID).
    destruct (pos_key _ _ _ _ _ AL' _ _ _ _ P) as (_ & KZ). destruct (KZ z eq_refl) as (RZ & IZ).
    assert (LI : listed w dst (akey y) (t, u)) by (exists z; split; [exact RZ|]; split; [exact IZ|]; exists f, l; rewrite <- SC; auto).
    destruct (proj1 CD _ _ o LI RD ID) as (B0 & B3).
    destruct (list_out flags env w sa da (ad_name sa) (ad_name da) AL' _ _ _ _ _ _ _ _ CX FA NN) as (x & Ix & KX & _).
    - rewrite EO. cbn. intros [X|[X|X]]; [|congruence|congruence]. apply NS. now left.
    - exists x. split; [|exact KX]. apply (Permutation_in _ (Permutation_sym (grouped_children _ _ G))). apply in_flat_map. exists (es, k0). auto.
  Qed.
  Lemma rooted_then k : look w' dst k <> None -> In (fst k) (ad_top da) \/ exists p, listed w' dst p k.
  Proof.
    intros NK. destruct (look w dst k) as [r0|] eqn:L0.
    - assert (NN : lookup w dst (fst k) (snd k) <> None) by (unfold look in L0; rewrite L0; discriminate).
      destruct (cp_rooted _ _ _ (al_dcomplete _ _ _ _ _ _ AL) k NN) as [T|(p & P)]; [now left|right]. exists p.
      pose proof (proj1 (local_listed w dst p k LO KY) P) as (rp & op & Lp & Hp & LL).
      destruct (cell p) as [(y & E & <-)|(N & [SC|G])].
      + destruct (el_ok y E) as (n & m & so & do & OK).
        destruct (elem_facts fuel h dst src flags fl cb w d sa da AL _ _ _ _ _ OK) as (c & o & _ & _ & _ & _ & _ & AB & DE & _ & AD).
        destruct do as [z|]; [|rewrite (AB eq_refl) in Lp; discriminate]. destruct (DE z eq_refl) as (r & Lr & Hr & _). assert (r = rp) by congruence. subst r. assert (z = op) by congruence. subst z.
        destruct (look w' dst (akey y)) as [r'|] eqn:L'.
        * destruct (KY' _ _ _ L') as (o' & H' & _). apply (local_listed w' dst _ k LO' KY'). exists r', o'. split; [exact L'|]. split; [exact H'|].
          apply (elem_lists y n m so (Some op) r' o' _ _ E OK L' H'). left. split; [eauto|]. intros (x & _ & _ & _ & X). apply NK. now rewrite <- surjective_pairing in X.
        * exfalso. assert (EA : e_action y = Some ADelete) by (apply (gone_delete y E); congruence). pose proof (proj1 AD EA) as (-> & _).
          destruct (kid_exists y n m op (fst k) (snd k) E OK LL) as (x & Ix & KX). rewrite <- surjective_pairing in KX.
          pose proof (el_state y E) as (ST & SK). assert (W : won y).
          { destruct ST as [W|[(_ & X)|U]]; [exact W|congruence|]. destruct (U (akey y)) as (X & _); [exists y; split; [destruct y; now left|now left]|].
            change (look w' dst (akey y) = look w dst (akey y)) in X. congruence. }
          pose proof (proj2 (SK x Ix) EA W) as WX'. unfold FailRun.won in WX'. rewrite (kid_delete _ _ _ _ _ _ OK Ix EA) in WX'. destruct WX' as (X & _). apply NK. now rewrite <- KX.
      + destruct SC as (S1 & S2). change (look w' dst p = look w dst p) in S1. destruct (S2 rp op Lp Hp) as (o' & H' & SD). apply (local_listed w' dst p k LO' KY').
        exists rp, o'. split; [congruence|]. split; [exact H'|]. now apply (lists_same op o' _ _ SD).
      + elim NK. apply gone_look. apply (gone_child p k G). destruct LL as (f & l & I1 & I2 & I3). exists rp, op, f, l. auto 10.
    - destruct (cell k) as [(x & E & KX)|(N & [(SC & _)|G])]; [|change (look w' dst k = look w dst k) in SC; congruence|elim NK; now apply gone_look].
      destruct (el_ok x E) as (n & m & so & do & OK). pose proof (el_state x E) as (ST & _). subst k.
      assert (NU : ~ untouched x).
      { intros U. destruct (U (akey x)) as (X & _); [exists x; split; [destruct x; now left|now left]|]. change (look w' dst (akey x) = look w dst (akey x)) in X. congruence. }
      assert (EA : e_action x = Some ACreate).
      { destruct ST as [W|[(LS & _)|U]]; [| |now elim NU].
        - unfold FailRun.won in W. change (look w' (sv_dst env) (akey x)) with (look w' dst (akey x)) in W. change (look w (sv_dst env) (akey x)) with (look w dst (akey x)) in W.
          destruct (e_action x) as [[| |]|]; [reflexivity|destruct W as (r & o & _ & _ & _ & [X|X]); congruence|destruct W as (X & _); congruence|destruct W as (r & o & _ & _ & _ & [X|X]); congruence].
        - unfold FailRun.lost in LS. change (look w' (sv_dst env) (akey x)) with (look w' dst (akey x)) in LS. change (look w (sv_dst env) (akey x)) with (look w dst (akey x)) in LS.
          destruct (e_action x) as [[| |]|]; [congruence| | |]; destruct LS as (r & o1 & o2 & X & _); congruence. }
      destruct (el_up x E) as [I|(y & Ey & I)].
      + left. destruct (top_ok fuel h dst src dc flags fl cb given w d sa da AL sk FD US x I) as (m1 & so1 & do1 & _ & P & _).
        inversion P as [t ss dd u so0 do0 (_ & TI & _) _ _ _ EK|]; subst. exact TI.
      + right. exists (akey y). destruct (el_ok y Ey) as (ny & my & soy & doy & OKY). destruct (el_state y Ey) as (STY & SKY). destruct (proj1 (SKY x I)) as [U|W]; [now elim NU|].
        assert (ND : e_action y <> Some ADelete) by (intros X; pose proof (kid_delete _ _ _ _ _ _ OKY I X); congruence).
        assert (LY : exists r o', look w' dst (akey y) = Some r /\ nth_error (w_heap w') r = Some o').
        { unfold FailRun.won in W. change (look w' (sv_dst env) (akey y)) with (look w' dst (akey y)) in W. destruct (e_action y) as [[| |]|]; try congruence; destruct W as (r & o' & A & B & _); eauto. }
        destruct LY as (r & o' & LY & HY). apply (local_listed w' dst _ _ LO' KY'). exists r, o'. split; [exact LY|]. split; [exact HY|].
        apply (elem_lists y ny my soy doy r o' _ _ Ey OKY LY HY). right. exists x. rewrite <- surjective_pairing. auto.
  Qed.

  (** ** Depth *)
  Lemma line_dst n : forall k, look w dst k <> None -> line w src n k -> line w dst n k.
  Proof.
    induction n as [|n IH]; intros k NK; [auto|]. intros (p & P & H).
    destruct (cp_rooted _ _ _ (al_dcomplete _ _ _ _ _ _ AL) k NK) as [T|(p' & P')].
    - now elim (proj2 (al_places _ _ _ _ _ _ AL) p k P).
    - rewrite (proj1 (al_places _ _ _ _ _ _ AL) p p' k P P') in H. exists p'. split; [exact P'|]. apply IH; [|exact H].
      apply (local_listed w dst p' k LO KY) in P' as (r & o & L & _). congruence.
  Qed.
  Lemma pos_line n : forall k s do, ConvTree.pos flags env w sa da n k (Some s) do -> line w src n k.
  Proof.
    induction n as [|n IH]; intros k s do P; [exact Logic.I|]. destruct (pos_parent _ _ _ _ _ AL' _ _ _ _ P) as (p & so' & do' & P' & _ & _ & LS & _).
    destruct (LS s eq_refl) as (s' & -> & LI). exists p. split; [|exact (IH _ _ _ P')].
    destruct (pos_key _ _ _ _ _ AL' _ _ _ _ P') as (KS & _). destruct (KS s' eq_refl) as (R & K). exists s'. auto.
  Qed.
  Lemma level_line n : forall m k, level n k -> line w dst m k -> m <= n.
  Proof.
    induction n as [|n IH]; intros [|m] k; simpl; try lia.
    - intros N (p & P & _). elim (N p). now right.
    - intros (p & P & LP) (p' & P' & H). assert (X : pr p' k) by now right. rewrite (pr_fun _ _ _ _ AL' _ _ _ X P) in H. specialize (IH m p LP H). lia.
  Qed.
  Lemma line_then n : forall k, line w' dst n k -> line w src n k \/ line w dst n k.
  Proof.
    induction n as [|n IH]; intros k; [now left|]. intros (p & P & H). specialize (IH p H). destruct (listed_then p k P) as [(A & _)|(y & x & E & I & <- & <- & EA)].
    - right. exists p. split; [exact A|]. destruct IH as [X|X]; [|exact X]. apply line_dst; [|exact X]. apply (local_listed w dst p k LO KY) in A as (r & o & L & _). congruence.
    - left. destruct (el_ok y E) as (ny & my & soy & doy & OKY). destruct (kid_ok _ _ _ _ _ _ OKY I) as (m' & so' & do' & OK' & NS). pose proof OK' as (PX & _ & DX & _).
      apply (ok_action _ _ _ _ _ DX) in EA as (NSx & _). destruct soy as [s|]; [|now elim NSx; apply NS]. pose proof OKY as (PY & _).
      destruct so' as [s'|]; [|congruence]. destruct (pos_parent _ _ _ _ _ AL' _ _ _ _ PX) as (p & so2 & do2 & P2 & _ & PR & LS & _). destruct (LS s' eq_refl) as (s2 & -> & LI).
      assert (p = akey y) by (exact (pr_fun _ _ _ _ AL' _ _ _ PR (el_pr y x E I))). subst p.
      exists (akey y). split.
      + destruct (pos_key _ _ _ _ _ AL' _ _ _ _ P2) as (KS & _). destruct (KS s2 eq_refl) as (R & K). exists s2. auto.
      + destruct IH as [X|X]; [exact X|]. apply (line_le w src n ny); [|exact (pos_line _ _ _ _ PY)]. exact (level_line ny n _ (pos_level _ _ _ _ _ AL' _ _ _ _ PY) X).
  Qed.
  Lemma depth_then k : ~ line w' dst (fuel - 1) k.
  Proof. intros H. destruct (line_then _ _ H) as [X|X]; revert X; apply (cm_depth _ _ _ _ _ _ CM); auto. Qed.
  Lemma deep_line v n : forall m k, keyed v dst -> local_ok v dst -> line v dst m k -> deep v dst n k -> exists k', line v dst (m + n) k'.
  Proof.
    induction n as [|n IH]; intros m k KV LV A; simpl.
    - intros _. exists k. now rewrite Nat.add_0_r.
    - intros (k' & (r & o & f & l & L & H & I1 & I2 & I3 & _) & D). rewrite Nat.add_succ_r. apply (IH (S m) k' KV LV); [|exact D].
      exists k. split; [|exact A]. apply (local_listed v dst k k' LV KV). exists r, o. split; [exact L|]. split; [exact H|]. exists f, l. auto.
  Qed.
  Lemma limit_then k : ~ deep w' dst fuel k.
  Proof.
    intros H. destruct (deep_line w' fuel 0 k KY' LO' Logic.I H) as (k' & X). apply (depth_then k'). apply (line_le w' dst (fuel - 1) fuel); [lia|exact X].
  Qed.

  (** ** Objects *)
  Definition twin (k : key) (o' : obj) (c : cls) (o : obj) : Prop :=
    dget (ad_classes da) (fst k) = Some c /\ c_modelname c = fst k /\ creatable c /\ same_shape c (o_cls o') /\ same_shape c (o_cls o) /\ is_key o k /\
    (forall f, In f (c_identifiers c) -> dget (o_vals o') f = dget (o_vals o) f) /\
    ((read w dst o /\ o_flags o' = o_flags o /\ dkeys (o_vals o') = dkeys (o_vals o)) \/
     (read w src o /\ o_flags o' = c_flags c /\ NoDup (dkeys (o_vals o')))).
  Lemma twin_of k r o' : look w' dst k = Some r -> nth_error (w_heap w') r = Some o' -> exists c o, twin k o' c o.
  Proof.
    intros L H. destruct (cell k) as [(y & E & <-)|(N & [SC|G])].
    - destruct (el_ok y E) as (n & m & so & do & OK). destruct (elem_obj _ _ _ _ _ _ _ OK (proj1 (el_state y E)) L H) as (c & C1 & C2 & CR & SH & VD & VN & _).
      pose proof OK as (P & _ & D & _). destruct (pos_key _ _ _ _ _ AL' _ _ _ _ P) as (KS & KD).
      destruct (describes_key _ _ _ _ _ _ _ AL' _ _ _ _ _ P D) as (c' & C1' & _ & _ & _ & _ & SHD). assert (c' = c) by congruence. subst c'. exists c. destruct do as [z|].
      + destruct (VD z eq_refl) as (V1 & V2 & V3 & V4). destruct (KD z eq_refl) as (RD & ID). exists z. repeat (split; [assumption|]). split; [apply SHD; now right|]. split; [exact ID|]. split; [exact V4|]. left. auto.
      + destruct (VN eq_refl) as (s & -> & V1 & V2 & V3). destruct (KS s eq_refl) as (RS & IS). exists s. repeat (split; [assumption|]). split; [apply SHD; now left|]. split; [exact IS|]. split; [exact V3|]. right. auto.
    - destruct (same_obj k r o' SC L H) as (o & L0 & H0 & S1 & S2 & S3 & S4). destruct (dst_read _ _ _ _ AL' _ _ _ L0 H0) as (RD & TY & UI).
      destruct (al_classes _ _ _ _ _ _ AL o (or_intror RD)) as (c & C1 & C2 & C3 & C4). exists c, o. unfold twin. rewrite S1, S2, S4. rewrite TY in *. repeat (split; [assumption|]). split; [now split|].
      split; [reflexivity|]. left. auto.
    - rewrite (gone_look k G) in L. discriminate.
  Qed.
  Lemma twin_name k o' c o : twin k o' c o -> get_shortname o' = get_shortname o.
  Proof.
    intros (_ & _ & CR & (A1 & A2 & _) & (B1 & B2 & _) & _ & V & _). apply shortname_agree; [congruence|congruence| |].
    - rewrite <- B1, <- B2. exact (cr_short _ CR).
    - intros f I. apply V. now rewrite B1.
  Qed.
  Lemma twin_read k o' c o : twin k o' c o -> read w src o \/ read w dst o.
  Proof. intros (_ & _ & _ & _ & _ & _ & _ & [(A & _)|(A & _)]); auto. Qed.
  Lemma twin_same k s o' c o : twin k o' c o -> read w src s -> is_key s k -> get_shortname s = get_shortname o' /\ dict_eq (get_identifiers s) (get_identifiers o') = true.
  Proof.
    intros T RS KS. pose proof (twin_name _ _ _ _ T) as SN. destruct T as (C1 & C2 & CR & (A1 & A2 & _) & (B1 & B2 & _) & KO & V & [(RD & _ & VK)|(RO' & _ & ND)]).
    - destruct (cm_same _ _ _ _ _ _ CM s o k RS RD KS KO) as (E1 & DE). split; [congruence|].
      unfold dict_eq in *. apply andb_true_iff in DE as (DE1 & DE2). apply Nat.eqb_eq in DE1. apply andb_true_iff. split.
      + apply Nat.eqb_eq. rewrite DE1. transitivity (length (dkeys (get_identifiers o))); [unfold dkeys; now rewrite map_length|].
        transitivity (length (dkeys (get_identifiers o'))); [|unfold dkeys; now rewrite map_length]. unfold get_identifiers, dump_include.
        rewrite !(dkeys_filter_key (fun x => smem x _)), VK, <- A1, <- B1. reflexivity.
      + rewrite forallb_forall in *. intros kv I. specialize (DE2 kv I). unfold get_identifiers in *. rewrite dget_dump in *.
        rewrite <- A1, B1. destruct (smem (fst kv) (c_identifiers (o_cls o))) eqn:SM; [|exact DE2]. apply smem_In in SM. rewrite V; [exact DE2|now rewrite B1].
    - assert (o = s) by (eapply (fo_single _ _ _ (al_sforest _ _ _ _ _ _ AL)); eauto). subst o. split; [now rewrite SN|].
      destruct (al_values _ _ _ _ _ _ AL s RS) as (NV & PV). apply ids_agree; [exact NV|exact ND|congruence| |].
      + intros f I. apply V. now rewrite B1.
      + intros f I. apply PV. apply in_app_iff. now left.
  Qed.

  (** ** The adapters afterwards *)
  Lemma src_all_then t : objs_all w' src t = objs_all w src t.
  Proof. exact (src_all w wd w' src dst (al_apart _ _ _ _ _ _ AL) (al_refs _ _ _ _ _ _ AL) (al_share _ _ _ _ _ _ AL) RO AP (mv_redis _ _ _ _ _ MV) t). Qed.
  Lemma src_by_then us t : objs_by w' src us t = objs_by w src us t.
  Proof. exact (src_by w wd w' src dst (al_apart _ _ _ _ _ _ AL) (al_refs _ _ _ _ _ _ AL) (al_share _ _ _ _ _ _ AL) RO AP (mv_redis _ _ _ _ _ MV) us t). Qed.
  Let SR := reads_same w w' src src_all_then src_by_then.
  Let SL := lists_reads w w' src src_all_then src_by_then.

  Lemma share_then : share_nothing w' src dst.
  Proof.
    pose proof (read_only_w_ok _ _ (al_refs _ _ _ _ _ _ AL) RO) as OKD. destruct (ro_share _ _ _ _ RO (al_share _ _ _ _ _ _ AL)) as (SH1 & _). split.
    - intros r (ad & b & t & u & (E1 & E2) & I) HD. apply (ap_mine _ _ _ AP) in HD.
      pose proof (ap_ads _ _ _ AP src (al_apart _ _ _ _ _ _ AL)) as SA. unfold same_ad in SA. rewrite E1 in SA. destruct (nth_error (w_ads wd) src) as [ad0|] eqn:E0; [|destruct SA].
      destruct SA as (s & -> & SE). cbn [ad_store set_ad_store] in E2. subst s. destruct (ad_store ad0) as [d0|] eqn:ES0; [|destruct SE]. destruct SE as (nm & -> & _). rewrite bucket_ext in I.
      destruct HD as [LE|HD].
      + pose proof (OKD src ad0 d0 t (bucket d0 t) u r E0 ES0 (In_bucket_In _ _ _ I) I). lia.
      + apply (SH1 r); [|exact HD]. exists ad0, d0, t, u. auto.
    - intros i j _ (ad & E1 & E2). destruct LO' as (ad' & b & E1' & E2' & _). congruence.
  Qed.

  Lemma alike_then : exists s s', let sa' := set_ad_store sa s in let da' := set_ad_store da s' in
    alike w' fuel src dst sa' da' /\ comparable w' fuel src dst sa' da' /\ children_deletable w' dst da'.
  Proof.
    destruct (mv_other _ _ _ _ _ MV src sa (al_apart _ _ _ _ _ _ AL) (al_src _ _ _ _ _ _ AL)) as (s & ES & _). pose proof (proj2 (proj2 GD)) as (s' & ED). exists s, s'. cbv zeta.
    assert (RK : forall o, read w' dst o -> exists k r, is_key o k /\ look w' dst k = Some r /\ nth_error (w_heap w') r = Some o).
    { intros o R. destruct (read_local w' dst o LO' R) as (t & u & r & L & H). exists (t, u), r. destruct (proj2 (local_read w' dst o (t, u) LO' KY')) as (_ & K); [eauto|]. auto. }
    assert (FP : forall p p' k, listed w' dst p k -> listed w' dst p' k -> p = p').
    { intros p p' k A B. apply listed_pr in A, B. exact (pr_fun _ _ _ _ AL' _ _ _ A B). }
    assert (FT : forall p k, listed w' dst p k -> ~ In (fst k) (ad_top da)).
    { intros p k A. apply listed_pr in A as [A|A]; [exact (proj2 (al_places _ _ _ _ _ _ AL) p k A)|exact (fo_top _ _ _ (al_dforest _ _ _ _ _ _ AL) p k A)]. }
    assert (KC : forall o t f, read w' dst o -> In (t, f) (c_children (o_cls o)) -> dget (o_kids o) f <> None).
    { intros o t f R I. destruct (RK o R) as (k & r & _ & L & H). destruct (KY' _ _ _ L) as (o' & H' & _ & _ & K). assert (o' = o) by congruence. subst o'. exact (K t f I). }
    split; [|split].
    - split.
      + apply (al_apart _ _ _ _ _ _ AL).
      + eapply (w_ok_after w wd w' src dst); eauto; apply AL.
      + exact share_then.
      + exact ES.
      + exact ED.
      + exact LO'.
      + exact KY'.
      + exact (al_tops _ _ _ _ _ _ AL).
      + exact (forest_reads w w' src src_all_then src_by_then _ (al_sforest _ _ _ _ _ _ AL)).
      + exact (local_forest w' dst LO' KY' _ FP FT).
      + split.
        * intros p k A. exact (closed_then p k A).
        * intros k N. exact (rooted_then k N).
        * intros o t f l R I G. destruct (RK o R) as (k & r & K & L & H). destruct (cell k) as [(y & E & <-)|(N & [SC|GO])].
          -- destruct (el_ok y E) as (n & m & so & do & OK). destruct (elem_obj _ _ _ _ _ _ _ OK (proj1 (el_state y E)) L H) as (c & _ & _ & _ & _ & _ & _ & CK).
             destruct (CK t f I) as (l' & G' & N' & _). congruence.
          -- destruct (same_obj k r o SC L H) as (o0 & L0 & H0 & S1 & S2 & S3 & S4). destruct (dst_read _ _ _ _ AL' _ _ _ L0 H0) as (RD & _). rewrite S1 in I. rewrite S3 in G.
             exact (cp_once _ _ _ (al_dcomplete _ _ _ _ _ _ AL) o0 t f l RD I G).
          -- rewrite (gone_look k GO) in L. discriminate.
      + split.
        * intros p p' k A B. apply SL in A. apply listed_pr in B. assert (A' : pr p k) by now left. exact (pr_fun _ _ _ _ AL' _ _ _ A' B).
        * intros p k A. apply SL in A. exact (proj2 (al_places _ _ _ _ _ _ AL) p k A).
      + intros o [R|R]; [apply SR in R; exact (al_classes _ _ _ _ _ _ AL o (or_introl R))|]. destruct (RK o R) as (k & r & (T & _) & L & H). destruct (twin_of k r o L H) as (c & o0 & C1 & C2 & C3 & C4 & _).
        exists c. rewrite T. auto.
      + exact (plain_reads w w' src src_all_then src_by_then (al_values _ _ _ _ _ _ AL)).
      + exact limit_then.
    - assert (TW : forall o k, read w' src o \/ read w' dst o -> is_key o k -> exists o0, (read w src o0 \/ read w dst o0) /\ is_key o0 k /\ get_shortname o = get_shortname o0).
      { intros o k [R|R] K; [apply SR in R; exists o; auto|]. destruct (proj1 (local_read w' dst o k LO' KY') (conj R K)) as (r & L & H). destruct (twin_of k r o L H) as (c & o0 & T).
        exists o0. split; [eapply twin_read; eauto|]. split; [apply T|]. eapply twin_name; eauto. }
      split.
      + intros o [R|R]; [apply SR in R; exact (cm_named _ _ _ _ _ _ CM o (or_introl R))|]. destruct (RK o R) as (k & r & K & L & H). split; [exists (snd k); apply K|].
        destruct (TW o k (or_intror R) K) as (o0 & R0 & _ & E). rewrite E. now apply (cm_named _ _ _ _ _ _ CM).
      + intros s0 o k R R' K K'. apply SR in R. destruct (proj1 (local_read w' dst o k LO' KY') (conj R' K')) as (r & L & H). destruct (twin_of k r o L H) as (c & o0 & T). eapply twin_same; eauto.
      + intros o o' k k' R R' K K' ET EN PL. destruct (TW o k R K) as (o0 & R0 & K0 & E0). destruct (TW o' k' R' K') as (o1 & R1 & K1 & E1).
        apply (cm_siblings _ _ _ _ _ _ CM o0 o1 k k' R0 R1 K0 K1 ET); [congruence|]. destruct PL as [PL|(p & A & B)]; [now left|right]. exists p.
        assert (Q : forall z, listed w' src p z \/ listed w' dst p z -> pr p z) by (intros z [Z|Z]; [left; now apply SL|now apply listed_pr]). split; apply Q; assumption.
      + intros o t f [R|R]; [apply SR in R; exact (cm_lists _ _ _ _ _ _ CM o t f (or_introl R))|]. now apply KC.
      + intros t I. rewrite src_all_then. exact (cm_tops _ _ _ _ _ _ CM t I).
      + intros o t f us R I G. apply SR in R. destruct (cm_kids _ _ _ _ _ _ CM o t f us R I G) as (l & E). exists l. now rewrite src_by_then.
      + intros a k [-> | ->]; [|apply depth_then]. intros H. apply (line_reads w w' src src_all_then src_by_then) in H. revert H. apply (cm_depth _ _ _ _ _ _ CM). now left.
    - split; [|exact (proj2 CD)]. intros p k o A R K. destruct (proj1 (local_read w' dst o k LO' KY') (conj R K)) as (r & L & H).
      destruct (twin_of k r o L H) as (c & o0 & C1 & C2 & C3 & C4 & C5 & K0 & _ & [(RD & OF & _)|(RS & OF & _)]); rewrite OF.
      + apply (proj1 CD p k o0); [|exact RD|exact K0]. destruct (proj1 (local_read w dst o0 k LO KY) (conj RD K0)) as (r0 & L0 & H0).
        destruct (cp_rooted _ _ _ (al_dcomplete _ _ _ _ _ _ AL) k) as [T|(p' & P')]; [unfold look in L0; rewrite L0; discriminate|now elim (FT p k A)|].
        assert (X : pr p' k) by now right. rewrite (pr_fun _ _ _ _ AL' _ _ _ X (listed_pr p k A)) in P'. exact P'.
      + pose proof (proj1 (local_listed w' dst p k LO' KY') A) as (rp & op & Lp & Hp & f & l & I1 & _). destruct (twin_of p rp op Lp Hp) as (cp & op0 & P1 & _ & _ & (_ & _ & _ & P4) & _).
        rewrite <- P4 in I1. exact (proj2 CD _ _ _ _ _ P1 I1 C1).
  Qed.
End Alike.

Section Again.
  Variables (fuel : nat) (h : hooks) (dst src : aid) (dcd dc : diffclass) (flags fl : N) (cbd cb : bool) (given : option diff) (w : world) (d : diff).
  Variables (sa da : adapter).
  Hypothesis AL : alike w fuel src dst sa da.
  Hypothesis CM : comparable w fuel src dst sa da.
  Hypothesis CD : children_deletable w dst da.
  Hypothesis HONEST : hooks_honest h.
  Hypothesis DEL : deletes_succeed h.
  Hypothesis DF : snd (diff_from fuel dst src dcd flags cbd w) = Ok d.
  Hypothesis YO : yields_once (dc_order (d_class d)).
  Hypothesis US : uses fuel dst src dc fl cb given w d.
  Lemma alike_again : exists s s', let w' := fst (sync_from fuel h dst src dc fl cb given w) in let sa' := set_ad_store sa s in let da' := set_ad_store da s' in
    alike w' fuel src dst sa' da' /\ comparable w' fuel src dst sa' da' /\ children_deletable w' dst da'.
  Proof.
    pose proof DF as DF'. apply (diff_from_iff fuel dst src dcd flags cbd w sa da) in DF' as (sk & FD & _); try apply AL.
    destruct (sync_goes_top fuel h dst src dc flags fl cb given w d sa da AL anyf HONEST (write_anyf h) YO sk FD US) as (w' & r & E & GD & MV & FR & _ & _ & wd & RO & AP). rewrite E. cbn [fst].
    eapply alike_then; eauto.
    - intros x I. destruct (FR x I) as (b & _ & F). eauto.
    - intros w1 r1. apply DEL.
  Qed.
End Again.
