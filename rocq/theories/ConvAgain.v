(** * ConvAgain: comparing again after the synchronisation finds no differences. *)
From Verif Require Export ConvTop.

(** ** Lists *)
Inductive subseq {A} : list A -> list A -> Prop :=
| sub_nil : subseq [] []
| sub_keep x l m : subseq l m -> subseq (x :: l) (x :: m)
| sub_drop x l m : subseq l m -> subseq l (x :: m).
Lemma subseq_In {A} (l m : list A) x : subseq l m -> In x l -> In x m.
Proof. induction 1; simpl; intuition. Qed.
Lemma subseq_NoDup {A} (l m : list A) : subseq l m -> NoDup m -> NoDup l.
Proof.
  induction 1 as [|x l m S IH|x l m S IH]; intros N; inversion N; subst; auto.
  constructor; auto. intros I. eapply subseq_In in I; eauto.
Qed.
Lemma subseq_app {A} (l m l' m' : list A) : subseq l m -> subseq l' m' -> subseq (l ++ l') (m ++ m').
Proof. intros S S'. induction S; simpl; [exact S'|constructor; auto|constructor; auto]. Qed.
Lemma subseq_nil {A} (l : list A) : subseq [] l.
Proof. induction l; constructor; auto. Qed.
Lemma pick_F2 {A B} (P : A -> B -> Prop) l : (forall x, In x l -> exists y, P x y) -> exists ys, Forall2 P l ys.
Proof.
  induction l as [|x l IH]; intros H; [exists []; constructor|]. destruct (H x (or_introl eq_refl)) as (y & Y).
  destruct IH as (ys & F); [intros z I; apply H; now right|]. exists (y :: ys). now constructor.
Qed.
Lemma NoDup_map_key {A B} (f : A -> B) l : NoDup l -> (forall x y, In x l -> In y l -> f x = f y -> x = y) -> NoDup (map f l).
Proof.
  induction l as [|x l IH]; intros N H; [constructor|]. inversion N as [|? ? NI N']; subst. simpl. constructor.
  - intros I. apply in_map_iff in I as (y & E & Iy). apply NI. rewrite (H x y); auto; [now left|now right].
  - apply IH; auto. intros y z I J. apply H; now right.
Qed.
Lemma remove_first_NoDup v l : NoDup l -> NoDup (remove_first v l) /\ forall u, In u (remove_first v l) <-> In u l /\ u <> v.
Proof.
  induction l as [|x l IH]; intros N; [simpl; split; [constructor|intuition]|]. inversion N as [|? ? NI N']; subst.
  destruct (IH N') as (I1 & I2). simpl. destruct (String.eqb_spec v x) as [->|NE].
  - split; [exact N'|]. intros u. split; [intros I; split; [auto|congruence]|intros ([->|I] & X); [congruence|exact I]].
  - split; [constructor; [rewrite I2; tauto|exact I1]|]. intros u. simpl. rewrite I2. intuition congruence.
Qed.

(** the parent's list of one child type after all children *)
Section Fold.
  Variables (da : adapter) (c : cls) (t f : string).
  Hypothesis OW : own_fields c.
  Hypothesis TF : dget (c_children c) t = Some f.
  Lemma fold_list L : forall K l, NoDup (map (akey da) L) -> dget K f = Some l -> NoDup l ->
    (forall x, In x L -> e_type x = t -> e_action x = Some ACreate -> ~ In (snd (akey da x)) l) ->
    exists l', dget (fold_left (kids_after da c) L K) f = Some l' /\ NoDup l' /\
      forall u, In u l' <-> (In u l /\ ~ exists x, In x L /\ akey da x = (t, u) /\ e_action x = Some ADelete) \/
                            exists x, In x L /\ akey da x = (t, u) /\ e_action x = Some ACreate.
  Proof.
    induction L as [|x L IH]; intros K l ND G NL CR.
    { exists l. split; [exact G|]. split; [exact NL|]. intros u. split; [intros I; left; split; [exact I|intros (x & [] & _)]|intros [(I & _)|(x & [] & _)]; exact I]. }
    simpl in ND. inversion ND as [|? ? NI ND']; subst. cbn [fold_left].
    assert (NX : forall y u, In y L -> akey da y = (t, u) -> akey da x <> (t, u)).
    { intros y u I E E'. apply NI. rewrite E', <- E. now apply in_map. }
    assert (NS : forall y, In y L -> e_type y = t -> e_type x = t -> snd (akey da y) <> snd (akey da x)).
    { intros y I E1 E2 E. apply NI. assert (X : akey da x = akey da y).
      { rewrite (surjective_pairing (akey da x)), (surjective_pairing (akey da y)), E. change (fst (akey da x)) with (e_type x).
        change (fst (akey da y)) with (e_type y). congruence. }
      rewrite X. now apply in_map. }
    assert (KX : forall u, akey da x = (t, u) <-> e_type x = t /\ snd (akey da x) = u).
    { intros u. split; [intros E; rewrite E; split; [change (fst (akey da x) = t); now rewrite E|reflexivity]|].
      intros (E1 & <-). rewrite <- E1. apply surjective_pairing. }
    assert (GO : forall l1, dget (kids_after da c K x) f = Some l1 -> NoDup l1 ->
      (forall u, In u l1 <-> (In u l /\ ~ (akey da x = (t, u) /\ e_action x = Some ADelete)) \/ (akey da x = (t, u) /\ e_action x = Some ACreate)) ->
      exists l', dget (fold_left (kids_after da c) L (kids_after da c K x)) f = Some l' /\ NoDup l' /\
      forall u, In u l' <-> (In u l /\ ~ exists y, In y (x :: L) /\ akey da y = (t, u) /\ e_action y = Some ADelete) \/
                            exists y, In y (x :: L) /\ akey da y = (t, u) /\ e_action y = Some ACreate).
    { intros l1 G1 N1 H1. destruct (IH _ l1 ND' G1 N1) as (l' & G' & N' & H').
      - intros y I ET EA J. apply H1 in J as [(J & _)|(J & _)].
        + exact (CR y (or_intror I) ET EA J).
        + apply (NX y (snd (akey da y)) I); [|exact J]. rewrite <- ET. apply surjective_pairing.
      - exists l'. split; [exact G'|]. split; [exact N'|]. intros u. rewrite H', H1. clear H' H1. split.
        + intros [([(I1 & I2)|(I1 & I2)] & I3)|(y & I1 & I2 & I3)].
          * left. split; [exact I1|]. intros (y & [<-|Iy] & E1 & E2); [now apply I2|]. apply I3. eauto.
          * right. exists x. split; [now left|]. auto.
          * right. exists y. split; [now right|]. auto.
        + intros [(I1 & I2)|(y & [<-|Iy] & I2 & I3)].
          * left. split; [left; split; [exact I1|]|].
            -- intros (E1 & E2). apply I2. exists x. split; [now left|]. auto.
            -- intros (y & Iy & E1 & E2). apply I2. exists y. split; [now right|]. auto.
          * left. split; [right; auto|]. intros (y & Iy & E1 & E2). exact (NX y u Iy E1 I2).
          * right. eauto. }
    set (v := snd (akey da x)) in *.
    destruct (string_dec (e_type x) t) as [ET|NT].
    - assert (KA : kids_after da c K x = match e_action x with
          | Some ACreate => dset K f (l ++ [v]) | Some ADelete => dset K f (remove_first v l) | _ => K end).
      { unfold kids_after. rewrite ET, TF, G. reflexivity. }
      assert (KX' : forall u, akey da x = (t, u) <-> v = u) by (intros u; rewrite KX; intuition).
      rewrite KA in GO |- *. clear KA.
      destruct (e_action x) as [[| |]|] eqn:EA.
      + apply (GO (l ++ [v])); [apply dget_dset_eq| |].
        * apply NoDup_app_intro; [exact NL|constructor; [intros []|constructor]|]. intros y I [<-|[]]. exact (CR x (or_introl eq_refl) ET EA I).
        * intros u. rewrite in_app_iff. cbn [In]. rewrite KX'. intuition congruence.
      + apply (GO l); [exact G|exact NL|]. intros u. intuition congruence.
      + destruct (remove_first_NoDup v l NL) as (R1 & R2). apply (GO (remove_first v l)); [apply dget_dset_eq|exact R1|].
        intros u. rewrite R2, KX'. split; [intros (I & N); left; split; [exact I|]; intros (X & _); congruence|].
        intros [(I & N)|(_ & X)]; [split; [exact I|]; intros X; apply N; auto|discriminate].
      + apply (GO l); [exact G|exact NL|]. intros u. intuition congruence.
    - assert (KA : dget (kids_after da c K x) f = Some l).
      { unfold kids_after. destruct (dget (c_children c) (e_type x)) as [f'|] eqn:EF; [|exact G].
        destruct (dget K f') as [l0|] eqn:EK; [|exact G].
        assert (NF : f <> f').
        { intros ->. apply NT. eapply own_field_unique; [exact OW| |]; eapply dget_Some_In; eauto. }
        destruct (e_action x) as [[| |]|]; try exact G; rewrite dget_dset_neq by congruence; exact G. }
      apply (GO l); [exact KA|exact NL|]. intros u.
      assert (NK : akey da x <> (t, u)) by (rewrite KX; tauto). tauto.
  Qed.
End Fold.

Lemma vals_but_or X a b k : vals_but X a b -> X k \/ dget b k = dget a k.
Proof.
  intros H. induction H as [|[x v] [y v'] a b (E & D) _ IH]; [now right|]. cbn [fst snd] in *. subst y. cbn [dget].
  destruct (String.eqb_spec k x) as [->|_]; [|exact IH]. destruct D as [D|D]; [now left|right; now rewrite D].
Qed.
Lemma suppressed_dec flags so do : {suppressed flags so do} + {~ suppressed flags so do}.
Proof.
  destruct so as [s|], do as [d|]; simpl.
  - destruct (N.testbit (o_flags s) 0), (N.testbit (o_flags d) 0); try (left; tauto); right; intuition discriminate.
  - destruct (N.testbit flags 1), (N.testbit (o_flags s) 2), (N.testbit (o_flags s) 0); try (left; tauto); right; intuition discriminate.
  - destruct (N.testbit flags 2), (N.testbit (o_flags d) 3), (N.testbit (o_flags d) 0); try (left; tauto); right; intuition discriminate.
  - now right.
Qed.
Section Again.
  Variables (flags : N) (env : senv) (w w' : world) (sa da : adapter) (WX : string -> Prop) (sn dn : string) (feet : key -> Prop).
  Notation src := (sv_src env).
  Notation dst := (sv_dst env).
  Hypothesis AL : alike w (sv_fuel env) src dst sa da.
  Notation rs := (objs_by w src).
  Notation rd := (objs_by w dst).
  Notation rd' := (objs_by w' dst).
  Notation akey := (ConvRun.akey da).
  Notation pos := (ConvTree.pos flags env w sa da).
  Notation faith := (faithful flags sn dn rs rd).
  Notation faith' := (faithful flags sn dn rs rd').
  Notation elem_ok := (ConvFits.elem_ok flags env w sa da sn dn).
  Notation done := (ConvRun.done env da w WX).
  Notation ctx := (ConvFits.ctx flags env w sa da).
  Hypothesis GD : good dst da w'.
  Hypothesis MV : moved dst feet None w w'.
  Hypothesis FEET : forall k, feet k -> exists y n m so do, elem_ok n m y so do /\
    (akey y = k \/ (e_action y = Some ADelete /\ reaches w dst (akey y) k)).

  (** both sides are there, and differ only in attributes that hooks may write *)
  Definition but_written (y : elem) : Prop := exists s d, e_src y = Some s /\ e_dst y = Some d /\
    forall k, In k (attrs_keys (e_src y) (e_dst y)) -> attr_differs s d k = true ->
      WX k /\ exists c, dget (ad_classes da) (e_type y) = Some c /\ In k (c_attributes c).
  Definition settled (x : elem) : Prop := forall y, In y (elem_all x) -> but_written y.
  (** the key is in the destination afterwards *)
  Definition survives (so do : option obj) : Prop :=
    match so, do with
    | Some _, Some _ => True
    | None, Some _ => suppressed flags so do
    | Some _, None => ~ suppressed flags so do
    | None, None => False
    end.
  (** the cells of suppressed pairs are untouched *)
  Definition free (t : string) (ss dd : list obj) : Prop := forall u,
    either (with_uid u ss) (with_uid u dd) <> None -> suppressed flags (with_uid u ss) (with_uid u dd) -> ~ feet (t, u).
  Definition stored_as (t u : string) (o : obj) : Prop := exists r, look w' dst (t, u) = Some r /\ nth_error (w_heap w') r = Some o.
  Definition then_list (t : string) (ss dd dd' : list obj) (vs' : list string) : Prop :=
    Forall2 (stored_as t) vs' dd' /\ forall u, In u vs' <-> survives (with_uid u ss) (with_uid u dd).

  (** ** What is not touched *)
  Lemma reaches_last k0 k : reaches w dst k0 k -> k0 = k \/ exists p, reaches w dst k0 p /\ StoreSpec.child_of w dst p k.
  Proof.
    induction 1 as [k|k k1 k2 C R IH]; [now left|]. right. destruct IH as [->|(p & R' & C')].
    - exists k. split; [constructor|exact C].
    - exists p. split; [econstructor; eauto|exact C'].
  Qed.
  Lemma reach_none n : forall k0 k n0 d0 so do, reaches w dst k0 k -> pos n0 k0 None (Some d0) -> pos n k so do -> so = None.
  Proof.
    induction n as [|n IH]; intros k0 k n0 d0 so do R P0 P; destruct (reaches_last _ _ R) as [->|(p & R' & C)].
    - now destruct (pos_fun _ _ _ _ _ AL _ _ _ _ _ _ _ P P0) as (-> & _).
    - exfalso. apply (pos_level _ _ _ _ _ AL) in P. simpl in P. apply (P p). right. apply (child_listed _ _ _ _ AL). exact C.
    - now destruct (pos_fun _ _ _ _ _ AL _ _ _ _ _ _ _ P P0) as (-> & _).
    - destruct (pos_parent _ _ _ _ _ AL _ _ _ _ P) as (p' & so' & do' & HP & _ & PR & LS & _).
      assert (p' = p) by (eapply (pr_fun _ _ _ _ AL); [exact PR|right; apply (child_listed _ _ _ _ AL); exact C]). subst p'.
      pose proof (IH _ _ _ _ _ _ R' P0 HP) as E. destruct so as [s|]; [|reflexivity]. destruct (LS s eq_refl) as (s' & X & _). congruence.
  Qed.
  Lemma del_pos n m y so do : elem_ok n m y so do -> e_action y = Some ADelete -> exists d, pos n (akey y) None (Some d).
  Proof.
    intros (HP & _ & D & _) EA. apply (ok_action _ _ _ _ _ D) in EA as (-> & N). destruct do as [d|]; [|congruence]. eauto.
  Qed.
  Lemma free_pair n k so do : pos n k so do -> suppressed flags so do ->
    (forall n' p so' do', n = S n' -> pos n' p so' do' -> pr env w p k -> so' <> None) -> ~ feet k.
  Proof.
    intros HP SU PA FT. destruct (FEET k FT) as (y & n1 & m1 & so1 & do1 & OK & [E|(EA & R)]).
    - destruct OK as (HP1 & NS & _). rewrite E in HP1. destruct (pos_fun _ _ _ _ _ AL _ _ _ _ _ _ _ HP HP1) as (<- & <- & _). contradiction.
    - destruct (del_pos _ _ _ _ _ OK EA) as (d & P0). destruct (reaches_last _ _ R) as [E|(p & R' & C)].
      + destruct OK as (HP1 & NS & _). rewrite E in HP1. destruct (pos_fun _ _ _ _ _ AL _ _ _ _ _ _ _ HP HP1) as (<- & <- & _). contradiction.
      + apply (child_listed _ _ _ _ AL) in C. destruct n as [|n].
        * apply (pos_level _ _ _ _ _ AL) in HP. apply (HP p). now right.
        * destruct (pos_parent _ _ _ _ _ AL _ _ _ _ HP) as (p' & so' & do' & HPP & _ & PR & _).
          assert (p' = p) by (eapply (pr_fun _ _ _ _ AL); [exact PR|now right]). subst p'.
          pose proof (reach_none _ _ _ _ _ _ _ R' P0 HPP) as E. exact (PA n p so' do' eq_refl HPP PR E).
  Qed.
  (** untouched destination objects *)
  Lemma kept_obj n k so d : pos n k so (Some d) -> ~ feet k ->
    exists r d', look w' dst k = Some r /\ nth_error (w_heap w') r = Some d' /\ same_data d d'.
  Proof.
    intros HP NF. destruct (pos_key _ _ _ _ _ AL _ _ _ _ HP) as (_ & KD). destruct (KD d eq_refl) as (RD & ID).
    destruct (read_dst_key _ _ _ _ AL _ _ RD ID) as (r & L & H).
    destruct (mv_heap _ _ _ _ _ MV r d H) as (d' & H' & S).
    - intros k' FK L'. apply NF. destruct (dst_read _ _ _ _ AL _ _ _ L H) as (_ & T1 & U1). destruct (dst_read _ _ _ _ AL _ _ _ L' H) as (_ & T2 & U2).
      replace k with k'; [exact FK|]. rewrite (surjective_pairing k), (surjective_pairing k'). congruence.
    - discriminate.
    - exists r, d'. split; [|auto]. now rewrite (mv_look _ _ _ _ _ MV k NF).
  Qed.
  Lemma stored_uid t u o : stored_as t u o -> get_type o = t /\ get_unique_id o = Ok u.
  Proof.
    intros (r & L & H). destruct GD as (_ & K & _). destruct (K _ _ _ L) as (o' & H' & T & U & _). simpl in *. rewrite H in H'. injection H' as <-. auto.
  Qed.
  Lemma stored_fun t u o o' : stored_as t u o -> stored_as t u o' -> o = o'.
  Proof. intros (r & L & H) (r' & L' & H'). congruence. Qed.
  Lemma then_uids t dd' vs' : Forall2 (stored_as t) vs' dd' -> map get_unique_id dd' = map Ok vs'.
  Proof. induction 1 as [|u o vs dd' S _ IH]; [reflexivity|]. simpl. rewrite IH. f_equal. now apply stored_uid in S. Qed.
  Lemma then_with t dd' vs' u o : Forall2 (stored_as t) vs' dd' -> stored_as t u o -> In u vs' -> with_uid u dd' = Some o.
  Proof.
    intros F S I. destruct (with_uid_In u dd' vs' (then_uids _ _ _ F) I) as (o' & E). rewrite E. f_equal.
    apply with_uid_Some in E as (J & U). destruct (Forall2_in_r _ _ _ _ F J) as (u' & _ & S'). 
    destruct (stored_uid _ _ _ S') as (_ & U'). assert (u' = u) by congruence. subst u'. eapply stored_fun; eauto.
  Qed.
  Lemma then_none t ss dd dd' vs' u : then_list t ss dd dd' vs' -> ~ survives (with_uid u ss) (with_uid u dd) -> with_uid u dd' = None.
  Proof. intros (F & I) N. apply (with_uid_None u dd' vs' (then_uids _ _ _ F)). now rewrite I. Qed.
  Lemma then_some t ss dd dd' vs' u o : then_list t ss dd dd' vs' -> survives (with_uid u ss) (with_uid u dd) -> stored_as t u o -> with_uid u dd' = Some o.
  Proof. intros (F & I) N S. eapply then_with; eauto. now apply I. Qed.

  (** ** Objects afterwards *)
  Lemma base_fun x o o' : base env da w x o -> base env da w x o' -> o = o'.
  Proof.
    unfold base. destruct (e_action x) as [[| |]|].
    - intros (c & A & B) (c' & A' & B'). congruence.
    - intros (r & o1 & A & B & C) (r' & o1' & A' & B' & C'). congruence.
    - intros (r & A & B) (r' & A' & B'). congruence.
    - intros (r & o1 & A & B & C) (r' & o1' & A' & B' & C'). congruence.
  Qed.
  Lemma after_but n m x s do o' : elem_ok n m x (Some s) do -> after env da w WX x o' -> get_type s = get_type o' ->
    (forall d, do = Some d -> corresponding s d) -> (exists nm, get_shortname s = Ok nm) ->
    exists c L, dget (ad_classes da) (e_type x) = Some c /\ creatable c /\ same_shape c (o_cls s) /\ same_shape c (o_cls o') /\
      (forall k, In k (attrs_keys (Some (get_attrs s)) (Some (get_attrs o'))) -> attr_differs (get_attrs s) (get_attrs o') k = true -> WX k /\ In k (c_attributes c)) /\ corresponding s o' /\
      (forall d, do = Some d -> o_flags o' = o_flags d) /\
      Permutation L (children (e_kids x)) /\ o_kids o' = fold_left (kids_after da c) L (base_kids do c).
  Proof.
    intros OK (o & L & BA & OC & OV & OI & OF & PM & KE) TY CO NM. pose proof (vals_but_keys _ _ _ OV) as OVK.
    assert (OVI : forall k, In k (c_identifiers (o_cls o)) -> dget (o_vals o') k = dget (o_vals o) k).
    { intros k I. apply (f_equal (fun v => dget v k)) in OI. unfold get_identifiers in OI. rewrite !dget_dump, OC in OI.
      apply smem_In in I. rewrite I in OI. exact OI. }
    destruct (ok_base _ _ _ _ _ _ _ AL _ _ _ _ _ OK) as (c & o2 & C1 & BA2 & SH & KB & VS & VD & VN & _).
    assert (o2 = o) by (eapply base_fun; eauto). subst o2. destruct (VS s eq_refl) as (VS1 & VS2).
    pose proof OK as (HP & NS & D & _). destruct (describes_key _ _ _ _ _ _ _ AL _ _ _ _ _ HP D) as (c' & C1' & _ & _ & _ & C5 & C6).
    assert (c' = c) by congruence. subst c'. pose proof (C6 s (or_introl eq_refl)) as SHS.
    assert (SH' : same_shape c (o_cls o')) by (rewrite OC; exact SH).
    destruct (pos_key _ _ _ _ _ AL _ _ _ _ HP) as (KS & KD). destruct (KS s eq_refl) as (RS & IS).
    destruct (plain_src _ _ _ _ AL s RS) as (NV & PV). pose proof SHS as (SI & SS & SA & SC). pose proof SH' as (SI' & SS' & SA' & SC').
    exists c, L. split; [exact C1|]. split; [exact C5|]. split; [exact SHS|]. split; [exact SH'|]. split; [|split; [|split; [|split]]].
    - intros k IK DI.
      cbn [attrs_keys] in IK. unfold intersection in IK. apply filter_In in IK as (I2 & I1). apply smem_In in I1.
      unfold get_attrs in I1, I2. apply dkeys_dump in I1 as (I1 & J1). apply dkeys_dump in I2 as (I2 & J2). rewrite <- SA in I1.
      destruct (dget (o_vals s) k) as [v|] eqn:G1; [|now apply dget_None in G1]. rewrite OVK in J2.
      destruct (dget (o_vals o) k) as [v'|] eqn:G2; [|now apply dget_None in G2].
      split; [|exact I1]. destruct (vals_but_or _ _ _ k OV) as [HX|EV]; [apply HX|]. exfalso.
      unfold attr_differs, get_attrs in DI. rewrite !dget_dump, <- SA, <- SA' in DI. apply smem_In in I1 as SM. rewrite SM, EV, G1, G2 in DI.
      rewrite (VS2 k v v' I1 G1 G2) in DI. discriminate.
    - destruct NM as (nm & NM). destruct do as [d|].
      + destruct (VD d eq_refl) as (E1 & E2 & E3 & E4). destruct (CO d eq_refl) as (T & (nm' & N1 & N2) & DE).
        pose proof (C6 d (or_intror eq_refl)) as (DI & DS & DA & DC).
        assert (AG : forall k, In k (c_identifiers (o_cls d)) -> dget (o_vals o') k = dget (o_vals d) k).
        { intros k I. rewrite <- DI in I. rewrite OVI; [|rewrite <- OC, <- SI'; exact I]. apply E4. exact (cr_apart _ C5 k I). }
        split; [exact TY|]. split.
        * exists nm'. split; [exact N1|]. rewrite <- N2. apply shortname_agree; [congruence|congruence| |exact AG]. rewrite <- DS, <- DI. exact (cr_short _ C5).
        * unfold dict_eq in *. apply andb_true_iff in DE as (DE1 & DE2). apply Nat.eqb_eq in DE1. apply andb_true_iff. split.
          -- apply Nat.eqb_eq. rewrite DE1. transitivity (length (dkeys (get_identifiers d))); [unfold dkeys; now rewrite map_length|].
             transitivity (length (dkeys (get_identifiers o'))); [|unfold dkeys; now rewrite map_length]. unfold get_identifiers, dump_include.
             rewrite !(dkeys_filter_key (fun x => smem x _)), OVK, E3, <- SI', <- DI. reflexivity.
          -- rewrite forallb_forall in *. intros kv I. specialize (DE2 kv I). unfold get_identifiers in *. rewrite dget_dump in *.
             rewrite <- SI', DI. destruct (smem (fst kv) (c_identifiers (o_cls d))) eqn:SM; [|exact DE2]. apply smem_In in SM. now rewrite (AG _ SM).
      + destruct (VN eq_refl) as (E1 & E2 & E3 & E4).
        assert (AG : forall k, In k (c_identifiers (o_cls s)) -> dget (o_vals o') k = dget (o_vals s) k).
        { intros k I. rewrite <- SI in I. rewrite OVI; [|rewrite <- OC, <- SI'; exact I]. apply VS1; [exact I|reflexivity]. }
        split; [exact TY|]. split.
        * exists nm. split; [exact NM|]. rewrite <- NM. apply shortname_agree; [congruence|congruence| |exact AG]. rewrite <- SS, <- SI. exact (cr_short _ C5).
        * apply ids_agree; [exact NV|now rewrite OVK|congruence|exact AG|]. intros k I. apply PV. apply in_app_iff. now left.
    - intros d X. rewrite OF. destruct (VD d X) as (_ & E & _). exact E.
    - exact PM.
    - rewrite KE, KB. assert (EC : c_children (o_cls o) = c_children c) by (destruct SH as (_ & _ & _ & E); now rewrite E).
      clear - EC. generalize (base_kids do c). induction L as [|y L IH]; intros K; [reflexivity|]. simpl. rewrite IH. f_equal. unfold kids_after. now rewrite EC.
  Qed.
  Section Spare.
  Hypothesis SPARE : forall t c k, dget (ad_classes da) t = Some c -> In k (c_attributes c) -> ~ WX k.
  Lemma after_obj n m x s do o' : elem_ok n m x (Some s) do -> after env da w WX x o' -> get_type s = get_type o' ->
    (forall d, do = Some d -> corresponding s d) -> (exists nm, get_shortname s = Ok nm) ->
    exists c L, dget (ad_classes da) (e_type x) = Some c /\ creatable c /\ same_shape c (o_cls s) /\ same_shape c (o_cls o') /\
      attrs_action (Some (get_attrs s)) (Some (get_attrs o')) = None /\ corresponding s o' /\
      (forall d, do = Some d -> o_flags o' = o_flags d) /\
      Permutation L (children (e_kids x)) /\ o_kids o' = fold_left (kids_after da c) L (base_kids do c).
  Proof.
    intros OK AF TY CO NM. destruct (after_but n m x s do o' OK AF TY CO NM) as (c & L & C1 & CR & S1 & S2 & NA & R). exists c, L.
    repeat (split; [assumption|]). split; [|exact R]. unfold attrs_action. destruct (existsb _ _) eqn:E; [|reflexivity]. exfalso.
    apply existsb_exists in E as (k & IK & DI). destruct (NA k IK DI) as (HX & I). exact (SPARE _ _ k C1 I HX).
  Qed.
  End Spare.

  (** ** Child lists afterwards *)
  Lemma list_out n m t ss dd es sk u : ctx n t ss dd -> faith (S m) ss dd es sk -> either (with_uid u ss) (with_uid u dd) <> None ->
    ~ suppressed flags (with_uid u ss) (with_uid u dd) -> exists y, In y es /\ akey y = (t, u) /\ elem_ok n m y (with_uid u ss) (with_uid u dd).
  Proof.
    intros C (us & vs & outs & U1 & U2 & _ & F & -> & _) NN NS. pose proof NN as I. apply (pair_at_In _ _ _ _ _ U1 U2) in I.
    destruct (Forall2_in_l _ _ _ _ F I) as ([ox k] & Io & PO). pose proof PO as (_ & [(S & _)|(_ & e & mp & s0 & kids & E & _)]); [contradiction|].
    injection E as -> ->. destruct (pair_elem _ _ _ _ _ _ _ AL _ _ _ _ _ _ _ _ C NN PO) as (EA & OK).
    exists e. split; [apply In_somes; eauto|]. auto.
  Qed.
  Lemma stored_after n m t u so do y : (suppressed flags so do -> ~ feet (t, u)) -> pos n (t, u) so do ->
    (~ suppressed flags so do -> elem_ok n m y so do /\ akey y = (t, u) /\ done1 env da w WX y w') ->
    survives so do -> exists o, stored_as t u o /\ (suppressed flags so do -> exists d, do = Some d /\ same_data d o) /\
      (~ suppressed flags so do -> so <> None /\ after env da w WX y o).
  Proof.
    intros FR HP NS SV. destruct (suppressed_dec flags so do) as [S|S].
    - destruct do as [d|]; [|destruct so; [now elim SV|destruct SV]].
      destruct (kept_obj _ _ _ _ HP (FR S)) as (r & d' & L & H & SD). exists d'. split; [exists r; auto|]. split; [eauto|contradiction].
    - destruct (NS S) as (OK & EA & DN). pose proof OK as (_ & _ & D & _). destruct (ok_action _ _ _ _ _ D) as (AC & AD).
      assert (NN : so <> None) by (destruct so; [discriminate|]; destruct do; [now elim S|now elim SV]).
      assert (ND : e_action y <> Some ADelete) by (intros X; apply AD in X as (X & _); congruence).
      destruct (done1_kept _ _ _ _ _ _ DN ND) as (r & o & L & H & A & _). rewrite EA in L. exists o. split; [exists r; auto|]. split; [contradiction|auto].
  Qed.
  Lemma local_dst' : exists ad d, nth_error (w_ads w') dst = Some ad /\ ad_store ad = SLocal d.
  Proof. destruct GD as ((ad & d & A & B & _) & _). eauto. Qed.
  Lemma by_stored t vs l : Forall2 (stored_as t) vs l -> rd' vs t = Ok l.
  Proof. intros F. apply (local_by w' dst vs t l local_dst'). exact F. Qed.

  Lemma kids_then n m x s do o' c L t f ss dd es k : elem_ok n (S m) x (Some s) do -> dget (ad_classes da) (e_type x) = Some c -> creatable c ->
    Permutation L (children (e_kids x)) -> o_kids o' = fold_left (kids_after da c) L (base_kids do c) ->
    In (t, f) (c_children c) -> kids_of rs (Some s) f t = Ok ss -> kids_of rd do f t = Ok dd -> faith (S m) ss dd es k ->
    (forall y, In y es -> In y (children (e_kids x))) -> done x w' ->
    exists dd' vs', kids_of rd' (Some o') f t = Ok dd' /\ then_list t ss dd dd' vs' /\ free t ss dd /\ ctx (S n) t ss dd /\ dget (o_kids o') f = Some vs' /\ NoDup vs'.
  Proof.
    intros OK HC CR PM KE It K1 K2 FA SUB DN.
    pose proof OK as (HP & NS & D & c' & kids & HC' & F & G & CT). assert (c' = c) by congruence. subst c'.
    assert (CX : ctx (S n) t ss dd) by (eapply kid_ctx; eauto).
    assert (FR : free t ss dd).
    { intros u NN SU. apply (free_pair (S n) _ _ _ (CX u NN) SU). intros n' p so' do' EN HP' PR X. injection EN as <-.
      destruct (kid_facts _ _ _ _ _ AL _ _ _ _ _ _ _ _ _ _ _ HP CT It K1 K2 NN) as (PR' & _).
      rewrite (pr_fun _ _ _ _ AL _ _ _ PR PR') in HP'. destruct (pos_fun _ _ _ _ _ AL _ _ _ _ _ _ _ HP HP') as (E & _). congruence. }
    assert (GF : dget (c_children c) t = Some f) by (apply In_dget; [exact (cr_types _ CR)|exact It]).
    assert (IL : forall y, In y L <-> In y (children (e_kids x))).
    { intros y. split; intros I; [apply (Permutation_in _ PM I)|apply (Permutation_in _ (Permutation_sym PM) I)]. }
    (* the elements of the type *)
    assert (E1 : forall y u, In y L -> akey y = (t, u) -> exists m', elem_ok (S n) m' y (with_uid u ss) (with_uid u dd)).
    { intros y u I EA. apply IL in I. destruct (ok_kids _ _ _ _ _ _ _ AL _ _ _ _ _ _ OK I) as (m1 & c1 & t1 & f1 & ss1 & dd1 & u1 & _ & HC1 & It1 & K11 & K21 & EA1 & OK1).
      assert (c1 = c) by congruence. subst c1. rewrite EA1 in EA. injection EA as -> ->.
      pose proof (In_dget _ _ _ (cr_types _ CR) It1) as G1. assert (f1 = f) by congruence. subst f1.
      rewrite K1 in K11. rewrite K2 in K21. injection K11 as <-. injection K21 as <-. eauto. }
    assert (E2 : forall u, either (with_uid u ss) (with_uid u dd) <> None -> ~ suppressed flags (with_uid u ss) (with_uid u dd) ->
      exists y, In y L /\ akey y = (t, u) /\ elem_ok (S n) m y (with_uid u ss) (with_uid u dd)).
    { intros u NN NSU. destruct (list_out _ _ _ _ _ _ _ _ CX FA NN NSU) as (y & Iy & EA & OKY). exists y. split; [apply IL; auto|auto]. }
    (* the old list *)
    assert (OLD : exists l, dget (base_kids do c) f = Some l /\ NoDup l /\ forall u, In u l <-> with_uid u dd <> None).
    { destruct do as [d|]; simpl in K2.
      - cbn [base_kids]. destruct (dget (o_kids d) f) as [l|] eqn:GL; [|discriminate]. exists l. split; [reflexivity|].
        destruct (pos_key _ _ _ _ _ AL _ _ _ _ HP) as (_ & KD). destruct (KD d eq_refl) as (RD & ID).
        assert (IZ : In (t, f) (c_children (o_cls d))).
        { destruct (describes_key _ _ _ _ _ _ _ AL _ _ _ _ _ HP D) as (c1 & C1 & _ & _ & _ & _ & C6). assert (c1 = c) by congruence. subst c1.
          destruct (C6 d (or_intror eq_refl)) as (_ & _ & _ & SZ). now rewrite <- SZ. }
        split; [exact (cp_once _ _ _ (al_dcomplete _ _ _ _ _ _ AL) d t f l RD IZ GL)|]. intros u.
        pose proof (fo_ids _ _ _ (al_dforest _ _ _ _ _ _ AL) l t dd (or_intror (ex_intro _ d (ex_intro _ f (conj RD IZ)))) K2) as U. pose proof (with_uid_None u dd l U) as X.
        destruct (in_dec string_dec u l); [split; [intros _ Y; tauto|auto]|split; [contradiction|intros Y; elim Y; tauto]].
      - injection K2 as <-. exists []. split; [apply empty_field; apply (cr_kids _ CR); unfold dvals; apply in_map_iff; exists (t, f); auto|].
        split; [constructor|]. intros u. split; [intros []|intros X; now elim X]. }
    destruct OLD as (l & GL & NL & IN).
    assert (NDL : NoDup (map akey L)).
    { assert (NT : NoDup (map tagged (children (e_kids x)))) by (eapply kids_NoDup; eauto). apply NoDup_map_key.
      - eapply Permutation_NoDup; [symmetry; exact PM|]. eapply NoDup_map_inv. exact NT.
      - intros y z Iy Iz E. apply IL in Iy. apply IL in Iz. apply (tagged_inj (children (e_kids x))); auto.
        destruct (ok_kids _ _ _ _ _ _ _ AL _ _ _ _ _ _ OK Iy) as (m1 & c1 & t1 & f1 & ss1 & dd1 & u1 & _ & _ & _ & _ & _ & _ & OK1).
        destruct (ok_kids _ _ _ _ _ _ _ AL _ _ _ _ _ _ OK Iz) as (m2 & c2 & t2 & f2 & ss2 & dd2 & u2 & _ & _ & _ & _ & _ & _ & OK2).
        exact (same_tag _ _ _ _ _ _ _ AL _ _ _ _ _ _ _ _ _ _ OK1 OK2 E). }
    destruct (fold_list da c t f (cr_own _ CR) GF L (base_kids do c) l NDL GL NL) as (l' & GL' & NL' & IN').
    { intros y Iy ET EA J. destruct (E1 y (snd (akey y)) Iy) as (m' & OKY); [rewrite <- ET; apply surjective_pairing|].
      apply IN in J. pose proof OKY as (_ & _ & DY & _). apply (ok_action _ _ _ _ _ DY) in EA as (_ & X). contradiction. }
    assert (SV : forall u, In u l' <-> survives (with_uid u ss) (with_uid u dd)).
    { intros u. rewrite IN', IN. unfold survives. pose proof (E1) as E1u. pose proof (E2 u) as E2u.
      assert (AX : forall y, In y L -> akey y = (t, u) -> ~ suppressed flags (with_uid u ss) (with_uid u dd) /\ either (with_uid u ss) (with_uid u dd) <> None /\
        (with_uid u ss <> None /\ with_uid u dd = None <-> e_action y = Some ACreate) /\ (with_uid u ss = None /\ with_uid u dd <> None <-> e_action y = Some ADelete)).
      { intros y Iy EA. destruct (E1 y u Iy EA) as (m' & HP' & NS' & D' & _). split; [exact NS'|]. split; [eapply pos_some; eauto|]. exact (ok_action _ _ _ _ _ D'). }
      destruct (with_uid u ss) as [s1|] eqn:WS, (with_uid u dd) as [d1|] eqn:WD.
      - split; [auto|]. intros _. left. split; [discriminate|]. intros (y & Iy & EA & ED). destruct (AX y Iy EA) as (_ & _ & _ & AD). apply AD in ED as (X & _). discriminate.
      - split.
        + intros [(X & _)|(y & Iy & EA & EC)]; [congruence|]. now destruct (AX y Iy EA).
        + intros NSU. right. destruct (E2u ltac:(discriminate) NSU) as (y & Iy & EA & OKY). exists y. split; [exact Iy|]. split; [exact EA|].
          destruct (AX y Iy EA) as (_ & _ & AC & _). apply AC. split; [discriminate|reflexivity].
      - split.
        + intros [(_ & N)|(y & Iy & EA & EC)].
          * destruct (suppressed_dec flags None (Some d1)) as [S|S]; [exact S|]. exfalso. apply N.
            destruct (E2u ltac:(discriminate) S) as (y & Iy & EA & OKY). exists y. split; [exact Iy|]. split; [exact EA|].
            destruct (AX y Iy EA) as (_ & _ & _ & AD). apply AD. split; [reflexivity|discriminate].
          * destruct (AX y Iy EA) as (_ & _ & AC & _). apply AC in EC as (X & _). congruence.
        + intros SU. left. split; [discriminate|]. intros (y & Iy & EA & _). now destruct (AX y Iy EA).
      - split; [|intros []]. intros [(X & _)|(y & Iy & EA & _)]; [congruence|]. destruct (AX y Iy EA) as (_ & X & _). now elim X. }
    destruct (pick_F2 (stored_as t) l') as (dd' & F').
    { intros u Iu. apply SV in Iu. assert (NN : either (with_uid u ss) (with_uid u dd) <> None).
      { unfold survives in Iu. destruct (with_uid u ss), (with_uid u dd); simpl in *; try discriminate. destruct Iu. }
      destruct (suppressed_dec flags (with_uid u ss) (with_uid u dd)) as [SU|SU].
      - destruct (stored_after (S n) m t u _ _ x (FR u NN) (CX u NN)) as (o & SO & _); [contradiction|exact Iu|eauto].
      - destruct (E2 u NN SU) as (y & Iy & EA & OKY).
        destruct (stored_after (S n) m t u _ _ y (FR u NN) (CX u NN)) as (o & SO & _); [|exact Iu|eauto].
        intros _. split; [exact OKY|]. split; [exact EA|]. apply (DN y). apply kid_all. now apply IL. }
    exists dd', l'. split; [|split; [split; [exact F'|exact SV]|]; split; [exact FR|]; split; [exact CX|]; split; [now rewrite KE|exact NL']].
    unfold kids_of. rewrite KE, GL'. now apply by_stored.
  Qed.

  (** ** Comparing again *)
  Lemma same_data_short o o' : same_data o o' -> get_shortname o' = get_shortname o.
  Proof.
    intros (D1 & D2 & _). unfold get_shortname, get_unique_id, get_identifiers, dump_include, getattr_val. now rewrite D1, D2.
  Qed.
  Lemma same_data_corr s d d' : same_data d d' -> corresponding s d -> corresponding s d'.
  Proof.
    intros SD (T & (n & N1 & N2) & E). split; [rewrite (same_data_type _ _ SD); exact T|]. split; [exists n; rewrite (same_data_short _ _ SD); auto|].
    destruct SD as (D1 & D2 & _). unfold get_identifiers, dump_include in *. now rewrite D1, D2.
  Qed.
  Lemma same_data_supp so d d' : same_data d d' -> suppressed flags so (Some d) -> suppressed flags so (Some d').
  Proof. intros (_ & _ & _ & D4). unfold suppressed. now rewrite D4. Qed.
  Lemma no_lone c : filter (fun tf : string * string => negb (dmem (c_children c) (fst tf))) (c_children c) = [].
  Proof.
    assert (G : forall m, (forall tf, In tf m -> dmem (c_children c) (fst tf) = true) -> filter (fun tf : string * string => negb (dmem (c_children c) (fst tf))) m = []).
    { induction m as [|x m IH]; intros A; [reflexivity|]. cbn [filter]. rewrite A by (now left). simpl. apply IH. intros y I. apply A. now right. }
    apply G. intros [t f] I. apply dmem_In. unfold dkeys. apply in_map_iff. exists (t, f). auto.
  Qed.
  Lemma types_same c s o : same_shape c (o_cls s) -> same_shape c (o_cls o) -> child_types (Some s) (Some o) (c_children c) 0.
  Proof.
    intros (_ & _ & _ & E1) (_ & _ & _ & E2). unfold child_types. rewrite <- E1, <- E2. split.
    - symmetry. apply filter_all. intros [t f] I. apply dmem_In. unfold dkeys. apply in_map_iff. exists (t, f). auto.
    - exists 0, 0. unfold one_sided. rewrite <- E1, <- E2, no_lone. split; [exists []; split; [constructor|reflexivity]|]. split; [exists []; split; [constructor|reflexivity]|reflexivity].
  Qed.
  Lemma settled_elem x es : but_written x -> grouped (e_kids x) es -> (forall y, In y es -> settled y) -> settled x.
  Proof.
    intros A G H y I. apply elem_all_kids in I as [->|(k & Hk & I)]; [exact A|]. apply (Permutation_in _ (grouped_children _ _ G)) in Hk. exact (H k Hk y I).
  Qed.

  Section Step.
    Variable m : nat.
    Hypothesis IH : forall n t ss dd es sk dd' vs', ctx n t ss dd -> faith m ss dd es sk -> free t ss dd -> (forall x, In x es -> done x w') ->
      then_list t ss dd dd' vs' -> exists es' sk', faith' m ss dd' es' sk' /\ (forall x, In x es' -> settled x) /\ subseq (map tagged es') (map tagged es).

    Lemma kids_again n y s do o c L : elem_ok n m y (Some s) do -> dget (ad_classes da) (e_type y) = Some c -> creatable c ->
      Permutation L (children (e_kids y)) -> o_kids o = fold_left (kids_after da c) L (base_kids do c) -> done y w' ->
      exists kids', Forall2 (fun tf (k : list elem * nat) => exists ss dd, kids_of rs (Some s) (snd tf) (fst tf) = Ok ss /\
          kids_of rd' (Some o) (snd tf) (fst tf) = Ok dd /\ faith' m ss dd (fst k) (snd k)) (c_children c) kids' /\
        (forall x, In x (flat_map fst kids') -> settled x) /\ NoDup (map tagged (flat_map fst kids')).
    Proof.
      intros OK HC CR PM KE DN. pose proof OK as (HP & NS & D & c' & kids & HC' & F & G & CT). assert (c' = c) by congruence. subst c'.
      assert (SUB : forall k, In k kids -> forall x, In x (fst k) -> In x (children (e_kids y))).
      { intros k Ik x Ix. apply (Permutation_in _ (Permutation_sym (grouped_children _ _ G))). apply in_flat_map. eauto. }
      assert (GO : exists kids', Forall2 (fun tf (k : list elem * nat) => exists ss dd, kids_of rs (Some s) (snd tf) (fst tf) = Ok ss /\
          kids_of rd' (Some o) (snd tf) (fst tf) = Ok dd /\ faith' m ss dd (fst k) (snd k)) (c_children c) kids' /\
        (forall x, In x (flat_map fst kids') -> settled x) /\ subseq (map tagged (flat_map fst kids')) (map tagged (flat_map fst kids))).
      { assert (IC : incl (c_children c) (c_children c)) by (intros a; auto).
        revert F SUB IC. generalize (c_children c) at 1 2 4. intros cl F. clear G. induction F as [|[t f] [es k] cl kids (ss & dd & K1 & K2 & FA) F IHF]; intros SUB IC.
        - exists []. split; [constructor|]. split; [intros x []|constructor].
        - simpl in K1, K2, FA. destruct IHF as (kids' & F' & ID & SQ); [intros k0 Ik; apply SUB; now right|intros a Ia; apply IC; now right|].
          destruct m as [|m1] eqn:Em; [destruct FA|].
          destruct (kids_then n m1 y s do o c L t f ss dd es k OK HC CR PM KE (IC _ (or_introl eq_refl)) K1 K2 FA) as (dd' & vs' & K' & TL & FR & CX & _).
          { intros x Ix. apply (SUB (es, k)); [now left|exact Ix]. }
          { exact DN. }
          destruct (IH (S n) t ss dd es k dd' vs' CX FA FR) as (es' & k' & FA' & ID' & SQ').
          { intros x Ix z Iz. apply (DN z). eapply elem_all_trans; [exact Iz|]. apply kid_all. apply (SUB (es, k)); [now left|exact Ix]. }
          { exact TL. }
          exists ((es', k') :: kids'). split; [constructor; [exists ss, dd'; auto|exact F']|]. split.
          + intros x I. simpl in I. apply in_app_iff in I as [I|I]; auto.
          + simpl. rewrite !map_app. apply subseq_app; auto. }
      destruct GO as (kids' & F' & ID & SQ). exists kids'. split; [exact F'|]. split; [exact ID|]. eapply subseq_NoDup; [exact SQ|]. exact (grouped_NoDup _ _ G).
    Qed.

    Lemma pair_then n t ss dd es sk dd' vs' us vs u : ctx n t ss dd -> faith (S m) ss dd es sk -> free t ss dd -> (forall x, In x es -> done x w') ->
      then_list t ss dd dd' vs' -> map get_unique_id ss = map Ok us -> map get_unique_id dd = map Ok vs -> In u (us ++ vs') ->
      (exists out', pair_ok flags sn dn rs rd' (faith' m) (with_uid u ss) (with_uid u dd') out' /\
         forall x', fst out' = Some x' -> with_uid u ss <> None /\ ~ suppressed flags (with_uid u ss) (with_uid u dd) /\ settled x') /\
      (forall s d', with_uid u ss = Some s -> with_uid u dd' = Some d' -> corresponding s d').
    Proof.
      intros CX FA FR DN TL U1 U2 IU.
      assert (NN : either (with_uid u ss) (with_uid u dd) <> None).
      { apply in_app_iff in IU as [I|I].
        - destruct (with_uid_In u ss us U1 I) as (s & ->). discriminate.
        - apply TL in I. unfold survives in I. destruct (with_uid u ss), (with_uid u dd); simpl; try discriminate. destruct I. }
      pose proof (CX u NN) as HP. pose proof FA as (us0 & vs0 & outs & U10 & U20 & CO & F & _).
      assert (PO : exists out, pair_ok flags sn dn rs rd (faith m) (with_uid u ss) (with_uid u dd) out).
      { pose proof NN as I. apply (pair_at_In _ _ _ _ _ U10 U20) in I. destruct (Forall2_in_l _ _ _ _ F I) as (out & _ & PO). eauto. }
      destruct PO as (out & (o0 & nm & EO & EN) & _).
      destruct (suppressed_dec flags (with_uid u ss) (with_uid u dd)) as [SU|SU].
      - (* suppressed before *)
        assert (X : (with_uid u dd = None /\ with_uid u dd' = None) \/ exists d d', with_uid u dd = Some d /\ with_uid u dd' = Some d' /\ same_data d d').
        { destruct (with_uid u dd) as [d|] eqn:WD.
          - right. assert (SV : survives (with_uid u ss) (Some d)) by (unfold survives; destruct (with_uid u ss); auto).
            destruct (stored_after n m t u _ _ (mkElem "" "" [] "" "" None None []) ltac:(intros _; rewrite <- WD in SU; apply (FR u); [now rewrite WD|exact SU]) HP) as (o & SO & SD & _); [contradiction|exact SV|].
            destruct (SD SU) as (d0 & E & S0). injection E as <-. exists d, o. split; [reflexivity|]. split; [|exact S0].
            eapply then_some; [exact TL|now rewrite WD|exact SO].
          - left. split; [reflexivity|]. eapply then_none; [exact TL|]. rewrite WD. unfold survives. destruct (with_uid u ss); [now intros Y|auto]. }
        destruct X as [(WD & WD')|(d & d' & WD & WD' & SD)].
        + rewrite WD', WD in *. split; [|discriminate]. exists (None, 1). split; [|discriminate]. split; [eauto|]. left. auto.
        + rewrite WD', WD in *. split.
          * exists (None, 1). split; [|discriminate]. split; [|left; split; [eapply same_data_supp; eauto|reflexivity]].
            destruct (with_uid u ss) as [s|]; simpl in *; [eauto|]. injection EO as <-. exists d', nm. split; [reflexivity|]. now rewrite (same_data_short _ _ SD).
          * intros s d2 WS E. injection E as <-. eapply same_data_corr; [exact SD|]. eapply CO; eauto.
      - destruct (with_uid u ss) as [s|] eqn:WS; cycle 1.
        { exfalso. apply in_app_iff in IU as [I|I].
          - apply (with_uid_None u ss us U1) in WS. contradiction.
          - apply TL in I. rewrite WS in I. unfold survives in I. destruct (with_uid u dd); [contradiction|destruct I]. }
        simpl in EO. injection EO as <-.
        destruct (list_out n m t ss dd es sk u CX FA) as (y & Iy & EA & OKY); [now rewrite WS|now rewrite WS|]. rewrite WS in OKY.
        assert (SV : survives (Some s) (with_uid u dd)) by (unfold survives; destruct (with_uid u dd); auto).
        assert (DY : done y w') by (apply DN; exact Iy).
        destruct (stored_after n m t u (Some s) (with_uid u dd) y) as (o & SO & _ & AF); [contradiction|exact HP| |exact SV|].
        { intros _. split; [exact OKY|]. split; [exact EA|]. apply (DY y). destruct y; now left. }
        destruct (AF SU) as (_ & AO). assert (WD' : with_uid u dd' = Some o) by (eapply then_some; [exact TL|now rewrite WS|exact SO]).
        assert (TS : get_type s = t).
        { destruct (pos_key _ _ _ _ _ AL _ _ _ _ HP) as (KS & _). destruct (KS s eq_refl) as (_ & T & _). exact T. }
        destruct (stored_uid _ _ _ SO) as (TO & _).
        destruct (after_but n m y s (with_uid u dd) o OKY AO) as (c & L & HC & CR & SH1 & SH2 & NA & COR & FLG & PM & KE).
        { congruence. } { intros d E. apply (CO u s d WS E). } { eauto. }
        split; [|intros s2 d2 E1 E2; rewrite WD' in E2; injection E1 as <-; injection E2 as <-; exact COR].
        rewrite WD'. destruct (suppressed_dec flags (Some s) (Some o)) as [S2|S2].
        + exists (None, 1). split; [|discriminate]. split; [exists s, nm; auto|]. left. auto.
        + destruct (kids_again n y s (with_uid u dd) o c L OKY HC CR PM KE DY) as (kids' & F' & ID & ND).
          destruct (grouped_exists _ ND) as (gs & G).
          set (x' := mkElem (get_type s) nm (get_identifiers s) sn dn (Some (get_attrs s)) (Some (get_attrs o)) gs).
          exists (Some x', 0 + list_sum (map snd kids')). split.
          * split; [exists s, nm; auto|]. right. split; [exact S2|]. exists x', (c_children c), 0, kids'. split; [reflexivity|]. split.
            { repeat (split; [reflexivity|]). exists s. auto. }
            split; [now apply types_same|]. split; [exact F'|exact G].
          * intros x E. injection E as <-. split; [discriminate|]. split; [exact SU|]. eapply settled_elem; [|exact G|exact ID]. exists (get_attrs s), (get_attrs o). split; [reflexivity|]. split; [reflexivity|].
            intros k IK DI. destruct (NA k IK DI) as (X1 & X2). split; [exact X1|]. exists c. split; [|exact X2]. cbn [e_type x']. rewrite <- HC. f_equal. rewrite TS. symmetry. exact (f_equal fst EA).
    Qed.
  End Step.

  Lemma describes_tag x so do s : describes sn dn x so do -> so = Some s -> exists nm, get_shortname s = Ok nm /\ tagged x = (get_type s, nm).
  Proof.
    intros (_ & _ & _ & _ & o & EO & T & N & _) ->. simpl in EO. injection EO as <-. exists (e_name x). split; [exact N|]. unfold tagged. now rewrite T.
  Qed.
  Lemma again m : forall n t ss dd es sk dd' vs', ctx n t ss dd -> faith m ss dd es sk -> free t ss dd -> (forall x, In x es -> done x w') ->
    then_list t ss dd dd' vs' -> exists es' sk', faith' m ss dd' es' sk' /\ (forall x, In x es' -> settled x) /\ subseq (map tagged es') (map tagged es).
  Proof.
    induction m as [|m IH]; intros n t ss dd es sk dd' vs' CX FA FR DN TL; [destruct FA|].
    pose proof FA as (us & vs & outs & U1 & U2 & CO & F & ES & SK).
    assert (U2' : map get_unique_id dd' = map Ok vs') by (eapply then_uids; apply TL).
    pose proof (fun u I => pair_then m IH n t ss dd es sk dd' vs' us vs u CX FA FR DN TL U1 U2 I) as PT.
    destruct (pick_F2 (fun u out' => pair_ok flags sn dn rs rd' (faith' m) (with_uid u ss) (with_uid u dd') out' /\
         forall x', fst out' = Some x' -> with_uid u ss <> None /\ ~ suppressed flags (with_uid u ss) (with_uid u dd) /\ settled x') (keep_first (us ++ vs'))) as (outs' & F').
    { intros u I. rewrite In_keep_first in I. exact (proj1 (PT u I)). }
    exists (somes outs'). eexists. split; [|split].
    - exists us, vs', outs'. split; [exact U1|]. split; [exact U2'|]. split; [|split; [|split; reflexivity]].
      + intros u s d W1 W2. apply (PT u); auto. apply in_app_iff. left. destruct (in_dec string_dec u us) as [I|I]; [exact I|].
        apply (with_uid_None u ss us U1) in I. congruence.
      + eapply Forall2_if; [|exact F']. cbv beta. intros u o (X & _). exact X.
    - intros x I. apply In_somes in I as (k & I). destruct (Forall2_in_r _ _ _ _ F' I) as (u & _ & _ & H). now destruct (H x eq_refl) as (_ & _ & X).
    - rewrite ES. clear SK FA PT CO. rewrite keep_first_app in F, F'. apply Forall2_app_inv_l in F as (o1 & o2 & F1 & F2 & ->). apply Forall2_app_inv_l in F' as (o1' & o2' & F1' & F2' & ->).
      unfold somes. rewrite !flat_map_app, !map_app. fold (somes o1) (somes o2) (somes o1') (somes o2').
      replace (somes o2') with (@nil elem).
      + apply subseq_app; [|apply subseq_nil]. revert o1 F1 ES. clear F2 F2' DN. intros o1 F1 _. revert o1 F1. induction F1' as [|u [ox' k'] l o1' (P' & H') F1' IHF]; intros o1 F1; inversion F1 as [|? [ox k] ? o1t P F1t]; subst; [constructor|].
        specialize (IHF _ F1t). cbn [somes flat_map fst]. destruct ox' as [x'|].
        * destruct (H' x' eq_refl) as (NN & NS & _). destruct P as (_ & [(S & _)|(_ & e & mp & s0 & kids & E & D & _)]); [contradiction|]. injection E as -> _.
          destruct P' as (_ & [(_ & E)|(_ & e' & mp' & s0' & kids' & E & D' & _)]); [discriminate|]. injection E as -> _.
          destruct (with_uid u ss) as [s|] eqn:WS; [|congruence]. destruct (describes_tag _ _ _ _ D eq_refl) as (nm & N & T).
          destruct (describes_tag _ _ _ _ D' eq_refl) as (nm' & N' & T'). assert (nm' = nm) by congruence. subst nm'. cbn [app map]. rewrite T, T'. constructor. exact IHF.
        * destruct ox as [x|]; cbn [app map]; [now constructor|exact IHF].
      + symmetry. clear F1 F1' F2. assert (X : forall u, In u (filter (fun x => negb (smem x us)) (keep_first vs')) -> ~ In u us).
        { intros u I. apply filter_In in I as (_ & I). intros J. apply smem_In in J. rewrite J in I. discriminate. }
        induction F2' as [|u [ox' k'] l o2' (P' & H') F2' IHF]; [reflexivity|]. cbn [somes flat_map fst]. destruct ox' as [x'|].
        * exfalso. destruct (H' x' eq_refl) as (NN & _). apply NN. apply (with_uid_None u ss us U1). apply X. now left.
        * apply IHF. intros v Iv. apply X. now right.
  Qed.
End Again.
