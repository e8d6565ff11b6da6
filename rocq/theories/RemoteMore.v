(** * RemoteMore: several synchronisations with a remote system; what it has after a successful one. *)
From Verif Require Export RemoteFacts CopyTop DifferFacts ConvSample.

(** what a synchronisation leaves as it was *)
Lemma sync_fit fuel h dst src dc flags cb given w : proper_dst w dst -> no_skipping w dst ->
  (forall d, uses fuel dst src dc flags cb given w d -> sets_no_identifier w dst (d_groups d)) ->
  let w' := fst (sync_from fuel h dst src dc flags cb given w) in
  proper_dst w' dst /\ no_skipping w' dst /\ forall c, dst_class w' dst c -> dst_class w dst c.
Proof.
  intros HP HSK HU. cbv zeta. pose proof HP as (_ & HK & HOW & HKF). pose proof HSK as [K1 K2].
  pose proof (sync_consistent fuel h dst src dc flags cb given w HP HU) as (L' & K' & _).
  assert (MAIN : (forall c, dst_class (fst (sync_from fuel h dst src dc flags cb given w)) dst c -> dst_class w dst c) /\
    (forall ad t c, nth_error (w_ads (fst (sync_from fuel h dst src dc flags cb given w))) dst = Some ad -> dget (ad_classes ad) t = Some c ->
       exists ad0, nth_error (w_ads w) dst = Some ad0 /\ dget (ad_classes ad0) t = Some c) /\
    (forall t u r o, lookup (fst (sync_from fuel h dst src dc flags cb given w)) dst t u = Some r ->
       nth_error (w_heap (fst (sync_from fuel h dst src dc flags cb given w))) r = Some o -> ~ skips_children (o_flags o))).
  { destruct (sync_from_split fuel h dst src dc flags cb given w) as [(RO & _)|(d & wd & U & _ & RO & _ & E)].
    - split; [|split].
      + intros c. now apply (ro_dst_class _ _ _ RO).
      + intros ad t c X G. destruct (ro_classes _ _ _ RO _ X) as (ad0 & Y1 & Y2). rewrite Y2 in G. eauto.
      + intros t u r o HL Ho. apply (K1 t u r o); [now rewrite <- (read_only_lookup _ _ _ _ _ RO)|]. eapply ro_obj; eauto.
    - rewrite E. clear E L' K'. pose proof (ro_proper _ _ _ RO HP) as HPd. pose proof HPd as (_ & HKd & _). destruct (proper_ad _ _ HPd) as [da HDA].
      pose proof (run_sync_frame wd dst da d (mkSEnv src dst flags (diff_len d) cb h fuel) HDA HPd (ro_ids _ _ _ RO HK _ (HU d U)) eq_refl) as F.
      set (w' := fst (run_sync _ d wd)) in *. destruct (fr_ad _ _ _ _ _ F) as [s AD].
      assert (DC : forall c, dst_class wd dst c -> dst_class w dst c) by (intros c; apply (ro_dst_class _ _ _ RO); exact HK).
      split; [|split].
      + intros c [(ad & t & A & G)|(t & u & r & o & HL & Ho & <-)]; apply DC.
        * left. rewrite AD in A. injection A as <-. exists da, t. auto.
        * exact (frame_cls wd dst da (d_groups d) HDA HKd w' (t, u) r o F HL Ho).
      + intros ad t c X G. rewrite AD in X. injection X as <-. destruct (ro_classes _ _ _ RO _ HDA) as (ad0 & Y1 & Y2). cbn in G. rewrite Y2 in G. eauto.
      + intros t u r o HL Ho. destruct (Nat.lt_ge_cases r (length (w_heap wd))) as [L|L].
        * pose proof (fr_orig _ _ _ _ _ F (t, u) r HL L) as H0. destruct (HKd _ _ _ H0) as (o0 & Ho0 & _).
          destruct (fr_old _ _ _ _ _ F r o0 Ho0) as (o' & Ho' & _ & EF). rewrite Ho in Ho'. injection Ho' as <-. rewrite EF.
          apply (K1 t u r o0); [now rewrite <- (read_only_lookup _ _ _ _ _ RO)|]. eapply ro_obj; eauto.
        * destruct (fr_new _ _ _ _ _ F (t, u) r o HL L Ho) as (e & c & _ & _ & G & _ & _ & ->).
          destruct (ro_classes _ _ _ RO _ HDA) as (ad0 & Y1 & Y2). rewrite Y2 in G. eauto. }
  destruct MAIN as (M1 & M2 & M3). split; [|split; [|exact M1]].
  - split; [exact L'|]. split; [exact K'|]. split; [intros c H; apply HOW; auto|].
    intros ad t c X G. destruct (M2 ad t c X G) as (ad0 & Y1 & Y2). eauto.
  - split; [exact M3|]. intros ad t c X G. destruct (M2 ad t c X G) as (ad0 & Y1 & Y2). eauto.
Qed.

Lemma attempts_stay h dst name accepts w w' : attempts h dst w w' -> follow_remote accepts h -> forall R,
  proper_dst w dst -> names_records name w dst -> hooks_write (not_attribute w dst) h -> no_skipping w dst -> in_step R w dst ->
  w_trace w' = w_trace w ++ new_events w w' /\ in_step (driven name accepts (w_trace w) (new_events w w') R) w' dst.
Proof.
  intros A HF. induction A as [w|w fuel src dc flags cb given w' HU HX A IH]; intros R HP HN HW HS HI.
  - unfold new_events. rewrite skipn_all. cbn [driven]. rewrite app_nil_r. auto.
  - pose proof (remote_stays fuel h dst src dc flags cb given name accepts w R HP HN HF HW HS HU HI) as ST.
    pose proof (sync_fit fuel h dst src dc flags cb given w HP HS (fun d U => proj1 (HU d U))) as FT. cbv zeta in FT.
    destruct (sync_from fuel h dst src dc flags cb given w) as [w1 r]. cbn [fst snd] in *. destruct (ST HX) as (T1 & I1). destruct FT as (P1 & S1 & DC).
    destruct (IH (driven name accepts (w_trace w) (new_events w w1) R)) as (T2 & I2); auto.
    { intros c ids u H. apply HN. auto. }
    { intros w2 hc k I c H. eapply HW; eauto. }
    assert (T : w_trace w' = w_trace w ++ (new_events w w1 ++ new_events w1 w')) by (rewrite T2, T1 at 1; now rewrite app_assoc).
    assert (E : new_events w w' = new_events w w1 ++ new_events w1 w').
    { unfold new_events at 1. rewrite T, skipn_app, skipn_all, Nat.sub_diag. reflexivity. }
    rewrite E. split; [exact T|]. rewrite driven_app, <- T1. exact I2.
Qed.

(** the objects that a diff is about are objects of the adapters *)
Lemma visible_src w src flags rd ss dd so do : visible flags (objs_by w src) rd ss dd so do ->
  (forall s, In s ss -> read w src s) -> forall s, so = Some s -> read w src s.
Proof.
  induction 1 as [ss dd so do P NS|ss dd so do ss' dd' so' do' P NS C V IH]; intros HQ s E.
  - destruct P as (u & E1 & _). rewrite E in E1. symmetry in E1. apply with_uid_Some in E1 as [I _]. auto.
  - apply IH; [|exact E]. intros x I. destruct C as (m & n & t & f & _ & _ & K & _). unfold kids_of in K.
    destruct so as [o|]; [|injection K as <-; destruct I]. destruct (dget (o_kids o) f) as [us|]; [|discriminate].
    exists t, ss'. split; [exact I|]. right. eauto.
Qed.

Section Copy.
  Variables (fuel : nat) (src dst : aid) (w : world) (sa da : adapter).
  Hypothesis AL : alike w fuel src dst sa da.
  Notation HD := (al_dst _ _ _ _ _ _ AL).

  Lemma class_like c : dst_class w dst c -> (exists t, dget (ad_classes da) t = Some c) \/
    exists t c', dget (ad_classes da) t = Some c' /\ c_attributes c' = c_attributes c.
  Proof.
    intros [(ad & t & A & G)|(t & u & r & o & L & Ho & <-)].
    - rewrite HD in A. injection A as <-. left. eauto.
    - right. destruct (proj2 (read_iff w dst (al_local _ _ _ _ _ _ AL) (al_keyed _ _ _ _ _ _ AL) (t, u) o)) as (RD & _).
      { apply stored_iff; [exact (al_local _ _ _ _ _ _ AL)|]. eauto. }
      destruct (al_classes _ _ _ _ _ _ AL o (or_intror RD)) as (c' & G & _ & SH & _). exists (get_type o), c'. split; [exact G|]. now apply SH.
  Qed.
  Lemma spares_all h : spares_attributes da h -> hooks_write (not_attribute w dst) h.
  Proof.
    intros SP w1 hc k I c DC J. destruct (class_like c DC) as [(t & G)|(t & c' & G & E)].
    - exact (SP w1 hc k t c I G J).
    - rewrite <- E in J. exact (SP w1 hc k t c' I G J).
  Qed.

  Variables (dc : diffclass) (flags : N) (cb : bool) (d : diff).
  Hypothesis DF : snd (diff_from fuel dst src dc flags cb w) = Ok d.

  Lemma of_source e s : occurs e (d_groups d) -> e_src e = Some s ->
    exists o c, read w src o /\ s = get_attrs o /\ e_type e = get_type o /\ dget (ad_classes da) (get_type o) = Some c /\
      c_modelname c = get_type o /\ same_shape c (o_cls o) /\ creatable c.
  Proof.
    intros O ES. destruct (proj1 (diff_from_iff fuel dst src dc flags cb w sa da (al_refs _ _ _ _ _ _ AL) (al_src _ _ _ _ _ _ AL) HD d) DF) as (sk & FD & _).
    destruct (fd_sound _ _ _ _ _ _ _ _ _ _ FD O) as (so & do & (t & ss & dd & (T1 & T2 & T3 & T4) & V) & DS).
    destruct DS as (_ & _ & E1 & _ & o & EO & ET & _). rewrite ES in E1. destruct so as [s0|]; [|discriminate]. injection E1 as ->. injection EO as <-.
    assert (RD : read w src s0).
    { eapply visible_src; [exact V| |reflexivity]. intros x I. exists t, ss. auto. }
    destruct (al_classes _ _ _ _ _ _ AL s0 (or_introl RD)) as (c & G & M & SH & CR). exists s0, c. auto 10.
  Qed.
  Lemma gives_all : gives_attributes w dst (d_groups d).
  Proof.
    intros e ad c O A X G. rewrite HD in X. injection X as <-. unfold e_action, attrs_action in A.
    destruct (e_src e) as [s|] eqn:ES; [|destruct (e_dst e); discriminate A].
    destruct (e_dst e) as [s'|] eqn:ED; [destruct (existsb _ _) in A; discriminate A|].
    destruct (of_source e s O ES) as (o & c' & RD & -> & ET & G' & _ & SH & CR). rewrite ET in G. rewrite G' in G. injection G as <-.
    split; [exact (cr_fields _ CR)|]. intros f I. split; [exact (cr_attrs _ CR f I)|].
    destruct SH as (_ & _ & SA & _). rewrite SA in I. destruct (al_values _ _ _ _ _ _ AL o RD) as (_ & PV).
    destruct (PV f) as (v & Gv & _); [apply in_app_iff; now right|]. exists v, (get_attrs o). split; [exact ES|]. split; [|now rewrite ED].
    unfold get_attrs. rewrite dget_dump. apply smem_In in I. now rewrite I.
  Qed.
  Lemma sets_none : told_apart w dst -> sets_no_identifier w dst (d_groups d).
  Proof.
    intros TA e ad ce c s k O X G DC M ES IK. rewrite HD in X. injection X as <-.
    destruct (of_source e s O ES) as (o & c' & RD & -> & ET & G' & _ & SH & CR). rewrite ET in G. rewrite G' in G. injection G as <-.
    refine (TA c c' k DC (or_introl _) M _); [exists da, (get_type o); split; [exact HD|exact G']|]. unfold get_attrs in IK. apply dkeys_dump in IK as (IK & _). now rewrite (proj1 (proj2 (proj2 SH))).
  Qed.
End Copy.

Lemma remote_copy fuel h dst src dc flags cb name w sa da R :
  alike w fuel src dst sa da -> comparable w fuel src dst sa da -> entire w flags src dst sa da -> yields_once (dc_order dc) ->
  hooks_succeed h -> spares_attributes da h -> proper_dst w dst -> told_apart w dst -> names_records name w dst -> no_skipping w dst -> in_step R w dst ->
  exists w' d, sync_from fuel h dst src dc flags cb None w = (w', Ok d) /\
    matches (driven name (fun _ _ => true) (w_trace w) (new_events w w') R) w src.
Proof.
  intros AL CM EN YO HK SP HP TA HN HS HI.
  destruct (sync_copies_all fuel h dst src dc flags cb w sa da AL CM HK SP YO EN) as (w' & d & E & (C1 & C2) & L' & K' & _).
  exists w', d. split; [exact E|].
  assert (FR : follow_remote (fun _ _ => true) h) by (intros w1 hc ev _; apply HK).
  pose proof (remote_stays fuel h dst src dc flags cb None name (fun _ _ => true) w R HP HN FR (spares_all fuel src dst w sa da AL h SP) HS) as ST.
  rewrite E in ST. destruct ST as (_ & IS); [|exact HI|discriminate|].
  { intros d' [(X & _)|(_ & DF)]; [discriminate|]. split; [now apply (sets_none fuel src dst w sa da AL dc flags cb d' DF)|exact (gives_all fuel src dst w sa da AL dc flags cb d' DF)]. }
  revert IS. generalize (driven name (fun _ _ => true) (w_trace w) (new_events w w') R) as R'. intros R' IS. split.
  - intros s k RD KE. destruct (C1 s k RD KE) as (o & RD' & KE' & CO). pose proof (proj1 (read_iff w' dst L' K' k o) (conj RD' KE')) as ST.
    apply stored_iff in ST as (r & HL & Ho); [|exact L']. specialize (IS (fst k) (snd k)). rewrite HL in IS. destruct IS as (o' & x & Ho' & RX & AX).
    rewrite Ho in Ho'. injection Ho' as <-. exists x. split; [exact RX|]. destruct CO as (_ & SH & _ & AT & _). intros f I.
    destruct (AT f I) as (v & v' & G & G' & Q). exists v, v'. split; [exact G|]. split; [|exact Q]. rewrite AX, G'; [reflexivity|].
    destruct SH as (_ & _ & <- & _). exact I.
  - intros t u NR. specialize (IS t u). destruct (lookup w' dst t u) as [r|] eqn:HL; [|contradiction]. destruct IS as (o & x & Ho & _).
    destruct (proj2 (read_iff w' dst L' K' (t, u) o)) as (RD & KE); [apply stored_iff; [exact L'|eauto]|]. exact (C2 o (t, u) RD KE).
Qed.
