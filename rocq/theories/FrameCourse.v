(** * FrameCourse: the course of sync_from on a well-formed destination. *)
From Verif Require Export CallFacts.

Section FrameCourse.
  Variables (w : world) (dst : aid) (da : adapter).
  Hypothesis HDA : nth_error (w_ads w) dst = Some da.
  Hypothesis HP : proper_dst w dst.
  Variable gs : dict (dict elem).
  Notation fHas := (Has (frame w dst da gs) (dm w dst da gs)).
  Notation fLacks := (Lacks (frame w dst da gs) (absent w dst)).

  Lemma fr_names e c u : clsof da e = Some c -> create_unique_id c (e_keys e) = Ok u -> names w dst e (c_modelname c, u).
  Proof. intros H1 H2. exists da, c. auto. Qed.
  Lemma fr_has e o : fHas e o -> exists k, names w dst e k /\ get_type o = fst k /\ get_unique_id o = Ok (snd k).
  Proof.
    intros (w1 & r & _ & (o' & k & A1 & A2 & A3 & A4 & _) & Ho). rewrite A1 in Ho. injection Ho as <-. exists k. auto.
  Qed.
  Lemma fr_del e o : no_moves w dst gs -> occurs e gs -> e_action e = Some ADelete -> fHas e o ->
    exists o0, dst_obj w dst e o0 /\ o_flags o0 = o_flags o.
  Proof.
    intros NM O A (w1 & r & F & (o' & k & A1 & A2 & A3 & A4 & _ & A6 & A7 & _) & Ho). rewrite A1 in Ho. injection Ho as <-.
    destruct (Nat.lt_ge_cases r (length (w_heap w))) as [L|L].
    - specialize (A6 L). destruct (proj1 (proj2 HP) _ _ _ A6) as (o0 & Ho0 & _).
      destruct (fr_old _ _ _ _ _ F r o0 Ho0) as (o1 & Ho1 & _ & E). rewrite A1 in Ho1. injection Ho1 as <-.
      exists o0. split; [|congruence]. exists k, r. auto.
    - exfalso. destruct (A7 L) as (e' & c & O' & A' & _ & N' & _). apply (NM k); [exists e'; auto|exists e; auto].
  Qed.
  Lemma fr_lack e k : unchanged_stay w dst gs -> occurs e gs -> names w dst e k -> e_action e = None -> ~ fLacks e.
  Proof.
    intros US O N A (w1 & F & HA). destruct (US e k O A N) as [HL HD]. specialize (HA k N).
    destruct (lookup w dst (fst k) (snd k)) as [r|] eqn:E; [|congruence]. destruct (fr_kept _ _ _ _ _ F k r E); [congruence|auto].
  Qed.

  Lemma fr_course src flags cb h fuel d : d_groups d = gs -> deletes_whole gs -> sets_no_identifier w dst gs ->
    exists evs n x, course_of h flags cb fHas fLacks (clsof da) d evs n x /\
      let (w', r) := run_sync (mkSEnv src dst flags (diff_len d) cb h fuel) d w in
      match x with
      | Ok b => r = Ok d /\ w_trace w' = w_trace w ++ evs ++ closing src dst b
      | Err y => r = Err y /\ w_trace w' = w_trace w ++ evs
      end.
  Proof.
    intros EG HW HI. destruct HP as (H1 & H2 & H3 & H4).
    assert (H4' : forall t c, dget (ad_classes da) t = Some c -> kids_are_fields c) by (intros t c; exact (H4 da t c HDA)).
    set (env := mkSEnv src dst flags (diff_len d) cb h fuel).
    pose proof (frame_rules w dst da gs HDA H3 H4' HI H2 env eq_refl) as RU.
    assert (HDD : deletes_down (fun e => occurs e gs)) by (intros e k O A K; eapply HW; eauto).
    assert (TOP : forall e, In e (children (d_groups d)) -> occurs e gs).
    { intros e I. rewrite <- EG. apply In_children in I as (t & g & m & I1 & I2). eapply occ_here; eauto. }
    assert (INIT : frame w dst da gs w) by now apply frame_init.
    assert (POS : forall e, In e (children (d_groups d)) -> pos w dst gs w e None) by (intros e _ r E; discriminate).
    destruct (tr_run_sync (dc_order (d_class d)) env _ _ _ _ _ _ _ _ _ RU HDD d w eq_refl TOP INIT POS) as (evs & n & x & A1 & A2).
    exists evs, n, x. split; [exact A1|exact A2].
  Qed.
End FrameCourse.

Section RoSpec.
  Variables (w w' : world) (dst : aid) (gs : dict (dict elem)).
  Hypothesis RO : read_only w w'.
  Hypothesis KE : keyed w dst.
  Lemma ro_no_moves : no_moves w dst gs -> no_moves w' dst gs.
  Proof. intros H k A B. rewrite (ro_mentioned w w' dst RO) in A, B. exact (H k A B). Qed.
  Lemma ro_unchanged : unchanged_stay w dst gs -> unchanged_stay w' dst gs.
  Proof.
    intros H e k O A N. rewrite (ro_names w w' dst RO) in N. destruct (H e k O A N) as [H1 H2].
    split; [now rewrite (ro_lookup w w' RO)|]. intros D. apply H2. eapply ro_doomed; eauto.
  Qed.
  Lemma ro_dst_obj e o : dst_obj w' dst e o -> dst_obj w dst e o.
  Proof.
    intros (k & r & N & L & Ho). exists k, r. split; [now rewrite <- (ro_names w w' dst RO)|]. split; [now rewrite <- (ro_lookup w w' RO)|].
    eapply ro_obj; eauto.
  Qed.
  Lemma ro_dst_obj' e o : dst_obj w dst e o -> dst_obj w' dst e o.
  Proof.
    intros (k & r & N & L & Ho). exists k, r. split; [now rewrite (ro_names w w' dst RO)|]. split; [now rewrite (ro_lookup w w' RO)|].
    eapply read_only_nth; eauto.
  Qed.
  Lemma ro_about e ev : about w' dst e ev -> about w dst e ev.
  Proof. intros (k & N & H). exists k. split; [now rewrite <- (ro_names w w' dst RO)|exact H]. Qed.
  Lemma ro_told E fl c evs : told E fl w' dst gs c evs -> told E fl w dst gs c evs.
  Proof.
    induction 1 as [|call N H|call lvl e k st msg evs O N A R _ IH|lvl e k st msg evs O N R _ IH|ev evs N1 N2 _ IH].
    - constructor.
    - now apply td_cut.
    - apply td_call; auto; [now rewrite <- (ro_names w w' dst RO)|now apply ro_about].
    - apply td_record; auto. now rewrite <- (ro_names w w' dst RO).
    - now apply td_other.
  Qed.
End RoSpec.

Scheme calls_mut := Induction for calls Sort Prop with calls_all_mut := Induction for calls_all Sort Prop.
Combined Scheme calls_both from calls_mut, calls_all_mut.

Section CallsMono.
  Variables (w w' : world) (dst : aid) (ord : order_fn).
  Variables Fine Fine' Fails Fails' : event -> Prop.
  Variables Missed Missed' : Prop.
  Hypothesis H1 : forall ev, Fine ev -> Fine' ev.
  Hypothesis H2 : forall ev, Fails ev -> Fails' ev.
  Hypothesis H3 : Missed -> Missed'.
  Hypothesis HA : forall e ev, about w dst e ev -> about w' dst e ev.
  Hypothesis HO : forall e o, dst_obj w dst e o -> dst_obj w' dst e o.
  Lemma calls_mono : (forall e evs, calls w dst ord Fine Fails Missed e evs -> calls w' dst ord Fine' Fails' Missed' e evs) /\
    (forall es evs, calls_all w dst ord Fine Fails Missed es evs -> calls_all w' dst ord Fine' Fails' Missed' es evs).
  Proof.
    apply (calls_both w dst ord Fine Fails Missed
      (fun e evs _ => calls w' dst ord Fine' Fails' Missed' e evs) (fun es evs _ => calls_all w' dst ord Fine' Fails' Missed' es evs)).
    - intros. now apply ca_same.
    - intros. apply ca_make; auto.
    - intros. eapply ca_delete; eauto.
    - intros. eapply ca_natural; eauto.
    - intros. eapply ca_cascade; eauto.
    - intros e call A F D. apply ca_failed; auto. intros E. destruct (D E) as (o & X & Y). exists o. auto.
    - intros. apply ca_missed; auto.
    - constructor.
    - intros. constructor; auto.
  Qed.
End CallsMono.
