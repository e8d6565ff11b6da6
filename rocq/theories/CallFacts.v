(** * CallFacts: the hook calls, counts and records of a course. *)
From Verif Require Export CourseFrom.

Lemma hook_calls_app a b : hook_calls (a ++ b) = hook_calls a ++ hook_calls b.
Proof. apply filter_app. Qed.

Section Calls.
  Variables (w : world) (dst : aid) (gs : dict (dict elem)).
  Variables (flags : N) (cb : bool) (total : nat).
  Variable Ends : event -> callend -> Prop.
  Variable Has : elem -> obj -> Prop.
  Variable Lacks : elem -> Prop.
  Variable clsof : elem -> option cls.
  Variable ord : order_fn.
  Notation Run := (run_of flags cb total Ends Has Lacks clsof ord).
  Notation Attempt := (attempt flags Ends Has Lacks).
  Hypothesis HN : forall e c u, clsof e = Some c -> create_unique_id c (e_keys e) = Ok u -> names w dst e (c_modelname c, u).
  Hypothesis HHas : forall e o, occurs e gs -> Has e o -> exists k, names w dst e k /\ get_type o = fst k /\ get_unique_id o = Ok (snd k).
  Hypothesis HDel : forall e o, occurs e gs -> e_action e = Some ADelete -> Has e o -> exists o0, dst_obj w dst e o0 /\ o_flags o0 = o_flags o.
  Hypothesis HLack : forall e k, occurs e gs -> names w dst e k -> e_action e = None -> ~ Lacks e.

  Definition Fine (call : event) : Prop := Ends call CModel.
  Definition Fails (call : event) : Prop :=
    Ends call CNone \/ (N.testbit flags 0 = true /\ exists x, crud_exception x /\ Ends call (CRaise x)).
  Definition Missed : Prop := N.testbit flags 0 = true.
  Notation Calls := (calls w dst ord Fine Fails Missed).
  Notation CallsAll := (calls_all w dst ord Fine Fails Missed).

  Lemma about_call e c u f call : occurs e gs -> clsof e = Some c -> create_unique_id c (e_keys e) = Ok u ->
    call_of Has e c f call -> about w dst e call.
  Proof.
    intros O HC HU [_ H]. unfold about. destruct (e_action e) as [[]|] eqn:A.
    - subst call. exists (c_modelname c, u). split; [now apply HN|]. split; [reflexivity|]. split; [reflexivity|]. split; [reflexivity|].
      split; [reflexivity|congruence].
    - destruct H as (o & Ho & ->). destruct (HHas e o O Ho) as (k & K1 & K2 & K3). exists k. split; [exact K1|]. split; [reflexivity|].
      split; [exact K2|]. split; [reflexivity|]. split; [discriminate|]. intros _. exists o. auto.
    - destruct H as (o & Ho & ->). destruct (HHas e o O Ho) as (k & K1 & K2 & K3). exists k. split; [exact K1|]. split; [reflexivity|].
      split; [exact K2|]. split; [symmetry; now apply plus_delete|]. split; [discriminate|]. intros _. exists o. auto.
    - destruct H.
  Qed.
  Lemma hook_self e c f call l : call_of Has e c f call -> hook_calls (call :: l) = call :: hook_calls l.
  Proof. intros H. destruct (call_hook _ _ _ _ _ H) as (? & ? & ? & ? & ->). reflexivity. Qed.
  Lemma missing_no_hook evs : Forall missing_child evs -> hook_calls evs = [].
  Proof. induction 1 as [|ev evs H _ IH]; [reflexivity|]. simpl. rewrite H. exact IH. Qed.
  Lemma progress_no_hook n : hook_calls (progress cb total n) = [].
  Proof. unfold progress. now destruct cb. Qed.

  Lemma steps_calls (Q : elem -> list event -> Prop) es : (forall e, In e es -> forall n evs n' b, Run e n evs n' (Ok b) -> Q e (hook_calls evs)) ->
    forall n b evs n' b', steps (map Run es) n b evs n' (Ok b') ->
    exists parts, Forall2 Q es parts /\ hook_calls evs = concat parts.
  Proof.
    induction es as [|e es IH]; intros HQ n b evs n' b' H; cbn [map] in H; inversion H as [|C cs n0 b0 ev1 n1 b1 ev2 n2 r H1 H2|]; subst.
    - exists []. split; [constructor|reflexivity].
    - apply (HQ e (or_introl eq_refl)) in H1. apply IH in H2 as (parts & P1 & P2); [|intros x Hx; apply (HQ x); now right].
      exists (hook_calls ev1 :: parts). split; [now constructor|]. rewrite hook_calls_app, P2. reflexivity.
  Qed.
  Lemma parts_calls es parts : Forall2 Calls es parts -> CallsAll es (concat parts).
  Proof. induction 1; simpl; constructor; auto. Qed.

  Lemma run_calls : forall e, occurs e gs -> forall n evs n' b, Run e n evs n' (Ok b) -> Calls e (hook_calls evs).
  Proof.
    induction e as [e IH] using elem_ind'. intros O n evs n' b. rewrite run_eq, kids_run.
    assert (HK : forall n b evs n' b', steps (map Run (ordered ord (fun x => x) (e_kids e))) n b evs n' (Ok b') -> CallsAll (kids_in_order ord e) (hook_calls evs)).
    { intros n1 b1 ev1 n2 b2 H. destruct (steps_calls (fun x l => Calls x l) (ordered ord (fun x => x) (e_kids e))) with (2 := H) as (parts & P1 & P2).
      - intros x Hx n3 ev3 n4 b4. apply kid_occ in Hx. pose proof Hx as Hx'. apply In_children in Hx' as (t & g & m & I1 & I2).
        eapply IH; eauto. eapply occurs_kid; eauto.
      - rewrite P2. now apply parts_calls. }
    set (kids := map Run _) in *. clearbody kids. clear IH.
    intros H. remember (Ok b) as r eqn:ER.
    destruct H as [x _|evs n' x _ _ H|c u found nat1 evk nk ctx eva v evr n' r HC HU HB _ HF HAT HAF]; try discriminate. subst r.
    rewrite !hook_calls_app.
    assert (HAB : forall call, call_of Has e c found call -> about w dst e call) by (intros call; eapply about_call; eauto).
    destruct nat1.
    - (* children first *)
      destruct HB as (A & (o & Ho & NO & SO) & b1 & HS). apply HK in HS. specialize (HF eq_refl). subst found.
      destruct (HDel e o O A Ho) as (o0 & D0 & F0).
      assert (FIN : forall call l, call_of Has e c true call -> hook_calls (l ++ evr) = [] -> Calls e (hook_calls evk ++ hook_calls (call :: l) ++ hook_calls evr)).
      { intros call l HCA E. rewrite (hook_self _ _ _ _ _ HCA). cbn [app]. rewrite <- hook_calls_app, E.
        eapply ca_natural with (o := o0); eauto; [unfold naturally in *; now rewrite F0|now rewrite F0]. }
      assert (EVR : hook_calls evr = []).
      { inversion HAF as [| |? ? ? ? ?|evs' o' ? ? ? HM| |]; subst; try reflexivity; try discriminate.
        - now apply missing_no_hook.
        - apply progress_no_hook. }
      destruct HAT as [v HA HV|call st msg HCA _|call msg HCA _|a HA HFo _|call y HCA _ _|call y HCA _|y _].
      + congruence.
      + apply FIN; [exact HCA|]. rewrite hook_calls_app, EVR. reflexivity.
      + apply FIN; [exact HCA|]. rewrite hook_calls_app, EVR. reflexivity.
      + rewrite A in HA. injection HA as <-. discriminate.
      + apply FIN; [exact HCA|]. rewrite hook_calls_app, EVR. reflexivity.
      + inversion HAF.
      + inversion HAF.
    - destruct HB as (-> & -> & HB). cbn [hook_calls filter app].
      assert (NONE : forall evr, evr = [no_object_log (fst ctx)] -> hook_calls evr = []) by (intros ? ->; reflexivity).
      assert (FAIL : forall call l, call_of Has e c found call -> Fails call -> hook_calls (l ++ evr) = [] -> Calls e (hook_calls (call :: l) ++ hook_calls evr)).
      { intros call l HCA HFa E. rewrite (hook_self _ _ _ _ _ HCA). cbn [app]. rewrite <- hook_calls_app, E. apply ca_failed; auto.
        intros A. destruct HCA as [FO _]. rewrite A in FO. simpl in FO. subst found. destruct (HB A) as (o & Ho & X).
        destruct (HDel e o O A Ho) as (o0 & D0 & F0). exists o0. split; [exact D0|]. unfold naturally in *. rewrite F0. exact X. }
      destruct HAT as [v HA HV|call st msg HCA HEn|call msg HCA HEn|a HA HFo HX|call y HCA Hy HEn|call y HCA _|y _].
      + (* unchanged *)
        assert (E : hook_calls (unchanged_log flags (fst ctx)) = []) by (unfold unchanged_log; now destruct N.testbit).
        rewrite E. cbn [app]. destruct HV as [(-> & _)|(_ & _ & L)]; [|now destruct (HLack e _ O (HN _ _ _ HC HU) HA)].
        inversion HAF as [| |? ? ? ? ?|evs' o' A' ? ? HM|evs' n'' r' _ _ HS|]; subst; try congruence.
        rewrite hook_calls_app, progress_no_hook. apply ca_same; eauto.
      + inversion HAF as [| |? ? ? ? ?|evs' o' A' HO' SO' HM|evs' n'' r' _ HD HS|]; subst; try discriminate.
        * rewrite (hook_self _ _ _ _ _ HCA), (missing_no_hook _ HM). cbn [hook_calls filter hookb app].
          destruct (HDel e o' O A' HO') as (o0 & D0 & F0). eapply ca_cascade; eauto. now rewrite F0.
        * rewrite (hook_self _ _ _ _ _ HCA), hook_calls_app, progress_no_hook. cbn [hook_calls filter hookb app].
          fold hook_calls. change (filter hookb evs') with (hook_calls evs').
          destruct (e_action e) as [[]|] eqn:A.
          -- apply ca_make; eauto.
          -- apply ca_make; eauto.
          -- destruct (HD eq_refl) as (o & Ho & SO & NO). destruct (HDel e o O A Ho) as (o0 & D0 & F0).
             eapply ca_delete with (o := o0); eauto; [unfold naturally in *; now rewrite F0|now rewrite F0].
          -- destruct HCA as [_ X]. rewrite A in X. destruct X.
      + assert (E : hook_calls evr = []) by (inversion HAF; subst; reflexivity).
        apply FAIL; [exact HCA|now left|]. rewrite hook_calls_app, E. reflexivity.
      + assert (N.testbit flags 0 = true) as F0 by (destruct (N.testbit flags 0); [reflexivity|inversion HAF]).
        rewrite F0 in HAF. assert (E : hook_calls evr = []) by (inversion HAF; subst; reflexivity). rewrite E.
        cbn [hook_calls filter hookb app]. apply ca_missed; [exact F0|congruence].
      + assert (N.testbit flags 0 = true) as F0 by (destruct (N.testbit flags 0); [reflexivity|inversion HAF]).
        rewrite F0 in HAF. assert (E : hook_calls evr = []) by (inversion HAF; subst; reflexivity).
        apply FAIL; [exact HCA|right; apply crud_list in Hy; eauto|]. rewrite hook_calls_app, E. reflexivity.
      + inversion HAF.
      + inversion HAF.
  Qed.
  Lemma run_all_calls evs n b : run_of_all flags cb total Ends Has Lacks clsof ord gs evs n (Ok b) ->
    CallsAll (ordered ord (fun e => e) gs) (hook_calls evs).
  Proof.
    unfold run_of_all. rewrite kids_run. intros H.
    destruct (steps_calls (fun x l => Calls x l) (ordered ord (fun x => x) gs)) with (2 := H) as (parts & P1 & P2).
    - intros x Hx n3 ev3 n4 b4. apply kid_occ, In_children in Hx as (t & g & m & I1 & I2). apply run_calls. eapply occ_here; eauto.
    - rewrite P2. now apply parts_calls.
  Qed.

  (** ** When everything succeeds, every element is counted *)
  Section Total.
    Hypothesis HFL : N.testbit flags 0 = false.
    Hypothesis HNone : forall call, ~ Ends call CNone.
    Hypothesis HNS : forall e o, occurs e gs -> e_action e = Some ADelete -> Has e o -> ~ skips_children (o_flags o).

    Lemma steps_total es : (forall e, In e es -> forall n evs n' b, Run e n evs n' (Ok b) -> n' = n + elem_len ord e) ->
      forall n b evs n' b', steps (map Run es) n b evs n' (Ok b') -> n' = n + list_sum (map (elem_len ord) es).
    Proof.
      induction es as [|e es IH]; intros HQ n b evs n' b' H; cbn [map] in H; inversion H as [|C cs n0 b0 ev1 n1 b1 ev2 n2 r H1 H2|]; subst.
      - simpl. lia.
      - apply (HQ e (or_introl eq_refl)) in H1. apply IH in H2; [|intros x Hx; apply (HQ x); now right].
        cbn [map]. rewrite list_sum_cons. lia.
    Qed.
    Lemma run_total : forall e, occurs e gs -> forall n evs n' b, Run e n evs n' (Ok b) -> n' = n + elem_len ord e.
    Proof.
      induction e as [e IH] using elem_ind'. intros O n evs n' b. rewrite run_eq, kids_run, RunFacts.elem_len_eq.
      assert (HK : forall n b evs n' b', steps (map Run (ordered ord (fun x => x) (e_kids e))) n b evs n' (Ok b') ->
        n' = n + list_sum (map (elem_len ord) (ordered ord (fun x => x) (e_kids e)))).
      { apply steps_total. intros x Hx n3 ev3 n4 b4. apply kid_occ in Hx. pose proof Hx as Hx'. apply In_children in Hx' as (t & g & m & I1 & I2).
        eapply IH; eauto. eapply occurs_kid; eauto. }
      set (L := list_sum _) in *. clearbody L. set (kids := map Run _) in *. clearbody kids. clear IH.
      intros H. remember (Ok b) as r eqn:ER.
      destruct H as [x _|evs n' x _ _ H|c u found nat1 evk nk ctx eva v evr n' r HC HU HB _ HF HAT HAF]; try discriminate. subst r.
      assert (V : v = VModel).
      { destruct HAT as [v HA HV|call st msg HCA _|call msg HCA HN'|a HA HFo _|call y HCA _ _|call y HCA _|y _]; try reflexivity.
        - destruct HV as [(-> & _)|(_ & _ & X)]; [reflexivity|]. now destruct (HLack e _ O (HN _ _ _ HC HU) HA).
        - now destruct (HNone _ HN').
        - rewrite HFL in HAF. inversion HAF.
        - rewrite HFL in HAF. inversion HAF.
        - inversion HAF.
        - inversion HAF. }
      subst v. unfold before in HB. inversion HAF as [| | |evs' o A HO SO HM|evs' n'' r N1 HD HS|N1]; subst.
      - now destruct (HNS e o O A HO).
      - destruct HB as (_ & E & _). apply HK in HS. lia.
      - destruct HB as (_ & _ & b1 & HS). apply HK in HS. lia.
    Qed.
    Lemma run_all_total evs n b : run_of_all flags cb total Ends Has Lacks clsof ord gs evs n (Ok b) ->
      n = list_sum (map (elem_len ord) (ordered ord (fun e => e) gs)).
    Proof.
      unfold run_of_all. rewrite kids_run. intros H.
      apply steps_total in H; [lia|]. intros x Hx n3 ev3 n4 b4. apply kid_occ, In_children in Hx as (t & g & m & I1 & I2). apply run_total. eapply occ_here; eauto.
    Qed.
  End Total.

  (** ** Records *)
  Section Records.
    Hypothesis HNN : forall e o, occurs e gs -> e_action e = Some ADelete -> Has e o -> ~ naturally o.
    Notation Told := (told Ends flags w dst gs).
    Definition fin (r : result bool) : bool := match r with Ok _ => false | Err _ => true end.

    Lemma told_app c l1 l2 : Told false l1 -> Told c l2 -> Told c (l1 ++ l2).
    Proof.
      intros H1 H2. induction H1 as [|call N _|call lvl e k st msg evs O N A R _ IH|lvl e k st msg evs O N R _ IH|ev evs N1 N2 _ IH]; cbn [app]; [exact H2|discriminate| | |].
      - now apply td_call.
      - now apply td_record.
      - now apply td_other.
    Qed.
    Lemma told_weak c l : Told false l -> Told c l.
    Proof. intros H. rewrite <- (app_nil_r l). apply told_app; [exact H|constructor]. Qed.
    Lemma steps_told es : (forall e, In e es -> forall n evs n' r, Run e n evs n' r -> Told (fin r) evs) ->
      forall n b evs n' r, steps (map Run es) n b evs n' r -> Told (fin r) evs.
    Proof.
      induction es as [|e es IH]; intros HQ n b evs n' r H; cbn [map] in H; inversion H as [|C cs n0 b0 ev1 n1 b1 ev2 n2 r' H1 H2|]; subst.
      - constructor.
      - apply (HQ e (or_introl eq_refl)) in H1. apply IH in H2; [|intros x Hx; apply (HQ x); now right]. now apply told_app.
      - eapply (HQ e (or_introl eq_refl)); eauto.
    Qed.
    Lemma told_missing c evs : Forall missing_child evs -> Told c evs.
    Proof. induction 1 as [|ev evs H _ IH]; [constructor|]. rewrite H. apply td_other; [reflexivity|discriminate|exact IH]. Qed.
    Lemma told_progress c n evs : Told c evs -> Told c (progress cb total n ++ evs).
    Proof. unfold progress. destruct cb; [|auto]. intros H. apply td_other; [reflexivity|discriminate|exact H]. Qed.

    Lemma run_told : forall e, occurs e gs -> forall n evs n' r, Run e n evs n' r -> Told (fin r) evs.
    Proof.
      induction e as [e IH] using elem_ind'. intros O n evs n' r. rewrite run_eq, kids_run.
      assert (HK : forall n b evs n' r, steps (map Run (ordered ord (fun x => x) (e_kids e))) n b evs n' r -> Told (fin r) evs).
      { apply steps_told. intros x Hx n3 ev3 n4 b4. apply kid_occ in Hx. pose proof Hx as Hx'. apply In_children in Hx' as (t & g & m & I1 & I2).
        eapply IH; eauto. eapply occurs_kid; eauto. }
      set (kids := map Run _) in *. clearbody kids. clear IH.
      intros H. destruct H as [x _|evs n' x A (o & Ho & No & _) H|c u found nat1 evk nk lg eva v evr n' r HC HU HB HX HF HAT HAF].
      - constructor.
      - now destruct (HNN e o O A Ho).
      - destruct nat1; [destruct HB as (A & (o & Ho & No & _) & _); now destruct (HNN e o O A Ho)|].
        destruct HB as (-> & -> & _). rewrite (HX eq_refl) in *. cbn [app]. clear HX HF.
        pose proof (HN e c u HC HU) as HNA.
        assert (HAB : forall call, call_of Has e c found call -> about w dst e call) by (intros call; eapply about_call; eauto).
        assert (HR : match v with VRaise _ => evr = [] /\ fin r = true | _ => Told (fin r) evr end).
        { destruct HAF as [x| |evs x _ HM _|evs o' A' _ _ HM|evs n' r _ _ HS|N1]; auto.
          - apply td_other; [reflexivity|discriminate|constructor].
          - now apply told_missing.
          - now apply told_missing.
          - apply told_progress. eauto.
          - discriminate. }
        assert (HEVR : v = VModel \/ v = VNothing \/ (exists x, v = VRaise x) -> Told (fin r) evr).
        { intros _. destruct v; auto. destruct HR as [-> _]. constructor. }
        destruct HAT as [v HA HV|call st msg HCA _ HEn|call msg HCA HEn HMS|a HA HFo _|call y HCA Hy HEn|call y HCA _|y _].
        + assert (T : Told (fin r) evr) by (apply HEVR; destruct HV as [(-> & _)|(-> & _)]; auto).
          unfold unchanged_log. destruct (N.testbit flags 3) eqn:E3; [|exact T]. cbn [app fst].
          apply (td_record _ _ _ _ _ _ LDebug e (c_modelname c, u) StSuccess); auto. rewrite HA. simpl. auto.
        + apply (td_call _ _ _ _ _ _ call (level_of st) e (c_modelname c, u) st); auto. left. auto.
        + apply (td_call _ _ _ _ _ _ call LWarning e (c_modelname c, u) StFailure); auto. right. left. auto.
        + apply (td_record _ _ _ _ _ _ LError e (c_modelname c, u) StError); auto; [rewrite HA; simpl; auto|]. apply HEVR. destruct (N.testbit flags 0); eauto.
        + apply (td_call _ _ _ _ _ _ call LError e (c_modelname c, u) StError); auto; [right; right; exists y; split; [now apply crud_list|auto]|]. apply HEVR. destruct (N.testbit flags 0); eauto.
        + destruct HR as [-> ->]. destruct (call_hook _ _ _ _ _ HCA) as (? & ? & ? & ? & ->). now apply td_cut.
        + destruct HR as [-> _]. constructor.
    Qed.
    Lemma run_all_told evs n r : run_of_all flags cb total Ends Has Lacks clsof ord gs evs n r -> Told (fin r) evs.
    Proof.
      unfold run_of_all. rewrite kids_run. apply steps_told. intros x Hx. apply kid_occ, In_children in Hx as (t & g & m & I1 & I2).
      apply run_told. eapply occ_here; eauto.
    Qed.
  End Records.
End Calls.
