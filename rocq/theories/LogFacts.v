(** * LogFacts: what silence means. *)
From Verif Require Export FromMore LogSpec.

Lemma silent_app a b : silent (a ++ b) <-> silent a /\ silent b.
Proof.
  unfold silent. split.
  - intros H. split; intros ev I; apply H, in_or_app; auto.
  - intros [A B] ev I. apply in_app_or in I as [I|I]; auto.
Qed.
Lemma silent_cons x b : silent (x :: b) <-> grave x = false /\ silent b.
Proof.
  unfold silent. split.
  - intros H. split; [apply H; now left|]. intros ev I. apply H. now right.
  - intros [A B] ev [<-|I]; auto.
Qed.
Lemma silent_nil : silent [].
Proof. intros ev []. Qed.

Section Silent.
  Variables (w : world) (dst : aid) (gs : dict (dict elem)).
  Variables (flags : N) (cb : bool) (total : nat).
  Variable Ends : event -> callend -> Prop.
  Variable Has : elem -> obj -> Prop.
  Variable Lacks : elem -> Prop.
  Variable clsof : elem -> option cls.
  Variable ord : order_fn.
  Notation Run := (run_of flags cb total Ends Has Lacks clsof ord).
  Hypothesis HN : forall e c u, clsof e = Some c -> create_unique_id c (e_keys e) = Ok u -> names w dst e (c_modelname c, u).
  Hypothesis HHas : forall e o, occurs e gs -> Has e o -> exists k, names w dst e k /\ get_type o = fst k /\ get_unique_id o = Ok (snd k).
  Hypothesis HDel : forall e o, occurs e gs -> e_action e = Some ADelete -> Has e o -> exists o0, dst_obj w dst e o0 /\ o_flags o0 = o_flags o.
  Definition Good (call : event) : Prop := exists msg, Ends call (CSays StSuccess msg).
  Notation Calls := (calls w dst ord Good (fun _ => False) False).
  Notation CallsAll := (calls_all w dst ord Good (fun _ => False) False).

  Lemma quiet_steps es : (forall e, In e es -> forall n evs n' b, Run e n evs n' (Ok b) -> silent evs -> Calls e (hook_calls evs) /\ Forall Good (hook_calls evs)) ->
    forall n b evs n' b', steps (map Run es) n b evs n' (Ok b') -> silent evs -> CallsAll es (hook_calls evs) /\ Forall Good (hook_calls evs).
  Proof.
    induction es as [|e es IH]; intros HQ n b evs n' b' H; cbn [map] in H; inversion H as [|C cs n0 b0 ev1 n1 b1 ev2 n2 r H1 H2|]; subst; intros SI.
    - split; constructor.
    - apply silent_app in SI as [S1 S2]. apply (HQ e (or_introl eq_refl)) in H1 as [A1 A2]; [|exact S1].
      apply IH in H2 as [B1 B2]; [|intros x Hx; apply (HQ x); now right|exact S2].
      rewrite hook_calls_app. split; [now constructor|]. apply Forall_app. auto.
  Qed.

  Lemma quiet_run : forall e, occurs e gs -> forall n evs n' b, Run e n evs n' (Ok b) -> silent evs -> Calls e (hook_calls evs) /\ Forall Good (hook_calls evs).
  Proof.
    induction e as [e IH] using elem_ind'. intros O n evs n' b. rewrite run_eq, kids_run.
    assert (HK : forall n b evs n' b', steps (map Run (ordered ord (fun x => x) (e_kids e))) n b evs n' (Ok b') -> silent evs ->
                   CallsAll (kids_in_order ord e) (hook_calls evs) /\ Forall Good (hook_calls evs)).
    { apply quiet_steps. intros x Hx n3 ev3 n4 b4. apply kid_occ in Hx. pose proof Hx as Hx'. apply In_children in Hx' as (t & g & m & I1 & I2).
      eapply IH; eauto. eapply occurs_kid; eauto. }
    set (kids := map Run _) in *. clearbody kids. clear IH.
    intros H SI. remember (Ok b) as r eqn:ER.
    destruct H as [x _|evs n' x _ _ H|c u found nat1 evk nk ctx eva v evr n' r HC HU HB _ HF HAT HAF]; try discriminate. subst r.
    apply silent_app in SI as [S1 SI]. apply silent_app in SI as [S2 S3].
    assert (HAB : forall call, call_of Has e c found call -> about w dst e call) by (intros call; eapply about_call; eauto).
    (* the attempt succeeded *)
    assert (AT : (e_action e = None /\ v = VModel /\ hook_calls eva = []) \/
                 exists call, call_of Has e c found call /\ hook_calls eva = [call] /\ Good call /\ v = VModel).
    { destruct HAT as [v HA HV|call st msg HCA _ HEn|call msg HCA _ _|a HA HFo _|call y HCA _ _|call y HCA _|y _].
      - left. split; [exact HA|]. assert (E : hook_calls (unchanged_log flags (fst ctx)) = []) by (unfold unchanged_log; now destruct N.testbit).
        split; [|exact E]. destruct HV as [(-> & _)|(-> & _)]; [reflexivity|]. inversion HAF; subst. apply silent_cons in S3 as [S3 _]. discriminate.
      - right. exists call. split; [exact HCA|]. split; [now rewrite (hook_self _ _ _ _ _ _ HCA)|]. split; [|reflexivity].
        apply silent_cons in S2 as [_ S2]. apply silent_cons in S2 as [S2 _]. exists msg. destruct st; try discriminate. exact HEn.
      - apply silent_cons in S2 as [_ S2]. apply silent_cons in S2 as [S2 _]. discriminate.
      - apply silent_cons in S2 as [S2 _]. discriminate.
      - apply silent_cons in S2 as [_ S2]. apply silent_cons in S2 as [S2 _]. discriminate.
      - inversion HAF.
      - inversion HAF. }
    rewrite !hook_calls_app. unfold before in HB. destruct nat1.
    - destruct HB as (A & (o & Ho & NO & SO) & b1 & HS). apply HK in HS as [HS HG]; [|exact S1].
      destruct (HDel e o O A Ho) as (o0 & D0 & F0).
      destruct AT as [(A' & _)|(call & HCA & E & G & ->)]; [congruence|].
      assert (EVR : hook_calls evr = []).
      { inversion HAF as [| |? ? ? ? ?|evs' o' ? ? ? HM| |]; subst; try reflexivity; try discriminate.
        - now apply missing_no_hook.
        - apply progress_no_hook. }
      rewrite E, EVR. cbn [app]. split; [|apply Forall_app; split; [exact HG|repeat constructor; exact G]].
      eapply ca_natural with (o := o0); eauto; [unfold naturally in *; now rewrite F0|now rewrite F0].
    - destruct HB as (-> & -> & HB). cbn [hook_calls filter app].
      destruct AT as [(A & -> & ->)|(call & HCA & -> & G & ->)].
      + inversion HAF as [| |? ? ? ? ?|evs' o' A' ? ? HM|evs' n'' r' _ _ HS|]; subst; try congruence.
        rewrite hook_calls_app, progress_no_hook. apply silent_app in S3 as [_ S3]. apply HK in HS as [HS HG]; [|exact S3].
        cbn [app]. split; [now apply ca_same|exact HG].
      + inversion HAF as [| |? ? ? ? ?|evs' o' A' HO' SO' HM|evs' n'' r' _ HD HS|]; subst; try discriminate.
        * rewrite (missing_no_hook _ HM). cbn [app]. split; [|repeat constructor; exact G].
          destruct (HDel e o' O A' HO') as (o0 & D0 & F0). eapply ca_cascade; eauto. now rewrite F0.
        * rewrite hook_calls_app, progress_no_hook. apply silent_app in S3 as [_ S3]. apply HK in HS as [HS HG]; [|exact S3].
          cbn [app]. split; [|constructor; [exact G|exact HG]].
          destruct (e_action e) as [[]|] eqn:A.
          -- apply ca_make; eauto.
          -- apply ca_make; eauto.
          -- destruct (HD eq_refl) as (o & Ho & SO & NO). destruct (HDel e o O A Ho) as (o0 & D0 & F0).
             eapply ca_delete with (o := o0); eauto; [unfold naturally in *; now rewrite F0|now rewrite F0].
          -- destruct HCA as [_ X]. rewrite A in X. destruct X.
  Qed.
  Lemma quiet_all evs n b : run_of_all flags cb total Ends Has Lacks clsof ord gs evs n (Ok b) -> silent evs ->
    CallsAll (ordered ord (fun e => e) gs) (hook_calls evs) /\ Forall Good (hook_calls evs).
  Proof.
    unfold run_of_all. rewrite kids_run. apply quiet_steps. intros x Hx n3 ev3 n4 b4.
    apply kid_occ, In_children in Hx as (t & g & m & I1 & I2). apply quiet_run. eapply occ_here; eauto.
  Qed.
End Silent.

Lemma cb_silent evs : Forall is_callback evs -> silent evs.
Proof. induction 1 as [|ev evs (c & t & ->) _ IH]; [apply silent_nil|]. apply silent_cons. auto. Qed.

Section From.
  Variables (fuel : nat) (h : hooks) (dst src : aid) (dc : diffclass) (flags : N) (cb : bool) (given : option diff) (w w' : world) (d : diff).
  Hypothesis HG : forall d0, given = Some d0 -> deletes_whole (d_groups d0).
  Hypothesis HP : proper_dst w dst.
  Hypothesis HC : well_posed w dst (d_groups d).
  Hypothesis HE : sync_from fuel h dst src dc flags cb given w = (w', Ok d).
  Notation ord := (dc_order (d_class d)).
  Notation gs := (d_groups d).

  Lemma silence : silent (new_events w w') ->
    calls_all w dst ord (succeeds h) (fun _ => False) False (ordered ord (fun e => e) gs) (hook_calls (new_events w w')) /\
    Forall (succeeds h) (hook_calls (new_events w w')).
  Proof.
    pose proof (from_ok fuel h dst src dc flags cb given w w' d HE) as HU.
    intros SI. pose proof (from_frame fuel h dst src dc flags cb given w d HU HG HP HC) as S. rewrite HE in S.
    destruct S as (wd & da & pre & evs & n & x & RO & EDA & F & DW & A & B).
    destruct x as [b|y]; [|destruct B as [B _]; discriminate]. destruct B as [_ B]. rewrite B in SI |- *.
    apply silent_app in SI as [_ SI]. apply silent_app in SI as [SI _].
    rewrite !hook_calls_app, (cb_no_hook _ F), closing_no_hook, app_nil_r. cbn [app].
    destruct (quiet_all wd dst gs flags cb (diff_len d) (may_end h) _ _ _ ord (f_names dst wd da EDA) (f_has dst d wd da)
      (f_del dst w d HP HC wd da RO) evs n b A SI) as [K1 K2].
    split; [|exact K2]. revert K1. apply calls_mono; auto.
    - intros e ev. now apply ro_about.
    - intros e o. apply ro_dst_obj; auto. apply HP.
  Qed.
End From.

(** ** Success is silent *)
Section Success.
  Variables (gs : dict (dict elem)).
  Variables (flags : N) (cb : bool) (total : nat).
  Variable Ends : event -> callend -> Prop.
  Variable Has : elem -> obj -> Prop.
  Variable Lacks : elem -> Prop.
  Variable clsof : elem -> option cls.
  Variable ord : order_fn.
  Notation Run := (run_of flags cb total Ends Has Lacks clsof ord).
  Hypothesis HFL : N.testbit flags 0 = false.
  Hypothesis HNone : forall call, ~ Ends call CNone.
  Hypothesis HSay : forall call st msg, Ends call (CSays st msg) -> st = StSuccess.
  Hypothesis HLack : forall e, occurs e gs -> e_action e = None -> clsof e <> None ->
    (forall c, clsof e = Some c -> exists u, create_unique_id c (e_keys e) = Ok u) -> ~ Lacks e.
  Definition harmless (ev : event) : Prop := grave ev = true -> missing_child ev.
  Definition tame (e : elem) : Prop := e_action e = Some ADelete -> forall o, Has e o -> ~ skips_children (o_flags o).
  Definition fine_events (evs : list event) : Prop := Forall harmless evs /\ ((forall e, occurs e gs -> tame e) -> silent evs).

  Lemma fine_app a b : fine_events a -> fine_events b -> fine_events (a ++ b).
  Proof. intros [A1 A2] [B1 B2]. split; [apply Forall_app; auto|]. intros T. apply silent_app. auto. Qed.
  Lemma fine_quiet evs : silent evs -> fine_events evs.
  Proof. intros S. split; [|auto]. apply Forall_forall. intros ev I G. rewrite (S ev I) in G. discriminate. Qed.
  Lemma fine_steps es : (forall e, In e es -> forall n evs n' b, Run e n evs n' (Ok b) -> fine_events evs) ->
    forall n b evs n' b', steps (map Run es) n b evs n' (Ok b') -> fine_events evs.
  Proof.
    induction es as [|e es IH]; intros HQ n b evs n' b' H; cbn [map] in H; inversion H as [|C cs n0 b0 ev1 n1 b1 ev2 n2 r H1 H2|]; subst.
    - apply fine_quiet, silent_nil.
    - apply (HQ e (or_introl eq_refl)) in H1. apply IH in H2; [|intros x Hx; apply (HQ x); now right]. now apply fine_app.
  Qed.
  Lemma fine_run : forall e, occurs e gs -> forall n evs n' b, Run e n evs n' (Ok b) -> fine_events evs.
  Proof.
    induction e as [e IH] using elem_ind'. intros O n evs n' b. rewrite run_eq, kids_run.
    assert (HK : forall n b evs n' b', steps (map Run (ordered ord (fun x => x) (e_kids e))) n b evs n' (Ok b') -> fine_events evs).
    { apply fine_steps. intros x Hx n3 ev3 n4 b4. apply kid_occ in Hx. pose proof Hx as Hx'. apply In_children in Hx' as (t & g & m & I1 & I2).
      eapply IH; eauto. eapply occurs_kid; eauto. }
    set (kids := map Run _) in *. clearbody kids. clear IH.
    intros H. remember (Ok b) as r eqn:ER.
    destruct H as [x _|evs n' x _ _ H|c u found nat1 evk nk ctx eva v evr n' r HC HU HB _ HF HAT HAF]; try discriminate. subst r.
    assert (AT : v = VModel /\ silent eva).
    { destruct HAT as [v HA HV|call st msg HCA _ HEn|call msg HCA HEn _|a HA HFo _|call y HCA _ _|call y HCA _|y _].
      - split; [destruct HV as [(-> & _)|(_ & _ & L)]; [reflexivity|]; exfalso; apply (HLack e O HA); auto; [congruence|intros c' E; exists u; congruence]|].
        unfold unchanged_log. destruct (N.testbit flags 3); [|apply silent_nil]. apply silent_cons. split; [reflexivity|apply silent_nil].
      - split; [reflexivity|]. destruct (call_hook _ _ _ _ _ HCA) as (? & ? & ? & ? & ->). rewrite (HSay _ _ _ HEn).
        apply silent_cons. split; [reflexivity|]. apply silent_cons. split; [reflexivity|apply silent_nil].
      - now destruct (HNone _ HEn).
      - rewrite HFL in HAF. inversion HAF.
      - rewrite HFL in HAF. inversion HAF.
      - inversion HAF.
      - inversion HAF. }
    destruct AT as [-> SA]. apply fine_app; [|apply fine_app; [now apply fine_quiet|]].
    - unfold before in HB. destruct nat1; [destruct HB as (_ & _ & b1 & HS); eauto|]. destruct HB as (-> & _). apply fine_quiet, silent_nil.
    - assert (PR : forall k, silent (progress cb total k)).
      { intros k. unfold progress. destruct cb; [apply silent_cons; split; [reflexivity|]|]; apply silent_nil. }
      inversion HAF as [| | |evs' o A HO SO HM|evs' n'' r N1 HD HS|N1]; subst.
      + split; [apply Forall_forall; intros ev I _; now apply (proj1 (Forall_forall _ _) HM)|]. intros T. now destruct (T e O A o HO).
      + apply fine_app; [apply fine_quiet, PR|eauto].
      + apply fine_quiet, PR.
  Qed.
  Lemma fine_all evs n b : run_of_all flags cb total Ends Has Lacks clsof ord gs evs n (Ok b) -> fine_events evs.
  Proof.
    unfold run_of_all. rewrite kids_run. apply fine_steps. intros x Hx n3 ev3 n4 b4.
    apply kid_occ, In_children in Hx as (t & g & m & I1 & I2). apply fine_run. eapply occ_here; eauto.
  Qed.
End Success.

Lemma succeed_says h call st msg : hooks_succeed h -> hooks_report_success h -> may_end h call (CSays st msg) -> st = StSuccess.
Proof.
  intros HS HR (w & hc & _ & _ & E). unfold says in E. destruct (ho_status (h w hc)) as [[st' msg']|] eqn:X.
  - injection E as -> ->. eapply HR; eauto.
  - destruct (HS w hc) as [B _]. rewrite B in E. tauto.
Qed.

Section FromSuccess.
  Variables (fuel : nat) (h : hooks) (dst src : aid) (dc : diffclass) (flags : N) (cb : bool) (given : option diff) (w w' : world) (d : diff).
  Hypothesis HG : forall d0, given = Some d0 -> deletes_whole (d_groups d0).
  Hypothesis HP : proper_dst w dst.
  Hypothesis HC : well_posed w dst (d_groups d).
  Hypothesis HE : sync_from fuel h dst src dc flags cb given w = (w', Ok d).
  Notation ord := (dc_order (d_class d)).
  Notation gs := (d_groups d).

  Lemma success_silent : hooks_succeed h -> hooks_report_success h -> N.testbit flags 0 = false ->
    (forall ev, In ev (new_events w w') -> grave ev = true -> missing_child ev) /\
    ((forall e o, occurs e gs -> e_action e = Some ADelete -> dst_obj w dst e o -> ~ skips_children (o_flags o)) -> silent (new_events w w')).
  Proof.
    pose proof (from_ok fuel h dst src dc flags cb given w w' d HE) as HU.
    intros HS HR H0. pose proof (from_frame fuel h dst src dc flags cb given w d HU HG HP HC) as S. rewrite HE in S.
    destruct S as (wd & da & pre & evs & n & x & RO & EDA & F & DW & A & B).
    destruct x as [b|y]; [|destruct B as [B _]; discriminate]. destruct B as [_ B]. rewrite B.
    assert (CL : silent (closing src dst b)) by (destruct b; [apply silent_cons; split; [reflexivity|]|]; apply silent_nil).
    pose proof (cb_silent _ F) as PR.
    destruct (fine_all gs flags cb (diff_len d) (may_end h) (Has (frame wd dst da gs) (dm wd dst da gs)) (Lacks (frame wd dst da gs) (absent wd dst))
      (clsof da) ord H0 (fun call => succeed_none h call HS) (fun call st msg => succeed_says h call st msg HS HR)) with (2 := A) as [K1 K2].
    { intros e O AC NC HU' L. destruct (clsof da e) as [c|] eqn:EC; [|congruence]. destruct (HU' c eq_refl) as (u & U).
      exact (f_lack dst w d HP HC wd da RO e _ O (f_names dst wd da EDA e c u EC U) AC L). }
    split.
    - intros ev I G. apply in_app_or in I as [I|I]; [rewrite (PR ev I) in G; discriminate|].
      apply in_app_or in I as [I|I]; [|rewrite (CL ev I) in G; discriminate]. exact (proj1 (Forall_forall _ _) K1 ev I G).
    - intros T. apply silent_app. split; [exact PR|]. apply silent_app. split; [|exact CL]. apply K2.
      intros e O AC o HO SK. destruct (f_del0 dst w d HP HC wd da RO e o O AC HO) as (o0 & D & FL). apply (T e o0 O AC D). now rewrite FL.
  Qed.
End FromSuccess.

(** ** Configuration *)
Lemma dest_eqb_eq a b : dest_eqb a b = true <-> a = b.
Proof.
  destruct a, b; simpl; split; intros H; try discriminate; try reflexivity.
  - apply String.eqb_eq in H. now subst.
  - injection H as ->. apply String.eqb_refl.
Qed.
Lemma filter_ext_all {A} (f g : A -> bool) l : (forall x, f x = g x) -> filter f l = filter g l.
Proof. intros H. induction l as [|x l IH]; simpl; [reflexivity|]. now rewrite H, IH. Qed.

Lemma verbosity_nat n : verbosity_level (Z.of_nat n) = match n with 0 => 30 | 1 => 20 | _ => 10 end.
Proof.
  unfold verbosity_level. destruct n as [|[|n]]; [reflexivity|reflexivity|].
  destruct (Z.eqb_spec (Z.of_nat (S (S n))) 0); [lia|]. destruct (Z.eqb_spec (Z.of_nat (S (S n))) 1); [lia|reflexivity].
Qed.
Lemma console_shows n evs : written (enable_console_logging (Z.of_nat n) log_fresh) Stderr evs = filter (promised n) evs /\
  written (enable_console_logging (Z.of_nat n) log_fresh) Stdout evs = [].
Proof.
  split.
  - apply filter_ext_all. intros [| l ctx st msg | |]; try reflexivity. unfold enable_console_logging. rewrite verbosity_nat. destruct n as [|[|n]]; destruct l; reflexivity.
  - unfold written. rewrite (filter_ext_all _ (fun _ => false)); [now induction evs|]. intros [| l ctx st msg | |]; try reflexivity. unfold enable_console_logging. rewrite verbosity_nat. destruct n as [|[|n]]; destruct l; reflexivity.
Qed.
Lemma console_other v evs : v <> 0%Z -> v <> 1%Z -> written (enable_console_logging v log_fresh) Stderr evs = filter is_record evs.
Proof.
  intros A B. apply filter_ext_all. intros [| l ctx st msg | |]; try reflexivity.
  unfold enable_console_logging, verbosity_level. apply Z.eqb_neq in A, B. rewrite A, B. now destruct l.
Qed.
Lemma console_unset d evs : written log_fresh d evs = match d with Stdout => filter is_record evs | _ => [] end.
Proof.
  destruct d.
  - apply filter_ext_all. now intros [].
  - unfold written. rewrite (filter_ext_all _ (fun _ => false)); [now induction evs|]. now intros [].
  - unfold written. rewrite (filter_ext_all _ (fun _ => false)); [now induction evs|]. now intros [].
Qed.
Lemma console_first v v' lc : (lc_handlers lc <> [] -> enable_console_logging v lc = enable_console_logging v' lc) /\
  enable_console_logging v' (enable_console_logging v lc) = enable_console_logging v lc.
Proof.
  unfold enable_console_logging, basic_config. split.
  - intros H. destruct (lc_handlers lc) eqn:E; [congruence|]. simpl. now rewrite E.
  - destruct (lc_handlers lc) eqn:E; simpl; [reflexivity|]. now rewrite E.
Qed.

Lemma config_levels level f v lc lc' evs : In (upper level) ["DEBUG"; "INFO"; "WARNING"; "ERROR"]%string ->
  initialize_logging level f lc = (lc', Ok tt) ->
  written (enable_console_logging v lc') Stderr evs = filter (at_least (upper level)) evs /\
  written (enable_console_logging v lc') Stdout evs = [] /\
  forall n, written (enable_console_logging v lc') (ToFile n) evs = if match f with Some m => negb (String.eqb n "") && String.eqb n m | None => false end then filter is_record evs else [].
Proof.
  intros I E.
  assert (NO : forall g : event -> bool, (forall ev, g ev = false) -> filter g evs = []).
  { intros g G. rewrite (filter_ext_all _ (fun _ => false)); [now induction evs|exact G]. }
  assert (X : exists n, level_named (upper level) = Some n /\ forall l ctx st msg, at_least (upper level) (EvLog l ctx st msg) = Nat.leb n (level_no l)).
  { destruct I as [I|[I|[I|[I|[]]]]]; rewrite <- I; eexists; (split; [reflexivity|]); intros [] ? ? ?; reflexivity. }
  destruct X as (n & X & Y). unfold initialize_logging in E. rewrite X in E. injection E as <-.
  split; [|split].
  - apply filter_ext_all. intros [| l ctx st msg | |]; try reflexivity. rewrite Y. unfold enable_console_logging, basic_config, delivered. cbn [lc_handlers lc_level lc_std].
    replace (Nat.leb 10 (level_no l)) with true by now destruct l. cbn [filter hd_level]. destruct (Nat.leb n (level_no l)); cbn [map hd_dest existsb dest_eqb orb]; [reflexivity|].
    destruct f as [[|c f]|]; try reflexivity. cbn [filter hd_level]. now destruct l.
  - apply NO. intros [| l ctx st msg | |]; try reflexivity. unfold enable_console_logging, basic_config, delivered. cbn [lc_handlers lc_level lc_std].
    replace (Nat.leb 10 (level_no l)) with true by now destruct l. cbn [filter hd_level]. destruct (Nat.leb n (level_no l)); destruct f as [[|c f]|]; try reflexivity; now destruct l.
  - intros m.
    assert (G : forall l ctx st msg, (match EvLog l ctx st msg with EvLog l _ _ _ => existsb (dest_eqb (ToFile m)) (delivered (enable_console_logging v (mkLog 10 (mkHandler Stderr n :: match f with
                                       | Some (String c f) => [mkHandler (ToFile (String c f)) 10]
                                       | _ => []
                                       end) (lc_std lc))) l) | _ => false end) = match f with Some k => negb (String.eqb m "") && String.eqb m k | None => false end).
    { intros l _ _ _. unfold enable_console_logging, basic_config, delivered. cbn [lc_handlers lc_level lc_std].
      replace (Nat.leb 10 (level_no l)) with true by now destruct l. cbn [filter hd_level]. 
      destruct f as [[|c f]|].
      - destruct (Nat.leb n (level_no l)); cbn; destruct m; reflexivity.
      - cbn [filter hd_level]. replace (Nat.leb 10 (level_no l)) with true by now destruct l.
        replace (negb (String.eqb m "") && String.eqb m (String c f)) with (String.eqb m (String c f)).
        + destruct (Nat.leb n (level_no l)); cbn [map hd_dest existsb dest_eqb orb]; now rewrite orb_false_r.
        + destruct m; [reflexivity|]. now cbn [String.eqb negb andb].
      - destruct (Nat.leb n (level_no l)); reflexivity. }
    destruct (match f with Some k => negb (String.eqb m "") && String.eqb m k | None => false end) eqn:B.
    + apply filter_ext_all. intros [| l ctx st msg | |]; try reflexivity. exact (G l ctx st msg).
    + apply NO. intros [| l ctx st msg | |]; try reflexivity. exact (G l ctx st msg).
Qed.

Lemma formatter_iff major minor rest rich better :
  exception_formatter_required (major :: minor :: rest) rich better = true <->
  major < 21 \/ (major = 21 /\ minor < 2) \/ (rich = false /\ better = false).
Proof.
  unfold exception_formatter_required.
  assert (R : version_lt rest [0] = false).
  { destruct rest as [|x l]; [reflexivity|]. cbn [version_lt]. destruct x; [|reflexivity]. cbn. now destruct l. }
  assert (V : version_lt (major :: minor :: rest) [21; 2; 0] = (major <? 21) || ((major =? 21)%nat && ((minor <? 2) || ((minor =? 2)%nat && version_lt rest [0])))) by reflexivity.
  rewrite V, R, andb_false_r, orb_false_r.
  destruct (Nat.ltb_spec major 21); cbn [orb]; [tauto|].
  destruct (Nat.eqb_spec major 21); cbn [andb]; [destruct (Nat.ltb_spec minor 2)|]; destruct rich, better; cbn; split; intros; try lia; try discriminate; auto; intuition lia.
Qed.
