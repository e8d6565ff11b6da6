(** * FromFacts: hook calls, callbacks and records of whole sync_from calls. *)
From Verif Require Export StopFacts.

Lemma uses_fun fuel dst src dc flags cb given w d d' :
  uses fuel dst src dc flags cb given w d -> uses fuel dst src dc flags cb given w d' -> d = d'.
Proof.
  intros [(E1 & L1 & _)|(G1 & E1)] [(E2 & L2 & _)|(G2 & E2)].
  - congruence.
  - destruct G2 as [G2|(d2 & G2 & Z)]; [congruence|]. rewrite E1 in G2. injection G2 as <-. contradiction.
  - destruct G1 as [G1|(d2 & G1 & Z)]; [congruence|]. rewrite E2 in G1. injection G1 as <-. contradiction.
  - rewrite E1 in E2. now apply Ok_eq in E2.
Qed.
Lemma new_ev w w' evs : w_trace w' = w_trace w ++ evs -> new_events w w' = evs.
Proof. unfold new_events. intros ->. rewrite skipn_app, skipn_all, Nat.sub_diag. reflexivity. Qed.
Lemma cb_no_hook evs : Forall is_callback evs -> hook_calls evs = [].
Proof. induction 1 as [|ev evs (c & t & ->) _ IH]; [reflexivity|exact IH]. Qed.
Lemma cb_no_sync evs : Forall is_callback evs -> filter sync_callback evs = [].
Proof. induction 1 as [|ev evs (c & t & ->) _ IH]; [reflexivity|exact IH]. Qed.
Lemma cb_no_complete evs : Forall is_callback evs -> filter completeb evs = [].
Proof. induction 1 as [|ev evs (c & t & ->) _ IH]; [reflexivity|exact IH]. Qed.
Lemma cb_told E fl w dst gs cut pre evs : Forall is_callback pre -> told E fl w dst gs cut evs -> told E fl w dst gs cut (pre ++ evs).
Proof.
  induction 1 as [|ev pre (c & t & ->) _ IH]; intros H; [exact H|]. cbn [app]. apply td_other; [reflexivity|discriminate|auto].
Qed.
Lemma closing_no_hook src dst b : hook_calls (closing src dst b) = [].
Proof. now destruct b. Qed.

Lemma succeed_none h call : hooks_succeed h -> ~ may_end h call CNone.
Proof. intros HS (w & hc & _ & [E|[_ E]]); destruct (HS w hc); congruence. Qed.
Lemma succeed_raise h call x : hooks_succeed h -> ~ may_end h call (CRaise x).
Proof. intros HS (w & hc & _ & E). destruct (HS w hc). congruence. Qed.

Section From.
  Variables (fuel : nat) (h : hooks) (dst src : aid) (dc : diffclass) (flags : N) (cb : bool) (given : option diff) (w : world) (d : diff).
  Hypothesis HU : uses fuel dst src dc flags cb given w d.
  Hypothesis HG : forall d0, given = Some d0 -> deletes_whole (d_groups d0).
  Hypothesis HP : proper_dst w dst.
  Hypothesis HC : well_posed w dst (d_groups d).
  Notation ord := (dc_order (d_class d)).
  Notation gs := (d_groups d).

  Lemma from_frame : let (w', r) := sync_from fuel h dst src dc flags cb given w in
    exists wd da pre evs n x, read_only w wd /\ nth_error (w_ads wd) dst = Some da /\ Forall is_callback pre /\ deletes_whole gs /\
      course_of h flags cb (Has (frame wd dst da gs) (dm wd dst da gs)) (Lacks (frame wd dst da gs) (absent wd dst)) (clsof da) d evs n x /\
      match x with
      | Ok b => r = Ok d /\ new_events w w' = pre ++ evs ++ closing src dst b
      | Err y => r = Err y /\ new_events w w' = pre ++ evs
      end.
  Proof.
    pose proof (sync_from_split fuel h dst src dc flags cb given w) as S. cbv zeta in S.
    destruct (sync_from fuel h dst src dc flags cb given w) as [w' r]. cbn [fst snd] in S.
    destruct S as [(_ & _ & _ & NU)|(d' & wd & U & _ & RO & (pre & T & F) & E)]; [now destruct (NU d)|].
    pose proof (uses_fun _ _ _ _ _ _ _ _ _ _ HU U) as X. subst d'.
    assert (DW : deletes_whole gs).
    { destruct U as [(Q & _)|(_ & C)]; [now apply HG|eapply computed_whole; eauto]. }
    assert (HP' : proper_dst wd dst) by (eapply ro_proper; eauto). destruct (proper_ad _ _ HP') as (da & EDA).
    destruct HC as (C1 & C2 & C3).
    destruct (fr_course wd dst da EDA HP' gs src flags cb h fuel d eq_refl DW (ro_ids w wd dst RO (proj1 (proj2 HP)) gs C1)) as (evs & n & x & A1 & A2).
    rewrite <- E in A2. exists wd, da, pre, evs, n, x. split; [exact RO|]. split; [exact EDA|]. split; [exact F|]. split; [exact DW|].
    split; [exact A1|]. destruct x as [b|y]; destruct A2 as [-> A2]; (split; [reflexivity|]); apply new_ev; rewrite A2, T, <- !app_assoc; reflexivity.
  Qed.

  Section Facts.
    Variables (wd : world) (da : adapter).
    Hypothesis RO : read_only w wd.
    Hypothesis EDA : nth_error (w_ads wd) dst = Some da.
    Notation H0 := (Has (frame wd dst da gs) (dm wd dst da gs)).
    Notation L0 := (Lacks (frame wd dst da gs) (absent wd dst)).
    Lemma f_proper : proper_dst wd dst.
    Proof. eapply ro_proper; eauto. Qed.
    Lemma f_names e c u : clsof da e = Some c -> create_unique_id c (e_keys e) = Ok u -> names wd dst e (c_modelname c, u).
    Proof. now apply fr_names. Qed.
    Lemma f_has e o : occurs e gs -> H0 e o -> exists k, names wd dst e k /\ get_type o = fst k /\ get_unique_id o = Ok (snd k).
    Proof. intros _. apply fr_has. Qed.
    Lemma f_del e o : occurs e gs -> e_action e = Some ADelete -> H0 e o -> exists o0, dst_obj wd dst e o0 /\ o_flags o0 = o_flags o.
    Proof. apply fr_del; [apply f_proper|]. eapply ro_no_moves; eauto. apply HC. Qed.
    Lemma f_lack e k : occurs e gs -> names wd dst e k -> e_action e = None -> ~ L0 e.
    Proof. apply fr_lack. eapply ro_unchanged; eauto; [apply HP|apply HC]. Qed.
    (** the deleted objects as they were before the call *)
    Lemma f_del0 e o : occurs e gs -> e_action e = Some ADelete -> H0 e o -> exists o0, dst_obj w dst e o0 /\ o_flags o0 = o_flags o.
    Proof.
      intros O A H. destruct (f_del e o O A H) as (o0 & D & E). exists o0. split; [|exact E]. apply (ro_dst_obj w wd dst RO); [apply HP|exact D].
    Qed.
  End Facts.

  Lemma from_calls w' d' : sync_from fuel h dst src dc flags cb given w = (w', Ok d') ->
    calls_all w dst ord (fun ev => may_end h ev CModel) (tolerated h flags) (N.testbit flags 0 = true)
      (ordered ord (fun e => e) gs) (hook_calls (new_events w w')).
  Proof.
    intros E. pose proof from_frame as S. rewrite E in S. destruct S as (wd & da & pre & evs & n & x & RO & EDA & F & DW & A & B).
    destruct x as [b|y]; [|destruct B as [B _]; discriminate]. destruct B as [_ B]. rewrite B, !hook_calls_app, (cb_no_hook _ F), closing_no_hook, app_nil_r. cbn [app].
    pose proof (run_all_calls wd dst gs flags cb (diff_len d) (may_end h) _ _ _ ord (f_names wd da EDA) (f_has wd da)
      (f_del wd da RO) (f_lack wd da RO) evs n b A) as K.
    revert K. apply calls_mono; auto.
    - intros e ev. now apply ro_about.
    - intros e o. apply ro_dst_obj; auto. apply HP.
  Qed.

  (** the callbacks *)
  Lemma from_reaches w' d' : hooks_succeed h -> N.testbit flags 0 = false ->
    (forall e o, occurs e gs -> e_action e = Some ADelete -> dst_obj w dst e o -> ~ skips_children (o_flags o)) ->
    sync_from fuel h dst src dc flags cb given w = (w', Ok d') ->
    filter sync_callback (new_events w w') = if cb then map (fun i => EvCallback "sync" i (diff_len d)) (seq 1 (diff_len d)) else [].
  Proof.
    intros HS H0 HN E. pose proof from_frame as S. rewrite E in S. destruct S as (wd & da & pre & evs & n & x & RO & EDA & F & DW & A & B).
    destruct x as [b|y]; [|destruct B as [B _]; discriminate]. destruct B as [_ B].
    rewrite B, !filter_app, (cb_no_sync _ F). replace (filter sync_callback (closing src dst b)) with (@nil event) by now destruct b. rewrite app_nil_r. cbn [app].
    assert (T : n = diff_len d).
    { unfold diff_len, groups_len. rewrite ordered_map.
      apply (run_all_total wd dst gs flags cb (diff_len d) (may_end h) _ _ _ ord (f_names wd da EDA) (f_lack wd da RO) H0 (fun call => succeed_none h call HS)) with (2 := A).
      intros e o O AC HO SK. destruct (f_del0 wd da RO e o O AC HO) as (o0 & D & FL). apply (HN e o0 O AC D). now rewrite FL. }
    assert (CT : counted cb (diff_len d) 0 evs n).
    { unfold course_of, run_of_all in A. rewrite kids_run in A. revert A. apply steps_counted. apply Forall_forall. intros C HCC.
      apply in_map_iff in HCC as (y & <- & _). intros n1 ev1 n2 r1. apply run_counted. }
    destruct CT as [_ CT]. rewrite CT. unfold ticks. rewrite Nat.sub_0_r, T. reflexivity.
  Qed.

  (** the records *)
  Lemma from_told : (forall e o, occurs e gs -> e_action e = Some ADelete -> dst_obj w dst e o -> ~ naturally o) ->
    let (w', r) := sync_from fuel h dst src dc flags cb given w in
    told (may_end h) flags w dst gs (match r with Ok _ => false | Err _ => true end) (new_events w w').
  Proof.
    intros HN. pose proof from_frame as S. destruct (sync_from fuel h dst src dc flags cb given w) as [w' r].
    destruct S as (wd & da & pre & evs & n & x & RO & EDA & F & DW & A & B).
    assert (K : told (may_end h) flags wd dst gs (fin x) evs).
    { apply (run_all_told wd dst gs flags cb (diff_len d) (may_end h) _ _ _ ord (f_names wd da EDA) (f_has wd da)) with (2 := A).
      intros e o O AC HO NA. destruct (f_del0 wd da RO e o O AC HO) as (o0 & D & FL). apply (HN e o0 O AC D). unfold naturally in *. now rewrite FL. }
    apply (ro_told w wd dst gs RO (may_end h) flags) in K. destruct x as [b|y]; destruct B as [-> ->].
    - apply cb_told; [exact F|]. apply told_app; [exact K|]. destruct b; [|constructor]. apply td_other; [reflexivity|discriminate|constructor].
    - apply cb_told; [exact F|exact K].
  Qed.
End From.
