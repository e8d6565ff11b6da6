(** * RemoteFacts: a remote system that follows the hooks stays in step with the destination. *)
From Verif Require Export RemoteSpec SyncPost SyncTrace SyncFrom OutcomeFacts.

Lemma put_eq R t u x : put R t u x t u = x.
Proof. unfold put. now rewrite !String.eqb_refl. Qed.
Lemma put_neq R t u x t' u' : (t', u') <> (t, u) -> put R t u x t' u' = R t' u'.
Proof.
  intros N. unfold put. destruct (String.eqb_spec t' t) as [->|]; [|reflexivity]. destruct (String.eqb_spec u' u) as [->|]; [|reflexivity].
  now destruct N.
Qed.
Lemma key_dec (k k' : string * string) : k = k' \/ k <> k'.
Proof.
  destruct k as [a b], k' as [c d]. destruct (string_dec a c) as [E1|E1], (string_dec b d) as [E2|E2];
    [left; congruence|right; congruence|right; congruence|right; congruence].
Qed.

Section Drive.
  Variables (name : string -> dict val -> string) (accepts : list event -> event -> bool).
  Lemma driven_app evs : forall past evs' R,
    driven name accepts past (evs ++ evs') R = driven name accepts (past ++ evs) evs' (driven name accepts past evs R).
  Proof.
    induction evs as [|ev evs IH]; intros past evs' R; cbn [driven app]; [now rewrite app_nil_r|].
    rewrite IH, <- app_assoc. reflexivity.
  Qed.
  Lemma perform_quiet R ev : no_hook ev -> perform name R ev = R.
  Proof. destruct ev; [intros []|reflexivity|reflexivity|reflexivity]. Qed.
  Lemma driven_quiet evs : forall past R, Forall no_hook evs -> driven name accepts past evs R = R.
  Proof.
    induction evs as [|ev evs IH]; intros past R F; [reflexivity|]. inversion F; subst. cbn [driven].
    rewrite perform_quiet by assumption. destruct (accepts past ev); now apply IH.
  Qed.
End Drive.

Section Remote.
  Variables (w0 : world) (dst : aid) (da : adapter) (gs : dict (dict elem)).
  Hypothesis HDA : nth_error (w_ads w0) dst = Some da.
  Hypothesis HOWN : forall c, dst_class w0 dst c -> own_fields c.
  Hypothesis HKF : forall t c, dget (ad_classes da) t = Some c -> kids_are_fields c.
  Hypothesis HIDS : sets_no_identifier w0 dst gs.
  Hypothesis HL0 : local_ok w0 dst.
  Hypothesis HK0 : keyed w0 dst.
  Variable env : senv.
  Hypothesis ED : sv_dst env = dst.

  Variables (name : string -> dict val -> string) (accepts : list event -> event -> bool) (tr0 : list event) (R0 : remote).
  Hypothesis HNM : names_records name w0 dst.
  Hypothesis HFR : follow_remote accepts (sv_hooks env).
  Hypothesis HWR : hooks_write (not_attribute w0 dst) (sv_hooks env).
  Hypothesis HSK : no_skipping w0 dst.
  Hypothesis HGA : gives_attributes w0 dst gs.

  Notation frame := (frame w0 dst da gs).
  Notation dm := (dm w0 dst da gs).
  Notation clsof := (clsof da).
  Notation lk w k := (lookup w dst (fst k) (snd k)).
  Notation act := (perform name).

  Definition trail (w : world) (R : remote) : Prop := exists evs, w_trace w = tr0 ++ evs /\ R = driven name accepts tr0 evs R0.
  Lemma trail_hook w w' R ev : trail w R -> w_trace w' = w_trace w ++ [ev] ->
    trail w' (if accepts (w_trace w) ev then act R ev else R).
  Proof.
    intros (evs & T & ->) T'. exists (evs ++ [ev]). rewrite T', T, app_assoc. split; [reflexivity|]. now rewrite driven_app.
  Qed.
  Lemma trail_quiet w w' R evs : trail w R -> w_trace w' = w_trace w ++ evs -> Forall no_hook evs -> trail w' R.
  Proof.
    intros (evs0 & T & ->) T' F. exists (evs0 ++ evs). rewrite T', T, app_assoc. split; [reflexivity|]. rewrite driven_app. symmetry. now apply driven_quiet.
  Qed.
  Lemma trail_same w w' R : trail w R -> w_trace w' = w_trace w -> trail w' R.
  Proof. intros H T. eapply trail_quiet with (evs := []); eauto. now rewrite app_nil_r. Qed.

  (** the record has the attributes of the object *)
  Definition agree (x : record) (o : obj) : Prop := forall f, In f (c_attributes (o_cls o)) -> x f = dget (o_vals o) f.
  Definition fits (R : remote) (w : world) (k : string * string) : Prop :=
    match lk w k with
    | None => R (fst k) (snd k) = None
    | Some r => exists o x, nth_error (w_heap w) r = Some o /\ R (fst k) (snd k) = Some x /\ agree x o
    end.
  Lemma fits_all R w : in_step R w dst <-> forall k, fits R w k.
  Proof. split; [intros H [t u]; exact (H t u)|intros H t u; exact (H (t, u))]. Qed.

  Definition J (w : world) : Prop := exists R, trail w R /\ forall k, fits R w k.
  Definition Jc (w : world) (e : elem) (x : ref) : Prop :=
    exists R k o y, trail w R /\ names w0 dst e k /\ nth_error (w_heap w) x = Some o /\ clsof e = Some (o_cls o) /\
      R (fst k) (snd k) = Some y /\ agree y o /\ forall k', k' <> k -> fits R w k'.
  Definition Jd (w : world) (e : elem) (x : ref) : Prop :=
    exists R k, trail w R /\ names w0 dst e k /\ R (fst k) (snd k) = None /\ forall k', k' <> k -> fits R w k'.
  Definition St (w : world) (e : elem) (x : ref) : Prop := exists k, names w0 dst e k /\ lk w k = Some x.

  (** the objects keep class and attributes *)
  Definition still (o o' : obj) : Prop := o_cls o' = o_cls o /\
    (dst_class w0 dst (o_cls o) -> forall f, In f (c_attributes (o_cls o)) -> dget (o_vals o') f = dget (o_vals o) f).
  Definition tame (w w' : world) : Prop :=
    forall r o, nth_error (w_heap w) r = Some o -> exists o', nth_error (w_heap w') r = Some o' /\ still o o'.
  Lemma still_refl o : still o o.
  Proof. split; auto. Qed.
  Lemma still_trans a b c : still a b -> still b c -> still a c.
  Proof. intros [A1 A2] [B1 B2]. split; [congruence|]. intros D f I. rewrite B2; [now apply A2| |]; now rewrite A1. Qed.
  Lemma tame_refl w : tame w w.
  Proof. intros r o H. exists o. split; [exact H|apply still_refl]. Qed.
  Lemma tame_trans w1 w2 w3 : tame w1 w2 -> tame w2 w3 -> tame w1 w3.
  Proof.
    intros A B r o H. destruct (A r o H) as (o1 & H1 & S1). destruct (B r o1 H1) as (o2 & H2 & S2).
    exists o2. split; [exact H2|eapply still_trans; eauto].
  Qed.
  Lemma tame_ro w w' : read_only w w' -> tame w w'.
  Proof. intros R r o H. exists o. split; [eapply read_only_nth; eauto|apply still_refl]. Qed.
  Lemma tame_set w r o o' : nth_error (w_heap w) r = Some o -> still o o' -> tame w (set_heap w (list_set (w_heap w) r o')).
  Proof.
    intros H S x ox Hx. cbn [set_heap w_heap]. destruct (Nat.eq_dec x r) as [->|N].
    - exists o'. rewrite (nth_list_set_eq _ _ _ _ H). rewrite H in Hx. injection Hx as <-. auto.
    - exists ox. rewrite nth_list_set_neq by exact N. split; [exact Hx|apply still_refl].
  Qed.
  Lemma tame_sba w w' : same_but_adapter (w_heap w) (w_heap w') -> tame w w'.
  Proof.
    intros H r o Ho. destruct (sba_nth_l _ _ _ _ H Ho) as (o' & Ho' & E). apply sba_fields in E as (E1 & E2 & _).
    exists o'. split; [exact Ho'|]. split; [congruence|]. intros _ f _. now rewrite E2.
  Qed.
  Lemma still_same_but o o' : same_but (not_attribute w0 dst) o o' -> still o o'.
  Proof.
    intros (B1 & _ & _ & _ & V). split; [exact B1|]. intros D f I. apply (vals_but_get _ _ _ _ V). intros N. exact (N _ D I).
  Qed.
  Lemma still_hook w hc o : still o (apply_hook (sv_hooks env w hc) o).
  Proof. apply still_same_but, apply_hook_but. intros k I. exact (HWR w hc k I). Qed.
  Lemma agree_still x o o' : dst_class w0 dst (o_cls o) -> still o o' -> agree x o -> agree x o'.
  Proof. intros D [E S] A f I. rewrite E in I. rewrite S by assumption. now apply A. Qed.
  Lemma tame_mutate r f w : (forall o, still o (fst (f o))) -> tame w (fst (mutate r f w)).
  Proof.
    intros H. unfold mutate, bind, hget, hset, modify, lift. destruct (nth_error (w_heap w) r) as [o|] eqn:E; [|apply tame_refl].
    cbn [fst]. now apply (tame_set w r o).
  Qed.
  (** entries that stay, with objects that keep their attributes *)
  Lemma fits_tame R w w' k : frame w -> tame w w' -> lk w' k = lk w k -> fits R w k -> fits R w' k.
  Proof.
    intros F T E. unfold fits. rewrite E. destruct (lk w k) as [r|] eqn:L; [|auto].
    intros (o & x & Ho & HR & A). destruct (T r o Ho) as (o' & Ho' & S). exists o', x. split; [exact Ho'|]. split; [exact HR|].
    apply (agree_still x o); auto. eapply frame_cls; eauto.
  Qed.
  Lemma fits_put R w k k' y : k' <> k -> fits R w k' -> fits (put R (fst k) (snd k) y) w k'.
  Proof.
    intros N. unfold fits. rewrite put_neq; [auto|]. now destruct k, k'.
  Qed.

  Lemma po_event' w ev : no_hook ev -> J w -> J (add_event w ev).
  Proof.
    intros N (R & T & H). exists R. split; [eapply trail_quiet with (evs := [ev]); eauto; reflexivity|]. intros k. exact (H k).
  Qed.
  Lemma J_tame w w' evs : frame w -> tame w w' -> same_store dst w w' -> w_trace w' = w_trace w ++ evs -> Forall no_hook evs -> J w -> J w'.
  Proof.
    intros F T SS TR N (R & TL & H). exists R. split; [eapply trail_quiet; eauto|]. intros k.
    apply (fits_tame R w); auto. apply (same_store_lookup dst w w'); [|exact SS]. apply (fr_reg _ _ _ _ _ F).
  Qed.
  Lemma po_src' w e c : frame w -> J w -> J (fst (ad_get_or_none (sv_src env) (MClass c) (IdDict (e_keys e)) w)).
  Proof.
    intros F HJ. apply (J_tame w _ []); auto.
    - apply tame_ro. apply ro_get_or_none.
    - apply (quiet_get_or_none w0 dst gs).
    - rewrite app_nil_r. apply wq_none, wq_or_none.
  Qed.
  Lemma tame_dst_model c ids w : tame w (fst (get_dst_model env c ids w)).
  Proof.
    unfold get_dst_model, try_catch, bind. pose proof (ro_st_get (sv_dst env) (MClass c) (IdDict ids) w) as RO.
    destruct (st_get _ _ _ w) as [w1 [r|x]]; cbn [fst] in RO.
    - pose proof (tame_mutate r (fun o => (set_status o StUnknown "", Ok tt)) w1) as M.
      assert (H : tame w1 (fst (mutate r (fun o => (set_status o StUnknown "", Ok tt)) w1))) by (apply M; intros o; split; auto).
      clear M. destruct (mutate r _ w1) as [w2 [[]|y]]; cbn [fst snd] in *; [|destruct (is_not_found y)]; unfold ret; cbn [fst];
        exact (tame_trans _ _ _ (tame_ro _ _ RO) H).
    - destruct (is_not_found x); unfold ret; cbn [fst]; now apply tame_ro.
  Qed.
  Lemma po_dst' w e c u : frame w -> clsof e = Some c -> create_unique_id c (e_keys e) = Ok u -> J w ->
    let (w', r) := get_dst_model env c (e_keys e) w in J w' /\ forall x, r = Ok (Some x) -> St w' e x.
  Proof.
    intros F HC HU HJ.
    pose proof (quiet_dst_model w0 dst gs env c (e_keys e) w) as [_ SS].
    pose proof (tame_dst_model c (e_keys e) w) as TM.
    assert (TR : w_trace (fst (get_dst_model env c (e_keys e) w)) = w_trace w) by apply wq_none, wq_dst_model.
    pose proof (same_store_lookup dst _ _ (fr_reg _ _ _ _ w F) SS) as SL.
    pose proof (fr_reg _ _ _ _ w F) as [l RR]. pose proof RR as (ad & d & L & _).
    pose proof (st_get_cases dst c (e_keys e) u w ad d L HU) as G.
    assert (JJ : J (fst (get_dst_model env c (e_keys e) w))).
    { apply (J_tame w _ []); auto. now rewrite app_nil_r. }
    destruct (get_dst_model env c (e_keys e) w) as [w' r] eqn:EG. cbn [fst] in *. split; [exact JJ|].
    intros x ->. exists (c_modelname c, u). split; [exists da, c; auto|]. cbn [fst snd]. rewrite SL.
    unfold get_dst_model, try_catch, bind in EG. rewrite ED, G in EG.
    destruct (lookup w dst (c_modelname c) u) as [y|] eqn:EL.
    - destruct (mutate y _ _) as [w2 [[]|e2]]; [|destruct (is_not_found e2); discriminate]. unfold ret in EG. injection EG as _ ->. reflexivity.
    - discriminate.
  Qed.

  Lemma clsof_dst e c : clsof e = Some c -> dst_class w0 dst c.
  Proof. intros H. left. exists da, (e_type e). auto. Qed.
  Lemma refused w hc ev : call_event w hc ev -> accepts (w_trace w) ev = false ->
    ho_base (sv_hooks env w hc) = false /\ ho_end (sv_hooks env w hc) <> HReturn.
  Proof. intros H E. pose proof (HFR w hc ev H) as X. now rewrite E in X. Qed.
  Lemma accepted w hc ev : call_event w hc ev -> accepts (w_trace w) ev = true ->
    ho_base (sv_hooks env w hc) = true /\ ho_end (sv_hooks env w hc) = HReturn.
  Proof. intros H E. pose proof (HFR w hc ev H) as X. now rewrite E in X. Qed.

  Lemma po_create' w e c u : frame w -> occurs e gs -> clsof e = Some c -> create_unique_id c (e_keys e) = Ok u ->
    e_action e = Some ACreate -> J w ->
    let (w', r) := call_create env c (e_keys e) (plus_attrs e) w in
    match r with Ok (Some x) => Jc w' e x | Ok None => J w' | Err y => is_crud y = true -> J w' end.
  Proof.
    intros F HE HC HU HA (R & TL & HF).
    pose proof (create_trace env c (e_keys e) (plus_attrs e) w) as TR.
    pose proof (trail_hook w _ R _ TL TR) as TL'.
    set (ev := EvHook ACreate (c_modelname c) (e_keys e) (plus_attrs e)) in *.
    assert (CE : call_event w (HCreate c (e_keys e) (plus_attrs e)) ev) by reflexivity.
    destruct (accepts (w_trace w) ev) eqn:EAC.
    - destruct (accepted _ _ _ CE EAC) as [HB HN]. revert TL'.
      unfold call_create, bind, get_state, emit, modify, lift, halloc, ret, raise. rewrite HB, HN.
      destruct (create_base c (sv_dst env) (e_keys e) (plus_attrs e)) as [o|y] eqn:ECB.
      2:{ intros _ X. rewrite (create_base_err _ _ _ _ _ ECB) in X. discriminate. }
      cbn [fst snd]. intros TL'. destruct (HGA e da c HE HA HDA HC) as [ND GA].
      pose proof (create_built c (sv_dst env) e o ND ECB) as (B1 & B2 & B3 & B4).
      set (w' := set_heap _ _) in *.
      assert (TW : tame w w').
      { intros r o1 H1. exists o1. split; [|apply still_refl]. unfold w'. cbn. rewrite nth_error_app1; [exact H1|]. apply nth_error_Some. congruence. }
      exists (act R ev), (c_modelname c, u), (apply_hook (sv_hooks env w (HCreate c (e_keys e) (plus_attrs e))) o), (dget (plus_attrs e)).
      split; [exact TL'|]. split; [exists da, c; auto|]. split.
      { unfold w'. cbn. rewrite nth_error_app2 by auto. now rewrite Nat.sub_diag. }
      pose proof (still_hook w (HCreate c (e_keys e) (plus_attrs e)) o) as [S1 S2].
      split; [now rewrite S1, B1|].
      assert (EN : name (c_modelname c) (e_keys e) = u) by (apply HNM; [eapply clsof_dst; eauto|exact HU]).
      unfold ev. cbn [perform fst snd]. rewrite EN. split; [apply put_eq|]. split.
      + intros f If. rewrite S1 in If. rewrite S2; [|rewrite B1; eapply clsof_dst; eauto|exact If].
        rewrite B1 in If. destruct (GA f If) as [IF (v & G)]. apply in_map_iff in IF as ([f' dv] & E' & IF). cbn [fst] in E'. subst f'.
        pose proof G as G'. apply plus_gained in G'. rewrite G'. symmetry. apply (B4 f dv IF); [now left; auto| |exact G].
        destruct (dget (e_keys e) f) as [v'|] eqn:EK; [|reflexivity]. exfalso.
        unfold create_base in ECB. destruct (merge_cases (e_keys e) (plus_attrs e)) as [(_ & X)|(X & _)].
        * rewrite X in ECB. discriminate.
        * apply (X f); apply dmem_In; unfold dmem; [now rewrite EK|now rewrite G'].
      + intros k' N. apply (fits_put R w' (c_modelname c, u) k' _ N). apply (fits_tame R w w' k' F TW); [reflexivity|apply HF].
    - destruct (refused _ _ _ CE EAC) as [HB HN]. revert TL'.
      unfold call_create, bind, get_state, emit, modify, ret, raise. rewrite HB.
      destruct (ho_end _); [congruence| |]; cbn [fst]; intros TL'; [|intros _]; exists R; (split; [exact TL'|]); intros k; exact (HF k).
  Qed.

  Lemma fits_keep R w w' k : frame w -> lk w' k = lk w k ->
    (forall r o, lk w k = Some r -> nth_error (w_heap w) r = Some o -> exists o', nth_error (w_heap w') r = Some o' /\ still o o') ->
    fits R w k -> fits R w' k.
  Proof.
    intros F E T. unfold fits. rewrite E. destruct (lk w k) as [r|] eqn:L; [|auto].
    intros (o & x & Ho & HR & A). destruct (T r o eq_refl Ho) as (o' & Ho' & S). exists o', x. split; [exact Ho'|]. split; [exact HR|].
    apply (agree_still x o); auto. eapply frame_cls; eauto.
  Qed.
  Lemma dm_name o k : dst_class w0 dst (o_cls o) -> get_type o = fst k -> get_unique_id o = Ok (snd k) ->
    name (get_type o) (get_identifiers o) = snd k.
  Proof. intros D _ U. apply HNM; [exact D|exact U]. Qed.

  (** a call of the update hook *)
  Lemma po_update' w e x : frame w -> occurs e gs -> dm w e x -> e_action e = Some ADelete \/ St w e x -> J w ->
    let (w', r) := call_update env x (plus_attrs e) w in
    match r with Ok _ => J w' | Err y => is_crud y = true -> J w' end.
  Proof.
    intros F HE (o & k & Ho & HN & HT & HU & HD & _) HS (R & TL & HF).
    pose proof (update_trace env x (plus_attrs e) w) as TR. rewrite Ho in TR.
    pose proof (trail_hook w _ R _ TL TR) as TL'.
    set (ev := EvHook AUpdate (get_type o) (get_identifiers o) (plus_attrs e)) in *.
    assert (CE : call_event w (HUpdate x (plus_attrs e)) ev) by (exists o; auto).
    pose proof (still_hook w (HUpdate x (plus_attrs e))) as SH.
    assert (EN : name (get_type o) (get_identifiers o) = snd k) by (apply dm_name with (k := k); auto).
    destruct (accepts (w_trace w) ev) eqn:EAC.
    - destruct (accepted _ _ _ CE EAC) as [HB HE']. revert TL'.
      unfold call_update, bind, get_state. rewrite (hget_eq _ _ _ Ho). unfold emit, modify. rewrite HB.
      change (add_event w (EvHook AUpdate (get_type o) (get_identifiers o) (plus_attrs e))) with (add_event w ev).
      assert (Ho1 : nth_error (w_heap (add_event w ev)) x = Some o) by exact Ho.
      unfold mutate at 1 3. unfold bind. rewrite (hget_eq _ _ _ Ho1). unfold hset, modify, lift.
      destruct (snd (update_base o (plus_attrs e))) as [[]|y] eqn:EU.
      2:{ intros _ X. rewrite (update_base_err _ _ _ EU) in X. discriminate. }
      set (o1 := fst (update_base o (plus_attrs e))) in *.
      set (w1 := set_heap (add_event w ev) (list_set (w_heap (add_event w ev)) x o1)).
      assert (H1 : nth_error (w_heap w1) x = Some o1) by (unfold w1; cbn [set_heap w_heap]; now rewrite (nth_list_set_eq _ _ _ _ Ho1)).
      rewrite (mutate_ok x _ w1 o1 (apply_hook (sv_hooks env w (HUpdate x (plus_attrs e))) o1) H1 eq_refl).
      rewrite HE'. unfold ret. cbn [fst snd]. set (o2 := apply_hook _ o1) in *. set (w2 := set_heap w1 _). intros TL'.
      assert (H2 : nth_error (w_heap w2) x = Some o2) by (unfold w2; cbn [set_heap w_heap]; now rewrite (nth_list_set_eq _ _ _ _ H1)).
      assert (HO : forall r, r <> x -> nth_error (w_heap w2) r = nth_error (w_heap w) r).
      { intros r N. unfold w2, w1. cbn [set_heap w_heap add_event]. now rewrite !nth_list_set_neq by exact N. }
      assert (RB : o_cls o1 = o_cls o /\ (forall f v, gained e f v -> dget (o_vals o1) f = Some v) /\
                   (forall f, (forall v, ~ gained e f v) -> dget (o_vals o1) f = dget (o_vals o) f)).
      { unfold o1. unfold update_base in EU |- *. destruct (setattrs o (plus_attrs e)) as [o' [[]|y]] eqn:ES; [|discriminate].
        destruct (set_rebuilt e o o' ES) as (E1 & E2 & E3 & E4 & E5 & E6). cbn [fst set_status o_cls o_vals]. auto. }
      destruct RB as (RB1 & RB2 & RB3).
      assert (V2 : forall f, In f (c_attributes (o_cls o)) -> dget (o_vals o2) f = dget (o_vals o1) f).
      { intros f I. apply (SH o1); rewrite RB1; assumption. }
      assert (C2 : o_cls o2 = o_cls o) by (rewrite <- RB1; apply (SH o1)).
      exists (act R ev). split; [exact TL'|]. unfold ev. cbn [perform]. rewrite EN, HT.
      destruct HS as [HS|HS].
      + (* a deletion: no values *)
        assert (NG : forall f v, ~ gained e f v).
        { intros f v (s & E & _). revert HS. unfold e_action, attrs_action. rewrite E. destruct (e_dst e); [destruct (existsb _ _)|]; discriminate. }
        assert (TW : tame w w2).
        { intros r ox Hx. destruct (Nat.eq_dec r x) as [->|N].
          - rewrite Ho in Hx. injection Hx as <-. exists o2. split; [exact H2|]. split; [exact C2|]. intros _ f I.
            rewrite V2 by exact I. apply RB3. apply NG.
          - exists ox. rewrite HO by exact N. split; [exact Hx|apply still_refl]. }
        assert (HF2 : forall k', fits R w2 k') by (intros k'; apply (fits_tame R w w2 k' F TW); [reflexivity|apply HF]).
        destruct (R (fst k) (snd k)) as [y|] eqn:ER; [|exact HF2]. intros k'.
        destruct (key_dec k' k) as [->|N]; [|apply fits_put; auto].
        pose proof (HF2 k) as X. unfold fits in *. rewrite put_eq. destruct (lk w2 k) as [r|]; [|congruence].
        destruct X as (oo & y' & X1 & X2 & X3). rewrite ER in X2. injection X2 as <-. exists oo. eexists. split; [exact X1|]. split; [reflexivity|].
        intros f I. rewrite <- X3 by exact I. destruct (dget (plus_attrs e) f) as [v|] eqn:G; [|reflexivity]. apply plus_gained in G. elim (NG f v G).
      + destruct HS as (k2 & HN2 & HLK). pose proof (names_fun w0 dst e k k2 HN HN2) as <-.
        pose proof (HF k) as X. unfold fits in X. rewrite HLK in X. destruct X as (oo & y & X1 & X2 & X3).
        rewrite Ho in X1. injection X1 as <-. rewrite X2. intros k'. destruct (key_dec k' k) as [->|N].
        * unfold fits. change (lk w2 k) with (lk w k). rewrite HLK, put_eq. exists o2. eexists. split; [exact H2|]. split; [reflexivity|].
          intros f I. rewrite C2 in I. rewrite V2 by exact I. destruct (dget (plus_attrs e) f) as [v|] eqn:G.
          -- apply plus_gained in G. symmetry. now apply RB2.
          -- rewrite RB3; [now apply X3|]. intros v G'. apply plus_gained in G'. congruence.
        * apply fits_put; [exact N|]. apply (fits_keep R w w2 k' F); [reflexivity| |apply HF].
          intros r ox HL Hx. exists ox. rewrite HO; [split; [exact Hx|apply still_refl]|]. intros ->.
          destruct (fr_keyed _ _ _ _ w F _ _ _ HL) as (o3 & H3 & T3 & U3 & _). rewrite Ho in H3. injection H3 as <-.
          apply N. destruct k, k'; cbn [fst snd] in *. congruence.
    - destruct (refused _ _ _ CE EAC) as [HB HE']. revert TL'.
      unfold call_update, bind, get_state. rewrite (hget_eq _ _ _ Ho). unfold emit, modify. rewrite HB.
      change (add_event w (EvHook AUpdate (get_type o) (get_identifiers o) (plus_attrs e))) with (add_event w ev).
      assert (Ho1 : nth_error (w_heap (add_event w ev)) x = Some o) by exact Ho. unfold ret, raise.
      rewrite (mutate_ok x _ _ _ _ Ho1 eq_refl).
      assert (TW : tame w (set_heap (add_event w ev) (list_set (w_heap (add_event w ev)) x
                 (apply_hook (sv_hooks env w (HUpdate x (plus_attrs e))) o)))) by exact (tame_set w x o _ Ho (SH o)).
      destruct (ho_end _); [congruence| |]; unfold ret, raise; cbn [fst]; intros TL'; [|intros _]; exists R; (split; [exact TL'|]);
        intros k'; apply (fits_tame R w _ k' F TW); [reflexivity|apply HF|reflexivity|apply HF].
  Qed.

  Lemma po_delete' w e x : frame w -> dm w e x -> J w ->
    let (w', r) := call_delete env x w in
    match r with Ok (Some _) => Jd w' e x | Ok None => J w' | Err y => is_crud y = true -> J w' end.
  Proof.
    intros F (o & k & Ho & HN & HT & HU & HD & _) (R & TL & HF).
    pose proof (delete_trace env x w) as TR. rewrite Ho in TR.
    pose proof (trail_hook w _ R _ TL TR) as TL'.
    set (ev := EvHook ADelete (get_type o) (get_identifiers o) []) in *.
    assert (CE : call_event w (HDelete x) ev) by (exists o; auto).
    pose proof (still_hook w (HDelete x)) as SH.
    assert (EN : name (get_type o) (get_identifiers o) = snd k) by (apply dm_name with (k := k); auto).
    assert (Ho1 : nth_error (w_heap (add_event w ev)) x = Some o) by exact Ho.
    destruct (accepts (w_trace w) ev) eqn:EAC.
    - destruct (accepted _ _ _ CE EAC) as [HB HE']. revert TL'.
      unfold call_delete, bind, get_state. rewrite (hget_eq _ _ _ Ho). unfold emit, modify. rewrite HB.
      change (add_event w (EvHook ADelete (get_type o) (get_identifiers o) [])) with (add_event w ev).
      rewrite (mutate_ok x (fun o => (delete_base o, Ok tt)) _ _ _ Ho1 eq_refl).
      set (w1 := set_heap (add_event w ev) _).
      assert (H1 : nth_error (w_heap w1) x = Some (delete_base o)) by (unfold w1; cbn [set_heap w_heap]; now rewrite (nth_list_set_eq _ _ _ _ Ho1)).
      rewrite (mutate_ok x _ w1 _ (apply_hook (sv_hooks env w (HDelete x)) (delete_base o)) H1 eq_refl).
      rewrite HE'. unfold ret. cbn [fst snd]. set (w2 := set_heap w1 _). intros TL'.
      assert (TW : tame w w2).
      { apply (tame_trans w w1); [apply (tame_set w x o _ Ho); split; auto|]. exact (tame_set w1 x _ _ H1 (SH _)). }
      exists (act R ev), k. split; [exact TL'|]. split; [exact HN|]. unfold ev. cbn [perform]. rewrite EN, HT. split; [apply put_eq|].
      intros k' N. apply fits_put; [exact N|]. apply (fits_tame R w w2 k' F TW); [reflexivity|apply HF].
    - destruct (refused _ _ _ CE EAC) as [HB HE']. revert TL'.
      unfold call_delete, bind, get_state. rewrite (hget_eq _ _ _ Ho). unfold emit, modify. rewrite HB.
      change (add_event w (EvHook ADelete (get_type o) (get_identifiers o) [])) with (add_event w ev). unfold ret, raise.
      rewrite (mutate_ok x _ _ _ _ Ho1 eq_refl).
      assert (TW : tame w (set_heap (add_event w ev) (list_set (w_heap (add_event w ev)) x
                 (apply_hook (sv_hooks env w (HDelete x)) o)))) by exact (tame_set w x o _ Ho (SH o)).
      destruct (ho_end _); [congruence| |]; unfold ret, raise; cbn [fst]; intros TL'; [|intros _]; exists R; (split; [exact TL'|]);
        intros k'; apply (fits_tame R w _ k' F TW); [reflexivity|apply HF|reflexivity|apply HF].
  Qed.

  Lemma po_event_c' w ev e x : no_hook ev -> Jc w e x -> Jc (add_event w ev) e x.
  Proof.
    intros N (R & k & o & y & T & H). exists R, k, o, y. split; [eapply trail_quiet with (evs := [ev]); eauto; reflexivity|]. exact H.
  Qed.
  Lemma po_event_d' w ev e x : no_hook ev -> Jd w e x -> Jd (add_event w ev) e x.
  Proof.
    intros N (R & k & T & H). exists R, k. split; [eapply trail_quiet with (evs := [ev]); eauto; reflexivity|]. exact H.
  Qed.

  (** what became of a parent *)
  Lemma still_kids o ks : still o (set_o_kids o ks).
  Proof. split; auto. Qed.

  Lemma po_add' w e p x b : frame w -> occurs e gs -> e_action e = Some ACreate -> pos w0 dst gs w e p -> absent w0 dst w e -> fresh w0 da w e x ->
    Jc w e x ->
    let (w', r) := apply_to_store env (Some ACreate) p x b w in
    match r with Ok _ => J w' | Err y => is_crud y = true -> J w' end.
  Proof.
    intros F HE HA HP HAB (Lx & o & c & u & Ho & HC & Ec & Ef & HU & Hu & _) (R & k & oc & y & TL & HN & Hoc & _ & HR & AG & HF).
    rewrite Ho in Hoc. injection Hoc as <-.
    pose proof (names_clsof w0 dst da HDA e c u HC HU) as HN'. pose proof (names_fun w0 dst e _ _ HN HN') as ->. cbn [fst snd] in *.
    pose proof (HAB _ HN') as ABS. cbn [fst snd] in ABS.
    pose proof (wq_apply env (Some ACreate) p x b w) as [_ ERR].
    destruct (apply_to_store env (Some ACreate) p x b w) as [w' r] eqn:EQ. cbn [fst snd] in ERR.
    destruct r as [a|z]; [|intros X; rewrite (ERR z eq_refl) in X; discriminate].
    unfold apply_to_store in EQ. rewrite ED in EQ.
    (* the parent *)
    assert (P1 : exists w1, (match p with Some p => heap_add_child p x | None => ret tt end) w = (w1, Ok tt) /\
       w_ads w1 = w_ads w /\ w_trace w1 = w_trace w /\ tame w w1 /\
       exists o1, nth_error (w_heap w1) x = Some o1 /\ get_unique_id o1 = get_unique_id o /\ still o o1).
    { destruct p as [p|].
      - destruct (HP p eq_refl) as (OP & po & Hpo & Cpo). rewrite (heap_add_child_eq p x w po o Hpo Ho).
        destruct (add_child po o) as [po'|z] eqn:AC.
        2:{ unfold bind in EQ. rewrite (heap_add_child_eq p x w po o Hpo Ho), AC in EQ. discriminate. }
        destruct (add_child_inv _ _ _ AC) as (f & lf & uc & B1 & B2 & B3 & B4 & B5).
        eexists. split; [reflexivity|]. split; [reflexivity|]. split; [reflexivity|].
        assert (SP : still po po') by (rewrite B5; apply still_kids). split; [exact (tame_set w p po po' Hpo SP)|].
        cbn [set_heap w_heap]. destruct (Nat.eq_dec x p) as [->|N].
        + exists po'. rewrite (nth_list_set_eq _ _ _ _ Hpo). rewrite Ho in Hpo. injection Hpo as <-. split; [reflexivity|]. split; [|exact SP].
          rewrite B5. apply get_unique_id_kids.
        + exists o. rewrite nth_list_set_neq by exact N. split; [exact Ho|]. split; [reflexivity|apply still_refl].
      - exists w. split; [reflexivity|]. split; [reflexivity|]. split; [reflexivity|]. split; [apply tame_refl|].
        exists o. split; [exact Ho|]. split; [reflexivity|apply still_refl]. }
    destruct P1 as (w1 & E1 & AD1 & T1 & TM1 & o1 & Ho1 & U1 & S1).
    unfold bind at 1 in EQ. rewrite E1 in EQ. unfold bind at 1 in EQ.
    destruct (get_unique_id o) as [u'|z] eqn:GU.
    2:{ exfalso. revert EQ. unfold st_add, bind. rewrite (hget_eq _ _ _ Ho1). unfold lift. rewrite U1. discriminate. }
    pose proof (Hu u' eq_refl) as ->.
    assert (SLK : forall t' u', lookup w1 dst t' u' = lookup w dst t' u') by (intros; unfold lookup; now rewrite AD1).
    assert (HLOC1 : has_local w1 dst).
    { destruct (fr_reg _ _ _ _ _ F) as [l (ad & d & [L1 L2] & _)]. exists ad, d. split; [now rewrite AD1|exact L2]. }
    assert (GT : get_type o1 = c_modelname c) by (unfold get_type; rewrite (proj1 S1); now rewrite Ec).
    destruct (add_absent dst x w1 o1 u HLOC1 Ho1 U1) as (w2 & EA & A1 & A2 & A3 & A4 & A5 & A6).
    { rewrite SLK, GT. exact ABS. }
    rewrite EA in EQ. unfold ret in EQ. injection EQ as <- _. rewrite GT in A1, A2.
    assert (TM : tame w w2) by exact (tame_trans _ _ _ TM1 (tame_sba _ _ A3)).
    exists R. split; [apply (trail_same w); [exact TL|congruence]|]. intros k'. destruct (key_dec k' (c_modelname c, u)) as [->|N].
    - unfold fits. cbn [fst snd]. rewrite A1. destruct (TM x o Ho) as (o2 & Ho2 & S2). exists o2, y. split; [exact Ho2|]. split; [exact HR|].
      apply (agree_still y o); auto. rewrite Ec. eapply clsof_dst; eauto.
    - apply (fits_tame R w w2 k' F TM); [|now apply HF]. destruct k' as [t' u']. cbn [fst snd] in *. now rewrite A2, SLK.
  Qed.

  Lemma po_remove' w e p x b : frame w -> occurs e gs -> e_action e = Some ADelete -> pos w0 dst gs w e p -> dm w e x ->
    (b = true -> sk w x) -> Jd w e x ->
    let (w', r) := apply_to_store env (Some ADelete) p x b w in
    match r with Ok _ => J w' | Err y => is_crud y = true -> J w' end.
  Proof.
    intros F HE HA HP HD HS (R & k & TL & HN & HR & HF).
    pose proof HD as (o & k1 & Ho & HN1 & HT & HU & HC & HO0 & HNB & _).
    pose proof (names_fun w0 dst e _ _ HN HN1) as <-.
    assert (EB : b = false).
    { destruct b; [|reflexivity]. exfalso. destruct (HS eq_refl) as (o' & Ho' & SK). rewrite Ho in Ho'. injection Ho' as <-.
      destruct HSK as [K1 K2]. destruct (Nat.lt_ge_cases x (length (w_heap w0))) as [L|L].
      - pose proof (HO0 L) as E0. destruct (HK0 _ _ _ E0) as (o0 & Ho0 & _). apply (K1 _ _ _ _ E0 Ho0).
        destruct (fr_old _ _ _ _ _ F x o0 Ho0) as (o1 & Ho1 & _ & EF). rewrite Ho in Ho1. injection Ho1 as <-. now rewrite <- EF.
      - destruct (HNB L) as (e' & c & _ & _ & N3 & _ & _ & N6). apply (K2 da (e_type e') c HDA N3). now rewrite <- N6. }
    subst b. clear HS.
    pose proof (wq_apply env (Some ADelete) p x false w) as [_ ERR].
    destruct (apply_to_store env (Some ADelete) p x false w) as [w' r] eqn:EQ. cbn [fst snd] in ERR.
    destruct r as [a|z]; [|intros X; rewrite (ERR z eq_refl) in X; discriminate].
    unfold apply_to_store in EQ. rewrite ED in EQ.
    (* the parent *)
    assert (P1 : exists w1, (match p with Some p => heap_remove_child p x | None => ret tt end) w = (w1, Ok tt) /\
       w_ads w1 = w_ads w /\ w_trace w1 = w_trace w /\ tame w w1 /\ frame w1 /\ dm w1 e x).
    { destruct p as [p|].
      - destruct (HP p eq_refl) as (OP & po & Hpo & Cpo). rewrite (heap_remove_child_eq p x w po o Hpo Ho).
        destruct (remove_child po o) as [po'|z] eqn:RC.
        2:{ unfold bind in EQ. rewrite (heap_remove_child_eq p x w po o Hpo Ho), RC in EQ. discriminate. }
        destruct (remove_child_inv _ _ _ RC) as (f & lf & uc & B1 & B2 & B3 & B4 & B5).
        eexists. split; [reflexivity|]. split; [reflexivity|]. split; [reflexivity|].
        assert (SP : still po po') by (rewrite B5; apply still_kids). split; [exact (tame_set w p po po' Hpo SP)|].
        assert (ST : SyncFrame2.step w0 dst da gs w (set_heap w (list_set (w_heap w) p po'))).
        { eapply step_drop; eauto.
          - rewrite B5. split; [reflexivity|]. split; [reflexivity|]. split; [apply get_unique_id_kids|].
            intros f' X. simpl. rewrite dget_dset. destruct (String.eqb f' f); [discriminate|exact X].
          - intros t u X. eapply remove_child_lists; eauto. }
        destruct (frame_step w0 dst da gs HK0 _ _ F ST) as [F1 R1]. split; [exact F1|]. eapply dm_rel; eauto.
      - exists w. split; [reflexivity|]. split; [reflexivity|]. split; [reflexivity|]. split; [apply tame_refl|]. auto. }
    destruct P1 as (w1 & E1 & AD1 & T1 & TM1 & F1 & (o1 & k1 & Ho1 & HN2 & HT1 & HU1 & _)).
    pose proof (names_fun w0 dst e _ _ HN HN2) as <-.
    unfold bind at 1 in EQ. rewrite E1 in EQ. unfold bind at 1 in EQ.
    assert (SLK : forall t' u', lookup w1 dst t' u' = lookup w dst t' u') by (intros; unfold lookup; now rewrite AD1).
    destruct (fr_reg _ _ _ _ _ F1) as [l RR].
    destruct (remove_any dst (sv_fuel env) w1 l x o1 (fst k) (snd k) false RR (fr_keyed _ _ _ _ _ F1) Ho1 HT1 HU1)
      as (l' & [SR SS SH _ (n & ST)] & G & OK & _).
    destruct (st_remove (sv_fuel env) dst x false w1) as [w2 [[]|z]]; [|discriminate].
    unfold ret in EQ. injection EQ as <- _. cbn [fst snd] in *. specialize (OK eq_refl).
    assert (TM : tame w w2) by exact (tame_trans _ _ _ TM1 (tame_sba _ _ SH)).
    exists R. split.
    { apply (trail_quiet w w2 R (repeat not_found_log n)); [exact TL|congruence|]. apply Forall_forall. intros ev I. apply repeat_spec in I. now subst ev. }
    intros k'. destruct (key_dec k' k) as [->|N].
    - unfold fits. rewrite (RegOf_lookup _ _ _ _ _ SR), OK. exact HR.
    - apply (fits_tame R w w2 k' F TM); [|now apply HF]. rewrite <- SLK.
      rewrite (RegOf_lookup _ _ _ _ _ SR), (RegOf_lookup _ _ _ _ _ RR).
      destruct (reg_find l' (fst k') (snd k')) as [r|] eqn:E'.
      + symmetry. eapply subreg_find; [exact (RegOf_nodup _ _ _ RR)|exact SS|exact E'].
      + destruct (reg_find l (fst k') (snd k')) as [r|] eqn:E; [|reflexivity]. exfalso.
        assert (GN : CascadeFacts.gone l l' k') by (split; congruence). apply G in GN as [GN|(X & _)]; [|discriminate].
        apply N. rewrite GN. now destruct k.
  Qed.

  Lemma remote_rules : post_rules env (fun e => occurs e gs) clsof frame (pos w0 dst gs) (absent w0 dst) (fresh w0 da) dm sk J Jc Jd St.
  Proof.
    constructor.
    - exact po_event'.
    - exact po_event_c'.
    - exact po_event_d'.
    - intros w e c F _ _. now apply po_src'.
    - intros w e c u F _. now apply po_dst'.
    - intros w e c u F HE HC HU HA _ HJ. now apply (po_create' w e c u).
    - intros w e x F HE HD _ HS HJ. now apply po_update'.
    - intros w e x F HE HD _ HJ. now apply po_delete'.
    - intros w e p x b F HE HA HP HAB HF HJ. now apply (po_add' w e p x b).
    - intros w e p x b F HE HA HP HD HS HJ. now apply (po_remove' w e p x b).
  Qed.
End Remote.

Theorem remote_stays fuel h dst src dc flags cb given name accepts w R :
  proper_dst w dst -> names_records name w dst -> follow_remote accepts h -> hooks_write (not_attribute w dst) h -> no_skipping w dst ->
  (forall d, uses fuel dst src dc flags cb given w d -> sets_no_identifier w dst (d_groups d) /\ gives_attributes w dst (d_groups d)) ->
  in_step R w dst ->
  let (w', r) := sync_from fuel h dst src dc flags cb given w in
  (forall x, r = Err x -> crud_exception x) ->
  w_trace w' = w_trace w ++ new_events w w' /\ in_step (driven name accepts (w_trace w) (new_events w w') R) w' dst.
Proof.
  intros HP HNM HFR HWR HSK HU HIS. pose proof HP as (_ & HK & _).
  assert (NEW : forall w' evs, w_trace w' = w_trace w ++ evs -> new_events w w' = evs).
  { intros w' evs T. unfold new_events. rewrite T, skipn_app, skipn_all, Nat.sub_diag. reflexivity. }
  assert (ROK : forall wd, read_only w wd -> in_step R wd dst).
  { intros wd RO t u. specialize (HIS t u). rewrite (read_only_lookup _ _ _ _ _ RO). destruct (lookup w dst t u) as [r|]; [|exact HIS].
    destruct HIS as (o & x & Ho & X). exists o, x. split; [eapply read_only_nth; eauto|exact X]. }
  assert (CBN : forall evs, Forall is_callback evs -> Forall no_hook evs).
  { intros evs Fc. eapply Forall_impl; [|exact Fc]. intros ev. destruct ev; simpl; try tauto. intros (? & ? & X); discriminate X. }
  destruct (sync_from_split fuel h dst src dc flags cb given w) as [(RO & (evs & T & Fc) & _)|(d & wd & U & _ & RO & (evs & T & Fc) & E)].
  - destruct (sync_from fuel h dst src dc flags cb given w) as [w' r]. cbn [fst snd] in *. intros _.
    rewrite (NEW w' evs T), driven_quiet by now apply CBN. split; [exact T|]. now apply ROK.
  - rewrite E. destruct (HU d U) as (HI & HG).
    pose proof (ro_proper _ _ _ RO HP) as HPd. pose proof HPd as (HL0 & HK0 & HOWN & HKFd).
    destruct (proper_ad _ _ HPd) as [da HDA].
    destruct (ro_classes _ _ _ RO _ HDA) as (ad0 & B1 & B2).
    assert (DC : forall c, dst_class wd dst c -> dst_class w dst c) by (intros c; apply (ro_dst_class _ _ _ RO); exact HK).
    assert (HNMd : names_records name wd dst) by (intros c ids u H; exact (HNM c ids u (DC c H))).
    assert (HWRd : hooks_write (not_attribute wd dst) h) by (intros w1 hc k I c H; exact (HWR w1 hc k I c (DC c H))).
    assert (HSKd : no_skipping wd dst).
    { destruct HSK as [K1 K2]. split.
      - intros t u r o HL Ho. apply (K1 t u r o); [now rewrite <- (read_only_lookup _ _ _ _ _ RO)|]. eapply ro_obj; eauto.
      - intros ad t c X G. destruct (ro_classes _ _ _ RO _ X) as (ad1 & Y1 & Y2). rewrite Y2 in G. eauto. }
    assert (HGd : gives_attributes wd dst (d_groups d)).
    { intros e ad c A1 A2 A3 A4. destruct (ro_classes _ _ _ RO _ A3) as (ad1 & Y1 & Y2). rewrite Y2 in A4. eapply HG; eauto. }
    pose proof (ro_ids _ _ _ RO HK _ HI) as HId.
    set (env := mkSEnv src dst flags (diff_len d) cb h fuel).
    pose proof (frame_rules wd dst da (d_groups d) HDA HOWN (fun t c => HKFd da t c HDA) HId HK0 env eq_refl) as FR.
    pose proof (remote_rules wd dst da (d_groups d) HDA HK0 env eq_refl name accepts (w_trace wd) R HNMd HFR HWRd HSKd HGd) as RULES.
    assert (HJ : J dst name accepts (w_trace wd) R wd).
    { exists R. split; [exists []; rewrite app_nil_r; auto|]. apply fits_all. now apply ROK. }
    pose proof (stay_run_sync (dc_order (d_class d)) env _ _ _ _ _ _ _ _ _ FR _ _ _ _ RULES d wd eq_refl) as S.
    assert (S1 : forall e, In e (children (d_groups d)) -> occurs e (d_groups d)).
    { intros e I. apply In_children in I as (t & g & n & I1 & I2). eapply occ_here; eauto. }
    assert (S2 : forall e, In e (children (d_groups d)) -> pos wd dst (d_groups d) wd e None) by (intros e _ r X; discriminate).
    assert (F0 : frame wd dst da (d_groups d) wd) by (apply frame_init; auto; intros t c; exact (HKFd da t c HDA)).
    specialize (S S1 F0 HJ S2).
    destruct (run_sync env d wd) as [w' r]. destruct S as [_ S]. intros HX.
    assert (JJ : J dst name accepts (w_trace wd) R w').
    { destruct r as [d'|x]; [exact S|]. apply S. specialize (HX x eq_refl). destruct HX as [<-|[<-|[<-|[<-|[]]]]]; reflexivity. }
    destruct JJ as (R' & (evs' & T' & ->) & HF). rewrite (NEW w' (evs ++ evs')); [|rewrite T', T; now rewrite app_assoc].
    split; [rewrite T', T; now rewrite app_assoc|].
    rewrite driven_app, (driven_quiet _ _ evs) by now apply CBN. rewrite <- T. now apply fits_all.
Qed.
