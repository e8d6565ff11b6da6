(** * SyncMaster: proof rule for invariants of a synchronisation.

    An invariant of the world that every operation of the syncer keeps is kept by
    the whole run, however it ends. *)
From Verif Require Export SyncerDefs DiffFacts StoreMore.

Definition plus_attrs (e : elem) : dict val :=
  match ad_plus (e_attrs_diffs e) with Some p => p | None => [] end.

Lemma plus_delete e : e_action e = Some ADelete -> plus_attrs e = [].
Proof.
  unfold e_action, plus_attrs, e_attrs_diffs, attrs_action, get_attrs_diffs.
  destruct (e_src e), (e_dst e); try discriminate; try reflexivity.
  intros H. destruct existsb in H; discriminate.
Qed.

(** the elements directly below *)
Definition kid_of (e k : elem) : Prop := In k (children (e_kids e)).

Lemma ordered_sync ord env gs k : In k (ordered ord (sync_elem ord env) gs) ->
  exists x, In x (children gs) /\ k = sync_elem ord env x.
Proof.
  rewrite ordered_map. rewrite in_map_iff. intros [x [<- H]]. exists x. split; [|reflexivity].
  now apply ordered_sub in H.
Qed.

Lemma sync_elem_eq ord env e parent :
  sync_elem ord env e parent = sync_body env e parent (ordered ord (sync_elem ord env) (e_kids e)).
Proof. destruct e; reflexivity. Qed.

(** not a call of a hook *)
Definition no_hook (ev : event) : Prop := match ev with EvHook _ _ _ _ => False | _ => True end.

Section Master.
  Variables (ord : order_fn) (env : senv).
  Variable El : elem -> Prop.                             (* the elements of the diff *)
  Variable clsof : elem -> option cls.                    (* the destination's model class *)
  Variable I : world -> Prop.                             (* the invariant *)
  Variable Rel : world -> world -> Prop.                  (* how the world may change *)
  Variable Pos : world -> elem -> option ref -> Prop.     (* a proper parent for the element *)
  Variable Abs : world -> elem -> Prop.                   (* the element's object is not stored *)
  Variable Fr : world -> elem -> ref -> Prop.             (* newly created for the element *)
  Variable Dm : world -> elem -> ref -> Prop.             (* the destination's object for the element *)
  Variable Sk : world -> ref -> Prop.                     (* flagged SKIP_CHILDREN_ON_DELETE *)

  Record sync_rules : Prop := mkRules {
    ru_refl : forall w, Rel w w;
    ru_trans : forall w1 w2 w3, Rel w1 w2 -> Rel w2 w3 -> Rel w1 w3;
    ru_pos : forall w w' e p, Rel w w' -> Pos w e p -> Pos w' e p;
    ru_dm : forall w w' e r, Rel w w' -> Dm w e r -> Dm w' e r;
    ru_sk : forall w w' r, Rel w w' -> Sk w r -> Sk w' r;
    ru_flag : forall w r o, I w -> nth_error (w_heap w) r = Some o ->
      has_flag (o_flags o) MF_SKIP_CHILDREN_ON_DELETE = true -> Sk w r;
    ru_cls : forall w ad e, I w -> El e -> nth_error (w_ads w) (sv_dst env) = Some ad ->
      dget (ad_classes ad) (e_type e) = clsof e;
    ru_event : forall w ev, I w -> no_hook ev -> I (add_event w ev) /\ Rel w (add_event w ev);
    ru_abs_event : forall w ev e, Abs w e -> Abs (add_event w ev) e;
    ru_fr_event : forall w ev e r, Fr w e r -> Fr (add_event w ev) e r;
    ru_kids : forall e k, El e -> kid_of e k -> El k;
    ru_src : forall w e c, I w -> El e -> clsof e = Some c ->
      let w' := fst (ad_get_or_none (sv_src env) (MClass c) (IdDict (e_keys e)) w) in I w' /\ Rel w w';
    ru_dst : forall w e c u, I w -> El e -> clsof e = Some c -> create_unique_id c (e_keys e) = Ok u ->
      let (w', r) := get_dst_model env c (e_keys e) w in
      I w' /\ Rel w w' /\
      match r with Ok (Some x) => Dm w' e x | Ok None => Abs w' e | Err _ => True end;
    ru_create : forall w e c u, I w -> El e -> clsof e = Some c -> create_unique_id c (e_keys e) = Ok u ->
      e_action e = Some ACreate -> Abs w e ->
      let (w', r) := call_create env c (e_keys e) (plus_attrs e) w in
      I w' /\ Rel w w' /\
      match r with Ok (Some x) => Abs w' e /\ Fr w' e x | _ => True end;
    ru_update : forall w e x, I w -> El e -> Dm w e x -> e_action e <> Some ACreate ->
      let (w', r) := call_update env x (plus_attrs e) w in I w' /\ Rel w w';
    ru_delete : forall w e x, I w -> El e -> Dm w e x -> e_action e = Some ADelete ->
      let (w', r) := call_delete env x w in I w' /\ Rel w w';
    ru_add : forall w e p x b, I w -> El e -> e_action e = Some ACreate -> Pos w e p -> Abs w e -> Fr w e x ->
      let (w', r) := apply_to_store env (Some ACreate) p x b w in
      I w' /\ Rel w w' /\ forall a, r = Ok a -> forall k, kid_of e k -> Pos w' k (Some x);
    ru_remove : forall w e p x b, I w -> El e -> e_action e = Some ADelete -> Pos w e p -> Dm w e x ->
      (b = true -> Sk w x) ->
      let (w', r) := apply_to_store env (Some ADelete) p x b w in I w' /\ Rel w w';
    ru_below : forall w e x k, I w -> El e -> Dm w e x -> e_action e <> Some ACreate -> kid_of e k -> Pos w k (Some x)
  }.

  Hypothesis RU : sync_rules.

  Definition keep {A} (m : M sstate A) (s : sstate) (Q : A -> sstate -> Prop) : Prop :=
    let (s', r) := m s in I (ss_w s') /\ Rel (ss_w s) (ss_w s') /\ forall a, r = Ok a -> Q a s'.

  Lemma keep_bind {A B} (m : M sstate A) (k : A -> M sstate B) s Q Q' :
    keep m s Q ->
    (forall a s', Q a s' -> I (ss_w s') -> Rel (ss_w s) (ss_w s') -> keep (k a) s' Q') ->
    keep (bind m k) s Q'.
  Proof.
    unfold keep, bind. destruct (m s) as [s1 [a|e]].
    - intros (H1 & H2 & H3) HK. specialize (HK a s1 (H3 a eq_refl) H1 H2).
      destruct (k a s1) as [s2 r]. destruct HK as (K1 & K2 & K3).
      split; [exact K1|]. split; [eapply ru_trans; eauto|exact K3].
    - intros (H1 & H2 & _) _. split; [exact H1|]. split; [exact H2|]. discriminate.
  Qed.
  Lemma keep_weaken {A} (m : M sstate A) s (Q Q' : A -> sstate -> Prop) :
    keep m s Q -> (forall a s', Q a s' -> Q' a s') -> keep m s Q'.
  Proof.
    unfold keep. destruct (m s) as [s1 r]. intros (H1 & H2 & H3) HQ. split; [exact H1|]. split; [exact H2|].
    intros a E. apply HQ, H3, E.
  Qed.
  Lemma keep_ret {A} (a : A) s (Q : A -> sstate -> Prop) : I (ss_w s) -> Q a s -> keep (ret a) s Q.
  Proof.
    intros H HQ. unfold keep, ret. split; [exact H|]. split; [apply (ru_refl RU)|]. intros b E. injection E as <-. exact HQ.
  Qed.
  Lemma keep_raise {A} e s (Q : A -> sstate -> Prop) : I (ss_w s) -> keep (raise e) s Q.
  Proof. intros H. unfold keep, raise. split; [exact H|]. split; [apply (ru_refl RU)|]. discriminate. Qed.
  Lemma keep_lift {A} (r : result A) s (Q : A -> sstate -> Prop) :
    I (ss_w s) -> (forall a, r = Ok a -> Q a s) -> keep (lift r) s Q.
  Proof. intros H HQ. unfold keep, lift. split; [exact H|]. split; [apply (ru_refl RU)|exact HQ]. Qed.
  Lemma keep_modify f s (Q : unit -> sstate -> Prop) :
    I (ss_w s) -> ss_w (f s) = ss_w s -> Q tt (f s) -> keep (modify f) s Q.
  Proof.
    intros H E HQ. unfold keep, modify. rewrite E. split; [exact H|]. split; [apply (ru_refl RU)|]. intros [] _. exact HQ.
  Qed.
  Lemma keep_get s (Q : sstate -> sstate -> Prop) : I (ss_w s) -> Q s s -> keep get_state s Q.
  Proof.
    intros H HQ. unfold keep, get_state. split; [exact H|]. split; [apply (ru_refl RU)|]. intros b E. injection E as <-. exact HQ.
  Qed.
  Lemma keep_slift {A} (m : M world A) s (Q : A -> sstate -> Prop) :
    (let (w', r) := m (ss_w s) in I w' /\ Rel (ss_w s) w' /\ forall a, r = Ok a -> Q a (set_ss_w s w')) ->
    keep (slift m) s Q.
  Proof. unfold keep, slift. now destruct (m (ss_w s)) as [w' r]. Qed.
  Lemma keep_try {A} (m : M sstate A) p h s Q :
    keep m s Q ->
    (forall e s', I (ss_w s') -> Rel (ss_w s) (ss_w s') -> m s = (s', Err e) -> keep (h e) s' Q) ->
    keep (try_catch m p h) s Q.
  Proof.
    unfold keep at 1 3, try_catch. destruct (m s) as [s1 [a|e]]; intros (H1 & H2 & H3) HH.
    - now split.
    - destruct (p e); [|split; [exact H1|split; [exact H2|discriminate]]].
      specialize (HH e s1 H1 H2 eq_refl). unfold keep in HH. destruct (h e s1) as [s2 r].
      destruct HH as (K1 & K2 & K3). split; [exact K1|]. split; [eapply ru_trans; eauto|exact K3].
  Qed.

  Definition same_ctl (s s' : sstate) : Prop := ss_action s' = ss_action s /\ ss_class s' = ss_class s.

  (** what a logged record changes *)
  Definition logged (s s' : sstate) : Prop :=
    same_ctl s s' /\ (exists ev, ss_w s' = add_event (ss_w s) ev \/ ss_w s' = ss_w s).

  Lemma keep_slog lvl st msg s (Q : unit -> sstate -> Prop) : I (ss_w s) ->
    (forall s', logged s s' -> Q tt s') -> keep (slog lvl st msg) s Q.
  Proof.
    intros H HQ. unfold keep, slog, bind, get_state, slift, emit, modify. simpl.
    destruct (ru_event RU (ss_w s) (EvLog lvl (ss_ctx s) st msg) H Logic.I) as [H1 H2].
    split; [exact H1|]. split; [exact H2|]. intros [] _. apply HQ.
    split; [split; reflexivity|]. eexists. left. reflexivity.
  Qed.
  Lemma keep_log_status a st msg s (Q : unit -> sstate -> Prop) : I (ss_w s) ->
    (forall s', logged s s' -> Q tt s') -> keep (log_sync_status env a st msg) s Q.
  Proof.
    intros H HQ. unfold log_sync_status. destruct a as [a|].
    - destruct st; now apply keep_slog.
    - destruct has_flag; [now apply keep_slog|]. apply keep_ret; [exact H|]. apply HQ.
      split; [split; reflexivity|]. exists (EvLog LDebug None None ""). now right.
  Qed.
  Lemma logged_abs s s' e : logged s s' -> Abs (ss_w s) e -> Abs (ss_w s') e.
  Proof. intros [_ [ev [E|E]]] H; rewrite E; [now apply (ru_abs_event RU)|exact H]. Qed.
  Lemma logged_fr s s' e r : logged s s' -> Fr (ss_w s) e r -> Fr (ss_w s') e r.
  Proof. intros [_ [ev [E|E]]] H; rewrite E; [now apply (ru_fr_event RU)|exact H]. Qed.

  (** the children *)
  Lemma keep_run_kids kids p : forall s b,
    (forall k, In k kids -> exists x, Pos (ss_w s) x p /\
       forall s', I (ss_w s') -> Pos (ss_w s') x p -> keep (k p) s' (fun _ _ => True)) ->
    I (ss_w s) -> keep (run_kids kids p b) s (fun _ _ => True).
  Proof.
    induction kids as [|k kids IH]; intros s b HK HI; simpl.
    - now apply keep_ret.
    - destruct (HK k (or_introl eq_refl)) as (x & HP & Hk).
      eapply keep_bind; [apply Hk; assumption|]. intros b' s1 _ HI1 HR1. apply IH; [|exact HI1].
      intros k' Hk'. destruct (HK k' (or_intror Hk')) as (x' & HP' & Hk''). exists x'. split; [|exact Hk''].
      eapply (ru_pos RU); eauto.
  Qed.

  (** the model resulting from the hook call *)
  Definition model_post (e : elem) (dm : option ref) (x : option ref) (s : sstate) : Prop :=
    forall r, x = Some r ->
      (ss_action s = Some ACreate /\ dm = None /\ Abs (ss_w s) e /\ Fr (ss_w s) e r) \/
      (ss_action s <> Some ACreate /\ dm = Some r /\ Dm (ss_w s) e r).

  Lemma keep_sync_model_try e c u dm s :
    I (ss_w s) -> El e -> clsof e = Some c -> create_unique_id c (e_keys e) = Ok u ->
    (dm = None -> ss_class s = Some c /\ ss_action s = e_action e /\ Abs (ss_w s) e) ->
    (forall r, dm = Some r -> Dm (ss_w s) e r) ->
    ss_action s = e_action e \/ e_action e = Some ADelete ->
    keep (sync_model_try env dm (e_keys e) (plus_attrs e)) s
         (fun x s' => same_ctl s s' /\ model_post e dm (fst x) s').
  Proof.
    intros HI HE HC HU HN HD HA. unfold sync_model_try.
    eapply keep_bind; [apply (keep_get s (fun a s' => a = s /\ s' = s)); auto|].
    intros s0 s1 [-> ->] _ _.
    eapply keep_bind with (Q := fun m s' => same_ctl s s' /\ model_post e dm m s').
    - destruct (ss_action s) as [[]|] eqn:EA.
      + (* create *)
        destruct dm as [r|]; [now apply keep_raise|].
        destruct (HN eq_refl) as (HC1 & HC2 & HC3). rewrite HC1.
        apply keep_slift.
        pose proof (ru_create RU (ss_w s) e c u HI HE HC HU (eq_sym HC2) HC3) as HK.
        destruct (call_create env c (e_keys e) (plus_attrs e) (ss_w s)) as [w' r].
        destruct HK as (K1 & K2 & K3). split; [exact K1|]. split; [exact K2|].
        intros a ->. split; [split; reflexivity|]. intros r ->. left. simpl. rewrite EA. tauto.
      + (* update *)
        destruct dm as [r|]; [|now apply keep_raise].
        apply keep_slift. pose proof (HD r eq_refl) as HDr.
        assert (NA : e_action e <> Some ACreate) by (destruct HA as [<-|HA]; [discriminate|rewrite HA; discriminate]).
        pose proof (ru_update RU (ss_w s) e r HI HE HDr NA) as HK.
        assert (V : forall w' x, call_update env r (plus_attrs e) (ss_w s) = (w', Ok (Some x)) -> x = r).
        { intros w' x. unfold call_update, bind, get_state, ret, raise.
          destruct (hget r (ss_w s)) as [wa [oa|]]; [|discriminate].
          destruct (emit _ wa) as [wb [[]|]]; [|discriminate].
          match goal with |- context [match ?m wb with _ => _ end] => destruct (m wb) as [wc [[]|]]; [|discriminate] end.
          match goal with |- context [match ?m wc with _ => _ end] => destruct (m wc) as [wd [[]|]]; [|discriminate] end.
          destruct (ho_end _); try discriminate. congruence. }
        destruct (call_update env r (plus_attrs e) (ss_w s)) as [w' rr] eqn:EU.
        destruct HK as (K1 & K2). split; [exact K1|]. split; [exact K2|].
        intros a ->. split; [split; reflexivity|]. intros x ->. right. simpl. rewrite EA.
        split; [discriminate|]. rewrite (V w' x eq_refl). split; [reflexivity|]. eapply (ru_dm RU); eauto.
      + (* delete *)
        destruct dm as [r|]; [|now apply keep_raise].
        apply keep_slift. pose proof (HD r eq_refl) as HDr.
        assert (NA : e_action e = Some ADelete) by (destruct HA as [<-|HA]; [reflexivity|exact HA]).
        pose proof (ru_delete RU (ss_w s) e r HI HE HDr NA) as HK.
        assert (V : forall w' x, call_delete env r (ss_w s) = (w', Ok (Some x)) -> x = r).
        { intros w' x. unfold call_delete, bind, get_state, ret, raise.
          destruct (hget r (ss_w s)) as [wa [oa|]]; [|discriminate].
          destruct (emit _ wa) as [wb [[]|]]; [|discriminate].
          match goal with |- context [match ?m wb with _ => _ end] => destruct (m wb) as [wc [[]|]]; [|discriminate] end.
          match goal with |- context [match ?m wc with _ => _ end] => destruct (m wc) as [wd [[]|]]; [|discriminate] end.
          destruct (ho_end _); try discriminate. congruence. }
        destruct (call_delete env r (ss_w s)) as [w' rr] eqn:EU.
        destruct HK as (K1 & K2). split; [exact K1|]. split; [exact K2|].
        intros a ->. split; [split; reflexivity|]. intros x ->. right. simpl. rewrite EA.
        split; [discriminate|]. rewrite (V w' x eq_refl). split; [reflexivity|]. eapply (ru_dm RU); eauto.
      + now apply keep_raise.
    - intros [r|] s1 [HS HM] HI1 HR1.
      + eapply keep_bind with (Q := fun _ s' => s' = s1).
        * apply keep_slift. unfold hget. destruct (nth_error (w_heap (ss_w s1)) r).
          -- split; [exact HI1|]. split; [apply (ru_refl RU)|]. intros a _. destruct s1; reflexivity.
          -- split; [exact HI1|]. split; [apply (ru_refl RU)|]. discriminate.
        * intros o s2 -> _ _. apply keep_ret; [exact HI1|]. split; [exact HS|exact HM].
      + apply keep_ret; [exact HI1|]. split; [exact HS|]. intros r H; discriminate.
  Qed.

  Lemma keep_sync_model e c u dm s :
    I (ss_w s) -> El e -> clsof e = Some c -> create_unique_id c (e_keys e) = Ok u ->
    (dm = None -> ss_class s = Some c /\ ss_action s = e_action e /\ Abs (ss_w s) e) ->
    (forall r, dm = Some r -> Dm (ss_w s) e r) ->
    ss_action s = e_action e \/ e_action e = Some ADelete ->
    keep (sync_model env dm (e_keys e) (plus_attrs e)) s
         (fun x s' => (ss_action s <> None -> ss_action s' = ss_action s) /\
                      (ss_action s = None -> ss_action s' = None) /\ model_post e dm (snd x) s').
  Proof.
    intros HI HE HC HU HN HD HA. unfold sync_model.
    eapply keep_bind; [apply (keep_get s (fun a s' => a = s /\ s' = s)); auto|].
    intros s0 s1 [-> ->] _ _.
    destruct (ss_action s) as [a|] eqn:EA.
    - eapply keep_bind with (Q := fun x s' => same_ctl s s' /\
          match x with Some y => model_post e dm (fst y) s' | None => True end).
      + apply keep_try.
        * eapply keep_bind; [apply (keep_sync_model_try e c u dm s HI HE HC HU)|].
          -- intros E. destruct (HN E) as (H1 & H2 & H3). rewrite EA. now split.
          -- exact HD.
          -- rewrite EA. exact HA.
          -- intros x s1 [HS HM] HI1 HR1. apply keep_ret; [exact HI1|]. split; [exact HS|exact HM].
        * intros ex s1 HI1 HR1 HERR.
          assert (same_ctl s s1) as HS.
          { revert HERR. unfold bind at 1.
            destruct (sync_model_try env dm (e_keys e) (plus_attrs e) s) as [s2 [y|ey]] eqn:ET; unfold ret; [discriminate|].
            intros E; injection E as -> ->. revert ET. unfold sync_model_try, bind, get_state, raise, slift, ret.
            rewrite EA.
            assert (Z : forall w', same_ctl s (set_ss_w s w')) by (intros; split; reflexivity).
            assert (Z0 : same_ctl s s) by (split; reflexivity).
            destruct a.
            - destruct dm; [intros E; injection E as <- <-; exact Z0|].
              destruct (ss_class s) as [c'|]; [|intros E; injection E as <- <-; exact Z0].
              destruct (call_create env c' (e_keys e) (plus_attrs e) (ss_w s)) as [w' [[r|]|er]]; simpl;
                [destruct (hget r w') as [w'' [o|]]; simpl; intros E; [discriminate|]; injection E as <- <-; split; reflexivity
                |discriminate|intros E; injection E as <- <-; apply Z].
            - destruct dm as [r0|]; [|intros E; injection E as <- <-; exact Z0].
              destruct (call_update env r0 (plus_attrs e) (ss_w s)) as [w' [[r|]|er]]; simpl;
                [destruct (hget r w') as [w'' [o|]]; simpl; intros E; [discriminate|]; injection E as <- <-; split; reflexivity
                |discriminate|intros E; injection E as <- <-; apply Z].
            - destruct dm as [r0|]; [|intros E; injection E as <- <-; exact Z0].
              destruct (call_delete env r0 (ss_w s)) as [w' [[r|]|er]]; simpl;
                [destruct (hget r w') as [w'' [o|]]; simpl; intros E; [discriminate|]; injection E as <- <-; split; reflexivity
                |discriminate|intros E; injection E as <- <-; apply Z]. }
          eapply keep_bind with (Q := fun _ s' => same_ctl s s').
          -- apply keep_log_status; [exact HI1|]. intros s2 [[L1 L2] _]. destruct HS as [S1 S2]. split; congruence.
          -- intros _ s2 HS2 HI2 HR2. destruct has_flag; [apply keep_ret; [exact HI2|now split]|now apply keep_raise].
      + intros [[m [st msg]]|] s1 [[HS1 HS2] HM] HI1 HR1.
        * eapply keep_bind with (Q := fun _ s' => logged s1 s').
          -- apply keep_log_status; [exact HI1|auto].
          -- intros _ s2 HL HI2 HR2. apply keep_ret; [exact HI2|].
             destruct HL as [[L1 L2] L3]. split; [intros _; congruence|]. split; [discriminate|].
             intros r Hr. simpl in Hr. destruct (HM r Hr) as [(A1 & A2 & A3 & A4)|(A1 & A1' & A2)].
             ++ left. split; [congruence|]. split; [exact A2|].
                assert (HL' : logged s1 s2) by (split; [split|]; assumption).
                split; [eapply logged_abs; eauto|eapply logged_fr; eauto].
             ++ right. split; [congruence|]. split; [exact A1'|]. eapply (ru_dm RU); eauto.
        * apply keep_ret; [exact HI1|]. split; [intros _; congruence|]. split; [discriminate|].
          intros r H; discriminate.
    - eapply keep_bind with (Q := fun _ s' => logged s s').
      + apply keep_log_status; [exact HI|auto].
      + intros _ s2 [[L1 L2] L3] HI2 HR2. apply keep_ret; [exact HI2|]. split; [congruence|]. split; [congruence|].
        intros r Hr. simpl in Hr. right. split; [congruence|]. split; [exact Hr|]. eapply (ru_dm RU); eauto.
  Qed.

  Lemma keep_body e parent kids s :
    El e -> I (ss_w s) -> Pos (ss_w s) e parent ->
    (forall k, In k kids -> exists x, kid_of e x /\
       forall p s', I (ss_w s') -> Pos (ss_w s') x p -> keep (k p) s' (fun _ _ => True)) ->
    keep (sync_body env e parent kids) s (fun _ _ => True).
  Proof.
    intros HE HI HP HK. unfold sync_body.
    eapply keep_bind with (Q := fun ad s' => s' = s /\ nth_error (w_ads (ss_w s)) (sv_dst env) = Some ad).
    { apply keep_slift. unfold get_adapter. destruct (nth_error (w_ads (ss_w s)) (sv_dst env)) as [ad|].
      - split; [exact HI|]. split; [apply (ru_refl RU)|]. intros a E. injection E as <-. split; [destruct s; reflexivity|reflexivity].
      - split; [exact HI|]. split; [apply (ru_refl RU)|discriminate]. }
    intros ad s1 [-> HAD] _ _.
    rewrite (ru_cls RU _ _ e HI HE HAD).
    eapply keep_bind with (Q := fun c s' => s' = s /\ clsof e = Some c).
    { apply keep_lift; [exact HI|]. intros c. destruct (clsof e); [|discriminate]. intros E; injection E as <-. auto. }
    intros c s1 [-> HC] _ _.
    eapply keep_bind with (Q := fun _ s' => ss_w s' = ss_w s /\ ss_class s' = Some c).
    { apply keep_modify; [exact HI|reflexivity|now split]. }
    intros [] s1 [EW1 EC1] HI1 HR1.
    eapply keep_bind with (Q := fun u s' => s' = s1 /\ create_unique_id c (e_keys e) = Ok u).
    { apply keep_lift; [exact HI1|]. auto. }
    intros u s2 [-> HU] _ _.
    eapply keep_bind with (Q := fun _ s' => ss_w s' = ss_w s /\ ss_class s' = Some c /\ ss_action s' = e_action e).
    { apply keep_modify; [exact HI1|reflexivity|now repeat split]. }
    intros [] s2 (EW2 & EC2 & EA2) HI2 HR2.
    fold (plus_attrs e).
    eapply keep_bind with (Q := fun _ s' => ss_class s' = Some c /\ ss_action s' = e_action e).
    { apply keep_slift. pose proof (ru_src RU (ss_w s2) e c HI2 HE HC) as HS.
      destruct (ad_get_or_none _ _ _ (ss_w s2)) as [w' r]. simpl in HS. destruct HS. split; [assumption|]. split; [assumption|].
      intros a _. now split. }
    intros _ s3 (EC3 & EA3) HI3 HR3.
    assert (HP3 : Pos (ss_w s3) e parent).
    { eapply (ru_pos RU); [exact HR3|]. rewrite EW2. exact HP. }
    eapply keep_bind with (Q := fun dm s' => ss_class s' = Some c /\ ss_action s' = e_action e /\
        match dm with Some x => Dm (ss_w s') e x | None => Abs (ss_w s') e end).
    { apply keep_slift. pose proof (ru_dst RU (ss_w s3) e c u HI3 HE HC HU) as HS.
      destruct (get_dst_model env c (e_keys e) (ss_w s3)) as [w' r]. destruct HS as (H1 & H2 & H3).
      split; [assumption|]. split; [assumption|]. intros a ->. simpl. repeat split; assumption. }
    intros dm s4 (EC4 & EA4 & HDM) HI4 HR4.
    assert (HP4 : Pos (ss_w s4) e parent) by (eapply (ru_pos RU); eauto).
    assert (MF : forall f s0, I (ss_w s0) -> keep (slift (model_flag dm f)) s0 (fun b s' => s' = s0 /\
        (b = true -> exists r o, dm = Some r /\ nth_error (w_heap (ss_w s0)) r = Some o /\ has_flag (o_flags o) f = true))).
    { intros f s0 HI0. apply keep_slift. unfold model_flag. destruct dm as [r|].
      - unfold hget, bind, ret. destruct (nth_error (w_heap (ss_w s0)) r) as [o|] eqn:EO.
        + split; [exact HI0|]. split; [apply (ru_refl RU)|]. intros a E. injection E as <-.
          split; [destruct s0; reflexivity|]. intros HF. exists r, o. auto.
        + split; [exact HI0|]. split; [apply (ru_refl RU)|discriminate].
      - unfold ret. split; [exact HI0|]. split; [apply (ru_refl RU)|]. intros a E; injection E as <-.
        split; [destruct s0; reflexivity|discriminate]. }
    eapply keep_bind; [apply (MF MF_NATURAL_DELETION_ORDER s4 HI4)|].
    intros natural s5 [-> HNAT] _ _.
    eapply keep_bind; [apply (MF MF_SKIP_CHILDREN_ON_DELETE s4 HI4)|].
    intros skip s5 [-> HSKIP] _ _.
    eapply keep_bind; [apply (keep_get s4 (fun a s' => a = s4 /\ s' = s4)); auto|].
    intros sx s5 [-> ->] _ _.
    (* the children of a deletion in natural order *)
    eapply keep_bind with (Q := fun _ s' =>
        (s' = s4 \/ (e_action e = Some ADelete /\ dm <> None))).
    { destruct (natural && is_delete (ss_action s4) && negb skip) eqn:EB.
      - apply andb_true_iff in EB as [EB _]. apply andb_true_iff in EB as [EB1 EB2].
        assert (ED : e_action e = Some ADelete).
        { rewrite EA4 in EB2. destruct (e_action e) as [[]|]; try discriminate. reflexivity. }
        destruct dm as [r|]; [|destruct (HNAT EB1) as (r & o & N & _); discriminate N].
        eapply keep_weaken; [apply keep_run_kids; [|exact HI4]|].
        + intros k Hk. destruct (HK k Hk) as (x & Hx & Hkx). exists x. split.
          * eapply (ru_below RU); eauto. rewrite ED. discriminate.
          * intros s' HI' HP'. apply Hkx; assumption.
        + intros b s' _. right. split; [exact ED|discriminate].
      - apply keep_ret; [exact HI4|]. now left. }
    intros bb s6 HS6 HI6 HR6.
    eapply keep_bind.
    { apply (keep_sync_model e c u dm s6 HI6 HE HC HU).
      - intros ->. destruct HS6 as [->|[_ N]]; [|now destruct N]. repeat split; assumption.
      - intros r ->. eapply (ru_dm RU); eauto.
      - destruct HS6 as [->|[HD _]]; [now left|now right]. }
    intros [changed model] s7 (HA7 & HA7' & HM) HI7 HR7. simpl in HM. cbn [fst snd].
    assert (HP7 : Pos (ss_w s7) e parent).
    { eapply (ru_pos RU); [exact HR7|]. eapply (ru_pos RU); eauto. }
    assert (HAC : ss_action s7 = e_action e \/ (e_action e = Some ADelete /\ dm <> None)).
    { destruct HS6 as [->|HS6]; [|now right]. left. rewrite <- EA4.
      destruct (ss_action s4) as [a4|] eqn:E4; [apply HA7; discriminate|now apply HA7']. }
    destruct model as [r|].
    2:{ eapply keep_bind with (Q := fun _ _ => True); [apply keep_slog; auto|].
        intros _ s8 _ HI8 _. now apply keep_ret. }
    eapply keep_bind; [apply (keep_get s7 (fun a s' => a = s7 /\ s' = s7)); auto|].
    intros sx s8 [-> ->] _ _.
    eapply keep_bind with (Q := fun stop s' => ss_action s' = ss_action s7 /\
        forall k, kid_of e k -> Pos (ss_w s') k (Some r)).
    { apply keep_slift. destruct (HM r eq_refl) as [(A1 & A2 & A3 & A4)|(A1 & A1' & A2)].
      - rewrite A1. destruct HAC as [HAC|[_ N]]; [|now destruct N].
        pose proof (ru_add RU (ss_w s7) e parent r skip HI7 HE) as HADD.
        destruct (apply_to_store env (Some ACreate) parent r skip (ss_w s7)) as [w' rr].
        assert (HADD' := HADD (eq_trans (eq_sym HAC) A1) HP7 A3 A4). destruct HADD' as (K1 & K2 & K3).
        split; [exact K1|]. split; [exact K2|]. intros a E. split; [simpl; congruence|].
        simpl. eapply K3; eauto.
      - assert (NC : e_action e <> Some ACreate).
        { destruct HAC as [HAC|[HAC _]]; congruence. }
        destruct (ss_action s7) as [[]|] eqn:E7; [congruence| | |].
        + unfold apply_to_store, ret. split; [exact HI7|]. split; [apply (ru_refl RU)|].
          intros a _. split; [simpl; congruence|]. intros k Hk. simpl. eapply (ru_below RU); eauto.
        + assert (ED : e_action e = Some ADelete) by (destruct HAC as [HAC|[HAC _]]; congruence).
          assert (HSK : skip = true -> Sk (ss_w s7) r).
          { intros E. destruct (HSKIP E) as (r' & o' & E1 & E2 & E3). rewrite A1' in E1. injection E1 as <-.
            exact (ru_sk RU _ _ _ (ru_trans RU _ _ _ HR6 HR7) (ru_flag RU _ _ _ HI4 E2 E3)). }
          pose proof (ru_remove RU (ss_w s7) e parent r skip HI7 HE ED HP7 A2 HSK) as HREM.
          destruct (apply_to_store env (Some ADelete) parent r skip (ss_w s7)) as [w' rr].
          destruct HREM as (K1 & K2). split; [exact K1|]. split; [exact K2|].
          intros a _. split; [simpl; congruence|]. intros k Hk. simpl. eapply (ru_below RU); eauto. eapply (ru_dm RU); eauto.
        + unfold apply_to_store, ret. split; [exact HI7|]. split; [apply (ru_refl RU)|].
          intros a _. split; [simpl; congruence|]. intros k Hk. simpl. eapply (ru_below RU); eauto. }
    intros stop s8 (EA8 & HPK) HI8 HR8.
    destruct stop; [now apply keep_ret|].
    eapply keep_bind with (Q := fun _ s' => forall k, kid_of e k -> Pos (ss_w s') k (Some r)).
    { unfold keep, incr_elements_processed. cbn [ss_w]. destruct (sv_cb env).
      - destruct (ru_event RU (ss_w s8) (EvCallback "sync" (S (ss_n s8)) (sv_total env)) HI8 Logic.I) as [V1 V2].
        split; [exact V1|]. split; [exact V2|]. intros _ _ k Hk. eapply (ru_pos RU); eauto.
      - split; [exact HI8|]. split; [apply (ru_refl RU)|]. intros _ _ k Hk. now apply HPK. }
    intros _ s9 HPK9 HI9 HR9.
    destruct (negb natural || negb (is_delete (ss_action s7))); [|now apply keep_ret].
    apply keep_run_kids; [|exact HI9].
    intros k Hk. destruct (HK k Hk) as (x & Hx & Hkx). exists x. split; [now apply HPK9|].
    intros s' HI' HP'. now apply Hkx.
  Qed.

  Theorem keep_elem : forall e, El e -> forall parent s,
    I (ss_w s) -> Pos (ss_w s) e parent -> keep (sync_elem ord env e parent) s (fun _ _ => True).
  Proof.
    induction e as [e IH] using elem_ind'. intros HE parent s HI HP. rewrite sync_elem_eq.
    apply keep_body; [exact HE|exact HI|exact HP|].
    intros k Hk. apply ordered_sync in Hk as (x & Hx & ->). exists x. split; [exact Hx|].
    apply In_children in Hx as (t & g & n & Hg & Hn).
    intros p s' HI' HP'. eapply IH; eauto. eapply (ru_kids RU); [exact HE|]. apply In_children. eauto.
  Qed.

  Theorem keep_perform d s : ord = dc_order (d_class d) ->
    (forall e, In e (children (d_groups d)) -> El e) ->
    I (ss_w s) -> (forall e, In e (children (d_groups d)) -> Pos (ss_w s) e None) ->
    keep (perform_sync env d) s (fun _ _ => True).
  Proof.
    intros EO HEl HI HP. unfold perform_sync. rewrite <- EO. apply keep_run_kids; [|exact HI].
    intros k Hk. apply ordered_sync in Hk as (x & Hx & ->). exists x. split; [now apply HP|].
    intros s' HI' HP'. apply keep_elem; [now apply HEl|exact HI'|exact HP'].
  Qed.

  Theorem keep_run_sync d w : ord = dc_order (d_class d) ->
    (forall e, In e (children (d_groups d)) -> El e) ->
    I w -> (forall e, In e (children (d_groups d)) -> Pos w e None) ->
    I (fst (run_sync env d w)) /\ Rel w (fst (run_sync env d w)).
  Proof.
    intros EO HEl HI HP. unfold run_sync, bind.
    pose proof (keep_perform d (mkSS w 0 None None None) EO HEl HI HP) as K. unfold keep in K.
    destruct (perform_sync env d (mkSS w 0 None None None)) as [s' [b|e]]; simpl in K; destruct K as (K1 & K2 & _); simpl.
    - destruct b; simpl.
      + destruct (ru_event RU (ss_w s') (EvSyncComplete (sv_src env) (sv_dst env)) K1 Logic.I). unfold emit, modify, ret. simpl.
        split; [assumption|eapply (ru_trans RU); eauto].
      + now split.
    - now split.
  Qed.
End Master.
