(** * SyncPost: proof rule for what holds at the end of a synchronisation.

    The rule of SyncMaster with a second assertion.  It may be broken between the
    call of a hook and the change of the store that belongs to it, and is restored
    by that change; it holds at the end of a run that returns or raises an
    ObjectCrudException. *)
From Verif Require Export SyncMaster.

Local Arguments ru_refl {env El clsof I Rel Pos Abs Fr Dm Sk}.
Local Arguments ru_trans {env El clsof I Rel Pos Abs Fr Dm Sk}.
Local Arguments ru_pos {env El clsof I Rel Pos Abs Fr Dm Sk}.
Local Arguments ru_dm {env El clsof I Rel Pos Abs Fr Dm Sk}.
Local Arguments ru_sk {env El clsof I Rel Pos Abs Fr Dm Sk}.
Local Arguments ru_flag {env El clsof I Rel Pos Abs Fr Dm Sk}.
Local Arguments ru_cls {env El clsof I Rel Pos Abs Fr Dm Sk}.
Local Arguments ru_event {env El clsof I Rel Pos Abs Fr Dm Sk}.
Local Arguments ru_abs_event {env El clsof I Rel Pos Abs Fr Dm Sk}.
Local Arguments ru_fr_event {env El clsof I Rel Pos Abs Fr Dm Sk}.
Local Arguments ru_kids {env El clsof I Rel Pos Abs Fr Dm Sk}.
Local Arguments ru_src {env El clsof I Rel Pos Abs Fr Dm Sk}.
Local Arguments ru_dst {env El clsof I Rel Pos Abs Fr Dm Sk}.
Local Arguments ru_create {env El clsof I Rel Pos Abs Fr Dm Sk}.
Local Arguments ru_update {env El clsof I Rel Pos Abs Fr Dm Sk}.
Local Arguments ru_delete {env El clsof I Rel Pos Abs Fr Dm Sk}.
Local Arguments ru_add {env El clsof I Rel Pos Abs Fr Dm Sk}.
Local Arguments ru_remove {env El clsof I Rel Pos Abs Fr Dm Sk}.
Local Arguments ru_below {env El clsof I Rel Pos Abs Fr Dm Sk}.

Section Post.
  Variables (ord : order_fn) (env : senv).
  Variable El : elem -> Prop.
  Variable clsof : elem -> option cls.
  Variable I : world -> Prop.
  Variable Rel : world -> world -> Prop.
  Variable Pos : world -> elem -> option ref -> Prop.
  Variable Abs : world -> elem -> Prop.
  Variable Fr : world -> elem -> ref -> Prop.
  Variable Dm : world -> elem -> ref -> Prop.
  Variable Sk : world -> ref -> Prop.
  Hypothesis RU : sync_rules env El clsof I Rel Pos Abs Fr Dm Sk.

  Variable J : world -> Prop.                      (* the second assertion *)
  Variable Jc : world -> elem -> ref -> Prop.      (* after a create hook *)
  Variable Jd : world -> elem -> ref -> Prop.      (* after a delete hook *)
  Variable St : world -> elem -> ref -> Prop.      (* of the object that was just looked up *)

  Record post_rules : Prop := mkPost {
    po_event : forall w ev, no_hook ev -> J w -> J (add_event w ev);
    po_event_c : forall w ev e x, no_hook ev -> Jc w e x -> Jc (add_event w ev) e x;
    po_event_d : forall w ev e x, no_hook ev -> Jd w e x -> Jd (add_event w ev) e x;
    po_src : forall w e c, I w -> El e -> clsof e = Some c -> J w ->
      J (fst (ad_get_or_none (sv_src env) (MClass c) (IdDict (e_keys e)) w));
    po_dst : forall w e c u, I w -> El e -> clsof e = Some c -> create_unique_id c (e_keys e) = Ok u -> J w ->
      let (w', r) := get_dst_model env c (e_keys e) w in J w' /\ forall x, r = Ok (Some x) -> St w' e x;
    po_create : forall w e c u, I w -> El e -> clsof e = Some c -> create_unique_id c (e_keys e) = Ok u ->
      e_action e = Some ACreate -> Abs w e -> J w ->
      let (w', r) := call_create env c (e_keys e) (plus_attrs e) w in
      match r with Ok (Some x) => Jc w' e x | Ok None => J w' | Err y => is_crud y = true -> J w' end;
    po_update : forall w e x, I w -> El e -> Dm w e x -> e_action e <> Some ACreate -> e_action e = Some ADelete \/ St w e x -> J w ->
      let (w', r) := call_update env x (plus_attrs e) w in
      match r with Ok _ => J w' | Err y => is_crud y = true -> J w' end;
    po_delete : forall w e x, I w -> El e -> Dm w e x -> e_action e = Some ADelete -> J w ->
      let (w', r) := call_delete env x w in
      match r with Ok (Some _) => Jd w' e x | Ok None => J w' | Err y => is_crud y = true -> J w' end;
    po_add : forall w e p x b, I w -> El e -> e_action e = Some ACreate -> Pos w e p -> Abs w e -> Fr w e x -> Jc w e x ->
      let (w', r) := apply_to_store env (Some ACreate) p x b w in
      match r with Ok _ => J w' | Err y => is_crud y = true -> J w' end;
    po_remove : forall w e p x b, I w -> El e -> e_action e = Some ADelete -> Pos w e p -> Dm w e x ->
      (b = true -> Sk w x) -> Jd w e x ->
      let (w', r) := apply_to_store env (Some ADelete) p x b w in
      match r with Ok _ => J w' | Err y => is_crud y = true -> J w' end
  }.
  Hypothesis PO : post_rules.

  Definition stay {A} (m : M sstate A) (s : sstate) (Q : A -> sstate -> Prop) : Prop :=
    let (s', r) := m s in I (ss_w s') /\ Rel (ss_w s) (ss_w s') /\
      match r with Ok a => Q a s' | Err x => is_crud x = true -> J (ss_w s') end.

  Lemma stay_bind {A B} (m : M sstate A) (k : A -> M sstate B) s Q Q' :
    stay m s Q ->
    (forall a s', Q a s' -> I (ss_w s') -> Rel (ss_w s) (ss_w s') -> stay (k a) s' Q') ->
    stay (bind m k) s Q'.
  Proof.
    unfold stay, bind. destruct (m s) as [s1 [a|e]].
    - intros (H1 & H2 & H3) HK. specialize (HK a s1 H3 H1 H2).
      destruct (k a s1) as [s2 r]. destruct HK as (K1 & K2 & K3).
      split; [exact K1|]. split; [eapply (ru_trans RU); eauto|exact K3].
    - intros (H1 & H2 & H3) _. auto.
  Qed.
  Lemma stay_weaken {A} (m : M sstate A) s (Q Q' : A -> sstate -> Prop) :
    stay m s Q -> (forall a s', Q a s' -> Q' a s') -> stay m s Q'.
  Proof.
    unfold stay. destruct (m s) as [s1 [a|x]]; intros (H1 & H2 & H3) HQ; (split; [exact H1|]; split; [exact H2|auto]).
  Qed.
  Lemma stay_ret {A} (a : A) s (Q : A -> sstate -> Prop) : I (ss_w s) -> Q a s -> stay (ret a) s Q.
  Proof. intros H HQ. unfold stay, ret. split; [exact H|]. split; [apply (ru_refl RU)|exact HQ]. Qed.
  Lemma stay_raise {A} e s (Q : A -> sstate -> Prop) : I (ss_w s) -> (is_crud e = true -> J (ss_w s)) -> stay (raise e) s Q.
  Proof. intros H HJ. unfold stay, raise. split; [exact H|]. split; [apply (ru_refl RU)|exact HJ]. Qed.
  Lemma stay_lift {A} (r : result A) s (Q : A -> sstate -> Prop) :
    I (ss_w s) -> J (ss_w s) -> (forall a, r = Ok a -> Q a s) -> stay (lift r) s Q.
  Proof. intros H HJ HQ. unfold stay, lift. split; [exact H|]. split; [apply (ru_refl RU)|]. destruct r; auto. Qed.
  Lemma stay_modify f s (Q : unit -> sstate -> Prop) :
    I (ss_w s) -> ss_w (f s) = ss_w s -> Q tt (f s) -> stay (modify f) s Q.
  Proof. intros H E HQ. unfold stay, modify. rewrite E. split; [exact H|]. split; [apply (ru_refl RU)|exact HQ]. Qed.
  Lemma stay_get s (Q : sstate -> sstate -> Prop) : I (ss_w s) -> Q s s -> stay get_state s Q.
  Proof. intros H HQ. unfold stay, get_state. split; [exact H|]. split; [apply (ru_refl RU)|exact HQ]. Qed.
  Lemma stay_slift {A} (m : M world A) s (Q : A -> sstate -> Prop) :
    (let (w', r) := m (ss_w s) in I w' /\ Rel (ss_w s) w' /\
       match r with Ok a => Q a (set_ss_w s w') | Err x => is_crud x = true -> J w' end) ->
    stay (slift m) s Q.
  Proof. unfold stay, slift. now destruct (m (ss_w s)) as [w' r]. Qed.
  Lemma stay_try {A} (m : M sstate A) h s Q :
    stay m s Q ->
    (forall e s', I (ss_w s') -> Rel (ss_w s) (ss_w s') -> m s = (s', Err e) -> is_crud e = true -> J (ss_w s') -> stay (h e) s' Q) ->
    stay (try_catch m is_crud h) s Q.
  Proof.
    unfold stay at 1 3, try_catch. destruct (m s) as [s1 [a|e]]; intros (H1 & H2 & H3) HH.
    - now split.
    - destruct (is_crud e) eqn:EC; [|rewrite EC; split; [exact H1|split; [exact H2|discriminate]]].
      specialize (HH e s1 H1 H2 eq_refl EC (H3 eq_refl)). unfold stay in HH. destruct (h e s1) as [s2 r].
      destruct HH as (K1 & K2 & K3). split; [exact K1|]. split; [eapply (ru_trans RU); eauto|exact K3].
  Qed.

  (** what a logged record changes *)
  Definition noted (s s' : sstate) : Prop :=
    same_ctl s s' /\ (ss_w s' = ss_w s \/ exists ev, no_hook ev /\ ss_w s' = add_event (ss_w s) ev).
  Lemma stay_slog lvl st msg s (Q : unit -> sstate -> Prop) : I (ss_w s) ->
    (forall s', noted s s' -> Q tt s') -> stay (slog lvl st msg) s Q.
  Proof.
    intros H HQ. unfold stay, slog, bind, get_state, slift, emit, modify. simpl.
    destruct (ru_event RU (ss_w s) (EvLog lvl (ss_ctx s) st msg) H Logic.I) as [H1 H2].
    split; [exact H1|]. split; [exact H2|]. apply HQ.
    split; [split; reflexivity|]. right. eexists. split; [|reflexivity]. exact Logic.I.
  Qed.
  Lemma stay_log_status a st msg s (Q : unit -> sstate -> Prop) : I (ss_w s) ->
    (forall s', noted s s' -> Q tt s') -> stay (log_sync_status env a st msg) s Q.
  Proof.
    intros H HQ. unfold log_sync_status. destruct a as [a|].
    - destruct st; now apply stay_slog.
    - destruct has_flag; [now apply stay_slog|]. apply stay_ret; [exact H|]. apply HQ.
      split; [split; reflexivity|]. now left.
  Qed.
  Lemma noted_j s s' : noted s s' -> J (ss_w s) -> J (ss_w s').
  Proof. intros [_ [E|(ev & N & E)]] H; rewrite E; [exact H|now apply (po_event PO)]. Qed.
  Lemma noted_abs s s' e : noted s s' -> Abs (ss_w s) e -> Abs (ss_w s') e.
  Proof. intros [_ [E|(ev & N & E)]] H; rewrite E; [exact H|now apply (ru_abs_event RU)]. Qed.
  Lemma noted_fr s s' e r : noted s s' -> Fr (ss_w s) e r -> Fr (ss_w s') e r.
  Proof. intros [_ [E|(ev & N & E)]] H; rewrite E; [exact H|now apply (ru_fr_event RU)]. Qed.
  Lemma noted_c s s' e r : noted s s' -> Jc (ss_w s) e r -> Jc (ss_w s') e r.
  Proof. intros [_ [E|(ev & N & E)]] H; rewrite E; [exact H|now apply (po_event_c PO)]. Qed.
  Lemma noted_d s s' e r : noted s s' -> Jd (ss_w s) e r -> Jd (ss_w s') e r.
  Proof. intros [_ [E|(ev & N & E)]] H; rewrite E; [exact H|now apply (po_event_d PO)]. Qed.

  (** the children *)
  Lemma stay_run_kids kids p : forall s b,
    (forall k, In k kids -> exists x, Pos (ss_w s) x p /\
       forall s', I (ss_w s') -> Pos (ss_w s') x p -> J (ss_w s') -> stay (k p) s' (fun _ s2 => J (ss_w s2))) ->
    I (ss_w s) -> J (ss_w s) -> stay (run_kids kids p b) s (fun _ s2 => J (ss_w s2)).
  Proof.
    induction kids as [|k kids IH]; intros s b HK HI HJ; simpl.
    - now apply stay_ret.
    - destruct (HK k (or_introl eq_refl)) as (x & HP & Hk).
      eapply stay_bind; [apply Hk; assumption|]. intros b' s1 HJ1 HI1 HR1. apply IH; [|exact HI1|exact HJ1].
      intros k' Hk'. destruct (HK k' (or_intror Hk')) as (x' & HP' & Hk''). exists x'. split; [|exact Hk''].
      eapply (ru_pos RU); eauto.
  Qed.

  (** the model resulting from the hook call *)
  Definition after_model (e : elem) (dm : option ref) (x : option ref) (s : sstate) : Prop :=
    match x with
    | None => J (ss_w s)
    | Some r =>
      (ss_action s = Some ACreate /\ dm = None /\ Abs (ss_w s) e /\ Fr (ss_w s) e r /\ Jc (ss_w s) e r) \/
      (ss_action s = Some ADelete /\ dm = Some r /\ Dm (ss_w s) e r /\ Jd (ss_w s) e r) \/
      (ss_action s <> Some ACreate /\ ss_action s <> Some ADelete /\ dm = Some r /\ Dm (ss_w s) e r /\ J (ss_w s))
    end.
  Lemma after_noted e dm x s s' : I (ss_w s) -> noted s s' -> after_model e dm x s -> after_model e dm x s'.
  Proof.
    intros HI HL. pose proof HL as [[L1 L2] _]. destruct x as [r|]; simpl; [|now apply noted_j].
    assert (RR : Rel (ss_w s) (ss_w s')).
    { destruct HL as [_ [E|(ev & N & E)]]; rewrite E; [apply (ru_refl RU)|now apply (ru_event RU)]. }
    intros [(A1 & A2 & A3 & A4 & A5)|[(A1 & A2 & A3 & A4)|(A1 & A2 & A3 & A4 & A5)]]; [left|right; left|right; right].
    - split; [congruence|]. split; [exact A2|]. split; [eapply noted_abs; eauto|]. split; [eapply noted_fr; eauto|eapply noted_c; eauto].
    - split; [congruence|]. split; [exact A2|]. split; [eapply (ru_dm RU); eauto|eapply noted_d; eauto].
    - split; [congruence|]. split; [congruence|]. split; [exact A3|]. split; [eapply (ru_dm RU); eauto|eapply noted_j; eauto].
  Qed.

  Lemma stay_sync_model_try e c u dm s :
    I (ss_w s) -> J (ss_w s) -> El e -> clsof e = Some c -> create_unique_id c (e_keys e) = Ok u ->
    (dm = None -> ss_class s = Some c /\ ss_action s = e_action e /\ Abs (ss_w s) e) ->
    (forall r, dm = Some r -> Dm (ss_w s) e r /\ (e_action e = Some ADelete \/ St (ss_w s) e r)) ->
    ss_action s = e_action e \/ e_action e = Some ADelete ->
    stay (sync_model_try env dm (e_keys e) (plus_attrs e)) s
         (fun x s' => same_ctl s s' /\ after_model e dm (fst x) s').
  Proof.
    intros HI HJ HE HC HU HN HD HA. unfold sync_model_try.
    eapply stay_bind; [apply (stay_get s (fun a s' => a = s /\ s' = s)); auto|].
    intros s0 s1 [-> ->] _ _.
    eapply stay_bind with (Q := fun m s' => same_ctl s s' /\ after_model e dm m s').
    - destruct (ss_action s) as [[]|] eqn:EA.
      + (* create *)
        destruct dm as [r|]; [now apply stay_raise|].
        destruct (HN eq_refl) as (HC1 & HC2 & HC3). rewrite HC1.
        apply stay_slift.
        pose proof (ru_create RU (ss_w s) e c u HI HE HC HU (eq_sym HC2) HC3) as HK.
        pose proof (po_create PO (ss_w s) e c u HI HE HC HU (eq_sym HC2) HC3 HJ) as HP.
        destruct (call_create env c (e_keys e) (plus_attrs e) (ss_w s)) as [w' r].
        destruct HK as (K1 & K2 & K3). split; [exact K1|]. split; [exact K2|].
        destruct r as [[x|]|y]; [| |exact HP]; (split; [split; reflexivity|]); [|exact HP]. left. simpl. rewrite EA. tauto.
      + (* update *)
        destruct dm as [r|]; [|now apply stay_raise].
        apply stay_slift. destruct (HD r eq_refl) as [HDr HSr].
        assert (NA : e_action e <> Some ACreate) by (destruct HA as [<-|HA]; [discriminate|rewrite HA; discriminate]).
        pose proof (ru_update RU (ss_w s) e r HI HE HDr NA) as HK.
        pose proof (po_update PO (ss_w s) e r HI HE HDr NA HSr HJ) as HP.
        assert (V : forall w' x, call_update env r (plus_attrs e) (ss_w s) = (w', Ok (Some x)) -> x = r).
        { intros w' x. unfold call_update, bind, get_state, ret, raise.
          destruct (hget r (ss_w s)) as [wa [oa|]]; [|discriminate].
          destruct (emit _ wa) as [wb [[]|]]; [|discriminate].
          match goal with |- context [match ?m wb with _ => _ end] => destruct (m wb) as [wc [[]|]]; [|discriminate] end.
          match goal with |- context [match ?m wc with _ => _ end] => destruct (m wc) as [wd [[]|]]; [|discriminate] end.
          destruct (ho_end _); try discriminate. congruence. }
        destruct (call_update env r (plus_attrs e) (ss_w s)) as [w' rr] eqn:EU.
        destruct HK as (K1 & K2). split; [exact K1|]. split; [exact K2|].
        destruct rr as [[x|]|y]; [| |exact HP]; (split; [split; reflexivity|]); [|exact HP].
        right. right. simpl. rewrite EA.
        split; [discriminate|]. split; [discriminate|]. rewrite (V w' x eq_refl). split; [reflexivity|]. split; [eapply (ru_dm RU); eauto|exact HP].
      + (* delete *)
        destruct dm as [r|]; [|now apply stay_raise].
        apply stay_slift. destruct (HD r eq_refl) as [HDr _].
        assert (NA : e_action e = Some ADelete) by (destruct HA as [<-|HA]; [reflexivity|exact HA]).
        pose proof (ru_delete RU (ss_w s) e r HI HE HDr NA) as HK.
        pose proof (po_delete PO (ss_w s) e r HI HE HDr NA HJ) as HP.
        assert (V : forall w' x, call_delete env r (ss_w s) = (w', Ok (Some x)) -> x = r).
        { intros w' x. unfold call_delete, bind, get_state, ret, raise.
          destruct (hget r (ss_w s)) as [wa [oa|]]; [|discriminate].
          destruct (emit _ wa) as [wb [[]|]]; [|discriminate].
          match goal with |- context [match ?m wb with _ => _ end] => destruct (m wb) as [wc [[]|]]; [|discriminate] end.
          match goal with |- context [match ?m wc with _ => _ end] => destruct (m wc) as [wd [[]|]]; [|discriminate] end.
          destruct (ho_end _); try discriminate. congruence. }
        destruct (call_delete env r (ss_w s)) as [w' rr] eqn:EU.
        destruct HK as (K1 & K2). split; [exact K1|]. split; [exact K2|].
        destruct rr as [[x|]|y]; [| |exact HP]; (split; [split; reflexivity|]); [|exact HP].
        right. left. simpl. rewrite EA.
        split; [reflexivity|]. rewrite (V w' x eq_refl). split; [reflexivity|]. split; [eapply (ru_dm RU); eauto|exact HP].
      + now apply stay_raise.
    - intros [r|] s1 [HS HM] HI1 HR1.
      + eapply stay_bind with (Q := fun _ s' => s' = s1).
        * apply stay_slift. unfold hget. destruct (nth_error (w_heap (ss_w s1)) r).
          -- split; [exact HI1|]. split; [apply (ru_refl RU)|]. destruct s1; reflexivity.
          -- split; [exact HI1|]. split; [apply (ru_refl RU)|]. discriminate.
        * intros o s2 -> _ _. apply stay_ret; [exact HI1|]. split; [exact HS|exact HM].
      + apply stay_ret; [exact HI1|]. split; [exact HS|exact HM].
  Qed.

  Lemma stay_sync_model e c u dm s :
    I (ss_w s) -> J (ss_w s) -> El e -> clsof e = Some c -> create_unique_id c (e_keys e) = Ok u ->
    (dm = None -> ss_class s = Some c /\ ss_action s = e_action e /\ Abs (ss_w s) e) ->
    (forall r, dm = Some r -> Dm (ss_w s) e r /\ (e_action e = Some ADelete \/ St (ss_w s) e r)) ->
    ss_action s = e_action e \/ e_action e = Some ADelete ->
    stay (sync_model env dm (e_keys e) (plus_attrs e)) s
         (fun x s' => (ss_action s <> None -> ss_action s' = ss_action s) /\
                      (ss_action s = None -> ss_action s' = None) /\ after_model e dm (snd x) s').
  Proof.
    intros HI HJ HE HC HU HN HD HA. unfold sync_model.
    eapply stay_bind; [apply (stay_get s (fun a s' => a = s /\ s' = s)); auto|].
    intros s0 s1 [-> ->] _ _.
    destruct (ss_action s) as [a|] eqn:EA.
    - eapply stay_bind with (Q := fun x s' => same_ctl s s' /\
          match x with Some y => after_model e dm (fst y) s' | None => J (ss_w s') end).
      + apply stay_try.
        * eapply stay_bind; [apply (stay_sync_model_try e c u dm s HI HJ HE HC HU)|].
          -- intros E. destruct (HN E) as (H1 & H2 & H3). rewrite EA. now split.
          -- exact HD.
          -- rewrite EA. exact HA.
          -- intros x s1 [HS HM] HI1 HR1. apply stay_ret; [exact HI1|]. split; [exact HS|exact HM].
        * intros ex s1 HI1 HR1 HERR HCR HJ1.
          assert (same_ctl s s1) as HS.
          { revert HERR. unfold bind at 1.
            destruct (sync_model_try env dm (e_keys e) (plus_attrs e) s) as [s2 [y|ey]] eqn:ET; unfold ret; [discriminate|].
            intros E; injection E as -> ->. revert ET. unfold sync_model_try, bind, get_state, raise, slift, ret.
            rewrite EA.
            assert (Z : forall w', same_ctl s (set_ss_w s w')) by (intros; split; reflexivity).
            assert (Z0 : same_ctl s s) by (split; reflexivity).
            destruct a.
            - destruct dm; [intros E; injection E as <- <-; exact Z0|].
              destruct (ss_class s) as [c'|]; [|intros E; injection E as <- <-; exact Z0].
              destruct (call_create env c' (e_keys e) (plus_attrs e) (ss_w s)) as [w' [[r|]|er]]; simpl;
                [destruct (hget r w') as [w'' [o|]]; simpl; intros E; [discriminate|]; injection E as <- <-; split; reflexivity
                |discriminate|intros E; injection E as <- <-; apply Z].
            - destruct dm as [r0|]; [|intros E; injection E as <- <-; exact Z0].
              destruct (call_update env r0 (plus_attrs e) (ss_w s)) as [w' [[r|]|er]]; simpl;
                [destruct (hget r w') as [w'' [o|]]; simpl; intros E; [discriminate|]; injection E as <- <-; split; reflexivity
                |discriminate|intros E; injection E as <- <-; apply Z].
            - destruct dm as [r0|]; [|intros E; injection E as <- <-; exact Z0].
              destruct (call_delete env r0 (ss_w s)) as [w' [[r|]|er]]; simpl;
                [destruct (hget r w') as [w'' [o|]]; simpl; intros E; [discriminate|]; injection E as <- <-; split; reflexivity
                |discriminate|intros E; injection E as <- <-; apply Z]. }
          eapply stay_bind with (Q := fun _ s' => same_ctl s s' /\ J (ss_w s')).
          -- apply stay_log_status; [exact HI1|]. intros s2 HL. split; [|eapply noted_j; eauto].
             destruct HL as [[L1 L2] _]. destruct HS as [S1 S2]. split; congruence.
          -- intros _ s2 [HS2 HJ2] HI2 HR2. destruct has_flag; [apply stay_ret; [exact HI2|now split]|now apply stay_raise].
      + intros [[m [st msg]]|] s1 [[HS1 HS2] HM] HI1 HR1.
        * eapply stay_bind with (Q := fun _ s' => noted s1 s').
          -- apply stay_log_status; [exact HI1|auto].
          -- intros _ s2 HL HI2 HR2. apply stay_ret; [exact HI2|]. pose proof HL as [[L1 L2] _].
             split; [intros _; congruence|]. split; [discriminate|].
             exact (after_noted e dm m s1 s2 HI1 HL HM).
        * apply stay_ret; [exact HI1|]. split; [intros _; congruence|]. split; [discriminate|exact HM].
    - eapply stay_bind with (Q := fun _ s' => noted s s').
      + apply stay_log_status; [exact HI|auto].
      + intros _ s2 HL HI2 HR2. apply stay_ret; [exact HI2|]. pose proof HL as [[L1 L2] _]. split; [congruence|]. split; [congruence|].
        pose proof (noted_j _ _ HL HJ) as HJ2. simpl. destruct dm as [r|]; [|exact HJ2]. right. right.
        split; [congruence|]. split; [congruence|]. split; [reflexivity|]. split; [eapply (ru_dm RU); [exact HR2|now apply HD]|exact HJ2].
  Qed.

  Lemma stay_body e parent kids s :
    El e -> I (ss_w s) -> J (ss_w s) -> Pos (ss_w s) e parent ->
    (forall k, In k kids -> exists x, kid_of e x /\
       forall p s', I (ss_w s') -> Pos (ss_w s') x p -> J (ss_w s') -> stay (k p) s' (fun _ s2 => J (ss_w s2))) ->
    stay (sync_body env e parent kids) s (fun _ s2 => J (ss_w s2)).
  Proof.
    intros HE HI HJ HP HK. unfold sync_body.
    eapply stay_bind with (Q := fun ad s' => s' = s /\ nth_error (w_ads (ss_w s)) (sv_dst env) = Some ad).
    { apply stay_slift. unfold get_adapter. destruct (nth_error (w_ads (ss_w s)) (sv_dst env)) as [ad|].
      - split; [exact HI|]. split; [apply (ru_refl RU)|]. split; [destruct s; reflexivity|reflexivity].
      - split; [exact HI|]. split; [apply (ru_refl RU)|discriminate]. }
    intros ad s1 [-> HAD] _ _.
    rewrite (ru_cls RU _ _ e HI HE HAD).
    eapply stay_bind with (Q := fun c s' => s' = s /\ clsof e = Some c).
    { apply stay_lift; [exact HI|exact HJ|]. intros c. destruct (clsof e); [|discriminate]. intros E; injection E as <-. auto. }
    intros c s1 [-> HC] _ _.
    eapply stay_bind with (Q := fun _ s' => ss_w s' = ss_w s /\ ss_class s' = Some c).
    { apply stay_modify; [exact HI|reflexivity|now split]. }
    intros [] s1 [EW1 EC1] HI1 HR1.
    assert (HJ1 : J (ss_w s1)) by now rewrite EW1.
    eapply stay_bind with (Q := fun u s' => s' = s1 /\ create_unique_id c (e_keys e) = Ok u).
    { apply stay_lift; [exact HI1|exact HJ1|]. auto. }
    intros u s2 [-> HU] _ _.
    eapply stay_bind with (Q := fun _ s' => ss_w s' = ss_w s /\ ss_class s' = Some c /\ ss_action s' = e_action e).
    { apply stay_modify; [exact HI1|reflexivity|now repeat split]. }
    intros [] s2 (EW2 & EC2 & EA2) HI2 HR2.
    assert (HJ2 : J (ss_w s2)) by now rewrite EW2.
    fold (plus_attrs e).
    eapply stay_bind with (Q := fun _ s' => ss_class s' = Some c /\ ss_action s' = e_action e /\ J (ss_w s')).
    { apply stay_slift. pose proof (ru_src RU (ss_w s2) e c HI2 HE HC) as HS.
      pose proof (po_src PO (ss_w s2) e c HI2 HE HC HJ2) as HS'.
      destruct (ad_get_or_none _ _ _ (ss_w s2)) as [w' r]. simpl in HS, HS'. destruct HS. split; [assumption|]. split; [assumption|].
      destruct r; [|auto]. now repeat split. }
    intros _ s3 (EC3 & EA3 & HJ3) HI3 HR3.
    assert (HP3 : Pos (ss_w s3) e parent).
    { eapply (ru_pos RU); [exact HR3|]. rewrite EW2. exact HP. }
    eapply stay_bind with (Q := fun dm s' => ss_class s' = Some c /\ ss_action s' = e_action e /\ J (ss_w s') /\
        match dm with Some x => Dm (ss_w s') e x /\ St (ss_w s') e x | None => Abs (ss_w s') e end).
    { apply stay_slift. pose proof (ru_dst RU (ss_w s3) e c u HI3 HE HC HU) as HS.
      pose proof (po_dst PO (ss_w s3) e c u HI3 HE HC HU HJ3) as HS'.
      destruct (get_dst_model env c (e_keys e) (ss_w s3)) as [w' r]. destruct HS as (H1 & H2 & H3). destruct HS' as [HS1 HS2].
      split; [assumption|]. split; [assumption|]. destruct r as [x|]; [|auto]. simpl. split; [exact EC3|]. split; [exact EA3|]. split; [exact HS1|].
      destruct x as [x|]; [|exact H3]. split; [exact H3|now apply HS2]. }
    intros dm s4 (EC4 & EA4 & HJ4 & HDM) HI4 HR4.
    assert (HP4 : Pos (ss_w s4) e parent) by (eapply (ru_pos RU); eauto).
    assert (MF : forall f s0, I (ss_w s0) -> J (ss_w s0) -> stay (slift (model_flag dm f)) s0 (fun b s' => s' = s0 /\
        (b = true -> exists r o, dm = Some r /\ nth_error (w_heap (ss_w s0)) r = Some o /\ has_flag (o_flags o) f = true))).
    { intros f s0 HI0 HJ0. apply stay_slift. unfold model_flag. destruct dm as [r|].
      - unfold hget, bind, ret. destruct (nth_error (w_heap (ss_w s0)) r) as [o|] eqn:EO.
        + split; [exact HI0|]. split; [apply (ru_refl RU)|].
          split; [destruct s0; reflexivity|]. intros HF. exists r, o. auto.
        + split; [exact HI0|]. split; [apply (ru_refl RU)|discriminate].
      - unfold ret. split; [exact HI0|]. split; [apply (ru_refl RU)|].
        split; [destruct s0; reflexivity|discriminate]. }
    eapply stay_bind; [apply (MF MF_NATURAL_DELETION_ORDER s4 HI4 HJ4)|].
    intros natural s5 [-> HNAT] _ _.
    eapply stay_bind; [apply (MF MF_SKIP_CHILDREN_ON_DELETE s4 HI4 HJ4)|].
    intros skip s5 [-> HSKIP] _ _.
    eapply stay_bind; [apply (stay_get s4 (fun a s' => a = s4 /\ s' = s4)); auto|].
    intros sx s5 [-> ->] _ _.
    (* the children of a deletion in natural order *)
    eapply stay_bind with (Q := fun _ s' => J (ss_w s') /\
        (s' = s4 \/ (e_action e = Some ADelete /\ dm <> None))).
    { destruct (natural && is_delete (ss_action s4) && negb skip) eqn:EB.
      - apply andb_true_iff in EB as [EB _]. apply andb_true_iff in EB as [EB1 EB2].
        assert (ED : e_action e = Some ADelete).
        { rewrite EA4 in EB2. destruct (e_action e) as [[]|]; try discriminate. reflexivity. }
        destruct dm as [r|]; [|destruct (HNAT EB1) as (r & o & N & _); discriminate N].
        eapply stay_weaken; [apply stay_run_kids; [|exact HI4|exact HJ4]|].
        + intros k Hk. destruct (HK k Hk) as (x & Hx & Hkx). exists x. split.
          * destruct HDM as [HDM _]. eapply (ru_below RU); eauto. rewrite ED. discriminate.
          * intros s' HI' HP' HJ'. apply Hkx; assumption.
        + intros b s' HJ'. split; [exact HJ'|]. right. split; [exact ED|discriminate].
      - apply stay_ret; [exact HI4|]. split; [exact HJ4|]. now left. }
    intros bb s6 [HJ6 HS6] HI6 HR6.
    eapply stay_bind.
    { apply (stay_sync_model e c u dm s6 HI6 HJ6 HE HC HU).
      - intros ->. destruct HS6 as [->|[_ N]]; [|now destruct N]. repeat split; assumption.
      - intros r ->. destruct HDM as [HDM HST]. split; [eapply (ru_dm RU); eauto|].
        destruct HS6 as [->|[HD _]]; [now right|now left].
      - destruct HS6 as [->|[HD _]]; [now left|now right]. }
    intros [changed model] s7 (HA7 & HA7' & HM) HI7 HR7. simpl in HM. cbn [fst snd].
    assert (HP7 : Pos (ss_w s7) e parent).
    { eapply (ru_pos RU); [exact HR7|]. eapply (ru_pos RU); eauto. }
    assert (HAC : ss_action s7 = e_action e \/ (e_action e = Some ADelete /\ dm <> None)).
    { destruct HS6 as [->|HS6]; [|now right]. left. rewrite <- EA4.
      destruct (ss_action s4) as [a4|] eqn:E4; [apply HA7; discriminate|now apply HA7']. }
    destruct model as [r|].
    2:{ eapply stay_bind with (Q := fun _ s' => J (ss_w s')); [apply stay_slog; [exact HI7|]; intros s' HL; eapply noted_j; eauto|].
        intros _ s8 HJ8 HI8 _. now apply stay_ret. }
    eapply stay_bind; [apply (stay_get s7 (fun a s' => a = s7 /\ s' = s7)); auto|].
    intros sx s8 [-> ->] _ _.
    eapply stay_bind with (Q := fun stop s' => ss_action s' = ss_action s7 /\ J (ss_w s') /\
        forall k, kid_of e k -> Pos (ss_w s') k (Some r)).
    { apply stay_slift. destruct HM as [(A1 & A2 & A3 & A4 & A5)|[(A1 & A1' & A2 & A5)|(A1 & A0 & A1' & A2 & A5)]].
      - rewrite A1. destruct HAC as [HAC|[_ N]]; [|now destruct N].
        pose proof (ru_add RU (ss_w s7) e parent r skip HI7 HE) as HADD.
        pose proof (po_add PO (ss_w s7) e parent r skip HI7 HE) as HPA.
        destruct (apply_to_store env (Some ACreate) parent r skip (ss_w s7)) as [w' rr].
        assert (HADD' := HADD (eq_trans (eq_sym HAC) A1) HP7 A3 A4). destruct HADD' as (K1 & K2 & K3).
        assert (HPA' := HPA (eq_trans (eq_sym HAC) A1) HP7 A3 A4 A5).
        split; [exact K1|]. split; [exact K2|]. destruct rr as [a|y]; [|exact HPA']. split; [simpl; congruence|].
        split; [exact HPA'|]. simpl. eapply K3; eauto.
      - rewrite A1.
        assert (ED : e_action e = Some ADelete) by (destruct HAC as [HAC|[HAC _]]; congruence).
        assert (HSK : skip = true -> Sk (ss_w s7) r).
        { intros E. destruct (HSKIP E) as (r' & o' & E1 & E2 & E3). rewrite A1' in E1. injection E1 as <-.
          exact (ru_sk RU _ _ _ (ru_trans RU _ _ _ HR6 HR7) (ru_flag RU _ _ _ HI4 E2 E3)). }
        pose proof (ru_remove RU (ss_w s7) e parent r skip HI7 HE ED HP7 A2 HSK) as HREM.
        pose proof (po_remove PO (ss_w s7) e parent r skip HI7 HE ED HP7 A2 HSK A5) as HPR.
        destruct (apply_to_store env (Some ADelete) parent r skip (ss_w s7)) as [w' rr].
        destruct HREM as (K1 & K2). split; [exact K1|]. split; [exact K2|]. destruct rr as [a|y]; [|exact HPR].
        split; [simpl; congruence|]. split; [exact HPR|]. intros k Hk. simpl. eapply (ru_below RU); eauto; [eapply (ru_dm RU); eauto|].
        rewrite ED. discriminate.
      - assert (NC : e_action e <> Some ACreate).
        { destruct HAC as [HAC|[HAC _]]; congruence. }
        destruct (ss_action s7) as [[]|] eqn:E7; [congruence| |congruence|].
        + unfold apply_to_store, ret. split; [exact HI7|]. split; [apply (ru_refl RU)|].
          split; [simpl; congruence|]. split; [exact A5|]. intros k Hk. simpl. eapply (ru_below RU); eauto.
        + unfold apply_to_store, ret. split; [exact HI7|]. split; [apply (ru_refl RU)|].
          split; [simpl; congruence|]. split; [exact A5|]. intros k Hk. simpl. eapply (ru_below RU); eauto. }
    intros stop s8 (EA8 & HJ8 & HPK) HI8 HR8.
    destruct stop; [now apply stay_ret|].
    eapply stay_bind with (Q := fun _ s' => J (ss_w s') /\ forall k, kid_of e k -> Pos (ss_w s') k (Some r)).
    { unfold stay, incr_elements_processed. cbn [ss_w]. destruct (sv_cb env).
      - destruct (ru_event RU (ss_w s8) (EvCallback "sync" (S (ss_n s8)) (sv_total env)) HI8 Logic.I) as [V1 V2].
        split; [exact V1|]. split; [exact V2|]. split; [now apply (po_event PO)|]. intros k Hk. eapply (ru_pos RU); eauto.
      - split; [exact HI8|]. split; [apply (ru_refl RU)|]. split; [exact HJ8|]. intros k Hk. now apply HPK. }
    intros _ s9 [HJ9 HPK9] HI9 HR9.
    destruct (negb natural || negb (is_delete (ss_action s7))); [|now apply stay_ret].
    apply stay_run_kids; [|exact HI9|exact HJ9].
    intros k Hk. destruct (HK k Hk) as (x & Hx & Hkx). exists x. split; [now apply HPK9|].
    intros s' HI' HP' HJ'. now apply Hkx.
  Qed.

  Theorem stay_elem : forall e, El e -> forall parent s,
    I (ss_w s) -> Pos (ss_w s) e parent -> J (ss_w s) -> stay (sync_elem ord env e parent) s (fun _ s2 => J (ss_w s2)).
  Proof.
    induction e as [e IH] using elem_ind'. intros HE parent s HI HP HJ. rewrite sync_elem_eq.
    apply stay_body; [exact HE|exact HI|exact HJ|exact HP|].
    intros k Hk. apply ordered_sync in Hk as (x & Hx & ->). exists x. split; [exact Hx|].
    apply In_children in Hx as (t & g & n & Hg & Hn).
    intros p s' HI' HP' HJ'. eapply IH; eauto. eapply (ru_kids RU); [exact HE|]. apply In_children. eauto.
  Qed.

  Theorem stay_run_sync d w : ord = dc_order (d_class d) ->
    (forall e, In e (children (d_groups d)) -> El e) ->
    I w -> J w -> (forall e, In e (children (d_groups d)) -> Pos w e None) ->
    let (w', r) := run_sync env d w in
    I w' /\ match r with Ok _ => J w' | Err x => is_crud x = true -> J w' end.
  Proof.
    intros EO HEl HI HJ HP. unfold run_sync, bind.
    assert (K : stay (perform_sync env d) (mkSS w 0 None None None) (fun _ s2 => J (ss_w s2))).
    { unfold perform_sync. rewrite <- EO. apply stay_run_kids; [|exact HI|exact HJ].
      intros k Hk. apply ordered_sync in Hk as (x & Hx & ->). exists x. split; [now apply HP|].
      intros s' HI' HP' HJ'. apply stay_elem; [now apply HEl|exact HI'|exact HP'|exact HJ']. }
    unfold stay in K.
    destruct (perform_sync env d (mkSS w 0 None None None)) as [s' [b|e]]; simpl in K; destruct K as (K1 & K2 & K3); simpl.
    - destruct b; simpl.
      + destruct (ru_event RU (ss_w s') (EvSyncComplete (sv_src env) (sv_dst env)) K1 Logic.I). unfold emit, modify, ret. simpl.
        split; [assumption|now apply (po_event PO)].
      + now split.
    - now split.
  Qed.
End Post.
