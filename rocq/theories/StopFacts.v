(** * StopFacts: exceptions of hooks. *)
From Verif Require Export FrameCourse.

Lemma continue_bit flags : has_flag flags SF_CONTINUE_ON_FAILURE = N.testbit flags 0.
Proof. apply (has_flag_pow2 flags 0). Qed.

(** ** With CONTINUE_ON_FAILURE no exception of a CRUD class escapes *)
Section Contained.
  Variable env : senv.
  Hypothesis HF : N.testbit (sv_flags env) 0 = true.
  Lemma nc_slift {A} (m : M world A) : wq (fun _ => True) m -> nc (slift m).
  Proof. intros H s x E. destruct (H (ss_w s)) as [_ H']. eapply H'. exact E. Qed.
  Lemma wq_weak {A} (P Q : event -> Prop) (m : M world A) : (forall ev, P ev -> Q ev) -> wq P m -> wq Q m.
  Proof. intros H1 H2 w. destruct (H2 w) as [(evs & T & F) E]. split; [|exact E]. exists evs. split; [exact T|]. eapply Forall_impl; eauto. Qed.
  Lemma nc_slog l st m : nc (slog l st m).
  Proof. unfold slog. apply nc_bind; [apply nc_get|]. intros s. apply nc_ok. intros s'. now eexists. Qed.
  Lemma nc_status a st m : nc (log_sync_status env a st m).
  Proof. unfold log_sync_status. destruct a; [destruct st; apply nc_slog|]. destruct (has_flag _ _); [apply nc_slog|apply nc_ret]. Qed.
  Lemma wq_flag r f : wq (fun _ => True) (model_flag r f).
  Proof. destruct r; simpl; [|apply wq_ret]. apply wq_bind; [apply wq_hget|]. intros o. apply wq_ret. Qed.
  Lemma nc_sync_model dm ids attrs : nc (sync_model env dm ids attrs).
  Proof.
    unfold sync_model. apply nc_bind; [apply nc_get|]. intros s. destruct (ss_action s) as [a|].
    - apply nc_bind.
      + intros s1 x. unfold try_catch. destruct (bind _ _ s1) as [s2 [r|y]]; [discriminate|]. destruct (is_crud y) eqn:C.
        * rewrite continue_bit, HF. apply nc_bind; [apply nc_status|intros; apply nc_ret].
        * simpl. intros E. injection E as <-. exact C.
      + intros [[m [st msg]]|]; [|apply nc_ret]. apply nc_bind; [apply nc_status|intros; apply nc_ret].
    - apply nc_bind; [apply nc_status|intros; apply nc_ret].
  Qed.
  Lemma nc_run_kids kids : (forall k p, In k kids -> nc (k p)) -> forall p b, nc (run_kids kids p b).
  Proof.
    induction kids as [|k kids IH]; intros H p b; cbn [run_kids]; [apply nc_ret|]. apply nc_bind; [apply H; now left|].
    intros b1. apply IH. intros k' p' I. apply H. now right.
  Qed.
  Lemma nc_modify (f : sstate -> sstate) : nc (modify f).
  Proof. apply nc_ok. intros s. now eexists. Qed.
  Lemma nc_body e parent kids : (forall k p, In k kids -> nc (k p)) -> nc (sync_body env e parent kids).
  Proof.
    intros HK. unfold sync_body. apply nc_bind; [apply nc_slift, wq_adapter|]. intros ad. apply nc_bind.
    { apply nc_lift. intros x. destruct (dget _ _); [discriminate|]. intros E. now injection E as <-. }
    intros c. apply nc_bind; [apply nc_modify|]. intros _. apply nc_bind; [apply nc_lift; intros x; apply uid_err|]. intros u.
    apply nc_bind; [apply nc_modify|]. intros _. cbv zeta. apply nc_bind; [apply nc_slift, wq_or_none|]. intros _.
    apply nc_bind; [apply nc_slift, wq_dst_model|]. intros dm. apply nc_bind; [apply nc_slift, wq_flag|]. intros natural.
    apply nc_bind; [apply nc_slift, wq_flag|]. intros skip. apply nc_bind; [apply nc_get|]. intros s.
    apply nc_bind; [destruct (_ && _ && _); [now apply nc_run_kids|apply nc_ret]|]. intros _.
    apply nc_bind; [apply nc_sync_model|]. intros cm. destruct (snd cm) as [r|].
    - apply nc_bind; [apply nc_get|]. intros s1. apply nc_bind.
      + apply nc_slift. eapply wq_weak; [|apply wq_apply]. auto.
      + intros [|]; [apply nc_ret|]. apply nc_bind; [apply nc_ok; intros s2; now eexists|]. intros _.
        destruct (_ || _); [now apply nc_run_kids|apply nc_ret].
    - apply nc_bind; [apply nc_slog|]. intros _. apply nc_ret.
  Qed.
  Lemma nc_elem ord : forall e p, nc (sync_elem ord env e p).
  Proof.
    induction e as [e IH] using elem_ind'. intros p. rewrite sync_elem_eq. apply nc_body. intros k q Hk.
    apply ordered_sync in Hk as (x & Hx & ->). apply In_children in Hx as (t & g & m & I1 & I2). eauto.
  Qed.
  Lemma nc_run_sync d : nc (run_sync env d).
  Proof.
    unfold run_sync. apply nc_bind.
    - intros w x E. simpl in E. unfold perform_sync in E. eapply nc_run_kids; [|exact E]. intros k p Hk.
      apply ordered_sync in Hk as (y & _ & ->). apply nc_elem.
    - intros b. apply nc_bind; [destruct b; apply nc_ok; intros w; now eexists|]. intros _. apply nc_ret.
  Qed.
End Contained.
Lemma from_contained fuel h dst src dc flags cb given w x : N.testbit flags 0 = true ->
  snd (sync_from fuel h dst src dc flags cb given w) = Err x -> is_crud x = false.
Proof.
  intros HF E. pose proof (from_fails fuel h dst src dc flags cb given w x) as FF.
  destruct (sync_from_split fuel h dst src dc flags cb given w) as [(_ & _ & _ & NU)|(d & wd & _ & _ & _ & _ & ER)]; [auto|].
  rewrite ER in E. eapply nc_run_sync; [|exact E]. exact HF.
Qed.

(** ** The first exception that escapes ends the synchronisation *)
Section Stops.
  Variables (env : senv) (w0 : world) (n : nat) (x : exn).
  Hypothesis HR : raises_at (sv_hooks env) w0 n x.
  Hypothesis HX : N.testbit (sv_flags env) 0 = false \/ is_crud x = false.
  Notation lim := (made w0 + n).

  Definition wstops {A} (m : M world A) : Prop := forall w, made w <= lim ->
    let (w', r) := m w in made w' <= lim \/ (made w' = S lim /\ r = Err x).
  Definition stops {A} (m : M sstate A) : Prop := forall s, made (ss_w s) <= lim ->
    let (s', r) := m s in made (ss_w s') <= lim \/ (made (ss_w s') = S lim /\ r = Err x).

  Lemma made_event w ev : made (add_event w ev) = made w + if hookb ev then 1 else 0.
  Proof. unfold made, hook_calls. simpl. rewrite filter_app, app_length. simpl. now destruct (hookb ev). Qed.
  Lemma made_same w w' : w_trace w' = w_trace w -> made w' = made w.
  Proof. unfold made. now intros ->. Qed.
  Lemma wq_made {A} (P : event -> Prop) (m : M world A) : (forall ev, P ev -> hookb ev = false) -> wq P m -> forall w, made (fst (m w)) = made w.
  Proof.
    intros HP H w. destruct (H w) as [(evs & T & F) _]. unfold made. rewrite T, hook_calls_app, app_length.
    assert (E : hook_calls evs = []) by (clear T; induction F as [|ev evs X _ IH]; [reflexivity|]; simpl; now rewrite (HP _ X)).
    rewrite E. simpl. lia.
  Qed.
  Lemma st_bind {A B} (m : M sstate A) (k : A -> M sstate B) : stops m -> (forall a, stops (k a)) -> stops (bind m k).
  Proof.
    intros H1 H2 s L. unfold bind. specialize (H1 s L). destruct (m s) as [s1 [a|y]].
    - destruct H1 as [H1|[_ N]]; [|discriminate]. apply H2. exact H1.
    - destruct H1 as [H1|[H1 E]]; [now left|]. right. injection E as ->. auto.
  Qed.
  Lemma st_quiet {A} (m : M sstate A) : (forall s, made (ss_w (fst (m s))) = made (ss_w s)) -> stops m.
  Proof. intros H s L. specialize (H s). destruct (m s) as [s' r]. simpl in H. left. lia. Qed.
  Lemma st_ret {A} (a : A) : stops (ret a).  Proof. now apply st_quiet. Qed.
  Lemma st_get_state : stops (@get_state sstate).  Proof. now apply st_quiet. Qed.
  Lemma st_lift {A} (r : result A) : stops (lift r).  Proof. now apply st_quiet. Qed.
  Lemma st_modify f : (forall s, ss_w (f s) = ss_w s) -> stops (modify f).
  Proof. intros H. apply st_quiet. intros s. simpl. now rewrite H. Qed.
  Lemma st_slift {A} (P : event -> Prop) (m : M world A) : (forall ev, P ev -> hookb ev = false) -> wq P m -> stops (slift m).
  Proof. intros HP H. apply st_quiet. intros s. simpl. eapply wq_made; eauto. Qed.
  Lemma st_call {A} (m : M world A) : wstops m -> stops (slift m).
  Proof. intros H s L. specialize (H (ss_w s) L). unfold slift. destruct (m (ss_w s)) as [w' r]. exact H. Qed.

  Definition noev (ev : event) : Prop := False.
  Lemma noev_hook ev : noev ev -> hookb ev = false.  Proof. intros []. Qed.
  Lemma wq_mutate r f : (forall o y, snd (f o) = Err y -> is_crud y = false) -> wq noev (mutate r f).
  Proof.
    intros H. unfold mutate. apply wq_bind; [apply wq_hget|]. intros o. apply wq_bind; [apply wq_hset|]. intros _. apply wq_lift.
    intros y E. now apply (H o).
  Qed.
  (* what follows the record of a call: if nothing is recorded, the count is what it was plus one *)
  Lemma ws_bind_quiet {A B} (m : M world A) (k : A -> M world B) : (forall w, made (fst (m w)) = made w) -> (forall a, wstops (k a)) -> wstops (bind m k).
  Proof.
    intros H1 H2 w L. unfold bind. specialize (H1 w). destruct (m w) as [w1 [a|y]]; simpl in H1.
    - apply H2. lia.
    - left. lia.
  Qed.
  Lemma ws_tail {A} (m : M world A) w ev : hookb ev = true -> (forall w1, made (fst (m w1)) = made w1) -> made w < lim ->
    let (w', r) := m (add_event w ev) in made w' <= lim \/ (made w' = S lim /\ r = Err x).
  Proof.
    intros H1 H2 L. specialize (H2 (add_event w ev)). rewrite made_event, H1 in H2. destruct (m _) as [w' r]. simpl in H2. left. lia.
  Qed.
  Lemma made_halloc o w : made (fst (halloc o w)) = made w.  Proof. reflexivity. Qed.
  Lemma made_bind {A B} (m : M world A) (k : A -> M world B) : (forall w, made (fst (m w)) = made w) ->
    (forall a w, made (fst (k a w)) = made w) -> forall w, made (fst (bind m k w)) = made w.
  Proof. intros H1 H2 w. unfold bind. specialize (H1 w). destruct (m w) as [w1 [a|y]]; simpl in *; [now rewrite H2|exact H1]. Qed.
  Lemma made_mutate r f w : made (fst (mutate r f w)) = made w.
  Proof. unfold mutate. apply made_bind; [intros w1; unfold hget; now destruct nth_error|]. intros o w1. apply made_bind; reflexivity. Qed.
  Lemma made_end (o : hook_end) (y : option ref) w :
    made (fst (match o with HReturn => ret y | HReturnNone => ret None | HRaise e => raise e end w)) = made w.
  Proof. now destruct o. Qed.

  Lemma ws_create c ids attrs : wstops (call_create env c ids attrs).
  Proof.
    intros w L. unfold call_create, bind at 1, get_state. cbv zeta. unfold bind at 1. unfold emit, modify.
    destruct (Nat.eq_dec (made w) lim) as [E|NE].
    - destruct (HR w (HCreate c ids attrs) E) as [-> ->]. unfold bind, ret, raise. right. rewrite made_event. simpl. split; [lia|reflexivity].
    - apply ws_tail; [reflexivity| |lia]. apply made_bind; [|intros; apply made_end].
      destruct (ho_base _); [|reflexivity]. apply made_bind; [reflexivity|]. intros o w1. apply made_bind; reflexivity.
  Qed.
  Lemma ws_update r attrs : wstops (call_update env r attrs).
  Proof.
    intros w L. unfold call_update, bind at 1, get_state. cbv zeta. unfold bind at 1. unfold hget at 1.
    destruct (nth_error (w_heap w) r) as [o|] eqn:EO; [|left; exact L]. unfold bind at 1. unfold emit, modify.
    destruct (Nat.eq_dec (made w) lim) as [E|NE].
    - destruct (HR w (HUpdate r attrs) E) as [-> ->]. unfold bind, ret, raise, mutate, hget, hset, bind, lift, modify. simpl. rewrite EO. right. 
      split; [|reflexivity]. transitivity (made (add_event w (EvHook AUpdate (get_type o) (get_identifiers o) attrs))); [reflexivity|]. rewrite made_event. simpl. lia.
    - apply ws_tail; [reflexivity| |lia]. apply made_bind; [destruct (ho_base _); [intros; apply made_mutate|reflexivity]|]. intros _.
      apply made_bind; [intros; apply made_mutate|]. intros; apply made_end.
  Qed.
  Lemma ws_delete r : wstops (call_delete env r).
  Proof.
    intros w L. unfold call_delete, bind at 1, get_state. cbv zeta. unfold bind at 1. unfold hget at 1.
    destruct (nth_error (w_heap w) r) as [o|] eqn:EO; [|left; exact L]. unfold bind at 1. unfold emit, modify.
    destruct (Nat.eq_dec (made w) lim) as [E|NE].
    - destruct (HR w (HDelete r) E) as [-> ->]. unfold bind, ret, raise, mutate, hget, hset, bind, lift, modify. simpl. rewrite EO. right. 
      split; [|reflexivity]. transitivity (made (add_event w (EvHook ADelete (get_type o) (get_identifiers o) []))); [reflexivity|]. rewrite made_event. simpl. lia.
    - apply ws_tail; [reflexivity| |lia]. apply made_bind; [destruct (ho_base _); [intros; apply made_mutate|reflexivity]|]. intros _.
      apply made_bind; [intros; apply made_mutate|]. intros; apply made_end.
  Qed.

  Lemma slog_made l st m s : made (ss_w (fst (slog l st m s))) = made (ss_w s).
  Proof.
    transitivity (made (add_event (ss_w s) (EvLog l (ss_ctx s) st m))); [reflexivity|]. rewrite made_event. simpl. lia.
  Qed.
  Lemma status_made a st m s : made (ss_w (fst (log_sync_status env a st m s))) = made (ss_w s).
  Proof. unfold log_sync_status. destruct a; [destruct st; apply slog_made|]. destruct (has_flag _ _); [apply slog_made|reflexivity]. Qed.
  Lemma st_status a st m : stops (log_sync_status env a st m).
  Proof. apply st_quiet. intros s. apply status_made. Qed.
  Lemma st_raise {A} y : stops (@raise sstate A y).  Proof. now apply st_quiet. Qed.
  Lemma st_hget r : stops (slift (hget r)).
  Proof. eapply st_slift; [exact noev_hook|apply wq_hget]. Qed.
  Lemma st_try dm ids attrs : stops (sync_model_try env dm ids attrs).
  Proof.
    unfold sync_model_try. apply st_bind; [apply st_get_state|]. intros s. apply st_bind.
    - destruct (ss_action s) as [[]|]; [destruct dm, (ss_class s)|destruct dm|destruct dm|]; try apply st_raise; apply st_call.
      + apply ws_create.
      + apply ws_update.
      + apply ws_delete.
    - intros [r|]; [|apply st_ret]. apply st_bind; [apply st_hget|]. intros o. apply st_ret.
  Qed.
  Lemma st_sync_model dm ids attrs : stops (sync_model env dm ids attrs).
  Proof.
    unfold sync_model. apply st_bind; [apply st_get_state|]. intros s. destruct (ss_action s) as [a|].
    - apply st_bind.
      + intros s1 L. unfold try_catch.
        assert (H : stops (bind (sync_model_try env dm ids attrs) (fun r => ret (Some r)))) by (apply st_bind; [apply st_try|intros; apply st_ret]).
        specialize (H s1 L). destruct (bind _ _ s1) as [s2 [r|y]]; [destruct H as [H|[_ N]]; [now left|discriminate]|].
        destruct (is_crud y) eqn:C.
        * unfold bind at 1. pose proof (status_made (Some a) StError (exn_msg y) s2) as SM.
          destruct (log_sync_status env (Some a) StError (exn_msg y) s2) as [s3 [u|z]] eqn:EL; cbn [fst] in SM.
          -- destruct H as [H|[H E]].
             ++ destruct (has_flag _ _); simpl; left; lia.
             ++ injection E as ->. destruct HX as [HX'|HX']; [|congruence]. rewrite continue_bit, HX'. simpl. right. split; [lia|reflexivity].
          -- exfalso. revert EL. unfold log_sync_status, slog, bind, get_state, slift. simpl. discriminate.
        * destruct H as [H|[H E]]; [now left|]. right. split; [exact H|]. now injection E as ->.
      + intros [[m [st msg]]|]; [|apply st_ret]. apply st_bind; [apply st_status|intros; apply st_ret].
    - apply st_bind; [apply st_status|intros; apply st_ret].
  Qed.
  Lemma st_run_kids kids : (forall k p, In k kids -> stops (k p)) -> forall p b, stops (run_kids kids p b).
  Proof.
    induction kids as [|k kids IH]; intros H p b; cbn [run_kids]; [apply st_ret|]. apply st_bind; [apply H; now left|].
    intros b1. apply IH. intros k' p' I. apply H. now right.
  Qed.
  Lemma st_body e parent kids : (forall k p, In k kids -> stops (k p)) -> stops (sync_body env e parent kids).
  Proof.
    intros HK. unfold sync_body. apply st_bind; [eapply st_slift; [exact noev_hook|apply wq_adapter]|]. intros ad. apply st_bind; [apply st_lift|].
    intros c. apply st_bind; [now apply st_modify|]. intros _. apply st_bind; [apply st_lift|]. intros u.
    apply st_bind; [now apply st_modify|]. intros _. cbv zeta. apply st_bind; [eapply st_slift; [exact noev_hook|apply wq_or_none]|]. intros _.
    apply st_bind; [eapply st_slift; [exact noev_hook|apply wq_dst_model]|]. intros dm.
    assert (MF : forall f, stops (slift (model_flag dm f))).
    { intros f. destruct dm; simpl; [|apply st_quiet; reflexivity]. eapply st_slift; [exact noev_hook|]. apply wq_bind; [apply wq_hget|]. intros o. apply wq_ret. }
    apply st_bind; [apply MF|]. intros natural. apply st_bind; [apply MF|]. intros skip. apply st_bind; [apply st_get_state|]. intros s.
    apply st_bind; [destruct (_ && _ && _); [now apply st_run_kids|apply st_ret]|]. intros _.
    apply st_bind; [apply st_sync_model|]. intros cm. destruct (snd cm) as [r|].
    - apply st_bind; [apply st_get_state|]. intros s1. apply st_bind.
      + eapply st_slift; [|apply wq_apply]. intros ev (_ & _ & ->). reflexivity.
      + intros [|]; [apply st_ret|]. apply st_bind.
        { apply st_quiet. intros s2. unfold incr_elements_processed. simpl. destruct (sv_cb env); [rewrite made_event; simpl; lia|reflexivity]. }
        intros _. destruct (_ || _); [now apply st_run_kids|apply st_ret].
    - apply st_bind; [apply st_quiet; intros; apply slog_made|]. intros _. apply st_ret.
  Qed.
  Lemma st_elem ord : forall e p, stops (sync_elem ord env e p).
  Proof.
    induction e as [e IH] using elem_ind'. intros p. rewrite sync_elem_eq. apply st_body. intros k q Hk.
    apply ordered_sync in Hk as (y & Hx & ->). apply In_children in Hx as (t & g & m & I1 & I2). eauto.
  Qed.
  Lemma run_sync_stops d w : made w = made w0 ->
    let (w', r) := run_sync env d w in made w' <= lim \/ (made w' = S lim /\ r = Err x).
  Proof.
    intros E. unfold run_sync, bind.
    assert (P : stops (perform_sync env d)).
    { apply st_run_kids. intros k p Hk. apply ordered_sync in Hk as (y & _ & ->). apply st_elem. }
    specialize (P (mkSS w 0 None None None)). cbn [ss_w] in P. assert (L : made w <= lim) by lia. specialize (P L).
    destruct (perform_sync env d (mkSS w 0 None None None)) as [s' [b|y]]; cbn [fst snd].
    - destruct P as [P|[_ N]]; [|discriminate]. destruct b; left; [|exact P]. transitivity (made (add_event (ss_w s') (EvSyncComplete (sv_src env) (sv_dst env)))); [apply Nat.eq_le_incl; reflexivity|]. rewrite made_event; simpl; lia.
    - destruct P as [P|[P N]]; [now left|]. right. injection N as ->. auto.
  Qed.
End Stops.
Lemma run_sync_fails env d w w' y : run_sync env d w = (w', Err y) ->
  w' = ss_w (fst (perform_sync env d (mkSS w 0 None None None))).
Proof.
  unfold run_sync, bind. destruct (perform_sync env d (mkSS w 0 None None None)) as [s' [b|z]]; cbn [fst snd]; [|now intros [= <- <-]].
  destruct b; discriminate.
Qed.

(** ** sync_complete is called by nothing but sync_from itself *)
Section Adds.
  Variable env : senv.
  Definition fair (ev : event) : Prop := completeb ev = false.
  Definition adds {A} (m : M sstate A) : Prop := forall s, exists evs, w_trace (ss_w (fst (m s))) = w_trace (ss_w s) ++ evs /\ Forall fair evs.
  Definition wadds {A} (m : M world A) : Prop := forall w, exists evs, w_trace (fst (m w)) = w_trace w ++ evs /\ Forall fair evs.
  Lemma ad_bind {A B} (m : M sstate A) (k : A -> M sstate B) : adds m -> (forall a, adds (k a)) -> adds (bind m k).
  Proof.
    intros H1 H2 s. unfold bind. destruct (H1 s) as (e1 & T1 & F1). destruct (m s) as [s1 [a|y]]; cbn [fst] in *; [|eauto].
    destruct (H2 a s1) as (e2 & T2 & F2). exists (e1 ++ e2). rewrite T2, T1, app_assoc. split; [reflexivity|now apply Forall_app].
  Qed.
  Lemma wa_bind {A B} (m : M world A) (k : A -> M world B) : wadds m -> (forall a, wadds (k a)) -> wadds (bind m k).
  Proof.
    intros H1 H2 s. unfold bind. destruct (H1 s) as (e1 & T1 & F1). destruct (m s) as [s1 [a|y]]; cbn [fst] in *; [|eauto].
    destruct (H2 a s1) as (e2 & T2 & F2). exists (e1 ++ e2). rewrite T2, T1, app_assoc. split; [reflexivity|now apply Forall_app].
  Qed.
  Lemma ad_same {A} (m : M sstate A) : (forall s, w_trace (ss_w (fst (m s))) = w_trace (ss_w s)) -> adds m.
  Proof. intros H s. exists []. rewrite app_nil_r. auto. Qed.
  Lemma wa_same {A} (m : M world A) : (forall w, w_trace (fst (m w)) = w_trace w) -> wadds m.
  Proof. intros H s. exists []. rewrite app_nil_r. auto. Qed.
  Lemma ad_slift {A} (m : M world A) : wadds m -> adds (slift m).
  Proof. intros H s. exact (H (ss_w s)). Qed.
  Lemma wa_wq {A} (P : event -> Prop) (m : M world A) : (forall ev, P ev -> fair ev) -> wq P m -> wadds m.
  Proof. intros HP H w. destruct (H w) as [(evs & T & F) _]. exists evs. split; [exact T|]. eapply Forall_impl; eauto. Qed.
  Lemma wa_emit ev : fair ev -> wadds (emit ev).
  Proof. intros F w. exists [ev]. split; [reflexivity|auto]. Qed.
  Lemma ad_slog l st m : adds (slog l st m).
  Proof. unfold slog. apply ad_bind; [now apply ad_same|]. intros s. apply ad_slift, wa_emit. reflexivity. Qed.
  Lemma ad_status a st m : adds (log_sync_status env a st m).
  Proof. unfold log_sync_status. destruct a; [destruct st; apply ad_slog|]. destruct (has_flag _ _); [apply ad_slog|now apply ad_same]. Qed.
  Lemma wa_hget r : wadds (hget r).
  Proof. apply wa_same. intros w. unfold hget. now destruct nth_error. Qed.
  Lemma wa_mutate r f : wadds (mutate r f).
  Proof. unfold mutate. apply wa_bind; [apply wa_hget|]. intros o. apply wa_bind; intros; now apply wa_same. Qed.
  Lemma wa_end (o : hook_end) (y : option ref) : wadds (match o with HReturn => ret y | HReturnNone => ret None | HRaise e => raise e end).
  Proof. now destruct o; apply wa_same. Qed.
  Lemma wa_create c ids attrs : wadds (call_create env c ids attrs).
  Proof.
    unfold call_create. apply wa_bind; [now apply wa_same|]. intros w. cbv zeta. apply wa_bind; [now apply wa_emit|]. intros _.
    apply wa_bind; [|intros; apply wa_end]. destruct (ho_base _); [|now apply wa_same]. apply wa_bind; [now apply wa_same|]. intros o.
    apply wa_bind; intros; now apply wa_same.
  Qed.
  Lemma wa_update r attrs : wadds (call_update env r attrs).
  Proof.
    unfold call_update. apply wa_bind; [now apply wa_same|]. intros w. cbv zeta. apply wa_bind; [apply wa_hget|]. intros o.
    apply wa_bind; [now apply wa_emit|]. intros _. apply wa_bind; [destruct (ho_base _); [apply wa_mutate|now apply wa_same]|]. intros _.
    apply wa_bind; [apply wa_mutate|intros; apply wa_end].
  Qed.
  Lemma wa_delete r : wadds (call_delete env r).
  Proof.
    unfold call_delete. apply wa_bind; [now apply wa_same|]. intros w. cbv zeta. apply wa_bind; [apply wa_hget|]. intros o.
    apply wa_bind; [now apply wa_emit|]. intros _. apply wa_bind; [destruct (ho_base _); [apply wa_mutate|now apply wa_same]|]. intros _.
    apply wa_bind; [apply wa_mutate|intros; apply wa_end].
  Qed.
  Lemma ad_try dm ids attrs : adds (sync_model_try env dm ids attrs).
  Proof.
    unfold sync_model_try. apply ad_bind; [now apply ad_same|]. intros s. apply ad_bind.
    - destruct (ss_action s) as [[]|]; [destruct dm, (ss_class s)|destruct dm|destruct dm|]; try (now apply ad_same); apply ad_slift.
      + apply wa_create.
      + apply wa_update.
      + apply wa_delete.
    - intros [r|]; [|now apply ad_same]. apply ad_bind; [apply ad_slift, wa_hget|]. intros o. now apply ad_same.
  Qed.
  Lemma ad_sync_model dm ids attrs : adds (sync_model env dm ids attrs).
  Proof.
    unfold sync_model. apply ad_bind; [now apply ad_same|]. intros s. destruct (ss_action s) as [a|].
    - apply ad_bind.
      + intros s1. unfold try_catch.
        assert (H : adds (bind (sync_model_try env dm ids attrs) (fun r => ret (Some r)))) by (apply ad_bind; [apply ad_try|intros; now apply ad_same]).
        destruct (H s1) as (e1 & T1 & F1). destruct (bind _ _ s1) as [s2 [r|y]]; cbn [fst] in *; [eauto|].
        destruct (is_crud y); [|eauto].
        assert (K : adds (bind (log_sync_status env (Some a) StError (exn_msg y)) (fun _ => if has_flag (sv_flags env) SF_CONTINUE_ON_FAILURE then ret None else raise y) : M sstate (option (option ref * (status * string))))).
        { apply ad_bind; [apply ad_status|]. intros _. destruct (has_flag _ _); now apply ad_same. }
        destruct (K s2) as (e2 & T2 & F2). exists (e1 ++ e2). split; [|now apply Forall_app]. rewrite app_assoc, <- T1. exact T2.
      + intros [[m [st msg]]|]; [|now apply ad_same]. apply ad_bind; [apply ad_status|intros; now apply ad_same].
    - apply ad_bind; [apply ad_status|intros; now apply ad_same].
  Qed.
  Lemma ad_run_kids kids : (forall k p, In k kids -> adds (k p)) -> forall p b, adds (run_kids kids p b).
  Proof.
    induction kids as [|k kids IH]; intros H p b; cbn [run_kids]; [now apply ad_same|]. apply ad_bind; [apply H; now left|].
    intros b1. apply IH. intros k' p' I. apply H. now right.
  Qed.
  Lemma noev_fair ev : noev ev -> fair ev.  Proof. intros []. Qed.
  Lemma ad_body e parent kids : (forall k p, In k kids -> adds (k p)) -> adds (sync_body env e parent kids).
  Proof.
    intros HK. unfold sync_body. apply ad_bind; [eapply ad_slift, wa_wq; [exact noev_fair|apply wq_adapter]|]. intros ad. apply ad_bind; [now apply ad_same|].
    intros c. apply ad_bind; [now apply ad_same|]. intros _. apply ad_bind; [now apply ad_same|]. intros u.
    apply ad_bind; [now apply ad_same|]. intros _. cbv zeta. apply ad_bind; [eapply ad_slift, wa_wq; [exact noev_fair|apply wq_or_none]|]. intros _.
    apply ad_bind; [eapply ad_slift, wa_wq; [exact noev_fair|apply wq_dst_model]|]. intros dm.
    assert (MF : forall f, adds (slift (model_flag dm f))).
    { intros f. destruct dm; simpl; [|now apply ad_same]. eapply ad_slift, wa_wq; [exact noev_fair|]. apply wq_bind; [apply wq_hget|]. intros o. apply wq_ret. }
    apply ad_bind; [apply MF|]. intros natural. apply ad_bind; [apply MF|]. intros skip. apply ad_bind; [now apply ad_same|]. intros s.
    apply ad_bind; [destruct (_ && _ && _); [now apply ad_run_kids|now apply ad_same]|]. intros _.
    apply ad_bind; [apply ad_sync_model|]. intros cm. destruct (snd cm) as [r|].
    - apply ad_bind; [now apply ad_same|]. intros s1. apply ad_bind.
      + eapply ad_slift, wa_wq; [|apply wq_apply]. intros ev (_ & _ & ->). reflexivity.
      + intros [|]; [now apply ad_same|]. apply ad_bind.
        { intros s2. unfold incr_elements_processed. simpl. destruct (sv_cb env).
          - exists [EvCallback "sync" (S (ss_n s2)) (sv_total env)]. split; [reflexivity|repeat constructor].
          - exists []. rewrite app_nil_r. split; [reflexivity|constructor]. }
        intros _. destruct (_ || _); [now apply ad_run_kids|now apply ad_same].
    - apply ad_bind; [apply ad_slog|]. intros _. now apply ad_same.
  Qed.
  Lemma ad_elem ord : forall e p, adds (sync_elem ord env e p).
  Proof.
    induction e as [e IH] using elem_ind'. intros p. rewrite sync_elem_eq. apply ad_body. intros k q Hk.
    apply ordered_sync in Hk as (y & Hx & ->). apply In_children in Hx as (t & g & m & I1 & I2). eauto.
  Qed.
  Lemma ad_perform d : adds (perform_sync env d).
  Proof. apply ad_run_kids. intros k p Hk. apply ordered_sync in Hk as (y & _ & ->). apply ad_elem. Qed.
End Adds.

(** ** Whole calls *)
Lemma from_stops fuel h dst src dc flags cb given w n x :
  raises_at h w n x -> N.testbit flags 0 = false \/ is_crud x = false ->
  let (w', r) := sync_from fuel h dst src dc flags cb given w in
  made w' <= made w + n \/
  (made w' = S (made w + n) /\ r = Err x).
Proof.
  intros HR HX. pose proof (sync_from_split fuel h dst src dc flags cb given w) as S. cbv zeta in S.
  assert (CB : forall w', (exists evs, w_trace w' = w_trace w ++ evs /\ Forall is_callback evs) -> made w' = made w).
  { intros w' (evs & T & F). unfold made. rewrite T, hook_calls_app, app_length.
    assert (E : hook_calls evs = []) by (clear T; induction F as [|ev evs X _ IH]; [reflexivity|]; simpl; destruct X as (c & t & ->); exact IH).
    rewrite E. simpl. lia. }
  destruct S as [(_ & T & _)|(d & wd & _ & _ & _ & T & E)].
  - apply CB in T. destruct (sync_from _ _ _ _ _ _ _ _ _) as [w' r]. cbn [fst] in T. left. lia.
  - rewrite E. apply (run_sync_stops (mkSEnv src dst flags (diff_len d) cb h fuel) w n x HR HX). now apply CB.
Qed.
Lemma from_no_complete fuel h dst src dc flags cb given w :
  let (w', r) := sync_from fuel h dst src dc flags cb given w in
  exists evs, match r with
  | Ok d => exists b, w_trace w' = w_trace w ++ evs ++ closing src dst b
  | Err _ => w_trace w' = w_trace w ++ evs
  end /\ Forall (fun ev => completeb ev = false) evs.
Proof.
  pose proof (sync_from_split fuel h dst src dc flags cb given w) as S. cbv zeta in S.
  assert (CB : forall evs, Forall is_callback evs -> Forall (fun ev => completeb ev = false) evs).
  { intros evs F. eapply Forall_impl; [|exact F]. intros ev (c & t & ->). reflexivity. }
  destruct S as [(_ & (pre & T & F) & (x & E) & _)|(d & wd & _ & _ & _ & (pre & T & F) & E)].
  - destruct (sync_from _ _ _ _ _ _ _ _ _) as [w' r]. cbn [fst snd] in *. subst r. exists pre. auto.
  - rewrite E. unfold run_sync, bind. destruct (ad_perform (mkSEnv src dst flags (diff_len d) cb h fuel) d (mkSS wd 0 None None None)) as (evs & T2 & F2).
    destruct (perform_sync _ d _) as [s' [b|y]]; cbn [fst snd] in *; cbn [ss_w] in T2.
    + destruct b; cbn; exists (pre ++ evs).
      * split; [|apply Forall_app; auto]. exists true. rewrite T2, T, <- !app_assoc. reflexivity.
      * split; [|apply Forall_app; auto]. exists false. rewrite T2, T, <- !app_assoc. simpl. now rewrite app_nil_r.
    + exists (pre ++ evs). split; [rewrite T2, T; symmetry; apply app_assoc|apply Forall_app; auto].
Qed.
Lemma from_contained_list fuel h dst src dc flags cb given w x : N.testbit flags 0 = true ->
  snd (sync_from fuel h dst src dc flags cb given w) = Err x -> ~ crud_exception x.
Proof. intros F E. apply not_crud_list. eapply from_contained; eauto. Qed.
Lemma from_stops_list fuel h dst src dc flags cb given w n x :
  raises_at h w n x -> N.testbit flags 0 = false \/ ~ crud_exception x ->
  let (w', r) := sync_from fuel h dst src dc flags cb given w in
  made w' <= made w + n \/
  (made w' = S (made w + n) /\ r = Err x).
Proof. intros HR [F|F]; apply from_stops; auto. right. now apply not_crud_list. Qed.
