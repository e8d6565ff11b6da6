(** * IdleFacts: synchronising without differences. *)
From Verif Require Export FromFacts.

Definition still_event (ev : event) : Prop := hookb ev = false /\ completeb ev = false.
Definition still (w w' : world) : Prop :=
  undisturbed w w' /\ exists evs, w_trace w' = w_trace w ++ evs /\ Forall still_event evs.

Lemma undisturbed_ro w w' : read_only w w' -> undisturbed w w'.
Proof.
  intros H. split; [|split; [apply H|apply H]]. intros r o E. exists (o_status o), (o_msg o). rewrite (read_only_nth _ _ _ _ H E).
  now destruct o.
Qed.
Lemma undisturbed_trans w1 w2 w3 : undisturbed w1 w2 -> undisturbed w2 w3 -> undisturbed w1 w3.
Proof.
  intros (A1 & A2 & A3) (B1 & B2 & B3).
  assert (RO : read_only (mkWorld [] (w_ads w1) (w_redis w1) []) (mkWorld [] (w_ads w3) (w_redis w3) [])).
  { apply read_only_trans with (mkWorld [] (w_ads w2) (w_redis w2) []); (split; [now exists []|split; assumption]). }
  split; [|split; apply RO]. intros r o E. destruct (A1 r o E) as (st & msg & E2). destruct (B1 r _ E2) as (st' & msg' & E3). exists st', msg'. rewrite E3. reflexivity.
Qed.
Lemma still_trans w1 w2 w3 : still w1 w2 -> still w2 w3 -> still w1 w3.
Proof.
  intros (A & e1 & T1 & F1) (B & e2 & T2 & F2). split; [eapply undisturbed_trans; eauto|]. exists (e1 ++ e2). rewrite T2, T1, app_assoc.
  split; [reflexivity|now apply Forall_app].
Qed.
Lemma still_refl w : still w w.
Proof. split; [apply undisturbed_ro, read_only_refl|]. exists []. rewrite app_nil_r. auto. Qed.
Lemma still_ro w w' : read_only w w' -> w_trace w' = w_trace w -> still w w'.
Proof. intros H T. split; [now apply undisturbed_ro|]. exists []. rewrite app_nil_r. auto. Qed.
Lemma still_event_add w ev : still_event ev -> still w (add_event w ev).
Proof. intros H. split; [apply undisturbed_ro, read_only_event|]. exists [ev]. auto. Qed.
Lemma still_status w r o st msg : nth_error (w_heap w) r = Some o -> still w (set_heap w (list_set (w_heap w) r (set_status o st msg))).
Proof.
  intros E. split; [|exists []; rewrite app_nil_r; auto]. split; [|split; [reflexivity|]].
  - intros r' o' E'. simpl. destruct (Nat.eq_dec r' r) as [Q|N].
    + subst r'. rewrite E in E'. injection E' as <-. rewrite (nth_list_set_eq _ _ _ _ E). eauto.
    + rewrite (nth_list_set_neq _ _ _ _ N), E'. exists (o_status o'), (o_msg o'). now destruct o'.
  - apply (read_only_refl w).
Qed.

Section Idle.
  Variable env : senv.
  Definition idle {A} (Q : A -> Prop) (m : M sstate A) : Prop := forall s, ss_action s = None ->
    let (s', r) := m s in ss_action s' = None /\ still (ss_w s) (ss_w s') /\ match r with Ok a => Q a | Err _ => True end.
  Definition any {A} (a : A) : Prop := True.
  Lemma id_bind {A B} (P : A -> Prop) (Q : B -> Prop) (m : M sstate A) (k : A -> M sstate B) :
    idle P m -> (forall a, P a -> idle Q (k a)) -> idle Q (bind m k).
  Proof.
    intros H1 H2 s E. unfold bind. specialize (H1 s E). destruct (m s) as [s1 [a|x]]; [|exact H1].
    destruct H1 as (A1 & A2 & A3). specialize (H2 a A3 s1 A1). destruct (k a s1) as [s2 r]. destruct H2 as (B1 & B2 & B3).
    split; [exact B1|]. split; [eapply still_trans; eauto|exact B3].
  Qed.
  Lemma id_ret {A} (Q : A -> Prop) a : Q a -> idle Q (ret a).
  Proof. intros H s E. simpl. split; [exact E|]. split; [apply still_refl|exact H]. Qed.
  Lemma id_lift {A} (r : result A) : idle any (lift r).
  Proof. intros s E. simpl. split; [exact E|]. split; [apply still_refl|]. destruct r; exact Logic.I. Qed.
  Lemma id_modify f : (forall s, ss_w (f s) = ss_w s) -> (forall s, ss_action s = None -> ss_action (f s) = None) -> idle any (modify f).
  Proof. intros H1 H2 s E. simpl. split; [auto|]. rewrite H1. split; [apply still_refl|exact Logic.I]. Qed.
  Lemma id_slift {A} (m : M world A) : (forall w, still w (fst (m w))) -> idle any (slift m).
  Proof. intros H s E. unfold slift. specialize (H (ss_w s)). destruct (m (ss_w s)) as [w' r]. simpl in *. split; [exact E|]. split; [exact H|]. destruct r; exact Logic.I. Qed.
  Lemma id_slog l st m : idle any (slog l st m).
  Proof.
    unfold slog. eapply id_bind with (P := any); [intros s E; simpl; split; [exact E|split; [apply still_refl|exact Logic.I]]|].
    intros s _. apply id_slift. intros w. apply still_event_add. split; reflexivity.
  Qed.
  Lemma id_run_kids kids : (forall k p, In k kids -> idle (fun b => b = false) (k p)) -> forall p, idle (fun b => b = false) (run_kids kids p false).
  Proof.
    induction kids as [|k kids IH]; intros H p; cbn [run_kids]; [now apply id_ret|]. eapply id_bind; [apply H; now left|].
    intros b ->. apply IH. intros k' p' I. apply H. now right.
  Qed.
  Lemma still_q {A} (m : M world A) : wq (fun _ => False) m -> (forall w, read_only w (fst (m w))) -> forall w, still w (fst (m w)).
  Proof.
    intros H R w. destruct (H w) as [(evs & T & F) _]. apply still_ro; [apply R|]. destruct evs as [|ev evs]; [now rewrite app_nil_r in T|].
    inversion F; contradiction.
  Qed.
  Lemma still_dst c ids w : still w (fst (get_dst_model env c ids w)).
  Proof.
    unfold get_dst_model, try_catch. unfold bind at 1.
    pose proof (still_q (st_get (sv_dst env) (MClass c) (IdDict ids)) (wq_st_get _ _ _ _) (ro_st_get _ _ _) w) as G.
    destruct (st_get (sv_dst env) (MClass c) (IdDict ids) w) as [w1 [r|x]]; cbn [fst] in G.
    - unfold mutate, bind, hget, hset, lift, modify, ret. destruct (nth_error (w_heap w1) r) as [o|] eqn:E; cbn [fst snd].
      + eapply still_trans; [exact G|]. now apply still_status.
      + destruct (is_not_found DanglingRef); exact G.
    - destruct (is_not_found x); exact G.
  Qed.
  Lemma id_body e parent kids : e_action e = None -> (forall k p, In k kids -> idle (fun b => b = false) (k p)) ->
    idle (fun b => b = false) (sync_body env e parent kids).
  Proof.
    intros HA HK. unfold sync_body. eapply id_bind with (P := any).
    { apply id_slift. intros w. unfold get_adapter. destruct (nth_error _ _); apply still_refl. }
    intros ad _. eapply id_bind; [apply id_lift|]. intros c _. eapply id_bind; [now apply id_modify|]. intros _ _.
    eapply id_bind; [apply id_lift|]. intros u _. eapply id_bind; [now apply id_modify|]. intros _ _. cbv zeta.
    eapply id_bind.
    { apply id_slift. apply still_q; [apply wq_or_none|apply ro_get_or_none]. }
    intros _ _. eapply id_bind; [apply id_slift; apply still_dst|]. intros dm _.
    assert (MF : forall f w, still w (fst (model_flag dm f w))).
    { intros f w. destruct dm; simpl; [|apply still_refl]. unfold bind, hget. destruct (nth_error _ _); apply still_refl. }
    eapply id_bind; [apply id_slift, MF|]. intros natural _. eapply id_bind; [apply id_slift, MF|]. intros skip _.
    eapply id_bind with (P := fun s => ss_action s = None); [intros s E; simpl; split; [exact E|split; [apply still_refl|exact E]]|].
    intros s ES. rewrite ES. cbn [is_delete]. rewrite andb_false_r. cbn [andb].
    eapply id_bind; [now apply id_ret with (Q := any)|]. intros _ _.
    eapply id_bind with (P := fun cm => fst cm = false).
    { unfold sync_model. eapply id_bind with (P := fun s => ss_action s = None); [intros s1 E; simpl; split; [exact E|split; [apply still_refl|exact E]]|].
      intros s1 E1. rewrite E1. eapply id_bind with (P := any); [|intros; now apply id_ret].
      unfold log_sync_status. destruct (has_flag _ _); [apply id_slog|now apply id_ret]. }
    intros [b m] E. simpl in E. subst b. cbn [fst snd]. destruct m as [r|].
    - eapply id_bind with (P := fun s => ss_action s = None); [intros s1 E; simpl; split; [exact E|split; [apply still_refl|exact E]]|].
      intros s1 E1. rewrite E1. cbn [apply_to_store]. eapply id_bind with (P := fun b => b = false); [intros s2 E2; simpl; split; [exact E2|split; [apply still_refl|reflexivity]]|].
      intros b ->. eapply id_bind with (P := any).
      + intros s2 E2. unfold incr_elements_processed. cbn. split; [exact E2|]. split; [|exact Logic.I].
        destruct (sv_cb env); [apply still_event_add; split; reflexivity|apply still_refl].
      + intros _ _. cbn [is_delete negb]. rewrite orb_true_r. now apply id_run_kids.
    - eapply id_bind; [apply id_slog|]. intros; now apply id_ret.
  Qed.
  Lemma id_elem ord gs : (forall e, occurs e gs -> e_action e = None) -> forall e, occurs e gs -> forall p, idle (fun b => b = false) (sync_elem ord env e p).
  Proof.
    intros HN. induction e as [e IH] using elem_ind'. intros O p. rewrite sync_elem_eq. apply id_body; [auto|]. intros k q Hk.
    apply ordered_sync in Hk as (y & Hx & ->). pose proof Hx as Hx'. apply In_children in Hx' as (t & g & m & I1 & I2). eapply IH; eauto.
    eapply occurs_kid; eauto.
  Qed.
  Lemma id_perform d : (forall e, occurs e (d_groups d) -> e_action e = None) -> idle (fun b => b = false) (perform_sync env d).
  Proof.
    intros HN. apply id_run_kids. intros k p Hk. apply ordered_sync in Hk as (y & Hy & ->). apply id_elem with (d_groups d); [exact HN|].
    apply In_children in Hy as (t & g & m & I1 & I2). eapply occ_here; eauto.
  Qed.
End Idle.

Lemma from_idle fuel h dst src dc flags cb given w :
  (forall d e, uses fuel dst src dc flags cb given w d -> occurs e (d_groups d) -> e_action e = None) ->
  let w' := fst (sync_from fuel h dst src dc flags cb given w) in
  undisturbed w w' /\ exists evs, w_trace w' = w_trace w ++ evs /\ forall ev, In ev evs -> hookb ev = false /\ completeb ev = false.
Proof.
  intros HN. pose proof (sync_from_split fuel h dst src dc flags cb given w) as S. cbv zeta in *.
  assert (CB : forall w', read_only w w' -> (exists evs, w_trace w' = w_trace w ++ evs /\ Forall is_callback evs) -> still w w').
  { intros w' RO (evs & T & F). split; [now apply undisturbed_ro|]. exists evs. split; [exact T|]. eapply Forall_impl; [|exact F].
    intros ev (c & t & ->). split; reflexivity. }
  assert (K : still w (fst (sync_from fuel h dst src dc flags cb given w))).
  { destruct S as [(RO & T & _)|(d & wd & U & _ & RO & T & E)]; [now apply CB|]. eapply still_trans; [apply CB; eassumption|]. rewrite E.
    unfold run_sync, bind. pose proof (id_perform (mkSEnv src dst flags (diff_len d) cb h fuel) d (fun e => HN d e U) (mkSS wd 0 None None None) eq_refl) as P.
    destruct (perform_sync _ d _) as [s' [b|y]]; destruct P as (_ & P2 & P3); cbn [fst snd]; [|exact P2]. subst b. exact P2. }
  destruct K as (K1 & evs & K2 & K3). split; [exact K1|]. exists evs. split; [exact K2|]. rewrite Forall_forall in K3. exact K3.
Qed.
