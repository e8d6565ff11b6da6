(** * WideKeep: user code that keeps to the destination; the syncer of SyncerDefs as an instance. *)
From Verif Require Export WideLog.
From Verif Require Import FaithFacts DiffFacts SyncMaster SyncFacts StoreFacts RunFacts SyncFrom CourseFrom.
From Coq Require Import Lia.

Lemma only_apart w0 dst w : only_dst w0 dst w <-> apart w0 dst w.
Proof.
  split; intros [A1 A2 A3 A4 A5 A6]; constructor; auto.
  - intros k N. apply A6. intros ad sid m u E1 E2 ->. apply N. now exists ad, sid, m, u.
  - intros k N. apply A6. intros (ad & sid & m & u & E1 & E2 & ->). exact (N ad sid m u E1 E2 eq_refl).
Qed.

Section Keep.
  Variables (w0 : world) (ord : order_fn) (env : senv) (U : user).
  Notation dst := (sv_dst env).
  Hypothesis HU : keeps_to_dst w0 dst U.
  Notation mine := (mine w0 dst).
  Notation mine_opt := (mine_opt w0 dst).

  Definition wk {A} (m : M wstate A) (Q : A -> Prop) : Prop :=
    forall s, apart w0 dst (ss_w (ws_s s)) -> apart w0 dst (ss_w (ws_s (fst (m s)))) /\ forall a, snd (m s) = Ok a -> Q a.
  Lemma wk_bind {A B} (m : M wstate A) (k : A -> M wstate B) (Q : A -> Prop) (Q' : B -> Prop) : wk m Q -> (forall a, Q a -> wk (k a) Q') -> wk (bind m k) Q'.
  Proof.
    intros H1 H2 s HA. unfold bind. specialize (H1 s HA). destruct (m s) as [s1 [a|e]]; cbn in H1; destruct H1 as (H1 & H3).
    - exact (H2 a (H3 a eq_refl) s1 H1).
    - split; [exact H1|discriminate].
  Qed.
  Lemma wk_ret {A} (a : A) (Q : A -> Prop) : Q a -> wk (ret a) Q.
  Proof. intros H s HA. split; [exact HA|]. intros b [= <-]. exact H. Qed.
  Lemma wk_raise {A} x (Q : A -> Prop) : wk (raise x) Q.
  Proof. intros s HA. split; [exact HA|discriminate]. Qed.
  Lemma wk_weaken {A} (m : M wstate A) (Q Q' : A -> Prop) : wk m Q -> (forall a, Q a -> Q' a) -> wk m Q'.
  Proof. intros H1 H2 s HA. destruct (H1 s HA) as (X & Y). split; [exact X|]. intros a E. apply H2, Y, E. Qed.
  Lemma wk_lift {A} (m : M world A) (Q : A -> Prop) : kp w0 dst m Q -> wk (ulift (slift m)) Q.
  Proof. intros H s HA. exact (H _ HA). Qed.
  Lemma wk_pure {A} (m : M sstate A) : (forall s, ss_w (fst (m s)) = ss_w s) -> wk (ulift m) (fun _ => True).
  Proof. intros H s HA. cbn. rewrite H. now split. Qed.
  Lemma wk_catch {A} (m : M wstate A) p h (Q : A -> Prop) : wk m Q -> (forall x, wk (h x) Q) -> wk (try_catch m p h) Q.
  Proof.
    intros H1 H2 s HA. unfold try_catch. specialize (H1 s HA). destruct (m s) as [s1 [a|x]]; [exact H1|]. destruct (p x); [exact (H2 x s1 (proj1 H1))|]. split; [exact (proj1 H1)|discriminate].
  Qed.
  Lemma wk_call c : (forall r, In r (refs_of c) -> mine r) -> wk (call_user U c) mine_opt.
  Proof.
    intros H s HA. cbn. destruct (HU c (ss_w (ws_s s)) (proj2 (only_apart _ _ _) HA) H) as (X & Y). split; [apply only_apart, X|]. intros a E r ->. now apply Y.
  Qed.
  Lemma wk_slog lv st msg : wk (ulift (slog lv st msg)) (fun _ => True).
  Proof. intros s HA. split; [|auto]. cbn. eapply apart_ro; [exact HA|]. apply read_only_event. Qed.
  Lemma wk_status a st msg : wk (ulift (log_sync_status env a st msg)) (fun _ => True).
  Proof. unfold log_sync_status. destruct a; [destruct st; apply wk_slog|]. destruct (has_flag _ _); [apply wk_slog|]. now apply wk_pure. Qed.
  Lemma wk_ubind {A B} (m : M sstate A) (k : A -> M sstate B) Q Q' : wk (ulift m) Q -> (forall a, Q a -> wk (ulift (k a)) Q') -> wk (ulift (bind m k)) Q'.
  Proof.
    intros H1 H2 s HA. specialize (H1 s HA). unfold ulift, bind in *. cbn in *. destruct (m (ws_s s)) as [s1 [a|x]]; cbn in *; destruct H1 as (H1 & H3); [|split; [exact H1|discriminate]].
    exact (H2 a (H3 a eq_refl) (mkWS s1 (ws_log s)) H1).
  Qed.
  Lemma wk_start e : wk (ulift (wide_start env e)) (fun st => mine_opt (fst st)).
  Proof.
    unfold wide_start. eapply wk_ubind; [apply wk_lift, kp_adapter|]. intros ad _.
    apply wk_ubind with (Q := fun _ => True); [now apply wk_pure|]. intros c _. apply wk_ubind with (Q := fun _ => True); [now apply wk_pure|]. intros _ _.
    apply wk_ubind with (Q := fun _ => True); [now apply wk_pure|]. intros u _. apply wk_ubind with (Q := fun _ => True); [now apply wk_pure|]. intros _ _.
    apply wk_ubind with (Q := fun _ => True).
    { apply wk_lift, kp_ro; [intros w; apply ro_get_or_none|auto]. }
    intros _ _. eapply wk_ubind; [apply wk_lift, (kp_dst_model w0 dst env); reflexivity|]. intros dm Hdm.
    apply wk_ubind with (Q := fun _ => True). { apply wk_lift. unfold model_flag. destruct dm; [|now apply kp_ret]. eapply kp_bind; [apply kp_hget|]. intros o _. now apply kp_ret. }
    intros b _. apply wk_ubind with (Q := fun _ => True). { apply wk_lift. unfold model_flag. destruct dm; [|now apply kp_ret]. eapply kp_bind; [apply kp_hget|]. intros o _. now apply kp_ret. }
    intros b' _. intros s HA. cbn. split; [exact HA|]. intros a [= <-]. exact Hdm.
  Qed.
  Lemma wk_get : wk (ulift get_state) (fun _ => True).
  Proof. now apply wk_pure. Qed.
  Lemma wk_try dm ids attrs : mine_opt dm -> wk (wide_try U dm ids attrs) (fun x => mine_opt (fst x)).
  Proof.
    intros H. unfold wide_try. eapply wk_bind; [apply wk_get|]. intros s _. apply wk_bind with (Q := mine_opt).
    - destruct (ss_action s) as [[]|]; [| | |apply wk_raise].
      + destruct dm; [apply wk_raise|]. destruct (ss_class s); [|apply wk_raise]. apply wk_call. intros r [].
      + destruct dm as [r|]; [|apply wk_raise]. apply wk_call. intros r' [<-|[]]. now apply H.
      + destruct dm as [r|]; [|apply wk_raise]. apply wk_call. intros r' [<-|[]]. now apply H.
    - intros [r|] Hr; [|apply wk_ret, mine_none]. eapply wk_bind; [apply wk_lift, kp_hget|]. intros o _. apply wk_ret. exact Hr.
  Qed.
  Lemma wk_model dm ids attrs : mine_opt dm -> wk (wide_model env U dm ids attrs) (fun x => mine_opt (snd x)).
  Proof.
    intros H. unfold wide_model. eapply wk_bind; [apply wk_get|]. intros s _. destruct (ss_action s) as [a|].
    - apply wk_bind with (Q := fun x => match x with Some y => mine_opt (fst y) | None => True end).
      + apply wk_catch.
        * eapply wk_bind; [now apply wk_try|]. intros x Hx. now apply wk_ret.
        * intros x. eapply wk_bind; [apply wk_status|]. intros _ _. destruct (has_flag _ _); [now apply wk_ret|apply wk_raise].
      + intros [[m [st msg]]|] Hm; [|apply wk_ret, mine_none]. eapply wk_bind; [apply wk_status|]. intros _ _. now apply wk_ret.
    - eapply wk_bind; [apply wk_status|]. intros _ _. now apply wk_ret.
  Qed.
  Lemma wk_incr : wk (wide_incr env U) (fun _ => True).
  Proof.
    unfold wide_incr. apply wk_bind with (Q := fun _ => True); [now apply wk_pure|]. intros _ _. eapply wk_bind; [apply wk_get|]. intros s _.
    destruct (u_cb U); [|now apply wk_ret]. eapply wk_bind; [apply wk_call; intros r []|]. intros _ _. now apply wk_ret.
  Qed.
  Lemma wk_kids (xs : list (option ref -> M wstate bool)) p : mine_opt p -> (forall k q, In k xs -> mine_opt q -> wk (k q) (fun _ => True)) -> forall b, wk (wide_kids xs p b) (fun _ => True).
  Proof.
    intros Hp. induction xs as [|k xs IH]; intros H b; cbn [wide_kids]; [now apply wk_ret|]. eapply wk_bind; [apply H; [now left|exact Hp]|]. intros c _. apply IH. intros k' q I. apply H. now right.
  Qed.
  Lemma wk_body e p kids : mine_opt p -> (forall k q, In k kids -> mine_opt q -> wk (k q) (fun _ => True)) -> wk (wide_body env U e p kids) (fun _ => True).
  Proof.
    intros Hp HK. unfold wide_body. eapply wk_bind; [apply wk_start|]. intros [dm [nat skip]] Hdm. cbn [fst snd] in *. eapply wk_bind; [apply wk_get|]. intros s _.
    apply wk_bind with (Q := fun _ => True); [destruct (_ && _ && _)%bool; [now apply wk_kids|now apply wk_ret]|]. intros _ _.
    eapply wk_bind; [now apply wk_model|]. intros [ch [m|]] Hm; cbn [fst snd] in *.
    - eapply wk_bind; [apply wk_get|]. intros s1 _. eapply wk_bind; [apply wk_lift, (kp_apply w0 dst env); [reflexivity|exact Hp|now apply Hm]|]. intros stop _.
      destruct stop; [now apply wk_ret|]. eapply wk_bind; [apply wk_incr|]. intros _ _. eapply wk_bind; [apply wk_get|]. intros s2 _. destruct (_ || _)%bool; [now apply wk_kids|now apply wk_ret].
    - eapply wk_bind; [apply wk_slog|]. intros _ _. now apply wk_ret.
  Qed.
  Lemma wk_elem e : forall limit p, mine_opt p -> wk (wide_elem ord env U limit e p) (fun _ => True).
  Proof.
    induction e as [e IH] using elem_ind'. intros [|l] p Hp.
    - assert (E : wide_elem ord env U 0 e p = raise ExnRecursionError) by now destruct e. rewrite E. apply wk_raise.
    - assert (E : wide_elem ord env U (S l) e p = wide_body env U e p (ordered ord (wide_elem ord env U l) (e_kids e))) by now destruct e. rewrite E. clear E.
      rewrite (ordered_map ord (wide_elem ord env U l)). apply wk_body; [exact Hp|]. intros k q I Hq. apply in_map_iff in I as (x & <- & I). apply ordered_sub in I.
      apply In_children in I as (t & g & n & I1 & I2). now apply (IH t g n x I1 I2).
  Qed.
End Keep.

Lemma wk_run w0 env U limit d : keeps_to_dst w0 (sv_dst env) U -> wk w0 env (wide_run env U limit d) (fun _ => True).
Proof.
  intros HU. unfold wide_run, wide_perform. set (ord := dc_order (d_class d)). apply wk_bind with (Q := fun _ => True).
  - rewrite (ordered_map ord (wide_elem ord env U limit)). apply wk_kids; [discriminate|]. intros k q I Hq. apply in_map_iff in I as (x & <- & I). now apply wk_elem.
  - intros ch _. apply wk_bind with (Q := fun _ => True); [|intros _ _; now apply wk_ret]. destruct ch; [|now apply wk_ret].
    eapply wk_bind; [now apply wk_call|]. intros _ _. now apply wk_ret.
Qed.
Lemma wide_keeps fuel limit U dst src dc flags given w : keeps_to_dst w dst U -> only_dst w dst (fst (fst (wide_sync fuel limit U dst src dc flags given w))).
Proof.
  intros HU. destruct (wide_sync fuel limit U dst src dc flags given w) as [[w' l] r] eqn:E. cbn [fst]. apply only_apart.
  destruct (wide_split _ _ _ _ _ _ _ _ _ _ _ _ E) as [(RO & _)|(d & wd & s' & _ & RO & R & -> & _)].
  - eapply apart_ro; [apply apart_refl|exact RO].
  - pose proof (wk_run w (mkSEnv src dst flags (diff_len d) false default_hooks fuel) U limit d HU (wide_init wd)) as K. cbn [wide_init ws_s ss_w sv_dst] in K. unfold wide_init in *. rewrite R in K. apply K.
    eapply apart_ro; [apply apart_refl|exact RO].
Qed.
Lemma wide_intact fuel limit U dst src dc flags given w a : keeps_to_dst w dst U -> a <> dst -> w_ok w -> share_nothing w a dst ->
  intact w (fst (fst (wide_sync fuel limit U dst src dc flags given w))) a.
Proof. intros HU NE OK SH. apply (apart_intact _ _ a dst NE OK SH), only_apart. now apply wide_keeps. Qed.

(** ** The syncer of SyncerDefs *)
Lemma same_run src dst flags cb h fuel limit d w : no_deeper limit (d_groups d) ->
  let r := wide_run (mkSEnv src dst flags (diff_len d) false default_hooks fuel) (user_of src dst h cb) limit d (wide_init w) in
  run_sync (mkSEnv src dst flags (diff_len d) cb h fuel) d w = (ss_w (ws_s (fst r)), snd r).
Proof.
  intros ND. cbv zeta. set (ord := dc_order (d_class d)).
  assert (P : same (perform_sync (mkSEnv src dst flags (diff_len d) cb h fuel) d) (wide_perform (mkSEnv src dst flags (diff_len d) false default_hooks fuel) (user_of src dst h cb) limit d)).
  { unfold perform_sync, wide_perform. fold ord. rewrite (ordered_map ord (sync_elem ord _)), (ordered_map ord (wide_elem ord _ _ _)). apply same_kids. intros x p I.
    apply ordered_sub, In_children in I as (t & g & n & I1 & I2). apply same_elem. destruct limit as [|l]; [apply ND in I1; subst g; destruct I2|exact (ND t g n x I1 I2)]. }
  unfold run_sync, wide_run, bind. destruct (P (wide_init w)) as (P1 & P2). cbn [wide_init ws_s] in P1, P2. unfold wide_init in *.
  destruct (wide_perform _ _ limit d _) as [s1 r1]. cbn [fst snd] in P1, P2. rewrite <- P2, <- P1. destruct r1 as [[]|x]; reflexivity.
Qed.
Lemma wide_same fuel limit h dst src dc flags cb given w : (forall d, uses fuel dst src dc flags cb given w d -> no_deeper limit (d_groups d)) ->
  let r := wide_sync fuel limit (user_of src dst h cb) dst src dc flags given w in
  sync_from fuel h dst src dc flags cb given w = (fst (fst r), snd r).
Proof.
  intros ND. cbv zeta. destruct (wide_sync fuel limit (user_of src dst h cb) dst src dc flags given w) as [[w' l] r] eqn:E. cbn [fst snd].
  destruct (wide_split _ _ _ _ _ _ _ _ _ _ _ _ E) as [(_ & _ & _ & SF & _)|(d & wd & s' & US & _ & R & -> & _ & SF)].
  - exact (SF h).
  - cbn [u_cb user_of] in *. rewrite (SF h). rewrite (same_run src dst flags cb h fuel limit d wd (ND d US)), R. reflexivity.
Qed.
