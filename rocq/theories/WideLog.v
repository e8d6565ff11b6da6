(** * WideLog: which user code a synchronisation calls. *)
From Verif Require Export WideSpec WideSame.
From Verif Require Export CallSpec.
From Verif Require Import FaithFacts DiffFacts SyncMaster SyncFacts StoreFacts RunFacts SyncFrom CourseFrom.
From Coq Require Import Lia.

Lemma numbers_app l m : numbers (l ++ m) = numbers l ++ numbers m.
Proof. unfold numbers. apply flat_map_app. Qed.
Lemma hook_log_app l m : hook_log (l ++ m) = hook_log l ++ hook_log m.
Proof. unfold hook_log. apply filter_app. Qed.

Section Log.
  Variables (ord : order_fn) (env : senv) (U : user).
  Notation dst := (sv_dst env).
  Notation fl := (sv_flags env).

  Definition ran (s s' : wstate) (l : list uentry) : Prop :=
    ws_log s' = ws_log s ++ l /\ ss_n (ws_s s) <= ss_n (ws_s s') /\
    numbers l = (if u_cb U then map (fun i => (i, sv_total env)) (seq (S (ss_n (ws_s s))) (ss_n (ws_s s') - ss_n (ws_s s))) else []) /\
    (forall u, In u l -> ue_call u <> UComplete).
  Lemma ran_refl s : ran s s [].
  Proof. split; [now rewrite app_nil_r|]. split; [lia|]. split; [rewrite Nat.sub_diag; now destruct (u_cb U)|intros u []]. Qed.
  Lemma ran_trans s1 s2 s3 l1 l2 : ran s1 s2 l1 -> ran s2 s3 l2 -> ran s1 s3 (l1 ++ l2).
  Proof.
    intros (A1 & A2 & A3 & A4) (B1 & B2 & B3 & B4). split; [now rewrite B1, A1, app_assoc|]. split; [lia|]. split.
    - rewrite numbers_app, A3, B3. destruct (u_cb U); [|reflexivity]. rewrite <- map_app. f_equal.
      replace (ss_n (ws_s s3) - ss_n (ws_s s1)) with ((ss_n (ws_s s2) - ss_n (ws_s s1)) + (ss_n (ws_s s3) - ss_n (ws_s s2))) by lia. rewrite seq_app. f_equal. f_equal. lia.
    - intros u I. apply in_app_iff in I as [I|I]; auto.
  Qed.
  Lemma ran_same s s' : ws_log s' = ws_log s -> ss_n (ws_s s') = ss_n (ws_s s) -> ran s s' [].
  Proof. intros E N. split; [now rewrite app_nil_r|]. rewrite N. split; [lia|]. split; [rewrite Nat.sub_diag; now destruct (u_cb U)|intros u []]. Qed.
  Lemma orderly_nil {A} (r : result A) : orderly fl [] r.
  Proof. now left. Qed.
  Lemma orderly_ok {A} l (a : A) : orderly fl l (Ok a) -> Forall (forgiven fl) l.
  Proof. intros [H|(l0 & u & x & _ & _ & _ & X)]; [exact H|discriminate]. Qed.
  Lemma orderly_app {A B} l1 l2 (a : A) (r : result B) : orderly fl l1 (Ok a) -> orderly fl l2 r -> orderly fl (l1 ++ l2) r.
  Proof.
    intros H1 [H2|(l0 & u & x & -> & F & E & R)]; apply orderly_ok in H1; [left; now apply Forall_app|].
    right. exists (l1 ++ l0), u, x. split; [now rewrite app_assoc|]. split; [now apply Forall_app|]. now split.
  Qed.
  Lemma orderly_err {A B} l x : orderly fl l (@Err A x) -> orderly fl l (@Err B x).
  Proof. intros [H|(l0 & u & y & L & F & E & R)]; [now left|]. right. exists l0, u, y. injection R as <-. auto. Qed.

  (** ** wide_start *)
  Lemma start_n e s : ss_n (fst (wide_start env e s)) = ss_n s.
  Proof.
    unfold wide_start, bind, slift, lift, modify, ret. cbn. destruct (get_adapter dst (ss_w s)) as [w1 [ad|x]]; [|reflexivity]. cbn.
    destruct (dget (ad_classes ad) (e_type e)); [|reflexivity]. cbn. destruct (create_unique_id c (e_keys e)); [|reflexivity]. cbn.
    destruct (ad_get_or_none _ _ _ _) as [w2 [o|x]]; [|reflexivity]. cbn. destruct (get_dst_model _ _ _ _) as [w3 [dm|x]]; [|reflexivity]. cbn.
    destruct (model_flag _ _ _) as [w4 [b|x]]; [|reflexivity]. cbn. destruct (model_flag _ _ _) as [w5 [b'|x]]; reflexivity.
  Qed.
  Lemma keeps_ro w w' : read_only w w' -> keeps_local w' dst -> keeps_local w dst.
  Proof.
    intros RO (ad' & d' & E & S). destruct (nth_error (w_ads w) dst) as [ad|] eqn:E0.
    - destruct (read_only_ad _ _ _ _ RO E0) as (s & E1 & SE). rewrite E in E1. injection E1 as ->. cbn in S. subst s. destruct (ad_store ad) as [d|i] eqn:S0; [|destruct SE]. now exists ad, d.
    - rewrite (read_only_ad_none _ _ _ RO E0) in E. discriminate.
  Qed.
  Lemma class_ro w w' e c : read_only w w' -> class_in w dst e c -> class_in w' dst e c.
  Proof. intros RO (ad & E & C). destruct (read_only_ad _ _ _ _ RO E) as (s & E1 & _). now exists (set_ad_store ad s). Qed.
  (** what is known before the hook is called *)
  Definition started (w : world) (e : elem) (c : cls) (dm : option ref) : Prop :=
    class_in w dst e c /\ exists uid, create_unique_id c (e_keys e) = Ok uid /\
      (keeps_local w dst -> lookup w dst (c_modelname c) uid = dm) /\ (dm = None -> lookup w dst (c_modelname c) uid = None).
  Lemma dst_model_is e c uid w w' dm : class_in w dst e c -> create_unique_id c (e_keys e) = Ok uid -> get_dst_model env c (e_keys e) w = (w', Ok dm) -> started w' e c dm.
  Proof.
    intros CI CU G. unfold get_dst_model, try_catch, bind in G. pose proof (ro_st_get dst (MClass c) (IdDict (e_keys e)) w) as RO.
    assert (LC : keeps_local w dst -> snd (st_get dst (MClass c) (IdDict (e_keys e)) w) = match lookup w dst (c_modelname c) uid with Some r => Ok r | None => Err ObjectNotFound end).
    { intros (ad & d & E & S). now rewrite (st_get_cases dst c (e_keys e) uid w ad d (conj E S) CU). }
    assert (NL : ~ keeps_local w dst -> forall u, lookup w dst (c_modelname c) u = None).
    { intros N u. unfold lookup. destruct (nth_error (w_ads w) dst) as [ad|] eqn:E; [|reflexivity]. destruct (ad_store ad) as [d|] eqn:S; [|reflexivity]. destruct N. now exists ad, d. }
    assert (DEC : keeps_local w dst \/ ~ keeps_local w dst).
    { unfold keeps_local. destruct (nth_error (w_ads w) dst) as [ad|]; [|right; intros (? & ? & ? & _); discriminate]. destruct (ad_store ad) as [d|i] eqn:S; [left; now exists ad, d|right; intros (? & ? & [= <-] & ?); congruence]. }
    destruct (st_get dst (MClass c) (IdDict (e_keys e)) w) as [w1 [r|x]]; cbn [fst snd] in *.
    - destruct (mutate r (fun o => (set_status o StUnknown "", Ok tt)) w1) as [w2 [[]|x]] eqn:MU; [|destruct (is_not_found x) eqn:NF; [|discriminate]].
      + injection G as <- <-. assert (W2 : w_ads w2 = w_ads w1).
        { revert MU. unfold mutate, bind, hget, hset, modify, lift. destruct (nth_error (w_heap w1) r); [|discriminate]. cbn. now intros [= <-]. }
        assert (LE : forall t u, lookup w2 dst t u = lookup w dst t u) by (intros t u; rewrite <- (read_only_lookup _ _ dst t u RO); unfold lookup; now rewrite W2).
        assert (KE : keeps_local w2 dst -> keeps_local w dst) by (intros K; apply (keeps_ro w w1 RO); unfold keeps_local in *; now rewrite <- W2).
        split; [destruct (class_ro _ _ _ _ RO CI) as (ad & E & C); exists ad; now rewrite W2|]. exists uid. split; [exact CU|]. split; [|discriminate].
        intros K. rewrite LE. specialize (LC (KE K)). destruct (lookup w dst (c_modelname c) uid); [now injection LC as <-|discriminate].
      + exfalso. revert MU. unfold mutate, bind, hget, hset, modify, lift. destruct (nth_error (w_heap w1) r); cbn; [discriminate|]. intros [= <- <-]. discriminate NF.
    - destruct (is_not_found x); [|discriminate]. injection G as <- <-. split; [exact (class_ro _ _ _ _ RO CI)|]. exists uid. split; [exact CU|].
      assert (N : lookup w1 dst (c_modelname c) uid = None).
      { rewrite (read_only_lookup _ _ dst _ _ RO). destruct DEC as [K|K]; [|exact (NL K uid)]. specialize (LC K). destruct (lookup w dst (c_modelname c) uid); [discriminate|reflexivity]. }
      split; intros; exact N.
  Qed.
  Lemma start_is e s s' st : wide_start env e s = (s', Ok st) -> ss_action s' = e_action e /\ exists c, ss_class s' = Some c /\ started (ss_w s') e c (fst st).
  Proof.
    unfold wide_start, bind, slift, lift, modify, ret. cbn. destruct (get_adapter dst (ss_w s)) as [w1 [ad|x]] eqn:GA; [|discriminate]. cbn.
    destruct (dget (ad_classes ad) (e_type e)) as [c|] eqn:C; [|discriminate]. cbn. destruct (create_unique_id c (e_keys e)) as [uid|] eqn:CU; [|discriminate]. cbn.
    assert (CI : class_in w1 dst e c) by (unfold get_adapter in GA; destruct (nth_error (w_ads (ss_w s)) dst) as [ad'|] eqn:E; [|discriminate]; injection GA as <- ->; now exists ad).
    pose proof (ro_get_or_none (sv_src env) (MClass c) (IdDict (e_keys e)) w1) as RO1.
    destruct (ad_get_or_none _ _ _ _) as [w2 [o|x]]; [|discriminate]. cbn in RO1 |- *. apply (class_ro _ _ _ _ RO1) in CI.
    destruct (get_dst_model _ _ _ _) as [w3 [dm|x]] eqn:GD; [|discriminate]. cbn. pose proof (dst_model_is e c uid w2 w3 dm CI CU GD) as ST.
    assert (MF : forall f w w' b, model_flag dm f w = (w', b) -> w' = w). { intros f w w' b. unfold model_flag, bind, hget, ret. destruct dm; [|now intros [= <- _]]. destruct (nth_error (w_heap w) r); now intros [= <- _]. }
    destruct (model_flag dm MF_NATURAL_DELETION_ORDER w3) as [w4 [b|x]] eqn:M4; [|discriminate]. cbn. apply MF in M4. subst w4.
    destruct (model_flag dm MF_SKIP_CHILDREN_ON_DELETE w3) as [w5 [b'|x]] eqn:M5; [|discriminate]. apply MF in M5. subst w5. intros [= <- <-]. cbn. split; [reflexivity|]. exists c. now split.
  Qed.

  (** ** the hook *)
  Lemma call_ran c s : hook_call c = true -> ran s (fst (call_user U c s)) [mkUE (ss_w (ws_s s)) c (snd (call_user U c s))].
  Proof.
    intros HC. unfold call_user. cbn. split; [reflexivity|]. cbn. split; [lia|]. split; [rewrite Nat.sub_diag; destruct c; try discriminate HC; now destruct (u_cb U)|]. intros u [<-|[]]. cbn. destruct c; discriminate.
  Qed.
  (** at most one call, which is the one that the action asks for *)
  Definition asks_for (a : option action) (dm : option ref) (k : option cls) (ids attrs : dict val) (c : ucall) : Prop :=
    match c with
    | UCreate cl i t => a = Some ACreate /\ dm = None /\ k = Some cl /\ i = ids /\ t = attrs
    | UUpdate r i t => a = Some AUpdate /\ dm = Some r /\ i = ids /\ t = attrs
    | UDelete r i => a = Some ADelete /\ dm = Some r /\ i = ids
    | _ => False
    end.
  Lemma asks_hook a dm k ids attrs c : asks_for a dm k ids attrs c -> hook_call c = true.
  Proof. destruct c; try reflexivity; intros []. Qed.
  Lemma try_runs dm ids attrs s : exists l, ran s (fst (wide_try U dm ids attrs s)) l /\ ss_n (ws_s (fst (wide_try U dm ids attrs s))) = ss_n (ws_s s) /\ ss_action (ws_s (fst (wide_try U dm ids attrs s))) = ss_action (ws_s s) /\
    ((l = [] /\ exists x, snd (wide_try U dm ids attrs s) = Err x) \/
     exists c r, l = [mkUE (ss_w (ws_s s)) c r] /\ asks_for (ss_action (ws_s s)) dm (ss_class (ws_s s)) ids attrs c /\ (forall x, r = Err x -> snd (wide_try U dm ids attrs s) = Err x) /\ (forall a, r = Ok a -> snd (wide_try U dm ids attrs s) = Err DanglingRef \/ exists st, snd (wide_try U dm ids attrs s) = Ok (a, st))).
  Proof.
    unfold wide_try. rewrite WideSame.bind_ok with (s' := s) (a := ws_s s) by (destruct s; reflexivity).
    assert (CL : forall c k, hook_call c = true -> asks_for (ss_action (ws_s s)) dm (ss_class (ws_s s)) ids attrs c -> k = (fun m => match m with Some r => o <- ulift (slift (hget r)) ;; ret (Some r, get_status o) | None => ret (None, (StFailure, (class_name (ws_s s) ++ " " ++ action_str (ss_action (ws_s s)) ++ " did not return the model object.")%string)) end) ->
      exists l, ran s (fst (bind (call_user U c) k s)) l /\ ss_n (ws_s (fst (bind (call_user U c) k s))) = ss_n (ws_s s) /\ ss_action (ws_s (fst (bind (call_user U c) k s))) = ss_action (ws_s s) /\
      ((l = [] /\ exists x, snd (bind (call_user U c) k s) = Err x) \/
     exists c0 r, l = [mkUE (ss_w (ws_s s)) c0 r] /\ asks_for (ss_action (ws_s s)) dm (ss_class (ws_s s)) ids attrs c0 /\ (forall x, r = Err x -> snd (bind (call_user U c) k s) = Err x) /\ (forall a, r = Ok a -> snd (bind (call_user U c) k s) = Err DanglingRef \/ exists st, snd (bind (call_user U c) k s) = Ok (a, st)))).
    { intros c k HC AK ->. pose proof (call_ran c s HC) as R. assert (N1 : ss_n (ws_s (fst (call_user U c s))) = ss_n (ws_s s)) by reflexivity. assert (A1 : ss_action (ws_s (fst (call_user U c s))) = ss_action (ws_s s)) by reflexivity.
      destruct (call_user U c s) as [s1 [m|x]] eqn:E; cbn [fst snd] in *.
      - rewrite (WideSame.bind_ok _ _ _ _ _ E). destruct m as [r|].
        + unfold bind, ulift, slift, hget. cbn. destruct (nth_error (w_heap (ss_w (ws_s s1))) r) as [o|] eqn:H.
          * cbn. exists [mkUE (ss_w (ws_s s)) c (Ok (Some r))]. split; [destruct s1 as [s1 l1]; destruct s1; exact R|]. split; [exact N1|]. split; [exact A1|]. right. exists c, (Ok (Some r)). split; [reflexivity|]. split; [exact AK|]. split; [discriminate|]. intros a [= <-]. right. eauto.
          * cbn. exists [mkUE (ss_w (ws_s s)) c (Ok (Some r))]. split; [destruct s1 as [s1 l1]; destruct s1; exact R|]. split; [exact N1|]. split; [exact A1|]. right. exists c, (Ok (Some r)). split; [reflexivity|]. split; [exact AK|]. split; [discriminate|]. intros a [= <-]. now left.
        + cbn. exists [mkUE (ss_w (ws_s s)) c (Ok None)]. split; [exact R|]. split; [exact N1|]. split; [exact A1|]. right. exists c, (Ok None). split; [reflexivity|]. split; [exact AK|]. split; [discriminate|]. intros a [= <-]. right. eauto.
      - rewrite (WideSame.bind_err _ _ _ _ _ E). exists [mkUE (ss_w (ws_s s)) c (Err x)]. split; [exact R|]. split; [exact N1|]. split; [exact A1|]. right. exists c, (Err x). split; [reflexivity|]. split; [exact AK|]. split; [cbn; intros y [= <-]; reflexivity|discriminate]. }
    assert (RS' : forall x k, exists l, ran s (fst (@bind _ (option ref) (option ref * (status * string)) (raise x) k s)) l /\ ss_n (ws_s (fst (@bind _ (option ref) (option ref * (status * string)) (raise x) k s))) = ss_n (ws_s s) /\ ss_action (ws_s (fst (@bind _ (option ref) (option ref * (status * string)) (raise x) k s))) = ss_action (ws_s s) /\
      ((l = [] /\ exists y, snd (@bind _ (option ref) (option ref * (status * string)) (raise x) k s) = Err y) \/
     exists c0 r, l = [mkUE (ss_w (ws_s s)) c0 r] /\ asks_for (ss_action (ws_s s)) dm (ss_class (ws_s s)) ids attrs c0 /\ (forall x0, r = Err x0 -> snd (@bind _ (option ref) (option ref * (status * string)) (raise x) k s) = Err x0) /\ (forall a, r = Ok a -> snd (@bind _ (option ref) (option ref * (status * string)) (raise x) k s) = Err DanglingRef \/ exists st, snd (@bind _ (option ref) (option ref * (status * string)) (raise x) k s) = Ok (a, st)))).
    { intros x k. exists []. split; [apply ran_refl|]. split; [reflexivity|]. split; [reflexivity|]. left. split; [reflexivity|]. exists x. reflexivity. }
    destruct (ss_action (ws_s s)) as [[]|] eqn:EA.
    - destruct dm; [apply RS'|]. destruct (ss_class (ws_s s)) eqn:EC; [|apply RS']. apply CL; [reflexivity|cbn; auto|reflexivity].
    - destruct dm; [|apply RS']. apply CL; [reflexivity|cbn; auto|reflexivity].
    - destruct dm; [|apply RS']. apply CL; [reflexivity|cbn; auto|reflexivity].
    - apply RS'.
  Qed.

  Lemma log_status_keeps a st msg s : ran s (fst (ulift (log_sync_status env a st msg) s)) [] /\ ss_n (ws_s (fst (ulift (log_sync_status env a st msg) s))) = ss_n (ws_s s) /\
    ss_action (ws_s (fst (ulift (log_sync_status env a st msg) s))) = ss_action (ws_s s) /\ snd (ulift (log_sync_status env a st msg) s) = Ok tt.
  Proof.
    assert (G : forall (m : M sstate unit), (forall t, ss_n (fst (m t)) = ss_n t /\ ss_action (fst (m t)) = ss_action t /\ snd (m t) = Ok tt) -> ran s (fst (ulift m s)) [] /\ ss_n (ws_s (fst (ulift m s))) = ss_n (ws_s s) /\ ss_action (ws_s (fst (ulift m s))) = ss_action (ws_s s) /\ snd (ulift m s) = Ok tt).
    { intros m H. destruct (H (ws_s s)) as (H1 & H2 & H3). split; [apply ran_same; [reflexivity|exact H1]|]. now repeat split. }
    apply G. intros t. unfold log_sync_status. destruct a; [destruct st|destruct (has_flag fl SF_LOG_UNCHANGED_RECORDS)]; repeat split; reflexivity.
  Qed.
  Lemma continue_bit : has_flag fl SF_CONTINUE_ON_FAILURE = N.testbit fl 0.
  Proof. exact (has_flag_pow2 fl 0). Qed.
  Lemma model_runs dm ids attrs s s' r : wide_model env U dm ids attrs s = (s', r) -> exists l, ran s s' l /\ ss_n (ws_s s') = ss_n (ws_s s) /\ ss_action (ws_s s') = ss_action (ws_s s) /\ orderly fl l r /\
    ((l = [] /\ forall b m, r = Ok (b, Some m) -> ss_action (ws_s s) = None) \/
     exists c rr, l = [mkUE (ss_w (ws_s s)) c rr] /\ asks_for (ss_action (ws_s s)) dm (ss_class (ws_s s)) ids attrs c) /\
    (forall b m, r = Ok (b, m) -> (l <> [] -> b = true) /\ (b = true -> l <> [] \/ N.testbit fl 0 = true)).
  Proof.
    unfold wide_model. rewrite (WideSame.bind_ok _ _ s s (ws_s s)) by (destruct s; reflexivity). destruct (ss_action (ws_s s)) as [a|] eqn:EA.
    - destruct (try_runs dm ids attrs s) as (l & R & N & A & H). unfold bind at 1. unfold try_catch. unfold bind at 1.
      destruct (wide_try U dm ids attrs s) as [s1 r1] eqn:T. cbn [fst snd] in *. rewrite EA in *.
      assert (C : (l = [] /\ exists x, r1 = Err x) \/ exists c rr, l = [mkUE (ss_w (ws_s s)) c rr] /\ asks_for (Some a) dm (ss_class (ws_s s)) ids attrs c) by (destruct H as [H|(c & rr & E & K & _)]; [now left|right; now exists c, rr]).
      destruct r1 as [[m [st msg]]|x].
      + cbn [ret]. unfold bind. destruct (log_status_keeps (Some a) st msg s1) as (R2 & N2 & A2 & Q2). destruct (ulift (log_sync_status env (Some a) st msg) s1) as [s2 r2]. cbn [fst snd] in *. subst r2. cbn. intros [= <- <-].
        exists l. split; [rewrite <- (app_nil_r l); exact (ran_trans _ _ _ _ _ R R2)|]. split; [congruence|]. split; [congruence|]. split.
        * left. destruct H as [(-> & x & X)|(c & rr & -> & K & E1 & E2)]; [constructor|]. constructor; [|constructor]. unfold forgiven. cbn. destruct rr as [o|x]; [exact I|]. specialize (E1 x eq_refl). discriminate.
        * destruct C as [(-> & x & X)|C]; [discriminate|]. split; [right; exact C|]. intros b0 m0 [= <- <-]. split; [auto|]. intros _. left. destruct C as (? & ? & -> & _). discriminate.
      + destruct (is_crud x) eqn:IC.
        * unfold bind. destruct (log_status_keeps (Some a) StError (exn_msg x) s1) as (R2 & N2 & A2 & Q2). destruct (ulift (log_sync_status env (Some a) StError (exn_msg x)) s1) as [s2 r2]. cbn [fst snd] in *. subst r2.
          destruct (has_flag fl SF_CONTINUE_ON_FAILURE) eqn:CF; cbn; intros [= <- <-]; exists l; (split; [rewrite <- (app_nil_r l); exact (ran_trans _ _ _ _ _ R R2)|]); (split; [congruence|]); (split; [congruence|]).
          -- split; [|split; [destruct C as [(-> & _)|C]; [left; split; [reflexivity|discriminate]|right; exact C]|intros b0 m0 [= <- <-]; split; [auto|]; intros _; right; now rewrite <- continue_bit]]. left. destruct H as [(-> & _)|(c & rr & -> & K & E1 & E2)]; [constructor|]. constructor; [|constructor]. unfold forgiven. cbn. destruct rr as [o|y]; [exact I|].
             specialize (E1 y eq_refl). injection E1 as ->. split; [exact (asks_hook _ _ _ _ _ _ K)|]. split; [exact IC|]. now rewrite <- continue_bit.
          -- split; [|split; [destruct C as [(-> & _)|C]; [left; split; [reflexivity|discriminate]|right; exact C]|discriminate]]. destruct H as [(-> & _)|(c & rr & -> & K & E1 & E2)]; [now left|]. destruct rr as [o|y]; [left; constructor; [exact I|constructor]|]. right. exists [], (mkUE (ss_w (ws_s s)) c (Err y)), y. specialize (E1 y eq_refl). injection E1 as ->. auto.
        * intros [= <- <-]. exists l. split; [exact R|]. split; [congruence|]. split; [congruence|].
          split; [|split; [destruct C as [(-> & _)|C]; [left; split; [reflexivity|discriminate]|right; exact C]|discriminate]]. destruct H as [(-> & _)|(c & rr & -> & K & E1 & E2)]; [now left|]. destruct rr as [o|y]; [left; constructor; [exact I|constructor]|]. right. exists [], (mkUE (ss_w (ws_s s)) c (Err y)), y. specialize (E1 y eq_refl). injection E1 as ->. auto.
    - unfold bind. destruct (log_status_keeps None StSuccess "No changes to apply; no action needed" s) as (R2 & N2 & A2 & Q2). destruct (ulift (log_sync_status env None StSuccess "No changes to apply; no action needed") s) as [s2 r2]. cbn [fst snd] in *. subst r2. cbn. intros [= <- <-].
      exists []. split; [exact R2|]. split; [exact N2|]. split; [congruence|]. split; [now left|]. split; [left; split; [reflexivity|]; auto|]. intros b m [= <- _]. split; [intros X; now destruct X|discriminate].
  Qed.

  (** ** progress *)
  Lemma incr_runs s s' r : wide_incr env U s = (s', r) -> exists l, ran s s' l /\ ss_n (ws_s s') = S (ss_n (ws_s s)) /\ ss_action (ws_s s') = ss_action (ws_s s) /\ orderly fl l r /\ hook_log l = [].
  Proof.
    unfold wide_incr, bind, ulift, modify, get_state. cbn. destruct (u_cb U) eqn:CB.
    - unfold call_user. cbn. destruct (u_code U (UProgress (S (ss_n (ws_s s))) (sv_total env)) (ss_w (ws_s s))) as [w' rr]. cbn. 
      assert (R : forall r', orderly fl [mkUE (ss_w (ws_s s)) (UProgress (S (ss_n (ws_s s))) (sv_total env)) rr] r' ->
        exists l, ran s (mkWS (set_ss_w (mkSS (ss_w (ws_s s)) (S (ss_n (ws_s s))) (ss_action (ws_s s)) (ss_class (ws_s s)) (ss_ctx (ws_s s))) w') (ws_log s ++ [mkUE (ss_w (ws_s s)) (UProgress (S (ss_n (ws_s s))) (sv_total env)) rr])) l /\ orderly (A := unit) fl l r' /\ hook_log l = []).
      { intros r' O. eexists. split; [|split; [exact O|reflexivity]]. split; [reflexivity|]. cbn [ws_s set_ss_w ss_n]. split; [lia|]. rewrite CB. replace (S (ss_n (ws_s s)) - ss_n (ws_s s)) with 1 by lia. split; [reflexivity|]. intros u [<-|[]]. discriminate. }
      destruct rr as [o|x]; cbn; intros [= <- <-].
      + destruct (R (Ok tt)) as (l & R1 & R2 & R3); [left; constructor; [exact I|constructor]|]. exists l. split; [exact R1|]. repeat split; auto.
      + destruct (R (Err x)) as (l & R1 & R2 & R3); [right; exists [], (mkUE (ss_w (ws_s s)) (UProgress (S (ss_n (ws_s s))) (sv_total env)) (Err x)), x; auto|]. exists l. split; [exact R1|]. repeat split; auto.
    - intros [= <- <-]. exists []. split; [|repeat split; now left]. split; [cbn; now rewrite app_nil_r|]. cbn. split; [lia|]. rewrite CB. split; [reflexivity|intros u []].
  Qed.

  (** ** elements *)
  Definition all_delete (x : elem) : Prop := e_action x = Some ADelete /\ forall y, occurs y (e_kids x) -> e_action y = Some ADelete.
  Definition counted (l : list uentry) (b : bool) : Prop := (l <> [] -> b = true) /\ (b = true -> l <> [] \/ N.testbit fl 0 = true).
  Lemma counted_app l b l' b' : counted l b -> counted l' b' -> counted (l ++ l') (b || b').
  Proof.
    intros (A1 & A2) (B1 & B2). split.
    - intros H. destruct l; [cbn in H; rewrite (B1 H); now destruct b|]. now rewrite A1.
    - intros H. apply orb_true_iff in H as [H|H]; [destruct (A2 H) as [X|X]|destruct (B2 H) as [X|X]]; auto; left; intros Y; apply app_eq_nil in Y; tauto.
  Qed.
  Definition runs (x : elem) (m : M wstate bool) : Prop := forall s s' r, m s = (s', r) ->
    exists l, ran s s' l /\ visit ord dst x (hook_log l) /\ orderly fl l r /\ ss_n (ws_s s') <= ss_n (ws_s s) + elem_len ord x /\
      (all_delete x -> ss_action (ws_s s') = ss_action (ws_s s) \/ ss_action (ws_s s') = Some ADelete) /\ (forall b, r = Ok b -> counted (hook_log l) b).
  Lemma sum_cons a l : list_sum (a :: l) = a + list_sum l.
  Proof. reflexivity. Qed.
  Lemma visits_nil xs : visits ord dst xs [].
  Proof. induction xs as [|x xs IH]; [constructor|]. apply (vis_cons ord dst x xs [] []); [constructor|exact IH]. Qed.
  Lemma kids_runs xs (f : elem -> option ref -> M wstate bool) p : (forall x, In x xs -> runs x (f x p)) -> forall b0 s s' r, wide_kids (map f xs) p b0 s = (s', r) ->
    exists l, ran s s' l /\ visits ord dst xs (hook_log l) /\ orderly fl l r /\ ss_n (ws_s s') <= ss_n (ws_s s) + list_sum (map (elem_len ord) xs) /\
      ((forall x, In x xs -> all_delete x) -> ss_action (ws_s s') = ss_action (ws_s s) \/ ss_action (ws_s s') = Some ADelete) /\
      (forall b lb, r = Ok b -> counted lb b0 -> counted (lb ++ hook_log l) b).
  Proof.
    induction xs as [|x xs IH]; intros H b0 s s' r; cbn [map wide_kids].
    - intros [= <- <-]. exists []. split; [apply ran_refl|]. split; [constructor|]. split; [now left|]. split; [cbn; lia|]. split; [auto|]. intros b lb [= <-] K. cbn. now rewrite app_nil_r.
    - unfold bind. destruct (f x p s) as [s1 r1] eqn:E. destruct (H x (or_introl eq_refl) s s1 r1 E) as (l1 & R1 & V1 & O1 & N1 & D1 & B1). destruct r1 as [c|y].
      + intros E2. destruct (IH (fun z I => H z (or_intror I)) _ _ _ _ E2) as (l2 & R2 & V2 & O2 & N2 & D2 & B2). exists (l1 ++ l2).
        split; [exact (ran_trans _ _ _ _ _ R1 R2)|]. split; [rewrite hook_log_app; now constructor|]. split; [exact (orderly_app _ _ _ _ O1 O2)|]. split; [cbn [map]; rewrite sum_cons; lia|].
        split; [intros AD; destruct (D2 (fun z I => AD z (or_intror I))) as [-> | ->]; [|now right]; apply D1, AD; now left|].
        intros b lb E3 K. rewrite hook_log_app, app_assoc. apply B2; [exact E3|]. apply counted_app; [exact K|now apply B1].
      + intros [= <- <-]. exists l1. split; [exact R1|]. split; [rewrite <- (app_nil_r (hook_log l1)); constructor; [exact V1|apply visits_nil]|]. split; [exact (orderly_err _ _ O1)|]. split; [cbn [map]; rewrite sum_cons; lia|].
        split; [intros AD; apply D1, AD; now left|discriminate].
  Qed.
  Lemma ran_lift {A} (m : M sstate A) s : (forall t, ss_n (fst (m t)) = ss_n t) -> ran s (fst (ulift m s)) [].
  Proof. intros H. apply ran_same; [reflexivity|apply H]. Qed.
  Lemma asked_call e c dm rr k w : started w e k dm -> asks_for (e_action e) dm (Some k) (e_keys e) (wanted e) c -> call_for dst e (mkUE w c rr).
  Proof.
    intros (CI & uid & CU & L1 & L2) A. unfold call_for. cbn [ue_call ue_world]. destruct c; cbn in A; try (destruct A; fail).
    - destruct A as (A1 & -> & [= <-] & -> & ->). split; [exact A1|]. split; [reflexivity|]. split; [reflexivity|]. split; [exact CI|]. exists uid. split; [exact CU|]. now apply L2.
    - destruct A as (A1 & -> & -> & ->). split; [exact A1|]. split; [reflexivity|]. split; [reflexivity|]. intros KL. exists k, uid. split; [exact CI|]. split; [exact CU|]. now apply L1.
    - destruct A as (A1 & _ & ->). now split.
  Qed.
  Lemma model_true dm ids attrs s s' a b m : wide_model env U dm ids attrs s = (s', Ok (b, m)) -> ss_action (ws_s s) = Some a -> b = true.
  Proof.
    unfold wide_model. rewrite (WideSame.bind_ok _ _ s s (ws_s s)) by (destruct s; reflexivity). intros E A. rewrite A in E. unfold bind at 1 in E.
    destruct (try_catch _ _ _ s) as [s1 [[[o [st msg]]|]|x]]; [|now injection E|discriminate]. unfold bind in E. destruct (ulift _ s1) as [s2 [[]|x]]; [now injection E|discriminate].
  Qed.
  Lemma body_runs e p (f : elem -> option ref -> M wstate bool) : (e_action e = Some ADelete -> all_delete e) ->
    (forall x q, In x (ordered ord (fun y => y) (e_kids e)) -> runs x (f x q)) -> runs e (wide_body env U e p (map f (ordered ord (fun y => y) (e_kids e)))).
  Proof.
    intros DD IH s s' r. set (xs := ordered ord (fun y => y) (e_kids e)) in *. unfold wide_body.
    assert (EL : elem_len ord e = 1 + list_sum (map (elem_len ord) xs)) by (rewrite DiffFacts.elem_len_eq; unfold groups_len, xs; now rewrite (ordered_map _ (elem_len ord))).
    assert (ADK : e_action e = Some ADelete -> forall x, In x xs -> all_delete x).
    { intros A x I. apply DD in A as (_ & A). apply ordered_sub in I. apply In_children in I as (t & g & n & I1 & I2). split; [apply A; econstructor; eauto|]. intros y O. apply A. eapply occ_below; eauto. }
    destruct (ulift (wide_start env e) s) as [s1 r1] eqn:E1. assert (R1 : ran s s1 []) by (change s1 with (fst (s1, r1)); rewrite <- E1; apply ran_lift, start_n).
    assert (N1 : ss_n (ws_s s1) = ss_n (ws_s s)) by (unfold ulift in E1; injection E1 as <- <-; apply start_n).
    destruct r1 as [st|x].
    2:{ rewrite (WideSame.bind_err _ _ _ _ _ E1). intros [= <- <-]. exists []. split; [exact R1|]. split; [constructor|]. split; [now left|]. split; [lia|]. split; [|discriminate].
        intros (A & _). unfold ulift in E1. destruct (wide_start env e (ws_s s)) as [t [|]] eqn:WS; cbn in E1; [discriminate|]. injection E1 as <- ->. cbn.
        clear - WS A. revert WS. unfold wide_start, bind, slift, lift, modify, ret. cbn. destruct (get_adapter dst (ss_w (ws_s s))) as [w1 [ad|y]]; [|intros [= <- _]; now left]. cbn.
        destruct (dget (ad_classes ad) (e_type e)); [|intros [= <- _]; now left]. cbn. destruct (create_unique_id c (e_keys e)); [|intros [= <- _]; now left]. cbn. right. revert WS.
        destruct (ad_get_or_none _ _ _ _) as [w2 [o|y]]; [|now intros [= <- _]]. cbn. destruct (get_dst_model _ _ _ _) as [w3 [dm|y]]; [|now intros [= <- _]]. cbn.
        destruct (model_flag _ _ _) as [w4 [b|y]]; [|now intros [= <- _]]. cbn. destruct (model_flag _ _ _) as [w5 [b'|y]]; now intros [= <- _]. }
    rewrite (WideSame.bind_ok _ _ _ _ _ E1). assert (E1' : wide_start env e (ws_s s) = (ws_s s1, Ok st)).
    { unfold ulift in E1. destruct (wide_start env e (ws_s s)) as [t [|]]; cbn in E1; [|discriminate]. now injection E1 as <- ->. }
    destruct (start_is _ _ _ _ E1') as (A1 & k & K1 & ST). clear E1 E1'. destruct st as [dm [nat skip]]. cbn [fst snd] in *.
    rewrite (WideSame.bind_ok _ _ s1 s1 (ws_s s1)) by (destruct s1; reflexivity). rewrite A1.
    (* the second half, from a state in which the action is that of the element *)
    assert (REST : forall s2 l2 s' r, ran s s2 l2 -> orderly fl l2 (Ok false) -> ss_n (ws_s s2) <= ss_n (ws_s s) + list_sum (map (elem_len ord) xs) -> ss_action (ws_s s2) = e_action e ->
        (s2 = s1 /\ l2 = [] \/ e_action e = Some ADelete /\ nat = true /\ visits ord dst xs (hook_log l2)) ->
        bind (wide_model env U dm (e_keys e) (wanted e)) (fun cm => match snd cm with
          | Some r0 => s0 <- ulift get_state ;; stop <- ulift (slift (apply_to_store env (ss_action s0) p r0 skip)) ;;
              (if (stop : bool) then ret (fst cm) else wide_incr env U ;;; s3 <- ulift get_state ;; (if (negb nat || negb (is_delete (ss_action s3)))%bool then wide_kids (map f xs) (Some r0) (fst cm) else ret (fst cm)))
          | None => ulift (slog LWarning None "No object resulted from sync, will not process child objects.") ;;; ret (fst cm)
          end) s2 = (s', r) ->
        exists l, ran s s' l /\ visit ord dst e (hook_log l) /\ orderly fl l r /\ ss_n (ws_s s') <= ss_n (ws_s s) + elem_len ord e /\
          (all_delete e -> ss_action (ws_s s') = ss_action (ws_s s) \/ ss_action (ws_s s') = Some ADelete) /\ (forall b, r = Ok b -> counted (hook_log l) b)).
    { clear s' r. intros s2 l2 s' r R2 O2 N2 A2 W. unfold bind at 1. destruct (wide_model env U dm (e_keys e) (wanted e) s2) as [s3 r3] eqn:E3.
      destruct (model_runs _ _ _ _ _ _ E3) as (l3 & R3 & N3 & A3 & O3 & C3 & B3). rewrite A2 in C3, A3.
      assert (H3 : hook_log l3 = l3) by (destruct C3 as [(-> & _)|(c & rr & -> & AF)]; [reflexivity|]; cbn [hook_log filter ue_call]; now rewrite (asks_hook _ _ _ _ _ _ AF)).
      assert (K23 : forall b m, r3 = Ok (b, m) -> counted (hook_log (l2 ++ l3)) b).
      { intros b m E. rewrite hook_log_app, H3. destruct (B3 b m E) as (Y1 & Y2). destruct W as [(-> & ->)|(AD & _)]; [now split|]. assert (b = true) as ->; [|split; [auto|intros X; destruct (Y2 X) as [Z|Z]; auto; left; intros Q; apply app_eq_nil in Q; tauto]].
        rewrite AD in A2. eapply model_true; [|exact A2]. rewrite E in E3. exact E3. }
      assert (R23 : ran s s3 (l2 ++ l3)) by exact (ran_trans _ _ _ _ _ R2 R3).
      assert (V23 : visit ord dst e (hook_log (l2 ++ l3))).
      { rewrite hook_log_app. destruct W as [(-> & ->)|(AD & _ & V)].
        - destruct C3 as [(-> & _)|(c & rr & -> & AF)]; [constructor|]. rewrite K1 in AF. cbn [hook_log filter ue_call app]. rewrite (asks_hook _ _ _ _ _ _ AF).
          apply vis_own; [exact (asked_call e c dm rr k _ ST AF)|apply visits_nil].
        - destruct C3 as [(-> & _)|(c & rr & -> & AF)]; [rewrite app_nil_r; now apply vis_cut|]. cbn [hook_log filter ue_call]. rewrite (asks_hook _ _ _ _ _ _ AF).
          apply vis_last; [exact AD|exact V|]. unfold call_for. cbn [ue_call]. rewrite AD in AF. destruct c; cbn in AF; try tauto; destruct AF as (AF & _); discriminate. }
      assert (DEL : forall t : wstate, ss_action (ws_s t) = e_action e -> all_delete e -> ss_action (ws_s t) = ss_action (ws_s s) \/ ss_action (ws_s t) = Some ADelete) by (intros t -> (X & _); now right).
      destruct r3 as [[ch [m|]]|x].
      - cbn [snd fst]. rewrite (WideSame.bind_ok _ _ s3 s3 (ws_s s3)) by (destruct s3; reflexivity).
        destruct (ulift (slift (apply_to_store env (ss_action (ws_s s3)) p m skip)) s3) as [s4 r4] eqn:E4.
        assert (R4 : ran s3 s4 []) by (change s4 with (fst (s4, r4)); rewrite <- E4; apply ran_lift; reflexivity).
        assert (N4 : ss_n (ws_s s4) = ss_n (ws_s s3) /\ ss_action (ws_s s4) = ss_action (ws_s s3)) by (unfold ulift, slift in E4; injection E4 as <- <-; now split). destruct N4 as (N4 & A4).
        assert (R24 : ran s s4 (l2 ++ l3)) by (rewrite <- (app_nil_r (l2 ++ l3)); exact (ran_trans _ _ _ _ _ R23 R4)).
        destruct r4 as [stop|x].
        2:{ rewrite (WideSame.bind_err _ _ _ _ _ E4). intros [= <- <-]. exists (l2 ++ l3). split; [exact R24|]. split; [exact V23|]. split; [left; apply Forall_app; split; [exact (orderly_ok _ _ O2)|exact (orderly_ok _ _ O3)]|]. split; [lia|]. split; [apply DEL; congruence|discriminate]. }
        rewrite (WideSame.bind_ok _ _ _ _ _ E4). destruct stop.
        + intros [= <- <-]. exists (l2 ++ l3). split; [exact R24|]. split; [exact V23|]. split; [left; apply Forall_app; split; [exact (orderly_ok _ _ O2)|exact (orderly_ok _ _ O3)]|]. split; [lia|]. split; [apply DEL; congruence|]. intros b [= <-]. exact (K23 _ _ eq_refl).
        + destruct (wide_incr env U s4) as [s5 r5] eqn:E5. destruct (incr_runs _ _ _ E5) as (l5 & R5 & N5 & A5 & O5 & H5).
          assert (R25 : ran s s5 ((l2 ++ l3) ++ l5)) by exact (ran_trans _ _ _ _ _ R24 R5).
          assert (V25 : visit ord dst e (hook_log ((l2 ++ l3) ++ l5))) by (rewrite (hook_log_app (l2 ++ l3)), H5, app_nil_r; exact V23).
          assert (O23 : orderly fl (l2 ++ l3) (Ok false)) by (left; apply Forall_app; split; [exact (orderly_ok _ _ O2)|exact (orderly_ok _ _ O3)]).
          destruct r5 as [[]|x].
          2:{ rewrite (WideSame.bind_err _ _ _ _ _ E5). intros [= <- <-]. eexists. split; [exact R25|]. split; [exact V25|]. split; [exact (orderly_app _ _ _ _ O23 (orderly_err _ _ O5))|]. split; [lia|]. split; [apply DEL; congruence|discriminate]. }
          rewrite (WideSame.bind_ok _ _ _ _ _ E5). rewrite (WideSame.bind_ok _ _ s5 s5 (ws_s s5)) by (destruct s5; reflexivity).
          assert (O25 : orderly fl ((l2 ++ l3) ++ l5) (Ok false)) by (left; apply Forall_app; split; [exact (orderly_ok _ _ O23)|exact (orderly_ok _ _ O5)]).
          assert (A5' : ss_action (ws_s s5) = e_action e) by congruence. rewrite A5'.
          destruct (negb nat || negb (is_delete (e_action e)))%bool eqn:CND.
          * (* the children *)
            destruct W as [(-> & ->)|(AD & NT & _)]; [|rewrite AD, NT in CND; discriminate CND]. cbn [app] in *. intros E6.
            destruct (kids_runs xs f (Some m) (fun x I => IH x (Some m) I) _ _ _ _ E6) as (l6 & R6 & V6 & O6 & N6 & D6 & B6).
            exists ((l3 ++ l5) ++ l6). split; [exact (ran_trans _ _ _ _ _ R25 R6)|]. split; [|split; [exact (orderly_app _ _ _ _ O25 O6)|]].
            -- rewrite !hook_log_app, H5, app_nil_r. destruct C3 as [(-> & C3)|(c & rr & -> & AF)]; [apply vis_pass; [exact (C3 ch m eq_refl)|exact V6]|].
               rewrite K1 in AF. cbn [hook_log filter ue_call]. rewrite (asks_hook _ _ _ _ _ _ AF). apply (vis_own ord dst e _ (hook_log l6)); [exact (asked_call e c dm rr k _ ST AF)|exact V6].
            -- split; [lia|]. split; [intros AD; destruct (D6 (ADK (proj1 AD))) as [-> | ->]; [|now right]; apply DEL; [exact A5'|exact AD]|].
               intros b E. rewrite hook_log_app. apply B6; [exact E|]. rewrite hook_log_app, H5, app_nil_r. exact (K23 _ _ eq_refl).
          * intros [= <- <-]. eexists. split; [exact R25|]. split; [exact V25|]. split; [left; exact (orderly_ok _ _ O25)|]. split; [lia|]. split; [apply DEL; exact A5'|]. intros b [= <-]. rewrite hook_log_app, H5, app_nil_r. exact (K23 _ _ eq_refl).
      - cbn [snd fst]. destruct (ulift (slog LWarning None "No object resulted from sync, will not process child objects.") s3) as [s4 r4] eqn:E4.
        assert (X4 : r4 = Ok tt /\ ws_log s4 = ws_log s3 /\ ss_n (ws_s s4) = ss_n (ws_s s3) /\ ss_action (ws_s s4) = ss_action (ws_s s3)) by (unfold ulift, slog, bind, get_state, slift, emit, modify in E4; cbn in E4; injection E4 as <- <-; now repeat split).
        destruct X4 as (-> & L4 & N4 & A4). rewrite (WideSame.bind_ok _ _ _ _ _ E4). intros [= <- <-]. exists (l2 ++ l3).
        split; [rewrite <- (app_nil_r (l2 ++ l3)); exact (ran_trans _ _ _ _ _ R23 (ran_same _ _ L4 N4))|]. split; [exact V23|]. split; [left; apply Forall_app; split; [exact (orderly_ok _ _ O2)|exact (orderly_ok _ _ O3)]|]. split; [lia|]. split; [apply DEL; congruence|]. intros b [= <-]. exact (K23 _ _ eq_refl).
      - intros [= <- <-]. exists (l2 ++ l3). split; [exact R23|]. split; [exact V23|]. split; [exact (orderly_app _ _ _ _ O2 (orderly_err _ _ O3))|]. split; [lia|]. split; [apply DEL; congruence|discriminate]. }
    destruct (nat && is_delete (e_action e) && negb skip)%bool eqn:CND.
    - apply andb_true_iff in CND as (CND & _). apply andb_true_iff in CND as (NT & ID). assert (AD : e_action e = Some ADelete) by (destruct (e_action e) as [[]|]; try discriminate; reflexivity).
      unfold bind at 1. destruct (wide_kids (map f xs) dm false s1) as [s2 r2] eqn:E2. destruct (kids_runs xs f dm (fun x I => IH x dm I) _ _ _ _ E2) as (l2 & R2 & V2 & O2 & N2 & D2 & _).
      assert (R12 : ran s s2 l2) by exact (ran_trans _ _ _ [] _ R1 R2).
      assert (A2 : ss_action (ws_s s2) = e_action e) by (destruct (D2 (ADK AD)) as [-> | ->]; congruence).
      destruct r2 as [b|x]; [|intros [= <- <-]; exists l2; split; [exact R12|]; split; [now apply vis_cut|]; split; [exact (orderly_err _ _ O2)|]; split; [lia|]; split; [intros _; right; congruence|discriminate]].
      apply (REST s2 l2 s' r R12); [left; exact (orderly_ok _ _ O2)|lia|exact A2|right; auto].
    - unfold bind at 1. cbn [ret]. apply (REST s1 [] s' r R1); [now left|lia|exact A1|left; auto].
  Qed.
  Lemma elem_runs gs : deletes_whole gs -> forall e, occurs e gs -> forall limit p, runs e (wide_elem ord env U limit e p).
  Proof.
    intros DW. assert (DD : forall y g, occurs y g -> forall x, g = e_kids x -> occurs x gs -> e_action x = Some ADelete -> e_action y = Some ADelete).
    { induction 1 as [g t k n I1 I2|g t k n q I1 I2 O IH]; intros x -> OX A; [apply (DW x y OX A); apply In_children; eauto|].
      assert (OQ : occurs q gs) by (eapply occurs_kid; [exact OX|]; apply In_children; eauto). apply (IH q eq_refl OQ). apply (DW x q OX A). apply In_children. eauto. }
    induction e as [e IH] using elem_ind'. intros O [|l] p.
    - assert (E : wide_elem ord env U 0 e p = raise ExnRecursionError) by now destruct e. rewrite E. intros s s' r [= <- <-]. exists []. split; [apply ran_refl|]. split; [constructor|]. split; [now left|]. split; [lia|]. split; [auto|discriminate].
    - assert (E : wide_elem ord env U (S l) e p = wide_body env U e p (ordered ord (wide_elem ord env U l) (e_kids e))) by now destruct e. rewrite E. clear E.
      rewrite (ordered_map ord (wide_elem ord env U l)). apply body_runs.
      + intros A. split; [exact A|]. intros y OY. exact (DD y _ OY e eq_refl O A).
      + intros x q I. apply ordered_sub in I. pose proof I as I'. apply In_children in I as (t & g & n & I1 & I2). apply (IH t g n x I1 I2). eapply occurs_kid; [exact O|exact I'].
  Qed.
End Log.

Lemma run_log env U limit d w s' r : deletes_whole (d_groups d) -> wide_run env U limit d (wide_init w) = (s', r) ->
  exists l k z, ws_log s' = l ++ z /\ (forall u, In u l -> ue_call u <> UComplete) /\
    visits (dc_order (d_class d)) (sv_dst env) (ordered (dc_order (d_class d)) (fun x => x) (d_groups d)) (hook_log l) /\
    numbers l = (if u_cb U then map (fun i => (i, sv_total env)) (seq 1 k) else []) /\ k <= diff_len d /\
    orderly (sv_flags env) (l ++ z) r /\
    (z = [] /\ ((exists x, r = Err x) \/ r = Ok d /\ hook_log l = []) \/
     exists u, z = [u] /\ ue_call u = UComplete /\ Forall (forgiven (sv_flags env)) l /\ (hook_log l <> [] \/ N.testbit (sv_flags env) 0 = true) /\ r = match ue_result u with Ok _ => Ok d | Err x => Err x end).
Proof.
  intros DW. unfold wide_run. set (ord := dc_order (d_class d)). unfold bind at 1. destruct (wide_perform env U limit d (wide_init w)) as [s1 r1] eqn:E.
  unfold wide_perform in E. fold ord in E. rewrite (ordered_map ord (wide_elem ord env U limit)) in E.
  destruct (kids_runs ord env U (ordered ord (fun x => x) (d_groups d)) (wide_elem ord env U limit) None) with (b0 := false) (s := wide_init w) (s' := s1) (r := r1) as (l & R & V & O & N & _ & B); [|exact E|].
  { intros x I. apply (elem_runs ord env U (d_groups d) DW). apply ordered_sub, In_children in I as (t & g & n & I1 & I2). econstructor; eauto. }
  destruct R as (R1 & R2 & R3 & R4). cbn [wide_init ws_log ws_s ss_n app] in *. rewrite Nat.sub_0_r in R3.
  assert (L : ss_n (ws_s s1) <= diff_len d) by (unfold diff_len, groups_len; fold ord; rewrite (ordered_map ord (elem_len ord)); exact N).
  destruct r1 as [ch|x].
  2:{ intros [= <- <-]. exists l, (ss_n (ws_s s1)), []. rewrite app_nil_r. do 5 (split; [assumption|]). split; [exact (orderly_err _ _ _ O)|]. left. split; [reflexivity|]. left. now exists x. }
  assert (C : counted env (hook_log l) ch) by (apply (B ch [] eq_refl); split; [intros X; now destruct X|discriminate]). destruct C as (C1 & C2).
  destruct ch.
  - unfold bind, call_user, ret. destruct (u_code U UComplete (ss_w (ws_s s1))) as [w' rr] eqn:UC. cbn [fst snd]. set (u := mkUE (ss_w (ws_s s1)) UComplete rr).
    intros E2. assert (EQ : ws_log s' = l ++ [u] /\ r = match rr with Ok _ => Ok d | Err x => Err x end) by (destruct rr; cbn in E2; injection E2 as <- <-; cbn; rewrite R1; now split). destruct EQ as (L1 & ->). clear E2.
    exists l, (ss_n (ws_s s1)), [u]. split; [exact L1|]. do 4 (split; [assumption|]). split.
    + destruct rr as [o|x]; [left; apply Forall_app; split; [exact (orderly_ok _ _ _ O)|]; constructor; [exact I|constructor]|].
      right. exists l, u, x. split; [reflexivity|]. split; [exact (orderly_ok _ _ _ O)|]. now split.
    + right. exists u. split; [reflexivity|]. split; [reflexivity|]. split; [exact (orderly_ok _ _ _ O)|]. split; [now apply C2|reflexivity].
  - unfold bind, ret. intros [= <- <-]. exists l, (ss_n (ws_s s1)), []. rewrite app_nil_r. do 5 (split; [assumption|]). split; [left; exact (orderly_ok _ _ _ O)|]. left. split; [reflexivity|]. right. split; [reflexivity|].
    destruct (hook_log l) as [|u l0]; [reflexivity|]. exfalso. specialize (C1 ltac:(discriminate)). discriminate.
Qed.

Lemma wide_split fuel limit U dst src dc flags given w w' l r : wide_sync fuel limit U dst src dc flags given w = (w', l, r) ->
  (read_only w w' /\ l = [] /\ (exists x, r = Err x) /\ (forall h, sync_from fuel h dst src dc flags (u_cb U) given w = (w', r)) /\ forall d, ~ uses fuel dst src dc flags (u_cb U) given w d) \/
  exists d wd s', uses fuel dst src dc flags (u_cb U) given w d /\ read_only w wd /\
    wide_run (mkSEnv src dst flags (diff_len d) false default_hooks fuel) U limit d (wide_init wd) = (s', r) /\ w' = ss_w (ws_s s') /\ l = ws_log s' /\
    (forall h, sync_from fuel h dst src dc flags (u_cb U) given w = run_sync (mkSEnv src dst flags (diff_len d) (u_cb U) h fuel) d wd).
Proof.
  unfold wide_sync. set (pre := (_ ;;; _) w).
  assert (SF : forall h, sync_from fuel h dst src dc flags (u_cb U) given w = match snd pre with Ok d => run_sync (mkSEnv src dst flags (diff_len d) (u_cb U) h fuel) d (fst pre) | Err x => (fst pre, Err x) end).
  { intros h. unfold sync_from, pre, bind, ret, raise. destruct given as [d0|]; [destruct (diff_truthy (Some d0)), (isinstance d0 dc)|]; cbn [andb negb snd fst]; try reflexivity; destruct (diff_from fuel dst src dc flags (u_cb U) w) as [w2 [d|x]]; reflexivity. }
  assert (Q : match snd pre with Ok d => uses fuel dst src dc flags (u_cb U) given w d | Err x => forall d, ~ uses fuel dst src dc flags (u_cb U) given w d end /\ read_only w (fst pre)).
  { clear SF. unfold pre, uses. pose proof (diff_from_quiet fuel dst src dc flags (u_cb U) w) as Q. cbv zeta in Q. destruct Q as (Q & _). destruct given as [d0|].
    - destruct (diff_truthy (Some d0)) eqn:T.
      + assert (T' := T). apply truthy_len in T'. destruct (isinstance d0 dc) eqn:EI; cbn; (split; [|apply read_only_refl]); [left; auto|].
        intros d [(E & _ & X)|(E & _)]; [congruence|]. destruct E as [E|(d1 & E & X)]; [discriminate|]. injection E as <-. contradiction.
      + assert (diff_len d0 = 0) as Z by (simpl in T; apply negb_false_iff, Nat.eqb_eq in T; exact T). cbn. unfold bind, ret. cbn.
        destruct (diff_from fuel dst src dc flags (u_cb U) w) as [w1 [d|e]] eqn:ED; cbn in *; (split; [|exact Q]); [right; split; [right; eauto|reflexivity]|].
        intros d [(E & X & _)|(_ & E)]; [injection E as <-; contradiction|discriminate].
    - unfold bind, ret. destruct (diff_from fuel dst src dc flags (u_cb U) w) as [w1 [d|e]] eqn:ED; cbn in *; (split; [|exact Q]); [right; auto|]. intros d [(E & _)|(_ & E)]; discriminate. }
  destruct Q as (Q1 & Q2). destruct (snd pre) as [d|x].
  - destruct (wide_run _ U limit d (wide_init (fst pre))) as [s' r'] eqn:WR. cbn [fst snd]. intros [= <- <- <-]. right. exists d, (fst pre), s'. split; [exact Q1|]. split; [exact Q2|]. split; [exact WR|]. split; [reflexivity|]. split; [reflexivity|]. apply SF.
  - intros [= <- <- <-]. left. split; [exact Q2|]. split; [reflexivity|]. split; [now exists x|]. split; [exact SF|exact Q1].
Qed.
