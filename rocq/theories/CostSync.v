(** * CostSync: counting the commands of a synchronisation. *)
From Verif Require Export CostFacts.

Section Look.
  Variables (env : senv) (ok : obj -> Prop).
  Notation dst := (sv_dst env).
  Notation J := (fun s : sstate => to_redis dst (ss_w s)).
  Notation zero := (fun _ : obj => 0).
  Notation sp := (spend ok zero 0 J).
  Notation spw := (spend ok zero 0 (to_redis dst)).

  (** parts without commands keep the adapters *)
  Definition ka {A} (m : M sstate A) : Prop := forall s, w_ads (ss_w (fst (m s))) = w_ads (ss_w s).
  Definition kaw {A} (m : M world A) : Prop := forall w, w_ads (fst (m w)) = w_ads w.
  Lemma ka_bind {A B} (m : M sstate A) (k : A -> M sstate B) : ka m -> (forall x, ka (k x)) -> ka (bind m k).
  Proof. intros H K s. unfold bind. specialize (H s). destruct (m s) as [s' [x|e]]; cbn [fst] in *; [rewrite K|]; exact H. Qed.
  Lemma kaw_bind {A B} (m : M world A) (k : A -> M world B) : kaw m -> (forall x, kaw (k x)) -> kaw (bind m k).
  Proof. intros H K s. unfold bind. specialize (H s). destruct (m s) as [s' [x|e]]; cbn [fst] in *; [rewrite K|]; exact H. Qed.
  Lemma ka_try {A} (m : M sstate A) p h : ka m -> (forall e, ka (h e)) -> ka (try_catch m p h).
  Proof. intros H K s. unfold try_catch. specialize (H s). destruct (m s) as [s' [x|e]]; cbn [fst] in *; [exact H|]. destruct (p e); [rewrite K|]; exact H. Qed.
  Lemma ka_slift {A} (m : M world A) : kaw m -> ka (slift m).
  Proof. intros H s. unfold slift. specialize (H (ss_w s)). destruct (m (ss_w s)) as [w' x]. exact H. Qed.
  Lemma kaw_hget r : kaw (hget r). Proof. intros w. unfold hget. now destruct (nth_error _ _). Qed.
  Ltac kaw := repeat first
    [ apply kaw_hget | apply kaw_bind; [|intros ?] | progress unfold mutate
    | match goal with |- kaw (match ?x with _ => _ end) => destruct x end | (intros ?; reflexivity) ].
  Lemma kaw_hooks c ks attrs r : kaw (call_create env c ks attrs) /\ kaw (call_update env r attrs) /\ kaw (call_delete env r).
  Proof. unfold call_create, call_update, call_delete. repeat split; (apply kaw_bind; [intros ?; reflexivity|intros w0]; cbv zeta; kaw). Qed.
  Lemma ka_slog l st msg : ka (slog l st msg).
  Proof. apply ka_bind; [intros s; reflexivity|]. intros s. apply ka_slift. intros w. reflexivity. Qed.
  Lemma ka_status a st msg : ka (log_sync_status env a st msg).
  Proof. unfold log_sync_status. destruct a; [destruct st; apply ka_slog|]. destruct (has_flag _ _); [apply ka_slog|intros s; reflexivity]. Qed.
  Lemma ka_model dm ks attrs : ka (sync_model env dm ks attrs).
  Proof.
    assert (R : forall {A} (x : A), ka (ret x)) by (intros A x s; reflexivity). assert (RA : forall {A} e, ka (@raise sstate A e)) by (intros A e s; reflexivity).
    assert (KT : ka (sync_model_try env dm ks attrs)).
    { apply ka_bind; [intros s; reflexivity|]. intros s. apply ka_bind.
      - destruct (ss_action s) as [[| |]|], dm; try apply RA; try (apply ka_slift; first [now apply (kaw_hooks (mkCls "" [] [] [] [] [] [] 0) [])]).
        destruct (ss_class s); [|apply RA]. apply ka_slift. exact (proj1 (kaw_hooks _ _ _ 0)).
      - intros [r|]; [|apply R]. apply ka_bind; [apply ka_slift, kaw_hget|]. intros o. apply R. }
    apply ka_bind; [intros s; reflexivity|]. intros s. destruct (ss_action s) as [a|].
    - apply ka_bind.
      + apply ka_try; [apply ka_bind; [exact KT|intros x; apply R]|]. intros e. apply ka_bind; [apply ka_status|]. intros _. destruct (has_flag _ _); [apply R|apply RA].
      + intros [[m [st msg]]|]; [|apply R]. apply ka_bind; [apply ka_status|]. intros _. apply R.
    - apply ka_bind; [apply ka_status|]. intros _. apply R.
  Qed.
  Lemma k_here {A} (m : M sstate A) : ka m -> sp 0 (here m).
  Proof. intros H. apply sp_here. intros s. apply to_redis_ads, H. Qed.
  Lemma k_lift {A} c (m : CM A) : spw c m -> sp c (cslift m).
  Proof. intros H s n R. unfold cslift. eapply pays_then; [exact (H (ss_w s) n R)|]. intros [w x] b [R1 L]. constructor. now split. Qed.

  (** the lookups *)
  Lemma k_source c ids : spw 1 (c_get_or_none (sv_src env) (MClass c) (IdDict ids)).
  Proof.
    apply (sp_try _ _ _ _ 1 0); [|intros e; now apply r_here]. apply (sp_bind _ _ _ _ 1 0); [|intros r; now apply r_here].
    intros w n R. unfold c_get, cbind at 1. cbn [here cthen]. unfold get_adapter. destruct (nth_error (w_ads w) (sv_src env)) as [sa|] eqn:E; cbn [fst snd]; [|constructor; split; [exact R|lia]].
    unfold cbind at 1. cbn [here cthen]. unfold lift. cbn [fst snd]. destruct (get_uid _ _) as [u|]; [|constructor; split; [exact R|lia]]. destruct (ad_store sa) as [d|i] eqn:ES.
    - constructor. split; [|lia]. destruct R as (ad & i & A & S). assert (NE : dst <> sv_src env) by (intros EQ; rewrite EQ in A; congruence).
      exists ad, i. split; [|exact S]. unfold bind, put_store, modify. rewrite E. destruct (dget _ _); cbn; now rewrite nth_list_set_neq by exact NE.
    - unfold c_load, cbind, cget. cbn [here cthen fst snd]. constructor; [|intros o _]; cbn; constructor; (split; [|lia]); [exact R|exact (to_redis_ads dst w _ eq_refl R)].
  Qed.
  Lemma k_model c ids w n : (forall o o', o_flags o = o_flags o' -> ok o -> ok o') -> to_redis dst w ->
    pays ok zero 0 (fun sx b => to_redis dst (fst sx) /\ n <= b /\ forall r, snd sx = Ok (Some r) -> exists o, nth_error (w_heap (fst sx)) r = Some o /\ ok o) (1 + n) (c_get_dst_model env c ids w).
  Proof.
    intros OKF R. pose proof R as (ad & i & A & S). unfold c_get_dst_model, ctry, cbind at 1, c_get, cbind at 1. cbn [here cthen].
    assert (GA : get_adapter dst w = (w, Ok ad)) by (unfold get_adapter; now rewrite A). rewrite GA. cbn [fst snd]. unfold cbind at 1. cbn [here cthen]. unfold lift. cbn [fst snd].
    destruct (get_uid _ _) as [u|e]; cbn [cthen fst snd].
    2:{ destruct (is_not_found e); constructor; (split; [exact R|]); (split; [lia|]); intros r X; discriminate X. }
    rewrite S. unfold c_load, cbind, cget. cbn [here cthen fst snd]. constructor.
    - cbn. constructor. split; [exact R|]. split; [lia|]. intros r X. discriminate X.
    - intros o P. cbn [here cthen halloc fst snd Nat.add]. set (w1 := set_heap w (w_heap w ++ [set_o_adapter o (Some dst)])).
      assert (H1 : nth_error (w_heap w1) (length (w_heap w)) = Some (set_o_adapter o (Some dst))) by (cbn [w1 set_heap w_heap]; rewrite nth_error_app2, Nat.sub_diag by lia; reflexivity).
      unfold mutate, bind, hget. rewrite H1. cbn [fst snd hset modify lift ret cthen here]. constructor. cbn [fst snd]. split; [exact (to_redis_ads dst w _ eq_refl R)|]. split; [lia|].
      intros r [= <-]. eexists. split; [cbn [set_heap w_heap]; apply (nth_list_set_eq _ _ _ _ H1)|]. refine (OKF o _ _ P). reflexivity.
  Qed.
  Lemma k_add r : spw 2 (c_add dst r).
  Proof.
    unfold c_add. apply (sp_bind _ _ _ _ 0 2); [apply r_here, kaw_hget|]. intros o. apply (sp_bind _ _ _ _ 0 2); [now apply r_here|]. intros u. cbv zeta.
    intros w n R. pose proof R as (ad & i & A & S). unfold cbind at 1. cbn [here cthen]. assert (GA : get_adapter dst w = (w, Ok ad)) by (unfold get_adapter; now rewrite A). rewrite GA. cbn [fst snd]. rewrite S.
    unfold cbind, cget. cbn [cthen fst snd]. constructor.
    - unfold c_put, cset. do 2 constructor. split; [exact R|lia].
    - intros x _. destruct (dump_eq x o); constructor; (split; [exact R|cbn; lia]).
  Qed.
  Lemma k_apply a p r : spw 3 (c_apply_to_store env a p r false).
  Proof.
    destruct a as [[]|]; cbn [c_apply_to_store]; try (apply (sp_more _ _ _ _ 0); [now apply r_here|lia]).
    - apply (sp_more _ _ _ _ 2); [|lia]. apply (sp_bind _ _ _ _ 0 2); [apply r_here; destruct p; [unfold heap_add_child; kaw|intros w; reflexivity]|]. intros _.
      apply (sp_bind _ _ _ _ 2 0); [apply k_add|]. intros _. now apply r_here.
    - apply (sp_bind _ _ _ _ 0 3); [apply r_here; destruct p; [unfold heap_remove_child; kaw|intros w; reflexivity]|]. intros _.
      apply (sp_bind _ _ _ _ 3 0); [|intros _; now apply r_here]. destruct (sv_fuel env); cbn [c_remove]; [apply (sp_more _ _ _ _ 0); [now apply r_here|lia]|].
      apply (sp_bind _ _ _ _ 0 3); [apply r_here, kaw_hget|]. intros o. apply (sp_bind _ _ _ _ 0 3); [now apply r_here|]. intros u.
      apply (sp_bind _ _ _ _ 2 1); [apply r_item|]. intros _. apply (sp_bind _ _ _ _ 1 0); [apply r_clear|]. intros _. now apply r_here.
  Qed.

End Look.
Section Sync.
  Variables (env : senv).
  Notation dst := (sv_dst env).
  Notation J := (fun s : sstate => to_redis dst (ss_w s)).
  Notation zero := (fun _ : obj => 0).
  Notation sp := (spend plainly zero 0 J).
  (** elements *)
  Lemma k_kids (l : list (option ref -> SM sstate bool)) cs : Forall2 (fun k c => forall p, sp c (k p)) l cs -> forall p b, sp (list_sum cs) (c_run_kids l p b).
  Proof.
    induction 1 as [|k c l cs K _ IH]; intros p b; cbn [c_run_kids]; [now apply sp_here|]. change (list_sum (c :: cs)) with (c + list_sum cs). apply sp_bind; [apply K|]. intros x. apply IH.
  Qed.
  Lemma same_flags o o' : o_flags o = o_flags o' -> plainly o -> plainly o'.
  Proof. unfold plainly. now intros ->. Qed.
  Lemma flag_plainly o : plainly o -> has_flag (o_flags o) MF_NATURAL_DELETION_ORDER = false /\ has_flag (o_flags o) MF_SKIP_CHILDREN_ON_DELETE = false.
  Proof. intros [P1 P4]. split; [change MF_NATURAL_DELETION_ORDER with (2 ^ 4)%N|change MF_SKIP_CHILDREN_ON_DELETE with (2 ^ 1)%N]; now rewrite has_flag_pow2. Qed.
  Lemma k_body e p l cs : Forall2 (fun k c => forall p, sp c (k p)) l cs -> sp (5 + list_sum cs) (c_sync_body env e p l).
  Proof.
    intros F. pose proof (k_kids l cs F) as KK. unfold c_sync_body. set (N := list_sum cs) in *.
    apply (sp_bind _ _ _ _ 0 (5 + N)); [apply k_here, ka_slift; intros w; unfold get_adapter; now destruct (nth_error _ _)|]. intros ad.
    apply (sp_bind _ _ _ _ 0 (5 + N)); [now apply k_here|]. intros c.
    apply (sp_bind _ _ _ _ 0 (5 + N)); [now apply k_here|]. intros _.
    apply (sp_bind _ _ _ _ 0 (5 + N)); [now apply k_here|]. intros u.
    apply (sp_bind _ _ _ _ 0 (5 + N)); [now apply k_here|]. intros _. cbv zeta.
    apply (sp_bind _ _ _ _ 1 (4 + N)); [apply k_lift, k_source|]. intros _.
    intros s n R. unfold cbind at 1. replace (4 + N + n) with (1 + (3 + N + n)) by lia. unfold cslift at 1.
    eapply pays_then; [eapply pays_then; [exact (k_model env plainly c (e_keys e) (ss_w s) (3 + N + n) same_flags R)|]|].
    { intros [w1 x] b H. constructor. exact (H : (fun (sx : sstate * result (option ref)) b => to_redis dst (ss_w (fst sx)) /\ 3 + N + n <= b /\ forall r, snd sx = Ok (Some r) -> exists o, nth_error (w_heap (ss_w (fst sx))) r = Some o /\ plainly o) (set_ss_w s w1, x) b). }
    intros [s1 [dm|ex]] b (R1 & L & H); cbn [fst snd] in *; [|constructor; split; [exact R1|lia]].
    assert (MF : forall f, f = MF_NATURAL_DELETION_ORDER \/ f = MF_SKIP_CHILDREN_ON_DELETE -> slift (model_flag dm f) s1 = (s1, Ok false)).
    { intros f FF. unfold slift, model_flag. destruct dm as [r|]; [|destruct s1; reflexivity]. destruct (H r eq_refl) as (o & E & P). unfold bind, hget. rewrite E. cbn [ret]. destruct (flag_plainly o P) as [F1 F2].
      destruct FF as [-> | ->]; rewrite ?F1, ?F2; destruct s1; reflexivity. }
    unfold cbind at 1. cbn [here cthen]. rewrite (MF MF_NATURAL_DELETION_ORDER (or_introl eq_refl)). cbn [fst snd].
    unfold cbind at 1. cbn [here cthen]. rewrite (MF MF_SKIP_CHILDREN_ON_DELETE (or_intror eq_refl)). cbn [fst snd andb negb orb].
    assert (G : sp (3 + N) (cbind (here get_state) (fun s : sstate => cbind (here (ret false)) (fun _ : bool =>
      cbind (here (sync_model env dm (e_keys e) match ad_plus (e_attrs_diffs e) with Some p => p | None => [] end)) (fun cm =>
      match snd cm with
      | None => here (slog LWarning None "No object resulted from sync, will not process child objects." ;;; ret (fst cm))
      | Some r => cbind (here get_state) (fun s => cbind (cslift (c_apply_to_store env (ss_action s) p r false)) (fun stop : bool =>
          if stop then here (ret (fst cm)) else cbind (here (incr_elements_processed env)) (fun _ => c_run_kids l (Some r) (fst cm))))
      end))))).
    { apply (sp_bind _ _ _ _ 0 (3 + N)); [now apply k_here|]. intros s2. apply (sp_bind _ _ _ _ 0 (3 + N)); [now apply k_here|]. intros _.
      apply (sp_bind _ _ _ _ 0 (3 + N)); [apply k_here, ka_model|]. intros [ch [r|]]; cbn [fst snd].
      - apply (sp_bind _ _ _ _ 0 (3 + N)); [now apply k_here|]. intros s3. apply (sp_bind _ _ _ _ 3 N); [apply k_lift, k_apply|]. intros [].
        + apply (sp_more _ _ _ _ 0); [now apply k_here|lia].
        + apply (sp_bind _ _ _ _ 0 N); [apply k_here; intros s4; cbn; now destruct (sv_cb env)|]. intros _. apply KK.
      - apply (sp_more _ _ _ _ 0); [|lia]. apply k_here, ka_bind; [apply ka_slog|intros _ s4; reflexivity]. }
    eapply pays_post; [exact (sp_at _ _ _ _ _ _ s1 b G R1 ltac:(lia))|]. intros x m [? ?]. split; [assumption|lia].
  Qed.
  Lemma k_all ord gs : (forall x, In x (children gs) -> forall p, sp (5 * elem_len ord x) (c_sync_elem ord env x p)) ->
    Forall2 (fun k c => forall p, sp c (k p)) (ordered ord (c_sync_elem ord env) gs) (map (fun x => 5 * elem_len ord x) (ordered ord (fun e => e) gs)).
  Proof.
    intros H. rewrite (ordered_map ord (c_sync_elem ord env)).
    assert (X : forall x, In x (ordered ord (fun e => e) gs) -> forall p, sp (5 * elem_len ord x) (c_sync_elem ord env x p)) by (intros x I; apply H, (ordered_sub ord), I).
    clear H. induction (ordered ord (fun e => e) gs) as [|x l IH]; cbn [map]; constructor; [apply X; now left|]. apply IH. intros y I. apply X. now right.
  Qed.
  Lemma sum5 ord l : list_sum (map (fun x => 5 * elem_len ord x) l) = 5 * list_sum (map (elem_len ord) l).
  Proof. induction l as [|x l IH]; [reflexivity|]. cbn [map]. unfold list_sum in *. cbn [fold_right]. lia. Qed.
  Lemma k_elem ord e : forall p, sp (5 * elem_len ord e) (c_sync_elem ord env e p).
  Proof.
    induction e as [e IH] using elem_ind'. intros p.
    assert (Z : c_sync_elem ord env e p = c_sync_body env e p (ordered ord (c_sync_elem ord env) (e_kids e))) by now destruct e.
    assert (LN : elem_len ord e = 1 + list_sum (ordered ord (elem_len ord) (e_kids e))) by now destruct e.
    rewrite Z, LN, ordered_map. replace (5 * (1 + list_sum (map (elem_len ord) (ordered ord (fun e0 => e0) (e_kids e))))) with (5 + list_sum (map (fun x => 5 * elem_len ord x) (ordered ord (fun e0 => e0) (e_kids e)))) by (rewrite sum5; lia).
    apply k_body, k_all. intros x I. apply In_children in I as (t & g & n & G & I). exact (IH t g n x G I).
  Qed.
  Lemma k_perform d : sp (5 * diff_len d) (c_perform_sync env d).
  Proof.
    unfold c_perform_sync, diff_len, groups_len. rewrite (ordered_map _ (elem_len _)), <- sum5. apply k_kids, k_all. intros x _. apply k_elem.
  Qed.
End Sync.
Lemma sync_cost fuel h dst src dc flags cb d w l q : to_redis dst w -> diff_len d <> 0 -> read_plainly l ->
  talk (issued dst (KSync fuel h src dc flags cb (Some d)) w) l q -> length l <= 5 * diff_len d.
Proof.
  intros R NZ RP T. assert (H : pays plainly (fun _ => 0) 0 (fun _ _ => True) (5 * diff_len d) (issued dst (KSync fuel h src dc flags cb (Some d)) w)).
  { cbn [issued]. unfold cfmap. eapply pays_then with (post := fun _ _ => True); [|intros [w' [x|x]] k _; now constructor].
    unfold c_sync_from, cbind at 1. cbn [here cthen]. assert (DT : diff_truthy (Some d) = true) by (cbn [diff_truthy]; destruct (Nat.eqb_spec (diff_len d) 0); [contradiction|reflexivity]). rewrite DT.
    destruct (negb (isinstance d dc)); cbn [andb raise ret fst snd]; [now constructor|]. unfold cbind at 1. cbn [here cthen ret fst snd]. unfold c_run_sync, cbind at 1.
    eapply pays_then with (post := fun _ _ => True); [|intros [w' [x|x]] k _; now constructor]. eapply pays_then with (post := fun _ _ => True); [|intros x k _; now constructor].
    pose proof (k_perform (mkSEnv src dst flags (diff_len d) cb (unseeing h) fuel) d (mkSS w 0 None None None) 0 R) as X. rewrite Nat.add_0_r in X. eapply pays_post; [exact X|trivial]. }
  apply (pays_talk _ _ _ _ _ _ _ T) in H; [|exact RP]. rewrite pay_none in H. lia.
Qed.

Lemma remove_cost fuel a r w o l q : to_redis a w -> nth_error (w_heap w) r = Some o ->
  talk (issued a (KRemove fuel r true) w) l q -> length l <= 3 + 4 * (kids_named o + children_read l).
Proof.
  intros R H T. assert (P : pays (fun _ => True) (fun o => 4 * kids_named o) 0 (fun _ _ => True) (3 + 4 * kids_named o + 0) (issued a (KRemove fuel r true) w)).
  { cbn [issued]. unfold cfmap. eapply pays_then with (post := fun _ _ => True); [|intros [w' [x|x]] k _; now constructor]. eapply pays_post; [now apply r_remove|trivial]. }
  apply (pays_talk _ _ _ _ _ _ _ T) in P; [|auto].
  replace (list_sum (map (pay (fun o => 4 * kids_named o) 0) l)) with (4 * children_read l) in P; [lia|]. clear. unfold children_read.
  induction l as [|m l IH]; [reflexivity|]. cbn [map]. unfold list_sum in *. cbn [fold_right]. destruct m as [k [x|]|k x|k b|k|k ks]; cbn [pay]; lia.
Qed.

(** ** Processes *)
Lemma talk_more {A} (p q q' : cprog A) l m : talk p l q -> talk q [m] q' -> talk p (l ++ [m]) q'.
Proof. induction 1; cbn [app]; intros H1; [exact H1|..]; constructor; auto. Qed.
Lemma step_talk {A} d d' (p p' : cprog A) : cstep (d, p) (d', p') -> exists m, talk p [m] p'.
Proof. inversion 1; subst; eexists; do 2 constructor. Qed.
(** the turns of a process in a run of the system *)
Lemma system_talk {A} n (s s' : dict obj * list (cprog A)) : many sys_step s s' -> forall p0 p l, talk p0 l p -> nth_error (snd s) n = Some p ->
  exists q l', nth_error (snd s') n = Some q /\ talk p0 (l ++ l') q.
Proof.
  induction 1 as [s|s s1 s2 ST _ IH]; intros p0 p l T N; [exists p, []; now rewrite app_nil_r|].
  destruct ST as [d d' ps m x x' NX CS]. cbn [snd] in *. destruct (Nat.eq_dec n m) as [->|NE].
  - assert (x = p) by congruence. subst x. destruct (step_talk _ _ _ _ CS) as (mm & TM). destruct (IH p0 x' (l ++ [mm]) (talk_more _ _ _ _ _ T TM)) as (q & l' & Q & T2).
    + exact (nth_list_set_eq ps m x' p NX).
    + exists q, ([mm] ++ l'). split; [exact Q|]. now rewrite app_assoc.
  - apply (IH p0 p l T). now rewrite nth_list_set_neq by exact NE.
Qed.
