(** * IndepFacts: adapters that share nothing never come to share anything. *)
From Verif Require Export IndepSpec SyncFrom.

(** ** References stay valid *)
Section Valid.
  Context {St : Type} (pr : St -> world).
  Definition kw {A} (m : M St A) : Prop :=
    forall s, w_ok (pr s) -> w_ok (pr (fst (m s))) /\ length (w_heap (pr s)) <= length (w_heap (pr (fst (m s)))).
  Lemma kw_bind {A B} (m : M St A) (k : A -> M St B) : kw m -> (forall a, kw (k a)) -> kw (bind m k).
  Proof.
    intros H1 H2 s OK. unfold bind. specialize (H1 s OK). destruct (m s) as [s1 [a|e]]; cbn [fst] in *; [|exact H1].
    destruct H1 as [O1 L1]. destruct (H2 a s1 O1) as [O2 L2]. split; [exact O2|lia].
  Qed.
  Lemma kw_same {A} (m : M St A) : (forall s, pr (fst (m s)) = pr s) -> kw m.
  Proof. intros H s OK. now rewrite H. Qed.
  Lemma kw_ret {A} (a : A) : kw (ret a). Proof. now apply kw_same. Qed.
  Lemma kw_raise {A} e : kw (A := A) (raise e). Proof. now apply kw_same. Qed.
  Lemma kw_lift {A} (r : result A) : kw (lift r). Proof. now apply kw_same. Qed.
  Lemma kw_get : kw get_state. Proof. now apply kw_same. Qed.
  Lemma kw_try {A} (m : M St A) p h : kw m -> (forall e, kw (h e)) -> kw (try_catch m p h).
  Proof.
    intros H1 H2 s OK. unfold try_catch. specialize (H1 s OK). destruct (m s) as [s1 [a|e]]; cbn [fst] in *; [exact H1|].
    destruct (p e); [|exact H1]. destruct H1 as [O1 L1]. destruct (H2 e s1 O1) as [O2 L2]. split; [exact O2|lia].
  Qed.
  Lemma kw_forM {A} (l : list A) f : (forall x, kw (f x)) -> kw (forM l f).
  Proof. intros H. induction l as [|x l IH]; cbn [forM]; [apply kw_ret|]. apply kw_bind; auto. Qed.
End Valid.
Notation kww := (kw (fun w : world => w)).
Notation kws := (kw ss_w).

Lemma kw_ro {A} (m : M world A) : (forall w, read_only w (fst (m w))) -> kww m.
Proof. intros H w OK. split; [eapply read_only_w_ok; eauto|now apply read_only_length]. Qed.
Lemma kw_hget r : kww (hget r). Proof. apply kw_same. intros w. unfold hget. now destruct (nth_error _ _). Qed.
Lemma kw_adapter a : kww (get_adapter a). Proof. apply kw_same. intros w. unfold get_adapter. now destruct (nth_error _ _). Qed.
Lemma w_ok_set w r o : w_ok w -> w_ok (set_heap w (list_set (w_heap w) r o)).
Proof. intros OK a ad d m b u x H1 H2 H3 H4. cbn [w_heap set_heap]. rewrite list_set_length. eapply OK; eauto. Qed.
Lemma kw_hset r o : kww (hset r o).
Proof. intros w OK. split; [now apply w_ok_set|]. cbn. now rewrite list_set_length. Qed.
Lemma kw_halloc o : kww (halloc o). Proof. apply kw_ro. intros w. apply read_only_alloc. Qed.
Lemma kw_emit ev : kww (emit ev). Proof. intros w OK. now split. Qed.
Lemma kw_mutate r f : kww (mutate r f).
Proof. unfold mutate. apply kw_bind; [apply kw_hget|]. intros o. apply kw_bind; [apply kw_hset|]. intros _. apply kw_lift. Qed.

Lemma w_ok_upd w a ad d d' : w_ok w -> is_local w a ad d ->
  (forall t b u r, In (t, b) d' -> In (u, r) b -> r < length (w_heap w)) -> w_ok (upd_store w a (SLocal d')).
Proof.
  intros OK L H b ad' e m c u r E1 E2 I1 I2. rewrite upd_store_heap. destruct (Nat.eq_dec b a) as [->|N].
  - destruct (is_local_upd w a ad d d' L) as [X1 X2]. rewrite X1 in E1. injection E1 as <-. rewrite X2 in E2. injection E2 as <-. eauto.
  - rewrite upd_store_other in E1 by exact N. eapply OK; eauto.
Qed.
Lemma touch_valid w a ad d t : w_ok w -> is_local w a ad d ->
  forall t' b u r, In (t', b) (touch d t) -> In (u, r) b -> r < length (w_heap w).
Proof.
  intros OK [L1 L2] t' b u r I1 I2. unfold touch in I1. destruct (dget d t); [eapply OK; eauto|].
  apply SyncFacts.In_dset in I1 as [I1| ->]; [eapply OK; eauto|destruct I2].
Qed.
Lemma bucket_valid w a ad d t u r : w_ok w -> is_local w a ad d -> In (u, r) (bucket d t) -> r < length (w_heap w).
Proof. intros OK [L1 L2] I. eapply OK; eauto. eapply In_bucket_In; eauto. Qed.

(** the last step of [add] and [update]: the object goes into the LocalStore *)
Lemma kw_enter w w2 a ad ad2 d t u r : w_ok w -> is_local w a ad d -> r < length (w_heap w) ->
  w_ok w2 -> is_local w2 a ad2 (touch d t) -> length (w_heap w2) = length (w_heap w) ->
  w_ok (upd_store w2 a (SLocal (dset (touch d t) t (dset (bucket d t) u r)))).
Proof.
  intros OK L LT OK2 L2 LE. apply (w_ok_upd w2 a ad2 (touch d t) _ OK2 L2). intros t' b u' r' I1 I2. rewrite LE.
  apply SyncFacts.In_dset in I1 as [I1| ->]; [eapply touch_valid; eauto|].
  apply SyncFacts.In_dset in I2 as [I2| ->]; [|exact LT]. eapply bucket_valid; eauto.
Qed.
Lemma kw_st_add a r : kww (st_add a r).
Proof.
  intros w OK. unfold st_add, bind. unfold hget.
  destruct (nth_error (w_heap w) r) as [o|] eqn:Ho; [|now split]. unfold lift.
  destruct (get_unique_id o) as [u|] eqn:Hu; [|now split].
  unfold get_adapter. destruct (nth_error (w_ads w) a) as [ad|] eqn:E; [|now split].
  assert (LT : r < length (w_heap w)) by (apply nth_error_Some; congruence).
  destruct (ad_store ad) as [d|sid] eqn:ES.
  - rewrite put_store_eq. pose proof (conj E ES : is_local w a ad d) as L.
    pose proof (w_ok_upd w a ad d _ OK L (touch_valid w a ad d (get_type o) OK L)) as OK1.
    pose proof (is_local_upd w a ad d (touch d (get_type o)) L) as L1.
    assert (H1 : w_heap (upd_store w a (SLocal (touch d (get_type o)))) = w_heap w) by apply upd_store_heap.
    set (w1 := upd_store w a (SLocal (touch d (get_type o)))) in *.
    destruct (dget (bucket d (get_type o)) u) as [r'|] eqn:G.
    + destruct (Nat.eqb r' r); cbn [fst ret raise]; (split; [exact OK1|now rewrite H1]).
    + unfold get_state. destruct (adapter_truthy w1 (o_adapter o)).
      * unfold ret. rewrite put_store_eq. cbn [fst]. rewrite upd_store_heap, H1. split; [|lia]. eapply (kw_enter w w1 a ad _ d); eauto. now rewrite H1.
      * unfold hset, modify. rewrite put_store_eq. cbn [fst]. rewrite upd_store_heap. cbn [w_heap set_heap]. rewrite list_set_length, H1. split; [|lia].
        eapply (kw_enter w _ a ad _ d _ _ _ OK L LT); [rewrite <- H1; now apply w_ok_set|exact L1|]. cbn [w_heap set_heap]. now rewrite list_set_length.
  - unfold get_state. destruct (dget (w_redis w) _); [destruct (dump_eq _ _)|]; now split.
Qed.
Lemma kw_st_update a r : kww (st_update a r).
Proof.
  intros w OK. unfold st_update, bind. unfold hget.
  destruct (nth_error (w_heap w) r) as [o|] eqn:Ho; [|now split]. unfold lift.
  destruct (get_unique_id o) as [u|] eqn:Hu; [|now split].
  unfold get_adapter. destruct (nth_error (w_ads w) a) as [ad|] eqn:E; [|now split].
  assert (LT : r < length (w_heap w)) by (apply nth_error_Some; congruence).
  destruct (ad_store ad) as [d|sid] eqn:ES; [|now split].
  rewrite put_store_eq. pose proof (conj E ES : is_local w a ad d) as L.
  pose proof (w_ok_upd w a ad d _ OK L (touch_valid w a ad d (get_type o) OK L)) as OK1.
  pose proof (is_local_upd w a ad d (touch d (get_type o)) L) as L1.
  assert (H1 : w_heap (upd_store w a (SLocal (touch d (get_type o)))) = w_heap w) by apply upd_store_heap.
  set (w1 := upd_store w a (SLocal (touch d (get_type o)))) in *.
  assert (FIN : w_ok (upd_store w1 a (SLocal (dset (touch d (get_type o)) (get_type o) (dset (bucket d (get_type o)) u r)))))
    by (eapply (kw_enter w w1 a ad _ d); eauto; now rewrite H1).
  destruct (dget (bucket d (get_type o)) u) as [r'|] eqn:G; [destruct (Nat.eqb r' r)|];
    rewrite ?put_store_eq; cbn [fst ret]; rewrite ?upd_store_heap, H1; (split; [assumption|lia]).
Qed.
Lemma kw_remove_item a t u : kww (st_remove_item a t u).
Proof.
  intros w OK. unfold st_remove_item, bind, get_adapter.
  destruct (nth_error (w_ads w) a) as [ad|] eqn:E; [|now split].
  destruct (ad_store ad) as [d|sid] eqn:ES.
  - rewrite put_store_eq. pose proof (conj E ES : is_local w a ad d) as L.
    pose proof (w_ok_upd w a ad d _ OK L (touch_valid w a ad d t OK L)) as OK1.
    pose proof (is_local_upd w a ad d (touch d t) L) as L1.
    assert (H1 : w_heap (upd_store w a (SLocal (touch d t))) = w_heap w) by apply upd_store_heap.
    set (w1 := upd_store w a (SLocal (touch d t))) in *.
    destruct (dget (bucket d t) u) as [r|] eqn:G; [|cbn [fst raise]; split; [exact OK1|now rewrite H1]].
    rewrite put_store_eq. cbn [fst]. rewrite upd_store_heap, H1. split; [|lia].
    apply (w_ok_upd w1 a _ _ _ OK1 L1). intros t' b u' r' I1 I2. rewrite H1.
    apply SyncFacts.In_dset in I1 as [I1| ->]; [eapply touch_valid; eauto|]. apply SyncFacts.In_ddel in I2. eapply bucket_valid; eauto.
  - unfold get_state. destruct (dget (w_redis w) _); now split.
Qed.
Lemma kw_clear r : kww (clear_adapter r).
Proof.
  unfold clear_adapter. apply kw_bind; [apply kw_hget|]. intros o. apply kw_bind; [apply kw_get|]. intros w.
  destruct (adapter_truthy w (o_adapter o)); [apply kw_hset|apply kw_ret].
Qed.
Lemma kw_st_get a m i : kww (st_get a m i). Proof. apply kw_ro. intros. apply ro_st_get. Qed.
Lemma kw_remove fuel a : forall r b, kww (st_remove fuel a r b).
Proof.
  induction fuel as [|fuel IH]; intros r b; cbn [st_remove]; [apply kw_raise|].
  apply kw_bind; [apply kw_hget|]. intros o. apply kw_bind; [apply kw_lift|]. intros u.
  apply kw_bind; [apply kw_remove_item|]. intros _. apply kw_bind; [apply kw_clear|]. intros _.
  destruct b; [|apply kw_ret]. apply kw_forM. intros [t f]. apply kw_bind; [apply kw_lift|]. intros ids.
  apply kw_forM. intros id. apply kw_try; [|intros; apply kw_emit]. apply kw_bind; [apply kw_st_get|]. intros c. apply IH.
Qed.

(** ** The synchronisation *)
Lemma kw_slift {A} (m : M world A) : kww m -> kws (slift m).
Proof. intros H s OK. exact (H (ss_w s) OK). Qed.
Lemma kw_slog l st msg : kws (slog l st msg).
Proof. apply kw_bind; [apply kw_get|]. intros s. apply kw_slift, kw_emit. Qed.
Lemma kw_status env a st msg : kws (log_sync_status env a st msg).
Proof. unfold log_sync_status. destruct a; [destruct st; apply kw_slog|]. destruct (has_flag _ _); [apply kw_slog|apply kw_ret]. Qed.
Lemma kw_incr env : kws (incr_elements_processed env).
Proof. intros s OK. unfold incr_elements_processed. cbn. destruct (sv_cb env); now split. Qed.
Lemma kw_hook_end {A} (o : hook_end) (x y : A) : kww match o with HReturn => ret x | HReturnNone => ret y | HRaise e => raise e end.
Proof. destruct o; [apply kw_ret|apply kw_ret|apply kw_raise]. Qed.
Lemma kw_create env c ids attrs : kww (call_create env c ids attrs).
Proof.
  unfold call_create. apply kw_bind; [apply kw_get|]. intros w. apply kw_bind; [apply kw_emit|]. intros _.
  apply kw_bind; [|intros; apply kw_hook_end]. destruct (ho_base _); [|apply kw_ret].
  apply kw_bind; [apply kw_lift|]. intros o. apply kw_bind; [apply kw_halloc|]. intros; apply kw_ret.
Qed.
Lemma kw_update env r attrs : kww (call_update env r attrs).
Proof.
  unfold call_update. apply kw_bind; [apply kw_get|]. intros w. apply kw_bind; [apply kw_hget|]. intros o.
  apply kw_bind; [apply kw_emit|]. intros _. apply kw_bind; [destruct (ho_base _); [apply kw_mutate|apply kw_ret]|]. intros _.
  apply kw_bind; [apply kw_mutate|]. intros _. apply kw_hook_end.
Qed.
Lemma kw_delete env r : kww (call_delete env r).
Proof.
  unfold call_delete. apply kw_bind; [apply kw_get|]. intros w. apply kw_bind; [apply kw_hget|]. intros o.
  apply kw_bind; [apply kw_emit|]. intros _. apply kw_bind; [destruct (ho_base _); [apply kw_mutate|apply kw_ret]|]. intros _.
  apply kw_bind; [apply kw_mutate|]. intros _. apply kw_hook_end.
Qed.
Lemma kw_model env dm ids attrs : kws (sync_model env dm ids attrs).
Proof.
  unfold sync_model. apply kw_bind; [apply kw_get|]. intros s. destruct (ss_action s) as [a|]; [|apply kw_bind; [apply kw_status|intros; apply kw_ret]].
  apply kw_bind.
  - apply kw_try.
    + apply kw_bind; [|intros; apply kw_ret]. unfold sync_model_try. apply kw_bind; [apply kw_get|]. intros s'.
      apply kw_bind.
      * destruct (ss_action s') as [[]|]; destruct dm; try apply kw_raise.
        -- destruct (ss_class s'); [apply kw_slift, kw_create|apply kw_raise].
        -- apply kw_slift, kw_update.
        -- apply kw_slift, kw_delete.
      * intros [r|]; [|apply kw_ret]. apply kw_bind; [apply kw_slift, kw_hget|]. intros; apply kw_ret.
    + intros e. apply kw_bind; [apply kw_status|]. intros _. destruct (has_flag _ _); [apply kw_ret|apply kw_raise].
  - intros [[m [st msg]]|]; [|apply kw_ret]. apply kw_bind; [apply kw_status|]. intros; apply kw_ret.
Qed.
Lemma kw_link p c (f : obj -> obj -> result obj) : kww (po <- hget p ;; co <- hget c ;; po' <- lift (f po co) ;; hset p po').
Proof. apply kw_bind; [apply kw_hget|]. intros. apply kw_bind; [apply kw_hget|]. intros. apply kw_bind; [apply kw_lift|]. intros. apply kw_hset. Qed.
Lemma kw_apply env a p r b : kww (apply_to_store env a p r b).
Proof.
  unfold apply_to_store. destruct a as [[]|]; try apply kw_ret.
  - apply kw_bind; [destruct p; [apply kw_link|apply kw_ret]|]. intros _. apply kw_bind; [apply kw_st_add|]. intros; apply kw_ret.
  - apply kw_bind; [destruct p; [apply kw_link|apply kw_ret]|]. intros _. apply kw_bind; [apply kw_remove|]. intros; apply kw_ret.
Qed.
Lemma kw_dst_model env c ids : kww (get_dst_model env c ids).
Proof.
  apply kw_try; [|intros; apply kw_ret]. apply kw_bind; [apply kw_st_get|]. intros r. apply kw_bind; [apply kw_mutate|]. intros; apply kw_ret.
Qed.
Lemma kw_flag dm f : kww (model_flag dm f).
Proof. destruct dm; [|apply kw_ret]. apply kw_bind; [apply kw_hget|]. intros; apply kw_ret. Qed.
Lemma kw_kids kids : (forall k, In k kids -> forall p, kws (k p)) -> forall p b, kws (run_kids kids p b).
Proof.
  induction kids as [|k kids IH]; intros H p b; cbn [run_kids]; [apply kw_ret|].
  apply kw_bind; [apply H; now left|]. intros b'. apply IH. intros k' I. apply H. now right.
Qed.
Lemma kw_body env e p kids : (forall k, In k kids -> forall p, kws (k p)) -> kws (sync_body env e p kids).
Proof.
  intros H. unfold sync_body. apply kw_bind; [apply kw_slift, kw_adapter|]. intros ad. apply kw_bind; [apply kw_lift|]. intros c.
  apply kw_bind; [now apply kw_same|]. intros _. apply kw_bind; [apply kw_lift|]. intros u. apply kw_bind; [now apply kw_same|]. intros _.
  apply kw_bind; [apply kw_slift, kw_ro; intros; apply ro_get_or_none|]. intros _. apply kw_bind; [apply kw_slift, kw_dst_model|]. intros dm.
  apply kw_bind; [apply kw_slift, kw_flag|]. intros nat. apply kw_bind; [apply kw_slift, kw_flag|]. intros sk.
  apply kw_bind; [apply kw_get|]. intros s. apply kw_bind; [destruct (_ && _); [now apply kw_kids|apply kw_ret]|]. intros _.
  apply kw_bind; [apply kw_model|]. intros [ch [r|]]; cbn [fst snd].
  - apply kw_bind; [apply kw_get|]. intros s'. apply kw_bind; [apply kw_slift, kw_apply|]. intros [|]; [apply kw_ret|].
    apply kw_bind; [apply kw_incr|]. intros _. destruct (_ || _); [now apply kw_kids|apply kw_ret].
  - apply kw_bind; [apply kw_slog|]. intros; apply kw_ret.
Qed.
Lemma kw_elem ord env e : forall p, kws (sync_elem ord env e p).
Proof.
  induction e as [e IH] using elem_ind'. intros p. rewrite sync_elem_eq. apply kw_body. intros k I q.
  apply ordered_sync in I as (x & I & ->). apply In_children in I as (t & g & n & G & I). exact (IH t g n x G I q).
Qed.
Lemma kw_run_sync env d : kww (run_sync env d).
Proof.
  unfold run_sync. apply kw_bind; [|intros b; apply kw_bind; [destruct b; [apply kw_emit|apply kw_ret]|intros; apply kw_ret]].
  intros w OK. cbv zeta. cbn [fst]. unfold perform_sync.
  assert (X : forall k, In k (ordered (dc_order (d_class d)) (sync_elem (dc_order (d_class d)) env) (d_groups d)) -> forall p, kws (k p))
    by (intros k I p; apply ordered_sync in I as (x & _ & ->); apply kw_elem).
  exact (kw_kids _ X None false (mkSS w 0 None None None) OK).
Qed.

(** ** One deed *)
Lemma kp_st_update w0 dst r : mine w0 dst r -> kp w0 dst (st_update dst r) (fun _ => True).
Proof.
  intros Hr w HA. split; [|auto]. unfold st_update, bind. unfold hget at 1.
  destruct (nth_error (w_heap w) r) as [o|] eqn:Ho; [|exact HA]. unfold lift.
  destruct (get_unique_id o) as [u|] eqn:Hu; [|exact HA].
  unfold get_adapter. destruct (nth_error (w_ads w) dst) as [ad|] eqn:E; [|exact HA].
  destruct (ad_store ad) as [d|sid] eqn:ES.
  - rewrite put_store_eq.
    pose proof (apart_ro _ _ _ _ HA (read_only_touch w dst ad d (get_type o) (conj E ES))) as HA1.
    pose proof (is_local_upd w dst ad d (touch d (get_type o)) (conj E ES)) as L1.
    set (w1 := upd_store w dst (SLocal (touch d (get_type o)))) in *.
    assert (FIN : apart w0 dst (fst (put_store dst (SLocal (dset (touch d (get_type o)) (get_type o) (dset (bucket d (get_type o)) u r))) w1))).
    { rewrite put_store_eq. cbn [fst]. eapply apart_upd; eauto.
      intros t u' r'. rewrite bucket_dset.
      assert (OLD : forall t0, In (u', r') (bucket d t0) -> mine w0 dst r').
      { intros t0 X. apply (ap_mine _ _ w HA). rewrite (holds_local _ _ _ _ _ (conj E ES)). eauto. }
      destruct (String.eqb t (get_type o)).
      - intros X. apply SyncFacts.In_dset in X as [X| ->]; [eauto|exact Hr].
      - rewrite touch_bucket. eauto. }
    destruct (dget (bucket d (get_type o)) u) as [r'|] eqn:G; [destruct (Nat.eqb r' r)|]; [exact HA1|exact FIN|exact FIN].
  - apply apart_redis; [exact HA|]. eapply apart_dst_key; eauto.
Qed.

Lemma deed_ok x w : w_ok w -> w_ok (do_one x w).
Proof.
  intros OK. destruct x as [a o|a o|a t u o|fuel a t u b|fuel dst src dc flags cb|fuel h dst src dc flags cb given]; cbn [do_one].
  - apply (kw_bind _ _ _ (kw_halloc o) (fun r => kw_st_add a r) w OK).
  - apply (kw_bind _ _ _ (kw_halloc o) (fun r => kw_st_update a r) w OK).
  - apply (kw_bind _ _ _ (kw_st_get a (MName t) (IdStr u)) (fun r => kw_hset r o) w OK).
  - apply (kw_bind _ _ _ (kw_st_get a (MName t) (IdStr u)) (fun r => kw_remove fuel a r b) w OK).
  - eapply read_only_w_ok; [exact OK|apply diff_from_quiet].
  - destruct (sync_from_split fuel h dst src dc flags cb given w) as [(RO & _)|(d & wd & _ & _ & RO & _ & ->)].
    + eapply read_only_w_ok; eauto.
    + apply kw_run_sync. eapply read_only_w_ok; eauto.
Qed.
(** a deed does nothing but to its adapter, except that objects may become new *)
Lemma deed_apart x w : exists wd, read_only w wd /\ apart wd (who x) (do_one x w).
Proof.
  destruct x as [a o|a o|a t u o|fuel a t u b|fuel dst src dc flags cb|fuel h dst src dc flags cb given]; cbn [do_one who].
  - exists w. split; [apply read_only_refl|]. refine (proj1 (kp_bind w a _ _ _ _ (kp_halloc w a o) _ w (apart_refl w a))). intros r R. now apply kp_st_add.
  - exists w. split; [apply read_only_refl|]. refine (proj1 (kp_bind w a _ _ _ _ (kp_halloc w a o) _ w (apart_refl w a))). intros r R. now apply kp_st_update.
  - exists w. split; [apply read_only_refl|]. refine (proj1 (kp_bind w a _ _ _ _ (kp_st_get w a (MName t) (IdStr u)) _ w (apart_refl w a))). intros r R. now apply kp_hset.
  - exists w. split; [apply read_only_refl|]. refine (proj1 (kp_bind w a _ _ _ _ (kp_st_get w a (MName t) (IdStr u)) _ w (apart_refl w a))). intros r R. now apply kp_remove.
  - eexists. split; [apply (diff_from_quiet fuel dst src dc flags cb w)|apply apart_refl].
  - destruct (sync_from_split fuel h dst src dc flags cb given w) as [(RO & _)|(d & wd & _ & _ & RO & _ & ->)].
    + eexists. split; [exact RO|apply apart_refl].
    + exists wd. split; [exact RO|]. now apply run_sync_apart.
Qed.

(** ** Sharing nothing *)
Lemma same_ad_holds w w' b r : same_ad (nth_error (w_ads w) b) (nth_error (w_ads w') b) -> holds w' b r -> holds w b r.
Proof.
  intros S (ad' & d' & t & u & [E1 E2] & I). rewrite E1 in S. unfold same_ad in S. destruct (nth_error (w_ads w) b) as [ad|] eqn:E; [|destruct S].
  destruct S as (s & -> & X). cbn in E2. subst s. destruct (ad_store ad) as [d|] eqn:ED; [|destruct X].
  exists ad, d, t, u. split; [now split|]. cbn in X. destruct X as (names & X & _). rewrite X in I. now rewrite bucket_ext in I.
Qed.
Lemma same_ad_redis w w' b i : same_ad (nth_error (w_ads w) b) (nth_error (w_ads w') b) -> on_redis w' b i -> on_redis w b i.
Proof.
  intros S (ad' & E1 & E2). rewrite E1 in S. unfold same_ad in S. destruct (nth_error (w_ads w) b) as [ad|] eqn:E; [|destruct S].
  destruct S as (s & -> & X). cbn in E2. subst s. destruct (ad_store ad) as [d|j] eqn:ED; [destruct X|]. cbn in X. subst j. exists ad. now split.
Qed.
Lemma like_ad_redis w w' b i : like_ad (nth_error (w_ads w) b) (nth_error (w_ads w') b) -> on_redis w' b i -> on_redis w b i.
Proof.
  intros S (ad' & E1 & E2). rewrite E1 in S. unfold like_ad in S. destruct (nth_error (w_ads w) b) as [ad|] eqn:E; [|destruct S].
  destruct S as (s & -> & X). cbn in E2. subst s. destruct (ad_store ad) as [d|j] eqn:ED; [destruct X|]. subst j. exists ad. now split.
Qed.
Lemma holds_valid w a r : w_ok w -> holds w a r -> r < length (w_heap w).
Proof. intros OK (ad & d & t & u & [E1 E2] & H). eapply (OK a ad d t (bucket d t) u r); eauto. eapply In_bucket_In; eauto. Qed.
Lemma share_sym w a b : share_nothing w a b -> share_nothing w b a.
Proof. intros [H1 H2]. split; [intros r X Y; exact (H1 r Y X)|]. intros i j X Y m u m' u' E. exact (H2 j i Y X m' u' m u (eq_sym E)). Qed.
Lemma apart_strangers w dst w' : w_ok w -> strangers w -> apart w dst w' -> strangers w'.
Proof.
  intros OK ST [A1 A2 A3 A4 A5 A6].
  assert (D : forall b, b <> dst -> share_nothing w' dst b).
  { intros b N. destruct (ST dst b (not_eq_sym N)) as [S1 S2]. split.
    - intros r H1 H2. apply (same_ad_holds w w' b r (A4 b N)) in H2. pose proof (holds_valid w b r OK H2) as LT.
      destruct (A3 r H1) as [G|G]; [lia|exact (S1 r G H2)].
    - intros i j H1 H2. apply S2; [exact (like_ad_redis _ _ _ _ A5 H1)|exact (same_ad_redis _ _ _ _ (A4 b N) H2)]. }
  intros a b N. destruct (Nat.eq_dec a dst) as [->|NA]; [apply D; congruence|]. destruct (Nat.eq_dec b dst) as [->|NB]; [apply share_sym, D; congruence|].
  destruct (ST a b N) as [S1 S2]. split.
  - intros r H1 H2. exact (S1 r (same_ad_holds _ _ _ _ (A4 a NA) H1) (same_ad_holds _ _ _ _ (A4 b NB) H2)).
  - intros i j H1 H2. exact (S2 i j (same_ad_redis _ _ _ _ (A4 a NA) H1) (same_ad_redis _ _ _ _ (A4 b NB) H2)).
Qed.
Lemma deed_strangers x w : w_ok w -> strangers w -> strangers (do_one x w).
Proof.
  intros OK ST. destruct (deed_apart x w) as (wd & RO & AP). eapply apart_strangers; [eapply read_only_w_ok; eauto| |exact AP].
  intros a b N. eapply ro_share; eauto.
Qed.
Lemma deed_intact x w a : w_ok w -> strangers w -> a <> who x -> intact w (do_one x w) a.
Proof.
  intros OK ST N. destruct (deed_apart x w) as (wd & RO & AP). eapply intact_trans; [apply (ro_intact w wd); assumption|].
  eapply apart_intact; [exact N|eapply read_only_w_ok; eauto|eapply ro_share; eauto|exact AP].
Qed.
Lemma intact_refl w a : intact w w a.
Proof. split; [reflexivity|]. split; [reflexivity|]. intros i H. now split. Qed.
Lemma deeds_all l : forall w, w_ok w -> strangers w -> w_ok (do_deeds l w) /\ strangers (do_deeds l w) /\
  forall a, Forall (fun x => a <> who x) l -> intact w (do_deeds l w) a.
Proof.
  induction l as [|x l IH]; intros w OK ST; cbn [do_deeds]; [split; [exact OK|]; split; [exact ST|]; intros; apply intact_refl|].
  pose proof (deed_ok x w OK) as OK1. pose proof (deed_strangers x w OK ST) as ST1. destruct (IH _ OK1 ST1) as (H1 & H2 & H3).
  split; [exact H1|]. split; [exact H2|]. intros a F. inversion F as [|y l' F1 F2]; subst. eapply intact_trans; [exact (deed_intact x w a OK ST F1)|exact (H3 a F2)].
Qed.
Lemma deed_new x w r : holds (do_one x w) (who x) r -> holds w (who x) r \/ length (w_heap w) <= r.
Proof.
  destruct (deed_apart x w) as (wd & RO & AP). intros H. destruct (ap_mine _ _ _ AP r H) as [G|G].
  - right. pose proof (read_only_length _ _ RO). lia.
  - left. now rewrite (read_only_holds _ _ _ _ RO) in G.
Qed.
