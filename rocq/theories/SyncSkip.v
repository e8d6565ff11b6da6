(** * SyncSkip: a synchronisation without creations adds nothing, one without deletions removes nothing. *)
From Verif Require Export SyncPair DifferLast.

Section Mono.
  Variables (dst : aid) (up : bool).
  Definition banned : action := if up then ADelete else ACreate.

  (** the destination's entries: none lost if [up], none gained otherwise *)
  Definition within (w w' : world) : Prop :=
    (forall t u, lookup w dst t u <> None -> lookup w' dst t u <> None) /\
    (up = true -> forall t u r, lookup w dst t u = Some r -> lookup w' dst t u = Some r) /\
    (forall i m u, on_redis w dst i -> dget (w_redis w) (redis_key i m u) <> None -> dget (w_redis w') (redis_key i m u) <> None).
  Record mono (w w' : world) : Prop := mkMono {
    mo_ev : exists evs, w_trace w' = w_trace w ++ evs /\ Forall (fun ev => ~ is_hook banned ev) evs;
    mo_ad : like_ad (nth_error (w_ads w) dst) (nth_error (w_ads w') dst);
    mo_in : if up then within w w' else within w' w
  }.
  Lemma within_refl w : within w w.
  Proof. unfold within. auto. Qed.
  Lemma like_refl x : like_ad x x.
  Proof. unfold like_ad. destruct x as [ad|]; [|exact I]. exists (ad_store ad). split; [now destruct ad|]. now destruct (ad_store ad). Qed.
  Lemma like_trans x y z : like_ad x y -> like_ad y z -> like_ad x z.
  Proof.
    unfold like_ad. destruct x as [a|], y as [b|], z as [c|]; try tauto. intros (s & -> & H) (s' & -> & H'). exists s'.
    split; [reflexivity|]. simpl in H'. destruct (ad_store a), s, s'; try tauto; congruence.
  Qed.
  Lemma like_redis w w' i : like_ad (nth_error (w_ads w) dst) (nth_error (w_ads w') dst) -> on_redis w dst i <-> on_redis w' dst i.
  Proof.
    intros L. unfold on_redis. unfold like_ad in L. destruct (nth_error (w_ads w) dst) as [a|], (nth_error (w_ads w') dst) as [b|]; try tauto.
    - destruct L as (s & -> & L). split; intros (x & E & ES); injection E as <-.
      + eexists. split; [reflexivity|]. simpl. rewrite ES in L. destruct s; [tauto|congruence].
      + exists a. split; [reflexivity|]. simpl in ES. subst s. destruct (ad_store a); [tauto|congruence].
  Qed.
  Lemma within_trans w1 w2 w3 : (forall i, on_redis w1 dst i <-> on_redis w2 dst i) -> within w1 w2 -> within w2 w3 -> within w1 w3.
  Proof.
    intros O (A1 & A3 & A2) (B1 & B3 & B2). split; [auto|]. split; [auto|]. intros i m u H1 H2. apply B2; [now apply O|]. now apply A2.
  Qed.
  Lemma mono_refl w : mono w w.
  Proof.
    constructor.
    - exists []. rewrite app_nil_r. auto.
    - apply like_refl.
    - destruct up; apply within_refl.
  Qed.
  Lemma mono_trans w1 w2 w3 : mono w1 w2 -> mono w2 w3 -> mono w1 w3.
  Proof.
    intros [(e1 & E1 & F1) A1 I1] [(e2 & E2 & F2) A2 I2]. constructor.
    - exists (e1 ++ e2). rewrite E2, E1, app_assoc. split; [reflexivity|]. apply Forall_app. auto.
    - eapply like_trans; eauto.
    - pose proof (fun i => like_redis w1 w2 i A1) as O1. pose proof (fun i => like_redis w2 w3 i A2) as O2.
      destruct up; [eapply within_trans; eauto|]. eapply within_trans; [|exact I2|exact I1].
      intros i. symmetry. apply O2.
  Qed.

  Definition mm {A} (m : M world A) : Prop := forall w, mono w (fst (m w)).
  Lemma mm_bind {A B} (m : M world A) (k : A -> M world B) : mm m -> (forall a, mm (k a)) -> mm (bind m k).
  Proof.
    intros H1 H2 w. unfold bind. specialize (H1 w). destruct (m w) as [w1 [a|e]]; simpl in *; [|exact H1].
    eapply mono_trans; [exact H1|apply H2].
  Qed.
  Lemma mm_same {A} (m : M world A) : (forall w, fst (m w) = w) -> mm m.
  Proof. intros H w. rewrite H. apply mono_refl. Qed.
  Lemma mm_ret {A} (a : A) : mm (ret a).  Proof. now apply mm_same. Qed.
  Lemma mm_raise {A} e : mm (@raise world A e).  Proof. now apply mm_same. Qed.
  Lemma mm_lift {A} (r : result A) : mm (lift r).  Proof. now apply mm_same. Qed.
  Lemma mm_get : mm (@get_state world).  Proof. now apply mm_same. Qed.
  Lemma mm_hget r : mm (hget r).
  Proof. apply mm_same. intros w. unfold hget. now destruct (nth_error (w_heap w) r). Qed.
  Lemma mm_adapter a : mm (get_adapter a).
  Proof. apply mm_same. intros w. unfold get_adapter. now destruct (nth_error (w_ads w) a). Qed.
  Lemma mm_emit ev : ~ is_hook banned ev -> mm (emit ev).
  Proof.
    intros H w. constructor; simpl.
    - exists [ev]. auto.
    - apply like_refl.
    - unfold within. destruct up; simpl; auto.
  Qed.
  Lemma mm_heap (m : M world unit) : (forall w, exists h, fst (m w) = set_heap w h) -> mm m.
  Proof.
    intros H w. destruct (H w) as [h ->]. constructor; simpl.
    - exists []. rewrite app_nil_r. auto.
    - apply like_refl.
    - unfold within. destruct up; simpl; auto.
  Qed.
  Lemma mm_hset r o : mm (hset r o).
  Proof. apply mm_heap. intros w. eexists. reflexivity. Qed.
  Lemma mm_halloc o : mm (halloc o).
  Proof.
    intros w. constructor; simpl.
    - exists []. rewrite app_nil_r. auto.
    - apply like_refl.
    - unfold within. destruct up; simpl; auto.
  Qed.
  Lemma mm_mutate r f : mm (mutate r f).
  Proof. unfold mutate. apply mm_bind; [apply mm_hget|]. intros o. apply mm_bind; [apply mm_hset|]. intros _. apply mm_lift. Qed.
  Lemma mm_try {A} (m : M world A) p h : mm m -> (forall e, mm (h e)) -> mm (try_catch m p h).
  Proof.
    intros H1 H2 w. unfold try_catch. specialize (H1 w). destruct (m w) as [w1 [a|e]]; simpl in *; [exact H1|].
    destruct (p e); [|exact H1]. eapply mono_trans; [exact H1|apply H2].
  Qed.
  Lemma mm_forM {A} (l : list A) f : (forall x, mm (f x)) -> mm (forM l f).
  Proof. intros H. induction l as [|x l IH]; simpl; [apply mm_ret|]. apply mm_bind; auto. Qed.

  (** reading: the same entries *)
  Lemma mono_ro w w' : read_only w w' -> w_trace w' = w_trace w -> mono w w'.
  Proof.
    intros R T.
    assert (L : like_ad (nth_error (w_ads w) dst) (nth_error (w_ads w') dst)).
    { unfold like_ad. destruct (nth_error (w_ads w) dst) as [ad|] eqn:E.
      - destruct (read_only_ad _ _ _ _ R E) as (s & -> & SE). exists s. split; [reflexivity|].
        destruct (ad_store ad), s; simpl in SE; try tauto. 
      - now rewrite (read_only_ad_none _ _ _ R E). }
    constructor.
    - exists []. rewrite app_nil_r, T. auto.
    - exact L.
    - assert (W : within w w' /\ within w' w).
      { assert (RL : forall t u, lookup w' dst t u = lookup w dst t u) by (intros; now apply read_only_lookup).
        destruct R as (_ & RE & _). unfold within. rewrite RE. split; split; try (split; intros; rewrite ?RL in *; auto); intros t u; now rewrite RL. }
      destruct up; apply W.
  Qed.
  Lemma st_get_trace a m i w : w_trace (fst (st_get a m i w)) = w_trace w.
  Proof.
    unfold st_get, bind, get_adapter. destruct (nth_error (w_ads w) a) as [ad|]; [|reflexivity].
    unfold lift. destruct (get_uid _ i) as [u|]; [|reflexivity].
    destruct (ad_store ad) as [d|sid].
    - rewrite put_store_eq. destruct (dget _ u); simpl; now rewrite upd_store_trace.
    - unfold redis_load. now destruct (dget (w_redis w) _).
  Qed.
  Lemma mm_st_get a m i : mm (st_get a m i).
  Proof. intros w. apply mono_ro; [apply ro_st_get|apply st_get_trace]. Qed.
  Lemma mm_or_none a m i : mm (ad_get_or_none a m i).
  Proof.
    unfold ad_get_or_none. apply mm_try; [|intros; apply mm_ret]. apply mm_bind; [apply mm_st_get|]. intros; apply mm_ret.
  Qed.
  Lemma mm_dst_model env c ids : mm (get_dst_model env c ids).
  Proof.
    unfold get_dst_model. apply mm_try; [|intros; apply mm_ret]. apply mm_bind; [apply mm_st_get|]. intros r.
    apply mm_bind; [apply mm_mutate|]. intros _. apply mm_ret.
  Qed.

  (** replacing the LocalStore *)
  Lemma mono_upd w ad d d' : is_local w dst ad d ->
    (if up then forall t u r, dget (bucket d t) u = Some r -> dget (bucket d' t) u = Some r
     else forall t u, dget (bucket d' t) u <> None -> dget (bucket d t) u <> None) ->
    mono w (upd_store w dst (SLocal d')).
  Proof.
    intros L H. pose proof (is_local_upd _ _ _ _ d' L) as L'. pose proof L as [L1 L2]. constructor.
    - exists []. rewrite app_nil_r, upd_store_trace. auto.
    - rewrite (upd_store_get _ _ _ _ L1), L1. exists (SLocal d'). split; [reflexivity|]. now rewrite L2.
    - assert (E1 : forall t u, lookup w dst t u = dget (bucket d t) u) by (intros; now apply lookup_local with ad).
      assert (E2 : forall t u, lookup (upd_store w dst (SLocal d')) dst t u = dget (bucket d' t) u) by (intros; eapply lookup_local; eauto).
      unfold within. rewrite upd_store_redis. destruct up eqn:U.
      + split; [|split; [|auto]].
        * intros t u. rewrite E1, E2. destruct (dget (bucket d t) u) eqn:G; [|congruence]. intros _. now rewrite (H _ _ _ G).
        * intros _ t u r. rewrite E1, E2. auto.
      + split; [|split; [discriminate|auto]]. intros t u. rewrite E1, E2. auto.
  Qed.
  Lemma mono_touch w ad d t : is_local w dst ad d -> mono w (upd_store w dst (SLocal (touch d t))).
  Proof. intros L. apply (mono_upd _ _ _ _ L). destruct up; intros t' u; intros; now rewrite touch_bucket in *. Qed.

  Lemma mm_st_add r : up = true -> mm (st_add dst r).
  Proof.
    intros U w. unfold st_add, bind. unfold hget at 1.
    destruct (nth_error (w_heap w) r) as [o|] eqn:Ho; [|apply mono_refl]. unfold lift.
    destruct (get_unique_id o) as [u|] eqn:Hu; [|apply mono_refl].
    unfold get_adapter. destruct (nth_error (w_ads w) dst) as [ad|] eqn:E; [|apply mono_refl].
    destruct (ad_store ad) as [d|sid] eqn:ES.
    - rewrite put_store_eq.
      pose proof (mono_touch w ad d (get_type o) (conj E ES)) as M1.
      pose proof (is_local_upd w dst ad d (touch d (get_type o)) (conj E ES)) as L1.
      set (w1 := upd_store w dst (SLocal (touch d (get_type o)))) in *.
      destruct (dget (bucket d (get_type o)) u) as [r'|] eqn:G.
      + destruct (Nat.eqb r' r); exact M1.
      + unfold get_state.
        assert (FIN : forall w2, mono w1 w2 -> is_local w2 dst (set_ad_store ad (SLocal (touch d (get_type o)))) (touch d (get_type o)) ->
          mono w (fst (put_store dst (SLocal (dset (touch d (get_type o)) (get_type o) (dset (bucket d (get_type o)) u r))) w2))).
        { intros w2 M2 L2. rewrite put_store_eq. simpl. eapply mono_trans; [exact M1|]. eapply mono_trans; [exact M2|].
          eapply mono_upd; [exact L2|]. rewrite U. intros t u' r'. rewrite touch_bucket, bucket_dset.
          destruct (String.eqb_spec t (get_type o)) as [->|N]; [|now rewrite touch_bucket].
          intros X. rewrite dget_dset_neq; [exact X|]. intros ->. congruence. }
        destruct (adapter_truthy w1 (o_adapter o)).
        * unfold ret. apply FIN; [apply mono_refl|exact L1].
        * unfold hset, modify. apply FIN; [|exact L1]. apply (mm_hset r (set_o_adapter o (Some dst)) w1).
    - unfold get_state. destruct (dget (w_redis w) _) as [x|] eqn:G.
      + destruct (dump_eq _ _); apply mono_refl.
      + unfold redis_put, modify. simpl. constructor; simpl.
        * exists []. rewrite app_nil_r. auto.
        * apply like_refl.
        * rewrite U. split; [auto|]. split; [auto|]. intros i m u' H1 H2. simpl.
          destruct (String.eqb_spec (redis_key i m u') (redis_key sid (get_type o) u)) as [->|N];
            [rewrite dget_dset_eq; discriminate|]. rewrite dget_dset_neq by congruence. exact H2.
  Qed.
  Lemma mm_remove_item t u : up = false -> mm (st_remove_item dst t u).
  Proof.
    intros U w. unfold st_remove_item, bind, get_adapter.
    destruct (nth_error (w_ads w) dst) as [ad|] eqn:E; [|apply mono_refl].
    destruct (ad_store ad) as [d|sid] eqn:ES.
    - rewrite put_store_eq.
      pose proof (mono_touch w ad d t (conj E ES)) as M1.
      pose proof (is_local_upd w dst ad d (touch d t) (conj E ES)) as L1.
      destruct (dget (bucket d t) u) as [r|] eqn:G; [|exact M1].
      rewrite put_store_eq. simpl. eapply mono_trans; [exact M1|]. eapply mono_upd; [exact L1|]. rewrite U.
      intros t' u'. rewrite bucket_dset, !touch_bucket.
      destruct (String.eqb_spec t' t) as [->|N]; [|auto].
      destruct (String.eqb_spec u' u) as [->|N']; [intros _; congruence|]. rewrite dget_ddel_neq by congruence. auto.
    - unfold get_state. destruct (dget (w_redis w) _) as [x|] eqn:G; [|apply mono_refl].
      unfold modify. simpl. constructor; simpl.
      * exists []. rewrite app_nil_r. auto.
      * apply like_refl.
      * rewrite U. split; [auto|]. split; [auto|]. intros i m u' H1 H2. simpl in *.
        destruct (String.eqb_spec (redis_key i m u') (redis_key sid t u)) as [Q|N]; [congruence|].
        rewrite dget_ddel_neq in H2 by congruence. exact H2.
  Qed.
  Lemma mm_clear r : mm (clear_adapter r).
  Proof.
    unfold clear_adapter. apply mm_bind; [apply mm_hget|]. intros o. apply mm_bind; [apply mm_get|]. intros w.
    destruct (adapter_truthy w (o_adapter o)); [apply mm_hset|apply mm_ret].
  Qed.
  Lemma mm_remove fuel : up = false -> forall r b, mm (st_remove fuel dst r b).
  Proof.
    intros U. induction fuel as [|fuel IH]; intros r b; cbn [st_remove]; [apply mm_raise|].
    apply mm_bind; [apply mm_hget|]. intros o. apply mm_bind; [apply mm_lift|]. intros u.
    apply mm_bind; [now apply mm_remove_item|]. intros _. apply mm_bind; [apply mm_clear|]. intros _.
    destruct b; [|apply mm_ret]. apply mm_forM. intros tf. apply mm_bind; [apply mm_lift|]. intros ids. apply mm_forM. intros id.
    apply mm_try; [|intros e; apply mm_emit; simpl; auto]. apply mm_bind; [apply mm_st_get|]. auto.
  Qed.
  Lemma mm_child_add p c : mm (heap_add_child p c).
  Proof.
    unfold heap_add_child. apply mm_bind; [apply mm_hget|]. intros o. apply mm_bind; [apply mm_hget|]. intros o'.
    apply mm_bind; [apply mm_lift|]. intros x. apply mm_hset.
  Qed.
  Lemma mm_child_remove p c : mm (heap_remove_child p c).
  Proof.
    unfold heap_remove_child. apply mm_bind; [apply mm_hget|]. intros o. apply mm_bind; [apply mm_hget|]. intros o'.
    apply mm_bind; [apply mm_lift|]. intros x. apply mm_hset.
  Qed.
  Lemma mm_end (o : hook_end) (x : option ref) :
    mm match o with HReturn => ret x | HReturnNone => ret None | HRaise e => raise e end.
  Proof. destruct o; [apply mm_ret|apply mm_ret|apply mm_raise]. Qed.
  Lemma mm_create env c ids attrs : up = true -> mm (call_create env c ids attrs).
  Proof.
    intros U. unfold call_create. apply mm_bind; [apply mm_get|]. intros w.
    apply mm_bind; [apply mm_emit; simpl; unfold banned; rewrite U; discriminate|]. intros _.
    apply mm_bind; [|intros a; apply mm_end].
    destruct (ho_base _); [|apply mm_ret]. apply mm_bind; [apply mm_lift|]. intros o. apply mm_bind; [apply mm_halloc|].
    intros r. apply mm_ret.
  Qed.
  Lemma mm_update env r attrs : mm (call_update env r attrs).
  Proof.
    unfold call_update. apply mm_bind; [apply mm_get|]. intros w. apply mm_bind; [apply mm_hget|]. intros o.
    apply mm_bind; [apply mm_emit; simpl; unfold banned; destruct up; discriminate|]. intros _.
    apply mm_bind; [destruct (ho_base _); [apply mm_mutate|apply mm_ret]|]. intros _.
    apply mm_bind; [apply mm_mutate|]. intros _. apply mm_end.
  Qed.
  Lemma mm_delete env r : up = false -> mm (call_delete env r).
  Proof.
    intros U. unfold call_delete. apply mm_bind; [apply mm_get|]. intros w. apply mm_bind; [apply mm_hget|]. intros o.
    apply mm_bind; [apply mm_emit; simpl; unfold banned; rewrite U; discriminate|]. intros _.
    apply mm_bind; [destruct (ho_base _); [apply mm_mutate|apply mm_ret]|]. intros _.
    apply mm_bind; [apply mm_mutate|]. intros _. apply mm_end.
  Qed.
  Lemma mm_apply_add env p r b : sv_dst env = dst -> up = true -> mm (apply_to_store env (Some ACreate) p r b).
  Proof.
    intros ED U. unfold apply_to_store. rewrite ED. apply mm_bind; [destruct p; [apply mm_child_add|apply mm_ret]|]. intros _.
    apply mm_bind; [now apply mm_st_add|]. intros _. apply mm_ret.
  Qed.
  Lemma mm_apply_del env p r b : sv_dst env = dst -> up = false -> mm (apply_to_store env (Some ADelete) p r b).
  Proof.
    intros ED U. unfold apply_to_store. rewrite ED. apply mm_bind; [destruct p; [apply mm_child_remove|apply mm_ret]|]. intros _.
    apply mm_bind; [now apply mm_remove|]. intros _. apply mm_ret.
  Qed.

  Lemma mono_rules env w0 da gs : sv_dst env = dst -> nth_error (w_ads w0) dst = Some da ->
    (forall e, occurs e gs -> e_action e <> Some banned) ->
    sync_rules env (fun e => occurs e gs) (fun e => dget (ad_classes da) (e_type e)) (mono w0) (fun _ _ => True)
      (fun _ _ _ => True) (fun _ _ => True) (fun _ _ _ => True) (fun _ _ _ => True) (fun _ _ => True).
  Proof.
    intros ED EDA NB.
    assert (MM : forall A (m : M world A), mm m -> forall w, mono w0 w -> mono w0 (fst (m w))).
    { intros A m H w HM. eapply mono_trans; eauto. }
    assert (MP : forall A (m : M world A) (P : world -> result A -> Prop), mm m -> (forall w r, P w r) -> forall w, mono w0 w ->
      let (w', r) := m w in mono w0 w' /\ True /\ P w' r).
    { intros A m P H HP w HM. specialize (MM A m H w HM). destruct (m w) as [w' r]. auto. }
    assert (UP : forall e, occurs e gs -> e_action e = Some ACreate -> up = true).
    { intros e O A. destruct up eqn:U; [reflexivity|]. exfalso. apply (NB e O). unfold banned. now rewrite U. }
    assert (DN : forall e, occurs e gs -> e_action e = Some ADelete -> up = false).
    { intros e O A. destruct up eqn:U; [|reflexivity]. exfalso. apply (NB e O). unfold banned. now rewrite U. }
    constructor; try (intros; exact I); auto.
    - intros w ad e HM _ E. rewrite ED in E. pose proof (mo_ad _ _ HM) as X. unfold like_ad in X. rewrite EDA, E in X.
      destruct X as (s & -> & _). reflexivity.
    - intros w ev HM NH. split; [|exact I]. eapply mono_trans; [exact HM|]. apply (mm_emit ev). destruct ev; simpl; auto.
    - intros e k O K. eapply occurs_kid; eauto.
    - intros w e c HM _ _. cbv zeta. split; [|exact I]. apply (MM _ (ad_get_or_none _ _ _)); [apply mm_or_none|exact HM].
    - intros w e c u HM _ _ _. apply (MP _ _ (fun w' r => match r with Ok (Some x) => True | Ok None => True | Err _ => True end));
        [apply mm_dst_model|now intros _ [[]|]|exact HM].
    - intros w e c u HM O _ _ A _. apply (MP _ _ (fun w' r => match r with Ok (Some x) => True /\ True | _ => True end));
        [apply mm_create; eauto|now intros _ [[]|]|exact HM].
    - intros w e x HM _ _ _. pose proof (MM _ _ (mm_update env x (plus_attrs e)) w HM).
      destruct (call_update env x (plus_attrs e) w). auto.
    - intros w e x HM O _ A. pose proof (MM _ _ (mm_delete env x (DN e O A)) w HM).
      destruct (call_delete env x w). auto.
    - intros w e p x b HM O A _ _ _. pose proof (MM _ _ (mm_apply_add env p x b ED (UP e O A)) w HM).
      destruct (apply_to_store env (Some ACreate) p x b w). auto.
    - intros w e p x b HM O A _ _ _. pose proof (MM _ _ (mm_apply_del env p x b ED (DN e O A)) w HM).
      destruct (apply_to_store env (Some ADelete) p x b w). auto.
  Qed.
End Mono.

Lemma callbacks_no_hook a evs : Forall is_callback evs -> Forall (fun ev => ~ is_hook a ev) evs.
Proof. apply Forall_impl. intros ev H. destruct ev; simpl; auto. destruct H as (? & ? & H). discriminate. Qed.

Lemma mono_callbacks dst up w w' evs : read_only w w' -> w_trace w' = w_trace w ++ evs -> Forall is_callback evs -> mono dst up w w'.
Proof.
  intros R T F. assert (M : mono dst up w (mkWorld (w_heap w') (w_ads w') (w_redis w') (w_trace w))).
  { apply mono_ro; [|reflexivity]. exact R. }
  destruct M as [_ M2 M3]. constructor.
  - exists evs. split; [exact T|now apply callbacks_no_hook].
  - exact M2.
  - exact M3.
Qed.
Lemma run_sync_no_dst env d w : nth_error (w_ads w) (sv_dst env) = None ->
  fst (run_sync env d w) = w /\ (snd (run_sync env d w) = Ok d \/ exists e, snd (run_sync env d w) = Err e).
Proof.
  intros EN. unfold run_sync, bind, perform_sync.
  pose proof (fun k => ordered_sync (dc_order (d_class d)) env (d_groups d) k) as HO.
  destruct (ordered (dc_order (d_class d)) (sync_elem (dc_order (d_class d)) env) (d_groups d)) as [|k kids]; [simpl; auto|].
  destruct (HO k (or_introl eq_refl)) as (x & _ & ->). cbn [run_kids]. unfold bind at 1. rewrite sync_elem_eq.
  assert (X : forall s, ss_w s = w -> sync_body env x None (ordered (dc_order (d_class d)) (sync_elem (dc_order (d_class d)) env) (e_kids x)) s = (s, Err DanglingRef)).
  { intros s E. unfold sync_body, bind at 1, slift, get_adapter. rewrite E, EN. simpl. rewrite <- E. now destruct s. }
  unfold bind. rewrite (X (mkSS w 0 None None None) eq_refl). simpl. split; [reflexivity|]. right. now exists DanglingRef.
Qed.
Lemma run_sync_mono dst up env d w : sv_dst env = dst ->
  (forall e, occurs e (d_groups d) -> e_action e <> Some (banned up)) -> mono dst up w (fst (run_sync env d w)).
Proof.
  intros ED NB. destruct (nth_error (w_ads w) dst) as [da|] eqn:EDA.
  - apply (keep_run_sync _ _ _ _ _ _ _ _ _ _ _ (mono_rules dst up env w da (d_groups d) ED EDA NB) d w eq_refl).
    + intros e He. apply In_children in He as (t & g & n & Hg & Hn). eapply occ_here; eauto.
    + apply mono_refl.
    + auto.
  - rewrite (proj1 (run_sync_no_dst env d w (eq_trans (f_equal _ ED) EDA))). apply mono_refl.
Qed.
Lemma sync_mono dst up fuel h src dc flags cb given w :
  (forall d, uses fuel dst src dc flags cb given w d -> forall e, occurs e (d_groups d) -> e_action e <> Some (banned up)) ->
  mono dst up w (fst (sync_from fuel h dst src dc flags cb given w)).
Proof.
  intros NB. destruct (sync_from_split fuel h dst src dc flags cb given w) as [(RO & (evs & T & F) & _)|(d & wd & U & _ & RO & (evs & T & F) & ->)].
  - eapply mono_callbacks; eauto.
  - eapply mono_trans; [eapply mono_callbacks; eauto|]. apply run_sync_mono; [reflexivity|eauto].
Qed.
(** the flag's effect on the diff *)
Lemma sync_skip dst (up : bool) fuel h src dc flags cb w sa da : w_ok w ->
  nth_error (w_ads w) src = Some sa -> nth_error (w_ads w) dst = Some da ->
  N.testbit flags (if up then 2%N else 1%N) = true ->
  mono dst up w (fst (sync_from fuel h dst src dc flags cb None w)).
Proof.
  intros OK HS HD FL. apply sync_mono. intros d [(E & _)|(_ & R)]; [discriminate|].
  destruct (diff_from_no_unmatched fuel dst src dc flags cb w sa da d OK HS HD R) as [H1 H2].
  intros e O. unfold banned. destruct up; auto.
Qed.

Lemma skip_src dst fuel h src dc flags cb w sa da : w_ok w ->
  nth_error (w_ads w) src = Some sa -> nth_error (w_ads w) dst = Some da -> N.testbit flags 1 = true ->
  let w' := fst (sync_from fuel h dst src dc flags cb None w) in
  (exists evs, w_trace w' = w_trace w ++ evs /\ forall ev, In ev evs -> ~ is_hook ACreate ev) /\
  forall t u, stored w' dst t u -> stored w dst t u.
Proof.
  intros OK HS HD FL. cbv zeta. pose proof (sync_skip dst false fuel h src dc flags cb w sa da OK HS HD FL) as [(evs & T & F) A (W1 & _ & W2)].
  split; [exists evs; split; [exact T|]; now apply Forall_forall|].
  intros t u [H|(i & H1 & H2)]; [left; auto|]. right. exists i. split; [|now apply W2]. eapply like_redis; eauto.
Qed.
Lemma skip_dst dst fuel h src dc flags cb w sa da : w_ok w ->
  nth_error (w_ads w) src = Some sa -> nth_error (w_ads w) dst = Some da -> N.testbit flags 2 = true ->
  let w' := fst (sync_from fuel h dst src dc flags cb None w) in
  (exists evs, w_trace w' = w_trace w ++ evs /\ forall ev, In ev evs -> ~ is_hook ADelete ev) /\
  (forall t u, stored w dst t u -> stored w' dst t u) /\
  forall t u r, lookup w dst t u = Some r -> lookup w' dst t u = Some r.
Proof.
  intros OK HS HD FL. cbv zeta. pose proof (sync_skip dst true fuel h src dc flags cb w sa da OK HS HD FL) as [(evs & T & F) A (W1 & W3 & W2)].
  split; [exists evs; split; [exact T|]; now apply Forall_forall|]. split; [|auto].
  intros t u [H|(i & H1 & H2)]; [left; auto|]. right. exists i. split; [|now apply W2]. now apply (like_redis dst w).
Qed.

(** ** Which diff is applied *)
Lemma given_used fuel h dst src dc flags cb d w : diff_len d <> 0 ->
  sync_from fuel h dst src dc flags cb (Some d) w =
  if isinstance d dc then run_sync (mkSEnv src dst flags (diff_len d) cb h fuel) d w else (w, Err DiffClassMismatch).
Proof.
  intros L. pose proof (proj2 (truthy_len d) L) as T. unfold sync_from. rewrite T. destruct (isinstance d dc); reflexivity.
Qed.
Lemma run_sync_result env d w d' : snd (run_sync env d w) = Ok d' -> d' = d.
Proof.
  unfold run_sync, bind, ret. destruct (perform_sync _ _ _) as [s [b|e]]; simpl; [|discriminate].
  destruct b; simpl; congruence.
Qed.
