(** * SyncFacts: reading stores, and what a synchronisation cannot touch. *)
From Verif Require Export SyncMaster RemoveFacts PureDiffer.

(** ** Reading a store *)
Lemma ro_st_get a m i w : read_only w (fst (st_get a m i w)).
Proof.
  unfold st_get, bind, get_adapter. destruct (nth_error (w_ads w) a) as [ad|] eqn:E; [|apply read_only_refl].
  unfold lift. destruct (get_uid _ i) as [u|]; [|apply read_only_refl].
  destruct (ad_store ad) as [d|sid] eqn:ES.
  - rewrite put_store_eq.
    pose proof (read_only_touch w a ad d (snd (object_class_and_model ad m)) (conj E ES)) as H.
    destruct (dget _ u); exact H.
  - unfold redis_load. destruct (dget (w_redis w) _); [apply read_only_alloc|apply read_only_refl].
Qed.
Lemma ro_get_or_none a m i w : read_only w (fst (ad_get_or_none a m i w)).
Proof.
  unfold ad_get_or_none, try_catch, bind. pose proof (ro_st_get a m i w) as H.
  destruct (st_get a m i w) as [w' [r|e]]; simpl in *; [exact H|]. destruct (is_not_found e); exact H.
Qed.
Lemma read_only_nth w w' r o : read_only w w' -> nth_error (w_heap w) r = Some o -> nth_error (w_heap w') r = Some o.
Proof. intros ([news H] & _) E. rewrite H, nth_error_app1; [exact E|]. apply nth_error_Some. congruence. Qed.
Lemma read_only_ad w w' a ad : read_only w w' -> nth_error (w_ads w) a = Some ad ->
  exists s, nth_error (w_ads w') a = Some (set_ad_store ad s) /\ store_ext (ad_store ad) s.
Proof.
  intros (_ & _ & H) E. pose proof (Forall2_nth _ _ _ a H) as X. rewrite E in X.
  destruct X as (y & E' & s & -> & SE). eauto.
Qed.
Lemma read_only_ad_none w w' a : read_only w w' -> nth_error (w_ads w) a = None -> nth_error (w_ads w') a = None.
Proof. intros (_ & _ & H) E. pose proof (Forall2_nth _ _ _ a H) as X. now rewrite E in X. Qed.
Lemma read_only_lookup w w' a t u : read_only w w' -> lookup w' a t u = lookup w a t u.
Proof.
  intros H. unfold lookup. destruct (nth_error (w_ads w) a) as [ad|] eqn:E.
  - destruct (read_only_ad _ _ _ _ H E) as (s & -> & SE). simpl. destruct (ad_store ad) as [d|], s as [d'|]; [|destruct SE|destruct SE|reflexivity].
    destruct SE as [n [-> _]]. now rewrite bucket_ext.
  - now rewrite (read_only_ad_none _ _ _ H E).
Qed.
Lemma read_only_length w w' : read_only w w' -> length (w_heap w) <= length (w_heap w').
Proof. intros ([news ->] & _). rewrite app_length. lia. Qed.

Lemma ext_nodup (d : dict (dict ref)) m : NoDup (dkeys d) -> NoDup (dkeys (touch d m)).
Proof.
  intros H. unfold touch. destruct (dget d m) eqn:E; [exact H|]. rewrite dset_absent by exact E.
  unfold dkeys. rewrite map_app. simpl. apply NoDup_snoc'; [exact H|]. now apply dget_None.
Qed.

(** a lookup for a key of the destination *)
Lemma st_get_cases a c ids u w ad d : is_local w a ad d -> create_unique_id c ids = Ok u ->
  st_get a (MClass c) (IdDict ids) w =
  (upd_store w a (SLocal (touch d (c_modelname c))),
   match lookup w a (c_modelname c) u with Some r => Ok r | None => Err ObjectNotFound end).
Proof.
  intros L HU. rewrite (st_get_local a (MClass c) (IdDict ids) w ad d u L HU). simpl.
  now rewrite (lookup_local _ _ _ _ _ _ L).
Qed.

(** ** The source is out of reach *)
Lemma holds_local w a ad d r : is_local w a ad d -> holds w a r <-> exists t u, In (u, r) (bucket d t).
Proof.
  intros L. split.
  - intros (ad' & d' & t & u & L' & H). destruct (is_local_fun _ _ _ _ _ _ L L') as [<- <-]. eauto.
  - intros (t & u & H). exists ad, d, t, u. auto.
Qed.
Lemma holds_lookup w a t u r : lookup w a t u = Some r -> holds w a r.
Proof.
  intros H. destruct (lookup_is_local _ _ _ _ _ H) as (ad & d & L). rewrite (lookup_local _ _ _ _ _ _ L) in H.
  exists ad, d, t, u. split; [exact L|]. now apply dget_Some_In.
Qed.
Lemma lookup_holds w a r : local_ok w a -> holds w a r -> exists t u, lookup w a t u = Some r.
Proof.
  intros (ad & d & H1 & H2 & H3 & H4) H. rewrite (holds_local w a ad d r (conj H1 H2)) in H.
  destruct H as (t & u & H). exists t, u. rewrite (lookup_local w a ad d t u (conj H1 H2)).
  apply In_dget; [|exact H]. apply (H4 t). eapply In_bucket_In; eauto.
Qed.
Lemma read_only_holds w w' a r : read_only w w' -> holds w' a r <-> holds w a r.
Proof.
  intros R. split.
  - intros (ad' & d' & t & u & [E1 E2] & H). destruct (nth_error (w_ads w) a) as [ad|] eqn:E.
    + destruct (read_only_ad _ _ _ _ R E) as (s & E' & SE). rewrite E' in E1. injection E1 as <-. simpl in E2. subst s.
      destruct (ad_store ad) as [d|] eqn:ES; [|destruct SE]. destruct SE as [names [-> _]]. rewrite bucket_ext in H.
      exists ad, d, t, u. split; [split|]; assumption.
    + rewrite (read_only_ad_none _ _ _ R E) in E1. discriminate.
  - intros (ad & d & t & u & [E1 E2] & H). destruct (read_only_ad _ _ _ _ R E1) as (s & E' & SE).
    rewrite E2 in SE. destruct s as [d'|]; [|destruct SE]. exists (set_ad_store ad (SLocal d')), d', t, u.
    split; [now split|]. destruct SE as [names [-> _]]. now rewrite bucket_ext.
Qed.
Lemma In_dset {A} (d : dict A) k v k' v' : In (k', v') (dset d k v) -> In (k', v') d \/ v' = v.
Proof.
  induction d as [|[x y] d IH]; simpl.
  - intros [E|[]]. injection E as _ <-. now right.
  - destruct (String.eqb k x); simpl; intros [E|H]; auto.
    + injection E as _ <-. now right.
    + destruct (IH H); auto.
Qed.
Lemma In_ddel {A} (d : dict A) k x : In x (ddel d k) -> In x d.
Proof.
  induction d as [|[x0 y] d IH]; simpl; [tauto|]. destruct (String.eqb k x0); simpl; tauto.
Qed.
Section Source.
  Variables (w0 : world) (dst : aid).

  (** references the synchronisation may have in hand: new ones and those stored in the destination *)
  Definition mine (r : ref) : Prop := length (w_heap w0) <= r \/ holds w0 dst r.

  Definition same_ad (x y : option adapter) : Prop :=
    match x, y with
    | Some a, Some b => exists s, b = set_ad_store a s /\ store_ext (ad_store a) s
    | None, None => True
    | _, _ => False
    end.
  Definition like_ad (x y : option adapter) : Prop :=
    match x, y with
    | Some a, Some b => exists s, b = set_ad_store a s /\
        match ad_store a, s with SLocal _, SLocal _ => True | SRedis i, SRedis j => i = j | _, _ => False end
    | None, None => True
    | _, _ => False
    end.
  Definition dst_key (k : string) : Prop :=
    exists ad sid m u, nth_error (w_ads w0) dst = Some ad /\ ad_store ad = SRedis sid /\ k = redis_key sid m u.

  Record apart (w : world) : Prop := mkApart {
    ap_len : length (w_heap w0) <= length (w_heap w);
    ap_heap : forall r, ~ mine r -> nth_error (w_heap w) r = nth_error (w_heap w0) r;
    ap_mine : forall r, holds w dst r -> mine r;
    ap_ads : forall b, b <> dst -> same_ad (nth_error (w_ads w0) b) (nth_error (w_ads w) b);
    ap_dst : like_ad (nth_error (w_ads w0) dst) (nth_error (w_ads w) dst);
    ap_redis : forall k, ~ dst_key k -> dget (w_redis w) k = dget (w_redis w0) k
  }.

  Lemma apart_refl : apart w0.
  Proof.
    constructor; auto.
    - intros r H. now right.
    - intros b _. unfold same_ad. destruct (nth_error (w_ads w0) b) as [ad|]; [|exact Logic.I]. exists (ad_store ad).
      split; [now destruct ad|]. apply store_ext_refl.
    - unfold like_ad. destruct (nth_error (w_ads w0) dst) as [ad|]; [|exact Logic.I]. exists (ad_store ad).
      split; [now destruct ad|]. now destruct (ad_store ad).
  Qed.
  Lemma apart_ro w w' : apart w -> read_only w w' -> apart w'.
  Proof.
    intros [A1 A2 A3 A4 A5 A6] R. constructor.
    - pose proof (read_only_length _ _ R). lia.
    - intros r N. rewrite <- A2 by exact N.
      destruct (nth_error (w_heap w) r) as [o|] eqn:E; [now apply (read_only_nth _ _ _ _ R)|].
      exfalso. apply N. left. apply nth_error_None in E. lia.
    - intros r H. rewrite (read_only_holds _ _ _ _ R) in H. auto.
    - intros b N. specialize (A4 b N). unfold same_ad in *. destruct (nth_error (w_ads w0) b) as [ad|].
      + destruct (nth_error (w_ads w) b) as [y|] eqn:E; [|destruct A4]. destruct A4 as (s & -> & SE).
        destruct (read_only_ad _ _ _ _ R E) as (s' & -> & SE'). exists s'. split; [reflexivity|].
        simpl in SE'. eapply store_ext_trans; eauto.
      + destruct (nth_error (w_ads w) b) eqn:E; [destruct A4|]. now rewrite (read_only_ad_none _ _ _ R E).
    - unfold like_ad in *. destruct (nth_error (w_ads w0) dst) as [ad|].
      + destruct (nth_error (w_ads w) dst) as [y|] eqn:E; [|destruct A5]. destruct A5 as (s & -> & SE).
        destruct (read_only_ad _ _ _ _ R E) as (s' & -> & SE'). exists s'. split; [reflexivity|].
        simpl in SE'. destruct (ad_store ad), s, s'; simpl in *; try tauto; congruence.
      + destruct (nth_error (w_ads w) dst) eqn:E; [destruct A5|]. now rewrite (read_only_ad_none _ _ _ R E).
    - intros k N. destruct R as (_ & -> & _). auto.
  Qed.

  (** programs that keep the world apart *)
  Definition kp {A} (m : M world A) (Q : A -> Prop) : Prop :=
    forall w, apart w -> apart (fst (m w)) /\ forall a, snd (m w) = Ok a -> Q a.
  Lemma kp_bind {A B} (m : M world A) (k : A -> M world B) (Q : A -> Prop) (Q' : B -> Prop) :
    kp m Q -> (forall a, Q a -> kp (k a) Q') -> kp (bind m k) Q'.
  Proof.
    intros H1 H2 w HA. unfold bind. specialize (H1 w HA). destruct (m w) as [w1 [a|e]]; simpl in H1; destruct H1 as [H1 H3].
    - now apply (H2 a (H3 a eq_refl)).
    - split; [exact H1|discriminate].
  Qed.
  Lemma kp_ro {A} (m : M world A) (Q : A -> Prop) :
    (forall w, read_only w (fst (m w))) -> (forall w, apart w -> forall a, snd (m w) = Ok a -> Q a) -> kp m Q.
  Proof. intros H1 H2 w HA. split; [eapply apart_ro; eauto|eauto]. Qed.
  Lemma kp_ret {A} (a : A) (Q : A -> Prop) : Q a -> kp (ret a) Q.
  Proof. intros H w HA. split; [exact HA|]. intros b E. injection E as <-. exact H. Qed.
  Lemma kp_raise {A} e (Q : A -> Prop) : kp (raise e) Q.
  Proof. intros w HA. split; [exact HA|discriminate]. Qed.
  Lemma kp_lift {A} (r : result A) (Q : A -> Prop) : (forall a, r = Ok a -> Q a) -> kp (lift r) Q.
  Proof. intros H w HA. split; [exact HA|exact H]. Qed.
  Lemma kp_get : kp get_state (fun _ => True).
  Proof. intros w HA. split; [exact HA|auto]. Qed.
  Lemma kp_emit ev : kp (emit ev) (fun _ => True).
  Proof. intros w HA. split; [|auto]. eapply apart_ro; [exact HA|]. apply read_only_event. Qed.
  Lemma kp_hget r : kp (hget r) (fun _ => True).
  Proof. intros w HA. unfold hget. destruct (nth_error (w_heap w) r); split; auto. Qed.
  Lemma kp_adapter a : kp (get_adapter a) (fun _ => True).
  Proof. intros w HA. unfold get_adapter. destruct (nth_error (w_ads w) a); split; auto. Qed.
  Lemma kp_try {A} (m : M world A) p h (Q : A -> Prop) : kp m Q -> (forall e, kp (h e) Q) -> kp (try_catch m p h) Q.
  Proof.
    intros H1 H2 w HA. unfold try_catch. specialize (H1 w HA). destruct (m w) as [w1 [a|e]]; simpl in H1.
    - exact H1.
    - destruct (p e); [apply H2, H1|]. split; [apply H1|discriminate].
  Qed.
  Lemma kp_forM {A} (l : list A) f : (forall x, kp (f x) (fun _ => True)) -> kp (forM l f) (fun _ => True).
  Proof.
    intros H. induction l as [|x l IH]; simpl; [now apply kp_ret|]. eapply kp_bind; [apply H|]. auto.
  Qed.
  Lemma apart_set_heap w r o : mine r -> apart w -> apart (set_heap w (list_set (w_heap w) r o)).
  Proof.
    intros Hr [A1 A2 A3 A4 A5 A6]. constructor; simpl; auto.
    - now rewrite list_set_length.
    - intros r' N. rewrite nth_list_set_neq; [auto|]. intros ->. contradiction.
  Qed.
  Lemma kp_hset r o : mine r -> kp (hset r o) (fun _ => True).
  Proof. intros Hr w HA. split; [|auto]. now apply apart_set_heap. Qed.
  Lemma kp_halloc o : kp (halloc o) (fun r => mine r).
  Proof.
    apply kp_ro; [intros w; apply read_only_alloc|]. intros w HA a E. injection E as <-. left. apply HA.
  Qed.
  Lemma kp_mutate r f : mine r -> kp (mutate r f) (fun _ => True).
  Proof.
    intros Hr. unfold mutate. eapply kp_bind; [apply kp_hget|]. intros o _.
    eapply kp_bind; [now apply kp_hset|]. intros [] _. now apply kp_lift.
  Qed.

  (** replacing the destination's LocalStore *)
  Lemma apart_upd w ad d d' : apart w -> is_local w dst ad d ->
    (forall t u r, In (u, r) (bucket d' t) -> mine r) -> apart (upd_store w dst (SLocal d')).
  Proof.
    intros [A1 A2 A3 A4 A5 A6] L H. constructor.
    - now rewrite upd_store_heap.
    - now rewrite upd_store_heap.
    - intros r. rewrite (holds_local _ _ _ _ _ (is_local_upd _ _ _ _ d' L)). intros (t & u & X). eauto.
    - intros b N. rewrite upd_store_other by exact N. auto.
    - destruct L as [L1 L2]. rewrite (upd_store_get _ _ _ _ L1). unfold like_ad in *. rewrite L1 in A5.
      destruct (nth_error (w_ads w0) dst) as [x|]; [|exact A5]. destruct A5 as (s & -> & E). simpl in L2. subst s.
      exists (SLocal d'). split; [reflexivity|]. destruct (ad_store x); exact E.
    - now rewrite upd_store_redis.
  Qed.
  Lemma apart_redis w k o : apart w -> dst_key k -> apart (set_redis w (dset (w_redis w) k o)).
  Proof.
    intros [A1 A2 A3 A4 A5 A6] HK. constructor; simpl; auto.
    intros k' N. rewrite dget_dset_neq; [auto|]. intros <-. contradiction.
  Qed.
  Lemma apart_redis_del w k : apart w -> dst_key k -> apart (set_redis w (ddel (w_redis w) k)).
  Proof.
    intros [A1 A2 A3 A4 A5 A6] HK. constructor; simpl; auto.
    intros k' N. rewrite dget_ddel_neq; [auto|]. intros <-. contradiction.
  Qed.
  Lemma apart_dst_key w ad sid m u : apart w -> nth_error (w_ads w) dst = Some ad -> ad_store ad = SRedis sid ->
    dst_key (redis_key sid m u).
  Proof.
    intros HA E ES. pose proof (ap_dst w HA) as X. unfold like_ad in X. rewrite E in X.
    destruct (nth_error (w_ads w0) dst) as [x|] eqn:E0; [|destruct X]. destruct X as (s & -> & H). simpl in ES. subst s.
    destruct (ad_store x) as [|i] eqn:E1; [destruct H|]. subst i. exists x, sid, m, u. auto.
  Qed.

  Lemma kp_st_get m i : kp (st_get dst m i) mine.
  Proof.
    apply kp_ro; [apply ro_st_get|]. intros w HA r. unfold st_get, bind, get_adapter.
    destruct (nth_error (w_ads w) dst) as [ad|] eqn:E; [|discriminate].
    unfold lift. destruct (get_uid _ i) as [u|]; [|discriminate].
    destruct (ad_store ad) as [d|sid] eqn:ES.
    - rewrite put_store_eq. destruct (dget (bucket d _) u) as [r'|] eqn:G; simpl; [|discriminate].
      intros X; injection X as <-. apply (ap_mine w HA).
      rewrite (holds_local _ _ _ _ _ (conj E ES)). eexists _, u. apply dget_Some_In. exact G.
    - unfold redis_load. destruct (dget (w_redis w) _); simpl; [|discriminate].
      intros X; injection X as <-. left. apply HA.
  Qed.
  Lemma kp_st_get_any a m i : kp (st_get a m i) (fun _ => True).
  Proof. apply kp_ro; [apply ro_st_get|auto]. Qed.
  Lemma kp_st_add r : mine r -> kp (st_add dst r) (fun _ => True).
  Proof.
    intros Hr w HA. split; [|auto]. unfold st_add, bind. unfold hget at 1.
    destruct (nth_error (w_heap w) r) as [o|] eqn:Ho; [|exact HA]. unfold lift.
    destruct (get_unique_id o) as [u|] eqn:Hu; [|exact HA].
    unfold get_adapter. destruct (nth_error (w_ads w) dst) as [ad|] eqn:E; [|exact HA].
    destruct (ad_store ad) as [d|sid] eqn:ES.
    - rewrite put_store_eq.
      pose proof (apart_ro _ _ HA (read_only_touch w dst ad d (get_type o) (conj E ES))) as HA1.
      pose proof (is_local_upd w dst ad d (touch d (get_type o)) (conj E ES)) as L1.
      set (w1 := upd_store w dst (SLocal (touch d (get_type o)))) in *.
      destruct (dget (bucket d (get_type o)) u) as [r'|] eqn:G.
      + destruct (Nat.eqb r' r); exact HA1.
      + unfold get_state.
        assert (FIN : forall w2, apart w2 -> is_local w2 dst (set_ad_store ad (SLocal (touch d (get_type o)))) (touch d (get_type o)) ->
          apart (fst (put_store dst (SLocal (dset (touch d (get_type o)) (get_type o) (dset (bucket d (get_type o)) u r))) w2))).
        { intros w2 HA2 L2. rewrite put_store_eq. simpl. eapply apart_upd; eauto.
          intros t u' r'. rewrite bucket_dset.
          assert (OLD : forall t0, In (u', r') (bucket d t0) -> mine r').
          { intros t0 X. apply (ap_mine w HA). rewrite (holds_local _ _ _ _ _ (conj E ES)). eauto. }
          destruct (String.eqb t (get_type o)).
          - intros X. apply In_dset in X as [X| ->]; [eauto|exact Hr].
          - rewrite touch_bucket. eauto. }
        destruct (adapter_truthy w1 (o_adapter o)).
        * unfold ret. now apply FIN.
        * unfold hset, modify. apply FIN; [now apply apart_set_heap|exact L1].
    - unfold get_state. destruct (dget (w_redis w) _).
      + destruct (dump_eq _ _); exact HA.
      + apply apart_redis; [exact HA|]. eapply apart_dst_key; eauto.
  Qed.
  Lemma kp_remove_item t u : kp (st_remove_item dst t u) (fun _ => True).
  Proof.
    intros w HA. split; [|auto]. unfold st_remove_item, bind, get_adapter.
    destruct (nth_error (w_ads w) dst) as [ad|] eqn:E; [|exact HA].
    destruct (ad_store ad) as [d|sid] eqn:ES.
    - rewrite put_store_eq.
      pose proof (apart_ro _ _ HA (read_only_touch w dst ad d t (conj E ES))) as HA1.
      pose proof (is_local_upd w dst ad d (touch d t) (conj E ES)) as L1.
      destruct (dget (bucket d t) u) as [r|] eqn:G; [|exact HA1].
      rewrite put_store_eq. simpl. eapply apart_upd; eauto.
      intros t' u' r'. rewrite bucket_dset.
      assert (OLD : forall t0, In (u', r') (bucket d t0) -> mine r').
      { intros t0 X. apply (ap_mine w HA). rewrite (holds_local _ _ _ _ _ (conj E ES)). eauto. }
      destruct (String.eqb t' t).
      + intros X. apply In_ddel in X. eauto.
      + rewrite touch_bucket. eauto.
    - unfold get_state. destruct (dget (w_redis w) _); [|exact HA].
      apply apart_redis_del; [exact HA|]. eapply apart_dst_key; eauto.
  Qed.

  Lemma kp_clear r : mine r -> kp (clear_adapter r) (fun _ => True).
  Proof.
    intros Hr. unfold clear_adapter. eapply kp_bind; [apply kp_hget|]. intros o _.
    eapply kp_bind; [apply kp_get|]. intros w _. destruct (adapter_truthy w (o_adapter o)); [now apply kp_hset|now apply kp_ret].
  Qed.
  Lemma kp_remove fuel : forall r b, mine r -> kp (st_remove fuel dst r b) (fun _ => True).
  Proof.
    induction fuel as [|fuel IH]; intros r b Hr; cbn [st_remove]; [apply kp_raise|].
    eapply kp_bind; [apply kp_hget|]. intros o _. eapply kp_bind; [now apply (kp_lift _ (fun _ => True))|]. intros u _.
    eapply kp_bind; [apply kp_remove_item|]. intros [] _. eapply kp_bind; [now apply kp_clear|]. intros [] _.
    destruct b; [|now apply kp_ret]. apply kp_forM. intros [t f].
    eapply kp_bind; [now apply (kp_lift _ (fun _ => True))|]. intros ids _. apply kp_forM. intros id.
    apply kp_try; [|intros e; apply kp_emit]. eapply kp_bind; [apply kp_st_get|]. intros c Hc. now apply IH.
  Qed.
  Lemma kp_weaken {A} (m : M world A) (Q Q' : A -> Prop) : kp m Q -> (forall a, Q a -> Q' a) -> kp m Q'.
  Proof. intros H1 H2 w HA. destruct (H1 w HA). auto. Qed.
  Definition mine_opt (x : option ref) : Prop := forall r, x = Some r -> mine r.

  Lemma kp_end (o : hook_end) (x : option ref) : mine_opt x ->
    kp match o with HReturn => ret x | HReturnNone => ret None | HRaise e => raise e end mine_opt.
  Proof. intros H. destruct o; [now apply kp_ret|apply kp_ret; discriminate|apply kp_raise]. Qed.
  Lemma mine_some r : mine r -> mine_opt (Some r).
  Proof. intros H r' E. congruence. Qed.
  Lemma mine_none : mine_opt None.
  Proof. discriminate. Qed.
  Lemma kp_create env c ids attrs : kp (call_create env c ids attrs) mine_opt.
  Proof.
    unfold call_create. eapply kp_bind; [apply kp_get|]. intros w _. eapply kp_bind; [apply kp_emit|]. intros _ _.
    apply kp_bind with (Q := mine_opt); [|intros a Ha; now apply kp_end].
    destruct (ho_base _); [|apply kp_ret, mine_none].
    eapply kp_bind; [apply (kp_lift _ (fun _ => True)); auto|]. intros o _. eapply kp_bind; [apply kp_halloc|].
    intros r Hr. now apply kp_ret, mine_some.
  Qed.
  Lemma kp_update env r attrs : mine r -> kp (call_update env r attrs) mine_opt.
  Proof.
    intros Hr. unfold call_update. eapply kp_bind; [apply kp_get|]. intros w _. eapply kp_bind; [apply kp_hget|]. intros o _.
    eapply kp_bind; [apply kp_emit|]. intros _ _.
    apply kp_bind with (Q := fun _ => True); [destruct (ho_base _); [now apply kp_mutate|now apply kp_ret]|].
    intros _ _. eapply kp_bind; [now apply kp_mutate|]. intros _ _. now apply kp_end, mine_some.
  Qed.
  Lemma kp_delete env r : mine r -> kp (call_delete env r) mine_opt.
  Proof.
    intros Hr. unfold call_delete. eapply kp_bind; [apply kp_get|]. intros w _. eapply kp_bind; [apply kp_hget|]. intros o _.
    eapply kp_bind; [apply kp_emit|]. intros _ _.
    apply kp_bind with (Q := fun _ => True); [destruct (ho_base _); [now apply kp_mutate|now apply kp_ret]|].
    intros _ _. eapply kp_bind; [now apply kp_mutate|]. intros _ _. now apply kp_end, mine_some.
  Qed.
  Lemma kp_child_add p c : mine p -> kp (heap_add_child p c) (fun _ => True).
  Proof.
    intros Hp. unfold heap_add_child. eapply kp_bind; [apply kp_hget|]. intros o _. eapply kp_bind; [apply kp_hget|]. intros oc _.
    eapply kp_bind; [now apply (kp_lift _ (fun _ => True))|]. intros o' _. now apply kp_hset.
  Qed.
  Lemma kp_child_remove p c : mine p -> kp (heap_remove_child p c) (fun _ => True).
  Proof.
    intros Hp. unfold heap_remove_child. eapply kp_bind; [apply kp_hget|]. intros o _. eapply kp_bind; [apply kp_hget|]. intros oc _.
    eapply kp_bind; [now apply (kp_lift _ (fun _ => True))|]. intros o' _. now apply kp_hset.
  Qed.
  Lemma kp_apply env a p r b : sv_dst env = dst -> mine_opt p -> mine r -> kp (apply_to_store env a p r b) (fun _ => True).
  Proof.
    intros ED Hp Hr. unfold apply_to_store. rewrite ED. destruct a as [[]|]; try now apply kp_ret.
    - apply kp_bind with (Q := fun _ => True).
      + destruct p as [p|]; [apply kp_child_add; now apply Hp|now apply kp_ret].
      + intros _ _. eapply kp_bind; [now apply kp_st_add|]. intros _ _. now apply kp_ret.
    - apply kp_bind with (Q := fun _ => True).
      + destruct p as [p|]; [apply kp_child_remove; now apply Hp|now apply kp_ret].
      + intros _ _. eapply kp_bind; [now apply kp_remove|]. intros _ _. now apply kp_ret.
  Qed.
  Lemma kp_dst_model env c ids : sv_dst env = dst -> kp (get_dst_model env c ids) mine_opt.
  Proof.
    intros ED. unfold get_dst_model. rewrite ED. apply kp_try; [|intros e; apply kp_ret, mine_none].
    eapply kp_bind; [apply kp_st_get|]. intros r Hr. eapply kp_bind; [now apply kp_mutate|]. intros _ _. now apply kp_ret, mine_some.
  Qed.

  Lemma source_rules env : sv_dst env = dst -> forall da, nth_error (w_ads w0) dst = Some da ->
    sync_rules env (fun _ => True) (fun e => dget (ad_classes da) (e_type e)) apart (fun _ _ => True)
      (fun _ _ p => mine_opt p) (fun _ _ => True) (fun _ _ r => mine r) (fun _ _ r => mine r) (fun _ _ => True).
  Proof.
    intros ED da EDA.
    assert (KP : forall A (m : M world A) (Q : A -> Prop), kp m Q -> forall w, apart w ->
      let (w', r) := m w in apart w' /\ True /\ forall a, r = Ok a -> Q a).
    { intros A m Q H w HA. specialize (H w HA). destruct (m w) as [w' r]. simpl in H. destruct H. auto. }
    constructor; try (intros; exact Logic.I); auto.
    - intros w ad e HA _ E. rewrite ED in E. pose proof (ap_dst w HA) as X. unfold like_ad in X. rewrite EDA, E in X.
      destruct X as (s & -> & _). reflexivity.
    - intros w ev HA. split; [|exact Logic.I]. now apply (kp_emit ev w HA).
    - intros w e c HA _ _. cbv zeta. split; [|exact Logic.I]. eapply apart_ro; [exact HA|apply ro_get_or_none].
    - intros w e c u HA _ _ _. pose proof (KP _ _ _ (kp_dst_model env c (e_keys e) ED) w HA) as H.
      destruct (get_dst_model env c (e_keys e) w) as [w' r]. destruct H as (H1 & H2 & H3).
      split; [exact H1|]. split; [exact H2|]. destruct r as [[x|]|]; auto. exact (H3 _ eq_refl x eq_refl).
    - intros w e c u HA _ _ _ _ _. pose proof (KP _ _ _ (kp_create env c (e_keys e) (plus_attrs e)) w HA) as H.
      destruct (call_create env c (e_keys e) (plus_attrs e) w) as [w' r]. destruct H as (H1 & H2 & H3).
      split; [exact H1|]. split; [exact H2|]. destruct r as [[x|]|]; auto. split; [exact Logic.I|]. exact (H3 _ eq_refl x eq_refl).
    - intros w e x HA _ Hx _. pose proof (KP _ _ _ (kp_update env x (plus_attrs e) Hx) w HA) as H.
      destruct (call_update env x (plus_attrs e) w) as [w' r]. tauto.
    - intros w e x HA _ Hx _. pose proof (KP _ _ _ (kp_delete env x Hx) w HA) as H.
      destruct (call_delete env x w) as [w' r]. tauto.
    - intros w e p x b HA _ _ Hp _ Hx. pose proof (KP _ _ _ (kp_apply env (Some ACreate) p x b ED Hp Hx) w HA) as H.
      destruct (apply_to_store env (Some ACreate) p x b w) as [w' r]. destruct H as (H1 & H2 & H3).
      split; [exact H1|]. split; [exact H2|]. intros _ _ k _. now apply mine_some.
    - intros w e p x b HA _ _ Hp Hx _. pose proof (KP _ _ _ (kp_apply env (Some ADelete) p x b ED Hp Hx) w HA) as H.
      destruct (apply_to_store env (Some ADelete) p x b w) as [w' r]. tauto.
    - intros w e x k HA _ Hx _ _. now apply mine_some.
  Qed.

  Theorem run_sync_apart env d : sv_dst env = dst -> apart (fst (run_sync env d w0)).
  Proof.
    intros ED. destruct (nth_error (w_ads w0) dst) as [da|] eqn:EDA.
    - apply (keep_run_sync _ _ _ _ _ _ _ _ _ _ _ (source_rules env ED da EDA) d w0 eq_refl).
      + intros; exact Logic.I.
      + apply apart_refl.
      + intros e _. apply mine_none.
    - unfold run_sync, bind.
      assert (X : forall kids b n, (forall k, In k kids -> exists x, k = sync_elem (dc_order (d_class d)) env x) ->
         ss_w (fst (run_kids kids None b (mkSS w0 n None None None))) = w0).
      { intros [|k kids] b n H; [reflexivity|]. simpl. destruct (H k (or_introl eq_refl)) as [x ->].
        unfold bind at 1. rewrite sync_elem_eq. unfold sync_body, bind at 1, slift, get_adapter. simpl.
        rewrite ED, EDA. reflexivity. }
      unfold perform_sync. rewrite surjective_pairing with (p := run_kids _ _ _ _).
      cbn [fst snd]. destruct (snd (run_kids _ _ _ _)) as [b|e] eqn:EB.
      + rewrite X.
        * destruct b; unfold emit, modify, ret; simpl; [eapply apart_ro; [apply apart_refl|apply read_only_event]|apply apart_refl].
        * intros k Hk. apply ordered_sync in Hk as (x & _ & ->). eauto.
      + simpl. rewrite X; [apply apart_refl|]. intros k Hk. apply ordered_sync in Hk as (x & _ & ->). eauto.
  Qed.
End Source.
