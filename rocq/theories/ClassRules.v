(** * ClassRules: a synchronisation leaves the class tables of the adapters alone. *)
From Verif Require Export RunFacts SyncSkip.

(** the adapter has the models it had *)
Definition same_classes (dst : aid) (w w' : world) : Prop :=
  forall ad, nth_error (w_ads w) dst = Some ad -> exists ad', nth_error (w_ads w') dst = Some ad' /\ ad_classes ad' = ad_classes ad.

Section Classes.
  Variable dst : aid.
  Notation kept := (same_classes dst).
  Lemma kept_refl w : kept w w.
  Proof. intros ad E. eauto. Qed.
  Lemma kept_trans w1 w2 w3 : kept w1 w2 -> kept w2 w3 -> kept w1 w3.
  Proof. intros H1 H2 ad E. destruct (H1 ad E) as (a & E1 & C1). destruct (H2 a E1) as (b & E2 & C2). exists b. split; congruence. Qed.

  Definition kc {A} (m : M world A) : Prop := forall w, kept w (fst (m w)).
  Lemma kc_bind {A B} (m : M world A) (k : A -> M world B) : kc m -> (forall a, kc (k a)) -> kc (bind m k).
  Proof.
    intros H1 H2 w. unfold bind. specialize (H1 w). destruct (m w) as [w1 [a|e]]; simpl in *; [|exact H1].
    eapply kept_trans; [exact H1|apply H2].
  Qed.
  Lemma kc_ads {A} (m : M world A) : (forall w, w_ads (fst (m w)) = w_ads w) -> kc m.
  Proof. intros H w ad E. rewrite H. eauto. Qed.
  Lemma kc_ret {A} (a : A) : kc (ret a).  Proof. now apply kc_ads. Qed.
  Lemma kc_raise {A} e : kc (@raise world A e).  Proof. now apply kc_ads. Qed.
  Lemma kc_lift {A} (r : result A) : kc (lift r).  Proof. now apply kc_ads. Qed.
  Lemma kc_get : kc (@get_state world).  Proof. now apply kc_ads. Qed.
  Lemma kc_hget r : kc (hget r).
  Proof. apply kc_ads. intros w. unfold hget. now destruct (nth_error (w_heap w) r). Qed.
  Lemma kc_adapter a : kc (get_adapter a).
  Proof. apply kc_ads. intros w. unfold get_adapter. now destruct (nth_error (w_ads w) a). Qed.
  Lemma kc_emit ev : kc (emit ev).  Proof. now apply kc_ads. Qed.
  Lemma kc_hset r o : kc (hset r o).  Proof. now apply kc_ads. Qed.
  Lemma kc_halloc o : kc (halloc o).  Proof. now apply kc_ads. Qed.
  Lemma kc_put a s : kc (put_store a s).
  Proof.
    intros w ad E. rewrite put_store_eq. cbn [fst]. destruct (Nat.eq_dec a dst) as [->|N].
    - rewrite (upd_store_get _ _ _ _ E). eexists. split; [reflexivity|now destruct ad].
    - rewrite upd_store_other by auto. eauto.
  Qed.
  Lemma kc_mutate r f : kc (mutate r f).
  Proof. unfold mutate. apply kc_bind; [apply kc_hget|]. intros o. apply kc_bind; [apply kc_hset|]. intros _. apply kc_lift. Qed.
  Lemma kc_try {A} (m : M world A) p h : kc m -> (forall e, kc (h e)) -> kc (try_catch m p h).
  Proof.
    intros H1 H2 w. unfold try_catch. specialize (H1 w). destruct (m w) as [w1 [a|e]]; simpl in *; [exact H1|].
    destruct (p e); [|exact H1]. eapply kept_trans; [exact H1|apply H2].
  Qed.
  Lemma kc_forM {A} (l : list A) f : (forall x, kc (f x)) -> kc (forM l f).
  Proof. intros H. induction l as [|x l IH]; simpl; [apply kc_ret|]. apply kc_bind; auto. Qed.
  Lemma kc_ro {A} (m : M world A) : (forall w, read_only w (fst (m w))) -> kc m.
  Proof. intros H w ad E. destruct (read_only_ad _ _ _ _ (H w) E) as (s & E1 & _). eexists. split; [exact E1|reflexivity]. Qed.
  Lemma kc_st_get a m i : kc (st_get a m i).
  Proof. apply kc_ro. intros w. apply ro_st_get. Qed.
  Lemma kc_or_none a m i : kc (ad_get_or_none a m i).
  Proof. unfold ad_get_or_none. apply kc_try; [|intros; apply kc_ret]. apply kc_bind; [apply kc_st_get|intros; apply kc_ret]. Qed.
  Lemma kc_dst_model env c ids : kc (get_dst_model env c ids).
  Proof.
    unfold get_dst_model. apply kc_try; [|intros; apply kc_ret]. apply kc_bind; [apply kc_st_get|]. intros r.
    apply kc_bind; [apply kc_mutate|intros; apply kc_ret].
  Qed.
  Lemma kc_st_add a r : kc (st_add a r).
  Proof.
    unfold st_add. apply kc_bind; [apply kc_hget|]. intros o. apply kc_bind; [apply kc_lift|]. intros u.
    apply kc_bind; [apply kc_adapter|]. intros ad. destruct (ad_store ad) as [d|sid].
    - apply kc_bind; [apply kc_put|]. intros _. destruct (dget _ u) as [r'|].
      + destruct (Nat.eqb r' r); [apply kc_ret|apply kc_raise].
      + apply kc_bind; [apply kc_get|]. intros w. apply kc_bind; [|intros _; apply kc_put].
        destruct (adapter_truthy w (o_adapter o)); [apply kc_ret|apply kc_hset].
    - apply kc_bind; [apply kc_get|]. intros w. destruct (dget (w_redis w) _) as [x|].
      + destruct (dump_eq x o); [apply kc_ret|apply kc_raise].
      + now apply kc_ads.
  Qed.
  Lemma kc_remove_item a t u : kc (st_remove_item a t u).
  Proof.
    unfold st_remove_item. apply kc_bind; [apply kc_adapter|]. intros ad. destruct (ad_store ad) as [d|sid].
    - apply kc_bind; [apply kc_put|]. intros _. destruct (dget _ u) as [r'|]; [apply kc_put|apply kc_raise].
    - apply kc_bind; [apply kc_get|]. intros w. destruct (dget (w_redis w) _) as [x|]; [now apply kc_ads|apply kc_raise].
  Qed.
  Lemma kc_clear r : kc (clear_adapter r).
  Proof.
    unfold clear_adapter. apply kc_bind; [apply kc_hget|]. intros o. apply kc_bind; [apply kc_get|]. intros w.
    destruct (adapter_truthy w (o_adapter o)); [apply kc_hset|apply kc_ret].
  Qed.
  Lemma kc_remove fuel a : forall r b, kc (st_remove fuel a r b).
  Proof.
    induction fuel as [|fuel IH]; intros r b; cbn [st_remove]; [apply kc_raise|].
    apply kc_bind; [apply kc_hget|]. intros o. apply kc_bind; [apply kc_lift|]. intros u.
    apply kc_bind; [now apply kc_remove_item|]. intros _. apply kc_bind; [apply kc_clear|]. intros _.
    destruct b; [|apply kc_ret]. apply kc_forM. intros tf. apply kc_bind; [apply kc_lift|]. intros ids. apply kc_forM. intros id.
    apply kc_try; [|intros e; apply kc_emit]. apply kc_bind; [apply kc_st_get|]. auto.
  Qed.
  Lemma kc_child_add p c : kc (heap_add_child p c).
  Proof.
    unfold heap_add_child. apply kc_bind; [apply kc_hget|]. intros o. apply kc_bind; [apply kc_hget|]. intros o'.
    apply kc_bind; [apply kc_lift|]. intros x. apply kc_hset.
  Qed.
  Lemma kc_child_remove p c : kc (heap_remove_child p c).
  Proof.
    unfold heap_remove_child. apply kc_bind; [apply kc_hget|]. intros o. apply kc_bind; [apply kc_hget|]. intros o'.
    apply kc_bind; [apply kc_lift|]. intros x. apply kc_hset.
  Qed.
  Lemma kc_end (o : hook_end) (x : option ref) :
    kc match o with HReturn => ret x | HReturnNone => ret None | HRaise e => raise e end.
  Proof. destruct o; [apply kc_ret|apply kc_ret|apply kc_raise]. Qed.
  Lemma kc_create env c ids attrs : kc (call_create env c ids attrs).
  Proof.
    unfold call_create. apply kc_bind; [apply kc_get|]. intros w. apply kc_bind; [apply kc_emit|]. intros _.
    apply kc_bind; [|intros a; apply kc_end].
    destruct (ho_base _); [|apply kc_ret]. apply kc_bind; [apply kc_lift|]. intros o. apply kc_bind; [apply kc_halloc|].
    intros r. apply kc_ret.
  Qed.
  Lemma kc_update env r attrs : kc (call_update env r attrs).
  Proof.
    unfold call_update. apply kc_bind; [apply kc_get|]. intros w. apply kc_bind; [apply kc_hget|]. intros o.
    apply kc_bind; [apply kc_emit|]. intros _.
    apply kc_bind; [destruct (ho_base _); [apply kc_mutate|apply kc_ret]|]. intros _.
    apply kc_bind; [apply kc_mutate|]. intros _. apply kc_end.
  Qed.
  Lemma kc_delete env r : kc (call_delete env r).
  Proof.
    unfold call_delete. apply kc_bind; [apply kc_get|]. intros w. apply kc_bind; [apply kc_hget|]. intros o.
    apply kc_bind; [apply kc_emit|]. intros _.
    apply kc_bind; [destruct (ho_base _); [apply kc_mutate|apply kc_ret]|]. intros _.
    apply kc_bind; [apply kc_mutate|]. intros _. apply kc_end.
  Qed.
  Lemma kc_apply env a p r b : kc (apply_to_store env a p r b).
  Proof.
    unfold apply_to_store. destruct a as [[]|]; try apply kc_ret.
    - apply kc_bind; [destruct p; [apply kc_child_add|apply kc_ret]|]. intros _. apply kc_bind; [apply kc_st_add|]. intros _. apply kc_ret.
    - apply kc_bind; [destruct p; [apply kc_child_remove|apply kc_ret]|]. intros _. apply kc_bind; [apply kc_remove|]. intros _. apply kc_ret.
  Qed.

  Definition same_as (da : adapter) (w : world) : Prop :=
    exists ad, nth_error (w_ads w) dst = Some ad /\ ad_classes ad = ad_classes da.
  Lemma class_rules env da (El : elem -> Prop) : sv_dst env = dst -> (forall e k, El e -> kid_of e k -> El k) ->
    sync_rules env El (fun e => dget (ad_classes da) (e_type e)) (same_as da) (fun _ _ => True)
      (fun _ _ _ => True) (fun _ _ => True) (fun _ _ _ => True) (fun _ _ _ => True) (fun _ _ => True).
  Proof.
    intros ED EK.
    assert (MM : forall A (m : M world A), kc m -> forall w, same_as da w -> same_as da (fst (m w))).
    { intros A m H w (ad & E & C). destruct (H w ad E) as (ad' & E' & C'). exists ad'. split; congruence. }
    assert (MP : forall A (m : M world A) (P : world -> result A -> Prop), kc m -> (forall w r, P w r) -> forall w, same_as da w ->
      let (w', r) := m w in same_as da w' /\ True /\ P w' r).
    { intros A m P H HP w HM. specialize (MM A m H w HM). destruct (m w) as [w' r]. auto. }
    constructor; try (intros; exact Logic.I); auto.
    - intros w ad e (a & E1 & C1) _ E. rewrite ED in E. rewrite E in E1. injection E1 as <-. now rewrite C1.
    - intros w e c HM _ _. cbv zeta. split; [|exact Logic.I]. apply (MM _ (ad_get_or_none _ _ _)); [apply kc_or_none|exact HM].
    - intros w e c u HM _ _ _. apply (MP _ _ (fun w' r => match r with Ok (Some x) => True | Ok None => True | Err _ => True end));
        [apply kc_dst_model|now intros _ [[]|]|exact HM].
    - intros w e c u HM O _ _ A _. apply (MP _ _ (fun w' r => match r with Ok (Some x) => True /\ True | _ => True end));
        [apply kc_create|now intros _ [[]|]|exact HM].
    - intros w e x HM _ _ _. pose proof (MM _ _ (kc_update env x (plus_attrs e)) w HM).
      destruct (call_update env x (plus_attrs e) w). auto.
    - intros w e x HM O _ A. pose proof (MM _ _ (kc_delete env x) w HM).
      destruct (call_delete env x w). auto.
    - intros w e p x b HM O A _ _ _. pose proof (MM _ _ (kc_apply env (Some ACreate) p x b) w HM).
      destruct (apply_to_store env (Some ACreate) p x b w). auto.
    - intros w e p x b HM O A _ _ _. pose proof (MM _ _ (kc_apply env (Some ADelete) p x b) w HM).
      destruct (apply_to_store env (Some ADelete) p x b w). auto.
  Qed.
End Classes.
