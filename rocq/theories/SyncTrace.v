(** * SyncTrace: every run of the syncer takes one of the courses of RunSpec. *)
From Verif Require Export RunSpec SyncFrame2 FaithFacts.

(** ** Events of the operations on stores *)
Section Quiet.
  Variable P : event -> Prop.
  Definition wq {A} (m : M world A) : Prop := forall w,
    (exists evs, w_trace (fst (m w)) = w_trace w ++ evs /\ Forall P evs) /\
    forall x, snd (m w) = Err x -> is_crud x = false.
  Lemma wq_same {A} (m : M world A) : (forall w, w_trace (fst (m w)) = w_trace w) ->
    (forall w x, snd (m w) = Err x -> is_crud x = false) -> wq m.
  Proof. intros H1 H2 w. split; [exists []; rewrite app_nil_r; auto|eauto]. Qed.
  Lemma wq_bind {A B} (m : M world A) (k : A -> M world B) : wq m -> (forall a, wq (k a)) -> wq (bind m k).
  Proof.
    intros H1 H2 w. unfold bind. specialize (H1 w). destruct (m w) as [w1 [a|x]]; simpl in *.
    - destruct H1 as [(e1 & T1 & F1) _]. destruct (H2 a w1) as [(e2 & T2 & F2) H3]. split; [|exact H3].
      exists (e1 ++ e2). rewrite T2, T1, app_assoc. split; [reflexivity|]. apply Forall_app. auto.
    - destruct H1 as [H1 H3]. split; [exact H1|]. intros y E. injection E as <-. now apply H3.
  Qed.
  Lemma wq_ret {A} (a : A) : wq (ret a).  Proof. apply wq_same; [reflexivity|discriminate]. Qed.
  Lemma wq_raise {A} x : is_crud x = false -> wq (@raise world A x).
  Proof. intros H. apply wq_same; [reflexivity|]. intros w y E. injection E as <-. exact H. Qed.
  Lemma wq_lift {A} (r : result A) : (forall x, r = Err x -> is_crud x = false) -> wq (lift r).
  Proof. intros H. apply wq_same; [reflexivity|]. intros w x E. now apply H. Qed.
  Lemma wq_get : wq (@get_state world).  Proof. apply wq_same; [reflexivity|discriminate]. Qed.
  Lemma wq_hget r : wq (hget r).
  Proof. apply wq_same; intros w; unfold hget; destruct (nth_error (w_heap w) r); try reflexivity; try discriminate. intros x E; now injection E as <-. Qed.
  Lemma wq_adapter a : wq (get_adapter a).
  Proof. apply wq_same; intros w; unfold get_adapter; destruct (nth_error (w_ads w) a); try reflexivity; try discriminate. intros x E; now injection E as <-. Qed.
  Lemma wq_emit ev : P ev -> wq (emit ev).
  Proof. intros H w. split; [exists [ev]; split; [reflexivity|auto]|discriminate]. Qed.
  Lemma wq_hset r o : wq (hset r o).  Proof. apply wq_same; [reflexivity|discriminate]. Qed.
  Lemma wq_put a s : wq (put_store a s).
  Proof. apply wq_same; [|discriminate]. intros w. rewrite put_store_eq. simpl. apply upd_store_trace. Qed.
  Lemma wq_try {A} (m : M world A) p h : wq m -> (forall e, wq (h e)) -> wq (try_catch m p h).
  Proof.
    intros H1 H2 w. unfold try_catch. specialize (H1 w). destruct (m w) as [w1 [a|x]]; simpl in *; [exact H1|].
    destruct (p x); [|exact H1]. destruct H1 as [(e1 & T1 & F1) _]. destruct (H2 x w1) as [(e2 & T2 & F2) H3]. split; [|exact H3].
    exists (e1 ++ e2). rewrite T2, T1, app_assoc. split; [reflexivity|]. apply Forall_app. auto.
  Qed.
  Lemma wq_forM {A} (l : list A) f : (forall x, wq (f x)) -> wq (forM l f).
  Proof. intros H. induction l as [|x l IH]; simpl; [apply wq_ret|]. apply wq_bind; auto. Qed.
  Lemma rmapM_err {A B} (f : A -> result B) l x : (forall a y, f a = Err y -> is_crud y = false) -> rmapM f l = Err x -> is_crud x = false.
  Proof.
    intros H. induction l as [|a l IH]; simpl; [discriminate|]. unfold rbind. destruct (f a) as [b|y] eqn:E.
    - destruct (rmapM f l) as [bs|y]; [discriminate|exact IH].
    - intros X. injection X as <-. eauto.
  Qed.
  Lemma uid_err c ids x : create_unique_id c ids = Err x -> is_crud x = false.
  Proof.
    unfold create_unique_id, rbind at 1. destruct (rmapM _ _) as [l|y] eqn:E; [discriminate|]. intros X. injection X as <-.
    eapply rmapM_err; [|exact E]. intros k z. unfold rbind, dict_item. destruct (dget ids k); [discriminate|]. intros X; now injection X as <-.
  Qed.
  Lemma wq_get_uid c i : wq (lift (get_uid c i)).
  Proof.
    apply wq_lift. intros x. unfold get_uid. destruct i, c; try discriminate; try (intros X; now injection X as <-). apply uid_err.
  Qed.
  Lemma wq_st_get a m i : wq (st_get a m i).
  Proof.
    unfold st_get. apply wq_bind; [apply wq_adapter|]. intros ad. apply wq_bind; [apply wq_get_uid|]. intros u.
    destruct (ad_store ad).
    - apply wq_bind; [apply wq_put|]. intros _. destruct (dget _ u); [apply wq_ret|now apply wq_raise].
    - apply wq_same; intros w; unfold redis_load; destruct (dget (w_redis w) _); try reflexivity; try discriminate.
      intros x E; now injection E as <-.
  Qed.
  Lemma wq_or_none a m i : wq (ad_get_or_none a m i).
  Proof. unfold ad_get_or_none. apply wq_try; [|intros; apply wq_ret]. apply wq_bind; [apply wq_st_get|intros; apply wq_ret]. Qed.
  Lemma wq_dst_model env c ids : wq (get_dst_model env c ids).
  Proof.
    unfold get_dst_model. apply wq_try; [|intros; apply wq_ret]. apply wq_bind; [apply wq_st_get|]. intros r.
    apply wq_bind; [|intros; apply wq_ret]. unfold mutate. apply wq_bind; [apply wq_hget|]. intros o.
    apply wq_bind; [apply wq_hset|]. intros _. now apply wq_lift.
  Qed.
  Lemma add_child_err p c x : add_child p c = Err x -> is_crud x = false.
  Proof.
    unfold add_child. destruct (dget _ _) as [f|]; [|intros X; now injection X as <-]. unfold getattr_kids. destruct (dget _ f) as [l|]; simpl; [|intros X; now injection X as <-].
    unfold get_unique_id. destruct (create_unique_id _ _) as [u|y] eqn:E; simpl; [|intros X; injection X as <-; eapply uid_err; eauto].
    destruct (smem u l); [intros X; now injection X as <-|discriminate].
  Qed.
  Lemma remove_child_err p c x : remove_child p c = Err x -> is_crud x = false.
  Proof.
    unfold remove_child. destruct (dget _ _) as [f|]; [|intros X; now injection X as <-]. unfold getattr_kids. destruct (dget _ f) as [l|]; simpl; [|intros X; now injection X as <-].
    unfold get_unique_id. destruct (create_unique_id _ _) as [u|y] eqn:E; simpl; [|intros X; injection X as <-; eapply uid_err; eauto].
    destruct (smem u l); [discriminate|intros X; now injection X as <-].
  Qed.
  Lemma wq_child_add p c : wq (heap_add_child p c).
  Proof.
    unfold heap_add_child. apply wq_bind; [apply wq_hget|]. intros o. apply wq_bind; [apply wq_hget|]. intros o'.
    apply wq_bind; [apply wq_lift, add_child_err|]. intros x. apply wq_hset.
  Qed.
  Lemma wq_child_remove p c : wq (heap_remove_child p c).
  Proof.
    unfold heap_remove_child. apply wq_bind; [apply wq_hget|]. intros o. apply wq_bind; [apply wq_hget|]. intros o'.
    apply wq_bind; [apply wq_lift, remove_child_err|]. intros x. apply wq_hset.
  Qed.
  Lemma wq_uid o : wq (lift (get_unique_id o)).
  Proof. apply wq_lift. intros x. apply uid_err. Qed.
  Lemma wq_st_add a r : wq (st_add a r).
  Proof.
    unfold st_add. apply wq_bind; [apply wq_hget|]. intros o. apply wq_bind; [apply wq_uid|]. intros u.
    apply wq_bind; [apply wq_adapter|]. intros ad. destruct (ad_store ad) as [d|sid].
    - apply wq_bind; [apply wq_put|]. intros _. destruct (dget _ u) as [r'|].
      + destruct (Nat.eqb r' r); [apply wq_ret|now apply wq_raise].
      + apply wq_bind; [apply wq_get|]. intros w. apply wq_bind; [|intros _; apply wq_put].
        destruct (adapter_truthy w (o_adapter o)); [apply wq_ret|apply wq_hset].
    - apply wq_bind; [apply wq_get|]. intros w. destruct (dget (w_redis w) _) as [x|].
      + destruct (dump_eq x o); [apply wq_ret|now apply wq_raise].
      + apply wq_same; [reflexivity|discriminate].
  Qed.
  Lemma wq_remove_item a t u : wq (st_remove_item a t u).
  Proof.
    unfold st_remove_item. apply wq_bind; [apply wq_adapter|]. intros ad. destruct (ad_store ad) as [d|sid].
    - apply wq_bind; [apply wq_put|]. intros _. destruct (dget _ u) as [r'|]; [apply wq_put|now apply wq_raise].
    - apply wq_bind; [apply wq_get|]. intros w. destruct (dget (w_redis w) _) as [x|]; [apply wq_same; [reflexivity|discriminate]|now apply wq_raise].
  Qed.
  Lemma wq_clear r : wq (clear_adapter r).
  Proof.
    unfold clear_adapter. apply wq_bind; [apply wq_hget|]. intros o. apply wq_bind; [apply wq_get|]. intros w.
    destruct (adapter_truthy w (o_adapter o)); [apply wq_hset|apply wq_ret].
  Qed.
  Lemma wq_remove a fuel b : (b = true -> forall ev, missing_child ev -> P ev) -> forall r, wq (st_remove fuel a r b).
  Proof.
    intros HP. induction fuel as [|fuel IH]; intros r; cbn [st_remove]; [now apply wq_raise|].
    apply wq_bind; [apply wq_hget|]. intros o. apply wq_bind; [apply wq_uid|]. intros u.
    apply wq_bind; [apply wq_remove_item|]. intros _. apply wq_bind; [apply wq_clear|]. intros _.
    destruct b; [|apply wq_ret]. apply wq_forM. intros tf. apply wq_bind.
    - apply wq_lift. intros x. unfold getattr_kids. destruct (dget _ _); [discriminate|]. intros X; now injection X as <-.
    - intros ids. apply wq_forM. intros id. apply wq_try; [|intros e; apply wq_emit; now apply HP].
      apply wq_bind; [apply wq_st_get|]. auto.
  Qed.
End Quiet.
Lemma no_events (evs : list event) : Forall (fun _ => False) evs -> evs = [].
Proof. destruct evs; [reflexivity|]. intros H. inversion H. contradiction. Qed.
Lemma wq_none {A} (m : M world A) w : wq (fun _ => False) m -> w_trace (fst (m w)) = w_trace w.
Proof. intros H. destruct (H w) as [(evs & T & F) _]. rewrite T, (no_events _ F), app_nil_r. reflexivity. Qed.
Lemma wq_apply env a p r b : wq (fun ev => a = Some ADelete /\ b = true /\ missing_child ev) (apply_to_store env a p r b).
Proof.
  unfold apply_to_store. destruct a as [[]|]; try apply wq_ret.
  - apply wq_bind; [destruct p; [apply wq_child_add|apply wq_ret]|]. intros _. apply wq_bind; [apply wq_st_add|]. intros _. apply wq_ret.
  - apply wq_bind; [destruct p; [apply wq_child_remove|apply wq_ret]|]. intros _. apply wq_bind; [apply wq_remove; auto|]. intros _. apply wq_ret.
Qed.

(** ** Hook calls *)
Lemma create_trace env c ids attrs w :
  w_trace (fst (call_create env c ids attrs w)) = w_trace w ++ [EvHook ACreate (c_modelname c) ids attrs].
Proof.
  unfold call_create, bind, get_state, emit, modify, lift, halloc, ret, raise.
  destruct (ho_base _).
  - destruct (create_base _ _ _ _); [|reflexivity]. simpl. destruct (ho_end _); reflexivity.
  - destruct (ho_end _); reflexivity.
Qed.
Lemma mutate_trace r f w : w_trace (fst (mutate r f w)) = w_trace w.
Proof. unfold mutate, bind, hget, hset, modify, lift. destruct (nth_error (w_heap w) r); reflexivity. Qed.
Lemma update_trace env r attrs w :
  match nth_error (w_heap w) r with
  | Some o => w_trace (fst (call_update env r attrs w)) = w_trace w ++ [EvHook AUpdate (get_type o) (get_identifiers o) attrs]
  | None => call_update env r attrs w = (w, Err DanglingRef)
  end.
Proof.
  unfold call_update, bind, get_state. unfold hget at 1 2. destruct (nth_error (w_heap w) r) as [o|]; [|reflexivity].
  unfold emit, modify. set (w1 := add_event w _). change (w_trace w ++ _) with (w_trace w1). clearbody w1.
  match goal with |- w_trace (fst (match ?m w1 with _ => _ end)) = _ =>
    assert (T : w_trace (fst (m w1)) = w_trace w1) by (destruct (ho_base _); [apply mutate_trace|reflexivity]);
    destruct (m w1) as [w2 [[]|]]; simpl in T; [|exact T] end.
  pose proof (mutate_trace r (fun o0 => (apply_hook (sv_hooks env w (HUpdate r attrs)) o0, Ok tt)) w2) as T2.
  destruct (mutate r _ w2) as [w3 [[]|]]; simpl in T2; [|simpl; congruence].
  destruct (ho_end _); simpl; congruence.
Qed.
Lemma delete_trace env r w :
  match nth_error (w_heap w) r with
  | Some o => w_trace (fst (call_delete env r w)) = w_trace w ++ [EvHook ADelete (get_type o) (get_identifiers o) []]
  | None => call_delete env r w = (w, Err DanglingRef)
  end.
Proof.
  unfold call_delete, bind, get_state. unfold hget at 1 2. destruct (nth_error (w_heap w) r) as [o|]; [|reflexivity].
  unfold emit, modify. set (w1 := add_event w _). change (w_trace w ++ _) with (w_trace w1). clearbody w1.
  match goal with |- w_trace (fst (match ?m w1 with _ => _ end)) = _ =>
    assert (T : w_trace (fst (m w1)) = w_trace w1) by (destruct (ho_base _); [apply mutate_trace|reflexivity]);
    destruct (m w1) as [w2 [[]|]]; simpl in T; [|exact T] end.
  pose proof (mutate_trace r (fun o0 => (apply_hook (sv_hooks env w (HDelete r)) o0, Ok tt)) w2) as T2.
  destruct (mutate r _ w2) as [w3 [[]|]]; simpl in T2; [|simpl; congruence].
  destruct (ho_end _); simpl; congruence.
Qed.
(** the object resulting from an update or delete hook is the object itself *)
Lemma update_same env r attrs w w' x : call_update env r attrs w = (w', Ok (Some x)) -> x = r.
Proof.
  unfold call_update, bind, get_state, ret, raise.
  destruct (hget r w) as [wa [oa|]]; [|discriminate].
  destruct (emit _ wa) as [wb [[]|]]; [|discriminate].
  match goal with |- context [match ?m wb with _ => _ end] => destruct (m wb) as [wc [[]|]]; [|discriminate] end.
  match goal with |- context [match ?m wc with _ => _ end] => destruct (m wc) as [wd [[]|]]; [|discriminate] end.
  destruct (ho_end _); try discriminate. congruence.
Qed.
Lemma delete_same env r w w' x : call_delete env r w = (w', Ok (Some x)) -> x = r.
Proof.
  unfold call_delete, bind, get_state, ret, raise.
  destruct (hget r w) as [wa [oa|]]; [|discriminate].
  destruct (emit _ wa) as [wb [[]|]]; [|discriminate].
  match goal with |- context [match ?m wb with _ => _ end] => destruct (m wb) as [wc [[]|]]; [|discriminate] end.
  match goal with |- context [match ?m wc with _ => _ end] => destruct (m wc) as [wd [[]|]]; [|discriminate] end.
  destruct (ho_end _); try discriminate. congruence.
Qed.

(** how they end *)
Definition ends_as (h : hooks) (w : world) (hc : hookcall) (r : result (option ref)) : Prop :=
  match r with
  | Ok (Some _) => ho_end (h w hc) = HReturn
  | Ok None => ho_end (h w hc) = HReturnNone \/ (ho_end (h w hc) = HReturn /\ ho_base (h w hc) = false)
  | Err x => ho_end (h w hc) = HRaise x \/ is_crud x = false
  end.
Lemma create_base_err c a ids attrs x : create_base c a ids attrs = Err x -> is_crud x = false.
Proof.
  unfold create_base, merge_kw, instantiate. destruct (existsb _ ids); simpl; [intros E; now injection E as <-|].
  destruct (rmapM _ (c_fields c)) as [l|y] eqn:E; simpl; [discriminate|]. intros X. injection X as <-.
  eapply rmapM_err; [|exact E]. intros [f d] y' H. simpl in H. destruct (dget _ f); [discriminate|]. destruct d; [discriminate|]. now injection H as <-.
Qed.
Lemma update_base_err o attrs x : snd (update_base o attrs) = Err x -> is_crud x = false.
Proof.
  unfold update_base. assert (H : forall o y, snd (setattrs o attrs) = Err y -> is_crud y = false).
  { induction attrs as [|[k v] attrs IH]; intros o' y; simpl; [discriminate|]. unfold setattr_val.
    destruct (dmem (o_vals o') k); [apply IH|]. intros E; now injection E as <-. }
  specialize (H o). destruct (setattrs o attrs) as [o' [u|y]]; [discriminate|]. intros E. simpl in E. injection E as <-. now apply H.
Qed.
Lemma mutate_err r f w x : (forall o y, snd (f o) = Err y -> is_crud y = false) -> snd (mutate r f w) = Err x -> is_crud x = false.
Proof.
  intros H. unfold mutate, bind, hget, hset, modify, lift. destruct (nth_error (w_heap w) r); simpl; [apply H|]. intros E; now injection E as <-.
Qed.
Lemma create_ends env c ids attrs w : ends_as (sv_hooks env) w (HCreate c ids attrs) (snd (call_create env c ids attrs w)).
Proof.
  unfold call_create, bind, get_state, emit, modify, lift, halloc, ret, raise, ends_as.
  destruct (ho_base _) eqn:EB.
  - destruct (create_base _ _ _ _) as [o|x] eqn:E; simpl; [|right; eapply create_base_err; eauto]. destruct (ho_end _); simpl; auto.
  - destruct (ho_end _); simpl; auto.
Qed.
Lemma update_ends env r attrs w : ends_as (sv_hooks env) w (HUpdate r attrs) (snd (call_update env r attrs w)).
Proof.
  unfold call_update, bind, get_state. unfold hget at 1. destruct (nth_error (w_heap w) r) as [o|]; [|simpl; auto].
  unfold emit, modify. set (w1 := add_event w _). clearbody w1. set (out := sv_hooks env w (HUpdate r attrs)).
  match goal with |- context [match ?m w1 with _ => _ end] =>
    assert (T : forall x, snd (m w1) = Err x -> is_crud x = false) by
      (intros x; destruct (ho_base out); [apply mutate_err; intros; eapply update_base_err; eauto|discriminate]);
    destruct (m w1) as [w2 [[]|y]]; [|simpl; auto] end.
  pose proof (mutate_err r (fun o0 => (apply_hook out o0, Ok tt)) w2) as T2.
  destruct (mutate r _ w2) as [w3 [[]|y]]; [|simpl; right; apply T2; [discriminate|reflexivity]].
  unfold ends_as. fold out. destruct (ho_end out); simpl; auto.
Qed.
Lemma delete_ends env r w : ends_as (sv_hooks env) w (HDelete r) (snd (call_delete env r w)).
Proof.
  unfold call_delete, bind, get_state. unfold hget at 1. destruct (nth_error (w_heap w) r) as [o|]; [|simpl; auto].
  unfold emit, modify. set (w1 := add_event w _). clearbody w1. set (out := sv_hooks env w (HDelete r)).
  match goal with |- context [match ?m w1 with _ => _ end] =>
    assert (T : forall x, snd (m w1) = Err x -> is_crud x = false) by
      (intros x; destruct (ho_base out); [apply mutate_err; discriminate|discriminate]);
    destruct (m w1) as [w2 [[]|y]]; [|simpl; auto] end.
  pose proof (mutate_err r (fun o0 => (apply_hook out o0, Ok tt)) w2) as T2.
  destruct (mutate r _ w2) as [w3 [[]|y]]; [|simpl; right; apply T2; [discriminate|reflexivity]].
  unfold ends_as. fold out. destruct (ho_end out); simpl; auto.
Qed.
(** the same, about the record of the call *)
Definition end_of (r : result (option ref)) : callend :=
  match r with Ok (Some _) => CModel | Ok None => CNone | Err x => CRaise x end.
Lemma ends_may h w hc ev r : call_event w hc ev -> ends_as h w hc r ->
  may_end h ev (end_of r) \/ exists x, r = Err x /\ is_crud x = false.
Proof.
  intros HC. unfold ends_as, end_of. destruct r as [[m|]|x].
  - intros H. left. exists w, hc. auto.
  - intros H. left. exists w, hc. auto.
  - intros [H|H]; [left; exists w, hc; auto|right; eauto].
Qed.
(** the status reported *)
Lemma hook_says out o : get_status (apply_hook out o) = match ho_status out with Some x => x | None => get_status o end.
Proof.
  assert (F : forall l o, get_status (set_fields l o) = get_status o).
  { induction l as [|[k v] l IH]; intros o'; cbn [set_fields]; [reflexivity|]. rewrite IH. now destruct (own_field o' k). }
  unfold apply_hook. rewrite F. now destruct (ho_status out) as [[st msg]|].
Qed.
Lemma create_base_says c a ids attrs o : create_base c a ids attrs = Ok o -> get_status o = (StSuccess, "Created successfully"%string).
Proof.
  unfold create_base. intros E. repeat match type of E with rbind ?x _ = _ => destruct x; [|discriminate]; cbn [rbind] in E end.
  injection E as <-. reflexivity.
Qed.
Lemma update_base_says o attrs o' : update_base o attrs = (o', Ok tt) -> get_status o' = (StSuccess, "Updated successfully"%string).
Proof. unfold update_base. destruct (setattrs o attrs) as [o1 [[]|x]]; intros E; injection E; try discriminate. now intros <-. Qed.
Lemma create_says env c ids attrs w w' r o : call_create env c ids attrs w = (w', Ok (Some r)) -> nth_error (w_heap w') r = Some o ->
  says w (HCreate c ids attrs) (sv_hooks env w (HCreate c ids attrs)) (o_status o) (o_msg o) /\ ho_end (sv_hooks env w (HCreate c ids attrs)) = HReturn.
Proof.
  unfold call_create, bind, get_state, emit, modify, lift, halloc, ret, raise, says. set (out := sv_hooks _ _ _).
  destruct (ho_base out).
  - destruct (create_base _ _ _ _) as [o0|x] eqn:E; simpl; [|discriminate]. destruct (ho_end out); try discriminate.
    intros H. injection H as <- <-. simpl. rewrite nth_error_app2, Nat.sub_diag by lia. intros H. injection H as <-.
    pose proof (hook_says out o0) as HS. rewrite (create_base_says _ _ _ _ _ E) in HS. split; [|reflexivity].
    destruct (ho_status out) as [x|]; [exact (eq_sym HS)|]. injection HS. auto.
  - destruct (ho_end out); discriminate.
Qed.
Lemma mutate_obj r f w w' o : mutate r f w = (w', Ok tt) -> nth_error (w_heap w') r = Some o ->
  exists o0, nth_error (w_heap w) r = Some o0 /\ f o0 = (o, Ok tt).
Proof.
  unfold mutate, bind, hget, hset, modify, lift. destruct (nth_error (w_heap w) r) as [o0|] eqn:E; [|discriminate].
  intros H. injection H as <- H. simpl. rewrite (nth_list_set_eq _ _ _ _ E). intros X. injection X as <-.
  exists o0. split; [reflexivity|]. destruct (f o0). simpl in *. now rewrite H.
Qed.
Lemma update_says env at_ r w w' m o : call_update env r at_ w = (w', Ok (Some m)) -> nth_error (w_heap w') m = Some o ->
  says w (HUpdate r at_) (sv_hooks env w (HUpdate r at_)) (o_status o) (o_msg o) /\ ho_end (sv_hooks env w (HUpdate r at_)) = HReturn.
Proof.
  unfold call_update, bind, get_state. unfold hget at 1. destruct (nth_error (w_heap w) r) as [o1|] eqn:E1; [|discriminate].
  unfold emit, modify. set (out := sv_hooks env w (HUpdate r at_)).
  set (w1 := add_event w _). assert (EW : w_heap w1 = w_heap w) by reflexivity. clearbody w1.
  match goal with |- context [match ?m w1 with _ => _ end] =>
    assert (T : forall w2 o2, m w1 = (w2, Ok tt) -> nth_error (w_heap w2) r = Some o2 ->
              if ho_base out then get_status o2 = (StSuccess, "Updated successfully"%string) else o2 = o1);
    [|destruct (m w1) as [w2 [[]|y]]; [|discriminate]] end.
  { intros w2 o2. destruct (ho_base out).
    - intros H1 H2. destruct (mutate_obj _ _ _ _ _ H1 H2) as (o0 & _ & H). now apply update_base_says in H.
    - intros H1. injection H1 as <-. rewrite EW, E1. congruence. }
  destruct (mutate r _ w2) as [w3 [[]|y]] eqn:E3; [|discriminate]. destruct (ho_end out) eqn:EE; try discriminate.
  intros H. injection H as <- <-. intros H. destruct (mutate_obj _ _ _ _ _ E3 H) as (o2 & H2 & H3). injection H3 as <-.
  specialize (T _ _ eq_refl H2). pose proof (hook_says out o2) as HS. split; [|reflexivity]. unfold says.
  destruct (ho_status out) as [x|]; [exact (eq_sym HS)|]. destruct (ho_base out).
  - rewrite T in HS. injection HS. auto.
  - exists o1. subst o2. injection HS. auto.
Qed.
Lemma delete_says env r w w' m o : call_delete env r w = (w', Ok (Some m)) -> nth_error (w_heap w') m = Some o ->
  says w (HDelete r) (sv_hooks env w (HDelete r)) (o_status o) (o_msg o) /\ ho_end (sv_hooks env w (HDelete r)) = HReturn.
Proof.
  unfold call_delete, bind, get_state. unfold hget at 1. destruct (nth_error (w_heap w) r) as [o1|] eqn:E1; [|discriminate].
  unfold emit, modify. set (out := sv_hooks env w (HDelete r)).
  set (w1 := add_event w _). assert (EW : w_heap w1 = w_heap w) by reflexivity. clearbody w1.
  match goal with |- context [match ?m w1 with _ => _ end] =>
    assert (T : forall w2 o2, m w1 = (w2, Ok tt) -> nth_error (w_heap w2) r = Some o2 ->
              if ho_base out then get_status o2 = (StSuccess, "Deleted successfully"%string) else o2 = o1);
    [|destruct (m w1) as [w2 [[]|y]]; [|discriminate]] end.
  { intros w2 o2. destruct (ho_base out).
    - intros H1 H2. destruct (mutate_obj _ _ _ _ _ H1 H2) as (o0 & _ & H). now injection H as <-.
    - intros H1. injection H1 as <-. rewrite EW, E1. congruence. }
  destruct (mutate r _ w2) as [w3 [[]|y]] eqn:E3; [|discriminate]. destruct (ho_end out) eqn:EE; try discriminate.
  intros H. injection H as <- <-. intros H. destruct (mutate_obj _ _ _ _ _ E3 H) as (o2 & H2 & H3). injection H3 as <-.
  specialize (T _ _ eq_refl H2). pose proof (hook_says out o2) as HS. split; [|reflexivity]. unfold says.
  destruct (ho_status out) as [x|]; [exact (eq_sym HS)|]. destruct (ho_base out).
  - rewrite T in HS. injection HS. auto.
  - exists o1. subst o2. injection HS. auto.
Qed.
(** ** The rule *)
Arguments ru_refl {env El clsof I Rel Pos Abs Fr Dm Sk}.
Arguments ru_trans {env El clsof I Rel Pos Abs Fr Dm Sk}.
Arguments ru_pos {env El clsof I Rel Pos Abs Fr Dm Sk}.
Arguments ru_dm {env El clsof I Rel Pos Abs Fr Dm Sk}.
Arguments ru_sk {env El clsof I Rel Pos Abs Fr Dm Sk}.
Arguments ru_flag {env El clsof I Rel Pos Abs Fr Dm Sk}.
Arguments ru_cls {env El clsof I Rel Pos Abs Fr Dm Sk}.
Arguments ru_event {env El clsof I Rel Pos Abs Fr Dm Sk}.
Arguments ru_abs_event {env El clsof I Rel Pos Abs Fr Dm Sk}.
Arguments ru_fr_event {env El clsof I Rel Pos Abs Fr Dm Sk}.
Arguments ru_kids {env El clsof I Rel Pos Abs Fr Dm Sk}.
Arguments ru_src {env El clsof I Rel Pos Abs Fr Dm Sk}.
Arguments ru_dst {env El clsof I Rel Pos Abs Fr Dm Sk}.
Arguments ru_create {env El clsof I Rel Pos Abs Fr Dm Sk}.
Arguments ru_update {env El clsof I Rel Pos Abs Fr Dm Sk}.
Arguments ru_delete {env El clsof I Rel Pos Abs Fr Dm Sk}.
Arguments ru_add {env El clsof I Rel Pos Abs Fr Dm Sk}.
Arguments ru_remove {env El clsof I Rel Pos Abs Fr Dm Sk}.
Arguments ru_below {env El clsof I Rel Pos Abs Fr Dm Sk}.
(** below an element to delete, everything is to be deleted *)
Definition deletes_down (El : elem -> Prop) : Prop :=
  forall e k, El e -> e_action e = Some ADelete -> kid_of e k -> e_action k = Some ADelete.

Section Trace.
  Variables (ord : order_fn) (env : senv).
  Variable El : elem -> Prop.
  Variable clsof : elem -> option cls.
  Variable I : world -> Prop.
  Variable Rel : world -> world -> Prop.
  Variable Pos : world -> elem -> option ref -> Prop.
  Variable Abs : world -> elem -> Prop.
  Variable Fr : world -> elem -> ref -> Prop.
  Variable Dm : world -> elem -> ref -> Prop.
  Variable Sk : world -> ref -> Prop.
  Hypothesis RU : sync_rules env El clsof I Rel Pos Abs Fr Dm Sk.
  Hypothesis HDD : deletes_down El.

  Definition Has (e : elem) (o : obj) : Prop := exists w r, I w /\ Dm w e r /\ nth_error (w_heap w) r = Some o.
  Definition Lacks (e : elem) : Prop := exists w, I w /\ Abs w e.

  Definition tr {A} (m : M sstate A) (s : sstate) (Q : list event -> sstate -> result A -> Prop) : Prop :=
    let (s', r) := m s in
    I (ss_w s') /\ Rel (ss_w s) (ss_w s') /\
    exists evs, w_trace (ss_w s') = w_trace (ss_w s) ++ evs /\ Q evs s' r.

  Lemma tr_bind {A B} (m : M sstate A) (k : A -> M sstate B) s Q (Q' : list event -> sstate -> result B -> Prop) :
    tr m s Q ->
    (forall a s' ev, Q ev s' (Ok a) -> I (ss_w s') -> Rel (ss_w s) (ss_w s') ->
       tr (k a) s' (fun ev2 s2 r => Q' (ev ++ ev2) s2 r)) ->
    (forall x s' ev, Q ev s' (Err x) -> Q' ev s' (Err x)) ->
    tr (bind m k) s Q'.
  Proof.
    unfold tr at 1 3, bind. destruct (m s) as [s1 [a|x]]; intros (H1 & H2 & ev & T & HQ) HK HE.
    - specialize (HK a s1 ev HQ H1 H2). unfold tr in HK. destruct (k a s1) as [s2 r]. destruct HK as (K1 & K2 & ev2 & T2 & HQ2).
      split; [exact K1|]. split; [eapply (ru_trans RU); eauto|]. exists (ev ++ ev2). split; [|exact HQ2].
      rewrite T2, T, app_assoc. reflexivity.
    - split; [exact H1|]. split; [exact H2|]. exists ev. auto.
  Qed.
  Lemma tr_weaken {A} (m : M sstate A) s Q (Q' : list event -> sstate -> result A -> Prop) :
    tr m s Q -> (forall ev s' r, Q ev s' r -> Q' ev s' r) -> tr m s Q'.
  Proof. unfold tr. destruct (m s) as [s1 r]. intros (H1 & H2 & ev & T & HQ) HW. split; [exact H1|]. split; [exact H2|]. exists ev. auto. Qed.
  Lemma tr_still {A} (m : M sstate A) s (Q : list event -> sstate -> result A -> Prop) :
    I (ss_w s) -> ss_w (fst (m s)) = ss_w s -> Q [] (fst (m s)) (snd (m s)) -> tr m s Q.
  Proof.
    intros HI E HQ. unfold tr. destruct (m s) as [s1 r]. simpl in E, HQ. rewrite E. split; [exact HI|]. split; [apply (ru_refl RU)|].
    exists []. rewrite app_nil_r. auto.
  Qed.
  Lemma tr_ret {A} (a : A) s (Q : list event -> sstate -> result A -> Prop) : I (ss_w s) -> Q [] s (Ok a) -> tr (ret a) s Q.
  Proof. intros. now apply tr_still. Qed.
  Lemma tr_raise {A} x s (Q : list event -> sstate -> result A -> Prop) : I (ss_w s) -> Q [] s (Err x) -> tr (raise x) s Q.
  Proof. intros. now apply tr_still. Qed.
  Lemma tr_get s (Q : list event -> sstate -> result sstate -> Prop) : I (ss_w s) -> Q [] s (Ok s) -> tr get_state s Q.
  Proof. intros. now apply tr_still. Qed.
  Lemma tr_try {A} (m : M sstate A) p h s Q (Q' : list event -> sstate -> result A -> Prop) :
    tr m s Q ->
    (forall a s' ev, Q ev s' (Ok a) -> Q' ev s' (Ok a)) ->
    (forall x s' ev, p x = false -> Q ev s' (Err x) -> Q' ev s' (Err x)) ->
    (forall x s' ev, p x = true -> Q ev s' (Err x) -> I (ss_w s') -> Rel (ss_w s) (ss_w s') ->
       tr (h x) s' (fun ev2 s2 r => Q' (ev ++ ev2) s2 r)) ->
    tr (try_catch m p h) s Q'.
  Proof.
    unfold tr at 1 3, try_catch. destruct (m s) as [s1 [a|x]]; intros (H1 & H2 & ev & T & HQ) K1 K2 K3.
    - split; [exact H1|]. split; [exact H2|]. exists ev. auto.
    - destruct (p x) eqn:EP.
      + specialize (K3 x s1 ev EP HQ H1 H2). unfold tr in K3. destruct (h x s1) as [s2 r]. destruct K3 as (V1 & V2 & ev2 & T2 & HQ2).
        split; [exact V1|]. split; [eapply (ru_trans RU); eauto|]. exists (ev ++ ev2). split; [|exact HQ2].
        rewrite T2, T, app_assoc. reflexivity.
      + split; [exact H1|]. split; [exact H2|]. exists ev. auto.
  Qed.
  Lemma tr_slift {A} (m : M world A) s (Q : list event -> sstate -> result A -> Prop) :
    (let (w', r) := m (ss_w s) in I w' /\ Rel (ss_w s) w' /\
      exists evs, w_trace w' = w_trace (ss_w s) ++ evs /\ Q evs (set_ss_w s w') r) ->
    tr (slift m) s Q.
  Proof. unfold tr, slift. now destruct (m (ss_w s)) as [w' r]. Qed.

  (** only the world changes *)
  Definition ctl (s s' : sstate) : Prop :=
    ss_n s' = ss_n s /\ ss_action s' = ss_action s /\ ss_class s' = ss_class s /\ ss_ctx s' = ss_ctx s.
  Lemma ctl_refl s : ctl s s.  Proof. repeat split. Qed.
  Lemma ctl_trans a b c : ctl a b -> ctl b c -> ctl a c.
  Proof. intros (? & ? & ? & ?) (? & ? & ? & ?). unfold ctl. intuition congruence. Qed.
  Lemma ctl_set s w : ctl s (set_ss_w s w).  Proof. repeat split. Qed.

  Lemma tr_slog lvl st msg s (Q : list event -> sstate -> result unit -> Prop) : I (ss_w s) ->
    (Q [EvLog lvl (ss_ctx s) st msg] (set_ss_w s (add_event (ss_w s) (EvLog lvl (ss_ctx s) st msg))) (Ok tt)) ->
    tr (slog lvl st msg) s Q.
  Proof.
    intros H HQ. unfold tr, slog, bind, get_state, slift, emit, modify. simpl.
    destruct (ru_event RU (ss_w s) (EvLog lvl (ss_ctx s) st msg) H Logic.I) as [H1 H2].
    split; [exact H1|]. split; [exact H2|]. exists [EvLog lvl (ss_ctx s) st msg]. split; [reflexivity|exact HQ].
  Qed.
  Lemma tr_log a st msg s (Q : list event -> sstate -> result unit -> Prop) : I (ss_w s) ->
    (let ev := EvLog (level_of st) (ss_ctx s) (Some st) msg in Q [ev] (set_ss_w s (add_event (ss_w s) ev)) (Ok tt)) ->
    tr (log_sync_status env (Some a) st msg) s Q.
  Proof. intros H HQ. unfold log_sync_status. destruct st; now apply tr_slog. Qed.
  Lemma log_bit : has_flag (sv_flags env) SF_LOG_UNCHANGED_RECORDS = N.testbit (sv_flags env) 3.
  Proof. apply (has_flag_pow2 (sv_flags env) 3). Qed.
  Lemma cont_bit : has_flag (sv_flags env) SF_CONTINUE_ON_FAILURE = N.testbit (sv_flags env) 0.
  Proof. apply (has_flag_pow2 (sv_flags env) 0). Qed.
  Lemma natural_bit f : has_flag f MF_NATURAL_DELETION_ORDER = N.testbit f 4.
  Proof. apply (has_flag_pow2 f 4). Qed.
  Lemma skip_bit1 f : has_flag f MF_SKIP_CHILDREN_ON_DELETE = N.testbit f 1.
  Proof. apply (has_flag_pow2 f 1). Qed.

  Notation Ends := (may_end (sv_hooks env)).
  Notation Attempt := (attempt (sv_flags env) Ends Has Lacks).
  Notation mpost := (model_post Abs Fr Dm).

  (** the model resulting from the hook call *)
  Definition found (dm : option ref) : bool := match dm with Some _ => true | None => false end.
  Definition done_as (call : event) (m : option ref) (st : status) (msg : string) : Prop :=
    match m with Some _ => Ends call CModel /\ Ends call (CSays st msg) | None => Ends call CNone end.
  Definition ended (call : event) (m : option ref) (w : world) : Prop :=
    match m with
    | Some r => Ends call CModel /\ forall o, nth_error (w_heap w) r = Some o -> Ends call (CSays (o_status o) (o_msg o))
    | None => Ends call CNone
    end.
  Definition try_post (e : elem) (c : cls) (dm : option ref) (s : sstate)
             (evs : list event) (s' : sstate) (r : result (option ref * (status * string))) : Prop :=
    ctl s s' /\
    match r with
    | Ok (m, (st, msg)) => mpost e dm m s' /\
        exists call, call_of Has e c (found dm) call /\ evs = [call] /\ (m = None -> st = StFailure /\ msg = no_object_msg (class_name s) (e_action e)) /\
          done_as call m st msg
    | Err x =>
        (exists call, call_of Has e c (found dm) call /\ evs = [call] /\ (is_crud x = true -> Ends call (CRaise x))) \/
        (exists a, e_action e = Some a /\ x = mismatch a /\ evs = [] /\
           (if is_create (Some a) then exists r o, dm = Some r /\ Has e o else dm = None)) \/
        (is_crud x = false /\ evs = [])
    end.

  Lemma tr_hget r s (Q : list event -> sstate -> result obj -> Prop) : I (ss_w s) ->
    match nth_error (w_heap (ss_w s)) r with Some o => Q [] s (Ok o) | None => Q [] s (Err DanglingRef) end ->
    tr (slift (hget r)) s Q.
  Proof.
    intros HI HQ. apply tr_slift. unfold hget. assert (E : set_ss_w s (ss_w s) = s) by now destruct s.
    destruct (nth_error (w_heap (ss_w s)) r); split; try exact HI; split; try apply (ru_refl RU); exists [];
      rewrite app_nil_r, E; auto.
  Qed.

  Lemma tr_model_try e c u dm s :
    I (ss_w s) -> El e -> clsof e = Some c -> create_unique_id c (e_keys e) = Ok u ->
    ss_action s = e_action e ->
    (dm = None -> ss_class s = Some c /\ Abs (ss_w s) e) ->
    (forall r, dm = Some r -> Dm (ss_w s) e r /\ exists o, Has e o) ->
    e_action e <> None ->
    tr (sync_model_try env dm (e_keys e) (plus_attrs e)) s (try_post e c dm s).
  Proof.
    intros HI HE HC HU HA HN HD HNN. unfold sync_model_try.
    eapply tr_bind with (Q := fun ev s' r => ev = [] /\ s' = s /\ r = Ok s); [now apply tr_get| |intros x s' ev (_ & _ & N); discriminate].
    intros s0 s1 ev (-> & -> & E0) _ _. injection E0 as ->.
    eapply tr_bind with (Q := fun ev s' r => ctl s s' /\
      match r with
      | Ok m => mpost e dm m s' /\ exists call, call_of Has e c (found dm) call /\ ev = [call] /\ ended call m (ss_w s')
      | Err x => (exists call, call_of Has e c (found dm) call /\ ev = [call] /\ (is_crud x = true -> Ends call (CRaise x))) \/
        (exists a, e_action e = Some a /\ x = mismatch a /\ ev = [] /\
           (if is_create (Some a) then exists r o, dm = Some r /\ Has e o else dm = None)) \/
        (is_crud x = false /\ ev = [])
      end).
    - rewrite HA. destruct (e_action e) as [[]|] eqn:EA; [| | |now destruct HNN].
      + destruct dm as [r|].
        { apply tr_raise; [exact HI|]. split; [apply ctl_refl|]. right. left. exists ACreate. split; [reflexivity|]. split; [reflexivity|]. split; [reflexivity|].
          simpl. destruct (HD r eq_refl) as [_ [o Ho]]. exists r, o. auto. }
        destruct (HN eq_refl) as (HC1 & HC3). rewrite HC1.
        apply tr_slift.
        pose proof (ru_create RU (ss_w s) e c u HI HE HC HU EA HC3) as HK.
        pose proof (create_trace env c (e_keys e) (plus_attrs e) (ss_w s)) as HT.
        pose proof (ends_may (sv_hooks env) (ss_w s) (HCreate c (e_keys e) (plus_attrs e)) (EvHook ACreate (c_modelname c) (e_keys e) (plus_attrs e)) _ eq_refl (create_ends env c (e_keys e) (plus_attrs e) (ss_w s))) as HEN.
        destruct (call_create env c (e_keys e) (plus_attrs e) (ss_w s)) as [w' r] eqn:ECR. simpl in HT. cbn [snd] in HEN.
        destruct HK as (K1 & K2 & K3). split; [exact K1|]. split; [exact K2|]. eexists. split; [exact HT|].
        split; [apply ctl_set|].
        assert (HCALL : call_of Has e c (found None) (EvHook ACreate (c_modelname c) (e_keys e) (plus_attrs e))) by (unfold call_of; now rewrite EA).
        destruct r as [m|x].
        * split; [|eexists; split; [exact HCALL|split; [reflexivity|]]].
          -- intros r ->. left. simpl. rewrite HA. tauto.
          -- destruct HEN as [HEN|(x & N & _)]; [|discriminate]. destruct m as [m|]; [|exact HEN]. split; [exact HEN|].
             intros o Ho. destruct (create_says _ _ _ _ _ _ _ _ ECR Ho) as [S1 S2]. eexists _, _. split; [|split; [exact S2|exact S1]]. reflexivity.
        * left. eexists; split; [exact HCALL|split; [reflexivity|]]. intros X. destruct HEN as [HEN|(x' & N & X')]; [exact HEN|]. injection N as <-. congruence.
      + destruct dm as [r|].
        2:{ apply tr_raise; [exact HI|]. split; [apply ctl_refl|]. right. left. exists AUpdate. simpl. auto 6. }
        apply tr_slift. destruct (HD r eq_refl) as [HDr _].
        assert (NA : e_action e <> Some ACreate) by congruence.
        pose proof (ru_update RU (ss_w s) e r HI HE HDr NA) as HK.
        pose proof (update_trace env r (plus_attrs e) (ss_w s)) as HT.
        destruct (nth_error (w_heap (ss_w s)) r) as [o|] eqn:EO.
        * assert (HCALL : call_of Has e c (found (Some r)) (EvHook AUpdate (get_type o) (get_identifiers o) (plus_attrs e))).
          { unfold call_of. rewrite EA. split; [reflexivity|]. exists o. split; [exists (ss_w s), r; auto|reflexivity]. }
          pose proof (ends_may (sv_hooks env) (ss_w s) (HUpdate r (plus_attrs e)) (EvHook AUpdate (get_type o) (get_identifiers o) (plus_attrs e)) _ (ex_intro _ o (conj EO eq_refl)) (update_ends env r (plus_attrs e) (ss_w s))) as HEN.
          destruct (call_update env r (plus_attrs e) (ss_w s)) as [w' rr] eqn:EU. simpl in HT. cbn [snd] in HEN.
          destruct HK as (K1 & K2). split; [exact K1|]. split; [exact K2|]. eexists. split; [exact HT|]. split; [apply ctl_set|].
          destruct rr as [m|x]; [|left; eexists; split; [exact HCALL|split; [reflexivity|]]; intros X; destruct HEN as [HEN|(x' & N & X')]; [exact HEN|injection N as <-; congruence]].
          split; [|eexists; split; [exact HCALL|split; [reflexivity|]]; destruct HEN as [HEN|(x & N & _)]; [|discriminate]; destruct m as [m|]; [|exact HEN]; split; [exact HEN|];
            intros o' Ho'; destruct (update_says _ _ _ _ _ _ _ EU Ho') as [S1 S2]; eexists _, _; split; [|split; [exact S2|exact S1]]; exists o; auto].
          intros x ->. right. simpl. rewrite HA.
          split; [congruence|]. rewrite (update_same _ _ _ _ _ _ EU). split; [reflexivity|]. eapply (ru_dm RU); eauto.
        * rewrite HT. split; [exact HI|]. split; [apply (ru_refl RU)|]. exists []. rewrite app_nil_r. split; [reflexivity|].
          split; [apply ctl_set|]. right. right. auto.
      + destruct dm as [r|].
        2:{ apply tr_raise; [exact HI|]. split; [apply ctl_refl|]. right. left. exists ADelete. simpl. auto 6. }
        apply tr_slift. destruct (HD r eq_refl) as [HDr _].
        pose proof (ru_delete RU (ss_w s) e r HI HE HDr EA) as HK.
        pose proof (delete_trace env r (ss_w s)) as HT.
        destruct (nth_error (w_heap (ss_w s)) r) as [o|] eqn:EO.
        * assert (HCALL : call_of Has e c (found (Some r)) (EvHook ADelete (get_type o) (get_identifiers o) [])).
          { unfold call_of. rewrite EA. split; [reflexivity|]. exists o. split; [exists (ss_w s), r; auto|reflexivity]. }
          pose proof (ends_may (sv_hooks env) (ss_w s) (HDelete r) (EvHook ADelete (get_type o) (get_identifiers o) []) _ (ex_intro _ o (conj EO eq_refl)) (delete_ends env r (ss_w s))) as HEN.
          destruct (call_delete env r (ss_w s)) as [w' rr] eqn:EU. simpl in HT. cbn [snd] in HEN.
          destruct HK as (K1 & K2). split; [exact K1|]. split; [exact K2|]. eexists. split; [exact HT|]. split; [apply ctl_set|].
          destruct rr as [m|x]; [|left; eexists; split; [exact HCALL|split; [reflexivity|]]; intros X; destruct HEN as [HEN|(x' & N & X')]; [exact HEN|injection N as <-; congruence]].
          split; [|eexists; split; [exact HCALL|split; [reflexivity|]]; destruct HEN as [HEN|(x & N & _)]; [|discriminate]; destruct m as [m|]; [|exact HEN]; split; [exact HEN|];
            intros o' Ho'; destruct (delete_says _ _ _ _ _ _ EU Ho') as [S1 S2]; eexists _, _; split; [|split; [exact S2|exact S1]]; exists o; auto].
          intros x ->. right. simpl. rewrite HA.
          split; [congruence|]. rewrite (delete_same _ _ _ _ _ EU). split; [reflexivity|]. eapply (ru_dm RU); eauto.
        * rewrite HT. split; [exact HI|]. split; [apply (ru_refl RU)|]. exists []. rewrite app_nil_r. split; [reflexivity|].
          split; [apply ctl_set|]. right. right. auto.
    - intros [r|] s1 ev (HCT & HM & call & HCALL & -> & HEN) HI1 HR1.
      + eapply tr_bind with (Q := fun ev s' x => ev = [] /\ s' = s1 /\ match x with Ok o => nth_error (w_heap (ss_w s1)) r = Some o | Err y => y = DanglingRef end).
        * apply tr_hget; [exact HI1|]. destruct (nth_error (w_heap (ss_w s1)) r); auto.
        * intros o s2 ev (-> & -> & Ho) _ _. apply tr_ret; [exact HI1|]. split; [exact HCT|]. unfold get_status.
          split; [exact HM|]. exists call. split; [exact HCALL|]. split; [reflexivity|]. split; [discriminate|]. destruct HEN as [H1 H2]. split; [exact H1|now apply H2].
        * intros x s2 ev (-> & -> & ->). split; [exact HCT|]. left. exists call. split; [exact HCALL|]. split; [reflexivity|discriminate].
      + apply tr_ret; [exact HI1|]. split; [exact HCT|]. split; [exact HM|]. exists call. split; [exact HCALL|]. split; [reflexivity|]. split; [|exact HEN].
        intros _. split; [reflexivity|]. unfold no_object_msg. rewrite HA. destruct (e_action e) as [[]|]; reflexivity.
    - intros x s' ev [HCT H]. split; [exact HCT|]. exact H.
  Qed.

  Definition model_run (e : elem) (c : cls) (dm : option ref) (s : sstate)
             (evs : list event) (s' : sstate) (r : result (bool * option ref)) : Prop :=
    ctl s s' /\ exists v, Attempt e c (ss_ctx s, class_name s) (found dm) evs v /\
    match v with
    | VRaise x => r = Err x
    | VNothing => r = Ok (acted e, None)
    | VModel => exists m, r = Ok (acted e, Some m) /\ mpost e dm (Some m) s'
    end.

  Lemma mismatch_crud a : is_crud (mismatch a) = true.  Proof. now destruct a. Qed.
  Lemma mpost_event e dm m s ev s' : I (ss_w s) -> no_hook ev -> s' = set_ss_w s (add_event (ss_w s) ev) ->
    mpost e dm m s -> mpost e dm m s'.
  Proof.
    intros HI HN -> HM r E. destruct (HM r E) as [(A1 & A2 & A3 & A4)|(A1 & A2 & A3)]; [left|right].
    - simpl. split; [exact A1|]. split; [exact A2|]. split; [now apply (ru_abs_event RU)|now apply (ru_fr_event RU)].
    - simpl. split; [exact A1|]. split; [exact A2|]. eapply (ru_dm RU); [|exact A3]. now apply (ru_event RU).
  Qed.

  Lemma tr_model e c u dm s :
    I (ss_w s) -> El e -> clsof e = Some c -> create_unique_id c (e_keys e) = Ok u ->
    ss_action s = e_action e ->
    (dm = None -> (e_action e <> None -> ss_class s = Some c) /\ Abs (ss_w s) e) ->
    (forall r, dm = Some r -> Dm (ss_w s) e r /\ exists o, Has e o) ->
    tr (sync_model env dm (e_keys e) (plus_attrs e)) s (model_run e c dm s).
  Proof.
    intros HI HE HC HU HA HN HD. unfold sync_model.
    eapply tr_bind with (Q := fun ev s' r => ev = [] /\ s' = s /\ r = Ok s); [now apply tr_get| |intros x s' ev (_ & _ & N); discriminate].
    intros s0 s1 ev (-> & -> & E0) _ _. injection E0 as ->. cbn [app]. rewrite HA.
    destruct (e_action e) as [a|] eqn:EA.
    - eapply tr_bind with (Q := fun ev s' r => ctl s s' /\
        match r with
        | Ok None => N.testbit (sv_flags env) 0 = true /\ Attempt e c (ss_ctx s, class_name s) (found dm) ev VNothing
        | Ok (Some (m, (st, msg))) => mpost e dm m s' /\ exists call, call_of Has e c (found dm) call /\ ev = [call] /\ (m = None -> st = StFailure /\ msg = no_object_msg (class_name s) (e_action e)) /\
            done_as call m st msg
        | Err x => Attempt e c (ss_ctx s, class_name s) (found dm) ev (VRaise x)
        end).
      + eapply tr_try with (Q := fun ev s' r => try_post e c dm s ev s' (match r with Ok (Some y) => Ok y | Ok None => Err DanglingRef | Err x => Err x end) /\
            (r <> Ok None)).
        * eapply tr_bind; [apply (tr_model_try e c u dm s HI HE HC HU); [congruence| |exact HD|congruence]| |].
          -- intros E. destruct (HN E) as [H1 H2]. split; [apply H1; congruence|exact H2].
          -- intros y s' ev HP HI' _. apply tr_ret; [exact HI'|]. rewrite app_nil_r. split; [exact HP|discriminate].
          -- intros x s' ev HP. split; [exact HP|discriminate].
        * intros [[m [st msg]]|] s' ev [[HCT HP] NN]; [split; assumption|now destruct NN].
        * intros x s' ev Hx [[HCT HP] _]. split; [exact HCT|].
          destruct HP as [(call & H1 & -> & _)|[(a' & H1 & -> & H2 & H3)|[H1 ->]]].
          -- now apply at_other.
          -- rewrite mismatch_crud in Hx. discriminate.
          -- now apply at_broken.
        * intros x s' ev Hx [[HCT HP] _] HI' HR'.
          eapply tr_bind with (Q := fun ev2 s2 r => ctl s s2 /\ r = Ok tt /\ ev2 = [EvLog LError (ss_ctx s) (Some StError) (exn_msg x)]).
          -- apply tr_log; [exact HI'|]. split; [eapply ctl_trans; [exact HCT|apply ctl_set]|]. split; [reflexivity|].
             destruct HCT as (_ & _ & _ & ->). reflexivity.
          -- intros _ s2 ev2 (HCT2 & _ & ->) HI2 HR2.
             assert (HAT : Attempt e c (ss_ctx s, class_name s) (found dm) (ev ++ [EvLog LError (ss_ctx s) (Some StError) (exn_msg x)])
                             (if N.testbit (sv_flags env) 0 then VNothing else VRaise x)).
             { destruct HP as [(call & H1 & -> & HEN)|[(a' & H1 & -> & -> & H3)|[H1 ->]]].
               - apply at_crud; auto.
               - apply at_absurd; [exact H1| |]; destruct (is_create (Some a')).
                 + destruct H3 as (r & o & -> & Ho). reflexivity.
                 + now rewrite H3.
                 + destruct H3 as (r & o & _ & Ho). eauto.
                 + exists (ss_w s). split; [exact HI|]. now apply HN.
               - congruence. }
             rewrite cont_bit. destruct (N.testbit (sv_flags env) 0) eqn:EF.
             ++ apply tr_ret; [exact HI2|]. split; [exact HCT2|]. rewrite app_nil_r. auto.
             ++ apply tr_raise; [exact HI2|]. split; [exact HCT2|]. rewrite app_nil_r. auto.
          -- intros y s2 ev2 (_ & N & _). discriminate.
      + intros [[m [st msg]]|] s1 ev [HCT HP] HI1 HR1.
        * destruct HP as (HM & call & HCALL & -> & HST & HEN).
          eapply tr_bind with (Q := fun ev2 s2 r => r = Ok tt /\ ev2 = [EvLog (level_of st) (ss_ctx s) (Some st) msg] /\
             ctl s s2 /\ mpost e dm m s2).
          -- apply tr_log; [exact HI1|]. split; [reflexivity|]. split; [destruct HCT as (_ & _ & _ & ->); reflexivity|].
             split; [eapply ctl_trans; [exact HCT|apply ctl_set]|]. eapply mpost_event; [exact HI1| |reflexivity|exact HM]. exact Logic.I.
          -- intros _ s2 ev2 (_ & -> & HCT2 & HM2) HI2 _. apply tr_ret; [exact HI2|]. cbn [app]. split; [exact HCT2|].
             assert (AC : acted e = true) by (unfold acted; now rewrite EA).
             destruct m as [m|].
             ++ exists VModel. split; [destruct HEN as [H1 H2]; now apply (at_done _ _ _ _ e c (ss_ctx s, class_name s))|]. exists m. rewrite AC. auto.
             ++ exists VNothing. destruct (HST eq_refl) as [-> HMS]. split; [now apply (at_none _ _ _ _ e c (ss_ctx s, class_name s) _ call msg)|]. now rewrite AC.
          -- intros y s2 ev2 (N & _). discriminate.
        * destruct HP as [HF HP]. apply tr_ret; [exact HI1|]. rewrite app_nil_r. split; [exact HCT|]. exists VNothing. split; [exact HP|].
          unfold acted. now rewrite EA.
      + intros x s' ev [HCT HP]. split; [exact HCT|]. exists (VRaise x). auto.
    - eapply tr_bind with (Q := fun ev s' r => r = Ok tt /\ ctl s s' /\ ev = unchanged_log (sv_flags env) (ss_ctx s)).
      + unfold log_sync_status. rewrite log_bit. unfold unchanged_log. destruct (N.testbit (sv_flags env) 3).
        * apply tr_slog; [exact HI|]. split; [reflexivity|]. split; [apply ctl_set|reflexivity].
        * apply tr_ret; [exact HI|]. split; [reflexivity|]. split; [apply ctl_refl|reflexivity].
      + intros _ s2 ev (_ & HCT & ->) HI2 HR2. apply tr_ret; [exact HI2|]. rewrite app_nil_r. split; [exact HCT|].
        assert (AC : acted e = false) by (unfold acted; now rewrite EA).
        destruct dm as [r|].
        * exists VModel. split; [apply at_same; [exact EA|left; split; [reflexivity|]; split; [reflexivity|]; now apply (HD r)]|].
          exists r. rewrite AC. split; [reflexivity|]. intros r' E. injection E as <-. right.
          destruct HCT as (_ & HCA & _). split; [congruence|]. split; [reflexivity|]. eapply (ru_dm RU); [exact HR2|]. now apply HD.
        * exists VNothing. split; [apply at_same; [exact EA|right; split; [reflexivity|]; split; [reflexivity|]; exists (ss_w s); split; [exact HI|now apply HN]]|].
          now rewrite AC.
      + intros x s' ev (N & _). discriminate.
  Qed.

  Notation One := (one (sv_flags env) (sv_cb env) (sv_total env) Ends Has Lacks clsof).
  Notation Run := (run_of (sv_flags env) (sv_cb env) (sv_total env) Ends Has Lacks clsof ord).

  Lemma tr_bind0 {A B} (m : M sstate A) (k : A -> M sstate B) s (Q : A -> sstate -> Prop)
        (Q' : list event -> sstate -> result B -> Prop) :
    tr m s (fun ev s' r => ev = [] /\ match r with Ok a => Q a s' | Err x => Q' [] s' (Err x) end) ->
    (forall a s', Q a s' -> I (ss_w s') -> Rel (ss_w s) (ss_w s') -> tr (k a) s' Q') ->
    tr (bind m k) s Q'.
  Proof.
    intros H HK. eapply tr_bind; [exact H| |].
    - intros a s' ev [-> HQ] HI HR. exact (HK a s' HQ HI HR).
    - intros x s' ev [-> HQ]. exact HQ.
  Qed.

  Definition kid_post (e : elem) (C : course) (s : sstate) (evs : list event) (s' : sstate) (r : result bool) : Prop :=
    C (ss_n s) evs (ss_n s') r /\ (e_action e = Some ADelete -> (exists b, r = Ok b) -> ss_action s' = Some ADelete).

  Lemma tr_run_kids (D : Prop) (K : elem -> Prop) kids cs p :
    (D -> forall k, K k -> e_action k = Some ADelete) ->
    Forall2 (fun k (C : course) => exists x, K x /\
       forall p s', I (ss_w s') -> Pos (ss_w s') x p -> tr (k p) s' (kid_post x C s')) kids cs ->
    forall s b, I (ss_w s) -> (forall x, K x -> Pos (ss_w s) x p) ->
    tr (run_kids kids p b) s (fun evs s' r => steps cs (ss_n s) b evs (ss_n s') r /\
      (D -> ss_action s = Some ADelete -> (exists b, r = Ok b) -> ss_action s' = Some ADelete)).
  Proof.
    intros HDel HF. induction HF as [|k C kids cs (x & Hx & Hk) HF IH]; intros s b HI HP; cbn [run_kids].
    - apply tr_ret; [exact HI|]. split; [constructor|auto].
    - eapply tr_bind; [exact (Hk p s HI (HP x Hx))| |].
      + intros b1 s1 ev [H1 H2] HI1 HR1.
        eapply tr_weaken; [apply IH; [exact HI1|intros y Hy; eapply (ru_pos RU); eauto]|].
        intros ev2 s2 r [H3 H4]. split; [eapply sp_cons; eauto|].
        intros E ES HR. apply H4; [exact E| |exact HR]. apply H2; [eauto|eauto].
      + intros y s1 ev [H1 H2]. split; [now apply sp_err|]. intros _ _ [b' N]. discriminate.
  Qed.

  Lemma apply_stop a p r b w stop : snd (apply_to_store env a p r b w) = Ok stop -> stop = is_delete a && b.
  Proof.
    unfold apply_to_store, bind, ret. destruct a as [[]|]; simpl; try (intros E; injection E as <-; reflexivity).
    - destruct (match p with Some p0 => heap_add_child p0 r | None => fun s => (s, Ok tt) end w) as [w1 [[]|]]; [|discriminate].
      destruct (st_add (sv_dst env) r w1) as [w2 [[]|]]; [|discriminate]. simpl. congruence.
    - destruct (match p with Some p0 => heap_remove_child p0 r | None => fun s => (s, Ok tt) end w) as [w1 [[]|]]; [|discriminate].
      destruct (st_remove (sv_fuel env) (sv_dst env) r b w1) as [w2 [[]|]]; [|discriminate]. simpl. congruence.
  Qed.

  Lemma tr_body e parent kids cs s :
    El e -> I (ss_w s) -> Pos (ss_w s) e parent ->
    Forall2 (fun k (C : course) => exists x, kid_of e x /\
       forall p s', I (ss_w s') -> Pos (ss_w s') x p -> tr (k p) s' (kid_post x C s')) kids cs ->
    tr (sync_body env e parent kids) s (kid_post e (One e cs) s).
  Proof.
    intros HE HI HP HK. unfold sync_body.
    assert (BRK : forall s' x, ss_n s' = ss_n s -> is_crud x = false -> kid_post e (One e cs) s [] s' (Err x)).
    { intros s' x E1 E2. split; [rewrite E1; now apply one_broken|]. intros _ [b N]. discriminate. }
    eapply tr_bind0 with (Q := fun ad s' => s' = s /\ nth_error (w_ads (ss_w s)) (sv_dst env) = Some ad).
    { apply tr_slift. unfold get_adapter. destruct (nth_error (w_ads (ss_w s)) (sv_dst env)) as [ad|];
      (split; [exact HI|]; split; [apply (ru_refl RU)|]; exists []; rewrite app_nil_r; split; [reflexivity|]; split; [reflexivity|]).
      - split; [destruct s; reflexivity|reflexivity].
      - now apply BRK. }
    intros ad s1 [-> HAD] _ _.
    rewrite (ru_cls RU _ _ e HI HE HAD).
    eapply tr_bind0 with (Q := fun c s' => s' = s /\ clsof e = Some c).
    { apply tr_still; [exact HI|reflexivity|]. unfold lift. simpl. split; [reflexivity|]. destruct (clsof e); [auto|now apply BRK]. }
    intros c s1 [-> HC] _ _.
    eapply tr_bind0 with (Q := fun _ s' => ss_w s' = ss_w s /\ ss_class s' = Some c /\ ss_n s' = ss_n s).
    { apply tr_still; [exact HI|reflexivity|]. split; [reflexivity|]. simpl. auto. }
    intros [] s1 (EW1 & EC1 & EN1) HI1 HR1.
    eapply tr_bind0 with (Q := fun u s' => s' = s1 /\ create_unique_id c (e_keys e) = Ok u).
    { apply tr_still; [exact HI1|reflexivity|]. unfold lift. simpl. split; [reflexivity|].
      destruct (create_unique_id c (e_keys e)) as [u|x] eqn:EU; [auto|]. apply BRK; [exact EN1|]. eapply uid_err; eauto. }
    intros u s2 [-> HU] _ _.
    eapply tr_bind0 with (Q := fun _ s' => ss_w s' = ss_w s /\ ss_class s' = Some c /\ ss_action s' = e_action e /\ ss_n s' = ss_n s /\
        ss_ctx s' = Some (mkCtx (e_action e) (e_type e) u)).
    { apply tr_still; [exact HI1|reflexivity|]. split; [reflexivity|]. simpl. auto 6. }
    intros [] s2 (EW2 & EC2 & EA2 & EN2 & EX2) HI2 HR2.
    fold (plus_attrs e).
    eapply tr_bind0 with (Q := fun _ s' => ctl s2 s').
    { apply tr_slift. pose proof (ru_src RU (ss_w s2) e c HI2 HE HC) as HS.
      pose proof (wq_none _ (ss_w s2) (wq_or_none (fun _ => False) (sv_src env) (MClass c) (IdDict (e_keys e)))) as HT.
      pose proof (proj2 (wq_or_none (fun _ => False) (sv_src env) (MClass c) (IdDict (e_keys e)) (ss_w s2))) as HX.
      destruct (ad_get_or_none _ _ _ (ss_w s2)) as [w' r]. simpl in HS, HT, HX. destruct HS. split; [assumption|]. split; [assumption|].
      exists []. rewrite app_nil_r. split; [exact HT|]. split; [reflexivity|]. destruct r; [apply ctl_set|]. apply BRK; [exact EN2|]. now apply HX. }
    intros _ s3 HC3 HI3 HR3.
    assert (HP3 : Pos (ss_w s3) e parent).
    { eapply (ru_pos RU); [exact HR3|]. rewrite EW2. exact HP. }
    eapply tr_bind0 with (Q := fun dm s' => ctl s2 s' /\
        match dm with Some x => Dm (ss_w s') e x | None => Abs (ss_w s') e end).
    { apply tr_slift. pose proof (ru_dst RU (ss_w s3) e c u HI3 HE HC HU) as HS.
      pose proof (wq_none _ (ss_w s3) (wq_dst_model (fun _ => False) env c (e_keys e))) as HT.
      pose proof (proj2 (wq_dst_model (fun _ => False) env c (e_keys e) (ss_w s3))) as HX.
      destruct (get_dst_model env c (e_keys e) (ss_w s3)) as [w' r]. simpl in HT, HX. destruct HS as (H1 & H2 & H3).
      split; [assumption|]. split; [assumption|]. exists []. rewrite app_nil_r. split; [exact HT|]. split; [reflexivity|].
      destruct r; [split; [eapply ctl_trans; [exact HC3|apply ctl_set]|exact H3]|].
      apply BRK; [|now apply HX]. destruct HC3 as [E _]. simpl. congruence. }
    intros dm s4 (HC4 & HDM) HI4 HR4.
    assert (HP4 : Pos (ss_w s4) e parent) by (eapply (ru_pos RU); eauto).
    assert (EN4 : ss_n s4 = ss_n s) by (destruct HC4 as [E _]; congruence).
    assert (EA4 : ss_action s4 = e_action e) by (destruct HC4 as (_ & E & _); congruence).
    assert (EC4 : ss_class s4 = Some c) by (destruct HC4 as (_ & _ & E & _); congruence).
    assert (EX4 : ss_ctx s4 = Some (mkCtx (e_action e) (e_type e) u)) by (destruct HC4 as (_ & _ & _ & E); congruence).
    clear HC3 HC4.
    assert (MF : forall f, tr (slift (model_flag dm f)) s4 (fun ev s' r => ev = [] /\
        match r with
        | Ok b => s' = s4 /\ match dm with Some r => exists o, nth_error (w_heap (ss_w s4)) r = Some o /\ b = has_flag (o_flags o) f | None => b = false end
        | Err x => kid_post e (One e cs) s [] s' (Err x) end)).
    { intros f. assert (ES : set_ss_w s4 (ss_w s4) = s4) by now destruct s4. apply tr_slift. unfold model_flag. destruct dm as [r|].
      - unfold hget, bind, ret. destruct (nth_error (w_heap (ss_w s4)) r) as [o|] eqn:EO;
          (split; [exact HI4|]; split; [apply (ru_refl RU)|]; exists []; rewrite app_nil_r; split; [reflexivity|]; split; [reflexivity|]).
        + split; [exact ES|]. exists o. auto.
        + apply BRK; [exact EN4|reflexivity].
      - unfold ret. split; [exact HI4|]. split; [apply (ru_refl RU)|]. exists []. rewrite app_nil_r. split; [reflexivity|]. split; [reflexivity|].
        split; [exact ES|reflexivity]. }
    eapply tr_bind0; [exact (MF MF_NATURAL_DELETION_ORDER)|].
    intros natural s5 [-> HNAT] _ _.
    eapply tr_bind0; [exact (MF MF_SKIP_CHILDREN_ON_DELETE)|].
    intros skip s5 [-> HSKIP] _ _. clear MF.
    assert (HF : match dm with
                 | Some r => exists o, nth_error (w_heap (ss_w s4)) r = Some o /\ natural = N.testbit (o_flags o) 4 /\ skip = N.testbit (o_flags o) 1
                 | None => natural = false /\ skip = false end).
    { destruct dm as [r|]; [|auto]. destruct HNAT as (o & EO & ->). destruct HSKIP as (o' & EO' & ->).
      rewrite EO in EO'. injection EO' as <-. exists o. rewrite natural_bit, skip_bit1. auto. }
    assert (HSK0 : skip = true -> exists r, dm = Some r /\ Sk (ss_w s4) r).
    { intros E. destruct dm as [r|]; [|destruct HF as [_ N]; congruence]. destruct HSKIP as (o' & EO' & ES). exists r. split; [reflexivity|].
      eapply (ru_flag RU); eauto. }
    clear HNAT HSKIP.
    assert (HHAS : forall r, dm = Some r -> exists o, Has e o /\ natural = N.testbit (o_flags o) 4 /\ skip = N.testbit (o_flags o) 1).
    { intros r ->. destruct HF as (o & EO & F1 & F2). exists o. split; [exists (ss_w s4), r; auto|auto]. }
    assert (HLACK : dm = None -> Lacks e) by (intros ->; exists (ss_w s4); auto).
    eapply tr_bind0 with (Q := fun a s' => a = s4 /\ s' = s4).
    { apply tr_get; [exact HI4|]. auto. }
    intros sx s5 [-> ->] _ _. rewrite EA4.
    set (nat1 := natural && is_delete (e_action e) && negb skip).
    assert (HDK : e_action e = Some ADelete -> forall k, kid_of e k -> e_action k = Some ADelete) by (intros; eapply HDD; eauto).
    eapply tr_bind with (Q := fun ev s' r => match r with
        | Ok _ => before Has Lacks e cs (ss_n s4) (found dm) nat1 ev (ss_n s') /\ ss_action s' = e_action e /\ (nat1 = false -> s' = s4) /\ (nat1 = true -> dm <> None)
        | Err x => kid_post e (One e cs) s ev s' (Err x) end).
    { destruct nat1 eqn:EN1'.
      - unfold nat1 in EN1'. apply andb_true_iff in EN1' as [EB EB3]. apply andb_true_iff in EB as [EB1 EB2].
        assert (ED : e_action e = Some ADelete) by (destruct (e_action e) as [[]|]; try discriminate; reflexivity).
        destruct dm as [r|]; [|destruct HF as [N _]; congruence].
        destruct (HHAS r eq_refl) as (o & Ho & F1 & F2).
        assert (HO : exists o, Has e o /\ naturally o /\ ~ skips_children (o_flags o)).
        { exists o. split; [exact Ho|]. unfold naturally, skips_children. rewrite <- F1, <- F2. split; [exact EB1|]. intros N. rewrite N in EB3. discriminate. }
        eapply tr_weaken; [apply (tr_run_kids (e_action e = Some ADelete) (kid_of e) kids cs (Some r) HDK HK); [exact HI4|]|].
        + intros x Hx. eapply (ru_below RU); eauto. congruence.
        + intros ev s' [b|x] [H1 H2].
          * split; [|split; [|split; [discriminate|discriminate]]].
            -- split; [exact ED|]. split; [exact HO|]. eauto.
            -- rewrite ED. apply H2; [exact ED|congruence|eauto].
          * split; [|intros _ [b N]; discriminate]. eapply one_kids_raise; [exact ED|exact HO|]. rewrite <- EN4. exact H1.
      - apply tr_ret; [exact HI4|]. split; [|split; [exact EA4|split; [auto|discriminate]]].
        split; [reflexivity|]. split; [reflexivity|]. intros ED. unfold nat1 in EN1'. rewrite ED in EN1'. cbn [is_delete] in EN1'. rewrite andb_true_r in EN1'.
        destruct dm as [r|]; [|simpl; auto]. simpl. destruct (HHAS r eq_refl) as (o & Ho & F1 & F2). exists o. split; [exact Ho|].
        unfold naturally, skips_children. rewrite <- F1, <- F2. destruct natural, skip; simpl in EN1'; try discriminate; auto; left; discriminate. }
    2:{ auto. }
    intros bb s6 evk (HBEF & EA6 & HS6 & HND) HI6 HR6.
    assert (HDM6 : forall r, dm = Some r -> Dm (ss_w s6) e r /\ exists o, Has e o).
    { intros r E. split; [eapply (ru_dm RU); [exact HR6|]; now rewrite E in HDM|]. destruct (HHAS r E) as (o & Ho & _). eauto. }
    assert (HDN6 : dm = None -> (e_action e <> None -> ss_class s6 = Some c) /\ Abs (ss_w s6) e).
    { intros E. rewrite E in HDM. destruct nat1 eqn:EN1'; [now destruct HND|]. rewrite (HS6 eq_refl). auto. }
    assert (HP6 : Pos (ss_w s6) e parent) by (eapply (ru_pos RU); eauto).
    assert (HCTX : nat1 = false -> (ss_ctx s6, class_name s6) = (Some (mkCtx (e_action e) (e_type e) u), c_modelname c)).
    { intros E. rewrite (HS6 E). unfold class_name. now rewrite EX4, EC4. }
    eapply tr_bind; [apply (tr_model e c u dm s6 HI6 HE HC HU EA6 HDN6 HDM6)| |].
    2:{ intros x s7 eva ((EN7 & EA7 & _) & v & HAT & HV). split; [|intros _ [b N]; discriminate].
        destruct v as [| |y]; [destruct HV as (m & N & _); discriminate|discriminate|]. injection HV as ->. rewrite EN7.
        replace (evk ++ eva) with (evk ++ eva ++ []) by now rewrite app_nil_r.
        eapply one_main with (found := found dm) (nat1 := nat1); eauto; [rewrite <- EN4; exact HBEF| |constructor].
        intros E. destruct dm; [reflexivity|now destruct (HND E)]. }
    intros [changed model] s7 eva ((EN7 & EA7 & _ & EX7) & v & HAT & HV) HI7 HR7. cbn [fst snd].
    assert (HP7 : Pos (ss_w s7) e parent) by (eapply (ru_pos RU); eauto).
    assert (FIN : forall evr s' r, after (sv_cb env) (sv_total env) Has e cs nat1 (ss_n s6) (ss_ctx s6) v evr (ss_n s') r ->
       (e_action e = Some ADelete -> (exists b, r = Ok b) -> ss_action s' = Some ADelete) ->
       kid_post e (One e cs) s (evk ++ eva ++ evr) s' r).
    { intros evr s' r H1 H2. split; [|exact H2]. eapply one_main with (found := found dm) (nat1 := nat1); eauto; [rewrite <- EN4; exact HBEF|].
      intros E. destruct dm; [reflexivity|now destruct (HND E)]. }
    assert (EAE : ss_action s7 = e_action e) by congruence.
    destruct v as [| |y]; [|injection HV as -> ->|discriminate].
    2:{ eapply tr_bind with (Q := fun ev s' r => ev = [no_object_log (ss_ctx s6)] /\ r = Ok tt /\ ss_n s' = ss_n s6 /\ ss_action s' = e_action e).
        - apply tr_slog; [exact HI7|]. rewrite EX7. simpl. auto.
        - intros [] s8 ev (-> & _ & EN8 & EA8) HI8 _. apply tr_ret; [exact HI8|]. rewrite app_nil_r. apply FIN; [rewrite EN8; apply af_none|congruence].
        - intros x s8 ev (_ & N & _). discriminate. }
    destruct HV as (r & EV & HM). injection EV as -> ->.
    eapply tr_bind0 with (Q := fun a s' => a = s7 /\ s' = s7).
    { apply tr_get; [exact HI7|]. auto. }
    intros sx s8 [-> ->] _ _. rewrite EAE.
    eapply tr_bind with (Q := fun ev s' x => ctl s7 s' /\
        Forall (fun ev => e_action e = Some ADelete /\ skip = true /\ missing_child ev) ev /\
        match x with
        | Ok stop => stop = is_delete (e_action e) && skip /\ forall k, kid_of e k -> Pos (ss_w s') k (Some r)
        | Err y => is_crud y = false /\ e_action e <> None end).
    { apply tr_slift.
      pose proof (proj1 (wq_apply env (e_action e) parent r skip (ss_w s7))) as HT.
      pose proof (proj2 (wq_apply env (e_action e) parent r skip (ss_w s7))) as HX.
      pose proof (apply_stop (e_action e) parent r skip (ss_w s7)) as HST.
      assert (Z : let (w', x) := apply_to_store env (e_action e) parent r skip (ss_w s7) in
                  I w' /\ Rel (ss_w s7) w' /\ (forall a, x = Ok a -> forall k, kid_of e k -> Pos w' k (Some r)) /\
                  (forall y, x = Err y -> e_action e <> None)).
      { destruct (HM r eq_refl) as [(A1 & A2 & A3 & A4)|(A1 & A1' & A2)].
        - rewrite EAE in A1. rewrite A1.
          pose proof (ru_add RU (ss_w s7) e parent r skip HI7 HE A1 HP7 A3 A4) as HADD.
          destruct (apply_to_store env (Some ACreate) parent r skip (ss_w s7)) as [w' rr]. destruct HADD as (K1 & K2 & K3).
          split; [exact K1|]. split; [exact K2|]. split; [exact K3|]. discriminate.
        - rewrite EAE in A1. destruct (e_action e) as [[]|] eqn:E7; [congruence| | |].
          + unfold apply_to_store, ret. split; [exact HI7|]. split; [apply (ru_refl RU)|]. split; [|discriminate].
            intros a _ k Hk. eapply (ru_below RU); eauto. congruence.
          + assert (HSK : skip = true -> Sk (ss_w s7) r).
            { intros E. destruct (HSK0 E) as (r' & E1 & E2). rewrite A1' in E1. injection E1 as <-.
              exact (ru_sk RU _ _ _ (ru_trans RU _ _ _ HR6 HR7) E2). }
            pose proof (ru_remove RU (ss_w s7) e parent r skip HI7 HE E7 HP7 A2 HSK) as HREM.
            destruct (apply_to_store env (Some ADelete) parent r skip (ss_w s7)) as [w' rr]. destruct HREM as (K1 & K2).
            split; [exact K1|]. split; [exact K2|]. split; [|discriminate].
            intros a _ k Hk. eapply (ru_below RU); eauto; [eapply (ru_dm RU); eauto|congruence].
          + unfold apply_to_store, ret. split; [exact HI7|]. split; [apply (ru_refl RU)|]. split; [|discriminate].
            intros a _ k Hk. eapply (ru_below RU); eauto. congruence. }
      destruct (apply_to_store env (e_action e) parent r skip (ss_w s7)) as [w' x]. simpl in HT, HX, HST.
      destruct Z as (K1 & K2 & K3 & K4). destruct HT as (evs & T & FT). split; [exact K1|]. split; [exact K2|]. exists evs. split; [exact T|].
      split; [apply ctl_set|]. split; [exact FT|]. destruct x as [stop|y]; [split; [now apply HST|now apply K3 with (a := stop)]|].
      split; [now apply HX|now apply K4 with (y := y)]. }
    2:{ intros x s8 ev ((EN8 & _) & FT & HX & HNE). apply FIN; [|intros _ [b N]; discriminate]. rewrite EN8, EN7. apply af_store; [exact HX| |exact HNE].
        eapply Forall_impl; [|exact FT]. intros a (_ & _ & H). exact H. }
    intros stop s8 ev8 ((EN8 & EA8 & _) & FT & EST & HPK) HI8 HR8.
    assert (ACT : e_action e <> None -> acted e = true) by (unfold acted; destruct (e_action e); [reflexivity|intros N; now destruct N]).
    assert (DMD : e_action e = Some ADelete -> dm = Some r).
    { intros ED. destruct (HM r eq_refl) as [(A1 & _)|(_ & A & _)]; [congruence|exact A]. }
    destruct stop.
    - symmetry in EST. apply andb_true_iff in EST as [ED ESK].
      assert (ED' : e_action e = Some ADelete) by (destruct (e_action e) as [[]|]; try discriminate; reflexivity).
      apply tr_ret; [exact HI8|]. rewrite app_nil_r. apply FIN; [|intros; congruence]. rewrite EN8, EN7, (ACT ltac:(congruence)).
      destruct (HHAS r (DMD ED')) as (o & Ho & F1 & F2).
      eapply af_cascade; [exact ED'|exact Ho|unfold skips_children; congruence|].
      eapply Forall_impl; [|exact FT]. intros a (_ & _ & H). exact H.
    - assert (EV8 : ev8 = []).
      { destruct ev8 as [|x ev8]; [reflexivity|]. apply Forall_inv in FT as (F1 & F2 & _). rewrite F1, F2 in EST. discriminate. }
      subst ev8. cbn [app].
      eapply tr_bind with (Q := fun ev s' x => ev = progress (sv_cb env) (sv_total env) (S (ss_n s8)) /\ x = Ok tt /\
          ss_n s' = S (ss_n s8) /\ ss_action s' = e_action e /\ forall k, kid_of e k -> Pos (ss_w s') k (Some r)).
      { unfold tr, incr_elements_processed, progress. cbn [ss_w]. destruct (sv_cb env).
        - destruct (ru_event RU (ss_w s8) (EvCallback "sync" (S (ss_n s8)) (sv_total env)) HI8 Logic.I) as [V1 V2].
          split; [exact V1|]. split; [exact V2|]. eexists. split; [reflexivity|]. simpl. split; [reflexivity|]. split; [reflexivity|]. split; [reflexivity|]. split; [congruence|].
          intros k Hk. eapply (ru_pos RU); eauto.
        - split; [exact HI8|]. split; [apply (ru_refl RU)|]. exists []. rewrite app_nil_r. simpl. split; [reflexivity|]. split; [reflexivity|]. split; [reflexivity|]. split; [reflexivity|]. split; [congruence|].
          exact HPK. }
      2:{ intros x s9 ev (_ & N & _). discriminate. }
      intros _ s9 ev9 (-> & _ & EN9 & EA9 & HPK9) HI9 HR9.
      destruct (negb natural || negb (is_delete (e_action e))) eqn:EB.
      + eapply tr_weaken; [apply (tr_run_kids (e_action e = Some ADelete) (kid_of e) kids cs (Some r) HDK HK); [exact HI9|exact HPK9]|].
        intros ev s' x [H1 H2]. apply FIN.
        * rewrite EN8, EN7. apply af_kids.
          -- unfold nat1. destruct natural, (is_delete (e_action e)); try reflexivity. discriminate.
          -- intros ED. destruct (HHAS r (DMD ED)) as (o & Ho & F1 & F2). exists o. split; [exact Ho|]. unfold skips_children, naturally.
             rewrite ED in EB, EST. cbn [is_delete negb] in EB, EST. rewrite andb_true_l in EST. rewrite orb_false_r in EB. rewrite <- F1, <- F2, <- EST.
             split; [discriminate|]. destruct natural; [discriminate EB|discriminate].
          -- rewrite <- EN7, <- EN8, <- EN9. exact H1.
        * intros ED HO. apply H2; [exact ED|congruence|exact HO].
      + apply orb_false_iff in EB as [EB1 EB2]. rewrite negb_false_iff in EB1, EB2. rewrite EB1, EB2 in *.
        apply tr_ret; [exact HI9|]. rewrite app_nil_r.
        assert (ED : e_action e = Some ADelete) by (destruct (e_action e) as [[]|]; try discriminate; reflexivity).
        apply FIN; [|intros; congruence]. rewrite EN9, EN8, EN7, (ACT ltac:(congruence)). apply af_last.
        unfold nat1. rewrite EB1, EB2. simpl in EST. rewrite <- EST. reflexivity.
  Qed.

  Lemma run_of_eq e : Run e = One e (ordered ord Run (e_kids e)).
  Proof. destruct e; reflexivity. Qed.
  Lemma kids_courses gs (R : (option ref -> M sstate bool) -> course -> Prop) :
    (forall x, In x (children gs) -> R (sync_elem ord env x) (Run x)) ->
    Forall2 R (ordered ord (sync_elem ord env) gs) (ordered ord Run gs).
  Proof.
    intros H. rewrite (ordered_map ord (sync_elem ord env)), (ordered_map ord Run).
    assert (HS : forall x, In x (ordered ord (fun e => e) gs) -> In x (children gs)) by (intros x; apply ordered_sub).
    induction (ordered ord (fun e => e) gs) as [|x l IH]; cbn [map]; constructor.
    - apply H, HS. now left.
    - apply IH. intros y Hy. apply HS. now right.
  Qed.

  Theorem tr_elem : forall e, El e -> forall parent s, I (ss_w s) -> Pos (ss_w s) e parent ->
    tr (sync_elem ord env e parent) s (kid_post e (Run e) s).
  Proof.
    induction e as [e IH] using elem_ind'. intros HE parent s HI HP. rewrite sync_elem_eq, run_of_eq.
    apply tr_body; [exact HE|exact HI|exact HP|]. apply kids_courses. intros x Hx. exists x. split; [exact Hx|].
    intros p s' HI' HP'. pose proof Hx as Hx'. apply In_children in Hx' as (t & g & n & Hg & Hn). eapply IH; eauto.
    eapply (ru_kids RU); [exact HE|exact Hx].
  Qed.

  Theorem tr_run_sync d w : ord = dc_order (d_class d) ->
    (forall e, In e (children (d_groups d)) -> El e) ->
    I w -> (forall e, In e (children (d_groups d)) -> Pos w e None) ->
    exists evs n x,
      run_of_all (sv_flags env) (sv_cb env) (sv_total env) (may_end (sv_hooks env)) Has Lacks clsof ord (d_groups d) evs n x /\
      let (w', r) := run_sync env d w in
      match x with
      | Ok b => r = Ok d /\ w_trace w' = w_trace w ++ evs ++ (if b : bool then [EvSyncComplete (sv_src env) (sv_dst env)] else [])
      | Err y => r = Err y /\ w_trace w' = w_trace w ++ evs
      end.
  Proof.
    intros EO HEl HI HP. unfold run_of_all.
    assert (T : tr (perform_sync env d) (mkSS w 0 None None None) (fun evs s' r => steps (ordered ord Run (d_groups d)) 0 false evs (ss_n s') r)).
    { unfold perform_sync. rewrite <- EO.
      eapply tr_weaken; [apply (tr_run_kids False (fun x => In x (children (d_groups d)))); [tauto| |exact HI|exact HP]|].
      - apply kids_courses. intros x Hx. exists x. split; [exact Hx|]. intros p s' HI' HP'. apply tr_elem; auto.
      - intros evs s' r [H _]. exact H. }
    unfold tr in T. unfold run_sync, bind.
    destruct (perform_sync env d (mkSS w 0 None None None)) as [s' r]. cbn [ss_w fst snd] in *. destruct T as (_ & _ & evs & T & H).
    exists evs, (ss_n s'), r. split; [exact H|]. destruct r as [b|y]; [|auto]. destruct b; cbn; split; try reflexivity; rewrite T.
    - now rewrite app_assoc.
    - now rewrite app_nil_r.
  Qed.
End Trace.

(** fewer elements *)
Lemma rules_sub env El (El' : elem -> Prop) clsof I Rel Pos Abs Fr Dm Sk :
  sync_rules env El clsof I Rel Pos Abs Fr Dm Sk ->
  (forall e, El' e -> El e) -> (forall e k, El' e -> kid_of e k -> El' k) ->
  sync_rules env El' clsof I Rel Pos Abs Fr Dm Sk.
Proof.
  intros R H1 H2. constructor.
  - apply (ru_refl R).
  - apply (ru_trans R).
  - apply (ru_pos R).
  - apply (ru_dm R).
  - apply (ru_sk R).
  - apply (ru_flag R).
  - intros; eapply (ru_cls R); eauto.
  - apply (ru_event R).
  - apply (ru_abs_event R).
  - apply (ru_fr_event R).
  - exact H2.
  - intros w e c A B. apply (ru_src R); auto.
  - intros w e c u A B. apply (ru_dst R); auto.
  - intros w e c u A B. apply (ru_create R); auto.
  - intros w e x A B. apply (ru_update R); auto.
  - intros w e x A B. apply (ru_delete R); auto.
  - intros w e p x b A B. apply (ru_add R); auto.
  - intros w e p x b A B. apply (ru_remove R); auto.
  - intros w e x k A B. eapply (ru_below R); eauto.
Qed.
