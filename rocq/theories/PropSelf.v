(** * PropSelf: an adapter that is synchronised with itself or with its equal (C104). *)
From Verif Require Import PropDiffer IdleFacts Samples SyncSample.

(** C104.  Synchronising an adapter from one that holds the same objects, whatever its store, the hooks and the flags,
    and however it ends: no hook is called, nor sync_complete; nothing changes but the statuses of objects. *)
Theorem C104_equal : forall fuel h dst src dc flags cb w sa da,
  w_ok w -> nth_error (w_ads w) src = Some sa -> nth_error (w_ads w) dst = Some da -> same_content w src dst ->
  (forall o, exists_in w o -> forall f v, dget (get_attrs o) f = Some v -> py_eq v v = true) ->
  let w' := fst (sync_from fuel h dst src dc flags cb None w) in
  undisturbed w w' /\ exists evs, w_trace w' = w_trace w ++ evs /\ forall ev, In ev evs -> hookb ev = false /\ completeb ev = false.
Proof.
  intros fuel h dst src dc flags cb w sa da OK SA DA SC RE. apply from_idle. intros d e [(X & _)|(_ & U)] O; [discriminate|].
  pose proof (C07_self w src dst sa da fuel dc flags cb OK SA DA d SC RE U) as N.
  destruct (e_action e) eqn:A; [|reflexivity]. exfalso.
  assert (diff_has_diffs d = true) by (apply groups_have_diffs_spec; exists e; split; [exact O|congruence]). congruence.
Qed.
Print Assumptions C104_equal.
(** In particular from itself. *)
Theorem C104_self : forall fuel h a dc flags cb w ad,
  w_ok w -> nth_error (w_ads w) a = Some ad ->
  (forall o, exists_in w o -> forall f v, dget (get_attrs o) f = Some v -> py_eq v v = true) ->
  let w' := fst (sync_from fuel h a a dc flags cb None w) in
  undisturbed w w' /\ exists evs, w_trace w' = w_trace w ++ evs /\ forall ev, In ev evs -> hookb ev = false /\ completeb ev = false.
Proof. intros fuel h a dc flags cb w ad OK A RE. exact (C104_equal fuel h a a dc flags cb w ad ad OK A A (C07_same_adapter w a) RE). Qed.
Print Assumptions C104_self.

(** Two adapters whose RedisStores have the same id hold the same objects, so neither changes the other. *)
Lemma rmap_both {A} (f g : A -> result obj) : (forall x, match f x, g x with Ok o, Ok o' => same_obj o o' /\ get_unique_id o = get_unique_id o' | Err _, Err _ => True | _, _ => False end) ->
  forall l s d, rmapM f l = Ok s -> rmapM g l = Ok d -> same_lists s d.
Proof.
  intros H. assert (X : forall l s d, rmapM f l = Ok s -> rmapM g l = Ok d -> Forall2 (fun o o' => same_obj o o' /\ get_unique_id o = get_unique_id o') s d).
  { induction l as [|x l IH]; cbn [rmapM]; intros s d.
    - intros [= <-] [= <-]. constructor.
    - specialize (H x). destruct (f x) as [o|]; [|discriminate]. destruct (g x) as [o'|]; [|discriminate]. cbn [rbind].
      destruct (rmapM f l) as [s'|]; [|discriminate]. destruct (rmapM g l) as [d'|]; [|discriminate]. cbn [rbind]. intros [= <-] [= <-]. constructor; [exact H|]. now apply IH. }
  intros l s d E1 E2 u. specialize (X l s d E1 E2). clear E1 E2. unfold with_uid.
  assert (Y : Forall2 (fun o o' => same_obj o o' /\ get_unique_id o = get_unique_id o') (rev s) (rev d)).
  { induction X; cbn [rev]; [constructor|]. apply Forall2_app; [assumption|]. constructor; [assumption|constructor]. }
  clear X. induction Y as [|o o' s' d' [S U] _ IH]; cbn [find]; [exact I|]. assert (HU : has_uid u o = has_uid u o') by (unfold has_uid; now rewrite U). rewrite HU.
  destruct (has_uid u o'); [exact S|exact IH].
Qed.
Lemma same_place_content w a b ad bd i : nth_error (w_ads w) a = Some ad -> nth_error (w_ads w) b = Some bd ->
  ad_store ad = SRedis i -> ad_store bd = SRedis i -> same_content w a b.
Proof.
  intros A B EA EB. split.
  - intros t l l'. unfold objs_all. rewrite A, B, EA, EB. apply rmap_both. intros k. destruct (dget (w_redis w) k); [|exact I]. now repeat split.
  - intros us t l l'. unfold objs_by. destruct us; [intros [= <-] [= <-] u; exact I|]. rewrite A, B, EA, EB. apply rmap_both. intros k. destruct (dget (w_redis w) _); [|exact I]. now repeat split.
Qed.
Theorem C104_one_store : forall fuel h dst src dc flags cb w sa da i,
  w_ok w -> nth_error (w_ads w) src = Some sa -> nth_error (w_ads w) dst = Some da -> ad_store sa = SRedis i -> ad_store da = SRedis i ->
  (forall o, exists_in w o -> forall f v, dget (get_attrs o) f = Some v -> py_eq v v = true) ->
  let w' := fst (sync_from fuel h dst src dc flags cb None w) in
  w_redis w' = w_redis w /\ exists evs, w_trace w' = w_trace w ++ evs /\ forall ev, In ev evs -> hookb ev = false /\ completeb ev = false.
Proof.
  intros fuel h dst src dc flags cb w sa da i OK A B EA EB RE. cbv zeta.
  destruct (C104_equal fuel h dst src dc flags cb w sa da OK A B (same_place_content w src dst sa da i A B EA EB) RE) as ((_ & R & _) & T). now split.
Qed.
Print Assumptions C104_one_store.

(** the adapter of the samples from itself, while every hook would fail: 7 elements, nothing happens; from the other
    adapter, which differs, the hooks are called *)
Definition evil : hooks := fun _ _ => mkOut false None [] (HRaise (UserExn 3)).
Definition reflb (o : obj) : bool := forallb (fun fv => py_eq (snd fv) (snd fv)) (get_attrs o).
Lemma reflb_ok w : forallb reflb (w_heap w ++ dvals (w_redis w)) = true ->
  forall o, exists_in w o -> forall f v, dget (get_attrs o) f = Some v -> py_eq v v = true.
Proof.
  intros H o E f v D. rewrite forallb_forall in H. assert (R : reflb o = true) by (apply H, in_or_app; exact E).
  unfold reflb in R. rewrite forallb_forall in R. apply (R (f, v)). clear R H E. revert D. induction (get_attrs o) as [|[k x] l IH]; cbn [dget]; [discriminate|]. destruct (String.eqb_spec f k) as [->|N]; [intros [= ->]; now left|right; auto].
Qed.
Definition w_one : world :=
  mkWorld [] [mk_ad "src" (SRedis "green"); mk_ad "dst" (SRedis "green")]
    [("diffsync:green:site:nyc", mkObj c_site [("name", VStr "nyc"); ("region", VStr "us")] [("devices", ["r1"])] 0 None StSuccess "");
     ("diffsync:green:device:r1", mkObj c_device [("name", VStr "r1"); ("role", VStr "edge"); ("serial", VNone)] [("interfaces", [])] 0 None StSuccess "")]%string [].
Example C104_example :
  w_ok w0 /\ (forall o, exists_in w0 o -> forall f v, dget (get_attrs o) f = Some v -> py_eq v v = true) /\
  (exists d, snd (sync_from 20 evil 1 1 base_class 0 true None w0) = Ok d /\ diff_len d = 7) /\
  snd (sync_from 20 evil 1 0 base_class 0 true None w0) = Err (UserExn 3) /\
  w_ok w_one /\ (forall o, exists_in w_one o -> forall f v, dget (get_attrs o) f = Some v -> py_eq v v = true) /\
  (exists d, snd (sync_from 20 evil 1 0 base_class 0 true None w_one) = Ok d /\ diff_len d = 2).
Proof.
  split; [apply w_okb_ok; vm_compute; reflexivity|]. split; [apply reflb_ok; vm_compute; reflexivity|].
  split; [eexists; split; vm_compute; reflexivity|]. split; [vm_compute; reflexivity|].
  split; [apply w_okb_ok; vm_compute; reflexivity|]. split; [apply reflb_ok; vm_compute; reflexivity|]. eexists; split; vm_compute; reflexivity.
Qed.

(** Not without the condition on the values: with a NaN, the update hook is called. *)
Theorem C104_nan_refuted : exists w a ev, w_ok w /\ (exists ad, nth_error (w_ads w) a = Some ad) /\
  In ev (w_trace (fst (sync_from 20 default_hooks a a base_class 0 false None w))) /\ hookb ev = true.
Proof.
  exists w_nan, 0, (EvHook AUpdate "device" [("name", VStr "r1")] [("role", VNaN)])%string. split; [apply w_okb_ok; reflexivity|]. split; [eexists; reflexivity|]. split; [vm_compute; tauto|reflexivity].
Qed.
Print Assumptions C104_nan_refuted.
