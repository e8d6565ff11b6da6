(** * PropShare: the construction of adapters, and stores that adapters share (C100).

    [ask], [do_all], [own_world], [own_stores], [engine_of] and [takes_store] are defined in ShareSpec.v. *)
From Verif Require Import ShareFacts Samples.

(** C100.  Unless an adapter is given a store that has one already, adapters and stores behave as in the
    other files, where the store is a part of the adapter. *)
Theorem C100_own : forall ds a c, own_stores ds shop0 -> let x := fst (do_all ds shop0) in a < length (sh_ads x) ->
  ask_own a c (own_world x) = (own_world (fst (ask a c x)), snd (ask a c x)).
Proof.
  intros ds a c H x L. destruct (nth_error (sh_ads x) a) as [p|] eqn:N; [|now apply nth_error_None in N; lia].
  apply (own_ask a p x c). split; [|exact N]. exact (private_all ds shop0 private0 H).
Qed.
Print Assumptions C100_own.
(** and a construction adds an adapter that holds nothing *)
Theorem C100_built : forall ds c kw a x1, let x := fst (do_all ds shop0) in own_stores (ds ++ [DMake c 0 kw]) shop0 -> make_adapter c 0 kw x = (x1, Built a) ->
  own_world x1 = set_ads (own_world x) (w_ads (own_world x) ++ [adapter_init (ac_name c) (ac_type c) (ac_top c) (ac_classes c) (match dget kw "name" with Some (mkKw (KName n) _) => n | _ => None end) (SLocal [])]).
Proof. exact own_built. Qed.
Print Assumptions C100_built.
(** Two adapters that were given one store: whatever happens afterwards, a call through one does and
    returns what it does and returns through the other. *)
Theorem C100_shared : forall ds c n kw fs c' n' kw' es s a b call, engine_of kw = EInstance s -> engine_of kw' = EInstance s ->
  snd (do_one (DMake c n kw) (fst (do_all ds shop0))) = WMade (Built a) ->
  snd (do_one (DMake c' n' kw') (fst (do_all (ds ++ DMake c n kw :: fs) shop0))) = WMade (Built b) ->
  let x := fst (do_all ((ds ++ DMake c n kw :: fs) ++ DMake c' n' kw' :: es) shop0) in ask a call x = ask b call x.
Proof.
  intros ds c n kw fs c' n' kw' es s a b call E1 E2 M1 M2. cbv zeta. rewrite all_app. set (x1 := fst (do_all ds shop0)) in *. rewrite all_fst_cons.
  destruct (made_takes _ _ _ _ _ _ M1 E1) as (p & N1 & S1). destruct (made_takes _ _ _ _ _ _ M2 E2) as (q & N2 & S2).
  apply (same_slot a b _ p q); [|now apply all_slots|congruence]. apply all_slots, one_slots. rewrite all_app, all_fst_cons. now apply all_slots.
Qed.
Print Assumptions C100_shared.
(** A call through an adapter changes no adapter, no other store, and not what adapter its store has. *)
Theorem C100_apart : forall a c x p, nth_error (sh_ads x) a = Some p -> let x' := fst (ask a c x) in
  sh_ads x' = sh_ads x /\ (forall s, s <> pa_slot p -> nth_error (sh_stores x') s = nth_error (sh_stores x) s) /\
  (forall s, option_map ls_owner (nth_error (sh_stores x') s) = option_map ls_owner (nth_error (sh_stores x) s)).
Proof. intros a c x p N x'. destruct (ask_frame a c x p N) as (A & B & _). split; [exact A|]. split; [exact B|]. apply ask_keeps. Qed.
Print Assumptions C100_apart.
(** The adapter of a store is the last one that was given it. *)
Theorem C100_last : forall ds es c n kw s a x1, let x := fst (do_all ds shop0) in
  make_adapter c n kw x = (x1, Built a) -> engine_of kw = EInstance s -> (forall d, In d es -> ~ takes_store s d) ->
  exists p l, let x' := fst (do_all (ds ++ DMake c n kw :: es) shop0) in
    nth_error (sh_ads x') a = Some p /\ pa_slot p = s /\ nth_error (sh_stores x') s = Some l /\ ls_owner l = Some a.
Proof. exact last_owner. Qed.
Print Assumptions C100_last.
(** An object that has no adapter, added through whichever of the adapters, gets that one. *)
Theorem C100_attach : forall ds es c n kw s a x1 b q r o u, let x := fst (do_all ds shop0) in
  make_adapter c n kw x = (x1, Built a) -> engine_of kw = EInstance s -> (forall d, In d es -> ~ takes_store s d) ->
  let x' := fst (do_all (ds ++ DMake c n kw :: es) shop0) in
  nth_error (sh_ads x') b = Some q -> pa_slot q = s -> nth_error (sh_heap x') r = Some o -> o_adapter o = None -> get_unique_id o = Ok u ->
  snd (ask b (CByUids [u] (MName (get_type o))) x') = Err ObjectNotFound ->
  snd (ask b (CAdd r) x') = Ok RUnit /\ nth_error (sh_heap (fst (ask b (CAdd r) x'))) r = Some (set_o_adapter o (Some a)).
Proof.
  intros ds es c n kw s a x1 b q r o u x E EN T x' NB SQ NO OA U NF. destruct (last_owner ds es c n kw s a x1 E EN T) as (p & l & N & SP & L & O). fold x' in N, L.
  cbn [ask] in NF |- *. unfold rmap, by_adapter, sh_by_uids, sh_add in *. cbn [mapM] in NF. unfold bind in *. rewrite NB, SQ in *. unfold sh_store, sh_get_obj, lift in *. cbn [spec_name] in NF. rewrite L in NF. rewrite NO, U, L. unfold sh_put, modify in *. rewrite L in *.
  destruct (dget (bucket (ls_data l) (get_type o)) u) as [r'|]; cbn in NF; [discriminate|]. cbn. rewrite OA. cbn. rewrite O. split; [reflexivity|]. rewrite nth_list_set, Nat.eqb_refl, L. cbn. now rewrite nth_list_set, Nat.eqb_refl, NO.
Qed.
Print Assumptions C100_attach.
(** The record of the keyword arguments has the arguments in their order, a copy of each or, where the copy
    ended with TypeError or AttributeError, the value itself. *)
Theorem C100_meta : forall c n kw x x' a, make_adapter c n kw x = (x', Built a) ->
  exists p, nth_error (sh_ads x') a = Some p /\ dkeys (pa_meta p) = dkeys kw /\
    forall k v, dget kw k = Some v -> (kw_copy v = CopyOk /\ dget (pa_meta p) k = Some (MCopy (kw_val v))) \/ (kw_copy v = CopyRefused /\ dget (pa_meta p) k = Some (MSame (kw_val v))).
Proof.
  intros c n kw x x' a E. pose proof (make_cases c n kw x) as K. rewrite E in K. destruct K as [(_ & K)|(meta & ad & EA & EM & _ & _ & _ & _ & _ & K)]; [now elim (K a)|]. injection EA as ->. pose proof (meta_cases kw) as MC. rewrite EM in MC.
  assert (exists s, sh_ads x' = sh_ads x ++ [mkPyad ad s meta]) as (s & ->) by (destruct (engine_of kw); [destruct K as (-> & _); eauto|destruct K|destruct K as (-> & _); eauto]).
  eexists. rewrite nth_error_app2, Nat.sub_diag by lia. split; [reflexivity|]. exact MC.
Qed.
Print Assumptions C100_meta.
(** A construction that fails changes nothing.  It fails iff there are positional arguments, a copy ends with
    another exception, a keyword is neither [name] nor [internal_storage_engine], or the engine is the class RedisStore. *)
Theorem C100_args : forall c n kw x, (forall s, engine_of kw = EInstance s -> s < length (sh_stores x)) ->
  (forall m, snd (make_adapter c n kw x) = m -> (forall a, m <> Built a) -> fst (make_adapter c n kw x) = x) /\
  ((forall a, snd (make_adapter c n kw x) <> Built a) <->
   0 < n \/ (exists k v e, In (k, v) kw /\ kw_copy v = CopyRaises e) \/ (exists k, In k (dkeys kw) /\ k <> "name" /\ k <> "internal_storage_engine") \/ engine_of kw = ERedisClass).
Proof.
  intros c n kw x S. pose proof (make_cases c n kw x) as K. split.
  - intros m E H. destruct (make_adapter c n kw x) as [x' m']. cbn [fst snd] in *. subst m'. destruct K as [(K & _)|(meta & ad & K & _)]; [exact K|now elim (H _ K)].
  - pose proof (meta_cases kw) as MC. split.
    + intros H. unfold make_adapter in H. fold (engine_of kw) in H. destruct n as [|n]; [|left; lia]. right. destruct (new_meta kw) as [meta|e]; [|left; destruct MC as (l & k & v & m & -> & C & _); exists k, v, e; split; [apply in_app_iff; right; now left|exact C]].
      right. destruct (forallb _ (dkeys kw)) eqn:Q; cbn [negb] in H.
      * right. destruct (engine_of kw) as [| |s]; [now elim (H (length (sh_ads x)))|reflexivity|]. specialize (S s eq_refl). apply nth_error_Some in S. destruct (nth_error (sh_stores x) s); [now elim (H (length (sh_ads x)))|congruence].
      * left. clear - Q. induction (dkeys kw) as [|k l IH]; [discriminate|]. cbn [forallb] in Q. apply andb_false_iff in Q as [Q|Q]; [|destruct (IH Q) as (k' & I & D); exists k'; split; [now right|exact D]]. apply orb_false_iff in Q as (Q1 & Q2). exists k. split; [now left|]. split; intros ->; discriminate.
    + intros H a E. destruct (make_adapter c n kw x) as [x' m]. cbn [snd] in E. destruct K as [(_ & K)|(meta & ad & _ & EM & EN & KK & _ & _ & _ & K)]; [now elim (K a)|]. rewrite EM in MC. destruct H as [H|[(k & v & e & I & C)|[(k & I & D1 & D2)|H]]].
      * lia.
      * clear - EM I C. revert meta EM. induction kw as [|[k1 v1] kw IH]; intros meta EM; [destruct I|]. cbn [new_meta] in EM. destruct I as [I|I].
        -- injection I as -> ->. rewrite C in EM. discriminate.
        -- destruct (kw_copy v1); [| |discriminate]; (destruct (new_meta kw) as [l|]; [eapply (IH I); reflexivity|discriminate]).
      * destruct (KK k I); contradiction.
      * now rewrite H in K.
Qed.
Print Assumptions C100_args.

Definition cl_full : adclass := mkAdClass "Full" (Some "full") ["site"] s_classes.
(** an adapter class without model classes *)
Definition cl_bare : adclass := mkAdClass "Bare" None [] [].
Definition kw_in (s : nat) : dict kwarg := [("internal_storage_engine", mkKw (KEngine (EInstance s)) CopyOk)].
Definition loose (o : obj) : obj := set_o_adapter o None.
(** a store, an adapter with it, another with one of its own; a site is added to the first, and one to the second *)
Definition hist_own : list doing :=
  [DStore; DMake cl_full 0 (("name", mkKw (KName (Some "x")) CopyRefused) :: kw_in 0); DMake cl_full 0 [];
   DCall 0 (CNew (loose (mk_site "nyc" "east" [] 0 0))); DCall 0 (CAdd 0); DCall 1 (CNew (loose (mk_site "sfo" "west" [] 0 0))); DCall 1 (CAdd 1)].
(** and then a second adapter with the first store; a site is added through the first adapter *)
Definition hist_shared : list doing :=
  hist_own ++ [DMake cl_bare 0 (kw_in 0); DCall 2 (CNew (loose (mk_site "lon" "uk" [] 0 0))); DCall 0 (CAdd 2)].
Example C100_example : let x := fst (do_all hist_own shop0) in let y := fst (do_all hist_shared shop0) in
  own_stores hist_own shop0 /\ length (sh_ads x) = 2 /\
  snd (ask 0 (CGetAll (MName "site")) x) = Ok (RRefs [0]) /\ snd (ask 1 (CGetAll (MName "site")) x) = Ok (RRefs [1]) /\
  map ls_owner (sh_stores x) = [Some 0; Some 1] /\ map (fun p => (ad_name (pa_ad p), pa_slot p, pa_meta p)) (sh_ads x) =
    [("x", 0, [("name", MSame (KName (Some "x"))); ("internal_storage_engine", MCopy (KEngine (EInstance 0)))]); ("full", 1, [])] /\
  map ls_owner (sh_stores y) = [Some 2; Some 1] /\ map o_adapter (sh_heap y) = [Some 0; Some 1; Some 2] /\
  snd (ask 0 (CGetAll (MName "site")) y) = Ok (RRefs [0; 2]) /\ snd (ask 2 (CGetAll (MName "site")) y) = Ok (RRefs [0; 2]) /\
  snd (make_adapter cl_full 1 [] x) = BadArguments /\ snd (make_adapter cl_full 0 [("names", mkKw (KOther 0) CopyOk)] x) = BadArguments /\
  snd (make_adapter cl_full 0 [("name", mkKw (KName None) (CopyRaises ExnRecursionError))] x) = CopyFailed ExnRecursionError.
Proof.
  split; [|vm_compute; repeat split].
  repeat split; try (intros s l T; now destruct T); intros s l T N; vm_compute in T; try discriminate T. injection T as <-. vm_compute in N. injection N as <-. reflexivity.
Qed.
Print Assumptions C100_example.

(** Not claimed: that an object belongs to the adapter it was added through: with a shared store it may
    belong to the other. *)
Theorem C100_attach_refuted : ~ (forall ds a r o o' u, let x := fst (do_all ds shop0) in
  a < length (sh_ads x) -> nth_error (sh_heap x) r = Some o -> o_adapter o = None -> get_unique_id o = Ok u ->
  snd (ask a (CByUids [u] (MName (get_type o))) x) = Err ObjectNotFound -> snd (ask a (CAdd r) x) = Ok RUnit ->
  nth_error (sh_heap (fst (ask a (CAdd r) x))) r = Some o' -> o_adapter o' = Some a).
Proof.
  intros H. specialize (H (removelast hist_shared) 0 2 (loose (mk_site "lon" "uk" [] 0 0)) (set_o_adapter (mk_site "lon" "uk" [] 0 0) (Some 2)) "lon").
  cbv zeta in H. enough (X : Some 2 = Some 0) by discriminate X. apply H; vm_compute; try reflexivity. lia.
Qed.
Print Assumptions C100_attach_refuted.
(** Nor that a construction leaves what the earlier adapters answer alone: once the store was given to an
    adapter that has no class for sites, the first cannot look one up by its identifiers any more. *)
Theorem C100_get_refuted : ~ (forall ds c kw a m i, let x := fst (do_all ds shop0) in
  a < length (sh_ads x) -> snd (ask a (CGet m i) (fst (make_adapter c 0 kw x))) = snd (ask a (CGet m i) x)).
Proof.
  intros H. specialize (H hist_own cl_bare (kw_in 0) 0 (MName "site") (IdDict [("name", VStr "nyc")])). cbv zeta in H.
  enough (X : Err (A := reply) ExnValueError = Ok (RRef 0)) by discriminate X. etransitivity; [|etransitivity; [apply H|]]; vm_compute; try reflexivity. lia.
Qed.
Print Assumptions C100_get_refuted.
