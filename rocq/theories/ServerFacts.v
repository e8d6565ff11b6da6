(** * ServerFacts: a synchronisation into a RedisStore. *)
From Verif Require Export ServerSpec RedisFacts OutcomeFacts.
From Verif Require Import SyncTrace StopFacts.

(** ** Changes of the server *)
Inductive op := OSet (k : string * string) (o : obj) | ODel (k : string * string).
Definition op_key (x : op) : string * string := match x with OSet k _ => k | ODel k => k end.

(** the first [n] objects keep their class, identifiers and flags *)
Definition steady (n : nat) (w w' : world) : Prop :=
  length (w_heap w) <= length (w_heap w') /\
  forall r o, r < n -> nth_error (w_heap w) r = Some o -> exists o', nth_error (w_heap w') r = Some o' /\
    o_cls o' = o_cls o /\ get_identifiers o' = get_identifiers o /\ o_flags o' = o_flags o.
Lemma steady_refl n w : steady n w w.
Proof. split; [auto|]. intros r o _ H. exists o. auto. Qed.
Lemma steady_trans n w w1 w2 : steady n w w1 -> steady n w1 w2 -> steady n w w2.
Proof.
  intros [LA A] [LB B]. split; [lia|]. intros r o L H. destruct (A r o L H) as (o1 & H1 & E1 & E2 & E3). destruct (B r o1 L H1) as (o2 & H2 & F1 & F2 & F3).
  exists o2. repeat split; congruence || assumption.
Qed.
Lemma steady_le n m w w' : m <= n -> steady n w w' -> steady m w w'.
Proof. intros L [A B]. split; [exact A|]. intros r o LR. apply B. lia. Qed.
Lemma steady_set n w r o o' : nth_error (w_heap w) r = Some o -> n <= r \/ (o_cls o' = o_cls o /\ get_identifiers o' = get_identifiers o /\ o_flags o' = o_flags o) ->
  steady n w (set_heap w (list_set (w_heap w) r o')).
Proof.
  intros H A. split; cbn [set_heap w_heap]; [rewrite list_set_length; auto|]. intros r1 o1 L H1. destruct (Nat.eq_dec r1 r) as [->|N].
  - rewrite (nth_list_set_eq _ _ _ _ H). exists o'. assert (o1 = o) by congruence. subst. split; [auto|]. destruct A as [A|A]; [lia|exact A].
  - rewrite nth_list_set_neq by auto. exists o1. auto.
Qed.
Lemma steady_app n w w' news : w_heap w' = w_heap w ++ news -> steady n w w'.
Proof.
  intros E. split; rewrite E; [rewrite app_length; lia|]. intros r o _ H. exists o. split; [|auto].
  rewrite nth_error_app1; [exact H|]. apply nth_error_Some. congruence.
Qed.

Section Run.
  Variables (w0 : world) (dst : aid) (da : adapter) (i : string).
  Variables (env : senv) (ord : order_fn) (gs : dict (dict elem)).
  Hypothesis ED : sv_dst env = dst.
  Hypothesis SD : server_dst w0 dst da i.
  Variable WX : string -> Prop.
  Hypothesis HK : hooks_succeed (sv_hooks env).
  Hypothesis HW : hooks_write WX (sv_hooks env).
  Hypothesis FL : N.testbit (sv_flags env) 0 = false.
  Hypothesis YO : yields_once ord.
  Hypothesis DW : deletes_whole gs.
  Hypothesis US : unchanged_on_server w0 dst i gs.

  Definition key (k : string * string) : string := redis_key i (fst k) (snd k).
  Definition known (k : string * string) : Prop := exists c, dget (ad_classes da) (fst k) = Some c.

  Inductive applied : dict obj -> list op -> dict obj -> Prop :=
  | ap_nil r : applied r [] r
  | ap_set r k o ops r' : dget r (key k) = None -> applied (dset r (key k) o) ops r' -> applied r (OSet k o :: ops) r'
  | ap_del r k ops r' : dget r (key k) <> None -> applied (ddel r (key k)) ops r' -> applied r (ODel k :: ops) r'.
  Lemma applied_app r ops r1 ops' r' : applied r ops r1 -> applied r1 ops' r' -> applied r (ops ++ ops') r'.
  Proof. induction 1; simpl; intros; [assumption|constructor; auto|constructor; auto]. Qed.

  Lemma key_eq k k' : known k -> known k' -> key k = key k' -> k = k'.
  Proof.
    intros [c C] [c' C'] E. destruct (sd_class _ _ _ _ SD _ _ C) as (_ & P & _). destruct (sd_class _ _ _ _ SD _ _ C') as (_ & P' & _).
    destruct k as [t u], k' as [t' u']. unfold key in E. cbn [fst snd] in *.
    destruct (key_inj _ _ _ _ _ _ (sd_id _ _ _ _ SD) P (sd_id _ _ _ _ SD) P' E) as (_ & -> & ->). reflexivity.
  Qed.

  (** the operation an element asks for *)
  Definition asks (x : elem) (p : op) : Prop :=
    names w0 dst x (op_key p) /\
    match p with
    | OSet k o => e_action x = Some ACreate /\ exists c, dget (ad_classes da) (fst k) = Some c /\ built WX c x o /\ childless o /\ o_adapter o = None
    | ODel k => e_action x = Some ADelete
    end.
  Definition effects (P : elem -> Prop) (ops : list op) : Prop :=
    (forall p, In p ops -> exists x, P x /\ asks x p) /\
    (forall x, P x -> e_action x = Some ACreate \/ e_action x = Some ADelete -> exists p, In p ops /\ asks x p).
  Lemma effects_nil (P : elem -> Prop) : (forall x, P x -> e_action x <> Some ACreate /\ e_action x <> Some ADelete) -> effects P [].
  Proof. intros H. split; [intros p []|]. intros x Hx [E|E]; destruct (H x Hx); contradiction. Qed.
  Lemma effects_app P Q (R : elem -> Prop) ops ops' : effects P ops -> effects Q ops' -> (forall x, R x <-> P x \/ Q x) -> effects R (ops ++ ops').
  Proof.
    intros [A1 A2] [B1 B2] E. split.
    - intros p H. apply in_app_iff in H as [H|H]; [destruct (A1 p H) as (x & X & Y)|destruct (B1 p H) as (x & X & Y)]; exists x; (split; [apply E; auto|exact Y]).
    - intros x X ACT. apply E in X as [X|X]; [destruct (A2 x X ACT) as (p & I & K)|destruct (B2 x X ACT) as (p & I & K)]; exists p; (split; [apply in_app_iff; auto|exact K]).
  Qed.
  Lemma effects_ext (P Q : elem -> Prop) ops : (forall x, P x <-> Q x) -> effects P ops -> effects Q ops.
  Proof.
    intros E [A1 A2]. split.
    - intros p H. destruct (A1 p H) as (x & X & Y). exists x. split; [now apply E|exact Y].
    - intros x X. apply A2. now apply E.
  Qed.

  (** ** What stays true *)
  Record inv (w : world) : Prop := mkInv {
    in_ad : nth_error (w_ads w) dst = Some da;
    in_once : NoDup (dkeys (w_redis w));
    in_filed : forall t c u o, dget (ad_classes da) t = Some c -> on_server w i t u = Some o ->
      get_type o = t /\ get_unique_id o = Ok u /\ ~ skips_children (o_flags o);
    in_stay : forall k, known k -> on_server w0 i (fst k) (snd k) <> None -> ~ mentioned w0 dst gs is_delete_act k -> on_server w i (fst k) (snd k) <> None
  }.
  Lemma inv_start : inv w0.
  Proof. destruct SD. constructor; auto. Qed.
  (** results reached without an exception *)
  Definition tri {A} (m : M sstate A) (s : sstate) (Q : A -> sstate -> Prop) : Prop := forall s' x, m s = (s', Ok x) -> Q x s'.
  Lemma tri_bind {A B} (m : M sstate A) (k : A -> M sstate B) s (Q : B -> sstate -> Prop) : tri m s (fun x s1 => tri (k x) s1 Q) -> tri (bind m k) s Q.
  Proof. unfold tri, bind. intros H s' x E. destruct (m s) as [s1 [a|e]]; [|discriminate]. eapply H; eauto. Qed.
  Lemma tri_ret {A} (x : A) s (Q : A -> sstate -> Prop) : Q x s -> tri (ret x) s Q.
  Proof. intros H s' y E. injection E as <- <-. exact H. Qed.
  Lemma tri_raise {A} e s (Q : A -> sstate -> Prop) : tri (raise e) s Q.
  Proof. intros s' x E. discriminate. Qed.
  Lemma tri_slift {A} (m : M world A) s (Q : A -> sstate -> Prop) : (forall w' x, m (ss_w s) = (w', Ok x) -> Q x (set_ss_w s w')) -> tri (slift m) s Q.
  Proof. intros H s' x E. unfold slift in E. destruct (m (ss_w s)) as [w' r]. cbn in E. injection E as <- ->. now apply H. Qed.
  Lemma tri_weaken {A} (m : M sstate A) s (Q Q' : A -> sstate -> Prop) : tri m s Q -> (forall x s', Q x s' -> Q' x s') -> tri m s Q'.
  Proof. intros H K s' x E. apply K. now apply H. Qed.

  (** the change from one world to another *)
  Definition linked (n : nat) (w : world) (ops : list op) (w' : world) : Prop := inv w' /\ steady n w w' /\ applied (w_redis w) ops (w_redis w').
  Lemma linked_refl n w : inv w -> linked n w [] w.
  Proof. intros H. split; [exact H|]. split; [apply steady_refl|constructor]. Qed.
  Lemma linked_trans n w ops w1 ops' w2 : linked n w ops w1 -> linked n w1 ops' w2 -> linked n w (ops ++ ops') w2.
  Proof. intros (_ & A2 & A3) (B1 & B2 & B3). split; [exact B1|]. split; [eapply steady_trans; eauto|eapply applied_app; eauto]. Qed.
  Lemma linked_still n w ops w1 w2 : linked n w ops w1 -> linked n w1 [] w2 -> linked n w ops w2.
  Proof. intros A B. rewrite <- (app_nil_r ops). eapply linked_trans; eauto. Qed.
  Lemma linked_then n w w1 ops w2 : linked n w [] w1 -> linked n w1 ops w2 -> linked n w ops w2.
  Proof. intros A B. change ops with ([] ++ ops). eapply linked_trans; eauto. Qed.
  Lemma linked_le n m w ops w' : m <= n -> linked n w ops w' -> linked m w ops w'.
  Proof. intros L (A & B & C). split; [exact A|]. split; [eapply steady_le; eauto|exact C]. Qed.
  (** nothing but events and the heap *)
  Lemma linked_heap n w w' : inv w -> w_ads w' = w_ads w -> w_redis w' = w_redis w -> steady n w w' -> linked n w [] w'.
  Proof.
    intros [A B C C'] E1 E2 ST. split.
    - constructor; [now rewrite E1|now rewrite E2| |]; unfold on_server in *; now rewrite E2.
    - split; [exact ST|]. rewrite E2. constructor.
  Qed.
  Lemma linked_event n w ev : inv w -> linked n w [] (add_event w ev).
  Proof. intros H. apply linked_heap; auto. apply (steady_app _ _ _ []). cbn. now rewrite app_nil_r. Qed.
  Lemma linked_ro n w w' : inv w -> read_only w w' -> linked n w [] w'.
  Proof.
    intros [A B C C'] R. assert (R0 := R). destruct R0 as ((news & E1) & E2 & E3). split.
    - destruct (read_only_ad _ _ _ _ R A) as (s & H & X). rewrite (sd_store _ _ _ _ SD) in X. constructor.
      + rewrite H. f_equal. destruct s as [|j]; [destruct X|]. cbn in X. subst j. pose proof (sd_store _ _ _ _ SD) as Y. destruct da. cbn in *. now subst.
      + now rewrite E2.
      + unfold on_server in *. now rewrite E2.
      + unfold on_server in *. now rewrite E2.
    - split; [|rewrite E2; constructor]. eapply steady_app; eauto.
  Qed.

  (** ** The steps *)
  Lemma names_is x c u : dget (ad_classes da) (e_type x) = Some c -> create_unique_id c (e_keys x) = Ok u -> names w0 dst x (e_type x, u).
  Proof.
    intros C U. exists da, c. split; [apply (sd_ad _ _ _ _ SD)|]. split; [exact C|]. split; [|exact U].
    symmetry. apply (sd_class _ _ _ _ SD _ _ C).
  Qed.
  Lemma list_set_last {A} (l : list A) x y : list_set (l ++ [x]) (length l) y = l ++ [y].
  Proof. induction l as [|z l IH]; [reflexivity|]. cbn. now rewrite IH. Qed.

  Lemma dst_run w t c ids u : inv w -> dget (ad_classes da) t = Some c -> create_unique_id c ids = Ok u ->
    get_dst_model env c ids w =
    match on_server w i t u with
    | None => (w, Ok None)
    | Some o => (set_heap w (w_heap w ++ [set_status (set_o_adapter o (Some dst)) StUnknown ""]), Ok (Some (length (w_heap w))))
    end.
  Proof.
    intros IV C U. destruct (sd_class _ _ _ _ SD _ _ C) as (MN & _).
    unfold get_dst_model, try_catch, st_get, bind, get_adapter. rewrite ED, (in_ad _ IV). cbn [object_class_and_model fst snd].
    unfold get_uid, lift. rewrite U, (sd_store _ _ _ _ SD), MN. unfold redis_load, on_server.
    destruct (dget (w_redis w) (redis_key i t u)) as [o|]; [|reflexivity].
    unfold mutate, bind, halloc, hget, hset, lift, ret. cbn [w_heap set_heap fst snd].
    rewrite nth_error_app2, Nat.sub_diag by auto. cbn [nth_error fst snd]. unfold modify, set_heap. cbn [w_heap w_ads w_redis w_trace fst snd].
    now rewrite list_set_last.
  Qed.

  Lemma mutate_ok r f w w' x : mutate r f w = (w', Ok x) ->
    exists o, nth_error (w_heap w) r = Some o /\ w' = set_heap w (list_set (w_heap w) r (fst (f o))) /\ snd (f o) = Ok tt.
  Proof.
    unfold mutate, bind, hget, hset, lift, modify. destruct (nth_error (w_heap w) r) as [o|]; [|discriminate]. intros E.
    injection E as <- E. exists o. destruct x. auto.
  Qed.
  (** a change of one object *)
  Lemma linked_mutate n r f w w' x : inv w -> mutate r f w = (w', Ok x) ->
    (forall o, nth_error (w_heap w) r = Some o -> n <= r \/ (o_cls (fst (f o)) = o_cls o /\ get_identifiers (fst (f o)) = get_identifiers o /\ o_flags (fst (f o)) = o_flags o)) ->
    linked n w [] w'.
  Proof.
    intros IV E H. apply mutate_ok in E as (o & G & -> & _). apply linked_heap; auto. eapply steady_set; eauto.
  Qed.

  Lemma update_run n w r attrs w' x : inv w -> n <= r -> call_update env r attrs w = (w', Ok x) -> linked n w [] w' /\ x = Some r.
  Proof.
    intros IV L. unfold call_update. unfold bind at 1. cbn [get_state]. set (out := sv_hooks env w (HUpdate r attrs)).
    destruct (HK w (HUpdate r attrs)) as [B E]. fold out in B, E. rewrite B, E.
    unfold bind at 1. unfold hget at 1. destruct (nth_error (w_heap w) r) as [o|]; [|discriminate]. unfold bind at 1. cbn [emit modify].
    set (w1 := add_event _ _). assert (L1 : linked n w [] w1) by now apply linked_event.
    unfold bind at 1. destruct (mutate r (fun o0 => update_base o0 attrs) w1) as [w2 [[]|]] eqn:M1; [|discriminate].
    unfold bind at 1. destruct (mutate r (fun o0 => (apply_hook out o0, Ok tt)) w2) as [w3 [[]|]] eqn:M2; [|discriminate].
    intros H. injection H as <- <-. split; [|reflexivity].
    assert (L2 : linked n w1 [] w2) by (eapply linked_mutate; [apply L1|exact M1|]; intros; auto).
    eapply linked_then; [exact L1|]. eapply linked_then; [exact L2|]. eapply linked_mutate; [apply L2|exact M2|]. intros; auto.
  Qed.
  Lemma delete_run n w r w' x : inv w -> call_delete env r w = (w', Ok x) -> linked n w [] w' /\ x = Some r.
  Proof.
    intros IV. unfold call_delete. unfold bind at 1. cbn [get_state]. set (out := sv_hooks env w (HDelete r)).
    destruct (HK w (HDelete r)) as [B E]. fold out in B, E. rewrite B, E.
    unfold bind at 1. unfold hget at 1. destruct (nth_error (w_heap w) r) as [o|]; [|discriminate]. unfold bind at 1. cbn [emit modify].
    set (w1 := add_event _ _). assert (L1 : linked n w [] w1) by now apply linked_event.
    unfold bind at 1. destruct (mutate r (fun o0 => (delete_base o0, Ok tt)) w1) as [w2 [[]|]] eqn:M1; [|discriminate].
    unfold bind at 1. destruct (mutate r (fun o0 => (apply_hook out o0, Ok tt)) w2) as [w3 [[]|]] eqn:M2; [|discriminate].
    intros H. injection H as <- <-. split; [|reflexivity].
    assert (L2 : linked n w1 [] w2) by (eapply linked_mutate; [apply L1|exact M1|]; intros; right; cbn; auto).
    eapply linked_then; [exact L1|]. eapply linked_then; [exact L2|]. eapply linked_mutate; [apply L2|exact M2|]. intros o1 _. right. cbn [fst].
    destruct (apply_hook_any out o1) as (A1 & _ & A3 & A4 & _). auto.
  Qed.
  Lemma create_run n w c ids attrs w' x : inv w -> call_create env c ids attrs w = (w', Ok x) ->
    linked n w [] w' /\ x = Some (length (w_heap w)) /\
    exists o o1, create_base c dst ids attrs = Ok o /\ w_heap w' = w_heap w ++ [o1] /\ same_but WX o o1.
  Proof.
    intros IV. unfold call_create. unfold bind at 1. cbn [get_state]. set (out := sv_hooks env w (HCreate c ids attrs)).
    destruct (HK w (HCreate c ids attrs)) as [B E]. fold out in B, E. rewrite B, E, ED.
    unfold bind at 1. cbn [emit modify]. unfold bind at 1. unfold bind at 1. unfold lift.
    destruct (create_base c dst ids attrs) as [o|] eqn:CB; [|discriminate]. unfold bind at 1. unfold halloc. unfold ret.
    intros H. injection H as <- <-. split; [|split; [reflexivity|]].
    - apply linked_heap; auto. eapply steady_app. reflexivity.
    - exists o, (apply_hook out o). split; [reflexivity|]. split; [reflexivity|]. apply apply_hook_but. intros k. apply HW.
  Qed.

  Lemma add_child_run n w p r w' x : inv w -> heap_add_child p r w = (w', Ok x) ->
    linked n w [] w' /\ w_redis w' = w_redis w /\ (p <> r -> nth_error (w_heap w') r = nth_error (w_heap w) r).
  Proof.
    intros IV. unfold heap_add_child, bind, hget, lift. destruct (nth_error (w_heap w) p) as [po|] eqn:P; [|discriminate].
    destruct (nth_error (w_heap w) r) as [co|] eqn:R; [|discriminate]. destruct (add_child po co) as [po'|] eqn:A; [|discriminate].
    unfold hset, modify. intros H. injection H as <- _.
    destruct (add_child_inv _ _ _ A) as (f & l & u & _ & _ & _ & _ & ->). split; [|split; [reflexivity|]].
    - apply linked_heap; auto. eapply steady_set; [exact P|]. right. auto.
    - intros N. cbn [w_heap set_heap]. rewrite nth_list_set_neq by auto. exact R.
  Qed.
  Lemma remove_child_run n w p r w' x : inv w -> heap_remove_child p r w = (w', Ok x) ->
    linked n w [] w' /\ w_redis w' = w_redis w /\ (forall o, nth_error (w_heap w) r = Some o -> exists o', nth_error (w_heap w') r = Some o' /\
      o_cls o' = o_cls o /\ get_identifiers o' = get_identifiers o /\ o_flags o' = o_flags o).
  Proof.
    intros IV. unfold heap_remove_child, bind, hget, lift. destruct (nth_error (w_heap w) p) as [po|] eqn:P; [|discriminate].
    destruct (nth_error (w_heap w) r) as [co|] eqn:R; [|discriminate]. destruct (remove_child po co) as [po'|] eqn:A; [|discriminate].
    unfold hset, modify. intros H. injection H as <- _.
    destruct (remove_child_inv _ _ _ A) as (f & l & u & _ & _ & _ & _ & ->).
    assert (ST : forall n, steady n w (set_heap w (list_set (w_heap w) p (set_o_kids po (dset (o_kids po) f (remove_first u l)))))).
    { intros m. eapply steady_set; [exact P|]. right. auto. }
    split; [|split; [reflexivity|]].
    - apply linked_heap; auto.
    - intros o G. assert (o = co) by congruence. subst. destruct (ST (S r)) as [_ X]. exact (X r co (Nat.lt_succ_diag_r r) R).
  Qed.

  Lemma on_set w k k' o : known k -> known k' -> on_server (set_redis w (dset (w_redis w) (key k) o)) i (fst k') (snd k') =
    if (String.eqb (fst k') (fst k) && String.eqb (snd k') (snd k)) then Some o else on_server w i (fst k') (snd k').
  Proof.
    intros K K'. unfold on_server. cbn [w_redis set_redis].
    destruct (String.eqb_spec (fst k') (fst k)) as [E1|N]; [destruct (String.eqb_spec (snd k') (snd k)) as [E2|N]|].
    - rewrite E1, E2. apply dget_dset_eq.
    - apply dget_dset_neq. intros E. apply N. symmetry. apply (f_equal snd (key_eq k k' K K' E)).
    - apply dget_dset_neq. intros E. apply N. symmetry. apply (f_equal fst (key_eq k k' K K' E)).
  Qed.
  Lemma inv_set w k c o : inv w -> dget (ad_classes da) (fst k) = Some c -> get_type o = fst k -> get_unique_id o = Ok (snd k) -> ~ skips_children (o_flags o) ->
    inv (set_redis w (dset (w_redis w) (key k) o)).
  Proof.
    intros [A B C D] K T U F. assert (KN : known k) by (exists c; exact K). constructor.
    - exact A.
    - cbn. now apply NoDup_dset.
    - intros t c' u o' K' G. assert (KN' : known (t, u)) by (exists c'; exact K'). pose proof (on_set w k (t, u) o KN KN') as X.
      cbn [fst snd] in X. rewrite X in G. destruct (String.eqb_spec t (fst k)) as [->|]; [destruct (String.eqb_spec u (snd k)) as [->|]|]; cbn [andb] in G; [injection G as <-; auto|eapply C; eauto|eapply C; eauto].
    - intros k' KN' H1 H2. specialize (D k' KN' H1 H2). unfold on_server in *. cbn [w_redis set_redis].
      destruct (string_dec (redis_key i (fst k') (snd k')) (key k)) as [E|N]; [rewrite E, dget_dset_eq; discriminate|rewrite dget_dset_neq by auto; exact D].
  Qed.
  Lemma on_del w k k' : inv w -> known k -> known k' -> on_server (set_redis w (ddel (w_redis w) (key k))) i (fst k') (snd k') =
    if (String.eqb (fst k') (fst k) && String.eqb (snd k') (snd k)) then None else on_server w i (fst k') (snd k').
  Proof.
    intros IV K K'. unfold on_server. cbn [w_redis set_redis].
    destruct (String.eqb_spec (fst k') (fst k)) as [E1|N]; [destruct (String.eqb_spec (snd k') (snd k)) as [E2|N]|].
    - rewrite E1, E2. apply dget_ddel_eq. apply IV.
    - apply dget_ddel_neq. intros E. apply N. symmetry. apply (f_equal snd (key_eq k k' K K' E)).
    - apply dget_ddel_neq. intros E. apply N. symmetry. apply (f_equal fst (key_eq k k' K K' E)).
  Qed.
  Lemma inv_del w x k : inv w -> known k -> occurs x gs -> e_action x = Some ADelete -> names w0 dst x k ->
    inv (set_redis w (ddel (w_redis w) (key k))).
  Proof.
    intros IV KN OC EA NM. assert (IV0 := IV). destruct IV0 as [A B C D]. constructor.
    - exact A.
    - cbn. now apply NoDup_ddel.
    - intros t c' u o' K' G. assert (KN' : known (t, u)) by (exists c'; exact K'). pose proof (on_del w k (t, u) IV KN KN') as X.
      cbn [fst snd] in X. rewrite X in G. destruct (String.eqb t (fst k) && String.eqb u (snd k)); [discriminate|eapply C; eauto].
    - intros k' KN' H1 H2. specialize (D k' KN' H1 H2). unfold on_server in *. cbn [w_redis set_redis].
      destruct (string_dec (redis_key i (fst k') (snd k')) (key k)) as [E|N]; [|rewrite dget_ddel_neq by auto; exact D].
      exfalso. apply H2. exists x. split; [exact OC|]. split; [exact EA|].
      now rewrite (key_eq k' k KN' KN E).
  Qed.

  Lemma linked_redis n w ops r' : inv (set_redis w r') -> applied (w_redis w) ops r' -> linked n w ops (set_redis w r').
  Proof. intros A B. split; [exact A|]. split; [|exact B]. apply (steady_app _ _ _ []). cbn. now rewrite app_nil_r. Qed.
  Lemma create_childless c a ids attrs o : create_base c a ids attrs = Ok o -> childless o.
  Proof.
    unfold create_base. destruct (merge_kw ids attrs) as [kw|] eqn:EM; simpl; [|discriminate].
    destruct (instantiate c kw [] None (Some a)) as [o1|] eqn:EI; simpl; [|discriminate]. intros H; injection H as <-.
    unfold instantiate in EI. destruct (rmapM _ (c_fields c)); simpl in EI; [|discriminate]. injection EI as <-.
    intros f l G. cbn [set_status o_kids] in G. apply dget_Some_In in G. apply in_map_iff in G as (x & E & _). congruence.
  Qed.

  Lemma apply_create n w e c u parent r o o1 sk w' b : inv w -> dget (ad_classes da) (e_type e) = Some c -> create_unique_id c (e_keys e) = Ok u ->
    e_action e = Some ACreate -> create_base c dst (e_keys e) (plus_attrs e) = Ok o -> same_but WX o o1 -> nth_error (w_heap w) r = Some o1 ->
    (forall p, parent = Some p -> p <> r) -> on_server w i (e_type e) u = None ->
    apply_to_store env (Some ACreate) parent r sk w = (w', Ok b) ->
    b = false /\ exists o', asks e (OSet (e_type e, u) o') /\ linked n w [OSet (e_type e, u) o'] w'.
  Proof.
    intros IV C U EA CB SB R PN AB. destruct (sd_class _ _ _ _ SD _ _ C) as (MN & _ & FN & FG).
    destruct (create_base_spec _ _ _ _ _ _ CB U) as (OC & OF & OU & _).
    unfold apply_to_store. cbv beta iota. unfold bind at 1. cbv beta.
    match goal with |- (let (_, _) := ?m in _) = _ -> _ => destruct m as [w1 [x|]] eqn:E1 end; [|discriminate].
    assert (X : linked n w [] w1 /\ w_redis w1 = w_redis w /\ nth_error (w_heap w1) r = Some o1).
    { destruct parent as [p|].
      - destruct (add_child_run n _ _ _ _ _ IV E1) as (A1 & A2 & A3). split; [exact A1|]. split; [exact A2|]. rewrite A3; auto.
      - injection E1 as <- _. split; [now apply linked_refl|auto]. }
    clear E1. destruct X as (L1 & R1 & H1). unfold bind at 1. unfold st_add. unfold bind at 1. unfold hget. rewrite H1.
    unfold bind at 1. unfold lift. rewrite (same_but_uid _ _ _ SB). destruct (get_unique_id o) as [u'|] eqn:GU; [|discriminate].
    assert (u' = u) by now apply OU. subst u'. unfold bind at 1. unfold get_adapter. rewrite ED, (in_ad _ (proj1 L1)), (sd_store _ _ _ _ SD).
    unfold bind at 1. cbn [get_state]. rewrite (same_but_type _ _ _ SB). assert (TY : get_type o = e_type e) by (unfold get_type; now rewrite OC). rewrite TY.
    unfold on_server in AB. rewrite R1, AB. unfold redis_put, modify, ret. intros H. injection H as <- <-. split; [reflexivity|].
    set (o' := set_o_adapter o1 None). exists o'.
    destruct SB as (S1 & S4 & S3 & S2 & S5). assert (SB : same_but WX o o1) by now repeat split. split.
    - split; [now apply (names_is e c)|]. split; [exact EA|]. exists c. split; [exact C|]. split; [|split; [|reflexivity]].
      + pose proof (create_built _ _ _ _ FN CB) as (B1 & B2 & B3 & B4). unfold built, o'. cbn [set_o_adapter o_cls o_flags o_vals].
        split; [congruence|]. split; [congruence|]. split; [pose proof (vals_but_keys _ _ _ S5) as VK; unfold dkeys in VK; congruence|].
        intros f dv I NX. assert (V : dget (o_vals o1) f = dget (o_vals o) f); [|rewrite V; apply B4; auto].
        destruct NX as [NX|J]; [now apply (vals_but_get WX)|].
        apply (f_equal (fun v => dget v f)) in S2. unfold get_identifiers in S2. rewrite !dget_dump, S1, B1 in S2. apply smem_In in J. now rewrite J in S2.
      + intros f l. unfold o'. cbn [set_o_adapter o_kids]. rewrite S4. apply (create_childless _ _ _ _ _ CB).
    - eapply linked_then; [exact L1|]. apply (linked_redis n w1 _ (dset (w_redis w1) (key (e_type e, u)) o')).
      + apply (inv_set w1 (e_type e, u) c o' (proj1 L1) C).
        * unfold o'. change (get_type o1 = e_type e). now rewrite (same_but_type _ _ _ SB).
        * change (get_unique_id o1 = Ok u). now rewrite (same_but_uid _ _ _ SB).
        * unfold o'. cbn [set_o_adapter o_flags]. rewrite S3, OF. exact FG.
      + constructor; [|constructor]. unfold key. cbn [fst snd]. now rewrite R1.
  Qed.

  Lemma clear_run n w r w' x : inv w -> clear_adapter r w = (w', Ok x) -> linked n w [] w'.
  Proof.
    intros IV. unfold clear_adapter, bind, hget, get_state. destruct (nth_error (w_heap w) r) as [o|] eqn:G; [|discriminate].
    destruct (adapter_truthy w (o_adapter o)); unfold hset, modify, ret; intros H; injection H as <- _; [|now apply linked_refl].
    apply linked_heap; auto. eapply steady_set; [exact G|]. right. auto.
  Qed.
  Lemma uid_same o o' : o_cls o' = o_cls o -> get_identifiers o' = get_identifiers o -> get_unique_id o' = get_unique_id o /\ get_type o' = get_type o.
  Proof. intros A B. unfold get_unique_id, get_type. now rewrite A, B. Qed.
  Lemma apply_delete n w e c u parent r o w' b : inv w -> dget (ad_classes da) (e_type e) = Some c -> create_unique_id c (e_keys e) = Ok u ->
    occurs e gs -> e_action e = Some ADelete -> nth_error (w_heap w) r = Some o -> get_type o = e_type e -> get_unique_id o = Ok u ->
    apply_to_store env (Some ADelete) parent r false w = (w', Ok b) ->
    b = false /\ asks e (ODel (e_type e, u)) /\ linked n w [ODel (e_type e, u)] w'.
  Proof.
    intros IV C U OC EA R TY GU. assert (KN : known (e_type e, u)) by (exists c; exact C).
    unfold apply_to_store. cbv beta iota. unfold bind at 1. cbv beta.
    match goal with |- (let (_, _) := ?m in _) = _ -> _ => destruct m as [w1 [x|]] eqn:E1 end; [|discriminate].
    assert (X : linked n w [] w1 /\ w_redis w1 = w_redis w /\ exists o', nth_error (w_heap w1) r = Some o' /\ get_type o' = e_type e /\ get_unique_id o' = Ok u).
    { destruct parent as [p|].
      - destruct (remove_child_run n _ _ _ _ _ IV E1) as (A1 & A2 & A3). split; [exact A1|]. split; [exact A2|].
        destruct (A3 o R) as (o' & H & B1 & B2 & _). exists o'. destruct (uid_same o o' B1 B2) as [V1 V2]. split; [exact H|]. split; congruence.
      - injection E1 as <- _. split; [now apply linked_refl|]. split; [reflexivity|]. exists o. auto. }
    clear E1. destruct X as (L1 & R1 & o' & H1 & TY' & GU'). unfold bind at 1.
    destruct (sv_fuel env) as [|fuel]; [discriminate|]. cbn [st_remove]. unfold bind at 1. unfold hget. rewrite H1.
    unfold bind at 1. unfold lift. rewrite GU'. unfold bind at 1. unfold st_remove_item. unfold bind at 1. unfold get_adapter.
    rewrite ED, (in_ad _ (proj1 L1)), (sd_store _ _ _ _ SD). unfold bind at 1. cbn [get_state]. rewrite TY'.
    destruct (dget (w_redis w1) (redis_key i (e_type e) u)) as [old|] eqn:G; [|discriminate]. unfold modify at 1. 
    set (w2 := set_redis w1 (ddel (w_redis w1) (redis_key i (e_type e) u))).
    assert (NM : names w0 dst e (e_type e, u)) by now apply (names_is e c).
    assert (L2 : linked n w [ODel (e_type e, u)] w2).
    { eapply linked_then; [exact L1|]. apply (linked_redis n w1 _ (ddel (w_redis w1) (key (e_type e, u)))).
      - apply (inv_del w1 e); auto. apply L1.
      - constructor; [|constructor]. unfold key. cbn [fst snd]. congruence. }
    unfold bind at 1. destruct (clear_adapter r w2) as [w3 [y|]] eqn:CL; [|discriminate].
    unfold ret. intros H. injection H as <- <-. split; [reflexivity|]. split; [split; [exact NM|exact EA]|].
    eapply linked_still; [exact L2|]. eapply clear_run; [apply L2|exact CL].
  Qed.

  (** a record in the log, or none *)
  Definition noted (w w' : world) : Prop := w' = w \/ exists ev, w' = add_event w ev.
  Lemma noted_linked n w w' : inv w -> noted w w' -> linked n w [] w'.
  Proof. intros IV [->|(ev & ->)]; [now apply linked_refl|now apply linked_event]. Qed.
  Lemma log_run a st msg s : exists w', log_sync_status env a st msg s = (set_ss_w s w', Ok tt) /\ noted (ss_w s) w'.
  Proof.
    assert (Z : forall lvl, exists w', slog lvl (Some st) msg s = (set_ss_w s w', Ok tt) /\ noted (ss_w s) w').
    { intros lvl. eexists. split; [reflexivity|]. right. eexists. reflexivity. }
    unfold log_sync_status. destruct a as [a|].
    - destruct st; apply Z.
    - destruct has_flag; [apply Z|]. exists (ss_w s). split; [now destruct s|now left].
  Qed.
  Lemma model_ok dm ids attrs s a s' x : ss_action s = Some a -> sync_model env dm ids attrs s = (s', Ok x) ->
    exists s1 m sm, sync_model_try env dm ids attrs s = (s1, Ok (m, sm)) /\ noted (ss_w s1) (ss_w s') /\ ss_action s' = ss_action s1 /\ x = (true, m).
  Proof.
    intros EA. unfold sync_model. unfold bind at 1. cbn [get_state]. rewrite EA. unfold bind at 1. unfold try_catch. unfold bind at 1.
    destruct (sync_model_try env dm ids attrs s) as [s1 [[m [st msg]]|e]].
    - cbn [ret]. unfold bind. destruct (log_run (Some a) st msg s1) as (w' & -> & N). unfold ret. intros H. injection H as <- <-.
      exists s1, m, (st, msg). auto.
    - cbv beta iota. destruct (is_crud e); [|discriminate]. unfold bind at 1.
      destruct (log_run (Some a) StError (exn_msg e) s1) as (w' & -> & N). rewrite continue_bit, FL. discriminate.
  Qed.
  Lemma none_ok dm ids attrs s s' x : ss_action s = None -> sync_model env dm ids attrs s = (s', Ok x) ->
    noted (ss_w s) (ss_w s') /\ ss_action s' = None /\ x = (false, dm).
  Proof.
    intros EA. unfold sync_model. unfold bind at 1. cbn [get_state]. rewrite EA. unfold bind at 1.
    destruct (log_run None StSuccess "No changes to apply; no action needed" s) as (w' & -> & N). unfold ret. intros H. injection H as <- <-. auto.
  Qed.
  (** the hook call of the try statement *)
  Lemma try_ok dm ids attrs s s' m sm : sync_model_try env dm ids attrs s = (s', Ok (m, sm)) ->
    ss_action s' = ss_action s /\
    exists w1, (w1 = ss_w s') /\
    match ss_action s with
    | Some ACreate => dm = None /\ exists c, ss_class s = Some c /\ call_create env c ids attrs (ss_w s) = (w1, Ok m)
    | Some AUpdate => exists r, dm = Some r /\ call_update env r attrs (ss_w s) = (w1, Ok m)
    | Some ADelete => exists r, dm = Some r /\ call_delete env r (ss_w s) = (w1, Ok m)
    | None => False
    end.
  Proof.
    unfold sync_model_try. unfold bind at 1. cbn [get_state].
    assert (Z : forall (k : M world (option ref)) s', bind (slift k) (fun m0 => match m0 with
        | Some r => o <- slift (hget r) ;; ret (Some r, get_status o)
        | None => ret (None, (StFailure, (class_name s ++ " " ++ action_str (ss_action s) ++ " did not return the model object.")%string))
        end) s = (s', Ok (m, sm)) -> ss_action s' = ss_action s /\ k (ss_w s) = (ss_w s', Ok m)).
    { intros k s1. unfold bind at 1. unfold slift at 1. destruct (k (ss_w s)) as [w1 [[r|]|e]]; cbn [fst snd]; [| |discriminate].
      - unfold bind, slift, hget. cbn [set_ss_w ss_w]. destruct (nth_error (w_heap w1) r) as [o|]; cbn [fst snd]; [|discriminate].
        unfold ret. intros H. injection H as <- <- _. split; reflexivity.
      - unfold ret. intros H. injection H as <- <- _. split; reflexivity. }
    destruct (ss_action s) as [[]|].
    - destruct dm; [discriminate|]. destruct (ss_class s) as [c|]; [|discriminate]. intros H. apply Z in H as [H1 H2]. split; [exact H1|].
      eexists. split; [reflexivity|]. split; [reflexivity|]. exists c. auto.
    - destruct dm as [r|]; [|discriminate]. intros H. apply Z in H as [H1 H2]. split; [exact H1|]. eexists. split; [reflexivity|]. exists r. auto.
    - destruct dm as [r|]; [|discriminate]. intros H. apply Z in H as [H1 H2]. split; [exact H1|]. eexists. split; [reflexivity|]. exists r. auto.
    - discriminate.
  Qed.

  (** ** The run *)
  Definition below (xs : list elem) (y : elem) : Prop := exists x, In x xs /\ In y (elem_all x).
  Definition gone (P : elem -> Prop) : Prop := forall y, P y -> e_action y = Some ADelete.
  Definition ends (P : elem -> Prop) (s s' : sstate) : Prop :=
    exists ops, linked (length (w_heap (ss_w s))) (ss_w s) ops (ss_w s') /\ effects P ops.
  Definition runs_well (x : elem) : Prop := forall parent s, inv (ss_w s) -> (forall p, parent = Some p -> p < length (w_heap (ss_w s))) ->
    tri (sync_elem ord env x parent) s (fun _ s' => ends (fun y => In y (elem_all x)) s s' /\ (gone (fun y => In y (elem_all x)) -> ss_action s' = Some ADelete)).
  Lemma ends_length P s s' : ends P s s' -> length (w_heap (ss_w s)) <= length (w_heap (ss_w s')).
  Proof. intros (ops & (_ & (L & _) & _) & _). exact L. Qed.
  Lemma ends_inv P s s' : ends P s s' -> inv (ss_w s').
  Proof. intros (ops & (IV & _) & _). exact IV. Qed.
  Lemma kids_run parent xs : (forall x, In x xs -> runs_well x) -> forall s b, inv (ss_w s) -> (forall p, parent = Some p -> p < length (w_heap (ss_w s))) ->
    tri (run_kids (map (sync_elem ord env) xs) parent b) s (fun _ s' => ends (below xs) s s' /\ (gone (below xs) -> ss_action s = Some ADelete -> ss_action s' = Some ADelete)).
  Proof.
    induction xs as [|x xs IH]; intros H s b IV PP.
    - apply tri_ret. split; [|auto]. exists []. split; [now apply linked_refl|]. apply effects_nil. intros y (z & [] & _).
    - cbn [map run_kids]. apply tri_bind. eapply tri_weaken; [apply (H x); [now left|exact IV|exact PP]|].
      intros b1 s1 [E1 A1]. eapply tri_weaken; [apply IH|].
      + intros y Y. apply H. now right.
      + now apply ends_inv in E1.
      + intros p E. specialize (PP p E). apply ends_length in E1. lia.
      + intros b2 s2 [E2 A2]. pose proof (ends_length _ _ _ E1) as LE. destruct E1 as (ops1 & L1 & F1), E2 as (ops2 & L2 & F2). split.
        * exists (ops1 ++ ops2). split; [eapply linked_trans; [exact L1|]; eapply linked_le; eauto|].
          eapply effects_app; eauto. intros y. unfold below. split.
          -- intros (z & [->|Z] & Y); eauto.
          -- intros [Y|(z & Z & Y)]; [exists x|exists z]; split; auto; [now left|now right].
        * intros G AD. apply A2; [|apply A1]; intros y Y; apply G.
          -- destruct Y as (z & Z & Y). exists z. split; [now right|exact Y].
          -- exists x. split; [now left|exact Y].
  Qed.

  Lemma flag_run dm f w w' x : model_flag dm f w = (w', Ok x) -> w' = w /\ x = match dm with None => false | Some r => match nth_error (w_heap w) r with Some o => has_flag (o_flags o) f | None => false end end.
  Proof.
    unfold model_flag. destruct dm as [r|]; unfold bind, hget, ret; [destruct (nth_error (w_heap w) r); [|discriminate]|]; intros H; injection H as <- <-; auto.
  Qed.
  Lemma all_deleted e : occurs e gs -> e_action e = Some ADelete -> gone (fun y => In y (elem_all e)).
  Proof.
    induction e as [e IH] using elem_ind'. intros O A y. rewrite elem_all_eq. intros [<-|H]; [exact A|].
    rewrite tree_all_children, in_flat_map in H. destruct H as (k & K & Y). 
    pose proof (occurs_kid gs e k O K) as OK. apply In_children in K as (t & g & n & K1 & K2).
    apply (IH t g n k); auto. apply (DW e); auto. apply In_children. eauto.
  Qed.

  Definition kids_of (e : elem) : list elem := ordered ord (fun x => x) (e_kids e).
  Lemma all_parts e y : In y (elem_all e) <-> y = e \/ below (kids_of e) y.
  Proof.
    rewrite elem_all_eq, tree_all_children. cbn [In]. rewrite in_flat_map. unfold below, kids_of.
    pose proof (ordered_perm ord (e_kids e) YO) as P. split.
    - intros [E|(x & X & Y)]; [left; congruence|right]. exists x. split; [eapply Permutation_in; [apply Permutation_sym; exact P|exact X]|exact Y].
    - intros [E|(x & X & Y)]; [left; congruence|right]. exists x. split; [eapply Permutation_in; [exact P|exact X]|exact Y].
  Qed.
  Lemma effects_one e p : e_action e = Some ACreate \/ e_action e = Some ADelete -> asks e p -> effects (fun y => y = e) [p].
  Proof.
    intros A H. split.
    - intros q [<-|[]]. exists e. auto.
    - intros x -> _. exists p. split; [now left|exact H].
  Qed.
  Lemma effects_own e ops : e_action e <> Some ACreate -> e_action e <> Some ADelete -> effects (below (kids_of e)) ops -> effects (fun y => In y (elem_all e)) ops.
  Proof.
    intros A B F. change ops with ([] ++ ops). eapply effects_app; [apply (effects_nil (fun y => y = e))|exact F|intros y; apply all_parts].
    intros x ->. auto.
  Qed.

  Lemma linked_redis_eq n w w' : linked n w [] w' -> w_redis w' = w_redis w.
  Proof. intros (_ & _ & A). inversion A. reflexivity. Qed.
  Lemma noted_heap w w' : noted w w' -> w_heap w' = w_heap w.
  Proof. intros [->|(ev & ->)]; reflexivity. Qed.
  Lemma incr_run s s' x : incr_elements_processed env s = (s', x) -> noted (ss_w s) (ss_w s') /\ ss_action s' = ss_action s /\ x = Ok tt.
  Proof.
    unfold incr_elements_processed. intros H. injection H as <- <-. cbn [ss_w ss_action]. split; [|auto].
    destruct (sv_cb env); [right; eexists; reflexivity|now left].
  Qed.
  Lemma kids_after e r b n s s' x : (forall y, In y (kids_of e) -> runs_well y) -> inv (ss_w s) -> r < length (w_heap (ss_w s)) -> n <= length (w_heap (ss_w s)) ->
    bind (incr_elements_processed env) (fun _ => run_kids (map (sync_elem ord env) (kids_of e)) (Some r) b) s = (s', Ok x) ->
    (exists ops, linked n (ss_w s) ops (ss_w s') /\ effects (below (kids_of e)) ops) /\
    (gone (below (kids_of e)) -> ss_action s = Some ADelete -> ss_action s' = Some ADelete).
  Proof.
    intros KW IV LR LN. unfold bind at 1. destruct (incr_elements_processed env s) as [s1 y] eqn:E. apply incr_run in E as (NT & AC & ->).
    assert (L1 := noted_linked n _ _ IV NT). intros H. apply (kids_run (Some r) _ KW) in H as [(ops & L2 & F) G].
    - split; [|now rewrite <- AC]. exists ops. split; [|exact F]. eapply linked_then; [exact L1|]. eapply linked_le; [|exact L2]. now rewrite (noted_heap _ _ NT).
    - apply L1.
    - intros p E. injection E as <-. now rewrite (noted_heap _ _ NT).
  Qed.

  Lemma elem_run e : occurs e gs -> runs_well e.
  Proof.
    induction e as [e IH] using elem_ind'. intros OC parent s IV PP s' x. rewrite sync_elem_eq, ordered_map. fold (kids_of e).
    assert (KW : forall y, In y (kids_of e) -> runs_well y).
    { intros y Y. apply ordered_sub in Y. assert (OY := occurs_kid gs e y OC Y). apply In_children in Y as (t & g & n & Y1 & Y2). eapply IH; eauto. }
    clear IH. destruct s as [w cnt act cl ctx]. cbn [ss_w] in *.
    unfold sync_body. unfold bind at 1. unfold slift at 1. unfold get_adapter. cbn [ss_w]. rewrite ED, (in_ad _ IV). cbn [fst snd].
    unfold bind at 1. unfold lift at 1. destruct (dget (ad_classes da) (e_type e)) as [c|] eqn:C; [|discriminate].
    unfold bind at 1. unfold modify at 1. unfold bind at 1. unfold lift at 1. destruct (create_unique_id c (e_keys e)) as [u|] eqn:U; [|discriminate].
    unfold bind at 1. unfold modify at 1. cbv zeta. cbn [set_ss_w ss_w ss_n ss_action ss_class ss_ctx]. change (match ad_plus (e_attrs_diffs e) with Some p => p | None => [] end) with (plus_attrs e).
    unfold bind at 1. unfold slift at 1. cbn [ss_w]. pose proof (ro_get_or_none (sv_src env) (MClass c) (IdDict (e_keys e)) w) as RO.
    destruct (ad_get_or_none (sv_src env) (MClass c) (IdDict (e_keys e)) w) as [w1 [so|]]; cbn [fst snd] in *; [|discriminate].
    set (n := length (w_heap w)). assert (L1 : linked n w [] w1) by now apply linked_ro.
    assert (NM : names w0 dst e (e_type e, u)) by now apply (names_is e c).
    set (dm := match on_server w1 i (e_type e) u with Some _ => Some (length (w_heap w1)) | None => None end).
    set (w2 := match on_server w1 i (e_type e) u with Some o => set_heap w1 (w_heap w1 ++ [set_status (set_o_adapter o (Some dst)) StUnknown ""]) | None => w1 end).
    assert (DR : get_dst_model env c (e_keys e) w1 = (w2, Ok dm)).
    { rewrite (dst_run w1 (e_type e) c (e_keys e) u (proj1 L1) C U). unfold dm, w2. now destruct (on_server w1 i (e_type e) u). }
    unfold bind at 1. unfold slift at 1. cbn [set_ss_w ss_w]. rewrite DR. cbn [fst snd].
    assert (L2 : linked n w [] w2 /\ (dm = None -> on_server w2 i (e_type e) u = None) /\
      forall r, dm = Some r -> n <= r < length (w_heap w2) /\ on_server w2 i (e_type e) u <> None /\
        exists o, nth_error (w_heap w2) r = Some o /\ get_type o = e_type e /\ get_unique_id o = Ok u /\ has_flag (o_flags o) MF_SKIP_CHILDREN_ON_DELETE = false).
    { assert (LN := proj1 (proj1 (proj2 L1))). unfold dm, w2. destruct (on_server w1 i (e_type e) u) as [o|] eqn:OS.
      - destruct (in_filed _ (proj1 L1) _ _ _ _ C OS) as (F1 & F2 & F3). split; [|split; [discriminate|]].
        + eapply linked_then; [exact L1|]. apply linked_heap; [apply L1|reflexivity|reflexivity|]. eapply steady_app. reflexivity.
        + intros r E. injection E as <-. cbn [w_heap set_heap]. rewrite app_length. cbn [length]. split; [lia|]. split; [unfold on_server in *; cbn [w_redis set_heap]; congruence|].
          eexists. split; [rewrite nth_error_app2, Nat.sub_diag by auto; reflexivity|].
          split; [exact F1|]. split; [exact F2|]. cbn [o_flags set_status set_o_adapter]. rewrite skip_bit1. unfold skips_children in F3. now destruct (N.testbit (o_flags o) 1).
      - split; [exact L1|]. split; [auto|]. discriminate. }
    clearbody dm w2. clear DR RO so. destruct L2 as (L2 & DN & DS). clear L1.
    unfold bind at 1. unfold slift at 1. cbn [set_ss_w ss_w].
    destruct (model_flag dm MF_NATURAL_DELETION_ORDER w2) as [w3 [nat_|]] eqn:MF1; cbn [fst snd]; [|discriminate].
    apply flag_run in MF1 as [-> _]. unfold bind at 1. unfold slift at 1. cbn [set_ss_w ss_w].
    destruct (model_flag dm MF_SKIP_CHILDREN_ON_DELETE w2) as [w3 [sk|]] eqn:MF2; cbn [fst snd]; [|discriminate].
    apply flag_run in MF2 as [-> SK].
    assert (sk = false) as ->.
    { rewrite SK. destruct dm as [r|]; [|reflexivity]. destruct (DS r eq_refl) as (_ & _ & o & -> & _ & _ & F). exact F. }
    clear SK. unfold bind at 1. unfold get_state at 1. unfold set_ss_w. cbn [ss_w ss_n ss_action ss_class ss_ctx]. set (s2 := mkSS w2 _ _ _ _). fold set_ss_w.
    destruct (e_action e) as [[]|] eqn:EA.
    - (* create *)
      rewrite andb_false_r. cbn [andb]. unfold bind at 1. unfold ret at 1. unfold bind at 1. cbv beta iota.
      match goal with |- (let (_, _) := ?m in _) = _ -> _ => destruct m as [s3 [cm|]] eqn:SM end; [|discriminate].
      apply (model_ok dm _ _ _ ACreate) in SM as (s4 & m & sm & TR & NT & AC & ->); [|reflexivity].
      apply try_ok in TR as (AC4 & w4 & -> & TR). cbn [s2 ss_action ss_class ss_w] in TR, AC4. destruct TR as (-> & c' & E & CR). injection E as <-.
      destruct (create_run n _ _ _ _ _ _ (proj1 L2) CR) as (L4 & -> & o & o1 & CB & HP & SB).
      cbn [fst snd]. unfold bind at 1. cbn [get_state]. unfold bind at 1. unfold slift at 1. rewrite AC, AC4.
      assert (L5 := linked_then _ _ _ _ _ L4 (noted_linked n _ _ (proj1 L4) NT)).
      assert (LW := proj1 (proj1 (proj2 L2))).
      destruct (apply_to_store env (Some ACreate) parent (length (w_heap w2)) false (ss_w s3)) as [w5 [b|]] eqn:AP; cbn [fst snd]; [|discriminate].
      destruct (apply_create n (ss_w s3) e c u parent (length (w_heap w2)) o o1 false w5 b (proj1 L5) C U EA CB SB) as (-> & o' & AK & L6).
      + rewrite (noted_heap _ _ NT), HP, nth_error_app2, Nat.sub_diag by auto. reflexivity.
      + intros p E. specialize (PP p E). intros ->. lia.
      + unfold on_server. rewrite (linked_redis_eq _ _ _ L5). now apply DN.
      + exact AP.
      + cbn [negb is_delete]. rewrite orb_true_r. intros H.
        assert (LL : length (w_heap w2) < length (w_heap w5)).
        { pose proof (proj1 (proj1 (proj2 L6))) as Q. rewrite (noted_heap _ _ NT), HP, app_length in Q. cbn [length] in Q. lia. }
        apply (kids_after e _ _ n) in H as [(ops & L7 & F) _]; [|exact KW|apply L6|exact LL|cbn [set_ss_w ss_w]; lia].
        split; [|intros G; exfalso; assert (X : In e (elem_all e)) by (apply all_parts; now left); specialize (G e X); congruence].
        exists ([OSet (e_type e, u) o'] ++ ops). split.
        * cbn [ss_w]. eapply linked_then; [exact L2|]. eapply linked_then; [exact L5|]. eapply linked_trans; [exact L6|exact L7].
        * eapply effects_app; [apply (effects_one e); [now left|exact AK]|exact F|intros y; apply all_parts].
    - (* update *)
      rewrite andb_false_r. cbn [andb]. unfold bind at 1. unfold ret at 1. unfold bind at 1. cbv beta iota.
      match goal with |- (let (_, _) := ?m in _) = _ -> _ => destruct m as [s3 [cm|]] eqn:SM end; [|discriminate].
      apply (model_ok dm _ _ _ AUpdate) in SM as (s4 & m & sm & TR & NT & AC & ->); [|reflexivity].
      apply try_ok in TR as (AC4 & w4 & -> & TR). cbn [s2 ss_action ss_class ss_w] in TR, AC4. destruct TR as (r & -> & CR).
      destruct (DS r eq_refl) as (LR & _ & _).
      destruct (update_run n _ _ _ _ _ (proj1 L2) (proj1 LR) CR) as (L4 & ->).
      cbn [fst snd]. unfold bind at 1. cbn [get_state]. unfold bind at 1. unfold slift at 1. rewrite AC, AC4.
      assert (L5 := linked_then _ _ _ _ _ L4 (noted_linked n _ _ (proj1 L4) NT)).
      assert (LW := proj1 (proj1 (proj2 L2))). assert (LW5 := proj1 (proj1 (proj2 L5))).
      cbn [apply_to_store ret fst snd negb is_delete]. rewrite orb_true_r. intros H.
      apply (kids_after e _ _ n) in H as [(ops & L7 & F) _]; [|exact KW|apply L5|cbn [set_ss_w ss_w]; lia|cbn [set_ss_w ss_w]; lia].
      split; [|intros G; exfalso; assert (X : In e (elem_all e)) by (apply all_parts; now left); specialize (G e X); congruence].
      exists ops. split; [cbn [ss_w]; eapply linked_then; [exact L2|]; eapply linked_then; [exact L5|exact L7]|].
      apply effects_own; [congruence|congruence|exact F].
    - (* delete *)
      assert (AD := all_deleted e OC EA). assert (BD : gone (below (kids_of e))) by (intros y Y; apply AD, all_parts; now right).
      cbn [is_delete]. rewrite andb_true_r. cbn [negb]. rewrite andb_true_r.
      destruct dm as [r|]; [|].
      2:{ (* nothing to delete *)
        destruct nat_.
        + unfold bind at 1. cbv beta iota. match goal with |- (let (_, _) := ?m in _) = _ -> _ => destruct m as [s3 [b1|]] eqn:RK end; [|discriminate].
          apply (kids_run None _ KW) in RK as [_ AC]; [|exact (proj1 L2)|discriminate]. specialize (AC BD eq_refl).
          unfold bind at 1. cbv beta iota. match goal with |- (let (_, _) := ?m in _) = _ -> _ => destruct m as [s4 [cm|]] eqn:SM end; [|discriminate].
          apply (model_ok None _ _ _ ADelete) in SM as (s5 & m & sm & TR & _); [|exact AC]. apply try_ok in TR as (_ & w4 & -> & TR). rewrite AC in TR. destruct TR as (r & E & _). discriminate.
        + unfold bind at 1. unfold ret at 1. unfold bind at 1. cbv beta iota. match goal with |- (let (_, _) := ?m in _) = _ -> _ => destruct m as [s4 [cm|]] eqn:SM end; [|discriminate].
          apply (model_ok None _ _ _ ADelete) in SM as (s5 & m & sm & TR & _); [|reflexivity]. apply try_ok in TR as (_ & w4 & -> & TR). cbn [s2 ss_action] in TR. destruct TR as (r & E & _). discriminate. }
      destruct (DS r eq_refl) as (LR & _ & o & RO & TY & GU & _).
      assert (LW := proj1 (proj1 (proj2 L2))).
      (* the object while its children are deleted *)
      assert (OBJ : forall m w' ops, length (w_heap w2) <= m -> linked m w2 ops w' -> exists o', nth_error (w_heap w') r = Some o' /\ get_type o' = e_type e /\ get_unique_id o' = Ok u).
      { intros m w' ops LM (_ & (_ & ST) & _). destruct (ST r o) as (o' & H & A1 & A2 & _); [lia|exact RO|].
        destruct (uid_same o o' A1 A2) as [V1 V2]. exists o'. split; [exact H|]. split; congruence. }
      destruct nat_.
      + unfold bind at 1. cbv beta iota. match goal with |- (let (_, _) := ?m in _) = _ -> _ => destruct m as [s3 [b1|]] eqn:RK end; [|discriminate].
        apply (kids_run (Some r) _ KW) in RK as [(ops & L3 & F) AC]; [|exact (proj1 L2)|intros p E; injection E as <-; cbn [s2 ss_w]; lia]. specialize (AC BD eq_refl).
        cbn [s2 ss_w] in L3. unfold bind at 1. cbv beta iota. match goal with |- (let (_, _) := ?m in _) = _ -> _ => destruct m as [s4 [cm|]] eqn:SM end; [|discriminate].
        apply (model_ok _ _ _ _ ADelete) in SM as (s5 & m & sm & TR & NT & AC4 & ->); [|exact AC].
        apply try_ok in TR as (AC5 & w4 & -> & TR). rewrite AC in TR, AC5. destruct TR as (r' & E & CR). injection E as <-.
        destruct (delete_run (length (w_heap w2)) _ _ _ _ (proj1 L3) CR) as (L4 & ->).
        assert (L5 := linked_then _ _ _ _ _ L4 (noted_linked (length (w_heap w2)) _ _ (proj1 L4) NT)).
        assert (L6 := linked_still _ _ _ _ _ L3 L5). destruct (OBJ _ _ _ (le_n _) L6) as (o' & R' & TY' & GU').
        cbn [fst snd]. unfold bind at 1. cbn [get_state]. unfold bind at 1. unfold slift at 1. rewrite AC4, AC5.
        destruct (apply_to_store env (Some ADelete) parent r false (ss_w s4)) as [w5 [b|]] eqn:AP; cbn [fst snd]; [|discriminate].
        destruct (apply_delete n _ e c u parent r o' w5 b (proj1 L6) C U OC EA R' TY' GU' AP) as (-> & AK & L7).
        unfold bind at 1. match goal with |- context [incr_elements_processed env ?z] => destruct (incr_elements_processed env z) as [s6 y] eqn:IN end.
        apply incr_run in IN as (NT6 & AC6 & ->). cbn [negb is_delete orb]. unfold ret. intros H. injection H as <- _.
        cbn [set_ss_w ss_w ss_action] in NT6, AC6. split; [|intros _; congruence].
        exists (ops ++ [ODel (e_type e, u)]). split.
        * cbn [ss_w]. eapply linked_then; [exact L2|]. eapply linked_trans; [eapply linked_le; [|exact L6]; lia|].
          eapply linked_still; [exact L7|]. apply noted_linked; [apply L7|exact NT6].
        * eapply effects_app; [exact F|apply (effects_one e); [now right|exact AK]|]. intros y. rewrite all_parts. tauto.
      + unfold bind at 1. unfold ret at 1. unfold bind at 1. cbv beta iota.
        match goal with |- (let (_, _) := ?m in _) = _ -> _ => destruct m as [s4 [cm|]] eqn:SM end; [|discriminate].
        apply (model_ok _ _ _ _ ADelete) in SM as (s5 & m & sm & TR & NT & AC4 & ->); [|reflexivity].
        apply try_ok in TR as (AC5 & w4 & -> & TR). cbn [s2 ss_action ss_w] in TR, AC5. destruct TR as (r' & E & CR). injection E as <-.
        destruct (delete_run (length (w_heap w2)) _ _ _ _ (proj1 L2) CR) as (L4 & ->).
        assert (L6 := linked_then _ _ _ _ _ L4 (noted_linked (length (w_heap w2)) _ _ (proj1 L4) NT)).
        destruct (OBJ _ _ _ (le_n _) L6) as (o' & R' & TY' & GU').
        cbn [fst snd]. unfold bind at 1. cbn [get_state]. unfold bind at 1. unfold slift at 1. rewrite AC4, AC5.
        destruct (apply_to_store env (Some ADelete) parent r false (ss_w s4)) as [w5 [b|]] eqn:AP; cbn [fst snd]; [|discriminate].
        destruct (apply_delete n _ e c u parent r o' w5 b (proj1 L6) C U OC EA R' TY' GU' AP) as (-> & AK & L7).
        cbn [negb orb]. intros H.
        assert (LW6 := proj1 (proj1 (proj2 L6))). assert (LW7 := proj1 (proj1 (proj2 L7))).
        apply (kids_after e _ _ n) in H as [(ops & L8 & F) AC]; [|exact KW|apply L7|cbn [set_ss_w ss_w]; lia|cbn [set_ss_w ss_w]; lia].
        split; [|intros _; apply AC; [exact BD|]; cbn [set_ss_w ss_action]; congruence].
        exists ([ODel (e_type e, u)] ++ ops). split.
        * cbn [ss_w]. eapply linked_then; [exact L2|]. eapply linked_then; [eapply linked_le; [|exact L6]; lia|]. eapply linked_trans; [exact L7|exact L8].
        * eapply effects_app; [apply (effects_one e); [now right|exact AK]|exact F|intros y; apply all_parts].
    - (* no change *)
      rewrite andb_false_r. cbn [andb]. unfold bind at 1. unfold ret at 1. unfold bind at 1. cbv beta iota.
      match goal with |- (let (_, _) := ?m in _) = _ -> _ => destruct m as [s3 [cm|]] eqn:SM end; [|discriminate].
      apply none_ok in SM as (NT & AC & ->); [|reflexivity]. cbn [fst snd].
      destruct dm as [r|].
      + destruct (DS r eq_refl) as (LR & _ & _). unfold bind at 1. cbn [get_state]. unfold bind at 1. unfold slift at 1. rewrite AC.
        cbn [apply_to_store ret fst snd negb is_delete]. rewrite orb_true_r. intros H.
        assert (L5 := noted_linked n _ _ (proj1 L2) NT). assert (LW := proj1 (proj1 (proj2 L2))). assert (LW5 := proj1 (proj1 (proj2 L5))).
        cbn [s2 ss_w] in L5, LW5.
        apply (kids_after e _ _ n) in H as [(ops & L7 & F) _]; [|exact KW|apply L5|cbn [set_ss_w ss_w]; lia|cbn [set_ss_w ss_w]; lia].
        split; [|intros G; exfalso; assert (X : In e (elem_all e)) by (apply all_parts; now left); specialize (G e X); congruence].
        exists ops. split; [cbn [ss_w]; eapply linked_then; [exact L2|]; eapply linked_then; [exact L5|exact L7]|].
        apply effects_own; [congruence|congruence|exact F].
      + exfalso. destruct (US e (e_type e, u) OC EA NM) as [S1 S2].
        assert (KN : known (e_type e, u)) by (exists c; exact C).
        apply (in_stay _ (proj1 L2) _ KN S1 S2). now apply DN.
  Qed.

  (** ** Entry by entry *)
  Lemma applied_other r ops r' K : applied r ops r' -> (forall p, In p ops -> K <> key (op_key p)) -> dget r' K = dget r K.
  Proof.
    induction 1 as [r|r k o ops r' N _ IH|r k ops r' N _ IH]; intros H; [reflexivity| |]; rewrite IH by (intros p P; apply H; now right).
    - rewrite dget_dset_neq; [reflexivity|]. intros E. apply (H (OSet k o)); [now left|]. now symmetry.
    - rewrite dget_ddel_neq; [reflexivity|]. intros E. apply (H (ODel k)); [now left|]. now symmetry.
  Qed.
  Definition all_known (ops : list op) : Prop := forall p, In p ops -> known (op_key p).
  Lemma applied_created r ops r' k : applied r ops r' -> all_known ops -> known k -> (forall p, In p ops -> op_key p = k -> exists o, p = OSet k o) ->
    (exists o, In (OSet k o) ops) -> dget r (key k) = None /\ exists o, In (OSet k o) ops /\ dget r' (key k) = Some o.
  Proof.
    intros A AK KN ON EX. revert EX.
    assert (Z : (dget r (key k) <> None -> forall p, In p ops -> op_key p <> k) /\
                ((exists o, In (OSet k o) ops) -> dget r (key k) = None /\ exists o, In (OSet k o) ops /\ dget r' (key k) = Some o)).
    2: apply Z.
    induction A as [r|r k1 o1 ops r' N A IH|r k1 ops r' N A IH].
    - split; [intros _ p []|]. intros (o & []).
    - assert (KN1 : known k1) by (apply (AK (OSet k1 o1)); now left).
      destruct IH as [IH1 IH2]; [intros p P; apply AK; now right|intros p P; apply ON; now right|].
      destruct (string_dec (key k1) (key k)) as [E|NE].
      + apply (key_eq k1 k KN1 KN) in E. subst k1. split; [intros H; contradiction|]. intros _. split; [exact N|].
        exists o1. split; [now left|]. rewrite (applied_other _ _ _ (key k) A); [apply dget_dset_eq|].
        intros p P E. assert (PK : known (op_key p)) by (apply AK; now right). apply (key_eq k (op_key p) KN PK) in E.
        apply (IH1) in P; [congruence|]. rewrite dget_dset_eq. discriminate.
      + rewrite dget_dset_neq in IH1, IH2 by exact NE. split.
        * intros H p [<-|P]; [intros E; apply NE; cbn [op_key] in E; congruence|now apply IH1].
        * intros (o & [E|P]); [injection E; intros; subst; contradiction|]. destruct IH2 as (H1 & o' & H2 & H3); [eauto|].
          split; [exact H1|]. exists o'. split; [now right|exact H3].
    - assert (KN1 : known k1) by (apply (AK (ODel k1)); now left).
      destruct IH as [IH1 IH2]; [intros p P; apply AK; now right|intros p P; apply ON; now right|].
      destruct (string_dec (key k1) (key k)) as [E|NE].
      + apply (key_eq k1 k KN1 KN) in E. subst k1. exfalso. destruct (ON (ODel k)) as (o & X); [now left|reflexivity|discriminate].
      + rewrite dget_ddel_neq in IH1, IH2 by exact NE. split.
        * intros H p [<-|P]; [intros E; apply NE; cbn [op_key] in E; congruence|now apply IH1].
        * intros (o & [E|P]); [discriminate|]. destruct IH2 as (H1 & o' & H2 & H3); [eauto|].
          split; [exact H1|]. exists o'. split; [now right|exact H3].
  Qed.
  Lemma applied_deleted r ops r' k : applied r ops r' -> NoDup (dkeys r) -> all_known ops -> known k -> (forall p, In p ops -> op_key p = k -> p = ODel k) ->
    In (ODel k) ops -> dget r (key k) <> None /\ dget r' (key k) = None.
  Proof.
    intros A ND AK KN ON. revert ND. 
    assert (Z : NoDup (dkeys r) -> (dget r (key k) = None -> forall p, In p ops -> op_key p <> k) /\
                (In (ODel k) ops -> dget r (key k) <> None /\ dget r' (key k) = None)).
    2: intros ND; apply (Z ND).
    induction A as [r|r k1 o1 ops r' N A IH|r k1 ops r' N A IH]; intros ND.
    - split; [intros _ p []|intros []].
    - assert (KN1 : known k1) by (apply (AK (OSet k1 o1)); now left).
      destruct IH as [IH1 IH2]; [intros p P; apply AK; now right|intros p P; apply ON; now right|now apply NoDup_dset|].
      destruct (string_dec (key k1) (key k)) as [E|NE].
      + apply (key_eq k1 k KN1 KN) in E. subst k1. specialize (ON (OSet k o1) (or_introl eq_refl) eq_refl). discriminate.
      + rewrite dget_dset_neq in IH1, IH2 by exact NE. split.
        * intros H p [<-|P]; [intros E; apply NE; cbn [op_key] in E; congruence|now apply IH1].
        * intros [E|P]; [discriminate|]. now apply IH2.
    - assert (KN1 : known k1) by (apply (AK (ODel k1)); now left).
      destruct IH as [IH1 IH2]; [intros p P; apply AK; now right|intros p P; apply ON; now right|now apply NoDup_ddel|].
      destruct (string_dec (key k1) (key k)) as [E|NE].
      + apply (key_eq k1 k KN1 KN) in E. subst k1. rewrite dget_ddel_eq in IH1 by exact ND. split; [intros H; contradiction|]. intros _. split; [exact N|].
        rewrite (applied_other _ _ _ (key k) A); [apply dget_ddel_eq; exact ND|].
        intros p P E. assert (PK : known (op_key p)) by (apply AK; now right). apply (key_eq k (op_key p) KN PK) in E.
        apply (IH1 eq_refl) in P. congruence.
      + rewrite dget_ddel_neq in IH1, IH2 by exact NE. split.
        * intros H p [<-|P]; [intros E; apply NE; cbn [op_key] in E; congruence|now apply IH1].
        * intros [E|P]; [injection E; intros; subst; contradiction|]. now apply IH2.
  Qed.

  Lemma names_known x k : names w0 dst x k -> known k.
  Proof.
    intros (ad & c & A & B & E & _). rewrite (sd_ad _ _ _ _ SD) in A. injection A as <-. exists c. rewrite E.
    now rewrite (proj1 (sd_class _ _ _ _ SD _ _ B)).
  Qed.
  Lemma names_eq x k k' : names w0 dst x k -> names w0 dst x k' -> k = k'.
  Proof.
    intros (ad & c & A & B & E & F) (ad' & c' & A' & B' & E' & F'). assert (ad' = ad) by congruence. subst. assert (c' = c) by congruence. subst.
    destruct k, k'; cbn [fst snd] in *. congruence.
  Qed.
  Hypothesis NMV : no_moves w0 dst gs.
  Lemma run_left w' ops : linked (length (w_heap w0)) w0 ops w' -> effects (fun x => occurs x gs) ops -> server_left WX w0 dst da i gs w'.
  Proof.
    intros (IV & _ & A) [F1 F2].
    assert (AK : all_known ops) by (intros p P; destruct (F1 p P) as (x & _ & N & _); eapply names_known; exact N).
    assert (OS : forall k o, In (OSet k o) ops -> mentioned w0 dst gs is_create_act k).
    { intros k o P. destruct (F1 _ P) as (x & O & N & E & _). exists x. split; [exact O|]. split; [exact E|exact N]. }
    assert (OD : forall k, In (ODel k) ops -> mentioned w0 dst gs is_delete_act k).
    { intros k P. destruct (F1 _ P) as (x & O & N & E). exists x. split; [exact O|]. split; [exact E|exact N]. }
    constructor.
    - intros t u M. assert (M0 := M). destruct M as (x & O & E & N). assert (KN := names_known _ _ N).
      destruct (F2 x O (or_introl E)) as (p & P & PA). assert (p0 := PA). destruct p0 as [PN PE].
      destruct p as [k o|k]; [|congruence]. cbn [op_key] in PN. rewrite (names_eq _ _ _ PN N) in *.
      destruct (applied_created _ _ _ (t, u) A AK KN) as (H1 & o' & H2 & H3).
      + intros [k1 o1|k1] P1 E1; cbn [op_key] in E1; subst k1; [eauto|]. exfalso. exact (NMV _ M0 (OD _ P1)).
      + eauto.
      + split; [exact H1|]. destruct (F1 _ H2) as (y & Oy & Ny & Ey & c & C & B & CL & AD). exists y, c, o'. split; [exact Oy|]. split; [exact Ey|]. split; [exact Ny|]. split; [exact C|]. split; [exact H3|]. auto.
    - intros t u M. assert (M0 := M). destruct M as (x & O & E & N). assert (KN := names_known _ _ N).
      destruct (F2 x O (or_intror E)) as (p & P & PA). assert (p0 := PA). destruct p0 as [PN PE].
      destruct p as [k o|k]; [destruct PE; congruence|]. cbn [op_key] in PN. rewrite (names_eq _ _ _ PN N) in *.
      apply (applied_deleted _ _ _ (t, u) A (sd_once _ _ _ _ SD) AK KN); [|exact P].
      intros [k1 o1|k1] P1 E1; cbn [op_key] in E1; subst k1; [|reflexivity]. exfalso. exact (NMV _ (OS _ _ P1) M0).
    - intros K H. apply (applied_other _ _ _ K A). intros [[t u] o|[t u]] P; apply H; [left; eapply OS; exact P|right; now apply OD].
  Qed.
  Lemma perform_left d s b : ord = dc_order (d_class d) -> gs = d_groups d ->
    perform_sync env d (mkSS w0 0 None None None) = (s, Ok b) -> server_left WX w0 dst da i gs (ss_w s).
  Proof.
    intros EO EG. unfold perform_sync. rewrite <- EO, <- EG, ordered_map. intros H.
    apply (kids_run None) in H as [(ops & L & F) _]; [| |exact inv_start|discriminate].
    - cbn [ss_w] in L. apply (run_left _ ops L). eapply effects_ext; [|exact F]. intros y. rewrite occurs_children. unfold below.
      pose proof (ordered_perm ord gs YO) as P. split; intros (x & X & Y); exists x; (split; [|exact Y]).
      + eapply Permutation_in; [exact P|exact X].
      + eapply Permutation_in; [apply Permutation_sym; exact P|exact X].
    - intros x X. apply elem_run. apply ordered_sub in X. apply In_children in X as (t & g & n & X1 & X2). eapply occ_here; eauto.
  Qed.
End Run.

(** ** The whole synchronisation *)
Section Whole.
  Variables (w w1 : world) (dst : aid) (da : adapter) (i : string).
  Hypothesis RO : read_only w w1.
  Lemma ro_server : server_dst w dst da i -> server_dst w1 dst da i.
  Proof.
    intros SD. assert (R := RO). destruct R as (_ & E2 & _). destruct (read_only_ad _ _ _ _ RO (sd_ad _ _ _ _ SD)) as (s & H & X).
    rewrite (sd_store _ _ _ _ SD) in X. destruct s as [|j]; [destruct X|]. cbn in X. subst j. pose proof (sd_store _ _ _ _ SD) as Y.
    assert (set_ad_store da (SRedis i) = da) as Z by (destruct da; cbn in *; now subst). rewrite Z in H.
    destruct SD. constructor; auto; [now rewrite E2|]. unfold on_server in *. rewrite E2. auto.
  Qed.
  Lemma ro_unchanged_server gs : unchanged_on_server w dst i gs -> unchanged_on_server w1 dst i gs.
  Proof.
    intros H e k O A N. rewrite (ro_names w w1 dst RO) in N. destruct (H e k O A N) as [H1 H2]. unfold on_server in *.
    rewrite (proj1 (proj2 RO)). split; [exact H1|]. now rewrite (ro_mentioned w w1 dst RO).
  Qed.
  Lemma ro_left X gs w' : server_left X w1 dst da i gs w' -> server_left X w dst da i gs w'.
  Proof.
    assert (E2 := proj1 (proj2 RO)). intros [A B C]. unfold on_server in *. rewrite E2 in *. constructor; unfold on_server in *.
    - intros t u M. apply (ro_mentioned w w1 dst RO) in M. destruct (A t u M) as (H & e & c & o & X1 & X2 & X3 & X4). split; [exact H|].
      exists e, c, o. rewrite <- (ro_names w w1 dst RO). auto.
    - intros t u M. apply (ro_mentioned w w1 dst RO) in M. now apply B.
    - intros k H. apply C. intros t u M. rewrite !(ro_mentioned w w1 dst RO) in M. now apply H.
  Qed.
End Whole.

Lemma left_same X w dst da i gs w1 w2 : server_left X w dst da i gs w1 -> w_redis w2 = w_redis w1 -> server_left X w dst da i gs w2.
Proof. intros [A B C] E. unfold on_server in *. constructor; unfold on_server in *; rewrite E; auto. Qed.
Lemma sync_left fuel h dst src dc flags cb given w da i d WX :
  server_dst w dst da i -> hooks_succeed h -> hooks_write WX h -> N.testbit flags 0 = false ->
  snd (sync_from fuel h dst src dc flags cb given w) = Ok d ->
  yields_once (dc_order (d_class d)) -> deletes_whole (d_groups d) -> no_moves w dst (d_groups d) -> unchanged_on_server w dst i (d_groups d) ->
  server_left WX w dst da i (d_groups d) (fst (sync_from fuel h dst src dc flags cb given w)).
Proof.
  intros SD HK HW FL. destruct (sync_from_split fuel h dst src dc flags cb given w) as [(_ & _ & (e & ->) & _)|(d1 & wd & _ & _ & RO & _ & ->)]; [discriminate|].
  unfold run_sync. unfold bind at 1. set (env := mkSEnv src dst flags (diff_len d1) cb h fuel).
  destruct (perform_sync env d1 (mkSS wd 0 None None None)) as [s [b|]] eqn:P; cbn [fst snd]; [|unfold bind; discriminate].
  unfold bind at 1.
  intros R YO DW NM US. assert (d1 = d) as ->.
  { destruct b; cbn in R; congruence. }
  apply (ro_left w wd dst da i RO).
  assert (L : server_left WX wd dst da i (d_groups d) (ss_w s)).
  { apply (perform_left wd dst da i env (dc_order (d_class d)) (d_groups d)) with (WX := WX) (d := d) (b := b); auto.
    - now apply (ro_server w wd).
    - now apply (ro_unchanged_server w wd).
    - intros k. rewrite !(ro_mentioned w wd dst RO). apply NM. }
  eapply left_same; [exact L|]. unfold bind. rewrite P. now destruct b.
Qed.
