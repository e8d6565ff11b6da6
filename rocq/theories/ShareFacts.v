(** * ShareFacts: the construction of adapters and the stores they share. *)
From Verif Require Export ShareSpec StoreFacts.

Lemma nth_list_set {A} (l : list A) n y m : nth_error (list_set l n y) m = if Nat.eqb m n then match nth_error l n with Some _ => Some y | None => None end else nth_error l m.
Proof.
  revert n m. induction l as [|z l IH]; intros n m; [destruct n, m; cbn; try reflexivity; now destruct (Nat.eqb m n)|]. destruct n as [|n], m as [|m]; cbn; try reflexivity. apply IH.
Qed.
Lemma list_set_len {A} (l : list A) n y : length (list_set l n y) = length l.
Proof. revert n. induction l as [|z l IH]; intros [|n]; cbn; auto. Qed.
Lemma nth_same_list {A} (l m : list A) : (forall n, nth_error l n = nth_error m n) -> l = m.
Proof.
  revert m. induction l as [|x l IH]; intros [|y m] H; [reflexivity|pose proof (H 0); discriminate|pose proof (H 0); discriminate|].
  pose proof (H 0) as E. injection E as ->. f_equal. apply IH. intros n. exact (H (S n)).
Qed.

(** ** What calls leave alone *)
(** the adapters, and everything about stores other than [s] but the data of [s] *)
Definition frame (s : nat) (x x' : shop) : Prop :=
  sh_ads x' = sh_ads x /\ (forall n, n <> s -> nth_error (sh_stores x') n = nth_error (sh_stores x) n) /\
  option_map ls_owner (nth_error (sh_stores x') s) = option_map ls_owner (nth_error (sh_stores x) s).
Lemma frame_refl s x : frame s x x.
Proof. repeat split; auto. Qed.
Lemma frame_trans s x y z : frame s x y -> frame s y z -> frame s x z.
Proof. intros (A1 & A2 & A3) (B1 & B2 & B3). split; [congruence|]. split; [|congruence]. intros n N. now rewrite B2, A2. Qed.
Definition stays {A} (s : nat) (m : M shop A) : Prop := forall x, frame s x (fst (m x)).
Lemma stays_ret {A} s (y : A) : stays s (ret y).
Proof. intros x. apply frame_refl. Qed.
Lemma stays_raise {A} s e : stays s (@raise shop A e).
Proof. intros x. apply frame_refl. Qed.
Lemma stays_lift {A} s (r : result A) : stays s (lift r).
Proof. intros x. apply frame_refl. Qed.
Lemma stays_state s : stays s get_state.
Proof. intros x. apply frame_refl. Qed.
Lemma stays_bind {A B} s (m : M shop A) (k : A -> M shop B) : stays s m -> (forall y, stays s (k y)) -> stays s (bind m k).
Proof.
  intros H K x. unfold bind. pose proof (H x) as F. destruct (m x) as [x1 [y|e]]; cbn [fst] in *; [|exact F]. eapply frame_trans; [exact F|apply K].
Qed.
Lemma stays_catch {A} s (m : M shop A) p h : stays s m -> (forall e, stays s (h e)) -> stays s (try_catch m p h).
Proof.
  intros H K x. unfold try_catch. pose proof (H x) as F. destruct (m x) as [x1 [y|e]]; cbn [fst] in *; [exact F|]. destruct (p e); [|exact F]. eapply frame_trans; [exact F|apply K].
Qed.
Lemma stays_forM {A} s (l : list A) f : (forall y, stays s (f y)) -> stays s (forM l f).
Proof. intros H. induction l as [|y l IH]; [apply stays_ret|]. apply stays_bind; auto. Qed.
Lemma stays_mapM {A B} s (l : list A) (f : A -> M shop B) : (forall y, stays s (f y)) -> stays s (mapM f l).
Proof. intros H. induction l as [|y l IH]; [apply stays_ret|]. apply stays_bind; [apply H|]. intros z. apply stays_bind; [exact IH|]. intros zs. apply stays_ret. Qed.
Lemma stays_put s d : stays s (sh_put s d).
Proof.
  intros x. unfold sh_put, modify. cbn [fst]. destruct (nth_error (sh_stores x) s) as [l|] eqn:E; [|apply frame_refl]. repeat split; cbn.
  - intros n N. rewrite nth_list_set. apply Nat.eqb_neq in N. now rewrite N.
  - rewrite nth_list_set, Nat.eqb_refl, E. reflexivity.
Qed.
Lemma stays_obj s r : stays s (sh_get_obj r).
Proof. intros x. unfold sh_get_obj. destruct (nth_error (sh_heap x) r); apply frame_refl. Qed.
Lemma stays_store s n : stays s (sh_store n).
Proof. intros x. unfold sh_store. destruct (nth_error (sh_stores x) n); apply frame_refl. Qed.
Lemma stays_set s r o : stays s (sh_set_obj r o).
Proof. intros x. repeat split; auto. Qed.
Lemma stays_alloc s o : stays s (sh_alloc o).
Proof. intros x. repeat split; auto. Qed.
Lemma stays_emit s e : stays s (sh_emit e).
Proof. intros x. repeat split; auto. Qed.
Create HintDb stays discriminated.
#[export] Hint Resolve stays_ret stays_raise stays_lift stays_state stays_put stays_obj stays_store stays_set stays_alloc stays_emit : stays.
Ltac stays := repeat first [apply stays_bind; [|intros ?]|apply stays_catch; [|intros ?]|apply stays_forM; intros ?|apply stays_mapM; intros ?|solve [auto with stays]
  |match goal with |- stays _ (match ?e with _ => _ end) => destruct e end|match goal with |- stays _ (if ?e then _ else _) => destruct e end|progress cbv zeta].
Lemma stays_get s m i : stays s (sh_get s m i).
Proof. unfold sh_get. stays. Qed.
Lemma stays_get_all s m : stays s (sh_get_all s m).
Proof. unfold sh_get_all. stays. Qed.
Lemma stays_by_uids s us m : stays s (sh_by_uids s us m).
Proof. unfold sh_by_uids. stays. Qed.
Lemma stays_count s : stays s (sh_count s).
Proof. unfold sh_count. stays. Qed.
Lemma stays_add s r : stays s (sh_add s r).
Proof. unfold sh_add. stays. Qed.
Lemma stays_update s r : stays s (sh_update s r).
Proof. unfold sh_update. stays. Qed.
Lemma stays_remove_item s t u : stays s (sh_remove_item s t u).
Proof. unfold sh_remove_item. stays. Qed.
Lemma stays_clear s r : stays s (sh_clear r).
Proof. unfold sh_clear. stays. Qed.
#[export] Hint Resolve stays_get stays_remove_item stays_clear : stays.
Lemma stays_remove n s : forall r ch, stays s (sh_remove n s r ch).
Proof. induction n as [|n IH]; intros r ch; cbn [sh_remove]; [apply stays_raise|]. pose proof IH as IH'. stays. Qed.

Lemma ask_frame a c x p : nth_error (sh_ads x) a = Some p -> frame (pa_slot p) x (fst (ask a c x)).
Proof.
  intros N. assert (R : forall A (f : A -> reply) (m : nat -> M shop A), stays (pa_slot p) (m (pa_slot p)) -> frame (pa_slot p) x (fst (rmap f (by_adapter a m) x))).
  { intros A f m S. unfold rmap, bind, by_adapter. rewrite N. pose proof (S x) as F. destruct (m (pa_slot p) x) as [x1 [y|e]]; exact F. }
  destruct c; cbn [ask]; try (apply R); auto using stays_get, stays_get_all, stays_by_uids, stays_count, stays_add, stays_update, stays_remove; repeat split; auto.
Qed.
Lemma ask_nobody a c x : nth_error (sh_ads x) a = None -> sh_ads (fst (ask a c x)) = sh_ads x /\ sh_stores (fst (ask a c x)) = sh_stores x.
Proof. intros N. destruct c; cbn [ask]; unfold rmap, bind, by_adapter; rewrite ?N; auto. Qed.
Lemma ask_keeps a c x : sh_ads (fst (ask a c x)) = sh_ads x /\ (forall s, option_map ls_owner (nth_error (sh_stores (fst (ask a c x))) s) = option_map ls_owner (nth_error (sh_stores x) s)).
Proof.
  destruct (nth_error (sh_ads x) a) as [p|] eqn:N.
  - destruct (ask_frame a c x p N) as (A & B & C). split; [exact A|]. intros s. destruct (Nat.eq_dec s (pa_slot p)) as [->|D]; [exact C|now rewrite B].
  - destruct (ask_nobody a c x N) as (A & B). rewrite B. auto.
Qed.

(** ** Constructions *)
Lemma make_cases c n kw x : let (x', m) := make_adapter c n kw x in
  (x' = x /\ forall a, m <> Built a) \/
  exists meta ad, m = Built (length (sh_ads x)) /\ new_meta kw = Ok meta /\ n = 0 /\ (forall k, In k (dkeys kw) -> k = "name" \/ k = "internal_storage_engine") /\
    ad = adapter_init (ac_name c) (ac_type c) (ac_top c) (ac_classes c) (match dget kw "name" with Some (mkKw (KName n) _) => n | _ => None end) (SLocal []) /\
    sh_heap x' = sh_heap x /\ sh_trace x' = sh_trace x /\
    match engine_of kw with
    | ERedisClass => False
    | ELocalClass => sh_ads x' = sh_ads x ++ [mkPyad ad (length (sh_stores x)) meta] /\ sh_stores x' = sh_stores x ++ [mkLStore (Some (length (sh_ads x))) []]
    | EInstance s => sh_ads x' = sh_ads x ++ [mkPyad ad s meta] /\ exists l, nth_error (sh_stores x) s = Some l /\ sh_stores x' = list_set (sh_stores x) s (mkLStore (Some (length (sh_ads x))) (ls_data l))
    end.
Proof.
  unfold make_adapter. fold (engine_of kw). destruct n as [|n]; [|left; split; [reflexivity|discriminate]]. destruct (new_meta kw) as [meta|e] eqn:NM; [|left; split; [reflexivity|discriminate]].
  destruct (forallb _ (dkeys kw)) eqn:K; cbn [negb]; [|left; split; [reflexivity|discriminate]]. rewrite forallb_forall in K.
  assert (K' : forall k, In k (dkeys kw) -> k = "name" \/ k = "internal_storage_engine") by (intros k I; apply K, orb_true_iff in I as [I|I]; apply String.eqb_eq in I; auto).
  cbv zeta. destruct (engine_of kw) as [| |s] eqn:E.
  - right. do 2 eexists. do 7 (split; [first [reflexivity|assumption]|]). auto.
  - left. split; [reflexivity|discriminate].
  - destruct (nth_error (sh_stores x) s) as [l|] eqn:N; [|left; split; [reflexivity|discriminate]]. right. do 2 eexists. do 7 (split; [first [reflexivity|assumption]|]). split; [reflexivity|]. exists l. auto.
Qed.

(** ** Owners *)
Lemma one_slots d x a p : nth_error (sh_ads x) a = Some p -> nth_error (sh_ads (fst (do_one d x))) a = Some p.
Proof.
  intros N. assert (L : a < length (sh_ads x)) by (apply nth_error_Some; congruence). destruct d as [|c n kw|b c]; cbn [do_one].
  - exact N.
  - pose proof (make_cases c n kw x) as H. destruct (make_adapter c n kw x) as [x' m]. cbn [fst]. destruct H as [(-> & _)|(meta & ad & _ & _ & _ & _ & _ & _ & _ & H)]; [exact N|].
    destruct (engine_of kw); [|destruct H|]; destruct H as (-> & _); now rewrite nth_error_app1.
  - pose proof (ask_keeps b c x) as (A & _). destruct (ask b c x) as [x' r]. cbn [fst] in *. now rewrite A.
Qed.
Lemma one_owner d x s l : ~ takes_store s d -> nth_error (sh_stores x) s = Some l -> exists l', nth_error (sh_stores (fst (do_one d x))) s = Some l' /\ ls_owner l' = ls_owner l.
Proof.
  intros T N. assert (L : s < length (sh_stores x)) by (apply nth_error_Some; congruence). destruct d as [|c n kw|b c]; cbn [do_one].
  - exists l. split; [|reflexivity]. cbn. now rewrite nth_error_app1.
  - pose proof (make_cases c n kw x) as H. destruct (make_adapter c n kw x) as [x' m]. cbn [fst]. destruct H as [(-> & _)|(meta & ad & _ & _ & _ & _ & _ & _ & _ & H)]; [eauto|]. cbn [takes_store] in T.
    destruct (engine_of kw) as [| |s']; [destruct H as (_ & ->)|destruct H|destruct H as (_ & l0 & _ & ->)].
    + exists l. split; [now rewrite nth_error_app1|reflexivity].
    + exists l. split; [|reflexivity]. rewrite nth_list_set. destruct (Nat.eqb s s') eqn:Q; [apply Nat.eqb_eq in Q; congruence|exact N].
  - pose proof (ask_keeps b c x) as (_ & A). specialize (A s). destruct (ask b c x) as [x' r]. cbn [fst] in *. rewrite N in A. destruct (nth_error (sh_stores x') s) as [l'|]; [|discriminate]. cbn in A. injection A as A. eauto.
Qed.
Lemma all_fst_cons d ds x : fst (do_all (d :: ds) x) = fst (do_all ds (fst (do_one d x))).
Proof. cbn [do_all]. destruct (do_one d x) as [x1 o]. cbn [fst]. now destruct (do_all ds x1). Qed.
Lemma all_app ds es x : fst (do_all (ds ++ es) x) = fst (do_all es (fst (do_all ds x))).
Proof. revert x. induction ds as [|d ds IH]; intros x; [reflexivity|]. cbn [app]. rewrite !all_fst_cons. apply IH. Qed.
Lemma all_slots ds : forall x a p, nth_error (sh_ads x) a = Some p -> nth_error (sh_ads (fst (do_all ds x))) a = Some p.
Proof. induction ds as [|d ds IH]; intros x a p N; [exact N|]. rewrite all_fst_cons. apply IH. now apply one_slots. Qed.
Lemma all_owner ds s : (forall d, In d ds -> ~ takes_store s d) -> forall x l, nth_error (sh_stores x) s = Some l ->
  exists l', nth_error (sh_stores (fst (do_all ds x))) s = Some l' /\ ls_owner l' = ls_owner l.
Proof.
  induction ds as [|d ds IH]; intros H x l N; [eauto|]. rewrite all_fst_cons. destruct (one_owner d x s l (H d (or_introl eq_refl)) N) as (l1 & N1 & E1).
  destruct (IH (fun y I => H y (or_intror I)) _ _ N1) as (l2 & N2 & E2). exists l2. split; [exact N2|congruence].
Qed.
(** the store a construction is given belongs to the new adapter *)
Lemma built_takes c n kw x x' a : make_adapter c n kw x = (x', Built a) ->
  a = length (sh_ads x) /\ exists p l, nth_error (sh_ads x') a = Some p /\ nth_error (sh_stores x') (pa_slot p) = Some l /\ ls_owner l = Some a /\
    (forall s, engine_of kw = EInstance s -> pa_slot p = s /\ exists l0, nth_error (sh_stores x) s = Some l0 /\ ls_data l = ls_data l0) /\
    (engine_of kw = ELocalClass -> pa_slot p = length (sh_stores x) /\ ls_data l = []).
Proof.
  intros E. pose proof (make_cases c n kw x) as H. rewrite E in H. destruct H as [(_ & H)|(meta & ad & EB & _ & _ & _ & _ & _ & _ & H)]; [now elim (H a)|]. injection EB as ->. split; [reflexivity|].
  destruct (engine_of kw) as [| |s]; [destruct H as (-> & ->)|destruct H|destruct H as (-> & l0 & N & ->)].
  - do 2 eexists. rewrite nth_error_app2, Nat.sub_diag by lia. split; [reflexivity|]. cbn [pa_slot]. rewrite nth_error_app2, Nat.sub_diag by lia. split; [reflexivity|]. split; [reflexivity|]. split; [discriminate|auto].
  - do 2 eexists. rewrite nth_error_app2, Nat.sub_diag by lia. split; [reflexivity|]. cbn [pa_slot]. rewrite nth_list_set, Nat.eqb_refl, N. split; [reflexivity|]. split; [reflexivity|]. split; [|discriminate].
    intros s' X. injection X as <-. split; [reflexivity|]. exists l0. auto.
Qed.
Lemma last_owner ds es c n kw s a x1 : let x := fst (do_all ds shop0) in
  make_adapter c n kw x = (x1, Built a) -> engine_of kw = EInstance s -> (forall d, In d es -> ~ takes_store s d) ->
  exists p l, let x' := fst (do_all (ds ++ DMake c n kw :: es) shop0) in
    nth_error (sh_ads x') a = Some p /\ pa_slot p = s /\ nth_error (sh_stores x') s = Some l /\ ls_owner l = Some a.
Proof.
  intros x E EN H. destruct (built_takes _ _ _ _ _ _ E) as (EA & p & l & N1 & N2 & OW & T & _). destruct (T s EN) as (PS & _). rewrite PS in N2.
  destruct (all_owner es s H _ _ N2) as (l' & N3 & OW'). exists p, l'. cbv zeta. rewrite all_app, all_fst_cons. fold x. cbn [do_one]. rewrite E. cbn [fst]. split; [now apply all_slots|]. split; [exact PS|]. split; [exact N3|congruence].
Qed.

(** ** The record of keyword arguments *)
Lemma meta_cases kw : match new_meta kw with
  | Ok meta => dkeys meta = dkeys kw /\ forall k v, dget kw k = Some v -> (kw_copy v = CopyOk /\ dget meta k = Some (MCopy (kw_val v))) \/ (kw_copy v = CopyRefused /\ dget meta k = Some (MSame (kw_val v)))
  | Err e => exists l k v m, kw = l ++ (k, v) :: m /\ kw_copy v = CopyRaises e /\ forall k' v', In (k', v') l -> kw_copy v' = CopyOk \/ kw_copy v' = CopyRefused
  end.
Proof.
  induction kw as [|[k v] kw IH]; [cbn; split; [reflexivity|discriminate]|]. cbn [new_meta]. destruct (kw_copy v) as [| |e] eqn:C.
  3:{ exists [], k, v, kw. split; [reflexivity|]. split; [exact C|]. intros k' v' []. }
  1,2: destruct (new_meta kw) as [meta|e]; cbn [rbind].
  1,3: destruct IH as (K & V); split; [unfold dkeys in *; cbn [map fst]; now rewrite K|]; intros k' v'; cbn [dget]; destruct (String.eqb k' k) eqn:Q; [|apply V]; intros X; injection X as <-; rewrite C; auto.
  all: destruct IH as (l & k1 & v1 & m & -> & C1 & H); exists ((k, v) :: l), k1, v1, m; split; [reflexivity|]; split; [exact C1|]; intros k' v' [X|X]; [injection X as <- <-; auto|eauto].
Qed.

(** ** Adapters with stores of their own *)
Definition private (x : shop) : Prop := forall a p, nth_error (sh_ads x) a = Some p -> exists l, nth_error (sh_stores x) (pa_slot p) = Some l /\ ls_owner l = Some a.
Lemma private_inj x a b p q : private x -> nth_error (sh_ads x) a = Some p -> nth_error (sh_ads x) b = Some q -> pa_slot p = pa_slot q -> a = b.
Proof. intros P A B E. destruct (P a p A) as (l & L & O). destruct (P b q B) as (l' & L' & O'). rewrite <- E, L in L'. injection L' as <-. congruence. Qed.
Lemma private_frame s x x' : private x -> frame s x x' -> private x'.
Proof.
  intros P (A & B & C) a p N. rewrite A in N. destruct (P a p N) as (l & L & O). destruct (Nat.eq_dec (pa_slot p) s) as [E|E].
  - rewrite E in L |- *. rewrite L in C. destruct (nth_error (sh_stores x') s) as [l'|]; [|discriminate]. injection C as C. exists l'. split; [reflexivity|congruence].
  - exists l. rewrite (B _ E). auto.
Qed.

Section Own.
  Variables (a : aid) (p : pyad).
  Notation s := (pa_slot p).
  Definition at_home (x : shop) : Prop := private x /\ nth_error (sh_ads x) a = Some p.
  Lemma home_frame x x' : at_home x -> frame s x x' -> at_home x'.
  Proof. intros (P & N) F. split; [eapply private_frame; eauto|]. destruct F as (-> & _). exact N. Qed.
  (** the run in the shop is that in the world *)
  Definition mimic {A} (x : shop) (m : M shop A) (m' : M world A) : Prop := m' (own_world x) = (own_world (fst (m x)), snd (m x)).
  Lemma mimic_bind {A B} x (m : M shop A) m' (k : A -> M shop B) k' : at_home x -> stays s m -> mimic x m m' ->
    (forall x1 y, at_home x1 -> m x = (x1, Ok y) -> mimic x1 (k y) (k' y)) -> mimic x (bind m k) (bind m' k').
  Proof.
    intros H S E K. unfold mimic, bind in *. rewrite E. pose proof (home_frame _ _ H (S x)) as H1. destruct (m x) as [x1 [y|e]]; cbn [fst snd] in *; [|reflexivity]. now apply K.
  Qed.
  Lemma mimic_ret {A} x (y : A) : mimic x (ret y) (ret y).
  Proof. reflexivity. Qed.
  Lemma mimic_raise {A} x e : mimic x (@raise shop A e) (raise e).
  Proof. reflexivity. Qed.
  Lemma mimic_lift {A} x (r : result A) : mimic x (lift r) (lift r).
  Proof. reflexivity. Qed.
  Lemma mimic_state {A} x (k : shop -> M shop A) k' : mimic x (k x) (k' (own_world x)) -> mimic x (bind get_state k) (bind get_state k').
  Proof. exact (fun H => H). Qed.
  Lemma mimic_catch {A} x (m : M shop A) m' q h h' : at_home x -> stays s m -> mimic x m m' -> (forall x1 e, at_home x1 -> mimic x1 (h e) (h' e)) -> mimic x (try_catch m q h) (try_catch m' q h').
  Proof.
    intros H S E K. unfold mimic, try_catch in *. rewrite E. pose proof (home_frame _ _ H (S x)) as H1. destruct (m x) as [x1 [y|e]]; cbn [fst snd] in *; [reflexivity|]. destruct (q e); [now apply K|reflexivity].
  Qed.
  Lemma mimic_forM {A} (l : list A) f f' : (forall y, stays s (f y)) -> (forall x y, at_home x -> mimic x (f y) (f' y)) -> forall x, at_home x -> mimic x (forM l f) (forM l f').
  Proof. intros S K. induction l as [|y l IH]; intros x H; [apply mimic_ret|]. cbn [forM]. apply mimic_bind; auto. Qed.
  Lemma mimic_mapM {A B} (l : list A) (f : A -> M shop B) f' : (forall y, stays s (f y)) -> (forall x y, at_home x -> mimic x (f y) (f' y)) -> forall x, at_home x -> mimic x (mapM f l) (mapM f' l).
  Proof.
    intros S K. induction l as [|y l IH]; intros x H; [apply mimic_ret|]. cbn [mapM]. apply mimic_bind; auto. intros x1 z H1 _. apply mimic_bind; auto using stays_mapM. intros x2 zs H2 _. apply mimic_ret.
  Qed.
  Lemma mimic_obj x r : mimic x (sh_get_obj r) (hget r).
  Proof. unfold mimic, sh_get_obj, hget. cbn [own_world w_heap]. now destruct (nth_error (sh_heap x) r). Qed.
  Lemma mimic_set x r o : mimic x (sh_set_obj r o) (hset r o).
  Proof. reflexivity. Qed.
  Lemma mimic_emit x e : mimic x (sh_emit e) (emit e).
  Proof. reflexivity. Qed.
  Lemma mimic_store {A} x (k : lstore -> M shop A) k' : at_home x ->
    (forall l, nth_error (sh_stores x) s = Some l -> ls_owner l = Some a -> mimic x (k l) (k' (set_ad_store (pa_ad p) (SLocal (ls_data l))))) -> mimic x (bind (sh_store s) k) (bind (get_adapter a) k').
  Proof.
    intros (P & N) K. destruct (P a p N) as (l & L & O). specialize (K l L O). unfold mimic, bind, sh_store, get_adapter in *. rewrite L. cbn [own_world w_ads]. rewrite nth_error_map, N. cbn [option_map]. unfold own_adapter at 1. rewrite L. exact K.
  Qed.
  Lemma mimic_put x d : at_home x -> mimic x (sh_put s d) (put_store a (SLocal d)).
  Proof.
    intros (P & N). destruct (P a p N) as (l & L & O). unfold mimic, sh_put, put_store, modify. cbn [fst snd own_world w_ads]. rewrite nth_error_map, N, L. cbn [option_map]. unfold own_world, set_ads. cbn [w_heap w_redis w_trace set_sh_stores sh_heap sh_ads sh_trace sh_stores]. f_equal. f_equal.
    apply nth_same_list. intros b. rewrite nth_list_set, !nth_error_map, N. cbn [option_map]. destruct (nth_error (sh_ads x) b) as [q|] eqn:NB.
    - cbn [option_map]. unfold own_adapter, set_sh_stores. cbn [sh_stores]. rewrite nth_list_set. destruct (Nat.eqb b a) eqn:Q.
      + apply Nat.eqb_eq in Q. subst b. assert (q = p) by congruence. subst q. rewrite Nat.eqb_refl, L. cbn [ls_data]. reflexivity.
      + destruct (Nat.eqb (pa_slot q) s) eqn:Q'; [|reflexivity]. apply Nat.eqb_eq in Q'. apply Nat.eqb_neq in Q. elim Q. exact (private_inj _ _ _ _ _ P NB N Q').
    - cbn [option_map]. destruct (Nat.eqb b a) eqn:Q; [apply Nat.eqb_eq in Q; congruence|reflexivity].
  Qed.
  Lemma own_truthy x b : private x -> adapter_truthy (own_world x) b = sh_truthy x b.
  Proof.
    intros P. destruct b as [b|]; [|reflexivity]. unfold adapter_truthy, sh_truthy, count_all. cbn [own_world w_ads]. rewrite nth_error_map. destruct (nth_error (sh_ads x) b) as [q|] eqn:N; [|reflexivity]. destruct (P b q N) as (l & L & _).
    cbn [option_map]. unfold own_adapter. rewrite L. reflexivity.
  Qed.
  Lemma own_class x l m : at_home x -> ls_owner l = Some a -> object_class_and_model (set_ad_store (pa_ad p) (SLocal (ls_data l))) m = sh_class_and_model x l m.
  Proof. intros (_ & N) O. destruct m as [n|c]; [|reflexivity]. cbn. unfold owner_class. now rewrite O, N. Qed.

  Ltac step := first [apply mimic_ret|apply mimic_raise|apply mimic_lift|apply mimic_obj|apply mimic_set|apply mimic_emit|apply mimic_put; assumption].
  Lemma mimic_get x m i : at_home x -> mimic x (sh_get s m i) (st_get a m i).
  Proof.
    intros H. unfold sh_get, st_get. apply mimic_store; [exact H|]. intros l L O. change (mimic x (bind get_state (fun x0 => let modelname := snd (sh_class_and_model x0 l m) in uid <- lift (get_uid (fst (sh_class_and_model x0 l m)) i);; sh_put s (touch (ls_data l) modelname);;; match dget (bucket (ls_data l) modelname) uid with Some r => ret r | None => raise ObjectNotFound end)) (bind get_state (fun _ => let ad := set_ad_store (pa_ad p) (SLocal (ls_data l)) in let oc := fst (object_class_and_model ad m) in let modelname := snd (object_class_and_model ad m) in uid <- lift (get_uid oc i);; match ad_store ad with SLocal d => put_store a (SLocal (touch d modelname));;; match dget (bucket d modelname) uid with Some r => ret r | None => raise ObjectNotFound end | SRedis sid => redis_load a (redis_key sid modelname uid) end))).
    apply mimic_state. cbv zeta. rewrite (own_class x l m H O). cbn [ad_store set_ad_store]. apply mimic_bind; [exact H|apply stays_lift|step|]. intros x1 u H1 _. apply mimic_bind; [exact H1|apply stays_put|step|]. intros x2 v H2 _. destruct (dget _ u); step.
  Qed.
  Lemma mimic_get_all x m : at_home x -> mimic x (sh_get_all s m) (st_get_all a m).
  Proof. intros H. unfold sh_get_all, st_get_all. apply mimic_store; [exact H|]. intros l L O. cbn [ad_store set_ad_store]. apply mimic_bind; [exact H|apply stays_put|step|]. intros x1 u H1 _. step. Qed.
  Lemma mimic_by_uids x us m : at_home x -> mimic x (sh_by_uids s us m) (st_get_by_uids a us m).
  Proof.
    intros H. unfold sh_by_uids, st_get_by_uids. apply mimic_mapM; [intros u; stays| |exact H]. clear x H. intros x u H. apply mimic_store; [exact H|]. intros l L O. cbn [ad_store set_ad_store]. apply mimic_bind; [exact H|apply stays_put|step|]. intros x1 v H1 _. destruct (dget _ u); step.
  Qed.
  Lemma mimic_count x : at_home x -> mimic x (sh_count s) (st_count a None).
  Proof.
    intros H. unfold sh_count, st_count. apply mimic_store; [exact H|]. intros l L O. cbn [ad_store set_ad_store]. unfold mimic, bind, get_state, ret. cbn [fst snd]. f_equal. f_equal. unfold count_all. cbn [own_world w_ads]. rewrite nth_error_map, (proj2 H). cbn [option_map]. unfold own_adapter. rewrite L. reflexivity.
  Qed.
  Lemma mimic_add x r : at_home x -> mimic x (sh_add s r) (st_add a r).
  Proof.
    intros H. unfold sh_add, st_add. apply mimic_bind; [exact H|apply stays_obj|step|]. intros x1 o H1 _. apply mimic_bind; [exact H1|apply stays_lift|step|]. intros x2 u H2 _. cbv zeta. apply mimic_store; [exact H2|]. intros l L O. cbn [ad_store set_ad_store].
    apply mimic_bind; [exact H2|apply stays_put|step|]. intros x3 v H3 _. destruct (dget _ u) as [r'|]; [destruct (Nat.eqb r' r); step|]. apply mimic_state. rewrite (own_truthy x3 _ (proj1 H3)), O.
    apply mimic_bind; [exact H3|stays|destruct (sh_truthy x3 (o_adapter o)); step|]. intros x4 v' H4 _. step.
  Qed.
  Lemma mimic_update x r : at_home x -> mimic x (sh_update s r) (st_update a r).
  Proof.
    intros H. unfold sh_update, st_update. apply mimic_bind; [exact H|apply stays_obj|step|]. intros x1 o H1 _. apply mimic_bind; [exact H1|apply stays_lift|step|]. intros x2 u H2 _. cbv zeta. apply mimic_store; [exact H2|]. intros l L O. cbn [ad_store set_ad_store].
    apply mimic_bind; [exact H2|apply stays_put|step|]. intros x3 v H3 _. destruct (dget _ u) as [r'|]; [destruct (Nat.eqb r' r); step|step].
  Qed.
  Lemma mimic_remove_item x t u : at_home x -> mimic x (sh_remove_item s t u) (st_remove_item a t u).
  Proof. intros H. unfold sh_remove_item, st_remove_item. apply mimic_store; [exact H|]. intros l L O. cbn [ad_store set_ad_store]. apply mimic_bind; [exact H|apply stays_put|step|]. intros x3 v H3 _. destruct (dget _ u); step. Qed.
  Lemma mimic_clear x r : at_home x -> mimic x (sh_clear r) (clear_adapter r).
  Proof. intros H. unfold sh_clear, clear_adapter. apply mimic_bind; [exact H|apply stays_obj|step|]. intros x1 o H1 _. apply mimic_state. rewrite (own_truthy x1 _ (proj1 H1)). destruct (sh_truthy x1 (o_adapter o)); step. Qed.
  Lemma mimic_remove n : forall x r ch, at_home x -> mimic x (sh_remove n s r ch) (st_remove n a r ch).
  Proof.
    induction n as [|n IH]; intros x r ch H; cbn [sh_remove st_remove]; [step|]. pose proof (stays_remove n s) as SR. apply mimic_bind; [exact H|apply stays_obj|step|]. intros x1 o H1 _. apply mimic_bind; [exact H1|apply stays_lift|step|]. intros x2 u H2 _.
    apply mimic_bind; [exact H2|apply stays_remove_item|now apply mimic_remove_item|]. intros x3 v H3 _. apply mimic_bind; [exact H3|apply stays_clear|now apply mimic_clear|]. intros x4 v' H4 _. destruct ch; [|step].
    apply mimic_forM; [intros tf; stays| |exact H4]. intros x5 tf H5. apply mimic_bind; [exact H5|apply stays_lift|step|]. intros x6 ids H6 _. apply mimic_forM; [intros i; stays| |exact H6]. intros x7 i H7.
    apply mimic_catch; [exact H7|stays| |intros x8 e H8; step]. apply mimic_bind; [exact H7|apply stays_get|now apply mimic_get|]. intros x8 cr H8 _. now apply IH.
  Qed.
  Lemma own_ask x c : at_home x -> mimic x (ask a c) (ask_own a c).
  Proof.
    intros H. assert (R : forall A (f : A -> reply) (m : nat -> M shop A) m', mimic x (m s) m' -> mimic x (rmap f (by_adapter a m)) (rmap f m')).
    { intros A f m m' E. unfold mimic, rmap, bind, by_adapter in *. rewrite (proj2 H), E. now destruct (m s x) as [x1 [y|e]]. }
    destruct c; cbn [ask ask_own]; try apply R; auto using mimic_get, mimic_get_all, mimic_by_uids, mimic_count, mimic_add, mimic_update, mimic_remove; reflexivity.
  Qed.
End Own.

Lemma private_one d x : private x -> (forall s l, takes_store s d -> nth_error (sh_stores x) s = Some l -> ls_owner l = None) -> private (fst (do_one d x)).
Proof.
  intros P T. destruct d as [|c n kw|b c]; cbn [do_one].
  - intros a p N. destruct (P a p N) as (l & L & O). exists l. split; [|exact O]. cbn. rewrite nth_error_app1; [exact L|]. apply nth_error_Some. congruence.
  - cbn [takes_store] in T. pose proof (make_cases c n kw x) as H. destruct (make_adapter c n kw x) as [x' m]. cbn [fst]. destruct H as [(-> & _)|(meta & ad & _ & _ & _ & _ & _ & _ & _ & H)]; [exact P|].
    assert (OLD : forall q a l, nth_error (sh_ads x ++ [q]) a = Some l -> (a = length (sh_ads x) /\ l = q) \/ nth_error (sh_ads x) a = Some l).
    { intros q a l N. destruct (Nat.lt_ge_cases a (length (sh_ads x))) as [L|L]; [right; now rewrite nth_error_app1 in N|left]. rewrite nth_error_app2 in N by exact L. destruct (a - length (sh_ads x)) as [|k] eqn:Q; [|destruct k; discriminate]. injection N as <-. split; [lia|reflexivity]. }
    destruct (engine_of kw) as [| |s]; [destruct H as (E1 & E2)|destruct H|destruct H as (E1 & l0 & N0 & E2)]; intros a p N; rewrite E1 in N; rewrite E2; apply OLD in N as [(-> & ->)|N].
    + cbn [pa_slot]. rewrite nth_error_app2, Nat.sub_diag by lia. eexists. split; reflexivity.
    + destruct (P a p N) as (l & L & O). exists l. split; [|exact O]. rewrite nth_error_app1; [exact L|]. apply nth_error_Some. congruence.
    + cbn [pa_slot]. rewrite nth_list_set, Nat.eqb_refl, N0. eexists. split; reflexivity.
    + destruct (P a p N) as (l & L & O). exists l. split; [|exact O]. rewrite nth_list_set. destruct (Nat.eqb (pa_slot p) s) eqn:Q; [|exact L]. apply Nat.eqb_eq in Q. rewrite Q in L. rewrite (T s l eq_refl L) in O. discriminate.
  - destruct (nth_error (sh_ads x) b) as [p|] eqn:N.
    + pose proof (ask_frame b c x p N) as F. destruct (ask b c x) as [x' r]. exact (private_frame _ _ _ P F).
    + destruct (ask_nobody b c x N) as (A & B). destruct (ask b c x) as [x' r]. cbn [fst] in *. intros a p NA. rewrite A in NA. rewrite B. exact (P a p NA).
Qed.
Lemma private_all ds : forall x, private x -> own_stores ds x -> private (fst (do_all ds x)).
Proof. induction ds as [|d ds IH]; intros x P H; [exact P|]. destruct H as (H1 & H2). rewrite all_fst_cons. apply IH; [|exact H2]. now apply private_one. Qed.
Lemma private0 : private shop0.
Proof. intros [|a] p N; discriminate. Qed.

(** ** Stores without an adapter are empty *)
Definition blank (x : shop) : Prop := forall s l, nth_error (sh_stores x) s = Some l -> ls_owner l = None -> ls_data l = [].
Lemma blank_one d x : private x -> blank x -> blank (fst (do_one d x)).
Proof.
  intros P B. assert (NEW : forall l0, (ls_owner l0 = None -> ls_data l0 = []) -> forall s l, nth_error (sh_stores x ++ [l0]) s = Some l -> ls_owner l = None -> ls_data l = []).
  { intros l0 H0 s l N O. destruct (Nat.lt_ge_cases s (length (sh_stores x))) as [L|L]; [rewrite nth_error_app1 in N by exact L; eauto|]. rewrite nth_error_app2 in N by exact L. destruct (s - length (sh_stores x)) as [|k]; [|destruct k; discriminate]. injection N as <-. auto. }
  destruct d as [|c n kw|b c]; cbn [do_one].
  - intros s l N O. cbn in N. eapply NEW; eauto. reflexivity.
  - pose proof (make_cases c n kw x) as H. destruct (make_adapter c n kw x) as [x' m]. cbn [fst]. destruct H as [(-> & _)|(meta & ad & _ & _ & _ & _ & _ & _ & _ & H)]; [exact B|].
    destruct (engine_of kw) as [| |s]; [destruct H as (_ & E)|destruct H|destruct H as (_ & l0 & N0 & E)]; intros s' l N O; rewrite E in N.
    + eapply NEW; eauto. discriminate.
    + rewrite nth_list_set in N. destruct (Nat.eqb s' s); [|eauto]. rewrite N0 in N. injection N as <-. discriminate.
  - destruct (nth_error (sh_ads x) b) as [p|] eqn:N.
    + pose proof (ask_frame b c x p N) as (F1 & F2 & F3). destruct (ask b c x) as [x' r]. cbn [fst] in *. destruct (P b p N) as (l & L & O). intros s l' N' O'. destruct (Nat.eq_dec s (pa_slot p)) as [->|D]; [|rewrite (F2 s D) in N'; eauto]. rewrite N', L in F3. cbn in F3. congruence.
    + destruct (ask_nobody b c x N) as (_ & E). destruct (ask b c x) as [x' r]. cbn [fst] in *. intros s l N' O'. rewrite E in N'. eauto.
Qed.
Lemma blank_all ds : forall x, private x -> blank x -> own_stores ds x -> blank (fst (do_all ds x)).
Proof. induction ds as [|d ds IH]; intros x P B H; [exact B|]. destruct H as (H1 & H2). rewrite all_fst_cons. apply IH; [now apply private_one|now apply blank_one|exact H2]. Qed.
Lemma own_built ds c kw a x1 : let x := fst (do_all ds shop0) in own_stores (ds ++ [DMake c 0 kw]) shop0 -> make_adapter c 0 kw x = (x1, Built a) ->
  own_world x1 = set_ads (own_world x) (w_ads (own_world x) ++ [adapter_init (ac_name c) (ac_type c) (ac_top c) (ac_classes c) (match dget kw "name" with Some (mkKw (KName n) _) => n | _ => None end) (SLocal [])]).
Proof.
  intros x H E. assert (HO : own_stores ds shop0 /\ forall s l, takes_store s (DMake c 0 kw) -> nth_error (sh_stores x) s = Some l -> ls_owner l = None).
  { unfold x. clear x E. generalize shop0 H. clear H. induction ds as [|d ds IH]; intros x H; [cbn in H |- *; tauto|]. cbn [app own_stores] in H. destruct H as (H1 & H2). rewrite all_fst_cons. cbn [own_stores]. specialize (IH _ H2). tauto. }
  destruct HO as (HO & T). pose proof (private_all ds shop0 private0 HO) as P. fold x in P. assert (B : blank x) by (apply blank_all; [exact private0|intros [|s] l N; discriminate|exact HO]).
  pose proof (make_cases c 0 kw x) as K. rewrite E in K. destruct K as [(_ & K)|(meta & ad & _ & _ & _ & _ & EAD & EH & ET & K)]; [now elim (K a)|]. rewrite <- EAD.
  assert (SL : forall b q, nth_error (sh_ads x) b = Some q -> nth_error (sh_stores x1) (pa_slot q) = nth_error (sh_stores x) (pa_slot q)).
  { intros b q N. destruct (P b q N) as (l & L & O). destruct (engine_of kw) as [| |s] eqn:EN; [destruct K as (_ & ->)|destruct K|destruct K as (_ & l0 & N0 & ->)].
    - apply nth_error_app1, nth_error_Some. congruence.
    - rewrite nth_list_set. destruct (Nat.eqb (pa_slot q) s) eqn:Q; [|reflexivity]. apply Nat.eqb_eq in Q. rewrite Q in L. cbn [takes_store] in T. rewrite (T s l EN L) in O. discriminate. }
  unfold own_world, set_ads. cbn [w_heap w_redis w_trace w_ads]. rewrite EH, ET. f_equal.
  assert (MP : forall l, (forall q, In q l -> exists b, nth_error (sh_ads x) b = Some q) -> map (own_adapter x1) l = map (own_adapter x) l).
  { intros l I. apply map_ext_in. intros q Q. destruct (I q Q) as (b & N). unfold own_adapter. now rewrite (SL b q N). }
  assert (MA : map (own_adapter x1) (sh_ads x) = map (own_adapter x) (sh_ads x)) by (apply MP; intros q; apply In_nth_error).
  destruct (engine_of kw) as [| |s] eqn:EN; [destruct K as (-> & ES)|destruct K|destruct K as (-> & l0 & N0 & ES)]; rewrite map_app, MA; f_equal; cbn [map]; unfold own_adapter; cbn [pa_ad pa_slot]; rewrite ES.
  - rewrite nth_error_app2, Nat.sub_diag by lia. cbn [nth_error ls_data]. now rewrite EAD.
  - rewrite nth_list_set, Nat.eqb_refl, N0. cbn [option_map ls_data]. rewrite (B s l0 N0 (T s l0 EN N0)). now rewrite EAD.
Qed.

(** ** Adapters with the same store *)
Lemma same_slot a b x p q : nth_error (sh_ads x) a = Some p -> nth_error (sh_ads x) b = Some q -> pa_slot p = pa_slot q -> forall c, ask a c x = ask b c x.
Proof. intros A B E c. destruct c; cbn [ask]; unfold rmap, bind, by_adapter; rewrite ?A, ?B, ?E; reflexivity. Qed.
Lemma made_takes c n kw x a s : snd (do_one (DMake c n kw) x) = WMade (Built a) -> engine_of kw = EInstance s ->
  exists p, nth_error (sh_ads (fst (do_one (DMake c n kw) x))) a = Some p /\ pa_slot p = s.
Proof.
  cbn [do_one]. destruct (make_adapter c n kw x) as [x' m] eqn:E. cbn [fst snd]. intros X EN. injection X as ->. destruct (built_takes _ _ _ _ _ _ E) as (_ & p & l & N & _ & _ & T & _). exists p. split; [exact N|]. now apply (T s EN).
Qed.
