(** * StoreMore: the lemmas behind PropStore. *)
From Verif Require Export CascadeFacts ModelFacts.

(** ** From a LocalStore to its register *)
Definition flat (d : dict (dict ref)) : reg :=
  flat_map (fun mb => map (fun ur => (fst mb, fst ur, snd ur)) (snd mb)) d.

Lemma entries_map m b t : entries (map (fun ur => (m, fst ur, snd ur)) b) t = if String.eqb t m then b else [].
Proof.
  unfold entries. induction b as [|[u r] b IH]; simpl; [now destruct (String.eqb t m)|].
  destruct (String.eqb t m); simpl; [now rewrite IH|exact IH].
Qed.
Lemma entries_flat d t : NoDup (dkeys d) -> entries (flat d) t = bucket d t.
Proof.
  induction d as [|[m b] d IH]; intros ND; [reflexivity|]. simpl dkeys in ND. inversion ND as [|? ? N1 N2]; subst.
  unfold flat. simpl. rewrite entries_app, entries_map. unfold bucket. simpl.
  fold (flat d). rewrite IH by exact N2. destruct (String.eqb_spec t m) as [->|N]; [|reflexivity].
  unfold bucket. assert (dget d m = None) as -> by (now apply dget_None). apply app_nil_r.
Qed.
Lemma NoDup_flat d : NoDup (dkeys d) -> (forall m b, In (m, b) d -> NoDup (dkeys b)) -> NoDup (map fst (flat d)).
Proof.
  induction d as [|[m b] d IH]; intros ND HB; [constructor|]. simpl dkeys in ND. inversion ND as [|? ? N1 N2]; subst.
  unfold flat. simpl. rewrite map_app, map_map. simpl. fold (flat d).
  specialize (IH N2 (fun m' b' I => HB m' b' (or_intror I))).
  assert (NB : NoDup (map (fun x : string * ref => (m, fst x)) b)).
  { specialize (HB m b (or_introl eq_refl)). clear - HB. induction b as [|[u r] b IHb]; simpl in *; [constructor|].
    inversion HB; subst. constructor; [|auto]. rewrite in_map_iff. intros [[u' r'] [E I]]. simpl in E. injection E as ->.
    apply H1. apply (in_map fst) in I. exact I. }
  assert (DJ : forall k, In k (map fst (flat d)) -> In (fst k) (dkeys d)).
  { clear. induction d as [|[m b] d IH]; simpl; [tauto|]. unfold flat. simpl. fold (flat d).
    intros k. rewrite map_app, in_app_iff, map_map. intros [H|H]; [|right; auto].
    apply in_map_iff in H as [x [<- _]]. now left. }
  assert (DA : forall l : list (string * ref), forall k, In k (map (fun x => (m, fst x)) l) -> fst k = m).
  { intros l k H. apply in_map_iff in H as [x [<- _]]. reflexivity. }
  specialize (DA b). revert DA. induction NB as [|k l Hk Hl IHl]; simpl; intros DA; [exact IH|].
  constructor.
  - rewrite in_app_iff. intros [H|H]; [auto|]. apply DJ in H. rewrite (DA k (or_introl eq_refl)) in H. contradiction.
  - apply IHl. intros k' H. apply DA. now right.
Qed.

Lemma local_ok_RegOf w a : local_ok w a -> exists l, RegOf w a l.
Proof.
  intros (ad & d & H1 & H2 & ND & HB). exists (flat d), ad, d. split; [split; assumption|].
  split; [exact ND|]. split; [now apply NoDup_flat|]. intros t. symmetry. now apply entries_flat.
Qed.
Lemma entries_keys l t u : In u (dkeys (entries l t)) <-> In (t, u) (map fst l).
Proof.
  destruct (in_dec string_dec u (dkeys (entries l t))) as [H|H].
  - split; [|tauto]. intros _. destruct (reg_find l t u) eqn:E.
    + destruct (in_dec (fun x y : string * string => ltac:(decide equality; apply string_dec)) (t, u) (map fst l)) as [I|I]; [exact I|].
      apply reg_find_None in I. congruence.
    + rewrite <- entries_find in E. apply dget_None in E. contradiction.
  - split; [tauto|]. intros I. exfalso. apply dget_None in H. rewrite entries_find in H.
    apply reg_find_None in H. contradiction.
Qed.
Lemma NoDup_entries l t : NoDup (map fst l) -> NoDup (dkeys (entries l t)).
Proof.
  unfold entries, dkeys. rewrite map_map. simpl.
  induction l as [|[[t' u'] r'] l IH]; simpl; intros ND; [constructor|]. inversion ND as [|? ? N1 N2]; subst.
  destruct (String.eqb_spec t t') as [->|N]; simpl; [|auto]. constructor; [|auto].
  intros I. apply N1. apply (entries_keys l t' u'). unfold entries, dkeys. rewrite map_map. exact I.
Qed.
Lemma RegOf_local_ok w a l : RegOf w a l -> local_ok w a.
Proof.
  intros (ad & d & [H1 H2] & ND & NL & HB). exists ad, d. repeat split; auto.
  intros m b I. assert (E : bucket d m = b) by (unfold bucket; now rewrite (In_dget _ _ _ ND I)).
  rewrite <- E, HB. now apply NoDup_entries.
Qed.

(** ** C23 *)
Lemma cascade_removes fuel w a t u r :
  local_ok w a -> keyed w a -> lookup w a t u = Some r -> limit_ok w a fuel (t, u) ->
  exists w', st_remove fuel a r true w = (w', Ok tt) /\
    (forall t' u', reaches w a (t, u) (t', u') -> lookup w' a t' u' = None) /\
    (forall t' u', ~ reaches w a (t, u) (t', u') -> lookup w' a t' u' = lookup w a t' u') /\
    same_but_adapter (w_heap w) (w_heap w') /\ local_ok w' a /\ keyed w' a /\ framed a w w'.
Proof.
  intros LO K F LE. destruct (local_ok_RegOf _ _ LO) as [l R].
  unfold limit_ok in LE. rewrite (RegOf_count _ _ _ R) in LE. rewrite (RegOf_lookup _ _ _ _ _ R) in F.
  destruct (cascade a fuel w l t u r R K F LE) as (w' & l' & E & D & HC).
  pose proof (du_reg _ _ _ _ _ _ _ D) as R'. pose proof (RegOf_nodup _ _ _ R) as ND.
  assert (S : subreg l' l) by (eapply subreg_trans; [apply (du_sub _ _ _ _ _ _ _ D)|apply subreg_del]).
  exists w'. split; [exact E|]. split; [|split; [|split; [|split; [|split]]]].
  - intros t' u' X. rewrite (RegOf_lookup _ _ _ _ _ R').
    refine (cascade_reach a w l t u w' l' R _ D HC (t', u') X). congruence.
  - intros t' u' X. rewrite (RegOf_lookup _ _ _ _ _ R'), (RegOf_lookup _ _ _ _ _ R).
    destruct (reg_find l' t' u') eqn:Y; [symmetry; eapply subreg_find; eauto|].
    destruct (reg_find l t' u') eqn:Z; [|reflexivity].
    exfalso. apply X. apply (du_reach _ _ _ _ _ _ _ D). split; simpl; congruence.
  - apply (du_heap _ _ _ _ _ _ _ D).
  - eapply RegOf_local_ok; eauto.
  - exact (keyed_sub _ _ _ _ _ R R' ND S (du_heap _ _ _ _ _ _ _ D) K).
  - apply (du_frame _ _ _ _ _ _ _ D).
Qed.

(** ** C22 *)
Lemma lookup_local w a ad d t u : is_local w a ad d -> lookup w a t u = dget (bucket d t) u.
Proof. intros [H1 H2]. unfold lookup. now rewrite H1, H2. Qed.

Lemma lookup_is_local w a t u r : lookup w a t u = Some r -> exists ad d, is_local w a ad d.
Proof.
  unfold lookup. destruct (nth_error (w_ads w) a) as [ad|] eqn:E1; [|discriminate].
  destruct (ad_store ad) as [d|] eqn:E2; [|discriminate]. intros _. exists ad, d. now split.
Qed.

Lemma upd_lookup w a ad d d' t u : is_local w a ad d -> lookup (upd_store w a (SLocal d')) a t u = dget (bucket d' t) u.
Proof. intros L. eapply lookup_local. eapply is_local_upd; eauto. Qed.

Lemma add_present a r w o u r' :
  nth_error (w_heap w) r = Some o -> get_unique_id o = Ok u -> lookup w a (get_type o) u = Some r' ->
  st_add a r w = (w, if Nat.eqb r' r then Ok tt else Err ObjectAlreadyExists).
Proof.
  intros Ho Hu F. destruct (lookup_is_local _ _ _ _ _ F) as (ad & d & L).
  rewrite (st_add_local _ _ _ _ _ _ _ L Ho Hu). rewrite <- (lookup_local _ _ _ _ _ _ L), F. reflexivity.
Qed.

Lemma attach_heap w a r o : nth_error (w_heap w) r = Some o ->
  same_but_adapter (w_heap w) (w_heap (attach w a r o)).
Proof. intros H. unfold attach. destruct (adapter_truthy _ _); [apply sba_refl|]. simpl. now apply sba_set. Qed.
Lemma framed_attach w a r o : framed a w (attach w a r o).
Proof. unfold attach. destruct (adapter_truthy _ _); [apply framed_refl|apply framed_set_heap]. Qed.

Lemma attach_other w a r o r' : r' <> r -> nth_error (w_heap (attach w a r o)) r' = nth_error (w_heap w) r'.
Proof. intros N. unfold attach. destruct (adapter_truthy _ _); [reflexivity|]. simpl. now apply nth_list_set_neq. Qed.

Lemma add_absent a r w o u : has_local w a ->
  nth_error (w_heap w) r = Some o -> get_unique_id o = Ok u -> lookup w a (get_type o) u = None ->
  exists w', st_add a r w = (w', Ok tt) /\
    lookup w' a (get_type o) u = Some r /\
    (forall t' u', (t', u') <> (get_type o, u) -> lookup w' a t' u' = lookup w a t' u') /\
    same_but_adapter (w_heap w) (w_heap w') /\
    (forall r', r' <> r -> nth_error (w_heap w') r' = nth_error (w_heap w) r') /\
    framed a w w' /\ w_trace w' = w_trace w.
Proof.
  intros (ad & d & L) Ho Hu F. pose proof (st_add_local _ _ _ _ _ _ _ L Ho Hu) as E.
  rewrite <- (lookup_local _ _ _ _ _ _ L), F in E. cbv zeta in E.
  pose proof (is_local_attach _ _ _ _ r o a (is_local_upd _ _ _ _ (touch d (get_type o)) L)) as L2.
  eexists. split; [exact E|]. split; [|split; [|split; [|split; [|split]]]].
  - rewrite (upd_lookup _ _ _ _ _ _ _ L2), bucket_dset, String.eqb_refl. apply dget_dset_eq.
  - intros t' u' N. rewrite (upd_lookup _ _ _ _ _ _ _ L2), bucket_dset, (lookup_local _ _ _ _ _ _ L).
    destruct (String.eqb_spec t' (get_type o)) as [->|]; [|reflexivity].
    rewrite dget_dset_neq; [reflexivity|]. intros ->. congruence.
  - rewrite upd_store_heap. pose proof (attach_heap (upd_store w a (SLocal (touch d (get_type o)))) a r o) as A.
    rewrite upd_store_heap in A. now apply A.
  - intros r' N. rewrite upd_store_heap, attach_other by exact N. now rewrite upd_store_heap.
  - eapply framed_trans; [|apply framed_upd]. eapply framed_trans; [apply framed_upd|apply framed_attach].
  - rewrite upd_store_trace. unfold attach. destruct (adapter_truthy _ _); simpl; now rewrite upd_store_trace.
Qed.

(** ** C24 *)
Lemma names_reg w a l : RegOf w a l ->
  exists names, st_get_all_model_names a w = (w, Ok names) /\ NoDup names /\
    (forall t, In t (map (fun e => fst (fst e)) l) -> In t names) /\
    length l = list_sum (map (fun m => length (reg_type l m)) names).
Proof.
  intros (ad & d & [H1 H2] & ND & NL & HB). exists (dkeys d).
  split; [unfold st_get_all_model_names, bind, get_adapter, get_state; rewrite H1, H2; reflexivity|].
  split; [exact ND|]. split.
  - intros t I. apply in_map_iff in I as [[[t' u'] r'] [E I]]. simpl in E. subst t'.
    destruct (in_dec string_dec t (dkeys d)) as [Y|Y]; [exact Y|]. exfalso.
    apply dget_None in Y. assert (B : bucket d t = []) by (unfold bucket; now rewrite Y).
    rewrite HB in B. assert (X : dget (entries l t) u' <> None).
    { rewrite entries_find. apply reg_find_In in I; [|exact NL]. congruence. }
    rewrite B in X. now apply X.
  - rewrite <- (count_entries d l ND HB). unfold dkeys. rewrite map_map. f_equal.
    apply map_ext_in. intros [m b] I. simpl. rewrite <- entries_type, map_length, <- HB.
    unfold bucket. now rewrite (In_dget _ _ _ ND I).
Qed.

Lemma count_class w a l c : RegOf w a l -> snd (st_count a (Some (MClass c)) w) = Ok (length (reg_type l (c_modelname c))).
Proof.
  intros (ad & d & [H1 H2] & ND & NL & HB). unfold st_count, bind, get_adapter, get_state. rewrite H1, H2, put_store_eq.
  simpl. now rewrite HB, <- entries_type, map_length.
Qed.
Lemma count_name w a l m : RegOf w a l -> m <> "" -> snd (st_count a (Some (MName m)) w) = Ok (length (reg_type l m)).
Proof.
  intros (ad & d & [H1 H2] & ND & NL & HB) N. unfold st_count, bind, get_adapter, get_state. rewrite H1, H2.
  destruct m as [|x m]; [congruence|]. rewrite put_store_eq.
  simpl. now rewrite HB, <- entries_type, map_length.
Qed.
Lemma get_all_reg w a l m : RegOf w a l -> snd (st_get_all a m w) = Ok (reg_type l (spec_name m)).
Proof.
  intros (ad & d & L & ND & NL & HB). rewrite (st_get_all_local _ _ _ _ _ L). simpl. now rewrite HB, <- entries_type.
Qed.
Lemma count_none w a l : RegOf w a l -> st_count a None w = (w, Ok (length l)).
Proof.
  intros R. pose proof R as (ad & d & [H1 H2] & ND & NL & HB). unfold st_count, bind, get_adapter, get_state.
  rewrite H1, H2, (RegOf_count _ _ _ R). reflexivity.
Qed.

Lemma counts_agree a ops w0 : fresh_local w0 a ->
  let w := fst (exec_all a ops w0) in
  let l := fst (spec_all a ops w0 []) in
  exists names,
    st_get_all_model_names a w = (w, Ok names) /\ NoDup names /\
    (forall t u r, lookup w a t u = Some r -> In t names) /\
    st_count a None w = (w, Ok (count_all w a)) /\
    count_all w a = list_sum (map (fun m => length (reg_type l m)) names) /\
    (forall m, snd (st_get_all a m w) = Ok (reg_type l (spec_name m))) /\
    (forall c, snd (st_count a (Some (MClass c)) w) = Ok (length (reg_type l (c_modelname c)))) /\
    (forall m, m <> "" -> snd (st_count a (Some (MName m)) w) = Ok (length (reg_type l m))).
Proof.
  intros F w l. pose proof (proj2 (history a ops w0 [] (fresh_RegOf _ _ F))) as R. fold w l in R.
  destruct (names_reg _ _ _ R) as (names & E & ND & H & S). exists names.
  split; [exact E|]. split; [exact ND|]. rewrite (RegOf_count _ _ _ R). repeat split; auto.
  - intros t u r X. rewrite (RegOf_lookup _ _ _ _ _ R) in X. apply H.
    apply reg_find_In in X; [|eapply RegOf_nodup; eauto]. apply (in_map (fun e => fst (fst e))) in X. exact X.
  - now apply count_none.
  - intros m. now apply get_all_reg.
  - intros c. now apply count_class.
  - intros m. now apply count_name.
Qed.

(** ** C25 *)
Lemma find_all_ok l t us : (forall rs, find_all l t us = Ok rs <-> Forall2 (fun u r => reg_find l t u = Some r) us rs).
Proof.
  induction us as [|u us IH]; intros rs; simpl.
  - split; [intros H; injection H as <-; constructor|intros H; inversion H; reflexivity].
  - destruct (reg_find l t u) as [r|] eqn:E.
    + destruct (find_all l t us) as [rs'|e]; simpl.
      * split.
        -- intros H. injection H as <-. constructor; [exact E|]. now apply IH.
        -- intros H. inversion H; subst. apply IH in H4. injection H4 as <-. congruence.
      * split; [discriminate|]. intros H. inversion H; subst. apply IH in H4. discriminate.
    + split; [discriminate|]. intros H. inversion H; subst. congruence.
Qed.
Lemma find_all_err l t us e : find_all l t us = Err e -> e = ObjectNotFound /\ exists u, In u us /\ reg_find l t u = None.
Proof.
  induction us as [|u us IH]; simpl; [discriminate|]. destruct (reg_find l t u) eqn:E.
  - destruct (find_all l t us); simpl; [discriminate|]. intros H. destruct (IH H) as (X & u' & I & F). eauto.
  - intros H. injection H as <-. split; [reflexivity|]. exists u. auto.
Qed.

Lemma by_uids_local a us t w : local_ok w a ->
  (forall rs, snd (st_get_by_uids a us (MName t) w) = Ok rs <-> Forall2 (fun u r => lookup w a t u = Some r) us rs) /\
  (forall e, snd (st_get_by_uids a us (MName t) w) = Err e ->
     e = ObjectNotFound /\ exists u, In u us /\ lookup w a t u = None).
Proof.
  intros LO. destruct (local_ok_RegOf _ _ LO) as [l R].
  destruct (get_by_uids_local us t w a l R) as (w' & E & _). rewrite E. simpl. split.
  - intros rs. rewrite find_all_ok.
    split; intros H; refine (Forall2_impl _ _ _ _ _ H); intros x y; rewrite (RegOf_lookup _ _ _ _ _ R); auto.
  - intros e H. destruct (find_all_err _ _ _ _ H) as (-> & u & I & F). split; [reflexivity|].
    exists u. rewrite (RegOf_lookup _ _ _ _ _ R). auto.
Qed.

(** ** C26 *)
Lemma st_get_present a m i w oc u r : 
  (forall ad, nth_error (w_ads w) a = Some ad -> get_uid (fst (object_class_and_model ad m)) i = Ok u) ->
  oc = spec_name m -> lookup w a oc u = Some r -> st_get a m i w = (w, Ok r).
Proof.
  intros HU -> F. destruct (lookup_is_local _ _ _ _ _ F) as (ad & d & L).
  rewrite (lookup_local _ _ _ _ _ _ L) in F.
  rewrite (st_get_local _ _ _ _ _ _ _ L (HU _ (proj1 L))). rewrite F. f_equal. exact (upd_known _ _ _ _ _ _ _ L F).
Qed.
Lemma st_get_absent a m i w ad d u : is_local w a ad d ->
  get_uid (fst (object_class_and_model ad m)) i = Ok u -> lookup w a (spec_name m) u = None ->
  st_get a m i w = (upd_store w a (SLocal (touch d (spec_name m))), Err ObjectNotFound).
Proof.
  intros L HU F. rewrite (lookup_local _ _ _ _ _ _ L) in F. rewrite (st_get_local _ _ _ _ _ _ _ L HU). now rewrite F.
Qed.

Lemma alloc_add a w o u ad d : is_local w a ad d -> get_unique_id o = Ok u -> lookup w a (get_type o) u = None ->
  forall d1, d1 = d \/ d1 = touch d (get_type o) ->
  exists w', (r <- halloc o ;; st_add a r ;;; ret (r, true)) (upd_store w a (SLocal d1)) = (w', Ok (length (w_heap w), true)) /\
    lookup w' a (get_type o) u = Some (length (w_heap w)) /\ not_key (get_type o, u) w w' a /\
    (exists o', nth_error (w_heap w') (length (w_heap w)) = Some o' /\ set_o_adapter o' None = set_o_adapter o None) /\
    length (w_heap w') = S (length (w_heap w)) /\
    (forall r, r < length (w_heap w) -> nth_error (w_heap w') r = nth_error (w_heap w) r) /\ framed a w w'.
Proof.
  intros L HU F d1 HD. set (w1 := upd_store w a (SLocal d1)).
  assert (L1 : is_local (fst (halloc o w1)) a (set_ad_store ad (SLocal d1)) d1).
  { exact (is_local_upd _ _ _ _ d1 L). }
  assert (B : forall t, bucket d1 t = bucket d t) by (intros t; destruct HD as [->| ->]; [reflexivity|apply touch_bucket]).
  assert (HH : w_heap (fst (halloc o w1)) = w_heap w ++ [o]) by (simpl; unfold w1; now rewrite upd_store_heap).
  assert (Ho : nth_error (w_heap (fst (halloc o w1))) (length (w_heap w)) = Some o).
  { rewrite HH, nth_error_app2, Nat.sub_diag by lia. reflexivity. }
  assert (F1 : lookup (fst (halloc o w1)) a (get_type o) u = None).
  { rewrite (lookup_local _ _ _ _ _ _ L1), B, <- (lookup_local _ _ _ _ _ _ L). exact F. }
  destruct (add_absent a (length (w_heap w)) _ o u (ex_intro _ _ (ex_intro _ _ L1)) Ho HU F1)
    as (w' & E & X1 & X2 & X3 & X4 & X5 & X6).
  exists w'. split; [|split; [|split; [|split; [|split; [|split]]]]].
  - unfold bind. unfold halloc at 1. simpl in E. unfold w1 in *. rewrite upd_store_heap in *.
    rewrite E. reflexivity.
  - exact X1.
  - intros t' u' N. rewrite (X2 _ _ N), (lookup_local _ _ _ _ _ _ L1), B. symmetry. exact (lookup_local _ _ _ _ _ _ L).
  - destruct (sba_nth_l _ _ _ _ X3 Ho) as (o' & Ho' & S). exists o'. split; [exact Ho'|]. first [exact S|symmetry; exact S].
  - rewrite <- (Forall2_length' _ _ _ X3), HH, app_length. simpl. lia.
  - intros r LT. rewrite X4 by lia. rewrite HH, nth_error_app1 by lia. reflexivity.
  - eapply framed_trans; [|exact X5]. eapply framed_trans; [apply framed_upd|apply framed_set_heap].
Qed.

Lemma inst_vals c kw kids fl ad o : instantiate c kw kids fl ad = Ok o ->
  o_cls o = c /\ dkeys (o_vals o) = map fst (c_fields c) /\
  (forall k v, In k (map fst (c_fields c)) -> dget kw k = Some v -> dget (o_vals o) k = Some v).
Proof.
  unfold instantiate. match goal with |- context [rmapM ?g] => set (f := g) end.
  destruct (rmapM f (c_fields c)) as [vals|e] eqn:E; simpl; [|discriminate]. intros H. injection H as <-. simpl.
  split; [reflexivity|]. revert vals E. induction (c_fields c) as [|[n df] l IH]; simpl; intros vals E.
  - injection E as <-. split; [reflexivity|]. intros k v [].
  - unfold f in E at 1. simpl in E.
    assert (exists v0, vals = (n, v0) :: (match rmapM f l with Ok x => x | Err _ => [] end) /\
      (forall v, dget kw n = Some v -> v0 = v) /\ exists x, rmapM f l = Ok x) as (v0 & -> & HV & x & HX).
    { destruct (dget kw n) eqn:G; simpl in E.
      - destruct (rmapM f l); simpl in E; [|discriminate]. injection E as <-. eexists. split; [reflexivity|]. split; [congruence|eauto].
      - destruct df; simpl in E; [|discriminate]. destruct (rmapM f l); simpl in E; [|discriminate].
        injection E as <-. eexists. split; [reflexivity|]. split; [congruence|eauto]. }
    rewrite HX. destruct (IH x HX) as [IH1 IH2]. split; [simpl; now rewrite IH1|].
    intros k v I G. simpl. destruct (String.eqb_spec k n) as [->|N]; [f_equal; now apply HV|].
    apply IH2; [|exact G]. destruct I; [congruence|assumption].
Qed.

Lemma rmapM_ext {A B} (f g : A -> result B) l : (forall x, In x l -> f x = g x) -> rmapM f l = rmapM g l.
Proof.
  intros H. induction l as [|x l IH]; [reflexivity|]. simpl. rewrite (H x (or_introl eq_refl)).
  rewrite IH; [reflexivity|]. intros y I. apply H. now right.
Qed.
Lemma rmapM_In {A B} (f : A -> result B) l ys x : rmapM f l = Ok ys -> In x l -> exists y, f x = Ok y.
Proof.
  revert ys. induction l as [|z l IH]; intros ys E I; [destruct I|]. simpl in E. destruct I as [->|I].
  - destruct (f x); [eauto|discriminate].
  - destruct (f z); [|discriminate]. simpl in E. destruct (rmapM f l); [|discriminate]. eapply IH; eauto.
Qed.
Lemma uid_of_dict c ids u o : create_unique_id c ids = Ok u -> o_cls o = c ->
  (forall k v, In k (c_identifiers c) -> dget ids k = Some v -> dget (o_vals o) k = Some v) ->
  get_unique_id o = Ok u.
Proof.
  intros E HC HV. unfold get_unique_id. rewrite HC. unfold create_unique_id in *.
  match type of E with context [rmapM ?g] => set (f := g) in * end.
  match goal with |- context [rmapM ?g] => set (f' := g) end.
  destruct (rmapM f (c_identifiers c)) as [ys|] eqn:X; [|discriminate].
  rewrite (rmapM_ext f' f (c_identifiers c)); [now rewrite X|]. intros k I.
  destruct (rmapM_In _ _ _ _ X I) as [y Y]. unfold f, f' in *. unfold dict_item in *.
  destruct (dget ids k) as [v|] eqn:G; [|discriminate].
  unfold get_identifiers, dump_include. rewrite (dget_filter_key (fun x => smem x (c_identifiers (o_cls o)))).
  rewrite HC. assert (smem k (c_identifiers c) = true) as -> by (now apply smem_In).
  now rewrite (HV k v I G).
Qed.

Lemma inst_uid c ids attrs kw u o x : ids_are_fields c ->
  create_unique_id c ids = Ok u -> merge_kw ids attrs = Ok kw ->
  instantiate c kw [] None x = Ok o -> get_unique_id o = Ok u.
Proof.
  intros HI HU HK HO. destruct (inst_vals _ _ _ _ _ _ HO) as (HC & HD & HV).
  apply (uid_of_dict c ids); auto. intros k v I G. apply HV; [now apply HI|].
  unfold merge_kw in HK. destruct (existsb _ ids); [discriminate|]. injection HK as <-. rewrite dget_app, G. reflexivity.
Qed.

Lemma goi_present a c ids attrs w u r : create_unique_id c ids = Ok u -> lookup w a (c_modelname c) u = Some r ->
  st_get_or_instantiate a c ids attrs w = (w, Ok (r, false)).
Proof.
  intros HU F. unfold st_get_or_instantiate, try_catch, bind.
  rewrite (st_get_present a (MClass c) (IdDict ids) w (c_modelname c) u r); [reflexivity| |reflexivity|exact F].
  intros ad _. simpl. exact HU.
Qed.

Lemma goi_absent a c ids attrs w u kw o ad d : is_local w a ad d -> ids_are_fields c ->
  create_unique_id c ids = Ok u -> lookup w a (c_modelname c) u = None ->
  merge_kw ids attrs = Ok kw -> instantiate c kw [] None None = Ok o ->
  exists w', st_get_or_instantiate a c ids attrs w = (w', Ok (length (w_heap w), true)) /\ created a w w' o u.
Proof.
  intros L HI HU F HK HO. destruct (inst_vals _ _ _ _ _ _ HO) as (HC & _).
  assert (T : get_type o = c_modelname c) by (unfold get_type; now rewrite HC).
  pose proof (inst_uid _ _ _ _ _ _ _ HI HU HK HO) as Hu. rewrite <- T in F.
  destruct (alloc_add a w o u ad d L Hu F (touch d (get_type o)) (or_intror eq_refl)) as (w' & E & X).
  exists w'. split; [|exact X]. unfold st_get_or_instantiate, try_catch. unfold bind at 1.
  rewrite T in *. rewrite (st_get_absent a (MClass c) (IdDict ids) w ad d u L HU F). simpl is_not_found. cbv iota.
  unfold bind at 1, lift. rewrite HK. unfold bind at 1. rewrite HO. exact E.
Qed.

Lemma goami_present a r w o u r' : nth_error (w_heap w) r = Some o -> get_unique_id o = Ok u ->
  lookup w a (get_type o) u = Some r' -> st_get_or_add_model_instance a r w = (w, Ok (r', false)).
Proof.
  intros Ho HU F. unfold st_get_or_add_model_instance. unfold bind at 1. rewrite (hget_eq _ _ _ Ho).
  unfold bind at 1, lift. rewrite HU. unfold try_catch, bind.
  rewrite (st_get_present a (MName (get_type o)) (IdStr u) w (get_type o) u r'); [reflexivity| |reflexivity|exact F].
  intros ad _. reflexivity.
Qed.

Lemma not_found_then_add a w o u ad d r : is_local w a ad d -> nth_error (w_heap w) r = Some o ->
  get_unique_id o = Ok u -> lookup w a (get_type o) u = None ->
  exists w', try_catch (r' <- st_get a (MName (get_type o)) (IdStr u) ;; ret (r', false)) is_not_found
    (fun _ => st_add a r ;;; ret (r, true)) w = (w', Ok (r, true)) /\ placed a w w' r (get_type o) u.
Proof.
  intros L Ho HU F. set (w1 := upd_store w a (SLocal (touch d (get_type o)))).
  pose proof (is_local_upd _ _ _ _ (touch d (get_type o)) L) as L1. fold w1 in L1.
  assert (F1 : lookup w1 a (get_type o) u = None).
  { rewrite (lookup_local _ _ _ _ _ _ L1), touch_bucket, <- (lookup_local _ _ _ _ _ _ L). exact F. }
  assert (Ho1 : nth_error (w_heap w1) r = Some o) by (unfold w1; now rewrite upd_store_heap).
  destruct (add_absent a r w1 o u (ex_intro _ _ (ex_intro _ _ L1)) Ho1 HU F1) as (w' & E & X1 & X2 & X3 & X4 & X5 & X6).
  exists w'. split.
  - unfold try_catch. unfold bind at 1.
    rewrite (st_get_absent a (MName (get_type o)) (IdStr u) w ad d u L eq_refl F).
    change (spec_name (MName (get_type o))) with (get_type o). simpl is_not_found. cbv iota.
    fold w1. unfold bind. rewrite E. reflexivity.
  - assert (HH : w_heap w1 = w_heap w) by (unfold w1; apply upd_store_heap). rewrite HH in *.
    split; [exact X1|]. split; [|split; [exact X3|split; [exact X4|]]].
    + intros t' u' N. rewrite (X2 _ _ N), (lookup_local _ _ _ _ _ _ L1), touch_bucket. symmetry. exact (lookup_local _ _ _ _ _ _ L).
    + eapply framed_trans; [apply framed_upd|exact X5].
Qed.
Lemma goami_absent a r w o u ad d : is_local w a ad d -> nth_error (w_heap w) r = Some o ->
  get_unique_id o = Ok u -> lookup w a (get_type o) u = None ->
  exists w', st_get_or_add_model_instance a r w = (w', Ok (r, true)) /\ placed a w w' r (get_type o) u.
Proof.
  intros L Ho HU F. destruct (not_found_then_add a w o u ad d r L Ho HU F) as (w' & E & X).
  exists w'. split; [|exact X]. unfold st_get_or_add_model_instance. unfold bind at 1. rewrite (hget_eq _ _ _ Ho).
  unfold bind at 1, lift. rewrite HU. exact E.
Qed.

(** *** the update loops *)
Lemma setattr_val_ok o k v : In k (dkeys (o_vals o)) -> setattr_val o k v = Ok (set_o_vals o (dset (o_vals o) k v)).
Proof. intros H. unfold setattr_val. assert (dmem (o_vals o) k = true) as -> by (now apply dmem_In). reflexivity. Qed.

Lemma dkeys_dset_in {A} (d : dict A) k v : In k (dkeys d) -> dkeys (dset d k v) = dkeys d.
Proof.
  intros H. destruct (dget d k) eqn:E; [eapply dkeys_dset_known; eauto|].
  apply dget_None in E. contradiction.
Qed.

Lemma update_changed_spec attrs : forall o, NoDup (dkeys attrs) -> incl (dkeys attrs) (dkeys (o_vals o)) ->
  exists vals, update_changed o attrs = (set_o_vals o vals, Ok tt) /\ dkeys vals = dkeys (o_vals o) /\
    (forall k, dget attrs k = None -> dget vals k = dget (o_vals o) k) /\
    (forall k v, dget attrs k = Some v -> exists v', dget vals k = Some v' /\ (v' = v \/ (py_eq v' v = true /\ dget (o_vals o) k = Some v'))).
Proof.
  induction attrs as [|[k v] attrs IH]; intros o ND HI.
  - exists (o_vals o). split; [destruct o; reflexivity|]. split; [reflexivity|]. split; [reflexivity|]. simpl. discriminate.
  - simpl in ND. inversion ND as [|? ? N1 N2]; subst.
    assert (K : In k (dkeys (o_vals o))) by (apply HI; now left).
    destruct (dget (o_vals o) k) as [v0|] eqn:G; [|apply dget_None in G; contradiction].
    simpl. unfold getattr_val. rewrite G.
    assert (AK : dget attrs k = None) by (now apply dget_None).
    destruct (py_eq v0 v) eqn:Q.
    + destruct (IH o N2 (fun x I => HI x (or_intror I))) as (vals & E & D & H1 & H2). exists vals.
      split; [exact E|]. split; [exact D|]. split.
      * intros k' X. simpl in X; destruct (String.eqb k' k); [discriminate|]. now apply H1.
      * intros k' v' X. simpl in X; destruct (String.eqb k' k) eqn:N; [apply String.eqb_eq in N; subst k'|apply String.eqb_neq in N]; [|now apply H2].
        injection X as <-. exists v0. rewrite (H1 k AK). split; [exact G|]. right. auto.
    + rewrite (setattr_val_ok _ _ _ K). set (o1 := set_o_vals o (dset (o_vals o) k v)).
      assert (D1 : dkeys (o_vals o1) = dkeys (o_vals o)) by (simpl; now apply dkeys_dset_in).
      destruct (IH o1 N2) as (vals & E & D & H1 & H2). { intros x I. rewrite D1. apply HI. now right. }
      exists vals. rewrite E. split; [reflexivity|]. split; [congruence|]. split.
      * intros k' X. simpl in X; destruct (String.eqb k' k) eqn:N; [apply String.eqb_eq in N; subst k'|apply String.eqb_neq in N]; [discriminate|]. rewrite (H1 k' X). simpl.
        apply dget_dset_neq. congruence.
      * intros k' v' X. simpl in X; destruct (String.eqb k' k) eqn:N; [apply String.eqb_eq in N; subst k'|apply String.eqb_neq in N].
        -- injection X as <-. exists v. rewrite (H1 k AK). simpl. rewrite dget_dset_eq. auto.
        -- destruct (H2 k' v' X) as (v2 & A1 & A2). exists v2. split; [exact A1|]. destruct A2 as [A2|[A2 A3]]; [now left|].
           right. split; [exact A2|]. simpl in A3. rewrite dget_dset_neq in A3 by congruence. exact A3.
Qed.

Lemma setattrs_spec attrs : forall o, NoDup (dkeys attrs) -> incl (dkeys attrs) (dkeys (o_vals o)) ->
  exists vals, setattrs o attrs = (set_o_vals o vals, Ok tt) /\ dkeys vals = dkeys (o_vals o) /\
    (forall k, dget attrs k = None -> dget vals k = dget (o_vals o) k) /\
    (forall k v, dget attrs k = Some v -> dget vals k = Some v).
Proof.
  induction attrs as [|[k v] attrs IH]; intros o ND HI.
  - exists (o_vals o). split; [destruct o; reflexivity|]. split; [reflexivity|]. split; [reflexivity|]. simpl. discriminate.
  - simpl in ND. inversion ND as [|? ? N1 N2]; subst.
    assert (K : In k (dkeys (o_vals o))) by (apply HI; now left).
    simpl. rewrite (setattr_val_ok _ _ _ K). set (o1 := set_o_vals o (dset (o_vals o) k v)).
    assert (AK : dget attrs k = None) by (now apply dget_None).
    assert (D1 : dkeys (o_vals o1) = dkeys (o_vals o)) by (simpl; now apply dkeys_dset_in).
    destruct (IH o1 N2) as (vals & E & D & H1 & H2). { intros x I. rewrite D1. apply HI. now right. }
    exists vals. rewrite E. split; [reflexivity|]. split; [congruence|]. split.
    + intros k' X. simpl in X; destruct (String.eqb k' k) eqn:N; [apply String.eqb_eq in N; subst k'|apply String.eqb_neq in N]; [discriminate|]. rewrite (H1 k' X). simpl.
      apply dget_dset_neq. congruence.
    + intros k' v' X. simpl in X; destruct (String.eqb k' k) eqn:N; [apply String.eqb_eq in N; subst k'|apply String.eqb_neq in N].
      * injection X as <-. rewrite (H1 k AK). simpl. apply dget_dset_eq.
      * now apply H2.
Qed.

Lemma mutate_ok r f w o o' : nth_error (w_heap w) r = Some o -> f o = (o', Ok tt) ->
  mutate r f w = (set_heap w (list_set (w_heap w) r o'), Ok tt).
Proof. intros Ho E. unfold mutate, bind. rewrite (hget_eq _ _ _ Ho). unfold hset, modify, lift. now rewrite E. Qed.

Lemma uoi_present a c ids attrs w u r o : create_unique_id c ids = Ok u -> lookup w a (c_modelname c) u = Some r ->
  nth_error (w_heap w) r = Some o -> NoDup (dkeys attrs) -> incl (dkeys attrs) (dkeys (o_vals o)) ->
  exists w', st_update_or_instantiate a c ids attrs w = (w', Ok (r, false)) /\ attrs_set w w' r attrs.
Proof.
  intros HU F Ho ND HI. destruct (update_changed_spec attrs o ND HI) as (vals & E & D & H1 & H2).
  eexists. split.
  - unfold st_update_or_instantiate. change (try_catch _ _ _) with (st_get_or_instantiate a c ids attrs).
    rewrite (bind_eq _ _ _ _ _ (goi_present _ _ _ attrs _ _ _ HU F)). simpl fst.
    rewrite (bind_eq _ _ _ _ _ (mutate_ok _ _ _ _ _ Ho E)). reflexivity.
  - exists o, vals. repeat split; auto. intros k v G. destruct (H2 k v G) as (v' & A & [B|[B _]]); eauto.
Qed.
Lemma uoi_absent a c ids attrs w u kw o ad d : is_local w a ad d -> ids_are_fields c ->
  create_unique_id c ids = Ok u -> lookup w a (c_modelname c) u = None ->
  merge_kw ids attrs = Ok kw -> instantiate c kw [] None None = Ok o ->
  NoDup (dkeys attrs) -> incl (dkeys attrs) (map fst (c_fields c)) ->
  exists w1 w', st_update_or_instantiate a c ids attrs w = (w', Ok (length (w_heap w), true)) /\
    created a w w1 o u /\ attrs_set w1 w' (length (w_heap w)) attrs.
Proof.
  intros L HI HU F HK HO ND HA. destruct (goi_absent a c ids attrs w u kw o ad d L HI HU F HK HO) as (w1 & E & X).
  pose proof X as (X1 & X2 & (o' & X3 & X4) & X5 & X6 & X7). exists w1.
  destruct (inst_vals _ _ _ _ _ _ HO) as (HC & HD & HV).
  assert (HO' : o_vals o' = o_vals o) by (now injection X4).
  assert (IN : incl (dkeys attrs) (dkeys (o_vals o'))) by (rewrite HO', HD; exact HA).
  destruct (update_changed_spec attrs o' ND IN) as (vals & E2 & D & H1 & H2).
  eexists. split; [|split; [exact X|]].
  - unfold st_update_or_instantiate. change (try_catch _ _ _) with (st_get_or_instantiate a c ids attrs).
    rewrite (bind_eq _ _ _ _ _ E). simpl fst.
    rewrite (bind_eq _ _ _ _ _ (mutate_ok _ _ _ _ _ X3 E2)). reflexivity.
  - exists o', vals. repeat split; auto. intros k v G. destruct (H2 k v G) as (v' & A & [B|[B _]]); eauto.
Qed.

Lemma uoami_present a r w o u r' o' : nth_error (w_heap w) r = Some o -> get_unique_id o = Ok u ->
  lookup w a (get_type o) u = Some r' -> nth_error (w_heap w) r' = Some o' ->
  NoDup (dkeys (o_vals o)) -> incl (dkeys (get_attrs o)) (dkeys (o_vals o')) ->
  exists w', st_update_or_add_model_instance a r w = (w', Ok (r', false)) /\ attrs_set w w' r' (get_attrs o).
Proof.
  intros Ho HU F Ho' ND HI.
  assert (NA : NoDup (dkeys (get_attrs o))).
  { unfold get_attrs, dump_include. rewrite (dkeys_filter_key (fun x => smem x _)). now apply NoDup_filter. }
  destruct (setattrs_spec (get_attrs o) o' NA HI) as (vals & E & D & H1 & H2).
  eexists. split.
  - unfold st_update_or_add_model_instance. rewrite (bind_eq _ _ _ _ _ (hget_eq _ _ _ Ho)).
    unfold bind at 1, lift. rewrite HU. cbv zeta.
    assert (G : try_catch (r' <- st_get a (MName (get_type o)) (IdStr u) ;; ret (r', false)) is_not_found
      (fun _ => st_add a r ;;; ret (r, true)) w = (w, Ok (r', false))).
    { unfold try_catch, bind. rewrite (st_get_present a (MName (get_type o)) (IdStr u) w (get_type o) u r');
        [reflexivity| |reflexivity|exact F]. intros ad _. reflexivity. }
    rewrite (bind_eq _ _ _ _ _ G). simpl fst. rewrite (bind_eq _ _ _ _ _ (mutate_ok _ _ _ _ _ Ho' E)). reflexivity.
  - exists o', vals. repeat split; auto. intros k v G. exists v. auto.
Qed.
Lemma uoami_absent a r w o u ad d : is_local w a ad d -> nth_error (w_heap w) r = Some o ->
  get_unique_id o = Ok u -> lookup w a (get_type o) u = None -> NoDup (dkeys (o_vals o)) ->
  exists w1 w', st_update_or_add_model_instance a r w = (w', Ok (r, true)) /\
    placed a w w1 r (get_type o) u /\ attrs_set w1 w' r (get_attrs o).
Proof.
  intros L Ho HU F ND. destruct (not_found_then_add a w o u ad d r L Ho HU F) as (w1 & E & X).
  pose proof X as (X1 & X2 & X3 & X4 & X5). destruct (sba_nth_l _ _ _ _ X3 Ho) as (o' & Ho' & S).
  assert (HO' : o_vals o' = o_vals o) by (now injection S).
  assert (NA : NoDup (dkeys (get_attrs o))).
  { unfold get_attrs, dump_include. rewrite (dkeys_filter_key (fun x => smem x _)). now apply NoDup_filter. }
  assert (HI : incl (dkeys (get_attrs o)) (dkeys (o_vals o'))).
  { rewrite HO'. unfold get_attrs, dump_include. rewrite (dkeys_filter_key (fun x => smem x _)). apply incl_filter. }
  destruct (setattrs_spec (get_attrs o) o' NA HI) as (vals & E2 & D & H1 & H2).
  exists w1. eexists. split; [|split; [exact X|]].
  - unfold st_update_or_add_model_instance. rewrite (bind_eq _ _ _ _ _ (hget_eq _ _ _ Ho)).
    unfold bind at 1, lift. rewrite HU. cbv zeta.
    rewrite (bind_eq _ _ _ _ _ E). simpl fst. rewrite (bind_eq _ _ _ _ _ (mutate_ok _ _ _ _ _ Ho' E2)). reflexivity.
  - exists o', vals. repeat split; auto. intros k v G. exists v. auto.
Qed.

(** ** C27 *)
Lemma remove_adapter a r w o u l : RegOf w a l -> nth_error (w_heap w) r = Some o -> get_unique_id o = Ok u ->
  lookup w a (get_type o) u = Some r -> o_adapter o = Some a \/ o_adapter o = None ->
  exists w' o', st_remove 1 a r false w = (w', Ok tt) /\ lookup w' a (get_type o) u = None /\
    nth_error (w_heap w') r = Some o' /\
    (o_adapter o' = None <-> o_adapter o = None \/ 2 <= count_all w a).
Proof.
  intros R Ho HU F HA. pose proof R as (ad & d & L & ND & NL & HB).
  rewrite (RegOf_lookup _ _ _ _ _ R) in F.
  assert (DF : dget (bucket d (get_type o)) u = Some r) by (rewrite HB, entries_find; exact F).
  set (w1 := upd_store w a (SLocal (dset d (get_type o) (ddel (bucket d (get_type o)) u)))).
  assert (R1 : RegOf w1 a (reg_del l (get_type o) u)) by (exact (RegOf_del _ _ _ _ _ _ _ R L)).
  assert (Ho1 : nth_error (w_heap w1) r = Some o) by (unfold w1; now rewrite upd_store_heap).
  set (w2 := if adapter_truthy w1 (o_adapter o) then set_heap w1 (list_set (w_heap w1) r (set_o_adapter o None)) else w1).
  assert (E : st_remove 1 a r false w = (w2, Ok tt)).
  { simpl. rewrite (bind_eq _ _ _ _ _ (hget_eq _ _ _ Ho)). unfold bind at 1, lift. rewrite HU.
    unfold bind at 1. rewrite (st_remove_item_local _ _ _ _ _ _ L), DF. fold w1.
    unfold bind. rewrite (clear_adapter_eq _ _ _ Ho1). unfold w2. destruct (adapter_truthy w1 (o_adapter o)); reflexivity. }
  pose proof (reg_del_length _ _ _ _ NL F) as LN.
  exists w2, (if adapter_truthy w1 (o_adapter o) then set_o_adapter o None else o). split; [exact E|].
  assert (R2 : RegOf w2 a (reg_del l (get_type o) u)) by (unfold w2; destruct (adapter_truthy _ _); [now apply RegOf_set_heap|exact R1]).
  split; [|split].
  - rewrite (RegOf_lookup _ _ _ _ _ R2), reg_del_find by exact NL. now rewrite !String.eqb_refl.
  - unfold w2. destruct (adapter_truthy _ _); [simpl; eapply nth_list_set_eq; eauto|exact Ho1].
  - rewrite (RegOf_count _ _ _ R). destruct HA as [HA|HA]; rewrite HA; simpl.
    + rewrite (RegOf_count _ _ _ R1). destruct (Nat.eqb_spec (length (reg_del l (get_type o) u)) 0) as [Z|Z]; simpl.
      * rewrite HA. split; [discriminate|]. intros [X|X]; [discriminate|lia].
      * split; [|reflexivity]. intros _. right. lia.
    + rewrite HA. split; auto.
Qed.

(** ** The statements in the form used by PropStore *)
Lemma register_laws (l : reg) (t u t' u' : string) (r : ref) : NoDup (map fst l) ->
  reg_find (reg_put l t u r) t u = Some r /\
  reg_find (reg_del l t u) t u = None /\
  ((t', u') <> (t, u) ->
     reg_find (reg_put l t u r) t' u' = reg_find l t' u' /\ reg_find (reg_del l t u) t' u' = reg_find l t' u').
Proof.
  intros ND. split; [|split].
  - rewrite <- !entries_find, reg_put_entries by exact ND. rewrite String.eqb_refl. apply dget_dset_eq.
  - rewrite reg_del_find by exact ND. now rewrite !String.eqb_refl.
  - intros N. split.
    + rewrite <- !entries_find, reg_put_entries by exact ND.
      destruct (String.eqb t' t) eqn:T; [|reflexivity]. apply String.eqb_eq in T. subst t'.
      apply dget_dset_neq. congruence.
    + rewrite reg_del_find by exact ND. destruct (String.eqb t' t) eqn:T; destruct (String.eqb u' u) eqn:U; try reflexivity.
      apply String.eqb_eq in T, U. congruence.
Qed.
Lemma add_stored (a : aid) (r r' : ref) (w : world) (o : obj) (u : string) :
  nth_error (w_heap w) r = Some o -> get_unique_id o = Ok u -> lookup w a (get_type o) u = Some r' ->
  (r' = r -> st_add a r w = (w, Ok tt)) /\
  (r' <> r -> st_add a r w = (w, Err ObjectAlreadyExists)).
Proof.
  intros H1 H2 H3. rewrite (add_present _ _ _ _ _ _ H1 H2 H3). destruct (Nat.eqb_spec r' r); split; congruence.
Qed.
Lemma add_new (a : aid) (r : ref) (w : world) (o : obj) (u : string) : has_local w a ->
  nth_error (w_heap w) r = Some o -> get_unique_id o = Ok u -> lookup w a (get_type o) u = None ->
  exists w', st_add a r w = (w', Ok tt) /\ placed a w w' r (get_type o) u /\ w_trace w' = w_trace w.
Proof.
  intros HL H1 H2 H3. destruct (add_absent _ _ _ _ _ HL H1 H2 H3) as (w' & E & X1 & X2 & X3 & X4 & X5 & X6).
  exists w'. repeat split; auto; apply X5.
Qed.
Lemma get_or_present (a : aid) (w : world) (r : ref) (u : string) :
  (forall c ids attrs, create_unique_id c ids = Ok u -> lookup w a (c_modelname c) u = Some r ->
     st_get_or_instantiate a c ids attrs w = (w, Ok (r, false))) /\
  (forall q o, nth_error (w_heap w) q = Some o -> get_unique_id o = Ok u -> lookup w a (get_type o) u = Some r ->
     st_get_or_add_model_instance a q w = (w, Ok (r, false))).
Proof. split; intros; [eapply goi_present|eapply goami_present]; eauto. Qed.
Lemma get_or_absent (a : aid) (w : world) (u : string) : has_local w a ->
  (forall c ids attrs kw o, ids_are_fields c -> create_unique_id c ids = Ok u ->
     lookup w a (c_modelname c) u = None ->
     merge_kw ids attrs = Ok kw -> instantiate c kw [] None None = Ok o ->
     exists w', st_get_or_instantiate a c ids attrs w = (w', Ok (length (w_heap w), true)) /\ created a w w' o u) /\
  (forall r o, nth_error (w_heap w) r = Some o -> get_unique_id o = Ok u -> lookup w a (get_type o) u = None ->
     exists w', st_get_or_add_model_instance a r w = (w', Ok (r, true)) /\ placed a w w' r (get_type o) u).
Proof. intros (ad & d & L). split; intros; [eapply goi_absent|eapply goami_absent]; eauto. Qed.
Lemma update_or_present (a : aid) (w : world) (r : ref) (u : string) (stored : obj) :
  nth_error (w_heap w) r = Some stored ->
  (forall c ids attrs, create_unique_id c ids = Ok u -> lookup w a (c_modelname c) u = Some r ->
     NoDup (dkeys attrs) -> incl (dkeys attrs) (dkeys (o_vals stored)) ->
     exists w', st_update_or_instantiate a c ids attrs w = (w', Ok (r, false)) /\ attrs_set w w' r attrs) /\
  (forall q o, nth_error (w_heap w) q = Some o -> get_unique_id o = Ok u -> lookup w a (get_type o) u = Some r ->
     NoDup (dkeys (o_vals o)) -> incl (dkeys (get_attrs o)) (dkeys (o_vals stored)) ->
     exists w', st_update_or_add_model_instance a q w = (w', Ok (r, false)) /\ attrs_set w w' r (get_attrs o)).
Proof. intros H. split; intros; [eapply uoi_present|eapply uoami_present]; eauto. Qed.
Lemma update_or_absent (a : aid) (w : world) (u : string) : has_local w a ->
  (forall c ids attrs kw o, ids_are_fields c -> create_unique_id c ids = Ok u ->
     lookup w a (c_modelname c) u = None ->
     merge_kw ids attrs = Ok kw -> instantiate c kw [] None None = Ok o ->
     NoDup (dkeys attrs) -> incl (dkeys attrs) (map fst (c_fields c)) ->
     exists w1 w', st_update_or_instantiate a c ids attrs w = (w', Ok (length (w_heap w), true)) /\
       created a w w1 o u /\ attrs_set w1 w' (length (w_heap w)) attrs) /\
  (forall r o, nth_error (w_heap w) r = Some o -> get_unique_id o = Ok u -> lookup w a (get_type o) u = None ->
     NoDup (dkeys (o_vals o)) ->
     exists w1 w', st_update_or_add_model_instance a r w = (w', Ok (r, true)) /\
       placed a w w1 r (get_type o) u /\ attrs_set w1 w' r (get_attrs o)).
Proof. intros (ad & d & L). split; intros; [eapply uoi_absent|eapply uoami_absent]; eauto. Qed.
Lemma adapter_cleared (a : aid) (r : ref) (w : world) (o : obj) (u : string) : local_ok w a ->
  nth_error (w_heap w) r = Some o -> get_unique_id o = Ok u ->
  lookup w a (get_type o) u = Some r -> o_adapter o = Some a \/ o_adapter o = None ->
  exists w' o', st_remove 1 a r false w = (w', Ok tt) /\ lookup w' a (get_type o) u = None /\
    nth_error (w_heap w') r = Some o' /\
    (o_adapter o' = None <-> o_adapter o = None \/ 2 <= count_all w a).
Proof. intros LO. destruct (local_ok_RegOf _ _ LO) as [l R]. intros. eapply remove_adapter; eauto. Qed.
