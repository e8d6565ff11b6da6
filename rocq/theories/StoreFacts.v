(** * StoreFacts: lemmas about stores and the world. *)
From Verif Require Export BaseFacts StoreSpec.

(** ** list_set *)
Lemma list_set_length {A} (l : list A) n x : length (list_set l n x) = length l.
Proof. revert n. induction l as [|y l IH]; intros [|n]; simpl; auto. Qed.

Lemma nth_list_set {A} (l : list A) n m x :
  nth_error (list_set l n x) m =
  if Nat.eqb m n then (if m <? length l then Some x else None) else nth_error l m.
Proof.
  revert n m. induction l as [|y l IH]; intros n m; simpl.
  - destruct m, n; simpl; try reflexivity; destruct (Nat.eqb m n); reflexivity.
  - destruct n as [|n], m as [|m]; simpl; try reflexivity. rewrite IH.
    destruct (Nat.eqb m n); [|reflexivity]. reflexivity.
Qed.

Lemma nth_list_set_eq {A} (l : list A) n x y : nth_error l n = Some y -> nth_error (list_set l n x) n = Some x.
Proof.
  intros H. rewrite nth_list_set, Nat.eqb_refl.
  assert (n < length l) by (apply nth_error_Some; congruence).
  destruct (Nat.ltb_spec n (length l)); [reflexivity|lia].
Qed.
Lemma nth_list_set_neq {A} (l : list A) n m x : m <> n -> nth_error (list_set l n x) m = nth_error l m.
Proof. intros H. rewrite nth_list_set. destruct (Nat.eqb_spec m n); [congruence|reflexivity]. Qed.

Lemma list_set_same {A} (l : list A) n x : nth_error l n = Some x -> list_set l n x = l.
Proof.
  revert n. induction l as [|y l IH]; intros [|n]; simpl; intros H; try discriminate.
  - injection H as ->. reflexivity.
  - now rewrite IH.
Qed.
Lemma list_set_set {A} (l : list A) n x y : list_set (list_set l n x) n y = list_set l n y.
Proof. revert n. induction l as [|z l IH]; intros [|n]; simpl; try reflexivity. now rewrite IH. Qed.

Lemma list_set_app {A} (l m : list A) n x : n < length l -> list_set (l ++ m) n x = list_set l n x ++ m.
Proof. revert n. induction l as [|y l IH]; intros [|n]; simpl; intros H; try lia; [reflexivity|]. rewrite IH by lia. reflexivity. Qed.

Lemma set_ads_same w : set_ads w (w_ads w) = w.
Proof. now destruct w. Qed.
Lemma set_heap_same w : set_heap w (w_heap w) = w.
Proof. now destruct w. Qed.

(** ** Buckets *)
Lemma touch_bucket d m m' : bucket (touch d m) m' = bucket d m'.
Proof.
  unfold touch. destruct (dget d m) eqn:E; [reflexivity|].
  unfold bucket. rewrite dget_dset. destruct (String.eqb_spec m' m); subst; [now rewrite E|reflexivity].
Qed.
Lemma touch_dset d m b : dset (touch d m) m b = dset d m b.
Proof.
  unfold touch. destruct (dget d m); [reflexivity|]. apply dset_dset.
Qed.
Lemma bucket_dset d m b m' : bucket (dset d m b) m' = if String.eqb m' m then b else bucket d m'.
Proof. unfold bucket. rewrite dget_dset. now destruct (String.eqb m' m). Qed.
Lemma touch_known d m : dget d m <> None -> touch d m = d.
Proof. unfold touch. destruct (dget d m); [reflexivity|congruence]. Qed.
Lemma bucket_nonempty_known d m u r : dget (bucket d m) u = Some r -> dget d m <> None.
Proof. unfold bucket. destruct (dget d m); [congruence|discriminate]. Qed.
Lemma bucket_In d m : bucket d m <> [] -> In (m, bucket d m) d.
Proof.
  unfold bucket. destruct (dget d m) eqn:E; [|congruence]. intros _. now apply dget_Some_In.
Qed.
Lemma In_bucket_In d m x : In x (bucket d m) -> In (m, bucket d m) d.
Proof. intros H. apply bucket_In. intros E. rewrite E in H. destruct H. Qed.

(** ** The world with the store of adapter [a] replaced *)
Definition upd_store (w : world) (a : aid) (s : store) : world :=
  match nth_error (w_ads w) a with
  | Some ad => set_ads w (list_set (w_ads w) a (set_ad_store ad s))
  | None => w
  end.
Lemma put_store_eq a s w : put_store a s w = (upd_store w a s, Ok tt).
Proof. reflexivity. Qed.
Lemma upd_store_same w a ad : nth_error (w_ads w) a = Some ad -> upd_store w a (ad_store ad) = w.
Proof.
  intros H. unfold upd_store. rewrite H. replace (set_ad_store ad (ad_store ad)) with ad by (now destruct ad).
  rewrite list_set_same by exact H. apply set_ads_same.
Qed.
Lemma upd_store_upd w a s1 s2 : upd_store (upd_store w a s1) a s2 = upd_store w a s2.
Proof.
  unfold upd_store. destruct (nth_error (w_ads w) a) as [ad|] eqn:E.
  - simpl. rewrite (nth_list_set_eq _ _ _ _ E). simpl. rewrite list_set_set. reflexivity.
  - now rewrite E.
Qed.
Lemma upd_store_get w a ad s : nth_error (w_ads w) a = Some ad ->
  nth_error (w_ads (upd_store w a s)) a = Some (set_ad_store ad s).
Proof. intros H. unfold upd_store. rewrite H. simpl. now apply (nth_list_set_eq _ _ _ _ H). Qed.
Lemma upd_store_other w a b s : b <> a -> nth_error (w_ads (upd_store w a s)) b = nth_error (w_ads w) b.
Proof.
  intros H. unfold upd_store. destruct (nth_error (w_ads w) a); [|reflexivity]. simpl. now apply nth_list_set_neq.
Qed.
Lemma upd_store_heap w a s : w_heap (upd_store w a s) = w_heap w.
Proof. unfold upd_store. now destruct (nth_error (w_ads w) a). Qed.
Lemma upd_store_redis w a s : w_redis (upd_store w a s) = w_redis w.
Proof. unfold upd_store. now destruct (nth_error (w_ads w) a). Qed.
Lemma upd_store_trace w a s : w_trace (upd_store w a s) = w_trace w.
Proof. unfold upd_store. now destruct (nth_error (w_ads w) a). Qed.
Lemma upd_store_set_heap w a s h : upd_store (set_heap w h) a s = set_heap (upd_store w a s) h.
Proof. unfold upd_store. simpl. now destruct (nth_error (w_ads w) a). Qed.
Lemma upd_store_ads_length w a s : length (w_ads (upd_store w a s)) = length (w_ads w).
Proof. unfold upd_store. destruct (nth_error (w_ads w) a); [|reflexivity]. simpl. apply list_set_length. Qed.

(** ** LocalStore adapters *)
Definition is_local (w : world) (a : aid) (ad : adapter) (d : dict (dict ref)) : Prop :=
  nth_error (w_ads w) a = Some ad /\ ad_store ad = SLocal d.

Lemma is_local_fun w a ad d ad' d' : is_local w a ad d -> is_local w a ad' d' -> ad = ad' /\ d = d'.
Proof. intros [H1 H2] [H3 H4]. rewrite H1 in H3. injection H3 as <-. rewrite H2 in H4. injection H4 as <-. auto. Qed.

Lemma is_local_upd w a ad d d' : is_local w a ad d -> is_local (upd_store w a (SLocal d')) a (set_ad_store ad (SLocal d')) d'.
Proof. intros [H1 H2]. split; [now apply upd_store_get|reflexivity]. Qed.

Lemma upd_known w a ad d m u r :
  is_local w a ad d -> dget (bucket d m) u = Some r -> upd_store w a (SLocal (touch d m)) = w.
Proof.
  intros [H1 H2] H. rewrite touch_known by (eapply bucket_nonempty_known; eauto).
  rewrite <- H2. now apply upd_store_same.
Qed.

Lemma st_get_local a m i w ad d uid :
  is_local w a ad d ->
  get_uid (fst (object_class_and_model ad m)) i = Ok uid ->
  st_get a m i w =
  (upd_store w a (SLocal (touch d (spec_name m))),
   match dget (bucket d (spec_name m)) uid with Some r => Ok r | None => Err ObjectNotFound end).
Proof.
  intros [H1 H2] Hu. unfold st_get, bind, get_adapter. rewrite H1. unfold lift. rewrite Hu, H2.
  assert (E : snd (object_class_and_model ad m) = spec_name m) by (now destruct m). rewrite E.
  rewrite put_store_eq. destruct (dget _ uid); reflexivity.
Qed.

Lemma st_get_uid_err a m i w ad e :
  nth_error (w_ads w) a = Some ad ->
  get_uid (fst (object_class_and_model ad m)) i = Err e ->
  st_get a m i w = (w, Err e).
Proof. intros H1 Hu. unfold st_get, bind, get_adapter. rewrite H1. unfold lift. now rewrite Hu. Qed.

Lemma st_get_all_local a m w ad d :
  is_local w a ad d ->
  st_get_all a m w = (upd_store w a (SLocal (touch d (spec_name m))), Ok (dvals (bucket d (spec_name m)))).
Proof. intros [H1 H2]. unfold st_get_all, bind, get_adapter. rewrite H1, H2. reflexivity. Qed.

Lemma st_remove_item_local a t u w ad d :
  is_local w a ad d ->
  st_remove_item a t u w =
  match dget (bucket d t) u with
  | None => (upd_store w a (SLocal (touch d t)), Err ObjectNotFound)
  | Some _ => (upd_store w a (SLocal (dset d t (ddel (bucket d t) u))), Ok tt)
  end.
Proof.
  intros [H1 H2]. unfold st_remove_item, bind, get_adapter. rewrite H1, H2, put_store_eq.
  destruct (dget (bucket d t) u); [|reflexivity]. rewrite put_store_eq, upd_store_upd, touch_dset. reflexivity.
Qed.

Lemma hget_eq r w o : nth_error (w_heap w) r = Some o -> hget r w = (w, Ok o).
Proof. intros H. unfold hget. now rewrite H. Qed.

(** [add] on a LocalStore, in full *)
Definition attach (w : world) (a : aid) (r : ref) (o : obj) : world :=
  if adapter_truthy w (o_adapter o) then w else set_heap w (list_set (w_heap w) r (set_o_adapter o (Some a))).

Lemma st_add_local a r w ad d o uid :
  is_local w a ad d ->
  nth_error (w_heap w) r = Some o -> get_unique_id o = Ok uid ->
  st_add a r w =
  match dget (bucket d (get_type o)) uid with
  | Some r' => (w, if Nat.eqb r' r then Ok tt else Err ObjectAlreadyExists)
  | None =>
      let w1 := upd_store w a (SLocal (touch d (get_type o))) in
      (upd_store (attach w1 a r o) a
         (SLocal (dset d (get_type o) (dset (bucket d (get_type o)) uid r))), Ok tt)
  end.
Proof.
  intros L Ho Hu. pose proof L as [H1 H2]. unfold st_add, bind. rewrite (hget_eq _ _ _ Ho).
  unfold lift, get_adapter. rewrite Hu, H1, H2, put_store_eq.
  destruct (dget (bucket d (get_type o)) uid) as [r'|] eqn:E.
  - rewrite (upd_known _ _ _ _ _ _ _ L E). destruct (Nat.eqb r' r); reflexivity.
  - unfold get_state. rewrite touch_dset. unfold attach.
    destruct (adapter_truthy _ _); reflexivity.
Qed.

Lemma st_update_local a r w ad d o uid :
  is_local w a ad d ->
  nth_error (w_heap w) r = Some o -> get_unique_id o = Ok uid ->
  st_update a r w =
  (upd_store w a (SLocal (dset d (get_type o) (dset (bucket d (get_type o)) uid r))), Ok tt).
Proof.
  intros L Ho Hu. pose proof L as [H1 H2]. unfold st_update, bind. rewrite (hget_eq _ _ _ Ho).
  unfold lift, get_adapter. rewrite Hu, H1, H2, put_store_eq.
  destruct (dget (bucket d (get_type o)) uid) as [r'|] eqn:E.
  - destruct (Nat.eqb_spec r' r) as [->|N].
    + rewrite (upd_known _ _ _ _ _ _ _ L E). rewrite (dset_same _ _ _ E).
      rewrite (dset_same d (get_type o)).
      * unfold ret. f_equal. rewrite <- H2. symmetry. now apply upd_store_same.
      * unfold bucket in *. destruct (dget d (get_type o)); [reflexivity|discriminate].
    + rewrite put_store_eq, upd_store_upd, touch_dset. reflexivity.
  - rewrite put_store_eq, upd_store_upd, touch_dset. reflexivity.
Qed.

(** Uids survive everything that does not touch class and field values *)
Lemma get_unique_id_adapter o x : get_unique_id (set_o_adapter o x) = get_unique_id o.
Proof. reflexivity. Qed.
Lemma get_unique_id_status o s m : get_unique_id (set_status o s m) = get_unique_id o.
Proof. reflexivity. Qed.
Lemma get_unique_id_kids o k : get_unique_id (set_o_kids o k) = get_unique_id o.
Proof. reflexivity. Qed.

(** ** Refinement: LocalStore against the register *)
Definition entries (l : reg) (t : string) : dict ref :=
  map (fun e => (snd (fst e), snd e)) (filter (fun e => String.eqb t (fst (fst e))) l).

Definition RegOf (w : world) (a : aid) (l : reg) : Prop :=
  exists ad d, is_local w a ad d /\ NoDup (dkeys d) /\ NoDup (map fst l) /\ forall t, bucket d t = entries l t.

Lemma entries_find l t u : dget (entries l t) u = reg_find l t u.
Proof.
  unfold entries, reg_find. induction l as [|[[t' u'] r] l IH]; simpl; [reflexivity|].
  unfold key_eqb at 1. simpl. destruct (String.eqb t t'); simpl; [|exact IH].
  destruct (String.eqb u u'); [reflexivity|exact IH].
Qed.
Lemma entries_type l t : map snd (entries l t) = reg_type l t.
Proof. unfold entries, reg_type. rewrite map_map. reflexivity. Qed.
Lemma entries_app l m t : entries (l ++ m) t = entries l t ++ entries m t.
Proof. unfold entries. now rewrite filter_app, map_app. Qed.
Lemma entries_one t u r t' : entries [(t, u, r)] t' = if String.eqb t' t then [(u, r)] else [].
Proof. unfold entries. simpl. destruct (String.eqb t' t); reflexivity. Qed.

Lemma key_eqb_true t u e : key_eqb t u e = true <-> fst e = (t, u).
Proof.
  destruct e as [[t' u'] r]. unfold key_eqb. simpl. rewrite andb_true_iff, !String.eqb_eq.
  split; [intros [-> ->]; reflexivity|intros E; injection E; auto].
Qed.
Lemma reg_find_In l t u r : NoDup (map fst l) -> reg_find l t u = Some r <-> In (t, u, r) l.
Proof.
  intros ND. unfold reg_find. destruct (find (key_eqb t u) l) as [[[t' u'] r']|] eqn:E; simpl.
  - destruct (find_some _ _ E) as [I K]. apply key_eqb_true in K. simpl in K. injection K as -> ->.
    split.
    + intros H. injection H as ->. exact I.
    + intros I'. f_equal. revert ND I I'. clear. induction l as [|x l IH]; simpl; [tauto|].
      intros ND H1 H2. inversion ND as [|? ? N1 N2]; subst. destruct H1 as [->|H1], H2 as [H2|H2].
      * now injection H2.
      * exfalso. apply N1. apply (in_map fst) in H2. exact H2.
      * subst x. exfalso. apply N1. apply (in_map fst) in H1. exact H1.
      * auto.
  - split; [discriminate|]. intros I. pose proof (find_none _ _ E _ I) as N.
    assert (key_eqb t u (t, u, r) = true) by (now apply key_eqb_true). congruence.
Qed.
Lemma reg_find_None l t u : reg_find l t u = None <-> ~ In (t, u) (map fst l).
Proof.
  unfold reg_find. destruct (find (key_eqb t u) l) as [e|] eqn:E; simpl.
  - destruct (find_some _ _ E) as [I K]. apply key_eqb_true in K. split; [discriminate|].
    intros N. exfalso. apply N. rewrite <- K. now apply in_map.
  - split; [|reflexivity]. intros _ I. apply in_map_iff in I as [e [K I]].
    pose proof (find_none _ _ E _ I) as N. apply key_eqb_true in K. congruence.
Qed.
Lemma find_reg_find l t u : find (key_eqb t u) l = None <-> reg_find l t u = None.
Proof. unfold reg_find. destruct (find _ l); split; simpl; congruence. Qed.

Lemma reg_find_app l m t u :
  reg_find (l ++ m) t u = match reg_find l t u with Some r => Some r | None => reg_find m t u end.
Proof.
  unfold reg_find. induction l as [|x l IH]; simpl; [reflexivity|].
  destruct (key_eqb t u x); [reflexivity|exact IH].
Qed.

Lemma NoDup_snoc' {A} (l : list A) x : NoDup l -> ~ In x l -> NoDup (l ++ [x]).
Proof. intros H N. eapply Permutation_NoDup; [apply Permutation_cons_append|]. now constructor. Qed.

(** deletion *)
Lemma reg_del_keys l t u k : In k (map fst (reg_del l t u)) <-> In k (map fst l) /\ k <> (t, u).
Proof.
  unfold reg_del. rewrite !in_map_iff. split.
  - intros [e [<- I]]. apply filter_In in I as [I N]. split; [eauto|].
    apply negb_true_iff in N. intros K. apply key_eqb_true in K. congruence.
  - intros [[e [<- I]] N]. exists e. split; [reflexivity|]. apply filter_In. split; [exact I|].
    apply negb_true_iff. destruct (key_eqb t u e) eqn:K; [|reflexivity]. apply key_eqb_true in K. congruence.
Qed.
Lemma NoDup_map_filter {A B} (f : A -> B) p l : NoDup (map f l) -> NoDup (map f (filter p l)).
Proof.
  induction l as [|x l IH]; simpl; [auto|]. intros H. inversion H; subst. destruct (p x); simpl; [|auto].
  constructor; [|auto]. intros I. apply in_map_iff in I as [y [E I]]. apply filter_In in I as [I _].
  apply H2. rewrite <- E. now apply in_map.
Qed.
Lemma reg_del_find l t u t' u' : NoDup (map fst l) ->
  reg_find (reg_del l t u) t' u' = if String.eqb t' t && String.eqb u' u then None else reg_find l t' u'.
Proof.
  intros ND. destruct (String.eqb_spec t' t) as [->|Nt]; [destruct (String.eqb_spec u' u) as [->|Nu]|]; simpl.
  - apply reg_find_None. rewrite reg_del_keys. tauto.
  - destruct (reg_find l t u') as [r|] eqn:E.
    + apply reg_find_In; [now apply NoDup_map_filter|]. apply reg_find_In in E; [|exact ND].
      apply filter_In. split; [exact E|]. apply negb_true_iff. unfold key_eqb. simpl.
      rewrite String.eqb_refl. simpl. apply String.eqb_neq. congruence.
    + apply reg_find_None in E. apply reg_find_None. rewrite reg_del_keys. tauto.
  - destruct (reg_find l t' u') as [r|] eqn:E.
    + apply reg_find_In; [now apply NoDup_map_filter|]. apply reg_find_In in E; [|exact ND].
      apply filter_In. split; [exact E|]. apply negb_true_iff. unfold key_eqb. simpl.
      assert (String.eqb t t' = false) as -> by (apply String.eqb_neq; congruence). reflexivity.
    + apply reg_find_None in E. apply reg_find_None. rewrite reg_del_keys. tauto.
Qed.
Lemma reg_del_entries l t u t' : NoDup (map fst l) ->
  entries (reg_del l t u) t' = if String.eqb t' t then ddel (entries l t) u else entries l t'.
Proof.
  intros ND. unfold reg_del, entries. induction l as [|[[t1 u1] r1] l IH]; simpl.
  - now destruct (String.eqb t' t).
  - inversion ND as [|? ? N1 N2]; subst. specialize (IH N2). unfold key_eqb at 1. simpl.
    destruct (String.eqb_spec t t1) as [->|Nt]; [destruct (String.eqb_spec u u1) as [->|Nu]|]; simpl.
    + rewrite IH. destruct (String.eqb_spec t' t1) as [->|N]; simpl.
      * rewrite String.eqb_refl. apply ddel_absent. fold (entries l t1). rewrite entries_find.
        now apply reg_find_None.
      * reflexivity.
    + destruct (String.eqb_spec t' t1) as [->|N]; simpl.
      * rewrite IH. simpl.
        assert (String.eqb u u1 = false) as -> by (now apply String.eqb_neq). reflexivity.
      * exact IH.
    + destruct (String.eqb_spec t' t1) as [->|N]; simpl.
      * assert (String.eqb t1 t = false) as E by (apply String.eqb_neq; congruence). rewrite E in IH. rewrite IH, E. reflexivity.
      * rewrite IH. destruct (String.eqb_spec t' t); [subst|reflexivity]. reflexivity.
Qed.

(** put *)
Lemma reg_put_present l t u r r0 : NoDup (map fst l) -> reg_find l t u = Some r0 ->
  map fst (reg_put l t u r) = map fst l /\
  forall t', entries (reg_put l t u r) t' = if String.eqb t' t then dset (entries l t) u r else entries l t'.
Proof.
  intros ND F. unfold reg_put. destruct (find (key_eqb t u) l) eqn:E; [|apply find_reg_find in E; congruence].
  clear E. split.
  - rewrite map_map. apply map_ext. intros e. destruct (key_eqb t u e) eqn:K; [|reflexivity].
    apply key_eqb_true in K. now rewrite K.
  - intros t'. revert ND F. unfold entries. induction l as [|[[t1 u1] r1] l IH]; simpl; [discriminate|].
    intros ND F. inversion ND as [|? ? N1 N2]; subst. unfold reg_find in F. simpl in F.
    destruct (key_eqb t u (t1, u1, r1)) eqn:K.
    + apply key_eqb_true in K. simpl in K. injection K as -> ->. simpl. rewrite String.eqb_refl. simpl. rewrite String.eqb_refl.
      assert (E : map (fun e => if key_eqb t u e then (t, u, r) else e) l = l).
      { rewrite <- (map_id l) at 2. apply map_ext_in. intros e He. destruct (key_eqb t u e) eqn:K; [|reflexivity].
        apply key_eqb_true in K. exfalso. apply N1. rewrite <- K. now apply in_map. }
      rewrite E. clear IH. destruct (String.eqb t' t) eqn:X; [|reflexivity]. apply String.eqb_eq in X. now rewrite X.
    + simpl in F. specialize (IH N2 F). unfold key_eqb in K. simpl in K.
      simpl. destruct (String.eqb_spec t' t1) as [->|N]; simpl.
      * rewrite IH. destruct (String.eqb_spec t1 t) as [->|N]; [|reflexivity].
        rewrite String.eqb_refl in *. simpl in K. simpl. rewrite K. reflexivity.
      * rewrite IH. destruct (String.eqb t' t) eqn:X; [|reflexivity].
        apply String.eqb_eq in X. subst t'. destruct (String.eqb_spec t t1); [congruence|]. reflexivity.
Qed.
Lemma reg_put_absent l t u r : reg_find l t u = None ->
  reg_put l t u r = l ++ [(t, u, r)] /\
  forall t', entries (l ++ [(t, u, r)]) t' = if String.eqb t' t then dset (entries l t) u r else entries l t'.
Proof.
  intros F. split.
  - unfold reg_put. apply find_reg_find in F. now rewrite F.
  - intros t'. rewrite entries_app, entries_one. destruct (String.eqb_spec t' t) as [->|N].
    + symmetry. apply dset_absent. now rewrite entries_find.
    + apply app_nil_r.
Qed.
Lemma reg_put_entries l t u r t' : NoDup (map fst l) ->
  entries (reg_put l t u r) t' = if String.eqb t' t then dset (entries l t) u r else entries l t'.
Proof.
  intros ND. destruct (reg_find l t u) eqn:E.
  - eapply reg_put_present; eauto.
  - destruct (reg_put_absent _ _ _ r E) as [-> H]. apply H.
Qed.
Lemma reg_put_nodup l t u r : NoDup (map fst l) -> NoDup (map fst (reg_put l t u r)).
Proof.
  intros ND. destruct (reg_find l t u) eqn:E.
  - destruct (reg_put_present _ _ _ r _ ND E) as [-> _]. exact ND.
  - destruct (reg_put_absent _ _ _ r E) as [-> _]. rewrite map_app. simpl. apply NoDup_snoc'; [exact ND|].
    now apply reg_find_None.
Qed.

(** ** How RegOf moves *)
Lemma RegOf_lookup w a l t u : RegOf w a l -> lookup w a t u = reg_find l t u.
Proof.
  intros (ad & d & [H1 H2] & ND & NL & HB). unfold lookup. rewrite H1, H2, HB. apply entries_find.
Qed.
Lemma RegOf_touch w a l ad d m : RegOf w a l -> is_local w a ad d -> RegOf (upd_store w a (SLocal (touch d m))) a l.
Proof.
  intros (ad' & d' & L' & ND & NL & HB) L. destruct (is_local_fun _ _ _ _ _ _ L L') as [<- <-].
  exists (set_ad_store ad (SLocal (touch d m))), (touch d m). split; [eapply is_local_upd; eauto|].
  split; [|split; [exact NL|]].
  - unfold touch. destruct (dget d m); [exact ND|]. now apply NoDup_dset.
  - intros t. rewrite touch_bucket. apply HB.
Qed.
Lemma RegOf_upd w a l l' ad d d' : RegOf w a l -> is_local w a ad d ->
  NoDup (dkeys d') -> NoDup (map fst l') -> (forall t, bucket d' t = entries l' t) ->
  RegOf (upd_store w a (SLocal d')) a l'.
Proof.
  intros _ L ND NL HB. exists (set_ad_store ad (SLocal d')), d'.
  split; [eapply is_local_upd; eauto|]. auto.
Qed.
Lemma RegOf_set_heap w a l h : RegOf w a l -> RegOf (set_heap w h) a l.
Proof. intros (ad & d & L & H). exists ad, d. split; [exact L|exact H]. Qed.
Lemma RegOf_add_event w a l e : RegOf w a l -> RegOf (add_event w e) a l.
Proof. intros (ad & d & L & H). exists ad, d. split; [exact L|exact H]. Qed.

Lemma RegOf_put w a l ad d t u r : RegOf w a l -> is_local w a ad d ->
  RegOf (upd_store w a (SLocal (dset d t (dset (bucket d t) u r)))) a (reg_put l t u r).
Proof.
  intros R L. pose proof R as (ad' & d' & L' & ND & NL & HB). destruct (is_local_fun _ _ _ _ _ _ L L') as [<- <-].
  eapply RegOf_upd; eauto.
  - now apply NoDup_dset.
  - now apply reg_put_nodup.
  - intros t'. rewrite bucket_dset, reg_put_entries, !HB by exact NL. reflexivity.
Qed.
Lemma RegOf_del w a l ad d t u : RegOf w a l -> is_local w a ad d ->
  RegOf (upd_store w a (SLocal (dset d t (ddel (bucket d t) u)))) a (reg_del l t u).
Proof.
  intros R L. pose proof R as (ad' & d' & L' & ND & NL & HB). destruct (is_local_fun _ _ _ _ _ _ L L') as [<- <-].
  eapply RegOf_upd; eauto.
  - now apply NoDup_dset.
  - now apply NoDup_map_filter.
  - intros t'. rewrite bucket_dset, reg_del_entries, !HB by exact NL. reflexivity.
Qed.

(** counting *)
Lemma filter_split {A} (p : A -> bool) l : length l = length (filter p l) + length (filter (fun x => negb (p x)) l).
Proof. induction l as [|x l IH]; simpl; [reflexivity|]. destruct (p x); simpl; lia. Qed.

Lemma count_entries (d : dict (dict ref)) : forall l : reg, NoDup (dkeys d) ->
  (forall t, bucket d t = entries l t) ->
  list_sum (map (fun kv => length (snd kv)) d) = length l.
Proof.
  induction d as [|[m b] d IH]; intros l ND HB.
  - simpl. destruct l as [|[[t u] r] l]; [reflexivity|]. specialize (HB t).
    unfold entries in HB. simpl in HB. rewrite String.eqb_refl in HB. discriminate.
  - simpl dkeys in ND. inversion ND as [|? ? N1 N2]; subst.
    rewrite map_cons. change (list_sum (?x :: ?y)) with (x + list_sum y).
    cbn [snd]. rewrite (filter_split (fun e => String.eqb m (fst (fst e))) l). f_equal.
    + specialize (HB m). unfold bucket in HB. simpl in HB. rewrite String.eqb_refl in HB. rewrite HB.
      unfold entries. now rewrite map_length.
    + apply IH; [exact N2|]. intros t. specialize (HB t). unfold bucket in *. simpl in HB.
      destruct (String.eqb t m) eqn:X; [apply String.eqb_eq in X; subst t|apply String.eqb_neq in X; rename X into N].
      * assert (dget d m = None) as -> by (now apply dget_None). unfold entries.
        replace (filter _ (filter _ l)) with (@nil (string * string * ref)); [reflexivity|].
        symmetry. clear. induction l as [|[[t u] r] l IH]; [reflexivity|]. simpl.
        destruct (String.eqb m t) eqn:E; simpl; [exact IH|]. now rewrite E.
      * rewrite HB. unfold entries. f_equal. clear - N. induction l as [|[[t' u] r] l IH]; [reflexivity|]. simpl.
        destruct (String.eqb_spec m t') as [<-|]; simpl.
        -- destruct (String.eqb_spec t m); [congruence|exact IH].
        -- destruct (String.eqb t t'); [now rewrite IH|exact IH].
Qed.
Lemma RegOf_count w a l : RegOf w a l -> count_all w a = length l.
Proof.
  intros (ad & d & [H1 H2] & ND & NL & HB). unfold count_all. rewrite H1, H2. now apply count_entries.
Qed.

(** ** One step, all histories *)
Lemma bind_eq {S A B} (m : M S A) (k : A -> M S B) s s1 r1 : m s = (s1, r1) ->
  bind m k s = match r1 with Ok x => k x s1 | Err e => (s1, Err e) end.
Proof. intros H. unfold bind. rewrite H. now destruct r1. Qed.

Lemma get_by_uids_local us t w a l : RegOf w a l ->
  exists w', st_get_by_uids a us (MName t) w = (w', find_all l t us) /\ RegOf w' a l /\ w_heap w' = w_heap w.
Proof.
  unfold st_get_by_uids. match goal with |- context [mapM ?g us] => set (f := g) end. revert w. induction us as [|u us IH]; intros w R.
  - exists w. auto.
  - pose proof R as (ad & d & L & ND & NL & HB). pose proof L as [H1 H2].
    assert (E1 : f u w = (upd_store w a (SLocal (touch d t)),
                          match reg_find l t u with Some r => Ok r | None => Err ObjectNotFound end)).
    { unfold f, bind, get_adapter. rewrite H1, H2. rewrite put_store_eq, HB, entries_find. change (spec_name (MName t)) with t.
      destruct (reg_find l t u); reflexivity. }
    simpl. rewrite (bind_eq _ _ _ _ _ E1). pose proof (RegOf_touch _ _ _ _ _ t R L) as R'.
    destruct (reg_find l t u) as [r|].
    + destruct (IH _ R') as (w' & E & R2 & HH). rewrite (bind_eq _ _ _ _ _ E).
      exists w'. rewrite upd_store_heap in HH. destruct (find_all l t us); simpl; auto.
    + exists (upd_store w a (SLocal (touch d t))). rewrite upd_store_heap. auto.
Qed.

Lemma clear_adapter_eq w r o : nth_error (w_heap w) r = Some o ->
  clear_adapter r w = ((if adapter_truthy w (o_adapter o)
                        then set_heap w (list_set (w_heap w) r (set_o_adapter o None)) else w), Ok tt).
Proof.
  intros H. unfold clear_adapter, bind, get_state. rewrite (hget_eq _ _ _ H).
  destruct (adapter_truthy w (o_adapter o)); reflexivity.
Qed.

Lemma count_all_set_heap w h b : count_all (set_heap w h) b = count_all w b.
Proof. reflexivity. Qed.
Lemma adapter_truthy_set_heap w h x : adapter_truthy (set_heap w h) x = adapter_truthy w x.
Proof. reflexivity. Qed.

Lemma RegOf_attach w a l r o : RegOf w a l -> RegOf (attach w a r o) a l.
Proof. intros R. unfold attach. destruct (adapter_truthy _ _); [exact R|]. now apply RegOf_set_heap. Qed.
Lemma is_local_attach w a ad d r o b : is_local w a ad d -> is_local (attach w b r o) a ad d.
Proof. intros L. unfold attach. now destruct (adapter_truthy _ _). Qed.

Lemma omap_eq {A} (f : A -> out) m w w1 (r : result A) :
  m w = (w1, r) -> omap f m w = (w1, rbind r (fun x => Ok (f x))).
Proof. intros H. unfold omap. rewrite (bind_eq _ _ _ _ _ H). now destruct r. Qed.

Lemma exec_spec a op w l : RegOf w a l ->
  snd (exec a op w) = snd (spec (w_heap w) l op) /\ RegOf (fst (exec a op w)) a (fst (spec (w_heap w) l op)).
Proof.
  intros R. pose proof R as (ad & d & L & ND & NL & HB). pose proof L as [H1 H2].
  destruct op as [r|r|r|t u|t u|t u|t|us t| |o|r o]; simpl exec; simpl spec.
  - (* add *) unfold with_key. destruct (nth_error (w_heap w) r) as [o|] eqn:Ho.
    2:{ unfold omap, st_add, bind, hget. rewrite Ho. split; [reflexivity|exact R]. }
    destruct (get_unique_id o) as [u|e] eqn:Hu.
    2:{ unfold omap, st_add, bind, hget, lift. rewrite Ho, Hu. split; [reflexivity|exact R]. }
    pose proof (st_add_local _ _ _ _ _ _ _ L Ho Hu) as E. rewrite HB, entries_find in E.
    destruct (reg_find l (get_type o) u) as [r'|] eqn:F.
    + rewrite (omap_eq _ _ _ _ _ E). destruct (Nat.eqb r' r); split; try reflexivity; exact R.
    + cbv zeta in E. rewrite (omap_eq _ _ _ _ _ E). split; [reflexivity|]. simpl fst.
      destruct (reg_put_absent _ _ _ r F) as [P _]. rewrite <- P.
      pose proof (RegOf_touch _ _ _ _ _ (get_type o) R L) as R1.
      pose proof (is_local_upd _ _ _ _ (touch d (get_type o)) L) as L1.
      pose proof (RegOf_put _ _ _ _ _ (get_type o) u r (RegOf_attach _ _ _ r o R1) (is_local_attach _ _ _ _ r o a L1)) as G.
      rewrite touch_bucket, touch_dset, HB in G. exact G.
  - (* update *) unfold with_key. destruct (nth_error (w_heap w) r) as [o|] eqn:Ho.
    2:{ unfold omap, st_update, bind, hget. rewrite Ho. split; [reflexivity|exact R]. }
    destruct (get_unique_id o) as [u|e] eqn:Hu.
    2:{ unfold omap, st_update, bind, hget, lift. rewrite Ho, Hu. split; [reflexivity|exact R]. }
    pose proof (st_update_local _ _ _ _ _ _ _ L Ho Hu) as E. rewrite (omap_eq _ _ _ _ _ E).
    split; [reflexivity|]. simpl. eapply RegOf_put; eauto.
  - (* remove *) unfold with_key. destruct (nth_error (w_heap w) r) as [o|] eqn:Ho.
    2:{ unfold omap, bind, hget. rewrite Ho. split; [reflexivity|exact R]. }
    destruct (get_unique_id o) as [u|e] eqn:Hu.
    2:{ unfold omap, bind, hget, lift. rewrite Ho, Hu. split; [reflexivity|exact R]. }
    pose proof (st_remove_item_local a (get_type o) u w ad d L) as E. rewrite HB, entries_find in E.
    destruct (reg_find l (get_type o) u) as [r'|] eqn:F.
    + assert (X : st_remove 1 a r false w =
        clear_adapter r (upd_store w a (SLocal (dset d (get_type o) (ddel (entries l (get_type o)) u))))).
      { simpl st_remove. unfold bind. rewrite (hget_eq _ _ _ Ho). unfold lift. rewrite Hu, E.
        destruct (clear_adapter r _) as [w1 [[]|e]]; reflexivity. }
      rewrite (clear_adapter_eq _ _ o) in X by (rewrite upd_store_heap; exact Ho).
      assert (X' : omap (fun _ => OUnit) (st_remove 1 a r false) w = _) by (eapply omap_eq; exact X).
      simpl st_remove in X'. rewrite X'. split; [reflexivity|]. simpl.
      pose proof (RegOf_del _ _ _ _ _ (get_type o) u R L) as G. rewrite HB in G.
      destruct (adapter_truthy _ _); [apply RegOf_set_heap|]; exact G.
    + assert (X : st_remove 1 a r false w = (upd_store w a (SLocal (touch d (get_type o))), Err ObjectNotFound)).
      { simpl st_remove. unfold bind. rewrite (hget_eq _ _ _ Ho). unfold lift. now rewrite Hu, E. }
      assert (X' : omap (fun _ => OUnit) (st_remove 1 a r false) w = _) by (eapply omap_eq; exact X).
      simpl st_remove in X'. rewrite X'. split; [reflexivity|]. simpl. eapply RegOf_touch; eauto.
  - (* remove_item *)
    pose proof (st_remove_item_local a t u w ad d L) as E. rewrite HB, entries_find in E.
    destruct (reg_find l t u) as [r'|] eqn:F; rewrite (omap_eq _ _ _ _ _ E); (split; [reflexivity|]); simpl.
    + rewrite <- HB. eapply RegOf_del; eauto.
    + eapply RegOf_touch; eauto.
  - (* get *)
    pose proof (st_get_local a (MName t) (IdStr u) w ad d u L eq_refl) as E. simpl spec_name in E.
    rewrite HB, entries_find in E. rewrite (omap_eq _ _ _ _ _ E).
    split; [destruct (reg_find l t u); reflexivity|]. simpl. eapply RegOf_touch; eauto.
  - (* get_or_none *)
    pose proof (st_get_local a (MName t) (IdStr u) w ad d u L eq_refl) as E. simpl spec_name in E.
    rewrite HB, entries_find in E.
    assert (X : ad_get_or_none a (MName t) (IdStr u) w =
                (upd_store w a (SLocal (touch d t)), Ok (reg_find l t u))).
    { unfold ad_get_or_none, try_catch. rewrite (bind_eq _ _ _ _ _ E).
      destruct (reg_find l t u); reflexivity. }
    rewrite (omap_eq _ _ _ _ _ X). split; [reflexivity|]. simpl. eapply RegOf_touch; eauto.
  - (* get_all *)
    pose proof (st_get_all_local a (MName t) w ad d L) as E. simpl spec_name in E. rewrite (omap_eq _ _ _ _ _ E).
    split; [|eapply RegOf_touch; eauto]. simpl. rewrite HB. unfold dvals. now rewrite entries_type.
  - (* get_by_uids *)
    destruct (get_by_uids_local us t w a l R) as (w' & E & R' & _). rewrite (omap_eq _ _ _ _ _ E).
    split; [reflexivity|exact R'].
  - (* count *)
    assert (E : st_count a None w = (w, Ok (length l))).
    { unfold st_count, bind, get_adapter, get_state. rewrite H1, H2. rewrite (RegOf_count _ _ _ R). reflexivity. }
    rewrite (omap_eq _ _ _ _ _ E). split; [reflexivity|exact R].
  - (* new object *)
    split; [reflexivity|]. simpl. now apply RegOf_set_heap.
  - (* assignment *)
    split; [reflexivity|]. simpl. now apply RegOf_set_heap.
Qed.

Lemma history a ops : forall w l, RegOf w a l ->
  snd (exec_all a ops w) = snd (spec_all a ops w l) /\
  RegOf (fst (exec_all a ops w)) a (fst (spec_all a ops w l)).
Proof.
  induction ops as [|op ops IH]; intros w l R; simpl; [auto|].
  destruct (exec_spec a op w l R) as [E R1].
  destruct (exec a op w) as [w1 o]. destruct (spec (w_heap w) l op) as [l1 o']. simpl in *. subst o'.
  specialize (IH _ _ R1). destruct (exec_all a ops w1) as [w2 os]. destruct (spec_all a ops w1 l1) as [l2 os'].
  simpl in *. destruct IH as [-> R2]. auto.
Qed.

Lemma fresh_RegOf w a : fresh_local w a -> RegOf w a [].
Proof.
  intros (ad & H1 & H2). exists ad, []. split; [split; assumption|].
  split; [constructor|]. split; [constructor|]. reflexivity.
Qed.
