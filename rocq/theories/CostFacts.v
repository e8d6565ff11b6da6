(** * CostFacts: counting commands. *)
From Verif Require Export CostSpec CutSync.

(** ** A budget: every command costs one; a reply may pay for commands that it causes *)
Section Pays.
  Variables (ok : obj -> Prop) (cr : obj -> nat) (sc : nat).
  Inductive pays {A} (post : A -> nat -> Prop) : nat -> cprog A -> Prop :=
  | py_done n x : post x n -> pays post n (Done x)
  | py_get n k f : pays post n (f None) -> (forall o, ok o -> pays post (cr o + n) (f (Some o))) -> pays post (S n) (CGet k f)
  | py_set n k o p : pays post n p -> pays post (S n) (CSet k o p)
  | py_exists n k f : (forall b, pays post n (f b)) -> pays post (S n) (CExists k f)
  | py_delete n k p : pays post n p -> pays post (S n) (CDelete k p)
  | py_scan n k f : (forall l, pays post (sc * length l + n) (f l)) -> pays post (S n) (CScan k f).
  Lemma pays_then {A B} (post : A -> nat -> Prop) (post' : B -> nat -> Prop) n p g : pays post n p -> (forall x m, post x m -> pays post' m (g x)) -> pays post' n (cthen p g).
  Proof. intros H K. induction H; cbn [cthen]; [now apply K|constructor..]; auto. Qed.
  Lemma pays_post {A} (post post' : A -> nat -> Prop) n p : pays post n p -> (forall x m, post x m -> post' x m) -> pays post' n p.
  Proof. intros H K. induction H; constructor; auto. Qed.
  Definition pay (m : wire) : nat := match m with WGet _ (Some o) => cr o | WScan _ ks => sc * length ks | _ => 0 end.
  Lemma pays_talk {A} (post : A -> nat -> Prop) (p : cprog A) l q : talk p l q -> (forall k o, In (WGet k (Some o)) l -> ok o) ->
    forall n, pays post n p -> length l <= n + list_sum (map pay l).
  Proof.
    induction 1 as [p|k f x l q T IH|k o p l q T IH|k f b l q T IH|k p l q T IH|pat f x l q T IH]; intros OK n P; cbn [length map list_sum fold_right]; [lia|..];
      assert (OK' : forall k o, In (WGet k (Some o)) l -> ok o) by (intros k' o' I; eapply OK; right; exact I); inversion P; subst; clear P.
    1: { destruct x as [o|]; cbn [pay]; [|specialize (IH OK' _ H2)].
      + assert (OO : ok o) by (eapply OK; left; reflexivity). specialize (IH OK' _ (H3 o OO)). unfold list_sum in *. lia.
      + unfold list_sum in *. lia. }
    all: match goal with
         | H : forall _, pays _ _ _ |- _ => specialize (IH OK' _ (H _))
         | H : pays _ _ _ |- _ => specialize (IH OK' _ H)
         end; cbn [pay]; unfold list_sum in *; lia.
  Qed.

  (** a method that keeps [I] and costs [c] *)
  Definition spend {St A} (I : St -> Prop) (c : nat) (m : SM St A) : Prop :=
    forall s n, I s -> pays (fun sx b => I (fst sx) /\ n <= b) (c + n) (m s).
  Lemma sp_more {St A} (I : St -> Prop) c c' (m : SM St A) : spend I c m -> c <= c' -> spend I c' m.
  Proof.
    intros H L s n IS. assert (X : pays (fun sx b => I (fst sx) /\ (c' - c) + n <= b) (c + ((c' - c) + n)) (m s)) by now apply H.
    replace (c + (c' - c + n)) with (c' + n) in X by lia. eapply pays_post; [exact X|]. intros x b [? ?]. split; [assumption|lia].
  Qed.
  Lemma sp_here {St A} (I : St -> Prop) (m : M St A) : (forall s, I s -> I (fst (m s))) -> spend I 0 (here m).
  Proof. intros H s n IS. constructor. split; [now apply H|]. cbn. lia. Qed.
  Lemma sp_at {St A} (I : St -> Prop) c (m : SM St A) s n : spend I c m -> I s -> c <= n -> pays (fun sx b => I (fst sx) /\ n - c <= b) n (m s).
  Proof. intros H IS L. pose proof (H s (n - c) IS) as X. now replace (c + (n - c)) with n in X by lia. Qed.
  Lemma sp_bind {St A B} (I : St -> Prop) c c' (m : SM St A) (k : A -> SM St B) : spend I c m -> (forall a, spend I c' (k a)) -> spend I (c + c') (cbind m k).
  Proof.
    intros H K s n IS. replace (c + c' + n) with (c + (c' + n)) by lia. eapply pays_then; [now apply H|]. intros [s' [a|e]] b [I' L]; cbn [fst snd] in *.
    - assert (X : pays (fun sx b0 => I (fst sx) /\ b - c' <= b0) b (k a s')) by (apply sp_at; auto; lia).
      eapply pays_post; [exact X|]. intros x b1 [? ?]. split; [assumption|lia].
    - constructor. split; [assumption|lia].
  Qed.
  Lemma sp_try {St A} (I : St -> Prop) c c' (m : SM St A) p h : spend I c m -> (forall e, spend I c' (h e)) -> spend I (c + c') (ctry m p h).
  Proof.
    intros H K s n IS. replace (c + c' + n) with (c + (c' + n)) by lia. eapply pays_then; [now apply H|]. intros [s' [a|e]] b [I' L]; cbn [fst snd] in *; [constructor; split; [assumption|lia]|].
    destruct (p e); [|constructor; split; [assumption|lia]].
    assert (X : pays (fun sx b0 => I (fst sx) /\ b - c' <= b0) b (h e s')) by (apply sp_at; auto; lia).
    eapply pays_post; [exact X|]. intros x b1 [? ?]. split; [assumption|lia].
  Qed.
  Lemma sp_map {St A B} (I : St -> Prop) c (f : A -> SM St B) l : (forall x, spend I c (f x)) -> spend I (c * length l) (cmapM f l).
  Proof.
    intros H. induction l as [|x l IH]; cbn [cmapM length]; [apply (sp_more I 0); [now apply sp_here|lia]|].
    apply (sp_more I (c + (c * length l + 0))); [|lia]. apply sp_bind; [apply H|]. intros y. apply sp_bind; [exact IH|]. intros ys. now apply sp_here.
  Qed.
End Pays.

(** ** Calls *)
Section Calls.
  Variables (ok : obj -> Prop) (sc : nat).
  Notation sp := (spend ok (fun _ => 0) sc (fun _ : world => True)).
  Lemma s_here {A} (m : M world A) : sp 0 (here m). Proof. now apply sp_here. Qed.
  Lemma s_bind0 {A B} c (m : M world A) (k : A -> CM B) : (forall a, sp c (k a)) -> sp c (cbind (here m) k).
  Proof. intros H. exact (sp_bind _ _ _ _ 0 c _ _ (s_here m) H). Qed.
  Lemma s_any {A} c (m : M world A) : sp c (here m). Proof. apply (sp_more _ _ _ _ 0); [apply s_here|lia]. Qed.
  Lemma s_get k : sp 1 (cget k). Proof. intros w n _. constructor; [|intros o _]; constructor; (split; [exact I|lia]). Qed.
  Lemma s_set k o : sp 1 (cset k o). Proof. intros w n _. do 2 constructor. split; [exact I|lia]. Qed.
  Lemma s_exists k : sp 1 (cexists k). Proof. intros w n _. constructor. intros b. constructor. split; [exact I|lia]. Qed.
  Lemma s_delete k : sp 1 (cdelete k). Proof. intros w n _. do 2 constructor. split; [exact I|lia]. Qed.
  Lemma s_scan k : sp 1 (cscan k). Proof. intros w n _. constructor. intros l. constructor. split; [exact I|lia]. Qed.
  Lemma s_load a k : sp 1 (c_load a k).
  Proof. apply (sp_bind _ _ _ _ 1 0); [apply s_get|]. intros [o|]; apply s_here. Qed.
  Lemma s_st_get a m i : sp 1 (c_get a m i).
  Proof. unfold c_get. apply s_bind0. intros ad. cbv zeta. apply s_bind0. intros u. destruct (ad_store ad); [apply s_any|apply s_load]. Qed.
  Lemma s_names a : sp 1 (c_get_all_model_names a).
  Proof. apply s_bind0. intros ad. destruct (ad_store ad); [apply s_any|]. apply (sp_bind _ _ _ _ 1 0); [apply s_scan|]. intros l. apply s_here. Qed.
  Lemma s_by_uids a us m : sp (length us) (c_get_by_uids a us m).
  Proof.
    apply (sp_more _ _ _ _ (1 * length us)); [|lia]. apply sp_map. intros u. apply s_bind0. intros ad. destruct (ad_store ad); [apply s_any|apply s_load].
  Qed.
  Lemma s_count_all a : sp 1 (c_count_all a).
  Proof.
    intros w n _. unfold c_count_all. destruct (nth_error (w_ads w) a) as [ad|]; [|constructor; split; [exact I|lia]]. destruct (ad_store ad); [constructor; split; [exact I|lia]|].
    constructor. intros l. constructor. split; [exact I|lia].
  Qed.
  Lemma s_count a m : sp 1 (c_count a m).
  Proof.
    apply s_bind0. intros ad. destruct (ad_store ad).
    - destruct m as [[[|]|]|]; first [apply s_count_all|apply s_any].
    - destruct m; [|apply s_count_all]. apply (sp_bind _ _ _ _ 1 0); [apply s_scan|]. intros l. apply s_here.
  Qed.
  Lemma s_truthy x : sp 1 (c_truthy x).
  Proof. destruct x; [|apply s_any]. apply (sp_bind _ _ _ _ 1 0); [apply s_count_all|]. intros n. apply s_here. Qed.
  Lemma s_add a r : sp 2 (c_add a r).
  Proof.
    unfold c_add. apply s_bind0. intros o. apply s_bind0. intros u. cbv zeta. apply s_bind0. intros ad. destruct (ad_store ad) as [d|i].
    - apply s_bind0. intros _. destruct (dget _ _); [apply s_any|]. apply (sp_bind _ _ _ _ 1 1); [apply s_truthy|]. intros b.
      apply (sp_bind _ _ _ _ 0 1); [destruct b; apply s_here|]. intros _. apply s_any.
    - apply (sp_bind _ _ _ _ 1 1); [apply s_get|]. intros [e|]; [apply s_any|apply s_set].
  Qed.
  Lemma s_update a r : sp 1 (c_update a r).
  Proof. unfold c_update. apply s_bind0. intros o. apply s_bind0. intros u. cbv zeta. apply s_bind0. intros ad. destruct (ad_store ad); [apply s_any|apply s_set]. Qed.
  Lemma s_item a t u : sp 2 (c_remove_item a t u).
  Proof. apply s_bind0. intros ad. destruct (ad_store ad); [apply s_any|]. apply (sp_bind _ _ _ _ 1 1); [apply s_exists|]. intros []; [apply s_delete|apply s_any]. Qed.
  Lemma s_clear r : sp 1 (c_clear_adapter r).
  Proof. apply s_bind0. intros o. apply (sp_bind _ _ _ _ 1 0); [apply s_truthy|]. intros []; apply s_here. Qed.
  Lemma s_remove fuel a r : sp 3 (c_remove fuel a r false).
  Proof.
    destruct fuel; cbn [c_remove]; [apply s_any|]. apply s_bind0. intros o. apply s_bind0. intros u. apply (sp_bind _ _ _ _ 2 1); [apply s_item|]. intros _.
    apply (sp_bind _ _ _ _ 1 0); [apply s_clear|]. intros _. apply s_here.
  Qed.
  Lemma s_gon a m i : sp 1 (c_get_or_none a m i).
  Proof. apply (sp_try _ _ _ _ 1 0); [|intros e; apply s_here]. apply (sp_bind _ _ _ _ 1 0); [apply s_st_get|]. intros r. apply s_here. Qed.
  Lemma s_goi a c ids attrs : sp 3 (c_get_or_instantiate a c ids attrs).
  Proof.
    apply (sp_try _ _ _ _ 1 2).
    - apply (sp_bind _ _ _ _ 1 0); [apply s_st_get|]. intros r. apply s_here.
    - intros e. apply s_bind0. intros kw. apply s_bind0. intros o. apply s_bind0. intros r. apply (sp_bind _ _ _ _ 2 0); [apply s_add|]. intros _. apply s_here.
  Qed.
  Lemma s_goa a r : sp 3 (c_get_or_add_model_instance a r).
  Proof.
    apply s_bind0. intros o. apply s_bind0. intros u. apply (sp_try _ _ _ _ 1 2).
    - apply (sp_bind _ _ _ _ 1 0); [apply s_st_get|]. intros r'. apply s_here.
    - intros e. apply (sp_bind _ _ _ _ 2 0); [apply s_add|]. intros _. apply s_here.
  Qed.
  Lemma s_uoi a c ids attrs : sp 3 (c_update_or_instantiate a c ids attrs).
  Proof. apply (sp_bind _ _ _ _ 3 0); [apply s_goi|]. intros rb. apply s_bind0. intros _. apply s_here. Qed.
  Lemma s_uoa a r : sp 3 (c_update_or_add_model_instance a r).
  Proof. apply s_bind0. intros o. apply (sp_bind _ _ _ _ 3 0); [apply s_goa|]. intros rb. apply s_bind0. intros _. apply s_here. Qed.
  Lemma s_fmap {A B} (f : A -> B) c m : sp c m -> sp c (cfmap f m).
  Proof. intros H. apply (sp_more _ _ _ _ (c + 0)); [|lia]. apply sp_bind; [exact H|]. intros x. apply s_here. Qed.
  Lemma s_call a c : simple_call c -> sp (most c) (issued a c).
  Proof.
    destruct c; cbn [simple_call issued most]; intros S; try contradiction; subst; apply s_fmap.
    - apply s_add. - apply s_update. - apply s_remove. - apply s_item. - apply s_st_get. - apply s_gon. - apply s_by_uids. - apply s_names. - apply s_count. - apply s_goi.
    - apply s_goa. - apply s_uoi. - apply s_uoa. - apply s_here. - apply s_here.
  Qed.
End Calls.
Lemma pay_none l : list_sum (map (pay (fun _ => 0) 0) l) = 0.
Proof. induction l as [|[k [o|]|k o|k b|k|k ks] l IH]; cbn; auto. Qed.
Lemma call_cost a c w l q : simple_call c -> talk (issued a c w) l q -> length l <= most c.
Proof.
  intros S T. pose proof (s_call (fun _ => True) 0 a c S w 0 I) as H. apply (pays_talk _ _ _ _ _ _ _ T) in H; [|auto]. rewrite pay_none in H. lia.
Qed.
(** get_all *)
Lemma loads_cost ok a l : forall w n, pays ok (fun _ => 0) 1 (fun _ b => n <= b) (length l + n) (cmapM (c_load a) l w).
Proof.
  intros w n. pose proof (sp_map ok (fun _ => 0) 1 (fun _ : world => True) 1 (c_load a) l (s_load ok 1 a) w n I) as H.
  replace (1 * length l + n) with (length l + n) in H by lia. eapply pays_post; [exact H|]. now intros x m [_ ?].
Qed.
Lemma all_cost a m w l q : talk (issued a (KGetAll m) w) l q -> length l <= 1 + keys_listed l.
Proof.
  intros T. assert (H : pays (fun _ => True) (fun _ => 0) 1 (fun _ _ => True) 1 (issued a (KGetAll m) w)).
  { cbn [issued]. unfold cfmap. eapply pays_then with (post := fun _ _ => True); [|intros [w' [x|x]] k _; now constructor].
    unfold c_get_all, cbind at 1. cbn [here cthen]. destruct (snd (get_adapter a w)) as [ad|e]; [|now constructor]. destruct (ad_store ad); [now constructor|].
    cbn. constructor. intros ks. replace (1 * length ks + 0) with (length ks + 0) by lia. eapply pays_post; [apply loads_cost|trivial]. }
  apply (pays_talk _ _ _ _ _ _ _ T) in H; [|auto]. replace (list_sum (map (pay (fun _ => 0) 1) l)) with (keys_listed l) in H; [exact H|].
  unfold keys_listed. f_equal. apply map_ext. intros [k [o|]|k o|k b|k|k ks]; cbn; lia.
Qed.

(** ** remove(remove_children=True) on a RedisStore *)
Lemma to_redis_ads a w w' : w_ads w' = w_ads w -> to_redis a w -> to_redis a w'.
Proof. intros E (ad & i & H). exists ad, i. now rewrite E. Qed.
Lemma sp_for {St A} ok cr sc (I : St -> Prop) (c : A -> nat) (f : A -> SM St unit) l : (forall x, spend ok cr sc I (c x) (f x)) -> spend ok cr sc I (list_sum (map c l)) (cforM l f).
Proof.
  intros H. induction l as [|x l IH]; cbn [cforM map]; [now apply sp_here|]. change (list_sum (c x :: map c l)) with (c x + list_sum (map c l)). apply sp_bind; [apply H|]. intros _. exact IH.
Qed.
Section Removal.
  Variables (ok : obj -> Prop) (cr : obj -> nat) (sc : nat) (a : aid).
  Notation sp := (spend ok cr sc (to_redis a)).
  Lemma r_here {A} (m : M world A) : (forall w, w_ads (fst (m w)) = w_ads w) -> sp 0 (here m).
  Proof. intros H. apply sp_here. intros w. apply to_redis_ads, H. Qed.
  Lemma r_item t u : sp 2 (c_remove_item a t u).
  Proof.
    intros w n (ad & i & A & S). unfold c_remove_item, cbind at 1. cbn [here cthen]. unfold get_adapter. rewrite A. cbn [fst snd]. rewrite S.
    cbn. constructor. intros []; cbn; [constructor|]; constructor; (split; [cbn; eauto|lia]). exists ad, i. now split. exists ad, i. now split.
  Qed.
  Lemma r_clear r : sp 1 (c_clear_adapter r).
  Proof.
    assert (T : forall x, sp 1 (c_truthy x)).
    { intros [b|]; [|apply (sp_more _ _ _ _ 0); [now apply r_here|lia]]. apply (sp_bind _ _ _ _ 1 0); [|intros n; now apply r_here].
      intros w n R. unfold c_count_all. destruct (nth_error (w_ads w) b) as [ad|]; [|constructor; split; [exact R|lia]]. destruct (ad_store ad); [constructor; split; [exact R|lia]|].
      constructor. intros l. constructor. split; [exact R|lia]. }
    apply (sp_bind _ _ _ _ 0 1); [apply r_here; intros w; unfold hget; now destruct (nth_error _ _)|]. intros o. apply (sp_bind _ _ _ _ 1 0); [apply T|]. intros []; now apply r_here.
  Qed.
End Removal.
Section Cascade.
  Variables (ok : obj -> Prop) (sc : nat) (a : aid).
  Notation cr := (fun o => 4 * kids_named o).
  Notation sp := (spend ok cr sc (to_redis a)).
  Lemma r_remove fuel : forall r w o n, to_redis a w -> nth_error (w_heap w) r = Some o ->
    pays ok cr sc (fun sx b => to_redis a (fst sx) /\ n <= b) (3 + 4 * kids_named o + n) (c_remove fuel a r true w).
  Proof.
    induction fuel as [|fuel IH]; intros r w o n R H; cbn [c_remove]; [constructor; split; [exact R|lia]|].
    unfold cbind at 1. cbn [here cthen]. assert (HG : hget r w = (w, Ok o)) by (unfold hget; now rewrite H). rewrite HG. cbn [fst snd].
    assert (G : sp (3 + 4 * kids_named o) (cbind (here (lift (get_unique_id o))) (fun uid =>
      cbind (c_remove_item a (get_type o) uid) (fun _ =>
      cbind (c_clear_adapter r) (fun _ =>
        cforM (get_children_mapping o) (fun tf =>
          cbind (here (lift (getattr_kids o (snd tf)))) (fun child_ids =>
          cforM child_ids (fun child_id =>
            ctry
              (cbind (c_get a (MName (fst tf)) (IdStr child_id)) (fun c =>
               c_remove fuel a c true))
              is_not_found
              (fun _ => here (emit (EvLog LError None None "Unable to remove child element as it was not found!"))))))))))).
    { apply (sp_bind _ _ _ _ 0 (3 + 4 * kids_named o)); [now apply r_here|]. intros u.
      apply (sp_bind _ _ _ _ 2 (1 + 4 * kids_named o)); [apply r_item|]. intros _. apply (sp_bind _ _ _ _ 1 (4 * kids_named o)); [apply r_clear|]. intros _.
      apply (sp_more _ _ _ _ (list_sum (map (fun tf => match dget (o_kids o) (snd tf) with Some l => 4 * length l | None => 0 end) (get_children_mapping o)))).
      2:{ unfold kids_named, get_children_mapping. induction (c_children (o_cls o)) as [|[t f] l IHl]; [cbn; lia|]. cbn [map]. unfold list_sum in *. cbn [fold_right snd]. destruct (dget (o_kids o) f); lia. }
      apply sp_for. intros [t f]. cbn [fst snd]. unfold getattr_kids. destruct (dget (o_kids o) f) as [ids|].
      2:{ intros w1 m R1. constructor. split; [exact R1|lia]. }
      assert (K : sp (list_sum (map (fun _ => 4) ids)) (cforM ids (fun child_id =>
            ctry
              (cbind (c_get a (MName t) (IdStr child_id)) (fun c =>
               c_remove fuel a c true))
              is_not_found
              (fun _ => here (emit (EvLog LError None None "Unable to remove child element as it was not found!")))))).
      { apply sp_for. intros c w1 m (ad & i & A & S). unfold ctry, cbind at 1, c_get, cbind at 1. cbn [here cthen].
        assert (GA : get_adapter a w1 = (w1, Ok ad)) by (unfold get_adapter; now rewrite A). rewrite GA. cbn [fst snd]. cbn [get_uid]. unfold cbind at 1. cbn [here cthen lift fst snd]. rewrite S.
        unfold c_load, cbind, cget. cbn [here cthen fst snd]. constructor.
        - cbn. constructor. split; [exists ad, i; now split|lia].
        - intros oc _. cbn [here cthen halloc fst snd]. eapply pays_then.
          + replace (4 * kids_named oc + Datatypes.S (Datatypes.S (Datatypes.S m))) with (3 + 4 * kids_named (set_o_adapter oc (Some a)) + m) by (change (kids_named (set_o_adapter oc (Some a))) with (kids_named oc); lia).
            apply IH; [exists ad, i; now split|]. cbn [set_heap w_heap]. rewrite nth_error_app2, Nat.sub_diag by lia. reflexivity.
          + intros [w2 [[]|e]] b [R2 L2]; cbn [fst snd] in *; [constructor; now split|]. destruct (is_not_found e); constructor; (split; [|exact L2]); [|exact R2].
            exact (to_redis_ads a w2 _ eq_refl R2). }
      intros w1 m R1. unfold cbind at 1. cbn [here cthen lift fst snd]. pose proof (K w1 m R1) as X.
      replace (list_sum (map (fun _ => 4) ids)) with (4 * length ids) in X; [exact X|]. clear. induction ids as [|x l IHl]; [reflexivity|]. cbn [map length]. unfold list_sum in *. cbn [fold_right]. lia. }
    exact (G w n R).
  Qed.
End Cascade.
