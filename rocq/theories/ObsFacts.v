(** * ObsFacts: callbacks and debug records have no influence. *)
From Verif Require Export ObsSpec FaithFacts SyncMaster.

(** ** Pairs of computations *)
Definition par {S A} (R : S -> S -> Prop) (m m' : M S A) : Prop :=
  forall s s', R s s' -> R (fst (m s)) (fst (m' s')) /\ snd (m' s') = snd (m s).
Section Par.
  Context {S : Type} (R : S -> S -> Prop).
  Lemma par_ret {A} (a : A) : par R (ret a) (ret a).
  Proof. intros s s' H. auto. Qed.
  Lemma par_raise {A} e : par R (raise e : M S A) (raise e).
  Proof. intros s s' H. auto. Qed.
  Lemma par_lift {A} (r : result A) : par R (lift r) (lift r).
  Proof. intros s s' H. auto. Qed.
  Lemma par_bind {A B} (m m' : M S A) (k k' : A -> M S B) : par R m m' -> (forall a, par R (k a) (k' a)) -> par R (bind m k) (bind m' k').
  Proof.
    intros H K s s' E. destruct (H s s' E) as [H1 H2]. unfold bind. destruct (m s) as [t r], (m' s') as [t' r']. simpl in *. subst r'.
    destruct r as [a|e]; [apply K; exact H1|auto].
  Qed.
  Lemma par_get {B} (k k' : S -> M S B) : (forall s s', R s s' -> par R (k s) (k' s')) -> par R (bind get_state k) (bind get_state k').
  Proof. intros H s s' E. unfold bind, get_state. now apply H. Qed.
  Lemma par_modify f f' : (forall s s', R s s' -> R (f s) (f' s')) -> par R (modify f) (modify f').
  Proof. intros H s s' E. unfold modify. simpl. auto. Qed.
  Lemma par_try {A} (m m' : M S A) p (h h' : exn -> M S A) : par R m m' -> (forall e, par R (h e) (h' e)) -> par R (try_catch m p h) (try_catch m' p h').
  Proof.
    intros H K s s' E. destruct (H s s' E) as [H1 H2]. unfold try_catch. destruct (m s) as [t r], (m' s') as [t' r']. simpl in *. subst r'.
    destruct r as [a|e]; [auto|]. destruct (p e); [now apply K|auto].
  Qed.
  Lemma par_forM {A} (l : list A) f f' : (forall x, par R (f x) (f' x)) -> par R (forM l f) (forM l f').
  Proof. intros H. induction l; simpl; [apply par_ret|]. apply par_bind; auto. Qed.
  Lemma par_mapM {A B} (l : list A) (f f' : A -> M S B) : (forall x, par R (f x) (f' x)) -> par R (mapM f l) (mapM f' l).
  Proof. intros H. induction l; simpl; [apply par_ret|]. apply par_bind; auto. intros y. apply par_bind; auto. intros. apply par_ret. Qed.
End Par.

(** ** Operations on the world *)
Section Keep.
Variable keep : event -> bool.
Hypothesis keep_cb : forall s n m, keep (EvCallback s n m) = false.
Hypothesis keep_debug : forall c st msg, keep (EvLog LDebug c st msg) = false.
Notation so := (same_save keep).
Lemma so_refl w : so w w.
Proof. repeat split. Qed.
Lemma so_event w w' ev : so w w' -> so (add_event w ev) (add_event w' ev).
Proof. intros (A & B & C & D). repeat split; simpl; auto. rewrite !filter_app. now rewrite D. Qed.
Lemma so_event1 w w' ev : keep ev = false -> so w w' -> so (add_event w ev) w'.
Proof. intros N (A & B & C & D). repeat split; simpl; auto. rewrite filter_app. simpl. now rewrite N, app_nil_r. Qed.
Lemma so_event2 w w' ev : keep ev = false -> so w w' -> so w (add_event w' ev).
Proof. intros N (A & B & C & D). repeat split; simpl; auto. rewrite filter_app. simpl. now rewrite N, app_nil_r. Qed.
Lemma so_heap w w' h : so w w' -> so (set_heap w h) (set_heap w' h).
Proof. intros (A & B & C & D). repeat split; auto. Qed.
Lemma so_count w w' a : so w w' -> count_all w' a = count_all w a.
Proof. intros (A & B & C & D). unfold count_all, scan. now rewrite B, C. Qed.
Lemma so_truthy w w' x : so w w' -> adapter_truthy w' x = adapter_truthy w x.
Proof. intros H. unfold adapter_truthy. destruct x; [|reflexivity]. now rewrite (so_count _ _ _ H). Qed.

Lemma par_emit ev : par so (emit ev) (emit ev).
Proof. apply par_modify. intros. now apply so_event. Qed.
Lemma par_hget r : par so (hget r) (hget r).
Proof. intros w w' H. unfold hget. destruct H as (A & H). rewrite A. destruct (nth_error (w_heap w) r); split; try reflexivity; simpl; now split. Qed.
Lemma par_hset r o : par so (hset r o) (hset r o).
Proof. apply par_modify. intros w w' H. replace (w_heap w') with (w_heap w) by (symmetry; apply H). now apply so_heap. Qed.
Lemma par_halloc o : par so (halloc o) (halloc o).
Proof. intros w w' H. unfold halloc. simpl. replace (w_heap w') with (w_heap w) by (symmetry; apply H). split; [now apply so_heap|reflexivity]. Qed.
Lemma par_adapter a : par so (get_adapter a) (get_adapter a).
Proof. intros w w' H. unfold get_adapter. replace (w_ads w') with (w_ads w) by (symmetry; apply H). destruct (nth_error (w_ads w) a); split; auto. Qed.
Lemma par_put a s : par so (put_store a s) (put_store a s).
Proof.
  apply par_modify. intros w w' (A & B & C & D). rewrite B. destruct (nth_error (w_ads w) a); repeat split; simpl; congruence.
Qed.
Lemma par_load a key : par so (redis_load a key) (redis_load a key).
Proof.
  intros w w' H. unfold redis_load. replace (w_redis w') with (w_redis w) by (symmetry; apply H).
  destruct (dget (w_redis w) key); [now apply par_halloc|split; auto].
Qed.
Lemma par_rput key o : par so (redis_put key o) (redis_put key o).
Proof. apply par_modify. intros w w' (A & B & C & D). repeat split; simpl; congruence. Qed.
Ltac par1 := lazymatch goal with
  | |- par _ (ret _) _ => apply par_ret
  | |- par _ (raise _) _ => apply par_raise
  | |- par _ (lift _) _ => apply par_lift
  | |- par _ (emit _) _ => apply par_emit
  | |- par _ (hget _) _ => apply par_hget
  | |- par _ (hset _ _) _ => apply par_hset
  | |- par _ (halloc _) _ => apply par_halloc
  | |- par _ (get_adapter _) _ => apply par_adapter
  | |- par _ (put_store _ _) _ => apply par_put
  | |- par _ (redis_load _ _) _ => apply par_load
  | |- par _ (redis_put _ _) _ => apply par_rput
  | |- par _ (try_catch _ _ _) _ => apply par_try; [|intros ?]
  | |- par _ (forM _ _) _ => apply par_forM; intros ?
  | |- par _ (mapM _ _) _ => apply par_mapM; intros ?
  | |- par _ (bind get_state _) _ => apply par_get; intros ? ? ?
  | |- par _ (bind _ _) _ => apply par_bind; [|intros ?]
  end.
Ltac pars := repeat (par1 || match goal with
  | |- par _ (match ?x with _ => _ end) _ => destruct x end).

Lemma par_mutate r f : par so (mutate r f) (mutate r f).
Proof. unfold mutate. pars. Qed.
Lemma par_st_get a m i : par so (st_get a m i) (st_get a m i).
Proof. unfold st_get. pars. Qed.
Lemma par_st_get_all a m : par so (st_get_all a m) (st_get_all a m).
Proof.
  unfold st_get_all. par1; [par1|]. destruct (ad_store _); [pars|]. apply par_get. intros w w' H. unfold scan.
  replace (w_redis w') with (w_redis w) by (symmetry; apply H). pars.
Qed.
Lemma par_st_by a l m : par so (st_get_by_uids a l m) (st_get_by_uids a l m).
Proof. unfold st_get_by_uids. pars. Qed.
Lemma par_clear r : par so (clear_adapter r) (clear_adapter r).
Proof. unfold clear_adapter. par1; [par1|]. apply par_get. intros w w' H. rewrite (so_truthy _ _ _ H). pars. Qed.
Lemma par_item a m u : par so (st_remove_item a m u) (st_remove_item a m u).
Proof.
  unfold st_remove_item. par1; [par1|]. destruct (ad_store _); [pars|]. apply par_get. intros w w' H.
  replace (w_redis w') with (w_redis w) by (symmetry; apply H). destruct (dget _ _); [|par1].
  apply par_modify. intros v v' (A & B & C & D). repeat split; simpl; congruence.
Qed.
Lemma par_st_add a r : par so (st_add a r) (st_add a r).
Proof.
  unfold st_add. par1; [par1|]. par1; [par1|]. par1; [par1|]. destruct (ad_store _).
  - par1; [par1|]. destruct (dget _ _); [pars|]. apply par_get. intros w w' H. rewrite (so_truthy _ _ _ H). pars.
  - apply par_get. intros w w' H. replace (w_redis w') with (w_redis w) by (symmetry; apply H). pars.
Qed.
Lemma par_st_remove n a r b : par so (st_remove n a r b) (st_remove n a r b).
Proof.
  revert r. induction n as [|n IH]; intros r; simpl; [par1|]. par1; [par1|]. par1; [par1|]. par1; [apply par_item|]. par1; [apply par_clear|].
  destruct b; [|par1]. repeat (par1; try apply par_st_get; try apply IH).
Qed.
Lemma par_or_none a m i : par so (ad_get_or_none a m i) (ad_get_or_none a m i).
Proof. unfold ad_get_or_none. repeat (apply par_st_get || par1). Qed.

(** ** The differ *)
Definition so_d (s s' : dstate) : Prop := so (ds_w s) (ds_w s') /\ ds_n s' = ds_n s.
Lemma par_dlift {A} (m m' : M world A) : par so m m' -> par so_d (dlift m) (dlift m').
Proof. intros H s s' [E N]. destruct (H _ _ E) as [H1 H2]. unfold dlift. simpl. split; [split; auto|auto]. Qed.
Section Differ.
  Variables (env env' : denv).
  Hypothesis ES : en_src env' = en_src env.
  Hypothesis ED : en_dst env' = en_dst env.
  Hypothesis EF : forall s d, skip_pair (en_flags env') s d = skip_pair (en_flags env) s d.
  Hypothesis EN : en_sname env' = en_sname env.
  Hypothesis EM : en_dname env' = en_dname env.
  Lemma par_incr n : par so_d (incr_models_processed env n) (incr_models_processed env' n).
  Proof.
    intros s s' [E N]. unfold incr_models_processed. destruct n as [|n]; [split; [split|]; auto|]. simpl. rewrite N. split; [|reflexivity]. split; [|reflexivity]. simpl.
    destruct (en_cb env), (en_cb env'); auto using so_event1, so_event2.
  Qed.
  Lemma par_all a t : par so_d (fetch_all a t) (fetch_all a t).
  Proof. unfold fetch_all. apply par_bind; [apply par_dlift, par_st_get_all|]. intros l. apply par_dlift. pars. Qed.
  Lemma par_by a l t : par so_d (fetch_by_uids a l t) (fetch_by_uids a l t).
  Proof. unfold fetch_by_uids. apply par_bind; [apply par_dlift, par_st_by|]. intros m. apply par_dlift. pars. Qed.
  Lemma par_children rec rec' s d : (forall x y, par so_d (rec x y) (rec' x y)) ->
    forall mapping gs, par so_d (diff_child_types env rec s d mapping gs) (diff_child_types env' rec' s d mapping gs).
  Proof.
    intros R mapping. induction mapping as [|[t f] mapping IH]; intros gs; simpl; [apply par_ret|].
    rewrite ES, ED. unfold fetch_children. destruct s, d; repeat (apply par_by || apply R || apply IH || par1).
  Qed.
  Lemma par_mapping s d : par so_d (children_mapping env s d) (children_mapping env' s d).
  Proof. unfold children_mapping. destruct s, d; repeat (apply par_incr || par1 || match goal with |- par _ (match ?x with _ => _ end) _ => destruct x end). Qed.
  Lemma par_pair rec rec' s d : (forall x y, par so_d (rec x y) (rec' x y)) -> par so_d (diff_object_pair env rec s d) (diff_object_pair env' rec' s d).
  Proof.
    intros R. unfold diff_object_pair. destruct (match s with Some x => Some x | None => d end); [|par1].
    par1; [par1|]. par1; [par1|]. rewrite EF. destruct (skip_pair _ _ _); [repeat (apply par_incr || par1)|].
    par1; [apply par_incr|]. par1; [apply par_mapping|]. par1; [now apply par_children|]. rewrite EN, EM. par1.
  Qed.
  Lemma par_list rec rec' : (forall x y, par so_d (rec x y) (rec' x y)) -> forall s d, par so_d (diff_list_body env rec s d) (diff_list_body env' rec' s d).
  Proof.
    intros R s d. unfold diff_list_body. repeat (apply par_incr || par1).
    match goal with |- par _ (diff_pairs _ _ ?l) _ => generalize l end. intros l. induction l as [|[k [x y]] l IH]; simpl; [par1|].
    par1; [now apply par_pair|]. par1; [exact IH|]. par1.
  Qed.
  Lemma par_objects n : forall s d, par so_d (diff_object_list n env s d) (diff_object_list n env' s d).
  Proof. induction n as [|n IH]; intros s d; simpl; [par1|]. now apply par_list. Qed.
  Lemma par_types n ts : forall gs, par so_d (diff_types n env ts gs) (diff_types n env' ts gs).
  Proof.
    induction ts as [|t ts IH]; intros gs; simpl; [par1|]. rewrite ES, ED. repeat (apply par_all || apply par_objects || apply IH || par1).
  Qed.
  Lemma par_calc n dc dt st : par so_d (calculate_diffs n env dc dt st) (calculate_diffs n env' dc dt st).
  Proof.
    unfold calculate_diffs, count_skipped. par1.
    - par1. rewrite ES, ED. destruct (smem _ dt); [|destruct (smem _ st)]; repeat (apply par_all || apply par_incr || par1).
    - par1; [apply par_types|]. apply par_get. intros s s' [_ N]. rewrite N. par1.
  Qed.
End Differ.
Lemma bit_flag f f' k : same_but_logging f f' -> k <> 3%N -> has_flag f' (2 ^ k) = has_flag f (2 ^ k).
Proof. intros H K. rewrite !has_flag_pow2. now apply H. Qed.
Lemma same_skip f f' s d : same_but_logging f f' -> skip_pair f' s d = skip_pair f s d.
Proof.
  intros H. pose proof (bit_flag f f' 1 H ltac:(discriminate)) as A. pose proof (bit_flag f f' 2 H ltac:(discriminate)) as B.
  change (2 ^ 1)%N with SF_SKIP_UNMATCHED_SRC in A. change (2 ^ 2)%N with SF_SKIP_UNMATCHED_DST in B. unfold skip_pair. now rewrite A, B.
Qed.
Lemma par_diff n dst src dc f f' cb cb' : same_but_logging f f' ->
  par so (diff_from n dst src dc f cb) (diff_from n dst src dc f' cb').
Proof.
  intros F. unfold diff_from. par1; [par1|]. par1; [par1|]. apply par_get. intros w w' H. rewrite !(so_count _ _ _ H).
  intros v v' E. cbv zeta.
  match goal with |- context [calculate_diffs n ?x dc (ad_top a0) (ad_top a) (mkDS v 0)] => set (env := x) end.
  match goal with |- context [calculate_diffs n ?x dc (ad_top a0) (ad_top a) (mkDS v' 0)] => set (env' := x) end.
  destruct (par_calc env env' eq_refl eq_refl (fun s d => same_skip f f' s d F) eq_refl eq_refl n dc (ad_top a0) (ad_top a) (mkDS v 0) (mkDS v' 0)) as [[A _] B];
    [split; [exact E|reflexivity]|]. simpl. auto.
Qed.

(** ** The syncer *)
Definition so_s (s s' : sstate) : Prop :=
  so (ss_w s) (ss_w s') /\ ss_action s' = ss_action s /\ ss_class s' = ss_class s /\ ss_ctx s' = ss_ctx s.
Lemma par_slift {A} (m m' : M world A) : par so m m' -> par so_s (slift m) (slift m').
Proof. intros H s s' (E & N). destruct (H _ _ E) as [H1 H2]. unfold slift. simpl. split; [split; auto|auto]. Qed.
Lemma par_slog l st msg : par so_s (slog l st msg) (slog l st msg).
Proof. unfold slog. apply par_get. intros s s' (_ & _ & _ & E). rewrite E. apply par_slift, par_emit. Qed.
Lemma par_kids ks ks' : Forall2 (fun k k' => forall p, par so_s (k p) (k' p)) ks ks' -> forall p b, par so_s (run_kids ks p b) (run_kids ks' p b).
Proof. intros F. induction F as [|k k' ks ks' H F IH]; intros p b; simpl; [par1|]. par1; [apply H|]. apply IH. Qed.
Section Syncer.
  Variables (env env' : senv).
  Hypothesis ES : sv_src env' = sv_src env.
  Hypothesis ED : sv_dst env' = sv_dst env.
  Hypothesis EF : same_but_logging (sv_flags env) (sv_flags env').
  Hypothesis EH : sv_hooks env' = sv_hooks env.
  Hypothesis EU : sv_fuel env' = sv_fuel env.
  Hypothesis IH : deaf keep (sv_hooks env).
  Lemma par_sincr : par so_s (incr_elements_processed env) (incr_elements_processed env').
  Proof.
    intros s s' (E & A & C & X). unfold incr_elements_processed. simpl. rewrite A, C, X. split; [|reflexivity]. split; [|repeat split; reflexivity].
    simpl. destruct (sv_cb env), (sv_cb env'); auto using so_event1, so_event2.
  Qed.
  Lemma par_status a st msg : par so_s (log_sync_status env a st msg) (log_sync_status env' a st msg).
  Proof.
    destruct a; simpl; [destruct st; apply par_slog|]. 
    assert (D : forall s s', so_s s s' -> so_s (fst (slog LDebug (Some st) msg s)) s' /\ so_s s (fst (slog LDebug (Some st) msg s'))).
    { intros s s' (E & N). unfold slog, bind, get_state, slift, emit, modify. simpl. split; (split; [|exact N]); simpl; [apply so_event1|apply so_event2]; auto. }
    destruct (has_flag _ _), (has_flag _ _).
    - apply par_slog.
    - intros s s' H. split; [now apply D|reflexivity].
    - intros s s' H. split; [now apply D|reflexivity].
    - par1.
  Qed.
  Lemma par_create c ids at' : par so (call_create env c ids at') (call_create env' c ids at').
  Proof.
    unfold call_create. apply par_get. intros w w' E. rewrite EH, ED, (IH w w' _ E). cbv zeta. pars.
  Qed.
  Lemma par_update r at' : par so (call_update env r at') (call_update env' r at').
  Proof. unfold call_update. apply par_get. intros w w' E. rewrite EH, (IH w w' _ E). cbv zeta. repeat (apply par_mutate || pars). Qed.
  Lemma par_delete r : par so (call_delete env r) (call_delete env' r).
  Proof. unfold call_delete. apply par_get. intros w w' E. rewrite EH, (IH w w' _ E). cbv zeta. repeat (apply par_mutate || pars). Qed.
  Lemma par_model_try m ids at' : par so_s (sync_model_try env m ids at') (sync_model_try env' m ids at').
  Proof.
    unfold sync_model_try. apply par_get. intros s s' (E & A & C & X). rewrite A, C. par1.
    - destruct (ss_action s) as [[]|]; [destruct m; [par1|destruct (ss_class s); [apply par_slift, par_create|par1]]|destruct m; [apply par_slift, par_update|par1]|
        destruct m; [apply par_slift, par_delete|par1]|par1].
    - destruct a as [r|]; [|unfold class_name; rewrite C; par1]. par1; [apply par_slift, par_hget|par1].
  Qed.
  Lemma par_model m ids at' : par so_s (sync_model env m ids at') (sync_model env' m ids at').
  Proof.
    unfold sync_model. apply par_get. intros s s' (E & A & C & X). rewrite A. destruct (ss_action s) as [a|]; [|par1; [apply par_status|par1]].
    par1.
    - par1; [par1; [apply par_model_try|par1]|]. par1; [apply par_status|].
      change SF_CONTINUE_ON_FAILURE with (2 ^ 0)%N. rewrite (bit_flag _ _ 0 EF) by discriminate. destruct (has_flag _ _); par1.
    - destruct a0 as [[x [st msg]]|]; [|par1]. par1; [apply par_status|par1].
  Qed.
  Lemma par_get_dst c ids : par so (get_dst_model env c ids) (get_dst_model env' c ids).
  Proof. unfold get_dst_model. rewrite ED. repeat (apply par_st_get || apply par_mutate || par1). Qed.
  Lemma par_flag m f : par so (model_flag m f) (model_flag m f).
  Proof. unfold model_flag. destruct m; pars. Qed.
  Lemma par_apply a p r b : par so (apply_to_store env a p r b) (apply_to_store env' a p r b).
  Proof.
    unfold apply_to_store, heap_add_child, heap_remove_child. rewrite ED, EU. destruct a as [[]|]; [|par1| |par1]; (par1; [destruct p; pars|]; par1; [|par1]); [apply par_st_add|apply par_st_remove].
  Qed.
  Lemma par_body e p ks ks' : Forall2 (fun k k' => forall p, par so_s (k p) (k' p)) ks ks' ->
    par so_s (sync_body env e p ks) (sync_body env' e p ks').
  Proof.
    intros F. unfold sync_body. rewrite ES, ED. par1; [apply par_slift, par_adapter|]. par1; [par1|]. par1.
    { apply par_modify. intros s s' (E & A & C & X). repeat (split; [simpl; congruence || exact E|]). exact X. }
    par1; [par1|]. par1.
    { apply par_modify. intros s s' (E & A & C & X). repeat (split; [simpl; congruence || exact E|]). reflexivity. }
    par1; [apply par_slift, par_or_none|]. par1; [apply par_slift, par_get_dst|]. par1; [apply par_slift, par_flag|]. par1; [apply par_slift, par_flag|].
    apply par_get. intros s s' (E & A & C & X). rewrite A. par1; [destruct (_ && _)%bool; [now apply par_kids|par1]|]. par1; [apply par_model|].
    destruct (snd a9) as [r|]; [|par1; [apply par_slog|par1]].
    apply par_get. intros t t' (E' & A' & C' & X'). rewrite A'. par1; [apply par_slift, par_apply|]. destruct a10; [par1|].
    par1; [apply par_sincr|]. destruct (_ || _)%bool; [now apply par_kids|par1].
  Qed.
  Lemma par_elem ord e : forall p, par so_s (sync_elem ord env e p) (sync_elem ord env' e p).
  Proof.
    induction e as [e IHe] using elem_ind'. intros p. rewrite !sync_elem_eq. apply par_body. rewrite !(ordered_map ord (sync_elem ord _)).
    assert (K : forall x, In x (ordered ord (fun y => y) (e_kids e)) -> forall p, par so_s (sync_elem ord env x p) (sync_elem ord env' x p)).
    { intros x I. apply ordered_sub in I. apply In_children in I as (t & g & k & I1 & I2). eapply IHe; eauto. }
    induction (ordered ord (fun y => y) (e_kids e)) as [|x l IHl]; constructor; [apply K; now left|]. apply IHl. intros y I. apply K. now right.
  Qed.
  Lemma par_perform d : par so_s (perform_sync env d) (perform_sync env' d).
  Proof.
    unfold perform_sync. apply par_kids. rewrite !(ordered_map (dc_order (d_class d)) (sync_elem (dc_order (d_class d)) _)).
    induction (ordered _ _ _) as [|x l IHl]; constructor; [apply par_elem|exact IHl].
  Qed.
  Lemma par_run d : par so (run_sync env d) (run_sync env' d).
  Proof.
    unfold run_sync. par1.
    - intros w w' H. cbv zeta. destruct (par_perform d (mkSS w 0 None None None) (mkSS w' 0 None None None)) as [(A & _) B]; [split; [exact H|repeat split]|].
      simpl. auto.
    - par1; [|par1]. rewrite ES, ED. destruct a; par1.
  Qed.
End Syncer.
Lemma par_sync fuel h dst src dc f f' cb cb' given : deaf keep h -> same_but_logging f f' ->
  par so (sync_from fuel h dst src dc f cb given) (sync_from fuel h dst src dc f' cb' given).
Proof.
  intros I F. unfold sync_from. par1; [destruct given; pars|]. par1.
  - destruct given; [|now apply par_diff]. destruct (diff_truthy _); [par1|now apply par_diff].
  - now apply par_run.
Qed.
End Keep.
