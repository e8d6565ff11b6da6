(** * ConcSync: the command programs of diff_from and sync_from compute what the model does. *)
From Coq Require Import Lia.
From Verif Require Export ConcFacts.
From Verif Require Import DiffFacts.

(** ** States that contain a world *)
Section Sim.
  Context {St : Type} (gw : St -> world) (sw : St -> world -> St).
  Hypothesis gs : forall s w, gw (sw s w) = w.
  Hypothesis ss : forall s w w', sw (sw s w) w' = sw s w'.
  Hypothesis sg : forall s, sw s (gw s) = s.
  Definition at_server (s : St) (d : dict obj) : St := sw s (set_redis (gw s) d).
  Definition gsim {A} (m : M St A) (c : SM St A) : Prop := forall s d, w_redis (gw s) = [] ->
    solo d (c s) = (w_redis (gw (fst (m (at_server s d)))), (at_server (fst (m (at_server s d))) [], snd (m (at_server s d)))).
  Definition gblind {A} (m : M St A) : Prop := forall s d, m (at_server s d) = (at_server (fst (m s)) d, snd (m s)).
  Lemma at_twice s d e : at_server (at_server s d) e = at_server s e.
  Proof. unfold at_server. now rewrite gs, ss, redis_twice. Qed.
  Lemma at_same s : at_server s (w_redis (gw s)) = s.
  Proof. unfold at_server. now rewrite redis_eta. Qed.
  Lemma at_redis s d : w_redis (gw (at_server s d)) = d.
  Proof. unfold at_server. now rewrite gs. Qed.
  Lemma gsim_here {A} (m : M St A) : gblind m -> gsim m (here m).
  Proof.
    intros B s d E. unfold here. cbn [solo]. pose proof (B s []) as H.
    assert (Z : at_server s [] = s) by (rewrite <- E at 1; apply at_same). rewrite Z in H. rewrite (B s d). cbn [fst snd]. rewrite at_redis, at_twice.
    f_equal. exact H.
  Qed.
  Lemma gsim_bind {A B} (m : M St A) (k : A -> M St B) c ck : gsim m c -> (forall x, gsim (k x) (ck x)) -> gsim (bind m k) (cbind c ck).
  Proof.
    intros H K s d E. unfold cbind. rewrite solo_then, (H s d E). cbn [fst snd]. unfold bind. destruct (m (at_server s d)) as [s1 [x|e]]; cbn [fst snd]; [|reflexivity].
    rewrite (K x (at_server s1 []) (w_redis (gw s1))), at_twice, at_same; [reflexivity|apply at_redis].
  Qed.
  Lemma gsim_for {A} (l : list A) f cf : (forall x, gsim (f x) (cf x)) -> gsim (forM l f) (cforM l cf).
  Proof. intros H. induction l as [|x l IH]; cbn [forM cforM]; [apply gsim_here; intros s d; reflexivity|]. apply gsim_bind; [apply H|]. now intros _. Qed.
  Lemma gblind_ret {A} (x : A) : gblind (ret x). Proof. intros s d. reflexivity. Qed.
  Lemma gblind_raise {A} e : gblind (@raise St A e). Proof. intros s d. reflexivity. Qed.
  Lemma gblind_lift {A} (x : result A) : gblind (@lift St A x). Proof. intros s d. reflexivity. Qed.
  Lemma gblind_bind {A B} (m : M St A) (k : A -> M St B) : gblind m -> (forall x, gblind (k x)) -> gblind (bind m k).
  Proof. intros H K s d. unfold bind. rewrite (H s d). destruct (m s) as [s1 [x|e]]; cbn [fst snd]; [apply K|reflexivity]. Qed.
  Lemma gblind_try {A} (m : M St A) p h : gblind m -> (forall e, gblind (h e)) -> gblind (try_catch m p h).
  Proof. intros H K s d. unfold try_catch. rewrite (H s d). destruct (m s) as [s1 [x|e]]; cbn [fst snd]; [reflexivity|]. destruct (p e); [apply K|reflexivity]. Qed.
  Lemma gblind_for {A} (l : list A) f : (forall x, gblind (f x)) -> gblind (forM l f).
  Proof. intros H. induction l as [|x l IH]; cbn [forM]; [apply gblind_ret|]. apply gblind_bind; [apply H|]. now intros _. Qed.
  Lemma gblind_state {A} (k : St -> M St A) : (forall s w, k (sw s w) = k s) -> (forall s, gblind (k s)) -> gblind (bind get_state k).
  Proof. intros E K s d. unfold bind, get_state. unfold at_server at 1. rewrite E. apply K. Qed.
  (** a part that looks at the state but not at the server *)
  Lemma gsim_state {A} (k : St -> M St A) ck : (forall s w, k (sw s w) = k s) -> (forall s w, ck (sw s w) = ck s) -> (forall s, gsim (k s) (ck s)) ->
    gsim (bind get_state k) (cbind (here get_state) ck).
  Proof.
    intros E E' K s d Z. unfold cbind, here, bind, get_state. cbn [cthen fst snd]. assert (Q : k (at_server s d) = k s) by apply E. rewrite Q. now apply K.
  Qed.
End Sim.
(** those of ConcFacts *)
Definition dsw (s : dstate) (w : world) : dstate := mkDS w (ds_n s).
Notation dsim := (gsim ds_w dsw).
Notation dblind := (gblind ds_w dsw).
Notation ssim := (gsim ss_w set_ss_w).
Notation sblind := (gblind ss_w set_ss_w).
Lemma d1 s w : ds_w (dsw s w) = w. Proof. reflexivity. Qed.
Lemma d2 s w w' : dsw (dsw s w) w' = dsw s w'. Proof. reflexivity. Qed.
Lemma d3 s : dsw s (ds_w s) = s. Proof. now destruct s. Qed.
Lemma s1 s w : ss_w (set_ss_w s w) = w. Proof. reflexivity. Qed.
Lemma s2 s w w' : set_ss_w (set_ss_w s w) w' = set_ss_w s w'. Proof. reflexivity. Qed.
Lemma s3 s : set_ss_w s (ss_w s) = s. Proof. now destruct s. Qed.
Lemma blind_dlift {A} (m : M world A) : blind m -> dblind (dlift m).
Proof. intros B s d. unfold dlift, at_server, dsw. cbn [ds_w ds_n]. rewrite (B (ds_w s) d). reflexivity. Qed.
Lemma blind_slift {A} (m : M world A) : blind m -> sblind (slift m).
Proof. intros B s d. unfold slift, at_server, set_ss_w. cbn [ss_w]. rewrite (B (ss_w s) d). reflexivity. Qed.
Lemma sim_dlift {A} (m : M world A) c : sim m c -> dsim (dlift m) (cdlift c).
Proof. intros H s d E. unfold cdlift, dlift, at_server, dsw. rewrite solo_then, (H (ds_w s) d E). reflexivity. Qed.
Lemma sim_slift {A} (m : M world A) c : sim m c -> ssim (slift m) (cslift c).
Proof. intros H s d E. unfold cslift, slift, at_server, set_ss_w. rewrite solo_then, (H (ss_w s) d E). reflexivity. Qed.
Lemma blind_map {A B} (f : A -> M world B) l : (forall x, blind (f x)) -> blind (mapM f l).
Proof. intros H. induction l as [|x l IH]; cbn [mapM]; blind_tac; auto. Qed.
Lemma blind_try {A} (m : M world A) p h : blind m -> (forall e, blind (h e)) -> blind (try_catch m p h).
Proof. intros H K s d. unfold try_catch. rewrite (H s d). destruct (m s) as [s1 [x|e]]; cbn [fst snd]; [reflexivity|]. destruct (p e); [apply K|reflexivity]. Qed.
Definition dhere {A} (m : M dstate A) := gsim_here ds_w dsw d1 d2 d3 m.
Definition dbind {A B} (m : M dstate A) (k : A -> M dstate B) := gsim_bind ds_w dsw d1 d2 d3 m k.
Definition shere {A} (m : M sstate A) := gsim_here ss_w set_ss_w s1 s2 s3 m.
Definition sbind {A B} (m : M sstate A) (k : A -> M sstate B) := gsim_bind ss_w set_ss_w s1 s2 s3 m k.

(** ** The differ *)
Lemma blind_incr env n : dblind (incr_models_processed env n).
Proof. intros s d. unfold incr_models_processed. destruct n; [reflexivity|]. unfold at_server, dsw. cbn [fst snd ds_w ds_n]. now destruct (en_cb env). Qed.
Lemma sim_fetch_all a t : dsim (fetch_all a t) (c_fetch_all a t).
Proof. apply dbind; [apply sim_dlift, sim_get_all|]. intros rs. apply dhere, blind_dlift, blind_map. intros r. apply blind_hget. Qed.
Lemma sim_fetch_uids a us t : dsim (fetch_by_uids a us t) (c_fetch_by_uids a us t).
Proof. apply dbind; [apply sim_dlift, sim_by_uids|]. intros rs. apply dhere, blind_dlift, blind_map. intros r. apply blind_hget. Qed.
Lemma sim_children a o f t : dsim (fetch_children a o f t) (c_fetch_children a o f t).
Proof.
  destruct o as [o|]; cbn [fetch_children c_fetch_children]; [|apply dhere, gblind_ret]. apply dbind; [apply dhere, gblind_lift|]. intros us. apply sim_fetch_uids.
Qed.
Lemma blind_mapping env so do : dblind (children_mapping env so do).
Proof.
  unfold children_mapping. destruct so as [s|], do as [d|]; try apply gblind_ret; [|apply gblind_raise].
  apply gblind_bind; [|intros _; apply gblind_bind; [|intros _; apply gblind_ret]]; apply gblind_for; intros tf;
    (destruct (dmem _ _); [apply gblind_ret|]; apply gblind_bind; [apply gblind_lift|intros n; apply blind_incr]).
Qed.
Lemma sim_types env rec crec : (forall ss dd, dsim (rec ss dd) (crec ss dd)) -> forall so do mapping gs, dsim (diff_child_types env rec so do mapping gs) (c_diff_child_types env crec so do mapping gs).
Proof.
  intros R so do. induction mapping as [|[t f] mapping IH]; intros gs; cbn [diff_child_types c_diff_child_types]; [apply dhere, gblind_ret|].
  apply dbind; [apply sim_children|intros ss]. apply dbind; [apply sim_children|intros dd]. apply dbind; [apply R|intros es]. apply dbind; [apply dhere, gblind_lift|intros gs'; apply IH].
Qed.
Lemma sim_pair env rec crec : (forall ss dd, dsim (rec ss dd) (crec ss dd)) -> forall so do, dsim (diff_object_pair env rec so do) (c_diff_object_pair env crec so do).
Proof.
  intros R so do. unfold diff_object_pair, c_diff_object_pair. destruct (match so with Some s => Some s | None => do end) as [o|]; [|apply dhere, gblind_raise].
  apply dbind; [apply dhere, gblind_lift|intros _]. apply dbind; [apply dhere, gblind_lift|intros name]. destruct (skip_pair (en_flags env) so do).
  - apply dbind; [apply dhere, blind_incr|intros _; apply dhere, gblind_ret].
  - apply dbind; [apply dhere, blind_incr|intros _]. apply dbind; [apply dhere, blind_mapping|intros mapping]. apply dbind; [now apply sim_types|intros gs; apply dhere, gblind_ret].
Qed.
Lemma sim_list fuel env : forall src dst, dsim (diff_object_list fuel env src dst) (c_diff_object_list fuel env src dst).
Proof.
  induction fuel as [|fuel IH]; intros src dst; cbn [diff_object_list c_diff_object_list]; [apply dhere, gblind_raise|]. unfold diff_list_body, c_diff_list_body.
  apply dbind; [apply dhere, gblind_lift|intros ds]. apply dbind; [apply dhere, gblind_lift|intros dd]. cbv zeta. apply dbind; [apply dhere, blind_incr|intros _]. apply dbind; [apply dhere, gblind_lift|intros _].
  generalize (pair_up ds dd). induction d as [|[u [so do]] l IHl]; cbn [diff_pairs c_diff_pairs]; [apply dhere, gblind_ret|].
  apply dbind; [apply sim_pair, IH|intros e]. apply dbind; [apply IHl|intros es; apply dhere, gblind_ret].
Qed.
Lemma sim_calculate fuel env dc dtop stop : dsim (calculate_diffs fuel env dc dtop stop) (c_calculate_diffs fuel env dc dtop stop).
Proof.
  apply dbind.
  - apply (gsim_for ds_w dsw d1 d2 d3). intros t. destruct (smem t dtop); [apply dbind; [apply sim_fetch_all|intros l; apply dhere, blind_incr]|].
    destruct (smem t stop); [apply dbind; [apply sim_fetch_all|intros l; apply dhere, blind_incr]|apply dhere, gblind_ret].
  - intros _. apply dbind.
    + generalize (@nil (string * dict elem)) as gs. induction (intersection dtop stop) as [|t types IH]; intros gs; cbn [diff_types c_diff_types]; [apply dhere, gblind_ret|].
      apply dbind; [apply sim_fetch_all|intros ss]. apply dbind; [apply sim_fetch_all|intros dd]. apply dbind; [apply sim_list|intros es]. apply dbind; [apply dhere, gblind_lift|intros gs'; apply IH].
    + intros gs. apply dhere, gblind_state; [reflexivity|intros s; apply gblind_ret].
Qed.
Lemma sim_diff fuel dst src dc flags cb : sim (diff_from fuel dst src dc flags cb) (c_diff_from fuel dst src dc flags cb).
Proof.
  unfold diff_from, c_diff_from. sim1. sim1.
  pose proof (sim_count_all src (fun n => bind get_state (fun w => (fun m w' => let r := calculate_diffs fuel (mkEnv src dst flags (n + m) cb (ad_name x) (ad_name x0)) dc (ad_top x0) (ad_top x) (mkDS w' 0) in (ds_w (fst r), snd r)) (count_all w dst)))) as H.
  refine (sim_ext _ _ _ _ (H _ _)); [intros w; reflexivity|]. intros n.
  apply (sim_count_all dst (fun m w' => let r := calculate_diffs fuel (mkEnv src dst flags (n + m) cb (ad_name x) (ad_name x0)) dc (ad_top x0) (ad_top x) (mkDS w' 0) in (ds_w (fst r), snd r))).
  intros m w d E. cbv zeta. rewrite solo_then, (sim_calculate fuel _ dc (ad_top x0) (ad_top x) (mkDS w 0) d E). unfold at_server, dsw. cbn [solo fst snd ds_w ds_n]. reflexivity.
Qed.

(** ** The syncer *)
Definition blind_hooks (h : hooks) : Prop := forall w d c, h (set_redis w d) c = h w c.
Section Syncer.
  Context (env : senv) (BH : blind_hooks (sv_hooks env)).
  Lemma blind_out {A} (c : hookcall) (m : outcome -> M world A) (n : M world A) : (forall w, n w = m (sv_hooks env w c) w) -> (forall out, blind (m out)) -> blind n.
  Proof. intros E K w d. rewrite !E, BH. apply K. Qed.
  Definition answering (out : outcome) : senv := mkSEnv (sv_src env) (sv_dst env) (sv_flags env) (sv_total env) (sv_cb env) (fun _ _ => out) (sv_fuel env).
  Lemma blind_get {A} (k : world -> M world A) : (forall w d, k (set_redis w d) = k w) -> (forall w, blind (k w)) -> blind (bind get_state k).
  Proof. intros E K w d. unfold bind, get_state. rewrite E. apply K. Qed.
  Lemma blind_create c ids attrs : blind (call_create env c ids attrs).
  Proof. apply (blind_out (HCreate c ids attrs) (fun out => call_create (answering out) c ids attrs)); [reflexivity|]. intros out. apply blind_get; [reflexivity|]. intros w. cbv zeta. blind_tac. Qed.
  Lemma blind_update r attrs : blind (call_update env r attrs).
  Proof. apply (blind_out (HUpdate r attrs) (fun out => call_update (answering out) r attrs)); [reflexivity|]. intros out. apply blind_get; [reflexivity|]. intros w. cbv zeta. blind_tac. Qed.
  Lemma blind_delete r : blind (call_delete env r).
  Proof. apply (blind_out (HDelete r) (fun out => call_delete (answering out) r)); [reflexivity|]. intros out. apply blind_get; [reflexivity|]. intros w. cbv zeta. blind_tac. Qed.
  Lemma blind_slog lvl st msg : sblind (slog lvl st msg).
  Proof. apply gblind_state; [reflexivity|]. intros s. apply blind_slift, blind_emit. Qed.
  Lemma blind_status a st msg : sblind (log_sync_status env a st msg).
  Proof. unfold log_sync_status. destruct a; [destruct st; apply blind_slog|]. destruct (has_flag _ _); [apply blind_slog|apply gblind_ret]. Qed.
  Lemma blind_try_model dm ids attrs : sblind (sync_model_try env dm ids attrs).
  Proof.
    apply gblind_state; [reflexivity|]. intros s. apply gblind_bind.
    - destruct (ss_action s) as [[| |]|]; [destruct dm; [apply gblind_raise|destruct (ss_class s); [apply blind_slift, blind_create|apply gblind_raise]]|destruct dm; [apply blind_slift, blind_update|apply gblind_raise]|destruct dm; [apply blind_slift, blind_delete|apply gblind_raise]|apply gblind_raise].
    - intros [r|]; [apply gblind_bind; [apply blind_slift, blind_hget|intros o; apply gblind_ret]|apply gblind_ret].
  Qed.
  Lemma blind_model dm ids attrs : sblind (sync_model env dm ids attrs).
  Proof.
    apply gblind_state; [reflexivity|]. intros s. destruct (ss_action s) as [a|]; [|apply gblind_bind; [apply blind_status|intros _; apply gblind_ret]].
    apply gblind_bind.
    - apply gblind_try; [apply gblind_bind; [apply blind_try_model|intros r; apply gblind_ret]|]. intros e. apply gblind_bind; [apply blind_status|]. intros _. destruct (has_flag _ _); [apply gblind_ret|apply gblind_raise].
    - intros [[m [st msg]]|]; [apply gblind_bind; [apply blind_status|intros _]|]; apply gblind_ret.
  Qed.
  Lemma blind_elements : sblind (incr_elements_processed env).
  Proof. intros s d. unfold incr_elements_processed, at_server, set_ss_w. cbn. now destruct (sv_cb env). Qed.
  Lemma sim_kids l cl : Forall2 (fun k ck => forall p, ssim (k p) (ck p)) l cl -> forall p b, ssim (run_kids l p b) (c_run_kids cl p b).
  Proof.
    induction 1 as [|k ck l cl H F IH]; intros p b; cbn [run_kids c_run_kids]; [apply shere, gblind_ret|]. apply sbind; [apply H|intros x; apply IH].
  Qed.
  Lemma sim_dst_model c ids : sim (get_dst_model env c ids) (c_get_dst_model env c ids).
  Proof. apply sim_try; [|intros e; apply sim_here, blind_ret]. apply sim_bind; [apply sim_get|intros r]. sim1. apply sim_here, blind_ret. Qed.
  Lemma sim_apply a parent r sk : sim (apply_to_store env a parent r sk) (c_apply_to_store env a parent r sk).
  Proof.
    destruct a as [[| |]|]; cbn [apply_to_store c_apply_to_store]; try (apply sim_here, blind_ret).
    - apply sim_bind; [apply sim_here; destruct parent; [unfold heap_add_child|]; blind_tac|intros _]. apply sim_bind; [apply sim_add|intros _; apply sim_here, blind_ret].
    - apply sim_bind; [apply sim_here; destruct parent; [unfold heap_remove_child|]; blind_tac|intros _]. apply sim_bind; [apply sim_remove|intros _; apply sim_here, blind_ret].
  Qed.
  Ltac sh := apply sbind; [apply shere|intros ?].
  Lemma sim_body e parent l cl : Forall2 (fun k ck => forall p, ssim (k p) (ck p)) l cl -> ssim (sync_body env e parent l) (c_sync_body env e parent cl).
  Proof.
    intros F. unfold sync_body, c_sync_body. sh; [apply blind_slift, blind_adapter|]. sh; [apply gblind_lift|]. sh; [intros s d; reflexivity|]. sh; [apply gblind_lift|]. sh; [intros s d; reflexivity|]. cbv zeta.
    apply sbind; [apply sim_slift, sim_gon|intros _]. apply sbind; [apply sim_slift, sim_dst_model|intros dm].
    sh; [apply blind_slift; destruct dm; cbn [model_flag]; blind_tac|]. sh; [apply blind_slift; destruct dm; cbn [model_flag]; blind_tac|].
    apply gsim_state; [reflexivity|reflexivity|]. intros s. apply sbind; [destruct (_ && _ && _); [now apply sim_kids|apply shere, gblind_ret]|intros _].
    sh; [apply blind_model|]. destruct (snd x6) as [r|]; [|apply shere; apply gblind_bind; [apply blind_slog|intros _; apply gblind_ret]].
    apply gsim_state; [reflexivity|reflexivity|]. intros s'. apply sbind; [apply sim_slift, sim_apply|intros [|]]; [apply shere, gblind_ret|]. sh; [apply blind_elements|].
    destruct (_ || _); [now apply sim_kids|apply shere, gblind_ret].
  Qed.
  Lemma kids_both ord gs : (forall x, In x (ordered ord (fun e => e) gs) -> forall p, ssim (sync_elem ord env x p) (c_sync_elem ord env x p)) ->
    Forall2 (fun k ck => forall p, ssim (k p) (ck p)) (ordered ord (sync_elem ord env) gs) (ordered ord (c_sync_elem ord env) gs).
  Proof.
    intros H. rewrite (ordered_map ord (sync_elem ord env)), (ordered_map ord (c_sync_elem ord env)). induction (ordered ord (fun e => e) gs) as [|x l IH]; cbn [map]; constructor; [apply H; now left|].
    apply IH. intros y I. apply H. now right.
  Qed.
  Lemma sim_elem ord e : forall p, ssim (sync_elem ord env e p) (c_sync_elem ord env e p).
  Proof.
    induction e as [e IH] using elem_ind'. intros p. assert (X : sync_elem ord env e p = sync_body env e p (ordered ord (sync_elem ord env) (e_kids e))) by now destruct e.
    assert (Y : c_sync_elem ord env e p = c_sync_body env e p (ordered ord (c_sync_elem ord env) (e_kids e))) by now destruct e.
    rewrite X, Y. apply sim_body, kids_both. intros x I. apply ordered_sub, In_children in I as (t & g & n & G & I). exact (IH t g n x G I).
  Qed.
  Lemma sim_run d : sim (run_sync env d) (c_run_sync env d).
  Proof.
    apply sim_bind; [|intros b; apply sim_here; blind_tac]. intros w d0 E. cbv zeta. rewrite solo_then. unfold c_perform_sync.
    rewrite (sim_kids _ _ (kids_both (dc_order (d_class d)) (d_groups d) (fun x _ => sim_elem _ x)) None false (mkSS w 0 None None None) d0 E). reflexivity.
  Qed.
End Syncer.
Lemma sim_sync fuel h dst src dc flags cb given : blind_hooks h -> sim (sync_from fuel h dst src dc flags cb given) (c_sync_from fuel h dst src dc flags cb given).
Proof.
  intros BH. unfold sync_from, c_sync_from. apply sim_bind; [apply sim_here; blind_tac|intros _]. apply sim_bind; [|intros d; now apply sim_run].
  destruct given as [d0|]; [destruct (diff_truthy _); [apply sim_here, blind_ret|]|]; apply sim_diff.
Qed.

(** ** Histories *)
Lemma unseeing_blind h : blind_hooks (unseeing h).
Proof. intros w d c. unfold unseeing. now rewrite redis_twice. Qed.
Lemma sim_call a c : sim (made a c) (issued a c).
Proof.
  destruct c; cbn [made issued]; apply sim_fmap; [apply sim_add|apply sim_update|apply sim_remove|apply sim_remove_item|apply sim_get|apply sim_gon|apply sim_get_all|apply sim_by_uids|apply sim_names|apply sim_count|apply sim_goi|apply sim_goa|apply sim_uoi|apply sim_uoa|apply sim_here, blind_halloc|apply sim_here, blind_hset|apply sim_diff|apply sim_sync, unseeing_blind].
Qed.
Lemma history_alone l : forall w d, w_redis w = [] ->
  solo d (issued_all l w) = (w_redis (fst (made_all l (set_redis w d))), (set_redis (fst (made_all l (set_redis w d))) [], snd (made_all l (set_redis w d)))).
Proof.
  induction l as [|[a c] l IH]; intros w d E; cbn [issued_all made_all]; [cbn [solo fst snd]; now rewrite redis_back, redis_none|].
  rewrite solo_then, (sim_call a c w d E). cbn [fst snd]. destruct (made a c (set_redis w d)) as [w1 x]; cbn [fst snd]. rewrite solo_then, (IH (set_redis w1 []) (w_redis w1) eq_refl), redis_twice, redis_eta.
  destruct (made_all l w1) as [w2 xs]. reflexivity.
Qed.
