(** * CourseFrom: the course of a whole call of sync_from. *)
From Verif Require Export WholeFacts.

(** ** Computing a diff raises none of the exceptions of create, update and delete *)
Section NoCrud.
  Context {S : Type}.
  Definition nc {A} (m : M S A) : Prop := forall s x, snd (m s) = Err x -> is_crud x = false.
  Lemma nc_bind {A B} (m : M S A) (k : A -> M S B) : nc m -> (forall a, nc (k a)) -> nc (bind m k).
  Proof.
    intros H1 H2 s x. unfold bind. specialize (H1 s). destruct (m s) as [s1 [a|e]]; [apply H2|]. simpl in *. intros E.
    injection E as <-. now apply H1.
  Qed.
  Lemma nc_ok {A} (m : M S A) : (forall s, exists a, snd (m s) = Ok a) -> nc m.
  Proof. intros H s x E. destruct (H s) as [a E']. congruence. Qed.
  Lemma nc_ret {A} (a : A) : nc (ret a).  Proof. apply nc_ok. intros s. now exists a. Qed.
  Lemma nc_get : nc (@get_state S).  Proof. apply nc_ok. intros s. now exists s. Qed.
  Lemma nc_raise {A} e : is_crud e = false -> nc (@raise S A e).
  Proof. intros H s x E. injection E as <-. exact H. Qed.
  Lemma nc_lift {A} (r : result A) : (forall x, r = Err x -> is_crud x = false) -> nc (lift r).
  Proof. intros H s x E. now apply H. Qed.
  Lemma nc_forM {A} (l : list A) f : (forall x, nc (f x)) -> nc (forM l f).
  Proof. intros H. induction l as [|x l IH]; simpl; [apply nc_ret|]. apply nc_bind; auto. Qed.
  Lemma nc_mapM {A B} (f : A -> M S B) l : (forall x, nc (f x)) -> nc (mapM f l).
  Proof. intros H. induction l as [|x l IH]; simpl; [apply nc_ret|]. apply nc_bind; [auto|]. intros y. apply nc_bind; [auto|intros; apply nc_ret]. Qed.
End NoCrud.
Lemma nc_dlift {A} (m : M world A) : nc m -> nc (dlift m).
Proof. intros H s x E. eapply H. exact E. Qed.
Lemma nc_adapter a : nc (get_adapter a).
Proof. intros w x. unfold get_adapter. destruct (nth_error (w_ads w) a); [discriminate|]. intros E. now injection E as <-. Qed.
Lemma nc_hget r : nc (hget r).
Proof. intros w x. unfold hget. destruct (nth_error (w_heap w) r); [discriminate|]. intros E. now injection E as <-. Qed.
Lemma nc_put a s : nc (put_store a s).
Proof. apply nc_ok. intros w. rewrite put_store_eq. now eexists. Qed.
Lemma nc_load a k : nc (redis_load a k).
Proof. intros w x. unfold redis_load. destruct (dget (w_redis w) k); [discriminate|]. intros E. now injection E as <-. Qed.
Lemma nc_get_all a m : nc (st_get_all a m).
Proof.
  unfold st_get_all. apply nc_bind; [apply nc_adapter|]. intros ad. destruct (ad_store ad).
  - apply nc_bind; [apply nc_put|intros; apply nc_ret].
  - apply nc_bind; [apply nc_get|]. intros w. apply nc_mapM. intros k. apply nc_load.
Qed.
Lemma nc_by_uids a us m : nc (st_get_by_uids a us m).
Proof.
  unfold st_get_by_uids. apply nc_mapM. intros u. apply nc_bind; [apply nc_adapter|]. intros ad. destruct (ad_store ad).
  - apply nc_bind; [apply nc_put|]. intros _. destruct (dget _ u); [apply nc_ret|now apply nc_raise].
  - apply nc_load.
Qed.
Lemma nc_fetch_all a t : nc (fetch_all a t).
Proof. unfold fetch_all. apply nc_bind; [apply nc_dlift, nc_get_all|]. intros rs. apply nc_dlift, nc_mapM. intros; apply nc_hget. Qed.
Lemma nc_fetch_uids a us t : nc (fetch_by_uids a us t).
Proof. unfold fetch_by_uids. apply nc_bind; [apply nc_dlift, nc_by_uids|]. intros rs. apply nc_dlift, nc_mapM. intros; apply nc_hget. Qed.
Lemma nc_incr env n : nc (incr_models_processed env n).
Proof. apply nc_ok. intros s. destruct n; now eexists. Qed.
Lemma get_uid_err o x : get_unique_id o = Err x -> is_crud x = false.
Proof. apply uid_err. Qed.
Lemma shortname_err o x : get_shortname o = Err x -> is_crud x = false.
Proof.
  unfold get_shortname. destruct (c_shortname (o_cls o)) as [|k ks]; [apply get_uid_err|].
  destruct (rmapM _ (k :: ks)) as [l|y] eqn:E; simpl; [discriminate|]. intros X. injection X as <-.
  eapply rmapM_err; [|exact E]. intros f z. unfold getattr_val. destruct (dget _ f); simpl; [discriminate|]. intros X. now injection X as <-.
Qed.
Lemma kids_err o f x : getattr_kids o f = Err x -> is_crud x = false.
Proof. unfold getattr_kids. destruct (dget _ f); [discriminate|]. intros X. now injection X as <-. Qed.
Lemma index_err l : forall acc x, index_by_uid l acc = Err x -> is_crud x = false.
Proof.
  induction l as [|o l IH]; intros acc x; simpl; [discriminate|]. destruct (get_unique_id o) as [u|y] eqn:E; simpl; [apply IH|].
  intros X. injection X as <-. eapply get_uid_err; eauto.
Qed.
Lemma validate_err l x : validate_pairs l = Err x -> is_crud x = false.
Proof.
  induction l as [|p l IH]; simpl; [discriminate|]. destruct (validate_pair p) as [u|y] eqn:E; simpl; [exact IH|].
  intros X. injection X as <-. revert E. unfold validate_pair. destruct p as [[s|] [d|]]; try discriminate.
  destruct (negb (String.eqb _ _)); [intros X; now injection X as <-|].
  destruct (get_shortname s) as [n1|y1] eqn:E1; simpl; [|intros X; injection X as <-; eapply shortname_err; eauto].
  destruct (get_shortname d) as [n2|y2] eqn:E2; simpl; [|intros X; injection X as <-; eapply shortname_err; eauto].
  destruct (negb (String.eqb n1 n2)); [intros X; now injection X as <-|].
  destruct (negb (dict_eq _ _)); [intros X; now injection X as <-|discriminate].
Qed.
Lemma add_elems_err es : forall gs x, add_elems gs es = Err x -> is_crud x = false.
Proof.
  induction es as [|e es IH]; intros gs x; simpl; [discriminate|]. unfold groups_add. destruct (dmem _ _); simpl; [intros X; now injection X as <-|apply IH].
Qed.
Lemma nc_list fuel env : forall ss dd, nc (diff_object_list fuel env ss dd).
Proof.
  induction fuel as [|fuel IH]; intros ss dd; cbn [diff_object_list]; [now apply nc_raise|].
  set (rec := diff_object_list fuel env) in *. clearbody rec. unfold diff_list_body.
  apply nc_bind; [apply nc_lift; intros x; apply index_err|]. intros di. apply nc_bind; [apply nc_lift; intros x; apply index_err|]. intros ddi.
  cbv zeta. apply nc_bind; [apply nc_incr|]. intros _. apply nc_bind; [apply nc_lift; intros x; apply validate_err|]. intros _.
  generalize (pair_up di ddi) as l. induction l as [|[u [so do]] l IHl]; cbn [diff_pairs]; [apply nc_ret|].
  apply nc_bind; [|intros e; apply nc_bind; [exact IHl|intros; apply nc_ret]].
  unfold diff_object_pair. destruct (match so with Some s => Some s | None => do end) as [o|]; [|now apply nc_raise].
  apply nc_bind; [apply nc_lift; intros x; apply get_uid_err|]. intros _. apply nc_bind; [apply nc_lift; intros x; apply shortname_err|]. intros name.
  destruct (skip_pair _ _ _); [apply nc_bind; [apply nc_incr|intros; apply nc_ret]|].
  apply nc_bind; [apply nc_incr|]. intros _.
  assert (KL : forall o f x, kids_len o f = Err x -> is_crud x = false).
  { intros o' f x. unfold kids_len. destruct (getattr_kids o' f) eqn:E; simpl; [discriminate|]. intros X. injection X as <-. eapply kids_err; eauto. }
  apply nc_bind.
  { unfold children_mapping. destruct so as [s|], do as [d|]; try apply nc_ret; [|now apply nc_raise].
    apply nc_bind; [apply nc_forM; intros tf; destruct (dmem _ _); [apply nc_ret|]; apply nc_bind; [apply nc_lift; intros x; apply KL|intros; apply nc_incr]|].
    intros _. apply nc_bind; [apply nc_forM; intros tf; destruct (dmem _ _); [apply nc_ret|]; apply nc_bind; [apply nc_lift; intros x; apply KL|intros; apply nc_incr]|].
    intros _. apply nc_ret. }
  intros mp. apply nc_bind; [|intros; apply nc_ret].
  assert (FC : forall a o f t, nc (fetch_children a o f t)).
  { intros a [o'|] f t; [|apply nc_ret]. apply nc_bind; [apply nc_lift; intros x; apply kids_err|intros; apply nc_fetch_uids]. }
  generalize (@nil (string * dict elem)) as gs. induction mp as [|[t f] mp IHm]; intros gs; cbn [diff_child_types]; [apply nc_ret|].
  apply nc_bind; [apply FC|]. intros s1. apply nc_bind; [apply FC|]. intros s2. apply nc_bind; [apply IH|]. intros es.
  apply nc_bind; [apply nc_lift; intros x; apply add_elems_err|]. intros gs'. apply IHm.
Qed.
Lemma diff_from_err fuel dst src dc flags cb : nc (diff_from fuel dst src dc flags cb).
Proof.
  unfold diff_from. apply nc_bind; [apply nc_adapter|]. intros sa. apply nc_bind; [apply nc_adapter|]. intros da.
  apply nc_bind; [apply nc_get|]. intros w. cbv zeta. set (env := mkEnv _ _ _ _ _ _ _).
  assert (C : nc (calculate_diffs fuel env dc (ad_top da) (ad_top sa))).
  { unfold calculate_diffs. apply nc_bind.
    { unfold count_skipped. apply nc_forM. intros t. destruct (smem t _); [apply nc_bind; [apply nc_fetch_all|intros; apply nc_incr]|].
      destruct (smem t _); [apply nc_bind; [apply nc_fetch_all|intros; apply nc_incr]|apply nc_ret]. }
    intros _. apply nc_bind; [|intros gs; apply nc_bind; [apply nc_get|intros; apply nc_ret]].
    generalize (@nil (string * dict elem)) as gs. induction (intersection (ad_top da) (ad_top sa)) as [|t ts IH]; intros gs; cbn [diff_types]; [apply nc_ret|].
    apply nc_bind; [apply nc_fetch_all|]. intros ss. apply nc_bind; [apply nc_fetch_all|]. intros dd. apply nc_bind; [apply nc_list|]. intros es.
    apply nc_bind; [apply nc_lift; intros x; apply add_elems_err|]. intros gs'. apply IH. }
  intros s x E. eapply C. exact E.
Qed.

(** ** Wider courses *)
Section Mono.
  Variables (flags : N) (cb : bool) (total : nat).
  Variables Ends Ends' : event -> callend -> Prop.
  Variables Has Has' : elem -> obj -> Prop.
  Variables Lacks Lacks' : elem -> Prop.
  Variables clsof : elem -> option cls.
  Variable ord : order_fn.
  Hypothesis HE : forall ev r, Ends ev r -> Ends' ev r.
  Hypothesis HH : forall e o, Has e o -> Has' e o.
  Hypothesis HL : forall e, Lacks e -> Lacks' e.

  Lemma steps_mono cs cs' : Forall2 (fun C C' : course => forall n evs n' r, C n evs n' r -> C' n evs n' r) cs cs' ->
    forall n b evs n' r, steps cs n b evs n' r -> steps cs' n b evs n' r.
  Proof.
    intros HF n b evs n' r H. revert cs' HF. induction H as [n b|C cs n b ev1 n1 b1 ev2 n2 r H1 H2 IH|C cs n b ev n1 x H1]; intros cs' HF; inversion HF; subst.
    - constructor.
    - econstructor; eauto.
    - apply sp_err. eauto.
  Qed.
  Lemma call_mono e c f ev : call_of Has e c f ev -> call_of Has' e c f ev.
  Proof. unfold call_of. intros [F H]. split; [exact F|]. destruct (e_action e) as [[]|]; auto; destruct H as (o & H & ->); eauto. Qed.
  Lemma attempt_mono e c ctx f evs v : attempt flags Ends Has Lacks e c ctx f evs v -> attempt flags Ends' Has' Lacks' e c ctx f evs v.
  Proof.
    destruct 1 as [v HA HV|call st msg HC HF|call msg HC HF|a HA HF HO|call y HC Hy HF|call y HC Hy|y Hy].
    - apply at_same; [exact HA|]. destruct HV as [(-> & -> & o & Ho)|(-> & -> & Ho)]; [left|right]; eauto.
    - apply at_done; auto using call_mono.
    - apply at_none; auto using call_mono.
    - apply at_absurd; auto. destruct a; simpl in *; auto. destruct HO; eauto.
    - apply at_crud; auto using call_mono.
    - apply at_other; auto using call_mono.
    - now apply at_broken.
  Qed.
  Lemma one_mono e (kids kids' : list course) n evs n' r :
    (forall n b evs n' r, steps kids n b evs n' r -> steps kids' n b evs n' r) ->
    RunSpec.one flags cb total Ends Has Lacks clsof e kids n evs n' r -> RunSpec.one flags cb total Ends' Has' Lacks' clsof e kids' n evs n' r.
  Proof.
    intros HK H. destruct H as [x Hx|evs n' x HA (o & HO & HN) HS|c u found nat1 evk nk ctx eva v evr n' r HC HU HB HX HFo HAT HAF].
    - now apply one_broken.
    - eapply one_kids_raise; eauto.
    - eapply one_main with (found := found) (nat1 := nat1); eauto using attempt_mono.
      + unfold before in *. destruct nat1.
        * destruct HB as (A & (o & B) & b & C). split; [exact A|]. destruct B as [B1 B2]. split; [exists o; auto|]. exists b. apply HK. exact C.
        * destruct HB as (A & B & C). split; [exact A|]. split; [exact B|]. intros D. specialize (C D). destruct found; [destruct C as (o & O & X); exists o; auto|auto].
      + destruct HAF as [x| |evs x Hx HM HA|evs o HA HO HS HM|evs n' r N1 HA HS|N1].
        * apply af_raise.
        * apply af_none.
        * now apply af_store.
        * eapply af_cascade; eauto.
        * apply af_kids; auto. intros D. destruct (HA D) as (o & O & X). exists o. auto.
        * now apply af_last.
  Qed.
  Lemma run_mono : forall e n evs n' r, run_of flags cb total Ends Has Lacks clsof ord e n evs n' r ->
    run_of flags cb total Ends' Has' Lacks' clsof ord e n evs n' r.
  Proof.
    induction e as [e IH] using elem_ind'. intros n evs n' r. rewrite !run_eq. apply one_mono.
    apply steps_mono. rewrite !kids_run.
    assert (HK : forall x, In x (ordered ord (fun x => x) (e_kids e)) -> forall n evs n' r, run_of flags cb total Ends Has Lacks clsof ord x n evs n' r ->
      run_of flags cb total Ends' Has' Lacks' clsof ord x n evs n' r).
    { intros x Hx. apply kid_occ, In_children in Hx as (t & g & m & I1 & I2). eauto. }
    revert HK. generalize (ordered ord (fun x => x) (e_kids e)) as l. induction l as [|x l IHl]; intros HK; cbn [map]; constructor.
    - apply HK. now left.
    - apply IHl. intros y Hy. apply HK. now right.
  Qed.
  Lemma run_all_mono gs evs n r : run_of_all flags cb total Ends Has Lacks clsof ord gs evs n r -> run_of_all flags cb total Ends' Has' Lacks' clsof ord gs evs n r.
  Proof.
    unfold run_of_all. apply steps_mono. rewrite !kids_run. induction (ordered ord (fun e => e) gs) as [|x l IH]; cbn [map]; constructor; [apply run_mono|exact IH].
  Qed.
End Mono.

(** ** sync_from *)
Lemma from_fails fuel h dst src dc flags cb given w x : (forall d, ~ uses fuel dst src dc flags cb given w d) ->
  snd (sync_from fuel h dst src dc flags cb given w) = Err x -> is_crud x = false.
Proof.
  intros NU. unfold sync_from. pose proof (diff_from_err fuel dst src dc flags cb w) as DE.
  assert (X : forall d, (given = None \/ exists d', given = Some d' /\ diff_len d' = 0) -> snd (diff_from fuel dst src dc flags cb w) <> Ok d).
  { intros d H E. apply (NU d). right. auto. }
  assert (Y : (given = None \/ exists d', given = Some d' /\ diff_len d' = 0) ->
    forall y, snd (bind (diff_from fuel dst src dc flags cb) (fun d => run_sync (mkSEnv src dst flags (diff_len d) cb h fuel) d) w) = Err y -> is_crud y = false).
  { intros H y. unfold bind. destruct (diff_from fuel dst src dc flags cb w) as [w1 [d|e]]; [exfalso; eapply X; eauto; reflexivity|]. simpl in *.
    intros E. injection E as <-. now apply DE. }
  destruct given as [d0|]; [destruct (diff_truthy (Some d0)) eqn:T|].
  - apply truthy_len in T. destruct (isinstance d0 dc) eqn:EI.
    + exfalso. apply (NU d0). left. auto.
    + cbn [andb negb]. intros E. injection E as <-. reflexivity.
  - cbn [andb]. intros E. eapply Y; [|exact E]. right. exists d0. split; [reflexivity|].
    simpl in T. apply negb_false_iff, Nat.eqb_eq in T. exact T.
  - intros E. eapply Y; [|exact E]. now left.
Qed.

Definition course_of (h : hooks) (flags : N) (cb : bool) (Has : elem -> obj -> Prop) (Lacks : elem -> Prop) (clsof : elem -> option cls) (d : diff)
           (evs : list event) (n : nat) (x : result bool) : Prop :=
  run_of_all flags cb (diff_len d) (may_end h) Has Lacks clsof (dc_order (d_class d)) (d_groups d) evs n x.
Definition closing (src dst : aid) (b : bool) : list event := if b then [EvSyncComplete src dst] else [].

Lemma run_sync_missing env d w : nth_error (w_ads w) (sv_dst env) = None ->
  exists x, steps (ordered (dc_order (d_class d)) (run_of (sv_flags env) (sv_cb env) (sv_total env) (may_end (sv_hooks env)) (fun _ _ => True) (fun _ => True)
     (fun _ => None) (dc_order (d_class d))) (d_groups d)) 0 false [] 0 x /\
   run_sync env d w = (w, match x with Ok _ => Ok d | Err y => Err y end) /\ x <> Ok true.
Proof.
  intros EN. unfold run_sync, bind, perform_sync.
  rewrite (ordered_map (dc_order (d_class d)) (sync_elem (dc_order (d_class d)) env)), kids_run.
  destruct (ordered (dc_order (d_class d)) (fun e => e) (d_groups d)) as [|e es]; cbn [map].
  - exists (Ok false). split; [constructor|]. split; [reflexivity|discriminate].
  - exists (Err DanglingRef). split; [|split; [|discriminate]].
    + apply sp_err. rewrite run_eq. now apply one_broken.
    + cbn [run_kids]. rewrite sync_elem_eq. set (kids := ordered _ _ (e_kids e)). clearbody kids. set (rest := map _ es). clearbody rest.
      assert (X : forall s, ss_w s = w -> sync_body env e None kids s = (s, Err DanglingRef)).
      { intros s E. unfold sync_body, bind at 1, slift, get_adapter. rewrite E, EN. simpl. rewrite <- E. now destruct s. }
      unfold bind. rewrite (X (mkSS w 0 None None None) eq_refl). reflexivity.
Qed.

Lemma run_course src dst flags cb h fuel d w : deletes_whole (d_groups d) ->
  exists clsof evs n x, course_of h flags cb (fun _ _ => True) (fun _ => True) clsof d evs n x /\
    let (w', r) := run_sync (mkSEnv src dst flags (diff_len d) cb h fuel) d w in
    match x with
    | Ok b => r = Ok d /\ w_trace w' = w_trace w ++ evs ++ closing src dst b
    | Err y => r = Err y /\ w_trace w' = w_trace w ++ evs
    end.
Proof.
  intros HW. set (env := mkSEnv src dst flags (diff_len d) cb h fuel).
  destruct (nth_error (w_ads w) dst) as [da|] eqn:EDA.
  - pose proof (class_rules dst env da (fun e => occurs e (d_groups d)) eq_refl) as RU.
    assert (HK : forall e k, occurs e (d_groups d) -> kid_of e k -> occurs k (d_groups d)) by (intros e k O K; eapply occurs_kid; eauto).
    specialize (RU HK). exists (fun e => dget (ad_classes da) (e_type e)).
    assert (HDD : deletes_down (fun e => occurs e (d_groups d))) by (intros e k O A K; eapply HW; eauto).
    assert (TOP : forall e, In e (children (d_groups d)) -> occurs e (d_groups d)).
    { intros e I. apply In_children in I as (t & g & m & I1 & I2). eapply occ_here; eauto. }
    assert (INIT : same_as dst da w) by (exists da; auto).
    destruct (tr_run_sync (dc_order (d_class d)) env _ _ _ _ _ _ _ _ _ RU HDD d w eq_refl TOP INIT (fun _ _ => Logic.I)) as (evs & n & x & H1 & H2).
    exists evs, n, x. split; [|exact H2]. unfold course_of. eapply run_all_mono; [| | |exact H1]; auto.
  - destruct (run_sync_missing env d w EDA) as (x & H1 & H2 & H3). exists (fun _ => None), [], 0, x. split; [exact H1|].
    rewrite H2. destruct x as [[]|y]; [congruence| |]; cbn; rewrite app_nil_r; auto.
Qed.

(** Every call: the callbacks of a diff, then a course *)
Lemma from_course fuel h dst src dc flags cb given w : (forall d, given = Some d -> deletes_whole (d_groups d)) ->
  let (w', r) := sync_from fuel h dst src dc flags cb given w in
  exists pre, Forall is_callback pre /\
  ((w_trace w' = w_trace w ++ pre /\ (exists x, r = Err x /\ is_crud x = false) /\ forall d, ~ uses fuel dst src dc flags cb given w d) \/
   exists d clsof evs n x, uses fuel dst src dc flags cb given w d /\ deletes_whole (d_groups d) /\
     course_of h flags cb (fun _ _ => True) (fun _ => True) clsof d evs n x /\
     match x with
     | Ok b => r = Ok d /\ w_trace w' = w_trace w ++ pre ++ evs ++ closing src dst b
     | Err y => r = Err y /\ w_trace w' = w_trace w ++ pre ++ evs
     end).
Proof.
  intros HW. pose proof (sync_from_split fuel h dst src dc flags cb given w) as S. cbv zeta in S.
  pose proof (from_fails fuel h dst src dc flags cb given w) as FF.
  destruct (sync_from fuel h dst src dc flags cb given w) as [w' r]. cbn [fst snd] in *.
  destruct S as [(_ & (pre & T & F) & (x & ->) & NU)|(d & wd & U & _ & _ & (pre & T & F) & E)].
  - exists pre. split; [exact F|]. left. split; [exact T|]. split; [|exact NU]. exists x. split; [reflexivity|]. now apply FF.
  - exists pre. split; [exact F|]. right.
    assert (DW : deletes_whole (d_groups d)).
    { destruct U as [(-> & _)|(_ & C)]; [now apply HW|eapply computed_whole; eauto]. }
    destruct (run_course src dst flags cb h fuel d wd DW) as (clsof & evs & n & x & H1 & H2). rewrite <- E in H2.
    exists d, clsof, evs, n, x. split; [exact U|]. split; [exact DW|]. split; [exact H1|].
    destruct x; rewrite T, <- !app_assoc in H2; exact H2.
Qed.
Lemma new_events_app w w' evs : w_trace w' = w_trace w ++ evs -> new_events w w' = evs.
Proof. unfold new_events. intros ->. rewrite skipn_app, skipn_all, Nat.sub_diag. reflexivity. Qed.
