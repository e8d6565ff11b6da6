(** * DifferMore: read-only (C08), self-diffs (C07), progress (C15), order (C16), termination (C14), listed fields (C17). *)
From Coq Require Export Sorted.
From Verif Require Export DifferFacts ModelFacts.

(** ** C08 *)
Definition is_callback (e : event) : Prop := exists c t, e = EvCallback "diff" c t.
Definition quiet {A} (m : M dstate A) : Prop := forall s,
  read_only (ds_w s) (ds_w (fst (m s))) /\
  exists evs, w_trace (ds_w (fst (m s))) = w_trace (ds_w s) ++ evs /\ Forall is_callback evs.
Lemma quiet_refl {A} s (r : result A) : read_only (ds_w s) (ds_w s) /\ exists evs, w_trace (ds_w s) = w_trace (ds_w s) ++ evs /\ Forall is_callback evs.
Proof. split; [apply read_only_refl|]. exists []. split; [now rewrite app_nil_r|constructor]. Qed.
Lemma quiet_ret {A} (a : A) : quiet (ret a).
Proof. intros s. exact (quiet_refl s (Ok a)). Qed.
Lemma quiet_lift {A} (r : result A) : quiet (lift r).
Proof. intros s. exact (quiet_refl s r). Qed.
Lemma quiet_raise {A} e : quiet (raise e : M dstate A).
Proof. intros s. exact (quiet_refl s (Ok tt)). Qed.
Lemma quiet_bind {A B} (m : M dstate A) (k : A -> M dstate B) : quiet m -> (forall a, quiet (k a)) -> quiet (bind m k).
Proof.
  intros H K s. destruct (H s) as (R1 & e1 & T1 & C1). unfold bind. destruct (m s) as [s1 [a|e]]; simpl in *.
  - destruct (K a s1) as (R2 & e2 & T2 & C2). split; [eapply read_only_trans; eauto|].
    exists (e1 ++ e2). split; [now rewrite T2, T1, app_assoc|now apply Forall_app].
  - split; [exact R1|]. eauto.
Qed.
Lemma quiet_tick env n : quiet (incr_models_processed env n).
Proof.
  intros s. unfold incr_models_processed. destruct n as [|n]; simpl; [exact (quiet_refl s (Ok tt))|].
  destruct (en_cb env); simpl; [|exact (quiet_refl s (Ok tt))]. split; [apply read_only_event|].
  eexists. split; [reflexivity|]. constructor; [|constructor]. eexists. eexists. reflexivity.
Qed.
Lemma quiet_forM {A} (l : list A) f : (forall x, quiet (f x)) -> quiet (forM l f).
Proof. intros H. induction l; simpl; [apply quiet_ret|]. apply quiet_bind; auto. Qed.
Lemma quiet_fetch_all a t : quiet (fetch_all a t).
Proof.
  intros s. destruct (fetch_all_eq a t s) as (w' & -> & R & T). simpl. split; [exact R|]. exists [].
  rewrite app_nil_r. auto.
Qed.
Lemma quiet_fetch_by a us t : quiet (fetch_by_uids a us t).
Proof.
  intros s. destruct (fetch_by_uids_eq a us t s) as (w' & -> & R & T). simpl. split; [exact R|]. exists [].
  rewrite app_nil_r. auto.
Qed.
Ltac quiet :=
  repeat first
    [ apply quiet_ret | apply quiet_lift | apply quiet_raise | apply quiet_tick | apply quiet_fetch_all | apply quiet_fetch_by
    | apply quiet_bind; [|intros ?] | apply quiet_forM; intros ?
    | match goal with |- quiet (match ?x with _ => _ end) => destruct x end | assumption ].
Lemma quiet_child_types env rec so do mapping : (forall ss dd, quiet (rec ss dd)) ->
  forall gs, quiet (diff_child_types env rec so do mapping gs).
Proof.
  intros H. induction mapping as [|[t f] mp IH]; intros gs; simpl; [apply quiet_ret|].
  unfold fetch_children. quiet; first [apply H|apply IH].
Qed.
Lemma quiet_pairs env rec l : (forall ss dd, quiet (rec ss dd)) -> quiet (diff_pairs env rec l).
Proof.
  intros H. induction l as [|[u [so do]] l IH]; simpl; [apply quiet_ret|].
  apply quiet_bind; [|intros e; apply quiet_bind; [exact IH|intros; apply quiet_ret]].
  unfold diff_object_pair, children_mapping. quiet; now apply quiet_child_types.
Qed.
Lemma quiet_list env n : forall ss dd, quiet (diff_object_list n env ss dd).
Proof.
  induction n as [|n IH]; intros ss dd; simpl; [apply quiet_raise|]. unfold diff_list_body. quiet. now apply quiet_pairs.
Qed.
Lemma quiet_types n env types : forall gs, quiet (diff_types n env types gs).
Proof. induction types as [|t types IH]; intros gs; simpl; quiet; [apply quiet_list|apply IH]. Qed.
Lemma quiet_calc n env dc dt st : quiet (calculate_diffs n env dc dt st).
Proof.
  unfold calculate_diffs, count_skipped. quiet. - apply quiet_types. - intros s. exact (quiet_refl s (Ok tt)).
Qed.
Lemma diff_from_quiet fuel dst src dc flags cb w :
  let w' := fst (diff_from fuel dst src dc flags cb w) in
  read_only w w' /\ exists evs, w_trace w' = w_trace w ++ evs /\ Forall is_callback evs.
Proof.
  unfold diff_from, bind, get_adapter, get_state.
  destruct (nth_error (w_ads w) src); [|exact (quiet_refl (mkDS w 0) (Ok tt))].
  destruct (nth_error (w_ads w) dst); [|exact (quiet_refl (mkDS w 0) (Ok tt))]. simpl.
  match goal with |- context [calculate_diffs ?a ?b ?c ?d ?e ?s] => exact (quiet_calc a b c d e s) end.
Qed.

(** ** objects held by adapters *)
Lemma rmapM_In_iff {A B} (f : A -> result B) l r y : rmapM f l = Ok r -> In y r -> exists x, In x l /\ f x = Ok y.
Proof.
  revert r. induction l as [|x l IH]; intros r H I; simpl in H; [injection H as <-; destruct I|].
  destruct (f x) as [b|] eqn:E; [|discriminate]. destruct (rmapM f l) as [bs|]; [|discriminate]. injection H as <-.
  destruct I as [<-|I]; [exists x; simpl; auto|]. destruct (IH _ eq_refl I) as (x' & J & K). exists x'. simpl. auto.
Qed.
Definition held (w : world) (o : obj) : Prop := exists o0, exists_in w o0 /\ (o = o0 \/ exists a, o = set_o_adapter o0 a).
Lemma deref_held w rs l o : deref w rs = Ok l -> In o l -> held w o.
Proof.
  intros H I. destruct (rmapM_In_iff _ _ _ _ H I) as (r & _ & E). exists o. split; [|now left]. left.
  destruct (nth_error (w_heap w) r) eqn:N; [|discriminate]. injection E as ->. eapply nth_error_In; eauto.
Qed.
Lemma objs_all_held w a t l o : objs_all w a t = Ok l -> In o l -> held w o.
Proof.
  unfold objs_all. destruct (nth_error (w_ads w) a) as [ad|]; [|discriminate]. destruct (ad_store ad) as [d|sid]; [apply deref_held|].
  intros H I. destruct (rmapM_In_iff _ _ _ _ H I) as (k & _ & E). destruct (dget (w_redis w) k) as [o0|] eqn:D; [|discriminate].
  injection E as <-. exists o0. split; [|right; eauto]. right. eapply In_dvals_of, dget_Some_In; eauto.
Qed.
Lemma objs_by_held w a us t l o : objs_by w a us t = Ok l -> In o l -> held w o.
Proof.
  unfold objs_by. destruct us as [|u us]; [intros H I; injection H as <-; destruct I|].
  destruct (nth_error (w_ads w) a) as [ad|]; [|discriminate]. destruct (ad_store ad) as [d|sid].
  - match goal with |- rbind ?x _ = _ -> _ => destruct x as [rs|] end; [apply deref_held|discriminate].
  - intros H I. destruct (rmapM_In_iff _ _ _ _ H I) as (k & _ & E). destruct (dget (w_redis w) (redis_key sid t k)) as [o0|] eqn:D; [|discriminate].
    injection E as <-. exists o0. split; [|right; eauto]. right. eapply In_dvals_of, dget_Some_In; eauto.
Qed.
Lemma visible_held w src dst flags ss dd so do : visible flags (objs_by w src) (objs_by w dst) ss dd so do ->
  (forall o, In o ss -> held w o) -> (forall o, In o dd -> held w o) ->
  (forall s, so = Some s -> held w s) /\ (forall d, do = Some d -> held w d).
Proof.
  induction 1 as [ss dd so do PA NS|ss dd so do ss' dd' so' do' PA NS CL V IH]; intros Hs Hd.
  - destruct PA as (u & -> & -> & _). split; intros o E; apply with_uid_Some in E as [I _]; auto.
  - destruct CL as (mp & k & t & f & CT & I & K1 & K2). apply IH.
    + intros o J. destruct so as [s|]; simpl in K1; [|injection K1 as <-; destruct J].
      destruct (dget (o_kids s) f); [|discriminate]. eapply objs_by_held; eauto.
    + intros o J. destruct do as [d|]; simpl in K2; [|injection K2 as <-; destruct J].
      destruct (dget (o_kids d) f); [|discriminate]. eapply objs_by_held; eauto.
Qed.
Lemma shown_held flags w src dst sa da so do : shown flags w src dst sa da so do ->
  (forall s, so = Some s -> held w s) /\ (forall d, do = Some d -> held w d).
Proof.
  intros (t & ss & dd & (_ & _ & A1 & A2) & V). apply (visible_held _ _ _ _ _ _ _ _ V); intros o I; [exact (objs_all_held _ _ _ _ _ A1 I)|exact (objs_all_held _ _ _ _ _ A2 I)].
Qed.

(** ** C07 *)
Lemma visible_same w src dst flags ss dd so do : same_content w src dst ->
  visible flags (objs_by w src) (objs_by w dst) ss dd so do -> same_lists ss dd ->
  exists s d, so = Some s /\ do = Some d /\ same_obj s d.
Proof.
  intros [_ SB]. induction 1 as [ss dd so do PA NS|ss dd so do ss' dd' so' do' PA NS CL V IH]; intros SL.
  - destruct PA as (u & -> & -> & NN). specialize (SL u). destruct (with_uid u ss) as [s|], (with_uid u dd) as [d|]; try contradiction; eauto.
  - apply IH. destruct PA as (u & -> & -> & NN). specialize (SL u).
    destruct (with_uid u ss) as [s|], (with_uid u dd) as [d|]; try contradiction.
    destruct CL as (mp & k & t & f & CT & I & K1 & K2). simpl in K1, K2. destruct SL as (_ & _ & EK). rewrite <- EK in K2.
    destruct (dget (o_kids s) f) as [us|]; [|discriminate]. eapply SB; eauto.
Qed.
Lemma same_content_refl w a : same_content w a a.
Proof.
  assert (X : forall l, same_lists l l).
  { intros l u. destruct (with_uid u l); [|exact I]. repeat split. }
  split; intros; [rewrite H in H0|rewrite H in H0]; injection H0 as <-; apply X.
Qed.
Lemma same_no_diff w src dst flags n sa da gs k : same_content w src dst ->
  (forall o, exists_in w o -> forall f v, dget (get_attrs o) f = Some v -> py_eq v v = true) ->
  faithful_diff flags n w src dst sa da gs k -> groups_have_diffs gs = false.
Proof.
  intros SC RE F. destruct (groups_have_diffs gs) eqn:E; [|reflexivity]. exfalso.
  assert (X : exists x, occurs x gs /\ e_action x <> None).
  { pose proof (has_diffs_agree (mkDiff base_class gs 0) 0) as H. destruct H as [H _].
    - simpl. apply yields_once_all. exact order_default_once.
    - apply H. exact E. }
  destruct X as (x & O & A). destruct (fd_sound _ _ _ _ _ _ _ _ _ _ F O) as (so & do & SH & D).
  pose proof (shown_held _ _ _ _ _ _ _ _ SH) as [HS _]. destruct SH as (t & ss & dd & (I1 & I2 & A1 & A2) & V).
  destruct (visible_same _ _ _ _ _ _ _ _ SC V) as (s & d & -> & -> & SO); [destruct SC as [SA _]; eauto|].
  destruct D as (_ & _ & D1 & D2 & _). apply A. unfold e_action. rewrite D1, D2. simpl.
  assert (GA : get_attrs d = get_attrs s).
  { destruct SO as (E1 & E2 & _). unfold get_attrs, dump_include. now rewrite E1, E2. }
  rewrite GA. destruct (existsb _ _) eqn:B; [|reflexivity]. exfalso. apply existsb_exists in B as (f & _ & B).
  unfold attr_differs in B. destruct (dget (get_attrs s) f) as [v|] eqn:G; [|discriminate].
  destruct (HS s eq_refl) as (o0 & EX & C). assert (G' : dget (get_attrs o0) f = Some v) by (destruct C as [->|[a ->]]; exact G).
  rewrite (RE _ EX _ _ G') in B. discriminate.
Qed.

(** ** C15 *)
Lemma callbacks_shape total ks : forall n, exists cs, callbacks total n ks = map (fun c => EvCallback "diff" c total) cs /\
  StronglySorted lt cs /\ (forall c, In c cs -> n < c) /\ last cs n = n + list_sum ks.
Proof.
  induction ks as [|k ks IH]; intros n.
  - exists []. repeat split; [constructor|intros c []|simpl; lia].
  - destruct k as [|k]; cbn [callbacks].
    + destruct (IH n) as (cs & E & SS & B & L). exists cs. rewrite list_sum_cons. auto.
    + destruct (IH (n + S k)) as (cs & E & SS & B & L). exists ((n + S k) :: cs). split; [simpl; now rewrite E|]. split.
      * constructor; [exact SS|]. apply Forall_forall. exact B.
      * split; [intros c [<-|I]; [lia|specialize (B _ I); lia]|]. rewrite list_sum_cons.
        transitivity (last cs (n + S k)); [|lia]. clear. destruct cs as [|c cs]; [reflexivity|].
        change (last (n + S k :: c :: cs) n) with (last (c :: cs) n). revert c. induction cs as [|c' cs IH]; intros c; [reflexivity|].
        change (last (c :: c' :: cs) n) with (last (c' :: cs) n). rewrite IH. reflexivity.
Qed.
Lemma diff_from_progress fuel dst src dc flags w sa da : w_ok w ->
  nth_error (w_ads w) src = Some sa -> nth_error (w_ads w) dst = Some da ->
  exists cs, w_trace (fst (diff_from fuel dst src dc flags true w)) =
      w_trace w ++ map (fun c => EvCallback "diff" c (count_all w src + count_all w dst)) cs /\
    StronglySorted lt cs /\ (forall c, In c cs -> 0 < c) /\
    (forall d, snd (diff_from fuel dst src dc flags true w) = Ok d -> last cs 0 = d_processed d).
Proof.
  intros OK HS HD. destruct (diff_from_pure fuel dst src dc flags true w sa da OK HS HD) as (w' & E & _ & T). rewrite E.
  destruct (callbacks_shape (count_all w src + count_all w dst) (fst (pdiff fuel flags w src dst sa da)) 0) as (cs & EC & S & B & L).
  exists cs. split; [cbn [fst]; now rewrite T, EC|]. split; [exact S|]. split; [exact B|]. intros d H. rewrite L.
  cbn [snd] in H. destruct (snd (pdiff fuel flags w src dst sa da)); [|discriminate]. injection H as <-. reflexivity.
Qed.

(** ** C14 *)
Definition no_rec {A} (r : result A) : Prop := r <> Err ExnRecursionError.
Lemma no_rec_rmapM {A B} (f : A -> result B) l : (forall x, no_rec (f x)) -> no_rec (rmapM f l).
Proof.
  intros H. induction l as [|x l IH]; simpl; [discriminate|]. specialize (H x). destruct (f x) as [b|e]; simpl.
  - destruct (rmapM f l) as [bs|e]; simpl; [discriminate|]. exact (fun E => IH (f_equal (fun r => match r with Ok _ => Err e | Err e => Err e end) E)).
  - intros E. apply H. congruence.
Qed.
Lemma no_rec_rbind {A B} (m : result A) (k : A -> result B) : no_rec m -> (forall a, no_rec (k a)) -> no_rec (rbind m k).
Proof. intros H K. destruct m as [a|e]; simpl; [apply K|]. intros E. apply H. congruence. Qed.
Lemma no_rec_uid o : no_rec (get_unique_id o).
Proof.
  unfold get_unique_id, create_unique_id. apply no_rec_rbind; [|discriminate]. apply no_rec_rmapM. intros k.
  unfold dict_item. destruct (dget _ k); discriminate.
Qed.
Lemma no_rec_shortname o : no_rec (get_shortname o).
Proof.
  unfold get_shortname. destruct (c_shortname (o_cls o)); [apply no_rec_uid|]. apply no_rec_rbind; [|discriminate].
  apply no_rec_rmapM. intros k. unfold getattr_val. destruct (dget _ k); discriminate.
Qed.
Lemma no_rec_deref w rs : no_rec (deref w rs).
Proof. apply no_rec_rmapM. intros r. destruct (nth_error _ _); discriminate. Qed.
Lemma no_rec_objs_all w a t : no_rec (objs_all w a t).
Proof.
  unfold objs_all. destruct (nth_error _ _) as [ad|]; [|discriminate]. destruct (ad_store ad); [apply no_rec_deref|].
  apply no_rec_rmapM. intros k. destruct (dget _ _); discriminate.
Qed.
Lemma no_rec_objs_by w a us t : no_rec (objs_by w a us t).
Proof.
  unfold objs_by. destruct us; [discriminate|]. destruct (nth_error _ _) as [ad|]; [|discriminate].
  destruct (ad_store ad).
  - apply no_rec_rbind; [|apply no_rec_deref]. apply no_rec_rmapM. intros k. destruct (dget _ _); discriminate.
  - apply no_rec_rmapM. intros k. destruct (dget _ _); discriminate.
Qed.
Lemma no_rec_index ss : forall acc, no_rec (index_by_uid ss acc).
Proof. induction ss as [|o ss IH]; intros acc; simpl; [discriminate|]. apply no_rec_rbind; [apply no_rec_uid|auto]. Qed.
Lemma no_rec_validate l : no_rec (validate_pairs l).
Proof.
  induction l as [|p l IH]; simpl; [discriminate|]. apply no_rec_rbind; [|auto]. destruct p as [[s|] [d|]]; try discriminate. simpl.
  destruct (String.eqb _ _); [|discriminate]. simpl. apply no_rec_rbind; [apply no_rec_shortname|]. intros a. apply no_rec_rbind; [apply no_rec_shortname|]. intros b.
  destruct (String.eqb a b); [|discriminate]. simpl. destruct (dict_eq _ _); discriminate.
Qed.
Lemma no_rec_add es : forall gs, no_rec (add_elems gs es).
Proof.
  induction es as [|e es IH]; intros gs; simpl; [discriminate|]. apply no_rec_rbind; [|auto].
  unfold groups_add. destruct (dmem _ _); discriminate.
Qed.
Lemma no_rec_kids r o f t : (forall us t, no_rec (r us t)) -> no_rec (kids_of r o f t).
Proof. intros H. destruct o as [o|]; [|discriminate]. simpl. destruct (dget _ _); [apply H|discriminate]. Qed.
Lemma wbind_err {A B} (m : W A) (k : A -> W B) e : snd (wbind m k) = Err e ->
  snd m = Err e \/ exists a, snd m = Ok a /\ snd (k a) = Err e.
Proof. unfold wbind. destruct (snd m) as [a|e'] eqn:E; simpl; intros H; [right; eauto|left; congruence]. Qed.
Lemma no_rec_wforM {A} (l : list A) (f : A -> W unit) : (forall x, no_rec (snd (f x))) -> no_rec (snd (wforM l f)).
Proof.
  intros H. induction l as [|x l IH]; simpl; [discriminate|]. intros E. apply wbind_err in E as [E|(a & _ & E)]; [now apply H in E|contradiction].
Qed.
Lemma no_rec_mapping so do : no_rec (snd (pchildren_mapping so do)).
Proof.
  assert (X : forall o f, no_rec (snd (wbind (wlift (kids_len o f)) wtick))).
  { intros o f E. apply wbind_err in E as [E|(a & _ & E)]; [|discriminate]. simpl in E. unfold kids_len, getattr_kids in E.
    destruct (dget _ _); discriminate. }
  destruct so as [s|], do as [d|]; simpl; try discriminate. intros E. apply wbind_err in E as [E|(a & _ & E)].
  - revert E. apply no_rec_wforM. intros x. destruct (dmem _ _); [discriminate|apply X].
  - apply wbind_err in E as [E|(a' & _ & E)]; [|discriminate]. revert E. apply no_rec_wforM. intros x. destruct (dmem _ _); [discriminate|apply X].
Qed.

Section Fuel.
  Variable flags : N.
  Variables sn dn : string.
  Variables rs rd : list string -> string -> result (list obj).
  Hypothesis rs_ok : forall us t, no_rec (rs us t).
  Hypothesis rd_ok : forall us t, no_rec (rd us t).

  Lemma pchild_types_rec prec so do mapping : forall gs, snd (pchild_types rs rd prec so do mapping gs) = Err ExnRecursionError ->
    exists t f ss dd, In (t, f) mapping /\ kids_of rs so f t = Ok ss /\ kids_of rd do f t = Ok dd /\ snd (prec ss dd) = Err ExnRecursionError.
  Proof.
    induction mapping as [|[t f] mp IH]; intros gs E; [discriminate|]. cbn [pchild_types] in E.
    apply wbind_err in E as [E|(ss & E1 & E)]; [now apply no_rec_kids in E|].
    apply wbind_err in E as [E|(dd & E2 & E)]; [now apply no_rec_kids in E|].
    apply wbind_err in E as [E|(es & E3 & E)].
    - exists t, f, ss, dd. split; [now left|]. auto.
    - apply wbind_err in E as [E|(gs' & E4 & E)]; [now apply no_rec_add in E|].
      destruct (IH _ E) as (t' & f' & ss' & dd' & I & R). exists t', f', ss', dd'. split; [now right|exact R].
  Qed.
  Lemma ppairs_rec prec (l : dict (option obj * option obj)) : snd (ppairs flags sn dn rs rd prec l) = Err ExnRecursionError ->
    exists u so do ss dd, In (u, (so, do)) l /\ either so do <> None /\ ~ suppressed flags so do /\ child_lists rs rd so do ss dd /\
      snd (prec ss dd) = Err ExnRecursionError.
  Proof.
    induction l as [|[u [so do]] l IH]; intros E; [discriminate|]. cbn [ppairs] in E.
    apply wbind_err in E as [E|(oe & E1 & E)].
    - unfold ppair in E. destruct (either so do) as [o|] eqn:O; [|discriminate].
      apply wbind_err in E as [E|(x & _ & E)]; [now apply no_rec_uid in E|].
      apply wbind_err in E as [E|(x' & _ & E)]; [now apply no_rec_shortname in E|].
      destruct (skip_pair flags so do) eqn:S; [discriminate|].
      apply wbind_err in E as [E|(x2 & _ & E)]; [discriminate|].
      apply wbind_err in E as [E|(mapping & E2 & E)]; [now apply no_rec_mapping in E|].
      apply wbind_err in E as [E|(gs & _ & E)]; [|discriminate].
      destruct (pchild_types_rec _ _ _ _ _ E) as (t & f & ss & dd & I & K1 & K2 & R).
      exists u, so, do, ss, dd. split; [now left|]. split; [congruence|].
      split; [rewrite <- skip_pair_spec; congruence|]. split; [|exact R].
      destruct (pchildren_mapping so do) as [ks r] eqn:PM. simpl in E2. subst r.
      exists mapping, (list_sum ks), t, f. split; [now apply child_types_ok|]. auto.
    - apply wbind_err in E as [E|(es & _ & E)]; [|discriminate].
      destruct (IH E) as (u' & so' & do' & ss & dd & I & R). exists u', so', do', ss, dd. split; [now right|exact R].
  Qed.
  Lemma plist_rec n : forall ss dd, snd (plist flags sn dn rs rd n ss dd) = Err ExnRecursionError -> nested flags rs rd n ss dd.
  Proof.
    induction n as [|n IH]; intros ss dd E; [exact I|]. cbn [plist] in E. unfold plist_body in E.
    apply wbind_err in E as [E|(ds & E1 & E)]; [now apply no_rec_index in E|].
    apply wbind_err in E as [E|(de & E2 & E)]; [now apply no_rec_index in E|].
    apply wbind_err in E as [E|([] & _ & E)]; [discriminate|].
    apply wbind_err in E as [E|([] & _ & E)]; [now apply no_rec_validate in E|].
    simpl in E1, E2. destruct (index_inv _ _ _ E1) as [us U]. destruct (index_inv _ _ _ E2) as [vs V].
    rewrite (pair_up_spec _ _ _ _ _ _ U V E1 E2) in E.
    destruct (ppairs_rec _ _ E) as (u & so & do & ss' & dd' & I & NN & NS & CL & R).
    apply in_map_iff in I as (u' & X & _). injection X as <- <- <-.
    exists (with_uid u' ss), (with_uid u' dd), ss', dd'. split; [|split; [exact NS|split; [exact CL|now apply IH]]].
    exists u'. auto.
  Qed.
  Lemma faithful_not_nested n : forall ss dd es k, faithful flags sn dn rs rd n ss dd es k -> ~ nested flags rs rd n ss dd.
  Proof.
    induction n as [|n IH]; intros ss dd es k H; [destruct H|]. intros (so & do & ss' & dd' & PA & NS & CL & N).
    destruct (faithful_below _ _ _ _ _ _ _ _ _ _ _ _ _ _ H PA NS CL) as (e & es' & k' & _ & _ & R & _). eapply IH; eauto.
  Qed.
  Lemma faithful_mono n m : n <= m -> forall ss dd es k, faithful flags sn dn rs rd n ss dd es k -> faithful flags sn dn rs rd m ss dd es k.
  Proof.
    revert m. induction n as [|n IH]; intros m L ss dd es k H; [destruct H|]. destruct m as [|m]; [lia|].
    destruct H as (us & vs & outs & E1 & E2 & C & F & ES & K). exists us, vs, outs. repeat (split; [assumption|]). split; [|auto].
    refine (Forall2_if _ _ _ _ _ F). intros u out [P H]. split; [exact P|]. destruct H as [H|[S (e & mp & sk & kids & O & D & CT & FK & G)]]; [now left|].
    right. split; [exact S|]. exists e, mp, sk, kids. repeat (split; [assumption|]). split; [|exact G].
    refine (Forall2_if _ _ _ _ _ FK). intros tf kk (ss' & dd' & K1 & K2 & R). exists ss', dd'. repeat (split; [assumption|]).
    apply (IH m); [lia|exact R].
  Qed.
End Fuel.

Lemma ptypes_rec flags sn dn rs rd as_ ad_ n types : (forall us t, no_rec (rs us t)) -> (forall us t, no_rec (rd us t)) ->
  (forall t, no_rec (as_ t)) -> (forall t, no_rec (ad_ t)) ->
  forall gs, snd (ptypes flags sn dn rs rd as_ ad_ n types gs) = Err ExnRecursionError ->
  exists t ss dd, In t types /\ as_ t = Ok ss /\ ad_ t = Ok dd /\ nested flags rs rd n ss dd.
Proof.
  intros R1 R2 A1 A2. induction types as [|t types IH]; intros gs E; [discriminate|]. cbn [ptypes] in E.
  apply wbind_err in E as [E|(ss & E1 & E)]; [now apply A1 in E|].
  apply wbind_err in E as [E|(dd & E2 & E)]; [now apply A2 in E|].
  apply wbind_err in E as [E|(es & E3 & E)].
  - exists t, ss, dd. split; [now left|]. split; [exact E1|]. split; [exact E2|]. eapply plist_rec; eauto.
  - apply wbind_err in E as [E|(gs' & E4 & E)]; [now apply no_rec_add in E|].
    destruct (IH _ E) as (t' & ss' & dd' & I & R). exists t', ss', dd'. split; [now right|exact R].
Qed.
Lemma diff_from_rec fuel dst src dc flags cb w sa da : w_ok w ->
  nth_error (w_ads w) src = Some sa -> nth_error (w_ads w) dst = Some da ->
  snd (diff_from fuel dst src dc flags cb w) = Err ExnRecursionError ->
  exists t ss dd, top_lists w src dst sa da t ss dd /\ nested flags (objs_by w src) (objs_by w dst) fuel ss dd.
Proof.
  intros OK HS HD. destruct (diff_from_pure fuel dst src dc flags cb w sa da OK HS HD) as (w' & E & _). rewrite E. cbn [snd]. clear E.
  destruct (snd (pdiff fuel flags w src dst sa da)) as [gs|e] eqn:P; [discriminate|]. intros H. injection H as ->.
  unfold pdiff, pcalc in P. apply wbind_err in P as [P|(x & _ & P)].
  - exfalso. revert P. apply no_rec_wforM. intros t. destruct (smem t _); [|destruct (smem t _); [|discriminate]];
    intros E; apply wbind_err in E as [E|(l & _ & E)]; try discriminate; now apply no_rec_objs_all in E.
  - apply ptypes_rec in P as (t & ss & dd & I & A1 & A2 & N); try (intros; apply no_rec_objs_by); try (intros; apply no_rec_objs_all).
    apply filter_In in I as [I1 I2]. apply smem_In in I2. exists t, ss, dd. repeat split; auto.
Qed.
Lemma diff_from_deep fuel dst src dc flags cb w sa da d t ss dd : w_ok w ->
  nth_error (w_ads w) src = Some sa -> nth_error (w_ads w) dst = Some da ->
  top_lists w src dst sa da t ss dd -> nested flags (objs_by w src) (objs_by w dst) fuel ss dd ->
  snd (diff_from fuel dst src dc flags cb w) <> Ok d.
Proof.
  intros OK HS HD T N H. apply (diff_from_iff _ _ _ _ _ _ _ _ _ OK HS HD) in H as (k & F & _).
  destruct (fd_top _ _ _ _ _ _ _ _ _ _ _ _ F T) as (es & k' & R & _). eapply faithful_not_nested; eauto.
Qed.
Lemma diff_from_mono n m dst src dc flags cb w sa da d : w_ok w ->
  nth_error (w_ads w) src = Some sa -> nth_error (w_ads w) dst = Some da -> n <= m ->
  snd (diff_from n dst src dc flags cb w) = Ok d -> snd (diff_from m dst src dc flags cb w) = Ok d.
Proof.
  intros OK HS HD L H. apply (diff_from_iff _ _ _ _ _ _ _ _ _ OK HS HD) in H as (k & F & C).
  apply (diff_from_iff _ _ _ _ _ _ _ _ _ OK HS HD). exists k. split; [|exact C].
  destruct F as (lone & others & per & A1 & A2 & A3 & F & A4). exists lone, others, per. repeat (split; [assumption|]). split; [|exact A4].
  refine (Forall2_if _ _ _ _ _ F). intros t kk (ss & dd & B1 & B2 & R). exists ss, dd. repeat (split; [assumption|]).
  eapply faithful_mono; eauto.
Qed.
