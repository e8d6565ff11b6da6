(** * ServeRun: a synchronisation into a RedisStore whose hooks succeed, of a diff
    that fits what is on the server, runs to its end. *)
From Verif Require Export ConvTop RedisFacts ServerSpec.

(** only the object at [r] is written; neither the stores nor the server are *)
Definition touched (r : ref) (w w' : world) (o' : obj) : Prop :=
  w_ads w' = w_ads w /\ w_redis w' = w_redis w /\ length (w_heap w) <= length (w_heap w') /\
  nth_error (w_heap w') r = Some o' /\
  forall x, x <> r -> x < length (w_heap w) -> nth_error (w_heap w') x = nth_error (w_heap w) x.

Lemma touched_set r w o o' : nth_error (w_heap w) r = Some o -> touched r w (set_heap w (list_set (w_heap w) r o')) o'.
Proof.
  intros H. repeat split; simpl; auto.
  - now rewrite list_set_length.
  - eapply nth_list_set_eq; eauto.
  - intros x N _. now apply nth_list_set_neq.
Qed.
Lemma touched_trans r w1 w2 w3 o2 o3 : touched r w1 w2 o2 -> touched r w2 w3 o3 -> touched r w1 w3 o3.
Proof.
  intros (A1 & A2 & A3 & A4 & A5) (B1 & B2 & B3 & B4 & B5). repeat split; try congruence; try lia.
  intros x N L. rewrite B5 by (auto; lia). now apply A5.
Qed.
Lemma touched_event r w e o : nth_error (w_heap w) r = Some o -> touched r w (add_event w e) o.
Proof. intros H. repeat split; auto. Qed.
Lemma touched_quiet r w w' o : quiet w w' -> nth_error (w_heap w) r = Some o -> touched r w w' o.
Proof. intros (Q1 & Q2 & Q3) H. repeat split; auto; try (rewrite Q1; auto). Qed.

Section Serve.
  Variable ord : order_fn.
  Variable env : senv.
  Variables da ma : adapter.
  Variable i : string.
  Variables wm ws : world.
  Hypothesis HOOKS : hooks_succeed (sv_hooks env).
  Hypothesis YO : yields_once ord.
  Hypothesis FUEL : sv_fuel env <> 0.
  Hypothesis APART : sv_src env <> sv_dst env.
  Notation dst := (sv_dst env).
  Notation AK := (akey ma).
  Hypothesis CLS : ad_classes ma = ad_classes da.
  Hypothesis SD : server_dst ws dst da i.

  Definition srv (w : world) (k : ConvSteps.key) : option obj := on_server w i (fst k) (snd k).
  Definition known (k : ConvSteps.key) : Prop := dget (ad_classes da) (fst k) <> None.

  (** the server holds what the LocalStore [wm] does *)
  Hypothesis MIR : forall k, known k ->
    match ConvSteps.look wm dst k with
    | None => srv ws k = None
    | Some r => exists o o1, nth_error (w_heap wm) r = Some o /\ srv ws k = Some o1 /\ same_data o o1
    end.

  Definition spot (e : elem) (k : ConvSteps.key) : Prop := exists x, In x (elem_all e) /\ AK x = k.
  Definition sready (w : world) : Prop :=
    nth_error (w_ads w) dst = Some da /\ nth_error (w_ads w) (sv_src env) <> None /\ NoDup (dkeys (w_redis w)).
  Definition smoved (T : ConvSteps.key -> Prop) (P : option ref) (w w' : world) : Prop :=
    length (w_heap w) <= length (w_heap w') /\
    (forall x o, nth_error (w_heap w) x = Some o -> P <> Some x -> nth_error (w_heap w') x = Some o) /\
    (forall k, known k -> ~ T k -> srv w' k = srv w k).
  Definition spar_ok (w : world) (P : option ref) (L : list elem) : Prop :=
    match P with
    | None => True
    | Some p => exists po, nth_error (w_heap w) p = Some po /\ own_fields (o_cls po) /\ (forall x, In x L -> kid_fits ma po x)
    end.
  Definition spost (e : elem) (P : option ref) (s s' : sstate) : Prop :=
    sready (ss_w s') /\ smoved (spot e) P (ss_w s) (ss_w s') /\ par_after ma P [e] (ss_w s) (ss_w s') /\
    (e_action e = Some ADelete -> ss_action s' = Some ADelete).
  Definition sruns (e : elem) : Prop := forall P s,
    sready (ss_w s) -> (forall k, spot e k -> srv (ss_w s) k = srv ws k) -> spar_ok (ss_w s) P [e] ->
    ends (sync_elem ord env e P) s (fun s' _ => spost e P s s').

  Lemma smoved_refl T P w : smoved T P w w.
  Proof. repeat split; auto. Qed.
  Lemma smoved_trans T P w1 w2 w3 : smoved T P w1 w2 -> smoved T P w2 w3 -> smoved T P w1 w3.
  Proof.
    intros (A1 & A2 & A3) (B1 & B2 & B3). split; [lia|]. split; [auto|]. intros k K N. rewrite B3, A3; auto.
  Qed.
  Lemma smoved_weak (T T' : ConvSteps.key -> Prop) P P' w w' : (forall k, T k -> T' k) -> (forall x, P = Some x -> P' = Some x) ->
    smoved T P w w' -> smoved T' P' w w'.
  Proof.
    intros HT HP (A1 & A2 & A3). split; [exact A1|]. split; [|auto]. intros x o H N. apply A2; auto.
  Qed.
  Lemma smoved_touch T P w w1 w2 r o : smoved T P w w1 -> length (w_heap w) <= r -> touched r w1 w2 o -> smoved T P w w2.
  Proof.
    intros (A1 & A2 & A3) LE (B1 & B2 & B3 & B4 & B5). split; [lia|]. split.
    - intros x o' H N. pose proof (nth_error_Some_lt _ _ _ H). rewrite B5 by lia. auto.
    - intros k K N. unfold srv, on_server. rewrite B2. now apply A3.
  Qed.
  Lemma sready_touch r w w' o : sready w -> touched r w w' o -> sready w'.
  Proof. intros (A & B & C) (B1 & B2 & _). unfold sready. now rewrite B1, B2. Qed.
  Lemma smoved_quiet T P w w1 w2 : smoved T P w w1 -> quiet w1 w2 -> smoved T P w w2.
  Proof.
    intros (A1 & A2 & A3) (Q1 & Q2 & Q3). unfold smoved, srv, on_server. rewrite Q1, Q3. auto.
  Qed.
  Lemma sready_quiet w w' : sready w -> quiet w w' -> sready w'.
  Proof. intros (A & B & C) (Q1 & Q2 & Q3). unfold sready. now rewrite Q2, Q3. Qed.
  Lemma sready_ro w w' : sready w -> read_only w w' -> sready w'.
  Proof.
    intros (A & B & C) RO. destruct (read_only_ad _ _ _ _ RO A) as (s & E & X).
    rewrite (sd_store _ _ _ _ SD) in X. simpl in X. destruct s as [d|j]; [contradiction|]. subst j.
    split; [|split].
    - rewrite E. f_equal. rewrite <- (sd_store _ _ _ _ SD). now destruct da.
    - destruct (nth_error (w_ads w) (sv_src env)) as [ad|] eqn:ES; [|congruence].
      destruct (read_only_ad _ _ _ _ RO ES) as (s & E' & _). congruence.
    - destruct RO as (_ & -> & _). exact C.
  Qed.
  Lemma smoved_ro T P w w' : read_only w w' -> smoved T P w w'.
  Proof.
    intros RO. destruct RO as ((news & H) & R & F). split; [rewrite H, app_length; lia|]. split.
    - intros x o Hx _. rewrite H. rewrite nth_error_app1; [exact Hx|]. eapply nth_error_Some_lt; eauto.
    - intros k _ _. unfold srv, on_server. now rewrite R.
  Qed.
  Lemma spot_self e : spot e (AK e).
  Proof. exists e. split; [destruct e; now left|reflexivity]. Qed.
  Lemma spot_foot e k : spot e k -> foot env ma wm e k.
  Proof. intros (x & Hx & E). exists x. auto. Qed.
  Lemma spot_kid x e k : In x (children (e_kids e)) -> spot x k -> spot e k.
  Proof. intros H (y & Hy & E). exists y. split; [|exact E]. eapply elem_all_trans; [exact Hy|]. now apply kid_all. Qed.
  Lemma kid_fits_eq o o' x : o_cls o' = o_cls o -> o_kids o' = o_kids o -> kid_fits ma o x -> kid_fits ma o' x.
  Proof. intros E1 E2. unfold kid_fits. now rewrite E1, E2. Qed.
  Lemma spar_lt w P L p : spar_ok w P L -> P = Some p -> p < length (w_heap w).
  Proof. intros PO ->. destruct PO as (po & Hp & _). eapply nth_error_Some_lt; eauto. Qed.

  (** ** The children *)
  Lemma skids_run L : (forall x, In x L -> sruns x) -> NoDup L ->
    (forall x y k, In x L -> In y L -> spot x k -> spot y k -> x = y) ->
    (forall x, In x L -> forall k, spot x k -> known k) ->
    forall P b s, sready (ss_w s) -> (forall x k, In x L -> spot x k -> srv (ss_w s) k = srv ws k) -> spar_ok (ss_w s) P L ->
    ends (run_kids (map (sync_elem ord env) L) P b) s (fun s' _ =>
      sready (ss_w s') /\ smoved (fun k => exists x, In x L /\ spot x k) P (ss_w s) (ss_w s') /\
      par_after ma P L (ss_w s) (ss_w s') /\
      ((forall x, In x L -> e_action x = Some ADelete) -> ss_action s = Some ADelete -> ss_action s' = Some ADelete)).
  Proof.
    induction L as [|x L IH]; intros RU ND DJ KN P b s RD CE PO.
    { simpl. apply ends_ret. split; [exact RD|]. split; [apply smoved_refl|]. split; [apply par_after_refl|auto]. }
    inversion ND as [|? ? NX ND']; subst. simpl. apply ends_bind.
    eapply ends_weak; [apply (RU x (or_introl eq_refl) P s RD)|].
    - intros k Fk. apply (CE x k); [now left|exact Fk].
    - destruct P as [p|]; [|exact Logic.I]. destruct PO as (po & Hp & OW & KF). exists po. split; [exact Hp|].
      split; [exact OW|]. intros y [<-|[]]. apply KF. now left.
    - cbv beta. intros s1 b1 (RD1 & M1 & PA1 & AC1).
      assert (SEP : forall y k, In y L -> spot y k -> ~ spot x k).
      { intros y k Hy Fy Fx. assert (E : x = y) by (apply (DJ x y k); auto; [now left|now right]). subst y. contradiction. }
      eapply ends_weak; [apply (IH (fun y Hy => RU y (or_intror Hy)) ND')|].
      + intros y z k Hy Hz. apply DJ; now right.
      + intros y Hy. apply KN. now right.
      + exact RD1.
      + intros y k Hy Fy. destruct M1 as (_ & _ & M1). rewrite M1; [|eapply KN; [right; exact Hy|exact Fy]|eapply SEP; eauto].
        apply (CE y k); [now right|exact Fy].
      + destruct P as [p|]; [|exact Logic.I]. destruct PO as (po & Hp & OW & KF).
        destruct (PA1 po Hp) as (po1 & Hp1 & C1 & V1 & F1 & K1). exists po1. split; [exact Hp1|]. rewrite C1. split; [exact OW|].
        intros y Hy. eapply kid_fits_step; [exact OW| |apply (KF x); now left|apply (KF y); now right|exact C1|exact K1].
        intros E. apply (SEP y (AK y) Hy (spot_self y)). rewrite <- E. apply spot_self.
      + cbv beta. intros s2 b2 (RD2 & M2 & PA2 & AC2). split; [exact RD2|]. split; [|split].
        * eapply smoved_trans; [eapply smoved_weak; [| |exact M1]|eapply smoved_weak; [| |exact M2]]; auto.
          -- intros k Fk. exists x. split; [now left|exact Fk].
          -- intros k (y & Hy & Fk). exists y. split; [now right|exact Fk].
        * apply (par_after_trans ma P [x] L _ _ _ PA1 PA2).
        * intros DE _. apply AC2; [intros y Hy; apply DE; now right|]. apply AC1, DE. now left.
  Qed.

  (** ** Hook calls *)
  Lemma screate c ids attrs o w : create_base c dst ids attrs = Ok o ->
    ends (call_create env c ids attrs) w (fun w' x => x = Some (length (w_heap w)) /\
      exists o', touched (length (w_heap w)) w w' o' /\ same_but (fun _ => True) o o').
  Proof.
    intros E. destruct (HOOKS w (HCreate c ids attrs)) as [HB HE]. unfold call_create.
    apply ends_bind, ends_get. rewrite HB, HE. apply ends_bind, ends_modify, ends_bind, ends_bind.
    eapply ends_lift; [exact E|]. apply ends_bind. eapply ends_eq; [reflexivity|]. apply ends_ret, ends_ret.
    split; [reflexivity|]. eexists. split; [|apply apply_hook_but; intros k _; exact Logic.I].
    repeat split; simpl.
    - rewrite app_length. lia.
    - rewrite nth_error_app2, Nat.sub_diag by lia. reflexivity.
    - intros x _ L. now rewrite nth_error_app1 by exact L.
  Qed.
  Lemma supdate r o attrs o' w : nth_error (w_heap w) r = Some o -> setattrs o attrs = (o', Ok tt) ->
    ends (call_update env r attrs) w (fun w' x => x = Some r /\ exists o2, touched r w w' o2 /\ same_but (fun _ => True) o' o2).
  Proof.
    intros Ho E. destruct (HOOKS w (HUpdate r attrs)) as [HB HE]. unfold call_update.
    apply ends_bind, ends_get. rewrite HB, HE. apply ends_bind. eapply ends_eq; [apply (hget_eq _ _ _ Ho)|].
    apply ends_bind, ends_modify, ends_bind. set (w1 := add_event w _).
    assert (E1 : update_base o attrs = (set_status o' StSuccess "Updated successfully", Ok tt)).
    { unfold update_base. now rewrite E. }
    eapply ends_eq; [apply (mutate_ok r _ w1 o _ Ho E1)|]. apply ends_bind.
    set (o1 := set_status o' _ _). set (w2 := set_heap w1 _).
    assert (Ho2 : nth_error (w_heap w2) r = Some o1) by (apply (nth_list_set_eq _ _ _ o); exact Ho).
    eapply ends_eq; [apply (mutate_ok r _ w2 o1 _ Ho2 eq_refl)|]. apply ends_ret.
    split; [reflexivity|]. eexists. split.
    - assert (T1 : touched r w w1 o) by (apply touched_event; exact Ho). eapply touched_trans; [exact T1|]. eapply touched_trans; [apply (touched_set r w1 o o1 Ho)|].
      apply (touched_set r w2 o1 _ Ho2).
    - eapply same_but_trans; [apply same_but_status|]. apply apply_hook_but. intros k _. exact Logic.I.
  Qed.
  Lemma sdelete r o w : nth_error (w_heap w) r = Some o ->
    ends (call_delete env r) w (fun w' x => x = Some r /\ exists o2, touched r w w' o2 /\ same_but (fun _ => True) o o2).
  Proof.
    intros Ho. destruct (HOOKS w (HDelete r)) as [HB HE]. unfold call_delete.
    apply ends_bind, ends_get. rewrite HB, HE. apply ends_bind. eapply ends_eq; [apply (hget_eq _ _ _ Ho)|].
    apply ends_bind, ends_modify, ends_bind. set (w1 := add_event w _).
    eapply ends_eq; [apply (mutate_ok r _ w1 o _ Ho eq_refl)|]. apply ends_bind.
    set (o1 := delete_base o). set (w2 := set_heap w1 _).
    assert (Ho2 : nth_error (w_heap w2) r = Some o1) by (apply (nth_list_set_eq _ _ _ o); exact Ho).
    eapply ends_eq; [apply (mutate_ok r _ w2 o1 _ Ho2 eq_refl)|]. apply ends_ret.
    split; [reflexivity|]. eexists. split.
    - assert (T1 : touched r w w1 o) by (apply touched_event; exact Ho). eapply touched_trans; [exact T1|]. eapply touched_trans; [apply (touched_set r w1 o o1 Ho)|].
      apply (touched_set r w2 o1 _ Ho2).
    - eapply same_but_trans; [apply same_data_but, same_data_status|]. apply apply_hook_but. intros k _. exact Logic.I.
  Qed.

  (** the model of an element that is not left alone *)
  Definition model_done (s : sstate) (r : ref) (o : obj) (s' : sstate) (x : bool * option ref) : Prop :=
    snd x = Some r /\ exists w' o', s' = set_ss_w s w' /\ touched r (ss_w s) w' o' /\ same_but (fun _ => True) o o'.

  Lemma smodel_create c ids attrs o s : ss_action s = Some ACreate -> ss_class s = Some c -> create_base c dst ids attrs = Ok o ->
    ends (sync_model env None ids attrs) s (model_done s (length (w_heap (ss_w s))) o).
  Proof.
    intros E EC EB. eapply ends_weak; [apply (sync_some env ACreate None ids attrs s (fun w' r => r = length (w_heap (ss_w s)) /\
      exists o', touched r (ss_w s) w' o' /\ same_but (fun _ => True) o o') E)|].
    - rewrite EC. eapply ends_weak; [apply (screate _ _ _ _ _ EB)|]. cbv beta. intros w1 x (-> & o' & TC & D).
      exists (length (w_heap (ss_w s))), o'. split; [reflexivity|]. split; [apply TC|]. intros w' QU. split; [reflexivity|].
      exists o'. split; [|exact D]. eapply touched_trans; [exact TC|]. apply touched_quiet; [exact QU|]. apply TC.
    - cbv beta. intros s' x (r & w' & -> & -> & -> & o' & TC & D). split; [reflexivity|]. eauto 6.
  Qed.
  Lemma smodel_keep r o ids attrs o' s : ss_action s = Some AUpdate \/ (ss_action s = None /\ attrs = []) ->
    nth_error (w_heap (ss_w s)) r = Some o -> setattrs o attrs = (o', Ok tt) ->
    ends (sync_model env (Some r) ids attrs) s (model_done s r o').
  Proof.
    intros [E|[E ->]] Ho ES.
    - eapply ends_weak; [apply (sync_some env AUpdate (Some r) ids attrs s (fun w' x => x = r /\
        exists o2, touched r (ss_w s) w' o2 /\ same_but (fun _ => True) o' o2) E)|].
      + eapply ends_weak; [apply (supdate _ _ _ _ _ Ho ES)|]. cbv beta. intros w1 x (-> & o2 & TC & D).
        exists r, o2. split; [reflexivity|]. split; [apply TC|]. intros w' QU. split; [reflexivity|].
        exists o2. split; [|exact D]. eapply touched_trans; [exact TC|]. apply touched_quiet; [exact QU|]. apply TC.
      + cbv beta. intros s' x (y & w' & -> & -> & -> & o2 & TC & D). split; [reflexivity|]. eauto 6.
    - eapply ends_weak; [apply sync_none; exact E|]. cbv beta. intros s' x (-> & w' & -> & QU). split; [reflexivity|].
      cbn in ES. injection ES as <-. exists w', o. split; [reflexivity|]. split; [now apply touched_quiet|].
      apply same_data_but. repeat split.
  Qed.
  Lemma smodel_delete r o ids attrs s : ss_action s = Some ADelete -> nth_error (w_heap (ss_w s)) r = Some o ->
    ends (sync_model env (Some r) ids attrs) s (model_done s r o).
  Proof.
    intros E Ho. eapply ends_weak; [apply (sync_some env ADelete (Some r) ids attrs s (fun w' x => x = r /\
      exists o2, touched r (ss_w s) w' o2 /\ same_but (fun _ => True) o o2) E)|].
    - eapply ends_weak; [apply (sdelete _ _ _ Ho)|]. cbv beta. intros w1 x (-> & o2 & TC & D).
      exists r, o2. split; [reflexivity|]. split; [apply TC|]. intros w' QU. split; [reflexivity|].
      exists o2. split; [|exact D]. eapply touched_trans; [exact TC|]. apply touched_quiet; [exact QU|]. apply TC.
    - cbv beta. intros s' x (y & w' & -> & -> & -> & o2 & TC & D). split; [reflexivity|]. eauto 6.
  Qed.

  (** ** The store *)
  Lemma srv_other k k' : known k -> known k' -> k' <> k -> redis_key i (fst k') (snd k') <> redis_key i (fst k) (snd k).
  Proof.
    intros K K' N E. unfold known in *.
    destruct (dget (ad_classes da) (fst k)) as [c|] eqn:EC; [|congruence].
    destruct (dget (ad_classes da) (fst k')) as [c'|] eqn:EC'; [|congruence].
    destruct (sd_class _ _ _ _ SD _ _ EC) as (_ & P1 & _). destruct (sd_class _ _ _ _ SD _ _ EC') as (_ & P2 & _).
    pose proof (sd_id _ _ _ _ SD) as PI.
    destruct (key_inj _ _ _ _ _ _ PI P2 PI P1 E) as (_ & E1 & E2). apply N. destruct k, k'. simpl in *. congruence.
  Qed.
  Lemma sadd k r o w : known k -> sready w -> nth_error (w_heap w) r = Some o -> get_type o = fst k -> get_unique_id o = Ok (snd k) ->
    srv w k = None ->
    ends (st_add dst r) w (fun w' _ => sready w' /\ w_heap w' = w_heap w /\ forall k', known k' -> k' <> k -> srv w' k' = srv w k').
  Proof.
    intros KN (A & B & C) Ho HT HU HN. unfold st_add. apply ends_bind. eapply ends_eq; [apply (hget_eq _ _ _ Ho)|].
    apply ends_bind. eapply ends_lift; [exact HU|]. cbv zeta. apply ends_bind.
    eapply ends_eq; [unfold get_adapter; rewrite A; reflexivity|]. rewrite (sd_store _ _ _ _ SD). apply ends_bind, ends_get.
    rewrite HT. unfold srv, on_server in HN. rewrite HN. unfold redis_put. apply ends_modify.
    split; [|split; [reflexivity|]].
    - split; [exact A|]. split; [exact B|]. simpl. now apply NoDup_dset.
    - intros k' K' N. unfold srv, on_server. simpl. apply dget_dset_neq. first [now apply srv_other|intros X; now apply (srv_other k k')].
  Qed.
  Lemma sremove k r o w : known k -> sready w -> nth_error (w_heap w) r = Some o -> get_type o = fst k -> get_unique_id o = Ok (snd k) ->
    srv w k <> None ->
    ends (st_remove (sv_fuel env) dst r false) w (fun w' _ => sready w' /\ length (w_heap w') = length (w_heap w) /\
      (forall x, x <> r -> nth_error (w_heap w') x = nth_error (w_heap w) x) /\
      (exists o', nth_error (w_heap w') r = Some o' /\ same_data o o') /\
      forall k', known k' -> k' <> k -> srv w' k' = srv w k').
  Proof.
    intros KN (A & B & C) Ho HT HU HN. destruct (sv_fuel env) as [|n]; [congruence|]. cbn [st_remove].
    apply ends_bind. eapply ends_eq; [apply (hget_eq _ _ _ Ho)|].
    apply ends_bind. eapply ends_lift; [exact HU|]. apply ends_bind. unfold st_remove_item. apply ends_bind.
    eapply ends_eq; [unfold get_adapter; rewrite A; reflexivity|]. rewrite (sd_store _ _ _ _ SD). apply ends_bind, ends_get.
    rewrite HT. unfold srv, on_server in HN. destruct (dget (w_redis w) (redis_key i (fst k) (snd k))) as [o0|] eqn:E0; [|congruence].
    apply ends_modify. set (w1 := set_redis w _). apply ends_bind. unfold clear_adapter. apply ends_bind.
    eapply ends_eq; [apply (hget_eq r w1 o Ho)|]. apply ends_bind, ends_get.
    assert (R1 : sready w1) by (split; [exact A|]; split; [exact B|]; simpl; now apply NoDup_ddel).
    assert (O1 : forall k', known k' -> k' <> k -> srv w1 k' = srv w k').
    { intros k' K' N. unfold srv, on_server. simpl. apply dget_ddel_neq. first [now apply srv_other|intros X; now apply (srv_other k k')]. }
    destruct (adapter_truthy w1 (o_adapter o)).
    - eapply ends_eq; [reflexivity|]. apply ends_ret. split; [exact R1|]. split; [simpl; now rewrite list_set_length|].
      split; [intros x N; simpl; now apply nth_list_set_neq|]. split; [|exact O1].
      eexists. split; [apply (nth_list_set_eq _ _ _ o Ho)|]. repeat split.
    - apply ends_ret, ends_ret. split; [exact R1|]. split; [reflexivity|]. split; [reflexivity|]. split; [|exact O1].
      exists o. split; [exact Ho|]. repeat split.
  Qed.

  Definition none_at : ConvSteps.key -> Prop := fun _ => False.
  Lemma smoved_new T P w w1 w2 r : smoved T P w w1 -> smoved T (Some r) w1 w2 -> length (w_heap w) <= r -> smoved T P w w2.
  Proof.
    intros (A1 & A2 & A3) (B1 & B2 & B3) LE. split; [lia|]. split.
    - intros x o H N. pose proof (nth_error_Some_lt _ _ _ H). apply B2; [now apply A2|]. intros E. injection E. lia.
    - intros k K N. rewrite B3, A3; auto.
  Qed.
  Lemma spar_moved T w w' P L : spar_ok w P L -> smoved T None w w' -> spar_ok w' P L.
  Proof.
    destruct P as [p|]; [|auto]. intros (po & Hp & X) (_ & M & _). exists po. split; [apply M; [exact Hp|discriminate]|exact X].
  Qed.

  (** the store and the parent of an object that is not one of those in [w] *)
  Lemma sapply e P w w2 r o2 T : known (AK e) -> sready w2 -> smoved T None w w2 -> length (w_heap w) <= r -> spar_ok w P [e] ->
    nth_error (w_heap w2) r = Some o2 -> get_type o2 = e_type e -> get_unique_id o2 = Ok (snd (AK e)) ->
    (e_action e = Some ACreate /\ srv w2 (AK e) = None) \/ (e_action e = Some ADelete /\ srv w2 (AK e) <> None) ->
    ends (apply_to_store env (e_action e) P r false) w2 (fun w4 b => b = false /\ sready w4 /\
      smoved (fun k => T k \/ AK e = k) P w w4 /\ par_after ma P [e] w w4 /\
      exists o4, nth_error (w_heap w4) r = Some o4 /\ same_data o2 o4).
  Proof.
    intros KN RD M LE PO Ho HT HU EA.
    pose proof (spar_moved _ _ _ _ _ PO M) as PO2.
    assert (NP : P <> Some r) by (intros X; pose proof (spar_lt _ _ _ _ PO X); lia).
    set (act := fun p => match e_action e with Some ACreate => heap_add_child p r | _ => heap_remove_child p r end).
    assert (S1 : exists w3, match P with Some p => act p | None => ret tt end w2 = (w3, Ok tt) /\
      sready w3 /\ smoved T P w w3 /\ par_after ma P [e] w w3 /\ nth_error (w_heap w3) r = Some o2 /\ (forall k, srv w3 k = srv w2 k)).
    { destruct P as [p|].
      - destruct PO as (po & Hp & OW & KFS). destruct PO2 as (po' & Hp2 & _). destruct (KFS e (or_introl eq_refl)) as (f & l & X1 & X2 & X3 & X4).
        assert (E : nth_error (w_heap w2) p = Some po) by (destruct M as (_ & M & _); apply M; [exact Hp|discriminate]).
        rewrite Hp2 in E. injection E as ->.
        pose proof X1 as X1'. rewrite <- HT in X1'.
        assert (GO : exists l', act p w2 = (set_heap w2 (list_set (w_heap w2) p (set_o_kids po (dset (o_kids po) f l'))), Ok tt) /\
          kids_after ma (o_cls po) (o_kids po) e = dset (o_kids po) f l').
        { unfold act, kids_after. rewrite X1, X2. destruct EA as [[EA _]|[EA _]]; rewrite EA.
          - exists (l ++ [snd (AK e)]). split; [|reflexivity]. apply (heap_add_ends p r po o2 f l (snd (AK e)) w2 Hp2 Ho X1' X2 HU (X3 EA)).
          - exists (remove_first (snd (AK e)) l). split; [|reflexivity].
            apply (heap_remove_ends p r po o2 f l (snd (AK e)) w2 Hp2 Ho X1' X2 HU (X4 EA)). }
        destruct GO as (l' & E & EK). eexists. split; [exact E|]. split; [exact RD|]. split; [|split; [|split; [|reflexivity]]].
        + destruct M as (M1 & M2 & M3). split; [simpl; now rewrite list_set_length|]. split; [|exact M3].
          intros x o H N. simpl. rewrite nth_list_set_neq by (intros ->; now apply N). apply M2; [exact H|discriminate].
        + intros po0 Hp0. rewrite Hp in Hp0. injection Hp0 as <-. eexists. split; [apply (nth_list_set_eq _ _ _ _ Hp2)|].
          cbn [o_cls o_vals o_flags o_kids set_o_kids fold_left]. repeat split. now rewrite EK.
        + simpl. rewrite nth_list_set_neq by (intros ->; now apply NP). exact Ho.
      - exists w2. split; [reflexivity|]. split; [exact RD|]. split; [exact M|]. split; [exact Logic.I|]. split; [exact Ho|reflexivity]. }
    destruct S1 as (w3 & E3 & RD3 & M3 & PA3 & H3 & SV3).
    assert (WK : smoved (fun k => T k \/ AK e = k) P w w3) by (eapply smoved_weak; [| |exact M3]; auto).
    destruct EA as [[EA SN]|[EA SN]]; unfold act in E3; rewrite EA in *; unfold apply_to_store; apply ends_bind;
      (eapply ends_eq; [exact E3|]); apply ends_bind; rewrite <- SV3 in SN.
    - eapply ends_weak; [apply (sadd (AK e) r o2 w3 KN RD3 H3 HT HU SN)|]. cbv beta. intros w4 _ (RD4 & H4 & SV4). apply ends_ret.
      split; [reflexivity|]. split; [exact RD4|]. split; [|split].
      + destruct WK as (W1 & W2 & W3). unfold smoved. rewrite H4. split; [exact W1|]. split; [exact W2|].
        intros k K N. rewrite SV4; [now apply W3|exact K|]. intros ->. apply N. now right.
      + destruct P as [p|]; [|exact Logic.I]. intros po Hp. rewrite H4. now apply PA3.
      + exists o2. rewrite H4. split; [exact H3|]. repeat split.
    - eapply ends_weak; [apply (sremove (AK e) r o2 w3 KN RD3 H3 HT HU SN)|]. cbv beta. intros w4 _ (RD4 & L4 & OT4 & H4 & SV4). apply ends_ret.
      split; [reflexivity|]. split; [exact RD4|]. split; [|split; [|exact H4]].
      + destruct WK as (W1 & W2 & W3). split; [lia|]. split.
        * intros x o H N. pose proof (nth_error_Some_lt _ _ _ H). rewrite OT4 by lia. now apply W2.
        * intros k K N. rewrite SV4; [now apply W3|exact K|]. intros ->. apply N. now right.
      + destruct P as [p|]; [|exact Logic.I]. intros po Hp. pose proof (nth_error_Some_lt _ _ _ Hp). rewrite OT4 by lia. now apply PA3.
  Qed.

  (** the object of an element, loaded from the server *)
  Lemma sprefix e P kids s c Q : sready (ss_w s) -> srv (ss_w s) (AK e) = srv ws (AK e) ->
    dget (ad_classes da) (e_type e) = Some c -> c_modelname c = e_type e -> create_unique_id c (e_keys e) = Ok (snd (AK e)) ->
    (forall s1 dm natural, sready (ss_w s1) -> smoved none_at None (ss_w s) (ss_w s1) -> ss_action s1 = e_action e -> ss_class s1 = Some c ->
       match srv ws (AK e) with
       | None => dm = None /\ natural = false
       | Some o1 => exists r o, dm = Some r /\ length (w_heap (ss_w s)) <= r /\ nth_error (w_heap (ss_w s1)) r = Some o /\
                      same_data o1 o
       end -> ends (ConvRun.tail env e P kids dm natural false) s1 Q) ->
    ends (sync_body env e P kids) s Q.
  Proof.
    intros RD SV HC HN HU GO. pose proof RD as (A & B & C).
    unfold sync_body. apply ends_bind, ends_slift. eapply ends_eq; [unfold get_adapter; rewrite A; reflexivity|].
    apply ends_bind. eapply ends_lift; [rewrite HC; reflexivity|].
    apply ends_bind, ends_modify, ends_bind. eapply ends_lift; [exact HU|]. apply ends_bind, ends_modify.
    cbn [ss_w ss_n ss_action ss_class ss_ctx set_ss_w].
    apply ends_bind, ends_slift. cbn [ss_w].
    destruct (nth_error (w_ads (ss_w s)) (sv_src env)) as [sad|] eqn:ES; [|congruence].
    eapply ends_weak; [apply (get_or_none_ends _ _ _ _ _ _ ES HU)|]. cbv beta. intros wa xa RO.
    apply ends_bind, ends_slift. cbn [ss_w set_ss_w].
    pose proof (sready_ro _ _ RD RO) as RDa. pose proof (smoved_ro none_at None _ _ RO) as Ma.
    assert (SVa : on_server wa i (e_type e) (snd (AK e)) = srv ws (AK e)).
    { rewrite <- SV. destruct RO as (_ & R & _). unfold srv, on_server. now rewrite R. }
    assert (GET : st_get dst (MClass c) (IdDict (e_keys e)) wa = redis_load dst (redis_key i (e_type e) (snd (AK e))) wa).
    { unfold st_get, get_adapter, bind. destruct RDa as (Aa & _). rewrite Aa. cbn [object_class_and_model fst snd get_uid].
      unfold lift. rewrite HU, (sd_store _ _ _ _ SD), HN. reflexivity. }
    unfold redis_load in GET. unfold on_server in SVa. rewrite SVa in GET.
    destruct (srv ws (AK e)) as [o1|] eqn:EO.
    - set (o2 := set_o_adapter o1 (Some dst)) in *. set (r := length (w_heap wa)).
      set (wb := set_heap wa (w_heap wa ++ [o2])).
      assert (H2 : nth_error (w_heap wb) r = Some o2) by (simpl; rewrite nth_error_app2, Nat.sub_diag by lia; reflexivity).
      set (o3 := set_status o2 StUnknown ""). set (wc := set_heap wb (list_set (w_heap wb) r o3)).
      assert (H3 : nth_error (w_heap wc) r = Some o3) by (apply (nth_list_set_eq _ _ _ o2); exact H2).
      assert (ED : get_dst_model env c (e_keys e) wa = (wc, Ok (Some r))).
      { unfold get_dst_model, try_catch, bind. rewrite GET. change (halloc o2 wa) with (wb, Ok r). cbv iota beta.
        rewrite (mutate_ok r _ wb o2 o3 H2 eq_refl). reflexivity. }
      assert (TC : touched r wa wc o3).
      { eapply touched_trans; [|apply (touched_set r wb o2 o3 H2)]. split; [reflexivity|]. split; [reflexivity|].
        split; [simpl; rewrite app_length; lia|]. split; [exact H2|]. intros x _ LT. simpl. now rewrite nth_error_app1. }
      eapply ends_eq; [exact ED|].
      assert (FL : forall f, ends (model_flag (Some r) f) wc (fun w' b => w' = wc /\ b = has_flag (o_flags o1) f)).
      { intros f. unfold model_flag. apply ends_bind. eapply ends_eq; [apply (hget_eq _ _ _ H3)|]. apply ends_ret. split; reflexivity. }
      apply ends_bind, ends_slift. cbn [ss_w set_ss_w]. eapply ends_weak; [apply FL|]. cbv beta. intros w1 natural (-> & ->).
      apply ends_bind, ends_slift. cbn [ss_w set_ss_w]. eapply ends_weak; [apply FL|]. cbv beta. intros w1 skip (-> & ->).
      assert (SK : has_flag (o_flags o1) MF_SKIP_CHILDREN_ON_DELETE = false).
      { destruct (sd_filed _ _ _ _ SD _ _ _ _ HC EO) as (_ & _ & X). unfold skips_children in X. rewrite skip_bit1.
        destruct (N.testbit (o_flags o1) 1); [exfalso; now apply X|reflexivity]. }
      rewrite SK. assert (LE : length (w_heap (ss_w s)) <= r) by (destruct Ma as (X & _); exact X).
      refine (GO _ (Some r) _ _ _ _ _ _); try reflexivity.
      + eapply sready_touch; [exact RDa|exact TC].
      + eapply smoved_touch; [exact Ma|exact LE|exact TC].
      + exists r, o3. split; [reflexivity|]. split; [exact LE|]. split; [exact H3|]. repeat split.
    - assert (ED : get_dst_model env c (e_keys e) wa = (wa, Ok None)).
      { unfold get_dst_model, try_catch, bind. rewrite GET. reflexivity. }
      eapply ends_eq; [exact ED|]. apply ends_bind, ends_slift. cbn [ss_w set_ss_w]. apply ends_ret.
      apply ends_bind, ends_slift. cbn [ss_w set_ss_w]. apply ends_ret.
      apply (GO _ None false); try reflexivity; auto.
  Qed.

  Lemma fits_known e : ConvRun.fits env ma wm e -> forall k, spot e k -> known k.
  Proof.
    induction e as [e IH] using elem_ind'. intros FI k (x & Hx & <-).
    inversion FI as [e' c o HC HN HU FB OW FC FN FD ND DJ KI FK]; subst e'.
    apply elem_all_kids in Hx as [->|(y & Hy & Hx)].
    - unfold known. change (fst (AK e)) with (e_type e). rewrite <- CLS, HC. discriminate.
    - pose proof Hy as Hy'. apply In_children in Hy' as (t & g & n & Hg & Hn).
      apply (IH t g n y Hg Hn (FK y Hy)). exists x. auto.
  Qed.

  Section One.
    Variables (e : elem) (o : obj) (c : cls).
    Hypothesis FI : ConvRun.fits env ma wm e.
    Hypothesis HC : dget (ad_classes ma) (e_type e) = Some c.
    Hypothesis HN : c_modelname c = e_type e.
    Hypothesis HU : create_unique_id c (e_keys e) = Ok (snd (AK e)).
    Hypothesis FB : ConvRun.base env ma wm e o.
    Hypothesis OW : own_fields (o_cls o).
    Hypothesis FC : e_action e = Some ACreate -> ConvSteps.look wm dst (AK e) = None /\ get_unique_id o = Ok (snd (AK e)) /\ kids_are_fields c.
    Hypothesis FN : e_action e <> Some ACreate -> forall k, In k (dkeys (plus_attrs e)) -> ~ In k (c_identifiers (o_cls o)).
    Hypothesis ND : NoDup (children (e_kids e)).
    Hypothesis DJ : forall x y k, In x (children (e_kids e)) -> In y (children (e_kids e)) ->
      foot env ma wm x k -> foot env ma wm y k -> x = y.
    Hypothesis KI : forall x, In x (children (e_kids e)) -> ~ foot env ma wm x (AK e) /\ kid_fits ma o x /\
         (e_action e = Some ADelete -> e_action x = Some ADelete /\ StoreSpec.child_of wm dst (AK e) (AK x)).
    Hypothesis RU : forall x, In x (children (e_kids e)) -> sruns x.
    Let L := ordered ord (fun x => x) (e_kids e).
    Let PM : Permutation L (children (e_kids e)).
    Proof. apply ordered_perm. exact YO. Qed.
    Let InL x : In x L -> In x (children (e_kids e)).
    Proof. apply Permutation_in. exact PM. Qed.
    Notation kids := (map (sync_elem ord env) L).

    Variables (P : option ref) (s : sstate).
    Hypothesis RD : sready (ss_w s).
    Hypothesis CE : forall k, spot e k -> srv (ss_w s) k = srv ws k.
    Hypothesis PO : spar_ok (ss_w s) P [e].

    Lemma skids s5 r o5 b T : sready (ss_w s5) -> smoved T P (ss_w s) (ss_w s5) -> (forall k, T k -> AK e = k) ->
      length (w_heap (ss_w s)) <= r -> nth_error (w_heap (ss_w s5)) r = Some o5 -> o_cls o5 = o_cls o -> o_kids o5 = o_kids o ->
      ends (run_kids kids (Some r) b) s5 (fun s' _ => sready (ss_w s') /\ smoved (spot e) P (ss_w s) (ss_w s') /\
        smoved (fun k => exists x, In x L /\ spot x k) (Some r) (ss_w s5) (ss_w s') /\
        par_after ma (Some r) L (ss_w s5) (ss_w s') /\
        (e_action e = Some ADelete -> ss_action s5 = Some ADelete -> ss_action s' = Some ADelete)).
    Proof.
      intros RD5 M HT LE H5 C5 K5.
      eapply ends_weak; [apply (skids_run L)|].
      - intros x Hx. apply RU. auto.
      - eapply Permutation_NoDup; [apply Permutation_sym; exact PM|exact ND].
      - intros x y k Hx Hy Sx Sy. apply (DJ x y k); auto; now apply spot_foot.
      - intros x Hx k Sk. apply (fits_known e FI). apply (spot_kid x); auto.
      - exact RD5.
      - intros x k Hx Sk. destruct M as (_ & _ & M). rewrite M.
        + apply CE. apply (spot_kid x); auto.
        + apply (fits_known e FI). apply (spot_kid x); auto.
        + intros Tk. apply HT in Tk. subst k. destruct (KI x (InL x Hx)) as (N & _). apply N. now apply spot_foot.
      - exists o5. split; [exact H5|]. split; [now rewrite C5|]. intros x Hx. eapply kid_fits_eq; [exact C5|exact K5|]. now apply KI, InL.
      - cbv beta. intros s6 b6 (RD6 & M6 & PA6 & AC6). split; [exact RD6|]. split; [|split; [exact M6|split; [exact PA6|]]].
        + eapply smoved_new; [eapply smoved_weak; [| |exact M]|eapply smoved_weak; [| |exact M6]|exact LE]; auto.
          * intros k Tk. apply HT in Tk. subst k. apply spot_self.
          * intros k (x & Hx & Sk). apply (spot_kid x); auto.
        + intros EA E5. apply AC6; [|exact E5]. intros x Hx. now apply (KI x (InL x Hx)).
    Qed.

    Lemma sfinish s5 r o5 b : sready (ss_w s5) -> smoved (fun k => none_at k \/ AK e = k) P (ss_w s) (ss_w s5) ->
      length (w_heap (ss_w s)) <= r -> nth_error (w_heap (ss_w s5)) r = Some o5 -> o_cls o5 = o_cls o -> o_kids o5 = o_kids o ->
      par_after ma P [e] (ss_w s) (ss_w s5) -> ss_action s5 = e_action e ->
      ends (incr_elements_processed env ;;; run_kids kids (Some r) b) s5 (fun s' _ => spost e P s s').
    Proof.
      intros RD5 M LE H5 C5 K5 PA EA5. apply ends_bind. eapply ends_weak; [apply incr_ends|]. cbv beta.
      intros s6 _ (EA6 & QU). pose proof (sready_quiet _ _ RD5 QU) as RD6. pose proof (smoved_quiet _ _ _ _ _ M QU) as M6.
      assert (H6 : nth_error (w_heap (ss_w s6)) r = Some o5) by (destruct QU as (-> & _); exact H5).
      eapply ends_weak; [apply (skids s6 r o5 b _ RD6 M6)|]; auto.
      - intros k [[]|X]. exact X.
      - cbv beta. intros s7 b7 (RD7 & M7 & MK & _ & AC7). unfold spost. split; [exact RD7|]. split; [exact M7|]. split.
        + destruct P as [p|]; [|exact Logic.I]. intros po Hp. destruct (PA po Hp) as (p5 & Hp5 & X). exists p5. split; [|exact X].
          destruct MK as (_ & MK & _). apply MK; [destruct QU as (-> & _); exact Hp5|].
          pose proof (nth_error_Some_lt _ _ _ Hp). intros E. injection E. lia.
        + intros EA. apply AC7; [exact EA|congruence].
    Qed.

    Lemma known_e : known (AK e).
    Proof. unfold known. change (fst (AK e)) with (e_type e). rewrite <- CLS, HC. discriminate. Qed.

    Lemma stail_create s1 : sready (ss_w s1) -> smoved none_at None (ss_w s) (ss_w s1) -> ss_action s1 = e_action e ->
      ss_class s1 = Some c -> e_action e = Some ACreate -> srv ws (AK e) = None ->
      ends (ConvRun.tail env e P kids None false false) s1 (fun s' _ => spost e P s s').
    Proof.
      intros RD1 M1 EA1 EC1 EA SN. destruct (FC EA) as (_ & UO & _). pose proof FB as FB'. unfold ConvRun.base in FB'. rewrite EA in FB'.
      destruct FB' as (c' & HC' & CB). rewrite HC in HC'. injection HC' as <-.
      destruct (create_base_spec _ _ _ _ _ _ CB HU) as (OC & _).
      unfold ConvRun.tail. apply ends_bind, ends_get. simpl andb. cbv iota. apply ends_bind, ends_ret, ends_bind.
      assert (EA1' : ss_action s1 = Some ACreate) by congruence.
      eapply ends_weak; [apply (smodel_create c (e_keys e) (plus_attrs e) o s1 EA1' EC1 CB)|].
      intros s2 x (EX & w2 & o2 & -> & TC & D2). cbv beta. rewrite EX. set (r := length (w_heap (ss_w s1))) in *.
      apply ends_bind, ends_get. cbn [ss_action set_ss_w]. rewrite EA1. apply ends_bind, ends_slift. cbn [ss_w set_ss_w].
      assert (LE : length (w_heap (ss_w s)) <= r) by (destruct M1 as (X & _); exact X).
      pose proof (sready_touch _ _ _ _ RD1 TC) as RD2. pose proof (smoved_touch _ _ _ _ _ _ _ M1 LE TC) as M2.
      eapply ends_weak; [apply (sapply e P (ss_w s) w2 r o2 none_at known_e RD2 M2 LE PO)|].
      - apply TC.
      - rewrite (same_but_type _ _ _ D2). unfold get_type. now rewrite OC.
      - rewrite (same_but_uid _ _ _ D2). exact UO.
      - left. split; [exact EA|]. destruct M2 as (_ & _ & M2). rewrite M2; [|exact known_e|intros []].
        rewrite CE by apply spot_self. exact SN.
      - cbv beta. intros w4 b (-> & RD4 & M4 & PA4 & o4 & H4 & D4). cbv iota. simpl negb. rewrite orb_true_l. cbv iota.
        apply (sfinish (set_ss_w (set_ss_w s1 w2) w4) r o4); auto.
        + destruct D4 as (-> & _). apply D2.
        + destruct D4 as (_ & _ & -> & _). apply D2.
    Qed.

    Lemma stail_keep s1 natural r o1 : sready (ss_w s1) -> smoved none_at None (ss_w s) (ss_w s1) -> ss_action s1 = e_action e ->
      e_action e = None \/ e_action e = Some AUpdate -> length (w_heap (ss_w s)) <= r ->
      nth_error (w_heap (ss_w s1)) r = Some o1 ->
      (exists r' o', ConvSteps.look wm dst (AK e) = Some r' /\ nth_error (w_heap wm) r' = Some o' /\ same_data o' o1) ->
      ends (ConvRun.tail env e P kids (Some r) natural false) s1 (fun s' _ => spost e P s s').
    Proof.
      intros RD1 M1 EA1 EA LE H1 (r' & o' & LK & Ho' & DO).
      assert (S0 : setattrs o' (plus_attrs e) = (o, Ok tt)).
      { pose proof FB as FB'. unfold ConvRun.base in FB'. destruct EA as [EA|EA]; rewrite EA in FB'; destruct FB' as (r0 & o0 & L0 & H0 & S0); congruence. }
      destruct (setattrs_same _ _ _ _ DO S0) as (o3 & S3 & D3).
      assert (NDe : is_delete (e_action e) = false) by (destruct EA as [-> | ->]; reflexivity).
      unfold ConvRun.tail. apply ends_bind, ends_get. rewrite EA1, NDe, andb_false_r. cbn [andb]. cbv iota.
      apply ends_bind, ends_ret, ends_bind.
      eapply ends_weak; [apply (smodel_keep r o1 (e_keys e) (plus_attrs e) o3 s1)|]; auto.
      - rewrite EA1. destruct EA as [EA|EA]; [right|now left]. split; [exact EA|now apply plus_none].
      - intros s2 x (EX & w2 & o2 & -> & TC & D2). cbv beta. rewrite EX.
        apply ends_bind, ends_get. cbn [ss_action set_ss_w]. rewrite EA1.
        assert (AP : apply_to_store env (e_action e) P r false = ret false).
        { unfold apply_to_store. destruct EA as [-> | ->]; reflexivity. }
        rewrite AP. apply ends_bind, ends_slift, ends_ret. cbv iota. rewrite NDe. simpl negb. rewrite orb_true_r. cbv iota.
        pose proof (smoved_touch _ _ _ _ _ _ _ M1 LE TC) as M2.
        apply (sfinish (set_ss_w (set_ss_w s1 w2) w2) r o2); cbn [ss_w set_ss_w ss_action]; auto.
        + eapply sready_touch; [exact RD1|exact TC].
        + eapply smoved_weak; [| |exact M2]; [intros k []|discriminate].
        + apply TC.
        + transitivity (o_cls o3); [apply D2|]. apply D3.
        + transitivity (o_kids o3); [apply D2|]. apply D3.
        + destruct P as [p|]; [|exact Logic.I]. intros po Hp. exists po. destruct M2 as (_ & M2 & _).
          split; [apply M2; [exact Hp|discriminate]|]. repeat split. cbn [fold_left]. unfold ConvRun.kids_after.
          destruct EA as [-> | ->]; repeat (match goal with |- context [match dget ?a ?b with _ => _ end] => destruct (dget a b) end); reflexivity.
    Qed.

    Lemma stail_delete s1 natural r o1 : sready (ss_w s1) -> smoved none_at None (ss_w s) (ss_w s1) -> ss_action s1 = e_action e ->
      e_action e = Some ADelete -> length (w_heap (ss_w s)) <= r -> nth_error (w_heap (ss_w s1)) r = Some o1 ->
      same_data o o1 -> get_type o1 = e_type e -> get_unique_id o1 = Ok (snd (AK e)) -> srv ws (AK e) <> None ->
      ends (ConvRun.tail env e P kids (Some r) natural false) s1 (fun s' _ => spost e P s s').
    Proof.
      intros RD1 M1 EA1 EA LE H1 DO HT1 HU1 SN.
      assert (EA1' : ss_action s1 = Some ADelete) by congruence.
      unfold ConvRun.tail. apply ends_bind, ends_get. rewrite EA1'. cbn [is_delete negb]. rewrite andb_true_r. rewrite andb_true_r.
      destruct natural; cbv iota.
      - (* children first *)
        assert (C1 : o_cls o1 = o_cls o) by apply DO. assert (K1 : o_kids o1 = o_kids o) by apply DO.
        assert (M1' : smoved none_at P (ss_w s) (ss_w s1)) by (eapply smoved_weak; [| |exact M1]; [auto|discriminate]).
        apply ends_bind. eapply ends_weak; [apply (skids s1 r o1 false none_at RD1 M1' (fun k (X : none_at k) => match X with end) LE H1 C1 K1)|].
        cbv beta. intros s2 _ (RD2 & _ & M2 & PA2 & AC2). specialize (AC2 EA EA1').
        set (KS := fun k => exists x, In x L /\ spot x k) in *.
        assert (M02 : smoved KS None (ss_w s) (ss_w s2)).
        { eapply smoved_new; [eapply smoved_weak; [| |exact M1]; [intros k []|discriminate]|exact M2|exact LE]. }
        destruct (PA2 o1 H1) as (o2 & H2 & C2 & V2 & F2 & K2).
        apply ends_bind. eapply ends_weak; [apply (smodel_delete r o2 (e_keys e) (plus_attrs e) s2 AC2 H2)|].
        intros s3 x (EX & w3 & o3 & -> & TC & D3). cbv beta. rewrite EX.
        apply ends_bind, ends_get. cbn [ss_action set_ss_w]. rewrite AC2. apply ends_bind, ends_slift. cbn [ss_w set_ss_w].
        pose proof (sready_touch _ _ _ _ RD2 TC) as RD3. pose proof (smoved_touch _ _ _ _ _ _ _ M02 LE TC) as M3.
        rewrite <- EA.
        eapply ends_weak; [apply (sapply e P (ss_w s) w3 r o3 KS known_e RD3 M3 LE PO)|].
        + apply TC.
        + rewrite (same_but_type _ _ _ D3). unfold get_type in *. congruence.
        + rewrite (same_but_uid _ _ _ D3). rewrite <- HU1. unfold get_unique_id, get_identifiers, dump_include. now rewrite C2, V2.
        + right. split; [exact EA|]. destruct M3 as (_ & _ & M3). rewrite M3; [|exact known_e|].
          * rewrite CE by apply spot_self. exact SN.
          * intros (x0 & Hx & Sk). destruct (KI x0 (InL x0 Hx)) as (N & _). apply N. now apply spot_foot.
        + cbv beta. intros w4 b (-> & RD4 & M4 & PA4 & _). rewrite EA. cbn [negb orb is_delete]. apply ends_bind.
          eapply ends_weak; [apply incr_ends|]. cbv beta. cbn [ss_w ss_action set_ss_w]. intros s5 x5 (EA5 & QU).
          apply ends_ret. unfold spost. split; [eapply sready_quiet; eauto|]. split; [|split].
          * eapply smoved_quiet; [|exact QU]. eapply smoved_weak; [| |exact M4]; [|auto].
            intros k [(x0 & Hx & Sk)|<-]; [apply (spot_kid x0); auto|apply spot_self].
          * destruct P as [p|]; [|exact Logic.I]. intros po Hp. destruct QU as (-> & _). now apply PA4.
          * intros _. congruence.
      - (* children afterwards *)
        apply ends_bind, ends_ret, ends_bind.
        eapply ends_weak; [apply (smodel_delete r o1 (e_keys e) (plus_attrs e) s1 EA1' H1)|].
        intros s2 x (EX & w2 & o2 & -> & TC & D2). cbv beta. rewrite EX.
        apply ends_bind, ends_get. cbn [ss_action set_ss_w]. rewrite EA1'. apply ends_bind, ends_slift. cbn [ss_w set_ss_w].
        pose proof (sready_touch _ _ _ _ RD1 TC) as RD2. pose proof (smoved_touch _ _ _ _ _ _ _ M1 LE TC) as M2.
        rewrite <- EA.
        eapply ends_weak; [apply (sapply e P (ss_w s) w2 r o2 none_at known_e RD2 M2 LE PO)|].
        + apply TC.
        + now rewrite (same_but_type _ _ _ D2).
        + now rewrite (same_but_uid _ _ _ D2).
        + right. split; [exact EA|]. destruct M2 as (_ & _ & M2). rewrite M2; [|exact known_e|intros []].
          rewrite CE by apply spot_self. exact SN.
        + cbv beta. intros w4 b (-> & RD4 & M4 & PA4 & o4 & H4 & D4). rewrite EA. cbn [negb orb is_delete].
          apply (sfinish (set_ss_w (set_ss_w s1 w2) w4) r o4); auto.
          * transitivity (o_cls o2); [apply D4|]. transitivity (o_cls o1); [apply D2|apply DO].
          * transitivity (o_kids o2); [apply D4|]. transitivity (o_kids o1); [apply D2|apply DO].
    Qed.
  End One.

  Lemma srun_one e : ConvRun.fits env ma wm e -> (forall x, In x (children (e_kids e)) -> sruns x) -> sruns e.
  Proof.
    intros FI RU P s RD CE PO. inversion FI as [e' c o HC HN HU FB OW FC FN FD ND DJ KI FK]; subst e'.
    pose proof HC as HC'. rewrite CLS in HC'.
    rewrite sync_elem_eq, ordered_map. eapply sprefix; eauto; [apply CE, spot_self|].
    intros s1 dm natural RD1 M1 EA1 EC1 FL.
    pose proof (MIR (AK e) (fits_known e FI _ (spot_self e))) as MI.
    assert (AC : e_action e = Some ACreate \/ (e_action e = None \/ e_action e = Some AUpdate) \/ e_action e = Some ADelete).
    { destruct (e_action e) as [[| |]|]; auto. }
    change (ends (ConvRun.tail env e P (map (sync_elem ord env) (ordered ord (fun x => x) (e_kids e))) dm natural false) s1
      (fun s' _ => spost e P s s')).
    destruct AC as [EA|[EA|EA]].
    - destruct (FC EA) as (LN & _). rewrite LN in MI. rewrite MI in FL. destruct FL as [-> ->].
      eapply stail_create; eauto.
    - assert (LK : exists r', ConvSteps.look wm dst (AK e) = Some r').
      { unfold ConvRun.base in FB. destruct EA as [EA|EA]; rewrite EA in FB; destruct FB as (r' & o1 & L1 & _); eauto. }
      destruct LK as (r' & LK). rewrite LK in MI. destruct MI as (o' & o1 & Ho' & So & DO). rewrite So in FL.
      destruct FL as (r & o2 & -> & LE & H2 & D2). eapply stail_keep; eauto. exists r', o'. split; [exact LK|]. split; [exact Ho'|].
      eapply same_data_trans; eauto.
    - pose proof FB as FB'. unfold ConvRun.base in FB'. rewrite EA in FB'. destruct FB' as (r' & LK & Ho).
      rewrite LK in MI. destruct MI as (o' & o1 & Ho' & So & DO). rewrite So in FL. destruct FL as (r & o2 & -> & LE & H2 & D2).
      assert (E : o' = o) by congruence. subst o'.
      destruct (sd_filed _ _ _ _ SD _ _ _ _ HC' So) as (HT1 & HU1 & _).
      eapply stail_delete; eauto.
      + eapply same_data_trans; eauto.
      + unfold get_type in *. destruct D2 as (-> & _). exact HT1.
      + rewrite <- HU1. destruct D2 as (X1 & X2 & _). unfold get_unique_id, get_identifiers, dump_include. now rewrite X1, X2.
      + congruence.
  Qed.

  Lemma selem_runs e : ConvRun.fits env ma wm e -> sruns e.
  Proof.
    induction e as [e IH] using elem_ind'. intros FI. apply srun_one; auto. intros x Hx.
    inversion FI as [e' c o HC HN HU FB OW FC FN FD ND DJ KI FK]; subst e'.
    pose proof Hx as Hx'. apply In_children in Hx' as (t & g & n & Hg & Hn). eapply IH; eauto.
  Qed.
End Serve.
