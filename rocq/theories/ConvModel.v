(** * ConvModel: hook calls that succeed, and the steps around them. *)
From Verif Require Export ConvSteps.

Section Model.
  Variable env : senv.
  Variable da : adapter.
  Variable WX : string -> Prop.
  Hypothesis HOOKS : hooks_succeed (sv_hooks env).
  Hypothesis WRITES : hooks_write WX (sv_hooks env).
  Notation dst := (sv_dst env).
  Notation good := (good dst da).
  Notation moved := (moved dst).

  (** no stored entry and no data changed *)
  Definition calm (T : key -> Prop) (w w' : world) : Prop :=
    good w' /\ moved T None w w' /\ (forall k, look w' dst k = look w dst k) /\
    (forall r o, nth_error (w_heap w) r = Some o -> exists o', nth_error (w_heap w') r = Some o' /\ same_data o o').
  (** no stored entry changed, and only the hooks' fields of an object *)
  Definition calm_but (T : key -> Prop) (w w' : world) : Prop :=
    good w' /\ moved T None w w' /\ (forall k, look w' dst k = look w dst k) /\
    (forall r o, nth_error (w_heap w) r = Some o -> exists o', nth_error (w_heap w') r = Some o' /\ same_but WX o o').
  Lemma same_data_but o o' : same_data o o' -> same_but WX o o'.
  Proof.
    intros (D1 & D2 & D3 & D4). repeat split; auto; [|rewrite D2; apply vals_but_refl].
    unfold get_identifiers, dump_include. now rewrite D1, D2.
  Qed.
  Lemma same_but_rel o o' : same_but WX o o' -> obj_rel o o'.
  Proof.
    intros D. pose proof (same_but_uid _ _ _ D) as U. destruct D as (D1 & D2 & D3 & D4 & D5).
    repeat split; auto. now rewrite D2.
  Qed.
  Lemma calm_is_but T w w' : calm T w w' -> calm_but T w w'.
  Proof.
    intros (A1 & A2 & A3 & A4). split; [exact A1|]. split; [exact A2|]. split; [exact A3|].
    intros r o H. destruct (A4 r o H) as (o' & H' & D). exists o'. split; [exact H'|now apply same_data_but].
  Qed.
  Lemma calm_but_trans T w1 w2 w3 : calm_but T w1 w2 -> calm_but T w2 w3 -> calm_but T w1 w3.
  Proof.
    intros (A1 & A2 & A3 & A4) (B1 & B2 & B3 & B4). split; [exact B1|]. split; [eapply moved_trans; eauto|].
    split; [intros k; now rewrite B3|]. intros r o H. destruct (A4 r o H) as (o1 & H1 & D1).
    destruct (B4 r o1 H1) as (o2 & H2 & D2). exists o2. split; [exact H2|]. eapply same_but_trans; eauto.
  Qed.
  Lemma calm_refl T w : good w -> calm T w w.
  Proof.
    intros G. split; [exact G|]. split; [apply moved_refl|]. split; [reflexivity|].
    intros r o H. exists o. split; [exact H|apply same_data_refl].
  Qed.
  Lemma calm_trans T w1 w2 w3 : calm T w1 w2 -> calm T w2 w3 -> calm T w1 w3.
  Proof.
    intros (A1 & A2 & A3 & A4) (B1 & B2 & B3 & B4). split; [exact B1|]. split; [eapply moved_trans; eauto|].
    split; [intros k; now rewrite B3|]. intros r o H. destruct (A4 r o H) as (o1 & H1 & D1).
    destruct (B4 r o1 H1) as (o2 & H2 & D2). exists o2. split; [exact H2|]. eapply same_data_trans; eauto.
  Qed.
  Lemma calm_event T w ev : good w -> calm T w (add_event w ev).
  Proof.
    intros G. split; [now apply good_event|]. split; [apply moved_event|]. split; [reflexivity|].
    intros r o H. exists o. split; [exact H|apply same_data_refl].
  Qed.
  Lemma calm_ro T w w' : good w -> read_only w w' -> calm T w w'.
  Proof.
    intros G R. split; [eapply good_ro; eauto|]. split; [now apply moved_ro|]. split; [intros k; now apply look_ro|].
    intros r o H. exists o. split; [eapply read_only_nth; eauto|apply same_data_refl].
  Qed.
  Lemma same_rel o o' : same_data o o' -> obj_rel o o'.
  Proof.
    intros D. pose proof (same_data_uid _ _ D) as U. destruct D as (D1 & D2 & D3 & D4).
    repeat split; auto. now rewrite D3.
  Qed.
  Lemma calm_set (T : key -> Prop) w r o o' k : good w -> nth_error (w_heap w) r = Some o -> same_data o o' ->
    T k -> look w dst k = Some r -> calm T w (set_heap w (list_set (w_heap w) r o')).
  Proof.
    intros G H D HT E. split; [eapply good_set; eauto; now apply same_rel|]. split; [|split; [reflexivity|]].
    - apply moved_set. left. exists k. auto.
    - intros x ox Hx. simpl. destruct (Nat.eq_dec x r) as [X|X].
      + subst x. exists o'. rewrite (nth_list_set_eq _ _ _ _ H). split; [reflexivity|]. congruence.
      + exists ox. rewrite nth_list_set_neq by exact X. split; [exact Hx|apply same_data_refl].
  Qed.
  Lemma calm_but_set (T : key -> Prop) w r o o' k : good w -> nth_error (w_heap w) r = Some o -> same_but WX o o' ->
    T k -> look w dst k = Some r -> calm_but T w (set_heap w (list_set (w_heap w) r o')).
  Proof.
    intros G H D HT E. split; [eapply good_set; eauto; now apply same_but_rel|]. split; [|split; [reflexivity|]].
    - apply moved_set. left. exists k. auto.
    - intros x ox Hx. simpl. destruct (Nat.eq_dec x r) as [EX|EX].
      + subst x. exists o'. rewrite (nth_list_set_eq _ _ _ _ H). split; [reflexivity|]. congruence.
      + exists ox. rewrite nth_list_set_neq by exact EX. split; [exact Hx|apply same_but_refl].
  Qed.
  Lemma calm_good T w w' : calm T w w' -> good w'.
  Proof. intros H. apply H. Qed.
  Lemma calm_moved T w w' : calm T w w' -> moved T None w w'.
  Proof. intros H. apply H. Qed.
  Lemma moved_none T P w w' : moved T None w w' -> moved T P w w'.
  Proof. apply moved_weak; [auto|discriminate]. Qed.

  (** records *)
  Definition quiet (w w' : world) : Prop := w_heap w' = w_heap w /\ w_ads w' = w_ads w /\ w_redis w' = w_redis w.
  Lemma quiet_look w w' k : quiet w w' -> look w' dst k = look w dst k.
  Proof. intros (_ & E & _). unfold look, lookup. now rewrite E. Qed.
  Lemma quiet_calm T w w' : good w -> quiet w w' -> calm T w w'.
  Proof.
    intros G Q. apply calm_ro; [exact G|]. destruct Q as (E1 & E2 & E3). split; [exists []; now rewrite app_nil_r|].
    split; [exact E3|]. rewrite E2. apply PureDiffer.Forall2_refl. intros ad. exists (ad_store ad). rewrite set_ad_same.
    split; [reflexivity|apply store_ext_refl].
  Qed.
  Lemma slog_ends lvl st msg s :
    ends (slog lvl st msg) s (fun s' _ => exists w', s' = set_ss_w s w' /\ quiet (ss_w s) w').
  Proof.
    unfold slog. apply ends_bind, ends_get, ends_slift, ends_modify.
    eexists. split; [reflexivity|]. repeat split.
  Qed.
  Lemma set_ss_w_id s : set_ss_w s (ss_w s) = s.
  Proof. now destruct s. Qed.
  Lemma log_ends a st msg s :
    ends (log_sync_status env a st msg) s (fun s' _ => exists w', s' = set_ss_w s w' /\ quiet (ss_w s) w').
  Proof.
    unfold log_sync_status. destruct a.
    - destruct st; apply slog_ends.
    - destruct (has_flag _ _); [apply slog_ends|]. apply ends_ret. exists (ss_w s). rewrite set_ss_w_id.
      split; [reflexivity|repeat split].
  Qed.

  (** looking up the destination's object *)
  Lemma get_dst_ends (T : key -> Prop) c ids u w : good w -> create_unique_id c ids = Ok u -> T (c_modelname c, u) ->
    ends (get_dst_model env c ids) w (fun w' r => r = lookup w dst (c_modelname c) u /\ calm T w w').
  Proof.
    intros G HU HT. pose proof G as (LO & K & s & AD). destruct LO as (ad & d & E1 & E2 & _).
    assert (L : is_local w dst ad d) by (now split).
    pose proof (st_get_cases dst c ids u w ad d L HU) as E.
    assert (R : read_only w (upd_store w dst (SLocal (touch d (c_modelname c))))).
    { pose proof (ro_st_get dst (MClass c) (IdDict ids) w) as R. rewrite E in R. exact R. }
    pose proof (calm_ro T _ _ G R) as C1.
    set (w1 := upd_store w dst (SLocal (touch d (c_modelname c)))) in *.
    unfold get_dst_model. destruct (lookup w dst (c_modelname c) u) as [r|] eqn:F.
    - destruct (K _ _ _ F) as (o & Ho & _). pose proof (read_only_nth _ _ _ _ R Ho) as Ho1.
      apply ends_try, ends_bind. eapply ends_eq; [exact E|]. apply ends_bind.
      eapply ends_eq; [apply (mutate_ok r _ w1 o (set_status o StUnknown "") Ho1 eq_refl)|].
      apply ends_ret. split; [reflexivity|]. eapply calm_trans; [exact C1|].
      eapply calm_set; [apply C1|exact Ho1|apply same_data_status|exact HT|].
      destruct C1 as (_ & _ & LK & _). rewrite LK. exact F.
    - exists w1, None. split; [|split; [reflexivity|exact C1]]. unfold try_catch, bind. now rewrite E.
  Qed.

  (** hook calls *)
  Lemma create_ends T P c ids attrs o w : good w -> create_base c dst ids attrs = Ok o ->
    ends (call_create env c ids attrs) w (fun w' r => r = Some (length (w_heap w)) /\ good w' /\ moved T P w w' /\
      (forall k, look w' dst k = look w dst k) /\
      exists o', w_heap w' = w_heap w ++ [o'] /\ same_but WX o o').
  Proof.
    intros G E. destruct (HOOKS w (HCreate c ids attrs)) as [HB HE]. unfold call_create.
    apply ends_bind, ends_get. rewrite HB, HE. apply ends_bind, ends_modify, ends_bind, ends_bind.
    eapply ends_lift; [exact E|]. apply ends_bind. eapply ends_eq; [reflexivity|]. apply ends_ret, ends_ret.
    split; [reflexivity|]. split; [apply good_alloc, good_event; exact G|].
    split; [eapply moved_trans; [apply (moved_event dst T P w)|apply moved_alloc]|].
    split; [reflexivity|]. eexists. split; [reflexivity|]. apply apply_hook_but. intros k. apply WRITES.
  Qed.

  Lemma update_ends (T : key -> Prop) k r o attrs o' w : good w -> nth_error (w_heap w) r = Some o ->
    T k -> look w dst k = Some r ->
    setattrs o attrs = (o', Ok tt) -> obj_rel o o' ->
    ends (call_update env r attrs) w (fun w' x => x = Some r /\ good w' /\ moved T None w w' /\
      (forall k, look w' dst k = look w dst k) /\ length (w_heap w') = length (w_heap w) /\
      (exists o2, nth_error (w_heap w') r = Some o2 /\ same_but WX o' o2) /\
      (forall x, x <> r -> nth_error (w_heap w') x = nth_error (w_heap w) x)).
  Proof.
    intros G Ho HT HL E RL. destruct (HOOKS w (HUpdate r attrs)) as [HB HE]. unfold call_update.
    apply ends_bind, ends_get. rewrite HB, HE. apply ends_bind. eapply ends_eq; [apply (hget_eq _ _ _ Ho)|].
    apply ends_bind, ends_modify, ends_bind. set (w1 := add_event w _).
    assert (E1 : update_base o attrs = (set_status o' StSuccess "Updated successfully", Ok tt)).
    { unfold update_base. now rewrite E. }
    eapply ends_eq; [apply (mutate_ok r _ w1 o _ Ho E1)|]. apply ends_bind.
    set (o1 := set_status o' _ _). set (w2 := set_heap w1 _).
    assert (Ho2 : nth_error (w_heap w2) r = Some o1) by (apply (nth_list_set_eq _ _ _ o); exact Ho).
    eapply ends_eq; [apply (mutate_ok r _ w2 o1 _ Ho2 eq_refl)|]. apply ends_ret.
    split; [reflexivity|].
    assert (G1 : good w1) by (apply good_event; exact G).
    assert (R1 : obj_rel o o1) by (eapply obj_rel_trans; [exact RL|apply obj_rel_status]).
    assert (G2 : good w2) by (apply good_set with o; auto).
    split; [apply good_set with o1; auto; apply same_but_rel, apply_hook_but; intros k'; apply WRITES|].
    split; [|split; [reflexivity|split; [|split]]].
    - eapply moved_trans; [apply (moved_event dst T None w)|]. eapply moved_trans; [apply (moved_set dst T None w1 r o1)|].
      + left. exists k. auto.
      + apply moved_set. left. exists k. auto.
    - simpl. now rewrite !list_set_length.
    - eexists. split; [apply (nth_list_set_eq _ _ _ _ Ho2)|]. eapply same_but_trans; [apply same_but_status|]. apply apply_hook_but. intros k'. apply WRITES.
    - intros x N. simpl. now rewrite !nth_list_set_neq by exact N.
  Qed.

  Lemma delete_ends (T : key -> Prop) k r o w : good w -> nth_error (w_heap w) r = Some o ->
    T k -> look w dst k = Some r ->
    ends (call_delete env r) w (fun w' x => x = Some r /\ calm_but T w w' /\ length (w_heap w') = length (w_heap w)).
  Proof.
    intros G Ho HT HL. destruct (HOOKS w (HDelete r)) as [HB HE]. unfold call_delete.
    apply ends_bind, ends_get. rewrite HB, HE. apply ends_bind. eapply ends_eq; [apply (hget_eq _ _ _ Ho)|].
    apply ends_bind, ends_modify, ends_bind. set (w1 := add_event w _).
    eapply ends_eq; [apply (mutate_ok r _ w1 o _ Ho eq_refl)|]. apply ends_bind.
    set (o1 := delete_base o). set (w2 := set_heap w1 _).
    assert (Ho2 : nth_error (w_heap w2) r = Some o1) by (apply (nth_list_set_eq _ _ _ o); exact Ho).
    eapply ends_eq; [apply (mutate_ok r _ w2 o1 _ Ho2 eq_refl)|]. apply ends_ret.
    split; [reflexivity|]. split; [|simpl; now rewrite !list_set_length].
    eapply calm_but_trans; [apply calm_is_but, (calm_event T w); exact G|].
    assert (C2 : calm T w1 w2).
    { eapply calm_set; [apply good_event; exact G|exact Ho|apply same_data_status|exact HT|exact HL]. }
    eapply calm_but_trans; [apply calm_is_but; exact C2|].
    eapply calm_but_set; [apply C2|exact Ho2|apply apply_hook_but; intros k'; apply WRITES|exact HT|exact HL].
  Qed.

  (** the whole of [sync_model] *)
  Lemma sync_none dm ids attrs s : ss_action s = None ->
    ends (sync_model env dm ids attrs) s (fun s' x => x = (false, dm) /\ exists w', s' = set_ss_w s w' /\ quiet (ss_w s) w').
  Proof.
    intros E. unfold sync_model. apply ends_bind, ends_get. rewrite E. apply ends_bind.
    eapply ends_weak; [apply log_ends|]. cbv beta. intros s' x H. apply ends_ret. split; [reflexivity|exact H].
  Qed.
  (** the part around the hook call *)
  Lemma sync_some a dm ids attrs s (Q : world -> ref -> Prop) : ss_action s = Some a ->
    ends (match a with
          | ACreate => match dm, ss_class s with
                       | Some _, _ => raise ObjectNotCreated
                       | None, Some c => call_create env c ids attrs
                       | None, None => raise ExnAttributeError
                       end
          | AUpdate => match dm with None => raise ObjectNotUpdated | Some r => call_update env r attrs end
          | ADelete => match dm with None => raise ObjectNotDeleted | Some r => call_delete env r end
          end) (ss_w s)
      (fun w x => exists r o, x = Some r /\ nth_error (w_heap w) r = Some o /\ forall w', quiet w w' -> Q w' r) ->
    ends (sync_model env dm ids attrs) s (fun s' x => exists r w', x = (true, Some r) /\ s' = set_ss_w s w' /\ Q w' r).
  Proof.
    intros E H. unfold sync_model. apply ends_bind, ends_get. rewrite E. apply ends_bind, ends_try, ends_bind.
    unfold sync_model_try. apply ends_bind, ends_get. rewrite E. apply ends_bind.
    set (Q1 := fun (w : world) (x : option ref) => exists r o, x = Some r /\ nth_error (w_heap w) r = Some o /\ forall w', quiet w w' -> Q w' r) in H.
    assert (GO : forall m : M world (option ref), ends m (ss_w s) Q1 -> ends (slift m) s (fun s' x => Q1 (ss_w s') x /\ s' = set_ss_w s (ss_w s'))).
    { intros m H'. apply ends_slift. eapply ends_weak; [exact H'|]. intros w x HQ. split; [exact HQ|reflexivity]. }
    apply ends_weak with (Q := fun s' x => Q1 (ss_w s') x /\ s' = set_ss_w s (ss_w s')).
    - destruct a.
      + destruct dm as [r|]; [destruct H as (? & ? & X & _); discriminate|].
        destruct (ss_class s); [now apply GO|destruct H as (? & ? & X & _); discriminate].
      + destruct dm as [r|]; [now apply GO|destruct H as (? & ? & X & _); discriminate].
      + destruct dm as [r|]; [now apply GO|destruct H as (? & ? & X & _); discriminate].
    - intros s1 x ((r & o & -> & Ho & HQ) & ES). apply ends_bind, ends_slift.
      eapply ends_eq; [apply hget_eq; exact Ho|]. apply ends_ret, ends_ret.
      destruct (get_status o) as [st msg]. apply ends_bind.
      eapply ends_weak; [apply log_ends|]. cbv beta. intros s2 y (w' & -> & QQ). apply ends_ret.
      exists r, w'. split; [reflexivity|]. split; [rewrite ES; reflexivity|]. apply HQ. exact QQ.
  Qed.

  Lemma sync_create T P ids attrs c o s : good (ss_w s) -> ss_action s = Some ACreate -> ss_class s = Some c ->
    create_base c dst ids attrs = Ok o ->
    ends (sync_model env None ids attrs) s (fun s' x => x = (true, Some (length (w_heap (ss_w s)))) /\
      exists w', s' = set_ss_w s w' /\ good w' /\ moved T P (ss_w s) w' /\
        (forall k, look w' dst k = look (ss_w s) dst k) /\ length (w_heap w') = S (length (w_heap (ss_w s))) /\
        (forall x, x < length (w_heap (ss_w s)) -> nth_error (w_heap w') x = nth_error (w_heap (ss_w s)) x) /\
        exists o', nth_error (w_heap w') (length (w_heap (ss_w s))) = Some o' /\ same_but WX o o').
  Proof.
    intros G E EC EB. eapply ends_weak; [apply (sync_some ACreate None ids attrs s (fun w' r =>
      r = length (w_heap (ss_w s)) /\ good w' /\ moved T P (ss_w s) w' /\
        (forall k, look w' dst k = look (ss_w s) dst k) /\ length (w_heap w') = S (length (w_heap (ss_w s))) /\
        (forall x, x < length (w_heap (ss_w s)) -> nth_error (w_heap w') x = nth_error (w_heap (ss_w s)) x) /\
        exists o', nth_error (w_heap w') (length (w_heap (ss_w s))) = Some o' /\ same_but WX o o') E)|].
    - rewrite EC. eapply ends_weak; [apply (create_ends T P _ _ _ _ _ G EB)|].
      intros w1 r (-> & G1 & M1 & L1 & o' & HH & D). exists (length (w_heap (ss_w s))), o'.
      assert (Hn : nth_error (w_heap w1) (length (w_heap (ss_w s))) = Some o').
      { rewrite HH, nth_error_app2, Nat.sub_diag by lia. reflexivity. }
      split; [reflexivity|]. split; [exact Hn|]. intros w' QQ. split; [reflexivity|].
      pose proof (quiet_calm T _ _ G1 QQ) as C. destruct QQ as (QH & QA & QR). split; [apply C|].
      split; [eapply moved_trans; [exact M1|]; apply moved_none, C|].
      split; [intros k; destruct C as (_ & _ & LK & _); now rewrite LK|].
      split; [rewrite QH, HH, app_length; simpl; lia|].
      split; [intros x LT; rewrite QH, HH, nth_error_app1 by exact LT; reflexivity|].
      exists o'. rewrite QH. auto.
    - cbv beta. intros s' x (r & w' & -> & -> & -> & H). split; [reflexivity|]. exists w'. split; [reflexivity|exact H].
  Qed.

  Lemma sync_update (T : key -> Prop) k r o o' ids attrs s : good (ss_w s) -> ss_action s = Some AUpdate ->
    nth_error (w_heap (ss_w s)) r = Some o -> T k -> look (ss_w s) dst k = Some r ->
    setattrs o attrs = (o', Ok tt) -> obj_rel o o' ->
    ends (sync_model env (Some r) ids attrs) s (fun s' x => x = (true, Some r) /\
      exists w', s' = set_ss_w s w' /\ good w' /\ moved T None (ss_w s) w' /\
        (forall k, look w' dst k = look (ss_w s) dst k) /\ length (w_heap w') = length (w_heap (ss_w s)) /\
        (exists o2, nth_error (w_heap w') r = Some o2 /\ same_but WX o' o2) /\
        (forall x, x <> r -> nth_error (w_heap w') x = nth_error (w_heap (ss_w s)) x)).
  Proof.
    intros G E Ho HT HL ES RL. eapply ends_weak; [apply (sync_some AUpdate (Some r) ids attrs s (fun w' x =>
      x = r /\ good w' /\ moved T None (ss_w s) w' /\
        (forall k, look w' dst k = look (ss_w s) dst k) /\ length (w_heap w') = length (w_heap (ss_w s)) /\
        (exists o2, nth_error (w_heap w') r = Some o2 /\ same_but WX o' o2) /\
        (forall x, x <> r -> nth_error (w_heap w') x = nth_error (w_heap (ss_w s)) x)) E)|].
    - eapply ends_weak; [apply (update_ends T k r o attrs o' _ G Ho HT HL ES RL)|].
      intros w1 x (-> & G1 & M1 & L1 & LN & (o2 & H2 & D2) & OT). exists r, o2.
      split; [reflexivity|]. split; [exact H2|]. intros w' QQ. split; [reflexivity|].
      pose proof (quiet_calm T _ _ G1 QQ) as C. destruct QQ as (QH & QA & QR). split; [apply C|].
      split; [eapply moved_trans; [exact M1|]; apply C|].
      split; [intros k'; destruct C as (_ & _ & LK & _); now rewrite LK|].
      rewrite QH. split; [exact LN|]. split; [|exact OT]. exists o2. auto.
    - cbv beta. intros s' x (y & w' & -> & -> & -> & H). split; [reflexivity|]. exists w'. split; [reflexivity|exact H].
  Qed.

  Lemma sync_delete (T : key -> Prop) k r o ids attrs s : good (ss_w s) -> ss_action s = Some ADelete ->
    nth_error (w_heap (ss_w s)) r = Some o -> T k -> look (ss_w s) dst k = Some r ->
    ends (sync_model env (Some r) ids attrs) s (fun s' x => x = (true, Some r) /\
      exists w', s' = set_ss_w s w' /\ calm_but T (ss_w s) w' /\ length (w_heap w') = length (w_heap (ss_w s))).
  Proof.
    intros G E Ho HT HL. eapply ends_weak; [apply (sync_some ADelete (Some r) ids attrs s (fun w' x =>
      x = r /\ calm_but T (ss_w s) w' /\ length (w_heap w') = length (w_heap (ss_w s))) E)|].
    - eapply ends_weak; [apply (delete_ends T k r o _ G Ho HT HL)|].
      intros w1 x (-> & C1 & LN). destruct C1 as (G1 & M1 & LK1 & D1). destruct (D1 r o Ho) as (o1 & Ho1 & _).
      exists r, o1. split; [reflexivity|]. split; [exact Ho1|]. intros w' QQ. split; [reflexivity|].
      split; [eapply calm_but_trans; [split; [exact G1|split; [exact M1|split; [exact LK1|exact D1]]]|now apply calm_is_but, quiet_calm]|].
      destruct QQ as (-> & _). exact LN.
    - cbv beta. intros s' x (y & w' & -> & -> & -> & H). split; [reflexivity|]. exists w'. split; [reflexivity|exact H].
  Qed.

  (** the parent *)
  Lemma heap_add_ends p r po co f l u w : nth_error (w_heap w) p = Some po -> nth_error (w_heap w) r = Some co ->
    dget (c_children (o_cls po)) (get_type co) = Some f -> dget (o_kids po) f = Some l -> get_unique_id co = Ok u -> ~ In u l ->
    heap_add_child p r w = (set_heap w (list_set (w_heap w) p (set_o_kids po (dset (o_kids po) f (l ++ [u])))), Ok tt).
  Proof.
    intros Hp Hr HF HK HU NI. unfold heap_add_child, bind. rewrite (hget_eq _ _ _ Hp), (hget_eq _ _ _ Hr).
    unfold lift, add_child. rewrite HF. unfold getattr_kids. rewrite HK. simpl. rewrite HU. simpl.
    destruct (smem u l) eqn:S; [apply smem_In in S; contradiction|]. reflexivity.
  Qed.
  Lemma heap_remove_ends p r po co f l u w : nth_error (w_heap w) p = Some po -> nth_error (w_heap w) r = Some co ->
    dget (c_children (o_cls po)) (get_type co) = Some f -> dget (o_kids po) f = Some l -> get_unique_id co = Ok u -> In u l ->
    heap_remove_child p r w = (set_heap w (list_set (w_heap w) p (set_o_kids po (dset (o_kids po) f (remove_first u l)))), Ok tt).
  Proof.
    intros Hp Hr HF HK HU I. unfold heap_remove_child, bind. rewrite (hget_eq _ _ _ Hp), (hget_eq _ _ _ Hr).
    unfold lift, remove_child. rewrite HF. unfold getattr_kids. rewrite HK. simpl. rewrite HU. simpl.
    apply smem_In in I. rewrite I. reflexivity.
  Qed.
  Lemma kids_rel po f l l' : dget (o_kids po) f = Some l -> obj_rel po (set_o_kids po (dset (o_kids po) f l')).
  Proof.
    intros H. repeat split. simpl. intros f' N. rewrite dget_dset. destruct (String.eqb f' f); [discriminate|exact N].
  Qed.
End Model.
