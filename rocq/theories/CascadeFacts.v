(** * CascadeFacts: BaseStore.remove with remove_children on a LocalStore. *)
From Verif Require Export StoreFacts.

(** ** same_but_adapter *)
Lemma sba_refl h : same_but_adapter h h.
Proof. unfold same_but_adapter. induction h; constructor; auto. Qed.
Lemma sba_trans h1 h2 h3 : same_but_adapter h1 h2 -> same_but_adapter h2 h3 -> same_but_adapter h1 h3.
Proof.
  unfold same_but_adapter. intros H. revert h3. induction H; intros h3 H3; inversion H3; subst; constructor; [congruence|auto].
Qed.
Lemma sba_set h r o x : nth_error h r = Some o -> same_but_adapter h (list_set h r (set_o_adapter o x)).
Proof.
  unfold same_but_adapter. revert r. induction h as [|y h IH]; intros [|r]; simpl; intros H; try discriminate.
  - injection H as ->. constructor; [reflexivity|apply sba_refl].
  - constructor; [reflexivity|auto].
Qed.
Lemma sba_nth h h' r o' : same_but_adapter h h' -> nth_error h' r = Some o' ->
  exists o, nth_error h r = Some o /\ set_o_adapter o None = set_o_adapter o' None.
Proof.
  intros H. revert r. induction H as [|x y h h' E H IH]; intros [|r]; simpl; intros E'; try discriminate.
  - injection E' as <-. eauto.
  - auto.
Qed.
Lemma sba_nth_l h h' r o : same_but_adapter h h' -> nth_error h r = Some o ->
  exists o', nth_error h' r = Some o' /\ set_o_adapter o None = set_o_adapter o' None.
Proof.
  intros H. revert r. induction H as [|x y h h' E H IH]; intros [|r]; simpl; intros E'; try discriminate.
  - injection E' as <-. eauto.
  - auto.
Qed.
Lemma sba_fields o o' : set_o_adapter o None = set_o_adapter o' None ->
  o_cls o = o_cls o' /\ o_vals o = o_vals o' /\ o_kids o = o_kids o' /\ o_flags o = o_flags o' /\
  o_status o = o_status o' /\ o_msg o = o_msg o'.
Proof. intros H. injection H. auto 10. Qed.
Lemma uid_fields o o' : o_cls o = o_cls o' -> o_vals o = o_vals o' -> get_unique_id o = get_unique_id o'.
Proof. intros H1 H2. unfold get_unique_id, get_identifiers, dump_include. now rewrite H1, H2. Qed.

(** ** Sub-registers *)
Definition subreg (l' l : reg) : Prop := exists p, l' = filter p l.
Lemma filter_filter {A} (p q : A -> bool) l : filter p (filter q l) = filter (fun x => q x && p x) l.
Proof. induction l as [|x l IH]; simpl; [reflexivity|]. destruct (q x); simpl; [|exact IH]. destruct (p x); now rewrite IH. Qed.
Lemma filter_true {A} (l : list A) : filter (fun _ => true) l = l.
Proof. induction l; simpl; congruence. Qed.
Lemma subreg_refl l : subreg l l.
Proof. exists (fun _ => true). now rewrite filter_true. Qed.
Lemma subreg_trans a b c : subreg a b -> subreg b c -> subreg a c.
Proof. intros [p ->] [q ->]. exists (fun x => q x && p x). apply filter_filter. Qed.
Lemma subreg_del l t u : subreg (reg_del l t u) l.
Proof. now exists (fun e => negb (key_eqb t u e)). Qed.
Lemma subreg_nodup l' l : subreg l' l -> NoDup (map fst l) -> NoDup (map fst l').
Proof. intros [p ->]. apply NoDup_map_filter. Qed.
Lemma subreg_find l' l t u r : NoDup (map fst l) -> subreg l' l -> reg_find l' t u = Some r -> reg_find l t u = Some r.
Proof.
  intros ND S F. pose proof (subreg_nodup _ _ S ND) as ND'. apply reg_find_In in F; [|exact ND'].
  apply reg_find_In; [exact ND|]. destruct S as [p ->]. now apply filter_In in F.
Qed.
Lemma subreg_length l' l : subreg l' l -> length l' <= length l.
Proof. intros [p ->]. induction l as [|x l IH]; simpl; [lia|]. destruct (p x); simpl; lia. Qed.
Lemma reg_del_length l t u r : NoDup (map fst l) -> reg_find l t u = Some r -> S (length (reg_del l t u)) = length l.
Proof.
  unfold reg_del, reg_find. induction l as [|e l IH]; simpl; [discriminate|].
  intros ND F. inversion ND as [|? ? N1 N2]; subst. destruct (key_eqb t u e) eqn:K; simpl.
  - f_equal. apply key_eqb_true in K. rewrite K in N1. clear - N1.
    induction l as [|e' l IH]; simpl; [reflexivity|]. destruct (key_eqb t u e') eqn:K'; simpl.
    + apply key_eqb_true in K'. exfalso. apply N1. now left.
    + f_equal. apply IH. intros H. apply N1. now right.
  - f_equal. now apply IH.
Qed.

Lemma framed_refl a w : framed a w w.
Proof. repeat split; auto. intros ad H. exists (ad_store ad). rewrite H. now destruct ad. Qed.
Lemma framed_trans a w1 w2 w3 : framed a w1 w2 -> framed a w2 w3 -> framed a w1 w3.
Proof.
  intros (A1 & A2 & A3 & A4) (B1 & B2 & B3 & B4). split; [congruence|]. split; [congruence|]. split.
  - intros b N. rewrite B3, A3 by exact N. reflexivity.
  - intros ad H. destruct (A4 _ H) as [s E]. destruct (B4 _ E) as [s' E']. exists s'. rewrite E'. reflexivity.
Qed.
Lemma framed_upd a w s : framed a w (upd_store w a s).
Proof.
  split; [apply upd_store_redis|]. split; [apply upd_store_ads_length|]. split.
  - intros b N. now apply upd_store_other.
  - intros ad H. exists s. now apply upd_store_get.
Qed.
Lemma framed_set_heap a w h : framed a w (set_heap w h).
Proof. exact (framed_refl a w). Qed.
Lemma framed_add_event a w e : framed a w (add_event w e).
Proof. exact (framed_refl a w). Qed.

Lemma keyed_sub w w' a l l' : RegOf w a l -> RegOf w' a l' -> NoDup (map fst l) -> subreg l' l ->
  same_but_adapter (w_heap w) (w_heap w') -> keyed w a -> keyed w' a.
Proof.
  intros R R' ND S H K t u r F. rewrite (RegOf_lookup _ _ _ _ _ R') in F.
  apply (subreg_find _ _ _ _ _ ND S) in F. rewrite <- (RegOf_lookup _ _ _ _ _ R) in F.
  destruct (K _ _ _ F) as (o & Ho & Ht & Hu & Hk). destruct (sba_nth_l _ _ _ _ H Ho) as (o' & Ho' & E).
  apply sba_fields in E as (E1 & E2 & E3 & _). exists o'. split; [exact Ho'|].
  unfold get_type in *. rewrite <- E1. split; [exact Ht|]. rewrite <- (uid_fields o o') by assumption.
  split; [exact Hu|]. rewrite <- E3. exact Hk.
Qed.

Lemma child_of_sub w w' a l l' k k' : RegOf w a l -> RegOf w' a l' -> NoDup (map fst l) -> subreg l' l ->
  same_but_adapter (w_heap w) (w_heap w') -> child_of w' a k k' -> child_of w a k k'.
Proof.
  intros R R' ND S H (r & o' & f & ids & F & Ho & Hc & Hf & Hi & Hp).
  destruct (sba_nth _ _ _ _ H Ho) as (o & Ho' & E). apply sba_fields in E as (E1 & E2 & E3 & _).
  rewrite (RegOf_lookup _ _ _ _ _ R') in F. rewrite (RegOf_lookup _ _ _ _ _ R') in Hp.
  exists r, o, f, ids. rewrite !(RegOf_lookup _ _ _ _ _ R), E1, E3.
  split; [eapply subreg_find; eauto|]. repeat split; auto.
  - destruct (reg_find l' (fst k') (snd k')) eqn:X; [|congruence].
    rewrite (subreg_find _ _ _ _ _ ND S X). discriminate.
Qed.
Lemma child_of_sub_rev w w' a l l' k k' : RegOf w a l -> RegOf w' a l' -> NoDup (map fst l) -> subreg l' l ->
  same_but_adapter (w_heap w) (w_heap w') -> child_of w a k k' ->
  reg_find l' (fst k) (snd k) <> None -> reg_find l' (fst k') (snd k') <> None -> child_of w' a k k'.
Proof.
  intros R R' ND S H (r & o & f & ids & F & Ho & Hc & Hf & Hi & Hp) P P'.
  destruct (sba_nth_l _ _ _ _ H Ho) as (o' & Ho' & E). apply sba_fields in E as (E1 & E2 & E3 & _).
  rewrite (RegOf_lookup _ _ _ _ _ R) in F. rewrite (RegOf_lookup _ _ _ _ _ R) in Hp.
  exists r, o', f, ids. rewrite !(RegOf_lookup _ _ _ _ _ R'), <- E1, <- E3.
  split; [|auto 10].
  destruct (reg_find l' (fst k) (snd k)) as [r'|] eqn:X; [|congruence].
  rewrite (subreg_find _ _ _ _ _ ND S X) in F. exact F.
Qed.
Lemma reaches_sub w w' a l l' k k' : RegOf w a l -> RegOf w' a l' -> NoDup (map fst l) -> subreg l' l ->
  same_but_adapter (w_heap w) (w_heap w') -> reaches w' a k k' -> reaches w a k k'.
Proof.
  intros R R' ND S H X. induction X; [constructor|]. econstructor; [eapply child_of_sub; eauto|assumption].
Qed.
Lemma deep_sub w w' a l l' : RegOf w a l -> RegOf w' a l' -> NoDup (map fst l) -> subreg l' l ->
  same_but_adapter (w_heap w) (w_heap w') -> forall n k, deep w' a n k -> deep w a n k.
Proof.
  intros R R' ND S H. induction n as [|n IH]; intros k; simpl; [auto|]. intros (k' & C & D). exists k'.
  split; [eapply child_of_sub; eauto|auto].
Qed.
Lemma reaches_trans w a k k' k'' : reaches w a k k' -> reaches w a k' k'' -> reaches w a k k''.
Proof. intros H. revert k''. induction H; intros k3 H3; [exact H3|]. econstructor; eauto. Qed.

Definition not_found_log : event :=
  EvLog LError None None "Unable to remove child element as it was not found!".

(** present in [l] and no longer in [l'] *)
Definition gone (l l' : reg) (k : string * string) : Prop :=
  reg_find l (fst k) (snd k) <> None /\ reg_find l' (fst k) (snd k) = None.

(** the state during the removal of (t,u) from [w], [l] *)
Record during (a : aid) (w : world) (l : reg) (t u : string) (w' : world) (l' : reg) : Prop := mkDuring {
  du_reg : RegOf w' a l';
  du_sub : subreg l' (reg_del l t u);
  du_heap : same_but_adapter (w_heap w) (w_heap w');
  du_frame : framed a w w';
  du_trace : exists n, w_trace w' = w_trace w ++ repeat not_found_log n;
  du_closed : forall k k', gone l l' k -> k <> (t, u) -> child_of w a k k' -> reg_find l' (fst k') (snd k') = None;
  du_reach : forall k, gone l l' k -> reaches w a (t, u) k
}.

Definition cascade_ok (a : aid) (fuel : nat) : Prop :=
  forall w l t u r, RegOf w a l -> keyed w a -> reg_find l t u = Some r -> length l <= fuel \/ ~ deep w a fuel (t, u) ->
  exists w' l', st_remove fuel a r true w = (w', Ok tt) /\ during a w l t u w' l' /\
    forall k', child_of w a (t, u) k' -> reg_find l' (fst k') (snd k') = None.

Lemma st_get_reg a t u w l : RegOf w a l ->
  exists ad d, is_local w a ad d /\
  st_get a (MName t) (IdStr u) w =
  (upd_store w a (SLocal (touch d t)), match reg_find l t u with Some r => Ok r | None => Err ObjectNotFound end).
Proof.
  intros (ad & d & L & ND & NL & HB). exists ad, d. split; [exact L|].
  rewrite (st_get_local a (MName t) (IdStr u) w ad d u L eq_refl). simpl spec_name. now rewrite HB, entries_find.
Qed.

Lemma RegOf_nodup w a l : RegOf w a l -> NoDup (map fst l).
Proof. now intros (ad & d & L & ND & NL & HB). Qed.

Definition drop_child (fuel : nat) (a : aid) (t : string) (child_id : string) : M world unit :=
  try_catch
    (c <- st_get a (MName t) (IdStr child_id) ;;
     st_remove fuel a c true)
    is_not_found
    (fun _ => emit not_found_log).

Lemma drop_child_step a fuel w l t u t' id w1 l1 :
  cascade_ok a fuel -> RegOf w a l -> keyed w a -> reg_find l t u <> None -> length l <= S fuel \/ ~ deep w a (S fuel) (t, u) ->
  (reg_find l t' id <> None -> child_of w a (t, u) (t', id)) ->
  during a w l t u w1 l1 ->
  exists w2 l2, drop_child fuel a t' id w1 = (w2, Ok tt) /\ during a w l t u w2 l2 /\
    subreg l2 l1 /\ reg_find l2 t' id = None.
Proof.
  intros IH R K P LE HC D. destruct D as [R1 S1 H1 F1 [n T1] C1 Q1].
  pose proof (RegOf_nodup _ _ _ R) as ND. pose proof (RegOf_nodup _ _ _ R1) as ND1.
  assert (SL : subreg l1 l) by (eapply subreg_trans; [exact S1|apply subreg_del]).
  destruct (st_get_reg a t' id w1 l1 R1) as (ad & d & L1 & G).
  unfold drop_child, try_catch. rewrite (bind_eq _ _ _ _ _ G).
  pose proof (RegOf_touch _ _ _ _ _ t' R1 L1) as R1'.
  set (w1' := upd_store w1 a (SLocal (touch d t'))) in *.
  assert (H1' : same_but_adapter (w_heap w) (w_heap w1')) by (unfold w1'; now rewrite upd_store_heap).
  assert (F1' : framed a w w1') by (eapply framed_trans; [exact F1|apply framed_upd]).
  assert (T1' : w_trace w1' = w_trace w ++ repeat not_found_log n) by (unfold w1'; now rewrite upd_store_trace).
  destruct (reg_find l1 t' id) as [c|] eqn:E.
  - assert (K1 : keyed w1' a) by (eapply (keyed_sub w w1'); eauto).
    assert (LE1 : length l1 <= fuel \/ ~ deep w1' a fuel (t', id)).
    { destruct LE as [LE|LE].
      - left. pose proof (subreg_length _ _ S1). destruct (reg_find l t u) as [r|] eqn:X; [|congruence].
        pose proof (reg_del_length _ _ _ _ ND X). lia.
      - right. intros D1. apply LE. exists (t', id). split.
        + apply HC. rewrite (subreg_find _ _ _ _ _ ND SL E). discriminate.
        + apply (deep_sub w w1' a l l1); auto. }
    destruct (IH w1' l1 t' id c R1' K1 E LE1) as (w2 & l2 & X & [R2 S2 H2 F2 [n2 T2] C2 Q2] & Hc).
    rewrite X. exists w2, l2. split; [reflexivity|].
    assert (S21 : subreg l2 l1) by (eapply subreg_trans; [exact S2|apply subreg_del]).
    assert (N2 : reg_find l2 t' id = None).
    { destruct (reg_find l2 t' id) eqn:Y; [|reflexivity]. exfalso.
      pose proof (subreg_find l2 (reg_del l1 t' id) _ _ _ (NoDup_map_filter _ _ _ ND1) S2 Y) as Z.
      rewrite reg_del_find, !String.eqb_refl in Z by exact ND1. discriminate. }
    split; [|split; [exact S21|exact N2]].
    constructor.
    + exact R2.
    + eapply subreg_trans; eauto.
    + eapply sba_trans; eauto.
    + eapply framed_trans; eauto.
    + exists (n + n2). rewrite T2, T1', <- app_assoc, <- repeat_app. reflexivity.
    + intros k k' [G1 G2] Nk CH.
      destruct (reg_find l2 (fst k') (snd k')) as [r'|] eqn:Y; [|reflexivity]. exfalso.
      pose proof (subreg_find _ _ _ _ _ ND1 S21 Y) as Y1.
      destruct (reg_find l1 (fst k) (snd k)) as [rk|] eqn:Z.
      * assert (CH1 : child_of w1' a k k').
        { eapply (child_of_sub_rev w w1'); eauto; congruence. }
        destruct (string_dec (fst k) t') as [e1|n1]; [destruct (string_dec (snd k) id) as [e2|n2']|].
        -- assert (k = (t', id)) by (destruct k; simpl in *; congruence). subst k.
           specialize (Hc _ CH1). congruence.
        -- specialize (C2 k k'). rewrite C2 in Y; [discriminate| |intros ->; simpl in *; congruence|exact CH1].
           split; [congruence|exact G2].
        -- specialize (C2 k k'). rewrite C2 in Y; [discriminate| |intros ->; simpl in *; congruence|exact CH1].
           split; [congruence|exact G2].
      * specialize (C1 k k' (conj G1 Z) Nk CH). congruence.
    + intros k [G1 G2]. destruct (reg_find l1 (fst k) (snd k)) as [rk|] eqn:Z.
      * assert (X2 : reaches w1' a (t', id) k) by (apply Q2; split; [congruence|exact G2]).
        apply (reaches_sub w w1' a l l1) in X2; auto.
        econstructor; [|exact X2]. apply HC. rewrite (subreg_find _ _ _ _ _ ND SL E). discriminate.
      * apply Q1. split; assumption.
  - exists (add_event w1' not_found_log), l1. split; [reflexivity|]. split; [|split; [apply subreg_refl|exact E]].
    constructor; auto.
    + exists (n + 1). simpl w_trace. rewrite T1', repeat_app, app_assoc. reflexivity.
Qed.

Lemma drop_children_ids a fuel w l t u t' ids : 
  cascade_ok a fuel -> RegOf w a l -> keyed w a -> reg_find l t u <> None -> length l <= S fuel \/ ~ deep w a (S fuel) (t, u) ->
  (forall id, In id ids -> reg_find l t' id <> None -> child_of w a (t, u) (t', id)) ->
  forall w1 l1, during a w l t u w1 l1 ->
  exists w2 l2, forM ids (drop_child fuel a t') w1 = (w2, Ok tt) /\ during a w l t u w2 l2 /\
    subreg l2 l1 /\ forall id, In id ids -> reg_find l2 t' id = None.
Proof.
  intros IH R K P LE. induction ids as [|id ids IHi]; intros HC w1 l1 D; simpl.
  - exists w1, l1. split; [reflexivity|]. split; [exact D|]. split; [apply subreg_refl|]. intros ? [].
  - destruct (drop_child_step a fuel w l t u t' id w1 l1 IH R K P LE (HC id (or_introl eq_refl)) D)
      as (w2 & l2 & E & D2 & S2 & N2).
    destruct (IHi (fun i Hi => HC i (or_intror Hi)) w2 l2 D2) as (w3 & l3 & E3 & D3 & S3 & N3).
    rewrite (bind_eq _ _ _ _ _ E), E3. exists w3, l3. split; [reflexivity|]. split; [exact D3|].
    split; [eapply subreg_trans; eauto|]. intros i [<-|Hi]; [|auto].
    destruct (reg_find l3 t' id) eqn:Y; [|reflexivity].
    apply (subreg_find _ _ _ _ _ (RegOf_nodup _ _ _ (du_reg _ _ _ _ _ _ _ D2)) S3) in Y. congruence.
Qed.

Lemma drop_children_types a fuel w l t u o mapping :
  cascade_ok a fuel -> RegOf w a l -> keyed w a -> reg_find l t u <> None -> length l <= S fuel \/ ~ deep w a (S fuel) (t, u) ->
  (forall t' f ids id, In (t', f) mapping -> dget (o_kids o) f = Some ids -> In id ids ->
     reg_find l t' id <> None -> child_of w a (t, u) (t', id)) ->
  (forall t' f, In (t', f) mapping -> dget (o_kids o) f <> None) ->
  forall w1 l1, during a w l t u w1 l1 ->
  exists w2 l2, forM mapping (fun tf => child_ids <- lift (getattr_kids o (snd tf)) ;;
                                        forM child_ids (drop_child fuel a (fst tf))) w1 = (w2, Ok tt) /\
    during a w l t u w2 l2 /\ subreg l2 l1 /\
    forall t' f ids id, In (t', f) mapping -> dget (o_kids o) f = Some ids -> In id ids -> reg_find l2 t' id = None.
Proof.
  intros IH R K P LE. induction mapping as [|[t' f] mapping IHm]; intros HC HF w1 l1 D.
  - exists w1, l1. split; [reflexivity|]. split; [exact D|]. split; [apply subreg_refl|]. intros ? ? ? ? [].
  - destruct (dget (o_kids o) f) as [ids|] eqn:EF; [|exfalso; eapply HF; [now left|exact EF]].
    destruct (drop_children_ids a fuel w l t u t' ids IH R K P LE) with (w1 := w1) (l1 := l1)
      as (w2 & l2 & E & D2 & S2 & N2).
    { intros id Hi. eapply HC; eauto. now left. }
    { exact D. }
    destruct (IHm) with (w1 := w2) (l1 := l2) as (w3 & l3 & E3 & D3 & S3 & N3).
    { intros t2 f2 ids2 id2 I2. apply HC. now right. }
    { intros t2 f2 I2. eapply HF. right. exact I2. }
    { exact D2. }
    exists w3, l3. split.
    { simpl. assert (X : (child_ids <- lift (getattr_kids o f) ;; forM child_ids (drop_child fuel a t')) w1 = (w2, Ok tt)).
      { unfold bind at 1. unfold lift, getattr_kids. rewrite EF. exact E. }
      rewrite (bind_eq _ _ _ _ _ X). exact E3. }
    split; [exact D3|]. split; [eapply subreg_trans; eauto|].
    intros t2 f2 ids2 id2 [I2|I2] H2 Hi.
    + injection I2 as <- <-. rewrite EF in H2. injection H2 as <-.
      destruct (reg_find l3 t' id2) eqn:Y; [|reflexivity].
      apply (subreg_find _ _ _ _ _ (RegOf_nodup _ _ _ (du_reg _ _ _ _ _ _ _ D2)) S3) in Y.
      rewrite N2 in Y by exact Hi. discriminate.
    + eapply N3; eauto.
Qed.

Lemma cascade a : forall fuel, cascade_ok a fuel.
Proof.
  induction fuel as [|fuel IH]; intros w l t u r R K F LE.
  - destruct LE as [LE|LE]; [|destruct (LE I)]. destruct l; [discriminate|simpl in LE; lia].
  - pose proof R as (ad & d & L & ND & NL & HB).
    pose proof F as F0. rewrite <- (RegOf_lookup _ _ _ _ _ R) in F0.
    destruct (K _ _ _ F0) as (o & Ho & Ht & Hu & Hk).
    pose proof (st_remove_item_local a t u w ad d L) as E. rewrite HB, entries_find, F in E.
    set (w1 := upd_store w a (SLocal (dset d t (ddel (entries l t) u)))) in *.
    pose proof (RegOf_del _ _ _ _ _ t u R L) as R1. rewrite HB in R1. fold w1 in R1.
    assert (Hh : w_heap w1 = w_heap w) by apply upd_store_heap.
    pose proof (clear_adapter_eq w1 r o) as CA. rewrite Hh in CA. specialize (CA Ho).
    set (w2 := if adapter_truthy w1 (o_adapter o) then set_heap w1 (list_set (w_heap w) r (set_o_adapter o None)) else w1) in *.
    assert (D : during a w l t u w2 (reg_del l t u)).
    { constructor.
      - unfold w2. destruct (adapter_truthy _ _); [apply RegOf_set_heap|]; exact R1.
      - apply subreg_refl.
      - unfold w2. destruct (adapter_truthy _ _); simpl; [now apply sba_set|]. rewrite Hh. apply sba_refl.
      - apply framed_trans with w1; [apply framed_upd|].
        unfold w2. destruct (adapter_truthy _ _); [apply framed_set_heap|apply framed_refl].
      - exists 0. simpl. rewrite app_nil_r. unfold w2.
        destruct (adapter_truthy _ _); simpl; apply upd_store_trace.
      - intros [t1 u1] k' [G1 G2] N _. exfalso. simpl in *. rewrite reg_del_find in G2 by exact NL.
        destruct (String.eqb_spec t1 t); [destruct (String.eqb_spec u1 u)|]; simpl in G2; congruence.
      - intros [t1 u1] [G1 G2]. simpl in *. rewrite reg_del_find in G2 by exact NL.
        destruct (String.eqb_spec t1 t); [destruct (String.eqb_spec u1 u)|]; simpl in G2; try congruence.
        subst. constructor. }
    destruct (drop_children_types a fuel w l t u o (get_children_mapping o) IH R K) with (w1 := w2) (l1 := reg_del l t u)
      as (w3 & l3 & E3 & D3 & S3 & N3); auto.
    + congruence.
    + intros t' f ids id Hm Hf Hi Hp. exists r, o, f, ids. simpl.
      rewrite !(RegOf_lookup _ _ _ _ _ R). auto 10.
    + exists w3, l3. split; [|split; [exact D3|]].
      * simpl st_remove. unfold bind at 1. rewrite (hget_eq _ _ _ Ho).
        unfold bind at 1. unfold lift at 1. rewrite Hu. rewrite Ht.
        rewrite (bind_eq _ _ _ _ _ E), (bind_eq _ _ _ _ _ CA). exact E3.
      * intros [t' id] (r' & o' & f & ids & X1 & X2 & X3 & X4 & X5 & X6). simpl in *.
        rewrite X1 in F0. injection F0 as ->. rewrite X2 in Ho. injection Ho as ->. eauto.
Qed.

(** everything reachable is gone *)
Lemma cascade_reach a w l t u w' l' : RegOf w a l -> reg_find l t u <> None ->
  during a w l t u w' l' ->
  (forall k', child_of w a (t, u) k' -> reg_find l' (fst k') (snd k') = None) ->
  forall k, reaches w a (t, u) k -> reg_find l' (fst k) (snd k) = None.
Proof.
  intros R P D HC. pose proof (RegOf_nodup _ _ _ R) as ND.
  assert (N0 : reg_find l' t u = None).
  { destruct (reg_find l' t u) eqn:Y; [|reflexivity].
    apply (subreg_find l' (reg_del l t u) _ _ _ (NoDup_map_filter _ _ _ ND) (du_sub _ _ _ _ _ _ _ D)) in Y.
    rewrite reg_del_find, !String.eqb_refl in Y by exact ND. discriminate. }
  assert (G : forall k k', reaches w a k k' -> reg_find l (fst k) (snd k) <> None ->
              reg_find l' (fst k) (snd k) = None -> reg_find l' (fst k') (snd k') = None).
  { intros k k' X. induction X as [k|k k1 k2 C X IH]; intros P1 N1; [exact N1|].
    apply IH.
    - destruct C as (r & o & f & ids & C1 & C2 & C3 & C4 & C5 & C6). rewrite (RegOf_lookup _ _ _ _ _ R) in C6. exact C6.
    - destruct (string_dec (fst k) t) as [e1|n1]; [destruct (string_dec (snd k) u) as [e2|n2]|].
      + apply HC. destruct k; simpl in *; subst. exact C.
      + eapply (du_closed _ _ _ _ _ _ _ D); [split; eassumption| |exact C]. intros ->; simpl in *; congruence.
      + eapply (du_closed _ _ _ _ _ _ _ D); [split; eassumption| |exact C]. intros ->; simpl in *; congruence. }
  intros k X. eapply G; eauto.
Qed.
