(** * SyncFrame2: the invariant of the destination and its preservation. *)
From Verif Require Export SyncFrame HookFacts.

Lemma occurs_kid gs e k : occurs e gs -> kid_of e k -> occurs k gs.
Proof.
  intros H. unfold kid_of. rewrite In_children. intros (t & g & n & H1 & H2).
  induction H as [gs t' g' n' I1 I2|gs t' g' n' p I1 I2 H IH].
  - eapply occ_below; [exact I1|exact I2|]. eapply occ_here; eauto.
  - eapply occ_below; [exact I1|exact I2|]. exact IH.
Qed.

Section Frame.
  Variables (w0 : world) (dst : aid) (da : adapter) (gs : dict (dict elem)).
  Hypothesis HDA : nth_error (w_ads w0) dst = Some da.
  Hypothesis HOWN : forall c, dst_class w0 dst c -> own_fields c.
  Hypothesis HKF : forall t c, dget (ad_classes da) t = Some c -> kids_are_fields c.
  Hypothesis HIDS : sets_no_identifier w0 dst gs.
  Hypothesis HL0 : local_ok w0 dst.
  Hypothesis HK0 : keyed w0 dst.

  Notation len0 := (length (w_heap w0)).
  Notation lk w k := (lookup w dst (fst k) (snd k)).
  Definition key := (string * string)%type.

  (** the original object at [r] listed (t,u) *)
  Definition listed0 (r : ref) (t u : string) : Prop := exists o, nth_error (w_heap w0) r = Some o /\ lists o t u.
  Definition touched (k : key) : Prop := mentioned w0 dst gs not_create_act k.
  (** may be changed *)
  Definition open_ref (r : ref) : Prop := r < len0 -> exists k, lk w0 k = Some r /\ touched k.
  (** an object made for a create element *)
  Definition newborn (k : key) (o : obj) : Prop :=
    exists e c, occurs e gs /\ e_action e = Some ACreate /\ dget (ad_classes da) (e_type e) = Some c /\
      names w0 dst e k /\ o_cls o = c /\ o_flags o = c_flags c.
  (** some deletion may take other objects with it *)
  Definition cascading : Prop := exists kd, mentioned w0 dst gs is_delete_act kd /\
    ((exists r o, lk w0 kd = Some r /\ nth_error (w_heap w0) r = Some o /\ skips_children (o_flags o)) \/
     (exists o, newborn kd o /\ skips_children (o_flags o))).

  (** the child references of [r] lead to original objects only if they are original *)
  Definition edges (w : world) (r : ref) : Prop :=
    forall o t u x, nth_error (w_heap w) r = Some o -> lists o t u -> lookup w dst t u = Some x -> x < len0 -> r < len0 /\ listed0 r t u.
  (** child references gained lead to stored objects *)
  Definition gains (w : world) (r : ref) : Prop :=
    forall o t u, nth_error (w_heap w) r = Some o -> lists o t u ->
      (r < len0 /\ listed0 r t u) \/ lookup w dst t u <> None \/ mentioned w0 dst gs is_delete_act (t, u) \/ cascading.

  Record frame (w : world) : Prop := mkFrame {
    fr_reg : exists l, RegOf w dst l;
    fr_ad : exists s, nth_error (w_ads w) dst = Some (set_ad_store da s);
    fr_keyed : keyed w dst;
    fr_orig : forall k r, lk w k = Some r -> r < len0 -> lk w0 k = Some r;
    fr_new : forall k r o, lk w k = Some r -> len0 <= r -> nth_error (w_heap w) r = Some o -> newborn k o;
    fr_kept : forall k r, lk w0 k = Some r -> lk w k = Some r \/ doomed w0 dst gs k;
    fr_same : forall r o, nth_error (w_heap w0) r = Some o -> ~ open_ref r ->
      exists o', nth_error (w_heap w) r = Some o' /\ same_data o o';
    fr_old : forall r o, nth_error (w_heap w0) r = Some o ->
      exists o', nth_error (w_heap w) r = Some o' /\ o_cls o' = o_cls o /\ o_flags o' = o_flags o;
    fr_edges : forall k r, lk w k = Some r -> edges w r;
    fr_gains : forall k r, lk w k = Some r -> gains w r
  }.

  Definition rel (w w' : world) : Prop :=
    hrel w w' /\ (forall r, r < length (w_heap w) -> edges w r -> edges w' r) /\
    (forall r, r < length (w_heap w) -> gains w r -> gains w' r).
  Lemma rel_refl w : rel w w.
  Proof. split; [apply hrel_refl|]. auto. Qed.
  Lemma rel_trans w1 w2 w3 : rel w1 w2 -> rel w2 w3 -> rel w1 w3.
  Proof.
    intros (A1 & A2 & A3) (B1 & B2 & B3). pose proof (hrel_length _ _ A1).
    split; [eapply hrel_trans; eauto|]. split; intros r L H'; [apply B2|apply B3]; try lia; auto.
  Qed.

  Lemma skip_bit f : has_flag f MF_SKIP_CHILDREN_ON_DELETE = true -> skips_children f.
  Proof.
    unfold has_flag, skips_children, MF_SKIP_CHILDREN_ON_DELETE. intros H. apply negb_true_iff, N.eqb_neq in H.
    destruct (N.testbit f 1) eqn:T; [reflexivity|]. exfalso. apply H. apply N.bits_inj. intros n.
    rewrite N.land_spec, N.bits_0. change 2%N with (2 ^ 1)%N.
    destruct (N.eq_dec n 1) as [->|Hn]; [now rewrite T|]. rewrite N.pow2_bits_false by auto. apply andb_false_r.
  Qed.

  Lemma names_fun e k k' : names w0 dst e k -> names w0 dst e k' -> k = k'.
  Proof.
    intros (ad & c & A1 & A2 & A3 & A4) (ad' & c' & B1 & B2 & B3 & B4).
    destruct k, k'; simpl in *. congruence.
  Qed.

  Lemma frame_init : frame w0.
  Proof.
    destruct (local_ok_RegOf _ _ HL0) as [l R].
    assert (VAL : forall k r, lk w0 k = Some r -> exists o, nth_error (w_heap w0) r = Some o).
    { intros k r H. destruct (HK0 _ _ _ H) as (o & Ho & _). eauto. }
    constructor.
    - eauto.
    - exists (ad_store da). rewrite HDA. now destruct da.
    - exact HK0.
    - auto.
    - intros k r o H L Ho. assert (r < len0) by (apply nth_error_Some; congruence). lia.
    - auto.
    - intros r o Ho _. exists o. repeat split; auto.
    - intros r o Ho. exists o. auto.
    - intros k r H o t u x Ho HL _ _. split; [apply nth_error_Some; congruence|]. exists o. auto.
    - intros k r H o t u Ho HL. left. split; [apply nth_error_Some; congruence|]. exists o. auto.
  Qed.

  Lemma frame_cls w k r o : frame w -> lk w k = Some r -> nth_error (w_heap w) r = Some o -> dst_class w0 dst (o_cls o).
  Proof.
    intros F H Ho. destruct (Nat.lt_ge_cases r len0) as [L|L].
    - pose proof (fr_orig w F k r H L) as H0. destruct (HK0 _ _ _ H0) as (o0 & Ho0 & _).
      destruct (fr_old w F r o0 Ho0) as (o' & Ho' & E & _). rewrite Ho in Ho'. injection Ho' as <-. rewrite E.
      right. exists (fst k), (snd k), r, o0. auto.
    - destruct (fr_new w F k r o H L Ho) as (e & c & _ & _ & E & _ & -> & _). left. exists da, (e_type e). auto.
  Qed.

  (** ** Steps that change no child list and no entry *)
  Definition calm (w w' : world) : Prop :=
    forall r o, nth_error (w_heap w) r = Some o -> exists o', nth_error (w_heap w') r = Some o' /\
      obj_rel o o' /\ o_kids o' = o_kids o /\ (o_vals o' = o_vals o \/ open_ref r).
  Definition same_store (w w' : world) : Prop :=
    (forall l, RegOf w dst l -> RegOf w' dst l) /\
    (forall ad, nth_error (w_ads w) dst = Some ad -> exists s, nth_error (w_ads w') dst = Some (set_ad_store ad s)).

  Lemma lists_same o o' t u : o_cls o' = o_cls o -> o_kids o' = o_kids o -> lists o' t u -> lists o t u.
  Proof. intros E1 E2 (f & l & H). rewrite E1, E2 in H. exists f, l. exact H. Qed.

  Lemma same_store_lookup w w' : (exists l, RegOf w dst l) -> same_store w w' -> forall t u, lookup w' dst t u = lookup w dst t u.
  Proof.
    intros [l R] [S1 _] t u. rewrite (RegOf_lookup _ _ _ _ _ (S1 l R)). now rewrite (RegOf_lookup _ _ _ _ _ R).
  Qed.
  Lemma set_ad_set ad s s' : set_ad_store (set_ad_store ad s) s' = set_ad_store ad s'.
  Proof. reflexivity. Qed.

  Lemma keyed_hrel w w' : keyed w dst -> hrel w w' -> (forall t u, lookup w' dst t u = lookup w dst t u) -> keyed w' dst.
  Proof.
    intros K H SL t u r F. rewrite SL in F. destruct (K _ _ _ F) as (o & Ho & Ht & Hu & Hk).
    destruct (H r o Ho) as (o' & Ho' & E1 & E2 & E3 & E4). exists o'. split; [exact Ho'|].
    unfold get_type in *. rewrite E1. split; [exact Ht|]. split; [congruence|]. intros t' f I. apply E4. eauto.
  Qed.
  Lemma calm_hrel w w' : calm w w' -> hrel w w'.
  Proof. intros H r o Ho. destruct (H r o Ho) as (o' & A & B & _). eauto. Qed.

  Lemma frame_calm w w' : frame w -> calm w w' -> same_store w w' -> frame w' /\ rel w w'.
  Proof.
    intros F C SS. pose proof (same_store_lookup w w' (fr_reg w F) SS) as SL. pose proof (calm_hrel _ _ C) as HR.
    assert (BACK : forall r o', r < length (w_heap w) -> nth_error (w_heap w') r = Some o' ->
      exists o, nth_error (w_heap w) r = Some o /\ o_cls o' = o_cls o /\ o_kids o' = o_kids o /\ o_flags o' = o_flags o).
    { intros r o' L Ho'. destruct (nth_error (w_heap w) r) as [o|] eqn:Ho.
      - destruct (C r o Ho) as (o2 & A1 & (A2 & A3 & _) & A4 & _). rewrite Ho' in A1. injection A1 as <-. eauto.
      - apply nth_error_None in Ho. lia. }
    assert (RE : forall r, r < length (w_heap w) -> edges w r -> edges w' r).
    { intros r L E o' t u x Ho' HL Hx. destruct (BACK r o' L Ho') as (o & Ho & E1 & E2 & _).
      rewrite SL in Hx. eapply E; eauto. eapply lists_same; eauto. }
    assert (RG : forall r, r < length (w_heap w) -> gains w r -> gains w' r).
    { intros r L E o' t u Ho' HL. destruct (BACK r o' L Ho') as (o & Ho & E1 & E2 & _). rewrite SL.
      eapply E; eauto. eapply lists_same; eauto. }
    assert (IN : forall k r, lk w k = Some r -> r < length (w_heap w)).
    { intros k r H. destruct (fr_keyed w F _ _ _ H) as (o & Ho & _). apply nth_error_Some. congruence. }
    split; [|split; [exact HR|split; assumption]].
    constructor.
    - destruct (fr_reg w F) as [l R]. exists l. now apply SS.
    - destruct (fr_ad w F) as [s E]. destruct (proj2 SS _ E) as [s' E']. exists s'. now rewrite E'.
    - exact (keyed_hrel w w' (fr_keyed w F) HR SL).
    - intros k r. rewrite SL. apply F.
    - intros k r o'. rewrite SL. intros H L Ho'. destruct (BACK r o' (IN k r H) Ho') as (o & Ho & E1 & _ & E3).
      destruct (fr_new w F k r o H L Ho) as (e & c & A1 & A2 & A3 & A4 & A5 & A6).
      exists e, c. repeat split; auto; congruence.
    - intros k r. rewrite SL. apply F.
    - intros r o Ho NO. destruct (fr_same w F r o Ho NO) as (o1 & Ho1 & (S1 & S2 & S3 & S4)).
      destruct (C r o1 Ho1) as (o2 & Ho2 & (B1 & B2 & _) & B3 & B4). exists o2. split; [exact Ho2|].
      destruct B4 as [B4|B4]; [|contradiction]. repeat split; congruence.
    - intros r o Ho. destruct (fr_old w F r o Ho) as (o1 & Ho1 & A1 & A2).
      destruct (C r o1 Ho1) as (o2 & Ho2 & (B1 & B2 & _) & _). exists o2. repeat split; congruence.
    - intros k r. rewrite SL. intros H. apply RE; [eauto|]. eapply fr_edges; eauto.
    - intros k r. rewrite SL. intros H. apply RG; [eauto|]. eapply fr_gains; eauto.
  Qed.

  Lemma calm_ro w w' : read_only w w' -> calm w w'.
  Proof.
    intros R r o Ho. exists o. split; [eapply read_only_nth; eauto|]. split; [apply obj_rel_refl|]. auto.
  Qed.
  Lemma calm_set w r o o' : nth_error (w_heap w) r = Some o -> obj_rel o o' -> o_kids o' = o_kids o ->
    (o_vals o' = o_vals o \/ open_ref r) -> calm w (set_heap w (list_set (w_heap w) r o')).
  Proof.
    intros H R K V x ox Hx. simpl. destruct (Nat.eq_dec x r) as [->|N].
    - exists o'. rewrite (nth_list_set_eq _ _ _ _ H). rewrite H in Hx. injection Hx as <-. auto.
    - exists ox. rewrite nth_list_set_neq by exact N. split; [exact Hx|]. split; [apply obj_rel_refl|]. auto.
  Qed.
  Lemma same_store_heap w h : same_store w (set_heap w h).
  Proof.
    split; [intros l; apply RegOf_set_heap|]. intros ad E. exists (ad_store ad). simpl. rewrite E. now destruct ad.
  Qed.
  Lemma same_store_event w e : same_store w (add_event w e).
  Proof.
    split; [intros l; apply RegOf_add_event|]. intros ad E. exists (ad_store ad). simpl. rewrite E. now destruct ad.
  Qed.
  Lemma same_store_touch w a ad d m : is_local w a ad d -> same_store w (upd_store w a (SLocal (touch d m))).
  Proof.
    intros L. destruct (Nat.eq_dec a dst) as [->|N].
    - split.
      + intros l R. eapply RegOf_touch; eauto.
      + intros ad' E. rewrite (upd_store_get _ _ _ _ E). eauto.
    - split.
      + intros l (ad' & d' & [L1 L2] & H). exists ad', d'. split; [|exact H]. split; [|exact L2].
        rewrite upd_store_other by congruence. exact L1.
      + intros ad' E. exists (ad_store ad'). rewrite upd_store_other by congruence. rewrite E. now destruct ad'.
  Qed.
  Lemma same_store_get a m i w : same_store w (fst (st_get a m i w)).
  Proof.
    assert (Z : same_store w w) by (rewrite <- (set_heap_same w) at 2; apply same_store_heap).
    unfold st_get, bind, get_adapter. destruct (nth_error (w_ads w) a) as [ad|] eqn:E; [|exact Z].
    unfold lift. destruct (get_uid _ i) as [u|]; [|exact Z].
    destruct (ad_store ad) as [d|sid] eqn:ES.
    - rewrite put_store_eq.
      pose proof (same_store_touch w a ad d (snd (object_class_and_model ad m)) (conj E ES)) as H.
      destruct (dget _ u); exact H.
    - unfold redis_load. destruct (dget (w_redis w) _); [apply same_store_heap|exact Z].
  Qed.
  Lemma same_store_trans w1 w2 w3 : same_store w1 w2 -> same_store w2 w3 -> same_store w1 w3.
  Proof.
    intros [A1 A2] [B1 B2]. split; [auto|]. intros ad E. destruct (A2 _ E) as [s E']. destruct (B2 _ E') as [s' E''].
    exists s'. now rewrite E''.
  Qed.
  Lemma calm_trans w1 w2 w3 : calm w1 w2 -> calm w2 w3 -> calm w1 w3.
  Proof.
    intros A B r o Ho. destruct (A r o Ho) as (o1 & H1 & R1 & K1 & V1). destruct (B r o1 H1) as (o2 & H2 & R2 & K2 & V2).
    exists o2. split; [exact H2|]. split; [eapply obj_rel_trans; eauto|]. split; [congruence|].
    destruct V1 as [V1|V1]; [|auto]. destruct V2 as [V2|V2]; [left; congruence|auto].
  Qed.

  (** ** Steps that change child lists and entries *)
  Definition stored_new (w : world) (k : key) (r : ref) : Prop :=
    len0 <= r /\ edges w r /\ gains w r /\
    exists o, nth_error (w_heap w) r = Some o /\ newborn k o /\ get_type o = fst k /\ get_unique_id o = Ok (snd k) /\
      forall t' f, In (t', f) (c_children (o_cls o)) -> dget (o_kids o) f <> None.
  Record step (w w' : world) : Prop := mkStep {
    sp_hrel : hrel w w';
    sp_back : forall r o', r < length (w_heap w) -> nth_error (w_heap w') r = Some o' ->
      exists o, nth_error (w_heap w) r = Some o /\
        (forall t u, lists o' t u -> lists o t u \/ exists y, lookup w' dst t u = Some y /\ len0 <= y) /\
        ((o_vals o' = o_vals o /\ o_kids o' = o_kids o) \/ open_ref r);
    sp_in : forall k r, lk w' k = Some r -> lk w k = Some r \/ stored_new w' k r;
    sp_out : forall k r, lk w k = Some r -> lk w' k = Some r \/
      (lk w' k = None /\ (r < len0 -> doomed w0 dst gs k) /\ (mentioned w0 dst gs is_delete_act k \/ cascading));
    sp_reg : exists l, RegOf w' dst l;
    sp_ad : forall ad, nth_error (w_ads w) dst = Some ad -> exists s, nth_error (w_ads w') dst = Some (set_ad_store ad s)
  }.

  Lemma frame_step w w' : frame w -> step w w' -> frame w' /\ rel w w'.
  Proof.
    intros F [HR BK SIN SOUT SREG SAD].
    assert (IN : forall k r, lk w k = Some r -> r < length (w_heap w)).
    { intros k r H. destruct (fr_keyed w F _ _ _ H) as (o & Ho & _). apply nth_error_Some. congruence. }
    assert (RE : forall r, r < length (w_heap w) -> edges w r -> edges w' r).
    { intros r L E o' t u x Ho' HL Hx Lx. destruct (BK r o' L Ho') as (o & Ho & HL' & _).
      destruct (HL' t u HL) as [HLo|(y & Hy & Ly)]; [|rewrite Hx in Hy; injection Hy as <-; lia].
      destruct (SIN (t, u) x Hx) as [Hx'|(Ln & _)]; [|lia]. exact (E o t u x Ho HLo Hx' Lx). }
    assert (RG : forall r, r < length (w_heap w) -> gains w r -> gains w' r).
    { intros r L E o' t u Ho' HL. destruct (BK r o' L Ho') as (o & Ho & HL' & _).
      destruct (HL' t u HL) as [HLo|(y & Hy & Ly)]; [|right; left; congruence].
      destruct (E o t u Ho HLo) as [X|[X|X]]; [now left| |now right; right].
      destruct (lookup w dst t u) as [y|] eqn:Ey; [|congruence].
      destruct (SOUT (t, u) y Ey) as [Y|(_ & _ & Y)]; [right; left; simpl in Y; congruence|now right; right]. }
    assert (CF : forall r o o', nth_error (w_heap w) r = Some o -> nth_error (w_heap w') r = Some o' ->
       o_cls o' = o_cls o /\ o_flags o' = o_flags o).
    { intros r o o' Ho Ho'. destruct (HR r o Ho) as (o2 & Ho2 & E1 & E2 & _). rewrite Ho' in Ho2. injection Ho2 as <-. auto. }
    split; [|split; [exact HR|split; assumption]].
    constructor.
    - exact SREG.
    - destruct (fr_ad w F) as [s E]. destruct (SAD _ E) as [s' E']. exists s'. now rewrite E'.
    - intros t u r H. destruct (SIN (t, u) r H) as [H'|(_ & _ & _ & o & Ho & _ & X)].
      + destruct (fr_keyed w F t u r H') as (o & Ho & Ht & Hu & Hk).
        destruct (HR r o Ho) as (o' & Ho' & E1 & E2 & E3 & E4). exists o'. split; [exact Ho'|].
        unfold get_type in *. rewrite E1. split; [exact Ht|]. split; [congruence|]. intros t' f I. apply E4. eauto.
      + exists o. split; [exact Ho|exact X].
    - intros k r H L. destruct (SIN k r H) as [H'|(Ln & _)]; [|lia]. exact (fr_orig w F k r H' L).
    - intros k r o' H L Ho'. destruct (SIN k r H) as [H'|(_ & _ & _ & o & Ho & X & _)].
      + destruct (BK r o' (IN k r H') Ho') as (o & Ho & _). destruct (CF _ _ _ Ho Ho') as [E1 E2].
        destruct (fr_new w F k r o H' L Ho) as (e & c & A1 & A2 & A3 & A4 & A5 & A6).
        exists e, c. repeat split; auto; congruence.
      + rewrite Ho in Ho'. injection Ho' as <-. exact X.
    - intros k r H. destruct (fr_kept w F k r H) as [H'|H']; [|now right].
      destruct (SOUT k r H') as [Y|(_ & Y & _)]; [now left|]. right. apply Y.
      destruct (HK0 _ _ _ H) as (o & Ho & _). apply nth_error_Some. congruence.
    - intros r o Ho NO. destruct (fr_same w F r o Ho NO) as (o1 & Ho1 & (S1 & S2 & S3 & S4)).
      destruct (HR r o1 Ho1) as (o2 & Ho2 & B1 & B2 & _).
      assert (Lr : r < length (w_heap w)) by (apply nth_error_Some; congruence).
      destruct (BK r o2 Lr Ho2) as (o1' & Ho1' & _ & X). rewrite Ho1 in Ho1'. injection Ho1' as <-.
      destruct X as [[X1 X2]|X]; [|contradiction]. exists o2. split; [exact Ho2|]. repeat split; congruence.
    - intros r o Ho. destruct (fr_old w F r o Ho) as (o1 & Ho1 & A1 & A2).
      destruct (HR r o1 Ho1) as (o2 & Ho2 & B1 & B2 & _). exists o2. repeat split; congruence.
    - intros k r H. destruct (SIN k r H) as [H'|(_ & X & _)]; [|exact X].
      apply RE; [eauto|]. exact (fr_edges w F k r H').
    - intros k r H. destruct (SIN k r H) as [H'|(_ & _ & X & _)]; [|exact X].
      apply RG; [eauto|]. exact (fr_gains w F k r H').
  Qed.

  (** a parent loses a child reference *)
  Lemma step_drop w p po po' : frame w -> nth_error (w_heap w) p = Some po -> open_ref p -> obj_rel po po' ->
    (forall t u, lists po' t u -> lists po t u) -> step w (set_heap w (list_set (w_heap w) p po')).
  Proof.
    intros F Hp OP OR HL. destruct (same_store_heap w (list_set (w_heap w) p po')) as [S1 S2].
    destruct (fr_reg w F) as [l R].
    assert (SL : forall t u, lookup (set_heap w (list_set (w_heap w) p po')) dst t u = lookup w dst t u) by reflexivity.
    constructor.
    - eapply hrel_set; eauto.
    - intros r o' L Ho'. cbn in Ho'. destruct (Nat.eq_dec r p) as [->|N].
      + rewrite (nth_list_set_eq _ _ _ _ Hp) in Ho'. injection Ho' as <-. exists po. auto.
      + rewrite nth_list_set_neq in Ho' by exact N. exists o'. auto.
    - intros k r H. left. exact H.
    - intros k r H. left. exact H.
    - exists l. now apply S1.
    - exact S2.
  Qed.

  (** backwards along child references *)
  Lemma reaches_back w k1 k2 : frame w -> reaches w dst k1 k2 -> forall r2, lk w k2 = Some r2 -> r2 < len0 ->
    exists r1, lk w k1 = Some r1 /\ r1 < len0 /\ reaches w0 dst k1 k2.
  Proof.
    intros F H. induction H as [k|k k' k'' HC HR IH]; intros r2 H2 L2.
    - exists r2. split; [exact H2|]. split; [exact L2|constructor].
    - destruct (IH r2 H2 L2) as (r' & H' & L' & HR').
      destruct HC as (r & o & f & l & A1 & A2 & A3 & A4 & A5 & A6).
      destruct (fr_edges w F k r A1 o (fst k') (snd k') r' A2) as [Lr (o0 & Ho0 & (f0 & l0 & B1 & B2 & B3))]; auto.
      { exists f, l. auto. }
      exists r. split; [exact A1|]. split; [exact Lr|]. eapply reach_step; [|exact HR'].
      exists r, o0, f0, l0. split; [exact (fr_orig w F k r A1 Lr)|]. repeat split; auto.
      rewrite (fr_orig w F k' r' H' L'). discriminate.
  Qed.

  (** ** The side conditions of the rule *)
  Definition clsof (e : elem) : option cls := dget (ad_classes da) (e_type e).
  Definition pos (w : world) (e : elem) (p : option ref) : Prop :=
    forall r, p = Some r -> open_ref r /\ exists o, nth_error (w_heap w) r = Some o /\ dst_class w0 dst (o_cls o).
  Definition dm (w : world) (e : elem) (r : ref) : Prop :=
    exists o k, nth_error (w_heap w) r = Some o /\ names w0 dst e k /\ get_type o = fst k /\ get_unique_id o = Ok (snd k) /\
      dst_class w0 dst (o_cls o) /\ (r < len0 -> lk w0 k = Some r) /\ (len0 <= r -> newborn k o) /\ edges w r.
  Definition fresh (w : world) (e : elem) (x : ref) : Prop :=
    len0 <= x /\ exists o c u, nth_error (w_heap w) x = Some o /\ clsof e = Some c /\ o_cls o = c /\ o_flags o = c_flags c /\
      create_unique_id c (e_keys e) = Ok u /\ (forall u', get_unique_id o = Ok u' -> u' = u) /\
      (forall f, In f (c_kid_fields c) -> dget (o_kids o) f = Some []) /\ (forall t y, ~ lists o t y).
  Definition absent (w : world) (e : elem) : Prop := forall k, names w0 dst e k -> lk w k = None.
  Definition sk (w : world) (x : ref) : Prop := exists o, nth_error (w_heap w) x = Some o /\ skips_children (o_flags o).

  Lemma pos_rel w w' e p : rel w w' -> pos w e p -> pos w' e p.
  Proof.
    intros (H & _) HP r Er. destruct (HP r Er) as (O & o & Ho & Hc). split; [exact O|].
    destruct (H r o Ho) as (o' & Ho' & E & _). exists o'. split; [exact Ho'|]. now rewrite E.
  Qed.
  Lemma dm_rel w w' e r : rel w w' -> dm w e r -> dm w' e r.
  Proof.
    intros (H & HE & _) (o & k & A1 & A2 & A3 & A4 & A5 & A6 & A7 & A8).
    destruct (H r o A1) as (o' & Ho' & E1 & E2 & E3 & _).
    exists o', k. unfold get_type in *. rewrite E1, E3. do 6 (split; [assumption|]). split.
    - intros L. destruct (A7 L) as (e' & c & B1 & B2 & B3 & B4 & B5 & B6). exists e', c. repeat split; auto; congruence.
    - apply HE; [|exact A8]. apply nth_error_Some. congruence.
  Qed.
  Lemma sk_rel w w' r : rel w w' -> sk w r -> sk w' r.
  Proof.
    intros (H & _) (o & Ho & Hs). destruct (H r o Ho) as (o' & Ho' & _ & E & _). exists o'. split; [exact Ho'|]. now rewrite E.
  Qed.
  Lemma dm_open w e x : occurs e gs -> dm w e x -> e_action e <> Some ACreate -> open_ref x.
  Proof.
    intros HE (o & k & _ & A2 & _ & _ & _ & A6 & _) NA L. exists k. split; [now apply A6|].
    exists e. split; [exact HE|]. split; [exact NA|exact A2].
  Qed.

  Lemma frame_ad_cls w ad e : frame w -> nth_error (w_ads w) dst = Some ad -> dget (ad_classes ad) (e_type e) = clsof e.
  Proof. intros F E. destruct (fr_ad w F) as [s E']. rewrite E in E'. injection E' as ->. reflexivity. Qed.
  Lemma calm_refl w : calm w w.
  Proof. intros r o Ho. exists o. split; [exact Ho|]. split; [apply obj_rel_refl|]. auto. Qed.
  Lemma same_store_refl w : same_store w w.
  Proof. rewrite <- (set_heap_same w) at 2. apply same_store_heap. Qed.
  Lemma calm_event w ev : calm w (add_event w ev).
  Proof. exact (calm_refl w). Qed.
  Lemma calm_alloc w o : calm w (set_heap w (w_heap w ++ [o])).
  Proof. apply calm_ro. exact (read_only_alloc w o). Qed.

  (** programs made of such steps *)
  Definition quiet {A} (m : M world A) (w : world) : Prop := calm w (fst (m w)) /\ same_store w (fst (m w)).
  Lemma quiet_bind {A B} (m : M world A) (k : A -> M world B) w :
    quiet m w -> (forall a, snd (m w) = Ok a -> quiet (k a) (fst (m w))) -> quiet (bind m k) w.
  Proof.
    unfold quiet, bind. destruct (m w) as [w1 [a|e]]; simpl; intros [C S] H; [|now split].
    destruct (H a eq_refl) as [C' S']. split; [eapply calm_trans; eauto|eapply same_store_trans; eauto].
  Qed.
  Lemma quiet_same {A} (m : M world A) w : fst (m w) = w -> quiet m w.
  Proof. intros E. unfold quiet. rewrite E. split; [apply calm_refl|apply same_store_refl]. Qed.
  Lemma quiet_emit ev w : quiet (emit ev) w.
  Proof. split; [apply calm_event|apply same_store_event]. Qed.
  Lemma hget_fst r w : fst (hget r w) = w.
  Proof. unfold hget. now destruct (nth_error (w_heap w) r). Qed.
  Lemma hget_ok r w o : snd (hget r w) = Ok o -> nth_error (w_heap w) r = Some o.
  Proof. unfold hget. destruct (nth_error (w_heap w) r); [simpl; congruence|discriminate]. Qed.
  Lemma quiet_mutate r f w : (forall o, nth_error (w_heap w) r = Some o ->
      obj_rel o (fst (f o)) /\ o_kids (fst (f o)) = o_kids o /\ (o_vals (fst (f o)) = o_vals o \/ open_ref r)) ->
    quiet (mutate r f) w.
  Proof.
    intros H. unfold mutate. apply quiet_bind; [apply quiet_same, hget_fst|]. intros o Ho. apply hget_ok in Ho.
    rewrite hget_fst. destruct (H o Ho) as (H1 & H2 & H3).
    apply quiet_bind; [|intros [] _; now apply quiet_same].
    split; [|apply same_store_heap]. now apply (calm_set w r o).
  Qed.
  Lemma quiet_status r st msg w : quiet (mutate r (fun o => (set_status o st msg, Ok tt))) w.
  Proof. apply quiet_mutate. intros o _. split; [apply obj_rel_status|]. split; [reflexivity|now left]. Qed.
  Lemma quiet_apply_hook r out w : open_ref r -> quiet (mutate r (fun o => (apply_hook out o, Ok tt))) w.
  Proof.
    intros O. apply quiet_mutate. intros o _. cbn [fst]. pose proof (apply_hook_any out o) as B. pose proof (same_but_uid _ _ _ B) as U.
    destruct B as (B1 & B2 & B3 & _). split; [|split; [exact B2|now right]]. split; [exact B1|]. split; [exact B3|]. split; [exact U|]. now rewrite B2.
  Qed.
  Lemma quiet_end (o : hook_end) (x : option ref) w :
    quiet (match o with HReturn => ret x | HReturnNone => ret None | HRaise e => raise e end) w.
  Proof. apply quiet_same. now destruct o. Qed.
  Lemma quiet_update env x attrs w :
    (forall o, nth_error (w_heap w) x = Some o -> forall k, In k (dkeys attrs) -> ~ In k (c_identifiers (o_cls o))) ->
    open_ref x -> quiet (call_update env x attrs) w.
  Proof.
    intros HI HO. unfold call_update. apply quiet_bind; [now apply quiet_same|]. intros a Ha. injection Ha as <-. simpl fst.
    apply quiet_bind; [apply quiet_same, hget_fst|]. intros o Ho. apply hget_ok in Ho. rewrite hget_fst.
    apply quiet_bind; [apply quiet_emit|]. intros [] _. simpl fst.
    apply quiet_bind.
    - destruct (ho_base _); [|now apply quiet_same]. apply quiet_mutate. intros o' Ho'. simpl in Ho'.
      destruct (update_base_rel o' attrs (HI o' Ho')) as [R K]. auto.
    - intros [] _. apply quiet_bind; [now apply quiet_apply_hook|]. intros [] _. apply quiet_end.
  Qed.
  Lemma quiet_delete env x w : open_ref x -> quiet (call_delete env x) w.
  Proof.
    intros HO. unfold call_delete. apply quiet_bind; [now apply quiet_same|]. intros a Ha. injection Ha as <-. simpl fst.
    apply quiet_bind; [apply quiet_same, hget_fst|]. intros o Ho. rewrite hget_fst.
    apply quiet_bind; [apply quiet_emit|]. intros [] _. simpl fst.
    apply quiet_bind.
    - destruct (ho_base _); [|now apply quiet_same]. apply quiet_status.
    - intros [] _. apply quiet_bind; [now apply quiet_apply_hook|]. intros [] _. apply quiet_end.
  Qed.
  Lemma quiet_create env c ids attrs w : quiet (call_create env c ids attrs) w.
  Proof.
    unfold call_create. apply quiet_bind; [now apply quiet_same|]. intros a Ha. injection Ha as <-. simpl fst.
    apply quiet_bind; [apply quiet_emit|]. intros [] _. simpl fst.
    apply quiet_bind; [|intros r _; apply quiet_end].
    destruct (ho_base _); [|now apply quiet_same].
    apply quiet_bind; [now apply quiet_same|]. intros o _. unfold lift; simpl fst.
    apply quiet_bind; [|intros r _; now apply quiet_same]. split; [apply calm_alloc|apply same_store_heap].
  Qed.
  Lemma quiet_get a m i w : quiet (st_get a m i) w.
  Proof. split; [apply calm_ro, ro_st_get|apply same_store_get]. Qed.
  Lemma quiet_try {A} (m : M world A) p h w : quiet m w -> (forall e, snd (m w) = Err e -> quiet (h e) (fst (m w))) ->
    quiet (try_catch m p h) w.
  Proof.
    unfold quiet, try_catch. destruct (m w) as [w1 [a|e]]; simpl; intros [C S] H; [now split|].
    destruct (p e); [|now split]. destruct (H e eq_refl) as [C' S'].
    split; [eapply calm_trans; eauto|eapply same_store_trans; eauto].
  Qed.
  Lemma quiet_get_or_none a m i w : quiet (ad_get_or_none a m i) w.
  Proof.
    apply quiet_try; [|intros e _; now apply quiet_same].
    apply quiet_bind; [apply quiet_get|]. intros r _. now apply quiet_same.
  Qed.
  Lemma quiet_dst_model env c ids w : quiet (get_dst_model env c ids) w.
  Proof.
    apply quiet_try; [|intros e _; now apply quiet_same].
    apply quiet_bind; [apply quiet_get|]. intros r _. apply quiet_bind; [apply quiet_status|].
    intros [] _. now apply quiet_same.
  Qed.
  Lemma quiet_frame {A} (m : M world A) w : frame w -> quiet m w -> frame (fst (m w)) /\ rel w (fst (m w)).
  Proof. intros F [C S]. now apply frame_calm. Qed.

  (** what is created *)
  Lemma create_result env c ids attrs w x : snd (call_create env c ids attrs w) = Ok (Some x) ->
    x = length (w_heap w) /\ exists o out, create_base c (sv_dst env) ids attrs = Ok o /\
      nth_error (w_heap (fst (call_create env c ids attrs w))) x = Some (apply_hook out o).
  Proof.
    unfold call_create, bind, get_state, emit, modify, lift, halloc, ret, raise.
    destruct (ho_base _).
    - destruct (create_base c (sv_dst env) ids attrs) as [o|]; [|discriminate]. simpl.
      destruct (ho_end _); try discriminate. simpl. intros E; injection E as <-. split; [reflexivity|].
      exists o. eexists. split; [reflexivity|]. rewrite nth_error_app2 by auto. now rewrite Nat.sub_diag.
    - simpl. destruct (ho_end _); discriminate.
  Qed.
  Lemma lists_but X o o' t u : same_but X o o' -> lists o' t u -> lists o t u.
  Proof. intros (B1 & B2 & _). unfold lists. now rewrite B1, B2. Qed.
  Lemma heap_len w : frame w -> len0 <= length (w_heap w).
  Proof.
    intros F. destruct len0 as [|n] eqn:E; [lia|]. destruct (nth_error (w_heap w0) n) as [o|] eqn:En.
    - destruct (fr_old w F n o En) as (o' & Ho' & _). assert (n < length (w_heap w)) by (apply nth_error_Some; congruence). lia.
    - apply nth_error_None in En. lia.
  Qed.
  Lemma names_clsof e c u : clsof e = Some c -> create_unique_id c (e_keys e) = Ok u -> names w0 dst e (c_modelname c, u).
  Proof. intros H1 H2. exists da, c. auto. Qed.
  Lemma created_fresh env e c u w x : frame w -> clsof e = Some c -> create_unique_id c (e_keys e) = Ok u ->
    snd (call_create env c (e_keys e) (plus_attrs e) w) = Ok (Some x) ->
    fresh (fst (call_create env c (e_keys e) (plus_attrs e) w)) e x.
  Proof.
    intros F HC HU H. destruct (create_result _ _ _ _ _ _ H) as (-> & o & st & HB & Ho).
    destruct (create_base_spec _ _ _ _ _ _ HB HU) as (B1 & B2 & B3 & B4 & B5).
    split; [now apply heap_len|]. exists (apply_hook st o), c, u. split; [exact Ho|]. split; [exact HC|].
    pose proof (apply_hook_any st o) as B. pose proof (same_but_uid _ _ _ B) as S3. pose proof B as (S1 & S4 & S2 & _).
    rewrite S1, S2, S3, S4. do 5 (split; [assumption|]).
    intros t y HL. apply (lists_but _ _ _ _ _ B) in HL. now apply B5 in HL.
  Qed.

  Lemma heap_add_child_eq p x w po o : nth_error (w_heap w) p = Some po -> nth_error (w_heap w) x = Some o ->
    heap_add_child p x w = match add_child po o with
                           | Ok po' => (set_heap w (list_set (w_heap w) p po'), Ok tt) | Err e => (w, Err e) end.
  Proof.
    intros H1 H2. unfold heap_add_child. rewrite (bind_eq _ _ _ _ _ (hget_eq _ _ _ H1)). simpl.
    rewrite (bind_eq _ _ _ _ _ (hget_eq _ _ _ H2)). simpl. unfold lift, bind. now destruct (add_child po o).
  Qed.
  Lemma heap_remove_child_eq p x w po o : nth_error (w_heap w) p = Some po -> nth_error (w_heap w) x = Some o ->
    heap_remove_child p x w = match remove_child po o with
                           | Ok po' => (set_heap w (list_set (w_heap w) p po'), Ok tt) | Err e => (w, Err e) end.
  Proof.
    intros H1 H2. unfold heap_remove_child. rewrite (bind_eq _ _ _ _ _ (hget_eq _ _ _ H1)). simpl.
    rewrite (bind_eq _ _ _ _ _ (hget_eq _ _ _ H2)). simpl. unfold lift, bind. now destruct (remove_child po o).
  Qed.

  (** adding *)
  Lemma add_frame w e x p : frame w -> occurs e gs -> e_action e = Some ACreate -> pos w e p -> absent w e -> fresh w e x ->
    let m := (match p with Some p => heap_add_child p x | None => ret tt end ;;; st_add dst x) in
    frame (fst (m w)) /\ rel w (fst (m w)).
  Proof.
    intros F HE HA HP HAB (Lx & o & c & u & Ho & HC & Ec & Ef & HU & Hu & Hk & HL) m.
    pose proof (names_clsof _ _ _ HC HU) as HN. pose proof (HAB _ HN) as ABS. simpl in ABS.
    destruct (fr_reg w F) as [l R].
    assert (HLOC : has_local w dst). { destruct R as (ad & d & L & _). exists ad, d. exact L. }
    assert (NB : newborn (c_modelname c, u) o).
    { exists e, c. do 4 (split; [assumption|]). auto. }
    assert (KIDS : forall t' f, In (t', f) (c_children (o_cls o)) -> dget (o_kids o) f <> None).
    { intros t' f I. rewrite Ec in I. rewrite Hk; [discriminate|]. apply (HKF (e_type e) c HC).
      unfold dvals. apply in_map_iff. exists (t', f). auto. }
    (* the common part: a world whose objects are those of w, except that a parent got the new reference *)
    assert (MAIN : forall w1, (w_ads w1 = w_ads w) ->
       (forall r o, nth_error (w_heap w) r = Some o -> exists o', nth_error (w_heap w1) r = Some o' /\ obj_rel o o' /\
          (forall t' u', lists o' t' u' -> lists o t' u' \/ (t', u') = (c_modelname c, u)) /\
          ((o_vals o' = o_vals o /\ o_kids o' = o_kids o) \/ open_ref r)) ->
       length (w_heap w1) = length (w_heap w) -> get_unique_id o = Ok u -> step w (fst (st_add dst x w1))).
    { intros w1 EADS HH LEN GU.
      destruct (HH x o Ho) as (o1 & Ho1 & OR1 & HL1 & _).
      pose proof OR1 as (C1 & F1 & U1 & K1).
      assert (T1 : get_type o1 = c_modelname c) by (unfold get_type; congruence).
      assert (SLK : forall t' u', lookup w1 dst t' u' = lookup w dst t' u') by (intros; unfold lookup; now rewrite EADS).
      assert (HLOC1 : has_local w1 dst). { destruct HLOC as (ad & d & L1 & L2). exists ad, d. rewrite EADS. auto. }
      assert (R1 : RegOf w1 dst l). { destruct R as (ad & d & [L1 L2] & X). exists ad, d. split; [|exact X]. split; [|exact L2]. now rewrite EADS. }
      destruct (add_absent dst x w1 o1 u HLOC1 Ho1) as (w2 & EQ & A1 & A2 & A3 & A4 & A5 & A6).
      { congruence. } { rewrite SLK, T1. exact ABS. }
      pose proof (exec_spec dst (SAdd x) w1 l R1) as [_ RX]. unfold exec, omap, bind in RX. rewrite EQ in RX. simpl in RX.
      rewrite EQ. simpl fst. rewrite T1 in A1, A2.
      assert (HH2 : forall r o, nth_error (w_heap w) r = Some o -> exists o', nth_error (w_heap w2) r = Some o' /\ obj_rel o o' /\
          (forall t' u', lists o' t' u' -> lists o t' u' \/ (t', u') = (c_modelname c, u)) /\
          ((o_vals o' = o_vals o /\ o_kids o' = o_kids o) \/ open_ref r)).
      { intros r o' Hr. destruct (HH r o' Hr) as (o1' & B1 & B2 & B3 & B4).
        destruct (sba_nth_l _ _ _ _ A3 B1) as (o2' & D1 & D2).
        pose proof D2 as D3. apply sba_fields in D3 as (E1 & E2 & E3 & E4 & _).
        exists o2'. split; [exact D1|]. split; [eapply obj_rel_trans; [exact B2|now apply obj_rel_sba]|]. split.
        - intros t' u' X. apply B3. eapply lists_same; [| |exact X]; congruence.
        - destruct B4 as [[B4 B5]|B4]; [left; split; congruence|now right]. }
      destruct (HH2 x o Ho) as (o2 & Ho2 & (C2 & F2 & U2 & K2) & HL2 & _).
      constructor.
      - intros r o' Hr. destruct (HH2 r o' Hr) as (o2' & D1 & D2 & _). eauto.
      - intros r o' Lr Ho'. destruct (nth_error (w_heap w) r) as [o3|] eqn:Hr; [|apply nth_error_None in Hr; lia].
        destruct (HH2 r o3 Hr) as (o4 & D1 & D2 & D3 & D4). rewrite Ho' in D1. injection D1 as <-.
        exists o3. split; [reflexivity|]. split; [|exact D4]. intros t' u' X. destruct (D3 t' u' X) as [Y|Y]; [now left|].
        right. injection Y as -> ->. eauto.
      - intros [t' u'] r H. simpl in H.
        assert (DK : (t', u') = (c_modelname c, u) \/ (t', u') <> (c_modelname c, u)).
        { destruct (string_dec t' (c_modelname c)) as [E1|E1], (string_dec u' u) as [E2|E2];
            [left; congruence|right; congruence|right; congruence|right; congruence]. }
        destruct DK as [DK|DK].
        + injection DK as -> ->. rewrite A1 in H. injection H as <-. right.
          split; [exact Lx|]. split; [|split].
          * intros o' t' u' y Ho' HLy Hy Ly. rewrite Ho2 in Ho'. injection Ho' as <-.
            destruct (HL2 _ _ HLy) as [Y|Y]; [now apply HL in Y|]. injection Y as -> ->. rewrite A1 in Hy. injection Hy as <-. lia.
          * intros o' t' u' Ho' HLy. rewrite Ho2 in Ho'. injection Ho' as <-.
            destruct (HL2 _ _ HLy) as [Y|Y]; [now apply HL in Y|]. injection Y as -> ->. right; left. rewrite A1. discriminate.
          * exists o2. split; [exact Ho2|]. split; [|split; [|split]].
            -- destruct NB as (e' & c' & N1 & N2 & N3 & N4 & N5 & N6). exists e', c'. repeat split; auto; congruence.
            -- simpl. unfold get_type. congruence.
            -- simpl. congruence.
            -- intros t' f I. rewrite C2 in I. apply K2. eauto.
        + left. rewrite A2, SLK in H by exact DK. exact H.
      - intros [t' u'] r H. left. simpl in *. rewrite A2, SLK; [exact H|]. intros E. injection E as -> ->. congruence.
      - exists (fst (with_key (w_heap w1) l x (fun t0 u0 => match reg_find l t0 u0 with
                       | Some r' => (l, if Nat.eqb r' x then Ok OUnit else Err ObjectAlreadyExists)
                       | None => (l ++ [(t0, u0, x)], Ok OUnit) end))). exact RX.
      - intros ad E. rewrite <- EADS in E. destruct A5 as (_ & _ & _ & A5). exact (A5 ad E). }
    assert (ADDFAIL : get_unique_id o <> Ok u -> fst (st_add dst x w) = w).
    { intros N. unfold st_add, bind. rewrite (hget_eq _ _ _ Ho). unfold lift.
      destruct (get_unique_id o) as [u'|] eqn:G; [|reflexivity]. exfalso. apply N. f_equal. now apply Hu. }
    unfold m. destruct p as [p|].
    - destruct (HP p eq_refl) as (OP & po & Hpo & Cpo).
      destruct (add_child po o) as [po'|] eqn:AC.
      2:{ unfold bind. rewrite (heap_add_child_eq p x w po o Hpo Ho), AC. split; [exact F|apply rel_refl]. }
      unfold bind. rewrite (heap_add_child_eq p x w po o Hpo Ho), AC.
      destruct (add_child_inv _ _ _ AC) as (f & lf & uc & B1 & B2 & B3 & B4 & B5).
      apply frame_step; [exact F|]. apply MAIN.
      + reflexivity.
      + intros r o' Hr. simpl. destruct (Nat.eq_dec r p) as [->|N].
        * rewrite (nth_list_set_eq _ _ _ _ Hpo). rewrite Hpo in Hr. injection Hr as <-. exists po'. split; [reflexivity|].
          split; [|split; [|now right]].
          -- rewrite B5. split; [reflexivity|]. split; [reflexivity|]. split; [apply get_unique_id_kids|].
             intros f' X. simpl. rewrite dget_dset. destruct (String.eqb f' f); [discriminate|exact X].
          -- intros t' u' X. destruct (add_child_lists _ _ _ _ _ AC (HOWN _ Cpo) X) as [Y|[Y1 Y2]]; [now left|].
             right. apply Hu in Y2. subst u' t'. unfold get_type. now rewrite Ec.
        * rewrite nth_list_set_neq by exact N. exists o'. split; [exact Hr|]. split; [apply obj_rel_refl|]. auto.
      + simpl. apply list_set_length.
      + rewrite B3. f_equal. now apply Hu.
    - unfold bind, ret. destruct (get_unique_id o) as [u'|] eqn:G.
      + pose proof (Hu u' eq_refl) as ->. apply frame_step; [exact F|]. apply MAIN; auto.
        intros r o' Hr. exists o'. split; [exact Hr|]. split; [apply obj_rel_refl|]. auto.
      + rewrite ADDFAIL by discriminate. split; [exact F|apply rel_refl].
  Qed.

  (** removing *)
  Lemma remove_step w e x fuel b : frame w -> occurs e gs -> e_action e = Some ADelete -> dm w e x ->
    (b = true -> sk w x) -> step w (fst (st_remove fuel dst x b w)).
  Proof.
    intros F HE HA (o & k & D1 & D2 & D3 & D4 & D5 & D6 & D7 & D8) HS.
    destruct (fr_reg w F) as [l R].
    destruct (remove_any dst fuel w l x o (fst k) (snd k) b R (fr_keyed w F) D1 D3 D4) as (l' & [SR SS SH SF ST] & G & _).
    set (w' := fst (st_remove fuel dst x b w)) in *.
    assert (MEN : mentioned w0 dst gs is_delete_act k) by (exists e; auto).
    assert (GONE : forall k' r, lk w k' = Some r -> lk w' k' = None ->
      (r < len0 -> doomed w0 dst gs k') /\ (mentioned w0 dst gs is_delete_act k' \/ cascading)).
    { intros k' r H1 H2. rewrite (RegOf_lookup _ _ _ _ _ R) in H1. rewrite (RegOf_lookup _ _ _ _ _ SR) in H2.
      assert (GN : gone l l' k') by (split; congruence). apply G in GN.
      destruct GN as [GN|(Eb & t1 & u1 & GL & GP & GR)].
      - assert (k' = k) by (now destruct k). subst k'. split; [intros _; now left|now left].
      - destruct (HS Eb) as (o' & Ho' & SK). rewrite D1 in Ho'. injection Ho' as <-. split.
        + intros Lr. rewrite <- (RegOf_lookup _ _ _ _ _ R) in H1.
          destruct (reaches_back w _ _ F GR r H1 Lr) as (r1 & E1 & L1 & RB).
          destruct (D8 o t1 u1 r1 D1 GL E1 L1) as [Lx (o0 & Ho0 & (f0 & l0 & B1 & B2 & B3))].
          right. exists k, x, o0. split; [exact MEN|]. split; [now apply D6|]. split; [exact Ho0|]. split.
          * destruct (fr_old w F x o0 Ho0) as (o1 & Ho1 & _ & EF). rewrite D1 in Ho1. injection Ho1 as <-. now rewrite <- EF.
          * eapply reach_step; [|exact RB]. exists x, o0, f0, l0. split; [now apply D6|]. repeat split; auto.
            pose proof (fr_orig w F (t1, u1) r1 E1 L1) as X. simpl in X |- *. rewrite X. discriminate.
        + right. exists k. split; [exact MEN|]. destruct (Nat.lt_ge_cases x len0) as [Lx|Lx].
          * left. pose proof (D6 Lx) as E0. destruct (HK0 _ _ _ E0) as (o0 & Ho0 & _). exists x, o0.
            split; [exact E0|]. split; [exact Ho0|].
            destruct (fr_old w F x o0 Ho0) as (o1 & Ho1 & _ & EF). rewrite D1 in Ho1. injection Ho1 as <-. now rewrite <- EF.
          * right. exists o. split; [now apply D7|exact SK]. }
    constructor.
    - now apply hrel_sba.
    - intros r o' Lr Ho'. destruct (sba_nth _ _ _ _ SH Ho') as (o1 & Ho1 & E).
      pose proof E as E'. apply sba_fields in E' as (E1 & E2 & E3 & E4 & _). exists o1. split; [exact Ho1|]. split.
      + intros t u HL. left. eapply lists_same; [| |exact HL]; congruence.
      + left. split; congruence.
    - intros k' r H. left. rewrite (RegOf_lookup _ _ _ _ _ SR) in H. rewrite (RegOf_lookup _ _ _ _ _ R).
      eapply subreg_find; [exact (RegOf_nodup _ _ _ R)|exact SS|exact H].
    - intros k' r H. destruct (lk w' k') as [r'|] eqn:E.
      + left. assert (lk w k' = Some r') as X.
        { rewrite (RegOf_lookup _ _ _ _ _ SR) in E. rewrite (RegOf_lookup _ _ _ _ _ R).
          eapply subreg_find; [exact (RegOf_nodup _ _ _ R)|exact SS|exact E]. }
        congruence.
      + right. split; [reflexivity|]. exact (GONE k' r H E).
    - eauto.
    - destruct SF as (_ & _ & _ & SF). exact SF.
  Qed.

  Lemma remove_frame w e x p fuel b : frame w -> occurs e gs -> e_action e = Some ADelete -> pos w e p -> dm w e x ->
    (b = true -> sk w x) ->
    let m := (match p with Some p => heap_remove_child p x | None => ret tt end ;;; st_remove fuel dst x b) in
    frame (fst (m w)) /\ rel w (fst (m w)).
  Proof.
    intros F HE HA HP HD HS m. unfold m. destruct p as [p|].
    - destruct (HP p eq_refl) as (OP & po & Hpo & Cpo).
      pose proof HD as (o & k & Ho & _).
      pose proof (heap_remove_child_eq p x w po o Hpo Ho) as EQ. unfold bind. rewrite EQ.
      destruct (remove_child po o) as [po'|] eqn:RC; [|split; [exact F|apply rel_refl]].
      destruct (remove_child_inv _ _ _ RC) as (f & lf & uc & B1 & B2 & B3 & B4 & B5).
      assert (ST : step w (set_heap w (list_set (w_heap w) p po'))).
      { eapply step_drop; eauto.
        - rewrite B5. split; [reflexivity|]. split; [reflexivity|]. split; [apply get_unique_id_kids|].
          intros f' X. simpl. rewrite dget_dset. destruct (String.eqb f' f); [discriminate|exact X].
        - intros t u X. eapply remove_child_lists; eauto. }
      destruct (frame_step _ _ F ST) as [F1 R1].
      destruct (frame_step _ _ F1 (remove_step _ e x fuel b F1 HE HA (dm_rel _ _ _ _ R1 HD)
                (fun E => sk_rel _ _ _ R1 (HS E)))) as [F2 R2].
      split; [exact F2|eapply rel_trans; eauto].
    - unfold bind, ret. apply frame_step; [exact F|]. exact (remove_step w e x fuel b F HE HA HD HS).
  Qed.

  Lemma frame_rules env : sv_dst env = dst ->
    sync_rules env (fun e => occurs e gs) clsof frame rel pos absent fresh dm sk.
  Proof.
    intros ED.
    assert (QF : forall A (m : M world A) w, frame w -> quiet m w -> let (w', r) := m w in frame w' /\ rel w w').
    { intros A m w F Q. pose proof (quiet_frame m w F Q) as H. now destruct (m w). }
    constructor.
    - exact rel_refl.
    - exact rel_trans.
    - intros w w' e p. apply pos_rel.
    - intros w w' e r. apply dm_rel.
    - intros w w' r. apply sk_rel.
    - intros w r o F Ho HF. exists o. split; [exact Ho|now apply skip_bit].
    - intros w ad e F _ E. rewrite ED in E. eapply frame_ad_cls; eauto.
    - intros w ev F _. exact (quiet_frame (emit ev) w F (quiet_emit ev w)).
    - intros w ev e H. exact H.
    - intros w ev e r H. exact H.
    - intros e k HE HK. eapply occurs_kid; eauto.
    - intros w e c F HE HC. cbv zeta. apply quiet_frame; [exact F|apply quiet_get_or_none].
    - intros w e c u F HE HC HU.
      pose proof (QF _ (get_dst_model env c (e_keys e)) w F (quiet_dst_model env c (e_keys e) w)) as H.
      pose proof (fr_reg w F) as [l R]. pose proof R as (ad & d & L & _).
      pose proof (st_get_cases dst c (e_keys e) u w ad d L HU) as G.
      pose proof (names_clsof _ _ _ HC HU) as HN.
      assert (SS : same_store w (fst (get_dst_model env c (e_keys e) w))) by apply quiet_dst_model.
      pose proof (same_store_lookup _ _ (fr_reg w F) SS) as SL.
      destruct (get_dst_model env c (e_keys e) w) as [w' r] eqn:EG. destruct H as [F' R'].
      split; [exact F'|]. split; [exact R'|]. simpl in SL.
      unfold get_dst_model, try_catch, bind in EG. rewrite ED, G in EG.
      destruct (lookup w dst (c_modelname c) u) as [x|] eqn:EL.
      + destruct (mutate x _ _) as [w2 [[]|e2]] eqn:EM.
        * unfold ret in EG. injection EG as <- <-.
          pose proof (SL (c_modelname c) u) as EL2. rewrite EL in EL2.
          destruct (fr_keyed w2 F' _ _ _ EL2) as (o & Ho & Ht & Hu & _).
          exists o, (c_modelname c, u). split; [exact Ho|]. split; [exact HN|]. split; [exact Ht|]. split; [exact Hu|].
          split; [exact (frame_cls w2 (c_modelname c, u) x o F' EL2 Ho)|].
          split; [exact (fr_orig w2 F' (c_modelname c, u) x EL2)|].
          split; [intros LL; exact (fr_new w2 F' (c_modelname c, u) x o EL2 LL Ho)|].
          exact (fr_edges w2 F' (c_modelname c, u) x EL2).
        * exfalso. unfold mutate, bind in EM. destruct (fr_keyed w F _ _ _ EL) as (o & Ho & _).
          rewrite <- (upd_store_heap w dst (SLocal (touch d (c_modelname c)))) in Ho. rewrite (hget_eq _ _ _ Ho) in EM.
          unfold hset, modify, lift in EM. discriminate.
      + simpl in EG. injection EG as <- <-. intros k HK. rewrite (names_fun _ _ _ HK HN). simpl. now rewrite SL.
    - intros w e c u F HE HC HU HA HAB.
      pose proof (QF _ (call_create env c (e_keys e) (plus_attrs e)) w F (quiet_create env c (e_keys e) (plus_attrs e) w)) as H.
      pose proof (created_fresh env e c u w) as CF.
      assert (SS : same_store w (fst (call_create env c (e_keys e) (plus_attrs e) w))) by apply quiet_create.
      pose proof (same_store_lookup _ _ (fr_reg w F) SS) as SL.
      destruct (call_create env c (e_keys e) (plus_attrs e) w) as [w' r]. destruct H as [F' R']. simpl in CF, SL.
      split; [exact F'|]. split; [exact R'|]. destruct r as [[x|]|]; auto. split.
      + intros k HK. rewrite SL. now apply HAB.
      + now apply CF.
    - intros w e x F HE HD NA.
      apply QF; [exact F|]. apply quiet_update; [|eapply dm_open; eauto].
      destruct HD as (o & k & D1 & D2 & D3 & D4 & D5 & _). intros o' Ho' y Hy. rewrite D1 in Ho'. injection Ho' as <-.
      destruct (plus_attrs_keys e y Hy) as (s & Es & Is).
      destruct D2 as (ad & ce & N1 & N2 & N3 & N4). eapply (HIDS e ad ce (o_cls o) s y); eauto.
      unfold get_type in D3. congruence.
    - intros w e x F HE HD HA. apply QF; [exact F|]. apply quiet_delete. eapply dm_open; eauto; congruence.
    - intros w e p x b F HE HA HP HAB HF. unfold apply_to_store. rewrite ED.
      pose proof (add_frame w e x p F HE HA HP HAB HF) as H. cbv zeta in H.
      assert (EQ : (match p with Some p0 => heap_add_child p0 x | None => ret tt end;;; st_add dst x;;; ret false) w =
        let (w', r) := (match p with Some p0 => heap_add_child p0 x | None => ret tt end;;; st_add dst x) w in
        (w', match r with Ok _ => Ok false | Err e => Err e end)).
      { unfold bind. destruct (match p with Some p0 => heap_add_child p0 x | None => ret tt end w) as [w1 [[]|]]; [|reflexivity].
        destruct (st_add dst x w1) as [w2 [[]|]]; reflexivity. }
      rewrite EQ. destruct ((_;;; st_add dst x) w) as [w' r]. simpl in H. destruct H as [F' R'].
      split; [exact F'|]. split; [exact R'|]. intros a _ k HK r' Er. injection Er as <-.
      destruct HF as (Lx & o & c & u & Ho & HC & Ec & _). split; [intros Lx'; lia|].
      destruct (proj1 R' x o Ho) as (o' & Ho' & E1 & _). exists o'. split; [exact Ho'|]. rewrite E1, Ec.
      left. exists da, (e_type e). auto.
    - intros w e p x b F HE HA HP HD HS. unfold apply_to_store. rewrite ED.
      pose proof (remove_frame w e x p (sv_fuel env) b F HE HA HP HD HS) as H. cbv zeta in H.
      assert (EQ : (match p with Some p0 => heap_remove_child p0 x | None => ret tt end;;; st_remove (sv_fuel env) dst x b;;; ret b) w =
        let (w', r) := (match p with Some p0 => heap_remove_child p0 x | None => ret tt end;;; st_remove (sv_fuel env) dst x b) w in
        (w', match r with Ok _ => Ok b | Err e => Err e end)).
      { unfold bind. destruct (match p with Some p0 => heap_remove_child p0 x | None => ret tt end w) as [w1 [[]|]]; [|reflexivity].
        destruct (st_remove (sv_fuel env) dst x b w1) as [w2 [[]|]]; reflexivity. }
      rewrite EQ. destruct ((_;;; st_remove (sv_fuel env) dst x b) w) as [w' r]. exact H.
    - intros w e x k F HE HD NA HK r Er. injection Er as <-. split; [eapply dm_open; eauto|].
      destruct HD as (o & k' & D1 & _ & _ & _ & D5 & _). eauto.
  Qed.
End Frame.
