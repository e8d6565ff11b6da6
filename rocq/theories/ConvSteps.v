(** * ConvSteps: the single steps of a synchronisation into a LocalStore that succeed,
    and what each of them changes. *)
From Verif Require Export FromMore.

Definition key : Type := (string * string)%type.
Definition look (w : world) (a : aid) (k : key) : option ref := lookup w a (fst k) (snd k).

(** [m], started in [s], ends normally *)
Definition ends {S A} (m : M S A) (s : S) (Q : S -> A -> Prop) : Prop :=
  exists s' a, m s = (s', Ok a) /\ Q s' a.

Lemma ends_ret {S A} (a : A) (s : S) (Q : S -> A -> Prop) : Q s a -> ends (ret a) s Q.
Proof. intros H. exists s, a. split; [reflexivity|exact H]. Qed.
Lemma ends_bind {S A B} (m : M S A) (k : A -> M S B) s Q :
  ends m s (fun s' a => ends (k a) s' Q) -> ends (bind m k) s Q.
Proof.
  intros (s1 & a & E & s2 & b & E2 & H). exists s2, b. split; [|exact H]. unfold bind. now rewrite E.
Qed.
Lemma ends_eq {S A} (m : M S A) s s' a (Q : S -> A -> Prop) : m s = (s', Ok a) -> Q s' a -> ends m s Q.
Proof. intros E H. now exists s', a. Qed.
Lemma ends_weak {S A} (m : M S A) s (Q Q' : S -> A -> Prop) : ends m s Q -> (forall s' a, Q s' a -> Q' s' a) -> ends m s Q'.
Proof. intros (s' & a & E & H) F. exists s', a. auto. Qed.
Lemma ends_slift {A} (m : M world A) s Q : ends m (ss_w s) (fun w a => Q (set_ss_w s w) a) -> ends (slift m) s Q.
Proof. intros (w & a & E & H). exists (set_ss_w s w), a. split; [|exact H]. unfold slift. now rewrite E. Qed.
Lemma ends_lift {S A} (r : result A) (s : S) a (Q : S -> A -> Prop) : r = Ok a -> Q s a -> ends (lift r) s Q.
Proof. intros -> H. now exists s, a. Qed.
Lemma ends_modify {S} (f : S -> S) s (Q : S -> unit -> Prop) : Q (f s) tt -> ends (modify f) s Q.
Proof. intros H. now exists (f s), tt. Qed.
Lemma ends_get {S} (s : S) (Q : S -> S -> Prop) : Q s s -> ends get_state s Q.
Proof. intros H. now exists s, s. Qed.
Lemma ends_try {S A} (m : M S A) p h s Q : ends m s Q -> ends (try_catch m p h) s Q.
Proof. intros (s' & a & E & H). exists s', a. split; [|exact H]. unfold try_catch. now rewrite E. Qed.

Lemma nth_error_Some_lt {A} (l : list A) n x : nth_error l n = Some x -> n < length l.
Proof. intros H. apply nth_error_Some. congruence. Qed.
Lemma same_data_refl o : same_data o o.
Proof. repeat split. Qed.
Lemma same_data_trans a b c : same_data a b -> same_data b c -> same_data a c.
Proof. intros (A1 & A2 & A3 & A4) (B1 & B2 & B3 & B4). repeat split; congruence. Qed.
Lemma same_data_uid o o' : same_data o o' -> get_unique_id o' = get_unique_id o.
Proof. intros (A1 & A2 & A3 & A4). now apply uid_fields. Qed.
Lemma same_data_status o st msg : same_data o (set_status o st msg).
Proof. repeat split. Qed.
Lemma same_data_apply o x : same_data o (apply_status x o).
Proof. destruct x as [[st msg]|]; repeat split. Qed.
Lemma same_data_sba o o' : set_o_adapter o None = set_o_adapter o' None -> same_data o o'.
Proof. intros H. apply sba_fields in H as (E1 & E2 & E3 & E4 & _). repeat split; congruence. Qed.
Lemma same_data_type o o' : same_data o o' -> get_type o' = get_type o.
Proof. intros (A1 & _). unfold get_type. now rewrite A1. Qed.

Section Steps.
  Variable dst : aid.
  Variable da : adapter.

  Definition good (w : world) : Prop :=
    local_ok w dst /\ keyed w dst /\ exists s, nth_error (w_ads w) dst = Some (set_ad_store da s).

  (** only the cells of the keys [T], the object [P] and new objects differ *)
  Record moved (T : key -> Prop) (P : option ref) (w w' : world) : Prop := mkMoved {
    mv_redis : w_redis w' = w_redis w;
    mv_other : forall b ad, b <> dst -> nth_error (w_ads w) b = Some ad ->
      exists s', nth_error (w_ads w') b = Some (set_ad_store ad s') /\ store_ext (ad_store ad) s';
    mv_len : length (w_heap w) <= length (w_heap w');
    mv_look : forall k, ~ T k -> look w' dst k = look w dst k;
    mv_new : forall k r, look w' dst k = Some r -> look w dst k = Some r \/ length (w_heap w) <= r;
    mv_heap : forall r o, nth_error (w_heap w) r = Some o -> (forall k, T k -> look w dst k <> Some r) -> P <> Some r ->
      exists o', nth_error (w_heap w') r = Some o' /\ same_data o o'
  }.

  Lemma set_ad_same ad : set_ad_store ad (ad_store ad) = ad.
  Proof. now destruct ad. Qed.

  Lemma moved_refl T P w : moved T P w w.
  Proof.
    constructor; auto.
    - intros b ad N E. exists (ad_store ad). rewrite set_ad_same. split; [exact E|apply store_ext_refl].
    - intros r o H _ _. exists o. split; [exact H|apply same_data_refl].
  Qed.
  Lemma moved_trans T P w1 w2 w3 : moved T P w1 w2 -> moved T P w2 w3 -> moved T P w1 w3.
  Proof.
    intros A B. constructor.
    - rewrite (mv_redis _ _ _ _ B). apply (mv_redis _ _ _ _ A).
    - intros b ad N E. destruct (mv_other _ _ _ _ A b ad N E) as (s1 & E1 & X1).
      destruct (mv_other _ _ _ _ B b _ N E1) as (s2 & E2 & X2). exists s2. split; [exact E2|].
      eapply store_ext_trans; eauto.
    - pose proof (mv_len _ _ _ _ A). pose proof (mv_len _ _ _ _ B). lia.
    - intros k N. rewrite (mv_look _ _ _ _ B k N). now apply (mv_look _ _ _ _ A).
    - intros k r E. pose proof (mv_len _ _ _ _ A). destruct (mv_new _ _ _ _ B k r E) as [E'|E']; [|right; lia].
      apply (mv_new _ _ _ _ A k r E').
    - intros r o H N NP. destruct (mv_heap _ _ _ _ A r o H N NP) as (o1 & H1 & D1).
      destruct (mv_heap _ _ _ _ B r o1 H1) as (o2 & H2 & D2); [|exact NP|].
      + intros k HT E. destruct (mv_new _ _ _ _ A k r E) as [E'|E']; [now apply (N k HT)|].
        apply nth_error_Some_lt in H. lia.
      + exists o2. split; [exact H2|]. eapply same_data_trans; eauto.
  Qed.
  Lemma moved_weak (T T' : key -> Prop) (P P' : option ref) w w' : (forall k, T k -> T' k) -> (forall r, P = Some r -> P' = Some r) ->
    moved T P w w' -> moved T' P' w w'.
  Proof.
    intros HT HP A. constructor; try apply A.
    - intros k N. apply (mv_look _ _ _ _ A). auto.
    - intros r o H N NP. apply (mv_heap _ _ _ _ A r o H); [auto|]. intros X. apply NP. now apply HP.
  Qed.
  (** [P] was the object of a key of [T] *)
  Lemma moved_inner (T : key -> Prop) (P : option ref) k r w w' : T k -> look w dst k = Some r ->
    moved T (Some r) w w' -> moved T P w w'.
  Proof.
    intros HT E A. constructor; try apply A.
    intros r' o H N NP. apply (mv_heap _ _ _ _ A r' o H N). intros X. injection X as <-. now apply (N k HT).
  Qed.
  (** [P] did not exist *)
  Lemma moved_fresh (T : key -> Prop) (P : option ref) r w w' : length (w_heap w) <= r ->
    moved T (Some r) w w' -> moved T P w w'.
  Proof.
    intros LE A. constructor; try apply A.
    intros r' o H N NP. apply (mv_heap _ _ _ _ A r' o H N). intros X. injection X as <-.
    apply nth_error_Some_lt in H. lia.
  Qed.

  Lemma moved_gen (T : key -> Prop) (P P2 : option ref) w1 w2 w3 : moved T P w1 w2 -> moved T P2 w2 w3 ->
    (forall x, P2 = Some x -> nth_error (w_heap w1) x <> None -> P = Some x \/ exists k, T k /\ look w1 dst k = Some x) ->
    moved T P w1 w3.
  Proof.
    intros A B C. constructor.
    - rewrite (mv_redis _ _ _ _ B). apply (mv_redis _ _ _ _ A).
    - intros b ad N E. destruct (mv_other _ _ _ _ A b ad N E) as (s1 & E1 & X1).
      destruct (mv_other _ _ _ _ B b _ N E1) as (s2 & E2 & X2). exists s2. split; [exact E2|].
      eapply store_ext_trans; eauto.
    - pose proof (mv_len _ _ _ _ A). pose proof (mv_len _ _ _ _ B). lia.
    - intros k N. rewrite (mv_look _ _ _ _ B k N). now apply (mv_look _ _ _ _ A).
    - intros k r E. pose proof (mv_len _ _ _ _ A). destruct (mv_new _ _ _ _ B k r E) as [E'|E']; [|right; lia].
      apply (mv_new _ _ _ _ A k r E').
    - intros r o H N NP. destruct (mv_heap _ _ _ _ A r o H N NP) as (o1 & H1 & D1).
      destruct (mv_heap _ _ _ _ B r o1 H1) as (o2 & H2 & D2).
      + intros k HT E. destruct (mv_new _ _ _ _ A k r E) as [E'|E']; [now apply (N k HT)|].
        apply nth_error_Some_lt in H. lia.
      + intros X. destruct (C r X) as [Y|(k & Tk & Y)]; [congruence|contradiction|now apply (N k Tk)].
      + exists o2. split; [exact H2|]. eapply same_data_trans; eauto.
  Qed.

  Lemma good_event w ev : good w -> good (add_event w ev).
  Proof.
    intros (A & B & C). split; [|split].
    - exact A.
    - exact B.
    - exact C.
  Qed.
  Lemma moved_event T P w ev : moved T P w (add_event w ev).
  Proof. pose proof (moved_refl T P w) as M. constructor; apply M. Qed.

  Lemma look_ro w w' k : read_only w w' -> look w' dst k = look w dst k.
  Proof. intros R. now apply read_only_lookup. Qed.
  Lemma moved_ro T P w w' : read_only w w' -> moved T P w w'.
  Proof.
    intros R. constructor.
    - apply R.
    - intros b ad _ E. destruct (read_only_ad _ _ _ _ R E) as (s' & E' & X). now exists s'.
    - now apply read_only_length.
    - intros k _. now apply look_ro.
    - intros k r E. left. rewrite <- (look_ro _ _ k R). exact E.
    - intros r o H _ _. exists o. split; [eapply read_only_nth; eauto|apply same_data_refl].
  Qed.
  Lemma good_ro w w' : read_only w w' -> good w -> good w'.
  Proof.
    intros R (A & B & s & C). split; [|split].
    - destruct A as (ad & d & E1 & E2 & ND & HB). destruct (read_only_ad _ _ _ _ R E1) as (s' & E' & X).
      rewrite E2 in X. destruct s' as [d'|]; [|destruct X]. destruct X as (names & X1 & X2).
      exists (set_ad_store ad (SLocal d')), d'. split; [exact E'|]. split; [reflexivity|]. split; [auto|].
      intros m b I. rewrite X1 in I. apply in_app_iff in I as [I|I]; [eauto|].
      apply in_map_iff in I as (x & E & _). injection E as <- <-. constructor.
    - intros t u r E. rewrite (read_only_lookup _ _ dst t u R) in E. destruct (B t u r E) as (o & H & X).
      exists o. split; [eapply read_only_nth; eauto|exact X].
    - destruct (read_only_ad _ _ _ _ R C) as (s' & E' & _). exists s'. exact E'.
  Qed.

  (** an object is changed in place *)
  Lemma good_set w r o o' : good w -> nth_error (w_heap w) r = Some o -> obj_rel o o' ->
    good (set_heap w (list_set (w_heap w) r o')).
  Proof.
    intros (A & B & C) H R. split; [exact A|]. split; [|exact C].
    intros t u x E. change (lookup w dst t u = Some x) in E. destruct (B t u x E) as (ox & Hx & X1 & X2 & X3).
    destruct (hrel_set w r o o' H R x ox Hx) as (ox' & Hx' & Y1 & Y2 & Y3 & Y4). exists ox'. split; [exact Hx'|].
    unfold get_type in *. rewrite Y1, Y3. split; [exact X1|]. split; [exact X2|]. intros t' f I. apply Y4. eauto.
  Qed.
  Lemma moved_set (T : key -> Prop) P w r o' : (exists k, T k /\ look w dst k = Some r) \/ P = Some r ->
    moved T P w (set_heap w (list_set (w_heap w) r o')).
  Proof.
    intros Q. constructor; simpl; auto.
    - intros b ad _ E. exists (ad_store ad). rewrite set_ad_same. split; [exact E|apply store_ext_refl].
    - rewrite list_set_length. lia.
    - intros x o H N NP. exists o. split; [|apply same_data_refl]. rewrite nth_list_set_neq; [exact H|].
      intros ->. destruct Q as [(k & Tk & E)|E]; [now apply (N k Tk)|contradiction].
  Qed.
  (** an object without a key is changed *)
  Lemma moved_set_new (T : key -> Prop) P w w1 r o' : moved T P w w1 -> length (w_heap w) <= r ->
    moved T P w (set_heap w1 (list_set (w_heap w1) r o')).
  Proof.
    intros A LE. constructor; try apply A.
    - simpl. rewrite list_set_length. apply A.
    - intros x o H N NP. destruct (mv_heap _ _ _ _ A x o H N NP) as (o1 & H1 & D). exists o1. split; [|exact D].
      simpl. rewrite nth_list_set_neq; [exact H1|]. intros ->. apply nth_error_Some_lt in H. lia.
  Qed.

  (** a new object *)
  Lemma good_alloc w o : good w -> good (set_heap w (w_heap w ++ [o])).
  Proof.
    intros (A & B & C). split; [exact A|]. split; [|exact C].
    intros t u x E. change (lookup w dst t u = Some x) in E. destruct (B t u x E) as (ox & Hx & X).
    exists ox. split; [|exact X]. simpl. rewrite nth_error_app1; [exact Hx|]. now apply nth_error_Some_lt in Hx.
  Qed.
  Lemma moved_alloc T P w o : moved T P w (set_heap w (w_heap w ++ [o])).
  Proof.
    constructor; simpl; auto.
    - intros b ad _ E. exists (ad_store ad). rewrite set_ad_same. split; [exact E|apply store_ext_refl].
    - rewrite app_length. lia.
    - intros x ox H _ _. exists ox. split; [|apply same_data_refl]. rewrite nth_error_app1; [exact H|].
      now apply nth_error_Some_lt in H.
  Qed.

  (** storing a new object *)
  Lemma add_step (T : key -> Prop) P w w1 r o u : good w1 -> moved T P w w1 -> length (w_heap w) <= r ->
    nth_error (w_heap w1) r = Some o -> get_unique_id o = Ok u ->
    (forall t f, In (t, f) (c_children (o_cls o)) -> dget (o_kids o) f <> None) ->
    lookup w1 dst (get_type o) u = None -> T (get_type o, u) ->
    exists w2, st_add dst r w1 = (w2, Ok tt) /\ good w2 /\ moved T P w w2 /\
      lookup w2 dst (get_type o) u = Some r /\ (forall k, k <> (get_type o, u) -> look w2 dst k = look w1 dst k) /\
      length (w_heap w2) = length (w_heap w1) /\
      (forall x ox, nth_error (w_heap w1) x = Some ox -> exists ox', nth_error (w_heap w2) x = Some ox' /\ same_data ox ox').
  Proof.
    intros (LO & K & s & AD) M LE Ho Hu KF F HT. destruct (local_ok_RegOf _ _ LO) as [l R].
    pose proof R as (ad & d & L & ND & NL & HB).
    assert (HL : has_local w1 dst) by (exists ad, d; exact L).
    destruct (add_absent dst r w1 o u HL Ho Hu F) as (w2 & E & L1 & L2 & SB & HO & FR & TR).
    destruct FR as (FR1 & FR2 & FR3 & FR4).
    assert (D2 : forall x ox, nth_error (w_heap w1) x = Some ox -> exists ox', nth_error (w_heap w2) x = Some ox' /\ same_data ox ox').
    { intros x ox Hx. destruct (sba_nth_l _ _ _ _ SB Hx) as (ox' & Hx' & EQ). exists ox'. split; [exact Hx'|].
      now apply same_data_sba. }
    assert (HLN : length (w_heap w2) = length (w_heap w1)) by (symmetry; eapply Forall2_length'; exact SB).
    exists w2. split; [exact E|]. split; [|split; [|split; [exact L1|split; [|split; [exact HLN|exact D2]]]]].
    - split; [|split].
      + rewrite (st_add_local _ _ _ _ _ _ _ L Ho Hu) in E. rewrite <- (lookup_local _ _ _ _ _ _ L), F in E.
        cbv zeta in E. injection E as E. rewrite <- E. eapply RegOf_local_ok.
        apply (RegOf_touch _ _ _ _ _ (get_type o) R) in L as R1.
        pose proof (RegOf_attach _ _ _ r o R1) as R2.
        pose proof (is_local_attach _ _ _ _ r o dst (is_local_upd _ _ _ _ (touch d (get_type o)) L)) as L3.
        pose proof (RegOf_put _ _ _ _ _ (get_type o) u r R2 L3) as R3. rewrite touch_dset, touch_bucket in R3. exact R3.
      + intros t x r' E'. destruct (string_dec t (get_type o)) as [Et|Et]; [destruct (string_dec x u) as [Ex|Ex]|].
        * subst t x. rewrite L1 in E'. injection E' as <-. destruct (D2 r o Ho) as (o' & Ho' & D). exists o'.
          split; [exact Ho'|]. rewrite (same_data_type _ _ D), (same_data_uid _ _ D). split; [reflexivity|]. split; [exact Hu|].
          destruct D as (-> & _ & -> & _). exact KF.
        * rewrite L2 in E' by congruence. destruct (K t x r' E') as (o1 & H1 & X1 & X2 & X3).
          destruct (D2 r' o1 H1) as (o' & Ho' & D). exists o'. split; [exact Ho'|].
          rewrite (same_data_type _ _ D), (same_data_uid _ _ D). split; [exact X1|]. split; [exact X2|].
          destruct D as (-> & _ & -> & _). exact X3.
        * rewrite L2 in E' by congruence. destruct (K t x r' E') as (o1 & H1 & X1 & X2 & X3).
          destruct (D2 r' o1 H1) as (o' & Ho' & D). exists o'. split; [exact Ho'|].
          rewrite (same_data_type _ _ D), (same_data_uid _ _ D). split; [exact X1|]. split; [exact X2|].
          destruct D as (-> & _ & -> & _). exact X3.
      + destruct (FR4 _ AD) as (s' & E'). exists s'. exact E'.
    - constructor.
      + rewrite FR1. apply M.
      + intros b adb N Eb. rewrite FR3 by exact N. now apply (mv_other _ _ _ _ M).
      + rewrite HLN. apply M.
      + intros k N. unfold look. rewrite L2; [now apply (mv_look _ _ _ _ M)|]. intros X. apply N. rewrite <- surjective_pairing in X. now rewrite X.
      + intros [t x] r' E'. unfold look in E'. simpl in E'.
        destruct (string_dec t (get_type o)) as [Et|Et]; [destruct (string_dec x u) as [Ex|Ex]|].
        * subst t x. rewrite L1 in E'. injection E' as <-. now right.
        * rewrite L2 in E' by congruence. apply (mv_new _ _ _ _ M (t, x) r' E').
        * rewrite L2 in E' by congruence. apply (mv_new _ _ _ _ M (t, x) r' E').
      + intros x ox H N NP. destruct (mv_heap _ _ _ _ M x ox H N NP) as (o1 & H1 & D1).
        destruct (D2 x o1 H1) as (o2 & H2 & D). exists o2. split; [exact H2|]. eapply same_data_trans; eauto.
    - intros k N. unfold look. apply L2. rewrite <- surjective_pairing. exact N.
  Qed.

  (** removing an object, alone *)
  Lemma remove_step fuel w r o t u : good w -> lookup w dst t u = Some r -> nth_error (w_heap w) r = Some o -> fuel <> 0 ->
    exists w2, st_remove fuel dst r false w = (w2, Ok tt) /\ good w2 /\ moved (fun k => k = (t, u)) None w w2 /\
      lookup w2 dst t u = None /\ length (w_heap w2) = length (w_heap w) /\
      (forall x ox, nth_error (w_heap w) x = Some ox -> exists ox', nth_error (w_heap w2) x = Some ox' /\ same_data ox ox').
  Proof.
    intros (LO & K & s & AD) F Ho NF. destruct (local_ok_RegOf _ _ LO) as [l R].
    destruct (K t u r F) as (o' & Ho' & Ht & Hu & _). rewrite Ho in Ho'. injection Ho' as <-.
    destruct (remove_any dst fuel w l r o t u false R K Ho Ht Hu) as (l' & SH & G & _ & _ & OKs).
    rewrite (RegOf_lookup _ _ _ _ _ R) in F.
    destruct OKs as [E EL]; [reflexivity|congruence|exact NF|].
    destruct (st_remove fuel dst r false w) as [w2 rr] eqn:EQ. simpl in *. subst rr l'.
    destruct SH as [R2 SB SH (FR1 & FR2 & FR3 & FR4) TR].
    pose proof (RegOf_nodup _ _ _ R) as ND.
    assert (D2 : forall x ox, nth_error (w_heap w) x = Some ox -> exists ox', nth_error (w_heap w2) x = Some ox' /\ same_data ox ox').
    { intros x ox Hx. destruct (sba_nth_l _ _ _ _ SH Hx) as (ox' & Hx' & EQx). exists ox'. split; [exact Hx'|].
      now apply same_data_sba. }
    exists w2. split; [reflexivity|]. split; [|split; [|split; [|split; [symmetry; eapply Forall2_length'; exact SH|exact D2]]]].
    - split; [eapply RegOf_local_ok; eauto|]. split.
      + eapply keyed_sub; [exact R|exact R2|exact ND|exact SB|exact SH|exact K].
      + destruct (FR4 _ AD) as (s' & E'). exists s'. exact E'.
    - constructor.
      + exact FR1.
      + intros b adb N Eb. rewrite FR3 by exact N. exists (ad_store adb). rewrite set_ad_same. split; [exact Eb|apply store_ext_refl].
      + apply Forall2_length' in SH. lia.
      + intros [t1 u1] N. unfold look. simpl. rewrite (RegOf_lookup _ _ _ _ _ R2), (RegOf_lookup _ _ _ _ _ R), reg_del_find by exact ND.
        destruct (String.eqb_spec t1 t) as [X|X]; [|reflexivity]. destruct (String.eqb_spec u1 u) as [Y|Y]; [|reflexivity].
        subst. contradiction.
      + intros [t1 u1] r1 E1. unfold look in *. simpl in *. left.
        rewrite (RegOf_lookup _ _ _ _ _ R2) in E1. rewrite (RegOf_lookup _ _ _ _ _ R). eapply subreg_find; eauto.
      + intros x ox H _ _. now apply D2.
    - rewrite (RegOf_lookup _ _ _ _ _ R2), reg_del_find by exact ND. now rewrite !String.eqb_refl.
  Qed.

  (** removing an object with everything below it *)
  Lemma cascade_step fuel w r o t u : good w -> lookup w dst t u = Some r -> nth_error (w_heap w) r = Some o ->
    ~ deep w dst fuel (t, u) ->
    exists w2, st_remove fuel dst r true w = (w2, Ok tt) /\ good w2 /\ moved (reaches w dst (t, u)) None w w2 /\
      (forall k, reaches w dst (t, u) k -> look w2 dst k = None) /\ length (w_heap w2) = length (w_heap w) /\
      (forall x ox, nth_error (w_heap w) x = Some ox -> exists ox', nth_error (w_heap w2) x = Some ox' /\ same_data ox ox').
  Proof.
    intros (LO & K & s & AD) F Ho ND.
    destruct (cascade_removes fuel w dst t u r LO K F (or_intror ND)) as (w2 & E & G & N & SH & LO2 & K2 & FR1 & FR2 & FR3 & FR4).
    assert (D2 : forall x ox, nth_error (w_heap w) x = Some ox -> exists ox', nth_error (w_heap w2) x = Some ox' /\ same_data ox ox').
    { intros x ox Hx. destruct (sba_nth_l _ _ _ _ SH Hx) as (ox' & Hx' & EQx). exists ox'. split; [exact Hx'|].
      now apply same_data_sba. }
    exists w2. split; [exact E|]. split; [|split; [|split; [|split; [symmetry; eapply Forall2_length'; exact SH|exact D2]]]].
    - split; [exact LO2|]. split; [exact K2|]. destruct (FR4 _ AD) as (s' & E'). exists s'. exact E'.
    - constructor.
      + exact FR1.
      + intros b adb NB Eb. rewrite FR3 by exact NB. exists (ad_store adb). rewrite set_ad_same. split; [exact Eb|apply store_ext_refl].
      + apply Forall2_length' in SH. lia.
      + intros [t1 u1] NR. unfold look. simpl. now apply N.
      + intros [t1 u1] r1 E1. unfold look in *. simpl in *. left.
        destruct (local_ok_RegOf _ _ LO) as [l R]. destruct (K t u r F) as (o' & Ho' & Ht & Hu & _).
        rewrite Ho in Ho'. injection Ho' as <-.
        destruct (remove_any dst fuel w l r o t u true R K Ho Ht Hu) as (l' & SHR & _). rewrite E in SHR. simpl in SHR.
        rewrite (RegOf_lookup _ _ _ _ _ (sh_reg _ _ _ _ _ SHR)) in E1. rewrite (RegOf_lookup _ _ _ _ _ R).
        eapply subreg_find; [eapply RegOf_nodup; eauto|apply (sh_sub _ _ _ _ _ SHR)|exact E1].
      + intros x ox H _ _. now apply D2.
    - intros [t1 u1] RR. now apply G.
  Qed.
End Steps.
