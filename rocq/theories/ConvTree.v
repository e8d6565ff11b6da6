(** * ConvTree: the positions of a diff, and why its elements fit the destination. *)
From Verif Require Export ConvRun ConvergeSpec.

(** ** Keys and parents *)
Section Tree.
  Variables (flags : N) (env : senv) (w : world) (sa da : adapter).
  Notation src := (sv_src env).
  Notation dst := (sv_dst env).
  Hypothesis AL : alike w (sv_fuel env) src dst sa da.
  Notation rs := (objs_by w src).
  Notation rd := (objs_by w dst).
  Notation akey := (akey da).

  Definition pr (p k : key) : Prop := listed w src p k \/ listed w dst p k.
  Lemma pr_fun p p' k : pr p k -> pr p' k -> p = p'.
  Proof.
    pose proof (al_sforest _ _ _ _ _ _ AL) as FS. pose proof (al_dforest _ _ _ _ _ _ AL) as FD.
    destruct (al_places _ _ _ _ _ _ AL) as [SP _].
    intros [A|A] [B|B]; [eapply (fo_parent _ _ _ FS); eauto|eapply SP; eauto|symmetry; eapply SP; eauto|eapply (fo_parent _ _ _ FD); eauto].
  Qed.
  Fixpoint level (n : nat) (k : key) : Prop :=
    match n with O => forall p, ~ pr p k | S n' => exists p, pr p k /\ level n' p end.
  Lemma level_fun n : forall m k, level n k -> level m k -> n = m.
  Proof.
    induction n as [|n IH]; intros [|m] k; simpl; auto.
    - intros A (p & B & _). now elim (A p).
    - intros (p & B & _) A. now elim (A p).
    - intros (p & B & L) (p' & B' & L'). f_equal. rewrite (pr_fun _ _ _ B B') in L. now apply (IH m p').
  Qed.
  Fixpoint chain (j : nat) (a b : key) : Prop :=
    match j with O => a = b | S j' => exists p, chain j' a p /\ pr p b end.
  Lemma chain_level j : forall n a b, level n a -> chain j a b -> level (n + j) b.
  Proof.
    induction j as [|j IH]; intros n a b L; simpl.
    - intros <-. now rewrite Nat.add_0_r.
    - intros (p & C & P). rewrite Nat.add_succ_r. exists p. split; [exact P|]. eapply IH; eauto.
  Qed.
  Lemma chain_fun j : forall a a' b, chain j a b -> chain j a' b -> a = a'.
  Proof.
    induction j as [|j IH]; intros a a' b; simpl.
    - intros -> ->. reflexivity.
    - intros (p & C & P) (p' & C' & P'). rewrite (pr_fun _ _ _ P P') in C. eapply IH; eauto.
  Qed.
  Lemma chain_trans i j a b c : chain i a b -> chain j b c -> chain (i + j) a c.
  Proof.
    revert c. induction j as [|j IH]; intros c C1; simpl.
    - intros <-. now rewrite Nat.add_0_r.
    - intros (p & C & P). rewrite Nat.add_succ_r. exists p. split; [now apply IH|exact P].
  Qed.
  Lemma chain_one p k : pr p k -> chain 1 p k.
  Proof. intros P. exists p. split; [reflexivity|exact P]. Qed.
  (** two keys of the same level above one key are the same *)
  Lemma chain_meet n a a' i j k : level n a -> level n a' -> chain i a k -> chain j a' k -> a = a'.
  Proof.
    intros L L' C C'. assert (E : n + i = n + j) by (eapply level_fun; [eapply chain_level; [exact L|exact C]|eapply chain_level; eauto]).
    assert (i = j) by lia. subst j. eapply chain_fun; eauto.
  Qed.

  (** ** Reading *)
  Lemma read_all a t l o : objs_all w a t = Ok l -> In o l -> read w a o.
  Proof. intros E I. exists t, l. auto. Qed.
  Lemma read_by a us t l o : objs_by w a us t = Ok l -> In o l -> read w a o.
  Proof. intros E I. exists t, l. split; [exact I|]. right. eauto. Qed.
  Lemma rmapM_F2 {A B} (f : A -> result B) l l' : rmapM f l = Ok l' -> Forall2 (fun x y => f x = Ok y) l l'.
  Proof.
    revert l'. induction l as [|x l IH]; simpl; intros l' E; [injection E as <-; constructor|].
    destruct (f x) eqn:F; simpl in E; [|discriminate]. destruct (rmapM f l) eqn:R; simpl in E; [|discriminate].
    injection E as <-. constructor; auto.
  Qed.
  Lemma F2_rmapM {A B} (f : A -> result B) l l' : Forall2 (fun x y => f x = Ok y) l l' -> rmapM f l = Ok l'.
  Proof. induction 1 as [|x y l l' E _ IH]; simpl; [reflexivity|]. now rewrite E, IH. Qed.
  Lemma deref_F2 v rs l : deref v rs = Ok l <-> Forall2 (fun r o => nth_error (w_heap v) r = Some o) rs l.
  Proof.
    unfold deref. split.
    - intros E. apply rmapM_F2 in E. eapply Forall2_if; [|exact E]. cbv beta. intros r o. destruct (nth_error _ r); congruence.
    - intros E. apply F2_rmapM. eapply Forall2_if; [|exact E]. cbv beta. intros r o ->. reflexivity.
  Qed.
  (** a LocalStore, read by unique ids and as a whole *)
  Lemma local_by v a us t l : (exists ad d, nth_error (w_ads v) a = Some ad /\ ad_store ad = SLocal d) ->
    objs_by v a us t = Ok l <-> Forall2 (fun u o => exists r, lookup v a t u = Some r /\ nth_error (w_heap v) r = Some o) us l.
  Proof.
    intros (ad & d & E & ES). unfold objs_by, lookup. destruct us as [|u0 us0]; [split; [intros X; injection X as <-; constructor|intros X; inversion X; reflexivity]|].
    rewrite E, ES. generalize (u0 :: us0). clear u0 us0. intros us. split.
    - intros X. destruct (rmapM _ us) as [rs0|] eqn:R; simpl in X; [|discriminate]. apply rmapM_F2 in R. apply deref_F2 in X.
      revert l X. induction R as [|u r us rs0 F R IH]; intros l X; inversion X as [|? ? ? ? Y Z]; subst; constructor; auto.
      exists r. split; [|exact Y]. destruct (dget _ u); congruence.
    - intros X.
      assert (Z : exists rs0, Forall2 (fun u r => match dget (bucket d t) u with Some r => Ok r | None => Err ObjectNotFound end = Ok r) us rs0 /\
        Forall2 (fun r o => nth_error (w_heap v) r = Some o) rs0 l).
      { induction X as [|u o us l (r & L & H) X (rs0 & A & B)]; [exists []; split; constructor|].
        exists (r :: rs0). split; constructor; auto. now rewrite L. }
      destruct Z as (rs0 & A & B). rewrite (F2_rmapM _ _ _ A). simpl. now apply deref_F2.
  Qed.
  Lemma local_all v a t l ad d : nth_error (w_ads v) a = Some ad -> ad_store ad = SLocal d ->
    objs_all v a t = Ok l <-> Forall2 (fun r o => nth_error (w_heap v) r = Some o) (dvals (bucket d t)) l.
  Proof. intros E ES. unfold objs_all. rewrite E, ES. apply deref_F2. Qed.

  Lemma bucket_NoDup v a ad d t : local_ok v a -> nth_error (w_ads v) a = Some ad -> ad_store ad = SLocal d -> NoDup (dkeys (bucket d t)).
  Proof.
    intros (ad' & d' & E1 & E2 & _ & N) A B. assert (d' = d) by congruence. subst d'. unfold bucket.
    destruct (dget d t) as [b|] eqn:G; [|constructor]. apply (N t b). now apply dget_Some_In.
  Qed.
  Lemma read_local v a o : local_ok v a -> (exists t l, In o l /\ (objs_all v a t = Ok l \/ exists us, objs_by v a us t = Ok l)) ->
    exists t u r, lookup v a t u = Some r /\ nth_error (w_heap v) r = Some o.
  Proof.
    intros LO (t & l & I & H). pose proof LO as (ad & d & E1 & E2 & _ & _). destruct H as [H|(us & H)].
    - apply (local_all v a t l ad d E1 E2) in H. destruct (Forall2_in_r _ _ _ _ H I) as (r & Ir & Hr).
      unfold dvals in Ir. apply in_map_iff in Ir as ([u r'] & E & Iu). simpl in E. subst r'. exists t, u, r. split; [|exact Hr].
      unfold lookup. rewrite E1, E2. apply In_dget; [|exact Iu]. eapply bucket_NoDup; eauto.
    - apply local_by in H; [|eauto]. destruct (Forall2_in_r _ _ _ _ H I) as (u & _ & r & L & Hr). eauto.
  Qed.
  Lemma read_dst o : read w dst o -> exists k r, is_key o k /\ look w dst k = Some r /\ nth_error (w_heap w) r = Some o.
  Proof.
    intros H. destruct (read_local w dst o (al_local _ _ _ _ _ _ AL) H) as (t & u & r & L & Hr).
    exists (t, u), r. destruct (al_keyed _ _ _ _ _ _ AL _ _ _ L) as (o' & Ho' & T & U & _). rewrite Hr in Ho'. injection Ho' as <-.
    split; [now split|]. auto.
  Qed.
  Lemma dst_read k r o : look w dst k = Some r -> nth_error (w_heap w) r = Some o -> read w dst o /\ is_key o k.
  Proof.
    intros L H. destruct (al_keyed _ _ _ _ _ _ AL _ _ _ L) as (o' & Ho' & T & U & _). rewrite H in Ho'. injection Ho' as <-.
    split; [|now split]. exists (fst k), [o]. split; [now left|]. right. exists [snd k].
    apply local_by; [destruct (al_local _ _ _ _ _ _ AL) as (ad & d & A & B & _); eauto|]. constructor; [|constructor]. eauto.
  Qed.
  Lemma read_dst_key o k : read w dst o -> is_key o k -> exists r, look w dst k = Some r /\ nth_error (w_heap w) r = Some o.
  Proof.
    intros R (T & U). destruct (read_dst o R) as (k' & r & (T' & U') & L & H). exists r. split; [|exact H].
    rewrite <- L. f_equal. rewrite (surjective_pairing k), (surjective_pairing k'). congruence.
  Qed.
  Lemma dst_listed p k : listed w dst p k <-> exists r o, look w dst p = Some r /\ nth_error (w_heap w) r = Some o /\ lists o (fst k) (snd k).
  Proof.
    split.
    - intros (o & R & K & LI). destruct (read_dst_key o p R K) as (r & L & H). exists r, o. auto.
    - intros (r & o & L & H & LI). destruct (dst_read p r o L H) as (R & K). exists o. auto.
  Qed.
  Lemma child_listed p k : StoreSpec.child_of w dst p k -> listed w dst p k.
  Proof. intros (r & o & f & l & L & H & I1 & I2 & I3 & _). apply dst_listed. exists r, o. split; [exact L|]. split; [exact H|]. exists f, l. auto. Qed.
  Lemma reaches_chain k k' : reaches w dst k k' -> exists j, chain j k k'.
  Proof.
    induction 1 as [k|k k1 k2 C _ (j & IH)]; [exists 0; reflexivity|].
    exists (1 + j). eapply chain_trans; [|exact IH]. apply chain_one. right. now apply child_listed.
  Qed.

  (** ** Classes *)
  Lemma class_at k : (exists o, (read w src o \/ read w dst o) /\ is_key o k) ->
    exists c, dget (ad_classes da) (fst k) = Some c /\ c_modelname c = fst k /\ creatable c /\
      forall o, (read w src o \/ read w dst o) -> get_type o = fst k -> same_shape c (o_cls o).
  Proof.
    intros (o & R & T & U). destruct (al_classes _ _ _ _ _ _ AL o R) as (c & C1 & C2 & C3 & C4).
    exists c. rewrite T in *. split; [exact C1|]. split; [exact C2|]. split; [exact C4|].
    intros o' R' T'. destruct (al_classes _ _ _ _ _ _ AL o' R') as (c' & C1' & C2' & C3' & C4'). rewrite T' in *. congruence.
  Qed.

  (** ** Positions *)
  Inductive pos : nat -> key -> option obj -> option obj -> Prop :=
  | pos_top t ss dd u so do : top_lists w src dst sa da t ss dd -> so = with_uid u ss -> do = with_uid u dd ->
      either so do <> None -> pos 0 (t, u) so do
  | pos_kid n p so' do' mapping sk t f ss dd u so do :
      pos n p so' do' -> ~ suppressed flags so' do' -> child_types so' do' mapping sk -> In (t, f) mapping ->
      kids_of rs so' f t = Ok ss -> kids_of rd do' f t = Ok dd -> so = with_uid u ss -> do = with_uid u dd ->
      either so do <> None -> pos (S n) (t, u) so do.

  Lemma kids_read a o f t l x : kids_of (objs_by w a) o f t = Ok l -> In x l -> read w a x.
  Proof.
    destruct o as [o|]; simpl; [|intros E; injection E as <-; intros []].
    destruct (dget (o_kids o) f) as [us|]; [|discriminate]. intros E I. eapply read_by; eauto.
  Qed.
  Lemma kids_type a tops o f t l x : forest w a tops -> (forall s, o = Some s -> asked w a tops t) -> kids_of (objs_by w a) o f t = Ok l -> In x l -> get_type x = t.
  Proof.
    intros F AK. destruct o as [o|]; simpl; [|intros E; injection E as <-; intros []]. specialize (AK o eq_refl).
    destruct (dget (o_kids o) f) as [us|]; [|discriminate]. intros E I. exact (proj2 (fo_filed _ _ _ F) us t l x AK E I).
  Qed.
  Lemma kids_uids a tops o f t l us : forest w a tops -> asked w a tops t -> kids_of (objs_by w a) (Some o) f t = Ok l -> dget (o_kids o) f = Some us ->
    map get_unique_id l = map Ok us.
  Proof. intros F AK. simpl. intros E G. rewrite G in E. exact (fo_ids _ _ _ F us t l AK E). Qed.

  Lemma pos_key n k so do : pos n k so do ->
    (forall s, so = Some s -> read w src s /\ is_key s k) /\ (forall d, do = Some d -> read w dst d /\ is_key d k).
  Proof.
    pose proof (al_sforest _ _ _ _ _ _ AL) as FS. pose proof (al_dforest _ _ _ _ _ _ AL) as FD.
    intros H. induction H as [t ss dd u so do (TS & TD & HS & HD) -> -> _|n p so' do' mapping sk t f ss dd u so do H (IS & ID) _ CT IM KS KD -> -> _].
    - split; intros o E; apply with_uid_Some in E as (I & U).
      + split; [exact (read_all src t ss o HS I)|]. split; [|exact U]. exact (proj1 (fo_filed _ _ _ FS) t ss o (or_introl TS) HS I).
      + split; [exact (read_all dst t dd o HD I)|]. split; [|exact U]. exact (proj1 (fo_filed _ _ _ FD) t dd o (or_introl TD) HD I).
    - split; intros o E; apply with_uid_Some in E as (I & U).
      + split; [exact (kids_read src so' f t ss o KS I)|]. split; [|exact U]. refine (kids_type src _ so' f t ss o FS _ KS I). intros s ->. apply (asked_src w src _ s _ _ _ _ _ CT IM). now apply IS.
      + split; [exact (kids_read dst do' f t dd o KD I)|]. split; [|exact U]. refine (kids_type dst _ do' f t dd o FD _ KD I). intros d ->. apply (asked_dst w dst _ _ d _ _ _ _ CT IM). now apply ID.
  Qed.
  Lemma pos_class n k so do : pos n k so do ->
    exists c, dget (ad_classes da) (fst k) = Some c /\ c_modelname c = fst k /\ creatable c /\
      forall o, so = Some o \/ do = Some o -> same_shape c (o_cls o).
  Proof.
    intros H. destruct (pos_key _ _ _ _ H) as (KS & KD).
    assert (E : exists o, (read w src o \/ read w dst o) /\ is_key o k).
    { assert (N : either so do <> None) by (destruct H; assumption). destruct so as [s|]; simpl in N.
      - destruct (KS s eq_refl). exists s. auto.
      - destruct do as [d|]; [|congruence]. destruct (KD d eq_refl). exists d. auto. }
    destruct (class_at k E) as (c & C1 & C2 & C3 & C4). exists c. split; [exact C1|]. split; [exact C2|]. split; [exact C3|].
    intros o [X|X]; [destruct (KS o X) as (R & T & _)|destruct (KD o X) as (R & T & _)]; auto.
  Qed.
  Lemma pos_asked n k so do c t f : pos n k so do -> dget (ad_classes da) (fst k) = Some c -> In (t, f) (c_children c) ->
    (forall s, so = Some s -> asked w src (ad_top sa) t) /\ (forall d, do = Some d -> asked w dst (ad_top da) t).
  Proof.
    intros H HC I. destruct (pos_key _ _ _ _ H) as (KS & KD). destruct (pos_class _ _ _ _ H) as (c' & C1 & _ & _ & C4). assert (c' = c) by congruence. subst c'.
    split; intros o E; right; exists o, f.
    - destruct (C4 o (or_introl E)) as (_ & _ & _ & <-). destruct (KS o E). auto.
    - destruct (C4 o (or_intror E)) as (_ & _ & _ & <-). destruct (KD o E). auto.
  Qed.
  (** the compared child types are those of the class *)
  Lemma pos_mapping n k so do mapping sk c : pos n k so do -> child_types so do mapping sk ->
    dget (ad_classes da) (fst k) = Some c -> mapping = c_children c /\ sk = 0.
  Proof.
    intros H CT HC. destruct (pos_class _ _ _ _ H) as (c' & C1 & C2 & C3 & C4). assert (c' = c) by congruence. subst c'.
    unfold child_types in CT. destruct so as [s|].
    - destruct (C4 s (or_introl eq_refl)) as (_ & _ & _ & ES). destruct do as [d|].
      + destruct (C4 d (or_intror eq_refl)) as (_ & _ & _ & ED). destruct CT as (-> & n1 & n2 & (l1 & F1 & ->) & (l2 & F2 & ->) & ->).
        rewrite <- ES, <- ED in *.
        assert (A : forall tf, In tf (c_children c) -> dmem (c_children c) (fst tf) = true).
        { intros [t f] I. apply dmem_In. unfold dkeys. apply in_map_iff. exists (t, f). auto. }
        split; [apply filter_all; exact A|].
        assert (B : filter (fun tf : string * string => negb (dmem (c_children c) (fst tf))) (c_children c) = []).
        { assert (G : forall m, (forall tf, In tf m -> dmem (c_children c) (fst tf) = true) ->
            filter (fun tf : string * string => negb (dmem (c_children c) (fst tf))) m = []).
          { induction m as [|x m IH]; intros A'; [reflexivity|]. cbn [filter].
            rewrite A' by (now left). simpl. apply IH. intros y I. apply A'. now right. }
          now apply G. }
        rewrite B in F1, F2. inversion F1. inversion F2. reflexivity.
      + destruct CT as [-> ->]. now rewrite ES.
    - destruct do as [d|]; [|contradiction]. destruct (C4 d (or_intror eq_refl)) as (_ & _ & _ & ED). destruct CT as [-> ->]. now rewrite ED.
  Qed.
  Lemma kid_facts n p so' do' mapping sk t f ss dd u : pos n p so' do' -> child_types so' do' mapping sk -> In (t, f) mapping ->
    kids_of rs so' f t = Ok ss -> kids_of rd do' f t = Ok dd -> either (with_uid u ss) (with_uid u dd) <> None ->
    pr p (t, u) /\
    (forall s, with_uid u ss = Some s -> exists s', so' = Some s' /\ lists s' t u) /\
    (forall d, with_uid u dd = Some d -> exists d', do' = Some d' /\ lists d' t u) /\
    (forall d', with_uid u dd = None -> do' = Some d' -> ~ lists d' t u) /\
    (forall s', with_uid u ss = None -> so' = Some s' -> ~ lists s' t u).
  Proof.
    pose proof (al_sforest _ _ _ _ _ _ AL) as FS. pose proof (al_dforest _ _ _ _ _ _ AL) as FD.
    intros HP CT IM KS KD NN.
    destruct (pos_class _ _ _ _ HP) as (c & C1 & C2 & C3 & C4).
    destruct (pos_mapping _ _ _ _ _ _ _ HP CT C1) as [-> _].
    destruct (pos_key _ _ _ _ HP) as (PS & PD).
    assert (UNI : forall f', In (t, f') (c_children c) -> f' = f).
    { intros f' I. pose proof (In_dget _ _ _ (cr_types _ C3) I). pose proof (In_dget _ _ _ (cr_types _ C3) IM). congruence. }
    assert (CH : forall o, so' = Some o \/ do' = Some o -> c_children (o_cls o) = c_children c).
    { intros o X. destruct (C4 o X) as (_ & _ & _ & ->). reflexivity. }
    assert (QS : forall s, so' = Some s -> asked w src (ad_top sa) t).
    { intros s ->. right. exists s, f. rewrite CH by auto. split; [now apply PS|exact IM]. }
    assert (QD : forall d, do' = Some d -> asked w dst (ad_top da) t).
    { intros d ->. right. exists d, f. rewrite CH by auto. split; [now apply PD|exact IM]. }
    assert (LS : forall s, with_uid u ss = Some s -> exists s', so' = Some s' /\ lists s' t u).
    { intros s E. destruct so' as [s'|]; [|simpl in KS; injection KS as <-; discriminate]. exists s'. split; [reflexivity|].
      pose proof KS as KS'. simpl in KS'. destruct (dget (o_kids s') f) as [us|] eqn:G; [|discriminate].
      pose proof (kids_uids src _ s' f t ss us FS (QS _ eq_refl) KS G) as U. exists f, us. rewrite CH by auto. split; [exact IM|]. split; [exact G|].
      destruct (in_dec string_dec u us) as [I|I]; [exact I|]. apply (with_uid_None u ss us U) in I. congruence. }
    assert (LD : forall d, with_uid u dd = Some d -> exists d', do' = Some d' /\ lists d' t u).
    { intros d E. destruct do' as [d'|]; [|simpl in KD; injection KD as <-; discriminate]. exists d'. split; [reflexivity|].
      pose proof KD as KD'. simpl in KD'. destruct (dget (o_kids d') f) as [us|] eqn:G; [|discriminate].
      pose proof (kids_uids dst _ d' f t dd us FD (QD _ eq_refl) KD G) as U. exists f, us. rewrite CH by auto. split; [exact IM|]. split; [exact G|].
      destruct (in_dec string_dec u us) as [I|I]; [exact I|]. apply (with_uid_None u dd us U) in I. congruence. }
    split; [|split; [exact LS|split; [exact LD|split]]].
    - destruct (with_uid u ss) as [s|] eqn:ES.
      + destruct (LS s eq_refl) as (s' & X & LI). left. exists s'. destruct (PS s' X). auto.
      + destruct (with_uid u dd) as [d|] eqn:ED; [|simpl in NN; congruence].
        destruct (LD d eq_refl) as (d' & X & LI). right. exists d'. destruct (PD d' X). auto.
    - intros d' E -> (f' & l & I1 & I2 & I3). simpl fst in I1. rewrite CH in I1 by auto. rewrite (UNI f' I1) in I2.
      pose proof (kids_uids dst _ d' f t dd l FD (QD _ eq_refl) KD I2) as U. apply (with_uid_None u dd l U) in E. contradiction.
    - intros s' E -> (f' & l & I1 & I2 & I3). simpl fst in I1. rewrite CH in I1 by auto. rewrite (UNI f' I1) in I2.
      pose proof (kids_uids src _ s' f t ss l FS (QS _ eq_refl) KS I2) as U. apply (with_uid_None u ss l U) in E. contradiction.
  Qed.
  Lemma pos_parent n k so do : pos (S n) k so do -> exists p so' do', pos n p so' do' /\ ~ suppressed flags so' do' /\ pr p k /\
    (forall s, so = Some s -> exists s', so' = Some s' /\ lists s' (fst k) (snd k)) /\
    (forall d, do = Some d -> exists d', do' = Some d' /\ lists d' (fst k) (snd k)) /\
    (forall d', do = None -> do' = Some d' -> ~ lists d' (fst k) (snd k)) /\
    (forall s', so = None -> so' = Some s' -> ~ lists s' (fst k) (snd k)).
  Proof.
    intros H. inversion H as [|n' p so' do' mapping sk t f ss dd u so0 do0 HP NS CT IM KS KD E1 E2 NN]; subst.
    exists p, so', do'. split; [exact HP|]. split; [exact NS|]. exact (kid_facts _ _ _ _ _ _ _ _ _ _ _ HP CT IM KS KD NN).
  Qed.
  Lemma pos_level n : forall k so do, pos n k so do -> level n k.
  Proof.
    induction n as [|n IH]; intros k so do H.
    - inversion H as [t ss dd u so0 do0 (IS & ID & _) _ _ _|]; subst. intros p [P|P].
      + now apply (fo_top _ _ _ (al_sforest _ _ _ _ _ _ AL) _ _ P).
      + now apply (fo_top _ _ _ (al_dforest _ _ _ _ _ _ AL) _ _ P).
    - destruct (pos_parent _ _ _ _ H) as (p & so' & do' & HP & _ & P & _). exists p. split; [exact P|]. eapply IH; eauto.
  Qed.
  Lemma pos_fun n : forall m k so do so' do', pos n k so do -> pos m k so' do' -> so = so' /\ do = do' /\ n = m.
  Proof.
    induction n as [|n IH]; intros m k so do so' do' H H'; pose proof (level_fun _ _ _ (pos_level _ _ _ _ H) (pos_level _ _ _ _ H')) as E; subst m.
    - inversion H as [t ss dd u so0 do0 (IS & ID & AS & AD) E1 E2 _|]; subst.
      inversion H' as [t' ss' dd' u' so0 do0 (IS' & ID' & AS' & AD') E1 E2 _|]; subst.
      rewrite AS in AS'. rewrite AD in AD'. injection AS' as <-. injection AD' as <-. auto.
    - inversion H as [|n' p so1 do1 mapping sk t f ss dd u so0 do0 HP NS CT IM KS KD E1 E2 NN]; subst.
      inversion H' as [|n' p' so1' do1' mapping' sk' t' f' ss' dd' u' so0 do0 HP' NS' CT' IM' KS' KD' E1 E2 NN']; subst.
      destruct (kid_facts _ _ _ _ _ _ _ _ _ _ _ HP CT IM KS KD NN) as (P & _).
      destruct (kid_facts _ _ _ _ _ _ _ _ _ _ _ HP' CT' IM' KS' KD' NN') as (P' & _).
      rewrite <- (pr_fun _ _ _ P P') in HP'. destruct (IH _ _ _ _ _ _ HP HP') as (<- & <- & _).
      destruct (pos_class _ _ _ _ HP) as (c & C1 & C2 & C3 & C4).
      destruct (pos_mapping _ _ _ _ _ _ _ HP CT C1) as [-> _]. destruct (pos_mapping _ _ _ _ _ _ _ HP CT' C1) as [-> _].
      assert (f' = f).
      { pose proof (In_dget _ _ _ (cr_types _ C3) IM). pose proof (In_dget _ _ _ (cr_types _ C3) IM'). congruence. }
      subst f'. rewrite KS in KS'. rewrite KD in KD'. injection KS' as <-. injection KD' as <-. auto.
  Qed.

  (** what is only in the source is not in the destination *)
  Lemma pos_absent n : forall k s, pos n k (Some s) None -> look w dst k = None.
  Proof.
    induction n as [|n IH]; intros k s H.
    - inversion H as [t ss dd u so do (IS & ID & AS & AD) E1 E2 _|]; subst. destruct (look w dst (t, u)) as [r|] eqn:L; [|reflexivity]. exfalso.
      destruct (al_local _ _ _ _ _ _ AL) as (ad & d & A & B & _).
      apply (local_all w dst t dd ad d A B) in AD. unfold look, lookup in L. rewrite A, B in L. simpl in L.
      pose proof (dget_Some_In _ _ _ L) as I.
      assert (IR : In r (dvals (bucket d t))) by (apply in_map_iff; exists (u, r); auto).
      destruct (Forall2_in_l _ _ _ _ AD IR) as (o & Io & Ho).
      assert (L' : look w dst (t, u) = Some r) by (unfold look, lookup; rewrite A, B; exact L).
      destruct (dst_read _ _ _ L' Ho) as (_ & _ & U). simpl in U.
      symmetry in E2. unfold with_uid in E2. apply (find_none _ _ E2) in Io || (rewrite in_rev in Io; apply (find_none _ _ E2) in Io).
      unfold has_uid in Io. rewrite U, String.eqb_refl in Io. discriminate.
    - destruct (pos_parent _ _ _ _ H) as (p & so' & do' & HP & _ & P & LS & LD & LN & _).
      destruct (LS s eq_refl) as (s' & -> & LI). destruct (look w dst k) as [r|] eqn:L; [|reflexivity]. exfalso.
      assert (SL : listed w src p k).
      { exists s'. destruct (pos_key _ _ _ _ HP) as (PS & _). destruct (PS s' eq_refl). auto. }
      destruct (cp_rooted _ _ _ (al_dcomplete _ _ _ _ _ _ AL) k) as [T|(p' & DL)].
      + unfold look in L. now rewrite L.
      + destruct (al_places _ _ _ _ _ _ AL) as (_ & NT). now apply (NT _ _ SL).
      + assert (p' = p) by (eapply pr_fun; [right; exact DL|exact P]). subst p'.
        apply dst_listed in DL as (r' & o & L' & H' & LI').
        destruct do' as [d'|].
        * destruct (pos_key _ _ _ _ HP) as (_ & PD). destruct (PD d' eq_refl) as (RD & KD).
          destruct (read_dst_key _ _ RD KD) as (r2 & L2 & H2). assert (r2 = r') by congruence. subst r2.
          assert (d' = o) by congruence. subst d'. now apply (LN o eq_refl eq_refl).
        * rewrite (IH _ _ HP) in L'. discriminate.
  Qed.
End Tree.
