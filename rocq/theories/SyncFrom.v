(** * SyncFrom: sync_from as a computation of a diff followed by a synchronisation. *)
From Verif Require Export SyncFrame2 DifferLast.

(** ** Reading changes none of the notions used *)
Section ReadOnly.
  Variables (w w' : world) (dst : aid).
  Hypothesis RO : read_only w w'.

  Lemma ro_lookup a t u : lookup w' a t u = lookup w a t u.
  Proof. now apply read_only_lookup. Qed.
  Lemma ro_classes : forall ad', nth_error (w_ads w') dst = Some ad' ->
    exists ad, nth_error (w_ads w) dst = Some ad /\ ad_classes ad' = ad_classes ad.
  Proof.
    intros ad' E. destruct (nth_error (w_ads w) dst) as [ad|] eqn:E0.
    - destruct (read_only_ad _ _ _ _ RO E0) as (s & E1 & _). rewrite E in E1. injection E1 as ->. exists ad. auto.
    - rewrite (read_only_ad_none _ _ _ RO E0) in E. discriminate.
  Qed.
  Lemma ro_classes' : forall ad, nth_error (w_ads w) dst = Some ad ->
    exists ad', nth_error (w_ads w') dst = Some ad' /\ ad_classes ad' = ad_classes ad.
  Proof. intros ad E. destruct (read_only_ad _ _ _ _ RO E) as (s & E1 & _). eexists. split; [exact E1|reflexivity]. Qed.
  Lemma ro_names e k : names w' dst e k <-> names w dst e k.
  Proof.
    split; intros (ad & c & A1 & A2 & A3 & A4).
    - destruct (ro_classes _ A1) as (ad0 & B1 & B2). exists ad0, c. rewrite <- B2. auto.
    - destruct (ro_classes' _ A1) as (ad0 & B1 & B2). exists ad0, c. rewrite B2. auto.
  Qed.
  Lemma ro_mentioned gs P k : mentioned w' dst gs P k <-> mentioned w dst gs P k.
  Proof. split; intros (e & A1 & A2 & A3); exists e; (split; [exact A1|split; [exact A2|now apply ro_names]]). Qed.
  Hypothesis KE : keyed w dst.
  Lemma ro_obj t u r o : lookup w' dst t u = Some r -> nth_error (w_heap w') r = Some o -> nth_error (w_heap w) r = Some o.
  Proof.
    rewrite ro_lookup. intros H Ho. destruct (KE _ _ _ H) as (o0 & Ho0 & _).
    rewrite (read_only_nth _ _ _ _ RO Ho0) in Ho. congruence.
  Qed.
  Lemma ro_keyed : keyed w' dst.
  Proof.
    intros t u r H. rewrite ro_lookup in H. destruct (KE _ _ _ H) as (o & Ho & X). exists o.
    split; [eapply read_only_nth; eauto|exact X].
  Qed.
  Lemma ro_dst_class c : dst_class w' dst c -> dst_class w dst c.
  Proof.
    intros [(ad & t & A1 & A2)|(t & u & r & o & A1 & A2 & A3)].
    - left. destruct (ro_classes _ A1) as (ad0 & B1 & B2). exists ad0, t. rewrite <- B2. auto.
    - right. exists t, u, r, o. split; [now rewrite <- ro_lookup|]. split; [eapply ro_obj; eauto|exact A3].
  Qed.
  Lemma ro_ids gs : sets_no_identifier w dst gs -> sets_no_identifier w' dst gs.
  Proof.
    intros H e ad ce c s k A1 A2 A3 A4 A5 A6 A7. destruct (ro_classes _ A2) as (ad0 & B1 & B2). rewrite B2 in A3.
    eapply (H e ad0 ce c s k); eauto. now apply ro_dst_class.
  Qed.
  Lemma ro_reaches k k' : reaches w' dst k k' -> reaches w dst k k'.
  Proof.
    induction 1 as [k|k k1 k2 HC HR IH]; [constructor|]. eapply reach_step; [|exact IH].
    destruct HC as (r & o & f & l & A1 & A2 & A3 & A4 & A5 & A6). exists r, o, f, l.
    split; [now rewrite <- ro_lookup|]. split; [eapply ro_obj; eauto|]. repeat split; auto. now rewrite <- ro_lookup.
  Qed.
  Lemma ro_doomed gs k : doomed w' dst gs k -> doomed w dst gs k.
  Proof.
    intros [H|(kd & r & o & A1 & A2 & A3 & A4 & A5)]; [left; now apply ro_mentioned|].
    right. exists kd, r, o. split; [now apply ro_mentioned|]. split; [now rewrite <- ro_lookup|].
    split; [eapply ro_obj; eauto|]. split; [exact A4|now apply ro_reaches].
  Qed.
  Lemma ro_local_ok : local_ok w dst -> local_ok w' dst.
  Proof.
    intros (ad & d & E & ES & N1 & N2). destruct (read_only_ad _ _ _ _ RO E) as (s & E1 & SE).
    rewrite ES in SE. destruct s as [d'|]; [|destruct SE]. destruct SE as [ns [Ed N3]].
    exists (set_ad_store ad (SLocal d')), d'. split; [exact E1|]. split; [reflexivity|]. split; [auto|].
    intros m b I. rewrite Ed in I. apply in_app_iff in I as [I|I]; [eauto|].
    apply in_map_iff in I as (x & X & _). injection X as <- <-. constructor.
  Qed.
End ReadOnly.

(** ** What sync_from consists of *)

Lemma truthy_len d : diff_truthy (Some d) = true <-> diff_len d <> 0.
Proof. simpl. rewrite negb_true_iff, Nat.eqb_neq. reflexivity. Qed.

(** either nothing but reading happened, or a diff was run on the world left by reading *)
Lemma sync_from_split fuel h dst src dc flags cb given w :
  let r := sync_from fuel h dst src dc flags cb given w in
  (read_only w (fst r) /\ (exists evs, w_trace (fst r) = w_trace w ++ evs /\ Forall is_callback evs) /\
   (exists e, snd r = Err e) /\ forall d, ~ uses fuel dst src dc flags cb given w d) \/
  exists d wd, uses fuel dst src dc flags cb given w d /\
    (given = None -> wd = fst (diff_from fuel dst src dc flags cb w)) /\
    read_only w wd /\ (exists evs, w_trace wd = w_trace w ++ evs /\ Forall is_callback evs) /\
    r = run_sync (mkSEnv src dst flags (diff_len d) cb h fuel) d wd.
Proof.
  cbv zeta. pose proof (diff_from_quiet fuel dst src dc flags cb w) as Q. cbv zeta in Q. destruct Q as [Q1 Q2].
  unfold sync_from, uses.
  assert (REFL : exists evs, w_trace w = w_trace w ++ evs /\ Forall is_callback evs) by (exists []; rewrite app_nil_r; auto).
  destruct given as [d0|].
  - destruct (diff_truthy (Some d0)) eqn:T.
    + assert (T' := T). apply truthy_len in T'. destruct (isinstance d0 dc) eqn:EI; simpl andb.
      * right. exists d0, w. split; [left; auto|]. split; [discriminate|]. split; [apply read_only_refl|]. split; [exact REFL|].
        simpl. unfold bind, ret. reflexivity.
      * left. simpl. split; [apply read_only_refl|]. split; [exact REFL|]. split; [eauto|].
        intros d [(E & _ & X)|(E & _)]; [congruence|]. destruct E as [E|(d1 & E & X)]; [discriminate|]. injection E as <-. contradiction.
    + assert (diff_len d0 = 0) as Z.
      { simpl in T. apply negb_false_iff, Nat.eqb_eq in T. exact T. }
      simpl andb. unfold bind, ret. cbv iota beta.
      destruct (diff_from fuel dst src dc flags cb w) as [w1 [d|e]] eqn:ED; simpl in Q1, Q2.
      * right. exists d, w1. split; [right; split; [right; eauto|reflexivity]|]. split; [discriminate|].
        split; [exact Q1|]. split; [exact Q2|]. reflexivity.
      * left. split; [exact Q1|]. split; [exact Q2|]. split; [exists e; reflexivity|].
        intros d [(E & X & _)|(_ & E)]; [injection E as <-; contradiction|discriminate].
  - unfold bind, ret. cbv iota beta.
    destruct (diff_from fuel dst src dc flags cb w) as [w1 [d|e]] eqn:ED; simpl in Q1, Q2.
    + right. exists d, w1. split; [right; auto|]. split; [auto|]. split; [exact Q1|]. split; [exact Q2|]. reflexivity.
    + left. split; [exact Q1|]. split; [exact Q2|]. split; [exists e; reflexivity|].
      intros d [(E & _)|(_ & E)]; discriminate.
Qed.

(** ** The source *)
Lemma apart_intact w w' src dst : src <> dst -> w_ok w -> share_nothing w src dst -> apart w dst w' -> intact w w' src.
Proof.
  intros NE OK [SH1 SH2] [A1 A2 A3 A4 A5 A6].
  assert (NM : forall r, holds w src r -> r < length (w_heap w) -> ~ mine w dst r).
  { intros r H L [M|M]; [lia|]. exact (SH1 r H M). }
  assert (LT : forall r, holds w src r -> r < length (w_heap w)).
  { intros r (ad & d & t & u & [E1 E2] & H). eapply (OK src ad d t (bucket d t) u r); eauto. eapply In_bucket_In; eauto. }
  specialize (A4 src NE). unfold same_ad in A4.
  split; [|split].
  - intros t u. unfold lookup. destruct (nth_error (w_ads w) src) as [ad|], (nth_error (w_ads w') src) as [ad'|]; try tauto.
    destruct A4 as (s & -> & SE). simpl. destruct (ad_store ad) as [d|], s as [d'|]; [|destruct SE|destruct SE|reflexivity].
    destruct SE as [n [-> _]]. now rewrite bucket_ext.
  - intros t u r H. apply holds_lookup in H. apply A2. auto.
  - intros i (ad & E1 & E2). rewrite E1 in A4. destruct (nth_error (w_ads w') src) as [ad'|] eqn:E'; [|destruct A4].
    destruct A4 as (s & -> & SE). rewrite E2 in SE. destruct s as [|j]; [destruct SE|]. simpl in SE. subst j. split.
    + exists (set_ad_store ad (SRedis i)). auto.
    + intros m u. apply A6. intros (ad' & sid & m' & u' & D1 & D2 & D3).
      apply (SH2 i sid) with (m := m) (u := u) (m' := m') (u' := u'); [exists ad; auto|exists ad'; auto|exact D3].
Qed.
Lemma ro_intact w w' a : read_only w w' -> w_ok w -> intact w w' a.
Proof.
  intros RO OK. split; [intros; now apply read_only_lookup|]. split.
  - intros t u r H. apply holds_lookup in H. destruct H as (ad & d & t' & u' & [E1 E2] & H).
    assert (L : r < length (w_heap w)) by (eapply (OK a ad d t' (bucket d t') u' r); eauto; eapply In_bucket_In; eauto).
    destruct (nth_error (w_heap w) r) as [o|] eqn:E; [now apply (read_only_nth _ _ _ _ RO)|]. apply nth_error_None in E. lia.
  - intros i (ad & E1 & E2). destruct (read_only_ad _ _ _ _ RO E1) as (s & E' & SE). rewrite E2 in SE.
    destruct s as [|j]; [destruct SE|]. simpl in SE. subst j. split; [eexists; split; [exact E'|reflexivity]|].
    destruct RO as (_ & -> & _). reflexivity.
Qed.
Lemma intact_trans w1 w2 w3 a : intact w1 w2 a -> intact w2 w3 a -> intact w1 w3 a.
Proof.
  intros (A1 & A2 & A3) (B1 & B2 & B3). split; [|split].
  - intros t u. now rewrite B1.
  - intros t u r H. rewrite (B2 t u r); [eauto|]. now rewrite A1.
  - intros i H. destruct (A3 i H) as [C1 C2]. destruct (B3 i C1) as [D1 D2]. split; [exact D1|]. intros m u. now rewrite D2.
Qed.
Lemma ro_redis w w' a i : read_only w w' -> on_redis w' a i -> on_redis w a i.
Proof.
  intros RO (ad' & E1 & E2). destruct (nth_error (w_ads w) a) as [ad|] eqn:E.
  - destruct (read_only_ad _ _ _ _ RO E) as (s & E' & SE). rewrite E' in E1. injection E1 as <-. simpl in E2. subst s.
    destruct (ad_store ad) as [|j] eqn:EJ; [destruct SE|]. simpl in SE. subst j. exists ad. auto.
  - rewrite (read_only_ad_none _ _ _ RO E) in E1. discriminate.
Qed.
Lemma ro_share w w' a b : read_only w w' -> share_nothing w a b -> share_nothing w' a b.
Proof.
  intros RO [H1 H2]. split.
  - intros r. rewrite !(read_only_holds _ _ _ _ RO). apply H1.
  - intros i j A B. apply H2; eapply ro_redis; eauto.
Qed.

Lemma sync_others fuel h dst src dc flags cb given w a :
  a <> dst -> w_ok w -> share_nothing w a dst ->
  intact w (fst (sync_from fuel h dst src dc flags cb given w)) a.
Proof.
  intros NE OK SH. destruct (sync_from_split fuel h dst src dc flags cb given w) as [(RO & _)|(d & wd & _ & _ & RO & _ & ->)].
  - now apply ro_intact.
  - eapply intact_trans; [now apply (ro_intact w wd)|].
    apply (apart_intact wd _ a dst NE); [eapply read_only_w_ok; eauto|eapply ro_share; eauto|].
    now apply run_sync_apart.
Qed.
Lemma sync_source fuel h dst src dc flags cb given w :
  src <> dst -> w_ok w -> share_nothing w src dst ->
  intact w (fst (sync_from fuel h dst src dc flags cb given w)) src.
Proof. apply sync_others. Qed.

(** ** The destination *)
Lemma run_sync_frame w dst da d env : nth_error (w_ads w) dst = Some da -> proper_dst w dst ->
  sets_no_identifier w dst (d_groups d) -> sv_dst env = dst ->
  frame w dst da (d_groups d) (fst (run_sync env d w)).
Proof.
  intros HDA (H1 & H2 & H3 & H4) HI ED.
  assert (H4' : forall t c, dget (ad_classes da) t = Some c -> kids_are_fields c) by (intros t c; exact (H4 da t c HDA)).
  apply (keep_run_sync _ _ _ _ _ _ _ _ _ _ _ (frame_rules w dst da (d_groups d) HDA H3 H4' HI H2 env ED) d w eq_refl).
  - intros e I. apply In_children in I as (t & g & n & I1 & I2). eapply occ_here; eauto.
  - now apply frame_init.
  - intros e _ r E. discriminate.
Qed.
Lemma ro_proper w w' dst : read_only w w' -> proper_dst w dst -> proper_dst w' dst.
Proof.
  intros RO (H1 & H2 & H3 & H4). split; [eapply ro_local_ok; eauto|]. split; [eapply ro_keyed; eauto|]. split.
  - intros c H. apply H3. eapply ro_dst_class; eauto.
  - intros ad t c E G. destruct (ro_classes _ _ _ RO _ E) as (ad0 & B1 & B2). rewrite B2 in G. eauto.
Qed.
Lemma proper_ad w dst : proper_dst w dst -> exists da, nth_error (w_ads w) dst = Some da.
Proof. intros ((ad & _ & E & _) & _). eauto. Qed.

Lemma sync_touches fuel h dst src dc flags cb given w k r o :
  proper_dst w dst -> lookup w dst (fst k) (snd k) = Some r -> nth_error (w_heap w) r = Some o ->
  (forall d, uses fuel dst src dc flags cb given w d ->
     sets_no_identifier w dst (d_groups d) /\ ~ mentioned w dst (d_groups d) not_create_act k /\ ~ doomed w dst (d_groups d) k) ->
  let w' := fst (sync_from fuel h dst src dc flags cb given w) in
  lookup w' dst (fst k) (snd k) = Some r /\ exists o', nth_error (w_heap w') r = Some o' /\ same_data o o'.
Proof.
  intros HP HL Ho HU. cbv zeta.
  destruct (sync_from_split fuel h dst src dc flags cb given w) as [(RO & _)|(d & wd & U & _ & RO & _ & ->)].
  - split; [now rewrite (read_only_lookup _ _ _ _ _ RO)|]. exists o. split; [eapply read_only_nth; eauto|]. repeat split.
  - destruct (HU d U) as (HI & HM & HD). pose proof HP as (_ & HK & _).
    destruct (proper_ad _ _ (ro_proper _ _ _ RO HP)) as [da HDA].
    pose proof (run_sync_frame wd dst da d (mkSEnv src dst flags (diff_len d) cb h fuel) HDA (ro_proper _ _ _ RO HP)
       (ro_ids _ _ _ RO HK _ HI) eq_refl) as F.
    set (w' := fst (run_sync _ d wd)) in *.
    assert (HLd : lookup wd dst (fst k) (snd k) = Some r) by (now rewrite (read_only_lookup _ _ _ _ _ RO)).
    pose proof (read_only_nth _ _ _ _ RO Ho) as Hod. split.
    + destruct (fr_kept _ _ _ _ _ F k r HLd) as [X|X]; [exact X|]. exfalso. apply HD. eapply ro_doomed; eauto.
    + apply (fr_same _ _ _ _ _ F r o Hod). intros OP.
      assert (L : r < length (w_heap wd)) by (apply nth_error_Some; congruence).
      destruct (OP L) as (k' & HL' & T). apply HM. apply (ro_mentioned _ _ _ RO).
      assert (k' = k); [|now subst k'].
      rewrite (read_only_lookup _ _ _ _ _ RO) in HL'.
      destruct (HK _ _ _ HL) as (o1 & Ho1 & T1 & U1 & _). destruct (HK _ _ _ HL') as (o2 & Ho2 & T2 & U2 & _).
      rewrite Ho1 in Ho2. injection Ho2 as <-. destruct k, k'; simpl in *. congruence.
Qed.

Lemma sync_consistent fuel h dst src dc flags cb given w :
  proper_dst w dst ->
  (forall d, uses fuel dst src dc flags cb given w d -> sets_no_identifier w dst (d_groups d)) ->
  let w' := fst (sync_from fuel h dst src dc flags cb given w) in
  local_ok w' dst /\ keyed w' dst /\
  (forall k k' r, lookup w' dst (fst k) (snd k) = Some r -> lookup w' dst (fst k') (snd k') = Some r -> k = k') /\
  (forall k r o t u, lookup w' dst (fst k) (snd k) = Some r -> nth_error (w_heap w') r = Some o -> lists o t u ->
     (exists o0, nth_error (w_heap w) r = Some o0 /\ lists o0 t u) \/
     lookup w' dst t u <> None \/
     exists d, uses fuel dst src dc flags cb given w d /\
       (mentioned w dst (d_groups d) is_delete_act (t, u) \/ deletes_below w dst (d_groups d))).
Proof.
  intros HP HU. cbv zeta. pose proof HP as (HL & HK & _).
  assert (ONE : forall w', keyed w' dst -> forall k k' r, lookup w' dst (fst k) (snd k) = Some r ->
     lookup w' dst (fst k') (snd k') = Some r -> k = k').
  { intros w' K k k' r H1 H2. destruct (K _ _ _ H1) as (o1 & Ho1 & T1 & U1 & _). destruct (K _ _ _ H2) as (o2 & Ho2 & T2 & U2 & _).
    rewrite Ho1 in Ho2. injection Ho2 as <-. destruct k, k'; simpl in *. congruence. }
  destruct (sync_from_split fuel h dst src dc flags cb given w) as [(RO & _)|(d & wd & U & _ & RO & _ & ->)].
  - pose proof (ro_keyed _ _ _ RO HK) as K'. split; [eapply ro_local_ok; eauto|]. split; [exact K'|]. split; [now apply ONE|].
    intros k r o t u H1 H2 H3. left. exists o. split; [|exact H3]. eapply ro_obj; eauto.
  - pose proof (HU d U) as HI.
    destruct (proper_ad _ _ (ro_proper _ _ _ RO HP)) as [da HDA].
    pose proof (run_sync_frame wd dst da d (mkSEnv src dst flags (diff_len d) cb h fuel) HDA (ro_proper _ _ _ RO HP)
       (ro_ids _ _ _ RO HK _ HI) eq_refl) as F.
    set (w' := fst (run_sync _ d wd)) in *.
    split. { destruct (fr_reg _ _ _ _ _ F) as [l R]. eapply RegOf_local_ok; eauto. }
    split; [exact (fr_keyed _ _ _ _ _ F)|]. split; [exact (ONE _ (fr_keyed _ _ _ _ _ F))|].
    intros k r o t u H1 H2 H3.
    destruct (fr_gains _ _ _ _ _ F k r H1 o t u H2 H3) as [[L (o0 & Ho0 & HL0)]|[X|[X|X]]].
    + left. pose proof (fr_orig _ _ _ _ _ F k r H1 L) as HO. exists o0. split; [|exact HL0]. eapply ro_obj; eauto.
    + right; left. exact X.
    + right; right. exists d. split; [exact U|]. left. now apply (ro_mentioned _ _ _ RO).
    + right; right. exists d. split; [exact U|]. right.
      destruct X as (kd & (e & M1 & M2 & M3) & X). exists e, kd. split; [exact M1|]. split; [exact M2|].
      split; [now apply (ro_names _ _ _ RO)|]. destruct X as [(r1 & o1 & Y1 & Y2 & Y3)|(o1 & (e' & c & Z1 & Z2 & Z3 & Z4 & Z5 & Z6) & Y)].
      * left. exists r1, o1. split; [now rewrite <- (read_only_lookup _ _ _ _ _ RO)|]. split; [|exact Y3]. eapply ro_obj; eauto.
      * right. destruct (ro_classes _ _ _ RO _ HDA) as (ad0 & B1 & B2). exists e', ad0, c. split; [exact Z1|]. split; [exact Z2|].
        split; [now apply (ro_names _ _ _ RO)|]. split; [exact B1|]. rewrite <- B2. split; [exact Z3|]. congruence.
Qed.
