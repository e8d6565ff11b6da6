(** * CopyTop: copies, whole synchronisations. *)
From Verif Require Export CopyFacts ConvFirst ConvSample.

Lemma sync_copies fuel h dst src dcd dc flags fl cbd cb given w d sa da : alike w fuel src dst sa da -> hooks_succeed h -> spares_attributes da h ->
  snd (diff_from fuel dst src dcd flags cbd w) = Ok d -> yields_once (dc_order (d_class d)) -> uses fuel dst src dc fl cb given w d ->
  entire w flags src dst sa da ->
  exists w', sync_from fuel h dst src dc fl cb given w = (w', Ok d) /\ holds_copy w src w' dst /\ local_ok w' dst /\ keyed w' dst /\
    forall o, read w' src o <-> read w src o.
Proof.
  intros AL HK SP DF YO US [NF S1 D1 TP RT AT]. apply (diff_from_iff fuel dst src dcd flags cbd w sa da) in DF as (sk & FD & _); try apply AL.
  destruct (sync_ends fuel h dst src dc flags fl cb given w d sa da AL (spared da) HK (write_spared da h SP) YO sk FD US) as (w' & E & GD & MV & DN & wd & RO & AP).
  exists w'. split; [exact E|]. split; [|split; [apply GD|split; [apply GD|]]].
  - eapply copied with (WX := spared da); eauto using spared_not.
  - pose proof (end_all fuel h dst src fl cb w d sa da AL w' wd MV RO AP) as EA. pose proof (end_by fuel h dst src fl cb w d sa da AL w' wd MV RO AP) as EB.
    intros o. unfold read. split; intros (t & l & I & [X|(us & X)]); exists t, l; (split; [exact I|]).
    + left. now rewrite <- EA.
    + right. exists us. now rewrite <- EB.
    + left. now rewrite EA.
    + right. exists us. now rewrite EB.
Qed.
Lemma sync_copies_all fuel h dst src dc flags cb w sa da : alike w fuel src dst sa da -> comparable w fuel src dst sa da ->
  hooks_succeed h -> spares_attributes da h -> yields_once (dc_order dc) -> entire w flags src dst sa da ->
  exists w' d, sync_from fuel h dst src dc flags cb None w = (w', Ok d) /\ holds_copy w src w' dst /\ local_ok w' dst /\ keyed w' dst /\
    forall o, read w' src o <-> read w src o.
Proof.
  intros AL CM HK SP YO WH. destruct (compares fuel dst src dc flags cb w sa da AL CM) as (d & D). pose proof D as D'.
  apply (diff_from_iff fuel dst src dc flags cb w sa da) in D' as (_ & _ & DC & _); try apply AL.
  destruct (sync_copies fuel h dst src dc dc flags flags cb cb None w d sa da AL HK SP D) as (w' & E & H).
  - now rewrite DC.
  - right. split; [now left|exact D].
  - exact WH.
  - exists w', d. auto.
Qed.

(** all about one synchronisation *)
Lemma sync_exact fuel h dst src dc flags cb w sa da : alike w fuel src dst sa da -> comparable w fuel src dst sa da ->
  hooks_succeed h -> spares_attributes da h -> yields_once (dc_order dc) -> entire w flags src dst sa da ->
  exists w' d, sync_from fuel h dst src dc flags cb None w = (w', Ok d) /\ holds_copy w src w' dst /\ ConvSteps.good dst da w' /\ w_ok w' /\ w_redis w' = w_redis w /\
    (forall b ad, b <> dst -> nth_error (w_ads w) b = Some ad -> exists s', nth_error (w_ads w') b = Some (set_ad_store ad s') /\ store_ext (ad_store ad) s') /\
    (forall t u r, lookup w' dst t u = Some r -> lookup w dst t u = Some r \/ length (w_heap w) <= r) /\
    forall s k r o, read w src s -> is_key s k -> lookup w' dst (fst k) (snd k) = Some r -> nth_error (w_heap w') r = Some o ->
      exists c, dget (ad_classes da) (fst k) = Some c /\
        ((exists z, read w dst z /\ is_key z k /\ o_flags o = o_flags z /\ dkeys (o_vals o) = dkeys (o_vals z) /\ forall f, In f (c_identifiers c) -> dget (o_vals o) f = dget (o_vals z) f) \/
         (o_flags o = c_flags c /\ NoDup (dkeys (o_vals o)) /\ forall f, In f (c_identifiers c) -> dget (o_vals o) f = dget (o_vals s) f)).
Proof.
  intros AL CM HK SP YO [NF S1 D1 TP RT AT]. destruct (compares fuel dst src dc flags cb w sa da AL CM) as (d & D).
  assert (US : uses fuel dst src dc flags cb None w d) by (right; split; [now left|exact D]).
  apply (diff_from_iff fuel dst src dc flags cb w sa da) in D as (sk & FD & DC & _); try apply AL. rewrite <- DC in YO.
  destruct (sync_ends fuel h dst src dc flags flags cb None w d sa da AL (spared da) HK (write_spared da h SP) YO sk FD US) as (w' & E & GD & MV & DN & wd & RO & AP).
  exists w', d. split; [exact E|]. split; [eapply copied with (WX := spared da); eauto using spared_not|]. split; [exact GD|].
  split; [exact (end_ok fuel dst src w sa da AL w' wd GD RO AP)|]. split; [apply (mv_redis _ _ _ _ _ MV)|]. split; [apply (mv_other _ _ _ _ _ MV)|].
  split; [intros t u r L; exact (mv_new _ _ _ _ _ MV (t, u) r L)|].
  intros s k r o R K L H. destruct (src_pos fuel h dst src dc flags flags cb None w d sa da AL sk FD US NF S1 D1 TP k (RT s k R K)) as (n & s' & do & P).
  destruct (pos_key _ _ _ _ _ (AL : alike w (sv_fuel (env0 fuel h dst src flags cb d)) src dst sa da) _ _ _ _ P) as (KS & KD). destruct (KS s' eq_refl) as (R' & K').
  assert (s' = s) by (eapply (fo_single _ _ _ (al_sforest _ _ _ _ _ _ AL)); eassumption). subst s'.
  destruct (src_origin fuel h dst src dc flags flags cb None w d sa da AL (spared da) sk FD US NF S1 D1 w' DN n k s do r o P L H) as (c & C & X).
  exists c. split; [exact C|]. destruct do as [z|]; [left|right; exact X]. exists z. destruct (KD z eq_refl) as (RZ & KZ). auto.
Qed.

(** ** Numbers of objects *)
Lemma stored_keys_iff w a : local_ok w a -> keyed w a -> exists l, NoDup l /\ length l = count_all w a /\ forall k, In k l <-> exists o, read w a o /\ is_key o k.
Proof.
  intros LO KY. pose proof LO as (ad & d & A & B & N1 & N2). exists (stored_keys d). split; [now apply stored_keys_NoDup|]. split; [eapply stored_keys_count; eauto|].
  intros [t u]. assert (X : In (t, u) (stored_keys d) <-> lookup w a t u <> None).
  { unfold stored_keys, lookup. rewrite A, B, in_flat_map. unfold bucket. split.
    - intros ([m b] & I & J). cbn [fst snd] in J. apply in_map_iff in J as (u' & E & J). injection E as -> ->. rewrite (In_dget _ _ _ N1 I).
      intros N. now apply dget_None in N.
    - destruct (dget d t) as [b|] eqn:G; [|simpl; congruence]. intros N. exists (t, b). split; [now apply dget_Some_In|]. cbn [fst snd]. apply in_map_iff. exists u. split; [reflexivity|].
      destruct (dget b u) as [r|] eqn:G'; [|congruence]. apply dget_Some_In in G'. unfold dkeys. apply in_map_iff. exists (u, r). auto. }
  rewrite X. split.
  - intros N. destruct (lookup w a t u) as [r|] eqn:L; [|congruence]. destruct (KY _ _ _ L) as (o & H & T & U & _). exists o. apply (read_iff w a LO KY). apply stored_iff; [exact LO|]. exists r. auto.
  - intros (o & R & K). assert (I : In ((t, u), o) (stored_objs w a)) by (apply (read_iff w a LO KY); auto). apply stored_iff in I as (r & L & _); [|exact LO]. simpl in L. congruence.
Qed.
Lemma copy_count w a w' b : local_ok w a -> keyed w a -> local_ok w' b -> keyed w' b -> holds_copy w a w' b -> count_all w' b = count_all w a.
Proof.
  intros L1 K1 L2 K2 (C1 & C2). destruct (stored_keys_iff w a L1 K1) as (l & N & <- & I). destruct (stored_keys_iff w' b L2 K2) as (l' & N' & <- & I').
  apply Permutation_length. apply NoDup_Permutation; auto. intros k. rewrite I, I'. split.
  - intros (o & R & K). eauto.
  - intros (s & R & K). destruct (C1 s k R K) as (o & R' & K' & _). eauto.
Qed.

(** ** Checking [entire] on concrete LocalStores *)
Definition unflaggedb (w : world) (a : aid) : bool := forallb (fun ko => N.eqb (N.land (o_flags (snd ko)) 13) 0) (stored_objs w a).
Lemma unflaggedb_ok w a : local_ok w a -> unflaggedb w a = true -> unflagged w a.
Proof.
  intros LO H o R. destruct (read_stored w a LO o R) as (k & I). unfold unflaggedb in H. rewrite forallb_forall in H. specialize (H _ I). apply N.eqb_eq in H. cbn [snd] in H.
  assert (X : forall n, N.testbit (N.land (o_flags o) 13) n = false) by (intros n; rewrite H; apply N.bits_0).
  repeat split; [specialize (X 0%N)|specialize (X 2%N)|specialize (X 3%N)]; rewrite N.land_spec in X; change (N.testbit 13 0) with true in X; change (N.testbit 13 2) with true in X; change (N.testbit 13 3) with true in X; now rewrite andb_true_r in X.
Qed.
Fixpoint rootedb (n : nat) (w : world) (a : aid) (tops : list string) (k : key) : bool :=
  match n with
  | O => false
  | S n' => smem (fst k) tops || existsb (fun l => keyb (snd l) k && rootedb n' w a tops (fst l)) (links w a)
  end.
Lemma rootedb_ok n w a tops : local_ok w a -> keyed w a -> w_ok w -> forall k o, read w a o -> is_key o k -> rootedb n w a tops k = true -> rooted w a tops k.
Proof.
  intros LO KY OK. induction n as [|n IH]; intros k o R K H; [discriminate|]. simpl in H. apply orb_true_iff in H as [H|H].
  - apply smem_In in H. pose proof LO as (ad & d & A & B & _). destruct (all_reads w a ad d (fst k) OK A B) as (l & E).
    assert (I : In o l).
    { assert (J : In (k, o) (stored_objs w a)) by (apply (read_iff w a LO KY); auto). apply stored_iff in J as (r & L & Hr); [|exact LO].
      pose proof E as F. apply (local_all w a (fst k) l ad d A B) in F. unfold lookup in L. rewrite A, B in L. apply dget_Some_In in L.
      assert (IR : In r (dvals (bucket d (fst k)))) by (unfold dvals; apply in_map_iff; exists (snd k, r); auto).
      destruct (Forall2_in_l _ _ _ _ F IR) as (o' & Io & Ho). congruence. }
    destruct k as [t u]. exact (root_top w a tops t u l o H E I K).
  - apply existsb_exists in H as ([p k'] & I & H). cbn [fst snd] in H. apply andb_true_iff in H as (E & H). apply keyb_ok in E as ->.
    assert (LI : listed w a p k) by (apply (listed_iff w a LO KY); exact I). pose proof LI as (po & RP & KP & _). eapply root_kid; [|exact LI]. eapply IH; eauto.
Qed.
Definition attrsb (w : world) (a : aid) : bool := forallb (fun ko => forallb (fun k => dmem (o_vals (snd ko)) k) (c_attributes (o_cls (snd ko)))) (stored_objs w a).
Lemma attrsb_ok w a : local_ok w a -> attrsb w a = true -> attributes_set w a.
Proof.
  intros LO H o k R I. destruct (read_stored w a LO o R) as (k0 & J). unfold attrsb in H. rewrite forallb_forall in H. specialize (H _ J). rewrite forallb_forall in H.
  specialize (H _ I). cbn [snd] in H. apply dmem_In in H. intros N. now apply dget_None in N.
Qed.
Definition entireb (n : nat) (w : world) (flags : N) (src dst : aid) (sa da : adapter) : bool :=
  N.eqb (N.land flags 6) 0 && unflaggedb w src && unflaggedb w dst && forallb (fun t => smem t (ad_top da)) (ad_top sa) && forallb (fun t => smem t (ad_top sa)) (ad_top da) &&
  forallb (fun ko => rootedb n w src (ad_top sa) (fst ko)) (stored_objs w src) && attrsb w dst.
Lemma entireb_ok n w flags src dst sa da : w_ok w -> local_ok w src -> keyed w src -> local_ok w dst -> entireb n w flags src dst sa da = true -> entire w flags src dst sa da.
Proof.
  intros OK LS KS LD H. unfold entireb in H. rewrite !andb_true_iff in H. destruct H as [[[[[[H1 H2] H3] H4] H5] H6] H7]. constructor.
  - apply N.eqb_eq in H1. assert (X : forall n, N.testbit (N.land flags 6) n = false) by (intros m; rewrite H1; apply N.bits_0).
    split; [specialize (X 1%N)|specialize (X 2%N)]; rewrite N.land_spec in X; change (N.testbit 6 1) with true in X; change (N.testbit 6 2) with true in X; now rewrite andb_true_r in X.
  - now apply unflaggedb_ok.
  - now apply unflaggedb_ok.
  - rewrite forallb_forall in H4, H5. intros t. split; intros I; apply smem_In; auto.
  - rewrite forallb_forall in H6. intros o k R K. eapply rootedb_ok; eauto. apply (H6 (k, o)). apply (read_iff w src LS KS). auto.
  - now apply attrsb_ok.
Qed.
