(** * SyncPair: the objects behind the elements of a computed diff. *)
From Verif Require Export SyncFrom.

Lemma compared_trans flags rs rd ss dd ss1 dd1 ss2 dd2 :
  compared flags rs rd ss dd ss1 dd1 -> compared flags rs rd ss1 dd1 ss2 dd2 -> compared flags rs rd ss dd ss2 dd2.
Proof.
  intros H1 H2. induction H2 as [|ss3 dd3 so do ss4 dd4 C IH PA NS CL]; [exact H1|]. eapply cmp_below; eauto.
Qed.
Lemma visible_compared flags rs rd ss dd so do : visible flags rs rd ss dd so do ->
  exists ss' dd', compared flags rs rd ss dd ss' dd' /\ pair_at ss' dd' so do.
Proof.
  induction 1 as [ss dd so do PA NS|ss dd so do ss' dd' so' do' PA NS CL V IH].
  - exists ss, dd. split; [constructor|exact PA].
  - destruct IH as (s2 & d2 & C & P). exists s2, d2. split; [|exact P].
    eapply compared_trans; [|exact C]. eapply cmp_below; [constructor|exact PA|exact NS|exact CL].
Qed.
(** members of the lists compared *)
Lemma compared_members w src dst flags ss dd ss' dd' :
  compared flags (objs_by w src) (objs_by w dst) ss dd ss' dd' ->
  (forall o, In o ss' -> In o ss \/ exists us t l, objs_by w src us t = Ok l /\ In o l) /\
  (forall o, In o dd' -> In o dd \/ exists us t l, objs_by w dst us t = Ok l /\ In o l).
Proof.
  intros C. destruct C as [|ss1 dd1 so do ss2 dd2 C PA NS CL]; [split; auto|].
  destruct CL as (mp & n & t & f & _ & _ & K1 & K2). split; intros o I; right.
  - unfold kids_of in K1. destruct so as [s|]; [|injection K1 as <-; destruct I].
    destruct (dget (o_kids s) f) as [us|]; [|discriminate]. eauto.
  - unfold kids_of in K2. destruct do as [s|]; [|injection K2 as <-; destruct I].
    destruct (dget (o_kids s) f) as [us|]; [|discriminate]. eauto.
Qed.
(** a held object is stored under its own key *)
Lemma member_stored w a o : keyed w a -> (exists ad d, is_local w a ad d) -> local_ok w a ->
  (exists t l, objs_all w a t = Ok l /\ In o l) \/ (exists us t l, objs_by w a us t = Ok l /\ In o l) ->
  exists r u, nth_error (w_heap w) r = Some o /\ get_unique_id o = Ok u /\ lookup w a (get_type o) u = Some r.
Proof.
  intros K (ad & d & [E ES]) LO H.
  assert (G : exists t u r, lookup w a t u = Some r /\ nth_error (w_heap w) r = Some o).
  { destruct H as [(t & l & HA & I)|(us & t & l & HA & I)].
    - unfold objs_all in HA. rewrite E, ES in HA. destruct (rmapM_In_iff _ _ _ _ HA I) as (r & Ir & X).
      destruct (nth_error (w_heap w) r) as [o'|] eqn:Ho; [|discriminate]. injection X as ->.
      unfold dvals in Ir. apply in_map_iff in Ir as ([u r'] & X & Iu). simpl in X. subst r'.
      exists t, u, r. split; [|exact Ho]. rewrite (lookup_local w a ad d t u (conj E ES)).
      apply In_dget; [|exact Iu]. destruct LO as (ad' & d' & E1 & E2 & N1 & N2). rewrite E in E1. injection E1 as <-.
      rewrite ES in E2. injection E2 as <-. apply (N2 t). eapply In_bucket_In; eauto.
    - unfold objs_by in HA. destruct us as [|u0 us]; [injection HA as <-; destruct I|]. rewrite E, ES in HA.
      match type of HA with rbind ?x _ = _ => destruct x as [rs|] eqn:R end; [|discriminate]. simpl in HA.
      destruct (rmapM_In_iff _ _ _ _ HA I) as (r & Ir & X).
      destruct (nth_error (w_heap w) r) as [o'|] eqn:Ho; [|discriminate]. injection X as ->.
      destruct (rmapM_In_iff _ _ _ _ R Ir) as (u & Iu & X).
      exists t, u, r. split; [|exact Ho]. rewrite (lookup_local w a ad d t u (conj E ES)).
      destruct (dget (bucket d t) u); [congruence|discriminate]. }
  destruct G as (t & u & r & L & Ho). destruct (K _ _ _ L) as (o' & Ho' & Ht & Hu & _).
  rewrite Ho in Ho'. injection Ho' as <-. exists r, u. rewrite Ht. auto.
Qed.

Section Computed.
  Variables (w : world) (src dst : aid) (sa da : adapter) (fuel : nat) (dc : diffclass) (flags : N) (cb : bool) (d : diff).
  Hypothesis OK : w_ok w.
  Hypothesis HS : nth_error (w_ads w) src = Some sa.
  Hypothesis HD : nth_error (w_ads w) dst = Some da.
  Hypothesis RUN : snd (diff_from fuel dst src dc flags cb w) = Ok d.
  Hypothesis LO : local_ok w dst.
  Hypothesis KE : keyed w dst.
  Hypothesis SI : same_ids w dst.

  Lemma elem_pair x : occurs x (d_groups d) -> exists so do u,
    describes (ad_name sa) (ad_name da) x so do /\ ~ suppressed flags so do /\
    (forall s, so = Some s -> get_unique_id s = Ok u /\ get_type s = e_type x) /\
    (forall d2, do = Some d2 -> get_type d2 = e_type x /\
       exists r, nth_error (w_heap w) r = Some d2 /\ lookup w dst (e_type x) u = Some r) /\
    (forall k, names w dst x k -> k = (e_type x, u)).
  Proof.
    intros O. destruct (run_sound w src dst sa da fuel dc flags cb OK HS HD d x RUN O) as (so & do & SH & DE & NS).
    pose proof (shown_held _ _ _ _ _ _ _ _ SH) as [HH1 HH2].
    destruct SH as (t & ss & dd & T & V). destruct (visible_compared _ _ _ _ _ _ _ V) as (ss' & dd' & C & PA).
    pose proof PA as (u & Eso & Edo & NN). exists so, do, u. split; [exact DE|]. split; [exact NS|].
    assert (COR : forall s d2, so = Some s -> do = Some d2 -> get_type s = get_type d2).
    { intros s d2 -> ->. apply (run_corresponding w src dst sa da fuel dc flags cb OK HS HD t ss dd ss' dd' d s d2 RUN T C PA). }
    destruct DE as (_ & _ & _ & _ & o & EO & ET & _ & EK).
    assert (TY : (forall s, so = Some s -> get_type s = e_type x) /\ (forall d2, do = Some d2 -> get_type d2 = e_type x)).
    { unfold either in EO. destruct so as [s|].
      - injection EO as <-. split; [intros s' Es; injection Es as <-; congruence|]. intros d2 Ed. rewrite <- (COR s d2 eq_refl Ed). congruence.
      - split; [discriminate|]. intros d2 Ed. rewrite EO in Ed. injection Ed as <-. congruence. }
    destruct TY as [TY1 TY2].
    assert (US : forall s, so = Some s -> get_unique_id s = Ok u).
    { intros s ->. symmetry in Eso. now apply with_uid_Some in Eso as [_ ?]. }
    assert (UD : forall d2, do = Some d2 -> In d2 dd' /\ get_unique_id d2 = Ok u).
    { intros d2 ->. symmetry in Edo. now apply with_uid_Some in Edo. }
    split; [intros s Es; split; auto|]. split.
    - intros d2 Ed. split; [auto|]. destruct (UD d2 Ed) as [I Hu].
      pose proof LO as (ad1 & dd1 & L1 & L2 & _).
      destruct (member_stored w dst d2 KE (ex_intro _ ad1 (ex_intro _ dd1 (conj L1 L2))) LO) as (r & u' & Hr & Hu' & HL).
      + destruct (proj2 (compared_members _ _ _ _ _ _ _ _ C) d2 I) as [J|J]; [|now right].
        left. exists t, dd. split; [apply T|exact J].
      + exists r. split; [exact Hr|]. rewrite (TY2 d2 Ed) in HL. congruence.
    - intros k (ad & c & N1 & N2 & N3 & N4).
      assert (HO : held w o /\ get_unique_id o = Ok u /\ get_type o = e_type x).
      { unfold either in EO. destruct so as [s|].
        - injection EO as <-. auto.
        - subst do. destruct (UD o eq_refl). auto. }
      destruct HO as ((o0 & HX & HE) & Huo & HTo).
      assert (OC : o_cls o0 = o_cls o) by (destruct HE as [->|[a ->]]; reflexivity).
      destruct (SI ad (e_type x) c o0 N1 N2 HX) as [M1 M2].
      { unfold get_type in *. now rewrite OC. }
      destruct k as [k1 k2]. simpl in *. f_equal; [congruence|].
      rewrite EK in N4. unfold get_unique_id in Huo. unfold create_unique_id in *. rewrite M2, OC in N4. congruence.
  Qed.

  Lemma ignored_unnamed k r o : lookup w dst (fst k) (snd k) = Some r -> nth_error (w_heap w) r = Some o -> ignored o ->
    ~ mentioned w dst (d_groups d) not_create_act k.
  Proof.
    intros HL Ho HI (e & M1 & M2 & M3). destruct (elem_pair e M1) as (so & do & u & DE & NS & _ & PD & PN).
    pose proof (PN k M3) as ->. simpl in HL.
    destruct do as [d2|].
    - destruct (PD d2 eq_refl) as (_ & r' & Hr' & HL'). rewrite HL in HL'. injection HL' as <-.
      rewrite Ho in Hr'. injection Hr' as <-. apply NS. unfold suppressed, ignored in *. destruct so; auto.
    - destruct DE as (_ & _ & E1 & E2 & o1 & EO & _). destruct so as [s|]; [|discriminate].
      apply M2. unfold e_action, e_attrs_diffs, get_attrs_diffs, attrs_action. simpl in E1, E2. now rewrite E1, E2.
  Qed.
End Computed.

Lemma sync_ignored fuel h dst src dc flags cb w sa k r o :
  w_ok w -> nth_error (w_ads w) src = Some sa -> proper_dst w dst -> same_ids w dst ->
  lookup w dst (fst k) (snd k) = Some r -> nth_error (w_heap w) r = Some o -> ignored o ->
  (forall d, snd (diff_from fuel dst src dc flags cb w) = Ok d ->
     sets_no_identifier w dst (d_groups d) /\
     forall kd r' o', mentioned w dst (d_groups d) is_delete_act kd -> lookup w dst (fst kd) (snd kd) = Some r' ->
       nth_error (w_heap w) r' = Some o' -> skips_children (o_flags o') -> ~ reaches w dst kd k) ->
  let w' := fst (sync_from fuel h dst src dc flags cb None w) in
  lookup w' dst (fst k) (snd k) = Some r /\ exists o', nth_error (w_heap w') r = Some o' /\ same_data o o'.
Proof.
  intros OK HS HP SI HL Ho HI H. apply sync_touches; auto. intros d U.
  destruct U as [(E & _)|(_ & RUN)]; [discriminate|]. destruct (H d RUN) as [H1 H2]. pose proof HP as (LO & KE & _).
  destruct (proper_ad _ _ HP) as [da HDA].
  pose proof (ignored_unnamed w src dst sa da fuel dc flags cb d OK HS HDA RUN LO KE SI k r o HL Ho HI) as NM.
  split; [exact H1|]. split; [exact NM|]. intros [D|(kd & r' & o' & D1 & D2 & D3 & D4 & D5)].
  - apply NM. destruct D as (e & D1 & D2 & D3). exists e. split; [exact D1|]. split; [|exact D3]. unfold is_delete_act in D2.
    unfold not_create_act. rewrite D2. discriminate.
  - eapply H2; eauto.
Qed.
