(** * ConvEnd: the diff after a synchronisation. *)
From Verif Require Export ConvAgain.

(** ** The source is read as before *)
Section Source.
  Variables (w wd w' : world) (src dst : aid).
  Hypothesis NE : src <> dst.
  Hypothesis OK : w_ok w.
  Hypothesis SH : share_nothing w src dst.
  Hypothesis RO : read_only w wd.
  Hypothesis AP : SyncFacts.apart wd dst w'.
  Hypothesis RE : w_redis w' = w_redis w.

  Lemma held_same r : (exists ad d t, nth_error (w_ads wd) src = Some ad /\ ad_store ad = SLocal d /\ In r (dvals (bucket d t))) ->
    nth_error (w_heap w') r = nth_error (w_heap wd) r.
  Proof.
    intros (ad & d & t & E1 & E2 & I). apply (ap_heap _ _ _ AP). pose proof (read_only_w_ok _ _ OK RO) as OKD. pose proof (ro_share _ _ _ _ RO SH) as [SH1 _].
    unfold dvals in I. apply in_map_iff in I as ([u r'] & X & I). simpl in X. subst r'.
    intros [L|H].
    - pose proof (In_bucket_In _ _ _ I) as J. pose proof (OKD src ad d t (bucket d t) u r E1 E2 J I). lia.
    - apply (SH1 r); [|exact H]. exists ad, d, t, u. split; [split; assumption|exact I].
  Qed.
  Lemma deref_held rs : (forall r, In r rs -> nth_error (w_heap w') r = nth_error (w_heap wd) r) -> deref w' rs = deref wd rs.
  Proof. intros H. unfold deref. apply rmapM_ext. intros r I. now rewrite (H r I). Qed.
  Lemma src_all t : objs_all w' src t = objs_all w src t.
  Proof.
    rewrite <- (read_only_objs_all _ _ src t OK RO). unfold objs_all. pose proof (ap_ads _ _ _ AP src NE) as SA. unfold same_ad in SA.
    assert (RD : w_redis w' = w_redis wd) by (rewrite RE; symmetry; apply RO).
    destruct (nth_error (w_ads wd) src) as [ad|] eqn:E, (nth_error (w_ads w') src) as [ad'|]; try tauto. destruct SA as (s & -> & SE). cbn [ad_store set_ad_store].
    destruct (ad_store ad) as [d|sid] eqn:ES, s as [d'|sid']; try destruct SE.
    - destruct H as (-> & _). rewrite bucket_ext. apply deref_held. intros r I. apply held_same. eauto 8.
    - rewrite RD. reflexivity.
  Qed.
  Lemma src_by us t : objs_by w' src us t = objs_by w src us t.
  Proof.
    rewrite <- (read_only_objs_by _ _ src us t OK RO). unfold objs_by. destruct us as [|u0 us0]; [reflexivity|]. set (us := u0 :: us0).
    pose proof (ap_ads _ _ _ AP src NE) as SA. unfold same_ad in SA. assert (RD : w_redis w' = w_redis wd) by (rewrite RE; symmetry; apply RO).
    destruct (nth_error (w_ads wd) src) as [ad|] eqn:E, (nth_error (w_ads w') src) as [ad'|]; try tauto. destruct SA as (s & -> & SE). cbn [ad_store set_ad_store].
    destruct (ad_store ad) as [d|sid] eqn:ES, s as [d'|sid']; try destruct SE.
    - destruct H as (-> & _). rewrite bucket_ext. match goal with |- context [rmapM ?f us] => destruct (rmapM f us) as [rs0|] eqn:Y end; [|reflexivity].
      cbn [rbind]. apply deref_held. intros r I. apply held_same. exists ad, d, t. split; [exact E|]. split; [exact ES|]. exact (rmapM_bucket_ok _ _ _ _ Y r I).
    - rewrite RD. reflexivity.
  Qed.
  Lemma w_ok_after : local_ok w' dst -> keyed w' dst -> w_ok w'.
  Proof.
    intros LO K a ad d m b u r E ES I1 I2. destruct (Nat.eq_dec a dst) as [->|NA].
    - destruct LO as (ad' & d' & E1 & E2 & N1 & N2). assert (d' = d) by congruence. subst d'.
      assert (L : lookup w' dst m u = Some r).
      { unfold lookup. rewrite E, ES. unfold bucket. rewrite (In_dget _ _ _ N1 I1). apply In_dget; [exact (N2 m b I1)|exact I2]. }
      destruct (K m u r L) as (o & H & _). now apply nth_error_Some_lt in H.
    - pose proof (ap_ads _ _ _ AP a NA) as SA. unfold same_ad in SA. rewrite E in SA. destruct (nth_error (w_ads wd) a) as [ad0|] eqn:E0; [|destruct SA].
      destruct SA as (s & -> & SE). cbn [ad_store set_ad_store] in ES. subst s. destruct (ad_store ad0) as [d0|] eqn:ES0; [|destruct SE].
      destruct SE as (names & -> & _). pose proof (ap_len _ _ _ AP) as LE. apply in_app_iff in I1 as [I1|I1].
      + pose proof (read_only_w_ok _ _ OK RO a ad0 d0 m b u r E0 ES0 I1 I2). lia.
      + apply in_map_iff in I1 as (x & X & _). injection X as _ <-. destruct I2.
  Qed.
End Source.

(** ** Reading with equal functions *)
Lemma kids_of_ext r r' o f t : (forall us t, r us t = r' us t) -> kids_of r o f t = kids_of r' o f t.
Proof. intros H. unfold kids_of. destruct o as [o'|]; [|reflexivity]. destruct (dget (o_kids o') f); [apply H|reflexivity]. Qed.
Lemma faithful_ext flags sn dn rs rs' rd rd' : (forall us t, rs us t = rs' us t) -> (forall us t, rd us t = rd' us t) ->
  forall m ss dd es sk, faithful flags sn dn rs rd m ss dd es sk -> faithful flags sn dn rs' rd' m ss dd es sk.
Proof.
  intros HS HD. induction m as [|m IH]; intros ss dd es sk; [auto|]. cbn [faithful].
  intros (us & vs & outs & U1 & U2 & C & F & E1 & E2). exists us, vs, outs. repeat (split; [assumption|]). split; [|auto].
  eapply Forall2_if; [|exact F]. cbv beta. intros u o (A & B). split; [exact A|]. destruct B as [B|(NS & e & mp & s0 & kids & E & D & CT & K & G)]; [now left|].
  right. split; [exact NS|]. exists e, mp, s0, kids. repeat (split; [assumption|]). split; [|exact G].
  eapply Forall2_if; [|exact K]. cbv beta. intros tf k (ss' & dd' & K1 & K2 & R). exists ss', dd'.
  rewrite <- (kids_of_ext rs rs') by exact HS. rewrite <- (kids_of_ext rd rd') by exact HD. auto.
Qed.
Lemma all_reads w a ad d t : w_ok w -> nth_error (w_ads w) a = Some ad -> ad_store ad = SLocal d -> exists l, objs_all w a t = Ok l.
Proof.
  intros OK E ES. destruct (pick_F2 (fun r o => nth_error (w_heap w) r = Some o) (dvals (bucket d t))) as (l & F).
  - intros r I. unfold dvals in I. apply in_map_iff in I as ([u r'] & X & I). simpl in X. subst r'.
    pose proof (OK a ad d t (bucket d t) u r E ES (In_bucket_In _ _ _ I) I) as L.
    destruct (nth_error (w_heap w) r) as [o|] eqn:H; [eauto|]. apply nth_error_None in H. lia.
  - exists l. eapply local_all; eauto.
Qed.

Section End_.
  Variables (fuel : nat) (h : hooks) (dst src : aid) (dc : diffclass) (flags fl : N) (cb : bool) (given : option diff) (w : world) (d : diff).
  Variables (sa da : adapter).
  Hypothesis AL : alike w fuel src dst sa da.
  Variable WX : string -> Prop.
  Hypothesis YO : yields_once (dc_order (d_class d)).
  Variable sk : nat.
  Hypothesis FD : faithful_diff flags fuel w src dst sa da (d_groups d) sk.
  Hypothesis US : uses fuel dst src dc fl cb given w d.
  Notation env := (env0 fuel h dst src fl cb d).
  Notation feet := (ConvTop.feet fuel h dst src fl cb w d da).
  Notation elem_ok := (ConvFits.elem_ok flags env w sa da (ad_name sa) (ad_name da)).
  Variables (w' wd : world).
  Hypothesis GD : good dst da w'.
  Hypothesis MV : moved dst feet None w w'.
  Hypothesis DN : forall x, In x (children (d_groups d)) -> done env da w WX x w'.
  Hypothesis RO : read_only w wd.
  Hypothesis AP : SyncFacts.apart wd dst w'.
  Let AL' : alike w (sv_fuel env) (sv_src env) (sv_dst env) sa da := AL.

  Lemma feet_ok k : feet k -> exists y n m so do, elem_ok n m y so do /\
    (akey da y = k \/ (e_action y = Some ADelete /\ reaches w dst (akey da y) k)).
  Proof.
    intros (x & I & y & Iy & Y). destruct (top_ok fuel h dst src dc flags fl cb given w d sa da AL sk FD US x I) as (m & so & do & _ & OK).
    destruct (below _ _ _ _ _ _ _ AL' _ _ _ _ _ _ OK Iy) as (j & m' & so' & do' & _ & O & _). exists y, (0 + j), m', so', do'. split; [exact O|]. destruct Y as [Y|((Y & _) & Y')]; auto.
  Qed.
  Lemma top_look t ss dd u : top_lists w src dst sa da t ss dd -> look w dst (t, u) <> None <-> with_uid u dd <> None.
  Proof.
    intros (IS & ID & AS & AD). destruct (al_local _ _ _ _ _ _ AL) as (ad & b & A & B & _).
    pose proof AD as F. apply (local_all w dst t dd ad b A B) in F. split; intros H.
    - destruct (look w dst (t, u)) as [r|] eqn:L; [|congruence]. pose proof L as L0. unfold look, lookup in L. rewrite A, B in L. simpl in L.
      pose proof (dget_Some_In _ _ _ L) as I. assert (IR : In r (dvals (bucket b t))) by (apply in_map_iff; exists (u, r); auto).
      destruct (Forall2_in_l _ _ _ _ F IR) as (o & Io & Ho). destruct (dst_read env w sa da AL' _ _ _ L0 Ho) as (_ & _ & U). simpl in U.
      intros E2. unfold with_uid in E2. apply (find_none _ _ E2) in Io || (rewrite in_rev in Io; apply (find_none _ _ E2) in Io).
      unfold has_uid in Io. rewrite U, String.eqb_refl in Io. discriminate.
    - destruct (with_uid u dd) as [o|] eqn:W; [|congruence].
      assert (Io : In o dd /\ get_unique_id o = Ok u).
      { unfold with_uid in W. apply find_some in W as (I & E). split; [first [exact I|now apply in_rev]|]. unfold has_uid in E.
        destruct (get_unique_id o) as [v|]; [|discriminate]. now apply String.eqb_eq in E as ->. }
      destruct Io as (Io & U). assert (RD : read w dst o) by (exists t, dd; auto).
      destruct (read_dst_key env w sa da AL' o (t, u) RD) as (r & L & _); [|change (look w dst (t, u) = Some r) in L; rewrite L; discriminate].
      split; [|exact U]. apply (proj1 (fo_filed _ _ _ (al_dforest _ _ _ _ _ _ AL)) t dd o (or_introl ID) AD Io).
  Qed.
  Lemma top_free t ss dd : top_lists w src dst sa da t ss dd -> free flags feet t ss dd.
  Proof.
    intros T u NN SU. eapply (free_pair flags env w sa da (ad_name sa) (ad_name da) feet AL' feet_ok 0); [|exact SU|discriminate].
    eapply top_ctx; eauto.
  Qed.
  Lemma top_unseen t ss dd u : top_lists w src dst sa da t ss dd -> either (with_uid u ss) (with_uid u dd) = None -> ~ feet (t, u).
  Proof.
    intros T N FT. assert (L0 : level env w 0 (t, u)).
    { intros p [P|P].
      - apply (fo_top _ _ _ (al_sforest _ _ _ _ _ _ AL) _ _ P). apply T.
      - apply (fo_top _ _ _ (al_dforest _ _ _ _ _ _ AL) _ _ P). apply T. }
    assert (X : forall n so do, ~ ConvTree.pos flags env w sa da n (t, u) so do).
    { intros n so do P. pose proof (pos_level _ _ _ _ _ AL' _ _ _ _ P) as LV. pose proof (level_fun env w sa da AL' _ _ _ L0 LV) as <-.
      inversion P as [t0 ss' dd' u0 so0 do0 T' E1 E2 NN|]; subst. destruct T as (_ & _ & A1 & A2). destruct T' as (_ & _ & B1 & B2).
      cbn in B1, B2. rewrite A1 in B1. rewrite A2 in B2. injection B1 as <-. injection B2 as <-. congruence. }
    destruct (feet_ok _ FT) as (y & n & m & so & do & OK & [E|(_ & R)]).
    - destruct OK as (P & _). rewrite E in P. exact (X _ _ _ P).
    - destruct (reaches_last env w _ _ R) as [E|(p & _ & C)].
      + destruct OK as (P & _). rewrite E in P. exact (X _ _ _ P).
      + apply (child_listed env w sa da AL') in C. apply (L0 p). now right.
  Qed.
  Lemma top_then t ss dd dd' ad b : top_lists w src dst sa da t ss dd -> nth_error (w_ads w') dst = Some ad -> ad_store ad = SLocal b ->
    objs_all w' dst t = Ok dd' -> then_list flags env w' t ss dd dd' (dkeys (bucket b t)).
  Proof.
    intros T A B AD. pose proof GD as (LO & _). pose proof (bucket_NoDup w' dst ad b t LO A B) as ND.
    assert (LK : forall u, look w' dst (t, u) = dget (bucket b t) u) by (intros u; unfold look, lookup; now rewrite A, B).
    split.
    - apply (local_all w' dst t dd' ad b A B) in AD. unfold dkeys, dvals in *. assert (X : forall kv, In kv (bucket b t) -> look w' dst (t, fst kv) = Some (snd kv)).
      { intros [u r] I. rewrite LK. now apply In_dget. }
      clear ND LK. revert dd' AD. induction (bucket b t) as [|[u r] l IH]; intros dd' AD; inversion AD as [|? o ? dd'' H F]; subst; constructor.
      + exists r. split; [apply (X (u, r)); now left|exact H].
      + apply IH; [intros kv I; apply X; now right|exact F].
    - intros u. assert (E : In u (dkeys (bucket b t)) <-> look w' dst (t, u) <> None).
      { rewrite LK. split; intros H.
        - intros N. apply dget_None in N. contradiction.
        - destruct (dget (bucket b t) u) as [r|] eqn:G; [|congruence]. apply dget_Some_In in G. apply in_map_iff. exists (u, r). auto. }
      rewrite E. clear E. pose proof (top_look t ss dd u T) as TL.
      destruct (either (with_uid u ss) (with_uid u dd)) as [o|] eqn:EI.
      + assert (NN : either (with_uid u ss) (with_uid u dd) <> None) by congruence.
        destruct (suppressed_dec flags (with_uid u ss) (with_uid u dd)) as [SU|NS].
        * rewrite (mv_look _ _ _ _ _ MV _ (top_free _ _ _ T u NN SU)). rewrite TL.
          destruct (with_uid u ss), (with_uid u dd); simpl in *; try tauto; split; intros; try congruence; tauto.
        * destruct (fd_top _ _ _ _ _ _ _ _ _ _ _ _ FD T) as (es & k & F & SB).
          pose proof (fuel_pos _ _ _ _ _ _ _ _ _ _ _ _ AL _ FD US) as FP. assert (EF : exists m, fuel = S m) by (destruct fuel; [congruence|eauto]). destruct EF as (m & EF). rewrite EF in F.
          destruct (list_out flags env w sa da (ad_name sa) (ad_name da) AL' 0 m t ss dd es k u) as (y & Iy & KY & OK); auto.
          { eapply top_ctx; exact T. }
          pose proof (DN y (SB y Iy) y) as D1. assert (S1 : In y (elem_all y)) by (rewrite elem_all_eq; now left). specialize (D1 S1).
          unfold done1 in D1. rewrite KY in D1. pose proof OK as (_ & _ & DS & _). destruct (ok_action _ _ _ _ _ DS) as (AC & ADL).
          destruct (with_uid u ss) as [s|] eqn:WS.
          { assert (SV : survives flags (Some s) (with_uid u dd)) by (destruct (with_uid u dd); simpl; auto). split; [auto|]. intros _.
            destruct (e_action y) as [[| |]|] eqn:EA.
            - destruct D1 as (r & o' & L & _). simpl in L. congruence.
            - destruct D1 as (r & o' & L & _). simpl in L. congruence.
            - destruct (proj2 ADL eq_refl). congruence.
            - destruct D1 as (r & o' & L & _). simpl in L. congruence. }
          { destruct (with_uid u dd) as [dd0|] eqn:WD; [|discriminate]. assert (EA : e_action y = Some ADelete) by (apply ADL; split; congruence). rewrite EA in D1.
            destruct D1 as (L & _). simpl in L. split; [intros H; now elim H|]. simpl. intros H. now elim NS. }
      + rewrite (mv_look _ _ _ _ _ MV _ (top_unseen _ _ _ u T EI)). rewrite TL. destruct (with_uid u ss), (with_uid u dd); try discriminate. simpl. tauto.
  Qed.

  Lemma src_adapter : exists s, nth_error (w_ads w') src = Some (set_ad_store sa s).
  Proof. destruct (mv_other _ _ _ _ _ MV src sa (al_apart _ _ _ _ _ _ AL) (al_src _ _ _ _ _ _ AL)) as (s & E & _). eauto. Qed.
  Lemma end_ok : w_ok w'.
  Proof. destruct GD as (LO & K & _). eapply (w_ok_after w wd w' src dst); eauto; try apply AL. Qed.
  Lemma end_all t : objs_all w' src t = objs_all w src t.
  Proof. exact (src_all w wd w' src dst (al_apart _ _ _ _ _ _ AL) (al_refs _ _ _ _ _ _ AL) (al_share _ _ _ _ _ _ AL) RO AP (mv_redis _ _ _ _ _ MV) t). Qed.
  Lemma end_by us t : objs_by w' src us t = objs_by w src us t.
  Proof. exact (src_by w wd w' src dst (al_apart _ _ _ _ _ _ AL) (al_refs _ _ _ _ _ _ AL) (al_share _ _ _ _ _ _ AL) RO AP (mv_redis _ _ _ _ _ MV) us t). Qed.

  (** the diff afterwards *)
  Lemma diff_after dc' cb' : exists d', snd (diff_from fuel dst src dc' flags cb' w') = Ok d' /\ forall x, occurs x (d_groups d') -> but_written da WX x.
  Proof.
    destruct src_adapter as (s1 & ES). pose proof GD as (LO & K & s2 & ED). pose proof end_ok as OK.
    destruct LO as (ad & b & A & B & _). assert (ad = set_ad_store da s2) by congruence. subst ad.
    pose proof FD as (lone & others & per & NL & IL & FL & FP & G & SKE).
    set (sa' := set_ad_store sa s1) in *. set (da' := set_ad_store da s2) in *.
    assert (FP' : exists per', Forall2 (fun t (k : list elem * nat) => exists ss dd, objs_all w' src t = Ok ss /\ objs_all w' dst t = Ok dd /\
        faithful flags (ad_name sa) (ad_name da) (objs_by w' src) (objs_by w' dst) fuel ss dd (fst k) (snd k)) (filter (fun t => smem t (ad_top sa)) (ad_top da)) per' /\
        (forall x, In x (flat_map fst per') -> settled da WX x) /\ subseq (map tagged (flat_map fst per')) (map tagged (flat_map fst per))).
    { assert (SB : forall k x, In k per -> In x (fst k) -> In x (children (d_groups d))).
      { intros k x I J. apply (Permutation_in _ (Permutation_sym (grouped_children _ _ G))). apply in_flat_map. eauto. }
      assert (TI : forall t, In t (filter (fun t => smem t (ad_top sa)) (ad_top da)) -> In t (ad_top sa) /\ In t (ad_top da)).
      { intros t I. apply filter_In in I as (I1 & I2). apply smem_In in I2. auto. }
      clear G IL FL NL SKE. induction FP as [|t k T per R FP IH]; [exists []; split; [constructor|]; split; [intros x []|constructor]|].
      destruct IH as (per' & F' & ID & SS).
      { intros k0 x I J. eapply SB; [right; exact I|exact J]. }
      { intros t0 I. apply TI. now right. }
      destruct R as (ss & dd & R1 & R2 & R3). destruct (TI t (or_introl eq_refl)) as (T1 & T2).
      assert (TL : top_lists w src dst sa da t ss dd) by (repeat split; assumption).
      destruct (all_reads w' dst da' b t OK ED B) as (dd' & AD).
      destruct (again flags env w w' sa da WX (ad_name sa) (ad_name da) feet AL' GD MV feet_ok fuel 0 t ss dd (fst k) (snd k) dd' (dkeys (bucket b t)))
        as (es' & sk' & A1 & A2 & A3).
      { eapply top_ctx; exact TL. }
      { exact R3. }
      { apply top_free. exact TL. }
      { intros x I. apply DN. eapply SB; [left; reflexivity|exact I]. }
      { eapply top_then; eassumption. }
      exists ((es', sk') :: per'). split; [|split].
      - constructor; [|exact F']. exists ss, dd'. split; [now rewrite end_all|]. split; [exact AD|]. cbn [fst snd].
        eapply faithful_ext; [| |exact A1]; [intros us t0; symmetry; apply end_by|reflexivity].
      - intros x I. cbn [flat_map fst] in I. apply in_app_iff in I as [I|I]; auto.
      - cbn [flat_map fst]. rewrite !map_app. now apply subseq_app. }
    destruct FP' as (per' & F' & ID & SS).
    destruct (grouped_exists (flat_map fst per')) as (gs' & G').
    { eapply subseq_NoDup; [exact SS|]. now apply grouped_NoDup in G. }
    assert (FL' : exists others', Forall2 (fun t n => exists l, n = length l /\ objs_all w' (if smem t (ad_top da) then dst else src) t = Ok l) lone others').
    { apply pick_F2. intros t I. destruct (Forall2_in_l _ _ _ _ FL I) as (n & _ & l & _ & RL). destruct (smem t (ad_top da)).
      - destruct (all_reads w' dst da' b t OK ED B) as (l' & AD). eauto.
      - rewrite <- end_all in RL. eauto. }
    destruct FL' as (others' & FL').
    exists (mkDiff dc' gs' (tree_sides gs' + (list_sum others' + list_sum (map snd per')))). split.
    - apply (diff_from_iff fuel dst src dc' flags cb' w' sa' da' OK ES ED). eexists. split; [|split; reflexivity]. cbn [d_groups].
      exists lone, others', per'. split; [exact NL|]. split; [exact IL|]. split; [exact FL'|]. split; [exact F'|]. split; [exact G'|reflexivity].
    - cbn [d_groups]. intros x O. apply (occurs_grouped x _ _ G') in O. apply in_flat_map in O as (y & Iy & Ix). exact (ID y Iy x Ix).
  Qed.
End End_.

(** The diff afterwards: no creations and deletions, and updates only of attributes that hooks write *)
Lemma settles WX fuel h dst src dcd dc flags fl cbd cb given w d sa da : alike w fuel src dst sa da -> hooks_succeed h -> hooks_write WX h ->
  snd (diff_from fuel dst src dcd flags cbd w) = Ok d -> yields_once (dc_order (d_class d)) -> uses fuel dst src dc fl cb given w d ->
  exists w', sync_from fuel h dst src dc fl cb given w = (w', Ok d) /\ forall dc' cb',
    exists d', snd (diff_from fuel dst src dc' flags cb' w') = Ok d' /\ forall x, occurs x (d_groups d') -> but_written da WX x.
Proof.
  intros AL HK HW DF YO US. apply (diff_from_iff fuel dst src dcd flags cbd w sa da) in DF as (sk & FD & _); try apply AL.
  destruct (sync_ends fuel h dst src dc flags fl cb given w d sa da AL WX HK HW YO sk FD US) as (w' & E & GD & MV & DN & wd & RO & AP).
  exists w'. split; [exact E|]. intros dc' cb'. eapply diff_after with (WX := WX); eauto.
Qed.
Lemma converges fuel h dst src dcd dc flags fl cbd cb given w d sa da : alike w fuel src dst sa da -> hooks_succeed h -> spares_attributes da h ->
  snd (diff_from fuel dst src dcd flags cbd w) = Ok d -> yields_once (dc_order (d_class d)) -> uses fuel dst src dc fl cb given w d ->
  exists w', sync_from fuel h dst src dc fl cb given w = (w', Ok d) /\ forall dc' cb',
    exists d', snd (diff_from fuel dst src dc' flags cb' w') = Ok d' /\ forall x, occurs x (d_groups d') -> e_action x = None.
Proof.
  intros AL HK SP DF YO US. destruct (settles (spared da) fuel h dst src dcd dc flags fl cbd cb given w d sa da AL HK (write_spared da h SP) DF YO US) as (w' & E & H).
  exists w'. split; [exact E|]. intros dc' cb'. destruct (H dc' cb') as (d' & D & B). exists d'. split; [exact D|]. intros x O.
  destruct (B x O) as (s & t & E1 & E2 & K). unfold e_action. rewrite E1, E2 in *. unfold attrs_action. destruct (existsb _ _) eqn:EX; [|reflexivity]. exfalso.
  apply existsb_exists in EX as (k & IK & DI). destruct (K k IK DI) as (X & c & C1 & C2). exact (X _ _ C1 C2).
Qed.
