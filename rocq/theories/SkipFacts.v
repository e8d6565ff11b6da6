(** * SkipFacts: what is left in the destination with skip flags. *)
From Verif Require Export CopyTop SkipSpec ConvCascade.

Lemma stored_there w a : local_ok w a -> keyed w a -> forall k, look w a k <> None <-> there w a k.
Proof.
  intros LO KY k. split.
  - intros N. destruct (look w a k) as [r|] eqn:L; [|congruence]. destruct (KY _ _ _ L) as (o & H & T & U & _). exists o. apply (read_iff w a LO KY). apply (stored_iff w a LO). exists r. auto.
  - intros (o & R & K). assert (I : In (k, o) (stored_objs w a)) by (apply (read_iff w a LO KY); auto). apply (stored_iff w a LO) in I as (r & L & _). unfold look. congruence.
Qed.

Section Skip.
  Variables (fuel : nat) (h : hooks) (dst src : aid) (dc : diffclass) (flags fl : N) (cb : bool) (given : option diff) (w : world) (d : diff).
  Variables (sa da : adapter).
  Hypothesis AL : alike w fuel src dst sa da.
  Variable WX : string -> Prop.
  Hypothesis SPARE : forall t c k, dget (ad_classes da) t = Some c -> In k (c_attributes c) -> ~ WX k.
  Hypothesis YO : yields_once (dc_order (d_class d)).
  Variable sk : nat.
  Hypothesis FD : faithful_diff flags fuel w src dst sa da (d_groups d) sk.
  Hypothesis US : uses fuel dst src dc fl cb given w d.
  Notation env := (env0 fuel h dst src fl cb d).
  Notation feet := (ConvTop.feet fuel h dst src fl cb w d da).
  Notation elem_ok := (ConvFits.elem_ok flags env w sa da (ad_name sa) (ad_name da)).
  Notation pos := (ConvTree.pos flags env w sa da).
  Notation akey := (ConvRun.akey da).
  Let AL' : alike w (sv_fuel env) (sv_src env) (sv_dst env) sa da := AL.
  Hypothesis US1 : unflagged w src.
  Hypothesis UD1 : unflagged w dst.
  Hypothesis TOPS : forall t, In t (ad_top sa) <-> In t (ad_top da).
  Hypothesis ROOT : forall o k, read w src o -> is_key o k -> rooted w src (ad_top sa) k.
  Let LOC : local_ok w dst := al_local _ _ _ _ _ _ AL.
  Let KEY : keyed w dst := al_keyed _ _ _ _ _ _ AL.
  Let FS : forest w src (ad_top sa) := al_sforest _ _ _ _ _ _ AL.
  Let FT : forest w dst (ad_top da) := al_dforest _ _ _ _ _ _ AL.

  Definition skipped (so do : option obj) : Prop :=
    match so, do with Some _, None => N.testbit flags 1 = true | None, Some _ => N.testbit flags 2 = true | _, _ => False end.
  Lemma skip_iff n k so do : pos n k so do -> suppressed flags so do <-> skipped so do.
  Proof.
    intros P. destruct (pos_key _ _ _ _ _ AL' _ _ _ _ P) as (KS & KD). destruct so as [s|], do as [o|]; simpl.
    - destruct (US1 s) as (A & B & C); [now apply KS|]. destruct (UD1 o) as (A' & B' & C'); [now apply KD|]. rewrite A, A'. intuition discriminate.
    - destruct (US1 s) as (A & B & C); [now apply KS|]. rewrite A, B. intuition discriminate.
    - destruct (UD1 o) as (A' & B' & C'); [now apply KD|]. rewrite A', C'. intuition discriminate.
    - tauto.
  Qed.

  (** ** Every position has its element, unless it is skipped *)
  Definition corr (so do : option obj) : Prop := forall s o, so = Some s -> do = Some o -> corresponding s o.
  Lemma list_corr n m t ss dd es k u : ConvFits.ctx flags env w sa da n t ss dd ->
    faithful flags (ad_name sa) (ad_name da) (objs_by w src) (objs_by w dst) (S m) ss dd es k -> either (with_uid u ss) (with_uid u dd) <> None ->
    ~ suppressed flags (with_uid u ss) (with_uid u dd) ->
    exists y, In y es /\ akey y = (t, u) /\ elem_ok n m y (with_uid u ss) (with_uid u dd) /\ corr (with_uid u ss) (with_uid u dd).
  Proof.
    intros CX FA NN NS. destruct (list_out flags env w sa da (ad_name sa) (ad_name da) AL' n m t ss dd es k u CX FA NN NS) as (y & I & E & OK).
    exists y. split; [exact I|]. split; [exact E|]. split; [exact OK|]. destruct FA as (us & vs & outs & _ & _ & CO & _). intros s o A B. exact (CO u s o A B).
  Qed.
  Lemma elem_at n : forall k so do, pos n k so do -> ~ suppressed flags so do -> exists x m y, In x (children (d_groups d)) /\ In y (elem_all x) /\ akey y = k /\ elem_ok n m y so do /\ corr so do.
  Proof.
    induction n as [|n IH]; intros k so do P NSP.
    - inversion P as [t ss dd u so0 do0 T E1 E2 NN|]; subst. destruct (fd_top _ _ _ _ _ _ _ _ _ _ _ _ FD T) as (es & k & F & SB).
      pose proof (fuel_pos _ _ _ _ _ _ _ _ _ _ _ _ AL _ FD US) as FP. assert (EF : exists m, fuel = S m) by (destruct fuel; [congruence|eauto]). destruct EF as (m & EF). rewrite EF in F.
      destruct (list_corr 0 m t ss dd es k u) as (y & I & E & OK & CO); auto.
      { eapply top_ctx; exact T. }
      exists y, m, y. split; [now apply SB|]. split; [rewrite elem_all_eq; now left|]. auto.
    - inversion P as [|n' p so' do' mapping sk' t f ss dd u so0 do0 HP NS CT IM KS KD E1 E2 NN]; subst.
      destruct (IH p so' do' HP NS) as (x & m & y & Ix & Iy & E & OK & _).
      pose proof OK as (_ & _ & D & c & kids & HC & F & G & CT').
      destruct (describes_key flags env w sa da (ad_name sa) (ad_name da) AL' n p y so' do' HP D) as (c' & HC' & MN & _).
      assert (c' = c) by congruence. subst c'. assert (ET : e_type y = fst p) by (rewrite <- E; reflexivity). rewrite ET in HC.
      destruct (pos_mapping flags env w sa da AL' n p so' do' mapping sk' c HP CT HC) as (-> & ->).
      destruct (Forall2_in_l _ _ _ _ F IM) as ([es k] & Ik & ss' & dd' & K1 & K2 & FA). cbn [fst snd] in *.
      change (sv_src env) with src in *. change (sv_dst env) with dst in *. rewrite KS in K1. rewrite KD in K2. injection K1 as <-. injection K2 as <-.
      destruct m as [|m]; [destruct FA|].
      destruct (list_corr (S n) m t ss dd es k u) as (z & Iz & Ez & OKz & CO); auto.
      { eapply (kid_ctx flags env w sa da); [exact HP|exact NS|exact CT'|exact IM|exact KS|exact KD]. }
      exists x, m, z. split; [exact Ix|]. split; [|auto]. eapply elem_all_trans; [|exact Iy]. apply kid_all.
      apply (Permutation_in _ (Permutation_sym (grouped_children _ _ G))). apply in_flat_map. exists (es, k). auto.
  Qed.
  Lemma kid_lists n p so do c t f : pos n p so do -> ~ suppressed flags so do -> dget (ad_classes da) (fst p) = Some c -> In (t, f) (c_children c) ->
    exists ss dd, kids_of (objs_by w src) so f t = Ok ss /\ kids_of (objs_by w dst) do f t = Ok dd /\
      forall u, either (with_uid u ss) (with_uid u dd) <> None -> pos (S n) (t, u) (with_uid u ss) (with_uid u dd).
  Proof.
    intros P NSP HC IT. destruct (elem_at n p so do P NSP) as (x & m & y & _ & _ & E & OK & _). pose proof OK as (_ & NS & D & c' & kids & HC' & F & G & CT).
    assert (ET : e_type y = fst p) by (rewrite <- E; reflexivity). rewrite ET in HC'. assert (c' = c) by congruence. subst c'.
    destruct (Forall2_in_l _ _ _ _ F IT) as (k & Ik & ss & dd & K1 & K2 & _). exists ss, dd. split; [exact K1|]. split; [exact K2|].
    intros u NN. eapply pos_kid; eauto.
  Qed.

  (** ** Where the objects are *)
  Lemma there_dst k : look w dst k <> None <-> there w dst k.
  Proof. exact (stored_there w dst LOC KEY k). Qed.
  Lemma src_one n k s do s' : pos n k (Some s) do -> read w src s' -> is_key s' k -> s' = s.
  Proof. intros P R K. destruct (pos_key _ _ _ _ _ AL' _ _ _ _ P) as (KS & _). destruct (KS s eq_refl) as (R' & K'). eapply (fo_single _ _ _ FS); eassumption. Qed.
  Lemma dst_one n k so o o' : pos n k so (Some o) -> read w dst o' -> is_key o' k -> o' = o.
  Proof. intros P R K. destruct (pos_key _ _ _ _ _ AL' _ _ _ _ P) as (_ & KD). destruct (KD o eq_refl) as (R' & K'). eapply (fo_single _ _ _ FT); eassumption. Qed.
  Lemma src_parent k s : read w src s -> is_key s k -> In (fst k) (ad_top sa) \/ exists p, listed w src p k.
  Proof. intros R K. destruct (ROOT s k R K) as [t u l o IT _ _ _|p k' _ L]; [now left|right; eauto]. Qed.
  Lemma dst_parent k : there w dst k -> In (fst k) (ad_top da) \/ exists p, listed w dst p k.
  Proof. intros T. apply there_dst in T. exact (cp_rooted _ _ _ (al_dcomplete _ _ _ _ _ _ AL) k T). Qed.
  Lemma up_src p k : listed w dst p k -> there w src k -> listed w src p k.
  Proof.
    intros L (s & R & K). destruct (src_parent k s R K) as [T|(p' & L')].
    - elim (fo_top _ _ _ FT p k L). now apply TOPS.
    - now rewrite <- (proj1 (al_places _ _ _ _ _ _ AL) p' p k L' L).
  Qed.
  Lemma up_dst p k : listed w src p k -> there w dst k -> listed w dst p k.
  Proof.
    intros L T. destruct (dst_parent k T) as [I|(p' & L')].
    - elim (proj2 (al_places _ _ _ _ _ _ AL) p k L). exact I.
    - now rewrite (proj1 (al_places _ _ _ _ _ _ AL) p p' k L L').
  Qed.
  Lemma listed_there a p k : listed w a p k -> there w a p.
  Proof. intros (o & R & K & _). exists o. auto. Qed.
  (** the child of an object at a position *)
  Lemma src_kid n p s do k c f ss dd : pos n p (Some s) do -> dget (ad_classes da) (fst p) = Some c -> In (fst k, f) (c_children c) ->
    kids_of (objs_by w src) (Some s) f (fst k) = Ok ss -> kids_of (objs_by w dst) do f (fst k) = Ok dd -> listed w src p k -> with_uid (snd k) ss <> None.
  Proof.
    intros P HC IC K1 _ (o & R & K & f' & us & I1 & I2 & I3). assert (o = s) by exact (src_one n p s do o P R K). subst o.
    destruct (pos_class _ _ _ _ _ AL' _ _ _ _ P) as (c' & C1 & _ & CR & C4). assert (c' = c) by congruence. subst c'. destruct (C4 s (or_introl eq_refl)) as (_ & _ & _ & CH). rewrite <- CH in I1.
    assert (f' = f) by (pose proof (In_dget _ _ _ (cr_types c CR) I1); pose proof (In_dget _ _ _ (cr_types c CR) IC); congruence). subst f'.
    simpl in K1. rewrite I2 in K1. exact (uid_listed w src _ (fst k) ss us (snd k) FS (proj1 (pos_asked _ _ _ _ _ AL' _ _ _ _ _ _ _ P HC IC) s eq_refl) K1 I3).
  Qed.
  Lemma dst_kid n p so z k c f ss dd : pos n p so (Some z) -> dget (ad_classes da) (fst p) = Some c -> In (fst k, f) (c_children c) ->
    kids_of (objs_by w src) so f (fst k) = Ok ss -> kids_of (objs_by w dst) (Some z) f (fst k) = Ok dd -> listed w dst p k -> with_uid (snd k) dd <> None.
  Proof.
    intros P HC IC _ K1 (o & R & K & f' & us & I1 & I2 & I3). assert (o = z) by exact (dst_one n p so z o P R K). subst o.
    destruct (pos_class _ _ _ _ _ AL' _ _ _ _ P) as (c' & C1 & _ & CR & C4). assert (c' = c) by congruence. subst c'. destruct (C4 z (or_intror eq_refl)) as (_ & _ & _ & CH). rewrite <- CH in I1.
    assert (f' = f) by (pose proof (In_dget _ _ _ (cr_types c CR) I1); pose proof (In_dget _ _ _ (cr_types c CR) IC); congruence). subst f'.
    simpl in K1. rewrite I2 in K1. exact (uid_listed w dst _ (fst k) dd us (snd k) FT (proj2 (pos_asked _ _ _ _ _ AL' _ _ _ _ _ _ _ P HC IC) z eq_refl) K1 I3).
  Qed.
  Lemma kid_field a n p so do k : (a = src /\ so <> None \/ a = dst /\ do <> None) -> pos n p so do -> listed w a p k -> exists c f, dget (ad_classes da) (fst p) = Some c /\ In (fst k, f) (c_children c).
  Proof.
    intros A P (o & R & K & f & us & I1 & _). destruct (pos_class _ _ _ _ _ AL' _ _ _ _ P) as (c & C1 & _ & _ & C4). exists c, f. split; [exact C1|].
    destruct A as [(-> & N)|(-> & N)].
    - destruct so as [s|]; [|congruence]. assert (o = s) by exact (src_one n p s do o P R K). subst o. destruct (C4 s (or_introl eq_refl)) as (_ & _ & _ & CH). now rewrite CH.
    - destruct do as [z|]; [|congruence]. assert (o = z) by exact (dst_one n p so z o P R K). subst o. destruct (C4 z (or_intror eq_refl)) as (_ & _ & _ & CH). now rewrite CH.
  Qed.

  Lemma src_step n p s do k : pos n p (Some s) do -> ~ suppressed flags (Some s) do -> listed w src p k ->
    exists s' do', pos (S n) k (Some s') do' /\ (there w dst k -> do <> None -> do' <> None) /\ (do' <> None -> there w dst k).
  Proof.
    intros P NS LI. destruct (kid_field src n p (Some s) do k) as (c & f & HC & IC); auto; [left; split; [reflexivity|discriminate]|].
    destruct (kid_lists n p (Some s) do c (fst k) f P NS HC IC) as (ss & dd & K1 & K2 & H). pose proof (src_kid n p s do k c f ss dd P HC IC K1 K2 LI) as W.
    destruct (with_uid (snd k) ss) as [s'|] eqn:E; [|congruence]. pose proof (H (snd k)) as HK. rewrite E in HK. rewrite <- surjective_pairing in HK.
    assert (HP : pos (S n) k (Some s') (with_uid (snd k) dd)) by (apply HK; discriminate).
    exists s', (with_uid (snd k) dd). split; [exact HP|]. split.
    - intros T N. destruct do as [z|]; [|congruence]. exact (dst_kid n p (Some s) z k c f ss dd P HC IC K1 K2 (up_dst p k LI T)).
    - intros N. destruct (with_uid (snd k) dd) as [z|]; [|congruence]. destruct (pos_key _ _ _ _ _ AL' _ _ _ _ HP) as (_ & KD). exists z. exact (KD z eq_refl).
  Qed.
  Lemma src_cases k : rooted w src (ad_top sa) k ->
    (exists n s do, pos n k (Some s) do /\ (there w dst k <-> do <> None)) \/ (N.testbit flags 1 = true /\ ~ there w dst k).
  Proof.
    induction 1 as [t u l o IT A I K|p k RP IH LI].
    - left. destruct (both_tops fuel dst src flags w d sa da sk FD TOPS t) as (ss & dd & TL); [now apply TOPS|].
      assert (ss = l) by (destruct TL as (_ & _ & B & _); congruence). subst ss. destruct K as (T & U). cbn [fst snd] in *.
      pose proof (all_with w src t l o u _ FS IT A I U) as W. exists 0, o, (with_uid u dd). split; [eapply pos_top; [exact TL|now rewrite W|reflexivity|discriminate]|].
      rewrite <- there_dst. exact (top_look fuel h dst src fl cb w d sa da AL t l dd u TL).
    - assert (NT : ~ there w dst p -> ~ there w dst k) by (intros N T; apply N; exact (listed_there dst p k (up_dst p k LI T))).
      destruct IH as [(n & s & do & P & TP)|(F1 & N)]; [|right; split; auto]. destruct do as [z|].
      + destruct (src_step n p s (Some z) k P) as (s' & do' & P' & A & B); [rewrite (skip_iff _ _ _ _ P); auto|exact LI|].
        left. exists (S n), s', do'. split; [exact P'|]. split; [|exact B]. intros T. apply A; [exact T|discriminate].
      + assert (NP : ~ there w dst p) by (intros T; now apply TP in T). destruct (N.testbit flags 1) eqn:F1; [right; auto|].
        destruct (src_step n p s None k P) as (s' & do' & P' & A & B); [rewrite (skip_iff _ _ _ _ P); simpl; congruence|exact LI|].
        left. exists (S n), s', do'. split; [exact P'|]. split; [|exact B]. intros T. now apply NT in T.
  Qed.
  Lemma dst_step n p so z k : pos n p so (Some z) -> ~ suppressed flags so (Some z) -> listed w dst p k ->
    exists so' z', pos (S n) k so' (Some z') /\ (there w src k -> so <> None -> so' <> None) /\ (so' <> None -> there w src k).
  Proof.
    intros P NS LI. destruct (kid_field dst n p so (Some z) k) as (c & f & HC & IC); auto; [right; split; [reflexivity|discriminate]|].
    destruct (kid_lists n p so (Some z) c (fst k) f P NS HC IC) as (ss & dd & K1 & K2 & H). pose proof (dst_kid n p so z k c f ss dd P HC IC K1 K2 LI) as W.
    destruct (with_uid (snd k) dd) as [z'|] eqn:E; [|congruence]. pose proof (H (snd k)) as HK. rewrite E in HK. rewrite <- surjective_pairing in HK.
    assert (HP : pos (S n) k (with_uid (snd k) ss) (Some z')) by (apply HK; destruct (with_uid (snd k) ss); discriminate).
    exists (with_uid (snd k) ss), z'. split; [exact HP|]. split.
    - intros T N. destruct so as [s|]; [|congruence]. exact (src_kid n p s (Some z) k c f ss dd P HC IC K1 K2 (up_src p k LI T)).
    - intros N. destruct (with_uid (snd k) ss) as [s|]; [|congruence]. destruct (pos_key _ _ _ _ _ AL' _ _ _ _ HP) as (KS & _). exists s. exact (KS s eq_refl).
  Qed.
  Lemma dst_cases k : rooted w dst (ad_top da) k ->
    (exists n so z, pos n k so (Some z) /\ (there w src k <-> so <> None)) \/ (N.testbit flags 2 = true /\ ~ there w src k).
  Proof.
    induction 1 as [t u l o IT A I K|p k RP IH LI].
    - left. destruct (both_tops fuel dst src flags w d sa da sk FD TOPS t IT) as (ss & dd & TL).
      assert (dd = l) by (destruct TL as (_ & _ & _ & B); congruence). subst dd. destruct K as (T & U). cbn [fst snd] in *.
      pose proof (all_with w dst t l o u _ FT IT A I U) as W.
      assert (P : pos 0 (t, u) (with_uid u ss) (Some o)) by (eapply pos_top; [exact TL|reflexivity|now rewrite W|destruct (with_uid u ss); discriminate]).
      exists 0, (with_uid u ss), o. split; [exact P|]. split.
      + intros (s & R & KS). pose proof (ROOT s (t, u) R KS) as RT. pose proof TL as (IS & ID & AS & AD).
        inversion RT as [t0 u0 l0 s0 I0 A0 J0 K0 [E1 E2]|p k RP LI E]; [subst t0 u0|subst k; now elim (fo_top _ _ _ FS p (t, u) LI)].
        assert (l0 = ss) by congruence. subst l0. pose proof (all_with w src t ss s0 u (ad_top sa) FS IS AS J0 (proj2 K0)) as X. rewrite X. discriminate.
      + intros N. destruct (with_uid u ss) as [s|] eqn:E; [|congruence]. destruct (pos_key _ _ _ _ _ AL' _ _ _ _ P) as (KS & _). exists s. exact (KS s eq_refl).
    - assert (NT : ~ there w src p -> ~ there w src k) by (intros N T; apply N; exact (listed_there src p k (up_src p k LI T))).
      destruct IH as [(n & so & z & P & TP)|(F1 & N)]; [|right; split; auto]. destruct so as [s|].
      + destruct (dst_step n p (Some s) z k P) as (so' & z' & P' & A & B); [rewrite (skip_iff _ _ _ _ P); auto|exact LI|].
        left. exists (S n), so', z'. split; [exact P'|]. split; [|exact B]. intros T. apply A; [exact T|discriminate].
      + assert (NP : ~ there w src p) by (intros T; now apply TP in T). destruct (N.testbit flags 2) eqn:F1; [right; auto|].
        destruct (dst_step n p None z k P) as (so' & z' & P' & A & B); [rewrite (skip_iff _ _ _ _ P); simpl; congruence|exact LI|].
        left. exists (S n), so', z'. split; [exact P'|]. split; [|exact B]. intros T. now apply NT in T.
  Qed.

  (** ** What is left *)
  Lemma elem_pos x y : In x (children (d_groups d)) -> In y (elem_all x) -> exists n m so do, elem_ok n m y so do.
  Proof.
    intros Ix Iy. destruct (top_ok fuel h dst src dc flags fl cb given w d sa da AL sk FD US x Ix) as (m & so & do & _ & OK).
    destruct (below _ _ _ _ _ _ _ AL' _ _ _ _ _ _ OK Iy) as (j & m' & so' & do' & _ & OK' & _). eauto.
  Qed.
  (** the keys that the run touches *)
  Lemma feet_pos k : feet k -> (exists n m y so do, elem_ok n m y so do /\ akey y = k) \/ (exists n m y z, elem_ok n m y None (Some z) /\ reaches w dst (akey y) k).
  Proof.
    intros (x & Ix & y & Iy & F). destruct (elem_pos x y Ix Iy) as (n & m & so & do & OK). destruct F as [E|((A & _) & R)]; [left; eauto 8|]. right.
    pose proof OK as (_ & _ & D & _). destruct (ok_action _ _ _ _ _ D) as (_ & AD). apply AD in A as (-> & N). destruct do as [z|]; [|congruence]. eauto 8.
  Qed.
  Lemma untouched k : (N.testbit flags 1 = true /\ ~ there w dst k) \/ (N.testbit flags 2 = true /\ ~ there w src k) -> ~ feet k.
  Proof.
    intros C F. assert (X : forall n m y so do, elem_ok n m y so do -> akey y = k -> False).
    { intros n m y so do (P & NS & _) E. rewrite E in P. rewrite (skip_iff _ _ _ _ P) in NS. destruct (pos_key _ _ _ _ _ AL' _ _ _ _ P) as (KS & KD).
      destruct C as [(F1 & N)|(F2 & N)]; destruct so as [s|], do as [z|]; simpl in NS.
      - apply N. exists z. exact (KD z eq_refl).
      - congruence.
      - apply N. exists z. exact (KD z eq_refl).
      - now apply pos_some in P.
      - apply N. exists s. exact (KS s eq_refl).
      - apply N. exists s. exact (KS s eq_refl).
      - congruence.
      - now apply pos_some in P. }
    apply feet_pos in F as [(n & m & y & so & do & OK & E)|(n & m & y & z & OK & R)]; [eauto|].
    destruct (reaches_last env w _ _ R) as [E|(p & _ & CO)]; [eauto|]. destruct C as [(F1 & N)|(F2 & N)].
    - apply N. apply there_dst. destruct CO as (r & o & f & l & _ & _ & _ & _ & _ & L). exact L.
    - destruct OK as (P & NS & _). rewrite (skip_iff _ _ _ _ P) in NS. simpl in NS. congruence.
  Qed.

  Variables (w' wd : world).
  Hypothesis GD : good dst da w'.
  Hypothesis MV : moved dst feet None w w'.
  Hypothesis DN : forall x, In x (children (d_groups d)) -> done env da w WX x w'.
  Hypothesis ATT : attributes_set w dst.
  Let FEET := feet_ok fuel h dst src dc flags fl cb given w d sa da AL sk FD US.
  Let LOC' : local_ok w' dst := proj1 GD.
  Let KEY' : keyed w' dst := proj1 (proj2 GD).
  Lemma there_then k : look w' dst k <> None <-> there w' dst k.
  Proof. exact (stored_there w' dst LOC' KEY' k). Qed.
  Lemma gone n k o : pos n k None (Some o) -> ~ suppressed flags None (Some o) -> look w' dst k = None.
  Proof.
    intros P NS. destruct (elem_at n k None (Some o) P NS) as (x & m & y & Ix & Iy & E & OK & _). pose proof (DN x Ix y Iy) as D1. unfold done1 in D1.
    pose proof OK as (_ & _ & D & _). destruct (ok_action _ _ _ _ _ D) as (_ & AD). rewrite (proj1 AD) in D1 by (split; congruence).
    destruct D1 as (L & _). now rewrite E in L.
  Qed.
  Lemma new_pos k : there w' dst k -> ~ there w dst k -> exists n s, pos n k (Some s) None /\ ~ suppressed flags (Some s) None.
  Proof.
    intros T N. set (ks := flat_map (fun x => map akey (elem_all x)) (children (d_groups d))).
    assert (KD : forall a b : key, {a = b} + {a <> b}) by (intros a b; decide equality; apply string_dec).
    destruct (in_dec KD k ks) as [I|I].
    - apply in_flat_map in I as (x & Ix & J). apply in_map_iff in J as (y & EY & Iy). destruct (elem_pos x y Ix Iy) as (n & m & so & do & (P & NS & _)). rewrite EY in P.
      destruct (pos_key _ _ _ _ _ AL' _ _ _ _ P) as (_ & KD'). destruct do as [z|]; [elim N; exists z; exact (KD' z eq_refl)|]. destruct so as [s|]; [eauto|now apply pos_some in P].
    - exfalso. apply there_then in T. apply T. rewrite (mv_look _ _ _ _ _ MV k); [destruct (look w dst k) eqn:E; [elim N; apply there_dst; congruence|reflexivity]|].
      intros (x & Ix & y & Iy & [EY|(_ & R)]).
      + apply I. apply in_flat_map. exists x. split; [exact Ix|]. apply in_map_iff. eauto.
      + destruct (reaches_last env w _ _ R) as [EY|(p & _ & r & o & f & l & _ & _ & _ & _ & _ & L)].
        * apply I. apply in_flat_map. exists x. split; [exact Ix|]. apply in_map_iff. eauto.
        * apply N. apply there_dst. exact L.
  Qed.
  Lemma dst_rooted' k : there w dst k -> rooted w dst (ad_top da) k.
  Proof. intros T. apply there_dst in T. exact (dst_rooted fuel h dst src flags fl cb w d sa da AL sk FD TOPS k T). Qed.

  (** what the source has too *)
  Lemma src_copied n k s do : pos n k (Some s) do -> ~ suppressed flags (Some s) do -> exists r o, look w' dst k = Some r /\ nth_error (w_heap w') r = Some o /\ values_of s o /\
    forall t f, In (t, f) (c_children (o_cls s)) -> exists l, dget (o_kids o) f = Some l /\ NoDup l /\
      forall u, In u l <-> selected flags (has_child s f u) (exists z, read w dst z /\ is_key z k /\ has_child z f u).
  Proof.
    intros P NSP. destruct (elem_at n k (Some s) do P NSP) as (x & m & y & Ix & Iy & E & OK & CO). pose proof (DN x Ix) as DX.
    assert (DY : done env da w WX y w') by (intros z Iz; apply DX; eapply elem_all_trans; [exact Iz|exact Iy]).
    pose proof OK as (_ & _ & D & _). destruct (ok_action _ _ _ _ _ D) as (_ & AD).
    assert (ND : e_action y <> Some ADelete) by (intros X; apply AD in X as (X & _); congruence).
    assert (X : exists r o, look w' dst k = Some r /\ nth_error (w_heap w') r = Some o /\ ConvRun.after env da w WX y o).
    { destruct (done1_kept _ _ _ _ _ _ (DX y Iy) ND) as (r & o & L & H & A & _). rewrite E in L. eauto. }
    destruct X as (r & o & L & H & AO). exists r, o. split; [exact L|]. split; [exact H|].
    destruct (pos_key _ _ _ _ _ AL' _ _ _ _ P) as (KS & KD). destruct (KS s eq_refl) as (RS & TS & US'). 
    pose proof GD as (_ & KY & _). destruct (KY _ _ _ L) as (o' & H' & TO & UO & _). assert (o' = o) by congruence. subst o'.
    assert (TT : get_type s = get_type o) by congruence.
    assert (NM : exists nm, get_shortname s = Ok nm) by (destruct D as (_ & _ & _ & _ & z & EZ & _ & NZ & _); simpl in EZ; injection EZ as <-; eauto).
    destruct (after_obj flags env w sa da WX (ad_name sa) (ad_name da) AL' SPARE n m y s do o OK AO TT) as (c & L' & HC & CR & SH1 & SH2 & NA & (_ & _ & IDS) & _ & PM & KE).
    { intros z Ez. exact (CO s z eq_refl Ez). } { exact NM. }
    split; [split; [exact TT|]; split; [|split; [exact IDS|]]|].
    - destruct SH1 as (A1 & A2 & A3 & A4), SH2 as (B1 & B2 & B3 & B4). repeat split; congruence.
    - intros a Ia. destruct (al_values _ _ _ _ _ _ AL s RS) as (_ & PV). destruct (PV a) as (v & Gv & Ev); [apply in_app_iff; now right|].
      pose proof SH1 as (_ & _ & A3 & _). pose proof SH2 as (_ & _ & B3 & _).
      assert (GO : exists v', dget (o_vals o) a = Some v').
      { destruct AO as (ob & Lb & BA & OC & OV & _). destruct (ok_base _ _ _ _ _ _ _ AL' _ _ _ _ _ OK) as (c' & o2 & C1 & BA2 & _ & _ & _ & VD & VN & _).
        assert (c' = c) by congruence. subst c'. assert (o2 = ob) by (eapply base_fun; eauto). subst o2.
        rewrite (vals_but_get _ _ _ _ OV) by (intros (_ & HX); refine (SPARE _ _ a HC _ HX); congruence). destruct do as [z|].
        - destruct (VD z eq_refl) as (_ & _ & DK & _). destruct (dget (o_vals ob) a) as [v'|] eqn:G; [eauto|]. apply dget_None in G. rewrite DK in G.
          elim (ATT z a); [now apply KD| |now apply dget_None].
          destruct (pos_class _ _ _ _ _ AL' _ _ _ _ P) as (c2 & C2 & _ & _ & C4). destruct (C4 z (or_intror eq_refl)) as (_ & _ & Z3 & _).
          destruct (C4 s (or_introl eq_refl)) as (_ & _ & Y3 & _). congruence.
        - destruct (VN eq_refl) as (_ & _ & _ & VA). destruct (VA a) as (s1 & E1 & G1); [congruence|]. injection E1 as <-. exists v. congruence. }
      destruct GO as (v' & Gv'). exists v, v'. split; [exact Gv|]. split; [exact Gv'|].
      destruct (py_eq v v') eqn:EQ; [reflexivity|]. exfalso. unfold attrs_action in NA. destruct (existsb _ _) eqn:EX; [discriminate|].
      assert (Y : existsb (attr_differs (get_attrs s) (get_attrs o)) (attrs_keys (Some (get_attrs s)) (Some (get_attrs o))) = true); [|congruence].
      assert (SS1 : smem a (c_attributes (o_cls s)) = true) by now apply smem_In. assert (SS2 : smem a (c_attributes (o_cls o)) = true) by (apply smem_In; congruence).
      apply existsb_exists. exists a. split.
      + cbn [attrs_keys]. unfold intersection. apply filter_In. rewrite smem_In. unfold get_attrs. rewrite !dkeys_dump.
        split; (split; [now apply smem_In|]); apply dget_Some_In in Gv, Gv'; unfold dkeys; apply in_map_iff; eexists; (split; [|eassumption]); reflexivity.
      + unfold attr_differs, get_attrs. now rewrite !dget_dump, SS1, SS2, Gv, Gv', EQ.
    - intros t f It. assert (It' : In (t, f) (c_children c)) by (destruct SH1 as (_ & _ & _ & A4); congruence).
      pose proof OK as (_ & _ & _ & c' & kids & HC' & F & G & CT). assert (c' = c) by congruence. subst c'.
      destruct (Forall2_in_l _ _ _ _ F It') as ([es k0] & Ik & ss & dd & K1 & K2 & FA). cbn [fst snd] in *. destruct m as [|m]; [destruct FA|].
      destruct (kids_then flags env w w' sa da WX (ad_name sa) (ad_name da) feet AL' GD MV FEET n m y s do o c L' t f ss dd es k0 OK HC CR PM KE It' K1 K2 FA) as (dd' & vs' & _ & (_ & IV) & _ & CX & GK & NV).
      { intros z Iz. apply (Permutation_in _ (Permutation_sym (grouped_children _ _ G))). apply in_flat_map. exists (es, k0). auto. }
      { exact DY. }
      exists vs'. split; [exact GK|]. split; [exact NV|]. intros u. rewrite IV.
      change (sv_src env) with src in *. change (sv_dst env) with dst in *.
      assert (HCk : dget (ad_classes da) (fst k) = Some c) by (rewrite <- E; exact HC).
      pose proof (pos_asked _ _ _ _ _ AL' _ _ _ _ _ _ _ P HCk It') as AK.
      assert (HS : has_child s f u <-> with_uid u ss <> None).
      { destruct (dget (o_kids s) f) as [us|] eqn:Gl; [|simpl in K1; rewrite Gl in K1; discriminate]. pose proof (with_uid_None u ss us (kids_uids w src _ s f t ss us FS (proj1 AK s eq_refl) K1 Gl)) as WN.
        unfold has_child. rewrite Gl. split.
        - intros (l & E1 & Iu) E2. injection E1 as <-. now apply WN in E2.
        - intros N. exists us. split; [reflexivity|]. destruct (in_dec string_dec u us) as [I|I]; [exact I|]. now apply WN in I. }
      assert (HD : (exists z, read w dst z /\ is_key z k /\ has_child z f u) <-> with_uid u dd <> None).
      { destruct do as [z|].
        - destruct (KD z eq_refl) as (RZ & KZ). destruct (dget (o_kids z) f) as [us|] eqn:Gl; [|simpl in K2; rewrite Gl in K2; discriminate].
          pose proof (with_uid_None u dd us (kids_uids w dst _ z f t dd us FT (proj2 AK z eq_refl) K2 Gl)) as WN. split.
          + intros (z' & R' & K' & l & E1 & Iu) E2. assert (z' = z) by (eapply (fo_single _ _ _ FT); eassumption). subst z'. rewrite Gl in E1. injection E1 as <-. now apply WN in E2.
          + intros N. exists z. split; [exact RZ|]. split; [exact KZ|]. exists us. split; [exact Gl|]. destruct (in_dec string_dec u us) as [I|I]; [exact I|]. now apply WN in I.
        - simpl in K2. injection K2 as <-. split; [|intros N; now elim N]. intros (z & R' & K' & _). exfalso.
          assert (X : there w dst k) by (exists z; auto). destruct (src_cases k (ROOT s k RS (conj TS US'))) as [(n2 & s2 & do2 & P2 & X2)|(_ & N)]; [|contradiction].
          destruct (pos_fun _ _ _ _ _ AL' _ _ _ _ _ _ _ P P2) as (_ & E2 & _). rewrite <- E2 in X2. now apply X2 in X. }
      unfold selected. rewrite HS, HD. specialize (CX u). unfold survives.
      destruct (with_uid u ss) as [s1|] eqn:WS, (with_uid u dd) as [d1|] eqn:WD.
      + split; [intros _; left; split; discriminate|auto].
      + specialize (CX ltac:(discriminate)). rewrite (skip_iff _ _ _ _ CX). simpl. destruct (N.testbit flags 1); split; intros X.
        * now elim X.
        * intuition congruence.
        * right. left. split; [discriminate|]. split; [now intros Y|reflexivity].
        * discriminate.
      + specialize (CX ltac:(discriminate)). rewrite (skip_iff _ _ _ _ CX). simpl. split; intros X.
        * right. right. split; [now intros Y|]. split; [discriminate|exact X].
        * intuition congruence.
      + split; [intros []|intuition congruence].
  Qed.
  Lemma left_keys k : there w' dst k <-> selected flags (there w src k) (there w dst k).
  Proof.
    split.
    - intros T. destruct (look w dst k) as [r|] eqn:L.
      + assert (TD : there w dst k) by (apply there_dst; congruence). destruct (dst_cases k (dst_rooted' k TD)) as [(n & so & z & P & TS)|(F2 & N)]; [|right; right; auto].
        destruct so as [s|]; [left; split; [apply TS; discriminate|exact TD]|]. right. right. assert (N : ~ there w src k) by (intros X; now apply TS in X). split; [exact N|]. split; [exact TD|].
        destruct (N.testbit flags 2) eqn:F2; [reflexivity|]. exfalso. apply there_then in T. apply T. apply (gone n k z P). rewrite (skip_iff _ _ _ _ P). simpl. congruence.
      + assert (N : ~ there w dst k) by (intros X; now apply there_dst in X). destruct (new_pos k T N) as (n & s & P & NS). right. left.
        rewrite (skip_iff _ _ _ _ P) in NS. simpl in NS. split; [|split; [exact N|now destruct (N.testbit flags 1)]]. destruct (pos_key _ _ _ _ _ AL' _ _ _ _ P) as (KS & _). exists s. exact (KS s eq_refl).
    - intros [(TS & TD)|[(TS & ND & F1)|(NS & TD & F2)]].
      + destruct TS as (s & R & K). destruct (src_cases k (ROOT s k R K)) as [(n & s' & do & P & X)|(_ & N)]; [|contradiction]. apply X in TD. destruct do as [z|]; [|congruence].
        destruct (src_copied n k s' (Some z) P) as (r & o & L & _); [rewrite (skip_iff _ _ _ _ P); auto|]. apply there_then. congruence.
      + destruct TS as (s & R & K). destruct (src_cases k (ROOT s k R K)) as [(n & s' & do & P & X)|(F & _)]; [|congruence]. destruct do as [z|]; [elim ND; apply X; discriminate|].
        destruct (src_copied n k s' None P) as (r & o & L & _); [rewrite (skip_iff _ _ _ _ P); simpl; congruence|]. apply there_then. congruence.
      + apply there_then. rewrite (mv_look _ _ _ _ _ MV k) by (apply untouched; auto). now apply there_dst.
  Qed.
  Lemma left_values s o k : read w src s -> is_key s k -> read w' dst o -> is_key o k -> values_of s o /\
    forall t f, In (t, f) (c_children (o_cls s)) -> exists l, dget (o_kids o) f = Some l /\ NoDup l /\
      forall u, In u l <-> selected flags (has_child s f u) (exists z, read w dst z /\ is_key z k /\ has_child z f u).
  Proof.
    intros R K R' K'. assert (T' : there w' dst k) by (exists o; auto). pose proof (proj1 (left_keys k) T') as SE. assert (TS : there w src k) by (exists s; auto).
    destruct (src_cases k (ROOT s k R K)) as [(n & s' & do & P & X)|(F1 & N)]; [|destruct SE as [(_ & TD)|[(_ & _ & F)|(N' & _)]]; [contradiction|congruence|contradiction]].
    assert (s = s') by exact (src_one n k s' do s P R K). subst s'.
    destruct (src_copied n k s do P) as (r & o' & L & H & V & C).
    { rewrite (skip_iff _ _ _ _ P). destruct do as [z|]; [auto|]. simpl. intros F1. destruct SE as [(_ & TD)|[(_ & _ & F)|(N' & _)]]; [now apply X in TD|congruence|contradiction]. }
    assert (I : In (k, o) (stored_objs w' dst)) by (apply (read_iff w' dst LOC' KEY'); auto). apply (stored_iff w' dst LOC') in I as (r' & L2 & H2).
    change (look w' dst k = Some r') in L2. assert (o' = o) by congruence. subst o'. auto.
  Qed.
  (** where the flags, the fields and the identifiers come from *)
  Lemma src_origin n k s do r o : pos n k (Some s) do -> ~ suppressed flags (Some s) do -> look w' dst k = Some r -> nth_error (w_heap w') r = Some o ->
    exists c, dget (ad_classes da) (fst k) = Some c /\
      match do with
      | Some z => o_flags o = o_flags z /\ dkeys (o_vals o) = dkeys (o_vals z) /\ forall f, In f (c_identifiers c) -> dget (o_vals o) f = dget (o_vals z) f
      | None => o_flags o = c_flags c /\ NoDup (dkeys (o_vals o)) /\ forall f, In f (c_identifiers c) -> dget (o_vals o) f = dget (o_vals s) f
      end.
  Proof.
    intros P NSP L H. destruct (elem_at n k (Some s) do P NSP) as (x & m & y & Ix & Iy & E & OK & CO).
    pose proof OK as (_ & _ & D & _). destruct (ok_action _ _ _ _ _ D) as (_ & AD).
    assert (ND : e_action y <> Some ADelete) by (intros X; apply AD in X as (X & _); congruence).
    destruct (done1_kept _ _ _ _ _ _ (DN x Ix y Iy) ND) as (r' & o' & L' & H' & (ob & Lb & BA & OC & OV & OI & OF & _) & _).
    rewrite E in L'. change (look w' dst k = Some r') in L'. assert (r' = r) by congruence. subst r'. assert (o' = o) by congruence. subst o'.
    destruct (ok_base _ _ _ _ _ _ _ AL' _ _ _ _ _ OK) as (c & o2 & C1 & BA2 & (SI & _) & _ & VS & VD & VN & _).
    assert (o2 = ob) by (eapply base_fun; eauto). subst o2. assert (ET : e_type y = fst k) by (rewrite <- E; reflexivity). rewrite ET in C1.
    assert (ID : forall f, In f (c_identifiers c) -> dget (o_vals o) f = dget (o_vals ob) f).
    { intros f If. assert (X : dget (get_identifiers o) f = dget (get_identifiers ob) f) by now rewrite OI. unfold get_identifiers in X. rewrite !dget_dump, OC, <- SI in X.
      apply smem_In in If. now rewrite If in X. }
    exists c. split; [exact C1|]. pose proof (vals_but_keys _ _ _ OV) as VK. destruct do as [z|].
    - destruct (VD z eq_refl) as (_ & ZF & ZK & ZV). split; [congruence|]. split; [congruence|]. intros f If. rewrite (ID f If). apply ZV.
      destruct (pos_class _ _ _ _ _ AL' _ _ _ _ P) as (c2 & C2 & _ & CR & _). assert (c2 = c) by congruence. subst c2. now apply (cr_apart c CR).
    - destruct (VN eq_refl) as (_ & ZF & ZN & _). split; [congruence|]. split; [now rewrite VK|]. intros f If. rewrite (ID f If). now apply (proj1 (VS s eq_refl)).
  Qed.

  Lemma left_origin s k r o : read w src s -> is_key s k -> lookup w' dst (fst k) (snd k) = Some r -> nth_error (w_heap w') r = Some o ->
    exists c, dget (ad_classes da) (fst k) = Some c /\
      ((exists z, read w dst z /\ is_key z k /\ o_flags o = o_flags z /\ dkeys (o_vals o) = dkeys (o_vals z) /\ forall f, In f (c_identifiers c) -> dget (o_vals o) f = dget (o_vals z) f) \/
       (o_flags o = c_flags c /\ NoDup (dkeys (o_vals o)) /\ forall f, In f (c_identifiers c) -> dget (o_vals o) f = dget (o_vals s) f)).
  Proof.
    intros R K L H. assert (T' : there w' dst k) by (apply there_then; unfold look; congruence). pose proof (proj1 (left_keys k) T') as SE. assert (TS : there w src k) by (exists s; auto).
    destruct (src_cases k (ROOT s k R K)) as [(n & s' & do & P & X)|(F1 & N)]; [|destruct SE as [(_ & TD)|[(_ & _ & F)|(N' & _)]]; [contradiction|congruence|contradiction]].
    assert (s = s') by exact (src_one n k s' do s P R K). subst s'.
    destruct (src_origin n k s do r o P) as (c & C & Y); auto.
    { rewrite (skip_iff _ _ _ _ P). destruct do as [z|]; [auto|]. simpl. intros F1. destruct SE as [(_ & TD)|[(_ & _ & F)|(N' & _)]]; [now apply X in TD|congruence|contradiction]. }
    exists c. split; [exact C|]. destruct do as [z|]; [left|right; exact Y]. destruct (pos_key _ _ _ _ _ AL' _ _ _ _ P) as (_ & KD). destruct (KD z eq_refl) as (RZ & KZ). exists z. auto.
  Qed.
  Lemma left_rest z o k : read w dst z -> is_key z k -> ~ there w src k -> read w' dst o -> is_key o k -> same_data z o.
  Proof.
    intros R K N R' K'. assert (T' : there w' dst k) by (exists o; auto).
    assert (F2 : N.testbit flags 2 = true) by (destruct (proj1 (left_keys k) T') as [(TS & _)|[(TS & _)|(_ & _ & F)]]; [contradiction|contradiction|exact F]).
    assert (I : In (k, o) (stored_objs w' dst)) by (apply (read_iff w' dst LOC' KEY'); auto). apply (stored_iff w' dst LOC') in I as (r & L & H).
    assert (J : In (k, z) (stored_objs w dst)) by (apply (read_iff w dst LOC KEY); auto). apply (stored_iff w dst LOC) in J as (r' & L' & H').
    assert (NF : ~ feet k) by (apply untouched; auto). pose proof (mv_look _ _ _ _ _ MV k NF) as E. unfold look in E. assert (r' = r) by congruence. subst r'.
    destruct (mv_heap _ _ _ _ _ MV r z H') as (o' & H2 & SD).
    - intros k' F' L2. destruct (KEY _ _ _ L2) as (z' & Hz & T1 & U1 & _). assert (z' = z) by congruence. subst z'. destruct K as (K1 & K2).
      assert (k' = k) by (apply injective_projections; congruence). subst k'. contradiction.
    - discriminate.
    - assert (o' = o) by congruence. now subst o'.
  Qed.
  Lemma left_merged : merged flags w src dst w'.
  Proof. split; [exact left_keys|exact left_values|exact left_rest]. Qed.
End Skip.

(** all about one synchronisation *)
Lemma sync_merged fuel h dst src dc flags cb w sa da : alike w fuel src dst sa da -> comparable w fuel src dst sa da ->
  hooks_succeed h -> spares_attributes da h -> yields_once (dc_order dc) -> entire w 0 src dst sa da ->
  exists w' d, sync_from fuel h dst src dc flags cb None w = (w', Ok d) /\ merged flags w src dst w' /\ ConvSteps.good dst da w' /\ w_ok w' /\
    (forall b ad, b <> dst -> nth_error (w_ads w) b = Some ad -> exists s', nth_error (w_ads w') b = Some (set_ad_store ad s') /\ store_ext (ad_store ad) s') /\
    (forall t u r, lookup w' dst t u = Some r -> lookup w dst t u = Some r \/ length (w_heap w) <= r) /\
    forall s k r o, read w src s -> is_key s k -> lookup w' dst (fst k) (snd k) = Some r -> nth_error (w_heap w') r = Some o ->
      exists c, dget (ad_classes da) (fst k) = Some c /\
        ((exists z, read w dst z /\ is_key z k /\ o_flags o = o_flags z /\ dkeys (o_vals o) = dkeys (o_vals z) /\ forall f, In f (c_identifiers c) -> dget (o_vals o) f = dget (o_vals z) f) \/
         (o_flags o = c_flags c /\ NoDup (dkeys (o_vals o)) /\ forall f, In f (c_identifiers c) -> dget (o_vals o) f = dget (o_vals s) f)).
Proof.
  intros AL CM HK SP YO [_ S1 D1 TP RT AT]. destruct (compares fuel dst src dc flags cb w sa da AL CM) as (d & D).
  assert (US : uses fuel dst src dc flags cb None w d) by (right; split; [now left|exact D]).
  apply (diff_from_iff fuel dst src dc flags cb w sa da) in D as (sk & FD & DC & _); try apply AL. rewrite <- DC in YO.
  destruct (sync_ends fuel h dst src dc flags flags cb None w d sa da AL (spared da) HK (write_spared da h SP) YO sk FD US) as (w' & E & GD & MV & DN & wd & RO & AP).
  exists w', d. split; [exact E|]. split; [eapply left_merged with (WX := spared da); eauto using spared_not|]. split; [exact GD|].
  split; [exact (end_ok fuel dst src w sa da AL w' wd GD RO AP)|]. split; [apply (mv_other _ _ _ _ _ MV)|].
  split; [intros t u r L; exact (mv_new _ _ _ _ _ MV (t, u) r L)|].
  intros s k r o. eapply left_origin with (WX := spared da); eauto using spared_not.
Qed.
Lemma sync_merges fuel h dst src dc flags cb w sa da : alike w fuel src dst sa da -> comparable w fuel src dst sa da ->
  hooks_succeed h -> spares_attributes da h -> yields_once (dc_order dc) -> entire w 0 src dst sa da ->
  exists w' d, sync_from fuel h dst src dc flags cb None w = (w', Ok d) /\ merged flags w src dst w'.
Proof.
  intros AL CM HK SP YO EN. destruct (sync_merged fuel h dst src dc flags cb w sa da AL CM HK SP YO EN) as (w' & d & E & M & _). eauto.
Qed.
