(** * AgreeFacts: no differences are found exactly between adapters with the same contents. *)
From Verif Require Export CopyTop IdleFacts ConvCascade.

Section Agree.
  Variables (fuel : nat) (h : hooks) (dst src : aid) (dc : diffclass) (flags : N) (cb : bool) (w : world) (d : diff).
  Variables (sa da : adapter).
  Hypothesis AL : alike w fuel src dst sa da.
  Variable sk : nat.
  Hypothesis FD : faithful_diff flags fuel w src dst sa da (d_groups d) sk.
  Hypothesis US : uses fuel dst src dc flags cb None w d.
  Hypothesis ROOT : forall o k, read w src o -> is_key o k -> rooted w src (ad_top sa) k.
  Hypothesis HC : holds_copy w src w dst.
  Notation env := (env0 fuel h dst src flags cb d).
  Notation pos := (ConvTree.pos flags env w sa da).
  Let AL' : alike w (sv_fuel env) (sv_src env) (sv_dst env) sa da := AL.

  Lemma pos_both n k so do : pos n k so do -> exists s o, so = Some s /\ do = Some o /\ copy_of s o.
  Proof.
    pose proof (al_sforest _ _ _ _ _ _ AL) as FS. pose proof (al_dforest _ _ _ _ _ _ AL) as FT.
    assert (CO : forall s o k, read w src s -> is_key s k -> read w dst o -> is_key o k -> copy_of s o).
    { intros s o k0 R K R' K'. destruct (proj1 HC s k0 R K) as (o' & R2 & K2 & C). assert (o' = o) by (eapply (fo_single _ _ _ FT); eassumption). now subst o'. }
    intros P. assert (B : so <> None /\ do <> None).
    { induction P as [t ss dd u so do TL -> -> NN|n p so' do' mapping sk' t f ss dd u so do P IH NS CT IM KS KD -> -> NN].
      - pose proof (top_look fuel h dst src flags cb w d sa da AL t ss dd u TL) as TK. pose proof TL as (IS & ID & AS & AD). change (sv_src env) with src in *. change (sv_dst env) with dst in *.
        destruct (with_uid u ss) as [s|] eqn:WS.
        + split; [discriminate|]. apply TK. apply with_uid_Some in WS as (I & U). pose proof (proj1 (fo_filed _ _ _ FS) t ss s (or_introl IS) AS I) as T.
          destruct (proj1 HC s (t, u)) as (o & R' & K' & _); [exists t, ss; auto|split; assumption|].
          destruct (read_local w dst o (al_local _ _ _ _ _ _ AL) R') as (t' & u' & r & L & H). destruct (al_keyed _ _ _ _ _ _ AL _ _ _ L) as (o' & H' & T' & U' & _).
          assert (o' = o) by congruence. subst o'. destruct K' as (K1 & K2). cbn [fst snd] in *. unfold look. cbn [fst snd]. congruence.
        + simpl in NN. split; [|exact NN]. destruct (with_uid u dd) as [o|] eqn:WD; [|congruence]. exfalso. apply with_uid_Some in WD as (I & U). pose proof (proj1 (fo_filed _ _ _ FT) t dd o (or_introl ID) AD I) as T.
          destruct (proj2 HC o (t, u)) as (s & R & K); [exists t, dd; auto|split; assumption|].
          pose proof (ROOT s (t, u) R K) as RT. inversion RT as [t0 u0 l s0 I0 A0 J0 K0 [E1 E2]|p k RP LI E]; [subst t0 u0|subst k].
          * assert (l = ss) by congruence. subst l. assert (s0 = s) by (eapply (fo_single _ _ _ FS); [exists t, ss; auto|exact R|exact K0|exact K]). subst s0.
            assert (X : with_uid u ss = Some s) by exact (all_with w src t ss s u (ad_top sa) FS IS AS J0 (proj2 K)). congruence.
          * exact (fo_top _ _ _ FS p (t, u) LI IS).
      - destruct IH as (N1 & N2). destruct so' as [s'|]; [|congruence]. destruct do' as [o'|]; [|congruence].
        destruct (pos_key _ _ _ _ _ AL' _ _ _ _ P) as (K1 & K2). destruct (K1 s' eq_refl) as (R1 & I1). destruct (K2 o' eq_refl) as (R2 & I2).
        destruct (CO s' o' p R1 I1 R2 I2) as (_ & _ & _ & _ & CH).
        destruct (pos_class _ _ _ _ _ AL' _ _ _ _ P) as (c & C1 & _ & _ & C4). destruct (C4 s' (or_introl eq_refl)) as (_ & _ & _ & SC).
        destruct (pos_mapping flags env w sa da AL' n p (Some s') (Some o') mapping sk' c P CT C1) as (-> & _). destruct (C4 o' (or_intror eq_refl)) as (_ & _ & _ & SC'). pose proof IM as IM'. rewrite SC' in IM'. rewrite SC in IM.
        destruct (dget (o_kids s') f) as [us|] eqn:G; [|simpl in KS; rewrite G in KS; discriminate]. destruct (CH t f us IM G) as (us' & G' & _ & EQ).
        pose proof (with_uid_None u ss us (kids_uids w src _ s' f t ss us FS (or_intror (ex_intro _ s' (ex_intro _ f (conj R1 IM)))) KS G)) as W1. pose proof (with_uid_None u dd us' (kids_uids w dst _ o' f t dd us' FT (or_intror (ex_intro _ o' (ex_intro _ f (conj R2 IM')))) KD G')) as W2.
        destruct (in_dec string_dec u us) as [I|I].
        + split; intros X; [apply W1 in X|apply W2 in X]; [tauto|]. apply X, EQ, I.
        + exfalso. assert (X : with_uid u ss = None) by now apply W1. assert (Y : with_uid u dd = None) by (apply W2; now rewrite EQ). rewrite X, Y in NN. now apply NN. }
    destruct B as (N1 & N2). destruct so as [s|]; [|congruence]. destruct do as [o|]; [|congruence]. exists s, o. split; [reflexivity|]. split; [reflexivity|].
    destruct (pos_key _ _ _ _ _ AL' _ _ _ _ P) as (K1 & K2). destruct (K1 s eq_refl), (K2 o eq_refl). eapply CO; eauto.
  Qed.
  Lemma copy_idle s o : copy_of s o -> attrs_action (Some (get_attrs s)) (Some (get_attrs o)) = None.
  Proof.
    intros (_ & (_ & _ & SA & _) & _ & AT & _). unfold attrs_action. destruct (existsb _ _) eqn:E; [|reflexivity]. exfalso. apply existsb_exists in E as (k & I & Df).
    cbn [attrs_keys] in I. unfold intersection in I. apply filter_In in I as (_ & I). apply smem_In in I. unfold get_attrs in I. rewrite dkeys_dump in I.
    destruct I as (I & _). unfold attr_differs, get_attrs in Df. pose proof I as I2. apply smem_In in I2. rewrite !dget_dump, <- SA, I2 in Df. destruct (AT k I) as (v & v' & G & G' & Q). rewrite G, G', Q in Df. discriminate.
  Qed.
  Lemma agree_idle x : occurs x (d_groups d) -> e_action x = None.
  Proof.
    intros O. apply occurs_children in O as (y & Iy & Ix).
    destruct (top_ok fuel h dst src dc flags flags cb None w d sa da AL sk FD US y Iy) as (m & so & do & _ & OK).
    destruct (below _ _ _ _ _ _ _ AL' _ _ _ _ _ _ OK Ix) as (j & m' & so' & do' & _ & (P & _ & (_ & _ & ES & ED & _) & _) & _).
    destruct (pos_both _ _ _ _ P) as (s & o & -> & -> & C). unfold e_action. rewrite ES, ED. now apply copy_idle.
  Qed.
End Agree.

(** ** Conversely *)
Lemma undisturbed_lookup w w' a t u : undisturbed w w' -> lookup w' a t u = lookup w a t u.
Proof.
  intros (_ & _ & F). unfold lookup. pose proof (Forall2_nth _ _ _ a F) as X. destruct (nth_error (w_ads w) a) as [ad|]; [|now rewrite X].
  destruct X as (ad' & -> & s' & -> & SE). cbn [ad_store set_ad_store]. destruct (ad_store ad) as [b|], s' as [b'|]; try (now destruct SE); auto.
  destruct SE as (names & -> & _). now rewrite bucket_ext.
Qed.
Lemma copy_same s o o' : same_data o o' -> copy_of s o' -> copy_of s o.
Proof.
  intros (C & V & K & _) (T & SS & DI & AT & CH). split; [unfold get_type in *; congruence|]. split; [now rewrite <- C|]. split.
  - unfold get_identifiers, dump_include in *. now rewrite <- C, <- V.
  - split; [intros k I; rewrite <- V; auto|intros t f l I G; rewrite <- K; eauto].
Qed.
Lemma idle_agrees fuel dst src dc flags cb w d sa da : alike w fuel src dst sa da -> comparable w fuel src dst sa da -> entire w flags src dst sa da ->
  snd (diff_from fuel dst src dc flags cb w) = Ok d -> (forall x, occurs x (d_groups d) -> e_action x = None) -> holds_copy w src w dst.
Proof.
  intros AL CM EN D ID. destruct (sync_copies_all fuel default_hooks dst src base_class flags cb w sa da AL CM default_succeed (default_spares da) order_default_once EN) as (w' & d' & E & (H1 & H2) & LO & KY & _).
  assert (UN : undisturbed w w').
  { replace w' with (fst (sync_from fuel default_hooks dst src base_class flags cb None w)) by now rewrite E.
    apply from_idle. intros d1 e [(X & _)|(_ & U)] O; [discriminate|]. apply (diff_from_iff fuel dst src dc flags cb w sa da) in D as (sk & FD & _ & PR); try apply AL.
    assert (D2 : snd (diff_from fuel dst src base_class flags cb w) = Ok (mkDiff base_class (d_groups d) (d_processed d))).
    { apply (diff_from_iff fuel dst src base_class flags cb w sa da); try apply AL. exists sk. cbn [d_groups d_class d_processed]. auto. }
    rewrite D2 in U. injection U as <-. now apply ID. }
  pose proof (al_local _ _ _ _ _ _ AL) as LO0. pose proof (al_keyed _ _ _ _ _ _ AL) as KY0.
  assert (X : forall k o', In (k, o') (stored_objs w' dst) -> exists o, In (k, o) (stored_objs w dst) /\ same_data o o').
  { intros k o' I. apply (stored_iff w' dst LO) in I as (r & L & H). rewrite (undisturbed_lookup w w') in L by exact UN. destruct (KY0 _ _ _ L) as (o & H0 & _).
    destruct UN as (UH & _). destruct (UH r o H0) as (st & msg & H'). exists o. split; [apply (stored_iff w dst LO0); eauto|]. assert (o' = set_status o st msg) by congruence. subst o'. repeat split. }
  split.
  - intros s k R K. destruct (H1 s k R K) as (o' & R' & K' & C). destruct (X k o') as (o & I & SD); [apply (read_iff w' dst LO KY); auto|].
    apply (read_iff w dst LO0 KY0) in I as (R0 & K0). exists o. split; [exact R0|]. split; [exact K0|]. eapply copy_same; eauto.
  - intros o k R K. assert (I : In (k, o) (stored_objs w dst)) by (apply (read_iff w dst LO0 KY0); auto). apply (stored_iff w dst LO0) in I as (r & L & H).
    rewrite <- (undisturbed_lookup w w') in L by exact UN. destruct (KY _ _ _ L) as (o' & H' & _). destruct (proj2 (read_iff w' dst LO KY k o')) as (R' & K'); [apply (stored_iff w' dst LO); eauto|]. exact (H2 o' k R' K').
Qed.
Lemma agree_iff fuel dst src dc flags cb w sa da : alike w fuel src dst sa da -> comparable w fuel src dst sa da -> entire w flags src dst sa da ->
  exists d, snd (diff_from fuel dst src dc flags cb w) = Ok d /\ (diff_has_diffs d = false <-> holds_copy w src w dst).
Proof.
  intros AL CM EN. destruct (compares fuel dst src dc flags cb w sa da AL CM) as (d & D). exists d. split; [exact D|]. split.
  - intros N. apply (idle_agrees fuel dst src dc flags cb w d sa da AL CM EN D). intros x O. destruct (e_action x) as [act|] eqn:A; [|reflexivity]. exfalso.
    unfold diff_has_diffs in N. assert (X : groups_have_diffs (d_groups d) = true) by (apply groups_have_diffs_spec; exists x; split; [exact O|congruence]). congruence.
  - intros HC. apply has_diffs_none. assert (US : uses fuel dst src dc flags cb None w d) by (right; split; [now left|exact D]).
    apply (diff_from_iff fuel dst src dc flags cb w sa da) in D as (sk & FD & _); try apply AL.
    exact (agree_idle fuel default_hooks dst src dc flags cb w d sa da AL sk FD US (wh_rooted _ _ _ _ _ _ EN) HC).
Qed.
