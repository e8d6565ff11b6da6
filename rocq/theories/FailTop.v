(** * FailTop: the destination after a synchronisation whose hooks may fail. *)
From Verif Require Export FailSpec FailRun OutcomeFacts.

Lemma crud_iff x : is_crud x = true <-> crud_exception x.
Proof. unfold crud_exception. destruct x; simpl; intuition congruence. Qed.
Lemma in_all x y : in_or_below x y <-> In y (elem_all x).
Proof.
  split.
  - intros [|z O]; [destruct x; now left|]. rewrite elem_all_eq. right. now apply In_tree_all.
  - rewrite elem_all_eq. intros [<-|I]; [constructor|]. apply wi_below. now apply In_tree_all.
Qed.

Section Top.
  Variables (fuel : nat) (h : hooks) (dst src : aid) (dc : diffclass) (flags fl : N) (cb : bool) (given : option diff) (w : world) (d : diff).
  Variables (sa da : adapter).
  Hypothesis AL : alike w fuel src dst sa da.
  Variable WX : string -> Prop.
  Hypothesis HONEST : hooks_honest h.
  Hypothesis WRITES : hooks_write WX h.
  Hypothesis YO : yields_once (dc_order (d_class d)).
  Variable sk : nat.
  Hypothesis FD : faithful_diff flags fuel w src dst sa da (d_groups d) sk.
  Hypothesis US : uses fuel dst src dc fl cb given w d.
  Notation env := (env0 fuel h dst src fl cb d).
  Notation feet := (ConvTop.feet fuel h dst src fl cb w d da).
  Notation elem_ok := (ConvFits.elem_ok flags env w sa da (ad_name sa) (ad_name da)).
  Notation akey := (ConvRun.akey da).
  Let AL' : alike w (sv_fuel env) (sv_src env) (sv_dst env) sa da := AL.

  Lemma sync_goes_top : exists w' r, sync_from fuel h dst src dc fl cb given w = (w', r) /\ good dst da w' /\ moved dst feet None w w' /\
    (forall x, In x (children (d_groups d)) -> exists b', (oks r = true -> b' = true) /\ fared env da w WX w' b' x) /\
    calmly env r /\ (forall d', r = Ok d' -> d' = d) /\ exists wd, read_only w wd /\ SyncFacts.apart wd dst w'.
  Proof.
    destruct (sync_from_split fuel h dst src dc fl cb given w) as [(_ & _ & _ & N)|(d' & wd & U & _ & RO & _ & E)]; [now apply N in US|].
    assert (d' = d) by (eapply uses_fun; eauto). subst d'.
    set (L := ordered (dc_order (d_class d)) (fun e => e) (d_groups d)).
    pose proof (ordered_perm _ (d_groups d) YO) as PM. fold L in PM.
    assert (IL : forall x, In x L <-> In x (children (d_groups d))).
    { intros x. split; intros I; [apply (Permutation_in _ PM I)|apply (Permutation_in _ (Permutation_sym PM) I)]. }
    assert (OKS : forall x, In x L -> exists m so do, m <= fuel /\ elem_ok 0 m x so do).
    { intros x I. eapply top_ok; eauto. now apply IL. }
    assert (FITS : forall x, In x L -> fits env da w x).
    { intros x I. destruct (OKS x I) as (m & so & do & _ & OK). eapply elem_fits; [exact AL'|exact OK]. }
    assert (NDL : NoDup (map tagged L)).
    { eapply Permutation_NoDup; [|eapply top_NoDup; eauto]. apply Permutation_map. now symmetry. }
    assert (AP : src <> dst) by apply (al_apart _ _ _ _ _ _ AL).
    assert (FP : fuel <> 0) by (eapply fuel_pos; eauto).
    assert (GS0 : good dst da w) by (eapply good_start; exact AL).
    pose proof (good_ro _ _ _ _ RO GS0) as GD.
    assert (KR : goes (run_kids (map (sync_elem (dc_order (d_class d)) env) L) None false) (mkSS wd 0 None None None) (fun s' r =>
      ready env da (ss_w s') /\ moved dst (fun k => exists x, In x L /\ foot env da w x k) None wd (ss_w s') /\
      (exists G, those env da (ss_w s') L G /\ par_after da None G wd (ss_w s')) /\
      (forall x, In x L -> exists b', (oks r = true -> b' = true) /\ fared env da w WX (ss_w s') b' x) /\
      ((forall x, In x L -> e_action x = Some ADelete) -> (@None action = Some ADelete -> oks r = true -> ss_action s' = Some ADelete) /\ (dels env -> oks r = true)) /\ calmly env r)).
    { apply (FailRun.kids_run (dc_order (d_class d)) env da w WX FP AP L).
      - intros x I. apply (FailRun.elem_runs (dc_order (d_class d)) env da w WX HONEST WRITES YO FP AP); [now apply FITS|apply (al_keyed _ _ _ _ _ _ AL)].
      - intros x I. eapply fits_not_took. now apply FITS.
      - eapply NoDup_map_inv. exact NDL.
      - eapply (feet_apart flags env w sa da (ad_name sa) (ad_name da) AL' 0 L fuel); [exact NDL|exact OKS].
      - split; [exact GD|]. simpl. destruct (read_only_ad _ _ _ _ RO (al_src _ _ _ _ _ _ AL)) as (s' & E' & _). rewrite E'. discriminate.
      - intros x _ k _. cbn [ss_w]. split; [exact (look_ro dst _ _ k RO)|]. intros r o Lr Hr. exists o. split; [eapply read_only_nth; eauto|apply same_data_refl].
      - exact Logic.I. }
    unfold goes in KR. destruct (run_kids (map (sync_elem (dc_order (d_class d)) env) L) None false (mkSS wd 0 None None None)) as [s' rk] eqn:RUN.
    cbn [fst snd] in KR. destruct KR as ((GS & _) & MV & _ & FR & _ & CA).
    assert (RS : exists w' r, run_sync env d wd = (w', r) /\ moved dst (fun _ => False) None (ss_w s') w' /\ good dst da w' /\ oks r = oks rk /\ calmly env r /\ (forall d', r = Ok d' -> d' = d)).
    { unfold run_sync, bind. unfold perform_sync. rewrite ordered_map. fold L. rewrite RUN. cbn [fst snd]. destruct rk as [[|]|x].
      - exists (add_event (ss_w s') (EvSyncComplete src dst)), (Ok d). split; [reflexivity|]. split; [apply moved_event|]. split; [now apply good_event|]. split; [reflexivity|]. split; [exact CA|congruence].
      - exists (ss_w s'), (Ok d). split; [reflexivity|]. split; [apply moved_refl|]. split; [exact GS|]. split; [reflexivity|]. split; [exact CA|congruence].
      - exists (ss_w s'), (Err x). split; [reflexivity|]. split; [apply moved_refl|]. split; [exact GS|]. split; [reflexivity|]. split; [exact CA|discriminate]. }
    destruct RS as (w' & r & RS & ME & GE & OK & CR & DR). exists w', r. split; [rewrite E; exact RS|]. split; [exact GE|]. split; [|split; [|split; [exact CR|split; [exact DR|]]]].
    - eapply moved_trans; [apply moved_ro; exact RO|]. eapply moved_trans; [eapply moved_weak; [| |exact MV]|eapply moved_weak; [| |exact ME]]; auto.
      + intros k (x & I & F). exists x. split; [now apply IL|exact F].
      + intros k [].
    - intros x I. apply IL in I. destruct (FR x I) as (b' & B1 & B2). exists b'. split; [now rewrite OK|].
      eapply fared_moved; [exact GS|exact ME| |exact B2]. split; [auto|discriminate].
    - exists wd. split; [exact RO|]. pose proof (run_sync_apart wd dst env d eq_refl) as A. now rewrite RS in A.
  Qed.

  (** ** What that means *)
  Variable w' : world.
  Hypothesis GD : good dst da w'.
  Hypothesis MV : moved dst feet None w w'.

  Lemma kids_kept n m e so do c o o' L : elem_ok n m e so do -> dget (ad_classes da) (e_type e) = Some c -> same_shape c (o_cls o) ->
    o_kids o = base_kids do c -> those env da w' (children (e_kids e)) L -> o_cls o' = o_cls o ->
    o_kids o' = fold_left (kids_after da (o_cls o)) L (o_kids o) ->
    children_kept w w' dst e (fun f u => match do with Some d => has_child d f u | None => False end) o'.
  Proof.
    intros OK HC SH KB (NL & IG) OC KE t f I. rewrite OC in I. pose proof SH as (_ & _ & _ & SC). rewrite <- SC in I.
    pose proof OK as (P & NS & D & c' & kids & HC' & F & G & CT). assert (c' = c) by congruence. subst c'.
    destruct (describes_key _ _ _ _ _ _ _ AL' _ _ _ _ _ P D) as (c' & C1 & C2 & C3 & C4 & CR & C6). assert (c' = c) by congruence. subst c'.
    destruct (Forall2_in_l _ _ _ _ F I) as ([es k0] & Ik & ss & dd & K1 & K2 & FA). cbn [fst snd] in *.
    assert (GF : dget (c_children c) t = Some f) by (apply In_dget; [exact (cr_types _ CR)|exact I]).
    assert (OLD : exists l, dget (base_kids do c) f = Some l /\ NoDup l /\ forall u, In u l <-> match do with Some d => has_child d f u | None => False end).
    { destruct do as [z|].
      - simpl in K2. cbn [base_kids]. destruct (dget (o_kids z) f) as [l|] eqn:GL; [|discriminate]. exists l. split; [reflexivity|].
        destruct (pos_key _ _ _ _ _ AL' _ _ _ _ P) as (_ & KD). destruct (KD z eq_refl) as (RD & ID).
        assert (IZ : In (t, f) (c_children (o_cls z))) by (destruct (C6 z (or_intror eq_refl)) as (_ & _ & _ & SZ); now rewrite <- SZ).
        split; [exact (cp_once _ _ _ (al_dcomplete _ _ _ _ _ _ AL) z t f l RD IZ GL)|]. intros u. unfold has_child. rewrite GL.
        split; [eauto|intros (l0 & X & J); congruence].
      - exists []. split; [apply empty_field; apply (cr_kids _ CR); unfold dvals; apply in_map_iff; exists (t, f); auto|].
        split; [constructor|]. intros u. reflexivity. }
    destruct OLD as (l & GL & NLl & IN).
    assert (KO : forall x, In x (children (e_kids e)) -> exists m so do, elem_ok (S n) m x so do).
    { intros x J. destruct (ConvFits.ok_kids _ _ _ _ _ _ _ AL' _ _ _ _ _ _ OK J) as (m1 & c1 & t1 & f1 & ss1 & dd1 & u1 & _ & _ & _ & _ & _ & _ & OK1). eauto. }
    assert (NDL : NoDup (map akey L)).
    { assert (NT : NoDup (map tagged (children (e_kids e)))) by (eapply kids_NoDup; eauto). apply NoDup_map_key; [exact NL|].
      intros y z Iy Iz E. apply IG in Iy as (Iy & _). apply IG in Iz as (Iz & _). apply (tagged_inj (children (e_kids e))); auto.
      destruct (KO y Iy) as (m1 & so1 & do1 & OK1). destruct (KO z Iz) as (m2 & so2 & do2 & OK2).
      exact (same_tag _ _ _ _ _ _ _ AL' _ _ _ _ _ _ _ _ _ _ OK1 OK2 E). }
    assert (OW : own_fields (o_cls o)) by exact (shape_own _ _ SH (cr_own _ CR)).
    destruct (fold_list da (o_cls o) t f OW) with (L := L) (K := o_kids o) (l := l) as (l' & G' & N' & IN'); auto.
    - now rewrite <- SC.
    - now rewrite KB.
    - intros x Ix ET EA J. apply IG in Ix as (Ix & _). destruct (KO x Ix) as (m1 & so1 & do1 & OK1).
      destruct (kid_entry _ _ _ _ _ _ _ AL' _ _ _ _ _ _ _ _ _ OK Ix OK1) as (c1 & f1 & l1 & X1 & X2 & X3 & X4 & _).
      assert (c1 = c) by congruence. subst c1. assert (f1 = f) by congruence. subst f1. assert (l1 = l) by congruence. subst l1.
      apply X4 in J. pose proof OK1 as (_ & _ & DX & _). destruct (proj2 (proj1 (ok_action _ _ _ _ _ DX)) EA) as (_ & Y). exact (J Y).
    - exists l'. rewrite KE. split; [exact G'|]. split; [exact N'|]. intros u. rewrite IN', IN, !(kid_child fuel h dst src flags fl cb w d sa da AL _ _ _ _ _ _ _ _ OK).
      assert (EX : forall a, a = ACreate \/ a = ADelete -> (exists x, In x L /\ akey x = (t, u) /\ e_action x = Some a) <->
        (exists x, In x (children (e_kids e)) /\ akey x = (t, u) /\ e_action x = Some a) /\ (if is_delete (Some a) then lookup w' dst t u = None else lookup w' dst t u <> None)).
      { intros a HA. split.
        - intros (x & Ix & Y1 & Y2). apply IG in Ix as (Ix & TK). split; [eauto|]. unfold took in TK. rewrite Y2 in TK. unfold look in TK. rewrite Y1 in TK. destruct HA as [-> | ->]; exact TK.
        - intros ((x & Ix & Y1 & Y2) & TK). exists x. split; [|auto]. apply IG. split; [exact Ix|]. unfold took. rewrite Y2. unfold look. rewrite Y1. destruct HA as [-> | ->]; exact TK. }
      rewrite !EX by auto. cbn [is_delete]. reflexivity.
  Qed.

  Section Elem.
    Variables (n m : nat) (e : elem) (so do : option obj).
    Hypothesis OK : elem_ok n m e so do.
    Lemma named : names w dst e (akey e).
    Proof. now apply (ok_names fuel h dst src flags fl cb w d sa da AL _ _ _ _ _ _ OK). Qed.

    (** the facts about the element that the cases share *)
    Lemma elem_facts : exists c o, dget (ad_classes da) (e_type e) = Some c /\ base env da w e o /\ same_shape c (o_cls o) /\ o_kids o = base_kids do c /\ creatable c /\
      (do = None -> look w dst (akey e) = None) /\ (forall z, do = Some z -> exists r, look w dst (akey e) = Some r /\ nth_error (w_heap w) r = Some z /\ same_shape c (o_cls z)) /\
      (e_action e = Some ACreate <-> so <> None /\ do = None) /\ (e_action e = Some ADelete <-> so = None /\ do <> None).
    Proof.
      pose proof OK as (P & NS & D & _). destruct (ok_action _ _ _ _ _ D) as (AC & AD).
      destruct (ok_base _ _ _ _ _ _ _ AL' _ _ _ _ _ OK) as (c & o & C1 & BA & SH & KB & _ & VD & VN & _).
      destruct (describes_key _ _ _ _ _ _ _ AL' _ _ _ _ _ P D) as (c' & C1' & _ & _ & _ & CR & SHD). assert (c' = c) by congruence. subst c'.
      destruct (pos_key _ _ _ _ _ AL' _ _ _ _ P) as (KS & KD). exists c, o. repeat (split; [assumption|]). split; [|split; [|split; tauto]].
      - intros ->. change (look w (sv_dst env) (akey e) = None). destruct so as [s0|]; [exact (pos_absent _ _ _ _ _ AL' _ _ _ P)|now apply pos_some in P].
      - intros z E. destruct (KD z E) as (RD & ID). destruct (read_dst_key _ _ _ _ AL' _ _ RD ID) as (r & L & H). exists r. split; [exact L|]. split; [exact H|].
        apply SHD. now right.
    Qed.
    Lemma vals_at o o' : o_cls o' = o_cls o -> vals_but (hooked WX e) (o_vals o) (o_vals o') -> get_identifiers o' = get_identifiers o ->
      forall f, ~ (e_action e <> None /\ WX f) \/ In f (c_identifiers (o_cls o)) -> dget (o_vals o') f = dget (o_vals o) f.
    Proof.
      intros OC OV OI f [NX|I]; [exact (vals_but_get _ _ _ _ OV NX)|]. apply (f_equal (fun v => dget v f)) in OI. unfold get_identifiers in OI.
      rewrite !dget_dump, OC in OI. apply smem_In in I. rewrite I in OI. exact OI.
    Qed.

    Lemma won_achieved : won env da w WX w' e -> achieved WX w dst e (akey e) w'.
    Proof.
      destruct elem_facts as (c & o & C1 & BA & SH & KB & CR & AB & DE & AC & AD). unfold won, achieved.
      change (lookup w dst (fst (akey e)) (snd (akey e))) with (look w dst (akey e)). change (lookup w' dst (fst (akey e)) (snd (akey e))) with (look w' dst (akey e)).
      assert (KEEP : forall a, a = e_action e -> a <> Some ADelete -> a <> Some ACreate ->
        (exists r o', look w' dst (akey e) = Some r /\ nth_error (w_heap w') r = Some o' /\ made_of env da w WX w' e o' /\ (a = Some ACreate \/ look w dst (akey e) = Some r)) ->
        exists r z o', look w dst (akey e) = Some r /\ nth_error (w_heap w) r = Some z /\
        look w' dst (akey e) = Some r /\ nth_error (w_heap w') r = Some o' /\ rebuilt (fun f => a <> None /\ WX f) e z o' /\ children_kept w w' dst e (has_child z) o').
      { intros a -> ND NC (r & o' & L & H & (o2 & Lk & BA2 & OC & OV & OI & OF & PM & KE) & [X|L0]); [contradiction|].
        assert (o2 = o) by (eapply base_fun; eauto). subst o2.
        destruct do as [z|] eqn:EDO; [|rewrite (AB eq_refl) in L0; discriminate]. destruct (DE z eq_refl) as (r' & L0' & H0 & _). assert (r' = r) by congruence. subst r'.
        exists r, z, o'. repeat (split; [assumption|]). split.
        - assert (SE : setattrs z (plus_attrs e) = (o, Ok tt)).
          { unfold base in BA. destruct (e_action e) as [[| |]|]; try congruence; destruct BA as (r1 & z1 & B1 & B2 & B3); change (look w dst (akey e) = Some r1) in B1; congruence. }
          destruct (set_rebuilt _ _ _ SE) as (R1 & R2 & _ & R4 & R5 & R6). repeat split; try congruence.
          + pose proof (vals_but_keys _ _ _ OV) as OVK. unfold dkeys in R4, OVK. congruence.
          + intros f v GV NX. rewrite (vals_at o o' OC OV OI f); [now apply R5|]. now rewrite R1.
          + intros f GV NX. rewrite (vals_at o o' OC OV OI f); [now apply R6|]. now rewrite R1.
        - exact (kids_kept n m e so (Some z) c o o' Lk OK C1 SH KB PM OC KE). }
      destruct (e_action e) as [[| |]|] eqn:EA.
      - intros (r & o' & L & H & (o2 & Lk & BA2 & OC & OV & OI & OF & PM & KE) & _). destruct (proj1 AC eq_refl) as (NSo & NDo).
        split; [now apply AB|]. assert (o2 = o) by (eapply base_fun; eauto). subst o2.
        exists da, c, r, o'. split; [apply (al_dst _ _ _ _ _ _ AL)|]. split; [exact C1|]. split; [exact L|]. split; [|split; [exact H|]].
        { destruct (mv_new _ _ _ _ _ MV _ _ L) as [X|X]; [|exact X]. rewrite (AB NDo) in X. discriminate. }
        pose proof (kids_kept n m e so do c o o' Lk OK C1 SH KB PM OC KE) as KK. rewrite NDo in KK. split; [|exact KK].
        unfold base in BA. rewrite EA in BA. destruct BA as (c2 & B1 & B2). assert (c2 = c) by congruence. subst c2.
        destruct (create_built c _ e o (cr_fields _ CR) B2) as (R1 & R2 & R3 & R4). split; [congruence|]. split; [congruence|].
        split; [pose proof (vals_but_keys _ _ _ OV) as OVK; unfold dkeys in OVK; congruence|]. intros f dv I NX.
        rewrite (vals_at o o' OC OV OI f); [apply R4; auto|]. destruct NX as [NX|J]; [left; tauto|right; now rewrite R1].
      - apply KEEP; congruence.
      - intros (LN & CS). split; [|exact LN]. destruct (proj1 AD eq_refl) as (NSo & NDo). destruct do as [z|]; [|congruence]. destruct (DE z eq_refl) as (r & L & H & _).
        exists r, z. split; [exact L|]. split; [exact H|]. intros SKC k' R. apply (CS r z L H); [|exact R]. now rewrite skip_bit1.
      - apply KEEP; congruence.
    Qed.

    Lemma lost_given_up : e_action e <> None -> FailRun.lost env da w WX w' e -> given_up WX w dst e (akey e) w'.
    Proof.
      intros NN. destruct elem_facts as (c & o & C1 & BA & SH & KB & CR & AB & DE & AC & AD). unfold FailRun.lost, given_up.
      change (lookup w dst (fst (akey e)) (snd (akey e))) with (look w dst (akey e)). change (lookup w' dst (fst (akey e)) (snd (akey e))) with (look w' dst (akey e)).
      assert (KEEP : forall a, a = e_action e -> a <> Some ACreate ->
        (exists r o0 o', look w dst (akey e) = Some r /\ nth_error (w_heap w) r = Some o0 /\ look w' dst (akey e) = Some r /\ nth_error (w_heap w') r = Some o' /\ left_of env da w WX w' e o0 o') ->
        exists r o o', look w dst (akey e) = Some r /\ nth_error (w_heap w) r = Some o /\
        look w' dst (akey e) = Some r /\ nth_error (w_heap w') r = Some o' /\
        (as_before WX o o' \/ (a = Some AUpdate /\ rebuilt WX e o o')) /\ children_kept w w' dst e (has_child o) o').
      { intros a -> NC (r & o0 & o' & L0 & H0 & L & H & ob & Lk & OB & OC & OV & OI & OF & PM & KE). exists r, o0, o'. repeat (split; [assumption|]).
        destruct do as [z|] eqn:EDO; [|rewrite (AB eq_refl) in L0; discriminate]. destruct (DE z eq_refl) as (r' & L0' & H0' & SHZ). assert (r' = r) by congruence. subst r'.
        assert (z = o0) by congruence. subst z. split.
        - assert (OBD : ob = o0 \/ (e_action e = Some AUpdate /\ setattrs o0 (plus_attrs e) = (ob, Ok tt))).
          { destruct OB as [OB|OB]; [now left|]. assert (ob = o) by (eapply base_fun; eauto). subst ob. unfold base in BA. destruct (e_action e) as [[| |]|]; try congruence.
            - destruct BA as (r1 & z1 & B1 & B2 & B3). change (look w dst (akey e) = Some r1) in B1. right. split; [reflexivity|]. congruence.
            - destruct BA as (r1 & B1 & B2). change (look w dst (akey e) = Some r1) in B1. left. congruence. }
          destruct OBD as [-> |(EA & SE)].
          + left. split; [exact OC|]. split; [exact OF|]. split; [pose proof (vals_but_keys _ _ _ OV) as OVK; unfold dkeys in OVK; congruence|].
            intros f NX. apply (vals_at o0 o' OC OV OI). tauto.
          + right. split; [exact EA|]. destruct (set_rebuilt _ _ _ SE) as (R1 & R2 & _ & R4 & R5 & R6).
            assert (VI : forall f, ~ WX f \/ In f (c_identifiers (o_cls o0)) -> dget (o_vals o') f = dget (o_vals ob) f).
            { intros f [NX|I]; [apply (vals_but_get _ _ _ _ OV); intros (_ & Y); exact (NX Y)|].
              assert (OI' := OI). apply (f_equal (fun v => dget v f)) in OI'. unfold get_identifiers in OI'. rewrite !dget_dump, OC in OI'. apply smem_In in I as I'. rewrite I' in OI'. rewrite OI'.
              symmetry. destruct (ok_base _ _ _ _ _ _ _ AL' _ _ _ _ _ OK) as (c2 & ob2 & D1 & D2 & D3 & _ & _ & D6 & _ & D8).
              assert (c2 = c) by congruence. subst c2. destruct OB as [OB|OB]; [now rewrite OB|]. assert (ob2 = ob) by (eapply base_fun; eauto). subst ob2.
              destruct (D6 o0 eq_refl) as (_ & _ & DK & DV). apply DV. intros IA. destruct SHZ as (S1 & _). rewrite <- S1 in I. exact (cr_apart _ CR f I IA). }
            assert (OC' : o_cls o' = o_cls ob) by congruence.
            repeat split; try congruence.
            * pose proof (vals_but_keys _ _ _ OV) as OVK. unfold dkeys in R4, OVK. congruence.
            * intros f v GV NX. rewrite VI by tauto. now apply R5.
            * intros f GV NX. rewrite VI by tauto. now apply R6.
        - exact (kids_kept n m e so (Some o0) c o0 o' Lk OK C1 SHZ eq_refl PM OC KE). }
      destruct (e_action e) as [[| |]|] eqn:EA.
      - intros LN. split; [|exact LN]. apply AB. now apply AC.
      - apply KEEP; congruence.
      - apply KEEP; congruence.
      - congruence.
    Qed.

    Lemma fails_may : fails env da w e -> may_fail h w dst e (akey e).
    Proof.
      intros (w1 & hc & CO & NR). exists w1, hc. split; [exact NR|]. unfold FailRun.call_of in CO. destruct (e_action e) as [[| |]|], hc; lazy beta iota in CO |- *; try contradiction.
      - destruct CO as (C1 & -> & ->). split; [reflexivity|]. split; [apply plus_gained|]. exists da. split; [apply (al_dst _ _ _ _ _ _ AL)|exact C1].
      - destruct CO as (L & ->). split; [apply plus_gained|exact L].
      - exact CO.
    Qed.
    Lemma fails_acts : fails env da w e -> e_action e <> None.
    Proof. intros (w1 & hc & CO & _) E. unfold FailRun.call_of in CO. now rewrite E in CO. Qed.

    Lemma alone_left : untouched env da w w' e -> left_alone w w' dst e.
    Proof.
      intros U y k I N. apply in_all in I. destruct (below _ _ _ _ _ _ _ AL' _ _ _ _ _ _ OK I) as (j & m' & so' & do' & _ & OKE & _).
      apply (ok_names fuel h dst src flags fl cb w d sa da AL _ _ _ _ _ _ OKE) in N. subst k. split.
      - apply (U (akey y)). exists y. split; [exact I|]. now left.
      - intros r o k' EA L H SKC R. apply (U k'). exists y. split; [exact I|]. right. split; [|exact R]. split; [exact EA|]. exists r, o. split; [exact L|]. split; [exact H|].
        now rewrite skip_bit1.
    Qed.
  End Elem.

  Lemma fared_went e : forall b n m so do, elem_ok n m e so do -> fared env da w WX w' b e -> went WX h w dst w' b e.
  Proof.
    induction e as [e IH] using elem_ind'. intros b n m so do OK FR.
    assert (KO : forall x, In x (children (e_kids e)) -> exists m so do, elem_ok (S n) m x so do).
    { intros x J. destruct (ConvFits.ok_kids _ _ _ _ _ _ _ AL' _ _ _ _ _ _ OK J) as (m1 & c1 & t1 & f1 & ss1 & dd1 & u1 & _ & _ & _ & _ & _ & _ & OK1). eauto. }
    assert (KID : forall t g nm x, In (t, g) (e_kids e) -> In (nm, x) g -> In x (children (e_kids e))) by (intros t g nm x I1 I2; apply In_children; eauto).
    inversion FR as [b' e' W K|b' e' L F K|b' e' L N F K|e' U]; subst b' || idtac; subst e'.
    - apply (went_done _ _ _ _ _ _ _ (akey e)); [eapply named; eauto|eapply won_achieved; eauto|].
      intros t g nm x I1 I2. destruct (K x (KID _ _ _ _ I1 I2)) as (b' & B1 & B2). exists b'. split; [intros B; apply B1; now left|]. destruct (KO x (KID _ _ _ _ I1 I2)) as (m1 & so1 & do1 & OK1). eapply IH; eauto.
    - apply (went_failed _ _ _ _ _ _ _ (akey e)); [eapply named; eauto|eapply lost_given_up; eauto; eapply fails_acts; eauto|eapply fails_may; eauto|].
      intros t g nm x I1 I2. destruct (KO x (KID _ _ _ _ I1 I2)) as (m1 & so1 & do1 & OK1). eapply alone_left; eauto.
    - destruct N as (EA & r & o & L0 & H0 & NAT & SK). apply (went_late _ _ _ _ _ _ _ (akey e) r o); [exact EA|eapply named; eauto|exact L0|exact H0| | |eapply lost_given_up; eauto; congruence|intros B; eapply fails_may; eauto; apply F; now left|].
      + unfold naturally. now rewrite <- natural_bit.
      + unfold skips_children. rewrite <- skip_bit1. congruence.
      + intros t g nm x I1 I2. destruct (K x (KID _ _ _ _ I1 I2)) as (b' & B1 & B2). exists b'. split; [exact B1|]. destruct (KO x (KID _ _ _ _ I1 I2)) as (m1 & so1 & do1 & OK1). eapply IH; eauto.
    - apply went_not. eapply alone_left; eauto.
  Qed.
End Top.

Section Whole.
  Variables (fuel : nat) (h : hooks) (dst src : aid) (dcd dc : diffclass) (flags fl : N) (cbd cb : bool) (given : option diff) (w : world) (d : diff).
  Variables (sa da : adapter).
  Hypothesis AL : alike w fuel src dst sa da.
  Variable WX : string -> Prop.
  Hypothesis HONEST : hooks_honest h.
  Hypothesis WRITES : hooks_write WX h.
  Hypothesis DF : snd (diff_from fuel dst src dcd flags cbd w) = Ok d.
  Hypothesis YO : yields_once (dc_order (d_class d)).
  Hypothesis US : uses fuel dst src dc fl cb given w d.
  Lemma failing_leaves : let w' := fst (sync_from fuel h dst src dc fl cb given w) in let r := snd (sync_from fuel h dst src dc fl cb given w) in
    (forall t g n x, In (t, g) (d_groups d) -> In (n, x) g -> exists fin, (r = Ok d -> fin = true) /\ went WX h w dst w' fin x) /\
    (r = Ok d \/ exists x, r = Err x /\ breaks_off h fl x) /\
    (forall k, ~ mentioned w dst (d_groups d) any_act k -> ~ doomed w dst (d_groups d) k -> unchanged_at w w' dst k).
  Proof.
    pose proof DF as DF'. apply (diff_from_iff fuel dst src dcd flags cbd w sa da) in DF' as (sk & FD & _); try apply AL.
    destruct (sync_goes_top fuel h dst src dc flags fl cb given w d sa da AL WX HONEST WRITES YO sk FD US) as (w' & r & E & GD & MV & FR & CA & DR & _). rewrite E. cbn [fst snd]. split; [|split].
    - intros t g n x I1 I2. assert (I : In x (children (d_groups d))) by (apply In_children; eauto). destruct (FR x I) as (b & B1 & B2). exists b. split; [intros ->; now apply B1|].
      destruct (top_ok fuel h dst src dc flags fl cb given w d sa da AL sk FD US x I) as (m & so & do & _ & OK). eapply fared_went; eauto.
    - destruct r as [d'|x]; [left; f_equal; now apply DR|right]. exists x. split; [reflexivity|]. destruct CA as (A & B). split; [exact A|]. intros C. apply crud_iff in C. specialize (B C). now rewrite cont_bit in B.
    - intros k NM ND. destruct (rest_kept fuel h dst src dc flags fl cb given w d sa da AL sk FD US w' MV k NM ND) as (A & B). split; [exact A|exact B].
  Qed.
End Whole.
