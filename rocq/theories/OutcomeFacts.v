(** * OutcomeFacts: the destination after a synchronisation. *)
From Verif Require Export OutcomeSpec ConvCascade BaseMeth ShowDict.

(** ** Values *)
Lemma plus_gained e k v : dget (plus_attrs e) k = Some v <-> gained e k v.
Proof.
  unfold plus_attrs. destruct (ad_plus (e_attrs_diffs e)) as [p|] eqn:E; [now apply plus_iff|]. split; [discriminate|].
  intros (s & ES & D & M). exfalso. unfold e_attrs_diffs, get_attrs_diffs in E. rewrite ES in E. destruct (e_dst e); discriminate.
Qed.
Lemma plus_NoDup e : NoDup (dkeys (plus_attrs e)).
Proof.
  unfold plus_attrs, e_attrs_diffs, get_attrs_diffs. destruct (e_src e), (e_dst e); cbn [ad_plus]; try apply NoDup_pick; constructor.
Qed.
Lemma setattrs_keys a : forall o o', setattrs o a = (o', Ok tt) -> forall k, In k (dkeys a) -> In k (dkeys (o_vals o)).
Proof.
  induction a as [|[k0 v0] a IH]; intros o o' E k I; [destruct I|]. cbn [setattrs] in E. unfold setattr_val in E.
  destruct (dmem (o_vals o) k0) eqn:M; [|discriminate]. apply dmem_In in M. destruct I as [<-|I]; [exact M|].
  pose proof (IH _ _ E k I) as J. cbn [o_vals set_o_vals] in J. now rewrite dkeys_dset_in in J.
Qed.
Lemma set_rebuilt e o o1 : setattrs o (plus_attrs e) = (o1, Ok tt) ->
  o_cls o1 = o_cls o /\ o_flags o1 = o_flags o /\ o_kids o1 = o_kids o /\ dkeys (o_vals o1) = dkeys (o_vals o) /\
  (forall f v, gained e f v -> dget (o_vals o1) f = Some v) /\
  (forall f, (forall v, ~ gained e f v) -> dget (o_vals o1) f = dget (o_vals o) f).
Proof.
  intros E. destruct (setattrs_ok (plus_attrs e) o (plus_NoDup e) (setattrs_keys _ _ _ E)) as (o' & E' & (R1 & R2 & R3 & _) & _ & DK & V).
  rewrite E in E'. injection E' as <-. repeat (split; [assumption|]). split.
  - intros f v G. apply plus_gained in G. now rewrite V, G.
  - intros f N. rewrite V. destruct (dget (plus_attrs e) f) as [v|] eqn:G; [|reflexivity]. apply plus_gained in G. elim (N v G).
Qed.
Lemma create_built c a e o : NoDup (dkeys (c_fields c)) -> create_base c a (e_keys e) (plus_attrs e) = Ok o -> built (fun _ => False) c e o.
Proof.
  intros ND E. destruct (create_cases c a (e_keys e) (plus_attrs e) ND) as (A & B).
  destruct (merge_cases (e_keys e) (plus_attrs e)) as [(X & _)|(X & _)]; [rewrite (A X) in E; discriminate|]. destruct (B X) as (B1 & B2).
  assert (RQ : forall k, In (k, None) (c_fields c) -> dget (e_keys e) k <> None \/ dget (plus_attrs e) k <> None).
  { intros k I. destruct (dget (e_keys e) k) eqn:G1; [left; discriminate|]. destruct (dget (plus_attrs e) k) eqn:G2; [right; discriminate|].
    rewrite B1 in E; [discriminate|]. eauto. }
  destruct (B2 RQ) as (o' & E' & C & _ & F & _ & DK & V & _). rewrite E in E'. injection E' as <-.
  split; [exact C|]. split; [exact F|]. split; [exact DK|]. intros f dv I _. rewrite (V f dv I). split; [|split].
  - now intros v ->.
  - intros -> v G. apply plus_gained in G. now rewrite G.
  - intros -> N. destruct (dget (plus_attrs e) f) as [v|] eqn:G; [|reflexivity]. apply plus_gained in G. elim (N v G).
Qed.

Lemma grouped_types gs es t g n x : grouped gs es -> In (t, g) gs -> In (n, x) g -> e_type x = t.
Proof.
  intros (K & G & _) I1 I2. assert (ND : NoDup (dkeys gs)) by (rewrite K; apply NoDup_keep_first). pose proof (G t) as Gt. unfold group_of in Gt.
  rewrite (In_dget _ _ _ ND I1) in Gt. rewrite Gt in I2. apply in_map_iff in I2 as (y & Y & I2). injection Y as _ ->. apply filter_In in I2 as (_ & E). now apply String.eqb_eq in E.
Qed.

Section Outcome.
  Variables (fuel : nat) (h : hooks) (dst src : aid) (dc : diffclass) (flags fl : N) (cb : bool) (given : option diff) (w : world) (d : diff).
  Variables (sa da : adapter).
  Hypothesis AL : alike w fuel src dst sa da.
  Variable WX : string -> Prop.
  Hypothesis YO : yields_once (dc_order (d_class d)).
  Variable sk : nat.
  Hypothesis FD : faithful_diff flags fuel w src dst sa da (d_groups d) sk.
  Hypothesis US : uses fuel dst src dc fl cb given w d.
  Notation env := (env0 fuel h dst src fl cb d).
  Notation feet := (ConvTop.feet fuel h dst src fl cb w d da).
  Notation elem_ok := (ConvFits.elem_ok flags env w sa da (ad_name sa) (ad_name da)).
  Notation akey := (ConvRun.akey da).
  Let AL' : alike w (sv_fuel env) (sv_src env) (sv_dst env) sa da := AL.
  Variables (w' : world).
  Hypothesis GD : good dst da w'.
  Hypothesis MV : moved dst feet None w w'.
  Hypothesis DN : forall x, In x (children (d_groups d)) -> done env da w WX x w'.

  Lemma elem_found e : occurs e (d_groups d) -> exists n m so do, elem_ok n m e so do.
  Proof.
    intros O. apply occurs_children in O as (x & Ix & Ie).
    destruct (top_ok fuel h dst src dc flags fl cb given w d sa da AL sk FD US x Ix) as (m & so & do & _ & OK).
    destruct (below _ _ _ _ _ _ _ AL' _ _ _ _ _ _ OK Ie) as (j & m' & so' & do' & _ & OKE & _). eauto.
  Qed.
  Lemma ok_names n m e so do k : elem_ok n m e so do -> names w dst e k <-> akey e = k.
  Proof.
    intros (P & _ & D & _). destruct (describes_key _ _ _ _ _ _ _ AL' _ _ _ _ _ P D) as (c & C1 & C2 & _ & C4 & _). split.
    - intros (ad & c' & N1 & N2 & N3 & N4). assert (ad = da) by (pose proof (al_dst _ _ _ _ _ _ AL); congruence). subst ad.
      unfold ConvRun.akey. rewrite N2, N4. destruct k as [k1 k2]. simpl in *. congruence.
    - intros <-. exists da, c. split; [apply (al_dst _ _ _ _ _ _ AL)|]. split; [exact C1|]. split; [symmetry; exact C2|exact C4].
  Qed.
  Lemma elem_done e : occurs e (d_groups d) -> done1 env da w WX e w'.
  Proof. intros O. apply occurs_children in O as (x & Ix & Ie). exact (DN x Ix e Ie). Qed.

  (** ** Children *)
  Lemma kid_child n m e so do a t u : elem_ok n m e so do ->
    child_with w dst e a t u <-> exists x, In x (children (e_kids e)) /\ akey x = (t, u) /\ e_action x = Some a.
  Proof.
    intros OK. assert (KO : forall x, In x (children (e_kids e)) -> exists n m so do, elem_ok n m x so do).
    { intros x I. destruct (ConvFits.ok_kids _ _ _ _ _ _ _ AL' _ _ _ _ _ _ OK I) as (m1 & c & t1 & f & ss & dd & u1 & _ & _ & _ & _ & _ & _ & OK1). eauto. }
    assert (GT : forall t g n x, In (t, g) (e_kids e) -> In (n, x) g -> e_type x = t).
    { intros t1 g n1 x I1 I2. destruct OK as (_ & _ & _ & c & kids & _ & _ & G & _). exact (grouped_types _ _ t1 g n1 x G I1 I2). }
    split.
    - intros (g & n1 & x & I1 & I2 & A & N). assert (I : In x (children (e_kids e))) by (apply In_children; eauto). exists x. split; [exact I|]. split; [|exact A].
      destruct (KO x I) as (n2 & m2 & so2 & do2 & OKX). now apply (ok_names _ _ _ _ _ _ OKX).
    - intros (x & I & E & A). destruct (KO x I) as (n2 & m2 & so2 & do2 & OKX). apply In_children in I as (t1 & g & n1 & I1 & I2).
      assert (t1 = t) by (rewrite <- (GT _ _ _ _ I1 I2); change (fst (akey x) = t); now rewrite E). subst t1.
      exists g, n1, x. repeat (split; [assumption|]). now apply (ok_names _ _ _ _ _ _ OKX).
  Qed.
  Lemma kids_end n m e so do c o o' L : elem_ok n m e so do -> dget (ad_classes da) (e_type e) = Some c -> same_shape c (o_cls o) ->
    o_kids o = base_kids do c -> Permutation L (children (e_kids e)) -> o_cls o' = o_cls o ->
    o_kids o' = fold_left (kids_after da (o_cls o)) L (o_kids o) ->
    children_become w dst e (fun f u => match do with Some d => has_child d f u | None => False end) o'.
  Proof.
    intros OK HC SH KB PM OC KE t f I. rewrite OC in I. pose proof SH as (_ & _ & _ & SC). rewrite <- SC in I.
    pose proof OK as (P & NS & D & c' & kids & HC' & F & G & CT). assert (c' = c) by congruence. subst c'.
    destruct (describes_key _ _ _ _ _ _ _ AL' _ _ _ _ _ P D) as (c' & C1 & C2 & C3 & C4 & CR & C6). assert (c' = c) by congruence. subst c'.
    destruct (Forall2_in_l _ _ _ _ F I) as ([es k0] & Ik & ss & dd & K1 & K2 & FA). cbn [fst snd] in *.
    assert (GF : dget (c_children c) t = Some f) by (apply In_dget; [exact (cr_types _ CR)|exact I]).
    assert (OLD : exists l, dget (base_kids do c) f = Some l /\ NoDup l /\ forall u, In u l <-> match do with Some d => has_child d f u | None => False end).
    { destruct do as [z|].
      - simpl in K2. cbn [base_kids]. destruct (dget (o_kids z) f) as [l|] eqn:GL; [|discriminate]. exists l. split; [reflexivity|].
        destruct (pos_key _ _ _ _ _ AL' _ _ _ _ P) as (_ & KD). destruct (KD z eq_refl) as (RD & ID).
        assert (IZ : In (t, f) (c_children (o_cls z))) by (destruct (C6 z (or_intror eq_refl)) as (_ & _ & _ & SZ); now rewrite <- SZ).
        split; [exact (cp_once _ _ _ (al_dcomplete _ _ _ _ _ _ AL) z t f l RD IZ GL)|]. intros u. unfold has_child. rewrite GL.
        split; [eauto|intros (l0 & X & J); congruence].
      - exists []. split; [apply empty_field; apply (cr_kids _ CR); unfold dvals; apply in_map_iff; exists (t, f); auto|].
        split; [constructor|]. intros u. reflexivity. }
    destruct OLD as (l & GL & NL & IN).
    assert (IL : forall x, In x L <-> In x (children (e_kids e))).
    { intros x. split; intros J; [apply (Permutation_in _ PM J)|apply (Permutation_in _ (Permutation_sym PM) J)]. }
    assert (KO : forall x, In x (children (e_kids e)) -> exists m so do, elem_ok (S n) m x so do).
    { intros x J. destruct (ConvFits.ok_kids _ _ _ _ _ _ _ AL' _ _ _ _ _ _ OK J) as (m1 & c1 & t1 & f1 & ss1 & dd1 & u1 & _ & _ & _ & _ & _ & _ & OK1). eauto. }
    assert (NDL : NoDup (map akey L)).
    { assert (NT : NoDup (map tagged (children (e_kids e)))) by (eapply kids_NoDup; eauto). apply NoDup_map_key.
      - eapply Permutation_NoDup; [symmetry; exact PM|]. eapply NoDup_map_inv. exact NT.
      - intros y z Iy Iz E. apply IL in Iy. apply IL in Iz. apply (tagged_inj (children (e_kids e))); auto.
        destruct (KO y Iy) as (m1 & so1 & do1 & OK1). destruct (KO z Iz) as (m2 & so2 & do2 & OK2).
        exact (same_tag _ _ _ _ _ _ _ AL' _ _ _ _ _ _ _ _ _ _ OK1 OK2 E). }
    assert (OW : own_fields (o_cls o)) by exact (shape_own _ _ SH (cr_own _ CR)).
    destruct (fold_list da (o_cls o) t f OW) with (L := L) (K := o_kids o) (l := l) as (l' & G' & N' & IN'); auto.
    - now rewrite <- SC.
    - now rewrite KB.
    - intros x Ix ET EA J. apply IL in Ix. destruct (KO x Ix) as (m1 & so1 & do1 & OK1).
      destruct (kid_entry _ _ _ _ _ _ _ AL' _ _ _ _ _ _ _ _ _ OK Ix OK1) as (c1 & f1 & l1 & X1 & X2 & X3 & X4 & _).
      assert (c1 = c) by congruence. subst c1. assert (f1 = f) by congruence. subst f1. assert (l1 = l) by congruence. subst l1.
      apply X4 in J. pose proof OK1 as (_ & _ & DX & _). destruct (proj2 (proj1 (ok_action _ _ _ _ _ DX)) EA) as (_ & Y). exact (J Y).
    - exists l'. rewrite KE. split; [exact G'|]. split; [exact N'|]. intros u. rewrite IN', IN, !(kid_child _ _ _ _ _ _ _ _ OK).
      assert (EX : forall a, (exists x, In x L /\ akey x = (t, u) /\ e_action x = Some a) <-> (exists x, In x (children (e_kids e)) /\ akey x = (t, u) /\ e_action x = Some a)).
      { intros a. split; intros (x & Ix & Y); exists x; (split; [now apply IL|exact Y]). }
      now rewrite !EX.
  Qed.

  Lemma outcomes e k : occurs e (d_groups d) -> names w dst e k -> fate WX w dst e k w'.
  Proof.
    intros O N. destruct (elem_found e O) as (n & m & so & do & OK). apply (ok_names _ _ _ _ _ _ OK) in N. subst k.
    pose proof (elem_done e O) as D1. pose proof OK as (P & NS & D & _). destruct (ok_action _ _ _ _ _ D) as (AC & AD).
    destruct (ok_base _ _ _ _ _ _ _ AL' _ _ _ _ _ OK) as (c & o & C1 & BA & SH & KB & _ & VD & VN & _).
    destruct (describes_key _ _ _ _ _ _ _ AL' _ _ _ _ _ P D) as (c' & C1' & _ & _ & _ & CR & _). assert (c' = c) by congruence. subst c'.
    destruct (pos_key _ _ _ _ _ AL' _ _ _ _ P) as (KS & KD).
    assert (AB : do = None -> look w dst (akey e) = None) by (intros ->; change (look w (sv_dst env) (akey e) = None); destruct so as [s0|]; [exact (pos_absent _ _ _ _ _ AL' _ _ _ P)|now apply pos_some in P]).
    assert (DE : forall z, do = Some z -> exists r, look w dst (akey e) = Some r /\ nth_error (w_heap w) r = Some z).
    { intros z ->. destruct (KD z eq_refl) as (RD & ID). exact (read_dst_key _ _ _ _ AL' _ _ RD ID). }
    assert (VAL : forall o', o_cls o' = o_cls o -> vals_but (hooked WX e) (o_vals o) (o_vals o') -> get_identifiers o' = get_identifiers o ->
      forall f, ~ (e_action e <> None /\ WX f) \/ In f (c_identifiers (o_cls o)) -> dget (o_vals o') f = dget (o_vals o) f).
    { intros o' OC OV OI f [NX|I]; [exact (vals_but_get _ _ _ _ OV NX)|]. apply (f_equal (fun v => dget v f)) in OI. unfold get_identifiers in OI.
      rewrite !dget_dump, OC in OI. apply smem_In in I. rewrite I in OI. exact OI. }
    unfold fate. change (lookup w dst (fst (akey e)) (snd (akey e))) with (look w dst (akey e)). change (lookup w' dst (fst (akey e)) (snd (akey e))) with (look w' dst (akey e)).
    assert (KEEP : e_action e <> Some ADelete -> e_action e <> Some ACreate -> exists r z o', look w dst (akey e) = Some r /\ nth_error (w_heap w) r = Some z /\
        look w' dst (akey e) = Some r /\ nth_error (w_heap w') r = Some o' /\ rebuilt (fun f => e_action e <> None /\ WX f) e z o' /\ children_become w dst e (has_child z) o').
    { intros ND NC. destruct (done1_kept _ _ _ _ _ _ D1 ND) as (r & o' & L & H & (o2 & Lk & BA2 & OC & OV & OI & OF & PM & KE) & [X|L0]); [contradiction|].
      assert (o2 = o) by (eapply base_fun; eauto). subst o2. change (look w dst (akey e) = Some r) in L0.
      destruct do as [z|]; [|rewrite (AB eq_refl) in L0; discriminate]. destruct (DE z eq_refl) as (r' & L0' & H0). assert (r' = r) by congruence. subst r'.
      exists r, z, o'. repeat (split; [assumption|]). split.
      - assert (SE : setattrs z (plus_attrs e) = (o, Ok tt)).
        { unfold base in BA. destruct (e_action e) as [[| |]|]; try congruence; destruct BA as (r1 & z1 & B1 & B2 & B3); change (look w dst (akey e) = Some r1) in B1; congruence. }
        destruct (set_rebuilt _ _ _ SE) as (R1 & R2 & _ & R4 & R5 & R6). repeat split; try congruence.
        + pose proof (vals_but_keys _ _ _ OV) as OVK. unfold dkeys in R4, OVK. congruence.
        + intros f v GV NX. rewrite (VAL o' OC OV OI f); [now apply R5|]. now rewrite R1.
        + intros f GV NX. rewrite (VAL o' OC OV OI f); [now apply R6|]. now rewrite R1.
      - exact (kids_end n m e so (Some z) c o o' Lk OK C1 SH KB PM OC KE). }
    destruct (e_action e) as [[| |]|] eqn:EA.
    - destruct (proj2 AC eq_refl) as (NSo & NDo). subst do. split; [now apply AB|].
      destruct (done1_kept _ _ _ _ _ _ D1) as (r & o' & L & H & (o2 & Lk & BA2 & OC & OV & OI & OF & PM & KE) & _); [congruence|].
      assert (o2 = o) by (eapply base_fun; eauto). subst o2. exists da, c, r, o'. split; [apply (al_dst _ _ _ _ _ _ AL)|]. split; [exact C1|]. split; [exact L|]. split; [|split; [exact H|]].
      { destruct (mv_new _ _ _ _ _ MV _ _ L) as [X|X]; [|exact X]. rewrite (AB eq_refl) in X. discriminate. }
      split; [|exact (kids_end n m e so None c o o' Lk OK C1 SH KB PM OC KE)].
      unfold base in BA. rewrite EA in BA. destruct BA as (c2 & B1 & B2). assert (c2 = c) by congruence. subst c2.
      destruct (create_built c _ e o (cr_fields _ CR) B2) as (R1 & R2 & R3 & R4). split; [congruence|]. split; [congruence|].
      split; [pose proof (vals_but_keys _ _ _ OV) as OVK; unfold dkeys in OVK; congruence|]. intros f dv I NX.
      rewrite (VAL o' OC OV OI f); [apply R4; auto|]. destruct NX as [NX|J]; [left; tauto|right; now rewrite R1].
    - apply KEEP; discriminate.
    - destruct (proj2 AD eq_refl) as (NSo & NDo). split; [destruct do as [z|]; [|congruence]; destruct (DE z eq_refl) as (r & L & _); congruence|].
      unfold done1 in D1. rewrite EA in D1. exact (proj1 D1).
    - apply KEEP; discriminate.
  Qed.

  (** ** Which objects there are *)
  Lemma named_dec k : mentioned w dst (d_groups d) any_act k \/ ~ mentioned w dst (d_groups d) any_act k.
  Proof.
    set (ks := map akey (flat_map elem_all (children (d_groups d)))). assert (KD : forall a b : key, {a = b} + {a <> b}) by (intros a b; decide equality; apply string_dec).
    assert (IFF : mentioned w dst (d_groups d) any_act k <-> In k ks).
    { unfold ks. rewrite in_map_iff. split.
      - intros (e & O & _ & N). exists e. destruct (elem_found e O) as (n & m & so & do & OK). split; [now apply (ok_names _ _ _ _ _ _ OK)|].
        apply occurs_children in O as (x & I1 & I2). apply in_flat_map. eauto.
      - intros (e & E & I). assert (O : occurs e (d_groups d)) by (apply in_flat_map in I as (x & I1 & I2); apply occurs_children; eauto).
        destruct (elem_found e O) as (n & m & so & do & OK). exists e. split; [exact O|]. split; [exact Logic.I|]. now apply (ok_names _ _ _ _ _ _ OK). }
    rewrite IFF. destruct (in_dec KD k ks); auto.
  Qed.
  Lemma foot_cases k : feet k -> mentioned w dst (d_groups d) any_act k \/ doomed w dst (d_groups d) k.
  Proof.
    intros (x & Ix & e & Ie & Y). assert (O : occurs e (d_groups d)) by (apply occurs_children; eauto). destruct (elem_found e O) as (n & m & so & do & OK). destruct Y as [E|((EA & r & o & L & H & SK) & R)].
    - left. exists e. split; [exact O|]. split; [exact Logic.I|]. now apply (ok_names _ _ _ _ _ _ OK).
    - right. right. exists (akey e), r, o. split; [|split; [exact L|split; [exact H|split; [|exact R]]]].
      + exists e. split; [exact O|]. split; [exact EA|]. now apply (ok_names _ _ _ _ _ _ OK).
      + unfold skips_children. now rewrite <- skip_bit1.
  Qed.
  Lemma rest_kept k : ~ mentioned w dst (d_groups d) any_act k -> ~ doomed w dst (d_groups d) k ->
    lookup w' dst (fst k) (snd k) = lookup w dst (fst k) (snd k) /\
    forall r o, lookup w dst (fst k) (snd k) = Some r -> nth_error (w_heap w) r = Some o -> exists o', nth_error (w_heap w') r = Some o' /\ same_data o o'.
  Proof.
    intros NM ND. assert (NF : ~ feet k) by (intros F; destruct (foot_cases k F); contradiction). split; [exact (mv_look _ _ _ _ _ MV k NF)|].
    intros r o L H. apply (mv_heap _ _ _ _ _ MV r o H); [|discriminate]. intros k' F L'. apply NF.
    pose proof (al_keyed _ _ _ _ _ _ AL) as KY. destruct (KY _ _ _ L) as (o1 & H1 & T1 & U1 & _). destruct (KY _ _ _ L') as (o2 & H2 & T2 & U2 & _).
    assert (EK : k = k') by (rewrite (surjective_pairing k), (surjective_pairing k'); congruence). now rewrite EK.
  Qed.
  Lemma doomed_gone k : doomed w dst (d_groups d) k -> lookup w' dst (fst k) (snd k) = None.
  Proof.
    intros [(e & O & EA & N)|(kd & r & o & (e & O & EA & N) & L & H & SK & R)]; destruct (elem_found e O) as (n & m & so & do & OK);
      apply (ok_names _ _ _ _ _ _ OK) in N; pose proof (elem_done e O) as D1; unfold done1 in D1; rewrite EA in D1; destruct D1 as (D1 & D2).
    - rewrite <- N. exact D1.
    - subst kd. apply (D2 r o L H); [|exact R]. now rewrite skip_bit1.
  Qed.
  Lemma which k : lookup w' dst (fst k) (snd k) <> None <->
    mentioned w dst (d_groups d) not_delete_act k \/
    (lookup w dst (fst k) (snd k) <> None /\ ~ mentioned w dst (d_groups d) any_act k /\ ~ doomed w dst (d_groups d) k).
  Proof.
    split.
    - intros L. assert (ND : ~ doomed w dst (d_groups d) k) by (intros X; now apply L, doomed_gone). destruct (named_dec k) as [(e & O & _ & N)|NM].
      + left. exists e. split; [exact O|]. split; [|exact N]. intros EA. apply ND. left. exists e. auto.
      + right. destruct (rest_kept k NM ND) as (E & _). rewrite E in L. auto.
    - intros [(e & O & EA & N)|(L & NM & ND)].
      + pose proof (outcomes e k O N) as OC. unfold fate in OC. unfold not_delete_act in EA. destruct (e_action e) as [[| |]|].
        * destruct OC as (_ & ad & c & r & o & _ & _ & X & _). congruence.
        * destruct OC as (r & o & o' & _ & _ & X & _). congruence.
        * congruence.
        * destruct OC as (r & o & o' & _ & _ & X & _). congruence.
      + destruct (rest_kept k NM ND) as (E & _). now rewrite E.
  Qed.
End Outcome.

Section Top.
  Variables (fuel : nat) (h : hooks) (dst src : aid) (dcd dc : diffclass) (flags fl : N) (cbd cb : bool) (given : option diff) (w : world) (d : diff).
  Variables (sa da : adapter).
  Hypothesis AL : alike w fuel src dst sa da.
  Hypothesis HK : hooks_succeed h.
  Variable WX : string -> Prop.
  Hypothesis HW : hooks_write WX h.
  Variable d0 : diff.
  Hypothesis DF : snd (diff_from fuel dst src dcd flags cbd w) = Ok d0.
  Hypothesis SG : d_groups d = d_groups d0.
  Hypothesis YO : yields_once (dc_order (d_class d)).
  Hypothesis US : uses fuel dst src dc fl cb given w d.
  Lemma leaves_as : let w' := fst (sync_from fuel h dst src dc fl cb given w) in
    snd (sync_from fuel h dst src dc fl cb given w) = Ok d /\
    (forall e k, occurs e (d_groups d) -> names w dst e k -> fate WX w dst e k w') /\
    (forall k, lookup w' dst (fst k) (snd k) <> None <->
      mentioned w dst (d_groups d) not_delete_act k \/
      (lookup w dst (fst k) (snd k) <> None /\ ~ mentioned w dst (d_groups d) any_act k /\ ~ doomed w dst (d_groups d) k)) /\
    (forall k r o, ~ mentioned w dst (d_groups d) any_act k -> ~ doomed w dst (d_groups d) k ->
      lookup w dst (fst k) (snd k) = Some r -> nth_error (w_heap w) r = Some o ->
      lookup w' dst (fst k) (snd k) = Some r /\ exists o', nth_error (w_heap w') r = Some o' /\ same_data o o').
  Proof.
    pose proof DF as DF'. apply (diff_from_iff fuel dst src dcd flags cbd w sa da) in DF' as (sk & FD & _); try apply AL. rewrite <- SG in FD.
    destruct (sync_ends fuel h dst src dc flags fl cb given w d sa da AL WX HK HW YO sk FD US) as (w' & E & GD & MV & DN & _). rewrite E. cbn [fst snd].
    split; [reflexivity|]. split; [|split].
    - intros e k O N. eapply outcomes; eauto.
    - intros k. eapply which; eauto.
    - intros k r o NM ND L H. destruct (rest_kept fuel h dst src dc flags fl cb given w d sa da AL sk FD US w' MV k NM ND) as (A & B). split; [congruence|eauto].
  Qed.
End Top.

(** ** The same elements have the same outcome *)
Lemma gained_dec e f : (exists v, gained e f v) \/ forall v, ~ gained e f v.
Proof.
  destruct (dget (plus_attrs e) f) as [v|] eqn:G; [left; exists v; now apply plus_gained|right]. intros v X. apply plus_gained in X. congruence.
Qed.
Lemma fields_same (Y : string -> Prop) (o1 o2 : obj) : map fst (o_vals o1) = map fst (o_vals o2) ->
  (forall f, In f (map fst (o_vals o1)) -> Y f -> dget (o_vals o1) f = dget (o_vals o2) f) -> forall f, Y f -> dget (o_vals o1) f = dget (o_vals o2) f.
Proof.
  intros E H f HY. destruct (in_dec string_dec f (map fst (o_vals o1))) as [I|I]; [now apply H|].
  assert (A : dget (o_vals o1) f = None) by (apply dget_None; exact I). assert (B : dget (o_vals o2) f = None) by (apply dget_None; unfold dkeys; now rewrite <- E). congruence.
Qed.
Lemma kids_same w dst e old o1 o2 : o_cls o1 = o_cls o2 -> children_become w dst e old o1 -> children_become w dst e old o2 ->
  forall t f, In (t, f) (c_children (o_cls o1)) -> exists l1 l2, dget (o_kids o1) f = Some l1 /\ dget (o_kids o2) f = Some l2 /\ Permutation l1 l2.
Proof.
  intros C K1 K2 t f I. destruct (K1 t f I) as (l1 & G1 & N1 & I1). rewrite C in I. destruct (K2 t f I) as (l2 & G2 & N2 & I2).
  exists l1, l2. split; [exact G1|]. split; [exact G2|]. apply NoDup_Permutation; auto. intros u. now rewrite I1, I2.
Qed.
Lemma built_like X w dst c e o1 o2 : built X c e o1 -> built X c e o2 -> children_become w dst e (fun _ _ => False) o1 -> children_become w dst e (fun _ _ => False) o2 -> like X o1 o2.
Proof.
  intros (A1 & A2 & A3 & A4) (B1 & B2 & B3 & B4) K1 K2. split; [congruence|]. split; [congruence|]. split; [|eapply kids_same; eauto; congruence].
  rewrite A1. apply (fields_same (fun f => ~ X f \/ In f (c_identifiers c))); [congruence|]. intros f I NX. rewrite A3 in I. apply in_map_iff in I as ([f' dv] & E & I). simpl in E. subst f'.
  destruct (A4 f dv I NX) as (X1 & X2 & X3), (B4 f dv I NX) as (Y1 & Y2 & Y3). destruct (dget (e_keys e) f) as [v|]; [rewrite (X1 v), (Y1 v); auto|].
  destruct (gained_dec e f) as [(v & G)|N]; [rewrite (X2 eq_refl v G), (Y2 eq_refl v G); auto|rewrite (X3 eq_refl N), (Y3 eq_refl N); auto].
Qed.
Lemma rebuilt_like X w dst e o o1 o2 : rebuilt X e o o1 -> rebuilt X e o o2 -> children_become w dst e (has_child o) o1 -> children_become w dst e (has_child o) o2 -> like X o1 o2.
Proof.
  intros (A1 & A2 & A3 & A4 & A5) (B1 & B2 & B3 & B4 & B5) K1 K2. split; [congruence|]. split; [congruence|]. split; [|eapply kids_same; eauto; congruence].
  rewrite A1. intros f NX. destruct (gained_dec e f) as [(v & G)|N]; [rewrite (A4 f v G NX), (B4 f v G NX); auto|rewrite (A5 f N NX), (B5 f N NX); auto].
Qed.
Lemma like_weak (X Y : string -> Prop) o1 o2 : (forall f, X f -> Y f) -> like X o1 o2 -> like Y o1 o2.
Proof. intros S (A & B & C & D). split; [exact A|]. split; [exact B|]. split; [|exact D]. intros f [N|I]; apply C; [left; auto|now right]. Qed.
Lemma fate_like WX w dst e k w1 w2 : fate WX w dst e k w1 -> fate WX w dst e k w2 ->
  (lookup w1 dst (fst k) (snd k) = None /\ lookup w2 dst (fst k) (snd k) = None) \/
    exists r1 r2 o1 o2, lookup w1 dst (fst k) (snd k) = Some r1 /\ lookup w2 dst (fst k) (snd k) = Some r2 /\
      nth_error (w_heap w1) r1 = Some o1 /\ nth_error (w_heap w2) r2 = Some o2 /\ like WX o1 o2.
Proof.
  unfold fate. intros A B. destruct (e_action e) as [[| |]|].
  - right. destruct A as (_ & ad & c & r1 & o1 & A1 & A2 & A3 & A4 & A5 & A6 & A7), B as (_ & ad' & c' & r2 & o2 & B1 & B2 & B3 & B4 & B5 & B6 & B7).
    assert (ad' = ad) by congruence. subst ad'. assert (c' = c) by congruence. subst c'. exists r1, r2, o1, o2. repeat (split; [assumption|]). eapply built_like; eauto.
  - right. destruct A as (r & o & o1 & A1 & A2 & A3 & A4 & A5 & A6), B as (r' & o' & o2 & B1 & B2 & B3 & B4 & B5 & B6).
    assert (r' = r) by congruence. subst r'. assert (o' = o) by congruence. subst o'. exists r, r, o1, o2. repeat (split; [assumption|]). eapply like_weak; [|eapply rebuilt_like; eauto]. cbv beta. tauto.
  - left. split; [apply A|apply B].
  - right. destruct A as (r & o & o1 & A1 & A2 & A3 & A4 & A5 & A6), B as (r' & o' & o2 & B1 & B2 & B3 & B4 & B5 & B6).
    assert (r' = r) by congruence. subst r'. assert (o' = o) by congruence. subst o'. exists r, r, o1, o2. repeat (split; [assumption|]). eapply like_weak; [|eapply rebuilt_like; eauto]. cbv beta. tauto.
Qed.
Lemma data_like X w a o1 o2 o k r : keyed w a ->
  lookup w a (fst k) (snd k) = Some r -> nth_error (w_heap w) r = Some o -> same_data o o1 -> same_data o o2 -> like X o1 o2.
Proof.
  intros KY L H (A1 & A2 & A3 & A4) (B1 & B2 & B3 & B4). split; [congruence|]. split; [congruence|]. split; [intros f _; congruence|].
  intros t f I. destruct (KY _ _ _ L) as (o' & H' & _ & _ & K). assert (o' = o) by congruence. subst o'. rewrite A1 in I. specialize (K t f I).
  destruct (dget (o_kids o) f) as [l|] eqn:G; [|congruence]. exists l, l. rewrite A3, B3. auto.
Qed.

Section Two.
  Variables (fuel : nat) (dst src : aid) (w : world) (sa da : adapter) (dcd : diffclass) (flags : N) (cbd : bool) (d d1 d2 : diff).
  Variable WX : string -> Prop.
  Variables (h1 h2 : hooks) (dc1 dc2 : diffclass) (fl1 fl2 : N) (cb1 cb2 : bool) (g1 g2 : option diff).
  Lemma same_either_way : alike w fuel src dst sa da -> snd (diff_from fuel dst src dcd flags cbd w) = Ok d ->
    d_groups d1 = d_groups d -> d_groups d2 = d_groups d -> hooks_succeed h1 -> hooks_succeed h2 -> hooks_write WX h1 -> hooks_write WX h2 ->
    yields_once (dc_order (d_class d1)) -> yields_once (dc_order (d_class d2)) ->
    uses fuel dst src dc1 fl1 cb1 g1 w d1 -> uses fuel dst src dc2 fl2 cb2 g2 w d2 ->
    same_contents WX (fst (sync_from fuel h1 dst src dc1 fl1 cb1 g1 w)) (fst (sync_from fuel h2 dst src dc2 fl2 cb2 g2 w)) dst.
  Proof.
    intros AL DF S1 S2 HK1 HK2 HW1 HW2 Y1 Y2 U1 U2.
    destruct (leaves_as fuel h1 dst src dcd dc1 flags fl1 cbd cb1 g1 w d1 sa da AL HK1 WX HW1 d DF S1 Y1 U1) as (_ & F1 & W1 & R1).
    destruct (leaves_as fuel h2 dst src dcd dc2 flags fl2 cbd cb2 g2 w d2 sa da AL HK2 WX HW2 d DF S2 Y2 U2) as (_ & F2 & W2 & R2).
    rewrite S1 in *. rewrite S2 in *. set (w1 := fst (sync_from fuel h1 dst src dc1 fl1 cb1 g1 w)) in *. set (w2 := fst (sync_from fuel h2 dst src dc2 fl2 cb2 g2 w)) in *.
    intros k. assert (DF' := DF). apply (diff_from_iff fuel dst src dcd flags cbd w sa da) in DF' as (sk & FD & _); try apply AL. rewrite <- S1 in FD.
    destruct (named_dec fuel h1 dst src dc1 flags fl1 cb1 g1 w d1 sa da AL sk FD U1 k) as [(e & O & _ & N)|NM]; rewrite S1 in *.
    - exact (fate_like WX w dst e k w1 w2 (F1 e k O N) (F2 e k O N)).
    - assert (NM1 : ~ mentioned w dst (d_groups d) not_delete_act k) by (intros (e & O & _ & N); apply NM; exists e; repeat split; assumption).
      pose proof (W1 k) as W1k. pose proof (W2 k) as W2k. destruct (lookup w1 dst (fst k) (snd k)) as [r1|] eqn:L1.
      + right. destruct (proj1 W1k ltac:(discriminate)) as [X|(L & _ & ND)]; [contradiction|]. destruct (lookup w dst (fst k) (snd k)) as [r|] eqn:L0; [|congruence].
        destruct (al_keyed _ _ _ _ _ _ AL _ _ _ L0) as (o & H & _). destruct (R1 k r o NM ND L0 H) as (A1 & o1 & A2 & A3), (R2 k r o NM ND L0 H) as (B1 & o2 & B2 & B3).
        exists r, r, o1, o2. split; [congruence|]. split; [exact B1|]. split; [exact A2|]. split; [exact B2|].
        exact (data_like WX w dst o1 o2 o k r (al_keyed _ _ _ _ _ _ AL) L0 H A3 B3).
      + left. split; [reflexivity|]. destruct (lookup w2 dst (fst k) (snd k)) as [r2|] eqn:L2; [|reflexivity]. exfalso.
        destruct (proj1 W2k ltac:(discriminate)) as [X|X]; [contradiction|]. now apply (proj2 W1k (or_intror X)).
  Qed.
End Two.
