(** * ConvFits: the elements of a computed diff fit the destination. *)
From Verif Require Export ConvTree ConvVals.

Section Fits.
  Variables (flags : N) (env : senv) (w : world) (sa da : adapter) (sn dn : string).
  Notation src := (sv_src env).
  Notation dst := (sv_dst env).
  Hypothesis AL : alike w (sv_fuel env) src dst sa da.
  Notation rs := (objs_by w src).
  Notation rd := (objs_by w dst).
  Notation akey := (ConvRun.akey da).
  Notation pos := (ConvTree.pos flags env w sa da).
  Notation chain := (ConvTree.chain env w).
  Notation foot := (ConvRun.foot env da w).
  Notation fits := (ConvRun.fits env da w).
  Notation faith := (faithful flags sn dn rs rd).

  Definition elem_ok (n m : nat) (x : elem) (so do : option obj) : Prop :=
    pos n (akey x) so do /\ ~ suppressed flags so do /\ describes sn dn x so do /\
    exists c kids, dget (ad_classes da) (e_type x) = Some c /\
      Forall2 (fun tf (k : list elem * nat) =>
         exists ss dd, kids_of rs so (snd tf) (fst tf) = Ok ss /\ kids_of rd do (snd tf) (fst tf) = Ok dd /\
                       faith m ss dd (fst k) (snd k)) (c_children c) kids /\
      grouped (e_kids x) (flat_map fst kids) /\ child_types so do (c_children c) 0.

  Lemma pos_some n k so do : pos n k so do -> either so do <> None.
  Proof. intros H. destruct H; assumption. Qed.
  Lemma describes_key n k x so do : pos n k so do -> describes sn dn x so do ->
    exists c, dget (ad_classes da) (e_type x) = Some c /\ c_modelname c = e_type x /\ akey x = k /\
      create_unique_id c (e_keys x) = Ok (snd k) /\ creatable c /\ forall o, so = Some o \/ do = Some o -> same_shape c (o_cls o).
  Proof.
    intros HP (_ & _ & _ & _ & o & EO & ET & _ & EK). destruct (pos_class _ _ _ _ _ AL _ _ _ _ HP) as (c & C1 & C2 & C3 & C4).
    assert (IO : so = Some o \/ do = Some o) by (destruct so; simpl in EO; auto).
    destruct (pos_key _ _ _ _ _ AL _ _ _ _ HP) as (KS & KD).
    assert (KO : is_key o k) by (destruct IO as [X|X]; [apply (KS o X)|apply (KD o X)]).
    destruct KO as (T & U). rewrite T in ET.
    assert (EU : create_unique_id c (e_keys x) = Ok (snd k)).
    { rewrite EK, <- U. apply uid_class. apply (C4 o IO). }
    exists c. rewrite ET. split; [exact C1|]. split; [exact C2|]. split; [|auto].
    unfold ConvRun.akey. rewrite ET, C1, EU. symmetry. apply surjective_pairing.
  Qed.

  (** the two lists compared under the type [t] stand at level [n] *)
  Definition ctx (n : nat) (t : string) (ss dd : list obj) : Prop :=
    forall u, either (with_uid u ss) (with_uid u dd) <> None -> pos n (t, u) (with_uid u ss) (with_uid u dd).

  Lemma pair_elem n m t ss dd u x k : ctx n t ss dd -> either (with_uid u ss) (with_uid u dd) <> None ->
    pair_ok flags sn dn rs rd (faith m) (with_uid u ss) (with_uid u dd) (Some x, k) ->
    akey x = (t, u) /\ elem_ok n m x (with_uid u ss) (with_uid u dd).
  Proof.
    intros C NN (_ & [(_ & E)|(NS & e & mapping & sk & kids & E & D & CT & F & G)]); [discriminate|]. injection E as <- _.
    pose proof (C u NN) as HP. destruct (describes_key _ _ _ _ _ HP D) as (c & C1 & C2 & C3 & C4 & C5).
    split; [exact C3|]. split; [now rewrite C3|]. split; [exact NS|]. split; [exact D|]. exists c, kids.
    assert (ET : e_type x = fst (t, u)) by (rewrite <- C3; reflexivity). 
    destruct (pos_mapping _ _ _ _ _ AL _ _ _ _ _ _ c HP CT) as (-> & ->); [now rewrite <- ET|]. auto.
  Qed.
  Lemma uid_some l us u : map get_unique_id l = map Ok us -> In u us -> with_uid u l <> None.
  Proof. intros E I. destruct (with_uid_In u l us E I) as (o & ->). discriminate. Qed.
  Lemma either_some ss dd us vs u : map get_unique_id ss = map Ok us -> map get_unique_id dd = map Ok vs -> In u (us ++ vs) ->
    either (with_uid u ss) (with_uid u dd) <> None.
  Proof.
    intros E1 E2 I. apply in_app_iff in I as [I|I].
    - pose proof (uid_some _ _ _ E1 I). destruct (with_uid u ss); [discriminate|congruence].
    - pose proof (uid_some _ _ _ E2 I). destruct (with_uid u ss); simpl; [discriminate|assumption].
  Qed.
  Lemma list_elem n m t ss dd es sk x : ctx n t ss dd -> faith (S m) ss dd es sk -> In x es ->
    exists u, akey x = (t, u) /\ elem_ok n m x (with_uid u ss) (with_uid u dd).
  Proof.
    intros C (us & vs & outs & U1 & U2 & _ & F & -> & _) I. apply In_somes in I as (k & I).
    destruct (Forall2_in_r _ _ _ _ F I) as (u & Iu & PO). rewrite In_keep_first in Iu. exists u.
    exact (pair_elem n m t ss dd u x k C (either_some _ _ _ _ _ U1 U2 Iu) PO).
  Qed.
  Lemma kid_ctx n k so do c t f ss dd : pos n k so do -> ~ suppressed flags so do -> child_types so do (c_children c) 0 ->
    In (t, f) (c_children c) -> kids_of rs so f t = Ok ss -> kids_of rd do f t = Ok dd -> ctx (S n) t ss dd.
  Proof. intros HP NS CT I K1 K2 u NN. eapply pos_kid; eauto. Qed.

  (** the children of an element *)
  Lemma ok_kids n m x so do y : elem_ok n m x so do -> In y (children (e_kids x)) ->
    exists m' c t f ss dd u, m = S m' /\ dget (ad_classes da) (e_type x) = Some c /\ In (t, f) (c_children c) /\
      kids_of rs so f t = Ok ss /\ kids_of rd do f t = Ok dd /\ akey y = (t, u) /\
      elem_ok (S n) m' y (with_uid u ss) (with_uid u dd).
  Proof.
    intros (HP & NS & D & c & kids & HC & F & G & CT) I. apply (Permutation_in _ (grouped_children _ _ G)) in I.
    apply in_flat_map in I as ([es sk] & IK & Iy). simpl in Iy. destruct (Forall2_in_r _ _ _ _ F IK) as ([t f] & It & ss & dd & K1 & K2 & FA).
    simpl in *. destruct m as [|m']; [destruct FA|].
    destruct (list_elem (S n) m' t ss dd es sk y) as (u & EA & OK); [eapply kid_ctx; eauto|exact FA|exact Iy|].
    exists m', c, t, f, ss, dd, u. auto 10.
  Qed.
  Lemma kid_pr n m x so do y so' do' m' : elem_ok n m x so do -> In y (children (e_kids x)) -> elem_ok (S n) m' y so' do' -> pr env w (akey x) (akey y).
  Proof.
    intros OK I OK'. destruct (ok_kids _ _ _ _ _ _ OK I) as (m1 & c & t & f & ss & dd & u & _ & HC & It & K1 & K2 & EA & OK1).
    destruct OK as (HP & NS & D & c' & kids & HC' & F & G & CT). assert (c' = c) by congruence. subst c'.
    rewrite EA. destruct OK1 as (HP1 & _). 
    eapply (kid_facts _ _ _ _ _ AL); [exact HP|exact CT|exact It|exact K1|exact K2|].
    inversion HP1; assumption.
  Qed.
  Lemma below n m x so do y : elem_ok n m x so do -> In y (elem_all x) ->
    exists j m' so' do', chain j (akey x) (akey y) /\ elem_ok (n + j) m' y so' do' /\ m' <= m.
  Proof.
    revert n x so do. induction m as [m IH] using lt_wf_ind. intros n x so do OK I. apply elem_all_kids in I as [->|(k & Hk & I)].
    - exists 0, m, so, do. rewrite Nat.add_0_r. split; [reflexivity|]. auto.
    - destruct (ok_kids _ _ _ _ _ _ OK Hk) as (m1 & c & t & f & ss & dd & u & -> & _ & _ & _ & _ & _ & OK1).
      destruct (IH m1 (Nat.lt_succ_diag_r m1) _ _ _ _ OK1 I) as (j & m' & so' & do' & C & O & L).
      exists (1 + j), m', so', do'. split; [|split; [|lia]].
      + eapply chain_trans; [|exact C]. apply chain_one. eapply kid_pr; eauto.
      + now rewrite Nat.add_succ_r in *.
  Qed.
  Lemma foot_chain n m x so do k : elem_ok n m x so do -> foot x k -> exists j, chain j (akey x) k.
  Proof.
    intros OK (y & Iy & Y). destruct (below _ _ _ _ _ _ OK Iy) as (j & m' & so' & do' & C & _).
    destruct Y as [<-|(_ & R)]; [eauto|]. destruct (reaches_chain _ _ _ _ AL _ _ R) as (i & C').
    exists (j + i). eapply chain_trans; eauto.
  Qed.
  Lemma ok_level n m x so do : elem_ok n m x so do -> level env w n (akey x).
  Proof. intros (HP & _). eapply pos_level; eauto. Qed.

  Lemma same_tag n m n' m' x y so do so' do' : elem_ok n m x so do -> elem_ok n' m' y so' do' -> akey x = akey y -> tagged x = tagged y.
  Proof.
    intros (HP & _ & D & _) (HP' & _ & D' & _) E. rewrite E in HP. destruct (pos_fun _ _ _ _ _ AL _ _ _ _ _ _ _ HP HP') as (<- & <- & _).
    destruct D as (_ & _ & _ & _ & o & EO & T & N & _). destruct D' as (_ & _ & _ & _ & o' & EO' & T' & N' & _).
    assert (o' = o) by congruence. subst o'. unfold tagged. congruence.
  Qed.
  Lemma tagged_inj es x y : NoDup (map tagged es) -> In x es -> In y es -> tagged x = tagged y -> x = y.
  Proof.
    induction es as [|z es IH]; intros ND I J E; [destruct I|]. simpl in ND. inversion ND as [|? ? NI ND']; subst.
    destruct I as [->|I], J as [->|J]; auto.
    - elim NI. rewrite E. now apply in_map.
    - elim NI. rewrite <- E. now apply in_map.
  Qed.
  Lemma feet_apart n es m : NoDup (map tagged es) -> (forall x, In x es -> exists m' so do, m' <= m /\ elem_ok n m' x so do) ->
    forall x y k, In x es -> In y es -> foot x k -> foot y k -> x = y.
  Proof.
    intros ND H x y k Ix Iy Fx Fy. destruct (H x Ix) as (m1 & so & do & _ & OX). destruct (H y Iy) as (m2 & so' & do' & _ & OY).
    destruct (foot_chain _ _ _ _ _ _ OX Fx) as (i & Ci). destruct (foot_chain _ _ _ _ _ _ OY Fy) as (j & Cj).
    apply (tagged_inj es); auto. eapply same_tag; [exact OX|exact OY|].
    eapply (chain_meet _ _ _ _ AL n); [eapply ok_level; exact OX|eapply ok_level; exact OY|exact Ci|exact Cj].
  Qed.
  Lemma kids_NoDup n m x so do : elem_ok n m x so do -> NoDup (map tagged (children (e_kids x))).
  Proof.
    intros (_ & _ & _ & c & kids & _ & _ & G & _). eapply Permutation_NoDup; [|exact (grouped_NoDup _ _ G)].
    apply Permutation_map. symmetry. now apply grouped_children.
  Qed.

  (** ** Actions *)
  Lemma ok_action so do x : describes sn dn x so do ->
    (so <> None /\ do = None <-> e_action x = Some ACreate) /\ (so = None /\ do <> None <-> e_action x = Some ADelete).
  Proof.
    intros (_ & _ & ES & ED & o & EO & _). unfold e_action. rewrite ES, ED.
    destruct so as [s|], do as [d|]; simpl in *; unfold attrs_action; try discriminate.
    - destruct (existsb _ _); split; split; try (intros [? ?]; congruence); intros ?; discriminate.
    - split; split; try (intros [? ?]; congruence); intros ?; [split; congruence|discriminate].
    - split; split; try (intros [? ?]; congruence); intros ?; [discriminate|split; congruence].
  Qed.

  (** ** The element's object *)
  Lemma plain_src s : read w src s -> NoDup (dkeys (o_vals s)) /\
    forall k, In k (c_identifiers (o_cls s) ++ c_attributes (o_cls s)) -> exists v, dget (o_vals s) k = Some v /\ py_eq v v = true.
  Proof. apply (al_values _ _ _ _ _ _ AL). Qed.
  Definition base_kids (do : option obj) (c : cls) : dict (list string) :=
    match do with Some d => o_kids d | None => map (fun f => (f, [])) (c_kid_fields c) end.
  (** the object before its children: class, child lists and values *)
  Lemma ok_base n m x so do : elem_ok n m x so do -> exists c o, dget (ad_classes da) (e_type x) = Some c /\
    base env da w x o /\ same_shape c (o_cls o) /\ o_kids o = base_kids do c /\
    (forall s, so = Some s -> (forall k, In k (c_identifiers c) -> do = None -> dget (o_vals o) k = dget (o_vals s) k) /\
       (forall k v v', In k (c_attributes c) -> dget (o_vals s) k = Some v -> dget (o_vals o) k = Some v' -> py_eq v v' = true)) /\
    (forall d, do = Some d -> o_cls o = o_cls d /\ o_flags o = o_flags d /\ dkeys (o_vals o) = dkeys (o_vals d) /\
       (forall k, ~ In k (c_attributes c) -> dget (o_vals o) k = dget (o_vals d) k)) /\
    (do = None -> o_cls o = c /\ o_flags o = c_flags c /\ NoDup (dkeys (o_vals o)) /\
       forall k, In k (c_attributes c) -> exists s, so = Some s /\ dget (o_vals o) k = dget (o_vals s) k) /\
    (do <> None -> forall k, In k (dkeys (plus_attrs x)) -> In k (c_attributes c)).
  Proof.
    intros (HP & NS & D & _). destruct (describes_key _ _ _ _ _ HP D) as (c & C1 & C2 & C3 & C4 & C5 & C6).
    destruct (pos_key _ _ _ _ _ AL _ _ _ _ HP) as (KS & KD). pose proof D as (_ & _ & ES & ED & o0 & EO & ET & _ & EK).
    pose proof (ok_action _ _ _ D) as (AC & AD). exists c.
    destruct so as [s|].
    - destruct (KS s eq_refl) as (RS & IS). destruct (plain_src s RS) as (NV & PV). simpl in ES, EO. injection EO as <-.
      pose proof (C6 s (or_introl eq_refl)) as SH.
      destruct do as [d|].
      + destruct (KD d eq_refl) as (RD & ID). simpl in ED. pose proof (C6 d (or_intror eq_refl)) as SHD.
        destruct (updated_ok c s x SH PV ES d SHD ED) as (vals & E & DK & V0 & V1 & V2).
        exists (set_o_vals d vals). split; [exact C1|]. split.
        { destruct (read_dst_key _ _ _ _ AL _ _ RD ID) as (r & L & H). unfold base.
          assert (Q : exists r o1, look w dst (akey x) = Some r /\ nth_error (w_heap w) r = Some o1 /\ setattrs o1 (plus_attrs x) = (set_o_vals d vals, Ok tt)).
          { exists r, d. auto. }
          destruct (e_action x) as [[| |]|] eqn:EA; auto.
          - destruct AC as [_ AC]. destruct (AC eq_refl). discriminate.
          - destruct AD as [_ AD]. destruct (AD eq_refl). discriminate. }
        split; [exact SHD|]. split; [reflexivity|]. split; [|split; [|split; [discriminate|auto]]].
        * intros s' X. injection X as <-. split; [discriminate|]. intros k v v' I G G'. eapply V2; eauto.
        * intros d' X. injection X as <-. split; [reflexivity|]. split; [reflexivity|]. split; [exact DK|exact V1].
      + destruct (created_ok c s x C5 SH NV PV ES EK dst ED) as (o & E & OC & OF & ON & OV & OK).
        exists o. split; [exact C1|]. split.
        { unfold base. destruct AC as [AC _]. rewrite AC by (split; [discriminate|reflexivity]). exists c. auto. }
        rewrite OC. split; [now repeat split|]. split; [exact OK|]. split; [|split; [discriminate|split; [|congruence]]].
        * intros s' X. injection X as <-. split; [intros k I _; apply OV; apply in_app_iff; now left|].
          intros k v v' I G G'. rewrite OV in G' by (apply in_app_iff; now right).
          destruct SH as (SI & SS & SA & SC). destruct (PV k) as (v0 & G0 & Q); [rewrite <- SI, <- SA; apply in_app_iff; now right|]. congruence.
        * intros _. split; [reflexivity|]. split; [exact OF|]. split; [exact ON|]. intros k I. exists s. split; [reflexivity|]. apply OV. apply in_app_iff. now right.
    - destruct do as [d|]; [|discriminate]. destruct (KD d eq_refl) as (RD & ID). destruct AD as [AD _]. 
      assert (EA : e_action x = Some ADelete) by (apply AD; split; [reflexivity|discriminate]).
      exists d. split; [exact C1|]. split; [unfold base; rewrite EA; exact (read_dst_key _ _ _ _ AL _ _ RD ID)|].
      split; [exact (C6 d (or_intror eq_refl))|]. split; [reflexivity|]. split; [discriminate|]. split; [|split; [discriminate|]].
      + intros d' X. injection X as <-. auto.
      + intros _ k. rewrite (plus_delete _ EA). intros [].
  Qed.

  Lemma shape_own c c' : same_shape c c' -> own_fields c -> own_fields c'.
  Proof. intros (_ & _ & _ & E). unfold own_fields. now rewrite E. Qed.
  Lemma empty_field l f : In f l -> dget (map (fun f => (f, @nil string)) l) f = Some [].
  Proof.
    induction l as [|g l IH]; intros I; [destruct I|]. simpl. destruct (String.eqb_spec f g); [reflexivity|].
    destruct I as [->|I]; [congruence|auto].
  Qed.

  (** the child's entry in the child list of its parent *)
  Lemma kid_entry n m x so do y m' so' do' : elem_ok n m x so do -> In y (children (e_kids x)) -> elem_ok (S n) m' y so' do' ->
    exists c f l, dget (ad_classes da) (e_type x) = Some c /\ dget (c_children c) (e_type y) = Some f /\
      dget (base_kids do c) f = Some l /\ (do' <> None <-> In (snd (akey y)) l) /\ (do = None -> l = [] /\ so' <> None) /\ (so = None -> so' = None).
  Proof.
    intros OK I OK'. destruct (ok_kids _ _ _ _ _ _ OK I) as (m1 & c & t & f & ss & dd & u & _ & HC & It & K1 & K2 & EA & OK1).
    pose proof OK' as (HP' & _). pose proof OK1 as (HP1 & _). destruct (pos_fun _ _ _ _ _ AL _ _ _ _ _ _ _ HP1 HP') as (E1 & E2 & _).
    destruct OK as (HP & NS & D & c' & kids & HC' & _). assert (c' = c) by congruence. subst c'.
    destruct (describes_key _ _ _ _ _ HP D) as (c' & C1 & C2 & C3 & C4 & C5 & C6). assert (c' = c) by congruence. subst c'.
    assert (ET : e_type y = t) by (change (fst (akey y) = t); rewrite EA; reflexivity).
    exists c, f. rewrite ET, EA. cbn [snd].
    assert (GF : dget (c_children c) t = Some f) by (apply In_dget; [exact (cr_types _ C5)|exact It]).
    assert (SN : so = None -> so' = None).
    { intros ->. simpl in K1. injection K1 as <-. rewrite <- E1. reflexivity. }
    destruct do as [d|].
    - pose proof K2 as K2'. simpl in K2'. destruct (dget (o_kids d) f) as [us|] eqn:G; [|discriminate].
      pose proof (kids_uids _ dst _ d f t dd us (al_dforest _ _ _ _ _ _ AL) (proj2 (pos_asked _ _ _ _ _ AL _ _ _ _ _ _ _ HP C1 It) d eq_refl) K2 G) as U.
      exists us. split; [exact HC|]. split; [exact GF|]. split; [exact G|]. split; [|split; [discriminate|exact SN]].
      rewrite <- E2. split.
      + intros X. destruct (in_dec string_dec u us) as [J|J]; [exact J|]. elim X. now apply (with_uid_None u dd us U).
      + intros J X. apply (with_uid_None u dd us U) in X. contradiction.
    - simpl in K2. injection K2 as <-. rewrite with_uid_nil in E2. exists []. split; [exact HC|]. split; [exact GF|].
      split; [apply empty_field; apply (cr_kids _ C5); unfold dvals; apply in_map_iff; exists (t, f); auto|].
      split; [rewrite <- E2; split; [congruence|intros []]|]. split; [|exact SN]. intros _. split; [reflexivity|]. intros X. 
      apply pos_some in HP'. rewrite X, <- E2 in HP'. now apply HP'.
  Qed.

  Lemma elem_fits m : forall n x so do, elem_ok n m x so do -> fits x.
  Proof.
    induction m as [m IH] using lt_wf_ind. intros n x so do OK. pose proof OK as (HP & NS & D & _).
    destruct (describes_key _ _ _ _ _ HP D) as (c & C1 & C2 & C3 & C4 & C5 & C6). pose proof (ok_action _ _ _ D) as (AC & AD).
    destruct (ok_base _ _ _ _ _ OK) as (c' & o & C1' & BA & SHO & KO & VS & VD & VN & PK). assert (c' = c) by congruence. subst c'.
    destruct (pos_key _ _ _ _ _ AL _ _ _ _ HP) as (KS & KD).
    assert (CHO : c_children (o_cls o) = c_children c) by (destruct SHO as (_ & _ & _ & E); now rewrite E).
    assert (KIDS : forall y, In y (children (e_kids x)) -> exists m' so' do', m' < m /\ elem_ok (S n) m' y so' do').
    { intros y I. destruct (ok_kids _ _ _ _ _ _ OK I) as (m1 & c1 & t & f & ss & dd & u & -> & _ & _ & _ & _ & _ & OK1). 
      exists m1. do 2 eexists. split; [lia|exact OK1]. }
    apply (fits_intro env da w x c o); auto.
    - exact (shape_own _ _ SHO (cr_own _ C5)).
    - intros EA. apply AC in EA as (NSo & ->). destruct so as [s|]; [|congruence]. destruct (KS s eq_refl) as (RS & TS & US).
      split; [eapply pos_absent; eauto|]. split; [|exact (cr_kids _ C5)]. rewrite <- US. destruct SHO as (SI & _).
      destruct (C6 s (or_introl eq_refl)) as (SI' & _). apply uid_agree; [congruence|]. intros k I. apply (VS s eq_refl); [congruence|reflexivity].
    - intros EA k I. assert (IA : In k (c_attributes c)).
      { apply PK; [|exact I]. intros ->. apply EA, AC. split; [|reflexivity]. intros ->. apply pos_some in HP. now apply HP. }
      destruct SHO as (SI & _). rewrite <- SI. intros II. exact (cr_apart _ C5 k II IA).
    - intros EA. split; [apply (al_limit _ _ _ _ _ _ AL)|]. intros k t u r o' _ L H LI.
      assert (DL : listed w dst k (t, u)) by (apply (dst_listed _ _ _ _ AL); eauto 6).
      exact (cp_closed _ _ _ (al_dcomplete _ _ _ _ _ _ AL) _ _ DL).
    - eapply NoDup_map_inv. eapply kids_NoDup; eauto.
    - apply (feet_apart (S n) _ m); [eapply kids_NoDup; eauto|]. intros y I. destruct (KIDS y I) as (m' & so' & do' & L & O). exists m', so', do'. split; [lia|exact O].
    - intros y I. destruct (KIDS y I) as (m' & so' & do' & L & OY). pose proof OY as (HPY & NSY & DY & _).
      destruct (ok_action _ _ _ DY) as (ACY & ADY).
      destruct (kid_entry _ _ _ _ _ _ _ _ _ OK I OY) as (c' & f & l & HC & HF & HL & HI & HN & HS). assert (c' = c) by congruence. subst c'.
      split; [|split].
      + intros FT. destruct (foot_chain _ _ _ _ _ _ OY FT) as (j & CH).
        pose proof (chain_level _ _ _ _ _ _ (ok_level _ _ _ _ _ OY) CH) as L1. pose proof (level_fun _ _ _ _ AL _ _ _ L1 (ok_level _ _ _ _ _ OK)). lia.
      + exists f, l. rewrite CHO, KO. split; [exact HF|]. split; [exact HL|]. split.
        * intros EA J. apply ACY in EA as (_ & ->). now apply HI in J.
        * intros EA. apply HI. apply ADY in EA. apply EA.
      + intros EA. apply AD in EA as (-> & ND). assert (EAY : e_action y = Some ADelete).
        { apply ADY. split; [now apply HS|]. intros ->. rewrite HS in HPY by reflexivity. apply pos_some in HPY. now apply HPY. }
        split; [exact EAY|]. destruct do as [d|]; [|congruence]. destruct (KD d eq_refl) as (RD & ID).
        destruct (read_dst_key _ _ _ _ AL _ _ RD ID) as (r & LK & HR).
        assert (LI : lists d (fst (akey y)) (snd (akey y))).
        { exists f, l. destruct (C6 d (or_intror eq_refl)) as (_ & _ & _ & EC). rewrite <- EC. split; [now apply dget_Some_In|]. 
          split; [exact HL|]. apply HI. apply ADY in EAY. apply EAY. }
        pose proof LI as (f' & l' & LI1 & LI2 & LI3). exists r, d, f', l'. split; [exact LK|]. split; [exact HR|]. split; [exact LI1|]. split; [exact LI2|].
        split; [exact LI3|]. apply (cp_closed _ _ _ (al_dcomplete _ _ _ _ _ _ AL) (akey x) (akey y)). exists d. auto.
    - intros y I. destruct (KIDS y I) as (m' & so' & do' & L & OY). exact (IH m' L _ _ _ _ OY).
  Qed.

  (** ** A whole diff *)
  Lemma top_ctx t ss dd : top_lists w src dst sa da t ss dd -> ctx 0 t ss dd.
  Proof. intros T u NN. eapply pos_top; eauto. Qed.
End Fits.
