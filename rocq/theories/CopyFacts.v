(** * CopyFacts: the destination is a copy of the source after a synchronisation. *)
From Verif Require Export ConvEnd CopySpec.

Section Copy.
  Variables (fuel : nat) (h : hooks) (dst src : aid) (dc : diffclass) (flags fl : N) (cb : bool) (given : option diff) (w : world) (d : diff).
  Variables (sa da : adapter).
  Hypothesis AL : alike w fuel src dst sa da.
  Variable WX : string -> Prop.
  Hypothesis SPARE : forall t c k, dget (ad_classes da) t = Some c -> In k (c_attributes c) -> ~ WX k.
  Hypothesis YO : yields_once (dc_order (d_class d)).
  Variable sk : nat.
  Hypothesis FD : faithful_diff flags fuel w src dst sa da (d_groups d) sk.
  Hypothesis US : uses fuel dst src dc fl cb given w d.
  Notation env := (env0 fuel h dst src fl cb d).
  Notation feet := (ConvTop.feet fuel h dst src fl cb w d da).
  Notation elem_ok := (ConvFits.elem_ok flags env w sa da (ad_name sa) (ad_name da)).
  Notation pos := (ConvTree.pos flags env w sa da).
  Notation akey := (ConvRun.akey da).
  Let AL' : alike w (sv_fuel env) (sv_src env) (sv_dst env) sa da := AL.
  Hypothesis NF : N.testbit flags 1 = false /\ N.testbit flags 2 = false.
  Hypothesis US1 : unflagged w src.
  Hypothesis UD1 : unflagged w dst.
  Hypothesis TOPS : forall t, In t (ad_top sa) <-> In t (ad_top da).
  Hypothesis ROOT : forall o k, read w src o -> is_key o k -> rooted w src (ad_top sa) k.

  Lemma none_suppressed n k so do : pos n k so do -> ~ suppressed flags so do.
  Proof.
    intros P. destruct (pos_key _ _ _ _ _ AL' _ _ _ _ P) as (KS & KD). destruct NF as (N1 & N2).
    destruct so as [s|], do as [o|]; simpl; rewrite ?N1, ?N2.
    - destruct (US1 s) as (A & B & C); [now apply KS|]. destruct (UD1 o) as (A' & B' & C'); [now apply KD|]. rewrite A, A'. intuition discriminate.
    - destruct (US1 s) as (A & B & C); [now apply KS|]. rewrite A, B. intuition discriminate.
    - destruct (UD1 o) as (A' & B' & C'); [now apply KD|]. rewrite A', C'. intuition discriminate.
    - auto.
  Qed.

  (** ** Every position has its element *)
  Definition corr (so do : option obj) : Prop := forall s o, so = Some s -> do = Some o -> corresponding s o.
  Lemma list_corr n m t ss dd es k u : ConvFits.ctx flags env w sa da n t ss dd ->
    faithful flags (ad_name sa) (ad_name da) (objs_by w src) (objs_by w dst) (S m) ss dd es k -> either (with_uid u ss) (with_uid u dd) <> None ->
    exists y, In y es /\ akey y = (t, u) /\ elem_ok n m y (with_uid u ss) (with_uid u dd) /\ corr (with_uid u ss) (with_uid u dd).
  Proof.
    intros CX FA NN. destruct (list_out flags env w sa da (ad_name sa) (ad_name da) AL' n m t ss dd es k u CX FA NN) as (y & I & E & OK).
    - eapply none_suppressed. exact (CX u NN).
    - exists y. split; [exact I|]. split; [exact E|]. split; [exact OK|]. destruct FA as (us & vs & outs & _ & _ & CO & _). intros s o A B. exact (CO u s o A B).
  Qed.
  Lemma elem_at n : forall k so do, pos n k so do -> exists x m y, In x (children (d_groups d)) /\ In y (elem_all x) /\ akey y = k /\ elem_ok n m y so do /\ corr so do.
  Proof.
    induction n as [|n IH]; intros k so do P.
    - inversion P as [t ss dd u so0 do0 T E1 E2 NN|]; subst. destruct (fd_top _ _ _ _ _ _ _ _ _ _ _ _ FD T) as (es & k & F & SB).
      pose proof (fuel_pos _ _ _ _ _ _ _ _ _ _ _ _ AL _ FD US) as FP. assert (EF : exists m, fuel = S m) by (destruct fuel; [congruence|eauto]). destruct EF as (m & EF). rewrite EF in F.
      destruct (list_corr 0 m t ss dd es k u) as (y & I & E & OK & CO); auto.
      { eapply top_ctx; exact T. }
      exists y, m, y. split; [now apply SB|]. split; [rewrite elem_all_eq; now left|]. auto.
    - inversion P as [|n' p so' do' mapping sk' t f ss dd u so0 do0 HP NS CT IM KS KD E1 E2 NN]; subst.
      destruct (IH p so' do' HP) as (x & m & y & Ix & Iy & E & OK & _).
      pose proof OK as (_ & _ & D & c & kids & HC & F & G & CT').
      destruct (describes_key flags env w sa da (ad_name sa) (ad_name da) AL' n p y so' do' HP D) as (c' & HC' & MN & _).
      assert (c' = c) by congruence. subst c'. assert (ET : e_type y = fst p) by (rewrite <- E; reflexivity). rewrite ET in HC.
      destruct (pos_mapping flags env w sa da AL' n p so' do' mapping sk' c HP CT HC) as (-> & ->).
      destruct (Forall2_in_l _ _ _ _ F IM) as ([es k] & Ik & ss' & dd' & K1 & K2 & FA). cbn [fst snd] in *.
      change (sv_src env) with src in *. change (sv_dst env) with dst in *. rewrite KS in K1. rewrite KD in K2. injection K1 as <-. injection K2 as <-.
      destruct m as [|m]; [destruct FA|].
      destruct (list_corr (S n) m t ss dd es k u) as (z & Iz & Ez & OKz & CO); auto.
      { eapply (kid_ctx flags env w sa da); [exact HP|exact NS|exact CT'|exact IM|exact KS|exact KD]. }
      exists x, m, z. split; [exact Ix|]. split; [|auto]. eapply elem_all_trans; [|exact Iy]. apply kid_all.
      apply (Permutation_in _ (Permutation_sym (grouped_children _ _ G))). apply in_flat_map. exists (es, k). auto.
  Qed.

  (** ** Every object has its position *)
  Lemma uid_listed a tops t l us u : forest w a tops -> asked w a tops t -> objs_by w a us t = Ok l -> In u us -> with_uid u l <> None.
  Proof. intros F K E I. eapply uid_some; [exact (fo_ids _ _ _ F us t l K E)|exact I]. Qed.
  Lemma all_with a t l o u tops : forest w a tops -> In t tops -> objs_all w a t = Ok l -> In o l -> get_unique_id o = Ok u -> with_uid u l = Some o.
  Proof.
    intros F IT E I U. assert (exists o', with_uid u l = Some o') as (o' & W).
    { unfold with_uid. match goal with |- exists o', find ?f ?m = _ => destruct (find f m) as [o'|] eqn:Z end; [eauto|]. exfalso.
      first [pose proof (find_none _ _ Z o I) as N|pose proof (find_none _ _ Z o (proj1 (in_rev _ _) I)) as N]. unfold has_uid in N. rewrite U, String.eqb_refl in N. discriminate. }
    rewrite W. f_equal. apply with_uid_Some in W as (I' & U').
    apply (fo_single _ _ _ F o' o (t, u)).
    - exists t, l. auto.
    - exists t, l. auto.
    - split; [exact (proj1 (fo_filed _ _ _ F) t l o' (or_introl IT) E I')|exact U'].
    - split; [exact (proj1 (fo_filed _ _ _ F) t l o (or_introl IT) E I)|exact U].
  Qed.
  Lemma both_tops t : In t (ad_top da) -> exists ss dd, top_lists w src dst sa da t ss dd.
  Proof.
    intros I. pose proof FD as (lone & others & per & _ & _ & _ & F & _).
    assert (J : In t (filter (fun t => smem t (ad_top sa)) (ad_top da))) by (apply filter_In; split; [exact I|apply smem_In; now apply TOPS]).
    destruct (Forall2_in_l _ _ _ _ F J) as (k & _ & ss & dd & A & B & _). exists ss, dd. repeat split; auto. now apply TOPS.
  Qed.
  (** the children of a pair *)
  Lemma kid_lists n p so do c t f : pos n p so do -> dget (ad_classes da) (fst p) = Some c -> In (t, f) (c_children c) ->
    exists ss dd, kids_of (objs_by w src) so f t = Ok ss /\ kids_of (objs_by w dst) do f t = Ok dd /\
      forall u, either (with_uid u ss) (with_uid u dd) <> None -> pos (S n) (t, u) (with_uid u ss) (with_uid u dd).
  Proof.
    intros P HC IT. destruct (elem_at n p so do P) as (x & m & y & _ & _ & E & OK & _). pose proof OK as (_ & NS & D & c' & kids & HC' & F & G & CT).
    assert (ET : e_type y = fst p) by (rewrite <- E; reflexivity). rewrite ET in HC'. assert (c' = c) by congruence. subst c'.
    destruct (Forall2_in_l _ _ _ _ F IT) as (k & Ik & ss & dd & K1 & K2 & _). exists ss, dd. split; [exact K1|]. split; [exact K2|].
    intros u NN. eapply pos_kid; eauto.
  Qed.
  Lemma src_pos k : rooted w src (ad_top sa) k -> exists n s do, pos n k (Some s) do.
  Proof.
    pose proof (al_sforest _ _ _ _ _ _ AL) as FS.
    induction 1 as [t u l o IT A I (T & U)|p k _ (n & s' & do' & P) (o & R & K & f & us & I1 & I2 & I3)].
    - destruct (both_tops t) as (ss & dd & TL); [now apply TOPS|]. assert (ss = l) by (destruct TL as (_ & _ & B & _); congruence). subst ss.
      pose proof (all_with src t l o u _ FS IT A I U) as W. exists 0, o, (with_uid u dd). eapply pos_top; [exact TL|now rewrite W|reflexivity|discriminate].
    - destruct (pos_key _ _ _ _ _ AL' _ _ _ _ P) as (KS & _). destruct (KS s' eq_refl) as (RS & IS).
      assert (o = s') by (eapply (fo_single _ _ _ FS); eassumption). subst o.
      assert (AK : asked w src (ad_top sa) (fst k)) by (right; exists s', f; auto).
      destruct (pos_class _ _ _ _ _ AL' _ _ _ _ P) as (c & C1 & _ & _ & C4). destruct (C4 s' (or_introl eq_refl)) as (_ & _ & _ & CH). rewrite <- CH in I1.
      destruct (kid_lists n p (Some s') do' c (fst k) f P C1 I1) as (ss & dd & K1 & K2 & H). simpl in K1. rewrite I2 in K1.
      pose proof (uid_listed src (ad_top sa) (fst k) ss us (snd k) FS AK K1 I3) as W. destruct (with_uid (snd k) ss) as [s|] eqn:E; [|congruence].
      exists (S n), s, (with_uid (snd k) dd). pose proof (H (snd k)) as HK. rewrite E in HK. rewrite <- surjective_pairing in HK. apply HK. discriminate.
  Qed.
  Lemma dst_pos k : rooted w dst (ad_top da) k -> exists n so o, pos n k so (Some o).
  Proof.
    pose proof (al_dforest _ _ _ _ _ _ AL) as FS.
    induction 1 as [t u l o IT A I (T & U)|p k _ (n & so' & d' & P) (o & R & K & f & us & I1 & I2 & I3)].
    - destruct (both_tops t IT) as (ss & dd & TL). assert (dd = l) by (destruct TL as (_ & _ & _ & B); congruence). subst dd.
      pose proof (all_with dst t l o u _ FS IT A I U) as W. exists 0, (with_uid u ss), o. eapply pos_top; [exact TL|reflexivity|now rewrite W|destruct (with_uid u ss); discriminate].
    - destruct (pos_key _ _ _ _ _ AL' _ _ _ _ P) as (_ & KD). destruct (KD d' eq_refl) as (RS & IS).
      assert (o = d') by (eapply (fo_single _ _ _ FS); eassumption). subst o.
      assert (AK : asked w dst (ad_top da) (fst k)) by (right; exists d', f; auto).
      destruct (pos_class _ _ _ _ _ AL' _ _ _ _ P) as (c & C1 & _ & _ & C4). destruct (C4 d' (or_intror eq_refl)) as (_ & _ & _ & CH). rewrite <- CH in I1.
      destruct (kid_lists n p so' (Some d') c (fst k) f P C1 I1) as (ss & dd & K1 & K2 & H). simpl in K2. rewrite I2 in K2.
      pose proof (uid_listed dst (ad_top da) (fst k) dd us (snd k) FS AK K2 I3) as W. destruct (with_uid (snd k) dd) as [o|] eqn:E; [|congruence].
      exists (S n), (with_uid (snd k) ss), o. pose proof (H (snd k)) as HK. rewrite E in HK. rewrite <- surjective_pairing in HK. apply HK. destruct (with_uid (snd k) ss); discriminate.
  Qed.
  (** everything in the destination is rooted *)
  Fixpoint up (n : nat) (a k : key) : Prop := match n with O => a = k | S n' => exists p, listed w dst a p /\ up n' p k end.
  Lemma up_rooted n : forall a k, up n a k -> rooted w dst (ad_top da) a -> rooted w dst (ad_top da) k.
  Proof. induction n as [|n IH]; simpl; intros a k; [intros ->; auto|]. intros (p & L & U) R. apply (IH p k U). now apply (root_kid _ _ _ a p). Qed.
  Lemma up_deep n : forall a k, up n a k -> deep w dst n a.
  Proof.
    induction n as [|n IH]; simpl; [auto|]. intros a k (p & L & U). exists p. split; [|eauto].
    pose proof (cp_closed _ _ _ (al_dcomplete _ _ _ _ _ _ AL) a p L) as C.
    apply (dst_listed env w sa da AL') in L as (r & o & Lr & H & f & l & I1 & I2 & I3). exists r, o, f, l. auto 8.
  Qed.
  Lemma climb n : forall k, look w dst k <> None -> rooted w dst (ad_top da) k \/ exists a, look w dst a <> None /\ up n a k.
  Proof.
    induction n as [|n IH]; intros k L; [right; exists k; split; [exact L|reflexivity]|].
    destruct (IH k L) as [R|(a & La & U)]; [now left|]. destruct (cp_rooted _ _ _ (al_dcomplete _ _ _ _ _ _ AL) a La) as [T|(p & LI)].
    - left. apply (up_rooted n a k U). destruct (both_tops (fst a) T) as (ss & dd & TL). destruct a as [t u]. simpl in *.
      assert (W : with_uid u dd <> None) by (apply (top_look fuel h dst src fl cb w d sa da AL t ss dd u TL); exact La).
      destruct (with_uid u dd) as [o|] eqn:E; [|congruence]. apply with_uid_Some in E as (I & U').
      destruct TL as (_ & _ & _ & A). apply (root_top _ _ _ t u dd o T A I). split; [|exact U']. exact (proj1 (fo_filed _ _ _ (al_dforest _ _ _ _ _ _ AL)) t dd o (or_introl T) A I).
    - right. exists p. split; [|exists a; auto]. pose proof LI as LI'. apply (dst_listed env w sa da AL') in LI' as (r & o & Lr & _). change (look w dst p = Some r) in Lr. congruence.
  Qed.
  Lemma dst_rooted k : look w dst k <> None -> rooted w dst (ad_top da) k.
  Proof.
    intros L. destruct (climb fuel k L) as [R|(a & _ & U)]; [exact R|]. elim (al_limit _ _ _ _ _ _ AL a). eapply up_deep. exact U.
  Qed.

  (** ** Afterwards *)
  Variables (w' wd : world).
  Hypothesis GD : good dst da w'.
  Hypothesis MV : moved dst feet None w w'.
  Hypothesis DN : forall x, In x (children (d_groups d)) -> done env da w WX x w'.
  Hypothesis ATT : attributes_set w dst.
  Let FEET := feet_ok fuel h dst src dc flags fl cb given w d sa da AL sk FD US.

  Lemma pos_feet n k so do : pos n k so do -> feet k.
  Proof. intros P. destruct (elem_at n k so do P) as (x & m & y & Ix & Iy & E & _). exists x. split; [exact Ix|]. exists y. split; [exact Iy|now left]. Qed.
  Lemma gone n k o : pos n k None (Some o) -> look w' dst k = None.
  Proof.
    intros P. destruct (elem_at n k None (Some o) P) as (x & m & y & Ix & Iy & E & OK & _). pose proof (DN x Ix y Iy) as D1. unfold done1 in D1.
    pose proof OK as (_ & _ & D & _). destruct (ok_action _ _ _ _ _ D) as (_ & AD). rewrite (proj1 AD) in D1 by (split; congruence).
    destruct D1 as (L & _). now rewrite E in L.
  Qed.
  (** what is in the destination afterwards is in the source *)
  Lemma from_src k : look w' dst k <> None -> exists n s do, pos n k (Some s) do.
  Proof.
    intros L. assert (X : exists n so do, pos n k so do).
    { destruct (look w dst k) as [r|] eqn:E.
      - destruct (dst_pos k) as (n & so & o & P); [apply dst_rooted; congruence|]. eauto.
      - set (ks := flat_map (fun x => map akey (elem_all x)) (children (d_groups d))).
        assert (KD : forall a b : key, {a = b} + {a <> b}) by (intros a b; decide equality; apply string_dec).
        destruct (in_dec KD k ks) as [I|I].
        + apply in_flat_map in I as (x & Ix & J). apply in_map_iff in J as (y & EY & Iy).
          destruct (top_ok fuel h dst src dc flags fl cb given w d sa da AL sk FD US x Ix) as (m & so & do & _ & OK).
          destruct (below _ _ _ _ _ _ _ AL' _ _ _ _ _ _ OK Iy) as (j & m' & so' & do' & _ & (P & _) & _). rewrite EY in P. eauto.
        + exfalso. apply L. rewrite (mv_look _ _ _ _ _ MV k); [exact E|]. intros (x & Ix & y & Iy & [EY|(_ & R)]).
          * apply I. apply in_flat_map. exists x. split; [exact Ix|]. apply in_map_iff. eauto.
          * destruct (reaches_last env w _ _ R) as [EY|(p & _ & r & o & f & l & _ & _ & _ & _ & _ & N)].
            -- apply I. apply in_flat_map. exists x. split; [exact Ix|]. apply in_map_iff. eauto.
            -- apply N. exact E. }
    destruct X as (n & so & do & P). destruct so as [s|]; [eauto|]. exfalso. destruct do as [o|]; [|now apply pos_some in P].
    apply L. eapply gone. exact P.
  Qed.

  (** ** The copy *)
  Lemma src_copied n k s do : pos n k (Some s) do -> exists r o, look w' dst k = Some r /\ nth_error (w_heap w') r = Some o /\ copy_of s o.
  Proof.
    intros P. destruct (elem_at n k (Some s) do P) as (x & m & y & Ix & Iy & E & OK & CO). pose proof (DN x Ix) as DX.
    assert (DY : done env da w WX y w') by (intros z Iz; apply DX; eapply elem_all_trans; [exact Iz|exact Iy]).
    pose proof OK as (_ & _ & D & _). destruct (ok_action _ _ _ _ _ D) as (_ & AD).
    assert (ND : e_action y <> Some ADelete) by (intros X; apply AD in X as (X & _); congruence).
    assert (X : exists r o, look w' dst k = Some r /\ nth_error (w_heap w') r = Some o /\ after env da w WX y o).
    { destruct (done1_kept _ _ _ _ _ _ (DX y Iy) ND) as (r & o & L & H & A & _). rewrite E in L. eauto. }
    destruct X as (r & o & L & H & AO). exists r, o. split; [exact L|]. split; [exact H|].
    destruct (pos_key _ _ _ _ _ AL' _ _ _ _ P) as (KS & KD). destruct (KS s eq_refl) as (RS & TS & US'). 
    pose proof GD as (_ & KY & _). destruct (KY _ _ _ L) as (o' & H' & TO & UO & _). assert (o' = o) by congruence. subst o'.
    assert (TT : get_type s = get_type o) by congruence.
    assert (NM : exists nm, get_shortname s = Ok nm) by (destruct D as (_ & _ & _ & _ & z & EZ & _ & NZ & _); simpl in EZ; injection EZ as <-; eauto).
    destruct (after_obj flags env w sa da WX (ad_name sa) (ad_name da) AL' SPARE n m y s do o OK AO TT) as (c & L' & HC & CR & SH1 & SH2 & NA & (_ & _ & IDS) & _ & PM & KE).
    { intros z Ez. exact (CO s z eq_refl Ez). } { exact NM. }
    split; [exact TT|]. split; [|split; [exact IDS|split]].
    - destruct SH1 as (A1 & A2 & A3 & A4), SH2 as (B1 & B2 & B3 & B4). repeat split; congruence.
    - intros a Ia. destruct (al_values _ _ _ _ _ _ AL s RS) as (_ & PV). destruct (PV a) as (v & Gv & Ev); [apply in_app_iff; now right|].
      pose proof SH1 as (_ & _ & A3 & _). pose proof SH2 as (_ & _ & B3 & _).
      assert (GO : exists v', dget (o_vals o) a = Some v').
      { destruct AO as (ob & Lb & BA & OC & OV & _). destruct (ok_base _ _ _ _ _ _ _ AL' _ _ _ _ _ OK) as (c' & o2 & C1 & BA2 & _ & _ & _ & VD & VN & _).
        assert (c' = c) by congruence. subst c'. assert (o2 = ob) by (eapply base_fun; eauto). subst o2.
        rewrite (vals_but_get _ _ _ _ OV) by (intros (_ & HX); refine (SPARE _ _ a HC _ HX); congruence). destruct do as [z|].
        - destruct (VD z eq_refl) as (_ & _ & DK & _). destruct (dget (o_vals ob) a) as [v'|] eqn:G; [eauto|]. apply dget_None in G. rewrite DK in G.
          elim (ATT z a); [now apply KD| |now apply dget_None].
          destruct (pos_class _ _ _ _ _ AL' _ _ _ _ P) as (c2 & C2 & _ & _ & C4). destruct (C4 z (or_intror eq_refl)) as (_ & _ & Z3 & _).
          destruct (C4 s (or_introl eq_refl)) as (_ & _ & Y3 & _). congruence.
        - destruct (VN eq_refl) as (_ & _ & _ & VA). destruct (VA a) as (s1 & E1 & G1); [congruence|]. injection E1 as <-. exists v. congruence. }
      destruct GO as (v' & Gv'). exists v, v'. split; [exact Gv|]. split; [exact Gv'|].
      destruct (py_eq v v') eqn:EQ; [reflexivity|]. exfalso. unfold attrs_action in NA. destruct (existsb _ _) eqn:EX; [discriminate|].
      assert (Y : existsb (attr_differs (get_attrs s) (get_attrs o)) (attrs_keys (Some (get_attrs s)) (Some (get_attrs o))) = true); [|congruence].
      assert (SS1 : smem a (c_attributes (o_cls s)) = true) by now apply smem_In. assert (SS2 : smem a (c_attributes (o_cls o)) = true) by (apply smem_In; congruence).
      apply existsb_exists. exists a. split.
      + cbn [attrs_keys]. unfold intersection. apply filter_In. rewrite smem_In. unfold get_attrs. rewrite !dkeys_dump.
        split; (split; [now apply smem_In|]); apply dget_Some_In in Gv, Gv'; unfold dkeys; apply in_map_iff; eexists; (split; [|eassumption]); reflexivity.
      + unfold attr_differs, get_attrs. now rewrite !dget_dump, SS1, SS2, Gv, Gv', EQ.
    - intros t f l It Gl. assert (It' : In (t, f) (c_children c)) by (destruct SH1 as (_ & _ & _ & A4); congruence).
      pose proof OK as (_ & _ & _ & c' & kids & HC' & F & G & CT). assert (c' = c) by congruence. subst c'.
      destruct (Forall2_in_l _ _ _ _ F It') as ([es k0] & Ik & ss & dd & K1 & K2 & FA). cbn [fst snd] in *. destruct m as [|m]; [destruct FA|].
      destruct (kids_then flags env w w' sa da WX (ad_name sa) (ad_name da) feet AL' GD MV FEET n m y s do o c L' t f ss dd es k0 OK HC CR PM KE It' K1 K2 FA) as (dd' & vs' & _ & (_ & IV) & _ & CX & GK & NV).
      { intros z Iz. apply (Permutation_in _ (Permutation_sym (grouped_children _ _ G))). apply in_flat_map. exists (es, k0). auto. }
      { exact DY. }
      exists vs'. split; [exact GK|]. split; [exact NV|]. intros u. rewrite IV.
      pose proof (kids_uids w src _ s f t ss l (al_sforest _ _ _ _ _ _ AL) (or_intror (ex_intro _ s (ex_intro _ f (conj RS It)))) K1 Gl) as UU. pose proof (with_uid_None u ss l UU) as WN.
      destruct (with_uid u ss) as [s1|] eqn:WS.
      + assert (Iu : In u l) by (destruct (in_dec string_dec u l) as [I|I]; [exact I|]; apply WN in I; discriminate). split; [auto|]. intros _.
        unfold survives. destruct (with_uid u dd) as [d1|] eqn:WD; [exact Logic.I|]. rewrite <- WS, <- WD. eapply none_suppressed. apply CX. rewrite WS. discriminate.
      + split; [|intros I; now apply WN in I]. unfold survives. destruct (with_uid u dd) as [d1|] eqn:WD; [|intros []]. intros SU. exfalso. revert SU.
        rewrite <- WS, <- WD. eapply none_suppressed. apply CX. rewrite WS, WD. discriminate.
  Qed.

  (** where the flags, the fields and the identifiers come from *)
  Lemma src_origin n k s do r o : pos n k (Some s) do -> look w' dst k = Some r -> nth_error (w_heap w') r = Some o ->
    exists c, dget (ad_classes da) (fst k) = Some c /\
      match do with
      | Some z => o_flags o = o_flags z /\ dkeys (o_vals o) = dkeys (o_vals z) /\ forall f, In f (c_identifiers c) -> dget (o_vals o) f = dget (o_vals z) f
      | None => o_flags o = c_flags c /\ NoDup (dkeys (o_vals o)) /\ forall f, In f (c_identifiers c) -> dget (o_vals o) f = dget (o_vals s) f
      end.
  Proof.
    intros P L H. destruct (elem_at n k (Some s) do P) as (x & m & y & Ix & Iy & E & OK & CO).
    pose proof OK as (_ & _ & D & _). destruct (ok_action _ _ _ _ _ D) as (_ & AD).
    assert (ND : e_action y <> Some ADelete) by (intros X; apply AD in X as (X & _); congruence).
    destruct (done1_kept _ _ _ _ _ _ (DN x Ix y Iy) ND) as (r' & o' & L' & H' & (ob & Lb & BA & OC & OV & OI & OF & _) & _).
    rewrite E in L'. change (look w' dst k = Some r') in L'. assert (r' = r) by congruence. subst r'. assert (o' = o) by congruence. subst o'.
    destruct (ok_base _ _ _ _ _ _ _ AL' _ _ _ _ _ OK) as (c & o2 & C1 & BA2 & (SI & _) & _ & VS & VD & VN & _).
    assert (o2 = ob) by (eapply base_fun; eauto). subst o2. assert (ET : e_type y = fst k) by (rewrite <- E; reflexivity). rewrite ET in C1.
    assert (ID : forall f, In f (c_identifiers c) -> dget (o_vals o) f = dget (o_vals ob) f).
    { intros f If. assert (X : dget (get_identifiers o) f = dget (get_identifiers ob) f) by now rewrite OI. unfold get_identifiers in X. rewrite !dget_dump, OC, <- SI in X.
      apply smem_In in If. now rewrite If in X. }
    exists c. split; [exact C1|]. pose proof (vals_but_keys _ _ _ OV) as VK. destruct do as [z|].
    - destruct (VD z eq_refl) as (_ & ZF & ZK & ZV). split; [congruence|]. split; [congruence|]. intros f If. rewrite (ID f If). apply ZV.
      destruct (pos_class _ _ _ _ _ AL' _ _ _ _ P) as (c2 & C2 & _ & CR & _). assert (c2 = c) by congruence. subst c2. now apply (cr_apart c CR).
    - destruct (VN eq_refl) as (_ & ZF & ZN & _). split; [congruence|]. split; [now rewrite VK|]. intros f If. rewrite (ID f If). now apply (proj1 (VS s eq_refl)).
  Qed.

  Lemma copied : holds_copy w src w' dst.
  Proof.
    pose proof GD as (LO & KY & _). assert (LS : exists ad b, nth_error (w_ads w') dst = Some ad /\ ad_store ad = SLocal b) by (destruct LO as (ad & b & A & B & _); eauto). split.
    - intros s k R K. destruct (src_pos k (ROOT s k R K)) as (n & s' & do & P). destruct (pos_key _ _ _ _ _ AL' _ _ _ _ P) as (KS & _). destruct (KS s' eq_refl) as (R' & K').
      assert (s' = s) by (eapply (fo_single _ _ _ (al_sforest _ _ _ _ _ _ AL)); eassumption). subst s'.
      destruct (src_copied n k s do P) as (r & o & L & H & C). destruct (KY _ _ _ L) as (o' & H' & TO & UO & _). assert (o' = o) by congruence. subst o'.
      exists o. split; [|split; [split; assumption|exact C]]. exists (fst k), [o]. split; [now left|]. right. exists [snd k].
      apply (local_by w' dst _ _ _ LS). constructor; [exists r; auto|constructor].
    - intros o k R (T & U). destruct (read_local w' dst o LO R) as (t & u & r & L & H). destruct (KY _ _ _ L) as (o' & H' & TO & UO & _). assert (o' = o) by congruence. subst o'.
      destruct (from_src k) as (n & s & do & P); [unfold look; rewrite <- T; assert (EU : snd k = u) by congruence; rewrite EU, TO, L; discriminate|].
      exists s. destruct (pos_key _ _ _ _ _ AL' _ _ _ _ P) as (KS & _). now apply KS.
  Qed.
End Copy.
