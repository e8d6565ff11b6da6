(** * FlagFacts: what is left in the destination with flags on the objects. *)
From Verif Require Export SkipFacts FlagSpec.

Lemma suppressed_dec flags so do : suppressed flags so do \/ ~ suppressed flags so do.
Proof.
  destruct so as [s|], do as [o|]; simpl; auto;
  repeat match goal with |- context[N.testbit ?a ?b] => destruct (N.testbit a b) end; intuition discriminate.
Qed.

Section Flags.
  Variables (fuel : nat) (h : hooks) (dst src : aid) (dc : diffclass) (flags fl : N) (cb : bool) (given : option diff) (w : world) (d : diff).
  Variables (sa da : adapter).
  Hypothesis AL : alike w fuel src dst sa da.
  Variable WX : string -> Prop.
  Hypothesis SPARE : forall t c k, dget (ad_classes da) t = Some c -> In k (c_attributes c) -> ~ WX k.
  Hypothesis YO : yields_once (dc_order (d_class d)).
  Variable sk : nat.
  Hypothesis FD : faithful_diff flags fuel w src dst sa da (d_groups d) sk.
  Hypothesis US : uses fuel dst src dc fl cb given w d.
  Notation env := (env0 fuel h dst src fl cb d).
  Notation feet := (ConvTop.feet fuel h dst src fl cb w d da).
  Notation elem_ok := (ConvFits.elem_ok flags env w sa da (ad_name sa) (ad_name da)).
  Notation pos := (ConvTree.pos flags env w sa da).
  Notation akey := (ConvRun.akey da).
  Let AL' : alike w (sv_fuel env) (sv_src env) (sv_dst env) sa da := AL.
  Hypothesis TOPS : forall t, In t (ad_top sa) <-> In t (ad_top da).
  Hypothesis ROOT : forall o k, read w src o -> is_key o k -> rooted w src (ad_top sa) k.
  Let LOC : local_ok w dst := al_local _ _ _ _ _ _ AL.
  Let KEY : keyed w dst := al_keyed _ _ _ _ _ _ AL.
  Let FS : forest w src (ad_top sa) := al_sforest _ _ _ _ _ _ AL.
  Let FT : forest w dst (ad_top da) := al_dforest _ _ _ _ _ _ AL.
  Notation lo := (left_out flags w src dst).
  Notation sw := (swept flags w src dst).

  Lemma elem_at n : forall k so do, pos n k so do -> ~ suppressed flags so do -> exists x m y, In x (children (d_groups d)) /\ In y (elem_all x) /\ akey y = k /\ elem_ok n m y so do /\ corr so do.
  Proof. eapply SkipFacts.elem_at; eassumption. Qed.
  Lemma kid_lists n p so do c t f : pos n p so do -> ~ suppressed flags so do -> dget (ad_classes da) (fst p) = Some c -> In (t, f) (c_children c) ->
    exists ss dd, kids_of (objs_by w src) so f t = Ok ss /\ kids_of (objs_by w dst) do f t = Ok dd /\
      forall u, either (with_uid u ss) (with_uid u dd) <> None -> pos (S n) (t, u) (with_uid u ss) (with_uid u dd).
  Proof. eapply SkipFacts.kid_lists; eassumption. Qed.
  Lemma there_dst k : look w dst k <> None <-> there w dst k.
  Proof. eapply SkipFacts.there_dst; eassumption. Qed.
  Lemma src_one n k s do s' : pos n k (Some s) do -> read w src s' -> is_key s' k -> s' = s.
  Proof. eapply SkipFacts.src_one; eassumption. Qed.
  Lemma dst_one n k so o o' : pos n k so (Some o) -> read w dst o' -> is_key o' k -> o' = o.
  Proof. eapply SkipFacts.dst_one; eassumption. Qed.
  Lemma src_parent k s : read w src s -> is_key s k -> In (fst k) (ad_top sa) \/ exists p, listed w src p k.
  Proof. eapply SkipFacts.src_parent; eassumption. Qed.
  Lemma dst_parent k : there w dst k -> In (fst k) (ad_top da) \/ exists p, listed w dst p k.
  Proof. eapply SkipFacts.dst_parent; eassumption. Qed.
  Lemma up_src p k : listed w dst p k -> there w src k -> listed w src p k.
  Proof. eapply SkipFacts.up_src; eassumption. Qed.
  Lemma up_dst p k : listed w src p k -> there w dst k -> listed w dst p k.
  Proof. eapply SkipFacts.up_dst; eassumption. Qed.
  Lemma listed_there a p k : listed w a p k -> there w a p.
  Proof. eapply SkipFacts.listed_there; eassumption. Qed.
  Lemma src_step n p s do k : pos n p (Some s) do -> ~ suppressed flags (Some s) do -> listed w src p k ->
    exists s' do', pos (S n) k (Some s') do' /\ (there w dst k -> do <> None -> do' <> None) /\ (do' <> None -> there w dst k).
  Proof. eapply SkipFacts.src_step; eassumption. Qed.
  Lemma dst_step n p so z k : pos n p so (Some z) -> ~ suppressed flags so (Some z) -> listed w dst p k ->
    exists so' z', pos (S n) k so' (Some z') /\ (there w src k -> so <> None -> so' <> None) /\ (so' <> None -> there w src k).
  Proof. eapply SkipFacts.dst_step; eassumption. Qed.
  Lemma elem_pos x y : In x (children (d_groups d)) -> In y (elem_all x) -> exists n m so do, elem_ok n m y so do.
  Proof. eapply SkipFacts.elem_pos; eassumption. Qed.

  (** ** Positions and what is passed over *)
  Lemma pos_src n k so do s : pos n k so do -> so = Some s -> there w src k.
  Proof. intros P E. destruct (pos_key _ _ _ _ _ AL' _ _ _ _ P) as (KS & _). exists s. now apply KS. Qed.
  Lemma pos_dst n k so do z : pos n k so do -> do = Some z -> there w dst k.
  Proof. intros P E. destruct (pos_key _ _ _ _ _ AL' _ _ _ _ P) as (_ & KD). exists z. now apply KD. Qed.
  Lemma pos_up n k so do : pos (S n) k so do -> exists p so' do', pos n p so' do' /\ ~ suppressed flags so' do' /\ (listed w src p k \/ listed w dst p k).
  Proof.
    intros P. inversion P as [|n' p so' do' mapping sk' t f ss dd u so0 do0 HP NS CT IM KS KD E1 E2 NN]; subst.
    destruct (kid_facts flags env w sa da AL' n p so' do' mapping sk' t f ss dd u HP CT IM KS KD NN) as (PR & _).
    exists p, so', do'. split; [exact HP|]. split; [exact NS|exact PR].
  Qed.
  (** a parent in one adapter is the parent in the other *)
  Lemma parent_src p k : listed w src p k \/ listed w dst p k -> there w src k -> listed w src p k.
  Proof. intros [L|L] T; [exact L|now apply up_src]. Qed.
  Lemma parent_dst p k : listed w src p k \/ listed w dst p k -> there w dst k -> listed w dst p k.
  Proof. intros [L|L] T; [now apply up_dst|exact L]. Qed.
  Lemma parent_one p p' k : listed w src p k \/ listed w dst p k -> listed w src p' k \/ listed w dst p' k -> p = p'.
  Proof.
    intros [A|A] [B|B].
    - exact (fo_parent _ _ _ FS p p' k A B).
    - exact (proj1 (al_places _ _ _ _ _ _ AL) p p' k A B).
    - symmetry. exact (proj1 (al_places _ _ _ _ _ _ AL) p' p k B A).
    - exact (fo_parent _ _ _ FT p p' k A B).
  Qed.
  Lemma top_none p k : listed w src p k \/ listed w dst p k -> In (fst k) (ad_top da) -> False.
  Proof. intros [L|L] I; [exact (proj2 (al_places _ _ _ _ _ _ AL) p k L I)|exact (fo_top _ _ _ FT p k L I)]. Qed.

  Lemma pos_there n : forall k so do, pos n k so do -> (there w src k <-> so <> None) /\ (there w dst k <-> do <> None).
  Proof.
    induction n as [|n IH]; intros k so do P.
    - assert (AS : so <> None -> there w src k) by (intros N; destruct so as [s|]; [exact (pos_src _ _ _ _ s P eq_refl)|congruence]).
      assert (AD : do <> None -> there w dst k) by (intros N; destruct do as [z|]; [exact (pos_dst _ _ _ _ z P eq_refl)|congruence]).
      inversion P as [t ss dd u so0 do0 TL E1 E2 NN|]; subst. split; (split; [|assumption]).
      + intros (s & R & KS). pose proof (ROOT s (t, u) R KS) as RT. pose proof TL as (IS & ID & HS & HD).
        inversion RT as [t0 u0 l0 s0 I0 A0 J0 K0 [E1 E2]|p k RP LI E]; [subst t0 u0|subst k; now elim (fo_top _ _ _ FS p (t, u) LI)].
        change (sv_src env) with src in *. assert (l0 = ss) by congruence. subst l0. rewrite (all_with w src t ss s0 u (ad_top sa) FS IS HS J0 (proj2 K0)). discriminate.
      + rewrite <- there_dst. apply (top_look fuel h dst src fl cb w d sa da AL t ss dd u TL).
    - assert (AS : so <> None -> there w src k) by (intros N; destruct so as [s|]; [exact (pos_src _ _ _ _ s P eq_refl)|congruence]).
      assert (AD : do <> None -> there w dst k) by (intros N; destruct do as [z|]; [exact (pos_dst _ _ _ _ z P eq_refl)|congruence]).
      destruct (pos_up n k so do P) as (p & so' & do' & HP & NS & PR). destruct (IH p so' do' HP) as (TS & TD).
      split; (split; [|assumption]); intros T.
      + pose proof (parent_src p k PR T) as L. pose proof (proj1 TS (listed_there src p k L)) as N. destruct so' as [s'|]; [|congruence].
        destruct (src_step n p s' do' k HP NS L) as (s2 & do2 & P2 & _). destruct (pos_fun _ _ _ _ _ AL' _ _ _ _ _ _ _ P P2) as (-> & _). discriminate.
      + pose proof (parent_dst p k PR T) as L. pose proof (proj1 TD (listed_there dst p k L)) as N. destruct do' as [z'|]; [|congruence].
        destruct (dst_step n p so' z' k HP NS L) as (so2 & z2 & P2 & _). destruct (pos_fun _ _ _ _ _ AL' _ _ _ _ _ _ _ P P2) as (_ & -> & _). discriminate.
  Qed.
  Lemma pos_at n k so do : pos n k so do -> obj_at w src k so /\ obj_at w dst k do.
  Proof.
    intros P. destruct (pos_there n k so do P) as (TS & TD). destruct (pos_key _ _ _ _ _ AL' _ _ _ _ P) as (KS & KD).
    split; [destruct so as [s|]; [exact (KS s eq_refl)|]|destruct do as [z|]; [exact (KD z eq_refl)|]]; simpl; [rewrite TS|rewrite TD]; intros N; now apply N.
  Qed.
  Lemma at_one a tops k so so' : forest w a tops -> obj_at w a k so -> obj_at w a k so' -> so = so'.
  Proof.
    intros F. destruct so as [o|], so' as [o'|]; simpl.
    - intros (R & K) (R' & K'). f_equal. exact (fo_single _ _ _ F o o' k R R' K K').
    - intros RK N. elim N. now exists o.
    - intros N RK. elim N. now exists o'.
    - reflexivity.
  Qed.
  Lemma pos_left n : forall k so do, pos n k so do -> lo k <-> suppressed flags so do.
  Proof.
    induction n as [|n IH]; intros k so do P; (split; [|intros SU; destruct (pos_at _ _ _ _ P); econstructor; eassumption]); intros L.
    - destruct L as [k so2 do2 A B SU|p k LP PR].
      + destruct (pos_at _ _ _ _ P) as (A' & B'). rewrite (at_one src _ k so so2 FS A' A), (at_one dst _ k do do2 FT B' B). exact SU.
      + exfalso. inversion P as [t ss dd u so0 do0 TL E1 E2 NN|]; subst. destruct TL as (_ & ID & _). exact (top_none p (t, u) PR ID).
    - destruct L as [k so2 do2 A B SU|p k LP PR].
      + destruct (pos_at _ _ _ _ P) as (A' & B'). rewrite (at_one src _ k so so2 FS A' A), (at_one dst _ k do do2 FT B' B). exact SU.
      + exfalso. destruct (pos_up n k so do P) as (p' & so' & do' & HP & NS & PR'). assert (p = p') by exact (parent_one p p' k PR PR'). subst p'.
        apply NS. now apply (IH p so' do' HP).
  Qed.
  Lemma src_cases k : rooted w src (ad_top sa) k -> (exists n s do, pos n k (Some s) do) \/ lo k.
  Proof.
    induction 1 as [t u l o IT A I K|p k RP IH LI].
    - left. destruct (both_tops fuel dst src flags w d sa da sk FD TOPS t) as (ss & dd & TL); [now apply TOPS|].
      assert (ss = l) by (destruct TL as (_ & _ & B & _); congruence). subst ss. destruct K as (T & U). cbn [fst snd] in *.
      pose proof (all_with w src t l o u _ FS IT A I U) as W. exists 0, o, (with_uid u dd). eapply pos_top; [exact TL|now rewrite W|reflexivity|discriminate].
    - destruct IH as [(n & s & do & P)|L]; [|right; eapply lo_below; eauto]. destruct (suppressed_dec flags (Some s) do) as [SU|NS].
      + right. eapply lo_below; [now apply (pos_left _ _ _ _ P)|auto].
      + left. destruct (src_step n p s do k P NS LI) as (s' & do' & P' & _). eauto.
  Qed.
  Lemma dst_cases k : rooted w dst (ad_top da) k -> (exists n so z, pos n k so (Some z)) \/ lo k.
  Proof.
    induction 1 as [t u l o IT A I K|p k RP IH LI].
    - left. destruct (both_tops fuel dst src flags w d sa da sk FD TOPS t IT) as (ss & dd & TL).
      assert (dd = l) by (destruct TL as (_ & _ & _ & B); congruence). subst dd. destruct K as (T & U). cbn [fst snd] in *.
      pose proof (all_with w dst t l o u _ FT IT A I U) as W. exists 0, (with_uid u ss), o. eapply pos_top; [exact TL|reflexivity|now rewrite W|destruct (with_uid u ss); discriminate].
    - destruct IH as [(n & so & z & P)|L]; [|right; eapply lo_below; eauto]. destruct (suppressed_dec flags so (Some z)) as [SU|NS].
      + right. eapply lo_below; [now apply (pos_left _ _ _ _ P)|auto].
      + left. destruct (dst_step n p so z k P NS LI) as (so' & z' & P' & _). eauto.
  Qed.
  Lemma src_in k : there w src k -> ~ lo k -> exists n s do, pos n k (Some s) do /\ ~ suppressed flags (Some s) do.
  Proof.
    intros (s & R & K) N. destruct (src_cases k (ROOT s k R K)) as [(n & s' & do & P)|L]; [|contradiction]. exists n, s', do. split; [exact P|].
    now rewrite <- (pos_left _ _ _ _ P).
  Qed.
  Lemma dst_rooted' k : there w dst k -> rooted w dst (ad_top da) k.
  Proof. intros T. apply there_dst in T. exact (dst_rooted fuel h dst src flags fl cb w d sa da AL sk FD TOPS k T). Qed.

  Lemma src_ignored s k : read w src s -> is_key s k -> N.testbit (o_flags s) 0 = true -> lo k.
  Proof.
    intros R K F. destruct (src_cases k (ROOT s k R K)) as [(n & s' & do & P)|L]; [|exact L]. assert (s = s') by exact (src_one n k s' do s P R K). subst s'.
    apply (pos_left _ _ _ _ P). destruct do as [z|]; simpl; auto.
  Qed.
  Lemma dst_ignored z k : read w dst z -> is_key z k -> N.testbit (o_flags z) 0 = true -> lo k.
  Proof.
    intros R K F. assert (T : there w dst k) by (exists z; auto). destruct (dst_cases k (dst_rooted' k T)) as [(n & so & z' & P)|L]; [|exact L].
    assert (z = z') by exact (dst_one n k so z' z P R K). subst z'. apply (pos_left _ _ _ _ P). destruct so as [s|]; simpl; auto.
  Qed.
  Lemma untouched k : lo k -> ~ sw k -> ~ feet k.
  Proof.
    intros L N (x & Ix & y & Iy & F). destruct (elem_pos x y Ix Iy) as (n & m & so & do & OK). pose proof OK as (P & NS & D & _).
    destruct F as [E|((A & r & o & LK & HO & FL) & R)]; [rewrite E in P; apply NS; now apply (pos_left _ _ _ _ P)|].
    destruct (ok_action _ _ _ _ _ D) as (_ & AD). apply AD in A as (-> & NN). destruct do as [z|]; [|congruence]. apply N.
    destruct (pos_at _ _ _ _ P) as (A1 & A2). destruct A2 as (RZ & KZ). exists (akey y), z. split; [exact RZ|]. split; [exact KZ|]. split; [exact A1|].
    split; [now rewrite (pos_left _ _ _ _ P)|]. split; [|exact R].
    assert (J : In (akey y, z) (stored_objs w dst)) by (apply (read_iff w dst LOC KEY); auto). apply (stored_iff w dst LOC) in J as (r' & L' & H').
    change (look w dst (akey y) = Some r') in L'. change (look w dst (akey y) = Some r) in LK. assert (z = o) by congruence. subst o. rewrite <- (has_flag_pow2 (o_flags z) 1). exact FL.
  Qed.

  Variables (w' wd : world).
  Hypothesis GD : good dst da w'.
  Hypothesis MV : moved dst feet None w w'.
  Hypothesis DN : forall x, In x (children (d_groups d)) -> done env da w WX x w'.
  Hypothesis ATT : attributes_set w dst.
  Let FEET := feet_ok fuel h dst src dc flags fl cb given w d sa da AL sk FD US.
  Let LOC' : local_ok w' dst := proj1 GD.
  Let KEY' : keyed w' dst := proj1 (proj2 GD).
  Lemma there_then k : look w' dst k <> None <-> there w' dst k.
  Proof. exact (stored_there w' dst LOC' KEY' k). Qed.
  Lemma gone n k o : pos n k None (Some o) -> ~ suppressed flags None (Some o) -> look w' dst k = None.
  Proof. eapply SkipFacts.gone; eassumption. Qed.
  Lemma new_pos k : there w' dst k -> ~ there w dst k -> exists n s, pos n k (Some s) None /\ ~ suppressed flags (Some s) None.
  Proof. eapply SkipFacts.new_pos; eassumption. Qed.
  Lemma swept_gone k : sw k -> look w' dst k = None.
  Proof.
    intros (p & z & R & K & NS & NL & FL & RC). assert (T : there w dst p) by (exists z; auto).
    destruct (dst_cases p (dst_rooted' p T)) as [(n & so & z' & P)|L]; [|contradiction]. destruct (pos_at _ _ _ _ P) as (A & RZ & KZ).
    destruct so as [s|]; [elim NS; exists s; exact A|]. assert (z' = z) by exact (fo_single _ _ _ FT z' z p RZ R KZ K). subst z'.
    rewrite (pos_left _ _ _ _ P) in NL. destruct (elem_at n p None (Some z) P NL) as (x & m & y & Ix & Iy & E & OK & _). pose proof (DN x Ix y Iy) as D1. unfold done1 in D1.
    pose proof OK as (_ & _ & D & _). destruct (ok_action _ _ _ _ _ D) as (_ & AD). rewrite (proj1 AD) in D1 by (split; congruence).
    destruct D1 as (_ & D1). rewrite E in D1. assert (J : In (p, z) (stored_objs w dst)) by (apply (read_iff w dst LOC KEY); auto). apply (stored_iff w dst LOC) in J as (r & L' & H').
    refine (D1 r z L' H' _ k RC). change (has_flag (o_flags z) (2 ^ 1) = true). now rewrite has_flag_pow2.
  Qed.
  Lemma src_copied n k s do : pos n k (Some s) do -> ~ suppressed flags (Some s) do -> exists r o, look w' dst k = Some r /\ nth_error (w_heap w') r = Some o /\ values_of s o /\
    forall t f, In (t, f) (c_children (o_cls s)) -> exists l, dget (o_kids o) f = Some l /\ NoDup l /\
      forall u, In u l <-> (has_child s f u /\ ~ lo (t, u)) \/ ((exists z, read w dst z /\ is_key z k /\ has_child z f u) /\ lo (t, u)).
  Proof.
    intros P NSP. destruct (elem_at n k (Some s) do P NSP) as (x & m & y & Ix & Iy & E & OK & CO). pose proof (DN x Ix) as DX.
    assert (DY : done env da w WX y w') by (intros z Iz; apply DX; eapply elem_all_trans; [exact Iz|exact Iy]).
    pose proof OK as (_ & _ & D & _). destruct (ok_action _ _ _ _ _ D) as (_ & AD).
    assert (ND : e_action y <> Some ADelete) by (intros X; apply AD in X as (X & _); congruence).
    assert (X : exists r o, look w' dst k = Some r /\ nth_error (w_heap w') r = Some o /\ ConvRun.after env da w WX y o).
    { destruct (done1_kept _ _ _ _ _ _ (DX y Iy) ND) as (r & o & L & H & A & _). rewrite E in L. eauto. }
    destruct X as (r & o & L & H & AO). exists r, o. split; [exact L|]. split; [exact H|].
    destruct (pos_key _ _ _ _ _ AL' _ _ _ _ P) as (KS & KD). destruct (KS s eq_refl) as (RS & TS & US'). 
    pose proof GD as (_ & KY & _). destruct (KY _ _ _ L) as (o' & H' & TO & UO & _). assert (o' = o) by congruence. subst o'.
    assert (TT : get_type s = get_type o) by congruence.
    assert (NM : exists nm, get_shortname s = Ok nm) by (destruct D as (_ & _ & _ & _ & z & EZ & _ & NZ & _); simpl in EZ; injection EZ as <-; eauto).
    destruct (after_obj flags env w sa da WX (ad_name sa) (ad_name da) AL' SPARE n m y s do o OK AO TT) as (c & L' & HC & CR & SH1 & SH2 & NA & (_ & _ & IDS) & _ & PM & KE).
    { intros z Ez. exact (CO s z eq_refl Ez). } { exact NM. }
    split; [split; [exact TT|]; split; [|split; [exact IDS|]]|].
    - destruct SH1 as (A1 & A2 & A3 & A4), SH2 as (B1 & B2 & B3 & B4). repeat split; congruence.
    - intros a Ia. destruct (al_values _ _ _ _ _ _ AL s RS) as (_ & PV). destruct (PV a) as (v & Gv & Ev); [apply in_app_iff; now right|].
      pose proof SH1 as (_ & _ & A3 & _). pose proof SH2 as (_ & _ & B3 & _).
      assert (GO : exists v', dget (o_vals o) a = Some v').
      { destruct AO as (ob & Lb & BA & OC & OV & _). destruct (ok_base _ _ _ _ _ _ _ AL' _ _ _ _ _ OK) as (c' & o2 & C1 & BA2 & _ & _ & _ & VD & VN & _).
        assert (c' = c) by congruence. subst c'. assert (o2 = ob) by (eapply base_fun; eauto). subst o2.
        rewrite (vals_but_get _ _ _ _ OV) by (intros (_ & HX); refine (SPARE _ _ a HC _ HX); congruence). destruct do as [z|].
        - destruct (VD z eq_refl) as (_ & _ & DK & _). destruct (dget (o_vals ob) a) as [v'|] eqn:G; [eauto|]. apply dget_None in G. rewrite DK in G.
          elim (ATT z a); [now apply KD| |now apply dget_None].
          destruct (pos_class _ _ _ _ _ AL' _ _ _ _ P) as (c2 & C2 & _ & _ & C4). destruct (C4 z (or_intror eq_refl)) as (_ & _ & Z3 & _).
          destruct (C4 s (or_introl eq_refl)) as (_ & _ & Y3 & _). congruence.
        - destruct (VN eq_refl) as (_ & _ & _ & VA). destruct (VA a) as (s1 & E1 & G1); [congruence|]. injection E1 as <-. exists v. congruence. }
      destruct GO as (v' & Gv'). exists v, v'. split; [exact Gv|]. split; [exact Gv'|].
      destruct (py_eq v v') eqn:EQ; [reflexivity|]. exfalso. unfold attrs_action in NA. destruct (existsb _ _) eqn:EX; [discriminate|].
      assert (Y : existsb (attr_differs (get_attrs s) (get_attrs o)) (attrs_keys (Some (get_attrs s)) (Some (get_attrs o))) = true); [|congruence].
      assert (SS1 : smem a (c_attributes (o_cls s)) = true) by now apply smem_In. assert (SS2 : smem a (c_attributes (o_cls o)) = true) by (apply smem_In; congruence).
      apply existsb_exists. exists a. split.
      + cbn [attrs_keys]. unfold intersection. apply filter_In. rewrite smem_In. unfold get_attrs. rewrite !dkeys_dump.
        split; (split; [now apply smem_In|]); apply dget_Some_In in Gv, Gv'; unfold dkeys; apply in_map_iff; eexists; (split; [|eassumption]); reflexivity.
      + unfold attr_differs, get_attrs. now rewrite !dget_dump, SS1, SS2, Gv, Gv', EQ.
    - intros t f It. assert (It' : In (t, f) (c_children c)) by (destruct SH1 as (_ & _ & _ & A4); congruence).
      pose proof OK as (_ & _ & _ & c' & kids & HC' & F & G & CT). assert (c' = c) by congruence. subst c'.
      destruct (Forall2_in_l _ _ _ _ F It') as ([es k0] & Ik & ss & dd & K1 & K2 & FA). cbn [fst snd] in *. destruct m as [|m]; [destruct FA|].
      destruct (kids_then flags env w w' sa da WX (ad_name sa) (ad_name da) feet AL' GD MV FEET n m y s do o c L' t f ss dd es k0 OK HC CR PM KE It' K1 K2 FA) as (dd' & vs' & _ & (_ & IV) & _ & CX & GK & NV).
      { intros z Iz. apply (Permutation_in _ (Permutation_sym (grouped_children _ _ G))). apply in_flat_map. exists (es, k0). auto. }
      { exact DY. }
      exists vs'. split; [exact GK|]. split; [exact NV|]. intros u. rewrite IV.
      change (sv_src env) with src in *. change (sv_dst env) with dst in *.
      assert (HCk : dget (ad_classes da) (fst k) = Some c) by (rewrite <- E; exact HC).
      pose proof (pos_asked _ _ _ _ _ AL' _ _ _ _ _ _ _ P HCk It') as AK.
      assert (HS : has_child s f u <-> with_uid u ss <> None).
      { destruct (dget (o_kids s) f) as [us|] eqn:Gl; [|simpl in K1; rewrite Gl in K1; discriminate]. pose proof (with_uid_None u ss us (kids_uids w src _ s f t ss us FS (proj1 AK s eq_refl) K1 Gl)) as WN.
        unfold has_child. rewrite Gl. split.
        - intros (l & E1 & Iu) E2. injection E1 as <-. now apply WN in E2.
        - intros N. exists us. split; [reflexivity|]. destruct (in_dec string_dec u us) as [I|I]; [exact I|]. now apply WN in I. }
      assert (HD : (exists z, read w dst z /\ is_key z k /\ has_child z f u) <-> with_uid u dd <> None).
      { destruct do as [z|].
        - destruct (KD z eq_refl) as (RZ & KZ). destruct (dget (o_kids z) f) as [us|] eqn:Gl; [|simpl in K2; rewrite Gl in K2; discriminate].
          pose proof (with_uid_None u dd us (kids_uids w dst _ z f t dd us FT (proj2 AK z eq_refl) K2 Gl)) as WN. split.
          + intros (z' & R' & K' & l & E1 & Iu) E2. assert (z' = z) by (eapply (fo_single _ _ _ FT); eassumption). subst z'. rewrite Gl in E1. injection E1 as <-. now apply WN in E2.
          + intros N. exists z. split; [exact RZ|]. split; [exact KZ|]. exists us. split; [exact Gl|]. destruct (in_dec string_dec u us) as [I|I]; [exact I|]. now apply WN in I.
        - simpl in K2. injection K2 as <-. split; [|intros N; now elim N]. intros (z & R' & K' & _). exfalso.
          destruct (pos_at _ _ _ _ P) as (_ & NZ). apply NZ. exists z. auto. }
      rewrite HS, HD. specialize (CX u). unfold survives.
      destruct (with_uid u ss) as [s1|] eqn:WS, (with_uid u dd) as [d1|] eqn:WD.
      + specialize (CX ltac:(discriminate)). pose proof (pos_left _ _ _ _ CX) as PL. split; [intros _|auto].
        destruct (suppressed_dec flags (Some s1) (Some d1)) as [SU|NS]; [right|left]; (split; [discriminate|]); now rewrite PL.
      + specialize (CX ltac:(discriminate)). rewrite (pos_left _ _ _ _ CX). split; [intros X; left; split; [discriminate|exact X]|]. intros [(_ & X)|(X & _)]; [exact X|congruence].
      + specialize (CX ltac:(discriminate)). rewrite (pos_left _ _ _ _ CX). split; [intros X; right; split; [discriminate|exact X]|]. intros [(X & _)|(_ & X)]; [congruence|exact X].
      + split; [intros []|]. intros [(X & _)|(X & _)]; congruence.
  Qed.

  Lemma left_keys k : there w' dst k <-> (there w src k /\ ~ lo k) \/ (there w dst k /\ lo k /\ ~ sw k).
  Proof.
    assert (NSW : there w' dst k -> ~ sw k) by (intros T X; apply there_then in T; apply T; now apply swept_gone).
    split.
    - intros T. destruct (look w dst k) as [r|] eqn:L.
      + assert (TD : there w dst k) by (apply there_dst; congruence). destruct (dst_cases k (dst_rooted' k TD)) as [(n & so & z & P)|LO]; [|right; auto].
        destruct (suppressed_dec flags so (Some z)) as [SU|NS]; [right; split; [exact TD|]; split; [now apply (pos_left _ _ _ _ P)|auto]|].
        left. split; [|now rewrite (pos_left _ _ _ _ P)]. destruct so as [s|]; [exact (pos_src _ _ _ _ s P eq_refl)|].
        exfalso. apply there_then in T. apply T. exact (gone n k z P NS).
      + assert (N : ~ there w dst k) by (intros X; now apply there_dst in X). destruct (new_pos k T N) as (n & s & P & NS). left.
        split; [exact (pos_src _ _ _ _ s P eq_refl)|now rewrite (pos_left _ _ _ _ P)].
    - intros [(TS & NL)|(TD & LO & NW)].
      + destruct (src_in k TS NL) as (n & s & do & P & NS). destruct (src_copied n k s do P NS) as (r & o & L & _). apply there_then. congruence.
      + apply there_then. rewrite (mv_look _ _ _ _ _ MV k) by (apply untouched; auto). now apply there_dst.
  Qed.
  Lemma left_values s o k : read w src s -> is_key s k -> ~ lo k -> read w' dst o -> is_key o k -> values_of s o /\
    forall t f, In (t, f) (c_children (o_cls s)) -> exists l, dget (o_kids o) f = Some l /\ NoDup l /\
      forall u, In u l <-> (has_child s f u /\ ~ lo (t, u)) \/ ((exists z, read w dst z /\ is_key z k /\ has_child z f u) /\ lo (t, u)).
  Proof.
    intros R K NL R' K'. assert (TS : there w src k) by (exists s; auto). destruct (src_in k TS NL) as (n & s' & do & P & NS).
    assert (s = s') by exact (src_one n k s' do s P R K). subst s'.
    destruct (src_copied n k s do P NS) as (r & o' & L & H & V & C).
    assert (I : In (k, o) (stored_objs w' dst)) by (apply (read_iff w' dst LOC' KEY'); auto). apply (stored_iff w' dst LOC') in I as (r' & L2 & H2).
    change (look w' dst k = Some r') in L2. assert (o' = o) by congruence. subst o'. auto.
  Qed.
  Lemma left_rest z o k : read w dst z -> is_key z k -> lo k -> read w' dst o -> is_key o k -> same_data z o.
  Proof.
    intros R K LO R' K'. assert (T' : there w' dst k) by (exists o; auto).
    assert (NW : ~ sw k) by (intros X; apply there_then in T'; apply T'; now apply swept_gone).
    assert (I : In (k, o) (stored_objs w' dst)) by (apply (read_iff w' dst LOC' KEY'); auto). apply (stored_iff w' dst LOC') in I as (r & L & H).
    assert (J : In (k, z) (stored_objs w dst)) by (apply (read_iff w dst LOC KEY); auto). apply (stored_iff w dst LOC) in J as (r' & L' & H').
    assert (NF : ~ feet k) by (apply untouched; auto). pose proof (mv_look _ _ _ _ _ MV k NF) as E. unfold look in E. assert (r' = r) by congruence. subst r'.
    destruct (mv_heap _ _ _ _ _ MV r z H') as (o' & H2 & SD).
    - intros k' F' L2. destruct (KEY _ _ _ L2) as (z' & Hz & T1 & U1 & _). assert (z' = z) by congruence. subst z'. destruct K as (K1 & K2).
      assert (k' = k) by (apply injective_projections; congruence). subst k'. contradiction.
    - discriminate.
    - assert (o' = o) by congruence. now subst o'.
  Qed.
  Lemma left_ruled : ruled flags w src dst w'.
  Proof. split; [exact left_keys|exact left_values|exact left_rest]. Qed.
End Flags.

Lemma sync_ruled fuel h dst src dc flags cb w sa da : alike w fuel src dst sa da -> comparable w fuel src dst sa da ->
  hooks_succeed h -> spares_attributes da h -> yields_once (dc_order dc) -> wired w src dst sa da ->
  exists w' d, sync_from fuel h dst src dc flags cb None w = (w', Ok d) /\ ruled flags w src dst w' /\
    (forall s k, read w src s -> is_key s k -> N.testbit (o_flags s) 0 = true -> left_out flags w src dst k) /\
    (forall z k, read w dst z -> is_key z k -> N.testbit (o_flags z) 0 = true -> left_out flags w src dst k).
Proof.
  intros AL CM HK SP YO [TP RT AT]. destruct (compares fuel dst src dc flags cb w sa da AL CM) as (d & D).
  assert (US : uses fuel dst src dc flags cb None w d) by (right; split; [now left|exact D]).
  apply (diff_from_iff fuel dst src dc flags cb w sa da) in D as (sk & FD & DC & _); try apply AL. rewrite <- DC in YO.
  destruct (sync_ends fuel h dst src dc flags flags cb None w d sa da AL (spared da) HK (write_spared da h SP) YO sk FD US) as (w' & E & GD & MV & DN & wd & RO & AP).
  exists w', d. split; [exact E|]. split; [eapply left_ruled with (WX := spared da); eauto using spared_not|].
  split; [intros s k; eapply src_ignored; eauto|intros z k; eapply dst_ignored; eauto].
Qed.
