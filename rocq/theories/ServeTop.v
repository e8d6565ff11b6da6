(** * ServeTop: records are synchronised into a RedisStore. *)
From Verif Require Export ServeSpec.
From Verif Require Import WholeFacts ServerFacts.
From Verif Require Import CopyFacts FaithFacts ServeRead ServeRun.

Section Serve.
  Variables (fuel : nat) (h : hooks) (src dst : aid) (dc : diffclass) (flags : N) (cb : bool) (w0 w : world) (sa la da : adapter) (i : string) (rows rows' : list row).
  Notation cs := (ad_classes la).
  Notation cs' := (ad_classes da).
  Hypothesis NE : src <> dst.
  Hypothesis OK : w_ok w.
  Hypothesis HA : nth_error (w_ads w) src = Some sa.
  Hypothesis HD : nth_error (w_ads w) dst = Some da.
  Hypothesis RA : redis_adapter da i.
  Hypothesis SW : ShelfEnd.shows w src la (ad_top sa) rows.
  Hypothesis NONE : forall s, dget (w_redis w0) ("diffsync:" ++ i ++ ":" ++ s)%string = None.
  Hypothesis SV : shelved w0 i cs' rows' rows' w.
  Hypothesis DS : dataset cs (ad_top sa) rows.
  Hypothesis DS' : dataset cs' (ad_top da) rows'.
  Hypothesis MA : matching cs cs' rows rows'.
  Hypothesis PV : proper_values cs rows.
  Hypothesis TN : NoDup (ad_top da).
  Hypothesis TT : forall t, In t (ad_top sa) <-> In t (ad_top da).
  Hypothesis F2 : 2 <= fuel.
  Hypothesis SH : shallow cs rows (fuel - 1).
  Hypothesis SH' : shallow cs' rows' (fuel - 1).
  Hypothesis NF : no_flags cs rows.
  Hypothesis NF' : no_flags cs' rows'.
  Hypothesis B0 : N.testbit flags 0 = false.
  Hypothesis B1 : N.testbit flags 1 = false.
  Hypothesis B2 : N.testbit flags 2 = false.
  Hypothesis HK : hooks_succeed h.
  Hypothesis SP : spares_attributes da h.
  Hypothesis YO : yields_once (dc_order dc).

  Let PI : RedisSpec.plain i = true := ra_id _ _ RA.
  Let HS : ad_store da = SRedis i := ra_store _ _ RA.
  Let PT : forall x, In x rows' -> RedisSpec.plain (r_type x) = true.
  Proof. intros x I. destruct (da_class _ _ _ DS' x I) as (c & D & _). exact (proj1 (proj2 (ra_class _ _ RA _ _ D))). Qed.
  Notation wm := (ServeRead.mirror w dst da i rows').
  Notation ma := (mad w da i rows').

  Lemma m_shows : ShelfEnd.shows wm src la (ad_top sa) rows.
  Proof.
    apply (same_shows w); [| |exact SW].
    - intros t. now apply (mirror_other_all w dst da i rows' OK).
    - intros us t. now apply (mirror_other_by w dst da i rows' OK).
  Qed.
  Let ST : stands wm dst ma (n0 w) rows' := mirror_stands w0 w dst da i rows' HD PI PT NONE SV DS'.
  Let OKM : w_ok wm := mirror_ok w0 w dst da i rows' OK PI PT NONE SV DS'.
  Let HAM : nth_error (w_ads wm) src = Some sa.
  Proof. cbn [ServeRead.mirror w_ads]. now rewrite nth_list_set_neq by auto. Qed.
  Let AL : alike wm fuel src dst sa ma.
  Proof.
    apply (shelf_alike wm fuel src dst sa la ma (n0 w) rows rows'); auto; [|exact m_shows].
    exact (mirror_shares w0 w dst da i rows' OK HD PI PT NONE SV DS' src sa NE HA).
  Qed.
  Let CM : comparable wm fuel src dst sa ma.
  Proof. apply (shelf_comparable wm fuel src dst sa la ma (n0 w) rows rows'); auto. exact m_shows. Qed.
  Let EN : entire wm flags src dst sa ma.
  Proof. apply (shelf_entire wm src dst sa la ma (n0 w) rows rows'); auto. exact m_shows. Qed.

  (** the comparison is that with the mirror *)
  Lemma row_types x c t : In x rows' -> dget cs' (r_type x) = Some c -> In t (map fst (c_children c)) -> RedisSpec.plain t = true.
  Proof. intros _ D. exact (proj2 (proj2 (proj2 (proj2 (ra_class _ _ RA _ _ D)))) t). Qed.
  Lemma src_typed o : read w src o -> typed plainT o.
  Proof.
    intros R t f I. destruct (sw_read _ _ _ _ _ SW o R) as (x & J & c & D & EC & _). destruct (ma_class _ _ _ _ MA x c J D) as (c' & D' & _ & (_ & _ & _ & SC) & _).
    destruct (ra_class _ _ RA _ _ D') as (_ & _ & _ & _ & H). apply H. rewrite SC, <- EC. apply in_map_iff. exists (t, f). auto.
  Qed.
  Lemma dst_typed o : read wm dst o -> typed plainT o.
  Proof.
    intros R t f I. destruct (st_read wm dst ma _ rows' ST o R) as (x & J & c & D & EC & _).
    destruct (ra_class _ _ RA _ _ D) as (_ & _ & _ & _ & H). apply H. rewrite <- EC. apply in_map_iff. exists (t, f). auto.
  Qed.
  Lemma same_comparison : snd (diff_from fuel dst src dc flags cb w) = snd (diff_from fuel dst src dc flags cb wm).
  Proof.
    destruct (diff_from_pure fuel dst src dc flags cb w sa da OK HA HD) as (w1 & E & _).
    destruct (diff_from_pure fuel dst src dc flags cb wm sa ma OKM HAM (mirror_ad w dst da i rows' HD)) as (w2 & E' & _).
    rewrite E, E'. cbn [snd]. rewrite (pdiff_reads w wm fuel flags src dst sa da sa ma); auto.
    - intros t P. rewrite (mirror_other_all w dst da i rows' OK) by exact NE. apply rrel_same. intros l EL. apply Forall_forall. intros o I. apply src_typed. exists t, l. auto.
    - intros us t P. rewrite (mirror_other_by w dst da i rows' OK) by exact NE. apply rrel_same. intros l EL. apply Forall_forall. intros o I. apply src_typed. exists t, l. eauto.
    - intros t P. rewrite <- (mirror_all w0 w dst da i rows' HD HS PI PT NONE SV DS' t P). apply rrel_same. intros l EL. apply Forall_forall. intros o I. apply dst_typed. exists t, l. auto.
    - intros us t P. rewrite <- (mirror_by w0 w dst da i rows' HD HS PI PT NONE SV DS' us t P). apply rrel_same. intros l EL. apply Forall_forall. intros o I. apply dst_typed. exists t, l. eauto.
    - intros t [I|I]; apply (ra_tops _ _ RA); [now apply TT|exact I].
  Qed.

  Lemma on_plain t c : dget cs' t = Some c -> RedisSpec.plain t = true.
  Proof. intros D. exact (proj1 (proj2 (ra_class _ _ RA _ _ D))). Qed.
  Lemma sdst : server_dst w dst da i.
  Proof.
    split; [exact HD|exact HS|exact PI|exact (proj2 (proj2 SV))| |].
    - intros t c D. destruct (ra_class _ _ RA _ _ D) as (A & B & C & E & _). auto.
    - intros t c u o D E. pose proof (mirror_look w0 w dst da i rows' HD PI PT NONE SV DS' (t, u) (on_plain t c D)) as L. cbn [fst snd] in L.
      destruct (lookup wm dst t u) as [r|]; [|congruence]. destruct L as (x & j & o1 & J & EK & _ & _ & _ & E1 & M). assert (o1 = o) by congruence. subst o1.
      pose proof (good_of da rows' (ad_top da) DS' x J) as G. assert (ET : r_type x = t) by (change (r_type x) with (fst (row_key cs' x)); now rewrite EK).
      split; [rewrite (made_type cs' rows' x o G M); exact ET|]. split; [rewrite (made_uid cs' rows' x o G M), EK; reflexivity|].
      destruct M as (c' & D' & _ & EF & _). rewrite EF, (NF' x c' J D'). unfold skips_children. discriminate.
  Qed.
  Lemma same_of k : ServeRun.known da k ->
    match ConvSteps.look wm dst k with
    | None => ServeRun.srv i w k = None
    | Some r => exists o o1, nth_error (w_heap wm) r = Some o /\ ServeRun.srv i w k = Some o1 /\ same_data o o1
    end.
  Proof.
    unfold ServeRun.known. intros KN. destruct (dget cs' (fst k)) as [c|] eqn:D; [|congruence].
    pose proof (mirror_look w0 w dst da i rows' HD PI PT NONE SV DS' k (on_plain _ c D)) as L. unfold ConvSteps.look, ServeRun.srv.
    destruct (lookup wm dst (fst k) (snd k)) as [r|]; [|exact L]. destruct L as (x & j & o1 & _ & _ & _ & _ & H & E & _).
    exists (set_o_adapter o1 (Some dst)), o1. split; [exact H|]. split; [exact E|]. repeat split.
  Qed.

  Section Run.
    Variable d : diff.
    Hypothesis DF : snd (diff_from fuel dst src dc flags cb w) = Ok d.
    Variable sk : nat.
    Hypothesis FD : faithful_diff flags fuel wm src dst sa ma (d_groups d) sk.
    Hypothesis DC : d_class d = dc.
    Notation env := (env0 fuel h dst src flags cb d).
    Let US : uses fuel dst src dc flags cb None w d.
    Proof. right. split; [now left|exact DF]. Qed.
    Let USM : uses fuel dst src dc flags cb None wm d.
    Proof. right. split; [now left|]. now rewrite <- same_comparison. Qed.
    Let AL' : alike wm (sv_fuel env) (sv_src env) (sv_dst env) sa ma := AL.
    Let FP : sv_fuel env <> 0.
    Proof. cbn. lia. Qed.
    Notation elem_ok := (ConvFits.elem_ok flags env wm sa ma (ad_name sa) (ad_name ma)).
    Notation pos := (ConvTree.pos flags env wm sa ma).

    Lemma runs : exists w', sync_from fuel h dst src dc flags cb None w = (w', Ok d).
    Proof.
      destruct (sync_from_split fuel h dst src dc flags cb None w) as [(_ & _ & _ & N)|(d' & wd & U & _ & RO & _ & E)]; [now apply N in US|].
      assert (d' = d) by (eapply uses_fun; eauto). subst d'.
      set (L := ordered (dc_order (d_class d)) (fun e => e) (d_groups d)).
      assert (YO' : yields_once (dc_order (d_class d))) by now rewrite DC.
      pose proof (ordered_perm _ (d_groups d) YO') as PM. fold L in PM.
      assert (IL : forall x, In x L -> In x (children (d_groups d))) by (intros x I; apply (Permutation_in _ PM I)).
      assert (OKS : forall x, In x L -> exists m so do, m <= fuel /\ elem_ok 0 m x so do).
      { intros x I. apply (top_ok fuel h dst src dc flags flags cb None wm d sa ma AL sk FD USM). now apply IL. }
      assert (NDL : NoDup (map tagged L)).
      { eapply Permutation_NoDup; [|exact (top_NoDup fuel dst src flags wm d sa ma sk FD)]. apply Permutation_map. now symmetry. }
      assert (SR : sready env da w) by (split; [exact HD|]; split; [cbn; congruence|exact (proj2 (proj2 SV))]).
      assert (FT : forall x, In x L -> ConvRun.fits env ma wm x) by (intros x I; destruct (OKS x I) as (m & so & do & _ & O); eapply elem_fits; [exact AL'|exact O]).
      assert (KR : ends (run_kids (map (sync_elem (dc_order (d_class d)) env) L) None false) (mkSS wd 0 None None None) (fun s' _ => True)).
      { eapply ends_weak; [apply (skids_run (dc_order (d_class d)) env da ma i w FP NE L)|auto].
        - intros x I. apply (selem_runs (dc_order (d_class d)) env da ma i wm w HK YO' FP NE eq_refl sdst same_of). now apply FT.
        - eapply NoDup_map_inv. exact NDL.
        - intros x y k Ix Iy Sx Sy. apply (feet_apart flags env wm sa ma (ad_name sa) (ad_name ma) AL' 0 L fuel NDL OKS x y k Ix Iy); now apply spot_foot.
        - intros x I k Sk. exact (fits_known env da ma wm eq_refl x (FT x I) k Sk).
        - apply (sready_ro env da ma i w) with (w := w); auto; exact sdst.
        - intros x k _ _. unfold ServeRun.srv, on_server. cbn [ss_w]. destruct RO as (_ & -> & _). reflexivity.
        - exact Logic.I. }
      destruct KR as (s' & b & RUN & _). rewrite E. unfold run_sync, bind. unfold perform_sync. rewrite ordered_map. fold L.
      change (mkSEnv src dst flags (diff_len d) cb h fuel) with env. rewrite RUN. cbn [fst snd]. destruct b; eexists; reflexivity.
    Qed.

    (** ** The elements and the records *)
    Lemma found e : occurs e (d_groups d) -> exists n m so do, elem_ok n m e so do.
    Proof.
      intros OC. apply occurs_children in OC as (x & Ix & Ie). destruct (top_ok fuel h dst src dc flags flags cb None wm d sa ma AL sk FD USM x Ix) as (m & so & do & _ & O).
      destruct (below flags env wm sa ma (ad_name sa) (ad_name ma) AL' 0 m x so do e O Ie) as (j & m' & so' & do' & _ & O' & _). eauto.
    Qed.
    Lemma named e k : occurs e (d_groups d) -> names w dst e k -> exists n m so do, elem_ok n m e so do /\ pos n k so do /\ describes (ad_name sa) (ad_name ma) e so do.
    Proof.
      intros OC (ad & c & A & D & T & U). rewrite HD in A. injection A as <-. destruct (found e OC) as (n & m & so & do & O). pose proof O as (P & _ & DE & _).
      destruct (describes_key flags env wm sa ma _ _ AL' _ _ _ _ _ P DE) as (c' & D' & MN & _ & U' & _). change (dget cs' (e_type e) = Some c') in D'. rewrite D in D'. injection D' as <-.
      assert (EK : akey ma e = k) by (apply injective_projections; [cbn [akey fst]; congruence|congruence]).
      exists n, m, so, do. split; [exact O|]. split; [now rewrite <- EK|exact DE].
    Qed.
    Lemma same_pos n m k so do so' do' : pos n k so do -> pos m k so' do' -> so = so' /\ do = do'.
    Proof. intros P P'. destruct (pos_fun flags env wm sa ma AL' _ _ _ _ _ _ _ P P') as (A & B & _). auto. Qed.
    Lemma moves_not : no_moves w dst (d_groups d).
    Proof.
      intros k (e & O & A & N) (e' & O' & A' & N'). destruct (named e k O N) as (n & m & so & do & _ & P & D). destruct (named e' k O' N') as (n' & m' & so' & do' & _ & P' & D').
      destruct (same_pos _ _ _ _ _ _ _ P P') as (<- & <-). destruct (ok_action _ _ _ _ _ D) as (C & _). destruct (ok_action _ _ _ _ _ D') as (_ & L). apply C in A. apply L in A'. destruct A, A'. congruence.
    Qed.
    Lemma key_record so do n k : pos n k so do ->
      (forall s, so = Some s -> exists x, In x rows /\ row_key cs x = k /\ made_from cs rows x s) /\
      (forall o, do = Some o -> exists y, In y rows' /\ row_key cs' y = k /\ made_from cs' rows' y o).
    Proof.
      intros P. destruct (pos_key flags env wm sa ma AL' _ _ _ _ P) as (KS & KD). split; intros o E.
      - destruct (KS o E) as (R & IK). destruct (sw_read _ _ _ _ _ m_shows o R) as (x & I & M). exists x. split; [exact I|]. split; [|exact M]. exact (st_key la rows (ad_top sa) DS o x k I M IK).
      - destruct (KD o E) as (R & IK). destruct (st_read wm dst ma _ rows' ST o R) as (x & I & M). exists x. split; [exact I|]. split; [|exact M]. exact (st_key ma rows' (ad_top da) DS' o x k I M IK).
    Qed.
    Lemma rec_src x : In x rows -> exists n s do, pos n (row_key cs x) (Some s) do /\ made_from cs rows x s.
    Proof.
      intros I. destruct (sw_object _ _ _ _ _ m_shows x I) as (o & R & M). pose proof (st_is la rows (ad_top sa) DS x o I M) as IK.
      destruct (src_pos fuel h dst src dc flags flags cb None wm d sa ma AL sk FD USM) with (k := row_key cs x) as (n & s & do & P).
      - auto.
      - apply EN.
      - apply EN.
      - exact TT.
      - exact (sh_rooted wm src la (ad_top sa) rows m_shows DS _ o R IK).
      - exists n, s, do. split; [exact P|]. destruct (key_record _ _ _ _ P) as (H & _). destruct (H s eq_refl) as (x' & I' & K' & M'). assert (x' = x) by (apply (key_fun la rows (ad_top sa) DS); auto). now subst x'.
    Qed.
    Lemma rec_dst y : In y rows' -> exists n so o, pos n (row_key cs' y) so (Some o).
    Proof.
      intros I. destruct (st_object wm dst ma _ rows' (ad_top da) ST DS' y I) as (o & R & M). pose proof (st_is ma rows' (ad_top da) DS' y o I M) as IK.
      apply (dst_pos fuel h dst src dc flags flags cb None wm d sa ma AL sk FD USM); [auto|apply EN|apply EN|exact TT|].
      exact (st_rooted wm dst ma _ rows' (ad_top da) ST DS' _ o R IK).
    Qed.
    Lemma act_at n k so do : pos n k so do -> exists e m, occurs e (d_groups d) /\ names w dst e k /\ elem_ok n m e so do.
    Proof.
      intros P. destruct (elem_at fuel h dst src dc flags flags cb None wm d sa ma AL sk FD USM) with (n := n) (k := k) (so := so) (do := do) as (x & m & y & Ix & Iy & E & O & _); auto; try apply EN.
      exists y, m. split; [apply occurs_children; eauto|]. split; [|exact O]. pose proof O as (P' & _ & D & _).
      destruct (describes_key flags env wm sa ma _ _ AL' _ _ _ _ _ P' D) as (c & C1 & C2 & C3 & C4 & _). exists da, c. split; [exact HD|]. split; [exact C1|]. rewrite <- E. split; [cbn [akey fst]; congruence|exact C4].
    Qed.
    Lemma plain_named e k : names w dst e k -> RedisSpec.plain (fst k) = true.
    Proof. intros (ad & c & A & D & T & _). rewrite HD in A. injection A as <-. destruct (ra_class _ _ RA _ _ D) as (M & P & _). congruence. Qed.
    Lemma kept_on : unchanged_on_server w dst i (d_groups d).
    Proof.
      intros e k O A N. destruct (named e k O N) as (n & m & so & do & OE & P & D). destruct (ok_action _ _ _ _ _ D) as (AC & AD).
      assert (ND : do <> None).
      { intros ->. destruct so as [s|]; [|exact (pos_some flags env wm sa ma _ _ _ _ P eq_refl)]. assert (e_action e = Some ACreate) by (apply AC; split; congruence). congruence. }
      split.
      - destruct do as [o|]; [|congruence]. destruct (key_record _ _ _ _ P) as (_ & H). destruct (H o eq_refl) as (y & I & EK & _). destruct (proj1 SV y I) as (o1 & S1 & _). rewrite EK in S1. congruence.
      - intros (e' & O' & A' & N'). destruct (named e' k O' N') as (n' & m' & so' & do' & _ & P' & D'). destruct (same_pos _ _ _ _ _ _ _ P P') as (<- & <-).
        destruct (ok_action _ _ _ _ _ D') as (_ & L). apply L in A' as (-> & _). destruct do as [o|]; [|congruence]. assert (e_action e = Some ADelete) by (apply AD; split; congruence). congruence.
    Qed.

    Lemma serves w' : sync_from fuel h dst src dc flags cb None w = (w', Ok d) -> served w i cs cs' rows rows' w'.
    Proof.
      intros E. assert (SL : server_left (spared da) w dst da i (d_groups d) w').
      { pose proof (sync_left fuel h dst src dc flags cb None w da i d (spared da) sdst HK (write_spared da h SP) B0) as X. rewrite E in X. cbn [fst snd] in X. apply X; auto.
        - now rewrite DC.
        - eapply computed_whole. exact DF.
        - exact moves_not.
        - exact kept_on. }
      destruct SL as [LC LD LR]. split.
      - intros x c I D AL1. destruct (rec_src x I) as (n & s & do & P & M). assert (do = None) as ->.
        { destruct do as [o|]; [|reflexivity]. exfalso. apply AL1. destruct (key_record _ _ _ _ P) as (_ & H). destruct (H o eq_refl) as (y & J & EK & _). rewrite <- EK. now apply in_map. }
        destruct (act_at _ _ _ _ P) as (e & m & OE & NE1 & OK1). pose proof OK1 as (_ & _ & DE & _). destruct (ok_action _ _ _ _ _ DE) as (AC & _).
        assert (MT : mentioned w dst (d_groups d) is_create_act (fst (row_key cs x), snd (row_key cs x))).
        { exists e. split; [exact OE|]. split; [apply AC; split; congruence|now destruct (row_key cs x)]. }
        destruct (LC _ _ MT) as (_ & e' & c' & o & OE' & AE' & NE' & D' & ON & (B1' & B2' & B3' & B4') & CH & AD).
        rewrite <- surjective_pairing in NE'. destruct (named e' _ OE' NE') as (n' & m' & so' & do' & _ & P' & DE'). destruct (same_pos _ _ _ _ _ _ _ P P') as (<- & <-).
        exists c', o. split; [exact D'|]. split; [exact ON|]. split; [exact B1'|]. split; [exact B2'|]. split; [exact AD|]. split; [exact CH|]. intros f If.
        destruct (ma_class _ _ _ _ MA x c I D) as (c2 & D2 & _ & (SI & SS & SA & SC) & CR). change (dget cs' (r_type x) = Some c') in D'. assert (c2 = c') by congruence. subst c2.
        pose proof DE' as (_ & _ & ES & EDD & o2 & EO & ET & _ & EK). simpl in EO. injection EO as <-. pose proof M as (c1 & D1 & EC & _). rewrite D in D1. injection D1 as <-.
        rewrite <- (st_vals la rows (ad_top sa) DS s x c f I M D If). destruct (PV x c f I D If) as (v & Vv & _). rewrite (st_vals la rows (ad_top sa) DS s x c f I M D If), Vv.
        assert (IFD : exists dv, In (f, dv) (c_fields c')).
        { assert (X : In f (dkeys (c_fields c'))) by (apply in_app_iff in If as [If|If]; [apply (cr_ids c' CR); now rewrite SI|apply (cr_attrs c' CR); now rewrite SA]).
          unfold dkeys in X. apply in_map_iff in X as ([f' dv] & <- & X). eauto. }
        destruct IFD as (dv & IFD).
        assert (VS : dget (o_vals s) f = Some v) by (rewrite (st_vals la rows (ad_top sa) DS s x c f I M D If); exact Vv).
        apply in_app_iff in If as [If|If].
        + destruct (B4' f dv IFD) as (H & _); [right; now rewrite SI|]. apply H. rewrite EK. unfold get_identifiers. rewrite dget_dump, EC. apply smem_In in If. now rewrite If.
        + assert (If' : In f (c_attributes c')) by now rewrite SA. destruct (B4' f dv IFD) as (_ & H & _); [left; now apply (spared_not da (r_type x) c')|]. apply H.
          * rewrite EK. unfold get_identifiers. rewrite dget_dump, EC. destruct (smem f (c_identifiers c)) eqn:X; [|reflexivity]. apply smem_In in X. rewrite <- SI in X. elim (cr_apart c' CR f X If').
          * exists (get_attrs s). split; [now rewrite ES|]. split; [unfold get_attrs; rewrite dget_dump, EC; apply smem_In in If; now rewrite If|]. now rewrite EDD.
      - intros y I AL1. destruct (rec_dst y I) as (n & so & o & P). assert (so = None) as ->.
        { destruct so as [s|]; [|reflexivity]. exfalso. apply AL1. destruct (key_record _ _ _ _ P) as (H & _). destruct (H s eq_refl) as (x & J & EK & _). rewrite <- EK. now apply in_map. }
        destruct (act_at _ _ _ _ P) as (e & m & OE & NE1 & OK1). pose proof OK1 as (_ & _ & DE & _). destruct (ok_action _ _ _ _ _ DE) as (_ & AD).
        apply (LD (fst (row_key cs' y)) (snd (row_key cs' y))). exists e. split; [exact OE|]. split; [apply AD; split; congruence|now destruct (row_key cs' y)].
      - intros k H1 H2. apply LR. intros t u [(e & OE & AE & NE1)|(e & OE & AE & NE1)]; destruct (named e (t, u) OE NE1) as (n & m & so & do & _ & P & DE); destruct (ok_action _ _ _ _ _ DE) as (AC & AD); destruct (key_record _ _ _ _ P) as (KS & KD).
        + apply AC in AE as (NS & ->). destruct so as [s|]; [|congruence]. destruct (KS s eq_refl) as (x & I & EK & _). pose proof (H1 x I) as H. rewrite EK in H. apply H. intros J. rewrite EK in J. apply in_map_iff in J as (y & EY & J).
          destruct (rec_dst y J) as (n' & so' & o' & P'). rewrite EY in P'. destruct (same_pos _ _ _ _ _ _ _ P P'). congruence.
        + apply AD in AE as (-> & ND). destruct do as [o|]; [|congruence]. destruct (KD o eq_refl) as (y & I & EK & _). pose proof (H2 y I) as H. rewrite EK in H. apply H. intros J. rewrite EK in J. apply in_map_iff in J as (x & EX & J).
          destruct (rec_src x J) as (n' & s' & do' & P' & _). rewrite EX in P'. destruct (same_pos _ _ _ _ _ _ _ P P'). congruence.
    Qed.
  End Run.

  Theorem served_all : exists w' d, sync_from fuel h dst src dc flags cb None w = (w', Ok d) /\ served w i cs cs' rows rows' w'.
  Proof.
    destruct (compares fuel dst src dc flags cb wm sa ma AL CM) as (d & D). pose proof D as D'.
    apply (diff_from_iff fuel dst src dc flags cb wm sa ma OKM HAM (mirror_ad w dst da i rows' HD)) in D' as (sk & FD & DC & _).
    rewrite <- same_comparison in D. destruct (runs d D sk FD DC) as (w' & E). exists w', d. split; [exact E|]. exact (serves d D sk FD DC w' E).
  Qed.
End Serve.
