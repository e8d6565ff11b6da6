(** * FailRows: the records after a synchronisation whose hooks may fail. *)
From Verif Require Import FailAlike.
From Verif Require Import EditEnd.

(** ** Where the values of each object come from *)
Section Leave.
  Variables (fuel : nat) (h : hooks) (dst src : aid) (dc : diffclass) (flags fl : N) (cb : bool) (given : option diff) (w : world) (d : diff).
  Variables (sa da : adapter).
  Hypothesis AL : alike w fuel src dst sa da.
  Variable WX : string -> Prop.
  Hypothesis SPARE : forall t c k, dget (ad_classes da) t = Some c -> In k (c_attributes c) -> ~ WX k.
  Variable sk : nat.
  Hypothesis FD : faithful_diff flags fuel w src dst sa da (d_groups d) sk.
  Hypothesis US : uses fuel dst src dc fl cb given w d.
  Notation env := (env0 fuel h dst src fl cb d).
  Notation feet := (ConvTop.feet fuel h dst src fl cb w d da).
  Notation elem_ok := (ConvFits.elem_ok flags env w sa da (ad_name sa) (ad_name da)).
  Notation akey := (ConvRun.akey da).
  Notation pr := (ConvTree.pr env w).
  Let AL' : alike w (sv_fuel env) (sv_src env) (sv_dst env) sa da := AL.
  Variables w' wd : world.
  Hypothesis GD : good dst da w'.
  Hypothesis MV : moved dst feet None w w'.
  Hypothesis RO : read_only w wd.
  Hypothesis AP : SyncFacts.apart wd dst w'.
  Notation won := (FailRun.won env da w WX w').
  Notation lost := (FailRun.lost env da w WX w').
  Notation untouched := (FailRun.untouched env da w w').
  Notation fared := (FailRun.fared env da w WX w').
  Hypothesis FR : forall x, In x (children (d_groups d)) -> exists b, fared b x.
  Hypothesis DELS : dels env.
  Hypothesis CM : comparable w fuel src dst sa da.
  Hypothesis CD : children_deletable w dst da.
  Hypothesis US1 : unflagged w src.
  Hypothesis UD1 : unflagged w dst.
  Hypothesis NSK : forall o, read w dst o -> has_flag (o_flags o) MF_SKIP_CHILDREN_ON_DELETE = false.
  Hypothesis TOPS : forall t, In t (ad_top sa) <-> In t (ad_top da).
  Hypothesis ROOT : forall o k, read w src o -> is_key o k -> rooted w src (ad_top sa) k.
  Hypothesis ROOTD : forall k, there w dst k -> rooted w dst (ad_top da) k.
  Hypothesis ATT : attributes_set w dst.
  Let LO : local_ok w dst := al_local _ _ _ _ _ _ AL.
  Let KY : keyed w dst := al_keyed _ _ _ _ _ _ AL.

  Definition copied (c : cls) (s o' : obj) : Prop := forall f, In f (c_attributes c) -> exists v v', dget (o_vals s) f = Some v /\ dget (o_vals o') f = Some v' /\ py_eq v v' = true.
  Definition retained (c : cls) (z o' : obj) : Prop := forall f, In f (c_attributes c) -> dget (o_vals o') f = dget (o_vals z) f.
  Definition valued (k : string * string) (o' : obj) : Prop := exists c, dget (ad_classes da) (fst k) = Some c /\
    ((exists s, read w src s /\ is_key s k /\ copied c s o') \/ (exists z, read w dst z /\ is_key z k /\ retained c z o')).

  Lemma base_copied n m e so do c o o' s : elem_ok n m e so do -> dget (ad_classes da) (e_type e) = Some c -> base env da w e o -> so = Some s ->
    (forall f, In f (c_attributes c) -> dget (o_vals o') f = dget (o_vals o) f) -> copied c s o'.
  Proof.
    intros OK C1 BA -> V f If. rewrite (V f If).
    destruct (ok_base _ _ _ _ _ _ _ AL' _ _ _ _ _ OK) as (c2 & o2 & C2 & BA2 & SH & _ & VS & VD & VN & _). assert (c2 = c) by congruence. subst c2. assert (o2 = o) by (eapply base_fun; eauto). subst o2.
    pose proof OK as (P & _ & D & _). destruct (pos_key _ _ _ _ _ AL' _ _ _ _ P) as (KS & KD). destruct (KS s eq_refl) as (RS & _).
    destruct (describes_key _ _ _ _ _ _ _ AL' _ _ _ _ _ P D) as (c2 & C2' & _ & _ & _ & _ & SHD). assert (c2 = c) by congruence. subst c2.
    destruct (al_values _ _ _ _ _ _ AL s RS) as (_ & PV). destruct (SHD s (or_introl eq_refl)) as (_ & _ & SA & _).
    destruct (PV f) as (v & G & EV); [apply in_app_iff; right; congruence|]. exists v. destruct do as [z|].
    - destruct (VD z eq_refl) as (_ & _ & DK & _). destruct (KD z eq_refl) as (RD & _). destruct (SHD z (or_intror eq_refl)) as (_ & _ & SAz & _).
      destruct (dget (o_vals o) f) as [v'|] eqn:G'; [exists v'; split; [exact G|]; split; [reflexivity|]; eapply (proj2 (VS s eq_refl)); eauto|].
      exfalso. apply (ATT z f RD); [congruence|]. apply dget_None. rewrite <- DK. now apply dget_None.
    - destruct (VN eq_refl) as (_ & _ & _ & X). destruct (X f If) as (s' & E & Y). injection E as <-. exists v. rewrite Y. auto.
  Qed.
  Lemma valued_then k r o' : look w' dst k = Some r -> nth_error (w_heap w') r = Some o' -> valued k o'.
  Proof.
    intros L H.
    assert (CE := FailAlike.cell fuel h dst src dc flags fl cb given w d sa da AL WX sk FD US w' MV FR DELS CM k).
    destruct CE as [(y & E & <-)|(N & [SC|G])].
    - assert (EO := FailAlike.el_ok fuel h dst src dc flags fl cb given w d sa da AL sk FD US y E). destruct EO as (n & m & so & do & OK).
      assert (ES := FailAlike.el_state fuel h dst src dc flags fl cb given w d sa da AL WX sk FD US w' FR DELS y E). destruct ES as (ST & _).
      pose proof OK as (P & _ & D & _). destruct (pos_key _ _ _ _ _ AL' _ _ _ _ P) as (KS & KD).
      destruct (elem_facts fuel h dst src flags fl cb w d sa da AL _ _ _ _ _ OK) as (c & o & C1 & BA & SH & KB & CR & AB & DE & AC & AD).
      exists c. split; [exact C1|]. assert (HK : forall X ob f, vals_but (hooked WX X) (o_vals ob) (o_vals o') -> In f (c_attributes c) -> dget (o_vals o') f = dget (o_vals ob) f).
      { intros X ob f VB If. apply (vals_but_get _ _ _ _ VB). intros (_ & W). exact (SPARE _ c f C1 If W). }
      assert (SO : e_action y <> Some ADelete -> exists s, so = Some s).
      { intros NA. destruct so as [s|]; [eauto|]. exfalso. apply NA. apply AD. split; [reflexivity|]. intros ->. now apply pos_some in P. }
      destruct ST as [W|[(LS & ND)|U]].
      + assert (NA : e_action y <> Some ADelete). { intros EA. unfold FailRun.won in W. rewrite EA in W. destruct W as (W & _). change (look w' dst (akey y) = None) in W. congruence. }
        assert (MO : made_of env da w WX w' y o').
        { unfold FailRun.won in W. change (look w' (sv_dst env) (akey y)) with (look w' dst (akey y)) in W.
          destruct (e_action y) as [[| |]|]; [|destruct W as (r1 & o1 & L1 & H1 & MO & _); congruence|congruence|]; destruct W as (r1 & o1 & L1 & H1 & MO & _); congruence. }
        destruct MO as (o2 & G & BA2 & OC & OV & _). assert (o2 = o) by (eapply base_fun; eauto). subst o2. destruct (SO NA) as (s & ->). left. exists s. destruct (KS s eq_refl) as (RS & IS).
        split; [exact RS|]. split; [exact IS|]. eapply base_copied; eauto.
      + unfold FailRun.lost in LS. change (look w' (sv_dst env) (akey y)) with (look w' dst (akey y)) in LS. change (look w (sv_dst env) (akey y)) with (look w dst (akey y)) in LS.
        assert (LS' : exists r o0 o', look w dst (akey y) = Some r /\ nth_error (w_heap w) r = Some o0 /\ look w' dst (akey y) = Some r /\ nth_error (w_heap w') r = Some o' /\ left_of env da w WX w' y o0 o').
        { destruct (e_action y) as [[| |]|]; auto; congruence. }
        clear LS. destruct LS' as (r1 & o0 & o1 & L0 & H0 & L1 & H1 & ob & G & OB & OC & OV & _). assert (r1 = r) by congruence. subst r1. assert (o1 = o') by congruence. subst o1.
        destruct OB as [->|OB].
        * right. destruct (dst_read _ _ _ _ AL' _ _ _ L0 H0) as (RD & IK). exists o0. split; [exact RD|]. split; [exact IK|]. intros f If. eapply HK; eauto.
        * assert (ob = o) by (eapply base_fun; eauto). subst ob. destruct (SO ND) as (s & ->). left. exists s. destruct (KS s eq_refl) as (RS & IS). split; [exact RS|]. split; [exact IS|]. eapply base_copied; eauto.
      + destruct (U (akey y)) as (E0 & EO); [exists y; split; [destruct y; now left|now left]|]. change (look w' dst (akey y) = look w dst (akey y)) in E0. rewrite L in E0. symmetry in E0.
        destruct (KY _ _ _ E0) as (z & Hz & _). destruct (EO r z E0 Hz) as (o1 & H1 & S1 & S2 & S3 & S4). assert (o1 = o') by congruence. subst o1.
        right. destruct (dst_read _ _ _ _ AL' _ _ _ E0 Hz) as (RD & IK). exists z. split; [exact RD|]. split; [exact IK|]. intros f _. now rewrite S2.
    - assert (SO := FailAlike.same_obj fuel h dst src fl cb w d sa da AL w' k r o' SC L H). destruct SO as (z & L0 & H0 & S1 & S2 & S3 & S4).
      destruct (dst_read _ _ _ _ AL' _ _ _ L0 H0) as (RD & IK). destruct (al_classes _ _ _ _ _ _ AL z (or_intror RD)) as (c & C1 & _). rewrite (proj1 IK) in C1. exists c. split; [exact C1|]. right. exists z. split; [exact RD|]. split; [exact IK|].
      intros f _. now rewrite S2.
    - assert (X := FailAlike.gone_look fuel h dst src fl cb w d da WX w' k G). congruence.
  Qed.
  (** ** Which keys there are *)
  Notation pos := (ConvTree.pos flags env w sa da).
  Lemma left_then k : look w dst k <> None -> look w' dst k = None -> ~ there w src k /\ N.testbit flags 2 = false.
  Proof.
    intros N0 N1. assert (TD : there w dst k) by (now apply (stored_there w dst LO KY)).
    assert (CE := FailAlike.cell fuel h dst src dc flags fl cb given w d sa da AL WX sk FD US w' MV FR DELS CM k).
    destruct CE as [(y & E & <-)|(N & [(SC & _)|G])].
    - assert (EA := FailAlike.gone_delete fuel h dst src dc flags fl cb given w d sa da AL WX sk FD US w' FR DELS y E N0 N1).
      assert (EO := FailAlike.el_ok fuel h dst src dc flags fl cb given w d sa da AL sk FD US y E). destruct EO as (n & m & so & do & P & NS & D & _).
      apply (ok_action _ _ _ _ _ D) in EA as (-> & ND). destruct do as [z|]; [|congruence]. rewrite (SkipFacts.skip_iff fuel h dst src flags fl cb w d sa da AL US1 UD1 _ _ _ _ P) in NS. cbn [skipped] in NS.
      split; [|destruct (N.testbit flags 2); congruence]. intros TS.
      destruct (SkipFacts.dst_cases fuel h dst src dc flags fl cb given w d sa da AL sk FD US US1 UD1 TOPS ROOT (akey y) (ROOTD _ TD)) as [(n' & so' & z' & P' & I)|(_ & NT)]; [|contradiction].
      apply I in TS. destruct (pos_fun _ _ _ _ _ AL' _ _ _ _ _ _ _ P P') as (Q & _). congruence.
    - change (look w' dst k = look w dst k) in SC. congruence.
    - destruct G as (y & _ & _ & (_ & r & o & L & Hh & F) & _). destruct (dst_read _ _ _ _ AL' _ _ _ L Hh) as (RD & _). rewrite (NSK o RD) in F. discriminate.
  Qed.
  Lemma new_then k : look w dst k = None -> look w' dst k <> None -> there w src k /\ N.testbit flags 1 = false.
  Proof.
    intros N0 N1.
    assert (CE := FailAlike.cell fuel h dst src dc flags fl cb given w d sa da AL WX sk FD US w' MV FR DELS CM k).
    destruct CE as [(y & E & <-)|(N & [(SC & _)|G])].
    - assert (EO := FailAlike.el_ok fuel h dst src dc flags fl cb given w d sa da AL sk FD US y E). destruct EO as (n & m & so & do & P & NS & D & _).
      destruct (pos_key _ _ _ _ _ AL' _ _ _ _ P) as (KS & KD). destruct do as [z|].
      { exfalso. destruct (KD z eq_refl) as (RD & IK). destruct (read_dst_key _ _ _ _ AL' _ _ RD IK) as (r & L & _). change (look w dst (akey y) = Some r) in L. congruence. }
      destruct so as [s|]; [|now apply pos_some in P]. rewrite (SkipFacts.skip_iff fuel h dst src flags fl cb w d sa da AL US1 UD1 _ _ _ _ P) in NS. cbn [skipped] in NS.
      split; [exists s; exact (KS s eq_refl)|]. destruct (N.testbit flags 1); congruence.
    - change (look w' dst k = look w dst k) in SC. congruence.
    - elim N1. exact (FailAlike.gone_look fuel h dst src fl cb w d da WX w' k G).
  Qed.
End Leave.

(** what a synchronisation leaves whose create and update hooks may fail *)
Record leaves (flags : N) (fuel : nat) (w : world) (src dst : aid) (sa da : adapter) (w' : world) : Prop := mkLeaves {
  lv_good : good dst da w';
  lv_refs : w_ok w';
  lv_alike : exists s s', alike w' fuel src dst (set_ad_store sa s) (set_ad_store da s');
  lv_other : forall b ad, b <> dst -> nth_error (w_ads w) b = Some ad -> exists s', nth_error (w_ads w') b = Some (set_ad_store ad s') /\ store_ext (ad_store ad) s';
  lv_fresh : forall t u r, lookup w' dst t u = Some r -> lookup w dst t u = Some r \/ length (w_heap w) <= r;
  lv_twin : forall k r o', look w' dst k = Some r -> nth_error (w_heap w') r = Some o' -> exists c o, twin dst src w da k o' c o;
  lv_valued : forall k r o', look w' dst k = Some r -> nth_error (w_heap w') r = Some o' -> valued dst src w da k o';
  lv_listed : forall p k, listed w' dst p k -> listed w src p k \/ listed w dst p k;
  lv_left : forall k, look w dst k <> None -> look w' dst k = None -> ~ there w src k /\ N.testbit flags 2 = false;
  lv_new : forall k, look w dst k = None -> look w' dst k <> None -> there w src k /\ N.testbit flags 1 = false
}.
Lemma sync_leaves fuel h dst src dc flags cb w sa da : alike w fuel src dst sa da -> comparable w fuel src dst sa da -> children_deletable w dst da ->
  hooks_honest h -> deletes_succeed h -> spares_attributes da h -> yields_once (dc_order dc) -> entire w 0 src dst sa da ->
  (forall o, read w dst o -> has_flag (o_flags o) MF_SKIP_CHILDREN_ON_DELETE = false) -> (forall k, there w dst k -> rooted w dst (ad_top da) k) ->
  exists w' r, sync_from fuel h dst src dc flags cb None w = (w', r) /\ leaves flags fuel w src dst sa da w'.
Proof.
  intros AL CM CD HO DEL SP YO [_ S1 D1 TP RT AT] NSK RD. destruct (compares fuel dst src dc flags cb w sa da AL CM) as (d & D).
  assert (US : uses fuel dst src dc flags cb None w d) by (right; split; [now left|exact D]).
  apply (diff_from_iff fuel dst src dc flags cb w sa da) in D as (sk & FD & DC & _); try apply AL. rewrite <- DC in YO.
  destruct (sync_goes_top fuel h dst src dc flags flags cb None w d sa da AL (ConvTop.spared da) HO (write_spared da h SP) YO sk FD US) as (w' & r & E & GD & MV & FR & _ & _ & wd & RO & AP).
  assert (FR' : forall x, In x (children (d_groups d)) -> exists b, fared (env0 fuel h dst src flags cb d) da w (ConvTop.spared da) w' b x) by (intros x I; destruct (FR x I) as (b & _ & F); eauto).
  assert (DL : dels (env0 fuel h dst src flags cb d)) by (intros w1 r1; apply DEL).
  exists w', r. split; [exact E|]. split.
  - exact GD.
  - exact (end_ok fuel dst src w sa da AL w' wd GD RO AP).
  - destruct (alike_then fuel h dst src dc flags flags cb None w d sa da AL _ sk FD US w' wd GD MV RO AP FR' DL CM CD) as (s & s' & A & _). eauto.
  - exact (mv_other _ _ _ _ _ MV).
  - intros t u r0 L. exact (mv_new _ _ _ _ _ MV (t, u) r0 L).
  - intros k r0 o'. exact (twin_of fuel h dst src dc flags flags cb None w d sa da AL _ sk FD US w' MV FR' DL CM k r0 o').
  - intros k r0 o'. eapply valued_then; eauto using spared_not.
  - intros p k. exact (listed_pr fuel h dst src dc flags flags cb None w d sa da AL _ sk FD US w' GD MV FR' DL CM p k).
  - intros k. eapply left_then; eauto.
  - intros k. eapply new_then; eauto.
Qed.
