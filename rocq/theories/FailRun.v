(** * FailRun: a synchronisation whose hooks may fail does part of what the elements say. *)
From Verif Require Export FailSteps.

Section Run.
  Variable ord : order_fn.
  Variable env : senv.
  Variable da : adapter.
  Variable w0 : world.
  Variable WX : string -> Prop.
  Hypothesis HONEST : forall w hc, ho_end (sv_hooks env w hc) = HReturn -> ho_base (sv_hooks env w hc) = true.
  Hypothesis WRITES : hooks_write WX (sv_hooks env).
  Hypothesis YO : yields_once ord.
  Hypothesis FUEL : sv_fuel env <> 0.
  Hypothesis APART : sv_src env <> sv_dst env.
  Notation dst := (sv_dst env).
  Notation good := (good dst da).
  Notation moved := (moved dst).
  Notation h := (sv_hooks env).
  Notation akey := (akey da).
  Notation takes := (takes env da w0).
  Notation foot := (foot env da w0).
  Notation kids_after := (kids_after da).
  Notation base := (ConvRun.base env da w0).
  Notation hooked := (hooked WX).
  Notation kid_fits := (kid_fits da).
  Notation fits := (fits env da w0).
  Notation same_cell := (same_cell env w0).
  Notation par_ok := (par_ok env da w0).
  Notation par_after := (par_after da).
  Notation ready := (ready env da).

  (** the element was created or deleted *)
  Definition took (w : world) (x : elem) : Prop :=
    match e_action x with
    | Some ACreate => look w dst (akey x) <> None
    | Some ADelete => look w dst (akey x) = None
    | _ => False
    end.
  Definition those (w : world) (L G : list elem) : Prop := NoDup G /\ forall x, In x G <-> In x L /\ took w x.
  (** the element's hook is called in this way *)
  Definition call_of (e : elem) (hc : hookcall) : Prop :=
    match e_action e, hc with
    | Some ACreate, HCreate c ids attrs => dget (ad_classes da) (e_type e) = Some c /\ ids = e_keys e /\ attrs = plus_attrs e
    | Some AUpdate, HUpdate r attrs => look w0 dst (akey e) = Some r /\ attrs = plus_attrs e
    | Some ADelete, HDelete r => look w0 dst (akey e) = Some r
    | _, _ => False
    end.
  Definition fails (e : elem) : Prop := exists w1 hc, call_of e hc /\ ho_end (h w1 hc) <> HReturn.
  (** no delete fails, and this is one *)
  Definition dels : Prop := forall w r, ho_end (h w (HDelete r)) = HReturn.
  Definition sure (b : bool) (e : elem) : Prop := b = true \/ (dels /\ e_action e = Some ADelete).
  Lemma dels_fails e : dels -> e_action e = Some ADelete -> ~ fails e.
  Proof. intros D EA (w1 & hc & CO & NR). unfold call_of in CO. rewrite EA in CO. destruct hc; try contradiction. now apply NR. Qed.
  (** its object is deleted after its children *)
  Definition by_nature (e : elem) : Prop := e_action e = Some ADelete /\
    exists r o, look w0 dst (akey e) = Some r /\ nth_error (w_heap w0) r = Some o /\
      has_flag (o_flags o) MF_NATURAL_DELETION_ORDER = true /\ has_flag (o_flags o) MF_SKIP_CHILDREN_ON_DELETE = false.

  (** the object after a hook that succeeded *)
  Definition made_of (w : world) (e : elem) (o' : obj) : Prop :=
    exists o G, base e o /\ o_cls o' = o_cls o /\ vals_but (hooked e) (o_vals o) (o_vals o') /\
      get_identifiers o' = get_identifiers o /\ o_flags o' = o_flags o /\
      those w (children (e_kids e)) G /\ o_kids o' = fold_left (kids_after (o_cls o)) G (o_kids o).
  Definition won (w : world) (x : elem) : Prop :=
    match e_action x with
    | Some ADelete => look w dst (akey x) = None /\
        forall r o, look w0 dst (akey x) = Some r -> nth_error (w_heap w0) r = Some o ->
          has_flag (o_flags o) MF_SKIP_CHILDREN_ON_DELETE = true ->
          forall k, reaches w0 dst (akey x) k -> look w dst k = None
    | a => exists r o', look w dst (akey x) = Some r /\ nth_error (w_heap w) r = Some o' /\ made_of w x o' /\
        (a = Some ACreate \/ look w0 dst (akey x) = Some r)
    end.
  (** the object after a hook that failed *)
  Definition left_of (w : world) (e : elem) (o0 o' : obj) : Prop :=
    exists ob G, (ob = o0 \/ base e ob) /\ o_cls o' = o_cls o0 /\ vals_but (hooked e) (o_vals ob) (o_vals o') /\
      get_identifiers o' = get_identifiers o0 /\ o_flags o' = o_flags o0 /\
      those w (children (e_kids e)) G /\ o_kids o' = fold_left (kids_after (o_cls o0)) G (o_kids o0).
  Definition lost (w : world) (e : elem) : Prop :=
    match e_action e with
    | Some ACreate => look w dst (akey e) = None
    | _ => exists r o0 o', look w0 dst (akey e) = Some r /\ nth_error (w_heap w0) r = Some o0 /\
        look w dst (akey e) = Some r /\ nth_error (w_heap w) r = Some o' /\ left_of w e o0 o'
    end.
  Definition untouched (w : world) (e : elem) : Prop := forall k, foot e k -> same_cell w k.

  (** how the element and those below it fared; [true]: to the end *)
  Inductive fared (w : world) : bool -> elem -> Prop :=
  | fr_won b e : won w e -> (forall x, In x (children (e_kids e)) -> exists b', (sure b e -> b' = true) /\ fared w b' x) -> fared w b e
  | fr_lost b e : lost w e -> fails e -> (forall x, In x (children (e_kids e)) -> untouched w x) -> fared w b e
  | fr_nature b e : lost w e -> by_nature e -> (sure b e -> fails e) ->
      (forall x, In x (children (e_kids e)) -> exists b', (b = true -> b' = true) /\ fared w b' x) -> fared w b e
  | fr_none e : untouched w e -> fared w false e.

  Definition oks {A} (r : result A) : bool := match r with Ok _ => true | Err _ => false end.
  Definition calmly {A} (r : result A) : Prop := match r with Ok _ => True | Err x => stops env x end.
  Definition post (e : elem) (P : option ref) (s s' : sstate) (r : result bool) : Prop :=
    ready (ss_w s') /\ moved (foot e) P (ss_w s) (ss_w s') /\
    (exists G, those (ss_w s') [e] G /\ par_after P G (ss_w s) (ss_w s')) /\
    fared (ss_w s') (oks r) e /\ (e_action e = Some ADelete -> (oks r = true -> ss_action s' = Some ADelete) /\ (dels -> oks r = true)) /\ calmly r.
  Definition runs (e : elem) : Prop := forall P s,
    ready (ss_w s) -> untouched (ss_w s) e -> par_ok (ss_w s) P [e] ->
    goes (sync_elem ord env e P) s (post e P s).

  (** ** Keeping *)
  Lemma took_look w w' x : look w' dst (akey x) = look w dst (akey x) -> took w' x <-> took w x.
  Proof. unfold took. intros ->. reflexivity. Qed.
  Lemma those_look w w' L G : (forall x, In x L -> look w' dst (akey x) = look w dst (akey x)) -> those w L G -> those w' L G.
  Proof.
    intros E (N & I). split; [exact N|]. intros x. rewrite I. split; intros (A & B); (split; [exact A|]); now apply (took_look w w' x (E x A)).
  Qed.
  Lemma made_same w e o o' : made_of w e o -> same_data o o' -> made_of w e o'.
  Proof.
    intros (b & G & B & E1 & E2 & E5 & E3 & PM & E4) (D1 & D2 & D3 & D4). exists b, G. repeat (split; [congruence || assumption|]).
    split; [|split; [congruence|split; [exact PM|congruence]]].
    unfold get_identifiers, dump_include in *. rewrite D1, D2. exact E5.
  Qed.
  Lemma left_same w e o0 o o' : left_of w e o0 o -> same_data o o' -> left_of w e o0 o'.
  Proof.
    intros (b & G & B & E1 & E2 & E5 & E3 & PM & E4) (D1 & D2 & D3 & D4). exists b, G. repeat (split; [congruence || assumption|]).
    split; [|split; [congruence|split; [exact PM|congruence]]].
    unfold get_identifiers, dump_include in *. rewrite D1, D2. exact E5.
  Qed.
  Lemma made_look w w' e o : (forall x, In x (children (e_kids e)) -> look w' dst (akey x) = look w dst (akey x)) -> made_of w e o -> made_of w' e o.
  Proof.
    intros E (b & G & B & E1 & E2 & E5 & E3 & PM & E4). exists b, G. repeat (split; [assumption|]). split; [|exact E4]. eapply those_look; eauto.
  Qed.
  Lemma left_look w w' e o0 o : (forall x, In x (children (e_kids e)) -> look w' dst (akey x) = look w dst (akey x)) -> left_of w e o0 o -> left_of w' e o0 o.
  Proof.
    intros E (b & G & B & E1 & E2 & E5 & E3 & PM & E4). exists b, G. repeat (split; [assumption|]). split; [|exact E4]. eapply those_look; eauto.
  Qed.

  Section Moved.
    Variables (T : key -> Prop) (P : option ref) (w w' : world).
    Hypothesis G : good w.
    Hypothesis M : moved T P w w'.
    Definition spared (e : elem) : Prop :=
      (forall k, foot e k -> ~ T k) /\ (forall p k, P = Some p -> foot e k -> look w dst k <> Some p).
    Lemma spared_kid e x : spared e -> In x (children (e_kids e)) -> spared x.
    Proof. intros (A & B) I. split; [intros k F; apply A; eapply foot_kid; eauto|intros p k E F; eapply B; eauto; eapply foot_kid; eauto]. Qed.
    Lemma spared_look e k : spared e -> foot e k -> look w' dst k = look w dst k.
    Proof. intros (A & _) F. apply (mv_look _ _ _ _ _ M). now apply A. Qed.
    Lemma spared_kids e x : spared e -> In x (children (e_kids e)) -> look w' dst (akey x) = look w dst (akey x).
    Proof. intros SP I. apply (spared_look e); [exact SP|]. eapply foot_kid; eauto. apply foot_self. Qed.
    Lemma spared_obj e r o : spared e -> look w dst (akey e) = Some r -> nth_error (w_heap w) r = Some o ->
      exists o', nth_error (w_heap w') r = Some o' /\ same_data o o'.
    Proof.
      intros (A & B) L H. eapply (obj_moved env da T P w w' (akey e)); eauto; [apply A, foot_self|].
      intros E. now apply (B r (akey e) E (foot_self _ _ _ _)).
    Qed.
    Lemma won_moved e : spared e -> won w e -> won w' e.
    Proof.
      intros SP. assert (LE : look w' dst (akey e) = look w dst (akey e)) by (apply (spared_look e); [exact SP|apply foot_self]).
      assert (GO : forall a, (exists r o', look w dst (akey e) = Some r /\ nth_error (w_heap w) r = Some o' /\ made_of w e o' /\ (a = Some ACreate \/ look w0 dst (akey e) = Some r)) ->
                 (exists r o', look w' dst (akey e) = Some r /\ nth_error (w_heap w') r = Some o' /\ made_of w' e o' /\ (a = Some ACreate \/ look w0 dst (akey e) = Some r))).
      { intros a (r & o & E & H & A & R). destruct (spared_obj e r o SP E H) as (o2 & H2 & D2). exists r, o2. split; [congruence|]. split; [exact H2|].
        split; [|exact R]. eapply made_look; [intros x I; exact (spared_kids e x SP I)|]. eapply made_same; eauto. }
      unfold won. destruct (e_action e) as [[| |]|] eqn:EA; auto. intros (D1 & D2). split; [congruence|].
      intros r o Er Ho HF k RK. rewrite (spared_look e k SP); [eapply D2; eauto|]. exists e. split; [destruct e; now left|]. right. split; [|exact RK].
      split; [exact EA|]. eauto.
    Qed.
    Lemma lost_moved e : spared e -> lost w e -> lost w' e.
    Proof.
      intros SP. assert (LE : look w' dst (akey e) = look w dst (akey e)) by (apply (spared_look e); [exact SP|apply foot_self]).
      assert (GO : (exists r o0 o', look w0 dst (akey e) = Some r /\ nth_error (w_heap w0) r = Some o0 /\
        look w dst (akey e) = Some r /\ nth_error (w_heap w) r = Some o' /\ left_of w e o0 o') -> (exists r o0 o', look w0 dst (akey e) = Some r /\ nth_error (w_heap w0) r = Some o0 /\
        look w' dst (akey e) = Some r /\ nth_error (w_heap w') r = Some o' /\ left_of w' e o0 o')).
      { intros (r & o0 & o & E0 & H0 & E & H & A). destruct (spared_obj e r o SP E H) as (o2 & H2 & D2). exists r, o0, o2. repeat (split; [congruence || assumption|]).
        eapply left_look; [intros x I; exact (spared_kids e x SP I)|]. eapply left_same; eauto. }
      unfold lost. destruct (e_action e) as [[| |]|]; auto. congruence.
    Qed.
    Lemma untouched_moved e : spared e -> untouched w e -> untouched w' e.
    Proof. intros (A & B) U k F. eapply cell_moved; [exact G|now apply U|exact M|now apply A|]. intros p E. now apply B. Qed.
    Lemma fared_moved e : forall b, spared e -> fared w b e -> fared w' b e.
    Proof.
      induction e as [e IH] using elem_ind'. intros b SP FR.
      assert (KD : forall b x, In x (children (e_kids e)) -> fared w b x -> fared w' b x).
      { intros b0 x I. pose proof I as I'. apply In_children in I' as (t & g & n & Hg & Hn). apply (IH t g n x Hg Hn). now apply (spared_kid e). }
      inversion FR as [b' e' W K|b' e' W F K|b' e' W N F K|e' U]; subst b' + subst b; subst e'.
      - apply fr_won; [now apply won_moved|]. intros x I. destruct (K x I) as (b1 & B1 & F1). exists b1. auto.
      - apply fr_lost; [now apply lost_moved|exact F|]. intros x I. apply untouched_moved; [now apply (spared_kid e)|auto].
      - apply fr_nature; [now apply lost_moved|exact N|exact F|]. intros x I. destruct (K x I) as (b1 & B1 & F1). exists b1. auto.
      - apply fr_none. now apply untouched_moved.
    Qed.
  End Moved.

  Lemma untouched_not_took w x : ~ took w0 x -> untouched w x -> ~ took w x.
  Proof. intros N U. destruct (U _ (foot_self env da w0 x)) as (E & _). now rewrite (took_look w0 w x E). Qed.
  Lemma fits_not_took x : fits x -> ~ took w0 x.
  Proof.
    intros FI. inversion FI as [e' c o HC HN HU FB OW FC FN FD ND DJ KI FK]; subst e'. unfold took.
    destruct (e_action x) as [[| |]|] eqn:EA; auto.
    - destruct (FC eq_refl) as (L & _). congruence.
    - unfold ConvRun.base in FB. rewrite EA in FB. destruct FB as (r & L & _). congruence.
  Qed.
  Lemma those_none w L : (forall x, In x L -> ~ took w x) -> those w L [].
  Proof. intros N. split; [constructor|]. intros x. split; [intros []|intros (I & T)]. now apply (N x I). Qed.
  Lemma those_app w L1 L2 G1 G2 : those w L1 G1 -> those w L2 G2 -> (forall x, In x L1 -> ~ In x L2) -> those w (L1 ++ L2) (G1 ++ G2).
  Proof.
    intros (N1 & I1) (N2 & I2) D. split.
    - apply NoDup_app_intro; auto. intros x A B. apply I1 in A as (A & _). apply I2 in B as (B & _). now apply (D x A).
    - intros x. rewrite !in_app_iff, I1, I2. tauto.
  Qed.
  Lemma those_perm w L L' G : (forall x, In x L <-> In x L') -> those w L G -> those w L' G.
  Proof. intros E (N & I). split; [exact N|]. intros x. now rewrite I, E. Qed.

  (** ** The children *)
  Lemma kids_run L : (forall x, In x L -> runs x) -> (forall x, In x L -> ~ took w0 x) -> NoDup L ->
    (forall x y k, In x L -> In y L -> foot x k -> foot y k -> x = y) ->
    forall P b s, ready (ss_w s) -> (forall x, In x L -> untouched (ss_w s) x) -> par_ok (ss_w s) P L ->
    goes (run_kids (map (sync_elem ord env) L) P b) s (fun s' r =>
      ready (ss_w s') /\ moved (fun k => exists x, In x L /\ foot x k) P (ss_w s) (ss_w s') /\
      (exists G, those (ss_w s') L G /\ par_after P G (ss_w s) (ss_w s')) /\
      (forall x, In x L -> exists b', (oks r = true -> b' = true) /\ fared (ss_w s') b' x) /\
      ((forall x, In x L -> e_action x = Some ADelete) -> (ss_action s = Some ADelete -> oks r = true -> ss_action s' = Some ADelete) /\ (dels -> oks r = true)) /\ calmly r).
  Proof.
    induction L as [|x L IH]; intros RU NT ND DJ P b s RD CE PO.
    { apply goes_ret. split; [exact RD|]. split; [apply moved_refl|]. split; [exists []; split; [apply those_none; intros x []|apply par_after_refl]|].
      split; [intros x []|]. split; [auto|exact Logic.I]. }
    inversion ND as [|? ? NX ND']; subst. cbn [map run_kids]. apply goes_bind.
    pose proof RD as [G0 _].
    assert (SEP : forall y k, In y L -> foot y k -> ~ foot x k).
    { intros y k Hy Fy Fx. assert (E : x = y) by (apply (DJ x y k); auto; [now left|now right]). subst y. contradiction. }
    assert (UH0 : forall p, P = Some p -> forall y k, In y (x :: L) -> foot y k -> look (ss_w s) dst k <> Some p).
    { intros p -> y k Hy Fy. destruct PO as (po & _ & _ & _ & UH). now apply (UH y k). }
    assert (SPL : forall y, In y L -> spared (foot x) P (ss_w s) y).
    { intros y Hy. split; [intros k Fy; eapply SEP; eauto|]. intros p k EP Fy. apply (UH0 p EP y k); [now right|exact Fy]. }
    eapply goes_weak; [apply (RU x (or_introl eq_refl) P s RD)|].
    - apply CE. now left.
    - destruct P as [p|]; [|exact Logic.I]. destruct PO as (po & Hp & OW & KF & UH). exists po. split; [exact Hp|].
      split; [exact OW|]. split; [intros y [<-|[]]; apply KF; now left|]. intros y k [<-|[]]. apply UH. now left.
    - intros s1 r1 (RD1 & M1 & (G1 & TG1 & PA1) & FR1 & AC1 & CA1). pose proof RD1 as [GD1 _].
      assert (UL : forall y, In y L -> untouched (ss_w s1) y).
      { intros y Hy. eapply untouched_moved; [exact G0|exact M1|now apply SPL|]. apply CE. now right. }
      destruct r1 as [b1|x1].
      + cbn [oks] in *. eapply goes_weak; [apply (IH (fun y Hy => RU y (or_intror Hy)) (fun y Hy => NT y (or_intror Hy)) ND')|].
        * intros y z k Hy Hz. apply DJ; now right.
        * exact RD1.
        * exact UL.
        * destruct P as [p|]; [|exact Logic.I]. destruct PO as (po & Hp & OW & KF & UH).
          destruct (PA1 po Hp) as (po1 & Hp1 & C1 & V1 & F1 & K1). exists po1. split; [exact Hp1|]. rewrite C1. split; [exact OW|].
          assert (UH' : forall y k, In y L -> foot y k -> look (ss_w s1) dst k <> Some p).
          { intros y k Hy Fy. eapply unheld_moved; eauto. apply (UH y k); [now right|exact Fy]. }
          split; [|exact UH']. intros y Hy.
          assert (KE : o_kids po1 = o_kids po \/ o_kids po1 = kids_after (o_cls po) (o_kids po) x).
          { destruct TG1 as (N1 & I1). destruct G1 as [|g [|g' G1]]; cbn [fold_left] in K1.
            - now left.
            - assert (g = x) by (destruct (proj1 (I1 g) (or_introl eq_refl)) as ([X|[]] & _); now symmetry). subst g. now right.
            - exfalso. inversion N1 as [|? ? NG _]; subst. apply NG. left.
              destruct (proj1 (I1 g) (or_introl eq_refl)) as ([X|[]] & _). destruct (proj1 (I1 g') (or_intror (or_introl eq_refl))) as ([X'|[]] & _). congruence. }
          destruct KE as [KE|KE].
          -- destruct (KF y (or_intror Hy)) as (f & l & Y). exists f, l. rewrite C1, KE. exact Y.
          -- eapply (kid_fits_step da po po1 x y OW); [|apply (KF x); now left|apply (KF y); now right|exact C1|exact KE].
             intros E. apply (SEP y (akey y) Hy (foot_self _ _ _ y)). rewrite <- E. apply foot_self.
        * cbv beta. intros s2 r2 (RD2 & M2 & (G2 & TG2 & PA2) & FR2 & AC2 & CA2).
          assert (SPX : spared (fun k => exists x, In x L /\ foot x k) P (ss_w s1) x).
          { split; [intros k Fk (z & Hz & Fz); now apply (SEP z k Hz Fz)|]. intros p k EP Fk. destruct P as [p'|]; [|discriminate]. injection EP as ->.
            destruct PO as (po & Hp & _ & _ & UH). eapply unheld_moved; eauto. apply (UH x k); [now left|exact Fk]. }
          split; [exact RD2|]. split; [|split; [|split; [|split; [|exact CA2]]]].
          -- eapply moved_trans; [eapply moved_weak; [| |exact M1]|eapply moved_weak; [| |exact M2]]; auto.
             ++ intros k Fk. exists x. split; [now left|exact Fk].
             ++ intros k (y & Hy & Fk). exists y. split; [now right|exact Fk].
          -- exists (G1 ++ G2). split; [|eapply par_after_trans; eauto]. change (x :: L) with ([x] ++ L).
             apply those_app; [|exact TG2|intros y [<-|[]]; exact NX]. eapply those_look; [|exact TG1].
             intros y [<-|[]]. apply (spared_look _ _ _ _ M2 x (akey x) SPX), foot_self.
          -- intros y [<-|Hy]; [|now apply FR2]. exists true. split; [auto|]. eapply fared_moved; [exact GD1|exact M2|exact SPX|exact FR1].
          -- intros AL. destruct (AC2 (fun y Hy => AL y (or_intror Hy))) as (A2 & B2). split; [|exact B2].
             intros EA OK2. apply A2; [|exact OK2]. apply AC1; [apply AL; now left|reflexivity].
      + cbn [oks calmly] in *. split; [exact RD1|]. split; [|split; [|split; [|split; [|exact CA1]]]].
        * eapply moved_weak; [| |exact M1]; auto. intros k Fk. exists x. split; [now left|exact Fk].
        * exists G1. split; [|exact PA1]. rewrite <- (app_nil_r G1). change (x :: L) with ([x] ++ L).
          apply those_app; [exact TG1| |intros y [<-|[]]; exact NX]. apply those_none. intros y Hy. apply untouched_not_took; [apply NT; now right|now apply UL].
        * intros y [<-|Hy]; [exists false; split; [auto|exact FR1]|]. exists false. split; [auto|]. apply fr_none. now apply UL.
        * intros AL. split; [discriminate|]. intros DE. apply (proj2 (AC1 (AL x (or_introl eq_refl))) DE).
  Qed.

  (** ** One element *)
  Section One.
    Variables (e : elem) (o : obj) (c : cls).
    Hypothesis HC : dget (ad_classes da) (e_type e) = Some c.
    Hypothesis HN : c_modelname c = e_type e.
    Hypothesis HU : create_unique_id c (e_keys e) = Ok (snd (akey e)).
    Hypothesis FB : base e o.
    Hypothesis OW : own_fields (o_cls o).
    Hypothesis FC : e_action e = Some ACreate -> look w0 dst (akey e) = None /\ get_unique_id o = Ok (snd (akey e)) /\ kids_are_fields c.
    Hypothesis FN : e_action e <> Some ACreate -> forall k, In k (dkeys (plus_attrs e)) -> ~ In k (c_identifiers (o_cls o)).
    Hypothesis FD : e_action e = Some ADelete -> ~ deep w0 dst (sv_fuel env) (akey e) /\
         forall k t u r o', reaches w0 dst (akey e) k -> look w0 dst k = Some r -> nth_error (w_heap w0) r = Some o' ->
           lists o' t u -> lookup w0 dst t u <> None.
    Hypothesis ND : NoDup (children (e_kids e)).
    Hypothesis DJ : forall x y k, In x (children (e_kids e)) -> In y (children (e_kids e)) -> foot x k -> foot y k -> x = y.
    Hypothesis KI : forall x, In x (children (e_kids e)) -> ~ foot x (akey e) /\ kid_fits o x /\
         (e_action e = Some ADelete -> e_action x = Some ADelete /\ StoreSpec.child_of w0 dst (akey e) (akey x)).
    Hypothesis FK : forall x, In x (children (e_kids e)) -> fits x.
    Hypothesis RU : forall x, In x (children (e_kids e)) -> runs x.
    Hypothesis FI : fits e.
    Hypothesis K0 : keyed w0 dst.
    Let L := ordered ord (fun x => x) (e_kids e).
    Let PM : Permutation L (children (e_kids e)).
    Proof. apply ordered_perm. exact YO. Qed.
    Notation kids := (map (sync_elem ord env) L).
    Let InL x : In x L -> In x (children (e_kids e)).
    Proof. apply Permutation_in. exact PM. Qed.
    Let LIn x : In x (children (e_kids e)) -> In x L.
    Proof. apply Permutation_in. now apply Permutation_sym. Qed.
    Let NDL : NoDup L.
    Proof. eapply Permutation_NoDup; [apply Permutation_sym; exact PM|exact ND]. Qed.
    Let NTL x : In x L -> ~ took w0 x.
    Proof. intros I. now apply fits_not_took, FK, InL. Qed.
    Let InIff x : In x L <-> In x (children (e_kids e)).
    Proof. split; auto. Qed.

    Variables (P : option ref) (s : sstate).
    Hypothesis RD : ready (ss_w s).
    Hypothesis CE : untouched (ss_w s) e.
    Hypothesis PO : par_ok (ss_w s) P [e].
    Notation Q := (post e P s).

    Let UH p k : P = Some p -> foot e k -> look (ss_w s) dst k <> Some p.
    Proof. intros -> F. destruct PO as (po & _ & _ & _ & X). apply (X e k); [now left|exact F]. Qed.

    (** the hook failed and the children are left alone *)
    Lemma lose s6 (r : result bool) : ready (ss_w s6) -> moved (eq (akey e)) P (ss_w s) (ss_w s6) -> par_after P [] (ss_w s) (ss_w s6) ->
      (those (ss_w s6) (children (e_kids e)) [] -> lost (ss_w s6) e) -> look (ss_w s6) dst (akey e) = look w0 dst (akey e) -> fails e ->
      (e_action e = Some ADelete -> ss_action s6 = Some ADelete) -> calmly r -> Q s6 r.
    Proof.
      intros RD6 M6 PA6 LS LK6 FL AC CA. pose proof RD as [G _].
      assert (UK : forall x, In x (children (e_kids e)) -> untouched (ss_w s6) x).
      { intros x I. apply (untouched_moved (eq (akey e)) P (ss_w s) (ss_w s6) G M6 x).
        - split; [intros k F <-; now apply (KI x I)|]. intros p k EP F. apply (UH p k EP). now apply (foot_kid _ _ _ x).
        - intros k F. apply CE. now apply (foot_kid _ _ _ x). }
      split; [exact RD6|]. split; [eapply moved_weak; [| |exact M6]; auto; intros k <-; apply foot_self|].
      split; [exists []; split; [|exact PA6]|].
      - apply those_none. intros x [<-|[]]. rewrite (took_look w0 (ss_w s6) e LK6). now apply fits_not_took.
      - split; [|split; [intros EA; split; [auto|intros DE; now elim (dels_fails e DE EA)]|exact CA]]. apply fr_lost; [|exact FL|exact UK]. apply LS. apply those_none.
        intros x I. apply untouched_not_took; [now apply fits_not_took, FK|now apply UK].
    Qed.

    Lemma base_skip r' o' : e_action e = Some ADelete -> look w0 dst (akey e) = Some r' -> nth_error (w_heap w0) r' = Some o' -> o' = o.
    Proof. intros EA E H. pose proof FB as B. unfold ConvRun.base in B. rewrite EA in B. destruct B as (r & E1 & H1). congruence. Qed.

    Lemma finish s5 r o5 b : let w := ss_w s in let w5 := ss_w s5 in
      ready w5 -> moved (eq (akey e)) P w w5 ->
      nth_error (w_heap w5) r = Some o5 -> same_but (hooked e) o o5 ->
      (e_action e = Some ACreate /\ length (w_heap w) <= r) \/ look w dst (akey e) = Some r ->
      match e_action e with
      | Some ADelete => look w5 dst (akey e) = None /\ look w dst (akey e) = Some r /\
                        has_flag (o_flags o) MF_SKIP_CHILDREN_ON_DELETE = false
      | _ => look w5 dst (akey e) = Some r
      end ->
      (exists G, those w5 [e] G /\ par_after P G w w5) -> P <> Some r -> ss_action s5 = e_action e ->
      goes (run_kids kids (Some r) b) s5 Q.
    Proof.
      intros w w5 RD5 M H5 D5 RR LK (GE & TGE & PA) NP EA5. pose proof RD as [G _]. pose proof RD5 as [G5 _].
      assert (UH0 : forall p x k, P = Some p -> In x (children (e_kids e)) -> foot x k -> look w dst k <> Some p).
      { intros p x k EP Hx Fk. apply (UH p k EP). now apply (foot_kid _ _ _ x). }
      assert (UR : forall x k, In x (children (e_kids e)) -> foot x k -> look w5 dst k <> Some r).
      { intros x k Hx Fk E. assert (NK : akey e <> k) by (intros <-; now apply (KI x Hx)).
        assert (CC : look w5 dst (akey e) = Some r \/ look w dst (akey e) = Some r).
        { destruct (e_action e) as [[| |]|]; try (left; exact LK). right. apply LK. }
        destruct CC as [CC|CC]; [now apply NK, (look_inj env da w5 (akey e) k r)|].
        rewrite (mv_look _ _ _ _ _ M k NK) in E. now apply NK, (look_inj env da w (akey e) k r). }
      eapply goes_weak; [apply (kids_run L (fun x Hx => RU x (InL x Hx)) NTL NDL)|].
      - intros x y k Hx Hy. apply DJ; auto.
      - exact RD5.
      - intros x Hx. apply InL in Hx. apply (untouched_moved (eq (akey e)) P w w5 G M x).
        + split; [intros k F <-; now apply (KI x Hx)|]. intros p k EP F. now apply (UH0 p x).
        + intros k F. apply CE. now apply (foot_kid _ _ _ x).
      - exists o5. split; [exact H5|]. split; [destruct D5 as (-> & _); exact OW|]. split.
        + intros x Hx. eapply kid_fits_but; [exact D5|]. now apply KI, InL.
        + intros x k Hx. apply UR. auto.
      - cbv beta. intros s6 r6 (RD6 & M6 & (G6 & TG6 & PA6) & FR6 & AC6 & CA6). fold w5 in M6, PA6. unfold post. fold w.
        assert (NT : ~ (exists x, In x L /\ foot x (akey e))).
        { intros (x & Hx & Fk). now apply (KI x (InL x Hx)). }
        split; [exact RD6|]. split; [|split; [|split; [|split; [|exact CA6]]]].
        + eapply moved_gen; [eapply moved_weak; [| |exact M]; [intros k <-; apply foot_self|auto]| |].
          * eapply moved_weak; [| |exact M6]; [|intros x E; exact E].
            intros k (x & Hx & Fk). apply (foot_kid _ _ _ x); auto.
          * intros x E N. injection E as <-. right. exists (akey e). split; [apply foot_self|].
            destruct RR as [(_ & RR)|RR]; [|exact RR]. apply nth_error_Some in N. lia.
        + exists GE. split.
          { eapply those_look; [|exact TGE]. intros x [<-|[]]. exact (mv_look _ _ _ _ _ M6 _ NT). }
          destruct P as [p|]; [|exact Logic.I]. intros po Hp. destruct (PA po Hp) as (p5 & Hp5 & C5 & V5 & F5 & K5).
          destruct (mv_heap _ _ _ _ _ M6 p p5 Hp5) as (p6 & Hp6 & D1 & D2 & D3 & D4).
          * intros k (x & Hx & Fk). eapply unheld_moved; eauto.
          * intros X. apply NP. now rewrite X.
          * exists p6. split; [exact Hp6|]. repeat split; congruence.
        + apply fr_won; [|intros x Hx; destruct (FR6 x (LIn x Hx)) as (b' & B1 & B2); exists b'; split; [|exact B2];
            intros [SU|(DE & EA)]; apply B1; [exact SU|]; apply AC6; [|exact DE]; intros y Hy; now apply (KI y (InL y Hy))]. unfold won.
          assert (GO : look w5 dst (akey e) = Some r -> exists r0 o', look (ss_w s6) dst (akey e) = Some r0 /\
            nth_error (w_heap (ss_w s6)) r0 = Some o' /\ made_of (ss_w s6) e o' /\ (e_action e = Some ACreate \/ look w0 dst (akey e) = Some r0)).
          { intros LE. destruct (PA6 o5 H5) as (o6 & H6 & C6 & V6 & F6 & K6). exists r, o6.
            split; [rewrite (mv_look _ _ _ _ _ M6 _ NT); exact LE|]. split; [exact H6|].
            split.
            { destruct D5 as (D1 & D2 & D3 & D4 & D7). exists o, G6. split; [exact FB|]. split; [congruence|].
              split; [rewrite V6; exact D7|]. split; [|split; [congruence|split; [eapply those_perm; [exact InIff|exact TG6]|congruence]]].
              unfold get_identifiers, dump_include in *. rewrite C6, V6. exact D4. }
            destruct RR as [(RR & _)|RR]; [now left|right]. etransitivity; [symmetry; exact (proj1 (CE _ (foot_self _ _ _ e)))|exact RR]. }
          destruct (e_action e) as [[| |]|] eqn:EA; auto. destruct LK as (LK1 & LK2 & LK3). split.
          * rewrite (mv_look _ _ _ _ _ M6 _ NT). exact LK1.
          * intros r' o' E H HF. exfalso. rewrite (base_skip r' o' EA E H) in HF. congruence.
        + intros EA. destruct AC6 as (A6 & B6); [intros x Hx; now apply (KI x (InL x Hx))|]. split; [|exact B6]. intros OK6. apply A6; [congruence|exact OK6].
    Qed.

    Lemma finish_incr s4 r o4 b : let w := ss_w s in let w4 := ss_w s4 in
      good w4 -> moved (eq (akey e)) P w w4 -> nth_error (w_heap w4) r = Some o4 -> same_but (hooked e) o o4 ->
      (e_action e = Some ACreate /\ length (w_heap w) <= r) \/ look w dst (akey e) = Some r ->
      match e_action e with
      | Some ADelete => look w4 dst (akey e) = None /\ look w dst (akey e) = Some r /\
                        has_flag (o_flags o) MF_SKIP_CHILDREN_ON_DELETE = false
      | _ => look w4 dst (akey e) = Some r
      end ->
      (exists G, those w4 [e] G /\ par_after P G w w4) -> P <> Some r -> ss_action s4 = e_action e ->
      goes (incr_elements_processed env ;;; run_kids kids (Some r) b) s4 Q.
    Proof.
      intros w w4 G4 M H4 D4 RR LK (GE & TGE & PA) NP EA. eapply goes_step; [apply incr_ends|]. cbv beta.
      intros s5 x5 (EA5 & QU). pose proof (quiet_calm env da (eq (akey e)) _ _ G4 QU) as C5.
      assert (RD4 : ready w4) by (split; [exact G4|]; eapply src_moved; [exact APART|exact M|apply RD]).
      destruct C5 as (G5 & M5 & LK5 & D5) eqn:EC5. clear EC5. destruct (D5 r o4 H4) as (o5 & H5 & DD5).
      apply (finish s5 r o5 b); auto.
      - eapply (ready_calm env da WX APART (eq (akey e)) _ _ RD4). now apply calm_is_but, quiet_calm.
      - eapply moved_trans; [exact M|]. apply moved_none. exact M5.
      - eapply same_but_trans; [exact D4|]. now apply same_data_but.
      - rewrite !LK5. exact LK.
      - exists GE. split; [eapply those_look; [|exact TGE]; intros x _; apply LK5|].
        rewrite <- (app_nil_r GE). eapply par_after_trans; [exact PA|]. apply par_after_data. intros p po _. apply D5.
      - congruence.
    Qed.

    Lemma those_one w : took w e -> those w [e] [e].
    Proof. intros T. split; [repeat constructor; simpl; tauto|]. intros x. split; [intros [<-|[]]; split; [now left|exact T]|tauto]. Qed.
    Lemma those_zero w : ~ took w e -> those w [e] [].
    Proof. intros T. apply those_none. intros x [<-|[]]. exact T. Qed.

    (** the warning after a failure *)
    Lemma warn s2 (b : bool) msg : (forall s6, ss_action s6 = ss_action s2 -> (exists w6, s6 = set_ss_w s2 w6) -> quiet (ss_w s2) (ss_w s6) -> Q s6 (Ok b)) ->
      goes (slog LWarning None msg ;;; ret b) s2 Q.
    Proof.
      intros H. eapply goes_step; [apply slog_ends|]. cbv beta. intros s6 x (w6 & -> & QU). apply goes_ret. apply H; [reflexivity|eauto|exact QU].
    Qed.

    Lemma tail_create s1 : calm env da (eq (akey e)) (ss_w s) (ss_w s1) -> ss_action s1 = e_action e -> ss_class s1 = Some c ->
      e_action e = Some ACreate -> look (ss_w s) dst (akey e) = None -> goes (ConvRun.tail env e P kids None false false) s1 Q.
    Proof.
      intros CA EA1 EC1 EA LN. destruct CA as (G1 & M1 & LK1 & D1). pose proof (mv_len _ _ _ _ _ M1) as LE1.
      destruct (FC EA) as (LN0 & UO & KF). pose proof FB as FB'. unfold ConvRun.base in FB'. rewrite EA in FB'.
      destruct FB' as (c' & HC' & CB). rewrite HC in HC'. injection HC' as <-.
      destruct (create_base_spec _ _ _ _ _ _ CB HU) as (OC & OF & _ & OK & _).
      unfold ConvRun.tail. apply goes_bind. unfold goes at 1. cbn [get_state fst snd]. simpl andb. cbv iota. apply goes_bind, goes_ret, goes_bind.
      assert (EA1' : ss_action s1 = Some ACreate) by congruence.
      eapply goes_weak; [apply (sync_create' env da WX HONEST WRITES (eq (akey e)) P (e_keys e) (plus_attrs e) c o s1 G1 EA1' EC1 CB)|].
      cbv beta. intros s2 x (w2 & -> & G2 & M2 & LK2 & NT2 & HX).
      assert (MM : moved (eq (akey e)) P (ss_w s) w2) by (eapply moved_trans; [apply moved_none; exact M1|exact M2]).
      assert (PD : forall p po, P = Some p -> nth_error (w_heap (ss_w s)) p = Some po -> exists po', nth_error (w_heap w2) p = Some po' /\ same_data po po').
      { intros p po EP Hp. destruct (D1 p po Hp) as (p1 & Hp1 & DP1). exists p1. split; [|exact DP1]. rewrite NT2; [exact Hp1|]. eapply nth_error_Some_lt; eauto. }
      assert (LOSE : forall s6 (r : result bool), ss_action s6 = ss_action s1 -> quiet w2 (ss_w s6) -> ho_end (h (ss_w s1) (HCreate c (e_keys e) (plus_attrs e))) <> HReturn ->
        calmly r -> Q s6 r).
      { intros s6 r6 EA6 QU NH CA6. pose proof (quiet_calm env da (eq (akey e)) _ _ G2 QU) as C6. destruct C6 as (G6 & M6 & LK6 & D6).
        assert (M06 : moved (eq (akey e)) P (ss_w s) (ss_w s6)) by (eapply moved_trans; [exact MM|]; apply moved_none; exact M6).
        apply lose; auto.
        - split; [exact G6|]. eapply src_moved; [exact APART|exact M06|apply RD].
        - apply par_after_data. intros p po EP Hp. destruct (PD p po EP Hp) as (p2 & Hp2 & DP2). destruct (D6 p p2 Hp2) as (p6 & Hp6 & DP6).
          exists p6. split; [exact Hp6|]. eapply same_data_trans; eauto.
        - intros _. unfold lost. rewrite EA. now rewrite LK6, LK2, LK1.
        - now rewrite LK6, LK2, LK1, LN0.
        - exists (ss_w s1), (HCreate c (e_keys e) (plus_attrs e)). split; [|exact NH]. unfold call_of. rewrite EA. auto.
        - congruence. }
      destruct x as [[b [r|]]|x]; cbn [snd fst].
      2: { apply warn. intros s6 EA6 (w6 & ->) QU. apply LOSE; auto. exact Logic.I. }
      2: { destruct HX as (ST & NH). apply LOSE; auto. repeat split. }
      destruct HX as (-> & -> & o2 & H2 & D2).
      apply goes_bind. unfold goes at 1. cbn [get_state fst snd ss_action set_ss_w]. rewrite EA1'.
      assert (NP : P <> Some (length (w_heap (ss_w s1)))).
      { intros X. pose proof (par_lt _ _ _ _ _ _ _ PO X). lia. }
      assert (PO2 : par_ok w2 P [e]).
      { eapply par_ok_data; [exact PO|intros k _; now rewrite LK2, LK1|exact PD]. }
      apply goes_bind, goes_slift. cbn [ss_w set_ss_w]. eapply goes_ends; [apply (apply_create_ends env da w0 e P (ss_w s) w2 (length (w_heap (ss_w s1))) o2 false EA G2)|].
      - exact MM.
      - exact LE1.
      - exact H2.
      - rewrite (same_but_type _ _ _ D2). unfold get_type. now rewrite OC.
      - rewrite (same_but_uid _ _ _ D2). exact UO.
      - intros t f I. destruct D2 as (D21 & D23 & _). rewrite D21, OC in I. rewrite D23, (OK f); [discriminate|].
        apply KF. apply in_map_iff. exists (t, f). auto.
      - now rewrite LK2, LK1.
      - exact PO2.
      - exact NP.
      - cbv beta. intros w4 b (-> & G4 & M4 & PA4 & LK4 & o4 & H4 & D4). simpl negb. rewrite orb_true_r. cbv iota.
        eapply finish_incr; eauto.
        + eapply same_but_trans; [eapply same_but_weak; [|exact D2]|apply same_data_but; exact D4].
          intros k HX. split; [congruence|exact HX].
        + rewrite EA. exact LK4.
        + exists [e]. split; [apply those_one; unfold took; rewrite EA; cbn [ss_w set_ss_w]; congruence|].
          change [e] with (@nil elem ++ [e]). eapply par_after_trans; [|exact PA4]. apply par_after_data. exact PD.
    Qed.

    Lemma tail_keep s1 natural skip r : calm env da (eq (akey e)) (ss_w s) (ss_w s1) -> ss_action s1 = e_action e ->
      e_action e = None \/ e_action e = Some AUpdate -> look (ss_w s) dst (akey e) = Some r -> goes (ConvRun.tail env e P kids (Some r) natural skip) s1 Q.
    Proof.
      intros CA EA1 EA LR. pose proof CA as (G1 & M1 & LK1 & D1). pose proof RD as [G _].
      destruct (CE _ (foot_self _ _ _ e)) as (EK & DK).
      assert (B : exists o1, nth_error (w_heap w0) r = Some o1 /\ setattrs o1 (plus_attrs e) = (o, Ok tt)).
      { pose proof FB as FB'. unfold ConvRun.base in FB'. destruct EA as [EA|EA]; rewrite EA in FB'; destruct FB' as (r' & o1 & L1 & H1 & S1);
          exists o1; (split; [congruence|exact S1]). }
      destruct B as (o1 & H1 & S1). destruct (DK r o1) as (o1w & H1w & D1w); [congruence|exact H1|].
      destruct (D1 r o1w H1w) as (o2 & H2 & D2'). pose proof (same_data_trans _ _ _ D1w D2') as D2.
      destruct (setattrs_same _ _ _ _ D2 S1) as (o3 & S3 & D3).
      assert (NC : e_action e <> Some ACreate) by (destruct EA; congruence).
      assert (NDe : is_delete (e_action e) = false) by (destruct EA as [-> | ->]; reflexivity).
      assert (NP : P <> Some r) by (intros X; now apply (UH r (akey e) X (foot_self _ _ _ e))).
      assert (EC : o_cls o = o_cls o1 /\ o_flags o = o_flags o1 /\ o_kids o = o_kids o1).
      { clear -S1. revert o1 S1. induction (plus_attrs e) as [|[k v] l IH]; intros o1 S1; cbn [setattrs] in S1.
        - now injection S1 as <-.
        - unfold setattr_val in S1. destruct (dmem _ _); [|discriminate]. destruct (IH _ S1) as (A & B & C). auto. }
      assert (RL : obj_rel o2 o3).
      { pose proof (setattrs_rel (plus_attrs e) o2) as R. rewrite S3 in R. apply R. intros k Hk. destruct D2 as (-> & _).
        destruct EC as (<- & _). now apply FN. }
      assert (LR1 : look (ss_w s1) dst (akey e) = Some r) by now rewrite LK1.
      assert (L0 : look w0 dst (akey e) = Some r) by congruence.
      unfold ConvRun.tail. apply goes_bind. unfold goes at 1. cbn [get_state fst snd]. rewrite EA1, NDe, andb_false_r. cbn [andb]. cbv iota.
      apply goes_bind, goes_ret, goes_bind.
      (* after the model *)
      assert (WIN : forall s2 w2 b, s2 = set_ss_w s1 w2 -> good w2 -> moved (eq (akey e)) None (ss_w s1) w2 -> (forall k, look w2 dst k = look (ss_w s1) dst k) ->
        (exists o2, nth_error (w_heap w2) r = Some o2 /\ same_but (hooked e) o o2) ->
        (forall x, x <> r -> nth_error (w_heap w2) x = nth_error (w_heap (ss_w s1)) x) ->
        goes (s0 <- get_state;; stop <- slift (apply_to_store env (ss_action s0) P r skip);;
          (if stop then ret b else incr_elements_processed env;;; (if negb natural || negb (is_delete (ss_action s0)) then run_kids kids (Some r) b else ret b))) s2 Q).
      { intros s2 w2 b -> G2 M2 LK2 (o4 & H4 & D4) NT2. apply goes_bind. unfold goes at 1. cbn [get_state fst snd ss_action set_ss_w]. rewrite EA1.
        assert (AP : apply_to_store env (e_action e) P r skip = ret false).
        { unfold apply_to_store. destruct EA as [-> | ->]; reflexivity. }
        rewrite AP. apply goes_bind, goes_slift, goes_ret. cbv iota. rewrite NDe. simpl negb. rewrite orb_true_r. cbv iota.
        eapply finish_incr; cbn [ss_w set_ss_w ss_action]; eauto.
        - apply moved_none. eapply moved_trans; [exact M1|exact M2].
        - destruct EA as [-> | ->]; now rewrite LK2.
        - exists []. split; [apply those_zero; unfold took; destruct EA as [-> | ->]; auto|]. apply par_after_data. intros p po EP Hp.
          destruct (D1 p po Hp) as (p1 & Hp1 & DP). exists p1. cbn [ss_w set_ss_w]. rewrite NT2; [auto|]. intros ->. contradiction. }
      destruct EA as [EA|EA].
      - eapply goes_ends; [apply sync_none; congruence|]. cbv beta. intros s' x (-> & w' & -> & QU). cbn [snd fst].
        pose proof (quiet_calm env da (eq (akey e)) _ _ G1 QU) as (X1 & X2 & X3 & X4). destruct QU as (Q1 & _ & _).
        apply (WIN _ w'); auto.
        + exists o2. rewrite Q1. split; [exact H2|]. rewrite (plus_none e EA) in S1. cbn in S1. injection S1 as <-. apply same_data_but. exact D2.
        + now rewrite Q1.
      - assert (EA1' : ss_action s1 = Some AUpdate) by congruence.
        eapply goes_weak; [apply (sync_update' env da WX HONEST WRITES (eq (akey e)) (akey e) r o2 o3 (e_keys e) (plus_attrs e) s1 G1 EA1' H2 eq_refl LR1 S3 RL)|].
        cbv beta. intros s2 x (w2 & -> & G2 & M2 & LK2 & NT2 & ob & o4 & OB & H4 & D4 & HX).
        assert (LOSE : forall s6 (r6 : result bool), ss_action s6 = ss_action s1 -> quiet w2 (ss_w s6) -> ho_end (h (ss_w s1) (HUpdate r (plus_attrs e))) <> HReturn ->
          calmly r6 -> Q s6 r6).
        { intros s6 r6 EA6 QU NH CA6. pose proof (quiet_calm env da (eq (akey e)) _ _ G2 QU) as C6. destruct C6 as (G6 & M6 & LK6 & D6).
          assert (M06 : moved (eq (akey e)) P (ss_w s) (ss_w s6)).
          { apply moved_none. eapply moved_trans; [exact M1|]. eapply moved_trans; [exact M2|exact M6]. }
          apply lose; auto.
          - split; [exact G6|]. eapply src_moved; [exact APART|exact M06|apply RD].
          - apply par_after_data. intros p po EP Hp. destruct (D1 p po Hp) as (p1 & Hp1 & DP1).
            assert (Hp2 : nth_error (w_heap w2) p = Some p1) by (rewrite NT2; [exact Hp1|intros ->; contradiction]).
            destruct (D6 p p1 Hp2) as (p6 & Hp6 & DP6). exists p6. split; [exact Hp6|]. eapply same_data_trans; eauto.
          - intros TN. unfold lost. rewrite EA. destruct (D6 r o4 H4) as (o6 & H6 & DO6). exists r, o1, o6.
            split; [exact L0|]. split; [exact H1|]. split; [now rewrite LK6, LK2|]. split; [exact H6|].
            assert (DW : exists ob', (ob' = o1 \/ base e ob') /\ same_but (hooked e) ob' o6).
            { assert (D46 : same_but (hooked e) ob o6).
              { eapply same_but_trans; [eapply same_but_weak; [|exact D4]|apply same_data_but; exact DO6]. intros k HXk. split; [congruence|exact HXk]. }
              destruct OB as [-> | ->].
              - exists o1. split; [now left|]. eapply same_but_trans; [apply same_data_but; exact D2|exact D46].
              - exists o. split; [right; exact FB|]. eapply same_but_trans; [apply same_data_but; exact D3|exact D46]. }
            destruct DW as (ob' & OB' & Y1 & Y2 & Y3 & Y4 & Y5).
            assert (SO : o_cls ob' = o_cls o1 /\ o_flags ob' = o_flags o1 /\ o_kids ob' = o_kids o1 /\ get_identifiers ob' = get_identifiers o1).
            { destruct OB' as [-> |OB']; [repeat split|].
              unfold ConvRun.base in OB'. rewrite EA in OB'. destruct OB' as (r' & o1' & Z1 & Z2 & Z3).
              assert (o1' = o1) by congruence. subst o1'. assert (ob' = o) by congruence. subst ob'. destruct EC as (EC1 & B & C). repeat (split; [assumption|]).
              clear -S1 FN NC EC1. unfold get_identifiers, dump_include. rewrite EC1.
              assert (NI : forall k, In k (dkeys (plus_attrs e)) -> ~ In k (c_identifiers (o_cls o1))) by (rewrite <- EC1; auto).
              clear FN NC EC1. revert o1 S1 NI. induction (plus_attrs e) as [|[k v] l IH]; intros o1 S1 NI; cbn [setattrs] in S1.
              - now injection S1 as <-.
              - unfold setattr_val in S1. destruct (dmem (o_vals o1) k) eqn:DM; [|discriminate].
                specialize (IH _ S1). cbn [set_o_vals o_cls o_vals] in IH. rewrite IH; [|intros k' I; apply NI; now right].
                apply dmem_In in DM.
                apply (vals_but_filter (fun x => x = k)); [apply vals_but_dset; auto|]. intros x I ->. apply (NI k); [now left|exact I]. }
            destruct SO as (Z1 & Z2 & Z3 & Z4). exists ob', []. split; [exact OB'|]. split; [congruence|]. split; [exact Y5|]. split; [congruence|]. split; [congruence|].
            split; [exact TN|]. cbn [fold_left]. congruence.
          - rewrite LK6, LK2, LR1. symmetry. exact L0.
          - exists (ss_w s1), (HUpdate r (plus_attrs e)). split; [|exact NH]. unfold call_of. rewrite EA. auto.
          - congruence. }
        destruct x as [[b [r'|]]|x]; cbn [snd fst].
        + destruct HX as (-> & -> & ->). apply (WIN _ w2); auto. exists o4. split; [exact H4|].
          eapply same_but_trans; [apply same_data_but; exact D3|]. eapply same_but_weak; [|exact D4]. intros k HX. split; [congruence|exact HX].
        + apply warn. intros s6 EA6 (w6 & ->) QU. apply LOSE; auto. exact Logic.I.
        + destruct HX as (ST & NH). apply LOSE; auto. repeat split.
    Qed.

    Lemma del_obj s1 : calm env da (eq (akey e)) (ss_w s) (ss_w s1) -> e_action e = Some ADelete ->
      exists r o1, look (ss_w s) dst (akey e) = Some r /\ look w0 dst (akey e) = Some r /\ nth_error (w_heap w0) r = Some o /\
        nth_error (w_heap (ss_w s1)) r = Some o1 /\ same_data o o1 /\ P <> Some r.
    Proof.
      intros (G1 & M1 & LK1 & D1) EA. destruct (CE _ (foot_self _ _ _ e)) as (EK & DK).
      pose proof FB as FB'. unfold ConvRun.base in FB'. rewrite EA in FB'. destruct FB' as (r & L1 & H1).
      destruct (DK r o L1 H1) as (ow & Hw & Dw). destruct (D1 r ow Hw) as (o1 & Ho1 & D2). exists r, o1.
      split; [congruence|]. split; [exact L1|]. split; [exact H1|]. split; [exact Ho1|]. split; [eapply same_data_trans; eauto|].
      intros X. apply (UH r (akey e) X (foot_self _ _ _ e)). congruence.
    Qed.

    (** the delete hook failed, before the children had a turn *)
    Lemma lose_delete s1 w2 r o1 s6 (r6 : result bool) : calm env da (eq (akey e)) (ss_w s) (ss_w s1) -> e_action e = Some ADelete ->
      look (ss_w s) dst (akey e) = Some r -> look w0 dst (akey e) = Some r -> nth_error (w_heap w0) r = Some o ->
      nth_error (w_heap (ss_w s1)) r = Some o1 -> same_data o o1 -> P <> Some r ->
      calm_but env da WX (eq (akey e)) (ss_w s1) w2 -> (forall x, x <> r -> nth_error (w_heap w2) x = nth_error (w_heap (ss_w s1)) x) ->
      quiet w2 (ss_w s6) -> ss_action s6 = Some ADelete -> ho_end (h (ss_w s1) (HDelete r)) <> HReturn -> calmly r6 -> Q s6 r6.
    Proof.
      intros CA EA LR L0 H0 H1 DO NP C2 NT2 QU EA6 NH CA6. pose proof CA as (G1 & M1 & LK1 & D1). pose proof C2 as (G2 & M2 & LK2 & D2).
      pose proof (quiet_calm env da (eq (akey e)) _ _ G2 QU) as C6. destruct C6 as (G6 & M6 & LK6 & D6).
      assert (M06 : moved (eq (akey e)) P (ss_w s) (ss_w s6)).
      { apply moved_none. eapply moved_trans; [exact M1|]. eapply moved_trans; [exact M2|exact M6]. }
      apply lose; auto.
      - split; [exact G6|]. eapply src_moved; [exact APART|exact M06|apply RD].
      - apply par_after_data. intros p po EP Hp. destruct (D1 p po Hp) as (p1 & Hp1 & DP1).
        assert (Hp2 : nth_error (w_heap w2) p = Some p1) by (rewrite NT2; [exact Hp1|intros ->; contradiction]).
        destruct (D6 p p1 Hp2) as (p6 & Hp6 & DP6). exists p6. split; [exact Hp6|]. eapply same_data_trans; eauto.
      - intros TN. unfold lost. rewrite EA. destruct (D2 r o1 H1) as (o2 & H2 & DO2). destruct (D6 r o2 H2) as (o6 & H6 & DO6). exists r, o, o6.
        split; [exact L0|]. split; [exact H0|]. split; [rewrite LK6, LK2, LK1; exact LR|]. split; [exact H6|].
        assert (DD : same_but (hooked e) o o6).
        { eapply same_but_trans; [apply same_data_but; exact DO|]. eapply same_but_trans; [eapply same_but_weak; [|exact DO2]|apply same_data_but; exact DO6].
          intros k HX. split; [congruence|exact HX]. }
        destruct DD as (Y1 & Y2 & Y3 & Y4 & Y5). exists o, []. split; [now left|]. split; [congruence|]. split; [exact Y5|]. split; [congruence|]. split; [congruence|].
        split; [exact TN|]. cbn [fold_left]. congruence.
      - rewrite LK6, LK2, LK1. congruence.
      - exists (ss_w s1), (HDelete r). split; [|exact NH]. unfold call_of. rewrite EA. exact L0.
    Qed.

    Lemma won_below w : e_action e = Some ADelete -> (forall k, reaches w0 dst (akey e) k -> look w dst k = None) ->
      forall x, In x (elem_all e) -> fared w true x.
    Proof.
      intros EA LN x. pose proof (fits_below env da w0 e FI EA) as SUB.
      induction x as [x IH] using elem_ind'. intros Hx. destruct (SUB x Hx) as (EX & RX). apply fr_won.
      - unfold won. rewrite EX. split; [now apply LN|]. intros rx ox _ _ _ k RK. apply LN. eapply reaches_trans; eauto.
      - intros y Hy. exists true. split; [auto|]. pose proof Hy as Hy'. apply In_children in Hy' as (t & g & n & Hg & Hn). eapply IH; eauto.
        eapply elem_all_trans; [|exact Hx]. now apply kid_all.
    Qed.

    Lemma tail_cascade s1 natural r o1 : calm env da (eq (akey e)) (ss_w s) (ss_w s1) -> ss_action s1 = e_action e ->
      e_action e = Some ADelete -> look (ss_w s) dst (akey e) = Some r -> look w0 dst (akey e) = Some r -> nth_error (w_heap w0) r = Some o ->
      nth_error (w_heap (ss_w s1)) r = Some o1 -> same_data o o1 -> P <> Some r ->
      has_flag (o_flags o) MF_SKIP_CHILDREN_ON_DELETE = true ->
      goes (ConvRun.tail env e P kids (Some r) natural true) s1 Q.
    Proof.
      intros CA EA1 EA LR L0 H0 H1 DO NP SK. pose proof CA as (G1 & M1 & LK1 & D1).
      assert (LR1 : look (ss_w s1) dst (akey e) = Some r) by now rewrite LK1.
      assert (EA1' : ss_action s1 = Some ADelete) by congruence.
      unfold ConvRun.tail. apply goes_bind. unfold goes at 1. cbn [get_state fst snd]. rewrite andb_false_r. apply goes_bind, goes_ret, goes_bind.
      eapply goes_weak; [apply (sync_delete' env da WX WRITES (eq (akey e)) (akey e) r o1 (e_keys e) (plus_attrs e) s1 G1 EA1' H1 eq_refl LR1)|].
      cbv beta. intros s2 x (w2 & -> & C2 & NT2 & HX). destruct x as [[b [r'|]]|x]; cbn [snd fst].
      2: { apply warn. intros s6 EA6 (w6 & ->) QU. eapply lose_delete; eauto. exact Logic.I. }
      2: { destruct HX as (ST & NH). eapply lose_delete; eauto. repeat split. }
      destruct HX as (-> & ->). pose proof (calm_but_trans _ _ _ _ _ _ _ (calm_is_but _ _ WX _ _ _ CA) C2) as C02.
      pose proof C02 as (G2 & M2 & LK2 & D2). apply goes_bind. unfold goes at 1. cbn [get_state fst snd ss_action set_ss_w]. rewrite EA1'.
      apply goes_bind, goes_slift. cbn [ss_w set_ss_w].
      destruct C2 as (_ & _ & _ & D12). destruct (D12 r o1 H1) as (o2 & H2 & _).
      destruct (FD EA) as (DP & CL).
      eapply goes_ends; [apply (apply_cascade_ends env da w0 e P w2 r o2 EA G2)|].
      - now rewrite LK2.
      - exact H2.
      - eapply par_ok_calm; eauto.
      - exact K0.
      - intros k Fk. eapply linked_calm; [apply cell_linked; now apply CE|exact C02].
      - exact DP.
      - exact CL.
      - split; [exact EA|]. eauto.
      - cbv beta. intros w4 b (-> & G4 & M4 & PA4 & LN4). cbv iota. apply goes_ret. unfold post. cbn [ss_w ss_action set_ss_w].
        assert (M04 : moved (foot e) P (ss_w s) w4).
        { eapply moved_trans; [eapply moved_weak; [| |exact M2]; [intros k <-; apply foot_self|discriminate]|exact M4]. }
        split; [split; [exact G4|eapply src_moved; [exact APART|exact M04|apply RD]]|]. split; [exact M04|]. split; [|split; [|split; [split; auto|exact Logic.I]]].
        + exists [e]. split; [apply those_one; unfold took; rewrite EA; apply LN4, reach_self|].
          change [e] with (@nil elem ++ [e]). eapply par_after_trans; [eapply par_after_calm; [apply RD|exact C02|exact LR|exact NP]|exact PA4].
        + apply won_below; auto. destruct e; now left.
    Qed.

    Lemma tail_delete s1 natural r o1 : calm env da (eq (akey e)) (ss_w s) (ss_w s1) -> ss_action s1 = e_action e ->
      e_action e = Some ADelete -> look (ss_w s) dst (akey e) = Some r -> look w0 dst (akey e) = Some r -> nth_error (w_heap w0) r = Some o ->
      nth_error (w_heap (ss_w s1)) r = Some o1 ->
      same_data o o1 -> P <> Some r -> has_flag (o_flags o) MF_SKIP_CHILDREN_ON_DELETE = false ->
      natural = has_flag (o_flags o) MF_NATURAL_DELETION_ORDER ->
      goes (ConvRun.tail env e P kids (Some r) natural false) s1 Q.
    Proof.
      intros CA EA1 EA LR L0 H0 H1 DO NP SK NAT. pose proof CA as (G1 & M1 & LK1 & D1). pose proof RD as [G0 _].
      assert (LR1 : look (ss_w s1) dst (akey e) = Some r) by now rewrite LK1.
      assert (EA1' : ss_action s1 = Some ADelete) by congruence.
      unfold ConvRun.tail. apply goes_bind. unfold goes at 1. cbn [get_state fst snd]. rewrite EA1'. cbn [is_delete negb]. rewrite andb_true_r. rewrite andb_true_r.
      destruct natural; cbv iota.
      - (* children first *)
        assert (BN : by_nature e) by (split; [exact EA|]; exists r, o; auto).
        assert (RD1 : ready (ss_w s1)) by (eapply (ready_calm env da WX APART); [exact RD|apply calm_is_but; exact CA]).
        assert (NF : ~ (exists x, In x L /\ foot x (akey e))) by (intros (x & Hx & Fx); now apply (KI x (InL x Hx))).
        assert (UR : forall k, (exists x, In x L /\ foot x k) -> look (ss_w s1) dst k <> Some r).
        { intros k Fk E. apply NF. now rewrite (look_inj env da _ _ _ _ G1 LR1 E). }
        assert (PO1 : par_ok (ss_w s1) P [e]) by (eapply par_ok_calm; [exact PO|apply calm_is_but; exact CA]).
        apply goes_bind. eapply goes_weak; [apply (kids_run L (fun x Hx => RU x (InL x Hx)) NTL NDL)|].
        + intros x y k Hx Hy. apply DJ; auto.
        + exact RD1.
        + intros x Hx k Fx. eapply cell_calm; [|exact CA]. apply CE. apply (foot_kid _ _ _ x); auto.
        + exists o1. split; [exact H1|]. split; [destruct DO as (-> & _); exact OW|]. split.
          * intros x Hx. eapply kid_fits_same; [exact DO|]. now apply KI, InL.
          * intros x k Hx Fx. apply UR. eauto.
        + cbv beta. intros s2 r2 (RD2 & M2 & (GE & TGE & PA2) & FR2 & AC2 & CA2). pose proof RD2 as [G2 _].
          assert (LR2 : look (ss_w s2) dst (akey e) = Some r) by (rewrite (mv_look _ _ _ _ _ M2 _ NF); exact LR1).
          destruct (PA2 o1 H1) as (o2 & H2 & C2 & V2 & F2 & K2). clear PA2.
          assert (PD2 : forall p po, P = Some p -> nth_error (w_heap (ss_w s)) p = Some po ->
            exists po', nth_error (w_heap (ss_w s2)) p = Some po' /\ same_data po po').
          { intros p po EP Hp. destruct (D1 p po Hp) as (p1 & Hp1 & DP1). destruct (mv_heap _ _ _ _ _ M2 p p1 Hp1) as (p2 & Hp2 & DP2).
            - intros k (x & Hx & Fx). rewrite EP in PO1. destruct PO1 as (_ & _ & _ & _ & UH1).
              apply (UH1 e k); [now left|]. apply (foot_kid _ _ _ x); auto.
            - intros X. apply NP. now rewrite X.
            - exists p2. split; [exact Hp2|]. eapply same_data_trans; eauto. }
          assert (M02 : moved (foot e) P (ss_w s) (ss_w s2)).
          { eapply (moved_gen dst (foot e) P (Some r)); [eapply moved_weak; [| |exact M1]; [intros k <-; apply foot_self|discriminate]| |].
            - eapply moved_weak; [| |exact M2]; [|auto]. intros k (x & Hx & Fx). apply (foot_kid _ _ _ x); auto.
            - intros x E N. injection E as <-. right. exists (akey e). split; [apply foot_self|exact LR]. }
          assert (UHP : forall p k, P = Some p -> foot e k -> look (ss_w s2) dst k <> Some p).
          { intros p k EP Fk. rewrite EP in PO1. destruct PO1 as (po & Hp & _ & _ & UH1).
            eapply (unheld_moved env FUEL APART); [exact M2|exact Hp|]. apply (UH1 e k); [now left|exact Fk]. }
          assert (NAT6 : forall s6 (r6 : result bool) o6, ready (ss_w s6) -> moved (eq (akey e)) P (ss_w s2) (ss_w s6) ->
            par_after P [] (ss_w s) (ss_w s6) -> look (ss_w s6) dst (akey e) = Some r -> nth_error (w_heap (ss_w s6)) r = Some o6 -> same_but (hooked e) o2 o6 ->
            ss_action s6 = Some ADelete \/ oks r6 = false -> (sure (oks r6) e -> oks r2 = true /\ fails e) -> calmly r6 -> Q s6 r6).
          { intros s6 r6 o6 RD6 M6 PA6 LR6 H6 (Y1 & Y2 & Y3 & Y4 & Y5) AC6 FL CA6.
            assert (SPK : forall y, In y (children (e_kids e)) -> forall b, fared (ss_w s2) b y -> fared (ss_w s6) b y).
            { intros y Hy b. apply (fared_moved (eq (akey e)) P (ss_w s2) (ss_w s6) G2 M6). split.
              - intros k Fk <-. apply NF. exists y. split; [now apply LIn|exact Fk].
              - intros p k EP Fk. apply (UHP p k EP). apply (foot_kid _ _ _ y); auto. }
            split; [exact RD6|]. split; [eapply moved_trans; [exact M02|]; eapply moved_weak; [| |exact M6]; [intros k <-; apply foot_self|auto]|].
            split; [exists []; split; [apply those_zero; unfold took; rewrite EA, LR6; discriminate|exact PA6]|].
            split; [|split; [|exact CA6]].
            - apply fr_nature.
              + unfold lost. rewrite EA. exists r, o, o6. repeat (split; [assumption|]). exists o, GE. split; [now left|]. destruct DO as (E1 & E2 & E3 & E4).
                split; [congruence|]. split; [rewrite <- E2, <- V2; exact Y5|]. split.
                { rewrite Y4. unfold get_identifiers, dump_include. rewrite C2, V2, E1, E2. reflexivity. }
                split; [congruence|]. split.
                { eapply those_look; [|eapply those_perm; [exact InIff|exact TGE]]. intros x Hx. apply (mv_look _ _ _ _ _ M6).
                  intros X. apply NF. exists x. split; [now apply LIn|]. rewrite X. apply foot_self. }
                rewrite Y2, K2, E1, E3. reflexivity.
              + exact BN.
              + intros B. now apply FL.
              + intros x Hx. destruct (FR2 x (LIn x Hx)) as (b' & B1 & B2). exists b'. split; [|now apply SPK]. intros B. apply B1, FL. now left.
            - intros _. split; [intros B; destruct AC6 as [AC6|AC6]; [exact AC6|congruence]|].
              intros DE. elim (dels_fails e DE EA). apply FL. right. auto. }
          destruct r2 as [b2|x2].
          2: { eapply NAT6; eauto.
            - apply moved_refl.
            - apply par_after_data. exact PD2.
            - apply same_but_refl.
            - intros [SU|(DE & _)]; [discriminate|]. cbn [oks] in AC2. destruct AC2 as (_ & B2); [intros x Hx; now apply (KI x (InL x Hx))|]. now specialize (B2 DE). }
          assert (EA2 : ss_action s2 = Some ADelete).
          { apply AC2; [|exact EA1'|reflexivity]. intros x Hx. now apply (KI x (InL x Hx)). }
          apply goes_bind. eapply goes_weak;
            [apply (sync_delete' env da WX WRITES (eq (akey e)) (akey e) r o2 (e_keys e) (plus_attrs e) s2 G2 EA2 H2 eq_refl LR2)|].
          cbv beta. intros s3 x (w3 & -> & C3 & NT3 & HX). pose proof C3 as (G3 & M3 & LK3 & D3). 
          destruct (D3 r o2 H2) as (o3 & H3 & DO3).
          assert (PD : forall p po, P = Some p -> nth_error (w_heap (ss_w s)) p = Some po ->
            exists po', nth_error (w_heap w3) p = Some po' /\ same_data po po').
          { intros p po EP Hp. destruct (PD2 p po EP Hp) as (p2 & Hp2 & DP2). exists p2. rewrite NT3; [auto|]. intros ->. contradiction. }
          assert (LOSE : forall s6 (r6 : result bool), quiet w3 (ss_w s6) -> ss_action s6 = Some ADelete -> ho_end (h (ss_w s2) (HDelete r)) <> HReturn -> calmly r6 -> Q s6 r6).
          { intros s6 r6 QU EA6 NH CA6. pose proof (quiet_calm env da (eq (akey e)) _ _ G3 QU) as (G6 & M6 & LK6 & D6). destruct (D6 r o3 H3) as (o6 & H6 & DO6).
            assert (M26 : moved (eq (akey e)) None (ss_w s2) (ss_w s6)) by (eapply moved_trans; [exact M3|exact M6]).
            eapply NAT6; eauto.
            - split; [exact G6|]. eapply src_moved; [exact APART|exact M26|apply RD2].
            - now apply moved_none.
            - apply par_after_data. intros p po EP Hp. destruct (PD p po EP Hp) as (p3 & Hp3 & DP3). destruct (D6 p p3 Hp3) as (p6 & Hp6 & DP6).
              exists p6. split; [exact Hp6|]. eapply same_data_trans; eauto.
            - rewrite LK6, LK3. exact LR2.
            - eapply same_but_trans; [eapply same_but_weak; [|exact DO3]|apply same_data_but; exact DO6]. intros k HX'. split; [congruence|exact HX'].
            - intros _. split; [reflexivity|]. exists (ss_w s2), (HDelete r). split; [|exact NH]. unfold call_of. rewrite EA. exact L0. }
          destruct x as [[b [r'|]]|x]; cbn [snd fst].
          2: { apply warn. intros s6 EA6 (w6 & ->) QU. apply LOSE; auto; try exact Logic.I. }
          2: { destruct HX as (ST & NH). apply LOSE; auto. repeat split. }
          destruct HX as (-> & ->).
          apply goes_bind. unfold goes at 1. cbn [get_state fst snd ss_action set_ss_w]. rewrite EA2. apply goes_bind, goes_slift. cbn [ss_w set_ss_w].
          assert (PO3 : par_ok w3 P [e]).
          { destruct P as [p|]; [|exact Logic.I]. destruct PO as (po & Hp & OWp & KF & UH1).
            destruct (PD p po eq_refl Hp) as (p3 & Hp3 & DP3). exists p3. split; [exact Hp3|].
            split; [destruct DP3 as (-> & _); exact OWp|]. split; [intros x Hx; eapply kid_fits_same; eauto|].
            intros x k [<-|[]] Fx. rewrite LK3. now apply UHP. }
          assert (LR3 : look w3 dst (akey e) = Some r) by now rewrite LK3.
          eapply goes_ends; [apply (apply_delete_ends env da w0 FUEL e P w3 r o3 EA G3 LR3 H3 PO3)|].
          cbv beta. intros w4 b (-> & G4 & M4 & PA4 & LN4 & _). cbn [negb orb is_delete].
          eapply goes_step; [apply incr_ends|]. cbv beta. cbn [ss_w ss_action set_ss_w]. intros s5 x5 (EA5 & QU).
          apply goes_ret. pose proof (quiet_calm env da (eq (akey e)) _ _ G4 QU) as (G5 & M5 & LK5 & D5).
          assert (M25 : moved (eq (akey e)) P (ss_w s2) (ss_w s5)).
          { eapply moved_trans; [apply moved_none; exact M3|]. eapply moved_trans; [exact M4|]. apply moved_none. exact M5. }
          assert (M05 : moved (foot e) P (ss_w s) (ss_w s5)).
          { eapply moved_trans; [exact M02|]. eapply moved_weak; [| |exact M25]; [intros k <-; apply foot_self|auto]. }
          unfold post. split; [split; [exact G5|eapply src_moved; [exact APART|exact M05|apply RD]]|]. split; [exact M05|].
          split; [|split; [|split; [intros _; split; [intros _; congruence|reflexivity]|exact Logic.I]]].
          * exists [e]. split; [apply those_one; unfold took; rewrite EA; now rewrite LK5|].
            change [e] with (@nil elem ++ [e] ++ []). eapply par_after_trans; [|eapply par_after_trans; [exact PA4|]].
            -- apply par_after_data. exact PD.
            -- apply par_after_data. intros p po _. apply D5.
          * apply fr_won.
            -- unfold won. rewrite EA. split; [now rewrite LK5|].
               intros r' o' E H HF. exfalso. rewrite (base_skip r' o' EA E H) in HF. congruence.
            -- intros y Hy. destruct (FR2 y (LIn y Hy)) as (b' & B1 & B2). exists b'. split; [intros _; now apply B1|].
               apply (fared_moved (eq (akey e)) P (ss_w s2) (ss_w s5) G2 M25); [|exact B2]. split.
               ++ intros k Fk <-. apply NF. exists y. split; [now apply LIn|exact Fk].
               ++ intros p k EP Fk. apply (UHP p k EP). apply (foot_kid _ _ _ y); auto.
      - (* children afterwards *)
        apply goes_bind, goes_ret, goes_bind.
        eapply goes_weak; [apply (sync_delete' env da WX WRITES (eq (akey e)) (akey e) r o1 (e_keys e) (plus_attrs e) s1 G1 EA1' H1 eq_refl LR1)|].
        cbv beta. intros s2 x (w2 & -> & C2 & NT2 & HX). destruct x as [[b [r'|]]|x]; cbn [snd fst].
        2: { apply warn. intros s6 EA6 (w6 & ->) QU. eapply lose_delete; eauto. exact Logic.I. }
        2: { destruct HX as (ST & NH). eapply lose_delete; eauto. repeat split. }
        destruct HX as (-> & ->). pose proof (calm_but_trans _ _ _ _ _ _ _ (calm_is_but _ _ WX _ _ _ CA) C2) as C02.
        pose proof C02 as (G2 & M2 & LK2 & D2). apply goes_bind. unfold goes at 1. cbn [get_state fst snd ss_action set_ss_w]. rewrite EA1'.
        apply goes_bind, goes_slift. cbn [ss_w set_ss_w].
        destruct C2 as (_ & _ & _ & D12). destruct (D12 r o1 H1) as (o2 & H2 & DO2).
        assert (LR2 : look w2 dst (akey e) = Some r) by now rewrite LK2.
        eapply goes_ends; [apply (apply_delete_ends env da w0 FUEL e P w2 r o2 EA G2 LR2 H2)|]; [eapply par_ok_calm; eauto|].
        cbv beta. intros w4 b (-> & G4 & M4 & PA4 & LN4 & o4 & H4 & D4). cbn [negb orb is_delete].
        eapply finish_incr; cbn [ss_w set_ss_w ss_action]; eauto.
        + eapply moved_trans; [apply moved_none; exact M2|exact M4].
        + eapply same_but_trans; [apply same_data_but; exact DO|].
          eapply same_but_trans; [eapply same_but_weak; [|exact DO2]|apply same_data_but; exact D4].
          intros k HX. split; [congruence|exact HX].
        + rewrite EA. auto.
        + exists [e]. split; [apply those_one; unfold took; rewrite EA; exact LN4|].
          change [e] with (@nil elem ++ [e]). eapply par_after_trans; [eapply par_after_calm; [apply RD|exact C02|exact LR|exact NP]|exact PA4].
    Unshelve. exact WX.
    Qed.
  End One.

  Lemma prefix e P kids s c Q : ready (ss_w s) ->
    dget (ad_classes da) (e_type e) = Some c -> c_modelname c = e_type e -> create_unique_id c (e_keys e) = Ok (snd (akey e)) ->
    (forall s1 natural skip, calm env da (eq (akey e)) (ss_w s) (ss_w s1) -> ss_action s1 = e_action e -> ss_class s1 = Some c ->
       match look (ss_w s) dst (akey e) with
       | None => natural = false /\ skip = false
       | Some r => exists o, nth_error (w_heap (ss_w s1)) r = Some o /\ natural = has_flag (o_flags o) MF_NATURAL_DELETION_ORDER /\
                     skip = has_flag (o_flags o) MF_SKIP_CHILDREN_ON_DELETE
       end -> goes (ConvRun.tail env e P kids (look (ss_w s) dst (akey e)) natural skip) s1 Q) ->
    goes (sync_body env e P kids) s Q.
  Proof.
    intros RD HC HN HU GO. pose proof RD as [G SRC]. pose proof G as (LO & K & st & AD).
    unfold sync_body. apply goes_bind, goes_slift. unfold goes at 1.
    replace (get_adapter dst (ss_w s)) with (ss_w s, Ok (set_ad_store da st)) by (unfold get_adapter; now rewrite AD). cbn [fst snd]. cbn [ad_classes set_ad_store]. apply goes_bind. rewrite HC. unfold goes at 1. cbn [lift fst snd].
    apply goes_bind. unfold goes at 1. cbn [modify fst snd]. apply goes_bind. rewrite HU. unfold goes at 1. cbn [lift fst snd]. apply goes_bind. unfold goes at 1. cbn [modify fst snd].
    cbn [ss_w ss_n ss_action ss_class ss_ctx set_ss_w].
    apply goes_bind, goes_slift. cbn [ss_w].
    destruct (nth_error (w_ads (ss_w s)) (sv_src env)) as [sad|] eqn:ES; [|congruence].
    eapply goes_ends; [apply (get_or_none_ends _ _ _ _ _ _ ES HU)|]. cbv beta. intros wa xa RO.
    apply goes_bind, goes_slift. cbn [ss_w set_ss_w].
    assert (KE : akey e = (c_modelname c, snd (akey e))).
    { rewrite (surjective_pairing (akey e)) at 1. f_equal. now rewrite HN. }
    pose proof (calm_ro env da (eq (akey e)) _ _ G RO) as CA.
    eapply goes_ends; [apply (get_dst_ends env da (eq (akey e)) c (e_keys e) _ wa (calm_good _ _ _ _ _ CA) HU KE)|].
    cbv beta. intros wb dm (EDM & CB). pose proof (calm_trans _ _ _ _ _ _ CA CB) as C1. clear CB.
    assert (EDM' : dm = look (ss_w s) dst (akey e)).
    { rewrite EDM. destruct CA as (_ & _ & LK & _). rewrite <- LK. unfold look. change (fst (akey e)) with (e_type e). now rewrite HN. }
    clear EDM. subst dm. destruct C1 as (G1 & M1 & LK1 & D1).
    assert (GF : forall f, ends (model_flag (look (ss_w s) dst (akey e)) f) wb (fun w' b => w' = wb /\
      match look (ss_w s) dst (akey e) with
      | None => b = false
      | Some r => exists o, nth_error (w_heap wb) r = Some o /\ b = has_flag (o_flags o) f
      end)).
    { intros f. unfold model_flag. destruct (look (ss_w s) dst (akey e)) as [r|] eqn:EL; [|apply ends_ret; auto].
      destruct (look_obj env da _ _ _ G EL) as (o & Ho & _). destruct (D1 r o Ho) as (o1 & Ho1 & _). apply ends_bind.
      eapply ends_eq; [apply (hget_eq _ _ _ Ho1)|]. apply ends_ret. split; [reflexivity|]. exists o1. auto. }
    apply goes_bind, goes_slift. cbn [ss_w set_ss_w]. eapply goes_ends; [apply GF|]. cbv beta. intros w1 nat (-> & HNat).
    apply goes_bind, goes_slift. cbn [ss_w set_ss_w]. eapply goes_ends; [apply GF|]. cbv beta. intros w1 skip (-> & HSk).
    apply GO; try reflexivity; [split; [exact G1|]; split; [exact M1|]; split; [exact LK1|exact D1]|].
    destruct (look (ss_w s) dst (akey e)) as [r|]; [|auto]. destruct HNat as (o & Ho & ->). destruct HSk as (o' & Ho' & ->).
    exists o. split; [exact Ho|]. split; [reflexivity|]. cbn [ss_w set_ss_w] in *. congruence.
  Qed.

  Lemma run_one e : fits e -> keyed w0 dst -> (forall x, In x (children (e_kids e)) -> runs x) -> runs e.
  Proof.
    intros FI K0 RU P s RD CE PO. inversion FI as [e' c o HC HN HU FB OW FC FN FD ND DJ KI FK]; subst e'.
    rewrite sync_elem_eq, ordered_map. eapply prefix; eauto. intros s1 natural skip CA EA1 EC1 FL.
    change (goes (ConvRun.tail env e P (map (sync_elem ord env) (ordered ord (fun x => x) (e_kids e))) (look (ss_w s) dst (akey e)) natural skip) s1
      (post e P s)).
    destruct (CE _ (foot_self _ _ _ e)) as (EK & DK).
    assert (KEEP : e_action e = None \/ e_action e = Some AUpdate -> exists r, look (ss_w s) dst (akey e) = Some r).
    { intros EA. unfold ConvRun.base in FB. destruct EA as [EA|EA]; rewrite EA in FB; destruct FB as (r & o1 & L1 & _); exists r; congruence. }
    assert (AC : e_action e = Some ACreate \/ (e_action e = None \/ e_action e = Some AUpdate) \/ e_action e = Some ADelete).
    { destruct (e_action e) as [[| |]|]; auto. }
    destruct AC as [EA|[EA|EA]].
    - destruct (FC EA) as (LN & _). rewrite <- EK in LN. rewrite LN in *. destruct FL as [-> ->]. eapply tail_create; eauto.
    - destruct (KEEP EA) as (r & LR). rewrite LR. eapply tail_keep; eauto.
    - destruct (del_obj e o FB P s CE PO s1 CA EA) as (r & o1 & LR & L0 & H0 & H1 & DO & NP). rewrite LR in *.
      destruct FL as (o1' & H1' & -> & ->). rewrite H1 in H1'. injection H1' as <-.
      assert (FE : o_flags o1 = o_flags o) by apply DO. rewrite FE.
      destruct (has_flag (o_flags o) MF_SKIP_CHILDREN_ON_DELETE) eqn:SK.
      + eapply tail_cascade; eauto.
      + eapply tail_delete; eauto.
  Qed.

  Lemma elem_runs e : fits e -> keyed w0 dst -> runs e.
  Proof.
    induction e as [e IH] using elem_ind'. intros FI K0. apply run_one; auto. intros x Hx.
    inversion FI as [e' c o HC HN HU FB OW FC FN FD ND DJ KI FK]; subst e'.
    pose proof Hx as Hx'. apply In_children in Hx' as (t & g & n & Hg & Hn). eapply IH; eauto.
  Qed.
End Run.
