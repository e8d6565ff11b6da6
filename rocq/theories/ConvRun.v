(** * ConvRun: a synchronisation whose hooks succeed, of a diff that fits the
    destination, runs to its end and does exactly what the elements say. *)
From Verif Require Export ConvModel.

Lemma get_or_none_ends a c ids u w ad : nth_error (w_ads w) a = Some ad -> create_unique_id c ids = Ok u ->
  ends (ad_get_or_none a (MClass c) (IdDict ids)) w (fun w' _ => read_only w w').
Proof.
  intros E HU. pose proof (ro_get_or_none a (MClass c) (IdDict ids) w) as R.
  destruct (ad_get_or_none a (MClass c) (IdDict ids) w) as [w' x] eqn:EQ. simpl in R.
  assert (X : exists v, x = Ok v).
  { unfold ad_get_or_none, try_catch, bind, st_get, get_adapter in EQ. unfold bind in EQ. rewrite E in EQ.
    unfold lift in EQ. cbn [object_class_and_model fst snd get_uid] in EQ. rewrite HU in EQ.
    destruct (ad_store ad) as [d|i].
    - unfold put_store, modify in EQ. rewrite E in EQ. destruct (dget (bucket d (c_modelname c)) u).
      + injection EQ as <- <-. eexists. reflexivity.
      + injection EQ as <- <-. eexists. reflexivity.
    - unfold redis_load, bind, get_state in EQ. destruct (dget (w_redis w) (redis_key i (c_modelname c) u)).
      + injection EQ as <- <-. eexists. reflexivity.
      + injection EQ as <- <-. eexists. reflexivity. }
  destruct X as [v ->]. exists w', v. auto.
Qed.

Section Run.
  Variable ord : order_fn.
  Variable env : senv.
  Variable da : adapter.
  Variable w0 : world.
  Variable WX : string -> Prop.
  Hypothesis HOOKS : hooks_succeed (sv_hooks env).
  Hypothesis WRITES : hooks_write WX (sv_hooks env).
  Hypothesis YO : yields_once ord.
  Hypothesis FUEL : sv_fuel env <> 0.
  Hypothesis APART : sv_src env <> sv_dst env.
  Notation dst := (sv_dst env).
  Notation good := (good dst da).
  Notation moved := (moved dst).

  (** the key of the element's object in the destination *)
  Definition akey (e : elem) : key :=
    (e_type e, match dget (ad_classes da) (e_type e) with
               | Some c => match create_unique_id c (e_keys e) with Ok u => u | Err _ => "" end
               | None => ""
               end).
  (** its deletion takes everything below it along *)
  Definition takes (x : elem) : Prop := e_action x = Some ADelete /\
    exists r o, look w0 dst (akey x) = Some r /\ nth_error (w_heap w0) r = Some o /\ has_flag (o_flags o) MF_SKIP_CHILDREN_ON_DELETE = true.
  (** the keys an element has to do with *)
  Definition foot (e : elem) (k : key) : Prop :=
    exists x, In x (elem_all e) /\ (akey x = k \/ (takes x /\ reaches w0 dst (akey x) k)).
  (** the parent's child lists after the element *)
  Definition kids_after (c : cls) (K : dict (list string)) (x : elem) : dict (list string) :=
    match dget (c_children c) (e_type x) with
    | None => K
    | Some f => match dget K f with
                | None => K
                | Some l => match e_action x with
                            | Some ACreate => dset K f (l ++ [snd (akey x)])
                            | Some ADelete => dset K f (remove_first (snd (akey x)) l)
                            | _ => K
                            end
                end
    end.
  (** the element's object before its children are processed *)
  Definition base (e : elem) (o : obj) : Prop :=
    match e_action e with
    | Some ACreate => exists c, dget (ad_classes da) (e_type e) = Some c /\ create_base c dst (e_keys e) (plus_attrs e) = Ok o
    | Some ADelete => exists r, look w0 dst (akey e) = Some r /\ nth_error (w_heap w0) r = Some o
    | _ => exists r o1, look w0 dst (akey e) = Some r /\ nth_error (w_heap w0) r = Some o1 /\
             setattrs o1 (plus_attrs e) = (o, Ok tt)
    end.
  (** the fields that the element's hook may write *)
  Definition hooked (e : elem) (k : string) : Prop := e_action e <> None /\ WX k.
  Definition after (e : elem) (o' : obj) : Prop :=
    exists o L, base e o /\ o_cls o' = o_cls o /\ vals_but (hooked e) (o_vals o) (o_vals o') /\
      get_identifiers o' = get_identifiers o /\ o_flags o' = o_flags o /\
      Permutation L (children (e_kids e)) /\ o_kids o' = fold_left (kids_after (o_cls o)) L (o_kids o).
  (** the child can be added or removed *)
  Definition kid_fits (o : obj) (x : elem) : Prop :=
    exists f l, dget (c_children (o_cls o)) (e_type x) = Some f /\ dget (o_kids o) f = Some l /\
      (e_action x = Some ACreate -> ~ In (snd (akey x)) l) /\ (e_action x = Some ADelete -> In (snd (akey x)) l).

  Inductive fits : elem -> Prop :=
  | fits_intro e c o :
      dget (ad_classes da) (e_type e) = Some c -> c_modelname c = e_type e ->
      create_unique_id c (e_keys e) = Ok (snd (akey e)) ->
      base e o -> own_fields (o_cls o) ->
      (e_action e = Some ACreate -> look w0 dst (akey e) = None /\ get_unique_id o = Ok (snd (akey e)) /\ kids_are_fields c) ->
      (e_action e <> Some ACreate -> forall k, In k (dkeys (plus_attrs e)) -> ~ In k (c_identifiers (o_cls o))) ->
      (e_action e = Some ADelete -> ~ deep w0 dst (sv_fuel env) (akey e) /\
         forall k t u r o', reaches w0 dst (akey e) k -> look w0 dst k = Some r -> nth_error (w_heap w0) r = Some o' ->
           lists o' t u -> lookup w0 dst t u <> None) ->
      NoDup (children (e_kids e)) ->
      (forall x y k, In x (children (e_kids e)) -> In y (children (e_kids e)) -> foot x k -> foot y k -> x = y) ->
      (forall x, In x (children (e_kids e)) -> ~ foot x (akey e) /\ kid_fits o x /\
         (e_action e = Some ADelete -> e_action x = Some ADelete /\ StoreSpec.child_of w0 dst (akey e) (akey x))) ->
      (forall x, In x (children (e_kids e)) -> fits x) ->
      fits e.

  (** the cell of the key is as it was at the start *)
  Definition same_cell (w : world) (k : key) : Prop :=
    look w dst k = look w0 dst k /\
    forall r o, look w0 dst k = Some r -> nth_error (w_heap w0) r = Some o ->
      exists o', nth_error (w_heap w) r = Some o' /\ same_data o o'.

  Definition done1 (x : elem) (w : world) : Prop :=
    match e_action x with
    | Some ADelete => look w dst (akey x) = None /\
        forall r o, look w0 dst (akey x) = Some r -> nth_error (w_heap w0) r = Some o ->
          has_flag (o_flags o) MF_SKIP_CHILDREN_ON_DELETE = true ->
          forall k, reaches w0 dst (akey x) k -> look w dst k = None
    | a => exists r o', look w dst (akey x) = Some r /\ nth_error (w_heap w) r = Some o' /\ after x o' /\
        (a = Some ACreate \/ look w0 dst (akey x) = Some r)
    end.
  Lemma done1_kept x w : done1 x w -> e_action x <> Some ADelete ->
    exists r o', look w dst (akey x) = Some r /\ nth_error (w_heap w) r = Some o' /\ after x o' /\
      (e_action x = Some ACreate \/ look w0 dst (akey x) = Some r).
  Proof. unfold done1. destruct (e_action x) as [[| |]|]; auto. congruence. Qed.
  Definition done (e : elem) (w : world) : Prop := forall x, In x (elem_all e) -> done1 x w.

  (** the parent may be given the children [L] *)
  Definition par_ok (w : world) (P : option ref) (L : list elem) : Prop :=
    match P with
    | None => True
    | Some p => exists po, nth_error (w_heap w) p = Some po /\ own_fields (o_cls po) /\
        (forall x, In x L -> kid_fits po x) /\ (forall x k, In x L -> foot x k -> look w dst k <> Some p)
    end.
  Definition par_after (P : option ref) (L : list elem) (w w' : world) : Prop :=
    match P with
    | None => True
    | Some p => forall po, nth_error (w_heap w) p = Some po ->
        exists po', nth_error (w_heap w') p = Some po' /\ o_cls po' = o_cls po /\ o_vals po' = o_vals po /\
          o_flags po' = o_flags po /\ o_kids po' = fold_left (kids_after (o_cls po)) L (o_kids po)
    end.
  Definition ready (w : world) : Prop := good w /\ nth_error (w_ads w) (sv_src env) <> None.

  Definition runs (e : elem) : Prop := forall P s,
    ready (ss_w s) -> (forall k, foot e k -> same_cell (ss_w s) k) -> par_ok (ss_w s) P [e] ->
    ends (sync_elem ord env e P) s (fun s' _ =>
      ready (ss_w s') /\ moved (foot e) P (ss_w s) (ss_w s') /\ par_after P [e] (ss_w s) (ss_w s') /\
      done e (ss_w s') /\ (e_action e = Some ADelete -> ss_action s' = Some ADelete)).

  (** ** Keeping *)
  Lemma look_inj w k k' r : good w -> look w dst k = Some r -> look w dst k' = Some r -> k = k'.
  Proof.
    intros (_ & K & _) E E'. destruct (K _ _ _ E) as (o & H & T & U & _). destruct (K _ _ _ E') as (o' & H' & T' & U' & _).
    rewrite (surjective_pairing k), (surjective_pairing k'). congruence.
  Qed.
  Lemma look_obj w k r : good w -> look w dst k = Some r -> exists o, nth_error (w_heap w) r = Some o /\ get_type o = fst k /\
    get_unique_id o = Ok (snd k) /\ forall t' f, In (t', f) (c_children (o_cls o)) -> dget (o_kids o) f <> None.
  Proof. intros (_ & K & _) E. exact (K _ _ _ E). Qed.

  Lemma obj_moved T P w w' k r o : good w -> moved T P w w' -> ~ T k -> look w dst k = Some r -> P <> Some r ->
    nth_error (w_heap w) r = Some o -> exists o', nth_error (w_heap w') r = Some o' /\ same_data o o'.
  Proof.
    intros G M N E NP H. apply (mv_heap _ _ _ _ _ M r o H); [|exact NP]. intros k' Tk' E'.
    rewrite (look_inj _ _ _ _ G E E') in N. contradiction.
  Qed.
  Lemma cell_moved T P w w' k : good w -> same_cell w k -> moved T P w w' -> ~ T k ->
    (forall p, P = Some p -> look w dst k <> Some p) -> same_cell w' k.
  Proof.
    intros G (E & D) M N NP. split; [rewrite (mv_look _ _ _ _ _ M k N); exact E|].
    intros r o Er Ho. destruct (D r o Er Ho) as (o1 & H1 & D1).
    assert (EL : look w dst k = Some r) by congruence.
    destruct (obj_moved T P w w' k r o1 G M N EL) as (o2 & H2 & D2); [|exact H1|].
    - intros X. now apply (NP r X).
    - exists o2. split; [exact H2|]. eapply same_data_trans; eauto.
  Qed.
  Lemma cell_calm T w w' k : same_cell w k -> calm env da T w w' -> same_cell w' k.
  Proof.
    intros (E & D) (_ & _ & L & DD). split; [now rewrite L|]. intros r o Er Ho.
    destruct (D r o Er Ho) as (o1 & H1 & D1). destruct (DD r o1 H1) as (o2 & H2 & D2).
    exists o2. split; [exact H2|]. eapply same_data_trans; eauto.
  Qed.
  (** its class and its lists of children are *)
  Definition linked (w : world) (k : key) : Prop :=
    look w dst k = look w0 dst k /\
    forall r o, look w0 dst k = Some r -> nth_error (w_heap w0) r = Some o ->
      exists o', nth_error (w_heap w) r = Some o' /\ o_cls o' = o_cls o /\ o_kids o' = o_kids o.
  Lemma cell_linked w k : same_cell w k -> linked w k.
  Proof.
    intros (E & D). split; [exact E|]. intros r o Er Ho. destruct (D r o Er Ho) as (o' & H' & D1 & _ & D3 & _). eauto.
  Qed.
  Lemma linked_moved T P w w' k : good w -> linked w k -> moved T P w w' -> ~ T k ->
    (forall p, P = Some p -> look w dst k <> Some p) -> linked w' k.
  Proof.
    intros G (E & D) M N NP. split; [rewrite (mv_look _ _ _ _ _ M k N); exact E|].
    intros r o Er Ho. destruct (D r o Er Ho) as (o1 & H1 & D1 & D2).
    assert (EL : look w dst k = Some r) by congruence.
    destruct (obj_moved T P w w' k r o1 G M N EL) as (o2 & H2 & D21 & _ & D23 & _); [|exact H1|].
    - intros X. now apply (NP r X).
    - exists o2. split; [exact H2|]. split; congruence.
  Qed.
  Lemma linked_calm T w w' k : linked w k -> calm_but env da WX T w w' -> linked w' k.
  Proof.
    intros (E & D) (_ & _ & L & DD). split; [now rewrite L|]. intros r o Er Ho.
    destruct (D r o Er Ho) as (o1 & H1 & D1 & D2). destruct (DD r o1 H1) as (o2 & H2 & D21 & D22 & _).
    exists o2. split; [exact H2|]. split; congruence.
  Qed.
  Lemma src_moved T P w w' : moved T P w w' -> nth_error (w_ads w) (sv_src env) <> None -> nth_error (w_ads w') (sv_src env) <> None.
  Proof.
    intros M N. destruct (nth_error (w_ads w) (sv_src env)) as [ad|] eqn:E; [|congruence].
    destruct (mv_other _ _ _ _ _ M _ _ APART E) as (s' & E' & _). congruence.
  Qed.
  Lemma unheld_moved T P w w' k p o : moved T P w w' -> nth_error (w_heap w) p = Some o -> look w dst k <> Some p -> look w' dst k <> Some p.
  Proof.
    intros M H N E. destruct (mv_new _ _ _ _ _ M k p E) as [X|X]; [contradiction|]. apply nth_error_Some_lt in H. lia.
  Qed.

  Lemma foot_self e : foot e (akey e).
  Proof. exists e. split; [destruct e; now left|]. now left. Qed.
  Lemma elem_all_trans x y e : In x (elem_all y) -> In y (elem_all e) -> In x (elem_all e).
  Proof.
    revert x y. induction e as [e IH] using elem_ind'. intros x y Hx Hy.
    apply elem_all_kids in Hy as [->|(k & Hk & Hy)]; [exact Hx|].
    rewrite elem_all_eq. right. rewrite tree_all_children. apply in_flat_map. exists k. split; [exact Hk|].
    apply In_children in Hk as (t & g & n & Hg & Hn). eapply IH; eauto.
  Qed.
  Lemma foot_sub x e k : In x (elem_all e) -> foot x k -> foot e k.
  Proof. intros H (y & Hy & Y). exists y. split; [eapply elem_all_trans; eauto|exact Y]. Qed.
  Lemma kid_all x e : In x (children (e_kids e)) -> In x (elem_all e).
  Proof.
    intros H. rewrite elem_all_eq. right. rewrite tree_all_children. apply in_flat_map. exists x. split; [exact H|].
    destruct x; now left.
  Qed.
  Lemma foot_kid x e k : In x (children (e_kids e)) -> foot x k -> foot e k.
  Proof. intros H. apply foot_sub. now apply kid_all. Qed.

  Lemma after_same x o o' : after x o -> same_data o o' -> after x o'.
  Proof.
    intros (b & L & B & E1 & E2 & E5 & E3 & PM & E4) (D1 & D2 & D3 & D4). exists b, L. repeat split; try congruence.
    unfold get_identifiers, dump_include in *. rewrite D1, D2. exact E5.
  Qed.
  Lemma done_moved T P w w' e : good w -> done e w -> moved T P w w' -> (forall k, foot e k -> ~ T k) ->
    (forall p k, P = Some p -> foot e k -> look w dst k <> Some p) -> done e w'.
  Proof.
    intros G D M N NP x Hx. specialize (D x Hx). unfold done1 in *.
    assert (FX : foot e (akey x)) by (apply (foot_sub x); [exact Hx|apply foot_self]).
    assert (GO : forall a, (exists r o', look w dst (akey x) = Some r /\ nth_error (w_heap w) r = Some o' /\ after x o' /\ (a = Some ACreate \/ look w0 dst (akey x) = Some r)) ->
                 (exists r o', look w' dst (akey x) = Some r /\ nth_error (w_heap w') r = Some o' /\ after x o' /\ (a = Some ACreate \/ look w0 dst (akey x) = Some r))).
    { intros a (r & o & E & H & A & R). destruct (obj_moved T P w w' (akey x) r o G M (N _ FX) E) as (o2 & H2 & D2); [|exact H|].
      - intros X. now apply (NP r _ X FX).
      - exists r, o2. split; [rewrite (mv_look _ _ _ _ _ M); [exact E|now apply N]|]. split; [exact H2|]. split; [eapply after_same; eauto|exact R]. }
    destruct (e_action x) as [[| |]|] eqn:EA; auto. destruct D as [D1 D2]. split.
    - rewrite (mv_look _ _ _ _ _ M); [exact D1|now apply N].
    - intros r o Er Ho HF k RK. rewrite (mv_look _ _ _ _ _ M); [eapply D2; eauto|]. apply N. exists x. split; [exact Hx|]. right. split; [|exact RK]. split; [exact EA|]. eauto.
  Qed.

  Lemma par_after_refl P w : par_after P [] w w.
  Proof. destruct P; [|exact Logic.I]. intros po H. exists po. repeat split; auto. Qed.
  Lemma par_after_trans P L1 L2 w1 w2 w3 : par_after P L1 w1 w2 -> par_after P L2 w2 w3 -> par_after P (L1 ++ L2) w1 w3.
  Proof.
    destruct P as [p|]; [|auto]. intros A B po H. destruct (A po H) as (p1 & H1 & C1 & V1 & F1 & K1).
    destruct (B p1 H1) as (p2 & H2 & C2 & V2 & F2 & K2). exists p2. split; [exact H2|]. repeat split; try congruence.
    rewrite fold_left_app, <- K1, <- C1. exact K2.
  Qed.

  Lemma remove_first_neq x l y : x <> y -> In y l -> In y (remove_first x l).
  Proof.
    intros N. induction l as [|z l IH]; simpl; [tauto|]. destruct (String.eqb_spec x z) as [->|X]; simpl.
    - intros [->|H]; [congruence|exact H].
    - intros [->|H]; auto.
  Qed.
  Lemma kid_fits_step po po' x y : own_fields (o_cls po) -> akey x <> akey y -> kid_fits po x -> kid_fits po y ->
    o_cls po' = o_cls po -> o_kids po' = kids_after (o_cls po) (o_kids po) x -> kid_fits po' y.
  Proof.
    intros OW N (fx & lx & X1 & X2 & X3 & X4) (f & l & Y1 & Y2 & Y3 & Y4) EC EK. unfold kid_fits. rewrite EC, EK.
    unfold kids_after. rewrite X1, X2.
    assert (GO : forall l', (forall u, u <> snd (akey x) -> In u lx <-> In u l') ->
      exists f0 l0, dget (c_children (o_cls po)) (e_type y) = Some f0 /\ dget (dset (o_kids po) fx l') f0 = Some l0 /\
        (e_action y = Some ACreate -> ~ In (snd (akey y)) l0) /\ (e_action y = Some ADelete -> In (snd (akey y)) l0)).
    { intros l' HL. exists f. destruct (String.eqb_spec f fx) as [E|E].
      - subst fx. exists l'. split; [exact Y1|]. rewrite dget_dset_eq. split; [reflexivity|].
        assert (EL : lx = l) by congruence. subst lx.
        assert (ET : e_type y = e_type x).
        { eapply own_field_unique; [exact OW| |]; eapply dget_Some_In; eauto. }
        assert (NU : snd (akey y) <> snd (akey x)).
        { intros E. apply N. rewrite (surjective_pairing (akey x)), (surjective_pairing (akey y)). simpl. simpl in E. congruence. }
        split; intros EA.
        + rewrite <- HL by exact NU. auto.
        + rewrite <- HL by exact NU. auto.
      - exists l. split; [exact Y1|]. rewrite dget_dset_neq by congruence. auto. }
    destruct (e_action x) as [[| |]|].
    - apply GO. intros u NU. rewrite in_app_iff. cbn [In]. intuition congruence.
    - exists f, l. auto.
    - apply GO. intros u NU. split; [apply remove_first_neq; congruence|apply remove_first_incl].
    - exists f, l. auto.
  Qed.

  (** ** The children *)
  Lemma kids_run L : (forall x, In x L -> runs x) -> NoDup L ->
    (forall x y k, In x L -> In y L -> foot x k -> foot y k -> x = y) ->
    forall P b s, ready (ss_w s) -> (forall x k, In x L -> foot x k -> same_cell (ss_w s) k) -> par_ok (ss_w s) P L ->
    ends (run_kids (map (sync_elem ord env) L) P b) s (fun s' _ =>
      ready (ss_w s') /\ moved (fun k => exists x, In x L /\ foot x k) P (ss_w s) (ss_w s') /\
      par_after P L (ss_w s) (ss_w s') /\ (forall x, In x L -> done x (ss_w s')) /\
      ((forall x, In x L -> e_action x = Some ADelete) -> ss_action s = Some ADelete -> ss_action s' = Some ADelete)).
  Proof.
    induction L as [|x L IH]; intros RU ND DJ P b s RD CE PO.
    { simpl. apply ends_ret. split; [exact RD|]. split; [apply moved_refl|]. split; [apply par_after_refl|].
      split; [intros x []|auto]. }
    inversion ND as [|? ? NX ND']; subst. simpl. apply ends_bind.
    eapply ends_weak; [apply (RU x (or_introl eq_refl) P s RD)|].
    - intros k Fk. apply (CE x k); [now left|exact Fk].
    - destruct P as [p|]; [|exact Logic.I]. destruct PO as (po & Hp & OW & KF & UH). exists po. split; [exact Hp|].
      split; [exact OW|]. split; [intros y [<-|[]]; apply KF; now left|]. intros y k [<-|[]]. apply UH. now left.
    - cbv beta. intros s1 b1 (RD1 & M1 & PA1 & DN1 & AC1). pose proof RD as [G0 _]. pose proof RD1 as [G1 _].
      assert (SEP : forall y k, In y L -> foot y k -> ~ foot x k).
      { intros y k Hy Fy Fx. assert (E : x = y) by (apply (DJ x y k); auto; [now left|now right]). subst y. contradiction. }
      assert (UH0 : forall p, P = Some p -> forall y k, In y (x :: L) -> foot y k -> look (ss_w s) dst k <> Some p).
      { intros p -> y k Hy Fy. destruct PO as (po & _ & _ & _ & UH). now apply (UH y k). }
      eapply ends_weak; [apply (IH (fun y Hy => RU y (or_intror Hy)) ND')|].
      + intros y z k Hy Hz. apply DJ; now right.
      + exact RD1.
      + intros y k Hy Fy. eapply cell_moved; [exact G0|apply (CE y k); [now right|exact Fy]|exact M1|eapply SEP; eauto|].
        intros p EP. apply (UH0 p EP y k); [now right|exact Fy].
      + destruct P as [p|]; [|exact Logic.I]. destruct PO as (po & Hp & OW & KF & UH).
        destruct (PA1 po Hp) as (po1 & Hp1 & C1 & V1 & F1 & K1). exists po1. split; [exact Hp1|]. rewrite C1. split; [exact OW|].
        split.
        * intros y Hy. eapply kid_fits_step; [exact OW| |apply (KF x); now left|apply (KF y); now right|exact C1|exact K1].
          intros E. apply (SEP y (akey y) Hy (foot_self y)). rewrite <- E. apply foot_self.
        * intros y k Hy Fy. eapply unheld_moved; [exact M1|exact Hp|]. apply (UH y k); [now right|exact Fy].
      + cbv beta. intros s2 b2 (RD2 & M2 & PA2 & DN2 & AC2). split; [exact RD2|]. split; [|split; [|split]].
        * eapply moved_trans; [eapply moved_weak; [| |exact M1]|eapply moved_weak; [| |exact M2]]; auto.
          -- intros k Fk. exists x. split; [now left|exact Fk].
          -- intros k (y & Hy & Fk). exists y. split; [now right|exact Fk].
        * apply (par_after_trans P [x] L _ _ _ PA1 PA2).
        * intros y [<-|Hy]; [|now apply DN2]. eapply done_moved; [exact G1|exact DN1|exact M2| |].
          -- intros k Fk (z & Hz & Fz). now apply (SEP z k Hz Fz).
          -- intros p k EP Fk. destruct P as [p'|]; [|discriminate]. injection EP as ->.
             destruct PO as (po & Hp & _ & _ & UH). eapply unheld_moved; [exact M1|exact Hp|]. apply (UH x k); [now left|exact Fk].
        * intros AL EA. apply AC2; [intros y Hy; apply AL; now right|]. apply AC1. apply AL. now left.
  Qed.

  (** ** The store and the parent *)
  Lemma ready_calm T w w' : ready w -> calm_but env da WX T w w' -> ready w'.
  Proof. intros [G S] C. split; [apply C|]. eapply src_moved; [apply C|exact S]. Qed.
  Lemma kid_fits_same o o' x : same_data o o' -> kid_fits o x -> kid_fits o' x.
  Proof. intros (D1 & D2 & D3 & D4). unfold kid_fits. now rewrite D1, D3. Qed.
  Lemma kid_fits_but Y o o' x : same_but Y o o' -> kid_fits o x -> kid_fits o' x.
  Proof. intros (D1 & D2 & D3 & D4). unfold kid_fits. now rewrite D1, D2. Qed.
  Lemma par_ok_calm T w w' P L : par_ok w P L -> calm_but env da WX T w w' -> par_ok w' P L.
  Proof.
    destruct P as [p|]; [|auto]. intros (po & Hp & OW & KF & UH) (_ & _ & LK & DD).
    destruct (DD p po Hp) as (po' & Hp' & D). exists po'. split; [exact Hp'|].
    split; [destruct D as (-> & _); exact OW|]. split; [intros x Hx; eapply kid_fits_but; eauto|].
    intros x k Hx Fx. rewrite LK. eauto.
  Qed.
  Lemma par_after_data P w w' : (forall p po, P = Some p -> nth_error (w_heap w) p = Some po ->
      exists po', nth_error (w_heap w') p = Some po' /\ same_data po po') -> par_after P [] w w'.
  Proof.
    destruct P as [p|]; [|intros; exact Logic.I]. intros H po Hp. destruct (H p po eq_refl Hp) as (po' & Hp' & D1 & D2 & D3 & D4).
    exists po'. repeat split; auto.
  Qed.
  Lemma par_after_calm k r P w w' : good w -> calm_but env da WX (eq k) w w' -> look w dst k = Some r -> P <> Some r ->
    par_after P [] w w'.
  Proof.
    intros G (_ & M & _ & _) LR NP. apply par_after_data. intros p po EP Hp. apply (mv_heap _ _ _ _ _ M p po Hp); [|discriminate].
    intros k' <- E. apply NP. congruence.
  Qed.

  Lemma apply_create_ends e P w w2 r o2 skip :
    e_action e = Some ACreate -> good w2 -> moved (eq (akey e)) P w w2 -> length (w_heap w) <= r ->
    nth_error (w_heap w2) r = Some o2 -> get_type o2 = e_type e -> get_unique_id o2 = Ok (snd (akey e)) ->
    (forall t f, In (t, f) (c_children (o_cls o2)) -> dget (o_kids o2) f <> None) ->
    look w2 dst (akey e) = None -> par_ok w2 P [e] -> P <> Some r ->
    ends (apply_to_store env (Some ACreate) P r skip) w2 (fun w4 b => b = false /\ good w4 /\ moved (eq (akey e)) P w w4 /\
      par_after P [e] w2 w4 /\ look w4 dst (akey e) = Some r /\
      exists o4, nth_error (w_heap w4) r = Some o4 /\ same_data o2 o4).
  Proof.
    intros EA G M LE Ho HT HU KF LN PO NP. unfold apply_to_store. apply ends_bind.
    assert (S1 : exists w3, match P with Some p => heap_add_child p r | None => ret tt end w2 = (w3, Ok tt) /\
      good w3 /\ moved (eq (akey e)) P w w3 /\ par_after P [e] w2 w3 /\ look w3 dst (akey e) = None /\
      nth_error (w_heap w3) r = Some o2).
    { destruct P as [p|].
      - destruct PO as (po & Hp & OW & KFS & UH). destruct (KFS e (or_introl eq_refl)) as (f & l & X1 & X2 & X3 & _).
        pose proof X1 as X1'. rewrite <- HT in X1'. eexists. split; [apply (heap_add_ends p r po o2 f l (snd (akey e)) w2 Hp Ho X1' X2 HU (X3 EA))|].
        split; [eapply good_set; [exact G|exact Hp|eapply kids_rel; eauto]|].
        split; [eapply moved_trans; [exact M|]; apply moved_set; now right|]. split; [|split; [exact LN|]].
        + intros po0 Hp0. rewrite Hp in Hp0. injection Hp0 as <-. eexists. split; [apply (nth_list_set_eq _ _ _ _ Hp)|].
          cbn [o_cls o_vals o_flags o_kids set_o_kids fold_left]. repeat split. unfold kids_after. rewrite X1, X2, EA. reflexivity.
        + simpl. rewrite nth_list_set_neq by (intros X; apply NP; now rewrite X). exact Ho.
      - exists w2. split; [reflexivity|]. split; [exact G|]. split; [exact M|]. split; [exact Logic.I|]. split; [exact LN|exact Ho]. }
    destruct S1 as (w3 & E3 & G3 & M3 & PA3 & LN3 & H3). eapply ends_eq; [exact E3|].
    assert (KE : akey e = (get_type o2, snd (akey e))).
    { rewrite (surjective_pairing (akey e)) at 1. f_equal. now rewrite HT. }
    destruct (add_step dst da (eq (akey e)) P w w3 r o2 (snd (akey e)) G3 M3 LE H3 HU KF) as (w4 & E4 & G4 & M4 & L4 & _ & _ & D4).
    - rewrite HT. exact LN3.
    - exact KE.
    - apply ends_bind. eapply ends_eq; [exact E4|]. apply ends_ret. split; [reflexivity|]. split; [exact G4|].
      split; [exact M4|]. split; [|split; [|now apply D4]].
      + rewrite <- (app_nil_r [e]). eapply par_after_trans; [exact PA3|]. apply par_after_data. intros p po _. apply D4.
      + rewrite KE. exact L4.
  Qed.

  Lemma remove_parent_ends e P w2 r o2 :
    e_action e = Some ADelete -> good w2 -> look w2 dst (akey e) = Some r -> nth_error (w_heap w2) r = Some o2 -> par_ok w2 P [e] ->
    exists w3, match P with Some p => heap_remove_child p r | None => ret tt end w2 = (w3, Ok tt) /\
      good w3 /\ moved (fun _ => False) P w2 w3 /\ par_after P [e] w2 w3 /\ (forall k, look w3 dst k = look w2 dst k) /\
      nth_error (w_heap w3) r = Some o2 /\ (forall x, P <> Some x -> nth_error (w_heap w3) x = nth_error (w_heap w2) x).
  Proof.
    intros EA G LK Ho PO. destruct P as [p|].
    - destruct PO as (po & Hp & OW & KFS & UH). destruct (KFS e (or_introl eq_refl)) as (f & l & X1 & X2 & _ & X3).
      destruct (look_obj _ _ _ G LK) as (o2' & Ho' & HT & HU & _). rewrite Ho in Ho'. injection Ho' as <-.
      assert (NP : r <> p).
      { intros ->. apply (UH e (akey e)); [now left|apply foot_self|exact LK]. }
      pose proof X1 as X1'. change (fst (akey e)) with (e_type e) in HT. rewrite <- HT in X1'. eexists.
      split; [apply (heap_remove_ends p r po o2 f l (snd (akey e)) w2 Hp Ho X1' X2 HU (X3 EA))|].
      split; [eapply good_set; [exact G|exact Hp|eapply kids_rel; eauto]|].
      split; [apply moved_set; now right|]. split; [|split; [reflexivity|split]].
      + intros po0 Hp0. rewrite Hp in Hp0. injection Hp0 as <-. eexists. split; [apply (nth_list_set_eq _ _ _ _ Hp)|].
        cbn [o_cls o_vals o_flags o_kids set_o_kids fold_left]. repeat split. unfold kids_after. rewrite X1, X2, EA. reflexivity.
      + simpl. rewrite nth_list_set_neq by exact NP. exact Ho.
      + intros x NX. simpl. rewrite nth_list_set_neq; [reflexivity|]. intros X. apply NX. now rewrite X.
    - exists w2. split; [reflexivity|]. split; [exact G|]. split; [apply moved_refl|]. split; [exact Logic.I|].
      split; [reflexivity|]. split; [exact Ho|reflexivity].
  Qed.

  Lemma apply_delete_ends e P w2 r o2 :
    e_action e = Some ADelete -> good w2 -> look w2 dst (akey e) = Some r -> nth_error (w_heap w2) r = Some o2 -> par_ok w2 P [e] ->
    ends (apply_to_store env (Some ADelete) P r false) w2 (fun w4 b => b = false /\ good w4 /\ moved (eq (akey e)) P w2 w4 /\
      par_after P [e] w2 w4 /\ look w4 dst (akey e) = None /\
      exists o4, nth_error (w_heap w4) r = Some o4 /\ same_data o2 o4).
  Proof.
    intros EA G LK Ho PO. unfold apply_to_store. apply ends_bind.
    destruct (remove_parent_ends e P w2 r o2 EA G LK Ho PO) as (w3 & E3 & G3 & M3 & PA3 & LK3 & H3 & _).
    eapply ends_eq; [exact E3|]. apply ends_bind.
    assert (LK3' : lookup w3 dst (fst (akey e)) (snd (akey e)) = Some r) by (rewrite <- LK, <- LK3; reflexivity).
    destruct (remove_step dst da (sv_fuel env) w3 r o2 _ _ G3 LK3' H3 FUEL) as (w4 & E4 & G4 & M4 & L4 & _ & D4).
    eapply ends_eq; [exact E4|]. apply ends_ret. split; [reflexivity|]. split; [exact G4|]. split; [|split; [|split]].
    - eapply moved_trans; [eapply moved_weak; [| |exact M3]; [intros k []|auto]|].
      eapply moved_weak; [| |exact M4]; [intros k ->; apply surjective_pairing|discriminate].
    - rewrite <- (app_nil_r [e]). eapply par_after_trans; [exact PA3|]. apply par_after_data. intros p po _. apply D4.
    - exact L4.
    - now apply D4.
  Qed.

  (** what is below a deleted object is still there *)
  Lemma child_of_cells w k k' : (forall x, reaches w0 dst k x -> linked w x) -> keyed w0 dst ->
    (forall t u r o, look w0 dst k = Some r -> nth_error (w_heap w0) r = Some o -> lists o t u -> lookup w0 dst t u <> None) ->
    (StoreSpec.child_of w dst k k' <-> StoreSpec.child_of w0 dst k k').
  Proof.
    intros CE K0 CL. destruct (CE k (reach_self _ _ _)) as [EK DK]. split.
    - intros (r & o & f & l & L1 & H1 & I1 & I2 & I3 & I4). unfold look in *. rewrite EK in L1.
      destruct (K0 _ _ _ L1) as (o0 & H0 & _). destruct (DK r o0 L1 H0) as (o' & H' & D1 & D3).
      rewrite H1 in H'. injection H' as <-. rewrite D1 in I1. rewrite D3 in I2. exists r, o0, f, l.
      repeat split; auto. apply (CL (fst k') (snd k') r o0 L1 H0). exists f, l. auto.
    - intros CH. pose proof CH as (r & o & f & l & L1 & H1 & I1 & I2 & I3 & I4). unfold look in *.
      destruct (DK r o L1 H1) as (o' & H' & D1 & D3).
      exists r, o', f, l. rewrite D1, D3, EK. repeat split; auto.
      assert (RK : reaches w0 dst k k') by (eapply reach_step; [exact CH|apply reach_self]).
      destruct (CE k' RK) as [EK' _]. unfold look in EK'. rewrite EK'. exact I4.
  Qed.
  Lemma reaches_cells w k : (forall x, reaches w0 dst k x -> linked w x) -> keyed w0 dst ->
    (forall x t u r o, reaches w0 dst k x -> look w0 dst x = Some r -> nth_error (w_heap w0) r = Some o -> lists o t u -> lookup w0 dst t u <> None) ->
    forall x, reaches w dst k x <-> reaches w0 dst k x.
  Proof.
    intros CE K0 CL x. split.
    - intros H. revert CE CL. induction H as [k|k k' x CH RX IH]; intros CE CL; [apply reach_self|].
      apply (child_of_cells w k k' CE K0) in CH; [|intros; eapply CL; eauto; apply reach_self].
      eapply reach_step; [exact CH|]. apply IH.
      + intros y RY. apply CE. eapply reach_step; eauto.
      + intros y t u r o RY. apply CL. eapply reach_step; eauto.
    - intros H. revert CE CL. induction H as [k|k k' x CH RX IH]; intros CE CL; [apply reach_self|].
      eapply reach_step; [apply (child_of_cells w k k' CE K0); [intros; eapply CL; eauto; apply reach_self|exact CH]|]. apply IH.
      + intros y RY. apply CE. eapply reach_step; eauto.
      + intros y t u r o RY. apply CL. eapply reach_step; eauto.
  Qed.
  Lemma deep_cells w n : forall k, (forall x, reaches w0 dst k x -> linked w x) -> keyed w0 dst ->
    (forall x t u r o, reaches w0 dst k x -> look w0 dst x = Some r -> nth_error (w_heap w0) r = Some o -> lists o t u -> lookup w0 dst t u <> None) ->
    deep w dst n k -> deep w0 dst n k.
  Proof.
    induction n as [|n IH]; intros k CE K0 CL; [auto|]. intros (k' & CH & DP).
    apply (child_of_cells w k k' CE K0) in CH; [|intros; eapply CL; eauto; apply reach_self].
    exists k'. split; [exact CH|]. apply IH; auto.
    - intros y RY. apply CE. eapply reach_step; eauto.
    - intros y t u r o RY. apply CL. eapply reach_step; eauto.
  Qed.

  Lemma apply_cascade_ends e P w2 r o2 :
    e_action e = Some ADelete -> good w2 -> look w2 dst (akey e) = Some r -> nth_error (w_heap w2) r = Some o2 -> par_ok w2 P [e] ->
    keyed w0 dst -> (forall k, foot e k -> linked w2 k) -> ~ deep w0 dst (sv_fuel env) (akey e) ->
    (forall k t u r o', reaches w0 dst (akey e) k -> look w0 dst k = Some r -> nth_error (w_heap w0) r = Some o' ->
           lists o' t u -> lookup w0 dst t u <> None) ->
    takes e ->
    ends (apply_to_store env (Some ADelete) P r true) w2 (fun w4 b => b = true /\ good w4 /\ moved (foot e) P w2 w4 /\
      par_after P [e] w2 w4 /\ (forall k, reaches w0 dst (akey e) k -> look w4 dst k = None)).
  Proof.
    intros EA G LK Ho PO K0 CE ND CL TK. unfold apply_to_store. apply ends_bind.
    destruct (remove_parent_ends e P w2 r o2 EA G LK Ho PO) as (w3 & E3 & G3 & M3 & PA3 & LK3 & H3 & OT3).
    eapply ends_eq; [exact E3|]. apply ends_bind.
    assert (LK3' : lookup w3 dst (fst (akey e)) (snd (akey e)) = Some r) by (rewrite <- LK, <- LK3; reflexivity).
    assert (FT : forall k, reaches w0 dst (akey e) k -> foot e k).
    { intros k RK. exists e. split; [destruct e; now left|]. right. auto. }
    assert (CE3 : forall k, reaches w0 dst (akey e) k -> linked w3 k).
    { intros k RK. eapply linked_moved; [exact G|apply CE; now apply FT|exact M3|auto|].
      intros p ->. destruct PO as (po & _ & _ & _ & UH). apply (UH e k); [now left|now apply FT]. }
    assert (RE : forall x, reaches w3 dst (akey e) x <-> reaches w0 dst (akey e) x) by (apply reaches_cells; auto).
    destruct (cascade_step dst da (sv_fuel env) w3 r o2 (fst (akey e)) (snd (akey e)) G3 LK3' H3) as (w4 & E4 & G4 & M4 & L4 & _ & D4).
    - rewrite <- surjective_pairing. intros X. apply ND. revert X. apply deep_cells; auto.
    - rewrite <- surjective_pairing in M4, L4.
      eapply ends_eq; [exact E4|]. apply ends_ret. split; [reflexivity|]. split; [exact G4|]. split; [|split].
      + eapply moved_trans; [eapply moved_weak; [| |exact M3]; [intros k []|auto]|].
        eapply moved_weak; [| |exact M4]; [intros k RK; now apply FT, RE|discriminate].
      + rewrite <- (app_nil_r [e]). eapply par_after_trans; [exact PA3|]. apply par_after_data. intros p po _. apply D4.
      + intros k RK. now apply L4, RE.
  Qed.

  (** ** One element *)
  Definition post (e : elem) (P : option ref) (s : sstate) (s' : sstate) : Prop :=
    ready (ss_w s') /\ moved (foot e) P (ss_w s) (ss_w s') /\ par_after P [e] (ss_w s) (ss_w s') /\
    done e (ss_w s') /\ (e_action e = Some ADelete -> ss_action s' = Some ADelete).

  Section One.
    Variables (e : elem) (o : obj) (L : list elem).
    Hypothesis FB : base e o.
    Hypothesis OW : own_fields (o_cls o).
    Hypothesis ND : NoDup (children (e_kids e)).
    Hypothesis DJ : forall x y k, In x (children (e_kids e)) -> In y (children (e_kids e)) -> foot x k -> foot y k -> x = y.
    Hypothesis KI : forall x, In x (children (e_kids e)) -> ~ foot x (akey e) /\ kid_fits o x /\
         (e_action e = Some ADelete -> e_action x = Some ADelete /\ StoreSpec.child_of w0 dst (akey e) (akey x)).
    Hypothesis RU : forall x, In x (children (e_kids e)) -> runs x.
    Hypothesis PM : Permutation L (children (e_kids e)).

    Let InL x : In x L -> In x (children (e_kids e)).
    Proof. apply Permutation_in. exact PM. Qed.
    Let LIn x : In x (children (e_kids e)) -> In x L.
    Proof. apply Permutation_in. now apply Permutation_sym. Qed.
    Let NDL : NoDup L.
    Proof. eapply Permutation_NoDup; [apply Permutation_sym; exact PM|exact ND]. Qed.

    Lemma base_skip r' o' : e_action e = Some ADelete -> look w0 dst (akey e) = Some r' -> nth_error (w_heap w0) r' = Some o' -> o' = o.
    Proof. intros EA E H. unfold base in FB. rewrite EA in FB. destruct FB as (r & E1 & H1). congruence. Qed.

    Lemma finish P s s5 r o5 b : let w := ss_w s in let w5 := ss_w s5 in
      ready w -> (forall k, foot e k -> same_cell w k) -> par_ok w P [e] ->
      ready w5 -> moved (eq (akey e)) P w w5 ->
      nth_error (w_heap w5) r = Some o5 -> same_but (hooked e) o o5 ->
      (e_action e = Some ACreate /\ length (w_heap w) <= r) \/ look w dst (akey e) = Some r ->
      match e_action e with
      | Some ADelete => look w5 dst (akey e) = None /\ look w dst (akey e) = Some r /\
                        has_flag (o_flags o) MF_SKIP_CHILDREN_ON_DELETE = false
      | _ => look w5 dst (akey e) = Some r
      end ->
      par_after P [e] w w5 -> P <> Some r -> ss_action s5 = e_action e ->
      ends (run_kids (map (sync_elem ord env) L) (Some r) b) s5 (fun s' _ => post e P s s').
    Proof.
      intros w w5 RD CE PO RD5 M H5 D5 RR LK PA NP EA5. pose proof RD as [G _]. pose proof RD5 as [G5 _].
      assert (UH0 : forall p x k, P = Some p -> In x (children (e_kids e)) -> foot x k -> look w dst k <> Some p).
      { intros p x k -> Hx Fk. destruct PO as (po & _ & _ & _ & UH). apply (UH e k); [now left|]. now apply (foot_kid x). }
      assert (UR : forall x k, In x (children (e_kids e)) -> foot x k -> look w5 dst k <> Some r).
      { intros x k Hx Fk E. assert (NK : akey e <> k) by (intros <-; now apply (KI x Hx)).
        assert (C : look w5 dst (akey e) = Some r \/ look w dst (akey e) = Some r).
        { destruct (e_action e) as [[| |]|]; try (left; exact LK). right. apply LK. }
        destruct C as [C|C]; [now apply NK, (look_inj w5 (akey e) k r)|].
        rewrite (mv_look _ _ _ _ _ M k NK) in E. now apply NK, (look_inj w (akey e) k r). }
      eapply ends_weak; [apply (kids_run L (fun x Hx => RU x (InL x Hx)) NDL)|].
      - intros x y k Hx Hy. apply DJ; auto.
      - exact RD5.
      - intros x k Hx Fk. apply InL in Hx. eapply cell_moved; [exact G|apply CE; now apply (foot_kid x)|exact M| |].
        + intros <-. now apply (KI x Hx).
        + intros p EP. now apply (UH0 p x).
      - exists o5. split; [exact H5|]. split; [destruct D5 as (-> & _); exact OW|]. split.
        + intros x Hx. eapply kid_fits_but; [exact D5|]. now apply KI, InL.
        + intros x k Hx. apply UR. auto.
      - cbv beta. intros s6 b6 (RD6 & M6 & PA6 & DN6 & AC6). fold w5 in M6, PA6. unfold post. fold w.
        assert (NT : ~ (exists x, In x L /\ foot x (akey e))).
        { intros (x & Hx & Fk). now apply (KI x (InL x Hx)). }
        split; [exact RD6|]. split; [|split; [|split]].
        + eapply moved_gen; [eapply moved_weak; [| |exact M]; [intros k <-; apply foot_self|auto]| |].
          * eapply moved_weak; [| |exact M6]; [|intros x E; exact E].
            intros k (x & Hx & Fk). apply (foot_kid x); auto.
          * intros x E N. injection E as <-. right. exists (akey e). split; [apply foot_self|].
            destruct RR as [(_ & RR)|RR]; [|exact RR]. apply nth_error_Some in N. lia.
        + destruct P as [p|]; [|exact Logic.I]. intros po Hp. destruct (PA po Hp) as (p5 & Hp5 & C5 & V5 & F5 & K5).
          destruct (mv_heap _ _ _ _ _ M6 p p5 Hp5) as (p6 & Hp6 & D1 & D2 & D3 & D4).
          * intros k (x & Hx & Fk). eapply unheld_moved; [exact M|exact Hp|]. apply (UH0 p x k eq_refl); auto.
          * intros X. apply NP. now rewrite X.
          * exists p6. split; [exact Hp6|]. repeat split; congruence.
        + intros x Hx. apply elem_all_kids in Hx as [E|(y & Hy & Hx)]; [|now apply (DN6 y (LIn y Hy))]. subst x.
          unfold done1.
          assert (GO : look w5 dst (akey e) = Some r -> exists r0 o', look (ss_w s6) dst (akey e) = Some r0 /\
            nth_error (w_heap (ss_w s6)) r0 = Some o' /\ after e o' /\ (e_action e = Some ACreate \/ look w0 dst (akey e) = Some r0)).
          { intros LE. destruct (PA6 o5 H5) as (o6 & H6 & C6 & V6 & F6 & K6). exists r, o6.
            split; [rewrite (mv_look _ _ _ _ _ M6 _ NT); exact LE|]. split; [exact H6|].
            split.
            { destruct D5 as (D1 & D2 & D3 & D4 & D7). exists o, L. split; [exact FB|]. split; [congruence|].
              split; [rewrite V6; exact D7|]. split; [|repeat split; congruence].
              unfold get_identifiers, dump_include in *. rewrite C6, V6. exact D4. }
            destruct RR as [(RR & _)|RR]; [now left|right]. etransitivity; [symmetry; exact (proj1 (CE _ (foot_self e)))|exact RR]. }
          destruct (e_action e) as [[| |]|] eqn:EA; auto. destruct LK as (LK1 & LK2 & LK3). split.
          * rewrite (mv_look _ _ _ _ _ M6 _ NT). exact LK1.
          * intros r' o' E H HF. exfalso. rewrite (base_skip r' o' EA E H) in HF. congruence.
        + intros EA. apply AC6; [|congruence]. intros x Hx. now apply (KI x (InL x Hx)).
    Qed.
  End One.

  (** ** The first half of an element *)
  Definition tail (e : elem) (P : option ref) kids (dm : option ref) (natural skip : bool) : M sstate bool :=
    s <- get_state ;;
    (if natural && is_delete (ss_action s) && negb skip then run_kids kids dm false else ret false) ;;;
    cm <- sync_model env dm (e_keys e) (plus_attrs e) ;;
    match snd cm with
    | None =>
        slog LWarning None "No object resulted from sync, will not process child objects." ;;;
        ret (fst cm)
    | Some r =>
        s <- get_state ;;
        stop <- slift (apply_to_store env (ss_action s) P r skip) ;;
        if (stop : bool) then ret (fst cm)
        else
          incr_elements_processed env ;;;
          if negb natural || negb (is_delete (ss_action s))
          then run_kids kids (Some r) (fst cm)
          else ret (fst cm)
    end.

  Lemma prefix e P kids s c Q : ready (ss_w s) ->
    dget (ad_classes da) (e_type e) = Some c -> c_modelname c = e_type e -> create_unique_id c (e_keys e) = Ok (snd (akey e)) ->
    (forall s1 natural skip, calm env da (eq (akey e)) (ss_w s) (ss_w s1) -> ss_action s1 = e_action e -> ss_class s1 = Some c ->
       match look (ss_w s) dst (akey e) with
       | None => natural = false /\ skip = false
       | Some r => exists o, nth_error (w_heap (ss_w s1)) r = Some o /\ natural = has_flag (o_flags o) MF_NATURAL_DELETION_ORDER /\
                     skip = has_flag (o_flags o) MF_SKIP_CHILDREN_ON_DELETE
       end -> ends (tail e P kids (look (ss_w s) dst (akey e)) natural skip) s1 Q) ->
    ends (sync_body env e P kids) s Q.
  Proof.
    intros RD HC HN HU GO. pose proof RD as [G SRC]. pose proof G as (LO & K & st & AD).
    unfold sync_body. apply ends_bind, ends_slift. eapply ends_eq; [unfold get_adapter; rewrite AD; reflexivity|].
    cbn [ad_classes set_ad_store]. apply ends_bind. eapply ends_lift; [rewrite HC; reflexivity|].
    apply ends_bind, ends_modify, ends_bind. eapply ends_lift; [exact HU|]. apply ends_bind, ends_modify.
    cbn [ss_w ss_n ss_action ss_class ss_ctx set_ss_w].
    apply ends_bind, ends_slift. cbn [ss_w].
    destruct (nth_error (w_ads (ss_w s)) (sv_src env)) as [sad|] eqn:ES; [|congruence].
    eapply ends_weak; [apply (get_or_none_ends _ _ _ _ _ _ ES HU)|]. cbv beta. intros wa xa RO.
    apply ends_bind, ends_slift. cbn [ss_w set_ss_w].
    assert (KE : akey e = (c_modelname c, snd (akey e))).
    { rewrite (surjective_pairing (akey e)) at 1. f_equal. now rewrite HN. }
    pose proof (calm_ro env da (eq (akey e)) _ _ G RO) as CA.
    eapply ends_weak; [apply (get_dst_ends env da (eq (akey e)) c (e_keys e) _ wa (calm_good _ _ _ _ _ CA) HU KE)|].
    cbv beta. intros wb dm (EDM & CB). pose proof (calm_trans _ _ _ _ _ _ CA CB) as C1. clear CB.
    assert (EDM' : dm = look (ss_w s) dst (akey e)).
    { rewrite EDM. destruct CA as (_ & _ & LK & _). rewrite <- LK. unfold look. change (fst (akey e)) with (e_type e). now rewrite HN. }
    clear EDM. subst dm. destruct C1 as (G1 & M1 & LK1 & D1).
    assert (GF : forall f, ends (model_flag (look (ss_w s) dst (akey e)) f) wb (fun w' b => w' = wb /\
      match look (ss_w s) dst (akey e) with
      | None => b = false
      | Some r => exists o, nth_error (w_heap wb) r = Some o /\ b = has_flag (o_flags o) f
      end)).
    { intros f. unfold model_flag. destruct (look (ss_w s) dst (akey e)) as [r|] eqn:EL; [|apply ends_ret; auto].
      destruct (look_obj _ _ _ G EL) as (o & Ho & _). destruct (D1 r o Ho) as (o1 & Ho1 & _). apply ends_bind.
      eapply ends_eq; [apply (hget_eq _ _ _ Ho1)|]. apply ends_ret. split; [reflexivity|]. exists o1. auto. }
    apply ends_bind, ends_slift. cbn [ss_w set_ss_w]. eapply ends_weak; [apply GF|]. cbv beta. intros w1 nat (-> & HNat).
    apply ends_bind, ends_slift. cbn [ss_w set_ss_w]. eapply ends_weak; [apply GF|]. cbv beta. intros w1 skip (-> & HSk).
    apply GO; try reflexivity; [split; [exact G1|]; split; [exact M1|]; split; [exact LK1|exact D1]|].
    destruct (look (ss_w s) dst (akey e)) as [r|]; [|auto]. destruct HNat as (o & Ho & ->). destruct HSk as (o' & Ho' & ->).
    exists o. split; [exact Ho|]. split; [reflexivity|]. cbn [ss_w set_ss_w] in *. congruence.
  Qed.

  Lemma incr_ends s : ends (incr_elements_processed env) s (fun s' _ => ss_action s' = ss_action s /\ quiet (ss_w s) (ss_w s')).
  Proof.
    eexists _, tt. split; [reflexivity|]. cbn [ss_action ss_w]. split; [reflexivity|]. destruct (sv_cb env); repeat split.
  Qed.
  Lemma plus_none e : e_action e = None -> plus_attrs e = [].
  Proof.
    unfold e_action, plus_attrs, e_attrs_diffs, attrs_action, get_attrs_diffs.
    destruct (e_src e) as [a|], (e_dst e) as [b|]; try discriminate; try reflexivity.
    destruct (existsb _ _) eqn:E; [discriminate|]. intros _. cbn [ad_plus].
    assert (X : forall l, existsb (attr_differs a b) l = false -> filter (attr_differs a b) l = []).
    { induction l as [|k l IH]; simpl; [reflexivity|]. destruct (attr_differs a b k); simpl; [discriminate|exact IH]. }
    now rewrite (X _ E).
  Qed.
  Lemma setattrs_same attrs : forall o o1 o', same_data o o1 -> setattrs o attrs = (o', Ok tt) ->
    exists o1', setattrs o1 attrs = (o1', Ok tt) /\ same_data o' o1'.
  Proof.
    induction attrs as [|[k v] attrs IH]; intros o o1 o' D E; cbn [setattrs] in *.
    - injection E as <-. exists o1. auto.
    - unfold setattr_val in *. destruct D as (D1 & D2 & D3 & D4). rewrite D2. destruct (dmem (o_vals o) k); [|discriminate].
      eapply IH; [|exact E]. unfold same_data. cbn [o_cls o_vals o_kids o_flags set_o_vals]. auto.
  Qed.
  Lemma par_ok_data w w' P L : par_ok w P L -> (forall k, (exists x, In x L /\ foot x k) -> look w' dst k = look w dst k) ->
    (forall p po, P = Some p -> nth_error (w_heap w) p = Some po -> exists po', nth_error (w_heap w') p = Some po' /\ same_data po po') ->
    par_ok w' P L.
  Proof.
    destruct P as [p|]; [|auto]. intros (po & Hp & OW & KF & UH) LK DD.
    destruct (DD p po eq_refl Hp) as (po' & Hp' & D). exists po'. split; [exact Hp'|].
    split; [destruct D as (-> & _); exact OW|]. split; [intros x Hx; eapply kid_fits_same; eauto|].
    intros x k Hx Fx. rewrite LK by eauto. eauto.
  Qed.
  Lemma par_lt w P L p : par_ok w P L -> P = Some p -> p < length (w_heap w).
  Proof. intros PO ->. destruct PO as (po & Hp & _). eapply nth_error_Some_lt; eauto. Qed.

  Lemma fits_below e : fits e -> e_action e = Some ADelete ->
    forall x, In x (elem_all e) -> e_action x = Some ADelete /\ reaches w0 dst (akey e) (akey x).
  Proof.
    induction e as [e IH] using elem_ind'. intros FI EA x Hx.
    apply elem_all_kids in Hx as [->|(y & Hy & Hx)]; [split; [exact EA|apply reach_self]|].
    inversion FI as [e' c o HC HN HU FB OW FC FN FD ND DJ KI FK]; subst e'.
    destruct (KI y Hy) as (_ & _ & KD). destruct (KD EA) as (EY & CY).
    pose proof Hy as Hy'. apply In_children in Hy' as (t & g & n & Hg & Hn).
    destruct (IH t g n y Hg Hn (FK y Hy) EY x Hx) as (EX & RX). split; [exact EX|]. eapply reach_step; eauto.
  Qed.

  Section Tail.
    Variables (e : elem) (o : obj) (c : cls).
    Hypothesis HC : dget (ad_classes da) (e_type e) = Some c.
    Hypothesis HN : c_modelname c = e_type e.
    Hypothesis HU : create_unique_id c (e_keys e) = Ok (snd (akey e)).
    Hypothesis FB : base e o.
    Hypothesis OW : own_fields (o_cls o).
    Hypothesis FC : e_action e = Some ACreate -> look w0 dst (akey e) = None /\ get_unique_id o = Ok (snd (akey e)) /\ kids_are_fields c.
    Hypothesis FN : e_action e <> Some ACreate -> forall k, In k (dkeys (plus_attrs e)) -> ~ In k (c_identifiers (o_cls o)).
    Hypothesis FD : e_action e = Some ADelete -> ~ deep w0 dst (sv_fuel env) (akey e) /\
         forall k t u r o', reaches w0 dst (akey e) k -> look w0 dst k = Some r -> nth_error (w_heap w0) r = Some o' ->
           lists o' t u -> lookup w0 dst t u <> None.
    Hypothesis ND : NoDup (children (e_kids e)).
    Hypothesis DJ : forall x y k, In x (children (e_kids e)) -> In y (children (e_kids e)) -> foot x k -> foot y k -> x = y.
    Hypothesis KI : forall x, In x (children (e_kids e)) -> ~ foot x (akey e) /\ kid_fits o x /\
         (e_action e = Some ADelete -> e_action x = Some ADelete /\ StoreSpec.child_of w0 dst (akey e) (akey x)).
    Hypothesis RU : forall x, In x (children (e_kids e)) -> runs x.
    Hypothesis FI : fits e.
    Hypothesis K0 : keyed w0 dst.
    Let L := ordered ord (fun x => x) (e_kids e).
    Let PM : Permutation L (children (e_kids e)).
    Proof. apply ordered_perm. exact YO. Qed.
    Notation kids := (map (sync_elem ord env) L).

    Variables (P : option ref) (s : sstate).
    Hypothesis RD : ready (ss_w s).
    Hypothesis CE : forall k, foot e k -> same_cell (ss_w s) k.
    Hypothesis PO : par_ok (ss_w s) P [e].
    Notation Q := (fun s' (_ : bool) => post e P s s').

    Lemma finish_incr s4 r o4 b : let w := ss_w s in let w4 := ss_w s4 in
      good w4 -> moved (eq (akey e)) P w w4 -> nth_error (w_heap w4) r = Some o4 -> same_but (hooked e) o o4 ->
      (e_action e = Some ACreate /\ length (w_heap w) <= r) \/ look w dst (akey e) = Some r ->
      match e_action e with
      | Some ADelete => look w4 dst (akey e) = None /\ look w dst (akey e) = Some r /\
                        has_flag (o_flags o) MF_SKIP_CHILDREN_ON_DELETE = false
      | _ => look w4 dst (akey e) = Some r
      end ->
      par_after P [e] w w4 -> P <> Some r -> ss_action s4 = e_action e ->
      ends (incr_elements_processed env ;;; run_kids kids (Some r) b) s4 Q.
    Proof.
      intros w w4 G4 M H4 D4 RR LK PA NP EA. apply ends_bind. eapply ends_weak; [apply incr_ends|]. cbv beta.
      intros s5 x5 (EA5 & QU). pose proof (quiet_calm env da (eq (akey e)) _ _ G4 QU) as C5.
      assert (RD4 : ready w4) by (split; [exact G4|]; eapply src_moved; [exact M|apply RD]).
      destruct C5 as (G5 & M5 & LK5 & D5) eqn:EC5. clear EC5. destruct (D5 r o4 H4) as (o5 & H5 & DD5).
      eapply finish with (o := o) (o5 := o5); eauto.
      - apply (ready_calm (eq (akey e)) _ _ RD4). now apply calm_is_but, quiet_calm.
      - eapply moved_trans; [exact M|]. apply moved_none. exact M5.
      - eapply same_but_trans; [exact D4|]. now apply same_data_but.
      - rewrite !LK5. exact LK.
      - rewrite <- (app_nil_r [e]). eapply par_after_trans; [exact PA|]. apply par_after_data. intros p po _. apply D5.
      - congruence.
    Qed.

    Lemma tail_create s1 : calm env da (eq (akey e)) (ss_w s) (ss_w s1) -> ss_action s1 = e_action e -> ss_class s1 = Some c ->
      e_action e = Some ACreate -> look (ss_w s) dst (akey e) = None -> ends (tail e P kids None false false) s1 Q.
    Proof.
      intros CA EA1 EC1 EA LN. destruct CA as (G1 & M1 & LK1 & D1). pose proof (mv_len _ _ _ _ _ M1) as LE1.
      destruct (FC EA) as (_ & UO & KF). pose proof FB as FB'. unfold base in FB'. rewrite EA in FB'.
      destruct FB' as (c' & HC' & CB). rewrite HC in HC'. injection HC' as <-.
      destruct (create_base_spec _ _ _ _ _ _ CB HU) as (OC & OF & _ & OK & _).
      unfold tail. apply ends_bind, ends_get. simpl andb. cbv iota. apply ends_bind, ends_ret, ends_bind.
      assert (EA1' : ss_action s1 = Some ACreate) by congruence.
      eapply ends_weak; [apply (sync_create env da WX HOOKS WRITES (eq (akey e)) P (e_keys e) (plus_attrs e) c o s1 G1 EA1' EC1 CB)|].
      cbv beta. intros s2 x (-> & w2 & -> & G2 & M2 & LK2 & LN2 & NT2 & o2 & H2 & D2). cbn [snd fst].
      apply ends_bind, ends_get. cbn [ss_action set_ss_w]. rewrite EA1'. apply ends_bind, ends_slift. cbn [ss_w set_ss_w].
      assert (NP : P <> Some (length (w_heap (ss_w s1)))).
      { intros X. pose proof (par_lt _ _ _ _ PO X). lia. }
      assert (PO2 : par_ok w2 P [e]).
      { eapply par_ok_data; [exact PO|intros k _; now rewrite LK2, LK1|]. intros p po EP Hp.
        destruct (D1 p po Hp) as (p1 & Hp1 & DP1). exists p1. split; [|exact DP1]. rewrite NT2; [exact Hp1|].
        eapply nth_error_Some_lt; eauto. }
      eapply ends_weak; [apply (apply_create_ends e P (ss_w s) w2 (length (w_heap (ss_w s1))) o2 false EA G2)|].
      - eapply moved_trans; [apply moved_none; exact M1|exact M2].
      - exact LE1.
      - exact H2.
      - rewrite (same_but_type _ _ _ D2). unfold get_type. now rewrite OC.
      - rewrite (same_but_uid _ _ _ D2). exact UO.
      - intros t f I. destruct D2 as (D21 & D23 & _). rewrite D21, OC in I. rewrite D23, (OK f); [discriminate|].
        apply KF. apply in_map_iff. exists (t, f). auto.
      - now rewrite LK2, LK1.
      - exact PO2.
      - exact NP.
      - cbv beta. intros w4 b (-> & G4 & M4 & PA4 & LK4 & o4 & H4 & D4). cbv iota. simpl negb. rewrite orb_true_r. cbv iota.
        eapply finish_incr; cbn [ss_w set_ss_w ss_action]; eauto.
        + eapply same_but_trans; [eapply same_but_weak; [|exact D2]|apply same_data_but; exact D4].
          intros k HX. split; [congruence|exact HX].
        + rewrite EA. exact LK4.
        + change [e] with (@nil elem ++ [e]). eapply par_after_trans; [|exact PA4]. apply par_after_data. intros p po EP Hp.
          destruct (D1 p po Hp) as (p1 & Hp1 & DP1). exists p1. split; [|exact DP1]. rewrite NT2; [exact Hp1|].
          eapply nth_error_Some_lt; eauto.
    Qed.

    Lemma tail_keep s1 natural skip r : calm env da (eq (akey e)) (ss_w s) (ss_w s1) -> ss_action s1 = e_action e ->
      e_action e = None \/ e_action e = Some AUpdate -> look (ss_w s) dst (akey e) = Some r -> ends (tail e P kids (Some r) natural skip) s1 Q.
    Proof.
      intros CA EA1 EA LR. pose proof CA as (G1 & M1 & LK1 & D1). pose proof RD as [G _].
      destruct (CE _ (foot_self e)) as (EK & DK).
      assert (B : exists o1, nth_error (w_heap w0) r = Some o1 /\ setattrs o1 (plus_attrs e) = (o, Ok tt)).
      { pose proof FB as FB'. unfold base in FB'. destruct EA as [EA|EA]; rewrite EA in FB'; destruct FB' as (r' & o1 & L1 & H1 & S1);
          exists o1; (split; [congruence|exact S1]). }
      destruct B as (o1 & H1 & S1). destruct (DK r o1) as (o1w & H1w & D1w); [congruence|exact H1|].
      destruct (D1 r o1w H1w) as (o2 & H2 & D2'). pose proof (same_data_trans _ _ _ D1w D2') as D2.
      destruct (setattrs_same _ _ _ _ D2 S1) as (o3 & S3 & D3).
      assert (NC : e_action e <> Some ACreate) by (destruct EA; congruence).
      assert (NDe : is_delete (e_action e) = false) by (destruct EA as [-> | ->]; reflexivity).
      assert (NP : P <> Some r).
      { intros ->. destruct PO as (po & Hp & _ & _ & UH). apply (UH e (akey e)); [now left|apply foot_self|exact LR]. }
      assert (RL : obj_rel o2 o3).
      { pose proof (setattrs_rel (plus_attrs e) o2) as R. rewrite S3 in R. apply R. intros k Hk. destruct D2 as (-> & _).
        assert (EC : o_cls o = o_cls o1).
        { clear -S1. revert o1 S1. induction (plus_attrs e) as [|[k v] l IH]; intros o1 S1; cbn [setattrs] in S1.
          - now injection S1 as <-.
          - unfold setattr_val in S1. destruct (dmem _ _); [|discriminate]. now rewrite (IH _ S1). }
        rewrite <- EC. now apply FN. }
      assert (LR1 : look (ss_w s1) dst (akey e) = Some r) by now rewrite LK1.
      unfold tail. apply ends_bind, ends_get. rewrite EA1, NDe, andb_false_r. cbn [andb]. cbv iota.
      apply ends_bind, ends_ret, ends_bind.
      assert (SM : ends (sync_model env (Some r) (e_keys e) (plus_attrs e)) s1 (fun s' x => snd x = Some r /\
        exists w', s' = set_ss_w s1 w' /\ good w' /\ moved (eq (akey e)) None (ss_w s1) w' /\
        (forall k, look w' dst k = look (ss_w s1) dst k) /\
        (exists o2, nth_error (w_heap w') r = Some o2 /\ same_but (hooked e) o o2) /\
        (forall x, x <> r -> nth_error (w_heap w') x = nth_error (w_heap (ss_w s1)) x))).
      { destruct EA as [EA|EA].
        - eapply ends_weak; [apply sync_none; congruence|]. cbv beta. intros s' x (-> & w' & -> & QU). split; [reflexivity|].
          exists w'. split; [reflexivity|]. pose proof (quiet_calm env da (eq (akey e)) _ _ G1 QU) as (X1 & X2 & X3 & X4).
          split; [exact X1|]. split; [exact X2|]. split; [exact X3|]. destruct QU as (Q1 & _ & _). rewrite Q1. split; [|reflexivity].
          exists o2. split; [exact H2|]. rewrite (plus_none e EA) in S1. cbn in S1. injection S1 as <-. apply same_data_but. exact D2.
        - assert (EA1' : ss_action s1 = Some AUpdate) by congruence.
          eapply ends_weak; [apply (sync_update env da WX HOOKS WRITES (eq (akey e)) (akey e) r o2 o3 (e_keys e) (plus_attrs e) s1 G1 EA1' H2 eq_refl LR1 S3 RL)|].
          cbv beta. intros s' x (-> & w' & -> & X1 & X2 & X3 & X4 & (o4 & H4 & D4) & X6). split; [reflexivity|].
          exists w'. split; [reflexivity|]. split; [exact X1|]. split; [exact X2|]. split; [exact X3|]. split; [|exact X6].
          exists o4. split; [exact H4|]. eapply same_but_trans; [apply same_data_but; exact D3|].
          eapply same_but_weak; [|exact D4]. intros k HX. split; [congruence|exact HX]. }
      eapply ends_weak; [exact SM|]. cbv beta. intros s2 x (EX & w2 & -> & G2 & M2 & LK2 & (o4 & H4 & D4) & NT2). rewrite EX.
      apply ends_bind, ends_get. cbn [ss_action set_ss_w]. rewrite EA1.
      assert (AP : apply_to_store env (e_action e) P r skip = ret false).
      { unfold apply_to_store. destruct EA as [-> | ->]; reflexivity. }
      rewrite AP. apply ends_bind, ends_slift, ends_ret. cbv iota. rewrite NDe. simpl negb. rewrite orb_true_r. cbv iota.
      eapply finish_incr; cbn [ss_w set_ss_w ss_action]; eauto.
      - apply moved_none. eapply moved_trans; [exact M1|exact M2].
      - destruct EA as [-> | ->]; now rewrite LK2.
      - destruct P as [p|]; [|exact Logic.I]. intros po Hp. destruct (D1 p po Hp) as (p1 & Hp1 & E1 & E2 & E3 & E4).
        exists p1. rewrite NT2 by congruence. split; [exact Hp1|]. repeat split; auto. cbn [fold_left]. rewrite E3.
        unfold kids_after. destruct EA as [X|X]; rewrite X;
          repeat (match goal with |- context [match dget ?a ?b with _ => _ end] => destruct (dget a b) end); reflexivity.
    Qed.

    (** the object of a deleted element *)
    Lemma del_obj s1 : calm env da (eq (akey e)) (ss_w s) (ss_w s1) -> e_action e = Some ADelete ->
      exists r o1, look (ss_w s) dst (akey e) = Some r /\ nth_error (w_heap (ss_w s1)) r = Some o1 /\ same_data o o1 /\ P <> Some r.
    Proof.
      intros (G1 & M1 & LK1 & D1) EA. destruct (CE _ (foot_self e)) as (EK & DK).
      pose proof FB as FB'. unfold base in FB'. rewrite EA in FB'. destruct FB' as (r & L1 & H1).
      destruct (DK r o L1 H1) as (ow & Hw & Dw). destruct (D1 r ow Hw) as (o1 & Ho1 & D2). exists r, o1.
      split; [congruence|]. split; [exact Ho1|]. split; [eapply same_data_trans; eauto|].
      intros ->. destruct PO as (po & Hp & _ & _ & UH). apply (UH e (akey e)); [now left|apply foot_self|congruence].
    Qed.

    Lemma tail_cascade s1 natural r o1 : calm env da (eq (akey e)) (ss_w s) (ss_w s1) -> ss_action s1 = e_action e ->
      e_action e = Some ADelete -> look (ss_w s) dst (akey e) = Some r -> nth_error (w_heap (ss_w s1)) r = Some o1 -> P <> Some r ->
      has_flag (o_flags o) MF_SKIP_CHILDREN_ON_DELETE = true ->
      ends (tail e P kids (Some r) natural true) s1 Q.
    Proof.
      intros CA EA1 EA LR H1 NP SK. pose proof CA as (G1 & M1 & LK1 & D1).
      assert (LR1 : look (ss_w s1) dst (akey e) = Some r) by now rewrite LK1.
      assert (EA1' : ss_action s1 = Some ADelete) by congruence.
      unfold tail. apply ends_bind, ends_get. rewrite andb_false_r. apply ends_bind, ends_ret, ends_bind.
      eapply ends_weak; [apply (sync_delete env da WX HOOKS WRITES (eq (akey e)) (akey e) r o1 (e_keys e) (plus_attrs e) s1 G1 EA1' H1 eq_refl LR1)|].
      cbv beta. intros s2 x (-> & w2 & -> & C2 & LN2). pose proof (calm_but_trans _ _ _ _ _ _ _ (calm_is_but _ _ WX _ _ _ CA) C2) as C02.
      pose proof C02 as (G2 & M2 & LK2 & D2). cbn [snd fst]. apply ends_bind, ends_get. cbn [ss_action set_ss_w]. rewrite EA1'.
      apply ends_bind, ends_slift. cbn [ss_w set_ss_w].
      destruct C2 as (_ & _ & _ & D12). destruct (D12 r o1 H1) as (o2 & H2 & _).
      destruct (FD EA) as (DP & CL).
      eapply ends_weak; [apply (apply_cascade_ends e P w2 r o2 EA G2)|].
      - now rewrite LK2.
      - exact H2.
      - eapply par_ok_calm; eauto.
      - exact K0.
      - intros k Fk. eapply linked_calm; [apply cell_linked; now apply CE|exact C02].
      - exact DP.
      - exact CL.
      - split; [exact EA|]. pose proof FB as FB'. unfold base in FB'. rewrite EA in FB'. destruct FB' as (r' & B1 & B2). eauto.
      - cbv beta. intros w4 b (-> & G4 & M4 & PA4 & LN4). cbv iota. apply ends_ret. unfold post. cbn [ss_w ss_action set_ss_w].
        assert (M04 : moved (foot e) P (ss_w s) w4).
        { eapply moved_trans; [eapply moved_weak; [| |exact M2]; [intros k <-; apply foot_self|discriminate]|exact M4]. }
        split; [split; [exact G4|eapply src_moved; [exact M04|apply RD]]|]. split; [exact M04|]. split; [|split; [|auto]].
        + change [e] with (@nil elem ++ [e]). eapply par_after_trans; [eapply par_after_calm; [apply RD|exact C02|exact LR|exact NP]|exact PA4].
        + pose proof (fits_below e FI EA) as SUB.
          intros x Hx. destruct (SUB x Hx) as (EX & RX). unfold done1. rewrite EX. split; [now apply LN4|].
          intros rx ox _ _ _ k RK. apply LN4. eapply reaches_trans; eauto.
    Qed.

    Lemma tail_delete s1 natural r o1 : calm env da (eq (akey e)) (ss_w s) (ss_w s1) -> ss_action s1 = e_action e ->
      e_action e = Some ADelete -> look (ss_w s) dst (akey e) = Some r -> nth_error (w_heap (ss_w s1)) r = Some o1 ->
      same_data o o1 -> P <> Some r -> has_flag (o_flags o) MF_SKIP_CHILDREN_ON_DELETE = false ->
      ends (tail e P kids (Some r) natural false) s1 Q.
    Proof.
      intros CA EA1 EA LR H1 DO NP SK. pose proof CA as (G1 & M1 & LK1 & D1).
      assert (LR1 : look (ss_w s1) dst (akey e) = Some r) by now rewrite LK1.
      assert (EA1' : ss_action s1 = Some ADelete) by congruence.
      unfold tail. apply ends_bind, ends_get. rewrite EA1'. cbn [is_delete negb]. rewrite andb_true_r. rewrite andb_true_r.
      destruct natural; cbv iota.
      - (* children first *)
        assert (InL : forall x, In x L -> In x (children (e_kids e))) by (intros x; apply Permutation_in; exact PM).
        assert (LIn : forall x, In x (children (e_kids e)) -> In x L).
        { intros x. apply Permutation_in. now apply Permutation_sym. }
        assert (RD1 : ready (ss_w s1)) by (eapply ready_calm; [exact RD|apply calm_is_but; exact CA]).
        assert (NF : ~ (exists x, In x L /\ foot x (akey e))) by (intros (x & Hx & Fx); now apply (KI x (InL x Hx))).
        assert (UR : forall k, (exists x, In x L /\ foot x k) -> look (ss_w s1) dst k <> Some r).
        { intros k Fk E. apply NF. now rewrite (look_inj _ _ _ _ G1 LR1 E). }
        assert (PO1 : par_ok (ss_w s1) P [e]) by (eapply par_ok_calm; [exact PO|apply calm_is_but; exact CA]).
        apply ends_bind. eapply ends_weak; [apply (kids_run L)|].
        + intros x Hx. apply RU. auto.
        + eapply Permutation_NoDup; [apply Permutation_sym; exact PM|exact ND].
        + intros x y k Hx Hy. apply DJ; auto.
        + exact RD1.
        + intros x k Hx Fx. eapply cell_calm; [|exact CA]. apply CE. apply (foot_kid x); auto.
        + exists o1. split; [exact H1|]. split; [destruct DO as (-> & _); exact OW|]. split.
          * intros x Hx. eapply kid_fits_same; [exact DO|]. now apply KI, InL.
          * intros x k Hx Fx. apply UR. eauto.
        + cbv beta. intros s2 b2 (RD2 & M2 & PA2 & DN2 & AC2). pose proof RD2 as [G2 _].
          assert (EA2 : ss_action s2 = Some ADelete).
          { apply AC2; [|exact EA1']. intros x Hx. now apply (KI x (InL x Hx)). }
          assert (LR2 : look (ss_w s2) dst (akey e) = Some r) by (rewrite (mv_look _ _ _ _ _ M2 _ NF); exact LR1).
          destruct (PA2 o1 H1) as (o2 & H2 & _). clear PA2.
          apply ends_bind. eapply ends_weak;
            [apply (sync_delete env da WX HOOKS WRITES (eq (akey e)) (akey e) r o2 (e_keys e) (plus_attrs e) s2 G2 EA2 H2 eq_refl LR2)|].
          cbv beta. intros s3 x (-> & w3 & -> & C3 & LN3). pose proof C3 as (G3 & M3 & LK3 & D3). cbn [snd fst].
          apply ends_bind, ends_get. cbn [ss_action set_ss_w]. rewrite EA2. apply ends_bind, ends_slift. cbn [ss_w set_ss_w].
          destruct (D3 r o2 H2) as (o3 & H3 & _).
          assert (PD : forall p po, P = Some p -> nth_error (w_heap (ss_w s1)) p = Some po ->
            exists po', nth_error (w_heap w3) p = Some po' /\ same_data po po').
          { intros p po EP Hp. destruct (mv_heap _ _ _ _ _ M2 p po Hp) as (p2 & Hp2 & DP2).
            - intros k (x & Hx & Fx). rewrite EP in PO1. destruct PO1 as (_ & _ & _ & _ & UH).
              apply (UH e k); [now left|]. apply (foot_kid x); auto.
            - intros X. apply NP. now rewrite X.
            - destruct (mv_heap _ _ _ _ _ M3 p p2 Hp2) as (p3 & Hp3 & DP3); [|discriminate|].
              { intros k <- E. apply NP. congruence. }
              exists p3. split; [exact Hp3|]. eapply same_data_trans; eauto. }
          assert (PO3 : par_ok w3 P [e]).
          { destruct P as [p|]; [|exact Logic.I]. destruct PO1 as (po & Hp & OWp & KF & UH).
            destruct (PD p po eq_refl Hp) as (p3 & Hp3 & DP3). exists p3. split; [exact Hp3|].
            split; [destruct DP3 as (-> & _); exact OWp|]. split; [intros x Hx; eapply kid_fits_same; eauto|].
            intros x k Hx Fx. rewrite LK3. eapply unheld_moved; [exact M2|exact Hp|]. eauto. }
          assert (LR3 : look w3 dst (akey e) = Some r) by now rewrite LK3.
          eapply ends_weak; [apply (apply_delete_ends e P w3 r o3 EA G3 LR3 H3 PO3)|].
          cbv beta. intros w4 b (-> & G4 & M4 & PA4 & LN4 & _). cbn [negb orb is_delete]. apply ends_bind.
          eapply ends_weak; [apply incr_ends|]. cbv beta. cbn [ss_w ss_action set_ss_w]. intros s5 x5 (EA5 & QU).
          apply ends_ret. pose proof (quiet_calm env da (eq (akey e)) _ _ G4 QU) as (G5 & M5 & LK5 & D5).
          assert (M25 : moved (eq (akey e)) P (ss_w s2) (ss_w s5)).
          { eapply moved_trans; [apply moved_none; exact M3|]. eapply moved_trans; [exact M4|]. apply moved_none. exact M5. }
          assert (M05 : moved (foot e) P (ss_w s) (ss_w s5)).
          { assert (M12 : moved (foot e) (Some r) (ss_w s1) (ss_w s2)).
            { eapply moved_weak; [| |exact M2]; [|auto]. intros k (x & Hx & Fx). apply (foot_kid x); auto. }
            assert (M25' : moved (foot e) P (ss_w s2) (ss_w s5)).
            { eapply moved_weak; [| |exact M25]; [intros k <-; apply foot_self|auto]. }
            assert (M02 : moved (foot e) P (ss_w s) (ss_w s2)).
            { eapply (moved_gen dst (foot e) P (Some r)); [eapply moved_weak; [| |exact M1]; [intros k <-; apply foot_self|discriminate]|exact M12|].
              intros x E N. injection E as <-. right. exists (akey e). split; [apply foot_self|exact LR]. }
            eapply moved_trans; [exact M02|exact M25']. }
          assert (UHP : forall p k, P = Some p -> foot e k -> look (ss_w s2) dst k <> Some p).
          { intros p k EP Fk. rewrite EP in PO1. destruct PO1 as (po & Hp & _ & _ & UH).
            eapply unheld_moved; [exact M2|exact Hp|]. apply (UH e k); [now left|exact Fk]. }
          unfold post. split; [split; [exact G5|eapply src_moved; [exact M05|apply RD]]|]. split; [exact M05|]. split; [|split].
          * change [e] with (@nil elem ++ [e] ++ []). eapply par_after_trans; [|eapply par_after_trans; [exact PA4|]].
            -- apply par_after_data. intros p po EP Hp. destruct (D1 p po Hp) as (p1 & Hp1 & DP1).
               destruct (PD p p1 EP Hp1) as (p3 & Hp3 & DP3). exists p3. split; [exact Hp3|]. eapply same_data_trans; eauto.
            -- apply par_after_data. intros p po _. apply D5.
          * intros x Hx. apply elem_all_kids in Hx as [E|(y & Hy & Hx)].
            -- subst x. unfold done1. rewrite EA. split; [now rewrite LK5|].
               intros r' o' E H HF. exfalso. rewrite (base_skip e o FB r' o' EA E H) in HF. congruence.
            -- assert (DY : done y (ss_w s5)); [|now apply DY].
               eapply done_moved; [exact G2|apply DN2; now apply LIn|exact M25| |].
               ++ intros k Fk <-. apply NF. exists y. split; [now apply LIn|exact Fk].
               ++ intros p k EP Fk. apply (UHP p k EP). apply (foot_kid y); auto.
          * intros _. congruence.
      - (* children afterwards *)
        apply ends_bind, ends_ret, ends_bind.
        eapply ends_weak; [apply (sync_delete env da WX HOOKS WRITES (eq (akey e)) (akey e) r o1 (e_keys e) (plus_attrs e) s1 G1 EA1' H1 eq_refl LR1)|].
        cbv beta. intros s2 x (-> & w2 & -> & C2 & LN2). pose proof (calm_but_trans _ _ _ _ _ _ _ (calm_is_but _ _ WX _ _ _ CA) C2) as C02.
        pose proof C02 as (G2 & M2 & LK2 & D2). cbn [snd fst]. apply ends_bind, ends_get. cbn [ss_action set_ss_w]. rewrite EA1'.
        apply ends_bind, ends_slift. cbn [ss_w set_ss_w].
        destruct C2 as (_ & _ & _ & D12). destruct (D12 r o1 H1) as (o2 & H2 & DO2).
        assert (LR2 : look w2 dst (akey e) = Some r) by now rewrite LK2.
        eapply ends_weak; [apply (apply_delete_ends e P w2 r o2 EA G2 LR2 H2)|]; [eapply par_ok_calm; eauto|].
        cbv beta. intros w4 b (-> & G4 & M4 & PA4 & LN4 & o4 & H4 & D4). cbn [negb orb is_delete].
        eapply finish_incr; cbn [ss_w set_ss_w ss_action]; eauto.
        + eapply moved_trans; [apply moved_none; exact M2|exact M4].
        + eapply same_but_trans; [apply same_data_but; exact DO|].
          eapply same_but_trans; [eapply same_but_weak; [|exact DO2]|apply same_data_but; exact D4].
          intros k HX. split; [congruence|exact HX].
        + rewrite EA. auto.
        + change [e] with (@nil elem ++ [e]). eapply par_after_trans; [eapply par_after_calm; [apply RD|exact C02|exact LR|exact NP]|exact PA4].
    Qed.
  End Tail.

  Lemma run_one e : fits e -> keyed w0 dst -> (forall x, In x (children (e_kids e)) -> runs x) -> runs e.
  Proof.
    intros FI K0 RU P s RD CE PO. inversion FI as [e' c o HC HN HU FB OW FC FN FD ND DJ KI FK]; subst e'.
    rewrite sync_elem_eq, ordered_map. eapply prefix; eauto. intros s1 natural skip CA EA1 EC1 FL.
    change (ends (tail e P (map (sync_elem ord env) (ordered ord (fun x => x) (e_kids e))) (look (ss_w s) dst (akey e)) natural skip) s1
      (fun s' _ => post e P s s')).
    destruct (CE _ (foot_self e)) as (EK & DK).
    assert (KEEP : e_action e = None \/ e_action e = Some AUpdate -> exists r, look (ss_w s) dst (akey e) = Some r).
    { intros EA. unfold base in FB. destruct EA as [EA|EA]; rewrite EA in FB; destruct FB as (r & o1 & L1 & _); exists r; congruence. }
    assert (AC : e_action e = Some ACreate \/ (e_action e = None \/ e_action e = Some AUpdate) \/ e_action e = Some ADelete).
    { destruct (e_action e) as [[| |]|]; auto. }
    destruct AC as [EA|[EA|EA]].
    - destruct (FC EA) as (LN & _). rewrite <- EK in LN. rewrite LN in *. destruct FL as [-> ->]. eapply tail_create; eauto.
    - destruct (KEEP EA) as (r & LR). rewrite LR. eapply tail_keep; eauto.
    - destruct (del_obj e o FB P s CE PO s1 CA EA) as (r & o1 & LR & H1 & DO & NP). rewrite LR in *.
      destruct FL as (o1' & H1' & -> & ->). rewrite H1 in H1'. injection H1' as <-.
      assert (FE : o_flags o1 = o_flags o) by apply DO. rewrite FE.
      destruct (has_flag (o_flags o) MF_SKIP_CHILDREN_ON_DELETE) eqn:SK.
      + eapply tail_cascade; eauto.
      + eapply tail_delete; eauto.
  Qed.

  Lemma elem_runs e : fits e -> keyed w0 dst -> runs e.
  Proof.
    induction e as [e IH] using elem_ind'. intros FI K0. apply run_one; auto. intros x Hx.
    inversion FI as [e' c o HC HN HU FB OW FC FN FD ND DJ KI FK]; subst e'.
    pose proof Hx as Hx'. apply In_children in Hx' as (t & g & n & Hg & Hn). eapply IH; eauto.
  Qed.
End Run.
