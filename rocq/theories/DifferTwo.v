(** * DifferTwo: relations between two calculations (C17, C10, C12), order (C16), depth (C14). *)
From Verif Require Export DifferMore.

(** ** C17 *)
Section Agree.
  Lemma agrees_dump o o' names : agrees o o' ->
    incl names (c_identifiers (o_cls o) ++ c_shortname (o_cls o) ++ c_attributes (o_cls o)) ->
    dump_include o' names = dump_include o names.
  Proof.
    intros (_ & _ & _ & F) I. unfold dump_include. induction F as [|[k v] [k' v'] l l' [E H] F IH]; [reflexivity|].
    simpl in *. subst k'. rewrite IH. destruct (smem k names) eqn:M; [|reflexivity]. rewrite H; [reflexivity|]. apply I, smem_In, M.
  Qed.
  Lemma agrees_val o o' k : agrees o o' -> In k (c_identifiers (o_cls o) ++ c_shortname (o_cls o) ++ c_attributes (o_cls o)) ->
    dget (o_vals o') k = dget (o_vals o) k.
  Proof.
    intros (_ & _ & _ & F) I. induction F as [|[k1 v] [k' v'] l l' [E H] F IH]; [reflexivity|].
    simpl in *. subst k'. destruct (String.eqb_spec k k1) as [->|N]; [now rewrite H|exact IH].
  Qed.
  Lemma agrees_ids o o' : agrees o o' -> get_identifiers o' = get_identifiers o.
  Proof.
    intros A. unfold get_identifiers. rewrite (proj1 A). apply agrees_dump; [exact A|]. intros x I. apply in_app_iff. now left.
  Qed.
  Lemma agrees_attrs o o' : agrees o o' -> get_attrs o' = get_attrs o.
  Proof.
    intros A. unfold get_attrs. rewrite (proj1 A). apply agrees_dump; [exact A|]. intros x I. rewrite !in_app_iff. auto.
  Qed.
  Lemma agrees_uid o o' : agrees o o' -> get_unique_id o' = get_unique_id o.
  Proof. intros A. unfold get_unique_id. now rewrite (agrees_ids _ _ A), (proj1 A). Qed.
  Lemma rmapM_ext_in' {A B} (f g : A -> result B) l : (forall x, In x l -> f x = g x) -> rmapM f l = rmapM g l.
  Proof.
    induction l as [|x l IH]; intros H; [reflexivity|]. simpl. rewrite (H x (or_introl eq_refl)), IH; [reflexivity|]. intros y I. apply H. now right.
  Qed.
  Lemma agrees_short o o' : agrees o o' -> get_shortname o' = get_shortname o.
  Proof.
    intros A. unfold get_shortname. rewrite (proj1 A), (agrees_uid _ _ A). destruct (c_shortname (o_cls o)) as [|k0 ks] eqn:C; [reflexivity|].
    f_equal. apply rmapM_ext_in'. intros k I. unfold getattr_val. rewrite (agrees_val _ _ k A); [reflexivity|].
    rewrite C, !in_app_iff. auto.
  Qed.
  Lemma agrees_refl o : agrees o o.
  Proof. repeat split. apply PureDiffer.Forall2_refl. auto. Qed.

  Definition rrel {A} (P : A -> A -> Prop) (r r' : result A) : Prop :=
    match r, r' with Ok a, Ok a' => P a a' | Err e, Err e' => e = e' | _, _ => False end.
  Definition orel (o o' : option obj) : Prop :=
    match o, o' with Some a, Some a' => agrees a a' | None, None => True | _, _ => False end.
  Definition drel (d d' : dict obj) : Prop := Forall2 (fun kv kv' => fst kv = fst kv' /\ agrees (snd kv) (snd kv')) d d'.
  Lemma drel_get d d' k : drel d d' -> orel (dget d k) (dget d' k).
  Proof. induction 1 as [|[k1 v] [k2 v'] l l' [E H] F IH]; simpl in *; [exact I|]. subst k2. destruct (String.eqb k k1); [exact H|exact IH]. Qed.
  Lemma drel_keys d d' : drel d d' -> dkeys d = dkeys d'.
  Proof. induction 1 as [|[k1 v] [k2 v'] l l' [E H] F IH]; simpl in *; congruence. Qed.
  Lemma drel_set d d' k o o' : drel d d' -> agrees o o' -> drel (dset d k o) (dset d' k o').
  Proof.
    intros F A. induction F as [|[k1 v] [k2 v'] l l' [E H] F IH]; simpl in *.
    - constructor; [auto|constructor].
    - subst k2. destruct (String.eqb k k1); constructor; auto.
  Qed.
  Lemma index_rel ss ss' : Forall2 agrees ss ss' -> forall d d', drel d d' -> rrel drel (index_by_uid ss d) (index_by_uid ss' d').
  Proof.
    induction 1 as [|o o' ss ss' A F IH]; intros d d' D; simpl; [exact D|]. rewrite (agrees_uid _ _ A).
    destruct (get_unique_id o) as [u|e]; simpl; [|reflexivity]. apply IH. now apply drel_set.
  Qed.
  Definition prel (p p' : string * (option obj * option obj)) : Prop :=
    fst p = fst p' /\ orel (fst (snd p)) (fst (snd p')) /\ orel (snd (snd p)) (snd (snd p')).
  Lemma pair_up_rel ds ds' dd dd' : drel ds ds' -> drel dd dd' -> Forall2 prel (pair_up ds dd) (pair_up ds' dd').
  Proof.
    intros D1 D2. rewrite !pair_up_eq, <- (drel_keys _ _ D1), <- (drel_keys _ _ D2).
    induction (keep_first (dkeys ds ++ dkeys dd)) as [|u l IH]; constructor; [|exact IH].
    split; [reflexivity|]. split; simpl; now apply drel_get.
  Qed.
  Lemma validate_rel l l' : Forall2 prel l l' -> validate_pairs (dvals l) = validate_pairs (dvals l').
  Proof.
    induction 1 as [|[u [so do]] [u' [so' do']] l l' (_ & P1 & P2) F IH]; [reflexivity|]. simpl in *. rewrite IH.
    assert (X : validate_pair (so, do) = validate_pair (so', do')).
    { destruct so as [s|], so' as [s'|]; try contradiction; destruct do as [d|], do' as [d'|]; try contradiction; try reflexivity. simpl in *.
      rewrite (agrees_short _ _ P1), (agrees_short _ _ P2), (agrees_ids _ _ P1), (agrees_ids _ _ P2).
      unfold get_type. now rewrite (proj1 P1), (proj1 P2). }
    simpl in X |- *. rewrite X. reflexivity.
  Qed.
  Lemma skip_rel flags so so' do do' : orel so so' -> orel do do' -> skip_pair flags so do = skip_pair flags so' do'.
  Proof.
    destruct so as [s|], so' as [s'|]; try contradiction; destruct do as [d|], do' as [d'|]; try contradiction; simpl; intros P1 P2.
    - now rewrite (proj1 (proj2 P1)), (proj1 (proj2 P2)).
    - now rewrite (proj1 (proj2 P1)).
    - now rewrite (proj1 (proj2 P2)).
    - reflexivity.
  Qed.
  Lemma wbind_ext {A B} (m m' : W A) (k k' : A -> W B) : m = m' -> (forall a, snd m = Ok a -> k a = k' a) -> wbind m k = wbind m' k'.
  Proof. intros <- H. unfold wbind. destruct (snd m) as [a|e]; [|reflexivity]. now rewrite (H a eq_refl). Qed.
  Lemma wbind_lift_Err {A B} e (k : A -> W B) : wbind (wlift (Err e)) k = ([], Err e).
  Proof. reflexivity. Qed.
  Lemma wbind_lift_Ok {A B} a (k : A -> W B) : wbind (wlift (Ok a)) k = k a.
  Proof. unfold wbind. simpl. now destruct (k a). Qed.
  Lemma wforM_ext {A} (l : list A) f g : (forall x, f x = g x) -> wforM l f = wforM l g.
  Proof. intros H. induction l as [|x l IH]; simpl; [reflexivity|]. now rewrite H, IH. Qed.
  Lemma mapping_rel so so' do do' : orel so so' -> orel do do' -> pchildren_mapping so do = pchildren_mapping so' do'.
  Proof.
    destruct so as [s|], so' as [s'|]; try contradiction; destruct do as [d|], do' as [d'|]; try contradiction; cbn [orel pchildren_mapping]; intros P1 P2.
    - unfold get_children_mapping. rewrite (proj1 P1), (proj1 P2).
      assert (K : forall o o' f, agrees o o' -> kids_len o f = kids_len o' f).
      { intros o o' f A. unfold kids_len, getattr_kids. now rewrite (proj1 (proj2 (proj2 A))). }
      apply wbind_ext; [|intros _ _; apply wbind_ext; [|reflexivity]]; apply wforM_ext; intros x.
      + now rewrite (K _ _ (snd x) P1).
      + now rewrite (K _ _ (snd x) P2).
    - unfold get_children_mapping. now rewrite (proj1 P1).
    - unfold get_children_mapping. now rewrite (proj1 P2).
    - reflexivity.
  Qed.

  Section TwoRuns.
    Variable flags : N.
    Variables sn dn : string.
    Variables rs rd rs' rd' : list string -> string -> result (list obj).
    Hypothesis rs_rel : forall us t, rrel (Forall2 agrees) (rs us t) (rs' us t).
    Hypothesis rd_rel : forall us t, rrel (Forall2 agrees) (rd us t) (rd' us t).

    Lemma kids_rel r r' o o' f t : (forall us t, rrel (Forall2 agrees) (r us t) (r' us t)) -> orel o o' ->
      rrel (Forall2 agrees) (kids_of r o f t) (kids_of r' o' f t).
    Proof.
      intros R A. destruct o as [o|], o' as [o'|]; try contradiction; simpl; [|constructor].
      rewrite (proj1 (proj2 (proj2 A))). destruct (dget (o_kids o) f); [apply R|reflexivity].
    Qed.
    Section Step2.
      Variables prec prec' : list obj -> list obj -> W (list elem).
      Hypothesis prec_rel : forall ss ss' dd dd', Forall2 agrees ss ss' -> Forall2 agrees dd dd' -> prec ss dd = prec' ss' dd'.
      Lemma pchild_types_rel so so' do do' mapping : orel so so' -> orel do do' -> forall gs,
        pchild_types rs rd prec so do mapping gs = pchild_types rs' rd' prec' so' do' mapping gs.
      Proof.
        intros P1 P2. induction mapping as [|[t f] mp IH]; intros gs; [reflexivity|]. cbn [pchild_types].
        pose proof (kids_rel rs rs' so so' f t rs_rel P1) as K1. pose proof (kids_rel rd rd' do do' f t rd_rel P2) as K2.
        destruct (kids_of rs so f t) as [ss|e1], (kids_of rs' so' f t) as [ss'|e1']; try contradiction;
          [|simpl in K1; subst e1'; now rewrite !wbind_lift_Err].
        destruct (kids_of rd do f t) as [dd|e2], (kids_of rd' do' f t) as [dd'|e2']; try contradiction;
          [|simpl in K2; subst e2'; now rewrite !wbind_lift_Ok, !wbind_lift_Err].
        simpl in K1, K2.
        assert (X : wbind (prec ss dd) (fun es => wbind (wlift (add_elems gs es)) (fun gs' => pchild_types rs rd prec so do mp gs')) =
                    wbind (prec' ss' dd') (fun es => wbind (wlift (add_elems gs es)) (fun gs' => pchild_types rs' rd' prec' so' do' mp gs'))).
        { apply wbind_ext; [now apply prec_rel|]. intros es _. apply wbind_ext; [reflexivity|]. intros gs' _. apply IH. }
        rewrite !wbind_lift_Ok. exact X.
      Qed.
      Lemma ppair_rel so so' do do' : orel so so' -> orel do do' ->
        ppair flags sn dn rs rd prec so do = ppair flags sn dn rs' rd' prec' so' do'.
      Proof.
        intros P1 P2. unfold ppair. rewrite <- (skip_rel flags _ _ _ _ P1 P2), <- (mapping_rel _ _ _ _ P1 P2).
        assert (E : orel (either so do) (either so' do')).
        { destruct so as [s|], so' as [s'|]; try contradiction; simpl; [exact P1|exact P2]. }
        assert (AS : option_map get_attrs so' = option_map get_attrs so).
        { destruct so as [s|], so' as [s'|]; try contradiction; simpl; [|reflexivity]. now rewrite (agrees_attrs _ _ P1). }
        assert (AD : option_map get_attrs do' = option_map get_attrs do).
        { destruct do as [s|], do' as [s'|]; try contradiction; simpl; [|reflexivity]. now rewrite (agrees_attrs _ _ P2). }
        rewrite AS, AD. destruct (either so do) as [o|], (either so' do') as [o'|]; try contradiction; [|reflexivity]. simpl in E.
        rewrite (agrees_uid _ _ E), (agrees_short _ _ E), (agrees_ids _ _ E). unfold get_type. rewrite (proj1 E).
        assert (TT : ((if so then 1 else 0) + (if do then 1 else 0) = (if so' then 1 else 0) + (if do' then 1 else 0))).
        { destruct so, so'; try contradiction; destruct do, do'; try contradiction; reflexivity. }
        rewrite TT.
        apply wbind_ext; [reflexivity|]. intros u _. apply wbind_ext; [reflexivity|]. intros n _.
        destruct (skip_pair flags so do); [reflexivity|]. apply wbind_ext; [reflexivity|]. intros _ _.
        apply wbind_ext; [reflexivity|]. intros mp _. apply wbind_ext; [now apply pchild_types_rel|]. reflexivity.
      Qed.
      Lemma ppairs_rel l l' : Forall2 prel l l' -> ppairs flags sn dn rs rd prec l = ppairs flags sn dn rs' rd' prec' l'.
      Proof.
        induction 1 as [|[u [so do]] [u' [so' do']] l l' (_ & P1 & P2) F IH]; [reflexivity|]. cbn [ppairs]. simpl in P1, P2.
        apply wbind_ext; [now apply ppair_rel|]. intros e _. now rewrite IH.
      Qed.
    End Step2.
    Lemma plist_rel n : forall ss ss' dd dd', Forall2 agrees ss ss' -> Forall2 agrees dd dd' ->
      plist flags sn dn rs rd n ss dd = plist flags sn dn rs' rd' n ss' dd'.
    Proof.
      induction n as [|n IH]; intros ss ss' dd dd' F1 F2; [reflexivity|]. cbn [plist]. unfold plist_body.
      pose proof (index_rel _ _ F1 [] [] (Forall2_nil _)) as I1. pose proof (index_rel _ _ F2 [] [] (Forall2_nil _)) as I2.
      destruct (index_by_uid ss []) as [ds|e], (index_by_uid ss' []) as [ds'|e']; try contradiction;
        [|simpl in I1; subst e'; now rewrite !wbind_lift_Err].
      destruct (index_by_uid dd []) as [de|e], (index_by_uid dd' []) as [de'|e']; try contradiction;
        [|simpl in I2; subst e'; now rewrite !wbind_lift_Ok, !wbind_lift_Err].
      simpl in I1, I2. pose proof (pair_up_rel _ _ _ _ I1 I2) as PU. rewrite !wbind_lift_Ok.
      apply wbind_ext.
      { now rewrite (Forall2_length' _ _ _ F1), (Forall2_length' _ _ _ F2), (Forall2_length' _ _ _ PU). }
      intros _ _. apply wbind_ext; [now rewrite (validate_rel _ _ PU)|]. intros _ _. now apply ppairs_rel.
    Qed.
  End TwoRuns.
End Agree.

(** *** what agreeing worlds hold *)
Lemma rmapM_rel {A} (P : obj -> obj -> Prop) (f f' : A -> result obj) l : (forall x, rrel P (f x) (f' x)) -> rrel (Forall2 P) (rmapM f l) (rmapM f' l).
Proof.
  intros H. induction l as [|x l IH]; simpl; [constructor|]. specialize (H x).
  destruct (f x) as [a|e], (f' x) as [a'|e']; try contradiction; simpl in *; [|exact H].
  destruct (rmapM f l) as [bs|e], (rmapM f' l) as [bs'|e']; try contradiction; simpl in *; [now constructor|exact IH].
Qed.
Lemma nth_rel l l' r : Forall2 agrees l l' -> orel (nth_error l r) (nth_error l' r).
Proof. intros F. revert r. induction F as [|o o' l l' A F IH]; intros [|r]; simpl; auto; exact I. Qed.
Lemma deref_rel w w' rs : agrees_world w w' -> rrel (Forall2 agrees) (deref w rs) (deref w' rs).
Proof.
  intros (H & _ & _). apply rmapM_rel. intros r. pose proof (nth_rel _ _ r H) as X.
  destruct (nth_error (w_heap w) r), (nth_error (w_heap w') r); try contradiction; [exact X|reflexivity].
Qed.
Lemma agrees_adapter o o' a : agrees o o' -> agrees (set_o_adapter o a) (set_o_adapter o' a).
Proof. intros A. exact A. Qed.
Lemma redis_rel w w' a k : agrees_world w w' ->
  rrel agrees (match dget (w_redis w) k with Some o => Ok (set_o_adapter o (Some a)) | None => Err ObjectNotFound end)
              (match dget (w_redis w') k with Some o => Ok (set_o_adapter o (Some a)) | None => Err ObjectNotFound end).
Proof.
  intros (_ & R & _). pose proof (drel_get _ _ k R) as X. destruct (dget (w_redis w) k), (dget (w_redis w') k); try contradiction; [|reflexivity].
  apply agrees_adapter. exact X.
Qed.
Lemma objs_all_rel w w' a t : agrees_world w w' -> rrel (Forall2 agrees) (objs_all w a t) (objs_all w' a t).
Proof.
  intros A. unfold objs_all. destruct A as (H & R & AD) eqn:Q. rewrite AD. clear Q.
  destruct (nth_error (w_ads w) a) as [ad|]; [|reflexivity]. destruct (ad_store ad) as [d|sid].
  - apply deref_rel. exact A.
  - rewrite <- (drel_keys _ _ R). apply rmapM_rel. intros k. now apply redis_rel.
Qed.
Lemma objs_by_rel w w' a us t : agrees_world w w' -> rrel (Forall2 agrees) (objs_by w a us t) (objs_by w' a us t).
Proof.
  intros A. unfold objs_by. destruct us as [|u us]; [constructor|]. destruct A as (H & R & AD) eqn:Q. rewrite AD. clear Q.
  destruct (nth_error (w_ads w) a) as [ad|]; [|reflexivity]. destruct (ad_store ad) as [d|sid].
  - match goal with |- rrel _ (rbind ?x _) _ => destruct x as [rs|e] end; simpl; [|reflexivity]. apply deref_rel. exact A.
  - apply rmapM_rel. intros k. now apply redis_rel.
Qed.
Lemma agrees_w_ok w w' : agrees_world w w' -> w_ok w -> w_ok w'.
Proof.
  intros (H & _ & AD) OK a ad d m b u r E ES I1 I2. rewrite AD in E. rewrite <- (Forall2_length' _ _ _ H). eapply OK; eauto.
Qed.
Lemma count_rel w w' a : agrees_world w w' -> count_all w' a = count_all w a.
Proof.
  intros (_ & R & AD). unfold count_all. rewrite AD. destruct (nth_error (w_ads w) a) as [ad|]; [|reflexivity].
  destruct (ad_store ad); [reflexivity|]. unfold scan. now rewrite (drel_keys _ _ R).
Qed.
Lemma pdiff_rel w w' n flags src dst sa da : agrees_world w w' -> pdiff n flags w' src dst sa da = pdiff n flags w src dst sa da.
Proof.
  intros A. unfold pdiff, pcalc. apply wbind_ext.
  - apply wforM_ext. intros t.
    assert (X : forall a, wbind (wlift (objs_all w' a t)) (fun l => wtick (length l)) = wbind (wlift (objs_all w a t)) (fun l => wtick (length l))).
    { intros a. pose proof (objs_all_rel w w' a t A) as R. destruct (objs_all w a t), (objs_all w' a t); try contradiction; simpl in R.
      - now rewrite !wbind_lift_Ok, (Forall2_length' _ _ _ R).
      - now subst. }
    destruct (smem t (ad_top da)); [apply X|]. destruct (smem t (ad_top sa)); [apply X|reflexivity].
  - intros _ _. generalize (@nil (string * dict elem)) as gs. induction (intersection (ad_top da) (ad_top sa)) as [|t l IH]; intros gs; [reflexivity|].
    cbn [ptypes]. pose proof (objs_all_rel w w' src t A) as R1. pose proof (objs_all_rel w w' dst t A) as R2.
    destruct (objs_all w src t) as [ss|], (objs_all w' src t) as [ss'|]; try contradiction; [|simpl in R1; subst; now rewrite !wbind_lift_Err].
    destruct (objs_all w dst t) as [dd|], (objs_all w' dst t) as [dd'|]; try contradiction; [|simpl in R2; subst; now rewrite !wbind_lift_Ok, !wbind_lift_Err].
    rewrite !wbind_lift_Ok. apply wbind_ext.
    + symmetry. apply plist_rel; auto; intros; now apply objs_by_rel.
    + intros es _. apply wbind_ext; [reflexivity|]. intros gs' _. apply IH.
Qed.
Lemma diff_from_rel w w' n dst src dc flags cb sa da : w_ok w -> agrees_world w w' ->
  nth_error (w_ads w) src = Some sa -> nth_error (w_ads w) dst = Some da ->
  snd (diff_from n dst src dc flags cb w') = snd (diff_from n dst src dc flags cb w).
Proof.
  intros OK A HS HD. destruct (diff_from_pure n dst src dc flags cb w sa da OK HS HD) as (w1 & E & _).
  assert (HS' : nth_error (w_ads w') src = Some sa) by (destruct A as (_ & _ & ->); exact HS).
  assert (HD' : nth_error (w_ads w') dst = Some da) by (destruct A as (_ & _ & ->); exact HD).
  destruct (diff_from_pure n dst src dc flags cb w' sa da (agrees_w_ok _ _ A OK) HS' HD') as (w2 & E' & _).
  rewrite E, E'. cbn [snd]. now rewrite (pdiff_rel w w' n flags src dst sa da A).
Qed.

(** ** Which lists of elements can be grouped *)
Definition tagged (e : elem) : string * string := (e_type e, e_name e).
Lemma NoDup_map_filter {A B} (f : A -> B) p l : NoDup (map f l) -> NoDup (map f (filter p l)).
Proof.
  induction l as [|x l IH]; simpl; intros H; [exact H|]. inversion H as [|? ? H1 H2]; subst. destruct (p x); simpl; [|auto].
  constructor; [|auto]. intros I. apply H1. apply in_map_iff in I as (y & E & I). apply filter_In in I as [I _]. rewrite <- E. now apply in_map.
Qed.
Lemma grouped_NoDup gs es : grouped gs es -> NoDup (map tagged es).
Proof.
  intros (_ & G & ND). assert (X : forall t, NoDup (map e_name (filter (fun e => String.eqb (e_type e) t) es))).
  { intros t. specialize (ND t). rewrite G in ND. unfold dkeys in ND. rewrite map_map in ND. exact ND. }
  clear G ND. induction es as [|e es IH]; simpl; constructor.
  - intros I. apply in_map_iff in I as (e' & E & I). unfold tagged in E. injection E as E1 E2.
    specialize (X (e_type e)). simpl in X. rewrite String.eqb_refl in X. simpl in X. inversion X as [|? ? N _]; subst. apply N.
    rewrite <- E2. apply in_map, filter_In. split; [exact I|]. rewrite E1. apply String.eqb_refl.
  - apply IH. intros t. specialize (X t). simpl in X. destruct (String.eqb (e_type e) t); [|exact X]. simpl in X. now inversion X.
Qed.
Lemma grouped_exists es : NoDup (map tagged es) -> exists gs, grouped gs es.
Proof.
  induction es as [|e es IH] using rev_ind; intros H; [exists []; apply grouped_nil|].
  rewrite map_app in H. simpl in H. assert (H1 : NoDup (map tagged es)) by (apply NoDup_remove_1 in H; now rewrite app_nil_r in H).
  destruct (IH H1) as [gs G]. assert (D : dmem (group_of gs (e_type e)) (e_name e) = false).
  { destruct (dmem _ _) eqn:D; [|reflexivity]. exfalso. apply dmem_In in D. destruct G as (_ & G & _). rewrite G in D.
    unfold dkeys in D. rewrite map_map in D. apply in_map_iff in D as (e' & E & I). apply filter_In in I as [I T]. apply String.eqb_eq in T.
    simpl in H. apply NoDup_remove_2 in H. apply H. rewrite app_nil_r. apply in_map_iff. exists e'. split; [|exact I]. unfold tagged. simpl in E. congruence. }
  destruct (groups_add gs e) as [gs'|] eqn:A; [exists gs'; eapply grouped_add; eauto|]. unfold groups_add in A. rewrite D in A. discriminate.
Qed.
Lemma grouped_group gs es t : grouped gs es -> dvals (group_of gs t) = filter (fun e => String.eqb (e_type e) t) es.
Proof. intros (_ & G & _). rewrite G. unfold dvals. rewrite map_map. apply map_id. Qed.

(** ** C10 *)
Section Prune.
  Variables f0 f1 : N.
  Hypothesis f0_none : N.testbit f0 1 = false /\ N.testbit f0 2 = false.
  Variables sn dn : string.
  Variables rs rd : list string -> string -> result (list obj).

  Definition cut (so do : option obj) : bool :=
    match so, do with Some _, None => N.testbit f1 1 | None, Some _ => N.testbit f1 2 | _, _ => false end.
  Lemma suppressed_more so do : suppressed f1 so do <-> suppressed f0 so do \/ cut so do = true.
  Proof.
    destruct f0_none as [F1 F2]. unfold suppressed, cut. rewrite F1, F2. destruct so, do; intuition discriminate.
  Qed.
  Lemma keeps_cut e so do : describes sn dn e so do -> keeps f1 e = negb (cut so do).
  Proof. intros (_ & _ & S & D & _). unfold keeps, cut. rewrite S, D. destruct so, do; reflexivity. Qed.

  Lemma pruned_tag e e' : pruned f1 e e' -> tagged e' = tagged e.
  Proof. intros H. inversion H; subst. unfold tagged. congruence. Qed.
  Lemma pruned_NoDup es es' : Forall2 (pruned f1) (filter (keeps f1) es) es' -> NoDup (map tagged es) -> NoDup (map tagged es').
  Proof.
    intros F H. apply (NoDup_map_filter _ (keeps f1)) in H. assert (E : map tagged es' = map tagged (filter (keeps f1) es)); [|now rewrite E].
    induction F as [|e e' l l' P F IH]; simpl in *; [reflexivity|]. inversion H; subst. rewrite (pruned_tag _ _ P), IH; auto.
  Qed.
  Lemma Forall2_filter_tag t l l' : Forall2 (pruned f1) l l' ->
    Forall2 (pruned f1) (filter (fun e => String.eqb (e_type e) t) l) (filter (fun e => String.eqb (e_type e) t) l').
  Proof.
    induction 1 as [|e e' l l' P F IH]; simpl; [constructor|]. pose proof (pruned_tag _ _ P) as T. unfold tagged in T. injection T as -> _.
    destruct (String.eqb (e_type e) t); [now constructor|exact IH].
  Qed.
  Lemma grouped_pruned gs gs' es es' : grouped gs es -> grouped gs' es' -> Forall2 (pruned f1) (filter (keeps f1) es) es' ->
    forall t, Forall2 (pruned f1) (filter (keeps f1) (dvals (group_of gs t))) (dvals (group_of gs' t)).
  Proof.
    intros G G' F t. rewrite (grouped_group _ _ t G), (grouped_group _ _ t G'), filter_comm. now apply Forall2_filter_tag.
  Qed.
  Lemma somes_cons {A} (oe : option A) k outs : somes ((oe, k) :: outs) = match oe with Some e => [e] | None => [] end ++ somes outs.
  Proof. reflexivity. Qed.

  Lemma prune n : forall ss dd es k, faithful f0 sn dn rs rd n ss dd es k ->
    exists es' k', faithful f1 sn dn rs rd n ss dd es' k' /\ Forall2 (pruned f1) (filter (keeps f1) es) es'.
  Proof.
    induction n as [|n IH]; intros ss dd es k H; [destruct H|]. destruct H as (us & vs & outs & E1 & E2 & C & F & -> & _).
    assert (X : exists outs', Forall2 (fun u out => pair_ok f1 sn dn rs rd (faithful f1 sn dn rs rd n) (with_uid u ss) (with_uid u dd) out)
                  (keep_first (us ++ vs)) outs' /\ Forall2 (pruned f1) (filter (keeps f1) (somes outs)) (somes outs')).
    { clear E1 E2 C. induction F as [|u out l outs P F IHF]; [exists []; split; constructor|]. destruct IHF as (outs' & F' & FP).
      destruct P as (N & [[S ->]|[S (e & mp & sk & kids & -> & D & CT & FK & G)]]).
      - exists ((None, 1) :: outs'). split; [|exact FP]. constructor; [|exact F']. split; [exact N|]. left. split; [|reflexivity].
        apply suppressed_more. now left.
      - destruct (cut (with_uid u ss) (with_uid u dd)) eqn:CU.
        + exists ((None, 1) :: outs'). split.
          * constructor; [|exact F']. split; [exact N|]. left. split; [|reflexivity]. apply suppressed_more. now right.
          * rewrite somes_cons. simpl. rewrite (keeps_cut _ _ _ D), CU. exact FP.
        + assert (K : exists kids', Forall2 (fun tf (k : list elem * nat) => exists ss' dd', kids_of rs (with_uid u ss) (snd tf) (fst tf) = Ok ss' /\
              kids_of rd (with_uid u dd) (snd tf) (fst tf) = Ok dd' /\ faithful f1 sn dn rs rd n ss' dd' (fst k) (snd k)) mp kids' /\
              Forall2 (pruned f1) (filter (keeps f1) (flat_map fst kids)) (flat_map fst kids')).
          { clear - FK IH. induction FK as [|tf [es k] mp kids (ss' & dd' & K1 & K2 & R) FK IHK]; [exists []; split; constructor|].
            destruct IHK as (kids' & FK' & P). destruct (IH _ _ _ _ R) as (es' & k' & R' & P').
            exists ((es', k') :: kids'). split; [constructor; [|exact FK']; exists ss', dd'; auto|]. simpl. rewrite filter_app. now apply Forall2_app. }
          destruct K as (kids' & FK' & KP).
          destruct (grouped_exists (flat_map fst kids')) as [gs' G']; [eapply pruned_NoDup; [exact KP|now apply grouped_NoDup in G]|].
          set (e' := mkElem (e_type e) (e_name e) (e_keys e) (e_sname e) (e_dname e) (e_src e) (e_dst e) gs').
          exists ((Some e', sk + list_sum (map snd kids')) :: outs'). split.
          * constructor; [|exact F']. split; [exact N|]. right. split.
            { rewrite suppressed_more. intros [A|A]; [contradiction|congruence]. }
            exists e', mp, sk, kids'. split; [reflexivity|]. split; [exact D|]. split; [exact CT|]. split; [exact FK'|exact G'].
          * rewrite !somes_cons. simpl. rewrite (keeps_cut _ _ _ D), CU. simpl. constructor; [|exact FP].
            constructor; try reflexivity. exact (grouped_pruned _ _ _ _ G G' KP). }
    destruct X as (outs' & F' & P). exists (somes outs'), ((length us - length outs') + (length vs - length outs') + list_sum (map snd outs')).
    split; [|exact P]. exists us, vs, outs'. auto 10.
  Qed.
  Lemma prune_diff n w src dst sa da gs k : sn = ad_name sa -> dn = ad_name da -> rs = objs_by w src -> rd = objs_by w dst ->
    faithful_diff f0 n w src dst sa da gs k ->
    exists gs' k', faithful_diff f1 n w src dst sa da gs' k' /\
      forall t, Forall2 (pruned f1) (filter (keeps f1) (dvals (group_of gs t))) (dvals (group_of gs' t)).
  Proof.
    intros ES ED ER ERD (lone & others & per & A1 & A2 & A3 & F & G & _).
    assert (X : exists per', Forall2 (fun t (k : list elem * nat) => exists ss dd, objs_all w src t = Ok ss /\ objs_all w dst t = Ok dd /\
        faithful f1 sn dn rs rd n ss dd (fst k) (snd k)) (filter (fun t => smem t (ad_top sa)) (ad_top da)) per' /\
        Forall2 (pruned f1) (filter (keeps f1) (flat_map fst per)) (flat_map fst per')).
    { rewrite <- ES, <- ED, <- ER, <- ERD in F. clear - F f0_none. induction F as [|t [es k] l per (ss & dd & B1 & B2 & R) F IH]; [exists []; split; constructor|].
      destruct IH as (per' & F' & P). destruct (prune _ _ _ _ _ R) as (es' & k' & R' & P').
      exists ((es', k') :: per'). split; [constructor; [|exact F']; exists ss, dd; auto|]. simpl. rewrite filter_app. now apply Forall2_app. }
    destruct X as (per' & F' & P).
    destruct (grouped_exists (flat_map fst per')) as [gs' G']; [eapply pruned_NoDup; [exact P|now apply grouped_NoDup in G]|].
    exists gs', (list_sum others + list_sum (map snd per')). split.
    - exists lone, others, per'. subst. auto 10.
    - exact (grouped_pruned _ _ _ _ G G' P).
  Qed.
End Prune.
Lemma diff_from_prune n dst src dc f0 f1 cb w sa da d : w_ok w ->
  nth_error (w_ads w) src = Some sa -> nth_error (w_ads w) dst = Some da ->
  N.testbit f0 1 = false -> N.testbit f0 2 = false ->
  snd (diff_from n dst src dc f0 cb w) = Ok d ->
  exists d', snd (diff_from n dst src dc f1 cb w) = Ok d' /\
    forall t, Forall2 (pruned f1) (filter (keeps f1) (dvals (group_of (d_groups d) t))) (dvals (group_of (d_groups d') t)).
Proof.
  intros OK HS HD F1 F2 H. apply (diff_from_iff _ _ _ _ _ _ _ _ _ OK HS HD) in H as (k & F & C & N).
  destruct (prune_diff f0 f1 (conj F1 F2) _ _ _ _ _ _ _ _ _ _ _ _ eq_refl eq_refl eq_refl eq_refl F) as (gs' & k' & F' & P).
  exists (mkDiff dc gs' (tree_sides gs' + k')). split; [|exact P].
  apply (diff_from_iff _ _ _ _ _ _ _ _ _ OK HS HD). exists k'. auto.
Qed.
Lemma diff_from_no_unmatched n dst src dc flags cb w sa da d : w_ok w ->
  nth_error (w_ads w) src = Some sa -> nth_error (w_ads w) dst = Some da ->
  snd (diff_from n dst src dc flags cb w) = Ok d ->
  (N.testbit flags 1 = true -> forall x, occurs x (d_groups d) -> e_action x <> Some ACreate) /\
  (N.testbit flags 2 = true -> forall x, occurs x (d_groups d) -> e_action x <> Some ADelete).
Proof.
  intros OK HS HD H. apply (diff_from_iff _ _ _ _ _ _ _ _ _ OK HS HD) in H as (k & F & C & N).
  assert (X : forall x, occurs x (d_groups d) -> exists so do, describes (ad_name sa) (ad_name da) x so do /\ ~ suppressed flags so do).
  { intros x O. destruct (fd_sound _ _ _ _ _ _ _ _ _ _ F O) as (so & do & SH & D). exists so, do. split; [exact D|]. eapply shown_unsuppressed; eauto. }
  split; intros B x O A; destruct (X x O) as (so & do & D & NS); apply NS; clear NS; destruct D as (_ & _ & S & DD & _);
    unfold e_action, attrs_action in A; rewrite S, DD in A; destruct so, do; simpl in A |- *; try discriminate; auto;
    destruct (existsb _ _); discriminate.
Qed.

