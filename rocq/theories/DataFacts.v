(** * DataFacts: a diff depends on nothing but the data held. *)
From Verif Require Import DataSpec DifferLast RedisFacts.

Lemma agrees_sym o o' : agrees o o' -> agrees o' o.
Proof.
  intros (C & F & K & V). split; [now symmetry|]. split; [now symmetry|]. split; [now symmetry|]. rewrite C.
  induction V as [|x y l m [E H] V IH]; constructor; [|exact IH]. split; [now symmetry|]. intros I. symmetry. apply H. now rewrite <- E.
Qed.
Lemma agrees_trans a b c : agrees a b -> agrees b c -> agrees a c.
Proof.
  intros (C & F & K & V) (C' & F' & K' & V'). split; [congruence|]. split; [congruence|]. split; [congruence|]. rewrite C in V'.
  revert V'. generalize (o_vals c). induction V as [|x y l m [E H] V IH]; intros n V'; inversion V' as [|y' z m' n' [E' H'] V'' X Y]; subst; constructor.
  - split; [congruence|]. intros I. rewrite H'; [now apply H|now rewrite E].
  - now apply IH.
Qed.
Lemma agrees_list_sym l m : Forall2 agrees l m -> Forall2 agrees m l.
Proof. induction 1; constructor; auto. now apply agrees_sym. Qed.
Lemma agrees_list_trans l m n : Forall2 agrees l m -> Forall2 agrees m n -> Forall2 agrees l n.
Proof.
  intros F. revert n. induction F as [|x y l m A F IH]; intros n G; inversion G; subst; constructor; [|now apply IH]. eapply agrees_trans; eauto.
Qed.
Lemma rrel_sym r r' : rrel (Forall2 agrees) r r' -> rrel (Forall2 agrees) r' r.
Proof. destruct r, r'; simpl; try contradiction; [apply agrees_list_sym|now symmetry]. Qed.
Lemma rrel_trans r r' r'' : rrel (Forall2 agrees) r r' -> rrel (Forall2 agrees) r' r'' -> rrel (Forall2 agrees) r r''.
Proof. destruct r, r', r''; simpl; try contradiction; [apply agrees_list_trans|congruence]. Qed.

(** ** Two runs over objects whose child types satisfy [T] *)
Section Typed.
  Variable T : string -> Prop.
  Definition typed (o : obj) : Prop := forall t f, In (t, f) (c_children (o_cls o)) -> T t.
  Definition agreesT (o o' : obj) : Prop := agrees o o' /\ typed o.
  Definition otyped (o : option obj) : Prop := match o with Some x => typed x | None => True end.
  Variable flags : N.
  Variables sn dn : string.
  Variables rs rd rs' rd' : list string -> string -> result (list obj).
  Hypothesis rs_rel : forall us t, T t -> rrel (Forall2 agreesT) (rs us t) (rs' us t).
  Hypothesis rd_rel : forall us t, T t -> rrel (Forall2 agreesT) (rd us t) (rd' us t).

  Lemma agreesT_agrees l l' : Forall2 agreesT l l' -> Forall2 agrees l l'.
  Proof. apply Forall2_if. intros x y [H _]. exact H. Qed.
  Lemma kids_relT r r' o o' f t : (forall us t, T t -> rrel (Forall2 agreesT) (r us t) (r' us t)) -> T t -> orel o o' ->
    rrel (Forall2 agreesT) (kids_of r o f t) (kids_of r' o' f t).
  Proof.
    intros R H A. destruct o as [o|], o' as [o'|]; try contradiction; simpl; [|constructor].
    rewrite (proj1 (proj2 (proj2 A))). destruct (dget (o_kids o) f); [now apply R|reflexivity].
  Qed.
  Lemma wbind_Ok_inv {A B} (m : W A) (k : A -> W B) r : snd (wbind m k) = Ok r -> exists a, snd m = Ok a.
  Proof. unfold wbind. destruct (snd m) as [a|e]; [eauto|discriminate]. Qed.
  Lemma mapping_incl so do mp : snd (pchildren_mapping so do) = Ok mp -> otyped so -> otyped do -> forall t f, In (t, f) mp -> T t.
  Proof.
    intros E S D t f I. destruct (pchildren_mapping so do) as [ks r] eqn:P. simpl in E. subst r. apply child_types_ok in P.
    destruct so as [s|], do as [d|]; simpl in P.
    - destruct P as [-> _]. apply filter_In in I as [I _]. eapply S; eauto.
    - destruct P as [-> _]. eapply S; eauto.
    - destruct P as [-> _]. eapply D; eauto.
    - destruct P.
  Qed.
  Section Step.
    Variables prec prec' : list obj -> list obj -> W (list elem).
    Hypothesis prec_rel : forall ss ss' dd dd', Forall2 agreesT ss ss' -> Forall2 agreesT dd dd' -> prec ss dd = prec' ss' dd'.
    Lemma pchild_types_relT so so' do do' mapping : orel so so' -> orel do do' -> (forall t f, In (t, f) mapping -> T t) -> forall gs,
      pchild_types rs rd prec so do mapping gs = pchild_types rs' rd' prec' so' do' mapping gs.
    Proof.
      intros P1 P2. induction mapping as [|[t f] mp IH]; intros TM gs; [reflexivity|]. cbn [pchild_types].
      assert (Tt : T t) by (apply (TM t f); now left).
      pose proof (kids_relT rs rs' so so' f t rs_rel Tt P1) as K1. pose proof (kids_relT rd rd' do do' f t rd_rel Tt P2) as K2.
      destruct (kids_of rs so f t) as [ss|e1], (kids_of rs' so' f t) as [ss'|e1']; try contradiction;
        [|simpl in K1; subst e1'; now rewrite !wbind_lift_Err].
      destruct (kids_of rd do f t) as [dd|e2], (kids_of rd' do' f t) as [dd'|e2']; try contradiction;
        [|simpl in K2; subst e2'; now rewrite !wbind_lift_Ok, !wbind_lift_Err].
      simpl in K1, K2.
      assert (X : wbind (prec ss dd) (fun es => wbind (wlift (add_elems gs es)) (fun gs' => pchild_types rs rd prec so do mp gs')) =
                  wbind (prec' ss' dd') (fun es => wbind (wlift (add_elems gs es)) (fun gs' => pchild_types rs' rd' prec' so' do' mp gs'))).
      { apply wbind_ext; [now apply prec_rel|]. intros es _. apply wbind_ext; [reflexivity|]. intros gs' _. apply IH. intros t' f' I. apply (TM t' f'). now right. }
      rewrite !wbind_lift_Ok. exact X.
    Qed.
    Lemma ppair_relT so so' do do' : orel so so' -> orel do do' -> otyped so -> otyped do ->
      ppair flags sn dn rs rd prec so do = ppair flags sn dn rs' rd' prec' so' do'.
    Proof.
      intros P1 P2 T1 T2. unfold ppair. rewrite <- (skip_rel flags _ _ _ _ P1 P2), <- (mapping_rel _ _ _ _ P1 P2).
      assert (E : orel (either so do) (either so' do')).
      { destruct so as [s|], so' as [s'|]; try contradiction; simpl; [exact P1|exact P2]. }
      assert (AS : option_map get_attrs so' = option_map get_attrs so).
      { destruct so as [s|], so' as [s'|]; try contradiction; simpl; [|reflexivity]. now rewrite (agrees_attrs _ _ P1). }
      assert (AD : option_map get_attrs do' = option_map get_attrs do).
      { destruct do as [s|], do' as [s'|]; try contradiction; simpl; [|reflexivity]. now rewrite (agrees_attrs _ _ P2). }
      rewrite AS, AD. destruct (either so do) as [o|], (either so' do') as [o'|]; try contradiction; [|reflexivity]. simpl in E.
      rewrite (agrees_uid _ _ E), (agrees_short _ _ E), (agrees_ids _ _ E). unfold get_type. rewrite (proj1 E).
      assert (TT : ((if so then 1 else 0) + (if do then 1 else 0) = (if so' then 1 else 0) + (if do' then 1 else 0))).
      { destruct so, so'; try contradiction; destruct do, do'; try contradiction; reflexivity. }
      rewrite TT.
      apply wbind_ext; [reflexivity|]. intros u _. apply wbind_ext; [reflexivity|]. intros n _.
      destruct (skip_pair flags so do); [reflexivity|]. apply wbind_ext; [reflexivity|]. intros _ _.
      apply wbind_ext; [reflexivity|]. intros mp M. apply wbind_ext; [|reflexivity]. apply pchild_types_relT; auto.
      eapply mapping_incl; eauto.
    Qed.
    Lemma ppairs_relT l l' : Forall2 prel l l' -> Forall (fun p => otyped (fst (snd p)) /\ otyped (snd (snd p))) l ->
      ppairs flags sn dn rs rd prec l = ppairs flags sn dn rs' rd' prec' l'.
    Proof.
      induction 1 as [|[u [so do]] [u' [so' do']] l l' (_ & P1 & P2) F IH]; intros TL; [reflexivity|]. cbn [ppairs]. simpl in P1, P2.
      inversion TL as [|x y [T1 T2] TL' X]; subst. simpl in T1, T2. apply wbind_ext; [now apply ppair_relT|]. intros e _. now rewrite IH.
    Qed.
  End Step.
  Lemma index_typed ss : Forall typed ss -> forall d d0, (forall k o, dget d0 k = Some o -> typed o) -> index_by_uid ss d0 = Ok d -> forall k o, dget d k = Some o -> typed o.
  Proof.
    induction 1 as [|o ss H F IH]; simpl; intros d d0 D0 E; [injection E as <-; exact D0|].
    destruct (get_unique_id o) as [u|]; [|discriminate]. simpl in E. eapply IH; [|exact E]. intros k x G.
    destruct (String.eqb k u) eqn:Q; [apply String.eqb_eq in Q; subst; rewrite dget_dset_eq in G; now injection G as <-|].
    rewrite dget_dset_neq in G; [eauto|]. intros <-. now rewrite String.eqb_refl in Q.
  Qed.
  Lemma agreesT_typed l l' : Forall2 agreesT l l' -> Forall typed l.
  Proof. induction 1 as [|x y l m [_ H] F IH]; constructor; auto. Qed.
  Lemma plist_relT n : forall ss ss' dd dd', Forall2 agreesT ss ss' -> Forall2 agreesT dd dd' ->
    plist flags sn dn rs rd n ss dd = plist flags sn dn rs' rd' n ss' dd'.
  Proof.
    induction n as [|n IH]; intros ss ss' dd dd' G1 G2; [reflexivity|]. cbn [plist]. unfold plist_body.
    pose proof (agreesT_agrees _ _ G1) as F1. pose proof (agreesT_agrees _ _ G2) as F2.
    pose proof (index_rel _ _ F1 [] [] (Forall2_nil _)) as I1. pose proof (index_rel _ _ F2 [] [] (Forall2_nil _)) as I2.
    pose proof (index_typed ss (agreesT_typed _ _ G1)) as X1. pose proof (index_typed dd (agreesT_typed _ _ G2)) as X2.
    destruct (index_by_uid ss []) as [ds|e] eqn:E1, (index_by_uid ss' []) as [ds'|e']; try contradiction;
      [|simpl in I1; subst e'; now rewrite !wbind_lift_Err].
    destruct (index_by_uid dd []) as [de|e] eqn:E2, (index_by_uid dd' []) as [de'|e']; try contradiction;
      [|simpl in I2; subst e'; now rewrite !wbind_lift_Ok, !wbind_lift_Err].
    simpl in I1, I2. pose proof (pair_up_rel _ _ _ _ I1 I2) as PU. rewrite !wbind_lift_Ok.
    apply wbind_ext.
    { now rewrite (Forall2_length' _ _ _ F1), (Forall2_length' _ _ _ F2), (Forall2_length' _ _ _ PU). }
    intros _ _. apply wbind_ext; [now rewrite (validate_rel _ _ PU)|]. intros _ _. apply ppairs_relT; auto.
    rewrite pair_up_eq. apply Forall_forall. intros p I. apply in_map_iff in I as (u & <- & _). simpl.
    assert (D0 : forall k o, dget (@nil (string * obj)) k = Some o -> typed o) by discriminate.
    split; unfold otyped.
    - destruct (dget ds u) eqn:G; [|exact I]. exact (X1 ds [] D0 E1 _ _ G).
    - destruct (dget de u) eqn:G; [|exact I]. exact (X2 de [] D0 E2 _ _ G).
  Qed.
End Typed.

(** ** What the reads return *)
Definition sall (l : list entry) (t : string) : list obj := map snd (filter (of_type t) l).
Definition sfind (l : list entry) (t u : string) : option obj :=
  option_map snd (find (fun e => String.eqb u (snd (fst e))) (filter (of_type t) l)).
Definition sget (l : list entry) (t u : string) : result obj :=
  match sfind l t u with Some o => Ok o | None => Err ObjectNotFound end.
Definition sby (l : list entry) (us : list string) (t : string) : result (list obj) := rmapM (sget l t) us.

Lemma bucket_deref w b m : Forall2 (fun (ur : string * ref) (e : entry) => fst ur = snd (fst e) /\ nth_error (w_heap w) (snd ur) = Some (snd e)) b m ->
  deref w (dvals b) = Ok (map snd m).
Proof.
  unfold deref. induction 1 as [|[u r] e b m [_ H] F IH]; [reflexivity|]. simpl in *. rewrite H. simpl. now rewrite IH.
Qed.
Lemma bucket_find w b m u : Forall2 (fun (ur : string * ref) (e : entry) => fst ur = snd (fst e) /\ nth_error (w_heap w) (snd ur) = Some (snd e)) b m ->
  match dget b u with
  | Some r => exists o, nth_error (w_heap w) r = Some o /\ option_map snd (find (fun e : entry => String.eqb u (snd (fst e))) m) = Some o
  | None => option_map snd (find (fun e : entry => String.eqb u (snd (fst e))) m) = None
  end.
Proof.
  induction 1 as [|[v r] e b m [E H] F IH]; [reflexivity|]. simpl in *. rewrite E. destruct (String.eqb u (snd (fst e))); [|exact IH].
  exists (snd e). auto.
Qed.
Lemma local_by w b m us : Forall2 (fun (ur : string * ref) (e : entry) => fst ur = snd (fst e) /\ nth_error (w_heap w) (snd ur) = Some (snd e)) b m ->
  rbind (rmapM (fun u => match dget b u with Some r => Ok r | None => Err ObjectNotFound end) us) (deref w) =
  rmapM (fun u => match option_map snd (find (fun e : entry => String.eqb u (snd (fst e))) m) with Some o => Ok o | None => Err ObjectNotFound end) us.
Proof.
  intros F. induction us as [|u us IH]; [reflexivity|]. simpl. pose proof (bucket_find w b m u F) as B.
  destruct (dget b u) as [r|].
  - destruct B as (o & H & ->). simpl.
    destruct (rmapM (fun u => match dget b u with Some r => Ok r | None => Err ObjectNotFound end) us) as [rs|e]; simpl in IH |- *.
    + rewrite <- IH. unfold deref. simpl. now rewrite H.
    + now rewrite <- IH.
  - now rewrite B.
Qed.
Lemma redis_entries i l t : map snd (filter (fun e : rkey * obj => String.eqb t (snd (fst (fst e)))) (map (fun e : entry => (i, fst (fst e), snd (fst e), snd e)) l)) = sall l t.
Proof.
  unfold sall. induction l as [|e l IH]; [reflexivity|]. simpl. unfold of_type at 1. destruct (String.eqb t (fst (fst e))); simpl; now rewrite IH.
Qed.
Lemma redis_find i l t u : rfind (map (fun e : entry => (i, fst (fst e), snd (fst e), snd e)) l) i t u = sfind l t u.
Proof.
  unfold rfind, sfind. induction l as [|e l IH]; [reflexivity|]. simpl. unfold rkey_eqb at 1. simpl. rewrite String.eqb_refl. unfold of_type at 1. simpl.
  destruct (String.eqb t (fst (fst e))); simpl; [|exact IH]. destruct (String.eqb u (snd (fst e))); [reflexivity|exact IH].
Qed.
Lemma agrees_given o a : agrees (set_o_adapter o a) o.
Proof. split; [reflexivity|]. split; [reflexivity|]. split; [reflexivity|]. simpl. induction (o_vals o); constructor; auto. Qed.
Lemma holds_all w a ad l t : has_entries w a ad l -> plain t = true -> rrel (Forall2 agrees) (objs_all w a t) (Ok (sall l t)).
Proof.
  intros [A H] P. unfold objs_all. rewrite A. destruct (ad_store ad) as [d|i].
  - rewrite (bucket_deref _ _ _ (H t)). simpl. unfold sall. induction (map snd (filter (of_type t) l)); constructor; auto using agrees_refl.
  - destruct H as (Pi & reg & (E & N & G) & R). change (w_redis w = enc reg) in E. change (good reg) in G.
    pose proof (scan_type w reg i t E G Pi P) as X. unfold scan in X. rewrite X.
    rewrite <- (redis_entries i), <- R. rewrite E.
    assert (I : forall e, In e (filter (fun e : rkey * obj => String.eqb t (snd (fst (fst e)))) (rstore reg i)) -> In e reg).
    { intros e HI. apply filter_In in HI as [HI _]. now apply filter_In in HI as [HI _]. }
    clear X R E. revert I.
    induction (filter (fun e : rkey * obj => String.eqb t (snd (fst (fst e)))) (rstore reg i)) as [|e m IH]; intros I; [constructor|].
    simpl. rewrite (entry_get reg e G N) by (apply I; now left). simpl.
    assert (IH' := IH (fun x Hx => I x (or_intror Hx))).
    destruct (rmapM _ (map ekey m)); simpl in IH' |- *; [|contradiction]. constructor; [apply agrees_given|exact IH'].
Qed.
Lemma holds_by w a ad l us t : has_entries w a ad l -> plain t = true -> rrel (Forall2 agrees) (objs_by w a us t) (sby l us t).
Proof.
  intros [A H] P. unfold objs_by. destruct us as [|u us]; [constructor|]. rewrite A. destruct (ad_store ad) as [d|i].
  - rewrite (local_by _ _ _ (u :: us) (H t)). fold (sby l (u :: us) t).
    change (rrel (Forall2 agrees) (sby l (u :: us) t) (sby l (u :: us) t)). destruct (sby l (u :: us) t) as [os|]; [|reflexivity]. simpl. clear. induction os; constructor; auto using agrees_refl.
  - destruct H as (Pi & reg & (E & N & G) & R). change (w_redis w = enc reg) in E. change (good reg) in G. rewrite E. apply rmapM_rel. intros x.
    rewrite (enc_get i t x Pi P reg G), <- rfind_store, R, redis_find. unfold sget. destruct (sfind l t x); [apply agrees_given|reflexivity].
Qed.
Lemma same_filter l l' t : Forall2 same_entry l l' -> Forall2 same_entry (filter (of_type t) l) (filter (of_type t) l').
Proof.
  induction 1 as [|e e' l l' [E H] F IH]; [constructor|]. cbn [filter].
  assert (O : of_type t e' = of_type t e) by (unfold of_type; now rewrite E). rewrite O. destruct (of_type t e); [|exact IH].
  constructor; [now split|exact IH].
Qed.
Lemma sall_rel l l' t : Forall2 same_entry l l' -> Forall2 agrees (sall l t) (sall l' t).
Proof. intros F. unfold sall. induction (same_filter l l' t F) as [|e e' m m' [_ H] G IH]; constructor; auto. Qed.
Lemma sget_rel l l' t u : Forall2 same_entry l l' -> rrel agrees (sget l t u) (sget l' t u).
Proof.
  intros F. unfold sget, sfind. induction (same_filter l l' t F) as [|e e' m m' [E H] G IH]; [reflexivity|]. simpl. rewrite E.
  destruct (String.eqb u (snd (fst e))); [exact H|exact IH].
Qed.
Lemma sby_rel l l' us t : Forall2 same_entry l l' -> rrel (Forall2 agrees) (sby l us t) (sby l' us t).
Proof. intros F. apply rmapM_rel. intros u. now apply sget_rel. Qed.

Definition plainT (t : string) : Prop := plain t = true.
Lemma sall_in l t o : In o (sall l t) -> exists e, In e l /\ snd e = o.
Proof. intros I. apply in_map_iff in I as (e & <- & I). apply filter_In in I as [I _]. eauto. Qed.
Lemma sget_in l t u o : sget l t u = Ok o -> exists e, In e l /\ snd e = o.
Proof.
  unfold sget, sfind. destruct (find _ _) as [e|] eqn:F; [|discriminate]. intros [= <-]. apply find_some in F as [F _]. apply filter_In in F as [F _]. eauto.
Qed.
Lemma sby_in l t us : forall os, sby l us t = Ok os -> forall o, In o os -> exists e, In e l /\ snd e = o.
Proof.
  unfold sby. induction us as [|u us IH]; simpl; intros os E o I; [injection E as <-; destruct I|].
  destruct (sget l t u) as [x|] eqn:G; [|discriminate]. destruct (rmapM (sget l t) us) as [xs|]; [|discriminate]. simpl in E. injection E as <-.
  destruct I as [<-|I]; [eapply sget_in; eauto|eauto].
Qed.
Lemma typed_agrees o o' : agrees o o' -> typed plainT o' -> typed plainT o.
Proof. intros (C & _) H t f I. rewrite <- C in I. eapply H; eauto. Qed.
Lemma rrelT r x r' : rrel (Forall2 agrees) r x -> rrel (Forall2 agrees) x r' -> (forall os, x = Ok os -> Forall (typed plainT) os) ->
  rrel (Forall2 (agreesT plainT)) r r'.
Proof.
  intros R1 R2 H. destruct r as [l|], x as [m|], r' as [n|]; simpl in *; try contradiction; [|congruence].
  specialize (H m eq_refl). revert n R2. induction R1 as [|a b l m A R1 IH]; intros n R2; inversion R2 as [|b' c m' n' B R2' X Y]; subst; constructor.
  - inversion H; subst. split; [eapply agrees_trans; eauto|]. eapply typed_agrees; eauto.
  - apply IH; auto. now inversion H.
Qed.
Lemma entries_typed ad l : plain_types ad l -> forall e, In e l -> typed plainT (snd e).
Proof. intros [_ H] e I t f J. eapply H; eauto. Qed.

Section Data.
  Variables (w w' : world) (a a' : aid) (ad ad' : adapter) (l l' : list entry).
  Hypothesis H : has_entries w a ad l.
  Hypothesis H' : has_entries w' a' ad' l'.
  Hypothesis Same : Forall2 same_entry l l'.
  Hypothesis Plain : plain_types ad l.
  Lemma data_all t : plain t = true -> rrel (Forall2 (agreesT plainT)) (objs_all w a t) (objs_all w' a' t).
  Proof.
    intros P. eapply rrelT; [eapply holds_all; eauto| |].
    - eapply rrel_trans; [|apply rrel_sym; eapply holds_all; eauto]. simpl. now apply sall_rel.
    - intros os [= <-]. apply Forall_forall. intros o I. apply sall_in in I as (e & I & <-). eapply entries_typed; eauto.
  Qed.
  Lemma data_by us t : plain t = true -> rrel (Forall2 (agreesT plainT)) (objs_by w a us t) (objs_by w' a' us t).
  Proof.
    intros P. eapply rrelT; [eapply holds_by; eauto| |].
    - eapply rrel_trans; [|apply rrel_sym; eapply holds_by; eauto]. now apply sby_rel.
    - intros os E. apply Forall_forall. intros o I. eapply sby_in in I as (e & I & <-); [|exact E]. eapply entries_typed; eauto.
  Qed.
End Data.

Lemma In_inter t a b : In t (intersection a b) -> In t a /\ In t b.
Proof. unfold intersection. intros I. apply filter_In in I as [I J]. split; [exact I|now apply smem_In]. Qed.
Lemma wforM_ext_in {A} (l : list A) f g : (forall x, In x l -> f x = g x) -> wforM l f = wforM l g.
Proof. induction l as [|x l IH]; intros E; [reflexivity|]. cbn [wforM]. rewrite (E x) by now left. apply wbind_ext; [reflexivity|]. intros _ _. apply IH. intros y I. apply E. now right. Qed.
Lemma smem_false t l : smem t l = true -> In t l.
Proof. apply smem_In. Qed.
Lemma pdiff_data w w' n flags src dst src' dst' sa da sa' da' ls ld ls' ld' :
  has_entries w src sa ls -> has_entries w dst da ld -> has_entries w' src' sa' ls' -> has_entries w' dst' da' ld' ->
  ad_name sa' = ad_name sa -> ad_top sa' = ad_top sa -> ad_name da' = ad_name da -> ad_top da' = ad_top da ->
  Forall2 same_entry ls ls' -> Forall2 same_entry ld ld' -> plain_types sa ls -> plain_types da ld ->
  pdiff n flags w src dst sa da = pdiff n flags w' src' dst' sa' da'.
Proof.
  intros HS HD HS' HD' N1 T1 N2 T2 SS SD PS PD. unfold pdiff, pcalc. rewrite N1, T1, N2, T2. apply wbind_ext.
  - apply wforM_ext_in. intros t _.
    assert (X : forall a a' ad ad' l l', has_entries w a ad l -> has_entries w' a' ad' l' -> Forall2 same_entry l l' -> plain_types ad l -> plain t = true ->
      wbind (wlift (objs_all w a t)) (fun l => wtick (length l)) = wbind (wlift (objs_all w' a' t)) (fun l => wtick (length l))).
    { intros a a' ad ad' l l' A B C D E. pose proof (data_all w w' a a' ad ad' l l' A B C D t E) as R. destruct (objs_all w a t), (objs_all w' a' t); try contradiction; simpl in R.
      - now rewrite !wbind_lift_Ok, (Forall2_length' _ _ _ R).
      - now subst. }
    destruct (smem t (ad_top da)) eqn:M; [eapply X; eauto; apply PD; now apply smem_In|].
    destruct (smem t (ad_top sa)) eqn:M'; [eapply X; eauto; apply PS; now apply smem_In|reflexivity].
  - intros _ _. generalize (@nil (string * dict elem)) as gs.
    assert (IT : forall t, In t (intersection (ad_top da) (ad_top sa)) -> plain t = true) by (intros t I; apply In_inter in I as [I _]; now apply PD).
    induction (intersection (ad_top da) (ad_top sa)) as [|t l IH]; intros gs; [reflexivity|].
    cbn [ptypes]. assert (P : plain t = true) by (apply IT; now left).
    pose proof (data_all _ _ _ _ _ _ _ _ HS HS' SS PS t P) as R1. pose proof (data_all _ _ _ _ _ _ _ _ HD HD' SD PD t P) as R2.
    destruct (objs_all w src t) as [ss|], (objs_all w' src' t) as [ss'|]; try contradiction; [|simpl in R1; subst; now rewrite !wbind_lift_Err].
    destruct (objs_all w dst t) as [dd|], (objs_all w' dst' t) as [dd'|]; try contradiction; [|simpl in R2; subst; now rewrite !wbind_lift_Ok, !wbind_lift_Err].
    rewrite !wbind_lift_Ok. apply wbind_ext.
    + apply (plist_relT plainT); auto.
      * intros us u Q. exact (data_by _ _ _ _ _ _ _ _ HS HS' SS PS us u Q).
      * intros us u Q. exact (data_by _ _ _ _ _ _ _ _ HD HD' SD PD us u Q).
    + intros es _. apply wbind_ext; [reflexivity|]. intros gs' _. apply IH. intros x I. apply IT. now right.
Qed.
Lemma diff_from_data w w' n flags dc cb cb' src dst src' dst' sa da sa' da' ls ld ls' ld' : w_ok w -> w_ok w' ->
  has_entries w src sa ls -> has_entries w dst da ld -> has_entries w' src' sa' ls' -> has_entries w' dst' da' ld' ->
  ad_name sa' = ad_name sa -> ad_top sa' = ad_top sa -> ad_name da' = ad_name da -> ad_top da' = ad_top da ->
  Forall2 same_entry ls ls' -> Forall2 same_entry ld ld' -> plain_types sa ls -> plain_types da ld ->
  snd (diff_from n dst src dc flags cb w) = snd (diff_from n dst' src' dc flags cb' w').
Proof.
  intros OK OK' HS HD HS' HD' N1 T1 N2 T2 SS SD PS PD.
  destruct (diff_from_pure n dst src dc flags cb w sa da OK (proj1 HS) (proj1 HD)) as (w1 & E & _).
  destruct (diff_from_pure n dst' src' dc flags cb' w' sa' da' OK' (proj1 HS') (proj1 HD')) as (w2 & E' & _).
  rewrite E, E'. cbn [snd].
  now rewrite (pdiff_data w w' n flags src dst src' dst' sa da sa' da' ls ld ls' ld' HS HD HS' HD' N1 T1 N2 T2 SS SD PS PD).
Qed.
