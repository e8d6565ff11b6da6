(** * ConvVals: the values of created and updated objects. *)
From Verif Require Export ConvRun ConvergeSpec.

Lemma dget_dump o names k : dget (dump_include o names) k = if smem k names then dget (o_vals o) k else None.
Proof. unfold dump_include. apply (dget_filter_key (fun x => smem x names)). Qed.
Lemma smem_true k l : smem k l = true <-> In k l.
Proof. apply smem_In. Qed.
Lemma smem_false k l : smem k l = false <-> ~ In k l.
Proof. rewrite <- smem_In. destruct (smem k l); split; congruence. Qed.
Lemma dkeys_dump o names k : In k (dkeys (dump_include o names)) <-> In k names /\ In k (dkeys (o_vals o)).
Proof.
  unfold dump_include, dkeys. rewrite !in_map_iff. split.
  - intros ([k' v] & E & I). simpl in E. subst k'. apply filter_In in I as (I & S). simpl in S. apply smem_In in S.
    split; [exact S|]. exists (k, v). auto.
  - intros (S & [k' v] & E & I). simpl in E. subst k'. exists (k, v). split; [reflexivity|]. apply filter_In. split; [exact I|].
    simpl. now apply smem_In.
Qed.

Lemma uid_agree o o' : c_identifiers (o_cls o) = c_identifiers (o_cls o') ->
  (forall k, In k (c_identifiers (o_cls o)) -> dget (o_vals o') k = dget (o_vals o) k) -> get_unique_id o' = get_unique_id o.
Proof.
  intros EI EV. unfold get_unique_id, create_unique_id, get_identifiers. rewrite <- EI.
  rewrite (rmapM_ext (fun k => rbind (dict_item (dump_include o' (c_identifiers (o_cls o))) k) (fun v => Ok (py_str v)))
                     (fun k => rbind (dict_item (dump_include o (c_identifiers (o_cls o))) k) (fun v => Ok (py_str v)))); [reflexivity|].
  intros k I. unfold dict_item. rewrite !dget_dump. now rewrite (EV k I).
Qed.
Lemma uid_class c o : c_identifiers c = c_identifiers (o_cls o) -> create_unique_id c (get_identifiers o) = get_unique_id o.
Proof. intros E. unfold get_unique_id, create_unique_id. now rewrite E. Qed.

Lemma shortname_agree o o' : c_identifiers (o_cls o) = c_identifiers (o_cls o') -> c_shortname (o_cls o) = c_shortname (o_cls o') ->
  incl (c_shortname (o_cls o)) (c_identifiers (o_cls o)) ->
  (forall k, In k (c_identifiers (o_cls o)) -> dget (o_vals o') k = dget (o_vals o) k) -> get_shortname o' = get_shortname o.
Proof.
  intros EI ES HI EV. unfold get_shortname. rewrite <- ES. destruct (c_shortname (o_cls o)) as [|x l] eqn:E; [now apply uid_agree|].
  match goal with |- rbind (rmapM ?f _) _ = rbind (rmapM ?g _) _ => rewrite (rmapM_ext f g); [reflexivity|] end.
  intros k I. unfold getattr_val. now rewrite (EV k (HI k I)).
Qed.

Lemma same_names_length (a b : list string) : NoDup a -> NoDup b -> (forall x, In x a <-> In x b) -> length a = length b.
Proof. intros A B H. apply Nat.le_antisymm; apply NoDup_incl_length; auto; intros x; apply H. Qed.

(** the identifiers are equal as dicts *)
Lemma ids_agree o o' : NoDup (dkeys (o_vals o)) -> NoDup (dkeys (o_vals o')) ->
  c_identifiers (o_cls o) = c_identifiers (o_cls o') ->
  (forall k, In k (c_identifiers (o_cls o)) -> dget (o_vals o') k = dget (o_vals o) k) ->
  (forall k, In k (c_identifiers (o_cls o)) -> exists v, dget (o_vals o) k = Some v /\ py_eq v v = true) ->
  dict_eq (get_identifiers o) (get_identifiers o') = true.
Proof.
  intros N N' EI EV PV. unfold dict_eq. apply andb_true_iff. split.
  - apply Nat.eqb_eq. transitivity (length (dkeys (get_identifiers o))); [unfold dkeys; now rewrite map_length|].
    transitivity (length (dkeys (get_identifiers o'))); [|unfold dkeys; now rewrite map_length].
    apply same_names_length; [now apply NoDup_dump|now apply NoDup_dump|]. intros k. unfold get_identifiers. rewrite !dkeys_dump, <- EI.
    split; intros (I & _); (split; [exact I|]); destruct (PV k I) as (v & G & _).
    + rewrite <- (EV k I) in G. eapply dget_Some_key; eauto.
    + eapply dget_Some_key; eauto.
  - apply forallb_forall. intros [k v] I. cbn [fst snd]. unfold get_identifiers in *. 
    assert (K : In k (dkeys (dump_include o (c_identifiers (o_cls o))))) by (apply in_map_iff; exists (k, v); auto).
    apply dkeys_dump in K as (IK & _). apply (In_dget _ _ _ (NoDup_dump o _ N)) in I.
    rewrite dget_dump in *. rewrite <- EI. apply smem_In in IK as SK. rewrite SK in *. rewrite (EV k IK), I.
    destruct (PV k IK) as (v' & G & Q). congruence.
Qed.

(** ** Creation *)
Lemma merge_ok ids attrs : (forall k, In k (dkeys ids) -> ~ In k (dkeys attrs)) -> merge_kw ids attrs = Ok (ids ++ attrs).
Proof.
  intros H. unfold merge_kw. destruct (existsb _ ids) eqn:E; [|reflexivity]. apply existsb_exists in E as ([k v] & I & M).
  apply dmem_In in M. simpl in M. elim (H k); [|exact M]. apply in_map_iff. exists (k, v). auto.
Qed.
Lemma instantiate_ok c kw ad : (forall k, In (k, None) (c_fields c) -> dget kw k <> None) ->
  exists o, instantiate c kw [] None (Some ad) = Ok o.
Proof.
  intros H. unfold instantiate. match goal with |- context [rmapM ?f _] => assert (X : exists vals, rmapM f (c_fields c) = Ok vals) end.
  - revert H. induction (c_fields c) as [|[k df] l IH]; intros H; [now exists []|]. cbn [rmapM].
    destruct IH as (vals & ->); [intros k' I; apply H; now right|]. cbn [fst snd].
    destruct (dget kw k) as [v|] eqn:G; [eexists; reflexivity|]. destruct df as [v|]; [eexists; reflexivity|].
    elim (H k); [now left|exact G].
  - destruct X as (vals & ->). eexists. reflexivity.
Qed.

Section Created.
  Variables (c : cls) (s : obj) (x : elem).
  Hypothesis CR : creatable c.
  Hypothesis SH : same_shape c (o_cls s).
  Hypothesis NV : NoDup (dkeys (o_vals s)).
  Hypothesis PV : forall k, In k (c_identifiers (o_cls s) ++ c_attributes (o_cls s)) -> exists v, dget (o_vals s) k = Some v /\ py_eq v v = true.
  Hypothesis XS : e_src x = Some (get_attrs s).
  Hypothesis XK : e_keys x = get_identifiers s.

  Lemma plus_created : e_dst x = None -> plus_attrs x = get_attrs s.
  Proof.
    intros XD. unfold plus_attrs, e_attrs_diffs, get_attrs_diffs. rewrite XS, XD. cbn [ad_plus]. unfold attrs_keys. apply pick_all.
    now apply NoDup_dump.
  Qed.
  Lemma created_ok a : e_dst x = None -> exists o, create_base c a (e_keys x) (plus_attrs x) = Ok o /\ o_cls o = c /\ o_flags o = c_flags c /\
    NoDup (dkeys (o_vals o)) /\
    (forall k, In k (c_identifiers c ++ c_attributes c) -> dget (o_vals o) k = dget (o_vals s) k) /\
    o_kids o = map (fun f => (f, [])) (c_kid_fields c).
  Proof.
    intros XD. destruct SH as (SI & SS & SA & SC). rewrite XK, (plus_created XD). unfold create_base.
    rewrite merge_ok; cycle 1.
    { intros k I J. unfold get_identifiers, get_attrs in *. apply dkeys_dump in I as (I & _). apply dkeys_dump in J as (J & _).
      rewrite <- SI in I. rewrite <- SA in J. now apply (cr_apart _ CR k). }
    cbn [rbind].
    assert (GI : forall k, In k (c_identifiers c) -> dget (get_identifiers s) k = dget (o_vals s) k).
    { intros k I. unfold get_identifiers. rewrite dget_dump, <- SI. apply smem_In in I. now rewrite I. }
    assert (GA : forall k, In k (c_attributes c) -> dget (get_attrs s) k = dget (o_vals s) k).
    { intros k I. unfold get_attrs. rewrite dget_dump, <- SA. apply smem_In in I. now rewrite I. }
    assert (KW : forall k, In k (c_identifiers c ++ c_attributes c) -> dget (get_identifiers s ++ get_attrs s) k = dget (o_vals s) k).
    { intros k I. rewrite dget_app. apply in_app_iff in I as [I|I].
      - rewrite (GI k I). rewrite <- SI, <- SA in PV. destruct (PV k) as (v & -> & _); [apply in_app_iff; now left|reflexivity].
      - assert (E : dget (get_identifiers s) k = None).
        { unfold get_identifiers. rewrite dget_dump, <- SI. destruct (smem k (c_identifiers c)) eqn:S; [|reflexivity].
          apply smem_In in S. elim (cr_apart _ CR k S I). }
        rewrite E. now apply GA. }
    assert (VAL : forall k, In k (c_identifiers c ++ c_attributes c) -> exists v, dget (o_vals s) k = Some v).
    { intros k I. rewrite <- SI, <- SA in PV. destruct (PV k I) as (v & G & _). eauto. }
    destruct (instantiate_ok c (get_identifiers s ++ get_attrs s) a) as (o & E).
    { intros k I. assert (J : In k (c_identifiers c ++ c_attributes c)) by (apply in_app_iff; now apply (cr_required _ CR)).
      rewrite (KW k J). destruct (VAL k J) as (v & ->). discriminate. }
    rewrite E. cbn [rbind]. eexists. split; [reflexivity|].
    destruct (inst_vals _ _ _ _ _ _ E) as (HC & HD & HV).
    assert (HF : o_flags o = c_flags c /\ o_kids o = map (fun f => (f, [])) (c_kid_fields c)).
    { unfold instantiate in E. destruct (rmapM _ (c_fields c)); simpl in E; [|discriminate]. injection E as <-. split; reflexivity. }
    cbn [o_cls o_flags o_vals o_kids set_status]. split; [exact HC|]. split; [apply HF|]. split; [|split; [|apply HF]].
    - rewrite HD. exact (cr_fields _ CR).
    - intros k I. destruct (VAL k I) as (v & G). rewrite G. apply HV; [|now rewrite (KW k I)].
      apply in_app_iff in I as [I|I]; [now apply (cr_ids _ CR)|now apply (cr_attrs _ CR)].
  Qed.

  (** ** Update *)
  Lemma updated_ok d : same_shape c (o_cls d) -> e_dst x = Some (get_attrs d) ->
    exists vals, setattrs d (plus_attrs x) = (set_o_vals d vals, Ok tt) /\ dkeys vals = dkeys (o_vals d) /\
      (forall k, In k (dkeys (plus_attrs x)) -> In k (c_attributes c)) /\
      (forall k, ~ In k (c_attributes c) -> dget vals k = dget (o_vals d) k) /\
      (forall k v v', dget (o_vals s) k = Some v -> In k (c_attributes c) -> dget vals k = Some v' -> py_eq v v' = true).
  Proof.
    intros (DI & DS & DA & DC) XD. destruct SH as (SI & SS & SA & SC).
    set (ks := filter (attr_differs (get_attrs s) (get_attrs d)) (intersection (dkeys (get_attrs d)) (dkeys (get_attrs s)))).
    assert (PL : plus_attrs x = pick (get_attrs s) ks).
    { unfold plus_attrs, e_attrs_diffs, get_attrs_diffs. now rewrite XS, XD. }
    assert (KS : forall k, In k ks <-> In k (dkeys (get_attrs d)) /\ In k (dkeys (get_attrs s)) /\ attr_differs (get_attrs s) (get_attrs d) k = true).
    { intros k. unfold ks, intersection. rewrite !filter_In, smem_In. tauto. }
    assert (IK : forall k, In k (dkeys (plus_attrs x)) -> In k ks).
    { intros k I. rewrite PL in I. destruct (dget (pick (get_attrs s) ks) k) as [v|] eqn:G.
      - rewrite dget_pick in G. destruct (smem k ks) eqn:S; [|discriminate]. now apply smem_In.
      - apply dget_None in G. contradiction. }
    destruct (setattrs_spec (plus_attrs x) d) as (vals & E & DK & V1 & V2).
    - rewrite PL. apply NoDup_pick.
    - intros k I. apply IK, KS in I as (I & _). unfold get_attrs in I. now apply dkeys_dump in I.
    - exists vals. split; [exact E|]. split; [exact DK|]. split; [|split].
      + intros k I. apply IK, KS in I as (I & _). unfold get_attrs in I. apply dkeys_dump in I as (I & _). now rewrite DA.
      + intros k N. apply V1. rewrite PL, dget_pick. destruct (smem k ks) eqn:S; [|reflexivity]. apply smem_In, KS in S as (S & _).
        unfold get_attrs in S. apply dkeys_dump in S as (S & _). rewrite DA in N. contradiction.
      + intros k v v' G IA G'. rewrite <- SI, <- SA in PV.
        assert (GS : dget (get_attrs s) k = Some v).
        { unfold get_attrs. rewrite dget_dump, <- SA. apply smem_In in IA. now rewrite IA. }
        assert (PR : py_eq v v = true).
        { destruct (PV k) as (v0 & G0 & Q); [apply in_app_iff; now right|]. congruence. }
        destruct (smem k ks) eqn:S.
        * assert (P : dget (plus_attrs x) k = Some v) by (rewrite PL, dget_pick, S; exact GS). rewrite (V2 k v P) in G'. congruence.
        * assert (P : dget (plus_attrs x) k = None) by (rewrite PL, dget_pick, S; reflexivity). rewrite (V1 k P) in G'.
          assert (GD : dget (get_attrs d) k = Some v').
          { unfold get_attrs. rewrite dget_dump, <- DA. apply smem_In in IA. now rewrite IA. }
          destruct (py_eq v v') eqn:Q; [reflexivity|]. exfalso. assert (X : In k ks); [|apply smem_In in X; congruence].
          apply KS. split; [eapply dget_Some_key; eauto|]. split; [eapply dget_Some_key; eauto|]. unfold attr_differs. rewrite GS, GD, Q. reflexivity.
  Qed.
End Created.
