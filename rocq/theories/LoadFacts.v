(** * LoadFacts: Adapter.dict followed by load_from_dict *)
From Verif Require Export LoadSpec.
From Verif Require Import BaseFacts ModelFacts StoreFacts StoreMore PureDiffer RedisFacts CascadeFacts.
From Coq Require Import Lia.

(** ** dict *)
Section Dict.
  Variables (a : aid) (excl : bool) (w : world) (ad : adapter) (d : dict (dict ref)).
  Hypothesis L : is_local w a ad d.
  Hypothesis OK : local_ok w a.
  Hypothesis KE : keyed w a.

  Definition dumped (t : string) (ur : string * ref) (ud : string * dump) : Prop :=
    fst ud = fst ur /\ exists o, nth_error (w_heap w) (snd ur) = Some o /\ snd ud = obj_dump excl o /\
      get_type o = t /\ get_unique_id o = Ok (fst ur).

  Lemma dump_objects_ok n os us : forall data p, dget data n = Some p ->
    Forall2 (fun o u => get_type o = n /\ get_unique_id o = Ok u) os us -> NoDup (dkeys p ++ us) ->
    dump_objects excl os data = Ok (dset data n (p ++ combine us (map (obj_dump excl) os))).
  Proof.
    clear L OK KE. revert us. induction os as [|o os IH]; intros us data p G F N; inversion F as [|x u xs us' [T U] F']; subst; cbn [dump_objects].
    - cbn [combine map]. rewrite app_nil_r. now rewrite (dset_same data n p G).
    - unfold dict_item. rewrite G. cbn [rbind]. rewrite U. cbn [rbind].
      assert (dget p u = None) as A.
      { apply dget_None. intros HI. apply NoDup_remove_2 in N. apply N. apply in_or_app. now left. }
      rewrite (dset_absent p u _ A). rewrite (IH us' _ (p ++ [(u, obj_dump excl o)])).
      + rewrite dset_dset. cbn [map combine]. now rewrite <- app_assoc.
      + now rewrite dget_dset_eq.
      + exact F'.
      + unfold dkeys in *. rewrite map_app. cbn [map fst]. rewrite <- app_assoc. exact N.
  Qed.
  Lemma bucket_objects n b : In (n, b) d ->
    exists os, deref w (dvals b) = Ok os /\ Forall2 (fun o u => get_type o = n /\ get_unique_id o = Ok u) os (dkeys b) /\
      Forall2 (dumped n) b (combine (dkeys b) (map (obj_dump excl) os)).
  Proof.
    intros HI. destruct OK as (ad' & d' & E1 & E2 & N & NB).
    destruct (is_local_fun _ _ _ _ _ _ L (conj E1 E2)) as [<- <-].
    assert (forall u r, In (u, r) b -> lookup w a n u = Some r) as LK.
    { intros u r H. rewrite (lookup_local _ _ _ _ _ _ L). unfold bucket. rewrite (In_dget _ _ _ N HI). exact (In_dget _ _ _ (NB _ _ HI) H). }
    clear NB HI. unfold dvals, dkeys, deref. induction b as [|[u r] b IH]; [exists []; repeat split; constructor|].
    destruct IH as (os & D & F1 & F2). { intros x y H. apply LK. now right. }
    destruct (KE n u r (LK u r (or_introl eq_refl))) as (o & Ho & T & U & _).
    exists (o :: os). cbn [map rmapM snd fst]. rewrite Ho. cbn [rbind]. rewrite D. cbn [rbind]. split; [reflexivity|].
    split; [constructor; [now split|exact F1]|]. cbn [map combine]. constructor; [|exact F2].
    split; [reflexivity|]. exists o. now repeat split.
  Qed.
  Definition entries (data : dict (dict dump)) (t : string) : dict dump :=
    match dget data t with Some b => b | None => [] end.
  Lemma dump_names_ok names : forall data, NoDup names -> incl names (dkeys d) ->
    exists data', dump_names a excl names data w = (w, Ok data') /\
      forall t, (In t names -> Forall2 (dumped t) (bucket d t) (entries data' t)) /\
                (~ In t names -> dget data' t = dget data t).
  Proof.
    induction names as [|n names IH]; intros data N I.
    - exists data. split; [reflexivity|]. intros t. split; [intros []|reflexivity].
    - inversion N as [|x y N1 N2]; subst x y.
      assert (In n (dkeys d)) as HN by (apply I; now left).
      destruct (dget d n) as [b|] eqn:G; [|now apply dget_None in G].
      pose proof (dget_Some_In _ _ _ G) as HB. destruct (bucket_objects n b HB) as (os & D & F1 & F2).
      assert (NoDup (dkeys b)) as NB.
      { destruct OK as (ad' & d' & E1 & E2 & _ & NB). destruct (is_local_fun _ _ _ _ _ _ L (conj E1 E2)) as [<- <-]. exact (NB _ _ HB). }
      cbn [dump_names]. unfold bind at 1, st_get_all, bind at 1, get_adapter. destruct L as [LA LS]. rewrite LA, LS.
      unfold bind at 1. rewrite put_store_eq. cbn [spec_name].
      assert (upd_store w a (SLocal (touch d n)) = w) as ->.
      { unfold touch. rewrite G. rewrite <- LS. now apply upd_store_same. }
      unfold ret at 1. unfold bucket at 1. rewrite G. unfold bind at 1. rewrite mapM_hget, D. unfold bind at 1, lift.
      rewrite (dump_objects_ok n os (dkeys b) (dset data n []) [] (dget_dset_eq _ _ _) F1 NB).
      rewrite dset_dset. destruct (IH (dset data n ([] ++ combine (dkeys b) (map (obj_dump excl) os))) N2) as (data' & E & X).
      { intros x HX. apply I. now right. }
      exists data'. split; [exact E|]. intros t. destruct (X t) as [X1 X2]. split.
      + intros [<-|HT]; [|now apply X1]. specialize (X2 N1). unfold entries, bucket. rewrite X2, dget_dset_eq, G. exact F2.
      + intros HT. rewrite X2 by (intros H; apply HT; now right). apply dget_dset_neq. intros ->. apply HT. now left.
  Qed.
  Lemma ad_dict_ok : exists data, ad_dict a excl w = (w, Ok data) /\ forall t, Forall2 (dumped t) (bucket d t) (entries data t).
  Proof.
    destruct (dump_names_ok (dkeys d) []) as (data & E & X).
    { destruct OK as (ad' & d' & E1 & E2 & N & _). destruct (is_local_fun _ _ _ _ _ _ L (conj E1 E2)) as [<- <-]. exact N. }
    { apply incl_refl. }
    exists data. split.
    - unfold ad_dict, st_get_all_model_names, bind, get_adapter, get_state. destruct L as [LA LS]. rewrite LA, LS. exact E.
    - intros t. destruct (X t) as [X1 X2]. destruct (in_dec string_dec t (dkeys d)) as [I|I]; [now apply X1|].
      unfold entries. rewrite (X2 I). cbn [dget]. unfold bucket. apply dget_None in I. rewrite I. constructor.
  Qed.
End Dict.

(** ** one object *)
Lemma filter_dget {V} (P : string * V -> bool) (d : dict V) k : NoDup (dkeys d) ->
  dget (filter P d) k = match dget d k with Some v => if P (k, v) then Some v else None | None => None end.
Proof.
  unfold dkeys. induction d as [|[k' v] d IH]; intros N; [reflexivity|]. inversion N as [|x y N1 N2]; subst x y. cbn [filter dget].
  destruct (String.eqb_spec k k') as [->|NE].
  - destruct (P (k', v)); cbn [dget]; [now rewrite String.eqb_refl|]. rewrite (IH N2).
    destruct (dget d k') eqn:G; [|reflexivity]. contradiction N1. apply dget_Some_In in G. now apply (in_map fst) in G.
  - destruct (P (k', v)); cbn [dget]; [|exact (IH N2)]. apply String.eqb_neq in NE. rewrite NE. exact (IH N2).
Qed.
Lemma default_in fs k df : NoDup (map fst fs) -> In (k, df) fs -> field_default fs k = df.
Proof.
  induction fs as [|[k' d'] fs IH]; intros N HI; [easy|]. inversion N as [|x y N1 N2]; subst x y. cbn [field_default].
  destruct HI as [E|HI]; [injection E as -> ->; now rewrite String.eqb_refl|].
  destruct (String.eqb_spec k k') as [->|NE]; [|now apply IH]. contradiction N1. now apply (in_map fst) in HI.
Qed.
Lemma rebuild {V W} (f : string * V -> result (string * W)) (R : string * W -> string * W -> Prop) fs vals :
  map fst vals = map fst fs ->
  (forall k df v, In (k, df) fs -> In (k, v) vals -> exists v', f (k, df) = Ok (k, v') /\ R (k, v) (k, v')) ->
  exists vals', rmapM f fs = Ok vals' /\ Forall2 R vals vals' /\ map fst vals' = map fst fs.
Proof.
  revert vals. induction fs as [|[k df] fs IH]; intros [|[k' v] vals] E H; try discriminate; [exists []; repeat split; constructor|].
  cbn [map fst] in E. injection E as -> E. destruct (H k df v (or_introl eq_refl) (or_introl eq_refl)) as (v' & F & Q).
  destruct (IH vals E) as (vals' & F' & Q' & E').
  { intros k0 df0 v0 H1 H2. apply H; now right. }
  exists ((k, v') :: vals'). cbn [rmapM]. rewrite F. cbn [rbind]. rewrite F'. cbn [rbind]. repeat split; [now constructor|].
  cbn [map fst]. now rewrite E'.
Qed.
Lemma kids_rebuild (kids : dict (list string)) (g : string -> list string) : NoDup (dkeys kids) ->
  (forall k l, dget kids k = Some l -> g k = l) -> map (fun f => (f, g f)) (dkeys kids) = kids.
Proof.
  unfold dkeys. intros N H. assert (forall k l, In (k, l) kids -> g k = l) as H'.
  { intros k l HI. apply H. now apply In_dget. }
  clear H N. induction kids as [|[k l] kids IH]; [reflexivity|]. cbn [map fst]. rewrite (H' k l) by now left.
  f_equal. apply IH. intros k0 l0 HI. apply H'. now right.
Qed.
Lemma uid_pointwise o o' : o_cls o' = o_cls o -> dkeys (o_vals o') = dkeys (o_vals o) -> NoDup (dkeys (o_vals o)) ->
  (forall k, In k (c_identifiers (o_cls o)) -> option_map py_str (dget (o_vals o') k) = option_map py_str (dget (o_vals o) k)) ->
  get_unique_id o' = get_unique_id o.
Proof.
  intros C K N H. unfold get_unique_id, create_unique_id, get_identifiers, dump_include. rewrite C. f_equal.
  apply rmapM_ext. intros k HK. unfold dict_item. rewrite !filter_dget by (try rewrite K; exact N). specialize (H k HK). cbn [fst].
  apply smem_In in HK. rewrite HK. destruct (dget (o_vals o') k), (dget (o_vals o) k); cbn in *; congruence.
Qed.
Lemma load_dump excl o : well_shaped o -> (excl = true -> ids_as_default o) ->
  exists o', load_obj (o_cls o) (obj_dump excl o) = Ok o' /\ reloaded o o' /\ get_unique_id o' = get_unique_id o /\ o_adapter o' = None.
Proof.
  intros (SV & NV & SK & NK) ID.
  assert (NoDup (dkeys (o_vals o))) as NV' by now rewrite SV.
  assert (NoDup (dkeys (o_kids o))) as NK' by now rewrite SK.
  unfold load_obj, instantiate.
  set (f := fun fd : string * option val => _).
  set (R := fun kv kv' : string * val => fst kv' = fst kv /\ (snd kv' = snd kv \/ (excl = true /\ In (fst kv, Some (snd kv')) (c_fields (o_cls o)) /\ py_eq (snd kv) (snd kv') = true))).
  destruct (rebuild f R (c_fields (o_cls o)) (o_vals o) SV) as (vals' & F & Q & E').
  { intros k df v H1 H2. apply (In_dget _ _ _ NV') in H2. unfold f, R, obj_dump. cbn [fst snd]. destruct excl; cbn [du_vals].
    - rewrite (filter_dget _ _ _ NV'), H2. cbn [fst snd]. rewrite (default_in _ _ _ NV H1). destruct df as [dv|].
      + destruct (py_eq v dv) eqn:P; cbn [negb].
        * exists dv. split; [reflexivity|]. split; [reflexivity|]. right. now split.
        * exists v. split; [reflexivity|]. split; [reflexivity|]. now left.
      + exists v. split; [reflexivity|]. split; [reflexivity|]. now left.
    - rewrite H2. exists v. split; [reflexivity|]. split; [reflexivity|]. now left. }
  rewrite F. cbn [rbind].
  assert (map (fun f0 => (f0, match dget (du_kids (obj_dump excl o)) f0 with Some l => l | None => [] end)) (c_kid_fields (o_cls o)) = o_kids o) as KK.
  { rewrite <- SK. apply kids_rebuild; [exact NK'|]. intros k l G. unfold obj_dump. destruct excl; cbn [du_kids].
    - rewrite (filter_dget _ _ _ NK'), G. cbn [snd]. now destruct l.
    - now rewrite G. }
  rewrite KK. eexists. split; [reflexivity|]. split; [|split; [|reflexivity]].
  - split; [reflexivity|]. split; [reflexivity|]. split.
    + cbn [o_flags]. unfold obj_dump. destruct excl; cbn [du_flags]; [|reflexivity].
      destruct (N.eqb_spec (o_flags o) (c_flags (o_cls o))); congruence.
    + cbn [o_vals]. clear - Q. induction Q as [|x y xs ys [A B] Q IH]; constructor; [|exact IH]. split; [exact A|]. tauto.
  - apply uid_pointwise; cbn [o_cls o_vals].
    + reflexivity.
    + unfold dkeys in *. now rewrite E', SV.
    + exact NV'.
    + intros k HK. assert (NoDup (dkeys vals')) as NV2 by (unfold dkeys in *; rewrite E'; exact NV).
      destruct (dget (o_vals o) k) as [v|] eqn:G.
      * assert (exists v', In (k, v') vals' /\ R (k, v) (k, v')) as (v' & I & Rv).
        { apply dget_Some_In in G. clear - Q G. induction Q as [|[k1 v1] [k2 v2] xs ys A Q IH]; [easy|]. destruct G as [E|G].
          - injection E as -> ->. destruct A as [A B]. cbn [fst snd] in A. subst k2. exists v2. split; [now left|]. split; [reflexivity|exact B].
          - destruct (IH G) as (v' & I & Rv). exists v'. split; [now right|exact Rv]. }
        rewrite (In_dget _ _ _ NV2 I). cbn [option_map]. destruct Rv as [_ [Rv|(X & D & P)]]; cbn [fst snd] in *; [now rewrite Rv|].
        f_equal. symmetry. exact (ID X k v v' HK G D P).
      * apply dget_None in G. assert (dget vals' k = None) as ->; [|reflexivity]. apply dget_None.
        unfold dkeys in *. now rewrite E', <- SV.
Qed.

(** ** load_from_dict *)
Definition grown (b : aid) (w w' : world) : Prop :=
  framed b w w' /\ length (w_heap w) <= length (w_heap w') /\
  forall r, r < length (w_heap w) -> nth_error (w_heap w') r = nth_error (w_heap w) r.
Lemma grown_trans b w1 w2 w3 : grown b w1 w2 -> grown b w2 w3 -> grown b w1 w3.
Proof.
  intros (F & L & H) (F' & L' & H'). split; [now apply (framed_trans b w1 w2 w3)|]. split; [lia|].
  intros r R. rewrite H' by lia. now apply H.
Qed.

Definition load_one (b : aid) (c : cls) (values : dump) : M world unit :=
  o <- lift (load_obj c values) ;; r <- halloc o ;; st_add b r.
Lemma load_one_ok b c du o u w : has_local w b -> load_obj c du = Ok o -> get_unique_id o = Ok u -> lookup w b (get_type o) u = None ->
  exists w', load_one b c du w = (w', Ok tt) /\ grown b w w' /\ not_key (get_type o, u) w w' b /\
    exists r o', lookup w' b (get_type o) u = Some r /\ nth_error (w_heap w') r = Some o' /\ set_o_adapter o' None = set_o_adapter o None.
Proof.
  intros (ad & d & LA & LS) E U A.
  destruct (alloc_add b w o u ad d (conj LA LS) U A d (or_introl eq_refl)) as (w' & X & X1 & X2 & (o' & X3 & X3') & X4 & X5 & X6).
  rewrite <- LS, (upd_store_same w b ad LA) in X. exists w'. split; [|split; [|split; [exact X2|]]].
  - unfold load_one, bind, lift. rewrite E. unfold bind in X. destruct (halloc o w) as [w1 [r|e]]; [|discriminate].
    destruct (st_add b r w1) as [w2 [x|e]]; [|discriminate]. unfold ret in X. injection X as -> _. now destruct x.
  - split; [exact X6|]. split; [lia|exact X5].
  - exists (length (w_heap w)), o'. now repeat split.
Qed.
Lemma framed_local b w w' t u r : framed b w w' -> lookup w' b t u = Some r -> has_local w' b.
Proof.
  intros _ H. unfold lookup in H. destruct (nth_error (w_ads w') b) as [ad|] eqn:E; [|discriminate].
  destruct (ad_store ad) as [d|] eqn:S; [|discriminate]. now exists ad, d.
Qed.

Definition loads (c : cls) (t : string) (ud : string * dump) (o : obj) : Prop :=
  load_obj c (snd ud) = Ok o /\ get_type o = t /\ get_unique_id o = Ok (fst ud).
Definition arrived (w' : world) (b : aid) (t u : string) (o : obj) : Prop :=
  exists r o', lookup w' b t u = Some r /\ nth_error (w_heap w') r = Some o' /\ set_o_adapter o' None = set_o_adapter o None.
Lemma load_bucket b c t es os : Forall2 (loads c t) es os -> NoDup (map fst es) -> forall w, has_local w b ->
  (forall u, In u (map fst es) -> lookup w b t u = None) ->
  exists w', forM (map snd es) (load_one b c) w = (w', Ok tt) /\ has_local w' b /\ (w' = w \/ grown b w w') /\
    (forall t' u', ~ (t' = t /\ In u' (map fst es)) -> lookup w' b t' u' = lookup w b t' u') /\
    Forall2 (fun ud o => arrived w' b t (fst ud) o) es os.
Proof.
  induction 1 as [|[u du] o es os (E & T & U) F IH]; intros N w HL A.
  - exists w. split; [reflexivity|]. split; [exact HL|]. split; [now left|]. split; [reflexivity|constructor].
  - cbn [map fst snd] in *. inversion N as [|x y N1 N2]; subst x y. subst t.
    destruct (load_one_ok b c du o u w HL E U (A u (or_introl eq_refl))) as (w1 & X & G1 & NK & r & o1 & L1 & H1 & S1).
    pose proof (framed_local b w w1 _ _ _ (proj1 G1) L1) as HL1.
    destruct (IH N2 w1 HL1) as (w2 & X2 & HL2 & G2 & K2 & F2).
    { intros u' HU. rewrite NK; [apply A; now right|]. intros E'. injection E' as ->. contradiction. }
    exists w2. split; [cbn [forM]; unfold bind; now rewrite X|]. split; [exact HL2|].
    split; [right; destruct G2 as [->|G2]; [exact G1|exact (grown_trans _ _ _ _ G1 G2)]|]. split.
    + intros t' u' NE. rewrite K2 by (intros [-> HU]; apply NE; split; [reflexivity|now right]).
      apply NK. intros E'. injection E' as -> ->. apply NE. split; [reflexivity|now left].
    + constructor; [|exact F2]. cbn [fst]. exists r, o1. split; [|split; [|exact S1]].
      * rewrite K2; [exact L1|]. intros [_ HU]. contradiction.
      * destruct G2 as [->|(_ & _ & G2)]; [exact H1|]. rewrite G2; [exact H1|]. apply nth_error_Some. congruence.
Qed.

Definition load_name (b : aid) (classes : dict cls) (data : dict (dict dump)) (n : string) : M world unit :=
  c <- lift (match dget classes n with Some c => Ok c | None => Err ExnAttributeError end) ;;
  forM (dvals (match dget data n with Some x => x | None => [] end)) (load_one b c).
Lemma load_names b classes data names : NoDup names ->
  (forall n, In n names -> exists c os, dget classes n = Some c /\ Forall2 (loads c n) (entries data n) os /\ NoDup (dkeys (entries data n))) ->
  forall w, has_local w b -> (forall n u, In n names -> lookup w b n u = None) ->
  exists w', forM names (load_name b classes data) w = (w', Ok tt) /\ has_local w' b /\ (w' = w \/ grown b w w') /\
    (forall t u, ~ In t names -> lookup w' b t u = lookup w b t u) /\
    (forall n, In n names ->
       (forall u, ~ In u (dkeys (entries data n)) -> lookup w' b n u = None) /\
       exists c os, dget classes n = Some c /\ Forall2 (loads c n) (entries data n) os /\
         Forall2 (fun ud o => arrived w' b n (fst ud) o) (entries data n) os).
Proof.
  induction names as [|n names IH]; intros N H w HL A.
  - exists w. split; [reflexivity|]. split; [exact HL|]. split; [now left|]. split; [reflexivity|intros n []].
  - inversion N as [|x y N1 N2]; subst x y. destruct (H n (or_introl eq_refl)) as (c & os & C & F & ND).
    destruct (load_bucket b c n (entries data n) os F ND w HL) as (w1 & X1 & HL1 & G1 & K1 & F1).
    { intros u _. apply A. now left. }
    destruct (IH N2 (fun m HM => H m (or_intror HM)) w1 HL1) as (w2 & X2 & HL2 & G2 & K2 & F2).
    { intros m u HM. rewrite K1; [apply A; now right|]. intros [-> _]. contradiction. }
    exists w2. split.
    { cbn [forM]. unfold bind. unfold load_name at 1, bind, lift. rewrite C. fold (entries data n). unfold dvals. now rewrite X1. }
    split; [exact HL2|]. split.
    { destruct G1 as [->|G1]; [exact G2|]. destruct G2 as [->|G2]; right; [exact G1|exact (grown_trans _ _ _ _ G1 G2)]. }
    split.
    { intros t u NI. rewrite K2 by (intros HI; apply NI; now right). apply K1. intros [-> _]. apply NI. now left. }
    intros m [<-|HM]; [|now apply F2]. split.
    + intros u NU. rewrite (K2 _ _ N1), K1; [apply A; now left|]. intros [_ HU]. contradiction.
    + exists c, os. split; [exact C|]. split; [exact F|]. clear - F1 K2 N1 G2. induction F1 as [|ud o es os (r & o' & L & Hh & S) F1 IH1]; constructor; [|exact IH1].
      exists r, o'. split; [now rewrite (K2 _ _ N1)|]. split; [|exact S].
      destruct G2 as [->|(_ & _ & G2)]; [exact Hh|]. rewrite G2; [exact Hh|]. apply nth_error_Some. congruence.
Qed.

Lemma order_nodup ad : adapter_ok ad -> NoDup (initial_value_order (ad_top ad) (ad_classes ad)) /\
  forall n, In n (initial_value_order (ad_top ad) (ad_classes ad)) <-> In n (dkeys (ad_classes ad)).
Proof.
  intros (N & I & _). unfold initial_value_order. 
  assert (forall n, In n (ssort (sdedup (dkeys (ad_classes ad)))) <-> In n (dkeys (ad_classes ad))) as S.
  { intros n. rewrite In_ssort. apply sdedup_in. }
  split.
  - apply DifferCount.NoDup_app_intro; [exact N| |].
    + apply NoDup_filter. apply NoDup_ssort. apply sdedup_nodup.
    + intros x HX HI. apply filter_In in HI as [_ HI]. apply negb_true_iff in HI. apply smem_false in HI. contradiction.
  - intros n. rewrite in_app_iff, filter_In, S. split.
    + intros [H|[H _]]; [now apply I|exact H].
    + intros H. destruct (smem n (ad_top ad)) eqn:M; [left; now apply smem_In|]. right. split; [exact H|reflexivity].
Qed.

Lemma round_trip excl w a b ad adb : local_ok w a -> keyed w a -> nth_error (w_ads w) a = Some ad -> adapter_ok ad ->
  (forall t u r o c, lookup w a t u = Some r -> nth_error (w_heap w) r = Some o -> dget (ad_classes ad) t = Some c ->
     o_cls o = c /\ well_shaped o /\ (excl = true -> ids_as_default o)) ->
  nth_error (w_ads w) b = Some adb -> ad_store adb = SLocal [] -> ad_top adb = ad_top ad -> ad_classes adb = ad_classes ad ->
  exists data w', ad_dict a excl w = (w, Ok data) /\ load_from_dict b data w = (w', Ok tt) /\
    (forall t u, dget (ad_classes ad) t = None -> lookup w' b t u = None) /\
    (forall t u c, dget (ad_classes ad) t = Some c -> lookup w a t u = None -> lookup w' b t u = None) /\
    (forall t u c r o, dget (ad_classes ad) t = Some c -> lookup w a t u = Some r -> nth_error (w_heap w) r = Some o ->
       exists r' o', lookup w' b t u = Some r' /\ nth_error (w_heap w') r' = Some o' /\ reloaded o o') /\
    framed b w w' /\ (forall r, r < length (w_heap w) -> nth_error (w_heap w') r = nth_error (w_heap w) r).
Proof.
  intros OK KE HA AO SH HB HS TOP CL.
  assert (exists d, is_local w a ad d) as (d & L).
  { destruct OK as (ad' & d & E1 & E2 & _). rewrite HA in E1. injection E1 as <-. now exists d. }
  destruct (ad_dict_ok a excl w ad d L OK KE) as (data & D & X).
  destruct (order_nodup ad AO) as [ON OI].
  assert (forall n, map fst (entries data n) = map fst (bucket d n)) as KEYS.
  { intros n. specialize (X n). induction X as [|x y xs ys (E & _) X IH]; [reflexivity|]. cbn [map]. now rewrite E, IH. }
  assert (forall n, NoDup (dkeys (bucket d n))) as NB.
  { intros n. destruct OK as (ad' & d' & E1 & E2 & _ & NB). destruct (is_local_fun _ _ _ _ _ _ L (conj E1 E2)) as [<- <-].
    unfold bucket. destruct (dget d n) as [x|] eqn:G; [|constructor]. exact (NB _ _ (dget_Some_In _ _ _ G)). }
  assert (forall n c u r du, dget (ad_classes ad) n = Some c -> In (u, r) (bucket d n) -> dumped excl w n (u, r) (u, du) ->
    exists o o', nth_error (w_heap w) r = Some o /\ loads c n (u, du) o' /\ reloaded o o') as ONE.
  { intros n c u r du C HI (_ & o & Ho & E & T & U). cbn [fst snd] in *.
    assert (lookup w a n u = Some r) as LK by (rewrite (lookup_local _ _ _ _ _ _ L); now apply In_dget).
    destruct (SH n u r o c LK Ho C) as (E1 & E2 & E3). destruct (load_dump excl o E2 E3) as (o' & Y1 & Y2 & Y3 & _).
    exists o, o'. split; [exact Ho|]. split; [|exact Y2]. split; [|split]; cbn [fst snd].
    - rewrite E, <- E1. exact Y1.
    - unfold get_type in *. now rewrite (proj1 Y2).
    - now rewrite Y3. }
  destruct (load_names b (ad_classes ad) data _ ON) with (w := w) as (w' & W1 & W2 & W3 & W4 & W5).
  { intros n HN. apply OI in HN. destruct (dget (ad_classes ad) n) as [c|] eqn:C; [|now apply dget_None in C]. exists c.
    assert (exists os, Forall2 (loads c n) (entries data n) os) as (os & F).
    { specialize (X n). specialize (ONE n c). revert ONE X. generalize (bucket d n) (entries data n). clear - C. intros bk es ONE X.
      induction X as [|[u r] [u' du] bk es Q X IH]; [exists []; constructor|].
      destruct IH as (os & F). { intros u0 r0 du0 C0 HI. apply ONE; [exact C0|now right]. }
      pose proof (proj1 Q) as E. cbn [fst] in E. subst u'. destruct (ONE u r du C (or_introl eq_refl) Q) as (o & o' & _ & Y & _).
      exists (o' :: os). now constructor. }
    exists os. split; [reflexivity|]. split; [exact F|]. unfold dkeys. rewrite KEYS. apply NB. }
  { now exists adb, []. }
  { intros n u _. unfold lookup. now rewrite HB, HS. }
  exists data, w'. split; [exact D|]. split.
  { unfold load_from_dict, bind, get_adapter. rewrite HB, TOP, CL. exact W1. }
  assert (lookup w b = fun _ _ => None) as NONE by (unfold lookup; now rewrite HB, HS).
  split; [|split; [|split; [|split]]].
  - intros t u C. rewrite W4; [now rewrite NONE|]. rewrite OI. now apply dget_None.
  - intros t u c C LK. assert (In t (initial_value_order (ad_top ad) (ad_classes ad))) as HI.
    { apply OI. apply dget_Some_In in C. now apply (in_map fst) in C. }
    apply (proj1 (W5 t HI)). unfold dkeys. rewrite KEYS. fold (dkeys (bucket d t)). apply dget_None.
    now rewrite <- (lookup_local _ _ _ _ _ _ L).
  - intros t u c r o C LK Ho. assert (In t (initial_value_order (ad_top ad) (ad_classes ad))) as HI.
    { apply OI. apply dget_Some_In in C. now apply (in_map fst) in C. }
    destruct (proj2 (W5 t HI)) as (c' & os & C' & F & G). rewrite C in C'. injection C' as <-.
    rewrite (lookup_local _ _ _ _ _ _ L) in LK. apply dget_Some_In in LK.
    specialize (X t). specialize (ONE t c). revert X F G ONE LK. generalize (bucket d t) (entries data t). clear - C Ho. intros bk es X F G ONE LK.
    revert os F G. induction X as [|[u0 r0] [u' du] bk es Q X IH]; intros os F G; [easy|].
    inversion F as [|? o1 ? os1 F1 F2]; subst. inversion G as [|? ? ? ? G1 G2]; subst.
    destruct LK as [E|LK].
    + injection E as -> ->. pose proof (proj1 Q) as E. cbn [fst] in E. subst u'. destruct (ONE u r du C (or_introl eq_refl) Q) as (o2 & o' & Y1 & Y2 & Y3).
      rewrite Ho in Y1. injection Y1 as <-. destruct F1 as (Z & _). destruct Y2 as (Z' & _). cbn [snd] in *. rewrite Z in Z'. injection Z' as <-.
      destruct G1 as (r' & o'' & L1 & H1 & S1). exists r', o''. split; [exact L1|]. split; [exact H1|].
      destruct o1, o''. unfold set_o_adapter in S1. cbn in S1. injection S1 as -> -> -> -> -> ->. exact Y3.
    + apply IH with (os := os1); [|exact LK|exact F2|exact G2]. intros u1 r1 du1 C1 H1. apply ONE; [exact C1|now right].
  - destruct W3 as [->|(W3 & _)]; [apply framed_refl|exact W3].
  - destruct W3 as [->|(_ & _ & W3)]; [reflexivity|exact W3].
Qed.

(** ** what dict gives *)
Lemma obj_dumps excl o : well_shaped o -> dumps excl o (obj_dump excl o).
Proof.
  intros (KV & NV & KK & NK). assert (NV' : NoDup (dkeys (o_vals o))) by now rewrite KV. assert (NK' : NoDup (dkeys (o_kids o))) by now rewrite KK.
  destruct excl; cbn [obj_dump].
  - split; [|split]; cbn [du_vals du_kids du_flags].
    + intros k v. rewrite (filter_dget _ _ k NV'). destruct (dget (o_vals o) k) as [x|] eqn:G; [|split; [discriminate|intros [H _]; discriminate]]. cbn [fst snd]. split.
      * intros H. destruct (field_default (c_fields (o_cls o)) k) as [df|] eqn:F.
        -- destruct (py_eq x df) eqn:E; [discriminate|]. injection H as ->. split; [reflexivity|]. intros _ d I. rewrite (default_in _ _ _ NV I) in F. now injection F as <-.
        -- injection H as ->. split; [reflexivity|]. intros _ d I. rewrite (default_in _ _ _ NV I) in F. discriminate.
      * intros [H D]. injection H as ->. destruct (field_default (c_fields (o_cls o)) k) as [df|] eqn:F; [|reflexivity].
        assert (I : In (k, Some df) (c_fields (o_cls o))).
        { clear - F. induction (c_fields (o_cls o)) as [|[k' d'] fs IH]; [discriminate|]. cbn in F. destruct (String.eqb_spec k k') as [->|N]; [subst d'; now left|right; now apply IH]. }
        now rewrite (D eq_refl df I).
    + intros f ks. rewrite (filter_dget _ _ f NK'). destruct (dget (o_kids o) f) as [x|] eqn:G; [|split; [discriminate|intros [H _]; discriminate]]. cbn [fst snd]. split.
      * destruct x as [|y x]; [discriminate|]. intros H. injection H as <-. split; [reflexivity|discriminate].
      * intros [H D]. injection H as ->. destruct ks; [now destruct (D eq_refl)|reflexivity].
    + intros n. destruct (N.eqb_spec (o_flags o) (c_flags (o_cls o))) as [E|E].
      * split; [discriminate|]. intros [-> H]. now destruct (H eq_refl).
      * split; [intros H; injection H as <-; auto|]. intros [-> _]. reflexivity.
  - split; [|split]; cbn [du_vals du_kids du_flags].
    + intros k v. split; [intros H; split; [exact H|discriminate]|now intros [H _]].
    + intros k v. split; [intros H; split; [exact H|discriminate]|now intros [H _]].
    + intros n. split; [intros H; injection H as <-; split; [reflexivity|discriminate]|intros [-> _]; reflexivity].
Qed.
Lemma dict_is excl w a : local_ok w a -> keyed w a ->
  (forall t u r o, lookup w a t u = Some r -> nth_error (w_heap w) r = Some o -> well_shaped o) ->
  exists data, ad_dict a excl w = (w, Ok data) /\ forall t u,
    match lookup w a t u with
    | None => dget (match dget data t with Some b => b | None => [] end) u = None
    | Some r => exists o b du, nth_error (w_heap w) r = Some o /\ dget data t = Some b /\ dget b u = Some du /\ dumps excl o du
    end.
Proof.
  intros OK KE SH. pose proof OK as (ad & d & E1 & E2 & N & NB). assert (L : is_local w a ad d) by (split; assumption).
  destruct (ad_dict_ok a excl w ad d L OK KE) as (data & D & X). exists data. split; [exact D|]. intros t u. specialize (X t). unfold entries in X.
  assert (NT : NoDup (dkeys (bucket d t))) by (unfold bucket; destruct (dget d t) as [x|] eqn:G; [exact (NB _ _ (dget_Some_In _ _ _ G))|constructor]).
  destruct (lookup w a t u) as [r|] eqn:LK.
  - pose proof LK as LK'. rewrite (lookup_local _ _ _ _ _ _ L) in LK'. destruct (dget data t) as [b|]; cbn [entries] in X.
    2:{ inversion X as [Q|]; subst. rewrite <- Q in LK'. discriminate. }
    assert (Y : exists o du, nth_error (w_heap w) r = Some o /\ dget b u = Some du /\ du = obj_dump excl o).
    { clear - X LK' NT. induction X as [|[u1 r1] [u2 du] bk es (E & o & Ho & Ed & _) X IH]; [discriminate|]. cbn [fst snd] in *. subst u2. cbn [dget] in LK' |- *.
      destruct (String.eqb_spec u u1) as [->|NE]; [injection LK' as ->; exists o, du; auto|]. apply IH; [|exact LK']. now inversion NT. }
    destruct Y as (o & du & Ho & G & ->). exists o, b, (obj_dump excl o). do 3 (split; [auto|]). apply obj_dumps. exact (SH t u r o LK Ho).
  - rewrite (lookup_local _ _ _ _ _ _ L) in LK. apply dget_None. apply dget_None in LK. intros I. apply LK. clear - X I.
    revert X I. generalize (bucket d t) (match dget data t with Some b => b | None => [] end). intros bk es X I.
    induction X as [|[u1 r1] [u2 du] bk es (E & _) X IH]; [exact I|]. cbn [dkeys map fst snd] in *. subst u2. destruct I as [->|I]; [now left|right; now apply IH].
Qed.
