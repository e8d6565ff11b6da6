(** * SyncFrame: what a synchronisation leaves alone in the destination, at every point. *)
From Verif Require Export SyncFacts.

(** ** Child lists *)
Lemma remove_first_incl x l y : In y (remove_first x l) -> In y l.
Proof.
  induction l as [|z l IH]; simpl; [tauto|]. destruct (String.eqb x z); simpl; tauto.
Qed.
Lemma add_child_inv po co po' : add_child po co = Ok po' ->
  exists f l u, dget (c_children (o_cls po)) (get_type co) = Some f /\ dget (o_kids po) f = Some l /\
    get_unique_id co = Ok u /\ ~ In u l /\ po' = set_o_kids po (dset (o_kids po) f (l ++ [u])).
Proof.
  unfold add_child, getattr_kids. destruct (dget (c_children (o_cls po)) (get_type co)) as [f|]; [|discriminate].
  destruct (dget (o_kids po) f) as [l|] eqn:El; simpl; [|discriminate].
  destruct (get_unique_id co) as [u|]; simpl; [|discriminate].
  destruct (smem u l) eqn:S; [discriminate|]. intros H; injection H as <-.
  exists f, l, u. repeat split; auto. intros I. apply smem_In in I. congruence.
Qed.
Lemma remove_child_inv po co po' : remove_child po co = Ok po' ->
  exists f l u, dget (c_children (o_cls po)) (get_type co) = Some f /\ dget (o_kids po) f = Some l /\
    get_unique_id co = Ok u /\ In u l /\ po' = set_o_kids po (dset (o_kids po) f (remove_first u l)).
Proof.
  unfold remove_child, getattr_kids. destruct (dget (c_children (o_cls po)) (get_type co)) as [f|]; [|discriminate].
  destruct (dget (o_kids po) f) as [l|] eqn:El; simpl; [|discriminate].
  destruct (get_unique_id co) as [u|]; simpl; [|discriminate].
  destruct (smem u l) eqn:S; [|discriminate]. intros H; injection H as <-.
  exists f, l, u. repeat split; auto. now apply smem_In.
Qed.
Lemma own_field_unique c t t' f : own_fields c -> In (t, f) (c_children c) -> In (t', f) (c_children c) -> t = t'.
Proof.
  unfold own_fields, dvals. generalize (c_children c) as l. induction l as [|[k v] l IH]; simpl; [tauto|].
  intros ND H1 H2. inversion ND as [|? ? N1 N2]; subst.
  destruct H1 as [H1|H1], H2 as [H2|H2].
  - congruence.
  - injection H1 as -> ->. exfalso. apply N1. apply in_map_iff. exists (t', f). auto.
  - injection H2 as -> ->. exfalso. apply N1. apply in_map_iff. exists (t, f). auto.
  - auto.
Qed.
Lemma lists_dset po f l t u : lists (set_o_kids po (dset (o_kids po) f l)) t u ->
  lists po t u \/ (In (t, f) (c_children (o_cls po)) /\ In u l).
Proof.
  intros (f' & l' & H1 & H2 & H3). simpl in *. rewrite dget_dset in H2.
  destruct (String.eqb f' f) eqn:E.
  - apply String.eqb_eq in E as ->. injection H2 as <-. now right.
  - left. exists f', l'. auto.
Qed.
Lemma add_child_lists po co po' t u : add_child po co = Ok po' -> own_fields (o_cls po) ->
  lists po' t u -> lists po t u \/ (t = get_type co /\ get_unique_id co = Ok u).
Proof.
  intros H OW HL. destruct (add_child_inv _ _ _ H) as (f & l & uc & A1 & A2 & A3 & A4 & ->).
  apply lists_dset in HL as [HL|[HL1 HL2]]; [now left|].
  pose proof (dget_Some_In _ _ _ A1) as A1'. pose proof (own_field_unique _ _ _ _ OW HL1 A1') as ->.
  apply in_app_iff in HL2 as [HL2|[<-|[]]]; [|now right]. left. exists f, l. auto.
Qed.
Lemma remove_child_lists po co po' t u : remove_child po co = Ok po' -> lists po' t u -> lists po t u.
Proof.
  intros H HL. destruct (remove_child_inv _ _ _ H) as (f & l & uc & A1 & A2 & A3 & A4 & ->).
  apply lists_dset in HL as [HL|[HL1 HL2]]; [exact HL|].
  apply remove_first_incl in HL2. exists f, l. auto.
Qed.

(** ** Objects keep class, flags, unique id and child fields *)
Definition obj_rel (o o' : obj) : Prop :=
  o_cls o' = o_cls o /\ o_flags o' = o_flags o /\ get_unique_id o' = get_unique_id o /\
  (forall f, dget (o_kids o) f <> None -> dget (o_kids o') f <> None).
Lemma obj_rel_refl o : obj_rel o o.
Proof. repeat split; auto. Qed.
Lemma obj_rel_trans a b c : obj_rel a b -> obj_rel b c -> obj_rel a c.
Proof. intros (A1 & A2 & A3 & A4) (B1 & B2 & B3 & B4). repeat split; try congruence. auto. Qed.
Definition hrel (w w' : world) : Prop :=
  forall r o, nth_error (w_heap w) r = Some o -> exists o', nth_error (w_heap w') r = Some o' /\ obj_rel o o'.
Lemma hrel_refl w : hrel w w.
Proof. intros r o H. exists o. split; [exact H|apply obj_rel_refl]. Qed.
Lemma hrel_trans w1 w2 w3 : hrel w1 w2 -> hrel w2 w3 -> hrel w1 w3.
Proof.
  intros H1 H2 r o H. destruct (H1 r o H) as (o1 & E1 & R1). destruct (H2 r o1 E1) as (o2 & E2 & R2).
  exists o2. split; [exact E2|]. eapply obj_rel_trans; eauto.
Qed.
Lemma hrel_length w w' : hrel w w' -> length (w_heap w) <= length (w_heap w').
Proof.
  intros H. destruct (length (w_heap w)) as [|n] eqn:E; [lia|].
  destruct (nth_error (w_heap w) n) as [o|] eqn:En.
  - destruct (H _ _ En) as (o' & E' & _). assert (n < length (w_heap w')) by (apply nth_error_Some; congruence). lia.
  - apply nth_error_None in En. lia.
Qed.
Lemma hrel_set w r o o' : nth_error (w_heap w) r = Some o -> obj_rel o o' -> hrel w (set_heap w (list_set (w_heap w) r o')).
Proof.
  intros H R x ox Hx. simpl. destruct (Nat.eq_dec x r) as [->|N].
  - exists o'. rewrite (nth_list_set_eq _ _ _ _ H). split; [reflexivity|]. congruence.
  - exists ox. rewrite nth_list_set_neq by exact N. split; [exact Hx|apply obj_rel_refl].
Qed.
Lemma hrel_ro w w' : read_only w w' -> hrel w w'.
Proof. intros R r o H. exists o. split; [eapply read_only_nth; eauto|apply obj_rel_refl]. Qed.
Lemma obj_rel_sba o o' : set_o_adapter o None = set_o_adapter o' None -> obj_rel o o'.
Proof.
  intros H. apply sba_fields in H as (E1 & E2 & E3 & E4 & _). repeat split; auto.
  - symmetry. now apply uid_fields.
  - now rewrite E3.
Qed.
Lemma hrel_sba w w' : same_but_adapter (w_heap w) (w_heap w') -> hrel w w'.
Proof.
  intros H r o Ho. destruct (sba_nth_l _ _ _ _ H Ho) as (o' & Ho' & E). exists o'. split; [exact Ho'|].
  now apply obj_rel_sba.
Qed.

(** setting attributes that are no identifiers *)
Lemma setattr_uid o k v o' : setattr_val o k v = Ok o' -> ~ In k (c_identifiers (o_cls o)) -> obj_rel o o' /\ o_kids o' = o_kids o.
Proof.
  unfold setattr_val. destruct (dmem (o_vals o) k); [|discriminate]. intros H N. injection H as <-.
  split; [|reflexivity]. split; [reflexivity|]. split; [reflexivity|]. split; [|auto].
  unfold get_unique_id. simpl. unfold create_unique_id. f_equal.
  apply rmapM_ext. intros i Hi. unfold get_identifiers, dump_include, dict_item. simpl.
  rewrite !(dget_filter_key (fun x => smem x (c_identifiers (o_cls o)))).
  destruct (smem i (c_identifiers (o_cls o))); [|reflexivity].
  rewrite dget_dset_neq; [reflexivity|]. intros ->. contradiction.
Qed.
Lemma setattrs_rel attrs : forall o, (forall k, In k (dkeys attrs) -> ~ In k (c_identifiers (o_cls o))) ->
  obj_rel o (fst (setattrs o attrs)) /\ o_kids (fst (setattrs o attrs)) = o_kids o.
Proof.
  induction attrs as [|[k v] attrs IH]; intros o H; simpl; [split; [apply obj_rel_refl|reflexivity]|].
  destruct (setattr_val o k v) as [o1|] eqn:E; [|split; [apply obj_rel_refl|reflexivity]].
  destruct (setattr_uid _ _ _ _ E) as [R K]; [apply H; now left|].
  destruct (IH o1) as [R1 K1].
  - intros x Hx. destruct R as (-> & _). apply H. now right.
  - split; [eapply obj_rel_trans; eauto|congruence].
Qed.
Lemma obj_rel_status o st msg : obj_rel o (set_status o st msg).
Proof. repeat split; auto. Qed.
Lemma update_base_rel o attrs : (forall k, In k (dkeys attrs) -> ~ In k (c_identifiers (o_cls o))) ->
  obj_rel o (fst (update_base o attrs)) /\ o_kids (fst (update_base o attrs)) = o_kids o.
Proof.
  intros H. unfold update_base. destruct (setattrs_rel attrs o H) as [R K].
  destruct (setattrs o attrs) as [o' [[]|]]; simpl in *; auto.
Qed.

(** keys of the attributes to write are keys of the source's attributes *)
Lemma dkeys_pick d ks k : In k (dkeys (pick d ks)) -> In k (dkeys d).
Proof.
  unfold pick. assert (G : forall ks acc, (forall x, In x (dkeys acc) -> In x (dkeys d)) ->
    forall x, In x (dkeys (fold_left (fun acc k => match dget d k with Some v => dset acc k v | None => acc end) ks acc)) -> In x (dkeys d)).
  { clear. induction ks as [|y ks IH]; simpl; intros acc H x; [apply H|]. apply IH.
    intros z. destruct (dget d y) eqn:E; [|apply H]. intros Hz.
    destruct (String.eqb_spec z y) as [->|N]; [now apply dget_Some_key in E|].
    apply H. destruct (dget acc z) eqn:G; [eapply dget_Some_key; eauto|].
    apply dget_None in G. exfalso. assert (dget (dset acc y v) z = None) as X.
    { rewrite dget_dset_neq by congruence. now apply dget_None. }
    apply dget_None in X. contradiction. }
  apply G. intros x [].
Qed.
Lemma plus_attrs_keys e k : In k (dkeys (plus_attrs e)) -> exists s, e_src e = Some s /\ In k (dkeys s).
Proof.
  unfold plus_attrs, e_attrs_diffs, get_attrs_diffs. destruct (e_src e) as [s|], (e_dst e) as [d|]; simpl; try tauto.
  - intros H. exists s. split; [reflexivity|]. eapply dkeys_pick; eauto.
  - intros H. exists s. split; [reflexivity|]. eapply dkeys_pick; eauto.
Qed.

(** the unique id of a created object is that of the keys *)
Lemma uid_dict_eq c ids u o u' : create_unique_id c ids = Ok u -> o_cls o = c ->
  (forall k v, In k (c_identifiers c) -> In k (dkeys (o_vals o)) -> dget ids k = Some v -> dget (o_vals o) k = Some v) ->
  get_unique_id o = Ok u' -> u' = u.
Proof.
  intros E HC HV HU. unfold get_unique_id in HU. rewrite HC in HU. unfold create_unique_id in E, HU.
  match type of E with context [rmapM ?g] => set (f := g) in * end.
  match type of HU with context [rmapM ?g] => set (f' := g) in * end.
  destruct (rmapM f (c_identifiers c)) as [ys|] eqn:X; [|discriminate].
  destruct (rmapM f' (c_identifiers c)) as [ys'|] eqn:X'; [|discriminate].
  rewrite (rmapM_ext f f' (c_identifiers c)) in X; [congruence|]. intros k I.
  destruct (rmapM_In _ _ _ _ X I) as [y Y]. destruct (rmapM_In _ _ _ _ X' I) as [y' Y'].
  unfold f, f' in *. unfold dict_item in *.
  unfold get_identifiers, dump_include in *.
  rewrite (dget_filter_key (fun x => smem x (c_identifiers (o_cls o)))) in *.
  destruct (smem k (c_identifiers (o_cls o))); [|discriminate].
  destruct (dget (o_vals o) k) as [v'|] eqn:G'; [|discriminate].
  destruct (dget ids k) as [v|] eqn:G; [|discriminate].
  rewrite (HV k v I (dget_Some_key _ _ _ G') G) in G'. injection G' as <-. reflexivity.
Qed.
Lemma create_base_spec c a ids attrs o u : create_base c a ids attrs = Ok o -> create_unique_id c ids = Ok u ->
  o_cls o = c /\ o_flags o = c_flags c /\ (forall u', get_unique_id o = Ok u' -> u' = u) /\
  (forall f, In f (c_kid_fields c) -> dget (o_kids o) f = Some []) /\ (forall t x, ~ lists o t x).
Proof.
  unfold create_base. destruct (merge_kw ids attrs) as [kw|] eqn:EM; simpl; [|discriminate].
  destruct (instantiate c kw [] None (Some a)) as [o1|] eqn:EI; simpl; [|discriminate].
  intros H HU; injection H as <-. destruct (inst_vals _ _ _ _ _ _ EI) as (HC & HD & HV).
  assert (HK : o_kids o1 = map (fun f => (f, [])) (c_kid_fields c) /\ o_flags o1 = c_flags c).
  { unfold instantiate in EI. destruct (rmapM _ (c_fields c)); simpl in EI; [|discriminate].
    injection EI as <-. split; reflexivity. }
  destruct HK as [HK HF].
  assert (KE : forall f l, dget (o_kids o1) f = Some l -> l = []).
  { intros f l G. rewrite HK in G. apply dget_Some_In in G. apply in_map_iff in G as (x & E & _). congruence. }
  split; [exact HC|]. split; [exact HF|]. split; [|split].
  - intros u' Hu'. rewrite get_unique_id_status in Hu'.
    eapply (uid_dict_eq c ids u o1 u'); eauto. intros k v I1 I2 G. apply HV.
    + rewrite <- HD. exact I2.
    + unfold merge_kw in EM. destruct (existsb _ ids); [discriminate|]. injection EM as <-. now rewrite dget_app, G.
  - intros f Hf. simpl. destruct (dget (o_kids o1) f) as [l|] eqn:G; [now rewrite (KE _ _ G)|].
    exfalso. apply dget_None in G. apply G. rewrite HK. unfold dkeys. rewrite map_map. simpl. rewrite map_id. exact Hf.
  - intros t x (f & l & _ & G & I). simpl in G. rewrite (KE _ _ G) in I. destruct I.
Qed.
