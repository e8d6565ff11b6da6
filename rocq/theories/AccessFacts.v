(** * AccessFacts: lemmas about get_identifiers, get_attrs and names. *)
From Verif Require Export BaseMeth ModelFacts TextDefs.

Lemma include_iff o names k v : dget (dump_include o names) k = Some v <-> In k names /\ dget (o_vals o) k = Some v.
Proof.
  unfold dump_include. assert (S : smem k names = true <-> In k names).
  { unfold smem. rewrite existsb_exists. split; [intros (x & I & E); apply String.eqb_eq in E; now subst x|intros I; exists k; split; [exact I|apply String.eqb_refl]]. }
  induction (o_vals o) as [|[x y] l IH]; cbn [filter dget]; [intuition congruence|]. cbn [fst].
  destruct (String.eqb_spec k x) as [<-|NE].
  - destruct (smem k names) eqn:M; cbn [dget]; [rewrite String.eqb_refl; intuition congruence|]. split; [intros G; apply IH in G as (I & _); apply S in I; congruence|intros (I & _); apply S in I; congruence].
  - destruct (smem x names); cbn [dget]; [|exact IH]. destruct (String.eqb_spec k x); [congruence|exact IH].
Qed.
Lemma include_order o names : dkeys (dump_include o names) = filter (fun k => smem k names) (dkeys (o_vals o)).
Proof. unfold dump_include, dkeys. induction (o_vals o) as [|[x y] l IH]; [reflexivity|]. cbn [filter map fst]. destruct (smem x names); cbn [map fst]; congruence. Qed.
Lemma accepted_apart c extra : check_model_class c extra = Ok tt -> forall k, In k (c_identifiers c) -> ~ In k (c_attributes c).
Proof.
  unfold check_model_class. intros E k I J. repeat match type of E with (if ?b then _ else _) = _ => destruct b eqn:?; [discriminate|] end.
  assert (X : overlap (c_identifiers c) (c_attributes c) = true); [|congruence].
  unfold overlap. apply existsb_exists. exists k. split; [exact I|]. unfold smem. apply existsb_exists. exists k. split; [exact J|apply String.eqb_refl].
Qed.
Lemma joined {A} (f : string -> result A) (g : A -> string) (P : string -> A -> Prop) ks vs : (forall k v, P k v -> f k = Ok v) -> Forall2 P ks vs ->
  rbind (rmapM (fun k => rbind (f k) (fun v => Ok (g v))) ks) (fun l => Ok (join "__" l)) = Ok (join "__" (map g vs)).
Proof.
  intros H F. assert (X : rmapM (fun k => rbind (f k) (fun v => Ok (g v))) ks = Ok (map g vs)).
  { induction F as [|k v ks vs K F IH]; [reflexivity|]. cbn [rmapM map]. rewrite (H k v K). cbn [rbind]. now rewrite IH. }
  now rewrite X.
Qed.
Lemma uid_joined o vs : Forall2 (fun k v => dget (o_vals o) k = Some v) (c_identifiers (o_cls o)) vs -> get_unique_id o = Ok (join "__" (map py_str vs)).
Proof.
  intros F. unfold get_unique_id, create_unique_id. apply (joined (fun k => dict_item (get_identifiers o) k) py_str (fun k v => dget (get_identifiers o) k = Some v)).
  - intros k v G. unfold dict_item. now rewrite G.
  - assert (X : forall ks ws, incl ks (c_identifiers (o_cls o)) -> Forall2 (fun k v => dget (o_vals o) k = Some v) ks ws ->
      Forall2 (fun k v => dget (get_identifiers o) k = Some v) ks ws); [|apply X; [apply incl_refl|exact F]].
    intros ks ws I G. induction G as [|k v ks ws K G IH]; constructor; [|apply IH; intros x X; apply I; now right]. apply include_iff. split; [apply I; now left|exact K].
Qed.
Lemma short_joined o vs : c_shortname (o_cls o) <> [] -> Forall2 (fun k v => dget (o_vals o) k = Some v) (c_shortname (o_cls o)) vs ->
  get_shortname o = Ok (join "__" (map py_str vs)).
Proof.
  intros NE F. unfold get_shortname. destruct (c_shortname (o_cls o)) as [|k0 ks0] eqn:E; [congruence|]. apply (joined (fun k => getattr_val o k) py_str (fun k v => dget (o_vals o) k = Some v)); [|exact F].
  intros k v G. unfold getattr_val. now rewrite G.
Qed.
(** the keys of an included part are in declaration order, so equal lookups give equal dictionaries *)
Lemma filter_same (l m : dict val) (P : string -> bool) : map fst l = map fst m -> NoDup (map fst l) -> (forall k, P k = true -> dget l k = dget m k) ->
  filter (fun kv => P (fst kv)) l = filter (fun kv => P (fst kv)) m.
Proof.
  revert m. induction l as [|[x y] l IH]; intros [|[x' y'] m] E ND H; try discriminate; [reflexivity|]. cbn [map fst] in E, ND. injection E as <- E. inversion ND as [|? ? NI ND']; subst.
  cbn [filter fst]. assert (R : filter (fun kv : string * val => P (fst kv)) l = filter (fun kv : string * val => P (fst kv)) m).
  { apply IH; auto. intros k PK. specialize (H k PK). cbn [dget] in H. destruct (String.eqb_spec k x) as [EX|N]; [rewrite EX|exact H].
    assert (A : dget l x = None) by (apply dget_None; exact NI). assert (B : dget m x = None) by (apply dget_None; unfold dkeys; now rewrite <- E). congruence. }
  destruct (P x) eqn:PX; [|exact R]. rewrite R. specialize (H x PX). cbn [dget] in H. rewrite String.eqb_refl in H. congruence.
Qed.
Lemma recreated c extra a o : check_model_class c extra = Ok tt -> o_cls o = c -> NoDup (map fst (c_fields c)) -> map fst (o_vals o) = map fst (c_fields c) ->
  (forall k, In (k, None) (c_fields c) -> In k (c_identifiers c) \/ In k (c_attributes c)) ->
  exists o', create_base c a (get_identifiers o) (get_attrs o) = Ok o' /\
    get_identifiers o' = get_identifiers o /\ get_attrs o' = get_attrs o /\ get_unique_id o' = get_unique_id o.
Proof.
  intros CH C ND V RQ. pose proof (accepted_apart c extra CH) as AP. destruct (create_cases c a (get_identifiers o) (get_attrs o) ND) as (_ & X).
  assert (KD : forall (d : dict val) k, In k (dkeys d) -> exists v, dget d k = Some v).
  { intros d k I. destruct (dget d k) as [v|] eqn:G; [eauto|]. apply dget_None in G. now apply G in I. }
  assert (DJ : forall k, In k (dkeys (get_identifiers o)) -> ~ In k (dkeys (get_attrs o))).
  { intros k I J. apply KD in I as (v & G). apply KD in J as (v' & G'). apply include_iff in G as (G & _). apply include_iff in G' as (G' & _). rewrite C in G, G'. now apply (AP k). }
  apply X in DJ as (_ & Y). clear X.
  assert (HV : forall k, In k (map fst (c_fields c)) -> exists v, dget (o_vals o) k = Some v).
  { intros k I. rewrite <- V in I. destruct (dget (o_vals o) k) as [v|] eqn:G; [eauto|]. apply dget_None in G. now apply G in I. }
  assert (RG : forall k, In (k, None) (c_fields c) -> dget (get_identifiers o) k <> None \/ dget (get_attrs o) k <> None).
  { intros k I. destruct (HV k) as (v & G); [apply in_map_iff; exists (k, None); auto|]. destruct (RQ k I) as [R|R]; [left|right].
    - assert (A : dget (get_identifiers o) k = Some v) by (apply include_iff; rewrite C; auto). congruence.
    - assert (A : dget (get_attrs o) k = Some v) by (apply include_iff; rewrite C; auto). congruence. }
  apply Y in RG as (o' & E & C' & _ & _ & _ & V' & D & _). clear Y. unfold dkeys in V'.
  assert (Q : forall k, In k (c_identifiers c) \/ In k (c_attributes c) -> dget (o_vals o') k = dget (o_vals o) k).
  { intros k I. destruct (in_dec string_dec k (map fst (c_fields c))) as [F|F].
    - destruct (HV k F) as (v & G). apply in_map_iff in F as ([k' dv] & EK & F). cbn in EK. subst k'. rewrite (D k dv F), G.
      destruct (dget (get_identifiers o) k) as [x|] eqn:GI; [apply include_iff in GI as (_ & GI); congruence|].
      destruct (dget (get_attrs o) k) as [x|] eqn:GA; [apply include_iff in GA as (_ & GA); congruence|]. exfalso. destruct I as [I|I].
      + assert (A : dget (get_identifiers o) k = Some v) by (apply include_iff; rewrite C; auto). congruence.
      + assert (A : dget (get_attrs o) k = Some v) by (apply include_iff; rewrite C; auto). congruence.
    - assert (A : dget (o_vals o) k = None) by (apply dget_None; unfold dkeys; now rewrite V). assert (B : dget (o_vals o') k = None) by (apply dget_None; unfold dkeys; now rewrite V'). congruence. }
  assert (SM : forall k l, smem k l = true -> In k l) by (intros k l S; unfold smem in S; apply existsb_exists in S as (x & I & X); apply String.eqb_eq in X; now subst x).
  assert (I1 : get_identifiers o' = get_identifiers o).
  { unfold get_identifiers, dump_include. rewrite C, C'. apply (filter_same _ _ (fun k => smem k (c_identifiers c))); [congruence|now rewrite V'|]. intros k S. apply Q. left. now apply SM. }
  exists o'. split; [exact E|]. split; [exact I1|]. split.
  - unfold get_attrs, dump_include. rewrite C, C'. apply (filter_same _ _ (fun k => smem k (c_attributes c))); [congruence|now rewrite V'|]. intros k S. apply Q. right. now apply SM.
  - unfold get_unique_id. now rewrite I1, C, C'.
Qed.

(** ** Names *)
Lemma init_names cn ct top classes nm st : let ad := adapter_init cn ct top classes nm st in
  (forall t, ct = Some t -> ad_type ad = t) /\ (ct = None -> ad_type ad = cn) /\
  (forall n, nm = Some n -> n <> "" -> ad_name ad = n) /\ (nm = None \/ nm = Some "" -> ad_name ad = ad_type ad) /\
  ad_top ad = top /\ ad_classes ad = classes /\ ad_store ad = st.
Proof.
  unfold adapter_init. cbn. repeat split.
  - now intros t ->.
  - now intros ->.
  - intros n -> NE. destruct n; [congruence|reflexivity].
  - now intros [->| ->].
Qed.
Lemma str_names ad : (ad_name ad = ad_type ad -> ad_str ad = ad_type ad) /\
  (ad_name ad <> ad_type ad -> ad_str ad = (ad_type ad ++ " """ ++ ad_name ad ++ """")%string) /\ ad_repr ad = ("<" ++ ad_str ad ++ ">")%string.
Proof.
  split; [|split; [|reflexivity]]; intros E; unfold ad_str.
  - now rewrite E, String.eqb_refl.
  - apply String.eqb_neq in E. rewrite String.eqb_sym in E. now rewrite E.
Qed.
